(** The table represents a finite map *)
From Verif Require Import Base.Lib Base.Mem Sort.Spec Hash.Spec Hash.Model Hash.Table Hash.Parts.
From Verif Require List.Spec List.Model Llist.Spec Llist.Model Llist.Step Llist.Proofs.

Lemma total_app a b : total (a ++ b) = total a + total b.
Proof. unfold total. rewrite map_app, concat_app. llen. Qed.
Lemma total_cons k vs (t : table) : total ((k, vs) :: t) = length vs + total t.
Proof. unfold total. cbn. llen. Qed.
Lemma map_fst_put kcmp k vs t : map fst (put kcmp k vs t) = map fst t.
Proof. unfold put. rewrite map_map. apply map_ext. intros e. now destruct (same kcmp k e). Qed.

Section Prf.
Context (kcmp vcmp : N -> N -> Z) (hash : N -> N) (c : hcfg).
Context (dupk dupv : bool -> nat -> N -> N) (lev : nat -> nat) (g : N).
Context (W : wf_cfg c) (Hcb : forall i, good_cb kcmp vcmp hash c (dupk i)).

Lemma Hrefl x : kcmp x x = 0%Z. Proof. destruct (Hcb true) as (H & _). auto. Qed.
Lemma Hsym x y : kcmp x y = 0%Z -> kcmp y x = 0%Z. Proof. destruct (Hcb true) as (_ & H & _). auto. Qed.
Lemma Htr x y z : kcmp x y = 0%Z -> kcmp y z = 0%Z -> kcmp x z = 0%Z. Proof. destruct (Hcb true) as (_ & _ & H & _). eauto. Qed.
Lemma Hh x y : kcmp x y = 0%Z -> hash x = hash y. Proof. destruct (Hcb true) as (_ & _ & _ & H & _). auto. Qed.
Lemma Hd i n k : k <> 0%N -> dupk i n k <> 0%N /\ kcmp (dupk i n k) k = 0%Z. Proof. destruct (Hcb i) as (_ & _ & _ & _ & H & _). auto. Qed.
Lemma Hk : Llist.Spec.good_cmp kcmp (kcfg c).
Proof.
  destruct (Hcb true) as (_ & H1 & _ & _ & _ & H2 & _). unfold Llist.Spec.good_cmp. cbn. destruct (ksort c); auto.
Qed.
Lemma Hv : msort c = true -> total_preorder vcmp. Proof. destruct (Hcb true) as (_ & _ & _ & _ & _ & _ & H). auto. Qed.

Definition values (it : item) : list N := match ival it with One v => [v] | Many l => content l end.
Definition abs (it : item) : N * list N := (ikey it, values it).
Definition item_ok (it : item) : Prop :=
  ikey it <> 0%N /\
  match ival it with
  | One _ => multi c = false
  | Many l => multi c = true /\ vals_ok vcmp c l /\ content l <> []
  end.
Notation isk := (isk kcmp).
Notation kuniq := (kuniq kcmp).
Notation same := (same kcmp).
Notation look := (look kcmp).
Definition Its (h : tab) (its : list item) (t : table) : Prop :=
  Tb hash (bk h) its /\ Forall item_ok its /\ map abs its = t /\ kuniq its.
Record Rep (h : tab) (t : table) (ex : nat) : Prop := {
  r_its : exists its, Its h its t;
  r_nk : nk h = Z.of_nat (length t);
  r_nv : nv h = Z.of_nat (total t + ex);
  r_keys : ordered c = true -> keys_ok kcmp c (keys h) (map fst t)
}.

Lemma same_abs k it : same k (abs it) = isk k it.
Proof. reflexivity. Qed.
Lemma filter_abs k its : filter (same k) (map abs its) = map abs (filter (isk k) its).
Proof. induction its; cbn; auto. rewrite same_abs. destruct (isk k a); cbn; now rewrite IHits. Qed.
Lemma idx_eq h k : hash_idx hash h k = idx hash (length (bk h)) k.
Proof. reflexivity. Qed.

(** Where a key is *)
Definition absent (h : tab) (its : list item) (k : N) (B1 : list (list item)) (b : list item) (B2 : list (list item)) : Prop :=
  bk h = B1 ++ b :: B2 /\ length B1 = hash_idx hash h k /\ get_match kcmp b k = None /\ forall it, In it its -> isk k it = false.
Definition present (h : tab) (its : list item) (k : N) B1 p it q B2 i1 i2 : Prop :=
  bk h = B1 ++ (p ++ it :: q) :: B2 /\ length B1 = hash_idx hash h k /\ get_match kcmp (p ++ it :: q) k = Some (length p) /\
  isk k it = true /\ its = i1 ++ it :: i2 /\ Permutation (concat B1 ++ p ++ q ++ concat B2) (i1 ++ i2) /\
  forall x, In x (i1 ++ i2) -> isk k x = false.
Lemma where_is h its t k : Its h its t ->
  (exists B1 b B2, absent h its k B1 b B2) \/ (exists B1 p it q B2 i1 i2, present h its k B1 p it q B2 i1 i2).
Proof.
  intros (T & F & E & U). destruct (locate kcmp hash Hsym Htr Hh (bk h) its k T U) as (B1 & b & B2 & Eb & L & [[G N]|(p & it & q & -> & G & I & N)]).
  - left. exists B1, b, B2. split; auto.
  - right. assert (P : Permutation (concat B1 ++ p ++ it :: q ++ concat B2) its).
    { rewrite <- (t_perm _ _ _ T), Eb, concat_mid. rewrite <- (app_assoc p). reflexivity. }
    assert (Hin : In it its). { apply (Permutation_in _ P). rewrite app_assoc. apply in_elt. }
    apply in_split in Hin. destruct Hin as (i1 & i2 & ->).
    assert (P2 : Permutation (concat B1 ++ p ++ q ++ concat B2) (i1 ++ i2)).
    { apply (Permutation_cons_inv (a := it)). transitivity (i1 ++ it :: i2); [|symmetry; apply Permutation_middle]. rewrite <- P, !(app_assoc (concat B1) p). apply Permutation_middle. }
    exists B1, p, it, q, B2, i1, i2. split; auto. split; auto. split; auto. split; auto. split; auto. split; auto.
    intros x Hx. apply N. apply (Permutation_in _ (Permutation_sym P2)). exact Hx.
Qed.
Lemma look_absent h its t k B1 b B2 : Its h its t -> absent h its k B1 b B2 -> look k t = None /\ filter (same k) t = [].
Proof.
  intros (T & F & E & U) (_ & _ & _ & N). assert (K : filter (same k) t = []).
  { rewrite <- E, filter_abs, filter_none by auto. reflexivity. }
  split; auto. unfold Spec.look. rewrite K. now destruct (k =? 0)%N.
Qed.
Lemma look_present h its t k B1 p it q B2 i1 i2 : Its h its t -> present h its k B1 p it q B2 i1 i2 -> k <> 0%N ->
  look k t = Some (abs it) /\ t = map abs i1 ++ abs it :: map abs i2 /\
  (forall e, In e (map abs i1 ++ map abs i2) -> same k e = false) /\ same k (abs it) = true /\ item_ok it /\ Forall item_ok (i1 ++ i2).
Proof.
  intros (T & F & E & U) (_ & _ & _ & I & -> & _ & N) Hz. rewrite map_app in E. cbn in E.
  assert (F2 : forall e, In e (map abs i1 ++ map abs i2) -> same k e = false).
  { intros e He. rewrite <- map_app in He. apply in_map_iff in He. destruct He as (x & <- & Hx). rewrite same_abs. auto. }
  split; [|split; [auto|split; [auto|split; [auto|]]]].
  - unfold Spec.look. assert (Hz2 : (k =? 0)%N = false) by lia. rewrite Hz2, <- E, filter_app, filter_none by (intros; apply F2, in_app_iff; auto).
    cbn. change (same k (abs it)) with (isk k it). now rewrite I.
  - apply Forall_app in F. destruct F as [Fa Fb]. inversion Fb; subst. split; auto. apply Forall_app. auto.
Qed.
Lemma put_mid k vs a e b : (forall x, In x (a ++ b) -> same k x = false) -> same k e = true ->
  put kcmp k vs (a ++ e :: b) = a ++ (fst e, vs) :: b.
Proof.
  intros N I. unfold put. rewrite map_app. cbn. rewrite I. f_equal; [|f_equal]; rewrite <- map_id; apply map_ext_in; intros x Hx;
    rewrite N; auto; apply in_app_iff; auto.
Qed.
Lemma del_mid k a e b : (forall x, In x (a ++ b) -> same k x = false) -> same k e = true -> del kcmp k (a ++ e :: b) = a ++ b.
Proof.
  intros N I. unfold del. rewrite filter_app. cbn. rewrite I. cbn. rewrite !filter_all; auto; intros x Hx; rewrite N; auto; apply in_app_iff; auto.
Qed.
Lemma kuniq_mid i1 it it' i2 : kuniq (i1 ++ it :: i2) -> ikey it' = ikey it -> kuniq (i1 ++ it' :: i2).
Proof.
  intros U E k. specialize (U k). rewrite filter_app in *. cbn in *. unfold Table.isk in *. rewrite E. destruct (kcmp (ikey it) k =? 0)%Z; hlen.
Qed.
Lemma kuniq_del i1 it i2 : kuniq (i1 ++ it :: i2) -> kuniq (i1 ++ i2).
Proof. intros U k. specialize (U k). rewrite filter_app in *. cbn in *. destruct (isk k it); hlen. Qed.
Lemma kuniq_add its it : kuniq its -> (forall x, In x its -> isk (ikey it) x = false) -> kuniq (its ++ [it]).
Proof.
  intros U N k. rewrite filter_app. cbn. destruct (isk k it) eqn:I.
  - rewrite filter_none; [cbn; lia|]. intros x Hx. specialize (N x Hx). destruct (isk k x) eqn:Ix; auto. exfalso.
    unfold Table.isk in *. assert (kcmp (ikey x) (ikey it) = 0%Z); [|lia]. apply (Htr _ k); [lia|]. apply Hsym. lia.
  - rewrite app_nil_r. apply U.
Qed.

(** Replacing or removing the entry found *)
Lemma its_set h its t k B1 p it q B2 i1 i2 it' h' : Its h its t -> present h its k B1 p it q B2 i1 i2 -> k <> 0%N ->
  ikey it' = ikey it -> item_ok it' -> bk h' = B1 ++ (p ++ it' :: q) :: B2 ->
  Its h' (i1 ++ it' :: i2) (put kcmp k (values it') t).
Proof.
  intros I P Hz Ek Ok Eb. destruct (look_present _ _ _ _ _ _ _ _ _ _ _ I P Hz) as (_ & Et & N & Sm & _ & F).
  destruct I as (T & _ & E & U). destruct P as (Eb0 & L & _ & _ & -> & Pm & _). rewrite Eb0 in T. split; [|split; [|split]].
  - rewrite Eb. pose proof (tb_set hash _ _ _ _ _ _ it' T Ek) as T'. destruct T' as [T1 T2 T3]. split; auto. rewrite T3.
    rewrite app_assoc, <- Permutation_middle, <- app_assoc, Pm. apply Permutation_middle.
  - apply Forall_app in F. destruct F. apply Forall_app. auto.
  - rewrite map_app. cbn. rewrite Et, put_mid; auto. unfold abs at 2. rewrite Ek. reflexivity.
  - eapply kuniq_mid; eauto.
Qed.
Lemma its_del h its t k B1 p it q B2 i1 i2 h' : Its h its t -> present h its k B1 p it q B2 i1 i2 -> k <> 0%N ->
  bk h' = B1 ++ (p ++ q) :: B2 -> Its h' (i1 ++ i2) (del kcmp k t).
Proof.
  intros I P Hz Eb. destruct (look_present _ _ _ _ _ _ _ _ _ _ _ I P Hz) as (_ & Et & N & Sm & _ & F).
  destruct I as (T & _ & E & U). destruct P as (Eb0 & L & _ & _ & -> & Pm & _). rewrite Eb0 in T. split; [|split; [|split]]; auto.
  - rewrite Eb. pose proof (tb_del hash _ _ _ _ _ _ T) as T'. destruct T' as [T1 T2 T3]. split; auto. now rewrite T3.
  - rewrite map_app, Et, del_mid; auto.
  - eapply kuniq_del; eauto.
Qed.
Lemma its_add h its t it B1 b B2 h' k : Its h its t -> absent h its k B1 b B2 -> kcmp (ikey it) k = 0%Z -> item_ok it ->
  bk h' = B1 ++ chain_add it b :: B2 -> Its h' (its ++ [it]) (t ++ [abs it]).
Proof.
  intros (T & F & E & U) (Eb0 & L & _ & N) Ek Ok Eb. rewrite Eb0 in T. split; [|split; [|split]].
  - rewrite Eb. apply tb_add; auto. rewrite L, idx_eq, Eb0. unfold idx. now rewrite (Hh (ikey it) k).
  - apply Forall_app. auto.
  - rewrite map_app, E. reflexivity.
  - apply kuniq_add; auto. intros x Hx. specialize (N x Hx). unfold Table.isk in *. destruct (Z.eqb_spec (kcmp (ikey x) (ikey it)) 0); auto.
    assert (kcmp (ikey x) k = 0%Z) by (eapply Htr; eauto). lia.
Qed.

Lemma item_values it : item_ok it -> values it <> [].
Proof. intros [_ H]. unfold values. destruct (ival it); [discriminate|apply H]. Qed.

(** Insertion *)
Lemma store_new x v : exists s, store vcmp c g false (if multi c then Many (List.Model.create g) else One x) (One v) = Ok s /\
  forall k, k <> 0%N -> item_ok (mki k s) /\ values (mki k s) = [v].
Proof.
  unfold store. destruct (multi c) eqn:M.
  - destruct (vals_create vcmp c g) as [V0 C0]. destruct (vals_insert vcmp c lev g Hv _ v V0) as (d & E & V & A). rewrite E. cbn [bind].
    assert (content d = [v]) as Ec.
    { rewrite C0 in A. unfold added in A. destruct (msort c); [|exact A]. destruct A as [[i ->] _]. unfold insert_at. now destruct i. }
    exists (Many d). split; auto. intros k Hk0. unfold item_ok, values. cbn. rewrite Ec. repeat split; auto; try apply V. discriminate.
  - exists (One v). split; auto. intros k Hk0. unfold item_ok, values. cbn. auto.
Qed.
Lemma insert_direct_ok h t ex i k v : Rep h t ex -> k <> 0%N ->
  exists h' t' fv, insert_direct kcmp vcmp hash c dupk dupv lev g h true i false k (One v) = Ok (true, h') /\ Rep h' t' ex /\
    rel kcmp vcmp c (dupk i) (dupv i) (clk h) ex t (Insert k v) (RB true) t' [] fv 0 /\
    clk h' = S (clk h) /\ kf h' = kf h /\ vf h' = fv ++ vf h.
Proof.
  intros [[its I] Rk Rv Ry] Hz. assert (Hz2 : (k =? 0)%N = false) by lia. unfold insert_direct. rewrite Hz2.
  cbn [rel]. rewrite Hz2. cbn [dup_slot andb negb]. rewrite !andb_true_r.
  destruct (where_is _ _ _ k I) as [(B1 & b & B2 & A)|(B1 & p & it & q & B2 & i1 & i2 & P)].
  - pose proof (look_absent _ _ _ _ _ _ _ I A) as [Lk _]. rewrite Lk. pose proof A as (Eb & L & G & N).
    rewrite Eb, <- L, rd_app_mid. cbn [bind]. rewrite G. destruct (Hd i (clk h) k Hz) as [Hdz Hde].
    assert (Ks : exists d, (if ordered c then do '(_, d) <- Llist.Model.step kcmp (kcfg c) lev (keys h) (Llist.Spec.Insert (dupk i (clk h) k)); Ok d else Ok (keys h)) = Ok d /\
              (ordered c = true -> keys_ok kcmp c d (map fst t ++ [dupk i (clk h) k]))).
    { destruct (ordered c); [|eexists; split; [reflexivity|discriminate]].
      destruct (keys_insert kcmp c lev Hk (keys h) (map fst t) (dupk i (clk h) k) (Ry eq_refl) Hdz) as (r & d & E & K). rewrite E. cbn. eauto. }
    destruct Ks as (d & Eks & Kd). rewrite Eks. cbn [bind].
    destruct (store_new 0%N (dupv i (clk h) v)) as (s & Es & Hs). destruct (Hs _ Hdz) as [Oks Vs].
    replace (if multi c then Many (List.Model.create g) else One 0%N) with (if multi c then Many (List.Model.create g) else One 0%N) in Es by auto.
    rewrite Es. cbn [bind]. rewrite wr_app_mid. cbn [bind].
    eexists. exists (t ++ [(dupk i (clk h) k, [dupv i (clk h) v])]), []. split; [reflexivity|]. split; [|cbn; auto 7].
    split; cbn [bk keys nk nv].
    + exists (its ++ [mki (dupk i (clk h) k) s]). replace [(dupk i (clk h) k, [dupv i (clk h) v])] with [abs (mki (dupk i (clk h) k) s)] by (unfold abs; now rewrite Vs).
      eapply its_add; eauto.
    + rewrite Rk. hlen.
    + rewrite Rv, total_app, total_cons. cbn. lia.
    + intros Ho. rewrite map_app. cbn. auto.
  - pose proof (look_present _ _ _ _ _ _ _ _ _ _ _ I P Hz) as (Lk & Et & N & Sm & Oki & F). rewrite Lk. unfold abs at 1. pose proof P as (Eb & L & G & Ik & Ei & Pm & _).
    rewrite Eb, <- L, rd_app_mid. cbn [bind]. rewrite G, rd_app_mid. cbn [bind].
    assert (Tot : forall vs, total (put kcmp k vs t) + length (values it) = total t + length vs).
    { intros vs. rewrite Et, put_mid, !total_app by auto. unfold abs. cbn [fst]. rewrite !total_cons. lia. }
    assert (Lp : forall vs, length (put kcmp k vs t) = length t) by (intros; unfold put; now rewrite map_length).
    unfold store. pose proof Oki as [Kz Ov]. destruct (ival it) as [w|l] eqn:Ev.
    + (* single value *) rewrite Ov in *. cbn [negb andb slot_eq free_slot]. assert (Vw : values it = [w]) by (unfold values; now rewrite Ev).
      rewrite Vw in *. cbn [hd]. destruct (N.eqb_spec w (dupv i (clk h) v)) as [Ew|Ew].
      * eexists. exists t, []. split; [reflexivity|]. split; [split; cbn [bk keys nk nv]; auto; exists its; unfold Its in *; cbn [bk]; rewrite <- Eb; exact I|]. split; [|cbn; auto].
        split; auto. split; auto. split; auto. split; auto. rewrite <- Ew, <- Vw. rewrite Et, put_mid by auto. reflexivity.
      * cbn [bind]. rewrite wr_app_mid. cbn [bind]. rewrite wr_app_mid. cbn [bind].
        eexists. exists (put kcmp k [dupv i (clk h) v] t), [w]. split; [reflexivity|]. split; [|cbn; auto 7].
        split; cbn [bk keys nk nv].
        -- eexists. change [dupv i (clk h) v] with (values (mki (ikey it) (One (dupv i (clk h) v)))). eapply its_set; eauto; cbn; auto.
           split; cbn; auto.
        -- now rewrite Lp.
        -- specialize (Tot [dupv i (clk h) v]). cbn in Tot. rewrite Rv. lia.
        -- rewrite map_fst_put. auto.
    + (* several values *) destruct Ov as (M & V & Ne). rewrite M. cbn [negb andb].
      destruct (vals_insert vcmp c lev g Hv l (dupv i (clk h) v) V) as (l' & E & V' & A). rewrite E. cbn [bind]. rewrite wr_app_mid. cbn [bind]. rewrite wr_app_mid. cbn [bind].
      assert (Lc : length (content l') = S (length (content l))).
      { unfold added in A. destruct (msort c); [|rewrite A; llen]. destruct A as [[j ->] _]. unfold insert_at.
        rewrite app_length. cbn. rewrite <- (firstn_skipn j (content l)) at 3. llen. }
      assert (Vl : values it = content l) by (unfold values; now rewrite Ev).
      eexists. exists (put kcmp k (content l') t), []. split; [reflexivity|]. split.
      * split; cbn [bk keys nk nv].
        -- eexists. change (content l') with (values (mki (ikey it) (Many l'))). eapply its_set; eauto; cbn; auto.
           split; cbn; auto. split; auto. split; auto. destruct (content l'); [discriminate|congruence].
        -- now rewrite Lp.
        -- specialize (Tot (content l')). rewrite Vl, Lc in Tot. rewrite Rv. lia.
        -- rewrite map_fst_put. auto.
      * cbn. split; [|auto]. rewrite Vl. repeat split; auto. exists (content l'). auto.
Qed.

(** Rehashing *)
Lemma rehash_flat bs : forall h, rehash_buckets kcmp vcmp hash c dupk dupv lev g bs h = rehash_chain kcmp vcmp hash c dupk dupv lev g (concat bs) h.
Proof.
  induction bs as [|b bs IH]; intros h; cbn; auto. revert h. induction b as [|it b IHb]; intros h; cbn; [apply IH|].
  destruct (insert_direct kcmp vcmp hash c dupk dupv lev g h false false true (ikey it) (ival it)) as [[? ?]| |]; cbn; auto. 
Qed.
Lemma rehash_chain_ok : forall its done h, Tb hash (bk h) done -> kuniq (done ++ its) -> (forall it, In it its -> ikey it <> 0%N) ->
  exists bs n, rehash_chain kcmp vcmp hash c dupk dupv lev g its h =
    Ok (mkt bs (keys h) (nk h) (nv h) n (exps h) (clk h) (kf h) (vf h)) /\ Tb hash bs (done ++ its).
Proof.
  induction its as [|it its IH]; intros done h T U Hz.
  - exists (bk h), (coll h). cbn. rewrite app_nil_r. split; auto. now destruct h.
  - cbn [rehash_chain]. unfold insert_direct. assert (Hz2 : (ikey it =? 0)%N = false) by (specialize (Hz it (or_introl eq_refl)); lia). rewrite Hz2.
    assert (Ud : kuniq done). { intros k. specialize (U k). rewrite filter_app in U. hlen. }
    destruct (locate kcmp hash Hsym Htr Hh (bk h) done (ikey it) T Ud) as (B1 & b & B2 & Eb & L & C).
    assert (Nd : forall x, In x done -> isk (ikey it) x = false).
    { intros x Hx. destruct (isk (ikey it) x) eqn:Ix; auto. exfalso. specialize (U (ikey it)). rewrite filter_app in U. cbn in U.
      replace (isk (ikey it) it) with true in U by (unfold Table.isk; now rewrite Hrefl).
      assert (Hf : In x (filter (isk (ikey it)) done)) by (now apply filter_In). destruct (filter (isk (ikey it)) done); [contradiction|hlen]. }
    assert (G : get_match kcmp b (ikey it) = None).
    { destruct C as [[G _]|(p & x & q & -> & G & Ix & _)]; auto. rewrite Nd in Ix; [discriminate|].
      apply (Permutation_in _ (t_perm _ _ _ T)). rewrite Eb, concat_mid. apply in_or_app. right. apply in_or_app. left. apply in_elt. }
    rewrite idx_eq, <- L, Eb, rd_app_mid. cbn [bind]. rewrite G. rewrite !andb_false_r. cbn [bind].
    assert (Es : store vcmp c g true (One 0%N) (ival it) = Ok (ival it)) by (unfold store; now destruct (multi c)). rewrite Es. cbn [bind].
    rewrite wr_app_mid. cbn [bind].
    match goal with |- context [rehash_chain _ _ _ _ _ _ _ _ its ?h1] => destruct (IH (done ++ [it]) h1) as (bs & n & E & T') end.
    + cbn [bk]. replace (mki (ikey it) (ival it)) with it by (now destruct it). apply tb_add; [now rewrite <- Eb|]. now rewrite <- Eb, L.
    + now rewrite <- app_assoc.
    + intros; apply Hz; now right.
    + exists bs, n. rewrite E. cbn. rewrite <- app_assoc in T'. auto.
Qed.
Lemma its_uniq_bk h its t : Its h its t -> kuniq (concat (bk h)).
Proof. intros (T & _ & _ & U). eapply uniq_perm; [|exact U]. symmetry. apply (t_perm _ _ _ T). Qed.
Lemma rehash_ok h t ex : Rep h t ex ->
  exists h', rehash kcmp vcmp hash c dupk dupv lev g h = Ok h' /\ Rep h' t ex /\ clk h' = clk h /\ kf h' = kf h /\ vf h' = vf h.
Proof.
  intros [[its I] Rk Rv Ry]. unfold rehash. destruct (max_buckets <? 2 * size h)%N.
  - exists h. split; auto. split; auto. now split; try exists its.
  - rewrite rehash_flat. pose proof I as (T & F & E & U). destruct (t_len _ _ _ T) as [e He].
    match goal with |- context [rehash_chain _ _ _ _ _ _ _ _ _ ?h1] => destruct (rehash_chain_ok (concat (bk h)) [] h1) as (bs & n & E1 & T1) end.
    + cbn [bk]. rewrite He. change (2 * 2 ^ e) with (2 ^ S e). apply tb_empty.
    + cbn [app]. eapply its_uniq_bk; eauto.
    + intros it Hit. apply (Permutation_in _ (t_perm _ _ _ T)) in Hit. rewrite Forall_forall in F. apply (F _ Hit).
    + rewrite E1. eexists. split; [reflexivity|]. cbn [keys nk nv kf vf clk]. split; auto. split; cbn [bk keys nk nv]; auto.
      exists its. split; auto. destruct T1 as [A B C]. split; auto. cbn [app] in C. rewrite C. apply (t_perm _ _ _ T).
Qed.
Lemma insert_int_ok h t ex i k v : Rep h t ex ->
  exists r h' t' fv, insert_int kcmp vcmp hash c dupk dupv lev g h i k v = Ok (r, h') /\ Rep h' t' ex /\
    rel kcmp vcmp c (dupk i) (dupv i) (clk h) ex t (Insert k v) (RB r) t' [] fv 0 /\
    clk h' = inserts (Insert k v) + clk h /\ kf h' = kf h /\ vf h' = fv ++ vf h.
Proof.
  intros R. unfold insert_int. destruct (N.eqb_spec k 0) as [->|Hz].
  - unfold insert_direct. cbn. exists false, h, t, []. cbn. auto 10.
  - destruct (insert_direct_ok h t ex i k v R Hz) as (h1 & t' & fv & E & R1 & Rel & C1 & K1 & V1). rewrite E. cbn [bind negb].
    assert (Ei : inserts (Insert k v) + clk h = S (clk h)) by (cbn; destruct (N.eqb_spec k 0); [contradiction|lia]). rewrite Ei.
    destruct (exceeds_load c h1).
    + destruct (rehash_ok h1 t' ex R1) as (h2 & E2 & R2 & C2 & K2 & V2). rewrite E2. cbn [bind]. exists true, h2, t', fv.
      rewrite C2, K2, V2. auto 7.
    + exists true, h1, t', fv. auto 7.
Qed.

(** Looking up *)
Lemma lookup_ok h t ex k : Rep h t ex -> k <> 0%N ->
  (lookup kcmp hash h k = Ok None /\ look k t = None) \/
  (exists its B1 p it q B2 i1 i2, Its h its t /\ present h its k B1 p it q B2 i1 i2 /\ lookup kcmp hash h k = Ok (Some (p ++ it :: q, length p, it)) /\
     look k t = Some (abs it) /\ item_ok it).
Proof.
  intros [[its I] _ _ _] Hz. unfold lookup. destruct (where_is _ _ _ k I) as [(B1 & b & B2 & A)|(B1 & p & it & q & B2 & i1 & i2 & P)].
  - left. pose proof (look_absent _ _ _ _ _ _ _ I A) as [Lk _]. destruct A as (Eb & L & G & N). rewrite Eb, <- L, rd_app_mid. cbn [bind]. rewrite G. auto.
  - right. exists its, B1, p, it, q, B2, i1, i2. pose proof (look_present _ _ _ _ _ _ _ _ _ _ _ I P Hz) as (Lk & Et & N & Sm & Oki & F).
    split; auto. split; auto. destruct P as (Eb & L & G & _). rewrite Eb, <- L, rd_app_mid. cbn [bind]. rewrite G, rd_app_mid. auto.
Qed.
Lemma value_len_ok it : item_ok it -> value_len c it = Ok (length (values it)).
Proof.
  intros [_ H]. unfold value_len, values. destruct (ival it).
  - rewrite H. reflexivity.
  - destruct H as (-> & V & _). now rewrite (vals_len vcmp c l V).
Qed.
Lemma get_int_ok it i : item_ok it -> get_int c it i = Ok (nth_error (values it) i).
Proof.
  intros O. unfold get_int. rewrite value_len_ok by auto. cbn [bind]. destruct (Nat.leb_spec (length (values it)) i) as [Hl|Hl].
  - apply nth_error_None in Hl. now rewrite Hl.
  - destruct O as [_ H]. unfold values in *. destruct (ival it).
    + rewrite H. cbn in Hl. assert (i = 0) as -> by lia. reflexivity.
    + destruct H as (-> & V & _). rewrite (vals_at vcmp c g l i V). cbn. now rewrite (nth_error_nth' _ 0%N Hl).
Qed.
Definition got (vs : list N) : option N := if getlast c then hd_error (rev vs) else hd_error vs.
Lemma hget_ok h t ex k : Rep h t ex -> hget kcmp hash c h k = Ok (match look k t with None => None | Some (_, vs) => got vs end).
Proof.
  intros R. unfold hget. destruct (N.eqb_spec k 0) as [->|Hz]; [reflexivity|].
  destruct (lookup_ok h t ex k R Hz) as [[-> ->]|(its & B1 & p & it & q & B2 & i1 & i2 & I & P & -> & -> & O)]; cbn [bind]; auto.
  unfold abs, got. rewrite value_len_ok by auto. cbn [bind].
  assert (Z0 : get_int c it 0 = Ok (hd_error (values it))) by (rewrite get_int_ok by auto; now destruct (values it)).
  assert (Gl : getlast c = true -> multi c = true) by (destruct W as (_ & H & _); destruct (multi c); auto; intros; destruct H; congruence).
  destruct (multi c); cbn [bind].
  - destruct (getlast c); cbn [bind]; auto. rewrite get_int_ok by auto. f_equal. pose proof (item_values _ O) as Ne.
    destruct (exists_last Ne) as (l & x & ->). rewrite rev_app_distr. cbn. rewrite app_length. cbn. replace (length l + 1 - 1) with (length l) by lia. now apply nth_error_mid.
  - destruct (getlast c); auto. now specialize (Gl eq_refl).
Qed.
Lemma multi_len_ok h t ex k : Rep h t ex ->
  multi_len kcmp hash c h k = Ok (if multi c then match look k t with None => None | Some (_, vs) => Some (length vs) end else None).
Proof.
  intros R. unfold multi_len. destruct (multi c); cbn [negb orb]; auto. destruct (N.eqb_spec k 0) as [->|Hz]; [reflexivity|].
  destruct (lookup_ok h t ex k R Hz) as [[-> ->]|(its & B1 & p & it & q & B2 & i1 & i2 & I & P & -> & -> & O)]; cbn [bind]; auto.
  rewrite value_len_ok by auto. reflexivity.
Qed.
Lemma multi_get_ok h t ex k i : Rep h t ex ->
  multi_get kcmp hash c h k i = Ok (if multi c then match look k t with None => None | Some (_, vs) => nth_error vs i end else None).
Proof.
  intros R. unfold multi_get. destruct (multi c); cbn [negb orb]; auto. destruct (N.eqb_spec k 0) as [->|Hz]; [reflexivity|].
  destruct (lookup_ok h t ex k R Hz) as [[-> ->]|(its & B1 & p & it & q & B2 & i1 & i2 & I & P & -> & -> & O)]; cbn [bind]; auto.
  rewrite get_int_ok by auto. reflexivity.
Qed.

(** Removal *)
Lemma free_ok it dv : item_ok it ->
  (if multi c then match ival it with Many l => list_destroy l dv | One _ => UB end else Ok (if dv then free_slot (ival it) else [])) =
  Ok (if dv then values it else []).
Proof.
  intros [_ H]. unfold values. destruct (ival it).
  - rewrite H. reflexivity.
  - destruct H as (-> & V & _). now rewrite (vals_free vcmp c l dv V).
Qed.
Lemma keys_drop d a it b : (ordered c = true -> keys_ok kcmp c d (map ikey a ++ ikey it :: map ikey b)) -> ikey it <> 0%N ->
  (forall x, In x (a ++ b) -> isk (ikey it) x = false) ->
  exists d', (if ordered c then do '(_, d) <- Llist.Model.step kcmp (kcfg c) lev d (Llist.Spec.RemoveVal (ikey it) (List.Spec.mkt false false)); Ok d else Ok d) = Ok d' /\
    (ordered c = true -> keys_ok kcmp c d' (map ikey a ++ map ikey b)).
Proof.
  intros K Hz N. destruct (ordered c); [|eexists; split; [reflexivity|discriminate]].
  destruct (keys_remove kcmp c lev Hk d _ _ _ (K eq_refl)) as (r & d' & E & K'); auto using Hrefl.
  - intros x Hx E. rewrite <- map_app in Hx. apply in_map_iff in Hx. destruct Hx as (y & <- & Hy). specialize (N y Hy). unfold Table.isk in N.
    apply Hsym in E. lia.
  - rewrite E. cbn. eauto.
Qed.
Lemma destroy_entry_ok h a it b dv : (ordered c = true -> keys_ok kcmp c (keys h) (map ikey a ++ ikey it :: map ikey b)) -> item_ok it ->
  (forall x, In x (a ++ b) -> isk (ikey it) x = false) ->
  exists d', destroy_entry kcmp c lev h it dv =
    Ok (mkt (bk h) d' (nk h) (nv h) (coll h) (exps h) (clk h) (ikey it :: kf h) ((if dv then values it else []) ++ vf h)) /\
    (ordered c = true -> keys_ok kcmp c d' (map ikey a ++ map ikey b)).
Proof.
  intros K O N. unfold destroy_entry. destruct (keys_drop _ _ _ _ K (proj1 O) N) as (d' & E & K'). rewrite E. cbn [bind].
  rewrite free_ok by auto. cbn [bind]. eauto.
Qed.
Lemma others_isk k it x : isk k it = true -> isk k x = false -> isk (ikey it) x = false.
Proof.
  unfold Table.isk. intros H1 H2. destruct (Z.eqb_spec (kcmp (ikey x) (ikey it)) 0); auto.
  assert (kcmp (ikey x) k = 0%Z) by (apply (Htr _ (ikey it)); auto; lia). lia.
Qed.
Lemma map_fst_abs its : map fst (map abs its) = map ikey its.
Proof. rewrite map_map. reflexivity. Qed.
Lemma remove_ok h t ex k dv : Rep h t ex ->
  exists r h' t' fk fv, remove kcmp hash c lev h k dv = Ok (r, h') /\ Rep h' t' ex /\
    rel kcmp vcmp c (dupk true) (dupv true) (clk h) ex t (Remove k dv) (RB r) t' fk fv 0 /\ clk h' = clk h /\ kf h' = fk ++ kf h /\ vf h' = fv ++ vf h.
Proof.
  intros R. unfold remove. destruct (N.eqb_spec k 0) as [->|Hz].
  { exists false, h, t, [], []. cbn. auto 10. }
  destruct (lookup_ok h t ex k R Hz) as [[E Lk]|(its & B1 & p & it & q & B2 & i1 & i2 & I & P & E & Lk & O)]; rewrite E; cbn [bind rel]; rewrite Lk.
  - exists false, h, t, [], []. auto 10.
  - rewrite value_len_ok by auto. cbn [bind]. pose proof (look_present _ _ _ _ _ _ _ _ _ _ _ I P Hz) as (_ & Et & N & Sm & _ & F).
    pose proof P as (Eb & L & G & Ik & Ei & Pm & N2). destruct R as [_ Rk Rv Ry].
    destruct (destroy_entry_ok h i1 it i2 dv) as (d' & Ed & K'); auto.
    { intros Ho. specialize (Ry Ho). rewrite Et, map_app in Ry. cbn in Ry. now rewrite !map_fst_abs in Ry. }
    { intros x Hx. eapply others_isk; eauto. }
    rewrite Ed. cbn [bind]. match goal with |- context [hash_idx hash ?x k] => change (hash_idx hash x k) with (hash_idx hash h k) end.
    cbn [bk]. rewrite Eb. rewrite <- L, wr_app_mid. cbn [bind]. rewrite unchain_ok.
    eexists true, _, (del kcmp k t), [ikey it], (if dv then values it else []). split; [reflexivity|]. split; [|cbn; auto 7].
    assert (Ed2 : del kcmp k t = map abs i1 ++ map abs i2) by (rewrite Et; apply del_mid; auto).
    split; cbn [bk keys nk nv].
    + exists (i1 ++ i2). eapply its_del; eauto.
    + rewrite Rk, Ed2, Et. rewrite !app_length. cbn. lia.
    + rewrite Rv, Ed2, Et. rewrite !total_app. unfold abs at 2. rewrite total_cons. lia.
    + intros Ho. rewrite Ed2, map_app, !map_fst_abs. auto.
Qed.
Lemma multi_remove_ok h t ex k i dv : Rep h t ex ->
  exists r h' t' fk fv d, multi_remove kcmp hash c lev h k i dv = Ok (r, h') /\ Rep h' t' (d + ex) /\
    rel kcmp vcmp c (dupk true) (dupv true) (clk h) ex t (MultiRemove k i dv) (RB r) t' fk fv d /\ clk h' = clk h /\ kf h' = fk ++ kf h /\ vf h' = fv ++ vf h.
Proof.
  intros R. unfold multi_remove. cbn [rel]. destruct (multi c) eqn:M; cbn [negb orb].
  2:{ exists false, h, t, [], [], 0. auto 10. }
  destruct (N.eqb_spec k 0) as [->|Hz].
  { exists false, h, t, [], [], 0. cbn. auto 10. }
  destruct (lookup_ok h t ex k R Hz) as [[E Lk]|(its & B1 & p & it & q & B2 & i1 & i2 & I & P & E & Lk & O)]; rewrite E; cbn [bind rel].
  { rewrite Lk. exists false, h, t, [], [], 0. auto 10. }
  rewrite value_len_ok by auto. cbn [bind]. destruct (Nat.leb_spec (length (values it)) i) as [Hi|Hi].
  { rewrite Lk. unfold abs. destruct (Nat.leb_spec (length (values it)) i); [|lia]. exists false, h, t, [], [], 0. auto 10. }
  destruct (Nat.eqb_spec (length (values it)) 1) as [L1|L1].
  - destruct (remove_ok h t ex k dv R) as (r & h' & t' & fk & fv & Er & R' & Rel & C' & K' & V'). rewrite Er. cbn [rel] in Rel. rewrite Lk in *. unfold abs in *.
    destruct Rel as (_ & Hr & -> & -> & ->). injection Hr as ->. exists true, h', (del kcmp k t), [ikey it], (if dv then values it else []), 0.
    split; auto. split; auto. split; auto. destruct (Nat.leb_spec (length (values it)) i); [lia|]. destruct (Nat.eqb_spec (length (values it)) 1); [|lia].
    split; auto. split; auto. destruct dv; auto. destruct (values it) as [|x [|y l]]; cbn in *; try lia. now replace i with 0 by lia.
  - rewrite Lk. unfold abs. pose proof (look_present _ _ _ _ _ _ _ _ _ _ _ I P Hz) as (_ & Et & N & Sm & _ & F).
    pose proof P as (Eb & L & G & Ik & Ei & Pm & N2). destruct R as [_ Rk Rv Ry]. pose proof O as [Kz Ov].
    destruct (Nat.leb_spec (length (values it)) i) as [|_]; [lia|]. destruct (Nat.eqb_spec (length (values it)) 1) as [|_]; [lia|].
    assert (Vl : values it = match ival it with One v => [v] | Many l => content l end) by reflexivity.
    destruct (ival it) as [w|l] eqn:Ev; [congruence|]. destruct Ov as (_ & V & Ne). rewrite Vl in *.
    destruct (vals_take vcmp c g l i V Hi) as (l' & El & V' & Cl). rewrite El. cbn [bind].
    assert (Ld : S (length (content l')) = length (content l)).
    { rewrite Cl. unfold drop_nth. rewrite app_length, firstn_length, skipn_length. lia. }
    rewrite wr_app_mid. cbn [bind]. rewrite Eb, <- L, wr_app_mid. cbn [bind].
    eexists true, _, (put kcmp k (content l') t), [], (if dv then [nth i (content l) 0%N] else []), 1. split; [reflexivity|]. split.
    + split; cbn [bk keys nk nv].
      * eexists. change (content l') with (values (mki (ikey it) (Many l'))). eapply its_set; eauto. split; cbn; auto. split; auto. split; auto.
        destruct (content l'); [cbn in Ld; lia|discriminate].
      * rewrite Rk. unfold put. now rewrite map_length.
      * rewrite Rv, Et, put_mid, !total_app by auto. unfold abs. cbn [fst]. rewrite !total_cons, Vl. lia.
      * rewrite map_fst_put. auto.
    + rewrite Cl. cbn. destruct dv; auto 10.
Qed.
End Prf.

(** Destruction, duplication, number of buckets *)
From Verif Require Import Base.Lib Base.Mem Sort.Spec Hash.Spec Hash.Model Hash.Table Hash.Parts Hash.Proofs Hash.Enum.
From Verif Require List.Spec List.Model Llist.Spec Llist.Model Llist.Step Llist.Proofs.

Section Dup.
Context (kcmp vcmp : N -> N -> Z) (hash : N -> N) (c : hcfg).
Context (dupk dupv : bool -> nat -> N -> N) (lev : nat -> nat) (g : N).
Context (W : wf_cfg c) (Hcb : forall i, good_cb kcmp vcmp hash c (dupk i)).
Notation Rep := (Rep kcmp vcmp hash c).
Notation Its := (Its kcmp vcmp hash c).
Notation item_ok := (item_ok vcmp c).
Notation look := (look kcmp).
Notation kuniq := (kuniq kcmp).
Notation isk := (isk kcmp).
Let HH1 := Hsym kcmp vcmp hash c dupk Hcb.
Let HH2 := Htr kcmp vcmp hash c dupk Hcb.
Let HH3 := Hh kcmp vcmp hash c dupk Hcb.

(** ** Destruction *)
Lemma destroy_flat dv : forall bs h, destroy_buckets kcmp c lev bs h dv = destroy_chain kcmp c lev (concat bs) h dv.
Proof.
  assert (A : forall a b h, destroy_chain kcmp c lev (a ++ b) h dv = do h <- destroy_chain kcmp c lev a h dv; destroy_chain kcmp c lev b h dv).
  { induction a as [|it a IH]; intros b h; cbn [destroy_chain app]; auto. destruct (destroy_entry kcmp c lev h it dv); cbn [bind]; auto. }
  induction bs as [|b bs IH]; intros h; cbn [destroy_buckets concat]; auto. rewrite A. destruct (destroy_chain kcmp c lev b h dv); cbn [bind]; auto.
Qed.
Lemma destroy_chain_ok dv : forall rest its h, Permutation its rest -> kuniq its -> Forall item_ok its ->
  (ordered c = true -> keys_ok kcmp c (keys h) (map ikey its)) ->
  exists h', destroy_chain kcmp c lev rest h dv = Ok h' /\ Permutation (kf h') (map ikey rest ++ kf h) /\
    Permutation (vf h') ((if dv then concat (map values rest) else []) ++ vf h).
Proof.
  induction rest as [|it rest IH]; intros its h P U F K; cbn [destroy_chain].
  - exists h. split; auto. split; auto. destruct dv; auto.
  - assert (Hi : In it its) by (apply (Permutation_in _ (Permutation_sym P)); left; auto).
    apply in_split in Hi. destruct Hi as (a & b & ->).
    assert (F' : Forall item_ok a /\ item_ok it /\ Forall item_ok b) by (apply Forall_app in F; destruct F as [? F]; inversion F; auto).
    destruct F' as (Fa & Fi & Fb).
    assert (Ik : isk (ikey it) it = true) by (unfold Table.isk; rewrite (Hrefl kcmp vcmp hash c dupk Hcb); auto).
    destruct (destroy_entry_ok kcmp vcmp hash c dupk lev Hcb h a it b dv) as (d' & E & K'); auto.
    { intros Ho. specialize (K Ho). now rewrite map_app in K. }
    { apply (uniq_others kcmp hash HH1 HH2 HH3 a it b _ U Ik). }
    rewrite E. cbn [bind].
    match goal with |- context [destroy_chain _ _ _ rest ?h1 dv] => destruct (IH (a ++ b) h1) as (h' & E' & Pk & Pv) end.
    + apply (Permutation_cons_inv (a := it)). rewrite <- P. apply Permutation_middle.
    + eapply kuniq_del; eauto.
    + apply Forall_app. auto.
    + cbn [keys]. intros Ho. rewrite map_app. auto.
    + exists h'. split; [exact E'|]. cbn [kf vf] in *. split.
      * rewrite Pk. cbn [map app]. rewrite <- Permutation_middle. reflexivity.
      * rewrite Pv. destruct dv; cbn [map concat app]; auto. rewrite !app_assoc. apply Permutation_app_tail, Permutation_app_comm.
Qed.
Lemma destroy_ok h t ex dv : Rep h t ex -> exists h', destroy kcmp c lev h dv = Ok h' /\
  Permutation (kf h') (map fst t ++ kf h) /\ Permutation (vf h') ((if dv then concat (map snd t) else []) ++ vf h).
Proof.
  intros [[its (T & F & E & U)] _ _ Ry]. unfold destroy. rewrite destroy_flat.
  pose proof (t_perm _ _ _ T) as P. destruct (destroy_chain_ok dv (concat (bk h)) its h) as (h' & E' & Pk & Pv); auto.
  - now symmetry.
  - intros Ho. specialize (Ry Ho). rewrite <- E, map_fst_abs in Ry. exact Ry.
  - exists h'. split; auto. split.
    + rewrite Pk, <- E, map_fst_abs. apply Permutation_app_tail, Permutation_map. exact P.
    + rewrite Pv. destruct dv; auto. apply Permutation_app_tail. rewrite <- E, map_map. cbn [snd abs].
      rewrite <- !flat_map_concat_map. now apply Permutation_flat_map.
Qed.

(** ** Number of buckets *)
Lemma wr_len {A} (l : list A) i x l' : wr l i x = Ok l' -> length l' = length l.
Proof. unfold wr. destruct (i <? length l); [|discriminate]. intros [= <-]. unfold upd. revert i. induction l as [|y l IH]; intros [|i]; cbn; auto. Qed.
Lemma direct_size h dup init rh k v r h' : insert_direct kcmp vcmp hash c dupk dupv lev g h dup init rh k v = Ok (r, h') -> length (bk h') = length (bk h).
Proof.
  unfold insert_direct. destruct (k =? 0)%N; [now intros [= _ <-]|]. intros E.
  apply bind_ok in E. destruct E as (b & _ & E). destruct (get_match kcmp b k) as [j|].
  - apply bind_ok in E. destruct E as (it & _ & E). destruct (negb (multi c) && _); [now injection E as _ <-|].
    apply bind_ok in E. destruct E as (s & _ & E). apply bind_ok in E. destruct E as (b' & _ & E). apply bind_ok in E. destruct E as (bk' & Ew & E).
    injection E as _ <-. cbn [bk]. apply wr_len in Ew. exact Ew.
  - apply bind_ok in E. destruct E as (ks & _ & E). apply bind_ok in E. destruct E as (s & _ & E). apply bind_ok in E. destruct E as (bk' & Ew & E).
    injection E as _ <-. cbn [bk]. apply wr_len in Ew. exact Ew.
Qed.
Lemma rehash_size h h' : rehash kcmp vcmp hash c dupk dupv lev g h = Ok h' -> (size h <= max_buckets)%N -> (size h' <= max_buckets)%N.
Proof.
  unfold rehash. destruct (N.ltb_spec max_buckets (2 * size h)); [now intros [= <-]|].
  rewrite rehash_flat. intros E _. revert E.
  match goal with |- rehash_chain _ _ _ _ _ _ _ _ _ ?h1 = _ -> _ => assert (size h1 <= max_buckets)%N; [|generalize dependent h1] end.
  { unfold size in *. cbn [bk]. rewrite repeat_length. lia. }
  induction (concat (bk h)) as [|it l IH]; intros h1 H1 E; cbn [rehash_chain] in E; [now injection E as <-|].
  apply bind_ok in E. destruct E as ([b h2] & E1 & E). apply (IH h2); auto. apply direct_size in E1. unfold size in *. now rewrite E1.
Qed.
Lemma insert_size h i k v r h' : insert_int kcmp vcmp hash c dupk dupv lev g h i k v = Ok (r, h') -> (size h <= max_buckets)%N -> (size h' <= max_buckets)%N.
Proof.
  unfold insert_int. intros E H. apply bind_ok in E. destruct E as ([b h1] & E1 & E). apply direct_size in E1.
  assert (H1 : (size h1 <= max_buckets)%N) by (unfold size in *; now rewrite E1).
  destruct (negb b); [now injection E as _ <-|]. destruct (exceeds_load c h1); [|now injection E as _ <-].
  apply bind_ok in E. destruct E as (h2 & E2 & E). injection E as _ <-. eapply rehash_size; eauto.
Qed.
Lemma remove_size h k dv r h' : remove kcmp hash c lev h k dv = Ok (r, h') -> length (bk h') = length (bk h).
Proof.
  unfold remove. destruct (k =? 0)%N; [now intros [= _ <-]|]. intros E. apply bind_ok in E. destruct E as ([[[b j] it]|] & _ & E); [|now injection E as _ <-].
  apply bind_ok in E. destruct E as (n & _ & E). apply bind_ok in E. destruct E as (h1 & E1 & E). apply bind_ok in E. destruct E as (bk' & Ew & E).
  injection E as _ <-. cbn [bk]. apply wr_len in Ew. rewrite Ew. unfold destroy_entry in E1.
  apply bind_ok in E1. destruct E1 as (ks & _ & E1). apply bind_ok in E1. destruct E1 as (f & _ & E1). now injection E1 as <-.
Qed.
Lemma multi_remove_size h k i dv r h' : multi_remove kcmp hash c lev h k i dv = Ok (r, h') -> length (bk h') = length (bk h).
Proof.
  unfold multi_remove. destruct (negb (multi c) || (k =? 0)%N); [now intros [= _ <-]|]. intros E. apply bind_ok in E.
  destruct E as ([[[b j] it]|] & _ & E); [|now injection E as _ <-]. apply bind_ok in E. destruct E as (n & _ & E).
  destruct (n <=? i); [now injection E as _ <-|]. destruct (n =? 1); [eapply remove_size; eauto|]. destruct (ival it) as [w|l]; [discriminate|].
  apply bind_ok in E. destruct E as ([v l'] & _ & E). apply bind_ok in E. destruct E as (b' & _ & E). apply bind_ok in E. destruct E as (bk' & Ew & E).
  injection E as _ <-. cbn [bk]. now apply wr_len in Ew.
Qed.
Lemma step_size h o r h' : step kcmp vcmp hash c dupk dupv lev g h o = Ok (r, h') -> (size h <= max_buckets)%N -> (size h' <= max_buckets)%N.
Proof.
  intros E H. destruct o as [k v|k|k dv|k|k i|k i dv| |]; cbn [step] in E; try (apply bind_ok in E; destruct E as (x & E1 & E)); try destruct x as [x1 x2]; injection E; intros; subst; auto.
  - eapply insert_size; eauto.
  - apply remove_size in E1. unfold size in *. now rewrite E1.
  - apply multi_remove_size in E1. unfold size in *. now rewrite E1.
Qed.
Lemma run_size : forall ops h rs h', run kcmp vcmp hash c dupk dupv lev g ops h = Ok (rs, h') -> (size h <= max_buckets)%N -> (size h' <= max_buckets)%N.
Proof.
  induction ops as [|o ops IH]; intros h rs h' E H; cbn [run] in E; [now injection E as _ <-|].
  apply bind_ok in E. destruct E as ([r h1] & E1 & E). apply bind_ok in E. destruct E as ([rs2 h2] & E2 & E). injection E as _ <-.
  eapply IH; eauto. eapply step_size; eauto.
Qed.
Lemma create_size n h : create c n = Some h -> (size h <= max_buckets)%N.
Proof.
  unfold create. destruct (_ || _); [discriminate|]. destruct (_ && _); [discriminate|]. destruct (_ && _); [discriminate|].
  intros [= <-]. unfold size. cbn [bk]. rewrite repeat_length, N2Nat.id. destruct (N.ltb_spec max_buckets (Bithacks.Model.round_up64 n)); lia.
Qed.
Lemma rep_size h t ex : Rep h t ex -> exists e, size h = (2 ^ N.of_nat e)%N.
Proof. intros [[its (T & _)] _ _ _]. destruct (t_len _ _ _ T) as [e He]. exists e. unfold size. rewrite He. now rewrite Nat2N.inj_pow. Qed.

(** ** Duplication *)
Notation dup_entry := (dup_entry kcmp vcmp c (dupk false) (dupv false)).
Notation copied := (copied (dupv false)).
Lemma look_none_app k a b : filter (same kcmp k) a = [] -> k <> 0%N -> look k (a ++ b) = hd_error (filter (same kcmp k) b).
Proof. intros H Hz. unfold Spec.look. destruct (N.eqb_spec k 0); [contradiction|]. rewrite filter_app, H. reflexivity. Qed.
Lemma dup_values : forall vs h p k k' done ws, Rep h (p ++ [(k', ws)]) 0 -> k <> 0%N -> kcmp k' k = 0%Z -> filter (same kcmp k) p = [] ->
  dup_entry (k, done) (k', ws) -> multi c = true ->
  exists h' ws', insert_copies kcmp vcmp hash c dupk dupv lev g (map (pair k) vs) h = Ok h' /\ Rep h' (p ++ [(k', ws')]) 0 /\ dup_entry (k, done ++ vs) (k', ws').
Proof.
  induction vs as [|v vs IH]; intros h p k k' done ws R Hz Hk Hp D M; cbn [map insert_copies].
  - exists h, ws. rewrite app_nil_r. auto.
  - destruct (insert_int_ok kcmp vcmp hash c dupk dupv lev g Hcb h _ 0 false k v R) as (r & h1 & t1 & fv & E & R1 & Rel & _). rewrite E. cbn [bind].
    cbn [rel] in Rel. destruct Rel as (_ & _ & Rel). destruct (N.eqb_spec k 0); [contradiction|]. destruct Rel as (_ & Rel).
    assert (Sk : same kcmp k (k', ws) = true) by (unfold same; cbn; lia).
    rewrite look_none_app in Rel by auto. cbn [filter] in Rel. rewrite Sk in Rel. cbn [hd_error] in Rel. rewrite M in Rel.
    destruct Rel as (_ & ws2 & Ad & Et).
    assert (Et2 : t1 = p ++ [(k', ws2)]).
    { rewrite Et. apply put_mid; auto. rewrite app_nil_r. intros x Hx. destruct (same kcmp k x) eqn:Ex; auto.
      assert (In x (filter (same kcmp k) p)) by (apply filter_In; auto). rewrite Hp in *. contradiction. }
    subst t1. rewrite Et2 in R1. destruct (IH h1 p k k' (done ++ [v]) ws2 R1 Hz Hk Hp) as (h' & ws' & E' & R' & D'); auto.
    + destruct D as (D1 & D2 & w & Fw & D3). split; [exact D1|]. split; [exact D2|]. exists (w ++ [dupv false (clk h) v]). cbn [snd] in *. split.
      * apply Forall2_app; auto. constructor; auto. eexists; reflexivity.
      * unfold added in Ad. destruct (msort c).
        -- destruct Ad as [[i Ei] So]. split; auto. destruct D3 as [P _]. rewrite Ei. unfold insert_at.
           rewrite <- Permutation_middle, firstn_skipn, P. apply Permutation_cons_append.
        -- now rewrite Ad, D3.
    + rewrite <- app_assoc in D'. exists h', ws'. auto.
Qed.
Lemma insert_copies_app a : forall b h, insert_copies kcmp vcmp hash c dupk dupv lev g (a ++ b) h =
  do h <- insert_copies kcmp vcmp hash c dupk dupv lev g a h; insert_copies kcmp vcmp hash c dupk dupv lev g b h.
Proof. induction a as [|[k v] a IH]; intros b h; cbn [insert_copies app]; auto. destruct (insert_int _ _ _ _ _ _ _ _ _ _ _ _) as [[x y]| |]; cbn [bind]; auto. Qed.
Lemma dup_table : forall t2 h t1 t1', Rep h t1' 0 -> Forall2 dup_entry t1 t1' ->
  (forall e, In e (t1 ++ t2) -> fst e <> 0%N /\ snd e <> [] /\ (multi c = false -> length (snd e) = 1)) ->
  (forall a e b, t1 ++ t2 = a ++ e :: b -> forall x, In x a -> kcmp (fst x) (fst e) <> 0%Z) ->
  exists h' t', insert_copies kcmp vcmp hash c dupk dupv lev g (flat t2) h = Ok h' /\ Rep h' t' 0 /\ Forall2 dup_entry (t1 ++ t2) t'.
Proof.
  induction t2 as [|[k vs] t2 IH]; intros h t1 t1' R D Hv Hu.
  - exists h, t1'. rewrite app_nil_r. auto.
  - change (flat ((k, vs) :: t2)) with (map (pair k) vs ++ flat t2). rewrite insert_copies_app.
    destruct (Hv (k, vs)) as (Hz & Ne & L1); [apply in_elt|]. cbn [fst snd] in *.
    assert (Hp : filter (same kcmp k) t1' = []).
    { apply filter_none. intros x' Hx'. destruct (same kcmp k x') eqn:Sx; auto. exfalso.
      assert (Hx : exists x, In x t1 /\ dup_entry x x').
      { clear - D Hx'. induction D; cbn in *; [contradiction|]. destruct Hx' as [<-|Hx']; [eauto|]. destruct (IHD Hx') as (y0 & ? & ?). eauto. }
      destruct Hx as (x & Hx & Dx & _). apply (Hu t1 (k, vs) t2 eq_refl x Hx). cbn [fst]. unfold same in Sx.
      apply (HH2 _ (fst x')); [apply HH1; exact Dx|lia]. }
    destruct vs as [|v vs]; [congruence|]. cbn [map app insert_copies].
    destruct (insert_int_ok kcmp vcmp hash c dupk dupv lev g Hcb h _ 0 false k v R) as (r & h1 & t1n & fv & E & R1 & Rel & _). rewrite E. cbn [bind].
    cbn [rel] in Rel. destruct Rel as (_ & _ & Rel). destruct (N.eqb_spec k 0); [contradiction|]. destruct Rel as (_ & Rel).
    assert (Lk : look k t1' = None) by (unfold Spec.look; destruct (N.eqb_spec k 0); [contradiction|]; now rewrite Hp).
    rewrite Lk in Rel. destruct Rel as (Et & _). rewrite Et in R1.
    destruct (Hd kcmp vcmp hash c dupk Hcb false (clk h) k Hz) as [Dz Dk].
    assert (D0 : dup_entry (k, [v]) (dupk false (clk h) k, [dupv false (clk h) v])).
    { split; [exact Dk|]. split; [eexists; reflexivity|]. exists [dupv false (clk h) v]. split; [repeat constructor; eexists; reflexivity|].
      destruct (msort c) eqn:Ms; [|reflexivity]. split; [reflexivity|]. cbn [snd]. unfold sorted; repeat constructor. }
    assert (K : exists h2 ws', insert_copies kcmp vcmp hash c dupk dupv lev g (map (pair k) vs) h1 = Ok h2 /\ Rep h2 (t1' ++ [(dupk false (clk h) k, ws')]) 0 /\
       dup_entry (k, v :: vs) (dupk false (clk h) k, ws')).
    { destruct (multi c) eqn:M.
      - destruct (dup_values vs h1 t1' k _ [v] _ R1 Hz Dk Hp D0 M) as (h2 & ws' & A & B & C). eauto.
      - specialize (L1 eq_refl). destruct vs; [|cbn in L1; lia]. cbn [map insert_copies]. eauto. }
    destruct K as (h2 & ws' & E2 & R2 & D2). rewrite E2. cbn [bind].
    destruct (IH h2 (t1 ++ [(k, v :: vs)]) _ R2) as (h' & t' & E' & R' & D').
    + apply Forall2_app; auto.
    + intros e He. rewrite <- app_assoc in He. auto.
    + intros a e b Eq. rewrite <- app_assoc in Eq. eauto.
    + rewrite <- app_assoc in D'. exists h', t'. auto.
Qed.
End Dup.

Section Copy.
Context (kcmp vcmp : N -> N -> Z) (hash hash2 : N -> N) (c : hcfg).
Context (dupk dupv : bool -> nat -> N -> N) (lev : nat -> nat) (g : N).
Context (W : wf_cfg c) (Hcb : forall i, good_cb kcmp vcmp hash c (dupk i)) (Hcb2 : forall i, good_cb kcmp vcmp hash2 c (dupk i)).
Notation Rep := (Rep kcmp vcmp hash c).
Notation Rep2 := (Proofs.Rep kcmp vcmp hash2 c).
Notation dup_entry := (dup_entry kcmp vcmp c (dupk false) (dupv false)).
Lemma dup_ok h t ex : Rep h t ex -> (size h <= max_buckets)%N ->
  exists h' t', duplicate kcmp vcmp hash hash2 c dupk dupv lev g h = Ok (Some h') /\ Rep2 h' t' 0 /\ (size h' <= max_buckets)%N /\ dup_table_of kcmp vcmp c (dupk false) (dupv false) t t'.
Proof.
  intros R Hs. unfold duplicate. destruct (rep_size kcmp vcmp hash c h t ex R) as [e He].
  assert (1 <= size h)%N by (rewrite He; pose proof (N.pow_nonzero 2 (N.of_nat e)); lia).
  assert (max_buckets <= 2 ^ 63)%N by (vm_compute; discriminate).
  destruct (create_ok kcmp vcmp hash2 c dupk lev W (size h)) as (d & Ec & Rd & _ & _ & _); [lia|]. rewrite Ec.
  destruct (enum_ok kcmp vcmp hash c dupk dupv lev g W Hcb h t ex R) as (l & El & (t1 & P & Fl & Or)). rewrite El. cbn [bind].
  pose proof R as [[its I] _ _ _]. pose proof (its_look kcmp vcmp hash c dupk Hcb h its t I) as Lk. pose proof I as (T & F & Ei & U).
  assert (K : exists h' t', insert_copies kcmp vcmp hash2 c dupk dupv lev g (flat t1) d = Ok h' /\ Rep2 h' t' 0 /\ Forall2 dup_entry ([] ++ t1) t').
  { eapply (dup_table kcmp vcmp hash2 c dupk dupv lev g Hcb2); eauto.
    - intros x Hx. cbn [app] in Hx. apply (Permutation_in _ P) in Hx. destruct (Lk x Hx) as (A & B & C). split; auto.
      rewrite <- Ei in Hx. apply in_map_iff in Hx. destruct Hx as (it & <- & Hi). rewrite Forall_forall in F. apply (F it Hi).
    - cbn [app]. intros a x b Ea y Hy Ez. 
      assert (P2 : exists its1, map abs its1 = t1 /\ Permutation its1 its).
      { rewrite <- Ei in P. apply Permutation_map_inv in P. destruct P as (l3 & E3 & P3). exists l3. split; auto. now symmetry. }
      destruct P2 as (its1 & E1 & P1). apply (uniq_perm kcmp _ _ (Permutation_sym P1)) in U.
      rewrite Ea in E1. apply map_eq_app in E1. destruct E1 as (i1 & i2' & -> & Ea1 & Ea2). apply map_eq_cons in Ea2. destruct Ea2 as (it & i2 & -> & <- & <-).
      rewrite <- Ea1 in Hy. apply in_map_iff in Hy. destruct Hy as (y2 & <- & Hy). cbn [fst abs] in Ez.
      assert (Ik : isk kcmp (ikey it) it = true) by (unfold Table.isk; rewrite (Hrefl kcmp vcmp hash c dupk Hcb); auto).
      pose proof (uniq_others kcmp hash (Hsym kcmp vcmp hash c dupk Hcb) (Htr kcmp vcmp hash c dupk Hcb) (Hh kcmp vcmp hash c dupk Hcb) i1 it i2 _ U Ik y2 ltac:(apply in_app_iff; auto)) as N. unfold Table.isk in N. lia. }
  destruct K as (h' & t' & Ek & Rk & Dk). 
  assert (Hins : forall l d d', insert_copies kcmp vcmp hash2 c dupk dupv lev g l d = Ok d' -> (size d <= max_buckets)%N -> (size d' <= max_buckets)%N).
  { clear - Hcb2. induction l as [|[k v] l IH]; intros d d' E H; cbn [insert_copies] in E; [now injection E as <-|].
    apply bind_ok in E. destruct E as ([b h1] & E1 & E). eapply IH; eauto. eapply insert_size; eauto. }
  assert (Sd : (size d <= max_buckets)%N) by (eapply create_size; eauto).
  destruct (Z.eqb_spec (Z.of_nat (total t + ex)) 0) as [Z0|Z0]; cbn [bind].
  - assert (t1 = []).
    { destruct t1 as [|[k vs] t1]; auto. exfalso. destruct (Lk (k, vs)) as (_ & Ne & _); [apply (Permutation_in _ P); left; auto|].
      apply total_perm in P. rewrite total_cons in P. cbn in Ne. destruct vs; [congruence|]. cbn in P. lia. }
    subst t1. exists d, []. split; auto. split; auto. split; auto. exists []. split; auto. split; [|constructor].
    intros Ho Hk. specialize (Or Ho). rewrite Hk in Or. auto.
  - rewrite Fl, Ek. cbn [bind]. exists h', t'. split; auto. split; auto. split; [eapply Hins; eauto|]. exists t1. split; auto. split; auto.
    intros Ho Hk. specialize (Or Ho). rewrite Hk in Or. auto.
Qed.
End Copy.

(** Enumeration; all calls *)
From Verif Require Import Base.Lib Base.Mem Sort.Spec Hash.Spec Hash.Model Hash.Table Hash.Parts Hash.Proofs.
From Verif Require List.Spec List.Model Llist.Spec Llist.Model Llist.Step Llist.Proofs Bithacks.Proofs.

Lemma flat_app a b : flat (a ++ b) = flat a ++ flat b.
Proof. unfold flat. apply flat_map_app. Qed.
Lemma flat_len t : length (flat t) = total t.
Proof.
  induction t as [|[k vs] t IH]; auto. rewrite total_cons, <- IH. change (flat ((k, vs) :: t)) with (map (pair k) vs ++ flat t). llen.
Qed.
Lemma total_perm a b : Permutation a b -> total a = total b.
Proof. induction 1; auto; repeat match goal with x : (N * list N)%type |- _ => destruct x end; rewrite ?total_cons; lia. Qed.

Section Enum.
Context (kcmp vcmp : N -> N -> Z) (hash : N -> N) (c : hcfg).
Context (dupk dupv : bool -> nat -> N -> N) (lev : nat -> nat) (g : N).
Context (W : wf_cfg c) (Hcb : forall i, good_cb kcmp vcmp hash c (dupk i)).
Notation Rep := (Rep kcmp vcmp hash c).
Notation Its := (Its kcmp vcmp hash c).
Notation item_ok := (item_ok vcmp c).
Notation look := (look kcmp).

(** ** Unordered *)
Definition emit (it : item) (i j m : nat) (nd : option nat) : res (option (N * N) * henum) :=
  Ok (Some (ikey it, nth m (values it) 0%N),
      if length (values it) <=? S m then mke i (S j) 0 nd else mke i j (S m) nd).
Lemma next_here h B1 b B2 e it fuel : bk h = B1 ++ b :: B2 -> nth_error b (echain e) = Some it -> item_ok it -> evidx e < length (values it) ->
  next_unordered c (S fuel) h e (length B1) = emit it (length B1) (echain e) (evidx e) (enode e).
Proof.
  intros E Hn Ok Hm. cbn [next_unordered]. rewrite E. destruct (Nat.leb_spec (length (B1 ++ b :: B2)) (length B1)); [hlen|].
  rewrite rd_app_mid. cbn [bind]. rewrite Hn. destruct Ok as [_ Ov]. unfold emit, values in *. destruct (ival it).
  - rewrite Ov. cbn in *. assert (evidx e = 0) as -> by lia. reflexivity.
  - destruct Ov as (-> & V & Ne). rewrite (vals_at vcmp c g l _ V), (vals_len vcmp c l V). cbn [bind].
    now destruct (length (content l) <=? S (evidx e)).
Qed.
Lemma next_on h : forall B2 B1 b e fuel, bk h = B1 ++ b :: B2 -> length B2 + 2 <= fuel -> nth_error b (echain e) = None -> evidx e = 0 ->
  Forall item_ok (concat B2) ->
  (concat B2 = [] /\ exists e', next_unordered c fuel h e (length B1) = Ok (None, e')) \/
  (exists C1 it q C2, B2 = C1 ++ (it :: q) :: C2 /\ concat C1 = [] /\
     next_unordered c fuel h e (length B1) = emit it (length (B1 ++ b :: C1)) 0 0 (enode e)).
Proof.
  induction B2 as [|b2 B2 IH]; intros B1 b e fuel E Hf Hn Hm F; (destruct fuel as [|fuel]; [lia|]).
  - left. split; auto. cbn [next_unordered]. rewrite E. destruct (Nat.leb_spec (length (B1 ++ [b])) (length B1)); [hlen|].
    rewrite rd_app_mid. cbn [bind]. rewrite Hn. destruct fuel as [|fuel]; [cbn in Hf; lia|]. cbn [next_unordered]. rewrite E.
    destruct (Nat.leb_spec (length (B1 ++ [b])) (S (length B1))); [eauto|hlen].
  - cbn [next_unordered]. rewrite E. destruct (Nat.leb_spec (length (B1 ++ b :: b2 :: B2)) (length B1)); [hlen|].
    rewrite rd_app_mid. cbn [bind]. rewrite Hn.
    replace (S (length B1)) with (length (B1 ++ [b])) by llen.
    assert (E2 : bk h = (B1 ++ [b]) ++ b2 :: B2) by (now rewrite <- app_assoc).
    cbn in F. apply Forall_app in F. destruct F as [F1 F2].
    destruct b2 as [|it q].
    + destruct (IH (B1 ++ [b]) [] (mke (ehash e) 0 (evidx e) (enode e)) fuel E2) as [[C [e' Ee]]|(C1 & it & q & C2 & -> & Ec & Ee)]; auto; [cbn in Hf; lia| |].
      * left. split; [exact C|]. eauto.
      * right. exists ([] :: C1), it, q, C2. split; auto. split; auto. rewrite Ee. now rewrite <- app_assoc.
    + right. exists [], it, q, B2. split; auto. split; auto. destruct fuel as [|fuel]; [cbn in Hf; lia|].
      inversion F1; subst. rewrite (next_here h (B1 ++ [b]) (it :: q) B2 (mke (ehash e) 0 (evidx e) (enode e)) it fuel E2); auto; cbn [echain evidx enode].
      * now rewrite Hm.
      * rewrite Hm. pose proof (item_values vcmp c it ltac:(auto)). destruct (values it); [congruence|cbn; lia].
Qed.
Definition pairs (it : item) : list (N * N) := map (pair (ikey it)) (values it).
Lemma pairs_len it : length (pairs it) = length (values it).
Proof. apply map_length. Qed.
Definition iflat (its : list item) : list (N * N) := flat (map abs its).
Lemma iflat_cons it its : iflat (it :: its) = pairs it ++ iflat its.
Proof. reflexivity. Qed.
Lemma iflat_app a b : iflat (a ++ b) = iflat a ++ iflat b.
Proof. unfold iflat. now rewrite map_app, flat_app. Qed.
Lemma skipn_pair it m : m < length (values it) -> skipn m (pairs it) = (ikey it, nth m (values it) 0%N) :: skipn (S m) (pairs it).
Proof.
  unfold pairs. intros H. generalize (ikey it). intros k. revert m H. induction (values it) as [|v l IH]; intros m H; [cbn in H; lia|].
  destruct m as [|m]; cbn [map skipn nth]; auto. rewrite IH by (cbn in H; lia). reflexivity.
Qed.
Lemma collect_u h : ordered c = false -> Forall item_ok (concat (bk h)) -> forall fuel B1 p it q B2 m nd,
  bk h = B1 ++ (p ++ it :: q) :: B2 -> m < length (values it) ->
  length (skipn (S m) (pairs it) ++ iflat q ++ iflat (concat B2)) < fuel ->
  (do '(r, e) <- emit it (length B1) (length p) m nd;
   match r with None => Ok [] | Some r => do l <- collect kcmp hash c fuel h e; Ok (r :: l) end) =
  Ok (skipn m (pairs it) ++ iflat q ++ iflat (concat B2)).
Proof.
  intros Ho F. induction fuel as [|fuel IH]; intros B1 p it q B2 m nd E Hm Hf; [lia|].
  unfold emit. cbn [bind].
  assert (K : collect kcmp hash c (S fuel) h (if length (values it) <=? S m then mke (length B1) (S (length p)) 0 nd else mke (length B1) (length p) (S m) nd) =
    Ok (skipn (S m) (pairs it) ++ iflat q ++ iflat (concat B2))).
  2:{ rewrite K. cbn [bind]. rewrite (skipn_pair it m Hm). reflexivity. }
  cbn [collect]. unfold enumerate_next. rewrite Ho.
  assert (Lb : length (bk h) = length B1 + 1 + length B2) by (rewrite E; llen).
  assert (F3 : Forall item_ok (concat B1) /\ Forall item_ok (p ++ it :: q) /\ Forall item_ok (concat B2)).
  { rewrite E, concat_mid in F. apply Forall_app in F. destruct F as [F1 F]. apply Forall_app in F. tauto. }
  destruct F3 as (_ & Fb & F2).
  destruct (Nat.leb_spec (length (values it)) (S m)) as [Hl|Hl]; cbn [ehash].
  - assert (Hs : skipn (S m) (pairs it) = []) by (apply skipn_all2; rewrite pairs_len; lia). rewrite Hs in *. cbn [app] in Hf |- *.
    destruct q as [|it2 q].
    + destruct (next_on h B2 B1 (p ++ [it]) (mke (length B1) (S (length p)) 0 nd) (S (length (bk h))) E) as [[C [e' Ee]]|(C1 & it2 & q2 & C2 & -> & Ec & Ee)]; auto; try lia.
      { cbn [echain]. apply nth_error_None. llen. }
      * rewrite Ee. cbn [bind]. rewrite C. reflexivity.
      * rewrite Ee. cbn [enode]. rewrite concat_mid, Ec. cbn [app]. rewrite iflat_cons.
        rewrite concat_mid, Ec in Hf, F2. cbn [app] in Hf, F2. rewrite iflat_cons, iflat_app in Hf. cbn [iflat map flat flat_map app] in Hf.
        inversion F2 as [|? ? Oi Oq]; subst. pose proof (item_values vcmp c it2 Oi).
        assert (E2 : bk h = (B1 ++ (p ++ [it]) :: C1) ++ ([] ++ it2 :: q2) :: C2) by (rewrite E, <- app_assoc; reflexivity).
        specialize (IH (B1 ++ (p ++ [it]) :: C1) [] it2 q2 C2 0 nd E2). cbn [length] in IH. rewrite IH.
        -- cbn [skipn]. now rewrite iflat_app.
        -- destruct (values it2); [congruence|cbn; lia].
        -- rewrite !app_length in *. rewrite skipn_length. rewrite pairs_len in *.
           assert (length (values it2) <> 0) by (destruct (values it2); [congruence|cbn; lia]). lia.
    + assert (E2 : bk h = B1 ++ ((p ++ [it]) ++ it2 :: q) :: B2) by (rewrite E, <- app_assoc; reflexivity).
      apply Forall_app in Fb. destruct Fb as [_ Fb]. inversion Fb as [|? ? _ Fb2]; subst. inversion Fb2 as [|? ? Oi Oq]; subst. pose proof (item_values vcmp c it2 Oi) as Ne.
      assert (Nz : length (values it2) <> 0) by (destruct (values it2); [congruence|cbn; lia]).
      rewrite (next_here h B1 ((p ++ [it]) ++ it2 :: q) B2 (mke (length B1) (S (length p)) 0 nd) it2 _ E2); auto.
      2:{ cbn [echain]. apply nth_error_mid. llen. }
      2:{ cbn. lia. }
      cbn [echain evidx enode]. replace (S (length p)) with (length (p ++ [it])) by llen. rewrite (IH B1 (p ++ [it]) it2 q B2 0 nd E2); auto.
      * cbn [skipn]. now rewrite iflat_cons, <- app_assoc.
      * lia.
      * rewrite iflat_cons in Hf. rewrite !app_length in *. rewrite skipn_length. rewrite pairs_len in *. lia.
  - rewrite (next_here h B1 (p ++ it :: q) B2 (mke (length B1) (length p) (S m) nd) it _ E); auto.
    + cbn [echain evidx enode]. rewrite (IH B1 p it q B2 (S m) nd E Hl); auto. rewrite !app_length, !skipn_length in *. rewrite !pairs_len in *. lia.
    + cbn [echain]. now apply nth_error_mid.
    + apply Forall_app in Fb. destruct Fb as [_ Fb]. inversion Fb; auto.
Qed.
Lemma enum_unordered h t ex : Rep h t ex -> ordered c = false ->
  exists l, collect kcmp hash c (S (Z.to_nat (nv h))) h (mke 0 0 0 None) = Ok l /\ listing kcmp c t l.
Proof.
  intros [[its (T & F & E & U)] Rk Rv Ry] Ho. exists (iflat (concat (bk h))).
  assert (P : Permutation (map abs (concat (bk h))) t) by (rewrite <- E; apply Permutation_map, (t_perm _ _ _ T)).
  split; [|exists (map abs (concat (bk h))); split; [exact P|]; split; [reflexivity|congruence]].
  assert (Fb : Forall item_ok (concat (bk h))).
  { apply Forall_forall. intros x Hx. rewrite Forall_forall in F. apply F. apply (Permutation_in _ (t_perm _ _ _ T)). exact Hx. }
  assert (Lf : length (iflat (concat (bk h))) <= Z.to_nat (nv h)).
  { unfold iflat. rewrite flat_len, (total_perm _ _ P). lia. }
  destruct (bk h) as [|b B2] eqn:Eb. { destruct (t_len _ _ _ T) as [e He]. cbn in He. pose proof (Nat.pow_nonzero 2 e). lia. }
  cbn [collect]. unfold enumerate_next. rewrite Ho. cbn [ehash]. rewrite <- Eb in *.
  assert (E0 : bk h = [] ++ b :: B2) by auto. destruct b as [|it q].
  - destruct (next_on h B2 [] [] (mke 0 0 0 None) (S (length (bk h))) E0) as [[C [e' Ee]]|(C1 & it2 & q2 & C2 & -> & Ec & Ee)]; auto.
    + rewrite Eb. cbn. lia.
    + rewrite Eb in Fb. exact Fb.
    + cbn [length] in Ee. rewrite Ee. cbn [bind]. rewrite Eb. cbn [concat app]. rewrite C. reflexivity.
    + cbn [length] in Ee. rewrite Ee. cbn [enode].
      assert (E2 : bk h = ([] :: C1) ++ ([] ++ it2 :: q2) :: C2) by auto.
      assert (Ec2 : concat (bk h) = it2 :: q2 ++ concat C2) by (rewrite Eb; cbn [concat app]; rewrite concat_mid, Ec; reflexivity).
      rewrite Ec2 in Fb, Lf. inversion Fb as [|? ? Oi Oq]; subst. pose proof (item_values vcmp c it2 Oi) as Ne.
      assert (Nz : length (values it2) <> 0) by (destruct (values it2); [congruence|cbn; lia]).
      assert (Fb2 : Forall item_ok (concat (bk h))) by (rewrite Ec2; auto).
      pose proof (collect_u h Ho Fb2 (Z.to_nat (nv h)) ([] :: C1) [] it2 q2 C2 0 None E2) as Cu. cbn [length] in Cu. cbn [app length] in Cu |- *. rewrite Cu.
      * rewrite Ec2. cbn [skipn]. now rewrite iflat_cons, iflat_app.
      * lia.
      * rewrite iflat_cons, iflat_app in Lf. rewrite !app_length in *. rewrite skipn_length. rewrite pairs_len in *. lia.
  - assert (Ec2 : concat (bk h) = it :: q ++ concat B2) by (rewrite Eb; reflexivity).
    rewrite Ec2 in Fb, Lf. inversion Fb as [|? ? Oi Oq]; subst. pose proof (item_values vcmp c it Oi) as Ne.
    assert (Nz : length (values it) <> 0) by (destruct (values it); [congruence|cbn; lia]).
    assert (Fb2 : Forall item_ok (concat (bk h))) by (rewrite Ec2; auto).
    pose proof (next_here h [] (it :: q) B2 (mke 0 0 0 None) it (length (bk h)) E0 eq_refl Oi ltac:(cbn; lia)) as Nh. cbn [length] in Nh. rewrite Nh.
    pose proof (collect_u h Ho Fb2 (Z.to_nat (nv h)) [] [] it q B2 0 None E0) as Cu. cbn [length] in Cu. cbn [echain evidx enode]. rewrite Cu.
    * rewrite Ec2. cbn [skipn]. now rewrite iflat_cons, iflat_app.
    * lia.
    * rewrite iflat_cons, iflat_app in Lf. rewrite !app_length in *. rewrite skipn_length. rewrite pairs_len in *. lia.
Qed.

(** ** Ordered *)
Lemma its_look h its t : Its h its t -> forall e, In e t -> look (fst e) t = Some e /\ snd e <> [] /\ (multi c = false -> length (snd e) = 1).
Proof.
  intros (T & F & E & U) e He. rewrite <- E in He. apply in_map_iff in He. destruct He as (it & <- & Hi).
  pose proof Hi as Hi2. apply in_split in Hi2. destruct Hi2 as (i1 & i2 & ->). rewrite Forall_forall in F. specialize (F it Hi).
  cbn [fst snd abs]. split; [|split].
  - assert (Ik : isk kcmp (ikey it) it = true) by (unfold isk; rewrite (Hrefl kcmp vcmp hash c dupk Hcb); auto).
    pose proof (uniq_others kcmp hash (Hsym kcmp vcmp hash c dupk Hcb) (Htr kcmp vcmp hash c dupk Hcb) (Hh kcmp vcmp hash c dupk Hcb) i1 it i2 _ U Ik) as N. unfold Spec.look. destruct F as [Hz _]. destruct (N.eqb_spec (ikey it) 0); [contradiction|].
    rewrite <- E. rewrite filter_abs, filter_app. cbn [filter]. rewrite Ik.
    rewrite filter_none by (intros; apply N, in_app_iff; auto). reflexivity.
  - apply (item_values vcmp c it F).
  - intros M. destruct F as [_ F]. unfold values. destruct (ival it); auto. destruct F; congruence.
Qed.
Definition vals_of (t : table) (k : N) : list N := match look k t with Some (_, vs) => vs | None => [] end.
Definition at_keys (t : table) (ks : list N) : table := map (fun k => (k, vals_of t k)) ks.
Lemma at_keys_self t : (forall e, In e t -> look (fst e) t = Some e) -> at_keys t (map fst t) = t.
Proof.
  intros H. unfold at_keys. rewrite map_map. rewrite <- (map_id t) at 2. apply map_ext_in. intros [k vs] Hi. unfold vals_of. rewrite (H _ Hi). reflexivity.
Qed.
Lemma skipn_pr (k : N) vs m : m < length vs -> skipn m (map (pair k) vs) = (k, nth m vs 0%N) :: skipn (S m) (map (pair k) vs).
Proof.
  revert m. induction vs as [|v l IH]; intros m H; [cbn in H; lia|].
  destruct m as [|m]; cbn [map skipn nth]; auto. rewrite IH by (cbn in H; lia). reflexivity.
Qed.
Lemma flat_at_cons t k ks : flat (at_keys t (k :: ks)) = map (pair k) (vals_of t k) ++ flat (at_keys t ks).
Proof. reflexivity. Qed.
Lemma collect_o h t ex l : Rep h t ex -> ordered c = true -> Llist.Step.Rep kcmp (kcfg c) (keys h) l ->
  (forall k, In k (Llist.Spec.vals l) -> look k t = Some (k, vals_of t k) /\ vals_of t k <> [] /\ (multi c = false -> length (vals_of t k) = 1)) ->
  forall fuel a n k b e, l = a ++ (n, k) :: b -> enode e = Some n -> evidx e < length (vals_of t k) ->
  length (skipn (evidx e) (map (pair k) (vals_of t k)) ++ flat (at_keys t (Llist.Spec.vals b))) < fuel ->
  collect kcmp hash c fuel h e = Ok (skipn (evidx e) (map (pair k) (vals_of t k)) ++ flat (at_keys t (Llist.Spec.vals b))).
Proof.
  intros R Ho Rl Hl. induction fuel as [|fuel IH]; intros a n k b e E En Hm Hf; [lia|].
  destruct (Hl k) as (Lk & Ne & L1). { rewrite E. unfold Llist.Spec.vals. rewrite map_app. apply in_elt. }
  assert (Rl2 := Rl). rewrite E in Rl2. destruct (Llist.Step.rep_at kcmp (kcfg c) _ _ _ _ _ Rl2) as (Va & Nx & _).
  cbn [collect]. unfold enumerate_next. rewrite Ho. unfold next_ordered. rewrite En, Va. cbn [bind].
  rewrite (multi_get_ok kcmp vcmp hash c dupk dupv lev g Hcb h t ex k _ R), (multi_len_ok kcmp vcmp hash c dupk Hcb h t ex k R), (hget_ok kcmp vcmp hash c dupk dupv lev g W Hcb h t ex k R), Lk, Nx.
  rewrite (skipn_pr k _ _ Hm) in Hf |- *. cbn [app length] in Hf.
  assert (Nextk : forall e2, evidx e2 = 0 -> enode e2 = Llist.Proofs.nxt_of (Llist.Spec.ids b) None -> length (vals_of t k) <= S (evidx e) ->
    collect kcmp hash c fuel h e2 = Ok (skipn (S (evidx e)) (map (pair k) (vals_of t k)) ++ flat (at_keys t (Llist.Spec.vals b)))).
  { intros e2 Ev Ed Hlen. assert (Hs : skipn (S (evidx e)) (map (pair k) (vals_of t k)) = []) by (apply skipn_all2; rewrite map_length; lia).
    rewrite Hs in *. cbn [app] in *. destruct b as [|[n2 k2] b].
    - destruct fuel as [|fuel]; [lia|]. cbn [collect]. unfold enumerate_next. rewrite Ho. unfold next_ordered. cbn in Ed. rewrite Ed. reflexivity.
    - destruct (Hl k2) as (Lk2 & Ne2 & L12). { rewrite E. unfold Llist.Spec.vals. rewrite map_app. cbn. apply in_app_iff. cbn. auto. }
      change (Llist.Spec.vals ((n2, k2) :: b)) with (k2 :: Llist.Spec.vals b) in *. rewrite flat_at_cons in *.
      rewrite (IH (a ++ [(n, k)]) n2 k2 b e2); auto.
      + now rewrite Ev.
      + now rewrite <- app_assoc.
      + rewrite Ev. destruct (vals_of t k2); [congruence|cbn; lia].
      + rewrite Ev. cbn [skipn]. lia. }
  destruct (multi c) eqn:M; cbn [bind].
  - assert (Nth : nth_error (vals_of t k) (evidx e) = Some (nth (evidx e) (vals_of t k) 0%N)) by (apply nth_error_nth'; auto).
    rewrite Nth. cbn [bind]. destruct (Nat.leb_spec (length (vals_of t k)) (S (evidx e))) as [Hs|Hs]; cbn [bind].
    + rewrite Nextk; auto.
    + rewrite (IH a n k b _ E); cbn [evidx enode]; auto. lia.
  - assert (Gl : getlast c = false) by (destruct W as (_ & H & _); apply H; auto). unfold got. rewrite Gl.
    assert (L := L1 eq_refl). assert (E0 : evidx e = 0) by lia. rewrite Nextk; cbn [evidx enode]; auto; [|lia]. rewrite E0.
    destruct (vals_of t k); [cbn in L; lia|]. reflexivity.
Qed.
Lemma enum_ordered h t ex : Rep h t ex -> ordered c = true ->
  exists p l, Llist.Model.first (keys h) = Ok p /\ collect kcmp hash c (S (Z.to_nat (nv h))) h (mke 0 0 0 p) = Ok l /\ listing kcmp c t l.
Proof.
  intros R Ho. pose proof R as [[its I] Rk Rv Ry]. specialize (Ry Ho). destruct Ry as (l & Rl & V).
  pose proof (its_look h its t I) as Lk.
  assert (P : Permutation (Llist.Spec.vals l) (map fst t)) by (destruct (ksort c); [auto|now rewrite V]).
  assert (Hl : forall k, In k (Llist.Spec.vals l) -> look k t = Some (k, vals_of t k) /\ vals_of t k <> [] /\ (multi c = false -> length (vals_of t k) = 1)).
  { intros k Hk2. apply (Permutation_in _ P) in Hk2. apply in_map_iff in Hk2. destruct Hk2 as ([k2 vs] & <- & Hi). destruct (Lk _ Hi) as (L & A & B).
    unfold vals_of. rewrite L. cbn in *. auto. }
  assert (P2 : Permutation (at_keys t (Llist.Spec.vals l)) t).
  { rewrite <- (at_keys_self t) at 2 by (intros e He; apply (Lk e He)). now apply Permutation_map. }
  exists (Llist.Proofs.nxt_of (Llist.Spec.ids l) None), (flat (at_keys t (Llist.Spec.vals l))).
  split; [apply Llist.Proofs.view_first, (Llist.Step.rep_view kcmp (kcfg c)); auto|]. split.
  - destruct l as [|[n k] b].
    + cbn [collect]. unfold enumerate_next. rewrite Ho. reflexivity.
    + assert (Lf : length (flat (at_keys t (Llist.Spec.vals ((n, k) :: b)))) <= Z.to_nat (nv h)) by (rewrite flat_len, (total_perm _ _ P2); lia).
      destruct (Hl k (or_introl eq_refl)) as (_ & Ne & _).
      change (Llist.Spec.vals ((n, k) :: b)) with (k :: Llist.Spec.vals b) in *. rewrite flat_at_cons in *.
      rewrite (collect_o h t ex _ R Ho Rl Hl _ [] n k b (mke 0 0 0 (Llist.Proofs.nxt_of (Llist.Spec.ids ((n, k) :: b)) None))); cbn [evidx]; auto.
      * destruct (vals_of t k); [congruence|cbn; lia].
      * cbn [skipn]. lia.
  - eexists. split; [exact P2|]. split; [reflexivity|]. intros _. destruct (ksort c) eqn:Ks.
    + unfold at_keys. rewrite map_map. cbn [fst]. rewrite map_id. apply (Llist.Step.rep_sorted kcmp (kcfg c) _ _ Rl). exact Ks.
    + rewrite V. apply at_keys_self. intros e He. apply (Lk e He).
Qed.
Lemma enum_ok h t ex : Rep h t ex -> exists l, enum_all kcmp hash c h = Ok (Z.of_nat (total t + ex), l) /\ listing kcmp c t l.
Proof.
  intros R. pose proof (r_nv _ _ _ _ _ _ _ R) as Rv. unfold enum_all, enumerate. destruct (ordered c) eqn:Ho.
  - destruct (enum_ordered h t ex R Ho) as (p & l & -> & E & L). cbn [bind]. rewrite E. cbn [bind]. rewrite Rv. eauto.
  - destruct (enum_unordered h t ex R Ho) as (l & E & L). cbn [bind]. rewrite E. cbn [bind]. rewrite Rv. eauto.
Qed.

(** ** Any call, any sequence of calls *)
Lemma step_ok h t ex o : Rep h t ex ->
  exists r h' t' fk fv d, step kcmp vcmp hash c dupk dupv lev g h o = Ok (r, h') /\ Rep h' t' (d + ex) /\
    rel kcmp vcmp c (dupk true) (dupv true) (clk h) ex t o r t' fk fv d /\
    clk h' = inserts o + clk h /\ kf h' = fk ++ kf h /\ vf h' = fv ++ vf h.
Proof.
  intros R. destruct o as [k v|k|k dv|k|k i|k i dv| |]; cbn [step].
  - destruct (insert_int_ok kcmp vcmp hash c dupk dupv lev g Hcb h t ex true k v R) as (r & h' & t' & fv & E & R' & Rel & C' & K' & V'). rewrite E. cbn [bind].
    exists (RB r), h', t', [], fv, 0. auto 8.
  - rewrite (hget_ok kcmp vcmp hash c dupk dupv lev g W Hcb h t ex k R). cbn [bind]. eexists _, h, t, [], [], 0. cbn. auto 10.
  - destruct (remove_ok kcmp vcmp hash c dupk dupv lev Hcb h t ex k dv R) as (r & h' & t' & fk & fv & E & R' & Rel & C' & K' & V'). rewrite E. cbn [bind].
    exists (RB r), h', t', fk, fv, 0. auto 8.
  - rewrite (multi_len_ok kcmp vcmp hash c dupk Hcb h t ex k R). cbn [bind]. eexists _, h, t, [], [], 0. cbn. auto 10.
  - rewrite (multi_get_ok kcmp vcmp hash c dupk dupv lev g Hcb h t ex k i R). cbn [bind]. eexists _, h, t, [], [], 0. cbn. auto 10.
  - destruct (multi_remove_ok kcmp vcmp hash c dupk dupv lev g Hcb h t ex k i dv R) as (r & h' & t' & fk & fv & d & E & R' & Rel & C' & K' & V'). rewrite E. cbn [bind].
    exists (RB r), h', t', fk, fv, d. auto 8.
  - eexists _, h, t, [], [], 0. split; [reflexivity|]. split; auto. cbn. rewrite (r_nk _ _ _ _ _ _ _ R), Nat2Z.id. auto 10.
  - destruct (enum_ok h t ex R) as (l & E & L). rewrite E. cbn [bind]. rewrite Nat2Z.id. eexists _, h, t, [], [], 0. split; [reflexivity|]. split; auto. cbn. eauto 10.
Qed.
Lemma run_ok : forall ops h t ex, Rep h t ex ->
  exists rs h' t' ex' fk fv, run kcmp vcmp hash c dupk dupv lev g ops h = Ok (rs, h') /\ Rep h' t' ex' /\
    chain kcmp vcmp c (dupk true) (dupv true) (clk h) ex t ops rs (clk h') ex' t' fk fv /\ kf h' = fk ++ kf h /\ vf h' = fv ++ vf h.
Proof.
  induction ops as [|o ops IH]; intros h t ex R; cbn [run].
  - exists [], h, t, ex, [], []. split; auto. split; auto. split; auto. constructor.
  - destruct (step_ok h t ex o R) as (r & h1 & t1 & fk & fv & d & E & R1 & Rel & C1 & K1 & V1). rewrite E. cbn [bind].
    destruct (IH h1 t1 _ R1) as (rs & h2 & t2 & ex2 & fk2 & fv2 & E2 & R2 & Ch & K2 & V2). rewrite E2. cbn [bind].
    exists (r :: rs), h2, t2, ex2, (fk2 ++ fk), (fv2 ++ fv). split; auto. split; auto. rewrite C1 in Ch. split; [econstructor; eauto|].
    rewrite K2, K1, V2, V1, !app_assoc. auto.
Qed.

(** ** Creation *)
Lemma create_ok n : (1 <= n <= 2 ^ 63)%N -> exists h, create c n = Some h /\ Rep h [] 0 /\ clk h = 0 /\ kf h = [] /\ vf h = [].
Proof.
  intros H. destruct W as (Hf & Hm & Hk2). unfold create.
  destruct (N.eqb_spec n 0); [lia|]. destruct (N.leb_spec 100 (fill c)); [lia|]. cbn [orb].
  assert (A : (msort c || getlast c) && negb (multi c) = false).
  { destruct (multi c); [apply andb_false_r|]. destruct (Hm eq_refl) as [-> ->]. reflexivity. }
  assert (B : ksort c && negb (ordered c) = false) by (destruct (ksort c); auto; rewrite Hk2; auto). rewrite A, B.
  destruct (Bithacks.Proofs.round_up64_ok n ltac:(lia) ltac:(lia)) as ([k Ek] & Hge & _). rewrite Ek.
  eexists. split; [reflexivity|]. split; [|auto].
  assert (T : exists e, (if (max_buckets <? 2 ^ k)%N then max_buckets else 2 ^ k)%N = (2 ^ N.of_nat e)%N).
  { destruct (max_buckets <? 2 ^ k)%N; [exists 24; reflexivity|exists (N.to_nat k); now rewrite N2Nat.id]. }
  destruct T as [e Ee]. rewrite Ee. split; cbn [bk nk nv keys]; auto.
  - exists []. split; [|split; [constructor|split; [reflexivity|intros ?; cbn; lia]]].
    replace (N.to_nat (2 ^ N.of_nat e)) with (2 ^ e) by (rewrite N2Nat.inj_pow, Nat2N.id; reflexivity). apply tb_empty.
  - intros _. apply keys_create; auto.
Qed.
End Enum.

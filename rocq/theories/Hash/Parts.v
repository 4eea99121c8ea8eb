(** What the table needs of M_list and M_llist *)
From Verif Require Import Base.Lib Base.Mem Sort.Spec Sort.Binary Hash.Spec Hash.Model Hash.Table.
From Verif Require List.Spec List.Model List.Proofs List.Unsorted List.Sorted.
From Verif Require Llist.Spec Llist.Model Llist.Proofs Llist.Step.

Definition content (d : List.Model.lst) : list N :=
  firstn (List.Model.elems d) (skipn (List.Model.start d) (List.Model.base d)).
Lemma rep_content d l m f : List.Proofs.Rep d l m f -> content d = l.
Proof. intros ((pre & post & E & S) & L & _). unfold content. rewrite L, E, S, skipn_len by auto. now apply firstn_len. Qed.

Section Parts.
Context (kcmp vcmp : N -> N -> Z) (c : hcfg) (lev : nat -> nat) (g : N).
Context (Hk : Llist.Spec.good_cmp kcmp (kcfg c)) (Hv : msort c = true -> total_preorder vcmp).

Definition vals_ok (d : List.Model.lst) : Prop :=
  List.Proofs.Rep d (content d) false [] /\ (msort c = true -> sorted vcmp (content d)).
Lemma vals_create : vals_ok (List.Model.create g) /\ content (List.Model.create g) = [].
Proof.
  pose proof (List.Proofs.rep_create g) as R. pose proof (rep_content _ _ _ _ R) as E. unfold vals_ok. rewrite E. split; auto. split; auto.
  intros _. constructor.
Qed.
Lemma perm_fr (a b x : list N) : Permutation a (b ++ x) -> length a = length b -> x = [].
Proof. intros P L. apply Permutation_length in P. destruct x; auto. hlen. Qed.
Lemma wf_vcfg : List.Spec.wf_cfg (vcfg c).
Proof. unfold List.Spec.wf_cfg, vcfg. cbn. split; auto; discriminate. Qed.
Lemma vals_insert d v : vals_ok d ->
  exists d', List.Model.insert vcmp (vcfg c) g d v = Ok (true, d') /\ vals_ok d' /\ added vcmp c v (content d) (content d').
Proof.
  intros [R So]. unfold added. destruct (msort c) eqn:Ms.
  - pose proof (List.Sorted.step_ok vcmp (Hv eq_refl) (vcfg c) g d (content d) false [] (List.Spec.Insert v) wf_vcfg R) as H.
    assert (Is : List.Spec.is_sorting (vcfg c) false = true) by (unfold List.Spec.is_sorting; cbn; now rewrite Ms).
    unfold List.Unsorted.view in H. cbn [vcfg List.Spec.stack] in H.
    destruct H as (r & d' & l' & fr & E & (_ & Rel & S2 & P) & R'); auto.
    { cbn. rewrite Is. exact I. }
    rewrite Is in Rel. cbn in Rel. destruct Rel as [-> [i Hi]]. cbn in P.
    apply bind_ok in E. destruct E as ([b d2] & E & E'). injection E' as -> ->.
    rewrite app_nil_r in P, R'. assert (fr = []) as ->.
    { eapply perm_fr; [exact P|]. rewrite Hi. unfold insert_at. rewrite app_length. cbn. rewrite <- (firstn_skipn i (content d)) at 1. llen. }
    exists d'. pose proof (rep_content _ _ _ _ R') as Ec. unfold vals_ok. rewrite Ec. split; auto. split; [split; auto|]. split; eauto.
  - destruct (List.Unsorted.step_u vcmp (vcfg c) g d (content d) false [] (List.Spec.Insert v) R) as (r & d' & E & s' & Es & l' & fr & Ev & R' & P).
    + intros _. unfold List.Spec.is_sorting. cbn. now rewrite Ms.
    + exact I.
    + discriminate.
    + unfold List.Unsorted.view in *. cbn in Es, Ev, E, P, R'. injection Es as -> ->. subst l'.
      apply bind_ok in E. destruct E as ([b d2] & E & E'). injection E' as -> ->.
      rewrite app_nil_r in P, R'. assert (fr = []) as -> by (eapply perm_fr; [exact P|llen]).
      exists d'. pose proof (rep_content _ _ _ _ R') as Ec. unfold vals_ok. rewrite Ec, Ms. split; auto. split; auto. split; auto. discriminate.
Qed.
Lemma vals_at d i : vals_ok d -> List.Model.at_ (vcfg c) d i = Ok (nth i (content d) 0%N).
Proof. intros [R _]. rewrite (List.Unsorted.at_u vcmp (vcfg c) g d (content d) false [] i R). reflexivity. Qed.
Lemma vals_len d : vals_ok d -> List.Model.elems d = length (content d).
Proof. intros [(_ & L & _) _]. exact L. Qed.
Lemma vals_free d dv : vals_ok d -> list_destroy d dv = Ok (if dv then content d else []).
Proof.
  intros [R _]. unfold list_destroy. destruct dv; auto. apply (List.Proofs.free_range_ok d (content d) false [] R _ [] (content d) [] 0); cbn; auto.
  - now rewrite app_nil_r.
  - symmetry. apply R.
Qed.
Lemma vals_take d i : vals_ok d -> i < length (content d) ->
  exists d', List.Model.take_at (vcfg c) d i = Ok (nth i (content d) 0%N, d') /\ vals_ok d' /\ content d' = drop_nth i (content d).
Proof.
  intros [R So] Hi. destruct (List.Unsorted.take_u vcmp (vcfg c) g d (content d) false [] i R) as (d' & E & l' & Ev & R' & _).
  unfold List.Unsorted.view in *. cbn in E, Ev. exists d'. split; auto. pose proof (rep_content _ _ _ _ R') as Ec. unfold vals_ok. rewrite Ec. subst l'.
  split; auto. split; auto. intros Ms. specialize (So Ms). unfold List.Spec.del.
  apply (List.Sorted.sorted_del vcmp i (content d) So).
Qed.

(** The list of keys holds [ks]. *)
Definition keys_ok (d : Llist.Model.ll) (ks : list N) : Prop :=
  exists l, Llist.Step.Rep kcmp (kcfg c) d l /\ if ksort c then Permutation (Llist.Spec.vals l) ks else Llist.Spec.vals l = ks.
Lemma keys_create : keys_ok (Llist.Model.create (kcfg c)) [].
Proof. exists []. split; [apply Llist.Step.rep_create; auto|]. destruct (ksort c); auto. Qed.
Lemma keys_insert d ks k : keys_ok d ks -> k <> 0%N ->
  exists r d', Llist.Model.step kcmp (kcfg c) lev d (Llist.Spec.Insert k) = Ok (r, d') /\ keys_ok d' (ks ++ [k]).
Proof.
  intros (l & R & V) Hz. destruct (Llist.Step.step_ok kcmp (kcfg c) lev eq_refl Hk d l (Llist.Spec.Insert k) R I) as (r & d' & l' & f & E & R' & Rel & _).
  exists r, d'. split; auto. exists l'. split; auto. destruct Rel as (_ & _ & Rel).
  assert (Hz2 : (k =? 0)%N = false) by lia. cbn in Rel. rewrite Hz2 in Rel. destruct (ksort c).
  - destruct Rel as [_ [i ->]]. unfold insert_at, Llist.Spec.vals in *. rewrite map_app. cbn. rewrite <- V, <- Permutation_middle, <- map_app, firstn_skipn.
    apply Permutation_cons_append.
  - injection Rel as _ ->. unfold Llist.Spec.vals in *. rewrite map_app, V. reflexivity.
Qed.
(** Removal of the only key equal to [k] *)
Lemma keys_remove d a k b : keys_ok d (a ++ k :: b) -> kcmp k k = 0%Z -> (forall x, In x (a ++ b) -> kcmp k x <> 0%Z) -> k <> 0%N ->
  exists r d', Llist.Model.step kcmp (kcfg c) lev d (Llist.Spec.RemoveVal k (List.Spec.mkt false false)) = Ok (r, d') /\ keys_ok d' (a ++ b).
Proof.
  intros (l & R & V) Hr Ho Hz.
  destruct (Llist.Step.step_ok kcmp (kcfg c) lev eq_refl Hk d l (Llist.Spec.RemoveVal k (List.Spec.mkt false false)) R I) as (r & d' & l' & f & E & R' & Rel & _).
  exists r, d'. split; auto. exists l'. split; auto. destruct Rel as (_ & _ & Rel). injection Rel as _ ->.
  assert (P : Permutation (Llist.Spec.vals l) (a ++ k :: b)) by (destruct (ksort c); [auto|now rewrite V]).
  assert (Hin : In k (Llist.Spec.vals l)) by (apply (Permutation_in _ (Permutation_sym P)), in_elt).
  apply in_map_iff in Hin. destruct Hin as ([n k2] & Ek & Hin). cbn in Ek. subst k2. apply in_split in Hin. destruct Hin as (l1 & l2 & ->).
  assert (V2 : Llist.Spec.vals (l1 ++ (n, k) :: l2) = Llist.Spec.vals l1 ++ k :: Llist.Spec.vals l2) by (unfold Llist.Spec.vals; now rewrite map_app).
  assert (V3 : Permutation (Llist.Spec.vals l1 ++ Llist.Spec.vals l2) (a ++ b)).
  { apply (Permutation_cons_inv (a := k)). rewrite !Permutation_middle, <- V2. exact P. }
  assert (Hl1 : forall e, In e (l1 ++ l2) -> Llist.Spec.matches kcmp (List.Spec.mkt false false) k (snd e) = false).
  { intros e He. unfold Llist.Spec.matches. cbn. apply Z.eqb_neq. apply Ho. apply (Permutation_in _ V3).
    unfold Llist.Spec.vals. rewrite <- map_app. now apply in_map. }
  assert (Hf : filter (fun e => Llist.Spec.matches kcmp (List.Spec.mkt false false) k (snd e)) (l1 ++ (n, k) :: l2) = [(n, k)]).
  { rewrite filter_app. cbn [filter snd]. rewrite !filter_none by (intros; apply Hl1, in_app_iff; auto).
    unfold Llist.Spec.matches. cbn. now rewrite Hr. }
  assert (Er : Llist.Spec.remove_val kcmp (kcfg c) (List.Spec.mkt false false) k (l1 ++ (n, k) :: l2) = l1 ++ l2).
  { unfold Llist.Spec.remove_val, Llist.Spec.first_hit. rewrite Hf.
    assert (U : Llist.Spec.usable (kcfg c) (List.Spec.mkt false false) k = true) by (unfold Llist.Spec.usable; cbn; lia). rewrite U. cbn.
    pose proof (Llist.Proofs.v_nd _ _ (Llist.Step.rep_view kcmp (kcfg c) _ _ R)) as Nd.
    unfold Llist.Spec.ids in Nd. rewrite map_app in Nd. cbn in Nd. apply NoDup_remove_2 in Nd. rewrite <- map_app in Nd.
    unfold Llist.Spec.drop. rewrite filter_app. cbn [filter]. unfold Llist.Spec.is_node at 2. cbn [fst]. rewrite Nat.eqb_refl. cbn [negb].
    rewrite <- filter_app. apply filter_all. intros e He. apply negb_true_iff. unfold Llist.Spec.is_node. apply Nat.eqb_neq. intros Eq.
    apply Nd. rewrite <- Eq. now apply in_map. }
  rewrite Er. unfold Llist.Spec.vals in *. rewrite map_app. destruct (ksort c); auto.
  (* unsorted: the only place *)
  rewrite V2 in V. clear - V Ho Hr.
  assert (K : forall p q s t, p ++ k :: q = s ++ k :: t -> (forall x, In x (s ++ t) -> kcmp k x <> 0%Z) -> p ++ q = s ++ t).
  { induction p as [|x p IH]; intros q [|y s] t E H; cbn in *.
    - congruence.
    - injection E as -> ->. exfalso. apply (H y); auto.
    - injection E as -> <-. exfalso. apply (H k); auto. apply in_elt.
    - injection E as -> E. f_equal. apply IH; auto. }
  apply K; auto.
Qed.
End Parts.

From Verif Require Import Base.Lib Sort.Model Sort.Spec.

Section Merge.
Context {A : Type} (cmp : A -> A -> Z) (Hcmp : total_preorder cmp).

Lemma cmp_refl x : (cmp x x = 0)%Z.
Proof. destruct Hcmp as [H _]. specialize (H x x). lia. Qed.
Lemma cmp_gt x y : (cmp x y > 0 -> cmp y x < 0)%Z.
Proof. destruct Hcmp as [H _]. specialize (H x y). lia. Qed.
Lemma cmp_lt x y : (cmp x y < 0 -> cmp y x > 0)%Z.
Proof. destruct Hcmp as [H _]. specialize (H x y). lia. Qed.
Lemma cmp_sym0 x y : (cmp x y = 0 -> cmp y x = 0)%Z.
Proof. destruct Hcmp as [H _]. specialize (H x y). lia. Qed.
Lemma cmp_trans x y z : (cmp x y <= 0 -> cmp y z <= 0 -> cmp x z <= 0)%Z.
Proof. apply Hcmp. Qed.
Lemma cmp_total x y : (cmp x y <= 0 \/ cmp y x <= 0)%Z.
Proof. destruct Hcmp as [H _]. specialize (H x y). lia. Qed.

(** functional merge *)
Fixpoint merge (l1 : list A) : list A -> list A :=
  match l1 with
  | [] => fun l2 => l2
  | x :: l1' => fix merge_aux l2 :=
      match l2 with
      | [] => l1
      | y :: l2' => if (cmp x y <=? 0)%Z then x :: merge l1' l2 else y :: merge_aux l2'
      end
  end.

Lemma merge_nil_r l : merge l [] = l.
Proof. destruct l; reflexivity. Qed.

Lemma length_merge l1 : forall l2, length (merge l1 l2) = length l1 + length l2.
Proof.
  induction l1 as [|x l1 IH]; intros l2; [reflexivity|].
  induction l2 as [|y l2 IH2]; [cbn; lia|].
  cbn [merge]. destruct (cmp x y <=? 0)%Z.
  - cbn [length]. rewrite IH. cbn. lia.
  - cbn [length]. change ((fix merge_aux l2 := match l2 with [] => x :: l1
       | y :: l2' => if (cmp x y <=? 0)%Z then x :: merge l1 l2 else y :: merge_aux l2' end) l2)
     with (merge (x :: l1) l2). rewrite IH2. cbn. lia.
Qed.

Lemma copy_rest_ok : forall n (src : list A) i base k,
  i + n <= length src -> k + n <= length base ->
  exists b, copy_rest n src i base k = Ok (b, k + n) /\ length b = length base /\
    firstn (k + n) b = firstn k base ++ firstn n (skipn i src).
Proof.
  induction n as [|n IH]; intros src i base k Hi Hk.
  - exists base. cbn. rewrite Nat.add_0_r, app_nil_r. auto.
  - cbn [copy_rest]. destruct (rd_lt src (i := i) ltac:(lia)) as [x Hx]. rewrite Hx. cbn [bind].
    destruct (wr_seq base x (pos := k) ltac:(lia)) as (m & E & L & F & _). rewrite E. cbn [bind].
    destruct (IH src (S i) m (S k)) as (b & E2 & L2 & F2); [lia|lia|].
    exists b. rewrite E2. replace (S k + n) with (k + S n) in * by lia.
    repeat split; try congruence. rewrite F2, F, <- app_assoc. f_equal.
    apply rd_Ok in Hx. clear - Hx. revert i Hx. induction src as [|y src IH]; intros [|i] H; cbn in H; try discriminate.
    + cbn. congruence.
    + cbn [skipn]. apply (IH i H).
Qed.

Lemma skipn_rd (l : list A) i : i < length l -> exists x, rd l i = Ok x /\ skipn i l = x :: skipn (S i) l.
Proof.
  intros H. destruct (rd_lt l H) as [x Hx]. exists x. split; auto. apply rd_Ok in Hx. clear H.
  revert i Hx. induction l as [|y l IH]; intros [|i] H; cbn in H; try discriminate.
  - cbn. congruence.
  - cbn [skipn]. apply IH, H.
Qed.

Lemma merge_loop_ok : forall fuel left right base i j k,
  i <= length left -> j <= length right -> k = i + j ->
  length base = length left + length right ->
  (length left - i) + (length right - j) < fuel ->
  exists b, merge_loop cmp fuel left right base i j k = Ok b /\
    b = firstn k base ++ merge (skipn i left) (skipn j right).
Proof.
  induction fuel as [|f IH]; intros left right base i j k Hi Hj Hk Hb Hf; [lia|].
  cbn [merge_loop].
  destruct (Nat.ltb_spec i (length left)) as [Hi'|Hi']; destruct (Nat.ltb_spec j (length right)) as [Hj'|Hj'];
    cbn [andb].
  - destruct (skipn_rd left i Hi') as (x & Hx & Sx). destruct (skipn_rd right j Hj') as (y & Hy & Sy).
    rewrite Hx, Hy. cbn [bind]. rewrite Sx, Sy. cbn [merge].
    destruct (cmp x y <=? 0)%Z eqn:C.
    + destruct (wr_seq base x (pos := k) ltac:(lia)) as (m & E & L & F & _). rewrite E. cbn [bind].
      destruct (IH left right m (S i) j (S k)) as (b & E2 & ->); try lia.
      exists (firstn (S k) m ++ merge (skipn (S i) left) (skipn j right)). split; auto.
      rewrite F, <- app_assoc, Sy. reflexivity.
    + destruct (wr_seq base y (pos := k) ltac:(lia)) as (m & E & L & F & _). rewrite E. cbn [bind].
      destruct (IH left right m i (S j) (S k)) as (b & E2 & ->); try lia.
      exists (firstn (S k) m ++ merge (skipn i left) (skipn (S j) right)). split; auto.
      rewrite F, <- app_assoc, Sx. reflexivity.
  - destruct (copy_rest_ok (length left - i) left i base k) as (b & E & L & F); [lia|lia|].
    rewrite E. cbn [bind]. replace (length right - j) with 0 by lia. cbn [copy_rest bind].
    exists b. split; auto. rewrite (skipn_all2 right) by lia. rewrite merge_nil_r.
    replace (k + (length left - i)) with (length b) in F by lia. rewrite firstn_all in F.
    rewrite F. f_equal. rewrite <- (skipn_length i left). apply firstn_all.
  - replace (length left - i) with 0 by lia. cbn [copy_rest bind].
    destruct (copy_rest_ok (length right - j) right j base k) as (b & E & L & F); [lia|lia|].
    rewrite E. cbn [bind]. exists b. split; auto. rewrite (skipn_all2 left) by lia. cbn [merge].
    replace (k + (length right - j)) with (length b) in F by lia. rewrite firstn_all in F.
    rewrite F. f_equal. rewrite <- (skipn_length j right). apply firstn_all.
  - replace (length left - i) with 0 by lia. replace (length right - j) with 0 by lia.
    cbn [copy_rest bind]. exists base. split; auto.
    rewrite (skipn_all2 left), (skipn_all2 right) by lia. cbn [merge]. rewrite app_nil_r, firstn_all2; auto. lia.
Qed.

Lemma merge_perm l1 : forall l2, Permutation (merge l1 l2) (l1 ++ l2).
Proof.
  induction l1 as [|x l1 IH]; intros l2; [reflexivity|].
  induction l2 as [|y l2 IH2]; [rewrite app_nil_r; reflexivity|].
  cbn [merge]. destruct (cmp x y <=? 0)%Z.
  - cbn. constructor. apply IH.
  - change ((fix merge_aux l2 := match l2 with [] => x :: l1
       | y :: l2' => if (cmp x y <=? 0)%Z then x :: merge l1 l2 else y :: merge_aux l2' end) l2)
     with (merge (x :: l1) l2).
    rewrite IH2. apply Permutation_middle.
Qed.

Lemma merge_sorted l1 : forall l2, sorted cmp l1 -> sorted cmp l2 -> sorted cmp (merge l1 l2).
Proof.
  unfold sorted. induction l1 as [|x l1 IH]; intros l2 H1 H2; [exact H2|].
  induction l2 as [|y l2 IH2]; [exact H1|].
  cbn [merge]. apply StronglySorted_inv in H1 as [S1 F1]. pose proof H2 as H2'.
  apply StronglySorted_inv in H2 as [S2 F2].
  destruct (cmp x y <=? 0)%Z eqn:C.
  - constructor; [apply IH; auto|].
    apply (Permutation_Forall (Permutation_sym (merge_perm l1 (y :: l2)))).
    apply Forall_app. split; auto. constructor; [lia|].
    eapply Forall_impl; [|exact F2]. intros z Hz. apply cmp_trans with y; auto. lia.
  - change ((fix merge_aux l2 := match l2 with [] => x :: l1
       | y :: l2' => if (cmp x y <=? 0)%Z then x :: merge l1 l2 else y :: merge_aux l2' end) l2)
     with (merge (x :: l1) l2).
    assert (Hyx : (cmp y x <= 0)%Z) by (assert (cmp x y > 0)%Z by lia; apply cmp_gt in H; lia).
    constructor; [apply IH2; auto|].
    apply (Permutation_Forall (Permutation_sym (merge_perm (x :: l1) l2))).
    cbn. constructor; auto. apply Forall_app. split; auto.
    eapply Forall_impl; [|exact F1]. intros z Hz. apply cmp_trans with x; auto.
Qed.

Lemma merge_stable z l1 : forall l2, sorted cmp l1 -> sorted cmp l2 ->
  equals_of cmp z (merge l1 l2) = equals_of cmp z l1 ++ equals_of cmp z l2.
Proof.
  unfold sorted. induction l1 as [|x l1 IH]; intros l2 H1 H2; [reflexivity|].
  induction l2 as [|y l2 IH2]; [cbn [merge]; unfold equals_of at 3; cbn; now rewrite app_nil_r|].
  cbn [merge]. pose proof H1 as H1'. apply StronglySorted_inv in H1 as [S1 F1]. pose proof H2 as H2'.
  apply StronglySorted_inv in H2 as [S2 F2].
  destruct (cmp x y <=? 0)%Z eqn:C.
  - unfold equals_of in *. cbn [filter]. rewrite IH by auto. destruct (cmp z x =? 0)%Z; reflexivity.
  - change ((fix merge_aux l2 := match l2 with [] => x :: l1
       | y :: l2' => if (cmp x y <=? 0)%Z then x :: merge l1 l2 else y :: merge_aux l2' end) l2)
     with (merge (x :: l1) l2).
    assert (E : forall s w, equals_of cmp z (w :: s) = (if (cmp z w =? 0)%Z then [w] else []) ++ equals_of cmp z s)
      by (intros s w; unfold equals_of; cbn; destruct (cmp z w =? 0)%Z; reflexivity).
    rewrite (E _ y), (E l2 y). rewrite IH2 by auto.
    destruct (cmp z y =? 0)%Z eqn:Zy; [|reflexivity].
    (* y equals z and y < x: nothing of x :: l1 equals z *)
    replace (equals_of cmp z (x :: l1)) with (@nil A); [reflexivity|].
    assert (Hxy : (cmp y x < 0)%Z) by (apply cmp_gt; lia).
    assert (F : Forall (fun w => (cmp z w =? 0)%Z = false) (x :: l1)).
    { assert (Hz : forall w, (cmp x w <= 0)%Z -> (cmp z w =? 0)%Z = false).
      { intros w Hw. apply Z.eqb_neq. intros Ez.
        assert (cmp x y <= 0)%Z; [|lia].
        apply cmp_trans with w; auto. apply cmp_trans with z; [|lia].
        apply cmp_sym0 in Ez. lia. }
      constructor; [apply Hz; rewrite cmp_refl; lia|].
      eapply Forall_impl; [|exact F1]. intros w Hw. apply Hz, Hw. }
    unfold equals_of. clear - F. induction F as [|w s Hw _ IHF]; cbn; [reflexivity|]. rewrite Hw. exact IHF.
Qed.

Lemma mergesort_ok : forall fuel l, length l < fuel ->
  exists l', mergesort cmp fuel l = Ok l' /\ Permutation l' l /\ sorted cmp l' /\
    forall x, equals_of cmp x l' = equals_of cmp x l.
Proof.
  induction fuel as [|f IH]; intros l Hf; [lia|].
  cbn [mergesort]. destruct (Nat.ltb_spec (length l) 2) as [Hs|Hs].
  - exists l. split; auto. split; [reflexivity|]. split; [|reflexivity].
    destruct l as [|x [|y l]]; cbn in Hs; try lia; repeat constructor.
  - set (ls := if (2 <? length l) && negb (length l mod 2 =? 0) then S (length l / 2) else length l / 2).
    assert (Hls : ls + length l / 2 = length l /\ 0 < ls < length l).
    { subst ls. destruct (Nat.ltb_spec 2 (length l)); destruct (Nat.eqb_spec (length l mod 2) 0); cbn [andb negb]; lia. }
    assert (Hr : firstn (length l / 2) (skipn ls l) = skipn ls l).
    { apply firstn_all2. rewrite skipn_length. lia. }
    rewrite Hr.
    destruct (IH (firstn ls l)) as (left & El & Pl & Sl & Tl); [rewrite firstn_length; lia|].
    destruct (IH (skipn ls l)) as (right & Er & Pr & Sr & Tr); [rewrite skipn_length; lia|].
    rewrite El. cbn [bind]. rewrite Er. cbn [bind].
    pose proof (Permutation_length Pl) as Ll. pose proof (Permutation_length Pr) as Lr.
    rewrite firstn_length in Ll. rewrite skipn_length in Lr.
    destruct (merge_loop_ok (S (length l)) left right l 0 0 0) as (b & Eb & ->); try lia.
    rewrite !skipn_O, firstn_O in Eb.
    exists (merge left right). split; [exact Eb|]. repeat split.
    + rewrite merge_perm, Pl, Pr. now rewrite firstn_skipn.
    + apply merge_sorted; auto.
    + intros x. rewrite merge_stable by auto. rewrite Tl, Tr. unfold equals_of.
      rewrite <- filter_app, firstn_skipn. reflexivity.
Qed.
End Merge.

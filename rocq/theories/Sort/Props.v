(** Properties of sorting and searching (C09 - C12). *)
From Verif Require Import Base.Lib Sort.Model Sort.Spec Sort.Merge Sort.Qsort Sort.Binary.

(** C09 *)
Theorem mergesort_stable_sort : forall A (cmp : A -> A -> Z), total_preorder cmp -> forall l,
  exists l', mergesort cmp (S (length l)) l = Ok l' /\ Permutation l' l /\ sorted cmp l' /\
    forall x, equals_of cmp x l' = equals_of cmp x l.
Proof. intros A cmp H l. apply (mergesort_ok cmp H). lia. Qed.
Print Assumptions mergesort_stable_sort.

(** C10: also no access outside the array (UB) and termination (Fuel). *)
Theorem qsort_sorts : forall A (cmp : A -> A -> Z), total_preorder cmp -> forall l,
  exists l', qsort cmp (S (length l)) l 0 (length l) = Ok l' /\ Permutation l' l /\ sorted cmp l'.
Proof. exact @qsort_correct. Qed.
Print Assumptions qsort_sorts.

(** Pairs compared by their first component: equal keys are distinguishable. *)
Definition cmp1 (x y : Z * Z) : Z := (fst x - fst y)%Z.
Example cmp1_preorder : total_preorder cmp1.
Proof. split; unfold cmp1; intros; lia. Qed.
Example sort_cases :
  mergesort cmp1 8 [(3,1);(1,2);(3,3);(2,4);(1,5)]%Z = Ok [(1,2);(1,5);(2,4);(3,1);(3,3)]%Z /\
  qsort cmp1 13 [(5,0);(3,1);(9,2);(3,3);(5,4);(1,5);(7,6);(5,7);(2,8);(8,9);(0,10);(5,11)]%Z 0 12
   = Ok [(0, 10); (1, 5); (2, 8); (3, 3); (3, 1); (5, 0); (5, 4); (5, 7); (5, 11); (7, 6); (8, 9); (9, 2)]%Z.
Proof. split; vm_compute; reflexivity. Qed.

(** C11: success iff some element equals the key; the index then holds an
    equal element, the first one in stable mode. *)
Theorem binary_search_exact : forall A (cmp : A -> A -> Z), total_preorder cmp ->
  forall a key stable, sorted cmp a ->
  exists b i, bsearch cmp a key stable = Ok (b, i) /\
    (b = true <-> exists x, In x a /\ cmp key x = 0%Z) /\
    (b = true -> (exists x, nth_error a i = Some x /\ cmp key x = 0%Z) /\
       (stable = true -> forall j x, j < i -> nth_error a j = Some x -> cmp key x <> 0%Z)).
Proof.
  intros A cmp H a key stable Hs. destruct (bsearch_ok cmp H a key Hs stable) as (b & i & E & T & F).
  exists b, i. split; auto. split.
  - split.
    + intros B. destruct (T B) as [(x & Hx & Ex) _]. exists x. split; auto. eapply nth_error_In; eauto.
    + intros (x & Hx & Ex). destruct b; auto. exfalso. apply In_nth_error in Hx as [j Hj].
      exact (F eq_refl j x Hj Ex).
  - intros B. destruct (T B) as [Fi Gi]. split; auto. intros S j x Hj Hx Ex. apply (Gi S j Hj). exists x; auto.
Qed.
Print Assumptions binary_search_exact.

(** C12, first half: inserting at the reported index keeps the order. *)
Theorem insert_idx_sorted : forall A (cmp : A -> A -> Z), total_preorder cmp ->
  forall a key stable, sorted cmp a ->
  exists i, insert_idx cmp a key stable = Ok i /\ i <= length a /\ sorted cmp (insert_at i key a).
Proof.
  intros A cmp H a key stable Hs. destruct (insert_idx_ok cmp H a key Hs stable) as (i & E & L & H1 & H2 & _).
  exists i. split; auto. split; auto. apply insert_sorted; auto.
Qed.
Print Assumptions insert_idx_sorted.

(** C12, second half, is false: in stable mode the key may land before an
    element equal to it. *)
Theorem insert_idx_stable_refuted : exists (a : list Z) key x,
  sorted Z.sub a /\ insert_idx Z.sub a key true = Ok 0 /\ nth_error a 0 = Some x /\ Z.sub key x = 0%Z.
Proof.
  exists [5]%Z, 5%Z, 5%Z. split; [repeat constructor|]. repeat split; vm_compute; reflexivity.
Qed.
Print Assumptions insert_idx_stable_refuted.

(** The exact extent: everything before the index is at most the key,
    everything strictly behind the index is greater, so at most one equal
    element (the one at the index) ends up behind the inserted key. *)
Theorem insert_idx_stable_partial : forall A (cmp : A -> A -> Z), total_preorder cmp ->
  forall a key, sorted cmp a ->
  exists i, insert_idx cmp a key true = Ok i /\ i <= length a /\
    (forall j x, j < i -> nth_error a j = Some x -> (cmp x key <= 0)%Z) /\
    (forall j x, i < j -> nth_error a j = Some x -> (cmp key x < 0)%Z).
Proof.
  intros A cmp H a key Hs. destruct (insert_idx_ok cmp H a key Hs true) as (i & E & L & H1 & H2 & H3).
  exists i. split; auto. split; auto. split; [|apply H3; auto].
  intros j x Hj Hx. specialize (H1 j x Hj Hx). destruct H as [Sg _]. specialize (Sg key x). lia.
Qed.
Print Assumptions insert_idx_stable_partial.

Example sub_preorder : total_preorder Z.sub.
Proof. split; intros; lia. Qed.
Example binary_cases :
  bsearch Z.sub [1;3;3;3;5;9]%Z 3%Z true = Ok (true, 1) /\
  bsearch Z.sub [1;3;3;3;5;9]%Z 4%Z false = Ok (false, 0) /\
  insert_idx Z.sub [1;3;3;3;5;9]%Z 3%Z true = Ok 4 /\
  insert_idx Z.sub [1;3;3;3;5;9]%Z 6%Z false = Ok 5 /\
  insert_idx Z.sub [1;3;3]%Z 3%Z true = Ok 2.
Proof. repeat split; vm_compute; reflexivity. Qed.

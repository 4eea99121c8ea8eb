(** C34: linked list *)
From Verif Require Import Base.Lib Sort.Spec Llist.Spec Llist.Model Llist.Proofs Llist.Step.

(** Every sequence of calls on a new non-circular list, sorted or not, whose
    node arguments are nodes of the list, succeeds for every choice of levels.
    The results, the values freed and the sequence of nodes left behind are
    those of the specification; following the next pointers from the first node
    visits the nodes in order, following the prev pointers from the last node
    visits them in reverse, and every other node has been freed. *)
Theorem llist_refines_sequence cmp c lev ops :
  circ c = false -> good_cmp cmp c -> safe cmp c 0 [] ops ->
  exists rs d l f k, run cmp c lev ops (create c) = Ok (rs, d) /\ chain cmp c 0 [] ops rs k l f /\
    fr d = f /\ cnt d = length l /\
    forwards d = Ok (ids l) /\ backwards d = Ok (rev (ids l)) /\
    (forall n v, In (n, v) l -> value (hp d) n = Ok v) /\
    (forall n, ~ In n (ids l) -> get (hp d) n = UB).
Proof.
  intros Hc Hg Hs. destruct (run_ok cmp c lev Hc Hg ops (create c) []) as (rs & d & l & f & E & R & F & C); auto.
  { now apply rep_create. }
  pose proof (rep_view cmp c _ _ R) as V.
  exists rs, d, l, f, (length (hp d)). split; [exact E|]. split; [exact C|]. split; [rewrite F; apply app_nil_r|].
  split; [apply (v_cnt _ _ V)|]. split; [eapply rep_forwards; eauto|]. split; [eapply rep_backwards; eauto|]. split.
  - intros n v H. apply value_ok. now apply (v_val _ _ V).
  - intros n H. unfold get. assert (K : VL (hp d) n = None).
    { destruct (VL (hp d) n) eqn:E1; auto. exfalso. apply H. apply (v_alive _ _ V). congruence. }
    unfold VL in K. destruct (nth_error (hp d) n) as [[|]|]; congruence.
Qed.
Print Assumptions llist_refines_sequence.

(** A sorted list is traversed in the order of its values. *)
Theorem llist_sorted cmp c lev ops :
  srt c = true -> circ c = false -> total_preorder cmp -> safe cmp c 0 [] ops ->
  exists rs d ns vs, run cmp c lev ops (create c) = Ok (rs, d) /\ forwards d = Ok ns /\
    map (value (hp d)) ns = map Ok vs /\ sorted cmp vs.
Proof.
  intros Es Hc Hp Hs. assert (Hg : good_cmp cmp c) by (unfold good_cmp; now rewrite Es).
  destruct (run_ok cmp c lev Hc Hg ops (create c) []) as (rs & d & l & f & E & R & F & C); auto.
  { now apply rep_create. }
  exists rs, d, (ids l), (vals l). split; [exact E|]. split; [eapply rep_forwards; eauto|]. split; [|eapply rep_sorted; eauto].
  unfold ids, vals. rewrite !map_map. apply map_ext_in. intros [n v] H. cbn. apply value_ok. apply (v_val _ _ (rep_view cmp c _ _ R)). exact H.
Qed.
Print Assumptions llist_sorted.

Definition ncmp (x y : N) : Z := (Z.of_N x - Z.of_N y)%Z.
Definition tens (x y : N) : Z := (Z.of_N (x / 10) - Z.of_N (y / 10))%Z.
Definition low (_ : nat) : nat := 0.
Definition plain := mkc false false true.
Definition srtd := mkc true false true.
Definition ring := mkc false true true.
Definition ends cmp c lev ops := do '(rs, d) <- run cmp c lev ops (create c); do l <- forwards d; Ok (rs, l).

(** Sorting is documented as stable: a value equal to others is to be inserted
    after them (m_llist.h lines 62-63).  It is inserted after the first. *)
Theorem sorted_insert_stable_refuted :
  ends tens srtd low [Insert 11%N; Insert 12%N; Insert 13%N] = Ok ([RP (Some 0); RP (Some 1); RP (Some 2)], [0; 2; 1]).
Proof. vm_compute. reflexivity. Qed.
Print Assumptions sorted_insert_stable_refuted.
(** Removing the only node of a circular list leaves first and last pointing to
    it; the next insertion writes to freed memory. *)
Theorem circular_remove_refuted :
  ends ncmp ring low [Insert 5%N; RemoveNode 0; First] = UB /\
  (do '(rs, _) <- run ncmp ring low [Insert 5%N; RemoveNode 0; First; Len] (create ring); Ok rs) = Ok [RP (Some 0); RB true; RP (Some 0); RN 0] /\
  run ncmp ring low [Insert 5%N; RemoveNode 0; Insert 6%N] (create ring) = UB.
Proof. vm_compute. auto. Qed.
Print Assumptions circular_remove_refuted.
(** Inserting before the first node of a circular list makes the node the last. *)
Theorem circular_insert_before_refuted :
  (do '(rs, _) <- run ncmp ring low [Insert 5%N; Insert 6%N; InsertBefore 0 7%N; First; Last] (create ring); Ok rs) =
  Ok [RP (Some 0); RP (Some 1); RP (Some 2); RP (Some 0); RP (Some 2)].
Proof. vm_compute. reflexivity. Qed.
Print Assumptions circular_insert_before_refuted.

(** Cases the theorems speak about *)
Definition any_time (o : nop) : bool :=
  match o with Insert _ | InsertFirst _ | Len | Count _ _ | First | Last | Find _ _ | RemoveVal _ _ | RemoveDups _ => true | _ => false end.
Lemma any_time_safe cmp c : forall ops k l, forallb any_time ops = true -> safe cmp c k l ops.
Proof.
  induction ops as [|o ops IH]; intros k l H; cbn; auto. cbn in H. apply andb_true_iff in H. destruct H as [H1 H2]. split; auto.
  destruct o; try discriminate; exact I.
Qed.
Definition val := mkt false false.
Definition vall := mkt true false.
Lemma ncmp_preorder : total_preorder ncmp.
Proof. unfold ncmp. split; intros; lia. Qed.
Example sorted_case : good_cmp ncmp srtd /\
  safe ncmp srtd 0 [] [Insert 3%N; Insert 1%N; Insert 2%N; Insert 3%N; Insert 1%N; Find 3%N val; RemoveVal 1%N vall; Count 3%N val; First; Last; RemoveDups val; Len] /\
  ends ncmp srtd (fun x => x) [Insert 3%N; Insert 1%N; Insert 2%N; Insert 3%N; Insert 1%N; Find 3%N val; RemoveVal 1%N vall; Count 3%N val; First; Last; RemoveDups val; Len] =
  Ok ([RP (Some 0); RP (Some 1); RP (Some 2); RP (Some 3); RP (Some 4); RP (Some 3); RN 2; RN 2; RP (Some 2); RP (Some 0); RU; RN 2], [2; 3]).
Proof. split; [exact ncmp_preorder|]. split; [apply any_time_safe; reflexivity|vm_compute; reflexivity]. Qed.
Lemma rel_ustep cmp c k l o r l' f : srt c = false -> rel cmp c k l o r l' f -> (r, l') = ustep cmp c k l o.
Proof. intros E (_ & _ & H). destruct o; auto. now rewrite E in H. Qed.
Ltac steps := repeat (cbn [safe]; split; [cbn; tauto|];
  let r := fresh in let l' := fresh in let f := fresh in let H := fresh in
  intros r l' f H; apply rel_ustep in H; [|reflexivity]; cbn in H; injection H as -> ->; cbn).
Example unsorted_case : good_cmp ncmp plain /\
  safe ncmp plain 0 [] [Insert 3%N; InsertFirst 1%N; InsertAfter 1 2%N; InsertBefore 0 9%N; MoveAfter 1 3; MoveBefore 0 2; SetFirst 3; SetLast 2; Prev 0; TakeNode 0; RemoveNode 1] /\
  ends ncmp plain low [Insert 3%N; InsertFirst 1%N; InsertAfter 1 2%N; InsertBefore 0 9%N; MoveAfter 1 3; MoveBefore 0 2; SetFirst 3; SetLast 2; Prev 0; TakeNode 0; RemoveNode 1] =
  Ok ([RP (Some 0); RP (Some 1); RP (Some 2); RP (Some 3); RB true; RB true; RU; RU; RP (Some 3); RV 3%N; RB true], [3; 2]).
Proof. split; [cbn; unfold ncmp; intros; lia|]. split; [steps; exact I|vm_compute; reflexivity]. Qed.

(** M_llist_destroy *)
From Verif Require Import Base.Lib Sort.Spec Llist.Spec Llist.Model Llist.Proofs Llist.Step.

Definition same (p q : ptr) : bool :=
  match p, q with Some x, Some y => x =? y | None, None => true | _, _ => false end.
(** M_llist_destroy: base/list/m_llist.c lines 545-572; the loop of lines
    556-564, then the list itself (lines 566-571) is gone, what is left here is
    the heap of nodes and the values passed to value_free *)
Fixpoint destroy_from (fuel : nat) (d : ll) (f0 p : ptr) (dv : bool) : res ll :=
  match p with
  | None => Ok d
  | Some x =>
    match fuel with
    | O => Fuel
    | S fuel' =>
      do nx <- node_next d x;
      do d <- node_destroy d x dv;
      if same nx f0 then Ok d else destroy_from fuel' d f0 nx dv
    end
  end.
Definition destroy (d : ll) (dv : bool) : res ll :=
  do p <- first d; destroy_from (length (hp d)) d p p dv.

Lemma destroy_from_ok dv x0 : forall l fuel d p,
  length l <= fuel -> NoDup (ids l) -> (x0 = None \/ l = [] \/ forall y, x0 = Some y -> ~ In y (List.tl (ids l))) ->
  (forall x, VL (hp d) x <> None <-> In x (ids l)) ->
  (forall x v, In (x, v) l -> VL (hp d) x = Some v) -> seg (hp d) 0 p (ids l) None ->
  exists d', destroy_from fuel d x0 (nxt_of (ids l) None) dv = Ok d' /\
    (forall x, get (hp d') x = UB) /\ fr d' = (if dv then rev (vals l) else []) ++ fr d.
Proof.
  induction l as [|[x v] l IH]; intros fuel d p Hf Hnd H0 Hal Hv Hs; cbn [ids vals map fst snd nxt_of].
  - exists d. split; [destruct fuel; reflexivity|]. split; [|destruct dv; reflexivity].
    intro x. unfold get. specialize (Hal x). unfold VL in Hal. destruct (nth_error (hp d) x) as [[n|]|]; auto.
    exfalso. apply (proj1 Hal). discriminate.
  - destruct fuel as [|fuel]; cbn [length] in Hf; [lia|]. cbn [destroy_from].
    cbn [ids map fst seg] in Hs. destruct Hs as (E1 & E2 & Hs). unfold node_next. rewrite (next_ok _ _ _ _ E1). cbn [bind].
    assert (Ev : VL (hp d) x = Some v) by (apply Hv; left; auto).
    unfold node_destroy, get. unfold VL in Ev. destruct (nth_error (hp d) x) as [[n|]|] eqn:En; try discriminate. injection Ev as Ev. cbn [bind].
    cbn [ids map fst] in Hnd. apply NoDup_cons_iff in Hnd. destruct Hnd as [Hx Hnd].
    set (d1 := mkd _ _ _ _ _).
    assert (Hal1 : forall y, VL (hp d1) y <> None <-> In y (ids l)).
    { intro y. unfold d1. cbn [hp]. destruct (free_v (hp d) x y 0) as (_ & _ & -> & _). destruct (Nat.eqb_spec y x) as [->|Hy].
      - split; [congruence|]. intro H. elim (Hx H).
      - rewrite Hal. cbn [ids map fst In]. intuition congruence. }
    assert (Hv1 : forall y w, In (y, w) l -> VL (hp d1) y = Some w).
    { intros y w Hy. unfold d1. cbn [hp]. destruct (free_v (hp d) x y 0) as (_ & _ & -> & _). destruct (Nat.eqb_spec y x) as [->|Hn].
      - elim Hx. apply (in_map fst) in Hy. exact Hy.
      - apply Hv. right. auto. }
    assert (Hs1 : seg (hp d1) 0 (Some x) (ids l) None).
    { eapply seg_frame; [exact Hs|]. intros y Hy. unfold d1. cbn [hp]. destruct (free_v (hp d) x y 0) as (-> & -> & _).
      rewrite (proj2 (Nat.eqb_neq y x)) by (intros ->; auto). auto. }
    assert (Hfr : fr d1 = (if dv then [v] else []) ++ fr d) by (unfold d1; cbn [fr]; rewrite Ev; destruct dv; reflexivity).
    assert (Hgo : exists d', destroy_from fuel d1 x0 (nxt_of (ids l) None) dv = Ok d' /\
      (forall y, get (hp d') y = UB) /\ fr d' = (if dv then rev (vals l) else []) ++ fr d1).
    { apply (IH fuel d1 (Some x)); auto; [lia|].
      destruct H0 as [H0|[H0|H0]]; [left; auto|discriminate|]. right. right. intros y Hy Hi. apply (H0 y Hy). cbn [ids map fst List.tl].
      destruct (map fst l) as [|z m] eqn:Em; [unfold ids in Hi; rewrite Em in Hi; destruct Hi|]. unfold ids in Hi. rewrite Em in Hi. right. exact Hi. }
    destruct Hgo as (d' & E' & Hg & Hfr'). exists d'.
    assert (Hd : destroy_from fuel d1 x0 (nxt_of (ids l) None) dv = Ok d' -> (if same (nxt_of (ids l) None) x0 then Ok d1 else destroy_from fuel d1 x0 (nxt_of (ids l) None) dv) = Ok d').
    { destruct (same (nxt_of (ids l) None) x0) eqn:Es; auto. intro E. destruct l as [|[z w] l].
      - cbn in *. destruct fuel; exact E.
      - cbn [ids map fst nxt_of] in Es. destruct x0 as [y|]; cbn in Es; [|discriminate]. apply Nat.eqb_eq in Es. subst z.
        destruct H0 as [H0|[H0|H0]]; try discriminate. elim (H0 y eq_refl). cbn. auto. }
    split; [apply Hd; exact E'|]. split; [exact Hg|]. rewrite Hfr', Hfr, app_assoc. f_equal.
    cbn [vals map snd rev]. destruct dv; reflexivity.
Qed.

(** Destroying a list frees every node, and each value exactly once if asked
    to *)
Lemma destroy_ok d l dv : View d l -> exists d', destroy d dv = Ok d' /\ (forall x, get (hp d') x = UB) /\
  fr d' = (if dv then rev (vals l) else []) ++ fr d.
Proof.
  intro V. unfold destroy. rewrite (view_first _ _ V). cbn [bind].
  apply (destroy_from_ok dv (nxt_of (ids l) None) l (length (hp d)) d None).
  - apply (v_len _ _ V).
  - apply (v_nd _ _ V).
  - destruct l as [|[x v] l]; [right; left; auto|]. right. right. intros y [= <-]. cbn.
    pose proof (v_nd _ _ V) as H. cbn in H. now apply NoDup_cons_iff in H.
  - apply (v_alive _ _ V).
  - apply (v_val _ _ V).
  - apply (v_seg _ _ V).
Qed.

(** C34: destroying a list after any history frees every node and each value
    still in the list exactly once, or no value *)
Theorem llist_destroy cmp c lev ops dv :
  circ c = false -> good_cmp cmp c -> safe cmp c 0 [] ops ->
  exists rs d l f k d', run cmp c lev ops (create c) = Ok (rs, d) /\ chain cmp c 0 [] ops rs k l f /\
    destroy d dv = Ok d' /\ (forall n, get (hp d') n = UB) /\
    fr d' = (if dv then rev (vals l) else []) ++ f.
Proof.
  intros Hc Hg Hs. destruct (run_ok cmp c lev Hc Hg ops (create c) []) as (rs & d & l & f & E & R & F & C); auto.
  { now apply rep_create. }
  destruct (destroy_ok d l dv (rep_view cmp c _ _ R)) as (d' & Ed & Hu & Hf).
  exists rs, d, l, f, (length (hp d)), d'. repeat (split; auto). rewrite Hf, F. f_equal. apply app_nil_r.
Qed.
Print Assumptions llist_destroy.
Example llist_destroy_case :
  (do '(_, d) <- run (fun _ _ => 0%Z) (mkc false false true) (fun _ => 0) [Insert 5%N; Insert 6%N; Insert 7%N; RemoveNode 1] (create (mkc false false true));
   do d <- destroy d true; Ok (fr d)) = Ok [7%N; 5%N; 6%N].
Proof. vm_compute. reflexivity. Qed.

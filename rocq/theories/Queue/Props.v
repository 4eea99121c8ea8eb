(** C38: queue *)
From Verif Require Import Base.Lib Sort.Spec Queue.Spec Queue.Model Queue.Proofs.
From Verif Require Hash.Use Llist.Destroy Llist.Step Llist.Proofs Llist.Model Llist.Spec.

(** Every sequence of calls on a new queue, with or without a sort callback,
    succeeds for every hash function and every choice of levels; results,
    members freed and the remaining members are those of the specification.
    The members are distinct.  Destroying the queue frees each of them once. *)
Theorem queue_refines cmp srtd hash lev g ops :
  (srtd = true -> total_preorder cmp) ->
  exists q rs q' l f d, create srtd = Some q /\ run cmp srtd hash lev g ops q = Ok (rs, q') /\
    chain cmp srtd [] ops rs l f /\ Llist.Model.fr (ql q') = f /\ NoDup l /\ ~ In 0%N l /\
    destroy lev q' = Ok d /\ Llist.Model.fr d = rev l ++ f /\ (forall n, Llist.Model.get (Llist.Model.hp d) n = UB).
Proof.
  intro Hc. destruct (create_ok cmp srtd hash lev) as (q & Eq & Q0 & F0).
  destruct (run_ok cmp srtd hash lev g Hc ops q [] Q0) as (rs & q' & l & f & E & Q & C & F).
  rewrite F0, app_nil_r in F. destruct Q as (el & R & Hl & Hnd & Hz & Hh).
  destruct (Llist.Destroy.destroy_ok (ql q') el true (Llist.Step.rep_view _ _ _ _ R)) as (d & Ed & Hu & Hf).
  destruct (Hash.Use.holds_destroy vp hash lev (vp_keys srtd hash) _ _ false Hh) as (h' & Eh).
  exists q, rs, q', l, f, d. split; [exact Eq|]. split; [exact E|]. split; [exact C|]. split; [exact F|]. split; [exact Hnd|]. split; [exact Hz|].
  split; [unfold destroy; rewrite Ed; cbn [bind]; rewrite Eh; reflexivity|]. split; auto. rewrite Hf, F, Hl. reflexivity.
Qed.
Print Assumptions queue_refines.

(** Members inserted and then taken come out in order of insertion; with a sort
    callback in ascending order. *)
Lemma chain_app cmp srtd : forall a b l rs l' f, chain cmp srtd l (a ++ b) rs l' f ->
  exists ra rb lm fa fb, rs = ra ++ rb /\ chain cmp srtd l a ra lm fa /\ chain cmp srtd lm b rb l' fb /\ length ra = length a.
Proof.
  induction a as [|o a IH]; intros b l rs l' f H; cbn in H.
  - exists [], rs, l, [], f. repeat (split; auto). constructor.
  - inversion H; subst. destruct (IH _ _ _ _ _ H7) as (ra & rb & lm & fa & fb & -> & C1 & C2 & Hl).
    exists (r :: ra), rb, lm, (fa ++ f0), fb. split; auto. split; [econstructor; eauto|]. split; auto. cbn. now rewrite Hl.
Qed.
Lemma mem_In m l : mem m l = true <-> In m l.
Proof.
  unfold mem. rewrite existsb_exists. split.
  - intros (x & H & E). apply N.eqb_eq in E. now subst.
  - intro H. exists m. split; auto. apply N.eqb_refl.
Qed.
Lemma insert_perm {A} i (x : A) l : Permutation (insert_at i x l) (x :: l).
Proof. unfold insert_at. rewrite <- (firstn_skipn i l) at 3. symmetry. apply Permutation_middle. Qed.
Lemma inserts cmp srtd : forall ms l rs l' f, chain cmp srtd l (map Insert ms) rs l' f ->
  NoDup (l ++ ms) -> ~ In 0%N ms -> (srtd = true -> sorted cmp l) ->
  Permutation l' (l ++ ms) /\ if srtd then sorted cmp l' else l' = l ++ ms.
Proof.
  induction ms as [|m ms IH]; intros l rs l' f H Hnd Hz Hs; cbn [map] in H; inversion H; subst.
  - rewrite app_nil_r. split; auto. destruct srtd; auto.
  - match goal with H : rel _ _ _ _ _ _ _ |- _ => cbn [Queue.Spec.rel] in H; destruct H as [_ Rl] end.
    assert (Hm : mem m l = false).
    { destruct (mem m l) eqn:E; auto. apply mem_In in E. apply NoDup_remove_2 in Hnd. elim Hnd. apply in_or_app. now left. }
    rewrite Hm, orb_false_r in Rl. destruct (N.eqb_spec m 0) as [->|_]; [elim Hz; now left|]. destruct Rl as [_ Rl].
    assert (P1 : Permutation l1 (l ++ [m])).
    { destruct srtd; [|rewrite Rl; auto]. destruct Rl as [[i ->] _]. rewrite insert_perm. apply Permutation_cons_append. }
    match goal with C : chain _ _ l1 _ _ _ _ |- _ => apply IH in C end.
    + match goal with C : _ /\ _ |- _ => destruct C as [P2 S2] end. split.
      * rewrite P2, P1. rewrite <- app_assoc. reflexivity.
      * destruct srtd; auto. rewrite S2, Rl, <- app_assoc. reflexivity.
    + apply (Permutation_NoDup (l := l ++ m :: ms)); auto. rewrite P1, <- app_assoc. reflexivity.
    + intro K. apply Hz. now right.
    + intros ->. apply Rl.
Qed.
Lemma takes cmp srtd : forall l rs l' f, chain cmp srtd l (map (fun _ => TakeFirst) l) rs l' f ->
  rs = map RM l /\ l' = [].
Proof.
  induction l as [|m l IH]; intros rs l' f H; cbn [map] in H; inversion H; subst; auto.
  match goal with H : rel _ _ _ _ _ _ _ |- _ => cbn [Queue.Spec.rel hd tl] in H; destruct H as (-> & -> & _) end.
  match goal with C : chain _ _ _ _ _ _ _ |- _ => apply IH in C; destruct C as [-> ->] end. auto.
Qed.
Theorem queue_order cmp srtd hash lev g ms :
  (srtd = true -> total_preorder cmp) -> NoDup ms -> ~ In 0%N ms ->
  exists q rs q' l, create srtd = Some q /\
    run cmp srtd hash lev g (map Insert ms ++ map (fun _ => TakeFirst) ms) q = Ok (rs ++ map RM l, q') /\
    length rs = length ms /\ Permutation l ms /\ if srtd then sorted cmp l else l = ms.
Proof.
  intros Hc Hnd Hz.
  destruct (queue_refines cmp srtd hash lev g (map Insert ms ++ map (fun _ => TakeFirst) ms) Hc) as (q & rs & q' & l & f & d & Eq & E & C & _).
  apply chain_app in C. destruct C as (ra & rb & lm & fa & fb & -> & C1 & C2 & Hl).
  assert (S0 : srtd = true -> sorted cmp []) by (intros _; constructor).
  destruct (inserts cmp srtd ms [] ra lm fa C1 Hnd Hz S0) as [P S]. cbn [app] in P, S.
  replace (map (fun _ : N => TakeFirst) ms) with (map (fun _ : N => TakeFirst) lm) in C2.
  2:{ assert (L := Permutation_length P). clear - L. revert ms L. induction lm as [|x lm IH]; intros [|y ms] L; cbn in *; try lia; auto. f_equal. apply IH. lia. }
  apply takes in C2. destruct C2 as [-> _]. rewrite map_length in Hl.
  exists q, ra, q', lm. auto.
Qed.
Print Assumptions queue_order.

(** Cases the theorems speak about *)
Definition down (x y : N) : Z := (Z.of_N y - Z.of_N x)%Z.
Definition results cmp srtd ops :=
  match create srtd with
  | Some q => do '(rs, q) <- run cmp srtd (fun x => (x * 7)%N) (fun n => n) 0%N ops q; do d <- destroy (fun n => n) q; Ok (rs, Llist.Model.fr d)
  | None => UB
  end.
Example queue_case :
  results (fun _ _ => 0%Z) false [Insert 5%N; Insert 9%N; Insert 5%N; Insert 7%N; Foreach; Remove 9%N; TakeFirst; Insert 5%N; Len; Last] =
  Ok ([RB true; RB true; RB false; RB true; RL [5; 9; 7]%N; RB true; RM 5%N; RB true; RN 2; RM 5%N], [5; 7; 9]%N).
Proof. vm_compute. reflexivity. Qed.
Example sorted_queue_case :
  results down true [Insert 5%N; Insert 9%N; Insert 7%N; Foreach; Exists 7%N; Take 9%N; First; Remove 0%N] =
  Ok ([RB true; RB true; RB true; RL [9; 7; 5]%N; RB true; RB true; RM 7%N; RB false], [5; 7]%N).
Proof. vm_compute. reflexivity. Qed.
Example down_preorder : total_preorder down.
Proof.
  unfold down. split.
  - intros x y. destruct (Z.sgn_spec (Z.of_N y - Z.of_N x)) as [[? ->]|[[? ->]|[? ->]]];
    destruct (Z.sgn_spec (Z.of_N x - Z.of_N y)) as [[? ->]|[[? ->]|[? ->]]]; lia.
  - intros x y z. lia.
Qed.

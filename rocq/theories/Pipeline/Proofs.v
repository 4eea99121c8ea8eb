(** Proofs about the pipeline. *)
From Verif Require Import Base.Lib Base.Conc Pipeline.Model Pipeline.Spec.

(** ** Waking *)
Lemma wakes_nth f l : forall k j, nth_error (wakes f k l) j = option_map (fun p => if f (k + j)%nat then swake p else p) (nth_error l j).
Proof.
  induction l as [|p l IH]; intros k [|j]; cbn [wakes nth_error option_map]; try reflexivity; [now rewrite Nat.add_0_r|].
  rewrite IH. replace (S k + j)%nat with (k + S j)%nat by lia. reflexivity.
Qed.
Lemma wakes_length f l : forall k, length (wakes f k l) = length l.
Proof. induction l as [|p l IH]; intros k; cbn [wakes length]; [reflexivity|]. now rewrite IH. Qed.
Lemma wakes_sum (h : spc -> nat) f l : (forall p, h (swake p) = h p) -> forall k, sumf h (wakes f k l) = sumf h l.
Proof. intros W. induction l as [|p l IH]; intros k; cbn [wakes sumf]; [reflexivity|]. rewrite IH. destruct (f k); now rewrite ?W. Qed.

(** ** Conservation of tasks *)
Definition tot (w : task -> nat) (l : list task) : nat := list_sum (map w l).
Arguments tot : simpl never.
Lemma tot_nil w : tot w [] = 0. Proof. reflexivity. Qed.
Lemma tot_cons w x l : tot w (x :: l) = w x + tot w l. Proof. reflexivity. Qed.
Definition ow (w : task -> nat) (o : option task) : nat := match o with Some t => w t | None => 0 end.
Definition hw (w : task -> nat) (p : spc) : nat := match p with SRun t | SDone t _ | SFullB t | SFullW t => w t | _ => 0 end.
Definition weigh (w : task -> nat) (p : pipe) : nat := sumf (ow w) (slots p) + tot w (queue p).
Definition one : task -> nat := fun _ => 1.

Lemma tot_app w a b : tot w (a ++ b) = tot w a + tot w b.
Proof. unfold tot. now rewrite map_app, list_sum_app. Qed.
Lemma tot_one l : tot one l = length l.
Proof. induction l as [|x l IH]; [reflexivity|]. change (S (tot one l) = S (length l)). now rewrite IH. Qed.
Lemma fin_abort l : finished (map (fun t => EFin t Abort) l) = l.
Proof. induction l as [|x l IH]; cbn [map finished]; congruence. Qed.
Lemma finished_app a b : finished (a ++ b) = finished a ++ finished b.
Proof. induction a as [|[] a IH]; cbn [finished app]; rewrite ?IH; reflexivity. Qed.

Lemma slot_nth p i : (i < length (slots p))%nat -> nth_error (slots p) i = Some (slot p i).
Proof. intros L. unfold slot. now apply nth_error_nth'. Qed.
Lemma slot_sum w p i o : (i < length (slots p))%nat -> sumf (ow w) (upd (slots p) i o) + ow w (slot p i) = sumf (ow w) (slots p) + ow w o.
Proof. intros L. apply sumf_upd. now apply slot_nth. Qed.

Lemma loop_w w i p : (i < length (slots p))%nat ->
  weigh w (o_p (loop i p)) + hw w (o_pc (loop i p)) + tot w (finished (o_ev (loop i p))) = weigh w p.
Proof.
  intros L. unfold loop, weigh. destruct (status p); cbn [negb].
  - destruct (slot p i) as [t|] eqn:E.
    + cbn. pose proof (slot_sum w p i None L) as S. rewrite E in S. cbn [ow] in S. rewrite tot_nil. lia.
    + destruct (i =? 0); [|cbn; rewrite tot_nil; lia]. destruct (queue p) as [|t q] eqn:Q; cbn; rewrite ?Q, ?tot_cons, ?tot_nil; lia.
  - cbn [o_p o_pc o_ev slots queue hw]. rewrite fin_abort. pose proof (slot_sum w p i None L) as S.
    destruct (slot p i) as [t|] eqn:E; cbn [ow] in S; destruct (i =? 0); cbn [app]; rewrite ?app_nil_r, ?tot_cons, ?tot_nil; lia.
Qed.

Lemma loop_cnt i p : (i < length (slots p))%nat -> weigh one p <= cnt p ->
  cnt (o_p (loop i p)) + length (finished (o_ev (loop i p))) = cnt p.
Proof.
  intros L C. pose proof (loop_w one i p L) as W. unfold loop in *. destruct (status p); cbn [negb] in *.
  - destruct (slot p i) as [t|] eqn:E; [cbn; lia|]. destruct (i =? 0); [|cbn; lia]. destruct (queue p); cbn; lia.
  - cbn [o_p o_pc o_ev cnt hw] in *. rewrite fin_abort in *. rewrite tot_one in W. lia.
Qed.

Lemma finish_weigh w p : weigh w (finish_task p) = weigh w p. Proof. reflexivity. Qed.

Lemma send_w w i t p sig bc : (S i < length (slots p))%nat ->
  weigh w (o_p (send i t p sig bc)) + hw w (o_pc (send i t p sig bc)) + tot w (finished (o_ev (send i t p sig bc))) = weigh w p + w t.
Proof.
  intros L. unfold send. destruct (slot p (S i)) as [u|] eqn:E; [cbn; rewrite tot_nil; lia|].
  destruct (status p); cbn [negb]; unfold and_loop; cbn [o_p o_pc o_ev]; rewrite finished_app, tot_app; cbn [finished]; rewrite ?tot_cons, tot_nil.
  - pose proof (loop_w w i (set_slot p (S i) (Some t))) as W. cbn [set_slot slots] in W. rewrite length_upd in W. specialize (W ltac:(lia)).
    pose proof (slot_sum w p (S i) (Some t) L) as S. rewrite E in S. cbn [ow] in S. unfold weigh in *. cbn [set_slot slots queue] in W. cbn. lia.
  - pose proof (loop_w w i (finish_task p) ltac:(cbn; lia)) as W. rewrite finish_weigh in W. cbn. lia.
Qed.

Lemma send_cnt i t p sig bc : (S i < length (slots p))%nat -> weigh one p + 1 <= cnt p ->
  cnt (o_p (send i t p sig bc)) + length (finished (o_ev (send i t p sig bc))) = cnt p.
Proof.
  intros L C. unfold send. destruct (slot p (S i)) as [u|] eqn:E; [cbn; lia|].
  destruct (status p); cbn [negb]; unfold and_loop; cbn [o_p o_pc o_ev]; rewrite finished_app, app_length.
  - pose proof (loop_cnt i (set_slot p (S i) (Some t))) as W. cbn [set_slot slots cnt] in W. rewrite length_upd in W.
    pose proof (slot_sum one p (S i) (Some t) L) as S. rewrite E in S. cbn [ow] in S. unfold weigh in *. cbn [set_slot slots queue] in W.
    cbn. specialize (W ltac:(lia) ltac:(unfold one in *; lia)). lia.
  - pose proof (loop_cnt i (finish_task p) ltac:(cbn; lia)) as W. rewrite finish_weigh in W. cbn [finish_task cnt] in W. cbn. specialize (W ltac:(lia)). lia.
Qed.

(** Line 224 decides between finishing and sending on. *)
Lemma finish_cases na i t ok p : let last := (S i =? length (slots p))%nat in let down := negb ok && negb na in
  let p1 := if down then mkpipe false (slots p) (queue p) (cnt p) (freed p) else p in
  (exists r, finish_step na i t ok p = and_loop i (finish_task p1) (fun _ => down) true [EFin t r] /\ (r = Success -> ok = true /\ last = true)) \/
  (finish_step na i t ok p = send i t p (fun _ => false) false /\ ok = true /\ last = false /\ status p = true /\ down = false).
Proof.
  cbv zeta. unfold finish_step. cbv zeta. destruct ok, na; cbn [negb andb]; destruct (status p) eqn:E; cbn [negb andb status]; rewrite ?E; cbn [negb andb];
    destruct (S i =? length (slots p)); cbn [negb andb]; try (left; eexists; split; [reflexivity|]; intros H; (discriminate H || auto)); right; auto.
Qed.

(** Steps that can be reached: only a step that is not the last waits for the next one. *)
Definition wellformed (n i : nat) (pc : spc) : Prop := match pc with SFullB _ | SFullW _ => (S i < n)%nat | _ => True end.

Lemma run_w na w i pc p c o : (i < length (slots p))%nat -> wellformed (length (slots p)) i pc -> run na i pc p c = Some o ->
  weigh w (o_p o) + hw w (o_pc o) + tot w (finished (o_ev o)) = weigh w p + hw w pc.
Proof.
  intros L WF H. destruct pc; cbn [run] in H; try discriminate H; injection H as <-.
  - rewrite loop_w by exact L. cbn. lia.
  - cbn. rewrite tot_nil. lia.
  - cbn [hw]. destruct (finish_cases na i t rv p) as [(r & -> & _)|(-> & _ & La & _)].
    + unfold and_loop. cbn [o_p o_pc o_ev]. rewrite finished_app, tot_app. cbn [finished]. rewrite tot_cons, tot_nil.
      match goal with |- context [loop i ?x] => pose proof (loop_w w i x) as W end.
      destruct (negb rv && negb na); unfold weigh in *; cbn [finish_task slots queue] in *; specialize (W L); lia.
    + apply Nat.eqb_neq in La. rewrite send_w by lia. lia.
  - cbn in WF. rewrite send_w by lia. reflexivity.
Qed.

Lemma run_cnt na i pc p c o : (i < length (slots p))%nat -> wellformed (length (slots p)) i pc -> run na i pc p c = Some o ->
  weigh one p + hw one pc <= cnt p -> cnt (o_p o) + length (finished (o_ev o)) = cnt p.
Proof.
  intros L WF H C. destruct pc; cbn [run] in H; try discriminate H; injection H as <-; cbn [hw] in C; try change (one t) with 1 in C.
  - rewrite loop_cnt; lia.
  - cbn. lia.
  - destruct (finish_cases na i t rv p) as [(r & -> & _)|(-> & _ & La & _)].
    + unfold and_loop. cbn [o_p o_pc o_ev]. rewrite finished_app, app_length. cbn [finished length].
      match goal with |- context [loop i ?x] => pose proof (loop_cnt i x) as W end.
      destruct (negb rv && negb na); unfold weigh in *; cbn [finish_task slots queue cnt] in *; specialize (W L ltac:(lia)); lia.
    + apply Nat.eqb_neq in La. rewrite send_cnt; lia.
  - cbn in WF. rewrite send_cnt; lia.
Qed.

(** ** What a critical section of step [i] may do *)
Record effects (i : nat) (p : pipe) (o : out) : Prop := mkef {
  ef_len : length (slots (o_p o)) = length (slots p);
  ef_freed : freed (o_p o) = freed p;
  ef_stat : status (o_p o) = true -> status p = true;
  ef_down : status p = true -> status (o_p o) = false -> forall j, o_sig o j = true;
  ef_other : forall j, j <> i -> j <> S i -> slot (o_p o) j = slot p j;
  ef_mine : slot (o_p o) i = slot p i \/ slot (o_p o) i = None /\ (status (o_p o) = true -> forall j, S j = i -> o_sig o j = true);
  ef_next : slot (o_p o) (S i) = slot p (S i) \/ status p = true /\ slot p (S i) = None /\ o_sig o (S i) = true;
  ef_queue : queue (o_p o) = queue p \/ i = 0%nat;
  ef_bc : o_bc o = false -> cnt (o_p o) = cnt p;
  ef_pc : match o_pc o with
          | SBlocked => status (o_p o) = true /\ slot (o_p o) i = None /\ (i = 0%nat -> queue (o_p o) = [])
          | SFullB _ => slot (o_p o) (S i) <> None /\ (S i < length (slots p))%nat
          | SDead => status (o_p o) = false /\ slot (o_p o) i = None /\ (i = 0%nat -> queue (o_p o) = [])
          | SRun _ | SDone _ _ => True | SIdle | SFullW _ => False end }.

Lemma slot_upd p i j o : (i < length (slots p))%nat -> slot (set_slot p i o) j = if (j =? i)%nat then o else slot p j.
Proof.
  unfold slot. cbn [set_slot slots]. generalize (slots p). intros l. clear p. revert i j. induction l as [|x l IH]; intros [|i] [|j] L; cbn in *; try lia; try reflexivity.
  apply IH. lia.
Qed.

Lemma loop_effects i p : (i < length (slots p))%nat -> effects i p (loop i p) /\ status (o_p (loop i p)) = status p /\ slot (o_p (loop i p)) (S i) = slot p (S i).
Proof.
  intros L. unfold loop. destruct (status p) eqn:St; cbn [negb].
  - destruct (slot p i) as [t|] eqn:E.
    + split; [constructor; cbn [o_p o_pc o_sig o_bc o_ev set_slot slots queue cnt status freed]; auto; try congruence|].
      * apply length_upd.
      * intros j N1 N2. fold (set_slot p i None). rewrite slot_upd by exact L. destruct (Nat.eqb_spec j i); congruence.
      * right. fold (set_slot p i None). rewrite slot_upd, Nat.eqb_refl by exact L. split; [reflexivity|]. intros _ j ->. apply Nat.eqb_refl.
      * left. fold (set_slot p i None). rewrite slot_upd by exact L. destruct (Nat.eqb_spec (S i) i); [lia|reflexivity].
      * split; [exact St|]. cbn [o_p]. rewrite slot_upd by exact L. destruct (Nat.eqb_spec (S i) i); [lia|reflexivity].
    + destruct (Nat.eqb_spec i 0) as [->|N].
      * destruct (queue p) as [|t q] eqn:Q; (split; [constructor; cbn [o_p o_pc o_sig o_bc o_ev slots queue cnt status freed]; auto; try congruence|auto]).
      * split; [constructor; cbn [o_p o_pc o_sig o_bc o_ev]; auto; try congruence|auto]. split; [auto|]. split; [auto|]. congruence.
  - destruct (slot p i) as [t|] eqn:E.
    + assert (SL : forall j, slot (mkpipe false (upd (slots p) i None) (if (i =? 0)%nat then [] else queue p)
                                   (cnt p - length ([t] ++ (if (i =? 0)%nat then queue p else []))) (freed p)) j = if (j =? i)%nat then None else slot p j).
      { intros j. rewrite <- (slot_upd p i j None L). reflexivity. }
      split; [constructor; cbn [o_p o_pc o_sig o_bc o_ev length status freed]; auto; try congruence|].
      * apply length_upd.
      * intros j N1 N2. rewrite SL. destruct (Nat.eqb_spec j i); congruence.
      * right. rewrite SL, Nat.eqb_refl. split; [reflexivity|discriminate].
      * left. rewrite SL. destruct (Nat.eqb_spec (S i) i); [lia|reflexivity].
      * cbn [queue]. destruct (Nat.eqb_spec i 0); auto.
      * cbn. discriminate.
      * split; [reflexivity|]. rewrite SL, Nat.eqb_refl. split; [reflexivity|]. cbn [queue]. intros ->. reflexivity.
      * cbn [o_p]. split; [reflexivity|]. rewrite SL. destruct (Nat.eqb_spec (S i) i); [lia|reflexivity].
    + split; [constructor; cbn [o_p o_pc o_sig o_bc o_ev length status freed app slots queue cnt]; auto; try congruence|auto].
      * destruct (Nat.eqb_spec i 0); auto.
      * destruct (if i =? 0 then queue p else []); [cbn; lia|discriminate].
      * split; [reflexivity|]. split; [exact E|]. intros ->. reflexivity.
Qed.

(** Something done before the head of the loop. *)
Lemma after_effects i p p1 sig bc ev : (i < length (slots p))%nat -> length (slots p1) = length (slots p) -> freed p1 = freed p -> queue p1 = queue p ->
  (status p1 = true -> status p = true) -> (status p = true -> status p1 = false -> forall j, sig j = true) ->
  (forall j, j <> S i -> slot p1 j = slot p j) -> (slot p1 (S i) = slot p (S i) \/ status p = true /\ slot p (S i) = None /\ sig (S i) = true) ->
  (bc = false -> cnt p1 = cnt p) -> effects i p (and_loop i p1 sig bc ev).
Proof.
  intros L Ln Fr Qu S1 S2 Sl Sn Bc. destruct (loop_effects i p1) as ([E1 E2 E3 E4 E5 E6 E7 E8 E9 E10] & S3 & S4); [lia|].
  unfold and_loop. constructor; cbn [o_p o_pc o_sig o_bc o_ev]; try congruence.
  - intros H. apply S1. congruence.
  - intros H H2 j. rewrite S3 in H2. now rewrite S2.
  - intros j N1 N2. rewrite E5 by assumption. now apply Sl.
  - rewrite <- (Sl i) by lia. destruct E6 as [E6|[E6 E6']]; [left; exact E6|right]. split; [exact E6|]. intros H j Hj. rewrite (E6' H j Hj). apply orb_true_r.
  - rewrite S4. destruct Sn as [Sn|(A & B & C)]; [left; exact Sn|right]. rewrite C. auto.
  - intros H. apply orb_false_iff in H as [H1 H2]. rewrite E9 by exact H2. auto.
  - destruct (o_pc (loop i p1)); auto. rewrite <- Ln. exact E10.
Qed.

Lemma send_effects i t p : (S i < length (slots p))%nat -> effects i p (send i t p nobody false).
Proof.
  intros L. unfold send. destruct (slot p (S i)) as [u|] eqn:E.
  - constructor; cbn [o_p o_pc o_sig o_bc]; auto; try congruence. split; [congruence|exact L].
  - destruct (status p) eqn:St; cbn [negb].
    + apply after_effects; cbn [set_slot slots queue cnt status freed]; auto; try lia; try congruence.
      * apply length_upd.
      * intros j N. fold (set_slot p (S i) (Some t)). rewrite slot_upd by exact L. destruct (Nat.eqb_spec j (S i)); congruence.
      * right. cbn. now rewrite Nat.eqb_refl.
    + apply after_effects; cbn [finish_task slots queue cnt status freed]; auto; try lia; congruence.
Qed.

Lemma run_effects na i pc p c o : (i < length (slots p))%nat -> wellformed (length (slots p)) i pc -> run na i pc p c = Some o -> effects i p o.
Proof.
  intros L WF H. destruct pc; cbn [run] in H; try discriminate H; injection H as <-.
  - now apply loop_effects.
  - constructor; cbn [o_p o_pc o_sig o_bc]; auto; congruence.
  - destruct (finish_cases na i t rv p) as [(r & -> & _)|(-> & _ & La & _)].
    + destruct (negb rv && negb na); apply after_effects; cbn [finish_task slots queue cnt status freed]; auto; try discriminate; congruence.
    + apply Nat.eqb_neq in La. apply send_effects. lia.
  - cbn in WF. now apply send_effects.
Qed.

(** ** The invariant *)
Definition sok (p : pipe) (i : nat) (pc : spc) : Prop := match pc with
  | SBlocked => status p = true /\ slot p i = None /\ (i = 0%nat -> queue p = [])
  | SFullB _ => (S i < length (slots p))%nat /\ (status p = true -> slot p (S i) <> None)
  | SFullW _ => (S i < length (slots p))%nat
  | SDead => status p = false /\ slot p i = None /\ (i = 0%nat -> queue p = [])
  | _ => True end.

Definition cok (s : state) (q : cpc) : Prop := match q with
  | CWaitB lim => (lim < cnt (pp s))%nat
  | CD2 => status (pp s) = false
  | CD2B => status (pp s) = false /\ (0 < cnt (pp s))%nat
  | CD3 => status (pp s) = false /\ cnt (pp s) = 0%nat
  | CJoin j => status (pp s) = false /\ cnt (pp s) = 0%nat /\ (j < length (steps s))%nat /\ forall i, (i < j)%nat -> nth_error (steps s) i = Some SDead
  | _ => True end.

Record inv (n : nat) (s : state) (tr : list event) : Prop := mkinv {
  v_pos : (0 < n)%nat;
  v_slots : length (slots (pp s)) = n;
  v_steps : length (steps s) = n;
  v_slot0 : slot (pp s) 0 = None;
  v_sok : forall i pc, nth_error (steps s) i = Some pc -> sok (pp s) i pc;
  v_cok : forall k q, nth_error (clients s) k = Some q -> cok s q;
  v_cnt : cnt (pp s) = weigh one (pp s) + sumf (hw one) (steps s);
  v_task : forall w, tot w (inserted tr) = tot w (finished tr) + weigh w (pp s) + sumf (hw w) (steps s);
  v_excl : forall k q, nth_error (clients s) k = Some q -> destroying q = true ->
           freed (pp s) = false /\ forall k' q', k' <> k -> nth_error (clients s) k' = Some q' -> q' = CIdle;
  v_freed : freed (pp s) = true -> status (pp s) = false /\ (forall i pc, nth_error (steps s) i = Some pc -> pc = SDead) /\
            (forall k q, nth_error (clients s) k = Some q -> q = CIdle) }.

Lemma nth_error_upd_same {A} (l : list A) i x y : nth_error l i = Some x -> nth_error (upd l i y) i = Some y.
Proof. intros H. apply nth_error_upd_eq. apply nth_error_Some. congruence. Qed.
Lemma nth_lt {A} (l : list A) i x : nth_error l i = Some x -> (i < length l)%nat.
Proof. intros H. apply nth_error_Some. congruence. Qed.
Lemma inserted_app a b : inserted (a ++ b) = inserted a ++ inserted b.
Proof.
  induction a as [|e a IH]; [reflexivity|]. cbn [app inserted]. rewrite IH.
  destruct e as [|k [] [|[]]| | |]; reflexivity.
Qed.
Lemma swake_hw w p : hw w (swake p) = hw w p. Proof. destruct p; reflexivity. Qed.

(** After some steps have been woken. *)
Lemma woken_nth f l j q : nth_error (wakes f 0 l) j = Some q -> exists r, nth_error l j = Some r /\ q = if f j then swake r else r.
Proof. rewrite wakes_nth. cbn [Nat.add]. destruct (nth_error l j) as [r|]; [|discriminate]. cbn. intros H. injection H as <-. eauto. Qed.

Lemma sok_wake p i pc : sok p i pc -> sok p i (swake pc).
Proof. destruct pc; cbn; tauto. Qed.

Lemma run_noins na i pc p c o : run na i pc p c = Some o -> inserted (o_ev o) = [].
Proof.
  assert (A : forall l, inserted (map (fun t => EFin t Abort) l) = []) by (induction l; auto).
  assert (Lp : forall i p, inserted (o_ev (loop i p)) = []).
  { intros j x. unfold loop. destruct (negb (status x)); [apply A|]. destruct (slot x j); [reflexivity|]. destruct (j =? 0); [|reflexivity]. destruct (queue x); reflexivity. }
  assert (AL : forall i p s b ev, inserted ev = [] -> inserted (o_ev (and_loop i p s b ev)) = []).
  { intros. unfold and_loop. cbn [o_ev]. rewrite inserted_app, Lp, H. reflexivity. }
  assert (Sn : forall i t p s b, inserted (o_ev (send i t p s b)) = []).
  { intros. unfold send. destruct (slot p0 (S i0)); [reflexivity|]. destruct (negb (status p0)); apply AL; reflexivity. }
  intros H. destruct pc; cbn [run] in H; try discriminate H; injection H as <-; auto.
  destruct (finish_cases na i t rv p) as [(r & -> & _)|(-> & _)]; auto.
Qed.

Lemma step_thread na n s tr i c pc o : inv n s tr -> nth_error (steps s) i = Some pc -> run na i pc (pp s) c = Some o ->
  inv n (mkst (o_p o) (upd (wakes (o_sig o) 0 (steps s)) i (o_pc o)) (if o_bc o then map cwake (clients s) else clients s)) (tr ++ o_ev o).
Proof.
  intros [V0 V1 V2 V3 V4 V5 V6 V7 V8 V9] Hi Hr. pose proof (nth_lt _ _ _ Hi) as L. assert (L2 : (i < length (slots (pp s)))%nat) by lia.
  assert (WF : wellformed (length (slots (pp s))) i pc) by (specialize (V4 i pc Hi); destruct pc; cbn in *; tauto).
  pose proof (run_effects _ _ _ _ _ _ L2 WF Hr) as [E1 E2 E3 E4 E5 E6 E7 E8 E9 E10].
  pose proof (fun w => run_w na w i pc (pp s) c o L2 WF Hr) as RW.
  pose proof (sumf_ge (hw one) _ _ _ Hi) as GE. pose proof (run_cnt na i pc (pp s) c o L2 WF Hr ltac:(lia)) as RC.
  assert (Hi' : nth_error (wakes (o_sig o) 0 (steps s)) i = Some (if o_sig o i then swake pc else pc)) by (rewrite wakes_nth, Hi; reflexivity).
  assert (SU : forall w, sumf (hw w) (upd (wakes (o_sig o) 0 (steps s)) i (o_pc o)) + hw w pc = sumf (hw w) (steps s) + hw w (o_pc o)).
  { intros w. pose proof (sumf_upd (hw w) _ _ _ (o_pc o) Hi') as U. rewrite wakes_sum in U by apply swake_hw. destruct (o_sig o i); rewrite ?swake_hw in U; lia. }
  assert (Nd : pc <> SDead) by (intros ->; discriminate Hr).
  assert (CK : forall k q, nth_error (if o_bc o then map cwake (clients s) else clients s) k = Some q ->
           exists r, nth_error (clients s) k = Some r /\ (q = r /\ cnt (o_p o) = cnt (pp s) \/ q = cwake r)).
  { intros k q Hk. destruct (o_bc o); [|exists q; split; [exact Hk|left; split; [reflexivity|now apply E9]]].
    rewrite nth_error_map in Hk. destruct (nth_error (clients s) k) as [r|]; [|discriminate Hk]. injection Hk as <-. eauto. }
  assert (Fr : freed (pp s) = false).
  { destruct (freed (pp s)) eqn:F; [|reflexivity]. destruct (V9 eq_refl) as (_ & A & _). exfalso. exact (Nd (A i pc Hi)). }
  constructor; cbn [pp steps clients]; auto.
  - congruence.
  - now rewrite length_upd, wakes_length.
  - destruct (Nat.eq_dec i 0) as [->|N]; [destruct E6 as [->|[-> _]]; auto|]. rewrite E5; auto.
  - intros j q Hj. destruct (Nat.eq_dec j i) as [->|N].
    + rewrite (nth_error_upd_same _ _ _ _ Hi') in Hj. injection Hj as <-. destruct (o_pc o); cbn [sok]; try tauto. rewrite E1. tauto.
    + rewrite nth_error_upd_ne in Hj by congruence. apply woken_nth in Hj as (r & Hj & ->). specialize (V4 j r Hj).
      assert (Q : j = 0%nat -> queue (o_p o) = queue (pp s)) by (intros ->; destruct E8; congruence).
      destruct r; cbn [sok] in V4; try (destruct (o_sig o j); exact I).
      * destruct (o_sig o j) eqn:Sj; [exact I|]. destruct V4 as (A & B & C). cbn [sok].
        assert (St : status (o_p o) = true). { destruct (status (o_p o)) eqn:X; [reflexivity|]. rewrite (E4 A eq_refl j) in Sj. discriminate Sj. }
        split; [exact St|]. split; [|intros Z; rewrite Q by exact Z; auto].
        destruct (Nat.eq_dec j (S i)) as [->|N2]; [destruct E7 as [->|(_ & _ & X)]; [exact B|congruence]|now rewrite E5].
      * destruct V4 as [A B]. destruct (o_sig o j) eqn:Sj; cbn [swake sok]; [lia|]. split; [lia|]. intros St.
        assert (Neq : slot (pp s) (S j) <> None) by (apply B, E3, St).
        destruct (Nat.eq_dec (S j) i) as [Z|N2]; [subst i; destruct E6 as [->|[_ X]]; [exact Neq|rewrite (X St j eq_refl) in Sj; discriminate Sj]|].
        rewrite E5; auto.
      * destruct (o_sig o j); cbn [swake sok]; lia.
      * destruct V4 as (A & B & C). assert (sok (o_p o) j SDead); [|destruct (o_sig o j); assumption]. cbn [sok].
        split; [destruct (status (o_p o)) eqn:X; [rewrite (E3 eq_refl) in A; discriminate A|reflexivity]|].
        split; [|intros Z; rewrite Q by exact Z; auto].
        destruct (Nat.eq_dec j (S i)) as [->|N2]; [destruct E7 as [->|(X & _ & _)]; [exact B|congruence]|now rewrite E5].
  - intros k q Hk. destruct (CK k q Hk) as (r & Hr2 & D). specialize (V5 k r Hr2).
    assert (St : status (pp s) = false -> status (o_p o) = false) by (intros X; destruct (status (o_p o)); auto; rewrite (E3 eq_refl) in X; discriminate X).
    assert (DE : forall j, (forall i0, (i0 < j)%nat -> nth_error (steps s) i0 = Some SDead) ->
                 forall i0, (i0 < j)%nat -> nth_error (upd (wakes (o_sig o) 0 (steps s)) i (o_pc o)) i0 = Some SDead).
    { intros j A i0 B. specialize (A i0 B). rewrite nth_error_upd_ne by congruence. rewrite wakes_nth, A. cbn. destruct (o_sig o i0); reflexivity. }
    destruct D as [[-> Ec]| ->].
    + unfold cok in *. cbn [pp steps]. rewrite length_upd, wakes_length, Ec.
      destruct r; try exact I; try tauto. destruct V5 as (A & B & C & D). repeat split; auto. exact (DE _ D).
    + unfold cok in *. cbn [pp steps]. rewrite length_upd, wakes_length. destruct r; cbn [cwake]; try exact I; try tauto.
      * destruct V5 as (A & B). split; [auto|lia].
      * destruct V5 as (A & B & C & D). repeat split; auto; [lia|]. exact (DE _ D).
  - specialize (RW one). rewrite tot_one in RW. specialize (SU one). lia.
  - intros w. rewrite inserted_app, (run_noins _ _ _ _ _ _ Hr), app_nil_r, finished_app, tot_app. specialize (V7 w). specialize (RW w). specialize (SU w). lia.
  - intros k q Hk Dq. destruct (CK k q Hk) as (r & Hr2 & D). rewrite E2. split; [exact Fr|].
    assert (Dr : destroying r = true) by (destruct D as [[<- _]| ->]; [exact Dq|destruct r; auto; discriminate Dq]).
    intros k' q' N Hk'. destruct (CK k' q' Hk') as (r' & Hr' & D'). pose proof (proj2 (V8 k r Hr2 Dr) k' r' N Hr') as ->.
    destruct D' as [[-> _]| ->]; reflexivity.
  - rewrite E2. congruence.
Qed.

Lemma idle_freed n s tr k q : inv n s tr -> nth_error (clients s) k = Some q -> q <> CIdle -> freed (pp s) = false.
Proof. intros V Hk N. destruct (freed (pp s)) eqn:F; [|reflexivity]. exfalso. apply N. destruct (v_freed _ _ _ V F) as (_ & _ & A). exact (A k q Hk). Qed.

(** A client moves on, some steps are woken, the data of the pipeline stays. *)
Lemma step_client n s tr f k q x ev : inv n s tr -> nth_error (clients s) k = Some q -> q <> CIdle ->
  (destroying x = true -> destroying q = true) -> cok s x -> inserted ev = [] -> finished ev = [] ->
  inv n (mkst (pp s) (wakes f 0 (steps s)) (upd (clients s) k x)) (tr ++ ev).
Proof.
  intros V Hk Nq Dx Cx I0 F0. pose proof (idle_freed _ _ _ _ _ V Hk Nq) as Fr. destruct V as [V0 V1 V2 V3 V4 V5 V6 V7 V8 V9].
  assert (CK : forall y, cok s y -> cok (mkst (pp s) (wakes f 0 (steps s)) (upd (clients s) k x)) y).
  { intros y. unfold cok. cbn [pp steps]. rewrite wakes_length. destruct y; auto. intros (A & B & C & D). repeat split; auto.
    intros i0 L. rewrite wakes_nth, (D i0 L). cbn. destruct (f i0); reflexivity. }
  constructor; cbn [pp steps clients]; auto.
  - now rewrite wakes_length.
  - intros i pc Hi. apply woken_nth in Hi as (r & Hi & ->). destruct (f i); [apply sok_wake|]; exact (V4 i r Hi).
  - intros k' y Hy. apply CK. destruct (Nat.eq_dec k' k) as [->|N]; [rewrite (nth_error_upd_same _ _ _ _ Hk) in Hy; injection Hy as <-; exact Cx|].
    rewrite nth_error_upd_ne in Hy by congruence. exact (V5 k' y Hy).
  - rewrite wakes_sum by apply swake_hw. exact V6.
  - intros w. rewrite inserted_app, finished_app, I0, F0, !app_nil_r. rewrite wakes_sum by apply swake_hw. apply V7.
  - intros k1 y Hy Dy. split; [exact Fr|]. intros k2 z N Hz. destruct (Nat.eq_dec k1 k) as [->|N1].
    + rewrite (nth_error_upd_same _ _ _ _ Hk) in Hy. injection Hy as <-. rewrite nth_error_upd_ne in Hz by congruence.
      exact (proj2 (V8 k q Hk (Dx Dy)) k2 z N Hz).
    + rewrite nth_error_upd_ne in Hy by congruence. pose proof (proj2 (V8 k1 y Hy Dy)) as A. destruct (Nat.eq_dec k2 k) as [->|N2].
      * rewrite (nth_error_upd_same _ _ _ _ Hk) in Hz. injection Hz as <-. specialize (A k q N Hk) as ->.
        congruence.
      * rewrite nth_error_upd_ne in Hz by congruence. exact (A k2 z N Hz).
  - congruence.
Qed.

Lemma wakes_none l : forall k, wakes nobody k l = l.
Proof. induction l as [|p l IH]; intros k; cbn; [reflexivity|]. now rewrite IH. Qed.

Lemma inv_step na n s a s' e tr : inv n s tr -> step na s a = Some (s', e) -> inv n s' (tr ++ e).
Proof.
  intros V H. destruct a as [i c|k|k o|i|k]; cbn [step] in H.
  - destruct (nth_error (steps s) i) as [pc|] eqn:Hi; [|discriminate H]. destruct (run na i pc (pp s) c) as [o|] eqn:Hr; [|discriminate H].
    injection H as <- <-. eapply step_thread; eauto.
  - destruct (nth_error (clients s) k) as [q|] eqn:Hk; [|discriminate H]. pose proof (v_cok _ _ _ V k q Hk) as Ck.
    destruct q as [|o|lim| | | |j]; cbn [client] in H; try discriminate H.
    + assert (Fr : freed (pp s) = false) by (eapply idle_freed; eauto; discriminate).
      destruct o as [t|lim| | |].
      * destruct (status (pp s)) eqn:St; cbn [negb] in H; injection H as <- <-.
        -- destruct V as [V0 V1 V2 V3 V4 V5 V6 V7 V8 V9]. constructor; cbn [pp steps clients slots status freed]; auto.
           ++ now rewrite wakes_length.
           ++ intros i pc Hi. apply woken_nth in Hi as (r & Hi & ->). specialize (V4 i r Hi).
              destruct (Nat.eqb_spec i 0) as [->|N]; destruct r; cbn [swake sok status slots queue] in *; try tauto; intuition congruence.
           ++ intros k' y Hy. unfold cok in *. cbn [pp steps cnt status]. rewrite wakes_length. destruct (Nat.eq_dec k' k) as [->|N].
              ** rewrite (nth_error_upd_same _ _ _ _ Hk) in Hy. injection Hy as <-. exact I.
              ** rewrite nth_error_upd_ne in Hy by congruence. specialize (V5 k' y Hy). destruct y; auto; exfalso; intuition congruence.
           ++ rewrite wakes_sum by apply swake_hw. unfold weigh in *. cbn [slots queue cnt]. rewrite tot_app, tot_cons, tot_nil. unfold one at 3. lia.
           ++ intros w. rewrite inserted_app, finished_app, !tot_app. cbn [inserted finished]. rewrite wakes_sum by apply swake_hw.
              unfold weigh in *. cbn [slots queue]. rewrite tot_app, !tot_cons, !tot_nil. specialize (V7 w). lia.
           ++ intros k1 y Hy Dy. split; [exact Fr|]. intros k2 z N Hz. destruct (Nat.eq_dec k1 k) as [->|N1].
              { rewrite (nth_error_upd_same _ _ _ _ Hk) in Hy. injection Hy as <-. discriminate Dy. }
              rewrite nth_error_upd_ne in Hy by congruence. pose proof (proj2 (V8 k1 y Hy Dy) k _ ltac:(congruence) Hk). discriminate.
           ++ congruence.
        -- rewrite <- (wakes_none (steps s) 0). eapply step_client; eauto; try discriminate; try exact I.
      * destruct (Nat.leb_spec (cnt (pp s)) lim) as [Le|Lt]; injection H as <- <-; rewrite <- (wakes_none (steps s) 0);
          (eapply step_client; eauto; try discriminate; cbn; auto; lia).
      * injection H as <- <-. rewrite <- (wakes_none (steps s) 0). eapply step_client; eauto; try discriminate; exact I.
      * injection H as <- <-. rewrite <- (wakes_none (steps s) 0). eapply step_client; eauto; try discriminate; exact I.
      * injection H as <- <-. rewrite app_nil_r. destruct V as [V0 V1 V2 V3 V4 V5 V6 V7 V8 V9]. destruct (V8 k _ Hk eq_refl) as [_ Ot].
        assert (CI : forall k' y, nth_error (map cwake (upd (clients s) k CD2)) k' = Some y -> k' = k /\ y = CD2 \/ k' <> k /\ y = CIdle).
        { intros k' y Hy. rewrite nth_error_map in Hy. destruct (Nat.eq_dec k' k) as [->|N].
          - rewrite (nth_error_upd_same _ _ _ _ Hk) in Hy. injection Hy as <-. auto.
          - rewrite nth_error_upd_ne in Hy by congruence. destruct (nth_error (clients s) k') as [z|] eqn:Z; [|discriminate Hy].
            injection Hy as <-. rewrite (Ot k' z N Z). auto. }
        constructor; cbn [pp steps clients slots status freed]; auto.
        -- now rewrite wakes_length.
        -- intros i pc Hi. apply woken_nth in Hi as (r & Hi & ->). specialize (V4 i r Hi). destruct r; cbn [swake sok status slots queue] in *; tauto.
        -- intros k' y Hy. destruct (CI k' y Hy) as [[-> ->]|[_ ->]]; cbn; auto.
        -- rewrite wakes_sum by apply swake_hw. exact V6.
        -- intros w. rewrite wakes_sum by apply swake_hw. apply V7.
        -- intros k1 y Hy Dy. split; [exact Fr|]. intros k2 z N Hz. destruct (CI k1 y Hy) as [[-> ->]|[_ ->]]; [|discriminate Dy].
           destruct (CI k2 z Hz) as [[-> ->]|[_ ->]]; congruence.
        -- congruence.
    + destruct (Nat.leb_spec (cnt (pp s)) 0) as [Le|Lt]; injection H as <- <-; rewrite <- (wakes_none (steps s) 0);
        (eapply step_client; eauto; try discriminate; cbn in *; repeat split; auto; lia).
    + injection H as <- <-. eapply step_client; eauto; [discriminate|]. cbn in *. destruct Ck as [A B]. repeat split; auto; [|intros; lia].
      rewrite (v_steps _ _ _ V). exact (v_pos _ _ _ V).
    + destruct (nth_error (steps s) j) as [[]|] eqn:Hj; try discriminate H. cbn in Ck. destruct Ck as (A & B & C & D).
      assert (D' : forall i, (i < S j)%nat -> nth_error (steps s) i = Some SDead).
      { intros i L. destruct (Nat.eq_dec i j) as [->|N]; [exact Hj|apply D; lia]. }
      destruct (Nat.eqb_spec (S j) (length (steps s))) as [Le|Ne]; injection H as <- <-.
      * destruct V as [V0 V1 V2 V3 V4 V5 V6 V7 V8 V9]. destruct (V8 k _ Hk eq_refl) as [_ Ot].
        assert (CI : forall k' y, nth_error (upd (clients s) k CIdle) k' = Some y -> y = CIdle).
        { intros k' y Hy. destruct (Nat.eq_dec k' k) as [->|N]; [rewrite (nth_error_upd_same _ _ _ _ Hk) in Hy; now injection Hy as <-|].
          rewrite nth_error_upd_ne in Hy by congruence. exact (Ot k' y N Hy). }
        constructor; cbn [pp steps clients slots status freed]; auto.
        -- intros k' y Hy. rewrite (CI k' y Hy). exact I.
        -- intros w. rewrite inserted_app, finished_app, !app_nil_r. apply V7.
        -- intros k1 y Hy Dy. rewrite (CI k1 y Hy) in Dy. discriminate Dy.
        -- intros _. split; [exact A|]. split; [|exact CI]. intros i pc Hi. rewrite D' in Hi by (pose proof (nth_lt _ _ _ Hi); lia). now injection Hi as <-.
      * eapply step_client; eauto; [discriminate|]. cbn. repeat split; auto. lia.
  - destruct (nth_error (clients s) k) as [[]|] eqn:Hk; try discriminate H. destruct (allowed s o) eqn:Al; [|discriminate H]. injection H as <- <-.
    unfold allowed in Al. apply andb_true_iff in Al as [Fr Al]. apply negb_true_iff in Fr. destruct V as [V0 V1 V2 V3 V4 V5 V6 V7 V8 V9].
    constructor; cbn [pp steps clients]; auto.
    + intros k' y Hy. destruct (Nat.eq_dec k' k) as [->|N]; [rewrite (nth_error_upd_same _ _ _ _ Hk) in Hy; now injection Hy as <-|].
      rewrite nth_error_upd_ne in Hy by congruence. exact (V5 k' y Hy).
    + intros w. rewrite inserted_app, finished_app, !app_nil_r. apply V7.
    + intros k1 y Hy Dy. split; [exact Fr|]. intros k2 z N Hz. destruct (Nat.eq_dec k1 k) as [->|N1].
      * rewrite (nth_error_upd_same _ _ _ _ Hk) in Hy. injection Hy as <-. rewrite nth_error_upd_ne in Hz by congruence.
        destruct o; try discriminate Dy. rewrite forallb_forall in Al. apply nth_error_In in Hz. specialize (Al z Hz). destruct z; (reflexivity || discriminate Al).
      * rewrite nth_error_upd_ne in Hy by congruence.
        assert (destroying y = false); [|congruence]. apply nth_error_In in Hy. destruct o.
        1-4: apply negb_true_iff in Al; destruct (destroying y) eqn:X; [|reflexivity]; rewrite <- Al; symmetry; apply existsb_exists; eauto.
        rewrite forallb_forall in Al. specialize (Al y Hy). destruct y; try discriminate Al; reflexivity.
    + congruence.
  - destruct (nth_error (steps s) i) as [pc|] eqn:Hi; [|discriminate H]. injection H as <- <-. rewrite app_nil_r.
    assert (E : upd (steps s) i (swake pc) = wakes (fun j => (j =? i)%nat) 0 (steps s)).
    { apply nth_error_ext. intros j. rewrite wakes_nth. cbn [Nat.add]. destruct (Nat.eqb_spec j i) as [->|N].
      - rewrite (nth_error_upd_same _ _ _ _ Hi), Hi. reflexivity.
      - rewrite nth_error_upd_ne by congruence. destruct (nth_error (steps s) j); reflexivity. }
    rewrite E. clear E Hi. destruct V as [V0 V1 V2 V3 V4 V5 V6 V7 V8 V9]. constructor; cbn [pp steps clients]; auto.
    + now rewrite wakes_length.
    + intros j q Hj. apply woken_nth in Hj as (r & Hj & ->). destruct (j =? i)%nat; [apply sok_wake|]; exact (V4 j r Hj).
    + intros k q Hk. specialize (V5 k q Hk). unfold cok in *. cbn [pp steps]. rewrite wakes_length. destruct q; auto.
      destruct V5 as (A & B & C & D). repeat split; auto. intros j0 L. rewrite wakes_nth, (D j0 L). cbn. destruct (j0 =? i)%nat; reflexivity.
    + rewrite wakes_sum by apply swake_hw. exact V6.
    + intros w. rewrite wakes_sum by apply swake_hw. apply V7.
    + intros F. destruct (V9 F) as (A & B & C). split; [exact A|]. split; [|exact C]. intros j q Hj. apply woken_nth in Hj as (r & Hj & ->).
      rewrite (B j r Hj). destruct (j =? i)%nat; reflexivity.
  - destruct (nth_error (clients s) k) as [q|] eqn:Hk; [|discriminate H]. injection H as <- <-. rewrite app_nil_r.
    destruct V as [V0 V1 V2 V3 V4 V5 V6 V7 V8 V9].
    assert (CK : forall k' y, nth_error (upd (clients s) k (cwake q)) k' = Some y -> exists z, nth_error (clients s) k' = Some z /\ (y = z \/ y = cwake z)).
    { intros k' y Hy. destruct (Nat.eq_dec k' k) as [->|N]; [rewrite (nth_error_upd_same _ _ _ _ Hk) in Hy; injection Hy as <-; eauto|].
      rewrite nth_error_upd_ne in Hy by congruence. eauto. }
    constructor; cbn [pp steps clients]; auto.
    + intros k' y Hy. destruct (CK k' y Hy) as (z & Hz & D). specialize (V5 k' z Hz). unfold cok in *. cbn [pp steps].
      destruct D as [->| ->]; destruct z; cbn [cwake]; auto; tauto.
    + intros k1 y Hy Dy. destruct (CK k1 y Hy) as (z & Hz & D). assert (Dz : destroying z = true) by (destruct D as [->| ->]; destruct z; auto; discriminate Dy).
      destruct (V8 k1 z Hz Dz) as [A B]. split; [exact A|]. intros k2 y2 N Hy2. destruct (CK k2 y2 Hy2) as (z2 & Hz2 & D2).
      rewrite (B k2 z2 N Hz2) in D2. destruct D2 as [->| ->]; reflexivity.
    + intros F. destruct (V9 F) as (A & B & C). split; [exact A|]. split; [exact B|]. intros k' y Hy. destruct (CK k' y Hy) as (z & Hz & D).
      rewrite (C k' z Hz) in D. destruct D as [->| ->]; reflexivity.
Qed.

Lemma inv_exec na n l : forall s tr s' e, inv n s tr -> exec na s l = Some (s', e) -> inv n s' (tr ++ e).
Proof.
  induction l as [|a l IH]; intros s tr s' e V H; cbn [exec] in H; [injection H as <- <-; now rewrite app_nil_r|].
  destruct (step na s a) as [[s1 e1]|] eqn:E1; [|discriminate H]. destruct (exec na s1 l) as [[s2 e2]|] eqn:E2; [|discriminate H].
  injection H as <- <-. rewrite app_assoc. eapply IH; [eapply inv_step; eauto|exact E2].
Qed.

Lemma nth_repeat_some {A} (x : A) n i y : nth_error (repeat x n) i = Some y -> y = x.
Proof. intros H. apply nth_error_In in H. now apply repeat_spec in H. Qed.

Lemma inv_start n nc : (0 < n)%nat -> inv n (start n nc) [].
Proof.
  intros N. constructor; cbn [start pp steps clients slots status freed]; auto; try (now rewrite repeat_length).
  - unfold slot. cbn [slots]. destruct n; [lia|reflexivity].
  - intros i pc Hi. apply nth_repeat_some in Hi as ->. exact I.
  - intros k q Hk. apply nth_repeat_some in Hk as ->. exact I.
  - unfold weigh. cbn [slots queue cnt]. rewrite !sumf_repeat. cbn. rewrite tot_nil. lia.
  - intros w. unfold weigh. cbn [slots queue]. rewrite !sumf_repeat. cbn. rewrite !tot_nil. lia.
  - intros k q Hk Dq. apply nth_repeat_some in Hk as ->. discriminate Dq.
  - discriminate.
Qed.

Lemma inv_reach na n nc l s tr : (0 < n)%nat -> exec na (start n nc) l = Some (s, tr) -> inv n s tr.
Proof. intros N H. exact (inv_exec na n l _ [] _ _ (inv_start n nc N) H). Qed.

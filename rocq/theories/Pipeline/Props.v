(** Properties of the thread pipeline: C48, C49 and C59. *)
From Verif Require Import Base.Lib Base.Conc Pipeline.Model Pipeline.Spec Pipeline.Proofs Pipeline.Order.

Lemma tot_times t l : tot (fun u => if N.eq_dec u t then 1 else 0)%nat l = times t l.
Proof. unfold times. induction l as [|x l IH]; [reflexivity|]. rewrite tot_cons. cbn [count_occ]. destruct (N.eq_dec x t); lia. Qed.

Lemma has_step n s tr i : inv n s tr -> (i < n)%nat -> exists pc, nth_error (steps s) i = Some pc.
Proof. intros V L. destruct (nth_error (steps s) i) as [pc|] eqn:E; [eauto|]. apply nth_error_None in E. rewrite (v_steps _ _ _ V) in E. lia. Qed.

Lemma all_same n s tr : inv n s tr -> cnt (pp s) = 0%nat -> forall w, tot w (inserted tr) = tot w (finished tr).
Proof.
  intros V C w. pose proof (v_cnt _ _ _ V) as E. rewrite C in E. unfold weigh in E.
  assert (A : sumf (ow one) (slots (pp s)) = 0%nat) by lia. assert (B : tot one (queue (pp s)) = 0%nat) by lia. assert (D : sumf (hw one) (steps s) = 0%nat) by lia.
  rewrite (v_task _ _ _ V w). unfold weigh. rewrite tot_one in B. destruct (queue (pp s)); [|discriminate B]. rewrite tot_nil.
  assert (A2 : sumf (ow w) (slots (pp s)) = 0%nat). { apply sumf_zero. intros i [x|] H; [|reflexivity]. pose proof (proj1 (sumf_zero (ow one) (slots (pp s))) A i _ H) as Z. cbn in Z. discriminate Z. }
  assert (D2 : sumf (hw w) (steps s) = 0%nat). { apply sumf_zero. intros i x H. pose proof (proj1 (sumf_zero (hw one) (steps s)) D i _ H) as Z. destruct x; cbn in *; auto; discriminate Z. }
  lia.
Qed.

(** ** C48: every task is finished at most once, in order, and counted *)

(** For any number of steps and of clients and every schedule: the finish callback is
    not called more often for a task than the task was inserted. *)
Theorem pipeline_at_most_once : forall na n nc l s tr t, (0 < n)%nat -> exec na (start n nc) l = Some (s, tr) ->
  (times t (finished tr) <= times t (inserted tr))%nat.
Proof. intros * N E. pose proof (v_task _ _ _ (inv_reach _ _ _ _ _ _ N E) (fun u => if N.eq_dec u t then 1 else 0)%nat) as H. rewrite !tot_times in H. lia. Qed.
Print Assumptions pipeline_at_most_once.

(** M_thread_pipeline_queue_count returns the number of tasks inserted and not yet
    finished, at any time; M_thread_pipeline_wait returns only if there are no more
    than asked for. *)
Theorem pipeline_count : forall na n nc l s tr k s' v, (0 < n)%nat -> exec na (start n nc) l = Some (s, tr) -> step na s (Go k) = Some (s', [ERet k Count v]) ->
  (N.of_nat (length (finished tr)) + v = N.of_nat (length (inserted tr)))%N.
Proof.
  intros * N E H. pose proof (inv_reach _ _ _ _ _ _ N E) as V. pose proof (v_task _ _ _ V one) as W. rewrite !tot_one in W. pose proof (v_cnt _ _ _ V) as C.
  cbn [step] in H. destruct (nth_error (clients s) k) as [q|]; [|discriminate H].
  destruct q as [|o|lim| | | |j]; cbn [client] in H; try discriminate H;
    [destruct o as [t|lim| | |]; [destruct (negb (status (pp s)))|destruct (cnt (pp s) <=? lim)| | |]|destruct (cnt (pp s) <=? 0)|destruct (nth_error (steps s) j) as [[]|]; try discriminate H; destruct (S j =? length (steps s))];
    try discriminate H. injection H as _ <-. lia.
Qed.
Print Assumptions pipeline_count.

Theorem pipeline_wait : forall na n nc l s tr k s' lim, (0 < n)%nat -> exec na (start n nc) l = Some (s, tr) -> step na s (Go k) = Some (s', [ERet k (Wait lim) 0%N]) ->
  (length (inserted tr) <= length (finished tr) + lim)%nat.
Proof.
  intros * N E H. pose proof (inv_reach _ _ _ _ _ _ N E) as V. pose proof (v_task _ _ _ V one) as W. rewrite !tot_one in W. pose proof (v_cnt _ _ _ V) as C.
  cbn [step] in H. destruct (nth_error (clients s) k) as [q|]; [|discriminate H].
  destruct q as [|o|lim'| | | |j]; cbn [client] in H; try discriminate H;
    [destruct o as [t|lim'| | |]; [destruct (negb (status (pp s)))|destruct (Nat.leb_spec (cnt (pp s)) lim')| | |]|destruct (cnt (pp s) <=? 0)|destruct (nth_error (steps s) j) as [[]|]; try discriminate H; destruct (S j =? length (steps s))];
    try discriminate H. injection H as _ <-. lia.
Qed.
Print Assumptions pipeline_wait.

(** At every moment: the tasks the first step has begun are inserted tasks, in that
    order, a step begins only what the step before completed successfully, in that
    order, and so do the tasks reported successful. *)
Theorem pipeline_order : forall na n nc l s tr, (0 < n)%nat -> exec na (start n nc) l = Some (s, tr) ->
  sublist (begun 0 tr) (inserted tr) /\ (forall i, (S i < n)%nat -> sublist (begun (S i) tr) (passed i tr)) /\
  (forall i, (i < n)%nat -> sublist (passed i tr) (begun i tr)) /\ sublist (succeeded tr) (passed (n - 1) tr).
Proof.
  intros * N E. pose proof (inv_reach _ _ _ _ _ _ N E) as V. destruct (order_reach _ _ _ _ _ _ N E) as [K1 K2 K3 K4]. repeat split.
  - exact (sub_prefix _ _ _ K1).
  - intros i L. destruct (has_step _ _ _ i V ltac:(lia)) as [pc P]. exact (sub_prefix _ _ _ (K2 i pc ltac:(lia) P)).
  - intros i L. destruct (has_step _ _ _ i V L) as [pc P]. exact (sub_prefix _ _ _ (K3 i pc P)).
  - destruct (has_step _ _ _ (n - 1)%nat V ltac:(lia)) as [pc P]. exact (sub_prefix _ _ _ (K4 (n - 1)%nat pc ltac:(lia) P)).
Qed.
Print Assumptions pipeline_order.

(** A task reported successful has been completed by every step, and tasks are reported
    successful in the order they were inserted. *)
Theorem pipeline_success : forall na n nc l s tr, (0 < n)%nat -> exec na (start n nc) l = Some (s, tr) ->
  (forall i, (i < n)%nat -> sublist (succeeded tr) (passed i tr)) /\ sublist (succeeded tr) (inserted tr).
Proof.
  intros * N E. destruct (pipeline_order _ _ _ _ _ _ N E) as (A & B & C & D).
  assert (G : forall m i, (i + m = n - 1)%nat -> sublist (succeeded tr) (passed i tr)).
  { induction m as [|m IH]; intros i L; [replace i with (n - 1)%nat by lia; exact D|].
    eapply sub_trans; [apply (IH (S i)); lia|]. eapply sub_trans; [apply C; lia|]. apply B. lia. }
  split; [intros i L; apply (G (n - 1 - i)%nat); lia|]. eapply sub_trans; [apply (G (n - 1)%nat 0%nat); lia|]. eapply sub_trans; [apply C; exact N|exact A].
Qed.
Print Assumptions pipeline_success.

(** A step works on one task at a time. *)
Theorem pipeline_serial : forall na n nc l s tr i, (0 < n)%nat -> exec na (start n nc) l = Some (s, tr) -> (i < n)%nat ->
  begun i tr = ended i tr \/ exists t, begun i tr = ended i tr ++ [t].
Proof.
  intros * N E L. pose proof (inv_reach _ _ _ _ _ _ N E) as V. destruct (has_step _ _ _ i V L) as [pc P].
  rewrite (serial_reach _ _ _ _ _ _ E i pc P). destruct pc; cbn [runhold]; rewrite ?app_nil_r; eauto.
Qed.
Print Assumptions pipeline_serial.

(** A task that fails in a step which is not the last is reported as aborted, not as
    failed, and a task that succeeded in all it was given to may be reported as
    failed: the documented meanings of the results are not kept. *)
Theorem pipeline_result_refuted :
  (exists l s tr, exec false (start 2 1) l = Some (s, tr) /\ In (EDone 0 7%N false) tr /\ In (EFin 7%N Abort) tr /\ ~ In (EFin 7%N Fail) tr) /\
  (exists l s tr, exec false (start 2 1) l = Some (s, tr) /\ In (EFin 3%N Fail) tr /\ forall i, ~ In (EDone i 3%N false) tr).
Proof.
  split.
  - exists [Call 0 (Insert 7%N); Go 0; Run 0 true; Run 0 false; Run 0 true]. do 2 eexists. split; [vm_compute; reflexivity|].
    split; [cbn; auto 40|]. split; [cbn; auto 40|]. cbn. intuition discriminate.
  - exists [Call 0 (Insert 1%N); Go 0; Call 0 (Insert 2%N); Go 0; Call 0 (Insert 3%N); Go 0;
            Run 0 true; Run 0 true; Run 0 true; Run 1 true; Run 0 true; Run 0 true; Run 0 true; Run 0 true; Run 1 false; Run 1 true; Run 0 true].
    do 2 eexists. split; [vm_compute; reflexivity|]. split; [cbn; auto 40|]. intros i. cbn. intuition discriminate.
Qed.
Print Assumptions pipeline_result_refuted.

(** Ex: two tasks pass through three steps while a client waits. *)
Definition demo : list action :=
  [Call 0 (Insert 1%N); Go 0; Call 0 (Insert 2%N); Go 0; Run 0 true; Run 0 true; Run 0 true; Run 1 true; Run 1 true; Run 1 true; Run 0 true; Run 0 true;
   Run 2 true; Run 2 true; Run 1 true; Run 1 true; Run 1 true; Run 2 true; Run 2 true; Call 1 Count].
Example pipeline_demo : exists s, exec false (start 3 2) demo = Some s /\ inserted (snd s) = [1; 2]%N /\ succeeded (snd s) = [1%N] /\ begun 2 (snd s) = [1; 2]%N /\
  exists s', step false (fst s) (Go 1) = Some (s', [ERet 1 Count 1%N]).
Proof. eexists. split; [vm_compute; reflexivity|]. vm_compute. repeat split. eexists. reflexivity. Qed.
Example pipeline_demo_wait : exists s, exec false (start 3 2) (demo ++ [Go 1; Run 2 true; Call 1 (Wait 0)]) = Some s /\
  exists s', step false (fst s) (Go 1) = Some (s', [ERet 1 (Wait 0) 0%N]).
Proof. eexists. split; [vm_compute; reflexivity|]. vm_compute. eexists. reflexivity. Qed.

(** ** C59: a pipeline that is up does not deadlock *)

(** If nothing can move, nobody has destroyed the pipeline, and no step has failed (or
    M_THREAD_PIPELINE_FLAG_NOABORT is given), then all tasks have been finished and no
    client is inside a call. *)
Theorem pipeline_no_deadlock : forall na n nc l s tr, (0 < n)%nat -> exec na (start n nc) l = Some (s, tr) -> quiet na s ->
  (forall k, ~ In (ECall k Destroy) tr) -> (na = true \/ forall i t, ~ In (EDone i t false) tr) ->
  (forall t, times t (finished tr) = times t (inserted tr)) /\ (forall k q, nth_error (clients s) k = Some q -> q = CIdle).
Proof.
  intros * N E [Q1 Q2] Nd Nf. pose proof (inv_reach _ _ _ _ _ _ N E) as V. destruct (causes_reach _ _ _ _ _ _ N E) as [D _ _].
  assert (St : status (pp s) = true).
  { destruct (status (pp s)); [reflexivity|]. exfalso. destruct (D eq_refl) as [(k & A)|(A & i & t & B)]; [exact (Nd k A)|]. destruct Nf as [F|F]; [congruence|exact (F i t B)]. }
  pose proof (quiet_up na n s tr V St Q1) as B. destruct (quiet_done n s tr V) as [C W]; [intros i pc H; left; eauto|]. split.
  - intros t. rewrite <- !tot_times. symmetry. apply W.
  - intros k q Hk. pose proof (v_cok _ _ _ V k q Hk) as K. destruct (quiet_client na s k q (Q2 k) Hk) as [->|[[lim ->]|[->|(i & -> & _)]]]; [reflexivity|exfalso..]; cbn in K; [lia| |]; destruct K; congruence.
Qed.
Print Assumptions pipeline_no_deadlock.
Example pipeline_no_deadlock_ex : exists s, exec false (start 3 2) (demo ++ [Go 1; Run 2 true; Run 1 true; Run 0 true]) = Some s /\ quiet false (fst s) /\ finished (snd s) = [1; 2]%N.
Proof.
  eexists. split; [vm_compute; reflexivity|]. split; [|reflexivity]. split; [intros [|[|[|[|i]]]] c; reflexivity|intros [|[|[|k]]]; reflexivity].
Qed.

(** After a failure the pipeline can get stuck: a client waiting for all tasks then
    waits for ever, although every callback has returned. *)
Theorem pipeline_fail_deadlock_refuted : exists l s tr, exec false (start 3 1) l = Some (s, tr) /\ quiet false s /\
  (forall k, ~ In (ECall k Destroy) tr) /\ nth_error (clients s) 0 = Some (CWaitB 0) /\ inserted tr = [1; 2; 3; 4]%N /\ finished tr = [1; 2; 3]%N /\
  (forall i, (i < 3)%nat -> begun i tr = ended i tr).
Proof.
  exists [Call 0 (Insert 1%N); Go 0; Call 0 (Insert 2%N); Go 0; Call 0 (Insert 3%N); Go 0; Call 0 (Insert 4%N); Go 0;
     Run 0 true; Run 0 true; Run 0 true; Run 1 true; Run 1 true; Run 1 true; Run 2 true; Run 0 true; Run 0 true; Run 1 true; Run 0 true; Run 0 true; Run 0 true; Run 0 true;
     Call 0 (Wait 0); Go 0; Run 2 false; Run 2 true; Run 0 true; Run 1 true; Run 1 true; Go 0].
  do 2 eexists. split; [vm_compute; reflexivity|].
  split; [split; [intros [|[|[|[|i]]]] c; reflexivity|intros [|[|k]]; reflexivity]|]. split; [intros k; cbn; intuition discriminate|].
  repeat split. intros [|[|[|i]]] L; try reflexivity; lia.
Qed.
Print Assumptions pipeline_fail_deadlock_refuted.

(** ** C49: destroying a pipeline *)

(** M_thread_pipeline_destroy may never return, although every callback has: step 1 has
    ended and step 0 waits for it to take a task. *)
Theorem pipeline_destroy_refuted : forall na, exists l s tr, exec na (start 2 1) l = Some (s, tr) /\ quiet na s /\
  nth_error (clients s) 0 = Some CD2B /\ inserted tr = [1; 2; 3]%N /\ finished tr = [1; 2]%N /\ (forall i t, ~ In (EDone i t false) tr) /\
  (forall i, (i < 2)%nat -> begun i tr = ended i tr).
Proof.
  intros na. exists [Call 0 (Insert 1%N); Go 0; Call 0 (Insert 2%N); Go 0; Call 0 (Insert 3%N); Go 0;
     Run 0 true; Run 0 true; Run 0 true; Run 1 true; Run 0 true; Run 0 true; Run 0 true; Run 0 true; Call 0 Destroy; Go 0; Go 0; Run 0 true; Run 1 true; Run 1 true; Go 0].
  do 2 eexists. split; [destruct na; vm_compute; reflexivity|].
  split; [split; [intros [|[|[|i]]] c; reflexivity|intros [|[|k]]; reflexivity]|]. do 3 (split; [reflexivity|]).
  split; [intros i t; cbn; intuition discriminate|]. intros [|[|i]] L; try reflexivity; lia.
Qed.
Print Assumptions pipeline_destroy_refuted.

(** Missing from C49: the case above.  It is the only one: if nothing can move and a
    destroy (or another call) is pending, or a task is unfinished, then some step has
    ended while the step before it waits for its slot to be emptied. *)
Theorem pipeline_destroy_partial : forall na n nc l s tr, (0 < n)%nat -> exec na (start n nc) l = Some (s, tr) -> quiet na s ->
  (exists k q, nth_error (clients s) k = Some q /\ q <> CIdle) \/ (exists t, times t (finished tr) <> times t (inserted tr)) ->
  exists i t, nth_error (steps s) i = Some (SFullB t) /\ nth_error (steps s) (S i) = Some SDead /\ slot (pp s) (S i) = None.
Proof.
  intros * N E [Q1 Q2] H. pose proof (inv_reach _ _ _ _ _ _ N E) as V. pose proof (v_steps _ _ _ V) as Ls.
  (* look for the last waiting step *)
  assert (G : forall m, (forall i pc, (n - m <= i)%nat -> nth_error (steps s) i = Some pc -> pc = SBlocked \/ pc = SDead) \/
              exists i t, nth_error (steps s) i = Some (SFullB t) /\ forall j pc, (i < j)%nat -> nth_error (steps s) j = Some pc -> pc = SBlocked \/ pc = SDead).
  { induction m as [|m IH].
    - left. intros i pc L Hi. apply nth_lt in Hi. lia.
    - destruct IH as [A|A]; [|right; exact A]. destruct (le_lt_dec n m) as [Z|Z]; [left; intros i pc L; apply A; lia|].
      destruct (has_step _ _ _ (n - S m)%nat V ltac:(lia)) as [pc P]. destruct (quiet_step na s _ pc (Q1 _) P) as [->|[[t ->]| ->]].
      + left. intros i pc L Hi. destruct (Nat.eq_dec i (n - S m)) as [->|Ne]; [left; congruence|apply (A i); [lia|exact Hi]].
      + right. exists (n - S m)%nat, t. split; [exact P|]. intros j pc L Hj. apply (A j); [lia|exact Hj].
      + left. intros i pc L Hi. destruct (Nat.eq_dec i (n - S m)) as [->|Ne]; [right; congruence|apply (A i); [lia|exact Hi]]. }
  destruct (G n) as [A|(i & t & P & A)].
  - exfalso. destruct (quiet_done n s tr V) as [C W]; [intros i pc; apply A; lia|].
    destruct H as [(k & q & Hk & Nq)|(t & Nt)].
    + pose proof (v_cok _ _ _ V k q Hk) as K. destruct (quiet_client na s k q (Q2 k) Hk) as [->|[[lim ->]|[->|(i & -> & Nd)]]]; [congruence|cbn in K..]; [lia|lia|].
      destruct K as (St & _ & L & _). destruct (has_step _ _ _ i V ltac:(lia)) as [pc P]. destruct (A i pc ltac:(lia) P) as [->| ->]; [|congruence].
      pose proof (v_sok _ _ _ V i _ P) as K2. cbn in K2. destruct K2. congruence.
    + apply Nt. rewrite <- !tot_times. symmetry. apply W.
  - pose proof (v_sok _ _ _ V i _ P) as K. cbn in K. rewrite (v_slots _ _ _ V) in K. destruct K as [L K].
    destruct (has_step _ _ _ (S i) V L) as [pc P2]. pose proof (v_sok _ _ _ V _ _ P2) as K2. exists i, t. split; [exact P|].
    destruct (A (S i) pc ltac:(lia) P2) as [->| ->]; cbn in K2; destruct K2 as (S1 & S2 & _); [elim (K S1 S2)|split; [exact P2|exact S2]].
Qed.
Print Assumptions pipeline_destroy_partial.

(** Hence a pipeline with one step, or with no unfinished task, can always be destroyed. *)
Theorem pipeline_destroy_returns : forall na n nc l s tr, (0 < n)%nat -> exec na (start n nc) l = Some (s, tr) -> quiet na s ->
  n = 1%nat \/ (forall t, times t (finished tr) = times t (inserted tr)) ->
  (forall k q, nth_error (clients s) k = Some q -> q = CIdle) /\ forall t, times t (finished tr) = times t (inserted tr).
Proof.
  intros * N E Q H. pose proof (inv_reach _ _ _ _ _ _ N E) as V.
  assert (X : ~ exists i t, nth_error (steps s) i = Some (SFullB t) /\ nth_error (steps s) (S i) = Some SDead /\ slot (pp s) (S i) = None).
  { intros (i & t & P & P2 & _). pose proof (nth_lt _ _ _ P2) as L. rewrite (v_steps _ _ _ V) in L. destruct H as [->|H]; [lia|].
    specialize (H t). rewrite <- !tot_times, (v_task _ _ _ V) in H. pose proof (sumf_ge (hw (fun u => if N.eq_dec u t then 1 else 0)%nat) _ _ _ P) as Ge. cbn [hw] in Ge.
    destruct (N.eq_dec t t); [lia|congruence]. }
  split.
  - intros k q Hk. destruct q; [reflexivity|exfalso..]; apply X; apply (pipeline_destroy_partial _ _ _ _ _ _ N E Q); left; do 2 eexists; (split; [exact Hk|discriminate]).
  - intros t. destruct (Nat.eq_dec (times t (finished tr)) (times t (inserted tr))); [assumption|]. exfalso. apply X. apply (pipeline_destroy_partial _ _ _ _ _ _ N E Q). eauto.
Qed.
Print Assumptions pipeline_destroy_returns.

(** When it returns, every inserted task has been finished, and nothing happens any more. *)
Theorem pipeline_destroy_final : forall na n nc l s tr k s', (0 < n)%nat -> exec na (start n nc) l = Some (s, tr) -> step na s (Go k) = Some (s', [ERet k Destroy 0%N]) ->
  (forall t, times t (finished tr) = times t (inserted tr)) /\ forall l2 s2 tr2, exec na s' l2 = Some (s2, tr2) -> tr2 = [].
Proof.
  intros * N E H. pose proof (inv_reach _ _ _ _ _ _ N E) as V. pose proof (inv_step _ _ _ _ _ _ _ V H) as V'.
  assert (F : freed (pp s') = true /\ cnt (pp s) = 0%nat).
  { cbn [step] in H. destruct (nth_error (clients s) k) as [q|] eqn:Hk; [|discriminate H]. pose proof (v_cok _ _ _ V k q Hk) as K.
    destruct q as [|o|lim'| | | |j]; cbn [client] in H; try discriminate H;
    [destruct o as [t|lim'| | |]; [destruct (negb (status (pp s)))|destruct (Nat.leb_spec (cnt (pp s)) lim')| | |]|destruct (cnt (pp s) <=? 0)|destruct (nth_error (steps s) j) as [[]|]; try discriminate H; destruct (S j =? length (steps s))];
    try discriminate H. injection H as <-. cbn in K. split; [reflexivity|tauto]. }
  destruct F as [F C]. split.
  - intros t. rewrite <- !tot_times. symmetry. exact (all_same _ _ _ V C _).
  - assert (G : forall l2 s tr, inv n s tr -> freed (pp s) = true -> forall s2 tr2, exec na s l2 = Some (s2, tr2) -> tr2 = []).
    { clear. induction l2 as [|a l2 IH]; intros s tr V F s2 tr2 H; cbn [exec] in H; [congruence|].
      destruct (step na s a) as [[s1 e1]|] eqn:E1; [|discriminate H]. destruct (exec na s1 l2) as [[s3 e3]|] eqn:E2; [|discriminate H]. injection H as <- <-.
      destruct (v_freed _ _ _ V F) as (_ & A & B). pose proof (inv_step _ _ _ _ _ _ _ V E1) as V1.
      assert (X : e1 = [] /\ freed (pp s1) = true).
      { destruct a as [i c|k|k o|i|k]; cbn [step] in E1.
        - destruct (nth_error (steps s) i) as [pc|] eqn:Hi; [|discriminate E1]. rewrite (A i pc Hi) in E1. discriminate E1.
        - destruct (nth_error (clients s) k) as [q|] eqn:Hk; [|discriminate E1]. rewrite (B k q Hk) in E1. discriminate E1.
        - destruct (nth_error (clients s) k) as [[]|] eqn:Hk; try discriminate E1. unfold allowed in E1. rewrite F in E1. discriminate E1.
        - destruct (nth_error (steps s) i); [|discriminate E1]. injection E1 as <- <-. auto.
        - destruct (nth_error (clients s) k); [|discriminate E1]. injection E1 as <- <-. auto. }
      destruct X as [-> F1]. cbn [app]. exact (IH _ _ V1 F1 _ _ E2). }
    intros l2 s2 tr2. exact (G l2 s' _ V' F s2 tr2).
Qed.
Print Assumptions pipeline_destroy_final.
Example pipeline_destroy_ex : exists s, exec false (start 3 2) (demo ++ [Go 1; Run 2 true; Call 0 Destroy; Go 0; Go 0; Run 0 true; Run 1 true; Run 2 true; Go 0; Go 0; Go 0]) = Some s /\
  exists s', step false (fst s) (Go 0) = Some (s', [ERet 0 Destroy 0%N]) /\ quiet false s'.
Proof.
  eexists. split; [vm_compute; reflexivity|]. vm_compute. eexists. split; [reflexivity|]. split; [intros [|[|[|[|i]]]] c; reflexivity|intros [|[|[|k]]]; reflexivity].
Qed.

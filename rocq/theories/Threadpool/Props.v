(** Properties of the thread pool: C47, C57 and C58. *)
From Verif Require Import Base.Lib Base.Conc Threadpool.Model Threadpool.Spec Threadpool.Proofs Threadpool.Live Threadpool.Progress Threadpool.Order.

Lemma create_le mint maxt idle qmax : min_threads (create mint maxt idle qmax) <= max_threads (create mint maxt idle qmax).
Proof. cbn [create min_threads max_threads]. destruct (N.ltb_spec maxt mint); lia. Qed.
Lemma create_max mint maxt idle qmax : max_threads (create mint maxt idle qmax) = N.to_nat (N.max mint maxt).
Proof. cbn [create max_threads]. f_equal. destruct (N.ltb_spec maxt mint); lia. Qed.
Lemma create_queue mint maxt idle qmax : (1 <= N.max mint maxt)%N -> (1 <= queue_max (create mint maxt idle qmax))%N.
Proof.
  intros H. cbn [create queue_max]. assert (E : (if maxt <? mint then mint else maxt)%N = N.max mint maxt) by (destruct (N.ltb_spec maxt mint); lia).
  rewrite E. destruct (N.eqb_spec qmax 0) as [->|Q]; cbn [negb andb].
  - cbn [N.eqb]. destruct (N.ltb_spec (N.max mint maxt) ((2 ^ 64 - 1) / 8)); [lia|vm_compute; discriminate].
  - destruct (N.ltb_spec qmax (N.max mint maxt)); cbn [N.eqb]; [destruct (N.ltb_spec (N.max mint maxt) ((2 ^ 64 - 1) / 8)); [lia|vm_compute; discriminate]|].
    destruct (N.eqb_spec qmax 0); lia.
Qed.

(** ** C47: tasks are run at most once, in bounds, and waited for *)

(** For every configuration, any number of parents and clients and every schedule:
    no task is started more often than it was dispatched, nor completed more often
    than started. *)
Theorem threadpool_at_most_once : forall mint maxt idle qmax np nc l s tr t,
  let cfg := create mint maxt idle qmax in exec cfg (start cfg np nc) l = Some (s, tr) ->
  started t tr <= dispatched t tr /\ completed t tr <= started t tr.
Proof.
  intros * E. destruct (inv_reach _ _ _ _ _ _ (create_le _ _ _ _) E) as [_ _ [dl A] _].
  pose proof (ac_disp _ _ _ _ _ A t). pose proof (ac_start _ _ _ _ _ A t).
  assert (sumf (running t) (threads s) <= sumf (inwork t) (threads s)) by (apply sumf_le; intros []; cbn [running inwork]; lia). lia.
Qed.
Print Assumptions threadpool_at_most_once.

(** Tasks leave the queue in the order they entered it, and until the pool is
    destroyed those that have not left it are in it. *)
Theorem threadpool_fifo : forall mint maxt idle qmax np nc l s tr,
  let cfg := create mint maxt idle qmax in exec cfg (start cfg np nc) l = Some (s, tr) ->
  (exists rest, inserts tr = fetches tr ++ rest) /\ (freed (pl s) = false -> inserts tr = fetches tr ++ queue (pl s)).
Proof.
  intros * E. destruct (inv_reach _ _ _ _ _ _ (create_le _ _ _ _) E) as [_ _ [dl A] _].
  split; [rewrite (ac_fifo _ _ _ _ _ A); eauto|]. intros F. rewrite (ac_fifo _ _ _ _ _ A), (ac_drop _ _ _ _ _ A F), app_nil_r. reflexivity.
Qed.
Print Assumptions threadpool_fifo.

(** The queue never exceeds its maximum, and M_threadpool_available_slots is what is left. *)
Theorem threadpool_queue_bound : forall mint maxt idle qmax np nc l s tr,
  let cfg := create mint maxt idle qmax in exec cfg (start cfg np nc) l = Some (s, tr) ->
  (N.of_nat (length (queue (pl s))) + available_slots cfg s = queue_max cfg)%N.
Proof. intros * E. destruct (inv_reach _ _ _ _ _ _ (create_le _ _ _ _) E) as [C _ _ _]. pose proof (co_queue _ _ _ _ _ _ C). unfold available_slots. subst cfg. lia. Qed.
Print Assumptions threadpool_queue_bound.

(** Never more than max_threads workers, and never more tasks running at a time. *)
Theorem threadpool_thread_bound : forall mint maxt idle qmax np nc l s tr,
  let cfg := create mint maxt idle qmax in exec cfg (start cfg np nc) l = Some (s, tr) ->
  num_threads s <= N.to_nat (N.max mint maxt) /\
  length (dones tr) <= length (starts tr) <= length (dones tr) + N.to_nat (N.max mint maxt).
Proof.
  intros * E. rewrite <- (create_max mint maxt idle qmax). split; [|exact (conc_max _ _ _ _ _ _ (create_le _ _ _ _) E)].
  destruct (inv_reach _ _ _ _ _ _ (create_le _ _ _ _) E) as [C _ _ _]. exact (co_max _ _ _ _ _ _ C).
Qed.
Print Assumptions threadpool_thread_bound.

(** When M_threadpool_parent_wait returns, every task of the parent handed over by a
    call that had returned before the wait was called has completed. *)
Theorem threadpool_wait : forall mint maxt idle qmax np nc l s tr i k x a1 a2 a3,
  let cfg := create mint maxt idle qmax in exec cfg (start cfg np nc) l = Some (s, tr) ->
  tr = a1 ++ ECall i (Wait k) :: a2 ++ ERet i (Wait k) :: a3 ->
  returned (k, x) a1 <= completed (k, x) (a1 ++ ECall i (Wait k) :: a2).
Proof. intros * E T. exact (wait_done _ _ _ _ _ _ _ _ (k, x) _ _ _ _ (create_le _ _ _ _) E T eq_refl). Qed.
Print Assumptions threadpool_wait.

(** With one worker tasks are started in the order they entered the queue ... *)
Theorem threadpool_order_partial : forall mint maxt idle qmax np nc l s tr, (N.max mint maxt <= 1)%N ->
  let cfg := create mint maxt idle qmax in exec cfg (start cfg np nc) l = Some (s, tr) ->
  exists rest, inserts tr = starts tr ++ rest.
Proof. intros * M cfg E. refine (one_worker _ _ _ _ _ _ (create_le _ _ _ _) _ E). unfold cfg. rewrite create_max. lia. Qed.
Print Assumptions threadpool_order_partial.

(** ... and those of a single client enter it in the order of the calls and arguments. *)
Theorem threadpool_insert_order : forall mint maxt idle qmax np l s tr,
  let cfg := create mint maxt idle qmax in exec cfg (start cfg np 1) l = Some (s, tr) ->
  exists rest, handed tr = inserts tr ++ rest.
Proof. intros * E. exact (one_client _ _ _ _ _ (create_le _ _ _ _) E). Qed.
Print Assumptions threadpool_insert_order.

(** Two tasks, one worker, one waiting client. *)
Definition go (i c n : nat) : list action := repeat (Run i c) n.
Example threadpool_case :
  let cfg := create 1 1 (2 ^ 64 - 1) 0 in
  match exec cfg (start cfg 1 2)
    ([Call 0 (Dispatch 0 [7; 8]%N)] ++ go 0 1 11 ++ [Call 1 (Wait 0)] ++ go 1 0 3 ++ go 2 0 16 ++ [Run 2 1] ++ go 2 0 1 ++ go 1 0 4) with
  | Some (s, tr) => tr = [ECall 0 (Dispatch 0 [7; 8]%N); EInsert (0, 7%N); EInsert (0, 8%N); ERet 0 (Dispatch 0 [7; 8]%N); ECall 1 (Wait 0);
                          EFetch (0, 7%N); EStart (0, 7%N); EDone (0, 7%N); EFetch (0, 8%N); EStart (0, 8%N); EDone (0, 8%N); ERet 1 (Wait 0)] /\
                    threads s = [CIdle; CIdle; WLock]
  | None => False
  end.
Proof. vm_compute. split; reflexivity. Qed.

Lemma resting_stuck cfg s : forallb resting (threads s) = true -> stuck cfg s.
Proof.
  intros H i c. cbn [step]. destruct (nth_error (threads s) i) as [p|] eqn:E; [|reflexivity].
  apply nth_error_In in E. rewrite forallb_forall in H. specialize (H p E). destruct p; try discriminate H; reflexivity.
Qed.

(** Starting in queue order does not hold with two workers: they fetch in order but
    may be overtaken before they call the task. *)
Theorem threadpool_order_refuted : exists l s tr,
  let cfg := create 2 2 0 0 in exec cfg (start cfg 1 1) l = Some (s, tr) /\
  inserts tr = [(0, 7%N); (0, 8%N)] /\ starts tr = [(0, 8%N); (0, 7%N)].
Proof.
  exists ([Call 0 (Dispatch 0 [7; 8]%N)] ++ go 0 0 11 ++ go 1 0 4 ++ go 2 0 5 ++ go 1 0 1).
  eexists. eexists. split; [vm_compute; reflexivity|]. split; reflexivity.
Qed.
Print Assumptions threadpool_order_refuted.

(** Running every task does not hold when workers may time out: the last worker has
    decided to exit but still counts, so that the dispatcher neither wakes nor creates
    one; the task stays in the queue, and waiting for it hangs. *)
Theorem threadpool_task_runs_refuted : exists l s tr,
  let cfg := create 0 1 1000 0 in exec cfg (start cfg 1 1) l = Some (s, tr) /\ stuck cfg s /\
  up (pl s) = true /\ num_threads s = 0 /\ queue (pl s) = [(0, 8%N)] /\ nth_error (threads s) 0 = Some (PBlocked 0) /\
  returned (0, 8%N) tr = 1 /\ started (0, 8%N) tr = 0.
Proof.
  exists ([Call 0 (Dispatch 0 [7%N])] ++ go 0 1 8 ++ go 1 0 13 ++ [Timeout 1] ++ go 1 0 4 ++
          [Call 0 (Dispatch 0 [8%N])] ++ go 0 1 8 ++ go 1 0 3 ++ [Call 0 (Wait 0)] ++ go 0 0 3).
  eexists. eexists. split; [vm_compute; reflexivity|]. split; [apply resting_stuck; reflexivity|]. repeat split; reflexivity.
Qed.
Print Assumptions threadpool_task_runs_refuted.

(** Nor does the pool keep min_threads workers: two that time out together both see
    one more than the minimum. *)
Theorem threadpool_min_threads_refuted : exists l s tr,
  let cfg := create 1 3 1000 0 in exec cfg (start cfg 1 1) l = Some (s, tr) /\ up (pl s) = true /\ num_threads s = 0.
Proof.
  exists ([Call 0 (Dispatch 0 [7%N])] ++ go 0 1 8 ++ go 1 0 13 ++ go 2 0 4 ++ [Timeout 1; Timeout 2] ++ go 1 0 4 ++ go 2 0 4 ++ go 1 0 3 ++ go 2 0 3).
  eexists. eexists. split; [vm_compute; reflexivity|]. split; reflexivity.
Qed.
Print Assumptions threadpool_min_threads_refuted.

(** ** C57: no deadlock *)

(** When workers do not time out (idle_time_ms is M_UINT64_MAX, or max_threads is at
    most min_threads) and there is at least one: in every reachable state of a pool
    that is not being destroyed, if no thread can go on by itself then every call has
    returned and every dispatched task has been completed, exactly once. *)
Theorem threadpool_no_deadlock_partial : forall mint maxt idle qmax np nc l s tr,
  (1 <= mint)%N -> (idle = 2 ^ 64 - 1 \/ maxt <= mint)%N ->
  let cfg := create mint maxt idle qmax in exec cfg (start cfg np nc) l = Some (s, tr) -> up (pl s) = true -> stuck cfg s ->
  queue (pl s) = [] /\ (forall i p, nth_error (threads s) i = Some p -> p = CIdle \/ p = WBlocked false) /\
  (forall t, completed t tr = dispatched t tr /\ returned t tr = dispatched t tr).
Proof.
  intros * H1 H2 cfg E U S. pose proof (create_le mint maxt idle qmax) as M. fold cfg in M.
  assert (K : keeps cfg).
  { destruct H2 as [->|H2]; [left; reflexivity|right]. unfold cfg. rewrite create_max. cbn [create min_threads]. lia. }
  assert (M1 : 1 <= min_threads cfg) by (unfold cfg; cbn [create min_threads]; lia).
  assert (Q : (1 <= queue_max cfg)%N) by (apply create_queue; lia).
  pose proof (inv_start cfg np nc M) as V0.
  apply (stuck_up cfg s tr); auto; [exact (inv_reach _ _ _ _ _ _ M E)|exact (binv_exec cfg l _ _ _ _ V0 (binv_start cfg np nc) E)
    |exact (linv_exec cfg l K M1 Q _ _ _ _ V0 (linv_start cfg np nc) E)].
Qed.
Print Assumptions threadpool_no_deadlock_partial.

(** The hypotheses are met after a task has run and the worker has gone to sleep. *)
Example threadpool_no_deadlock_case :
  let cfg := create 1 1 (2 ^ 64 - 1) 0 in exists s tr,
  exec cfg (start cfg 1 1) ([Call 0 (Dispatch 0 [7%N])] ++ go 0 1 8 ++ go 1 0 13) = Some (s, tr) /\ up (pl s) = true /\ stuck cfg s /\ completed (0, 7%N) tr = 1.
Proof. eexists. eexists. split; [vm_compute; reflexivity|]. repeat split. apply resting_stuck. reflexivity. Qed.

(** M_threadpool_wait_available_thread can wait for ever although a thread could be
    created: a worker that may not idle signals before it exits, and not after. *)
Theorem threadpool_wait_available_refuted : exists l s tr,
  let cfg := create 0 1 0 0 in exec cfg (start cfg 1 2) l = Some (s, tr) /\ stuck cfg s /\
  up (pl s) = true /\ num_threads s < max_threads cfg /\ nth_error (threads s) 1 = Some ABlocked.
Proof.
  exists ([Call 0 (Dispatch 0 [7%N])] ++ go 0 1 8 ++ go 2 0 5 ++ [Call 1 WaitAvail] ++ go 1 0 3 ++ go 2 1 11 ++ go 1 0 5 ++ go 2 0 3).
  eexists. eexists. split; [vm_compute; reflexivity|]. split; [apply resting_stuck; reflexivity|]. repeat split. vm_compute. lia.
Qed.
Print Assumptions threadpool_wait_available_refuted.

(** Two clients in M_threadpool_wait_available_thread can wake each other for ever
    while the only worker is in a task. *)
Theorem threadpool_wait_available_spins : exists l s tr,
  let cfg := create 1 1 0 0 in exec cfg (start cfg 1 3) l = Some (s, tr) /\
  exec cfg s (go 1 2 5 ++ go 2 1 5) = Some (s, []).
Proof.
  exists ([Call 0 (Dispatch 0 [7; 8]%N)] ++ go 0 1 11 ++ go 3 0 5 ++ [Call 1 WaitAvail] ++ go 1 0 3 ++ [Call 2 WaitAvail] ++ go 2 0 3 ++ go 3 1 9).
  eexists. eexists. split; vm_compute; reflexivity.
Qed.
Print Assumptions threadpool_wait_available_spins.

(** ** C58: destroying a pool *)

(** After M_threadpool_destroy has returned no task is started or completed any more,
    and no thread uses the memory of the pool. *)
Theorem threadpool_destroy_final : forall mint maxt idle qmax np nc l s tr i a1 a2,
  let cfg := create mint maxt idle qmax in exec cfg (start cfg np nc) l = Some (s, tr) -> tr = a1 ++ ERet i Destroy :: a2 ->
  forall e, In e a2 -> match e with EInsert _ | EFetch _ | EStart _ | EDone _ => False | _ => True end.
Proof.
  intros * E T e He. pose proof (destroyed _ _ _ _ _ _ _ _ _ (create_le _ _ _ _) E T) as B.
  destruct (busy e) eqn:Be; [|destruct e; auto; discriminate Be].
  assert (existsb busy a2 = true) by (apply existsb_exists; eauto). congruence.
Qed.
Print Assumptions threadpool_destroy_final.

(** The memory of a destroyed pool is used by nobody: no worker is left but those that
    have ended, no client is inside a call on the pool. *)
Theorem threadpool_freed_unused : forall mint maxt idle qmax np nc l s tr,
  let cfg := create mint maxt idle qmax in exec cfg (start cfg np nc) l = Some (s, tr) -> freed (pl s) = true ->
  forall i p, nth_error (threads s) i = Some p ->
  match p with WDead | CIdle | PLock _ | PTest _ | PWait _ | PBlocked _ | PWoken _ | PClear _ | POut _ | KLock _ | KTest _ | KOut _ _ => True | _ => False end.
Proof.
  intros * E F i p Hi. destruct (inv_reach _ _ _ _ _ _ (create_le _ _ _ _) E) as [_ D _ _].
  destruct (freed_unused s i p D F Hi) as (A & B & C & G). destruct p; try exact I; try discriminate A; try discriminate B; try discriminate C; discriminate G.
Qed.
Print Assumptions threadpool_freed_unused.

(** Likewise that of a destroyed parent: no task of it is queued or about to run or to
    be counted, and no client is inside a call on it. *)
Theorem threadpool_parent_unused : forall mint maxt idle qmax np nc l s tr k r,
  let cfg := create mint maxt idle qmax in exec cfg (start cfg np nc) l = Some (s, tr) -> nth_error (parents s) k = Some r -> dead r = true ->
  (forall i p, nth_error (threads s) i = Some p -> uses_parent k p = false /\ destroys_parent k p = false /\
     match p with WFetchSig t | WFetchOut t | WStart t | WRunning t | WPLock t | WPDec t | WPOut t => fst t <> k | _ => True end) /\
  (forall x, ~ In (k, x) (queue (pl s))).
Proof.
  intros * E Hr Dd. destruct (inv_reach _ _ _ _ _ _ (create_le _ _ _ _) E) as [_ _ [dl A] P]. specialize (P k r Hr). cbv zeta in P.
  destruct (po_dead _ _ _ _ _ _ P Dd) as [K1 K2]. destruct (po_rem _ _ _ _ _ _ P (or_intror Dd)) as [R0 W0].
  pose proof (ac_rem _ _ _ _ _ A k r Hr) as Rm. rewrite R0 in Rm. split.
  - intros i p Hi. pose proof (sumf_ge (kds k) _ _ _ Hi) as G1. pose proof (sumf_ge (kus k) _ _ _ Hi) as G2. pose proof (sumf_ge (wpout k) _ _ _ Hi) as G3.
    pose proof (sumf_ge (held k) _ _ _ Hi) as G4. rewrite K1 in G1. rewrite K2 in G2. rewrite W0 in G3. unfold kds in G1. unfold kus in G2.
    split; [destruct (uses_parent k p); [cbn in G2; lia|reflexivity]|]. split; [destruct (destroys_parent k p); [cbn in G1; lia|reflexivity]|].
    assert (G5 : held k p = 0) by lia. destruct p; auto; intros Ek; cbn [held wpout] in G3, G5; unfold is in G3, G5; try rewrite Ek, Nat.eqb_refl in G5; try rewrite Ek, Nat.eqb_refl in G3; lia.
  - intros x Hx. assert (0 < num k (queue (pl s))); [|lia]. clear - Hx. unfold num. induction (queue (pl s)) as [|u q IH]; [contradiction Hx|].
    cbn [sumf]. destruct Hx as [->|Hx]; [cbn [fst]; unfold is; rewrite Nat.eqb_refl; lia|]. specialize (IH Hx). lia.
Qed.
Print Assumptions threadpool_parent_unused.

(** Destroying gets done: in every reachable state in which the pool is going down and
    no thread can go on by itself, it has been given back, every worker has ended, and
    no client is inside a call except M_threadpool_parent_wait. *)
Theorem threadpool_destroy_returns : forall mint maxt idle qmax np nc l s tr,
  let cfg := create mint maxt idle qmax in exec cfg (start cfg np nc) l = Some (s, tr) -> up (pl s) = false -> stuck cfg s ->
  freed (pl s) = true /\ (forall i p, nth_error (threads s) i = Some p -> p = CIdle \/ p = WDead \/ exists k, p = PBlocked k).
Proof.
  intros * E U S. pose proof (create_le mint maxt idle qmax) as M. apply (stuck_down cfg s tr); auto.
  - exact (inv_reach _ _ _ _ _ _ M E).
  - exact (binv_exec cfg l _ _ _ _ (inv_start cfg np nc M) (binv_start cfg np nc) E).
Qed.
Print Assumptions threadpool_destroy_returns.

(** Tasks still queued when the pool is destroyed are dropped without being counted:
    waiting for their parent afterwards never returns. *)
Theorem threadpool_destroy_drops_tasks : exists l s tr,
  let cfg := create 1 1 0 0 in exec cfg (start cfg 1 1) l = Some (s, tr) /\ freed (pl s) = true /\ stuck cfg s /\
  returned (0, 7%N) tr = 1 /\ started (0, 7%N) tr = 0 /\ nth_error (threads s) 0 = Some (PBlocked 0).
Proof.
  exists ([Call 0 (Dispatch 0 [7%N])] ++ go 0 1 8 ++ [Call 0 Destroy] ++ go 0 0 4 ++ go 1 0 6 ++ go 0 0 4 ++ [Call 0 (Wait 0)] ++ go 0 0 3).
  eexists. eexists. split; [vm_compute; reflexivity|]. split; [reflexivity|]. split; [apply resting_stuck; reflexivity|]. repeat split; reflexivity.
Qed.
Print Assumptions threadpool_destroy_drops_tasks.

(** A parent and then the pool are destroyed after the work is done. *)
Example threadpool_destroy_case :
  let cfg := create 1 1 0 0 in exists s tr,
  exec cfg (start cfg 1 1) ([Call 0 (Dispatch 0 [7%N])] ++ go 0 1 8 ++ go 1 0 9 ++ [Call 0 (ParentDestroy 0)] ++ go 0 0 3 ++
    [Call 0 Destroy] ++ go 0 0 4 ++ go 1 0 6 ++ go 0 0 4) = Some (s, tr) /\
  freed (pl s) = true /\ stuck cfg s /\ map dead (parents s) = [true] /\ completed (0, 7%N) tr = 1.
Proof. eexists. eexists. split; [vm_compute; reflexivity|]. repeat split. apply resting_stuck. reflexivity. Qed.

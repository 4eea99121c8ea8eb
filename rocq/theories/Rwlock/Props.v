(** Properties of the emulated read/write lock: C45 and C46. *)
From Verif Require Import Base.Lib Base.Conc Rwlock.Model Rwlock.Spec Rwlock.Proofs Rwlock.Live.

(** ** C45: mutual exclusion *)

(** For any number of threads and any schedule: while one thread holds the write
    lock no other thread holds a lock. *)
Theorem rwlock_exclusion : forall n sched s i j p q, exec false (start n) sched = Some s ->
  nth_error (threads s) i = Some p -> nth_error (threads s) j = Some q -> i <> j -> writing p -> ~ reading q /\ ~ writing q.
Proof.
  intros n sched s i j p q R Hi Hj N W. unfold writing, reading in *. subst p.
  destruct (exclusion s i j HoldW q (reachable_inv _ _ _ R) Hi Hj N eq_refl) as [A B].
  split; intros ->; discriminate.
Qed.
Print Assumptions rwlock_exclusion.

(** The lock's own count is the number of readers, or -1 for a writer, whenever
    the internal mutex is free and no unlock has begun. *)
Theorem rwlock_count : forall n sched s, exec false (start n) sched = Some s ->
  (forall i p, nth_error (threads s) i = Some p -> outside p) ->
  (lockcnt s = Z.of_nat (cnt (fun p => match p with HoldR => true | _ => false end) (threads s)) /\
     cnt (fun p => match p with HoldW => true | _ => false end) (threads s) = 0%nat) \/
  (lockcnt s = (-1)%Z /\ cnt (fun p => match p with HoldW => true | _ => false end) (threads s) = 1%nat /\
     cnt (fun p => match p with HoldR => true | _ => false end) (threads s) = 0%nat).
Proof.
  intros n sched s R O. pose proof (reachable_inv _ _ _ R) as I. pose proof (i_cnt _ _ _ _ _ _ _ _ _ _ _ _ _ _ _ _ _ _ I) as C.
  assert (A : forall f g, (forall p, outside p -> f p = g p) -> cnt f (threads s) = cnt g (threads s)).
  { clear - O. intros f g H. induction (threads s) as [|x l IH]; cbn [cnt]; auto.
    rewrite (H x) by (apply (O 0%nat); reflexivity). f_equal. apply IH. intros i p Hi. now apply (O (S i)). }
  rewrite (A (fun p => match p with HoldR => true | _ => false end) holdr) by (intros p [-> | [-> | ->]]; reflexivity).
  rewrite (A (fun p => match p with HoldW => true | _ => false end) holdw) by (intros p [-> | [-> | ->]]; reflexivity). cbv zeta in C. lia.
Qed.
Print Assumptions rwlock_count.

(** Two readers share the lock; a writer that came in between waits for both. *)
Example rwlock_case :
  exists s, exec false (start 3)
    [Run 0 0; Run 0 0; Run 0 0; Run 0 0; Run 0 0; Run 1 0; Run 1 0; Run 1 0; Run 1 0; Run 1 0;
     Run 2 1; Run 2 0; Run 2 0; Run 2 0; Run 2 0] = Some s /\ threads s = [HoldR; HoldR; WBlocked] /\ lockcnt s = 2%Z /\ num_wr s = 1%nat.
Proof. eexists. split; [vm_compute; reflexivity|]. auto. Qed.

Example rwlock_writer_case :
  exists s, exec false (start 2)
    [Run 0 1; Run 0 0; Run 0 0; Run 0 0; Run 0 0; Run 1 0; Run 1 0; Run 1 0; Run 1 0; Run 1 0] = Some s /\ threads s = [HoldW; RBlocked].
Proof. eexists. split; [vm_compute; reflexivity|]. auto. Qed.

(** ** C46: no lost wake-up *)

(** If threads are blocked and nobody holds the lock, some thread is inside a call
    and can execute a statement (so it is awake, about to send a wake-up, or about
    to take the lock). *)
Theorem rwlock_no_lost_wakeup : forall n sched s, exec false (start n) sched = Some s ->
  (forall i p, nth_error (threads s) i = Some p -> ~ reading p /\ ~ writing p) ->
  (exists i p, nth_error (threads s) i = Some p /\ blocked p) ->
  exists i c s' p, nth_error (threads s) i = Some p /\ ~ blocked p /\ ~ outside p /\ step false s (Run i c) = Some s'.
Proof.
  intros n sched s R H B. pose proof (reachable_inv _ _ _ R) as I.
  destruct (busy_progress s I (no_lost_wakeup s I H B)) as (i & c & s' & p & Hi & Bp & St).
  exists i, c, s', p. split; auto. unfold blocked, outside. destruct p; cbn in Bp; try discriminate Bp; repeat split; auto;
    intros [E|E]; try discriminate E; destruct E as [E|E]; discriminate E.
Qed.
Print Assumptions rwlock_no_lost_wakeup.

(** Once no new lock calls are made, every schedule (without spurious wake-ups)
    has a bounded length, *)
Theorem rwlock_terminates : forall s, exists bound, forall sched s', exec_quiet s sched = Some s' -> (length sched <= bound)%nat.
Proof.
  intros s. exists (total (length (threads s)) (threads s)). intros sched s' H. pose proof (quiet_bound _ _ _ H). lia.
Qed.
Print Assumptions rwlock_terminates.

(** and it can only stop when every thread got its lock and released it. *)
Theorem rwlock_completes : forall n sched s, exec false (start n) sched = Some s ->
  (forall a, quiet s a = true -> step false s a = None) -> forall i p, nth_error (threads s) i = Some p -> p = Idle.
Proof. intros n sched s R. apply quiet_end. eapply reachable_inv; eauto. Qed.
Print Assumptions rwlock_completes.

(** Continuing [rwlock_case]: both readers unlock, the writer is woken and gets
    the lock. *)
Example rwlock_wakeup_case :
  exists s s', exec false (start 3)
    [Run 0 0; Run 0 0; Run 0 0; Run 0 0; Run 0 0; Run 1 0; Run 1 0; Run 1 0; Run 1 0; Run 1 0;
     Run 2 1; Run 2 0; Run 2 0; Run 2 0; Run 2 0] = Some s /\
  exec_quiet s [Run 0 0; Run 0 0; Run 0 0; Run 0 0; Run 0 0; Run 0 0; Run 1 0; Run 1 0; Run 1 0; Run 1 0; Run 1 0; Run 1 0; Run 1 2;
     Run 2 0; Run 2 0; Run 2 0; Run 2 0; Run 2 0] = Some s' /\ threads s' = [Idle; Idle; HoldW].
Proof. do 2 eexists. split; [vm_compute; reflexivity|]. split; [vm_compute; reflexivity|]. reflexivity. Qed.

(** Unlocking a lock nobody holds keeps the internal mutex locked for ever: no
    thread can take the lock any more. *)
Theorem rwlock_unlock_unheld_refuted : exists s, exec true (start 2) [Run 0 2; Run 0 0; Run 0 0; Run 1 0] = Some s /\
  threads s = [Idle; RStart] /\ forall c, step true s (Run 1 c) = None.
Proof. eexists. split; [vm_compute; reflexivity|]. split; [reflexivity|]. intros c. reflexivity. Qed.
Print Assumptions rwlock_unlock_unheld_refuted.

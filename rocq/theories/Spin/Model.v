(** Model of the spin lock and of M_thread_once in thread/m_thread.c: any
    number of threads using one M_thread_once_t (its spin lock may also be used
    directly).

    A thread is a program counter; a step executes one shared-memory access of
    one thread, in any order (sequential consistency is assumed of the volatile
    and atomic accesses).  M_atomic_inc_u32 (m_atomic.c lines 633-666, 730-733)
    is one step: add one modulo 2^32 and return the old value.  Thread [i] has
    the non-zero thread identifier [S i].  The back-off of lines 412-439 has no
    effect on the state and is left out, as are NULL arguments.  A thread does
    not call into the same object while it holds its lock (the lock is not
    recursive). *)
From Verif Require Import Base.Lib.
Local Open Scope N_scope.

(** What a thread is calling: lock ... unlock of the spin lock, M_thread_once,
    M_thread_once_reset, or an unlock without holding the lock. *)
Inductive kind := Spin | Once | Reset | Rogue.

(** Where a thread is; line numbers of the statement to execute next.  [ao] is
    the atomics_only parameter, [r] the value that will be returned. *)
Inductive pc :=
| Idle
| OFast (ao : bool)                    (* 670: unlocked test of initialized *)
| LTake (k : kind) (ao : bool)         (* 405: take a ticket *)
| LSpin (k : kind) (ao : bool) (t : N) (* 410: wait for the ticket *)
| LOwn (k : kind)                      (* 441-442: threadid = self *)
| Crit (k : kind) (ao : bool)          (* lock returned: caller's code, 675, 693 *)
| OInit (ao : bool)                    (* 676: in init_routine *)
| OSet (ao : bool)                     (* 677: initialized = M_TRUE *)
| RSet (ao : bool)                     (* 694: initialized = M_FALSE *)
| UTest (k : kind) (ao r : bool)       (* 449: is it us? *)
| UClear (k : kind) (ao r : bool)      (* 454: threadid = 0 *)
| UInc (k : kind) (ao r : bool).       (* 455: next ticket *)

(** M_thread_once_t and M_thread_spinlock_t: include/mstdlib/thread/m_thread.h
    lines 710-717, 767-773; and the threads *)
Record state := mkst {
  current : N; queue : N; threadid : nat; initialized : bool; threads : list pc }.

(** M_THREAD_ONCE_STATIC_INITIALIZER: m_thread.h line 773 *)
Definition start (n : nat) : state := mkst 0 0 0 false (repeat Idle n).

(** What can be observed. *)
Inductive event :=
| ETicket (i : nat)                       (* drew a ticket: order of arrival *)
| EAcquire (i : nat)                      (* got the lock *)
| EInit (i : nat)                         (* init_routine begins *)
| EInitEnd (i : nat)                      (* init_routine has returned *)
| EReset (i : nat)                        (* initialized reset *)
| EReturn (i : nat) (k : kind) (r : bool). (* call returned *)

(** Thread [i] starts a call, or executes its next statement. *)
Inductive action := Call (i : nat) (k : kind) (ao : bool) | Run (i : nat).

Definition go (s : state) (i : nat) (p : pc) : state :=
  mkst (current s) (queue s) (threadid s) (initialized s) (upd (threads s) i p).

(** Beginning of a call. *)
Definition entry (k : kind) (ao : bool) : pc :=
  match k with
  | Spin => LTake Spin ao      (* M_thread_spinlock_lock: 459-462 *)
  | Once => OFast ao           (* M_thread_once(_int): 663-682, 703-706 *)
  | Reset => LTake Reset ao    (* M_thread_once_reset(_int): 685-700, 708-711 *)
  | Rogue => UTest Rogue false true (* M_thread_spinlock_unlock: 464-467 *)
  end.

Definition inc32 (x : N) : N := (x + 1) mod 2 ^ 32.

(** One statement of thread [i], which is at [p]. *)
Definition exec (s : state) (i : nat) (p : pc) : option (state * list event) :=
  match p with
  | Idle => None
  (* 670-671 *)
  | OFast ao =>
    if initialized s then Some (go s i Idle, [EReturn i Once false])
    else Some (go s i (LTake Once ao), [])
  (* M_thread_spinlock_lock_int: 398-443 *)
  | LTake k ao =>
    Some (mkst (current s) (inc32 (queue s)) (threadid s) (initialized s)
            (upd (threads s) i (LSpin k ao (queue s))), [ETicket i])
  | LSpin k ao t =>
    if current s =? t then Some (go s i (if ao then Crit k ao else LOwn k), [EAcquire i])
    else Some (s, [])
  | LOwn k =>
    Some (mkst (current s) (queue s) (S i) (initialized s) (upd (threads s) i (Crit k false)), [])
  | Crit Once ao =>
    (* 675 *)
    if initialized s then Some (go s i (UTest Once ao false), [])
    else Some (go s i (OInit ao), [EInit i])
  | Crit Reset ao =>
    (* 693 *)
    if initialized s then Some (go s i (RSet ao), [])
    else Some (go s i (UTest Reset ao false), [])
  | Crit k ao => Some (go s i (UTest k ao true), [])
  | OInit ao => Some (go s i (OSet ao), [EInitEnd i])
  | OSet ao =>
    Some (mkst (current s) (queue s) (threadid s) true (upd (threads s) i (UTest Once ao true)), [])
  | RSet ao =>
    Some (mkst (current s) (queue s) (threadid s) false (upd (threads s) i (UTest Reset ao true)),
          [EReset i])
  (* M_thread_spinlock_unlock_int: 446-456 *)
  | UTest k ao r =>
    if ao || (threadid s =? S i)%nat then Some (go s i (UClear k ao r), [])
    else Some (go s i Idle, [EReturn i k r])
  | UClear k ao r =>
    Some (mkst (current s) (queue s) 0 (initialized s) (upd (threads s) i (UInc k ao r)), [])
  | UInc k ao r =>
    Some (mkst (inc32 (current s)) (queue s) (threadid s) (initialized s) (upd (threads s) i Idle),
          [EReturn i k r])
  end.

Definition step (s : state) (a : action) : option (state * list event) :=
  match a with
  | Call i k ao =>
    match nth_error (threads s) i with
    | Some Idle => Some (go s i (entry k ao), [])
    | _ => None
    end
  | Run i =>
    match nth_error (threads s) i with
    | Some p => exec s i p
    | None => None
    end
  end.

(** Executions: the state reached and the events so far, oldest first. *)
Inductive reach (n : nat) : state -> list event -> Prop :=
| reach_start : reach n (start n) []
| reach_step s tr a s' ev : reach n s tr -> step s a = Some (s', ev) -> reach n s' (tr ++ ev).

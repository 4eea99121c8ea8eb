(** Model of thread/m_thread_rwlock_emu.c: any number of threads using one lock.

    Each thread is a program counter; a step executes one statement of one thread,
    in any order.  Mutex and condition variables are the primitives: locking waits
    for the mutex to be free; M_thread_cond_wait releases the mutex and blocks in
    one step; a signal wakes one blocked thread if there is one, a broadcast all; a
    blocked thread may also wake up spuriously; a woken thread has to get the mutex
    back.  Simplifications: a thread holds the lock at most once at a time (no
    nested read locks); the counters do not wrap (fewer than 2^63 threads);
    creation, destruction and NULL are left out. *)
From Verif Require Import Base.Lib.

(** Where a thread is; line numbers of the statement to execute next.  [UStart] to
    [UWrite] carry whether the caller holds the write lock ([None]: no lock, a
    misuse). *)
Inductive pc :=
| Idle                         (* outside, holding nothing *)
| RStart                       (* 44: mutex lock *)
| RTest                        (* 52: while condition *)
| RInc                         (* 54: num_rd++ *)
| RWait                        (* 59: cond_wait *)
| RBlocked                     (* in cond_wait *)
| RWoken                       (* in cond_wait, woken, wants the mutex *)
| RDec                         (* 62: num_rd-- *)
| RTake                        (* 66: lockcnt++ *)
| ROut                         (* 67: mutex unlock *)
| HoldR                        (* lock returned *)
| WStart                       (* 72 *)
| WTest                        (* 77 *)
| WInc                         (* 78 *)
| WWait                        (* 79 *)
| WBlocked
| WWoken
| WDec                         (* 80 *)
| WTake                        (* 84: lockcnt = -1 *)
| WOut                         (* 85 *)
| HoldW
| UStart (h : option bool)     (* 137: mutex lock *)
| UTest (h : option bool)      (* 138-140: lockcnt *)
| URead (h : option bool)      (* 142-147 *)
| UReadOut (nwr : nat)         (* 148: mutex unlock *)
| UReadSig (nwr : nat)         (* 151 *)
| UWrite (h : option bool)     (* 156-158 *)
| UWriteOut (nrd nwr : nat)    (* 159 *)
| UWriteSig (nrd nwr : nat)    (* 162-167 *)
| USignal                      (* 152, 163: cond_signal(wr_cond) *)
| UBroadcast.                  (* 166: cond_broadcast(rd_cond) *)

(** struct M_thread_rwlock, m_thread_rwlock_emu.c:31-38, and the threads *)
Record state := mkst { mutex : bool; lockcnt : Z; num_rd : nat; num_wr : nat; threads : list pc }.

(** M_thread_rwlock_emu_create, m_thread_rwlock_emu.c:90-100, with [n] threads *)
Definition start (n : nat) : state := mkst false 0 0 0 (repeat Idle n).

Inductive action :=
| Run (i c : nat)     (* thread [i] executes its next statement; [c] chooses *)
| Spurious (i : nat). (* thread [i] wakes up spuriously *)

Definition wake_readers (p : pc) : pc := match p with RBlocked => RWoken | _ => p end.
Definition is_wblocked (p : pc) : bool := match p with WBlocked => true | _ => false end.

Section STEP.
(** Whether threads may unlock a lock they do not hold. *)
Variable misuse : bool.

(** One statement of thread [i], which is at [p]. *)
Definition run (s : state) (i : nat) (p : pc) (c : nat) : option state :=
  let go q := upd (threads s) i q in
  let at_pc q := mkst (mutex s) (lockcnt s) (num_rd s) (num_wr s) (go q) in
  let lock q := if mutex s then None else Some (mkst true (lockcnt s) (num_rd s) (num_wr s) (go q)) in
  let unlock q := Some (mkst false (lockcnt s) (num_rd s) (num_wr s) (go q)) in
  match p with
  (* M_thread_rwlock_emu_lock, m_thread_rwlock_emu.c:114-126 *)
  | Idle => match c with
            | O => Some (at_pc RStart)
            | S O => Some (at_pc WStart)
            | _ => if misuse then Some (at_pc (UStart None)) else None
            end
  (* M_thread_rwlock_emu_lock_read, m_thread_rwlock_emu.c:42-68 *)
  | RStart => lock RTest
  | RTest => Some (at_pc (if (lockcnt s <? 0)%Z || (0 <? num_wr s) then RInc else RTake))
  | RInc => Some (mkst (mutex s) (lockcnt s) (S (num_rd s)) (num_wr s) (go RWait))
  | RWait => unlock RBlocked
  | RBlocked => None
  | RWoken => lock RDec
  | RDec => Some (mkst (mutex s) (lockcnt s) (pred (num_rd s)) (num_wr s) (go RTest))
  | RTake => Some (mkst (mutex s) (lockcnt s + 1)%Z (num_rd s) (num_wr s) (go ROut))
  | ROut => unlock HoldR
  (* M_thread_rwlock_emu_lock_write, m_thread_rwlock_emu.c:70-86 *)
  | WStart => lock WTest
  | WTest => Some (at_pc (if (lockcnt s =? 0)%Z then WTake else WInc))
  | WInc => Some (mkst (mutex s) (lockcnt s) (num_rd s) (S (num_wr s)) (go WWait))
  | WWait => unlock WBlocked
  | WBlocked => None
  | WWoken => lock WDec
  | WDec => Some (mkst (mutex s) (lockcnt s) (num_rd s) (pred (num_wr s)) (go WTest))
  | WTake => Some (mkst (mutex s) (-1)%Z (num_rd s) (num_wr s) (go WOut))
  | WOut => unlock HoldW
  (* M_thread_rwlock_emu_unlock, m_thread_rwlock_emu.c:128-171 *)
  | HoldR => Some (at_pc (UStart (Some false)))
  | HoldW => Some (at_pc (UStart (Some true)))
  | UStart h => lock (UTest h)
  | UTest h => Some (at_pc (if (lockcnt s >? 0)%Z then URead h else if (lockcnt s <? 0)%Z then UWrite h
                            else Idle (* 170: returns with the mutex locked *)))
  | URead h => let k := (lockcnt s - 1)%Z in
               Some (mkst (mutex s) k (num_rd s) (num_wr s) (go (UReadOut (if (k =? 0)%Z then num_wr s else 0))))
  | UReadOut nwr => unlock (UReadSig nwr)
  | UReadSig nwr => Some (at_pc (if 0 <? nwr then USignal else Idle))
  | UWrite h => Some (mkst (mutex s) 0%Z (num_rd s) (num_wr s) (go (UWriteOut (num_rd s) (num_wr s))))
  | UWriteOut nrd nwr => unlock (UWriteSig nrd nwr)
  | UWriteSig nrd nwr => Some (at_pc (if 0 <? nwr then USignal else if 0 <? nrd then UBroadcast else Idle))
  | USignal =>
      if existsb is_wblocked (threads s) then
        match nth_error (threads s) c with
        | Some WBlocked => Some (mkst (mutex s) (lockcnt s) (num_rd s) (num_wr s) (upd (go Idle) c WWoken))
        | _ => None
        end
      else Some (at_pc Idle)
  | UBroadcast => Some (mkst (mutex s) (lockcnt s) (num_rd s) (num_wr s) (map wake_readers (go Idle)))
  end.

Definition step (s : state) (a : action) : option state :=
  match a with
  | Run i c => match nth_error (threads s) i with Some p => run s i p c | None => None end
  | Spurious i =>
      match nth_error (threads s) i with
      | Some RBlocked => Some (mkst (mutex s) (lockcnt s) (num_rd s) (num_wr s) (upd (threads s) i RWoken))
      | Some WBlocked => Some (mkst (mutex s) (lockcnt s) (num_rd s) (num_wr s) (upd (threads s) i WWoken))
      | _ => None
      end
  end.

(** A schedule: any list of actions, each possible when it comes. *)
Fixpoint exec (s : state) (l : list action) : option state :=
  match l with
  | [] => Some s
  | a :: l' => match step s a with Some s' => exec s' l' | None => None end
  end.
End STEP.

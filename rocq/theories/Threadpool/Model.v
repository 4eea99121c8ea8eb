(** Model of thread/m_threadpool.c: one pool, any number of parents, workers and
    client threads.

    Each thread is a program counter; a step executes one group of statements of
    one thread, in any order.  Locking waits for the mutex to be free; a wait on a
    condition variable releases the mutex and blocks in one step; a signal wakes
    one blocked thread if there is one, a broadcast all; blocked threads may wake
    up spuriously, and a timed wait may end at any time; a woken thread has to get
    the mutex back.  Statements between two synchronisation operations are one
    step: they only use fields protected by the mutex held.  Simplifications: tasks
    do not call the pool themselves; counters do not wrap; no NULL arguments;
    clients keep to the documented rules (see [allowed]). *)
From Verif Require Import Base.Lib.

(** One queued task: its parent and its argument
    (struct M_threadpool_queue_st, m_threadpool.c:38-43; the callbacks are left out). *)
Definition task := (nat * N)%type.

(** idle_time_ms, m_threadpool.c:52: M_UINT64_MAX, 0, anything else *)
Inductive idletime := Never | Zero | Finite.

(** The fields fixed at creation, m_threadpool.c:46-65 *)
Record config := mkcfg { min_threads : nat; max_threads : nat; idle_time : idletime; queue_max : N }.

(** M_threadpool_create and M_threadpool_queue_init, m_threadpool.c:86-97 and
    342-358: the configuration from the arguments *)
Definition create (mint maxt : N) (idle : N) (qmax : N) : config :=
  let maxt := if (maxt <? mint)%N then mint else maxt in
  let qmax := if negb (qmax =? 0)%N && (qmax <? maxt)%N then 0%N else qmax in
  let size := if (qmax =? 0)%N then (if (maxt <? (2 ^ 64 - 1) / 8)%N then (maxt * 8)%N else (2 ^ 64 - 1)%N) else qmax in
  mkcfg (N.to_nat mint) (N.to_nat maxt)
        (if (idle =? 2 ^ 64 - 1)%N then Never else if (idle =? 0)%N then Zero else Finite) size.

(** The calls of a client. *)
Inductive op :=
| Dispatch (p : nat) (args : list N)   (* M_threadpool_dispatch *)
| Wait (p : nat)                       (* M_threadpool_parent_wait *)
| WaitAvail                            (* M_threadpool_wait_available_thread *)
| ParentDestroy (p : nat)              (* M_threadpool_parent_destroy *)
| Destroy.                             (* M_threadpool_destroy *)

(** Where a thread is, with the lines to execute next. *)
Inductive pc :=
(* M_threadpool_thread and M_threadpool_queue_fetch, m_threadpool.c:132-240 *)
| WLock                      (* 139: lock *)
| WTop (tmo : bool)          (* 141-170: head of the loop; [tmo]: is_timeout *)
| WFetchSig (t : task)       (* 151-153 *)
| WFetchOut (t : task)       (* 191: unlock *)
| WStart (t : task)          (* 213: about to call the task *)
| WRunning (t : task)        (* 213-217: in the callbacks *)
| WPLock (t : task)          (* 221 *)
| WPDec (t : task)           (* 222-227 *)
| WPOut (t : task)           (* 228 *)
| WIdleSig                   (* 176-178 *)
| WWait                      (* 181-187 *)
| WBlocked (timed : bool)
| WWoken (tmo : bool)
| WDec (tmo : bool)          (* 189 *)
| WQuit                      (* 191, nothing fetched *)
| WExitLock                  (* 231 *)
| WExitDec                   (* 232-236 *)
| WExitOut                   (* 237 *)
| WDead
(* a client outside *)
| CIdle
(* M_threadpool_dispatch_notify and M_threadpool_queue_insert, m_threadpool.c:262-308
   and 469-478; [a] the arguments still to insert, [all] those of the call *)
| DLock (p : nat) (all : list N)                         (* 474 *)
| DAdd (p : nat) (all : list N)                          (* 475 *)
| DPOut (p : nat) (all : list N)                         (* 476 *)
| DQLock (p : nat) (all : list N)                        (* 267 *)
| DSpawn (p : nat) (all : list N) (a : list N) (woke : bool)  (* 271-272 *)
| DTest (p : nat) (all : list N) (a : list N) (woke : bool)   (* 274-283 and 302 *)
| DSig (p : nat) (all : list N) (a : list N)             (* 286-297 *)
| DWait (p : nat) (all : list N) (a : list N)            (* 303 *)
| DBlocked (p : nat) (all : list N) (a : list N)
| DWoken (p : nat) (all : list N) (a : list N)
| DDec (p : nat) (all : list N) (a : list N)             (* 304-305 *)
| DOut (p : nat) (all : list N)                          (* 307 *)
(* M_threadpool_parent_wait, m_threadpool.c:485-499 *)
| PLock (p : nat)            (* 490 *)
| PTest (p : nat)            (* 492-494 *)
| PWait (p : nat)            (* 495 *)
| PBlocked (p : nat)
| PWoken (p : nat)
| PClear (p : nat)           (* 497 *)
| POut (p : nat)             (* 498 *)
(* M_threadpool_wait_available_thread, m_threadpool.c:437-466 *)
| ALock                      (* 446 *)
| ATest                      (* 448-454 *)
| AWait                      (* 455 *)
| ABlocked
| AWoken
| ADec                       (* 456 *)
| ARelay                     (* 459-461 *)
| AOut                       (* 465 *)
(* M_threadpool_parent_destroy, m_threadpool.c:391-406 *)
| KLock (p : nat)            (* 396 *)
| KTest (p : nat)            (* 397 *)
| KOut (p : nat) (ok : bool) (* 398 or 401-404 *)
(* M_threadpool_destroy, m_threadpool.c:316-339 *)
| XLock                      (* 322 *)
| XDown                      (* 323-324 *)
| XTest                      (* 329 *)
| XWait                      (* 330 *)
| XBlocked
| XWoken
| XOut                       (* 333 *)
| XFree.                     (* 336-338 *)

(** The changing fields of struct M_threadpool, m_threadpool.c:46-65; [freed]: the
    memory has been given back *)
Record pool := mkpool { qm : bool; up : bool; freed : bool; nthr : nat; nidle : nat; waiters : nat; queue : list task }.

(** struct M_threadpool_parent, m_threadpool.c:68-75; [dead]: given back *)
Record parent := mkpar { pm : bool; waiting : bool; remaining : nat; dead : bool }.

Record state := mkst { pl : pool; parents : list parent; threads : list pc }.

(** What can be observed: from outside, and of the queue. *)
Inductive event :=
| ECall (i : nat) (o : op)
| ERet (i : nat) (o : op)
| EInsert (t : task)     (* line 283 puts the task into the queue *)
| EFetch (t : task)      (* line 142 takes the task out of the queue *)
| EStart (t : task)      (* the task's callback begins *)
| EDone (t : task).      (* the task's callbacks have returned *)

Inductive action :=
| Run (i c : nat)        (* thread [i] goes on; [c] chooses *)
| Call (i : nat) (o : op)
| Spurious (i : nat)
| Timeout (i : nat).

(** The condition variables: queue_icond, queue_ocond and that of parent [p]. *)
Inductive cond := ICond | OCond | PCond (p : nat).

Definition waits_on (v : cond) (q : pc) : bool :=
  match v, q with
  | ICond, DBlocked _ _ _ | ICond, ABlocked | ICond, XBlocked => true
  | OCond, WBlocked _ => true
  | PCond p, PBlocked r => (r =? p)%nat
  | _, _ => false
  end.

Definition wake (q : pc) : pc :=
  match q with
  | DBlocked p all a => DWoken p all a | ABlocked => AWoken | XBlocked => XWoken
  | WBlocked _ => WWoken false | PBlocked p => PWoken p | _ => q
  end.

(** What a step does to the other threads. *)
Inductive effect :=
| Quiet
| Signal (v : cond)      (* M_thread_cond_signal: wakes one, if anyone is waiting *)
| Broadcast (v : cond)   (* M_thread_cond_broadcast *)
| Spawn.                 (* M_thread_create of a worker *)

Definition apply_effect (e : effect) (c : nat) (l : list pc) : option (list pc) :=
  match e with
  | Quiet => Some l
  | Signal v =>
      if existsb (waits_on v) l then
        match nth_error l c with Some q => if waits_on v q then Some (upd l c (wake q)) else None | None => None end
      else Some l
  | Broadcast v => Some (map (fun q => if waits_on v q then wake q else q) l)
  | Spawn => Some (l ++ [WLock])
  end.

(** Clients inside a call using the pool, those destroying it, and those using
    parent [p] or destroying it. *)
Definition uses_pool (q : pc) : bool := match q with
  | DLock _ _ | DAdd _ _ | DPOut _ _ | DQLock _ _ | DSpawn _ _ _ _ | DTest _ _ _ _ | DSig _ _ _ | DWait _ _ _ | DBlocked _ _ _
  | DWoken _ _ _ | DDec _ _ _ | DOut _ _ | ALock | ATest | AWait | ABlocked | AWoken | ADec | ARelay | AOut => true | _ => false end.
Definition destroys_pool (q : pc) : bool := match q with
  | XLock | XDown | XTest | XWait | XBlocked | XWoken | XOut | XFree => true | _ => false end.
Definition uses_parent (p : nat) (q : pc) : bool := match q with
  | DLock r _ | DAdd r _ | DPOut r _ | DQLock r _ | DSpawn r _ _ _ | DTest r _ _ _ | DSig r _ _ | DWait r _ _ | DBlocked r _ _
  | DWoken r _ _ | DDec r _ _ | DOut r _ | PLock r | PTest r | PWait r | PBlocked r | PWoken r | PClear r | POut r => (r =? p)%nat
  | _ => false end.
Definition destroys_parent (p : nat) (q : pc) : bool := match q with KLock r | KTest r | KOut r _ => (r =? p)%nat | _ => false end.

(** The rules for clients (m_threadpool.h:114-232): the pool is not used while or
    after it is destroyed, nor a parent. *)
Definition allowed (s : state) (o : op) : bool :=
  let none f := negb (existsb f (threads s)) in
  let pool_ok := negb (freed (pl s)) && none destroys_pool in
  let parent_ok p := match nth_error (parents s) p with Some r => negb (dead r) | None => false end && none (destroys_parent p) in
  match o with
  | Dispatch p _ => pool_ok && parent_ok p
  | Wait p => parent_ok p
  | WaitAvail => pool_ok
  | ParentDestroy p => parent_ok p && none (uses_parent p)
  | Destroy => pool_ok && none uses_pool
  end.

Section STEP.
Variable cfg : config.

(** The outcome of a step of one thread: shared data, where the thread is next, the
    effect on other threads, what is observed. *)
Record out := mkout { o_pl : pool; o_pars : list parent; o_pc : pc; o_eff : effect; o_ev : list event }.

(** What thread [i], which is at [p], does next; [c] chooses. *)
Definition run (q : pool) (ps : list parent) (i : nat) (p : pc) (c : nat) : option out :=
  let at_pc x := Some (mkout q ps x Quiet []) in
  let sig v x := Some (mkout q ps x (Signal v) []) in
  let with_pool q' x := Some (mkout q' ps x Quiet []) in
  let set_qm b := mkpool b (up q) (freed q) (nthr q) (nidle q) (waiters q) (queue q) in
  let set_waiters n := mkpool (qm q) (up q) (freed q) (nthr q) (nidle q) n (queue q) in
  let lock x := if qm q then None else with_pool (set_qm true) x in
  let unlock x := with_pool (set_qm false) x in
  let with_par k f := match nth_error ps k with Some r => f r | None => None end in
  let set_par k r' x e := Some (mkout q (upd ps k r') x Quiet e) in
  let plock k x := with_par k (fun r => if pm r then None else set_par k (mkpar true (waiting r) (remaining r) (dead r)) x []) in
  let punlock k x e := with_par k (fun r => set_par k (mkpar false (waiting r) (remaining r) (dead r)) x e) in
  match p with
  (* M_threadpool_queue_fetch, m_threadpool.c:132-194 *)
  | WLock => lock (WTop false)
  | WTop tmo =>
      if negb (up q) then at_pc WQuit else
      match queue q with
      | t :: rest => Some (mkout (mkpool (qm q) (up q) (freed q) (nthr q) (nidle q) (waiters q) rest) ps (WFetchSig t) Quiet [EFetch t])
      | [] => if tmo && (min_threads cfg <? nthr q)%nat then at_pc WQuit
              else with_pool (mkpool (qm q) (up q) (freed q) (nthr q) (S (nidle q)) (waiters q) []) WIdleSig
      end
  | WFetchSig t => if (0 <? waiters q)%nat then sig ICond (WFetchOut t) else at_pc (WFetchOut t)
  | WIdleSig => if (0 <? waiters q)%nat then sig ICond WWait else at_pc WWait
  | WWait =>
      if (min_threads cfg <? nthr q)%nat then
        match idle_time cfg with
        | Never => unlock (WBlocked false)
        | Zero => at_pc (WDec true)
        | Finite => unlock (WBlocked true)
        end
      else unlock (WBlocked false)
  | WBlocked _ => None
  | WWoken tmo => lock (WDec tmo)
  | WDec tmo => with_pool (mkpool (qm q) (up q) (freed q) (nthr q) (pred (nidle q)) (waiters q) (queue q)) (WTop tmo)
  | WFetchOut t => unlock (WStart t)
  (* M_threadpool_thread, m_threadpool.c:202-240 *)
  | WStart t => Some (mkout q ps (WRunning t) Quiet [EStart t])
  | WRunning t => Some (mkout q ps (WPLock t) Quiet [EDone t])
  | WPLock t => plock (fst t) (WPDec t)
  | WPDec t => with_par (fst t) (fun r =>
      Some (mkout q (upd ps (fst t) (mkpar (pm r) (waiting r) (pred (remaining r)) (dead r))) (WPOut t)
              (if waiting r && (pred (remaining r) =? 0)%nat then Broadcast (PCond (fst t)) else Quiet) []))
  | WPOut t => punlock (fst t) WLock []
  | WQuit => unlock WExitLock
  | WExitLock => lock WExitDec
  | WExitDec =>
      Some (mkout (mkpool (qm q) (up q) (freed q) (pred (nthr q)) (nidle q) (waiters q) (queue q)) ps WExitOut
              (if negb (up q) && (pred (nthr q) =? 0)%nat then Broadcast ICond else Quiet) [])
  | WExitOut => unlock WDead
  | WDead => None
  | CIdle => None
  (* M_threadpool_dispatch_notify, m_threadpool.c:469-478 *)
  | DLock k all => plock k (DAdd k all)
  | DAdd k all => with_par k (fun r => set_par k (mkpar (pm r) (waiting r) (remaining r + length all) (dead r)) (DPOut k all) [])
  | DPOut k all => punlock k (DQLock k all) []
  (* M_threadpool_queue_insert and M_threadpool_thread_spawn, m_threadpool.c:244-308;
     creating a thread may fail ([c] = 0) *)
  | DQLock k all => lock (DSpawn k all all false)
  | DSpawn k all a woke =>
      if (nidle q <=? length (queue q))%nat && (nthr q <? max_threads cfg)%nat && (0 <? c)%nat then
        Some (mkout (mkpool (qm q) (up q) (freed q) (S (nthr q)) (nidle q) (waiters q) (queue q)) ps (DTest k all a woke) Spawn [])
      else at_pc (DTest k all a woke)
  | DTest k all a woke =>
      match a with
      | x :: a' =>
          if ((waiters q =? 0)%nat || woke) && (N.of_nat (length (queue q)) <? queue_max cfg)%N then
            Some (mkout (mkpool (qm q) (up q) (freed q) (nthr q) (nidle q) (waiters q) (queue q ++ [(k, x)])) ps (DSig k all a')
                    Quiet [EInsert (k, x)])
          else with_pool (set_waiters (S (waiters q))) (DWait k all a)
      | [] => None (* num_tasks is not 0 here *)
      end
  | DSig k all a => sig OCond (match a with [] => DOut k all | _ => DSpawn k all a true end)
  | DWait k all a => unlock (DBlocked k all a)
  | DBlocked _ _ _ => None
  | DWoken k all a => lock (DDec k all a)
  | DDec k all a => with_pool (set_waiters (pred (waiters q))) (DSpawn k all a true)
  | DOut k all => Some (mkout (set_qm false) ps CIdle Quiet [ERet i (Dispatch k all)])
  (* M_threadpool_parent_wait, m_threadpool.c:485-499 *)
  | PLock k => plock k (PTest k)
  | PTest k => with_par k (fun r =>
      if (remaining r =? 0)%nat then at_pc (PClear k)
      else set_par k (mkpar (pm r) true (remaining r) (dead r)) (PWait k) [])
  | PWait k => punlock k (PBlocked k) []
  | PBlocked _ => None
  | PWoken k => plock k (PTest k)
  | PClear k => with_par k (fun r => set_par k (mkpar (pm r) false (remaining r) (dead r)) (POut k) [])
  | POut k => punlock k CIdle [ERet i (Wait k)]
  (* M_threadpool_wait_available_thread, m_threadpool.c:437-466 *)
  | ALock => lock ATest
  | ATest => if (0 <? nidle q)%nat || (nthr q <? max_threads cfg)%nat then at_pc AOut else with_pool (set_waiters (S (waiters q))) AWait
  | AWait => unlock ABlocked
  | ABlocked => None
  | AWoken => lock ADec
  | ADec => with_pool (set_waiters (pred (waiters q))) ARelay
  | ARelay => if (0 <? waiters q)%nat then sig ICond ATest else at_pc ATest
  | AOut => Some (mkout (set_qm false) ps CIdle Quiet [ERet i WaitAvail])
  (* M_threadpool_parent_destroy, m_threadpool.c:391-406 *)
  | KLock k => plock k (KTest k)
  | KTest k => with_par k (fun r => at_pc (KOut k (remaining r =? 0)%nat))
  | KOut k ok => with_par k (fun r => set_par k (mkpar false (waiting r) (remaining r) (ok || dead r)) CIdle [ERet i (ParentDestroy k)])
  (* M_threadpool_destroy and M_threadpool_queue_finish, m_threadpool.c:110-124 and 316-339 *)
  | XLock => lock XDown
  | XDown => Some (mkout (mkpool (qm q) false (freed q) (nthr q) (nidle q) (waiters q) (queue q)) ps XTest (Broadcast OCond) [])
  | XTest => at_pc (if (nthr q =? 0)%nat then XOut else XWait)
  | XWait => unlock XBlocked
  | XBlocked => None
  | XWoken => lock XTest
  | XOut => unlock XFree
  | XFree => Some (mkout (mkpool (qm q) (up q) true (nthr q) (nidle q) (waiters q) []) ps CIdle Quiet [ERet i Destroy])
  end.

(** The first statement of a call, m_threadpool.c:471 *)
Definition entry (o : op) : pc :=
  match o with
  | Dispatch p [] => CIdle
  | Dispatch p a => DLock p a
  | Wait p => PLock p
  | WaitAvail => ALock
  | ParentDestroy p => KLock p
  | Destroy => XLock
  end.

Definition is_blocked (q : pc) : bool := match q with DBlocked _ _ _ | ABlocked | XBlocked | WBlocked _ | PBlocked _ => true | _ => false end.

(** One step: a statement group of thread [i], a call by an idle client, a spurious
    wake-up, or the end of a timed wait. *)
Definition step (s : state) (a : action) : option (state * list event) :=
  let at_pc i x := mkst (pl s) (parents s) (upd (threads s) i x) in
  match a with
  | Run i c =>
      match nth_error (threads s) i with
      | Some p =>
          match run (pl s) (parents s) i p c with
          | Some o =>
              match apply_effect (o_eff o) c (upd (threads s) i (o_pc o)) with
              | Some l => Some (mkst (o_pl o) (o_pars o) l, o_ev o)
              | None => None
              end
          | None => None
          end
      | None => None
      end
  | Call i o =>
      match nth_error (threads s) i with
      | Some CIdle =>
          if allowed s o then
            Some (at_pc i (entry o), ECall i o :: match o with Dispatch _ [] => [ERet i o] | _ => [] end)
          else None
      | _ => None
      end
  | Spurious i =>
      match nth_error (threads s) i with
      | Some q => if is_blocked q then Some (at_pc i (wake q), []) else None
      | None => None
      end
  | Timeout i =>
      match nth_error (threads s) i with
      | Some (WBlocked true) => Some (at_pc i (WWoken true), [])
      | _ => None
      end
  end.

(** A schedule: any list of actions, each possible when it comes; what is observed. *)
Fixpoint exec (s : state) (l : list action) : option (state * list event) :=
  match l with
  | [] => Some (s, [])
  | a :: l' =>
      match step s a with
      | Some (s', e) => match exec s' l' with Some (s2, e2) => Some (s2, e ++ e2) | None => None end
      | None => None
      end
  end.

(** M_threadpool_create, m_threadpool.c:342-373, [np] parents and [nc] clients *)
Definition start (np nc : nat) : state :=
  mkst (mkpool false true false (min_threads cfg) 0 0 []) (repeat (mkpar false false 0 false) np)
       (repeat CIdle nc ++ repeat WLock (min_threads cfg)).
End STEP.

(** M_threadpool_available_slots, m_threadpool.c:409-420 *)
Definition available_slots (cfg : config) (s : state) : N := (queue_max cfg - N.of_nat (length (queue (pl s))))%N.
(** M_threadpool_num_threads, m_threadpool.c:423-434 *)
Definition num_threads (s : state) : nat := nthr (pl s).

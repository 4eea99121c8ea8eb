(** Model of thread/m_thread_pipeline.c: one pipeline, any number of steps and of
    client threads.

    All data of a pipeline is protected by one mutex, and every signal is sent while
    it is held.  A step of the model is therefore a whole critical section, from
    getting the mutex to releasing it or waiting on a condition variable, executed by
    one thread: no other thread can see what is in between, and threads that are
    signalled only contend for the mutex.  On the condition variable of a pipeline
    step only the thread of that step waits.  Blocked threads may wake up spuriously.
    Simplifications: no NULL arguments; M_thread_create does not fail; a task is a
    number; the result of a step's callback is chosen freely; clients do not use the
    pipeline while or after it is destroyed (see [allowed]). *)
From Verif Require Import Base.Lib.

Definition task := N.

(** M_thread_pipeline_result_t, m_thread_pipeline.h:168-173 *)
Inductive result := Success | Fail | Abort.

(** The changing fields of struct M_thread_pipeline and the slots of its steps,
    m_thread_pipeline.c:61-82; [freed]: the memory has been given back *)
Record pipe := mkpipe { status : bool; slots : list (option task); queue : list task; cnt : nat; freed : bool }.

(** Where the thread of a step is. *)
Inductive spc :=
| SIdle                          (* 254 or 192, contending for the mutex: goes to the head of the loop *)
| SBlocked                       (* 192: waiting for a task *)
| SRun (t : task)                (* 268: in the callback *)
| SDone (t : task) (rv : bool)   (* 270: the callback has returned *)
| SFullB (t : task)              (* 235: waiting for the next step's slot *)
| SFullW (t : task)              (* 235: woken, contending for the mutex *)
| SDead.                         (* 289 *)

(** The calls of a client. *)
Inductive op := Insert (t : task) | Wait (lim : nat) | Count | Status | Destroy.

(** Where a client is. *)
Inductive cpc :=
| CIdle
| CCall (o : op)          (* at the beginning of a call, or woken in M_thread_pipeline_wait *)
| CWaitB (lim : nat)      (* 96, called by the client *)
| CD2                     (* 145: about to wait for all tasks, or woken *)
| CD2B                    (* 96, called from 145 *)
| CD3                     (* 148 *)
| CJoin (i : nat).        (* 154: joining step [i] *)

Record state := mkst { pp : pipe; steps : list spc; clients : list cpc }.

Inductive event :=
| ECall (k : nat) (o : op)
| ERet (k : nat) (o : op) (v : N)   (* the value returned; 0 if there is none *)
| EStart (i : nat) (t : task)       (* the callback of step [i] begins *)
| EDone (i : nat) (t : task) (rv : bool)
| EFin (t : task) (r : result).     (* the finish callback *)

Definition swake (p : spc) : spc := match p with SBlocked => SIdle | SFullB t => SFullW t | _ => p end.
Definition cwake (p : cpc) : cpc := match p with CWaitB lim => CCall (Wait lim) | CD2B => CD2 | _ => p end.

(** Signals to the steps [f]. *)
Fixpoint wakes (f : nat -> bool) (k : nat) (l : list spc) : list spc :=
  match l with [] => [] | p :: l' => (if f k then swake p else p) :: wakes f (S k) l' end.

(** What a critical section of a step does: the data, where the thread is next, the
    steps it signals, whether it broadcasts to the callers of M_thread_pipeline_wait,
    what is observed. *)
Record out := mkout { o_p : pipe; o_pc : spc; o_sig : nat -> bool; o_bc : bool; o_ev : list event }.

Definition nobody : nat -> bool := fun _ => false.
Definition slot (p : pipe) (i : nat) : option task := nth i (slots p) None.
Definition set_slot (p : pipe) (i : nat) (o : option task) : pipe := mkpipe (status p) (upd (slots p) i o) (queue p) (cnt p) (freed p).

Section RUN.
Variable noabort : bool.   (* M_THREAD_PIPELINE_FLAG_NOABORT *)

(** pipeline_thread_cb from the head of its loop, m_thread_pipeline.c:256-290, and
    pipeline_fetch_task, 172-196: up to the callback, the wait at 192 or the end *)
Definition loop (i : nat) (p : pipe) : out :=
  if negb (status p) then
    let mine := match slot p i with Some t => [t] | None => [] end in
    let rest := if (i =? 0)%nat then queue p else [] in
    mkout (mkpipe (status p) (match slot p i with Some _ => upd (slots p) i None | None => slots p end)
                  (if (i =? 0)%nat then [] else queue p) (cnt p - length (mine ++ rest)) (freed p))
          SDead nobody (match mine ++ rest with [] => false | _ => true end) (map (fun t => EFin t Abort) (mine ++ rest))
  else
    let prior := fun j => (S j =? i)%nat in
    match slot p i with
    | Some t => mkout (set_slot p i None) (SRun t) prior false [EStart i t]
    | None =>
        if (i =? 0)%nat then
          match queue p with
          | t :: q => mkout (mkpipe (status p) (slots p) q (cnt p) (freed p)) (SRun t) prior false [EStart i t]
          | [] => mkout p SBlocked prior false []
          end
        else mkout p SBlocked prior false []
    end.

(** Continue at the head of the loop after [sig], [bc] and [ev]. *)
Definition and_loop (i : nat) (p : pipe) (sig : nat -> bool) (bc : bool) (ev : list event) : out :=
  let o := loop i p in mkout (o_p o) (o_pc o) (fun j => sig j || o_sig o j) (bc || o_bc o) (ev ++ o_ev o).

(** pipeline_finish_task, m_thread_pipeline.c:198-204 *)
Definition finish_task (p : pipe) : pipe := mkpipe (status p) (slots p) (queue p) (cnt p - 1) (freed p).

(** pipeline_finish_step, m_thread_pipeline.c:232-247 *)
Definition send (i : nat) (t : task) (p : pipe) (sig : nat -> bool) (bc : bool) : out :=
  match slot p (S i) with
  | Some _ => mkout p (SFullB t) sig bc []
  | None =>
      if negb (status p) then and_loop i (finish_task p) sig true [EFin t Fail]
      else and_loop i (set_slot p (S i) (Some t)) (fun j => sig j || (j =? S i)%nat) bc []
  end.

(** pipeline_finish_step, m_thread_pipeline.c:206-247 *)
Definition finish_step (i : nat) (t : task) (ok : bool) (p : pipe) : out :=
  let last := (S i =? length (slots p))%nat in
  let down := negb ok && negb noabort in
  let p1 := if down then mkpipe false (slots p) (queue p) (cnt p) (freed p) else p in
  let sig := fun _ : nat => down in
  let rv := if negb (status p1) && negb last then Abort else if ok then Success else Fail in
  match rv, last with
  | Success, false => send i t p1 sig down
  | _, _ => and_loop i (finish_task p1) sig true [EFin t rv]
  end.

(** What the thread of step [i] does next; [c] chooses the callback's result. *)
Definition run (i : nat) (pc : spc) (p : pipe) (c : bool) : option out :=
  match pc with
  | SIdle => Some (loop i p)
  | SBlocked | SFullB _ | SDead => None
  | SRun t => Some (mkout p (SDone t c) nobody false [EDone i t c])
  | SDone t rv => Some (finish_step i t rv p)
  | SFullW t => Some (send i t p nobody false)
  end.

(** Clients keep to the rules: the pipeline is not used while or after it is
    destroyed, and destroyed when nobody is using it. *)
Definition destroying (q : cpc) : bool := match q with CCall Destroy | CD2 | CD2B | CD3 | CJoin _ => true | _ => false end.
Definition is_idle (q : cpc) : bool := match q with CIdle => true | _ => false end.
Definition allowed (s : state) (o : op) : bool :=
  negb (freed (pp s)) && match o with Destroy => forallb is_idle (clients s) | _ => negb (existsb destroying (clients s)) end.

Inductive action :=
| Run (i : nat) (c : bool)   (* step [i] goes on *)
| Go (k : nat)               (* client [k] goes on *)
| Call (k : nat) (o : op)
| SpuriousS (i : nat)
| SpuriousC (k : nat).

(** What client [k] does next. *)
Definition client (s : state) (k : nat) (q : cpc) : option (state * list event) :=
  let p := pp s in
  let at_pc x := mkst p (steps s) (upd (clients s) k x) in
  match q with
  | CIdle | CWaitB _ | CD2B => None
  (* M_thread_pipeline_task_insert, m_thread_pipeline.c:339-358 *)
  | CCall (Insert t) =>
      if negb (status p) then Some (at_pc CIdle, [ERet k (Insert t) 0%N])
      else Some (mkst (mkpipe (status p) (slots p) (queue p ++ [t]) (S (cnt p)) (freed p))
                      (wakes (fun j => (j =? 0)%nat) 0 (steps s)) (upd (clients s) k CIdle), [ERet k (Insert t) 1%N])
  (* M_thread_pipeline_wait, m_thread_pipeline.c:85-99 *)
  | CCall (Wait lim) => if (cnt p <=? lim)%nat then Some (at_pc CIdle, [ERet k (Wait lim) 0%N]) else Some (at_pc (CWaitB lim), [])
  (* M_thread_pipeline_queue_count and M_thread_pipeline_status, m_thread_pipeline.c:101-125 *)
  | CCall Count => Some (at_pc CIdle, [ERet k Count (N.of_nat (cnt p))])
  | CCall Status => Some (at_pc CIdle, [ERet k Status (if status p then 1%N else 0%N)])
  (* M_thread_pipeline_destroy, m_thread_pipeline.c:127-170 *)
  | CCall Destroy =>
      Some (mkst (mkpipe false (slots p) (queue p) (cnt p) (freed p)) (wakes (fun _ => true) 0 (steps s))
                 (map cwake (upd (clients s) k CD2)), [])
  | CD2 => if (cnt p <=? 0)%nat then Some (at_pc CD3, []) else Some (at_pc CD2B, [])
  | CD3 => Some (mkst p (wakes (fun j => (j =? 0)%nat) 0 (steps s)) (upd (clients s) k (CJoin 0)), [])
  | CJoin i =>
      match nth_error (steps s) i with
      | Some SDead =>
          if (S i =? length (steps s))%nat then
            Some (mkst (mkpipe (status p) (slots p) (queue p) (cnt p) true) (steps s) (upd (clients s) k CIdle), [ERet k Destroy 0%N])
          else Some (mkst p (wakes (fun j => (j =? S i)%nat) 0 (steps s)) (upd (clients s) k (CJoin (S i))), [])
      | _ => None
      end
  end.

Definition step (s : state) (a : action) : option (state * list event) :=
  match a with
  | Run i c =>
      match nth_error (steps s) i with
      | Some pc =>
          match run i pc (pp s) c with
          | Some o => Some (mkst (o_p o) (upd (wakes (o_sig o) 0 (steps s)) i (o_pc o))
                                 (if o_bc o then map cwake (clients s) else clients s), o_ev o)
          | None => None
          end
      | None => None
      end
  | Go k => match nth_error (clients s) k with Some q => client s k q | None => None end
  | Call k o =>
      match nth_error (clients s) k with
      | Some CIdle => if allowed s o then Some (mkst (pp s) (steps s) (upd (clients s) k (CCall o)), [ECall k o]) else None
      | _ => None
      end
  | SpuriousS i => match nth_error (steps s) i with Some pc => Some (mkst (pp s) (upd (steps s) i (swake pc)) (clients s), []) | None => None end
  | SpuriousC k => match nth_error (clients s) k with Some q => Some (mkst (pp s) (steps s) (upd (clients s) k (cwake q)), []) | None => None end
  end.

Fixpoint exec (s : state) (l : list action) : option (state * list event) :=
  match l with
  | [] => Some (s, [])
  | a :: l' =>
      match step s a with
      | Some (s', e) => match exec s' l' with Some (s2, e2) => Some (s2, e ++ e2) | None => None end
      | None => None
      end
  end.
End RUN.

(** M_thread_pipeline_create, m_thread_pipeline.c:293-336, with [n] steps and [nc] clients *)
Definition start (n nc : nat) : state := mkst (mkpipe true (repeat None n) [] 0 false) (repeat SIdle n) (repeat CIdle nc).

(** Model of the asynchronous writer of the log, log/m_async_writer.c: a bounded
    queue of messages, filled by the users and emptied by one worker thread through
    a callback of the user.

    Everything under the lock is one step; the callback runs without it, so steps of
    users come between.  The callback answers as it likes.  Sizes and counts are
    numbers without bound: the texts are in memory, and the counter of dropped
    messages would need 2^64 of them.

    Not modelled: condition variables (a step that would wait does nothing), the
    liveness check (488-517), M_async_writer_destroy_blocking (378-436), allocation and
    thread creation failure, the text of the report of dropped messages. *)
From Verif Require Import Base.Lib.
Local Open Scope N_scope.

Definition msg := list N.
Definition len (m : msg) : N := N.of_nat (length m).

(** writer_state_t, 28-34; [Dead]: destroyed. *)
Inductive wstate := RUNNING | STOPPED | FLUSHING_TO_DESTROY | DESTROYING | Dead.
(** The worker thread: not there; before pop_one; with what pop_one gave it, before
    the callback; before replace_one. *)
Inductive worker := Gone | Ready | Got (m : option msg) (k : N) (c : N) | Back (m : msg) (k : N).

(** struct M_async_writer, 36-65: msgs (oldest first, the C list has it last), stored_bytes, num_dropped, max_bytes,
    write_command, force_command, command_done, state, and where the worker is. *)
Record wr := W { q : list msg; sb : N; nd : N; maxb : N; cmd : N; force : bool; cdone : bool; st : wstate; wk : worker }.
(** M_async_writer_create, 302-346. *)
Definition create (max : N) : wr := W [] 0 0 max 0 false true STOPPED Gone.

(** What is seen from outside: calls with their answer, calls of the callback (a report
    of dropped messages; a message, a command or both) with its answer. *)
Inductive ev :=
  | EWrite (m : msg) (r : bool)
  | ECmd (c : N) (r : bool)
  | EReport (k : N) (a : bool)
  | EOut (m : option msg) (c : N) (a : bool).

(** in_flush, 89-95 *)
Definition in_flush (s : wstate) : bool := match s with FLUSHING_TO_DESTROY => true | _ => false end.

(** The loop of M_async_writer_write that drops the oldest messages, 666-679; [None]: the
    queue is empty and the loop goes on for ever, with the lock held. *)
Fixpoint trim (l : list msg) (b d mx : N) : option (list msg * N * N) :=
  if b <=? mx then Some (l, b, d) else
  match l with
  | [] => None
  | o :: l' => trim l' (b - len o) (d + 1) mx
  end.

(** M_async_writer_write, 625-685. *)
Definition write (s : wr) (m : msg) : option (wr * list ev) :=
  if len m =? 0 then Some (s, [EWrite m false]) else
  if in_flush (st s) then Some (s, [EWrite m false]) else
  if maxb s <? len m then
    Some (W (q s) (sb s) (nd s + 1) (maxb s) (cmd s) (force s) (cdone s) (st s) (wk s), [EWrite m false]) else
  match trim (q s ++ [m]) (sb s + len m) (nd s) (maxb s) with
  | None => None
  | Some (l, b, d) => Some (W l b d (maxb s) (cmd s) (force s) (cdone s) (st s) (wk s), [EWrite m true])
  end.

(** M_async_writer_set_command, 548-573 and, with [block], the first part of
    M_async_writer_set_command_block, 576-602: after it the caller waits for command_done. *)
Definition set_command (s : wr) (c : N) (f block : bool) : wr * list ev :=
  if in_flush (st s) then (s, [ECmd c false]) else
  (W (q s) (sb s) (nd s) (maxb s) (N.lor (cmd s) c) (force s || f || block) (if block then false else cdone s) (st s) (wk s), [ECmd c true]).

(** pop_one, 104-173, and the end of write_thread, 231-244, 272-292, when it tells to stop; [a] is the
    answer of the callback to the report then. A destroyed writer keeps what nobody was told of. *)
Definition pop (s : wr) (a : bool) : wr * list ev :=
  match wk s with
  | Ready =>
    let wait := match q s with [] => true | _ => false end && match st s with RUNNING => true | _ => false end && (negb (force s) || (cmd s =? 0)) in
    if wait then (s, []) else
    let report k := if k =? 0 then [] else [EReport k a] in
    let keep k := if a then 0 else k in
    match st s, q s with
    | STOPPED, _ => (W (q s) (sb s) (nd s) (maxb s) (cmd s) (force s) true STOPPED Gone, [])
    | DESTROYING, _ => let k := nd s + N.of_nat (length (q s)) in (W [] 0 (keep k) (maxb s) (cmd s) (force s) true Dead Gone, report k)
    | FLUSHING_TO_DESTROY, [] => (W [] (sb s) (keep (nd s)) (maxb s) (cmd s) (force s) true Dead Gone, report (nd s))
    | _, m :: l => (W l (sb s - len m) 0 (maxb s) 0 (force s) (cdone s) (st s) (Got (Some m) (nd s) (cmd s)), [])
    | _, [] => (W [] (sb s) (nd s) (maxb s) 0 (force s) (cdone s) (st s) (Got None 0 (cmd s)), [])
    end
  | _ => (s, [])
  end.

(** write_thread, 231-269: the callback is called for the report, answer [a1], and, unless that
    was refused, for message and command, answer [a2]. *)
Definition call (s : wr) (a1 a2 : bool) : wr * list ev :=
  match wk s with
  | Got m k c =>
    let rep := if k =? 0 then [] else [EReport k a1] in
    let go := (k =? 0) || a1 in
    let consumed := go && a2 in
    let next := match m with Some t => if consumed then Ready else Back t k | None => Ready end in
    (W (q s) (sb s) (nd s) (maxb s) (cmd s) (force s) (if go && negb (c =? 0) then true else cdone s) (st s) next,
     rep ++ if go then [EOut m c a2] else [])
  | _ => (s, [])
  end.

(** replace_one, 180-207: M_llist_str_insert_after of the last node does nothing if there
    is none (base/list/m_llist.c:619). *)
Definition replace (s : wr) : wr * list ev :=
  match wk s with
  | Back m k =>
    if (nd s =? 0) && (sb s + len m <=? maxb s) then
      (W (match q s with [] => [] | _ => m :: q s end) (sb s + len m) (nd s + k) (maxb s) (cmd s) (force s) (cdone s) (st s) Ready, [])
    else (W (q s) (sb s) (nd s + 1 + k) (maxb s) (cmd s) (force s) (cdone s) (st s) Ready, [])
  | _ => (s, [])
  end.

Inductive op :=
  | Write (m : msg) | SetCmd (c : N) (f : bool) | Block (c : N) | SetMax (n : N)
  | Start | Stop | Destroy (flush : bool)
  | Pop (a : bool) | Call (a1 a2 : bool) | Replace.
Definition set_st (s : wr) (x : wstate) (w : worker) : wr := W (q s) (sb s) (nd s) (maxb s) (cmd s) (force s) (cdone s) x w.
(** The calls: _set_max_bytes 611-622, _start 439-465, _stop 521-545 (the request; the caller waits
    until the worker is gone), _destroy 349-375.  A destroyed writer is not used. *)
Definition step (s : wr) (o : op) : option (wr * list ev) :=
  match st s with
  | Dead => Some (s, [])
  | _ =>
    match o with
    | Write m => write s m
    | SetCmd c f => Some (set_command s c f false)
    | Block c => Some (set_command s c true true)
    | SetMax n => Some (W (q s) (sb s) (nd s) n (cmd s) (force s) (cdone s) (st s) (wk s), [])
    | Start => Some (match st s, wk s with
                     | STOPPED, Gone => W (q s) (sb s) (nd s) (maxb s) (cmd s) (force s) true RUNNING Ready
                     | _, _ => s end, [])
    | Stop => Some (match st s with RUNNING => set_st s STOPPED (wk s) | _ => s end, [])
    | Destroy f => Some (match st s with
                         | STOPPED => match wk s with Gone => set_st s Dead Gone | _ => s end
                         | RUNNING => set_st s (if f then FLUSHING_TO_DESTROY else DESTROYING) (wk s)
                         | _ => s end, [])
    | Pop a => Some (pop s a)
    | Call a1 a2 => Some (call s a1 a2)
    | Replace => Some (replace s)
    end
  end.
(** A run; [None] if a call never returns. *)
Fixpoint run (s : wr) (os : list op) : option (wr * list ev) :=
  match os with
  | [] => Some (s, [])
  | o :: os => match step s o with
               | None => None
               | Some (s1, t) => match run s1 os with None => None | Some (s2, tr) => Some (s2, t ++ tr) end
               end
  end.

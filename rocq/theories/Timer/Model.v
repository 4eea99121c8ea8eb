(** Model of io/m_event_timer.c: the timers of one event loop.

    A timer is an index into the heap [tm]; a freed one is None.  Everything done
    while the lock of the event loop is held is one step of the model; between such
    steps other threads may use the timers, in particular while a callback runs.
    Simplifications: the clock stands still during a step; times and counters are
    unbounded; M_event_timer_reset and _adjust, which take the lock twice, are one
    step each, M_event_timer_stop called by a thread other than the one of the event
    loop two; the timers are not used after they are freed, except by the library
    itself; M_event_distribute, the callbacks' identity (M_event_timer_edit_cb), waking
    the event loop and NULL arguments are not modelled.  The queue (M_queue_t, see
    Queue) is a list sorted by the comparator, where a new element is put among equals
    anywhere ([pos]). *)
From Verif Require Import Base.Lib.
Open Scope Z_scope.

(** M_timeval_t *)
Definition tv := (Z * Z)%type.
Definition zero : tv := (0, 0).

(** M_time_timeval_diff, base/time/m_time_elapsed.c:41-49 *)
Definition diff (a b : tv) : Z := (fst b - fst a) * 1000 + (Z.quot (snd b) 1000 - Z.quot (snd a) 1000).

(** M_time_elapsed_start, base/time/m_time_elapsed.c:97-99, of a clock in microseconds *)
Definition tv_of (us : Z) : tv := (us / 1000000, us mod 1000000).

(** M_event_timer_tvset, m_event_timer.c:236-241 *)
Definition tvset (a : tv) : bool := negb (snd a =? 0) || negb (fst a =? 0).

(** INTERVAL_MAX, m_event_timer.c:56 *)
Definition interval_max : Z := 30 * 86400 * 1000.

(** struct M_event_timer, m_event_timer.c:28-52, without the callback *)
Record timer := mkt { t_end : tv; t_start : tv; ival : Z; fcnt : N; auto : bool; dd : bool; mono : bool;
                      started : bool; cnt : N; nxt : tv; last : tv; exe : bool }.
Definition set_started (b : bool) (t : timer) : timer := mkt (t_end t) (t_start t) (ival t) (fcnt t) (auto t) (dd t) (mono t) b (cnt t) (nxt t) (last t) (exe t).
Definition set_exe (b : bool) (t : timer) : timer := mkt (t_end t) (t_start t) (ival t) (fcnt t) (auto t) (dd t) (mono t) (started t) (cnt t) (nxt t) (last t) b.
Definition set_cnt (n : N) (t : timer) : timer := mkt (t_end t) (t_start t) (ival t) (fcnt t) (auto t) (dd t) (mono t) (started t) n (nxt t) (last t) (exe t).
Definition set_nxt (x : tv) (t : timer) : timer := mkt (t_end t) (t_start t) (ival t) (fcnt t) (auto t) (dd t) (mono t) (started t) (cnt t) x (last t) (exe t).
Definition set_last (x : tv) (t : timer) : timer := mkt (t_end t) (t_start t) (ival t) (fcnt t) (auto t) (dd t) (mono t) (started t) (cnt t) (nxt t) x (exe t).
Definition set_dd (t : timer) : timer := mkt (t_end t) (t_start t) (ival t) (fcnt t) (auto t) true (mono t) (started t) (cnt t) (nxt t) (last t) (exe t).
Definition set_ival (x : Z) (t : timer) : timer := mkt (t_end t) (t_start t) x (fcnt t) (auto t) (dd t) (mono t) (started t) (cnt t) (nxt t) (last t) (exe t).
Definition set_tstart (x : tv) (t : timer) : timer := mkt (t_end t) x (ival t) (fcnt t) (auto t) (dd t) (mono t) (started t) (cnt t) (nxt t) (last t) (exe t).

(** The timer M_event_timer_add creates, m_event_timer.c:128-132 *)
Definition fresh : timer := mkt zero zero 0 0 false false false false 0 zero zero false.

(** M_event_timer_compar_cb, m_event_timer.c:58-92 *)
Definition compar (t1 t2 : timer) : Z :=
  if negb (started t1) && negb (started t2) then 0
  else if negb (started t1) && started t2 then 1
  else if started t1 && negb (started t2) then -1
  else let d := diff (nxt t2) (nxt t1) in
    if d <? 0 then -1 else if 0 <? d then 1
    else let d := diff (last t2) (last t1) in
      if d <? 0 then -1 else if 0 <? d then 1 else 0.

(** [proc]: M_event_timer_process is running, with its [curr] and [last_timer];
    [tasks]: queued calls of M_event_timer_remove_cb; [tails]: calls of
    M_event_timer_stop that have released the lock, at line 333 *)
Record state := mkst { now : Z; wall : tv; tm : list (option timer); que : list nat; running : option nat;
                       proc : option (tv * option nat); tasks : list nat; tails : list nat }.
Definition get (s : state) (id : nat) : option timer := match nth_error (tm s) id with Some (Some t) => Some t | _ => None end.
Definition put (s : state) (id : nat) (o : option timer) : state :=
  mkst (now s) (wall s) (upd (tm s) id o) (que s) (running s) (proc s) (tasks s) (tails s).
Definition with_que (s : state) (q : list nat) : state := mkst (now s) (wall s) (tm s) q (running s) (proc s) (tasks s) (tails s).

(** M_queue_insert as used by M_event_timer_enqueue, m_event_timer.c:95-107 *)
Fixpoint ins (h : nat -> option timer) (pos : nat) (id : nat) (t : timer) (q : list nat) : list nat :=
  match q with
  | [] => [id]
  | j :: q' =>
      match h j with
      | None => j :: ins h pos id t q'
      | Some u =>
          let c := compar t u in
          if c <? 0 then id :: q
          else if c =? 0 then match pos with O => id :: q | S pos' => j :: ins h pos' id t q' end
          else j :: ins h pos id t q'
      end
  end.
Definition enqueue (s : state) (pos id : nat) (t : timer) : state := with_que (put s id (Some t)) (ins (get s) pos id t (que s)).
(** M_event_timer_dequeue, m_event_timer.c:110-115 *)
Definition dequeue (s : state) (id : nat) : state := with_que s (filter (fun j => negb (j =? id)%nat) (que s)).

(** Dequeue, change and re-enqueue a timer; only change it if it is executing. *)
Definition requeue (s : state) (pos id : nat) (t t' : timer) : state :=
  if exe t then put s id (Some t') else enqueue (dequeue s id) pos id t'.

(** M_event_timer_schedule, m_event_timer.c:244-284 *)
Definition schedule (now : Z) (wall : tv) (t : timer) : bool * timer :=
  if (ival t =? 0) && negb (fcnt t =? 1)%N then (false, t)
  else
    let t1 := if negb (tvset (nxt t)) || negb (mono t) then set_nxt (tv_of now) t else t in
    let time_ms := Z.max 0 (diff wall (t_start t)) in
    if tvset (t_start t) && (interval_max <? time_ms) then (false, t1)
    else
      let add_ms := if tvset (t_start t) then time_ms else ival t in
      let usec := snd (nxt t1) + add_ms * 1000 in
      let t2 := if tvset (t_start t) then set_tstart zero t1 else t1 in
      (true, set_nxt (fst (nxt t1) + Z.quot usec 1000000, Z.rem usec 1000000) t2).

(** M_event_timer_start, m_event_timer.c:287-316, after the check of the interval *)
Definition start (now : Z) (wall : tv) (iv : Z) (t : timer) : bool * timer :=
  let '(ok, t') := schedule now wall (set_nxt zero (set_cnt 0 (set_ival iv t))) in
  (ok, if ok then set_started true t' else t').

Definition start_op (s : state) (pos id : nat) (t : timer) (iv : Z) : state * Z :=
  if interval_max <? iv then (s, 0)
  else let '(ok, t') := start (now s) (wall s) iv t in (requeue s pos id t t', if ok then 1 else 0).

(** M_event_timer_remove, m_event_timer.c:145-193, called by the thread of the event
    loop (or before the loop was first run), or by another thread *)
Definition remove_self (s : state) (id : nat) (t : timer) : state :=
  if exe t then put s id (Some (set_dd (set_started false t))) else put (dequeue s id) id None.
Definition remove_other (s : state) (pos id : nat) (t : timer) : state :=
  let s1 := requeue s pos id t (set_started false t) in
  mkst (now s1) (wall s1) (tm s1) (que s1) (running s1) (proc s1) (tasks s1 ++ [id]) (tails s1).

(** M_event_timer_get_remaining_ms, m_event_timer.c:444-458 *)
Definition remaining (now : Z) (t : timer) : Z := if started t then Z.max 0 (diff (tv_of now) (nxt t)) else 0.

(** M_event_timer_minimum_ms, m_event_timer.c:494-516; None is M_TIMEOUT_INF *)
Definition minimum (s : state) : option Z :=
  match que s with
  | [] => None
  | id :: _ => match get s id with
               | Some t => if started t then Some (Z.max 0 (diff (tv_of (now s)) (nxt t))) else None
               | None => None end
  end.

Inductive op :=
| OStart (iv : N) | OStop | OReset (iv : N) | OAdjust (iv : N) | OSetStart (x : option tv) | OSetEnd (x : option tv)
| OSetCount (n : N) | OSetAuto (b : bool) | OSetMode (m : bool) | ORemove | ORemaining | OStatus.

(** What is observed: the creation of a timer; a call with the clocks and its result;
    the callback begins and returns; a timer found past its end; a use of freed memory *)
Inductive event :=
| EAdd (id : nat)
| EOp (now : Z) (wall : tv) (id : nat) (o : op) (r : Z)
| EFire (now : Z) (wall : tv) (id : nat)
| EBack (now : Z) (id : nat)
| EExpire (id : nat)
| EUaf (id : nat).

(** A call of operation [o] on timer [id]; [self]: by the thread of the event loop.
    Lines 287-474. *)
Definition do_op (s : state) (self : bool) (pos id : nat) (t : timer) (o : op) : state * Z :=
  match o with
  | OStart iv => start_op s pos id t (Z.of_N iv)
  | OStop =>
      let s1 := requeue s pos id t (set_started false t) in
      ((if self then if auto t then remove_self s1 id (set_started false t) else s1
        else mkst (now s1) (wall s1) (tm s1) (que s1) (running s1) (proc s1) (tasks s1) (tails s1 ++ [id])), 1)
  | OReset iv =>
      let t1 := if started t then set_started false t else t in
      start_op (if started t then requeue s pos id t t1 else s) pos id t1 (if (iv =? 0)%N then ival t else Z.of_N iv)
  | OAdjust iv =>
      if (iv =? 0)%N || (interval_max <? Z.of_N iv) || mono t then (s, 0)
      else if started t && (Z.of_N iv <? remaining (now s) t) then start_op (requeue s pos id t (set_started false t)) pos id (set_started false t) (Z.of_N iv)
      else (put s id (Some (set_ival (Z.of_N iv) t)), 1)
  | OSetStart x =>
      match x with
      | Some x => if tvset x then (put s id (Some (set_tstart x t)), 1) else (s, 0)
      | None => if tvset (t_start t) then (put s id (Some (set_tstart zero t)), 1) else (s, 0)
      end
  | OSetEnd x =>
      let set x := put s id (Some (mkt x (t_start t) (ival t) (fcnt t) (auto t) (dd t) (mono t) (started t) (cnt t) (nxt t) (last t) (exe t))) in
      match x with
      | Some x => if tvset x then (set x, 1) else (s, 0)
      | None => if tvset (t_end t) then (set zero, 1) else (s, 0)
      end
  | OSetCount n => (put s id (Some (mkt (t_end t) (t_start t) (ival t) n (auto t) (dd t) (mono t) (started t) (cnt t) (nxt t) (last t) (exe t))), 1)
  | OSetAuto b => (put s id (Some (mkt (t_end t) (t_start t) (ival t) (fcnt t) b (dd t) (mono t) (started t) (cnt t) (nxt t) (last t) (exe t))), 1)
  | OSetMode m => (put s id (Some (mkt (t_end t) (t_start t) (ival t) (fcnt t) (auto t) (dd t) m (started t) (cnt t) (nxt t) (last t) (exe t))), 1)
  | ORemove => ((if self then remove_self s id t else remove_other s pos id t), 1)
  | ORemaining => (s, remaining (now s) t)
  | OStatus => (s, if started t then 1 else 0)
  end.

(** M_event_timer_process after the callback, m_event_timer.c:574-604 *)
Definition after (s : state) (pos id : nat) (t : timer) : state :=
  let t1 := if negb (fcnt t =? 0)%N && (fcnt t <=? cnt t)%N then set_started false t else t in
  if (negb (started t1) && auto t1) || dd t1 then put s id None
  else
    let t2 := set_last (tv_of (now s)) t1 in
    let t3 := if started t2 then snd (schedule (now s) (wall s) t2) else t2 in
    let s1 := enqueue s pos id t3 in
    mkst (now s1) (wall s1) (tm s1) (que s1) (running s1)
         (match proc s1 with Some (_, l) => Some (tv_of (now s1), l) | None => None end) (tasks s1) (tails s1).

Inductive action :=
| Add (pos : nat)                              (* M_event_timer_add *)
| Do (self : bool) (pos id : nat) (o : op)
| Tail (k pos : nat)                           (* the rest of M_event_timer_stop *)
| Task                                         (* the event loop runs the next queued task *)
| Tick (d : N)                                 (* time passes *)
| Wall (x : tv)                                (* the wall clock is whatever it is *)
| Begin                                        (* M_event_timer_process is called *)
| Iter (pos : nat)                             (* head of its loop, line 530 *)
| Back (pos : nat).                            (* the callback returns *)

(** The lock is free: M_event_timer_process is not running, or the callback is. *)
Definition unlocked (s : state) : bool := match proc s, running s with Some _, None => false | _, _ => true end.

Definition step (s : state) (a : action) : option (state * list event) :=
  match a with
  | Add pos =>
      if unlocked s then
        let id := length (tm s) in
        let s1 := mkst (now s) (wall s) (tm s ++ [Some fresh]) (que s) (running s) (proc s) (tasks s) (tails s) in
        Some (enqueue s1 pos id fresh, [EAdd id])
      else None
  | Do self pos id o =>
      if unlocked s then
        match get s id with
        | Some t => let '(s', r) := do_op s self pos id t o in Some (s', [EOp (now s) (wall s) id o r])
        | None => None
        end
      else None
  | Tail k pos =>
      if unlocked s then
        match nth_error (tails s) k with
        | Some id =>
            let s1 := mkst (now s) (wall s) (tm s) (que s) (running s) (proc s) (tasks s) (firstn k (tails s) ++ skipn (S k) (tails s)) in
            match get s id with
            | Some t => Some (if auto t then remove_other s1 pos id t else s1, [])
            | None => Some (s1, [EUaf id])
            end
        | None => None
        end
      else None
  | Task =>
      match proc s, tasks s with
      | None, id :: r =>
          let s1 := mkst (now s) (wall s) (tm s) (que s) (running s) (proc s) r (tails s) in
          if existsb (Nat.eqb id) (que s) then
            match get s id with Some t => Some (remove_self s1 id t, []) | None => None end
          else Some (s1, [])
      | _, _ => None
      end
  | Tick d => Some (mkst (now s + Z.of_N d) (wall s) (tm s) (que s) (running s) (proc s) (tasks s) (tails s), [])
  | Wall x => Some (mkst (now s) x (tm s) (que s) (running s) (proc s) (tasks s) (tails s), [])
  | Begin =>
      match proc s with
      | None => Some (mkst (now s) (wall s) (tm s) (que s) (running s) (Some (tv_of (now s), None)) (tasks s) (tails s), [])
      | Some _ => None
      end
  | Iter pos =>
      match proc s, running s with
      | Some (curr, l), None =>
          let done := mkst (now s) (wall s) (tm s) (que s) (running s) None (tasks s) (tails s) in
          match que s with
          | [] => Some (done, [])
          | id :: r =>
              match get s id with
              | None => None
              | Some t =>
                  if negb (match l with Some j => (j =? id)%nat | None => false end) && started t && (0 <=? diff (nxt t) curr) then
                    let s1 := mkst (now s) (wall s) (tm s) r (running s) (Some (curr, Some id)) (tasks s) (tails s) in
                    if tvset (t_end t) && (diff (wall s) (t_end t) <=? 0) then Some (after s1 pos id (set_started false t), [EExpire id])
                    else
                      let s2 := put s1 id (Some (set_exe true (set_cnt (cnt t + 1) t))) in
                      Some (mkst (now s2) (wall s2) (tm s2) (que s2) (Some id) (proc s2) (tasks s2) (tails s2), [EFire (now s) (wall s) id])
                  else Some (done, [])
              end
          end
      | _, _ => None
      end
  | Back pos =>
      match running s with
      | Some id =>
          match get s id with
          | Some t =>
              let s1 := mkst (now s) (wall s) (tm s) (que s) None (proc s) (tasks s) (tails s) in
              Some (after s1 pos id (set_exe false t), [EBack (now s) id])
          | None => None
          end
      | None => None
      end
  end.

Fixpoint exec (s : state) (l : list action) : option (state * list event) :=
  match l with
  | [] => Some (s, [])
  | a :: l' =>
      match step s a with
      | Some (s', e) => match exec s' l' with Some (s2, e2) => Some (s2, e ++ e2) | None => None end
      | None => None
      end
  end.

(** A new event loop. *)
Definition init (us : N) (w : tv) : state := mkst (Z.of_N us) w [] [] None None [] [].

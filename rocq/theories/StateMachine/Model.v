(** Model of base/data/m_state_machine.c: machines of function states with
    cleanup machines.  The state functions are arbitrary functions of the user's
    data; a cleanup machine is anything that can be run and reset (type [R]
    below), in particular again a machine of this model (Props.v).  Not modelled:
    states that are sub machines or interleaved sub machines, tracing,
    descriptions, duplication.  A function may not change its own machine.
    The u64 lists are lists; [m_cleanup_ids] and [m_prev] have the newest element
    first; the hash table of states is an association list. *)
From Verif Require Import Base.Lib.
Local Open Scope N_scope.

(** M_state_machine_status_t, include/mstdlib/base/m_state_machine.h:565-625 *)
Inductive status := S_NONE | S_NEXT | S_PREV | S_CONTINUE | S_ERROR_STATE | S_WAIT | S_PAUSE | S_DONE | S_STOP_CLEANUP |
  S_ERROR_INVALID | S_ERROR_BAD_ID | S_ERROR_NO_NEXT | S_ERROR_BAD_NEXT | S_ERROR_SELF_NEXT | S_ERROR_NO_PREV | S_ERROR_INF_CONT.

(** M_state_machine_cleanup_reason_t, m_state_machine.h:672-683 *)
Inductive reason := C_NONE | C_DONE | C_ERROR | C_RESET | C_CANCEL.

(** M_state_machine_flags_t, m_state_machine.h:629-668 *)
Record flags := mkflags { f_single_prev : bool; f_continue_loop : bool; f_self_call : bool; f_done_cleanup : bool;
  f_one_cleanup : bool; f_explicit_next : bool; f_linear_end : bool }.

(** The observable calls: a state function was called with the default next id
    [given], returned [st] and left [nxt] in next; a cleanup machine was run for
    a state and returned. *)
Inductive event := ECall (id given : N) (st : status) (nxt : N) | EClean (id : N) (why : reason) (st : status).

Definition is_wait (s : status) : bool := match s with S_WAIT => true | _ => false end.
Definition is_pause (s : status) : bool := match s with S_PAUSE => true | _ => false end.
Definition has_reason (r : reason) : bool := match r with C_NONE => false | _ => true end.

Section Machine.
Context {D R : Type} (rrun : R -> reason -> D -> res (status * R * D)) (rreset : R -> reason -> R).

(** M_state_machine_state_t, m_state_machine.c:48-74.  The reason given to [s_func]
    is pcleanup_reason; state functions of plain machines are not given it. *)
Record state := mkstate { s_func : reason -> D -> N -> status * N * D; s_next : option (list N); s_clean : option R }.

(** struct M_state_machine, m_state_machine.c:76-104 *)
Record machine := mkmachine { m_flags : flags; m_states : list (N * state); m_ids : list N; m_cleanup_ids : list N; m_seen : list N;
  m_reason : reason; m_preason : reason; m_ret : status; m_conts : list N; m_prev : list N; m_cur : N; m_running : bool }.

Definition set_states m x := mkmachine (m_flags m) x (m_ids m) (m_cleanup_ids m) (m_seen m) (m_reason m) (m_preason m) (m_ret m) (m_conts m) (m_prev m) (m_cur m) (m_running m).
Definition set_cleanup_ids m x := mkmachine (m_flags m) (m_states m) (m_ids m) x (m_seen m) (m_reason m) (m_preason m) (m_ret m) (m_conts m) (m_prev m) (m_cur m) (m_running m).
Definition set_seen m x := mkmachine (m_flags m) (m_states m) (m_ids m) (m_cleanup_ids m) x (m_reason m) (m_preason m) (m_ret m) (m_conts m) (m_prev m) (m_cur m) (m_running m).
Definition set_end m r s := mkmachine (m_flags m) (m_states m) (m_ids m) (m_cleanup_ids m) (m_seen m) r (m_preason m) s (m_conts m) (m_prev m) (m_cur m) (m_running m).
Definition set_conts m x := mkmachine (m_flags m) (m_states m) (m_ids m) (m_cleanup_ids m) (m_seen m) (m_reason m) (m_preason m) (m_ret m) x (m_prev m) (m_cur m) (m_running m).
Definition set_prev m x := mkmachine (m_flags m) (m_states m) (m_ids m) (m_cleanup_ids m) (m_seen m) (m_reason m) (m_preason m) (m_ret m) (m_conts m) x (m_cur m) (m_running m).
Definition set_cur m x := mkmachine (m_flags m) (m_states m) (m_ids m) (m_cleanup_ids m) (m_seen m) (m_reason m) (m_preason m) (m_ret m) (m_conts m) (m_prev m) x (m_running m).
Definition set_running m x := mkmachine (m_flags m) (m_states m) (m_ids m) (m_cleanup_ids m) (m_seen m) (m_reason m) (m_preason m) (m_ret m) (m_conts m) (m_prev m) (m_cur m) x.
Definition set_preason m x := mkmachine (m_flags m) (m_states m) (m_ids m) (m_cleanup_ids m) (m_seen m) (m_reason m) x (m_ret m) (m_conts m) (m_prev m) (m_cur m) (m_running m).

(** M_hash_u64vp_get on the states *)
Fixpoint lookup (l : list (N * state)) (id : N) : option state :=
  match l with
  | [] => None
  | (i, s) :: l' => if i =? id then Some s else lookup l' id
  end.

(** The cleanup machine of a state after it was run (in place in C) *)
Fixpoint update_clean (l : list (N * state)) (id : N) (c : R) : list (N * state) :=
  match l with
  | [] => []
  | (i, s) :: l' => if i =? id then (i, mkstate (s_func s) (s_next s) (Some c)) :: l' else (i, s) :: update_clean l' id c
  end.

(** M_list_u64_index_of *)
Definition mem (l : list N) (x : N) : bool := existsb (N.eqb x) l.
Fixpoint index_of (l : list N) (x : N) : option nat :=
  match l with
  | [] => None
  | y :: l' => if y =? x then Some O else match index_of l' x with Some i => Some (S i) | None => None end
  end.

(** M_state_machine_create, m_state_machine.c:852-874 *)
Definition create (f : flags) : machine := mkmachine f [] [] [] [] C_NONE C_NONE S_NONE [] [] 0 false.

(** M_state_machine_insert_state, m_state_machine.c:922-936 (and 1020-1036 for
    cleanup machines) *)
Definition insert_state (m : machine) (id : N) (s : state) : machine * bool :=
  if (id =? 0) || match lookup (m_states m) id with Some _ => true | None => false end then (m, false)
  else (mkmachine (m_flags m) (m_states m ++ [(id, s)]) (m_ids m ++ [id]) (m_cleanup_ids m) (m_seen m) (m_reason m) (m_preason m)
          (m_ret m) (m_conts m) (m_prev m) (m_cur m) (m_running m), true).

(** M_state_machine_insert_prev_id, m_state_machine.c:263-273 (with SINGLE_PREV
    there is never more than one) *)
Definition insert_prev (m : machine) (id : N) : machine :=
  if negb (f_single_prev (m_flags m)) || match m_prev m with [] => true | _ => false end then set_prev m (id :: m_prev m)
  else set_prev m (match rev (m_prev m) with [] => [] | _ :: p => rev (id :: p) end).

(** M_state_machine_pop_prev_id, m_state_machine.c:276-288 *)
Definition pop_prev (m : machine) : machine * N :=
  match m_prev m with
  | [] => (m, 0)
  | id :: p => (set_prev m p, id)
  end.

(** M_state_machine_clear_cleanup_ids, m_state_machine.c:299-308 *)
Definition clear_cleanup_ids (m : machine) : machine := set_seen (set_cleanup_ids m []) [].

(** M_state_machine_run_cleanup, m_state_machine.c:319-397; [ids] are the ids not
    yet taken. *)
Fixpoint cleanup_loop (ids : list N) (m : machine) (d : D) (ev : list event) : res (status * machine * D * list event) :=
  match ids with
  | [] => Ok (S_DONE, clear_cleanup_ids m, d, ev)
  | id :: ids' =>
    let m := set_cleanup_ids m ids' in
    if id =? 0 then Ok (S_DONE, clear_cleanup_ids m, d, ev) else
    let one := f_one_cleanup (m_flags m) in
    if one && mem (m_seen m) id then cleanup_loop ids' m d ev else
    let m := if one then set_seen m (id :: m_seen m) else m in
    match lookup (m_states m) id with
    | None => cleanup_loop ids' m d ev
    | Some s =>
      match s_clean s with
      | None => cleanup_loop ids' m d ev
      | Some c =>
        do '(st, c', d') <- rrun c (m_reason m) d;
        let m := set_states m (update_clean (m_states m) id c') in
        let ev := ev ++ [EClean id (m_reason m) st] in
        match st with
        | S_NEXT | S_PREV | S_CONTINUE | S_PAUSE | S_WAIT => Ok (st, set_cleanup_ids m (id :: ids'), d', ev)
        | S_DONE => cleanup_loop ids' m d' ev
        | _ =>
          let m := if one then set_seen m (filter (fun x => negb (x =? id)) (m_seen m)) else m in
          cleanup_loop ids' m d' ev
        end
      end
    end
  end.
Definition run_cleanup (m : machine) (d : D) : res (status * machine * D * list event) :=
  if has_reason (m_reason m) then cleanup_loop (m_cleanup_ids m) m d []
  else Ok (S_DONE, m, d, []).

(** The outcome of one pass of the loop, m_state_machine.c:473-838 *)
Inductive outcome := Again (m : machine) (d : D) (ev : list event) | Return (st : status) (m : machine) (d : D) (ev : list event).

(** m_state_machine.c:711-732 *)
Definition state_status (st : status) : status :=
  match st with
  | S_NEXT | S_PREV | S_CONTINUE | S_PAUSE | S_WAIT | S_DONE => st
  | _ => S_ERROR_STATE
  end.

(** The checks and the move to the next state after NEXT, CONTINUE or PAUSE,
    m_state_machine.c:751-801 *)
Definition advance (m : machine) (s : state) (st : status) (next_id : N) (d : D) (ev : list event) : outcome :=
  let f := m_flags m in
  if next_id =? 0 then
    if f_explicit_next f || negb (f_linear_end f) then Again (set_end m C_ERROR S_ERROR_NO_NEXT) d ev
    else if f_done_cleanup f then Again (set_end m C_DONE S_DONE) d ev
    else Return S_DONE (set_conts (set_running (clear_cleanup_ids m) false) []) d ev
  else if match s_next s with Some l => negb (mem l next_id) | None => false end then
    Again (set_end m C_ERROR S_ERROR_BAD_NEXT) d ev
  else
    let go m :=
      if negb (f_self_call f) && (m_cur m =? next_id) then Again (set_end m C_ERROR S_ERROR_SELF_NEXT) d ev
      else
        let m := set_cur m next_id in
        if is_pause st then Return st m d ev else Again m d ev in
    match st with
    | S_CONTINUE =>
      if negb (f_continue_loop f) && mem (m_conts m) next_id then Again (set_end m C_ERROR S_ERROR_INF_CONT) d ev
      else go (set_conts m (next_id :: m_conts m))
    | _ => go (set_conts (insert_prev m (m_cur m)) [])
    end.

(** One pass *)
Definition pass (m : machine) (d : D) : res outcome :=
  let st := lookup (m_states m) (m_cur m) in
  let m := match st with None => set_end m C_ERROR S_ERROR_BAD_ID | Some _ => m end in
  if has_reason (m_reason m) then
    do '(r, m, d, ev) <- run_cleanup m d;
    if is_wait r || is_pause r then Ok (Return r m d ev)
    else Ok (Return (m_ret m) (set_running (clear_cleanup_ids m) false) d ev)
  else
  match st with
  | None => UB
  | Some s =>
    let f := m_flags m in
    let next :=
      if f_explicit_next f then Some 0
      else match index_of (m_ids m) (m_cur m) with
           | None => None
           | Some idx => Some (nth (S idx) (m_ids m) 0)
           end in
    match next with
    | None => Ok (Again (set_end m C_ERROR S_ERROR_BAD_ID) d [])
    | Some given =>
      let '(st0, next_id, d) := s_func s (m_preason m) d given in
      let st := state_status st0 in
      let ev := [ECall (m_cur m) given st next_id] in
      let m := if is_wait st then m else set_cleanup_ids m (m_cur m :: m_cleanup_ids m) in
      match st with
      | S_NEXT | S_CONTINUE | S_PAUSE => Ok (advance m s st next_id d ev)
      | S_PREV =>
        let '(m, id) := pop_prev m in
        let m := set_cur m id in
        if id =? 0 then Ok (Again (set_end m C_ERROR S_ERROR_NO_PREV) d ev) else Ok (Again m d ev)
      | S_WAIT => Ok (Return S_WAIT (set_conts m []) d ev)
      | S_DONE =>
        if f_done_cleanup f then Ok (Again (set_conts (set_end m C_DONE S_DONE) []) d ev)
        else Ok (Return S_DONE (set_conts (set_running (clear_cleanup_ids m) false) []) d ev)
      | st => Ok (Again (set_conts (set_end m C_ERROR st) []) d ev)
      end
    end
  end.

Fixpoint loop (fuel : nat) (m : machine) (d : D) (ev : list event) : res (status * machine * D * list event) :=
  match fuel with
  | O => Fuel
  | S fuel' =>
    do o <- pass m d;
    match o with
    | Again m d e => loop fuel' m d (ev ++ e)
    | Return st m d e => Ok (st, m, d, ev ++ e)
    end
  end.

(** M_state_machine_run (M_state_machine_run_states), m_state_machine.c:434-839,
    1078-1081 *)
Definition run (fuel : nat) (m : machine) (d : D) : res (status * machine * D * list event) :=
  match m_ids m with
  | [] => Ok (S_DONE, set_cur (set_running m false) 0, d, [])
  | first :: _ =>
    let m := if m_running m then m
             else set_end (set_cur (set_prev (clear_cleanup_ids (set_conts m [])) []) first) C_NONE S_NONE in
    loop fuel (set_running m true) d []
  end.

(** M_state_machine_reset, m_state_machine.c:1085-1139 *)
Definition reset (m : machine) (r : reason) : machine :=
  if negb (m_running m) then m else
  match lookup (m_states m) (m_cur m) with
  | None => m
  | Some _ =>
    let m :=
      match m_cleanup_ids m with
      | [] => m
      | last :: _ =>
        match lookup (m_states m) last with
        | Some s => match s_clean s with
                    | Some c => set_states m (update_clean (m_states m) last (rreset c r))
                    | None => m
                    end
        | None => m
        end
      end in
    let m := if has_reason r then m
             else set_running (set_cur (set_prev (set_conts (clear_cleanup_ids m) []) []) 0) false in
    set_end m r S_DONE
  end.
End Machine.
Arguments state : clear implicits.
Arguments machine : clear implicits.

(** Machines whose cleanup machines are nested [n] deep, and
    M_state_machine_run_machine for them (m_state_machine.c:842-849, 355-359);
    at depth 0 there are no cleanup machines. *)
Fixpoint mach (D : Type) (n : nat) : Type := match n with O => machine D Empty_set | S n' => machine D (mach D n') end.
Fixpoint mreset (D : Type) (n : nat) : mach D n -> reason -> mach D n :=
  match n with
  | O => reset (fun e _ => e)
  | S n' => reset (mreset D n')
  end.
Fixpoint mrun (D : Type) (fuel n : nat) : mach D n -> D -> res (status * mach D n * D * list event) :=
  match n with
  | O => run (fun e _ _ => match e : Empty_set with end) fuel
  | S n' => run (fun c r d =>
      do '(st, c', d', _) <- mrun D fuel n'
           (match n' return mach D n' -> mach D n' with O => fun c => set_preason c r | S _ => fun c => set_preason c r end c) d;
      Ok (st, match n' return mach D n' -> mach D n' with O => fun c => set_preason c C_NONE | S _ => fun c => set_preason c C_NONE end c', d')) fuel
  end.

(** Model of SQL transactions: sql/m_sql_trans.c, with the error classes of
    sql/m_sql_error.c and the parts of sql/m_sql_connpool.c that take a connection
    from the pool and give it back.

    The driver, the server and the pool answer as they like: [env n] is the n-th
    answer, an error code and a yes/no.  The user's command of M_sql_trans_process
    is any program that executes statements and decides by their results.

    Not modelled: error texts, trace callbacks, timing, other threads (a connection
    given back to the pool is looked at before anyone else takes it), waiting for a
    free connection (m_sql_connpool.c:928-934), fetching rows. *)
From Verif Require Import Base.Lib.

(** M_sql_error_t, include/mstdlib/sql/m_sql.h:190-252. *)
Inductive err :=
  | SUCCESS | SUCCESS_ROW
  | CONN_NODRIVER | CONN_DRIVERLOAD | CONN_DRIVERVER | CONN_PARAMS | CONN_FAILED | CONN_BADAUTH | CONN_LOST
  | PREPARE_INVALID | PREPARE_STRNOTBOUND | PREPARE_NOMULTIQUERY
  | QUERY_NOTPREPARED | QUERY_WRONGNUMPARAMS | QUERY_PREPARE | QUERY_DEADLOCK | QUERY_CONSTRAINT | QUERY_FAILURE
  | INUSE | INVALID_USE | INVALID_TYPE
  | USER_SUCCESS | USER_RETRY | USER_FAILURE | USER_BYPASS | UNSET.

(** M_sql_error_is_error, m_sql_error.c:88-93. *)
Definition is_error (e : err) : bool :=
  match e with SUCCESS | SUCCESS_ROW | USER_SUCCESS | USER_BYPASS => false | _ => true end.
(** M_sql_error_is_disconnect, 96-111. *)
Definition is_disconnect (e : err) : bool :=
  match e with
  | CONN_NODRIVER | CONN_DRIVERLOAD | CONN_DRIVERVER | CONN_PARAMS | CONN_FAILED | CONN_BADAUTH | CONN_LOST => true
  | _ => false
  end.
(** M_sql_error_is_rollback, 113-120. *)
Definition is_rollback (e : err) : bool :=
  match e with QUERY_DEADLOCK | USER_RETRY => true | _ => is_disconnect e end.
(** M_sql_error_is_fatal, 123-126. *)
Definition is_fatal (e : err) : bool := is_error e && negb (is_rollback e) && negb (is_disconnect e).

(** M_sql_conn_state_t, include/mstdlib/sql/m_sql_driver.h:466-470. *)
Inductive cstate := OK | ROLLBACK | FAILED.
(** M_sql_conn_set_state_from_error, m_sql_connpool.c:1182-1196. *)
Definition set_state (st : cstate) (e : err) : cstate :=
  if is_disconnect e then FAILED else if is_rollback e then ROLLBACK else st.

(** What is asked of the pool and of the driver, with the answer.  Statements are numbers. *)
Inductive ev :=
  | ENoPool                      (* no connection: the pool is not started *)
  | EAcquire
  | EBegin (e : err) | EExec (s : N) (e : err) | ECommit (e : err) | ERollback (e : err)
  | ERelease (destroyed : bool)  (* given back; the connection may be destroyed then *)
  | ESleep.

(** A user command, M_sql_trans_commands_t: executes statements, goes on by their result, returns a code. *)
Inductive prog := Ret (e : err) | Exec (s : N) (k : err -> prog).

Section Env.
Variable env : nat -> err * bool.
(** M_SQL_CONNPOOL_FLAG_NO_AUTORETRY_QUERY of the pool *)
Variable no_autoretry : bool.

(** How many answers have been used and what happened. *)
Record world := Wd { used : nat; trace : list ev }.
Definition say (w : world) (e : ev) : world := Wd (used w) (trace w ++ [e]).
Definition ask_err (w : world) : err * world := (fst (env (used w)), Wd (S (used w)) (trace w)).
(** A driver begins a transaction with SUCCESS or fails: any other answer is none. *)
Definition ask_begin (w : world) : err * world :=
  let (e, w) := ask_err w in (if is_error e then e else SUCCESS, w).
Definition ask_bool (w : world) : bool * world := (snd (env (used w)), Wd (S (used w)) (trace w)).

(** M_sql_connpool_release_conn, m_sql_connpool.c:986-1033, called by M_sql_trans_release
    (m_sql_trans.c:37-46): a failed connection is destroyed, one that is up for too long as
    well (the answer of the environment), any other is put back with state OK.  Result: the
    connection afterwards, [None] if its memory is gone. *)
Definition release (st : cstate) (w : world) : option cstate * world :=
  let (old, w) := ask_bool w in
  let destroyed := match st with FAILED => true | _ => old end in
  (if destroyed then None else Some OK, say w (ERelease destroyed)).

(** M_sql_trans_begin, m_sql_trans.c:49-111; a transaction is the state of its connection. *)
Fixpoint begin (fuel : nat) (w : world) : res (err * option cstate * world) :=
  match fuel with
  | O => Fuel
  | S fuel =>
    let (started, w) := ask_bool w in                                     (* 74, m_sql_connpool.c:903-906 *)
    if negb started then Ok (INVALID_USE, None, say w ENoPool) else       (* 75-78 *)
    let w := say w EAcquire in
    let (e, w) := ask_begin w in
    let w := say w (EBegin e) in                                          (* 89 *)
    let st := set_state OK e in                                           (* 94 *)
    let '(t, w) := match e with SUCCESS => (Some st, w) | _ => let (_, w) := release st w in (None, w) end in  (* 96-99 *)
    if is_error e && negb (is_fatal e) && negb no_autoretry then begin fuel (say w ESleep)  (* 102-107, 69-72 *)
    else Ok (e, t, w)
  end.

(** M_sql_trans_rollback, 115-146. Result also tells what became of the connection. *)
Definition rollback (st : cstate) (w : world) : err * option cstate * world :=
  match st with
  | FAILED => let (c, w) := release st w in (CONN_FAILED, c, w)           (* 136-144 *)
  | _ => let (e, w) := ask_err w in
         let w := say w (ERollback e) in
         let (c, w) := release (set_state st e) w in (e, c, w)            (* 132-144 *)
  end.

(** M_sql_trans_commit, 149-193.  Lines 169-176 look at the connection after it was released:
    undefined behaviour if it has been destroyed. *)
Definition commit (st : cstate) (w : world) : res (err * world) :=
  match st with
  | OK => let (e, w) := ask_err w in
          let w := say w (ECommit e) in
          let (_, w) := release (set_state st e) w in Ok (e, w)           (* 183-192 *)
  | _ => let '(_, c, w) := rollback st w in
         match c with
         | None => UB
         | Some FAILED => Ok (CONN_FAILED, w)
         | Some _ => Ok (QUERY_DEADLOCK, w)
         end
  end.

(** M_sql_trans_execute, 196-224. *)
Definition execute (st : cstate) (s : N) (w : world) : err * cstate * world :=
  match st with
  | OK => let (e, w) := ask_err w in (e, set_state st e, say w (EExec s e))
  | _ => (QUERY_DEADLOCK, st, w)                                          (* 204-208 *)
  end.
Fixpoint run_cmd (p : prog) (st : cstate) (w : world) : err * cstate * world :=
  match p with
  | Ret e => (e, st, w)
  | Exec s k => let '(e, st, w) := execute st s w in run_cmd (k e) st w
  end.

(** M_sql_trans_process, 252-332; [cmd n] is what the command does when it is called the n-th time. *)
Variable cmd : nat -> prog.
Fixpoint process (fuel : nat) (n : nat) (w : world) : res (err * world) :=
  match fuel with
  | O => Fuel
  | S fuel' =>
    do ' (e, t, w) <- begin fuel w;                                       (* 274 *)
    if is_error e then                                                    (* 275-283 *)
      if is_rollback e then
        let w := match t with Some st => let '(_, _, w) := rollback st w in w | None => w end in
        process fuel' n (say w ESleep)
      else Ok (e, w)
    else
    match t with
    | None => UB                                                          (* the command gets a NULL transaction *)
    | Some st =>
      let '(e, st, w) := run_cmd (cmd n) st w in                          (* 286 *)
      if is_error e then
        let '(_, _, w) := rollback st w in                                (* 295 *)
        if is_rollback e then process fuel' (S n) (say w ESleep) else Ok (e, w)
      else
      match e with
      | SUCCESS_ROW => let '(_, _, w) := rollback st w in Ok (QUERY_FAILURE, w)  (* 307-311 *)
      | _ =>
        do ' (ce, w) <- commit st w;                                      (* 314 *)
        if is_error ce then
          if is_rollback ce then process fuel' (S n) (say w ESleep) else Ok (ce, w)  (* 315-323 *)
        else Ok (e, w)                                                    (* 325 *)
      end
    end
  end.
Definition run (fuel : nat) : res (err * list ev) := do ' (e, w) <- process fuel 0 (Wd 0 []); Ok (e, trace w).
End Env.

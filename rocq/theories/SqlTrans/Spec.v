(** What the user of transactions relies on, told from what is sent to the driver. *)
From Verif Require Import Base.Lib SqlTrans.Model.

(** What is in the database for good.  A transaction collects the statements that did not
    fail; a commit that does not fail makes them permanent, all at once; a commit that
    fails and everything else leaves nothing (the driver's contract,
    include/mstdlib/sql/m_sql_driver.h:256-279). *)
Record db := Db { pending : list N; durable : list (list N) }.
Definition act (d : db) (e : ev) : db :=
  match e with
  | EBegin _ => Db [] (durable d)
  | EExec s x => if is_error x then d else Db (pending d ++ [s]) (durable d)
  | ECommit x => if is_error x then Db [] (durable d) else Db [] (durable d ++ [pending d])
  | ERollback _ | ERelease _ => Db [] (durable d)
  | _ => d
  end.
Definition applied (tr : list ev) : list (list N) := durable (fold_left act tr (Db [] [])).

(** A talk of a command: the statements it executes with their results, and what it returns *)
Inductive talks : prog -> list (N * err) -> err -> Prop :=
  | talks_ret e : talks (Ret e) [] e
  | talks_exec s k x l e : talks (k x) l e -> talks (Exec s k) ((s, x) :: l) e.
Definition sent (l : list (N * err)) : list ev := map (fun p => EExec (fst p) (snd p)) l.
Definition worked (l : list (N * err)) : list N := map fst (filter (fun p => negb (is_error (snd p))) l).

(** How a connection is used: taken, a transaction begun, statements until one says that
    the transaction or the connection is gone, then nothing but the rollback; ended by
    commit or rollback; given back only when no transaction is open, or destroyed *)
Inductive phase := Idle | Got | Txn | Doomed | Ended | Lost.
Definition after (e : err) (p : phase) : phase := if is_disconnect e then Lost else p.
Definition proto (p : phase) (e : ev) : option phase :=
  match p, e with
  | Idle, (ENoPool | ESleep) => Some Idle
  | Idle, EAcquire => Some Got
  | Got, EBegin x => Some (match x with SUCCESS => Txn | _ => after x Ended end)
  | Txn, EExec _ x => Some (after x (if is_rollback x then Doomed else Txn))
  | Txn, ECommit x => Some (after x Ended)
  | (Txn | Doomed), ERollback x => if is_error x && negb (is_disconnect x) then None else Some (after x Ended)
  | Ended, ERelease _ => Some Idle
  | Lost, ERelease true => Some Idle
  | _, _ => None
  end.
Definition protos (p : phase) (tr : list ev) : option phase :=
  fold_left (fun q e => match q with Some p => proto p e | None => None end) tr (Some p).
(** The driver's contract for rollbacks: one that fails says that the connection is gone *)
Definition rollbacks_ok (tr : list ev) : Prop := forall x, In (ERollback x) tr -> is_error x = true -> is_disconnect x = true.
(** A command that does not hide that a statement said the transaction or connection is gone *)
Definition honest (p : prog) : Prop :=
  forall l e, talks p l e -> (exists s x, In (s, x) l /\ is_rollback x = true) -> is_error e = true.
(** What a command returns when all its statements succeed *)
Fixpoint sunny (p : prog) : err := match p with Ret e => e | Exec _ k => sunny (k SUCCESS) end.

(** Specification of lock, once and reset in terms of what threads observe. *)
From Verif Require Import Base.Lib Spin.Model.

(** The thread has the lock: lock has returned to the caller, or the once code
    runs between lock and unlock. *)
Definition inside (p : pc) : bool :=
  match p with Crit _ _ | OInit _ | OSet _ | RSet _ => true | _ => false end.
Definition in_init (p : pc) : bool := match p with OInit _ => true | _ => false end.

(** Counting events. *)
Fixpoint count (f : event -> bool) (tr : list event) : nat :=
  match tr with [] => 0 | e :: tr' => (if f e then 1 else 0) + count f tr' end.
Definition is_init (e : event) : bool := match e with EInit _ => true | _ => false end.
Definition is_init_end (e : event) : bool := match e with EInitEnd _ => true | _ => false end.
Definition is_reset (e : event) : bool := match e with EReset _ => true | _ => false end.
Definition returned (k : kind) (r : bool) (e : event) : bool :=
  match e, k with
  | EReturn _ Once r', Once => Bool.eqb r r'
  | EReturn _ Reset r', Reset => Bool.eqb r r'
  | EReturn _ Spin r', Spin => Bool.eqb r r'
  | _, _ => false
  end.

(** The threads in the order of arrival, and in the order of getting the lock. *)
Definition arrivals (tr : list event) : list nat :=
  flat_map (fun e => match e with ETicket i => [i] | _ => [] end) tr.
Definition acquisitions (tr : list event) : list nat :=
  flat_map (fun e => match e with EAcquire i => [i] | _ => [] end) tr.

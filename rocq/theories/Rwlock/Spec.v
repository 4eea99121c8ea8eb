(** What a read/write lock promises, in terms of calls and returns. *)
From Verif Require Import Base.Lib Rwlock.Model.

(** Between the return of a lock call and the call of unlock. *)
Definition reading (p : pc) : Prop := p = HoldR.
Definition writing (p : pc) : Prop := p = HoldW.
(** Inside a condition wait, not woken. *)
Definition blocked (p : pc) : Prop := p = RBlocked \/ p = WBlocked.
(** Not inside any call. *)
Definition outside (p : pc) : Prop := p = Idle \/ p = HoldR \/ p = HoldW.

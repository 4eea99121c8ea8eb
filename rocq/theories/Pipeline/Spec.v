(** What the observable events of a pipeline mean, independent of the model's state. *)
From Verif Require Import Base.Lib Pipeline.Model.

(** The tasks accepted, in order; those finished, with any result and successfully. *)
Fixpoint inserted (tr : list event) : list task :=
  match tr with [] => [] | ERet _ (Insert t) 1%N :: tr' => t :: inserted tr' | _ :: tr' => inserted tr' end.
Fixpoint finished (tr : list event) : list task :=
  match tr with [] => [] | EFin t _ :: tr' => t :: finished tr' | _ :: tr' => finished tr' end.
Fixpoint succeeded (tr : list event) : list task :=
  match tr with [] => [] | EFin t Success :: tr' => t :: succeeded tr' | _ :: tr' => succeeded tr' end.

(** The tasks step [i] has started, and those it has completed successfully. *)
Fixpoint begun (i : nat) (tr : list event) : list task :=
  match tr with [] => [] | EStart j t :: tr' => if (j =? i)%nat then t :: begun i tr' else begun i tr' | _ :: tr' => begun i tr' end.
Fixpoint passed (i : nat) (tr : list event) : list task :=
  match tr with [] => [] | EDone j t true :: tr' => if (j =? i)%nat then t :: passed i tr' else passed i tr' | _ :: tr' => passed i tr' end.

(** The tasks whose callback in step [i] has returned. *)
Fixpoint ended (i : nat) (tr : list event) : list task :=
  match tr with [] => [] | EDone j t _ :: tr' => if (j =? i)%nat then t :: ended i tr' else ended i tr' | _ :: tr' => ended i tr' end.

(** How often [t] occurs in [l]. *)
Definition times (t : task) (l : list task) : nat := count_occ N.eq_dec l t.

(** [a] is [b] with some elements left out. *)
Inductive sublist : list task -> list task -> Prop :=
| sub_nil : sublist [] []
| sub_skip x a b : sublist a b -> sublist a (x :: b)
| sub_keep x a b : sublist a b -> sublist (x :: a) (x :: b).

(** Nothing more happens by itself: every thread waits for another, or for ever. *)
Definition quiet (na : bool) (s : state) : Prop := (forall i c, step na s (Run i c) = None) /\ (forall k, step na s (Go k) = None).

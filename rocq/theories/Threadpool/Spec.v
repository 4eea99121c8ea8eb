(** What the observable events of a thread pool mean, independent of the model's state. *)
From Verif Require Import Base.Lib Threadpool.Model.

Definition task_eqb (t u : task) : bool := (fst t =? fst u)%nat && (snd t =? snd u)%N.

(** How often [t] occurs in [l]. *)
Fixpoint times (t : task) (l : list task) : nat :=
  match l with [] => 0 | u :: l' => (if task_eqb t u then 1 else 0) + times t l' end.

(** The tasks of a call. *)
Definition tasks_of (o : op) : list task := match o with Dispatch p args => map (fun a => (p, a)) args | _ => [] end.

(** How often a task was handed over (call made, call returned), started, completed. *)
Definition dispatched (t : task) (tr : list event) : nat :=
  list_sum (map (fun e => match e with ECall _ o => times t (tasks_of o) | _ => 0 end) tr).
Definition returned (t : task) (tr : list event) : nat :=
  list_sum (map (fun e => match e with ERet _ o => times t (tasks_of o) | _ => 0 end) tr).
Definition started (t : task) (tr : list event) : nat :=
  list_sum (map (fun e => match e with EStart u => times t [u] | _ => 0 end) tr).
Definition completed (t : task) (tr : list event) : nat :=
  list_sum (map (fun e => match e with EDone u => times t [u] | _ => 0 end) tr).

(** The tasks in the order they are started. *)
Fixpoint starts (tr : list event) : list task :=
  match tr with [] => [] | EStart t :: tr' => t :: starts tr' | _ :: tr' => starts tr' end.

(** The tasks in the order they enter and leave the queue. *)
Fixpoint inserts (tr : list event) : list task :=
  match tr with [] => [] | EInsert t :: tr' => t :: inserts tr' | _ :: tr' => inserts tr' end.
Fixpoint fetches (tr : list event) : list task :=
  match tr with [] => [] | EFetch t :: tr' => t :: fetches tr' | _ :: tr' => fetches tr' end.

(** Completions in order, and the tasks handed over by the calls, in order. *)
Fixpoint dones (tr : list event) : list task :=
  match tr with [] => [] | EDone t :: tr' => t :: dones tr' | _ :: tr' => dones tr' end.
Fixpoint handed (tr : list event) : list task :=
  match tr with [] => [] | ECall _ o :: tr' => tasks_of o ++ handed tr' | _ :: tr' => handed tr' end.

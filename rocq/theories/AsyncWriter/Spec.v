(** What the user of the asynchronous writer relies on. *)
From Verif Require Import Base.Lib AsyncWriter.Model.
Local Open Scope N_scope.

(** Messages that were accepted; that the callback took; how many were refused for their
    size; how many were reported as dropped *)
Definition taken (tr : list ev) : list msg := flat_map (fun e => match e with EWrite m true => [m] | _ => [] end) tr.
Definition printed (tr : list ev) : list msg := flat_map (fun e => match e with EOut (Some m) _ true => [m] | _ => [] end) tr.
Fixpoint sumN (l : list N) : N := match l with [] => 0 | x :: l => x + sumN l end.
Definition reported (tr : list ev) : N := sumN (map (fun e => match e with EReport k true => k | _ => 0 end) tr).
Definition count {A} (l : list A) : N := N.of_nat (length l).
Definition size (l : list msg) : N := sumN (map (fun m => N.of_nat (length m)) l).

(** [a] is [b] with some elements left out *)
Inductive subseq : list msg -> list msg -> Prop :=
  | sub_nil : subseq [] []
  | sub_skip x a b : subseq a b -> subseq a (x :: b)
  | sub_take x a b : subseq a b -> subseq (x :: a) (x :: b).

(** Flags asked for with success; flags the callback got *)
Definition lors (l : list N) : N := fold_right N.lor 0 l.
Definition asked (tr : list ev) : N := lors (map (fun e => match e with ECmd c true => c | _ => 0 end) tr).
Definition given (tr : list ev) : N := lors (map (fun e => match e with EOut _ c _ => c | _ => 0 end) tr).

(** What the worker holds *)
Definition held (s : wr) : list msg := match wk s with Got (Some m) _ _ => [m] | Back m _ => [m] | _ => [] end.
Definition held_dropped (s : wr) : N := match wk s with Got _ k _ => k | Back _ k => k | _ => 0 end.
Definition held_cmd (s : wr) : N := match wk s with Got _ _ c => c | _ => 0 end.

(** Messages refused because they are longer than the whole queue may be *)
Definition too_long (s : wr) (o : op) : N :=
  match st s, o with
  | (RUNNING | STOPPED | DESTROYING), Write m => if maxb s <? N.of_nat (length m) then 1 else 0
  | _, _ => 0
  end.
Fixpoint refused (s : wr) (os : list op) : N :=
  match os with
  | [] => 0
  | o :: os => too_long s o + match step s o with Some (s1, _) => refused s1 os | None => 0 end
  end.

(** The two situations that the worker does not handle: a message is refused whose report of
    dropped messages was accepted; a refused message comes back to a queue that is empty. *)
Definition fine_step (s : wr) (o : op) : Prop :=
  match wk s, o with
  | Got (Some _) k _, Call a1 a2 => k = 0 \/ a1 = false \/ a2 = true
  | Back m _, Replace => q s <> [] \/ nd s <> 0 \/ maxb s < sb s + N.of_nat (length m)
  | _, _ => True
  end.
Fixpoint fine (s : wr) (os : list op) : Prop :=
  match os with
  | [] => True
  | o :: os => fine_step s o /\ match step s o with Some (s1, _) => fine s1 os | None => True end
  end.
(** No report is refused *)
Definition reports_taken (tr : list ev) : Prop := forall k, ~ In (EReport k false) tr.

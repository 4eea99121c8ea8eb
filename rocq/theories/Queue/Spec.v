(** Queues without duplicates.  A member is a pointer, here a number; 0 is
    NULL. *)
From Verif Require Import Base.Lib Sort.Spec.

Inductive qop :=
| Insert (m : N) | Remove (m : N) | Take (m : N) | Exists (m : N) | Len | First | TakeFirst | Last | Foreach.
Inductive ret := RB (b : bool) | RN (n : nat) | RM (m : N) | RL (l : list N).

Section Spec.
Context (cmp : N -> N -> Z) (srtd : bool).
Definition mem (m : N) (l : list N) : bool := existsb (N.eqb m) l.
Definition out (m : N) (l : list N) : list N := filter (fun x => negb (x =? m)%N) l.
(** Effect of a call on the queue [l], first member first; [f]: members freed *)
Definition rel (l : list N) (o : qop) (r : ret) (l' f : list N) : Prop :=
  match o with
  | Insert m =>
    f = [] /\
    if (m =? 0)%N || mem m l then r = RB false /\ l' = l
    else r = RB true /\ if srtd then (exists i, l' = insert_at i m l) /\ sorted cmp l' else l' = l ++ [m]
  | Remove m => r = RB (mem m l) /\ l' = out m l /\ f = if mem m l then [m] else []
  | Take m => r = RB (mem m l) /\ l' = out m l /\ f = []
  | Exists m => r = RB (mem m l) /\ l' = l /\ f = []
  | Len => r = RN (length l) /\ l' = l /\ f = []
  | First => r = RM (hd 0%N l) /\ l' = l /\ f = []
  | TakeFirst => r = RM (hd 0%N l) /\ l' = tl l /\ f = []
  | Last => r = RM (last l 0%N) /\ l' = l /\ f = []
  | Foreach => r = RL l /\ l' = l /\ f = []
  end.
Inductive chain : list N -> list qop -> list ret -> list N -> list N -> Prop :=
| ch_nil l : chain l [] [] l []
| ch_cons l o ops r rs l1 f l2 f2 : rel l o r l1 f -> chain l1 ops rs l2 f2 -> chain l (o :: ops) (r :: rs) l2 (f2 ++ f).
End Spec.

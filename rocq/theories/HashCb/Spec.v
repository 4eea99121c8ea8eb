(** What a typed container's callbacks have to be, stated on the contents. *)
From Verif Require Import Base.Lib.
Local Open Scope N_scope.

(** Texts that differ at most in the case of ASCII letters. *)
Definition same_letter (x y : N) : Prop :=
  x = y \/ (65 <= x <= 90 /\ y = x + 32) \/ (65 <= y <= 90 /\ x = y + 32).
Definition same_text (a b : list N) : Prop := Forall2 same_letter a b.

(** Dictionary order: a proper prefix comes first, otherwise the first difference decides. *)
Inductive lex_lt : list N -> list N -> Prop :=
| lex_prefix : forall y b, lex_lt [] (y :: b)
| lex_diff : forall x y a b, x < y -> lex_lt (x :: a) (y :: b)
| lex_same : forall x a b, lex_lt a b -> lex_lt (x :: a) (x :: b).
(** Shorter first, dictionary order among equal lengths. *)
Definition shortlex_lt (a b : list N) : Prop := (length a < length b)%nat \/ (length a = length b /\ lex_lt a b).

(** The FNV-1a hash as published: xor, then multiply by the prime. *)
Definition fnv_prime : N := 16777619.
Definition fnv_published (data : list N) (seed : N) : N :=
  fold_left (fun h b => (N.lxor h b * fnv_prime) mod 2 ^ 32) data seed.

(** What the bit helpers should compute, said with powers of two only. *)
From Verif Require Import Base.Lib.
Local Open Scope N_scope.

(** n is a power of two. *)
Definition pow2 (n : N) : Prop := exists k, n = 2 ^ k.

(** p is the least power of two that is at least n. *)
Definition least_pow2_ge (n p : N) : Prop :=
  pow2 p /\ n <= p /\ forall q, pow2 q -> n <= q -> p <= q.

(** p is the greatest power of two that is at most n. *)
Definition greatest_pow2_le (n p : N) : Prop :=
  pow2 p /\ p <= n /\ forall q, pow2 q -> q <= n -> q <= p.

(** Number of ones among the binary digits 0 .. w-1 of n. *)
Definition ones_count (w : nat) (n : N) : N :=
  fold_right N.add 0 (map (fun i => (n / 2 ^ N.of_nat i) mod 2) (seq 0 w)).

(** The number a w-bit two's complement pattern stands for. *)
Definition twos_complement (w x : N) (z : Z) : Prop :=
  (- 2 ^ (Z.of_N w - 1) <= z < 2 ^ (Z.of_N w - 1))%Z /\
  (z mod 2 ^ Z.of_N w = Z.of_N x)%Z.

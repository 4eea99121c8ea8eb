(** What decimals mean, independently of the code: rational numbers, and
    rounding a quotient to an integer. *)
From Coq Require Import QArith.
From Verif Require Import Base.Lib StrNum.Spec.
Local Open Scope Z_scope.

(** [n] with the decimal point moved [k] places to the left. *)
Definition ratio (n : Z) (k : nat) : Q := Qmake n (Z.to_pos (10 ^ Z.of_nat k)).

(** A signed 64 bit number. *)
Definition fits (z : Z) : Prop := - 2 ^ 63 <= z <= 2 ^ 63 - 1.

(** [x] and [y] are both 64 bit numbers over one power of ten. *)
Definition aligned (x y : Q) (a b : Z) (k : nat) : Prop :=
  fits a /\ fits b /\ (x == ratio a k)%Q /\ (y == ratio b k)%Q.

(** The sign of a comparison. *)
Definition sign_of (c : comparison) : Z := match c with Lt => -1 | Eq => 0 | Gt => 1 end.

(** [q] is [n / m] rounded towards zero; to the nearest integer, ties away from
    zero; to the nearest integer, ties to even. *)
Definition toward_zero (n m q : Z) : Prop := Z.abs (q * m) <= Z.abs n /\ Z.abs (n - q * m) < m.
Definition half_away (n m q : Z) : Prop :=
  2 * Z.abs (n - q * m) <= m /\ (2 * Z.abs (n - q * m) = m -> Z.abs n <= Z.abs (q * m)).
Definition half_even (n m q : Z) : Prop :=
  2 * Z.abs (n - q * m) <= m /\ (2 * Z.abs (n - q * m) = m -> Z.even q = true).

(** The number a decimal text stands for: [sign], digits before the point and
    digits after it, as a fraction over a power of ten. *)
Definition text_ratio (neg : bool) (whole frac : list N) : Q :=
  ratio ((if neg then -1 else 1) * Z.of_N (StrNum.Spec.value 10 (whole ++ frac))) (length frac).

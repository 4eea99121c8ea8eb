(** Quoted-printable, RFC 2045 section 6.7. *)
From Verif Require Import Base.Lib Hex.Spec.
Local Open Scope N_scope.

(** [Quoted t s]: the text [t] stands for the bytes [s] (upper or lower case
    digits). *)
Inductive Quoted : list N -> list N -> Prop :=
| Q_nil : Quoted [] []
| Q_plain c t s : c <> 61 -> Quoted t s -> Quoted (c :: t) (c :: s)
| Q_soft t s : Quoted t s -> Quoted (61 :: 13 :: 10 :: t) s
| Q_hex h1 h2 x y t s : digit_val h1 = Some x -> digit_val h2 = Some y -> Quoted t s ->
    Quoted (61 :: h1 :: h2 :: t) (16 * x + y :: s).

(** What the decoder of the code takes in addition, with at least two characters
    behind the sign: one digit before something else, or white space or a sign
    and one digit. *)
Inductive Loose : list N -> list N -> Prop :=
| L_nil : Loose [] []
| L_plain c t s : c <> 61 -> Loose t s -> Loose (c :: t) (c :: s)
| L_soft t s : Loose t s -> Loose (61 :: 13 :: 10 :: t) s
| L_hex h1 h2 x y t s : digit_val h1 = Some x -> digit_val h2 = Some y -> Loose t s ->
    Loose (61 :: h1 :: h2 :: t) (16 * x + y :: s)
| L_one h1 c x t s : digit_val h1 = Some x -> digit_val c = None -> ~ (h1 = 48 /\ (c = 120 \/ c = 88)) ->
    Loose (c :: t) s -> Loose (61 :: h1 :: c :: t) (x :: s)
| L_blank w h y t s : (9 <= w <= 13 \/ w = 32 \/ w = 43) -> digit_val h = Some y -> Loose t s ->
    Loose (61 :: w :: h :: t) (y :: s)
| L_minus h y t s : digit_val h = Some y -> Loose t s -> Loose (61 :: 45 :: h :: t) ((256 - y) mod 256 :: s).

(** No line of the text is longer than [n]. *)
Definition short_lines (n : nat) (t : list N) : Prop :=
  forall a l b, t = a ++ l ++ b -> ~ In 10 l -> ~ In 13 l -> (length l <= n)%nat.

(** Specifications: occurrences, byte order, polynomial division over GF(2). *)
From Verif Require Import Base.Lib.
Local Open Scope N_scope.

(** [n] occurs in [h] at offset [i]. *)
Definition occurs_at (n h : list N) (i : nat) : Prop := exists x y, h = x ++ n ++ y /\ length x = i.

(** The [k] base-256 digits of a number, least significant first. *)
Fixpoint le_digits (k : nat) (n : N) : list N :=
  match k with O => [] | S k' => n mod 256 :: le_digits k' (n / 256) end.
(** How a machine of the given byte order stores a [k]-byte number. *)
Definition stored (big : bool) (k : nat) (n : N) : list N :=
  if big then rev (le_digits k n) else le_digits k n.

(** Polynomials over GF(2) are lists of coefficients, highest first.  Long
    division by x^w + poly: the register holds the w coefficients of the
    running remainder. *)
Fixpoint xorl (a b : list bool) : list bool :=
  match a, b with x :: a', y :: b' => xorb x y :: xorl a' b' | _, _ => [] end.
Definition divstep (poly : list bool) (reg : list bool) (b : bool) : list bool :=
  match reg with
  | [] => []
  | top :: rest => let r := rest ++ [b] in if top then xorl r poly else r
  end.
Definition divide (poly : list bool) (reg msg : list bool) : list bool := fold_left (divstep poly) msg reg.
Definition zeros (n : nat) : list bool := repeat false n.
Definition poly_rem (poly msg : list bool) : list bool := divide poly (zeros (length poly)) msg.

(** The [w] bits of a number, highest first. *)
Fixpoint bits (w : nat) (n : N) : list bool :=
  match w with O => [] | S w' => N.testbit n (N.of_nat w') :: bits w' n end.
(** The coefficients of a message, each byte highest bit first or lowest bit first. *)
Definition msg_bits (lsb_first : bool) (s : list N) : list bool :=
  concat (map (fun b => if lsb_first then rev (bits 8 b) else bits 8 b) s).
(** The remainder of  msg * x^w + init * x^(8 * length msg). *)
Definition crc_rem (poly init : list bool) (lsb_first : bool) (s : list N) : list bool :=
  poly_rem poly (xorl (msg_bits lsb_first s ++ zeros (length poly)) (init ++ zeros (8 * length s))).

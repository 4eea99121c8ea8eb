(** RFC 4648 base32, independent of the model. *)
From Verif Require Import Base.Lib.
From Verif Require Export Hex.Spec. (* wrap_text *)

Definition b32_char (v : N) : N := (if v <? 26 then 65 + v else 50 + (v - 26))%N.

(** Big-endian value of a byte string. *)
Definition be_val (l : list N) : N := fold_left (fun a x => a * 256 + x)%N l 0%N.

(** Text of one group of 1..5 bytes: the bytes, zero-padded to 5, are a 40-bit
    number written as 8 digits in base 32; digits carrying no data bit are
    replaced by '='. *)
Definition b32_group (g : list N) : list N :=
  let v := be_val (g ++ repeat 0%N (5 - length g)) in
  map (fun j => if Nat.ltb (8 * length g) (5 * j + 1) then 61%N
                else b32_char ((v / 32 ^ N.of_nat (7 - j)) mod 32)) (seq 0 8).

Fixpoint b32_groups (fuel : nat) (b : list N) : list N :=
  match fuel, b with
  | S f, _ :: _ => b32_group (firstn 5 b) ++ b32_groups f (skipn 5 b)
  | _, _ => []
  end.
Definition b32_text (b : list N) : list N := b32_groups (length b) b.

(** [b] followed by zero bytes up to a multiple of five. *)
Definition pad5 (b : list N) : list N := b ++ repeat 0%N ((5 - length b mod 5) mod 5).

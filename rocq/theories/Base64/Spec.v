(** RFC 4648 base64, independent of the model. *)
From Verif Require Import Base.Lib.
From Verif Require Export Hex.Spec. (* wrap_text, is_space *)

(** The character for a 6-bit value. *)
Definition b64_char (v : N) : N :=
  (if v <? 26 then 65 + v
   else if v <? 52 then 97 + (v - 26)
   else if v <? 62 then 48 + (v - 52)
   else if v =? 62 then 43 else 47)%N.

Fixpoint b64_text (b : list N) : list N :=
  match b with
  | [] => []
  | [x] => [b64_char (x / 4); b64_char (x mod 4 * 16); 61; 61]
  | [x; y] => [b64_char (x / 4); b64_char (x mod 4 * 16 + y / 16); b64_char (y mod 16 * 4); 61]
  | x :: y :: z :: b' =>
      b64_char (x / 4) :: b64_char (x mod 4 * 16 + y / 16) ::
      b64_char (y mod 16 * 4 + z / 64) :: b64_char (z mod 64) :: b64_text b'
  end%N.

(** Length of the text: 4 characters per started group of 3 bytes. *)
Definition b64_len (n : nat) : nat := (n + 2) / 3 * 4.

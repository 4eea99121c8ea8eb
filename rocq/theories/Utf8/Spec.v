(** UTF-8 stated from the Unicode standard, independently of the code: code
    points as numbers, their encoding by division. *)
From Verif Require Import Base.Lib.
Local Open Scope N_scope.

(** Unicode scalar values (D76). *)
Definition scalar (cp : N) : Prop := cp <= 0x10FFFF /\ ~ (0xD800 <= cp <= 0xDFFF).

(** The 66 noncharacters (D14): U+FDD0..U+FDEF and the last two code points
    of each of the 17 planes. *)
Definition nonchar (cp : N) : Prop := 0xFDD0 <= cp <= 0xFDEF \/ 0xFFFE <= cp mod 0x10000.

(** UTF-8 encoding form (D92, table 3-6). *)
Definition utf8_enc (cp : N) : list N :=
  if cp <? 0x80 then [cp]
  else if cp <? 0x800 then [0xC0 + cp / 64; 0x80 + cp mod 64]
  else if cp <? 0x10000 then [0xE0 + cp / 4096; 0x80 + cp / 64 mod 64; 0x80 + cp mod 64]
  else [0xF0 + cp / 262144; 0x80 + cp / 4096 mod 64; 0x80 + cp / 64 mod 64; 0x80 + cp mod 64].

(** The text of a sequence of code points. *)
Definition utf8_text (cps : list N) : list N := concat (map utf8_enc cps).

(** What the property list asks the decoder to accept: scalar values that are
    not noncharacters. *)
Definition good_cp (cp : N) : Prop := scalar cp /\ ~ nonchar cp.

(** What the code accepts: the noncharacters of planes 10 to 15 slip through. *)
Definition code_cp (cp : N) : Prop :=
  good_cp cp \/ (0xFFFE <= cp mod 0x10000 /\ 10 <= cp / 0x10000 <= 15).



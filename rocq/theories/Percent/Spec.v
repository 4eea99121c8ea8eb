(** Percent encoding, RFC 3986 section 2.1 and application/x-www-form-urlencoded. *)
From Verif Require Import Base.Lib Hex.Spec Percent.Model.
Local Open Scope N_scope.

(** [Decodes form t s]: the text [t] stands for the bytes [s]; in forms a plus
    sign is a space. *)
Inductive Decodes (form : bool) : list N -> list N -> Prop :=
| D_nil : Decodes form [] []
| D_plus t s : form = true -> Decodes form t s -> Decodes form (43 :: t) (32 :: s)
| D_plain c t s : c < 128 -> c <> 37 -> (form = true -> c <> 43) -> Decodes form t s -> Decodes form (c :: t) (c :: s)
| D_pct h1 h2 x y t s : digit_val h1 = Some x -> digit_val h2 = Some y -> Decodes form t s ->
    Decodes form (37 :: h1 :: h2 :: t) (16 * x + y :: s).

(** RFC 3986 section 2.2: the reserved characters, ! # $ & ' ( ) * + , / : ; = ? @ [ ] *)
Definition rfc_reserved : list N := [33; 35; 36; 38; 39; 40; 41; 42; 43; 44; 47; 58; 59; 61; 63; 64; 91; 93].

(** Characters that may stand in the output: visible ASCII, and the line breaks
    forms keep; for the strict codecs none of the reserved ones except the plus
    sign. *)
Definition safe (k : pcodec) (c : N) : Prop :=
  (33 <= c <= 126 \/ (is_form k = true /\ (c = 13 \/ c = 10))) /\
  ((k = PUrl \/ k = PForm) -> In c rfc_reserved -> c = 43).

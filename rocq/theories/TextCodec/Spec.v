(** Single-byte code pages and their error handling, stated from the published
    tables, independently of the code. *)
From Coq Require Import String Ascii.
From Verif Require Import Base.Lib Utf8.Spec Percent.Model TextCodec.Tables TextCodec.Std.
Local Open Scope N_scope.
Local Open Scope list_scope.

(** The character of byte [b], if it has one. *)
Definition std_char (m : cmap) (b : N) : option N :=
  match nth_error (std_of m) (N.to_nat b) with
  | Some c => if c =? u then None else Some c
  | None => None
  end.

(** [b] is the byte of character [c]. *)
Definition Byte_of (m : cmap) (c b : N) : Prop := b < 256 /\ std_char m b = Some c.

(** Encoding a text.  [Encodes m eh ok cps out]: the outcome of encoding the code
    points [cps] is [out]; [ok] tells whether every character has a byte. *)
Inductive Encodes (m : cmap) (rep : list N) : bool -> list N -> list N -> Prop :=
| Enc_nil : Encodes m rep true [] []
| Enc_chr ok c b cps out : Byte_of m c b -> Encodes m rep ok cps out -> Encodes m rep ok (c :: cps) (b :: out)
| Enc_bad ok c cps out : (forall b, ~ Byte_of m c b) -> Encodes m rep ok cps out -> Encodes m rep false (c :: cps) (rep ++ out).

(** Decoding bytes into UTF-8 text. *)
Inductive Decoded (m : cmap) (rep : list N) : bool -> list N -> list N -> Prop :=
| Dec_nil : Decoded m rep true [] []
| Dec_chr ok b c s out : std_char m b = Some c -> Decoded m rep ok s out -> Decoded m rep ok (b :: s) (utf8_enc c ++ out)
| Dec_bad ok b s out : std_char m b = None -> Decoded m rep ok s out -> Decoded m rep false (b :: s) (rep ++ out).

(** Text repair: valid characters stay; an offending byte with the continuation
    bytes behind it gives one replacement. *)
Definition uchar (c : N) : Prop := code_cp c /\ c <> 0.
Definition cont (b : N) : Prop := 0x80 <= b <= 0xBF.
Inductive Repaired (rep : list N) : list N -> list N -> Prop :=
| Rep_nil : Repaired rep [] []
| Rep_chr c s out : uchar c -> Repaired rep s out -> Repaired rep (utf8_enc c ++ s) (utf8_enc c ++ out)
| Rep_bad b l s out : (forall c r, uchar c -> b :: l ++ s <> utf8_enc c ++ r) ->
    Forall cont l -> (forall x r, s = x :: r -> ~ cont x) ->
    Repaired rep s out -> Repaired rep (b :: l ++ s) (rep ++ out).

(** Valid UTF-8 text. *)
Definition ValidText (s : list N) : Prop := exists cps, Forall uchar cps /\ s = utf8_text cps.

(** The encoding of U+FFFD REPLACEMENT CHARACTER. *)
Definition replacement_text : list N := utf8_enc 0xFFFD.

(** The names of the code pages: ISO 8859 part [n], Latin alphabet [n], Windows
    code page [n]. *)
Definition iso_parts : list (string * cmap) :=
  [("1", Iso1); ("2", Iso2); ("3", Iso3); ("4", Iso4); ("5", Iso5); ("6", Iso6); ("7", Iso7); ("8", Iso8); ("9", Iso9);
   ("10", Iso10); ("11", Iso11); ("13", Iso13); ("14", Iso14); ("15", Iso15); ("16", Iso16)]%string.
Definition iso_prefixes : list string := ["iso-8859-"; "iso8859-"; "iso8859_"; "iso8859"; "8859"]%string.
Definition latin_alphabets : list (string * cmap) :=
  [("1", Iso1); ("2", Iso2); ("3", Iso3); ("4", Iso4); ("5", Iso9); ("6", Iso10); ("7", Iso13); ("8", Iso14); ("9", Iso15);
   ("10", Iso16)]%string.
Definition latin_prefixes : list string := ["latin_"; "latin-"; "latin "; "latin"; "l"]%string.
Definition windows_pages : list (string * cmap) :=
  [("874", Cp874); ("1250", Cp1250); ("1251", Cp1251); ("1252", Cp1252); ("1253", Cp1253); ("1254", Cp1254);
   ("1255", Cp1255); ("1256", Cp1256); ("1257", Cp1257); ("1258", Cp1258)]%string.
Definition windows_prefixes : list string := ["cp"; "windows-"]%string.

(** The bytes of a name. *)
Definition name_bytes (s : string) : list N := map N_of_ascii (list_ascii_of_string s).

(** [n] names the code page [m]. *)
Definition Named (n : list N) (m : cmap) : Prop :=
  exists p x, n = name_bytes (String.append p x) /\
    ((In p iso_prefixes /\ In (x, m) iso_parts) \/ (In p latin_prefixes /\ In (x, m) latin_alphabets)
     \/ (In p windows_prefixes /\ In (x, m) windows_pages)).

(** Model of text/textcodec/m_textcodec.c, m_textcodec_cp_map.c and
    m_textcodec_utf8.c.  An input string is its content without the terminator;
    the output buffer is the list of bytes added to it.  NULL and unknown enum
    arguments are not passed in (validate_params, m_textcodec.c:28-104, is left
    out), and the parser as output (m_textcodec_buffer.c) behaves as the buffer. *)
From Coq Require Import String Ascii.
From Verif Require Import Base.Lib Base.Mem Utf8.Model StrEq.Model Percent.Model Qp.Model Punycode.Model.
From Verif Require Export TextCodec.Tables.
Local Open Scope N_scope.
Local Open Scope list_scope.

(** M_textcodec_codec_t, include/mstdlib/text/m_textcodec.h:103-146 *)
Inductive codec := CUnknown | CUtf8 | CMap (m : cmap) | CPct (k : pcodec) | CPuny | CQp.

(** M_CP_REPLACE and M_UTF8_REPLACE, text/textcodec/m_textcodec_int.h:53-54 *)
Definition cp_replace : list N := [63].
Definition utf8_replace : list N := [0xFF; 0xFD].

(** The hash tables of m_textcodec_cp_map.c:49-53 and 102-106.  A table with
    several values for a key gives the first one inserted
    (M_hashtable_get, base/hash/m_hashtable.c); the table itself is a list here. *)
Definition enc_lookup (tbl : list (N * N)) (ucode : N) : option N := option_map fst (find (fun e => snd e =? ucode) tbl).
Definition dec_lookup (tbl : list (N * N)) (cp : N) : option N := option_map snd (find (fun e => fst e =? cp) tbl).

(** M_textcodec_error_is_error, m_textcodec.c:372-382 *)
Definition is_error (r : tres) : bool := match r with TSuccess | TSuccessEh => false | _ => true end.

(** M_utf8_next_chr (base/utf8/m_utf8.c:250-263) on a pointer that may be NULL;
    M_str_isempty holds of NULL. *)
Definition next_chr_null (p : option (list N)) : res (option (list N)) :=
  match p with None => Ok None | Some s => next_chr s end.

(** M_textcodec_encode_cp_map, m_textcodec_cp_map.c:42-93, from line 55 on.  [None]
    is the NULL pointer. *)
Fixpoint encode_map_loop (fuel : nat) (eh : ehandler) (tbl : list (N * N)) (next : option (list N)) (buf : list N) (r : tres)
  : res (tres * list N) :=
  match fuel with
  | O => Fuel
  | S f =>
    match next with
    | None => UB
    | Some p =>
      do c <- rd p 0;
      if (c =? 0) || is_error r then Ok (r, buf)
      else
      do '(ures, ucode, next) <- get_cp p;
      do next <- (if uerr_ok ures then Ok next else next_chr_null next);
      match (if uerr_ok ures then enc_lookup tbl ucode else None) with
      | Some cp => encode_map_loop f eh tbl next (buf ++ [cp mod 256]) r
      | None =>
        match eh with
        | EFail => encode_map_loop f eh tbl next buf TFail
        | EReplace => encode_map_loop f eh tbl next (buf ++ cp_replace) TSuccessEh
        | EIgnore => encode_map_loop f eh tbl next buf TSuccessEh
        end
      end
    end
  end.
Definition encode_map (eh : ehandler) (tbl : list (N * N)) (s : list N) : res (tres * list N) :=
  encode_map_loop (S (S (length s))) eh tbl (Some (s ++ [0])) [] TSuccess.

(** M_textcodec_decode_cp_map, m_textcodec_cp_map.c:95-145, from line 108 on.  The
    16 bytes of [ubuf] are taken to be zero at first. *)
Fixpoint decode_map_loop (eh : ehandler) (tbl : list (N * N)) (s buf : list N) (r : tres) : res (tres * list N) :=
  match s with
  | [] => Ok (r, buf)
  | c :: s' =>
    do text <-
      match dec_lookup tbl c with
      | None => Ok None
      | Some u64v =>
        do '(ures, ubuf, ulen) <- from_cp (repeat 0 16) 16 (u64v mod 2 ^ 32);
        if uerr_ok ures then Ok (Some (firstn (match ulen with Some n => n | None => 0%nat end) ubuf)) else Ok None
      end;
    match text with
    | Some t => decode_map_loop eh tbl s' (buf ++ t) r
    | None =>
      match eh with
      | EFail => Ok (TFail, buf)
      | EReplace => decode_map_loop eh tbl s' (buf ++ utf8_replace) TSuccessEh
      | EIgnore => decode_map_loop eh tbl s' buf TSuccessEh
      end
    end
  end.
Definition decode_map (eh : ehandler) (tbl : list (N * N)) (s : list N) : res (tres * list N) :=
  decode_map_loop eh tbl s [] TSuccess.

(** M_textcodec_utf8_to_utf8, m_textcodec_utf8.c:43-71 with the handlers FAIL and
    REPLACE.  A pointer into the text is the rest of the text from there on. *)
Fixpoint utf8_loop (fuel : nat) (fail is_encode : bool) (p buf : list N) (r : tres) : res (tres * list N) :=
  match fuel with
  | O => Fuel
  | S f =>
    do c <- rd p 0;
    if c =? 0 then Ok (r, buf)
    else
    do '(valid, endptr) <- utf8_is_valid p;
    match endptr with
    | None => UB
    | Some e =>
      let run := firstn (length p - length e) p in
      if valid then utf8_loop f fail is_encode e (buf ++ run) r
      else if fail then Ok (TFail, buf)
      else
      do e' <- next_chr e;
      match e' with
      | None => UB
      | Some e' => utf8_loop f fail is_encode e' (buf ++ run ++ (if is_encode then cp_replace else utf8_replace)) TSuccessEh
      end
    end
  end.
(** m_textcodec_utf8.c:29-72 *)
Definition utf8_to_utf8 (eh : ehandler) (is_encode : bool) (s : list N) : res (tres * list N) :=
  match eh with
  | EIgnore => do '(v, _) <- utf8_is_valid (s ++ [0]); Ok (if v then TSuccess else TSuccessEh, s)
  | EFail => utf8_loop (S (S (length s))) true is_encode (s ++ [0]) [] TSuccess
  | EReplace => utf8_loop (S (S (length s))) false is_encode (s ++ [0]) [] TSuccess
  end.

(** The outcome of the Punycode functions as a pair. *)
Definition of_pres (p : pres) : tres * list N :=
  match p with PSuccess out => (TSuccess, out) | PFail => (TFail, []) | PBadInput => (TBadInput, []) end.

(** M_textcodec_encode_int, m_textcodec.c:106-195.  [sg] tells whether [char] is
    signed. *)
Definition encode_codec (sg : bool) (eh : ehandler) (k : codec) (s : list N) : res (tres * list N) :=
  match s with
  | [] => Ok (TSuccess, [])
  | _ =>
    match k with
    | CUtf8 => utf8_to_utf8 eh true s
    | _ =>
      do '(v, _) <- utf8_is_valid (s ++ [0]);
      if negb v && match eh with EFail => true | _ => false end then Ok (TBadInput, [])
      else
      match k with
      | CUnknown => Ok (TSuccess, s)
      | CUtf8 => Ok (TFail, [])
      | CMap m => encode_map eh (map_of m) s
      | CPct p => encode_percent p eh s
      | CPuny => do p <- puny_encode s; Ok (of_pres p)
      | CQp => do t <- qp_encode sg s; Ok (TSuccess, t)
      end
    end
  end.

(** M_textcodec_decode_int, m_textcodec.c:197-280 *)
Definition decode_codec (eh : ehandler) (k : codec) (s : list N) : res (tres * list N) :=
  match s with
  | [] => Ok (TSuccess, [])
  | _ =>
    match k with
    | CUtf8 => utf8_to_utf8 eh false s
    | CUnknown => Ok (TFail, [])
    | CMap m => decode_map eh (map_of m) s
    | CPct p => decode_percent p eh s
    | CPuny => do p <- puny_decode s; Ok (of_pres p)
    | CQp => qp_decode eh s
    end
  end.

(** M_textcodec_encode and M_textcodec_decode, m_textcodec.c:284-302, 328-346: the
    result and [*out].  M_buf_finish_str (base/data/m_buf.c:78-106) gives NULL for a
    buffer nothing was added to. *)
Definition finish (x : tres * list N) : tres * option (list N) :=
  let '(r, out) := x in (r, if is_error r then None else match out with [] => None | _ => Some out end).
Definition textcodec_encode sg eh k s := do x <- encode_codec sg eh k s; Ok (finish x).
Definition textcodec_decode eh k s := do x <- decode_codec eh k s; Ok (finish x).

Definition bs (s : string) : list N := map N_of_ascii (list_ascii_of_string s).

(** The comparisons of M_textcodec_codec_from_str, m_textcodec.c:389-656, in
    order. *)
Definition from_table : list (list string * codec) :=
  [(["utf8"; "utf-8"; "utf_8"], CUtf8);
   (["ascii"; "us-ascii"], CMap Asc);
   (["cp037"; "ibm037"; "ibm-037"; "ibm039"; "ibm-039"], CMap Cp037);
   (["cp500"; "ibm500"; "ibm-500"; "ebcdic-cp-be"; "ebcdic-cp-ch"], CMap Cp500);
   (["cp874"; "windows-874"], CMap Cp874);
   (["cp1250"; "windows-1250"], CMap Cp1250);
   (["cp1251"; "windows-1251"], CMap Cp1251);
   (["cp1252"; "windows-1252"], CMap Cp1252);
   (["cp1253"; "windows-1253"], CMap Cp1253);
   (["cp1254"; "windows-1254"], CMap Cp1254);
   (["cp1255"; "windows-1255"], CMap Cp1255);
   (["cp1256"; "windows-1256"], CMap Cp1256);
   (["cp1257"; "windows-1257"], CMap Cp1257);
   (["cp1258"; "windows-1258"], CMap Cp1258);
   (["latin_1"; "latin-1"; "latin1"; "latin 1"; "latin"; "l1"; "iso-8859-1"; "iso8859-1"; "iso8859_1"; "iso88591"; "8859"; "88591"; "cp819"], CMap Iso1);
   (["latin_2"; "latin-2"; "latin2"; "latin 2"; "l2"; "iso-8859-2"; "iso8859-2"; "iso8859_2"; "iso88592"; "88592"], CMap Iso2);
   (["latin_3"; "latin-3"; "latin3"; "latin 3"; "l3"; "iso-8859-3"; "iso8859-3"; "iso8859_3"; "iso88593"; "88593"], CMap Iso3);
   (["latin_4"; "latin-4"; "latin4"; "latin 4"; "l4"; "iso-8859-4"; "iso8859-4"; "iso8859_4"; "iso88594"; "88594"], CMap Iso4);
   (["cyrillic"; "iso-8859-5"; "iso8859-5"; "iso8859_5"; "iso88595"; "88595"], CMap Iso5);
   (["arabic"; "iso-8859-6"; "iso8859-6"; "iso8859_6"; "iso88596"; "88596"], CMap Iso6);
   (["greek"; "greek8"; "iso-8859-7"; "iso8859-7"; "iso8859_7"; "iso88597"; "88597"], CMap Iso7);
   (["hebrew"; "iso-8859-8"; "iso8859-8"; "iso8859_8"; "iso88598"; "88598"], CMap Iso8);
   (["latin_5"; "latin-5"; "latin5"; "latin 5"; "l5"; "iso-8859-9"; "iso8859-9"; "iso8859_9"; "iso88599"; "88599"], CMap Iso9);
   (["latin_6"; "latin-6"; "latin6"; "latin 6"; "l6"; "iso-8859-10"; "iso8859-10"; "iso8859_10"; "iso885910"; "885910"], CMap Iso10);
   (["thai"; "iso-8859-11"; "iso8859-11"; "iso8859_11"; "iso885911"; "885911"], CMap Iso11);
   (["latin_7"; "latin-7"; "latin7"; "latin 7"; "l7"; "iso-8859-13"; "iso8859-13"; "iso8859_13"; "iso885913"; "885913"], CMap Iso13);
   (["latin_8"; "latin-8"; "latin8"; "latin 8"; "l8"; "iso-8859-14"; "iso8859-14"; "iso8859_14"; "iso885914"; "885914"], CMap Iso14);
   (["latin_9"; "latin-9"; "latin9"; "latin 9"; "l9"; "iso-8859-15"; "iso8859-15"; "iso8859_15"; "iso885915"; "885915"], CMap Iso15);
   (["latin_10"; "latin-10"; "latin10"; "latin 10"; "l10"; "iso-8859-16"; "iso8859-16"; "iso8859_17"; "iso885916"; "885916"], CMap Iso16);
   (["percent"; "url"], CPct PUrl);
   (["application/x-www-form-urlencoded"; "x-www-form-urlencoded"; "www-form-urlencoded"; "form-urlencoded"; "percent_plus"; "url_plus"; "percent-plus"; "url-plus"; "percentplus"; "urlplus"], CPct PForm);
   (["percent_min"; "url_min"], CPct PUrlMin);
   (["form_min"; "form-urlencoded-min"], CPct PFormMin);
   (["punycode"; "puny"], CPuny);
   (["quoted-printable"; "qp"], CQp)]%string.

(** m_textcodec.c:384-659 *)
Fixpoint match_any (s : list N) (names : list string) : res bool :=
  match names with
  | [] => Ok false
  | n :: names' =>
    do '(b, _) <- str_caseeq (Some (s ++ [0])) (Some (bs n ++ [0]));
    if b then Ok true else match_any s names'
  end.
Fixpoint from_str_loop (s : list N) (tbl : list (list string * codec)) : res codec :=
  match tbl with
  | [] => Ok CUnknown
  | (names, k) :: tbl' => do b <- match_any s names; if b then Ok k else from_str_loop s tbl'
  end.
Definition codec_from_str (s : list N) : res codec :=
  match s with [] => Ok CUnknown | _ => from_str_loop s from_table end.

(** M_textcodec_codec_to_str, m_textcodec.c:661-739 *)
Definition codec_to_str (k : codec) : list N :=
  bs (match k with
  | CUnknown => "unknown"
  | CUtf8 => "utf-8"
  | CMap m =>
    match m with
    | Asc => "ascii" | Cp037 => "cp037" | Cp500 => "cp500" | Cp874 => "cp874"
    | Cp1250 => "cp1250" | Cp1251 => "cp1251" | Cp1252 => "cp1252" | Cp1253 => "cp1253" | Cp1254 => "cp1254"
    | Cp1255 => "cp1255" | Cp1256 => "cp1256" | Cp1257 => "cp1257" | Cp1258 => "cp1258"
    | Iso1 => "latin_1" | Iso2 => "latin_2" | Iso3 => "latin_3" | Iso4 => "latin_4"
    | Iso5 => "cyrillic" | Iso6 => "arabic" | Iso7 => "greek" | Iso8 => "hebrew"
    | Iso9 => "latin_5" | Iso10 => "latin_6" | Iso11 => "thai" | Iso13 => "latin_7" | Iso14 => "latin_8"
    | Iso15 => "latin_9" | Iso16 => "latin_10"
    end
  | CPct PUrl => "percent"
  | CPct PForm => "application/x-www-form-urlencoded"
  | CPct PUrlMin => "percent_min"
  | CPct PFormMin => "form_min"
  | CPuny => "punycode"
  | CQp => "quoted-printable"
  end)%string.

(** Model of text/textcodec/m_textcodec_percent.c.  The input string is its
    content without the terminator; the output buffer is the list of bytes added
    to it.  Both functions are only called with a non-empty string
    (text/textcodec/m_textcodec.c:120, 211).  The UTF-8 check of
    M_textcodec_encode_int (m_textcodec.c:127) is not part of this model. *)
From Verif Require Import Base.Lib Hex.Model.
Local Open Scope N_scope.

(** include/mstdlib/text/m_textcodec.h: the error handlers, the four codecs and
    the result codes used here. *)
Inductive ehandler := EFail | EReplace | EIgnore.
Inductive pcodec := PUrl | PForm | PUrlMin | PFormMin.
Inductive tres := TSuccess | TSuccessEh | TFail | TBadInput.

Definition is_form (k : pcodec) : bool := match k with PForm | PFormMin => true | _ => false end.

(** Lines 28-39: ! * ' ( ) ; : @ & = $ , / ? # [ ] *)
Definition reserved : list N := [33; 42; 39; 40; 41; 59; 58; 64; 38; 61; 36; 44; 47; 63; 35; 91; 93].
Definition is_percent_reserved (c : N) : bool := existsb (fun r => c =? r) reserved.

(** Lines 54-87.  [char] is signed or not: bytes above 127 satisfy [c < 0x21] or
    [c > 0x7E]. *)
Definition must_process (k : pcodec) (c : N) : bool :=
  let process :=
    if (c <? 33) || (126 <? c) || (c =? 37) then true
    else
    match k with
    | PUrl => is_percent_reserved c
    | PUrlMin => false
    | PForm => is_percent_reserved c || ((c =? 43) || (c =? 126))
    | PFormMin => (c =? 43) || (c =? 126)
    end in
  if is_form k && ((c =? 13) || (c =? 10)) then false else process.

(** Lines 48-130 for one character: what is added, and the status. *)
Definition encode_one (k : pcodec) (eh : ehandler) (c : N) : res (list N * tres) :=
  if negb (must_process k c) then Ok ([c], TSuccess)
  else if c =? 32 then Ok (if is_form k then [43] else [37; 50; 48], TSuccess)
  else
  do '(num, hex) <- hex_encode [c] [0; 0; 0; 0] 0;
  if (num =? 0)%nat then
    match eh with
    | EFail => Ok ([], TFail)
    | EReplace => Ok ([63], TSuccessEh)
    | EIgnore => Ok ([], TSuccessEh)
    end
  else Ok (37 :: firstn num hex, TSuccess).

(** M_textcodec_encode_percent, lines 41-133 *)
Fixpoint encode_loop (k : pcodec) (eh : ehandler) (s buf : list N) (r : tres) : res (tres * list N) :=
  match s with
  | [] => Ok (r, buf)
  | c :: s' =>
    do '(out, t) <- encode_one k eh c;
    match t with
    | TFail | TBadInput => Ok (t, buf ++ out)
    | TSuccess => encode_loop k eh s' (buf ++ out) r
    | TSuccessEh => encode_loop k eh s' (buf ++ out) TSuccessEh
    end
  end.
Definition encode_percent (k : pcodec) (eh : ehandler) (s : list N) : res (tres * list N) := encode_loop k eh s [] TSuccess.

(** M_textcodec_decode_percent, lines 135-200; the parser is the rest of the
    input. *)
Fixpoint decode_loop (k : pcodec) (eh : ehandler) (s buf : list N) (r : tres) : res (tres * list N) :=
  match s with
  | [] => Ok (r, buf)
  | byte :: s' =>
    if (byte =? 43) && is_form k then decode_loop k eh s' (buf ++ [32]) r
    else if negb (byte =? 37) then decode_loop k eh s' (buf ++ [byte]) r
    else
    match s' with
    | h1 :: h2 :: s'' =>
      do '(num, dec) <- hex_decode [h1; h2] [0; 0; 0; 0];
      if (num =? 0)%nat then
        match eh with
        | EFail => Ok (TFail, buf)
        | EReplace => decode_loop k eh s'' (buf ++ [255; 253]) TSuccessEh
        | EIgnore => decode_loop k eh s'' buf TSuccessEh
        end
      else decode_loop k eh s'' (buf ++ firstn 1 dec) r
    | _ =>
      match eh with
      | EFail => Ok (TFail, buf)
      | EReplace => Ok (TSuccessEh, buf ++ [255; 253])
      | EIgnore => decode_loop k eh s' buf TSuccessEh
      end
    end
  end.
Definition decode_percent (k : pcodec) (eh : ehandler) (s : list N) : res (tres * list N) :=
  match eh with
  | EFail => if negb (forallb (fun c => c <? 128) s) then Ok (TBadInput, []) else decode_loop k eh s [] TSuccess
  | _ => decode_loop k eh s [] TSuccess
  end.

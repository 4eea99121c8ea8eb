(** Model of text/textcodec/m_textcodec_quoted_printable.c.  The input string is
    its content without the terminator; the output buffer is the list of bytes
    added to it.  Both functions are only called with a non-empty string
    (text/textcodec/m_textcodec.c:120, 211). *)
From Verif Require Import Base.Lib StrNum.Model Percent.Model.
Local Open Scope N_scope.

(** The literal "0123456789ABCDEF" with its terminator. *)
Definition hexdigits : list N := [48; 49; 50; 51; 52; 53; 54; 55; 56; 57; 65; 66; 67; 68; 69; 70; 0].

(** A [char] with the bits [c]: negative from 128 on where [char] is signed
    ([sg]). *)
Definition char_val (sg : bool) (c : N) : Z := if sg && (128 <=? c) then (Z.of_N c - 256)%Z else Z.of_N c.

(** ["0123456789ABCDEF"[i]] for the signed index [i] *)
Definition digit_at (i : Z) : res N := if (i <? 0)%Z then UB else rd hexdigits (Z.to_nat i).

(** Line 43 *)
Definition escapes (v : Z) : bool :=
  (negb (v =? 9) && negb (v =? 13) && negb (v =? 10) && ((v <? 32) || (v =? 61) || (126 <? v)))%Z.

(** M_textcodec_encode_quoted_printable, lines 28-66.  The shift of line 45 on a
    negative value is taken to be arithmetic. *)
Fixpoint qp_encode_loop (sg : bool) (s : list N) (cnt : nat) (buf : list N) : res (list N) :=
  match s with
  | [] => Ok buf
  | c :: s' =>
    let v := char_val sg c in
    do '(buf, cnt) <-
      (if escapes v then
         do d1 <- digit_at (Z.shiftr v 4);
         do d2 <- digit_at (Z.land v 15);
         Ok (buf ++ [61; d1; d2], (cnt + 3)%nat)
       else Ok (buf ++ [c], (cnt + 1)%nat));
    let cnt := if (v =? 10)%Z then 0%nat else cnt in
    if (72 <? cnt)%nat then qp_encode_loop sg s' 0 (buf ++ [61; 13; 10])
    else qp_encode_loop sg s' cnt buf
  end.
Definition qp_encode (sg : bool) (s : list N) : res (list N) := qp_encode_loop sg s 0 [].

(** Where M_parser_consume_until (line 84) stops, if it finds the sign. *)
Fixpoint index_eq (s : list N) : option nat :=
  match s with
  | [] => None
  | c :: s' => if c =? 61 then Some O else option_map S (index_eq s')
  end.

(** M_textcodec_decode_quoted_printable, lines 68-154, from the test of line 146
    on.  Line 149 puts what is left into the buffer; the byte after the input is
    its terminator. *)
Fixpoint qp_decode_loop (fuel : nat) (eh : ehandler) (s buf : list N) (r : tres) : res (tres * list N) :=
  match fuel with
  | O => Fuel
  | S f =>
    match s with
    | [] => Ok (r, buf)
    | _ =>
      match index_eq s with
      | None => Ok (r, buf ++ s)
      | Some len =>
        let buf := buf ++ firstn len s in
        let s := skipn (S len) s in
        match s with
        | c1 :: c2 :: s' =>
          if (c1 =? 13) && (c2 =? 10) then qp_decode_loop f eh s' buf r
          else
          do '(rv, v, p) <- to_int64_ex (s ++ [0]) 2 16 0;
          match rv, p with
          | ISuccess, Some p => qp_decode_loop f eh (skipn (length s + 1 - length p) s) (buf ++ [Z.to_N (v mod 256)]) r
          | _, _ =>
            match eh with
            | EFail => Ok (TFail, buf)
            | EReplace => qp_decode_loop f eh s (buf ++ [255; 253]) TSuccessEh
            | EIgnore => qp_decode_loop f eh s buf TSuccessEh
            end
          end
        | _ =>
          match eh with
          | EFail => Ok (TFail, buf)
          | EReplace => Ok (TSuccessEh, buf ++ [255; 253] ++ s)
          | EIgnore => Ok (TSuccessEh, buf ++ s)
          end
        end
      end
    end
  end.
Definition qp_decode (eh : ehandler) (s : list N) : res (tres * list N) := qp_decode_loop (S (length s)) eh s [] TSuccess.

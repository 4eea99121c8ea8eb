(** Model of the formatted output functions, base/data/m_str_fmt.c.

    The format is read with M_parser over constant data (property C25); here it is the
    list of the bytes not yet read.  Lengths that come from the format are 64 bit numbers;
    the number of bytes written is not bounded (the code keeps it in a ssize_t).  LP64:
    int has 32 bits, long, long long, size_t and pointers have 64.

    Digits of a floating point number come from an uninterpreted function: lines 479-520
    (arithmetic on double) are not modelled. *)
From Verif Require Import Base.Lib Base.Mem.
Local Open Scope N_scope.

(** What the caller passed after the format.  Numbers are given by their bit pattern; a
    string by the memory from the pointer on, [None] for NULL.  A floating point number
    has a sign and, for every precision, a text (digits, or inf or nan). *)
Inductive arg :=
| AInt (bits : N) | ALong (bits : N) | APtr (p : N) | AStr (m : option (list N)) | ADbl (neg : bool) (text : nat -> list N).
(** va_arg with the type expected; anything else is undefined. *)
Definition va_int (ap : list arg) : res (N * list arg) := match ap with AInt b :: ap' => Ok (b, ap') | _ => UB end.
Definition va_long (ap : list arg) : res (N * list arg) := match ap with ALong b :: ap' => Ok (b, ap') | _ => UB end.
Definition va_ptr (ap : list arg) : res (N * list arg) := match ap with APtr b :: ap' => Ok (b, ap') | _ => UB end.
Definition va_str (ap : list arg) : res (option (list N) * list arg) := match ap with AStr m :: ap' => Ok (m, ap') | _ => UB end.
Definition va_dbl (ap : list arg) : res (bool * (nat -> list N) * list arg) := match ap with ADbl b t :: ap' => Ok (b, t, ap') | _ => UB end.
(** A bit pattern of [w] bits as a signed number, and its low bits. *)
Definition sgnd (w b : N) : Z := if b <? 2 ^ (w - 1) then Z.of_N b else (Z.of_N b - Z.of_N (2 ^ w))%Z.

Inductive dtype := TInt | TShort | TChar | TLong | TLongLong | TSizet.
Inductive stype := SNeg | SNegPos | SPosSpace.

(** M_str_fmt_get_signed_integer, lines 533-565 *)
Definition get_signed (t : dtype) (ap : list arg) : res (Z * list arg) :=
  match t with
  | TInt => do ' (b, ap) <- va_int ap; Ok (sgnd 32 b, ap)
  | TShort => do ' (b, ap) <- va_int ap; Ok (sgnd 16 (b mod 2 ^ 16), ap)
  | TChar => do ' (b, ap) <- va_int ap; Ok (sgnd 8 (b mod 2 ^ 8), ap)
  | TLong | TLongLong | TSizet => do ' (b, ap) <- va_long ap; Ok (sgnd 64 b, ap)
  end.
(** M_str_fmt_get_unsigned_integer, lines 567-599 *)
Definition get_unsigned (t : dtype) (ap : list arg) : res (N * list arg) :=
  match t with
  | TInt => va_int ap
  | TShort => do ' (b, ap) <- va_int ap; Ok (b mod 2 ^ 16, ap)
  | TChar => do ' (b, ap) <- va_int ap; Ok (b mod 2 ^ 8, ap)
  | TLong | TLongLong | TSizet => va_long ap
  end.

(** ** Numbers to digits *)

(** M_str_fmt_reverse_bytes, lines 95-110: [i] counts down *)
Fixpoint reverse_loop (bytes : list N) (i len : nat) : res (list N) :=
  match i with
  | O => Ok bytes
  | S i' =>
    do b <- rd bytes i';
    do c <- rd bytes (len - i');
    do bytes <- wr bytes i' c;
    do bytes <- wr bytes (len - i') b;
    reverse_loop bytes i' len
  end.
Definition reverse_bytes (bytes : list N) (len : nat) : res (list N) :=
  if (len =? 0)%nat then Ok bytes else reverse_loop bytes (len / 2) (len - 1).
(** base_chars[d], lines 123-127 *)
Definition base_char (upper : bool) (d : N) : N := if d <? 10 then 48 + d else if upper then 55 + d else 87 + d.
(** The loop of lines 130-134; [len] is sizeof(bytes) *)
Fixpoint digit_loop (fuel : nat) (val base : N) (upper : bool) (bytes : list N) (i len : nat) : res (list N * nat) :=
  match fuel with
  | O => Fuel
  | S f =>
    do bytes <- wr bytes i (base_char upper (val mod base));
    let val := val / base in
    if (0 <? val) && (S i <? len - 1)%nat then digit_loop f val base upper bytes (S i) len else Ok (bytes, S i)
  end.
(** M_str_fmt_integer_to_str, lines 112-140, with a valid base *)
Definition integer_to_str (val base : N) (upper : bool) (bytes : list N) : res (list N) :=
  let len := length bytes in
  let bytes := repeat 0 len in
  do ' (bytes, i) <- digit_loop len val base upper bytes 0 len;
  reverse_bytes bytes i.

(** ** Output *)
Section Engine.
Variable S : Type.
(** M_str_fmt_add_bytes for a number of bytes other than 0; the result is its ssize_t *)
Variable add : S -> list N -> res (S * Z).

(** Lines 219-220 *)
Definition add_bytes (s : S) (b : list N) : res (S * Z) :=
  match b with [] => Ok (s, 0%Z) | _ => add s b end.
(** M_str_fmt_add_byte, lines 280-283 *)
Definition add_byte (s : S) (b : N) : res (S * Z) := add_bytes s [b].
(** M_str_fmt_add_fill, lines 285-296; [n] rounds are left of [len] *)
Fixpoint fill_loop (s : S) (b : N) (n : nat) (len : Z) : res (S * Z) :=
  match n with
  | O => Ok (s, len)
  | Datatypes.S n' => do ' (s, r) <- add_byte s b; if (r =? 1)%Z then fill_loop s b n' len else Ok (s, (-1)%Z)
  end.
Definition add_fill (s : S) (b : N) (len : N) : res (S * Z) := fill_loop s b (N.to_nat len) (Z.of_N len).
(** "<NULL>", line 301 *)
Definition null_text : list N := [60; 78; 85; 76; 76; 62].
(** M_str_fmt_add_bytes_just, lines 298-328 *)
Definition add_bytes_just (s : S) (bytes : option (list N)) (pad_char pad_len : N) (ljust : bool) : res (S * Z) :=
  let bytes := match bytes with Some b => b | None => null_text end in
  let len := N.of_nat (length bytes) in
  let pad_len := if pad_len <=? len then 0 else pad_len - len in
  do ' (s, r) <- (if (0 <? pad_len) && negb ljust then add_fill s pad_char pad_len else Ok (s, Z.of_N pad_len));
  if negb (r =? Z.of_N pad_len)%Z then Ok (s, (-1)%Z)
  else
  do ' (s, r) <- add_bytes s bytes;
  if negb (r =? Z.of_N len)%Z then Ok (s, (-1)%Z)
  else
  do ' (s, r) <- (if (0 <? pad_len) && ljust then add_fill s pad_char pad_len else Ok (s, Z.of_N pad_len));
  if negb (r =? Z.of_N pad_len)%Z then Ok (s, (-1)%Z)
  else Ok (s, Z.of_N (len + pad_len)).

(** M_str_fmt_add_sign, lines 333-363: the array of digits and the padding may change *)
Definition add_sign (s : S) (bytes : list N) (data_len : nat) (pos : bool) (st : stype) (pad_char pad_len : N)
  : res (S * Z * list N * N) :=
  if pos && match st with SNeg => true | _ => false end then Ok (s, 0%Z, bytes, pad_len)
  else
  let sign := match st with SNeg => 45 | SNegPos => if pos then 43 else 45 | SPosSpace => if pos then 32 else 45 end in
  if pad_char =? 48 then
    do ' (s, r) <- add_byte s sign;
    Ok (s, r, bytes, pad_len - N.min pad_len 1)
  else
    do bytes <- mmove bytes 1 0 (data_len + 1);
    do bytes <- wr bytes 0 sign;
    Ok (s, 0%Z, bytes, pad_len).

(** M_str_fmt_add_prefix, lines 368-400 *)
Definition add_prefix (s : S) (bytes : list N) (data_len : nat) (base : N) (upper : bool) (pad_char pad_len : N)
  : res (S * Z * list N * N) :=
  do b0 <- rd bytes 0;
  let prefix := if base =? 8 then (if b0 =? 48 then [] else [48])
                else if base =? 16 then (if upper then [48; 88] else [48; 120]) else [] in
  match prefix with
  | [] => Ok (s, 0%Z, bytes, pad_len)
  | _ =>
    let len := length prefix in
    if pad_char =? 48 then
      do ' (s, r) <- add_bytes_just s (Some prefix) 0 0 false;
      Ok (s, r, bytes, pad_len - N.min pad_len (N.of_nat len))
    else
      do bytes <- mmove bytes len 0 (data_len + 1);
      do bytes <- wrn bytes 0 prefix;
      Ok (s, 0%Z, bytes, pad_len)
  end.

(** The string in an array *)
Definition text_of (bytes : list N) : res (list N) := do n <- strlen bytes; rdn bytes 0 n.

(** M_str_fmt_add_integer_just, lines 402-426 *)
Definition add_integer_just (s : S) (val base : N) (pos : bool) (st : stype) (prefix upper : bool) (pad_char pad_len : N) (ljust : bool)
  : res (S * Z) :=
  let bytes := repeat 0 32 in
  do bytes <- integer_to_str val base upper bytes;
  do n <- strlen bytes;
  do ' (s, o1, bytes, pad_len) <- add_sign s bytes n pos st pad_char pad_len;
  do n <- strlen bytes;
  do ' (s, o2, bytes, pad_len) <- (if prefix then add_prefix s bytes n base upper pad_char pad_len else Ok (s, 0%Z, bytes, pad_len));
  do t <- text_of bytes;
  do ' (s, o3) <- add_bytes_just s (Some t) pad_char pad_len ljust;
  Ok (s, (o1 + o2 + o3)%Z).

(** M_str_fmt_add_double_just, lines 428-527, from line 522 on: [text] are the digits
    found in [bytes] *)
Definition add_double_just (s : S) (neg : bool) (text : nat -> list N) (st : stype) (prec : N) (pad_char pad_len : N) (ljust : bool)
  : res (S * Z) :=
  let prec := N.to_nat (if 100 <? prec then 100 else prec) in
  do bytes <- wrn (repeat 0 512) 0 (text prec);
  do n <- strlen bytes;
  do ' (s, o1, bytes, pad_len) <- add_sign s bytes n (negb neg) st pad_char pad_len;
  do t <- text_of bytes;
  do ' (s, o3) <- add_bytes_just s (Some t) pad_char pad_len ljust;
  Ok (s, (o1 + o3)%Z).

(** ** Control sequences *)
Record flags := mkf { f_prefix : bool; f_ljust : bool; f_sign : stype; f_pad : N }.
Definition chk (c : N) (fmt : list N) : bool * list N :=
  match fmt with b :: fmt' => if b =? c then (true, fmt') else (false, fmt) | [] => (false, []) end.
(** One round of lines 682-705 *)
Definition flag_round (f : flags) (fmt : list N) : flags * list N :=
  let (r, fmt) := chk 45 fmt in
  let f := if r then mkf (f_prefix f) true (f_sign f) 32 else f in
  let (r, fmt) := chk 43 fmt in
  let f := if r then mkf (f_prefix f) (f_ljust f) SNegPos (f_pad f) else f in
  let (r, fmt) := chk 32 fmt in
  let f := if r && match f_sign f with SNegPos => false | _ => true end then mkf (f_prefix f) (f_ljust f) SPosSpace (f_pad f) else f in
  let (r, fmt) := chk 35 fmt in
  let f := if r then mkf true (f_ljust f) (f_sign f) (f_pad f) else f in
  let (r, fmt) := chk 48 fmt in
  let f := if r && negb (f_ljust f) then mkf (f_prefix f) (f_ljust f) (f_sign f) 48 else f in
  (f, fmt).
Definition is_flag (b : N) : bool := (b =? 45) || (b =? 43) || (b =? 35) || (b =? 48) || (b =? 32).
(** Lines 681-706 *)
Fixpoint flag_loop (fuel : nat) (f : flags) (fmt : list N) : res (flags * list N) :=
  match fuel with
  | O => Fuel
  | Datatypes.S n =>
    match fmt with
    | b :: _ => if is_flag b then let (f, fmt) := flag_round f fmt in flag_loop n f fmt else Ok (f, fmt)
    | [] => Ok (f, fmt)
    end
  end.

(** What comes of one control sequence: the sink, the length, and what is left. *)
Definition outcome := (S * Z * list N * list arg)%type.
(** Lines 888-894; [n] is start_len - M_parser_len(parser) *)
Definition parse_error (s : S) (n : N) (fmt : list N) (ap : list arg) : res outcome :=
  do ' (s, r) <- add_byte s 37;
  if (r =? -1)%Z then Ok (s, (-1)%Z, fmt, ap)
  else do ' (s, r2) <- add_fill s 63 n; Ok (s, (r + r2)%Z, fmt, ap).
(** Lines 900-904: a length of -2 is taken for the end of the format *)
Definition fin (start_len : nat) (r : res (S * Z)) (fmt : list N) (ap : list arg) : res outcome :=
  do ' (s, z) <- r;
  if (z =? -2)%Z then parse_error s (N.of_nat (start_len - length fmt)) fmt ap else Ok (s, z, fmt, ap).

Definition isdig (b : N) : bool := (48 <=? b) && (b <=? 57).
Definition mul10 (n b : N) : N := (n * 10 + (b - 48)) mod 2 ^ 64.
Definition uabs (z : Z) : N := Z.to_N (Z.abs z).

Section Control.
Variable start_len : nat.
Variable f : flags.
(** The loop of lines 708-896 with the state have_len, pad_len, input_len and data_type *)
Fixpoint conv_loop (s : S) (fmt : list N) (ap : list arg) (have : bool) (pad inp : N) (t : dtype) {struct fmt} : res outcome :=
  let err (fmt' : list N) (ap : list arg) := parse_error s (N.of_nat (start_len - length fmt')) fmt' ap in
  let intj (fmt' : list N) (v base : N) (pos : bool) (st : stype) (pre up : bool) (ap : list arg) :=
    fin start_len (add_integer_just s v base pos st pre up (f_pad f) pad (f_ljust f)) fmt' ap in
  match fmt with
  | [] => err [] ap
  | b :: fmt' =>
    if b =? 46 then (if have then err fmt' ap else conv_loop s fmt' ap true pad inp t)
    else if isdig b then
      (if have then conv_loop s fmt' ap have pad (mul10 inp b) t else conv_loop s fmt' ap have (mul10 pad b) inp t)
    else if b =? 42 then
      do ' (v, ap) <- va_int ap;
      let v := sgnd 32 v in
      if have then conv_loop s fmt' ap have pad (if (0 <? v)%Z then Z.to_N v else inp) t
      else conv_loop s fmt' ap have (if (0 <? v)%Z then Z.to_N v else pad) inp t
    else if b =? 104 then
      match t with
      | TInt => conv_loop s fmt' ap have pad inp TShort
      | TShort => conv_loop s fmt' ap have pad inp TChar
      | _ => err fmt' ap
      end
    else if b =? 108 then
      match t with
      | TInt => conv_loop s fmt' ap have pad inp TLong
      | TLong => conv_loop s fmt' ap have pad inp TLongLong
      | _ => err fmt' ap
      end
    else if b =? 73 then
      match fmt' with
      | x :: y :: fmt'' =>
        match t with
        | TInt =>
          if (x =? 54) && (y =? 52) then conv_loop s fmt'' ap have pad inp TLongLong
          else if (x =? 51) && (y =? 50) then conv_loop s fmt'' ap have pad inp TInt
          else conv_loop s fmt' ap have pad inp TInt
        | _ => err fmt' ap
        end
      | _ => match t with TInt => conv_loop s fmt' ap have pad inp TSizet | _ => err fmt' ap end
      end
    else if b =? 122 then
      match t with TInt => conv_loop s fmt' ap have pad inp TSizet | _ => err fmt' ap end
    else if (b =? 100) || (b =? 105) then
      do ' (v, ap) <- get_signed t ap;
      intj fmt' (uabs v) 10 (negb (v <? 0)%Z) (f_sign f) false false ap
    else if (b =? 111) || (b =? 79) then
      do ' (v, ap) <- get_unsigned t ap;
      intj fmt' v 8 true SNeg (f_prefix f) (b =? 79) ap
    else if b =? 117 then
      do ' (v, ap) <- get_unsigned t ap;
      intj fmt' v 10 true SNeg false false ap
    else if (b =? 120) || (b =? 88) then
      do ' (v, ap) <- get_unsigned t ap;
      intj fmt' v 16 true SNeg (f_prefix f) (b =? 88) ap
    else if (b =? 112) || (b =? 80) then
      do ' (v, ap) <- va_ptr ap;
      intj fmt' v 16 true SNeg true (b =? 80) ap
    else if (b =? 101) || (b =? 69) || (b =? 102) || (b =? 70) || (b =? 103) || (b =? 71) then
      do ' (neg, text, ap) <- va_dbl ap;
      fin start_len (add_double_just s neg text (f_sign f) (if have then inp else 6) (f_pad f) pad (f_ljust f)) fmt' ap
    else if b =? 99 then
      do ' (v, ap) <- va_int ap;
      fin start_len (add_bytes_just s (Some [v mod 256]) (f_pad f) pad (f_ljust f)) fmt' ap
    else if b =? 115 then
      do ' (m, ap) <- va_str ap;
      do txt <- match m with
                | None => Ok None
                | Some m =>
                  do n <- (if have then strlen_max m (N.to_nat inp) else strlen m);
                  do l <- rdn m 0 n; Ok (Some l)
                end;
      fin start_len (add_bytes_just s txt 32 pad (f_ljust f)) fmt' ap
    else err fmt' ap
  end.
End Control.

(** M_str_fmt_handle_control, lines 640-908 *)
Definition handle_control (s : S) (fmt : list N) (ap : list arg) : res outcome :=
  let start_len := length fmt in
  match fmt with
  | [] => parse_error s 0 [] ap
  | b :: fmt' =>
    if b =? 37 then do ' (s, r) <- add_byte s b; Ok (s, r, fmt', ap)
    else
    do ' (f, fmt) <- flag_loop (Datatypes.S start_len) (mkf false false SNeg 32) fmt;
    conv_loop start_len f s fmt ap false 0 0 TInt
  end.

(** M_str_fmt_do_print, lines 953-971; -1 for a failed write *)
Fixpoint print_loop (fuel : nat) (s : S) (fmt : list N) (ap : list arg) (outlen : Z) : res (S * Z) :=
  match fuel with
  | O => Fuel
  | Datatypes.S n =>
    match fmt with
    | [] => Ok (s, outlen)
    | b :: fmt' =>
      do ' (s, t, fmt', ap) <- (if b =? 37 then handle_control s fmt' ap else do ' (s, r) <- add_byte s b; Ok (s, r, fmt', ap));
      if (t =? -1)%Z then Ok (s, (-1)%Z) else print_loop n s fmt' ap (outlen + t)%Z
    end
  end.
Definition do_print (s : S) (fmt : list N) (ap : list arg) : res (S * Z) :=
  print_loop (Datatypes.S (length fmt)) s fmt ap 0%Z.
End Engine.

(** ** Sinks *)

(** A caller's buffer, lines 255-268: contents, position, size given; [None] for NULL *)
Definition sbuf := (option (list N) * nat * nat)%type.
Definition add_sbuf (s : sbuf) (b : list N) : res (sbuf * Z) :=
  let '(buf, pos, len) := s in
  match buf with
  | None => Ok (s, Z.of_nat (length b))
  | Some m =>
    if (len =? 0)%nat then Ok (s, Z.of_nat (length b))
    else
    let tlen := if (len - pos - 1 <? length b)%nat then (len - pos - 1)%nat else length b in
    do m <- wrn m pos (firstn tlen b);
    Ok ((Some m, (pos + tlen)%nat, len), Z.of_nat (length b))
  end.
(** M_vsnprintf, lines 1108-1124, with the terminator of lines 199-204.  The result is the
    buffer and the length. *)
Definition vsnprintf (buf : option (list N)) (size : nat) (fmt : list N) (ap : list arg) : res (option (list N) * N) :=
  do ' (s, r) <- do_print _ add_sbuf (buf, 0%nat, size) fmt ap;
  let '(buf, pos, len) := s in
  do buf <- match buf with
            | None => Ok None
            | Some m => if (r =? -1)%Z || (len =? 0)%nat then Ok (Some m) else do m <- wr m pos 0; Ok (Some m)
            end;
  Ok (buf, if (r <? 0)%Z then 0 else Z.to_N r).

(** An M_buf, lines 269-274 *)
Definition add_mbuf (s : option (list N)) (b : list N) : res (option (list N) * Z) :=
  Ok (match s with None => None | Some m => Some (m ++ b) end, Z.of_nat (length b)).
(** M_vbprintf, lines 1171-1183 *)
Definition vbprintf (buf : option (list N)) (fmt : list N) (ap : list arg) : res (option (list N) * N) :=
  do ' (s, r) <- do_print _ add_mbuf buf fmt ap;
  Ok (s, if (r <? 0)%Z then 0 else Z.to_N r).
(** M_vasprintf, lines 1140-1155: the text (M_buf_finish_str) and its length *)
Definition vasprintf (fmt : list N) (ap : list arg) : res (list N * N) :=
  do ' (s, _) <- vbprintf (Some []) fmt ap;
  match s with Some m => Ok (m, N.of_nat (length m)) | None => Ok ([], 0) end.

(** A file descriptor, lines 236-254: the 512 byte array, its fill, and what write() was
    given.  write() succeeds. *)
Definition fdbuf := (list N * nat * list N)%type.
Fixpoint fd_big (fuel : nat) (b : list N) (out : list N) : res (list N * list N) :=
  match fuel with
  | O => Fuel
  | S n => if (512 <? length b)%nat then fd_big n (skipn 512 b) (out ++ firstn 512 b) else Ok (b, out)
  end.
Definition add_fd (s : fdbuf) (b : list N) : res (fdbuf * Z) :=
  let '(wbuf, len, out) := s in
  do ' (len', b', out) <- (if (512 <=? len + length b)%nat then
                             do w <- rdn wbuf 0 len;
                             do ' (b', out) <- fd_big (S (length b)) b (out ++ w);
                             Ok (0%nat, b', out)
                           else Ok (len, b, out));
  do wbuf <- wrn wbuf len' b';
  Ok ((wbuf, (len' + length b')%nat, out), Z.of_nat (length b)).
(** M_vdprintf, lines 1052-1066, with the flush of lines 190-198; the array holds anything *)
Definition vdprintf (wbuf : list N) (fmt : list N) (ap : list arg) : res (list N * Z) :=
  do ' (s, r) <- do_print _ add_fd (wbuf, 0%nat, []) fmt ap;
  let '(wbuf, len, out) := s in
  if (r =? -1)%Z then Ok (out, r) else do w <- rdn wbuf 0 len; Ok (out ++ w, r).

(** A stream that may fail, lines 225-229: [fails] says which of the next calls to
    fwrite() fail. *)
Definition add_stream (s : list N * list bool) (b : list N) : res ((list N * list bool) * Z) :=
  let (out, fails) := s in
  match fails with
  | true :: fails' => Ok ((out, fails'), (-1)%Z)
  | false :: fails' => Ok ((out ++ b, fails'), Z.of_nat (length b))
  | [] => Ok ((out ++ b, []), Z.of_nat (length b))
  end.
(** M_vfprintf, lines 988-1001 *)
Definition vfprintf (fails : list bool) (fmt : list N) (ap : list arg) : res (list N * Z) :=
  do ' (s, r) <- do_print _ add_stream ([], fails) fmt ap;
  Ok (fst s, r).

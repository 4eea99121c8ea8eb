(** Model of base/utf8/m_utf8.c.

    A [const char *] argument is the list of bytes from the address it holds
    to the end of the object it points into; [char] bytes are taken as
    [unsigned char], which is what the masks and casts of the code make of
    them.  NULL pointers are not passed in (the NULL checks at lines 152 and
    269 are not modelled); the NULL that M_utf8_get_cp stores in [*next] is. *)
From Verif Require Import Base.Lib.
Local Open Scope N_scope.

(** M_utf8_error_t: include/mstdlib/base/m_utf8.h (enum M_UTF8_ERROR_...). *)
Inductive uerr :=
| USuccess | UBadStart | UTruncated | UExpectContinue | UBadCodePoint | UOverlong | UInvalidParam.

Definition uerr_ok (e : uerr) : bool := match e with USuccess => true | _ => false end.

(** base/utf8/m_utf8.c:28-33 *)
Definition is_continue (b : N) : bool := (0x80 <=? b) && (b <=? 0xBF).

(** base/utf8/m_utf8.c:35-57 *)
Definition byte_width (b : N) : nat :=
  if b <=? 0x7F then 1
  else if (0x80 <=? b) && (b <=? 0xBF) then 0
  else if (0xC2 <=? b) && (b <=? 0xDF) then 2
  else if (0xE0 <=? b) && (b <=? 0xEF) then 3
  else if (0xF0 <=? b) && (b <=? 0xF4) then 4
  else 0.

(** base/utf8/m_utf8.c:59-71 *)
Definition cp_width (cp : N) : nat :=
  if cp <=? 0x7F then 1
  else if (0x80 <=? cp) && (cp <=? 0x7FF) then 2
  else if (0x800 <=? cp) && (cp <=? 0xFFFF) then 3
  else 4.

(** base/utf8/m_utf8.c:116-144 *)
Definition is_valid_cp (cp : N) : bool :=
  if 0x10FFFF <? cp then false
  else if (0xD800 <=? cp) && (cp <=? 0xDFFF) then false
  else if (cp =? 0xFFFE) || (cp =? 0xFFFF) || (cp =? 0x1FFFE) || (cp =? 0x1FFFF)
       || (cp =? 0x2FFFE) || (cp =? 0x2FFFF) || (cp =? 0x3FFFE) || (cp =? 0x3FFFF)
       || (cp =? 0x4FFFE) || (cp =? 0x4FFFF) || (cp =? 0x5FFFE) || (cp =? 0x5FFFF)
       || (cp =? 0x6FFFE) || (cp =? 0x6FFFF) || (cp =? 0x7FFFE) || (cp =? 0x7FFFF)
       || (cp =? 0x8FFFE) || (cp =? 0x8FFFF) || (cp =? 0x9FFFE) || (cp =? 0x9FFFF)
       || (cp =? 0x10FFFE) || (cp =? 0x10FFFF)
       || ((0xFDD0 <=? cp) && (cp <=? 0xFDEF)) then false
  else true.

(** The loop of lines 186-194: [None] when bytes [i .. i+n-1] are all
    continuation bytes. *)
Fixpoint check_continue (str : list N) (i n : nat) : res (option uerr) :=
  match n with
  | O => Ok None
  | S n' =>
    do c <- rd str i;
    if c =? 0 then Ok (Some UTruncated)
    else if negb (is_continue c) then Ok (Some UExpectContinue)
    else check_continue str (S i) n'
  end.

(** base/utf8/m_utf8.c:146-219.  Result: the return value, [*cp], and
    [*next] ([None] is NULL). *)
Definition get_cp (str : list N) : res (uerr * N * option (list N)) :=
  do c0 <- rd str 0;
  if c0 =? 0 then Ok (USuccess, 0, Some str)
  else
  let width := byte_width c0 in
  if (width =? 0)%nat then Ok (UBadStart, 0, None)
  else if (width =? 1)%nat then Ok (USuccess, c0, Some (skipn 1 str))
  else
  do e <- check_continue str 1 (width - 1);
  match e with
  | Some e => Ok (e, 0, None)
  | None =>
    do mycp <-
      (if (width =? 2)%nat then
         do c1 <- rd str 1;
         Ok (N.lor (N.shiftl (N.land c0 0x1F) 6) (N.land c1 0x3F))
       else if (width =? 3)%nat then
         do c1 <- rd str 1; do c2 <- rd str 2;
         Ok (N.lor (N.lor (N.shiftl (N.land c0 0x0F) 12) (N.shiftl (N.land c1 0x3F) 6)) (N.land c2 0x3F))
       else
         do c1 <- rd str 1; do c2 <- rd str 2; do c3 <- rd str 3;
         Ok (N.lor (N.lor (N.lor (N.shiftl (N.land c0 0x07) 18) (N.shiftl (N.land c1 0x3F) 12))
                          (N.shiftl (N.land c2 0x3F) 6)) (N.land c3 0x3F)));
    if negb (is_valid_cp mycp) then Ok (UBadCodePoint, 0, None)
    else if negb (width =? cp_width mycp)%nat then Ok (UOverlong, 0, None)
    else Ok (USuccess, mycp, Some (skipn width str))
  end.

(** base/utf8/m_utf8.c:265-302 on a buffer of [length buf] bytes with the
    size argument [buf_size].  Result: return value, buffer, [*len]
    ([None]: not written). *)
Definition from_cp (buf : list N) (buf_size : nat) (cp : N) : res (uerr * list N * option nat) :=
  if negb (is_valid_cp cp) then Ok (UBadCodePoint, buf, None)
  else
  let width := cp_width cp in
  if (width =? 0)%nat then Ok (UBadCodePoint, buf, None)
  else if (buf_size <? width)%nat then Ok (UTruncated, buf, None)
  else
  do buf <-
    (if (width =? 1)%nat then wr buf 0 (cp mod 256)
     else if (width =? 2)%nat then
       do b <- wr buf 0 (N.lor 0xC0 (N.land (N.shiftr cp 6) 0x3F) mod 256);
       wr b 1 (N.lor 0x80 (N.land cp 0x3F) mod 256)
     else if (width =? 3)%nat then
       do b <- wr buf 0 (N.lor 0xE0 (N.land (N.shiftr cp 12) 0x3F) mod 256);
       do b <- wr b 1 (N.lor 0x80 (N.land (N.shiftr cp 6) 0x3F) mod 256);
       wr b 2 (N.lor 0x80 (N.land cp 0x3F) mod 256)
     else
       do b <- wr buf 0 (N.lor 0xF0 (N.land (N.shiftr cp 18) 0x3F) mod 256);
       do b <- wr b 1 (N.lor 0x80 (N.land (N.shiftr cp 12) 0x3F) mod 256);
       do b <- wr b 2 (N.lor 0x80 (N.land (N.shiftr cp 6) 0x3F) mod 256);
       wr b 3 (N.lor 0x80 (N.land cp 0x3F) mod 256));
  Ok (USuccess, buf, Some width).

(** base/utf8/m_utf8.c:221-235 with a non-NULL buffer of non-zero size. *)
Definition get_chr (str buf : list N) (buf_size : nat) : res (uerr * list N * option nat * option (list N)) :=
  do '(e, cp, next) <- get_cp str;
  if negb (uerr_ok e) then Ok (e, buf, None, next)
  else do '(e, buf, len) <- from_cp buf buf_size cp; Ok (e, buf, len, next).

(** The loop of base/utf8/m_utf8.c:80-93 (M_utf8_validate_int); [endp] is
    [*endptr], [len] is [*len].  Following a NULL pointer is UB. *)
Fixpoint validate_loop (fuel : nat) (e : uerr) (str : option (list N)) (endp : option (list N)) (len : nat)
  : res (uerr * option (list N) * option (list N) * nat) :=
  match fuel with
  | O => Fuel
  | S fuel' =>
    if uerr_ok e then
      match str with
      | None => UB
      | Some s =>
        do c <- rd s 0;
        if c =? 0 then Ok (e, str, endp, len)
        else
        do '(e', _, next) <- get_cp s;
        validate_loop fuel' e' next (Some s) (S len)
      end
    else Ok (e, str, endp, len)
  end.

(** base/utf8/m_utf8.c:73-101.  [endp]/[len] are the initial contents of the
    output arguments. *)
Definition validate_int (str : list N) (endp : option (list N)) (len : nat)
  : res (bool * option (list N) * nat) :=
  do c <- rd str 0;
  if c =? 0 then Ok (false, endp, len)
  else
  do '(e, str', endp', len') <- validate_loop (S (length str)) USuccess (Some str) endp len;
  if uerr_ok e then Ok (true, str', len') else Ok (false, endp', len').

(** base/utf8/m_utf8.c:105-114 *)
Definition utf8_is_valid (str : list N) : res (bool * option (list N)) :=
  do c <- rd str 0;
  if c =? 0 then Ok (true, Some str)
  else do '(r, endp, _) <- validate_int str (Some str) 0; Ok (r, endp).

(** base/utf8/m_utf8.c:317-324 *)
Definition utf8_cnt (str : list N) : res nat :=
  do '(r, _, len) <- validate_int str None 0;
  if r then Ok len else Ok 0%nat.

(** The loop of base/utf8/m_utf8.c:335-341.  [str] and [next] are equal at
    every test of the condition, so one pointer is carried; [*next] is read
    before [res] is tested. *)
Fixpoint cp_at_loop (fuel : nat) (next : option (list N)) (e : uerr) (cp : N) (i idx : nat)
  : res (uerr * N * nat) :=
  match fuel with
  | O => Fuel
  | S fuel' =>
    match next with
    | None => UB
    | Some s =>
      do c <- rd s 0;
      if negb (c =? 0) && uerr_ok e then
        do '(e', cp', next') <- get_cp s;
        if (i =? idx)%nat then Ok (e', cp', i)
        else cp_at_loop fuel' next' e' cp' (S i) idx
      else Ok (e, cp, i)
    end
  end.

(** base/utf8/m_utf8.c:326-349.  [cp0] is the initial content of [*cp]. *)
Definition cp_at (str : list N) (idx : nat) (cp0 : N) : res (uerr * N) :=
  do c <- rd str 0;
  if c =? 0 then Ok (UInvalidParam, cp0)
  else
  do '(e, cp, i) <- cp_at_loop (S (length str)) (Some str) USuccess cp0 0 idx;
  if negb (uerr_ok e) then Ok (e, cp)
  else if negb (i =? idx)%nat then Ok (UInvalidParam, cp)
  else Ok (USuccess, cp).

(** base/utf8/m_utf8.c:351-361 *)
Definition chr_at (str buf : list N) (buf_size idx : nat) : res (uerr * list N * option nat) :=
  do '(e, cp) <- cp_at str idx 0;
  if negb (uerr_ok e) then Ok (e, buf, None) else from_cp buf buf_size cp.

(** The loop of base/utf8/m_utf8.c:259-260. *)
Fixpoint skip_continue (fuel : nat) (str : list N) : res (list N) :=
  match fuel with
  | O => Fuel
  | S fuel' =>
    do c <- rd str 0;
    if is_continue c then skip_continue fuel' (skipn 1 str) else Ok str
  end.

(** base/utf8/m_utf8.c:250-263 *)
Definition next_chr (str : list N) : res (option (list N)) :=
  do c <- rd str 0;
  if c =? 0 then Ok None
  else do s <- skip_continue (S (length str)) (skipn 1 str); Ok (Some s).

(** Model of the integer parsers of base/data/m_str_num.c.

    A [const char *] is the list of bytes from the address it holds to the end
    of the object; reading outside is UB.  The NULL checks (lines 242, 276,
    313, 336) and the optional output arguments are not modelled: [val] and
    [endptr] are always wanted. *)
From Verif Require Import Base.Lib Hex.Model.
Local Open Scope N_scope.

(** M_str_int_retval_t: include/mstdlib/base/m_str.h *)
Inductive ires := ISuccess | IOverflow | IInvalid.

(** base/data/m_str_num.c:32-36: the character is read before the length is
    tested. *)
Fixpoint eat_whitespace (s : list N) (len : nat) : res (list N * nat) :=
  do c <- rd s 0;
  if chr_isspace c then
    match len with
    | O => Ok (s, O)
    | S len' => eat_whitespace (skipn 1 s) len'
    end
  else Ok (s, len).

(** base/data/m_str_num.c:38-56 *)
Definition str_sign (s : list N) (len : nat) : res (bool * list N * nat) :=
  match len with
  | O => Ok (false, s, O)
  | S len' =>
    do c <- rd s 0;
    if (c =? 45) || (c =? 43) then Ok (c =? 45, skipn 1 s, len') else Ok (false, s, len)
  end.

(** base/data/m_str_num.c:78-86 *)
Definition digit_of (c : N) : N :=
  if (48 <=? c) && (c <=? 57) then c - 48
  else if (97 <=? c) && (c <=? 122) then c - 97 + 10
  else if (65 <=? c) && (c <=? 90) then c - 65 + 10
  else 36.

Definition w64 (n : N) : N := n mod 2 ^ 64.

(** The loop of base/data/m_str_num.c:75-101; result: [ret], [overflow], [p]. *)
Fixpoint digit_loop (s : list N) (len : nat) (base ret : N) (overflow : bool) : res (N * bool * list N) :=
  match len with
  | O => Ok (ret, overflow, s)
  | S len' =>
    do c <- rd s 0;
    if c =? 0 then Ok (ret, overflow, s)
    else
    let digit := digit_of c in
    if base <=? digit then Ok (ret, overflow, s)
    else
    let v := w64 (ret * base + digit) in
    digit_loop (skipn 1 s) len' base v (overflow || (v <? ret))
  end.

(** base/data/m_str_num.c:59-116.  [s == p] is tested on the lengths of the
    remaining objects. *)
Definition to_uint64_int (s : list N) (len : nat) (base : N) : res (ires * N * list N) :=
  if (base <? 2) || (36 <? base) then Ok (IInvalid, 0, s)
  else
  do '(ret, overflow, p) <- digit_loop s len base 0 false;
  if overflow then Ok (IOverflow, ret, p)
  else if (length p =? length s)%nat then Ok (IInvalid, ret, p)
  else Ok (ISuccess, ret, p).

(** base/data/m_str.c:62-84 (the table maps A-Z to a-z and the rest to itself). *)
Definition ct_tolower (c : N) : N := if (65 <=? c) && (c <=? 90) then c + 32 else c.

(** base/data/m_str.c:86-127 with [f] the per-character map (M_ct_tolower or
    none).  The loop and the test after it. *)
Fixpoint str_eq_max_loop (f : N -> N) (s1 s2 : list N) (max : nat) (result : N) : res bool :=
  match max with
  | O => Ok (result =? 0)
  | S max' =>
    do c1 <- rd s1 0;
    if c1 =? 0 then
      if negb (result =? 0) then Ok false
      else do c2 <- rd s2 0; Ok (c2 =? 0)
    else
    do c2 <- rd s2 0;
    if c2 =? 0 then Ok false
    else str_eq_max_loop f (skipn 1 s1) (skipn 1 s2) max' (N.lor result (N.lxor (f c1) (f c2)))
  end.
Definition str_eq_max_int (f : N -> N) (s1 s2 : list N) (max : nat) : res bool :=
  str_eq_max_loop f s1 s2 max 0.

(** The literal "0x". *)
Definition lit_0x : list N := [48; 120; 0].

(** base/data/m_str_num.c:119-140 *)
Definition intconv_prep (s : list N) (len : nat) (base : N) : res (list N * nat * N * bool) :=
  do '(s, len) <- eat_whitespace s len;
  do '(is_neg, s, len) <- str_sign s len;
  do base <-
    (if base =? 0 then
       do hex <- (if (2 <=? len)%nat then str_eq_max_int ct_tolower s lit_0x len else Ok false);
       if hex then Ok 16
       else
       do oct <- (if (1 <=? len)%nat then do c <- rd s 0; Ok (c =? 48) else Ok false);
       Ok (if oct then 8 else 10)
     else Ok base);
  do strip <- (if (base =? 16) && (2 <=? len)%nat then str_eq_max_int ct_tolower s lit_0x len else Ok false);
  if strip then Ok (skipn 2 s, (len - 2)%nat, base, is_neg) else Ok (s, len, base, is_neg).

Definition uint64_max : N := 2 ^ 64 - 1.

(** base/data/m_str_num.c:236-266; [val0] is the initial content of [*val].
    With [len == 0] neither output is written ([None] for [*endptr]). *)
Definition to_uint64_ex (s : list N) (len : nat) (base val0 : N) : res (ires * N * option (list N)) :=
  if (len =? 0)%nat then Ok (IInvalid, val0, None)
  else
  do '(s, len, base, is_neg) <- intconv_prep s len base;
  do '(rv, v, p) <- to_uint64_int s len base;
  let v' := match rv with
            | IOverflow => uint64_max
            | _ => if is_neg then w64 (2 ^ 64 - v) else v
            end in
  Ok (rv, v', Some p).

Definition to_int64 (u : N) : Z := if u <? 2 ^ 63 then Z.of_N u else (Z.of_N u - 2 ^ 64)%Z.

(** base/data/m_str_num.c:269-304 *)
Definition to_int64_ex (s : list N) (len : nat) (base : N) (val0 : Z) : res (ires * Z * option (list N)) :=
  if (len =? 0)%nat then Ok (IInvalid, val0, None)
  else
  do '(s, len, base, is_neg) <- intconv_prep s len base;
  do '(rv, uval, p) <- to_uint64_int s len base;
  let rv := if is_neg && (2 ^ 63 <? uval) then IOverflow
            else if negb is_neg && (2 ^ 63 - 1 <? uval) then IOverflow else rv in
  let v := match rv with
           | IOverflow => if is_neg then (- 2 ^ 63)%Z else (2 ^ 63 - 1)%Z
           | _ => if is_neg then to_int64 (w64 (2 ^ 64 - uval)) else to_int64 uval
           end in
  Ok (rv, v, Some p).

(** base/data/m_str_num.c:307-328 *)
Definition to_uint32_ex (s : list N) (len : nat) (base val0 : N) : res (ires * N * option (list N)) :=
  if (len =? 0)%nat then Ok (IInvalid, val0, None)
  else
  do '(rv, u, p) <- to_uint64_ex s len base 0;
  if 2 ^ 32 - 1 <? u then Ok (IOverflow, 2 ^ 32 - 1, p) else Ok (rv, u, p).

(** base/data/m_str_num.c:331-357 *)
Definition to_int32_ex (s : list N) (len : nat) (base : N) (val0 : Z) : res (ires * Z * option (list N)) :=
  if (len =? 0)%nat then Ok (IInvalid, val0, None)
  else
  do '(rv, i, p) <- to_int64_ex s len base 0;
  if (2 ^ 31 - 1 <? i)%Z then Ok (IOverflow, (2 ^ 31 - 1)%Z, p)
  else if (i <? - 2 ^ 31)%Z then Ok (IOverflow, (- 2 ^ 31)%Z, p)
  else Ok (rv, i, p).

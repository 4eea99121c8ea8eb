(** Model of base/math/m_decimal.c (and of M_uint64_exp and
    M_uint64_count_digits, which it uses).

    An M_int64 is a [Z] in [-2^63, 2^63); an M_uint8 that counts decimal places
    is a [nat] below 256.  Signed overflow is UB except in the two functions
    that are marked M_IGNORE_SIGNED_OVERFLOW (lines 73-77), whose products and
    differences wrap.  Pointer arguments are never NULL (the checks at lines
    40, 48, 61, 214, 248, 261, 269, 274, 291, 336, 385, 477, 504, 529-534, 586
    and 651 are not modelled). *)
From Verif Require Import Base.Lib StrNum.Model.
Local Open Scope Z_scope.

Definition imax : Z := 2 ^ 63 - 1.
Definition imin : Z := - 2 ^ 63.
Definition in64 (z : Z) : Prop := imin <= z <= imax.
(** Two's complement wrap-around. *)
Definition wrap (z : Z) : Z := (z + 2 ^ 63) mod 2 ^ 64 - 2 ^ 63.
(** The result of a signed operation that must not overflow. *)
Definition chk (z : Z) : res Z := if (imin <=? z) && (z <=? imax) then Ok z else UB.

(** include/mstdlib/base/m_decimal.h:78-81 *)
Record dec := mkd { num : Z; nd : nat }.
(** include/mstdlib/base/m_decimal.h:85-92 *)
Inductive rvt := Success | Overflow | Truncation | Invalid.
(** include/mstdlib/base/m_decimal.h:95-99 *)
Inductive rnd := RNone | RTrad | RBank.

Definition rv_eqb (a b : rvt) : bool :=
  match a, b with
  | Success, Success | Overflow, Overflow | Truncation, Truncation | Invalid, Invalid => true
  | _, _ => false
  end.

(** base/math/m_decimal.c:86-119 *)
Definition mult_int64 (in1 in2 : Z) : rvt * Z :=
  let out := wrap (in1 * in2) in
  if 0 <? in1 then
    if 0 <? in2 then
      if Z.quot imax in2 <? in1 then (Overflow, out) else (Success, out)
    else
      if in2 <? Z.quot imin in1 then (Overflow, out) else (Success, out)
  else
    if 0 <? in2 then
      if in1 <? Z.quot imin in2 then (Overflow, out) else (Success, out)
    else
      if negb (in1 =? 0) && (in2 <? Z.quot imax in1) then (Overflow, out) else (Success, out).

(** M_ABS, include/mstdlib/base/m_math.h:46 *)
Definition m_abs (z : Z) : res Z := if z <? 0 then chk (z * -1) else Ok z.

(** base/math/m_decimal.c:122-179; [out0] is the content of [*out] before. *)
Definition div_int64 (out0 n denom : Z) (round : rnd) : res (rvt * Z) :=
  if denom =? 0 then Ok (Invalid, out0)
  else if (n =? imin) && (denom =? -1) then Ok (Overflow, imax)
  else
  let out := Z.quot n denom in
  do out <-
    match round with
    | RNone => Ok out
    | _ =>
      let moddenom := Z.quot denom 10 in
      if moddenom =? 0 then Ok out
      else
      do q <- chk (Z.quot n moddenom);
      do a <- m_abs q;
      let digit := Z.rem a 10 in
      if (0 <? n) && (5 <? digit) then chk (out + 1)
      else if (n <? 0) && (5 <? digit) then chk (out - 1)
      else if digit =? 5 then
        match round with
        | RTrad => if 0 <? n then chk (out + 1) else chk (out - 1)
        | RBank =>
          do b <- m_abs out;
          if negb (Z.rem (Z.rem b 10) 2 =? 0) then (if 0 <? n then chk (out + 1) else chk (out - 1))
          else Ok out
        | RNone => Ok out
        end
      else Ok out
    end;
  Ok (if Z.rem n denom =? 0 then Success else Truncation, out).

(** base/math/m_decimal.c:182-192; [out0] is the content of [*out] before. *)
Definition add_int64 (out0 num1 num2 : Z) : rvt * Z :=
  if ((0 <? num2) && (imax - num2 <? num1)) || ((num2 <? 0) && (num1 <? imin - num2))
  then (Overflow, out0)
  else (Success, num1 + num2).

(** The loop of base/math/m_decimal.c:200-203 with [e] rounds to go. *)
Fixpoint exp_loop (out n : Z) (e : nat) : rvt * Z :=
  match e with
  | O => (Success, out)
  | S e' =>
    match mult_int64 out n with
    | (Success, out') => exp_loop out' n e'
    | (_, out') => (Overflow, out')
    end
  end.
(** base/math/m_decimal.c:195-206 *)
Definition exp_int64 (n : Z) (e : nat) : rvt * Z := exp_loop 1 n e.

(** base/math/m_decimal.c:209-243 *)
Definition transform (d : dec) (k : nat) (round : rnd) : res (rvt * dec) :=
  if (k =? nd d)%nat then Ok (Success, d)
  else if (nd d <? k)%nat then
    if num d =? 0 then Ok (Success, mkd (num d) k)
    else
    match exp_int64 10 (k - nd d) with
    | (Overflow, _) => Ok (Overflow, d)
    | (_, opnum) =>
      let '(rv, n) := mult_int64 (num d) opnum in
      Ok (rv, mkd n k)
    end
  else
    if num d =? 0 then Ok (Success, mkd (num d) k)
    else
    match exp_int64 10 (nd d - k) with
    | (Overflow, _) => Ok (Overflow, d)
    | (_, opnum) =>
      do '(rv, n) <- div_int64 (num d) (num d) opnum round;
      Ok (rv, mkd n k)
    end.

(** base/math/m_decimal.c:246-256 *)
Fixpoint reduce_loop (n : Z) (k : nat) : dec :=
  match k with
  | O => mkd n O
  | S k' => if Z.rem n 10 =? 0 then reduce_loop (Z.quot n 10) k' else mkd n k
  end.
Definition reduce (d : dec) : dec := reduce_loop (num d) (nd d).

(** base/math/m_decimal.c:46-54 *)
Definition from_int (n : Z) (k : nat) : dec := reduce (mkd n k).

(** base/math/m_decimal.c:57-70 *)
Definition to_int (d : dec) (k : nat) : res Z :=
  do '(rv, d') <- transform d k RTrad;
  match rv with Success | Truncation => Ok (num d') | _ => Ok 0 end.

(** The loop of base/math/m_decimal.c:305-318; [None] for the return at line
    312. *)
Fixpoint prep_loop (dec1 dec2 t1 t2 : dec) (k : nat) : res (option (dec * dec * nat)) :=
  do '(r1, t1) <- transform t1 k RTrad;
  do '(ok, t2) <-
    (if rv_eqb r1 Overflow then Ok (false, t2)
     else do '(r2, t2) <- transform t2 k RTrad; Ok (negb (rv_eqb r2 Overflow), t2));
  if ok : bool then Ok (Some (t1, t2, k))
  else
  match k with
  | O => Ok None
  | S k' => prep_loop dec1 dec2 dec1 dec2 k'
  end.

(** base/math/m_decimal.c:286-324.  With Invalid the contents of [*tdec1] and
    [*tdec2] are not used by any caller and are not returned. *)
Definition prepmath (dec1 dec2 : dec) (reduce_dec : bool) : res (option (rvt * dec * dec)) :=
  let t1 := if reduce_dec then reduce dec1 else dec1 in
  let t2 := if reduce_dec then reduce dec2 else dec2 in
  let wanted := Nat.max (nd t1) (nd t2) in
  do r <- prep_loop dec1 dec2 t1 t2 wanted;
  match r with
  | None => Ok None
  | Some (t1, t2, k) => Ok (Some (if (k =? wanted)%nat then Success else Truncation, t1, t2))
  end.

(** The loop of base/math/m_decimal.c:343-355; [i] counts the rounds.  The
    round numbers are bounded by the decimal places of [t1], which is [fuel];
    [t1] and [t2] have the same number of places. *)
Fixpoint mult_loop (t1 t2 : dec) (i fuel : nat) : res (rvt * Z * dec * nat) :=
  let '(rv, n) := mult_int64 (num t1) (num t2) in
  if negb (rv_eqb rv Overflow) then Ok (rv, n, t1, i)
  else if (nd t1 =? 0)%nat then Ok (rv, n, t1, i)
  else
  match fuel with
  | O => Fuel
  | S fuel' =>
    do '(_, t1) <- transform t1 (nd t1 - 1) RTrad;
    do '(_, t2) <- transform t2 (nd t2 - 1) RTrad;
    mult_loop t1 t2 (S i) fuel'
  end.

(** base/math/m_decimal.c:327-369; [dest0] is the content of [*dest] before. *)
Definition multiply (dest0 dec1 dec2 : dec) : res (rvt * dec) :=
  do p <- prepmath dec1 dec2 true;
  match p with
  | None => Ok (Invalid, dest0)
  | Some (preprv, t1, t2) =>
    do '(rv, n, t1, i) <- mult_loop t1 t2 0 (nd t1);
    if negb (rv_eqb rv Success) then Ok (rv, mkd 0 0)
    else
    let rv := if negb (i =? 0)%nat || rv_eqb preprv Truncation then Truncation else rv in
    Ok (rv, reduce (mkd n ((nd t1 * 2) mod 256)))
  end.

(** The loop of base/math/m_decimal.c:407-418; [w] is [wanted_dec], [rv0] the
    value of [rv] so far.  Result: rv, remexp, wanted_dec; [inl] for the return
    at line 411. *)
Fixpoint div_loop1 (rem remexp : Z) (w : nat) (rv0 : rvt) : rvt + (rvt * Z * nat) :=
  match w with
  | O => inr (rv0, remexp, O)
  | S w' =>
    match exp_int64 10 w with
    | (Success, exp) =>
      match mult_int64 rem exp with
      | (Success, remexp) => inr (Success, remexp, w)
      | (rv, remexp) => div_loop1 rem remexp w' rv
      end
    | (rv, _) => inl rv
    end
  end.

(** The loop of base/math/m_decimal.c:434-450.  Result: dest->num, afterdec,
    afterdecrv, wanted_dec; [inl] for the return at line 438. *)
Fixpoint div_loop2 (n dnum afterdec : Z) (arv : rvt) (round : rnd) (w : nat) : res (rvt + (Z * Z * rvt * nat)) :=
  match w with
  | O => Ok (inr (dnum, afterdec, arv, O))
  | S w' =>
    match exp_int64 10 w with
    | (Success, exp) =>
      match mult_int64 n exp with
      | (Success, dnum) => Ok (inr (dnum, afterdec, arv, w))
      | (_, dnum) =>
        do '(r, afterdec) <- div_int64 afterdec afterdec 10 round;
        div_loop2 n dnum afterdec (if rv_eqb r Truncation then Truncation else arv) round w'
      end
    | (rv, _) => Ok (inl rv)
    end
  end.

(** base/math/m_decimal.c:372-468; [dest0] is the content of [*dest] before. *)
Definition divide (dest0 dec1 dec2 : dec) (round : rnd) : res (rvt * dec) :=
  do p <- prepmath dec1 dec2 false;
  match p with
  | None => Ok (Invalid, dest0)
  | Some (preprv, t1, t2) =>
    if num t2 =? 0 then Ok (Invalid, mkd 0 0)
    else if (num t1 =? imin) && (num t2 =? -1) then Ok (Overflow, mkd 0 0)
    else
    let n := Z.quot (num t1) (num t2) in
    let rem := Z.rem (num t1) (num t2) in
    match div_loop1 rem 0 18 Success with
    | inl rv => Ok (rv, mkd 0 0)
    | inr (rv, remexp, w) =>
      if negb (rv_eqb rv Success) then Ok (rv, mkd 0 0)
      else
      do '(rv, afterdec) <- div_int64 0 remexp (num t2) round;
      if negb (rv_eqb rv Success) && negb (rv_eqb rv Truncation) then Ok (rv, mkd 0 0)
      else
      do r <- div_loop2 n 0 afterdec (if rv_eqb rv Truncation then Truncation else Success) round w;
      match r with
      | inl rv => Ok (rv, mkd 0 0)
      | inr (dnum, afterdec, arv, w) =>
        do dnum <- (if (w =? 0)%nat then Ok dnum else chk (dnum + afterdec));
        Ok (if rv_eqb arv Truncation || rv_eqb preprv Truncation then Truncation else Success,
            reduce (mkd dnum w))
      end
    end
  end.

(** base/math/m_decimal.c:471-495; [dest0] is the content of [*dest] before. *)
Definition subtract (dest0 dec1 dec2 : dec) : res (rvt * dec) :=
  do p <- prepmath dec1 dec2 true;
  match p with
  | None => Ok (Invalid, dest0)
  | Some (preprv, t1, t2) =>
    let d := mkd (wrap (num t1 - num t2)) (nd t1) in
    if ((0 <? num t2) && (num t1 <? imin + num t2)) || ((num t2 <? 0) && (imax + num t2 <? num t1))
    then Ok (Overflow, d)
    else Ok (preprv, reduce d)
  end.

(** base/math/m_decimal.c:498-518; [dest0] is the content of [*dest] before. *)
Definition add (dest0 dec1 dec2 : dec) : res (rvt * dec) :=
  do p <- prepmath dec1 dec2 true;
  match p with
  | None => Ok (Invalid, dest0)
  | Some (preprv, t1, t2) =>
    match add_int64 0 (num t1) (num t2) with
    | (Overflow, n) => Ok (Overflow, mkd n 0)
    | (_, n) => Ok (preprv, reduce (mkd n (nd t1)))
    end
  end.

(** The loop of base/math/m_decimal.c:547-556. *)
Fixpoint cmp_loop (dec1 dec2 t1 t2 : dec) (k : nat) : res (dec * dec) :=
  match k with
  | O => Ok (t1, t2)
  | S k' =>
    do '(r1, t1) <- transform dec1 k RTrad;
    if rv_eqb r1 Success then
      do '(r2, t2) <- transform dec2 k RTrad;
      if rv_eqb r2 Success then Ok (t1, t2) else cmp_loop dec1 dec2 t1 t2 k'
    else cmp_loop dec1 dec2 t1 dec2 k'
  end.

(** base/math/m_decimal.c:521-563 *)
Definition cmp (dec1 dec2 : dec) : res Z :=
  let t1 := reduce dec1 in
  let t2 := reduce dec2 in
  do '(t1, t2) <- cmp_loop dec1 dec2 t1 t2 (Nat.max (nd t1) (nd t2));
  Ok (if num t2 <? num t1 then 1 else if num t1 <? num t2 then -1 else 0).

(** base/math/m_decimal.c:566-574 *)
Definition decimal_abs (n : Z) : N :=
  if n =? imin then (Z.to_N imax + 1)%N
  else if n <? 0 then Z.to_N (n * -1) else Z.to_N n.

(** M_uint64_exp, base/math/m_operator.c:28-37 *)
Fixpoint uint64_exp_loop (ret n : N) (e : nat) : N :=
  match e with O => ret | S e' => uint64_exp_loop (w64 (ret * n)) n e' end.
Definition uint64_exp (n : N) (e : nat) : N := uint64_exp_loop 1 n e.

(** M_uint64_count_digits, base/math/m_prop.c:32-39; [fuel] bounds the rounds
    (20 are enough for 64 bits). *)
Fixpoint count_digits_loop (n : N) (digits fuel : nat) : res nat :=
  match fuel with
  | O => Fuel
  | S fuel' =>
    let n := (n / 10)%N in
    if (n =? 0)%N then Ok digits else count_digits_loop n (S digits) fuel'
  end.
Definition count_digits (n : N) : res nat := count_digits_loop n 1 20.

(** What "%llu" prints: the decimal digits, most significant first, no leading
    zero (the formatter in base/data/m_str_fmt.c is not modelled here). *)
Fixpoint print_loop (n : N) (acc : list N) (fuel : nat) : list N :=
  match fuel with
  | O => acc
  | S fuel' =>
    let acc := (48 + n mod 10)%N :: acc in
    if (n / 10 =? 0)%N then acc else print_loop (n / 10)%N acc fuel'
  end.
Definition print_u64 (n : N) : list N := print_loop n [] 20.
(** What "%0*llu" prints: padded with zeros to the width. *)
Definition print_u64_pad (width : nat) (n : N) : list N :=
  let s := print_u64 n in repeat 48%N (width - length s) ++ s.

(** base/math/m_decimal.c:577-634.  Result: the text written, without the
    terminator.  M_snprintf cuts the text at the room left less one. *)
Definition to_str (d : dec) (buf_len : nat) : res (rvt * list N) :=
  if (buf_len <? 2)%nat then Ok (Invalid, [])
  else
  let n := decimal_abs (num d) in
  do digits <- count_digits n;
  let required := (digits + 1
    + (if (nd d =? 0)%nat then 0 else 1)
    + (if (num d <? 0)%Z then 1 else 0)
    + (if (digits <=? nd d)%nat then 1 else 0)
    + (if (digits <? nd d)%nat then nd d - digits else 0))%nat in
  if (buf_len <? required)%nat then Ok (Invalid, [])
  else
  let sign := if num d <? 0 then [45%N] else [] in
  let left := (buf_len - length sign)%nat in
  do whole <-
    (if (digits <=? nd d)%nat then Ok [48%N]
     else let e := uint64_exp 10 (nd d) in if (e =? 0)%N then UB else Ok (print_u64 (n / e)%N));
  let whole' := firstn (left - 1) whole in
  let left := (left - length whole)%nat in
  if (nd d =? 0)%nat then Ok (Success, sign ++ whole')
  else
  let left := (left - 1)%nat in
  let e := uint64_exp 10 (nd d) in
  if (e =? 0)%N then UB
  else Ok (Success, sign ++ whole' ++ [46%N] ++ firstn (left - 1) (print_u64_pad (nd d) (n mod e)%N)).

(** The loop of base/math/m_decimal.c:692-705: one character fewer as long as
    the number overflows.  Result: [None] for the return at line 698, else rv,
    afterdec, temp, end. *)
Fixpoint frac_loop (ptr : list N) (len_left : nat) (rv : rvt) (afterdec : Z) (temp end_ : option (list N))
  : res (option (rvt * Z * option (list N) * option (list N))) :=
  match len_left with
  | O => Ok (Some (rv, afterdec, temp, end_))
  | S len' =>
    do '(r, v, p) <- to_int64_ex ptr len_left 10 afterdec;
    let temp := match p with Some _ => p | None => temp end in
    let end_ := match end_ with None => temp | Some _ => end_ end in
    match r with
    | IInvalid => Ok None
    | IOverflow => frac_loop ptr len' Truncation v temp end_
    | ISuccess => Ok (Some (rv, v, temp, end_))
    end
  end.

(** The two nested loops of base/math/m_decimal.c:729-758 as one: a round with
    [k] = num_digits either ends or drops one digit.  Result: val->num,
    num_digits, rv. *)
Fixpoint join_loop (n afterdec : Z) (k : nat) (rv : rvt) : res (Z * nat * rvt) :=
  match k with
  | O => Ok (n, O, rv)
  | S k' =>
    let exp := snd (exp_int64 10 (k mod 256)) in
    match mult_int64 n exp with
    | (Overflow, _) =>
      do '(_, afterdec) <- div_int64 afterdec afterdec 10 RNone;
      join_loop n afterdec k' Truncation
    | (_, v) =>
      match add_int64 v v afterdec with
      | (Success, v) => Ok (v, k, rv)
      | _ =>
        do '(_, afterdec) <- div_int64 afterdec afterdec 10 RNone;
        join_loop n afterdec k' Truncation
      end
    end
  end.

(** M_chr_tolower(c) == 'e' *)
Definition is_e (c : N) : bool := (ct_tolower c =? 101)%N.

(** base/math/m_decimal.c:637-813.  [s] is the object from [string] on.
    Result: the return value, [*val], and [*endptr] (the rest of the object, or
    [None] when NULL).  When line 770 wraps below zero the length is larger than
    any object; [S (length ptr)] stands for it. *)
Definition from_str (s : list N) (len : nat) : res (rvt * dec * option (list N)) :=
  if (len =? 0)%nat then Ok (Invalid, mkd 0 0, None)
  else
  do c0 <- rd s 0;
  let is_neg := (c0 =? 45)%N in
  do '(intrv, n, p) <- (if (c0 =? 46)%N then Ok (ISuccess, 0, Some s) else to_int64_ex s len 10 0);
  match intrv, p with
  | IOverflow, _ => Ok (Overflow, mkd 0 0, None)
  | IInvalid, _ | _, None => Ok (Invalid, mkd 0 0, None)
  | ISuccess, Some ptr =>
    let num_read := (length s - length ptr)%nat in
    do dot <- (if (num_read <? len)%nat then do c <- rd ptr 0; Ok (c =? 46)%N else Ok false);
    do fr <-
      (if dot : bool then
         let ptr := skipn 1 ptr in
         do r <- frac_loop ptr (len - S num_read) Success 0 None None;
         match r with
         | None => Ok None
         | Some (rv, afterdec, temp, end_) =>
           if afterdec <? 0 then Ok None
           else
           do afterdec <- (if is_neg || (n <? 0) then chk (afterdec * -1) else Ok afterdec);
           Ok (Some (rv, afterdec, ptr, temp, end_))
         end
       else Ok (Some (Success, 0, ptr, None, Some ptr)));
    match fr with
    | None => Ok (Invalid, mkd 0 0, None)
    | Some (rv, afterdec, ptr, temp, end_) =>
      let num_digits := if afterdec =? 0 then 0%nat
                        else match temp with Some t => (length ptr - length t)%nat | None => 0%nat end in
      do '(v, num_digits, rv) <- join_loop n afterdec num_digits rv;
      let val := reduce (mkd v (num_digits mod 256)) in
      match end_ with
      | None => Ok (rv, val, None)
      | Some e =>
        do is_exp <- (if (length s - length e <? len + 1)%nat then do c <- rd e 0; Ok (is_e c) else Ok false);
        if is_exp : bool then
          let ptr := skipn 1 e in
          let num_read := (length s - length ptr)%nat in
          let len_left := if (num_read <=? len)%nat then (len - num_read)%nat else S (length ptr) in
          do '(intrv, n, p) <- to_int64_ex ptr len_left 10 n;
          match intrv with
          | IOverflow => Ok (Overflow, val, None)
          | IInvalid => Ok (Invalid, val, None)
          | ISuccess =>
            do m <-
              (if 0 <=? n then
                 if 255 <? n then Ok None
                 else match exp_int64 10 (Z.to_nat n) with
                      | (Overflow, _) => Ok None
                      | (_, exp) => Ok (Some (from_int exp 0))
                      end
               else
                 do n <- chk (n * -1);
                 if 255 <? n then Ok None else Ok (Some (from_int 1 (Z.to_nat n))));
            match m with
            | None => Ok (Overflow, val, None)
            | Some multiplier =>
              do '(exprv, val) <- multiply val val multiplier;
              match exprv with
              | Overflow => Ok (Overflow, val, None)
              | Truncation => Ok (Truncation, reduce val, p)
              | _ => Ok (rv, reduce val, p)
              end
            end
          end
        else Ok (rv, val, end_)
      end
    end
  end.

(** Model of text/textcodec/m_textcodec_punycode.c.  The input is its content
    without the terminator; the output is the list of bytes added to the buffer.
    Both functions are only called with a non-empty string
    (text/textcodec/m_textcodec.c:120, 211). *)
From Verif Require Import Base.Lib Utf8.Model.
Local Open Scope N_scope.

(** [M_uint32] arithmetic. *)
Definition w32 (n : N) : N := n mod 2 ^ 32.
Definition max32 : N := 2 ^ 32 - 1.
(** [a - b] for [M_uint32] values *)
Definition sub32 (a b : N) : N := (a + (2 ^ 32 - b)) mod 2 ^ 32.

(** Lines 28-34: [base] 36, [tmin] 1, [tmax] 26, [skew] 38, [damp] 700,
    [initial_bias] 72, [initial_n] 128. *)

(** adapt, lines 38-57; first the loop of lines 52-55.  Dividing by zero is
    undefined. *)
Fixpoint adapt_loop (fuel : nat) (delta k : N) : res (N * N) :=
  match fuel with
  | O => Fuel
  | S f => if 455 <? delta then adapt_loop f (delta / 35) (w32 (k + 36)) else Ok (delta, k)
  end.
Definition adapt (delta numpoints : N) (firsttime : bool) : res N :=
  let delta := if firsttime then delta / 700 else delta / 2 in
  if numpoints =? 0 then UB
  else
  let delta := w32 (delta + delta / numpoints) in
  do '(delta, k) <- adapt_loop 33 delta 0;
  Ok (w32 (k + w32 (36 * delta) / w32 (delta + 38))).

(** Lines 59-67 *)
Definition encode_digit (d : N) : N := if d <=? 25 then d + 0x61 else d + 0x16.
(** Lines 69-78 *)
Definition decode_digit (d : N) : N :=
  if (0x41 <=? d) && (d <=? 0x5A) then d - 0x41
  else if (0x61 <=? d) && (d <=? 0x7A) then d - 0x61
  else if (0x30 <=? d) && (d <=? 0x39) then d - 0x16
  else 36.
(** Lines 80-88 *)
Definition threshold (k bias : N) : N :=
  if k <=? w32 (bias + 1) then 1 else if w32 (bias + 26) <=? k then 26 else sub32 k bias.

(** Lines 173-183: the digits of [delta].  The bound SIZE_MAX on [k] is left
    out. *)
Fixpoint encode_int (fuel : nat) (k bias q : N) : res (list N) :=
  match fuel with
  | O => Fuel
  | S f =>
    let t := threshold (w32 k) bias in
    if q <? t then Ok [encode_digit q]
    else do r <- encode_int f (k + 36) bias ((q - t) / (36 - t));
         Ok (encode_digit (t + (q - t) mod (36 - t)) :: r)
  end.

(** The loop of lines 152-187 over the code points of the input.  [None] is the
    jump to [fail]. *)
Fixpoint encode_inner (s : list N) (n delta bias h b : N) (buf : list N) : res (option (N * N * N * list N)) :=
  match s with
  | [] => Ok (Some (delta, bias, h, buf))
  | c :: s' =>
    if c <? n then
      if delta =? max32 then Ok None else encode_inner s' n (w32 (delta + 1)) bias h b buf
    else if n <? c then encode_inner s' n delta bias h b buf
    else
      do ds <- encode_int 33 36 bias delta;
      do bias <- adapt delta (w32 (h + 1)) (h =? b);
      encode_inner s' n 0 bias (w32 (h + 1)) b (buf ++ ds)
  end.

(** The loop of lines 138-191; [nb] is the list [non_basic]. *)
Fixpoint encode_outer (nb s : list N) (n delta bias h b : N) (buf : list N) : res (option (list N)) :=
  match nb with
  | [] => Ok (Some buf)
  | m :: nb' =>
    if w32 (h + 1) =? 0 then UB
    else if (max32 - delta) / w32 (h + 1) <? sub32 m n then Ok None
    else
    do r <- encode_inner s m (w32 (delta + sub32 m n * w32 (h + 1))) bias h b buf;
    match r with
    | None => Ok None
    | Some (delta, bias, h, buf) => encode_outer nb' s (w32 (m + 1)) (w32 (delta + 1)) bias h b buf
    end
  end.

(** M_list_u64_insert into a sorted set (base/list/m_list_u64.c:104; the list
    itself is the subject of List/Model.v). *)
Fixpoint set_insert (x : N) (l : list N) : list N :=
  match l with
  | [] => [x]
  | y :: l' => if x <? y then x :: l else if x =? y then l else y :: set_insert x l'
  end.

(** The code points met by the loops of lines 124 and 153. *)
Fixpoint code_points (fuel : nat) (p : option (list N)) : res (list N) :=
  match fuel with
  | O => Fuel
  | S f =>
    match p with
    | None => Ok []
    | Some p =>
      do c <- rd p 0;
      if c =? 0 then Ok []
      else
      do '(e, cp, next) <- get_cp p;
      if uerr_ok e then do r <- code_points f next; Ok (cp :: r) else Ok []
    end
  end.

Inductive pres := PSuccess (out : list N) | PFail | PBadInput.

(** Lines 117-198 on the code points; the input is gone through once here and not
    once per distinct code point. *)
Definition encode_cps (s : list N) : res pres :=
  let basic := filter (fun c => c <? 0x80) s in
  let non_basic := fold_left (fun l c => if c <? 0x80 then l else set_insert c l) s [] in
  let h := w32 (N.of_nat (length basic)) in
  let buf := if h =? 0 then basic else basic ++ [45] in
  do r <- encode_outer non_basic s 128 0 72 h h buf;
  Ok (match r with Some buf => PSuccess buf | None => PFail end).

(** M_textcodec_encode_punycode, lines 92-199; [s] is the content of [in]. *)
Definition puny_encode (s : list N) : res pres :=
  if forallb (fun c => c <? 128) s then Ok (PSuccess (s ++ [45]))
  else
  do '(v, _) <- utf8_is_valid (s ++ [0]);
  if negb v then Ok PBadInput
  else
  do cps <- code_points (S (length s)) (Some (s ++ [0]));
  encode_cps cps.

(** Lines 252-272 from position [p] on: the new [i] and the rest.  The bound
    SIZE_MAX on [k] is left out. *)
Fixpoint decode_int (p : list N) (k bias w i : N) : res (option (N * list N)) :=
  match p with
  | [] => UB
  | c :: p' =>
    let d := decode_digit c in
    if 36 <=? d then Ok None
    else if w =? 0 then UB
    else if (max32 - i) / w <? d then Ok None
    else
    let i := w32 (i + w32 (d * w)) in
    let t := threshold (w32 k) bias in
    if d <? t then Ok (Some (i, p'))
    else if max32 / (36 - t) <? w then Ok None
    else decode_int p' (k + 36) bias (w32 (w * (36 - t))) i
  end.

(** M_list_str_insert_at on an unsorted list (base/list/m_list_str.c:121). *)
Definition insert_at (x : list N) (i : nat) (l : list (list N)) : list (list N) := firstn i l ++ x :: skipn i l.

(** The string in [tempa]. *)
Fixpoint c_str (l : list N) : list N :=
  match l with
  | [] => []
  | c :: l' => if c =? 0 then [] else c :: c_str l'
  end.

(** The loop of lines 245-286; [p] ends with the terminator. *)
Fixpoint decode_loop (fuel : nat) (p : list N) (i n bias : N) (l : list (list N)) : res (option (list (list N))) :=
  match fuel with
  | O => Fuel
  | S f =>
    do c <- rd p 0;
    if c =? 0 then Ok (Some l)
    else
    do r <- decode_int p 36 bias 1 i;
    match r with
    | None => Ok None
    | Some (i', p') =>
      let len2 := N.of_nat (length l) + 1 in
      do bias <- adapt (w32 (i' - i)) (w32 len2) (i =? 0);
      let n := w32 (n + w32 (i' / len2)) in
      if w32 len2 =? 0 then UB
      else
      let i := i' mod w32 len2 in
      do '(e, tempa, len) <- from_cp (repeat 0 8) 8 n;
      match e, len with
      | USuccess, Some len =>
        do tempa <- wr tempa len 0;
        decode_loop f p' (w32 (i + 1)) n bias (insert_at (c_str tempa) (N.to_nat i) l)
      | _, _ => Ok None
      end
    end
  end.

(** M_str_rchr(in, '-'), lines 226-239: the part before the last hyphen and the
    part after it. *)
Fixpoint rsplit (s : list N) : option (list N * list N) :=
  match s with
  | [] => None
  | c :: s' =>
    match rsplit s' with
    | Some (a, b) => Some (c :: a, b)
    | None => if c =? 45 then Some ([], s') else None
    end
  end.

(** M_textcodec_decode_punycode, lines 201-299 *)
Definition puny_decode (s : list N) : res pres :=
  if negb (forallb (fun c => c <? 128) s) then Ok PBadInput
  else
  let '(basic, p) := match rsplit s with Some (a, b) => (a, b) | None => ([], s) end in
  do r <- decode_loop (S (length p)) (p ++ [0]) 0 128 72 (map (fun c => [c]) basic);
  Ok (match r with Some l => PSuccess (concat l) | None => PFail end).

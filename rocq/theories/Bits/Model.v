(** Model of the bit buffer base/data/m_bit_buf.c and the bit parser
    base/data/m_bit_parser.c.

    The M_buf_t inside a bit buffer is represented by its contents (that M_buf
    behaves like a byte string is property C23, see Buf); M_buf_peek gives
    access to the contents and to the terminating zero behind them.  Sizes are
    unbounded.  NULL arguments are not modelled, nor are M_bit_buf_reserve
    (lines 383-393, no visible effect), M_bit_buf_finish and the M_buf variant
    M_bit_parser_read_buf (lines 397-421) of M_bit_parser_read_bytes. *)
From Verif Require Import Base.Lib Base.Mem Hex.Model Bithacks.Model Bits.Spec.
Local Open Scope N_scope.

(** struct M_bit_buf: m_bit_buf.c lines 31-34 *)
Record bbuf := mkb { bb : list N; nb : nat }.
Definition bb_create : bbuf := mkb [] 0.

(** Set a bit in the last byte: lines 164-167, 194-197. *)
Definition set_last (l : list N) (pos : N) : res (list N) :=
  match length l with
  | O => UB
  | S k => do c <- rd l k; wr l k (N.lor c (N.shiftl 1 pos))
  end.
Definition next_pos (n : nat) : N := 7 - N.of_nat n mod 8.

(** M_bit_buf_add_bit: lines 177-201 *)
Definition add_bit (b : bbuf) (bit : bool) : res bbuf :=
  let pos := next_pos (nb b) in
  let l := if pos =? 7 then bb b ++ [0] else bb b in
  do l <- (if bit then set_last l pos else Ok l);
  Ok (mkb l (S (nb b))).

(** M_bit_buf_fill: lines 140-174 *)
Fixpoint fill (fuel : nat) (b : bbuf) (bit : bool) (n : nat) : res bbuf :=
  match n with
  | O => Ok b
  | _ =>
    match fuel with
    | O => Fuel
    | S f =>
      let pos := next_pos (nb b) in
      if (pos =? 7) && (8 <=? n)%nat then fill f (mkb (bb b ++ [if bit then 255 else 0]) (nb b + 8)) bit (n - 8)
      else
      let l := if pos =? 7 then bb b ++ [0] else bb b in
      do l <- (if bit then set_last l pos else Ok l);
      fill f (mkb l (S (nb b))) bit (n - 1)
    end
  end.
Definition bit_fill (b : bbuf) (bit : bool) (n : nat) : res bbuf := fill n b bit n.

(** M_bit_buf_update_bit: lines 220-254 *)
Definition update_bit (b : bbuf) (idx : nat) (bit : bool) : res (bool * bbuf) :=
  if (nb b <=? idx)%nat then Ok (false, b)
  else
  let i := (idx / 8)%nat in
  let pos := 7 - N.of_nat idx mod 8 in
  if (length (bb b) <=? i)%nat then Ok (false, b)
  else
  do c <- rd (bb b) i;
  do l <- wr (bb b) i (if bit then N.lor c (N.shiftl 1 pos) else N.land c (N.lxor 255 (N.shiftl 1 pos)));
  Ok (true, mkb l (nb b)).

(** M_bit_buf_set_bit: lines 204-217 *)
Definition set_bit (b : bbuf) (bit : bool) (idx : nat) (fill_bit : bool) : res bbuf :=
  if (idx <? nb b)%nat then do '(_, b) <- update_bit b idx bit; Ok b
  else do b <- bit_fill b fill_bit (idx - nb b); add_bit b bit.

(** M_bit_buf_add: lines 293-320 *)
Fixpoint add_loop (b : bbuf) (v : N) (n : nat) : res bbuf :=
  match n with
  | O => Ok b
  | S n' => do b <- add_bit b (negb (N.land (N.shiftr v (N.of_nat n')) 1 =? 0)); add_loop b v n'
  end.
Definition pad_bits (p : pad) (total : nat) : nat :=
  match p with
  | PNone => O
  | _ => let rem := (total mod 8)%nat in if (rem =? 0)%nat then O else (8 - rem)%nat
  end.
Definition add (b : bbuf) (v : N) (n : nat) (p : pad) : res bbuf :=
  if (n <? 1)%nat || (64 <? n)%nat then Ok b
  else
  let k := pad_bits p (nb b + n) in
  do b <- (match p with PBefore => bit_fill b false k | _ => Ok b end);
  do b <- add_loop b v n;
  match p with PAfter => bit_fill b false k | _ => Ok b end.

(** M_bit_buf_add_bytes: lines 257-290 *)
Fixpoint bytes_loop (b : bbuf) (d : list N) (i k : nat) : res bbuf :=
  match k with
  | O => Ok b
  | S k' => do c <- rd d i; do b <- add b c 8 PNone; bytes_loop b d (S i) k'
  end.
Definition add_bytes (b : bbuf) (d : list N) (n : nat) : res bbuf :=
  if (n =? 0)%nat then Ok b
  else
  let whole := (n / 8)%nat in
  let rest := (n mod 8)%nat in
  if (nb b mod 8 =? 0)%nat then
    do l <- rdn d 0 (whole + (if (0 <? rest)%nat then 1 else 0));
    Ok (mkb (bb b ++ l) (nb b + n))
  else
  do b <- bytes_loop b d 0 whole;
  if (0 <? rest)%nat then
    do c <- rd d whole;
    add b (N.shiftr c (8 - N.of_nat rest)) rest PNone
  else Ok b.

(** M_bit_buf_add_bitstr: lines 323-380; the string is the list of its
    characters. *)
Fixpoint bitstr_loop (b : bbuf) (s : list N) : res (bool * bbuf) :=
  match s with
  | [] => Ok (true, b)
  | c :: s' =>
    if chr_isspace c then bitstr_loop b s'
    else if negb (c =? 48) && negb (c =? 49) then Ok (false, b)
    else do b <- add_bit b (negb (c =? 48)); bitstr_loop b s'
  end.
Fixpoint count_loop (s : list N) (n : nat) : nat :=
  match s with [] => n | c :: s' => count_loop s' (if (c =? 48) || (c =? 49) then S n else n) end.
Definition add_bitstr (b : bbuf) (s : list N) (p : pad) : res (bool * bbuf) :=
  match s with
  | [] => Ok (true, b)
  | _ =>
    let k := match p with PNone => O | _ => pad_bits p (nb b + count_loop s 0) end in
    do b <- (match p with PBefore => bit_fill b false k | _ => Ok b end);
    do '(ok, b) <- bitstr_loop b s;
    if negb ok then Ok (false, b)
    else
    do b <- (match p with PAfter => bit_fill b false k | _ => Ok b end);
    Ok (true, b)
  end.

(** M_bit_buf_truncate: lines 110-137; line 127 reads the byte holding the
    last partial bits, the terminator at most. *)
Definition truncate (b : bbuf) (n : nat) : res bbuf :=
  let full := (n / 8)%nat in
  let part := (n mod 8)%nat in
  if (part =? 0)%nat then Ok (mkb (firstn full (bb b)) n)
  else
  do c <- rd (bb b ++ [0]) full;
  let mask := N.shiftl 1 (8 - N.of_nat part) in
  let mask := N.lxor 255 (mask - 1) in
  Ok (mkb (firstn full (bb b) ++ [N.land c mask]) n).

Definition step (b : bbuf) (o : bop) : res (bool * bbuf) :=
  match o with
  | AddBit x => do b <- add_bit b x; Ok (true, b)
  | Fill x n => do b <- bit_fill b x n; Ok (true, b)
  | SetBit x i f => do b <- set_bit b x i f; Ok (true, b)
  | UpdateBit i x => update_bit b i x
  | AddBytes d n => do b <- add_bytes b d n; Ok (true, b)
  | Add v n p => do b <- add b v n p; Ok (true, b)
  | AddBitstr s p => add_bitstr b s p
  | Trunc n => do b <- truncate b n; Ok (true, b)
  end.
Fixpoint run (ops : list bop) (b : bbuf) (rs : list bool) : res (list bool * bbuf) :=
  match ops with [] => Ok (rs, b) | o :: ops' => do '(r, b) <- step b o; run ops' b (r :: rs) end.

(** struct M_bit_parser: m_bit_parser.c lines 31-38.  [pm] is the object
    [bytes] points to. *)
Record bparser := mkp { pm : list N; pn : nat; po : nat; pk : nat; pb : option bbuf }.
(** M_bit_buf_peek: the contents and the terminator *)
Definition peek (b : bbuf) : list N := bb b ++ [0].
(** M_bit_parser_create, M_bit_parser_create_const: lines 121-147 *)
Definition p_create (d : list N) (n : nat) : res bparser :=
  do b <- add_bytes bb_create d n; Ok (mkp (peek b) n 0 0 (Some b)).
Definition p_create_const (d : list N) (n : nat) : bparser := mkp d n 0 0 None.

(** ensure_append: lines 107-118 *)
Definition ensure_append (p : bparser) : res bbuf :=
  match pb p with Some b => Ok b | None => add_bytes bb_create (pm p) (pn p) end.
Definition owned (p : bparser) (b : bbuf) : bparser := mkp (peek b) (nb b) (po p) (pk p) (Some b).
(** M_bit_parser_append, _append_uint, _append_bitstr: lines 150-195 *)
Definition p_append (p : bparser) (d : list N) (n : nat) : res bparser :=
  if (n =? 0)%nat then Ok p else do b <- ensure_append p; do b <- add_bytes b d n; Ok (owned p b).
Definition p_append_uint (p : bparser) (v : N) (n : nat) : res bparser :=
  if (n =? 0)%nat then Ok p else do b <- ensure_append p; do b <- add b v n PNone; Ok (owned p b).
Definition p_append_bitstr (p : bparser) (s : list N) : res (bool * bparser) :=
  match s with
  | [] => Ok (true, p)
  | _ => do b <- ensure_append p; do '(ok, b) <- add_bitstr b s PNone; Ok (ok, owned p b)
  end.
(** M_bit_parser_reset: lines 198-221 *)
Definition p_reset (p : bparser) (d : list N) (n : nat) : res bparser :=
  do b <- (match pb p with Some b => truncate b 0 | None => Ok bb_create end);
  do b <- add_bytes b d n;
  Ok (mkp (peek b) (nb b) 0 0 (Some b)).

(** M_bit_parser_len: lines 236-243 *)
Definition p_len (p : bparser) : nat := if (pn p <=? po p)%nat then O else (pn p - po p)%nat.
(** peek_next_bit: lines 42-55 *)
Definition next_bit (p : bparser) : res bool :=
  do c <- rd (pm p) (po p / 8); Ok (negb (N.land c (N.shiftl 1 (7 - N.of_nat (po p) mod 8)) =? 0)).
(** M_bit_parser_count: lines 256-290; the result for zero bits may wrap, here
    the difference is in Z. *)
Fixpoint pop_loop (m : list N) (i k : nat) (c : N) : res N :=
  match k with O => Ok c | S k' => do x <- rd m i; do y <- popcount8 x; pop_loop m (S i) k' (c + y) end.
Definition p_count (p : bparser) (bit : bool) : res Z :=
  if (pn p <=? po p)%nat then Ok 0%Z
  else
  let i := (po p / 8)%nat in
  let r := (po p mod 8)%nat in
  do '(i, c) <-
    (if (0 <? r)%nat then
       do x <- rd (pm p) i;
       do y <- popcount8 (N.land (N.shiftl x (N.of_nat r)) 255);
       Ok (S i, y)
     else Ok (i, 0));
  do c <- pop_loop (pm p) i (ceil8 (pn p) - i) c;
  Ok (if bit then Z.of_N c else (Z.of_nat (pn p) - (Z.of_nat (po p) + Z.of_N c))%Z).

Definition seek (p : bparser) (o : nat) : bparser := mkp (pm p) (pn p) o (pk p) (pb p).
(** M_bit_parser_consume: lines 339-351 *)
Definition p_consume (p : bparser) (n : nat) : bool * bparser :=
  if (n =? 0)%nat then (true, p) else if (p_len p <? n)%nat then (false, p) else (true, seek p (po p + n)).
(** M_bit_parser_peek_bit, M_bit_parser_read_bit: lines 354-373 *)
Definition p_peek_bit (p : bparser) : res (option bool) :=
  if (pn p <=? po p)%nat then Ok None else do b <- next_bit p; Ok (Some b).
Definition p_read_bit (p : bparser) : res (option bool * bparser) :=
  do r <- p_peek_bit p;
  match r with None => Ok (None, p) | Some b => Ok (Some b, seek p (S (po p))) end.
(** M_bit_parser_read_bit_buf (376-394) and M_bit_parser_read_strdup (449-466):
    the bits handed over.  (For 0 bits the former succeeds, the latter fails;
    here the former.) *)
Fixpoint bits_loop (p : bparser) (n : nat) (acc : list bool) : res (list bool * bparser) :=
  match n with
  | O => Ok (acc, p)
  | S n' => do b <- next_bit p; bits_loop (seek p (S (po p))) n' (acc ++ [b])
  end.
Definition p_read_bits (p : bparser) (n : nat) : res (bool * list bool * bparser) :=
  if (n =? 0)%nat then Ok (true, [], p)
  else if (p_len p <? n)%nat then Ok (false, [], p)
  else do '(l, p) <- bits_loop p n []; Ok (true, l, p).

(** peek_next_bytes: lines 59-104; the bytes stored, none on failure *)
Fixpoint shift_loop (m : list N) (i : nat) (skip : N) (k : nat) : res (list N) :=
  match k with
  | O => Ok []
  | S k' =>
    do a <- rd m i;
    do b <- rd m (S i);
    do l <- shift_loop m (S i) skip k';
    Ok (N.lor (N.shiftl a skip mod 256) (N.shiftr b (8 - skip)) :: l)
  end.
Definition next_bytes (p : bparser) (destlen n : nat) (strict : bool) : res (list N) :=
  if (n =? 0)%nat then Ok []
  else if (pn p <? po p + n)%nat then Ok []
  else
  let nbytes := ceil8 n in
  let i := (po p / 8)%nat in
  let skip := (po p mod 8)%nat in
  if (destlen <? nbytes)%nat then Ok []
  else
  do l <- (if (skip =? 0)%nat then rdn (pm p) i nbytes else shift_loop (pm p) i (N.of_nat skip) nbytes);
  if strict && (0 <? n mod 8)%nat then
    do c <- rd l (nbytes - 1);
    wr l (nbytes - 1) (N.land c (N.lxor 255 (N.shiftl 1 (8 - N.of_nat (n mod 8)) - 1)))
  else Ok l.
(** M_bit_parser_read_bytes: lines 424-446 *)
Definition p_read_bytes (p : bparser) (destlen n : nat) : res (bool * list N * bparser) :=
  if (n =? 0)%nat then Ok (true, [], p)
  else if (destlen =? 0)%nat then Ok (false, [], p)
  else
  do l <- next_bytes p destlen n true;
  if (length l =? 0)%nat then Ok (false, [], p) else Ok (true, l, seek p (po p + n)).
(** M_bit_parser_read_uint: lines 469-506 *)
Fixpoint be_loop (l : list N) (v : N) : N :=
  match l with [] => v | c :: l' => be_loop l' (N.lor (N.shiftl v 8 mod 2 ^ 64) c) end.
Definition p_read_uint (p : bparser) (n : nat) : res (bool * N * bparser) :=
  if (n =? 0)%nat then Ok (true, 0, p)
  else if (64 <? n)%nat || (p_len p <? n)%nat then Ok (false, 0, p)
  else
  do l <- next_bytes p 8 n false;
  if (length l =? 0)%nat then Ok (false, 0, p)
  else
  let v := be_loop l 0 in
  let r := (n mod 8)%nat in
  let v := if (0 <? r)%nat then N.shiftr v (8 - N.of_nat r) else v in
  Ok (true, v, seek p (po p + n)).
(** M_bit_parser_read_int: lines 509-551; [int64]: conversion to M_int64.
    The result of a failed read is success with the value 0. *)
Definition int64 (n : N) : Z := if n <? 2 ^ 63 then Z.of_N n else (Z.of_N n - 2 ^ 64)%Z.
Definition p_read_int (p : bparser) (n : nat) (f : int_format) : res (bool * Z * bparser) :=
  if (n <? 2)%nat then Ok (false, 0%Z, p)
  else
  match f with
  | SignMag =>
    do '(s, p) <- p_read_bit p;
    match s with
    | None => Ok (true, 0%Z, p)
    | Some s =>
      do '(ok, v, p) <- p_read_uint p (n - 1);
      Ok (true, if ok then if s : bool then (- int64 v)%Z else int64 v else 0%Z, p)
    end
  | OnesComp =>
    do '(ok, v, p) <- p_read_uint p n;
    let mask := N.shiftl 1 (N.of_nat n - 1) in
    Ok (true, if negb ok then 0%Z
              else if negb (N.land v mask =? 0) then (- int64 (N.land (N.lxor (2 ^ 64 - 1) v) (mask - 1)))%Z else int64 v, p)
  | TwosComp =>
    do '(ok, v, p) <- p_read_uint p n;
    let mask := N.shiftl 1 (N.of_nat n - 1) in
    Ok (true, if negb ok then 0%Z else int64 ((N.lxor v mask + 2 ^ 64 - mask) mod 2 ^ 64), p)
  end.
(** M_bit_parser_read_range: lines 554-581 *)
Fixpoint range_loop (fuel : nat) (p : bparser) (bit : bool) (n max : nat) : res (nat * bparser) :=
  match fuel with
  | O => Fuel
  | S f =>
    let n := S n in
    let p := seek p (S (po p)) in
    if (n <? max)%nat then
      do r <- p_peek_bit p;
      match r with
      | Some b => if Bool.eqb b bit then range_loop f p bit n max else Ok (n, p)
      | None => Ok (n, p)
      end
    else Ok (n, p)
  end.
Definition p_read_range (p : bparser) (max : nat) : res (bool * bool * nat * bparser) :=
  if (max =? 0)%nat then Ok (false, false, O, p)
  else
  do r <- p_peek_bit p;
  match r with
  | None => Ok (false, false, O, p)
  | Some b => do '(n, p) <- range_loop (S (pn p)) p b 0 max; Ok (true, b, n, p)
  end.
(** M_bit_parser_consume_to_next: lines 593-625, for [bit] 0 or 1 *)
Definition p_to_next (p : bparser) (bit : bool) (max : nat) : res (bool * bparser) :=
  let len := Nat.min (p_len p) max in
  if (len =? 0)%nat then Ok (false, p)
  else
  do b <- next_bit p;
  if Bool.eqb b bit then Ok (true, seek p (S (po p)))
  else
  do '(_, _, n, p) <- p_read_range p len;
  if (len <=? n)%nat then Ok (false, p) else Ok (true, seek p (S (po p))).

(** The remaining functions: M_bit_parser_current_offset, _rewind_to_start,
    _mark, _mark_len, _mark_rewind: lines 246-253, 293-336 *)
Definition pstep_m (p : bparser) (o : pop) : res (out * bparser) :=
  match o with
  | PAppend d n => do p <- p_append p d n; Ok (OBool true, p)
  | PAppendUint v n => do p <- p_append_uint p v n; Ok (OBool true, p)
  | PAppendBitstr c => do '(ok, p) <- p_append_bitstr p c; Ok (OBool ok, p)
  | PReset d n => do p <- p_reset p d n; Ok (OBool true, p)
  | PLen => Ok (ONat (p_len p), p)
  | POffset => Ok (ONat (po p), p)
  | PCount b => do n <- p_count p b; Ok (ONat (Z.to_nat n), p)
  | PRewindStart => Ok (OBool true, mkp (pm p) (pn p) 0 0 (pb p))
  | PMark => Ok (OBool true, mkp (pm p) (pn p) (po p) (po p) (pb p))
  | PMarkLen => Ok (ONat (po p - pk p), p)
  | PMarkRewind => Ok (ONat (po p - pk p), seek p (pk p))
  | PConsume n => let '(b, p) := p_consume p n in Ok (OBool b, p)
  | PPeekBit => do r <- p_peek_bit p; Ok (match r with None => OBits false [] | Some b => OBits true [b] end, p)
  | PReadBit => do '(r, p) <- p_read_bit p; Ok (match r with None => OBits false [] | Some b => OBits true [b] end, p)
  | PReadBits n => do '(ok, l, p) <- p_read_bits p n; Ok (OBits ok l, p)
  | PReadBytes n dl => do '(ok, l, p) <- p_read_bytes p dl n; Ok (OBytes ok l, p)
  | PReadUint n => do '(ok, v, p) <- p_read_uint p n; Ok (OVal ok (Z.of_N v), p)
  | PReadInt n f => do '(ok, v, p) <- p_read_int p n f; Ok (OVal ok v, p)
  | PReadRange max => do '(ok, b, n, p) <- p_read_range p max; Ok (ORun ok b n, p)
  | PToNext b max => do '(ok, p) <- p_to_next p b max; Ok (OBool ok, p)
  end.
Fixpoint prun_m (ops : list pop) (p : bparser) (rs : list out) : res (list out * bparser) :=
  match ops with [] => Ok (rs, p) | o :: ops' => do '(r, p) <- pstep_m p o; prun_m ops' p (r :: rs) end.

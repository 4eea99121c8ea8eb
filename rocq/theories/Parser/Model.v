(** Model of the stream parser base/data/m_parser.c (struct M_parser:
    base/data/m_parser_int.h:36-52).

    The memory of the parser (data_const or data_dyn) is a list of bytes whose
    length is the size of the object; the empty list stands for NULL.  [data]
    is the offset [ppos] into it; every access is bounds checked.  Sizes and
    counters are unbounded except the wrapped length of a mark lying after the
    current position, see [marked].  Fresh memory is filled with [g] (the
    theorems hold for every [g]).  A NULL parser, NULL arguments and malloc
    failure are not modelled; bytes appended lie outside the parser. *)
From Verif Require Import Base.Lib Base.Mem Hex.Model Buf.Model MemFn.Model.
Local Open Scope N_scope.

Record parser := mkp {
  pdyn : bool;                (* false: created by M_parser_create_const *)
  pmem : list N;
  ppos : nat;
  plen : nat;
  pcons : nat;
  mu : option nat;            (* mark_user; None is -1 *)
  mi : option nat;            (* mark_int *)
  ptrack : bool;              (* M_PARSER_FLAG_TRACKLINES *)
  pline : nat;
  pcol : nat }.

(** M_parser_init, M_parser_create, M_parser_create_const: lines 372-407 *)
Definition create (track : bool) : parser := mkp true [] 0 0 0 None None track 0 0.
Definition create_const (d : list N) (track : bool) : parser := mkp false d 0 (length d) 0 None None track 0 0.

(** M_parser_marked_buffer_start: lines 40-67; [u], [i] are the bits of
    [type].  The start and [*len_marked]; [None] for "no mark".  A mark after
    the current position makes the pointer difference negative, hence the
    length wraps. *)
Definition min_mark (u i : bool) (p : parser) : option nat :=
  let a := if u then mu p else None in
  let b := if i then mi p else None in
  match a, b with
  | Some x, Some y => if (y <? x)%nat then Some y else Some x
  | Some x, None => Some x
  | None, _ => b
  end.
Definition marked (u i : bool) (p : parser) : nat * N :=
  match min_mark u i p with
  | None => (ppos p, 0)
  | Some k => (k, if (k <=? ppos p)%nat then N.of_nat (ppos p - k) else 2 ^ 64 - N.of_nat (k - ppos p))
  end.

Definition set_mem (p : parser) (m : list N) : parser :=
  mkp (pdyn p) m (ppos p) (plen p) (pcons p) (mu p) (mi p) (ptrack p) (pline p) (pcol p).
Definition set_marks (p : parser) (u i : option nat) : parser :=
  mkp (pdyn p) (pmem p) (ppos p) (plen p) (pcons p) u i (ptrack p) (pline p) (pcol p).

(** M_parser_mark_int: lines 70-94 *)
Definition mark_int (u i : bool) (p : parser) : parser :=
  set_marks p (if u then Some (ppos p) else mu p) (if i then Some (ppos p) else mi p).

(** M_parser_mark_clear_int: lines 97-121; overwriting from a mark after the
    current position is out of bounds. *)
Definition is_none {A} (o : option A) : bool := match o with None => true | _ => false end.
Definition mark_clear_int (u i : bool) (p : parser) : res parser :=
  let '(start, n) := marked true true p in
  let u' := if u then None else mu p in
  let i' := if i then None else mi p in
  if pdyn p && negb (length (pmem p) =? 0)%nat && negb (n =? 0) && is_none u' && is_none i' then
    if (ppos p <? start)%nat then UB
    else do m <- wrn (pmem p) start (repeat 255 (ppos p - start)); Ok (set_marks (set_mem p m) u' i')
  else Ok (set_marks p u' i').

(** The least power of two not below n (M_size_t_round_up_to_power_of_two, see
    Bithacks for n <= 2^63) *)
Definition round_up (n : nat) : nat := (2 ^ Nat.log2_up n)%nat.

(** M_parser_ensure_space: lines 421-460.  When a mark lies after the current
    position line 446 moves [data] out of the buffer. *)
Definition shift_mark (k : nat) (m : option nat) : option nat := option_map (fun x => (x - k)%nat) m.
(** Lines 426-447: move what must be kept to the front; the parser and [keep_len]. *)
Definition chop (p : parser) : res (parser * nat) :=
  if (length (pmem p) =? 0)%nat then Ok (p, O)
  else
  let start := match min_mark true true p with None => ppos p | Some k => k end in
  if (ppos p <? start)%nat then UB
  else
  let len_marked := (ppos p - start)%nat in
  let keep := (plen p + len_marked)%nat in
  do '(m, u, i) <-
    (if negb (start =? 0)%nat && negb (keep =? 0)%nat then
       do m <- mmove (pmem p) 0 start keep;
       Ok (m, shift_mark start (mu p), shift_mark start (mi p))
     else Ok (pmem p, mu p, mi p));
  Ok (mkp (pdyn p) m len_marked (plen p) (pcons p) u i (ptrack p) (pline p) (pcol p), keep).
Definition ensure_space (g : N) (p : parser) (len : nat) : res parser :=
  do '(p, keep) <- chop p;
  if (len =? 0)%nat then Ok p
  else if (length (pmem p) =? 0)%nat || (length (pmem p) - keep <? len)%nat then
    Ok (set_mem p (realloc g (Some (pmem p)) (round_up (keep + len))))
  else Ok p.

Definition set_len (p : parser) (n : nat) : parser :=
  mkp (pdyn p) (pmem p) (ppos p) n (pcons p) (mu p) (mi p) (ptrack p) (pline p) (pcol p).

(** M_parser_append: lines 463-486 *)
Definition append (g : N) (p : parser) (d : list N) : res (bool * parser) :=
  if negb (pdyn p) then Ok (false, p)
  else if (length d =? 0)%nat then Ok (true, p)
  else
  do p <- ensure_space g p (length d);
  do m <- wrn (pmem p) (ppos p + plen p) d;
  Ok (true, set_len (set_mem p m) (plen p + length d)).

(** M_parser_direct_write_start, M_parser_direct_write_end: lines 489-506; in
    between the caller stores [d].  Result: the space reported. *)
Definition direct_write (g : N) (p : parser) (want : nat) (d : list N) : res (nat * parser) :=
  if negb (pdyn p) || (want =? 0)%nat then Ok (O, p)
  else
  do p <- ensure_space g p want;
  let room := (length (pmem p) - ppos p - plen p)%nat in
  do m <- wrn (pmem p) (ppos p + plen p) d;
  Ok (room, set_len (set_mem p m) (plen p + length d)).

(** M_parser_compare: lines 546-552 *)
Definition compare (p : parser) (d : list N) : res bool :=
  if (length d =? 0)%nat || (plen p <? length d)%nat then Ok false
  else mem_eq (skipn (ppos p) (pmem p)) d (length d).

(** Line tracking of M_parser_consume: lines 909-921 *)
Fixpoint track_loop (m : list N) (i n line col : nat) : res (nat * nat) :=
  match n with
  | O => Ok (line, col)
  | S n' =>
    do c <- rd m i;
    if c =? 10 then track_loop m (S i) n' (S line) 0 else track_loop m (S i) n' line (S col)
  end.

(** M_parser_consume: lines 901-934 *)
Definition consume (p : parser) (len : nat) : res (bool * parser) :=
  if (plen p <? len)%nat then Ok (false, p)
  else
  do '(line, col) <- (if ptrack p then track_loop (pmem p) (ppos p) len (pline p) (pcol p) else Ok (pline p, pcol p));
  do m <- (if pdyn p && is_none (mu p) && is_none (mi p) then wrn (pmem p) (ppos p) (repeat 255 len) else Ok (pmem p));
  Ok (true, mkp (pdyn p) m (ppos p + len) (plen p - len) (pcons p + len) (mu p) (mi p) (ptrack p) line col).

(** M_parser_rewind_int: lines 610-664 *)
Fixpoint untrack_loop (m : list N) (i n line : nat) : res nat :=
  match n with
  | O => Ok line
  | S n' => do c <- rd m i; untrack_loop m (S i) n' (if c =? 10 then (line - 1)%nat else line)
  end.
(** Lines 655-660: bytes before [i] back to the last newline *)
Fixpoint col_back (m : list N) (i : nat) (col : nat) : res nat :=
  match i with
  | O => Ok col
  | S i' => do c <- rd m i'; if c =? 10 then Ok col else col_back m i' (S col)
  end.
Definition drop_mark (pos : nat) (m : option nat) : option nat :=
  match m with Some k => if (pos <? k)%nat then None else m | None => None end.
Definition rewind_int (p : parser) (len : N) : res (bool * parser) :=
  if len =? 0 then Ok (false, p)
  else if N.of_nat (ppos p) <? len then Ok (false, p)
  else
  let len := N.to_nat len in
  let pos := (ppos p - len)%nat in
  do '(line, col) <-
    (if ptrack p then
       do line <- untrack_loop (pmem p) pos len (pline p);
       do col <- col_back (pmem p) pos 0;
       Ok (line, col)
     else Ok (pline p, pcol p));
  Ok (true, mkp (pdyn p) (pmem p) pos (plen p + len) (pcons p - len) (drop_mark pos (mu p)) (drop_mark pos (mi p))
                (ptrack p) line col).

(** M_parser_mark, _mark_clear, _mark_len, _mark_rewind: lines 588-605, 667-686 *)
Definition mark (p : parser) : parser := mark_int true false p.
Definition mark_clear (p : parser) : res parser := mark_clear_int true false p.
Definition mark_len (p : parser) : N := snd (marked true false p).
Definition mark_rewind (p : parser) : res (N * parser) :=
  let len := mark_len p in
  if len =? 0 then Ok (0, p) else do '(_, p) <- rewind_int p len; Ok (len, p).

(** M_parser_reset: lines 689-701 *)
Definition reset (p : parser) : res (nat * parser) :=
  if pdyn p && negb (length (pmem p) =? 0)%nat then Ok (O, p)
  else
  let len := pcons p in
  do '(ok, p) <- rewind_int p (N.of_nat len);
  Ok (if ok : bool then len else O, p).

(** M_parser_peek_bytes: lines 734-741; also M_parser_peek_byte with len 1 *)
Definition peek_bytes (p : parser) (len : nat) : res (bool * list N) :=
  if (plen p <? len)%nat || (len =? 0)%nat then Ok (false, [])
  else do l <- rdn (pmem p) (ppos p) len; Ok (true, l).

(** M_parser_peek_mark: lines 715-721, and the bytes readable there *)
Definition peek_mark (p : parser) : res (list N) :=
  let '(start, len) := marked true false p in rdn (pmem p) start (N.to_nat len).

(** M_parser_truncate: lines 746-762 *)
Definition truncate (p : parser) (len : nat) : res (bool * parser) :=
  if (plen p <? len)%nat then Ok (false, p)
  else
  do m <- (if pdyn p && negb (length (pmem p) =? 0)%nat then wrn (pmem p) (ppos p + len) (repeat 255 (plen p - len)) else Ok (pmem p));
  Ok (true, set_len (set_mem p m) len).

(** M_parser_truncate_whitespace: lines 765-796; [nl], [sp] are the flags
    TO_NEWLINE and SPACEONLY.  Line 777 reads data[dlen-1] also when dlen is 0:
    the byte in front of the remaining data. *)
Fixpoint tws_loop (m : list N) (pos dlen : nat) (nl sp : bool) : res nat :=
  match dlen with
  | O => Ok O
  | S d =>
    do c <- rd m (pos + d);
    if nl && (c =? 10) then Ok dlen
    else if sp && negb (c =? 32) then Ok dlen
    else if negb (chr_isspace c) then Ok dlen
    else tws_loop m pos d nl sp
  end.
Definition truncate_whitespace (p : parser) (nl sp : bool) : res (nat * parser) :=
  do dlen <-
    (if nl then
       if (ppos p + plen p =? 0)%nat then UB
       else
       do c <- rd (pmem p) (ppos p + plen p - 1);
       if c =? 10 then if (plen p =? 0)%nat then UB (* dlen wraps *) else Ok (plen p - 1)%nat
       else Ok (plen p)
     else Ok (plen p));
  do dlen <- tws_loop (pmem p) (ppos p) dlen nl sp;
  let consumed := (plen p - dlen)%nat in
  if (consumed =? 0)%nat then Ok (O, p) else do '(_, p) <- truncate p dlen; Ok (consumed, p).

(** M_parser_truncate_until: lines 799-819 *)
Definition truncate_until (p : parser) (pat : list N) (eat : bool) : res (nat * parser) :=
  if (length pat =? 0)%nat || (plen p <? length pat)%nat then Ok (O, p)
  else
  do h <- rdn (pmem p) (ppos p) (plen p);
  do r <- mem_rmem h (plen p) pat (length pat);
  let n := match r with
           | None => plen p
           | Some o => if eat then (plen p - o)%nat else (plen p - o - length pat)%nat
           end in
  do '(_, p) <- truncate p (plen p - n);
  Ok (n, p).

(** M_parser_truncate_charset (lines 822-842) and M_parser_truncate_predicate_max
    (lines 845-868): [f] is membership in the set or the predicate; counts the
    bytes from the end satisfying it, at most [k]. *)
Fixpoint back_loop (f : N -> bool) (m : list N) (pos dlen k : nat) : res nat :=
  match k, dlen with
  | O, _ | _, O => Ok dlen
  | S k', S d => do c <- rd m (pos + d); if f c then back_loop f m pos d k' else Ok dlen
  end.
Definition truncate_charset (p : parser) (cs : list N) : res (nat * parser) :=
  if (length cs =? 0)%nat then Ok (O, p)
  else
  do d <- back_loop (fun c => existsb (N.eqb c) cs) (pmem p) (ppos p) (plen p) (plen p);
  do '(_, q) <- truncate p d;
  Ok ((plen p - d)%nat, q).
Definition truncate_predicate_max (p : parser) (f : N -> bool) (max : nat) : res (nat * parser) :=
  if (max =? 0)%nat then Ok (O, p)
  else
  do d <- back_loop f (pmem p) (ppos p) (plen p) max;
  do '(_, q) <- truncate p d;
  Ok ((plen p - d)%nat, q).

(** Forward scans: the number of bytes from [i] on satisfying [f], at most [k].
    Lines 1040-1044; with membership in the set, lines 176-185. *)
Fixpoint span_loop (f : N -> bool) (m : list N) (i k n : nat) : res nat :=
  match k with
  | O => Ok n
  | S k' => do c <- rd m i; if f c then span_loop f m (S i) k' (S n) else Ok n
  end.
(** M_parser_consume_predicate_max: lines 1030-1048 *)
Definition consume_predicate_max (p : parser) (f : N -> bool) (max : nat) : res (nat * parser) :=
  if (max =? 0)%nat then Ok (O, p)
  else
  do n <- span_loop f (pmem p) (ppos p) (Nat.min max (plen p)) 0;
  do '(_, p) <- consume p n;
  Ok (n, p).
(** M_parser_consume_charset_int: lines 168-189 *)
Definition in_set (cs : list N) (inclusion : bool) (c : N) : bool := Bool.eqb (existsb (N.eqb c) cs) inclusion.
Definition consume_charset_int (p : parser) (cs : list N) (inclusion : bool) : res (nat * parser) :=
  if (length cs =? 0)%nat then Ok (O, p)
  else
  do n <- span_loop (in_set cs inclusion) (pmem p) (ppos p) (plen p) 0;
  do '(_, p) <- consume p n;
  Ok (n, p).

(** M_parser_consume_whitespace: lines 937-961 *)
Fixpoint ws_loop (m : list N) (i k n : nat) (nl sp : bool) : res nat :=
  match k with
  | O => Ok n
  | S k' =>
    do c <- rd m i;
    if nl && (c =? 10) then Ok (S n)
    else if (if sp then negb (c =? 32) else negb (chr_isspace c)) then Ok n
    else ws_loop m (S i) k' (S n) nl sp
  end.
Definition consume_whitespace (p : parser) (nl sp : bool) : res (nat * parser) :=
  do n <- ws_loop (pmem p) (ppos p) (plen p) 0 nl sp;
  do '(_, p) <- consume p n;
  Ok (n, p).

(** M_parser_consume_eol: lines 1094-1110 *)
Fixpoint eol_loop (m : list N) (i k n : nat) : res nat :=
  match k with
  | O => Ok n
  | S k' => do c <- rd m i; if c =? 10 then Ok (S n) else eol_loop m (S i) k' (S n)
  end.
Definition consume_eol (p : parser) : res (nat * parser) :=
  do n <- eol_loop (pmem p) (ppos p) (plen p) 0;
  do '(_, p) <- consume p n;
  Ok (n, p).

(** M_parser_consume_until: lines 964-984 *)
Definition consume_until (p : parser) (pat : list N) (eat : bool) : res (nat * parser) :=
  if (length pat =? 0)%nat then Ok (O, p)
  else
  do h <- rdn (pmem p) (ppos p) (plen p);
  do r <- mem_mem h (plen p) pat (length pat);
  match r with
  | None => Ok (O, p)
  | Some o =>
    let n := if eat then (o + length pat)%nat else o in
    do '(_, p) <- consume p n;
    Ok (n, p)
  end.

(** M_parser_consume_boundary: lines 987-1021.  The loop (1001-1013) runs at
    least once, even without data. *)
Fixpoint boundary_loop (fuel : nat) (m : list N) (pos len : nat) (pat : list N) (i j consumed : nat) : res (bool * nat) :=
  match fuel with
  | O => Fuel
  | S f =>
    do c <- rd m (pos + i);
    do x <- rd pat j;
    let i := S i in
    let '(j, consumed, found) :=
      if c =? x then (S j, consumed, (length pat <=? S j)%nat) else (O, i, false) in
    if (i <? len)%nat && negb found then boundary_loop f m pos len pat i j consumed else Ok (found, consumed)
  end.
Definition consume_boundary (p : parser) (pat : list N) (eat : bool) : res (nat * bool * parser) :=
  if (length pat =? 0)%nat then Ok (O, false, p)
  else
  do '(found, n) <- boundary_loop (S (plen p)) (pmem p) (ppos p) (plen p) pat 0 0 0;
  let n := if found && eat then (n + length pat)%nat else n in
  do '(_, p) <- consume p n;
  Ok (n, found, p).

(** M_parser_read_bytes: lines 1205-1213 (M_parser_read_byte, lines 1194-1202,
    is the case len = 1): the M_bool and the bytes stored. *)
Definition read_bytes (p : parser) (len : nat) : res (bool * list N * parser) :=
  if (plen p <? len)%nat || (len =? 0)%nat then Ok (false, [], p)
  else
  do l <- rdn (pmem p) (ppos p) len;
  do '(_, p) <- consume p len;
  Ok (true, l, p).

(** M_parser_read_bytes_max: lines 1216-1230 *)
Definition read_bytes_max (p : parser) (len buf_len : nat) : res (nat * list N * parser) :=
  if (buf_len <? len)%nat then Ok (O, [], p)
  else
  let len := Nat.min len (plen p) in
  if (len =? 0)%nat then Ok (O, [], p)
  else
  do l <- rdn (pmem p) (ppos p) len;
  do '(_, p) <- consume p len;
  Ok (len, l, p).

(** M_parser_read_bytes_mark_int: lines 124-145; [user] selects the mark *)
Definition read_bytes_mark_int (user : bool) (p : parser) (buf_len : nat) : res (nat * list N * parser) :=
  if (buf_len =? 0)%nat then Ok (O, [], p)
  else
  let '(start, len) := marked user (negb user) p in
  if len =? 0 then Ok (O, [], p)
  else if N.of_nat buf_len <? len then Ok (O, [], p)
  else
  do l <- rdn (pmem p) start (N.to_nat len);
  do p <- mark_clear_int user (negb user) p;
  Ok (N.to_nat len, l, p).

(** The pattern of M_parser_read_bytes_until (lines 1233-1252),
    M_parser_read_bytes_charset_int (191-214) and M_parser_read_bytes_predicate
    (1290-1306): set the internal mark, consume, hand over what was consumed. *)
Definition read_marked (p : parser) (buf_len : nat) (cons : parser -> res (nat * parser)) : res (nat * list N * parser) :=
  let p := mark_int false true p in
  do '(n, p) <- cons p;
  if (n =? 0)%nat then do p <- mark_clear_int false true p; Ok (O, [], p)
  else read_bytes_mark_int false p buf_len.
Definition read_bytes_until (p : parser) (buf_len : nat) (pat : list N) (eat : bool) : res (nat * list N * parser) :=
  if (buf_len =? 0)%nat || (length pat =? 0)%nat then Ok (O, [], p)
  else read_marked p buf_len (fun p => consume_until p pat eat).
Definition read_bytes_charset_int (p : parser) (buf_len : nat) (cs : list N) (inclusion : bool) : res (nat * list N * parser) :=
  if (buf_len =? 0)%nat || (length cs =? 0)%nat then Ok (O, [], p)
  else read_marked p buf_len (fun p => consume_charset_int p cs inclusion).
Definition read_bytes_predicate (p : parser) (buf_len : nat) (f : N -> bool) : res (nat * list N * parser) :=
  if (buf_len =? 0)%nat then Ok (O, [], p)
  else read_marked p buf_len (fun p => consume_predicate_max p f buf_len).

(** M_parser_read_int_binary: lines 312-327, as the 64 bit pattern stored in
    [*integer] (the left shift of a negative value is taken to wrap).  Used by
    M_parser_read_int and M_parser_read_uint for the two binary types, lines
    1115-1144. *)
Fixpoint int_loop (m : list N) (pos len : nat) (big : bool) (i k : nat) (v : N) : res N :=
  match k with
  | O => Ok v
  | S k' =>
    do c <- rd m (pos + (if big then i else len - (i + 1)))%nat;
    int_loop m pos len big (S i) k' (N.lor (N.shiftl v 8 mod 2 ^ 64) c)
  end.
Definition read_int_binary (p : parser) (len : nat) (big : bool) : res (option N * parser) :=
  if (len =? 0)%nat || (8 <? len)%nat || (plen p <? len)%nat then Ok (None, p)
  else
  do v <- int_loop (pmem p) (ppos p) len big 0 len 0;
  do '(_, p) <- consume p len;
  Ok (Some v, p).

(** M_parser_read_uint_bcd: lines 1147-1165 *)
Fixpoint bcd_loop (m : list N) (pos i : nat) (v w : N) : res N :=
  match i with
  | O => Ok v
  | S i' =>
    do c <- rd m (pos + i');
    let v := (v + N.land c 15 * w) mod 2 ^ 64 in
    let w := w * 10 mod 2 ^ 64 in
    let v := (v + N.shiftr c 4 * w) mod 2 ^ 64 in
    bcd_loop m pos i' v (w * 10 mod 2 ^ 64)
  end.
Definition read_uint_bcd (p : parser) (len : nat) : res (option N * parser) :=
  if (len =? 0)%nat || (10 <? len)%nat || (plen p <? len)%nat then Ok (None, p)
  else
  do v <- bcd_loop (pmem p) (ppos p) len 0 1;
  do '(_, p) <- consume p len;
  Ok (Some v, p).

(** A call of the interface. *)
From Verif Require Import Parser.Spec.
Definition step (g : N) (p : parser) (o : op) : res (out * parser) :=
  match o with
  | Append d => do '(b, p) <- append g p d; Ok (RBool b, p)
  | DirectWrite want d => do '(_, p) <- direct_write g p want d; Ok (RBool true, p)
  | Consume n => do '(b, p) <- consume p n; Ok (RBool b, p)
  | Truncate n => do '(b, p) <- truncate p n; Ok (RBool b, p)
  | Mark => Ok (RBool true, mark p)
  | MarkClear => do p <- mark_clear p; Ok (RBool true, p)
  | MarkRewind => do '(n, p) <- mark_rewind p; Ok (RLen (N.to_nat n), p)
  | MarkLen => Ok (RLen (N.to_nat (mark_len p)), p)
  | PeekMark => do l <- peek_mark p; Ok (RBytes (N.to_nat (mark_len p)) l, p)
  | Len => Ok (RLen (plen p), p)
  | Offset => Ok (RLen (pcons p), p)
  | PeekBytes n => do '(b, l) <- peek_bytes p n; Ok (RBytes (if b : bool then 1 else 0)%nat l, p)
  | Compare d => do b <- compare p d; Ok (RBool b, p)
  | ReadBytes n => do '(b, l, p) <- read_bytes p n; Ok (RBytes (if b : bool then 1 else 0)%nat l, p)
  | ReadBytesMax n bl => do '(n, l, p) <- read_bytes_max p n bl; Ok (RBytes n l, p)
  | ReadMark bl => do '(n, l, p) <- read_bytes_mark_int true p bl; Ok (RBytes n l, p)
  | ConsumeUntil pat eat => do '(n, p) <- consume_until p pat eat; Ok (RLen n, p)
  | ConsumePred f max => do '(n, p) <- consume_predicate_max p f max; Ok (RLen n, p)
  | ConsumeSet cs inc => do '(n, p) <- consume_charset_int p cs inc; Ok (RLen n, p)
  | ConsumeWhite nl sp => do '(n, p) <- consume_whitespace p nl sp; Ok (RLen n, p)
  | ConsumeEol => do '(n, p) <- consume_eol p; Ok (RLen n, p)
  | TruncUntil pat eat => do '(n, p) <- truncate_until p pat eat; Ok (RLen n, p)
  | TruncSet cs => do '(n, p) <- truncate_charset p cs; Ok (RLen n, p)
  | TruncPred f max => do '(n, p) <- truncate_predicate_max p f max; Ok (RLen n, p)
  | ReadUntil bl pat eat => do '(n, l, p) <- read_bytes_until p bl pat eat; Ok (RBytes n l, p)
  | ReadSet bl cs inc => do '(n, l, p) <- read_bytes_charset_int p bl cs inc; Ok (RBytes n l, p)
  | ReadPred bl f => do '(n, l, p) <- read_bytes_predicate p bl f; Ok (RBytes n l, p)
  | ReadInt n big => do '(v, p) <- read_int_binary p n big; Ok (RVal v, p)
  | ReadBcd n => do '(v, p) <- read_uint_bcd p n; Ok (RVal v, p)
  end.
Fixpoint run (g : N) (ops : list op) (p : parser) (outs : list out) : res (list out * parser) :=
  match ops with
  | [] => Ok (outs, p)
  | o :: ops' => do '(r, p) <- step g p o; run g ops' p (r :: outs)
  end.

(** Model of the byte buffer base/data/m_buf.c.

    The allocation is a list of data_size + 1 bytes ([None]: not allocated);
    every access is bounds checked.  Sizes are unbounded: the wrap-around test
    of next_multiple_of_block_size (lines 251-253, 279-280) and malloc failure
    (mstdlib aborts) concern more than 2^63 bytes and are not modelled.  Fresh
    memory is filled with the byte [g] (the theorems hold for every [g]).  A
    NULL [buf] is not modelled; source bytes are outside the buffer. *)
From Verif Require Import Base.Lib Base.Mem Hex.Model Str.Model.
Local Open Scope N_scope.

(** struct M_buf, lines 32-37 *)
Record buf := mkbuf { bdata : option (list N); bsize : nat; blen : nat; bcons : nat }.

(** M_BUF_INITIAL_SIZE: line 30 *)
Definition initial_size : nat := 1024.

(** M_buf_create: lines 42-50 *)
Definition buf_create : buf := mkbuf None 0 0 0.

(** An access through a NULL data pointer is UB. *)
Definition with_data (b : buf) : res (list N) := match bdata b with Some d => Ok d | None => UB end.

(** M_buf_consume: lines 62-75 *)
Definition buf_consume (b : buf) : res buf :=
  if (bcons b =? 0)%nat then Ok b
  else
  do d <- with_data b;
  do d <- (if (blen b =? 0)%nat then Ok d else mmove d 0 (bcons b) (blen b));
  do d <- wr d (blen b) 0;
  Ok (mkbuf (Some d) (bsize b) (blen b) 0).

(** What M_buf_peek and M_buf_len show (lines 108-113, 127-133): the [blen]
    bytes from [bcons] on. *)
Definition buf_peek (b : buf) : res (list N) :=
  match bdata b with None => Ok [] | Some d => rdn d (bcons b) (blen b) end.

(** M_buf_truncate: lines 135-145 *)
Definition buf_truncate (b : buf) (len : nat) : res buf :=
  match bdata b with
  | None => Ok b
  | Some d =>
    if (blen b <=? len)%nat then Ok b
    else
    do d <- wrn d (bcons b + len) (repeat 255 (blen b - len));
    do d <- wr d (bcons b + len) 0;
    Ok (mkbuf (Some d) (bsize b) len (bcons b))
  end.

(** M_buf_drop: lines 147-162 (M_mem_set ignores NULL) *)
Definition buf_drop (b : buf) (num : nat) : res buf :=
  if (num =? 0)%nat then Ok b
  else
  let num := Nat.min num (blen b) in
  match bdata b with
  | None => Ok (mkbuf None (bsize b) (blen b - num) (bcons b + num))
  | Some d =>
    do d <- wrn d (bcons b) (repeat 255 num);
    Ok (mkbuf (Some d) (bsize b) (blen b - num) (bcons b + num))
  end.

(** next_multiple_of_block_size: lines 240-257 *)
Fixpoint grow (fuel needed n : nat) : res nat :=
  match fuel with
  | O => Fuel
  | S f => if (n <? needed)%nat then grow f needed (2 * n) else Ok n
  end.
Definition next_multiple (needed curr : nat) : res nat :=
  grow (S needed) needed (if (curr =? 0)%nat then initial_size else curr).

(** M_realloc: base/mem/m_mem.c (never shrinks here) *)
Definition realloc (g : N) (d : option (list N)) (n : nat) : list N :=
  let old := match d with Some d => d | None => [] end in
  firstn n old ++ repeat g (n - length old).

(** ensure_space: lines 259-286 *)
Definition ensure_space (g : N) (b : buf) (add : nat) : res buf :=
  let new_len := (blen b + add)%nat in
  if (new_len <? bsize b - bcons b)%nat then Ok b
  else
  do b <- buf_consume b;
  if (bsize b <? new_len)%nat then
    do n <- next_multiple new_len (bsize b);
    Ok (mkbuf (Some (realloc g (bdata b) (n + 1))) n (blen b) (bcons b))
  else Ok b.

(** The callbacks of lines 312-360 on the [n] bytes of [d] from [off] on: new
    memory and new length. *)
Definition chr_islower (c : N) : bool := (97 <=? c) && (c <=? 122).
Definition chr_isupper (c : N) : bool := (65 <=? c) && (c <=? 90).
Fixpoint map_n (f : N -> N) (d : list N) (off n : nat) : res (list N) :=
  match n with
  | O => Ok d
  | S n' => do c <- rd d off; do d <- wr d off (f c); map_n f d (S off) n'
  end.
Definition up (c : N) : N := if chr_islower c then c - 32 else c.
Definition low (c : N) : N := if chr_isupper c then c + 32 else c.
(** Line 342: no bound but the terminator. *)
Fixpoint ltrim_scan (fuel : nat) (d : list N) (off i : nat) : res nat :=
  match fuel with
  | O => Fuel
  | S f => do c <- rd d (off + i); if chr_isspace c then ltrim_scan f d off (S i) else Ok i
  end.
Definition ltrim_cb (d : list N) (off n : nat) : res (list N * nat) :=
  do i <- ltrim_scan (S (length d)) d off 0;
  if (i =? 0)%nat then Ok (d, n)
  else do d <- mmove d off (off + i) (n - i); Ok (d, (n - i)%nat).
Fixpoint rtrim_cb (d : list N) (off n : nat) : res nat :=
  match n with
  | O => Ok O
  | S n' => do c <- rd d (off + n'); if chr_isspace c then rtrim_cb d off n' else Ok n
  end.

(** enum M_BUF_TRANSFORM_TYPE, in the order in which lines 369-375 apply them *)
Inductive transf := TUpper | TLower | TLtrim | TRtrim.
Definition transf_cb (t : transf) (d : list N) (off n : nat) : res (list N * nat) :=
  match t with
  | TUpper => do d <- map_n up d off n; Ok (d, n)
  | TLower => do d <- map_n low d off n; Ok (d, n)
  | TLtrim => ltrim_cb d off n
  | TRtrim => do k <- rtrim_cb d off n; Ok (d, k)
  end.

(** The loop of lines 396-415 over the transformations asked for ([flag]). *)
Fixpoint transf_loop (ts : list transf) (flag : transf -> bool) (b : buf) (off n : nat) : res (buf * nat) :=
  match ts with
  | [] => Ok (b, n)
  | t :: ts' =>
    if (n =? 0)%nat then Ok (b, n)
    else if negb (flag t) then transf_loop ts' flag b off n
    else
    do d <- with_data b;
    do '(d, len) <- transf_cb t d off n;
    if (len =? n)%nat then transf_loop ts' flag (mkbuf (Some d) (bsize b) (blen b) (bcons b)) off n
    else
    let l := if (n <? len)%nat then (blen b + (len - n))%nat else (blen b - (n - len))%nat in
    do d <- wr d (off + len) 0;
    transf_loop ts' flag (mkbuf (Some d) (bsize b) l (bcons b)) off len
  end.

(** M_buf_add_bytes_transform: lines 363-418; the number of bytes added *)
Definition add_bytes_transform (g : N) (flag : transf -> bool) (b : buf) (bytes : list N) : res (buf * nat) :=
  let n := length bytes in
  if (n =? 0)%nat then Ok (b, O)
  else
  do b <- ensure_space g b n;
  let off := (bcons b + blen b)%nat in
  do d <- with_data b;
  do d <- wrn d off bytes;
  do d <- wr d (off + n) 0;
  transf_loop [TUpper; TLower; TLtrim; TRtrim] flag (mkbuf (Some d) (bsize b) (blen b + n) (bcons b)) off n.

(** M_buf_add_bytes: lines 421-424 (lines 392-394 skip the loop) *)
Definition buf_add_bytes (g : N) (b : buf) (bytes : list N) : res buf :=
  do '(b, _) <- add_bytes_transform g (fun _ => false) b bytes; Ok b.

(** M_buf_add_fill: lines 529-542 *)
Definition buf_add_fill (g : N) (b : buf) (c : N) (w : nat) : res buf :=
  if (w =? 0)%nat then Ok b
  else
  do b <- ensure_space g b w;
  do d <- with_data b;
  do d <- wrn d (bcons b + blen b) (repeat c w);
  do d <- wr d (bcons b + blen b + w) 0;
  Ok (mkbuf (Some d) (bsize b) (blen b + w) (bcons b)).

(** M_buf_direct_write_start, M_buf_direct_write_end: lines 289-309.  In
    between the caller stores [bytes] at the pointer it got; [want] is the
    initial [*len].  Result: the [*len] reported and the buffer. *)
Definition buf_direct_write (g : N) (b : buf) (want : nat) (bytes : list N) : res (nat * buf) :=
  if (want =? 0)%nat then Ok (O, b)
  else
  do b <- ensure_space g b want;
  let room := (bsize b - bcons b - blen b)%nat in
  do d <- with_data b;
  do d <- wrn d (bcons b + blen b) bytes;
  if (length bytes =? 0)%nat then Ok (room, mkbuf (Some d) (bsize b) (blen b) (bcons b))
  else
  do d <- wr d (bcons b + (blen b + length bytes)) 0;
  Ok (room, mkbuf (Some d) (bsize b) (blen b + length bytes) (bcons b)).

(** M_buf_merge: lines 166-172.  [source->data] is the start of the
    allocation; a NULL there adds nothing (line 378). *)
Definition buf_merge (g : N) (dest src : buf) : res buf :=
  match bdata src with
  | None => Ok dest
  | Some d => do bytes <- rdn d 0 (blen src); buf_add_bytes g dest bytes
  end.

(** M_buf_add_bytes_just_transform: lines 674-709 with non-NULL bytes;
    M_str_justify_max works in place (its copy is a memmove and comes first). *)
Definition buf_add_just (g : N) (flag : transf -> bool) (b : buf) (bytes : list N) (j : just) (fill : N) (width : nat) : res buf :=
  if (width =? 0)%nat then Ok b
  else
  let off := (bcons b + blen b)%nat in
  do '(b, n) <- add_bytes_transform g flag b bytes;
  do b <- (if (n <? width)%nat then ensure_space g b width else Ok b);
  do d <- with_data b;
  if (length d <? off)%nat then UB else
  do '(jl, t) <- justify_max (skipn off d) (Nat.max n width + 1) (skipn off d) n j fill width;
  let d := firstn off d ++ t in
  let l := if (n <=? jl)%nat then (blen b + (jl - n))%nat else (blen b - (n - jl))%nat in
  do d <- wr d (bcons b + l) 0;
  Ok (mkbuf (Some d) (bsize b) l (bcons b)).

(** M_buf_add_uintbin: lines 816-842 *)
Fixpoint uintbin_loop (g : N) (b : buf) (n : N) (width i k : nat) (big : bool) : res buf :=
  match k with
  | O => Ok b
  | S k' =>
    let shift := N.of_nat (if big then (width - 1 - i) * 8 else i * 8) in
    do b <- buf_add_bytes g b [N.land (N.shiftr n shift) 255];
    uintbin_loop g b n width (S i) k' big
  end.
Definition buf_add_uintbin (g : N) (b : buf) (n : N) (width : nat) (big : bool) : res (bool * buf) :=
  if (8 <? width)%nat || (width <? 1)%nat then Ok (false, b)
  else if negb (width =? 8)%nat && (2 ^ (N.of_nat width * 8) <=? n) then Ok (false, b)
  else do b <- uintbin_loop g b n width 0 width big; Ok (true, b).

(** num_udigits: lines 735-745 for base 10; at most 20 digits *)
Fixpoint num_udigits (fuel : nat) (n : N) (count : nat) : res nat :=
  match fuel with
  | O => Fuel
  | S f => let n := n / 10 in if n =? 0 then Ok (S count) else num_udigits f n (S count)
  end.
(** M_buf_add_uintbcd: lines 857-894; [tmp] is the array of lines 861, 882-886. *)
Fixpoint bcd_split (fuel : nat) (n : N) (tmp : list N) (i : nat) : res (list N * nat) :=
  match fuel with
  | O => Fuel
  | S f => if n =? 0 then Ok (tmp, i) else do tmp <- wr tmp i (n mod 100); bcd_split f (n / 100) tmp (S i)
  end.
Fixpoint bcd_add (g : N) (b : buf) (tmp : list N) (i : nat) : res buf :=
  match i with
  | O => Ok b
  | S i' =>
    do t <- rd tmp i';
    do b <- buf_add_bytes g b [N.lor (N.shiftl (t / 10) 4) (t mod 10)];
    bcd_add g b tmp i'
  end.
Definition buf_add_uintbcd (g : N) (b : buf) (n : N) (width : nat) : res (bool * buf) :=
  do digits <- num_udigits 21 n 0;
  let len := (digits / 2 + digits mod 2)%nat in
  if (width <? len)%nat then Ok (false, b)
  else
  do b <- (if (len <? width)%nat then buf_add_fill g b 0 (width - len) else Ok b);
  if n =? 0 then do b <- buf_add_bytes g b [0]; Ok (true, b)
  else
  do '(tmp, i) <- bcd_split 11 n (repeat 0 10) 0;
  do b <- bcd_add g b tmp i;
  Ok (true, b).

(** M_buf_add_bytes_hex: lines 427-447, [hex] without its terminator.  The
    free space handed to M_hex_decode excludes the byte for the terminator. *)
Definition buf_add_bytes_hex (g : N) (b : buf) (hex : list N) : res (bool * buf) :=
  if (length hex =? 0)%nat then Ok (true, b)
  else if negb (length hex mod 2 =? 0)%nat then Ok (false, b)
  else
  do b <- ensure_space g b (length hex / 2);
  let off := (bcons b + blen b)%nat in
  let room := (bsize b - bcons b - blen b)%nat in
  do d <- with_data b;
  do space <- rdn d off room;
  do '(n, space) <- hex_decode hex space;
  do d <- wrn d off space;
  if (n =? 0)%nat then Ok (true, mkbuf (Some d) (bsize b) (blen b) (bcons b))
  else
  do d <- wr d (bcons b + (blen b + n)) 0;
  Ok (true, mkbuf (Some d) (bsize b) (blen b + n) (bcons b)).

(** M_buf_finish: lines 78-100: the memory handed over and the length reported *)
Definition buf_finish (b : buf) : res (option (list N) * nat) :=
  do b <- buf_consume b; Ok (bdata b, blen b).

(** M_buf_bjoin_buf: lines 174-188 *)
Fixpoint buf_bjoin (g : N) (dest : buf) (sep : N) (bufs : list buf) : res buf :=
  match bufs with
  | [] => Ok dest
  | [b] => buf_merge g dest b
  | b :: bufs' =>
    do dest <- buf_merge g dest b;
    do dest <- buf_add_bytes g dest [sep];
    buf_bjoin g dest sep bufs'
  end.

(** A call of the interface, and its effect with the M_bool returned (true for
    functions without one). *)
Inductive op :=
| AddBytes (bytes : list N)
| AddTransf (flag : transf -> bool) (bytes : list N)
| AddFill (c : N) (w : nat)
| Truncate (n : nat)
| Drop (n : nat)
| DirectWrite (want : nat) (bytes : list N)
| AddUintbin (n : N) (width : nat) (big : bool)
| AddUintbcd (n : N) (width : nat)
| AddHex (hex : list N).
Definition step (g : N) (b : buf) (o : op) : res (bool * buf) :=
  match o with
  | AddBytes bytes => do b <- buf_add_bytes g b bytes; Ok (true, b)
  | AddTransf flag bytes => do '(b, _) <- add_bytes_transform g flag b bytes; Ok (true, b)
  | AddFill c w => do b <- buf_add_fill g b c w; Ok (true, b)
  | Truncate n => do b <- buf_truncate b n; Ok (true, b)
  | Drop n => do b <- buf_drop b n; Ok (true, b)
  | DirectWrite want bytes => do '(_, b) <- buf_direct_write g b want bytes; Ok (true, b)
  | AddUintbin n w big => buf_add_uintbin g b n w big
  | AddUintbcd n w => buf_add_uintbcd g b n w
  | AddHex hex => buf_add_bytes_hex g b hex
  end.
(** The returned values, last call first, and the final buffer. *)
Fixpoint run (g : N) (ops : list op) (b : buf) (rs : list bool) : res (list bool * buf) :=
  match ops with
  | [] => Ok (rs, b)
  | o :: ops' => do '(r, b) <- step g b o; run g ops' b (r :: rs)
  end.

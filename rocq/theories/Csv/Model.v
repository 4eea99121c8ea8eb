(** Model of formats/csv/m_csv.c: reading a CSV text in place and writing it again.

    The text is one block of memory, the text itself followed by its terminator; a
    cell is a position in that block or NULL.  Left out: column lookup by name
    (M_csv_get_cell, a hash table), the list of headers and the writer callback of
    the output functions.  Counts of characters, rows and columns are nat: they are
    bounded by the length of the text. *)
From Verif Require Import Base.Lib Base.Mem Hex.Model Str.Model.
Local Open Scope N_scope.

Section Csv.
Variables delim quote : N.

(** M_csv_parse_count, lines 44-79: the loop of lines 53-72; [n] is what remains of [len]. *)
Fixpoint count_loop (n i : nat) (str : list N) (onq : bool) (row_len num_rows num_cols : nat) : res (nat * nat * nat) :=
  match n with
  | O => Ok (row_len, num_rows, num_cols)
  | S n' =>
    do c <- rd str i;
    if c =? quote then
      do d <- rd str (S i);
      if d =? quote then
        match n' with
        | O => Ok (S row_len, num_rows, num_cols)
        | S n'' => count_loop n'' (S (S i)) str onq (S row_len) num_rows num_cols
        end
      else count_loop n' (S i) str (negb onq) (S row_len) num_rows num_cols
    else if negb onq && (c =? delim) && (num_rows =? 0)%nat then count_loop n' (S i) str onq (S row_len) num_rows (S num_cols)
    else if negb onq && (c =? 10) then
      count_loop n' (S i) str onq 0 (S num_rows) (if (num_rows =? 0)%nat then S num_cols else num_cols)
    else if onq || negb (c =? 13) then count_loop n' (S i) str onq (S row_len) num_rows num_cols
    else count_loop n' (S i) str onq row_len num_rows num_cols
  end.

(** Lines 74-78: number of rows and of columns. *)
Definition parse_count (str : list N) (len : nat) : res (nat * nat) :=
  do '(row_len, num_rows, num_cols) <- count_loop len 0 str false 0 0 0;
  let num_cols := if (num_rows =? 0)%nat && negb (row_len =? 0)%nat then S num_cols else num_cols in
  let num_rows := if negb (row_len =? 0)%nat then S num_rows else num_rows in
  Ok (num_rows, num_cols).

(** M_csv_remove_quotes, lines 82-108; [m] is the memory from [str] on.  The loop of
    lines 91-100; [n] bounds the turns. *)
Fixpoint rq_loop (n : nat) (m : list N) (len i cnt : nat) : res (list N * nat) :=
  match n with
  | O => Fuel
  | S n' =>
    if (i <? len)%nat then
      do c <- rd m i;
      if c =? quote then
        do d <- rd m (S i);
        if d =? quote then do m <- wr m cnt quote; rq_loop n' m len (S (S i)) (S cnt)
        else rq_loop n' m len (S i) cnt
      else do m <- wr m cnt c; rq_loop n' m len (S i) (S cnt)
    else Ok (m, cnt)
  end.
Definition remove_quotes (m : list N) : res (list N) :=
  do len <- strlen m;
  do '(m, cnt) <- rq_loop (S len) m len 0 0;
  do m <- wr m cnt 0;
  if (cnt =? 1)%nat then do c <- rd m 0; if c =? quote then wr m 0 0 else Ok m
  else Ok m.

(** A function on the string at [p]. *)
Definition at_str (f : list N -> res (list N)) (buf : list N) (p : nat) : res (list N) :=
  if (p <=? length buf)%nat then do m <- f (skipn p buf); Ok (firstn p buf ++ m) else UB.

(** out[row][col], one block of num_rows * num_cols pointers. *)
Definition matrix := list (list (option nat)).
Definition mget (out : matrix) (row col : nat) : res (option nat) := do r <- rd out row; rd r col.
Definition mset (out : matrix) (row col : nat) (p : option nat) : res matrix :=
  do r <- rd out row; do r <- wr r col p; wr out row r.

(** Lines 226-241, 255-270 and 288-303: the end of a cell. *)
Definition finish_cell (trim : bool) (num_cols : nat) (buf : list N) (out : matrix) (row col : nat) (hadq : bool) : res (list N * matrix) :=
  if (col <? num_cols)%nat then
    do p <- mget out row col;
    match p with
    | None => Ok (buf, out)
    | Some p =>
      if hadq then do buf <- at_str remove_quotes buf p; Ok (buf, out)
      else
      do buf <- (if trim then at_str (fun m => trim_max m None) buf p else Ok buf);
      do c <- rd buf p;
      if c =? 0 then do out <- mset out row col None; Ok (buf, out) else Ok (buf, out)
    end
  else Ok (buf, out).

(** The loop of lines 212-284; [n] is what remains of [len].  The result is the block,
    the matrix, and row, col and had_quote at the end. *)
Fixpoint parse_loop (trim : bool) (num_rows num_cols n i : nat) (buf : list N) (out : matrix) (row col : nat) (onq hadq : bool)
  : res (list N * matrix * nat * nat * bool) :=
  match n with
  | O => Ok (buf, out, row, col, hadq)
  | S n' =>
    do c <- rd buf i;
    if c =? quote then
      if onq then
        do d <- rd buf (S i);
        if d =? quote then
          match n' with
          | O => Ok (buf, out, row, col, true)
          | S n'' => parse_loop trim num_rows num_cols n'' (S (S i)) buf out row col true true
          end
        else parse_loop trim num_rows num_cols n' (S i) buf out row col false true
      else parse_loop trim num_rows num_cols n' (S i) buf out row col true true
    else if negb onq && (c =? delim) then
      do buf <- wr buf i 0;
      do '(buf, out) <- finish_cell trim num_cols buf out row col hadq;
      do out <- (if (S col <? num_cols)%nat then mset out row (S col) (Some (S i)) else Ok out);
      parse_loop trim num_rows num_cols n' (S i) buf out row (S col) onq false
    else if negb onq && (c =? 10) then
      do buf <- wr buf i 0;
      do '(buf, out) <- finish_cell trim num_cols buf out row col hadq;
      if (S row =? num_rows)%nat then Ok (buf, out, S row, 0%nat, hadq)
      else
      do out <- mset out (S row) 0 (Some (S i));
      parse_loop trim num_rows num_cols n' (S i) buf out (S row) 0 onq false
    else if negb onq && (c =? 13) then
      do buf <- wr buf i 0;
      parse_loop trim num_rows num_cols n' (S i) buf out row col onq hadq
    else parse_loop trim num_rows num_cols n' (S i) buf out row col onq hadq
  end.

Record csv := mkcsv { c_buf : list N; c_out : matrix; c_rows : nat; c_cols : nat }.

(** M_csv_parse_inplace, lines 180-319; [data] is the text with its terminator, [None]
    the result NULL. *)
Definition parse_inplace (trim : bool) (data : list N) (len : nat) : res (option csv) :=
  if (len =? 0)%nat then Ok None
  else
  do '(num_rows, num_cols) <- parse_count data len;
  if (num_rows =? 0)%nat then Ok None
  else
  let out := repeat (repeat None num_cols) num_rows in
  do out <- mset out 0 0 (Some 0%nat);
  do '(buf, out, row, col, hadq) <- parse_loop trim num_rows num_cols len 0 data out 0 0 false false;
  do '(buf, out) <- (if (row <? num_rows)%nat && (col <? num_cols)%nat then finish_cell trim num_cols buf out row col hadq else Ok (buf, out));
  Ok (Some (mkcsv buf out num_rows num_cols)).

(** M_csv_parse, lines 322-339 *)
Definition csv_parse (trim : bool) (data : list N) : res (option csv) :=
  if (length data =? 0)%nat then Ok None else parse_inplace trim (data ++ [0]) (length data).

(** The string at [p]. *)
Definition cstr (buf : list N) (p : nat) : res (list N) :=
  if (p <=? length buf)%nat then do n <- strlen (skipn p buf); Ok (firstn n (skipn p buf)) else UB.

(** M_csv_raw_cell, lines 392-400, and the string it points to; M_csv_get_header is row
    0, M_csv_get_cellbynum is from row 1 on (lines 425-440). *)
Definition raw_cell (c : csv) (row col : nat) : res (option (list N)) :=
  if ((row <? c_rows c) && (col <? c_cols c))%nat%bool then
    do p <- mget (c_out c) row col;
    match p with None => Ok None | Some p => do s <- cstr (c_buf c) p; Ok (Some s) end
  else Ok None.

(** The loop of lines 142-154: M_mem_chr, then the bytes up to the quote and one more
    quote. *)
Fixpoint mem_chr (s : list N) : option nat :=
  match s with
  | [] => None
  | c :: s' => if c =? quote then Some 0%nat else match mem_chr s' with Some n => Some (S n) | None => None end
  end.
Fixpoint escape_loop (fuel : nat) (buf cell : list N) : res (list N) :=
  match fuel with
  | O => Fuel
  | S f =>
    let add := match mem_chr cell with None => length cell | Some n => S n end in
    let buf := buf ++ firstn add cell in
    let buf := match mem_chr cell with None => buf | Some _ => buf ++ [quote] end in
    let cell := skipn add cell in
    match cell with [] => Ok buf | _ => escape_loop f buf cell end
  end.

(** The characters of the string [chars_to_quote], lines 120 and 126-127. *)
Definition chars_to_quote : list N :=
  if delim =? 0 then [] else if quote =? 0 then [delim] else [delim; quote; 10; 13].

(** add_cell, lines 117-163 *)
Definition add_cell (buf : list N) (cell : option (list N)) : res (list N) :=
  do buf <-
    match cell with
    | Some ((c :: _) as s) =>
      let q := chr_isspace c || chr_isspace (last s 0) || existsb (fun c => existsb (N.eqb c) chars_to_quote) s in
      let buf := if q then buf ++ [quote] else buf in
      do buf <- escape_loop (S (length s)) buf s;
      Ok (if q then buf ++ [quote] else buf)
    | _ => Ok buf
    end;
  Ok (buf ++ [delim]).

(** The cells of one row, lines 497-499 and 561-566; then lines 505-508 and 572-575. *)
Fixpoint add_cells (buf : list N) (c : csv) (row col n : nat) : res (list N) :=
  match n with
  | O => Ok buf
  | S n' => do v <- raw_cell c row col; do buf <- add_cell buf v; add_cells buf c row (S col) n'
  end.
Definition add_row (buf : list N) (c : csv) (row : nat) : res (list N) :=
  do buf <- add_cells buf c row 0 (c_cols c);
  Ok (firstn (length buf - 1) buf ++ [13; 10]).

(** M_csv_output_headers_buf, lines 486-509, no [headers]. *)
Definition output_headers (buf : list N) (c : csv) : res (list N) := add_row buf c 0.

(** M_csv_output_rows_buf, lines 531-579, no [headers], no [writer_cb]; [filter] is
    [filter_cb]. *)
Fixpoint output_rows_loop (filter : nat -> bool) (buf : list N) (c : csv) (row n : nat) : res (list N) :=
  match n with
  | O => Ok buf
  | S n' =>
    if filter row then do buf <- add_row buf c (S row); output_rows_loop filter buf c (S row) n'
    else output_rows_loop filter buf c (S row) n'
  end.
Definition output_rows (filter : nat -> bool) (buf : list N) (c : csv) : res (list N) :=
  output_rows_loop filter buf c 0 (c_rows c - 1).
End Csv.

Arguments chars_to_quote : simpl never.

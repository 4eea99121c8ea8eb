(** Model of formats/table/m_table.c.
    The lists (M_list_u64) are lists of ids.  The hash tables
    (M_hash_u64str, M_hash_stru64, M_hash_u64vp) are association lists with
    at most one entry per key; what the hash table code does is the subject
    of Hash and HashCb.  Names in col_name_id are compared through [nrm]:
    the identity without M_TABLE_COLNAME_CASECMP, folding to lower case with
    it.  A C string is its list of bytes; a NULL or empty column name is [].
    M_rand is a given list of draws, consumed from the front: an exhausted
    list is [Fuel].  The table pointer is not NULL. *)
From Verif Require Import Base.Lib Sort.Model Sort.Spec Glob.Model.
Open Scope nat_scope.

Definition str := list N.
Definition str_dec : forall a b : str, {a = b} + {a <> b} := list_eq_dec N.eq_dec.

(** The hash tables: M_hash_*_get, _remove, _insert. *)
Section Map.
Context {K V : Type} (dec : forall a b : K, {a = b} + {a <> b}).
Fixpoint aget (m : list (K * V)) (k : K) : option V :=
  match m with
  | [] => None
  | (k', v) :: m' => if dec k k' then Some v else aget m' k
  end.
Definition adel (m : list (K * V)) (k : K) : list (K * V) :=
  filter (fun e => if dec k (fst e) then false else true) m.
Definition aput (m : list (K * V)) (k : K) (v : V) : list (K * V) := (k, v) :: adel m k.
End Map.

Notation iget := (aget N.eq_dec).
Notation idel := (adel N.eq_dec).
Notation iput := (aput N.eq_dec).
Notation nget := (aget str_dec).
Notation ndel := (adel str_dec).
Notation nput := (aput str_dec).

(** struct M_table, lines 28-45 (the fields in use only during a sort are
    parameters of the sort here). *)
Record table := Table {
  co : list N;                     (* col_order *)
  cin : list (N * str);            (* col_id_name *)
  cni : list (str * N);            (* col_name_id *)
  ro : list N;                     (* row_order *)
  rws : list (N * list (N * str)); (* rows *)
  rnd : list N                     (* rand *)
}.

(** M_table_create, lines 277-302. *)
Definition create (draws : list N) : table := Table [] [] [] [] [] draws.

(** M_list_u64_remove_at *)
Definition del_at {A} (i : nat) (l : list A) : list A := firstn i l ++ skipn (S i) l.

(** M_list_u64_remove_val with M_LIST_U64_MATCH_VAL: the first occurrence;
    None if there is none. *)
Fixpoint index_of (l : list N) (x : N) : option nat :=
  match l with
  | [] => None
  | y :: l' => if N.eq_dec x y then Some 0 else option_map S (index_of l' x)
  end.

(** generate_id, lines 121-130; [used] is the lookup of lines 127. *)
Fixpoint gen_id (used : N -> bool) (draws : list N) : res (N * list N) :=
  match draws with
  | [] => Fuel
  | id :: r => if negb (id =? 0)%N && used id then gen_id used r else Ok (id, r)
  end.

Definition has {V} (o : option V) : bool := match o with Some _ => true | None => false end.
Definition is_nil {A} (l : list A) : bool := match l with [] => true | _ => false end.

(** INSERT flags: M_TABLE_INSERT_COLIGNORE is tested before COLADD. *)
Inductive iflag := INone | IIgnore | IAdd.

Section Tab.
Variable nrm : str -> str.

(** Lookup of a name, M_hash_stru64_get(table->col_name_id, ...). *)
Definition col_of (t : table) (name : str) : option N := nget (cni t) (nrm name).

(** M_table_column_insert_at_int, lines 207-232. *)
Definition column_insert_at_int (t : table) (idx : nat) (name : str) : res (table * option N) :=
  if length (co t) <? idx then Ok (t, None) else
  if negb (is_nil name) && has (col_of t name) then Ok (t, None) else
  do '(id, r) <- gen_id (fun i => has (iget (cin t) i)) (rnd t);
  let co' := insert_at idx id (co t) in
  if is_nil name then Ok (Table co' (cin t) (cni t) (ro t) (rws t) r, Some id)
  else Ok (Table co' (iput (cin t) id name) (nput (cni t) (nrm name) id) (ro t) (rws t) r, Some id).

(** M_table_column_insert_at, lines 329-332. *)
Definition column_insert_at (t : table) (idx : nat) (name : str) : res (table * bool) :=
  do '(t', o) <- column_insert_at_int t idx name; Ok (t', has o).

(** M_table_row_insert_at_int, lines 234-248. *)
Definition row_insert_at_int (t : table) (idx : nat) : res (table * option N) :=
  if length (ro t) <? idx then Ok (t, None) else
  do '(id, r) <- gen_id (fun i => has (iget (rws t) i)) (rnd t);
  Ok (Table (co t) (cin t) (cni t) (insert_at idx id (ro t)) (rws t) r, Some id).

(** M_table_row_insert_at, lines 534-537. *)
Definition row_insert_at (t : table) (idx : nat) : res (table * bool) :=
  do '(t', o) <- row_insert_at_int t idx; Ok (t', has o).

(** M_table_cell_set_int, lines 250-264; NULL is None. *)
Definition cell_set_int (t : table) (r c : N) (val : option str) : table :=
  let d := match iget (rws t) r with Some d => d | None => [] end in
  let d' := match val with None => idel d c | Some v => iput d c v end in
  Table (co t) (cin t) (cni t) (ro t) (iput (rws t) r d') (rnd t).

(** M_table_cell_get_int, lines 266-273. *)
Definition cell_get_int (t : table) (r c : N) : option str :=
  match iget (rws t) r with None => None | Some d => iget d c end.

(** M_table_column_name, lines 334-343. *)
Definition column_name (t : table) (idx : nat) : option str :=
  match nth_error (co t) idx with None => None | Some id => iget (cin t) id end.

(** M_table_column_set_name, lines 345-363. *)
Definition column_set_name (t : table) (idx : nat) (name : str) : table * bool :=
  match nth_error (co t) idx with
  | None => (t, false)
  | Some id =>
    if is_nil name then
      (Table (co t) (idel (cin t) id) (ndel (cni t) (nrm name)) (ro t) (rws t) (rnd t), true)
    else
      (Table (co t) (iput (cin t) id name) (nput (cni t) (nrm name) id) (ro t) (rws t) (rnd t), true)
  end.

(** M_table_column_idx, lines 365-376. *)
Definition column_idx (t : table) (name : str) : option nat :=
  match col_of t name with None => None | Some id => index_of (co t) id end.

(** M_hash_stru64_remove(col_name_id, colname): a NULL key is not found. *)
Definition name_remove (m : list (str * N)) (o : option str) : list (str * N) :=
  match o with None => m | Some n => ndel m (nrm n) end.

(** M_table_column_remove_int, lines 181-205. *)
Definition column_remove_int (t : table) (id : N) : table :=
  match index_of (co t) id with
  | None => t
  | Some i =>
    Table (del_at i (co t)) (idel (cin t) id) (name_remove (cni t) (iget (cin t) id)) (ro t)
      (map (fun e => (fst e, idel (snd e) id)) (rws t)) (rnd t)
  end.

(** M_table_column_remove, lines 449-460, and _at, 462-471. *)
Definition column_remove (t : table) (name : str) : table :=
  if is_nil name then t else
  match col_of t name with None => t | Some id => column_remove_int t id end.
Definition column_remove_at (t : table) (idx : nat) : table :=
  match nth_error (co t) idx with None => t | Some id => column_remove_int t id end.

(** Lines 492-499: does some row have a value for the column? *)
Definition col_have (t : table) (id : N) : bool := existsb (fun e => has (iget (snd e) id)) (rws t).

(** M_table_column_remove_empty_columns, lines 473-511: [i] goes down. *)
Fixpoint remove_cols_loop (i : nat) (t : table) (cnt : nat) : table * nat :=
  match i with
  | O => (t, cnt)
  | S i' =>
    match nth_error (co t) i' with
    | None => (t, cnt)
    | Some id =>
      if col_have t id then remove_cols_loop i' t cnt else
      remove_cols_loop i'
        (Table (del_at i' (co t)) (idel (cin t) id) (name_remove (cni t) (iget (cin t) id)) (ro t) (rws t) (rnd t))
        (S cnt)
    end
  end.
Definition remove_empty_columns (t : table) : table * nat := remove_cols_loop (length (co t)) t 0.

(** The loop of M_table_row_insert_dict_at, lines 571-592.  [None]: the
    function returned M_FALSE inside the loop. *)
Fixpoint dict_loop (t : table) (row : list (N * str)) (data : list (str * str)) (f : iflag)
  : res (table * option (list (N * str))) :=
  match data with
  | [] => Ok (t, Some row)
  | (k, v) :: data' =>
    match col_of t k with
    | Some id => dict_loop t (iput row id v) data' f
    | None =>
      match f with
      | IIgnore => dict_loop t row data' f
      | IAdd =>
        do '(t', o) <- column_insert_at_int t (length (co t)) k;
        match o with
        | None => Ok (t', None)
        | Some id => dict_loop t' (iput row id v) data' f
        end
      | INone => Ok (t, None)
      end
    end
  end.

(** M_table_row_insert_dict_at, lines 553-602; [data] is the enumeration of
    the dictionary (values are not NULL). *)
Definition row_insert_dict_at (t : table) (idx : nat) (data : list (str * str)) (f : iflag) : res (table * bool) :=
  if length (ro t) <? idx then Ok (t, false) else
  if is_nil data then row_insert_at t idx else
  do '(t', o) <- dict_loop t [] data f;
  match o with
  | None => Ok (t', false)
  | Some row =>
    do '(t'', o) <- row_insert_at_int t' idx;
    match o with
    | None => Ok (t'', false)
    | Some id => Ok (Table (co t'') (cin t'') (cni t'') (ro t'') (iput (rws t'') id row) (rnd t''), true)
    end
  end.

(** M_table_row_remove, lines 604-614. *)
Definition row_remove (t : table) (idx : nat) : table :=
  match nth_error (ro t) idx with
  | None => t
  | Some id => Table (co t) (cin t) (cni t) (del_at idx (ro t)) (idel (rws t) id) (rnd t)
  end.

(** M_table_row_remove_empty_rows, lines 616-640. *)
Definition row_empty (t : table) (id : N) : bool :=
  match iget (rws t) id with None => true | Some d => is_nil d end.
Fixpoint remove_rows_loop (i : nat) (t : table) (cnt : nat) : table * nat :=
  match i with
  | O => (t, cnt)
  | S i' =>
    match nth_error (ro t) i' with
    | None => (t, cnt)
    | Some id =>
      if row_empty t id then
        remove_rows_loop i'
          (Table (co t) (cin t) (cni t) (del_at i' (ro t)) (idel (rws t) id) (rnd t)) (S cnt)
      else remove_rows_loop i' t cnt
    end
  end.
Definition remove_empty_rows (t : table) : table * nat := remove_rows_loop (length (ro t)) t 0.

(** M_table_cell_set, lines 651-674. *)
Definition cell_set (t : table) (row : nat) (name : str) (val : option str) (f : iflag) : res (table * bool) :=
  match nth_error (ro t) row with
  | None => Ok (t, false)
  | Some r =>
    if is_nil name then Ok (t, false) else
    match col_of t name with
    | Some c => Ok (cell_set_int t r c val, true)
    | None =>
      match f with
      | IIgnore => Ok (t, true)
      | IAdd =>
        do '(t', o) <- column_insert_at_int t (length (co t)) name;
        match o with
        | None => Ok (t', false)
        | Some c => Ok (cell_set_int t' r c val, true)
        end
      | INone => Ok (t, false)
      end
    end
  end.

(** M_table_cell_set_at, lines 676-689. *)
Definition cell_set_at (t : table) (row col : nat) (val : option str) : table * bool :=
  match nth_error (ro t) row, nth_error (co t) col with
  | Some r, Some c => (cell_set_int t r c val, true)
  | _, _ => (t, false)
  end.

(** The second loop of M_table_cell_set_dict, lines 711-715. *)
Fixpoint set_dict_loop (t : table) (row : nat) (data : list (str * str)) (f : iflag) : res table :=
  match data with
  | [] => Ok t
  | (k, v) :: data' => do '(t', _) <- cell_set t row k (Some v) f; set_dict_loop t' row data' f
  end.

(** M_table_cell_set_dict, lines 691-718. *)
Definition cell_set_dict (t : table) (row : nat) (data : list (str * str)) (f : iflag) : res (table * bool) :=
  if match f with INone => existsb (fun kv => negb (has (col_of t (fst kv)))) data | _ => false end
  then Ok (t, false)
  else do t' <- set_dict_loop t row data f; Ok (t', true).

(** M_table_cell, lines 730-743, and M_table_cell_at, 745-757. *)
Definition cell (t : table) (row : nat) (name : str) : option str :=
  match nth_error (ro t) row with
  | None => None
  | Some r =>
    if is_nil name then None else
    match col_of t name with None => None | Some c => cell_get_int t r c end
  end.
Definition cell_at (t : table) (row col : nat) : option str :=
  match nth_error (ro t) row, nth_error (co t) col with
  | Some r, Some c => cell_get_int t r c
  | _, _ => None
  end.

(** table_coldata_compar, lines 76-119; the comparators get the strings. *)
Definition orempty (o : option str) : str := match o with Some s => s | None => [] end.
Definition coldata_compar (t : table) (c : N) (cmp : str -> str -> Z) (sec : option (N * (str -> str -> Z)))
  (id1 id2 : N) : Z :=
  let ret := cmp (orempty (cell_get_int t id1 c)) (orempty (cell_get_int t id2 c)) in
  match sec with
  | Some (c2, cmp2) =>
    if (ret =? 0)%Z then cmp2 (orempty (cell_get_int t id1 c2)) (orempty (cell_get_int t id2 c2)) else ret
  | None => ret
  end.

(** M_table_column_sort_data_int, lines 132-179; a NULL primary_sort stands
    for a comparator of the library, so [cmp] is always given. *)
Definition sort_data_int (t : table) (c : N) cmp sec : res table :=
  do ids <- qsort (coldata_compar t c cmp sec) (S (length (ro t))) (ro t) 0 (length (ro t));
  Ok (Table (co t) (cin t) (cni t) ids (rws t) (rnd t)).

(** M_table_column_sort_data, lines 378-396. *)
Definition sort_data (t : table) (name : str) (cmp : str -> str -> Z)
  (name2 : str) (cmp2 : option (str -> str -> Z)) : res table :=
  if is_nil name then Ok t else
  match col_of t name with
  | None => Ok t
  | Some c =>
    let go c2 := sort_data_int t c cmp (match cmp2 with Some f => Some (c2, f) | None => None end) in
    if is_nil name2 then go 0%N else
    match col_of t name2 with None => Ok t | Some c2 => go c2 end
  end.

(** M_table_column_sort_data_at, lines 398-409; M_list_u64_at gives 0
    outside the list. *)
Definition sort_data_at (t : table) (idx : nat) (cmp : str -> str -> Z)
  (idx2 : nat) (cmp2 : option (str -> str -> Z)) : res table :=
  if (idx <=? length (co t)) || (idx2 <=? length (co t)) then Ok t else
  sort_data_int t (nth idx (co t) 0%N) cmp
    (match cmp2 with Some f => Some (nth idx2 (co t) 0%N, f) | None => None end).

(** table_colname_compar, lines 49-74, and M_table_column_order, 411-447. *)
Definition colname_compar (t : table) (cmp : str -> str -> Z) (id1 id2 : N) : Z :=
  cmp (orempty (iget (cin t) id1)) (orempty (iget (cin t) id2)).
Definition column_order (t : table) (cmp : str -> str -> Z) : res table :=
  do ids <- qsort (colname_compar t cmp) (S (length (co t))) (co t) 0 (length (co t));
  Ok (Table ids (cin t) (cni t) (ro t) (rws t) (rnd t)).

(** M_table_merge, lines 761-812, both tables given. The inner loop 803-807
    and the outer loop 800-808; [n]: iterations left. *)
Fixpoint merge_cols (n : nat) (dest src : table) (rowidx i j : nat) : res table :=
  match n with
  | O => Ok dest
  | S n' =>
    do '(d, _) <- cell_set dest rowidx (orempty (column_name src j)) (cell_at src i j) IAdd;
    merge_cols n' d src rowidx i (S j)
  end.
Fixpoint merge_rows (n : nat) (dest src : table) (i : nat) : res table :=
  match n with
  | O => Ok dest
  | S n' =>
    let rowidx := length (ro dest) in
    do '(d, _) <- row_insert_at dest rowidx;
    do d <- merge_cols (length (co src)) d src rowidx i 0;
    merge_rows n' d src (S i)
  end.
Definition all_named (t : table) : bool :=
  forallb (fun i => negb (is_nil (orempty (column_name t i)))) (seq 0 (length (co t))).
Definition merge (dest src : table) : res (table * bool) :=
  if negb (all_named dest) then Ok (dest, false) else
  if negb (all_named src) then Ok (dest, false) else
  do d <- merge_rows (length (ro src)) dest src 0; Ok (d, true).

(** The interface calls that change a table, and what they return. *)
Inductive op :=
| OColInsert (idx : nat) (name : str)
| OSetName (idx : nat) (name : str)
| OColRemove (name : str)
| OColRemoveAt (idx : nat)
| OColRemoveEmpty
| OColOrder (cmp : str -> str -> Z)
| ORowInsert (idx : nat)
| ORowInsertDict (idx : nat) (data : list (str * str)) (f : iflag)
| ORowRemove (idx : nat)
| ORowRemoveEmpty
| OCellSet (row : nat) (name : str) (val : option str) (f : iflag)
| OCellSetAt (row col : nat) (val : option str)
| OCellSetDict (row : nat) (data : list (str * str)) (f : iflag)
| OSort (name : str) (cmp : str -> str -> Z) (name2 : str) (cmp2 : option (str -> str -> Z)).

Inductive out := OB (b : bool) | OC (n : nat) | OV.

Definition retb (m : res (table * bool)) : res (table * out) := do '(t, b) <- m; Ok (t, OB b).
Definition retv (m : res table) : res (table * out) := do t <- m; Ok (t, OV).

Definition apply (t : table) (o : op) : res (table * out) :=
  match o with
  | OColInsert i n => retb (column_insert_at t i n)
  | OSetName i n => retb (Ok (column_set_name t i n))
  | OColRemove n => retv (Ok (column_remove t n))
  | OColRemoveAt i => retv (Ok (column_remove_at t i))
  | OColRemoveEmpty => let '(t', n) := remove_empty_columns t in Ok (t', OC n)
  | OColOrder cmp => retv (column_order t cmp)
  | ORowInsert i => retb (row_insert_at t i)
  | ORowInsertDict i d f => retb (row_insert_dict_at t i d f)
  | ORowRemove i => retv (Ok (row_remove t i))
  | ORowRemoveEmpty => let '(t', n) := remove_empty_rows t in Ok (t', OC n)
  | OCellSet r n v f => retb (cell_set t r n v f)
  | OCellSetAt r c v => retb (Ok (cell_set_at t r c v))
  | OCellSetDict r d f => retb (cell_set_dict t r d f)
  | OSort n c n2 c2 => retv (sort_data t n c n2 c2)
  end.

Fixpoint run (t : table) (ops : list op) : res (table * list out) :=
  match ops with
  | [] => Ok (t, [])
  | o :: ops' =>
    do '(t1, x) <- apply t o;
    do '(t2, xs) <- run t1 ops';
    Ok (t2, x :: xs)
  end.

End Tab.

(** The two name comparisons of M_table_create, lines 288-291; M_chr_tolower
    is the definition of Glob. *)
Definition nrm_of (casecmp : bool) (n : str) : str := if casecmp then map chr_tolower n else n.

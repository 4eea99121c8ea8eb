(** What a table is to its user: a list of columns with optional names and a
    list of rows, each with one optional value per column. Nothing here
    refers to ids or hash tables. *)
From Verif Require Import Base.Lib Sort.Spec.
From Verif Require Import Table.Model.
Open Scope nat_scope.

Record tab := Tab { names : list (option str); cells : list (list (option str)) }.

Definition drop_at {A} (i : nat) (l : list A) : list A := firstn i l ++ skipn (S i) l.

(** Keep the elements whose flag is true. *)
Fixpoint select {A} (mask : list bool) (l : list A) : list A :=
  match mask, l with
  | b :: mask', x :: l' => if b then x :: select mask' l' else select mask' l'
  | _, _ => []
  end.

Definition given {A} (o : option A) : bool := match o with Some _ => true | None => false end.
Definition empty_name (n : str) : bool := match n with [] => true | _ => false end.
Definition text (o : option str) : str := match o with Some s => s | None => [] end.

Section Spec.
Variable nrm : str -> str.

(** The position of the column with a name. *)
Fixpoint find_name (l : list (option str)) (n : str) : option nat :=
  match l with
  | [] => None
  | Some m :: l' => if str_dec (nrm n) (nrm m) then Some 0 else option_map S (find_name l' n)
  | None :: l' => option_map S (find_name l' n)
  end.

Definition blank (T : tab) : list (option str) := map (fun _ => None) (names T).

(** A column (with no values) or an empty row put at a position. *)
Definition put_col (T : tab) (i : nat) (n : str) : tab :=
  Tab (insert_at i (if empty_name n then None else Some n) (names T))
      (map (insert_at i None) (cells T)).
Definition put_row (T : tab) (i : nat) (row : list (option str)) : tab :=
  Tab (names T) (insert_at i row (cells T)).
Definition drop_col (T : tab) (i : nat) : tab := Tab (drop_at i (names T)) (map (drop_at i) (cells T)).

(** One value changed. *)
Definition put_cell (T : tab) (r c : nat) (v : option str) : tab :=
  match nth_error (cells T) r with
  | None => T
  | Some row => Tab (names T) (upd (cells T) r (upd row c v))
  end.

Definition s_col_insert (T : tab) (i : nat) (n : str) : tab * bool :=
  if (length (names T) <? i) || (negb (empty_name n) && given (find_name (names T) n)) then (T, false)
  else (put_col T i n, true).

Definition s_cell_set (T : tab) (r : nat) (n : str) (v : option str) (f : iflag) : tab * bool :=
  if negb (r <? length (cells T)) || empty_name n then (T, false) else
  match find_name (names T) n, f with
  | Some c, _ => (put_cell T r c v, true)
  | None, IIgnore => (T, true)
  | None, INone => (T, false)
  | None, IAdd => (put_cell (put_col T (length (names T)) n) r (length (names T)) v, true)
  end.

(** A new row from names and values; columns are added on the way if asked
    for, a name without a column fails the call if nothing else is asked. *)
Fixpoint s_dict (T : tab) (row : list (option str)) (data : list (str * str)) (f : iflag)
  : option (tab * list (option str)) :=
  match data with
  | [] => Some (T, row)
  | (k, v) :: data' =>
    match find_name (names T) k, f with
    | Some c, _ => s_dict T (upd row c (Some v)) data' f
    | None, IIgnore => s_dict T row data' f
    | None, IAdd => s_dict (put_col T (length (names T)) k) (row ++ [Some v]) data' f
    | None, INone => None
    end
  end.
Definition s_row_dict (T : tab) (i : nat) (data : list (str * str)) (f : iflag) : tab * bool :=
  if length (cells T) <? i then (T, false) else
  match s_dict T (blank T) data f with
  | None => (T, false)
  | Some (T', row) => (put_row T' i row, true)
  end.

Fixpoint s_set_all (T : tab) (r : nat) (data : list (str * str)) (f : iflag) : tab :=
  match data with
  | [] => T
  | (k, v) :: data' => s_set_all (fst (s_cell_set T r k (Some v) f)) r data' f
  end.
Definition s_set_dict (T : tab) (r : nat) (data : list (str * str)) (f : iflag) : tab * bool :=
  if match f with INone => existsb (fun kv => negb (given (find_name (names T) (fst kv)))) data | _ => false end
  then (T, false) else (s_set_all T r data f, true).

(** Which columns have a value in some row; which rows have a value. *)
Definition col_mask (T : tab) : list bool :=
  map (fun c => existsb (fun row => given (nth c row None)) (cells T)) (seq 0 (length (names T))).
Definition row_mask (T : tab) : list bool := map (existsb given) (cells T).
Definition count_false (l : list bool) : nat := length (filter negb l).

(** Rows compared by one column, then by another one. *)
Definition row_cmp (c : nat) (cmp : str -> str -> Z) (sec : option (nat * (str -> str -> Z)))
  (x y : list (option str)) : Z :=
  let z := cmp (text (nth c x None)) (text (nth c y None)) in
  match sec with
  | Some (c2, cmp2) => if (z =? 0)%Z then cmp2 (text (nth c2 x None)) (text (nth c2 y None)) else z
  | None => z
  end.

(** A reordering of the rows that is sorted. *)
Definition rows_sorted (T T' : tab) (cmp : list (option str) -> list (option str) -> Z) : Prop :=
  names T' = names T /\ Permutation (cells T') (cells T) /\ sorted cmp (cells T').

(** A reordering of the columns, applied to the names and to every row. *)
Definition cols_sorted (T T' : tab) (cmp : str -> str -> Z) : Prop :=
  exists p, Permutation p (seq 0 (length (names T))) /\
    names T' = map (fun i => nth i (names T) None) p /\
    cells T' = map (fun row => map (fun i => nth i row None) p) (cells T) /\
    sorted cmp (map text (names T')).

(** The effect and the result of one call. *)
Definition step (T : tab) (o : op) (x : out) (T' : tab) : Prop :=
  match o with
  | OColInsert i n => (T', x) = (fst (s_col_insert T i n), OB (snd (s_col_insert T i n)))
  | OSetName i n =>
      if i <? length (names T)
      then T' = Tab (upd (names T) i (if empty_name n then None else Some n)) (cells T) /\ x = OB true
      else T' = T /\ x = OB false
  | OColRemove n =>
      x = OV /\ T' = match find_name (names T) n with
                     | Some c => drop_col T c
                     | None => T
                     end
  | OColRemoveAt i => x = OV /\ T' = if i <? length (names T) then drop_col T i else T
  | OColRemoveEmpty =>
      T' = Tab (select (col_mask T) (names T)) (map (select (col_mask T)) (cells T)) /\
      x = OC (count_false (col_mask T))
  | OColOrder cmp => x = OV /\ cols_sorted T T' cmp
  | ORowInsert i =>
      if length (cells T) <? i then T' = T /\ x = OB false
      else T' = put_row T i (blank T) /\ x = OB true
  | ORowInsertDict i d f => (T', x) = (fst (s_row_dict T i d f), OB (snd (s_row_dict T i d f)))
  | ORowRemove i => x = OV /\ T' = if i <? length (cells T) then Tab (names T) (drop_at i (cells T)) else T
  | ORowRemoveEmpty =>
      T' = Tab (names T) (select (row_mask T) (cells T)) /\ x = OC (count_false (row_mask T))
  | OCellSet r n v f => (T', x) = (fst (s_cell_set T r n v f), OB (snd (s_cell_set T r n v f)))
  | OCellSetAt r c v =>
      if (r <? length (cells T)) && (c <? length (names T)) then T' = put_cell T r c v /\ x = OB true
      else T' = T /\ x = OB false
  | OCellSetDict r d f => (T', x) = (fst (s_set_dict T r d f), OB (snd (s_set_dict T r d f)))
  | OSort n cmp n2 cmp2 =>
      x = OV /\
      match find_name (names T) n, cmp2 with
      | None, _ => T' = T
      | Some c, None =>
          if empty_name n2 || given (find_name (names T) n2) then rows_sorted T T' (row_cmp c cmp None) else T' = T
      | Some c, Some f =>
          match find_name (names T) n2 with
          | Some c2 => rows_sorted T T' (row_cmp c cmp (Some (c2, f)))
          | None => T' = T
          end
      end
  end.

Inductive steps : tab -> list op -> list out -> tab -> Prop :=
| steps_nil : forall T, steps T [] [] T
| steps_cons : forall T o x T1 os xs T2, step T o x T1 -> steps T1 os xs T2 -> steps T (o :: os) (x :: xs) T2.

(** Which calls the refinement covers, in the state of the table: comparators
    are total preorders, a secondary comparator comes with a column, and
    a column is only named if it has no name and the name is free (or keeps
    its name). *)
Definition ok_op (T : tab) (o : op) : Prop :=
  match o with
  | OSetName i n =>
      match nth_error (names T) i with
      | Some None => empty_name n = true \/ find_name (names T) n = None
      | _ => True
      end /\
      match nth_error (names T) i with
      | Some (Some m) => empty_name n = false /\ nrm m = nrm n
      | _ => True
      end
  | OColOrder cmp => total_preorder cmp
  | OSort n cmp n2 cmp2 =>
      total_preorder cmp /\
      match cmp2 with Some f => total_preorder f /\ empty_name n2 = false | None => True end
  | _ => True
  end.

(** A sequence of covered calls, whatever the calls before did. *)
Fixpoint covered (T : tab) (ops : list op) : Prop :=
  match ops with
  | [] => True
  | o :: ops' => ok_op T o /\ forall x T', step T o x T' -> covered T' ops'
  end.

(** How many ids a sequence may need. *)
Fixpoint cost (ops : list op) : nat :=
  match ops with
  | [] => 0
  | o :: ops' =>
    (match o with
     | ORowInsertDict _ d _ | OCellSetDict _ d _ => S (length d)
     | OColInsert _ _ | ORowInsert _ | OCellSet _ _ _ _ => 1
     | _ => 0
     end) + cost ops'
  end.
End Spec.

(** ** Merging *)
Section Merge.
Variable nrm : str -> str.

(** The value of a row under a column name. *)
Definition value (T : tab) (r : nat) (n : str) : option str :=
  match find_name nrm (names T) n with
  | Some c => nth c (nth r (cells T) []) None
  | None => None
  end.

(** Columns with the names of the second list that the first does not have
    are appended to the first. *)
Fixpoint union_names (l ms : list (option str)) : list (option str) :=
  match ms with
  | [] => l
  | m :: ms' => union_names (if given (find_name nrm l (text m)) then l else l ++ [m]) ms'
  end.

Definition merged (D S R : tab) : Prop :=
  names R = (match cells S with [] => names D | _ => union_names (names D) (names S) end) /\
  length (cells R) = length (cells D) + length (cells S) /\
  (forall r n, r < length (cells D) -> value R r n = value D r n) /\
  (forall i n, i < length (cells S) -> value R (length (cells D) + i) n = value S i n).
End Merge.

(** What the queries of the API say about a table: M_table_column_count,
    M_table_row_count, M_table_column_name, M_table_cell_at,
    M_table_column_idx and M_table_cell. *)
Definition shows (nrm : str -> str) (t : table) (T : tab) : Prop :=
  length (co t) = length (names T) /\ length (ro t) = length (cells T) /\
  (forall row, In row (cells T) -> length row = length (names T)) /\
  (forall i, column_name t i = nth i (names T) None) /\
  (forall r c, cell_at t r c = nth c (nth r (cells T) []) None) /\
  (forall n, column_idx nrm t n = find_name nrm (names T) n) /\
  (forall r n, cell nrm t r n = value nrm T r n).

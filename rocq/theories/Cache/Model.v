(** Model of base/cache/m_cache.c, on the models of the linked list (Llist) and
    of the hash table (Hash).

    Keys and values are pointers, represented by numbers (0 is NULL); a node of
    the list is stored in the hash table as its number plus one, a cell
    (M_cache_value_t) in the list as its number plus one.  Reading or writing a
    freed cell is undefined behaviour.  Calls of key_free and value_free are
    recorded, the latest first; a NULL callback frees nothing.  The memory of
    keys is not modelled: a key can still be compared after it was freed.  The
    copies made by the duplicate callbacks are given by functions of the key
    and the number of copies made before.  The size of the cache is unbounded
    (size_t in C).  Not modelled: a NULL cache, the NULL value argument of
    M_cache_get. *)
From Verif Require Import Base.Lib Cache.Spec.
From Verif Require Llist.Spec Llist.Model Llist.Destroy Hash.Spec Hash.Model Hash.Use.

(** struct M_cache, M_cache_value_t: lines 30-44 *)
Record cache := mkca { ct : Hash.Model.tab; cl : Llist.Model.ll; cells : list (option (N * N));
                       maxsz : nat; kfr : list N; vfr : list N; copies : nat }.
Definition set_cells (c : cache) (s : list (option (N * N))) : cache := mkca (ct c) (cl c) s (maxsz c) (kfr c) (vfr c) (copies c).

Section Model.
Context (kcmp : N -> N -> Z) (hash : N -> N) (kdup vdup : option (nat -> N -> N)) (lev : nat -> nat) (g : N).
(** M_llist_create (NULL, M_LLIST_NONE): no equality callback *)
Definition lcfg := Llist.Spec.mkc false false false.
Definition lcmp (_ _ : N) : Z := 0%Z.
Definition lstep (c : cache) (o : Llist.Spec.nop) : res (Llist.Spec.ret * cache) :=
  do '(r, d) <- Llist.Model.step lcmp lcfg lev (cl c) o; Ok (r, mkca (ct c) d (cells c) (maxsz c) (kfr c) (vfr c) (copies c)).
Definition hstep (c : cache) (o : Hash.Spec.hop) : res cache :=
  do '(_, h) <- Hash.Model.step kcmp kcmp hash Hash.Use.plain Hash.Use.same_ptr Hash.Use.same_ptr lev g (ct c) o;
  Ok (mkca h (cl c) (cells c) (maxsz c) (kfr c) (vfr c) (copies c)).
Definition lookup (c : cache) (k : N) : res (option N) := Hash.Model.hget kcmp hash Hash.Use.plain (ct c) k.
Definition to_ptr (n : nat) : N := N.of_nat (S n).
Definition of_ptr (v : N) : res nat := if (v =? 0)%N then UB else Ok (N.to_nat (v - 1)).
Definition cell (c : cache) (i : nat) : res (N * N) :=
  match nth_error (cells c) i with Some (Some p) => Ok p | _ => UB end.
Definition set_cell (c : cache) (i : nat) (p : N * N) : res cache :=
  do _ <- cell c i; Ok (set_cells c (upd (cells c) i (Some p))).
(** M_llist_node_val *)
Definition node_cell (c : cache) (n : nat) : res nat :=
  do v <- Llist.Model.value (Llist.Model.hp (cl c)) n; of_ptr v.
(** M_llist_take_node *)
Definition take_node (c : cache) (n : nat) : res (nat * cache) :=
  do '(r, c) <- lstep c (Llist.Spec.TakeNode n);
  match r with Llist.Spec.RV v => do i <- of_ptr v; Ok (i, c) | _ => UB end.

(** Lines 54-58, 164-168 *)
Definition copy_key (c : cache) (k : N) : N * cache :=
  match kdup with
  | Some f => (f (copies c) k, mkca (ct c) (cl c) (cells c) (maxsz c) (kfr c) (vfr c) (S (copies c)))
  | None => (k, c)
  end.
(** Lines 60-64 ([always]), 186-190: value_duplicate is applied to the key *)
Definition copy_value (always : bool) (c : cache) (k v : N) : N * cache :=
  match vdup with
  | Some f => if always || negb (v =? 0)%N
              then (f (copies c) k, mkca (ct c) (cl c) (cells c) (maxsz c) (kfr c) (vfr c) (S (copies c))) else (v, c)
  | None => (v, c)
  end.
(** M_cache_value_create: lines 48-67 *)
Definition value_create (c : cache) (k v : N) : nat * N * cache :=
  let '(k', c) := copy_key c k in
  let '(v', c) := copy_value true c k v in
  (length (cells c), k', set_cells c (cells c ++ [Some (k', v')])).
(** M_cache_value_destroy: lines 69-82 *)
Definition value_destroy (c : cache) (i : nat) (container : bool) : res cache :=
  do p <- cell c i;
  Ok (mkca (ct c) (cl c) (upd (cells c) i (if container then None else Some (0%N, 0%N))) (maxsz c)
           (fst p :: kfr c) (snd p :: vfr c) (copies c)).

(** M_cache_create: lines 86-116; None is NULL *)
Definition create (m : nat) : option cache :=
  match Hash.Model.create Hash.Use.plain 16 with
  | Some h => Some (mkca h (Llist.Model.create lcfg) [] m [] [] 0)
  | None => None
  end.
(** M_cache_destroy: lines 118-135 *)
Fixpoint destroy_loop (fuel : nat) (c : cache) : res cache :=
  match fuel with
  | O => Fuel
  | S fuel' =>
    do p <- Llist.Model.first (cl c);
    match p with
    | None => Ok c
    | Some n => do '(i, c) <- take_node c n; do c <- value_destroy c i true; destroy_loop fuel' c
    end
  end.
Definition destroy (c : cache) : res cache :=
  do _ <- Hash.Model.destroy kcmp Hash.Use.plain lev (ct c) false;
  do c <- destroy_loop (S (Llist.Model.cnt (cl c))) c;
  do _ <- Llist.Destroy.destroy (cl c) false;
  Ok c.

(** M_cache_insert: lines 139-195 *)
Definition insert (c : cache) (k v : N) : res (bool * cache) :=
  if (k =? 0)%N || (maxsz c =? 0) then Ok (false, c)
  else
  do b <- lookup c k;
  do '(n, c) <-
    match b with
    | None =>
      if Llist.Model.cnt (cl c) =? maxsz c then
        match Llist.Model.tl (cl c) with
        | None => UB
        | Some n =>
          do i <- node_cell c n;
          do p <- cell c i;
          do c <- hstep c (Hash.Spec.Remove (fst p) false);
          do c <- value_destroy c i false;
          let '(k', c) := copy_key c k in
          do c <- set_cell c i (k', 0%N);
          do c <- hstep c (Hash.Spec.Insert k' (to_ptr n));
          let '(v', c) := copy_value false c k v in
          do c <- set_cell c i (k', v');
          Ok (n, c)
        end
      else
        let '(i, k', c) := value_create c k v in
        do '(r, c) <- lstep c (Llist.Spec.InsertFirst (to_ptr i));
        match r with
        | Llist.Spec.RP (Some n) => do c <- hstep c (Hash.Spec.Insert k' (to_ptr n)); Ok (n, c)
        | _ => UB
        end
    | Some b =>
      do n <- of_ptr b;
      do i <- node_cell c n;
      do p <- cell c i;
      let c := mkca (ct c) (cl c) (cells c) (maxsz c) (kfr c) (snd p :: vfr c) (copies c) in
      let '(v', c) := copy_value false c k v in
      do c <- set_cell c i (fst p, v');
      Ok (n, c)
    end;
  do '(_, c) <- lstep c (Llist.Spec.SetFirst n);
  Ok (true, c).
(** M_cache_remove: lines 197-213 *)
Definition remove (c : cache) (k : N) : res (bool * cache) :=
  if (k =? 0)%N then Ok (false, c)
  else
  do b <- lookup c k;
  match b with
  | None => Ok (false, c)
  | Some b =>
    do n <- of_ptr b;
    do '(i, c) <- take_node c n;
    do c <- hstep c (Hash.Spec.Remove k false);
    do c <- value_destroy c i true;
    Ok (true, c)
  end.
(** M_cache_get: lines 215-235 *)
Definition cget (c : cache) (k : N) : res (option N * cache) :=
  if (k =? 0)%N then Ok (None, c)
  else
  do b <- lookup c k;
  match b with
  | None => Ok (None, c)
  | Some b =>
    do n <- of_ptr b;
    do '(_, c) <- lstep c (Llist.Spec.SetFirst n);
    do i <- node_cell c n;
    do p <- cell c i;
    Ok (Some (snd p), c)
  end.
(** M_cache_set_max_size: lines 255-272 *)
Fixpoint shrink (fuel : nat) (c : cache) (m : nat) : res cache :=
  match fuel with
  | O => Fuel
  | S fuel' =>
    if m <? Llist.Model.cnt (cl c) then
      match Llist.Model.tl (cl c) with
      | None => UB
      | Some n =>
        do '(i, c) <- take_node c n;
        do p <- cell c i;
        do c <- hstep c (Hash.Spec.Remove (fst p) false);
        do c <- value_destroy c i true;
        shrink fuel' c m
      end
    else Ok (mkca (ct c) (cl c) (cells c) m (kfr c) (vfr c) (copies c))
  end.
(** M_cache_size, M_cache_max_size: lines 239-253 *)
Definition step (c : cache) (o : cop) : res (ret * cache) :=
  match o with
  | Insert k v => do '(b, c) <- insert c k v; Ok (RB b, c)
  | Remove k => do '(b, c) <- remove c k; Ok (RB b, c)
  | Get k => do '(v, c) <- cget c k; Ok (RG v, c)
  | Size => Ok (RN (Llist.Model.cnt (cl c)), c)
  | MaxSize => Ok (RN (maxsz c), c)
  | SetMaxSize m => do c <- shrink (S (Llist.Model.cnt (cl c))) c m; Ok (RB true, c)
  end.
Fixpoint run (ops : list cop) (c : cache) : res (list ret * cache) :=
  match ops with
  | [] => Ok ([], c)
  | o :: ops' => do '(r, c) <- step c o; do '(rs, c) <- run ops' c; Ok (r :: rs, c)
  end.
End Model.

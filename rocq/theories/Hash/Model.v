(** Model of base/hash/m_hashtable.c.

    A key or value is a pointer, represented by a number (0 is NULL).  The
    callbacks are functions of the pointers; [dupk i n], [dupv i n] are the
    duplicates made by the n-th duplicating insertion, with the insert (i =
    true) or copy (i = false) callback, so that each call may return a new
    pointer.  Calls of key_free and value_free are recorded in [kf] and [vf].
    [hash] stands for key_hash with the seed of the table.

    The entries chained from a bucket, bucket first, are a list; an unused
    bucket is [].  The counters are unbounded: the entries of a table fit in
    memory.  The ordered keys and the values of a key are an M_llist and an
    M_list, as modelled in Llist and List; [lev] and [g] are the random levels
    of the one and the contents of the fresh memory of the other.

    Not modelled: NULL tables, M_hashtable_merge (lines 877-958),
    M_hashtable_size, is_multi, num_collisions, num_expansions (the getters). *)
From Verif Require Import Base.Lib Hash.Spec.
From Verif Require List.Spec List.Model Llist.Spec Llist.Model Bithacks.Model.

(** union value, lines 39-42 *)
Inductive slot := One (v : N) | Many (l : List.Model.lst).
(** struct M_hashtable_bucket, lines 36-44 *)
Record item := mki { ikey : N; ival : slot }.
(** struct M_hashtable, lines 52-78; size is the length of [bk] *)
Record tab := mkt { bk : list (list item); keys : Llist.Model.ll; nk : Z; nv : Z; coll : nat; exps : nat;
                    clk : nat; kf : list N; vf : list N }.
(** M_HASHTABLE_MAX_BUCKETS, m_hashtable.h line 118 *)
Definition max_buckets : N := 2 ^ 24.

Section Model.
Context (kcmp vcmp : N -> N -> Z) (hash : N -> N) (c : hcfg).
Context (dupk dupv : bool -> nat -> N -> N) (lev : nat -> nat) (g : N).

(** The list of keys, line 183; the list of values, line 312 *)
Definition kcfg : Llist.Spec.cfg := Llist.Spec.mkc (ksort c) false true.
Definition vcfg : List.Spec.cfg := List.Spec.mkc false (msort c) false false false false true.

(** M_hashtable_create: lines 104-187; None is NULL.  A size above 2^63 is
    rounded to 0 buckets. *)
Definition create (size : N) : option tab :=
  if (size =? 0)%N || (100 <=? fill c)%N then None
  else if (msort c || getlast c) && negb (multi c) then None
  else if ksort c && negb (ordered c) then None
  else
  let size := Bithacks.Model.round_up64 size in
  let size := if (max_buckets <? size)%N then max_buckets else size in
  Some (mkt (repeat [] (N.to_nat size)) (Llist.Model.create kcfg) 0 0 0 0 0 [] []).

Definition size (h : tab) : N := N.of_nat (length (bk h)).
(** HASH_IDX: line 218 *)
Definition hash_idx (h : tab) (k : N) : nat := N.to_nat (N.land (hash k) (size h - 1)).

(** M_hashtable_get_match: lines 196-211; the position in the chain *)
Fixpoint get_match (b : list item) (k : N) : option nat :=
  match b with
  | [] => None
  | it :: b' => if (kcmp (ikey it) k =? 0)%Z then Some 0 else option_map S (get_match b' k)
  end.

(** Lines 336-348: storing the value [x] in an entry holding [cur] *)
Definition store (rehash : bool) (cur x : slot) : res slot :=
  if multi c then
    if rehash then Ok x
    else match cur, x with
         | Many l, One v => do '(_, l) <- List.Model.insert vcmp vcfg g l v; Ok (Many l)
         | _, _ => UB
         end
  else Ok x.
(** Lines 281-289: where a new entry goes *)
Definition chain_add (it : item) (b : list item) : list item :=
  match b with [] => [it] | e :: b' => e :: it :: b' end.
Definition slot_eq (a b : slot) : bool := match a, b with One x, One y => (x =? y)%N | _, _ => false end.
Definition dup_slot (init : bool) (n : nat) (s : slot) : slot := match s with One v => One (dupv init n v) | _ => s end.
Definition free_slot (s : slot) : list N := match s with One v => [v] | _ => [] end.

(** M_hashtable_insert_direct: lines 246-351 *)
Definition insert_direct (h : tab) (dup init rehash : bool) (k : N) (v : slot) : res (bool * tab) :=
  if (k =? 0)%N then Ok (false, h)
  else
  let x := if dup then dup_slot init (clk h) v else v in
  let clk' := if dup then S (clk h) else clk h in
  let i := hash_idx h k in
  do b <- rd (bk h) i;
  match get_match b k with
  | None =>
    let k' := if dup then dupk init (clk h) k else k in
    do ks <- (if ordered c && negb rehash then
                do '(_, d) <- Llist.Model.step kcmp kcfg lev (keys h) (Llist.Spec.Insert k'); Ok d
              else Ok (keys h));
    do s <- store rehash (if multi c && negb rehash then Many (List.Model.create g) else One 0) x;
    do bk' <- wr (bk h) i (chain_add (mki k' s) b);
    let nk' := if rehash then nk h else (nk h + 1)%Z in
    let nv' := if rehash then nv h else (nv h + 1)%Z in
    let coll' := match b with [] => coll h | _ => S (coll h) end in
    Ok (true, mkt bk' ks nk' nv' coll' (exps h) clk' (kf h) (vf h))
  | Some j =>
    do it <- rd b j;
    if negb (multi c) && slot_eq (ival it) x then
      Ok (true, mkt (bk h) (keys h) (nk h) (nv h) (coll h) (exps h) clk' (kf h) (vf h))
    else
    let vf' := if negb (multi c) then free_slot (ival it) ++ vf h else vf h in
    do s <- store rehash (ival it) x;
    do b' <- wr b j (mki (ikey it) s);
    do bk' <- wr (bk h) i b';
    let nv' := if multi c && negb rehash then (nv h + 1)%Z else nv h in
    Ok (true, mkt bk' (keys h) (nk h) nv' (coll h) (exps h) clk' (kf h) vf')
  end.

(** M_list_destroy: base/list/m_list.c lines 406-420; the values freed *)
Definition list_destroy (l : List.Model.lst) (dv : bool) : res (list N) :=
  if dv then List.Model.free_range l 0 (List.Model.elems l) else Ok [].
(** M_hashtable_destroy_entry: lines 356-369 *)
Definition destroy_entry (h : tab) (it : item) (dv : bool) : res tab :=
  do ks <- (if ordered c then
              do '(_, d) <- Llist.Model.step kcmp kcfg lev (keys h) (Llist.Spec.RemoveVal (ikey it) (List.Spec.mkt false false)); Ok d
            else Ok (keys h));
  do f <- (if multi c then match ival it with Many l => list_destroy l dv | _ => UB end
           else Ok (if dv then free_slot (ival it) else []));
  Ok (mkt (bk h) ks (nk h) (nv h) (coll h) (exps h) (clk h) (ikey it :: kf h) (f ++ vf h)).

(** M_hashtable_rehash_or_destroy with is_destroy false: lines 379-452 *)
Fixpoint rehash_chain (its : list item) (h : tab) : res tab :=
  match its with
  | [] => Ok h
  | it :: its' => do '(_, h) <- insert_direct h false false true (ikey it) (ival it); rehash_chain its' h
  end.
Fixpoint rehash_buckets (bs : list (list item)) (h : tab) : res tab :=
  match bs with
  | [] => Ok h
  | b :: bs' => do h <- rehash_chain b h; rehash_buckets bs' h
  end.
Definition rehash (h : tab) : res tab :=
  if (max_buckets <? 2 * size h)%N then Ok h
  else rehash_buckets (bk h)
         (mkt (repeat [] (2 * length (bk h))) (keys h) (nk h) (nv h) (coll h) (S (exps h)) (clk h) (kf h) (vf h)).
(** M_hashtable_exceeds_load: lines 464-467 *)
Definition exceeds_load (h : tab) : bool :=
  negb (fill c =? 0)%N && (Z.of_N (fill c) <=? nk h * 100 / Z.of_N (size h))%Z.
(** M_hashtable_insert_int: lines 470-485 *)
Definition insert_int (h : tab) (init : bool) (k v : N) : res (bool * tab) :=
  do '(ok, h) <- insert_direct h true init false k (One v);
  if negb ok then Ok (false, h)
  else if exceeds_load h then do h <- rehash h; Ok (true, h)
  else Ok (true, h).

(** M_hashtable_destroy: lines 455-458 with 379-452, is_destroy true; the
    keys and values freed are those of the result *)
Fixpoint destroy_chain (its : list item) (h : tab) (dv : bool) : res tab :=
  match its with
  | [] => Ok h
  | it :: its' => do h <- destroy_entry h it dv; destroy_chain its' h dv
  end.
Fixpoint destroy_buckets (bs : list (list item)) (h : tab) (dv : bool) : res tab :=
  match bs with
  | [] => Ok h
  | b :: bs' => do h <- destroy_chain b h dv; destroy_buckets bs' h dv
  end.
Definition destroy (h : tab) (dv : bool) : res tab := destroy_buckets (bk h) h dv.

(** Length of the values of an entry, lines 500-502, 565-569, 630-634, 674-676 *)
Definition value_len (it : item) : res nat :=
  if multi c then match ival it with Many l => Ok (List.Model.elems l) | One _ => UB end else Ok 1.
(** M_hashtable_get_int: lines 495-517 *)
Definition get_int (it : item) (idx : nat) : res (option N) :=
  do n <- value_len it;
  if n <=? idx then Ok None
  else if multi c then
    match ival it with Many l => do v <- List.Model.at_ vcfg l idx; Ok (Some v) | One _ => UB end
  else match ival it with One v => Ok (Some v) | Many _ => UB end.
(** The entry of a key, lines 528-529 and the like *)
Definition lookup (h : tab) (k : N) : res (option (list item * nat * item)) :=
  do b <- rd (bk h) (hash_idx h k);
  match get_match b k with
  | None => Ok None
  | Some j => do it <- rd b j; Ok (Some (b, j, it))
  end.
(** M_hashtable_get: lines 519-544 *)
Definition hget (h : tab) (k : N) : res (option N) :=
  if (k =? 0)%N then Ok None
  else
  do e <- lookup h k;
  match e with
  | None => Ok None
  | Some (_, _, it) =>
    do idx <- (if multi c then if getlast c then do n <- value_len it; Ok (n - 1) else Ok 0 else Ok 0);
    get_int it idx
  end.

(** M_hashtable_remove, lines 572-592: unlinking entry [j] of a chain.  A
    following entry is copied over it; a bucket alone is cleared; the last of
    a chain is cut off by its predecessor. *)
Definition unchain (b : list item) (j : nat) : list item :=
  match skipn (S j) b with
  | nx :: rest => firstn j b ++ nx :: rest
  | [] => if j =? 0 then [] else firstn j b
  end.
(** M_hashtable_remove: lines 547-598 *)
Definition remove (h : tab) (k : N) (dv : bool) : res (bool * tab) :=
  if (k =? 0)%N then Ok (false, h)
  else
  do e <- lookup h k;
  match e with
  | None => Ok (false, h)
  | Some (b, j, it) =>
    do n <- value_len it;
    do h <- destroy_entry h it dv;
    do bk' <- wr (bk h) (hash_idx h k) (unchain b j);
    Ok (true, mkt bk' (keys h) (nk h - 1) (nv h - Z.of_nat n) (coll h) (exps h) (clk h) (kf h) (vf h))
  end.

(** M_hashtable_multi_len: lines 609-637 *)
Definition multi_len (h : tab) (k : N) : res (option nat) :=
  if negb (multi c) || (k =? 0)%N then Ok None
  else
  do e <- lookup h k;
  match e with None => Ok None | Some (_, _, it) => do n <- value_len it; Ok (Some n) end.
(** M_hashtable_multi_get: lines 640-655 *)
Definition multi_get (h : tab) (k : N) (idx : nat) : res (option N) :=
  if negb (multi c) || (k =? 0)%N then Ok None
  else
  do e <- lookup h k;
  match e with None => Ok None | Some (_, _, it) => get_int it idx end.
(** M_hashtable_multi_remove: lines 658-690 *)
Definition multi_remove (h : tab) (k : N) (idx : nat) (dv : bool) : res (bool * tab) :=
  if negb (multi c) || (k =? 0)%N then Ok (false, h)
  else
  do e <- lookup h k;
  match e with
  | None => Ok (false, h)
  | Some (b, j, it) =>
    do n <- value_len it;
    if n <=? idx then Ok (false, h)
    else if n =? 1 then remove h k dv
    else
    match ival it with
    | One _ => UB
    | Many l =>
      do '(v, l) <- List.Model.take_at vcfg l idx;
      do b' <- wr b j (mki (ikey it) (Many l));
      do bk' <- wr (bk h) (hash_idx h k) b';
      Ok (true, mkt bk' (keys h) (nk h) (nv h) (coll h) (exps h) (clk h) (kf h) (if dv then v :: vf h else vf h))
    end
  end.

(** M_hashtable_enum_t *)
Record henum := mke { ehash : nat; echain : nat; evidx : nat; enode : option nat }.
(** M_hashtable_enumerate: lines 729-739 *)
Definition enumerate (h : tab) : res (Z * henum) :=
  do p <- (if ordered c then Llist.Model.first (keys h) else Ok None);
  Ok (nv h, mke 0 0 0 p).
(** M_hashtable_enumerate_next_unordered: lines 741-818; [i] is the bucket *)
Fixpoint next_unordered (fuel : nat) (h : tab) (e : henum) (i : nat) : res (option (N * N) * henum) :=
  match fuel with
  | O => Fuel
  | S fuel' =>
    if length (bk h) <=? i then Ok (None, e)
    else
    do b <- rd (bk h) i;
    match nth_error b (echain e) with
    | None => next_unordered fuel' h (mke (ehash e) 0 (evidx e) (enode e)) (S i)
    | Some it =>
      if multi c then
        match ival it with
        | One _ => UB
        | Many l =>
          do v <- List.Model.at_ vcfg l (evidx e);
          if List.Model.elems l <=? S (evidx e) then Ok (Some (ikey it, v), mke i (S (echain e)) 0 (enode e))
          else Ok (Some (ikey it, v), mke i (echain e) (S (evidx e)) (enode e))
        end
      else
        match ival it with
        | One v => Ok (Some (ikey it, v), mke i (S (echain e)) 0 (enode e))
        | Many _ => UB
        end
    end
  end.
(** M_hashtable_enumerate_next_ordered: lines 820-862 *)
Definition next_ordered (h : tab) (e : henum) : res (option (N * N) * henum) :=
  match enode e with
  | None => Ok (None, e)
  | Some x =>
    do k <- Llist.Model.value (Llist.Model.hp (keys h)) x;
    if multi c then
      do v <- multi_get h k (evidx e);
      match v with
      | None => Ok (None, e)
      | Some v =>
        do n <- multi_len h k;
        match n with
        | None => Ok (None, mke (ehash e) (echain e) (S (evidx e)) (enode e))
        | Some n =>
          if n <=? S (evidx e) then
            do nx <- Llist.Model.node_next (keys h) x; Ok (Some (k, v), mke (ehash e) (echain e) 0 nx)
          else Ok (Some (k, v), mke (ehash e) (echain e) (S (evidx e)) (enode e))
        end
      end
    else
      do v <- hget h k;
      do nx <- Llist.Model.node_next (keys h) x;
      Ok (Some (k, match v with Some v => v | None => 0%N end), mke (ehash e) (echain e) (evidx e) nx)
  end.
(** M_hashtable_enumerate_next: lines 864-874 *)
Definition enumerate_next (h : tab) (e : henum) : res (option (N * N) * henum) :=
  if ordered c then next_ordered h e else next_unordered (S (length (bk h))) h e (ehash e).
(** Calling M_hashtable_enumerate_next until it fails, as a user does *)
Fixpoint collect (fuel : nat) (h : tab) (e : henum) : res (list (N * N)) :=
  match fuel with
  | O => Fuel
  | S fuel' =>
    do '(p, e) <- enumerate_next h e;
    match p with None => Ok [] | Some p => do l <- collect fuel' h e; Ok (p :: l) end
  end.
Definition enum_all (h : tab) : res (Z * list (N * N)) :=
  do '(n, e) <- enumerate h;
  do l <- collect (S (Z.to_nat (nv h))) h e;
  Ok (n, l).

(** M_hashtable_duplicate, lines 987-989 *)
Fixpoint insert_copies (l : list (N * N)) (h : tab) : res tab :=
  match l with
  | [] => Ok h
  | (k, v) :: l' => do '(_, h) <- insert_int h false k v; insert_copies l' h
  end.
Definition step (h : tab) (o : hop) : res (ret * tab) :=
  match o with
  | Insert k v => do '(b, h) <- insert_int h true k v; Ok (RB b, h)
  | Get k => do v <- hget h k; Ok (RV v, h)
  | Remove k dv => do '(b, h) <- remove h k dv; Ok (RB b, h)
  | MultiLen k => do n <- multi_len h k; Ok (RL n, h)
  | MultiGet k i => do v <- multi_get h k i; Ok (RV v, h)
  | MultiRemove k i dv => do '(b, h) <- multi_remove h k i dv; Ok (RB b, h)
  | NumKeys => Ok (RN (Z.to_nat (nk h)), h)
  | Enum => do '(n, l) <- enum_all h; Ok (RE (Z.to_nat n) l, h)
  end.
Fixpoint run (ops : list hop) (h : tab) : res (list ret * tab) :=
  match ops with
  | [] => Ok ([], h)
  | o :: ops' => do '(r, h) <- step h o; do '(rs, h) <- run ops' h; Ok (r :: rs, h)
  end.
End Model.

(** M_hashtable_duplicate: lines 961-993.  [hash2] is the hash with the seed of
    the copy.  The pairs are collected first. *)
Definition duplicate kcmp vcmp hash hash2 c dupk dupv lev g (h : tab) : res (option tab) :=
  match create c (size h) with
  | None => Ok None
  | Some d =>
    do '(n, l) <- enum_all kcmp hash c h;
    do d <- (if (n =? 0)%Z then Ok d else insert_copies kcmp vcmp hash2 c dupk dupv lev g l d);
    Ok (Some d)
  end.

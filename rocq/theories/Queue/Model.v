(** Model of base/data/m_queue.c, on the models of the linked list (Llist) and
    of the hash table (Hash).

    Members are pointers, represented by numbers (0 is NULL); a node of the
    linked list is stored in the hash table as its number plus one.  [hash] is
    M_hash_func_hash_vp with the seed of the table; [lev] the random levels of
    the list, [g] unused.  Calls of free_cb are recorded in [fr] of the list.
    Not modelled: a NULL queue (the calls return M_FALSE, 0 or NULL). *)
From Verif Require Import Base.Lib Queue.Spec.
From Verif Require Llist.Spec Llist.Model Llist.Destroy Hash.Spec Hash.Model Hash.Use.

(** struct M_queue: lines 29-32 *)
Record queue := mkq { ql : Llist.Model.ll; qh : Hash.Model.tab }.
(** M_sort_compar_vp: base/sort/m_sort_compar.c; only its being 0 matters *)
Definition vp (x y : N) : Z := (Z.of_N x - Z.of_N y)%Z.

Section Model.
Context (cmp : N -> N -> Z) (srtd : bool) (hash : N -> N) (lev : nat -> nat) (g : N).
(** Line 45 *)
Definition lcfg := Llist.Spec.mkc srtd false srtd.
(** The equality callback of the list; without sorting it is NULL and never
    called *)
Definition lcmp (x y : N) : Z := if srtd then cmp x y else 0%Z.
Definition lstep (q : queue) (o : Llist.Spec.nop) : res (Llist.Spec.ret * queue) :=
  do '(r, d) <- Llist.Model.step lcmp lcfg lev (ql q) o; Ok (r, mkq d (qh q)).
Definition hstep (q : queue) (o : Hash.Spec.hop) : res (Hash.Spec.ret * queue) :=
  do '(r, h) <- Hash.Model.step vp vp hash Hash.Use.plain Hash.Use.same_ptr Hash.Use.same_ptr lev g (qh q) o; Ok (r, mkq (ql q) h).
(** M_hashtable_get on the queue's table *)
Definition lookup (q : queue) (m : N) : res (option N) := Hash.Model.hget vp hash Hash.Use.plain (qh q) m.
Definition node_ptr (p : option nat) : N := match p with None => 0 | Some n => N.of_nat (S n) end.
Definition ptr_node (v : N) : res nat := if (v =? 0)%N then UB else Ok (N.to_nat (v - 1)).

(** M_queue_create: lines 35-48; None is NULL *)
Definition create : option queue :=
  match Hash.Model.create Hash.Use.plain 16 with
  | Some h => Some (mkq (Llist.Model.create lcfg) h)
  | None => None
  end.
(** M_queue_destroy: lines 51-59; what is left of the list *)
Definition destroy (q : queue) : res Llist.Model.ll :=
  do d <- Llist.Destroy.destroy (ql q) true;
  do _ <- Hash.Model.destroy vp Hash.Use.plain lev (qh q) false;
  Ok d.
(** M_queue_insert: lines 62-76 *)
Definition insert (q : queue) (m : N) : res (bool * queue) :=
  if (m =? 0)%N then Ok (false, q)
  else
  do v <- lookup q m;
  match v with
  | Some _ => Ok (false, q)
  | None =>
    do '(r, q) <- lstep q (Llist.Spec.Insert m);
    do '(_, q) <- hstep q (Hash.Spec.Insert m (match r with Llist.Spec.RP p => node_ptr p | _ => 0%N end));
    Ok (true, q)
  end.
(** M_queue_remove, M_queue_take: lines 79-110 *)
Definition drop (free : bool) (q : queue) (m : N) : res (bool * queue) :=
  if (m =? 0)%N then Ok (false, q)
  else
  do v <- lookup q m;
  match v with
  | None => Ok (false, q)
  | Some v =>
    do n <- ptr_node v;
    do '(_, q) <- lstep q (if free then Llist.Spec.RemoveNode n else Llist.Spec.TakeNode n);
    do '(_, q) <- hstep q (Hash.Spec.Remove m (negb free));
    Ok (true, q)
  end.
(** M_queue_exists: lines 113-124 *)
Definition qexists (q : queue) (m : N) : res bool :=
  if (m =? 0)%N then Ok false else do v <- lookup q m; Ok (match v with Some _ => true | None => false end).
(** M_queue_first, M_queue_last: lines 136-148, 174-186 *)
Definition peek (q : queue) (o : Llist.Spec.nop) : res N :=
  do '(r, _) <- lstep q o;
  match r with
  | Llist.Spec.RP (Some n) => Llist.Model.value (Llist.Model.hp (ql q)) n
  | _ => Ok 0%N
  end.
(** M_queue_take_first: lines 151-171 *)
Definition take_first (q : queue) : res (N * queue) :=
  do p <- Llist.Model.first (ql q);
  match p with
  | None => Ok (0%N, q)
  | Some n =>
    do '(r, q) <- lstep q (Llist.Spec.TakeNode n);
    let m := match r with Llist.Spec.RV m => m | _ => 0%N end in
    do '(_, q) <- hstep q (Hash.Spec.Remove m false);
    Ok (m, q)
  end.
(** *q_foreach: NULL, a node, or M_UINTPTR_MAX *)
Inductive cursor := Start | At (n : nat) | End.
(** M_queue_foreach: lines 189-218 *)
Definition foreach (q : queue) (c : cursor) : res (option N * cursor) :=
  do c <- match c with Start => do p <- Llist.Model.first (ql q); Ok (option_map At p) | c => Ok (Some c) end;
  match c with
  | None | Some Start => Ok (None, Start)
  | Some End => Ok (None, Start)
  | Some (At n) =>
    do m <- Llist.Model.value (Llist.Model.hp (ql q)) n;
    do nx <- Llist.Model.node_next (ql q) n;
    Ok (Some m, match nx with None => End | Some n => At n end)
  end.
(** Calling M_queue_foreach until it fails, as a user does *)
Fixpoint collect (fuel : nat) (q : queue) (c : cursor) : res (list N) :=
  match fuel with
  | O => Fuel
  | S fuel' =>
    do '(m, c) <- foreach q c;
    match m with None => Ok [] | Some m => do l <- collect fuel' q c; Ok (m :: l) end
  end.

Definition step (q : queue) (o : qop) : res (ret * queue) :=
  match o with
  | Insert m => do '(b, q) <- insert q m; Ok (RB b, q)
  | Remove m => do '(b, q) <- drop true q m; Ok (RB b, q)
  | Take m => do '(b, q) <- drop false q m; Ok (RB b, q)
  | Exists m => do b <- qexists q m; Ok (RB b, q)
  | Len => Ok (RN (Llist.Model.cnt (ql q)), q)
  | First => do m <- peek q Llist.Spec.First; Ok (RM m, q)
  | TakeFirst => do '(m, q) <- take_first q; Ok (RM m, q)
  | Last => do m <- peek q Llist.Spec.Last; Ok (RM m, q)
  | Foreach => do l <- collect (S (Llist.Model.cnt (ql q))) q Start; Ok (RL l, q)
  end.
Fixpoint run (ops : list qop) (q : queue) : res (list ret * queue) :=
  match ops with
  | [] => Ok ([], q)
  | o :: ops' => do '(r, q) <- step q o; do '(rs, q) <- run ops' q; Ok (r :: rs, q)
  end.
End Model.

(** Model of base/list/m_llist.c.

    A node pointer is the number of the node in the heap; a freed node is
    [None], every access to it is undefined behaviour.  A node of an unsorted
    list has one next and one prev pointer, a node of a sorted list one per
    level (lines 61-76): both are kept in lists.  The duplicate callbacks are
    the defaults (lines 92-96); the values passed to value_free are recorded.
    There is one list, so the checks that two nodes have the same parent
    (lines 295, 672, 707) succeed.  The random number of levels of a node
    (lines 127-133) is given by [lev]; theorems hold for every [lev].  NULL
    lists and nodes, M_llist_change_sorting (527-543), M_llist_destroy
    (545-572) are not modelled. *)
From Verif Require Import Base.Lib Llist.Spec.

Definition ptr := option nat.
Record node := mkn { nval : N; nnext : list ptr; nprev : list ptr }.
Definition heap := list (option node).
(** struct M_llist, lines 36-59; an unsorted list has one head. *)
Record ll := mkd { hp : heap; hd : list ptr; tl : ptr; cnt : nat; fr : list N }.

Definition get (h : heap) (x : nat) : res node :=
  match nth_error h x with Some (Some n) => Ok n | _ => UB end.
Definition value (h : heap) (x : nat) : res N := do n <- get h x; Ok (nval n).
Definition next (h : heap) (i x : nat) : res ptr := do n <- get h x; rd (nnext n) i.
Definition prev (h : heap) (i x : nat) : res ptr := do n <- get h x; rd (nprev n) i.
Definition set_next (h : heap) (i x : nat) (p : ptr) : res heap :=
  do n <- get h x; do l <- wr (nnext n) i p; Ok (upd h x (Some (mkn (nval n) l (nprev n)))).
Definition set_prev (h : heap) (i x : nat) (p : ptr) : res heap :=
  do n <- get h x; do l <- wr (nprev n) i p; Ok (upd h x (Some (mkn (nval n) (nnext n) l))).
Definition peq (p : ptr) (x : nat) : bool := match p with Some y => y =? x | None => false end.
Definition set_hp (d : ll) (h : heap) : ll := mkd h (hd d) (tl d) (cnt d) (fr d).

Section Model.
Context (cmp : N -> N -> Z) (c : cfg) (lev : nat -> nat).

(** M_llist_create: lines 493-525 *)
Definition create : ll := mkd [] (repeat None (if srt c then 4 else 1)) None 0 [].

(** M_llist_max_level: lines 108-116; the least e with elements <= 2^e (see
    Bithacks for the two functions used) *)
Definition max_level (d : ll) : nat := if S (cnt d) <=? 16 then 4 else Nat.log2_up (S (cnt d)).
(** M_llist_node_calc_level: lines 119-138; the loop runs 1 + lev x times for
    the node x *)
Definition calc_level (d : ll) (x : nat) : nat :=
  Nat.min (S (lev x)) (Nat.min (S (length (hd d))) (max_level d)).

(** M_llist_node_create: lines 142-159 *)
Definition node_create (d : ll) (v : N) : ll * nat :=
  let links := if srt c then [] else [None] in
  (set_hp d (hp d ++ [Some (mkn v links links)]), length (hp d)).
(** M_llist_node_destory: lines 161-182 *)
Definition node_destroy (d : ll) (x : nat) (destroy_val : bool) : res ll :=
  do n <- get (hp d) x;
  Ok (mkd (upd (hp d) x None) (hd d) (tl d) (cnt d) (if destroy_val then nval n :: fr d else fr d)).

(** M_llist_node_unlink: lines 184-211 *)
Definition unlink (d : ll) (n : nat) : res ll :=
  do nx <- next (hp d) 0 n;
  do pv <- prev (hp d) 0 n;
  do h <- match nx with Some y => set_prev (hp d) 0 y pv | None => Ok (hp d) end;
  do h <- match pv with Some y => set_next h 0 y nx | None => Ok h end;
  do p <- rd (hd d) 0;
  do hd' <- (if peq p n then do q <- next h 0 n; wr (hd d) 0 q else Ok (hd d));
  do tl' <- (if peq (tl d) n then prev h 0 n else Ok (tl d));
  do h <- set_next h 0 n None;
  do h <- set_prev h 0 n None;
  Ok (mkd h hd' tl' (cnt d) (fr d)).

(** M_llist_insert_sorted: lines 213-289 *)
Fixpoint scan (fuel : nat) (h : heap) (v : N) (i x : nat) : res nat :=
  match fuel with
  | O => Fuel
  | S f =>
    do nx <- next h i x;
    match nx with
    | None => Ok x
    | Some y => do w <- value h y; if (0 <? cmp v w)%Z then scan f h v i y else Ok x
    end
  end.
Definition start_at (d : ll) (v : N) (i : nat) (n1 : ptr) : res ptr :=
  match n1 with
  | Some x => Ok n1
  | None =>
    do p <- rd (hd d) i;
    match p with
    | None => Ok None
    | Some x => do w <- value (hp d) x; Ok (if (0 <? cmp w v)%Z then None else Some x)
    end
  end.
Definition chain_in (d : ll) (n i : nat) (n1 : ptr) : res ll :=
  do d <-
    match n1 with
    | None =>
      do p <- rd (hd d) i;
      do h <- set_next (hp d) i n p;
      do h <- set_prev h i n None;
      do hd' <- wr (hd d) i (Some n);
      Ok (mkd h hd' (tl d) (cnt d) (fr d))
    | Some x =>
      do p <- next (hp d) i x;
      do h <- set_next (hp d) i n p;
      do h <- set_prev h i n (Some x);
      do h <- set_next h i x (Some n);
      Ok (set_hp d h)
    end;
  do p <- next (hp d) i n;
  match p with
  | Some y => do h <- set_prev (hp d) i y (Some n); Ok (set_hp d h)
  | None => if i =? 0 then Ok (mkd (hp d) (hd d) (Some n) (cnt d) (fr d)) else Ok d
  end.
Fixpoint ins_levels (i : nat) (d : ll) (n : nat) (v : N) (nl : nat) (n1 : ptr) : res ll :=
  match i with
  | O => Ok d
  | S i' =>
    do n1 <- start_at d v i' n1;
    do n1 <- match n1 with None => Ok None | Some x => do y <- scan (S (length (hp d))) (hp d) v i' x; Ok (Some y) end;
    if nl <=? i' then ins_levels i' d n v nl n1
    else do d <- chain_in d n i' n1; ins_levels i' d n v nl n1
  end.
Definition insert_sorted (d : ll) (n : nat) : res ll :=
  let nl := calc_level d n in
  let hd' := if length (hd d) <? nl then hd d ++ repeat None (nl - length (hd d)) else hd d in
  do nd <- get (hp d) n;
  let h := upd (hp d) n (Some (mkn (nval nd) (repeat None nl) (repeat None nl))) in
  do d <- ins_levels (length hd') (mkd h hd' (tl d) (cnt d) (fr d)) n (nval nd) nl None;
  Ok (mkd (hp d) (hd d) (tl d) (S (cnt d)) (fr d)).

(** M_llist_insert_unsorted: lines 291-338 *)
Definition bump (d : ll) : ll := mkd (hp d) (hd d) (tl d) (S (cnt d)) (fr d).
Definition insert_unsorted (d : ll) (n : nat) (after : ptr) : res ll :=
  match after with
  | None =>
    do p <- rd (hd d) 0;
    do h <- set_next (hp d) 0 n p;
    do h <- match p with
            | Some y => set_prev h 0 y (Some n)
            | None => if circ c then set_next h 0 n (Some n) else Ok h
            end;
    do hd' <- wr (hd d) 0 (Some n);
    let t := match tl d with None => n | Some t => t end in
    do h <- (if circ c then do h <- set_prev h 0 n (Some t); set_next h 0 t (Some n) else Ok h);
    Ok (bump (mkd h hd' (Some t) (cnt d) (fr d)))
  | Some a =>
    do h <- set_prev (hp d) 0 n (Some a);
    do p <- next h 0 a;
    do h <- set_next h 0 n p;
    do h <- set_next h 0 a (Some n);
    match p with
    | None => Ok (bump (mkd h (hd d) (Some n) (cnt d) (fr d)))
    | Some y =>
      do q <- rd (hd d) 0;
      let t := if circ c && peq q y then Some n else tl d in
      do h <- set_prev h 0 y (Some n);
      Ok (bump (mkd h (hd d) t (cnt d) (fr d)))
    end
  end.
(** M_llist_insert_node: lines 340-347 *)
Definition insert_node (d : ll) (n : nat) : res ll :=
  if srt c then insert_sorted d n else insert_unsorted d n (tl d).

(** M_llist_node_next, M_llist_node_prev, M_llist_first: lines 973-991, 753-761 *)
Definition node_next (d : ll) (n : nat) : res ptr := next (hp d) 0 n.
Definition node_prev (d : ll) (n : nat) : res ptr := prev (hp d) 0 n.
Definition first (d : ll) : res ptr := rd (hd d) 0.

(** M_llist_take_remove_node: lines 430-489 *)
Definition relink (d : ll) (n i : nat) : res ll :=
  do nx <- next (hp d) i n;
  do pv <- prev (hp d) i n;
  do d <-
    match nx with
    | None => Ok (if i =? 0 then mkd (hp d) (hd d) pv (cnt d) (fr d) else d)
    | Some y => do h <- set_prev (hp d) i y pv; Ok (set_hp d h)
    end;
  match pv with
  | None => do hd' <- wr (hd d) i nx; Ok (mkd (hp d) hd' (tl d) (cnt d) (fr d))
  | Some x => do h <- set_next (hp d) i x nx; Ok (set_hp d h)
  end.
Fixpoint relink_levels (i : nat) (d : ll) (n : nat) : res ll :=
  match i with O => Ok d | S i' => do d <- relink d n i'; relink_levels i' d n end.
(** Lines 465-477: levels above the lowest that are empty at the top *)
Fixpoint trim (i : nat) (hds : list ptr) : nat :=
  match i with
  | S (S _ as i') => match nth i' hds None with None => trim i' hds | Some _ => i end
  | _ => i
  end.
Definition take_remove (d : ll) (n : nat) (is_remove : bool) : res (N * ll) :=
  do nd <- get (hp d) n;
  do d <-
    (if srt c then
       do d <- relink_levels (length (nnext nd)) d n;
       Ok (mkd (hp d) (firstn (trim (length (hd d)) (hd d)) (hd d)) (tl d) (cnt d) (fr d))
     else unlink d n);
  do d <- node_destroy d n is_remove;
  Ok (nval nd, mkd (hp d) (hd d) (tl d) (cnt d - 1) (fr d)).

(** M_llist_find: lines 770-890 *)
Fixpoint seek (fuel : nat) (h : heap) (v : N) (i x : nat) : res (ptr * bool) :=
  match fuel with
  | O => Fuel
  | S f =>
    do w <- value h x;
    let eq := cmp w v in
    if (eq =? 0)%Z then Ok (Some x, true)
    else if (0 <? eq)%Z then do p <- prev h i x; Ok (p, false)
    else do p <- next h i x; match p with None => Ok (None, false) | Some y => seek f h v i y end
  end.
Fixpoint find_levels (i : nat) (d : ll) (v : N) (nd : ptr) : res ptr :=
  match i with
  | O => Ok None
  | S i' =>
    do nd <- match nd with None => rd (hd d) i' | Some _ => Ok nd end;
    match nd with
    | None => find_levels i' d v None
    | Some x =>
      do '(nd, m) <- seek (S (length (hp d))) (hp d) v i' x;
      if m : bool then Ok nd else find_levels i' d v nd
    end
  end.
Fixpoint back (fuel : nat) (d : ll) (v : N) (x : nat) : res nat :=
  match fuel with
  | O => Fuel
  | S f =>
    do p <- node_prev d x;
    match p with
    | None => Ok x
    | Some y => do w <- value (hp d) y; if (cmp w v =? 0)%Z then back f d v y else Ok x
    end
  end.
Fixpoint forth (fuel : nat) (d : ll) (v : N) (x : nat) : res ptr :=
  match fuel with
  | O => Fuel
  | S f =>
    do w <- value (hp d) x;
    if (v =? w)%N then Ok (Some x)
    else
    do p <- node_next d x;
    match p with
    | None => Ok None
    | Some y => do w <- value (hp d) y; if (cmp w v =? 0)%Z then forth f d v y else Ok None
    end
  end.
Fixpoint find_unsorted (fuel : nat) (d : ll) (v : N) (t : mtype) (fst : ptr) (x : nat) : res ptr :=
  match fuel with
  | O => Fuel
  | S f =>
    do w <- value (hp d) x;
    if (negb (mptr t) && (cmp w v =? 0)%Z) || (mptr t && (v =? w)%N) then Ok (Some x)
    else
    do p <- node_next d x;
    match p with
    | None => Ok None
    | Some y => if peq fst y then Ok None else find_unsorted f d v t fst y
    end
  end.
Definition find (d : ll) (v : N) (t : mtype) : res ptr :=
  if (v =? 0)%N || (negb (mptr t) && negb (has_eq c)) then Ok None
  else if srt c then
    do p <- find_levels (length (hd d)) d v None;
    match p with
    | None => Ok None
    | Some x =>
      do x <- back (S (length (hp d))) d v x;
      if negb (mptr t) then Ok (Some x) else forth (S (length (hp d))) d v x
    end
  else
  do p <- first d;
  match p with None => Ok None | Some x => find_unsorted (S (length (hp d))) d v t p x end.

(** M_llist_match_op_val_int: lines 349-428; [rm]: M_LLIST_MATCH_OP_REMOVE *)
Fixpoint match_loop (fuel : nat) (d : ll) (v : N) (t : mtype) (rm : bool) (fst : ptr) (x : nat) (n : nat) : res (nat * ll) :=
  match fuel with
  | O => Fuel
  | S f =>
    do nx <- node_next d x;
    do w <- value (hp d) x;
    let val_match := (srt c || negb (mptr t)) && (cmp v w =? 0)%Z in
    let m := (val_match || (negb (srt c) && mptr t)) && (if mptr t then (v =? w)%N else true) in
    do '(d, n) <-
      (if m then
         if rm then do '(_, d) <- take_remove d x true; Ok (d, S n) else Ok (d, S n)
       else Ok (d, n));
    if srt c && negb val_match then Ok (n, d)
    else if (n =? 1) && negb (mall t) && rm then Ok (n, d)
    else
    match nx with
    | None => Ok (n, d)
    | Some y => if peq fst y then Ok (n, d) else match_loop f d v t rm fst y n
    end
  end.
Definition match_op (d : ll) (v : N) (t : mtype) (rm : bool) : res (nat * ll) :=
  if (v =? 0)%N || (negb (mptr t) && negb (has_eq c)) then Ok (0, d)
  else
  do '(fst, nd) <- (if srt c then do p <- find d v t; Ok (None, p) else do p <- first d; Ok (p, p));
  match nd with
  | None => Ok (0, d)
  | Some x => match_loop (S (length (hp d))) d v t rm fst x 0
  end.

(** M_llist_set_first, _set_last, _move_before, _move_after: lines 629-735 *)
Definition move_before (d : ll) (m b : nat) : res (bool * ll) :=
  if (b =? m) || srt c then Ok (false, d)
  else
  do p <- node_next d m;
  if peq p b then Ok (true, d)
  else
  do d <- unlink d m;
  do p <- first d;
  do hd' <- (if peq p b then wr (hd d) 0 (Some m) else Ok (hd d));
  do pv <- prev (hp d) 0 b;
  do h <- set_prev (hp d) 0 b (Some m);
  do h <- set_next h 0 m (Some b);
  do h <- set_prev h 0 m pv;
  do h <- match pv with Some y => set_next h 0 y (Some m) | None => Ok h end;
  Ok (true, mkd h hd' (tl d) (cnt d) (fr d)).
Definition move_after (d : ll) (m a : nat) : res (bool * ll) :=
  if (a =? m) || srt c then Ok (false, d)
  else
  do p <- node_prev d m;
  if peq p a then Ok (true, d)
  else
  do d <- unlink d m;
  let t := if peq (tl d) a then Some m else tl d in
  do nx <- next (hp d) 0 a;
  do h <- set_next (hp d) 0 a (Some m);
  do h <- set_prev h 0 m (Some a);
  do h <- set_next h 0 m nx;
  do h <- match nx with Some y => set_prev h 0 y (Some m) | None => Ok h end;
  Ok (true, mkd h (hd d) t (cnt d) (fr d)).
Definition set_first (d : ll) (n : nat) : res ll :=
  if srt c || (cnt d <=? 1) then Ok d
  else if circ c then
    do pv <- prev (hp d) 0 n;
    do hd' <- wr (hd d) 0 (Some n);
    Ok (mkd (hp d) hd' pv (cnt d) (fr d))
  else
  do p <- first d;
  match p with None => Ok d | Some x => do '(_, d) <- move_before d n x; Ok d end.
Definition set_last (d : ll) (n : nat) : res ll :=
  if srt c || (cnt d <=? 1) then Ok d
  else if circ c then
    do nx <- next (hp d) 0 n;
    do hd' <- wr (hd d) 0 nx;
    Ok (mkd (hp d) hd' (Some n) (cnt d) (fr d))
  else
  match tl d with None => Ok d | Some x => do '(_, d) <- move_after d n x; Ok d end.

(** M_llist_remove_duplicates: lines 915-969; [eq] is only looked at (line 954)
    when it was just computed *)
Fixpoint dup_inner (fuel : nat) (d : ll) (t : mtype) (fst : ptr) (n1 n2 : nat) : res ll :=
  match fuel with
  | O => Fuel
  | S f =>
    do nx <- node_next d n2;
    let continue d :=
      match nx with
      | None => Ok d
      | Some y => if peq fst y then Ok d else dup_inner f d t fst n1 y
      end in
    if n1 =? n2 then continue d
    else
    do v1 <- value (hp d) n1;
    do v2 <- value (hp d) n2;
    do d <- (if (if mptr t then (v1 =? v2)%N else (cmp v1 v2 =? 0)%Z)
             then do '(_, d) <- take_remove d n2 true; Ok d else Ok d);
    if srt c && negb (cmp v1 v2 =? 0)%Z then Ok d else continue d
  end.
Fixpoint dup_outer (fuel : nat) (d : ll) (t : mtype) (fst : ptr) (n1 : nat) : res ll :=
  match fuel with
  | O => Fuel
  | S f =>
    do n2 <- (if srt c then node_next d n1 else first d);
    do d <- match n2 with None => Ok d | Some x => dup_inner (S (length (hp d))) d t fst n1 x end;
    do nx <- node_next d n1;
    match nx with
    | None => Ok d
    | Some y => if peq fst y then Ok d else dup_outer f d t fst y
    end
  end.
Definition remove_duplicates (d : ll) (t : mtype) : res ll :=
  if negb (mptr t) && negb (has_eq c) then Ok d
  else
  do p <- first d;
  match p with None => Ok d | Some x => dup_outer (S (length (hp d))) d t p x end.

(** The functions of the interface; insertion: lines 576-627, the rest
    739-768, 894-913, 995-1000. *)
Definition inserting (d : ll) (v : N) (f : ll -> nat -> res ll) : res (ret * ll) :=
  let '(d, n) := node_create d v in do d <- f d n; Ok (RP (Some n), d).
Definition step (d : ll) (o : nop) : res (ret * ll) :=
  match o with
  | Insert v => if (v =? 0)%N then Ok (RP None, d) else inserting d v insert_node
  | InsertFirst v =>
    if (v =? 0)%N || srt c then Ok (RP None, d) else inserting d v (fun d n => insert_unsorted d n None)
  | InsertBefore x v =>
    if (v =? 0)%N || srt c then Ok (RP None, d)
    else inserting d v (fun d n => do p <- prev (hp d) 0 x; insert_unsorted d n p)
  | InsertAfter x v =>
    if (v =? 0)%N || srt c then Ok (RP None, d) else inserting d v (fun d n => insert_unsorted d n (Some x))
  | SetFirst n => do d <- set_first d n; Ok (RU, d)
  | SetLast n => do d <- set_last d n; Ok (RU, d)
  | MoveBefore m b => do '(r, d) <- move_before d m b; Ok (RB r, d)
  | MoveAfter m a => do '(r, d) <- move_after d m a; Ok (RB r, d)
  | Len => Ok (RN (cnt d), d)
  | Count v t => do '(n, d) <- match_op d v t false; Ok (RN n, d)
  | First => do p <- first d; Ok (RP p, d)
  | Last => Ok (RP (tl d), d)
  | Find v t => do p <- find d v t; Ok (RP p, d)
  | TakeNode n => do '(v, d) <- take_remove d n false; Ok (RV v, d)
  | RemoveNode n => do '(_, d) <- take_remove d n true; Ok (RB true, d)
  | RemoveVal v t => do '(n, d) <- match_op d v t true; Ok (RN n, d)
  | RemoveDups t => do d <- remove_duplicates d t; Ok (RU, d)
  | Next n => do p <- node_next d n; Ok (RP p, d)
  | Prev n => do p <- node_prev d n; Ok (RP p, d)
  | Val n => do v <- value (hp d) n; Ok (RV v, d)
  end.
Fixpoint run (ops : list nop) (d : ll) : res (list ret * ll) :=
  match ops with
  | [] => Ok ([], d)
  | o :: ops' => do '(r, d) <- step d o; do '(rs, d) <- run ops' d; Ok (r :: rs, d)
  end.

(** Following the next pointers from M_llist_first, the prev pointers from
    M_llist_last *)
Fixpoint walk (fuel : nat) (step : nat -> res ptr) (p : ptr) : res (list nat) :=
  match p with
  | None => Ok []
  | Some x => match fuel with O => Fuel | S f => do q <- step x; do l <- walk f step q; Ok (x :: l) end
  end.
Definition forwards (d : ll) : res (list nat) := do p <- first d; walk (S (cnt d)) (node_next d) p.
Definition backwards (d : ll) : res (list nat) := walk (S (cnt d)) (node_prev d) (tl d).
End Model.

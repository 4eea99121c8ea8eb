(** Model of base/list/m_list.c.

    A value is a pointer, represented by a number (0 is NULL); the comparison
    callback is a function of the two values compared.  The duplicate callbacks
    are the defaults (pass through, lines 67-71); calls of value_free are
    recorded in [freed].  Sizes are unbounded: the wrap around of
    M_list_convert_idx_at on a stack (line 92 with idx equal to the number of
    elements) is -1, standing for SIZE_MAX.  [g] is the contents of memory got
    from malloc or realloc.  NULL lists are not modelled, nor are
    M_list_change_sorting (lines 424-460) and M_list_destroy. *)
From Verif Require Import Base.Lib Base.Mem Sort.Model List.Spec.

(** struct M_list, lines 33-48; [allocated] is the length of [base]. *)
Record lst := mkl { base : list N; start : nat; elems : nat; multi : bool; freed : list N }.
(** M_list_create: lines 370-404 *)
Definition create (g : N) : lst := mkl (repeat g 4) 0 0 false [].
Definition cell (d : lst) (i : nat) : res N := rd (base d) (start d + i).

Section Model.
Context (cmp : N -> N -> Z) (c : cfg) (g : N).

(** M_list_convert_idx_at: lines 82-93 *)
Definition conv_at (d : lst) (idx : nat) : Z :=
  if elems d =? 0 then 0%Z
  else
  let idx := if elems d <? idx then elems d - 1 else idx in
  if negb (stack c) then Z.of_nat idx
  else if elems d - 1 =? idx then 0%Z
  else (Z.of_nat (elems d) - Z.of_nat idx - 1)%Z.
(** M_list_convert_idx_insert: lines 95-105 *)
Definition conv_insert (d : lst) (idx : nat) : nat :=
  if elems d =? 0 then 0
  else
  let n := conv_at d idx in
  Z.to_nat (if negb (stack c) then n else (n + 1)%Z).

(** M_list_shift_data: lines 107-126 *)
Definition shift_data (d : lst) (force : bool) : res lst :=
  let st := if elems d =? 0 then 0 else start d in
  if negb (st =? 0) && (force || (st + elems d =? length (base d))) then
    do b <- mmove (base d) 0 st (elems d);
    Ok (mkl b 0 (elems d) (multi d) (freed d))
  else Ok (mkl (base d) st (elems d) (multi d) (freed d)).
(** M_list_grow: lines 129-141 *)
Definition grow (d : lst) : res lst :=
  do d <- shift_data d false;
  if elems d =? length (base d) then Ok (mkl (base d ++ repeat g (length (base d))) 0 (elems d) (multi d) (freed d))
  else Ok d.
(** M_list_shrink: lines 143-161; the division by 1.25 in floating point is
    exact enough below 2^50 *)
Definition shrink (d : lst) : res lst :=
  if never c then Ok d
  else
  let reduced := length (base d) / 2 in
  let max := reduced * 4 / 5 in
  if (4 <=? reduced) && (elems d <=? max) then
    do d <- shift_data d true;
    Ok (mkl (firstn reduced (base d)) 0 (elems d) (multi d) (freed d))
  else Ok d.

(** M_list_index_of: lines 541-617 *)
Fixpoint scan_up (fuel : nat) (d : lst) (v : N) (i : nat) : res (option nat) :=
  match fuel with
  | O => Fuel
  | S f =>
    if i <? elems d then
      do x <- cell d i;
      if negb (cmp v x =? 0)%Z then Ok None
      else if (v =? x)%N then Ok (Some i) else scan_up f d v (S i)
    else Ok None
  end.
Fixpoint scan_down (d : lst) (v : N) (i : nat) : res (option nat) :=
  match i with
  | O => Ok None
  | S i' =>
    do x <- cell d i';
    if negb (cmp v x =? 0)%Z then Ok None
    else if (v =? x)%N then Ok (Some i') else scan_down d v i'
  end.
Fixpoint scan_all (fuel : nat) (d : lst) (t : mtype) (v : N) (i : nat) : res (option nat) :=
  match fuel with
  | O => Fuel
  | S f =>
    if i <? elems d then
      do x <- cell d i;
      if matches cmp t v x then Ok (Some i) else scan_all f d t v (S i)
    else Ok None
  end.
Definition index_of (d : lst) (v : N) (t : mtype) : res (option nat) :=
  if (v =? 0)%N || (elems d =? 0) || (negb (mptr t) && negb (has_eq c)) then Ok None
  else
  if srt c && negb (multi d) then
    do a <- rdn (base d) (start d) (elems d);
    do '(ret, idx) <- bsearch cmp a v (stable c);
    if negb ret then Ok None
    else
    do r <- (if mptr t then
               do x <- cell d idx;
               if (v =? x)%N then Ok (Some idx)
               else
               do r <- scan_up (S (elems d)) d v (S idx);
               match r with Some i => Ok (Some i) | None => scan_down d v idx end
             else Ok (Some idx));
    Ok (option_map (fun i => Z.to_nat (conv_at d i)) r)
  else
  do r <- scan_all (S (elems d)) d t v 0;
  Ok (option_map (fun i => Z.to_nat (conv_at d i)) r).

(** M_list_insert_at_int: lines 164-203 *)
Definition insert_at_int (d : lst) (v : N) (idx : Z) (nosetcheck : bool) : res (bool * lst) :=
  do found <- (if negb nosetcheck && isset c then index_of d v (mkt false (setp c)) else Ok None);
  match found with
  | Some _ => Ok (false, d)
  | None =>
    do d <- grow d;
    let i := if (idx <? 0)%Z || (Z.of_nat (elems d) <? idx)%Z then elems d else Z.to_nat idx in
    do '(b, st) <-
      (if i <? elems d then
         if (i =? 0) && (0 <? start d) then Ok (base d, start d - 1)
         else do b <- mmove (base d) (start d + (i + 1)) (start d + i) (elems d - i); Ok (b, start d)
       else Ok (base d, start d));
    do b <- wr b (st + i) v;
    Ok (true, mkl b st (S (elems d)) (multi d) (freed d))
  end.
(** M_list_insert_idx: lines 472-490 *)
Definition list_insert_idx (d : lst) (v : N) : res nat :=
  do at_ <- (if srt c && negb (multi d) then
               do a <- rdn (base d) (start d) (elems d);
               insert_idx cmp a v (stable c)
             else Ok (elems d));
  Ok (conv_insert d at_).
(** M_list_insert: lines 464-470 *)
Definition insert (d : lst) (v : N) : res (bool * lst) :=
  do i <- list_insert_idx d v;
  insert_at_int d v (Z.of_nat (conv_insert d i)) false.
(** M_list_insert_at: lines 492-501 *)
Definition insert_at (d : lst) (v : N) (idx : nat) : res (bool * lst) :=
  if srt c && negb (multi d) then Ok (false, d)
  else insert_at_int d v (conv_at d idx) false.
(** M_list_insert_end: lines 511-524 *)
Definition insert_end (d : lst) : res lst :=
  if negb (multi d) then Ok d
  else
  do b <- (if srt c && negb (elems d =? 0) then
             do a <- rdn (base d) (start d) (elems d);
             do a <- (if stable c then mergesort cmp (S (length a)) a else qsort cmp (S (length a)) a 0 (length a));
             wrn (base d) (start d) a
           else Ok (base d));
  Ok (mkl b (start d) (elems d) false (freed d)).

(** M_list_at: lines 633-638; NULL is 0 *)
Definition at_ (d : lst) (idx : nat) : res N :=
  if elems d <=? idx then Ok 0%N else cell d (Z.to_nat (conv_at d idx)).
(** M_list_take_at: lines 654-679 *)
Definition take_at (d : lst) (idx : nat) : res (N * lst) :=
  if elems d <=? idx then Ok (0%N, d)
  else
  let i := Z.to_nat (conv_at d idx) in
  do v <- cell d i;
  do b <- wr (base d) (start d + i) 0%N;
  do '(b, st) <-
    (if i =? 0 then Ok (b, S (start d))
     else if negb (i =? elems d - 1) then
       do b <- mmove b (start d + i) (start d + (i + 1)) (elems d - i - 1); Ok (b, start d)
     else Ok (b, start d));
  do d <- shrink (mkl b st (elems d - 1) (multi d) (freed d));
  Ok (v, d).
(** M_list_remove_range: lines 708-748; a negative count is a huge one *)
Fixpoint free_range (d : lst) (i n : nat) : res (list N) :=
  match n with
  | O => Ok []
  | S n' => do x <- cell d i; do l <- free_range d (S i) n'; Ok (x :: l)
  end.
Definition remove_range (d : lst) (s e : nat) : res (bool * lst) :=
  if (e <? s) || (elems d <=? s) then Ok (false, d)
  else
  let s := conv_at d s in
  let e := conv_at d e in
  let e := if (e <? 0)%Z || (Z.of_nat (elems d) <=? e)%Z then (Z.of_nat (elems d) - 1)%Z else e in
  if (e + 1 <? s)%Z then UB
  else
  let to_end := (e =? Z.of_nat (elems d) - 1)%Z in
  let s := Z.to_nat s in
  let n := Z.to_nat (e + 1) - s in
  do fr <- free_range d s n;
  do b <- wrn (base d) (start d + s) (repeat 0%N n);
  let el := elems d - n in
  do '(b, st) <-
    (if 0 <? el then
       if s =? 0 then Ok (b, start d + n)
       else if negb to_end then do b <- mmove b (start d + s) (start d + (s + n)) (el - s); Ok (b, start d)
       else Ok (b, start d)
     else Ok (b, start d));
  do d <- shrink (mkl b st el (multi d) (rev fr ++ freed d));
  Ok (true, d).
(** M_list_remove_at: lines 695-701 *)
Definition remove_at (d : lst) (idx : nat) : res (bool * lst) :=
  if elems d <=? idx then Ok (false, d) else remove_range d idx idx.

(** M_list_match_op_val_int: lines 210-366 *)
Inductive mop := MCount | MRemove | MReplace (w : N).
Definition removing (op : mop) : bool := match op with MCount => false | _ => true end.
Fixpoint after_loop (fuel : nat) (d : lst) (v : N) (t : mtype) (op : mop) (i cnt e : nat) : res (lst * nat * nat) :=
  match fuel with
  | O => Fuel
  | S f =>
    if i <? elems d then
      do x <- cell d i;
      if negb (cmp v x =? 0)%Z then Ok (d, cnt, e)
      else if mptr t then
        if (v =? x)%N then
          if removing op then do '(_, d) <- remove_at d i; after_loop f d v t op i (S cnt) e
          else after_loop f d v t op (S i) (S cnt) e
        else after_loop f d v t op (S i) cnt e
      else after_loop f d v t op (S i) cnt i
    else Ok (d, cnt, e)
  end.
Fixpoint before_loop (d : lst) (v : N) (t : mtype) (op : mop) (i cnt s : nat) : res (lst * nat * nat) :=
  match i with
  | O => Ok (d, cnt, s)
  | S i' =>
    do x <- cell d i';
    if negb (cmp v x =? 0)%Z then Ok (d, cnt, s)
    else if mptr t then
      if (v =? x)%N then
        if removing op then do '(_, d) <- remove_at d i'; before_loop d v t op i' (S cnt) s
        else before_loop d v t op i' (S cnt) s
      else before_loop d v t op i' cnt s
    else before_loop d v t op i' cnt i'
  end.
Fixpoint refill (d : lst) (w : N) (n idx : nat) : res lst :=
  match n with
  | O => Ok d
  | S n' => do '(_, d) <- insert_at_int d w (Z.of_nat idx) true; refill d w n' (S idx)
  end.
Definition match_sorted (d : lst) (v : N) (t : mtype) (op : mop) : res (nat * lst) :=
  do r <- index_of d v t;
  match r with
  | None => Ok (0, d)
  | Some idx =>
    do '(d, cnt, s, e) <-
      (if mall t || negb (removing op) then
         do '(d, cnt, e) <- after_loop (S (elems d)) d v t op (S idx) 1 idx;
         do '(d, cnt, s) <- before_loop d v t op idx cnt idx;
         Ok (d, cnt, s, e)
       else Ok (d, 1, idx, idx));
    let cnt := if mptr t then cnt else cnt + (e - s) in
    do d <- (if removing op then do '(_, d) <- remove_range d s e; Ok d else Ok d);
    do d <- (match op with
             | MReplace w => do i <- list_insert_idx d w; refill d w cnt (conv_insert d i)
             | _ => Ok d
             end);
    Ok (cnt, d)
  end.
Fixpoint match_unsorted (d : lst) (v : N) (t : mtype) (op : mop) (i cnt : nat) : res (nat * lst) :=
  match i with
  | O => Ok (cnt, d)
  | S i' =>
    do x <- cell d i';
    do '(d, cnt) <-
      (if matches cmp t v x then
         do d <- (match op with
                  | MReplace w => do b <- wr (base d) (start d + i') w; Ok (mkl b (start d) (elems d) (multi d) (x :: freed d))
                  | MRemove => do '(_, d) <- remove_at d i'; Ok d
                  | MCount => Ok d
                  end);
         Ok (d, S cnt)
       else Ok (d, cnt));
    if (cnt =? 1) && negb (mall t) && removing op then Ok (cnt, d)
    else match_unsorted d v t op i' cnt
  end.
Definition match_op (d : lst) (v : N) (t : mtype) (op : mop) : res (nat * lst) :=
  if (v =? 0)%N || (elems d =? 0) || (negb (mptr t) && negb (has_eq c)) ||
     (match op with
      | MReplace w => (w =? 0)%N || (if mptr t then (v =? w)%N else (cmp v w =? 0)%Z)
      | _ => false
      end)
  then Ok (0, d)
  else
  do op <- (match op with
            | MReplace w =>
              if isset c then
                do r <- index_of d w (mkt false (setp c));
                Ok (match r with Some _ => MRemove | None => op end)
              else Ok op
            | _ => Ok op
            end);
  if srt c && negb (multi d) then match_sorted d v t op
  else match_unsorted d v t op (elems d) 0.

(** M_list_remove_duplicates: lines 750-796 *)
Fixpoint run_end (fuel : nat) (d : lst) (x : N) (j : nat) : res nat :=
  match fuel with
  | O => Fuel
  | S f =>
    if j <? elems d then do y <- cell d j; if (cmp x y =? 0)%Z then run_end f d x (S j) else Ok j
    else Ok j
  end.
Fixpoint dup_ptr (fuel : nat) (d : lst) (i j : nat) : res lst :=
  match fuel with
  | O => Fuel
  | S f =>
    if j <? elems d then
      do x <- cell d i;
      do y <- cell d j;
      if (cmp x y =? 0)%Z then
        if (x =? y)%N then do '(_, d) <- remove_at d (Z.to_nat (conv_at d j)); dup_ptr f d i j
        else dup_ptr f d i (S j)
      else Ok d
    else Ok d
  end.
Fixpoint dup_any (fuel : nat) (d : lst) (t : mtype) (i j : nat) : res lst :=
  match fuel with
  | O => Fuel
  | S f =>
    if j <? elems d then
      do x <- cell d i;
      do y <- cell d j;
      if matches cmp t x y then do '(_, d) <- remove_at d (Z.to_nat (conv_at d j)); dup_any f d t i j
      else dup_any f d t i (S j)
    else Ok d
  end.
Fixpoint dup_outer (fuel : nat) (d : lst) (t : mtype) (i : nat) : res lst :=
  match fuel with
  | O => Fuel
  | S f =>
    if i <? elems d then
      do d <-
        (if srt c && negb (multi d) then
           if mptr t then dup_ptr (S (elems d)) d i (S i)
           else
           do x <- cell d i;
           do j <- run_end (S (elems d)) d x (S i);
           do '(_, d) <- remove_range d (Z.to_nat (conv_at d (S i))) (Z.to_nat (conv_at d j)); Ok d
         else dup_any (S (elems d)) d t i (S i));
      dup_outer f d t (S i)
    else Ok d
  end.
Definition remove_duplicates (d : lst) (t : mtype) : res lst :=
  if negb (mptr t) && negb (has_eq c) then Ok d else dup_outer (S (elems d)) d t 0.

(** M_list_replace_at: lines 803-814 *)
Definition replace_at (d : lst) (v : N) (idx : nat) : res (bool * lst) :=
  if (elems d <=? idx) || (srt c && negb (multi d)) then Ok (false, d)
  else
  let i := Z.to_nat (conv_at d idx) in
  do x <- cell d i;
  do b <- wr (base d) (start d + i) v;
  Ok (true, mkl b (start d) (elems d) (multi d) (x :: freed d)).
(** M_list_swap: lines 816-828 *)
Definition lswap (d : lst) (i j : nat) : res (bool * lst) :=
  if (elems d =? 0) || srt c || (i =? j) || (elems d <? i) || (elems d <? j) then Ok (false, d)
  else
  do x <- cell d i;
  do y <- cell d j;
  do b <- wr (base d) (start d + i) y;
  do b <- wr b (start d + j) x;
  Ok (true, mkl b (start d) (elems d) (multi d) (freed d)).

(** The functions of the interface; first and last, take and remove of them:
    lines 619-631, 640-652, 681-693; count: 536-539; insert_begin: 503-509 *)
Definition step (d : lst) (o : lop) : res (ret * lst) :=
  match o with
  | Insert v => do '(b, d) <- insert d v; Ok (RB b, d)
  | InsertAt v i => do '(b, d) <- insert_at d v i; Ok (RB b, d)
  | Len => Ok (RN (elems d), d)
  | At i => do v <- at_ d i; Ok (RV v, d)
  | First => do v <- (if elems d =? 0 then Ok 0%N else at_ d 0); Ok (RV v, d)
  | Last => do v <- (if elems d =? 0 then Ok 0%N else at_ d (elems d - 1)); Ok (RV v, d)
  | TakeFirst => do '(v, d) <- (if elems d =? 0 then Ok (0%N, d) else take_at d 0); Ok (RV v, d)
  | TakeLast => do '(v, d) <- (if elems d =? 0 then Ok (0%N, d) else take_at d (elems d - 1)); Ok (RV v, d)
  | TakeAt i => do '(v, d) <- take_at d i; Ok (RV v, d)
  | RemoveFirst => do '(b, d) <- (if elems d =? 0 then Ok (false, d) else remove_at d 0); Ok (RB b, d)
  | RemoveLast => do '(b, d) <- (if elems d =? 0 then Ok (false, d) else remove_at d (elems d - 1)); Ok (RB b, d)
  | RemoveAt i => do '(b, d) <- remove_at d i; Ok (RB b, d)
  | RemoveRange i j => do '(b, d) <- remove_range d i j; Ok (RB b, d)
  | RemoveVal v t => do '(n, d) <- match_op d v t MRemove; Ok (RN n, d)
  | Count v t => do '(n, d) <- match_op d v t MCount; Ok (RN n, d)
  | IndexOf v t => do r <- index_of d v t; Ok (RI r, d)
  | ReplaceVal v w t => do '(n, d) <- match_op d v t (MReplace w); Ok (RN n, d)
  | ReplaceAt v i => do '(b, d) <- replace_at d v i; Ok (RB b, d)
  | Swap i j => do '(b, d) <- lswap d i j; Ok (RB b, d)
  | RemoveDups t => do d <- remove_duplicates d t; Ok (RB true, d)
  | InsertBegin => Ok (RB true, mkl (base d) (start d) (elems d) true (freed d))
  | InsertEnd => do d <- insert_end d; Ok (RB true, d)
  end.
Fixpoint run (ops : list lop) (d : lst) : res (list ret * lst) :=
  match ops with
  | [] => Ok ([], d)
  | o :: ops' => do '(r, d) <- step d o; do '(rs, d) <- run ops' d; Ok (r :: rs, d)
  end.
End Model.

(** Model of base/sort/m_sort_mergesort.c, m_sort_qsort.c, m_sort_binary.c.
    An array of [nmemb] elements of [esize] bytes is a list of [nmemb]
    elements; pointers are element indices; the comparison callback is a
    function [cmp : A -> A -> Z] of the two elements (thunk fixed, no side
    effects).  Every access is bounds checked ([rd]/[wr] give UB outside).
    The element-wise copying by bytes or machine words (M_mem_copy,
    sort_swap_bytype, m_sort_qsort.c 40-48) is one step here. *)
From Verif Require Import Base.Lib.

Section Sort.
Context {A : Type} (cmp : A -> A -> Z).

(** ** m_sort_mergesort.c *)

(** The merge loop, lines 63-73, and the two copy loops 76-87. *)
Fixpoint copy_rest (n : nat) (src : list A) (i : nat) (base : list A) (k : nat) : res (list A * nat) :=
  match n with
  | O => Ok (base, k)
  | S n' => do x <- rd src i; do b <- wr base k x; copy_rest n' src (S i) b (S k)
  end.

Fixpoint merge_loop (fuel : nat) (left right : list A) (base : list A) (i j k : nat) : res (list A) :=
  match fuel with
  | O => Fuel
  | S f =>
    if (i <? length left) && (j <? length right) then
      do x <- rd left i;
      do y <- rd right j;
      if (cmp x y <=? 0)%Z then
        do b <- wr base k x; merge_loop f left right b (S i) j (S k)
      else
        do b <- wr base k y; merge_loop f left right b i (S j) (S k)
    else
      do '(b, k) <- copy_rest (length left - i) left i base k;
      do '(b, k) <- copy_rest (length right - j) right j b k;
      Ok b
  end.

(** M_sort_mergesort, lines 28-91. [left] and [right] are the malloc'ed copies
    (lines 51-54); fuel bounds the recursion depth. *)
Fixpoint mergesort (fuel : nat) (base : list A) : res (list A) :=
  match fuel with
  | O => Fuel
  | S f =>
    let nmemb := length base in
    if nmemb <? 2 then Ok base else
    let mid := nmemb / 2 in
    let ls := if (2 <? nmemb) && negb (nmemb mod 2 =? 0) then S mid else mid in
    let rs := mid in
    do left <- mergesort f (firstn ls base);
    do right <- mergesort f (firstn rs (skipn ls base));
    merge_loop (S nmemb) left right base 0 0 0
  end.

(** ** m_sort_qsort.c *)

(** sort_swap, lines 50-74. *)
Definition swap (m : list A) (i j : nat) : res (list A) :=
  if i =? j then Ok m else
  do x <- rd m i; do y <- rd m j; do m <- wr m i y; wr m j x.

(** sort_swap_multiple, lines 77-81: elements i, i+1, ... with j, j+1, ... *)
Fixpoint swap_multiple (n : nat) (m : list A) (i j : nat) : res (list A) :=
  match n with
  | O => Ok m
  | S n' => do m <- swap m i j; swap_multiple n' m (S i) (S j)
  end.

(** The inner loop of M_sort_insertion, lines 109-111; [p] is ptr. *)
Fixpoint insertion_inner (fuel : nat) (m : list A) (base p : nat) : res (list A) :=
  match fuel with
  | O => Fuel
  | S f =>
    if base <? p then
      do x <- rd m (p - 1); do y <- rd m p;
      if (0 <? cmp x y)%Z then do m <- swap m p (p - 1); insertion_inner f m base (p - 1) else Ok m
    else Ok m
  end.

(** The outer loop, lines 108-112: [n] more values of i, starting at [i]. *)
Fixpoint insertion_outer (n : nat) (m : list A) (base i : nat) : res (list A) :=
  match n with
  | O => Ok m
  | S n' => do m <- insertion_inner (S i) m base (base + i); insertion_outer n' m base (S i)
  end.

(** M_sort_insertion, lines 100-113. *)
Definition insertion (m : list A) (base nmemb : nat) : res (list A) :=
  insertion_outer (nmemb - 1) m base 1.

(** qsort_median, lines 116-132. *)
Definition median (m : list A) (a b c : nat) : res nat :=
  do xa <- rd m a; do xb <- rd m b; do xc <- rd m c;
  Ok (if (cmp xa xb <? 0)%Z then
        if (cmp xb xc <? 0)%Z then b else if (cmp xa xc <? 0)%Z then c else a
      else if (0 <? cmp xb xc)%Z then b else if (cmp xa xc <? 0)%Z then a else c).

(** qsort_choose_pivot, lines 135-158. *)
Definition choose_pivot (m : list A) (base nmemb : nat) : res nat :=
  let middle := base + nmemb / 2 in
  if 7 <? nmemb then
    let left := base in
    let right := base + (nmemb - 1) in
    do '(left, middle, right) <-
      (if 40 <? nmemb then
         let srange := nmemb / 8 in
         do left <- median m left (left + srange) (left + 2 * srange);
         do middle <- median m (middle - srange) middle (middle + srange);
         do right <- median m (right - 2 * srange) (right - srange) right;
         Ok (left, middle, right)
       else Ok (left, middle, right));
    median m left middle right
  else Ok middle.

(** First inner loop of the partition, lines 201-207. *)
Fixpoint scan_left (fuel : nat) (m : list A) (base l1 l2 r1 : nat) : res (list A * nat * nat) :=
  match fuel with
  | O => Fuel
  | S f =>
    if l2 <=? r1 then
      do x <- rd m l2; do p <- rd m base;
      let rv := cmp x p in
      if (rv <=? 0)%Z then
        if (rv =? 0)%Z then do m <- swap m l1 l2; scan_left f m base (S l1) (S l2) r1
        else scan_left f m base l1 (S l2) r1
      else Ok (m, l1, l2)
    else Ok (m, l1, l2)
  end.

(** Second inner loop, lines 208-214. *)
Fixpoint scan_right (fuel : nat) (m : list A) (base l2 r1 r2 : nat) : res (list A * nat * nat) :=
  match fuel with
  | O => Fuel
  | S f =>
    if l2 <=? r1 then
      do x <- rd m r1; do p <- rd m base;
      let rv := cmp x p in
      if (0 <=? rv)%Z then
        if (rv =? 0)%Z then do m <- swap m r1 r2; scan_right f m base l2 (r1 - 1) (r2 - 1)
        else scan_right f m base l2 (r1 - 1) r2
      else Ok (m, r1, r2)
    else Ok (m, r1, r2)
  end.

(** The partition loop, lines 200-220. *)
Fixpoint partition (fuel : nat) (m : list A) (base l1 l2 r1 r2 : nat)
  : res (list A * nat * nat * nat * nat) :=
  match fuel with
  | O => Fuel
  | S f =>
    do '(m, l1, l2) <- scan_left (S (length m)) m base l1 l2 r1;
    do '(m, r1, r2) <- scan_right (S (length m)) m base l2 r1 r2;
    if r1 <? l2 then Ok (m, l1, l2, r1, r2)
    else do m <- swap m l2 r1; partition f m base l1 (S l2) (r1 - 1) r2
  end.

(** M_sort_qsort, lines 161-260, on the elements base .. base+nmemb-1 of [m].
    Both the recursive call (line 247) and the next turn of the do-while
    (lines 249-259) are calls with less fuel here. *)
Fixpoint qsort (fuel : nat) (m : list A) (base nmemb : nat) : res (list A) :=
  match fuel with
  | O => Fuel
  | S f =>
    if nmemb <? 7 then insertion m base nmemb else
    do pivot <- choose_pivot m base nmemb;
    do m <- swap m base pivot;
    do '(m, l1, l2, r1, r2) <-
      partition (S (length m)) m base (base + 1) (base + 1) (base + (nmemb - 1)) (base + (nmemb - 1));
    let s := Nat.min (l1 - base) (l2 - l1) in
    do m <- swap_multiple s m base (l2 - s);
    let endp := base + nmemb in
    let s := Nat.min (r2 - r1) (endp - (r2 + 1)) in
    do m <- swap_multiple s m l2 (endp - s);
    do m <- (if 1 <? l2 - l1 then qsort f m base (l2 - l1) else Ok m);
    if 1 <? r2 - r1 then qsort f m (endp - (r2 - r1)) (r2 - r1) else Ok m
  end.

(** ** m_sort_binary.c *)

(** The halving loop, lines 99-109; left and right are ssize_t (no overflow:
    below 2^63), mid and eq carry over. *)
Fixpoint halve (fuel : nat) (a : list A) (key : A) (left right : Z) (mid : nat) (eq : Z)
  : res (Z * Z * nat * Z) :=
  match fuel with
  | O => Fuel
  | S f =>
    if (left <=? right)%Z then
      let mid := Z.to_nat ((left + right) / 2) in
      do x <- rd a mid;
      let eq := cmp key x in
      if (eq =? 0)%Z then Ok (left, right, mid, eq)
      else if (eq <? 0)%Z then halve f a key left (Z.of_nat mid - 1) mid eq
      else halve f a key (Z.of_nat mid + 1) right mid eq
    else Ok (left, right, mid, eq)
  end.

(** Backward scan for the first match, lines 137-141. *)
Fixpoint scan_back (fuel : nat) (a : list A) (key : A) (left : Z) (mid : nat) : res nat :=
  match fuel with
  | O => Fuel
  | S f =>
    if (0 <? mid) && (left <=? Z.of_nat mid)%Z then
      do x <- rd a (mid - 1);
      if negb (cmp key x =? 0)%Z then Ok mid else scan_back f a key left (mid - 1)
    else Ok mid
  end.

(** Forward scan past the matches, lines 150-153; [(size_t)right] of a
    negative [right] is huge. *)
Fixpoint scan_fwd (fuel : nat) (a : list A) (key : A) (right : Z) (mid : nat) (eq : Z) : res nat :=
  match fuel with
  | O => Fuel
  | S f =>
    if ((right <? 0)%Z || (Z.of_nat mid <? right)%Z) && (eq =? 0)%Z then
      do x <- rd a (S mid);
      scan_fwd f a key right (S mid) (cmp key x)
    else Ok mid
  end.

(** M_sort_binary_idx, lines 28-158 (non-NULL arguments). *)
Definition binary_idx (a : list A) (key : A) (mtch stable : bool) : res (bool * nat) :=
  let nmemb := length a in
  if nmemb =? 0 then (if mtch then Ok (false, 0) else Ok (true, nmemb)) else
  let left := 0%Z in
  let right := (Z.of_nat nmemb - 1)%Z in
  let rest (eq0 : Z) : res (bool * nat) :=
    do '(left, right, mid, eq) <- halve (S nmemb) a key left right 0 eq0;
    if negb stable then
      if mtch && negb (eq =? 0)%Z then Ok (false, 0)
      else Ok (true, if (0 <? eq)%Z then S mid else mid)
    else if mtch then
      if negb (eq =? 0)%Z then Ok (false, 0)
      else do mid <- scan_back (S mid) a key left mid; Ok (true, mid)
    else
      let mid := if (0 <? eq)%Z then S mid else mid in
      do mid <- scan_fwd (S nmemb) a key right mid eq; Ok (true, mid) in
  if negb stable then
    do last <- rd a (nmemb - 1);
    let eq := cmp key last in
    if (eq =? 0)%Z then (if mtch then Ok (true, nmemb - 1) else Ok (true, nmemb))
    else if (0 <? eq)%Z then (if mtch then Ok (false, 0) else Ok (true, nmemb))
    else
      do first <- rd a 0;
      let eq := cmp key first in
      if (eq <=? 0)%Z then (if negb (eq =? 0)%Z && mtch then Ok (false, 0) else Ok (true, 0))
      else rest eq
  else rest 1%Z.

(** M_sort_binary_insert_idx, lines 161-171. *)
Definition insert_idx (a : list A) (key : A) (stable : bool) : res nat :=
  do '(ret, idx) <- binary_idx a key false stable;
  Ok (if ret : bool then idx else length a).

(** M_sort_binary_search, lines 173-181. *)
Definition bsearch (a : list A) (key : A) (stable : bool) : res (bool * nat) :=
  binary_idx a key true stable.

End Sort.

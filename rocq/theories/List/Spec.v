(** Lists of values: what an M_list holds, in the order of its indices. *)
From Verif Require Import Base.Lib Sort.Spec.

(** Flags of M_list_create; a value is a pointer, 0 is NULL. *)
Record cfg := mkc { stack : bool; srt : bool; stable : bool; setv : bool; setp : bool; never : bool; has_eq : bool }.
(** M_list_create succeeds *)
Definition wf_cfg (c : cfg) : Prop :=
  (srt c = true -> has_eq c = true /\ stack c = false) /\ (setv c = true -> has_eq c = true).
Definition isset (c : cfg) : bool := setv c || setp c.
Record mtype := mkt { mall : bool; mptr : bool }.
Inductive lop :=
| Insert (v : N) | InsertAt (v : N) (i : nat) | Len | At (i : nat) | First | Last
| TakeFirst | TakeLast | TakeAt (i : nat) | RemoveFirst | RemoveLast | RemoveAt (i : nat) | RemoveRange (i j : nat)
| RemoveVal (v : N) (t : mtype) | Count (v : N) (t : mtype) | IndexOf (v : N) (t : mtype)
| ReplaceVal (v w : N) (t : mtype) | ReplaceAt (v : N) (i : nat) | Swap (i j : nat) | RemoveDups (t : mtype)
| InsertBegin | InsertEnd.
Inductive ret := RB (b : bool) | RN (n : nat) | RV (v : N) | RI (i : option nat).

Section Spec.
Context (cmp : N -> N -> Z) (c : cfg).

Definition matches (t : mtype) (v x : N) : bool := if mptr t then (v =? x)%N else (cmp v x =? 0)%Z.
Definition usable (t : mtype) (v : N) : bool := negb (v =? 0)%N && (mptr t || has_eq c).
Definition hits (t : mtype) (v : N) (l : list N) : list N := if usable t v then filter (matches t v) l else [].
Definition in_set (v : N) (l : list N) : bool :=
  isset c && negb (length (hits (mkt false (setp c)) v l) =? 0).

Definition del (i : nat) (l : list N) : list N := firstn i l ++ skipn (S i) l.
(** Position of the first match *)
Fixpoint find (p : N -> bool) (l : list N) : option nat :=
  match l with [] => None | x :: l' => if p x then Some 0 else option_map S (find p l') end.
Definition find_last (p : N -> bool) (l : list N) : option nat :=
  match find p (rev l) with None => None | Some i => Some (length l - 1 - i) end.
(** Keep the first of each group of values related by [p]. *)
Fixpoint dedup (fuel : nat) (p : N -> N -> bool) (l : list N) : list N :=
  match fuel, l with
  | S f, x :: l' => x :: dedup f p (filter (fun y => negb (p x y)) l')
  | _, _ => []
  end.
(** Replace the match an unsorted list deals with first: the newest. *)
Definition newest (p : N -> bool) (l : list N) : option nat := if stack c then find p l else find_last p l.
Definition pick (t : mtype) (v : N) (l : list N) : list nat :=
  if usable t v then
    if mall t then filter (fun i => matches t v (nth i l 0%N)) (seq 0 (length l))
    else match newest (matches t v) l with None => [] | Some i => [i] end
  else [].
Definition clear (is : list nat) (l : list N) : list N :=
  map snd (filter (fun p => negb (existsb (Nat.eqb (fst p)) is)) (combine (seq 0 (length l)) l)).
Definition put (is : list nat) (w : N) (l : list N) : list N :=
  map (fun p => if existsb (Nat.eqb (fst p)) is then w else snd p) (combine (seq 0 (length l)) l).
Definition replaceable (t : mtype) (v w : N) : bool :=
  usable t v && negb (w =? 0)%N && negb (if mptr t then (v =? w)%N else (cmp v w =? 0)%Z).

(** Unsorted list (also a sorted one between insert_begin and insert_end). *)
Definition ustep (l : list N) (o : lop) : ret * list N :=
  match o with
  | Insert v => if in_set v l then (RB false, l) else (RB true, if stack c then v :: l else l ++ [v])
  | InsertAt v i => if in_set v l then (RB false, l) else (RB true, firstn i l ++ v :: skipn i l)
  | Len => (RN (length l), l)
  | At i => (RV (nth i l 0%N), l)
  | First => (RV (nth 0 l 0%N), l)
  | Last => (RV (last l 0%N), l)
  | TakeFirst => (RV (nth 0 l 0%N), del 0 l)
  | TakeLast => (RV (last l 0%N), removelast l)
  | TakeAt i => (RV (nth i l 0%N), del i l)
  | RemoveFirst => (RB (negb (length l =? 0)), del 0 l)
  | RemoveLast => (RB (negb (length l =? 0)), removelast l)
  | RemoveAt i => (RB (i <? length l), del i l)
  | RemoveRange i j => if (i <=? j) && (i <? length l) then (RB true, firstn i l ++ skipn (S j) l) else (RB false, l)
  | RemoveVal v t => (RN (length (pick t v l)), clear (pick t v l) l)
  | Count v t => (RN (length (hits t v l)), l)
  | IndexOf v t => (RI (if usable t v then (if stack c then find_last else find) (matches t v) l else None), l)
  | ReplaceVal v w t =>
    if replaceable t v w then
      (RN (length (pick t v l)), if in_set w l then clear (pick t v l) l else put (pick t v l) w l)
    else (RN 0, l)
  | ReplaceAt v i => if i <? length l then (RB true, upd l i v) else (RB false, l)
  | Swap i j =>
    if srt c || (i =? j) || (length l =? 0) then (RB false, l) else (RB true, upd (upd l i (nth j l 0%N)) j (nth i l 0%N))
  | RemoveDups t =>
    (RB true, if mptr t || has_eq c then
                let p := fun x y => matches t x y in
                if stack c then rev (dedup (length l) p (rev l)) else dedup (length l) p l
              else l)
  | InsertBegin | InsertEnd => (RB true, l)
  end.
(** Uses of an unsorted list that work as intended; the others are refuted in
    Props. *)
Definition uallowed (l : list N) (o : lop) : Prop :=
  match o with
  | InsertAt _ i => (stack c = false \/ l = []) /\ i <= length l
  | RemoveRange i j => stack c = false \/ i = j \/ length l <= i \/ j < i
  | RemoveVal v t => stack c = false
  | ReplaceVal v w t => stack c = false \/ in_set w l = false
  | Swap i j => srt c = true \/ i = j \/ l = [] \/ stack c = false /\ i < length l /\ j < length l
  | _ => True
  end.

(** What a sorted list may do; sortedness itself is required separately. *)
Definition removes1 (t : mtype) (v : N) (l l' : list N) : Prop :=
  exists a x b, l = a ++ x :: b /\ matches t v x = true /\ l' = a ++ b.
Definition removed (t : mtype) (v : N) (l l' : list N) (n : nat) : Prop :=
  if length (hits t v l) =? 0 then l' = l /\ n = 0
  else if mall t then l' = filter (fun x => negb (matches t v x)) l /\ n = length (hits t v l)
  else removes1 t v l l' /\ n = 1.
Definition srel (l : list N) (o : lop) (r : ret) (l' : list N) : Prop :=
  match o with
  | Insert v => if in_set v l then r = RB false /\ l' = l else r = RB true /\ exists i, l' = insert_at i v l
  | InsertAt _ _ | ReplaceAt _ _ => r = RB false /\ l' = l
  | IndexOf v t =>
    l' = l /\ match r with
              | RI (Some i) => usable t v = true /\ exists x, nth_error l i = Some x /\ matches t v x = true
              | RI None => hits t v l = []
              | _ => False
              end
  | RemoveVal v t => exists n, r = RN n /\ removed t v l l' n
  | ReplaceVal v w t =>
    if replaceable t v w then
      exists n l1, r = RN n /\ removed t v l l1 n /\ (if in_set w l then l' = l1 else Permutation l' (repeat w n ++ l1))
    else r = RN 0 /\ l' = l
  | RemoveDups t => r = RB true /\ l' = dedup (length l) (fun x y => matches t x y) l
  | _ => (r, l') = ustep l o
  end.
Definition sallowed (l : list N) (o : lop) : Prop :=
  match o with
  | RemoveVal v t | ReplaceVal v _ t => mall t = true -> mptr t = true -> length (hits t v l) <= 1
  | RemoveDups t => mptr t = true
  | _ => True
  end.

(** The list and whether a multi insert is going on.  [f]: the values freed. *)
Definition is_sorting (m : bool) : bool := srt c && negb m.
(** Values handed over to the list and handed back by it *)
Definition given (l : list N) (o : lop) (r : ret) : list N :=
  match o, r with
  | Insert v, RB true | InsertAt v _, RB true | ReplaceAt v _, RB true => [v]
  | ReplaceVal _ w _, RN n => if in_set w l then [] else repeat w n
  | _, _ => []
  end.
Definition taken (l : list N) (o : lop) (r : ret) : list N :=
  match o, r with
  | TakeFirst, RV v | TakeLast, RV v => if length l =? 0 then [] else [v]
  | TakeAt i, RV v => if i <? length l then [v] else []
  | _, _ => []
  end.
Definition lrel (l : list N) (m : bool) (o : lop) (r : ret) (l' : list N) (m' : bool) (f : list N) : Prop :=
  m' = match o with InsertBegin => true | InsertEnd => false | _ => m end /\
  match o with
  | InsertEnd => r = RB true /\ if srt c && m then Permutation l' l /\ (stable c = true -> forall x, equals_of cmp x l' = equals_of cmp x l) else l' = l
  | _ => if is_sorting m then srel l o r l' else (r, l') = ustep l o
  end /\
  (is_sorting m' = true -> sorted cmp l') /\
  Permutation (given l o r ++ l) (l' ++ f ++ taken l o r).
Definition lallowed (l : list N) (m : bool) (o : lop) : Prop :=
  match o with InsertEnd => True | _ => if is_sorting m then sallowed l o else uallowed l o end.

(** Runs *)
Inductive chain : list N -> bool -> list lop -> list ret -> list N -> bool -> list N -> Prop :=
| ch_nil l m : chain l m [] [] l m []
| ch_cons l m o ops r rs l1 m1 f l2 m2 f2 : lrel l m o r l1 m1 f -> chain l1 m1 ops rs l2 m2 f2 ->
    chain l m (o :: ops) (r :: rs) l2 m2 (f2 ++ f).
Fixpoint safe (l : list N) (m : bool) (ops : list lop) : Prop :=
  match ops with
  | [] => True
  | o :: ops' => lallowed l m o /\ forall r l' m' f, lrel l m o r l' m' f -> safe l' m' ops'
  end.
End Spec.

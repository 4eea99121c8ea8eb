(** Sequences of nodes: what an M_llist holds.  A node is known to the caller by
    its pointer, here a number; a value is a pointer, 0 is NULL. *)
From Verif Require Import Base.Lib Sort.Spec.
From Verif Require List.Spec.
Export (hints) List.Spec.

Notation mtype := List.Spec.mtype.
Notation mall := List.Spec.mall.
Notation mptr := List.Spec.mptr.
Notation mkt := List.Spec.mkt.

(** Flags of M_llist_create and whether an equality callback was given *)
Record cfg := mkc { srt : bool; circ : bool; has_eq : bool }.
Inductive nop :=
| Insert (v : N) | InsertFirst (v : N) | InsertBefore (n : nat) (v : N) | InsertAfter (n : nat) (v : N)
| SetFirst (n : nat) | SetLast (n : nat) | MoveBefore (m b : nat) | MoveAfter (m a : nat)
| Len | Count (v : N) (t : mtype) | First | Last | Find (v : N) (t : mtype)
| TakeNode (n : nat) | RemoveNode (n : nat) | RemoveVal (v : N) (t : mtype) | RemoveDups (t : mtype)
| Next (n : nat) | Prev (n : nat) | Val (n : nat).
Inductive ret := RP (p : option nat) | RB (b : bool) | RN (n : nat) | RV (v : N) | RU.

Notation entry := (nat * N)%type.
Definition ids (l : list entry) : list nat := map fst l.
Definition vals (l : list entry) : list N := map snd l.

Section Spec.
Context (cmp : N -> N -> Z) (c : cfg).

Definition matches (t : mtype) (v x : N) : bool := if mptr t then (v =? x)%N else (cmp v x =? 0)%Z.
Definition usable (t : mtype) (v : N) : bool := negb (v =? 0)%N && (mptr t || has_eq c).
Definition is_node (n : nat) (e : entry) : bool := fst e =? n.
Definition drop (n : nat) (l : list entry) : list entry := filter (fun e => negb (is_node n e)) l.
Definition put_before (n : nat) (e : entry) (l : list entry) : list entry :=
  flat_map (fun x => if is_node n x then [e; x] else [x]) l.
Definition put_after (n : nat) (e : entry) (l : list entry) : list entry :=
  flat_map (fun x => if is_node n x then [x; e] else [x]) l.
Definition val_of (n : nat) (l : list entry) : N :=
  match filter (is_node n) l with e :: _ => snd e | [] => 0%N end.
(** The node following n *)
Fixpoint succ (n : nat) (l : list entry) : option nat :=
  match l with
  | [] => None
  | x :: l' => if is_node n x then hd_error (ids l') else succ n l'
  end.
Definition first_hit (t : mtype) (v : N) (l : list entry) : option nat :=
  if usable t v then hd_error (ids (filter (fun e => matches t v (snd e)) l)) else None.
Definition count (t : mtype) (v : N) (l : list entry) : nat :=
  if usable t v then length (filter (fun e => matches t v (snd e)) l) else 0.
Definition remove_val (t : mtype) (v : N) (l : list entry) : list entry :=
  if usable t v then
    if mall t then filter (fun e => negb (matches t v (snd e))) l
    else match first_hit t v l with Some n => drop n l | None => l end
  else l.
(** Keep the first of each group. *)
Fixpoint dedup (fuel : nat) (t : mtype) (l : list entry) : list entry :=
  match fuel, l with
  | S f, x :: l' => x :: dedup f t (filter (fun y => negb (matches t (snd x) (snd y))) l')
  | _, _ => []
  end.

(** Effect of a call; a node created by it gets the number k. *)
Definition ustep (k : nat) (l : list entry) (o : nop) : ret * list entry :=
  match o with
  | Insert v => if (v =? 0)%N then (RP None, l) else (RP (Some k), l ++ [(k, v)])
  | InsertFirst v => if (v =? 0)%N || srt c then (RP None, l) else (RP (Some k), (k, v) :: l)
  | InsertBefore n v => if (v =? 0)%N || srt c then (RP None, l) else (RP (Some k), put_before n (k, v) l)
  | InsertAfter n v => if (v =? 0)%N || srt c then (RP None, l) else (RP (Some k), put_after n (k, v) l)
  | SetFirst n => (RU, if srt c then l else (n, val_of n l) :: drop n l)
  | SetLast n => (RU, if srt c then l else drop n l ++ [(n, val_of n l)])
  | MoveBefore m b => if (m =? b) || srt c then (RB false, l) else (RB true, put_before b (m, val_of m l) (drop m l))
  | MoveAfter m a => if (m =? a) || srt c then (RB false, l) else (RB true, put_after a (m, val_of m l) (drop m l))
  | Len => (RN (length l), l)
  | Count v t => (RN (count t v l), l)
  | First => (RP (hd_error (ids l)), l)
  | Last => (RP (hd_error (rev (ids l))), l)
  | Find v t => (RP (first_hit t v l), l)
  | TakeNode n => (RV (val_of n l), drop n l)
  | RemoveNode n => (RB true, drop n l)
  | RemoveVal v t => (RN (length l - length (remove_val t v l)), remove_val t v l)
  | RemoveDups t => (RU, if mptr t || has_eq c then dedup (length l) t l else l)
  | Next n => (RP (succ n l), l)
  | Prev n => (RP (succ n (rev l)), l)
  | Val n => (RV (val_of n l), l)
  end.
(** The values freed by a call *)
Definition freed_by (l l' : list entry) (o : nop) : list N :=
  match o with
  | TakeNode _ => []
  | _ => vals (filter (fun e => negb (existsb (Nat.eqb (fst e)) (ids l'))) l)
  end.
(** A sorted list differs only in where an insertion puts the value. *)
Definition rel (k : nat) (l : list entry) (o : nop) (r : ret) (l' : list entry) (f : list N) : Prop :=
  Permutation f (freed_by l l' o) /\
  (srt c = true -> sorted cmp (vals l')) /\
  match o with
  | Insert v =>
    if srt c then
      if (v =? 0)%N then r = RP None /\ l' = l
      else r = RP (Some k) /\ exists i, l' = insert_at i (k, v) l
    else (r, l') = ustep k l o
  | _ => (r, l') = ustep k l o
  end.
Definition fresh_after (k : nat) (r : ret) (o : nop) : nat :=
  match o, r with
  | Insert _, RP (Some _) | InsertFirst _, RP (Some _) | InsertBefore _ _, RP (Some _) | InsertAfter _ _, RP (Some _) => S k
  | _, _ => k
  end.
(** The nodes a call is given belong to the list. *)
Definition allowed (l : list entry) (o : nop) : Prop :=
  match o with
  | InsertBefore n _ | InsertAfter n _ | SetFirst n | SetLast n | TakeNode n | RemoveNode n
  | Next n | Prev n | Val n => In n (ids l)
  | MoveBefore m n | MoveAfter m n => In m (ids l) /\ In n (ids l)
  | _ => True
  end.
Inductive chain : nat -> list entry -> list nop -> list ret -> nat -> list entry -> list N -> Prop :=
| ch_nil k l : chain k l [] [] k l []
| ch_cons k l o ops r rs l1 f k2 l2 f2 : rel k l o r l1 f -> chain (fresh_after k r o) l1 ops rs k2 l2 f2 ->
    chain k l (o :: ops) (r :: rs) k2 l2 (f2 ++ f).
Fixpoint safe (k : nat) (l : list entry) (ops : list nop) : Prop :=
  match ops with
  | [] => True
  | o :: ops' => allowed l o /\ forall r l' f, rel k l o r l' f -> safe (fresh_after k r o) l' ops'
  end.
(** M_llist_create succeeds, and a sorted list has a comparison function. *)
Definition wf_cfg : Prop := (srt c = true -> has_eq c = true) /\ (srt c = true -> circ c = false).
(** What the callback must satisfy *)
Definition good_cmp : Prop :=
  if srt c then total_preorder cmp else forall x y, (cmp x y = 0 -> cmp y x = 0)%Z.
End Spec.

(** Finite maps from keys to non-empty lists of values: what an M_hashtable
    holds.  Keys and values are pointers, 0 is NULL. *)
From Verif Require Import Base.Lib Sort.Spec.

(** Flags of M_hashtable_create and the fill percentage *)
Record hcfg := mkh { multi : bool; msort : bool; getlast : bool; ordered : bool; ksort : bool; fill : N }.
(** M_hashtable_create succeeds *)
Definition wf_cfg (c : hcfg) : Prop :=
  (fill c < 100)%N /\ (multi c = false -> msort c = false /\ getlast c = false) /\ (ksort c = true -> ordered c = true).
(** Keys and their values, in the order of the first insertion of the key *)
Notation table := (list (N * list N)).
Inductive hop :=
| Insert (k v : N) | Get (k : N) | Remove (k : N) (dv : bool)
| MultiLen (k : N) | MultiGet (k : N) (i : nat) | MultiRemove (k : N) (i : nat) (dv : bool) | NumKeys | Enum.
Inductive ret := RB (b : bool) | RV (v : option N) | RL (n : option nat) | RN (n : nat) | RE (n : nat) (l : list (N * N)).

Section Spec.
Context (kcmp vcmp : N -> N -> Z) (hash : N -> N) (c : hcfg).
(** The duplicate of a key or value made by the n-th insertion *)
Context (dupk dupv : nat -> N -> N).

(** What the callbacks must satisfy: key equality is an equivalence, the hash
    respects it, a copy of a key is equal to it; sorting needs an ordering. *)
Definition good_cb : Prop :=
  (forall x, kcmp x x = 0)%Z /\ (forall x y, kcmp x y = 0 -> kcmp y x = 0)%Z /\
  (forall x y z, kcmp x y = 0 -> kcmp y z = 0 -> kcmp x z = 0)%Z /\
  (forall x y, kcmp x y = 0%Z -> hash x = hash y) /\
  (forall n k, k <> 0%N -> dupk n k <> 0%N /\ kcmp (dupk n k) k = 0%Z) /\
  (ksort c = true -> total_preorder kcmp) /\ (msort c = true -> total_preorder vcmp).

Definition same (k : N) (e : N * list N) : bool := (kcmp (fst e) k =? 0)%Z.
Definition look (k : N) (t : table) : option (N * list N) := if (k =? 0)%N then None else hd_error (filter (same k) t).
Definition put (k : N) (vs : list N) (t : table) : table := map (fun e => if same k e then (fst e, vs) else e) t.
Definition del (k : N) (t : table) : table := filter (fun e => negb (same k e)) t.
Definition drop_nth (i : nat) (l : list N) : list N := firstn i l ++ skipn (S i) l.
Definition total (t : table) : nat := length (concat (map snd t)).
Definition flat (t : table) : list (N * N) := flat_map (fun e => map (pair (fst e)) (snd e)) t.

(** A value added to those of a key *)
Definition added (v : N) (vs vs' : list N) : Prop :=
  if msort c then (exists i, vs' = insert_at i v vs) /\ sorted vcmp vs' else vs' = vs ++ [v].
(** Listing of the table: all of it, a key's values in order and together *)
Definition listing (t : table) (l : list (N * N)) : Prop :=
  exists t', Permutation t' t /\ l = flat t' /\ (ordered c = true -> if ksort c then sorted kcmp (map fst t') else t' = t).

(** Effect of a call on table [t] after [n] insertions; [kf], [vf]: keys and
    values freed; [d]: values removed without being subtracted from the count
    of values (see Props). [ex] is the sum of the [d] of the calls before. *)
Definition rel (n ex : nat) (t : table) (o : hop) (r : ret) (t' : table) (kf vf : list N) (d : nat) : Prop :=
  match o with
  | Insert k v =>
    kf = [] /\ d = 0 /\
    if (k =? 0)%N then r = RB false /\ t' = t /\ vf = []
    else r = RB true /\
      match look k t with
      | None => t' = t ++ [(dupk n k, [dupv n v])] /\ vf = []
      | Some (_, vs) =>
        if multi c then vf = [] /\ exists vs', added (dupv n v) vs vs' /\ t' = put k vs' t
        else t' = put k [dupv n v] t /\ vf = if (hd 0 vs =? dupv n v)%N then [] else vs
      end
  | Get k =>
    t' = t /\ kf = [] /\ vf = [] /\ d = 0 /\
    r = RV (match look k t with
            | None => None
            | Some (_, vs) => if getlast c then hd_error (rev vs) else hd_error vs
            end)
  | Remove k dv =>
    d = 0 /\
    match look k t with
    | None => r = RB false /\ t' = t /\ kf = [] /\ vf = []
    | Some (k', vs) => r = RB true /\ t' = del k t /\ kf = [k'] /\ vf = if dv then vs else []
    end
  | MultiLen k =>
    t' = t /\ kf = [] /\ vf = [] /\ d = 0 /\
    r = RL (if multi c then match look k t with None => None | Some (_, vs) => Some (length vs) end else None)
  | MultiGet k i =>
    t' = t /\ kf = [] /\ vf = [] /\ d = 0 /\
    r = RV (if multi c then match look k t with None => None | Some (_, vs) => nth_error vs i end else None)
  | MultiRemove k i dv =>
    match (if multi c then look k t else None) with
    | None => r = RB false /\ t' = t /\ kf = [] /\ vf = [] /\ d = 0
    | Some (k', vs) =>
      if length vs <=? i then r = RB false /\ t' = t /\ kf = [] /\ vf = [] /\ d = 0
      else r = RB true /\ (vf = if dv then [nth i vs 0%N] else []) /\
        if length vs =? 1 then t' = del k t /\ kf = [k'] /\ d = 0
        else t' = put k (drop_nth i vs) t /\ kf = [] /\ d = 1
    end
  | NumKeys => t' = t /\ kf = [] /\ vf = [] /\ d = 0 /\ r = RN (length t)
  | Enum => t' = t /\ kf = [] /\ vf = [] /\ d = 0 /\ exists l, r = RE (total t + ex) l /\ listing t l
  end.
Definition inserts (o : hop) : nat := match o with Insert k _ => if (k =? 0)%N then 0 else 1 | _ => 0 end.
Inductive chain : nat -> nat -> table -> list hop -> list ret -> nat -> nat -> table -> list N -> list N -> Prop :=
| ch_nil n ex t : chain n ex t [] [] n ex t [] []
| ch_cons n ex t o ops r rs t1 kf vf d n2 ex2 t2 kf2 vf2 :
    rel n ex t o r t1 kf vf d -> chain (inserts o + n) (d + ex) t1 ops rs n2 ex2 t2 kf2 vf2 ->
    chain n ex t (o :: ops) (r :: rs) n2 ex2 t2 (kf2 ++ kf) (vf2 ++ vf).

(** What the history of the calls says about key [k], for unsorted values:
    [vs], its values before; [n], the insertions before *)
Fixpoint hist (n : nat) (vs : list N) (k : N) (ops : list hop) : list N :=
  match ops with
  | [] => vs
  | o :: ops' =>
    let hit k' := negb (k' =? 0)%N && (kcmp k' k =? 0)%Z in
    hist (inserts o + n)
      (match o with
       | Insert k' v => if hit k' then if multi c then vs ++ [dupv n v] else [dupv n v] else vs
       | Remove k' _ => if hit k' then [] else vs
       | MultiRemove k' i _ => if hit k' && multi c && (i <? length vs) then drop_nth i vs else vs
       | _ => vs
       end) k ops'
  end.

(** Table [t'] is a copy of [t], made with the copy callbacks: the same keys
    with the same values, in the order of the listing of [t]. *)
Definition copied (v v' : N) : Prop := exists n, v' = dupv n v.
Definition dup_entry (e e' : N * list N) : Prop :=
  kcmp (fst e') (fst e) = 0%Z /\ (exists n, fst e' = dupk n (fst e)) /\
  exists w, Forall2 copied (snd e) w /\ if msort c then Permutation (snd e') w /\ sorted vcmp (snd e') else snd e' = w.
Definition dup_table_of (t t' : table) : Prop :=
  exists t1, Permutation t1 t /\ (ordered c = true -> ksort c = false -> t1 = t) /\ Forall2 dup_entry t1 t'.
End Spec.

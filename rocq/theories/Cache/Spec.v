(** Least recently used caches: a list of keys and values, the most recently
    used first, of bounded length.  Keys and values are pointers, here numbers;
    0 is NULL. *)
From Verif Require Import Base.Lib.

Inductive cop := Insert (k v : N) | Remove (k : N) | Get (k : N) | Size | MaxSize | SetMaxSize (m : nat).
Inductive ret := RB (b : bool) | RN (n : nat) | RG (v : option N).

Section Spec.
(** Key equality; whether keys and values are copied *)
Context (kcmp : N -> N -> Z) (kcopy vcopy : bool).
Definition same (k : N) (e : N * N) : bool := (kcmp k (fst e) =? 0)%Z.
Definition del (k : N) (l : list (N * N)) : list (N * N) := filter (fun e => negb (same k e)) l.
(** Effect of a call on a cache of maximal size [m] holding [l]; [fk], [fv]:
    keys and values freed *)
Definition rel (m : nat) (l : list (N * N)) (o : cop) (r : ret) (m' : nat) (l' : list (N * N)) (fk fv : list N) : Prop :=
  match o with
  | Insert k v =>
    m' = m /\
    if (k =? 0)%N || (m =? 0) then r = RB false /\ l' = l /\ fk = [] /\ fv = []
    else r = RB true /\ exists v', (vcopy = false -> v' = v) /\
      match find (same k) l with
      | Some (k0, v0) => l' = (k0, v') :: del k l /\ fk = [] /\ fv = [v0]
      | None => exists k', (kcmp k k' = 0)%Z /\ (kcopy = false -> k' = k) /\
          l' = firstn m ((k', v') :: l) /\ fk = map fst (skipn m ((k', v') :: l)) /\ fv = map snd (skipn m ((k', v') :: l))
      end
  | Remove k =>
    m' = m /\
    match (if (k =? 0)%N then None else find (same k) l) with
    | Some (k0, v0) => r = RB true /\ l' = del k l /\ fk = [k0] /\ fv = [v0]
    | None => r = RB false /\ l' = l /\ fk = [] /\ fv = []
    end
  | Get k =>
    m' = m /\ fk = [] /\ fv = [] /\
    match (if (k =? 0)%N then None else find (same k) l) with
    | Some e => r = RG (Some (snd e)) /\ l' = e :: del k l
    | None => r = RG None /\ l' = l
    end
  | Size => r = RN (length l) /\ m' = m /\ l' = l /\ fk = [] /\ fv = []
  | MaxSize => r = RN m /\ m' = m /\ l' = l /\ fk = [] /\ fv = []
  | SetMaxSize m2 => r = RB true /\ m' = m2 /\ l' = firstn m2 l /\ fk = map fst (skipn m2 l) /\ fv = map snd (skipn m2 l)
  end.
(** Calls one after the other; the last freed first *)
Inductive chain : nat -> list (N * N) -> list cop -> list ret -> nat -> list (N * N) -> list N -> list N -> Prop :=
| ch_nil m l : chain m l [] [] m l [] []
| ch_cons m l o ops r rs m1 l1 fk fv m2 l2 fk2 fv2 :
    rel m l o r m1 l1 fk fv -> chain m1 l1 ops rs m2 l2 fk2 fv2 ->
    chain m l (o :: ops) (r :: rs) m2 l2 (fk2 ++ fk) (fv2 ++ fv).
End Spec.

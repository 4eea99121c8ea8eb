(** Orders and sortedness. *)
From Verif Require Import Base.Lib.
From Coq Require Export Permutation Sorted.

(** A comparison callback that is a total preorder: its sign is antisymmetric
    and "not greater" is transitive. *)
Definition total_preorder {A} (cmp : A -> A -> Z) : Prop :=
  (forall x y, Z.sgn (cmp y x) = - Z.sgn (cmp x y))%Z /\
  (forall x y z, cmp x y <= 0 -> cmp y z <= 0 -> cmp x z <= 0)%Z.

(** Every element is at most every later one. *)
Definition sorted {A} (cmp : A -> A -> Z) (l : list A) : Prop :=
  StronglySorted (fun x y => cmp x y <= 0)%Z l.

(** The elements equal to x, in order of appearance. *)
Definition equals_of {A} (cmp : A -> A -> Z) (x : A) (l : list A) : list A :=
  filter (fun y => (cmp x y =? 0)%Z) l.

(** The list with x inserted before position i. *)
Definition insert_at {A} (i : nat) (x : A) (l : list A) : list A :=
  firstn i l ++ x :: skipn i l.

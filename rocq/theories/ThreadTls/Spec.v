(** What thread local storage is to its users: read off the events alone. *)
From Verif Require Import Base.Lib.
From Verif Require Import ThreadTls.Model.
Local Open Scope N_scope.

(** The value a thread last stored at a key, NULL if none since it began. *)
Definition upd_value (t : thr) (k : key) (v : val) (e : ev) : val :=
  match e with
  | ESet t' k' v' true => if Nat.eqb t' t && (k' =? k) then v' else v
  | EEnd t' => if Nat.eqb t' t then 0 else v
  | _ => v
  end.
Definition value_of (tr : list ev) (t : thr) (k : key) : val := fold_left (upd_value t k) tr 0.

(** The life of the values of a thread at a key that has a destructor: a value is
    stored when the one before is destroyed; what is destroyed is what is stored; the
    thread ends when nothing is stored; what is read is what is stored. [None]: not so. *)
Definition life1 (t : thr) (k : key) (h : option val) (e : ev) : option (option val) :=
  match e with
  | ESet t' k' v true => if Nat.eqb t' t && (k' =? k) then match h with None => Some (Some v) | Some _ => None end else Some h
  | EDtor t' k' v => if Nat.eqb t' t && (k' =? k) then match h with Some w => if w =? v then Some None else None | None => None end else Some h
  | EEnd t' => if Nat.eqb t' t then match h with None => Some None | Some _ => None end else Some h
  | EGet t' k' v => if Nat.eqb t' t && (k' =? k) then if v =? match h with Some w => w | None => 0 end then Some h else None else Some h
  | _ => Some h
  end.
Fixpoint life (t : thr) (k : key) (h : option val) (tr : list ev) : option (option val) :=
  match tr with
  | [] => Some h
  | e :: tr' => match life1 t k h e with None => None | Some h' => life t k h' tr' end
  end.

Definition created (tr : list ev) (k : key) (d : bool) : Prop := exists t, In (ECreated t k d) tr.
Fixpoint created_keys (tr : list ev) : list key :=
  match tr with
  | [] => []
  | ECreated _ k _ :: tr' => k :: created_keys tr'
  | _ :: tr' => created_keys tr'
  end.

(** How often a thread stored a value at a key, and how often it was destroyed. *)
Fixpoint n_set (tr : list ev) (t : thr) (k : key) (v : val) : nat :=
  match tr with
  | [] => 0
  | ESet t' k' v' true :: tr' => (if Nat.eqb t' t && (k' =? k) && (v' =? v) then 1 else 0) + n_set tr' t k v
  | _ :: tr' => n_set tr' t k v
  end.
Fixpoint n_dtor (tr : list ev) (t : thr) (k : key) (v : val) : nat :=
  match tr with
  | [] => 0
  | EDtor t' k' v' :: tr' => (if Nat.eqb t' t && (k' =? k) && (v' =? v) then 1 else 0) + n_dtor tr' t k v
  | _ :: tr' => n_dtor tr' t k v
  end.

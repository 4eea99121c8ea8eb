(** Specification of permission objects: what they hold is a table from
    (file or directory override, class) to an optional change, and a change
    says for each of read, write and execute what becomes of the old bit. *)
From Verif Require Import Base.Lib FsPerms.Model.
Local Open Scope N_scope.

Inductive what := READ | WRITE | EXEC.
(** Position of a permission in a Unix mode word (rwxrwxrwx). *)
Definition unix_bit (w : who) (x : what) : N :=
  match w, x with
  | USER, READ => 8 | USER, WRITE => 7 | USER, EXEC => 6
  | GROUP, READ => 5 | GROUP, WRITE => 4 | GROUP, EXEC => 3
  | OTHER, READ => 2 | OTHER, WRITE => 1 | OTHER, EXEC => 0
  end.
(** Position of a permission in an M_fs_perms_mode_t. *)
Definition mode_bit (x : what) : N := match x with READ => 0 | WRITE => 1 | EXEC => 2 end.
Definition allowed (mode : N) (w : who) (x : what) : bool := N.testbit mode (unix_bit w x).

(** A change to one class: nothing, or a mode with a type. *)
Definition change := option (N * ptype).
Definition after (c : change) (x : what) (old : bool) : bool :=
  match c with
  | None => old
  | Some (m, EXACT) => N.testbit m (mode_bit x)
  | Some (m, ADD) => old || N.testbit m (mode_bit x)
  | Some (m, REMOVE) => old && negb (N.testbit m (mode_bit x))
  end.
(** Does the change grant the permission by itself? *)
Definition grants (c : change) (x : what) : bool :=
  match c with
  | None => false
  | Some (m, REMOVE) => false
  | Some (m, _) => N.testbit m (mode_bit x)
  end.

(** Table of changes. *)
Definition table := bool -> who -> change.
Definition eqw (a b : who) : bool :=
  match a, b with USER, USER | GROUP, GROUP | OTHER, OTHER => true | _, _ => false end.
Definition put (t : table) (dir : bool) (w : who) (c : change) : table :=
  fun d v => if Bool.eqb d dir && eqw v w then c else t d v.

(** Calls on a permission object. *)
Inductive op :=
| SetMode (m : N) (w : who) (t : ptype)
| SetDirMode (m : N) (w : who) (t : ptype)
| Unset (w : who)
| UnsetDir (w : who).
Definition spec_op (t : table) (o : op) : table :=
  match o with
  | SetMode m w ty => put t false w (Some (m, ty))
  | SetDirMode m w ty => put t true w (Some (m, ty))
  | Unset w => put (put t false w None) true w None
  | UnsetDir w => put t true w None
  end.

(** The documented merge (m_fs.h lines 445-459). *)
Definition merge_change (d s : change) : change :=
  match d, s with
  | _, None => d
  | Some (m, EXACT), Some (n, ADD) => Some (N.lor m n, EXACT)
  | Some (m, EXACT), Some (n, REMOVE) => Some (N.ldiff m n, EXACT)
  | _, Some c => Some c
  end.

(** What the getters show of an object. *)
Definition shown (q : option perms) : table := fun dir w =>
  if dir then (if get_dir_isset q w then Some (get_dir_mode q w, get_dir_type q w) else None)
  else (if get_isset q w then Some (get_mode q w, get_type q w) else None).

(** The change that applies to a file or directory: directories prefer the
    override. *)
Definition effective (q : option perms) (isdir : bool) (w : who) : change :=
  if isdir then (match shown q true w with Some c => Some c | None => shown q false w end)
  else shown q false w.

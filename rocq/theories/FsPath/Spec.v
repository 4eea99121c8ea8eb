(** What a Unix path means, independent of m_fs_path*.c.

    A directory is the list of names leading to it from the root.  A path is read from the
    left: a slash at the start goes to the root, '..' goes to the parent (the root is its
    own parent), '.' stays, any other name goes down. *)
From Verif Require Import Base.Lib.
Local Open Scope N_scope.

(** The non-empty stretches between slashes. *)
Fixpoint names_from (s cur : list N) : list (list N) :=
  match s with
  | [] => match cur with [] => [] | _ => [cur] end
  | c :: s' => if c =? 47 then match cur with [] => names_from s' [] | _ => cur :: names_from s' [] end
               else names_from s' (cur ++ [c])
  end.
Definition names (s : list N) : list (list N) := names_from s [].
Definition absolute (s : list N) : Prop := exists r, s = 47 :: r.

Definition dot : list N := [46].
Definition dots : list N := [46; 46].

(** One name, from the directory [d], without looking at links. *)
Definition step (d : list (list N)) (n : list N) : list (list N) :=
  if list_eq_dec N.eq_dec n dot then d
  else if list_eq_dec N.eq_dec n dots then removelast d
  else d ++ [n].
Definition place (cwd : list (list N)) (p : list N) : list (list N) :=
  fold_left step (names p) (match p with 47 :: _ => [] | _ => cwd end).

(** The same in a file system with symbolic links: [link d] is the content of the link at
    [d]; the last argument counts the links followed.  There is no derivation for a path
    that runs in a circle. *)
Inductive Walk (link : list (list N) -> option (list N)) : list (list N) -> list (list N) -> list (list N) -> nat -> Prop :=
| W_end : forall d, Walk link d [] d 0
| W_dot : forall d r e k, Walk link d r e k -> Walk link d (dot :: r) e k
| W_up : forall d r e k, Walk link (removelast d) r e k -> Walk link d (dots :: r) e k
| W_down : forall d n r e k, n <> dot -> n <> dots -> link (d ++ [n]) = None ->
    Walk link (d ++ [n]) r e k -> Walk link d (n :: r) e k
| W_link : forall d n r e s k, n <> dot -> n <> dots -> link (d ++ [n]) = Some s -> ~ absolute s ->
    Walk link d (names s ++ r) e k -> Walk link d (n :: r) e (S k)
| W_link_abs : forall d n r e s k, n <> dot -> n <> dots -> link (d ++ [n]) = Some s -> absolute s ->
    Walk link [] (names s ++ r) e k -> Walk link d (n :: r) e (S k).

(** How a directory is written down. *)
Fixpoint written (d : list (list N)) : list N :=
  match d with [] => [] | n :: d' => 47 :: n ++ written d' end.
Definition abs_path (d : list (list N)) : list N := match d with [] => [47] | _ => written d end.

(** The canonical spellings: '/', '/a/b', '.', 'a/b', '..', '../a/b': one slash between
    names and none at the end, no '.' except alone, no '..' except at the start of a relative path. *)
Definition is_name (n : list N) : Prop := n <> [] /\ n <> dot /\ n <> dots /\ ~ In 47 n.
Fixpoint slashed (l : list (list N)) : list N :=
  match l with [] => [] | [n] => n | n :: l' => n ++ 47 :: slashed l' end.
Inductive Canonical : list N -> Prop :=
| Can_abs : forall l, Forall is_name l -> Canonical (abs_path l)
| Can_here : Canonical dot
| Can_rel : forall k l, Forall is_name l -> repeat dots k ++ l <> [] -> Canonical (slashed (repeat dots k ++ l)).

(** Names the normalisation leaves alone: '$X' and '%X%' stand for environment variables,
    and a backslash counts as a separator. *)
Definition env_ref (n : list N) : Prop := (exists x, n = 36 :: x) \/ (exists x, n = 37 :: x ++ [37]).
Definition plain (p : list N) : Prop := ~ In 92 p /\ Forall (fun n => ~ env_ref n) (names p).

(** A name that refers to the variable [x], and the names of a path after substitution: a
    variable's value takes the place of the name, an empty value or name removes it. *)
Definition refers (n x : list N) : Prop := n = 36 :: x \/ n = 37 :: x ++ [37].
Inductive Subst (env : list N -> option (list N)) : list (list N) -> list (list N) -> Prop :=
| Sub_end : Subst env [] []
| Sub_keep : forall n l l', ~ env_ref n -> Subst env l l' -> Subst env (n :: l) (n :: l')
| Sub_empty : forall n l l', refers n [] -> Subst env l l' -> Subst env (n :: l) l'
| Sub_set : forall n x v l l', refers n x -> x <> [] -> env x = Some v -> v <> [] -> Subst env l l' -> Subst env (n :: l) (v :: l')
| Sub_unset : forall n x l l', refers n x -> x <> [] -> env x = Some [] -> Subst env l l' -> Subst env (n :: l) l'.

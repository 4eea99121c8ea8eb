(** Model of base/fs/m_fs_path.c (splitting and joining of paths) and of
    base/fs/m_fs_path_norm.c, as compiled on Unix ([sys_type] may be either).

    A string is its content without the terminator.  M_list_str_t is a list of strings
    (unsorted, duplicates allowed).  M_list_str_split is splitting at the delimiter
    (property C17) and dropping the empty parts.  The process and the file system are
    parameters: PATH_MAX, the environment, the home directory, the working directory and
    readlink. *)
From Verif Require Import Base.Lib.
Local Open Scope N_scope.

(** M_fs_system_t after M_fs_path_get_system_type, m_fs_path.c:99-110 *)
Inductive sys := Unix | Win.
(** m_fs_path.c:36-37 and 112-119 *)
Definition system_sep (t : sys) : N := match t with Unix => 47 | Win => 92 end.

Definition str_eqb (a b : list N) : bool := if list_eq_dec N.eq_dec a b then true else false.
Definition nth_is (p : list N) (i : nat) (c : N) : bool := match nth_error p i with Some x => x =? c | None => false end.
Definition is_nil (p : list N) : bool := match p with [] => true | _ => false end.

(** M_fs_path_isunc, m_fs_path.c:177-188 *)
Definition isunc (p : list N) : bool := (2 <=? length p)%nat && nth_is p 0 92 && nth_is p 1 92.
(** M_fs_path_isabs, m_fs_path.c:150-175 *)
Definition isabs (p : list N) (t : sys) : bool :=
  if (length p =? 0)%nat then false
  else match t with
       | Win => isunc p || ((2 <=? length p)%nat && (nth_is p 1 58 || (nth_is p 0 92 && nth_is p 1 92)))
       | Unix => nth_is p 0 47
       end.

(** M_list_str_split with keep_empty_parts false, base/list/m_list_str.c:240-262. *)
Fixpoint split_on (delim : N) (s cur : list N) : list (list N) :=
  match s with
  | [] => [cur]
  | c :: s' => if c =? delim then cur :: split_on delim s' [] else split_on delim s' (cur ++ [c])
  end.
Definition list_split (delim : N) (s : list N) : list (list N) := filter (fun p => negb (is_nil p)) (split_on delim s []).

(** M_fs_path_componentize_path, m_fs_path.c:190-236 *)
Definition componentize (path : list N) (t : sys) : list (list N) :=
  let l := flat_map (list_split 92) (list_split 47 path) in
  if (match t with Unix => isabs path t | Win => isunc path end) then [] :: l else l.

(** M_list_str_join, base/list/m_list_str.c:264-304; for an empty result M_buf_finish_str
    gives NULL. *)
Fixpoint join_with (sep : N) (l : list (list N)) : list N :=
  match l with
  | [] => []
  | [p] => p
  | p :: l' => p ++ sep :: join_with sep l'
  end.
Definition list_join (sep : N) (l : list (list N)) : option (list N) :=
  match join_with sep l with [] => None | s => Some s end.

(** M_fs_path_join_parts, m_fs_path.c:238-301 *)
Definition join_parts (path : list (list N)) (t : sys) : option (list N) :=
  match path with
  | [] => None
  | first :: more =>
    let more := filter (fun p => negb (is_nil p)) more in
    match more with
    | [] =>
      if is_nil first then Some (match t with Win => [92; 92] | Unix => [47] end)
      else match t with
           | Win => if isabs first t then list_join 92 [first; []] else list_join 92 [first]
           | Unix => list_join 47 [first]
           end
    | _ =>
      match t with
      | Win => if is_nil first then list_join 92 ([] :: first :: more) else list_join 92 (first :: more)
      | Unix => list_join 47 (first :: more)
      end
    end
  end.

(** M_fs_path_join, m_fs_path.c:322-349; NULL arguments are the empty string. *)
Definition path_join (p1 p2 : list N) (t : sys) : option (list N) :=
  if isabs p2 t then Some p2
  else
  let s := p1 ++ (if negb (is_nil p1) && negb (is_nil p2) && negb (last p1 0 =? system_sep t) then [system_sep t] else []) ++ p2 in
  match s with [] => None | _ => Some s end.

(** M_fs_path_split, m_fs_path.c:43-95: directory and name, [None] for NULL.  With an
    empty list of parts the path is not absolute and the code takes nothing from it. *)
Definition path_split (path : list N) (t : sys) : option (list N) * option (list N) :=
  match path with
  | [] => (Some [46], None)
  | _ =>
    match rev (componentize path t) with
    | [] => (None, None)
    | temp :: rparts =>
      if (length rparts =? 0)%nat && isabs path t then (join_parts [temp] t, None)
      else (join_parts (rev rparts) t, if is_nil temp then None else Some temp)
    end
  end.
(** m_fs_path.c:556-570 *)
Definition path_dirname (path : list N) (t : sys) := fst (path_split path t).
Definition path_basename (path : list N) (t : sys) := snd (path_split path t).

(** M_fs_error_t: the values used here. *)
Inductive fserr := ErrInvalid | ErrLinkLoop | ErrNameTooLong | ErrGeneric | ErrOther (e : N).
(** M_fs_path_norm_t, include/mstdlib/base/m_fs.h:213-225; the two flags on missing link
    targets are arguments of [readlink]. *)
Record nflags := { n_absolute : bool; n_follow : bool; n_home : bool; n_noparent : bool }.

Section Norm.
Variable path_max : nat.
Variable getenv : list N -> option (list N).
Variable home : option (list N).
Variable getcwd : option (list N).
(** M_fs_path_readlink_int, m_fs_path.c:388-442: an error, no link, or the link's target;
    the flag is [last]. *)
Variable readlink : list N -> bool -> fserr + option (list N).
Variable t : sys.
Variable fl : nflags.

(** M_fs_path_norm_sep, m_fs_path_norm.c:50-82 *)
Definition norm_sep (path : list N) : option (list N) :=
  if (path_max <=? length path)%nat then None
  else Some (map (fun c => match t with Win => if c =? 47 then 92 else c | Unix => c end) path).

(** M_fs_path_norm_expand_env_vars, m_fs_path_norm.c:84-206; [None] for the result
    M_FALSE.  First the variable's name, lines 143-154. *)
Definition env_name (p : list N) : option (list N) :=
  if (1 <=? length p)%nat && nth_is p 0 36 then Some (skipn 1 p)
  else if (2 <=? length p)%nat && nth_is p 0 37 && nth_is p (length p - 1) 37 then Some (firstn (length p - 2) (skipn 1 p))
  else None.
Fixpoint expand_loop (dirs : list (list N)) : option (list (list N)) :=
  match dirs with
  | [] => Some []
  | p :: dirs' =>
    match env_name p with
    | None => option_map (cons p) (expand_loop dirs')
    | Some [] => expand_loop dirs'
    | Some name =>
      match getenv name with
      | None => None
      | Some [] => expand_loop dirs'
      | Some v => option_map (cons v) (expand_loop dirs')
      end
    end
  end.
Definition expand_env_vars (dirs : list (list N)) : option (list (list N)) :=
  match dirs with
  | [] => None
  | _ => if existsb (fun p => nth_is p 0 36 || nth_is p 0 37) dirs then expand_loop dirs else Some dirs
  end.

(** M_fs_path_norm_home, m_fs_path_norm.c:208-292; a list without its first element is
    merged behind the home directory's parts (M_list_merge, which appends when duplicates
    are allowed). *)
Definition norm_home (dirs : list (list N)) : option (list (list N)) :=
  match dirs with
  | [] => None
  | p :: dirs' =>
    if str_eqb p [126] then match home with None => None | Some h => Some (componentize h t ++ dirs') end
    else Some dirs
  end.

(** M_fs_path_norm_abs, m_fs_path_norm.c:294-344 *)
Definition norm_abs (dirs : list (list N)) : option (list (list N)) :=
  match dirs with
  | [] => None
  | p :: _ =>
    if is_nil p || (match t with Win => isabs p t | Unix => false end) then Some dirs
    else match getcwd with None => None | Some d => Some (componentize d t ++ dirs) end
  end.

Definition dotdot : list N := [46; 46].
(** M_fs_path_norm_remove_parent, m_fs_path_norm.c:346-377 *)
Definition remove_parent (dirs : list (list N)) : list (list N) :=
  match rev dirs with
  | [] => [dotdot]
  | p :: _ =>
    if (match t with Win => isabs p t | Unix => false end) || is_nil p then dirs
    else if str_eqb p dotdot then dirs ++ [dotdot]
    else removelast dirs
  end.

(** M_fs_path_norm_symlink, m_fs_path_norm.c:485-538, up to the call of
    M_fs_path_norm_int: an error, no link, or the path for that call, [None] for NULL. *)
Definition norm_symlink (base parts : list (list N)) : fserr + option (option (list N)) :=
  match join_parts base t with
  | None => inl ErrInvalid
  | Some path =>
    match readlink path (match parts with [] => true | _ => false end) with
    | inl e => inl e
    | inr None => inr None
    | inr (Some target) =>
      let base := if isabs target t then [] else removelast base in
      inr (Some (join_parts (base ++ componentize target t ++ parts) t))
    end
  end.

Definition max_redirects : nat := 25.

(** The end of M_fs_path_norm_int, m_fs_path_norm.c:466-481.  Joining a non-empty list
    never gives NULL; that case is [UB] here and excluded by a theorem. *)
Definition norm_done (base : list (list N)) : res (fserr + list N) :=
  match base with
  | [] => Ok (inr [46])
  | _ => match join_parts base t with Some out => Ok (inr out) | None => UB end
  end.
(** The loop of M_fs_path_norm_int, m_fs_path_norm.c:442-465; [again] is the call at the
    end of M_fs_path_norm_symlink. *)
Fixpoint norm_loop (again : option (list N) -> res (fserr + list N)) (follow : bool) (parts base : list (list N)) {struct parts} : res (fserr + list N) :=
  match parts with
  | [] => norm_done base
  | p :: parts' =>
    if negb (n_noparent fl) && str_eqb p dotdot then norm_loop again follow parts' (remove_parent base)
    else if str_eqb p [46] then norm_loop again follow parts' base
    else
    let base := base ++ [p] in
    if follow then
      match norm_symlink base parts' with
      | inl e => Ok (inl e)
      | inr None => norm_loop again follow parts' base
      | inr (Some path) => again path
      end
    else norm_loop again follow parts' base
  end.

(** M_fs_path_norm_int, m_fs_path_norm.c:379-483; [seen] holds the keys of the table,
    [follow] is the flag FOLLOWSYMLINKS. *)
Fixpoint norm_int (fuel : nat) (path : option (list N)) (seen : list (list N)) (follow : bool) : res (fserr + list N) :=
  match fuel with
  | O => Fuel
  | S f =>
    match path with
    | None | Some [] => Ok (inl ErrInvalid)
    | Some path =>
      if (max_redirects <=? length seen)%nat || existsb (str_eqb path) seen then Ok (inl ErrLinkLoop)
      else
      match norm_sep path with
      | None => Ok (inl ErrNameTooLong)
      | Some temp =>
        let follow := match t with Win => if isunc temp then false else follow | Unix => follow end in
        match expand_env_vars (componentize temp t) with
        | None => Ok (inl ErrGeneric)
        | Some parts =>
          match (if n_home fl then norm_home parts else Some parts) with
          | None => Ok (inl ErrGeneric)
          | Some parts =>
            match (if n_absolute fl then norm_abs parts else Some parts) with
            | None => Ok (inl ErrGeneric)
            | Some parts => norm_loop (fun path' => norm_int f path' (path :: seen) follow) follow parts []
            end
          end
        end
      end
    end
  end.
(** M_fs_path_norm, m_fs_path_norm.c:542-551 *)
Definition path_norm (path : list N) : res (fserr + list N) := norm_int (max_redirects + 2) (Some path) [] (n_follow fl).
End Norm.

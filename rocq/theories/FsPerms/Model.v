(** Model of base/fs/m_fs_perms.c and of the Unix part
    base/fs/m_fs_perms_unx.c, base/fs/m_fs_info_unx.c lines 37-76.

    A NULL perms object is [None].  Names are byte strings (lists of N without
    the terminating zero).  [x & ~y] is [N.ldiff x y] (exact for the unsigned
    mode_t and for the small mode enumerations).  The user and group databases
    (getpwnam_r, getgrnam_r) are functions from names to identifiers.  Of
    M_fs_perms_set_perms and M_fs_perms_set_perms_file what is modelled is the
    computation of the arguments of chmod and chown from the mode that stat
    reports and the file type; path normalisation (see FsPath) and system call
    failures are left out.  Windows code is not modelled. *)
From Verif Require Import Base.Lib.
Local Open Scope N_scope.

(** M_fs_perms_mode_t: include/mstdlib/base/m_fs.h lines 189-194 *)
Definition MODE_NONE  : N := 0.
Definition MODE_READ  : N := 1.
Definition MODE_WRITE : N := 2.
Definition MODE_EXEC  : N := 4.

(** M_fs_perms_type_t: m_fs.h lines 198-202 *)
Inductive ptype := EXACT | ADD | REMOVE.
(** M_fs_perms_who_t: m_fs.h lines 206-210 *)
Inductive who := USER | GROUP | OTHER.

(** One (set, mode, type) triple of struct M_fs_perms: m_fs_int.h lines 89-108 *)
Record part := mkpart { p_set : bool; p_mode : N; p_type : ptype }.

(** struct M_fs_perms: m_fs_int.h lines 70-109 *)
Record perms := mkperms {
  user : option (list N); group : option (list N); uid : N; gid : N;
  pu : part; pg : part; po : part;          (* user_*, group_*, other_* *)
  du : part; dg : part; do_ : part          (* dir_user_*, dir_group_*, dir_other_* *)
}.

(** M_malloc_zero leaves "not set, no mode, exact": m_fs_perms.c lines 63-77 *)
Definition part0 : part := mkpart false MODE_NONE EXACT.
Definition perms_create : perms :=
  mkperms None None 0 0 part0 part0 part0 part0 part0 part0.

(** M_fs_perms_merge_part: lines 42-59 *)
Definition merge_part (d s : part) : part :=
  if negb (p_set s) then d
  else
    match p_set d, p_type d, p_type s with
    | true, EXACT, ADD    => mkpart true (N.lor (p_mode d) (p_mode s)) (p_type d)
    | true, EXACT, REMOVE => mkpart true (N.ldiff (p_mode d) (p_mode s)) (p_type d)
    | _, _, _ => mkpart true (p_mode s) (p_type s)
    end.

(** M_fs_perms_dup: lines 79-120.  Line 104 repeats line 103: the type of the
    group part of the copy keeps the value M_fs_perms_create gave it. *)
Definition perms_dup (q : option perms) : option perms :=
  match q with
  | None => None
  | Some q =>
    Some (mkperms (user q) (group q) (uid q) (gid q)
            (mkpart (p_set (pu q)) (p_mode (pu q)) (p_type (pu q)))
            (mkpart (p_set (pg q)) (p_mode (pg q)) (p_type (pg perms_create)))
            (mkpart (p_set (po q)) (p_mode (po q)) (p_type (po q)))
            (mkpart (p_set (du q)) (p_mode (du q)) (p_type (du q)))
            (mkpart (p_set (dg q)) (p_mode (dg q)) (p_type (dg q)))
            (mkpart (p_set (do_ q)) (p_mode (do_ q)) (p_type (do_ q))))
  end.

(** M_fs_perms_merge: lines 122-162 ([dest] itself not NULL) *)
Definition perms_merge (dest src : option perms) : option perms :=
  match src with
  | None => dest
  | Some s =>
    match dest with
    | None => Some s
    | Some d =>
      Some (mkperms (user d) (group d)
              (match user s with Some _ => uid s | None => uid d end)
              (match group s with Some _ => gid s | None => gid d end)
              (merge_part (pu d) (pu s)) (merge_part (pg d) (pg s)) (merge_part (po d) (po s))
              (merge_part (du d) (du s)) (merge_part (dg d) (dg s)) (merge_part (do_ d) (do_ s)))
    end
  end.

(** The part a switch over [who] selects. *)
Definition file_part (q : perms) (w : who) : part :=
  match w with USER => pu q | GROUP => pg q | OTHER => po q end.
Definition dir_part (q : perms) (w : who) : part :=
  match w with USER => du q | GROUP => dg q | OTHER => do_ q end.

(** Getters: M_fs_perms_get_user .. M_fs_perms_get_dir_isset: lines 177-288 *)
Definition get_user (q : option perms) : option (list N) :=
  match q with None => None | Some q => user q end.
Definition get_group (q : option perms) : option (list N) :=
  match q with None => None | Some q => group q end.
Definition get_mode (q : option perms) (w : who) : N :=
  match q with None => MODE_NONE | Some q => p_mode (file_part q w) end.
Definition get_type (q : option perms) (w : who) : ptype :=
  match q with None => EXACT | Some q => p_type (file_part q w) end.
Definition get_isset (q : option perms) (w : who) : bool :=
  match q with None => false | Some q => p_set (file_part q w) end.
Definition get_dir_mode (q : option perms) (w : who) : N :=
  match q with None => MODE_NONE | Some q => p_mode (dir_part q w) end.
Definition get_dir_type (q : option perms) (w : who) : ptype :=
  match q with None => EXACT | Some q => p_type (dir_part q w) end.
Definition get_dir_isset (q : option perms) (w : who) : bool :=
  match q with None => false | Some q => p_set (dir_part q w) end.

(** Assignments to one triple. *)
Definition with_file (q : perms) (w : who) (x : part) : perms :=
  match w with
  | USER  => mkperms (user q) (group q) (uid q) (gid q) x (pg q) (po q) (du q) (dg q) (do_ q)
  | GROUP => mkperms (user q) (group q) (uid q) (gid q) (pu q) x (po q) (du q) (dg q) (do_ q)
  | OTHER => mkperms (user q) (group q) (uid q) (gid q) (pu q) (pg q) x (du q) (dg q) (do_ q)
  end.
Definition with_dir (q : perms) (w : who) (x : part) : perms :=
  match w with
  | USER  => mkperms (user q) (group q) (uid q) (gid q) (pu q) (pg q) (po q) x (dg q) (do_ q)
  | GROUP => mkperms (user q) (group q) (uid q) (gid q) (pu q) (pg q) (po q) (du q) x (do_ q)
  | OTHER => mkperms (user q) (group q) (uid q) (gid q) (pu q) (pg q) (po q) (du q) (dg q) x
  end.

(** M_fs_perms_set_mode: lines 292-314 *)
Definition set_mode (q : option perms) (m : N) (w : who) (t : ptype) : option perms :=
  match q with None => None | Some q => Some (with_file q w (mkpart true m t)) end.
(** M_fs_perms_set_dir_mode: lines 316-338 *)
Definition set_dir_mode (q : option perms) (m : N) (w : who) (t : ptype) : option perms :=
  match q with None => None | Some q => Some (with_dir q w (mkpart true m t)) end.
(** M_fs_perms_unset_dir_mode: lines 365-387 *)
Definition unset_dir_mode (q : option perms) (w : who) : option perms :=
  match q with None => None | Some q => Some (with_dir q w (mkpart false MODE_NONE EXACT)) end.
(** M_fs_perms_unset_mode: lines 340-363 *)
Definition unset_mode (q : option perms) (w : who) : option perms :=
  match q with
  | None => None
  | Some q => unset_dir_mode (Some (with_file q w (mkpart false MODE_NONE EXACT))) w
  end.

(** M_fs_perms_set_user, M_fs_perms_set_user_int: m_fs_perms_unx.c lines
    327-381, 183-189.  The boolean says whether success is returned. *)
Definition set_user (db : list N -> option N) (q : option perms) (name : option (list N))
  : bool * option perms :=
  match q with
  | None => (false, None)
  | Some q =>
    let clear := (true, Some (mkperms None (group q) (uid q) (gid q)
                                (pu q) (pg q) (po q) (du q) (dg q) (do_ q))) in
    match name with
    | None => clear
    | Some [] => clear
    | Some n =>
      match db n with
      | None => (false, Some q)
      | Some id => (true, Some (mkperms (Some n) (group q) id (gid q)
                                  (pu q) (pg q) (po q) (du q) (dg q) (do_ q)))
      end
    end
  end.
(** M_fs_perms_set_group, M_fs_perms_set_group_int: lines 383-433, 191-197;
    the empty name is looked up like any other. *)
Definition set_group (db : list N -> option N) (q : option perms) (name : option (list N))
  : bool * option perms :=
  match q with
  | None => (false, None)
  | Some q =>
    match name with
    | None => (true, Some (mkperms (user q) None (uid q) (gid q)
                             (pu q) (pg q) (po q) (du q) (dg q) (do_ q)))
    | Some n =>
      match db n with
      | None => (false, Some q)
      | Some id => (true, Some (mkperms (user q) (Some n) (uid q) id
                                  (pu q) (pg q) (po q) (du q) (dg q) (do_ q)))
      end
    end
  end.

(** S_IRUSR .. S_IXOTH of <sys/stat.h> *)
Definition S_IRUSR : N := 256.
Definition S_IWUSR : N := 128.
Definition S_IXUSR : N := 64.
Definition S_IRGRP : N := 32.
Definition S_IWGRP : N := 16.
Definition S_IXGRP : N := 8.
Definition S_IROTH : N := 4.
Definition S_IWOTH : N := 2.
Definition S_IXOTH : N := 1.

Definition has (m bit : N) : bool := negb (N.land m bit =? 0).

(** The choice between the directory override and the normal part:
    m_fs_perms_unx.c lines 61-73, 111-119 *)
Definition choose (isdir : bool) (p d : part) : option part :=
  if isdir && p_set d then Some d else if p_set p then Some p else None.

(** Lines 80-85, 122-127: or the selected bits in. *)
Definition add_bits (mode mymode r w x : N) : N :=
  let mode := if has mymode MODE_READ then N.lor mode r else mode in
  let mode := if has mymode MODE_WRITE then N.lor mode w else mode in
  if has mymode MODE_EXEC then N.lor mode x else mode.
(** Lines 88-93: clear the selected bits. *)
Definition del_bits (mode mymode r w x : N) : N :=
  let mode := if has mymode MODE_READ then N.ldiff mode r else mode in
  let mode := if has mymode MODE_WRITE then N.ldiff mode w else mode in
  if has mymode MODE_EXEC then N.ldiff mode x else mode.

(** M_fs_perms_update_mode_from_perm_part: lines 51-98 *)
Definition update_part (mode : N) (isdir : bool) (p d : part) (r w x : N) : N :=
  match choose isdir p d with
  | None => mode
  | Some q =>
    match p_type q with
    | EXACT => add_bits (N.ldiff mode (N.lor (N.lor r w) x)) (p_mode q) r w x
    | ADD => add_bits mode (p_mode q) r w x
    | REMOVE => del_bits mode (p_mode q) r w x
    end
  end.

(** M_fs_perms_to_mode_part: lines 100-131 *)
Definition to_mode_part (isdir : bool) (p d : part) (r w x : N) : N :=
  match choose isdir p d with
  | None => 0
  | Some q =>
    match p_type q with
    | EXACT | ADD => add_bits 0 (p_mode q) r w x
    | REMOVE => 0
    end
  end.

(** M_fs_perms_update_mode_from_perms: lines 135-155.  Each of the three calls
    gets the complete old mode. *)
Definition update_mode (mode : N) (q : perms) (isdir : bool) : N :=
  let m := 0 in
  let m := N.lor m (update_part mode isdir (pu q) (du q) S_IRUSR S_IWUSR S_IXUSR) in
  let m := N.lor m (update_part mode isdir (pg q) (dg q) S_IRGRP S_IWGRP S_IXGRP) in
  N.lor m (update_part mode isdir (po q) (do_ q) S_IROTH S_IWOTH S_IXOTH).

(** M_fs_perms_to_mode: lines 160-181 *)
Definition to_mode (q : perms) (isdir : bool) : N :=
  let m := 0 in
  let m := N.lor m (to_mode_part isdir (pu q) (du q) S_IRUSR S_IWUSR S_IXUSR) in
  let m := N.lor m (to_mode_part isdir (pg q) (dg q) S_IRGRP S_IWGRP S_IXGRP) in
  N.lor m (to_mode_part isdir (po q) (do_ q) S_IROTH S_IWOTH S_IXOTH).

(** M_fs_info_mode_to_perms: m_fs_info_unx.c lines 38-76 *)
Definition three (mode r w x : N) : N :=
  let m := MODE_NONE in
  let m := if has mode r then N.lor m MODE_READ else m in
  let m := if has mode w then N.lor m MODE_WRITE else m in
  if has mode x then N.lor m MODE_EXEC else m.
Definition mode_to_perms (mode : N) : perms :=
  let q := perms_create in
  let q := with_file q USER (mkpart true (three mode S_IRUSR S_IWUSR S_IXUSR) EXACT) in
  let q := with_file q GROUP (mkpart true (three mode S_IRGRP S_IWGRP S_IXGRP) EXACT) in
  with_file q OTHER (mkpart true (three mode S_IROTH S_IWOTH S_IXOTH) EXACT).

(** M_fs_perms_set_perms / M_fs_perms_set_perms_file: m_fs_perms_unx.c lines
    205-250, 252-287: the mode passed to chmod for a file whose stat mode is
    [stmode], and the identifiers passed to chown, if it is called. *)
Definition chmod_arg (q : perms) (stmode : N) (isdir : bool) : N :=
  update_mode (to_mode (mode_to_perms stmode) false) q isdir.
Definition chown_arg (q : perms) : option (option N * option N) :=
  match user q, group q with
  | None, None => None
  | _, _ => Some (match user q with Some _ => Some (uid q) | None => None end,
                  match group q with Some _ => Some (gid q) | None => None end)
  end.

(** The access mode M_fs_perms_can_access passes to access(2), with F_OK = 0,
    R_OK = 4, W_OK = 2, X_OK = 1: lines 307-314 *)
Definition access_arg (mode : N) : N :=
  let a := 0 in
  let a := if has mode MODE_READ then N.lor a 4 else a in
  let a := if has mode MODE_WRITE then N.lor a 2 else a in
  if has mode MODE_EXEC then N.lor a 1 else a.

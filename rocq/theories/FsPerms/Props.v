(** Property theorems about permission objects (C82, C83, C84). *)
From Verif Require Import Base.Lib FsPerms.Model FsPerms.Spec FsPerms.Proofs.
Local Open Scope N_scope.

(** C82: after any sequence of set and unset calls on a new object the getters
    show exactly the table those calls describe: the last call for each class
    decides, unsetting a class also unsets its directory override, the other
    classes are untouched, and what is not set reads as "no permissions,
    exact". *)
Theorem perms_table : forall ops,
  exists q, fold_left run_op ops (Some perms_create) = Some q
  /\ (forall dir w, shown (Some q) dir w = fold_left spec_op ops (fun _ _ => None) dir w)
  /\ (forall w, get_isset (Some q) w = false ->
        get_mode (Some q) w = 0 /\ get_type (Some q) w = EXACT)
  /\ (forall w, get_dir_isset (Some q) w = false ->
        get_dir_mode (Some q) w = 0 /\ get_dir_type (Some q) w = EXACT).
Proof.
  intros ops. destruct (run_ops_shown ops perms_create) as (q & E & H).
  exists q. split; [exact E|]. split; [|split].
  - intros dir w. rewrite H.
    assert (G : forall t t', (forall d v, t d v = t' d v) ->
        fold_left spec_op ops t dir w = fold_left spec_op ops t' dir w).
    { clear. revert dir w. induction ops as [|o ops IH]; intros dir w t t' T; [apply T|].
      cbn. apply IH. now apply spec_op_ext. }
    apply G. intros [] []; reflexivity.
  - intros w. exact (proj1 (clean_ops ops _ _ clean_create E w)).
  - intros w. exact (proj2 (clean_ops ops _ _ clean_create E w)).
Qed.
Print Assumptions perms_table.

Example perms_table_ex :
  exists q, fold_left run_op [SetMode 6 USER EXACT; SetDirMode 7 USER ADD; SetMode 4 GROUP REMOVE;
                              SetDirMode 1 GROUP EXACT; Unset USER; SetMode 5 GROUP ADD]
              (Some perms_create) = Some q
  /\ get_mode (Some q) GROUP = 5 /\ get_type (Some q) GROUP = ADD
  /\ get_dir_mode (Some q) GROUP = 1 /\ get_dir_isset (Some q) USER = false.
Proof. eexists. repeat split. Qed.

(** C82: owner and group.  A name that the system knows becomes the owner
    passed to chown, an unknown one is refused and changes nothing, NULL (and
    for the user the empty name) removes the owner; permissions are untouched. *)
Theorem perms_owner : forall db q name,
  let (ok, q') := set_user db (Some q) (Some name) in
  (name <> [] ->
     match db name with
     | Some id => ok = true /\ get_user q' = Some name
                  /\ (forall r, q' = Some r -> exists g, chown_arg r = Some (Some id, g))
     | None => ok = false /\ q' = Some q
     end)
  /\ (forall dir w, shown q' dir w = shown (Some q) dir w) /\ get_group q' = get_group (Some q).
Proof.
  intros db q name. unfold set_user. destruct name as [|c name].
  - split; [congruence|]. split; [intros [] []|]; reflexivity.
  - destruct (db (c :: name)) as [id|]; (split; [intros _|split; [intros [] []|]]); try reflexivity.
    + split; [reflexivity|]. split; [reflexivity|]. intros r [= <-].
      unfold chown_arg; cbn. destruct (group q); eexists; reflexivity.
    + split; reflexivity.
Qed.
Print Assumptions perms_owner.

(** The same for the group; setting it leaves the identifier of the user in place. *)
Theorem perms_group : forall db q name,
  let (ok, q') := set_group db (Some q) (Some name) in
  match db name with
  | Some id => ok = true /\ get_group q' = Some name
               /\ (forall r, q' = Some r -> exists u, chown_arg r = Some (u, Some id)
                    /\ (forall i g, chown_arg q = Some (i, g) -> u = i) /\ (chown_arg q = None -> u = None))
  | None => ok = false /\ q' = Some q
  end
  /\ (forall dir w, shown q' dir w = shown (Some q) dir w) /\ get_user q' = get_user (Some q).
Proof.
  intros db q name. unfold set_group. destruct (db name) as [id|]; (split; [|split; [intros [] []|]]); try reflexivity.
  - split; [reflexivity|]. split; [reflexivity|]. intros r [= <-].
    unfold chown_arg; cbn. destruct (user q), (group q); eexists; (split; [reflexivity|]); split; congruence.
  - split; reflexivity.
Qed.
Print Assumptions perms_group.

Theorem perms_owner_clear : forall db q,
  (forall name, name = None \/ name = Some [] ->
     exists q', set_user db (Some q) name = (true, Some q') /\ user q' = None
       /\ (chown_arg q' = None \/ exists g, chown_arg q' = Some (None, Some g)))
  /\ (exists q', set_group db (Some q) None = (true, Some q') /\ group q' = None
       /\ (chown_arg q' = None \/ exists u, chown_arg q' = Some (Some u, None))).
Proof.
  intros db q. split.
  - intros name [-> | ->]; cbn; eexists; (split; [reflexivity|]); (split; [reflexivity|]);
      unfold chown_arg; cbn; (destruct (group q); [right; eexists|left]; reflexivity).
  - cbn. eexists; (split; [reflexivity|]); (split; [reflexivity|]);
      unfold chown_arg; cbn; (destruct (user q); [right; eexists|left]; reflexivity).
Qed.
Print Assumptions perms_owner_clear.

(** Unlike the user, the group is not removed by the empty name (which the
    system does not know): the call fails and the old group stays. *)
Theorem perms_group_empty_refuted :
  exists db q, user q = Some [97] /\ group q = Some [98] /\ db [] = None
  /\ fst (set_user db (Some q) (Some [])) = true
  /\ set_group db (Some q) (Some []) = (false, Some q).
Proof.
  exists (fun _ => None), (mkperms (Some [97]) (Some [98]) 1 2 part0 part0 part0 part0 part0 part0).
  repeat split.
Qed.
Print Assumptions perms_group_empty_refuted.

(** C83: the mode a new file or directory is created with: a permission is
    present exactly if the change in effect for its class (for a directory the
    override if there is one) grants it, and nothing but the nine permission
    bits is set. *)
Theorem perms_to_mode : forall q isdir,
  (forall w x, allowed (to_mode q isdir) w x = grants (effective (Some q) isdir w) x)
  /\ to_mode q isdir < 512.
Proof.
  intros q isdir. split; [intros; apply to_mode_allowed|].
  destruct (N.eq_dec (to_mode q isdir) 0) as [->|Z]; [reflexivity|].
  change 512 with (2 ^ 9). apply N.log2_lt_pow2; [lia|].
  destruct (N.lt_ge_cases (N.log2 (to_mode q isdir)) 9) as [L|G]; [exact L|].
  pose proof (N.bit_log2 _ Z) as B. rewrite to_mode_high in B by exact G. discriminate.
Qed.
Print Assumptions perms_to_mode.
Example perms_to_mode_ex :
  to_mode (mkperms None None 0 0 (mkpart true 3 EXACT) (mkpart true 4 ADD) (mkpart true 7 REMOVE)
             part0 (mkpart true 5 EXACT) part0) true = 424. (* 0650 *)
Proof. reflexivity. Qed.

(** C83: the permissions M_fs_info reports are those of the file, and give the
    same mode back. *)
Theorem perms_stat : forall mode,
  (forall w, exists m, shown (Some (mode_to_perms mode)) false w = Some (m, EXACT)
                       /\ forall x, N.testbit m (mode_bit x) = allowed mode w x)
  /\ to_mode (mode_to_perms mode) false = mode mod 512.
Proof.
  intros mode. split; [intros w; exact (mode_to_perms_shown mode w)|apply stat_roundtrip_mod].
Qed.
Print Assumptions perms_stat.

(** C83, what applying permissions really does: a permission is present
    afterwards exactly if it was present before or is granted.  Bits outside
    rwxrwxrwx (set-user-id, set-group-id, sticky) are always cleared. *)
Theorem perms_apply_exact : forall q st isdir,
  (forall w x, allowed (chmod_arg q st isdir) w x
               = allowed st w x || grants (effective (Some q) isdir w) x)
  /\ (forall i, 9 <= i -> N.testbit (chmod_arg q st isdir) i = false).
Proof.
  intros q st isdir. unfold chmod_arg. split.
  - intros w x. now rewrite update_mode_allowed, stat_roundtrip.
  - intros i Hi. now rewrite update_mode_high, to_mode_high.
Qed.
Print Assumptions perms_apply_exact.

(** C83: hence the intended result is reached if no permission that is
    present has to go away. *)
Theorem perms_apply_partial : forall q st isdir,
  (forall w x, allowed st w x = true -> after (effective (Some q) isdir w) x true = true) ->
  forall w x, allowed (chmod_arg q st isdir) w x
              = after (effective (Some q) isdir w) x (allowed st w x).
Proof.
  intros q st isdir H w x. rewrite (proj1 (perms_apply_exact q st isdir)). specialize (H w x).
  destruct (effective (Some q) isdir w) as [[m t]|]; [|cbn; now rewrite Bool.orb_false_r].
  destruct (allowed st w x); [specialize (H eq_refl)|clear H];
    destruct t; cbn in *; rewrite ?Bool.orb_false_r; congruence || now symmetry.
Qed.
Print Assumptions perms_apply_partial.
Example perms_apply_partial_ex :
  let q := mkperms None None 0 0 (mkpart true 7 EXACT) (mkpart true 1 ADD) (mkpart true 2 REMOVE)
             part0 part0 part0 in
  forallb (fun w => forallb (fun x =>
     implb (allowed 420 w x) (after (effective (Some q) false w) x true)) [READ; WRITE; EXEC])
    [USER; GROUP; OTHER] = true
  /\ chmod_arg q 420 false = 484. (* 0644 becomes 0744 *)
Proof. split; reflexivity. Qed.

(** C83, and never otherwise: a permission that should be taken away stays. *)
Theorem perms_apply_keeps : forall q st isdir w x,
  allowed st w x = true -> allowed (chmod_arg q st isdir) w x = true.
Proof. intros q st isdir w x H. now rewrite (proj1 (perms_apply_exact q st isdir)), H. Qed.
Print Assumptions perms_apply_keeps.

(** C83 as stated is false: exact permissions 0600 leave a file 0644 as it is,
    removing write for everybody has no effect on 0666, and mode 04755 loses
    its set-user-id bit when nothing at all is to be changed. *)
Theorem perms_apply_refuted :
  (let q := mkperms None None 0 0 (mkpart true 3 EXACT) (mkpart true 0 EXACT) (mkpart true 0 EXACT)
              part0 part0 part0 in
   after (effective (Some q) false OTHER) READ true = false
   /\ chmod_arg q 420 false = 420)
  /\ (let q := mkperms None None 0 0 (mkpart true 2 REMOVE) (mkpart true 2 REMOVE)
                 (mkpart true 2 REMOVE) part0 part0 part0 in
      chmod_arg q 438 false = 438)
  /\ chmod_arg perms_create 2541 false = 493.
Proof. repeat split. Qed.
Print Assumptions perms_apply_refuted.

(** C84: merging follows the documented rule for every class and for the
    directory overrides, NULL on either side gives the other object. *)
Theorem perms_merge_correct : forall d s,
  (exists q, perms_merge (Some d) (Some s) = Some q
     /\ forall dir w, shown (Some q) dir w = merge_change (shown (Some d) dir w) (shown (Some s) dir w))
  /\ perms_merge (Some d) None = Some d /\ perms_merge None (Some s) = Some s.
Proof.
  intros d s. split; [|split; reflexivity].
  eexists. split; [reflexivity|]. intros dir w. eapply merge_shown. reflexivity.
Qed.
Print Assumptions perms_merge_correct.

(** C84: if each change in [d] is absent or exact, having the merged object
    applied is having [d] and then [s] applied (what should be applied; see
    C83 for what chmod is given).  On the directory overrides this needs an
    override in [d] wherever [s] has one. *)
Theorem perms_merge_sequential : forall d s q isdir w x old,
  perms_merge (Some d) (Some s) = Some q ->
  (forall dir m t, shown (Some d) dir w = Some (m, t) -> t = EXACT) ->
  (shown (Some s) true w <> None -> shown (Some d) true w <> None) ->
  (shown (Some d) true w <> None -> isdir = true -> shown (Some s) true w = None ->
     shown (Some s) false w = None) ->
  after (effective (Some q) isdir w) x old
  = after (effective (Some s) isdir w) x (after (effective (Some d) isdir w) x old).
Proof.
  intros d s q isdir w x old E EX OV OV2. unfold effective.
  rewrite !(merge_shown d s _ w q E).
  pose proof (EX true) as E1. pose proof (EX false) as E2.
  assert (SEQ : forall dir, after (merge_change (shown (Some d) dir w) (shown (Some s) dir w)) x old
                 = after (shown (Some s) dir w) x (after (shown (Some d) dir w) x old)).
  { intros dir. apply merge_change_seq. destruct (shown (Some d) dir w) as [[m t]|] eqn:D; [|exact I].
    rewrite (EX dir m t D). exact I. }
  destruct isdir; [|apply SEQ].
  specialize (SEQ true) as ST. specialize (SEQ false) as SF.
  destruct (shown (Some d) true w) as [[md td]|] eqn:D.
  - destruct (shown (Some s) true w) as [[ms ts]|] eqn:Sx.
    + rewrite (E1 md td eq_refl) in *. destruct ts; cbn in *; exact ST.
    + rewrite (OV2 ltac:(discriminate) eq_refl eq_refl). destruct td; reflexivity.
  - destruct (shown (Some s) true w) as [c|] eqn:Sx.
    + exfalso. apply (OV ltac:(discriminate)). reflexivity.
    + cbn. exact SF.
Qed.
Print Assumptions perms_merge_sequential.
Example perms_merge_sequential_ex :
  let d := mkperms None None 0 0 (mkpart true 6 EXACT) part0 part0 (mkpart true 7 EXACT) part0 part0 in
  let s := mkperms None None 0 0 (mkpart true 1 ADD) (mkpart true 2 ADD) part0 (mkpart true 2 REMOVE) part0 part0 in
  exists q, perms_merge (Some d) (Some s) = Some q
  /\ shown (Some q) true USER = Some (5, EXACT) /\ shown (Some q) false USER = Some (7, EXACT)
  /\ shown (Some q) false GROUP = Some (2, ADD).
Proof. eexists. repeat split. Qed.

(** C84: a modifier merged into a modifier replaces it, so two successive
    additions are not both kept (documented). *)
Theorem perms_merge_modifiers_refuted :
  exists d s q, shown (Some d) false USER = Some (1, ADD) /\ shown (Some s) false USER = Some (2, ADD)
  /\ perms_merge (Some d) (Some s) = Some q
  /\ after (effective (Some q) false USER) READ false = false
  /\ after (effective (Some s) false USER) READ (after (effective (Some d) false USER) READ false) = true.
Proof.
  exists (mkperms None None 0 0 (mkpart true 1 ADD) part0 part0 part0 part0 part0),
         (mkperms None None 0 0 (mkpart true 2 ADD) part0 part0 part0 part0 part0).
  eexists. repeat split.
Qed.
Print Assumptions perms_merge_modifiers_refuted.

(** C84: the owner of the source arrives only if the destination already had
    an owner, and even then under the old name. *)
Theorem perms_merge_owner_partial : forall d s q u,
  perms_merge (Some d) (Some s) = Some q -> user s = Some u ->
  get_user (Some q) = get_user (Some d)
  /\ match user d with
     | Some _ => exists g, chown_arg q = Some (Some (uid s), g)
     | None => chown_arg q = None \/ exists g, chown_arg q = Some (None, g)
     end.
Proof.
  intros d s q u E U. cbn in E. injection E as <-. split; [reflexivity|].
  unfold chown_arg; cbn. rewrite U. destruct (user d), (group d); try (left; reflexivity);
    try (right; eexists; reflexivity); eexists; reflexivity.
Qed.
Print Assumptions perms_merge_owner_partial.
(** The identifiers one by one: each comes from the source if the source names one, else from the destination, and is used
    only if the destination names one *)
Theorem perms_merge_ids_partial : forall d s q, perms_merge (Some d) (Some s) = Some q ->
  get_user (Some q) = get_user (Some d) /\ get_group (Some q) = get_group (Some d) /\
  forall u g, chown_arg q = Some (u, g) ->
    u = match user d, user s with None, _ => None | Some _, Some _ => Some (uid s) | Some _, None => Some (uid d) end /\
    g = match group d, group s with None, _ => None | Some _, Some _ => Some (gid s) | Some _, None => Some (gid d) end.
Proof.
  intros d s q E. cbn in E. injection E as <-. split; [reflexivity|]. split; [reflexivity|].
  intros u g. unfold chown_arg; cbn. destruct (user d), (group d), (user s), (group s); intros H; try discriminate; injection H as <- <-; split; reflexivity.
Qed.
Print Assumptions perms_merge_ids_partial.
Theorem perms_merge_owner_refuted :
  exists s q, chown_arg s = Some (Some 1000, None)
  /\ perms_merge (Some perms_create) (Some s) = Some q /\ chown_arg q = None.
Proof.
  exists (mkperms (Some [97]) None 1000 0 part0 part0 part0 part0 part0 part0).
  eexists. repeat split.
Qed.
Print Assumptions perms_merge_owner_refuted.

(** C84: a duplicate shows the same, except that the group's change becomes
    an exact one. *)
Theorem perms_dup_partial : forall q,
  exists r, perms_dup (Some q) = Some r
  /\ get_user (Some r) = get_user (Some q) /\ get_group (Some r) = get_group (Some q)
  /\ chown_arg r = chown_arg q
  /\ (forall w, shown (Some r) true w = shown (Some q) true w)
  /\ (forall w, w <> GROUP -> shown (Some r) false w = shown (Some q) false w)
  /\ shown (Some r) false GROUP
     = match shown (Some q) false GROUP with Some (m, _) => Some (m, EXACT) | None => None end.
Proof.
  intros q. eexists. split; [reflexivity|].
  repeat match goal with |- _ /\ _ => split end; try reflexivity.
  - intros []; reflexivity.
  - intros [] H; try reflexivity. congruence.
  - unfold shown; cbn. destruct (p_set (pg q)); reflexivity.
Qed.
Print Assumptions perms_dup_partial.
Theorem perms_dup_refuted :
  exists q r, perms_dup (Some q) = Some r
  /\ get_type (Some q) GROUP = REMOVE /\ get_type (Some r) GROUP = EXACT
  /\ after (effective (Some q) false GROUP) READ true = false
  /\ after (effective (Some r) false GROUP) READ true = true
  /\ to_mode q false = 0 /\ to_mode r false = 32.
Proof.
  exists (mkperms None None 0 0 part0 (mkpart true 1 REMOVE) part0 part0 part0 part0).
  eexists. repeat split.
Qed.
Print Assumptions perms_dup_refuted.

(** C83: access(2) is asked for exactly the permissions given. *)
Theorem perms_access : forall mode,
  access_arg mode < 8
  /\ N.testbit (access_arg mode) 2 = N.testbit mode (mode_bit READ)
  /\ N.testbit (access_arg mode) 1 = N.testbit mode (mode_bit WRITE)
  /\ N.testbit (access_arg mode) 0 = N.testbit mode (mode_bit EXEC).
Proof.
  intros mode. unfold access_arg. rewrite has_r, has_w, has_x. cbn [mode_bit].
  destruct (N.testbit mode 0), (N.testbit mode 1), (N.testbit mode 2); repeat split.
Qed.
Print Assumptions perms_access.

Example perms_group_case : exists q, set_group (fun _ => Some 50) (Some (mkperms (Some [97]) None 1000 7 part0 part0 part0 part0 part0 part0)) (Some [98]) = (true, Some q)
  /\ chown_arg q = Some (Some 1000, Some 50).
Proof. eexists. split; reflexivity. Qed.
Example perms_merge_ids_case : exists q,
  perms_merge (Some (mkperms (Some [97]) (Some [98]) 1 2 part0 part0 part0 part0 part0 part0))
              (Some (mkperms None (Some [99]) 0 3 part0 part0 part0 part0 part0 part0)) = Some q /\ chown_arg q = Some (Some 1, Some 3).
Proof. eexists. split; reflexivity. Qed.

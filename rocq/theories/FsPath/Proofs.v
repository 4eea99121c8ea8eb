(** Lemmas about m_fs_path.c and m_fs_path_norm.c; the theorems are in Props.v. *)
From Verif Require Import Base.Lib FsPath.Model FsPath.Spec.
Local Open Scope N_scope.

Lemma str_eqb_spec : forall a b, if str_eqb a b then a = b else a <> b.
Proof. intros. unfold str_eqb. destruct (list_eq_dec N.eq_dec a b); auto. Qed.
Lemma str_eqb_true : forall a b, str_eqb a b = true -> a = b.
Proof. intros a b H. generalize (str_eqb_spec a b). rewrite H. auto. Qed.
Lemma str_eqb_false : forall a b, str_eqb a b = false -> a <> b.
Proof. intros a b H. generalize (str_eqb_spec a b). rewrite H. auto. Qed.

Lemma rev_case : forall (A : Type) (l : list A), l = [] \/ exists l' x, l = l' ++ [x].
Proof. intros A l. destruct l using rev_ind; [now left|right; eauto]. Qed.

(** ** Components *)

Lemma split_names_from : forall s cur, filter (fun p => negb (is_nil p)) (split_on 47 s cur) = names_from s cur.
Proof.
  induction s as [|c s IH]; intros cur; cbn [split_on names_from].
  - destruct cur; reflexivity.
  - destruct (c =? 47).
    + cbn [filter]. destruct cur; cbn; rewrite IH; reflexivity.
    + apply IH.
Qed.
Lemma list_split_names : forall s, list_split 47 s = names s.
Proof. intros. apply split_names_from. Qed.

Lemma split_on_none : forall d s cur, ~ In d s -> split_on d s cur = [cur ++ s].
Proof.
  induction s as [|c s IH]; intros cur H; cbn [split_on].
  - now rewrite app_nil_r.
  - destruct (N.eqb_spec c d) as [->|]; [destruct H; now left|].
    rewrite IH by (intro; apply H; now right). now rewrite <- app_assoc.
Qed.
Lemma list_split_none : forall d s, ~ In d s -> s <> [] -> list_split d s = [s].
Proof. intros d s H N. unfold list_split. rewrite split_on_none by auto. destruct s; [congruence|reflexivity]. Qed.

Lemma names_from_in : forall s cur n, In n (names_from s cur) -> n <> [] /\ (forall c, In c n -> In c cur \/ In c s /\ c <> 47).
Proof.
  induction s as [|c s IH]; intros cur n H; cbn [names_from] in H.
  - destruct cur; [destruct H|]. destruct H as [<-|[]]. split; [discriminate|auto].
  - destruct (N.eqb_spec c 47) as [->|E].
    + destruct cur as [|x cur].
      * apply IH in H. destruct H as [A B]. split; auto. intros y Y. destruct (B y Y) as [[]|[? ?]]. right. split; [now right|auto].
      * destruct H as [<-|H]; [split; [discriminate|auto]|]. apply IH in H. destruct H as [A B]. split; auto.
        intros y Y. destruct (B y Y) as [[]|[? ?]]. right. split; [now right|auto].
    + apply IH in H. destruct H as [A B]. split; auto. intros y Y. destruct (B y Y) as [Z|[? ?]].
      * apply in_app_or in Z. destruct Z as [Z|[<-|[]]]; [auto|right; split; [now left|auto]].
      * right. split; [now right|auto].
Qed.
Lemma names_in : forall s n, In n (names s) -> n <> [] /\ ~ In 47 n /\ (forall c, In c n -> In c s).
Proof.
  intros s n H. apply names_from_in in H. destruct H as [A B]. split; [auto|]. split.
  - intros F. destruct (B _ F) as [[]|[? ?]]. congruence.
  - intros c C. destruct (B _ C) as [[]|[? ?]]. auto.
Qed.

Lemma names_from_piece : forall n s cur, ~ In 47 n -> names_from (n ++ s) cur = names_from s (cur ++ n).
Proof.
  induction n as [|c n IH]; intros s cur H; cbn [app].
  - now rewrite app_nil_r.
  - cbn [names_from]. destruct (N.eqb_spec c 47) as [->|]; [destruct H; now left|].
    rewrite IH by (intro; apply H; now right). now rewrite <- app_assoc.
Qed.
Lemma names_cons : forall n s, n <> [] -> ~ In 47 n -> names (n ++ 47 :: s) = n :: names s.
Proof.
  intros n s N H. unfold names. rewrite names_from_piece by auto. cbn [app names_from]. rewrite N.eqb_refl.
  destruct n; [congruence|reflexivity].
Qed.
Lemma names_one : forall n, n <> [] -> ~ In 47 n -> names n = [n].
Proof.
  intros n N H. unfold names. rewrite <- (app_nil_r n) at 1. rewrite names_from_piece by auto. cbn [app names_from].
  destruct n; [congruence|reflexivity].
Qed.
Lemma names_slash : forall s, names (47 :: s) = names s.
Proof. reflexivity. Qed.

Definition piece (n : list N) : Prop := n <> [] /\ ~ In 47 n.
Lemma names_slashed : forall l, Forall piece l -> names (slashed l) = l.
Proof.
  induction l as [|n l IH]; intros H; [reflexivity|]. inversion H as [|? ? [A B] C]; subst. cbn [slashed].
  destruct l as [|m l].
  - now apply names_one.
  - rewrite names_cons by auto. now rewrite IH.
Qed.
Lemma names_pieces : forall s, Forall piece (names s).
Proof. intros. apply Forall_forall. intros n H. apply names_in in H. split; tauto. Qed.

Lemma names_from_app_slash : forall a b cur, names_from (a ++ 47 :: b) cur = names_from a cur ++ names b.
Proof.
  induction a as [|c a IH]; intros b cur; cbn [app names_from].
  - rewrite N.eqb_refl. destruct cur; reflexivity.
  - destruct (c =? 47); [destruct cur; cbn; rewrite IH; reflexivity|apply IH].
Qed.
Lemma names_app_slash : forall a b, names (a ++ 47 :: b) = names a ++ names b.
Proof. intros. apply names_from_app_slash. Qed.

Definition starts (p : list N) : bool := nth_is p 0 47.
Lemma isabs_unix : forall p, isabs p Unix = starts p.
Proof. intros [|c p]; reflexivity. Qed.
Lemma starts_iff : forall p, starts p = true <-> absolute p.
Proof.
  intros p. split.
  - destruct p as [|c p]; [discriminate|]. cbn. intros E. apply N.eqb_eq in E. subst. now exists p.
  - intros [r ->]. reflexivity.
Qed.

Lemma componentize_unix : forall p, ~ In 92 p ->
  componentize p Unix = (if starts p then [[]] else []) ++ names p.
Proof.
  intros p H. unfold componentize. rewrite isabs_unix, list_split_names.
  assert (E : flat_map (list_split 92) (names p) = names p).
  { assert (A : Forall (fun n => list_split 92 n = [n]) (names p)).
    { apply Forall_forall. intros n N. apply names_in in N. destruct N as [A [B C]]. apply list_split_none; auto. }
    induction A as [|n l A _ IH]; cbn [flat_map]; [reflexivity|]. now rewrite A, IH. }
  rewrite E. destruct (starts p); reflexivity.
Qed.

(** ** Joining *)

Lemma join_with_slashed : forall l, join_with 47 l = slashed l.
Proof. induction l as [|n [|m l] IH]; try reflexivity. cbn [join_with slashed] in *. now rewrite IH. Qed.

Lemma slashed_root : forall l, l <> [] -> slashed ([] :: l) = written l.
Proof.
  assert (A : forall l, l <> [] -> 47 :: slashed l = written l).
  { induction l as [|n l IH]; [congruence|]. intros _. cbn [slashed written]. destruct l as [|m l].
    - now rewrite app_nil_r.
    - rewrite <- IH by discriminate. reflexivity. }
  intros [|n l] H; [congruence|]. rewrite <- A by auto. reflexivity.
Qed.

Lemma filter_pieces : forall l, Forall (fun n : list N => n <> []) l -> filter (fun p => negb (is_nil p)) l = l.
Proof. induction 1 as [|n l N _ IH]; [reflexivity|]. cbn [filter]. destruct n; [congruence|]. cbn. now rewrite IH. Qed.

Lemma join_parts_abs : forall l, Forall (fun n : list N => n <> []) l -> join_parts ([] :: l) Unix = Some (abs_path l).
Proof.
  intros l H. unfold join_parts. rewrite filter_pieces by auto. destruct l as [|n l]; [reflexivity|].
  unfold list_join. rewrite join_with_slashed, slashed_root by discriminate. reflexivity.
Qed.
Lemma slashed_nonnil : forall l, Forall (fun n : list N => n <> []) l -> l <> [] -> slashed l <> [].
Proof. intros l H N. destruct H as [|n l A _]; [congruence|]. cbn [slashed]. destruct n; [congruence|]. destruct l; discriminate. Qed.
Lemma join_parts_rel : forall l, Forall (fun n : list N => n <> []) l -> l <> [] -> join_parts l Unix = Some (slashed l).
Proof.
  intros l H N. assert (Q := slashed_nonnil l H N). destruct H as [|n l A B]; [congruence|].
  unfold join_parts. rewrite filter_pieces by auto. destruct n as [|c n]; [congruence|]. cbn [is_nil].
  assert (E : list_join 47 ((c :: n) :: l) = Some (slashed ((c :: n) :: l))).
  { unfold list_join. rewrite join_with_slashed. destruct (slashed ((c :: n) :: l)); [congruence|reflexivity]. }
  destruct l; exact E.
Qed.

Lemma join_parts_some : forall l t, l <> [] -> join_parts l t <> None.
Proof.
  intros [|first l] t H; [congruence|]. unfold join_parts. destruct (filter _ l) as [|m more].
  - destruct first as [|c first]; [destruct t; discriminate|]. cbn [is_nil]. destruct t; [discriminate|]. destruct (isabs _ _); discriminate.
  - destruct t, first; cbn; discriminate.
Qed.

(** ** Environment variables *)

Lemma env_name_none : forall n, ~ env_ref n -> env_name n = None.
Proof.
  intros n H. unfold env_name. destruct n as [|c n]; [reflexivity|]. cbn [nth_is nth_error length].
  destruct (N.eqb_spec c 36) as [->|E]; [destruct H; left; now exists n|].
  rewrite andb_false_r. destruct (N.eqb_spec c 37) as [->|E2]; [|rewrite andb_false_r; reflexivity].
  destruct (Nat.leb_spec 2 (S (length n))); [|reflexivity]. cbn [andb].
  destruct (nth_is (37 :: n) (S (length n) - 1) 37) eqn:L; [|reflexivity]. exfalso. apply H. right.
  destruct (rev_case _ n) as [->|[m [x ->]]]; [cbn in *; lia|]. exists m.
  unfold nth_is in L. rewrite app_length, Nat.sub_succ, Nat.sub_0_r, Nat.add_1_r in L. cbn [nth_error length] in L.
  rewrite nth_error_app2, Nat.sub_diag in L by lia. cbn in L. apply N.eqb_eq in L. now rewrite L.
Qed.
Lemma expand_plain : forall getenv l, Forall (fun n => ~ env_ref n) l -> l <> [] -> expand_env_vars getenv l = Some l.
Proof.
  intros g l H N. unfold expand_env_vars. destruct l; [congruence|]. destruct (existsb _ _); [|reflexivity].
  clear N. revert H. generalize (l :: l0). intros m. induction 1 as [|n m A _ IH]; [reflexivity|].
  cbn [expand_loop]. rewrite env_name_none by auto. rewrite IH. reflexivity.
Qed.
Lemma env_name_refers : forall n x, refers n x -> env_name n = Some x.
Proof.
  intros n x [-> | ->]; unfold env_name; cbn [length]; unfold nth_is; cbn [nth_error].
  - cbn. reflexivity.
  - change (37 =? 36) with false. rewrite andb_false_r. rewrite app_length. cbn [length].
    destruct (Nat.leb_spec 2 (S (length x + 1))); [|lia]. change (37 =? 37) with true. cbn [andb].
    replace (S (length x + 1) - 1)%nat with (S (length x)) by lia. cbn [nth_error]. rewrite nth_error_app2, Nat.sub_diag by lia. cbn [nth_error].
    change (37 =? 37) with true. cbn iota. cbn [skipn]. replace (S (length x + 1) - 2)%nat with (length x) by lia.
    now rewrite firstn_app, Nat.sub_diag, firstn_O, app_nil_r, firstn_all.
Qed.
Lemma refers_ref : forall n x, refers n x -> env_ref n.
Proof. intros n x [-> | ->]; [left; now exists x|right; now exists x]. Qed.
Lemma refers_flag : forall n x, refers n x -> nth_is n 0 36 || nth_is n 0 37 = true.
Proof. intros n x [-> | ->]; reflexivity. Qed.
Lemma expand_loop_subst : forall ge l l', Subst ge l l' -> expand_loop ge l = Some l'.
Proof.
  intros ge. induction 1 as [|n l l' A _ IH|n l l' A _ IH|n x v l l' A B C D _ IH|n x l l' A B C _ IH]; cbn [expand_loop]; [reflexivity| | | |].
  - rewrite env_name_none, IH by auto. reflexivity.
  - now rewrite (env_name_refers _ _ A).
  - rewrite (env_name_refers _ _ A). destruct x; [congruence|]. rewrite C, IH. destruct v; [congruence|reflexivity].
  - rewrite (env_name_refers _ _ A). destruct x; [congruence|]. now rewrite C, IH.
Qed.
Lemma expand_subst : forall ge l l', l <> [] -> Subst ge l l' -> expand_env_vars ge l = Some l'.
Proof.
  intros ge l l' N S. unfold expand_env_vars. destruct l as [|a l]; [congruence|]. destruct (existsb _ (a :: l)) eqn:E; [now apply expand_loop_subst|].
  f_equal. clear N. revert E. induction S as [|n m m' A _ IH|n m m' A _ IH|n x v m m' A B C D _ IH|n x m m' A B C _ IH]; cbn [existsb]; intros E.
  - reflexivity.
  - apply orb_false_iff in E. destruct E as [_ E]. now rewrite IH.
  - rewrite (refers_flag _ _ A) in E. discriminate E.
  - rewrite (refers_flag _ _ A) in E. discriminate E.
  - rewrite (refers_flag _ _ A) in E. discriminate E.
Qed.
Lemma expand_unset : forall ge l n x, In n l -> refers n x -> x <> [] -> ge x = None -> expand_env_vars ge l = None.
Proof.
  intros ge l n x I R X G. unfold expand_env_vars. destruct l as [|a l]; [destruct I|].
  assert (E : existsb (fun p => nth_is p 0 36 || nth_is p 0 37) (a :: l) = true) by (apply existsb_exists; exists n; split; [exact I|now apply (refers_flag n x)]).
  rewrite E. clear E. revert I. generalize (a :: l). intros m. induction m as [|b m IH]; intros I; [destruct I|]. cbn [expand_loop].
  destruct I as [-> | I].
  - rewrite (env_name_refers _ _ R). destruct x; [congruence|]. now rewrite G.
  - rewrite IH by exact I. destruct (env_name b) as [[|c y]|]; [reflexivity| |reflexivity]. destruct (ge (c :: y)) as [[|d v]|]; reflexivity.
Qed.
Lemma not_env_nil : ~ env_ref [].
Proof. intros [[x F]|[x F]]; discriminate. Qed.
Lemma not_env_dots : ~ env_ref dots.
Proof. intros [[x F]|[x F]]; discriminate. Qed.

(** ** The loop without links *)

Lemma step_dot : forall d, step d dot = d. Proof. reflexivity. Qed.
Lemma step_dots : forall d, step d dots = removelast d. Proof. reflexivity. Qed.
Lemma step_other : forall d n, n <> dot -> n <> dots -> step d n = d ++ [n].
Proof. intros d n A B. unfold step. destruct (list_eq_dec N.eq_dec n dot); [congruence|]. destruct (list_eq_dec N.eq_dec n dots); [congruence|reflexivity]. Qed.

(** Parts as a place: an empty part is the root. *)
Definition pstep (d : list (list N)) (n : list N) := if is_nil n then [] else step d n.
Definition den (cwd : list (list N)) (l : list (list N)) := fold_left pstep l cwd.
Lemma den_app : forall l m cwd, den cwd (l ++ m) = den (den cwd l) m.
Proof. intros. unfold den. apply fold_left_app. Qed.
Lemma den_pieces : forall l cwd, Forall (fun n : list N => n <> []) l -> den cwd l = fold_left step l cwd.
Proof. intros l cwd H. revert cwd. induction H as [|n l A _ IH]; intros cwd; [reflexivity|]. cbn. unfold pstep at 2. destruct n; [congruence|]. cbn [is_nil]. apply IH. Qed.

Definition nstep (np : bool) (base : list (list N)) (p : list N) : list (list N) :=
  if negb np && str_eqb p dotdot then remove_parent Unix base
  else if str_eqb p [46] then base else base ++ [p].

Lemma norm_loop_lex : forall rl fl again parts base,
  norm_loop rl Unix fl again false parts base = norm_done Unix (fold_left (nstep (n_noparent fl)) parts base).
Proof.
  intros rl fl again. induction parts as [|p parts IH]; intros base; [reflexivity|]. cbn [norm_loop fold_left].
  unfold nstep at 2. destruct (negb (n_noparent fl) && str_eqb p dotdot); [apply IH|].
  destruct (str_eqb p [46]); apply IH.
Qed.

(** The two shapes of the list of parts done. *)
Inductive shape : list (list N) -> Prop :=
| Sh_abs : forall l, Forall is_name l -> shape ([] :: l)
| Sh_rel : forall k l, Forall is_name l -> shape (repeat dots k ++ l).

Lemma Forall_snoc : forall (A : Type) (P : A -> Prop) l x, Forall P (l ++ [x]) <-> Forall P l /\ P x.
Proof. intros. rewrite Forall_app. split; intros [? H]; split; auto. now inversion H. Qed.
Lemma repeat_snoc : forall (A : Type) (x : A) k, repeat x (S k) = repeat x k ++ [x].
Proof. intros. cbn [repeat]. apply repeat_cons. Qed.

Lemma remove_parent_snoc : forall l x, remove_parent Unix (l ++ [x]) =
  if is_nil x then l ++ [x] else if str_eqb x dotdot then (l ++ [x]) ++ [dotdot] else l.
Proof. intros. unfold remove_parent. rewrite rev_app_distr. cbn [rev app orb]. rewrite removelast_last. reflexivity. Qed.
Lemma is_name_ne : forall n, is_name n -> is_nil n = false /\ str_eqb n dotdot = false /\ str_eqb n [46] = false.
Proof.
  intros n [A [B [C _]]]. split; [destruct n; [congruence|reflexivity]|]. split.
  - generalize (str_eqb_spec n dotdot). destruct (str_eqb n dotdot); auto. intros; contradiction.
  - generalize (str_eqb_spec n [46]). destruct (str_eqb n [46]); auto. intros; contradiction.
Qed.

Lemma remove_parent_abs : forall l, Forall is_name l -> remove_parent Unix ([] :: l) = [] :: removelast l.
Proof.
  intros l H. destruct (rev_case _ l) as [->|[l' [x ->]]]; [reflexivity|].
  change ([] :: l' ++ [x]) with (([] :: l') ++ [x]). rewrite remove_parent_snoc, removelast_last.
  apply Forall_snoc in H. destruct H as [_ H]. apply is_name_ne in H. destruct H as [A [B _]]. now rewrite A, B.
Qed.
Lemma remove_parent_up : forall k, remove_parent Unix (repeat dots k) = repeat dots (S k).
Proof. intros [|k]; [reflexivity|]. rewrite (repeat_snoc _ dots (S k)), (repeat_snoc _ dots k). rewrite remove_parent_snoc. reflexivity. Qed.

Lemma Forall_removelast : forall (A : Type) (P : A -> Prop) l, Forall P l -> Forall P (removelast l).
Proof. intros A P l H. destruct (rev_case _ l) as [->|[l' [x ->]]]; [constructor|]. rewrite removelast_last. now apply Forall_snoc in H. Qed.

Lemma shape_nstep : forall base p, shape base -> piece p -> shape (nstep false base p).
Proof.
  intros base p S [N1 N2]. unfold nstep. cbn [negb andb]. generalize (str_eqb_spec p dotdot). destruct (str_eqb p dotdot); intros E.
  - destruct S as [l H|k l H].
    + rewrite remove_parent_abs by auto. constructor. now apply Forall_removelast.
    + destruct (rev_case _ l) as [->|[l' [x ->]]].
      * rewrite app_nil_r, remove_parent_up. rewrite <- (app_nil_r (repeat dots _)). constructor. constructor.
      * rewrite app_assoc, remove_parent_snoc. apply Forall_snoc in H. destruct H as [H1 H]. apply is_name_ne in H.
        destruct H as [A [B _]]. rewrite A, B. now constructor.
  - generalize (str_eqb_spec p [46]). destruct (str_eqb p [46]); intros E2; [exact S|].
    assert (N : is_name p) by (split; [auto|]; split; [exact E2|]; split; [exact E|auto]).
    destruct S as [l H|k l H].
    + change (([] :: l) ++ [p]) with ([] :: l ++ [p]). constructor. apply Forall_snoc. auto.
    + rewrite <- app_assoc. constructor. apply Forall_snoc. auto.
Qed.

Lemma den_snoc_name : forall cwd l n, is_name n -> den cwd (l ++ [n]) = den cwd l ++ [n].
Proof.
  intros cwd l n H. rewrite den_app. destruct H as [A [B [C _]]]. cbn. unfold pstep. destruct n; [congruence|]. cbn [is_nil]. now apply step_other.
Qed.
Lemma den_snoc_dots : forall cwd l, den cwd (l ++ [dots]) = removelast (den cwd l).
Proof. intros. rewrite den_app. reflexivity. Qed.

Lemma den_nstep : forall base p cwd, shape base -> piece p -> den cwd (nstep false base p) = pstep (den cwd base) p.
Proof.
  intros base p cwd S [N1 N2]. unfold nstep. cbn [negb andb].
  assert (PS : forall d, pstep d p = step d p) by (intros; unfold pstep; destruct p; [congruence|reflexivity]).
  rewrite PS. generalize (str_eqb_spec p dotdot). destruct (str_eqb p dotdot); intros E.
  - subst p. rewrite step_dots. destruct S as [l H|k l H].
    + rewrite remove_parent_abs by auto. destruct (rev_case _ l) as [->|[l' [x ->]]]; [reflexivity|].
      rewrite removelast_last. change ([] :: l' ++ [x]) with (([] :: l') ++ [x]).
      rewrite den_snoc_name by (now apply Forall_snoc in H). now rewrite removelast_last.
    + destruct (rev_case _ l) as [->|[l' [x ->]]].
      * rewrite !app_nil_r, remove_parent_up, repeat_snoc. apply den_snoc_dots.
      * rewrite app_assoc, remove_parent_snoc. apply Forall_snoc in H. destruct H as [H1 H]. assert (Hx := H). apply is_name_ne in H.
        destruct H as [A [B _]]. rewrite A, B. rewrite den_snoc_name by auto. now rewrite removelast_last.
  - generalize (str_eqb_spec p [46]). destruct (str_eqb p [46]); intros E2; [now subst|].
    rewrite step_other by auto. apply den_snoc_name. split; [auto|]. split; [exact E2|]. split; [exact E|auto].
Qed.

Lemma fold_shape : forall parts base, shape base -> Forall piece parts ->
  shape (fold_left (nstep false) parts base) /\
  (forall cwd, den cwd (fold_left (nstep false) parts base) = den cwd (base ++ parts)).
Proof.
  induction parts as [|p parts IH]; intros base S F; cbn [fold_left].
  - split; auto. intros. now rewrite app_nil_r.
  - inversion F as [|? ? P F']; subst. destruct (IH (nstep false base p) (shape_nstep _ _ S P) F') as [A B]. split; auto.
    intros cwd. rewrite B, !den_app. rewrite den_nstep by auto. reflexivity.
Qed.

Lemma shape_nil : shape [].
Proof. change (@nil (list N)) with (repeat dots 0 ++ []). constructor. constructor. Qed.

(** ** From the parts to the string *)

Lemma dots_piece : piece dots. Proof. split; [discriminate|]. intros [F|[F|[]]]; discriminate F. Qed.
Lemma is_name_piece : forall n, is_name n -> piece n. Proof. intros n [A [_ [_ B]]]. split; auto. Qed.
Lemma rel_pieces : forall k l, Forall is_name l -> Forall piece (repeat dots k ++ l).
Proof.
  intros k l H. apply Forall_app. split.
  - apply Forall_forall. intros n N. apply repeat_spec in N. subst. apply dots_piece.
  - eapply Forall_impl; [|exact H]. apply is_name_piece.
Qed.
Lemma pieces_ne : forall l, Forall piece l -> Forall (fun n : list N => n <> []) l.
Proof. intros l H. eapply Forall_impl; [|exact H]. intros n [A _]; exact A. Qed.

(** The text of a list of parts. *)
Definition text (base : list (list N)) : list N :=
  match base with [] => [46] | [[]] => [47] | _ => slashed base end.

Lemma names_written : forall l, Forall piece l -> names (written l) = l.
Proof.
  induction l as [|n l IH]; intros H; [reflexivity|]. inversion H as [|? ? [A B] C]; subst. cbn [written]. rewrite names_slash.
  destruct l as [|m l]; [cbn [written]; rewrite app_nil_r; now apply names_one|].
  specialize (IH C). cbn [written] in IH |- *. rewrite names_slash in IH. rewrite names_cons by auto. now rewrite IH.
Qed.
Lemma names_abs_path : forall l, Forall piece l -> names (abs_path l) = l.
Proof. intros [|n l] H; [reflexivity|]. unfold abs_path. now apply names_written. Qed.
Lemma abs_path_slash : forall l, exists r, abs_path l = 47 :: r.
Proof. intros [|n l]; [now exists []|]. cbn. eauto. Qed.

Lemma slashed_start : forall l, Forall piece l -> starts (slashed l) = false.
Proof.
  intros [|n l] H; [reflexivity|]. inversion H as [|? ? [A B] C]; subst. destruct n as [|c n]; [congruence|].
  assert (E : c <> 47) by (intros ->; apply B; now left).
  cbn [slashed]. destruct l; unfold starts, nth_is; cbn; now apply N.eqb_neq.
Qed.
Lemma place_rel : forall cwd p, starts p = false -> place cwd p = fold_left step (names p) cwd.
Proof.
  intros cwd p H. unfold place. destruct p as [|c p]; [reflexivity|]. unfold starts, nth_is in H. cbn in H. apply N.eqb_neq in H.
  assert (E : match c :: p with 47 :: _ => @nil (list N) | _ => cwd end = cwd).
  { repeat match goal with |- context[match ?x with _ => _ end] => destruct x; try reflexivity end. congruence. }
  now rewrite E.
Qed.
Lemma place_abs : forall cwd r, place cwd (47 :: r) = fold_left step (names r) [].
Proof. reflexivity. Qed.
Lemma place_den : forall cwd p, place cwd p = den cwd ((if starts p then [[]] else []) ++ names p).
Proof.
  intros cwd p. rewrite den_app, (den_pieces (names p)) by (apply pieces_ne, names_pieces). destruct (starts p) eqn:S.
  - apply starts_iff in S. destruct S as [r ->]. reflexivity.
  - rewrite place_rel by auto. reflexivity.
Qed.

Lemma norm_done_abs : forall l, Forall piece l -> norm_done Unix ([] :: l) = Ok (inr (abs_path l)).
Proof. intros l H. unfold norm_done. rewrite join_parts_abs by (now apply pieces_ne). reflexivity. Qed.
Lemma norm_done_rel : forall l, Forall piece l -> norm_done Unix l = Ok (inr (match l with [] => dot | _ => slashed l end)).
Proof. intros l H. unfold norm_done. destruct l as [|n l]; [reflexivity|]. rewrite join_parts_rel by (try discriminate; now apply pieces_ne). reflexivity. Qed.

Lemma shape_out : forall base, shape base -> exists out, norm_done Unix base = Ok (inr out) /\ Canonical out /\
  (forall cwd, place cwd out = den cwd base).
Proof.
  intros base [l H|k l H].
  - exists (abs_path l). assert (P : Forall piece l) by (eapply Forall_impl; [|exact H]; apply is_name_piece).
    split; [now apply norm_done_abs|]. split; [now constructor|]. intros cwd. rewrite place_den.
    destruct (abs_path_slash l) as [r E]. rewrite names_abs_path by auto. rewrite E. reflexivity.
  - assert (P := rel_pieces k l H). exists (match repeat dots k ++ l with [] => dot | _ => slashed (repeat dots k ++ l) end).
    split; [now apply norm_done_rel|]. destruct (repeat dots k ++ l) as [|n m] eqn:E.
    + split; [constructor|]. intros cwd. reflexivity.
    + split; [rewrite <- E; constructor; [auto|rewrite E; discriminate]|]. intros cwd. rewrite place_den, names_slashed, slashed_start by auto. reflexivity.
Qed.

(** ** The whole function without links *)

Definition no_links : list N -> bool -> fserr + option (list N) := fun _ _ => inr None.
Lemma norm_sep_unix : forall pm p, (length p < pm)%nat -> norm_sep pm Unix p = Some p.
Proof.
  intros pm p H. unfold norm_sep. destruct (Nat.leb_spec pm (length p)); [lia|]. f_equal. rewrite map_id. reflexivity.
Qed.

Definition parts_of (p : list N) : list (list N) := (if starts p then [[]] else []) ++ names p.
Lemma names_from_cur : forall s c cur, names_from s (c :: cur) <> [].
Proof. induction s as [|x s IH]; intros c cur; cbn [names_from]; [discriminate|]. destruct (x =? 47); [discriminate|]. cbn [app]. apply IH. Qed.
Lemma parts_of_ne : forall p, p <> [] -> parts_of p <> [].
Proof.
  intros p H. unfold parts_of. destruct (starts p) eqn:S; [discriminate|]. cbn [app]. destruct p as [|c p]; [congruence|].
  unfold starts, nth_is in S. cbn in S. unfold names. cbn [names_from]. rewrite S. apply names_from_cur.
Qed.
Lemma plain_parts : forall p, plain p -> Forall (fun n => ~ env_ref n) (parts_of p).
Proof. intros p [_ H]. unfold parts_of. apply Forall_app. split; auto. destruct (starts p); constructor; auto using not_env_nil. Qed.

Lemma norm_int_open : forall f pm ge home cwd rl fl p seen follow,
  p <> [] -> (length p < pm)%nat -> plain p -> (length seen < max_redirects)%nat -> existsb (str_eqb p) seen = false ->
  norm_int pm ge home cwd rl Unix fl (S f) (Some p) seen follow =
  match (if n_home fl then norm_home home Unix (parts_of p) else Some (parts_of p)) with
  | None => Ok (inl ErrGeneric)
  | Some parts =>
    match (if n_absolute fl then norm_abs cwd Unix parts else Some parts) with
    | None => Ok (inl ErrGeneric)
    | Some parts => norm_loop rl Unix fl (fun path' => norm_int pm ge home cwd rl Unix fl f path' (p :: seen) follow) follow parts []
    end
  end.
Proof.
  intros f pm ge home cwd rl fl p seen follow N L P SN SE. cbn [norm_int]. destruct p as [|c p]; [congruence|].
  destruct (Nat.leb_spec max_redirects (length seen)); [lia|]. rewrite SE. cbn [orb]. rewrite norm_sep_unix by auto.
  rewrite componentize_unix by apply P. fold (parts_of (c :: p)).
  rewrite expand_plain by (auto using plain_parts, parts_of_ne). reflexivity.
Qed.

Lemma path_norm_lex : forall pm ge home cwd rl fl p,
  p <> [] -> (length p < pm)%nat -> plain p -> n_follow fl = false -> n_home fl = false -> n_absolute fl = false ->
  path_norm pm ge home cwd rl Unix fl p = norm_done Unix (fold_left (nstep (n_noparent fl)) (parts_of p) []).
Proof.
  intros pm ge home cwd rl fl p N L P F H A. unfold path_norm. change (max_redirects + 2)%nat with (S (max_redirects + 1)).
  rewrite norm_int_open by (auto; unfold max_redirects; cbn; lia). rewrite H, A, F. apply norm_loop_lex.
Qed.

Lemma shape_root : shape [[]].
Proof. constructor. constructor. Qed.
Definition base_of (p : list N) := fold_left (nstep false) (parts_of p) [].
Lemma base_of_spec : forall p, shape (base_of p) /\ (forall cwd, den cwd (base_of p) = place cwd p).
Proof.
  intros p. unfold base_of, parts_of.
  destruct (starts p) eqn:S; cbn [app fold_left].
  - change (nstep false [] []) with [@nil N]. destruct (fold_shape (names p) [[]] shape_root (names_pieces p)) as [A B]. split; auto.
    intros cwd. rewrite B, place_den, S. reflexivity.
  - destruct (fold_shape (names p) [] shape_nil (names_pieces p)) as [A B]. split; auto.
    intros cwd. rewrite B, place_den, S. reflexivity.
Qed.

(** ** Equal meaning, equal spelling *)

Lemma long_name : forall l : list (list N), exists x, is_name x /\ ~ In x l.
Proof.
  intros l. set (m := fold_right (fun n a => Nat.max (length n) a) 3%nat l).
  assert (M : forall n, In n l -> (length n <= m)%nat).
  { unfold m. clear. induction l as [|a l IH]; intros n H; [destruct H|]. cbn [fold_right]. destruct H as [<-|H]; [lia|]. specialize (IH n H). lia. }
  assert (M3 : (3 <= m)%nat) by (unfold m; clear; induction l; cbn [fold_right]; lia).
  exists (repeat 97 (S m)). split.
  - split; [discriminate|]. split; [destruct m as [|[|[|m]]]; [lia|lia|lia|discriminate]|]. split; [destruct m as [|[|[|m]]]; [lia|lia|lia|discriminate]|].
    intros F. apply repeat_spec in F. discriminate.
  - intros F. apply M in F. rewrite repeat_length in F. lia.
Qed.

Lemma removelast_repeat : forall (x : list N) n, removelast (repeat x n) = repeat x (n - 1).
Proof. intros x [|n]; [reflexivity|]. rewrite repeat_snoc, removelast_last. f_equal. lia. Qed.
Lemma den_ups : forall k (x : list N) n, den (repeat x n) (repeat dots k) = repeat x (n - k).
Proof.
  induction k as [|k IH]; intros x n; [cbn; f_equal; lia|]. rewrite repeat_snoc, den_snoc_dots, IH, removelast_repeat. f_equal. lia.
Qed.
Lemma den_names : forall l cwd, Forall is_name l -> den cwd l = cwd ++ l.
Proof.
  intros l cwd H. induction l as [|n l IH] using rev_ind; [cbn; now rewrite app_nil_r|].
  apply Forall_snoc in H. destruct H as [A B]. rewrite den_snoc_name by auto. rewrite IH by auto. now rewrite app_assoc.
Qed.
Lemma repeat_front : forall (x : list N) a b l m, ~ In x l -> ~ In x m -> repeat x a ++ l = repeat x b ++ m -> a = b /\ l = m.
Proof.
  induction a as [|a IH]; intros [|b] l m HL HM E; cbn [repeat app] in E.
  - auto.
  - exfalso. apply HL. rewrite E. now left.
  - exfalso. apply HM. rewrite <- E. now left.
  - injection E as E. destruct (IH _ _ _ HL HM E). split; congruence.
Qed.

Lemma shape_unique : forall b c, shape b -> shape c -> (forall cwd, den cwd b = den cwd c) -> b = c.
Proof.
  intros b c B C E.
  destruct B as [l H|k l H]; destruct C as [l' H'|k' l' H'].
  - specialize (E []). cbn [den fold_left] in E. change (den [] l = den [] l') in E. rewrite !den_names in E by auto. cbn in E. congruence.
  - exfalso. destruct (long_name (l ++ l')) as [x [_ X]]. specialize (E (repeat x (S k'))).
    change (den [] l = den (repeat x (S k')) (repeat dots k' ++ l')) in E. rewrite den_app, den_ups, !den_names in E by auto.
    apply X. cbn [app] in E. rewrite E. apply in_or_app. left. apply in_or_app. left. replace (S k' - k')%nat with 1%nat by lia. now left.
  - exfalso. destruct (long_name (l ++ l')) as [x [_ X]]. specialize (E (repeat x (S k))).
    change (den (repeat x (S k)) (repeat dots k ++ l) = den [] l') in E. rewrite den_app, den_ups, !den_names in E by auto.
    apply X. cbn [app] in E. rewrite <- E. apply in_or_app. right. apply in_or_app. left. replace (S k - k)%nat with 1%nat by lia. now left.
  - destruct (long_name (l ++ l')) as [x [_ X]]. specialize (E (repeat x (k + k'))).
    rewrite !den_app, !den_ups, !den_names in E by auto.
    apply repeat_front in E; [|intros F; apply X; apply in_or_app; auto|intros F; apply X; apply in_or_app; auto].
    destruct E as [E ->]. f_equal. f_equal. lia.
Qed.

(** ** The result is no longer than the path and is plain again *)

Fixpoint cost (l : list (list N)) : nat := match l with [] => 0 | n :: l' => length n + 1 + cost l' end%nat.
Lemma cost_app : forall l m, cost (l ++ m) = (cost l + cost m)%nat.
Proof. induction l as [|n l IH]; intros m; cbn [app cost]; [lia|]. rewrite IH. lia. Qed.
Lemma slashed_length : forall l, l <> [] -> (length (slashed l) + 1 = cost l)%nat.
Proof.
  induction l as [|n l IH]; [congruence|]. intros _. destruct l as [|m l]; [cbn [slashed cost]; lia|].
  change (slashed (n :: m :: l)) with (n ++ 47 :: slashed (m :: l)). rewrite app_length. cbn [length].
  change (cost (n :: m :: l)) with (length n + 1 + cost (m :: l))%nat. rewrite <- IH by discriminate. lia.
Qed.
Lemma names_from_cost : forall s cur, (cost (names_from s cur) <= length cur + length s + 1)%nat.
Proof.
  induction s as [|c s IH]; intros cur; cbn [names_from].
  - destruct cur; cbn [cost length]; lia.
  - destruct (c =? 47).
    + specialize (IH []). cbn [length] in IH |- *. destruct cur; cbn [cost length]; lia.
    + specialize (IH (cur ++ [c])). rewrite app_length in IH. cbn [length] in *. lia.
Qed.
Lemma parts_cost : forall p, (cost (parts_of p) <= length p + 1)%nat.
Proof.
  intros p. unfold parts_of. destruct (starts p) eqn:S.
  - apply starts_iff in S. destruct S as [r ->]. rewrite names_slash. cbn [app cost length]. generalize (names_from_cost r []). unfold names. cbn [length]. lia.
  - apply (names_from_cost p []).
Qed.
Lemma cost_removelast : forall l, (cost (removelast l) <= cost l)%nat.
Proof. intros l. destruct (rev_case _ l) as [->|[l' [x ->]]]; [cbn; lia|]. rewrite removelast_last, cost_app. lia. Qed.
Lemma nstep_cost : forall base p, (cost (nstep false base p) <= cost base + length p + 1)%nat.
Proof.
  intros base p. unfold nstep. cbn [negb andb]. generalize (str_eqb_spec p dotdot). destruct (str_eqb p dotdot); intros E.
  - subst p. unfold remove_parent. destruct (rev base); [cbn; lia|]. cbn [orb]. destruct (is_nil l); [lia|].
    destruct (str_eqb l dotdot); [rewrite cost_app; cbn [cost]; lia|]. generalize (cost_removelast base). lia.
  - destruct (str_eqb p [46]); [lia|]. rewrite cost_app. cbn [cost]. lia.
Qed.
Lemma fold_cost : forall parts base, (cost (fold_left (nstep false) parts base) <= cost base + cost parts)%nat.
Proof.
  induction parts as [|p parts IH]; intros base; cbn [fold_left cost]; [lia|].
  specialize (IH (nstep false base p)). generalize (nstep_cost base p). lia.
Qed.

Lemma nstep_in : forall base p n, In n (nstep false base p) -> In n base \/ n = p \/ n = dots.
Proof.
  intros base p n. unfold nstep. cbn [negb andb]. destruct (str_eqb p dotdot).
  - unfold remove_parent. destruct (rev base); [intros [<-|[]]; auto|]. cbn [orb]. destruct (is_nil l); [auto|].
    destruct (str_eqb l dotdot).
    + intros H. apply in_app_or in H. destruct H as [H|[<-|[]]]; auto.
    + intros H. left. destruct (rev_case _ base) as [->|[b [x ->]]]; [destruct H|]. rewrite removelast_last in H. apply in_or_app. auto.
  - destruct (str_eqb p [46]); [auto|]. intros H. apply in_app_or in H. destruct H as [H|[<-|[]]]; auto.
Qed.
Lemma fold_in : forall parts base n, In n (fold_left (nstep false) parts base) -> In n base \/ In n parts \/ n = dots.
Proof.
  induction parts as [|p parts IH]; intros base n H; cbn [fold_left] in H; [auto|].
  apply IH in H. destruct H as [H|[H| ->]]; [|right; left; now right|auto]. apply nstep_in in H.
  destruct H as [H|[->|H]]; [auto|right; left; now left|auto].
Qed.

Lemma slashed_chars : forall l c, In c (slashed l) -> c = 47 \/ exists n, In n l /\ In c n.
Proof.
  induction l as [|n l IH]; intros c H; [destruct H|]. destruct l as [|m l].
  - right. exists n. split; [now left|exact H].
  - change (slashed (n :: m :: l)) with (n ++ 47 :: slashed (m :: l)) in H. apply in_app_or in H. destruct H as [H|[<-|H]]; [right; exists n; split; [now left|auto]|auto|].
    apply IH in H. destruct H as [H|[x [X H]]]; [auto|]. right. exists x. split; [now right|auto].
Qed.

Lemma text_done : forall b, shape b -> norm_done Unix b = Ok (inr (text b)) /\ parts_of (text b) = (match b with [] => [dot] | _ => b end).
Proof.
  intros b [l H|k l H].
  - assert (P : Forall piece l) by (eapply Forall_impl; [|exact H]; apply is_name_piece). rewrite norm_done_abs by auto.
    assert (E : text ([] :: l) = abs_path l) by (destruct l; [reflexivity|]; unfold text; rewrite slashed_root by discriminate; reflexivity).
    rewrite E. split; [reflexivity|]. unfold parts_of. rewrite names_abs_path by auto. destruct (abs_path_slash l) as [r ->]. reflexivity.
  - assert (P := rel_pieces k l H). rewrite norm_done_rel by auto. destruct (repeat dots k ++ l) as [|n m]; [split; reflexivity|].
    assert (E : text (n :: m) = slashed (n :: m)) by (inversion P as [|? ? [A _] _]; destruct n; [congruence|reflexivity]).
    rewrite E. split; [reflexivity|]. unfold parts_of. rewrite names_slashed, slashed_start by auto. reflexivity.
Qed.
Lemma text_length : forall p, p <> [] -> (length (text (base_of p)) <= length p)%nat.
Proof.
  intros p N. assert (C := fold_cost (parts_of p) []). fold (base_of p) in C. generalize (parts_cost p). intros D. cbn [cost] in C.
  assert (1 <= length p)%nat by (destruct p; [congruence|cbn; lia]).
  destruct (base_of p) as [|n b] eqn:E; [cbn; lia|].
  assert (T : (length (text (n :: b)) <= 1 \/ text (n :: b) = slashed (n :: b))%nat) by (destruct n; [destruct b; [left; cbn; lia|now right]|now right]).
  destruct T as [T| ->]; [lia|]. generalize (slashed_length (n :: b)). intros Q. specialize (Q ltac:(discriminate)). lia.
Qed.
Lemma text_plain : forall p, plain p -> plain (text (base_of p)).
Proof.
  intros p P. assert (S := proj1 (base_of_spec p)). assert (T := proj2 (text_done _ S)).
  assert (A : forall n, In n (base_of p) -> In n (parts_of p) \/ n = dots).
  { intros n H. apply fold_in in H. destruct H as [[]|H]. auto. }
  split.
  - intros F. assert (G : In 92 (slashed (base_of p))) by (destruct (base_of p) as [|[|c n] [|m b]]; try exact F; cbn in F; destruct F as [F|[]]; discriminate F).
    apply slashed_chars in G. destruct G as [G|[n [G1 G2]]]; [discriminate G|]. apply A in G1. destruct G1 as [G1| ->]; [|destruct G2 as [G2|[G2|[]]]; discriminate G2].
    unfold parts_of in G1. apply in_app_or in G1. destruct G1 as [G1|G1]; [destruct (starts p); [destruct G1 as [<-|[]]; destruct G2|destruct G1]|].
    apply names_in in G1. destruct P as [P _]. apply P. now apply G1.
  - apply Forall_forall. intros n H. assert (H' : In n (parts_of (text (base_of p)))) by (apply in_or_app; auto). rewrite T in H'.
    destruct (base_of p) as [|x b] eqn:E.
    + destruct H' as [<-|[]]. intros [[x F]|[x F]]; discriminate F.
    + apply A in H'. destruct H' as [H'| ->]; [|apply not_env_dots]. assert (Q := plain_parts p P). rewrite Forall_forall in Q. now apply Q.
Qed.
Lemma text_ne : forall b, shape b -> text b <> [].
Proof.
  intros b S E. apply text_done in S. destruct S as [_ S]. rewrite E in S. destruct b; discriminate S.
Qed.
Lemma base_of_text : forall p, base_of (text (base_of p)) = base_of p.
Proof.
  intros p. destruct (base_of_spec p) as [A B]. destruct (base_of_spec (text (base_of p))) as [C D]. apply shape_unique; auto.
  intros cwd. rewrite D, place_den. fold (parts_of (text (base_of p))). rewrite (proj2 (text_done _ A)). destruct (base_of p); reflexivity.
Qed.

(** ** It always ends, for every file system *)

Lemma norm_done_ok : forall t base, exists r, norm_done t base = Ok r.
Proof.
  intros t base. unfold norm_done. destruct base as [|n b]; [eauto|].
  destruct (join_parts (n :: b) t) eqn:E; [eauto|]. exfalso. revert E. apply join_parts_some. discriminate.
Qed.
Lemma norm_loop_ok : forall rl t fl again follow, (forall p, exists r, again p = Ok r) -> forall parts base, exists r,
  norm_loop rl t fl again follow parts base = Ok r.
Proof.
  intros rl t fl again follow A. induction parts as [|p parts IH]; intros base; cbn [norm_loop]; [apply norm_done_ok|].
  destruct (negb _ && _); [apply IH|]. destruct (str_eqb p [46]); [apply IH|]. destruct follow; [|apply IH].
  destruct (norm_symlink _ _ _ _) as [e|[q|]]; [eauto|apply A|apply IH].
Qed.
Lemma norm_int_ok : forall pm ge home cwd rl t fl f p seen follow, (max_redirects < f + length seen)%nat -> (0 < f)%nat ->
  exists r, norm_int pm ge home cwd rl t fl f p seen follow = Ok r.
Proof.
  intros pm ge home cwd rl t fl. induction f as [|f IH]; intros p seen follow H F; [lia|]. cbn [norm_int].
  destruct p as [[|c p]|]; [eauto| |eauto]. destruct (Nat.leb_spec max_redirects (length seen)) as [G|G]; [cbn [orb]; eauto|]. cbn [orb].
  destruct (existsb _ seen); [eauto|]. destruct (norm_sep pm t (c :: p)); [|eauto].
  destruct (expand_env_vars ge _); [|eauto]. destruct (if n_home fl then _ else _); [|eauto]. destruct (if n_absolute fl then _ else _); [|eauto].
  apply norm_loop_ok. intros q. apply IH; cbn [length]; unfold max_redirects in *; lia.
Qed.

(** ** Links *)

Lemma Walk_det : forall link d l e k, Walk link d l e k -> forall e' k', Walk link d l e' k' -> e = e' /\ k = k'.
Proof.
  intros link. induction 1; intros e' k' H'; inversion H'; subst; try (split; reflexivity); try contradiction; auto;
    try (exfalso; match goal with H : ?a <> ?a |- _ => now apply H end);
    match goal with A : link ?x = _, B : link ?x = _ |- _ => rewrite A in B; try discriminate B; injection B as B; subst end;
    try contradiction; match goal with A : Walk _ _ _ e' _ |- _ => apply IHWalk in A; destruct A as [? ?]; subst; split; reflexivity end.
Qed.

Definition clean (link : list (list N) -> option (list N)) (d : list (list N)) : Prop :=
  forall a n b, d = a ++ n :: b -> link (a ++ [n]) = None.
Lemma clean_snoc : forall link d n, clean link d -> link (d ++ [n]) = None -> clean link (d ++ [n]).
Proof.
  intros link d n C L a m b E. destruct (rev_case _ b) as [->|[b' [x ->]]].
  - apply app_inj_tail in E. destruct E as [-> ->]. exact L.
  - rewrite app_comm_cons, app_assoc in E. apply app_inj_tail in E. destruct E as [-> _]. eapply C. reflexivity.
Qed.
Lemma clean_removelast : forall link d, clean link d -> clean link (removelast d).
Proof.
  intros link d C. destruct (rev_case _ d) as [->|[d' [x ->]]]; [exact C|]. rewrite removelast_last.
  intros a n b E. apply (C a n (b ++ [x])). rewrite E. now rewrite <- app_assoc.
Qed.
Lemma Walk_clean : forall link d d0 r e k, Forall is_name d -> clean link (d0 ++ d) -> Walk link d0 (d ++ r) e k -> Walk link (d0 ++ d) r e k.
Proof.
  intros link. induction d as [|n d IH]; intros d0 r e k F C W; [now rewrite app_nil_r|].
  inversion F as [|? ? [N1 [N2 [N3 N4]]] F']; subst. assert (L : link (d0 ++ [n]) = None) by (eapply C; reflexivity).
  replace (d0 ++ n :: d) with ((d0 ++ [n]) ++ d) in * by (rewrite <- app_assoc; reflexivity).
  cbn [app] in W. inversion W; subst; try congruence. apply IH; auto.
Qed.

Definition good (n : list N) : Prop := n <> [] /\ ~ In 47 n /\ ~ In 92 n /\ ~ env_ref n.
Lemma plain_good : forall p, plain p -> Forall good (names p).
Proof.
  intros p [A B]. apply Forall_forall. intros n H. rewrite Forall_forall in B. specialize (B n H). apply names_in in H.
  destruct H as [H1 [H2 H3]]. split; [auto|]. split; [auto|]. split; [|auto]. intros F. apply A. now apply H3.
Qed.
Lemma good_piece : forall l, Forall good l -> Forall piece l.
Proof. intros l H. eapply Forall_impl; [|exact H]. intros n [A [B _]]. split; auto. Qed.
Lemma written_chars : forall l c, In c (written l) -> c = 47 \/ exists n, In n l /\ In c n.
Proof.
  induction l as [|n l IH]; intros c H; [destruct H|]. cbn [written] in H. destruct H as [<-|H]; [auto|]. apply in_app_or in H.
  destruct H as [H|H]; [right; exists n; split; [now left|auto]|]. apply IH in H. destruct H as [H|[m [M H]]]; [auto|]. right. exists m. split; [now right|auto].
Qed.
Lemma good_plain : forall l, Forall good l -> plain (abs_path l).
Proof.
  intros l H. split.
  - intros F. assert (G : In 92 (written l)) by (destruct l; [destruct F as [F|[]]; discriminate F|exact F]).
    apply written_chars in G. destruct G as [G|[n [G1 G2]]]; [discriminate G|]. rewrite Forall_forall in H. apply H in G1. destruct G1 as [_ [_ [G1 _]]]. now apply G1.
  - rewrite names_abs_path by (now apply good_piece). eapply Forall_impl; [|exact H]. intros n [_ [_ [_ X]]]. exact X.
Qed.
Lemma parts_abs_path : forall l, Forall good l -> parts_of (abs_path l) = [] :: l.
Proof. intros l H. unfold parts_of. rewrite names_abs_path by (now apply good_piece). destruct (abs_path_slash l) as [r ->]. reflexivity. Qed.

Section Links.
Variable link : list (list N) -> option (list N).
Variable rl : list N -> bool -> fserr + option (list N).
Hypothesis rl_link : forall d last r, Forall is_name d -> rl (abs_path d) last = inr r -> r = link d.
Hypothesis link_root : link [] = None.
Hypothesis link_plain : forall d s, link d = Some s -> plain s.
Variables (pm : nat) (ge : list N -> option (list N)) (home cwd : option (list N)) (fl : nflags).
Hypothesis parent : n_noparent fl = false.

Definition good_out (l : list (list N)) (out : list N) : Prop :=
  exists e k, Walk link [] l e k /\ out = abs_path e /\ Forall is_name e /\ clean link e.

Lemma loop_walk : forall again parts d out,
  (forall l out, Forall good l -> again (Some (abs_path l)) = Ok (inr out) -> good_out l out) ->
  Forall good parts -> Forall good d -> Forall is_name d -> clean link d ->
  norm_loop rl Unix fl again true parts ([] :: d) = Ok (inr out) ->
  exists e k, Walk link d parts e k /\ out = abs_path e /\ Forall is_name e /\ clean link e.
Proof.
  intros again. induction parts as [|p parts IH]; intros d out A GP GD ND C H; cbn [norm_loop] in H.
  - rewrite norm_done_abs in H by (now apply good_piece). injection H as <-. exists d, 0%nat. split; [constructor|auto].
  - inversion GP as [|? ? GPp GP']; subst. rewrite parent in H. cbn [negb andb] in H.
    generalize (str_eqb_spec p dotdot). destruct (str_eqb p dotdot); intros E.
    + subst p. rewrite remove_parent_abs in H by auto.
      apply IH in H; auto using Forall_removelast, clean_removelast. destruct H as [e [k [W R]]]. exists e, k. split; [now constructor|auto].
    + generalize (str_eqb_spec p [46]). destruct (str_eqb p [46]); intros E2.
      * subst p. apply IH in H; auto. destruct H as [e [k [W R]]]. exists e, k. split; [now constructor|auto].
      * assert (NP : is_name p) by (destruct GPp as [G1 [G2 _]]; split; [auto|]; split; [exact E2|]; split; [exact E|auto]).
        assert (ND' : Forall is_name (d ++ [p])) by (apply Forall_snoc; auto).
        assert (GD' : Forall good (d ++ [p])) by (apply Forall_snoc; auto).
        cbn zeta in H. unfold norm_symlink in H. change (([] :: d) ++ [p]) with ([] :: d ++ [p]) in H.
        rewrite join_parts_abs in H by (now apply pieces_ne, good_piece).
        destruct (rl (abs_path (d ++ [p])) _) as [err|r] eqn:R; [discriminate H|]. apply rl_link in R; [|auto].
        destruct r as [s|].
        -- symmetry in R. assert (PS := link_plain _ _ R). rewrite isabs_unix in H. rewrite componentize_unix in H by apply PS.
           assert (GS := plain_good s PS). destruct (starts s) eqn:SS.
           ++ cbn [app] in H. rewrite join_parts_abs in H by (apply pieces_ne, good_piece, Forall_app; auto).
              apply A in H; [|apply Forall_app; auto]. destruct H as [e [k [W R']]]. exists e, (S k). split; [|exact R'].
              eapply W_link_abs; eauto; try apply NP. now apply starts_iff.
           ++ change ([] :: d ++ [p]) with (([] :: d) ++ [p]) in H. rewrite removelast_last in H. cbn [app] in H.
              rewrite join_parts_abs in H by (apply pieces_ne, good_piece; rewrite !Forall_app; auto).
              apply A in H; [|rewrite !Forall_app; auto]. destruct H as [e [k [W R']]]. exists e, (S k). split; [|exact R'].
              eapply W_link; eauto; try apply NP.
              ** intros F. apply starts_iff in F. congruence.
              ** apply (Walk_clean link d []); auto.
        -- apply IH in H; auto.
           ++ destruct H as [e [k [W R']]]. exists e, k. split; [|exact R']. apply W_down; auto; apply NP.
           ++ apply clean_snoc; auto.
Qed.

Lemma loop_walk_root : forall again l out,
  (forall l out, Forall good l -> again (Some (abs_path l)) = Ok (inr out) -> good_out l out) ->
  Forall good l -> norm_loop rl Unix fl again true ([] :: l) [] = Ok (inr out) -> good_out l out.
Proof.
  intros again l out A G H. cbn [norm_loop] in H. rewrite parent in H. cbn [negb andb] in H.
  change (str_eqb [] dotdot) with false in H. change (str_eqb [] [46]) with false in H. cbn zeta in H. cbn iota in H. cbn [app] in H.
  unfold norm_symlink in H. rewrite join_parts_abs in H by constructor.
  destruct (rl (abs_path []) _) as [err|r] eqn:R; [discriminate H|]. apply rl_link in R; [|constructor]. rewrite link_root in R. subst r.
  eapply loop_walk; eauto. intros a n b E. destruct a; discriminate E.
Qed.

Lemma norm_int_walk : forall f l seen out, Forall good l ->
  norm_int pm ge home cwd rl Unix fl f (Some (abs_path l)) seen true = Ok (inr out) -> good_out l out.
Proof.
  induction f as [|f IH]; intros l seen out G H; [discriminate H|].
  destruct (Nat.leb_spec max_redirects (length seen)) as [S|S].
  { cbn [norm_int] in H. destruct (abs_path_slash l) as [r E]. rewrite E in H. rewrite (proj2 (Nat.leb_le _ _) S) in H. discriminate H. }
  destruct (existsb (str_eqb (abs_path l)) seen) eqn:X.
  { cbn [norm_int] in H. destruct (abs_path_slash l) as [r E]. rewrite E in *. rewrite X, orb_true_r in H. discriminate H. }
  destruct (Nat.ltb_spec (length (abs_path l)) pm) as [L|L].
  2:{ cbn [norm_int] in H. destruct (abs_path_slash l) as [r E]. rewrite E in *. rewrite X in H. destruct (Nat.leb_spec max_redirects (length seen)); [lia|].
      cbn [orb] in H. unfold norm_sep in H. rewrite (proj2 (Nat.leb_le _ _) L) in H. discriminate H. }
  rewrite norm_int_open in H; auto; [|destruct (abs_path_slash l) as [r ->]; discriminate|now apply good_plain].
  rewrite parts_abs_path in H by auto.
  assert (Q1 : (if n_home fl then norm_home home Unix ([] :: l) else Some ([] :: l)) = Some ([] :: l)) by (destruct (n_home fl); reflexivity).
  rewrite Q1 in H.
  assert (Q2 : (if n_absolute fl then norm_abs cwd Unix ([] :: l) else Some ([] :: l)) = Some ([] :: l)) by (destruct (n_absolute fl); reflexivity).
  rewrite Q2 in H. refine (loop_walk_root _ l out _ G H). intros m o Gm Hm. exact (IH m _ o Gm Hm).
Qed.

(** The first call, whose parts may come from the home and working directories. *)
Lemma norm_walk_start : forall p l out, p <> [] -> plain p -> Forall good l ->
  match (if n_home fl then norm_home home Unix (parts_of p) else Some (parts_of p)) with
  | None => None
  | Some parts => if n_absolute fl then norm_abs cwd Unix parts else Some parts
  end = Some ([] :: l) ->
  n_follow fl = true ->
  path_norm pm ge home cwd rl Unix fl p = Ok (inr out) -> good_out l out.
Proof.
  intros p l out N P G E F H. unfold path_norm in H. rewrite F in H. change (max_redirects + 2)%nat with (S (max_redirects + 1)) in H.
  destruct (Nat.ltb_spec (length p) pm) as [L|L].
  - rewrite norm_int_open in H by (auto; unfold max_redirects; cbn; lia).
    destruct (if n_home fl then _ else _) as [parts|]; [|discriminate E]. rewrite E in H.
    refine (loop_walk_root _ l out _ G H). intros m o Gm Hm. exact (norm_int_walk _ m _ o Gm Hm).
  - cbn [norm_int] in H. destruct p as [|c p]; [congruence|]. cbn [existsb orb length] in H.
    destruct (Nat.leb_spec max_redirects 0) as [Z|_]; [unfold max_redirects in Z; lia|]. cbn [orb] in H.
    unfold norm_sep in H. rewrite (proj2 (Nat.leb_le _ _) L) in H. discriminate H.
Qed.

(** Conversely a path that leads somewhere over fewer than 25 links is found. *)
Lemma walk_back : forall d d0 r e k, Forall is_name d -> clean link (d0 ++ d) -> Walk link (d0 ++ d) r e k -> Walk link d0 (d ++ r) e k.
Proof.
  induction d as [|n d IH]; intros d0 r e k F C W; [now rewrite app_nil_r in W|].
  inversion F as [|? ? [N1 [N2 [N3 N4]]] F']; subst. assert (L : link (d0 ++ [n]) = None) by (eapply C; reflexivity).
  replace (d0 ++ n :: d) with ((d0 ++ [n]) ++ d) in * by (rewrite <- app_assoc; reflexivity).
  cbn [app]. apply W_down; auto.
Qed.
Definition found (e : list (list N)) (r : res (fserr + list N)) : Prop := r = Ok (inr (abs_path e)) \/ r = Ok (inl ErrNameTooLong).
Hypothesis rl_sure : forall d last, Forall is_name d -> rl (abs_path d) last = inr (link d).

Lemma loop_found : forall again k parts d e,
  (forall l k', Forall good l -> (k' < k)%nat -> Walk link [] l e k' -> found e (again (Some (abs_path l)))) ->
  Forall good parts -> Forall good d -> Forall is_name d -> clean link d -> Walk link d parts e k ->
  found e (norm_loop rl Unix fl again true parts ([] :: d)).
Proof.
  intros again k. induction parts as [|p parts IH]; intros d e A GP GD ND C W; cbn [norm_loop].
  - inversion W; subst. rewrite norm_done_abs by (now apply good_piece). now left.
  - inversion GP as [|? ? GPp GP']; subst. rewrite parent. cbn [negb andb].
    generalize (str_eqb_spec p dotdot). destruct (str_eqb p dotdot); intros E.
    + subst p. rewrite remove_parent_abs by auto. apply IH; auto using Forall_removelast, clean_removelast.
      inversion W; subst; auto; exfalso; match goal with H : _ <> dots |- _ => now apply H end.
    + generalize (str_eqb_spec p [46]). destruct (str_eqb p [46]); intros E2.
      * subst p. apply IH; auto. inversion W; subst; auto; exfalso; match goal with H : _ <> dot |- _ => now apply H end.
      * assert (NP : is_name p) by (destruct GPp as [G1 [G2 _]]; split; [auto|]; split; [exact E2|]; split; [exact E|auto]).
        assert (ND' : Forall is_name (d ++ [p])) by (apply Forall_snoc; auto).
        assert (GD' : Forall good (d ++ [p])) by (apply Forall_snoc; auto).
        cbn zeta. unfold norm_symlink. change (([] :: d) ++ [p]) with ([] :: d ++ [p]).
        rewrite join_parts_abs by (now apply pieces_ne, good_piece). rewrite rl_sure by auto.
        inversion W; subst; try (exfalso; match goal with H : ?x <> ?x |- _ => now apply H end).
        -- exfalso. now apply E2.
        -- exfalso. now apply E.
        -- match goal with H : link _ = None |- _ => rewrite H end. apply IH; auto. apply clean_snoc; auto.
        -- match goal with H : link _ = Some _ |- _ => rewrite H; assert (PS := link_plain _ _ H) end.
           rewrite isabs_unix. rewrite componentize_unix by apply PS. assert (GS := plain_good s PS).
           destruct (starts s) eqn:SS; [apply starts_iff in SS; contradiction|].
           change ([] :: d ++ [p]) with (([] :: d) ++ [p]). rewrite removelast_last. cbn [app].
           rewrite join_parts_abs by (apply pieces_ne, good_piece; rewrite !Forall_app; auto).
           apply (A _ k0); [rewrite !Forall_app; auto|lia|]. apply (walk_back d []); auto.
        -- match goal with H : link _ = Some _ |- _ => rewrite H; assert (PS := link_plain _ _ H) end.
           rewrite isabs_unix. rewrite componentize_unix by apply PS. assert (GS := plain_good s PS).
           rewrite (proj2 (starts_iff s)) by auto. cbn [app].
           rewrite join_parts_abs by (apply pieces_ne, good_piece; rewrite !Forall_app; auto).
           apply (A _ k0); [rewrite !Forall_app; auto|lia|auto].
Qed.

Lemma loop_found_root : forall again k l e,
  (forall l k', Forall good l -> (k' < k)%nat -> Walk link [] l e k' -> found e (again (Some (abs_path l)))) ->
  Forall good l -> Walk link [] l e k -> found e (norm_loop rl Unix fl again true ([] :: l) []).
Proof.
  intros again k l e A G W. cbn [norm_loop]. rewrite parent. cbn [negb andb].
  change (str_eqb [] dotdot) with false. change (str_eqb [] [46]) with false. cbn zeta. cbn iota. cbn [app].
  unfold norm_symlink. rewrite join_parts_abs by constructor. rewrite rl_sure by constructor. rewrite link_root.
  eapply loop_found; eauto. intros a n b E. destruct a; discriminate E.
Qed.

Lemma abs_path_inj : forall l m, Forall good l -> Forall good m -> abs_path l = abs_path m -> l = m.
Proof. intros l m L M E. rewrite <- (names_abs_path l), <- (names_abs_path m) by (now apply good_piece). now rewrite E. Qed.

Lemma norm_int_found : forall f l seen e k, Forall good l -> Walk link [] l e k ->
  (length seen + k < max_redirects)%nat -> (k < f)%nat ->
  (forall q, In q seen -> forall m k', Forall good m -> Walk link [] m e k' -> (k' <= k)%nat -> q <> abs_path m) ->
  found e (norm_int pm ge home cwd rl Unix fl f (Some (abs_path l)) seen true).
Proof.
  induction f as [|f IH]; intros l seen e k G W SK KF SEEN; [lia|].
  assert (X : existsb (str_eqb (abs_path l)) seen = false).
  { destruct (existsb (str_eqb (abs_path l)) seen) eqn:X; [|reflexivity]. exfalso. apply existsb_exists in X. destruct X as [q [Q1 Q2]].
    apply str_eqb_true in Q2. subst q. exact (SEEN _ Q1 l k G W (Nat.le_refl k) eq_refl). }
  destruct (Nat.ltb_spec (length (abs_path l)) pm) as [L|L].
  2:{ right. cbn [norm_int]. destruct (abs_path_slash l) as [r E]. rewrite E in *. rewrite X. destruct (Nat.leb_spec max_redirects (length seen)); [lia|].
      cbn [orb]. unfold norm_sep. rewrite (proj2 (Nat.leb_le _ _) L). reflexivity. }
  rewrite norm_int_open; auto; [|destruct (abs_path_slash l) as [r ->]; discriminate|now apply good_plain|lia].
  rewrite parts_abs_path by auto.
  assert (Q1 : (if n_home fl then norm_home home Unix ([] :: l) else Some ([] :: l)) = Some ([] :: l)) by (destruct (n_home fl); reflexivity).
  rewrite Q1.
  assert (Q2 : (if n_absolute fl then norm_abs cwd Unix ([] :: l) else Some ([] :: l)) = Some ([] :: l)) by (destruct (n_absolute fl); reflexivity).
  rewrite Q2. apply (loop_found_root _ k); auto. intros m k' Gm Lt Wm. apply (IH m _ e k'); auto; [cbn [length]; lia|lia|].
  intros q [<-|Q] m' k'' Gm' Wm' Lt'.
  - intros F. apply abs_path_inj in F; auto. subst m'. destruct (Walk_det _ _ _ _ _ W _ _ Wm') as [_ ?]. lia.
  - eapply SEEN; eauto. lia.
Qed.

Lemma norm_found_start : forall p l e k, p <> [] -> plain p -> Forall good l -> (length p < pm)%nat ->
  (parts_of p = [] :: l \/ ~ absolute p) ->
  match (if n_home fl then norm_home home Unix (parts_of p) else Some (parts_of p)) with
  | None => None
  | Some parts => if n_absolute fl then norm_abs cwd Unix parts else Some parts
  end = Some ([] :: l) ->
  n_follow fl = true -> Walk link [] l e k -> (k < 25)%nat ->
  found e (path_norm pm ge home cwd rl Unix fl p).
Proof.
  intros p l e k N P G L AB E F W K. unfold path_norm. rewrite F. change (max_redirects + 2)%nat with (S (max_redirects + 1)).
  rewrite norm_int_open by (auto; unfold max_redirects; cbn; lia).
  destruct (if n_home fl then _ else _) as [parts|]; [|discriminate E]. rewrite E.
  apply (loop_found_root _ k); auto. intros m k' Gm Lt Wm. apply (norm_int_found _ m _ e k'); auto; [cbn [length]; unfold max_redirects; lia|unfold max_redirects; lia|].
  intros q [<-|[]] m' k'' Gm' Wm' Lt' Q. destruct AB as [AB|AB].
  - rewrite Q, parts_abs_path in AB by auto. injection AB as ->. destruct (Walk_det _ _ _ _ _ W _ _ Wm') as [_ ?]. lia.
  - apply AB. rewrite Q. apply abs_path_slash.
Qed.
End Links.

(** ** Splitting and joining *)

Lemma parts_split : forall p, p <> [] -> (exists r, p = 47 :: r /\ parts_of p = [[]]) \/ (exists l n, parts_of p = l ++ [n] /\ names p = (if starts p then tl l else l) ++ [n] /\ n <> [] /\ (starts p = true -> exists l', l = [] :: l')).
Proof.
  intros p N. destruct (rev_case _ (names p)) as [E|[l [n E]]].
  - left. assert (Q := parts_of_ne p N). unfold parts_of in *. rewrite E in *. destruct (starts p) eqn:S; [|cbn in Q; congruence].
    apply starts_iff in S. destruct S as [r ->]. exists r. split; reflexivity.
  - right. assert (NN : n <> []) by (apply (names_in p); rewrite E; apply in_or_app; right; now left).
    unfold parts_of. rewrite E. destruct (starts p).
    + exists ([] :: l), n. split; [reflexivity|]. split; [reflexivity|]. split; [auto|]. intros _. now exists l.
    + exists l, n. split; [reflexivity|]. split; [reflexivity|]. split; [auto|]. discriminate.
Qed.

Lemma join_parts_place : forall l, Forall piece (match l with [] :: l' => l' | _ => l end) -> l <> [] ->
  exists d, join_parts l Unix = Some d /\ forall cwd, place cwd d = den cwd l.
Proof.
  intros [|[|c n] l] H N; [congruence| |].
  - exists (abs_path l). split; [now apply join_parts_abs, pieces_ne|]. intros cwd. rewrite place_den, names_abs_path by auto.
    destruct (abs_path_slash l) as [r ->]. reflexivity.
  - exists (slashed ((c :: n) :: l)). split; [now apply join_parts_rel; [apply pieces_ne|]|]. intros cwd.
    rewrite place_den, names_slashed, slashed_start by auto. reflexivity.
Qed.

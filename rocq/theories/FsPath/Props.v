(** C68: normalising, splitting and joining Unix paths keeps their meaning. *)
From Verif Require Import Base.Lib FsPath.Model FsPath.Spec FsPath.Proofs.
Local Open Scope N_scope.

Definition lexical (fl : nflags) : Prop := n_follow fl = false /\ n_home fl = false /\ n_absolute fl = false.

(** The normalised path leads to the same place from every working directory; it is
    canonical unless parents are kept; it is no longer than the path. *)
Theorem path_norm_meaning : forall pm ge home cwd rl fl p,
  p <> [] -> (length p < pm)%nat -> plain p -> lexical fl -> n_noparent fl = false ->
  exists out, path_norm pm ge home cwd rl Unix fl p = Ok (inr out) /\
    (forall d, place d out = place d p) /\ Canonical out /\ (length out <= length p)%nat /\ plain out.
Proof.
  intros pm ge home cwd rl fl p N L P [F [H A]] NP. rewrite path_norm_lex, NP by auto. fold (base_of p).
  destruct (base_of_spec p) as [S D]. destruct (shape_out _ S) as [out [O [C PL]]]. destruct (text_done _ S) as [T _].
  rewrite T in O. assert (O' : text (base_of p) = out) by congruence. exists out. subst out.
  split; [exact T|]. split; [intros d; now rewrite PL, D|]. split; [exact C|]. split; [now apply text_length|now apply text_plain].
Qed.

(** Two paths have the same normal form exactly when they mean the same everywhere. *)
Theorem path_norm_complete : forall pm ge home cwd rl fl p q,
  p <> [] -> (length p < pm)%nat -> plain p -> q <> [] -> (length q < pm)%nat -> plain q -> lexical fl -> n_noparent fl = false ->
  path_norm pm ge home cwd rl Unix fl p = path_norm pm ge home cwd rl Unix fl q <-> (forall d, place d p = place d q).
Proof.
  intros pm ge home cwd rl fl p q N L P N' L' P' LX NP. split.
  - intros E. destruct (path_norm_meaning pm ge home cwd rl fl p N L P LX NP) as [o [O [M _]]].
    destruct (path_norm_meaning pm ge home cwd rl fl q N' L' P' LX NP) as [o' [O' [M' _]]].
    rewrite O, O' in E. injection E as ->. intros d. now rewrite <- M, <- M'.
  - intros E. destruct LX as [F [H A]]. rewrite !path_norm_lex by auto. rewrite NP. fold (base_of p). fold (base_of q). f_equal.
    destruct (base_of_spec p) as [S D]. destruct (base_of_spec q) as [S' D']. apply shape_unique; auto. intros d. rewrite D, D'. apply E.
Qed.

Theorem path_norm_idempotent : forall pm ge home cwd rl fl p out,
  p <> [] -> (length p < pm)%nat -> plain p -> lexical fl -> n_noparent fl = false ->
  path_norm pm ge home cwd rl Unix fl p = Ok (inr out) -> path_norm pm ge home cwd rl Unix fl out = Ok (inr out).
Proof.
  intros pm ge home cwd rl fl p out N L P LX NP E. assert (M := path_norm_meaning pm ge home cwd rl fl p N L P LX NP).
  destruct M as [o [O [M [_ [LE PL]]]]]. rewrite E in O. assert (o = out) by congruence. subst o. rewrite <- E.
  apply path_norm_complete; auto; [|lia]. intros ->. destruct LX as [F [H A]]. rewrite path_norm_lex, NP in E by auto.
  fold (base_of p) in E. destruct (base_of_spec p) as [S _]. rewrite (proj1 (text_done _ S)) in E. injection E as E. revert E. now apply text_ne.
Qed.

(** Kept parents: same place, too; and then this holds with any links in the tree, since
    no name is dropped but '.'. *)
Theorem path_norm_noparent : forall pm ge home cwd rl fl p,
  p <> [] -> (length p < pm)%nat -> plain p -> lexical fl -> n_noparent fl = true ->
  exists out, path_norm pm ge home cwd rl Unix fl p = Ok (inr out) /\ (absolute out <-> absolute p) /\
    filter (fun n => negb (str_eqb n dot)) (names out) = filter (fun n => negb (str_eqb n dot)) (names p).
Proof.
  intros pm ge home cwd rl fl p N L P [F [H A]] NP. rewrite path_norm_lex, NP by auto.
  assert (E : forall parts base, fold_left (nstep true) parts base = base ++ filter (fun n => negb (str_eqb n dot)) parts).
  { induction parts as [|x parts IH]; intros base; cbn [fold_left filter]; [now rewrite app_nil_r|]. rewrite IH. unfold nstep. cbn [negb andb].
    fold dot. destruct (str_eqb x dot); cbn [negb]; [reflexivity|now rewrite <- app_assoc]. }
  rewrite E. cbn [app]. unfold parts_of.
  assert (PC : Forall piece (filter (fun n => negb (str_eqb n dot)) (names p))).
  { apply Forall_forall. intros n X. apply filter_In in X. destruct X as [X _]. assert (Q := names_pieces p). rewrite Forall_forall in Q. now apply Q. }
  assert (FF : forall l : list (list BinNums.N), filter (fun n => negb (str_eqb n dot)) (filter (fun n => negb (str_eqb n dot)) l) = filter (fun n => negb (str_eqb n dot)) l).
  { induction l as [|x l IH]; [reflexivity|]. cbn [filter]. destruct (negb (str_eqb x dot)) eqn:X; [cbn [filter]; rewrite X, IH; reflexivity|exact IH]. }
  destruct (starts p) eqn:S.
  - cbn [app filter]. change (str_eqb [] dot) with false. cbn [negb]. rewrite norm_done_abs by auto. eexists. split; [reflexivity|]. split.
    + split; intros _; [now apply starts_iff|apply abs_path_slash].
    + rewrite names_abs_path by auto. apply FF.
  - cbn [app]. rewrite norm_done_rel by auto. eexists. split; [reflexivity|].
    destruct (filter (fun n => negb (str_eqb n dot)) (names p)) as [|x l] eqn:Q.
    + split; [|reflexivity]. split; intros X; [destruct X as [r X]; discriminate X|apply starts_iff in X; congruence].
    + rewrite names_slashed by auto. split.
      * split; intros X; apply starts_iff in X; [rewrite slashed_start in X by auto; discriminate X|congruence].
      * rewrite <- Q. apply FF.
Qed.

(** With the flags ABSOLUTE and HOME: the absolute path of the place meant. *)
Lemma abs_result : forall l m, Forall piece (l ++ m) -> norm_done Unix (fold_left (nstep false) ([] :: l ++ m) []) = Ok (inr (abs_path (fold_left step m (fold_left step l [])))).
Proof.
  intros l m P. cbn [fold_left]. change (nstep false [] []) with [@nil N]. destruct (fold_shape (l ++ m) [[]] shape_root P) as [S D].
  specialize (D []). assert (E : exists k, fold_left (nstep false) (l ++ m) [[]] = [] :: k /\ Forall is_name k).
  { assert (G : forall parts base, Forall piece parts -> Forall is_name base -> exists k, fold_left (nstep false) parts ([] :: base) = [] :: k /\ Forall is_name k).
    { induction parts as [|x parts IH]; intros base PP NB; [exists base; auto|]. inversion PP as [|? ? [X1 X2] PP']; subst. cbn [fold_left]. unfold nstep at 2. cbn [negb andb].
      generalize (str_eqb_spec x dotdot). destruct (str_eqb x dotdot); intros E1; [rewrite remove_parent_abs by auto; apply IH; auto using Forall_removelast|].
      generalize (str_eqb_spec x [46]). destruct (str_eqb x [46]); intros E2; [now apply IH|]. cbn [app]. apply IH; auto. apply Forall_snoc. split; auto.
      split; [auto|]. split; [exact E2|]. split; [exact E1|auto]. }
    apply G; auto. }
  destruct E as [k [E NK]]. rewrite E in *. rewrite norm_done_abs by (eapply Forall_impl; [|exact NK]; apply is_name_piece).
  f_equal. f_equal. f_equal. change (den [] ([] :: k)) with (den [] k) in D. rewrite den_names in D by auto. cbn [app] in D.
  change (den [] ([] :: l ++ m)) with (den [] (l ++ m)) in D. rewrite den_pieces in D by (now apply pieces_ne). rewrite D. now rewrite fold_left_app.
Qed.

Theorem path_norm_absolute : forall pm ge home rl fl p c,
  p <> [] -> (length p < pm)%nat -> plain p -> n_follow fl = false -> n_home fl = false -> n_absolute fl = true -> n_noparent fl = false ->
  absolute c -> ~ In 92 c ->
  path_norm pm ge home (Some c) rl Unix fl p = Ok (inr (abs_path (place (place [] c) p))).
Proof.
  intros pm ge home rl fl p c N L P F H A NP AC BC. unfold path_norm. change (max_redirects + 2)%nat with (S (max_redirects + 1)).
  rewrite norm_int_open by (auto; unfold max_redirects; cbn; lia). rewrite F, H, A. unfold parts_of. destruct (starts p) eqn:S.
  - cbn [app norm_abs is_nil orb]. rewrite norm_loop_lex, NP.
    change ([] :: names p) with ([] :: [] ++ names p). rewrite abs_result by (cbn [app]; apply names_pieces). apply starts_iff in S. destruct S as [r ->]. reflexivity.
  - cbn [app]. assert (Q := parts_of_ne p N). unfold parts_of in Q. rewrite S in Q. cbn [app] in Q.
    destruct (names p) as [|n l] eqn:E; [congruence|]. assert (NN : n <> []) by (apply (names_in p); rewrite E; now left).
    unfold norm_abs. destruct n as [|x n]; [congruence|]. cbn [is_nil orb]. rewrite componentize_unix by auto. rewrite (proj2 (starts_iff c)) by auto.
    cbn [app]. rewrite norm_loop_lex, NP, (abs_result (names c)) by (rewrite <- E; apply Forall_app; split; apply names_pieces).
    rewrite (place_rel _ p), E by auto. destruct AC as [r ->]. reflexivity.
Qed.

Theorem path_norm_home : forall pm ge cwd rl fl p h rest,
  (length p < pm)%nat -> plain p -> n_follow fl = false -> n_home fl = true -> n_noparent fl = false ->
  ~ absolute p -> names p = [126] :: rest -> absolute h -> ~ In 92 h ->
  path_norm pm ge (Some h) cwd rl Unix fl p = Ok (inr (abs_path (fold_left step rest (place [] h)))).
Proof.
  intros pm ge cwd rl fl p h rest L P F H NP AB E AH BH. unfold path_norm. change (max_redirects + 2)%nat with (S (max_redirects + 1)).
  assert (N : p <> []) by (intros ->; discriminate E).
  rewrite norm_int_open by (auto; unfold max_redirects; cbn; lia). rewrite F, H. unfold parts_of.
  destruct (starts p) eqn:S; [apply starts_iff in S; contradiction|]. cbn [app]. rewrite E. unfold norm_home. change (str_eqb [126] [126]) with true. cbn iota.
  rewrite componentize_unix by auto. rewrite (proj2 (starts_iff h)) by auto. cbn [app].
  assert (Q : (if n_absolute fl then norm_abs cwd Unix ([] :: names h ++ rest) else Some ([] :: names h ++ rest)) = Some ([] :: names h ++ rest)) by (destruct (n_absolute fl); reflexivity).
  rewrite Q, norm_loop_lex, NP, abs_result.
  - destruct AH as [r ->]. reflexivity.
  - apply Forall_app. split; [apply names_pieces|]. assert (R := names_pieces p). rewrite E in R. now inversion R.
Qed.

(** ** Following links *)

(** [rl] reads the links of [link]; a failure of readlink is allowed. *)
Definition reads (link : list (list N) -> option (list N)) (rl : list N -> bool -> fserr + option (list N)) : Prop :=
  forall d last r, Forall is_name d -> rl (abs_path d) last = inr r -> r = link d.
(** The names a path stands for when ABSOLUTE completes a relative path. *)
Definition full (fl : nflags) (cwd : option (list N)) (p : list N) (l : list (list N)) : Prop :=
  (absolute p /\ l = names p) \/
  (~ absolute p /\ n_home fl = false /\ n_absolute fl = true /\ exists c, cwd = Some c /\ absolute c /\ plain c /\ l = names c ++ names p).

Lemma full_start : forall fl home cwd p l, p <> [] -> plain p -> full fl cwd p l ->
  Forall good l /\ (parts_of p = [] :: l \/ ~ absolute p) /\
  match (if n_home fl then norm_home home Unix (parts_of p) else Some (parts_of p)) with
  | None => None
  | Some parts => if n_absolute fl then norm_abs cwd Unix parts else Some parts
  end = Some ([] :: l).
Proof.
  intros fl home cwd p l N P [[A ->]|[A [H [AB [c [-> [C [PC ->]]]]]]]].
  - split; [now apply plain_good|]. unfold parts_of. rewrite (proj2 (starts_iff p)) by auto. split; [now left|]. cbn [app].
    destruct (n_home fl); destruct (n_absolute fl); reflexivity.
  - split; [apply Forall_app; split; now apply plain_good|]. split; [now right|]. rewrite H, AB.
    assert (S : starts p = false) by (destruct (starts p) eqn:S; [apply starts_iff in S; contradiction|reflexivity]).
    assert (Q := parts_of_ne p N). unfold parts_of in *. rewrite S in *. cbn [app] in *.
    destruct (names p) as [|n m] eqn:E; [congruence|]. assert (NN : n <> []) by (apply (names_in p); rewrite E; now left).
    unfold norm_abs. destruct n as [|x n]; [congruence|]. cbn [is_nil orb]. rewrite componentize_unix by apply PC. rewrite (proj2 (starts_iff c)) by auto. reflexivity.
Qed.

(** A result is where the path leads, written without links, '.' and '..'. *)
Theorem path_norm_links_sound : forall link rl pm ge home cwd fl p l out,
  reads link rl -> link [] = None -> (forall d s, link d = Some s -> plain s) ->
  n_follow fl = true -> n_noparent fl = false -> p <> [] -> plain p -> full fl cwd p l ->
  path_norm pm ge home cwd rl Unix fl p = Ok (inr out) ->
  exists e k, Walk link [] l e k /\ out = abs_path e /\ Forall is_name e /\ (forall a n b, e = a ++ n :: b -> link (a ++ [n]) = None).
Proof.
  intros link rl pm ge home cwd fl p l out R LR LP F NP N P FU E. destruct (full_start fl home cwd p l N P FU) as [G [_ S]].
  exact (norm_walk_start link rl R LR LP pm ge home cwd fl NP p l out N P G S F E).
Qed.

(** A path that leads somewhere over at most 24 links is found, unless a rewritten path is
    too long. *)
Theorem path_norm_links_complete : forall link rl pm ge home cwd fl p l e k,
  (forall d last, Forall is_name d -> rl (abs_path d) last = inr (link d)) -> link [] = None -> (forall d s, link d = Some s -> plain s) ->
  n_follow fl = true -> n_noparent fl = false -> p <> [] -> (length p < pm)%nat -> plain p -> full fl cwd p l ->
  Walk link [] l e k -> (k < 25)%nat ->
  path_norm pm ge home cwd rl Unix fl p = Ok (inr (abs_path e)) \/ path_norm pm ge home cwd rl Unix fl p = Ok (inl ErrNameTooLong).
Proof.
  intros link rl pm ge home cwd fl p l e k R LR LP F NP N L P FU W K. destruct (full_start fl home cwd p l N P FU) as [G [AB S]].
  assert (R' : reads link rl) by (intros d la r D E; rewrite R in E by auto; congruence).
  exact (norm_found_start link rl R' LR LP pm ge home cwd fl NP R p l e k N P G L AB S F W K).
Qed.

(** Whatever the file system, environment, flags and path: it ends, with a path or an error. *)
Theorem path_norm_ends : forall pm ge home cwd rl t fl p, exists r, path_norm pm ge home cwd rl t fl p = Ok r.
Proof. intros. apply norm_int_ok; unfold max_redirects; cbn; lia. Qed.

(** ** Environment variables *)

(** A reference to a variable that is not set is an error, wherever it stands and whatever
    the flags. *)
Theorem path_norm_env_unset : forall pm ge home cwd rl fl p n x,
  (length p < pm)%nat -> ~ In 92 p -> In n (names p) -> refers n x -> x <> [] -> ge x = None ->
  path_norm pm ge home cwd rl Unix fl p = Ok (inl ErrGeneric).
Proof.
  intros pm ge home cwd rl fl p n x L B I R X G. unfold path_norm. change (max_redirects + 2)%nat with (S (max_redirects + 1)). cbn [norm_int].
  destruct p as [|c p]; [destruct I|]. change (max_redirects <=? length (@nil (list N)))%nat with false. cbn [existsb orb].
  rewrite norm_sep_unix by auto. rewrite componentize_unix by auto. fold (parts_of (c :: p)).
  rewrite (expand_unset ge _ n x); auto. unfold parts_of. apply in_or_app. now right.
Qed.

(** Otherwise the result is that of the path with the values in place of the references,
    as long as no value has a slash of its own: the names of the other path are just the values. *)
Theorem path_norm_env_set : forall pm ge home cwd rl fl p q,
  p <> [] -> (length p < pm)%nat -> ~ In 92 p -> q <> [] -> (length q < pm)%nat -> plain q -> n_follow fl = false ->
  (absolute p <-> absolute q) -> Subst ge (names p) (names q) ->
  path_norm pm ge home cwd rl Unix fl p = path_norm pm ge home cwd rl Unix fl q.
Proof.
  intros pm ge home cwd rl fl p q NP L B NQ LQ PQ F AB SB. unfold path_norm. change (max_redirects + 2)%nat with (S (max_redirects + 1)).
  rewrite (norm_int_open _ pm ge home cwd rl fl q) by (auto; unfold max_redirects; cbn; lia). cbn [norm_int].
  destruct p as [|c p]; [congruence|]. change (max_redirects <=? length (@nil (list N)))%nat with false. cbn [existsb orb].
  rewrite norm_sep_unix by auto. rewrite componentize_unix by auto. fold (parts_of (c :: p)).
  rewrite (expand_subst ge _ (parts_of q)).
  - rewrite F. destruct (if n_home fl then _ else _); [|reflexivity]. destruct (if n_absolute fl then _ else _); [|reflexivity]. now rewrite !norm_loop_lex.
  - now apply parts_of_ne.
  - unfold parts_of. assert (E : starts (c :: p) = starts q).
    { rewrite <- !starts_iff in AB. destruct (starts (c :: p)), (starts q); auto; destruct AB as [A A']; [symmetry|]; auto. }
    rewrite E. destruct (starts q); cbn [app]; [|exact SB]. apply Sub_keep; [apply not_env_nil|exact SB].
Qed.
(** '$X/../b' with X=a is 'a/../b'; '%Y%/b' with Y empty is 'b'. *)
Example path_norm_env_ex : exists ge, Subst ge (names [36; 88; 47; 46; 46; 47; 98]) (names [97; 47; 46; 46; 47; 98]) /\
  Subst ge (names [37; 89; 37; 47; 98]) (names [98]) /\ ge [90] = None /\ refers [36; 90] [90].
Proof.
  exists (fun x => if list_eq_dec N.eq_dec x [88] then Some [97] else if list_eq_dec N.eq_dec x [89] then Some [] else None).
  split; [|split; [|split; [reflexivity|now left]]]; cbn [names names_from N.eqb Pos.eqb app].
  - eapply (Sub_set _ _ [88]); [now left|discriminate|reflexivity|discriminate|]. apply Sub_keep; [intros [[x F]|[x F]]; discriminate F|].
    apply Sub_keep; [intros [[x F]|[x F]]; discriminate F|]. constructor.
  - eapply (Sub_unset _ _ [89]); [now right|discriminate|reflexivity|]. apply Sub_keep; [intros [[x F]|[x F]]; discriminate F|]. constructor.
Qed.

(** ** Directory, name, joining *)

(** The name is the last component, the directory the rest. *)
Theorem path_split_meaning : forall p, p <> [] -> ~ In 92 p ->
  (absolute p /\ names p = [] /\ path_split p Unix = (Some [47], None)) \/
  (exists l n d, names p = l ++ [n] /\ path_split p Unix = (d, Some n) /\ (d = None <-> ~ absolute p /\ l = []) /\
    forall cwd, place cwd p = step (match d with Some d' => place cwd d' | None => cwd end) n).
Proof.
  intros p N B. assert (PS : path_split p Unix = match rev (parts_of p) with
     | [] => (None, None)
     | temp :: rparts => if (length rparts =? 0)%nat && isabs p Unix then (join_parts [temp] Unix, None)
         else (join_parts (rev rparts) Unix, if is_nil temp then None else Some temp) end).
  { unfold path_split. destruct p; [congruence|]. rewrite componentize_unix by auto. reflexivity. }
  rewrite PS. rewrite isabs_unix. destruct (parts_split p N) as [[r [-> E]]|[l [n [E [E2 [NN AB]]]]]].
  - left. rewrite E. split; [now exists r|]. split; [|reflexivity]. unfold parts_of in E. cbn in E. injection E as E. exact E.
  - right. rewrite E, rev_app_distr. cbn [rev app]. rewrite rev_involutive, rev_length.
    destruct n as [|c n]; [congruence|]. cbn [is_nil].
    assert (PC := names_pieces p). rewrite E2 in PC. apply Forall_app in PC. destruct PC as [PC _].
    assert (PL : forall cwd, place cwd p = step (den cwd l) (c :: n)).
    { intros cwd. rewrite place_den. fold (parts_of p). rewrite E, den_app. reflexivity. }
    destruct l as [|x l].
    + assert (SF : starts p = false) by (destruct (starts p); [destruct AB as [l' AB]; [reflexivity|discriminate AB]|reflexivity]).
      rewrite SF in *. cbn [length Nat.eqb andb]. exists [], (c :: n), None. split; [exact E2|]. split; [reflexivity|]. split.
      * split; [|reflexivity]. intros _. split; [|reflexivity]. intros F. apply starts_iff in F. congruence.
      * intros cwd. apply PL.
    + cbn [length Nat.eqb andb].
      assert (J : exists d, join_parts (x :: l) Unix = Some d /\ forall cwd, place cwd d = den cwd (x :: l)).
      { apply join_parts_place; [|discriminate]. destruct (starts p).
        - destruct AB as [l' AB]; [reflexivity|]. injection AB as -> ->. exact PC.
        - destruct x; [inversion PC as [|? ? [X _] _]; congruence|exact PC]. }
      destruct J as [d [J1 J2]]. exists (if starts p then l else x :: l), (c :: n), (Some d).
      split; [destruct (starts p); exact E2|]. split; [now rewrite J1|]. split.
      * split; [discriminate|]. intros [X1 X2]. destruct (starts p) eqn:S; [apply starts_iff in S; contradiction|discriminate X2].
      * intros cwd. rewrite J2. apply PL.
Qed.

(** The joined path is the second path seen from the first. *)
Theorem path_join_meaning : forall p q, p <> [] \/ q <> [] ->
  exists out, path_join p q Unix = Some out /\ forall cwd, place cwd out = place (place cwd p) q.
Proof.
  intros p q H. unfold path_join. rewrite isabs_unix. destruct (starts q) eqn:S.
  - exists q. split; [reflexivity|]. apply starts_iff in S. destruct S as [r ->]. reflexivity.
  - destruct p as [|c p].
    + destruct H as [H|H]; [congruence|]. cbn [is_nil negb andb app]. destruct q as [|x q]; [congruence|]. exists (x :: q). split; reflexivity.
    + destruct q as [|x q].
      * cbn [is_nil negb andb app]. rewrite app_nil_r. exists (c :: p). split; reflexivity.
      * cbn [is_nil negb andb]. cbn [system_sep]. destruct (N.eqb_spec (last (c :: p) 0) 47) as [E|E]; cbn [negb app].
        -- eexists. split; [reflexivity|]. intros cwd. change (c :: p ++ x :: q) with ((c :: p) ++ x :: q).
           destruct (rev_case _ (c :: p)) as [X|[a [y X]]]; [discriminate X|]. rewrite X in *. rewrite last_last in E. subst y.
           rewrite <- app_assoc. change ([47] ++ x :: q) with (47 :: x :: q).
           rewrite (place_rel _ (x :: q)) by auto.
           assert (G : forall (z : list BinNums.N), place cwd (a ++ 47 :: z) = fold_left step (names a ++ names z) (match a ++ [47] with 47 :: _ => [] | _ => cwd end)).
           { intros z. unfold place. rewrite names_app_slash. destruct a; reflexivity. }
           rewrite !G. rewrite !fold_left_app. reflexivity.
        -- eexists. split; [reflexivity|]. intros cwd. change (c :: p ++ 47 :: x :: q) with ((c :: p) ++ 47 :: x :: q).
           rewrite (place_rel _ (x :: q)) by auto. unfold place. rewrite names_app_slash, fold_left_app. reflexivity.
Qed.

(** ** What does not hold *)

Definition flags0 : nflags := {| n_absolute := false; n_follow := false; n_home := false; n_noparent := false |}.
Definition norm0 (ge : list N -> option (list N)) (p : list N) := path_norm 4096 ge None None (fun _ _ => inr None) Unix flags0 p.

(** A backslash is an ordinary character on Unix, but the file 'a\b' becomes 'a/b'. *)
Theorem path_norm_backslash_refuted : exists p out, p <> [] /\ ~ In 36 p /\ ~ In 37 p /\
  norm0 (fun _ => None) p = Ok (inr out) /\ place [] out <> place [] p.
Proof. exists [97; 92; 98], [97; 47; 98]. split; [discriminate|]. split; [intros [F|[F|[F|[]]]]; discriminate F|]. split; [intros [F|[F|[F|[]]]]; discriminate F|]. split; [reflexivity|]. discriminate. Qed.

(** A directory called '$' is dropped from the path without any flag asking for it. *)
Theorem path_norm_dollar_refuted : exists p out, ~ In 92 p /\
  (forall ge, norm0 ge p = Ok (inr out)) /\ place [] out <> place [] p.
Proof. exists [97; 47; 36; 47; 98], [97; 47; 98]. split; [intros [F|[F|[F|[F|[F|[]]]]]]; discriminate F|]. split; [reflexivity|]. discriminate. Qed.

(** A variable's value counts as one component: with X=/a/b the path '$X/..' becomes '.'
    instead of '/a', and the value itself is not normalised. *)
Definition env_x (v : list N) : list N -> option (list N) := fun n => if list_eq_dec N.eq_dec n [88] then Some v else None.
Theorem path_norm_env_parent_refuted : norm0 (env_x [47; 97; 47; 98]) [36; 88; 47; 46; 46] = Ok (inr [46]).
Proof. reflexivity. Qed.
Theorem path_norm_env_canonical_refuted : exists out, norm0 (env_x [47; 97; 47; 46; 46; 47; 98]) [36; 88] = Ok (inr out) /\ In dots (names out) /\ absolute out.
Proof. exists [47; 97; 47; 46; 46; 47; 98]. split; [reflexivity|]. split; [vm_compute; auto|]. now exists [97; 47; 46; 46; 47; 98]. Qed.

(** A straight chain of 25 links is reported as a loop. *)
Definition chain (n : nat) : list (list N) -> option (list N) := fun d =>
  match d with [[98; i]] => if (N.to_nat i <? n)%nat then Some [98; i + 1] else None | _ => None end.
Definition chain_rl (n : nat) : list N -> bool -> fserr + option (list N) := fun s _ => inr (chain n (names s)).
Definition flagsL : nflags := {| n_absolute := false; n_follow := true; n_home := false; n_noparent := false |}.
Theorem path_norm_loop_refuted :
  path_norm 4096 (fun _ => None) None None (chain_rl 25) Unix flagsL [47; 98; 0] = Ok (inl ErrLinkLoop) /\
  path_norm 4096 (fun _ => None) None None (chain_rl 24) Unix flagsL [47; 98; 0] = Ok (inr [47; 98; 24]).
Proof. split; vm_compute; reflexivity. Qed.

(** With HOME, a link whose content is '~' (a file of that name beside it) is taken for the
    home directory when the path was relative. *)
Definition flagsH : nflags := {| n_absolute := false; n_follow := true; n_home := true; n_noparent := false |}.
Theorem path_norm_home_link_refuted :
  path_norm 4096 (fun _ => None) (Some [47; 114]) None (fun s _ => inr (if str_eqb s [108] then Some [126] else None)) Unix flagsH [108] = Ok (inr [47; 114]).
Proof. vm_compute. reflexivity. Qed.

(** ** Examples *)

(** '/a//./b/../../../c/' is '/c'; '../a/../../b' is '../../b'. *)
Example path_norm_ex1 : norm0 (fun _ => None) [47;97;47;47;46;47;98;47;46;46;47;46;46;47;46;46;47;99;47] = Ok (inr [47;99]) /\
  plain [47;97;47;47;46;47;98;47;46;46;47;46;46;47;46;46;47;99;47] /\ lexical flags0.
Proof.
  split; [reflexivity|]. split; [|repeat split]. split; [intros F; vm_compute in F; repeat (destruct F as [F|F]; [discriminate F|]); exact F|].
  vm_compute. repeat constructor; intros [[x F]|[x F]]; discriminate F.
Qed.
Example path_norm_ex2 : norm0 (fun _ => None) [46;46;47;97;47;46;46;47;46;46;47;98] = Ok (inr [46;46;47;46;46;47;98]).
Proof. reflexivity. Qed.
(** '/l/x' where /l is a link to 'd/e': '/d/e/x'; '/l/..' is '/d'. *)
Definition one_link : list (list N) -> option (list N) := fun d => if list_eq_dec (list_eq_dec N.eq_dec) d [[108]] then Some [100; 47; 101] else None.
Definition one_rl : list N -> bool -> fserr + option (list N) := fun s _ => inr (one_link (names s)).
Example path_norm_ex3 : path_norm 4096 (fun _ => None) None None one_rl Unix flagsL [47; 108; 47; 46; 46] = Ok (inr [47; 100]) /\
  reads one_link one_rl /\ one_link [] = None /\ (forall d s, one_link d = Some s -> plain s) /\
  full flagsL None [47; 108; 47; 46; 46] [[108]; dots] /\ Walk one_link [] [[108]; dots] [[100]] 1.
Proof.
  split; [reflexivity|]. split.
  { intros d last r D E. unfold one_rl in E. rewrite names_abs_path in E by (eapply Forall_impl; [|exact D]; apply is_name_piece). congruence. }
  split; [reflexivity|]. split.
  { intros d s E. unfold one_link in E. destruct (list_eq_dec _ d _); [|discriminate E]. injection E as <-. split.
    - intros [F|[F|[F|[]]]]; discriminate F.
    - vm_compute. repeat constructor; intros [[x F]|[x F]]; discriminate F. }
  split; [left; split; [now exists [108; 47; 46; 46]|reflexivity]|].
  eapply W_link; [discriminate|discriminate|reflexivity|intros [r F]; discriminate F|]. cbn [names names_from app N.eqb Pos.eqb].
  apply W_down; [discriminate|discriminate|reflexivity|]. apply W_down; [discriminate|discriminate|reflexivity|]. apply W_up. cbn. constructor.
Qed.
Example path_split_ex : path_split [47; 97; 47; 98; 47] Unix = (Some [47; 97], Some [98]) /\ path_split [98] Unix = (None, Some [98]).
Proof. split; reflexivity. Qed.
(** 'C:\a\..\..\b' on Windows. *)
Example path_norm_win : path_norm 260 (fun _ => None) None None (fun _ _ => inr None) Win flags0 [67;58;92;97;47;46;46;92;46;46;92;98] = Ok (inr [67;58;92;98]).
Proof. reflexivity. Qed.

Print Assumptions path_norm_meaning.
Print Assumptions path_norm_complete.
Print Assumptions path_norm_idempotent.
Print Assumptions path_norm_noparent.
Print Assumptions path_norm_absolute.
Print Assumptions path_norm_home.
Print Assumptions path_norm_links_sound.
Print Assumptions path_norm_links_complete.
Print Assumptions path_norm_ends.
Print Assumptions path_norm_env_unset.
Print Assumptions path_norm_env_set.
Print Assumptions path_split_meaning.
Print Assumptions path_join_meaning.
Print Assumptions path_norm_backslash_refuted.
Print Assumptions path_norm_dollar_refuted.
Print Assumptions path_norm_env_parent_refuted.
Print Assumptions path_norm_env_canonical_refuted.
Print Assumptions path_norm_loop_refuted.
Print Assumptions path_norm_home_link_refuted.

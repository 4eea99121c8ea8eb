(** Proofs for the TLS host name check. *)
From Verif Require Import Base.Lib Base.Mem Str.Model Str.Spec Str.Proofs Str.Props StrEq.Model StrEq.Spec StrEq.Proofs StrEq.Props.
From Verif Require Import TlsHost.Model TlsHost.Spec.
Local Open Scope N_scope.

(** ** Labels *)

Lemma join_app d a b : a <> [] -> b <> [] -> join d (a ++ b) = join d a ++ d :: join d b.
Proof.
  intros Ha Hb. induction a as [|p a IH]; [congruence|]. destruct a as [|q a].
  - cbn [app]. destruct b as [|x b]; [congruence|]. reflexivity.
  - change ((p :: q :: a) ++ b) with (p :: q :: (a ++ b)). change (join d (p :: q :: a ++ b)) with (p ++ d :: join d ((q :: a) ++ b)).
    rewrite IH by discriminate. cbn [join]. now rewrite <- app_assoc.
Qed.

Lemma labels_unique s a b : labels s a -> labels s b -> a = b.
Proof. intros (N1 & F1 & <-) (N2 & F2 & E). apply (join_unique dot); auto. Qed.

Lemma labels_ex s : exists ls, labels s ls.
Proof.
  induction s as [|c s (ls & N1 & F1 & E)].
  - exists [[]]. repeat split; auto; try discriminate.
  - destruct (N.eq_dec c dot) as [->|H].
    + exists ([] :: ls). split; [discriminate|]. split; [constructor; auto|]. destruct ls; [congruence|]. cbn [join app]. cbn [join] in E. now rewrite E.
    + destruct ls as [|l ls]; [congruence|]. exists ((c :: l) :: ls). inversion F1; subst. split; [discriminate|]. split.
      * constructor; auto. intros [X|X]; congruence.
      * rewrite !join_flat. reflexivity.
Qed.

Lemma labels_cons l s ls : ~ In dot l -> labels s ls -> labels (l ++ dot :: s) (l :: ls).
Proof.
  intros H (N1 & F1 & <-). split; [discriminate|]. split; [constructor; auto|]. change (l :: ls) with ([l] ++ ls).
  now rewrite join_app by (auto; discriminate).
Qed.

Lemma labels_app a b s t : labels s a -> labels t b -> labels (s ++ dot :: t) (a ++ b).
Proof.
  intros (N1 & F1 & <-) (N2 & F2 & <-). split; [destruct a; [congruence|discriminate]|]. split; [now apply Forall_app|].
  now apply join_app.
Qed.

Lemma nocase_map a : forall b, nocase a b <-> map low a = map low b.
Proof.
  unfold nocase. induction a as [|x a IH]; intros [|y b]; cbn [map]; split; intros H; try discriminate; auto; try (now inversion H).
  - inversion H; subst. f_equal; auto. now apply IH.
  - injection H as H1 H2. constructor; auto. now apply IH.
Qed.
Lemma nocase_sym a b : nocase a b -> nocase b a.
Proof. rewrite !nocase_map. auto. Qed.

Lemma low_dot c : low c = dot -> c = dot.
Proof. unfold low, dot. destruct ((65 <=? c) && (c <=? 90)) eqn:E; auto. intros. lia. Qed.

Lemma map_low_join ls : map low (join dot ls) = join dot (map (map low) ls).
Proof.
  induction ls as [|p ls IH]; auto. destruct ls as [|q ls]; auto. cbn [join map] in *. rewrite map_app. cbn [map]. now rewrite IH.
Qed.

Lemma nodot_low l : ~ In dot l -> ~ In dot (map low l).
Proof. intros H X. apply in_map_iff in X as (c & E & I). apply low_dot in E. congruence. Qed.

Lemma nocase_labels s t a b : labels s a -> labels t b -> (nocase s t <-> Forall2 nocase a b).
Proof.
  intros (N1 & F1 & <-) (N2 & F2 & <-). rewrite nocase_map, !map_low_join. split.
  - intros E. apply join_unique in E.
    + revert b E N2 F2. clear. induction a as [|p a IH]; intros [|q b] E N2 F2; try discriminate; constructor.
      * apply nocase_map. now injection E.
      * injection E as _ E. destruct b as [|q' b]; [destruct a; [constructor|discriminate]|]. apply IH; auto; try discriminate. now inversion F2.
    + rewrite Forall_map. eapply Forall_impl; [|exact F1]. cbn. apply nodot_low.
    + rewrite Forall_map. eapply Forall_impl; [|exact F2]. cbn. apply nodot_low.
    + destruct a; [congruence|discriminate].
    + destruct b; [congruence|discriminate].
  - intros F. f_equal. clear - F. induction F as [|p q a b H F IH]; auto. cbn. f_equal; auto. now apply nocase_map.
Qed.

Lemma in_join ls l c : In l ls -> In c l -> In c (join dot ls).
Proof.
  induction ls as [|p ls IH]; [easy|]. intros [->|H] Hc; rewrite join_flat; apply in_or_app; auto.
  right. destruct ls as [|q ls]; [easy|]. cbn [flat_map]. right. rewrite join_flat in IH. now apply IH.
Qed.
Lemma length_in_join ls l : In l ls -> (length l <= length (join dot ls))%nat.
Proof.
  induction ls as [|p ls IH]; [easy|]. intros [->|H]; rewrite join_flat, app_length; [lia|].
  destruct ls as [|q ls]; [easy|]. cbn [flat_map length app]. specialize (IH H). rewrite join_flat, app_length in IH. rewrite app_length. lia.
Qed.

(** A string argument: no NUL inside, bytes, of a possible size. *)
Definition okstr (s : list N) : Prop := no_nul s /\ is_bytes s /\ N.of_nat (length s) < size_max.

Lemma okstr_label s ls l : okstr s -> labels s ls -> In l ls -> okstr l.
Proof.
  intros (H1 & H2 & H3) (_ & _ & <-) I. unfold no_nul, is_bytes in *. rewrite Forall_forall in H1, H2. repeat split.
  - apply Forall_forall. intros c Hc. apply H1. now apply in_join with l.
  - apply Forall_forall. intros c Hc. apply H2. now apply in_join with l.
  - assert (X := length_in_join ls l I). lia.
Qed.

(** ** The pieces of the code *)

Lemma caseeq_ok a b z z' : okstr a -> okstr b -> exists r, caseeq (a ++ 0 :: z) (b ++ 0 :: z') = Ok r /\ (r = true <-> nocase a b).
Proof.
  intros (A1 & A2 & A3) (B1 & B2 & B3). unfold caseeq.
  destruct (str_eq_correct (Some (a ++ 0 :: z)) (Some (b ++ 0 :: z')) a b) as [_ (r & n & E & X)]; auto; try (eexists; reflexivity).
  rewrite E. cbn [bind]. eauto.
Qed.

Lemma is_empty_ok s z : no_nul s -> is_empty (s ++ 0 :: z) = Ok (match s with [] => true | _ => false end).
Proof. intros H. destruct s as [|c s]; [reflexivity|]. unfold is_empty. cbn. inversion H; subst. now rewrite (proj2 (N.eqb_neq c 0)). Qed.

Lemma explode_str_ok s z : no_nul s -> s <> [] -> exists ps, labels s ps /\ explode_str (s ++ 0 :: z) = Ok (Some (zpieces ps, starts 0 ps)).
Proof.
  intros Hn Hne. destruct (explode_ok 46 s z 0 Hn Hne) as (ps & F & J & L & E). exists ps. split.
  - split; [|split; auto]. intros ->. discriminate L.
  - unfold explode_str. rewrite strlen_ok by auto. cbn [bind]. rewrite E. reflexivity.
Qed.

Lemma piece_at ps : forall pre i p, nth_error ps i = Some p ->
  exists o r, rd (starts (length pre) ps) i = Ok o /\ skipn o (pre ++ zpieces ps) = p ++ 0 :: r.
Proof.
  induction ps as [|q ps IH]; intros pre i p H; [destruct i; discriminate|]. cbn [starts].
  replace (zpieces (q :: ps)) with ((q ++ [0]) ++ zpieces ps) by reflexivity. destruct i as [|i].
  - injection H as ->. exists (length pre), (zpieces ps). split; auto. rewrite skipn_app, skipn_all, Nat.sub_diag. cbn [app skipn]. now rewrite <- app_assoc.
  - destruct (IH (pre ++ q ++ [0]) i p H) as (o & r & E & X). exists o, r. split.
    + replace (length pre + length q + 1)%nat with (length (pre ++ q ++ [0])) by (rewrite !app_length; cbn; lia). exact E.
    + rewrite <- X. rewrite <- !app_assoc. reflexivity.
Qed.

Lemma wild_loop_ok ns hs : Forall okstr ns -> Forall okstr hs -> forall i, (i < length ns)%nat -> (i < length hs)%nat ->
  exists b, wild_loop (zpieces ns) (starts 0 ns) (zpieces hs) (starts 0 hs) i = Ok b /\
    (b = true <-> forall j, (1 <= j <= i)%nat -> nocase (nth j ns []) (nth j hs [])).
Proof.
  intros Fn Fh. induction i as [|i IH]; intros Hn Hh.
  - exists true. split; auto. split; auto. intros _ j. lia.
  - destruct (IH ltac:(lia) ltac:(lia)) as (b & E & X). cbn [wild_loop].
    destruct (nth_error ns (S i)) as [n|] eqn:En; [|apply nth_error_None in En; lia].
    destruct (nth_error hs (S i)) as [h|] eqn:Eh; [|apply nth_error_None in Eh; lia].
    destruct (piece_at ns [] (S i) n En) as (o1 & r1 & R1 & S1). destruct (piece_at hs [] (S i) h Eh) as (o2 & r2 & R2 & S2).
    cbn [length app] in R1, R2, S1, S2. rewrite R1, R2. cbn [bind]. rewrite S1, S2.
    destruct (caseeq_ok n h r1 r2) as (c & Ec & Xc).
    { rewrite Forall_forall in Fn. apply Fn. eapply nth_error_In; eauto. }
    { rewrite Forall_forall in Fh. apply Fh. eapply nth_error_In; eauto. }
    rewrite Ec. cbn [bind]. apply nth_error_nth with (d := []) in En, Eh. destruct c.
    + exists b. split; auto. rewrite X. split; [|intros H j Hj; apply H; lia]. intros H j Hj. destruct (Nat.eq_dec j (S i)) as [->|Hne]; [|apply H; lia].
      rewrite En, Eh. now apply Xc.
    + exists false. split; auto. split; [discriminate|]. intros H. specialize (H (S i) ltac:(lia)). rewrite En, Eh in H. apply Xc in H. discriminate.
Qed.

Lemma nth_Forall2 (q h : list (list N)) : (length q <= length h)%nat ->
  ((forall j, (1 <= j <= length q)%nat -> nocase (nth j ([] :: q) []) (nth j ([] :: h) [])) <-> Forall2 nocase q (firstn (length q) h)).
Proof.
  revert h. induction q as [|p q IH]; intros h L.
  - cbn. split; [constructor|intros _ j; lia].
  - destruct h as [|x h]; [cbn in L; lia|]. cbn [length firstn]. split.
    + intros H. constructor; [apply (H 1%nat); lia|]. apply IH; [cbn in L; lia|]. intros j Hj. destruct j as [|j]; [lia|]. apply (H (S (S j))). lia.
    + intros F. inversion F; subst. intros j Hj. destruct j as [|[|j]]; [lia|auto|]. apply IH with (j := S j) in H4; auto; [cbn in L; lia|lia].
Qed.

Lemma labels_wildcard rest ns : labels (wildcard ++ rest) ns -> exists q, ns = [42] :: q /\ labels rest q.
Proof.
  intros H. destruct (labels_ex rest) as (q & Q). exists q. split; auto. apply (labels_unique (wildcard ++ rest)); auto.
  apply (labels_cons [42] rest q); auto. intros [X|[]]. discriminate.
Qed.

Lemma match_wildcard_ok host name z z' multi : okstr host -> okstr name -> exists b,
  match_wildcard (host ++ 0 :: z) (name ++ 0 :: z') multi = Ok b /\
  (b = true <-> if multi then wild_prefix host name else wild host name).
Proof.
  intros Hh Hn. unfold match_wildcard. rewrite !is_empty_ok by (apply Hh || apply Hn). cbn [bind].
  assert (W : (if multi then wild_prefix host name else wild host name) -> host <> [] /\ exists rest, name = wildcard ++ rest).
  { destruct multi; [intros (l & r & r' & t & -> & -> & _)|intros (l & r & r' & -> & -> & _)]; (split; [destruct l; discriminate|eauto]). }
  destruct host as [|h0 host0] eqn:Eh; [exists false; split; auto; split; [discriminate|intros X; apply W in X; destruct X as [[] _]; auto]|].
  rewrite <- Eh in *. assert (Hhe : host <> []) by (subst; discriminate). clear Eh.
  destruct name as [|n0 name0] eqn:En; [exists false; split; auto; split; [discriminate|intros X; apply W in X; destruct X as [_ (r & X)]; discriminate]|].
  rewrite <- En in *. assert (Hne : name <> []) by (subst; discriminate). clear En. cbn [orb].
  destruct (str_eq_max_correct false (Some (name ++ 0 :: z')) (Some [42; 46; 0]) name wildcard 2) as (b & k & E & X);
    try (apply Hn); try (eexists; reflexivity); try (repeat constructor; discriminate).
  unfold str_eq_max. rewrite E. cbn [bind]. change (N.to_nat 2) with 2%nat in X. cbn [alike] in X. change (firstn 2 wildcard) with wildcard in X.
  destruct b; cbn [negb].
  2:{ exists false. split; auto. split; [discriminate|]. intros Y. apply W in Y as (_ & r & ->). destruct X as [_ X]. discriminate X. reflexivity. }
  assert (Ew : name = wildcard ++ skipn 2 name) by (rewrite <- (proj1 X eq_refl); symmetry; apply firstn_skipn). set (rest := skipn 2 name) in *. clearbody rest. clear X E.
  destruct (explode_str_ok host z) as (hs & Lh & E1); auto; [apply Hh|]. destruct (explode_str_ok name z') as (ns & Ln & E2); auto; [apply Hn|].
  rewrite E1, E2. cbn [bind]. cbn zeta. rewrite !length_starts. clear E1 E2.
  assert (Oh : Forall okstr hs) by (apply Forall_forall; intros; apply (okstr_label host hs); auto).
  assert (On : Forall okstr ns) by (apply Forall_forall; intros; apply (okstr_label name ns); auto).
  rewrite Ew in Ln. destruct (labels_wildcard _ _ Ln) as (q & -> & Lq). destruct hs as [|l h]; [destruct Lh; congruence|].
  cbn [length Nat.eqb orb]. assert (Nl : ~ In dot l) by (destruct Lh as (_ & F & _); now inversion F).
  assert (Lh' : h <> [] -> exists r', labels r' h /\ host = l ++ dot :: r').
  { intros Hn0. exists (join dot h). destruct Lh as (_ & F & Ej). inversion F; subst. split; [repeat split; auto|].
    change (l :: h) with ([l] ++ h). now rewrite join_app by (auto; discriminate). }
  assert (Qn : q <> []) by apply Lq.
  destruct (Nat.eqb_spec (length h) (length q)) as [El|El].
  - rewrite andb_false_r. destruct (Nat.ltb_spec (S (length h)) (S (length q))); [lia|]. rewrite Nat.sub_succ, Nat.sub_0_r.
    destruct (wild_loop_ok ([42] :: q) (l :: h) On Oh (length q)) as (b & E & X); [cbn; lia|cbn; lia|]. exists b. split; auto. rewrite X.
    assert (G : (forall j, (1 <= j <= length q)%nat -> nocase (nth j ([42] :: q) []) (nth j (l :: h) [])) <-> Forall2 nocase q h).
    { assert (X2 := nth_Forall2 q h ltac:(lia)). rewrite <- El, firstn_all, El in X2. rewrite <- X2. split; intros Y j Hj; specialize (Y j Hj); destruct j; try lia; exact Y. }
    rewrite G. destruct (Lh' ltac:(destruct h; [destruct q; [congruence|discriminate]|discriminate])) as (r' & Lr & Eh).
    rewrite <- (nocase_labels rest r' q h) by auto. destruct multi; split.
    + intros Y. exists l, rest, r', []. rewrite app_nil_r. repeat split; auto. now apply nocase_sym.
    + intros (l' & rest0 & r0 & t & E0 & E3 & Nl' & T & C). rewrite Ew in E0. apply app_inv_head in E0. subst rest0. apply nocase_sym in C.
      destruct (labels_ex r0) as (a & La).
      assert (Fl := proj1 (nocase_labels rest r0 q a Lq La) C). apply Forall2_length in Fl.
      destruct T as [->|(t0 & ->)].
      * rewrite app_nil_r in E3. assert (Q := labels_unique _ _ _ Lh ltac:(rewrite E3; apply labels_cons; eauto)). injection Q as -> ->.
        assert (r' = r0) by (destruct Lr as (_ & _ & <-), La as (_ & _ & <-); auto). congruence.
      * destruct (labels_ex t0) as (u & Lu).
        assert (Q := labels_unique _ _ _ Lh ltac:(rewrite E3; apply labels_cons; eauto; apply labels_app; eauto)). injection Q as -> ->.
        rewrite app_length in El. destruct u; [destruct Lu; congruence|]. cbn in El. lia.
    + intros Y. exists l, rest, r'. repeat split; auto. now apply nocase_sym.
    + intros (l' & rest0 & r0 & E0 & E3 & Nl' & C). rewrite Ew in E0. apply app_inv_head in E0. subst rest0. apply nocase_sym in C.
      destruct (labels_ex r0) as (a & La).
      assert (Q := labels_unique _ _ _ Lh ltac:(rewrite E3; apply labels_cons; eauto)). injection Q as -> ->.
      assert (r' = r0) by (destruct Lr as (_ & _ & <-), La as (_ & _ & <-); auto). congruence.
  - cbn [negb]. rewrite andb_true_r. destruct multi; cbn [negb].
    2:{ exists false. split; auto. split; [discriminate|]. intros (l' & rest0 & r0 & E0 & E3 & Nl' & C).
        rewrite Ew in E0. apply app_inv_head in E0. subst rest0. destruct (labels_ex r0) as (a & La).
        assert (Q := labels_unique _ _ _ Lh ltac:(rewrite E3; apply labels_cons; eauto)). injection Q as -> ->.
        apply (nocase_labels r0 rest a q) in C; auto. apply Forall2_length in C. lia. }
    destruct (Nat.ltb_spec (S (length h)) (S (length q))) as [Hl|Hl].
    + exists false. split; auto. split; [discriminate|]. intros (l' & rest0 & r0 & t & E0 & E3 & Nl' & T & C).
      rewrite Ew in E0. apply app_inv_head in E0. subst rest0. destruct (labels_ex r0) as (a & La).
      apply (nocase_labels r0 rest a q) in C; auto. apply Forall2_length in C. destruct T as [->|(t0 & ->)].
      * rewrite app_nil_r in E3. assert (Q := labels_unique _ _ _ Lh ltac:(rewrite E3; apply labels_cons; eauto)). injection Q as -> ->. lia.
      * destruct (labels_ex t0) as (u & Lu).
        assert (Q := labels_unique _ _ _ Lh ltac:(rewrite E3; apply labels_cons; eauto; apply labels_app; eauto)). injection Q as -> ->.
        rewrite app_length in Hl. lia.
    + rewrite Nat.sub_succ, Nat.sub_0_r.
      destruct (wild_loop_ok ([42] :: q) (l :: h) On Oh (length q)) as (b & E & X); [cbn; lia|cbn; lia|]. exists b. split; auto. rewrite X.
      assert (G : (forall j, (1 <= j <= length q)%nat -> nocase (nth j ([42] :: q) []) (nth j (l :: h) [])) <-> Forall2 nocase q (firstn (length q) h)).
      { rewrite <- nth_Forall2 by lia. split; intros Y j Hj; specialize (Y j Hj); destruct j; try lia; exact Y. }
      rewrite G. clear G X E. set (a := firstn (length q) h) in *. set (u := skipn (length q) h).
      assert (Eau : h = a ++ u) by (symmetry; apply firstn_skipn). assert (La : length a = length q) by (unfold a; rewrite firstn_length; lia).
      assert (Lu : u <> []). { intros Y. rewrite Y, app_nil_r in Eau. congruence. }
      assert (An : a <> []) by (destruct a; [destruct q; [congruence|discriminate]|discriminate]).
      assert (Fh : Forall (fun l => ~ In dot l) h) by (destruct Lh as (_ & F & _); now inversion F).
      assert (Lar : labels (join dot a) a) by (repeat split; auto; rewrite Eau in Fh; now apply Forall_app in Fh).
      rewrite <- (nocase_labels rest (join dot a) q a) by auto. split.
      * intros Y. destruct (Lh' ltac:(rewrite Eau; destruct a; [congruence|discriminate])) as (r' & Lr & Eh).
        exists l, rest, (join dot a), (dot :: join dot u). split; auto. split.
        { rewrite Eh. destruct Lr as (_ & _ & <-). rewrite Eau at 1. now rewrite join_app. }
        repeat split; auto; [right; eauto|now apply nocase_sym].
      * intros (l' & rest0 & r0 & t & E0 & E3 & Nl' & T & C). rewrite Ew in E0. apply app_inv_head in E0. subst rest0.
        destruct (labels_ex r0) as (a' & La'). assert (Cl := proj1 (nocase_labels r0 rest a' q La' Lq) C). apply Forall2_length in Cl.
        destruct T as [->|(t0 & ->)].
        -- rewrite app_nil_r in E3. assert (Q := labels_unique _ _ _ Lh ltac:(rewrite E3; apply labels_cons; eauto)). injection Q as _ Q. congruence.
        -- destruct (labels_ex t0) as (u' & Lu').
           assert (Q := labels_unique _ _ _ Lh ltac:(rewrite E3; apply labels_cons; eauto; apply labels_app; eauto)). injection Q as _ Q.
           rewrite Eau in Q. assert (a = a').
           { assert (Y := f_equal (firstn (length q)) Q). rewrite <- La in Y at 1. rewrite <- Cl in Y at 1.
             rewrite !firstn_app, !firstn_all, !Nat.sub_diag, !firstn_O, !app_nil_r in Y. exact Y. }
           subst a'. destruct La' as (_ & _ & Ej). rewrite Ej. now apply nocase_sym.
Qed.

(** ** Base domains *)

Lemma last_app_ne {A} (a b : list A) d : b <> [] -> last (a ++ b) d = last b d.
Proof.
  intros H. induction a as [|x a IH]; auto. cbn [app last]. destruct (a ++ b) eqn:E; auto.
  destruct a; [cbn in E; congruence|discriminate].
Qed.

Lemma base_unique s b b' : base_domain s b -> base_domain s b' -> b = b'.
Proof.
  intros (p & l & L & -> & N1 & W) (p' & l' & L' & -> & N2 & W').
  assert (E := labels_unique _ _ _ L L'). assert (El : last l [] = last l' []).
  { rewrite <- (last_app_ne p l []), <- (last_app_ne p' l' []) by auto. now rewrite E. }
  rewrite El in W. cbn zeta in *. set (w := if (length (last l' []) =? 2)%nat then 3%nat else 2%nat) in *.
  assert (LL := f_equal (@length _) E). rewrite !app_length in LL. f_equal.
  assert (length l = length l').
  { destruct W as [W|[-> W]], W' as [W'|[-> W']]; cbn [length] in LL; lia. }
  assert (length p = length p') by lia.
  assert (Y := f_equal (skipn (length p)) E). rewrite !skipn_app, skipn_all, Nat.sub_diag in Y. rewrite H0 in Y. rewrite skipn_all, Nat.sub_diag in Y. exact Y.
Qed.

Lemma pieces_ok ps : Forall no_nul ps -> forall pre blk, blk = pre ++ zpieces ps -> pieces blk (starts (length pre) ps) = Ok ps.
Proof.
  induction 1 as [|p ps H F IH]; intros pre blk ->; auto. cbn [starts pieces]. unfold piece.
  replace (zpieces (p :: ps)) with ((p ++ [0]) ++ zpieces ps) by reflexivity.
  rewrite skipn_app, skipn_all, Nat.sub_diag. cbn [app skipn]. rewrite <- app_assoc. cbn [app]. rewrite strlen_ok by auto. cbn [bind].
  rewrite rdn_ok. cbn [bind].
  replace (length pre + length p + 1)%nat with (length (pre ++ p ++ [0])) by (rewrite !app_length; cbn; lia).
  rewrite (IH (pre ++ p ++ [0]) (pre ++ p ++ 0 :: zpieces ps)); auto. now rewrite <- !app_assoc.
Qed.

Lemma skipn_starts ps : forall k o, (k <= length ps)%nat -> skipn k (starts o ps) = starts (o + length (zpieces (firstn k ps))) (skipn k ps).
Proof.
  intros k o H. rewrite <- (firstn_skipn k ps) at 1. rewrite starts_app, skipn_app, length_starts, firstn_length.
  rewrite skipn_all2 by (rewrite length_starts, firstn_length; lia). replace (k - Nat.min k (length ps))%nat with 0%nat by lia. reflexivity.
Qed.

Lemma zpieces_app a b : zpieces (a ++ b) = zpieces a ++ zpieces b.
Proof. unfold zpieces. now rewrite map_app, concat_app. Qed.

Lemma extract_ok s z g : okstr s -> s <> [] -> exists b r,
  extract_base_domain (s ++ 0 :: z) (repeat g 256) 256 = Ok (true, firstn 255 b ++ 0 :: r) /\ base_domain s b.
Proof.
  intros Hs Hne. unfold extract_base_domain. destruct (explode_str_ok s z) as (ps & L & E); auto; [apply Hs|].
  rewrite E. cbn [bind]. rewrite length_starts. assert (Np := proj1 L).
  assert (Op : Forall okstr ps) by (apply Forall_forall; intros; apply (okstr_label s ps); auto).
  destruct (Nat.eqb_spec (length ps) 0) as [X|_]; [destruct ps; [congruence|discriminate]|].
  destruct (exists_last Np) as (qs & p & Eps).
  assert (Hl : nth_error ps (length ps - 1) = Some p).
  { rewrite Eps, app_length. cbn [length]. rewrite nth_error_app2 by lia. replace (length qs + 1 - 1 - length qs)%nat with 0%nat by lia. auto. }
  destruct (piece_at ps [] _ _ Hl) as (o & r & R & SK). cbn [length app] in R, SK. rewrite R. cbn [bind]. rewrite SK.
  assert (Opp : okstr p) by (rewrite Forall_forall in Op; apply Op; rewrite Eps; apply in_or_app; cbn; auto).
  rewrite strlen_ok by apply Opp. cbn [bind]. cbn zeta.
  set (w := if (length p =? 2)%nat then 3%nat else 2%nat).
  assert (C : forall t zz, okstr t -> exists r, str_cpy_max (repeat g 256) 256 (t ++ 0 :: zz) None = Ok (true, firstn 255 t ++ 0 :: r)).
  { intros t zz Ht. eexists. rewrite str_cpy_correct; [reflexivity|apply Ht|rewrite repeat_length; lia]. }
  destruct (Nat.leb_spec (length ps) w) as [Hw|Hw].
  - destruct (C s z Hs) as (r' & ->). cbn [bind]. exists s, r'. split; auto. exists [], ps. cbn [app]. split; auto.
    split; [symmetry; apply L|]. split; auto. cbn zeta. assert (Elast : last ps [] = p) by (rewrite Eps; apply last_last).
    rewrite Elast. fold w. assert (D : length ps = w \/ (length ps < w)%nat) by lia. destruct D; [left|right; split]; auto.
  - set (k := (length ps - w)%nat). assert (Hk : (k <= length ps)%nat) by lia.
    rewrite skipn_starts by auto. cbn [Nat.add].
    assert (Els : ps = firstn k ps ++ skipn k ps) by (symmetry; apply firstn_skipn).
    assert (Len : length (skipn k ps) = w) by (rewrite skipn_length; subst k; lia).
    assert (Osk : Forall okstr (skipn k ps)) by (rewrite Els in Op; now apply Forall_app in Op).
    rewrite (pieces_ok (skipn k ps)).
    2:{ eapply Forall_impl; [|exact Osk]. intros a Ha. apply Ha. }
    2:{ rewrite <- zpieces_app. now rewrite <- Els. }
    cbn [bind]. rewrite (firstn_all2 (n := w)) by lia. rewrite implode_join.
    2:{ intros X. rewrite X in Len. subst w. destruct (length p =? 2)%nat; discriminate. }
    2:{ apply Forall_forall. intros a Ha. unfold has_restricted. apply not_true_iff_false. rewrite existsb_exists. intros (c & Hc & Y).
        unfold ceq in Y. rewrite !orb_true_iff, !andb_true_iff, !N.eqb_eq in Y.
        assert (Ha' : In a ps) by (rewrite Els; apply in_or_app; auto).
        destruct L as (_ & F & _). rewrite Forall_forall in F, Op. specialize (F a Ha'). destruct (Op a Ha') as (Z & _).
        unfold no_nul in Z. rewrite Forall_forall in Z. specialize (Z c Hc). destruct Y as [[[-> _]|[-> _]]|[-> _]]; auto. }
    assert (Lsk : labels (join dot (skipn k ps)) (skipn k ps)).
    { split; [intros X; rewrite X in Len; subst w; destruct (length p =? 2)%nat; discriminate|]. split; auto.
      destruct L as (_ & F & _). rewrite Els in F. now apply Forall_app in F. }
    assert (Oj : okstr (join dot (skipn k ps))).
    { destruct L as (_ & _ & Ej). assert (Ne : firstn k ps <> []) by (intros X; apply (f_equal (@length _)) in X; rewrite firstn_length in X; cbn in X; lia).
      rewrite Els, join_app in Ej by (auto; apply Lsk). destruct Hs as (S1 & S2 & S3). subst s. unfold no_nul, is_bytes in *.
      apply Forall_app in S1 as [_ S1], S2 as [_ S2]. inversion S1; inversion S2; subst. repeat split; auto. rewrite app_length in S3. cbn [length] in S3. lia. }
    assert (Ne : join dot (skipn k ps) <> []).
    { destruct (skipn k ps) as [|x [|y t]] eqn:Es.
      - cbn in Len. subst w. destruct (length p =? 2)%nat; discriminate.
      - cbn in Len. subst w. destruct (length p =? 2)%nat; discriminate.
      - cbn [join]. destruct x; discriminate. }
    change (fun d => join d) with join. fold dot. destruct (join dot (skipn k ps)) as [|j0 j] eqn:Ej; [congruence|]. rewrite <- Ej in *. clear Ej.
    destruct (C (join dot (skipn k ps)) [] Oj) as (r' & X). rewrite X. cbn [bind]. exists (join dot (skipn k ps)), r'. split; auto.
    exists (firstn k ps), (skipn k ps). rewrite <- Els. split; auto. split; auto. split; [apply Lsk|]. cbn zeta. left. rewrite Len.
    assert (last (skipn k ps) [] = p) as ->; auto. rewrite <- (last_app_ne (firstn k ps)) by apply Lsk. rewrite <- Els, Eps. apply last_last.
Qed.

Lemma base_len s b : base_domain s b -> (length b <= length s)%nat.
Proof.
  intros (p & l & (N1 & F1 & <-) & -> & N2 & W). destruct p as [|x p]; [cbn; lia|].
  rewrite join_app by (auto; discriminate). rewrite app_length. cbn [length]. lia.
Qed.
Lemma base_okstr s b : okstr s -> base_domain s b -> okstr b.
Proof.
  intros O (p & l & (N1 & F1 & <-) & -> & N2 & W). destruct p as [|x p]; [exact O|].
  rewrite join_app in O by (auto; discriminate). destruct O as (S1 & S2 & S3). unfold okstr, no_nul, is_bytes in *.
  apply Forall_app in S1 as [_ S1], S2 as [_ S2]. inversion S1; inversion S2; subst. repeat split; auto. rewrite app_length in S3. cbn [length] in S3. lia.
Qed.
Lemma okstr_firstn n s : okstr s -> okstr (firstn n s).
Proof.
  intros (S1 & S2 & S3). rewrite <- (firstn_skipn n s) in S1, S2. unfold okstr, no_nul, is_bytes in *. apply Forall_app in S1 as [S1 _], S2 as [S2 _].
  repeat split; auto. rewrite firstn_length. lia.
Qed.

Lemma host_match_ok host name z z' flags g : okstr host -> okstr name -> host <> [] -> flags <> 0 ->
  (has flags F_FUZZY = true -> length host <= 255 /\ length name <= 255)%nat ->
  exists b, host_match (host ++ 0 :: z) (name ++ 0 :: z') flags g = Ok b /\ (b = true <-> accepts flags host name).
Proof.
  intros Oh On Hh Hf HF. unfold host_match. rewrite !is_empty_ok by (apply Oh || apply On). cbn [bind].
  destruct host as [|h0 t0] eqn:Eh; [congruence|]. rewrite <- Eh in *. clear Eh.
  destruct name as [|n0 t1] eqn:En. { exists false. split; auto. split; [discriminate|]. intros [[] _]; auto. }
  rewrite <- En in *. assert (Nn : name <> []) by congruence. clear En. cbn [orb]. rewrite (proj2 (N.eqb_neq flags 0)) by auto.
  destruct (caseeq_ok host name z z' Oh On) as (b & E & X). rewrite E. cbn [bind].
  destruct b. { exists true. split; auto. split; auto. intros _. split; auto. left. now apply X. }
  assert (X' : ~ nocase host name) by (intros Y; apply X in Y; discriminate). clear X E.
  destruct (match_wildcard_ok host name z z' (has flags F_MULTI) Oh On) as (b & E & X).
  unfold accepts. destruct (has flags F_WILD) eqn:Fw.
  - rewrite E. cbn [bind]. destruct b. { exists true. split; auto. split; auto. intros _. split; auto. right. left. split; auto. now apply X. }
    assert (X2 : ~ (if has flags F_MULTI then wild_prefix host name else wild host name)) by (intros Y; apply X in Y; discriminate). clear X E.
    destruct (has flags F_FUZZY) eqn:Ff; cbn [negb].
    2:{ exists false. split; auto. split; [discriminate|]. intuition; discriminate. }
    assert (Ol : okstr localhost) by (unfold okstr, no_nul, is_bytes, is_byte, localhost, size_max; repeat split; try (repeat constructor; discriminate); vm_compute; reflexivity).
    destruct (caseeq_ok host localhost z [] Oh Ol) as (b & E & X). rewrite E. cbn [bind].
    destruct b. { exists true. split; auto. split; auto. intros _. split; auto. right. right. split; auto. left. now apply X. }
    assert (X3 : ~ nocase host localhost) by (intros Y; apply X in Y; discriminate). clear X E.
    destruct (extract_ok host z g Oh Hh) as (b1 & r1 & E1 & B1). rewrite E1. cbn [bind negb].
    destruct (extract_ok name z' g On Nn) as (b2 & r2 & E2 & B2). rewrite E2. cbn [bind negb].
    destruct (HF eq_refl) as [Lh Ln]. assert (L1 := base_len _ _ B1). assert (L2 := base_len _ _ B2).
    rewrite !firstn_all2 by lia. destruct (caseeq_ok b1 b2 r1 r2) as (b & E & X); [exact (base_okstr _ _ Oh B1)|exact (base_okstr _ _ On B2)|].
    exists b. split; auto. rewrite X. split.
    + intros Y. split; auto. right. right. split; auto. right. eauto.
    + intros (_ & [Y|[[_ Y]|[_ [Y|(c & c' & D & D' & Y)]]]]); try contradiction.
      now rewrite (base_unique _ _ _ B1 D), (base_unique _ _ _ B2 D').
  - cbn [bind]. clear X E b. destruct (has flags F_FUZZY) eqn:Ff; cbn [negb].
    2:{ exists false. split; auto. split; [discriminate|]. intuition; discriminate. }
    assert (Ol : okstr localhost) by (unfold okstr, no_nul, is_bytes, is_byte, localhost, size_max; repeat split; try (repeat constructor; discriminate); vm_compute; reflexivity).
    destruct (caseeq_ok host localhost z [] Oh Ol) as (b & E & X). rewrite E. cbn [bind].
    destruct b. { exists true. split; auto. split; auto. intros _. split; auto. right. right. split; auto. left. now apply X. }
    assert (X3 : ~ nocase host localhost) by (intros Y; apply X in Y; discriminate). clear X E.
    destruct (extract_ok host z g Oh Hh) as (b1 & r1 & E1 & B1). rewrite E1. cbn [bind negb].
    destruct (extract_ok name z' g On Nn) as (b2 & r2 & E2 & B2). rewrite E2. cbn [bind negb].
    destruct (HF eq_refl) as [Lh Ln]. assert (L1 := base_len _ _ B1). assert (L2 := base_len _ _ B2).
    rewrite !firstn_all2 by lia. destruct (caseeq_ok b1 b2 r1 r2) as (b & E & X); [exact (base_okstr _ _ Oh B1)|exact (base_okstr _ _ On B2)|].
    exists b. split; auto. rewrite X. split.
    + intros Y. split; auto. right. right. split; auto. right. eauto.
    + intros (_ & [Y|[[Y _]|[_ [Y|(c & c' & D & D' & Y)]]]]); try contradiction; try discriminate.
      now rewrite (base_unique _ _ _ B1 D), (base_unique _ _ _ B2 D').
Qed.

(** ** The certificate *)

Lemma strlen_max_nul l : strlen_max (l ++ [0]) (length l) = Ok (length l) <-> no_nul l.
Proof.
  split.
  - induction l as [|c l IH]; [constructor|]. cbn [app length strlen_max]. destruct (N.eqb_spec c 0) as [->|H]; [discriminate|].
    destruct (strlen_max (l ++ [0]) (length l)) as [n| |] eqn:E; try discriminate. cbn [bind]. intros X. injection X as ->. constructor; auto. now apply IH.
  - intros H. rewrite strlen_max_ok by auto. now rewrite Nat.min_id.
Qed.
Lemma strlen_max_def l : exists n, strlen_max (l ++ [0]) (length l) = Ok n.
Proof.
  induction l as [|c l (n & E)]; cbn; eauto. destruct (c =? 0); eauto. rewrite E. cbn. eauto.
Qed.
Lemma strlen_nul l : strlen (l ++ [0]) = Ok (length l) <-> no_nul l.
Proof.
  split; [|apply strlen_ok]. induction l as [|c l IH]; [constructor|]. cbn [app length strlen]. destruct (N.eqb_spec c 0) as [->|H]; [discriminate|].
  destruct (strlen (l ++ [0])) as [n| |] eqn:E; try discriminate. cbn [bind]. intros X. injection X as ->. constructor; auto. now apply IH.
Qed.
Lemma strlen_def l : exists n, strlen (l ++ [0]) = Ok n.
Proof. induction l as [|c l (n & E)]; cbn; eauto. destruct (c =? 0); eauto. rewrite E. cbn. eauto. Qed.

Section Cert.
Variable bin_to_ip : list N -> option (list N).
Hypothesis Hip : forall b ip, bin_to_ip b = Some ip -> no_nul ip /\ is_bytes ip /\ (0 < length ip < 64)%nat.

Lemma okstr_255 s : no_nul s -> is_bytes s -> (length s <= 255)%nat -> okstr s.
Proof. intros. repeat split; auto. unfold size_max. lia. Qed.

Definition sane (x : gname) : Prop := match x with GDns (Some l) => is_bytes l /\ (length l <= 255)%nat | _ => True end.

Lemma subjaltname_ok host z flags g : okstr host -> host <> [] -> flags <> 0 ->
  (has flags F_FUZZY = true -> length host <= 255)%nat -> forall sans, Forall sane sans ->
  exists b, subjaltname bin_to_ip sans (host ++ 0 :: z) flags g = Ok b /\
    (b = true <-> exists name, accepts flags host name /\
       ((In (GDns (Some name)) sans /\ no_nul name) \/ exists bin, In (GIp bin) sans /\ bin_to_ip bin = Some name)).
Proof.
  intros Oh Hh Hf HF sans. induction 1 as [|x sans S F IH].
  - exists false. split; auto. split; [discriminate|]. intros (n & _ & [[[] _]|(b & [] & _)]).
  - destruct IH as (b & E & X).
    assert (SKIP : (forall name, accepts flags host name -> ~ ((x = GDns (Some name) /\ no_nul name) \/ exists bin, x = GIp bin /\ bin_to_ip bin = Some name)) ->
      (b = true <-> exists name, accepts flags host name /\
       ((In (GDns (Some name)) (x :: sans) /\ no_nul name) \/ exists bin, In (GIp bin) (x :: sans) /\ bin_to_ip bin = Some name))).
    { intros Y. rewrite X. split.
      - intros (n & A & [[I N1]|(bin & I & B)]); exists n; split; auto; [left; split; auto; now right|right; exists bin; split; auto; now right].
      - intros (n & A & [[[I|I] N1]|(bin & [I|I] & B)]); [|exists n; split; auto| |exists n; split; auto; right; eauto];
          exfalso; apply (Y n A); [left; auto|right; eauto]. }
    destruct x as [[l|]|bin|]; cbn [subjaltname].
    + destruct S as [Bl Ll]. destruct (strlen_max_def l) as (n & En). rewrite En. cbn [bind].
      destruct (Nat.eqb_spec (length l) 0) as [L0|L0]; cbn [orb].
      { exists b. split; auto. apply SKIP. intros name A [[Y _]|(bin & Y & _)]; [|discriminate]. injection Y as ->. destruct name; [|discriminate]. destruct A as [[] _]; auto. }
      destruct (Nat.eqb_spec n (length l)) as [->|Hn]; cbn [negb].
      2:{ exists b. split; auto. apply SKIP. intros name A [[Y N1]|(bin & Y & _)]; [|discriminate]. injection Y as ->. apply strlen_max_nul in N1. congruence. }
      apply strlen_max_nul in En. rewrite str_cpy_max_correct by (rewrite ?repeat_length, ?app_length; cbn; lia). cbn [bind].
      replace (Nat.min (length l) (256 - 1)) with (length l) by lia. rewrite firstn_app, firstn_all, Nat.sub_diag, firstn_O, app_nil_r.
      destruct (host_match_ok host l z (skipn (length l + 1) (repeat g 256)) flags g) as (c & Ec & Xc); auto; [now apply okstr_255|].
      rewrite Ec. cbn [bind]. destruct c.
      * exists true. split; auto. split; auto. intros _. exists l. split; [now apply Xc|]. left. split; auto. now left.
      * exists b. split; auto. apply SKIP. intros name A [[Y N1]|(bin & Y & _)]; [|discriminate]. injection Y as ->. apply Xc in A. discriminate.
    + exists b. split; auto. apply SKIP. intros name A [[Y _]|(bin & Y & _)]; discriminate.
    + destruct (bin_to_ip bin) as [ip|] eqn:Ei.
      2:{ exists b. split; auto. apply SKIP. intros name A [[Y _]|(bin' & Y & B)]; [discriminate|]. congruence. }
      destruct (Hip _ _ Ei) as (I1 & I2 & I3). rewrite str_cpy_correct by (rewrite ?repeat_length; auto; lia). cbn [bind].
      rewrite firstn_all2 by lia.
      destruct (host_match_ok host ip z (skipn (Nat.min (length ip) (256 - 1) + 1) (repeat g 256)) flags g) as (c & Ec & Xc); auto; [apply okstr_255; auto; lia|lia|].
      rewrite Ec. cbn [bind]. destruct c.
      * exists true. split; auto. split; auto. intros _. exists ip. split; [now apply Xc|]. right. exists bin. split; auto. now left.
      * exists b. split; auto. apply SKIP. intros name A [[Y N1]|(bin' & Y & B)]; [discriminate|]. injection Y as ->. rewrite Ei in B. injection B as ->. apply Xc in A. discriminate.
    + exists b. split; auto. apply SKIP. intros name A [[Y _]|(bin & Y & _)]; discriminate.
Qed.

Definition sane_cn (flags : N) (x : option (list N)) : Prop :=
  match x with Some l => is_bytes l /\ N.of_nat (length l) < size_max /\ (has flags F_FUZZY = true -> length l <= 255)%nat | None => True end.

Lemma commonname_ok host z flags g : okstr host -> host <> [] -> flags <> 0 ->
  (has flags F_FUZZY = true -> length host <= 255)%nat -> forall cns, Forall (sane_cn flags) cns ->
  exists b, commonname cns (host ++ 0 :: z) flags g = Ok b /\
    (b = true <-> exists name, accepts flags host name /\ In (Some name) cns /\ no_nul name).
Proof.
  intros Oh Hh Hf HF cns. induction 1 as [|x cns S F IH].
  - exists false. split; auto. split; [discriminate|]. intros (n & _ & [] & _).
  - destruct IH as (b & E & X).
    assert (SKIP : (forall name, accepts flags host name -> ~ (x = Some name /\ no_nul name)) ->
      (b = true <-> exists name, accepts flags host name /\ In (Some name) (x :: cns) /\ no_nul name)).
    { intros Y. rewrite X. split.
      - intros (n & A & I & N1). exists n. split; auto. split; auto. now right.
      - intros (n & A & [I|I] & N1); [|exists n; auto]. exfalso. now apply (Y n A). }
    destruct x as [l|]; cbn [commonname].
    + destruct S as (Bl & Ll & Lf). destruct (strlen_def l) as (n & En). rewrite En. cbn [bind].
      destruct (Nat.eqb_spec (length l) 0) as [L0|L0]; cbn [orb].
      { exists b. split; auto. apply SKIP. intros name A [Y _]. injection Y as ->. destruct name; [|discriminate]. destruct A as [[] _]; auto. }
      destruct (Nat.eqb_spec n (length l)) as [->|Hn]; cbn [negb].
      2:{ exists b. split; auto. apply SKIP. intros name A [Y N1]. injection Y as ->. apply strlen_nul in N1. congruence. }
      apply strlen_nul in En. destruct (host_match_ok host l z [] flags g) as (c & Ec & Xc); auto; [now repeat split|].
      rewrite Ec. cbn [bind]. destruct c.
      * exists true. split; auto. split; auto. intros _. exists l. split; [now apply Xc|]. split; auto. now left.
      * exists b. split; auto. apply SKIP. intros name A [Y N1]. injection Y as ->. apply Xc in A. discriminate.
    + exists b. split; auto. apply SKIP. intros name A [Y _]; discriminate.
Qed.

Lemma verify_ok host z flags g sans cns : okstr host -> host <> [] ->
  (has flags F_FUZZY = true -> length host <= 255)%nat -> Forall sane sans -> Forall (sane_cn flags) cns ->
  exists b, verify_host bin_to_ip sans cns (host ++ 0 :: z) flags g = Ok b /\
    (b = true <-> exists name, cert_name bin_to_ip sans cns flags name /\ accepts flags host name).
Proof.
  intros Oh Hh HF Fs Fc. unfold verify_host. rewrite is_empty_ok by apply Oh. cbn [bind].
  destruct host as [|h0 t0] eqn:Eh; [congruence|]. rewrite <- Eh in *. clear Eh.
  destruct (N.eq_dec flags 0) as [->|Hf].
  { exists false. split; auto. split; [discriminate|]. intros (n & C & _). inversion C; discriminate. }
  destruct (subjaltname_ok host z flags g Oh Hh Hf HF sans Fs) as (b & E & X).
  destruct (commonname_ok host z flags g Oh Hh Hf HF cns Fc) as (c & E' & X').
  destruct (has flags F_SAN) eqn:FS; [rewrite E|]; cbn [bind].
  - destruct b.
    + exists true. split; auto. split; auto. intros _. destruct (proj1 X eq_refl) as (n & A & [[I N1]|(bin & I & B)]); exists n; split; auto; [apply cn_dns|apply (cn_ip _ _ _ _ bin)]; auto.
    + destruct (has flags F_CN) eqn:FC.
      * exists c. split; auto. rewrite X'. split.
        -- intros (n & A & I & N1). exists n. split; auto. apply cn_cn; auto.
        -- intros (n & C & A). inversion C; subst; eauto; exfalso; assert (false = true) by (apply X; eauto 8); discriminate.
      * exists false. split; auto. split; [discriminate|]. intros (n & C & A). inversion C; subst; try congruence; apply X; eauto 8.
  - destruct (has flags F_CN) eqn:FC.
    + exists c. split; auto. rewrite X'. split.
      * intros (n & A & I & N1). exists n. split; auto. apply cn_cn; auto.
      * intros (n & C & A). inversion C; subst; eauto; congruence.
    + exists false. split; auto. split; [discriminate|]. intros (n & C & A). inversion C; subst; congruence.
Qed.
End Cert.

(** Proofs for the string comparison functions. *)
From Verif Require Import Base.Lib Base.Mem StrEq.Model StrEq.Spec.
Local Open Scope N_scope.

Lemma Forall2_length {A B} (R : A -> B -> Prop) a b : Forall2 R a b -> length a = length b.
Proof. induction 1; cbn; auto. Qed.

Lemma tolower_low c : is_byte c -> ct_tolower c = low c.
Proof.
  intros H. assert (T : forallb (fun c => ct_tolower (N.of_nat c) =? low (N.of_nat c)) (seq 0 256) = true) by (vm_compute; reflexivity).
  rewrite forallb_forall in T. specialize (T (N.to_nat c)). rewrite N2Nat.id in T. apply N.eqb_eq, T, in_seq.
  unfold is_byte in H. lia.
Qed.

Definition diff (ci : bool) (a b : N) : N := if ci then N.lxor (ct_tolower a) (ct_tolower b) else N.lxor a b.
Definition ceqb (ci : bool) (a b : N) : bool := if ci then low a =? low b else a =? b.

Lemma diff_0 ci a b : is_byte a -> is_byte b -> (diff ci a b =? 0) = ceqb ci a b.
Proof.
  intros Ha Hb. unfold diff, ceqb. destruct ci.
  - rewrite !tolower_low by auto. apply eq_true_iff_eq. rewrite !N.eqb_eq. apply N.lxor_eq_0_iff.
  - apply eq_true_iff_eq. rewrite !N.eqb_eq. apply N.lxor_eq_0_iff.
Qed.

(** Do the two strings agree up to the length of the shorter, and at most [n]? *)
Fixpoint agree (ci : bool) (n : nat) (a b : list N) : bool :=
  match n, a, b with
  | S n', x :: a', y :: b' => ceqb ci x y && agree ci n' a' b'
  | _, _, _ => true
  end.

Lemma eq_loop_ok ci max : forall s1 s2 z1 z2 i r,
  no_nul s1 -> no_nul s2 -> is_bytes s1 -> is_bytes s2 -> i <= max ->
  exists r', eq_loop ci max (s1 ++ 0 :: z1) (s2 ++ 0 :: z2) i r =
    (let k := Nat.min (N.to_nat (max - i)) (Nat.min (length s1) (length s2)) in
    Ok (r', i + N.of_nat k, skipn k (s1 ++ 0 :: z1), skipn k (s2 ++ 0 :: z2))) /\
    (r' =? 0) = (r =? 0) && agree ci (N.to_nat (max - i)) s1 s2.
Proof.
  induction s1 as [|c1 s1 IH]; intros s2 z1 z2 i r N1 N2 B1 B2 Hi.
  - exists r. cbn [app eq_loop length]. rewrite Nat.min_0_l, Nat.min_0_r. cbn zeta. cbn [N.of_nat skipn]. rewrite N.add_0_r.
    split.
    + destruct (N.ltb_spec i max); reflexivity.
    + destruct (N.to_nat (max - i)); cbn; now rewrite andb_true_r.
  - cbn [app eq_loop]. destruct (N.ltb_spec i max) as [Hl|Hl]; cbn [negb].
    2:{ exists r. replace (max - i) with 0 by lia. cbn. rewrite N.add_0_r, andb_true_r. auto. }
    inversion N1 as [|? ? Hc1 N1']; inversion B1 as [|? ? Hb1 B1']; subst.
    rewrite (proj2 (N.eqb_neq c1 0)) by auto. destruct s2 as [|c2 s2].
    + exists r. cbn [app]. cbn [N.eqb length]. rewrite !Nat.min_0_r. cbn zeta. cbn [N.of_nat skipn]. rewrite N.add_0_r.
      split; auto. destruct (N.to_nat (max - i)); cbn; now rewrite andb_true_r.
    + cbn [app]. inversion N2 as [|? ? Hc2 N2']; inversion B2 as [|? ? Hb2 B2']; subst.
      rewrite (proj2 (N.eqb_neq c2 0)) by auto.
      destruct (IH s2 z1 z2 (i + 1) (N.lor r (diff ci c1 c2)) N1' N2' B1' B2' ltac:(lia)) as (r' & E & R).
      exists r'. fold (diff ci c1 c2). rewrite E. clear E.
      replace (N.to_nat (max - i)) with (S (N.to_nat (max - (i + 1)))) by lia. cbn [length Nat.min agree]. cbn zeta.
      split.
      * cbn [skipn]. do 4 f_equal. lia.
      * rewrite R. rewrite andb_assoc. f_equal. rewrite <- diff_0 by auto.
        apply eq_true_iff_eq. rewrite andb_true_iff, !N.eqb_eq. apply N.lor_eq_0_iff.
Qed.

Lemma ceqb_iff ci a b : ceqb ci a b = true <-> (if ci then low a = low b else a = b).
Proof. unfold ceqb. destruct ci; apply N.eqb_eq. Qed.

Lemma alike_nil ci : alike ci [] [].
Proof. destruct ci; constructor. Qed.
Lemma alike_cons ci x y a b : alike ci (x :: a) (y :: b) <-> ceqb ci x y = true /\ alike ci a b.
Proof.
  rewrite ceqb_iff. unfold alike, nocase. destruct ci; split.
  - inversion 1; auto.
  - intros []; constructor; auto.
  - intros E; injection E; auto.
  - intros []; congruence.
Qed.
Lemma alike_len ci a b : alike ci a b -> length a = length b.
Proof. unfold alike, nocase. destruct ci; [apply Forall2_length|congruence]. Qed.

Lemma alike_agree ci : forall n a b,
  alike ci (firstn n a) (firstn n b) <-> agree ci n a b = true /\ Nat.min n (length a) = Nat.min n (length b).
Proof.
  induction n as [|n IH]; intros [|x a] [|y b]; cbn [firstn agree length Nat.min].
  1-4: split; auto using alike_nil.
  - split; auto using alike_nil.
  - split; [intros H; apply alike_len in H; cbn in H; lia|intros [_ H]; lia].
  - split; [intros H; apply alike_len in H; cbn in H; lia|intros [_ H]; lia].
  - rewrite alike_cons, IH, andb_true_iff. intuition lia.
Qed.

Lemma skipn_hd s (k : nat) z : no_nul s -> (k <= length s)%nat ->
  exists c, rd (skipn k (s ++ 0 :: z)) 0 = Ok c /\ (c =? 0) = (length s <=? k)%nat.
Proof.
  revert k. induction s as [|x s IH]; intros k N1 H; cbn [length] in *.
  - replace k with 0%nat by lia. exists 0. auto.
  - inversion N1; subst. destruct k as [|k].
    + exists x. cbn. split; auto. now apply N.eqb_neq.
    + destruct (IH k) as (c & E & R); auto; try lia. exists c. cbn [app skipn]. split; auto.
Qed.

Lemma str_of_denotes s t : denotes s t -> exists z, str_of s = t ++ 0 :: z.
Proof. destruct s as [m|]; cbn; eauto. intros ->. now exists []. Qed.
Lemma eq_str_of s1 s2 max ci : eq_max_int s1 s2 max ci = eq_max_int (Some (str_of s1)) (Some (str_of s2)) max ci.
Proof. reflexivity. Qed.
Lemma len_of_denotes s t : denotes s t -> no_nul t -> len_of s = Ok (length t).
Proof. destruct s as [m|]; cbn. - intros (z & ->) H. now apply strlen_ok. - now intros ->. Qed.

Lemma eq_max_ok ci max s1 s2 z1 z2 : no_nul s1 -> no_nul s2 -> is_bytes s1 -> is_bytes s2 ->
  exists b, eq_max_int (Some (s1 ++ 0 :: z1)) (Some (s2 ++ 0 :: z2)) max ci =
    Ok (b, N.min max (N.of_nat (Nat.min (length s1) (length s2)))) /\
  (b = true <-> alike ci (firstn (N.to_nat max) s1) (firstn (N.to_nat max) s2)).
Proof.
  intros N1 N2 B1 B2. unfold eq_max_int. cbn [str_of].
  destruct (eq_loop_ok ci max s1 s2 z1 z2 0 0 N1 N2 B1 B2 ltac:(lia)) as (r & E & R). rewrite E. clear E.
  cbn zeta. cbn [bind]. rewrite N.add_0_l, N.sub_0_r in *. cbn [N.eqb andb] in R.
  set (k := Nat.min (N.to_nat max) (Nat.min (length s1) (length s2))).
  assert (Ek : N.of_nat k = N.min max (N.of_nat (Nat.min (length s1) (length s2)))) by (subst k; lia).
  rewrite <- Ek. setoid_rewrite alike_agree. destruct (r =? 0); cbn [negb].
  2:{ exists false. split; auto. rewrite <- R. intuition congruence. }
  destruct (N.eqb_spec (N.of_nat k) max) as [Em|Em].
  - exists true. split; auto. split; auto. intros _. split; auto. subst k. lia.
  - destruct (skipn_hd s1 k z1 N1 ltac:(subst k; lia)) as (a & Ea & Ra).
    destruct (skipn_hd s2 k z2 N2 ltac:(subst k; lia)) as (b & Eb & Rb).
    rewrite Ea, Eb. cbn [bind]. rewrite Ra, Rb. rewrite <- R.
    destruct (Nat.leb_spec (length s1) k), (Nat.leb_spec (length s2) k); cbn [negb andb orb]; eexists; (split; [reflexivity|]).
    + split; auto. intros _. split; auto. subst k; lia.
    + split; [discriminate|]. intros [_ X]. exfalso. subst k. lia.
    + split; [discriminate|]. intros [_ X]. exfalso. subst k. lia.
    + exfalso. subst k. lia.
Qed.

Lemma firstn_size {A} (s : list A) : N.of_nat (length s) < size_max -> firstn (N.to_nat size_max) s = s.
Proof. intros H. apply firstn_all2. lia. Qed.

(** The first string only has to be as long as the second (it need not be
    terminated there). *)
Lemma eq_loop_pre ci : forall s1 s2 z1 z2 i r,
  no_nul s1 -> no_nul s2 -> is_bytes s1 -> is_bytes s2 -> length s1 = length s2 ->
  exists r', eq_loop ci (i + N.of_nat (length s2)) (s1 ++ z1) (s2 ++ z2) i r = Ok (r', i + N.of_nat (length s2), z1, z2) /\
    (r' =? 0) = (r =? 0) && agree ci (length s2) s1 s2.
Proof.
  induction s1 as [|c1 s1 IH]; intros [|c2 s2] z1 z2 i r N1 N2 B1 B2 L; try discriminate.
  - exists r. cbn [length N.of_nat app]. rewrite N.add_0_r. cbn [agree]. rewrite andb_true_r. split; auto.
    assert (X : (i <? i) = false) by (apply N.ltb_irrefl). destruct z1; cbn [eq_loop]; now rewrite X.
  - cbn [length app eq_loop]. destruct (N.ltb_spec i (i + N.of_nat (S (length s2)))); [|lia]. cbn [negb].
    inversion N1 as [|? ? Hc1 N1']; inversion B1 as [|? ? Hb1 B1']; subst.
    inversion N2 as [|? ? Hc2 N2']; inversion B2 as [|? ? Hb2 B2']; subst.
    rewrite (proj2 (N.eqb_neq c1 0)), (proj2 (N.eqb_neq c2 0)) by auto.
    fold (diff ci c1 c2).
    destruct (IH s2 z1 z2 (i + 1) (N.lor r (diff ci c1 c2)) N1' N2' B1' B2' ltac:(cbn in L; lia)) as (r' & E & R).
    exists r'. replace (i + N.of_nat (S (length s2))) with (i + 1 + N.of_nat (length s2)) by lia. rewrite E. split; auto.
    rewrite R. cbn [agree]. rewrite andb_assoc. f_equal. rewrite <- diff_0 by auto.
    apply eq_true_iff_eq. rewrite andb_true_iff, !N.eqb_eq. apply N.lor_eq_0_iff.
Qed.

Lemma agree_alike ci a b : length a = length b -> (agree ci (length b) a b = true <-> alike ci a b).
Proof.
  intros L. assert (X := alike_agree ci (length b) a b). rewrite firstn_all, <- L, firstn_all, Nat.min_id in X. rewrite <- L. tauto.
Qed.

Lemma eq_same_len ci s1 s2 z1 z2 : no_nul s1 -> no_nul s2 -> is_bytes s1 -> is_bytes s2 -> length s1 = length s2 ->
  exists b, eq_max_int (Some (s1 ++ z1)) (Some (s2 ++ z2)) (N.of_nat (length s2)) ci = Ok (b, N.of_nat (length s2)) /\
  (b = true <-> alike ci s1 s2).
Proof.
  intros N1 N2 B1 B2 L. unfold eq_max_int. cbn [str_of].
  destruct (eq_loop_pre ci s1 s2 z1 z2 0 0 N1 N2 B1 B2 L) as (r & E & R). rewrite N.add_0_l in E. rewrite E.
  cbn [bind]. rewrite N.eqb_refl. cbn [N.eqb andb] in R. assert (G := agree_alike ci s1 s2 L). rewrite <- R in G.
  destruct (r =? 0); cbn [negb]; eexists; split; eauto.
Qed.

(** casestr *)
Lemma casestr_loop_ok needle zn : no_nul needle -> is_bytes needle -> forall n pre s z,
  no_nul s -> is_bytes s -> length s = n ->
  exists r, casestr_loop (pre ++ s ++ 0 :: z) (needle ++ 0 :: zn) (length pre) n (length needle) = Ok r /\
  match r with
  | Some i => exists k, i = (length pre + k)%nat /\ (k < length s)%nat /\ found_at s needle k /\ forall j, (j < k)%nat -> ~ found_at s needle j
  | None => forall j, (j < length s)%nat -> ~ found_at s needle j
  end.
Proof.
  intros Nn Bn. induction n as [|n IH]; intros pre s z Ns Bs L.
  - exists None. split; auto. intros j H. lia.
  - cbn [casestr_loop]. destruct (Nat.ltb_spec (S n) (length needle)) as [Hl|Hl].
    + exists None. split; auto. intros j _ (p & m & q & E & _ & F). apply Forall2_length in F.
      assert (X := f_equal (@length N) E). rewrite !app_length in X. lia.
    + rewrite skipn_app, skipn_all, Nat.sub_diag. cbn [app skipn]. unfold str_caseeq_max.
      assert (L1 : length (firstn (length needle) s) = length needle) by (rewrite firstn_length; lia).
      destruct (eq_same_len true (firstn (length needle) s) needle (skipn (length needle) s ++ 0 :: z) (0 :: zn)) as (b & E & B); auto.
      { rewrite <- (firstn_skipn (length needle) s) in Ns. now apply Forall_app in Ns. }
      { rewrite <- (firstn_skipn (length needle) s) in Bs. now apply Forall_app in Bs. }
      rewrite app_assoc, firstn_skipn in E. rewrite E. cbn [bind]. destruct b.
      * exists (Some (length pre)). split; auto. exists 0%nat. split; [lia|]. split; [lia|]. split; [|intros; lia].
        exists [], (firstn (length needle) s), (skipn (length needle) s). cbn. rewrite firstn_skipn. repeat split; auto. now apply B.
      * destruct s as [|c s]; [discriminate|]. inversion Ns; inversion Bs; subst.
        destruct (IH (pre ++ [c]) s z) as (r & E' & R); auto.
        rewrite app_length, <- app_assoc in E'. cbn [app length] in E'. rewrite Nat.add_1_r in E'. exists r. split; [exact E'|].
        assert (Z : ~ found_at (c :: s) needle 0).
        { intros (p & m & q & E1 & E2 & F). destruct p; [|discriminate]. cbn [app] in E1.
          assert (m = firstn (length needle) (c :: s)) as ->.
          { rewrite E1. rewrite <- (Forall2_length _ _ _ F). rewrite firstn_app, firstn_all, Nat.sub_diag, firstn_O, app_nil_r. auto. }
          apply B in F. discriminate. }
        assert (SS : forall j, found_at (c :: s) needle (S j) -> found_at s needle j).
        { intros j (p & m & q & E1 & E2 & F). destruct p as [|x p]; [discriminate|]. injection E1 as -> E1.
          exists p, m, q. repeat split; auto. }
        destruct r as [i|].
        -- destruct R as (k & -> & Hk & F & M). exists (S k). rewrite app_length. cbn [length]. split; [lia|]. split; [lia|]. split.
           ++ destruct F as (p & m & q & E1 & E2 & F). exists (c :: p), m, q. cbn. repeat split; auto; congruence.
           ++ intros [|j] Hj; auto. intros X. apply SS in X. apply (M j); auto. lia.
        -- intros [|j] Hj; auto. intros X. apply SS in X. apply (R j); auto. cbn in Hj. lia.
Qed.

(** Appending, searching and reading; the refinement over operation lists. *)
From Verif Require Buf.Proofs.
From Verif Require Import Base.Lib Base.Mem Hex.Model Buf.Model MemFn.Model MemFn.Spec MemFn.Proofs Parser.Spec Parser.Model Parser.Proofs.
Local Open Scope N_scope.

(** ** Appending *)
Lemma round_up_ge n : (0 < n -> n <= round_up n)%nat.
Proof.
  intros H. unfold round_up. destruct (Nat.eq_dec n 1) as [->|]; [cbn; lia|].
  apply Nat.log2_up_spec. lia.
Qed.

Lemma shift_markrel pre past m k start : markrel pre past m k -> (forall x, m = Some x -> start <= x)%nat ->
  (start <= length pre)%nat -> markrel (skipn start pre) past (shift_mark start m) k.
Proof.
  destruct m as [m|], k as [k|]; cbn; auto. intros (H1 & H2 & H3) H L. specialize (H m eq_refl).
  rewrite skipn_length. repeat split; try lia. rewrite skipn_skipn. replace (start + (m - start))%nat with m by lia. auto.
Qed.

(** The chop to the left *)
Lemma chop_ok p s : Rep p s -> mark_safe s -> pdyn p = true -> pmem p <> [] ->
  let start := match min_mark true true p with None => ppos p | Some k => k end in
  (start <= ppos p)%nat /\
  let keep := (plen p + (ppos p - start))%nat in
  exists m u i, (if negb (start =? 0)%nat && negb (keep =? 0)%nat then
          do m <- mmove (pmem p) 0 start keep;
          Ok (m, shift_mark start (mu p), shift_mark start (mi p))
        else Ok (pmem p, mu p, mi p)) = Ok (m, u, i) /\ length m = length (pmem p) /\ (keep <= length m)%nat /\
    Rep (mkp (pdyn p) m (ppos p - start) (plen p) (pcons p) u i (ptrack p) (pline p) (pcol p)) s.
Proof.
  intros (pre & post & R) SAFE D NE start.
  pose proof (min_mark_ok _ _ _ _ true true R) as M. fold start.
  assert (HS : (start <= ppos p)%nat).
  { unfold start. destruct (min_mark true true p); [|lia]. destruct (smin true true s); [|contradiction].
    rewrite <- (r_pos _ _ _ _ R). apply M. }
  split; auto. intros keep.
  pose proof R as R0. destruct R as [Hm Hp Hl Hc Hle Hmu Hmi Hco Hb Hli Hcol].
  assert (KL : (start + keep <= length (pmem p))%nat) by (rewrite Hm, !app_length; unfold keep; lia).
  assert (PLE : forall x, mu p = Some x -> (start <= x)%nat).
  { intros x X. unfold start. destruct (min_mark true true p) eqn:E.
    - apply (proj1 (min_mark_le _ _ _ _ E) eq_refl _ X).
    - unfold min_mark in E. rewrite X in E. destruct (mi p); [destruct (_ <? _)%nat|]; discriminate. }
  assert (PLI : forall x, mi p = Some x -> (start <= x)%nat).
  { intros x X. unfold start. destruct (min_mark true true p) eqn:E.
    - apply (proj2 (min_mark_le _ _ _ _ E) eq_refl _ X).
    - unfold min_mark in E. rewrite X in E. destruct (mu p); [destruct (_ <? _)%nat|]; discriminate. }
  destruct (Nat.eqb_spec start 0) as [Z|Z]; cbn [negb andb].
  - exists (pmem p), (mu p), (mi p). split; [reflexivity|]. split; [reflexivity|]. split; [lia|].
    exists pre, post. constructor; cbn; auto; lia.
  - destruct (Nat.eqb_spec keep 0) as [K|K]; cbn [negb].
    + (* nothing kept: no mark may exist *)
      exists (pmem p), (mu p), (mi p). split; [reflexivity|]. split; [reflexivity|]. split; [lia|].
      assert (E0 : rest s = []) by (destruct (rest s); auto; unfold keep in K; rewrite Hl in K; cbn in K; lia).
      assert (ES : start = ppos p) by (unfold keep in K; lia).
      assert (NM : mu p = None /\ mi p = None /\ um s = None /\ im s = None).
      { destruct (SAFE E0) as [X|[(X & Y)|[X|X]]].
        - rewrite X in Hle. cbn in Hle. lia.
        - rewrite X in Hmu. rewrite Y in Hmi. destruct (mu p); [contradiction|]. destruct (mi p); [contradiction|]. auto.
        - exfalso. unfold since in X. destruct (um s); [|lia]. destruct (mu p) as [x|]; [|contradiction].
          pose proof (markrel_sum _ _ _ _ Hmu). specialize (PLE x eq_refl). lia.
        - exfalso. unfold since in X. destruct (im s); [|lia]. destruct (mi p) as [x|]; [|contradiction].
          pose proof (markrel_sum _ _ _ _ Hmi). specialize (PLI x eq_refl). lia. }
      destruct NM as (N1 & N2 & N3 & N4).
      exists [], (pmem p). constructor; cbn; rewrite ?N1, ?N2, ?N3, ?N4; cbn; auto; try lia.
      * now rewrite E0.
      * congruence.
    + assert (EM : pmem p = firstn start pre ++ (skipn start pre ++ rest s) ++ post).
      { rewrite Hm. rewrite <- (firstn_skipn start pre) at 1. now rewrite <- !app_assoc. }
      assert (EK : keep = length (skipn start pre ++ rest s)) by (rewrite app_length, skipn_length; unfold keep; lia).
      unfold mmove.
      assert (RD : rdn (pmem p) start keep = Ok (skipn start pre ++ rest s)).
      { rewrite EM. apply rdn_at; auto. rewrite firstn_length. lia. }
      rewrite RD. cbn [bind]. rewrite wrn_lt by (rewrite <- EK; lia). cbn [bind firstn app].
      do 3 eexists. split; [reflexivity|].
      assert (LL : length ((skipn start pre ++ rest s) ++ skipn (0 + length (skipn start pre ++ rest s)) (pmem p)) = length (pmem p)).
      { rewrite app_length, (skipn_length (0 + _)). rewrite <- EK. lia. }
      split; [exact LL|]. split; [rewrite LL; lia|].
      exists (skipn start pre), (skipn (0 + length (skipn start pre ++ rest s)) (pmem p)).
      constructor; cbn [past rest um im pmem ppos plen pcons mu mi pdyn ptrack pline pcol]; auto.
      * rewrite <- app_assoc. reflexivity.
      * rewrite skipn_length. lia.
      * lia.
      * apply shift_markrel; auto; lia.
      * apply shift_markrel; auto; lia.
      * congruence.
Qed.

Lemma rep_grow p s m : Rep p s -> (exists x, m = pmem p ++ x) -> Rep (set_mem p m) s.
Proof.
  intros (pre & post & [Hm Hp Hl Hc Hle Hmu Hmi Hco Hb Hli Hcol]) (x & ->).
  exists pre, (post ++ x). constructor; cbn; auto. rewrite Hm. now rewrite <- !app_assoc.
Qed.

Lemma ensure_ok g p s n : Rep p s -> (0 < n)%nat -> mark_safe s -> pdyn p = true ->
  exists p', ensure_space g p n = Ok p' /\ Rep p' s /\ pdyn p' = true /\ (ppos p' + plen p' + n <= length (pmem p'))%nat.
Proof.
  intros R Hn SAFE D. unfold ensure_space.
  assert (exists q keep, chop p = Ok (q, keep) /\
    Rep q s /\ pdyn q = true /\ keep = (ppos q + plen q)%nat /\ (keep <= length (pmem q))%nat) as (q & keep & E & RQ & DQ & EK & KL).
  { unfold chop. destruct (Nat.eqb_spec (length (pmem p)) 0) as [Z|Z].
    - exists p, O. split; [reflexivity|]. destruct R as (pre & post & R). pose proof (r_mem _ _ _ _ R) as M.
      rewrite M, !app_length in Z. pose proof (r_pos _ _ _ _ R). pose proof (r_len _ _ _ _ R).
      split; [exists pre, post; auto|]. split; auto. split; lia.
    - destruct (chop_ok p s R SAFE D) as (HS & m & u & i & E & L & K & RQ).
      { intros X. rewrite X in Z. cbn in Z. lia. }
      cbv zeta. destruct (Nat.ltb_spec (ppos p) (match min_mark true true p with None => ppos p | Some k => k end)); [lia|].
      rewrite E. cbn [bind]. do 2 eexists. split; [reflexivity|]. split; [exact RQ|]. split; [exact D|].
      cbn [ppos plen pmem]. split; lia. }
  rewrite E. cbn [bind]. destruct (Nat.eqb_spec n 0); [lia|].
  destruct (_ || _) eqn:B.
  - eexists. split; [reflexivity|].
    assert (LT : (length (pmem q) < keep + n)%nat).
    { apply orb_prop in B as [B|B]; [apply Nat.eqb_eq in B|apply Nat.ltb_lt in B]; lia. }
    pose proof (round_up_ge (keep + n) ltac:(lia)).
    assert (ER : realloc g (Some (pmem q)) (round_up (keep + n)) = pmem q ++ repeat g (round_up (keep + n) - length (pmem q))).
    { unfold realloc. rewrite firstn_all2 by lia. reflexivity. }
    rewrite ER. split; [apply rep_grow; eauto|]. split; [exact DQ|]. cbn [set_mem ppos plen pmem]. llen.
  - apply orb_false_elim in B as [_ B]. apply Nat.ltb_ge in B.
    eexists. split; [reflexivity|]. split; auto. split; auto. lia.
Qed.

Lemma put_ok p s d : Rep p s -> pdyn p = true -> is_bytes d -> (ppos p + plen p + length d <= length (pmem p))%nat ->
  exists m, wrn (pmem p) (ppos p + plen p) d = Ok m /\
    Rep (set_len (set_mem p m) (plen p + length d)) (mks (past s) (rest s ++ d) (um s) (im s)).
Proof.
  intros (pre & post & [Hm Hp Hl Hc Hle Hmu Hmi Hco Hb Hli Hcol]) D Hd L.
  rewrite Hm, !app_length in L.
  assert (EM : pmem p = (pre ++ rest s) ++ firstn (length d) post ++ skipn (length d) post).
  { rewrite firstn_skipn, <- app_assoc. exact Hm. }
  rewrite EM. rewrite wrn_at; [|rewrite app_length; lia|rewrite firstn_length; lia].
  eexists. split; [reflexivity|]. exists pre, (skipn (length d) post).
  constructor; cbn; auto.
  - now rewrite <- !app_assoc.
  - rewrite app_length. lia.
  - rewrite app_assoc. apply is_bytes_app. auto.
Qed.

Lemma rep_eta p s : Rep p s -> Rep p (mks (past s) (rest s) (um s) (im s)).
Proof. destruct s. auto. Qed.
Lemma append_nil p s : Rep p s -> Rep p (mks (past s) (rest s ++ []) (um s) (im s)).
Proof. rewrite app_nil_r. apply rep_eta. Qed.

Lemma append_ok g p s d : Rep p s -> pdyn p = true -> is_bytes d -> (d <> [] -> mark_safe s) ->
  exists p', append g p d = Ok (true, p') /\ Rep p' (mks (past s) (rest s ++ d) (um s) (im s)) /\ pdyn p' = true.
Proof.
  intros R D Hd SAFE. unfold append. rewrite D. cbn [negb].
  destruct (Nat.eqb_spec (length d) 0) as [Z|Z].
  - destruct d; [|discriminate]. exists p. split; auto. split; auto. now apply append_nil.
  - destruct (ensure_ok g p s (length d) R) as (q & E & RQ & DQ & L); auto; [lia|apply SAFE; intros ->; now cbn in Z|].
    rewrite E. cbn [bind]. destruct (put_ok q s d RQ DQ Hd L) as (m & W & RM). rewrite W. cbn [bind]. eauto.
Qed.

Lemma direct_write_ok g p s want d : Rep p s -> pdyn p = true -> is_bytes d -> (length d <= want)%nat -> (want <> O -> mark_safe s) ->
  exists room p', direct_write g p want d = Ok (room, p') /\ (want <= room)%nat /\
    Rep p' (mks (past s) (rest s ++ d) (um s) (im s)) /\ pdyn p' = true.
Proof.
  intros R D Hd HL SAFE. unfold direct_write. rewrite D. cbn [negb orb].
  destruct (Nat.eqb_spec want 0) as [Z|Z].
  - destruct d; [|cbn in HL; lia]. exists O, p. split; auto. split; [lia|]. split; auto. now apply append_nil.
  - destruct (ensure_ok g p s want R) as (q & E & RQ & DQ & L); auto; [lia|].
    rewrite E. cbn [bind]. destruct (put_ok q s d RQ DQ Hd ltac:(lia)) as (m & W & RM). rewrite W. cbn [bind].
    do 2 eexists. split; [reflexivity|]. split; [lia|]. auto.
Qed.

(** ** Scans *)
Lemma span_le f l : (span f l <= length l)%nat.
Proof. induction l as [|c l IH]; cbn; auto. destruct (f c); lia. Qed.
Lemma tail_span_le f l : (tail_span f l <= length l)%nat.
Proof. unfold tail_span. pose proof (span_le f (rev l)). rewrite rev_length in H. auto. Qed.

Lemma span_loop_ok f : forall k l pre post n, (k <= length l)%nat ->
  span_loop f (pre ++ l ++ post) (length pre) k n = Ok (n + span f (firstn k l))%nat.
Proof.
  induction k as [|k IH]; intros l pre post n H.
  - rewrite firstn_O. cbn. f_equal. lia.
  - destruct l as [|c l]; [cbn in H; lia|]. cbn [length] in H. cbn [span_loop app firstn span].
    rewrite rd_app_mid. cbn [bind].
    replace (pre ++ c :: l ++ post) with ((pre ++ [c]) ++ l ++ post) by now rewrite <- app_assoc.
    replace (S (length pre)) with (length (pre ++ [c])) by llen.
    destruct (f c); [rewrite IH by lia|]; f_equal; lia.
Qed.
Lemma ws_loop_ok nl sp : forall l pre post n,
  ws_loop (pre ++ l ++ post) (length pre) (length l) n nl sp = Ok (n + white nl sp l)%nat.
Proof.
  induction l as [|c l IH]; intros pre post n; cbn [ws_loop length app white]; [f_equal; lia|].
  rewrite rd_app_mid. cbn [bind].
  replace (pre ++ c :: l ++ post) with ((pre ++ [c]) ++ l ++ post) by now rewrite <- app_assoc.
  replace (S (length pre)) with (length (pre ++ [c])) by llen.
  destruct (nl && (c =? 10)); [f_equal; lia|].
  assert (SP : chr_isspace c = space c).
  { unfold chr_isspace, space. cbn. destruct (N.eqb_spec c 32), (N.eqb_spec c 9), (N.eqb_spec c 10), (N.eqb_spec c 11), (N.eqb_spec c 12), (N.eqb_spec c 13); subst; auto; cbn; lia. }
  rewrite SP. destruct sp.
  - destruct (c =? 32); cbn [negb]; [rewrite IH|]; f_equal; lia.
  - destruct (space c); cbn [negb]; [rewrite IH|]; f_equal; lia.
Qed.
Lemma white_le nl sp l : (white nl sp l <= length l)%nat.
Proof.
  induction l as [|c l IH]; cbn [white length]; auto. destruct (_ && _); [lia|].
  destruct (if sp then c =? 32 else space c); lia.
Qed.
Lemma eol_loop_ok : forall l pre post n,
  eol_loop (pre ++ l ++ post) (length pre) (length l) n = Ok (n + line_length l)%nat.
Proof.
  induction l as [|c l IH]; intros pre post n; cbn [eol_loop length app line_length]; [f_equal; lia|].
  rewrite rd_app_mid. cbn [bind].
  replace (pre ++ c :: l ++ post) with ((pre ++ [c]) ++ l ++ post) by now rewrite <- app_assoc.
  replace (S (length pre)) with (length (pre ++ [c])) by llen.
  destruct (c =? 10); [|rewrite IH]; f_equal; lia.
Qed.
Lemma line_length_le l : (line_length l <= length l)%nat.
Proof. induction l as [|c l IH]; cbn [line_length length]; auto. destruct (_ =? _); lia. Qed.

Lemma back_loop_ok f : forall l pre post k,
  back_loop f (pre ++ l ++ post) (length pre) (length l) k = Ok (length l - Nat.min k (tail_span f l))%nat.
Proof.
  induction l as [|c l IH] using rev_ind; intros pre post k.
  - destruct k; cbn; auto.
  - destruct k as [|k]; [rewrite Nat.min_0_l, Nat.sub_0_r; destruct (length (l ++ [c])); reflexivity|].
    rewrite app_length. cbn [length]. rewrite Nat.add_1_r. cbn [back_loop].
    replace (pre ++ (l ++ [c]) ++ post) with ((pre ++ l) ++ c :: post) by (rewrite <- !app_assoc; reflexivity).
    rewrite rd_mid by llen. cbn [bind]. unfold tail_span. rewrite rev_app_distr. cbn [app rev span].
    destruct (f c).
    + replace ((pre ++ l) ++ c :: post) with (pre ++ l ++ (c :: post)) by now rewrite <- app_assoc.
      rewrite IH. unfold tail_span. try (f_equal; lia).
    + try (f_equal; lia).
Qed.

(** ** Searching *)
Lemma prefixb_iff : forall pat l, prefixb pat l = true <-> firstn (length pat) l = pat.
Proof.
  induction pat as [|x pat IH]; intros [|y l]; cbn; split; intros H; auto; try discriminate.
  - apply andb_prop in H as [H1 H2]. apply N.eqb_eq in H1. apply IH in H2. congruence.
  - injection H as -> H. rewrite N.eqb_refl. apply IH in H. now rewrite H.
Qed.
Lemma prefixb_occurs pat l : prefixb pat l = true <-> occurs_at pat l 0.
Proof.
  rewrite prefixb_iff, occurs_firstn. rewrite skipn_O. split; [|tauto]. intros H. split; auto.
  apply (f_equal (@length N)) in H. rewrite firstn_length in H. lia.
Qed.
Lemma occurs_cons pat c l i : occurs_at pat (c :: l) (S i) <-> occurs_at pat l i.
Proof. rewrite !occurs_firstn. cbn [skipn length]. split; intros (H1 & H2); split; auto; lia. Qed.

Lemma find_first_ok pat : forall l, first_at pat l (find_first pat l).
Proof.
  induction l as [|c l IH]; cbn [find_first].
  - destruct (prefixb pat []) eqn:E; cbn.
    + split; [now apply prefixb_occurs|]. intros i H. lia.
    + intros i H. assert (i = O) by (rewrite occurs_firstn in H; cbn in H; lia). subst. apply prefixb_occurs in H. congruence.
  - destruct (prefixb pat (c :: l)) eqn:E; cbn.
    + split; [now apply prefixb_occurs|]. intros i H. lia.
    + assert (N0 : ~ occurs_at pat (c :: l) 0) by (intros X; apply prefixb_occurs in X; congruence).
      destruct (find_first pat l); cbn in *.
      * split; [apply occurs_cons; tauto|]. intros [|i] Hi; auto. rewrite occurs_cons. apply IH. lia.
      * intros [|i]; auto. rewrite occurs_cons. auto.
Qed.
Lemma first_at_unique pat l r r' : first_at pat l r -> first_at pat l r' -> r = r'.
Proof.
  destruct r as [a|], r' as [b|]; cbn; auto.
  - intros (A & A') (B & B'). f_equal. destruct (Nat.lt_trichotomy a b) as [X|[X|X]]; auto; exfalso; [apply (B' a)|apply (A' b)]; auto.
  - intros (A & _) B. exfalso. apply (B a). auto.
  - intros A (B & _). exfalso. apply (A b). auto.
Qed.
Definition last_at (n h : list N) (r : option nat) : Prop :=
  match r with
  | None => forall i, ~ occurs_at n h i
  | Some p => occurs_at n h p /\ forall i, (p < i)%nat -> ~ occurs_at n h i
  end.
Lemma find_last_ok pat : forall l, last_at pat l (find_last pat l).
Proof.
  induction l as [|c l IH]; cbn [find_last].
  - destruct (prefixb pat []) eqn:E; cbn.
    + split; [now apply prefixb_occurs|]. intros i Hi H. rewrite occurs_firstn in H. cbn in H. lia.
    + intros i H. assert (i = O) by (rewrite occurs_firstn in H; cbn in H; lia). subst. apply prefixb_occurs in H. congruence.
  - destruct (find_last pat l); cbn in *.
    + split; [apply occurs_cons; tauto|]. intros [|i] Hi; [lia|]. rewrite occurs_cons. apply IH. lia.
    + destruct (prefixb pat (c :: l)) eqn:E; cbn.
      * split; [now apply prefixb_occurs|]. intros [|i] Hi; [lia|]. rewrite occurs_cons. auto.
      * intros [|i]; [intros X; apply prefixb_occurs in X; congruence|]. rewrite occurs_cons. auto.
Qed.
Lemma last_at_unique pat l r r' : last_at pat l r -> last_at pat l r' -> r = r'.
Proof.
  destruct r as [a|], r' as [b|]; cbn; auto.
  - intros (A & A') (B & B'). f_equal. destruct (Nat.lt_trichotomy a b) as [X|[X|X]]; auto; exfalso; [apply (A' b)|apply (B' a)]; auto.
  - intros (A & _) B. exfalso. apply (B a). auto.
  - intros A (B & _). exfalso. apply (A b). auto.
Qed.
Lemma find_first_bound pat l k : find_first pat l = Some k -> (k + length pat <= length l)%nat.
Proof. intros E. pose proof (find_first_ok pat l) as H. rewrite E in H. destruct H as (H & _). apply occurs_firstn in H. lia. Qed.
Lemma find_last_bound pat l k : find_last pat l = Some k -> (k + length pat <= length l)%nat.
Proof. intros E. pose proof (find_last_ok pat l) as H. rewrite E in H. destruct H as (H & _). apply occurs_firstn in H. lia. Qed.

Lemma mem_mem_find l pat : pat <> [] -> mem_mem l (length l) pat (length pat) = Ok (find_first pat l).
Proof.
  intros NE. destruct (mem_mem_ok l pat) as (r & E & E0 & E1). rewrite E. f_equal.
  destruct l as [|c l].
  - rewrite E0 by auto. destruct pat; [congruence|reflexivity].
  - apply (first_at_unique pat (c :: l)); [apply E1; discriminate|apply find_first_ok].
Qed.
Lemma mem_rmem_find l pat : pat <> [] -> l <> [] -> mem_rmem l (length l) pat (length pat) = Ok (find_last pat l).
Proof.
  intros NE NL. destruct (mem_rmem_ok l pat NL NE) as (r & E & E1). rewrite E. f_equal.
  apply (last_at_unique pat l); [exact E1|apply find_last_ok].
Qed.

Lemma rest_rdn p s : Rep p s -> rdn (pmem p) (ppos p) (plen p) = Ok (rest s).
Proof. intros (pre & post & R). rewrite (r_mem _ _ _ _ R). apply rdn_at; symmetry; [apply (r_pos _ _ _ _ R)|symmetry; apply (r_len _ _ _ _ R)]. Qed.
Lemma rest_rdn_n p s n : Rep p s -> (n <= length (rest s))%nat -> rdn (pmem p) (ppos p) n = Ok (firstn n (rest s)).
Proof.
  intros (pre & post & R) H. rewrite (r_mem _ _ _ _ R). rewrite <- (firstn_skipn n (rest s)) at 1. rewrite <- app_assoc.
  apply rdn_at; [symmetry; apply (r_pos _ _ _ _ R)|rewrite firstn_length; lia].
Qed.
Lemma rep_plen p s : Rep p s -> plen p = length (rest s).
Proof. intros (pre & post & R). apply (r_len _ _ _ _ R). Qed.

Lemma until_le pat eat l : (until pat eat l <= length l)%nat.
Proof.
  unfold until. destruct pat; [lia|]. destruct (find_first _ l) eqn:E; [|lia]. apply find_first_bound in E. destruct eat; lia.
Qed.
Lemma consume_until_ok p s pat eat : Rep p s ->
  exists p', consume_until p pat eat = Ok (until pat eat (rest s), p') /\ Rep p' (adv s (until pat eat (rest s))) /\ pdyn p' = pdyn p.
Proof.
  intros R. unfold consume_until. destruct (Nat.eqb_spec (length pat) 0) as [Z|Z].
  - destruct pat; [|discriminate]. cbn [until]. rewrite adv_0. eauto.
  - assert (NE : pat <> []) by (intros ->; auto).
    rewrite (rest_rdn p s R). cbn [bind]. rewrite (rep_plen p s R), mem_mem_find by auto. cbn [bind].
    pose proof (until_le pat eat (rest s)) as U. unfold until in *. destruct pat as [|x pat]; [congruence|].
    destruct (find_first (x :: pat) (rest s)) eqn:E.
    + destruct (consume_ok p s _ R U) as (p' & E' & R' & D'). rewrite E'. cbn [bind]. eauto.
    + rewrite adv_0. eauto.
Qed.
Lemma consume_pred_ok p s f max : Rep p s -> let n := span f (firstn max (rest s)) in
  exists p', consume_predicate_max p f max = Ok (n, p') /\ Rep p' (adv s n) /\ pdyn p' = pdyn p.
Proof.
  intros R n. unfold consume_predicate_max. destruct (Nat.eqb_spec max 0) as [Z|Z].
  - subst. unfold n. rewrite firstn_O. cbn [span]. rewrite adv_0. eauto.
  - rewrite (rep_plen p s R). destruct R as (pre & post & R). rewrite (r_mem _ _ _ _ R), <- (r_pos _ _ _ _ R).
    rewrite span_loop_ok by lia. cbn [bind plus].
    replace (firstn (Nat.min max (length (rest s))) (rest s)) with (firstn max (rest s)).
    2:{ destruct (Nat.le_gt_cases max (length (rest s))); [rewrite Nat.min_l by lia; auto|].
        rewrite Nat.min_r by lia. rewrite !firstn_all2 by lia. auto. }
    fold n. assert (n <= length (rest s))%nat by (pose proof (span_le f (firstn max (rest s))); rewrite firstn_length in *; unfold n; lia).
    destruct (consume_ok p s n (ex_intro _ pre (ex_intro _ post R))) as (p' & E' & R' & D'); auto.
    rewrite E'. cbn [bind]. eauto.
Qed.
Lemma set_span_le cs inc l : (set_span cs inc l <= length l)%nat.
Proof. unfold set_span. destruct cs; [lia|]. apply span_le. Qed.
Lemma consume_set_ok p s cs inc : Rep p s -> let n := set_span cs inc (rest s) in
  exists p', consume_charset_int p cs inc = Ok (n, p') /\ Rep p' (adv s n) /\ pdyn p' = pdyn p.
Proof.
  intros R n. pose proof (set_span_le cs inc (rest s)) as L. unfold consume_charset_int. destruct cs as [|x cs].
  - unfold n. cbn [length Nat.eqb set_span]. rewrite adv_0. eauto.
  - cbn [length Nat.eqb]. rewrite (rep_plen p s R). destruct R as (pre & post & R). rewrite (r_mem _ _ _ _ R), <- (r_pos _ _ _ _ R).
    rewrite span_loop_ok by lia. cbn [bind plus]. rewrite firstn_all.
    change (span (in_set (x :: cs) inc) (rest s)) with n.
    destruct (consume_ok p s n (ex_intro _ pre (ex_intro _ post R))) as (p' & E' & R' & D'); auto.
    rewrite E'. cbn [bind]. eauto.
Qed.

(** ** Reading with the internal mark *)
Lemma read_marked_ok p s bl (cons : parser -> res (nat * parser)) n : Rep p s -> (0 < bl)%nat -> (n <= length (rest s))%nat ->
  (forall p s', Rep p s' -> rest s' = rest s -> exists p', cons p = Ok (n, p') /\ Rep p' (adv s' n) /\ pdyn p' = pdyn p) ->
  exists m l p', read_marked p bl cons = Ok (m, l, p') /\ fst (take s n bl) = RBytes m l /\ Rep p' (snd (take s n bl)) /\ pdyn p' = pdyn p.
Proof.
  intros R Hb Hn HC. unfold read_marked. destruct (mark_int_ok p s false true R) as (R1 & D1).
  set (s1 := mks (past s) (rest s) (um s) (Some (length (past s)))) in *.
  destruct (HC _ s1 R1 eq_refl) as (p2 & E2 & R2 & D2). rewrite E2. cbn [bind].
  assert (LF : length (firstn n (rest s)) = n) by (rewrite firstn_length; lia).
  unfold take. destruct (Nat.eqb_spec n 0) as [Z|Z].
  - subst n. rewrite adv_0 in R2. destruct (mark_clear_ok p2 s1 false true R2) as (p3 & E3 & R3 & D3).
    rewrite E3. cbn [bind]. do 3 eexists. split; [reflexivity|]. cbn [fst snd]. split; [reflexivity|]. split; [exact R3|congruence].
  - unfold read_bytes_mark_int. destruct (Nat.eqb_spec bl 0); [lia|]. cbn [negb].
    destruct (marked_ok p2 (adv s1 n) false true R2) as (start & EM & ER & EP). rewrite EM.
    assert (SN : since (adv s1 n) (smin false true (adv s1 n)) = n).
    { unfold since, smin, adv, s1. cbn [um im past rest]. llen. }
    rewrite SN in *. rewrite (proj2 (N.eqb_neq _ 0)) by lia.
    destruct (Nat.leb_spec n bl) as [L|L].
    + destruct (N.ltb_spec (N.of_nat bl) (N.of_nat n)); [lia|]. rewrite Nat2N.id, ER. cbn [bind].
      destruct (mark_clear_ok p2 (adv s1 n) false true R2) as (p3 & E3 & R3 & D3). rewrite E3. cbn [bind].
      do 3 eexists. split; [reflexivity|]. cbn [fst snd]. split; [|split; [exact R3|congruence]].
      f_equal. unfold adv, s1. cbn [past rest]. symmetry. apply skipn_len. llen.
    + destruct (N.ltb_spec (N.of_nat bl) (N.of_nat n)); [|lia].
      do 3 eexists. split; [reflexivity|]. cbn [fst snd]. split; [reflexivity|]. split; [exact R2|congruence].
Qed.

(** ** Numbers *)
Lemma be_value_snoc l b : be_value (l ++ [b]) = be_value l * 256 + b.
Proof. unfold be_value. now rewrite fold_left_app. Qed.
Lemma be_value_bound l : is_bytes l -> be_value l < 256 ^ N.of_nat (length l).
Proof.
  induction l as [|b l IH] using rev_ind; intros H; [cbn; lia|]. apply is_bytes_app in H as [H1 H2].
  inversion H2; subst. specialize (IH H1). rewrite be_value_snoc, app_length. cbn [length]. rewrite Nat2N.inj_add, N.pow_add_r.
  change (256 ^ N.of_nat 1) with 256. unfold is_byte in *. lia.
Qed.
Lemma lor_byte v c : is_byte c -> N.lor (N.shiftl v 8) c = v * 256 + c.
Proof.
  intros H. rewrite N.shiftl_mul_pow2. change (2 ^ 8) with 256.
  apply (lor_disj _ _ 8); [change (2 ^ 8) with 256; apply N.mod_mul; lia|exact H].
Qed.
Lemma int_loop_ok (m : list N) (pos len : nat) (big : bool) (l : list N) : (len <= 8)%nat -> length l = len -> is_bytes l ->
  (forall i, (i < len)%nat -> rd m (pos + (if big then i else len - (i + 1)))%nat = rd l i) ->
  forall k i v, (i + k = len)%nat -> v = be_value (firstn i l) -> int_loop m pos len big i k v = Ok (be_value l).
Proof.
  intros L8 Hl Hb Hrd. induction k as [|k IH]; intros i v Hk ->; cbn [int_loop].
  - rewrite firstn_all2 by lia. reflexivity.
  - rewrite Hrd by lia. destruct (skipn_rd l (i := i) ltac:(lia)) as (c & E1 & E2 & E3). rewrite E1. cbn [bind].
    assert (F : firstn (S i) l = firstn i l ++ [c]).
    { rewrite <- (firstn_skipn i l) at 1. rewrite E3. rewrite firstn_app.
      rewrite firstn_all2 by (rewrite firstn_length; lia). rewrite firstn_length.
      replace (S i - Nat.min i (length l))%nat with 1%nat by lia. reflexivity. }
    apply IH; [lia|]. rewrite F, be_value_snoc.
    assert (B : is_bytes (firstn i l)) by now apply is_bytes_firstn.
    assert (BC : is_byte c) by (eapply Forall_forall in Hb; [exact Hb|]; eapply nth_error_In; eauto).
    pose proof (be_value_bound _ B) as BB. rewrite firstn_length in BB. replace (Nat.min i (length l)) with i in BB by lia.
    assert (256 ^ N.of_nat i <= 256 ^ 7) by (apply N.pow_le_mono_r; lia).
    rewrite <- lor_byte by auto. f_equal. apply N.mod_small. rewrite N.shiftl_mul_pow2. change (2 ^ 8) with 256.
    change (2 ^ 64) with (256 ^ 7 * 256). nia.
Qed.

Lemma bcd_value_app a b : bcd_value (a ++ b) = bcd_value a * 100 ^ N.of_nat (length b) + bcd_value b.
Proof.
  unfold bcd_value. rewrite fold_left_app. generalize (fold_left (fun v b => (v * 10 + b / 16) * 10 + b mod 16) a 0). intros v.
  assert (G : forall b v w, fold_left (fun v b => (v * 10 + b / 16) * 10 + b mod 16) b (v + w) =
    v * 100 ^ N.of_nat (length b) + fold_left (fun v b => (v * 10 + b / 16) * 10 + b mod 16) b w).
  { clear. induction b as [|x b IH]; intros v w; [cbn; lia|]. cbn [fold_left length].
    replace (((v + w) * 10 + x / 16) * 10 + x mod 16) with (v * 100 + ((w * 10 + x / 16) * 10 + x mod 16)) by lia.
    rewrite IH. rewrite Nat2N.inj_succ, N.pow_succ_r'. lia. }
  rewrite <- (N.add_0_r v) at 1. apply G.
Qed.
Lemma bcd_loop_ok pre post : forall l v w, bcd_loop (pre ++ l ++ post) (length pre) (length l) v (w mod 2 ^ 64) =
  Ok (if (length l =? 0)%nat then v else (v + bcd_value l * w) mod 2 ^ 64).
Proof.
  intros l. revert post. induction l as [|c l IH] using rev_ind; intros post v w; [reflexivity|].
  rewrite app_length. cbn [length]. rewrite Nat.add_1_r. cbn [bcd_loop Nat.eqb].
  replace (pre ++ (l ++ [c]) ++ post) with ((pre ++ l) ++ c :: post) by (rewrite <- !app_assoc; reflexivity).
  rewrite rd_mid by llen. cbn [bind].
  replace ((pre ++ l) ++ c :: post) with (pre ++ l ++ (c :: post)) by now rewrite <- app_assoc.
  set (w1 := w mod 2 ^ 64).
  assert (E : (w1 * 10 mod 2 ^ 64) * 10 mod 2 ^ 64 = (w * 100) mod 2 ^ 64).
  { unfold w1. rewrite N.mul_mod_idemp_l by lia. replace (w mod 2 ^ 64 * 10 * 10) with (w mod 2 ^ 64 * 100) by lia. now rewrite N.mul_mod_idemp_l by lia. }
  rewrite E, IH. rewrite bcd_value_app. cbn [length]. change (100 ^ N.of_nat 1) with 100.
  replace (bcd_value [c]) with (c / 16 * 10 + c mod 16) by (unfold bcd_value; cbn [fold_left]; lia).
  change 15 with (N.ones 4). rewrite N.land_ones, N.shiftr_div_pow2. change (2 ^ 4) with 16.
  assert (V : ((v + c mod 16 * w1) mod 2 ^ 64 + c / 16 * (w1 * 10 mod 2 ^ 64)) mod 2 ^ 64 = (v + (c / 16 * 10 + c mod 16) * w) mod 2 ^ 64).
  { rewrite N.add_mod_idemp_l by lia. rewrite <- (N.add_mod_idemp_r _ (c / 16 * _)) by lia.
    rewrite N.mul_mod_idemp_r by lia. rewrite N.add_mod_idemp_r by lia. unfold w1.
    replace (v + c mod 16 * (w mod 2 ^ 64) + c / 16 * (w mod 2 ^ 64 * 10)) with (v + (c / 16 * 10 + c mod 16) * (w mod 2 ^ 64)) by lia.
    rewrite <- N.add_mod_idemp_r by lia. rewrite N.mul_mod_idemp_r by lia. now rewrite N.add_mod_idemp_r by lia. }
  rewrite V. f_equal. destruct (Nat.eqb_spec (length l) 0) as [Z|Z].
  - destruct l; [|discriminate]. reflexivity || (f_equal; cbn [bcd_value fold_left]; lia).
  - rewrite N.add_mod_idemp_l by lia. f_equal. lia.
Qed.

(** ** All operations *)
Lemma rep_bytes p s : Rep p s -> is_bytes (rest s).
Proof. intros (pre & post & R). apply (is_bytes_app (past s)), (r_bytes _ _ _ _ R). Qed.
Lemma rd_mem p s i : Rep p s -> (i < length (rest s))%nat -> rd (pmem p) (ppos p + i) = rd (rest s) i.
Proof.
  intros (pre & post & R) H. rewrite (r_mem _ _ _ _ R), <- (r_pos _ _ _ _ R). unfold rd.
  rewrite nth_error_app2 by lia. replace (length pre + i - length pre)%nat with i by lia. now rewrite nth_error_app1 by lia.
Qed.
Lemma rd_rev (l : list N) i : (i < length l)%nat -> rd (rev l) i = rd l (length l - (i + 1)).
Proof. intros H. unfold rd. rewrite (Buf.Proofs.nth_error_rev l i H). replace (length l - (i + 1))%nat with (length l - 1 - i)%nat by lia. reflexivity. Qed.

Lemma read_int_ok p s n big : Rep p s -> (0 < n)%nat -> (n <= 8)%nat -> (n <= length (rest s))%nat ->
  exists p', read_int_binary p n big = Ok (Some (be_value (if big then firstn n (rest s) else rev (firstn n (rest s)))), p') /\
    Rep p' (adv s n) /\ pdyn p' = pdyn p.
Proof.
  intros R H0 H8 HL. unfold read_int_binary. rewrite (rep_plen p s R).
  destruct (Nat.eqb_spec n 0); [lia|]. destruct (Nat.ltb_spec 8 n); [lia|]. destruct (Nat.ltb_spec (length (rest s)) n); [lia|].
  cbn [orb]. set (l := if big then firstn n (rest s) else rev (firstn n (rest s))).
  assert (LF : length (firstn n (rest s)) = n) by (rewrite firstn_length; lia).
  assert (BF : is_bytes (firstn n (rest s))) by (apply is_bytes_firstn; now apply (rep_bytes p)).
  assert (RF : forall i, (i < n)%nat -> rd (firstn n (rest s)) i = rd (rest s) i).
  { intros i Hi. unfold rd. rewrite firstn_nth_error. destruct (Nat.ltb_spec i n); auto; lia. }
  rewrite (int_loop_ok (pmem p) (ppos p) n big l).
  - cbn [bind]. destruct (consume_ok p s n R HL) as (p' & E & R' & D'). rewrite E. cbn [bind]. eauto.
  - lia.
  - unfold l. destruct big; rewrite ?rev_length; auto.
  - unfold l. destruct big; auto. apply Forall_rev. auto.
  - intros i Hi. unfold l. destruct big.
    + rewrite (rd_mem p s) by (auto; lia). now rewrite RF.
    + rewrite (rd_mem p s) by (auto; lia). rewrite rd_rev by lia. rewrite LF, RF by lia. reflexivity.
  - reflexivity.
  - reflexivity.
Qed.

Lemma read_bcd_ok p s n : Rep p s -> (0 < n)%nat -> (n <= 10)%nat -> (n <= length (rest s))%nat ->
  exists p', read_uint_bcd p n = Ok (Some (bcd_value (firstn n (rest s)) mod 2 ^ 64), p') /\ Rep p' (adv s n) /\ pdyn p' = pdyn p.
Proof.
  intros R H0 H10 HL. unfold read_uint_bcd. rewrite (rep_plen p s R).
  destruct (Nat.eqb_spec n 0); [lia|]. destruct (Nat.ltb_spec 10 n); [lia|]. destruct (Nat.ltb_spec (length (rest s)) n); [lia|].
  cbn [orb].
  assert (LF : length (firstn n (rest s)) = n) by (rewrite firstn_length; lia).
  assert (E : bcd_loop (pmem p) (ppos p) n 0 1 = Ok (bcd_value (firstn n (rest s)) mod 2 ^ 64)).
  { destruct R as (pre & post & R). rewrite (r_mem _ _ _ _ R), <- (r_pos _ _ _ _ R).
    rewrite <- (firstn_skipn n (rest s)) at 1. rewrite <- app_assoc. rewrite <- LF at 3. change 1 with (1 mod 2 ^ 64).
    rewrite bcd_loop_ok. rewrite LF. destruct (Nat.eqb_spec n 0); [lia|]. f_equal. f_equal. lia. }
  rewrite E. cbn [bind]. destruct (consume_ok p s n R HL) as (p' & E' & R' & D'). rewrite E'. cbn [bind]. eauto.
Qed.

Lemma compare_ok p s d : Rep p s -> compare p d = Ok (negb (length d =? 0)%nat && prefixb d (rest s)).
Proof.
  intros R. unfold compare. rewrite (rep_plen p s R). destruct (Nat.eqb_spec (length d) 0) as [Z|Z]; auto. cbn [orb negb andb].
  destruct (Nat.ltb_spec (length (rest s)) (length d)) as [L|L].
  - f_equal. symmetry. apply Bool.not_true_iff_false. intros H. apply prefixb_iff in H.
    apply (f_equal (@length N)) in H. rewrite firstn_length in H. lia.
  - destruct R as (pre & post & R). rewrite (r_mem _ _ _ _ R), <- (r_pos _ _ _ _ R).
    rewrite (skipn_len pre) by auto.
    destruct (mem_eq_ok (rest s ++ post) d (length d)) as (e & E & H); [rewrite app_length; lia|lia|].
    rewrite E. f_equal. rewrite firstn_all in H.
    rewrite firstn_app in H. replace (length d - length (rest s))%nat with O in H by lia. rewrite firstn_O, app_nil_r in H.
    rewrite <- prefixb_iff in H. destruct e, (prefixb d (rest s)); auto; [symmetry; tauto|tauto].
Qed.

Lemma step_ok g p s o : Rep p s -> allowed s o ->
  exists p', step g p o = Ok (fst (sstep (pdyn p) s o), p') /\ Rep p' (snd (sstep (pdyn p) s o)) /\ pdyn p' = pdyn p.
Proof.
  intros R A. pose proof (rep_plen p s R) as PL. destruct o; cbn [step sstep allowed] in *.
  - (* Append *) destruct A as (A1 & A2). destruct (pdyn p) eqn:D.
    + destruct (append_ok g p s d R D A1 A2) as (p' & E & R' & D'). rewrite E. cbn [bind fst snd]. eauto.
    + unfold append. rewrite D. cbn. eauto.
  - (* DirectWrite *) destruct A as (A1 & A2 & A3). destruct (pdyn p) eqn:D.
    + destruct (direct_write_ok g p s want d R D A1 A2 A3) as (room & p' & E & _ & R' & D'). rewrite E. cbn [bind fst snd]. eauto.
    + unfold direct_write. rewrite D. cbn. eauto.
  - (* Consume *) destruct (Nat.leb_spec n (length (rest s))) as [L|L].
    + destruct (consume_ok p s n R L) as (p' & E & R' & D'). rewrite E. cbn [bind fst snd]. eauto.
    + unfold consume. rewrite PL. destruct (Nat.ltb_spec (length (rest s)) n); [|lia]. cbn. eauto.
  - (* Truncate *) destruct (Nat.leb_spec n (length (rest s))) as [L|L].
    + destruct (truncate_ok p s n R L) as (p' & E & R' & D'). rewrite E. cbn [bind fst snd]. eauto.
    + unfold truncate. rewrite PL. destruct (Nat.ltb_spec (length (rest s)) n); [|lia]. cbn. eauto.
  - (* Mark *) destruct (mark_int_ok p s true false R) as (R' & D'). eexists. split; [reflexivity|]. auto.
  - (* MarkClear *) destruct (mark_clear_ok p s true false R) as (p' & E & R' & D'). unfold mark_clear. rewrite E. cbn [bind]. eauto.
  - (* MarkRewind *) destruct (mark_rewind_ok p s R) as (p' & E & R' & D'). rewrite E. cbn [bind fst snd]. rewrite Nat2N.id. eauto.
  - (* MarkLen *) destruct (marked_ok p s true false R) as (st & E & _ & _). unfold mark_len. rewrite E. cbn [snd fst]. rewrite Nat2N.id.
    assert (SM : smin true false s = um s) by (unfold smin; destruct (um s); auto). rewrite SM. eauto.
  - (* PeekMark *) destruct (marked_ok p s true false R) as (st & E & E2 & _). unfold mark_len, peek_mark. rewrite E. cbn [snd fst]. rewrite Nat2N.id.
    assert (SM : smin true false s = um s) by (unfold smin; destruct (um s); auto). rewrite SM in *. rewrite E2. cbn [bind]. eauto.
  - (* Len *) rewrite PL. eauto.
  - (* Offset *) exists p. destruct R as (pre & post & R). rewrite (r_cons _ _ _ _ R). split; auto. split; auto. exists pre, post. auto.
  - (* PeekBytes *) unfold peek_bytes. rewrite PL.
    destruct (Nat.ltb_spec 0 n), (Nat.leb_spec n (length (rest s))), (Nat.ltb_spec (length (rest s)) n), (Nat.eqb_spec n 0); try lia; cbn [orb andb bind fst snd]; eauto.
    rewrite (rest_rdn_n p s) by auto. cbn [bind fst snd]. eauto.
  - (* Compare *) rewrite (compare_ok p s d R). cbn [bind fst snd]. eauto.
  - (* ReadBytes *) unfold read_bytes. rewrite PL.
    destruct (Nat.ltb_spec 0 n), (Nat.leb_spec n (length (rest s))), (Nat.ltb_spec (length (rest s)) n), (Nat.eqb_spec n 0); try lia; cbn [orb andb bind fst snd]; eauto.
    rewrite (rest_rdn_n p s) by auto. cbn [bind]. destruct (consume_ok p s n R) as (p' & E & R' & D'); auto. rewrite E. cbn [bind fst snd]. eauto.
  - (* ReadBytesMax *) unfold read_bytes_max. rewrite PL.
    destruct (Nat.leb_spec n buf_len), (Nat.ltb_spec buf_len n); try lia; cbn [bind fst snd]; eauto.
    destruct (Nat.eqb_spec (Nat.min n (length (rest s))) 0) as [Z|Z].
    + rewrite Z, firstn_O, adv_0. cbn [bind]. eauto.
    + rewrite (rest_rdn_n p s) by (auto; lia). cbn [bind].
      destruct (consume_ok p s (Nat.min n (length (rest s))) R) as (p' & E & R' & D'); [lia|]. rewrite E. cbn [bind]. eauto.
  - (* ReadMark *) unfold read_bytes_mark_int. cbn [negb].
    destruct (marked_ok p s true false R) as (st & E & E2 & _). rewrite E.
    assert (SM : smin true false s = um s) by (unfold smin; destruct (um s); auto). rewrite SM in *. clear SM.
    set (n := since s (um s)) in *.
    destruct (Nat.eqb_spec buf_len 0), (Nat.eqb_spec n 0), (Nat.leb_spec n buf_len), (N.eqb_spec (N.of_nat n) 0), (N.ltb_spec (N.of_nat buf_len) (N.of_nat n));
      try lia; cbn [andb negb bind fst snd]; eauto.
    rewrite Nat2N.id, E2. cbn [bind]. destruct (mark_clear_ok p s true false R) as (p' & E' & R' & D'). rewrite E'. cbn [bind]. eauto.
  - (* ConsumeUntil *) destruct (consume_until_ok p s pat eat R) as (p' & E & R' & D'). rewrite E. cbn [bind fst snd]. eauto.
  - (* ConsumePred *) destruct (consume_pred_ok p s f max R) as (p' & E & R' & D'). rewrite E. cbn [bind fst snd]. eauto.
  - (* ConsumeSet *) destruct (consume_set_ok p s cs inclusion R) as (p' & E & R' & D'). rewrite E. cbn [bind fst snd]. eauto.
  - (* ConsumeWhite *) unfold consume_whitespace. rewrite PL.
    destruct (consume_ok p s (white nl sp (rest s)) R (white_le _ _ _)) as (p' & E & R' & D').
    assert (W : ws_loop (pmem p) (ppos p) (length (rest s)) 0 nl sp = Ok (white nl sp (rest s))).
    { destruct R as (pre & post & R). rewrite (r_mem _ _ _ _ R), <- (r_pos _ _ _ _ R). apply ws_loop_ok. }
    rewrite W. cbn [bind]. rewrite E. cbn [bind fst snd]. eauto.
  - (* ConsumeEol *) unfold consume_eol. rewrite PL.
    destruct (consume_ok p s (line_length (rest s)) R (line_length_le _)) as (p' & E & R' & D').
    assert (W : eol_loop (pmem p) (ppos p) (length (rest s)) 0 = Ok (line_length (rest s))).
    { destruct R as (pre & post & R). rewrite (r_mem _ _ _ _ R), <- (r_pos _ _ _ _ R). apply eol_loop_ok. }
    rewrite W. cbn [bind]. rewrite E. cbn [bind fst snd]. eauto.
  - (* TruncUntil *) unfold truncate_until. rewrite PL.
    destruct (Nat.eqb_spec (length pat) 0) as [Z|Z], (Nat.ltb_spec (length (rest s)) (length pat)) as [L|L];
      cbn [orb fst snd bind]; rewrite ?Nat.sub_0_r, ?cut_all; eauto.
    assert (NE : pat <> []) by (intros ->; auto).
    assert (NL : rest s <> []) by (intros X; rewrite X in L; destruct pat; cbn in *; auto; lia).
    pose proof (rest_rdn p s R) as RR. rewrite PL in RR. rewrite RR. cbn [bind]. rewrite mem_rmem_find by auto. cbn [bind].
    match goal with |- context [truncate p ?x] => destruct (truncate_ok p s x R) as (p' & E & R' & D') end; [lia|].
    rewrite E. cbn [bind fst snd]. eauto.
  - (* TruncSet *) unfold truncate_charset. rewrite PL. destruct cs as [|c cs].
    + cbn [length Nat.eqb bind fst snd]. rewrite Nat.sub_0_r, cut_all. eauto.
    + cbn [length Nat.eqb].
      assert (W : back_loop (fun x => existsb (N.eqb x) (c :: cs)) (pmem p) (ppos p) (length (rest s)) (length (rest s)) =
        Ok (length (rest s) - Nat.min (length (rest s)) (tail_span (fun x => existsb (N.eqb x) (c :: cs)) (rest s)))%nat).
      { destruct R as (pre & post & R). rewrite (r_mem _ _ _ _ R), <- (r_pos _ _ _ _ R). apply back_loop_ok. }
      rewrite W. cbn [bind]. pose proof (tail_span_le (fun x => existsb (N.eqb x) (c :: cs)) (rest s)) as TL.
      set (k := tail_span (fun x => existsb (N.eqb x) (c :: cs)) (rest s)) in *.
      replace (Nat.min (length (rest s)) k) with k by lia.
      destruct (truncate_ok p s (length (rest s) - k) R) as (p' & E & R' & D'); [lia|]. rewrite E. cbn [bind fst snd].
      replace (length (rest s) - (length (rest s) - k))%nat with k by lia. eauto.
  - (* TruncPred *) unfold truncate_predicate_max. rewrite PL. destruct (Nat.eqb_spec max 0) as [Z|Z].
    + subst. cbn [bind fst snd]. rewrite Nat.min_0_l, Nat.sub_0_r, cut_all. eauto.
    + assert (W : back_loop f (pmem p) (ppos p) (length (rest s)) max = Ok (length (rest s) - Nat.min max (tail_span f (rest s)))%nat).
      { destruct R as (pre & post & R). rewrite (r_mem _ _ _ _ R), <- (r_pos _ _ _ _ R). apply back_loop_ok. }
      rewrite W. cbn [bind]. pose proof (tail_span_le f (rest s)) as TL.
      set (k := Nat.min max (tail_span f (rest s))) in *.
      destruct (truncate_ok p s (length (rest s) - k) R) as (p' & E & R' & D'); [lia|]. rewrite E. cbn [bind fst snd].
      replace (length (rest s) - (length (rest s) - k))%nat with k by lia. eauto.
  - (* ReadUntil *) unfold read_bytes_until. destruct (Nat.eqb_spec buf_len 0), (Nat.eqb_spec (length pat) 0); cbn [orb bind fst snd]; eauto.
    destruct (read_marked_ok p s buf_len (fun p => consume_until p pat eat) (until pat eat (rest s)) R) as (m & l & p' & E & EF & R' & D').
    + lia.
    + apply until_le.
    + intros q s' RQ ER. rewrite <- ER. now apply consume_until_ok.
    + rewrite E. cbn [bind]. rewrite EF. eauto.
  - (* ReadSet *) unfold read_bytes_charset_int. destruct (Nat.eqb_spec buf_len 0), (Nat.eqb_spec (length cs) 0); cbn [orb bind fst snd]; eauto.
    destruct (read_marked_ok p s buf_len (fun p => consume_charset_int p cs inclusion) (set_span cs inclusion (rest s)) R) as (m & l & p' & E & EF & R' & D').
    + lia.
    + apply set_span_le.
    + intros q s' RQ ER. rewrite <- ER. now apply consume_set_ok.
    + rewrite E. cbn [bind]. rewrite EF. eauto.
  - (* ReadPred *) unfold read_bytes_predicate. destruct (Nat.eqb_spec buf_len 0); cbn [orb bind fst snd]; eauto.
    destruct (read_marked_ok p s buf_len (fun p => consume_predicate_max p f buf_len) (span f (firstn buf_len (rest s))) R) as (m & l & p' & E & EF & R' & D').
    + lia.
    + pose proof (span_le f (firstn buf_len (rest s))). rewrite firstn_length in *. lia.
    + intros q s' RQ ER. rewrite <- ER. now apply consume_pred_ok.
    + rewrite E. cbn [bind]. rewrite EF. eauto.
  - (* ReadInt *)
    destruct (Nat.ltb_spec 0 len), (Nat.leb_spec len 8), (Nat.leb_spec len (length (rest s))); cbn [andb fst snd];
      try (unfold read_int_binary; rewrite PL;
           destruct (Nat.eqb_spec len 0), (Nat.ltb_spec 8 len), (Nat.ltb_spec (length (rest s)) len); try lia; cbn [orb bind]; eauto; fail).
    destruct (read_int_ok p s len big R) as (p' & E & R' & D'); auto. rewrite E. cbn [bind]. eauto.
  - (* ReadBcd *)
    destruct (Nat.ltb_spec 0 len), (Nat.leb_spec len 10), (Nat.leb_spec len (length (rest s))); cbn [andb fst snd];
      try (unfold read_uint_bcd; rewrite PL;
           destruct (Nat.eqb_spec len 0), (Nat.ltb_spec 10 len), (Nat.ltb_spec (length (rest s)) len); try lia; cbn [orb bind]; eauto; fail).
    destruct (read_bcd_ok p s len R) as (p' & E & R' & D'); auto. rewrite E. cbn [bind]. eauto.
Qed.

Lemma run_ok g : forall ops p s outs, Rep p s -> all_allowed (pdyn p) ops s ->
  exists p', run g ops p outs = Ok (fst (srun (pdyn p) ops s outs), p') /\ Rep p' (snd (srun (pdyn p) ops s outs)) /\ pdyn p' = pdyn p.
Proof.
  induction ops as [|o ops IH]; intros p s outs R A; cbn [run srun]; eauto.
  destruct A as (A1 & A2). destruct (step_ok g p s o R A1) as (p' & E & R' & D'). rewrite E. cbn [bind].
  destruct (sstep (pdyn p) s o) as [r s'] eqn:S. cbn [fst snd] in *. rewrite <- D' in A2 |- *.
  destruct (IH p' s' (r :: outs) R' A2) as (p2 & E2 & R2 & D2). exists p2. auto.
Qed.

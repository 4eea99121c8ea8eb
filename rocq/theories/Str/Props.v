(** The properties C17-C20, C22 and C54: base/data/m_str.c. *)
From Verif Require Import Base.Lib Base.Mem Hex.Model Str.Model Str.Spec Str.Proofs.
Local Open Scope N_scope.

(** ** C17 *)

Lemma zpieces_read ps : forall pre,
  map (fun '(o, n) => rdn (pre ++ zpieces ps) o (S n)) (combine (starts (length pre) ps) (map (@length N) ps)) =
  map (fun p => Ok (p ++ [0])) ps.
Proof.
  induction ps as [|p ps IH]; intros pre; auto. cbn [starts map combine].
  replace (zpieces (p :: ps)) with ((p ++ [0]) ++ zpieces ps) by reflexivity. f_equal.
  - replace (S (length p)) with (length (p ++ [0])) by llen. apply rdn_ok.
  - specialize (IH (pre ++ p ++ [0])). rewrite <- IH. rewrite (app_assoc pre (p ++ [0])).
    replace (length pre + length p + 1)%nat with (length (pre ++ p ++ [0])) by llen. reflexivity.
Qed.

(** The pieces: element i of the returned array points at piece i, which is
    NUL-terminated, and the returned length is its length.  Partial: the string
    must not be empty, see [explode_empty_refuted]. *)
Theorem explode_splits_partial : forall delim s z g, no_nul s -> s <> [] ->
  exists ps blk outs lens,
    explode delim (s ++ 0 :: z) (length s) g = Ok (Some (blk, outs, lens)) /\
    map (fun '(o, n) => rdn blk o (S n)) (combine outs lens) = map (fun p => Ok (p ++ [0])) ps /\
    length outs = length ps /\ length lens = length ps /\
    length ps = S (count_occ N.eq_dec s delim) /\
    Forall (fun p => ~ In delim p) ps /\ join delim ps = s.
Proof.
  intros delim s z g Hn Hne. destruct (explode_ok delim s z g Hn Hne) as (ps & F & J & L & E).
  exists ps, (zpieces ps), (starts 0 ps), (map (@length N) ps). split; auto. split.
  - apply (zpieces_read ps []).
  - rewrite length_starts, map_length. repeat split; auto. rewrite L. f_equal. unfold nd.
    clear. induction s as [|c s IH]; auto. cbn [filter count_occ]. destruct (N.eqb_spec c delim); destruct (N.eq_dec c delim); try congruence; cbn; auto.
Qed.

(** The decomposition is unique, so "the pieces" above is well defined. *)
Lemma join_unique d ps : forall qs, Forall (fun p => ~ In d p) ps -> Forall (fun p => ~ In d p) qs ->
  ps <> [] -> qs <> [] -> join d ps = join d qs -> ps = qs.
Proof.
  induction ps as [|p ps IH]; intros qs Fp Fq Np Nq E; [congruence|]. destruct qs as [|q qs]; [congruence|].
  rewrite !join_flat in E. inversion Fp as [|? ? Hp Fp']; inversion Fq as [|? ? Hq Fq']; subst.
  assert (X : p = q /\ flat_map (fun p => d :: p) ps = flat_map (fun p => d :: p) qs).
  { clear - E Hp Hq. revert q E Hq. induction p as [|c p IHp]; intros q E Hq.
    - destruct q as [|c q]; [auto|]. cbn [app] in E. destruct ps as [|p ps]; cbn in E; [discriminate|].
      injection E as -> E. elim Hq. now left.
    - destruct q as [|c' q]; cbn [app] in E.
      + destruct qs as [|q qs]; cbn in E; [discriminate|]. injection E as -> E. elim Hp. now left.
      + injection E as -> E. destruct (IHp (fun H => Hp (or_intror H)) q E) as [-> ?]; auto.
        intros H. apply Hq. now right. }
  destruct X as [-> X]. f_equal. destruct ps as [|p1 ps], qs as [|q1 qs]; cbn in X; try discriminate; auto.
  apply IH; auto; try discriminate. rewrite !join_flat. now injection X.
Qed.

Theorem explode_pieces_unique : forall delim ps qs,
  Forall (fun p => ~ In delim p) ps -> Forall (fun p => ~ In delim p) qs -> ps <> [] -> qs <> [] ->
  join delim ps = join delim qs -> ps = qs.
Proof. intros delim ps qs. apply join_unique. Qed.

Theorem explode_empty_refuted : exists delim s, no_nul s /\ explode delim (s ++ [0]) (length s) 0 = Ok None.
Proof. exists 44, []. split; [constructor|reflexivity]. Qed.

(** Imploding the pieces of a string with enclosing and escape characters that
    do not occur in it gives the string back. *)
Theorem implode_restores : forall delim enc esc s ps,
  ~ In enc s -> ~ In esc s -> ps <> [] -> Forall (fun p => ~ In delim p) ps -> join delim ps = s ->
  implode delim enc esc false ps = Some s.
Proof.
  intros delim enc esc s ps H1 H2 Hne F E. rewrite <- E. apply implode_join; auto.
  assert (S : Forall (fun p => incl p s) ps).
  { subst s. clear. induction ps as [|p ps IH]; auto. constructor.
    - rewrite join_flat. apply incl_appl, incl_refl.
    - destruct ps as [|q ps]; auto. eapply Forall_impl; [|exact IH]. intros a Ha.
      cbn [join] in *. intros x Hx. apply in_or_app. right. right. now apply Ha. }
  rewrite Forall_forall in *. intros p Hp. specialize (F p Hp). specialize (S p Hp).
  unfold has_restricted. apply not_true_iff_false. rewrite existsb_exists. intros (c & Hc & R).
  unfold ceq in R. rewrite !orb_true_iff, !andb_true_iff, !N.eqb_eq in R.
  destruct R as [[[-> _]|[-> _]]|[-> _]]; [now apply F|now apply H1, S|now apply H2, S].
Qed.

(** "a,,b" splits into "a", "", "b"; joining restores it. *)
Example explode_example :
  explode 44 ([97;44;44;98] ++ [0]) 4 7 = Ok (Some ([97;0;0;98;0], [0;2;3]%nat, [1;0;1]%nat)) /\
  implode 44 34 34 false [[97];[];[98]] = Some [97;44;44;98].
Proof. split; reflexivity. Qed.

(** Imploding arbitrary strings with ASCII delimiter, enclosing and escape
    characters (the last two may coincide): a reader of such records gets
    exactly the strings back. *)
Lemma read_plain d e x : forall s cur t, ~ In d s ->
  read_fields d e x FPlain cur (s ++ t) = read_fields d e x FPlain (rev s ++ cur) t.
Proof.
  induction s as [|c s IH]; intros cur t H; cbn [app rev]; auto. cbn [read_fields]. destruct (N.eqb_spec c d) as [->|]; [exfalso; apply H; now left|].
  rewrite IH by (intros I; apply H; now right). now rewrite <- app_assoc.
Qed.
Lemma read_quoted d e x : e < 128 -> x < 128 -> forall s cur t, (t = [] \/ exists r, t = d :: r) -> d <> e -> d <> x ->
  read_fields d e x FQuoted cur (implode_escape s e x ++ e :: t) = read_fields d e x FPlain (rev s ++ cur) t.
Proof.
  intros He Hx s. induction s as [|c s IH]; intros cur t Ht D1 D2.
  - cbn [implode_escape flat_map app rev]. cbn [read_fields]. destruct Ht as [->|(r & ->)].
    + rewrite N.eqb_refl. reflexivity.
    + destruct (N.eqb_spec d e); [contradiction|]. destruct (N.eqb_spec d x); [contradiction|]. cbn [orb]. rewrite Bool.andb_false_r, N.eqb_refl. reflexivity.
  - unfold implode_escape in *. cbn [flat_map rev].
    assert (CE : ceq c e || ceq c x = (c =? e) || (c =? x)).
    { unfold ceq. destruct (N.ltb_spec c 128); [now rewrite !Bool.andb_true_r|]. rewrite (proj2 (N.eqb_neq c e)), (proj2 (N.eqb_neq c x)) by lia. reflexivity. }
    rewrite CE. destruct ((c =? e) || (c =? x)) eqn:EC.
    + cbn [app]. cbn [read_fields]. rewrite N.eqb_refl, EC. cbn [andb]. rewrite IH by auto. now rewrite <- app_assoc.
    + apply Bool.orb_false_iff in EC. destruct EC as (C1 & C2). cbn [app]. cbn [read_fields].
      assert (NE : exists n r, flat_map (fun c => if ceq c e || ceq c x then [x; c] else [c]) s ++ e :: t = n :: r) by (destruct (flat_map _ s); cbn; eauto).
      destruct NE as (n & r & NE). rewrite <- app_assoc. cbn [app]. rewrite <- (IH (c :: cur) t) by auto. rewrite NE. rewrite C1, C2. reflexivity.
Qed.
Theorem implode_readable : forall d e x always strs, d < 128 -> e < 128 -> x < 128 -> d <> e -> d <> x -> strs <> [] ->
  exists t, implode d e x always strs = Some t /\ read_fields d e x FStart [] t = strs.
Proof.
  intros d e x always strs Hd He Hx D1 D2 NE.
  assert (F : forall s t, (t = [] \/ exists r, t = d :: r) -> read_fields d e x FStart [] (implode_one d e x always s ++ t) =
     s :: match t with [] => [] | _ :: r => read_fields d e x FStart [] r end).
  { intros s t Ht.
    assert (Q : forall w, w = (if has_restricted s d e x then implode_escape s e x else s) ->
      read_fields d e x FStart [] (([e] ++ w ++ [e]) ++ t) = s :: match t with [] => [] | _ :: r => read_fields d e x FStart [] r end).
    { intros w ->. assert (W : (if has_restricted s d e x then implode_escape s e x else s) = implode_escape s e x).
      { destruct (has_restricted s d e x) eqn:HR; auto. unfold implode_escape. clear -HR. induction s as [|c s IH]; auto. cbn [has_restricted existsb] in HR.
        apply Bool.orb_false_iff in HR. destruct HR as (H1 & H2). cbn [flat_map]. rewrite <- IH by exact H2.
        destruct (ceq c d), (ceq c e), (ceq c x); try discriminate. reflexivity. }
      rewrite W. cbn [app]. rewrite <- app_assoc. cbn [app]. cbn [read_fields]. destruct (N.eqb_spec e d); [congruence|]. rewrite N.eqb_refl.
      rewrite read_quoted by auto. rewrite app_nil_r. destruct Ht as [->|(r & ->)]; cbn [read_fields]; rewrite ?N.eqb_refl, rev_involutive; reflexivity. }
    unfold implode_one. destruct (has_restricted s d e x) eqn:HR.
    - rewrite Bool.orb_true_r. now apply Q.
    - rewrite Bool.orb_false_r. destruct always; [now apply Q|].
      assert (ND : forall c, In c s -> c <> d /\ c <> e).
      { intros c I. unfold has_restricted in HR. rewrite <- Bool.not_true_iff_false, existsb_exists in HR. split; intros ->; apply HR; eexists; (split; [exact I|]);
        unfold ceq; rewrite N.eqb_refl; destruct (N.ltb_spec d 128), (N.ltb_spec e 128); try lia; cbn [andb orb]; rewrite ?Bool.orb_true_r; reflexivity. }
      assert (TR : forall cur, read_fields d e x FPlain cur t = rev cur :: match t with [] => [] | _ :: r => read_fields d e x FStart [] r end).
      { intros cur. destruct Ht as [->|(r & ->)]; cbn [read_fields]; rewrite ?N.eqb_refl; reflexivity. }
      destruct s as [|c s]; cbn [app].
      + destruct Ht as [->|(r & ->)]; cbn [read_fields]; rewrite ?N.eqb_refl; reflexivity.
      + cbn [read_fields]. destruct (ND c (or_introl eq_refl)). destruct (N.eqb_spec c d), (N.eqb_spec c e); try contradiction.
        rewrite read_plain by (intros I; destruct (ND d (or_intror I)); congruence). rewrite TR. f_equal. rewrite rev_app_distr, rev_involutive. reflexivity. }
  assert (L : forall strs i buf, implode_loop d e x always (S i) strs buf = buf ++ flat_map (fun s => d :: implode_one d e x always s) strs).
  { induction strs0 as [|s strs0 IH]; intros i buf; cbn [implode_loop flat_map Nat.eqb]; [now rewrite app_nil_r|]. rewrite IH, <- !app_assoc. reflexivity. }
  destruct strs as [|s strs]; [contradiction|]. cbn [implode implode_loop Nat.eqb app]. rewrite L. eexists. split; [reflexivity|]. cbn [app].
  clear NE L. revert s. induction strs as [|s' strs IH]; intros s; cbn [flat_map].
  - rewrite F by auto. reflexivity.
  - cbn [app]. rewrite F by eauto. f_equal. apply IH.
Qed.
Example implode_readable_case : implode 44 34 34 false [[97; 44]; []; [34; 98]; [99]] = Some [34; 97; 44; 34; 44; 44; 34; 34; 34; 98; 34; 44; 99] /\
  read_fields 44 34 34 FStart [] [34; 97; 44; 34; 44; 44; 34; 34; 34; 98; 34; 44; 99] = [[97; 44]; []; [34; 98]; [99]].
Proof. split; reflexivity. Qed.
Print Assumptions implode_readable.

(** ** C18 *)

(** Partial: quote and escape must be ASCII and the quote must not be white
    space; see the two refutations.  They need not be distinct. *)
Theorem unquote_quote_partial : forall s z q e, no_nul s -> 0 < q < 128 -> 0 < e < 128 -> ~ is_space q ->
  exists t, str_quote_max (s ++ 0 :: z) q e None = Ok t /\
    forall z1, exists z2, str_unquote_max (t ++ 0 :: z1) q e None = Ok (s ++ 0 :: z2).
Proof.
  intros s z q e Hn Hq He Hs. destruct s as [|c s'] eqn:E.
  - exists []. split; auto. intros z1. exists z1. reflexivity.
  - rewrite <- E in *. exists (q :: flat_map (esc1 q e) s ++ [q]). split; [apply quote_ok; subst; auto; discriminate|].
    intros z1. apply unquote_ok; subst; auto; discriminate.
Qed.

Theorem unquote_quote_space_refuted : exists s q e t r, q <> e /\ no_nul s /\
  str_quote_max (s ++ [0]) q e None = Ok t /\ str_unquote_max (t ++ [0]) q e None = Ok r /\ firstn 3 r <> firstn 3 (s ++ [0]).
Proof.
  exists [32; 97], 32, 92. eexists. eexists. split; [discriminate|]. split; [repeat constructor; discriminate|].
  split; [vm_compute; reflexivity|]. split; [vm_compute; reflexivity|]. vm_compute. discriminate.
Qed.
Theorem unquote_quote_high_refuted : exists s q e t r, q <> e /\ no_nul s /\
  str_quote_max (s ++ [0]) q e None = Ok t /\ str_unquote_max (t ++ [0]) q e None = Ok r /\ firstn 2 r <> firstn 2 (s ++ [0]).
Proof.
  exists [97], 200, 92. eexists. eexists. split; [discriminate|]. split; [repeat constructor; discriminate|].
  split; [vm_compute; reflexivity|]. split; [vm_compute; reflexivity|]. vm_compute. discriminate.
Qed.

(** Every quote or escape in [s] is escaped and the whole is enclosed. *)
Theorem quote_escapes : forall s z q e, no_nul s -> s <> [] -> q < 128 -> e < 128 ->
  str_quote_max (s ++ 0 :: z) q e None =
    Ok (q :: flat_map (fun c => if (c =? q) || (c =? e) then [e; c] else [c]) s ++ [q]).
Proof.
  intros s z q e Hn Hne Hq He. rewrite quote_ok by auto. do 3 f_equal. apply flat_map_ext. intros c.
  unfold esc1, ceq. destruct (N.eqb_spec c q), (N.eqb_spec c e); subst; cbn [orb andb]; auto;
  repeat match goal with |- context [?a <? ?b] => destruct (N.ltb_spec a b); try lia end; auto.
Qed.

Example quote_example :
  str_quote_max [97;34;98;0] 34 92 None = Ok [34;97;92;34;98;34] /\
  str_unquote_max [34;97;92;34;98;34;0] 34 92 None = Ok [97;34;98;0;0;0;0].
Proof. split; reflexivity. Qed.

(** ** C19 *)

(** The exact result: the replacement, followed, when the last match reaches
    the end of the string, by the text after the previous match once more. *)
Theorem replace_str_partial : forall s b a, s <> [] -> b <> [] -> exists r, replaced b a s r /\
  ((replace_str s b a = Ok r /\ forall t, ~ ends_in_match b s t) \/
   exists t, ends_in_match b s t /\ replace_str s b a = Ok (r ++ t)).
Proof. exact replace_str_ok. Qed.

(** ... and [replaced] is a function of [s], so nothing else is the replacement. *)
Theorem replaced_unique : forall b a s r r', replaced b a s r -> replaced b a s r' -> r = r'.
Proof. intros b a s r r' H H'. eapply replaced_fun; eauto. Qed.

(** Replacing "b" by "X" in "ab" gives "aXab". *)
Theorem replace_str_refuted : exists s b a r, replaced b a s r /\ exists out, replace_str s b a = Ok out /\ out <> r.
Proof.
  exists [97; 98], [98], [88], ([97] ++ [88] ++ []). split.
  - apply (rp_hit [98] [88] [97; 98] [97] []).
    + split; auto. intros [|x x'] y' E; cbn in E; [discriminate|cbn; lia].
    + constructor. intros [|x x'] y E; discriminate.
  - eexists. split; [vm_compute; reflexivity|]. vm_compute. discriminate.
Qed.

Example replace_example : replace_str [97;98;97;98;99] [97;98] [120] = Ok [120;120;99].
Proof. reflexivity. Qed.

(** ** C20 *)

Theorem trim_correct : forall s z, no_nul s -> exists t z',
  trim_max (s ++ 0 :: z) None = Ok (t ++ 0 :: z') /\ length (t ++ 0 :: z') = length (s ++ 0 :: z) /\
  trimmed s t /\ forall t', trimmed s t' -> t' = t.
Proof.
  intros s z Hn. destruct (trim_decomp s) as (w1 & t & w2 & E & F1 & F2 & D).
  subst s. destruct (trim_ok w1 t w2 z Hn F1 F2 D) as (z' & E & L).
  exists t, z'. split; auto. split; auto.
  assert (T : trimmed (w1 ++ t ++ w2) t).
  { exists w1, w2. split; auto. split; auto. split; auto.
    destruct D as [[-> _]|[(c & r & Ec & Hc) (r' & c' & Ec' & Hc')]].
    - split; [discriminate|]. intros c t' H. symmetry in H. apply app_eq_nil in H. destruct H; discriminate.
    - split; intros x y H; [rewrite Ec in H|rewrite Ec' in H].
      + now injection H as <- _.
      + apply app_inj_tail in H. now destruct H as [_ <-]. }
  split; auto. intros t' T'. eapply trimmed_unique; eauto.
Qed.

Example trim_example : trim_max [32;9;97;32;98;10;0;7] None = Ok [97;32;98;0;0;10;0;7].
Proof. reflexivity. Qed.

(** ** C22 *)

Theorem justify_correct : forall dest destlen src srclen j ch justlen n dest',
  (destlen <= length dest)%nat -> (srclen <= length src)%nat ->
  justify_max dest destlen src srclen j ch justlen = Ok (n, dest') -> n <> 0%nat ->
  exists out, dest' = out ++ 0 :: skipn (n + 1) dest /\ length out = n /\ (n <= justlen < destlen)%nat /\
    justified j (firstn srclen src) ch justlen out.
Proof.
  intros dest destlen src srclen j ch justlen n dest' Hd Hs E Hn.
  destruct (Nat.le_gt_cases destlen justlen) as [Hj|Hj].
  { unfold justify_max in E. rewrite (proj2 (Nat.leb_le destlen justlen)) in E by auto. congruence. }
  destruct (no_trunc j && (justlen <? srclen)%nat) eqn:NT.
  { unfold justify_max in E. rewrite (proj2 (Nat.leb_gt destlen justlen)), NT in E by auto. congruence. }
  assert (NT' : no_trunc j = true -> (srclen <= justlen)%nat).
  { intros T. rewrite T in NT. cbn in NT. now apply Nat.ltb_ge in NT. }
  pose proof (justify_ok dest destlen src srclen j ch justlen Hd Hs Hj NT') as J.
  destruct (just_in j srclen justlen) as [[inptr sl] jl] eqn:Ei.
  destruct (just_fill j sl jl) as [ll rl] eqn:Ef.
  destruct J as (J & L1 & L2 & L3). rewrite J in E. apply (f_equal (fun r => match r with Ok x => x | _ => (0%nat, []) end)) in E.
  apply pair_equal_spec in E. destruct E as [E1 E2]. subst n. symmetry in E2.
  exists (repeat ch ll ++ firstn sl (skipn inptr src) ++ repeat ch rl). split; auto. split.
  { rewrite !app_length, !repeat_length, firstn_length, skipn_length. lia. } split; [lia|].
  assert (Lf : length (firstn srclen src) = srclen) by (rewrite firstn_length; lia).
  unfold justified. rewrite Lf. split; intros Hw.
  - unfold just_in in Ei. destruct (Nat.ltb_spec justlen srclen) as [|_]; [lia|].
    assert (I : inptr = 0%nat /\ sl = srclen) by (destruct j; injection Ei; auto). destruct I as [-> ->].
    rewrite skipn_O.
    assert (LL : length (repeat ch ll ++ firstn srclen src ++ repeat ch rl) = jl)
      by (rewrite !app_length, !repeat_length, Lf; lia).
    unfold just_fill in Ef. rewrite LL.
    destruct j; injection Ei as <-; apply pair_equal_spec in Ef; destruct Ef as [<- <-];
      rewrite ?Nat.sub_diag; cbn [repeat app]; rewrite ?app_nil_r; auto; (split; [reflexivity|]); eauto;
      (do 2 eexists; split; [reflexivity|]); set (k := (justlen - srclen)%nat);
      pose proof (Nat.div_mod k 2 ltac:(lia)); pose proof (Nat.mod_upper_bound k 2 ltac:(lia));
      pose proof (Nat.div_mod (k + 1) 2 ltac:(lia)); pose proof (Nat.mod_upper_bound (k + 1) 2 ltac:(lia)); lia.
  - unfold just_in in Ei. destruct (Nat.ltb_spec justlen srclen) as [_|]; [|lia].
    assert (I : sl = justlen /\ jl = justlen) by (destruct j; injection Ei; auto). destruct I as [-> ->].
    assert (Z : ll = 0%nat /\ rl = 0%nat) by lia. destruct Z as [-> ->]. cbn [repeat app]. rewrite app_nil_r.
    split; [rewrite firstn_length, skipn_length; lia|].
    assert (Pre : inptr = 0%nat -> exists x, firstn srclen src = firstn justlen (skipn inptr src) ++ x).
    { intros ->. exists (skipn justlen (firstn srclen src)). rewrite skipn_O.
      rewrite <- (firstn_skipn justlen (firstn srclen src)) at 1. now rewrite firstn_firstn, Nat.min_l by lia. }
    assert (Suf : inptr = (srclen - justlen)%nat -> exists x, firstn srclen src = x ++ firstn justlen (skipn inptr src)).
    { intros ->. exists (firstn (srclen - justlen) src).
      rewrite <- (firstn_skipn (srclen - justlen) (firstn srclen src)) at 1. f_equal.
      - rewrite firstn_firstn. f_equal. lia.
      - rewrite skipn_firstn_comm. f_equal. lia. }
    destruct j; injection Ei; intros; first [apply Pre; congruence | apply Suf; congruence | cbn in NT'; specialize (NT' eq_refl); lia].
Qed.

(** It never leaves [dest] or [src], and fails exactly when the width does not
    fit in [dest] or truncation is needed and forbidden (or the width is 0). *)
Theorem justify_total : forall dest destlen src srclen j ch justlen,
  (destlen <= length dest)%nat -> (srclen <= length src)%nat ->
  exists n dest', justify_max dest destlen src srclen j ch justlen = Ok (n, dest') /\ length dest' = length dest /\
   ((destlen <= justlen \/ no_trunc j = true /\ justlen < srclen)%nat -> n = 0%nat /\ dest' = dest) /\
   ((justlen < destlen)%nat -> (no_trunc j = true -> srclen <= justlen)%nat ->
      n = match j with JTruncLeft | JTruncRight => Nat.min srclen justlen | _ => justlen end).
Proof.
  intros dest destlen src srclen j ch justlen Hd Hs.
  destruct (Nat.le_gt_cases destlen justlen) as [Hj|Hj].
  { exists 0%nat, dest. unfold justify_max. rewrite (proj2 (Nat.leb_le destlen justlen)) by auto. repeat split; auto. lia. }
  destruct (no_trunc j && (justlen <? srclen)%nat) eqn:NT.
  { exists 0%nat, dest. unfold justify_max. rewrite (proj2 (Nat.leb_gt destlen justlen)), NT by auto. repeat split; auto.
    intros _ H. apply andb_true_iff in NT. destruct NT as [N1 N2]. apply Nat.ltb_lt in N2. apply H in N1. lia. }
  assert (NT' : no_trunc j = true -> (srclen <= justlen)%nat).
  { intros T. rewrite T in NT. cbn in NT. now apply Nat.ltb_ge in NT. }
  pose proof (justify_ok dest destlen src srclen j ch justlen Hd Hs Hj NT') as J.
  destruct (just_in j srclen justlen) as [[inptr sl] jl] eqn:Ei.
  destruct (just_fill j sl jl) as [ll rl] eqn:Ef. destruct J as (J & L1 & L2 & L3).
  do 2 eexists. split; [exact J|]. split.
  { rewrite !app_length. cbn [length]. rewrite ?app_length, !repeat_length, firstn_length, !skipn_length. lia. }
  split.
  - intros [H|[H1 H2]]; [lia|]. apply NT' in H1. lia.
  - intros _ _. unfold just_in in Ei. destruct (Nat.ltb_spec justlen srclen); destruct j; injection Ei; intros; lia.
Qed.

Example justify_example :
  justify_max [9;9;9;9;9;9;9;9] 8 [97;98;0] 2 JCenter 32 5 = Ok (5%nat, [32;32;97;98;32;0;9;9]) /\
  justify_max [9;9;9;9] 4 [97;98;99;100;0] 4 JRight 32 3 = Ok (3%nat, [98;99;100;0]).
Proof. split; reflexivity. Qed.

(** ** C54 *)

Theorem str_cat_correct : forall d z s z' dest_len, no_nul d -> no_nul s -> (dest_len <= length (d ++ 0%N :: z))%nat ->
  str_cat (d ++ 0 :: z) dest_len (s ++ 0 :: z') =
    if (length d + length s <? dest_len)%nat then Ok (true, (d ++ s) ++ 0 :: skipn (length s) z)
    else Ok (false, d ++ 0 :: z).
Proof. exact str_cat_ok. Qed.

Theorem str_cpy_correct : forall dest dest_len s z, no_nul s -> (0 < dest_len <= length dest)%nat ->
  str_cpy_max dest dest_len (s ++ 0 :: z) None =
    Ok (true, firstn (dest_len - 1) s ++ 0 :: skipn (Nat.min (length s) (dest_len - 1) + 1) dest).
Proof. exact str_cpy_ok. Qed.

Theorem str_cpy_max_correct : forall dest dest_len s n, (n <= length s)%nat -> (0 < dest_len <= length dest)%nat ->
  str_cpy_max dest dest_len s (Some n) =
    Ok (true, firstn (Nat.min n (dest_len - 1)) s ++ 0 :: skipn (Nat.min n (dest_len - 1) + 1) dest).
Proof. exact str_cpy_max_ok. Qed.

Theorem str_delete_correct : forall drop s z, no_nul s -> exists z',
  str_delete drop (s ++ 0 :: z) = Ok (filter (fun c => negb (drop c)) s ++ 0 :: z') /\
  length (filter (fun c => negb (drop c)) s ++ 0 :: z') = length (s ++ 0 :: z).
Proof. exact str_delete_ok. Qed.

(** In-place mapping changes the first [n] characters and nothing after. *)
Theorem str_map_correct : forall f s z n, no_nul s ->
  map_loop f (s ++ 0 :: z) 0 n = Ok (map f (firstn n s) ++ skipn n s ++ 0 :: z).
Proof. intros f s z n H. apply (map_loop_ok f s [] z n H). Qed.

Example str_edit_example :
  str_cat [97;0;9;9] 4 [98;99;0] = Ok (true, [97;98;99;0]) /\
  str_cat [97;0;9;9] 3 [98;99;0] = Ok (false, [97;0;9;9]) /\
  str_cpy_max [9;9;9] 3 [97;98;99;0] None = Ok (true, [97;98;0]) /\
  str_delete chr_isspace [97;32;98;0] = Ok [97;98;0;0] /\
  map_loop (fun c => if c =? 97 then 98 else c) [97;99;97;0] 0 10 = Ok [98;99;98;0].
Proof. repeat split. Qed.

Print Assumptions explode_splits_partial.
Print Assumptions explode_pieces_unique.
Print Assumptions explode_empty_refuted.
Print Assumptions implode_restores.
Print Assumptions unquote_quote_partial.
Print Assumptions unquote_quote_space_refuted.
Print Assumptions unquote_quote_high_refuted.
Print Assumptions quote_escapes.
Print Assumptions replace_str_partial.
Print Assumptions replaced_unique.
Print Assumptions replace_str_refuted.
Print Assumptions trim_correct.
Print Assumptions justify_correct.
Print Assumptions justify_total.
Print Assumptions str_cat_correct.
Print Assumptions str_cpy_correct.
Print Assumptions str_cpy_max_correct.
Print Assumptions str_delete_correct.
Print Assumptions str_map_correct.

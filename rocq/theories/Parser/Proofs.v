(** The parser refines the byte stream of Spec. *)
From Verif Require Import Base.Lib Base.Mem Hex.Model Buf.Model MemFn.Model MemFn.Spec MemFn.Proofs Parser.Spec Parser.Model.
Local Open Scope N_scope.

Lemma rdn_at {A} (p l s : list A) i n : i = length p -> n = length l -> rdn (p ++ l ++ s) i n = Ok l.
Proof. intros -> ->. apply rdn_ok. Qed.
Lemma wrn_at {A} (p l s x : list A) i : i = length p -> length x = length l -> wrn (p ++ l ++ s) i x = Ok (p ++ x ++ s).
Proof. intros ->. apply wrn_ok. Qed.

Definition markrel (pre past : list N) (m k : option nat) : Prop :=
  match m, k with
  | None, None => True
  | Some m, Some k => (m <= length pre)%nat /\ (k <= length past)%nat /\ skipn m pre = skipn k past
  | _, _ => False
  end.

Record RepAt (p : parser) (s : stream) (pre post : list N) : Prop := mkRep {
  r_mem : pmem p = pre ++ rest s ++ post;
  r_pos : length pre = ppos p;
  r_len : plen p = length (rest s);
  r_cons : pcons p = length (past s);
  r_le : (ppos p <= length (past s))%nat;
  r_mu : markrel pre (past s) (mu p) (um s);
  r_mi : markrel pre (past s) (mi p) (im s);
  r_const : pdyn p = false -> pre = past s;
  r_bytes : is_bytes (past s ++ rest s);
  r_line : ptrack p = true -> pline p = newlines (past s);
  r_col : ptrack p = true -> pdyn p = false -> pcol p = column (past s) }.
Definition Rep (p : parser) (s : stream) : Prop := exists pre post, RepAt p s pre post.

Lemma create_ok track : Rep (create track) (start_stream []).
Proof. exists [], []. constructor; cbn; auto. constructor. Qed.
Lemma create_const_ok d track : is_bytes d -> Rep (create_const d track) (start_stream d).
Proof. intros H. exists [], []. constructor; cbn; auto. now rewrite app_nil_r. Qed.

Lemma adv_0 s : adv s 0 = s.
Proof. destruct s as [a b c d]. unfold adv. cbn [past rest um im]. rewrite firstn_O, skipn_O, app_nil_r. reflexivity. Qed.
Lemma cut_all s : cut s (length (rest s)) = s.
Proof. destruct s as [a b c d]. unfold cut. cbn [past rest um im]. rewrite firstn_all. reflexivity. Qed.

(** ** Lines and columns *)
Lemma newlines_snoc l c : newlines (l ++ [c]) = (newlines l + (if (c =? 10)%N then 1 else 0))%nat.
Proof.
  unfold newlines. rewrite count_occ_app. cbn [count_occ]. destruct (N.eq_dec c 10) as [->|H]; cbn; [lia|].
  rewrite (proj2 (N.eqb_neq c 10)) by auto. lia.
Qed.
Lemma column_snoc l c : column (l ++ [c]) = if c =? 10 then O else S (column l).
Proof. unfold column, tail_span. rewrite rev_app_distr. cbn. destruct (c =? 10); auto. Qed.

Lemma track_loop_ok : forall n pre mid post d line col, (n <= length mid)%nat ->
  exists line' col', track_loop (pre ++ mid ++ post) (length pre) n line col = Ok (line', col') /\
    (line = newlines d -> line' = newlines (d ++ firstn n mid)) /\
    (col = column d -> col' = column (d ++ firstn n mid)).
Proof.
  induction n as [|n IH]; intros pre mid post d line col H.
  - exists line, col. rewrite firstn_O, app_nil_r. auto.
  - destruct mid as [|c mid]; [cbn in H; lia|]. cbn [track_loop app]. rewrite rd_app_mid. cbn [bind].
    cbn [length] in H.
    assert (E : pre ++ c :: mid ++ post = (pre ++ [c]) ++ mid ++ post) by now rewrite <- app_assoc.
    assert (L : S (length pre) = length (pre ++ [c])) by llen.
    rewrite E, L.
    pose proof (newlines_snoc d c) as N1. pose proof (column_snoc d c) as C1.
    assert (A : d ++ firstn (S n) (c :: mid) = (d ++ [c]) ++ firstn n mid) by (rewrite <- app_assoc; reflexivity).
    destruct (c =? 10).
    + destruct (IH (pre ++ [c]) mid post (d ++ [c]) (S line) O ltac:(lia)) as (l' & c' & R & HL & HC).
      exists l', c'. rewrite R, A. split; auto. split; intros ->; [apply HL|apply HC]; lia.
    + destruct (IH (pre ++ [c]) mid post (d ++ [c]) line (S col) ltac:(lia)) as (l' & c' & R & HL & HC).
      exists l', c'. rewrite R, A. split; auto. split; intros ->; [apply HL|apply HC]; lia.
Qed.

Lemma untrack_loop_ok : forall n pre mid post line, (n <= length mid)%nat -> (newlines (firstn n mid) <= line)%nat ->
  untrack_loop (pre ++ mid ++ post) (length pre) n line = Ok (line - newlines (firstn n mid))%nat.
Proof.
  induction n as [|n IH]; intros pre mid post line H HN.
  - rewrite firstn_O. cbn. f_equal. lia.
  - destruct mid as [|c mid]; [cbn in H; lia|]. cbn [untrack_loop app]. rewrite rd_app_mid. cbn [bind].
    cbn [length] in H.
    replace (pre ++ c :: mid ++ post) with ((pre ++ [c]) ++ mid ++ post) by now rewrite <- app_assoc.
    replace (S (length pre)) with (length (pre ++ [c])) by llen.
    assert (E : newlines (firstn (S n) (c :: mid)) = ((if (c =? 10)%N then 1 else 0) + newlines (firstn n mid))%nat).
    { cbn [firstn]. unfold newlines. cbn [count_occ]. destruct (N.eq_dec c 10) as [->|X]; cbn; auto.
      rewrite (proj2 (N.eqb_neq c 10)) by auto. reflexivity. }
    rewrite E in *. rewrite IH by (try lia; destruct (c =? 10); lia). f_equal. destruct (c =? 10); lia.
Qed.
Lemma col_back_ok : forall pre post k, col_back (pre ++ post) (length pre) k = Ok (k + column pre)%nat.
Proof.
  intros pre. induction pre as [|c pre IH] using rev_ind; intros post k.
  - cbn. f_equal. unfold column. cbn. lia.
  - rewrite app_length. cbn [length]. rewrite Nat.add_1_r. cbn [col_back]. rewrite <- app_assoc. cbn [app].
    rewrite rd_app_mid. cbn [bind]. rewrite column_snoc. destruct (c =? 10).
    + f_equal. lia.
    + rewrite IH. f_equal. lia.
Qed.

(** ** Consuming *)
Lemma markrel_app pre past m k x : markrel pre past m k -> markrel (pre ++ x) (past ++ x) m k.
Proof.
  destruct m as [m|], k as [k|]; cbn; auto. intros (H1 & H2 & H3). repeat split; try llen.
  rewrite !skipn_app. rewrite H3. f_equal.
  replace (m - length pre)%nat with O by lia. replace (k - length past)%nat with O by lia. reflexivity.
Qed.

Lemma consume_ok p s n : Rep p s -> (n <= length (rest s))%nat ->
  exists p', consume p n = Ok (true, p') /\ Rep p' (adv s n) /\ pdyn p' = pdyn p.
Proof.
  intros (pre & post & [Hm Hp Hl Hc Hle Hmu Hmi Hco Hb Hli Hcol]) Hn.
  unfold consume. rewrite Hl. destruct (Nat.ltb_spec (length (rest s)) n); [lia|].
  pose proof (firstn_skipn n (rest s)) as FS.
  assert (LF : length (firstn n (rest s)) = n) by (rewrite firstn_length; lia).
  destruct (track_loop_ok n pre (rest s) post (past s) (pline p) (pcol p) Hn) as (l' & c' & T & HL & HC).
  assert (exists l2 c2, (if ptrack p then track_loop (pmem p) (ppos p) n (pline p) (pcol p) else Ok (pline p, pcol p)) = Ok (l2, c2) /\
    (ptrack p = true -> l2 = newlines (past s ++ firstn n (rest s))) /\
    (ptrack p = true -> pdyn p = false -> c2 = column (past s ++ firstn n (rest s)))) as (l2 & c2 & E & EL & EC).
  { destruct (ptrack p) eqn:ET.
    - exists l', c'. rewrite Hm, <- Hp. split; auto.
    - exists (pline p), (pcol p). split; auto. split; discriminate. }
  rewrite E. cbn [bind].
  assert (B : is_bytes ((past s ++ firstn n (rest s)) ++ skipn n (rest s))) by (rewrite <- app_assoc, FS; auto).
  assert (M2 : pre ++ rest s ++ post = pre ++ firstn n (rest s) ++ (skipn n (rest s) ++ post))
    by (rewrite (app_assoc (firstn _ _)), FS; reflexivity).
  destruct (pdyn p && is_none (mu p) && is_none (mi p)) eqn:D.
  - rewrite Hm, <- Hp, M2.
    rewrite wrn_ok by (rewrite repeat_length; lia). cbn [bind].
    eexists. split; [reflexivity|]. split; [|reflexivity].
    apply andb_prop in D as [D D2]. apply andb_prop in D as [D D1].
    destruct (mu p) eqn:E1; [discriminate|]. destruct (mi p) eqn:E2; [discriminate|].
    exists (pre ++ repeat 255 n), post. destruct (um s) eqn:U; [destruct Hmu|]. destruct (im s) eqn:I; [destruct Hmi|].
    constructor; cbn [adv past rest um im pmem ppos plen pcons mu mi pdyn ptrack pline pcol]; rewrite ?U, ?I; auto.
    + rewrite <- app_assoc. reflexivity.
    + llen.
    + rewrite skipn_length. lia.
    + llen.
    + llen.
    + rewrite D. discriminate.
  - cbn [bind]. eexists. split; [reflexivity|]. split; [|reflexivity].
    exists (pre ++ firstn n (rest s)), post.
    constructor; cbn [adv past rest um im pmem ppos plen pcons mu mi pdyn ptrack pline pcol]; auto.
    + rewrite Hm, M2, <- app_assoc. reflexivity.
    + llen.
    + rewrite skipn_length. lia.
    + llen.
    + llen.
    + now apply markrel_app.
    + now apply markrel_app.
    + intros X. now rewrite (Hco X).
Qed.

(** ** Truncating *)
Lemma is_bytes_firstn n l : is_bytes l -> is_bytes (firstn n l).
Proof. intros H. rewrite <- (firstn_skipn n l) in H. now apply Forall_app in H. Qed.
Lemma is_bytes_app a b : is_bytes (a ++ b) <-> is_bytes a /\ is_bytes b.
Proof. apply Forall_app. Qed.

Lemma truncate_ok p s n : Rep p s -> (n <= length (rest s))%nat ->
  exists p', truncate p n = Ok (true, p') /\ Rep p' (cut s n) /\ pdyn p' = pdyn p.
Proof.
  intros (pre & post & [Hm Hp Hl Hc Hle Hmu Hmi Hco Hb Hli Hcol]) Hn.
  unfold truncate. rewrite Hl. destruct (Nat.ltb_spec (length (rest s)) n); [lia|].
  pose proof (firstn_skipn n (rest s)) as FS.
  assert (LF : length (firstn n (rest s)) = n) by (rewrite firstn_length; lia).
  assert (B : is_bytes (past s ++ firstn n (rest s))).
  { apply is_bytes_app in Hb as [B1 B2]. apply is_bytes_app. split; auto. now apply is_bytes_firstn. }
  assert (exists post', (if pdyn p && negb (length (pmem p) =? 0)%nat
      then wrn (pmem p) (ppos p + n) (repeat 255 (length (rest s) - n)) else Ok (pmem p)) =
      Ok (pre ++ firstn n (rest s) ++ post')) as (post' & ->).
  { destruct (_ && _).
    - exists (repeat 255 (length (rest s) - n) ++ post).
      rewrite Hm, <- Hp. rewrite <- FS at 1.
      replace (pre ++ (firstn n (rest s) ++ skipn n (rest s)) ++ post)
        with ((pre ++ firstn n (rest s)) ++ skipn n (rest s) ++ post) by now rewrite <- !app_assoc.
      replace (length pre + n)%nat with (length (pre ++ firstn n (rest s))) by llen.
      rewrite wrn_ok by (rewrite repeat_length, skipn_length; lia). now rewrite <- app_assoc.
    - exists (skipn n (rest s) ++ post). rewrite Hm. rewrite <- FS at 1. now rewrite <- !app_assoc. }
  cbn [bind]. eexists. split; [reflexivity|]. split; [|reflexivity].
  exists pre, post'. constructor; cbn; auto; lia.
Qed.

(** ** Marks *)
Lemma mark_int_ok p s u i : Rep p s ->
  Rep (mark_int u i p) (mks (past s) (rest s) (if u then Some (length (past s)) else um s) (if i then Some (length (past s)) else im s)) /\
  pdyn (mark_int u i p) = pdyn p.
Proof.
  intros (pre & post & [Hm Hp Hl Hc Hle Hmu Hmi Hco Hb Hli Hcol]). split; [|reflexivity].
  exists pre, post. constructor; cbn; auto.
  - destruct u; auto. cbn. rewrite <- Hp, !skipn_all. auto.
  - destruct i; auto. cbn. rewrite <- Hp, !skipn_all. auto.
Qed.

Lemma markrel_sum pre past m k : markrel pre past (Some m) (Some k) -> (m + length past = k + length pre)%nat.
Proof.
  cbn. intros (H1 & H2 & H3). apply (f_equal (@length N)) in H3. rewrite !skipn_length in H3. lia.
Qed.
(** The earliest mark, abstractly *)
Definition smin (u i : bool) (s : stream) : option nat :=
  match (if u then um s else None), (if i then im s else None) with
  | Some x, Some y => Some (Nat.min x y)
  | Some x, None => Some x
  | None, b => b
  end.
Lemma min_mark_ok p s pre post u i : RepAt p s pre post -> markrel pre (past s) (min_mark u i p) (smin u i s).
Proof.
  intros R. unfold min_mark, smin.
  pose proof (r_mu _ _ _ _ R) as Hu. pose proof (r_mi _ _ _ _ R) as Hi.
  destruct u, i; auto; destruct (mu p) as [x|], (um s) as [x'|]; try contradiction; auto;
    destruct (mi p) as [y|], (im s) as [y'|]; try contradiction; auto; [|exact Logic.I].
  pose proof (markrel_sum _ _ _ _ Hu). pose proof (markrel_sum _ _ _ _ Hi).
  destruct (Nat.ltb_spec y x); [replace (Nat.min x' y') with y' by lia|replace (Nat.min x' y') with x' by lia]; auto.
Qed.
Lemma min_mark_le p u i x : min_mark u i p = Some x ->
  (u = true -> forall y, mu p = Some y -> (x <= y)%nat) /\ (i = true -> forall y, mi p = Some y -> (x <= y)%nat).
Proof.
  unfold min_mark. destruct u, i; destruct (mu p) as [a|], (mi p) as [b|]; intros E;
    try destruct (Nat.ltb_spec b a); try discriminate E; injection E as <-;
    split; intros T y Y; try discriminate T; try discriminate Y; injection Y as <-; lia.
Qed.

(** Length and bytes of the marked part *)
Lemma marked_ok p s u i : Rep p s -> exists start,
  marked u i p = (start, N.of_nat (since s (smin u i s))) /\
  rdn (pmem p) start (since s (smin u i s)) = Ok (skipn (length (past s) - since s (smin u i s)) (past s)) /\
  (start + since s (smin u i s) = ppos p)%nat.
Proof.
  intros (pre & post & R). pose proof (min_mark_ok _ _ _ _ u i R) as M. unfold marked, since.
  pose proof (r_mem _ _ _ _ R) as Hm. pose proof (r_pos _ _ _ _ R) as Hp.
  destruct (min_mark u i p) as [x|], (smin u i s) as [k|]; try contradiction.
  - pose proof (markrel_sum _ _ _ _ M) as S. destruct M as (M1 & M2 & M3). exists x.
    destruct (Nat.leb_spec x (ppos p)); [|lia]. rewrite Hm. split; [do 2 f_equal; lia|]. split; [|lia].
    replace (length (past s) - (length (past s) - k))%nat with k by lia. rewrite <- M3.
    rewrite <- (firstn_skipn x pre) at 1. rewrite <- app_assoc.
    apply rdn_at; rewrite ?firstn_length, ?skipn_length; lia.
  - exists (ppos p). split; auto. rewrite Nat.sub_0_r, skipn_all, Nat.add_0_r. split; auto.
    rewrite rdn_lt by (rewrite Hm, !app_length; lia). reflexivity.
Qed.

Lemma mark_clear_ok p s u i : Rep p s -> exists p', mark_clear_int u i p = Ok p' /\
  Rep p' (mks (past s) (rest s) (if u then None else um s) (if i then None else im s)) /\ pdyn p' = pdyn p.
Proof.
  intros HR. destruct (marked_ok _ _ true true HR) as (start & E & _ & S). destruct HR as (pre & post & R).
  unfold mark_clear_int. rewrite E.
  destruct R as [Hm Hp Hl Hc Hle Hmu Hmi Hco Hb Hli Hcol].
  destruct (pdyn p && negb (length (pmem p) =? 0)%nat && negb (N.of_nat (since s (smin true true s)) =? 0) &&
     is_none (if u then None else mu p) && is_none (if i then None else mi p)) eqn:D.
  - destruct (Nat.ltb_spec (ppos p) start); [lia|].
    apply andb_prop in D as [D D2]. apply andb_prop in D as [D D1]. apply andb_prop in D as [D _]. apply andb_prop in D as [D _].
    rewrite Hm. rewrite <- (firstn_skipn start pre), <- app_assoc.
    assert (LF : length (firstn start pre) = start) by (rewrite firstn_length; lia).
    rewrite wrn_at by (rewrite ?repeat_length, ?skipn_length; lia). cbn [bind].
    eexists. split; [reflexivity|]. split; [|reflexivity].
    exists (firstn start pre ++ repeat 255 (ppos p - start)), post.
    constructor; cbn; auto.
    + now rewrite <- !app_assoc.
    + llen.
    + destruct u; cbn; auto. destruct (mu p); [discriminate|]. destruct (um s); auto.
    + destruct i; cbn; auto. destruct (mi p); [discriminate|]. destruct (im s); auto.
    + rewrite D. discriminate.
  - eexists. split; [reflexivity|]. split; [|reflexivity].
    exists pre, post. constructor; cbn; auto; [destruct u|destruct i]; cbn; auto.
Qed.

(** ** Rewinding *)
Lemma skipn_firstn_tail {A} (l : list A) a b : (a <= b)%nat -> skipn a l = skipn a (firstn b l) ++ skipn b l.
Proof.
  intros H. rewrite <- (firstn_skipn b l) at 1. rewrite skipn_app.
  destruct (Nat.le_gt_cases b (length l)).
  - rewrite firstn_length. replace (a - Nat.min b (length l))%nat with O by lia. reflexivity.
  - rewrite (skipn_all2 l) by lia. now rewrite skipn_nil.
Qed.
Lemma newlines_app a b : newlines (a ++ b) = (newlines a + newlines b)%nat.
Proof. apply count_occ_app. Qed.

(** Going back n > 0 bytes is possible when the bytes there are the consumed
    ones. *)
Lemma rewind_ok p s n pre post : RepAt p s pre post -> (0 < n)%nat -> (n <= ppos p)%nat ->
  skipn (ppos p - n) pre = skipn (length (past s) - n) (past s) ->
  exists p', rewind_int p (N.of_nat n) = Ok (true, p') /\ Rep p' (back s n) /\ pdyn p' = pdyn p.
Proof.
  intros [Hm Hp Hl Hc Hle Hmu Hmi Hco Hb Hli Hcol] H0 Hn HS. unfold rewind_int.
  rewrite (proj2 (N.eqb_neq _ 0)) by lia.
  destruct (N.ltb_spec (N.of_nat (ppos p)) (N.of_nat n)); [lia|]. rewrite Nat2N.id.
  set (pos := (ppos p - n)%nat) in *. set (k := (length (past s) - n)%nat) in *.
  set (a := firstn pos pre). set (b := skipn pos pre).
  assert (AB : pre = a ++ b) by (symmetry; apply firstn_skipn).
  assert (LA : length a = pos) by (unfold a; rewrite firstn_length; lia).
  assert (LB : length b = n) by (unfold b; rewrite skipn_length; lia).
  assert (BB : b = skipn k (past s)) by auto.
  assert (PP : past s = firstn k (past s) ++ b) by (rewrite BB; symmetry; apply firstn_skipn).
  assert (MEM : pmem p = a ++ (b ++ rest s) ++ post) by (rewrite Hm, AB, <- !app_assoc; reflexivity).
  assert (exists l2 c2, (if ptrack p then do line <- untrack_loop (pmem p) pos n (pline p); do col <- col_back (pmem p) pos 0; Ok (line, col)
      else Ok (pline p, pcol p)) = Ok (l2, c2) /\
      (ptrack p = true -> l2 = newlines (firstn k (past s))) /\
      (ptrack p = true -> pdyn p = false -> c2 = column (firstn k (past s)))) as (l2 & c2 & E & EL & EC).
  { destruct (ptrack p) eqn:ET.
    - specialize (Hli eq_refl). rewrite PP, newlines_app in Hli.
      exists (newlines (firstn k (past s))), (column a).
      rewrite MEM, <- LA. rewrite <- app_assoc.
      rewrite untrack_loop_ok by (rewrite ?firstn_all2; lia).
      cbn [bind]. rewrite col_back_ok. cbn [bind]. rewrite firstn_all2 by lia.
      split; [repeat f_equal; lia|]. split; auto. intros _ X. specialize (Hco X).
      f_equal. unfold a. rewrite Hco. f_equal. unfold pos, k. rewrite <- Hco, Hp. reflexivity.
    - exists (pline p), (pcol p). split; auto. split; discriminate. }
  rewrite E. cbn [bind]. eexists. split; [reflexivity|]. split; [|reflexivity].
  assert (LK : length (firstn k (past s)) = k) by (rewrite firstn_length; lia).
  exists a, post. constructor; cbn [back past rest um im pmem ppos plen pcons mu mi pdyn ptrack pline pcol]; fold k; auto.
  - rewrite <- BB. exact MEM.
  - rewrite app_length, skipn_length. lia.
  - rewrite firstn_length. lia.
  - lia.
  - clear -Hmu LA LK Hp Hle Hn HS. destruct (mu p) as [x|], (um s) as [x'|]; try contradiction; [|exact Logic.I]; unfold drop_mark.
    pose proof (markrel_sum _ _ _ _ Hmu) as S. destruct Hmu as (M1 & M2 & M3).
    destruct (Nat.ltb_spec pos x), (Nat.leb_spec x' k); try lia; [exact Logic.I|]. cbn [markrel]. split; [lia|]. split; [lia|].
    apply (app_inv_tail (skipn pos pre)). rewrite HS at 2. unfold a. rewrite <- !skipn_firstn_tail by lia. auto.
  - clear -Hmi LA LK Hp Hle Hn HS. destruct (mi p) as [x|], (im s) as [x'|]; try contradiction; [|exact Logic.I]; unfold drop_mark.
    pose proof (markrel_sum _ _ _ _ Hmi) as S. destruct Hmi as (M1 & M2 & M3).
    destruct (Nat.ltb_spec pos x), (Nat.leb_spec x' k); try lia; [exact Logic.I|]. cbn [markrel]. split; [lia|]. split; [lia|].
    apply (app_inv_tail (skipn pos pre)). rewrite HS at 2. unfold a. rewrite <- !skipn_firstn_tail by lia. auto.
  - intros X. specialize (Hco X). unfold a. rewrite Hco. f_equal. unfold pos, k. rewrite <- Hco, Hp. reflexivity.
  - rewrite app_assoc, firstn_skipn. auto.
Qed.

Lemma mark_rewind_ok p s : Rep p s -> let n := since s (um s) in
  exists p', mark_rewind p = Ok (N.of_nat n, p') /\ Rep p' (if (n =? 0)%nat then s else back s n) /\ pdyn p' = pdyn p.
Proof.
  intros HR n. destruct (marked_ok _ _ true false HR) as (start & E & _ & S). unfold mark_rewind, mark_len.
  assert (SM : smin true false s = um s) by (unfold smin; destruct (um s); auto).
  rewrite SM in *. rewrite E. cbn [snd]. fold n in S |- *.
  destruct (Nat.eqb_spec n 0) as [Z|Z].
  - rewrite Z. cbn. eauto.
  - rewrite (proj2 (N.eqb_neq _ 0)) by lia.
    destruct HR as (pre & post & R).
    destruct (@rewind_ok p s n pre post R) as (p' & E' & R' & D').
    + lia.
    + lia.
    + pose proof (r_mu _ _ _ _ R) as M. unfold n, since in *. destruct (um s) as [k|]; [|lia].
      destruct (mu p) as [m|]; [|contradiction]. pose proof (markrel_sum _ _ _ _ M) as SS. destruct M as (M1 & M2 & M3).
      pose proof (r_pos _ _ _ _ R) as HP.
      replace (ppos p - (length (past s) - k))%nat with m by lia.
      replace (length (past s) - (length (past s) - k))%nat with k by lia. auto.
    + rewrite E'. cbn [bind]. eauto.
Qed.

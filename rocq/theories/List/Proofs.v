From Verif Require Import Base.Lib Base.Mem Sort.Spec Sort.Model Sort.Binary Sort.Props List.Spec List.Model.

(** The cells of the list proper. *)
Definition Rep (d : lst) (l : list N) (m : bool) (f : list N) : Prop :=
  (exists pre post, base d = pre ++ l ++ post /\ start d = length pre) /\
  elems d = length l /\ 4 <= length (base d) /\ multi d = m /\ freed d = f.

Lemma mmove_view (m p b s p' b' s' : list N) dst src n : m = p ++ b ++ s -> m = p' ++ b' ++ s' -> length b = length b' ->
  dst = length p' -> src = length p -> n = length b ->
  mmove m dst src n = Ok (p' ++ b ++ s').
Proof.
  intros E1 E2 L -> -> ->. unfold mmove. rewrite E1 at 1. rewrite rdn_ok. cbn [bind]. rewrite E2. now apply wrn_ok.
Qed.
Lemma split_at {A} (l : list A) n : n <= length l -> exists a b, l = a ++ b /\ length a = n.
Proof. intros H. exists (firstn n l), (skipn n l). rewrite firstn_skipn, firstn_length. split; [auto|lia]. Qed.
Lemma split_mid {A} (l : list A) n : n < length l -> exists a x b, l = a ++ x :: b /\ length a = n.
Proof.
  intros H. destruct (split_at l n ltac:(lia)) as (a & [|x b] & -> & L).
  - hlen.
  - now exists a, x, b.
Qed.

Lemma cell_rep d l m f i x : Rep d l m f -> nth_error l i = Some x -> cell d i = Ok x.
Proof.
  intros ((pre & post & E & S) & _) H. unfold cell. rewrite E, S. apply rd_Ok.
  rewrite nth_error_app2 by lia. replace (length pre + i - length pre) with i by lia.
  rewrite nth_error_app1; auto. apply nth_error_Some. congruence.
Qed.
Lemma rep_create g : Rep (create g) [] false [].
Proof.
  split; [exists [], (repeat g 4); auto|]. split; [auto|]. split; [cbn; lia|]. auto.
Qed.

Section PrfA.
Context (c : cfg).

Lemma conv_queue d l m f i : Rep d l m f -> stack c = false -> i <= length l -> conv_at c d i = (if length l =? 0 then 0%Z else Z.of_nat i).
Proof.
  intros (_ & E & _) H L. unfold conv_at. rewrite E, H. destruct (length l =? 0); auto.
  destruct (Nat.ltb_spec (length l) i); auto. lia.
Qed.
Lemma conv_stack d l m f i : Rep d l m f -> stack c = true -> i < length l -> conv_at c d i = Z.of_nat (length l - 1 - i).
Proof.
  intros (_ & E & _) H L. unfold conv_at. rewrite E, H. destruct (Nat.eqb_spec (length l) 0); [lia|]. cbn [negb].
  destruct (Nat.ltb_spec (length l) i); [lia|]. destruct (Nat.eqb_spec (length l - 1) i); lia.
Qed.
Lemma conv_stack_end d l m f : Rep d l m f -> stack c = true -> l <> [] -> conv_at c d (length l) = (-1)%Z.
Proof.
  intros (_ & E & _) H L. unfold conv_at. rewrite E, H. assert (length l <> 0) by (now destruct l).
  destruct (Nat.eqb_spec (length l) 0); [lia|]. cbn [negb].
  destruct (Nat.ltb_spec (length l) (length l)); [lia|]. destruct (Nat.eqb_spec (length l - 1) (length l)); lia.
Qed.
(** Position in memory of an index *)
Definition pos (n i : nat) : nat := if stack c then n - 1 - i else i.
Lemma conv_pos d l m f i : Rep d l m f -> i < length l -> conv_at c d i = Z.of_nat (pos (length l) i).
Proof.
  intros R L. unfold pos. destruct (stack c) eqn:E.
  - now apply (conv_stack d l m f).
  - rewrite (conv_queue d l m f) by (auto; lia). destruct (Nat.eqb_spec (length l) 0); lia.
Qed.
End PrfA.

Lemma shift_ok d l m f force : Rep d l m f ->
  exists d', shift_data d force = Ok d' /\ Rep d' l m f /\ length (base d') = length (base d) /\
    (force = true -> start d' = 0) /\ (start d' = 0 \/ start d' + length l < length (base d')).
Proof.
  intros ((pre & post & E & S) & L & B & M & F). unfold shift_data.
  assert (Hb : length (base d) = length pre + (length l + length post)) by (rewrite E; llen).
  destruct (Nat.eqb_spec (elems d) 0) as [Z|Z].
  - assert (l = []) as -> by (destruct l; [auto|hlen]). cbn [Nat.eqb negb andb].
    eexists; split; [reflexivity|]. split; [|cbn; auto].
    split; [|cbn; auto]. exists [], (base d). auto.
  - destruct (Nat.eqb_spec (start d) 0) as [Z0|Z0]; cbn [negb andb].
    { eexists; split; [reflexivity|]. split; [|cbn; auto]. split; [now exists pre, post|cbn; auto]. }
    destruct (force || (start d + elems d =? length (base d))) eqn:Fo.
    + rewrite (mmove_view (base d) pre l post [] (firstn (length l) (base d)) (skipn (length l) (base d))); auto;
        try (cbn [app]; now rewrite ?firstn_skipn); try (rewrite firstn_length; lia).
      cbn [bind app]. assert (Hl : length (l ++ skipn (length l) (base d)) = length (base d)) by (rewrite app_length, skipn_length; lia).
      eexists; split; [reflexivity|]. split; [|cbn; auto].
      split; [exists [], (skipn (length l) (base d)); auto|]. cbn. rewrite Hl. auto.
    + apply orb_false_iff in Fo as [F1 F2]. apply Nat.eqb_neq in F2.
      eexists; split; [reflexivity|]. split; [split; [now exists pre, post|cbn; auto]|]. cbn. split; auto. split; [congruence|]. right. lia.
Qed.

Lemma grow_ok g d l m f : Rep d l m f ->
  exists d', grow g d = Ok d' /\ Rep d' l m f /\ start d' + length l < length (base d').
Proof.
  intros R. destruct (shift_ok d l m f false R) as (d1 & E & R1 & Lb & _ & H). unfold grow. rewrite E. cbn [bind].
  destruct R1 as ((pre & post & E1 & S) & L & B & M & F). rewrite L.
  assert (Hb : length (base d1) = length pre + (length l + length post)) by (rewrite E1; llen).
  destruct (Nat.eqb_spec (length l) (length (base d1))) as [Q|Q].
  - assert (pre = []) as -> by (destruct pre; [auto|hlen]). assert (post = []) as -> by (destruct post; [auto|hlen]).
    cbn [app length] in *. rewrite app_nil_r in E1. eexists; split; [reflexivity|]. cbn. split; [|llen].
    split; [exists [], (repeat g (length (base d1))); cbn; rewrite E1; auto|].
    cbn. split; auto. split; [llen|auto].
  - eexists; split; [reflexivity|]. split; [|destruct H; lia]. split; [now exists pre, post|auto].
Qed.

Lemma shrink_ok c d l m f : Rep d l m f -> exists d', shrink c d = Ok d' /\ Rep d' l m f.
Proof.
  intros R. unfold shrink. destruct (never c); [eauto|]. cbn zeta.
  destruct ((4 <=? length (base d) / 2) && (elems d <=? length (base d) / 2 * 4 / 5)) eqn:Q; [|eauto].
  apply andb_true_iff in Q as [Q1 Q2]. apply Nat.leb_le in Q1, Q2.
  destruct (shift_ok d l m f true R) as (d1 & E & R1 & Lb & H & _). rewrite E. cbn [bind].
  destruct R1 as ((pre & post & E1 & S) & L & B & M & F). specialize (H eq_refl).
  assert (pre = []) as -> by (destruct pre; [auto|hlen]).
  destruct R as (_ & Le & _). rewrite Le in Q2.
  remember (length (base d) / 2) as r eqn:Er.
  assert (length l <= r) by (pose proof (Nat.div_le_upper_bound (r * 4) 5 r); lia).
  assert (r <= length (base d)) by (subst r; apply Nat.div_le_upper_bound; lia).
  eexists; split; [reflexivity|]. cbn [app] in E1. split.
  - exists [], (firstn (r - length l) post). cbn. split; auto. rewrite E1, firstn_app, firstn_all2 by lia. auto.
  - cbn. split; auto. split; auto. rewrite firstn_length. lia.
Qed.

Section PrfB.
Context (cmp : N -> N -> Z) (c : cfg) (g : N).
Lemma insert_raw d l m f v idx : Rep d l m f ->
  (idx <= Z.of_nat (length l))%Z \/ (idx < 0)%Z ->
  let i := if (idx <? 0)%Z then length l else Z.to_nat idx in
  exists d', insert_at_int cmp c g d v idx true = Ok (true, d') /\ Rep d' (firstn i l ++ v :: skipn i l) m f.
Proof.
  intros R Hi i. destruct (grow_ok g d l m f R) as (d1 & E & R1 & Hsp). unfold insert_at_int. cbn [negb andb bind]. rewrite E. cbn [bind].
  destruct R1 as ((pre & post & E1 & S) & L & B & M & F). rewrite L.
  assert (Ei : (if (idx <? 0)%Z || (Z.of_nat (length l) <? idx)%Z then length l else Z.to_nat idx) = i).
  { unfold i. destruct (Z.ltb_spec idx 0); cbn [orb]; auto. destruct (Z.ltb_spec (Z.of_nat (length l)) idx); [lia|auto]. }
  rewrite Ei. assert (Li : i <= length l) by (unfold i; destruct (Z.ltb_spec idx 0); lia). clearbody i. clear Ei Hi.
  destruct post as [|x post]; [rewrite E1 in Hsp; hlen|].
  destruct (split_at l i Li) as (a & b & -> & La). rewrite firstn_len, skipn_len by auto.
  destruct (Nat.ltb_spec i (length (a ++ b))) as [H|H].
  - destruct ((i =? 0) && (0 <? start d1)) eqn:Q.
    + apply andb_true_iff in Q as [Q1 Q2]. apply Nat.eqb_eq in Q1. apply Nat.ltb_lt in Q2.
      assert (a = []) as -> by (destruct a; [auto|hlen]). cbn [bind].
      destruct (split_at pre (length pre - 1) ltac:(lia)) as (p & [|y q] & -> & Lp); [hlen|].
      assert (q = []) as -> by (destruct q; [auto|hlen]).
      rewrite E1, S. rewrite wr_lt by llen. cbn [bind].
      eexists; split; [reflexivity|]. split; [exists p, (x :: post)|].
      * split; [|cbn; llen]. cbn [app base]. replace (length (p ++ [y]) - 1 + i) with (length p) by hlen.
        rewrite <- !app_assoc. cbn [app]. rewrite upd_app_mid. reflexivity.
      * split; [cbn; hlen|]. split; [cbn [base]; rewrite length_upd; rewrite E1 in B; exact B|auto].
    + clear Q. assert (exists y b', b ++ [x] = y :: b' /\ length b' = length b) as (y & b' & Eb & Lb).
      { destruct b as [|y b]; [hlen|]. exists y, (b ++ [x]). cbn. split; auto. llen. }
      rewrite (mmove_view (base d1) (pre ++ a) b (x :: post) (pre ++ a ++ [y]) b' post); rewrite ?E1, <- ?app_assoc; cbn [app]; auto.
      2: { do 2 f_equal. change (x :: post) with ([x] ++ post). rewrite (app_assoc b), Eb. reflexivity. }
      2-4: llen.
      cbn [bind]. rewrite (app_assoc pre a (y :: b ++ post)). rewrite wr_mid by hlen. cbn [bind].
      eexists; split; [reflexivity|]. split; [exists pre, post|].
      * split; [cbn; now rewrite <- !app_assoc|cbn; auto].
      * split; [cbn; hlen|]. split; [cbn; rewrite E1 in B; hlen|auto].
  - assert (b = []) as -> by (destruct b; [auto|hlen]). rewrite app_nil_r in *. cbn [bind].
    rewrite E1, S, (app_assoc pre a (x :: post)), wr_mid by hlen. cbn [bind].
    eexists; split; [reflexivity|]. split; [exists pre, post|].
    * split; [cbn; now rewrite <- !app_assoc|cbn; auto].
    * split; [cbn; hlen|]. split; [cbn; rewrite E1 in B; hlen|auto].
Qed.

Lemma insert_split d v idx : insert_at_int cmp c g d v idx false =
  do r <- (if isset c then index_of cmp c d v (mkt false (setp c)) else Ok None);
  match r with Some _ => Ok (false, d) | None => insert_at_int cmp c g d v idx true end.
Proof.
  unfold insert_at_int. cbn [negb andb bind]. destruct (isset c); cbn [bind]; auto.
Qed.

End PrfB.
Section PrfC.
Context (c : cfg).
Lemma take_ok d l m f i : Rep d l m f -> i < length l ->
  exists d' a x b, take_at c d i = Ok (x, d') /\ l = a ++ x :: b /\ length a = pos c (length l) i /\ Rep d' (a ++ b) m f.
Proof.
  intros R H. unfold take_at. pose proof R as ((pre & post & E & S) & L & B & M & F).
  destruct (Nat.leb_spec (elems d) i); [lia|]. rewrite (conv_pos c d l m f i R H), Nat2Z.id.
  assert (Hp : pos c (length l) i < length l) by (unfold pos; destruct (stack c); lia).
  destruct (split_mid l _ Hp) as (a & x & b & El & La). cbn zeta.
  rewrite (cell_rep d l m f (pos c (length l) i) x R). 2: { rewrite <- La, El. now apply nth_error_mid. }
  cbn [bind]. rewrite <- La, E, S, El, <- app_assoc. cbn [app]. rewrite (app_assoc pre), wr_mid by llen. cbn [bind].
  rewrite L, El. assert (Hb : 4 <= length pre + (length a + (1 + length b) + length post)) by (rewrite E, El in B; hlen).
  assert (Fin : forall bs st, (exists p q, bs = p ++ (a ++ b) ++ q /\ st = length p) -> 4 <= length bs ->
    exists d' : lst, (do d1 <- shrink c (mkl bs st (length (a ++ x :: b) - 1) (multi d) (freed d)); Ok (x, d1)) = Ok (x, d') /\ Rep d' (a ++ b) m f).
  { intros bs st Hq H4. destruct (shrink_ok c (mkl bs st (length (a ++ x :: b) - 1) (multi d) (freed d)) (a ++ b) m f) as (d' & Es & Rs).
    - split; [exact Hq|]. cbn. split; [llen|auto].
    - rewrite Es. cbn [bind]. eauto. }
  destruct (Nat.eqb_spec (length a) 0) as [Q|Q].
  - assert (a = []) as -> by (destruct a; [auto|hlen]). cbn [bind].
    edestruct Fin as (d' & Ed & Rd); [| |exists d', [], x, b; rewrite Ed; repeat split; auto; apply Rd].
    + exists (pre ++ [0%N]), post. rewrite app_nil_r, <- !app_assoc. cbn. split; [auto|llen].
    + hlen.
  - destruct (Nat.eqb_spec (length a) (length (a ++ x :: b) - 1)) as [Q2|Q2]; cbn [negb].
    + assert (b = []) as -> by (destruct b; [auto|hlen]). cbn [bind].
      edestruct Fin as (d' & Ed & Rd); [| |exists d', a, x, []; rewrite Ed; repeat split; auto; apply Rd].
      * exists pre, (0%N :: post). rewrite <- !app_assoc. auto.
      * hlen.
    + assert (exists b' z, 0%N :: b = b' ++ [z] /\ length b' = length b) as (b' & z & Eb & Lb).
      { destruct (exists_last (l := 0%N :: b) ltac:(discriminate)) as (b' & z & Eq). exists b', z. split; auto.
        apply (f_equal (@length N)) in Eq. hlen. }
      rewrite (mmove_view _ (pre ++ a ++ [0%N]) b post (pre ++ a) b' (z :: post)); auto; try llen.
      2: { rewrite <- !app_assoc. reflexivity. }
      2: { do 1 f_equal. change (0%N :: b ++ post) with ((0%N :: b) ++ post). rewrite Eb, <- app_assoc. reflexivity. }
      cbn [bind].
      edestruct Fin as (d' & Ed & Rd); [| |exists d', a, x, b; rewrite Ed; repeat split; auto; apply Rd].
      * exists pre, (z :: post). rewrite <- !app_assoc. auto.
      * hlen.
Qed.

End PrfC.
Lemma free_range_ok d l m f : Rep d l m f -> forall n a r b i, l = a ++ r ++ b -> length a = i -> length r = n ->
  free_range d i n = Ok r.
Proof.
  intros R. induction n as [|n IH]; intros a r b i -> La Lr.
  - destruct r; [auto|hlen].
  - destruct r as [|x r]; [hlen|]. cbn [free_range].
    rewrite (cell_rep d _ m f i x R) by (cbn [app]; now apply nth_error_mid). cbn [bind].
    rewrite (IH (a ++ [x]) r b); [auto|now rewrite <- app_assoc|llen|hlen].
Qed.

Section PrfD.
Context (c : cfg).
Lemma range_raw d l m f a r b s e : Rep d l m f -> l = a ++ r ++ b -> r <> [] -> s <= e -> s < length l ->
  conv_at c d s = Z.of_nat (length a) ->
  (let z := conv_at c d e in if (z <? 0)%Z || (Z.of_nat (length l) <=? z)%Z then (Z.of_nat (length l) - 1)%Z else z) = (Z.of_nat (length a + length r) - 1)%Z ->
  exists d', remove_range c d s e = Ok (true, d') /\ Rep d' (a ++ b) m (rev r ++ f).
Proof.
  intros R El Hr Hse Hs C1 C2. unfold remove_range. pose proof R as ((pre & post & E & S) & L & B & M & F).
  assert (Nr : 0 < length r) by (destruct r; [congruence|cbn; lia]). cbn zeta in C2.
  destruct (Nat.ltb_spec e s); [lia|]. destruct (Nat.leb_spec (elems d) s); [lia|]. cbn [orb]. cbn zeta. rewrite !L, C1, C2.
  match goal with |- context [if ?q then UB else _] => destruct q eqn:Q0; [apply Z.ltb_lt in Q0; lia|] end. clear Q0.
  rewrite Nat2Z.id. replace (Z.to_nat (Z.of_nat (length a + length r) - 1 + 1) - length a) with (length r) by lia.
  rewrite (free_range_ok d l m f R (length r) a r b (length a) El eq_refl eq_refl). cbn [bind].
  rewrite E, S, El. rewrite <- !app_assoc, (app_assoc pre a).
  replace (length pre + length a) with (length (pre ++ a)) by llen.
  rewrite wrn_ok by apply repeat_length. cbn [bind].
  assert (Hb : 4 <= length pre + (length a + length r + length b + length post)) by (rewrite E, El in B; hlen).
  assert (Fin : forall bs st, (exists p q, bs = p ++ (a ++ b) ++ q /\ st = length p) -> 4 <= length bs ->
    exists d' : lst, (do d1 <- shrink c (mkl bs st (length (a ++ r ++ b) - length r) (multi d) (rev r ++ freed d)); Ok (true, d1)) = Ok (true, d') /\ Rep d' (a ++ b) m (rev r ++ f)).
  { intros bs st Hq H4. destruct (shrink_ok c (mkl bs st (length (a ++ r ++ b) - length r) (multi d) (rev r ++ freed d)) (a ++ b) m (rev r ++ f)) as (d' & Es & Rs).
    - split; [exact Hq|]. cbn. split; [llen|]. split; [auto|]. split; congruence.
    - rewrite Es. cbn [bind]. eauto. }
  destruct (Nat.ltb_spec 0 (length (a ++ r ++ b) - length r)) as [Q|Q].
  - destruct (Nat.eqb_spec (length a) 0) as [Qa|Qa].
    + assert (a = []) as -> by (destruct a; [auto|hlen]). cbn [bind]. apply Fin; [|hlen].
      exists (pre ++ repeat 0%N (length r)), post. rewrite app_nil_r, <- !app_assoc. split; [auto|hlen].
    + destruct (Z.eqb_spec (Z.of_nat (length a + length r) - 1) (Z.of_nat (length (a ++ r ++ b)) - 1)) as [Q2|Q2]; cbn [negb].
      * assert (b = []) as -> by (destruct b; [auto|hlen]). cbn [bind]. apply Fin; [|hlen].
        exists pre, (repeat 0%N (length r) ++ post). rewrite <- !app_assoc. auto.
      * destruct (split_at (repeat 0%N (length r) ++ b) (length b) ltac:(llen)) as (b' & z & Eb & Lb).
        rewrite (mmove_view _ (pre ++ a ++ repeat 0%N (length r)) b post (pre ++ a) b' (z ++ post)); auto; try llen.
        2: { rewrite <- !app_assoc. reflexivity. }
        2: { f_equal. now rewrite !app_assoc, Eb. }
        cbn [bind]. apply Fin; [|apply (f_equal (@length N)) in Eb; hlen].
        exists pre, (z ++ post). rewrite <- !app_assoc. auto.
  - assert (a = []) as -> by (destruct a; [auto|hlen]). assert (b = []) as -> by (destruct b; [auto|hlen]). cbn [bind]. apply Fin; [|hlen].
    exists pre, (repeat 0%N (length r) ++ post). rewrite !app_nil_r. auto.
Qed.

Lemma remove_at_ok d l m f i : Rep d l m f -> i < length l ->
  exists d' a x b, remove_at c d i = Ok (true, d') /\ l = a ++ x :: b /\ length a = pos c (length l) i /\ Rep d' (a ++ b) m (x :: f).
Proof.
  intros R H. unfold remove_at. pose proof R as (_ & L & _).
  destruct (Nat.leb_spec (elems d) i); [lia|].
  assert (Hp : pos c (length l) i < length l) by (unfold pos; destruct (stack c); lia).
  destruct (split_mid l _ Hp) as (a & x & b & El & La).
  pose proof (conv_pos c d l m f i R H) as C.
  destruct (range_raw d l m f a [x] b i i R El ltac:(discriminate)) as (d' & E & R'); auto; try congruence.
  - cbn zeta. rewrite C, <- La. apply (f_equal (@length N)) in El. 
    destruct (Z.ltb_spec (Z.of_nat (length a)) 0); [lia|]. cbn [orb].
    destruct (Z.leb_spec (Z.of_nat (length l)) (Z.of_nat (length a))); [hlen|]. cbn [length]. lia.
  - exists d', a, x, b. rewrite E. auto.
Qed.
Lemma remove_range_ok d l m f s e : Rep d l m f -> s <= e -> s < length l -> stack c = false \/ s = e ->
  exists d' a r b, remove_range c d s e = Ok (true, d') /\ l = a ++ r ++ b /\
    length a = (if stack c then length l - 1 - s else s) /\ length r = Nat.min (S e) (length l) - s /\ Rep d' (a ++ b) m (rev r ++ f).
Proof.
  intros R H1 H2 H3. destruct H3 as [H3|<-].
  - rewrite H3. destruct (split_at l s ltac:(lia)) as (a & t & El & La).
    assert (Lt : length l = s + length t) by (rewrite El; llen).
    destruct (split_at t (Nat.min (S e) (length l) - s) ltac:(lia)) as (r & b & Et & Lr). rewrite Et in El.
    destruct (range_raw d l m f a r b s e R El) as (d' & E & R'); auto; try congruence.
    + destruct r; [hlen|discriminate].
    + rewrite (conv_queue c d l m f s R H3) by lia. destruct (Nat.eqb_spec (length l) 0); lia.
    + cbn zeta. destruct (Nat.leb_spec e (length l)) as [Q|Q].
      * rewrite (conv_queue c d l m f e R H3) by lia. destruct (Nat.eqb_spec (length l) 0); [lia|].
        destruct (Z.ltb_spec (Z.of_nat e) 0); [lia|]. cbn [orb]. destruct (Z.leb_spec (Z.of_nat (length l)) (Z.of_nat e)); lia.
      * destruct R as (_ & L & _). unfold conv_at. rewrite L, H3. destruct (Nat.eqb_spec (length l) 0); [lia|]. cbn [negb].
        destruct (Nat.ltb_spec (length l) e); [|lia]. 
        destruct (Z.ltb_spec (Z.of_nat (length l - 1)) 0); [lia|]. cbn [orb]. destruct (Z.leb_spec (Z.of_nat (length l)) (Z.of_nat (length l - 1))); lia.
    + exists d', a, r, b. do 4 (split; [auto; fail|]); exact R'.
  - destruct (remove_at_ok d l m f s R H2) as (d' & a & x & b & E & El & La & R').
    exists d', a, [x], b. unfold remove_at in E. destruct R as (_ & L & _).
    destruct (Nat.leb_spec (elems d) s); [lia|]. do 3 (split; [auto; fail|]). split; [cbn [length]; lia|exact R'].
Qed.
End PrfD.

(** Proofs about the buffer layer. *)
From Verif Require Import Base.Lib IoBuf.Model IoBuf.Spec.
From Verif Require Bithacks.Model Bithacks.Spec Bithacks.Props.
Local Open Scope N_scope.

Lemma W_eq : W = 18446744073709551616. Proof. reflexivity. Qed.
Lemma two63 : 2 ^ 63 = 9223372036854775808. Proof. reflexivity. Qed.
Ltac nums := rewrite ?W_eq, ?two63 in *.

Lemma lenN_app a b : lenN (a ++ b) = lenN a + lenN b.
Proof. unfold lenN. rewrite app_length. lia. Qed.
Lemma lenN_nil l : lenN l = 0 <-> l = [].
Proof. unfold lenN. destruct l; cbn [length]; split; intros; [auto|auto|lia|discriminate]. Qed.
Lemma lenN_firstn n l : lenN (firstn (N.to_nat n) l) = N.min n (lenN l).
Proof. unfold lenN. rewrite firstn_length. lia. Qed.
Lemma lenN_skipn n l : lenN (skipn (N.to_nat n) l) = lenN l - n.
Proof. unfold lenN. rewrite skipn_length. lia. Qed.

(** ** Powers of two *)
Definition pow2 (n : N) := exists k, n = 2 ^ k.
Lemma pow2_pos n : pow2 n -> 0 < n.
Proof. intros (k & ->). apply N.neq_0_lt_0, N.pow_nonzero. discriminate. Qed.
Lemma pow2_double a b : pow2 a -> pow2 b -> a < b -> 2 * a <= b.
Proof.
  intros (i & ->) (j & ->) L. apply N.pow_lt_mono_r_iff in L; [|lia].
  replace (2 * 2 ^ i) with (2 ^ N.succ i) by (rewrite N.pow_succ_r'; lia). apply N.pow_le_mono_r; lia.
Qed.
Lemma pow2_2 a : pow2 a -> pow2 (2 * a).
Proof. intros (i & ->). exists (N.succ i). rewrite N.pow_succ_r'. reflexivity. Qed.
Lemma pow2_1024 : pow2 1024. Proof. exists 10. reflexivity. Qed.
Lemma pow2_16384 : pow2 16384. Proof. exists 14. reflexivity. Qed.
Lemma round_succ a : pow2 a -> a <= 2 ^ 62 -> Bithacks.Model.round_up64 (a + 1) = 2 * a.
Proof.
  intros P L. assert (E : 2 ^ 62 = 4611686018427387904) by reflexivity.
  destruct (Bithacks.Props.bit_round_up64 (a + 1)) as (Q & G & M); [lia|nums; lia|].
  assert (2 * a <= Bithacks.Model.round_up64 (a + 1)) by (apply pow2_double; [exact P|exact Q|lia]).
  assert (Bithacks.Model.round_up64 (a + 1) <= 2 * a) by (apply M; [apply (pow2_2 a P)|assert (X := pow2_pos a P); lia]). lia.
Qed.
Lemma round_ok m k : 0 < m -> m <= 2 ^ k -> k <= 63 -> Bithacks.Spec.least_pow2_ge m (Bithacks.Model.round_up64 m) /\ Bithacks.Model.round_up64 m <= 2 ^ k.
Proof.
  intros P L K. assert (L' : m <= 2 ^ 63) by (eapply N.le_trans; [exact L|apply N.pow_le_mono_r; lia]).
  assert (Q := Bithacks.Props.bit_round_up64 m P L'). split; [exact Q|]. destruct Q as (_ & _ & M). apply M; [exists k; reflexivity|exact L].
Qed.

Lemma grow_ok : forall fuel a n c, pow2 a -> pow2 n -> n <= a -> a <= 2 ^ 63 -> c <= n -> a < n * 2 ^ N.of_nat fuel -> grow fuel a c n = Ok a.
Proof.
  induction fuel as [|fuel IH]; intros a n c Pa Pn L B C F.
  - rewrite N.mul_1_r in F. lia.
  - cbn [grow]. destruct (a <=? n) eqn:E; [apply N.leb_le in E; f_equal; lia|]. apply N.leb_gt in E.
    assert (D := pow2_double n a Pn Pa E). cbn zeta. rewrite N.mod_small by (nums; lia).
    rewrite (proj2 (N.ltb_ge _ _)) by lia. apply IH; auto; try lia; [apply pow2_2; auto|].
    replace (N.of_nat (Datatypes.S fuel)) with (N.succ (N.of_nat fuel)) in F by lia. rewrite N.pow_succ_r' in F. lia.
Qed.

(** ** The sizes *)
Definition lim (m : N) : N := N.max 16384 m.
Definition capok (k m : N) : Prop := m = 0 \/ (pow2 m /\ m <= 2 ^ k).
Definition Sz (h : handle) : Prop :=
  capok 62 (maxr h) /\ capok 63 (maxw h) /\ bcons (rb h) + lenN (bd (rb h)) <= bsz (rb h) /\
  (bsz (rb h) = 0 \/ (pow2 (bsz (rb h)) /\ 16384 <= bsz (rb h) <= lim (maxr h))) /\
  lenN (wb h) <= maxw h /\ (maxr h = 0 -> bd (rb h) = []).
Lemma two62 : 2 ^ 62 = 4611686018427387904. Proof. reflexivity. Qed.

Lemma lim_pow2 m : capok 62 m -> pow2 (lim m) /\ lim m <= 2 ^ 62.
Proof.
  unfold lim. intros [-> | (P & L)]; [split; [apply pow2_16384|rewrite two62; lia]|].
  destruct (N.max_spec 16384 m) as [(_ & ->)|(_ & ->)]; split; auto using pow2_16384. rewrite two62; lia.
Qed.
Lemma target_ok h : Sz h -> maxr h <> 0 ->
  pow2 (target h) /\ 16384 <= target h <= lim (maxr h) /\ bsz (rb h) <= target h /\
  (hitr h = true -> target h = bsz (rb h) -> bsz (rb h) = lim (maxr h)).
Proof.
  intros (Cr & _ & L & B & _) NZ.
  destruct (lim_pow2 (maxr h) Cr) as (PL & LL). destruct Cr as [?|(Pm & Lm)]; [congruence|].
  unfold target. cbn zeta.
  assert (A : pow2 (alloc_size (rb h)) /\ alloc_size (rb h) <= lim (maxr h) /\ bsz (rb h) <= alloc_size (rb h)).
  { unfold alloc_size. destruct B as [B|(Q & B)].
    - rewrite B. cbn [N.eqb]. split; [apply pow2_1024|]. unfold lim. lia.
    - rewrite (proj2 (N.eqb_neq _ _)) by lia. split; [exact Q|]. lia. }
  destruct A as (PA & LA & GA). assert (ZA := pow2_pos _ PA).
  assert (Bz : bsz (rb h) = 0 \/ alloc_size (rb h) = bsz (rb h)).
  { unfold alloc_size. destruct (bsz (rb h) =? 0) eqn:E; [left; apply N.eqb_eq; exact E|right; reflexivity]. }
  destruct (hitr h) eqn:Hh.
  - rewrite (round_succ _ PA) by lia.
    destruct (maxr h <? 2 * alloc_size (rb h)) eqn:Eu.
    + apply N.ltb_lt in Eu. destruct (maxr h <? 16384) eqn:E16.
      * apply N.ltb_lt in E16. unfold lim in *. split; [apply pow2_16384|]. repeat split; try lia.
      * apply N.ltb_ge in E16. unfold lim in *. split; [exact Pm|]. repeat split; try lia.
    + apply N.ltb_ge in Eu. destruct (2 * alloc_size (rb h) <? 16384) eqn:E16.
      * apply N.ltb_lt in E16. split; [apply pow2_16384|]. unfold lim in *. repeat split; try lia.
      * apply N.ltb_ge in E16. split; [apply pow2_2; auto|]. unfold lim in *. repeat split; try lia.
  - destruct (alloc_size (rb h) <? 16384) eqn:E16.
    + apply N.ltb_lt in E16. split; [apply pow2_16384|]. unfold lim in *. repeat split; try lia; try discriminate.
    + apply N.ltb_ge in E16. split; [exact PA|]. repeat split; try lia; try discriminate.
Qed.

(** ** A read event *)
Lemma ensure_ok h req : Sz h -> maxr h <> 0 -> lenN (bd (rb h)) + req = target h -> 0 < req ->
  exists b, ensure_space (rb h) req = Ok b /\ bd b = bd (rb h) /\ bcons b + lenN (bd b) + req <= bsz b /\
    pow2 (bsz b) /\ 16384 <= bsz b <= lim (maxr h) /\ room b = bsz b - bcons b - lenN (bd b).
Proof.
  intros S NZ E R. destruct (target_ok h S NZ) as (PT & LT & GT & _).
  destruct S as (Cr & _ & L & B & _). destruct (lim_pow2 _ Cr) as (PL & LL). rewrite two62 in LL.
  assert (RM : forall b, bcons b + lenN (bd b) <= bsz b -> bsz b <= 4611686018427387904 -> room b = bsz b - bcons b - lenN (bd b)).
  { intros b X Y. unfold room. nums.
    replace (bsz b + 2 * 18446744073709551616 - bcons b - lenN (bd b)) with (bsz b - bcons b - lenN (bd b) + 2 * 18446744073709551616) by lia.
    rewrite N.mod_add by lia. apply N.mod_small. lia. }
  unfold ensure_space. cbn zeta. rewrite (N.mod_small (lenN _ + req)) by (nums; lia).
  assert (M : (bsz (rb h) + W - bcons (rb h)) mod W = bsz (rb h) - bcons (rb h)).
  { replace (bsz (rb h) + W - bcons (rb h)) with (bsz (rb h) - bcons (rb h) + 1 * W) by (nums; lia).
    rewrite N.mod_add by (nums; lia). apply N.mod_small. nums; lia. }
  rewrite M. destruct (lenN (bd (rb h)) + req <? bsz (rb h) - bcons (rb h)) eqn:E1.
  - apply N.ltb_lt in E1. destruct B as [B|(PB & B)]; [lia|]. exists (rb h). repeat split; auto; try lia; apply RM; lia.
  - destruct (bsz (rb h) <? lenN (bd (rb h)) + req) eqn:E2.
    + apply N.ltb_lt in E2. rewrite E. unfold next_multiple.
      rewrite (grow_ok 65 (target h)); auto.
      * cbn [bind]. rewrite (proj2 (N.eqb_neq _ _)) by lia. eexists. split; [reflexivity|]. cbn [bd bcons bsz]. repeat split; auto; try lia; rewrite RM; cbn [bcons bd bsz]; lia.
      * destruct B as [->|(PB & B)]; [apply pow2_1024|]. rewrite (proj2 (N.eqb_neq _ _)) by lia. exact PB.
      * destruct B as [->|(PB & B)]; [cbn [N.eqb]; lia|]. rewrite (proj2 (N.eqb_neq _ _)) by lia. lia.
      * nums; lia.
      * destruct (bsz (rb h) =? 0) eqn:Z; [apply N.eqb_eq in Z|]; lia.
      * change (2 ^ N.of_nat 65) with (2 * W). destruct (bsz (rb h) =? 0) eqn:Z; nums; [lia|]. apply N.eqb_neq in Z. nia.
    + apply N.ltb_ge in E2. destruct B as [B|(PB & B)]; [lia|]. eexists. split; [reflexivity|]. cbn [bd bcons bsz]. repeat split; auto; try lia; rewrite RM; cbn [bcons bd bsz]; lia.
Qed.

Definition set_r (h : handle) (b : mbuf) (hit : bool) := H (maxr h) b hit (maxw h) (wb h) (hitw h).
(** What a read event does in a buffering layer *)
Lemma process_read_spec h r : Sz h -> maxr h <> 0 ->
  let req := target h - lenN (bd (rb h)) in
  (req = 0 /\ process_read h r = Ok (set_r h (rb h) false, [])) \/
  (0 < req /\ exists b' rm, let got := match low_read rm r with Some l => l | None => [] end in
    req <= rm /\ bd b' = bd (rb h) ++ got /\ bcons b' + lenN (bd b') <= bsz b' /\ target h <= bsz b' /\ pow2 (bsz b') /\ 16384 <= bsz b' <= lim (maxr h) /\
    (lenN got < rm -> lenN (bd b') < bsz b') /\
    process_read h r = Ok (set_r h b' (req <=? lenN got),
      FromBelow rm (low_read rm r) :: match r with Some _ => match bd (rb h) with [] => [Propagate RD] | _ => [] end | None => [] end)).
Proof.
  intros S NZ req. destruct (target_ok h S NZ) as (PT & LT & GT & _).
  assert (LL := proj2 (lim_pow2 _ (proj1 S))). rewrite two62 in LL.
  assert (Lb : lenN (bd (rb h)) <= target h) by (destruct S as (_ & _ & X & _); lia).
  assert (M : (target h + W - lenN (bd (rb h))) mod W = req).
  { unfold req. replace (target h + W - lenN (bd (rb h))) with (target h - lenN (bd (rb h)) + 1 * W) by (nums; lia).
    rewrite N.mod_add by (nums; lia). apply N.mod_small. nums; lia. }
  unfold process_read. rewrite (proj2 (N.eqb_neq _ _) NZ). cbn zeta. rewrite M.
  destruct (req =? 0) eqn:E0.
  - left. apply N.eqb_eq in E0. split; [exact E0|reflexivity].
  - right. apply N.eqb_neq in E0. split; [lia|]. assert (S' := S).
    destruct (ensure_ok h req S NZ) as (b & -> & Ed & Lb2 & Pb & Bb & RM); [unfold req in *; lia|lia|].
    cbn [bind]. exists (MB (bd b ++ match low_read (room b) r with Some l => l | None => [] end) (bsz b) (bcons b)), (room b).
    cbn zeta. cbn [bd bcons bsz].
    assert (G : lenN (match low_read (room b) r with Some l => l | None => [] end) <= room b).
    { destruct r as [l|]; cbn [low_read]; [rewrite lenN_firstn; lia|cbn; lia]. }
    assert (LA := lenN_app (bd b) (match low_read (room b) r with Some l => l | None => [] end)).
    split; [lia|]. split; [rewrite Ed; reflexivity|]. split; [lia|].
    split; [unfold req in *; rewrite Ed in *; lia|]. split; [exact Pb|]. split; [exact Bb|]. split; [lia|].
    unfold set_r. f_equal. f_equal. f_equal.
    rewrite LA, Ed. destruct r as [l|]; cbn [low_read orb]; [|reflexivity].
    destruct (bd (rb h)) as [|x bs] eqn:Eb.
    + change (lenN []) with 0. rewrite N.add_0_l, N.eqb_refl. reflexivity.
    + rewrite (proj2 (N.eqb_neq _ _)); [reflexivity|]. unfold lenN at 1. cbn [length]. lia.
Qed.

(** ** Every operation *)
Definition fits (h h' : handle) : Prop := maxr h' = maxr h /\ maxw h' = maxw h.
Lemma firstn_all' (n : N) (l : list N) : lenN l <= n -> firstn (N.to_nat n) l = l.
Proof. intros L. apply firstn_all2. unfold lenN in L. lia. Qed.

(** What a write from above does in a buffering layer *)
Lemma write_cb_spec h bs r : Sz h -> maxw h <> 0 -> 0 < lenN bs < 2 ^ 63 ->
  let k := N.min (lenN bs) (maxw h - lenN (wb h)) in
  let hit := (maxw h <=? lenN (wb h) + lenN bs) || hitw h in
  write_cb h bs r =
    if k =? 0 then (H (maxr h) (rb h) (hitr h) (maxw h) (wb h) hit, [WriteRet bs None])
    else (H (maxr h) (rb h) (hitr h) (maxw h) (wb h ++ firstn (N.to_nat k) bs) hit, [SoftAdd WR; WriteRet bs (Some k)]).
Proof.
  intros (_ & Cw & _ & _ & Lw & _) NZ B k hit. destruct Cw as [?|(Pw & Bw)]; [congruence|]. rewrite two63 in Bw.
  unfold write_cb. rewrite (proj2 (N.eqb_neq _ _) NZ). cbn zeta.
  rewrite (N.mod_small (lenN (wb h) + lenN bs)) by (nums; lia).
  replace ((maxw h + W - lenN (wb h)) mod W) with (maxw h - lenN (wb h)).
  2:{ replace (maxw h + W - lenN (wb h)) with (maxw h - lenN (wb h) + 1 * W) by (nums; lia).
      rewrite N.mod_add by (nums; lia). rewrite N.mod_small by (nums; lia). reflexivity. }
  unfold k, hit. destruct (maxw h <=? lenN (wb h) + lenN bs) eqn:E; cbn [orb].
  - apply N.leb_le in E. rewrite N.min_r by lia. reflexivity.
  - apply N.leb_gt in E. rewrite N.min_l by lia. reflexivity.
Qed.
(** What a read from above does in a buffering layer *)
Lemma read_cb_spec h n r : maxr h <> 0 -> 0 < n ->
  let d := bd (rb h) in
  read_cb h n r =
    match d with
    | [] => (h, [ReadRet n None])
    | _ => (set_r h (buf_drop (rb h) (N.min n (lenN d))) (hitr h), (if hitr h then [SoftAdd RD] else []) ++ [ReadRet n (Some (firstn (N.to_nat n) d))])
    end.
Proof.
  intros NZ P d. unfold read_cb. rewrite (proj2 (N.eqb_neq _ _) NZ). fold d. cbn zeta.
  destruct d as [|x d'] eqn:Ed.
  - change (lenN []) with 0. rewrite (proj2 (N.ltb_lt 0 n) P). reflexivity.
  - rewrite <- Ed. assert (0 < lenN d) by (unfold lenN; rewrite Ed; cbn [length]; lia). unfold set_r.
    destruct (lenN d <? n) eqn:E.
    + apply N.ltb_lt in E. rewrite (proj2 (N.eqb_neq _ _)) by lia. rewrite N.min_r by lia.
      rewrite !(firstn_all' _ d) by lia. destruct d; reflexivity.
    + apply N.ltb_ge in E. rewrite (proj2 (N.eqb_neq _ _)) by lia. rewrite N.min_l by lia. destruct d; reflexivity.
Qed.

Lemma step_total h o : Sz h -> sane_op o -> exists h' t, step h o = Ok (h', t) /\ Sz h' /\ fits h h'.
Proof.
  intros S SO. destruct o as [s r|s r|n r|bs r|]; cbn [step].
  - destruct (N.eq_dec (maxr h) 0) as [Z|NZ].
    + unfold process_read. rewrite Z. cbn [N.eqb]. do 2 eexists. split; [reflexivity|]. split; [exact S|]. split; reflexivity.
    + destruct (process_read_spec h r S NZ) as [(_ & ->)|(_ & b' & rm & _ & Ed & L & _ & P & B & _ & ->)].
      * do 2 eexists. split; [reflexivity|]. split; [|split; reflexivity]. exact S.
      * do 2 eexists. split; [reflexivity|]. split; [|split; reflexivity].
        destruct S as (Cr & Cw & _ & _ & Lw & _). unfold Sz, set_r. cbn [maxr maxw rb wb]. repeat split; auto. intros X; congruence.
  - destruct S as (Cr & Cw & L & B & Lw & Z). unfold process_write.
    assert (K : Sz h) by (unfold Sz; auto 10).
    destruct (maxw h =? 0); [do 2 eexists; split; [reflexivity|]; split; [exact K|split; reflexivity]|].
    destruct (wb h) as [|x w] eqn:Ew; [do 2 eexists; split; [reflexivity|]; split; [exact K|split; reflexivity]|].
    rewrite <- Ew in *. destruct (low_write (wb h) r) as [[|y l]|] eqn:El.
    1,3: do 2 eexists; split; [reflexivity|]; split; [exact K|split; reflexivity].
    assert (LL : lenN (skipn (length (y :: l)) (wb h)) <= maxw h) by (unfold lenN in *; rewrite skipn_length; lia).
    destruct (hitw h); do 2 eexists; (split; [reflexivity|]); (split; [|split; reflexivity]); unfold Sz; cbn [maxr maxw rb wb]; auto 10.
  - destruct (N.eq_dec (maxr h) 0) as [Z|NZ].
    + unfold read_cb. rewrite Z. cbn [N.eqb]. do 2 eexists. split; [reflexivity|]. split; [exact S|]. split; reflexivity.
    + rewrite (read_cb_spec h n r NZ SO). destruct (bd (rb h)) as [|x d] eqn:Ed.
      * do 2 eexists. split; [reflexivity|]. split; [exact S|]. split; reflexivity.
      * rewrite <- Ed. do 2 eexists. split; [reflexivity|]. split; [|split; reflexivity].
        destruct S as (Cr & Cw & L & B & Lw & Z). unfold Sz, set_r, buf_drop. cbn [maxr maxw rb wb bd bcons bsz]. rewrite lenN_skipn.
        repeat split; auto; try lia; intros X; congruence.
  - destruct (N.eq_dec (maxw h) 0) as [Z|NZ].
    + unfold write_cb. rewrite Z. cbn [N.eqb]. do 2 eexists. split; [reflexivity|]. split; [exact S|]. split; reflexivity.
    + rewrite (write_cb_spec h bs r S NZ SO). cbn zeta. destruct S as (Cr & Cw & L & B & Lw & Z).
      destruct (N.min (lenN bs) (maxw h - lenN (wb h)) =? 0); do 2 eexists; (split; [reflexivity|]); (split; [|split; reflexivity]);
        unfold Sz; cbn [maxr maxw rb wb]; repeat split; auto.
      rewrite lenN_app, lenN_firstn. lia.
  - do 2 eexists. split; [reflexivity|]. destruct S as (Cr & Cw & L & B & Lw & Z). split; [|split; reflexivity].
    unfold Sz, reset_cb, buf_clear. cbn [maxr maxw rb wb bd bcons bsz]. change (lenN []) with 0. repeat split; auto; lia.
Qed.
Lemma new_Sz mr mw : mr <= 2 ^ 62 -> mw <= 2 ^ 63 -> Sz (add_buffer mr mw).
Proof.
  intros A B. unfold Sz, add_buffer, buf_create. cbn [maxr maxw rb wb bd bcons bsz]. change (lenN []) with 0.
  assert (X : forall k m, m <= 2 ^ k -> k <= 63 -> capok k (if m =? 0 then 0 else Bithacks.Model.round_up64 m)).
  { intros k m L K. destruct (m =? 0) eqn:E; [left; reflexivity|]. apply N.eqb_neq in E. right.
    destruct (round_ok m k) as ((P & _) & Q); [lia|auto|auto|]. split; auto. }
  repeat split; auto; try lia; apply X; auto; lia.
Qed.
Lemma run_total : forall os h, Sz h -> Forall sane_op os -> exists h' tr, run h os = Ok (h', tr) /\ Sz h' /\ fits h h'.
Proof.
  induction os as [|o os IH]; intros h S F; cbn [run].
  - do 2 eexists. split; [reflexivity|]. split; [exact S|split; reflexivity].
  - inversion F as [|? ? SO F']; subst. destruct (step_total h o S SO) as (h1 & t & -> & S1 & (M1 & M2)). cbn [bind].
    destruct (IH h1 S1 F') as (h2 & tr & -> & S2 & (M3 & M4)). cbn [bind]. do 2 eexists. split; [reflexivity|]. split; [exact S2|].
    split; congruence.
Qed.

(** ** The record *)
Lemma all_snoc tr o t : all (tr ++ [(o, t)]) = all tr ++ t.
Proof. unfold all. rewrite map_app, concat_app. cbn. rewrite app_nil_r. reflexivity. Qed.
Ltac rec := unfold taken, delivered, accepted, sent, waits_read, waits_write, more_below, below_full; rewrite ?all_snoc, ?map_app, ?concat_app, ?fold_left_app; cbn [map concat fold_left app].

Definition DI (h : handle) (tr : record) : Prop :=
  taken tr = delivered tr ++ bd (rb h) /\ accepted tr = sent tr ++ wb h /\
  (waits_read tr = true -> bd (rb h) = []) /\
  (waits_write tr = true -> maxw h <> 0 -> hitw h = true /\ lenN (wb h) = maxw h) /\
  (wb h <> [] -> queued WR tr = true \/ below_full tr = true).
Lemma queued_snoc e tr o t : queued e (tr ++ [(o, t)]) = existsb (adds e) t || (queued e tr && negb (is_soft e o)).
Proof. unfold queued. rewrite fold_left_app. reflexivity. Qed.

Lemma step_DI h o h' t tr : Sz h -> sane_op o -> o <> Reset -> DI h tr -> step h o = Ok (h', t) -> DI h' (tr ++ [(o, t)]).
Proof.
  intros S SO NR (D1 & D2 & D3 & D4 & D5) E. unfold DI. rewrite queued_snoc.
  destruct o as [s r|s r|n r|bs r|]; cbn [step] in E; [| | | |congruence].
  - destruct (N.eq_dec (maxr h) 0) as [Z|NZ].
    + unfold process_read in E. rewrite Z in E. cbn [N.eqb] in E. injection E as <- <-.
      rec. cbn [told_read told_write]. rewrite !app_nil_r. repeat split; auto; try (apply D4; auto); try discriminate.
      intros X. destruct (D5 X) as [-> | Y]; [left; destruct s; reflexivity|right; exact Y].
    + destruct (process_read_spec h r S NZ) as [(_ & E')|(_ & b' & rm & _ & Ed & _ & _ & _ & _ & _ & E')]; rewrite E' in E; injection E as <- <-;
        unfold set_r; cbn [rb wb maxw hitw bd].
      * rec. rewrite !app_nil_r. repeat split; auto; try (apply D4; auto).
        intros X. destruct (D5 X) as [-> | Y]; [left; destruct s; reflexivity|right; exact Y].
      * assert (TA : taken (tr ++ [(EvRead s r, FromBelow rm (low_read rm r) :: match r with Some _ => match bd (rb h) with [] => [Propagate RD] | _ => [] end | None => [] end)])
                     = taken tr ++ match low_read rm r with Some l => l | None => [] end).
        { rec. f_equal. destruct r as [l|]; cbn [low_read]; [|reflexivity]. destruct (bd (rb h)); cbn [map concat]; rewrite ?app_nil_r; reflexivity. }
        rewrite TA, D1, Ed.
        match goal with |- context [delivered (tr ++ ?T)] => assert (DA : delivered (tr ++ T) = delivered tr) by (rec; destruct r as [l|]; [destruct (bd (rb h))|]; cbn [map concat]; rewrite ?app_nil_r; reflexivity) end.
        split; [rewrite DA, app_assoc; reflexivity|]. clear TA DA. rec.
        destruct r as [l|]; cbn [low_read].
        -- destruct (bd (rb h)) as [|x d] eqn:Eb; cbn [map concat fold_left told_read told_write app];
           rewrite ?app_nil_r; (split; [exact D2|]); (split; [try discriminate; intros X; specialize (D3 X); discriminate|]); (split; [exact D4|]);
           intros X; (destruct (D5 X) as [-> | Y]; [left; destruct s; reflexivity|right; exact Y]).
        -- cbn [map concat fold_left told_read told_write app]. rewrite ?app_nil_r. (split; [exact D2|]); (split; [exact D3|]); (split; [exact D4|]).
           intros X; (destruct (D5 X) as [-> | Y]; [left; destruct s; reflexivity|right; exact Y]).
  - injection E as E. unfold process_write in E. destruct (maxw h =? 0) eqn:EZ.
    { apply N.eqb_eq in EZ. injection E as <- <-.
      assert (wb h = []) by (destruct S as (_ & _ & _ & _ & Lw & _); apply lenN_nil; lia).
      rec. cbn [told_read told_write]. rewrite !app_nil_r. repeat split; auto; try discriminate; congruence. }
    destruct (wb h) as [|x w] eqn:Ew.
    { injection E as <- <-. rec. cbn [told_read told_write]. rewrite !app_nil_r, ?Ew. rewrite ?app_nil_r in D2. repeat split; auto; try discriminate; try congruence. rewrite app_nil_r. exact D2. }
    rewrite <- Ew in *.
    assert (Stay : ToBelow (wb h) (low_write (wb h) r) = ToBelow (wb h) None \/ ToBelow (wb h) (low_write (wb h) r) = ToBelow (wb h) (Some []) -> (h, [ToBelow (wb h) (low_write (wb h) r)]) = (h', t) ->
      DI h' (tr ++ [(EvWrite s r, t)])).
    { intros C X. injection X as <- <-. unfold DI. rewrite queued_snoc.
      assert (LW : lenN (wb h) <> 0) by (rewrite lenN_nil, Ew; discriminate).
      destruct C as [C|C]; rewrite C; rec; cbn [told_read told_write]; rewrite ?app_nil_r; repeat split; auto; try (apply D4; auto).
      intros _. right. apply N.ltb_lt. change (lenN []) with 0. lia. }
    destruct (low_write (wb h) r) as [[|y l]|] eqn:El; [rewrite <- queued_snoc; apply Stay; auto|clear Stay|rewrite <- queued_snoc; apply Stay; auto].
    destruct r as [k|]; [|discriminate]. cbn [low_write] in El. injection El as El.
    assert (Spl : wb h = (y :: l) ++ skipn (length (y :: l)) (wb h)).
    { rewrite <- El at 1. rewrite <- El. rewrite firstn_length.
      destruct (Nat.le_ge_cases (N.to_nat k) (length (wb h))) as [Q|Q].
      - rewrite Nat.min_l by lia. symmetry. apply firstn_skipn.
      - rewrite Nat.min_r by lia. rewrite (firstn_all2 (wb h)) by lia. rewrite skipn_all, app_nil_r. reflexivity. }
    assert (FullB : skipn (length (y :: l)) (wb h) <> [] -> lenN (y :: l) <? lenN (wb h) = true).
    { intros X. apply N.ltb_lt. rewrite Spl at 1. rewrite lenN_app. assert (lenN (skipn (length (y :: l)) (wb h)) <> 0) by (rewrite lenN_nil; exact X). lia. }
    destruct (hitw h) eqn:Eh; injection E as <- <-; unfold DI; rewrite ?queued_snoc; cbn [rb wb maxw hitw]; rec; cbn [told_read told_write]; rewrite ?app_nil_r;
      (split; [exact D1|]); (split; [unfold accepted, sent in D2; rewrite D2, <- app_assoc; f_equal; exact Spl|]); (split; [exact D3|]).
    + split; [discriminate|]. intros X; right; auto.
    + split; [intros X Y; destruct (D4 X Y); discriminate|]. intros X; right; auto.
  - injection E as E. destruct (N.eq_dec (maxr h) 0) as [Z|NZ].
    + unfold read_cb in E. rewrite Z in E. cbn [N.eqb] in E. injection E as <- <-.
      assert (Eb : bd (rb h) = []) by (destruct S as (_ & _ & _ & _ & _ & X); auto).
      rewrite Eb in *. rewrite app_nil_r in D1. cbn [existsb adds is_soft orb negb]. rewrite andb_true_r.
      rec. destruct (low_read n r) as [l|]; cbn [map concat app told_read told_write fold_left]; unfold taken, delivered in D1; rewrite ?app_nil_r, ?D1; repeat split; auto; try (apply D4; auto).
    + cbn [sane_op] in SO. rewrite (read_cb_spec h n r NZ SO) in E. destruct (bd (rb h)) as [|x d] eqn:Eb.
      * injection E as <- <-. cbn [existsb adds is_soft orb negb]. rewrite andb_true_r. rewrite Eb in *. rewrite app_nil_r in D1.
        rec. cbn [told_read told_write]. rewrite ?app_nil_r. repeat split; auto; try (apply D4; auto).
      * rewrite <- Eb in *. assert (Q : queued WR tr = true -> existsb (adds WR) t || (queued WR tr && negb (is_soft WR (AppRead n r))) = true).
        { intros ->. cbn. apply orb_true_r. }
        injection E as <- <-. unfold set_r, buf_drop. cbn [rb wb maxw hitw bd].
        assert (F : firstn (N.to_nat n) (bd (rb h)) ++ skipn (N.to_nat (N.min n (lenN (bd (rb h))))) (bd (rb h)) = bd (rb h)).
        { destruct (N.le_ge_cases n (lenN (bd (rb h)))) as [X|X].
          - rewrite N.min_l by lia. apply firstn_skipn.
          - rewrite N.min_r by lia. rewrite firstn_all' by lia. unfold lenN. rewrite Nat2N.id, skipn_all, app_nil_r. reflexivity. }
        assert (G : lenN (firstn (N.to_nat n) (bd (rb h))) < n -> skipn (N.to_nat (N.min n (lenN (bd (rb h))))) (bd (rb h)) = []).
        { rewrite lenN_firstn. intros X. apply lenN_nil. rewrite lenN_skipn. lia. }
        destruct (hitr h); rec; cbn [app map concat fold_left told_read told_write]; rewrite ?app_nil_r;
          (split; [unfold taken, delivered in D1; rewrite D1, <- app_assoc, F; reflexivity|]); (split; [exact D2|]);
          (split; [intros X; apply G, N.ltb_lt; exact X|]); (split; [exact D4|]); intros X; (destruct (D5 X) as [Y|Y]; [left; apply Q, Y|right; exact Y]).
  - injection E as E. destruct (N.eq_dec (maxw h) 0) as [Z|NZ].
    + unfold write_cb in E. rewrite Z in E. cbn [N.eqb] in E. injection E as <- <-.
      assert (Ew : wb h = []) by (destruct S as (_ & _ & _ & _ & X & _); apply lenN_nil; lia).
      rewrite Ew in *. rewrite app_nil_r in D2.
      rec. destruct r as [k|]; cbn [low_write map concat app told_read told_write fold_left]; unfold accepted, sent in D2; rewrite ?app_nil_r, ?D2; repeat split; auto; try congruence.
      f_equal. rewrite lenN_firstn. destruct (N.le_ge_cases k (lenN bs)); [rewrite N.min_l by lia; reflexivity|].
      rewrite N.min_r by lia. rewrite !firstn_all' by lia. reflexivity.
    + cbn [sane_op] in SO. rewrite (write_cb_spec h bs r S NZ SO) in E. cbn zeta in E.
      assert (Lw : lenN (wb h) <= maxw h) by apply S.
      destruct (N.min (lenN bs) (maxw h - lenN (wb h)) =? 0) eqn:Ek.
      * apply N.eqb_eq in Ek. injection E as <- <-. cbn [existsb adds is_soft orb negb rb wb maxw hitw]. rewrite andb_true_r.
        rec. cbn [told_read told_write]. rewrite ?app_nil_r. (split; [exact D1|]); (split; [exact D2|]); (split; [exact D3|]); split; [|exact D5].
        intros _ _. assert (L : lenN (wb h) = maxw h) by lia. split; [|exact L]. rewrite (proj2 (N.leb_le _ _)) by lia. reflexivity.
      * apply N.eqb_neq in Ek. injection E as <- <-. cbn [existsb adds same_ev is_soft orb negb rb wb maxw hitw].
        rec. cbn [told_read told_write]. rewrite ?app_nil_r. (split; [exact D1|]); (split; [unfold accepted, sent in D2; rewrite D2, app_assoc; reflexivity|]); (split; [exact D3|]); split; [|intros _; left; reflexivity].
        intros X _. apply N.ltb_lt in X. rewrite lenN_app, lenN_firstn. split; [|lia]. rewrite (proj2 (N.leb_le _ _)) by lia. reflexivity.
Qed.

Lemma run_DI : forall os h tr0 h' tr, Sz h -> Forall (fun o => sane_op o /\ o <> Reset) os -> DI h tr0 -> run h os = Ok (h', tr) ->
  DI h' (tr0 ++ tr) /\ Sz h' /\ fits h h'.
Proof.
  induction os as [|o os IH]; intros h tr0 h' tr S F D E; cbn [run] in E.
  - injection E as <- <-. rewrite app_nil_r. split; [exact D|split; [exact S|split; reflexivity]].
  - inversion F as [|? ? (SO & NR) F']; subst. destruct (step_total h o S SO) as (h1 & t & E1 & S1 & (M1 & M2)).
    rewrite E1 in E. cbn [bind] in E. destruct (run h1 os) as [(h2, tr2)| |] eqn:E2; cbn [bind] in E; try discriminate. injection E as <- <-.
    destruct (IH h1 (tr0 ++ [(o, t)]) h2 tr2 S1 F') as (D' & S' & (M3 & M4)); [apply (step_DI h o h1 t tr0); auto|exact E2|].
    rewrite <- app_assoc in D'. split; [exact D'|]. split; [exact S'|split; congruence].
Qed.
Lemma fresh_ok mr mw h : mr <= 2 ^ 62 -> mw <= 2 ^ 63 -> fresh mr mw h ->
  Sz h /\ fits (add_buffer mr mw) h /\ bd (rb h) = [] /\ wb h = [] /\ hitr h = false.
Proof.
  intros A B [->|(os & h0 & tr & F & E & R)].
  - split; [apply new_Sz; auto|]. repeat split; reflexivity.
  - destruct (run_total os _ (new_Sz mr mw A B) F) as (h1 & tr1 & E1 & S1 & M1). rewrite E in E1. injection E1 as <- <-.
    destruct (step_total h0 Reset S1 I) as (h1 & t & E1 & S2 & M2). rewrite R in E1. injection E1 as <- _.
    injection R as <-. split; [exact S2|]. split; [destruct M1, M2; split; congruence|]. repeat split; reflexivity.
Qed.
Lemma runs_ok mr mw os h tr : runs mr mw os h tr -> DI h tr /\ Sz h /\ fits (add_buffer mr mw) h.
Proof.
  intros (A & B & F & h0 & Fr & E). destruct (fresh_ok mr mw h0 A B Fr) as (S & (M1 & M2) & Z1 & Z2 & Z3).
  destruct (run_DI os h0 [] h tr S F) as (D & S' & (M3 & M4)); [|exact E|].
  - unfold DI. rewrite Z1, Z2. cbn. repeat split; auto; try discriminate.
  - split; [exact D|]. split; [exact S'|split; congruence].
Qed.

(** ** Nothing below is forgotten while the buffer is not full at a read event *)
Definition NS (h : handle) (tr : record) : Prop :=
  (maxr h <> 0 -> more_below tr = true -> hitr h = true \/ queued RD tr = true) /\
  (maxr h <> 0 -> hitr h = true -> bd (rb h) <> [] \/ queued RD tr = true) /\
  (hitr h = false -> bsz (rb h) = 0 \/ lenN (bd (rb h)) < bsz (rb h)).
Lemma step_NS h o h' t tr : Sz h -> sane_op o -> o <> Reset -> DI h tr -> NS h tr ->
  (forall s r, o = EvRead s r -> lenN (bd (rb h)) < lim (maxr h)) -> step h o = Ok (h', t) -> NS h' (tr ++ [(o, t)]).
Proof.
  intros S SO NR D (N1 & N2 & N3) NF E. unfold NS. rewrite queued_snoc.
  assert (Keep : forall b, queued RD tr = true -> is_soft RD o = false -> b || queued RD tr && negb (is_soft RD o) = true).
  { intros b -> ->. apply orb_true_r. }
  destruct o as [s r|s r|n r|bs r|]; cbn [step] in E; [| | | |congruence].
  - destruct (N.eq_dec (maxr h) 0) as [Z|NZ].
    + unfold process_read in E. rewrite Z in E. cbn [N.eqb] in E. injection E as <- <-. repeat split; auto; intros X; congruence.
    + specialize (NF s r eq_refl).
      assert (T : lenN (bd (rb h)) < target h).
      { destruct (target_ok h S NZ) as (_ & LT & GT & TT).
        destruct S as (_ & _ & L & _). destruct (hitr h) eqn:Hh.
        - destruct (N.eq_dec (target h) (bsz (rb h))) as [X|X]; [rewrite X, (TT eq_refl X); exact NF|lia].
        - destruct (N3 eq_refl) as [Q|Q]; lia. }
      destruct (process_read_spec h r S NZ) as [(Q & _)|(Q & b' & rm & RR & Ed & L & _ & P & B & FL & E')]; [lia|].
      rewrite E' in E. injection E as <- <-. unfold set_r. cbn [maxr rb hitr].
      set (got := match low_read rm r with Some l => l | None => [] end) in *.
      assert (MB : more_below (tr ++ [(EvRead s r, FromBelow rm (low_read rm r) :: match r with Some _ => match bd (rb h) with [] => [Propagate RD] | _ => [] end | None => [] end)]) = true
                   -> rm <= lenN got).
      { rec. subst got. destruct r as [l|]; cbn [low_read fold_left]; [|discriminate]. destruct (bd (rb h)); cbn [fold_left]; intros X; apply N.leb_le in X; exact X. }
      split; [|split].
      * intros _ X. left. apply N.leb_le. specialize (MB X). lia.
      * intros _ X. left. apply N.leb_le in X. intros Y. apply lenN_nil in Y. rewrite Ed, lenN_app in Y. lia.
      * intros X. right. apply N.leb_gt in X. apply FL. lia.
  - injection E as E.
    assert (K : maxr h' = maxr h /\ rb h' = rb h /\ hitr h' = hitr h /\ more_below (tr ++ [(EvWrite s r, t)]) = more_below tr).
    { unfold process_write in E. destruct (maxw h =? 0); [injection E as <- <-; repeat split; rec; reflexivity|].
      destruct (wb h) as [|x w]; [injection E as <- <-; repeat split; rec; reflexivity|].
      destruct (low_write (x :: w) r) as [[|y l]|]; [| destruct (hitw h) |]; injection E as <- <-; repeat split; rec; reflexivity. }
    destruct K as (-> & -> & -> & ->). repeat split; auto.
    + intros X Y. destruct (N1 X Y); auto.
    + intros X Y. destruct (N2 X Y); auto.
  - injection E as E. destruct (N.eq_dec (maxr h) 0) as [Z|NZ].
    + unfold read_cb in E. rewrite Z in E. cbn [N.eqb] in E. injection E as <- <-. repeat split; auto; intros X; congruence.
    + cbn [sane_op] in SO. rewrite (read_cb_spec h n r NZ SO) in E. destruct (bd (rb h)) as [|x d] eqn:Eb.
      * injection E as <- <-. rewrite Eb in *. cbn [existsb adds is_soft orb negb]. rewrite andb_true_r. repeat split; auto; intros X; rec; auto.
      * rewrite <- Eb in *. injection E as <- <-. unfold set_r, buf_drop. cbn [maxr rb hitr bd bsz].
        destruct (hitr h) eqn:Hh.
        -- cbn [app existsb adds same_ev orb]. repeat split; auto. discriminate.
        -- split; [|split; [discriminate|intros _; rewrite lenN_skipn; destruct (N3 eq_refl); [left|right]; lia]].
           intros X Y. right. apply Keep; [|reflexivity].
           assert (Y' : more_below tr = true) by (revert Y; rec; auto). destruct (N1 X Y'); [discriminate|auto].
  - injection E as E.
    assert (K : maxr h' = maxr h /\ rb h' = rb h /\ hitr h' = hitr h /\ more_below (tr ++ [(AppWrite bs r, t)]) = more_below tr).
    { unfold write_cb in E. destruct (maxw h =? 0); [injection E as <- <-; repeat split; rec; reflexivity|]. cbn zeta in E.
      match type of E with (if ?c then _ else _) = _ => destruct c end; injection E as <- <-; repeat split; rec; reflexivity. }
    destruct K as (-> & -> & -> & ->). repeat split; auto.
    + intros X Y. destruct (N1 X Y); auto.
    + intros X Y. destruct (N2 X Y); auto.
Qed.
Lemma run_NS : forall os h tr0 h' tr, Sz h -> Forall (fun o => sane_op o /\ o <> Reset) os -> DI h tr0 -> NS h tr0 ->
  run h os = Ok (h', tr) -> never_full (lim (maxr h)) (tr0 ++ tr) -> NS h' (tr0 ++ tr).
Proof.
  induction os as [|o os IH]; intros h tr0 h' tr S F D N E NF; cbn [run] in E.
  - injection E as <- <-. rewrite app_nil_r. exact N.
  - inversion F as [|? ? (SO & NR) F']; subst. destruct (step_total h o S SO) as (h1 & t & E1 & S1 & (M1 & M2)).
    rewrite E1 in E. cbn [bind] in E. destruct (run h1 os) as [(h2, tr2)| |] eqn:E2; cbn [bind] in E; try discriminate. injection E as <- <-.
    assert (D' := step_DI h o h1 t tr0 S SO NR D E1).
    assert (N' : NS h1 (tr0 ++ [(o, t)])).
    { apply (step_NS h o h1 t tr0); auto. intros s r ->. specialize (NF tr0 s r t tr2 eq_refl).
      destruct D as (D1 & _). rewrite D1, lenN_app in NF. lia. }
    replace (tr0 ++ (o, t) :: tr2) with ((tr0 ++ [(o, t)]) ++ tr2) in * by (rewrite <- app_assoc; reflexivity).
    apply (IH h1); auto. rewrite M1. exact NF.
Qed.
Lemma cap_ok mr mw : mr <= 2 ^ 62 -> 0 < mr -> Bithacks.Spec.least_pow2_ge mr (maxr (add_buffer mr mw)) /\ maxr (add_buffer mr mw) <> 0.
Proof.
  intros A B. cbn [add_buffer maxr]. rewrite (proj2 (N.eqb_neq _ _)) by lia. destruct (round_ok mr 62) as (P & _); [lia|auto|lia|].
  split; [exact P|]. destruct P as (_ & G & _). lia.
Qed.
Lemma least_unique n p q : Bithacks.Spec.least_pow2_ge n p -> Bithacks.Spec.least_pow2_ge n q -> p = q.
Proof. intros (A & B & C) (A' & B' & C'). specialize (C q A' B'). specialize (C' p A B). lia. Qed.

From Verif Require Import Base.Lib Sort.Model Sort.Spec Sort.Merge Sort.Qsort.

Section Binary.
Context {A : Type} (cmp : A -> A -> Z) (Hcmp : total_preorder cmp).
Variables (a : list A) (key : A).
Hypothesis Hs : sorted cmp a.

Lemma sorted_nth i j x y : i <= j -> nth_error a i = Some x -> nth_error a j = Some y -> (cmp x y <= 0)%Z.
Proof.
  intros Hij Hx Hy. destruct (Nat.eq_dec i j) as [->|].
  - rewrite Hx in Hy. injection Hy as <-. rewrite cmp_refl; auto. lia.
  - apply (sorted_sortedseg cmp a Hs i j x y); auto; try lia.
    apply nth_error_Some. congruence.
Qed.

Lemma cmp_flip x y : (cmp x y < 0 <-> cmp y x > 0)%Z /\ (cmp x y = 0 <-> cmp y x = 0)%Z.
Proof. destruct Hcmp as [H _]. specialize (H x y). lia. Qed.

Lemma lt_mono x y : (cmp x y <= 0 -> cmp key x < 0 -> cmp key y < 0)%Z.
Proof.
  intros H1 H2. destruct (Z.lt_ge_cases (cmp key y) 0); auto. exfalso.
  assert (cmp x key <= 0)%Z.
  { apply (cmp_trans _ Hcmp x y key); auto. pose proof (cmp_flip y key). lia. }
  pose proof (cmp_flip key x). lia.
Qed.
Lemma gt_mono x y : (cmp x y <= 0 -> cmp key y > 0 -> cmp key x > 0)%Z.
Proof.
  intros H1 H2. destruct (Z.le_gt_cases (cmp key x) 0); [|lia]. exfalso.
  assert (cmp key y <= 0)%Z by (apply (cmp_trans _ Hcmp key x y); auto). lia.
Qed.
Lemma ge_mono x y : (cmp x y <= 0 -> cmp key y >= 0 -> cmp key x >= 0)%Z.
Proof.
  intros H1 H2. destruct (Z.lt_ge_cases (cmp key x) 0); [|lia].
  pose proof (lt_mono x y H1 H). lia.
Qed.

Definition adj (mid : nat) (eq : Z) : nat := if (0 <? eq)%Z then S mid else mid.

(** What the halving loop leaves behind. *)
Definition below (l : Z) := forall i x, (Z.of_nat i < l)%Z -> nth_error a i = Some x -> (cmp key x > 0)%Z.
Definition above (r : Z) := forall i x, (r < Z.of_nat i)%Z -> nth_error a i = Some x -> (cmp key x < 0)%Z.

Lemma halve_ok : forall fuel l r mid eq,
  (0 <= l)%Z -> (r < Z.of_nat (length a))%Z -> (l <= r + 1)%Z -> below l -> above r ->
  (l <= r \/ Z.of_nat (adj mid eq) = l /\ eq <> 0)%Z -> (r - l + 1 < Z.of_nat fuel)%Z ->
  exists l' r' mid' eq', halve cmp fuel a key l r mid eq = Ok (l', r', mid', eq') /\
    (0 <= l')%Z /\ (r' < Z.of_nat (length a))%Z /\ below l' /\ above r' /\
    ((eq' <> 0 /\ l' = r' + 1 /\ Z.of_nat (adj mid' eq') = l')%Z \/
     (eq' = 0 /\ l' <= Z.of_nat mid' <= r' /\ exists x, nth_error a mid' = Some x /\ cmp key x = 0)%Z).
Proof.
  induction fuel as [|f IH]; intros l r mid eq Hl Hr Hlr Hb Ha Hm Hf; [lia|].
  cbn [halve]. destruct (Z.leb_spec l r) as [H|H].
  - set (md := Z.to_nat ((l + r) / 2)).
    assert (Hmd : (l <= Z.of_nat md <= r)%Z) by (subst md; lia). clearbody md.
    destruct (rd_lt a (i := md) ltac:(lia)) as [x Hx]. rewrite Hx. cbn [bind]. apply rd_Ok in Hx.
    destruct (Z.eqb_spec (cmp key x) 0) as [C|C].
    + exists l, r, md, (cmp key x). split; auto. split; auto. split; auto. split; auto. split; auto.
      right. split; auto. split; auto. eauto.
    + destruct (Z.ltb_spec (cmp key x) 0) as [C1|C1].
      * apply IH; auto; try lia.
        -- intros i y Hi Hy. apply (lt_mono x y); auto. apply (sorted_nth md i); auto. lia.
        -- unfold adj. replace (0 <? cmp key x)%Z with false by lia. lia.
      * apply IH; auto; try lia.
        -- intros i y Hi Hy. apply (gt_mono y x); try lia. apply (sorted_nth i md); auto. lia.
        -- unfold adj. replace (0 <? cmp key x)%Z with true by lia. lia.
  - exists l, r, mid, eq. split; auto. split; auto. split; auto. split; auto. split; auto.
    left. lia.
Qed.

Lemma scan_back_ok : forall fuel l mid,
  mid < fuel -> below l -> (l <= Z.of_nat mid)%Z -> mid < length a ->
  (exists x, nth_error a mid = Some x /\ cmp key x = 0%Z) ->
  exists i, scan_back cmp fuel a key l mid = Ok i /\ i < length a /\
    (exists x, nth_error a i = Some x /\ cmp key x = 0%Z) /\
    forall j y, j < i -> nth_error a j = Some y -> (cmp key y > 0)%Z.
Proof.
  induction fuel as [|f IH]; intros l mid Hf Hb Hl Hn (x & Hx & Ex); [lia|].
  cbn [scan_back]. destruct (Nat.ltb_spec 0 mid) as [H|H]; cbn [andb].
  - replace (l <=? Z.of_nat mid)%Z with true by lia.
    destruct (rd_lt a (i := mid - 1) ltac:(lia)) as [y Hy]. rewrite Hy. cbn [bind]. apply rd_Ok in Hy.
    destruct (Z.eqb_spec (cmp key y) 0) as [C|C]; cbn [negb].
    + destruct (Z.le_gt_cases l (Z.of_nat (mid - 1))) as [Hle|Hgt].
      * apply IH; auto; try lia. eauto.
      * exfalso. specialize (Hb (mid - 1) y ltac:(lia) Hy). lia.
    + exists mid. split; auto. split; auto. split; [eauto|].
      intros j z Hj Hz. apply (gt_mono z y).
      * apply (sorted_nth j (mid - 1)); auto. lia.
      * assert (cmp y x <= 0)%Z by (apply (sorted_nth (mid - 1) mid); auto; lia).
        destruct (Z.lt_trichotomy (cmp key y) 0) as [L|[L|L]]; try lia.
        pose proof (lt_mono y x H0 L). lia.
  - exists mid. split; auto. split; auto. split; [eauto|]. intros j y Hj. lia.
Qed.

Lemma scan_fwd_ok : forall fuel r mid eq,
  (0 <= r < Z.of_nat (length a))%Z -> (Z.of_nat mid <= r)%Z -> above r ->
  (exists x, nth_error a mid = Some x /\ cmp key x = eq) -> (eq <= 0)%Z ->
  (forall j y, j < mid -> nth_error a j = Some y -> (cmp key y >= 0)%Z) ->
  (r - Z.of_nat mid < Z.of_nat fuel)%Z ->
  exists i, scan_fwd cmp fuel a key r mid eq = Ok i /\ i < length a /\
    (forall j y, j < i -> nth_error a j = Some y -> (cmp key y >= 0)%Z) /\
    (forall y, nth_error a i = Some y -> (cmp key y <= 0)%Z) /\
    (forall j y, i < j -> nth_error a j = Some y -> (cmp key y < 0)%Z).
Proof.
  induction fuel as [|f IH]; intros r mid eq Hr Hm Ha (x & Hx & Ex) Heq Hlt Hf; [lia|].
  cbn [scan_fwd]. replace (r <? 0)%Z with false by lia. cbn [orb].
  destruct (Z.ltb_spec (Z.of_nat mid) r) as [H|H]; cbn [andb]; [destruct (Z.eqb_spec eq 0) as [E|E]; cbn [andb]|].
  - destruct (rd_lt a (i := S mid) ltac:(lia)) as [y Hy]. rewrite Hy. cbn [bind]. apply rd_Ok in Hy.
    assert (cmp x y <= 0)%Z by (apply (sorted_nth mid (S mid)); auto; lia).
    assert (cmp key y <= 0)%Z by (apply (cmp_trans _ Hcmp key x y); auto; lia).
    apply IH; auto; try lia; eauto.
    intros j z Hj Hz. destruct (Nat.eq_dec j mid) as [->|].
    + rewrite Hx in Hz. injection Hz as <-. lia.
    + apply (Hlt j z); auto. lia.
  - exists mid. split; auto. split; [apply nth_error_Some; congruence|]. split; auto. split.
    + intros y Hy. rewrite Hx in Hy. injection Hy as <-. lia.
    + intros j y Hj Hy. apply (lt_mono x y); [apply (sorted_nth mid j); auto; lia|lia].
  - exists mid. split; auto. split; [apply nth_error_Some; congruence|]. split; auto. split.
    + intros y Hy. rewrite Hx in Hy. injection Hy as <-. lia.
    + intros j y Hj Hy. apply (Ha j y); auto. lia.
Qed.

Definition found (i : nat) : Prop := exists x, nth_error a i = Some x /\ cmp key x = 0%Z.
Definition absent : Prop := forall j x, nth_error a j = Some x -> cmp key x <> 0%Z.

Lemma split_absent l : below l -> above (l - 1) -> absent.
Proof.
  intros Hb Ha j x Hx E. destruct (Z.lt_ge_cases (Z.of_nat j) l) as [H|H].
  - specialize (Hb j x H Hx). lia.
  - specialize (Ha j x ltac:(lia) Hx). lia.
Qed.

Lemma halve_start eq0 : length a <> 0 ->
  exists l' r' mid' eq', halve cmp (S (length a)) a key 0 (Z.of_nat (length a) - 1) 0 eq0 = Ok (l', r', mid', eq') /\
    (0 <= l')%Z /\ (r' < Z.of_nat (length a))%Z /\ below l' /\ above r' /\
    ((eq' <> 0 /\ l' = r' + 1 /\ Z.of_nat (adj mid' eq') = l')%Z \/
     (eq' = 0 /\ l' <= Z.of_nat mid' <= r' /\ exists x, nth_error a mid' = Some x /\ cmp key x = 0)%Z).
Proof.
  intros Hn. apply halve_ok; try lia.
  - intros i x Hi. lia.
  - intros i x Hi Hx. exfalso. assert (i < length a) by (apply nth_error_Some; congruence). lia.
Qed.

Lemma bsearch_ok stable :
  exists b i, bsearch cmp a key stable = Ok (b, i) /\
    (b = true -> found i /\ (stable = true -> forall j, j < i -> ~ found j)) /\
    (b = false -> absent).
Proof.
  unfold bsearch, binary_idx. destruct (Nat.eqb_spec (length a) 0) as [H0|H0].
  { exists false, 0. split; auto. split; [discriminate|]. intros _ j x Hx.
    assert (j < length a) by (apply nth_error_Some; congruence). lia. }
  destruct stable; cbn [negb].
  - destruct (halve_start 1%Z H0) as (l & r & mid & eq & E & Hl & Hr & Hb & Ha & Hc). rewrite E. cbn [bind].
    destruct Hc as [(C & C1 & C2)|(C & C1 & C2)].
    + replace (eq =? 0)%Z with false by lia. cbn [negb]. exists false, 0. split; auto. split; [discriminate|].
      intros _. apply (split_absent l); auto. replace (l - 1)%Z with r by lia. auto.
    + replace (eq =? 0)%Z with true by lia. cbn [negb].
      destruct (scan_back_ok (S mid) l mid) as (i & Ei & Li & Fi & Gi); auto; try lia.
      rewrite Ei. cbn [bind]. exists true, i. split; auto. split; [|discriminate]. intros _. split; auto.
      intros _ j Hj (y & Hy & Ey). specialize (Gi j y Hj Hy). lia.
  - destruct (rd_lt a (i := length a - 1) ltac:(lia)) as [z Hz]. rewrite Hz. cbn [bind]. apply rd_Ok in Hz.
    destruct (Z.eqb_spec (cmp key z) 0) as [C|C].
    { exists true, (length a - 1). split; auto. split; [|discriminate]. intros _. split; [exists z; auto|discriminate]. }
    destruct (Z.ltb_spec 0 (cmp key z)) as [C1|C1].
    { exists false, 0. split; auto. split; [discriminate|]. intros _ j x Hx E.
      assert (Hj : j < length a) by (apply nth_error_Some; congruence).
      assert (cmp x z <= 0)%Z by (apply (sorted_nth j (length a - 1)); auto; lia).
      pose proof (gt_mono x z H ltac:(lia)). lia. }
    destruct (rd_lt a (i := 0) ltac:(lia)) as [w Hw]. rewrite Hw. cbn [bind]. apply rd_Ok in Hw.
    destruct (Z.leb_spec (cmp key w) 0) as [D|D].
    + destruct (Z.eqb_spec (cmp key w) 0) as [D1|D1]; cbn [negb andb].
      * exists true, 0. split; auto. split; [|discriminate]. intros _. split; [exists w; auto|discriminate].
      * exists false, 0. split; auto. split; [discriminate|]. intros _ j x Hx E.
        assert (cmp w x <= 0)%Z by (apply (sorted_nth 0 j); auto; lia).
        pose proof (lt_mono w x H ltac:(lia)). lia.
    + destruct (halve_start (cmp key w) H0) as (l & r & mid & eq & E & Hl & Hr & Hb & Ha & Hc). rewrite E. cbn [bind].
      destruct Hc as [(C3 & C4 & C5)|(C3 & C4 & C5)].
      * replace (eq =? 0)%Z with false by lia. cbn [negb andb]. exists false, 0. split; auto. split; [discriminate|].
        intros _. apply (split_absent l); auto. replace (l - 1)%Z with r by lia. auto.
      * subst eq. cbn [Z.eqb negb andb Z.ltb]. exists true, mid. split; [reflexivity|].
        split; [|discriminate]. intros _. split; [auto|discriminate].
Qed.

(** ** insertion index *)

Lemma insert_idx_ok stable :
  exists i, insert_idx cmp a key stable = Ok i /\ i <= length a /\
    (forall j x, j < i -> nth_error a j = Some x -> (cmp key x >= 0)%Z) /\
    (forall j x, i <= j -> nth_error a j = Some x -> (cmp key x <= 0)%Z) /\
    (stable = true -> forall j x, i < j -> nth_error a j = Some x -> (cmp key x < 0)%Z).
Proof.
  unfold insert_idx, binary_idx. destruct (Nat.eqb_spec (length a) 0) as [H0|H0].
  { cbn [bind]. exists (length a). repeat split; auto; try lia.
    all: intros; exfalso; assert (j < length a) by (apply nth_error_Some; congruence); lia. }
  assert (Fin : forall l, (0 <= l)%Z -> below l -> above (l - 1) -> forall i, Z.of_nat i = l ->
    (forall j x, j < i -> nth_error a j = Some x -> (cmp key x >= 0)%Z) /\
    (forall j x, i <= j -> nth_error a j = Some x -> (cmp key x <= 0)%Z) /\
    (stable = true -> forall j x, i < j -> nth_error a j = Some x -> (cmp key x < 0)%Z)).
  { intros l Hl Hb Ha i Hi. repeat split.
    - intros j x Hj Hx. specialize (Hb j x ltac:(lia) Hx). lia.
    - intros j x Hj Hx. specialize (Ha j x ltac:(lia) Hx). lia.
    - intros _ j x Hj Hx. specialize (Ha j x ltac:(lia) Hx). lia. }
  assert (Hlen : forall j x, nth_error a j = Some x -> j < length a) by (intros j x Hx; apply nth_error_Some; congruence).
  destruct stable; cbn [negb].
  - destruct (halve_start 1%Z H0) as (l & r & mid & eq & E & Hl & Hr & Hb & Ha & Hc). rewrite E. cbn [bind].
    destruct Hc as [(C & C1 & C2)|(C & C1 & C2)].
    + fold (adj mid eq). 
      assert (Es : scan_fwd cmp (S (length a)) a key r (adj mid eq) eq = Ok (adj mid eq)).
      { cbn [scan_fwd]. replace (eq =? 0)%Z with false by lia. rewrite andb_false_r. reflexivity. }
      rewrite Es. cbn [bind]. exists (adj mid eq). split; auto. split; [lia|].
      apply (Fin l); auto. replace (l - 1)%Z with r by lia. auto.
    + subst eq. cbn [Z.ltb Z.compare]. destruct C2 as (x & Hx & Ex).
      destruct (scan_fwd_ok (S (length a)) r mid 0%Z) as (i & Ei & Li & G1 & G2 & G3); try lia; auto; eauto.
      { intros j y Hj Hy. apply (ge_mono y x); [|lia]. apply (sorted_nth j mid); auto. lia. }
      rewrite Ei. cbn [bind]. exists i. split; auto. split; [lia|]. split; auto. split; auto.
      intros j y Hj Hy. destruct (Nat.eq_dec j i) as [->|]; [apply G2; auto|].
      specialize (G3 j y ltac:(lia) Hy). lia.
  - destruct (rd_lt a (i := length a - 1) ltac:(lia)) as [z Hz]. rewrite Hz. cbn [bind]. apply rd_Ok in Hz.
    destruct (Z.eqb_spec (cmp key z) 0) as [C|C].
    { cbn [bind]. exists (length a). repeat split; auto; try lia; try discriminate.
      - intros j x Hj Hx. apply (ge_mono x z); [|lia]. apply (sorted_nth j (length a - 1)); auto. lia.
      - intros j x Hj Hx. apply Hlen in Hx. lia. }
    destruct (Z.ltb_spec 0 (cmp key z)) as [C1|C1].
    { cbn [bind]. exists (length a). repeat split; auto; try lia; try discriminate.
      - intros j x Hj Hx. apply (ge_mono x z); [|lia]. apply (sorted_nth j (length a - 1)); auto. lia.
      - intros j x Hj Hx. apply Hlen in Hx. lia. }
    destruct (rd_lt a (i := 0) ltac:(lia)) as [w Hw]. rewrite Hw. cbn [bind]. apply rd_Ok in Hw.
    destruct (Z.leb_spec (cmp key w) 0) as [D|D].
    + rewrite andb_false_r. cbn [bind]. exists 0. repeat split; try lia; try discriminate.
      intros j x _ Hx. apply (cmp_trans _ Hcmp key w x); auto. apply (sorted_nth 0 j); auto. lia.
    + destruct (halve_start (cmp key w) H0) as (l & r & mid & eq & E & Hl & Hr & Hb & Ha & Hc). rewrite E. cbn [bind andb].
      fold (adj mid eq). exists (adj mid eq). split; [reflexivity|].
      destruct Hc as [(C3 & C4 & C5)|(C3 & C4 & C5)].
      * split; [lia|]. apply (Fin l); auto. replace (l - 1)%Z with r by lia. auto.
      * destruct C5 as (x & Hx & Ex). subst eq. unfold adj. cbn [Z.ltb Z.compare]. apply Hlen in Hx as Hm.
        repeat split; try lia; try discriminate.
        -- intros j y Hj Hy. apply (ge_mono y x); [|lia]. apply (sorted_nth j mid); auto. lia.
        -- intros j y Hj Hy. apply (cmp_trans _ Hcmp key x y); [lia|]. apply (sorted_nth mid j); auto.
Qed.
End Binary.

Lemma sorted_app {A} (cmp : A -> A -> Z) l1 : forall l2,
  sorted cmp l1 -> sorted cmp l2 -> (forall x y, In x l1 -> In y l2 -> (cmp x y <= 0)%Z) -> sorted cmp (l1 ++ l2).
Proof.
  unfold sorted. induction l1 as [|x l1 IH]; intros l2 H1 H2 H; cbn; auto.
  apply StronglySorted_inv in H1 as [S1 F1]. constructor.
  - apply IH; auto. intros a b Ha Hb. apply H; auto. now right.
  - apply Forall_app. split; auto. apply Forall_forall. intros b Hb. apply H; auto. now left.
Qed.

Lemma sorted_firstn {A} (cmp : A -> A -> Z) l : sorted cmp l -> forall i, sorted cmp (firstn i l).
Proof.
  unfold sorted. induction 1 as [|x l Hs IH HF]; intros [|i]; cbn; constructor; auto.
  rewrite Forall_forall in *. intros y Hy. apply HF.
  rewrite <- (firstn_skipn i l). apply in_or_app. auto.
Qed.
Lemma sorted_skipn {A} (cmp : A -> A -> Z) l : sorted cmp l -> forall i, sorted cmp (skipn i l).
Proof.
  unfold sorted. induction 1 as [|x l Hs IH HF]; intros [|i]; cbn; try constructor; auto.
Qed.

Lemma insert_sorted {A} (cmp : A -> A -> Z) (Hcmp : total_preorder cmp) a key i :
  sorted cmp a -> 
  (forall j x, j < i -> nth_error a j = Some x -> (cmp key x >= 0)%Z) ->
  (forall j x, i <= j -> nth_error a j = Some x -> (cmp key x <= 0)%Z) ->
  sorted cmp (insert_at i key a).
Proof.
  intros Hs H1 H2. unfold insert_at.
  assert (P1 : forall x, In x (firstn i a) -> (cmp x key <= 0)%Z).
  { intros x Hx. apply In_nth_error in Hx as [j Hj]. rewrite firstn_nth_error in Hj.
    destruct (Nat.ltb_spec j i); [|discriminate]. specialize (H1 j x H Hj).
    destruct Hcmp as [Sg _]. specialize (Sg key x). lia. }
  assert (P2 : forall x, In x (skipn i a) -> (cmp key x <= 0)%Z).
  { intros x Hx. apply In_nth_error in Hx as [j Hj]. rewrite skipn_nth_error in Hj.
    apply (H2 (i + j) x); auto. lia. }
  apply sorted_app.
  - apply sorted_firstn, Hs.
  - constructor; [apply sorted_skipn, Hs|]. apply Forall_forall. auto.
  - intros x y Hx [<-|Hy]; auto. destruct Hcmp as [_ T]. apply (T x key y); auto.
Qed.

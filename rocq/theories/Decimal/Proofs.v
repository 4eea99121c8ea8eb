(** Lemmas about the decimal model: values, alignment and the operations. *)
From Coq Require Import QArith.
From Verif Require Import Base.Lib Decimal.Model Decimal.Spec Decimal.Arith.
Local Open Scope Z_scope.

(** ** Values *)

Definition qval (d : dec) : Q := ratio (num d) (nd d).
Definition valid (d : dec) : Prop := in64 (num d) /\ (nd d <= 255)%nat.

Lemma ratio_den k : Zpos (Z.to_pos (10 ^ Z.of_nat k)) = p10 k.
Proof. rewrite Z2Pos.id; [reflexivity|apply p10_pos]. Qed.

Lemma ratio_eq a k b j : (ratio a k == ratio b j)%Q <-> a * p10 j = b * p10 k.
Proof. unfold Qeq, ratio. cbn [Qnum Qden]. rewrite !ratio_den. reflexivity. Qed.

Lemma ratio_scale n k j : (ratio (n * p10 j) (k + j) == ratio n k)%Q.
Proof. rewrite ratio_eq, p10_add. ring. Qed.

Lemma ratio_scale_to n k w : (k <= w)%nat -> (ratio (n * p10 (w - k)) w == ratio n k)%Q.
Proof. intros H. replace w with (k + (w - k))%nat at 2 by lia. apply ratio_scale. Qed.

Lemma ratio_plus a b k : (ratio a k + ratio b k == ratio (a + b) k)%Q.
Proof. unfold Qeq, Qplus, ratio. cbn [Qnum Qden]. rewrite Pos2Z.inj_mul. ring. Qed.

Lemma ratio_minus a b k : (ratio a k - ratio b k == ratio (a - b) k)%Q.
Proof. unfold Qeq, Qminus, Qplus, Qopp, ratio. cbn [Qnum Qden]. rewrite Pos2Z.inj_mul. ring. Qed.

Lemma ratio_mult a b k j : (ratio a k * ratio b j == ratio (a * b) (k + j))%Q.
Proof.
  unfold Qeq, Qmult, ratio. cbn [Qnum Qden]. rewrite Pos2Z.inj_mul, !ratio_den. rewrite p10_add. ring.
Qed.

Lemma ratio_compare a b k : Qcompare (ratio a k) (ratio b k) = Z.compare a b.
Proof.
  unfold Qcompare, ratio. cbn [Qnum Qden]. symmetry. apply Zmult_compare_compat_r. lia.
Qed.

(** ** reduce *)

Lemma reduce_loop_spec k : forall n, exists j, (j <= k)%nat /\ let r := reduce_loop n k in
  nd r = (k - j)%nat /\ n = num r * p10 j /\ (nd r = 0%nat \/ Z.rem (num r) 10 <> 0).
Proof.
  induction k as [|k IH]; intros n; cbn [reduce_loop].
  - exists 0%nat. cbn zeta. cbn [nd num]. rewrite p10_0. lia.
  - destruct (Z.eqb_spec (Z.rem n 10) 0) as [E|E].
    + destruct (IH (Z.quot n 10)) as (j & Hj & A & B & C). exists (S j). split; [lia|].
      cbn zeta. split; [lia|]. split; [|exact C]. rewrite p10_S.
      pose proof (Z.quot_rem' n 10). lia.
    + exists 0%nat. cbn [nd num]. rewrite p10_0. split; [lia|]. cbn zeta. split; [lia|]. split; [lia|]. auto.
Qed.

Lemma reduce_spec d : exists j, nd d = (nd (reduce d) + j)%nat /\ num d = num (reduce d) * p10 j /\
  (nd (reduce d) = 0%nat \/ Z.rem (num (reduce d)) 10 <> 0).
Proof.
  destruct (reduce_loop_spec (nd d) (num d)) as (j & Hj & A & B & C). exists j. cbn zeta in *. fold (reduce d) in *.
  split; [lia|auto].
Qed.

Lemma reduce_qval d : (qval (reduce d) == qval d)%Q.
Proof. destruct (reduce_spec d) as (j & A & B & _). unfold qval. rewrite A, B. symmetry. apply ratio_scale. Qed.

Lemma reduce_valid d : valid d -> valid (reduce d).
Proof.
  destruct (reduce_spec d) as (j & A & B & _). intros [[V1 V2] W]. split; [|lia].
  pose proof (p10_pos j). unfold fits, in64, imin, imax in *. nia.
Qed.

(** A reduced decimal has the least number of places of all its forms. *)
Lemma reduced_least r n k : (nd r = 0%nat \/ Z.rem (num r) 10 <> 0) -> (ratio n k == qval r)%Q ->
  exists j, k = (nd r + j)%nat /\ n = num r * p10 j.
Proof.
  intros H E. unfold qval in E. rewrite ratio_eq in E.
  destruct (le_lt_dec (nd r) k) as [L|L].
  - exists (k - nd r)%nat. split; [lia|]. replace k with (nd r + (k - nd r))%nat in E by lia.
    rewrite p10_add in E. pose proof (p10_pos (nd r)). nia.
  - destruct H as [H|H]; [lia|]. exfalso. apply H.
    replace (nd r) with (k + S (nd r - k - 1))%nat in E by lia. rewrite p10_add, p10_S in E.
    pose proof (p10_pos k). assert (E2 : num r = (n * p10 (nd r - k - 1)) * 10) by nia. rewrite E2. apply Z.rem_mul. lia.
Qed.

(** ** transform *)

Lemma transform_up d k r : valid d -> (nd d <= k)%nat ->
  exists rv d', transform d k r = Ok (rv, d') /\
  (rv = Success /\ in64 (num d * p10 (k - nd d)) /\ d' = mkd (num d * p10 (k - nd d)) k \/
   rv = Overflow /\ ~ in64 (num d * p10 (k - nd d))).
Proof.
  intros [V W] H. unfold transform.
  destruct (Nat.eqb_spec k (nd d)) as [->|Hk].
  { exists Success, d. split; auto. left. rewrite Nat.sub_diag, p10_0, Z.mul_1_r. repeat split; auto; try apply V. now destruct d. }
  destruct (Nat.ltb_spec (nd d) k); [|lia].
  destruct (Z.eqb_spec (num d) 0) as [E|E].
  { do 2 eexists. split; [reflexivity|]. left. rewrite E, Z.mul_0_l. repeat split; unfold imin, imax; lia. }
  destruct (le_lt_dec (k - nd d) 18) as [L|L].
  - rewrite exp_ok by lia. pose proof (p10_18 _ L). pose proof (p10_pos (k - nd d)).
    rewrite mult_spec by (auto; unfold in64, imin, imax; lia).
    do 2 eexists. split; [reflexivity|]. destruct (in64b (num d * p10 (k - nd d))) eqn:B.
    + apply in64b_iff in B. left. rewrite wrap_id by auto. auto.
    + apply in64b_false in B. right. auto.
  - rewrite exp_over by lia. do 2 eexists. split; [reflexivity|]. right. split; auto.
    pose proof (p10_le 19 (k - nd d) ltac:(lia)) as P. change (p10 19) with (10 ^ 19) in P. unfold fits, in64, imin, imax in *. nia.
Qed.

Lemma transform_down d k r : valid d -> (k < nd d)%nat ->
  (num d <> 0 /\ (19 <= nd d - k)%nat /\ transform d k r = Ok (Overflow, d)) \/
  ((num d = 0 \/ (nd d - k <= 18)%nat) /\
   (r = RNone \/ num d <> imin \/ (nd d - k)%nat <> 1%nat ->
    exists q, transform d k r = Ok (if Z.rem (num d) (p10 (nd d - k)) =? 0 then Success else Truncation, mkd q k) /\
      rounded r (num d) (p10 (nd d - k)) q /\ Z.abs q <= Z.abs (num d) / 10 + 1 /\
      (Z.rem (num d) (p10 (nd d - k)) = 0 -> num d = q * p10 (nd d - k)))).
Proof.
  intros [V W] H. unfold transform.
  destruct (Nat.eqb_spec k (nd d)); [lia|]. destruct (Nat.ltb_spec (nd d) k); [lia|].
  remember (nd d - k)%nat as e eqn:Ee. destruct e as [|e]; [lia|].
  pose proof (p10_pos e) as Pe.
  destruct (Z.eqb_spec (num d) 0) as [E|E].
  { right. split; auto. intros _. exists 0. rewrite E. rewrite Z.rem_0_l by (rewrite p10_S; lia). split; [reflexivity|].
    rewrite p10_S. destruct r; cbn [rounded]; unfold toward_zero, half_away, half_even;
      try (repeat split; intros; change (Z.abs 0) with 0; change (0 / 10) with 0; lia).
    change (Z.abs 0) with 0. rewrite Z.mod_0_l by lia.
    split; [split; [intros _ [? _]; lia|intros _; split; [lia|auto]]|split; lia]. }
  destruct (le_lt_dec (S e) 18) as [L|L].
  2:{ left. rewrite exp_over by lia. auto. }
  right. split; auto. intros Hc. rewrite exp_ok by lia. rewrite p10_S.
  assert (Hm1 : p10 e <> 1 \/ e = 0%nat).
  { destruct e; auto. left. rewrite p10_S. pose proof (p10_pos e). lia. }
  rewrite div_shape; auto.
  2:{ destruct Hc as [|[|]]; auto. right. right. destruct Hm1; auto. }
  cbn [bind]. eexists. split; [|split; [apply rquot_rounded; auto|]].
  - rewrite rem_sg by lia. do 2 f_equal. f_equal. destruct (sg_cases (num d)) as [-> | ->]; set (x := Z.abs (num d) mod _); clearbody x; destruct (Z.eqb_spec x 0), (Z.eqb_spec (1 * x) 0), (Z.eqb_spec (-1 * x) 0); try reflexivity; lia.
  - destruct (digit_shape (Z.abs (num d)) (p10 e) ltac:(lia) Pe) as (t & g & u & Ht & Hg & Hu & Ea & Q & G & R).
    rewrite Q, G. split.
    + assert (t <= Z.abs (num d) / 10) by (apply Z.div_le_lower_bound; nia).
      assert (0 <= rquot r t g <= t + 1).
      { destruct r; cbn [rquot]; [lia| |]; match goal with |- context [if ?c then _ else _] => destruct c end; lia. }
      destruct (sg_cases (num d)) as [-> | ->]; lia.
    + rewrite rem_sg, R by lia. intros Z0.
      assert (X0 : p10 e * g + u = 0) by (destruct (sg_cases (num d)) as [S | S]; rewrite S in Z0; lia).
      assert (Hg0 : g = 0) by nia. rewrite Hg0.
      assert (RQ : rquot r t 0 = t) by (destruct r; reflexivity). rewrite RQ.
      unfold sg. destruct (Z.ltb_spec (num d) 0); nia.
Qed.

(** ** Alignment *)

Lemma cancel1 a n b x : 0 < a -> n * (a * b) = x * a -> n * b = x.
Proof. intros Ha E. apply (Z.mul_reg_r _ _ a); lia. Qed.

Lemma in64_factor z p : 0 < p -> in64 (z * p) -> in64 z.
Proof. unfold in64, imin, imax. intros Hp H. split; nia. Qed.

Lemma imin_not_10 z : imin <> 10 * z.
Proof. unfold imin. lia. Qed.

Lemma prep_loop_le a b k : forall t1 t2 r1 r2 k', prep_loop a b t1 t2 k = Ok (Some (r1, r2, k')) -> (k' <= k)%nat.
Proof.
  induction k as [|k IH]; intros t1 t2 r1 r2 k' H; cbn [prep_loop] in H;
    apply bind_ok in H as ([v1 u1] & _ & H); apply bind_ok in H as ([ok u2] & _ & H); destruct ok.
  - injection H as _ _ <-. auto.
  - discriminate.
  - injection H as _ _ <-. auto.
  - apply IH in H. lia.
Qed.

Lemma prep_loop_first a b t1 t2 k : valid t1 -> valid t2 -> (nd t1 <= k)%nat -> (nd t2 <= k)%nat ->
  let x := num t1 * p10 (k - nd t1) in let y := num t2 * p10 (k - nd t2) in
  (in64 x /\ in64 y /\ prep_loop a b t1 t2 k = Ok (Some (mkd x k, mkd y k, k))) \/
  (~ (in64 x /\ in64 y) /\ prep_loop a b t1 t2 k = match k with O => Ok None | S k' => prep_loop a b a b k' end).
Proof.
  intros V1 V2 L1 L2 x y.
  destruct (transform_up t1 k RTrad V1 L1) as (rv1 & d1 & E1 & C1). fold x in C1.
  destruct (transform_up t2 k RTrad V2 L2) as (rv2 & d2 & E2 & C2). fold y in C2.
  assert (U : forall X : res (option (dec * dec * nat)), X = prep_loop a b t1 t2 k -> X =
    (do '(r1, t1) <- transform t1 k RTrad;
     do '(ok, t2) <- (if rv_eqb r1 Overflow then Ok (false, t2)
       else do '(r2, t2) <- transform t2 k RTrad; Ok (negb (rv_eqb r2 Overflow), t2));
     if ok : bool then Ok (Some (t1, t2, k)) else match k with O => Ok None | S k' => prep_loop a b a b k' end)).
  { intros X ->. destruct k; reflexivity. }
  rewrite (U _ eq_refl), E1. clear U. cbn [bind].
  destruct C1 as [(-> & I1 & ->)|(-> & I1)]; cbn [rv_eqb].
  - rewrite E2. cbn [bind]. destruct C2 as [(-> & I2 & ->)|(-> & I2)]; cbn [rv_eqb negb bind]; [left|right]; auto.
    split; tauto.
  - cbn [bind]. right. split; tauto.
Qed.

(** The least common alignment of two decimals. *)
Definition least (a b : dec) (x y : Z) (w : nat) : Prop :=
  aligned (qval a) (qval b) x y w /\
  (forall x' y' w', (qval a == ratio x' w')%Q -> (qval b == ratio y' w')%Q ->
    exists j, w' = (w + j)%nat /\ x' = x * p10 j /\ y' = y * p10 j).

Lemma prep_red a b : valid a -> valid b ->
  (exists x y w, least a b x y w /\ (w <= 255)%nat /\
     w = Nat.max (nd (reduce a)) (nd (reduce b)) /\
     x = num (reduce a) * p10 (w - nd (reduce a)) /\ y = num (reduce b) * p10 (w - nd (reduce b)) /\
     prepmath a b true = Ok (Some (Success, mkd x w, mkd y w))) \/
  ((forall x y w, ~ aligned (qval a) (qval b) x y w) /\
   forall rv t1 t2, prepmath a b true = Ok (Some (rv, t1, t2)) -> rv = Truncation).
Proof.
  intros Va Vb. pose proof (reduce_valid a Va) as Ra. pose proof (reduce_valid b Vb) as Rb.
  destruct (reduce_spec a) as (ja & _ & _ & Na). destruct (reduce_spec b) as (jb & _ & _ & Nb).
  pose proof (reduce_qval a) as Qa. pose proof (reduce_qval b) as Qb.
  unfold prepmath. set (t1 := reduce a) in *. set (t2 := reduce b) in *.
  remember (Nat.max (nd t1) (nd t2)) as w eqn:Ew.
  destruct (prep_loop_first a b t1 t2 w Ra Rb ltac:(lia) ltac:(lia)) as [(I1 & I2 & E)|(I & E)]; rewrite E.
  - left. exists (num t1 * p10 (w - nd t1)), (num t2 * p10 (w - nd t2)), w.
    split; [split|]; [split; [now apply fits_in64|split; [now apply fits_in64|]]| |].
    + rewrite <- Qa, <- Qb. unfold qval.
      split; symmetry; apply ratio_scale_to; lia.
    + intros x' y' w' H1 H2. rewrite <- Qa in H1. rewrite <- Qb in H2.
      destruct (reduced_least t1 x' w' Na) as (j1 & A1 & B1). { now symmetry. }
      destruct (reduced_least t2 y' w' Nb) as (j2 & A2 & B2). { now symmetry. }
      exists (w' - w)%nat. split; [lia|]. split.
      * rewrite B1, <- Z.mul_assoc, <- p10_add. do 2 f_equal. lia.
      * rewrite B2, <- Z.mul_assoc, <- p10_add. do 2 f_equal. lia.
    + split; [destruct Ra, Rb; lia|]. split; auto. split; auto. split; auto. cbn [bind]. rewrite Nat.eqb_refl. reflexivity.
  - right. split.
    + intros x y k (F1 & F2 & H1 & H2). apply I. rewrite <- Qa in H1. rewrite <- Qb in H2.
      destruct (reduced_least t1 x k Na) as (j1 & A1 & B1). { now symmetry. }
      destruct (reduced_least t2 y k Nb) as (j2 & A2 & B2). { now symmetry. }
      assert (C1 : x = num t1 * p10 (w - nd t1) * p10 (k - w)).
      { rewrite B1, <- Z.mul_assoc, <- p10_add. do 2 f_equal. lia. }
      assert (C2 : y = num t2 * p10 (w - nd t2) * p10 (k - w)).
      { rewrite B2, <- Z.mul_assoc, <- p10_add. do 2 f_equal. lia. }
      apply fits_in64 in F1, F2. rewrite C1 in F1. rewrite C2 in F2. pose proof (p10_pos (k - w)).
      split; [eapply in64_factor|eapply in64_factor]; eauto.
    + intros rv r1 r2 H. apply bind_ok in H as ([[[u1 u2] k']|] & H & H'); [|discriminate].
      injection H' as <- _ _. destruct w as [|w]; [discriminate|]. apply prep_loop_le in H.
      destruct (Nat.eqb_spec k' (S w)); [lia|reflexivity].
Qed.

(** ** Definedness *)

Definition okd (d : dec) : Prop := valid d /\ num d <> imin.

Lemma transform_ok d k r : okd d -> (k <= 255)%nat ->
  exists rv d', transform d k r = Ok (rv, d') /\ (rv <> Overflow -> okd d' /\ nd d' = k).
Proof.
  intros [V N] Hk. destruct (le_lt_dec (nd d) k) as [L|L].
  - destruct (transform_up d k r V L) as (rv & d' & E & C). exists rv, d'. split; auto. intros Hn.
    destruct C as [(_ & I & ->)|[? _]]; [|congruence]. split; [|reflexivity]. split; [split; auto|]. cbn [num].
    destruct (k - nd d)%nat as [|j]; [rewrite p10_0; lia|]. rewrite p10_S. intros E0.
    apply (imin_not_10 (num d * p10 j)). lia.
  - destruct (transform_down d k r V L) as [(_ & _ & E)|(_ & H)].
    + exists Overflow, d. split; auto. congruence.
    + destruct H as (q & E & _ & B & _); auto. do 2 eexists. split; [exact E|]. intros _. split; [|reflexivity].
      destruct V as [V W]. unfold okd, valid, in64, imin, imax in *. cbn [num nd]. lia.
Qed.

Lemma prep_loop_ok a b k : okd a -> okd b -> (k <= 255)%nat -> forall t1 t2, okd t1 -> okd t2 ->
  exists r, prep_loop a b t1 t2 k = Ok r /\
  forall u1 u2 k', r = Some (u1, u2, k') -> okd u1 /\ okd u2 /\ nd u1 = k' /\ nd u2 = k'.
Proof.
  intros Ha Hb. induction k as [|k IH]; intros Hk t1 t2 H1 H2; cbn [prep_loop];
    destruct (transform_ok t1 _ RTrad H1 Hk) as (rv1 & d1 & E1 & C1);
    destruct (transform_ok t2 _ RTrad H2 Hk) as (rv2 & d2 & E2 & C2);
    rewrite E1; cbn [bind]; destruct (rv_eqb rv1 Overflow) eqn:R1; cbn [bind].
  - eexists. split; [reflexivity|discriminate].
  - rewrite E2. cbn [bind]. destruct (rv_eqb rv2 Overflow) eqn:R2; cbn [negb].
    + eexists. split; [reflexivity|discriminate].
    + eexists. split; [reflexivity|]. intros u1 u2 k' E. injection E as <- <- <-.
      destruct C1 as [? ?]; [intros ->; discriminate|]. destruct C2; [intros ->; discriminate|]. auto.
  - apply IH; auto. lia.
  - rewrite E2. cbn [bind]. destruct (rv_eqb rv2 Overflow) eqn:R2; cbn [negb].
    + apply IH; auto. lia.
    + eexists. split; [reflexivity|]. intros u1 u2 k' E. injection E as <- <- <-.
      destruct C1 as [? ?]; [intros ->; discriminate|]. destruct C2; [intros ->; discriminate|]. auto.
Qed.

Lemma reduce_okd d : okd d -> okd (reduce d).
Proof.
  intros [V N]. split; [now apply reduce_valid|]. destruct (reduce_spec d) as (j & _ & B & _). intros E.
  pose proof (p10_pos j). rewrite E in B. destruct V as [V _]. unfold fits, in64, imin, imax in *. nia.
Qed.

Lemma prep_ok a b f : okd a -> okd b -> exists r, prepmath a b f = Ok r /\
  forall rv u1 u2, r = Some (rv, u1, u2) -> okd u1 /\ okd u2 /\ nd u1 = nd u2.
Proof.
  intros Ha Hb. unfold prepmath.
  set (t1 := if f then reduce a else a). set (t2 := if f then reduce b else b).
  assert (H1 : okd t1) by (unfold t1; destruct f; auto using reduce_okd).
  assert (H2 : okd t2) by (unfold t2; destruct f; auto using reduce_okd).
  destruct (prep_loop_ok a b (Nat.max (nd t1) (nd t2)) Ha Hb ltac:(destruct H1 as [[_ ?] _], H2 as [[_ ?] _]; lia) t1 t2 H1 H2) as (r & E & C).
  rewrite E. cbn [bind]. destruct r as [[[u1 u2] k']|].
  - eexists. split; [reflexivity|]. intros rv v1 v2 E'. injection E' as _ <- <-.
    destruct (C _ _ _ eq_refl) as (A & B & D & F). repeat split; auto; try apply A; try apply B. congruence.
  - eexists. split; [reflexivity|discriminate].
Qed.

(** ** Addition and subtraction *)

Lemma add_cases d0 a b : valid a -> valid b ->
  (exists x y w, least a b x y w /\ (w <= 255)%nat /\ in64 (x + y) /\ add d0 a b = Ok (Success, reduce (mkd (x + y) w))) \/
  ((forall x y w, aligned (qval a) (qval b) x y w -> ~ in64 (x + y)) /\
   forall rv r, add d0 a b = Ok (rv, r) -> rv <> Success).
Proof.
  intros Va Vb. unfold add. destruct (prep_red a b Va Vb) as [(x & y & w & Lw & W & _ & _ & _ & E)|(N & T)].
  - rewrite E. cbn [bind num nd]. pose proof Lw as ((F1 & F2 & _) & M). apply fits_in64 in F1, F2.
    rewrite add_spec by auto. destruct (in64b (x + y)) eqn:B.
    + apply in64b_iff in B. left. exists x, y, w. auto.
    + apply in64b_false in B. right. split.
      * intros x' y' w' (_ & _ & H1 & H2) I. destruct (M x' y' w' H1 H2) as (j & _ & -> & ->). apply B.
        pose proof (p10_pos j). unfold fits, in64, imin, imax in *. nia.
      * intros rv r H. injection H as <- _. discriminate.
  - right. split; [intros x y w H; destruct (N _ _ _ H)|].
    intros rv r H. apply bind_ok in H as ([[[rv' t1] t2]|] & H & H').
    + apply T in H. subst rv'. destruct (add_int64 0 (num t1) (num t2)) as [[] n]; injection H' as <- _; discriminate.
    + injection H' as <- _. discriminate.
Qed.

Lemma sub_cases d0 a b : valid a -> valid b ->
  (exists x y w, least a b x y w /\ (w <= 255)%nat /\ in64 (x - y) /\ subtract d0 a b = Ok (Success, reduce (mkd (x - y) w))) \/
  ((forall x y w, aligned (qval a) (qval b) x y w -> ~ in64 (x - y)) /\
   forall rv r, subtract d0 a b = Ok (rv, r) -> rv <> Success).
Proof.
  intros Va Vb. unfold subtract. destruct (prep_red a b Va Vb) as [(x & y & w & Lw & W & _ & _ & _ & E)|(N & T)].
  - rewrite E. cbn [bind num nd]. pose proof Lw as ((F1 & F2 & _) & M). apply fits_in64 in F1, F2.
    match goal with |- context [if ?c then Ok (Overflow, _) else _] => destruct c eqn:C end.
    + assert (B : ~ in64 (x - y)) by (unfold fits, in64, imin, imax in *; lia).
      right. split.
      * intros x' y' w' (_ & _ & H1 & H2) I. destruct (M x' y' w' H1 H2) as (j & _ & -> & ->). apply B.
        pose proof (p10_pos j). unfold fits, in64, imin, imax in *. nia.
      * intros rv r H. injection H as <- _. discriminate.
    + assert (B : in64 (x - y)).
      { clear - F1 F2 C. apply orb_false_iff in C as [C1 C2]. unfold fits, in64, imin, imax in *.
        apply andb_false_iff in C1, C2. rewrite !Z.ltb_ge in C1, C2.
        lia. }
      left. exists x, y, w. rewrite wrap_id by auto. auto.
  - right. split; [intros x y w H; destruct (N _ _ _ H)|].
    intros rv r H. apply bind_ok in H as ([[[rv' t1] t2]|] & H & H').
    + apply T in H. subst rv'.
      match goal with H' : context [if ?c then Ok (Overflow, _) else _] |- _ => destruct c end; injection H' as <- _; discriminate.
    + injection H' as <- _. discriminate.
Qed.

(** ** Comparison *)

Lemma transform_exact d k x : valid d -> in64 x -> (qval d == ratio x k)%Q ->
  transform d k RTrad = Ok (Success, mkd x k).
Proof.
  intros V X E. unfold qval in E. rewrite ratio_eq in E.
  destruct (le_lt_dec (nd d) k) as [L|L].
  - destruct (transform_up d k RTrad V L) as (rv & d' & -> & C).
    assert (Ex : num d * p10 (k - nd d) = x).
    { replace k with (nd d + (k - nd d))%nat in E at 1 by lia. rewrite p10_add in E. pose proof (p10_pos (nd d)).
      apply (cancel1 (p10 (nd d))); auto. }
    rewrite Ex in C. destruct C as [(-> & _ & ->)|[_ ?]]; [reflexivity|contradiction].
  - assert (Ex : num d = x * p10 (nd d - k)).
    { replace (nd d) with (k + (nd d - k))%nat in E by lia. rewrite p10_add in E. pose proof (p10_pos k).
      symmetry. apply (cancel1 (p10 k)); auto. }
    destruct (transform_down d k RTrad V L) as [(N & G & _)|(_ & H)].
    + exfalso. pose proof (p10_le 19 _ G) as P. change (p10 19) with (10 ^ 19) in P.
      destruct V as [V _]. rewrite Ex in V, N. set (z := p10 (nd d - k)) in *. clearbody z.
      unfold fits, in64, imin, imax in *. clear - V N P. assert (x <> 0) by lia. nia.
    + destruct H as (q & -> & _ & _ & H).
      { right. destruct (Z.eq_dec (num d) imin) as [I|]; auto. right. intros J. rewrite J in Ex.
        apply (imin_not_10 x). change (p10 1) with 10 in Ex. lia. }
      assert (R : Z.rem (num d) (p10 (nd d - k)) = 0) by (rewrite Ex; apply Z.rem_mul; pose proof (p10_pos (nd d - k)); lia).
      rewrite R in *. specialize (H eq_refl). rewrite Z.eqb_refl. do 3 f_equal.
      pose proof (p10_pos (nd d - k)). nia.
Qed.

Lemma cmp_aligned a b x y k : valid a -> valid b -> aligned (qval a) (qval b) x y k ->
  cmp a b = Ok (sign_of (Qcompare (qval a) (qval b))).
Proof.
  intros Va Vb Al. destruct (prep_red a b Va Vb) as [(x1 & y1 & w & ((F1 & F2 & Q1 & Q2) & _) & _ & Ew & Ex & Ey & _)|(N & _)].
  2: destruct (N _ _ _ Al).
  apply fits_in64 in F1, F2. unfold cmp. rewrite <- Ew.
  assert (L : exists t1 t2, cmp_loop a b (reduce a) (reduce b) w = Ok (t1, t2) /\ num t1 = x1 /\ num t2 = y1).
  { destruct w as [|w].
    - exists (reduce a), (reduce b). split; [reflexivity|].
      rewrite Ex, Ey. replace (0 - nd (reduce a))%nat with 0%nat by lia. replace (0 - nd (reduce b))%nat with 0%nat by lia.
      rewrite p10_0. lia.
    - cbn [cmp_loop]. rewrite (transform_exact a (S w) x1), (transform_exact b (S w) y1) by auto.
      cbn [bind rv_eqb]. do 2 eexists. split; [reflexivity|]. auto. }
  destruct L as (t1 & t2 & -> & E1 & E2). cbn [bind]. f_equal. rewrite E1, E2. rewrite Q1, Q2, ratio_compare.
  destruct (Z.compare_spec x1 y1), (Z.ltb_spec y1 x1), (Z.ltb_spec x1 y1); cbn [sign_of]; try reflexivity; lia.
Qed.

(** ** Multiplication *)

Lemma mult_loop_cases fuel : forall t1 t2 i rv n u i', mult_loop t1 t2 i fuel = Ok (rv, n, u, i') ->
  (i' = i /\ u = t1 /\ mult_int64 (num t1) (num t2) = (rv, n)) \/ (i < i')%nat.
Proof.
  induction fuel as [|fuel IH]; intros t1 t2 i rv n u i' H; cbn [mult_loop] in H;
    destruct (mult_int64 (num t1) (num t2)) as [rv0 n0];
    (destruct (negb (rv_eqb rv0 Overflow)); [injection H as <- <- <- <-; auto|]);
    (destruct (nd t1 =? 0)%nat; [injection H as <- <- <- <-; auto|]).
  - discriminate.
  - apply bind_ok in H as ([? u1] & _ & H). apply bind_ok in H as ([? u2] & _ & H).
    apply IH in H as [(-> & _ & _)|H]; right; lia.
Qed.

Lemma mult_loop_ok fuel : forall t1 t2 i, okd t1 -> okd t2 -> nd t1 = nd t2 -> (nd t1 <= fuel)%nat ->
  exists r, mult_loop t1 t2 i fuel = Ok r.
Proof.
  induction fuel as [|fuel IH]; intros t1 t2 i H1 H2 E L; cbn [mult_loop];
    destruct (mult_int64 (num t1) (num t2)) as [rv0 n0];
    (destruct (negb (rv_eqb rv0 Overflow)); [eexists; reflexivity|]);
    (destruct (Nat.eqb_spec (nd t1) 0); [eexists; reflexivity|]).
  - lia.
  - assert (D : forall t, okd t -> (nd t <> 0)%nat -> exists rv u, transform t (nd t - 1) RTrad = Ok (rv, u) /\ okd u /\ nd u = (nd t - 1)%nat).
    { intros t [V N] Hn. destruct (transform_down t (nd t - 1) RTrad V ltac:(lia)) as [(_ & ? & _)|(_ & T)]; [lia|].
      destruct T as (q & T & _ & B & _); auto. do 2 eexists. split; [exact T|]. split; [|reflexivity].
      destruct V as [V W]. unfold okd, valid, in64, imin, imax in *. cbn [num nd]. lia. }
    destruct (D t1 H1 ltac:(lia)) as (? & u1 & -> & O1 & D1). destruct (D t2 H2 ltac:(lia)) as (? & u2 & -> & O2 & D2).
    cbn [bind]. apply IH; auto; lia.
Qed.

Lemma multiply_cases d0 a b : valid a -> valid b ->
  (exists x y w, least a b x y w /\ (w <= 255)%nat /\ in64 (x * y) /\
     multiply d0 a b = Ok (Success, reduce (mkd (x * y) ((w * 2) mod 256)))) \/
  ((forall x y w, aligned (qval a) (qval b) x y w -> ~ in64 (x * y)) /\
   forall rv r, multiply d0 a b = Ok (rv, r) -> rv <> Success).
Proof.
  intros Va Vb. unfold multiply. destruct (prep_red a b Va Vb) as [(x & y & w & Lw & W & _ & _ & _ & E)|(N & T)].
  - rewrite E. cbn [bind num nd]. pose proof Lw as ((F1 & F2 & _) & M). apply fits_in64 in F1, F2.
    destruct (in64b (x * y)) eqn:B.
    + left. exists x, y, w. split; auto. split; auto. pose proof B as I. apply in64b_iff in I. split; auto.
      assert (ML : mult_loop (mkd x w) (mkd y w) 0 w = Ok (Success, x * y, mkd x w, 0%nat)).
      { destruct w; cbn [mult_loop num nd]; rewrite mult_spec, B, wrap_id by auto; reflexivity. }
      rewrite ML. reflexivity.
    + apply in64b_false in B. right. split.
      * intros x' y' w' (_ & _ & H1 & H2) I. destruct (M x' y' w' H1 H2) as (j & _ & -> & ->). apply B.
        pose proof (p10_pos j). assert (1 <= p10 j * p10 j) by nia.
        assert (Z.abs (x * y) <= Z.abs (x * p10 j * (y * p10 j))).
        { replace (x * p10 j * (y * p10 j)) with (x * y * (p10 j * p10 j)) by ring. rewrite Z.abs_mul. nia. }
        replace (x * p10 j * (y * p10 j)) with (x * y * (p10 j * p10 j)) in I by ring.
        unfold fits, in64, imin, imax in *. nia.
      * intros rv r H. apply bind_ok in H as ([[[rv' n] t1] i] & H & H').
        destruct (rv_eqb rv' Success) eqn:R; cbn [negb] in H'; [|injection H' as <- _; intros ->; discriminate].
        apply mult_loop_cases in H as [(-> & -> & H)|H].
        -- cbn [num] in H. rewrite mult_spec in H by auto. apply in64b_false in B. rewrite B in H. injection H as <- _. discriminate.
        -- injection H' as <- _. destruct (Nat.eqb_spec i 0); [lia|]. cbn [negb orb]. discriminate.
  - right. split; [intros x y w H; destruct (N _ _ _ H)|].
    intros rv r H. apply bind_ok in H as ([[[rv' t1] t2]|] & H & H').
    + apply T in H. subst rv'. apply bind_ok in H' as ([[[rv' n] u1] i] & _ & H').
      destruct (rv_eqb rv' Success) eqn:R; cbn [negb] in H'; [|injection H' as <- _; intros ->; discriminate].
      rewrite orb_true_r in H'. injection H' as <- _. discriminate.
    + injection H' as <- _. discriminate.
Qed.

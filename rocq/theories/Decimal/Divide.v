(** Lemmas about decimal division without rounding. *)
From Coq Require Import QArith Qabs.
From Verif Require Import Base.Lib Decimal.Model Decimal.Spec Decimal.Arith Decimal.Proofs.
Local Open Scope Z_scope.

Lemma prep_plain a b : valid a -> valid b ->
  let w := Nat.max (nd a) (nd b) in
  let x := num a * p10 (w - nd a) in let y := num b * p10 (w - nd b) in
  (in64 x /\ in64 y /\ prepmath a b false = Ok (Some (Success, mkd x w, mkd y w))) \/
  (~ (in64 x /\ in64 y) /\ forall rv t1 t2, prepmath a b false = Ok (Some (rv, t1, t2)) -> rv = Truncation).
Proof.
  intros Va Vb w x y. unfold prepmath. fold w.
  destruct (prep_loop_first a b a b w Va Vb ltac:(unfold w; lia) ltac:(unfold w; lia)) as [(I1 & I2 & E)|(I & E)]; rewrite E.
  - left. split; auto. split; auto. cbn [bind]. now rewrite Nat.eqb_refl.
  - right. split; auto. intros rv t1 t2 H. apply bind_ok in H as ([[[u1 u2] k']|] & H & H'); [|discriminate].
    injection H' as <- _ _. destruct w as [|w']; [discriminate|]. apply prep_loop_le in H.
    destruct (Nat.eqb_spec k' (S w')); [lia|reflexivity].
Qed.

Lemma loop1_spec rem : in64 rem -> forall w re rv0 remexp w', (w <= 18)%nat -> (rv0 = Overflow \/ w <> 0%nat) ->
  div_loop1 rem re w rv0 = inr (Success, remexp, w') ->
  (1 <= w' <= w)%nat /\ remexp = rem * p10 w' /\ in64 remexp.
Proof.
  intros Hr. induction w as [|w IH]; intros re rv0 remexp w' Hw H0 H; cbn [div_loop1] in H.
  - injection H as -> _ _. destruct H0; [discriminate|contradiction].
  - rewrite exp_ok in H by lia. pose proof (p10_18 (S w) Hw). pose proof (p10_pos (S w)).
    rewrite mult_spec in H by (auto; unfold in64, imin, imax; lia).
    destruct (in64b (rem * p10 (S w))) eqn:B.
    + injection H as <- <-. apply in64b_iff in B. rewrite wrap_id by auto. split; [lia|auto].
    + apply IH in H; [|lia|auto]. destruct H as (? & ? & ?). split; [lia|auto].
Qed.

Lemma loop1_inl rem w : in64 rem -> (w <= 18)%nat -> forall re rv0, exists r, div_loop1 rem re w rv0 = inr r.
Proof.
  intros Hr. induction w as [|w IH]; intros Hw re rv0; cbn [div_loop1]; [eauto|].
  rewrite exp_ok by lia. destruct (mult_int64 rem (p10 (S w))) as [[] ?]; eauto; apply IH; lia.
Qed.

Lemma div10 af : in64 af -> div_int64 af af 10 RNone = Ok (if Z.rem af 10 =? 0 then Success else Truncation, Z.quot af 10).
Proof. intros H. unfold div_int64. destruct (Z.eqb_spec 10 0); [lia|]. rewrite andb_false_r. reflexivity. Qed.

Lemma loop2_spec n : in64 n -> in64 (n * 10) -> forall w dn af arv dn' af' arv' w', (1 <= w <= 18)%nat -> in64 af ->
  div_loop2 n dn af arv RNone w = Ok (inr (dn', af', arv', w')) ->
  (1 <= w' <= w)%nat /\ dn' = n * p10 w' /\ in64 dn' /\ in64 af' /\
  (arv' <> Truncation -> af = af' * p10 (w - w') /\ arv <> Truncation).
Proof.
  intros Hn Hn10. induction w as [|w IH]; intros dn af arv dn' af' arv' w' Hw Ha H; [lia|].
  cbn [div_loop2] in H. rewrite exp_ok in H by lia. pose proof (p10_18 (S w) ltac:(lia)). pose proof (p10_pos (S w)).
  rewrite mult_spec in H by (auto; unfold in64, imin, imax; lia).
  destruct (in64b (n * p10 (S w))) eqn:B.
  - injection H as <- <- <- <-. apply in64b_iff in B. rewrite wrap_id by auto. split; [lia|]. split; auto. split; auto. split; auto.
    intros Ht. rewrite Nat.sub_diag, p10_0. split; [lia|auto].
  - destruct w as [|w].
    { exfalso. apply in64b_false in B. apply B. change (p10 1) with 10. exact Hn10. }
    rewrite div10 in H by auto. cbn [bind] in H.
    apply IH in H; [|lia|].
    2:{ unfold in64, imin, imax in *. pose proof (Z.quot_rem' af 10). lia. }
    destruct H as (W & E & I & I2 & T). split; [lia|]. split; auto. split; auto. split; auto.
    intros Ht. destruct (T Ht) as (Ea & Et). destruct (Z.eqb_spec (Z.rem af 10) 0) as [R|R]; cbn [rv_eqb] in Et; [|congruence].
    split; auto. replace (S (S w) - w')%nat with (S (S w - w')) by lia. rewrite p10_S.
    pose proof (Z.quot_rem' af 10). nia.
Qed.

Lemma div_none o n y : y <> 0 -> div_int64 o n y RNone =
  if (n =? imin) && (y =? -1) then Ok (Overflow, imax) else Ok (if Z.rem n y =? 0 then Success else Truncation, Z.quot n y).
Proof. intros H. unfold div_int64. destruct (Z.eqb_spec y 0); [lia|]. reflexivity. Qed.

Lemma quot_in64 n y : in64 n -> y <> 0 -> ~ (n = imin /\ y = -1) -> in64 (Z.quot n y).
Proof.
  intros Hn Hy Hc. pose proof (Z.quot_abs n y Hy) as E. rewrite Z.quot_div_nonneg in E by (clear - Hy; lia).
  assert (Z.abs n / Z.abs y <= Z.abs n) by (apply Z.div_le_upper_bound; nia).
  unfold in64, imin, imax in *.
  destruct (Z.eq_dec n (- 2 ^ 63)) as [->|]; [|lia].
  destruct (Z.eq_dec y 1) as [->|]; [rewrite Z.quot_1_r; lia|].
  assert (Z.abs (- 2 ^ 63) / Z.abs y <= 2 ^ 62) by (apply Z.div_le_upper_bound; lia). lia.
Qed.

Lemma loop1_not_inl rem w : forall re rv0, div_loop1 rem re w rv0 <> inl Success.
Proof.
  induction w as [|w IH]; intros re rv0; cbn [div_loop1]; [discriminate|].
  destruct (exp_int64 10 (S w)) as [[] e]; try discriminate.
  destruct (mult_int64 rem e) as [[] ?]; try discriminate; apply IH.
Qed.

Lemma loop2_not_inl n r w : forall dn af arv, div_loop2 n dn af arv r w <> Ok (inl Success).
Proof.
  induction w as [|w IH]; intros dn af arv; cbn [div_loop2]; [discriminate|].
  destruct (exp_int64 10 (S w)) as [[] e]; try discriminate.
  destruct (mult_int64 n e) as [[] ?]; try discriminate;
    (destruct (div_int64 af af 10 r) as [[? ?]| |]; cbn [bind]; try discriminate; apply IH).
Qed.

Lemma loop2_trunc n r w : forall dn af dn' af' arv' w',
  div_loop2 n dn af Truncation r w = Ok (inr (dn', af', arv', w')) -> arv' = Truncation.
Proof.
  induction w as [|w IH]; intros dn af dn' af' arv' w' H; cbn [div_loop2] in H.
  - now injection H as _ _ <- _.
  - destruct (exp_int64 10 (S w)) as [[] e]; try discriminate.
    destruct (mult_int64 n e) as [[] ?]; try (injection H as _ _ <- _; reflexivity);
      (apply bind_ok in H as ([r1 a1] & _ & H); destruct (rv_eqb r1 Truncation); apply IH in H; auto).
Qed.

(** A run that ends with success went through all the stages. *)
Lemma divide_stages d0 a b r : valid a -> valid b -> divide d0 a b RNone = Ok (Success, r) ->
  let w := Nat.max (nd a) (nd b) in
  let x := num a * p10 (w - nd a) in let y := num b * p10 (w - nd b) in
  in64 x /\ in64 y /\ y <> 0 /\
  exists remexp w1 dn af arv w2,
    div_loop1 (Z.rem x y) 0 18 Success = inr (Success, remexp, w1) /\
    Z.rem remexp y = 0 /\ ~ (remexp = imin /\ y = -1) /\ ~ (x = imin /\ y = -1) /\
    div_loop2 (Z.quot x y) 0 (Z.quot remexp y) Success RNone w1 = Ok (inr (dn, af, arv, w2)) /\
    arv <> Truncation /\
    (w2 <> 0%nat -> in64 (dn + af) /\ r = reduce (mkd (dn + af) w2)).
Proof.
  intros Va Vb H w x y. unfold divide in H.
  apply bind_ok in H as ([[[rv0 t1] t2]|] & P & H); [|discriminate].
  destruct (Z.eqb_spec (num t2) 0) as [|Hy]; [discriminate|].
  destruct ((num t1 =? imin) && (num t2 =? -1)) eqn:C; [discriminate|].
  destruct (div_loop1 _ _ _ _) as [rv1|[[rv1 remexp] w1]] eqn:L1.
  { injection H as -> _. destruct (loop1_not_inl _ _ _ _ L1). }
  destruct (rv_eqb rv1 Success) eqn:R1; cbn [negb] in H; [|injection H as -> _; discriminate R1].
  destruct rv1; try discriminate R1. rewrite div_none in H by auto.
  destruct ((remexp =? imin) && (num t2 =? -1)) eqn:C2; [discriminate H|].
  cbn [bind] in H.
  assert (K : rv_eqb (if Z.rem remexp (num t2) =? 0 then Success else Truncation) Success
    || rv_eqb (if Z.rem remexp (num t2) =? 0 then Success else Truncation) Truncation = true)
    by (destruct (Z.rem remexp (num t2) =? 0); reflexivity).
  rewrite <- negb_orb, K in H. cbn [negb] in H. clear K.
  apply bind_ok in H as ([rv2|[[[dn af] arv] w2]] & L2 & H).
  { injection H as -> _. destruct (loop2_not_inl _ _ _ _ _ _ L2). }
  apply bind_ok in H as (dn2 & D & H). injection H as H <-.
  destruct (rv_eqb arv Truncation) eqn:Ra; cbn [orb] in H; [discriminate H|].
  destruct (rv_eqb rv0 Truncation) eqn:Rp; [discriminate H|].
  destruct (Z.eqb_spec (Z.rem remexp (num t2)) 0) as [R|R]; cbn [rv_eqb] in L2.
  2:{ apply loop2_trunc in L2. subst arv. discriminate Ra. }
  destruct (prep_plain a b Va Vb) as [(I1 & I2 & E)|(_ & T)].
  2:{ apply T in P. subst rv0. discriminate Rp. }
  fold w x y in I1, I2, E. rewrite P in E. injection E as -> -> ->. cbn [num] in Hy, C, L1, C2, L2, R.
  split; auto. split; auto. split; auto.
  exists remexp, w1, dn, af, arv, w2. split; auto. split; auto.
  split. { intros [A B]. rewrite A, B in C2. discriminate C2. }
  split. { intros [A B]. rewrite A, B in C. discriminate C. }
  split; auto. split. { intros ->. discriminate Ra. }
  intros Hw. destruct (Nat.eqb_spec w2 0); [contradiction|].
  unfold chk in D. destruct ((imin <=? dn + af) && (dn + af <=? imax)) eqn:B; [|discriminate D].
  injection D as <-. apply in64b_iff in B. auto.
Qed.

Lemma plain_qval a w : (nd a <= w)%nat -> (qval a == ratio (num a * p10 (w - nd a)) w)%Q.
Proof. intros H. symmetry. now apply ratio_scale_to. Qed.

Lemma ratio_abs n k : (Qabs (ratio n k) == ratio (Z.abs n) k)%Q.
Proof. unfold ratio, Qabs. reflexivity. Qed.

Lemma ratio_lt a b k : (ratio a k < ratio b k)%Q <-> a < b.
Proof. rewrite Qlt_alt, ratio_compare. reflexivity. Qed.

Lemma ratio_bound x y w K : (ratio (Z.abs x) w < inject_Z K * ratio (Z.abs y) w)%Q -> Z.abs x < K * Z.abs y.
Proof.
  intros H. apply (ratio_lt _ _ w). eapply Qlt_le_trans; [exact H|]. apply Qle_lteq. right.
  change (inject_Z K) with (ratio K 0). rewrite ratio_mult. reflexivity.
Qed.

Lemma quot_bound x y K : y <> 0 -> Z.abs x < K * Z.abs y -> Z.abs (Z.quot x y) < K.
Proof.
  intros Hy H. pose proof (Z.quot_abs x y Hy) as E. rewrite Z.quot_div_nonneg in E by (clear - Hy; lia). rewrite <- E. clear E.
  apply Z.div_lt_upper_bound; lia.
Qed.

Lemma quot_rem_bound x y P : y <> 0 -> 0 < P -> Z.abs (Z.quot (Z.rem x y * P) y) <= P.
Proof.
  intros Hy HP. pose proof (Z.rem_bound_abs x y Hy) as R. set (r := Z.rem x y) in *. clearbody r.
  pose proof (Z.quot_abs (r * P) y Hy) as Q. rewrite Z.quot_div_nonneg in Q by (clear - Hy; lia). rewrite <- Q. clear Q.
  apply Z.div_le_upper_bound; [lia|]. rewrite Z.abs_mul. nia.
Qed.

Lemma divide_exact d0 a b r : valid a -> valid b ->
  (Qabs (qval a) < inject_Z 922337203685477581 * Qabs (qval b))%Q ->
  divide d0 a b RNone = Ok (Success, r) ->
  (qval r * qval b == qval a)%Q.
Proof.
  intros Va Vb Hq H. apply divide_stages in H; auto. cbn zeta in H.
  set (w := Nat.max (nd a) (nd b)) in *.
  pose proof (plain_qval a w ltac:(lia)) as Qa. pose proof (plain_qval b w ltac:(lia)) as Qb.
  set (x := num a * p10 (w - nd a)) in *. set (y := num b * p10 (w - nd b)) in *. clearbody x y w.
  destruct H as (Ix & Iy & Hy & remexp & w1 & dn & af & arv & w2 & L1 & R & N1 & N2 & L2 & Ha & F).
  rewrite Qa, Qb in *. rewrite !ratio_abs in Hq.
  assert (Hlt : Z.abs x < 922337203685477581 * Z.abs y) by now apply (ratio_bound x y w).
  clear Hq Qa Qb Va Vb.
  pose proof (Z.rem_bound_abs x y Hy) as Rb.
  assert (Ir : in64 (Z.rem x y)) by (unfold in64, imin, imax in *; lia).
  apply loop1_spec in L1; [|auto|lia|auto]. destruct L1 as (W1 & -> & Ire).
  assert (Iq : Z.abs (Z.quot x y) <= 922337203685477580).
  { apply (quot_bound x y 922337203685477581) in Hlt; auto. clear - Hlt. lia. }
  apply loop2_spec in L2; [|clear - Iq; unfold in64, imin, imax; lia|clear - Iq; unfold in64, imin, imax; lia|clear - W1; lia|now apply quot_in64].
  destruct L2 as (W2 & -> & _ & _ & T). destruct (T Ha) as (Ea & _). destruct F as (_ & ->); [lia|].
  rewrite reduce_qval. unfold qval. cbn [num nd]. rewrite ratio_mult, ratio_eq, p10_add.
  pose proof (Z.quot_rem' x y) as D1. pose proof (Z.quot_rem' (Z.rem x y * p10 w1) y) as D2. rewrite R in D2.
  assert (D3 : Z.rem x y * p10 w2 = y * af).
  { replace w1 with ((w1 - w2) + w2)%nat in D2 at 1 by (clear - W2; lia). rewrite p10_add in D2. rewrite Ea in D2.
    apply (Z.mul_reg_r _ _ (p10 (w1 - w2))); [pose proof (p10_pos (w1 - w2)); lia|].
    set (P := p10 (w1 - w2)) in *. set (P2 := p10 w2) in *. set (rr := Z.rem x y) in *. clearbody P P2 rr. lia. }
  set (P2 := p10 w2) in *. set (Pw := p10 w) in *. set (q := Z.quot x y) in *. set (rr := Z.rem x y) in *.
  clearbody P2 Pw q rr. clear - D1 D3.
  assert (S : (q * P2 + af) * y = x * P2) by (rewrite D1; lia).
  rewrite S. ring.
Qed.

(** No undefined behaviour as long as the quotient is below 9. *)
Lemma divide_small d0 a b : valid a -> valid b ->
  let w := Nat.max (nd a) (nd b) in
  let x := num a * p10 (w - nd a) in let y := num b * p10 (w - nd b) in
  in64 x -> in64 y -> Z.abs x < 9 * Z.abs y -> exists rv r, divide d0 a b RNone = Ok (rv, r).
Proof.
  intros Va Vb w x y Ix Iy Hlt. unfold divide.
  destruct (prep_plain a b Va Vb) as [(_ & _ & E)|(N & _)]; [|tauto].
  fold w x y in E.  rewrite E. cbn [bind num]. destruct (Z.eqb_spec y 0) as [|Hy]; [eauto|].
  destruct ((x =? imin) && (y =? -1)) eqn:C; [eauto|].
  pose proof (Z.rem_bound_abs x y Hy) as Rb.
  assert (Ir : in64 (Z.rem x y)) by (unfold in64, imin, imax in *; lia).
  destruct (div_loop1 (Z.rem x y) 0 18 Success) as [rv1|[[rv1 remexp] w1]] eqn:L1; [eauto|].
  destruct (rv_eqb rv1 Success) eqn:R1; cbn [negb]; [|eauto]. destruct rv1; try discriminate R1.
  apply loop1_spec in L1; [|auto|lia|auto]. destruct L1 as (W1 & -> & Ire).
  rewrite div_none by auto. destruct ((Z.rem x y * p10 w1 =? imin) && (y =? -1)) eqn:C2; [cbn; eauto|].
  cbn [bind]. match goal with |- context [if ?c then _ else _] => destruct c end; [eauto|].
  assert (Iq : Z.abs (Z.quot x y) <= 8).
  { apply (quot_bound x y 9) in Hlt; auto. clear - Hlt. lia. }
  assert (Af : Z.abs (Z.quot (Z.rem x y * p10 w1) y) <= 10 ^ 18).
  { etransitivity; [apply quot_rem_bound; auto using p10_pos|]. apply p10_18. lia. }
  match goal with |- context [div_loop2 _ _ _ ?v _ _] => generalize v end. intros arv.
  destruct w1 as [|w1]; [lia|]. cbn [div_loop2]. rewrite exp_ok by lia.
  pose proof (p10_18 (S w1) ltac:(lia)) as P1. pose proof (p10_pos (S w1)) as P2.
  set (P := p10 (S w1)) in *. set (q := Z.quot x y) in *.
  assert (B : Z.abs (q * P) <= 8 * 10 ^ 18).
  { clear - Iq P1 P2. clearbody q P. rewrite Z.abs_mul, (Z.abs_eq P) by lia. nia. }
  clearbody q P. set (af := Z.quot _ y) in *. clearbody af. clear - Iq P1 P2 B Af.
  rewrite mult_spec by (unfold in64, imin, imax in *; lia).
  rewrite (proj2 (in64b_iff _)) by (unfold in64, imin, imax; lia). rewrite wrap_id by (unfold in64, imin, imax; lia).
  cbn [bind]. destruct (Nat.eqb_spec (S w1) 0); [lia|].
  rewrite chk_ok by (unfold in64, imin, imax; lia). cbn [bind]. eauto.
Qed.

(** Lemmas about the decimal model: machine arithmetic and rounding division. *)
From Verif Require Import Base.Lib Decimal.Model Decimal.Spec.
Local Open Scope Z_scope.

Definition p10 (n : nat) : Z := 10 ^ Z.of_nat n.

Lemma p10_pos n : 0 < p10 n.
Proof. unfold p10. apply Z.pow_pos_nonneg; lia. Qed.
Lemma p10_0 : p10 0 = 1.
Proof. reflexivity. Qed.
Lemma p10_S n : p10 (S n) = 10 * p10 n.
Proof. unfold p10. rewrite Nat2Z.inj_succ, Z.pow_succ_r; lia. Qed.
Lemma p10_add a b : p10 (a + b) = p10 a * p10 b.
Proof. unfold p10. rewrite Nat2Z.inj_add, Z.pow_add_r; lia. Qed.
Lemma p10_le a b : (a <= b)%nat -> p10 a <= p10 b.
Proof. unfold p10. intros. apply Z.pow_le_mono_r; lia. Qed.
Lemma p10_18 a : (a <= 18)%nat -> p10 a <= 10 ^ 18.
Proof. intros. change (10 ^ 18) with (p10 18). now apply p10_le. Qed.

Lemma fits_in64 z : fits z <-> in64 z.
Proof. unfold fits, in64, imin, imax. lia. Qed.

(** ** Machine arithmetic *)

Lemma wrap_id z : in64 z -> wrap z = z.
Proof. unfold wrap, in64, imin, imax. intros. rewrite Z.mod_small; lia. Qed.

Lemma wrap_in64 z : in64 (wrap z).
Proof. unfold wrap, in64, imin, imax. pose proof (Z.mod_pos_bound (z + 2 ^ 63) (2 ^ 64)). lia. Qed.

Lemma chk_ok z : in64 z -> chk z = Ok z.
Proof.
  unfold chk, in64. intros [A B]. destruct (Z.leb_spec imin z); [|lia]. destruct (Z.leb_spec z imax); [|lia]. reflexivity.
Qed.

Definition in64b (z : Z) : bool := (imin <=? z) && (z <=? imax).
Lemma in64b_iff z : in64b z = true <-> in64 z.
Proof. unfold in64b, in64. rewrite andb_true_iff, !Z.leb_le. reflexivity. Qed.
Lemma in64b_false z : in64b z = false <-> ~ in64 z.
Proof. rewrite <- in64b_iff. destruct (in64b z); intuition congruence. Qed.

Lemma quot_neg_l a b : 0 <= a -> 0 < b -> Z.quot (- a) b = - (a / b).
Proof. intros. rewrite Z.quot_opp_l by lia. now rewrite Z.quot_div_nonneg by lia. Qed.
Lemma quot_neg_r a b : 0 <= a -> b < 0 -> Z.quot a b = - (a / - b).
Proof. intros. replace b with (- - b) at 1 by lia. rewrite Z.quot_opp_r by lia. now rewrite Z.quot_div_nonneg by lia. Qed.

Lemma le_div a b c : 0 < b -> (c <= a / b <-> c * b <= a).
Proof.
  intros Hb. split; intros H.
  - pose proof (Z.mul_div_le a b Hb). nia.
  - apply Z.div_le_lower_bound; lia.
Qed.

Lemma mult_spec a b : in64 a -> in64 b ->
  mult_int64 a b = (if in64b (a * b) then Success else Overflow, wrap (a * b)).
Proof.
  intros Ha Hb. unfold mult_int64.
  assert (K : forall (x y : rvt * Z) (c : bool) (P : Prop), (c = true <-> ~ P) -> (in64b (a * b) = true <-> P) ->
    x = (Overflow, wrap (a * b)) -> y = (Success, wrap (a * b)) ->
    (if c then x else y) = (if in64b (a * b) then Success else Overflow, wrap (a * b))).
  { intros x y c P Hc Hp -> ->. destruct c, (in64b (a * b)); try reflexivity; exfalso.
    - destruct Hc as [Hc _], Hp as [Hp _]. apply Hc; auto.
    - destruct Hc as [_ Hc], Hp as [_ Hp]. discriminate Hc. intros p. discriminate (Hp p). }
  unfold in64, imin, imax in *.
  destruct (Z.ltb_spec 0 a), (Z.ltb_spec 0 b).
  - apply (K _ _ _ (a * b <= imax)); auto.
    + rewrite Z.ltb_lt. unfold imax. rewrite Z.quot_div_nonneg by lia.
      pose proof (le_div (2 ^ 63 - 1) b a ltac:(lia)). lia.
    + rewrite in64b_iff. unfold in64, imin, imax. nia.
  - apply (K _ _ _ (imin <= a * b)); auto.
    + rewrite Z.ltb_lt. unfold imin. rewrite quot_neg_l by lia.
      pose proof (le_div (2 ^ 63) a (- b) ltac:(lia)). nia.
    + rewrite in64b_iff. unfold in64, imin, imax. nia.
  - apply (K _ _ _ (imin <= a * b)); auto.
    + rewrite Z.ltb_lt. unfold imin. rewrite quot_neg_l by lia.
      pose proof (le_div (2 ^ 63) b (- a) ltac:(lia)). nia.
    + rewrite in64b_iff. unfold in64, imin, imax. nia.
  - apply (K _ _ _ (a * b <= imax)); auto.
    + rewrite andb_true_iff, negb_true_iff, Z.eqb_neq, Z.ltb_lt. unfold imax.
      destruct (Z.eq_dec a 0) as [->|Hn]; [lia|].
      rewrite quot_neg_r by lia. pose proof (le_div (2 ^ 63 - 1) (- a) (- b) ltac:(lia)). nia.
    + rewrite in64b_iff. unfold in64, imin, imax. nia.
Qed.

Lemma add_spec o a b : in64 a -> in64 b ->
  add_int64 o a b = if in64b (a + b) then (Success, a + b) else (Overflow, o).
Proof.
  intros Ha Hb. unfold add_int64, in64b, in64, imin, imax in *.
  destruct (Z.ltb_spec 0 b), (Z.ltb_spec (2 ^ 63 - 1 - b) a), (Z.ltb_spec b 0), (Z.ltb_spec a (- 2 ^ 63 - b)),
    (Z.leb_spec (- 2 ^ 63) (a + b)), (Z.leb_spec (a + b) (2 ^ 63 - 1)); cbn [andb orb]; try reflexivity; lia.
Qed.

Lemma exp_loop_ok e : forall out, 0 < out -> out * p10 e <= imax -> exp_loop out 10 e = (Success, out * p10 e).
Proof.
  induction e as [|e IH]; intros out Ho H; cbn [exp_loop].
  - f_equal. rewrite p10_0. lia.
  - rewrite p10_S in *. pose proof (p10_pos e).
    assert (B : out * 10 <= imax) by nia.
    rewrite mult_spec by (unfold in64, imin, imax in *; lia).
    replace (in64b (out * 10)) with true by (symmetry; apply in64b_iff; unfold in64, imin in *; lia).
    rewrite wrap_id by (unfold in64, imin in *; lia).
    rewrite IH by nia. f_equal. ring.
Qed.

Lemma exp_loop_app n a : forall out b, exp_loop out n (a + b) =
  match exp_loop out n a with (Success, o) => exp_loop o n b | r => r end.
Proof.
  induction a as [|a IH]; intros out b; cbn [exp_loop Nat.add]; auto.
  destruct (mult_int64 out n) as [[] o]; auto.
Qed.

Lemma exp_ok e : (e <= 18)%nat -> exp_int64 10 e = (Success, p10 e).
Proof.
  intros H. unfold exp_int64. rewrite exp_loop_ok; [now rewrite Z.mul_1_l|lia|].
  pose proof (p10_18 e H). unfold imax. lia.
Qed.

Lemma exp_over e : (19 <= e)%nat -> exp_int64 10 e = (Overflow, wrap (10 ^ 19)).
Proof.
  intros H. unfold exp_int64. replace e with (18 + S (e - 19))%nat by lia.
  rewrite exp_loop_app. change (exp_loop 1 10 18) with (exp_int64 10 18). rewrite exp_ok by lia.
  cbn [exp_loop]. rewrite mult_spec by (vm_compute; split; discriminate). reflexivity.
Qed.

(** ** Division by a power of ten *)

Lemma sgn_cases n : n <> 0 -> (0 < n /\ Z.abs n = n) \/ (n < 0 /\ Z.abs n = - n).
Proof. lia. Qed.


(** The shape of a number around the last digits: [a = 10 m t + m g + u]. *)
Lemma digit_shape a m : 0 <= a -> 0 < m -> exists t g u,
  0 <= t /\ 0 <= g <= 9 /\ 0 <= u < m /\ a = 10 * m * t + (m * g + u) /\
  a / (10 * m) = t /\ (a / m) mod 10 = g /\ a mod (10 * m) = m * g + u.
Proof.
  intros Ha Hm. exists (a / m / 10), ((a / m) mod 10), (a mod m).
  pose proof (Z.div_pos a m Ha Hm).
  pose proof (Z.div_mod a m ltac:(lia)) as E1. pose proof (Z.mod_pos_bound a m Hm) as B1.
  pose proof (Z.div_mod (a / m) 10 ltac:(lia)) as E2. pose proof (Z.mod_pos_bound (a / m) 10 ltac:(lia)) as B2.
  set (q := a / m) in *. set (u := a mod m) in *. set (t := q / 10) in *. set (g := q mod 10) in *.
  clearbody q u t g.
  assert (B3 : 0 <= m * g + u < 10 * m) by nia.
  assert (E : a = 10 * m * t + (m * g + u)) by nia.
  assert (0 <= t) by nia.
  assert (Q : a / (10 * m) = t) by (symmetry; apply (Z.div_unique a (10 * m) t (m * g + u)); [left; lia|lia]).
  assert (R : a mod (10 * m) = m * g + u) by (symmetry; apply (Z.mod_unique a (10 * m) t (m * g + u)); [left; lia|lia]).
  rewrite Q, R. repeat split; auto; lia.
Qed.

Definition rounded (r : rnd) (n m q : Z) : Prop :=
  match r with
  | RNone => toward_zero n m q
  | RTrad => half_away n m q
  | RBank => half_even n m q <->
             ~ (m < 2 * (Z.abs n mod m) /\ 10 * (Z.abs n mod m) < 6 * m /\ Z.even (Z.abs n / m) = true)
  end.

Definition sg (n : Z) : Z := if n <? 0 then -1 else 1.

Lemma quot_sg n p : 0 < p -> Z.quot n p = sg n * (Z.abs n / p).
Proof.
  intros Hp. unfold sg. destruct (Z.ltb_spec n 0).
  - replace n with (- Z.abs n) at 1 by lia. rewrite quot_neg_l by lia. lia.
  - replace n with (Z.abs n) at 1 by lia. rewrite Z.quot_div_nonneg by lia. lia.
Qed.
Lemma rem_sg n p : 0 < p -> Z.rem n p = sg n * (Z.abs n mod p).
Proof.
  intros Hp. unfold sg. destruct (Z.ltb_spec n 0).
  - replace n with (- Z.abs n) at 1 by lia. rewrite Z.rem_opp_l by lia. rewrite Z.rem_mod_nonneg by lia. lia.
  - replace n with (Z.abs n) at 1 by lia. rewrite Z.rem_mod_nonneg by lia. lia.
Qed.

(** The result of the rounding division, in terms of [t], [g], [u]. *)
Definition rquot (r : rnd) (t g : Z) : Z :=
  match r with
  | RNone => t
  | RTrad => if 5 <=? g then t + 1 else t
  | RBank => if (5 <? g) || ((g =? 5) && Z.odd t) then t + 1 else t
  end.

Lemma div_shape o n m r : in64 n -> 0 < m -> (r = RNone \/ n <> imin \/ m <> 1) ->
  div_int64 o n (10 * m) r =
    Ok (if Z.abs n mod (10 * m) =? 0 then Success else Truncation,
        sg n * rquot r (Z.abs n / (10 * m)) ((Z.abs n / m) mod 10)).
Proof.
  intros Hn Hm Hc. unfold div_int64.
  destruct (Z.eqb_spec (10 * m) 0); [lia|]. destruct (Z.eqb_spec (10 * m) (-1)); [lia|]. rewrite andb_false_r.
  rewrite (quot_sg n (10 * m)), (rem_sg n (10 * m)) by lia.
  destruct (digit_shape (Z.abs n) m ltac:(lia) Hm) as (t & g & u & Ht & Hg & Hu & E & Q & G & R).
  rewrite Q, G, R.
  replace (sg n * (m * g + u) =? 0) with (m * g + u =? 0).
  2:{ unfold sg. destruct (n <? 0); lia. }
  destruct r; cbn [rquot bind]; auto.
  1,2: replace (Z.quot (10 * m) 10) with m by (rewrite Z.mul_comm, Z.quot_mul; lia);
    destruct (Z.eqb_spec m 0); [lia|];
    rewrite (quot_sg n m) by lia;
    assert (Ba : 0 <= Z.abs n / m <= imax)
      by (split; [apply Z.div_pos; lia|];
          destruct (Z.eq_dec m 1) as [->|]; [rewrite Z.div_1_r; unfold in64, imin, imax in *; destruct Hc as [|[|]]; try discriminate; lia|];
          apply Z.div_le_upper_bound; unfold in64, imin, imax in *; nia);
    rewrite chk_ok by (unfold sg, in64, imin, imax in *; destruct (n <? 0); lia); cbn [bind];
    assert (A : m_abs (sg n * (Z.abs n / m)) = Ok (Z.abs n / m))
      by (unfold m_abs, sg; destruct (Z.ltb_spec n 0);
          [destruct (Z.ltb_spec (-1 * (Z.abs n / m)) 0); [rewrite chk_ok by (unfold in64, imin in *; lia); f_equal; lia|f_equal; lia]
          |destruct (Z.ltb_spec (1 * (Z.abs n / m)) 0); [lia|f_equal; lia]]);
    rewrite A; cbn [bind];
    rewrite (Z.rem_mod_nonneg (Z.abs n / m) 10) by lia; rewrite G;
    assert (Bt : in64 (t + 1)) by (unfold in64, imin, imax in *; nia);
    assert (Bt' : in64 (- (t + 1))) by (unfold in64, imin, imax in *; lia);
    assert (Hz : n = 0 -> g = 0) by (intros ->; nia).
  - unfold sg. destruct (Z.ltb_spec 0 n), (Z.ltb_spec n 0); try lia; cbn [andb].
    + destruct (Z.leb_spec 5 g), (Z.ltb_spec 5 g); try lia.
      * rewrite chk_ok by (unfold in64 in *; lia). cbn [bind]. do 2 f_equal; lia.
      * destruct (Z.eqb_spec g 5); [|lia]. rewrite chk_ok by (unfold in64 in *; lia). cbn [bind]. do 2 f_equal; lia.
      * destruct (Z.eqb_spec g 5); [lia|]. cbn [bind]. do 2 f_equal; lia.
    + destruct (Z.leb_spec 5 g), (Z.ltb_spec 5 g); try lia.
      * rewrite chk_ok by (replace (-1 * t - 1) with (- (t + 1)) by lia; auto). cbn [bind]. do 2 f_equal; lia.
      * destruct (Z.eqb_spec g 5); [|lia]. rewrite chk_ok by (replace (-1 * t - 1) with (- (t + 1)) by lia; auto). cbn [bind]. do 2 f_equal; lia.
      * destruct (Z.eqb_spec g 5); [lia|]. cbn [bind]. do 2 f_equal; lia.
    + rewrite Hz by lia. reflexivity.
  - assert (O : m_abs (sg n * t) = Ok t).
    { unfold m_abs, sg. destruct (Z.ltb_spec n 0).
      - destruct (Z.ltb_spec (-1 * t) 0); [rewrite chk_ok by (unfold in64 in *; lia); f_equal; lia|f_equal; lia].
      - destruct (Z.ltb_spec (1 * t) 0); [lia|f_equal; lia]. }
    rewrite O. cbn [bind].
    assert (P : negb (Z.rem (Z.rem t 10) 2 =? 0) = Z.odd t).
    { rewrite (Z.rem_mod_nonneg t 10) by lia. rewrite Z.rem_mod_nonneg by (pose proof (Z.mod_pos_bound t 10); lia).
      replace ((t mod 10) mod 2) with (t mod 2) by lia. rewrite Zmod_odd.
      destruct (Z.odd t); reflexivity. }
    rewrite P. unfold sg in *. destruct (Z.ltb_spec 0 n), (Z.ltb_spec n 0); try lia; cbn [andb].
    + destruct (Z.ltb_spec 5 g); cbn [orb]; [rewrite chk_ok by (unfold in64 in *; lia); cbn [bind]; do 2 f_equal; lia|].
      destruct (Z.eqb_spec g 5); cbn [andb]; [|cbn [bind]; do 2 f_equal; lia].
      destruct (Z.odd t); [rewrite chk_ok by (unfold in64 in *; lia)|]; cbn [bind]; do 2 f_equal; lia.
    + destruct (Z.ltb_spec 5 g); cbn [orb]; [rewrite chk_ok by (replace (-1 * t - 1) with (- (t + 1)) by lia; auto); cbn [bind]; do 2 f_equal; lia|].
      destruct (Z.eqb_spec g 5); cbn [andb]; [|cbn [bind]; do 2 f_equal; lia].
      destruct (Z.odd t); [rewrite chk_ok by (replace (-1 * t - 1) with (- (t + 1)) by lia; auto)|]; cbn [bind]; do 2 f_equal; lia.
    + rewrite Hz by lia. reflexivity.
Qed.

Lemma abs_diff n q p : 0 < p -> Z.abs (n - sg n * q * p) = Z.abs (Z.abs n - q * p).
Proof. intros Hp. unfold sg. destruct (Z.ltb_spec n 0); nia. Qed.

Lemma sg_cases n : sg n = 1 \/ sg n = -1.
Proof. unfold sg. destruct (n <? 0); auto. Qed.

Lemma rquot_rounded r n m : 0 < m ->
  rounded r n (10 * m) (sg n * rquot r (Z.abs n / (10 * m)) ((Z.abs n / m) mod 10)).
Proof.
  intros Hm.
  destruct (digit_shape (Z.abs n) m ltac:(lia) Hm) as (t & g & u & Ht & Hg & Hu & E & Q & G & R).
  unfold rounded. rewrite Q, G, R. set (p := 10 * m) in *.
  assert (Hr : (6 <= g -> 6 * m <= m * g + u) /\ (g = 5 -> 5 * m <= m * g + u < 6 * m) /\ (g <= 4 -> m * g + u < 5 * m)
    /\ 0 <= m * g + u < 10 * m) by (repeat split; intros; nia).
  set (x := m * g + u) in *. clearbody x.
  assert (S2 : forall q, Z.abs (sg n * q * p) = Z.abs q * p).
  { intros q. destruct (sg_cases n) as [-> | ->]; [|]; replace (Z.abs q * p) with (Z.abs (q * p)) by (rewrite Z.abs_mul; f_equal; lia);
      [f_equal; ring|]. rewrite <- (Z.abs_opp (q * p)). f_equal. ring. }
  assert (S3 : forall q, Z.even (sg n * q) = Z.even q).
  { intros q. destruct (sg_cases n) as [-> | ->]; rewrite Z.even_mul; reflexivity. }
  assert (Dt : Z.abs (Z.abs n - t * p) = x) by (unfold p; lia).
  assert (Du : Z.abs (Z.abs n - (t + 1) * p) = p - x) by (unfold p in *; lia).
  assert (Mt : Z.abs t * p = t * p) by (rewrite Z.abs_eq; lia).
  assert (Mu : Z.abs (t + 1) * p = t * p + p) by (rewrite Z.abs_eq; lia).
  assert (E' : Z.abs n = t * p + x) by lia.
  assert (P : p = 10 * m) by reflexivity. clearbody p.
  destruct r; cbn [rquot].
  - unfold toward_zero. rewrite abs_diff, S2, Dt, Mt by lia. lia.
  - unfold half_away. rewrite abs_diff, S2 by lia. destruct (Z.leb_spec 5 g); rewrite ?Dt, ?Du, ?Mt, ?Mu; lia.
  - unfold half_even. rewrite abs_diff, S3 by lia. rewrite <- Z.negb_even.
    destruct (Z.ltb_spec 5 g); cbn [orb]; [|destruct (Z.eqb_spec g 5); cbn [andb]; [destruct (Z.even t) eqn:Ev; cbn [negb]|]];
      rewrite ?Dt, ?Du; try rewrite Ev.
    + split; [intros _ [? [? _]]; lia|intros _; split; intros; lia].
    + split; [intros [A _] [? _]; lia|]. intros N. split; [|auto].
      destruct (Z.le_gt_cases (2 * x) p); auto. exfalso. apply N. repeat split; auto; lia.
    + rewrite Z.even_add, Ev. cbn [Bool.eqb]. split; [intros _ [_ [_ ?]]; discriminate|]. intros _. split; [lia|reflexivity].
    + split; [intros _ [? [? _]]; lia|intros _; split; intros; lia].
Qed.

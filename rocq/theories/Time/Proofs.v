(** Lemmas about broken-down times. *)
From Verif Require Import Base.Lib Time.Model Time.Spec.
Local Open Scope Z_scope.

Definition fits (z : Z) : Prop := - 2 ^ 63 <= z <= 2 ^ 63 - 1.

Lemma chk_ok z : fits z -> chk z = Ok z.
Proof. unfold fits, chk. intros H. destruct (Z.leb_spec (- 2 ^ 63) z), (Z.leb_spec z (2 ^ 63 - 1)); try lia. reflexivity. Qed.

(** ** Calendar facts *)

Lemma month_length_bounds y m : 28 <= month_length y m <= 31.
Proof. unfold month_length. repeat match goal with |- context [if ?c then _ else _] => destruct c end; lia. Qed.

Lemma before_year_le y k : 0 <= k -> before_year y + 365 * k <= before_year (y + k) <= before_year y + 366 * k.
Proof.
  intros H. revert k H. apply (natlike_ind (fun k => before_year y + 365 * k <= before_year (y + k) <= before_year y + 366 * k)).
  - replace (y + 0) with y by lia. lia.
  - intros k Hk IH. replace (y + Z.succ k) with (y + k + 1) by lia. rewrite year_step. destruct (leap (y + k)); lia.
Qed.

Lemma before_month_mono y m n : 1 <= m -> 0 <= n -> before_month y m + 28 * n <= before_month y (m + n).
Proof.
  intros Hm H. revert n H. apply (natlike_ind (fun n => before_month y m + 28 * n <= before_month y (m + n))).
  - replace (m + 0) with m by lia. lia.
  - intros n Hn IH. replace (m + Z.succ n) with (m + n + 1) by lia. rewrite month_step by lia.
    pose proof (month_length_bounds y (m + n)). lia.
Qed.

Lemma date_in_year y m d : valid_date y m d -> 0 <= before_month y m + (d - 1) < (if leap y then 366 else 365).
Proof.
  intros [Hm Hd]. rewrite <- year_length. pose proof (before_month_mono y 1 (m - 1) ltac:(lia) ltac:(lia)) as A.
  replace (1 + (m - 1)) with m in A by lia. change (before_month y 1) with 0 in A.
  pose proof (before_month_mono y (m + 1) (12 - m) ltac:(lia) ltac:(lia)) as B.
  replace (m + 1 + (12 - m)) with 13 in B by lia. rewrite month_step in B by lia. lia.
Qed.

(** A day number determines its date. *)
Lemma date_unique y m d y' m' d' : valid_date y m d -> valid_date y' m' d' ->
  day_number y m d = day_number y' m' d' -> y = y' /\ m = m' /\ d = d'.
Proof.
  intros V V' E. unfold day_number in E.
  pose proof (date_in_year _ _ _ V) as B. pose proof (date_in_year _ _ _ V') as B'.
  assert (y = y').
  { destruct (Z.lt_total y y') as [L|[L|L]]; auto; exfalso.
    - pose proof (before_year_le (y + 1) (y' - (y + 1)) ltac:(lia)) as M. replace (y + 1 + (y' - (y + 1))) with y' in M by lia.
      rewrite year_step in M. lia.
    - pose proof (before_year_le (y' + 1) (y - (y' + 1)) ltac:(lia)) as M. replace (y' + 1 + (y - (y' + 1))) with y in M by lia.
      rewrite year_step in M. lia. }
  subst y'. destruct V as [Vm Vd], V' as [Vm' Vd']. clear B B'.
  destruct (Z.lt_total m m') as [L|[->|L]].
  - pose proof (before_month_mono y (m + 1) (m' - (m + 1)) ltac:(lia) ltac:(lia)) as M. replace (m + 1 + (m' - (m + 1))) with m' in M by lia.
    rewrite month_step in M by lia. lia.
  - lia.
  - pose proof (before_month_mono y (m' + 1) (m - (m' + 1)) ltac:(lia) ltac:(lia)) as M. replace (m' + 1 + (m - (m' + 1))) with m in M by lia.
    rewrite month_step in M by lia. lia.
Qed.

(** ** The tables *)

Lemma rem_mod0 y k : k <> 0 -> (Z.rem y k =? 0) = (y mod k =? 0).
Proof.
  intros H. apply eq_true_iff_eq. rewrite !Z.eqb_eq, Z.rem_divide by auto. rewrite Z.mod_divide by auto. reflexivity.
Qed.

Lemma leap_ok y : is_leapyear y = leap y.
Proof.
  unfold is_leapyear, leap, divides. rewrite !rem_mod0 by lia.
  assert (A : y mod 400 = 0 -> y mod 4 = 0).
  { intros H. apply Z.mod_divide in H; [|lia]. apply Z.mod_divide; [lia|]. eapply Z.divide_trans; [|exact H]. now exists 100. }
  destruct (Z.eqb_spec (y mod 4) 0), (Z.eqb_spec (y mod 100) 0), (Z.eqb_spec (y mod 400) 0); cbn [andb orb negb]; tauto.
Qed.

Lemma mdays_ok y m : 0 <= m <= 11 -> mdays (leap y) m = Ok (month_length y (m + 1)).
Proof.
  intros H. assert (m = 0 \/ m = 1 \/ m = 2 \/ m = 3 \/ m = 4 \/ m = 5 \/ m = 6 \/ m = 7 \/ m = 8 \/ m = 9 \/ m = 10 \/ m = 11) as C by lia.
  unfold month_length. repeat (destruct C as [-> | C]; [destruct (leap y); reflexivity|]). subst. destruct (leap y); reflexivity.
Qed.

Lemma add_months_ok y n : forall i acc, 0 <= i -> i + Z.of_nat n <= 12 -> fits acc -> fits (acc + 31 * Z.of_nat n) ->
  add_months (leap y) i n acc = Ok (acc + before_month y (i + Z.of_nat n + 1) - before_month y (i + 1)).
Proof.
  induction n as [|n IH]; intros i acc Hi Hn F1 F2; cbn [add_months].
  - rewrite Z.add_0_r. f_equal. lia.
  - rewrite mdays_ok by lia. cbn [bind]. pose proof (month_length_bounds y (i + 1)). unfold fits in *.
    rewrite chk_ok by (unfold fits; lia). cbn [bind]. rewrite IH by lia. f_equal.
    rewrite (month_step y (i + 1)) by lia. replace (i + 1 + Z.of_nat n + 1) with (i + Z.of_nat (S n) + 1) by lia. lia.
Qed.

(** ** Normalisation *)

Lemma neg_div k m : 0 < m -> k < 0 -> k / m = - Z.quot (- k + (m - 1)) m /\ k mod m = m - 1 - Z.rem (- k + (m - 1)) m.
Proof.
  intros Hm Hk. pose proof (Z.quot_rem' (- k + (m - 1)) m) as E.
  pose proof (Z.rem_bound_pos (- k + (m - 1)) m ltac:(lia) Hm) as B.
  set (q := Z.quot _ m) in *. set (r := Z.rem _ m) in *. clearbody q r.
  assert (K : k = m * (- q) + (m - 1 - r)) by lia.
  rewrite K. split.
  - rewrite Z.mul_comm, Z.div_add_l, Z.div_small by lia. lia.
  - rewrite Z.add_comm, Z.mul_comm, Z.mod_add, Z.mod_small by lia. lia.
Qed.

Lemma range_ok o n max : 0 <= max < 100 -> fits n -> - (2 ^ 63 - 1 - max) <= n -> fits (o + n / (max + 1)) ->
  normalize_range o n 0 max = Ok (o + n / (max + 1), n mod (max + 1)).
Proof.
  intros Hm Fn Ln Fo. unfold normalize_range, m_abs.
  destruct (Z.ltb_spec n 0) as [L|L].
  - pose proof (neg_div n (max + 1) ltac:(lia) L) as [D M]. replace (max + 1 - 1) with max in D, M by lia.
    pose proof (Z.rem_bound_pos (- n + max) (max + 1) ltac:(lia) ltac:(lia)) as B.
    unfold fits in Fn. rewrite (chk_ok (- n)) by (unfold fits; lia). cbn [bind]. rewrite (chk_ok (- n + max)) by (unfold fits; lia). cbn [bind].
    set (q := Z.quot (- n + max) (max + 1)) in *. set (r := Z.rem (- n + max) (max + 1)) in *. clearbody q r.
    rewrite D in *. rewrite M. clear D M.
    replace (o - q) with (o + - q) by lia. rewrite chk_ok by exact Fo. cbn [bind].
    destruct (Z.gtb_spec (max - r) max); [lia|]. reflexivity.
  - cbn [bind]. destruct (Z.gtb_spec n max) as [G|G].
    + rewrite Z.quot_div_nonneg, Z.rem_mod_nonneg by lia. rewrite chk_ok by exact Fo. reflexivity.
    + rewrite Z.div_small, Z.mod_small by lia. f_equal. f_equal. lia.
Qed.

Definition ylen (y : Z) : Z := if leap y then 366 else 365.
Lemma ylen_bounds y : 365 <= ylen y <= 366.
Proof. unfold ylen. destruct (leap y); lia. Qed.

Lemma norm_years_ok f : forall d y, Z.abs d < 2 ^ 62 -> Z.abs d < 365 * Z.of_nat f -> Z.abs y + Z.of_nat f < 2 ^ 62 ->
  exists d' y', norm_years f d y = Ok (d', y') /\ Z.abs d' < 366 /\ before_year y' + d' = before_year y + d /\
    (Z.abs d < 365 -> d' = d /\ y' = y) /\ Z.abs (y' - y) <= Z.of_nat f.
Proof.
  induction f as [|f IH]; intros d y H62 Hd Hy; [lia|]. cbn [norm_years].
  assert (A : m_abs d = Ok (Z.abs d)).
  { unfold m_abs. destruct (Z.ltb_spec d 0); [rewrite chk_ok by (unfold fits; lia)|]; f_equal; lia. }
  assert (L : (if d >? 0 then Ok (is_leapyear y) else do y0 <- chk (y - 1); Ok (is_leapyear y0)) = Ok (leap (if d >? 0 then y else y - 1))).
  { destruct (d >? 0); [now rewrite leap_ok|]. rewrite chk_ok by (unfold fits; lia). cbn [bind]. now rewrite leap_ok. }
  rewrite L, A. cbn [bind]. fold (ylen (if d >? 0 then y else y - 1)).
  pose proof (ylen_bounds (if d >? 0 then y else y - 1)) as B.
  destruct (Z.ltb_spec (Z.abs d) (ylen (if d >? 0 then y else y - 1))) as [C|C].
  { exists d, y. split; [reflexivity|]. lia. }
  destruct (Z.ltb_spec d 0) as [N|N].
  - destruct (Z.gtb_spec d 0); [lia|]. rewrite chk_ok by (unfold fits; lia). cbn [bind].
    destruct (IH (d + ylen (y - 1)) (y - 1)) as (d' & y' & E & B1 & B2 & _ & B3); [lia..|].
    exists d', y'. split; [exact E|]. split; auto. split; [|lia].
    rewrite B2. pose proof (year_step (y - 1)) as S. replace (y - 1 + 1) with y in S by lia. unfold ylen. lia.
  - destruct (Z.gtb_spec d 0); [|lia]. rewrite chk_ok by (unfold fits; lia). cbn [bind].
    destruct (IH (d - ylen y) (y + 1)) as (d' & y' & E & B1 & B2 & _ & B3); [lia..|].
    exists d', y'. split; [exact E|]. split; auto. split; [|lia].
    rewrite B2. pose proof (year_step y) as S. unfold ylen. lia.
Qed.

(** Days before the first of the month [mo] months after January of [y]. *)
Definition first (y mo : Z) : Z := before_year (y + mo / 12) + before_month (y + mo / 12) (mo mod 12 + 1).

Lemma first_norm y mo : first (y + mo / 12) (mo mod 12) = first y mo.
Proof.
  unfold first. pose proof (Z.mod_pos_bound mo 12 ltac:(lia)). rewrite (Z.div_small (mo mod 12)), (Z.mod_small (mo mod 12)) by lia.
  now rewrite Z.add_0_r.
Qed.

Lemma first_small y mo : 0 <= mo <= 11 -> first y mo = before_year y + before_month y (mo + 1).
Proof. intros H. unfold first. rewrite Z.div_small, Z.mod_small, Z.add_0_r by lia. reflexivity. Qed.

Lemma first_succ y mo : 0 <= mo <= 11 -> first y (mo + 1) = first y mo + month_length y (mo + 1).
Proof.
  intros H. rewrite (first_small y mo) by auto. destruct (Z.eq_dec mo 11) as [->|].
  - change (first y (11 + 1)) with (before_year (y + 1) + 0). rewrite year_step, <- year_length. change 13 with (11 + 1 + 1).
    rewrite (month_step y (11 + 1)) by lia. lia.
  - rewrite first_small by lia. rewrite month_step by lia. lia.
Qed.

Lemma first_pred y mo : 0 <= mo <= 11 ->
  first y (mo - 1) + month_length y ((if mo - 1 <? 0 then 11 else mo - 1) + 1) = first y mo.
Proof.
  intros H. destruct (Z.ltb_spec (mo - 1) 0).
  - assert (mo = 0) by lia. subst. change (first y (0 - 1)) with (before_year (y + -1) + before_month (y + -1) 12).
    rewrite first_small by lia. change (before_month y (0 + 1)) with 0.
    pose proof (year_step (y + -1)) as S. rewrite <- year_length in S. change 13 with (12 + 1) in S.
    rewrite (month_step (y + -1) 12) in S by lia. replace (y + -1 + 1) with y in S by lia.
    change (month_length y (11 + 1)) with 31. change (month_length (y + -1) 12) with 31 in S. lia.
  - rewrite <- first_succ by lia. f_equal. lia.
Qed.

(** The length of a month counted from January of [y]. *)
Definition mlen (y mo : Z) : Z := month_length (y + mo / 12) (mo mod 12 + 1).

Lemma mlen_pred y mo : 0 <= mo <= 11 -> mlen y (mo - 1) = month_length y ((if mo - 1 <? 0 then 11 else mo - 1) + 1).
Proof.
  intros H. unfold mlen. destruct (Z.ltb_spec (mo - 1) 0).
  - assert (mo = 0) by lia. subst. reflexivity.
  - rewrite Z.div_small, Z.mod_small, Z.add_0_r by lia. reflexivity.
Qed.

Lemma norm_months_ok f : forall d mo y, Z.abs (y + mo / 12) + 2 * Z.of_nat f < 2 ^ 62 -> Z.abs mo < 2 ^ 61 ->
  (1 <= f)%nat -> (0 <= d /\ (d < mlen y mo \/ d < 28 * Z.of_nat f) \/ d < 0 /\ - 28 * (Z.of_nat f - 1) <= d) ->
  exists d' mo' y', norm_months f d mo y = Ok (d', mo', y') /\ 0 <= mo' <= 11 /\ 0 <= d' < month_length y' (mo' + 1) /\
    first y' mo' + d' = first y mo + d.
Proof.
  induction f as [|f IH]; intros d mo y Hy Hmo Hf Hd; [lia|]. cbn [norm_months].
  rewrite range_ok; [|lia|unfold fits; lia|lia|unfold fits; change (11 + 1) with 12; lia].
  change (11 + 1) with 12. cbn [bind].
  rewrite <- (first_norm y mo). change (mlen y mo) with (month_length (y + mo / 12) (mo mod 12 + 1)) in Hd.
  pose proof (Z.mod_pos_bound mo 12 ltac:(lia)) as B. set (y1 := y + mo / 12) in *. set (m1 := mo mod 12) in *.
  clearbody y1 m1. clear y mo Hmo. rewrite leap_ok, mdays_ok by lia. cbn [bind].
  pose proof (month_length_bounds y1 (m1 + 1)) as Ml.
  destruct (Z.ltb_spec d (month_length y1 (m1 + 1))) as [L|L], (Z.geb_spec d 0) as [G|G]; cbn [andb].
  - exists d, m1, y1. split; [reflexivity|]. lia.
  - destruct (Z.ltb_spec d 0); [|lia]. rewrite mdays_ok by (destruct (Z.ltb_spec (m1 - 1) 0); lia). cbn [bind].
    pose proof (first_pred y1 m1 ltac:(lia)) as Fp. pose proof (mlen_pred y1 m1 ltac:(lia)) as Mp.
    pose proof (month_length_bounds y1 ((if m1 - 1 <? 0 then 11 else m1 - 1) + 1)) as Pl.
    set (p := month_length y1 ((if m1 - 1 <? 0 then 11 else m1 - 1) + 1)) in *. clearbody p.
    destruct (IH (d + p) (m1 - 1) y1) as (d' & mo' & y' & E & R); [lia|lia|lia|rewrite Mp; lia|].
    exists d', mo', y'. split; [exact E|]. lia.
  - destruct (Z.ltb_spec d 0); [lia|]. destruct (Z.geb_spec d (month_length y1 (m1 + 1))); [|lia].
    pose proof (first_succ y1 m1 ltac:(lia)) as Fs.
    destruct (IH (d - month_length y1 (m1 + 1)) (m1 + 1) y1) as (d' & mo' & y' & E & R); [lia..|].
    exists d', mo', y'. split; [exact E|]. lia.
  - lia.
Qed.

(** ** M_time_normalize_tm *)

(** Seconds and days of a broken-down time, the days relative to the first of its
    month. *)
Definition carry_min (t : tm) : Z := min t + sec t / 60.
Definition carry_hour (t : tm) : Z := hour t + carry_min t / 60.
Definition carry_day (t : tm) : Z := day t - 1 + carry_hour t / 24.

(** No field so large that the normalisation overflows. *)
Definition bounded (t : tm) : Prop :=
  Z.abs (month t) <= 2 ^ 60 /\ Z.abs (day t) <= 2 ^ 60 /\ Z.abs (year t) <= 2 ^ 60 /\ Z.abs (hour t) <= 2 ^ 60 /\
  Z.abs (min t) <= 2 ^ 60 /\ - (2 ^ 63 - 60) <= sec t <= 2 ^ 63 - 1.

Definition time_ok (t : tm) : Prop := 0 <= hour t < 24 /\ 0 <= min t < 60 /\ 0 <= sec t < 60.

Lemma normalize_ok t : bounded t -> exists r d' y', normalize_tm t = Ok r /\
  valid_date (year r) (month r) (day r) /\ time_ok r /\
  hour r = carry_hour t mod 24 /\ min r = carry_min t mod 60 /\ sec r = sec t mod 60 /\
  wday r = wday t /\ yday r = yday t /\ year2 r = Z.rem (year r) 100 /\
  before_year y' + d' = before_year (year t) + carry_day t /\ Z.abs d' < 366 /\
  (Z.abs (carry_day t) < 365 -> y' = year t) /\
  before_year (year r) + before_month (year r) (month r) + (day r - 1) = first y' (month t - 1) + d'.
Proof.
  intros (Bmo & Bd & By & Bh & Bmi & Bs). unfold normalize_tm.
  rewrite (chk_ok (month t - 1)) by (unfold fits; lia). cbn [bind].
  rewrite (chk_ok (day t - 1)) by (unfold fits; lia). cbn [bind].
  rewrite (range_ok (min t) (sec t)); [|lia|unfold fits; lia|lia|unfold fits; change (59 + 1) with 60; lia].
  change (59 + 1) with 60. cbn [bind]. fold (carry_min t).
  assert (Cm : Z.abs (carry_min t) <= 2 ^ 61) by (unfold carry_min; lia).
  assert (Ds : 0 <= sec t mod 60 < 60) by (apply Z.mod_pos_bound; lia).
  rewrite (range_ok (hour t) (carry_min t)); [|lia|unfold fits; lia|lia|unfold fits; change (59 + 1) with 60; clear - Cm Bh; lia].
  change (59 + 1) with 60. cbn [bind]. fold (carry_hour t).
  assert (Ch : Z.abs (carry_hour t) <= 2 ^ 61) by (unfold carry_hour; clear - Cm Bh; lia).
  assert (Dm : 0 <= carry_min t mod 60 < 60) by (apply Z.mod_pos_bound; lia).
  rewrite (range_ok (day t - 1) (carry_hour t)); [|lia|unfold fits; lia|lia|unfold fits; change (23 + 1) with 24; clear - Ch Bd; lia].
  change (23 + 1) with 24. cbn [bind]. fold (carry_day t).
  assert (Cd : Z.abs (carry_day t) <= 2 ^ 61) by (unfold carry_day; clear - Ch Bd; lia).
  assert (Dh : 0 <= carry_hour t mod 24 < 24) by (apply Z.mod_pos_bound; lia).
  set (cd := carry_day t) in *. clearbody cd.
  destruct (norm_years_ok (S (Z.to_nat (Z.abs cd / 365))) cd (year t)) as (d' & y' & E & B1 & B2 & B3 & B4);
    [clear - Cd; lia|clear; lia|clear - Cd By; lia|].
  rewrite E. cbn [bind].
  destruct (norm_months_ok 16 d' (month t - 1) y') as (d & mo & y & E2 & B5 & B6 & B7).
  { assert (Z.of_nat (S (Z.to_nat (Z.abs cd / 365))) <= 2 ^ 60) by (clear - Cd; lia).
    clear - H B4 By Bmo. lia. }
  { lia. } { lia. } { lia. }
  rewrite E2. cbn [bind]. eexists. exists d', y'. split; [reflexivity|]. cbn [month day year year2 hour min sec wday yday].
  split; [unfold valid_date; lia|]. split; [unfold time_ok; cbn [hour min sec]; auto|].
  do 6 (split; [reflexivity|]). split; auto. split; auto. split; [intros H; apply B3; auto|].
  rewrite (first_small y mo) in B7 by auto. lia.
Qed.

(** ** Going back to the epoch *)

Lemma to_epoch_ok f : forall s y, f = Z.to_nat (Z.abs (y - 1970)) -> fits s ->
  fits (s + 86400 * (before_year y - before_year 1970)) ->
  to_epoch f s y = Ok (s + 86400 * (before_year y - before_year 1970)).
Proof.
  induction f as [|f IH]; intros s y Hf Fs Ff; cbn [to_epoch].
  - assert (y = 1970) by lia. subst y. destruct (Z.eqb_spec 1970 1970); [|lia]. f_equal. lia.
  - destruct (Z.eqb_spec y 1970); [lia|]. destruct (Z.gtb_spec y 1970) as [G|G].
    + rewrite leap_ok. fold (ylen (y - 1)). pose proof (year_step (y - 1)) as S. replace (y - 1 + 1) with y in S by lia.
      fold (ylen (y - 1)) in S. pose proof (ylen_bounds (y - 1)) as B.
      pose proof (before_year_le 1970 (y - 1 - 1970) ltac:(lia)) as M. replace (1970 + (y - 1 - 1970)) with (y - 1) in M by lia.
      unfold fits in *. rewrite chk_ok by (unfold fits; lia). cbn [bind]. rewrite IH; [|lia|unfold fits; lia|unfold fits; lia].
      f_equal. lia.
    + rewrite leap_ok. fold (ylen y). pose proof (year_step y) as S. fold (ylen y) in S. pose proof (ylen_bounds y) as B.
      pose proof (before_year_le (y + 1) (1970 - (y + 1)) ltac:(lia)) as M. replace (y + 1 + (1970 - (y + 1))) with 1970 in M by lia.
      unfold fits in *. rewrite chk_ok by (unfold fits; lia). cbn [bind]. rewrite IH; [|lia|unfold fits; lia|unfold fits; lia].
      f_equal. lia.
Qed.

(** ** M_time_togm *)

Definition seconds (t : tm) : Z := hour t * 3600 + min t * 60 + sec t.

Lemma floor_day t : (if (t <? 0) && negb (Z.rem t 86400 =? 0) then Z.quot t 86400 - 1 else Z.quot t 86400) = t / 86400.
Proof.
  destruct (Z.ltb_spec t 0) as [L|L]; cbn [andb]; [|apply Z.quot_div_nonneg; lia].
  pose proof (Z.quot_rem' t 86400) as E. assert (B : -86400 < Z.rem t 86400 <= 0)
    by (pose proof (Z.rem_nonpos t 86400 ltac:(lia) ltac:(lia)); pose proof (Z.rem_bound_abs t 86400 ltac:(lia)); lia).
  set (q := Z.quot t 86400) in *. set (r := Z.rem t 86400) in *. clearbody q r. subst t.
  destruct (Z.eqb_spec r 0) as [->|N]; cbn [negb].
  - rewrite Z.add_0_r, Z.mul_comm, Z.div_mul by lia. reflexivity.
  - replace (86400 * q + r) with ((q - 1) * 86400 + (86400 + r)) by lia. rewrite Z.div_add_l, (Z.div_small (86400 + r)) by lia. lia.
Qed.

Lemma weekday_ok n : Z.abs n < 2 ^ 62 ->
  (if n <? 0 then do a <- m_abs n; rd rwdaymap (Z.to_nat (Z.rem a 7)) else rd wdaymap (Z.to_nat (Z.rem n 7))) = Ok ((n + 4) mod 7).
Proof.
  intros H. assert (K : forall k, 0 <= k < 7 -> k = 0 \/ k = 1 \/ k = 2 \/ k = 3 \/ k = 4 \/ k = 5 \/ k = 6) by lia.
  destruct (Z.ltb_spec n 0) as [L|L].
  - unfold m_abs. destruct (Z.ltb_spec n 0); [|lia]. rewrite chk_ok by (unfold fits; lia). cbn [bind].
    rewrite Z.rem_mod_nonneg by lia. pose proof (Z.mod_pos_bound (- n) 7 ltac:(lia)) as B.
    assert (E : (n + 4) mod 7 = (4 - (- n) mod 7) mod 7).
    { rewrite (Zminus_mod_idemp_r 4). f_equal. lia. }
    rewrite E. apply K in B. clear - B. repeat (destruct B as [-> | B]; [reflexivity|]). rewrite B. reflexivity.
  - rewrite Z.rem_mod_nonneg by lia. pose proof (Z.mod_pos_bound n 7 ltac:(lia)) as B.
    rewrite <- (Zplus_mod_idemp_l n). apply K in B. clear - B. repeat (destruct B as [-> | B]; [reflexivity|]). rewrite B. reflexivity.
Qed.

Lemma calc_yday_ok r : valid_date (year r) (month r) (day r) ->
  calc_yday r = Ok (before_month (year r) (month r) + (day r - 1)).
Proof.
  intros V. pose proof (date_in_year _ _ _ V) as B. pose proof V as [Hm Hd]. pose proof (month_length_bounds (year r) (month r)) as Ml.
  unfold calc_yday. rewrite chk_ok by (unfold fits; lia). cbn [bind]. rewrite leap_ok.
  rewrite add_months_ok by (unfold fits; lia). cbn [bind].
  replace (0 + Z.of_nat (Z.to_nat (month r - 1)) + 1) with (month r) by lia. change (before_month (year r) (0 + 1)) with 0.
  set (b := before_month (year r) (month r)) in *. clearbody b.
  assert (ylen (year r) <= 366) by (apply ylen_bounds). fold (ylen (year r)) in B.
  rewrite chk_ok by (unfold fits; lia). cbn [bind]. rewrite chk_ok by (unfold fits; lia). f_equal. lia.
Qed.

Lemma split_day t : 86400 * (t / 86400) + ((t / 60 / 60) mod 24 * 3600 + (t / 60) mod 60 * 60 + t mod 60) = t.
Proof.
  pose proof (Z.div_mod t 60 ltac:(lia)). pose proof (Z.div_mod (t / 60) 60 ltac:(lia)). pose proof (Z.div_mod (t / 60 / 60) 24 ltac:(lia)).
  assert (t / 60 / 60 / 24 = t / 86400) by (rewrite !Z.div_div by lia; reflexivity). lia.
Qed.

Lemma togm_ok t : - (2 ^ 63 - 60) <= t <= 2 ^ 63 - 1 -> exists r, togm t = Ok r /\
  valid_date (year r) (month r) (day r) /\ time_ok r /\
  86400 * day_number (year r) (month r) (day r) + seconds r = t /\
  wday r = (day_number (year r) (month r) (day r) + 4) mod 7 /\
  yday r = day_number (year r) (month r) (day r) - day_number (year r) 1 1 /\
  year2 r = Z.rem (year r) 100.
Proof.
  intros H. unfold togm. cbn zeta. rewrite floor_day. set (n := t / 86400).
  assert (Hn : Z.abs n < 2 ^ 62) by (unfold n; clear - H; lia).
  rewrite weekday_ok by auto. cbn [bind].
  destruct (normalize_ok (mktm 1 1 1970 0 0 0 t ((n + 4) mod 7) n)) as (r & d' & y' & E & V & T & Hh & Hmi & Hs & Hw & _ & H2 & B1 & _ & _ & B2).
  { unfold bounded. cbn [month day year hour min sec]. lia. }
  rewrite E. cbn [bind]. rewrite calc_yday_ok by auto. cbn [bind]. eexists. split; [reflexivity|].
  cbn [month day year year2 hour min sec wday yday]. unfold time_ok, seconds. cbn [hour min sec].
  unfold carry_day, carry_hour, carry_min in *. cbn [month day year hour min sec wday] in *.
  assert (C1 : 0 + t / 60 = t / 60) by lia. rewrite C1 in *. assert (C2 : 0 + t / 60 / 60 = t / 60 / 60) by lia. rewrite C2 in *.
  assert (Cd : 1 - 1 + t / 60 / 60 / 24 = n) by (change (1 - 1) with 0; rewrite Z.add_0_l; unfold n; rewrite !Z.div_div by lia; reflexivity).
  clear C1 C2.
  assert (Fi : first y' (1 - 1) = before_year y') by (rewrite first_small by lia; change (before_month y' (1 - 1 + 1)) with 0; lia).
  assert (Dn : day_number (year r) (month r) (day r) = n).
  { unfold day_number. rewrite Fi in B2. rewrite Cd in B1. lia. }
  split; auto. split; [exact T|]. rewrite Dn. split.
  { rewrite Hh, Hmi, Hs. unfold n. apply split_day. }
  split; auto. split; [|exact H2]. rewrite <- Dn. unfold day_number. change (before_month (year r) 1) with 0. lia.
Qed.

(** ** M_time_fromgm *)

Lemma fromgm_ok t : bounded t -> exists d' y',
  before_year y' + d' = before_year (year t) + carry_day t /\ Z.abs d' < 366 /\ (Z.abs (carry_day t) < 365 -> y' = year t) /\
  let T := 86400 * (first y' (month t - 1) + d' - before_year 1970) + (hour t * 3600 + min t * 60 + sec t - 86400 * (carry_hour t / 24)) in
  (- (2 ^ 63 - 60) <= T <= 2 ^ 63 - 1 -> exists r, togm T = Ok r /\ fromgm t = Ok (T, r)).
Proof.
  intros B. destruct (normalize_ok t B) as (r & d' & y' & E & V & (T1 & T2 & T3) & Hh & Hmi & Hs & _ & _ & _ & B1 & B2 & B3 & B4).
  exists d', y'. split; auto. split; auto. split; auto. cbn zeta. rewrite <- B4.
  pose proof (date_in_year _ _ _ V) as Bd. pose proof V as [Hm Hd]. pose proof (month_length_bounds (year r) (month r)) as Ml.
  set (dn := before_month (year r) (month r) + (day r - 1)) in *.
  assert (Sec : hour t * 3600 + min t * 60 + sec t - 86400 * (carry_hour t / 24) = hour r * 3600 + min r * 60 + sec r).
  { rewrite Hh, Hmi, Hs. unfold carry_hour.
    pose proof (Z.div_mod (sec t) 60 ltac:(lia)) as D1. pose proof (Z.div_mod (carry_min t) 60 ltac:(lia)) as D2.
    pose proof (Z.div_mod (hour t + carry_min t / 60) 24 ltac:(lia)) as D3. unfold carry_min in *. lia. }
  rewrite Sec. intros F. unfold fromgm. rewrite E. cbn [bind]. rewrite leap_ok.
  rewrite add_months_ok by (unfold fits; lia). cbn [bind].
  replace (0 + Z.of_nat (Z.to_nat (month r - 1)) + 1) with (month r) by lia. change (before_month (year r) (0 + 1)) with 0.
  replace (day r - 1 + before_month (year r) (month r) - 0) with dn by (unfold dn; lia).
  fold (ylen (year r)) in Bd. pose proof (ylen_bounds (year r)) as Yl.
  assert (F' : - (2 ^ 63 - 60) <= 86400 * (before_year (year r) + dn - before_year 1970) + (hour r * 3600 + min r * 60 + sec r) <= 2 ^ 63 - 1)
    by (unfold dn; lia).
  assert (Eq : 86400 * (before_year (year r) + before_month (year r) (month r) + (day r - 1) - before_year 1970) + (hour r * 3600 + min r * 60 + sec r)
    = 86400 * (before_year (year r) + dn - before_year 1970) + (hour r * 3600 + min r * 60 + sec r)) by (unfold dn; lia).
  rewrite Eq. clearbody dn. clear Eq F Sec.
  do 6 (rewrite chk_ok by (unfold fits; lia); cbn [bind]).
  rewrite to_epoch_ok; [|reflexivity|unfold fits; lia|unfold fits; lia]. cbn [bind].
  replace (sec r + (min r + (hour r + dn * 24) * 60) * 60 + 86400 * (before_year (year r) - before_year 1970))
    with (86400 * (before_year (year r) + dn - before_year 1970) + (hour r * 3600 + min r * 60 + sec r)) by lia.
  destruct (togm_ok _ F') as (r' & E' & _). exists r'. rewrite E'. cbn [bind]. auto.
Qed.

(** Properties of broken-down times: C43 and C44. *)
From Verif Require Import Base.Lib Time.Model Time.Spec Time.Proofs.
Local Open Scope Z_scope.

(** ** C43: conversion *)

(** M_time_togm gives the date and time of day of [t]: a valid date whose day
    number since the epoch, in seconds, plus the time of day is [t]; its weekday
    (the epoch was a Thursday); its day in the year.  All times except the 60
    smallest 64 bit numbers. *)
Theorem time_togm_correct : forall t, - (2 ^ 63 - 60) <= t <= 2 ^ 63 - 1 -> exists r, togm t = Ok r /\
  valid_date (year r) (month r) (day r) /\
  0 <= hour r < 24 /\ 0 <= min r < 60 /\ 0 <= sec r < 60 /\
  86400 * day_number (year r) (month r) (day r) + 3600 * hour r + 60 * min r + sec r = t /\
  wday r = (day_number (year r) (month r) (day r) + 4) mod 7 /\
  yday r = day_number (year r) (month r) (day r) - day_number (year r) 1 1 /\
  year2 r = Z.rem (year r) 100.
Proof.
  intros t H. destruct (togm_ok t H) as (r & E & V & (T1 & T2 & T3) & S & W & Y & Y2). exists r. unfold seconds in S.
  split; auto. split; auto. split; auto. split; auto. split; auto. split; [lia|auto].
Qed.
Print Assumptions time_togm_correct.

(** The date with a given day number is unique, so the date given is the only
    right one. *)
Theorem time_date_unique : forall y m d y' m' d', valid_date y m d -> valid_date y' m' d' ->
  day_number y m d = day_number y' m' d' -> (y, m, d) = (y', m', d').
Proof. intros y m d y' m' d' V V' E. destruct (date_unique _ _ _ _ _ _ V V' E) as (-> & -> & ->). reflexivity. Qed.
Print Assumptions time_date_unique.

(** Consecutive days get consecutive dates. *)
Theorem time_togm_next_day : forall t r, - (2 ^ 63 - 60) <= t <= 2 ^ 63 - 1 - 86400 -> togm t = Ok r ->
  exists r', togm (t + 86400) = Ok r' /\ (year r', month r', day r') = next_day (year r) (month r) (day r) /\
    (hour r', min r', sec r') = (hour r, min r, sec r) /\ wday r' = (wday r + 1) mod 7.
Proof.
  intros t r H E. destruct (togm_ok t ltac:(lia)) as (r0 & E0 & V & (T1 & T2 & T3) & S & W & _).
  assert (r0 = r) by congruence. subst r0. destruct (togm_ok (t + 86400) ltac:(lia)) as (r' & E' & V' & (T1' & T2' & T3') & S' & W' & _).
  exists r'. split; auto. unfold seconds in *.
  assert (D : day_number (year r') (month r') (day r') = day_number (year r) (month r) (day r) + 1) by lia.
  pose proof (next_day_number _ _ _ V) as N. destruct (next_day (year r) (month r) (day r)) as [[y m] d]. destruct N as [Vn Dn].
  split; [apply time_date_unique; auto; lia|]. split.
  - assert (hour r' = hour r /\ min r' = min r /\ sec r' = sec r) as (-> & -> & ->) by lia. reflexivity.
  - rewrite W', W, D. rewrite Zplus_mod_idemp_l. f_equal. lia.
Qed.
Print Assumptions time_togm_next_day.

Lemma togm_bounded t r : - (2 ^ 63 - 60) <= t <= 2 ^ 63 - 1 -> togm t = Ok r -> bounded r.
Proof.
  intros H E. destruct (togm_ok t H) as (r0 & E0 & V & (T1 & T2 & T3) & S & _). assert (r0 = r) by congruence. subst r0.
  pose proof (date_in_year _ _ _ V) as Dy. fold (ylen (year r)) in Dy. pose proof (ylen_bounds (year r)) as Yl.
  destruct V as [Vm Vd]. pose proof (month_length_bounds (year r) (month r)) as Ml.
  unfold day_number, seconds in S. unfold bounded.
  assert (Y : Z.abs (year r) <= 2 ^ 60).
  { set (b := before_month _ _) in *. clearbody b. clear - S Dy Yl T1 T2 T3 H.
    destruct (Z.le_gt_cases 1970 (year r)) as [L|L].
    - pose proof (before_year_le 1970 (year r - 1970) ltac:(lia)) as M. replace (1970 + (year r - 1970)) with (year r) in M by lia. lia.
    - pose proof (before_year_le (year r) (1970 - year r) ltac:(lia)) as M. replace (year r + (1970 - year r)) with 1970 in M by lia. lia. }
  clear S Dy. lia.
Qed.

(** Converting back gives the same time, and leaves the fields as they are. *)
Theorem time_roundtrip : forall t r, - (2 ^ 63 - 60) <= t <= 2 ^ 63 - 1 -> togm t = Ok r -> fromgm r = Ok (t, r).
Proof.
  intros t r H E. pose proof (togm_bounded t r H E) as B.
  destruct (togm_ok t H) as (r0 & E0 & V & (T1 & T2 & T3) & S & _). assert (r0 = r) by congruence. subst r0.
  destruct (fromgm_ok r B) as (d' & y' & B1 & _ & B3 & F). cbn zeta in F.
  assert (C : carry_min r = min r /\ carry_hour r = hour r /\ carry_day r = day r - 1).
  { assert (C1 : carry_min r = min r) by (unfold carry_min; lia).
    assert (C2 : carry_hour r = hour r) by (unfold carry_hour; rewrite C1; clear C1; lia).
    split; auto. split; auto. unfold carry_day. rewrite C2. clear C1 C2. lia. }
  destruct C as (C1 & C2 & C3). rewrite C3 in *. rewrite C2 in *. pose proof V as [Vm Vd].
  pose proof (month_length_bounds (year r) (month r)) as Ml. specialize (B3 ltac:(lia)). subst y'.
  assert (d' = day r - 1) by lia. subst d'. rewrite (Z.div_small (hour r) 24) in F by lia. rewrite first_small in F by lia.
  replace (month r - 1 + 1) with (month r) in F by lia. unfold day_number, seconds in S.
  assert (Eq : 86400 * (before_year (year r) + before_month (year r) (month r) + (day r - 1) - before_year 1970) +
    (hour r * 3600 + min r * 60 + sec r - 86400 * 0) = t) by lia.
  rewrite Eq in F. destruct (F ltac:(lia)) as (r' & E' & E2). rewrite E2. congruence.
Qed.
Print Assumptions time_roundtrip.

(** The 60 smallest times overflow. *)
Theorem time_togm_smallest_refuted : togm (- 2 ^ 63) = UB /\ togm (- (2 ^ 63 - 59)) = UB.
Proof. vm_compute. auto. Qed.
Print Assumptions time_togm_smallest_refuted.

(** 2000-02-29 12:34:56, a Tuesday; 1969-12-31 23:59:59, a Wednesday; 1900-03-01,
    a Thursday. *)
Example togm_case : togm 951827696 = Ok (mktm 2 29 2000 0 12 34 56 2 59) /\
  togm (-1) = Ok (mktm 12 31 1969 69 23 59 59 3 364) /\ togm (-2203891200) = Ok (mktm 3 1 1900 0 0 0 0 4 59) /\
  fromgm (mktm 2 29 2000 0 12 34 56 0 0) = Ok (951827696, mktm 2 29 2000 0 12 34 56 2 59).
Proof. vm_compute. auto. Qed.

(** ** C44: normalisation *)

(** The seconds since the epoch meant by fields of any size: the start of the
    month, [m - 1] months after January, plus days, hours, minutes and seconds. *)
Definition meant (t : tm) : Z :=
  86400 * (day_number (year t + (month t - 1) / 12) ((month t - 1) mod 12 + 1) 1 + (day t - 1)) +
  3600 * hour t + 60 * min t + sec t.

(** Whole days from the start of the month. *)
Definition whole_days (t : tm) : Z := (86400 * (day t - 1) + 3600 * hour t + 60 * min t + sec t) / 86400.

Lemma whole_days_ok t : whole_days t = carry_day t.
Proof.
  unfold whole_days, carry_day, carry_hour, carry_min.
  replace (86400 * (day t - 1) + 3600 * hour t + 60 * min t + sec t) with
    ((day t - 1) * 86400 + (3600 * hour t + 60 * min t + sec t)) by lia.
  rewrite Z.div_add_l by lia. f_equal.
  replace (86400) with (60 * (60 * 24)) by reflexivity. rewrite <- !Z.div_div by lia.
  replace (3600 * hour t + 60 * min t + sec t) with ((60 * hour t + min t) * 60 + sec t) by lia. rewrite Z.div_add_l by lia.
  replace (60 * hour t + min t + sec t / 60) with (hour t * 60 + (min t + sec t / 60)) by lia. rewrite Z.div_add_l by lia. reflexivity.
Qed.

Lemma meant_first t : meant t = 86400 * (first (year t) (month t - 1) - before_year 1970 + (day t - 1)) + 3600 * hour t + 60 * min t + sec t.
Proof. unfold meant, first, day_number. f_equal. lia. Qed.

(** Right when less than 365 whole days from the start of the month, or the month
    is January or February.  Full statement: always; see
    [time_normalize_refuted]. *)
Theorem time_normalize_partial : forall t, bounded t ->
  Z.abs (whole_days t) < 365 \/ month t = 1 \/ month t = 2 ->
  - (2 ^ 63 - 60) <= meant t <= 2 ^ 63 - 1 -> exists r, togm (meant t) = Ok r /\ fromgm t = Ok (meant t, r).
Proof.
  intros t B C H. destruct (fromgm_ok t B) as (d' & y' & B1 & _ & B3 & F). cbn zeta in F.
  rewrite whole_days_ok in C. rewrite meant_first in *.
  assert (Eq : 86400 * (first y' (month t - 1) + d' - before_year 1970) + (hour t * 3600 + min t * 60 + sec t - 86400 * (carry_hour t / 24)) =
    86400 * (first (year t) (month t - 1) - before_year 1970 + (day t - 1)) + 3600 * hour t + 60 * min t + sec t).
  { assert (first y' (month t - 1) + d' = first (year t) (month t - 1) + carry_day t).
    { destruct C as [C|C].
      - rewrite (B3 C) in *. lia.
      - rewrite !first_small by lia. destruct C as [-> | ->].
        + change (before_month y' (1 - 1 + 1)) with 0. change (before_month (year t) (1 - 1 + 1)) with 0. lia.
        + change (before_month y' (2 - 1 + 1)) with 31. change (before_month (year t) (2 - 1 + 1)) with 31. lia. }
    unfold carry_day in *. set (q := carry_hour t / 24) in *. clearbody q. lia. }
  rewrite Eq in F. apply F. exact H.
Qed.
Print Assumptions time_normalize_partial.

(** In particular all dates of the calendar. *)
Theorem time_fromgm_valid : forall t, valid_date (year t) (month t) (day t) -> Z.abs (year t) <= 2 ^ 38 - 2 ^ 30 ->
  0 <= hour t < 24 -> 0 <= min t < 60 -> 0 <= sec t < 60 ->
  exists r, fromgm t = Ok (86400 * day_number (year t) (month t) (day t) + 3600 * hour t + 60 * min t + sec t, r) /\
    (year r, month r, day r) = (year t, month t, day t) /\ (hour r, min r, sec r) = (hour t, min t, sec t).
Proof.
  intros t V Y T1 T2 T3. pose proof V as [Vm Vd]. pose proof (month_length_bounds (year t) (month t)) as Ml.
  assert (M : meant t = 86400 * day_number (year t) (month t) (day t) + 3600 * hour t + 60 * min t + sec t).
  { unfold meant. rewrite (Z.div_small (month t - 1) 12), (Z.mod_small (month t - 1) 12), Z.add_0_r by lia.
    replace (month t - 1 + 1) with (month t) by lia. unfold day_number. lia. }
  pose proof (date_in_year _ _ _ V) as Dy. fold (ylen (year t)) in Dy. pose proof (ylen_bounds (year t)) as Yl.
  assert (R : - (2 ^ 63 - 60) <= meant t <= 2 ^ 63 - 1).
  { rewrite M. unfold day_number. set (b := before_month _ _) in *. clearbody b. clear - Dy Yl T1 T2 T3 Y.
    destruct (Z.le_gt_cases 1970 (year t)) as [L|L].
    - pose proof (before_year_le 1970 (year t - 1970) ltac:(lia)) as M. replace (1970 + (year t - 1970)) with (year t) in M by lia. lia.
    - pose proof (before_year_le (year t) (1970 - year t) ltac:(lia)) as M. replace (year t + (1970 - year t)) with 1970 in M by lia. lia. }
  destruct (time_normalize_partial t) as (r & E & F); auto.
  { unfold bounded. clear R M Dy. lia. }
  { left. unfold whole_days. replace (86400 * (day t - 1) + 3600 * hour t + 60 * min t + sec t) with
      ((day t - 1) * 86400 + (3600 * hour t + 60 * min t + sec t)) by lia.
    rewrite Z.div_add_l, (Z.div_small (3600 * hour t + 60 * min t + sec t)) by lia. lia. }
  exists r. rewrite <- M. split; auto.
  destruct (togm_ok _ R) as (r0 & E0 & V' & (T1' & T2' & T3') & S & _). assert (r0 = r) by congruence. subst r0.
  rewrite M in S. unfold seconds in S. clear M R E E0 F.
  assert (day_number (year r) (month r) (day r) = day_number (year t) (month t) (day t)) by lia.
  split; [apply time_date_unique; auto|].
  assert (hour r = hour t /\ min r = min t /\ sec r = sec t) as (-> & -> & ->) by lia. reflexivity.
Qed.
Print Assumptions time_fromgm_valid.

(** What happens in general for a month of the year: days are traded for years as
    if the month were January, so from March on the result is off by the
    difference of leap days between the year given and the year arrived at. *)
Theorem time_normalize_general_partial : forall t, bounded t -> 1 <= month t <= 12 ->
  exists y' d', before_year y' + d' = before_year (year t) + whole_days t /\ Z.abs d' < 366 /\
    (Z.abs (whole_days t) < 365 -> y' = year t) /\
    let off := if month t <=? 2 then 0 else (if leap y' then 1 else 0) - (if leap (year t) then 1 else 0) in
    (- (2 ^ 63 - 60) <= meant t + 86400 * off <= 2 ^ 63 - 1 -> exists r, fromgm t = Ok (meant t + 86400 * off, r)).
Proof.
  intros t B Hm. destruct (fromgm_ok t B) as (d' & y' & B1 & B2 & B3 & F). exists y', d'. rewrite whole_days_ok.
  split; auto. split; auto. split; auto. cbn zeta in *. rewrite meant_first.
  set (off := if month t <=? 2 then 0 else _).
  assert (L : forall y m, 1 <= m <= 12 -> before_month y m = before_month 1970 m + (if m <=? 2 then 0 else if leap y then 1 else 0)).
  { clear. intros y m H. assert (m = 1 \/ m = 2 \/ m = 3 \/ m = 4 \/ m = 5 \/ m = 6 \/ m = 7 \/ m = 8 \/ m = 9 \/ m = 10 \/ m = 11 \/ m = 12) as C by lia.
    clear H. unfold before_month, month_length.
    repeat (destruct C as [-> | C]; [cbn; destruct (leap y); reflexivity|]). subst. cbn. destruct (leap y); reflexivity. }
  assert (Eq : 86400 * (first y' (month t - 1) + d' - before_year 1970) + (hour t * 3600 + min t * 60 + sec t - 86400 * (carry_hour t / 24)) =
    86400 * (first (year t) (month t - 1) - before_year 1970 + (day t - 1)) + 3600 * hour t + 60 * min t + sec t + 86400 * off).
  { rewrite !first_small by lia. replace (month t - 1 + 1) with (month t) by lia. rewrite (L y'), (L (year t)) by lia.
    unfold carry_day in *. set (q := carry_hour t / 24) in *. clearbody q. unfold off. clear F B B2 B3.
    destruct (month t <=? 2); lia. }
  rewrite Eq in F. intros R. destruct (F R) as (r & _ & E). eauto.
Qed.
Print Assumptions time_normalize_general_partial.

(** 366 days after 2019-03-01 is 2020-03-01; the code arrives at 2020-03-02. *)
Theorem time_normalize_refuted :
  let t := mktm 3 367 2019 0 0 0 0 0 0 in
  bounded t /\ meant t = 86400 * day_number 2020 3 1 /\ exists r, fromgm t = Ok (86400 * day_number 2020 3 2, r).
Proof.
  split; [unfold bounded; cbn; lia|]. split; [vm_compute; reflexivity|]. eexists. vm_compute. reflexivity.
Qed.
Print Assumptions time_normalize_refuted.

(** 2021-14-31 25:61:61 is 2022-03-04 02:02:01 (31 days after the first of February). *)
Example normalize_case : fromgm (mktm 14 31 2021 0 25 61 61 0 0) = Ok (1646359321, mktm 3 4 2022 22 2 2 1 5 62) /\
  bounded (mktm 14 31 2021 0 25 61 61 0 0) /\ Z.abs (whole_days (mktm 14 31 2021 0 25 61 61 0 0)) < 365 /\
  fromgm (mktm 1 (-400) 2021 0 0 0 0 0 0) = Ok (1574812800, mktm 11 27 2019 19 0 0 0 3 330).
Proof. split; [vm_compute; reflexivity|]. split; [unfold bounded; cbn; lia|]. split; vm_compute; reflexivity. Qed.

(** M_time_days_in_month and M_time_is_valid_day. *)
Theorem time_valid_day : forall y m d, (1 <= m <= 12 -> days_in_month y m = Ok (month_length y m)) /\
  exists b, is_valid_day y m d = Ok b /\ (b = true <-> valid_date y m d).
Proof.
  intros y m d. assert (D : 1 <= m <= 12 -> days_in_month y m = Ok (month_length y m)).
  { intros H. unfold days_in_month. destruct (Z.ltb_spec m 1), (Z.gtb_spec m 12); try lia. cbn [orb].
    rewrite leap_ok, mdays_ok by lia. do 2 f_equal. lia. }
  split; auto. unfold is_valid_day, valid_date.
  destruct (Z.ltb_spec m 1) as [L|L].
  { unfold days_in_month. destruct (Z.ltb_spec m 1); [|lia]. cbn [orb bind Z.eqb]. exists false. split; auto. split; [discriminate|lia]. }
  destruct (Z.gtb_spec m 12) as [G|G].
  { unfold days_in_month. destruct (Z.gtb_spec m 12); [|lia]. rewrite orb_true_r. cbn [bind Z.eqb orb]. exists false. split; auto. split; [discriminate|lia]. }
  rewrite D by lia. cbn [bind]. pose proof (month_length_bounds y m). destruct (Z.eqb_spec (month_length y m) 0); [lia|]. cbn [orb].
  destruct (Z.ltb_spec d 1); [exists false; split; auto; split; [discriminate|lia]|].
  destruct (Z.gtb_spec d (month_length y m)); [exists false|exists true]; split; auto; split; auto; try discriminate; lia.
Qed.
Print Assumptions time_valid_day.

Example valid_day_case : is_valid_day 2000 2 29 = Ok true /\ is_valid_day 1900 2 29 = Ok false /\ is_valid_day 2021 13 1 = Ok false.
Proof. vm_compute. auto. Qed.

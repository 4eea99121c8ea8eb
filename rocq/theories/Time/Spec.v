(** The proleptic Gregorian calendar, independently of the code. *)
From Coq Require Import ZArith Lia List Bool.
Import ListNotations.
Local Open Scope Z_scope.

Definition divides (a b : Z) : bool := b mod a =? 0.

(** Every fourth year, except centuries not divisible by 400. *)
Definition leap (y : Z) : bool := divides 4 y && (negb (divides 100 y) || divides 400 y).

Definition month_length (y m : Z) : Z :=
  if m =? 2 then (if leap y then 29 else 28)
  else if (m =? 4) || (m =? 6) || (m =? 9) || (m =? 11) then 30
  else 31.

Definition valid_date (y m d : Z) : Prop := 1 <= m <= 12 /\ 1 <= d <= month_length y m.

(** The day after. *)
Definition next_day (y m d : Z) : Z * Z * Z :=
  if d <? month_length y m then (y, m, d + 1)
  else if m <? 12 then (y, m + 1, 1)
  else (y + 1, 1, 1).

(** Days before the first day of month [m] in its year. *)
Definition before_month (y m : Z) : Z :=
  fold_right (fun i a => month_length y (Z.of_nat i) + a) 0 (seq 1 (Z.to_nat (m - 1))).

(** Days from 0001-01-01 to the first of January of [y]. *)
Definition before_year (y : Z) : Z := 365 * (y - 1) + (y - 1) / 4 - (y - 1) / 100 + (y - 1) / 400.

(** Days from 1970-01-01. *)
Definition day_number (y m d : Z) : Z := before_year y - before_year 1970 + before_month y m + (d - 1).

(** The day number counts days: it is 0 at the epoch and each next day is one
    more. *)
Lemma epoch : day_number 1970 1 1 = 0.
Proof. reflexivity. Qed.

Lemma year_step y : before_year (y + 1) = before_year y + (if leap y then 366 else 365).
Proof.
  unfold before_year, leap, divides. replace (y + 1 - 1) with y by lia.
  set (q4 := y / 4). set (q100 := y / 100). set (q400 := y / 400).
  assert (D : forall k, 0 < k -> y / k = (y - 1) / k + (if y mod k =? 0 then 1 else 0)).
  { intros k Hk. pose proof (Z.div_mod y k ltac:(lia)). pose proof (Z.mod_pos_bound y k Hk).
    destruct (Z.eqb_spec (y mod k) 0) as [E|E].
    - replace (y - 1) with ((y / k - 1) * k + (k - 1)) by nia. rewrite Z.div_add_l by lia. rewrite (Z.div_small (k - 1)); lia.
    - replace (y - 1) with ((y / k) * k + (y mod k - 1)) by nia. rewrite Z.div_add_l by lia. rewrite (Z.div_small (y mod k - 1)); lia. }
  unfold q4, q100, q400. rewrite !D by lia. clear D.
  assert (A : y mod 400 = 0 -> y mod 100 = 0).
  { intros H. apply Z.mod_divide in H; [|lia]. apply Z.mod_divide; [lia|]. eapply Z.divide_trans; [|exact H]. now exists 4. }
  assert (B : y mod 100 = 0 -> y mod 4 = 0).
  { intros H. apply Z.mod_divide in H; [|lia]. apply Z.mod_divide; [lia|]. eapply Z.divide_trans; [|exact H]. now exists 25. }
  destruct (Z.eqb_spec (y mod 4) 0), (Z.eqb_spec (y mod 100) 0), (Z.eqb_spec (y mod 400) 0); cbn [andb orb negb]; try tauto; lia.
Qed.

Lemma month_step y m : 1 <= m -> before_month y (m + 1) = before_month y m + month_length y m.
Proof.
  intros H. unfold before_month. replace (Z.to_nat (m + 1 - 1)) with (Z.to_nat (m - 1) + 1)%nat by lia.
  rewrite seq_app, fold_right_app. cbn [seq fold_right]. replace (Z.of_nat (1 + Z.to_nat (m - 1))) with m by lia.
  rewrite Z.add_0_r. generalize (seq 1 (Z.to_nat (m - 1))). intros l. induction l as [|x l IH]; cbn [fold_right]; lia.
Qed.

Lemma year_length y : before_month y 13 = if leap y then 366 else 365.
Proof. unfold before_month, month_length. cbn. destruct (leap y); reflexivity. Qed.

Lemma next_day_number y m d : valid_date y m d ->
  let '(y', m', d') := next_day y m d in valid_date y' m' d' /\ day_number y' m' d' = day_number y m d + 1.
Proof.
  intros [Hm Hd]. unfold next_day, day_number.
  assert (L : forall y m, 1 <= month_length y m).
  { intros. unfold month_length. repeat match goal with |- context [if ?c then _ else _] => destruct c end; lia. }
  destruct (Z.ltb_spec d (month_length y m)); [unfold valid_date; lia|].
  destruct (Z.ltb_spec m 12).
  - rewrite month_step by lia. specialize (L y (m + 1)). unfold valid_date. lia.
  - assert (m = 12) by lia. subst m. rewrite year_step. pose proof (year_length y) as Y. change 13 with (12 + 1) in Y.
    rewrite month_step in Y by lia. specialize (L (y + 1) 1). change (before_month (y + 1) 1) with 0.
    assert (d = month_length y 12) by lia. unfold valid_date. lia.
Qed.

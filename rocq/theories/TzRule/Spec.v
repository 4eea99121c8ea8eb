(** When daylight saving time is in effect, independently of the code. *)
From Verif Require Import Base.Lib Sort.Spec Time.Spec TzRule.Model.
Local Open Scope Z_scope.

(** 0 is Sunday; 1970-01-01 was a Thursday. *)
Definition weekday (y m d : Z) : Z := (day_number y m d + 4) mod 7.

(** [d] is the [n]-th [w] of the month. *)
Definition nth_weekday (y m w n d : Z) : Prop :=
  valid_date y m d /\ weekday y m d = w /\ 7 * (n - 1) < d <= 7 * n.

(** [d] is the [n]-th [w] of the month counted from its end. *)
Definition nth_last_weekday (y m w n d : Z) : Prop :=
  valid_date y m d /\ weekday y m d = w /\ 7 * (n - 1) <= month_length y m - d < 7 * n.

(** Seconds shown by a clock on a date, counted as if the clock showed UTC. *)
Definition reading (y m d h mi s : Z) : Z := 86400 * day_number y m d + 3600 * h + 60 * mi + s.

(** Daylight saving time with standard offset [off] and summer offset [dst]:
    it begins when a clock showing standard time reaches the reading [s] and
    ends when a clock showing summer time reaches the reading [e].
    [summer off dst s e t] says that it is in effect at the instant [t], if
    it begins and ends in the same calendar year. *)
Definition summer (off dst s e t : Z) : Prop := s - off <= t < e - dst.

(** The same if it ends earlier in the calendar year than it begins (southern
    hemisphere): it is in effect outside [e, s). *)
Definition summer_south (off dst s e t : Z) : Prop := t < e - dst \/ s - off <= t.

(** The rule of a year: the latest that starts no later than the year, or else
    the earliest of all. *)
Definition applies (d : list rule) (y : Z) (r : rule) : Prop :=
  In r d /\
  (forall r', In r' d -> r_year r' <= y -> r_year r <= y /\ r_year r' <= r_year r) /\
  (r_year r > y -> forall r', In r' d -> r_year r <= r_year r').

(** Fields in their ranges. *)
Definition valid_change (c : change) : Prop :=
  1 <= c_month c <= 12 /\ 0 <= c_wday c <= 6 /\ 0 <= c_hour c < 24 /\ 0 <= c_min c < 60 /\ 0 <= c_sec c < 60.

(** The reading of the clock at which [c] changes the time in year [y]. *)
Definition changes_at (c : change) (y T : Z) : Prop := exists d,
  nth_weekday y (c_month c) (c_wday c) (c_occur c) d /\ T = reading y (c_month c) d (c_hour c) (c_min c) (c_sec c).

(** Fields in their ranges. *)
Definition valid_rule (r : rule) : Prop :=
  valid_change (r_start r) /\ 0 < c_occur (r_start r) < 2 ^ 27 /\ valid_change (r_end r) /\ 0 < c_occur (r_end r) < 2 ^ 27 /\
  Z.abs (r_offset r) <= 2 ^ 31 /\ Z.abs (r_offset_dst r) <= 2 ^ 31.

(** A zone with rules of different first years in the list's order and one
    standard offset. *)
Definition valid_zone (z : zone) (off : Z) : Prop :=
  z_rules z <> [] /\ sorted rule_cmp (z_rules z) /\ NoDup (map r_year (z_rules z)) /\
  (forall r, In r (z_rules z) -> valid_rule r /\ r_offset r = off).

(** Model of base/time/m_time_gm.c: broken-down times.  Fields are 64 bit signed
    integers; an operation that overflows is undefined behaviour.  Not modelled:
    M_time (the system clock), isdst, gmtoff and abbr (never touched here except
    by the clearing at line 181). *)
From Verif Require Import Base.Lib.
Local Open Scope Z_scope.

(** A signed 64 bit operation that must not overflow. *)
Definition chk (z : Z) : res Z := if (- 2 ^ 63 <=? z) && (z <=? 2 ^ 63 - 1) then Ok z else UB.

(** include/mstdlib/base/m_time.h:165-175 *)
Record tm := mktm { month : Z; day : Z; year : Z; year2 : Z; hour : Z; min : Z; sec : Z; wday : Z; yday : Z }.

(** IS_LEAPYEAR, m_time_gm.c:30 ([Z.rem] is C's %) *)
Definition is_leapyear (y : Z) : bool :=
  (Z.rem y 400 =? 0) || (negb (Z.rem y 100 =? 0) && (Z.rem y 4 =? 0)).

(** mdays, m_time_gm.c:32-35; an index outside 0..11 is undefined behaviour *)
Definition mdays_tab (leap : bool) : list Z :=
  if leap then [31; 29; 31; 30; 31; 30; 31; 31; 30; 31; 30; 31]
  else [31; 28; 31; 30; 31; 30; 31; 31; 30; 31; 30; 31].
Definition mdays (leap : bool) (m : Z) : res Z :=
  if m <? 0 then UB else rd (mdays_tab leap) (Z.to_nat m).

(** M_ABS, include/mstdlib/base/m_math.h:46 *)
Definition m_abs (z : Z) : res Z := if z <? 0 then chk (- z) else Ok z.

(** The loops of calc_yday, m_time_gm.c:43-45, and of M_time_fromgm, :224-227:
    the days of months [i], ..., [i + n - 1] added to [acc]. *)
Fixpoint add_months (leap : bool) (i : Z) (n : nat) (acc : Z) : res Z :=
  match n with
  | O => Ok acc
  | S n' => do d <- mdays leap i; do acc' <- chk (acc + d); add_months leap (i + 1) n' acc'
  end.

(** calc_yday, m_time_gm.c:37-52 *)
Definition calc_yday (t : tm) : res Z :=
  do m <- chk (month t - 1);
  do y <- add_months (is_leapyear (year t)) 0 (Z.to_nat m) 0;
  do y <- chk (y + day t);
  chk (y - 1).

(** normalize_range, m_time_gm.c:54-68: result ( *overflow, *num ) *)
Definition normalize_range (overflow num min max : Z) : res (Z * Z) :=
  do '(overflow, num) <-
    (if num <? min then
       do tmp <- m_abs num;
       do s <- chk (tmp + max);
       do o <- chk (overflow - Z.quot s (max + 1));
       Ok (o, max - Z.rem s (max + 1))
     else Ok (overflow, num));
  if num >? max then
    do o <- chk (overflow + Z.quot num (max + 1));
    Ok (o, Z.rem num (max + 1))
  else Ok (overflow, num).

(** m_time_gm.c:92-111: result (day, year) *)
Fixpoint norm_years (fuel : nat) (day year : Z) : res (Z * Z) :=
  match fuel with
  | O => Fuel
  | S f =>
    do leap <- (if day >? 0 then Ok (is_leapyear year) else do y <- chk (year - 1); Ok (is_leapyear y));
    let n := if leap : bool then 366 else 365 in
    do a <- m_abs day;
    if a <? n then Ok (day, year)
    else if day <? 0 then do y <- chk (year - 1); norm_years f (day + n) y
    else do y <- chk (year + 1); norm_years f (day - n) y
  end.

(** m_time_gm.c:114-138: result (day, month, year) *)
Fixpoint norm_months (fuel : nat) (day month year : Z) : res (Z * Z * Z) :=
  match fuel with
  | O => Fuel
  | S f =>
    do '(year, month) <- normalize_range year month 0 11;
    let leap := is_leapyear year in
    do n <- mdays leap month;
    if (day <? n) && (day >=? 0) then Ok (day, month, year)
    else if day <? 0 then
      do p <- mdays leap (if month - 1 <? 0 then 11 else month - 1);
      norm_months f (day + p) (month - 1) year
    else if day >=? n then norm_months f (day - n) (month + 1) year
    else norm_months f day month year
  end.

(** M_time_normalize_tm, m_time_gm.c:75-147 *)
Definition normalize_tm (t : tm) : res tm :=
  do mo <- chk (month t - 1);
  do d <- chk (day t - 1);
  do '(mi, s) <- normalize_range (min t) (sec t) 0 59;
  do '(h, mi) <- normalize_range (hour t) mi 0 59;
  do '(d, h) <- normalize_range d h 0 23;
  do '(d, y) <- norm_years (S (Z.to_nat (Z.abs d / 365))) d (year t);
  do '(d, mo, y) <- norm_months 16 d mo y;
  Ok (mktm (mo + 1) (d + 1) y (Z.rem y 100) h mi s (wday t) (yday t)).

(** M_time_days_in_month, m_time_gm.c:149-158 *)
Definition days_in_month (y m : Z) : res Z :=
  if (m <? 1) || (m >? 12) then Ok 0 else mdays (is_leapyear y) (m - 1).

(** M_time_is_valid_day, m_time_gm.c:160-174 *)
Definition is_valid_day (y m d : Z) : res bool :=
  do days <- days_in_month y m;
  if (days =? 0) || (d <? 1) then Ok false
  else if d >? days then Ok false
  else Ok true.

(** m_time_gm.c:176-177 *)
Definition wdaymap : list Z := [4; 5; 6; 0; 1; 2; 3].
Definition rwdaymap : list Z := [4; 3; 2; 1; 0; 6; 5].

(** M_time_togm, m_time_gm.c:179-210 *)
Definition togm (t : Z) : res tm :=
  let yd := Z.quot t 86400 in
  let yd := if (t <? 0) && negb (Z.rem t 86400 =? 0) then yd - 1 else yd in
  do w <- (if yd <? 0 then do a <- m_abs yd; rd rwdaymap (Z.to_nat (Z.rem a 7))
           else rd wdaymap (Z.to_nat (Z.rem yd 7)));
  do r <- normalize_tm (mktm 1 1 1970 0 0 0 t w yd);
  do y <- calc_yday r;
  Ok (mktm (month r) (day r) (year r) (year2 r) (hour r) (min r) (sec r) (wday r) y).

(** m_time_gm.c:243-253: result sec *)
Fixpoint to_epoch (fuel : nat) (sec year : Z) : res Z :=
  if year =? 1970 then Ok sec
  else match fuel with
  | O => Fuel
  | S f =>
    if year >? 1970 then
      do s <- chk (sec + 86400 * (if is_leapyear (year - 1) then 366 else 365));
      to_epoch f s (year - 1)
    else
      do s <- chk (sec - 86400 * (if is_leapyear year then 366 else 365));
      to_epoch f s (year + 1)
  end.

(** M_time_fromgm, m_time_gm.c:212-263: result: the returned time, the
    normalised [tm] *)
Definition fromgm (t : tm) : res (Z * tm) :=
  do r <- normalize_tm t;
  let mo := month r - 1 in
  let d := day r - 1 in
  do d <- add_months (is_leapyear (year r)) 0 (Z.to_nat mo) d;
  do d24 <- chk (d * 24); do h <- chk (hour r + d24);
  do h60 <- chk (h * 60); do mi <- chk (min r + h60);
  do m60 <- chk (mi * 60); do s <- chk (sec r + m60);
  do s <- to_epoch (Z.to_nat (Z.abs (year r - 1970))) s (year r);
  do r' <- togm s;
  Ok (s, r').

(** Model of rule based time zones: base/time/m_time_tz_rule.c,
    m_time_tz_dst_rules.c and the time zone parts of m_time_local.c (the
    functions used when a zone is given).  Broken-down times are those of
    Time/Model.v together with the isdst member, here a boolean (the code only
    asks whether it is 1); gmtoff is the offset returned beside them.  Not
    modelled: abbreviations, the loading of zones, the Olson database, the
    system's own zone. *)
From Verif Require Import Base.Lib Sort.Model Sort.Spec Time.Model.
Local Open Scope Z_scope.

(** An int operation that must not overflow. *)
Definition chk32 (z : Z) : res Z := if (- 2 ^ 31 <=? z) && (z <=? 2 ^ 31 - 1) then Ok z else UB.

(** M_time_tz_dst_change_t, m_time_int.h:106-115 *)
Record change := mkchange { c_month : Z; c_wday : Z; c_occur : Z; c_hour : Z; c_min : Z; c_sec : Z }.

(** M_time_tz_dst_rule_t, m_time_int.h:118-128 *)
Record rule := mkrule { r_year : Z; r_offset : Z; r_offset_dst : Z; r_start : change; r_end : change }.

(** M_time_tz_rule_t, m_time_int.h:91-101; the rules as they stand in the list *)
Record zone := mkzone { z_offset : Z; z_rules : list rule }.

(** M_time_tz_dst_rules_compar, m_time_tz_dst_rules.c:34-49 *)
Definition rule_cmp (i1 i2 : rule) : Z :=
  if r_year i1 =? r_year i2 then 0 else if r_year i1 >? r_year i2 then -1 else 1.

(** M_time_tz_dst_rules_insert, m_time_tz_dst_rules.c:79-82: M_list_insert into a
    sorted list (base/list/m_list.c:464-490; M_LIST_SORTED is not M_LIST_STABLE) *)
Definition rules_insert (d : list rule) (val : rule) : res (list rule) :=
  do i <- insert_idx rule_cmp d val false;
  Ok (insert_at i val d).

(** M_time_tz_dst_rules_get_rule, m_time_tz_dst_rules.c:94-121.  With an empty
    list idx becomes SIZE_MAX and M_list_at returns NULL. *)
Definition get_rule (d : list rule) (year : Z) : res (option rule) :=
  let zero := mkchange 0 0 0 0 0 0 in
  let srule := mkrule year 0 0 zero zero in
  let len := length d in
  do idx <- insert_idx rule_cmp d srule false;
  if (idx =? len)%nat then
    match idx with
    | O => Ok None
    | S idx' => Ok (nth_error d idx')
    end
  else Ok (nth_error d idx).

(** M_time_tz_rule_change_to_time, m_time_tz_rule.c:31-97: None is M_FALSE.  The
    day of atime is 0 until line 70. *)
Definition change_to_time (c : change) (yr : Z) : res (option Z) :=
  let atime d := mktm (c_month c) d yr 0 (c_hour c) (c_min c) (c_sec c) 0 0 in
  let occur := c_occur c in
  let aday := c_wday c in
  if occur =? 0 then Ok None else
  do start_day <-
    (if occur >? 0 then Ok (Some 1)
     else do s <- days_in_month yr (c_month c);
          if day (atime 0) =? 0 then Ok None else Ok (Some s));
  match start_day with
  | None => Ok None
  | Some start_day =>
    do '(_, a) <- fromgm (atime start_day);
    do o <- chk32 (occur - 1);
    do o7 <- chk32 (7 * o);
    do d <-
      (if occur >? 0 then
         let d := 1 - wday a + aday in
         let d := if d <? 1 then d + 7 else d in
         chk (d + o7)
       else
         let d := start_day - (wday a - aday) in
         let d := if d >? start_day then d - 7 else d in
         chk (d - o7));
    do ok <- is_valid_day yr (month a) d;
    if ok : bool then
      do '(out, _) <- fromgm (mktm (month a) d (year a) (year2 a) (hour a) (min a) (sec a) (wday a) (yday a));
      Ok (Some out)
    else Ok None
  end.

(** M_time_tz_rule_isdst_mid, m_time_tz_rule.c:99-116 *)
Definition isdst_mid (cur_time dststart dstend offset_diff : Z) (isdst : bool) : bool :=
  if negb isdst && (cur_time <=? dstend) && (cur_time >=? dstend - offset_diff) then false
  else if (cur_time <? dststart) || (cur_time >? dstend) then false
  else true.

(** M_time_tz_rule_isdst_ends, m_time_tz_rule.c:118-126 *)
Definition isdst_ends (cur_time dststart dstend offset_diff : Z) (isdst : bool) : bool :=
  if negb isdst && (cur_time <=? dststart) && (cur_time >=? dststart - offset_diff) then false
  else if (cur_time >? dststart) || (cur_time <? dstend) then false
  else true.

(** M_time_tz_rule_isdst, m_time_tz_rule.c:128-162 *)
Definition rule_isdst (adjust : rule) (ltime : tm) (isdst : bool) : res bool :=
  do s <- change_to_time (r_start adjust) (year ltime);
  match s with
  | None => Ok false
  | Some dststart =>
    do e <- change_to_time (r_end adjust) (year ltime);
    match e with
    | None => Ok false
    | Some dstend =>
      do '(cur_time, _) <- fromgm ltime;
      do a <- m_abs (r_offset adjust);
      do b <- m_abs (r_offset_dst adjust);
      let offset_diff := a - b in
      if dststart <? dstend then Ok (isdst_mid cur_time dststart dstend offset_diff isdst)
      else if dststart >? dstend then Ok (isdst_ends cur_time dststart dstend offset_diff isdst)
      else Ok (cur_time =? dststart)
    end
  end.

(** M_time_tz_rule_get_offset, m_time_tz_rule.c:170-205: ( *offset, *isdst ) *)
Definition get_offset (tz : zone) (ltime : tm) (isdst : bool) : res (Z * bool) :=
  do adjust <- get_rule (z_rules tz) (year ltime);
  match adjust with
  | None => Ok (z_offset tz, false)
  | Some adjust =>
    if c_month (r_start adjust) =? 0 then Ok (r_offset adjust, false)
    else
      do b <- rule_isdst adjust ltime isdst;
      if b : bool then Ok (r_offset_dst adjust, true) else Ok (r_offset adjust, false)
  end.

(** M_time_tz_rule_adjust_tolocal, m_time_tz_rule.c:214-264: the offset and
    *isdst.  A NULL rule would be followed. *)
Definition adjust_tolocal (rtz : zone) (gmt : Z) : res (Z * bool) :=
  match z_rules rtz with
  | [] => Ok (z_offset rtz, false)
  | _ :: _ =>
    do l <- togm gmt;
    do adjust <- get_rule (z_rules rtz) (year l);
    match adjust with
    | None => UB
    | Some adjust =>
      do gmt <- chk (gmt + r_offset adjust);
      do l <- togm gmt;
      get_offset rtz l false
    end
  end.

(** M_time_tz_rule_adjust_fromlocal, m_time_tz_rule.c:266-278 *)
Definition adjust_fromlocal (rtz : zone) (ltime : tm) (isdst : bool) : res Z :=
  do '(offset, _) <- get_offset rtz ltime isdst;
  chk (offset * -1).

(** M_time_tolocal with a zone (M_time_tolocal_tz), m_time_local.c:170-189: the
    broken-down time, isdst and gmtoff *)
Definition tolocal (t : Z) (tz : zone) : res (tm * bool * Z) :=
  do '(offset, isdst) <- adjust_tolocal tz t;
  do t <- chk (t + offset);
  do l <- togm t;
  Ok (l, isdst, offset).

(** M_time_fromlocal with a zone, m_time_local.c:137-166: the time and what is
    left in ltime *)
Definition fromlocal (ltime : tm) (isdst : bool) (tz : zone) : res (Z * (tm * bool * Z)) :=
  do '(t, ltime) <- fromgm ltime;
  do adj <- adjust_fromlocal tz ltime isdst;
  do t <- chk (t + adj);
  do l <- tolocal t tz;
  Ok (t, l).

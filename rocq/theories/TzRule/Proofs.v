From Verif Require Import Base.Lib Sort.Model Sort.Spec Sort.Binary Time.Model Time.Spec Time.Proofs Time.Props TzRule.Model TzRule.Spec.
Local Open Scope Z_scope.

(** ** Choosing the rule of a year *)

Lemma rule_cmp_order : total_preorder rule_cmp.
Proof.
  split.
  - intros x y. unfold rule_cmp. destruct (Z.eqb_spec (r_year y) (r_year x)), (Z.eqb_spec (r_year x) (r_year y)),
      (Z.gtb_spec (r_year y) (r_year x)), (Z.gtb_spec (r_year x) (r_year y)); try lia; reflexivity.
  - intros x y z. unfold rule_cmp. destruct (Z.eqb_spec (r_year x) (r_year y)), (Z.eqb_spec (r_year y) (r_year z)), (Z.eqb_spec (r_year x) (r_year z)),
      (Z.gtb_spec (r_year x) (r_year y)), (Z.gtb_spec (r_year y) (r_year z)), (Z.gtb_spec (r_year x) (r_year z)); lia.
Qed.

Lemma cmp_year x y : ((rule_cmp x y <= 0)%Z <-> r_year y <= r_year x) /\ ((rule_cmp x y >= 0)%Z <-> r_year x <= r_year y) /\
  (rule_cmp x y = 0%Z <-> r_year x = r_year y).
Proof. unfold rule_cmp. destruct (Z.eqb_spec (r_year x) (r_year y)), (Z.gtb_spec (r_year x) (r_year y)); lia. Qed.

(** Where an equal element exists, the unstable insertion index is at one, or
    behind the last element, which is one. *)
Lemma insert_idx_at_equal {A} (cmp : A -> A -> Z) (H : total_preorder cmp) a key i j :
  sorted cmp a -> insert_idx cmp a key false = Ok i -> found cmp a key j ->
  found cmp a key i \/ i = length a /\ found cmp a key (length a - 1).
Proof.
  intros Hs E (y & Hy & Ey). assert (Lj : (j < length a)%nat) by (apply nth_error_Some; congruence).
  unfold insert_idx, binary_idx in E. destruct (Nat.eqb_spec (length a) 0) as [H0|H0]; [lia|]. cbn [negb] in E.
  destruct (rd_lt a (i := (length a - 1)%nat) ltac:(lia)) as [z Hz]. rewrite Hz in E. cbn [bind] in E. apply rd_Ok in Hz.
  destruct (Z.eqb_spec (cmp key z) 0) as [C|C].
  { cbn [bind] in E. right. split; [congruence|]. exists z. auto. }
  destruct (Z.ltb_spec 0 (cmp key z)) as [C1|C1].
  { exfalso. pose proof (sorted_nth cmp H a Hs j (length a - 1) y z ltac:(lia) Hy Hz) as L.
    pose proof (gt_mono cmp H key y z L ltac:(lia)). lia. }
  destruct (rd_lt a (i := 0%nat) ltac:(lia)) as [w Hw]. rewrite Hw in E. cbn [bind] in E. apply rd_Ok in Hw.
  destruct (Z.leb_spec (cmp key w) 0) as [D|D].
  { rewrite andb_false_r in E. cbn [bind] in E. injection E as <-. left. exists w. split; auto.
    pose proof (sorted_nth cmp H a Hs 0 j w y ltac:(lia) Hw Hy) as L.
    destruct (Z.eq_dec (cmp key w) 0); auto. pose proof (lt_mono cmp H key w y L ltac:(lia)). lia. }
  destruct (halve_start cmp H a key Hs (cmp key w) H0) as (l & r & mid & eq & E' & Hl & Hr & Hb & Ha & Hc).
  rewrite E' in E. cbn [bind andb] in E. destruct Hc as [(C3 & C4 & C5)|(C3 & C4 & C5)].
  - exfalso. apply (split_absent cmp a key l Hb ltac:(replace (l - 1)%Z with r by lia; auto) j y Hy Ey).
  - subst eq. cbn in E. injection E as <-. left. exact C5.
Qed.

Lemma applies_year d y r r' : applies d y r -> applies d y r' -> r_year r = r_year r'.
Proof.
  intros (I & L & E) (I' & L' & E'). destruct (Z.le_gt_cases (r_year r) y) as [A|A].
  - pose proof (L' r I A) as B. destruct (L r' I' ltac:(lia)). lia.
  - destruct (Z.le_gt_cases (r_year r') y) as [B|B]; [destruct (L r' I' B); lia|].
    pose proof (E ltac:(lia) r' I'). pose proof (E' ltac:(lia) r I). lia.
Qed.

Lemma nodup_year d r r' : NoDup (map r_year d) -> In r d -> In r' d -> r_year r = r_year r' -> r = r'.
Proof.
  induction d as [|x d IH]; cbn; intros D I I' E; [easy|]. inversion D as [|? ? N D']; subst.
  destruct I as [<-|I], I' as [<-|I']; auto; exfalso; apply N; apply in_map_iff; eauto.
Qed.

Lemma get_rule_ok d y : sorted rule_cmp d -> d <> [] -> exists r, get_rule d y = Ok (Some r) /\ applies d y r.
Proof.
  intros Hs Hn. unfold get_rule. set (k := mkrule y _ _ _ _).
  destruct (insert_idx_ok rule_cmp rule_cmp_order d k Hs false) as (i & E & Li & B & A & _).
  assert (Lk : r_year k = y) by reflexivity. clearbody k. rewrite E. cbn [bind].
  assert (Hl : (0 < length d)%nat) by (destruct d; [easy|cbn; lia]).
  assert (Q : forall j x, nth_error d j = Some x -> r_year x = y -> found rule_cmp d k j).
  { intros j x Hx Ex. exists x. split; auto. apply cmp_year. congruence. }
  assert (SS : forall i j x x', (i <= j)%nat -> nth_error d i = Some x -> nth_error d j = Some x' -> r_year x' <= r_year x).
  { intros i0 j0 x x' Hij H1 H2. apply (proj1 (cmp_year x x')). exact (sorted_nth rule_cmp rule_cmp_order d Hs i0 j0 x x' Hij H1 H2). }
  destruct (Nat.eqb_spec i (length d)) as [C|C].
  - destruct i as [|i']; [lia|]. destruct (nth_error d i') as [r|] eqn:Er; [|apply nth_error_None in Er; lia].
    exists r. split; auto. split; [eapply nth_error_In; eauto|]. split.
    + intros r' I' L'. apply In_nth_error in I' as [j Hj].
      assert (Lj : (j < length d)%nat) by (apply nth_error_Some; congruence).
      pose proof (proj1 (proj1 (proj2 (cmp_year k r'))) (B j r' ltac:(lia) Hj)) as G.
      destruct (insert_idx_at_equal rule_cmp rule_cmp_order d k _ j Hs E (Q j r' Hj ltac:(lia))) as [(x & Hx & _)|(_ & x & Hx & Ex)].
      * assert (S i' < length d)%nat by (apply nth_error_Some; congruence). lia.
      * replace (length d - 1)%nat with i' in Hx by lia. assert (x = r) by congruence. subst x. apply cmp_year in Ex. lia.
    + intros _ r' I'. apply In_nth_error in I' as [j Hj]. assert (Lj : (j < length d)%nat) by (apply nth_error_Some; congruence).
      apply (SS j i'); auto. lia.
  - destruct (nth_error d i) as [r|] eqn:Er; [|apply nth_error_None in Er; lia].
    exists r. split; auto. pose proof (proj1 (proj1 (cmp_year k r)) (A i r ltac:(lia) Er)) as G.
    split; [eapply nth_error_In; eauto|]. split; [|lia].
    intros r' I' L'. apply In_nth_error in I' as [j Hj].
    destruct (Nat.le_gt_cases i j) as [Lij|Lij].
    + split; [lia|]. eapply SS; eauto.
    + pose proof (proj1 (proj1 (proj2 (cmp_year k r'))) (B j r' Lij Hj)) as G'.
      destruct (insert_idx_at_equal rule_cmp rule_cmp_order d k _ j Hs E (Q j r' Hj ltac:(lia))) as [(x & Hx & Ex)|(? & _)]; [|lia].
      assert (x = r) by congruence. subst x. apply cmp_year in Ex. lia.
Qed.

Lemma rules_insert_ok d r : sorted rule_cmp d -> exists d', rules_insert d r = Ok d' /\ sorted rule_cmp d' /\ Permutation d' (r :: d).
Proof.
  intros Hs. destruct (insert_idx_ok rule_cmp rule_cmp_order d r Hs false) as (i & E & Li & B & A & _).
  unfold rules_insert. rewrite E. cbn [bind]. eexists. split; [reflexivity|]. split; [apply insert_sorted; auto; apply rule_cmp_order|].
  unfold insert_at. symmetry. rewrite <- (firstn_skipn i d) at 1. apply Permutation_middle.
Qed.

(** ** The instants of change *)

Definition year_ok (y : Z) : Prop := Z.abs y <= 2 ^ 38 - 2 ^ 30.

Lemma day_shift y m d k : day_number y m (d + k) = day_number y m d + k.
Proof. unfold day_number. lia. Qed.

Lemma nth_weekday_unique y m w n d d' : nth_weekday y m w n d -> nth_weekday y m w n d' -> d = d'.
Proof.
  intros (_ & W & B) (_ & W' & B'). unfold weekday in *. replace d' with (d + (d' - d)) in W' by lia. rewrite day_shift in W'.
  set (x := day_number y m d) in *. clearbody x. pose proof (Z.div_mod (x + 4) 7 ltac:(lia)). pose proof (Z.div_mod (x + (d' - d) + 4) 7 ltac:(lia)). lia.
Qed.

Lemma fromgm_togm t s r : fromgm t = Ok (s, r) -> togm s = Ok r.
Proof.
  unfold fromgm. intros H. repeat (apply bind_ok in H as (? & ? & H)). injection H as -> ->. auto.
Qed.

Lemma reading_fromgm c y d (w yd : Z) y2 : valid_date y (c_month c) d -> year_ok y -> valid_change c ->
  exists r, fromgm (mktm (c_month c) d y y2 (c_hour c) (c_min c) (c_sec c) w yd) =
      Ok (reading y (c_month c) d (c_hour c) (c_min c) (c_sec c), r) /\
    year r = y /\ month r = c_month c /\ day r = d /\ hour r = c_hour c /\ min r = c_min c /\ sec r = c_sec c /\
    wday r = weekday y (c_month c) d.
Proof.
  intros V Y (Vm & Vw & T1 & T2 & T3).
  destruct (time_fromgm_valid (mktm (c_month c) d y y2 (c_hour c) (c_min c) (c_sec c) w yd)) as (r & E & Ed & Et); auto.
  cbn [year month day hour min sec] in *. exists r. split; auto.
  apply fromgm_togm in E as G. injection Ed as E1 E2 E3. injection Et as E4 E5 E6. repeat split; auto.
  assert (R : - (2 ^ 63 - 60) <= 86400 * day_number y (c_month c) d + 3600 * c_hour c + 60 * c_min c + c_sec c <= 2 ^ 63 - 1).
  { pose proof (date_in_year _ _ _ V) as Dy. fold (ylen y) in Dy. pose proof (ylen_bounds y) as Yl. unfold day_number.
    set (b := before_month _ _) in *. clearbody b. unfold year_ok in Y. clear - Dy Yl T1 T2 T3 Y.
    destruct (Z.le_gt_cases 1970 y) as [L|L].
    - pose proof (before_year_le 1970 (y - 1970) ltac:(lia)) as M. replace (1970 + (y - 1970)) with y in M by lia. lia.
    - pose proof (before_year_le y (1970 - y) ltac:(lia)) as M. replace (y + (1970 - y)) with 1970 in M by lia. lia. }
  destruct (togm_ok _ R) as (r0 & E0 & _ & _ & _ & W & _). assert (r0 = r) by congruence. subst r0.
  rewrite W. unfold weekday. now rewrite E1, E2, E3.
Qed.

Lemma change_ok c y : valid_change c -> 0 < c_occur c < 2 ^ 27 -> year_ok y ->
  exists o, change_to_time c y = Ok o /\
    match o with Some T => changes_at c y T | None => forall T, ~ changes_at c y T end.
Proof.
  intros V O Y. pose proof V as (Vm & Vw & T1 & T2 & T3). unfold change_to_time.
  destruct (Z.eqb_spec (c_occur c) 0) as [X|_]; [lia|]. destruct (Z.gtb_spec (c_occur c) 0) as [_|X]; [|lia]. cbn [bind].
  pose proof (month_length_bounds y (c_month c)) as Ml.
  destruct (reading_fromgm c y 1 0 0 0) as (a & E & E1 & E2 & E3 & E4 & E5 & E6 & E7); auto; [unfold valid_date; lia|].
  rewrite E. cbn [bind]. unfold chk32. destruct (Z.leb_spec (- 2 ^ 31) (c_occur c - 1)) as [_|X]; [|lia].
  destruct (Z.leb_spec (c_occur c - 1) (2 ^ 31 - 1)) as [_|X]; [|lia]. cbn [andb bind].
  destruct (Z.leb_spec (- 2 ^ 31) (7 * (c_occur c - 1))) as [_|X]; [|lia].
  destruct (Z.leb_spec (7 * (c_occur c - 1)) (2 ^ 31 - 1)) as [_|X]; [|lia]. cbn [andb bind].
  set (d0 := if 1 - wday a + c_wday c <? 1 then _ else _).
  assert (W0 : 0 <= weekday y (c_month c) 1 < 7) by (apply Z.mod_pos_bound; lia).
  assert (D0 : 1 <= d0 <= 7 /\ (d0 - 1 + weekday y (c_month c) 1) mod 7 = c_wday c).
  { subst d0. rewrite E7. destruct (Z.ltb_spec (1 - weekday y (c_month c) 1 + c_wday c) 1) as [L|L]; (split; [lia|]).
    - replace (1 - weekday y (c_month c) 1 + c_wday c + 7 - 1 + weekday y (c_month c) 1) with (c_wday c + 1 * 7) by lia.
      rewrite Z.mod_add by lia. apply Z.mod_small. lia.
    - replace (1 - weekday y (c_month c) 1 + c_wday c - 1 + weekday y (c_month c) 1) with (c_wday c) by lia. apply Z.mod_small. lia. }
  clearbody d0. destruct D0 as [D0 D0'].
  rewrite chk_ok by (unfold fits; lia). cbn [bind]. set (d := d0 + 7 * (c_occur c - 1)).
  assert (WD : weekday y (c_month c) d = c_wday c).
  { unfold weekday in *. replace d with (1 + (d - 1)) by lia. rewrite day_shift. rewrite Z.add_mod_idemp_r in D0' by lia.
    rewrite <- D0'. replace (day_number y (c_month c) 1 + (d - 1) + 4) with (d0 - 1 + (day_number y (c_month c) 1 + 4) + (c_occur c - 1) * 7) by (subst d; lia).
    now rewrite Z.mod_add by lia. }
  rewrite E2. destruct (time_valid_day y (c_month c) d) as (_ & b & Eb & Hb). rewrite Eb. cbn [bind]. destruct b.
  - rewrite E1, E4, E5, E6. destruct (reading_fromgm c y d (wday a) (yday a) (year2 a)) as (r & Er & _); auto; [apply Hb; auto|].
    rewrite Er. cbn [bind]. eexists. split; [reflexivity|]. exists d. split; auto. split; [apply Hb; auto|]. split; auto. subst d; lia.
  - eexists. split; [reflexivity|]. intros T (d' & N & _). assert (nv : ~ valid_date y (c_month c) d) by (intros VD; apply Hb in VD; discriminate).
    destruct N as (Vd & Wd & Bd). apply nv. replace d with d'; auto.
    unfold weekday in *. replace d' with (d + (d' - d)) in Wd by lia. rewrite day_shift in Wd.
    assert (Bd0 : 7 * (c_occur c - 1) < d <= 7 * c_occur c) by (subst d; lia). clearbody d.
    set (x := day_number y (c_month c) d) in *. clearbody x. clear - WD Wd Bd Bd0.
    pose proof (Z.div_mod (x + 4) 7 ltac:(lia)). pose proof (Z.div_mod (x + (d' - d) + 4) 7 ltac:(lia)). lia.
Qed.

Lemma change_negative c y : c_occur c <= 0 -> change_to_time c y = Ok None \/ change_to_time c y = UB.
Proof.
  intros O. unfold change_to_time. destruct (Z.eqb_spec (c_occur c) 0); [auto|].
  destruct (Z.gtb_spec (c_occur c) 0); [lia|]. destruct (days_in_month y (c_month c)) eqn:E; cbn; auto.
  unfold days_in_month in E. destruct ((c_month c <? 1) || (c_month c >? 12)); [discriminate|].
  unfold mdays in E. destruct (c_month c - 1 <? 0); [discriminate|]. unfold rd in E. destruct (nth_error _ _); discriminate.
Qed.

(** ** Years *)

Definition jan1 (y : Z) : Z := 86400 * day_number y 1 1.

Lemma jan1_step y : jan1 (y + 1) = jan1 y + 86400 * ylen y.
Proof. unfold jan1, day_number. rewrite year_step. fold (ylen y). change (before_month (y + 1) 1) with 0. change (before_month y 1) with 0. lia. Qed.

Lemma jan1_mono y y' : y < y' -> jan1 (y + 1) <= jan1 y'.
Proof.
  intros H. unfold jan1, day_number. change (before_month (y + 1) 1) with 0. change (before_month y' 1) with 0.
  pose proof (before_year_le (y + 1) (y' - (y + 1)) ltac:(lia)) as B. replace (y + 1 + (y' - (y + 1))) with y' in B by lia. lia.
Qed.

Lemma reading_in_year y m d h mi s : valid_date y m d -> 0 <= h < 24 -> 0 <= mi < 60 -> 0 <= s < 60 ->
  jan1 y <= reading y m d h mi s < jan1 (y + 1).
Proof.
  intros V H1 H2 H3. pose proof (date_in_year _ _ _ V) as B. fold (ylen y) in B. rewrite jan1_step.
  unfold reading, jan1, day_number. change (before_month y 1) with 0. lia.
Qed.

Lemma year_unique y y' t : jan1 y <= t < jan1 (y + 1) -> jan1 y' <= t < jan1 (y' + 1) -> y = y'.
Proof.
  intros A B. destruct (Z.lt_trichotomy y y') as [L|[L|L]]; auto; apply jan1_mono in L; lia.
Qed.

Lemma togm_year t : - (2 ^ 62) <= t <= 2 ^ 62 -> exists l, togm t = Ok l /\ jan1 (year l) <= t < jan1 (year l + 1) /\ year_ok (year l) /\
  fromgm l = Ok (t, l).
Proof.
  intros H. destruct (togm_ok t ltac:(lia)) as (l & E & V & (T1 & T2 & T3) & S & _). exists l. split; auto.
  assert (Y : jan1 (year l) <= t < jan1 (year l + 1)).
  { pose proof (reading_in_year _ _ _ _ _ _ V T1 T2 T3) as R. unfold reading in R. unfold seconds in S. lia. }
  split; auto. split; [|apply time_roundtrip; [lia|auto]].
  unfold year_ok. rewrite jan1_step in Y. pose proof (ylen_bounds (year l)) as Yl. set (y := year l) in *. clearbody y. clear - Y Yl H.
  unfold jan1, day_number in Y. change (before_month y 1) with 0 in Y.
  destruct (Z.le_gt_cases 1970 y) as [L|L].
  - pose proof (before_year_le 1970 (y - 1970) ltac:(lia)) as M. replace (1970 + (y - 1970)) with y in M by lia. lia.
  - pose proof (before_year_le y (1970 - y) ltac:(lia)) as M. replace (y + (1970 - y)) with 1970 in M by lia. lia.
Qed.

Lemma changes_unique c y T T' : changes_at c y T -> changes_at c y T' -> T = T'.
Proof. intros (d & N & ->) (d' & N' & ->). now rewrite (nth_weekday_unique _ _ _ _ _ _ N N'). Qed.

Lemma changes_in_year c y T : valid_change c -> changes_at c y T -> jan1 y <= T < jan1 (y + 1).
Proof. intros (Vm & Vw & T1 & T2 & T3) (d & (V & _) & ->). now apply reading_in_year. Qed.

Lemma changes_order c c' y T T' : c_month c < c_month c' -> valid_change c -> valid_change c' -> changes_at c y T -> changes_at c' y T' -> T < T'.
Proof.
  intros L V V' (d & (N & _) & ->) (d' & (N' & _) & ->). destruct V as (Vm & _ & T1 & T2 & T3), V' as (Vm' & _ & T1' & T2' & T3').
  unfold reading, day_number. destruct N as [_ N], N' as [_ N'].
  pose proof (before_month_mono y (c_month c + 1) (c_month c' - (c_month c + 1)) ltac:(lia) ltac:(lia)) as B.
  replace (c_month c + 1 + (c_month c' - (c_month c + 1))) with (c_month c') in B by lia. rewrite month_step in B by lia. lia.
Qed.

(** ** Zones *)

(** What the code decides. *)
Definition code_dst (r : rule) (y cur : Z) (flag b : bool) : Prop :=
  let diff := Z.abs (r_offset r) - Z.abs (r_offset_dst r) in
  (exists s e, changes_at (r_start r) y s /\ changes_at (r_end r) y e /\
     b = if s <? e then isdst_mid cur s e diff flag else if s >? e then isdst_ends cur s e diff flag else cur =? s) \/
  ((forall s e, ~ (changes_at (r_start r) y s /\ changes_at (r_end r) y e)) /\ b = false).

Lemma m_abs_ok z : Z.abs z <= 2 ^ 31 -> m_abs z = Ok (Z.abs z).
Proof. intros H. unfold m_abs. destruct (Z.ltb_spec z 0); [rewrite chk_ok by (unfold fits; lia); f_equal; lia|f_equal; lia]. Qed.

Lemma isdst_ok r l cur flag : valid_rule r -> year_ok (year l) -> fromgm l = Ok (cur, l) ->
  exists b, rule_isdst r l flag = Ok b /\ code_dst r (year l) cur flag b.
Proof.
  intros (V1 & O1 & V2 & O2 & A1 & A2) Y F. unfold rule_isdst.
  destruct (change_ok (r_start r) (year l) V1 O1 Y) as (s & Es & Hs). rewrite Es. cbn [bind]. destruct s as [s|].
  2: { exists false. split; auto. right. split; auto. intros s e [C _]. exact (Hs s C). }
  destruct (change_ok (r_end r) (year l) V2 O2 Y) as (e & Ee & He). rewrite Ee. cbn [bind]. destruct e as [e|].
  2: { exists false. split; auto. right. split; auto. intros s' e [_ C]. exact (He e C). }
  rewrite F. cbn [bind]. rewrite !m_abs_ok by auto. cbn [bind].
  eexists. split; [|left; exists s, e; split; [auto|split; [auto|reflexivity]]].
  destruct (s <? e); auto. destruct (s >? e); auto.
Qed.

Lemma get_offset_ok z off l cur flag : valid_zone z off -> year_ok (year l) -> fromgm l = Ok (cur, l) ->
  exists r b, get_offset z l flag = Ok (if b : bool then r_offset_dst r else off, b) /\
    applies (z_rules z) (year l) r /\ code_dst r (year l) cur flag b.
Proof.
  intros (N & S & _ & V) Y F. unfold get_offset. destruct (get_rule_ok (z_rules z) (year l) S N) as (r & E & A). rewrite E. cbn [bind].
  destruct (V r (proj1 A)) as [Vr Vo]. pose proof Vr as ((Vm & _) & _).
  destruct (Z.eqb_spec (c_month (r_start r)) 0); [lia|].
  destruct (isdst_ok r l cur flag Vr Y F) as (b & Eb & Hb). rewrite Eb. cbn [bind]. exists r, b. split; auto. destruct b; auto. now rewrite Vo.
Qed.

Lemma tolocal_ok z off t : valid_zone z off -> Z.abs t <= 2 ^ 61 ->
  exists l0 r b l, togm (t + off) = Ok l0 /\ jan1 (year l0) <= t + off < jan1 (year l0 + 1) /\ applies (z_rules z) (year l0) r /\
    code_dst r (year l0) (t + off) false b /\
    let o := if b : bool then r_offset_dst r else off in
    togm (t + o) = Ok l /\ tolocal t z = Ok (l, b, o).
Proof.
  intros Vz B. pose proof Vz as (N & S & _ & V).
  destruct (togm_year t ltac:(lia)) as (lu & Eu & _). destruct (get_rule_ok (z_rules z) (year lu) S N) as (ru & Er & Au).
  destruct (V ru (proj1 Au)) as [Vru Vo]. pose proof Vru as (_ & _ & _ & _ & Bo & _). rewrite Vo in Bo.
  destruct (togm_year (t + off) ltac:(lia)) as (l0 & E0 & J0 & Y0 & F0).
  destruct (get_offset_ok z off l0 (t + off) false Vz Y0 F0) as (r & b & G & A & C).
  destruct (V r (proj1 A)) as [(_ & _ & _ & _ & _ & Bd) _].
  set (o := if b then r_offset_dst r else off).
  assert (Bo' : Z.abs o <= 2 ^ 31) by (unfold o; destruct b; auto).
  destruct (togm_year (t + o) ltac:(lia)) as (l & E & _).
  exists l0, r, b, l. split; auto. split; auto. split; auto. split; auto. cbn zeta. fold o. split; auto.
  unfold tolocal, adjust_tolocal. destruct (z_rules z) as [|x d] eqn:Ez; [easy|]. rewrite Eu. cbn [bind]. rewrite Er. cbn [bind].
  rewrite Vo, chk_ok by (unfold fits; lia). cbn [bind]. rewrite E0. cbn [bind]. rewrite G. cbn [bind]. fold o.
  rewrite chk_ok by (unfold fits; lia). cbn [bind]. rewrite E. reflexivity.
Qed.

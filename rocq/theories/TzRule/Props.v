From Verif Require Import Base.Lib Sort.Model Sort.Spec Sort.Binary Time.Model Time.Spec Time.Proofs Time.Props
  TzRule.Model TzRule.Spec TzRule.Proofs.
Local Open Scope Z_scope.

(** ** The rule of a year (C87) *)

Fixpoint insert_all (d : list rule) (rs : list rule) : res (list rule) :=
  match rs with
  | [] => Ok d
  | r :: rs' => do d' <- rules_insert d r; insert_all d' rs'
  end.

(** Whatever the order in which the rules are added, the rule used for a year is
    the latest one starting no later, or the earliest if there is none. *)
Theorem tz_rule_of_year : forall rs, exists d, insert_all [] rs = Ok d /\ sorted rule_cmp d /\ Permutation rs d /\
  (forall y, rs <> [] -> exists r, get_rule d y = Ok (Some r) /\ applies rs y r) /\
  (rs = [] -> forall y, get_rule d y = Ok None).
Proof.
  assert (G : forall rs d, sorted rule_cmp d -> exists d', insert_all d rs = Ok d' /\ sorted rule_cmp d' /\ Permutation (rs ++ d) d').
  { induction rs as [|r rs IH]; intros d Hs; cbn [insert_all app]; [exists d; auto|].
    destruct (rules_insert_ok d r Hs) as (d1 & E1 & S1 & P1). rewrite E1. cbn [bind].
    destruct (IH d1 S1) as (d2 & E2 & S2 & P2). exists d2. split; auto. split; auto.
    rewrite <- P2, P1. apply Permutation_middle. }
  intros rs. destruct (G rs [] ltac:(constructor)) as (d & E & S & P). rewrite app_nil_r in P. exists d. split; auto. split; auto. split; auto. split.
  - intros y N. destruct (get_rule_ok d y S) as (r & Er & (I & L & M)).
    { intros ->. apply Permutation_sym, Permutation_nil in P. auto. }
    exists r. split; auto. split; [eapply Permutation_in; [symmetry; eauto|auto]|]. split.
    + intros r' I'. apply L. eapply Permutation_in; eauto.
    + intros Hy r' I'. apply M; auto. eapply Permutation_in; eauto.
  - intros -> y. apply Permutation_nil in P. subst d. reflexivity.
Qed.
Print Assumptions tz_rule_of_year.

(** ** The instant of a change (C88) *)

(** A change on the n-th weekday of a month happens on that weekday at that time,
    and a year without an n-th such weekday has no change. *)
Theorem tz_change_partial : forall c y, valid_change c -> 0 < c_occur c < 2 ^ 27 -> Z.abs y <= 2 ^ 38 - 2 ^ 30 ->
  (forall T, change_to_time c y = Ok (Some T) <-> changes_at c y T) /\
  (change_to_time c y = Ok None <-> forall d, ~ nth_weekday y (c_month c) (c_wday c) (c_occur c) d).
Proof.
  intros c y V O Y. destruct (change_ok c y V O Y) as (o & E & H). rewrite E. destruct o as [T|].
  - split.
    + intros T'. split; [congruence|]. intros C. now rewrite (changes_unique c y T T').
    + split; [discriminate|]. intros N. destruct H as (d & Hd & _). now elim (N d).
  - split.
    + intros T'. split; [discriminate|]. intros C. now elim (H T').
    + split; auto. intros _ d N. eapply H. exists d. split; [exact N|reflexivity].
Qed.
Print Assumptions tz_change_partial.

(** For the n-th weekday from the end of the month, which the header and the
    parser of time zone strings offer, no change ever happens. *)
Theorem tz_change_last_refuted : forall c y, c_occur c < 0 -> forall T, change_to_time c y <> Ok (Some T).
Proof. intros c y O T. destruct (change_negative c y ltac:(lia)) as [E|E]; rewrite E; discriminate. Qed.
Print Assumptions tz_change_last_refuted.

(** The last Sunday of March 2021 was the 28th: no change is found with -1, nor
    with 5, which means the last one in a POSIX zone string. *)
Theorem tz_change_last_refuted_case :
  nth_last_weekday 2021 3 0 1 28 /\
  change_to_time (mkchange 3 0 (-1) 2 0 0) 2021 = Ok None /\ change_to_time (mkchange 3 0 5 2 0 0) 2021 = Ok None.
Proof.
  split; [|split; vm_compute; reflexivity]. split; [vm_compute; intuition discriminate|]. split; [reflexivity|]. vm_compute. intuition discriminate.
Qed.
Print Assumptions tz_change_last_refuted_case.

(** ** Daylight saving time (C89) *)

Lemma summer_year r y s e t off : valid_rule r -> changes_at (r_start r) y s -> changes_at (r_end r) y e ->
  s <= t + off <= e \/ e <= t + off <= s -> jan1 y <= t + off < jan1 (y + 1).
Proof.
  intros (V1 & _ & V2 & _) C1 C2 B. pose proof (changes_in_year _ _ _ V1 C1). pose proof (changes_in_year _ _ _ V2 C2). lia.
Qed.

Lemma same_rule z off y r r' : valid_zone z off -> applies (z_rules z) y r -> applies (z_rules z) y r' -> r = r'.
Proof.
  intros (_ & _ & N & _) A A'. eapply nodup_year; eauto; [apply A|apply A'|]. eapply applies_year; eauto.
Qed.

(** The general shape: [inside] is what the decision amounts to. *)
Lemma tolocal_shape z off (inside : Z -> Z -> Z -> Z -> Prop) t :
  valid_zone z off -> Z.abs t <= 2 ^ 61 ->
  (forall r s e y, In r (z_rules z) -> changes_at (r_start r) y s -> changes_at (r_end r) y e ->
    (inside (r_offset_dst r) s e t -> s <= t + off <= e \/ e <= t + off <= s) /\
    let diff := Z.abs off - Z.abs (r_offset_dst r) in
    ((if s <? e then isdst_mid (t + off) s e diff false else if s >? e then isdst_ends (t + off) s e diff false else t + off =? s) = true
      <-> inside (r_offset_dst r) s e t)) ->
  exists l b o, tolocal t z = Ok (l, b, o) /\ togm (t + o) = Ok l /\
    (b = false -> o = off) /\ (b = true -> exists y r, applies (z_rules z) y r /\ o = r_offset_dst r) /\
    (b = true <-> exists y r s e, applies (z_rules z) y r /\ changes_at (r_start r) y s /\ changes_at (r_end r) y e /\
       inside (r_offset_dst r) s e t).
Proof.
  intros Vz B H. destruct (tolocal_ok z off t Vz B) as (l0 & r & b & l & E0 & J & A & C & E & T).
  pose proof Vz as (_ & _ & _ & V). destruct (V r (proj1 A)) as [Vr Vo].
  exists l, b. eexists. split; [exact T|]. split; [exact E|]. split; [intros ->; reflexivity|]. split; [intros ->; eauto|].
  unfold code_dst in C. rewrite Vo in C. split.
  - intros ->. destruct C as [(s & e & C1 & C2 & Eb)|[_ ?]]; [|discriminate].
    exists (year l0), r, s, e. split; auto. split; auto. split; auto. apply (H r s e (year l0) (proj1 A) C1 C2). symmetry. exact Eb.
  - intros (y & r' & s & e & A' & C1 & C2 & I). destruct (V r' (proj1 A')) as [Vr' Vo'].
    destruct (H r' s e y (proj1 A') C1 C2) as [H1 H2].
    assert (y = year l0) by (eapply year_unique; [eapply summer_year; eauto|exact J]). subst y.
    assert (r' = r) by (eapply same_rule; eauto). subst r'. destruct C as [(s' & e' & C1' & C2' & Eb)|[N _]]; [|elim (N s e); auto].
    assert (s' = s) by (eapply changes_unique; eauto). assert (e' = e) by (eapply changes_unique; eauto). subst s' e'.
    rewrite Eb. apply H2. exact I.
Qed.

(** West of Greenwich, with daylight saving time beginning and ending in the same
    year: the local time is the right one at every instant. *)
Theorem tz_tolocal_partial : forall z off t, valid_zone z off -> Z.abs t <= 2 ^ 61 ->
  (forall r, In r (z_rules z) -> off <= r_offset_dst r <= 0 /\ c_month (r_start r) < c_month (r_end r)) ->
  exists l b o, tolocal t z = Ok (l, b, o) /\ togm (t + o) = Ok l /\
    (b = false -> o = off) /\ (b = true -> exists y r, applies (z_rules z) y r /\ o = r_offset_dst r) /\
    (b = true <-> exists y r s e, applies (z_rules z) y r /\ changes_at (r_start r) y s /\ changes_at (r_end r) y e /\
       summer off (r_offset_dst r) s e t).
Proof.
  intros z off t Vz B W. apply (tolocal_shape z off (fun dst s e t => summer off dst s e t) t Vz B).
  intros r s e y I C1 C2. destruct (W r I) as [Wo Wm]. pose proof Vz as (_ & _ & _ & V). destruct (V r I) as [(V1 & _ & V2 & _) _].
  pose proof (changes_order _ _ _ _ _ Wm V1 V2 C1 C2) as L. unfold summer. split; [lia|]. cbn zeta.
  destruct (Z.ltb_spec s e); [|lia]. unfold isdst_mid. cbn [negb andb].
  destruct (Z.leb_spec (t + off) e), (Z.geb_spec (t + off) (e - (Z.abs off - Z.abs (r_offset_dst r)))), (Z.ltb_spec (t + off) s), (Z.gtb_spec (t + off) e);
    cbn [andb orb]; split; try discriminate; try reflexivity; lia.
Qed.
Print Assumptions tz_tolocal_partial.

(** East of Greenwich the end is found where a clock showing standard time reaches
    the end reading: too late by the length of the shift and a second. *)
Theorem tz_tolocal_east_partial : forall z off t, valid_zone z off -> Z.abs t <= 2 ^ 61 ->
  (forall r, In r (z_rules z) -> 0 <= off < r_offset_dst r /\ c_month (r_start r) < c_month (r_end r)) ->
  exists l b o, tolocal t z = Ok (l, b, o) /\ togm (t + o) = Ok l /\
    (b = false -> o = off) /\ (b = true -> exists y r, applies (z_rules z) y r /\ o = r_offset_dst r) /\
    (b = true <-> exists y r s e, applies (z_rules z) y r /\ changes_at (r_start r) y s /\ changes_at (r_end r) y e /\
       s - off <= t <= e - off).
Proof.
  intros z off t Vz B W. apply (tolocal_shape z off (fun dst s e t => s - off <= t <= e - off) t Vz B).
  intros r s e y I C1 C2. destruct (W r I) as [Wo Wm]. pose proof Vz as (_ & _ & _ & V). destruct (V r I) as [(V1 & _ & V2 & _) _].
  pose proof (changes_order _ _ _ _ _ Wm V1 V2 C1 C2) as L. split; [lia|]. cbn zeta.
  destruct (Z.ltb_spec s e); [|lia]. unfold isdst_mid. cbn [negb andb].
  destruct (Z.leb_spec (t + off) e), (Z.geb_spec (t + off) (e - (Z.abs off - Z.abs (r_offset_dst r)))), (Z.ltb_spec (t + off) s), (Z.gtb_spec (t + off) e);
    cbn [andb orb]; split; try discriminate; try reflexivity; lia.
Qed.
Print Assumptions tz_tolocal_east_partial.

(** Where daylight saving time spans the new year, it is applied in the other half
    of the year: between its end and its next beginning. *)
Theorem tz_tolocal_south_partial : forall z off t, valid_zone z off -> Z.abs t <= 2 ^ 61 ->
  (forall r, In r (z_rules z) -> (0 <= off < r_offset_dst r \/ off < r_offset_dst r <= 0) /\ c_month (r_end r) < c_month (r_start r)) ->
  exists l b o, tolocal t z = Ok (l, b, o) /\ togm (t + o) = Ok l /\
    (b = false -> o = off) /\ (b = true -> exists y r, applies (z_rules z) y r /\ o = r_offset_dst r) /\
    (b = true <-> exists y r s e, applies (z_rules z) y r /\ changes_at (r_start r) y s /\ changes_at (r_end r) y e /\
       e - off <= t /\ if off <? 0 then t < s - r_offset_dst r else t <= s - off).
Proof.
  intros z off t Vz B W.
  apply (tolocal_shape z off (fun dst s e t => e - off <= t /\ if off <? 0 then t < s - dst else t <= s - off) t Vz B).
  intros r s e y I C1 C2. destruct (W r I) as [Wo Wm]. pose proof Vz as (_ & _ & _ & V). destruct (V r I) as [(V1 & _ & V2 & _) _].
  pose proof (changes_order _ _ _ _ _ Wm V2 V1 C2 C1) as L. split; [destruct (Z.ltb_spec off 0); lia|]. cbn zeta.
  destruct (Z.ltb_spec s e); [lia|]. destruct (Z.gtb_spec s e); [|lia]. unfold isdst_ends. cbn [negb andb].
  destruct (Z.leb_spec (t + off) s), (Z.geb_spec (t + off) (s - (Z.abs off - Z.abs (r_offset_dst r)))), (Z.gtb_spec (t + off) s), (Z.ltb_spec (t + off) e), (Z.ltb_spec off 0);
    cbn [andb orb]; split; try discriminate; try reflexivity; lia.
Qed.
Print Assumptions tz_tolocal_south_partial.

(** Cases: a zone like New York's since 1987, ... *)
Definition west : zone := mkzone (-18000) [
  mkrule 2007 (-18000) (-14400) (mkchange 3 0 2 2 0 0) (mkchange 11 0 1 2 0 0);
  mkrule 1987 (-18000) (-14400) (mkchange 4 0 1 2 0 0) (mkchange 10 0 4 2 0 0)].
(** ... the second and first Sundays in a zone an hour east of Greenwich, ... *)
Definition east : zone := mkzone 3600 [mkrule 0 3600 7200 (mkchange 3 0 2 2 0 0) (mkchange 11 0 1 3 0 0)].
(** ... and Sydney: from the first Sunday in October to the first Sunday in April. *)
Definition south : zone := mkzone 36000 [mkrule 0 36000 39600 (mkchange 10 0 1 2 0 0) (mkchange 4 0 1 3 0 0)].

Ltac valid := split; [discriminate|]; split; [repeat constructor; cbn; lia|]; split; [repeat constructor; cbn; intuition lia|];
  cbn; intuition subst; unfold valid_rule, valid_change; cbn; lia.

Example west_valid : valid_zone west (-18000) /\
  forall r, In r (z_rules west) -> -18000 <= r_offset_dst r <= 0 /\ c_month (r_start r) < c_month (r_end r).
Proof. split; [valid|]. cbn. intuition subst; cbn; lia. Qed.

(** 2021-11-07 05:59:59Z is 01:59:59 summer time, a second later it is 01:00:00 again. *)
Example west_case :
  tolocal 1636264799 west = Ok (mktm 11 7 2021 21 1 59 59 0 310, true, -14400) /\
  tolocal 1636264800 west = Ok (mktm 11 7 2021 21 1 0 0 0 310, false, -18000) /\
  fromlocal (mktm 11 7 2021 21 1 30 0 0 0) true west = Ok (1636263000, (mktm 11 7 2021 21 1 30 0 0 310, true, -14400)) /\
  fromlocal (mktm 11 7 2021 21 1 30 0 0 0) false west = Ok (1636266600, (mktm 11 7 2021 21 1 30 0 0 310, false, -18000)).
Proof. vm_compute. auto. Qed.

(** East: on 2021-11-07 summer time ends at 01:00:00Z, but an hour later it is still
    applied. *)
Theorem tz_tolocal_east_refuted : valid_zone east 3600 /\
  exists r s e t l, In r (z_rules east) /\ changes_at (r_start r) 2021 s /\ changes_at (r_end r) 2021 e /\ s < e /\
    ~ summer 3600 7200 s e t /\ t = e - 7200 + 3600 /\ tolocal t east = Ok (l, true, 7200).
Proof.
  split; [valid|]. eexists _, (reading 2021 3 14 2 0 0), (reading 2021 11 7 3 0 0), _, _. split; [left; reflexivity|].
  split; [exists 14; split; [vm_compute; intuition discriminate|reflexivity]|].
  split; [exists 7; split; [vm_compute; intuition discriminate|reflexivity]|].
  split; [vm_compute; reflexivity|]. split; [|split; [reflexivity|vm_compute; reflexivity]]. unfold summer. lia.
Qed.
Print Assumptions tz_tolocal_east_refuted.

(** Sydney: standard time at New Year, summer time in July. *)
Theorem tz_tolocal_south_refuted : valid_zone south 36000 /\
  exists r s e t t' l l', In r (z_rules south) /\ changes_at (r_start r) 2021 s /\ changes_at (r_end r) 2021 e /\
    summer_south 36000 39600 s e t /\ tolocal t south = Ok (l, false, 36000) /\ (year l, month l, day l) = (2021, 1, 1) /\
    ~ summer_south 36000 39600 s e t' /\ tolocal t' south = Ok (l', true, 39600) /\ (year l', month l', day l') = (2021, 7, 1).
Proof.
  split; [valid|]. eexists _, (reading 2021 10 3 2 0 0), (reading 2021 4 4 3 0 0), (reading 2021 1 1 0 0 0), (reading 2021 7 1 0 0 0), _, _.
  split; [left; reflexivity|].
  split; [exists 3; split; [vm_compute; intuition discriminate|reflexivity]|].
  split; [exists 4; split; [vm_compute; intuition discriminate|reflexivity]|].
  split; [left; vm_compute; reflexivity|]. split; [vm_compute; reflexivity|]. split; [reflexivity|].
  split; [|split; [vm_compute; reflexivity|reflexivity]]. unfold summer_south. vm_compute. intuition discriminate.
Qed.
Print Assumptions tz_tolocal_south_refuted.

(** ** Local time and back (C90) *)

(** A zone without rules. *)
Theorem tz_fixed_round_trip : forall off t, Z.abs off <= 2 ^ 31 -> Z.abs t <= 2 ^ 61 ->
  exists l, tolocal t (mkzone off []) = Ok (l, false, off) /\ togm (t + off) = Ok l /\
    forall flag, fromlocal l flag (mkzone off []) = Ok (t, (l, false, off)).
Proof.
  intros off t Bo B. destruct (togm_year (t + off) ltac:(lia)) as (l & E & _ & _ & F).
  assert (T : tolocal t (mkzone off []) = Ok (l, false, off)).
  { unfold tolocal. cbn. rewrite chk_ok by (unfold fits; lia). cbn [bind]. rewrite E. reflexivity. }
  exists l. split; auto. split; auto. intros flag. unfold fromlocal. rewrite F. cbn [bind]. unfold adjust_fromlocal, get_offset. cbn -[tolocal].
  rewrite chk_ok by (unfold fits; lia). cbn [bind]. rewrite chk_ok by (unfold fits; lia). cbn [bind].
  replace (t + off + off * -1) with t by lia. rewrite T. reflexivity.
Qed.
Print Assumptions tz_fixed_round_trip.

(** West of Greenwich, the local time with its isdst stands for the instant it
    was made of; this holds for the hour that happens twice too. *)
Theorem tz_round_trip_partial : forall z off t l b o, valid_zone z off -> Z.abs t <= 2 ^ 61 ->
  (forall r, In r (z_rules z) -> off <= r_offset_dst r <= 0 /\ c_month (r_start r) <> c_month (r_end r)) ->
  tolocal t z = Ok (l, b, o) -> fromlocal l b z = Ok (t, (l, b, o)).
Proof.
  intros z off t l b o Vz B W T. destruct (tolocal_ok z off t Vz B) as (l0 & r & b0 & l1 & E0 & J & A & C & E & T').
  cbn zeta in *. set (o0 := if b0 then r_offset_dst r else off) in *. assert (o = o0 /\ b = b0 /\ l = l1) as (-> & -> & ->) by (rewrite T in T'; injection T'; auto).
  destruct (W r (proj1 A)) as [Wo Wm]. pose proof Vz as (_ & _ & _ & V). destruct (V r (proj1 A)) as [Vr Vo].
  pose proof Vr as (V1 & _ & V2 & _ & Bo & Bd). rewrite Vo in Bo.
  assert (Bo' : Z.abs o0 <= 2 ^ 31) by (unfold o0; destruct b0; auto).
  destruct (togm_year (t + o0) ltac:(lia)) as (l2 & E2 & J2 & Y2 & F2). assert (l2 = l1) by congruence. subst l2.
  destruct (get_offset_ok z off l1 (t + o0) b0 Vz Y2 F2) as (r' & b' & G & A' & C').
  assert (X : year l1 = year l0 /\ b' = b0).
  { unfold code_dst in C. rewrite Vo in C. cbn zeta in C. destruct b0.
    - destruct C as [(s & e & C1 & C2 & Eb)|[_ ?]]; [|discriminate]. unfold o0 in *. clear o0.
      pose proof (changes_in_year _ _ _ V1 C1) as I1. pose proof (changes_in_year _ _ _ V2 C2) as I2.
      assert (N : s <> e).
      { intros ->. destruct (Z.lt_trichotomy (c_month (r_start r)) (c_month (r_end r))) as [L|[L|L]]; auto.
        - pose proof (changes_order _ _ _ _ _ L V1 V2 C1 C2). lia.
        - pose proof (changes_order _ _ _ _ _ L V2 V1 C2 C1). lia. }
      assert (Y : year l1 = year l0 /\ Z.min s e <= t + r_offset_dst r < Z.max s e).
      { assert (K : Z.min s e <= t + r_offset_dst r < Z.max s e).
        { destruct (Z.ltb_spec s e).
          - unfold isdst_mid in Eb. cbn [negb andb] in Eb.
            destruct (Z.leb_spec (t + off) e), (Z.geb_spec (t + off) (e - (Z.abs off - Z.abs (r_offset_dst r)))), (Z.ltb_spec (t + off) s), (Z.gtb_spec (t + off) e);
              cbn [andb orb] in Eb; try discriminate; lia.
          - destruct (Z.gtb_spec s e); [|lia]. unfold isdst_ends in Eb. cbn [negb andb] in Eb.
            destruct (Z.leb_spec (t + off) s), (Z.geb_spec (t + off) (s - (Z.abs off - Z.abs (r_offset_dst r)))), (Z.gtb_spec (t + off) s), (Z.ltb_spec (t + off) e);
              cbn [andb orb] in Eb; try discriminate; lia. }
        split; auto. apply (year_unique _ _ (t + r_offset_dst r)); auto. lia. }
      destruct Y as [Y K]. rewrite Y in *. split; auto. assert (r' = r) by (eapply same_rule; eauto). subst r'.
      destruct C' as [(s' & e' & C1' & C2' & Eb')|[Nn _]]; [|elim (Nn s e); auto].
      assert (s' = s) by (eapply changes_unique; eauto). assert (e' = e) by (eapply changes_unique; eauto). subst s' e'.
      rewrite Eb'. destruct (Z.ltb_spec s e).
      + unfold isdst_mid. cbn [negb andb]. destruct (Z.ltb_spec (t + r_offset_dst r) s), (Z.gtb_spec (t + r_offset_dst r) e); cbn [orb]; auto; lia.
      + destruct (Z.gtb_spec s e); [|lia]. unfold isdst_ends. cbn [negb andb].
        destruct (Z.gtb_spec (t + r_offset_dst r) s), (Z.ltb_spec (t + r_offset_dst r) e); cbn [orb]; auto; lia.
    - unfold o0 in *. assert (l1 = l0) by congruence. subst l1. split; auto. assert (r' = r) by (eapply same_rule; eauto). subst r'.
      unfold code_dst in C'. rewrite Vo in C'. cbn zeta in C'.
      destruct C as [(s & e & C1 & C2 & Eb)|[N _]], C' as [(s' & e' & C1' & C2' & Eb')|[N' ?]]; auto; [|elim (N s' e'); auto].
      assert (s' = s) by (eapply changes_unique; eauto). assert (e' = e) by (eapply changes_unique; eauto). subst s' e'. congruence. }
  destruct X as [Xy ->]. rewrite Xy in A'. assert (r' = r) by (eapply same_rule; eauto). subst r'. fold o0 in G.
  unfold fromlocal. rewrite F2. cbn [bind]. unfold adjust_fromlocal. rewrite G. cbn [bind].
  rewrite chk_ok by (unfold fits; lia). cbn [bind]. rewrite chk_ok by (unfold fits; lia). cbn [bind].
  replace (t + o0 + o0 * -1) with t by lia. rewrite T. reflexivity.
Qed.
Print Assumptions tz_round_trip_partial.

(** East of Greenwich it is false in the hour in which summer time is applied too
    long. *)
Theorem tz_round_trip_refuted : valid_zone east 3600 /\ exists t l b o x,
  tolocal t east = Ok (l, b, o) /\ fromlocal l b east = Ok (t + 3600, x).
Proof. split; [valid|]. exists (1636246800 + 1800). eexists _, _, _, _. split; [vm_compute; reflexivity|]. vm_compute; reflexivity. Qed.
Print Assumptions tz_round_trip_refuted.

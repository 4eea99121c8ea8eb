From Verif Require Import Base.Lib Rand.Model.
Local Open Scope N_scope.

Lemma tail_bound range : 0 < range -> range <= RAND_MAX ->
  RAND_MAX - RAND_MAX mod range = range * (RAND_MAX / range).
Proof. intros H Hr. pose proof (N.div_mod RAND_MAX range ltac:(lia)). lia. Qed.

Lemma group_pos range : 0 < range -> range <= RAND_MAX -> 0 < RAND_MAX / range.
Proof. intros H Hr. apply N.div_str_pos. lia. Qed.

Lemma rand_range_in {S} (gen : S -> N * S) : forall fuel st min max v st',
  min < max -> max < W -> rand_range gen fuel st min max = Ok (v, st') -> min <= v < max.
Proof.
  intros fuel st min max v st' Hlt Hmax.
  assert (HR : max - min <= RAND_MAX) by (unfold RAND_MAX; unfold W in Hmax; lia).
  pose proof (tail_bound (max - min) ltac:(lia) HR) as T.
  pose proof (group_pos (max - min) ltac:(lia) HR) as G.
  revert st. induction fuel as [|f IH]; intros st; cbn [rand_range];
    replace (max <=? min) with false by lia; [discriminate|].
  destruct (gen st) as [r st1].
  destruct (N.leb_spec (RAND_MAX - RAND_MAX mod (max - min)) r) as [H|H]; [apply IH|].
  intros E; injection E as <- _. rewrite T in H.
  assert (r / (RAND_MAX / (max - min)) < max - min) by (apply N.div_lt_upper_bound; nia).
  revert H0. generalize (r / (RAND_MAX / (max - min))). intros x Hx.
  rewrite N.mod_small by lia. lia.
Qed.

Lemma rand_range_first {S} (gen : S -> N * S) f st min max r st1 :
  min < max -> max < W -> gen st = (r, st1) ->
  r < (max - min) * (RAND_MAX / (max - min)) ->
  rand_range gen (Datatypes.S f) st min max = Ok (min + r / (RAND_MAX / (max - min)), st1).
Proof.
  intros Hlt Hmax Hg Hr.
  assert (HR : max - min <= RAND_MAX) by (unfold RAND_MAX; unfold W in Hmax; lia).
  pose proof (tail_bound (max - min) ltac:(lia) HR) as T.
  pose proof (group_pos (max - min) ltac:(lia) HR) as G.
  cbn [rand_range]. replace (max <=? min) with false by lia. rewrite Hg, T.
  replace ((max - min) * (RAND_MAX / (max - min)) <=? r) with false by lia.
  assert (r / (RAND_MAX / (max - min)) < max - min) by (apply N.div_lt_upper_bound; nia).
  revert H. generalize (r / (RAND_MAX / (max - min))). intros x Hx.
  rewrite N.mod_small by lia. reflexivity.
Qed.

(** Which raw draws give which value: [RAND_MAX / range] consecutive ones each. *)
Lemma rand_range_uniform {S} (gen : S -> N * S) f st min max v r st1 :
  min <= v < max -> max < W -> gen st = (r, st1) ->
  (max - min) * (RAND_MAX / (max - min)) <= r \/
  (rand_range gen (Datatypes.S f) st min max = Ok (v, st1) <->
   (v - min) * (RAND_MAX / (max - min)) <= r < (v - min + 1) * (RAND_MAX / (max - min))).
Proof.
  intros Hv Hmax Hg.
  destruct (N.le_gt_cases ((max - min) * (RAND_MAX / (max - min))) r) as [H|H]; [now left|right].
  rewrite (rand_range_first gen f st min max r st1) by (auto; lia).
  assert (HR : max - min <= RAND_MAX) by (unfold RAND_MAX; unfold W in Hmax; lia).
  pose proof (group_pos (max - min) ltac:(lia) HR) as G.
  set (q := RAND_MAX / (max - min)) in *.
  pose proof (N.div_mod r q ltac:(lia)) as D. pose proof (N.mod_lt r q ltac:(lia)) as L.
  split.
  - intros E; injection E as E. replace (v - min) with (r / q) by lia. nia.
  - intros Hq. f_equal. f_equal. enough (r / q = v - min) by lia.
    symmetry. apply (N.div_unique r q (v - min) (r - (v - min) * q)); nia.
Qed.

(** Retries happen on fewer than [range] of the 2^64 draws plus one. *)
Lemma rand_range_retry min max : min < max -> max < W ->
  W - (max - min) * (RAND_MAX / (max - min)) <= max - min.
Proof.
  intros Hlt Hmax. unfold W in *.
  pose proof (N.div_mod RAND_MAX (max - min) ltac:(lia)). pose proof (N.mod_lt RAND_MAX (max - min) ltac:(lia)).
  unfold RAND_MAX in *. lia.
Qed.

(** ** xoshiro never falls into the all-zero state *)

Lemma rotl_0 v r : 0 < r -> r < 64 -> v < W -> rotl v r = 0 -> v = 0.
Proof.
  intros H0 H1 Hv H. unfold rotl in H. apply N.lor_eq_0_iff in H as [A B].
  unfold W in *. rewrite N.shiftr_div_pow2 in B. rewrite N.shiftl_mul_pow2 in A.
  apply N.div_small_iff in B; [|apply N.pow_nonzero; lia].
  assert (E : 2 ^ 64 = 2 ^ (64 - r) * 2 ^ r) by (rewrite <- N.pow_add_r; f_equal; lia).
  assert (0 < 2 ^ r) by (apply N.neq_0_lt_0, N.pow_nonzero; lia).
  rewrite E in A. rewrite N.mod_small in A by nia. nia.
Qed.


Lemma xorshift_0 x : x < W -> N.lxor x (N.shiftl x 17 mod W) = 0 -> x = 0.
Proof.
  intros Hx H. apply N.lxor_eq in H. apply N.bits_inj_0. intros i.
  induction i as [i IH] using (well_founded_induction N.lt_wf_0).
  rewrite H. unfold W. destruct (N.lt_ge_cases i 64).
  - rewrite N.mod_pow2_bits_low by lia. destruct (N.lt_ge_cases i 17).
    + apply N.shiftl_spec_low; lia.
    + rewrite N.shiftl_spec_high' by lia. apply IH. lia.
  - apply N.mod_pow2_bits_high. lia.
Qed.

Definition words (s : rstate) : Prop := s0 s < W /\ s1 s < W /\ s2 s < W /\ s3 s < W.
Definition nonzero (s : rstate) : Prop := ~ (s0 s = 0 /\ s1 s = 0 /\ s2 s = 0 /\ s3 s = 0).

Lemma lxor_lt a b : a < W -> b < W -> N.lxor a b < W.
Proof.
  unfold W. intros Ha Hb. destruct (N.eq_dec (N.lxor a b) 0) as [->|H]; [lia|].
  apply N.log2_lt_pow2; [lia|]. eapply N.le_lt_trans; [apply N.log2_lxor|].
  destruct (N.eq_dec a 0) as [->|]; destruct (N.eq_dec b 0) as [->|]; cbn [N.max N.log2] ;
    rewrite ?N.max_0_l, ?N.max_0_r;
    try (apply N.max_lub_lt); try (apply N.log2_lt_pow2; lia); try lia.
Qed.

Lemma lor_lt a b : a < W -> b < W -> N.lor a b < W.
Proof.
  unfold W. intros Ha Hb. destruct (N.eq_dec (N.lor a b) 0) as [->|H]; [lia|].
  apply N.log2_lt_pow2; [lia|]. rewrite N.log2_lor.
  destruct (N.eq_dec a 0) as [->|]; destruct (N.eq_dec b 0) as [->|]; 
    rewrite ?N.max_0_l, ?N.max_0_r;
    try (apply N.max_lub_lt); try (apply N.log2_lt_pow2; lia); try (cbn; lia).
Qed.

Lemma rotl_lt v r : v < W -> rotl v r < W.
Proof.
  intros Hv. apply lor_lt.
  - apply N.mod_lt. discriminate.
  - rewrite N.shiftr_div_pow2. eapply N.le_lt_trans; [apply N.div_le_upper_bound with (q := v)|exact Hv].
    + apply N.pow_nonzero; lia.
    + assert (0 < 2 ^ (64 - r)) by (apply N.neq_0_lt_0, N.pow_nonzero; lia). nia.
Qed.

Lemma rand_step_words s : words s -> words (snd (rand_step s)) /\ fst (rand_step s) < W.
Proof.
  intros (H0 & H1 & H2 & H3). unfold rand_step, words. cbn.
  assert (N.shiftl (s1 s) 17 mod W < W) by (apply N.mod_lt; discriminate).
  repeat split; auto using lxor_lt, rotl_lt. apply N.mod_lt. discriminate.
Qed.

Lemma rand_step_nonzero s : words s -> nonzero s -> nonzero (snd (rand_step s)).
Proof.
  intros (H0 & H1 & H2 & H3) Hn (E0 & E1 & E2 & E3). cbn in E0, E1, E2, E3.
  apply Hn. apply rotl_0 in E3; [|lia|lia|apply lxor_lt; auto].
  rewrite E3, N.lxor_0_r in E0. apply N.lxor_eq in E3. apply N.lxor_eq in E1.
  rewrite <- E1 in E2. apply xorshift_0 in E2; [|auto].
  rewrite E0, N.lxor_0_r in E1. rewrite E2 in *. auto.
Qed.

(** the state map is one-to-one *)
Lemma rotl_inj v w r : 0 < r -> r < 64 -> v < W -> w < W -> rotl v r = rotl w r -> v = w.
Proof.
  intros H0 H1 Hv Hw H.
  assert (S : forall u, u < W -> forall i, i < 64 - r -> N.testbit (rotl u r) (i + r) = N.testbit u i).
  { intros u Hu i Hi. unfold rotl. rewrite N.lor_spec. unfold W.
    rewrite N.mod_pow2_bits_low by lia. rewrite N.shiftl_spec_high' by lia.
    rewrite N.shiftr_spec'. replace (i + r - r) with i by lia.
    replace (N.testbit u (i + r + (64 - r))) with false; [apply orb_false_r|].
    symmetry. destruct (N.eq_dec u 0) as [->|]; [apply N.bits_0|]. apply N.bits_above_log2.
    assert (N.log2 u < 64) by (apply N.log2_lt_pow2; unfold W in Hu; lia). lia. }
  assert (L : forall u, u < W -> forall i, i < r -> N.testbit (rotl u r) i = N.testbit u (i + (64 - r))).
  { intros u Hu i Hi. unfold rotl. rewrite N.lor_spec. unfold W.
    rewrite N.mod_pow2_bits_low by lia. rewrite N.shiftl_spec_low by lia. rewrite N.shiftr_spec'. reflexivity. }
  apply N.bits_inj. intros i. destruct (N.lt_ge_cases i (64 - r)).
  - rewrite <- (S v Hv i), <- (S w Hw i) by auto. now rewrite H.
  - destruct (N.lt_ge_cases i 64).
    + replace i with (i - (64 - r) + (64 - r)) by lia. rewrite <- (L v Hv), <- (L w Hw) by lia. now rewrite H.
    + assert (Z : forall u, u < W -> N.testbit u i = false).
      { intros u Hu. destruct (N.eq_dec u 0) as [->|]; [apply N.bits_0|]. apply N.bits_above_log2.
        assert (N.log2 u < 64) by (apply N.log2_lt_pow2; unfold W in Hu; lia). lia. }
      now rewrite !Z.
Qed.

Lemma lxor_cancel a b c d : N.lxor a b = N.lxor c d -> N.lxor a c = N.lxor b d.
Proof.
  intros H. apply N.bits_inj. intros i. assert (B : N.testbit (N.lxor a b) i = N.testbit (N.lxor c d) i) by now rewrite H.
  rewrite !N.lxor_spec in *.
  destruct (N.testbit a i), (N.testbit b i), (N.testbit c i), (N.testbit d i); cbn in *; congruence.
Qed.

Lemma shl_lxor a b : N.lxor (N.shiftl a 17 mod W) (N.shiftl b 17 mod W) = N.shiftl (N.lxor a b) 17 mod W.
Proof.
  unfold W. apply N.bits_inj. intros i. rewrite N.lxor_spec. destruct (N.lt_ge_cases i 64).
  - rewrite !N.mod_pow2_bits_low by lia. rewrite N.shiftl_lxor, N.lxor_spec. reflexivity.
  - rewrite !N.mod_pow2_bits_high by lia. reflexivity.
Qed.

Lemma rand_step_inj s t : words s -> words t -> snd (rand_step s) = snd (rand_step t) -> s = t.
Proof.
  intros (A0 & A1 & A2 & A3) (B0 & B1 & B2 & B3). unfold rand_step. cbn [snd]. intros H.
  injection H as E0 E1 E2 E3.
  apply rotl_inj in E3; [|lia|lia|apply lxor_lt; auto|apply lxor_lt; auto].
  rewrite E3 in E0.
  assert (H0 : s0 s = s0 t).
  { apply lxor_cancel in E0. rewrite N.lxor_nilpotent in E0. now apply N.lxor_eq. }
  apply lxor_cancel in E1. apply lxor_cancel in E2. rewrite shl_lxor, <- E1 in E2.
  assert (H1 : N.lxor (s1 s) (s1 t) = 0).
  { apply xorshift_0; [apply lxor_lt; auto|]. rewrite <- E2. apply N.lxor_nilpotent. }
  rewrite H1 in E1. symmetry in E1. apply N.lxor_eq in E1, H1. rewrite H0 in E1.
  assert (H2 : s2 s = s2 t).
  { apply lxor_cancel in E1. rewrite N.lxor_nilpotent in E1. now apply N.lxor_eq. }
  rewrite H1 in E3. apply lxor_cancel in E3. rewrite N.lxor_nilpotent in E3. apply N.lxor_eq in E3.
  destruct s, t; cbn in *; congruence.
Qed.

(** ** M_rand_str *)

Lemma rand_range_draw {S} (gen : S -> N * S) fuel st max v st' :
  0 < max -> max < W -> rand_range gen fuel st 0 max = Ok (v, st') -> v < max.
Proof. intros H Hm E. eapply rand_range_in in E; eauto. lia. Qed.

Lemma rand_range_not_ub {S} (gen : S -> N * S) : forall fuel st min max, rand_range gen fuel st min max <> UB.
Proof.
  induction fuel as [|f IH]; intros st min max; cbn [rand_range];
    destruct (max <=? min); try (destruct (min =? max); discriminate); try discriminate.
  destruct (gen st) as [r st1]. destruct (_ <=? r); [apply IH|discriminate].
Qed.

Lemma rand_str_loop_ok {S} (gen : S -> N * S) fuel cs :
  (0 < length cs)%nat -> N.of_nat (length cs) < W -> forall len st out i,
  (i + len < length out)%nat ->
  rand_str_loop gen fuel st cs out i len = Fuel \/
  exists o st' t, rand_str_loop gen fuel st cs out i len = Ok (o, st') /\ length o = length out /\
    length t = len /\ Forall (fun c => In c cs) t /\ firstn (i + len) o = firstn i out ++ t.
Proof.
  intros H0 HW. induction len as [|n IH]; intros st out i Hl; cbn [rand_str_loop].
  - right. exists out, st, []. rewrite Nat.add_0_r, app_nil_r. repeat split; auto.
  - destruct (rand_range gen fuel st 0 (N.of_nat (length cs))) as [[v st1]| |] eqn:E; cbn [bind fst snd]; [| |now left].
    2:{ exfalso. eapply rand_range_not_ub; eauto. }
    apply rand_range_draw in E; [|lia|auto].
    destruct (rd_lt cs (i := N.to_nat v) ltac:(lia)) as [c Hc]. rewrite Hc. cbn [bind].
    destruct (wr_seq out c (pos := i) ltac:(lia)) as (m & Em & Lm & Fm & _). rewrite Em. cbn [bind].
    destruct (IH st1 m (Datatypes.S i)) as [Hf|(o & st' & t & Eo & Lo & Lt & Ft & Fo)]; [lia|now left|].
    right. exists o, st', (c :: t). rewrite Eo. replace (Datatypes.S i + n)%nat with (i + Datatypes.S n)%nat in Fo by lia.
    repeat split; cbn [length]; try congruence.
    + constructor; auto. apply rd_Ok, nth_error_In in Hc. exact Hc.
    + rewrite Fo, Fm, <- app_assoc. reflexivity.
Qed.

Lemma rand_str_ok {S} (gen : S -> N * S) fuel st cs out len :
  (0 < length cs)%nat -> N.of_nat (length cs) < W -> (0 < len)%nat -> (len < length out)%nat ->
  rand_str gen fuel st cs out len = Fuel \/
  exists o st' t, rand_str gen fuel st cs out len = Ok (true, o, st') /\
    length t = len /\ Forall (fun c => In c cs) t /\ firstn (Datatypes.S len) o = t ++ [0].
Proof.
  intros H0 HW Hl Ho. unfold rand_str.
  replace ((length cs =? 0)%nat || (len =? 0)%nat) with false by lia.
  destruct (rand_str_loop_ok gen fuel cs H0 HW len st out 0%nat) as [->|(o & st' & t & E & L & Lt & Ft & Fo)];
    [lia|now left|].
  right. rewrite E. cbn [bind fst snd]. cbn [Nat.add] in Fo. rewrite firstn_O in Fo. cbn [app] in Fo.
  destruct (wr_seq o 0 (pos := len) ltac:(lia)) as (m & Em & Lm & Fm & _). rewrite Em. cbn [bind].
  exists m, st', t. rewrite Fm, Fo. auto.
Qed.

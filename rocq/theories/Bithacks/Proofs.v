From Verif Require Import Base.Lib Bithacks.Model Bithacks.Spec.
Local Open Scope N_scope.

Lemma pow2_pos k : 0 < 2 ^ k.
Proof. apply N.neq_0_lt_0, N.pow_nonzero. lia. Qed.

Lemma testbit_high n k i : n < 2 ^ k -> k <= i -> N.testbit n i = false.
Proof.
  intros H Hi. destruct (N.eq_dec n 0) as [->|Hn]; [apply N.bits_0|].
  apply N.bits_above_log2. apply N.log2_lt_pow2 in H; lia.
Qed.

Lemma is_power_of_two_ok n : is_power_of_two n = true <-> pow2 n.
Proof.
  unfold is_power_of_two, pow2. destruct (N.eqb_spec n 0) as [->|Hn].
  - split; [discriminate|]. intros [k Hk]. pose proof (pow2_pos k). lia.
  - destruct (N.eqb_spec (N.land n (n - 1)) 0) as [H|H]; cbn [negb]; split; auto; try discriminate.
    + intros _. exists (N.log2 n).
      pose proof (N.log2_spec n ltac:(lia)) as [H1 H2].
      destruct (N.eq_dec n (2 ^ N.log2 n)) as [E|E]; [exact E|exfalso].
      assert (Hb : N.testbit (N.land n (n - 1)) (N.log2 n) = true).
      { rewrite N.land_spec, N.bit_log2 by lia.
        replace (N.log2 n) with (N.log2 (n - 1)).
        - apply N.bit_log2. pose proof (pow2_pos (N.log2 n)). lia.
        - apply N.log2_unique; [lia|]. rewrite N.pow_succ_r in * by lia. lia. }
      rewrite H, N.bits_0 in Hb. discriminate.
    + intros [k ->]. exfalso. apply H. apply N.bits_inj_0. intros i.
      rewrite N.land_spec, N.pow2_bits_eqb. destruct (N.eqb_spec k i) as [->|]; auto. cbn.
      apply (testbit_high _ i); [|lia]. pose proof (pow2_pos i). lia.
Qed.

(** bits of x are those of n or-ed over the k next higher positions *)
Definition smeared (n k x : N) : Prop :=
  forall i, N.testbit x i = true <-> exists d, d < k /\ N.testbit n (i + d) = true.

Lemma smeared_1 n : smeared n 1 n.
Proof.
  intros i. split.
  - intros H. exists 0. rewrite N.add_0_r. split; [lia|auto].
  - intros (d & Hd & H). replace d with 0 in H by lia. rewrite N.add_0_r in H. auto.
Qed.

Lemma smeared_step n k x : smeared n k x -> smeared n (k + k) (smear k x).
Proof.
  intros H i. unfold smear. rewrite N.lor_spec, N.shiftr_spec', orb_true_iff, (H i), (H (i + k)). split.
  - intros [(d & Hd & B)|(d & Hd & B)].
    + exists d. split; [lia|auto].
    + exists (k + d). split; [lia|]. rewrite N.add_assoc. auto.
  - intros (d & Hd & B). destruct (N.lt_ge_cases d k).
    + left. eauto.
    + right. exists (d - k). split; [lia|]. replace (i + k + (d - k)) with (i + d) by lia. auto.
Qed.

Lemma smeared_ones n w x : 0 < n -> n < 2 ^ w -> smeared n w x -> x = N.ones (N.log2 n + 1).
Proof.
  intros H0 Hw Hs. apply N.bits_inj. intros i.
  assert (Hlog : N.log2 n < w) by (apply N.log2_lt_pow2; lia).
  destruct (N.lt_ge_cases i (N.log2 n + 1)).
  - rewrite N.ones_spec_low by lia. apply Hs. exists (N.log2 n - i). split; [lia|].
    replace (i + (N.log2 n - i)) with (N.log2 n) by lia. apply N.bit_log2. lia.
  - rewrite N.ones_spec_high by lia. destruct (N.testbit x i) eqn:E; auto.
    apply Hs in E as (d & _ & B). rewrite N.bits_above_log2 in B by lia. discriminate.
Qed.

Lemma smeared_0 w x : smeared 0 w x -> x = 0.
Proof.
  intros H. apply N.bits_inj_0. intros i. destruct (N.testbit x i) eqn:E; auto.
  apply H in E as (d & _ & B). rewrite N.bits_0 in B. discriminate.
Qed.

Lemma smear32_smeared n : smeared n 32 (smear 16 (smear 8 (smear 4 (smear 2 (smear 1 n))))).
Proof.
  apply (smeared_step n 16), (smeared_step n 8), (smeared_step n 4), (smeared_step n 2), (smeared_step n 1), smeared_1.
Qed.
Lemma smear64_smeared n : smeared n 64 (smear 32 (smear 16 (smear 8 (smear 4 (smear 2 (smear 1 n)))))).
Proof. apply (smeared_step n 32), smear32_smeared. Qed.

Lemma ones_half k : N.ones (k + 1) - N.shiftr (N.ones (k + 1)) 1 = 2 ^ k.
Proof.
  rewrite N.shiftr_div_pow2, N.pow_1_r, N.ones_equiv.
  replace (N.pred (2 ^ (k + 1))) with (1 + (2 ^ k - 1) * 2)
    by (rewrite N.add_1_r, N.pow_succ_r by lia; pose proof (pow2_pos k); lia).
  rewrite N.div_add by lia. change (1 / 2) with 0. pose proof (pow2_pos k). lia.
Qed.

Lemma round_down_gen n w x : 0 < n -> n < 2 ^ w -> smeared n w x ->
  (x + 2 ^ w - N.shiftr x 1) mod 2 ^ w = 2 ^ N.log2 n.
Proof.
  intros H0 Hw Hs. rewrite (smeared_ones n w x H0 Hw Hs).
  assert (Hlog : N.log2 n < w) by (apply N.log2_lt_pow2; lia).
  pose proof (ones_half (N.log2 n)) as E. 
  assert (N.shiftr (N.ones (N.log2 n + 1)) 1 <= N.ones (N.log2 n + 1)).
  { rewrite N.shiftr_div_pow2. apply N.div_le_upper_bound; [discriminate|]. rewrite N.pow_1_r. lia. }
  replace (N.ones (N.log2 n + 1) + 2 ^ w - N.shiftr (N.ones (N.log2 n + 1)) 1)
    with (2 ^ N.log2 n + 1 * 2 ^ w) by lia.
  rewrite N.mod_add by (pose proof (pow2_pos w); lia).
  apply N.mod_small. apply N.pow_lt_mono_r; lia.
Qed.

Lemma greatest_log2 n : 0 < n -> greatest_pow2_le n (2 ^ N.log2 n).
Proof.
  intros H. pose proof (N.log2_spec n H) as [H1 H2]. split; [exists (N.log2 n); auto|].
  split; [auto|]. intros q [k ->] Hk. apply N.pow_le_mono_r; [lia|].
  apply N.log2_le_pow2; lia.
Qed.

Lemma round_down32_ok n : 0 < n -> n < W32 -> greatest_pow2_le n (round_down32 n).
Proof.
  intros H0 H. unfold round_down32, W32.
  rewrite (round_down_gen n 32 _ H0 H (smear32_smeared n)). apply greatest_log2, H0.
Qed.
Lemma round_down64_ok n : 0 < n -> n < W64 -> greatest_pow2_le n (round_down64 n).
Proof.
  intros H0 H. unfold round_down64, W64.
  rewrite (round_down_gen n 64 _ H0 H (smear64_smeared n)). apply greatest_log2, H0.
Qed.

Lemma round_up_gen n w x : 0 < w -> 0 < n -> n <= 2 ^ (w - 1) -> smeared ((n + 2 ^ w - 1) mod 2 ^ w) w x ->
  least_pow2_ge n ((x + 1) mod 2 ^ w).
Proof.
  intros Hw H0 Hn Hs.
  assert (E2 : 2 ^ w = 2 * 2 ^ (w - 1)) by (rewrite <- N.pow_succ_r by lia; f_equal; lia).
  pose proof (pow2_pos (w - 1)) as Hp.
  assert (Em : (n + 2 ^ w - 1) mod 2 ^ w = n - 1).
  { replace (n + 2 ^ w - 1) with (n - 1 + 1 * 2 ^ w) by lia. rewrite N.mod_add by lia. apply N.mod_small. lia. }
  rewrite Em in Hs. destruct (N.eq_dec n 1) as [->|Hn1].
  - change (1 - 1) with 0 in Hs. rewrite (smeared_0 _ _ Hs). cbn [N.add].
    rewrite N.mod_small by lia. split; [exists 0; auto|]. split; [lia|]. intros q [k ->] _.
    pose proof (pow2_pos k). lia.
  - rewrite (smeared_ones (n - 1) w x) by (auto; lia).
    rewrite N.ones_equiv, N.add_1_r, N.succ_pred by (apply N.pow_nonzero; lia).
    pose proof (N.log2_spec (n - 1) ltac:(lia)) as [H1 H2]. rewrite <- N.add_1_r in H2.
    assert (Hl : N.log2 (n - 1) < w - 1) by (apply N.log2_lt_pow2; lia).
    rewrite N.mod_small by (apply N.pow_lt_mono_r; lia).
    split; [eexists; reflexivity|]. split; [lia|]. intros q [k ->] Hk.
    apply N.pow_le_mono_r; [lia|].
    assert (N.log2 (n - 1) < k) by (apply N.log2_lt_pow2; lia). lia.
Qed.

Lemma round_up32_ok n : 0 < n -> n <= 2 ^ 31 -> least_pow2_ge n (round_up32 n).
Proof.
  intros H0 H. unfold round_up32, W32. apply (round_up_gen n 32); auto; [lia|]. apply smear32_smeared.
Qed.
Lemma round_up64_ok n : 0 < n -> n <= 2 ^ 63 -> least_pow2_ge n (round_up64 n).
Proof.
  intros H0 H. unfold round_up64, W64. apply (round_up_gen n 64); auto; [lia|]. apply smear64_smeared.
Qed.

(** arguments without an answer give 0 *)
Lemma round_up_over n w x : 0 < w -> n = 0 \/ 2 ^ (w - 1) < n < 2 ^ w ->
  smeared ((n + 2 ^ w - 1) mod 2 ^ w) w x -> (x + 1) mod 2 ^ w = 0.
Proof.
  intros Hw Hn Hs.
  assert (E2 : 2 ^ w = 2 * 2 ^ (w - 1)) by (rewrite <- N.pow_succ_r by lia; f_equal; lia).
  pose proof (pow2_pos (w - 1)) as Hp. pose proof (pow2_pos w) as Hpw.
  set (m := (n + 2 ^ w - 1) mod 2 ^ w) in *.
  assert (Hm : 2 ^ (w - 1) <= m < 2 ^ w).
  { subst m. destruct Hn as [->|Hn].
    - replace (0 + 2 ^ w - 1) with (2 ^ w - 1) by lia. rewrite N.mod_small by lia. lia.
    - replace (n + 2 ^ w - 1) with (n - 1 + 1 * 2 ^ w) by lia. rewrite N.mod_add, N.mod_small by lia. lia. }
  rewrite (smeared_ones m w x) by (auto; lia).
  assert (N.log2 m = w - 1) as -> by (apply N.log2_unique; [lia|]; replace (N.succ (w - 1)) with w by lia; lia).
  replace (w - 1 + 1) with w by lia.
  rewrite N.ones_equiv, N.add_1_r, N.succ_pred by lia. apply N.mod_same. lia.
Qed.
Lemma round_up32_over n : n = 0 \/ 2 ^ 31 < n < W32 -> round_up32 n = 0.
Proof. intros H. unfold round_up32, W32. apply (round_up_over n 32); auto; [lia|]. apply smear32_smeared. Qed.
Lemma round_up64_over n : n = 0 \/ 2 ^ 63 < n < W64 -> round_up64 n = 0.
Proof. intros H. unfold round_up64, W64. apply (round_up_over n 64); auto; [lia|]. apply smear64_smeared. Qed.

(** ** log2 *)

Lemma norm32 n : 0 < n -> n < W32 ->
  (if negb (is_power_of_two n) then round_down32 n else n) = 2 ^ N.log2 n.
Proof.
  intros H0 H. destruct (is_power_of_two n) eqn:E; cbn [negb].
  - apply is_power_of_two_ok in E as [k ->]. now rewrite N.log2_pow2 by lia.
  - apply (round_down_gen n 32 _ H0 H (smear32_smeared n)).
Qed.
Lemma norm64 n : 0 < n -> n < W64 ->
  (if negb (is_power_of_two n) then round_down64 n else n) = 2 ^ N.log2 n.
Proof.
  intros H0 H. destruct (is_power_of_two n) eqn:E; cbn [negb].
  - apply is_power_of_two_ok in E as [k ->]. now rewrite N.log2_pow2 by lia.
  - apply (round_down_gen n 64 _ H0 H (smear64_smeared n)).
Qed.

Lemma log2_32_ok n : 0 < n -> n < W32 -> exists k, log2_32 n = Ok k /\ 2 ^ k <= n < 2 ^ (k + 1).
Proof.
  intros H0 H. exists (N.log2 n). split.
  - unfold log2_32. rewrite norm32 by auto.
    assert (Hl : N.log2 n < 32) by (apply N.log2_lt_pow2; auto).
    set (P := fun k => match rd tab32 (N.to_nat (N.shiftr ((2 ^ k * 0x077CB531) mod W32) 27)) with
                       | Ok v => v =? k | _ => false end).
    assert (HP : P (N.log2 n) = true) by (apply (range_sweep 32 P); [vm_compute; reflexivity|exact Hl]).
    unfold P in HP. destruct (rd tab32 _); try discriminate. apply N.eqb_eq in HP. congruence.
  - rewrite N.add_1_r. apply N.log2_spec; auto.
Qed.

Lemma log2_64_ok n : 0 < n -> n < W64 -> exists k, log2_64 n = Ok k /\ 2 ^ k <= n < 2 ^ (k + 1).
Proof.
  intros H0 H. exists (N.log2 n). split.
  - unfold log2_64. rewrite norm64 by auto.
    assert (Hl : N.log2 n < 64) by (apply N.log2_lt_pow2; auto).
    set (P := fun k => match rd tab64 (N.to_nat (N.shiftr ((2 ^ k * 0x07EDD5E59A4E28C2) mod W64) 58)) with
                       | Ok v => v =? k | _ => false end).
    assert (HP : P (N.log2 n) = true) by (apply (range_sweep 64 P); [vm_compute; reflexivity|exact Hl]).
    unfold P in HP. destruct (rd tab64 _); try discriminate. apply N.eqb_eq in HP. congruence.
  - rewrite N.add_1_r. apply N.log2_spec; auto.
Qed.

(** ** sign extension *)

Lemma lxor_mask_low x k : x < 2 ^ k -> N.lxor x (2 ^ k) = x + 2 ^ k.
Proof.
  intros H. symmetry. apply N.add_nocarry_lxor. apply N.bits_inj_0. intros i.
  rewrite N.land_spec, N.pow2_bits_eqb. destruct (N.eqb_spec k i) as [->|]; [|apply andb_false_r].
  rewrite (testbit_high x i i) by lia. reflexivity.
Qed.

Lemma sign_extend_ok x w : 1 <= w <= 64 -> x < 2 ^ w ->
  exists z, sign_extend x w = Ok z /\ twos_complement w x z.
Proof.
  intros Hw Hx. unfold sign_extend.
  replace ((w + W64 - 1) mod W64) with (w - 1)
    by (unfold W64; replace (w + 2 ^ 64 - 1) with (w - 1 + 1 * 2 ^ 64) by lia;
        rewrite N.mod_add, N.mod_small by lia; lia).
  replace (64 <=? w - 1) with false by lia. rewrite N.shiftl_1_l.
  assert (E2 : 2 ^ w = 2 * 2 ^ (w - 1)) by (rewrite <- N.pow_succ_r by lia; f_equal; lia).
  pose proof (pow2_pos (w - 1)) as Hp.
  assert (Hle : 2 ^ (w - 1) <= 2 ^ 63) by (apply N.pow_le_mono_r; lia).
  assert (EZ : (2 ^ (Z.of_N w - 1))%Z = Z.of_N (2 ^ (w - 1))) by (rewrite N2Z.inj_pow; f_equal; lia).
  assert (EZ2 : (2 ^ Z.of_N w)%Z = (2 * 2 ^ (Z.of_N w - 1))%Z) by (rewrite <- Z.pow_succ_r by lia; f_equal; lia).
  eexists. split; [reflexivity|]. unfold twos_complement. rewrite EZ2, EZ.
  set (m := 2 ^ (w - 1)) in *. unfold W64, to_int64.
  destruct (N.lt_ge_cases x m) as [Hlow|Hhigh].
  - unfold m. rewrite lxor_mask_low by assumption. fold m.
    replace (x + m + 2 ^ 64 - m) with (x + 1 * 2 ^ 64) by lia.
    rewrite N.mod_add, N.mod_small by lia. replace (x <? 2 ^ 63) with true by lia.
    split; [lia|]. apply Z.mod_small. lia.
  - replace (N.lxor x m) with (x - m).
    2:{ replace x with (x - m + m) at 2 by lia. unfold m. rewrite <- lxor_mask_low by (fold m; lia).
        now rewrite N.lxor_assoc, N.lxor_nilpotent, N.lxor_0_r. }
    rewrite N.mod_small by lia.
    replace (x - m + 2 ^ 64 - m <? 2 ^ 63) with false by lia.
    split; [lia|]. replace (Z.of_N (x - m + 2 ^ 64 - m) - 2 ^ 64)%Z with (Z.of_N x + (-1) * (2 * Z.of_N m))%Z by lia.
    rewrite Z.mod_add by lia. apply Z.mod_small. lia.
Qed.

Lemma sign_extend_ub x w : w = 0 \/ 64 < w < W64 -> sign_extend x w = UB.
Proof.
  intros H. unfold sign_extend.
  replace (64 <=? (w + W64 - 1) mod W64) with true; auto. symmetry. apply N.leb_le.
  unfold W64 in *. destruct H as [->|H]; [vm_compute; discriminate|].
  replace (w + 2 ^ 64 - 1) with (w - 1 + 1 * 2 ^ 64) by lia. rewrite N.mod_add, N.mod_small by lia. lia.
Qed.

(** ** popcount *)

Lemma bit_digit n i : (n / 2 ^ i) mod 2 = N.b2n (N.testbit n i).
Proof. symmetry. apply N.testbit_spec'. Qed.

Lemma popcount8_ok x : x < 256 -> popcount8 x = Ok (ones_count 8 x).
Proof.
  intros H.
  set (P := fun x => match popcount8 x with Ok v => v =? ones_count 8 x | _ => false end).
  assert (HP : P x = true) by (apply (byte_sweep P); [vm_compute; reflexivity|exact H]).
  unfold P in HP. destruct (popcount8 x); try discriminate. apply N.eqb_eq in HP. congruence.
Qed.

Lemma lowest_bit n : 0 < n -> exists k a, n = (2 * a + 1) * 2 ^ k.
Proof.
  induction n as [n IH] using (well_founded_induction N.lt_wf_0). intros H.
  destruct (N.even n) eqn:E.
  - apply N.even_spec in E as [m ->]. destruct (IH m) as (k & a & E); [lia|lia|].
    exists (k + 1), a. rewrite E at 1. rewrite (N.add_1_r k), N.pow_succ_r by lia. lia.
  - assert (O : N.odd n = true) by (rewrite <- N.negb_even, E; reflexivity).
    apply N.odd_spec in O as [m ->]. exists 0, m. rewrite N.pow_0_r. lia.
Qed.

Lemma land_pred k a : N.land ((2 * a + 1) * 2 ^ k) ((2 * a + 1) * 2 ^ k - 1) = (2 * a) * 2 ^ k.
Proof.
  pose proof (pow2_pos k).
  replace ((2 * a + 1) * 2 ^ k - 1) with (N.ones k + (2 * a) * 2 ^ k) by (rewrite N.ones_equiv; lia).
  apply N.bits_inj. intros i. rewrite N.land_spec.
  destruct (N.lt_ge_cases i k).
  - rewrite !N.mul_pow2_bits_low by lia. reflexivity.
  - replace i with ((i - k) + k) by lia. rewrite !N.mul_pow2_bits_add.
    assert (E : N.testbit (N.ones k + 2 * a * 2 ^ k) (i - k + k) = N.testbit (2 * a) (i - k)).
    { rewrite <- N.shiftr_spec', N.shiftr_div_pow2, N.div_add by lia.
      rewrite N.div_small by (rewrite N.ones_equiv; lia). reflexivity. }
    rewrite E. destruct (i - k) as [|p] eqn:Ei; [rewrite !N.testbit_0_r || idtac|].
    + rewrite N.testbit_even_0. apply andb_false_r.
    + replace (N.pos p) with (N.succ (N.pred (N.pos p))) by lia.
      rewrite N.testbit_odd_succ, N.testbit_even_succ by lia. apply andb_diag.
Qed.

Definition cnt (w : nat) (n : N) : N := ones_count w n.

Lemma ones_count_split w n k : (k < w)%nat -> N.testbit n (N.of_nat k) = true ->
  ones_count w n = ones_count w (n - 2 ^ N.of_nat k) + 1.
Proof.
  intros Hk Hb. unfold ones_count.
  assert (Hd : forall i, N.testbit (n - 2 ^ N.of_nat k) i = (N.testbit n i && negb (i =? N.of_nat k))).
  { intros i.
    assert (Hc : n - 2 ^ N.of_nat k = N.clearbit n (N.of_nat k)).
    { assert (E : n = N.clearbit n (N.of_nat k) + 2 ^ N.of_nat k).
      { rewrite N.add_nocarry_lxor.
        - apply N.bits_inj. intros j. rewrite N.lxor_spec, N.clearbit_eqb, N.pow2_bits_eqb.
          destruct (N.eqb_spec (N.of_nat k) j) as [<-|]; [rewrite Hb; reflexivity|].
          cbn. now rewrite andb_true_r, xorb_false_r.
        - apply N.bits_inj_0. intros j. rewrite N.land_spec, N.clearbit_eqb, N.pow2_bits_eqb.
          destruct (N.eqb_spec (N.of_nat k) j); cbn; [now rewrite andb_false_r|apply andb_false_r]. }
      rewrite E at 1. apply N.add_sub. }
    rewrite Hc, N.clearbit_eqb, N.eqb_sym. reflexivity. }
  assert (G : forall s, NoDup s -> 
     fold_right N.add 0 (map (fun i => (n / 2 ^ N.of_nat i) mod 2) s) =
     fold_right N.add 0 (map (fun i => ((n - 2 ^ N.of_nat k) / 2 ^ N.of_nat i) mod 2) s) +
     (if in_dec Nat.eq_dec k s then 1 else 0)).
  { induction s as [|j s IH]; intros ND; [reflexivity|]. inversion ND; subst. cbn [map fold_right].
    rewrite IH by assumption. rewrite !bit_digit, Hd.
    destruct (N.eqb_spec (N.of_nat j) (N.of_nat k)) as [E|E].
    - assert (j = k) by lia. subst j. rewrite Hb. cbn [negb andb N.b2n].
      destruct (in_dec Nat.eq_dec k s); [contradiction|].
      destruct (in_dec Nat.eq_dec k (k :: s)) as [|C]; [lia|]. exfalso; apply C; now left.
    - cbn [negb]. rewrite andb_true_r.
      destruct (in_dec Nat.eq_dec k s) as [I|I]; destruct (in_dec Nat.eq_dec k (j :: s)) as [J|J]; try lia.
      + exfalso; apply J; now right.
      + destruct J as [J|J]; [exfalso; apply E; congruence|contradiction]. }
  rewrite G by apply seq_NoDup. destruct (in_dec Nat.eq_dec k (seq 0 w)) as [|C]; auto.
  exfalso. apply C, in_seq. lia.
Qed.

Lemma ones_count_le w n : ones_count w n <= N.of_nat w.
Proof.
  unfold ones_count. rewrite <- (seq_length w 0) at 2. generalize (seq 0 w). intros s.
  induction s as [|i s IH]; cbn [map fold_right length]; [lia|].
  rewrite bit_digit. destruct (N.testbit n (N.of_nat i)); cbn [N.b2n]; lia.
Qed.

Lemma ones_count_0 w : ones_count w 0 = 0.
Proof.
  unfold ones_count. induction (seq 0 w) as [|i s IH]; cbn [map fold_right]; auto.
Qed.

Lemma popcount_loop_ok : forall fuel n c,
  n < 2 ^ 64 -> ones_count 64 n < N.of_nat fuel -> c + ones_count 64 n < 256 ->
  popcount_loop fuel n c = Ok (c + ones_count 64 n).
Proof.
  induction fuel as [|fuel IH]; intros n c Hn Hf Hc; [lia|].
  cbn [popcount_loop]. destruct (N.eqb_spec n 0) as [->|H0].
  - rewrite ones_count_0, N.add_0_r. reflexivity.
  - destruct (lowest_bit n ltac:(lia)) as (k & a & E).
    assert (L : N.land n (n - 1) = n - 2 ^ k) by (rewrite E, land_pred; lia).
    assert (Hb : N.testbit n k = true).
    { rewrite E. replace k with (0 + k) at 2 by lia. rewrite N.mul_pow2_bits_add. apply N.testbit_odd_0. }
    assert (Hk : k < 64).
    { destruct (N.lt_ge_cases k 64); auto. rewrite (testbit_high n 64 k) in Hb; [discriminate|auto|auto]. }
    pose proof (ones_count_split 64 n (N.to_nat k) ltac:(lia)) as OS. rewrite N2Nat.id in OS.
    specialize (OS Hb). rewrite L. rewrite N.mod_small by lia.
    rewrite IH; [f_equal; lia|lia|lia|lia].
Qed.

Lemma popcount64_ok n : n < 2 ^ 64 -> popcount64 n = Ok (ones_count 64 n).
Proof.
  intros H. unfold popcount64. pose proof (ones_count_le 64 n).
  apply popcount_loop_ok; auto; lia.
Qed.

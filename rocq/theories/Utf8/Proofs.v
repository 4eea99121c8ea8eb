From Verif Require Import Base.Lib Base64.Proofs Utf8.Model Utf8.Spec.
Local Open Scope N_scope.

Lemma lorm a b k : b < 2 ^ k -> N.lor (a * 2 ^ k) b = a * 2 ^ k + b.
Proof. intros H. rewrite <- (lor_add a b k H), N.shiftl_mul_pow2. reflexivity. Qed.

Lemma cp2_val a b : b < 64 -> N.lor (N.shiftl a 6) b = a * 64 + b.
Proof. intros H. apply (lor_add a b 6). exact H. Qed.
Lemma cp3_val a b c : b < 64 -> c < 64 ->
  N.lor (N.lor (N.shiftl a 12) (N.shiftl b 6)) c = a * 4096 + b * 64 + c.
Proof.
  intros Hb Hc. rewrite (lor_add a _ 12) by (rewrite N.shiftl_mul_pow2; change (2^6) with 64; change (2 ^ 12) with 4096; lia).
  rewrite N.shiftl_mul_pow2.
  replace (a * 2 ^ 12 + b * 2 ^ 6) with ((a * 64 + b) * 2 ^ 6) by (change (2^6) with 64; change (2 ^ 12) with 4096; lia).
  rewrite lorm by exact Hc. change (2^6) with 64. lia.
Qed.
Lemma cp4_val a b c d : b < 64 -> c < 64 -> d < 64 ->
  N.lor (N.lor (N.lor (N.shiftl a 18) (N.shiftl b 12)) (N.shiftl c 6)) d = a * 262144 + b * 4096 + c * 64 + d.
Proof.
  intros Hb Hc Hd.
  rewrite (lor_add a _ 18) by (rewrite N.shiftl_mul_pow2; change (2^12) with 4096; change (2 ^ 18) with 262144; lia).
  rewrite N.shiftl_mul_pow2.
  replace (a * 2 ^ 18 + b * 2 ^ 12) with ((a * 64 + b) * 2 ^ 12) by (change (2^18) with 262144; change (2 ^ 12) with 4096; lia).
  rewrite lorm by (rewrite N.shiftl_mul_pow2; change (2^6) with 64; change (2 ^ 12) with 4096; lia).
  rewrite N.shiftl_mul_pow2.
  replace ((a * 64 + b) * 2 ^ 12 + c * 2 ^ 6) with ((a * 4096 + b * 64 + c) * 2 ^ 6)
    by (change (2^6) with 64; change (2 ^ 12) with 4096; lia).
  rewrite lorm by exact Hd. change (2^6) with 64. lia.
Qed.

Lemma land31 x : N.land x 31 = x mod 32. Proof. exact (land_mask x 5). Qed.
Lemma land15 x : N.land x 15 = x mod 16. Proof. exact (land_mask x 4). Qed.
Lemma land7 x : N.land x 7 = x mod 8. Proof. exact (land_mask x 3). Qed.

Ltac bw := unfold byte_width, cp_width;
  repeat match goal with |- context [if ?b then _ else _] => destruct b eqn:? end; lia.

Lemma is_valid_cp_iff cp : is_valid_cp cp = true <-> code_cp cp.
Proof.
  unfold is_valid_cp, code_cp, good_cp, scalar, nonchar.
  destruct (N.ltb_spec 0x10FFFF cp) as [H|H].
  { split; [discriminate|]. intros [[[A _] _]|[A B]]; lia. }
  assert (Q : cp / 65536 <= 16) by lia.
  assert (E : cp = cp / 65536 * 65536 + cp mod 65536) by lia.
  assert (R : cp mod 65536 < 65536) by lia.
  set (q := cp / 65536) in *. set (r := cp mod 65536) in *. clearbody q r. subst cp.
  assert (C : q = 0 \/ q = 1 \/ q = 2 \/ q = 3 \/ q = 4 \/ q = 5 \/ q = 6 \/ q = 7 \/ q = 8 \/ q = 9
     \/ (10 <= q <= 15) \/ q = 16) by lia.
  match goal with |- (if ?b then _ else if ?c then _ else _) = _ <-> _ =>
    destruct b eqn:B; [|destruct c eqn:D] end.
  - split; [discriminate|]. intros [[[A A'] _]|[A A']]; lia.
  - split; [discriminate|]. intros [[[A A'] A'']|[A A']]; lia.
  - split; auto. intros _.
    repeat (destruct C as [C|C]; [try subst q; lia|]). subst q; lia.
Qed.

Lemma is_valid_cp_false cp : is_valid_cp cp = false <-> ~ code_cp cp.
Proof. rewrite <- is_valid_cp_iff. destruct (is_valid_cp cp); split; congruence. Qed.

Lemma code_cp_bound cp : code_cp cp -> cp <= 0x10FFFF.
Proof. intros [[[A _] _]|[A B]]; lia. Qed.

Lemma length_enc cp : length (utf8_enc cp) = cp_width cp.
Proof.
  unfold utf8_enc, cp_width.
  destruct (N.ltb_spec cp 0x80); destruct (N.leb_spec cp 0x7F); try lia; cbn [andb length]; auto.
  destruct (N.leb_spec 0x80 cp); try lia. cbn [andb].
  destruct (N.ltb_spec cp 0x800); destruct (N.leb_spec cp 0x7FF); try lia; cbn [andb length]; auto.
  destruct (N.leb_spec 0x800 cp); try lia. cbn [andb].
  destruct (N.ltb_spec cp 0x10000); destruct (N.leb_spec cp 0xFFFF); try lia; cbn [andb length]; auto.
Qed.

(** ** Decoding an encoded code point *)

Lemma get_cp_enc cp r : code_cp cp -> cp <> 0 ->
  get_cp (utf8_enc cp ++ r) = Ok (USuccess, cp, Some r).
Proof.
  intros Hv Hn. pose proof (code_cp_bound cp Hv) as Hb.
  pose proof (proj2 (is_valid_cp_iff cp) Hv) as V.
  pose proof (length_enc cp) as W. unfold utf8_enc in *.
  destruct (N.ltb_spec cp 0x80).
  { unfold get_cp. cbn [app rd nth_error bind].
    destruct (N.eqb_spec cp 0); try lia.
    unfold byte_width. destruct (N.leb_spec cp 0x7F); try lia. reflexivity. }
  destruct (N.ltb_spec cp 0x800); [|destruct (N.ltb_spec cp 0x10000)]; cbn [length] in W.
  - set (c0 := 0xC0 + cp / 64) in *. set (c1 := 0x80 + cp mod 64) in *.
    assert (L0 : 0xC2 <= c0 <= 0xDF) by lia. assert (L1 : 0x80 <= c1 <= 0xBF) by lia.
    assert (E : (c0 mod 32) * 64 + c1 mod 64 = cp) by lia. clearbody c0 c1.
    unfold get_cp. cbn [app rd nth_error bind].
    destruct (N.eqb_spec c0 0); try lia.
    replace (byte_width c0) with 2%nat by bw.
    cbn [Nat.eqb Nat.sub check_continue rd nth_error bind].
    destruct (N.eqb_spec c1 0); try lia.
    replace (is_continue c1) with true by (unfold is_continue; lia). cbn [negb bind].
    rewrite land31, land63, cp2_val, E, V by lia. cbn [negb]. rewrite <- W. reflexivity.
  - set (c0 := 0xE0 + cp / 4096) in *. set (c1 := 0x80 + cp / 64 mod 64) in *. set (c2 := 0x80 + cp mod 64) in *.
    assert (L0 : 0xE0 <= c0 <= 0xEF) by lia. assert (L1 : 0x80 <= c1 <= 0xBF) by lia.
    assert (L2 : 0x80 <= c2 <= 0xBF) by lia.
    assert (E : (c0 mod 16) * 4096 + c1 mod 64 * 64 + c2 mod 64 = cp).
    { replace (c0 mod 16) with (cp / 4096) by lia. replace (c1 mod 64) with (cp / 64 mod 64) by lia.
      replace (c2 mod 64) with (cp mod 64) by lia. lia. }
    clearbody c0 c1 c2.
    unfold get_cp. cbn [app rd nth_error bind].
    destruct (N.eqb_spec c0 0); try lia.
    replace (byte_width c0) with 3%nat by bw.
    cbn [Nat.eqb Nat.sub check_continue rd nth_error bind].
    destruct (N.eqb_spec c1 0); try lia.
    replace (is_continue c1) with true by (unfold is_continue; lia). cbn [negb bind].
    destruct (N.eqb_spec c2 0); try lia.
    replace (is_continue c2) with true by (unfold is_continue; lia). cbn [negb bind].
    rewrite land15, !land63, cp3_val, E, V by lia. cbn [negb]. rewrite <- W. reflexivity.
  - set (c0 := 0xF0 + cp / 262144) in *. set (c1 := 0x80 + cp / 4096 mod 64) in *.
    set (c2 := 0x80 + cp / 64 mod 64) in *. set (c3 := 0x80 + cp mod 64) in *.
    assert (L0 : 0xF0 <= c0 <= 0xF4) by lia. assert (L1 : 0x80 <= c1 <= 0xBF) by lia.
    assert (L2 : 0x80 <= c2 <= 0xBF) by lia. assert (L3 : 0x80 <= c3 <= 0xBF) by lia.
    assert (E : (c0 mod 8) * 262144 + c1 mod 64 * 4096 + c2 mod 64 * 64 + c3 mod 64 = cp).
    { replace (c0 mod 8) with (cp / 262144) by lia. replace (c1 mod 64) with (cp / 4096 mod 64) by lia.
      replace (c2 mod 64) with (cp / 64 mod 64) by lia.
      replace (c3 mod 64) with (cp mod 64) by lia. lia. }
    clearbody c0 c1 c2 c3.
    unfold get_cp. cbn [app rd nth_error bind].
    destruct (N.eqb_spec c0 0); try lia.
    replace (byte_width c0) with 4%nat by bw.
    cbn [Nat.eqb Nat.sub check_continue rd nth_error bind].
    destruct (N.eqb_spec c1 0); try lia.
    replace (is_continue c1) with true by (unfold is_continue; lia). cbn [negb bind].
    destruct (N.eqb_spec c2 0); try lia.
    replace (is_continue c2) with true by (unfold is_continue; lia). cbn [negb bind].
    destruct (N.eqb_spec c3 0); try lia.
    replace (is_continue c3) with true by (unfold is_continue; lia). cbn [negb bind].
    rewrite land7, !land63, cp4_val, E, V by lia. cbn [negb]. rewrite <- W. reflexivity.
Qed.

(** ** What a successful decoding consumed *)

Lemma check_continue_none str n : forall i, check_continue str i n = Ok None ->
  exists l, length l = n /\ Forall (fun c => 0x80 <= c <= 0xBF) l /\ firstn n (skipn i str) = l.
Proof.
  induction n as [|n IH]; intros i H.
  - exists []. repeat split; auto.
  - cbn [check_continue] in H. apply bind_ok in H. destruct H as (c & Hc & H).
    destruct (c =? 0); [discriminate|].
    destruct (is_continue c) eqn:C; cbn [negb] in H; [|discriminate].
    destruct (IH (S i) H) as (l & Hl & F & E).
    assert (L : (i < length str)%nat).
    { apply rd_Ok in Hc. apply nth_error_Some. congruence. }
    destruct (skipn_rd str L) as (c' & Hc' & _ & Es). rewrite Hc in Hc'. injection Hc' as <-.
    exists (c :: l). split; [cbn; lia|]. split.
    + constructor; auto. unfold is_continue in C. lia.
    + rewrite Es. cbn [firstn]. now rewrite E.
Qed.

Lemma check_continue_some str n : forall i e, check_continue str i n = Ok (Some e) ->
  e = UTruncated \/ e = UExpectContinue.
Proof.
  induction n as [|n IH]; intros i e H; [discriminate|]. cbn [check_continue] in H.
  apply bind_ok in H. destruct H as (c & _ & H).
  destruct (c =? 0); [injection H as <-; auto|].
  destruct (negb _); [injection H as <-; auto|]. eauto.
Qed.

Lemma byte_width_cases c0 : byte_width c0 = 0%nat \/ byte_width c0 = 1%nat /\ c0 <= 0x7F
  \/ byte_width c0 = 2%nat /\ 0xC2 <= c0 <= 0xDF \/ byte_width c0 = 3%nat /\ 0xE0 <= c0 <= 0xEF
  \/ byte_width c0 = 4%nat /\ 0xF0 <= c0 <= 0xF4.
Proof. bw. Qed.

Lemma enc1 cp : cp < 0x80 -> utf8_enc cp = [cp].
Proof. intros H. unfold utf8_enc. destruct (N.ltb_spec cp 0x80); auto; lia. Qed.
Lemma enc2 cp : 0x80 <= cp < 0x800 -> utf8_enc cp = [0xC0 + cp / 64; 0x80 + cp mod 64].
Proof. intros H. unfold utf8_enc. destruct (N.ltb_spec cp 0x80); try lia. destruct (N.ltb_spec cp 0x800); auto; lia. Qed.
Lemma enc3 cp : 0x800 <= cp < 0x10000 ->
  utf8_enc cp = [0xE0 + cp / 4096; 0x80 + cp / 64 mod 64; 0x80 + cp mod 64].
Proof. intros H. unfold utf8_enc. destruct (N.ltb_spec cp 0x80); try lia. destruct (N.ltb_spec cp 0x800); try lia.
  destruct (N.ltb_spec cp 0x10000); auto; lia. Qed.
Lemma enc4 cp : 0x10000 <= cp ->
  utf8_enc cp = [0xF0 + cp / 262144; 0x80 + cp / 4096 mod 64; 0x80 + cp / 64 mod 64; 0x80 + cp mod 64].
Proof. intros H. unfold utf8_enc. destruct (N.ltb_spec cp 0x80); try lia. destruct (N.ltb_spec cp 0x800); try lia.
  destruct (N.ltb_spec cp 0x10000); auto; lia. Qed.

Lemma cp_width_cases cp : cp_width cp = 1%nat /\ cp < 0x80 \/ cp_width cp = 2%nat /\ 0x80 <= cp < 0x800
  \/ cp_width cp = 3%nat /\ 0x800 <= cp < 0x10000 \/ cp_width cp = 4%nat /\ 0x10000 <= cp.
Proof. bw. Qed.

Lemma get_cp_inv s cp nx : get_cp s = Ok (USuccess, cp, nx) ->
  (exists r, s = 0 :: r /\ cp = 0 /\ nx = Some s) \/
  (cp <> 0 /\ code_cp cp /\ exists r, s = utf8_enc cp ++ r /\ nx = Some r).
Proof.
  unfold get_cp. destruct s as [|c0 s]; [discriminate|]. cbn [rd nth_error bind].
  destruct (N.eqb_spec c0 0) as [->|N0].
  { intros E; injection E as <- <-. left. eauto. }
  intros H. right.
  destruct (byte_width_cases c0) as [W|[[W R]|[[W R]|[[W R]|[W R]]]]]; rewrite W in H; cbn [Nat.eqb] in H.
  - discriminate.
  - injection H as <- <-. split; auto. split.
    + left. unfold good_cp, scalar, nonchar. lia.
    + exists s. rewrite enc1 by lia. auto.
  - cbn [Nat.sub] in H.
    apply bind_ok in H. destruct H as ([e|] & Hc & H); [destruct (check_continue_some _ _ _ _ Hc); subst e; discriminate|].
    destruct (check_continue_none _ _ _ Hc) as (l & Hl & F & E).
    destruct l as [|c1 [|]]; try discriminate Hl. cbn [skipn] in E.
    destruct s as [|x1 s]; [discriminate|]. cbn in E. injection E as ->.
    inversion F as [|? ? R1 _]; subst. cbn [rd nth_error bind] in H.
    rewrite land31, land63, cp2_val in H by lia.
    destruct (is_valid_cp _) eqn:V; cbn [negb] in H; [|discriminate].
    apply is_valid_cp_iff in V.
    set (mycp := c0 mod 32 * 64 + c1 mod 64) in *.
    destruct (cp_width_cases mycp) as [[W' R']|[[W' R']|[[W' R']|[W' R']]]]; rewrite W' in H; cbn [Nat.eqb negb] in H; try discriminate.
    injection H as <- <-. split; [lia|]. split; auto. exists s. rewrite enc2 by lia.
    split; auto. cbn [app]. f_equal; [|f_equal]; lia.
  - cbn [Nat.sub] in H.
    apply bind_ok in H. destruct H as ([e|] & Hc & H); [destruct (check_continue_some _ _ _ _ Hc); subst e; discriminate|].
    destruct (check_continue_none _ _ _ Hc) as (l & Hl & F & E).
    destruct l as [|c1 [|c2 [|]]]; try discriminate Hl. cbn [skipn] in E.
    destruct s as [|x1 [|x2 s]]; try discriminate E. cbn in E. injection E as -> ->.
    inversion F as [|? ? R1 F1]; subst. inversion F1 as [|? ? R2 _]; subst. cbn [rd nth_error bind] in H.
    rewrite land15, !land63, cp3_val in H by lia.
    destruct (is_valid_cp _) eqn:V; cbn [negb] in H; [|discriminate].
    apply is_valid_cp_iff in V.
    set (mycp := c0 mod 16 * 4096 + c1 mod 64 * 64 + c2 mod 64) in *.
    destruct (cp_width_cases mycp) as [[W' R']|[[W' R']|[[W' R']|[W' R']]]]; rewrite W' in H; cbn [Nat.eqb negb] in H; try discriminate.
    injection H as <- <-. split; [lia|]. split; auto. exists s. rewrite enc3 by lia.
    split; auto.
    assert (A0 : c0 mod 16 = c0 - 0xE0) by lia. assert (A1 : c1 mod 64 = c1 - 0x80) by lia.
    assert (A2 : c2 mod 64 = c2 - 0x80) by lia.
    assert (M : mycp = (c0 - 0xE0) * 4096 + (c1 - 0x80) * 64 + (c2 - 0x80)) by (unfold mycp; now rewrite A0, A1, A2).
    clearbody mycp. clear - R R1 R2 M.
    assert (B0 : mycp / 4096 = c0 - 0xE0) by lia. assert (B1 : mycp / 64 = (c0 - 0xE0) * 64 + (c1 - 0x80)) by lia.
    assert (B2 : mycp mod 64 = c2 - 0x80) by lia. rewrite B0, B1, B2. cbn [app].
    f_equal; [|f_equal; [|f_equal]]; lia.
  - cbn [Nat.sub] in H.
    apply bind_ok in H. destruct H as ([e|] & Hc & H); [destruct (check_continue_some _ _ _ _ Hc); subst e; discriminate|].
    destruct (check_continue_none _ _ _ Hc) as (l & Hl & F & E).
    destruct l as [|c1 [|c2 [|c3 [|]]]]; try discriminate Hl. cbn [skipn] in E.
    destruct s as [|x1 [|x2 [|x3 s]]]; try discriminate E. cbn in E. injection E as -> -> ->.
    inversion F as [|? ? R1 F1]; subst. inversion F1 as [|? ? R2 F2]; subst.
    inversion F2 as [|? ? R3 _]; subst. cbn [rd nth_error bind] in H.
    rewrite land7, !land63, cp4_val in H by lia.
    destruct (is_valid_cp _) eqn:V; cbn [negb] in H; [|discriminate].
    apply is_valid_cp_iff in V.
    set (mycp := c0 mod 8 * 262144 + c1 mod 64 * 4096 + c2 mod 64 * 64 + c3 mod 64) in *.
    destruct (cp_width_cases mycp) as [[W' R']|[[W' R']|[[W' R']|[W' R']]]]; rewrite W' in H; cbn [Nat.eqb negb] in H; try discriminate.
    injection H as <- <-. split; [lia|]. split; auto. exists s. rewrite enc4 by lia.
    split; auto.
    assert (A0 : c0 mod 8 = c0 - 0xF0) by lia. assert (A1 : c1 mod 64 = c1 - 0x80) by lia.
    assert (A2 : c2 mod 64 = c2 - 0x80) by lia. assert (A3 : c3 mod 64 = c3 - 0x80) by lia.
    assert (M : mycp = (c0 - 0xF0) * 262144 + (c1 - 0x80) * 4096 + (c2 - 0x80) * 64 + (c3 - 0x80))
      by (unfold mycp; now rewrite A0, A1, A2, A3).
    clearbody mycp. clear - R R1 R2 R3 M.
    assert (B0 : mycp / 262144 = c0 - 0xF0) by lia.
    assert (B1 : mycp / 4096 = (c0 - 0xF0) * 64 + (c1 - 0x80)) by lia.
    assert (B2 : mycp / 64 = (c0 - 0xF0) * 4096 + (c1 - 0x80) * 64 + (c2 - 0x80)) by lia.
    assert (B3 : mycp mod 64 = c3 - 0x80) by lia. rewrite B0, B1, B2, B3. cbn [app].
    f_equal; [|f_equal; [|f_equal; [|f_equal]]]; lia.
Qed.

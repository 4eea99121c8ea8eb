(** Properties of decimals: C39-C42 and C56. *)
From Coq Require Import QArith Qabs.
From Verif Require Import Base.Lib StrNum.Model StrNum.Spec.
From Verif Require Import Decimal.Model Decimal.Spec Decimal.Arith Decimal.Proofs Decimal.Divide Decimal.Text.
Local Open Scope Z_scope.

(** [valid d]: [d] is any content of an M_decimal_t (a 64 bit number and at most
    255 places).  [qval d]: the rational number [num d / 10 ^ nd d]. *)

(** ** C39: addition and subtraction *)

Theorem decimal_add_exact : forall d0 a b r, valid a -> valid b ->
  add d0 a b = Ok (Success, r) -> (qval r == qval a + qval b)%Q /\ valid r.
Proof.
  intros d0 a b r Va Vb H. destruct (add_cases d0 a b Va Vb) as [(x & y & w & ((_ & _ & Q1 & Q2) & _) & W & I & E)|(_ & N)].
  - rewrite E in H. injection H as <-. split.
    + rewrite reduce_qval, Q1, Q2, ratio_plus. reflexivity.
    + apply reduce_valid. split; auto.
  - destruct (N _ _ H eq_refl).
Qed.
Print Assumptions decimal_add_exact.

(** Success exactly when the operands have a common 64 bit form whose sum is a
    64 bit number. *)
Theorem decimal_add_complete : forall d0 a b, valid a -> valid b ->
  ((exists r, add d0 a b = Ok (Success, r)) <->
   (exists x y w, aligned (qval a) (qval b) x y w /\ fits (x + y))).
Proof.
  intros d0 a b Va Vb. destruct (add_cases d0 a b Va Vb) as [(x & y & w & (A & M) & W & I & E)|(A & N)].
  - split; intros _; [exists x, y, w; split; auto; now apply fits_in64|eauto].
  - split; [intros [r H]; destruct (N _ _ H eq_refl)|].
    intros (x & y & w & H & F). apply fits_in64 in F. destruct (A _ _ _ H F).
Qed.
Print Assumptions decimal_add_complete.

Theorem decimal_subtract_exact : forall d0 a b r, valid a -> valid b ->
  subtract d0 a b = Ok (Success, r) -> (qval r == qval a - qval b)%Q /\ valid r.
Proof.
  intros d0 a b r Va Vb H. destruct (sub_cases d0 a b Va Vb) as [(x & y & w & ((_ & _ & Q1 & Q2) & _) & W & I & E)|(_ & N)].
  - rewrite E in H. injection H as <-. split.
    + rewrite reduce_qval, Q1, Q2, ratio_minus. reflexivity.
    + apply reduce_valid. split; auto.
  - destruct (N _ _ H eq_refl).
Qed.
Print Assumptions decimal_subtract_exact.

Theorem decimal_subtract_complete : forall d0 a b, valid a -> valid b ->
  ((exists r, subtract d0 a b = Ok (Success, r)) <->
   (exists x y w, aligned (qval a) (qval b) x y w /\ fits (x - y))).
Proof.
  intros d0 a b Va Vb. destruct (sub_cases d0 a b Va Vb) as [(x & y & w & (A & M) & W & I & E)|(A & N)].
  - split; intros _; [exists x, y, w; split; auto; now apply fits_in64|eauto].
  - split; [intros [r H]; destruct (N _ _ H eq_refl)|].
    intros (x & y & w & H & F). apply fits_in64 in F. destruct (A _ _ _ H F).
Qed.
Print Assumptions decimal_subtract_complete.

(** Undefined behaviour can only come from the number INT64_MIN: *)
Theorem decimal_add_defined_partial : forall d0 a b, valid a -> valid b -> num a <> imin -> num b <> imin ->
  exists rv r, add d0 a b = Ok (rv, r).
Proof.
  intros d0 a b Va Vb Na Nb. unfold add. destruct (prep_ok a b true) as (r & E & _); [split; auto|split; auto|].
  rewrite E. cbn [bind]. destruct r as [[[rv u1] u2]|]; [|eauto].
  destruct (add_int64 0 (num u1) (num u2)) as [[] n]; eauto.
Qed.
Print Assumptions decimal_add_defined_partial.

Theorem decimal_subtract_defined_partial : forall d0 a b, valid a -> valid b -> num a <> imin -> num b <> imin ->
  exists rv r, subtract d0 a b = Ok (rv, r).
Proof.
  intros d0 a b Va Vb Na Nb. unfold subtract. destruct (prep_ok a b true) as (r & E & _); [split; auto|split; auto|].
  rewrite E. cbn [bind]. destruct r as [[[rv u1] u2]|]; [|eauto].
  match goal with |- context [if ?c then Ok (Overflow, _) else _] => destruct c end; eauto.
Qed.
Print Assumptions decimal_subtract_defined_partial.

(** and it does: rounding -922337203685477580.8 takes the absolute value of
    INT64_MIN. *)
Theorem decimal_add_defined_refuted :
  add (mkd 0 0) (mkd imin 1) (mkd 9000000000000000000 0) = UB /\ valid (mkd imin 1) /\ valid (mkd 9000000000000000000 0).
Proof. split; [vm_compute; reflexivity|]. unfold valid, in64, imin, imax. cbn [num nd]. lia. Qed.
Print Assumptions decimal_add_defined_refuted.

(** 12.5 + 0.75 = 13.25, and the largest number + 0.1 is not reported exact. *)
Example add_case : add (mkd 0 0) (mkd 125 1) (mkd 75 2) = Ok (Success, mkd 1325 2) /\
  subtract (mkd 0 0) (mkd 125 1) (mkd 1325 2) = Ok (Success, mkd (-75) 2) /\
  add (mkd 0 0) (mkd imax 0) (mkd 1 1) = Ok (Truncation, mkd imax 0) /\
  add (mkd 0 0) (mkd imax 0) (mkd 1 0) = Ok (Overflow, mkd 0 0).
Proof. vm_compute. auto. Qed.

(** ** C40: comparison *)

(** Correct when the operands have a common 64 bit form.  Full statement:
    always; that fails, see [decimal_cmp_refuted]. *)
Theorem decimal_cmp_partial : forall a b, valid a -> valid b ->
  (exists x y w, aligned (qval a) (qval b) x y w) -> cmp a b = Ok (sign_of (Qcompare (qval a) (qval b))).
Proof. intros a b Va Vb (x & y & w & A). eapply cmp_aligned; eauto. Qed.
Print Assumptions decimal_cmp_partial.

(** In particular with at most [p] places and absolute values below 10^(18-p). *)
Theorem decimal_cmp_bounded_partial : forall a b p, valid a -> valid b -> (p <= 18)%nat -> (nd a <= p)%nat -> (nd b <= p)%nat ->
  (Qabs (qval a) <= inject_Z (10 ^ Z.of_nat (18 - p)))%Q -> (Qabs (qval b) <= inject_Z (10 ^ Z.of_nat (18 - p)))%Q ->
  cmp a b = Ok (sign_of (Qcompare (qval a) (qval b))).
Proof.
  assert (K : forall d p, valid d -> (p <= 18)%nat -> (nd d <= p)%nat ->
    (Qabs (qval d) <= inject_Z (10 ^ Z.of_nat (18 - p)))%Q -> fits (num d * p10 (p - nd d))).
  { intros d p V Hp Hd Q. fold (p10 (18 - p)) in Q. unfold qval in Q.
    unfold Qle, Qabs, ratio, inject_Z in Q. cbn [Qnum Qden] in Q. rewrite ratio_den, Z.mul_1_r in Q.
    assert (P : p10 (p - nd d) * (p10 (18 - p) * p10 (nd d)) = 10 ^ 18).
    { rewrite Z.mul_comm, <- Z.mul_assoc, <- !p10_add. replace (18 - p + (nd d + (p - nd d)))%nat with 18%nat by lia. reflexivity. }
    pose proof (p10_pos (p - nd d)) as Pp. set (e := p10 (p - nd d)) in *.
    assert (Z.abs (num d * e) <= 10 ^ 18).
    { rewrite <- P, Z.abs_mul, (Z.abs_eq e), Z.mul_comm by lia. apply Z.mul_le_mono_nonneg_l; [lia|exact Q]. }
    unfold fits. lia. }
  intros a b p Va Vb Hp Ha Hb Qa Qb. apply decimal_cmp_partial; auto.
  exists (num a * p10 (p - nd a)), (num b * p10 (p - nd b)), p.
  split; [auto|]. split; [auto|]. split; symmetry; apply ratio_scale_to; auto.
Qed.
Print Assumptions decimal_cmp_bounded_partial.

(** 9000000000000000000 compares less than 0.1. *)
Theorem decimal_cmp_refuted : exists a b, valid a /\ valid b /\ (qval b < qval a)%Q /\ cmp a b = Ok (-1).
Proof.
  exists (mkd 9000000000000000000 0), (mkd 1 1). unfold valid, in64, imin, imax. cbn [num nd].
  split; [lia|]. split; [lia|]. split; vm_compute; reflexivity.
Qed.
Print Assumptions decimal_cmp_refuted.

Example cmp_case : cmp (mkd 150 2) (mkd 15 1) = Ok 0 /\ cmp (mkd (-3) 0) (mkd (-299) 2) = Ok (-1) /\
  (exists x y w, aligned (qval (mkd (-3) 0)) (qval (mkd (-299) 2)) x y w).
Proof.
  split; [vm_compute; reflexivity|]. split; [vm_compute; reflexivity|]. exists (-300), (-299), 2%nat.
  split; [unfold fits; lia|]. split; [unfold fits; lia|]. split; reflexivity.
Qed.

(** ** C41: text *)

(** The text written: sign, digits without a useless leading zero, and as many
    digits after the point as there are places; it denotes the decimal.  It is
    written exactly when the buffer has room for it and its terminator.  Full
    statement: for all decimals; from 20 places on it fails, see below. *)
Theorem decimal_to_str_partial : forall d, valid d ->
  (nd d <= 19)%nat \/ (Z.to_N (Z.abs (num d)) < 10 ^ N.of_nat (nd d) mod 2 ^ 64)%N ->
  exists ws fs, (qval d == text_ratio (num d <? 0)%Z ws fs)%Q /\
    length fs = nd d /\ Forall (fun x => x < 10)%N (ws ++ fs) /\
    ws <> [] /\ (ws = [0%N] \/ hd 0%N ws <> 0%N) /\
    let text := (if num d <? 0 then [45%N] else []) ++ map (fun x => 48 + x)%N ws ++
                (if (nd d =? 0)%nat then [] else 46%N :: map (fun x => 48 + x)%N fs) in
    forall len, to_str d len = Ok (if (length text <? len)%nat then (Success, text) else (Invalid, [])).
Proof.
  intros d V P. destruct (to_str_ok d V P) as (ws & fs & Vl & Lf & Nw & Fw & Ff & Lw & E).
  exists ws, fs. split.
  { unfold qval, text_ratio. rewrite Vl, Lf. apply ratio_eq. f_equal. destruct (Z.ltb_spec (num d) 0); lia. }
  split; auto. split; [apply Forall_app; auto|]. split; auto. split; [|exact E].
  destruct ws as [|w ws]; [congruence|]. destruct Lw as [Lw|Lw].
  - destruct ws; [|discriminate]. cbn [hd]. destruct (N.eq_dec w 0) as [->|]; auto.
  - right. cbn [hd]. intros ->. cbn [value length] in Lw. rewrite N.mul_0_l, N.add_0_l in Lw.
    replace (S (length ws) - 1)%nat with (length ws) in Lw by lia.
    pose proof (StrNum.Proofs.value_lt 10 ws ltac:(inversion Fw; auto)). lia.
Qed.
Print Assumptions decimal_to_str_partial.

(** Reading: sign, digits, point, digits. *)
Theorem decimal_from_str_partial : forall ws fs sg neg z, Forall (fun x => x < 10)%N (ws ++ fs) -> ws <> [] -> fs <> [] ->
  (length fs <= 255)%nat -> sign_text sg neg ->
  fits (Z.of_N (value 10 fs)) -> fits ((if neg then -1 else 1) * Z.of_N (value 10 (ws ++ fs))) ->
  let text := sg ++ map (fun x => 48 + x)%N ws ++ 46%N :: map (fun x => 48 + x)%N fs in
  exists d, from_str (text ++ 0%N :: z) (length text) = Ok (Success, d, Some (0%N :: z)) /\
    (qval d == text_ratio neg ws fs)%Q.
Proof.
  intros ws fs sg neg z F Nw Nf Lf Hs I1 I2. apply Forall_app in F as [F1 F2]. apply fits_in64 in I1, I2.
  apply from_str_point; auto.
Qed.
Print Assumptions decimal_from_str_partial.

Theorem decimal_from_str_integer : forall ws sg neg z, Forall (fun x => x < 10)%N ws -> ws <> [] -> sign_text sg neg ->
  fits ((if neg then -1 else 1) * Z.of_N (value 10 ws)) ->
  let text := sg ++ map (fun x => 48 + x)%N ws in
  from_str (text ++ 0%N :: z) (length text) =
    Ok (Success, mkd ((if neg then -1 else 1) * Z.of_N (value 10 ws)) 0, Some (0%N :: z)).
Proof. intros ws sg neg z F Nw Hs I1. apply fits_in64 in I1. apply from_str_whole; auto. Qed.
Print Assumptions decimal_from_str_integer.

(** The round trip.  Missing for the full statement: from 20 places on, numbers
    not below 10^places mod 2^64, and INT64_MIN with more than 18 places. *)
Theorem decimal_text_roundtrip_partial : forall d z, valid d ->
  (nd d <= 19)%nat \/ (Z.to_N (Z.abs (num d)) < 10 ^ N.of_nat (nd d) mod 2 ^ 64)%N ->
  (nd d <= 18)%nat \/ num d <> imin ->
  exists t, (forall len, (length t < len)%nat -> to_str d len = Ok (Success, t)) /\
  exists d', from_str (t ++ 0%N :: z) (length t) = Ok (Success, d', Some (0%N :: z)) /\ (qval d' == qval d)%Q.
Proof. intros d z V P H. now apply roundtrip. Qed.
Print Assumptions decimal_text_roundtrip_partial.

(** 8000000000000000000 with 20 places is 0.08, printed as 0.0023...; 64 places
    divide by zero. *)
Theorem decimal_to_str_refuted :
  (exists d, valid d /\ (qval d == 8 # 100)%Q /\ exists fs, to_str d 100 = Ok (Success, [48; 46; 48; 48] ++ fs)%N) /\
  (exists d, valid d /\ to_str d 100 = UB).
Proof.
  split.
  - exists (mkd 8000000000000000000 20). unfold valid, in64, imin, imax. cbn [num nd]. split; [lia|].
    split; [vm_compute; reflexivity|]. eexists. vm_compute. reflexivity.
  - exists (mkd 1 64). unfold valid, in64, imin, imax. cbn [num nd]. split; [lia|]. vm_compute. reflexivity.
Qed.
Print Assumptions decimal_to_str_refuted.

(** "1.0000000000000000001" reads as a negative number; "5e-37" as 5; " -0.5" as
    0.5; and "1e5" restricted to its first character as 100000. *)
Theorem decimal_from_str_refuted :
  (exists n, n < 0 /\ from_str ([49; 46] ++ repeat 48 18 ++ [49; 0])%N 21 = Ok (Success, mkd n 19, Some [0%N])) /\
  from_str [53; 101; 45; 51; 55; 0]%N 5 = Ok (Success, mkd 5 0, Some [0%N]) /\
  from_str [32; 45; 48; 46; 53; 0]%N 5 = Ok (Success, mkd 5 1, Some [0%N]) /\
  from_str [49; 101; 53; 0]%N 1 = Ok (Success, mkd 100000 0, Some [0%N]).
Proof. split; [eexists; split; [|vm_compute; reflexivity]; reflexivity|]. vm_compute. auto. Qed.
Print Assumptions decimal_from_str_refuted.

Example text_case : to_str (mkd (-12345) 3) 20 = Ok (Success, [45; 49; 50; 46; 51; 52; 53]%N) /\
  to_str (mkd 5 3) 6 = Ok (Success, [48; 46; 48; 48; 53]%N) /\ to_str (mkd 5 3) 5 = Ok (Invalid, []) /\
  from_str [45; 49; 50; 46; 51; 52; 53; 0]%N 7 = Ok (Success, mkd (-12345) 3, Some [0%N]).
Proof. vm_compute. auto. Qed.

(** ** C42: multiplication and rounding *)

Lemma least_le a b x y w : least a b x y w -> (w <= Nat.max (nd a) (nd b))%nat.
Proof.
  intros [_ M]. set (m := Nat.max (nd a) (nd b)).
  destruct (M (num a * p10 (m - nd a)) (num b * p10 (m - nd b)) m) as (j & E & _);
    [symmetry; apply ratio_scale_to; lia..|]. lia.
Qed.

(** Exact with at most 127 places.  Full statement: for all decimals; see
    [decimal_multiply_refuted]. *)
Theorem decimal_multiply_exact_partial : forall d0 a b r, valid a -> valid b -> (nd a <= 127)%nat -> (nd b <= 127)%nat ->
  multiply d0 a b = Ok (Success, r) -> (qval r == qval a * qval b)%Q /\ valid r.
Proof.
  intros d0 a b r Va Vb Ha Hb H. destruct (multiply_cases d0 a b Va Vb) as [(x & y & w & L & W & I & E)|(_ & N)].
  - rewrite E in H. assert (R : reduce (mkd (x * y) ((w * 2) mod 256)) = r) by congruence. subst r. clear H E. pose proof (least_le a b x y w L) as Lw. destruct L as ((_ & _ & Q1 & Q2) & _).
    rewrite Nat.mod_small by lia. split.
    + rewrite reduce_qval, Q1, Q2, ratio_mult. unfold qval. cbn [num nd]. replace (w * 2)%nat with (w + w)%nat by lia. reflexivity.
    + apply reduce_valid. split; [exact I|cbn [nd]; lia].
  - destruct (N _ _ H eq_refl).
Qed.
Print Assumptions decimal_multiply_exact_partial.

(** Success exactly when the product of a common form fits. *)
Theorem decimal_multiply_complete : forall d0 a b, valid a -> valid b ->
  ((exists r, multiply d0 a b = Ok (Success, r)) <->
   (exists x y w, aligned (qval a) (qval b) x y w /\ fits (x * y))).
Proof.
  intros d0 a b Va Vb. destruct (multiply_cases d0 a b Va Vb) as [(x & y & w & (A & M) & W & I & E)|(A & N)].
  - split; intros _; [exists x, y, w; split; auto; now apply fits_in64|eauto].
  - split; [intros [r H]; destruct (N _ _ H eq_refl)|].
    intros (x & y & w & H & F). apply fits_in64 in F. destruct (A _ _ _ H F).
Qed.
Print Assumptions decimal_multiply_complete.

(** 10^-128 squared is 1. *)
Theorem decimal_multiply_refuted : exists a r, valid a /\ multiply (mkd 0 0) a a = Ok (Success, r) /\ ~ (qval r == qval a * qval a)%Q.
Proof.
  exists (mkd 1 128), (mkd 1 0). unfold valid, in64, imin, imax. cbn [num nd]. split; [lia|].
  split; [vm_compute; reflexivity|]. vm_compute. discriminate.
Qed.
Print Assumptions decimal_multiply_refuted.

Example multiply_case : multiply (mkd 0 0) (mkd 25 1) (mkd (-12) 1) = Ok (Success, mkd (-3) 0) /\
  multiply (mkd 0 0) (mkd 125 2) (mkd 11 1) = Ok (Success, mkd 1375 3).
Proof. vm_compute. auto. Qed.

(** More places: exact, or overflow when the number does not fit. *)
Theorem decimal_transform_extend : forall d k r, valid d -> (nd d <= k)%nat -> exists rv d', transform d k r = Ok (rv, d') /\
  (fits (num d * 10 ^ Z.of_nat (k - nd d)) -> rv = Success /\ nd d' = k /\ (qval d' == qval d)%Q) /\
  (~ fits (num d * 10 ^ Z.of_nat (k - nd d)) -> rv = Overflow).
Proof.
  intros d k r V H. destruct (transform_up d k r V H) as (rv & d' & E & C). exists rv, d'. split; auto.
  fold (p10 (k - nd d)). rewrite fits_in64. destruct C as [(-> & I & ->)|(-> & I)]; split; intros; try tauto.
  cbn [nd]. split; auto. split; auto. unfold qval. cbn [num nd]. apply ratio_scale_to. auto.
Qed.
Print Assumptions decimal_transform_extend.

(** Fewer places: the quotient by the power of ten, rounded as asked; SUCCESS
    exactly when nothing was lost.  Missing for the full statement: removing 19
    places or more is reported as an overflow though the result is 0, and one
    place of INT64_MIN ([decimal_transform_defined_refuted]). *)
Theorem decimal_transform_truncate_partial : forall d k, valid d -> (k < nd d)%nat -> (nd d - k <= 18)%nat ->
  exists q rv, transform d k RNone = Ok (rv, mkd q k) /\ toward_zero (num d) (10 ^ Z.of_nat (nd d - k)) q /\
    (rv = Success /\ (qval (mkd q k) == qval d)%Q \/ rv = Truncation /\ ~ (qval (mkd q k) == qval d)%Q).
Proof.
  intros d k V H L. destruct (transform_down d k RNone V H) as [(_ & L' & _)|(_ & T)]; [lia|].
  destruct (T (or_introl eq_refl)) as (q & E & R & _ & X). exists q. eexists. split; [exact E|]. split; [exact R|].
  destruct (Z.eqb_spec (Z.rem (num d) (p10 (nd d - k))) 0) as [Z0|Z0]; [left|right]; (split; [auto|]).
  - unfold qval. cbn [num nd]. rewrite (X Z0). symmetry. rewrite <- (ratio_scale_to q k (nd d)) by lia. reflexivity.
  - unfold qval. cbn [num nd]. rewrite <- (ratio_scale_to q k (nd d)) by lia. rewrite ratio_eq.
    intros Q. apply Z.mul_cancel_r in Q; [|pose proof (p10_pos (nd d)); lia]. apply Z0. rewrite <- Q.
    apply Z.rem_mul. pose proof (p10_pos (nd d - k)). lia.
Qed.
Print Assumptions decimal_transform_truncate_partial.

Theorem decimal_transform_traditional_partial : forall d k, valid d -> (k < nd d)%nat -> (nd d - k <= 18)%nat ->
  num d <> imin \/ (nd d - k)%nat <> 1%nat ->
  exists q rv, transform d k RTrad = Ok (rv, mkd q k) /\ half_away (num d) (10 ^ Z.of_nat (nd d - k)) q /\
    (rv = Success <-> (10 ^ Z.of_nat (nd d - k) | num d)) /\ (rv = Success \/ rv = Truncation).
Proof.
  intros d k V H L C. destruct (transform_down d k RTrad V H) as [(_ & L' & _)|(_ & T)]; [lia|].
  destruct (T (or_intror C)) as (q & E & R & _ & X). exists q. eexists. split; [exact E|]. split; [exact R|].
  fold (p10 (nd d - k)). rewrite <- Z.rem_divide by (pose proof (p10_pos (nd d - k)); lia).
  destruct (Z.eqb_spec (Z.rem (num d) (p10 (nd d - k))) 0); split; auto; split; auto; [discriminate|tauto].
Qed.
Print Assumptions decimal_transform_traditional_partial.

(** Banker's rounding: right exactly when the digits dropped are not above a half
    and below 0.6 after an even quotient (only the first dropped digit is looked
    at). *)
Theorem decimal_transform_bankers_partial : forall d k, valid d -> (k < nd d)%nat -> (nd d - k <= 18)%nat ->
  num d <> imin \/ (nd d - k)%nat <> 1%nat ->
  exists q rv, transform d k RBank = Ok (rv, mkd q k) /\
    let m := 10 ^ Z.of_nat (nd d - k) in let lost := Z.abs (num d) mod m in
    (half_even (num d) m q <-> ~ (5 * m < 10 * lost < 6 * m /\ Z.even (Z.abs (num d) / m) = true)).
Proof.
  intros d k V H L C. destruct (transform_down d k RBank V H) as [(_ & L' & _)|(_ & T)]; [lia|].
  destruct (T (or_intror C)) as (q & E & R & _ & X). exists q. eexists. split; [exact E|].
  cbn zeta. fold (p10 (nd d - k)). unfold rounded in R. rewrite R.
  set (m := p10 (nd d - k)). set (l := Z.abs (num d) mod m). set (b := Z.even _). clearbody l b m. clear.
  split; intros H I; apply H; destruct I as (I1 & I2); repeat split; try apply I2; lia.
Qed.
Print Assumptions decimal_transform_bankers_partial.

(** 2.51 is rounded to 2. *)
Theorem decimal_transform_bankers_refuted : transform (mkd 251 2) 0 RBank = Ok (Truncation, mkd 2 0) /\ half_even 251 100 3 /\ ~ half_even 251 100 2.
Proof. split; [vm_compute; reflexivity|]. unfold half_even. split; [split; [cbn; lia|intros H; discriminate H]|]. intros [H _]. cbn in H. lia. Qed.
Print Assumptions decimal_transform_bankers_refuted.

(** Rounding INT64_MIN by one place negates INT64_MIN; 10^-19 cannot be rounded to
    no places. *)
Theorem decimal_transform_defined_refuted : transform (mkd imin 1) 0 RTrad = UB /\ transform (mkd 1 19) 0 RTrad = Ok (Overflow, mkd 1 19).
Proof. vm_compute. auto. Qed.
Print Assumptions decimal_transform_defined_refuted.

Example transform_case : transform (mkd (-12350) 3) 1 RTrad = Ok (Truncation, mkd (-124) 1) /\
  transform (mkd 250 2) 0 RBank = Ok (Truncation, mkd 2 0) /\ transform (mkd 350 2) 0 RBank = Ok (Truncation, mkd 4 0) /\
  transform (mkd 299 2) 0 RNone = Ok (Truncation, mkd 2 0) /\ transform (mkd 300 2) 1 RTrad = Ok (Success, mkd 30 1).
Proof. vm_compute. auto. Qed.

(** Reducing changes nothing but the form, and leaves no trailing zero. *)
Theorem decimal_reduce_exact : forall d, valid d -> (qval (reduce d) == qval d)%Q /\ valid (reduce d) /\
  (nd (reduce d) <= nd d)%nat /\ (nd (reduce d) <> 0%nat -> ~ (10 | num (reduce d))).
Proof.
  intros d V. split; [apply reduce_qval|]. split; [now apply reduce_valid|].
  destruct (reduce_spec d) as (j & A & B & C). split; [lia|]. intros H D.
  apply Z.rem_divide in D; [|lia]. tauto.
Qed.
Print Assumptions decimal_reduce_exact.

Example reduce_case : reduce (mkd (-12500) 3) = mkd (-125) 1 /\ reduce (mkd 100 1) = mkd 10 0.
Proof. vm_compute. auto. Qed.

(** ** C56: division without rounding *)

(** SUCCESS is the exact quotient when that is below 922337203685477581.  Full
    statement: always; see [decimal_divide_refuted]. *)
Theorem decimal_divide_exact_partial : forall d0 a b r, valid a -> valid b ->
  (Qabs (qval a) < inject_Z 922337203685477581 * Qabs (qval b))%Q ->
  divide d0 a b RNone = Ok (Success, r) -> (qval r * qval b == qval a)%Q.
Proof. exact divide_exact. Qed.
Print Assumptions decimal_divide_exact_partial.

(** Defined when the quotient is below 9. *)
Theorem decimal_divide_defined_partial : forall d0 a b, valid a -> valid b ->
  let w := Nat.max (nd a) (nd b) in
  let x := num a * 10 ^ Z.of_nat (w - nd a) in let y := num b * 10 ^ Z.of_nat (w - nd b) in
  fits x -> fits y -> Z.abs x < 9 * Z.abs y -> exists rv r, divide d0 a b RNone = Ok (rv, r).
Proof. intros d0 a b Va Vb w x y Fx Fy L. apply fits_in64 in Fx, Fy. apply divide_small; auto. Qed.
Print Assumptions decimal_divide_defined_partial.

(** 9000000000000000000 / 1 is -2233720368547758080, 19 / 2 overflows a signed
    number, and 1 / 64 with rounding is 0.015625000000000001. *)
Theorem decimal_divide_refuted :
  divide (mkd 0 0) (mkd 9000000000000000000 0) (mkd 1 0) RNone = Ok (Success, mkd (-2233720368547758080) 0) /\
  divide (mkd 0 0) (mkd 19 0) (mkd 2 0) RNone = UB /\
  divide (mkd 0 0) (mkd 1 0) (mkd 64 0) RTrad = Ok (Success, mkd 15625000000000001 18).
Proof. vm_compute. auto. Qed.
Print Assumptions decimal_divide_refuted.

Example divide_case : divide (mkd 0 0) (mkd 15 1) (mkd (-2) 0) RNone = Ok (Success, mkd (-75) 2) /\
  divide (mkd 0 0) (mkd 3 0) (mkd 0 0) RNone = Ok (Invalid, mkd 0 0) /\
  (Qabs (qval (mkd 15 1)) < inject_Z 922337203685477581 * Qabs (qval (mkd (-2) 0)))%Q.
Proof. vm_compute. auto. Qed.

(** Properties of the integer parsers (C16) and of string equality (C53). *)
From Verif Require Import Base.Lib Base.Mem StrNum.Model StrNum.Spec StrNum.Proofs.
Local Open Scope N_scope.

(** [text_ok b ws sg neg cs ds rest]: the text [ws ++ sg ++ cs ++ rest] is
    white space, an optional sign, a non-empty digit string [cs] spelling the
    digits [ds] in base [b], and a rest that does not continue the digits.
    Excluded in base 16 only: the two texts "0x" and "0X" with nothing after. *)

(** ** C16, unsigned *)

(** Every representable value is parsed exactly, whatever the white space, the
    sign, the case of the digits and what follows, in every base 2..36; a minus
    sign negates modulo 2^64 as strtoull does.  The end pointer is on the rest. *)
Theorem uint64_parse_exact : forall b ws sg neg cs ds rest z val0,
  text_ok b ws sg neg cs ds rest -> value b ds < 2 ^ 64 ->
  to_uint64_ex (ws ++ sg ++ cs ++ rest ++ 0 :: z) (length (ws ++ sg ++ cs ++ rest)) b val0 =
    Ok (ISuccess, if neg then (2 ^ 64 - value b ds) mod 2 ^ 64 else value b ds, Some (rest ++ 0 :: z)).
Proof.
  intros b ws sg neg cs ds rest z val0 H Hv. rewrite (uint64_text _ _ _ _ _ _ _ _ _ H).
  rewrite value_no_flags by (auto; apply H). unfold w64. rewrite (N.mod_small (value b ds)) by exact Hv. reflexivity.
Qed.
Print Assumptions uint64_parse_exact.

(** An overflow report is always truthful, and then the largest value is
    stored; a success always gives the value modulo 2^64.  Full statement:
    success only if the value is below 2^64; that fails, see
    [uint64_overflow_refuted]. *)
Theorem uint64_parse_partial : forall b ws sg neg cs ds rest z val0,
  text_ok b ws sg neg cs ds rest ->
  (2 ^ 64 <= value b ds /\
   to_uint64_ex (ws ++ sg ++ cs ++ rest ++ 0 :: z) (length (ws ++ sg ++ cs ++ rest)) b val0 =
     Ok (IOverflow, 2 ^ 64 - 1, Some (rest ++ 0 :: z))) \/
  to_uint64_ex (ws ++ sg ++ cs ++ rest ++ 0 :: z) (length (ws ++ sg ++ cs ++ rest)) b val0 =
     Ok (ISuccess, if neg then (2 ^ 64 - value b ds mod 2 ^ 64) mod 2 ^ 64 else value b ds mod 2 ^ 64,
         Some (rest ++ 0 :: z)).
Proof.
  intros b ws sg neg cs ds rest z val0 H. rewrite (uint64_text _ _ _ _ _ _ _ _ _ H).
  destruct (flags b 0 ds) eqn:F; [left|right; reflexivity]. split; auto.
  destruct (N.lt_ge_cases (value b ds) (2 ^ 64)) as [L|]; auto.
  rewrite value_no_flags in F by (auto; apply H). discriminate.
Qed.
Print Assumptions uint64_parse_partial.

(** When the digits but the last are still representable, the overflow is
    noticed exactly when the wrapped result is smaller than the number without
    its last digit. *)
Theorem uint64_overflow_partial : forall b ws sg neg cs ds d rest z val0,
  text_ok b ws sg neg cs (ds ++ [d]) rest -> value b ds < 2 ^ 64 <= value b (ds ++ [d]) ->
  exists v, to_uint64_ex (ws ++ sg ++ cs ++ rest ++ 0 :: z) (length (ws ++ sg ++ cs ++ rest)) b val0 =
    Ok (if value b (ds ++ [d]) mod 2 ^ 64 <? value b ds then IOverflow else ISuccess, v, Some (rest ++ 0 :: z)).
Proof.
  intros b ws sg neg cs ds d rest z val0 H [Hv _]. rewrite (uint64_text _ _ _ _ _ _ _ _ _ H).
  destruct (flags_app b ds 0 [d]) as [E|E]; [|lia]. rewrite E, value_no_flags by (auto; apply H).
  cbn [orb flags]. rewrite orb_false_r, N.mul_0_l, N.add_0_l, w64_mul_add, <- value_snoc.
  unfold w64. rewrite (N.mod_small (value b ds)) by exact Hv. eexists. reflexivity.
Qed.
Print Assumptions uint64_overflow_partial.

(** "30000000000000000000" is reported as a success with another number. *)
Definition dec30 : list N := 51 :: repeat 48 19.
Theorem uint64_overflow_refuted : exists ds, text_ok 10 [] [] false dec30 ds [] /\
  value 10 ds = 30000000000000000000 /\ 2 ^ 64 <= value 10 ds /\
  to_uint64_ex (dec30 ++ [0]) 20 10 0 = Ok (ISuccess, 11553255926290448384, Some [0]).
Proof.
  exists (3 :: repeat 0 19). split.
  { repeat split; cbn; auto; try lia; try discriminate.
    - left; auto.
    - repeat (constructor; [unfold denotes; lia|]). constructor.
    - repeat (constructor; [lia|]). constructor.
    - constructor. }
  split; [vm_compute; reflexivity|]. split; [vm_compute; discriminate|]. vm_compute. reflexivity.
Qed.
Print Assumptions uint64_overflow_refuted.

(** ** C16, signed *)

(** Representable: exact.  Not representable but below 2^64 in absolute value:
    overflow, with the extreme value of the right sign. *)
Theorem int64_parse_partial : forall b ws sg neg cs ds rest z val0,
  text_ok b ws sg neg cs ds rest -> value b ds < 2 ^ 64 ->
  let v := (if neg then - Z.of_N (value b ds) else Z.of_N (value b ds))%Z in
  to_int64_ex (ws ++ sg ++ cs ++ rest ++ 0 :: z) (length (ws ++ sg ++ cs ++ rest)) b val0 =
    if ((- 2 ^ 63 <=? v) && (v <? 2 ^ 63))%Z
    then Ok (ISuccess, v, Some (rest ++ 0 :: z))
    else Ok (IOverflow, (if neg then - 2 ^ 63 else 2 ^ 63 - 1)%Z, Some (rest ++ 0 :: z)).
Proof.
  intros b ws sg neg cs ds rest z val0 H Hv v. rewrite (int64_text _ _ _ _ _ _ _ _ _ H).
  rewrite value_no_flags by (auto; apply H). unfold w64. rewrite (N.mod_small (value b ds)) by exact Hv.
  cbn [orb]. subst v. set (n := value b ds) in *. clearbody n.
  destruct neg.
  - destruct (N.ltb_spec (2 ^ 63) n) as [L|L].
    + replace ((- 2 ^ 63 <=? - Z.of_N n) && (- Z.of_N n <? 2 ^ 63))%Z with false; auto.
      symmetry. apply andb_false_iff. left. apply Z.leb_gt. lia.
    + replace ((- 2 ^ 63 <=? - Z.of_N n) && (- Z.of_N n <? 2 ^ 63))%Z with true.
      2:{ symmetry. apply andb_true_iff. split; [apply Z.leb_le|apply Z.ltb_lt]; lia. }
      do 3 f_equal. unfold to_int64. destruct (N.eq_dec n 0) as [->|Hn]; [reflexivity|].
      rewrite N.mod_small by lia. destruct (N.ltb_spec (2 ^ 64 - n) (2 ^ 63)); lia.
  - destruct (N.ltb_spec (2 ^ 63 - 1) n) as [L|L].
    + replace ((- 2 ^ 63 <=? Z.of_N n) && (Z.of_N n <? 2 ^ 63))%Z with false; auto.
      symmetry. apply andb_false_iff. right. apply Z.ltb_ge. lia.
    + replace ((- 2 ^ 63 <=? Z.of_N n) && (Z.of_N n <? 2 ^ 63))%Z with true.
      2:{ symmetry. apply andb_true_iff. split; [apply Z.leb_le|apply Z.ltb_lt]; lia. }
      do 3 f_equal. unfold to_int64. destruct (N.ltb_spec n (2 ^ 63)); lia.
Qed.
Print Assumptions int64_parse_partial.

(** Missing for the full statement: values from 2^64 on can slip through. *)
Theorem int64_overflow_refuted :
  to_int64_ex (50 :: 53 :: repeat 48 18 ++ [0]) 20 10 0 = Ok (ISuccess, 6553255926290448384%Z, Some [0]) /\
  value 10 (2 :: 5 :: repeat 0 18) = 25000000000000000000.
Proof. split; vm_compute; reflexivity. Qed.
Print Assumptions int64_overflow_refuted.

(** ** 32 bits *)

Theorem int32_parse_partial : forall b ws sg neg cs ds rest z val0,
  text_ok b ws sg neg cs ds rest -> value b ds < 2 ^ 64 ->
  let v := (if neg then - Z.of_N (value b ds) else Z.of_N (value b ds))%Z in
  to_int32_ex (ws ++ sg ++ cs ++ rest ++ 0 :: z) (length (ws ++ sg ++ cs ++ rest)) b val0 =
    if ((- 2 ^ 31 <=? v) && (v <? 2 ^ 31))%Z
    then Ok (ISuccess, v, Some (rest ++ 0 :: z))
    else Ok (IOverflow, (if neg then - 2 ^ 31 else 2 ^ 31 - 1)%Z, Some (rest ++ 0 :: z)).
Proof.
  intros b ws sg neg cs ds rest z val0 H Hv v. unfold to_int32_ex. rewrite text_len by apply H.
  rewrite (int64_parse_partial _ _ _ _ _ _ _ _ _ H Hv). fold v.
  assert (Hn : neg = true -> (v <= 0)%Z) by (intros ->; unfold v; lia).
  assert (Hp : neg = false -> (0 <= v)%Z) by (intros ->; unfold v; lia). clearbody v.
  destruct (Z.leb_spec (- 2 ^ 31) v), (Z.ltb_spec v (2 ^ 31)), (Z.leb_spec (- 2 ^ 63) v), (Z.ltb_spec v (2 ^ 63));
    cbn [andb bind]; try lia; destruct neg; try (specialize (Hn eq_refl)); try (specialize (Hp eq_refl)); try lia;
    repeat match goal with |- context [(?a <? ?b)%Z] => destruct (Z.ltb_spec a b); try lia end; reflexivity.
Qed.
Print Assumptions int32_parse_partial.

Theorem uint32_parse_partial : forall b ws sg cs ds rest z val0,
  text_ok b ws sg false cs ds rest -> value b ds < 2 ^ 64 ->
  to_uint32_ex (ws ++ sg ++ cs ++ rest ++ 0 :: z) (length (ws ++ sg ++ cs ++ rest)) b val0 =
    if value b ds <? 2 ^ 32
    then Ok (ISuccess, value b ds, Some (rest ++ 0 :: z))
    else Ok (IOverflow, 2 ^ 32 - 1, Some (rest ++ 0 :: z)).
Proof.
  intros b ws sg cs ds rest z val0 H Hv. unfold to_uint32_ex. rewrite text_len by apply H.
  rewrite (uint64_parse_exact _ _ _ _ _ _ _ _ _ H Hv). cbn [bind].
  destruct (N.ltb_spec (2 ^ 32 - 1) (value b ds)), (N.ltb_spec (value b ds) (2 ^ 32)); try lia; reflexivity.
Qed.
Print Assumptions uint32_parse_partial.

(** "-18446744073709551615" is 1 for M_str_to_uint32_ex. *)
Theorem uint32_negative_refuted : exists s,
  s = [45; 49; 56; 52; 52; 54; 55; 52; 52; 48; 55; 51; 55; 48; 57; 53; 53; 49; 54; 49; 53] /\
  to_uint32_ex (s ++ [0]) 21 10 0 = Ok (ISuccess, 1, Some [0]).
Proof. eexists. split; [reflexivity|]. vm_compute. reflexivity. Qed.
Print Assumptions uint32_negative_refuted.

(** ** Round trip *)

(** Every 64-bit value has a digit string in every base, and printing it with
    any sign convention and parsing it gives it back. *)
Theorem uint64_print_parse : forall b v, 2 <= b <= 36 -> v < 2 ^ 64 ->
  exists ds, value b ds = v /\ forall z val0,
    to_uint64_ex (map digit_char ds ++ 0 :: z) (length ds) b val0 = Ok (ISuccess, v, Some (0 :: z)).
Proof.
  intros b v Hb Hv. destruct (digits_exist b ltac:(lia) 64 v) as (ds & Hne & F & E).
  { eapply N.lt_le_trans; [exact Hv|]. eapply N.le_trans; [|apply N.pow_le_mono_l with (a := 2); lia].
    vm_compute. discriminate. }
  exists ds. split; auto. intros z val0.
  assert (T : text_ok b [] [] false (map digit_char ds) ds []).
  { split; [lia|]. split; [constructor|]. split; [left; auto|].
    split; [apply (spells_digit_char b ds ltac:(lia) F)|]. split; [now destruct ds|].
    split; [constructor|]. split; [exact I|]. intros H16. split.
    - intros X. rewrite app_nil_r in X. destruct ds as [|a [|c [|]]]; try discriminate X. cbn in X. injection X as X1 X2.
      inversion F as [|? ? A F1]; subst. inversion F1; subst. revert X2. unfold digit_char.
      destruct (N.ltb_spec c 10); lia.
    - intros X. rewrite app_nil_r in X. destruct ds as [|a [|c [|]]]; try discriminate X. cbn in X. injection X as X1 X2.
      inversion F as [|? ? A F1]; subst. inversion F1; subst. revert X2. unfold digit_char.
      destruct (N.ltb_spec c 10); lia. }
  pose proof (uint64_parse_exact b [] [] false _ ds [] z val0 T ltac:(lia)) as P.
  cbn [app] in P. rewrite app_nil_r, map_length in P. now rewrite P, E.
Qed.
Print Assumptions uint64_print_parse.

(** ** The 0x prefix *)

(** In base 16, and with base 0, a 0x prefix followed by digits is not
    recognised: "0x1F" parses as 0 and stops at the x. *)
Theorem hex_prefix_refuted :
  to_uint64_ex [48; 120; 49; 70; 0] 4 16 0 = Ok (ISuccess, 0, Some [120; 49; 70; 0]) /\
  to_uint64_ex [48; 120; 49; 70; 0] 4 0 0 = Ok (ISuccess, 0, Some [120; 49; 70; 0]).
Proof. split; vm_compute; reflexivity. Qed.
Print Assumptions hex_prefix_refuted.

Example uint64_parse_case : text_ok 16 [32; 9] [45] true [70; 102] [15; 15] [103; 104] /\
  to_uint64_ex ([32; 9] ++ [45] ++ [70; 102] ++ [103; 104] ++ [0]) 7 16 0 =
    Ok (ISuccess, 2 ^ 64 - 255, Some [103; 104; 0]).
Proof.
  split; [|vm_compute; reflexivity]. repeat split; try lia; try discriminate.
  - repeat constructor; unfold space; lia.
  - right; right; auto.
  - repeat (constructor; [unfold denotes; lia|]); constructor.
  - repeat (constructor; [lia|]); constructor.
  - repeat (constructor; [lia|]); constructor.
  - cbn. unfold denotes. intros d. lia.
Qed.

(** ** C53: M_str_eq_max and its case-insensitive variant decide equality of
    the first [max] characters (of the lower-cased ones), without reading past
    the terminators. *)
Theorem str_eq_max_decides : forall f s1 s2 max, no_nul s1 -> no_nul s2 ->
  exists r, str_eq_max_int f (s1 ++ [0]) (s2 ++ [0]) max = Ok r /\
    (r = true <-> map f (firstn max s1) = map f (firstn max s2)).
Proof.
  intros f s1 s2 max H1 H2. rewrite eq_max_ok by auto. eexists. split; [reflexivity|]. apply leq_iff.
Qed.
Print Assumptions str_eq_max_decides.

(** M_str_eq (max = SIZE_MAX): equality of the strings. *)
Theorem str_eq_decides : forall s1 s2 max, no_nul s1 -> no_nul s2 ->
  (length s1 <= max)%nat -> (length s2 <= max)%nat ->
  exists r, str_eq_max_int (fun c => c) (s1 ++ [0]) (s2 ++ [0]) max = Ok r /\ (r = true <-> s1 = s2).
Proof.
  intros s1 s2 max H1 H2 L1 L2. rewrite eq_max_ok by auto. eexists. split; [reflexivity|].
  rewrite leq_iff, !map_id, !firstn_all2 by auto. reflexivity.
Qed.
Print Assumptions str_eq_decides.

Example str_eq_case :
  str_eq_max_int ct_tolower [65; 98; 99; 0] [97; 66; 100; 0] 2 = Ok true /\
  str_eq_max_int (fun c => c) [65; 98; 0] [97; 98; 0] 9 = Ok false.
Proof. split; vm_compute; reflexivity. Qed.

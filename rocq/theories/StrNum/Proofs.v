From Verif Require Import Base.Lib Base.Mem Hex.Model StrNum.Model StrNum.Spec.
Local Open Scope N_scope.

(** ** M_str_eq_max and friends *)

Lemma lor_zero a b : N.lor a b = 0 <-> a = 0 /\ b = 0.
Proof. rewrite N.lor_eq_0_iff. tauto. Qed.

Fixpoint leq (l m : list N) : bool :=
  match l, m with
  | [], [] => true
  | a :: l, b :: m => (a =? b) && leq l m
  | _, _ => false
  end.

Lemma leq_iff l : forall m, leq l m = true <-> l = m.
Proof.
  induction l as [|a l IH]; intros [|b m]; cbn; try (split; congruence).
  rewrite andb_true_iff, N.eqb_eq, IH. split; [intros [-> ->]; auto|intros E; injection E; auto].
Qed.

Lemma leq_cons a l b m : leq (a :: l) (b :: m) = (a =? b) && leq l m.
Proof. reflexivity. Qed.

Lemma eq_max_loop f z1 z2 max : forall s1 s2 r, no_nul s1 -> no_nul s2 ->
  str_eq_max_loop f (s1 ++ 0 :: z1) (s2 ++ 0 :: z2) max r =
    Ok ((r =? 0) && leq (map f (firstn max s1)) (map f (firstn max s2))).
Proof.
  induction max as [|max IH]; intros s1 s2 r H1 H2.
  - cbn. now rewrite andb_true_r.
  - cbn [str_eq_max_loop]. destruct s1 as [|c1 s1]; cbn [app rd nth_error bind].
    + cbn [N.eqb]. destruct (N.eqb_spec r 0) as [->|Hr]; cbn [negb]; auto.
      destruct s2 as [|c2 s2]; cbn [app rd nth_error bind]; auto.
      inversion H2; subst. rewrite (proj2 (N.eqb_neq c2 0)) by auto. reflexivity.
    + inversion H1 as [|? ? N1 H1']; subst. rewrite (proj2 (N.eqb_neq c1 0)) by auto.
      destruct s2 as [|c2 s2]; cbn [app rd nth_error bind].
      * cbn. now rewrite andb_false_r.
      * inversion H2 as [|? ? N2 H2']; subst. rewrite (proj2 (N.eqb_neq c2 0)) by auto.
        cbn [skipn]. rewrite IH by auto. f_equal. cbn [firstn map]. rewrite leq_cons.
        rewrite andb_assoc. f_equal. apply eq_true_iff_eq.
        rewrite andb_true_iff, !N.eqb_eq, lor_zero, N.lxor_eq_0_iff. tauto.
Qed.

Lemma eq_max_ok f s1 s2 z1 z2 max : no_nul s1 -> no_nul s2 ->
  str_eq_max_int f (s1 ++ 0 :: z1) (s2 ++ 0 :: z2) max = Ok (leq (map f (firstn max s1)) (map f (firstn max s2))).
Proof. intros H1 H2. unfold str_eq_max_int. now rewrite eq_max_loop. Qed.

Definition is_0x (t : list N) : bool := leq t [48; 120] || leq t [48; 88].

Lemma caseeq_0x t z : no_nul t -> (2 <= length t)%nat ->
  str_eq_max_int ct_tolower (t ++ 0 :: z) lit_0x (length t) = Ok (is_0x t).
Proof.
  intros Ht L. change lit_0x with ([48; 120] ++ 0 :: []). rewrite eq_max_ok; auto.
  2:{ repeat constructor; lia. }
  rewrite firstn_all, (firstn_all2 [48; 120]) by exact L. f_equal. unfold is_0x.
  apply eq_true_iff_eq. rewrite orb_true_iff, !leq_iff. split.
  - destruct t as [|a [|b [|]]]; cbn; try discriminate. intros E; injection E as E1 E2.
    unfold ct_tolower in *. destruct ((65 <=? a) && (a <=? 90)) eqn:A; [lia|]. subst a.
    destruct ((65 <=? b) && (b <=? 90)) eqn:B; [right|left]; do 2 f_equal; lia.
  - intros [-> | ->]; reflexivity.
Qed.

(** ** Digits *)

Lemma denotes_digit c d : denotes c d -> digit_of c = d /\ c <> 0 /\ d < 36.
Proof.
  intros H. unfold digit_of. 
  destruct ((48 <=? c) && (c <=? 57)) eqn:A; [unfold denotes in H; lia|].
  destruct ((97 <=? c) && (c <=? 122)) eqn:B; [unfold denotes in H; lia|].
  destruct ((65 <=? c) && (c <=? 90)) eqn:C; unfold denotes in H; lia.
Qed.

Lemma digit_denotes c : digit_of c < 36 -> denotes c (digit_of c).
Proof.
  unfold digit_of, denotes.
  destruct ((48 <=? c) && (c <=? 57)) eqn:A; [lia|].
  destruct ((97 <=? c) && (c <=? 122)) eqn:B; [lia|].
  destruct ((65 <=? c) && (c <=? 90)) eqn:C; lia.
Qed.

Lemma value_app b l1 : forall l2, value b (l1 ++ l2) = value b l1 * b ^ N.of_nat (length l2) + value b l2.
Proof.
  induction l1 as [|d l1 IH]; intros l2; auto. cbn [app value]. rewrite IH, app_length.
  replace (N.of_nat (length l1 + length l2)) with (N.of_nat (length l1) + N.of_nat (length l2)) by lia.
  rewrite N.pow_add_r. lia.
Qed.

Lemma value_snoc b l d : value b (l ++ [d]) = value b l * b + d.
Proof. rewrite value_app. cbn [value length]. rewrite N.pow_1_r, N.pow_0_r. lia. Qed.

Lemma value_lt b ds : Forall (fun d => d < b) ds -> value b ds < b ^ N.of_nat (length ds).
Proof.
  induction 1 as [|d ds H F IH]; [cbn; lia|]. cbn [value length].
  rewrite Nat2N.inj_succ, N.pow_succ_r'. nia.
Qed.

Fixpoint flags (b r : N) (ds : list N) : bool :=
  match ds with
  | [] => false
  | d :: ds' => let v := w64 (r * b + d) in (v <? r) || flags b v ds'
  end.

Lemma stops_digit b rest : b <= 36 -> stops b rest -> no_nul rest ->
  forall len z, (len <= length rest)%nat -> forall r o, digit_loop (rest ++ 0 :: z) len b r o = Ok (r, o, rest ++ 0 :: z).
Proof.
  intros Hb Hs Hn len z Hl r o. destruct len as [|len]; auto. cbn [digit_loop].
  destruct rest as [|c rest]; [cbn in Hl; lia|]. cbn [app rd nth_error bind].
  inversion Hn as [|? ? Hc _]; subst. rewrite (proj2 (N.eqb_neq c 0)) by auto.
  destruct (N.leb_spec b (digit_of c)) as [|L]; auto. exfalso.
  cbn in Hs. specialize (Hs (digit_of c) (digit_denotes c ltac:(lia))). lia.
Qed.

Lemma w64_lt n : w64 n < 2 ^ 64.
Proof. apply N.mod_lt. discriminate. Qed.

Lemma w64_mul_add a b d : w64 (w64 a * b + d) = w64 (a * b + d).
Proof.
  unfold w64. rewrite N.add_mod, N.mul_mod_idemp_l, <- N.add_mod by discriminate. reflexivity.
Qed.

Lemma digit_loop_run b rest z len : 2 <= b <= 36 -> stops b rest -> no_nul rest -> (len <= length rest)%nat ->
  forall cs ds, spells b cs ds -> forall r o, r < 2 ^ 64 ->
  digit_loop (cs ++ rest ++ 0 :: z) (length cs + len) b r o =
    Ok (w64 (r * b ^ N.of_nat (length ds) + value b ds), o || flags b r ds, rest ++ 0 :: z).
Proof.
  intros Hb Hs Hn Hl cs ds [F B]. induction F as [|c d cs ds H F IH]; intros r o Hr.
  - cbn [app length Nat.add value flags]. rewrite stops_digit by (auto; lia).
    unfold w64. rewrite N.pow_0_r, N.mul_1_r, N.add_0_r, N.mod_small, orb_false_r by exact Hr. reflexivity.
  - inversion B as [|? ? Hd B']; subst. cbn [app length Nat.add digit_loop rd nth_error bind].
    destruct (denotes_digit c d H) as (Ed & Hc & _). rewrite (proj2 (N.eqb_neq c 0)) by auto. rewrite Ed.
    destruct (N.leb_spec b d); [lia|]. cbn [skipn]. rewrite IH by (auto using w64_lt).
    cbn [flags value]. rewrite orb_assoc. do 3 f_equal.
    rewrite Nat2N.inj_succ, N.pow_succ_r'. rewrite w64_mul_add. f_equal. lia.
Qed.

Lemma flags_none b ds : 2 <= b -> forall r, r * b ^ N.of_nat (length ds) + value b ds < 2 ^ 64 ->
  flags b r ds = false.
Proof.
  intros Hb. induction ds as [|d ds IH]; intros r H; auto. cbn [flags length value] in *.
  rewrite Nat2N.inj_succ, N.pow_succ_r' in H.
  assert (P : 0 < b ^ N.of_nat (length ds)) by (apply N.neq_0_lt_0, N.pow_nonzero; lia).
  set (p := b ^ N.of_nat (length ds)) in *.
  assert (E : w64 (r * b + d) = r * b + d) by (unfold w64; apply N.mod_small; nia).
  rewrite E. destruct (N.ltb_spec (r * b + d) r); [nia|]. cbn [orb]. apply IH. fold p. nia.
Qed.

Lemma flags_app b l1 : forall r l2, flags b r (l1 ++ l2) =
  flags b r l1 || flags b (w64 (r * b ^ N.of_nat (length l1) + value b l1)) l2 \/ 2 ^ 64 <= r.
Proof.
  induction l1 as [|d l1 IH]; intros r l2.
  - cbn [app flags length value]. destruct (N.lt_ge_cases r (2 ^ 64)) as [L|L]; auto. left.
    unfold w64. rewrite N.pow_0_r, N.mul_1_r, N.add_0_r, N.mod_small by exact L. reflexivity.
  - cbn [app flags]. destruct (IH (w64 (r * b + d)) l2) as [E|E].
    + left. rewrite E, orb_assoc. do 2 f_equal. cbn [length value].
      rewrite w64_mul_add. f_equal. rewrite Nat2N.inj_succ, N.pow_succ_r'. lia.
    + pose proof (w64_lt (r * b + d)). lia.
Qed.

(** ** White space and sign *)

Lemma isspace_iff c : chr_isspace c = true <-> space c.
Proof. unfold chr_isspace, space. rewrite !orb_true_iff, !N.eqb_eq. tauto. Qed.

Lemma eat_ok ws : forall r len, Forall space ws ->
  (exists c r', r = c :: r' /\ ~ space c) ->
  eat_whitespace (ws ++ r) (length ws + len) = Ok (r, len).
Proof.
  induction ws as [|w ws IH]; intros r len F (c & r' & -> & Hc).
  - cbn [app length Nat.add]. destruct (chr_isspace c) eqn:E; [now apply isspace_iff in E|].
    destruct len; cbn [eat_whitespace rd nth_error bind]; rewrite E; reflexivity.
  - inversion F as [|? ? Hw F']; subst. apply isspace_iff in Hw.
    cbn [app length Nat.add eat_whitespace rd nth_error bind]. rewrite Hw. cbn [skipn].
    apply IH; auto. eauto.
Qed.

Lemma digit_head b cs ds r : spells b cs ds -> cs <> [] -> exists c r', cs ++ r = c :: r' /\ ~ space c /\ c <> 43 /\ c <> 45.
Proof.
  intros [F _] Hne. destruct F as [|c d cs ds H F]; [congruence|]. exists c, (cs ++ r). split; auto.
  unfold denotes in H. unfold space. lia.
Qed.

Lemma prep_ok ws sg neg cs ds rest z b : 2 <= b <= 36 ->
  Forall space ws -> sign_text sg neg -> spells b cs ds -> cs <> [] ->
  no_nul rest -> (b = 16 -> is_0x (cs ++ rest) = false) ->
  intconv_prep (ws ++ sg ++ cs ++ rest ++ 0 :: z) (length (ws ++ sg ++ cs ++ rest)) b =
    Ok (cs ++ rest ++ 0 :: z, length (cs ++ rest), b, neg).
Proof.
  intros Hb Hws Hsg Hsp Hne Hn H16.
  destruct (digit_head b cs ds (rest ++ 0 :: z) Hsp Hne) as (c & r' & E & Hc1 & Hc2 & Hc3).
  assert (Nn : no_nul (cs ++ rest)).
  { apply Forall_app. split; auto. destruct Hsp as [F _]. clear - F. induction F; constructor; auto.
    apply denotes_digit in H. tauto. }
  unfold intconv_prep. rewrite app_length, eat_ok; auto.
  2:{ destruct Hsg as [[-> ->]|[[-> ->]|[-> ->]]]; cbn [app].
      - eauto.
      - eexists _, _. split; [reflexivity|unfold space; lia].
      - eexists _, _. split; [reflexivity|unfold space; lia]. }
  cbn [bind].
  assert (S : str_sign (sg ++ cs ++ rest ++ 0 :: z) (length (sg ++ cs ++ rest)) =
     Ok (neg, cs ++ rest ++ 0 :: z, length (cs ++ rest))).
  { destruct Hsg as [[-> ->]|[[-> ->]|[-> ->]]]; cbn [app].
    - unfold str_sign. destruct cs as [|c0 cs]; [congruence|]. cbn [app] in E. injection E as -> E.
      cbn [app length rd nth_error bind].
      destruct (N.eqb_spec c 45); [congruence|]. destruct (N.eqb_spec c 43); [congruence|]. reflexivity.
    - reflexivity.
    - reflexivity. }
  rewrite S. cbn [bind].
  destruct (N.eqb_spec b 0); [lia|]. cbn [bind].
  destruct (N.eqb_spec b 16) as [->|]; cbn [andb bind]; [|reflexivity].
  destruct (Nat.leb_spec 2 (length (cs ++ rest))) as [L|L]; cbn [bind]; [|reflexivity].
  rewrite app_assoc, caseeq_0x by auto. cbn [bind]. rewrite (H16 eq_refl). reflexivity.
Qed.

Lemma core_ok cs ds rest z b : 2 <= b <= 36 -> spells b cs ds -> cs <> [] -> no_nul rest -> stops b rest ->
  to_uint64_int (cs ++ rest ++ 0 :: z) (length (cs ++ rest)) b =
    Ok (if flags b 0 ds then IOverflow else ISuccess, w64 (value b ds), rest ++ 0 :: z).
Proof.
  intros Hb Hsp Hne Hn Hst. unfold to_uint64_int.
  destruct (N.ltb_spec b 2); [lia|]. destruct (N.ltb_spec 36 b); [lia|]. cbn [orb].
  rewrite app_length, (digit_loop_run b rest z (length rest) Hb Hst Hn (le_n _) cs ds Hsp 0 false ltac:(lia)).
  cbn [bind orb]. rewrite N.mul_0_l, N.add_0_l.
  destruct (flags b 0 ds); auto.
  destruct (Nat.eqb_spec (length (rest ++ 0 :: z)) (length (cs ++ rest ++ 0 :: z))) as [E|]; auto.
  rewrite (app_length cs) in E. destruct cs; [congruence|cbn in E; lia].
Qed.

Definition text_ok (b : N) (ws sg : list N) (neg : bool) (cs ds rest : list N) : Prop :=
  2 <= b <= 36 /\ Forall space ws /\ sign_text sg neg /\ spells b cs ds /\ cs <> [] /\
  no_nul rest /\ stops b rest /\ (b = 16 -> cs ++ rest <> [48; 120] /\ cs ++ rest <> [48; 88]).

Lemma text_len (ws sg cs rest : list N) : cs <> [] -> (length (ws ++ sg ++ cs ++ rest) =? 0)%nat = false.
Proof. intros H. rewrite !app_length. destruct cs; [congruence|]. apply Nat.eqb_neq. cbn [length]. lia. Qed.

Lemma not_0x t : t <> [48; 120] /\ t <> [48; 88] -> is_0x t = false.
Proof.
  intros [A B]. unfold is_0x. apply not_true_is_false. rewrite orb_true_iff, !leq_iff. tauto.
Qed.

Lemma uint64_text b ws sg neg cs ds rest z val0 : text_ok b ws sg neg cs ds rest ->
  to_uint64_ex (ws ++ sg ++ cs ++ rest ++ 0 :: z) (length (ws ++ sg ++ cs ++ rest)) b val0 =
    Ok (if flags b 0 ds then IOverflow else ISuccess,
        if flags b 0 ds then uint64_max
        else if neg then w64 (2 ^ 64 - w64 (value b ds)) else w64 (value b ds),
        Some (rest ++ 0 :: z)).
Proof.
  intros (Hb & Hws & Hsg & Hsp & Hne & Hn & Hst & H0). unfold to_uint64_ex. rewrite text_len by auto.
  rewrite (prep_ok ws sg neg cs ds) by (auto using not_0x). cbn [bind].
  rewrite (core_ok cs ds) by auto. cbn [bind]. destruct (flags b 0 ds); auto.
Qed.

Lemma int64_text b ws sg neg cs ds rest z val0 : text_ok b ws sg neg cs ds rest ->
  to_int64_ex (ws ++ sg ++ cs ++ rest ++ 0 :: z) (length (ws ++ sg ++ cs ++ rest)) b val0 =
    let u := w64 (value b ds) in
    let over := if neg then 2 ^ 63 <? u else 2 ^ 63 - 1 <? u in
    Ok (if flags b 0 ds || over then IOverflow else ISuccess,
        if flags b 0 ds || over then (if neg then - 2 ^ 63 else 2 ^ 63 - 1)%Z
        else if neg then to_int64 (w64 (2 ^ 64 - u)) else to_int64 u,
        Some (rest ++ 0 :: z)).
Proof.
  intros (Hb & Hws & Hsg & Hsp & Hne & Hn & Hst & H0). unfold to_int64_ex. rewrite text_len by auto.
  rewrite (prep_ok ws sg neg cs ds) by (auto using not_0x). cbn [bind].
  rewrite (core_ok cs ds) by auto. cbn [bind].
  destruct neg; cbn [andb negb]; destruct (flags b 0 ds); cbn [orb];
    match goal with |- context [if ?c then IOverflow else _] => destruct c end; reflexivity.
Qed.

Lemma value_no_flags b ds : 2 <= b -> value b ds < 2 ^ 64 -> flags b 0 ds = false.
Proof. intros Hb H. apply flags_none; auto. Qed.

(** ** Printing and parsing *)

Lemma denotes_digit_char d : d < 36 -> denotes (digit_char d) d.
Proof. intros H. unfold digit_char, denotes. destruct (N.ltb_spec d 10); lia. Qed.

Lemma spells_digit_char b ds : b <= 36 -> Forall (fun d => d < b) ds -> spells b (map digit_char ds) ds.
Proof.
  intros Hb F. split; auto. induction F; cbn; constructor; auto. apply denotes_digit_char. lia.
Qed.

Lemma digits_exist b : 2 <= b -> forall n v, v < b ^ N.of_nat (S n) ->
  exists ds, ds <> [] /\ Forall (fun d => d < b) ds /\ value b ds = v.
Proof.
  intros Hb. induction n as [|n IH]; intros v Hv.
  - exists [v]. split; [discriminate|]. change (N.of_nat 1) with 1 in Hv. rewrite N.pow_1_r in Hv.
    split; [repeat constructor; auto|]. cbn. lia.
  - destruct (IH (v / b)) as (ds & Hne & F & E).
    + rewrite Nat2N.inj_succ, N.pow_succ_r' in Hv. apply N.div_lt_upper_bound; lia.
    + exists (ds ++ [v mod b]). split; [now destruct ds|]. split.
      * apply Forall_app. split; auto. repeat constructor. apply N.mod_lt. lia.
      * rewrite value_snoc, E. pose proof (N.div_mod v b ltac:(lia)). lia.
Qed.

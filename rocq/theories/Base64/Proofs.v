From Verif Require Import Base.Lib Base64.Model Base64.Spec.
From Verif Require Import Hex.Proofs.

(** ** Arithmetic of the bit operations *)

Lemma lor_add a b k : (b < 2 ^ k -> N.lor (N.shiftl a k) b = a * 2 ^ k + b)%N.
Proof.
  intros H. rewrite N.shiftl_mul_pow2.
  rewrite <- N.lxor_lor.
  - rewrite <- N.add_nocarry_lxor; [reflexivity|].
    apply N.bits_inj_0. intros n. rewrite N.land_spec.
    destruct (N.lt_ge_cases n k) as [L|L].
    + rewrite N.mul_pow2_bits_low by assumption. reflexivity.
    + destruct (N.eq_0_gt_0_cases b) as [->|Hb]; [rewrite N.bits_0; apply andb_false_r|].
      rewrite (N.bits_above_log2 b n); [apply andb_false_r|].
      apply N.lt_le_trans with k; [|assumption]. apply N.log2_lt_pow2; assumption.
  - apply N.bits_inj_0. intros n. rewrite N.land_spec.
    destruct (N.lt_ge_cases n k) as [L|L].
    + rewrite N.mul_pow2_bits_low by assumption. reflexivity.
    + destruct (N.eq_0_gt_0_cases b) as [->|Hb]; [rewrite N.bits_0; apply andb_false_r|].
      rewrite (N.bits_above_log2 b n); [apply andb_false_r|].
      apply N.lt_le_trans with k; [|assumption]. apply N.log2_lt_pow2; assumption.
Qed.

Lemma land_mask x k : N.land x (N.ones k) = (x mod 2 ^ k)%N.
Proof. apply N.land_ones. Qed.
Lemma land63 x : N.land x 63 = (x mod 64)%N.
Proof. exact (land_mask x 6). Qed.
Lemma land255 x : N.land x 255 = (x mod 256)%N.
Proof. exact (land_mask x 8). Qed.

Lemma bits6_val t k : bits6 t k = (t / 2 ^ k mod 64)%N.
Proof. unfold bits6. rewrite land63, N.shiftr_div_pow2. reflexivity. Qed.

Lemma tmp3 x y z : is_byte x -> is_byte y -> is_byte z ->
  N.lor (N.lor (N.shiftl x 16) (N.shiftl y 8)) z = (x * 65536 + y * 256 + z)%N.
Proof.
  unfold is_byte. intros Hx Hy Hz.
  rewrite (N.shiftl_mul_pow2 y 8). change (2 ^ 8)%N with 256%N.
  rewrite lor_add by (change (2 ^ 16)%N with 65536%N; lia). change (2 ^ 16)%N with 65536%N.
  replace (x * 65536 + y * 256)%N with (N.shiftl (x * 256 + y) 8)
    by (rewrite N.shiftl_mul_pow2; change (2 ^ 8)%N with 256%N; lia).
  rewrite lor_add by (change (2 ^ 8)%N with 256%N; lia).
  rewrite ?N.shiftl_mul_pow2. change (2 ^ 8)%N with 256%N. lia.
Qed.

Lemma tmp2 x y : is_byte x -> is_byte y ->
  N.lor (N.shiftl x 16) (N.shiftl y 8) = (x * 65536 + y * 256)%N.
Proof.
  intros Hx Hy. pose proof (tmp3 x y 0%N Hx Hy ltac:(unfold is_byte; lia)) as H.
  rewrite N.lor_0_r in H. lia.
Qed.

Lemma tmp1 x : N.shiftl x 16 = (x * 65536)%N.
Proof. rewrite N.shiftl_mul_pow2. reflexivity. Qed.

Lemma tmp4 a b c d : (a < 64 -> b < 64 -> c < 64 -> d < 64 ->
  N.lor (N.lor (N.lor (N.shiftl a 18) (N.shiftl b 12)) (N.shiftl c 6)) d
  = a * 262144 + b * 4096 + c * 64 + d)%N.
Proof.
  intros Ha Hb Hc Hd.
  rewrite (N.shiftl_mul_pow2 b 12), (N.shiftl_mul_pow2 c 6).
  change (2 ^ 12)%N with 4096%N. change (2 ^ 6)%N with 64%N.
  rewrite lor_add by (change (2 ^ 18)%N with 262144%N; lia). change (2 ^ 18)%N with 262144%N.
  replace (a * 262144 + b * 4096)%N with (N.shiftl (a * 64 + b) 12)
    by (rewrite N.shiftl_mul_pow2; change (2 ^ 12)%N with 4096%N; lia).
  rewrite lor_add by (change (2 ^ 12)%N with 4096%N; lia).
  rewrite ?N.shiftl_mul_pow2. change (2 ^ 12)%N with 4096%N.
  replace ((a * 64 + b) * 4096 + c * 64)%N with (N.shiftl (a * 4096 + b * 64 + c) 6)
    by (rewrite N.shiftl_mul_pow2; change (2 ^ 6)%N with 64%N; lia).
  rewrite lor_add by (change (2 ^ 6)%N with 64%N; lia).
  rewrite ?N.shiftl_mul_pow2. change (2 ^ 6)%N with 64%N. lia.
Qed.

(** ** Tables *)

Lemma enc_table_char v : (v < 64)%N -> rd enc_table (N.to_nat v) = Ok (b64_char v).
Proof.
  intros H.
  assert (K : (match rd enc_table (N.to_nat v) with Ok c => (c =? b64_char v)%N | _ => false end) = true).
  { apply (range_sweep 64 (fun v => match rd enc_table (N.to_nat v) with Ok c => (c =? b64_char v)%N | _ => false end));
      [vm_compute; reflexivity|exact H]. }
  destruct (rd enc_table (N.to_nat v)); try discriminate. apply N.eqb_eq in K. congruence.
Qed.

Lemma b64_char_props v : (v < 64)%N ->
  chr_isspace (b64_char v) = false /\ b64_isvalidchar (b64_char v) = true /\
  (b64_char v =? 61)%N = false /\ (b64_char v =? 10)%N = false /\
  ((b64_char v <? 43) || (320 <? b64_char v - 43))%N = false /\
  rd dec_table (N.to_nat (b64_char v - 43)) = Ok (Z.of_N v).
Proof.
  intros H.
  set (P := fun v => negb (chr_isspace (b64_char v)) && b64_isvalidchar (b64_char v) &&
     negb (b64_char v =? 61)%N && negb (b64_char v =? 10)%N &&
     negb ((b64_char v <? 43) || (320 <? b64_char v - 43))%N &&
     match rd dec_table (N.to_nat (b64_char v - 43)) with Ok z => (z =? Z.of_N v)%Z | _ => false end).
  assert (K : P v = true) by (apply (range_sweep 64 P); [vm_compute; reflexivity|exact H]).
  unfold P in K. rewrite !andb_true_iff, !negb_true_iff in K.
  destruct K as (((((K1 & K2) & K3) & K4) & K5) & K6).
  repeat split; auto.
  destruct (rd dec_table (N.to_nat (b64_char v - 43))); try discriminate.
  apply Z.eqb_eq in K6. congruence.
Qed.

(** ** Encoder *)

(** Text with a newline after every [w]-th character, the last included. *)
Fixpoint wrapt (w len : nat) (s : list N) : list N :=
  match s with
  | [] => []
  | c :: s' => c :: (if (0 <? w) && (S len mod w =? 0) then [10%N] else []) ++ wrapt w (S len) s'
  end.

Lemma wrapt_app w s1 : forall len s2, wrapt w len (s1 ++ s2) = wrapt w len s1 ++ wrapt w (len + length s1) s2.
Proof.
  induction s1 as [|c s1 IH]; intros len s2; cbn [wrapt app length].
  - rewrite Nat.add_0_r. reflexivity.
  - rewrite IH, <- app_assoc. replace (S len + length s1) with (len + S (length s1)) by lia. reflexivity.
Qed.

Definition put (st : est) (c : N) (w : nat) : res est :=
  let '(out, pos, len) := st in
  do out1 <- wr out pos c;
  if (0 <? w) && (S len mod w =? 0) then
    do out2 <- wr out1 (S pos) 10%N; Ok (out2, S (S pos), S len)
  else Ok (out1, S pos, S len).

Fixpoint puts (st : est) (cs : list N) (w : nat) : res est :=
  match cs with [] => Ok st | c :: cs' => do st1 <- put st c w; puts st1 cs' w end.

Lemma adder_put st v w : (v < 64)%N -> adder st v w false = put st (b64_char v) w.
Proof.
  intros H. destruct st as [[out pos] len]. unfold adder, put.
  rewrite enc_table_char by assumption. cbn [bind].
  replace (0 <? S len) with true by reflexivity. rewrite andb_true_r. reflexivity.
Qed.
Lemma adder_pad st v w : adder st v w true = put st 61%N w.
Proof.
  destruct st as [[out pos] len]. unfold adder, put. cbn [bind].
  replace (0 <? S len) with true by reflexivity. rewrite andb_true_r. reflexivity.
Qed.

Lemma list3_ind (P : list N -> Prop) :
  P [] -> (forall x, P [x]) -> (forall x y, P [x; y]) ->
  (forall x y z l, P l -> P (x :: y :: z :: l)) -> forall l, P l.
Proof.
  intros H0 H1 H2 H3 l. remember (length l) as n. revert l Heqn.
  induction n as [n IH] using lt_wf_ind. intros l ->.
  destruct l as [|x [|y [|z l]]]; auto. apply H3. apply (IH (length l)); cbn; auto; lia.
Qed.

Lemma b64_char_eq u v : u = v -> b64_char u = b64_char v.
Proof. congruence. Qed.

Lemma div16 x y z : (x < 256 -> y < 256 -> z < 256 ->
  let t := x * 65536 + y * 256 + z in
  t / 2 ^ 18 mod 64 = x / 4 /\ t / 2 ^ 12 mod 64 = x mod 4 * 16 + y / 16 /\
  t / 2 ^ 6 mod 64 = y mod 16 * 4 + z / 64 /\ t mod 64 = z mod 64)%N.
Proof.
  intros Hx Hy Hz t. subst t.
  change (2 ^ 18)%N with 262144%N. change (2 ^ 12)%N with 4096%N. change (2 ^ 6)%N with 64%N.
  repeat split; lia.
Qed.

Lemma enc_groups_puts w b : is_bytes b -> forall st,
  enc_groups b st w = puts st (b64_text b) w.
Proof.
  induction b as [|x|x y|x y z b IH] using list3_ind; intros Hb st.
  - reflexivity.
  - inversion Hb as [|? ? Hx _]; subst. unfold is_byte in Hx. cbn [enc_groups b64_text puts].
    rewrite tmp1, !bits6_val.
    destruct (div16 x 0 0 Hx ltac:(lia) ltac:(lia)) as (D1 & D2 & _ & _).
    rewrite N.mul_0_l, !N.add_0_r in D1, D2. change (0 / 16)%N with 0%N in D2. rewrite N.add_0_r in D2.
    rewrite D1, D2.
    rewrite adder_put by lia. destruct (put st _ w) as [st1| |]; cbn [bind]; auto.
    rewrite adder_put by lia. destruct (put st1 _ w) as [st2| |]; cbn [bind]; auto.
    rewrite adder_pad. destruct (put st2 _ w) as [st3| |]; cbn [bind]; auto.
    rewrite adder_pad. destruct (put st3 _ w) as [st4| |]; cbn [bind]; auto.
  - inversion Hb as [|? ? Hx Hb1]; subst. inversion Hb1 as [|? ? Hy _]; subst.
    cbn [enc_groups b64_text puts]. rewrite tmp2 by assumption. unfold is_byte in *.
    rewrite !bits6_val.
    destruct (div16 x y 0 Hx Hy ltac:(lia)) as (D1 & D2 & D3 & _).
    rewrite N.add_0_r in D1, D2, D3. change (0 / 64)%N with 0%N in D3. rewrite N.add_0_r in D3.
    rewrite D1, D2, D3.
    rewrite adder_put by lia. destruct (put st _ w) as [st1| |]; cbn [bind]; auto.
    rewrite adder_put by lia. destruct (put st1 _ w) as [st2| |]; cbn [bind]; auto.
    rewrite adder_put by lia. destruct (put st2 _ w) as [st3| |]; cbn [bind]; auto.
    rewrite adder_pad. destruct (put st3 _ w) as [st4| |]; cbn [bind]; auto.
  - inversion Hb as [|? ? Hx Hb1]; subst. inversion Hb1 as [|? ? Hy Hb2]; subst.
    inversion Hb2 as [|? ? Hz Hb3]; subst.
    cbn [enc_groups b64_text puts]. rewrite tmp3 by assumption. unfold is_byte in *.
    rewrite !bits6_val, land63.
    destruct (div16 x y z Hx Hy Hz) as (D1 & D2 & D3 & D4).
    rewrite D1, D2, D3, D4.
    rewrite adder_put by lia. destruct (put st _ w) as [st1| |]; cbn [bind]; auto.
    rewrite adder_put by lia. destruct (put st1 _ w) as [st2| |]; cbn [bind]; auto.
    rewrite adder_put by lia. destruct (put st2 _ w) as [st3| |]; cbn [bind]; auto.
    rewrite adder_put by lia. destruct (put st3 _ w) as [st4| |]; cbn [bind]; auto.
Qed.

Lemma puts_ok w cs : forall out pos len,
  pos + length (wrapt w len cs) <= length out ->
  exists out', puts (out, pos, len) cs w = Ok (out', pos + length (wrapt w len cs), len + length cs) /\
    length out' = length out /\
    firstn (pos + length (wrapt w len cs)) out' = firstn pos out ++ wrapt w len cs.
Proof.
  induction cs as [|c cs IH]; intros out pos len H; cbn [puts wrapt length].
  - exists out. rewrite !Nat.add_0_r, app_nil_r. auto.
  - cbn [wrapt length] in H. rewrite app_length in *.
    assert (H1 : pos < length out) by lia.
    destruct (wr_seq out c H1) as (m & E & L & F & _). unfold put at 1. rewrite E. cbn [bind].
    destruct ((0 <? w) && (S len mod w =? 0)) eqn:Ew; cbn [length app] in *.
    + assert (H2 : S pos < length m) by lia.
      destruct (wr_seq m 10%N H2) as (m2 & E2 & L2 & F2 & _). rewrite E2. cbn [bind].
      destruct (IH m2 (S (S pos)) (S len)) as (o & E3 & L3 & F3); [lia|].
      exists o. rewrite E3.
      replace (S (S pos) + length (wrapt w (S len) cs)) with (pos + S (1 + length (wrapt w (S len) cs))) in * by lia.
      replace (S len + length cs) with (len + S (length cs)) by lia.
      repeat split; try congruence. rewrite F3, F2, F, <- !app_assoc. reflexivity.
    + destruct (IH m (S pos) (S len)) as (o & E3 & L3 & F3); [lia|].
      exists o. cbn [bind]. rewrite E3.
      replace (S pos + length (wrapt w (S len) cs)) with (pos + S (0 + length (wrapt w (S len) cs))) in * by lia.
      replace (S len + length cs) with (len + S (length cs)) by lia.
      repeat split; try congruence. rewrite F3, F, <- !app_assoc. reflexivity.
Qed.

Lemma length_b64_text b : length (b64_text b) = b64_len (length b).
Proof.
  unfold b64_len.
  induction b as [|x|x y|x y z b IH] using list3_ind; try reflexivity.
  cbn [b64_text length]. rewrite IH.
  replace (S (S (S (length b))) + 2) with (1 * 3 + (length b + 2)) by lia.
  rewrite Nat.div_add_l by lia. lia.
Qed.

Lemma wrapt_wrapped w s : 0 < w -> s <> [] -> forall len,
  wrapt w len s = wrapped w (len mod w) s ++ (if (len + length s) mod w =? 0 then [10%N] else []).
Proof.
  intros Hw. induction s as [|c s IH]; intros Hne len; [congruence|].
  assert (Hs : S len mod w = if S (len mod w) =? w then 0 else S (len mod w)).
  { destruct (Nat.eqb_spec (S (len mod w)) w) as [He|He].
    - pose proof (Nat.div_mod len w ltac:(lia)).
      replace (S len) with ((len / w + 1) * w) by nia. apply Nat.mod_mul. lia.
    - pose proof (Nat.div_mod len w ltac:(lia)). pose proof (Nat.mod_upper_bound len w ltac:(lia)).
      symmetry. apply (Nat.mod_unique (S len) w (len / w)); lia. }
  cbn [wrapt]. replace (0 <? w) with true by lia. cbn [andb].
  destruct s as [|d s].
  - cbn [wrapt wrapped length app]. rewrite app_nil_r. replace (len + 1) with (S len) by lia. reflexivity.
  - rewrite IH by discriminate. rewrite (wrapped_cons w (len mod w) c) by discriminate.
    replace (len + length (c :: d :: s)) with (S len + length (d :: s)) by (cbn [length]; lia).
    rewrite Hs. destruct (Nat.eqb_spec (S (len mod w)) w).
    + cbn [app Nat.eqb]. reflexivity.
    + cbn [app Nat.eqb]. reflexivity.
Qed.

Lemma wrapt_0 len s : wrapt 0 len s = s.
Proof. revert len; induction s as [|c s IH]; intros len; cbn; congruence. Qed.

Lemma b64_text_last b : is_bytes b -> b <> [] ->
  exists t c, b64_text b = t ++ [c] /\ (c =? 10)%N = false.
Proof.
  induction b as [|x|x y|x y z b IH] using list3_ind; intros Hb Hne; [congruence| | |].
  - cbn [b64_text]. eexists [_; _; _], _. split; reflexivity.
  - cbn [b64_text]. eexists [_; _; _], _. split; reflexivity.
  - inversion Hb as [|? ? Hx Hb1]; subst. inversion Hb1 as [|? ? Hy Hb2]; subst.
    inversion Hb2 as [|? ? Hz Hb3]; subst. cbn [b64_text].
    destruct b as [|p b].
    + eexists [_; _; _], _. split; [reflexivity|]. apply b64_char_props. unfold is_byte in *. lia.
    + destruct IH as (t & c & E & H); [assumption|discriminate|]. rewrite E.
      eexists (_ :: _ :: _ :: _ :: t), c. split; [reflexivity|assumption].
Qed.

Lemma wrapped_last w k t c : exists t', wrapped w k (t ++ [c]) = t' ++ [c].
Proof.
  revert k; induction t as [|x t IH]; intros k; cbn [app].
  - exists []. reflexivity.
  - rewrite wrapped_cons by (destruct t; discriminate).
    destruct (IH (if S k =? w then 0 else S k)) as (t' & ->).
    eexists (_ ++ t'). rewrite app_assoc. reflexivity.
Qed.

Lemma b64_encode_size_ok b w : b <> [] ->
  b64_encode_size (length b) w = length (wrap_text w (b64_text b)) + 1.
Proof.
  intros Hne. unfold b64_encode_size.
  assert (0 < length b) by (destruct b; cbn; [congruence|lia]).
  replace (length b =? 0) with false by lia.
  assert (E : ((4 * length b / 3) + 3) / 4 * 4 = b64_len (length b)).
  { unfold b64_len. generalize (length b). intros n.
    assert (H3 : exists q r, n = 3 * q + r /\ r < 3) by (exists (n / 3), (n mod 3); lia).
    destruct H3 as (q & r & -> & Hr).
    destruct r as [|[|[|]]]; lia. }
  rewrite E.
  assert (Hne' : b64_text b <> []).
  { intros K. pose proof (length_b64_text b) as L. rewrite K in L. unfold b64_len in L. cbn [length] in L. lia. }
  rewrite (length_wrap_text w _ Hne'), length_b64_text.
  set (L := b64_len (length b)). assert (4 <= L) by (subst L; unfold b64_len; lia).
  destruct (Nat.eqb_spec w 0) as [->|Hw]; [cbn; lia|].
  replace (0 <? w) with true by lia. f_equal.
  destruct (Nat.eqb_spec (L mod w) 0) as [Hm|Hm]; cbn [negb].
  - f_equal. apply Nat.mod_divides in Hm as [q Hq]; [|lia]. rewrite Hq in *.
    assert (0 < q) by nia.
    rewrite (Nat.mul_comm w q), Nat.div_mul by lia.
    symmetry. replace (q * w - 1) with ((q - 1) * w + (w - 1)) by nia.
    rewrite Nat.div_add_l by lia. rewrite (Nat.div_small (w - 1)); lia.
  - f_equal. pose proof (Nat.div_mod L w Hw). pose proof (Nat.mod_upper_bound L w Hw).
    apply (Nat.div_unique (L - 1) w (L / w) (L mod w - 1)); lia.
Qed.

Lemma b64_encode_correct b out w :
  is_bytes b -> b <> [] -> b64_encode_size (length b) w <= length out ->
  exists out', b64_encode out b w = Ok (length (wrap_text w (b64_text b)), out') /\
    length out' = length out /\
    firstn (S (length (wrap_text w (b64_text b)))) out' = wrap_text w (b64_text b) ++ [0%N].
Proof.
  intros Hb Hne Hl. unfold b64_encode.
  rewrite b64_encode_size_ok in * by assumption.
  assert (0 < length b) by (destruct b; cbn; [congruence|lia]).
  replace ((length out =? 0) || (length b =? 0) ||
           (length out <? length (wrap_text w (b64_text b)) + 1)) with false by lia.
  rewrite enc_groups_puts by assumption.
  destruct (b64_text_last b Hb Hne) as (t & c & Et & Hc).
  assert (Hw : wrapt w 0 (b64_text b) = wrap_text w (b64_text b) ++
    (if (negb (w =? 0)) && (length (b64_text b) mod w =? 0) then [10%N] else [])).
  { destruct w as [|w].
    - rewrite wrapt_0. cbn. rewrite app_nil_r. reflexivity.
    - rewrite wrapt_wrapped; [|lia|rewrite Et; destruct t; discriminate].
      rewrite Nat.mod_0_l by lia. rewrite Nat.add_0_l.
      cbn [negb Nat.eqb andb wrap_text]. reflexivity. }
  assert (HT : exists t', wrap_text w (b64_text b) = t' ++ [c]).
  { rewrite Et. destruct w; cbn [wrap_text]; [eauto|apply wrapped_last]. }
  destruct HT as (t' & HT).
  set (T := wrap_text w (b64_text b)) in *.
  destruct ((negb (w =? 0)) && (length (b64_text b) mod w =? 0)) eqn:Etr.
  - destruct (@puts_ok w (b64_text b) out 0 0) as (o & E & L & F).
    { rewrite Hw, app_length. cbn [length]. lia. }
    rewrite E. cbn [bind]. rewrite Hw, app_length in *. rewrite firstn_O in F. cbn [length app plus] in *.
    replace (length T + 1) with (S (length T)) in * by lia.
    assert (R : rd o (length T) = Ok 10%N).
    { apply rd_Ok.
      assert (G : nth_error (firstn (S (length T)) o) (length T) = nth_error o (length T)).
      { rewrite firstn_nth_error. replace (length T <? S (length T)) with true by lia. reflexivity. }
      rewrite <- G, F. rewrite nth_error_app2 by lia. rewrite Nat.sub_diag. reflexivity. }
    rewrite R. cbn [bind]. change (10 =? 10)%N with true. cbn iota.
    replace (S (length T) - 1) with (length T) by lia.
    assert (HL : length T < length o) by lia.
    destruct (wr_seq o 0%N HL) as (m & Em & Lm & Fm & _). rewrite Em. cbn [bind].
    exists m. repeat split; try congruence. rewrite Fm. f_equal.
    assert (G : firstn (length T) (firstn (S (length T)) o) = firstn (length T) (T ++ [10%N])) by congruence.
    rewrite firstn_firstn, Nat.min_l in G by lia. rewrite G.
    rewrite firstn_app, Nat.sub_diag, firstn_all. cbn. apply app_nil_r.
  - rewrite app_nil_r in Hw.
    destruct (@puts_ok w (b64_text b) out 0 0) as (o & E & L & F).
    { rewrite Hw. lia. }
    rewrite E. cbn [bind]. rewrite Hw in *. rewrite firstn_O in F. cbn [app plus] in *.
    assert (LT : length T = S (length t')) by (rewrite HT, app_length; cbn; lia).
    assert (R : rd o (length t') = Ok c).
    { apply rd_Ok.
      assert (G : nth_error (firstn (length T) o) (length t') = nth_error o (length t')).
      { rewrite firstn_nth_error. replace (length t' <? length T) with true by lia. reflexivity. }
      rewrite <- G, F, HT. rewrite nth_error_app2 by lia. rewrite Nat.sub_diag. reflexivity. }
    assert (Hm : match length T with 0 => UB | S p => rd o p end = Ok c) by (rewrite LT; exact R).
    rewrite Hm. cbn [bind]. rewrite Hc. cbn iota.
    assert (HL : length T < length o) by lia.
    destruct (wr_seq o 0%N HL) as (m & Em & Lm & Fm & _). rewrite Em. cbn [bind].
    exists m. repeat split; try congruence.
Qed.

(** ** Decoder *)

Lemma strip_cons c s : strip (c :: s) = if chr_isspace c then strip s else c :: strip s.
Proof. unfold strip. cbn. destruct (chr_isspace c); reflexivity. Qed.

Lemma skipn_cons_nth {A} (l : list A) i x : nth_error l i = Some x -> skipn i l = x :: skipn (S i) l.
Proof.
  revert i; induction l as [|y l IH]; intros [|i] H; cbn in *; try discriminate.
  - congruence.
  - apply IH, H.
Qed.

Lemma skip_ws_spec inb inlen : inlen <= length inb -> forall fuel idx,
  idx <= inlen -> inlen - idx < fuel ->
  exists j, skip_ws fuel inb inlen idx = Ok j /\ idx <= j <= inlen /\
    (forall k, idx <= k < j -> exists c, nth_error inb k = Some c /\ chr_isspace c = true) /\
    match strip (skipn idx (firstn inlen inb)) with
    | [] => j = inlen
    | c :: r => j < inlen /\ nth_error inb j = Some c /\ strip (skipn (S j) (firstn inlen inb)) = r
    end.
Proof.
  intros Hlen. induction fuel as [|fuel IH]; intros idx Hi Hf; [lia|].
  cbn [skip_ws]. destruct (Nat.ltb_spec idx inlen) as [Hlt|Hge].
  - destruct (rd_lt inb (i:=idx)) as [c Hc]; [lia|]. rewrite Hc. cbn [bind].
    apply rd_Ok in Hc.
    assert (Hu : nth_error (firstn inlen inb) idx = Some c).
    { rewrite firstn_nth_error. replace (idx <? inlen) with true by lia. assumption. }
    rewrite (skipn_cons_nth _ _ _ Hu), strip_cons.
    destruct (chr_isspace c) eqn:Es.
    + destruct (IH (S idx)) as (j & E & Hj & Hsp & R); [lia|lia|].
      exists j. rewrite E. split; [reflexivity|]. split; [lia|]. split; [|exact R].
      intros k Hk. destruct (Nat.eq_dec k idx) as [->|]; [eauto|]. apply Hsp. lia.
    + exists idx. split; [reflexivity|]. split; [lia|]. split; [intros; lia|]. auto.
  - exists idx. split; [reflexivity|]. split; [lia|]. split; [intros; lia|].
    assert (idx = inlen) as -> by lia.
    replace (skipn inlen (firstn inlen inb)) with (@nil N); [reflexivity|].
    symmetry. apply skipn_all2. rewrite firstn_length. lia.
Qed.

(** Value of a valid non-padding character. *)
Definition dval (c : N) : N := Z.to_N (nth (N.to_nat (c - 43)) dec_table 0%Z).

Lemma valid_table c : b64_isvalidchar c = true -> (c =? 61)%N = false ->
  ((c <? 43) || (320 <? c - 43))%N = false /\
  exists v, rd dec_table (N.to_nat (c - 43)) = Ok v /\ (v =? -1)%Z = false /\
            Z.to_N v = dval c /\ (dval c < 64)%N.
Proof.
  intros Hv Hp.
  assert (Hr : (c < 123)%N) by (unfold b64_isvalidchar in Hv; lia).
  set (P := fun c => negb (b64_isvalidchar c) || (c =? 61)%N ||
     (negb ((c <? 43) || (320 <? c - 43))%N &&
      match rd dec_table (N.to_nat (c - 43)) with
      | Ok v => negb (v =? -1)%Z && (Z.to_N v =? dval c)%N && (dval c <? 64)%N | _ => false end)).
  assert (K : P c = true) by (apply (range_sweep 123 P); [vm_compute; reflexivity|exact Hr]).
  unfold P in K. rewrite Hv, Hp in K. cbn [negb orb] in K.
  apply andb_prop in K as [K1 K2]. split; [now apply negb_true_iff|].
  destruct (rd dec_table (N.to_nat (c - 43))) as [v| |]; try discriminate.
  apply andb_prop in K2 as [K2 K3]. apply andb_prop in K2 as [K2 K4].
  exists v. repeat split; auto; lia.
Qed.

Definition dres (c : N) (j inlen : nat) : option (N * nat) :=
  if negb (b64_isvalidchar c) then None
  else if (c =? 61)%N then
    if (inlen <? 2) || (j <? inlen - 2) then None else Some (0%N, S j)
  else Some (dval c, S j).

Lemma get_decchar_spec inb inlen idx : inlen <= length inb -> idx <= inlen ->
  match strip (skipn idx (firstn inlen inb)) with
  | [] => get_decchar inb inlen idx = Ok None
  | c :: r => exists j, idx <= j /\ j < inlen /\ nth_error inb j = Some c /\
      (forall k, idx <= k < j -> exists c', nth_error inb k = Some c' /\ chr_isspace c' = true) /\
      strip (skipn (S j) (firstn inlen inb)) = r /\
      get_decchar inb inlen idx = Ok (dres c j inlen)
  end.
Proof.
  intros Hlen Hi. unfold get_decchar.
  destruct (@skip_ws_spec inb inlen Hlen (S (inlen - idx)) idx) as (j & E & Hj & Hsp & R); [lia|lia|].
  destruct (Nat.leb_spec inlen idx) as [Hge|Hlt].
  - assert (idx = inlen) as -> by lia.
    replace (skipn inlen (firstn inlen inb)) with (@nil N); [reflexivity|].
    symmetry. apply skipn_all2. rewrite firstn_length. lia.
  - rewrite E. cbn [bind].
    destruct (strip (skipn idx (firstn inlen inb))) as [|c r].
    + subst j. rewrite Nat.leb_refl. reflexivity.
    + destruct R as (Hjl & Hc & Hr). exists j. repeat split; auto; try lia.
      replace (inlen <=? j) with false by lia.
      rewrite (proj2 (rd_Ok inb j c) Hc). cbn [bind]. unfold dres.
      destruct (b64_isvalidchar c) eqn:Ev; cbn [negb]; auto.
      destruct (c =? 61)%N eqn:Ep.
      * destruct (_ || _); reflexivity.
      * destruct (valid_table c Ev Ep) as (K & v & Er & Ev' & Ez & _).
        rewrite K, Er. cbn [bind]. rewrite Ev', Ez. reflexivity.
Qed.

Lemma get_decchar_ok inb inlen idx : inlen <= length inb -> idx <= inlen ->
  exists r, get_decchar inb inlen idx = Ok r /\
    match r with None => True | Some (_, j) => idx < j <= inlen end.
Proof.
  intros Hlen Hi. pose proof (get_decchar_spec inb inlen idx Hlen Hi) as H.
  destruct (strip _) as [|c r].
  - exists None. auto.
  - destruct H as (j & H1 & H2 & _ & _ & _ & ->). exists (dres c j inlen). split; auto.
    unfold dres. destruct (negb _); auto.
    destruct (c =? 61)%N; [destruct (_ || _); auto; lia|lia].
Qed.

Lemma write_decchar_ok out pos c : 
  exists r, write_decchar out pos c = Ok r /\
    match r with None => True | Some (o, p) => length o = length out /\ p = S pos /\ pos < length out end.
Proof.
  unfold write_decchar. destruct (Nat.leb_spec (length out) pos).
  - exists None. auto.
  - destruct (wr_seq out c H) as (m & E & L & _). rewrite E. cbn [bind].
    exists (Some (m, S pos)). auto.
Qed.

Lemma dec_loop_safe inb inlen : inlen <= length inb -> forall fuel i out pos,
  i <= inlen -> inlen - i < fuel -> pos <= length out ->
  exists r o, dec_loop fuel inb inlen i out pos = Ok (r, o) /\ length o = length out /\
    match r with None => True | Some n => n <= length out end.
Proof.
  intros Hlen. induction fuel as [|fuel IH]; intros i out pos Hi Hf Hp; [lia|].
  cbn [dec_loop]. destruct (Nat.ltb_spec i inlen) as [Hlt|Hge].
  2:{ exists (Some pos), out. auto. }
  destruct (get_decchar_ok inb inlen i Hlen Hi) as ([[a i1]|] & -> & H1); cbn [bind];
    [|exists None, out; auto].
  destruct (get_decchar_ok inb inlen i1 Hlen ltac:(lia)) as ([[b i2]|] & -> & H2); cbn [bind];
    [|exists None, out; auto].
  destruct (get_decchar_ok inb inlen i2 Hlen ltac:(lia)) as ([[c i3]|] & -> & H3); cbn [bind];
    [|exists None, out; auto].
  destruct (get_decchar_ok inb inlen i3 Hlen ltac:(lia)) as ([[d i4]|] & -> & H4); cbn [bind];
    [|exists None, out; auto].
  match goal with |- context [write_decchar out pos ?x] =>
    destruct (write_decchar_ok out pos x) as ([[o1 p1]|] & -> & W1); cbn [bind];
    [|exists None, out; auto] end.
  destruct W1 as (L1 & -> & Q1).
  assert (T2 : exists two, (if negb (i4 =? inlen) then Ok true
                 else if inlen <? 2 then UB
                 else do x <- rd inb (inlen - 2); Ok (negb (x =? 61)%N)) = Ok two).
  { destruct (negb (i4 =? inlen)); [eauto|].
    replace (inlen <? 2) with false by lia.
    destruct (rd_lt inb (i:=inlen - 2)) as [x ->]; [lia|]. cbn [bind]. eauto. }
  destruct T2 as [two ->]. cbn [bind].
  assert (W2 : forall x, exists r, (if two : bool then write_decchar o1 (S pos) x
                else Ok (Some (o1, S pos))) = Ok r /\
     match r with None => True | Some (o, p) => length o = length out /\ p <= length out end).
  { intros x. destruct two.
    - destruct (write_decchar_ok o1 (S pos) x) as ([[o2 p2]|] & -> & W2); [|exists None; auto].
      exists (Some (o2, p2)). split; auto. destruct W2 as (? & ? & ?). split; [congruence|lia].
    - exists (Some (o1, S pos)). split; auto. }
  match goal with |- context [if two then write_decchar o1 (S pos) ?x else _] =>
    destruct (W2 x) as ([[o2 p2]|] & -> & W2'); cbn [bind]; [|exists None, o1; auto] end.
  destruct W2' as (L2 & P2).
  assert (T3 : exists three, (if negb (i4 =? inlen) then Ok true
                 else do x <- rd inb (inlen - 1); Ok (negb (x =? 61)%N)) = Ok three).
  { destruct (negb (i4 =? inlen)); [eauto|].
    destruct (rd_lt inb (i:=inlen - 1)) as [x ->]; [lia|]. cbn [bind]. eauto. }
  destruct T3 as [three ->]. cbn [bind].
  assert (W3 : forall x, exists r, (if three : bool then write_decchar o2 p2 x
                else Ok (Some (o2, p2))) = Ok r /\
     match r with None => True | Some (o, p) => length o = length out /\ p <= length out end).
  { intros x. destruct three.
    - destruct (write_decchar_ok o2 p2 x) as ([[o3 p3]|] & -> & W3); [|exists None; auto].
      exists (Some (o3, p3)). split; auto. destruct W3 as (? & ? & ?). split; [congruence|lia].
    - exists (Some (o2, p2)). split; auto. }
  match goal with |- context [if three then write_decchar o2 p2 ?x else _] =>
    destruct (W3 x) as ([[o3 p3]|] & -> & W3'); cbn [bind]; [|exists None, o2; auto] end.
  destruct W3' as (L3 & P3).
  destruct (IH i4 o3 p3) as (r & o & E & L & R); [lia|lia|lia|].
  exists r, o. rewrite E. repeat split; try congruence. destruct r; auto. lia.
Qed.

Lemma trim_end_spec inb : forall n, n <= length inb ->
  (Forall (fun c => chr_isspace c = true) (firstn n inb) /\ trim_end inb n = UB) \/
  (exists m c, m < n /\ nth_error inb m = Some c /\ chr_isspace c = false /\
      Forall (fun c => chr_isspace c = true) (skipn (S m) (firstn n inb)) /\
      trim_end inb n = Ok (S m)).
Proof.
  induction n as [|n IH]; intros Hn.
  - left. split; [constructor|reflexivity].
  - cbn [trim_end]. destruct (rd_lt inb (i:=n)) as [c Hc]; [lia|]. rewrite Hc. cbn [bind].
    apply rd_Ok in Hc.
    assert (Es : firstn (S n) inb = firstn n inb ++ [c]).
    { clear -Hc. revert n Hc. induction inb as [|y l IH]; intros [|n] H; cbn in *; try discriminate.
      - congruence.
      - f_equal. apply IH, H. }
    destruct (chr_isspace c) eqn:E.
    + destruct (IH ltac:(lia)) as [[F U]|(m & d & Hm & Hd & Hs & F & U)].
      * left. split; auto. rewrite Es. apply Forall_app. auto.
      * right. exists m, d. repeat split; auto; try lia.
        rewrite Es, skipn_app. apply Forall_app. split; auto.
        rewrite firstn_length. replace (S m - Nat.min n (length inb)) with 0 by lia.
        cbn. auto.
    + right. exists n, c. repeat split; auto; try lia.
      rewrite skipn_all2; auto. rewrite firstn_length. lia.
Qed.

(** The decoder is memory safe exactly when the input is not all white space. *)
Lemma b64_decode_safe_iff out inb : 
  (exists n o, b64_decode out inb = Ok (n, o) /\ length o = length out /\ n <= length out) \/
  (out <> [] /\ inb <> [] /\ Forall is_space inb /\ b64_decode out inb = UB).
Proof.
  unfold b64_decode.
  destruct (Nat.eqb_spec (length out) 0) as [E|Ho]; cbn [orb].
  { left. exists 0, out. repeat split; auto; lia. }
  destruct (Nat.eqb_spec (length inb) 0) as [E|Hi].
  { left. exists 0, out. repeat split; auto; lia. }
  destruct (trim_end_spec inb (length inb) (le_n _)) as [[F U]|(m & c & Hm & Hc & Hs & F & U)].
  - right. rewrite U. repeat split; auto; try (intros ->; cbn in *; congruence).
    rewrite firstn_all in F. eapply Forall_impl; [|exact F]. intros a. apply chr_isspace_spec.
  - left. rewrite U. cbn [bind Nat.eqb].
    destruct (@dec_loop_safe inb (S m) ltac:(lia) (S (S m)) 0 out 0) as (r & o & E & L & R); try lia.
    rewrite E. cbn [bind]. destruct r as [n|].
    + exists n, o. auto.
    + exists 0, o. repeat split; auto. lia.
Qed.

(** *** Round trip *)

Lemma dval_char v : (v < 64)%N -> dval (b64_char v) = v.
Proof.
  intros H. destruct (b64_char_props v H) as (_ & _ & _ & _ & _ & R).
  unfold dval. apply rd_Ok in R. erewrite nth_error_nth by exact R. lia.
Qed.

Lemma dres_char v j n : (v < 64)%N -> dres (b64_char v) j n = Some (v, S j).
Proof.
  intros H. destruct (b64_char_props v H) as (_ & H1 & H2 & _).
  unfold dres. rewrite H1, H2. cbn [negb]. rewrite dval_char by assumption. reflexivity.
Qed.

Lemma dres_pad j n : 2 <= n -> dres 61 j n = if j <? n - 2 then None else Some (0%N, S j).
Proof.
  intros H. unfold dres. change (b64_isvalidchar 61) with true. cbn [negb].
  change (61 =? 61)%N with true. cbn iota. replace (n <? 2) with false by lia. reflexivity.
Qed.

(** Taking the next character of the stripped text. *)
Lemma get_step inb inlen idx c r : inlen <= length inb -> idx <= inlen ->
  strip (skipn idx (firstn inlen inb)) = c :: r ->
  exists j, idx <= j /\ j < inlen /\ nth_error inb j = Some c /\
      (forall k, idx <= k < j -> exists c', nth_error inb k = Some c' /\ chr_isspace c' = true) /\
      strip (skipn (S j) (firstn inlen inb)) = r /\
      get_decchar inb inlen idx = Ok (dres c j inlen).
Proof. intros H1 H2 H3. pose proof (get_decchar_spec inb inlen idx H1 H2) as H. rewrite H3 in H. exact H. Qed.

Lemma group_bytes3 x y z : (x < 256 -> y < 256 -> z < 256 ->
  let a := x / 4 in let b := x mod 4 * 16 + y / 16 in
  let c := y mod 16 * 4 + z / 64 in let d := z mod 64 in
  let t := N.lor (N.lor (N.lor (N.shiftl a 18) (N.shiftl b 12)) (N.shiftl c 6)) d in
  N.land (N.shiftr t 16) 255 = x /\ N.land (N.shiftr t 8) 255 = y /\ N.land t 255 = z)%N.
Proof.
  intros Hx Hy Hz a b c d t.
  assert (Ht : t = (x * 65536 + y * 256 + z)%N).
  { subst t. rewrite tmp4; subst a b c d; lia. }
  rewrite Ht, !land255, !N.shiftr_div_pow2.
  change (2 ^ 16)%N with 65536%N. change (2 ^ 8)%N with 256%N.
  repeat split; lia.
Qed.

Definition no_trail (inb : list N) (inlen : nat) : Prop :=
  exists c, 0 < inlen /\ nth_error inb (inlen - 1) = Some c /\ chr_isspace c = false.

Lemma in_strip l k x : nth_error l k = Some x -> chr_isspace x = false -> strip l <> [].
Proof.
  intros H Hs E. apply nth_error_In in H.
  assert (In x (strip l)) by (apply filter_In; rewrite Hs; auto). rewrite E in H0. contradiction.
Qed.

Lemma strip_end inb inlen i : inlen <= length inb -> no_trail inb inlen -> i < inlen ->
  strip (skipn i (firstn inlen inb)) <> [].
Proof.
  intros Hl (c & Hp & Hc & Hs) Hi.
  apply (in_strip _ (inlen - 1 - i) c); auto.
  rewrite skipn_nth_error, firstn_nth_error.
  replace (i + (inlen - 1 - i)) with (inlen - 1) by lia.
  replace (inlen - 1 <? inlen) with true by lia. exact Hc.
Qed.

Definition pad_adjacent (inb : list N) (inlen : nat) : Prop := nth_error inb (inlen - 2) = Some 61%N.

Lemma write_ok out pos c : pos < length out ->
  exists o, write_decchar out pos c = Ok (Some (o, S pos)) /\ length o = length out /\
    firstn (S pos) o = firstn pos out ++ [c].
Proof.
  intros H. unfold write_decchar. replace (length out <=? pos) with false by lia.
  destruct (wr_seq out c H) as (m & E & L & F & _). rewrite E. cbn [bind]. eauto.
Qed.

Lemma dec_loop_round inb inlen : inlen <= length inb -> no_trail inb inlen ->
  forall b, is_bytes b -> forall fuel i out pos,
  i <= inlen -> inlen - i < fuel ->
  strip (skipn i (firstn inlen inb)) = b64_text b ->
  pos + length b <= length out ->
  if (length b mod 3 =? 1) && negb (match nth_error inb (inlen - 2) with Some c => (c =? 61)%N | None => false end)
  then exists o, dec_loop fuel inb inlen i out pos = Ok (None, o)
  else exists o, dec_loop fuel inb inlen i out pos = Ok (Some (pos + length b), o) /\
       length o = length out /\
       firstn (pos + length b) o = firstn pos out ++ b.
Proof.
  intros Hlen Hnt b.
  induction b as [|x|x y|x y z b IH] using list3_ind; intros Hb fuel i out pos Hi Hf Hs Hp;
    (destruct fuel as [|fuel]; [lia|]); cbn [dec_loop].
  - (* end *)
    cbn [length Nat.modulo andb].
    assert (~ i < inlen) by (intros K; exact (strip_end inb inlen i Hlen Hnt K Hs)).
    replace (i <? inlen) with false by lia.
    change ((0 mod 3 =? 1) && _) with false. cbn iota.
    exists out. rewrite Nat.add_0_r, app_nil_r. auto.
  - (* one byte *)
    inversion Hb as [|? ? Hx _]; subst. unfold is_byte in Hx.
    cbn [b64_text] in Hs.
    assert (Hlt : i < inlen).
    { destruct (Nat.lt_ge_cases i inlen); auto. rewrite skipn_all2 in Hs; [discriminate|].
      rewrite firstn_length; lia. }
    replace (i <? inlen) with true by lia.
    destruct (get_step inb inlen i _ _ Hlen Hi Hs) as (j1 & J1 & J1' & _ & _ & S1 & ->).
    rewrite dres_char by lia. cbn [bind].
    destruct (get_step inb inlen (S j1) _ _ Hlen ltac:(lia) S1) as (j2 & J2 & J2' & _ & _ & S2 & ->).
    rewrite dres_char by lia. cbn [bind].
    destruct (get_step inb inlen (S j2) _ _ Hlen ltac:(lia) S2) as (j3 & J3 & J3' & C3 & _ & S3 & ->).
    rewrite dres_pad by lia.
    destruct (get_step inb inlen (S j3) _ _ Hlen ltac:(lia) S3) as (j4 & J4 & J4' & C4 & P4 & S4 & E4).
    assert (j4 = inlen - 1).
    { destruct (Nat.lt_ge_cases (S j4) inlen) as [K|K]; [|lia].
      exfalso. exact (strip_end inb inlen (S j4) Hlen Hnt K S4). }
    subst j4.
    change (length [x] mod 3 =? 1) with true. cbn [andb].
    destruct (Nat.eq_dec j3 (inlen - 2)) as [->|Hne].
    + rewrite C3. change (61 =? 61)%N with true. cbn [negb].
      replace (inlen - 2 <? inlen - 2) with false by lia. cbn [bind]. rewrite E4.
      rewrite dres_pad by lia. replace (inlen - 1 <? inlen - 2) with false by lia. cbn [bind].
      cbn [length] in Hp.
      pose proof (group_bytes3 x 0 0 Hx ltac:(lia) ltac:(lia)) as (G1 & _ & _).
      change (0 / 16)%N with 0%N in G1. rewrite N.add_0_r in G1. 
      change (0 mod 16 * 4 + 0 / 64)%N with 0%N in G1. change (0 mod 64)%N with 0%N in G1.
      rewrite G1.
      destruct (write_ok out pos x ltac:(lia)) as (o1 & -> & L1 & F1). cbn [bind].
      replace (S (inlen - 1) =? inlen) with true by lia. cbn [negb].
      replace (inlen <? 2) with false by lia.
      rewrite (proj2 (rd_Ok inb _ _) C3). cbn [bind]. change (negb (61 =? 61)%N) with false. cbn iota.
      rewrite (proj2 (rd_Ok inb _ _) C4). cbn [bind]. change (negb (61 =? 61)%N) with false. cbn iota.
      cbn [bind].
      destruct fuel as [|fuel]; [lia|]. cbn [dec_loop].
      replace (S (inlen - 1) <? inlen) with false by lia.
      exists o1. replace (pos + length [x]) with (S pos) by (cbn [length]; lia). auto.
    + assert (j3 < inlen - 2) by lia.
      replace (j3 <? inlen - 2) with true by lia. cbn [bind].
      destruct (P4 (inlen - 2)) as (c' & Hc' & Hsp); [lia|]. rewrite Hc'.
      assert ((c' =? 61)%N = false) as -> by (unfold chr_isspace in Hsp; lia).
      cbn [negb]. eauto.
  - (* two bytes *)
    inversion Hb as [|? ? Hx Hb1]; subst. inversion Hb1 as [|? ? Hy _]; subst. unfold is_byte in *.
    cbn [b64_text] in Hs.
    assert (Hlt : i < inlen).
    { destruct (Nat.lt_ge_cases i inlen); auto. rewrite skipn_all2 in Hs; [discriminate|].
      rewrite firstn_length; lia. }
    replace (i <? inlen) with true by lia.
    destruct (get_step inb inlen i _ _ Hlen Hi Hs) as (j1 & J1 & J1' & _ & _ & S1 & ->).
    rewrite dres_char by lia. cbn [bind].
    destruct (get_step inb inlen (S j1) _ _ Hlen ltac:(lia) S1) as (j2 & J2 & J2' & _ & _ & S2 & ->).
    rewrite dres_char by lia. cbn [bind].
    destruct (get_step inb inlen (S j2) _ _ Hlen ltac:(lia) S2) as (j3 & J3 & J3' & C3 & _ & S3 & ->).
    rewrite dres_char by lia. cbn [bind].
    destruct (get_step inb inlen (S j3) _ _ Hlen ltac:(lia) S3) as (j4 & J4 & J4' & C4 & P4 & S4 & ->).
    assert (j4 = inlen - 1).
    { destruct (Nat.lt_ge_cases (S j4) inlen) as [K|K]; [|lia].
      exfalso. exact (strip_end inb inlen (S j4) Hlen Hnt K S4). }
    subst j4. rewrite dres_pad by lia. replace (inlen - 1 <? inlen - 2) with false by lia. cbn [bind].
    change (length [x; y] mod 3 =? 1) with false. cbn [andb].
    cbn [length] in Hp.
    pose proof (group_bytes3 x y 0 Hx Hy ltac:(lia)) as (G1 & G2 & _).
    change (0 / 64)%N with 0%N in G1, G2. rewrite N.add_0_r in G1, G2. change (0 mod 64)%N with 0%N in G1, G2.
    rewrite G1.
    destruct (write_ok out pos x ltac:(lia)) as (o1 & -> & L1 & F1). cbn [bind].
    replace (S (inlen - 1) =? inlen) with true by lia. cbn [negb].
    replace (inlen <? 2) with false by lia.
    assert (Q : exists q, nth_error inb (inlen - 2) = Some q /\ (q =? 61)%N = false).
    { destruct (Nat.eq_dec j3 (inlen - 2)) as [->|Hne].
      - exists (b64_char (y mod 16 * 4)). split; auto. apply b64_char_props. lia.
      - destruct (P4 (inlen - 2)) as (c' & Hc' & Hsp); [lia|]. exists c'. split; auto.
        unfold chr_isspace in Hsp; lia. }
    destruct Q as (q & Hq & Hq'). rewrite (proj2 (rd_Ok inb _ _) Hq). cbn [bind]. rewrite Hq'. cbn [negb].
    rewrite G2.
    destruct (write_ok o1 (S pos) y ltac:(lia)) as (o2 & -> & L2 & F2). cbn [bind].
    rewrite (proj2 (rd_Ok inb _ _) C4). cbn [bind]. change (negb (61 =? 61)%N) with false. cbn iota.
    cbn [bind].
    destruct fuel as [|fuel]; [lia|]. cbn [dec_loop].
    replace (S (inlen - 1) <? inlen) with false by lia.
    exists o2. replace (pos + length [x; y]) with (S (S pos)) by (cbn [length]; lia).
    repeat split; try congruence. rewrite F2, F1, <- app_assoc. reflexivity.
  - (* full group *)
    inversion Hb as [|? ? Hx Hb1]; subst. inversion Hb1 as [|? ? Hy Hb2]; subst.
    inversion Hb2 as [|? ? Hz Hb3]; subst. unfold is_byte in Hx, Hy, Hz.
    cbn [b64_text] in Hs.
    assert (Hlt : i < inlen).
    { destruct (Nat.lt_ge_cases i inlen); auto. rewrite skipn_all2 in Hs; [discriminate|].
      rewrite firstn_length; lia. }
    replace (i <? inlen) with true by lia.
    destruct (get_step inb inlen i _ _ Hlen Hi Hs) as (j1 & J1 & J1' & _ & _ & S1 & ->).
    rewrite dres_char by lia. cbn [bind].
    destruct (get_step inb inlen (S j1) _ _ Hlen ltac:(lia) S1) as (j2 & J2 & J2' & _ & _ & S2 & ->).
    rewrite dres_char by lia. cbn [bind].
    destruct (get_step inb inlen (S j2) _ _ Hlen ltac:(lia) S2) as (j3 & J3 & J3' & C3 & _ & S3 & ->).
    rewrite dres_char by lia. cbn [bind].
    destruct (get_step inb inlen (S j3) _ _ Hlen ltac:(lia) S3) as (j4 & J4 & J4' & C4 & P4 & S4 & ->).
    rewrite dres_char by lia. cbn [bind].
    cbn [length] in Hp.
    pose proof (group_bytes3 x y z Hx Hy Hz) as (G1 & G2 & G3).
    rewrite G1.
    destruct (write_ok out pos x ltac:(lia)) as (o1 & -> & L1 & F1). cbn [bind].
    assert (T2 : (if negb (S j4 =? inlen) then Ok true
                 else if inlen <? 2 then UB
                 else do x <- rd inb (inlen - 2); Ok (negb (x =? 61)%N)) = Ok true).
    { destruct (Nat.eqb_spec (S j4) inlen) as [He|He]; cbn [negb]; auto.
      replace (inlen <? 2) with false by lia.
      assert (Q : exists q, nth_error inb (inlen - 2) = Some q /\ (q =? 61)%N = false).
      { destruct (Nat.eq_dec j3 (inlen - 2)) as [->|Hne].
        - eexists. split; [exact C3|]. apply b64_char_props. lia.
        - destruct (P4 (inlen - 2)) as (c' & Hc' & Hsp); [lia|]. exists c'. split; auto.
          unfold chr_isspace in Hsp; lia. }
      destruct Q as (q & Hq & Hq'). rewrite (proj2 (rd_Ok inb _ _) Hq). cbn [bind]. rewrite Hq'. reflexivity. }
    rewrite T2. cbn [bind]. rewrite G2.
    destruct (write_ok o1 (S pos) y ltac:(lia)) as (o2 & -> & L2 & F2). cbn [bind].
    assert (T3 : (if negb (S j4 =? inlen) then Ok true
                 else do x <- rd inb (inlen - 1); Ok (negb (x =? 61)%N)) = Ok true).
    { destruct (Nat.eqb_spec (S j4) inlen) as [He|He]; cbn [negb]; auto.
      replace (inlen - 1) with j4 by lia.
      rewrite (proj2 (rd_Ok inb _ _) C4). cbn [bind].
      rewrite (proj1 (proj2 (proj2 (b64_char_props (z mod 64) ltac:(lia))))). reflexivity. }
    rewrite T3. cbn [bind]. rewrite G3.
    destruct (write_ok o2 (S (S pos)) z ltac:(lia)) as (o3 & -> & L3 & F3). cbn [bind].
    specialize (IH Hb3 fuel (S j4) o3 (S (S (S pos))) ltac:(lia) ltac:(lia) S4 ltac:(lia)).
    assert (HM : length (x :: y :: z :: b) mod 3 = length b mod 3).
    { cbn [length]. lia. }
    rewrite HM.
    destruct ((length b mod 3 =? 1) && _).
    + exact IH.
    + destruct IH as (o & E & L & F). exists o. rewrite E.
      replace (pos + length (x :: y :: z :: b)) with (S (S (S pos)) + length b) by (cbn [length]; lia).
      repeat split; try congruence. rewrite F, F3, F2, F1, <- !app_assoc. reflexivity.
Qed.

Lemma b64_text_nospace b : is_bytes b -> Forall (fun c => chr_isspace c = false) (b64_text b).
Proof.
  induction b as [|x|x y|x y z b IH] using list3_ind; intros Hb.
  - constructor.
  - inversion Hb as [|? ? Hx _]; subst. unfold is_byte in *. cbn [b64_text].
    repeat constructor; try (apply b64_char_props; lia).
  - inversion Hb as [|? ? Hx Hb1]; subst. inversion Hb1 as [|? ? Hy _]; subst. unfold is_byte in *.
    cbn [b64_text]. repeat constructor; try (apply b64_char_props; lia).
  - inversion Hb as [|? ? Hx Hb1]; subst. inversion Hb1 as [|? ? Hy Hb2]; subst.
    inversion Hb2 as [|? ? Hz Hb3]; subst. unfold is_byte in Hx, Hy, Hz.
    cbn [b64_text]. repeat constructor; try (apply b64_char_props; lia). apply IH, Hb3.
Qed.

Lemma strip_nospace s : Forall (fun c => chr_isspace c = false) s -> strip s = s.
Proof.
  unfold strip. induction 1 as [|c s H _ IH]; cbn; auto. rewrite H. cbn. congruence.
Qed.

Lemma wrapped_last2 w k t c d : 0 < w -> k < w -> exists t',
  wrapped w k (t ++ [c; d]) = t' ++ c :: (if (k + length t + 1) mod w =? 0 then [10%N] else []) ++ [d].
Proof.
  intros Hw. revert k; induction t as [|x t IH]; intros k Hk; cbn [app length].
  - exists []. cbn [wrapped app]. rewrite Nat.add_0_r. replace (k + 1) with (S k) by lia.
    destruct (Nat.eqb_spec (S k) w) as [->|H].
    + rewrite Nat.mod_same by lia. reflexivity.
    + rewrite Nat.mod_small by lia. reflexivity.
  - rewrite wrapped_cons by (destruct t; discriminate).
    destruct (Nat.eqb_spec (S k) w) as [He|H].
    + destruct (IH 0 ltac:(lia)) as (t' & ->). exists ([x; 10%N] ++ t').
      rewrite <- app_assoc. do 3 f_equal.
      replace (k + S (length t) + 1) with (0 + length t + 1 + 1 * w) by lia.
      rewrite Nat.mod_add by lia. reflexivity.
    + destruct (IH (S k) ltac:(lia)) as (t' & ->). exists ([x] ++ t').
      rewrite <- app_assoc. do 3 f_equal.
      replace (S k + length t + 1) with (k + S (length t) + 1) by lia. reflexivity.
Qed.

Lemma b64_text_tail1 b : length b mod 3 = 1 -> exists t, b64_text b = t ++ [61%N; 61%N].
Proof.
  induction b as [|x|x y|x y z b IH] using list3_ind; intros H.
  - discriminate.
  - cbn [b64_text]. eexists [_; _]. reflexivity.
  - discriminate.
  - cbn [length] in H. destruct IH as (t & E); [lia|]. cbn [b64_text]. rewrite E.
    eexists (_ :: _ :: _ :: _ :: t). reflexivity.
Qed.

Lemma nth_error_len {A} (p : list A) x s : nth_error (p ++ x :: s) (length p) = Some x.
Proof. rewrite nth_error_app2, Nat.sub_diag by lia. reflexivity. Qed.

Lemma b64_round_trip_lemma b w out dec :
  is_bytes b -> b <> [] -> b64_encode_size (length b) w <= length out -> length b <= length dec ->
  exists n out' dec',
    b64_encode out b w = Ok (n, out') /\ length out' = length out /\
    firstn (S n) out' = wrap_text w (b64_text b) ++ [0%N] /\
    n = length (wrap_text w (b64_text b)) /\
    if (length b mod 3 =? 1) && negb (w =? 0) && ((b64_len (length b) - 1) mod w =? 0)
    then b64_decode dec (firstn n out') = Ok (0, dec')
    else b64_decode dec (firstn n out') = Ok (length b, dec') /\ firstn (length b) dec' = b.
Proof.
  intros Hb Hne Ho Hd.
  destruct (b64_encode_correct b out w Hb Hne Ho) as (o & E & L & F).
  set (T := wrap_text w (b64_text b)) in *.
  assert (FT : firstn (length T) o = T).
  { assert (G : firstn (length T) (firstn (S (length T)) o) = firstn (length T) (T ++ [0%N])) by congruence.
    rewrite firstn_firstn, Nat.min_l in G by lia. rewrite G.
    rewrite firstn_app, Nat.sub_diag, firstn_all. cbn. apply app_nil_r. }
  destruct (b64_text_last b Hb Hne) as (t0 & c0 & Et & _).
  assert (HT : exists t', T = t' ++ [c0]).
  { unfold T. rewrite Et. destruct w; cbn [wrap_text]; [eauto|apply wrapped_last]. }
  destruct HT as (t' & HT).
  assert (Hc0 : chr_isspace c0 = false).
  { pose proof (b64_text_nospace b Hb) as H. rewrite Et in H.
    apply Forall_app in H as [_ H]. inversion H; auto. }
  assert (Hst : strip T = b64_text b).
  { unfold T. rewrite strip_wrap_text. apply strip_nospace, b64_text_nospace, Hb. }
  assert (LT : length T = S (length t')) by (rewrite HT, app_length; cbn; lia).
  assert (Hnt : no_trail T (length T)).
  { exists c0. split; [lia|]. split; auto. rewrite LT. cbn [Nat.sub]. rewrite Nat.sub_0_r, HT.
    apply nth_error_len. }
  assert (Hdec : exists d', b64_decode dec T = 
     (if (length b mod 3 =? 1) && negb (match nth_error T (length T - 2) with Some c => (c =? 61)%N | None => false end)
      then Ok (0, d') else Ok (length b, d')) /\
     ((length b mod 3 =? 1) && negb (match nth_error T (length T - 2) with Some c => (c =? 61)%N | None => false end) = false
      -> firstn (length b) d' = b)).
  { unfold b64_decode.
    assert (0 < length b) by (destruct b; cbn; [congruence|lia]).
    replace ((length dec =? 0) || (length T =? 0)) with false by lia.
    destruct (trim_end_spec T (length T) (le_n _)) as [[Fs _]|(m & c & Hm & Hc & Hs & Fs & U)].
    { exfalso. rewrite firstn_all, HT in Fs. apply Forall_app in Fs as [_ Fs]. inversion Fs; congruence. }
    assert (m = length t').
    { rewrite firstn_all in Fs. destruct (Nat.lt_ge_cases m (length t')) as [K|K]; [|lia].
      exfalso. rewrite HT, skipn_app in Fs. apply Forall_app in Fs as [_ Fs].
      replace (S m - length t') with 0 in Fs by lia. inversion Fs; congruence. }
    subst m. rewrite U, <- LT. cbn [bind].
    replace (length T =? 0) with false by lia.
    pose proof (dec_loop_round T (length T) (le_n _) Hnt b Hb (S (length T)) 0 dec 0) as R.
    specialize (R ltac:(lia) ltac:(lia)).
    rewrite firstn_all in R. cbn [skipn] in R. specialize (R Hst ltac:(lia)).
    destruct ((length b mod 3 =? 1) && _).
    - destruct R as (d & ->). cbn [bind]. exists d. split; [reflexivity|discriminate].
    - destruct R as (d & -> & _ & Fd). cbn [bind]. exists d. split; [reflexivity|].
      intros _. exact Fd. }
  destruct Hdec as (d' & Ed & Fd).
  exists (length T), o, d'. rewrite FT. split; [assumption|]. split; [assumption|].
  split; [assumption|]. split; [reflexivity|].
  assert (Hcond : (length b mod 3 =? 1) && negb (match nth_error T (length T - 2) with Some c => (c =? 61)%N | None => false end)
     = (length b mod 3 =? 1) && negb (w =? 0) && ((b64_len (length b) - 1) mod w =? 0)).
  { destruct (Nat.eqb_spec (length b mod 3) 1) as [H1|H1]; cbn [andb]; auto.
    destruct (b64_text_tail1 b H1) as (t & Ett).
    pose proof (length_b64_text b) as LL. rewrite Ett, app_length in LL. cbn [length] in LL.
    destruct (Nat.eqb_spec w 0) as [->|Hw]; cbn [negb andb].
    - unfold T. cbn [wrap_text]. rewrite Ett.
      replace (length (t ++ [61%N; 61%N]) - 2) with (length t) by (rewrite app_length; cbn; lia).
      rewrite nth_error_len. reflexivity.
    - unfold T. replace (wrap_text w (b64_text b)) with (wrapped w 0 (b64_text b)) by (destruct w; [lia|reflexivity]).
      rewrite Ett. destruct (wrapped_last2 w 0 t 61%N 61%N ltac:(lia) ltac:(lia)) as (t2 & ->).
      replace (0 + length t + 1) with (b64_len (length b) - 1) by lia.
      destruct (Nat.eqb_spec ((b64_len (length b) - 1) mod w) 0) as [Hz|Hz].
      + replace (length (t2 ++ 61%N :: [10%N] ++ [61%N]) - 2) with (length (t2 ++ [61%N])) by (rewrite !app_length; cbn; lia).
        replace (t2 ++ 61%N :: [10%N] ++ [61%N]) with ((t2 ++ [61%N]) ++ 10%N :: [61%N]) by (rewrite <- app_assoc; reflexivity).
        rewrite nth_error_len. reflexivity.
      + cbn [app]. replace (length (t2 ++ [61%N; 61%N]) - 2) with (length t2) by (rewrite app_length; cbn; lia).
        rewrite nth_error_len. reflexivity. }
  rewrite Hcond in *.
  destruct ((length b mod 3 =? 1) && negb (w =? 0) && ((b64_len (length b) - 1) mod w =? 0)); auto.
Qed.

Definition b64_wrap_exact_lemma := fun b w out dec => b64_round_trip_lemma b w out dec.

Lemma b64_round_trip_unwrapped b out dec :
  is_bytes b -> b <> [] -> b64_len (length b) + 1 <= length out -> length b <= length dec ->
  exists out' dec',
    b64_encode out b 0 = Ok (b64_len (length b), out') /\ length out' = length out /\
    firstn (b64_len (length b) + 1) out' = b64_text b ++ [0%N] /\
    b64_decode dec (firstn (b64_len (length b)) out') = Ok (length b, dec') /\
    firstn (length b) dec' = b.
Proof.
  intros Hb Hne Ho Hd.
  destruct (b64_round_trip_lemma b 0 out dec) as (n & o & d & E & L & F & Hn & R); auto.
  { rewrite b64_encode_size_ok by assumption. cbn [wrap_text]. rewrite length_b64_text. lia. }
  cbn [wrap_text] in *. rewrite length_b64_text in Hn. subst n.
  cbn [Nat.eqb negb] in R. rewrite andb_false_r in R. cbn [andb] in R.
  exists o, d. rewrite Nat.add_1_r. tauto.
Qed.

Lemma b64_sizes_lemma b w : b <> [] ->
  b64_encode_size (length b) w = length (wrap_text w (b64_text b)) + 1 /\
  length b <= b64_decode_size (length (wrap_text w (b64_text b))).
Proof.
  intros H. split; [apply b64_encode_size_ok, H|].
  assert (0 < length b) by (destruct b; cbn; [congruence|lia]).
  assert (Hne : b64_text b <> []).
  { intros K. pose proof (length_b64_text b) as L. rewrite K in L. unfold b64_len in L. cbn [length] in L. lia. }
  rewrite (length_wrap_text w _ Hne), length_b64_text. unfold b64_decode_size, b64_len.
  set (k := if w =? 0 then 0 else _). 
  set (q := (length b + 2) / 3). assert (length b <= 3 * q) by (subst q; lia).
  destruct (Nat.eqb_spec (q * 4 + k) 0); lia.
Qed.

Lemma b64_decode_safe_partial out s :
  Exists (fun c => ~ is_space c) s ->
  exists n o, b64_decode out s = Ok (n, o) /\ length o = length out /\ n <= length out.
Proof.
  intros H. destruct (b64_decode_safe_iff out s) as [K|(_ & _ & K & _)]; auto.
  exfalso. apply Exists_exists in H as (c & Hc & Hn). rewrite Forall_forall in K. auto.
Qed.

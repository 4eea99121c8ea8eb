From Verif Require Import Base.Lib Base32.Model Base32.Spec.
From Verif Require Import Hex.Proofs Base64.Proofs.

Lemma lor_add2 e k m v : (v < 2 ^ m)%N ->
  N.lor (e * 2 ^ (k + m)) (N.shiftl v k) = ((e * 2 ^ m + v) * 2 ^ k)%N.
Proof.
  intros H. rewrite <- (N.shiftl_mul_pow2 e), lor_add.
  - rewrite N.shiftl_mul_pow2, N.pow_add_r. lia.
  - rewrite N.shiftl_mul_pow2, N.pow_add_r.
    assert (0 < 2 ^ k)%N by (apply N.neq_0_lt_0, N.pow_nonzero; lia). nia.
Qed.

(** ** Encoder values *)

Lemma be_val_acc l : forall a, fold_left (fun a x => a * 256 + x)%N l a = (a * 256 ^ N.of_nat (length l) + be_val l)%N.
Proof.
  unfold be_val. induction l as [|x l IH]; intros a.
  - cbn [fold_left length]. change (256 ^ N.of_nat 0)%N with 1%N. lia.
  - cbn [fold_left length]. rewrite IH, (IH (0 * 256 + x)%N).
    rewrite Nat2N.inj_succ, N.pow_succ_r by lia. lia.
Qed.

Lemma be_val_app l1 l2 : be_val (l1 ++ l2) = (be_val l1 * 256 ^ N.of_nat (length l2) + be_val l2)%N.
Proof. unfold be_val at 1. rewrite fold_left_app. apply be_val_acc. Qed.

Lemma be_val_zeros n : be_val (repeat 0%N n) = 0%N.
Proof.
  unfold be_val. induction n as [|n IH]; auto. 
Qed.

Lemma be_val_lt l : is_bytes l -> (be_val l < 256 ^ N.of_nat (length l))%N.
Proof.
  induction l as [|x l IH] using rev_ind; intros H.
  - vm_compute. reflexivity.
  - apply Forall_app in H as [H1 H2]. inversion H2; subst. unfold is_byte in *.
    rewrite be_val_app, app_length. cbn [length].
    rewrite Nat.add_1_r, (Nat2N.inj_succ (length l)), (N.pow_succ_r _ (N.of_nat (length l))) by lia.
    change (256 ^ N.of_nat 1)%N with 256%N. specialize (IH H1).
    replace (be_val [x]) with x by (unfold be_val; cbn [fold_left]; lia). lia.
Qed.

Lemma pow256 n : (256 ^ n = 2 ^ (8 * n))%N.
Proof. rewrite N.pow_mul_r. reflexivity. Qed.
Lemma pow32 n : (32 ^ n = 2 ^ (5 * n))%N.
Proof. rewrite N.pow_mul_r. reflexivity. Qed.

Lemma group_val_acc bs : is_bytes bs -> forall j e,
  j + length bs <= 5 ->
  group_val bs j (e * 2 ^ (40 - 8 * N.of_nat j)) =
  (fold_left (fun a x => a * 256 + x) bs e * 2 ^ (40 - 8 * N.of_nat (j + length bs)))%N.
Proof.
  induction 1 as [|x bs Hx _ IH]; intros j e Hl; cbn [group_val fold_left length] in *.
  - rewrite Nat.add_0_r. reflexivity.
  - unfold is_byte in Hx.
    replace (40 - 8 * N.of_nat j)%N with ((32 - N.of_nat j * 8) + 8)%N by lia.
    rewrite lor_add2 by (change (2 ^ 8)%N with 256%N; lia). change (2 ^ 8)%N with 256%N.
    replace (32 - N.of_nat j * 8)%N with (40 - 8 * N.of_nat (S j))%N by lia.
    rewrite IH by lia. do 2 f_equal. lia.
Qed.

Lemma group_val_be g : is_bytes g -> length g <= 5 ->
  group_val g 0 0 = be_val (g ++ repeat 0%N (5 - length g)).
Proof.
  intros H Hl. pose proof (group_val_acc g H 0 0 ltac:(lia)) as E.
  rewrite N.mul_0_l in E. rewrite E. fold (be_val g).
  rewrite be_val_app, be_val_zeros, repeat_length, N.add_0_r, pow256. do 2 f_equal. lia.
Qed.

Definition gval (g : list N) : N := be_val (g ++ repeat 0%N (5 - length g)).

Lemma gval_lt g : is_bytes g -> length g <= 5 -> (gval g < 2 ^ 40)%N.
Proof.
  intros H Hl. unfold gval.
  assert (Hb : is_bytes (g ++ repeat 0%N (5 - length g))).
  { apply Forall_app. split; auto. apply Forall_forall. intros x Hx. apply repeat_spec in Hx. subst.
    unfold is_byte. lia. }
  apply be_val_lt in Hb. rewrite app_length, repeat_length, pow256 in Hb.
  replace (8 * N.of_nat (length g + (5 - length g)))%N with 40%N in Hb by lia. exact Hb.
Qed.

Lemma charset_char v : (v < 32)%N -> rd b32_charset (N.to_nat v) = Ok (b32_char v).
Proof.
  intros H.
  assert (K : (match rd b32_charset (N.to_nat v) with Ok c => (c =? b32_char v)%N | _ => false end) = true).
  { apply (range_sweep 32 (fun v => match rd b32_charset (N.to_nat v) with Ok c => (c =? b32_char v)%N | _ => false end));
      [vm_compute; reflexivity|exact H]. }
  destruct (rd b32_charset (N.to_nat v)); try discriminate. apply N.eqb_eq in K. congruence.
Qed.

Lemma char_props v : (v < 32)%N ->
  chr_isspace (b32_char v) = false /\ (b32_char v =? 0)%N = false /\
  rd b32_rev (N.to_nat (b32_char v)) = Ok (Z.of_N v).
Proof.
  intros H.
  set (P := fun v => negb (chr_isspace (b32_char v)) && negb (b32_char v =? 0)%N &&
     match rd b32_rev (N.to_nat (b32_char v)) with Ok z => (z =? Z.of_N v)%Z | _ => false end).
  assert (K : P v = true) by (apply (range_sweep 32 P); [vm_compute; reflexivity|exact H]).
  unfold P in K. rewrite !andb_true_iff, !negb_true_iff in K. destruct K as ((K1 & K2) & K3).
  repeat split; auto. destruct (rd b32_rev _); try discriminate. apply Z.eqb_eq in K3. congruence.
Qed.

(** ** Encoder output *)

(** newline before a character when [datalen] is a positive multiple of wrap *)
Definition nl (w dl : nat) : list N :=
  if negb (w =? 0) && (0 <? dl) && (dl mod w =? 0) then [10%N] else [].
Fixpoint wrapb (w dl : nat) (s : list N) : list N :=
  match s with [] => [] | c :: s' => nl w dl ++ c :: wrapb w (S dl) s' end.

Definition gchar (n : N) (bytes j : nat) : N :=
  if Nat.ltb (8 * bytes) (5 * j + 1) then 61%N else b32_char ((n / 32 ^ N.of_nat (7 - j)) mod 32).

Lemma wrapb_app w s1 : forall dl s2, wrapb w dl (s1 ++ s2) = wrapb w dl s1 ++ wrapb w (dl + length s1) s2.
Proof.
  induction s1 as [|c s1 IH]; intros dl s2; cbn [wrapb app length].
  - rewrite Nat.add_0_r. reflexivity.
  - rewrite IH, <- app_assoc. cbn [app]. replace (S dl + length s1) with (dl + S (length s1)) by lia. reflexivity.
Qed.

Lemma enc_chars_ok n bytes w : 0 < bytes <= 5 -> forall k j out cnt dl,
  j + k = 8 -> cnt + length (wrapb w dl (map (gchar n bytes) (seq j k))) <= length out ->
  exists out', enc_chars k j (out, cnt, dl) n bytes w =
     Ok (out', cnt + length (wrapb w dl (map (gchar n bytes) (seq j k))), dl + k) /\
    length out' = length out /\
    firstn (cnt + length (wrapb w dl (map (gchar n bytes) (seq j k)))) out' =
      firstn cnt out ++ wrapb w dl (map (gchar n bytes) (seq j k)).
Proof.
  intros Hb. induction k as [|k IH]; intros j out cnt dl Hj Hl.
  - exists out. cbn. rewrite !Nat.add_0_r, app_nil_r. auto.
  - cbn [seq map wrapb] in *. rewrite app_length in *. cbn [length] in *.
    cbn [enc_chars].
    assert (Hch : (if bytes * 8 <? j * 5 then Ok 61%N
                else rd b32_charset (N.to_nat (N.land (N.shiftr n (35 - N.of_nat j * 5)) 31)))
              = Ok (gchar n bytes j)).
    { unfold gchar. change 31%N with (N.ones 5). rewrite N.land_ones, N.shiftr_div_pow2.
      replace (35 - N.of_nat j * 5)%N with (5 * N.of_nat (7 - j))%N by lia. rewrite <- pow32.
      change (2 ^ 5)%N with 32%N.
      destruct (Nat.ltb_spec (bytes * 8) (j * 5)); destruct (Nat.ltb_spec (8 * bytes) (5 * j + 1)); auto.
      - lia.
      - exfalso. assert (8 * bytes = 5 * j) by lia. assert (j < 8) by lia.
        assert (bytes = 1 \/ bytes = 2 \/ bytes = 3 \/ bytes = 4 \/ bytes = 5) by lia. lia.
      - apply charset_char. apply N.mod_lt. lia. }
    assert (Hnl : exists o1, (if negb (w =? 0) && (0 <? dl) && (dl mod w =? 0)
         then do o <- wr out cnt 10%N; Ok (o, S cnt) else Ok (out, cnt)) = Ok (o1, cnt + length (nl w dl)) /\
         length o1 = length out /\ firstn (cnt + length (nl w dl)) o1 = firstn cnt out ++ nl w dl).
    { unfold nl in *. destruct (negb (w =? 0) && (0 <? dl) && (dl mod w =? 0)); cbn [length] in *.
      - assert (H1 : cnt < length out) by lia.
        destruct (wr_seq out 10%N H1) as (m & E & L & F & _). rewrite E. cbn [bind].
        exists m. rewrite Nat.add_1_r. auto.
      - exists out. rewrite Nat.add_0_r, app_nil_r. auto. }
    destruct Hnl as (o1 & E1 & L1 & F1). rewrite E1. cbn [bind]. rewrite Hch. cbn [bind].
    assert (H2 : cnt + length (nl w dl) < length o1) by lia.
    destruct (wr_seq o1 (gchar n bytes j) H2) as (m & E & L & F & _). rewrite E. cbn [bind].
    destruct (IH (S j) m (S (cnt + length (nl w dl))) (S dl)) as (o & E3 & L3 & F3); [lia|lia|].
    exists o. rewrite E3.
    replace (S (cnt + length (nl w dl)) + length (wrapb w (S dl) (map (gchar n bytes) (seq (S j) k))))
      with (cnt + (length (nl w dl) + S (length (wrapb w (S dl) (map (gchar n bytes) (seq (S j) k)))))) in * by lia.
    replace (S dl + k) with (dl + S k) by lia.
    repeat split; try congruence. rewrite F3, F, F1, <- !app_assoc. reflexivity.
Qed.

Lemma b32_group_gchar g : b32_group g = map (gchar (gval g) (length g)) (seq 0 8).
Proof. reflexivity. Qed.

Lemma enc_loop_ok w : forall fuel b out cnt dl,
  is_bytes b -> length b <= fuel ->
  cnt + length (wrapb w dl (b32_groups fuel b)) <= length out ->
  exists out', enc_loop fuel b (out, cnt, dl) w =
      Ok (out', cnt + length (wrapb w dl (b32_groups fuel b)), dl + length (b32_groups fuel b)) /\
    length out' = length out /\
    firstn (cnt + length (wrapb w dl (b32_groups fuel b))) out' =
      firstn cnt out ++ wrapb w dl (b32_groups fuel b).
Proof.
  induction fuel as [|fuel IH]; intros b out cnt dl Hb Hf Hl.
  - destruct b; [|cbn in Hf; lia]. exists out. cbn. rewrite !Nat.add_0_r, app_nil_r. auto.
  - destruct b as [|x b].
    { exists out. cbn. rewrite !Nat.add_0_r, app_nil_r. auto. }
    cbn [enc_loop b32_groups] in *.
    set (g := firstn 5 (x :: b)) in *.
    assert (Hg : is_bytes g) by (apply Forall_forall; intros y Hy; unfold g in Hy;
      apply (proj1 (Forall_forall _ _) Hb); rewrite <- (firstn_skipn 5 (x :: b)); apply in_or_app; auto).
    assert (Hr : is_bytes (skipn 5 (x :: b))) by (apply Forall_forall; intros y Hy;
      apply (proj1 (Forall_forall _ _) Hb); rewrite <- (firstn_skipn 5 (x :: b)); apply in_or_app; auto).
    assert (Hgl : 0 < length g <= 5) by (unfold g; rewrite firstn_length; cbn [length]; lia).
    rewrite group_val_be by (auto; lia). fold (gval g).
    rewrite b32_group_gchar in *. rewrite wrapb_app, app_length in *.
    rewrite map_length, seq_length in *.
    destruct (@enc_chars_ok (gval g) (length g) w Hgl 8 0 out cnt dl eq_refl) as (o1 & E1 & L1 & F1); [lia|].
    rewrite E1. cbn [bind].
    destruct (IH (skipn 5 (x :: b)) o1 (cnt + length (wrapb w dl (map (gchar (gval g) (length g)) (seq 0 8)))) (dl + 8))
      as (o & E & L & F); auto.
    { rewrite skipn_length. cbn [length] in *. lia. } { lia. }
    exists o. rewrite E. rewrite !Nat.add_assoc in *. rewrite app_length, map_length, seq_length.
    rewrite (Nat.add_assoc dl).
    repeat split; try congruence. rewrite F, F1, <- app_assoc. reflexivity.
Qed.

Lemma S_mod w dl : 0 < w -> S dl mod w = if S (dl mod w) =? w then 0 else S (dl mod w).
Proof.
  intros Hw. destruct (Nat.eqb_spec (S (dl mod w)) w) as [He|He].
  - pose proof (Nat.div_mod dl w ltac:(lia)).
    replace (S dl) with ((dl / w + 1) * w) by nia. apply Nat.mod_mul. lia.
  - pose proof (Nat.div_mod dl w ltac:(lia)). pose proof (Nat.mod_upper_bound dl w ltac:(lia)).
    symmetry. apply (Nat.mod_unique (S dl) w (dl / w)); lia.
Qed.

Lemma wrapb_wrapped w s : 0 < w -> s <> [] -> forall dl,
  wrapb w dl s = nl w dl ++ wrapped w (dl mod w) s.
Proof.
  intros Hw. induction s as [|c s IH]; intros Hne dl; [congruence|].
  cbn [wrapb]. f_equal. destruct s as [|d s]; [reflexivity|].
  rewrite IH by discriminate. rewrite (wrapped_cons w (dl mod w) c) by discriminate.
  unfold nl. replace (w =? 0) with false by lia. replace (0 <? S dl) with true by lia. cbn [negb andb].
  rewrite S_mod by assumption.
  destruct (Nat.eqb_spec (S (dl mod w)) w); cbn [Nat.eqb app]; reflexivity.
Qed.

Lemma wrapb_text w s : wrapb w 0 s = wrap_text w s.
Proof.
  destruct w as [|w].
  - cbn [wrap_text]. generalize 0 at 2. induction s as [|c s IH]; intros n; cbn [wrapb nl Nat.eqb negb andb app]; congruence.
  - cbn [wrap_text]. destruct s as [|c s]; [reflexivity|].
    rewrite wrapb_wrapped by (try discriminate; lia). rewrite Nat.mod_0_l by lia.
    unfold nl. cbn [Nat.ltb Nat.leb]. rewrite andb_false_r. reflexivity.
Qed.

Lemma length_b32_groups fuel : forall b, length b <= fuel ->
  length (b32_groups fuel b) = (length b + 4) / 5 * 8.
Proof.
  induction fuel as [|fuel IH]; intros b Hf.
  - destruct b; [reflexivity|cbn in Hf; lia].
  - destruct b as [|x b]; [reflexivity|]. cbn [b32_groups].
    rewrite app_length, b32_group_gchar, map_length, seq_length, IH.
    + rewrite skipn_length. cbn [length].
      destruct (Nat.le_gt_cases (S (length b)) 5).
      * replace (S (length b) - 5) with 0 by lia. lia.
      * lia.
    + rewrite skipn_length. cbn [length] in *. lia.
Qed.

Lemma b32_encode_size_ok b w : b <> [] ->
  b32_encode_size (length b) w = length (wrap_text w (b32_text b)) + 1.
Proof.
  intros Hne. unfold b32_encode_size.
  assert (0 < length b) by (destruct b; cbn; [congruence|lia]).
  replace (length b =? 0) with false by lia.
  pose proof (length_b32_groups (length b) b (le_n _)) as L0. fold (b32_text b) in L0.
  assert (E : (let ret := (8 * length b + 4) / 5 in
     if negb (ret mod 8 =? 0) then ret + (8 - ret mod 8) else ret) = (length b + 4) / 5 * 8).
  { cbn zeta. generalize (length b). intros n.
    assert (H3 : exists q r, n = 5 * q + r /\ r < 5) by (exists (n / 5), (n mod 5); lia).
    destruct H3 as (q & r & -> & Hr).
    destruct r as [|[|[|[|[|]]]]]; try lia;
      match goal with |- context [negb (?a =? 0)] => destruct (Nat.eqb_spec a 0) as [E|E] end; cbn [negb]; lia. }
  cbn zeta in E. cbn zeta. rewrite E.
  assert (Hne' : b32_text b <> []) by (intros K; rewrite K in L0; cbn [length] in L0; lia).
  rewrite (length_wrap_text w _ Hne'), L0.
  set (L := (length b + 4) / 5 * 8). assert (8 <= L) by (subst L; lia).
  destruct (Nat.eqb_spec w 0) as [->|Hw]; [cbn; lia|].
  replace (0 <? w) with true by lia. f_equal.
  destruct (Nat.eqb_spec (L mod w) 0) as [Hm|Hm]; cbn [negb].
  - f_equal. apply Nat.mod_divides in Hm as [q Hq]; [|lia]. rewrite Hq in *.
    assert (0 < q) by nia.
    rewrite (Nat.mul_comm w q), Nat.div_mul by lia.
    symmetry. replace (q * w - 1) with ((q - 1) * w + (w - 1)) by nia.
    rewrite Nat.div_add_l by lia. rewrite (Nat.div_small (w - 1)); lia.
  - f_equal. pose proof (Nat.div_mod L w Hw). pose proof (Nat.mod_upper_bound L w Hw).
    apply (Nat.div_unique (L - 1) w (L / w) (L mod w - 1)); lia.
Qed.

Lemma b32_encode_correct b out w :
  is_bytes b -> b <> [] -> b32_encode_size (length b) w <= length out ->
  exists out', b32_encode out b w = Ok (length (wrap_text w (b32_text b)), out') /\
    length out' = length out /\
    firstn (S (length (wrap_text w (b32_text b)))) out' = wrap_text w (b32_text b) ++ [0%N].
Proof.
  intros Hb Hne Hl. unfold b32_encode.
  rewrite b32_encode_size_ok in * by assumption.
  assert (0 < length b) by (destruct b; cbn; [congruence|lia]).
  replace ((length out =? 0) || (length b =? 0) ||
           (length out <? length (wrap_text w (b32_text b)) + 1)) with false by lia.
  destruct (@enc_loop_ok w (length b) b out 0 0 Hb (le_n _)) as (o & E & L & F).
  { fold (b32_text b). rewrite wrapb_text. lia. }
  fold (b32_text b) in *. rewrite wrapb_text in *. rewrite E. cbn [bind].
  rewrite Nat.add_0_l in *. rewrite firstn_O in F. cbn [app] in F.
  assert (HL : length (wrap_text w (b32_text b)) < length o) by lia.
  destruct (wr_seq o 0%N HL) as (m & Em & Lm & Fm & _). rewrite Em. cbn [bind].
  exists m. repeat split; try congruence.
Qed.

(** ** Decoder *)

Definition clean_end (u : list N) : Prop := u = [] \/ exists t c, u = t ++ [c] /\ chr_isspace c = false.

Lemma skip_sp_spec u z c r : clean_end u -> strip u = c :: r ->
  exists u', skip_sp (u ++ z) = Ok (c, u' ++ z) /\ strip u' = r /\ clean_end u' /\ length u' < length u.
Proof.
  induction u as [|x u IH]; intros Hc Hs; [discriminate|].
  rewrite strip_cons in Hs. cbn [app skip_sp].
  assert (Hc' : clean_end u).
  { destruct Hc as [Hc|(t & d & E & Hd)]; [discriminate|].
    destruct t as [|y t]; cbn [app] in E; injection E as -> ->; [left; reflexivity|right; eauto]. }
  destruct (chr_isspace x) eqn:Ex.
  - destruct (IH Hc' Hs) as (u' & E & S' & C' & L). exists u'. repeat split; auto. cbn; lia.
  - injection Hs as -> Hr. exists u. repeat split; auto.
Qed.

Lemma clean_end_nil u : clean_end u -> strip u = [] -> u = [].
Proof.
  intros [->|(t & c & -> & Hc)] H; auto.
  exfalso. unfold strip in H. rewrite filter_app in H. cbn in H. rewrite Hc in H. cbn in H.
  destruct (filter _ t); discriminate.
Qed.

Definition dig (V : N) (j : nat) : N := ((V / 32 ^ N.of_nat (7 - j)) mod 32)%N.

Lemma read_group_spec V f z : (V < 2 ^ 40)%N ->
  (forall j, j < 8 -> rd b32_rev (N.to_nat (f j)) = Ok (Z.of_N (dig V j)) /\ (f j =? 0)%N = false) ->
  forall k i u r, i + k = 8 -> clean_end u -> strip u = map f (seq i k) ++ r ->
  exists u', read_group k i (u ++ z) ((V / 32 ^ N.of_nat (8 - i)) * 32 ^ N.of_nat (8 - i))%N
    = Ok (Some (V, u' ++ z)) /\ strip u' = r /\ clean_end u' /\ length u' + k <= length u.
Proof.
  intros HV Hf. induction k as [|k IH]; intros i u r Hi Hc Hs.
  - exists u. cbn [read_group]. replace (8 - i) with 0 by lia.
    change (32 ^ N.of_nat 0)%N with 1%N. rewrite N.div_1_r, N.mul_1_r.
    cbn in Hs. repeat split; auto. lia.
  - cbn [seq map app] in Hs.
    destruct (skip_sp_spec u z _ _ Hc Hs) as (u1 & E1 & S1 & C1 & L1).
    cbn [read_group]. rewrite E1. cbn [bind].
    destruct (Hf i ltac:(lia)) as (R & Z0). rewrite Z0, R. cbn [bind].
    replace (Z.of_N (dig V i) <? 0)%Z with false by lia. rewrite N2Z.id.
    assert (Hstep : N.lor (V / 32 ^ N.of_nat (8 - i) * 32 ^ N.of_nat (8 - i)) (N.shiftl (dig V i) (35 - N.of_nat i * 5))
        = (V / 32 ^ N.of_nat (8 - S i) * 32 ^ N.of_nat (8 - S i))%N).
    { unfold dig. replace (35 - N.of_nat i * 5)%N with (5 * N.of_nat (7 - i))%N by lia.
      replace (8 - i) with (S (7 - i)) by lia. replace (8 - S i) with (7 - i) by lia.
      set (m := N.of_nat (7 - i)). rewrite Nat2N.inj_succ. fold m.
      rewrite N.pow_succ_r by lia. rewrite (N.mul_comm 32), <- N.div_div by (try apply N.pow_nonzero; lia).
      set (e := (V / 32 ^ m)%N).
      replace (e / 32 * (32 ^ m * 32))%N with (e / 32 * 2 ^ (5 * m + 5))%N
        by (rewrite N.pow_add_r, <- pow32; change (2 ^ 5)%N with 32%N; lia).
      rewrite lor_add2 by (change (2 ^ 5)%N with 32%N; apply N.mod_lt; lia).
      rewrite <- pow32. f_equal. change (2 ^ 5)%N with 32%N.
      pose proof (N.div_mod e 32). lia. }
    rewrite Hstep.
    destruct (IH (S i) u1 r) as (u' & E & S' & C' & L'); [lia|assumption|assumption|].
    exists u'. repeat split; auto. lia.
Qed.

(** '=' in the place of a data-free digit has the digit's value, 0. *)
Lemma gchar_props g j : is_bytes g -> 0 < length g <= 5 -> j < 8 ->
  rd b32_rev (N.to_nat (gchar (gval g) (length g) j)) = Ok (Z.of_N (dig (gval g) j)) /\
  (gchar (gval g) (length g) j =? 0)%N = false /\ chr_isspace (gchar (gval g) (length g) j) = false.
Proof.
  intros Hg Hl Hj. unfold gchar.
  destruct (Nat.ltb_spec (8 * length g) (5 * j + 1)) as [Hp|Hp].
  - assert (dig (gval g) j = 0%N) as ->; [|vm_compute; auto].
    unfold dig, gval. rewrite be_val_app, be_val_zeros, repeat_length, N.add_0_r, pow256, pow32.
    set (a := (8 * N.of_nat (5 - length g))%N). set (b := (5 * N.of_nat (7 - j))%N).
    assert (b + 5 <= a)%N by (subst a b; lia).
    replace (2 ^ a)%N with (2 ^ (a - b - 5) * 32 * 2 ^ b)%N.
    + rewrite N.mul_assoc, N.div_mul by (apply N.pow_nonzero; lia).
      rewrite N.mul_assoc. apply N.mod_mul. lia.
    + change 32%N with (2 ^ 5)%N. rewrite <- !N.pow_add_r. f_equal. lia.
  - fold (dig (gval g) j).
    assert (dig (gval g) j < 32)%N by (apply N.mod_lt; lia).
    destruct (char_props _ H) as (A & B & C). auto.
Qed.

Lemma write5_spec V : forall k i out cnt, i + k = 5 -> cnt + k <= length out ->
  exists o, write5 k i out cnt V = Ok (o, cnt + k) /\ length o = length out /\
    firstn (cnt + k) o = firstn cnt out ++ map (fun j => (V / 256 ^ N.of_nat (4 - j)) mod 256)%N (seq i k).
Proof.
  induction k as [|k IH]; intros i out cnt Hi Hl.
  - exists out. cbn. rewrite Nat.add_0_r, app_nil_r. auto.
  - cbn [write5 seq map].
    assert (H : cnt < length out) by lia.
    assert (Hv : N.land (N.shiftr V (32 - N.of_nat i * 8)) 255 = ((V / 256 ^ N.of_nat (4 - i)) mod 256)%N).
    { rewrite land255, N.shiftr_div_pow2, pow256. do 3 f_equal. lia. }
    rewrite Hv.
    destruct (wr_seq out ((V / 256 ^ N.of_nat (4 - i)) mod 256)%N H) as (m & E & L & F & _).
    rewrite E. cbn [bind].
    destruct (IH (S i) m (S cnt)) as (o & E2 & L2 & F2); [lia|lia|].
    exists o. rewrite E2. replace (S cnt + k) with (cnt + S k) in * by lia.
    repeat split; try congruence. rewrite F2, F, <- app_assoc. reflexivity.
Qed.

Lemma be_digits l : is_bytes l -> length l = 5 ->
  map (fun j => (be_val l / 256 ^ N.of_nat (4 - j)) mod 256)%N (seq 0 5) = l.
Proof.
  intros H L. destruct l as [|a [|b [|c [|d [|e [|]]]]]]; try discriminate.
  repeat match goal with K : is_bytes (_ :: _) |- _ => inversion K; subst; clear K
         | K : Forall is_byte (_ :: _) |- _ => inversion K; subst; clear K end.
  unfold is_byte in *. unfold be_val. cbn [fold_left seq map Nat.sub].
  change (256 ^ N.of_nat 4)%N with 4294967296%N. change (256 ^ N.of_nat 3)%N with 16777216%N.
  change (256 ^ N.of_nat 2)%N with 65536%N. change (256 ^ N.of_nat 1)%N with 256%N.
  change (256 ^ N.of_nat 0)%N with 1%N.
  repeat f_equal; lia.
Qed.

(** Bytes with the last group padded to five by zero bytes. *)
Fixpoint padded (fuel : nat) (b : list N) : list N :=
  match fuel, b with
  | S f, _ :: _ => let g := firstn 5 b in (g ++ repeat 0%N (5 - length g)) ++ padded f (skipn 5 b)
  | _, _ => []
  end.

Lemma length_padded fuel : forall b, length b <= fuel -> length (padded fuel b) = (length b + 4) / 5 * 5.
Proof.
  induction fuel as [|fuel IH]; intros b Hf.
  - destruct b; [reflexivity|cbn in Hf; lia].
  - destruct b as [|x b]; [reflexivity|]. cbn [padded].
    rewrite !app_length, repeat_length, IH.
    + rewrite skipn_length, firstn_length. cbn [length].
      destruct (Nat.le_gt_cases (S (length b)) 5).
      * replace (S (length b) - 5) with 0 by lia. lia.
      * lia.
    + rewrite skipn_length. cbn [length] in *. lia.
Qed.

Lemma dec_loop_ok z : forall fb b fuel u out cnt,
  is_bytes b -> length b <= fb -> length u < fuel -> clean_end u ->
  strip u = b32_groups fb b -> Forall (fun c => (c =? 0)%N = false) u ->
  cnt + length (padded fb b) <= length out ->
  exists o, dec_loop fuel (u ++ 0%N :: z) out cnt = Ok (cnt + length (padded fb b), o) /\
    length o = length out /\
    firstn (cnt + length (padded fb b)) o = firstn cnt out ++ padded fb b.
Proof.
  induction fb as [|fb IH]; intros b fuel u out cnt Hb Hfb Hf Hc Hs Hnz Hl;
    (destruct fuel as [|fuel]; [lia|]).
  - destruct b; [|cbn in Hfb; lia]. cbn in Hs. apply clean_end_nil in Hs; auto. subst u.
    exists out. cbn. rewrite Nat.add_0_r, app_nil_r. auto.
  - destruct b as [|x b].
    { cbn in Hs. apply clean_end_nil in Hs; auto. subst u.
      exists out. cbn. rewrite Nat.add_0_r, app_nil_r. auto. }
    cbn [b32_groups padded] in *.
    set (g := firstn 5 (x :: b)) in *.
    assert (Hg : is_bytes g) by (apply Forall_forall; intros y Hy; unfold g in Hy;
      apply (proj1 (Forall_forall _ _) Hb); rewrite <- (firstn_skipn 5 (x :: b)); apply in_or_app; auto).
    assert (Hr : is_bytes (skipn 5 (x :: b))) by (apply Forall_forall; intros y Hy;
      apply (proj1 (Forall_forall _ _) Hb); rewrite <- (firstn_skipn 5 (x :: b)); apply in_or_app; auto).
    assert (Hgl : 0 < length g <= 5) by (unfold g; rewrite firstn_length; cbn [length]; lia).
    rewrite b32_group_gchar in Hs.
    destruct u as [|u0 u]; [discriminate|].
    cbn [app dec_loop]. inversion Hnz as [|? ? Hz0 Hnz']; subst. rewrite Hz0.
    change (u0 :: u ++ 0%N :: z) with ((u0 :: u) ++ 0%N :: z).
    destruct (read_group_spec (gval g) (gchar (gval g) (length g)) (0%N :: z)) with
      (k := 8) (i := 0) (u := u0 :: u) (r := b32_groups fb (skipn 5 (x :: b))) as (u' & E & S' & C' & L').
    { apply gval_lt; auto; lia. }
    { intros j Hj. destruct (gchar_props g j Hg Hgl Hj) as (A & B & _). auto. }
    { reflexivity. } { assumption. } { exact Hs. }
    replace (gval g / 32 ^ N.of_nat (8 - 0) * 32 ^ N.of_nat (8 - 0))%N with 0%N in E.
    2:{ rewrite N.div_small; [reflexivity|]. rewrite pow32. change (5 * N.of_nat (8 - 0))%N with 40%N.
        apply gval_lt; auto; lia. }
    rewrite E. cbn [bind].
    rewrite !app_length, repeat_length in *.
    destruct (write5_spec (gval g) 5 0 out cnt eq_refl) as (o1 & E1 & L1 & F1); [lia|].
    rewrite E1. cbn [bind].
    assert (Hnz2 : Forall (fun c => (c =? 0)%N = false) u').
    { (* characters of u' are characters of u *)
      apply Forall_forall. intros y Hy.
      destruct (chr_isspace y) eqn:Ey.
      - unfold chr_isspace in Ey. lia.
      - assert (In y (strip u')) by (apply filter_In; rewrite Ey; auto).
        rewrite S' in H. 
        assert (In y (strip (u0 :: u))) by (rewrite Hs; apply in_or_app; auto).
        apply filter_In in H0 as [H0 _]. exact (proj1 (Forall_forall _ _) Hnz y H0). }
    destruct (IH (skipn 5 (x :: b)) fuel u' o1 (cnt + 5)) as (o & E2 & L2 & F2); auto.
    { rewrite skipn_length. cbn [length] in *. lia. }
    { cbn [length] in *. lia. } { lia. }
    exists o. rewrite E2.
    replace (length g + (5 - length g)) with 5 by lia. rewrite Nat.add_assoc.
    repeat split; try congruence. rewrite F2, F1, <- !app_assoc. f_equal. rewrite app_assoc. f_equal.
    unfold gval. apply be_digits.
    + apply Forall_app. split; auto. apply Forall_forall. intros y Hy. apply repeat_spec in Hy. subst.
      unfold is_byte. lia.
    + rewrite app_length, repeat_length. lia.
Qed.

Lemma padded_pad5 fuel : forall b, length b <= fuel -> padded fuel b = pad5 b.
Proof.
  induction fuel as [|fuel IH]; intros b Hf.
  - destruct b; [reflexivity|cbn in Hf; lia].
  - destruct b as [|x b]; [reflexivity|]. cbn [padded].
    rewrite IH by (rewrite skipn_length; cbn [length] in *; lia).
    unfold pad5. rewrite skipn_length, firstn_length.
    destruct (Nat.le_gt_cases (length (x :: b)) 5) as [H|H].
    + rewrite (firstn_all2 (x :: b)) by lia. rewrite skipn_all2 by lia.
      replace (length (x :: b) - 5) with 0 by lia. cbn [app repeat]. change ((5 - 0 mod 5) mod 5) with 0.
      cbn [repeat]. rewrite app_nil_r. f_equal. f_equal. rewrite Nat.min_r by lia.
      f_equal. cbn [length] in *. lia.
    + replace (5 - Nat.min 5 (length (x :: b))) with 0 by lia. cbn [repeat]. rewrite app_nil_r.
      rewrite app_assoc, firstn_skipn. f_equal. f_equal. lia.
Qed.

Lemma b32_groups_props fuel : forall b, is_bytes b ->
  Forall (fun c => chr_isspace c = false /\ (c =? 0)%N = false) (b32_groups fuel b).
Proof.
  induction fuel as [|fuel IH]; intros b Hb; [constructor|].
  destruct b as [|x b]; [constructor|]. cbn [b32_groups]. apply Forall_app. split.
  - rewrite b32_group_gchar. apply Forall_forall. intros c Hc. apply in_map_iff in Hc as (j & <- & Hj).
    apply in_seq in Hj.
    destruct (gchar_props (firstn 5 (x :: b)) j) as (_ & A & B); auto; try lia.
    + apply Forall_forall; intros y Hy.
      apply (proj1 (Forall_forall _ _) Hb); rewrite <- (firstn_skipn 5 (x :: b)); apply in_or_app; auto.
    + rewrite firstn_length. cbn [length]. lia.
  - apply IH. apply Forall_forall; intros y Hy.
    apply (proj1 (Forall_forall _ _) Hb); rewrite <- (firstn_skipn 5 (x :: b)); apply in_or_app; auto.
Qed.

Lemma wrapped_nz w s : Forall (fun c => (c =? 0)%N = false) s -> forall k,
  Forall (fun c => (c =? 0)%N = false) (wrapped w k s).
Proof.
  induction s as [|c s IH]; intros H k; [constructor|].
  inversion H; subst. destruct s as [|d s]; [constructor; auto|].
  rewrite wrapped_cons by discriminate. apply Forall_app. split; [|apply IH; assumption].
  destruct (S k =? w); repeat constructor; auto.
Qed.

Lemma b32_round_trip_lemma b w out dec z :
  is_bytes b -> b <> [] -> b32_encode_size (length b) w <= length out ->
  b32_decode_size (length (wrap_text w (b32_text b))) <= length dec -> 
  exists n out' dec',
    b32_encode out b w = Ok (n, out') /\ length out' = length out /\
    n = length (wrap_text w (b32_text b)) /\
    firstn (S n) out' = wrap_text w (b32_text b) ++ [0%N] /\
    b32_decode dec (firstn (S n) out' ++ z) n = Ok (length (pad5 b), dec') /\
    firstn (length (pad5 b)) dec' = pad5 b.
Proof.
  intros Hb Hne Ho Hd.
  destruct (b32_encode_correct b out w Hb Hne Ho) as (o & E & L & F).
  set (T := wrap_text w (b32_text b)) in *.
  pose proof (length_b32_groups (length b) b (le_n _)) as L0. fold (b32_text b) in L0.
  assert (0 < length b) by (destruct b; cbn; [congruence|lia]).
  assert (HL : length (b32_text b) <= length T).
  { unfold T. rewrite length_wrap_text by (intros K; rewrite K in L0; cbn [length] in L0; lia). lia. }
  pose proof (b32_groups_props (length b) b Hb) as HP. fold (b32_text b) in HP.
  assert (Hd5 : length (padded (length b) b) <= length dec).
  { rewrite length_padded by lia. unfold b32_decode_size in Hd.
    assert ((length b + 4) / 5 <= length T / 8) by (apply Nat.div_le_lower_bound; lia). lia. }
  assert (Hdec : exists d', b32_decode dec (T ++ 0%N :: z) (length T) = Ok (length (padded (length b) b), d') /\
      firstn (length (padded (length b) b)) d' = padded (length b) b).
  { unfold b32_decode.
    pose proof (length_padded (length b) b (le_n _)) as LP.
    replace ((length dec =? 0) || (length T =? 0) || (length dec <? b32_decode_size (length T))) with false by lia.
    destruct (dec_loop_ok z (length b) b (S (length (T ++ 0%N :: z))) T dec 0) as (d & Ed & _ & Fd); auto.
    - rewrite app_length. lia.
    - right. unfold T. rewrite <- (firstn_skipn (length (b32_text b) - 1) (b32_text b)).
      assert (HS : exists c, skipn (length (b32_text b) - 1) (b32_text b) = [c]).
      { pose proof (skipn_length (length (b32_text b) - 1) (b32_text b)) as SL.
        destruct (skipn (length (b32_text b) - 1) (b32_text b)) as [|c [|]] eqn:ES; cbn [length] in SL; try lia.
        eauto. }
      destruct HS as (c & HS). rewrite HS.
      assert (Hcs : chr_isspace c = false).
      { rewrite <- (firstn_skipn (length (b32_text b) - 1) (b32_text b)), HS in HP.
        apply Forall_app in HP as [_ HP]. inversion HP; tauto. }
      destruct w as [|w]; cbn [wrap_text]; [eauto|].
      destruct (wrapped_last (S w) 0 (firstn (length (b32_text b) - 1) (b32_text b)) c) as (t & ->). eauto.
    - unfold T. rewrite strip_wrap_text. apply strip_nospace.
      eapply Forall_impl; [|exact HP]. intros ? [? ?]; assumption.
    - assert (Forall (fun c => (c =? 0)%N = false) (b32_text b)) by (eapply Forall_impl; [|exact HP]; intros ? [? ?]; assumption).
      unfold T. destruct w; cbn [wrap_text]; auto. apply wrapped_nz; auto.
    - exists d. auto. }
  destruct Hdec as (d' & Ed & Fd). rewrite padded_pad5 in * by lia.
  exists (length T), o, d'. rewrite F, <- app_assoc. auto 10.
Qed.

Lemma pad5_id b : length b mod 5 = 0 -> pad5 b = b.
Proof. intros H. unfold pad5. rewrite H. cbn. apply app_nil_r. Qed.

From Verif Require Import Base.Lib Base.Mem Utf8.Model Utf8.Spec Utf8.Proofs Utf8.Text Punycode.Model Punycode.Spec.
Local Open Scope N_scope.

Ltac nleb := repeat match goal with
  | |- context [?a <? ?b] => destruct (N.ltb_spec a b)
  | |- context [?a <=? ?b] => destruct (N.leb_spec a b)
  | |- context [?a =? ?b] => destruct (N.eqb_spec a b)
  end.

Lemma w32_small n : n < 2 ^ 32 -> w32 n = n.
Proof. apply N.mod_small. Qed.
Lemma w32_lt n : w32 n < 2 ^ 32.
Proof. apply N.mod_lt. discriminate. Qed.
Lemma sub32_ok a b : b <= a -> a < 2 ^ 32 -> sub32 a b = a - b.
Proof.
  intros H1 H2. unfold sub32. replace (a + (2 ^ 32 - b)) with (a - b + 1 * 2 ^ 32) by lia. rewrite N.mod_add by discriminate. apply N.mod_small. lia.
Qed.

(** ** The numbers *)

Lemma threshold_range k bias : bias <= 213 -> 1 <= threshold (w32 k) bias <= 26.
Proof.
  intros H. pose proof (w32_lt k) as L. unfold threshold. rewrite (w32_small (bias + 1)), (w32_small (bias + 26)) by (clear - H; lia).
  destruct (N.leb_spec (w32 k) (bias + 1)); [lia|]. destruct (N.leb_spec (bias + 26) (w32 k)); [lia|]. rewrite sub32_ok by lia. lia.
Qed.

Lemma decode_encode_digit d : d < 36 -> decode_digit (encode_digit d) = d.
Proof.
  intros H. unfold encode_digit, decode_digit. destruct (N.leb_spec d 25).
  - replace ((65 <=? d + 97) && (d + 97 <=? 90)) with false by lia. replace ((97 <=? d + 97) && (d + 97 <=? 122)) with true by lia. lia.
  - replace ((65 <=? d + 22) && (d + 22 <=? 90)) with false by lia. replace ((97 <=? d + 22) && (d + 22 <=? 122)) with false by lia.
    replace ((48 <=? d + 22) && (d + 22 <=? 57)) with true by lia. lia.
Qed.

(** A digit of the output. *)
Definition pdigit (c : N) : Prop := 97 <= c <= 122 \/ 48 <= c <= 57.
Lemma encode_digit_range d : d < 36 -> pdigit (encode_digit d).
Proof. intros H. unfold pdigit, encode_digit. destruct (N.leb_spec d 25); lia. Qed.

Lemma next_q_lt q t : 1 <= t <= 26 -> t <= q -> (q - t) / (36 - t) <= q / 10.
Proof.
  intros H1 H2. apply N.le_trans with (q / (36 - t)); [apply N.div_le_mono; lia|]. apply N.div_le_compat_l. lia.
Qed.

Lemma encode_int_total bias : bias <= 213 -> forall n q k, q < 2 ^ N.of_nat n ->
  exists ds, encode_int (S n) k bias q = Ok ds /\ ds <> [] /\ Forall pdigit ds.
Proof.
  intros Hb. induction n as [|n IH]; intros q k Hq; pose proof (threshold_range k bias Hb) as T; cbn [encode_int].
  - cbn in Hq. destruct (N.ltb_spec q (threshold (w32 k) bias)); [|lia]. eexists. split; [reflexivity|]. split; [discriminate|].
    constructor; [apply encode_digit_range; lia|constructor].
  - destruct (N.ltb_spec q (threshold (w32 k) bias)).
    + eexists. split; [reflexivity|]. split; [discriminate|]. constructor; [apply encode_digit_range; lia|constructor].
    + set (t := threshold (w32 k) bias) in *. destruct (IH ((q - t) / (36 - t)) (k + 36)) as (ds & E & Hne & F).
      { pose proof (next_q_lt q t T ltac:(lia)). rewrite Nat2N.inj_succ, N.pow_succ_r' in Hq. assert (q / 10 <= q / 2) by (apply N.div_le_compat_l; lia).
        assert (q / 2 < 2 ^ N.of_nat n) by (apply N.div_lt_upper_bound; lia). lia. }
      cbn [encode_int] in E. rewrite E. cbn [bind]. eexists. split; [reflexivity|]. split; [discriminate|]. constructor; auto.
      apply encode_digit_range. assert ((q - t) mod (36 - t) < 36 - t) by (apply N.mod_lt; lia). lia.
Qed.

(** The weights of the digit positions: where one overflows, the digit before it
    is the last one of any number of 32 bits. *)
Fixpoint chk (f : nat) (k bias w : N) : bool :=
  match f with
  | O => false
  | S f =>
    let t := threshold (w32 k) bias in
    (max32 <? t * w) || ((w * (36 - t) <=? max32) && chk f (k + 36) bias (w * (36 - t)))
  end.
Lemma chk_all : forallb (fun j => chk 12 36 (N.of_nat j) 1) (seq 0 214) = true.
Proof. vm_compute. reflexivity. Qed.
Lemma chk_start bias : bias <= 213 -> chk 12 36 bias 1 = true.
Proof.
  intros H. pose proof chk_all as C. rewrite forallb_forall in C. specialize (C (N.to_nat bias)). rewrite N2Nat.id in C. apply C. apply in_seq. lia.
Qed.

Lemma div_lt_iff a w d : w <> 0 -> (a / w <? d) = (a <? d * w).
Proof.
  intros H. apply eq_true_iff_eq. rewrite !N.ltb_lt. split; intros L.
  - destruct (N.lt_ge_cases a (d * w)) as [|G]; auto. exfalso. apply N.div_le_mono with (c := w) in G; auto. rewrite N.div_mul in G by auto. lia.
  - apply N.div_lt_upper_bound; auto. rewrite N.mul_comm. exact L.
Qed.

Lemma decode_digit_spec c : decode_digit c = match digit c with Some d => d | None => 36 end /\ (forall d, digit c = Some d -> d < 36 /\ c <> 0 /\ c <> 45 /\ c < 128).
Proof.
  unfold decode_digit, digit.
  destruct ((97 <=? c) && (c <=? 122)) eqn:E1; [replace ((65 <=? c) && (c <=? 90)) with false by lia; split; [reflexivity|intros d E; injection E as <-; lia]|].
  destruct ((65 <=? c) && (c <=? 90)) eqn:E2; [split; [reflexivity|intros d E; injection E as <-; lia]|].
  destruct ((48 <=? c) && (c <=? 57)) eqn:E3; (split; [lia|intros d E]); [injection E as <-; lia|discriminate].
Qed.
Lemma threshold_thr k bias : bias <= 213 -> k < 2 ^ 32 -> threshold (w32 k) bias = thr k bias.
Proof.
  intros H K. unfold threshold, thr. rewrite (w32_small k) by auto. rewrite (w32_small (bias + 1)), (w32_small (bias + 26)) by (clear - H; lia).
  destruct (N.leb_spec k (bias + 1)); [lia|]. destruct (N.leb_spec (bias + 26) k); [lia|]. rewrite sub32_ok by lia. lia.
Qed.

(** [encode_int] writes such numbers, [decode_int] reads them. *)
Lemma encode_vli bias : bias <= 213 -> forall fuel k q ds, k + 36 * N.of_nat fuel < 2 ^ 32 -> encode_int fuel k bias q = Ok ds -> Vli bias k ds q.
Proof.
  intros Hb. induction fuel as [|fuel IH]; intros k q ds K E; [discriminate|].
  cbn [encode_int] in E. pose proof (threshold_range k bias Hb) as T. assert (T' := threshold_thr k bias Hb ltac:(lia)).
  set (t := threshold (w32 k) bias) in *.
  assert (Dg : forall d, d < 36 -> digit (encode_digit d) = Some d).
  { intros d Hd. pose proof (decode_encode_digit d Hd) as X. rewrite (proj1 (decode_digit_spec _)) in X. destruct (digit (encode_digit d)); [now subst|lia]. }
  destruct (N.ltb_spec q t) as [Hq|Hq].
  - injection E as <-. apply V_last; [apply Dg; lia|lia].
  - destruct (encode_int fuel (k + 36) bias ((q - t) / (36 - t))) as [r| |] eqn:E'; cbn [bind] in E; try discriminate.
    assert (ds = encode_digit (t + (q - t) mod (36 - t)) :: r) by congruence. subst ds. clear E.
    set (q' := (q - t) / (36 - t)) in *. assert (Em : (q - t) = (36 - t) * q' + (q - t) mod (36 - t)) by (apply N.div_mod; lia).
    assert (Lm : (q - t) mod (36 - t) < 36 - t) by (apply N.mod_lt; lia). set (m := (q - t) mod (36 - t)) in *.
    assert (Eq : q = t + m + (36 - thr k bias) * q') by (rewrite <- T'; lia). rewrite Eq. apply V_more; [apply Dg; lia|lia|]. apply IH; [|exact E'].
    rewrite Nat2N.inj_succ in K. lia.
Qed.

Lemma decode_vli bias rest : bias <= 213 -> forall k ds v, Vli bias k ds v -> forall f w i, k + 36 * N.of_nat f < 2 ^ 32 ->
  chk f k bias w = true -> 1 <= w <= max32 -> i <= max32 ->
  decode_int (ds ++ rest) k bias w i = Ok (if i + v * w <=? max32 then Some (i + v * w, rest) else None).
Proof.
  intros Hb k ds v V. assert (M : max32 = 4294967295) by reflexivity.
  induction V as [k c d Dc Hd|k c d ds v Dc Hd V IH]; intros f w i K C Hw Hi; pose proof (decode_digit_spec c) as [E1 E2]; rewrite Dc in E1; specialize (E2 d Dc);
    pose proof (threshold_range k bias Hb) as T; assert (T' := threshold_thr k bias Hb ltac:(lia)).
  - cbn [app decode_int]. rewrite E1. rewrite T' in *. replace (36 <=? d) with false by lia. replace (w =? 0) with false by lia.
    rewrite div_lt_iff by lia. replace (d <? thr k bias) with true by lia.
    destruct (N.leb_spec (i + d * w) max32).
    + replace (max32 - i <? d * w) with false by lia. rewrite (w32_small (d * w)) by (change (2 ^ 32) with 4294967296; lia).
      rewrite w32_small by (change (2 ^ 32) with 4294967296; lia). reflexivity.
    + replace (max32 - i <? d * w) with true by lia. reflexivity.
  - cbn [app decode_int]. rewrite E1. rewrite T' in *. set (t := thr k bias) in *. replace (36 <=? d) with false by lia. replace (w =? 0) with false by lia.
    replace (d <? t) with false by lia. rewrite div_lt_iff by lia.
    assert (Eq : (d + (36 - t) * v) * w = d * w + v * (w * (36 - t))) by ring.
    destruct f as [|f]; [discriminate|]. cbn [chk] in C. rewrite T' in C. fold t in C.
    assert (Hdw : t * w <= d * w) by (apply N.mul_le_mono_r; lia).
    destruct (N.ltb_spec (max32 - i) (d * w)) as [O1|O1].
    + rewrite Eq. set (vw := v * (w * (36 - t))). rewrite (proj2 (N.leb_gt _ _)) by lia. reflexivity.
    + apply orb_true_iff in C. destruct C as [C|C]; [lia|]. apply andb_true_iff in C. destruct C as [C1 C2]. apply N.leb_le in C1.
      rewrite (w32_small (d * w)) by (change (2 ^ 32) with 4294967296; lia).
      rewrite (w32_small (i + _)) by (change (2 ^ 32) with 4294967296; lia).
      rewrite div_lt_iff by lia. replace (max32 <? w * (36 - t)) with false by lia.
      rewrite (w32_small (w * (36 - t))) by (change (2 ^ 32) with 4294967296; lia).
      rewrite (IH f (w * (36 - t)) (i + d * w)); auto; try lia.
      * rewrite Eq, N.add_assoc. reflexivity.
      * assert (1 * 1 <= w * (36 - t)) by (apply N.mul_le_mono; lia). lia.
Qed.

(** ** The bias *)

Lemma adapt_loop_ok : forall f d k, d < 455 * 35 ^ N.of_nat f -> k + 36 * N.of_nat f < 2 ^ 32 ->
  exists j, adapt_loop (S f) d k = Ok (d / 35 ^ j, k + 36 * j) /\ d / 35 ^ j <= 455 /\ j <= N.of_nat f /\ forall j', j' < j -> 455 < d / 35 ^ j'.
Proof.
  induction f as [|f IH]; intros d k H K.
  - cbn in H. cbn [adapt_loop]. destruct (N.ltb_spec 455 d); [lia|]. exists 0. rewrite N.pow_0_r, N.div_1_r, N.mul_0_r, N.add_0_r. split; [reflexivity|]. repeat split; lia.
  - change (adapt_loop (S (S f)) d k) with (if 455 <? d then adapt_loop (S f) (d / 35) (w32 (k + 36)) else Ok (d, k)). destruct (N.ltb_spec 455 d).
    + destruct (IH (d / 35) (k + 36)) as (j & E & L1 & L2 & L3).
      * apply N.div_lt_upper_bound; [discriminate|]. rewrite Nat2N.inj_succ, N.pow_succ_r' in H. lia.
      * lia.
      * rewrite w32_small by (change (2 ^ 32) with 4294967296 in *; lia). rewrite E. exists (j + 1).
        assert (P : forall x, d / 35 ^ (x + 1) = d / 35 / 35 ^ x).
        { intros x. rewrite N.add_1_r, N.pow_succ_r', N.div_div; auto; try discriminate. apply N.pow_nonzero. discriminate. }
        rewrite P. split; [do 2 f_equal; lia|]. split; [auto|]. split; [lia|]. intros j' Hj.
        destruct (N.eq_dec j' 0) as [->|]; [now rewrite N.pow_0_r, N.div_1_r|]. replace j' with (j' - 1 + 1) by lia. rewrite P. apply L3. lia.
    + exists 0. rewrite N.pow_0_r, N.div_1_r, N.mul_0_r, N.add_0_r. split; [reflexivity|]. repeat split; lia.
Qed.
Lemma adapt_loop_more f : forall g d k r, adapt_loop f d k = Ok r -> (f <= g)%nat -> adapt_loop g d k = Ok r.
Proof.
  induction f as [|f IH]; intros g d k r E H; [discriminate|]. destruct g as [|g]; [lia|]. cbn [adapt_loop] in *.
  destruct (455 <? d); [apply IH; auto; lia|auto].
Qed.

Lemma adapt_ok delta np first : delta <= max32 -> np <> 0 -> exists bias, adapt delta np first = Ok bias /\ bias <= 213 /\ rfc_adapt delta np first bias.
Proof.
  intros H Hn. unfold adapt, rfc_adapt. rewrite (proj2 (N.eqb_neq np 0)) by auto.
  set (d := if first then delta / 700 else delta / 2). assert (Hd : d <= 2147483647).
  { change max32 with 4294967295 in H. unfold d. destruct first.
    - assert (delta / 700 <= 4294967295 / 700) by (apply N.div_le_mono; [discriminate|auto]). change (4294967295 / 700) with 6135667 in *. lia.
    - assert (delta / 2 <= 4294967295 / 2) by (apply N.div_le_mono; [discriminate|auto]). change (4294967295 / 2) with 2147483647 in *. lia. }
  assert (Hq : d / np <= d) by (apply N.div_le_upper_bound; [auto|]; nia).
  rewrite (w32_small (d + d / np)) by (change (2 ^ 32) with 4294967296; lia). set (e := d + d / np) in *.
  destruct (adapt_loop_ok 5 e 0) as (j & E & L1 & L2 & L3).
  { change (455 * 35 ^ N.of_nat 5) with 23897453125. lia. }
  { reflexivity. }
  rewrite (adapt_loop_more 6 33 _ _ _ E) by lia. cbn [bind]. change (N.of_nat 5) with 5 in L2. set (x := e / 35 ^ j) in *.
  rewrite (w32_small (36 * x)) by (change (2 ^ 32) with 4294967296; lia). rewrite (w32_small (x + 38)) by (change (2 ^ 32) with 4294967296; lia).
  assert (Hx : 36 * x / (x + 38) <= 33).
  { assert (36 * x / (x + 38) < 34); [|lia]. apply N.div_lt_upper_bound; lia. }
  eexists. split; [reflexivity|]. rewrite w32_small by (change (2 ^ 32) with 4294967296; lia). split; [lia|]. exists j. fold x. auto.
Qed.
Lemma rfc_adapt_fun delta np first b1 b2 : rfc_adapt delta np first b1 -> rfc_adapt delta np first b2 -> b1 = b2.
Proof.
  intros (j1 & A1 & B1 & ->) (j2 & A2 & B2 & ->). destruct (N.lt_trichotomy j1 j2) as [L|[->|L]]; auto.
  - specialize (B2 _ L). lia.
  - specialize (B1 _ L). lia.
Qed.

(** ** One step of the decoder *)

Lemma decode_int_shorter a : forall k bias w i i' p', decode_int (a ++ [0]) k bias w i = Ok (Some (i', p')) ->
  exists a', p' = a' ++ [0] /\ (length a' < length a)%nat.
Proof.
  induction a as [|c p IH]; intros k bias w i i' p' E; [discriminate|]. cbn [app decode_int length] in *.
  destruct (36 <=? decode_digit c); [discriminate|]. destruct (w =? 0); [discriminate|]. destruct ((max32 - i) / w <? decode_digit c); [discriminate|].
  destruct (decode_digit c <? threshold (w32 k) bias); [injection E as _ <-; exists p; split; [auto|lia]|].
  destruct (max32 / (36 - threshold (w32 k) bias) <? w); [discriminate|]. apply IH in E. destruct E as (a' & E & L). exists a'. split; [auto|lia].
Qed.

Lemma decode_loop_fuel : forall f g a i n bias l, (length a < f)%nat -> (length a < g)%nat ->
  decode_loop f (a ++ [0]) i n bias l = decode_loop g (a ++ [0]) i n bias l.
Proof.
  induction f as [|f IH]; intros g a i n bias l Hf Hg; [lia|]. destruct g as [|g]; [lia|]. cbn [decode_loop].
  destruct (rd (a ++ [0]) 0) as [c| |]; cbn [bind]; auto. destruct (c =? 0); auto.
  destruct (decode_int (a ++ [0]) 36 bias 1 i) as [[[i' p']|]| |] eqn:E; cbn [bind]; auto. apply decode_int_shorter in E. destruct E as (a' & -> & L).
  destruct (adapt _ _ _); cbn [bind]; auto. destruct (_ =? 0); auto. destruct (from_cp _ _ _) as [[[e b] len]| |]; cbn [bind]; auto.
  destruct e; auto. destruct len; auto. destruct (wr _ _ _); cbn [bind]; auto. apply IH; lia.
Qed.

(** The decoder on the text [p]. *)
Definition D (p : list N) (i n bias : N) (l : list (list N)) : res (option (list (list N))) :=
  decode_loop (S (length p)) (p ++ [0]) i n bias l.

Lemma c_str_app a z : no_nul a -> c_str (a ++ 0 :: z) = a.
Proof.
  induction 1 as [|c a H F IH]; [reflexivity|]. cbn [app c_str]. rewrite (proj2 (N.eqb_neq c 0)) by auto. now rewrite IH.
Qed.

Lemma tempa_ok n : tcp n -> exists b, from_cp (repeat 0 8) 8 n = Ok (USuccess, b, Some (cp_width n)) /\
  exists b', wr b (cp_width n) 0 = Ok b' /\ c_str b' = utf8_enc n.
Proof.
  intros [V N0]. assert (W : (1 <= cp_width n <= 4)%nat) by (destruct (cp_width_cases n) as [[W _]|[[W _]|[[W _]|[W _]]]]; lia).
  eexists. split; [apply from_cp_enc; auto; cbn; lia|].
  assert (K : exists x z, skipn (cp_width n) (repeat 0 8) = x :: z).
  { destruct (cp_width n) as [|[|[|[|[|w]]]]]; try lia; cbn; eauto. }
  destruct K as (x & z & ->). pose proof (length_enc n) as L. exists (utf8_enc n ++ 0 :: z). split.
  - rewrite <- L. apply wr_app_mid.
  - apply c_str_app. now apply enc_no_nul.
Qed.

Lemma Vli_head bias k ds v : Vli bias k ds v -> exists c ds', ds = c :: ds' /\ c <> 0.
Proof. intros [k' c d Dc _|k' c d ds' v' Dc _ _]; do 2 eexists; (split; [reflexivity|]); apply (proj2 (decode_digit_spec c) d Dc). Qed.

Lemma D_step ds rest i nd bias l v m : Vli bias 36 ds v ->
  bias <= 213 -> i <= max32 -> N.of_nat (length l) + 1 < 2 ^ 32 ->
  m = nd + (i + v) / (N.of_nat (length l) + 1) -> tcp m ->
  D (ds ++ rest) i nd bias l =
  if i + v <=? max32 then
    do bias' <- adapt v (N.of_nat (length l) + 1) (i =? 0);
    let p := (i + v) mod (N.of_nat (length l) + 1) in
    D rest (p + 1) m bias' (insert_at (utf8_enc m) (N.to_nat p) l)
  else Ok None.
Proof.
  intros E Hb Hi Hl Hm Tm. unfold D at 1. destruct (Vli_head _ _ _ _ E) as (c & ds' & -> & Hc).
  remember (length ((c :: ds') ++ rest)) as f. cbn [decode_loop]. cbn [app rd nth_error bind].
  rewrite (proj2 (N.eqb_neq c 0)) by auto.
  replace (c :: (ds' ++ rest) ++ [0]) with ((c :: ds') ++ rest ++ [0]) by (cbn; now rewrite app_assoc).
  rewrite (decode_vli bias (rest ++ [0]) Hb 36 (c :: ds') v E 12 1 i); auto; [|reflexivity|apply chk_start; auto|split; [lia|discriminate]].
  rewrite N.mul_1_r. cbn [bind]. destruct (N.leb_spec (i + v) max32) as [L|]; [|reflexivity].
  assert (L32 : i + v < 2 ^ 32) by (change (2 ^ 32) with 4294967296; change max32 with 4294967295 in L; lia).
  set (len2 := N.of_nat (length l) + 1) in *. assert (P : len2 <> 0) by (unfold len2; lia).
  replace (i + v - i) with v by lia. rewrite (w32_small v) by lia. rewrite (w32_small len2) by auto.
  destruct (adapt v len2 (i =? 0)) as [bias'| |]; cbn [bind]; auto.
  assert (B : m <= 0x10FFFF) by (apply code_cp_bound; apply Tm). rewrite (w32_small ((i + v) / len2)) by (change (2 ^ 32) with 4294967296; lia).
  rewrite <- Hm. rewrite (w32_small m) by (change (2 ^ 32) with 4294967296; lia).
  rewrite (proj2 (N.eqb_neq len2 0)) by auto. destruct (tempa_ok m Tm) as (b & -> & b' & W & C). cbn [bind]. rewrite W. cbn [bind]. rewrite C.
  assert (Lp : (i + v) mod len2 < len2) by (apply N.mod_lt; auto). rewrite (w32_small (_ + 1)) by lia.
  subst f. unfold D. apply decode_loop_fuel; cbn [length app]; rewrite ?app_length; lia.
Qed.

(** ** The decoder against the RFC *)

(** No overflow of 32 bits can happen on texts of this length. *)
Definition small (s : list N) : Prop := (N.of_nat (length s) + 1) * 0x110000 <= max32.

Lemma Rdec_incl n i bias first l t r : Rdec n i bias first l t r -> incl l r /\ (length l <= length r)%nat.
Proof.
  induction 1 as [|n i bias first l ds v bias' n' p rest r V A En Ep R [IH1 IH2]]; [split; [apply incl_refl|lia]|]. split.
  - intros c Hc. apply IH1. apply in_app_iff. rewrite <- (firstn_skipn (N.to_nat p) l) in Hc. apply in_app_iff in Hc. cbn [In]. tauto.
  - rewrite app_length in IH2. cbn [length] in IH2. rewrite <- (firstn_skipn (N.to_nat p) l), app_length. lia.
Qed.

Lemma Rdec_decodes n i bias first l t r : Rdec n i bias first l t r -> Forall tcp r -> N.of_nat (length r) + 2 < 2 ^ 32 ->
  bias <= 213 -> (first = true <-> i = 0) -> i <= N.of_nat (length l) ->
  D t i n bias (map utf8_enc l) = Ok (Some (map utf8_enc r)) \/ (D t i n bias (map utf8_enc l) = Ok None /\ ~ small r).
Proof.
  assert (M : max32 = 4294967295) by reflexivity. assert (M2 : 2 ^ 32 = 4294967296) by reflexivity.
  induction 1 as [|n i bias first l ds v bias' n' p rest r V A En Ep R IH]; intros T Hlen Hb Hf Hi.
  - left. reflexivity.
  - destruct (Rdec_incl _ _ _ _ _ _ _ R) as [I1 I2].
    assert (L2 : (length l + 1 <= length r)%nat).
    { rewrite app_length in I2. cbn [length] in I2. rewrite <- (firstn_skipn (N.to_nat p) l), app_length. lia. }
    assert (Tm : tcp n') by (rewrite Forall_forall in T; apply T, I1, in_app_iff; cbn; auto).
    assert (B : n' <= 0x10FFFF) by (apply code_cp_bound; apply Tm).
    assert (Lp : p < N.of_nat (length l) + 1) by (rewrite Ep; apply N.mod_lt; lia).
    rewrite (D_step ds rest i n bias (map utf8_enc l) v n' V Hb); rewrite ?map_length; auto; try lia.
    destruct (N.leb_spec (i + v) max32) as [L|L].
    + destruct (adapt_ok v (N.of_nat (length l) + 1) (i =? 0) ltac:(lia) ltac:(lia)) as (b2 & Ea & Hb2 & Ra). rewrite Ea. cbn [bind]. cbv zeta. rewrite <- Ep.
      assert (first = (i =? 0)) by (apply eq_true_iff_eq; rewrite N.eqb_eq; exact Hf). subst first.
      rewrite (rfc_adapt_fun _ _ _ _ _ Ra A) in *.
      replace (insert_at (utf8_enc n') (N.to_nat p) (map utf8_enc l)) with (map utf8_enc (firstn (N.to_nat p) l ++ n' :: skipn (N.to_nat p) l)).
      * apply IH; auto; try (split; [discriminate|lia]). rewrite app_length. cbn [length]. rewrite firstn_length, skipn_length. lia.
      * unfold insert_at. rewrite map_app. cbn [map]. now rewrite <- firstn_map, <- skipn_map.
    + right. split; auto. intros Sm. unfold small in Sm.
      assert (Eq : i + v = (N.of_nat (length l) + 1) * (n' - n) + p).
      { rewrite Ep, En. replace (n + (i + v) / (N.of_nat (length l) + 1) - n) with ((i + v) / (N.of_nat (length l) + 1)) by lia. apply N.div_mod. lia. }
      assert ((N.of_nat (length l) + 1) * (n' - n) <= N.of_nat (length r) * 0x10FFFF) by (apply N.mul_le_mono; lia). lia.
Qed.

(** ** The encoder against the RFC *)

(** Code points already in the decoder's list when the encoder handles [n] and
    has passed [pre]. *)
Definition done (n : N) (pre suf : list N) : list N := filter (fun c => c <=? n) pre ++ filter (fun c => c <? n) suf.
Definition nle (n : N) (pre : list N) : N := N.of_nat (length (filter (fun c => c <=? n) pre)).

Lemma filter_length {A} (f : A -> bool) l : (length (filter f l) <= length l)%nat.
Proof. induction l as [|x l IH]; cbn; [lia|]. destruct (f x); cbn; lia. Qed.

Lemma done_length n pre suf : (length (done n pre suf) <= length pre + length suf)%nat.
Proof.
  unfold done. rewrite app_length. pose proof (filter_length (fun c => c <=? n) pre). pose proof (filter_length (fun c => c <? n) suf). lia.
Qed.

Definition Inv (n : N) (pre suf : list N) (delta bias h b nd i : N) (l : list N) : Prop :=
  l = done n pre suf /\ h = N.of_nat (length l) /\ delta + i = (n - nd) * (h + 1) + nle n pre /\
  nd <= n /\ i <= h /\ (i = 0 <-> h = b) /\ b <= h /\ bias <= 213 /\ delta <= max32.

Lemma insert_done n pre suf : let p := length (filter (fun c => c <=? n) pre) in let l := done n pre (n :: suf) in
  firstn p l ++ n :: skipn p l = done n (pre ++ [n]) suf.
Proof.
  cbv zeta. unfold done. rewrite filter_app. cbn [filter]. rewrite N.ltb_irrefl, N.leb_refl.
  rewrite firstn_app, skipn_app, Nat.sub_diag, firstn_O, app_nil_r. cbn [skipn].
  rewrite firstn_all2, skipn_all2 by lia. cbn [app]. rewrite <- app_assoc. reflexivity.
Qed.

Lemma done_skip n pre c suf : c <> n -> done n (pre ++ [c]) suf = done n pre (c :: suf).
Proof.
  intros H. unfold done. rewrite filter_app. cbn [filter]. destruct (N.leb_spec c n), (N.ltb_spec c n); try lia; rewrite <- ?app_assoc; cbn [app]; rewrite ?app_nil_r; reflexivity.
Qed.

Lemma inner_ok n b s : tcp n -> N.of_nat (length s) + 2 < 2 ^ 32 -> forall suf pre delta bias h nd i l buf, s = pre ++ suf ->
  Inv n pre suf delta bias h b nd i l ->
  (encode_inner suf n delta bias h b buf = Ok None /\ ~ small s) \/
  exists out delta' bias' h' nd' i' l',
    encode_inner suf n delta bias h b buf = Ok (Some (delta', bias', h', buf ++ out)) /\ Forall pdigit out /\
    Inv n s [] delta' bias' h' b nd' i' l' /\ (In n suf \/ nd = n -> nd' = n) /\
    forall rest r, Rdec nd' i' bias' (h' =? b) l' rest r -> Rdec nd i bias (h =? b) l (out ++ rest) r.
Proof.
  intros Tn Hlen. assert (Bn : n <= 0x10FFFF) by (apply code_cp_bound; apply Tn). assert (M : max32 = 4294967295) by reflexivity. assert (M2 : 2 ^ 32 = 4294967296) by reflexivity.
  induction suf as [|c suf IH]; intros pre delta bias h nd i l buf Es I.
  - right. exists [], delta, bias, h, nd, i, l. rewrite app_nil_r in *. subst pre. split; [auto|]. split; [constructor|]. split; [exact I|]. split; [intros [[]|]; auto|auto].
  - destruct I as (El & Eh & Ed & Hnd & Hi & Hb & Hbh & Hbias & Hdelta). cbn [encode_inner].
    assert (Ll : (length l <= length s)%nat).
    { rewrite El, Es, app_length. apply done_length. }
    assert (Np : nle n pre <= h).
    { rewrite Eh, El. unfold done, nle. rewrite app_length. lia. }
    assert (Es' : s = (pre ++ [c]) ++ suf) by (now rewrite <- app_assoc).
    destruct (N.ltb_spec c n) as [Hc|Hc]; [|destruct (N.ltb_spec n c) as [Hc'|Hc']].
    + (* smaller: counted *)
      destruct (N.eqb_spec delta max32) as [Dm|Dm].
      * left. split; auto. intros Sm. unfold small in Sm.
        assert ((n - nd) * (h + 1) <= 0x10FFFF * (N.of_nat (length s) + 1)) by (apply N.mul_le_mono; lia). lia.
      * rewrite w32_small by lia. destruct (IH (pre ++ [c]) (delta + 1) bias h nd i l buf Es') as [F|(out & d' & b' & h' & nd' & i' & l' & E & Po & I' & N' & R)].
        -- split; [rewrite done_skip by lia; auto|]. unfold nle. rewrite filter_app, app_length. cbn [filter]. replace (c <=? n) with true by lia. cbn [length].
           unfold nle in Ed. repeat split; auto; try lia; apply Hb.
        -- left. exact F.
        -- right. exists out, d', b', h', nd', i', l'. repeat (split; [auto; fail|]). split; [|auto]. intros [[X|X]|X]; [lia|auto|auto].
    + (* larger: left out *)
      destruct (IH (pre ++ [c]) delta bias h nd i l buf Es') as [F|(out & d' & b' & h' & nd' & i' & l' & E & Po & I' & N' & R)].
      * split; [rewrite done_skip by lia; auto|]. unfold nle. rewrite filter_app, app_length. cbn [filter]. replace (c <=? n) with false by lia. cbn [length].
        unfold nle in Ed. rewrite Nat.add_0_r. repeat split; auto; try lia; apply Hb.
      * left. exact F.
      * right. exists out, d', b', h', nd', i', l'. repeat (split; [auto; fail|]). split; [|auto]. intros [[X|X]|X]; [lia|auto|auto].
    + (* the code point itself *)
      assert (c = n) by lia. subst c. clear Hc Hc'.
      assert (Ll1 : (length l + 1 <= length s)%nat).
      { rewrite El, Es, app_length. unfold done. rewrite app_length. cbn [filter length]. rewrite N.ltb_irrefl.
        pose proof (filter_length (fun c => c <=? n) pre). pose proof (filter_length (fun c => c <? n) suf). lia. }
      destruct (encode_int_total bias Hbias 32 delta 36) as (ds & Eds & Dne & Dd); [change (2 ^ N.of_nat 32) with 4294967296; lia|].
      rewrite Eds. cbn [bind]. rewrite (w32_small (h + 1)) by lia.
      destruct (adapt_ok delta (h + 1) (h =? b) Hdelta ltac:(lia)) as (bias2 & Ea & Hb2 & Ra). rewrite Ea. cbn [bind].
      set (p := nle n pre) in *.
      assert (Eq : i + delta = (h + 1) * (n - nd) + p) by lia.
      assert (Qd : (i + delta) / (h + 1) = n - nd) by (symmetry; apply N.div_unique with p; [lia|auto]).
      assert (Qm : (i + delta) mod (h + 1) = p) by (symmetry; apply N.mod_unique with (n - nd); [lia|auto]).
      destruct (IH (pre ++ [n]) 0 bias2 (h + 1) n (p + 1) (done n (pre ++ [n]) suf) (buf ++ ds) Es')
        as [F|(out & d' & b' & h' & nd' & i' & l' & E & Po & I' & N' & R)].
      * split; [auto|]. split; [|split; [|split; [|split; [|split; [|split; [|split]]]]]].
        -- unfold done. rewrite filter_app, !app_length. cbn [filter]. rewrite N.leb_refl. cbn [length].
           rewrite Eh, El. unfold done. rewrite app_length. cbn [filter]. rewrite N.ltb_irrefl. lia.
        -- unfold nle. rewrite filter_app, app_length. cbn [filter]. rewrite N.leb_refl. cbn [length]. unfold p, nle. lia.
        -- lia.
        -- lia.
        -- split; lia.
        -- lia.
        -- exact Hb2.
        -- lia.
      * left. exact F.
      * right. exists (ds ++ out), d', b', h', nd', i', l'. rewrite app_assoc. split; [auto|]. split; [apply Forall_app; auto|]. split; [auto|]. split; [auto|].
        intros rest r Rr. rewrite <- app_assoc. apply R in Rr.
        apply R_step with (v := delta) (bias' := bias2) (n' := n) (p := p).
        -- apply encode_vli with (fuel := 33%nat); auto. reflexivity.
        -- rewrite <- Eh. exact Ra.
        -- rewrite <- Eh, Qd. lia.
        -- rewrite <- Eh, Qm. reflexivity.
        -- replace (firstn (N.to_nat p) l ++ n :: skipn (N.to_nat p) l) with (done n (pre ++ [n]) suf).
           ++ replace (h + 1 =? b) with false in Rr by lia. exact Rr.
           ++ unfold p, nle. rewrite Nat2N.id, El. symmetry. apply insert_done.
Qed.

Lemma filter_ext_all {A} (f g : A -> bool) l : (forall x, In x l -> f x = g x) -> filter f l = filter g l.
Proof. intros H. apply filter_ext_in. exact H. Qed.
Lemma filter_all {A} (f : A -> bool) l : (forall x, In x l -> f x = true) -> filter f l = l.
Proof. induction l as [|x l IH]; intros H; cbn; auto. rewrite H by (cbn; auto). rewrite IH; auto. intros y Hy. apply H. cbn; auto. Qed.

(** Strictly ascending from [n] on. *)
Fixpoint asc (n : N) (l : list N) : Prop :=
  match l with
  | [] => True
  | x :: l' => n <= x /\ asc (x + 1) l'
  end.

Lemma outer_ok b s : Forall tcp s -> N.of_nat (length s) + 2 < 2 ^ 32 -> forall nb n delta bias h nd i l buf,
  asc n nb -> (forall c, In c s -> c < n \/ In c nb) -> (forall c, In c nb -> In c s) ->
  Inv n [] s delta bias h b nd i l ->
  (encode_outer nb s n delta bias h b buf = Ok None /\ ~ small s) \/
  exists out, encode_outer nb s n delta bias h b buf = Ok (Some (buf ++ out)) /\ Forall pdigit out /\
    Rdec nd i bias (h =? b) l out s.
Proof.
  intros Ts Hlen. assert (M : max32 = 4294967295) by reflexivity. assert (M2 : 2 ^ 32 = 4294967296) by reflexivity. rewrite Forall_forall in Ts.
  induction nb as [|m nb IH]; intros n delta bias h nd i l buf A C1 C2 I.
  - right. exists []. rewrite app_nil_r. split; [reflexivity|]. split; [constructor|]. destruct I as (-> & _). unfold done. cbn [filter app].
    rewrite filter_all; [constructor|]. intros c Hc. destruct (C1 c Hc) as [X|[]]. lia.
  - cbn [encode_outer]. destruct I as (El & Eh & Ed & Hnd & Hi & Hb & Hbh & Hbias & Hdelta). cbn [asc] in A. destruct A as [A1 A2].
    assert (Tm : tcp m) by (apply Ts, C2; cbn; auto). assert (Bm : m <= 0x10FFFF) by (apply code_cp_bound; apply Tm).
    assert (Ll : (length l <= length s)%nat).
    { rewrite El. pose proof (done_length n [] s). cbn in *. lia. }
    rewrite (w32_small (h + 1)) by lia. replace (h + 1 =? 0) with false by lia. rewrite sub32_ok by lia.
    rewrite div_lt_iff by lia. unfold nle in Ed. cbn [filter length] in Ed.
    assert (Em : delta + (m - n) * (h + 1) + i = (m - nd) * (h + 1)).
    { replace (m - nd) with ((m - n) + (n - nd)) by lia. rewrite N.mul_add_distr_r. lia. }
    destruct (N.ltb_spec (max32 - delta) ((m - n) * (h + 1))) as [L|L].
    + left. split; auto. intros Sm. unfold small in Sm.
      assert ((m - nd) * (h + 1) <= 0x10FFFF * (N.of_nat (length s) + 1)) by (apply N.mul_le_mono; lia). lia.
    + rewrite w32_small by lia.
      destruct (inner_ok m b s Tm Hlen s [] (delta + (m - n) * (h + 1)) bias h nd i l buf eq_refl)
        as [[F S']|(out & d' & bias' & h' & nd' & i' & l' & E & Po & I' & N' & R)].
      * split; [|split; [auto|split; [|split; [|split; [|split; [|split; [|split]]]]]]]; auto; try lia.
        -- rewrite El. unfold done. cbn [filter app]. apply filter_ext_all. intros c Hc. destruct (C1 c Hc) as [X|[X|X]]; [lia|lia|].
           assert (m + 1 <= c); [|lia]. clear - A2 X. revert A2 X. generalize (m + 1). induction nb as [|y nb IHn]; intros z A X; [destruct X|].
           cbn in *. destruct A as [A1 A2]. destruct X as [->|X]; [lia|]. specialize (IHn _ A2 X). lia.
        -- unfold nle. cbn [filter length]. lia.
      * left. rewrite F. auto.
      * rewrite E. cbn [bind]. assert (nd' = m) by (apply N'; left; apply C2; cbn; auto). subst nd'.
        destruct I' as (El' & Eh' & Ed' & Hnd' & Hi' & Hb' & Hbh' & Hbias' & Hdelta').
        assert (Lh : h' = nle m s).
        { rewrite Eh', El'. unfold done, nle. cbn [filter]. rewrite app_nil_r. reflexivity. }
        assert (Ls : nle m s <= N.of_nat (length s)).
        { unfold nle. pose proof (filter_length (fun c => c <=? m) s). lia. }
        rewrite N.sub_diag, N.mul_0_l in Ed'.
        rewrite (w32_small (m + 1)) by lia. rewrite (w32_small (d' + 1)) by lia.
        destruct (IH (m + 1) (d' + 1) bias' h' m i' l' (buf ++ out)) as [[F S']|(out2 & E2 & Po2 & R2)].
        -- exact A2.
        -- intros c Hc. destruct (C1 c Hc) as [X|[X|X]]; auto; left; lia.
        -- intros c Hc. apply C2. cbn; auto.
        -- split; [|split; [auto|split; [|split; [|split; [|split; [|split; [|split]]]]]]]; auto; try lia.
           ++ rewrite El'. unfold done. cbn [filter app]. rewrite app_nil_r. apply filter_ext_all. intros c _. lia.
           ++ unfold nle at 1. cbn [filter length]. replace (m + 1 - m) with 1 by lia. lia.
        -- left. auto.
        -- right. exists (out ++ out2). rewrite app_assoc. split; [auto|]. split; [apply Forall_app; auto|]. apply R. exact R2.
Qed.

(** ** Sorted set of the others *)

Lemma set_insert_in x l y : In y (set_insert x l) <-> y = x \/ In y l.
Proof.
  induction l as [|z l IH]; cbn [set_insert In].
  - split; intros [H|[]]; auto.
  - destruct (x <? z).
    + cbn [In]. split; intros [H|H]; auto.
    + destruct (N.eqb_spec x z) as [->|].
      * cbn [In]. split; [tauto|]. intros [->|H]; auto.
      * cbn [In]. rewrite IH. tauto.
Qed.
Lemma set_insert_asc x l : forall n, n <= x -> asc n l -> asc n (set_insert x l).
Proof.
  induction l as [|y l IH]; intros n H A; cbn [set_insert asc] in *; [tauto|]. destruct A as [A1 A2].
  destruct (N.ltb_spec x y); [cbn [asc]; repeat split; auto; lia|]. destruct (N.eqb_spec x y); [cbn [asc]; auto|]. cbn [asc]. split; auto. apply IH; auto. lia.
Qed.

Lemma non_basic_ok s : forall l, asc 128 l ->
  let l' := fold_left (fun l c => if c <? 0x80 then l else set_insert c l) s l in
  asc 128 l' /\ forall c, In c l' <-> In c l \/ (In c s /\ 128 <= c).
Proof.
  induction s as [|c s IH]; intros l A; cbn [fold_left].
  - split; auto. intros c. cbn. intuition.
  - destruct (N.ltb_spec c 128).
    + destruct (IH l A) as [B1 B2]. split; auto. intros d. rewrite B2. cbn [In]. intuition (subst; lia || auto).
    + destruct (IH (set_insert c l)) as [B1 B2]; [apply set_insert_asc; auto|]. split; auto. intros d. rewrite B2, set_insert_in. cbn [In]. intuition (subst; auto).
Qed.

(** ** Strings *)

Lemma code_points_text cps z : Forall tcp cps -> forall f, (length cps < f)%nat -> code_points f (Some (utf8_text cps ++ 0 :: z)) = Ok cps.
Proof.
  induction 1 as [|c cps H F IH]; intros f Hf; (destruct f as [|f]; [cbn in Hf; lia|]); cbn [code_points]; [reflexivity|].
  destruct (text_head c cps (0 :: z) H) as (x & -> & Ex). cbn [bind]. rewrite Ex. rewrite text_cons, <- app_assoc, get_cp_enc by apply H.
  cbn [bind uerr_ok]. rewrite IH by (cbn in Hf; lia). reflexivity.
Qed.

Lemma enc_ascii c : c < 128 -> utf8_enc c = [c].
Proof. intros H. unfold utf8_enc. replace (c <? 128) with true by lia. reflexivity. Qed.

Lemma ascii_text cps : forallb (fun c => c <? 128) (utf8_text cps) = true -> Forall (fun c => c < 128) cps /\ utf8_text cps = cps.
Proof.
  induction cps as [|c cps IH]; intros H; [split; [constructor|reflexivity]|]. rewrite text_cons in *. rewrite forallb_app in H. apply andb_true_iff in H. destruct H as [H1 H2].
  destruct (IH H2) as [A B]. assert (L : c < 128).
  { unfold utf8_enc in H1. destruct (N.ltb_spec c 128); auto. exfalso. destruct (c <? 2048); [|destruct (c <? 65536)]; cbn [forallb] in H1; apply andb_true_iff in H1; destruct H1 as [H1 _]; apply N.ltb_lt in H1; lia. }
  split; [constructor; auto|]. rewrite enc_ascii, B by auto. reflexivity.
Qed.

Lemma text_ascii l : Forall (fun c => c < 128) l -> map utf8_enc l = map (fun c => [c]) l.
Proof. induction 1 as [|c l H F IH]; [reflexivity|]. cbn [map]. now rewrite IH, enc_ascii. Qed.

Lemma forallb_ascii l : forallb (fun c => c <? 128) l = true <-> Forall (fun c => c < 128) l.
Proof. rewrite forallb_forall, Forall_forall. split; intros H x Hx; specialize (H x Hx); lia. Qed.

Lemma rsplit_none s : ~ In 45 s -> rsplit s = None.
Proof.
  induction s as [|c s IH]; intros H; [reflexivity|]. cbn [rsplit]. rewrite IH by (intros X; apply H; now right).
  destruct (N.eqb_spec c 45) as [->|]; [|reflexivity]. exfalso. apply H. now left.
Qed.
Lemma rsplit_app a s : ~ In 45 s -> rsplit (a ++ 45 :: s) = Some (a, s).
Proof.
  intros H. induction a as [|c a IH]; cbn [app rsplit]; [now rewrite rsplit_none|]. now rewrite IH.
Qed.

Lemma pdigit_ok out : Forall pdigit out -> ~ In 45 out /\ Forall (fun c => c < 128) out.
Proof.
  intros F. split.
  - intros H. rewrite Forall_forall in F. destruct (F _ H); lia.
  - eapply Forall_impl; [|exact F]. unfold pdigit. intros; lia.
Qed.

Lemma Rdec_ascii n i bias first l t r : Rdec n i bias first l t r -> Forall (fun c => c < 128) t.
Proof.
  assert (V : forall bias k ds v, Vli bias k ds v -> Forall (fun c => c < 128) ds).
  { induction 1 as [k c d Dc _|k c d ds v Dc _ _ IH]; constructor; auto; apply (proj2 (decode_digit_spec c) d Dc). }
  induction 1 as [|n i bias first l ds v bias' n' p rest r Hv A En Ep R IH]; [constructor|]. apply Forall_app. split; auto. apply (V _ _ _ _ Hv).
Qed.

Lemma encode_text cps : Forall tcp cps -> N.of_nat (length cps) + 2 < 2 ^ 32 ->
  (puny_encode (utf8_text cps) = Ok PFail /\ ~ small cps) \/
  exists t, puny_encode (utf8_text cps) = Ok (PSuccess t) /\ Forall (fun c => c < 128) t /\ Rfc t cps.
Proof.
  intros T L. unfold puny_encode. destruct (forallb (fun c => c <? 128) (utf8_text cps)) eqn:A.
  - right. destruct (ascii_text _ A) as [F E]. rewrite E. exists (cps ++ [45]). split; [reflexivity|]. split.
    + apply Forall_app. split; auto. repeat constructor.
    + exists cps, []. split; [now left|]. split; [intros []|]. split; auto. constructor.
  - rewrite is_valid_good by auto. cbn [bind negb].
    rewrite code_points_text by (auto; pose proof (text_len_ge cps); lia). cbn [bind]. unfold encode_cps.
    pose proof (non_basic_ok cps [] I) as N0. cbv zeta in N0. set (nb := fold_left _ cps []) in *. destruct N0 as [Na Ni].
    set (basic := filter (fun c => c <? 0x80) cps). pose proof (filter_length (fun c => c <? 0x80) cps) as FL. fold basic in FL.
    rewrite (w32_small (N.of_nat (length basic))) by lia.
    assert (Fb : Forall (fun c => c < 128) basic) by (apply Forall_forall; intros c Hc; apply filter_In in Hc; lia).
    destruct (outer_ok (N.of_nat (length basic)) cps T L nb 128 0 72 (N.of_nat (length basic)) 128 0 basic
      (if N.of_nat (length basic) =? 0 then basic else basic ++ [45])) as [[-> S]|(out & -> & P & R)]; auto.
    + intros c Hc. destruct (N.lt_ge_cases c 128); [now left|right]. apply Ni. auto.
    + intros c Hc. apply Ni in Hc. destruct Hc as [[]|[]]. auto.
    + unfold Inv, done, nle. cbn [filter app length]. fold basic. split; [reflexivity|]. split; [reflexivity|]. repeat split; intros; try lia; discriminate.
    + right. rewrite N.eqb_refl in R. destruct (pdigit_ok _ P) as [P1 P2]. cbn [bind]. eexists. split; [reflexivity|].
      destruct (N.eqb_spec (N.of_nat (length basic)) 0) as [Z|NZ].
      * destruct basic; [|discriminate]. cbn [app]. split; auto. exists [], out. auto.
      * rewrite <- app_assoc. cbn [app]. split; [apply Forall_app; split; [|constructor]; auto; lia|]. exists basic, out. auto.
Qed.

Lemma decode_text t cps : Rfc t cps -> Forall tcp cps -> N.of_nat (length cps) + 2 < 2 ^ 32 ->
  puny_decode t = Ok (PSuccess (utf8_text cps)) \/ (puny_decode t = Ok PFail /\ ~ small cps).
Proof.
  intros (basic & ext & E & NI & Fb & R) T L. pose proof (Rdec_ascii _ _ _ _ _ _ _ R) as Fx.
  assert (A : forallb (fun c => c <? 128) t = true).
  { apply forallb_ascii. destruct E as [->|[-> ->]]; auto. apply Forall_app. split; auto. constructor; auto. reflexivity. }
  unfold puny_decode. rewrite A. cbn [negb].
  assert (Sp : match rsplit t with Some (a, b) => (a, b) | None => ([], t) end = (basic, ext)).
  { destruct E as [->|[-> ->]]; [now rewrite rsplit_app|now rewrite rsplit_none]. }
  rewrite Sp. rewrite <- text_ascii by auto.
  destruct (Rdec_decodes _ _ _ _ _ _ _ R T L) as [Q|[Q S]]; try lia; try (split; auto); unfold D in Q; rewrite Q; cbn [bind]; auto.
Qed.

(** The table-driven CRCs compute remainders of polynomial division. *)
From Verif Require Import Base.Lib Base.Mem MemFn.Model MemFn.Spec.
Local Open Scope N_scope.

(** ** Linearity *)

Lemma xorl_length : forall a b, length a = length b -> length (xorl a b) = length a.
Proof. induction a as [|x a IH]; intros [|y b] H; cbn in *; auto; lia. Qed.
Lemma xorl_app : forall a a' b b', length a = length b -> xorl (a ++ a') (b ++ b') = xorl a b ++ xorl a' b'.
Proof. induction a as [|x a IH]; intros a' [|y b] b' H; cbn in *; auto; try lia. f_equal. apply IH. lia. Qed.
Lemma xorl_comm : forall a b, xorl a b = xorl b a.
Proof. induction a as [|x a IH]; intros [|y b]; cbn; auto. rewrite xorb_comm, IH. auto. Qed.
Lemma xorl_assoc : forall a b c, xorl (xorl a b) c = xorl a (xorl b c).
Proof. induction a as [|x a IH]; intros [|y b] [|z c]; cbn; auto. rewrite xorb_assoc, IH. auto. Qed.
Lemma xorl_zeros : forall a, xorl a (zeros (length a)) = a.
Proof. unfold zeros. induction a as [|x a IH]; cbn; auto. rewrite xorb_false_r, IH. auto. Qed.
Lemma xorl_self : forall a, xorl a a = zeros (length a).
Proof. unfold zeros. induction a as [|x a IH]; cbn; auto. rewrite xorb_nilpotent, IH. auto. Qed.
Lemma xorl_swap a b c d : xorl (xorl a b) (xorl c d) = xorl (xorl a c) (xorl b d).
Proof. rewrite !xorl_assoc. f_equal. rewrite <- !xorl_assoc. f_equal. apply xorl_comm. Qed.

Section Div.
Context (poly : list bool).
Hypothesis Hw : poly <> [].
Notation w := (length poly).

Lemma divstep_length r b : length r = w -> length (divstep poly r b) = w.
Proof.
  intros H. destruct r as [|t r]; cbn in *; auto. destruct t; rewrite ?xorl_length; rewrite app_length; cbn; lia.
Qed.
Lemma divide_length : forall m r, length r = w -> length (divide poly r m) = w.
Proof. induction m as [|b m IH]; intros r H; cbn; auto. apply IH, divstep_length; auto. Qed.

Lemma divstep_lin r r' b b' : length r = w -> length r' = w ->
  divstep poly (xorl r r') (xorb b b') = xorl (divstep poly r b) (divstep poly r' b').
Proof.
  intros H H'. destruct r as [|t r]; [reflexivity|]. destruct r' as [|t' r'].
  { destruct poly; [congruence|discriminate]. }
  cbn [xorl divstep]. assert (L : length r = length r') by (cbn in *; lia).
  assert (E : xorl r r' ++ [xorb b b'] = xorl (r ++ [b]) (r' ++ [b'])) by now rewrite xorl_app.
  assert (Lr : length (r ++ [b]) = w) by (rewrite app_length; cbn in *; lia).
  assert (Lr' : length (r' ++ [b']) = w) by (rewrite app_length; cbn in *; lia).
  rewrite E. destruct t, t'; cbn [xorb].
  - rewrite xorl_swap, xorl_self. rewrite <- (xorl_zeros (xorl (r ++ [b]) (r' ++ [b']))) at 1.
    rewrite xorl_length by lia. now rewrite Lr.
  - rewrite !xorl_assoc. f_equal. apply xorl_comm.
  - now rewrite xorl_assoc.
  - reflexivity.
Qed.
Lemma divide_lin : forall m m' r r', length m = length m' -> length r = w -> length r' = w ->
  divide poly (xorl r r') (xorl m m') = xorl (divide poly r m) (divide poly r' m').
Proof.
  induction m as [|b m IH]; intros [|b' m'] r r' Hm H H'; cbn in *; auto; try lia.
  rewrite divstep_lin by auto. apply IH; try apply divstep_length; auto.
Qed.
Lemma divide_app r a b : divide poly r (a ++ b) = divide poly (divide poly r a) b.
Proof. apply fold_left_app. Qed.

(** Shifting [w] bits into an empty register only loads them. *)
Lemma divide_load : forall m n, (n + length m = w)%nat -> forall r, length r = n ->
  divide poly (zeros (length m) ++ r) m = r ++ m.
Proof.
  induction m as [|b m IH]; intros n H r Hr; cbn [length] in *.
  - cbn. now rewrite app_nil_r.
  - cbn [zeros repeat app divide fold_left divstep].
    specialize (IH (S n) ltac:(lia) (r ++ [b]) ltac:(rewrite app_length; cbn; lia)).
    unfold divide in IH. unfold zeros in *. rewrite <- app_assoc. rewrite IH. rewrite <- app_assoc. reflexivity.
Qed.
End Div.

(** ** The recurrence a byte-wise CRC has to satisfy *)

Lemma msg_bits_length lsb s : length (msg_bits lsb s) = (8 * length s)%nat.
Proof.
  unfold msg_bits. induction s as [|b s IH]; [reflexivity|]. cbn [map concat]. rewrite app_length, IH.
  assert (L : forall k n, length (bits k n) = k) by (induction k; intros; cbn; auto).
  destruct lsb; rewrite ?rev_length, L; cbn [length]; lia.
Qed.

Definition feed (poly : list bool) (v : list bool) : list bool := divide poly v (zeros 8).
Definition contrib (poly : list bool) (lsb : bool) (b : N) : list bool :=
  poly_rem poly (msg_bits lsb [b] ++ zeros (length poly)).

Lemma crc_rem_snoc poly init lsb s b : poly <> [] -> length init = length poly ->
  crc_rem poly init lsb (s ++ [b]) = xorl (feed poly (crc_rem poly init lsb s)) (contrib poly lsb b).
Proof.
  intros Hp Hi. unfold crc_rem, poly_rem.
  set (w := length poly) in *.
  assert (Z : xorl (zeros w) (zeros w) = zeros w).
  { pose proof (xorl_zeros (zeros w)) as Q. unfold zeros in *. now rewrite repeat_length in Q. }
  assert (Lz : forall n, length (zeros n) = n) by (intros; apply repeat_length).
  assert (Split : forall t, divide poly (zeros w) (xorl (msg_bits lsb t ++ zeros w) (init ++ zeros (8 * length t))) =
     xorl (divide poly (zeros w) (msg_bits lsb t ++ zeros w)) (divide poly init (zeros (8 * length t)))).
  { intros t. rewrite <- Z at 1. rewrite divide_lin; auto.
    - f_equal. rewrite divide_app. f_equal. pose proof (divide_load poly init O) as Q. cbn [Nat.add] in Q.
      specialize (Q Hi [] eq_refl). rewrite app_nil_r in Q. cbn [app] in Q. rewrite Hi in Q. exact Q.
    - rewrite !app_length, msg_bits_length, !Lz. lia. }
  rewrite !Split. unfold feed, contrib, poly_rem. fold w.
  (* the initial register *)
  assert (EI : divide poly init (zeros (8 * length (s ++ [b]))) = feed poly (divide poly init (zeros (8 * length s)))).
  { unfold feed. rewrite <- divide_app. f_equal. unfold zeros. rewrite <- repeat_app. f_equal. rewrite app_length. cbn. lia. }
  rewrite EI. unfold feed.
  (* the message *)
  set (r := divide poly (zeros w) (msg_bits lsb s)).
  assert (Lr : length r = w) by (apply divide_length; auto).
  assert (EM : divide poly (zeros w) (msg_bits lsb (s ++ [b]) ++ zeros w) =
     xorl (divide poly (divide poly r (zeros w)) (zeros 8)) (divide poly (zeros w) (msg_bits lsb [b] ++ zeros w))).
  { assert (A : msg_bits lsb (s ++ [b]) = msg_bits lsb s ++ msg_bits lsb [b]).
    { unfold msg_bits. now rewrite map_app, concat_app. }
    rewrite A, <- app_assoc, divide_app. fold r.
    rewrite <- divide_app.
    replace (zeros w ++ zeros 8) with (zeros (length (msg_bits lsb [b] ++ zeros w))).
    2:{ unfold zeros. rewrite <- repeat_app, app_length, msg_bits_length, repeat_length. f_equal. cbn. lia. }
    rewrite <- divide_lin; auto.
    - f_equal; [|now rewrite xorl_comm, xorl_zeros].
      rewrite <- Lr. symmetry. apply xorl_zeros. }
  rewrite EM, (divide_app poly (zeros w) (msg_bits lsb s) (zeros w)). fold r.
  set (A := divide poly r (zeros w)) in *. set (B := divide poly init (zeros (8 * length s))).
  assert (LA : length A = w) by (apply divide_length; auto). assert (LB : length B = w) by (apply divide_length; auto).
  replace (divide poly (xorl A B) (zeros 8)) with (xorl (divide poly A (zeros 8)) (divide poly B (zeros 8))).
  2:{ rewrite <- divide_lin; auto. }
  rewrite !xorl_assoc. f_equal. apply xorl_comm.
Qed.

Lemma crc_rem_nil poly init lsb : poly <> [] -> length init = length poly -> crc_rem poly init lsb [] = init.
Proof.
  intros Hp Hi. unfold crc_rem, poly_rem. cbn [msg_bits map concat app length]. rewrite Nat.mul_0_r. cbn [zeros repeat].
  rewrite app_nil_r, xorl_comm, <- Hi, xorl_zeros.
  pose proof (divide_load poly init O Hi [] eq_refl) as Q. rewrite app_nil_r in Q. exact Q.
Qed.

(** ** Numbers and bits *)

Lemma bits_length : forall k n, length (bits k n) = k.
Proof. induction k; intros; cbn; auto. Qed.
Lemma bits_lxor : forall k a b, bits k (N.lxor a b) = xorl (bits k a) (bits k b).
Proof. induction k; intros; cbn; auto. now rewrite N.lxor_spec, IHk. Qed.
Lemma rev_xorl a b : length a = length b -> rev (xorl a b) = xorl (rev a) (rev b).
Proof.
  revert b. induction a as [|x a IH]; intros [|y b] H; cbn in *; auto; try lia.
  rewrite xorl_app by (rewrite !rev_length; lia). rewrite IH by lia. reflexivity.
Qed.

Definition listb_eqb (a b : list bool) : bool := if list_eq_dec bool_dec a b then true else false.
Lemma listb_eqb_eq a b : listb_eqb a b = true -> a = b.
Proof. unfold listb_eqb. destruct (list_eq_dec bool_dec a b); congruence. Qed.

Definition tab (t : list N) (i : N) : N := nth (N.to_nat i) t 0.
Lemma tab_rd (t : list N) i : length t = 256%nat -> is_byte i -> rd t (N.to_nat i) = Ok (tab t i).
Proof.
  intros L Hi. unfold is_byte in Hi. unfold rd, tab. rewrite (nth_error_nth' t 0) by lia. reflexivity.
Qed.
(** Two nested sweeps over the bytes. *)
Lemma byte_sweep2 (P : N -> N -> bool) :
  forallb (fun a => forallb (P a) byte_list) byte_list = true -> forall a b, is_byte a -> is_byte b -> P a b = true.
Proof.
  intros H a b Ha Hb. apply (byte_sweep (P a)); auto. now apply (byte_sweep (fun a => forallb (P a) byte_list)).
Qed.
Lemma tab_lin t : forallb (fun a => forallb (fun b => tab t (N.lxor a b) =? N.lxor (tab t a) (tab t b)) byte_list) byte_list = true ->
  forall a b, is_byte a -> is_byte b -> tab t (N.lxor a b) = N.lxor (tab t a) (tab t b).
Proof. intros H a b Ha Hb. apply N.eqb_eq. exact (byte_sweep2 _ H a b Ha Hb). Qed.
Lemma lxor_byte a b : is_byte a -> is_byte b -> is_byte (N.lxor a b).
Proof.
  unfold is_byte. change 256 with (2 ^ 8). intros Ha Hb.
  destruct (N.eq_dec (N.lxor a b) 0) as [->|Z]; [cbn; lia|].
  apply N.log2_lt_pow2; [lia|]. eapply N.le_lt_trans; [apply N.log2_lxor|].
  assert (forall x, x < 2 ^ 8 -> N.log2 x < 8) as Q.
  { intros x Hx. destruct (N.eq_dec x 0) as [->|]; [cbn; lia|]. apply N.log2_lt_pow2; lia. }
  apply N.max_lub_lt; auto.
Qed.

(** ** CRC-8: x^8 + x^2 + x + 1, no initial value *)

Definition poly8 := bits 8 7.
Lemma crc8_tab_ok : forall b, is_byte b ->
  bits 8 (tab crc8_table b) = feed poly8 (bits 8 b) /\ bits 8 (tab crc8_table b) = contrib poly8 false b /\ tab crc8_table b < 256.
Proof.
  intros b Hb.
  assert (S : (listb_eqb (bits 8 (tab crc8_table b)) (feed poly8 (bits 8 b)) &&
    listb_eqb (bits 8 (tab crc8_table b)) (contrib poly8 false b) && (tab crc8_table b <? 256)) = true).
  { apply (byte_sweep (fun b => listb_eqb (bits 8 (tab crc8_table b)) (feed poly8 (bits 8 b)) &&
      listb_eqb (bits 8 (tab crc8_table b)) (contrib poly8 false b) && (tab crc8_table b <? 256))); [vm_compute; reflexivity|assumption]. }
  apply andb_true_iff in S. destruct S as [S S3]. apply andb_true_iff in S. destruct S as [S1 S2].
  split; [|split]; auto using listb_eqb_eq. now apply N.ltb_lt.
Qed.
Lemma crc8_lin : forall a b, is_byte a -> is_byte b -> tab crc8_table (N.lxor a b) = N.lxor (tab crc8_table a) (tab crc8_table b).
Proof. apply tab_lin. vm_compute. reflexivity. Qed.

Lemma crc8_loop_ok init : length init = 8%nat -> forall s d val, is_bytes s -> is_byte val -> bits 8 val = crc_rem poly8 init false d ->
  exists v, crc8_loop s val = Ok v /\ is_byte v /\ bits 8 v = crc_rem poly8 init false (d ++ s).
Proof.
  intros Li. induction s as [|b s IH]; intros d val Hs Hv E; cbn [crc8_loop].
  - exists val. rewrite app_nil_r. auto.
  - inversion Hs as [|? ? Hb Hs']; subst.
    rewrite tab_rd by (auto using lxor_byte). cbn [bind].
    destruct (IH (d ++ [b]) (tab crc8_table (N.lxor val b))) as (v & Ev & Bv & Rv); auto.
    + apply crc8_tab_ok. now apply lxor_byte.
    + rewrite crc8_lin, bits_lxor by auto. rewrite crc_rem_snoc by (auto; discriminate).
      destruct (crc8_tab_ok val Hv) as (-> & _). destruct (crc8_tab_ok b Hb) as (_ & -> & _). now rewrite E.
    + exists v. rewrite <- app_assoc in Rv. auto.
Qed.
Lemma crc8_ok s : is_bytes s -> exists v, crc8 s = Ok v /\ v < 2 ^ 8 /\ bits 8 v = crc_rem poly8 (zeros 8) false s.
Proof.
  intros Hs. destruct (crc8_loop_ok (zeros 8) eq_refl s [] 0 Hs) as (v & E & B & R).
  - unfold is_byte. lia.
  - reflexivity.
  - exists v. split; [|auto]. destruct s; auto.
Qed.

(** ** CRC-16/CCITT-FALSE: x^16 + x^12 + x^5 + 1, initial value all ones *)

Definition poly16 := bits 16 0x1021.
Lemma feed_lin poly a b : poly <> [] -> length a = length poly -> length b = length poly ->
  feed poly (xorl a b) = xorl (feed poly a) (feed poly b).
Proof. intros Hp Ha Hb. unfold feed. rewrite <- divide_lin by auto. reflexivity. Qed.

Lemma crc16_tab_ok : forall b, is_byte b ->
  bits 16 (tab crc16_table b) = feed poly16 (bits 16 (N.shiftl b 8)) /\ bits 16 (tab crc16_table b) = contrib poly16 false b /\
  tab crc16_table b < 2 ^ 16 /\ feed poly16 (bits 16 b) = bits 16 (N.shiftl b 8).
Proof.
  intros b Hb.
  assert (S : (listb_eqb (bits 16 (tab crc16_table b)) (feed poly16 (bits 16 (N.shiftl b 8))) &&
    listb_eqb (bits 16 (tab crc16_table b)) (contrib poly16 false b) && (tab crc16_table b <? 2 ^ 16) &&
    listb_eqb (feed poly16 (bits 16 b)) (bits 16 (N.shiftl b 8))) = true).
  { apply (byte_sweep (fun b => listb_eqb (bits 16 (tab crc16_table b)) (feed poly16 (bits 16 (N.shiftl b 8))) &&
    listb_eqb (bits 16 (tab crc16_table b)) (contrib poly16 false b) && (tab crc16_table b <? 2 ^ 16) &&
    listb_eqb (feed poly16 (bits 16 b)) (bits 16 (N.shiftl b 8)))); [vm_compute; reflexivity|assumption]. }
  apply andb_true_iff in S. destruct S as [S S4]. apply andb_true_iff in S. destruct S as [S S3]. apply andb_true_iff in S. destruct S as [S1 S2].
  split; [|split; [|split]]; auto using listb_eqb_eq. now apply N.ltb_lt.
Qed.
Lemma crc16_lin : forall a b, is_byte a -> is_byte b -> tab crc16_table (N.lxor a b) = N.lxor (tab crc16_table a) (tab crc16_table b).
Proof. apply tab_lin. vm_compute. reflexivity. Qed.

(** A number is the exclusive or of its high and low parts. *)
Lemma split_xor n k : n = N.lxor (N.shiftl (N.shiftr n k) k) (n mod 2 ^ k).
Proof.
  apply N.bits_inj. intros i. rewrite N.lxor_spec. destruct (N.lt_ge_cases i k).
  - rewrite N.shiftl_spec_low, N.mod_pow2_bits_low by auto. now rewrite xorb_false_l.
  - rewrite N.shiftl_spec_high' , N.mod_pow2_bits_high by auto. rewrite N.shiftr_spec', xorb_false_r. f_equal. lia.
Qed.
Lemma lxor_lt a b k : a < 2 ^ k -> b < 2 ^ k -> N.lxor a b < 2 ^ k.
Proof.
  intros Ha Hb. rewrite <- (N.mod_small a (2 ^ k)), <- (N.mod_small b (2 ^ k)) by auto.
  rewrite <- !N.land_ones.
  assert (E : N.lxor (N.land a (N.ones k)) (N.land b (N.ones k)) = N.land (N.lxor a b) (N.ones k)).
  { apply N.bits_inj. intros i. rewrite !N.lxor_spec, !N.land_spec, N.lxor_spec. destruct (N.testbit a i), (N.testbit b i), (N.testbit (N.ones k) i); reflexivity. }
  rewrite E, N.land_ones. apply N.mod_lt, N.pow_nonzero. lia.
Qed.
Lemma bits_mod : forall k n m, (k <= m)%nat -> bits k (n mod 2 ^ N.of_nat m) = bits k n.
Proof. induction k as [|k IH]; intros n m H; cbn [bits]; auto. rewrite IH, N.mod_pow2_bits_low by lia. reflexivity. Qed.

Lemma crc16_step val b : val < 2 ^ 16 -> is_byte b ->
  let v := N.lxor (tab crc16_table (N.lxor (N.shiftr val 8) b)) (N.shiftl val 8 mod 2 ^ 16) in
  is_byte (N.shiftr val 8) /\ v < 2 ^ 16 /\ bits 16 v = xorl (feed poly16 (bits 16 val)) (contrib poly16 false b).
Proof.
  intros Hv Hb v.
  assert (Hh : is_byte (N.shiftr val 8)).
  { unfold is_byte. rewrite N.shiftr_div_pow2. apply N.div_lt_upper_bound; [cbn; lia|exact Hv]. }
  assert (Hl : is_byte (val mod 2 ^ 8)) by (apply N.mod_lt; cbn; lia).
  split; auto. split.
  - apply lxor_lt; [|apply N.mod_lt; cbn; lia]. apply crc16_tab_ok. now apply lxor_byte.
  - unfold v. rewrite crc16_lin, !bits_lxor by auto.
    destruct (crc16_tab_ok _ Hh) as (-> & _). destruct (crc16_tab_ok _ Hb) as (_ & -> & _).
    assert (E : bits 16 (N.shiftl val 8 mod 2 ^ 16) = feed poly16 (bits 16 (val mod 2 ^ 8))).
    { destruct (crc16_tab_ok _ Hl) as (_ & _ & _ & ->). change (2 ^ 16) with (2 ^ N.of_nat 16). rewrite bits_mod by lia.
      rewrite (split_xor val 8) at 1. rewrite N.shiftl_lxor, bits_lxor, N.shiftl_shiftl.
      assert (Z : bits 16 (N.shiftl (N.shiftr val 8) (8 + 8)) = zeros 16).
      { cbn [bits]. rewrite !N.shiftl_spec_low by (cbn; lia). reflexivity. }
      rewrite Z, xorl_comm. change 16%nat with (length (bits 16 (N.shiftl (val mod 2 ^ 8) 8))) at 1. apply xorl_zeros. }
    rewrite E. rewrite (split_xor val 8) at 3. rewrite bits_lxor, feed_lin by (auto; discriminate).
    rewrite !xorl_assoc. f_equal. apply xorl_comm.
Qed.

Lemma crc16_loop_ok init : length init = 16%nat -> forall s d val, is_bytes s -> val < 2 ^ 16 -> bits 16 val = crc_rem poly16 init false d ->
  exists v, crc16_loop s val = Ok v /\ v < 2 ^ 16 /\ bits 16 v = crc_rem poly16 init false (d ++ s).
Proof.
  intros Li. induction s as [|b s IH]; intros d val Hs Hv E; cbn [crc16_loop].
  - exists val. rewrite app_nil_r. auto.
  - inversion Hs as [|? ? Hb Hs']; subst. destruct (crc16_step val b Hv Hb) as (Hh & B & R).
    rewrite tab_rd by (auto using lxor_byte). cbn [bind].
    destruct (IH (d ++ [b]) _ Hs' B) as (v & Ev & Bv & Rv).
    + rewrite R, E, crc_rem_snoc by (auto; discriminate). reflexivity.
    + exists v. rewrite <- app_assoc in Rv. auto.
Qed.
Lemma crc16_ok s : is_bytes s -> s <> [] ->
  exists v, crc16 s = Ok v /\ v < 2 ^ 16 /\ bits 16 v = crc_rem poly16 (repeat true 16) false s.
Proof.
  intros Hs Hn. destruct (crc16_loop_ok (repeat true 16) eq_refl s [] 65535 Hs) as (v & E & B & R).
  - reflexivity.
  - reflexivity.
  - exists v. split; [|auto]. destruct s; auto. congruence.
Qed.

(** ** CRC-32: reflected, polynomial 0x04C11DB7, initial value all ones, complemented *)

Definition poly32 := bits 32 0x04C11DB7.
Definition rbits (n : N) : list bool := rev (bits 32 n).
Lemma rbits_lxor a b : rbits (N.lxor a b) = xorl (rbits a) (rbits b).
Proof. unfold rbits. rewrite bits_lxor, rev_xorl by now rewrite !bits_length. reflexivity. Qed.
Lemma rbits_length a : length (rbits a) = 32%nat.
Proof. unfold rbits. rewrite rev_length. apply bits_length. Qed.

Definition crc32_chk (b : N) : bool :=
  listb_eqb (rbits (tab crc32_table b)) (feed poly32 (rbits b)) &&
  listb_eqb (rbits (tab crc32_table b)) (contrib poly32 true b) && (tab crc32_table b <? 2 ^ 32) &&
  listb_eqb (feed poly32 (rbits (N.shiftl b 8))) (rbits b) &&
  listb_eqb (feed poly32 (rbits (N.shiftl b 16))) (rbits (N.shiftl b 8)) &&
  listb_eqb (feed poly32 (rbits (N.shiftl b 24))) (rbits (N.shiftl b 16)).
Lemma crc32_tab_ok b : is_byte b ->
  rbits (tab crc32_table b) = feed poly32 (rbits b) /\ rbits (tab crc32_table b) = contrib poly32 true b /\
  tab crc32_table b < 2 ^ 32 /\
  feed poly32 (rbits (N.shiftl b 8)) = rbits b /\ feed poly32 (rbits (N.shiftl b 16)) = rbits (N.shiftl b 8) /\
  feed poly32 (rbits (N.shiftl b 24)) = rbits (N.shiftl b 16).
Proof.
  intros Hb. assert (S : crc32_chk b = true).
  { apply (byte_sweep crc32_chk); [vm_compute; reflexivity|assumption]. }
  unfold crc32_chk in S. rewrite !andb_true_iff in S. destruct S as [[[[[S1 S2] S3] S4] S5] S6].
  repeat split; auto using listb_eqb_eq. now apply N.ltb_lt.
Qed.
Lemma crc32_lin : forall a b, is_byte a -> is_byte b -> tab crc32_table (N.lxor a b) = N.lxor (tab crc32_table a) (tab crc32_table b).
Proof. apply tab_lin. vm_compute. reflexivity. Qed.

Lemma crc32_step val b : val < 2 ^ 32 -> is_byte b ->
  let v := N.lxor (N.shiftr val 8) (tab crc32_table (N.land (N.lxor val b) 255)) in
  v < 2 ^ 32 /\ rbits v = xorl (feed poly32 (rbits val)) (contrib poly32 true b).
Proof.
  intros Hv Hb v.
  set (b0 := val mod 2 ^ 8). set (v1 := N.shiftr val 8). set (b1 := v1 mod 2 ^ 8). set (v2 := N.shiftr v1 8).
  set (b2 := v2 mod 2 ^ 8). set (b3 := N.shiftr v2 8).
  assert (H0 : is_byte b0) by (apply N.mod_lt; cbn; lia). assert (H1 : is_byte b1) by (apply N.mod_lt; cbn; lia).
  assert (H2 : is_byte b2) by (apply N.mod_lt; cbn; lia).
  assert (H3 : is_byte b3).
  { unfold is_byte, b3, v2, v1. rewrite !N.shiftr_shiftr, N.shiftr_div_pow2. apply N.div_lt_upper_bound; [cbn; lia|exact Hv]. }
  assert (E1 : v1 = N.lxor (N.lxor (N.shiftl b3 16) (N.shiftl b2 8)) b1).
  { rewrite (split_xor v1 8). fold v2 b1. f_equal. rewrite (split_xor v2 8). fold b3 b2. now rewrite N.shiftl_lxor, N.shiftl_shiftl. }
  assert (E0 : val = N.lxor (N.lxor (N.lxor (N.shiftl b3 24) (N.shiftl b2 16)) (N.shiftl b1 8)) b0).
  { rewrite (split_xor val 8) at 1. fold v1 b0. f_equal. rewrite E1, !N.shiftl_lxor, !N.shiftl_shiftl. reflexivity. }
  assert (L : N.land (N.lxor val b) 255 = N.lxor b0 b).
  { change 255 with (N.ones 8).
    assert (X : N.land (N.lxor val b) (N.ones 8) = N.lxor (N.land val (N.ones 8)) (N.land b (N.ones 8))).
    { apply N.bits_inj. intros i. rewrite !N.lxor_spec, !N.land_spec, N.lxor_spec. destruct (N.testbit val i), (N.testbit b i), (N.testbit (N.ones 8) i); reflexivity. }
    rewrite X, !N.land_ones. unfold b0. f_equal. apply N.mod_small. exact Hb. }
  unfold v. rewrite L. split.
  - apply lxor_lt; [|apply crc32_tab_ok; now apply lxor_byte].
    rewrite N.shiftr_div_pow2. change (2 ^ 8) with 256. change (2 ^ 32) with 4294967296 in *. lia.
  - rewrite crc32_lin by auto. fold v1. rewrite E1, E0, !rbits_lxor.
    rewrite !feed_lin by (rewrite ?xorl_length; rewrite ?rbits_length; auto; discriminate).
    destruct (crc32_tab_ok b0 H0) as (-> & _). destruct (crc32_tab_ok b Hb) as (_ & -> & _).
    destruct (crc32_tab_ok b1 H1) as (_ & _ & _ & -> & _). destruct (crc32_tab_ok b2 H2) as (_ & _ & _ & _ & -> & _).
    destruct (crc32_tab_ok b3 H3) as (_ & _ & _ & _ & _ & ->). now rewrite !xorl_assoc.
Qed.

Lemma crc32_loop_ok init : length init = 32%nat -> forall s d val, is_bytes s -> val < 2 ^ 32 -> rbits val = crc_rem poly32 init true d ->
  exists v, crc32_loop s val = Ok v /\ v < 2 ^ 32 /\ rbits v = crc_rem poly32 init true (d ++ s).
Proof.
  intros Li. induction s as [|b s IH]; intros d val Hs Hv E; cbn [crc32_loop].
  - exists val. rewrite app_nil_r. auto.
  - inversion Hs as [|? ? Hb Hs']; subst. destruct (crc32_step val b Hv Hb) as (B & R).
    rewrite tab_rd.
    + cbn [bind]. destruct (IH (d ++ [b]) _ Hs' B) as (v & Ev & Bv & Rv).
      * rewrite R, E, crc_rem_snoc by (auto; discriminate). reflexivity.
      * exists v. rewrite <- app_assoc in Rv. auto.
    + reflexivity.
    + unfold is_byte. change 255 with (N.ones 8). rewrite N.land_ones. apply N.mod_lt. cbn. lia.
Qed.
Lemma crc32_ok s : is_bytes s -> s <> [] ->
  exists v, crc32 s = Ok v /\ v < 2 ^ 32 /\ map negb (rbits v) = crc_rem poly32 (repeat true 32) true s.
Proof.
  intros Hs Hn. destruct (crc32_loop_ok (repeat true 32) eq_refl s [] (2 ^ 32 - 1) Hs) as (v & E & B & R).
  - cbn. lia.
  - vm_compute. reflexivity.
  - exists (2 ^ 32 - 1 - v). split; [|split; [lia|]].
    + destruct s; [congruence|]. unfold crc32. now rewrite E.
    + cbn [app] in R. rewrite <- R.
      assert (X : 2 ^ 32 - 1 - v = N.lxor (N.ones 32) v).
      { rewrite N.lxor_comm. change (N.lxor v (N.ones 32)) with (N.lnot v 32). rewrite N.lnot_sub_low; [reflexivity|].
        destruct (N.eq_dec v 0) as [->|]; [cbn; lia|]. apply N.log2_lt_pow2; lia. }
      rewrite X, rbits_lxor. change (rbits (N.ones 32)) with (repeat true 32).
      assert (Neg : forall l, map negb (xorl (repeat true (length l)) l) = l).
      { induction l as [|x l IH]; cbn; auto. rewrite IH. destruct x; auto. }
      specialize (Neg (rbits v)). rewrite rbits_length in Neg. exact Neg.
Qed.

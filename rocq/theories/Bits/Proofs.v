(** The bit buffer refines a bit string. *)
From Verif Require Import Base.Lib Base.Mem Hex.Model MemFn.Spec MemFn.Crc Bits.Spec Bits.Model.
Local Open Scope N_scope.

(** ** Bits of bytes *)
Lemma bits_of_app a b : bits_of (a ++ b) = bits_of a ++ bits_of b.
Proof. unfold bits_of. now rewrite map_app, concat_app. Qed.
Lemma bits_of_cons c l : bits_of (c :: l) = bits 8 c ++ bits_of l.
Proof. reflexivity. Qed.
Lemma bits_of_length l : length (bits_of l) = (8 * length l)%nat.
Proof. induction l as [|c l IH]; auto. rewrite bits_of_cons, app_length, bits_length, IH. cbn [length]. lia. Qed.
Lemma bits8 c : bits 8 c = [N.testbit c 7; N.testbit c 6; N.testbit c 5; N.testbit c 4; N.testbit c 3; N.testbit c 2; N.testbit c 1; N.testbit c 0].
Proof. reflexivity. Qed.

Lemma bits8_set c r : (r < 8)%nat -> bits 8 (N.lor c (N.shiftl 1 (7 - N.of_nat r))) = upd (bits 8 c) r true.
Proof.
  intros H. rewrite !bits8. rewrite !N.lor_spec.
  do 8 (destruct r as [|r]; [cbn; rewrite ?Bool.orb_true_r, ?Bool.orb_false_r; reflexivity|]). lia.
Qed.
Lemma bits8_clear c r : (r < 8)%nat -> bits 8 (N.land c (N.lxor 255 (N.shiftl 1 (7 - N.of_nat r)))) = upd (bits 8 c) r false.
Proof.
  intros H. rewrite !bits8. rewrite !N.land_spec.
  do 8 (destruct r as [|r]; [cbn; rewrite ?Bool.andb_true_r, ?Bool.andb_false_r; reflexivity|]). lia.
Qed.
(** The first [r] bits *)
Lemma bits8_mask c r : (0 < r)%nat -> (r < 8)%nat ->
  bits 8 (N.land c (N.lxor 255 (N.shiftl 1 (8 - N.of_nat r) - 1))) = firstn r (bits 8 c) ++ repeat false (8 - r).
Proof.
  intros H0 H. rewrite !bits8. rewrite !N.land_spec.
  do 8 (destruct r as [|r]; [try lia; cbn; rewrite ?Bool.andb_true_r, ?Bool.andb_false_r; reflexivity|]). lia.
Qed.
Lemma bits_shiftr c r : (r <= 8)%nat -> bits r (N.shiftr c (8 - N.of_nat r)) = firstn r (bits 8 c).
Proof.
  intros H. rewrite !bits8.
  do 9 (destruct r as [|r]; [cbn -[N.shiftr]; rewrite ?N.shiftr_spec by lia; cbn; reflexivity|]). lia.
Qed.
Lemma is_byte_testbit c : is_byte c <-> forall i, 8 <= i -> N.testbit c i = false.
Proof.
  unfold is_byte. split.
  - intros H i Hi. destruct (N.eq_dec c 0) as [->|Hc]; [apply N.bits_0|]. apply N.bits_above_log2.
    apply N.log2_lt_pow2; [lia|]. apply N.lt_le_trans with (2 ^ 8); [exact H|]. apply N.pow_le_mono_r; lia.
  - intros H. assert (c = c mod 2 ^ 8).
    { apply N.bits_inj. intros i. destruct (N.lt_ge_cases i 8); [now rewrite N.mod_pow2_bits_low|].
      rewrite N.mod_pow2_bits_high by lia. now apply H. }
    rewrite H0. apply N.mod_upper_bound. discriminate.
Qed.
Lemma byte_set c r : is_byte c -> (r < 8)%nat -> is_byte (N.lor c (N.shiftl 1 (7 - N.of_nat r))).
Proof.
  rewrite !is_byte_testbit. intros H Hr i Hi. rewrite N.lor_spec, H by auto. cbn [orb].
  rewrite N.shiftl_spec_high' by lia. rewrite N.bits_above_log2; auto. change (N.log2 1) with 0. lia.
Qed.
Lemma byte_land c m : is_byte c -> is_byte (N.land c m).
Proof. rewrite !is_byte_testbit. intros H i Hi. now rewrite N.land_spec, H. Qed.

(** ** Updating *)
Lemma upd_app_ge {A} (a b : list A) r v : upd (a ++ b) (length a + r) v = a ++ upd b r v.
Proof. induction a as [|x a IH]; cbn [app length Nat.add upd]; auto. now rewrite IH. Qed.
Lemma upd_app_lt {A} (b z : list A) r v : (r < length b)%nat -> upd (b ++ z) r v = upd b r v ++ z.
Proof. revert r. induction b as [|x b IH]; cbn [length]; intros [|r] H; try lia; cbn [app upd]; auto. rewrite IH by lia. reflexivity. Qed.
Lemma bits_of_upd l i r v c c' : rd l i = Ok c -> (r < 8)%nat -> bits 8 c' = upd (bits 8 c) r v ->
  bits_of (upd l i c') = upd (bits_of l) (8 * i + r) v.
Proof.
  intros E Hr Hc. apply rd_Ok in E. destruct (nth_error_split _ _ E) as (a & z & -> & <-).
  rewrite upd_app_mid, !bits_of_app, !bits_of_cons, Hc. rewrite <- bits_of_length.
  rewrite upd_app_ge. rewrite upd_app_lt by (rewrite bits_length; auto). reflexivity.
Qed.
Lemma is_bytes_upd l i v : is_bytes l -> is_byte v -> is_bytes (upd l i v).
Proof. intros H. revert i. induction H; intros [|i] Hv; cbn; constructor; auto. apply IHForall; auto. Qed.
Lemma rd_byte l i c : is_bytes l -> rd l i = Ok c -> is_byte c.
Proof. intros H E. apply rd_Ok in E. eapply Forall_forall in H; [exact H|]. eapply nth_error_In; eauto. Qed.

(** ** The invariant *)
Definition Rep (b : bbuf) (s : list bool) : Prop :=
  nb b = length s /\ is_bytes (bb b) /\ exists k, bits_of (bb b) = s ++ repeat false k /\ (k < 8)%nat.
Lemma rep_len b s : Rep b s -> exists k, (8 * length (bb b) = length s + k)%nat /\ (k < 8)%nat /\ bits_of (bb b) = s ++ repeat false k.
Proof.
  intros (H1 & H2 & k & H3 & H4). exists k. split; auto.
  apply (f_equal (@length bool)) in H3. rewrite bits_of_length, app_length, repeat_length in H3. auto.
Qed.
Lemma create_ok : Rep bb_create [].
Proof. split; auto. split; [constructor|]. exists O. split; auto. lia. Qed.

Lemma next_pos_ok n : next_pos n = 7 - N.of_nat (n mod 8).
Proof. unfold next_pos. f_equal. lia. Qed.
Lemma next_pos_7 n : (next_pos n =? 7) = (n mod 8 =? 0)%nat.
Proof. rewrite next_pos_ok. destruct (Nat.eqb_spec (n mod 8) 0), (N.eqb_spec (7 - N.of_nat (n mod 8)) 7); auto; lia. Qed.

(** Room for the next bit *)
Lemma extend_ok b s : Rep b s ->
  let l := if next_pos (nb b) =? 7 then bb b ++ [0] else bb b in
  exists k, bits_of l = s ++ false :: repeat false k /\ (k < 8)%nat /\ is_bytes l /\ (8 * length l = length s + S k)%nat /\
    (length s / 8 = length l - 1)%nat.
Proof.
  intros R. destruct (rep_len b s R) as (k & L & K & E). destruct R as (N1 & B & _). cbv zeta. rewrite next_pos_7, N1.
  destruct (Nat.eqb_spec (length s mod 8) 0) as [Z|Z].
  - assert (k = O) by lia. subst. exists 7%nat. rewrite bits_of_app, E, app_nil_r. split; [reflexivity|]. split; [lia|].
    split; [apply Forall_app; split; auto; constructor; [reflexivity|constructor]|]. rewrite app_length. cbn [length]. lia.
  - destruct k as [|k]; [lia|]. exists k. split; auto. split; [lia|]. split; auto. lia.
Qed.
Lemma set_last_ok l s k : bits_of l = s ++ false :: repeat false k -> (k < 8)%nat -> is_bytes l ->
  (8 * length l = length s + S k)%nat -> exists l', set_last l (next_pos (length s)) = Ok l' /\ is_bytes l' /\
    bits_of l' = s ++ true :: repeat false k /\ length l' = length l.
Proof.
  intros E K B L. unfold set_last. destruct (length l) as [|n] eqn:HL; [lia|].
  destruct (rd l n) as [c| |] eqn:EC; [|exfalso; destruct (rd_lt l (i := n) ltac:(lia)); congruence|exfalso; destruct (rd_lt l (i := n) ltac:(lia)); congruence].
  cbn [bind]. rewrite wr_lt by lia. eexists. split; [reflexivity|]. rewrite next_pos_ok.
  split; [apply is_bytes_upd; auto; apply byte_set; [eapply rd_byte; eauto|lia]|]. split; [|rewrite length_upd; auto].
  rewrite (bits_of_upd l n (length s mod 8) true c) by (auto; try lia; apply bits8_set; lia).
  rewrite E. replace (8 * n + length s mod 8)%nat with (length s) by lia. apply upd_app_mid.
Qed.

Lemma add_bit_ok b s x : Rep b s -> exists b', add_bit b x = Ok b' /\ Rep b' (s ++ [x]).
Proof.
  intros R. pose proof (extend_ok b s R) as (k & E & K & B & L & _). destruct R as (N1 & _). unfold add_bit.
  set (l := if next_pos (nb b) =? 7 then bb b ++ [0] else bb b) in *. destruct x.
  - rewrite N1. destruct (set_last_ok l s k E K B L) as (l' & E' & B' & E2 & _). rewrite E'. cbn [bind].
    eexists. split; [reflexivity|]. split; [cbn [nb]; rewrite app_length; cbn; lia|]. split; auto. exists k. cbn [bb].
    rewrite <- app_assoc. auto.
  - cbn [bind]. eexists. split; [reflexivity|]. split; [cbn [nb]; rewrite app_length; cbn; lia|]. split; auto. exists k. cbn [bb].
    rewrite <- app_assoc. auto.
Qed.

Lemma fill_ok x : forall fuel n b s, (n <= fuel)%nat -> Rep b s -> exists b', fill fuel b x n = Ok b' /\ Rep b' (s ++ repeat x n).
Proof.
  induction fuel as [|f IH]; intros n b s HF R.
  - assert (n = O) by lia. subst. exists b. cbn. rewrite app_nil_r. auto.
  - destruct n as [|n]; [exists b; cbn; rewrite app_nil_r; auto|]. cbn [fill].
    destruct (next_pos (nb b) =? 7) eqn:P; cbn [andb].
    + destruct (Nat.leb_spec 8 (S n)) as [L|L].
      * destruct (IH (S n - 8)%nat (mkb (bb b ++ [if x then 255 else 0]) (nb b + 8)) (s ++ repeat x 8)) as (b' & E' & R'); [lia| |].
        -- destruct (rep_len b s R) as (k & HL & K & E). destruct R as (N1 & B & _). rewrite next_pos_7, N1 in P. apply Nat.eqb_eq in P.
           assert (k = O) by lia. subst. split; [cbn [nb]; rewrite app_length, repeat_length; lia|]. split.
           ++ apply Forall_app. split; auto. constructor; [destruct x; reflexivity|constructor].
           ++ exists O. split; [|lia]. cbn [bb]. rewrite bits_of_app, E, !app_nil_r. f_equal. destruct x; reflexivity.
        -- rewrite E'. exists b'. split; auto. replace (s ++ repeat x (S n)) with ((s ++ repeat x 8) ++ repeat x (S n - 8)); auto.
           rewrite <- app_assoc, <- repeat_app. do 2 f_equal. lia.
      * pose proof (add_bit_ok b s x R) as (b1 & E1 & R1). unfold add_bit in E1. rewrite P in E1.
        destruct (if x then set_last (bb b ++ [0]) (next_pos (nb b)) else Ok (bb b ++ [0])) as [l| |]; try discriminate. cbn [bind] in *.
        injection E1 as <-. replace (S n - 1)%nat with n by lia. destruct (IH n _ _ ltac:(lia) R1) as (b' & E' & R'). exists b'. split; auto.
        rewrite <- app_assoc in R'. exact R'.
    + pose proof (add_bit_ok b s x R) as (b1 & E1 & R1). unfold add_bit in E1. rewrite P in E1.
      destruct (if x then set_last (bb b) (next_pos (nb b)) else Ok (bb b)) as [l| |]; try discriminate. cbn [bind] in *.
      injection E1 as <-. replace (S n - 1)%nat with n by lia. destruct (IH n _ _ ltac:(lia) R1) as (b' & E' & R'). exists b'. split; auto.
      rewrite <- app_assoc in R'. exact R'.
Qed.
Lemma bit_fill_ok b s x n : Rep b s -> exists b', bit_fill b x n = Ok b' /\ Rep b' (s ++ repeat x n).
Proof. intros R. apply fill_ok; auto. Qed.

Lemma update_ok b s i x : Rep b s -> exists b', update_bit b i x = Ok ((i <? length s)%nat, b') /\
  Rep b' (if (i <? length s)%nat then upd s i x else s).
Proof.
  intros R. destruct (rep_len b s R) as (k & HL & K & E). pose proof R as (N1 & B & _). unfold update_bit. rewrite N1.
  destruct (Nat.ltb_spec i (length s)) as [L|L], (Nat.leb_spec (length s) i) as [L'|L']; try lia; [|eauto].
  destruct (Nat.leb_spec (length (bb b)) (i / 8)) as [L2|L2]; [lia|].
  destruct (rd (bb b) (i / 8)) as [c| |] eqn:EC; [|exfalso; destruct (rd_lt (bb b) (i := (i / 8)%nat) ltac:(lia)); congruence..].
  cbn [bind]. rewrite wr_lt by lia. cbn [bind]. eexists. split; [reflexivity|].
  replace (N.of_nat i mod 8) with (N.of_nat (i mod 8)) by lia.
  pose proof (rd_byte _ _ _ B EC) as BC.
  split; [cbn [nb]; now rewrite length_upd|]. split.
  - cbn [bb]. apply is_bytes_upd; auto. destruct x; [apply byte_set; auto; lia|now apply byte_land].
  - exists k. split; auto. cbn [bb]. rewrite (bits_of_upd (bb b) (i / 8) (i mod 8) x c).
    + rewrite E. replace (8 * (i / 8) + i mod 8)%nat with i by lia. now rewrite upd_app_lt.
    + auto.
    + lia.
    + destruct x; [apply bits8_set|apply bits8_clear]; lia.
Qed.
Lemma set_bit_ok b s x i f : Rep b s -> exists b', set_bit b x i f = Ok b' /\
  Rep b' (if (i <? length s)%nat then upd s i x else s ++ repeat f (i - length s) ++ [x]).
Proof.
  intros R. unfold set_bit. pose proof R as (N1 & _). rewrite N1. destruct (i <? length s)%nat eqn:L.
  - destruct (update_ok b s i x R) as (b' & E & R'). rewrite L in *. rewrite E. cbn [bind]. eauto.
  - destruct (bit_fill_ok b s f (i - length s) R) as (b1 & E1 & R1). rewrite E1. cbn [bind].
    destruct (add_bit_ok b1 _ x R1) as (b2 & E2 & R2). exists b2. split; auto. rewrite <- app_assoc in R2. exact R2.
Qed.

Lemma add_loop_ok v : forall n b s, Rep b s -> exists b', add_loop b v n = Ok b' /\ Rep b' (s ++ bits n v).
Proof.
  induction n as [|n IH]; intros b s R; cbn [add_loop bits]; [rewrite app_nil_r; eauto|].
  assert (T : negb (N.land (N.shiftr v (N.of_nat n)) 1 =? 0) = N.testbit v (N.of_nat n)).
  { rewrite N.testbit_eqb. change 1 with (N.ones 1) at 1. rewrite N.land_ones, N.shiftr_div_pow2. change (2 ^ 1) with 2.
    generalize (v / 2 ^ N.of_nat n). intros w. destruct (N.eqb_spec (w mod 2) 0), (N.eqb_spec (w mod 2) 1); auto; try lia. }
  rewrite T. destruct (add_bit_ok b s (N.testbit v (N.of_nat n)) R) as (b1 & E1 & R1). rewrite E1. cbn [bind].
  destruct (IH b1 _ R1) as (b2 & E2 & R2). exists b2. split; auto. rewrite <- app_assoc in R2. exact R2.
Qed.
Lemma pad_bits_ok p n : p <> PNone -> pad_bits p n = missing n.
Proof. intros H. unfold pad_bits, missing. destruct p; [congruence|..]; cbv zeta; destruct (Nat.eqb_spec (n mod 8) 0); lia. Qed.
Lemma add_ok b s v n p : Rep b s -> exists b', add b v n p = Ok b' /\
  Rep b' (if (0 <? n)%nat && (n <=? 64)%nat then padded s (bits n v) n p true else s).
Proof.
  intros R. unfold add. destruct (Nat.ltb_spec n 1), (Nat.ltb_spec 64 n), (Nat.ltb_spec 0 n), (Nat.leb_spec n 64); try lia; cbn [orb andb]; eauto.
  pose proof R as (N1 & _). rewrite N1. unfold padded. destruct p.
  - cbn [bind]. destruct (add_loop_ok v n b s R) as (b' & E & R'). rewrite E. cbn [bind]. eauto.
  - rewrite pad_bits_ok by discriminate. destruct (bit_fill_ok b s false (missing (length s + n)) R) as (b1 & E1 & R1). rewrite E1. cbn [bind].
    destruct (add_loop_ok v n b1 _ R1) as (b' & E & R'). rewrite E. cbn [bind]. rewrite <- app_assoc in R'. eauto.
  - rewrite pad_bits_ok by discriminate. cbn [bind]. destruct (add_loop_ok v n b s R) as (b' & E & R'). rewrite E. cbn [bind].
    destruct (bit_fill_ok b' _ false (missing (length s + n)) R') as (b2 & E2 & R2). rewrite <- app_assoc in R2. eauto.
Qed.

Lemma firstn_bits_of (d : list N) i : firstn (8 * i) (bits_of d) = bits_of (firstn i d).
Proof.
  rewrite <- (firstn_skipn i d) at 1. rewrite bits_of_app, firstn_app, bits_of_length, firstn_length.
  destruct (Nat.le_gt_cases i (length d)).
  - replace (Nat.min i (length d)) with i by lia. rewrite Nat.sub_diag, firstn_O, app_nil_r. apply firstn_all2.
    rewrite bits_of_length, firstn_length. lia.
  - rewrite skipn_all2 by lia. cbn [bits_of map concat]. rewrite firstn_nil, app_nil_r. apply firstn_all2. rewrite bits_of_length, firstn_length. lia.
Qed.
Lemma skipn_bits_of (d : list N) i : skipn (8 * i) (bits_of d) = bits_of (skipn i d).
Proof.
  destruct (Nat.le_gt_cases i (length d)).
  - rewrite <- (firstn_skipn i d) at 1. rewrite bits_of_app, skipn_app, bits_of_length, firstn_length.
    replace (Nat.min i (length d)) with i by lia. rewrite Nat.sub_diag, skipn_O. rewrite skipn_all2; auto.
    rewrite bits_of_length, firstn_length. lia.
  - rewrite !skipn_all2; auto; try (rewrite bits_of_length); lia.
Qed.
Lemma firstn_S_rd (d : list N) i c : rd d i = Ok c -> firstn (S i) d = firstn i d ++ [c].
Proof.
  intros E. apply rd_Ok in E. revert d E. induction i as [|i IH]; intros [|x d]; cbn [nth_error]; try discriminate.
  - intros [= ->]. reflexivity.
  - intros E. rewrite firstn_cons, (IH d E). reflexivity.
Qed.
Lemma bytes_loop_ok (d : list N) : is_bytes d -> forall k i b s, Rep b (s ++ bits_of (firstn i d)) -> (i + k <= length d)%nat ->
  exists b', bytes_loop b d i k = Ok b' /\ Rep b' (s ++ bits_of (firstn (i + k) d)).
Proof.
  intros BD. induction k as [|k IH]; intros i b s R H; cbn [bytes_loop].
  - rewrite Nat.add_0_r. eauto.
  - destruct (rd d i) as [c| |] eqn:E; [|exfalso; destruct (rd_lt d (i := i) ltac:(lia)); congruence..]. cbn [bind].
    destruct (add_ok b _ c 8 PNone R) as (b1 & E1 & R1). rewrite E1. cbn [bind Nat.ltb Nat.leb andb padded] in *.
    replace (i + S k)%nat with (S i + k)%nat by lia. apply IH; [|lia].
    rewrite (firstn_S_rd d i c E), bits_of_app, app_assoc. unfold bits_of at 2. cbn [map concat]. rewrite app_nil_r. exact R1.
Qed.
Lemma add_bytes_ok b s d n : Rep b s -> given d n -> ((length s mod 8 = 0)%nat -> clean d n) ->
  exists b', add_bytes b d n = Ok b' /\ Rep b' (s ++ firstn n (bits_of d)).
Proof.
  intros R (BD & HL) HC. unfold add_bytes. destruct (Nat.eqb_spec n 0) as [->|Hn]; [rewrite firstn_O, app_nil_r; eauto|].
  pose proof R as (N1 & B & _). rewrite N1. destruct (Nat.eqb_spec (length s mod 8) 0) as [Z|Z].
  - specialize (HC Z). assert (C8 : (n / 8 + (if (0 <? n mod 8) then 1 else 0) = ceil8 n)%nat).
    { unfold ceil8. destruct (Nat.ltb_spec 0 (n mod 8)); lia. }
    rewrite C8. assert (CL : (ceil8 n <= length d)%nat) by (unfold ceil8; lia).
    rewrite rdn_lt by lia. rewrite skipn_O. cbn [bind]. eexists. split; [reflexivity|].
    destruct (rep_len b s R) as (k & L & K & E). assert (k = O) by lia. subst.
    assert (FE : firstn n (bits_of d) = firstn n (bits_of (firstn (ceil8 n) d))).
    { rewrite <- firstn_bits_of, firstn_firstn. f_equal. unfold ceil8. lia. }
    assert (LF : length (bits_of (firstn (ceil8 n) d)) = (8 * ceil8 n)%nat) by (rewrite bits_of_length, firstn_length; lia).
    split; [cbn [nb]; rewrite FE, app_length, firstn_length, LF; unfold ceil8; lia|]. split.
    + apply Forall_app. split; auto. rewrite <- (firstn_skipn (ceil8 n) d) in BD. apply Forall_app in BD. tauto.
    + exists (8 * ceil8 n - n)%nat. split; [|unfold ceil8; lia]. cbn [bb]. rewrite bits_of_app, E, app_nil_r, <- app_assoc. f_equal.
      rewrite FE. rewrite <- (firstn_skipn n (bits_of (firstn (ceil8 n) d))) at 1. f_equal.
      unfold clean in HC. assert (LS : length (skipn n (bits_of (firstn (ceil8 n) d))) = (8 * ceil8 n - n)%nat) by (rewrite skipn_length; lia).
      revert LS HC. generalize (skipn n (bits_of (firstn (ceil8 n) d))) (8 * ceil8 n - n)%nat. clear.
      intros l. induction l as [|x l IH]; intros m Hm HC; cbn [length] in Hm; subst; auto.
      inversion HC; subst. cbn [repeat]. f_equal. now apply IH.
  - destruct (bytes_loop_ok d BD (n / 8) 0 b s) as (b1 & E1 & R1); [rewrite firstn_O; cbn [bits_of map concat]; rewrite app_nil_r; auto|lia|].
    rewrite E1. cbn [bind]. cbn [Nat.add] in R1. destruct (Nat.ltb_spec 0 (n mod 8)) as [L|L].
    + destruct (rd d (n / 8)) as [c| |] eqn:E; [|exfalso; destruct (rd_lt d (i := (n / 8)%nat) ltac:(lia)); congruence..]. cbn [bind].
      destruct (add_ok b1 _ (N.shiftr c (8 - N.of_nat (n mod 8))) (n mod 8) PNone R1) as (b2 & E2 & R2). exists b2. split; auto.
      destruct (Nat.ltb_spec 0 (n mod 8)); [|lia]. destruct (Nat.leb_spec (n mod 8) 64); [|lia]. cbn [andb padded] in R2.
      rewrite bits_shiftr in R2 by lia. rewrite <- app_assoc in R2.
      replace (firstn n (bits_of d)) with (bits_of (firstn (n / 8) d) ++ firstn (n mod 8) (bits 8 c)); auto.
      replace n with (8 * (n / 8) + n mod 8)%nat at 3 by lia. apply rd_Ok in E. destruct (nth_error_split _ _ E) as (a & z & -> & HA).
      rewrite <- HA. rewrite (firstn_app (length a)), Nat.sub_diag, firstn_O, app_nil_r, firstn_all.
      rewrite bits_of_app, bits_of_cons, <- bits_of_length. rewrite firstn_app_2. f_equal. symmetry.
      rewrite firstn_app, bits_length. replace (n mod 8 - 8)%nat with O by lia. now rewrite firstn_O, app_nil_r.
    + exists b1. split; auto. rewrite <- firstn_bits_of in R1. replace (8 * (n / 8))%nat with n in R1 by lia. exact R1.
Qed.

Lemma count_loop_ok : forall s n, count_loop s n = (n + count01 s)%nat.
Proof.
  unfold count01. induction s as [|c s IH]; intros n; cbn [count_loop filter]; [cbn; lia|].
  rewrite IH. destruct ((c =? 48) || (c =? 49)); cbn [length]; lia.
Qed.
Lemma isspace_white c : chr_isspace c = existsb (N.eqb c) white_chars.
Proof. unfold chr_isspace, white_chars. cbn. destruct (N.eqb_spec c 32), (N.eqb_spec c 9), (N.eqb_spec c 10), (N.eqb_spec c 11), (N.eqb_spec c 12), (N.eqb_spec c 13); subst; auto; cbn; lia. Qed.
Lemma bitstr_loop_ok : forall c b s, Rep b s -> exists b', bitstr_loop b c = Ok (snd (read_bits c), b') /\ Rep b' (s ++ fst (read_bits c)).
Proof.
  induction c as [|x c IH]; intros b s R; cbn [bitstr_loop read_bits]; [cbn; rewrite app_nil_r; eauto|].
  rewrite isspace_white. destruct (existsb (N.eqb x) white_chars); [now apply IH|].
  destruct (N.eqb_spec x 48) as [H1|H1], (N.eqb_spec x 49) as [H2|H2]; cbn [negb andb orb]; try lia.
  - destruct (add_bit_ok b s false R) as (b1 & E1 & R1). rewrite E1. cbn [bind]. destruct (IH b1 _ R1) as (b2 & E2 & R2).
    exists b2. destruct (read_bits c) as [l ok]. cbn [fst snd] in *. split; auto. rewrite <- app_assoc in R2. exact R2.
  - destruct (add_bit_ok b s true R) as (b1 & E1 & R1). rewrite E1. cbn [bind]. destruct (IH b1 _ R1) as (b2 & E2 & R2).
    exists b2. destruct (read_bits c) as [l ok]. cbn [fst snd] in *. split; auto. rewrite <- app_assoc in R2. exact R2.
  - cbn [fst snd]. rewrite app_nil_r. eauto.
Qed.
Lemma add_bitstr_ok b s c p : Rep b s -> exists b', add_bitstr b c p = Ok (fst (bstep s (AddBitstr c p)), b') /\ Rep b' (snd (bstep s (AddBitstr c p))).
Proof.
  intros R. unfold add_bitstr. cbn [bstep]. destruct c as [|x c]; [eauto|]. set (cc := x :: c). pose proof R as (N1 & _). rewrite N1.
  rewrite count_loop_ok. cbn [Nat.add]. unfold padded. destruct p.
  - cbn [bind]. destruct (bitstr_loop_ok cc b s R) as (b1 & E1 & R1). rewrite E1. cbn [bind].
    destruct (read_bits cc) as [l ok]. cbn [fst snd] in *. destruct ok; cbn [negb bind]; eauto.
  - rewrite pad_bits_ok by discriminate. destruct (bit_fill_ok b s false (missing (length s + count01 cc)) R) as (b1 & E1 & R1). rewrite E1. cbn [bind].
    destruct (bitstr_loop_ok cc b1 _ R1) as (b2 & E2 & R2). rewrite E2. cbn [bind].
    destruct (read_bits cc) as [l ok]. cbn [fst snd] in *. rewrite <- app_assoc in R2. destruct ok; cbn [negb bind]; eauto.
  - rewrite pad_bits_ok by discriminate. cbn [bind]. destruct (bitstr_loop_ok cc b s R) as (b1 & E1 & R1). rewrite E1. cbn [bind].
    destruct (read_bits cc) as [l ok]. cbn [fst snd] in *. destruct ok; cbn [negb bind].
    + destruct (bit_fill_ok b1 _ false (missing (length s + count01 cc)) R1) as (b2 & E2 & R2). rewrite E2. cbn [bind]. rewrite <- app_assoc in R2. eauto.
    + rewrite app_nil_r. eauto.
Qed.

Lemma truncate_ok b s n : Rep b s -> (n <= length s)%nat -> exists b', truncate b n = Ok b' /\ Rep b' (firstn n s).
Proof.
  intros R H. destruct (rep_len b s R) as (k & L & K & E). pose proof R as (N1 & B & _). unfold truncate.
  assert (FS : firstn n (bits_of (bb b)) = firstn n s).
  { rewrite E, firstn_app. replace (n - length s)%nat with O by lia. now rewrite firstn_O, app_nil_r. }
  destruct (Nat.eqb_spec (n mod 8) 0) as [Z|Z].
  - eexists. split; [reflexivity|]. split; [cbn [nb]; rewrite firstn_length; lia|]. split.
    + cbn [bb]. rewrite <- (firstn_skipn (n / 8) (bb b)) in B. apply Forall_app in B. tauto.
    + exists O. split; [|lia]. cbn [bb]. rewrite app_nil_r, <- firstn_bits_of, <- FS. f_equal. lia.
  - assert (HF : (n / 8 < length (bb b))%nat) by lia.
    destruct (rd (bb b) (n / 8)) as [c| |] eqn:EC; [|exfalso; destruct (rd_lt (bb b) (i := (n / 8)%nat) ltac:(lia)); congruence..].
    assert (EC2 : rd (bb b ++ [0]) (n / 8) = Ok c) by (apply rd_Ok; rewrite nth_error_app1 by lia; now apply rd_Ok).
    rewrite EC2. cbn [bind]. eexists. split; [reflexivity|]. split; [cbn [nb]; rewrite firstn_length; lia|].
    pose proof (rd_byte _ _ _ B EC) as BC. split.
    + cbn [bb]. apply Forall_app. split; [rewrite <- (firstn_skipn (n / 8) (bb b)) in B; apply Forall_app in B; tauto|].
      constructor; [now apply byte_land|constructor].
    + exists (8 - n mod 8)%nat. split; [|lia]. cbn [bb]. rewrite bits_of_app. unfold bits_of at 2. cbn [map concat]. rewrite app_nil_r.
      rewrite bits8_mask by lia. rewrite app_assoc. f_equal. rewrite <- FS. apply rd_Ok in EC.
      destruct (nth_error_split _ _ EC) as (a & z & EZ & HA). rewrite EZ, <- HA.
      rewrite (firstn_app (length a)), Nat.sub_diag, firstn_O, app_nil_r, firstn_all. rewrite bits_of_app, bits_of_cons.
      replace n with (length (bits_of a) + n mod 8)%nat at 2 by (rewrite bits_of_length; lia). rewrite firstn_app_2. f_equal. symmetry.
      rewrite firstn_app, bits_length. replace (n mod 8 - 8)%nat with O by lia. now rewrite firstn_O, app_nil_r.
Qed.

Lemma step_ok b s o : Rep b s -> ballowed s o -> exists b', step b o = Ok (fst (bstep s o), b') /\ Rep b' (snd (bstep s o)).
Proof.
  intros R A. destruct o; cbn [step].
  - destruct (add_bit_ok b s b0 R) as (b' & E & R'). rewrite E. cbn. eauto.
  - destruct (bit_fill_ok b s b0 n R) as (b' & E & R'). rewrite E. cbn. eauto.
  - destruct (set_bit_ok b s b0 idx fill R) as (b' & E & R'). rewrite E. cbn [bind]. eauto.
  - destruct (update_ok b s idx b0 R) as (b' & E & R'). rewrite E. cbn [bstep]. destruct (idx <? length s)%nat; eauto.
  - destruct A. destruct (add_bytes_ok b s d n R) as (b' & E & R'); auto. rewrite E. cbn [bind]. eauto.
  - destruct (add_ok b s v n p R) as (b' & E & R'). rewrite E. cbn [bind]. eauto.
  - now apply add_bitstr_ok.
  - destruct (truncate_ok b s n R A) as (b' & E & R'). rewrite E. cbn [bind]. eauto.
Qed.
Lemma run_ok : forall ops b s rs, Rep b s -> ball_allowed ops s ->
  exists b', run ops b rs = Ok (fst (brun ops s rs), b') /\ Rep b' (snd (brun ops s rs)).
Proof.
  induction ops as [|o ops IH]; intros b s rs R A; cbn [run brun]; [cbn; eauto|]. destruct A as (A1 & A2).
  destruct (step_ok b s o R A1) as (b' & E & R'). rewrite E. cbn [bind]. destruct (bstep s o) as [r s']. cbn [fst snd] in *. now apply IH.
Qed.

(** The bit parser reads the bits in order. *)
From Verif Require Import Base.Lib Base.Mem Hex.Model Bithacks.Model MemFn.Spec MemFn.Crc MemFn.Proofs Bits.Spec Bits.Model Bits.Proofs.
Local Open Scope N_scope.

(** ** Values of bit strings *)
Lemma bitval_acc : forall l v, fold_left (fun v b => 2 * v + (if b : bool then 1 else 0)) l v = v * 2 ^ N.of_nat (length l) + bitval l.
Proof.
  unfold bitval. induction l as [|b l IH]; intros v; cbn [fold_left length]; [cbn; lia|].
  rewrite IH. rewrite (IH (2 * 0 + _)). rewrite Nat2N.inj_succ, N.pow_succ_r'. destruct b; lia.
Qed.
Lemma bitval_app a b : bitval (a ++ b) = bitval a * 2 ^ N.of_nat (length b) + bitval b.
Proof. unfold bitval at 1. rewrite fold_left_app. apply bitval_acc. Qed.
Lemma bitval_cons b l : bitval (b :: l) = (if b then 2 ^ N.of_nat (length l) else 0) + bitval l.
Proof. change (b :: l) with ([b] ++ l). rewrite bitval_app. destruct b; unfold bitval at 1; cbn [fold_left]; lia. Qed.
Lemma bitval_bound l : bitval l < 2 ^ N.of_nat (length l).
Proof.
  induction l as [|b l IH]; [reflexivity|]. rewrite bitval_cons. cbn [length]. rewrite Nat2N.inj_succ, N.pow_succ_r'. destruct b; lia.
Qed.
Lemma bitval_negb l : bitval (map negb l) = 2 ^ N.of_nat (length l) - 1 - bitval l.
Proof.
  induction l as [|b l IH]; [reflexivity|]. cbn [map]. rewrite !bitval_cons, IH, map_length. cbn [length]. rewrite Nat2N.inj_succ, N.pow_succ_r'.
  pose proof (bitval_bound l). destruct b; cbn [negb]; lia.
Qed.
Lemma bitval_bits : forall k n, bitval (bits k n) = n mod 2 ^ N.of_nat k.
Proof.
  induction k as [|k IH]; intros n; [cbn; now rewrite N.mod_1_r|]. cbn [bits]. rewrite bitval_cons, IH, bits_length.
  rewrite Nat2N.inj_succ, N.pow_succ_r'. rewrite (N.mul_comm 2). rewrite N.mod_mul_r by (try apply N.pow_nonzero; lia).
  rewrite N.testbit_eqb. pose proof (N.mod_upper_bound (n / 2 ^ N.of_nat k) 2 ltac:(lia)) as U.
  destruct (N.eqb_spec ((n / 2 ^ N.of_nat k) mod 2) 1) as [->|E]; [lia|].
  assert (Z : (n / 2 ^ N.of_nat k) mod 2 = 0) by (revert U E; generalize ((n / 2 ^ N.of_nat k) mod 2); lia). rewrite Z. lia.
Qed.
Lemma bitval_byte c : is_byte c -> bitval (bits 8 c) = c.
Proof. intros H. rewrite bitval_bits. apply N.mod_small. exact H. Qed.

Lemma testbit_land c k : negb (N.land c (N.shiftl 1 k) =? 0) = N.testbit c k.
Proof.
  destruct (N.testbit c k) eqn:T.
  - destruct (N.eqb_spec (N.land c (N.shiftl 1 k)) 0) as [E|E]; auto. exfalso. apply (f_equal (fun x => N.testbit x k)) in E.
    rewrite N.land_spec, T, N.shiftl_spec_high', N.sub_diag in E by lia. rewrite N.bits_0 in E. discriminate.
  - destruct (N.eqb_spec (N.land c (N.shiftl 1 k)) 0) as [E|E]; auto. exfalso. apply E. apply N.bits_inj. intros i.
    rewrite N.land_spec, N.bits_0, N.shiftl_1_l, N.pow2_bits_eqb. destruct (N.eqb_spec k i) as [<-|]; [now rewrite T|apply Bool.andb_false_r].
Qed.
Lemma nth_bits_of m i c : rd m (i / 8) = Ok c -> nth_error (bits_of m) i = Some (N.testbit c (7 - N.of_nat i mod 8)).
Proof.
  intros E. apply rd_Ok in E. destruct (nth_error_split _ _ E) as (a & z & -> & HA).
  rewrite bits_of_app, bits_of_cons. rewrite nth_error_app2 by (rewrite bits_of_length; lia). rewrite bits_of_length.
  replace (i - 8 * length a)%nat with (i mod 8)%nat by lia. replace (N.of_nat i mod 8) with (N.of_nat (i mod 8)) by lia.
  rewrite nth_error_app1 by (rewrite bits_length; lia). rewrite bits8. assert (H : (i mod 8 < 8)%nat) by lia.
  revert H. generalize (i mod 8)%nat. clear. intros r H. do 8 (destruct r as [|r]; [reflexivity|]). lia.
Qed.
Lemma bits8_shift a b r : (0 < r)%nat -> (r < 8)%nat ->
  bits 8 (N.lor (N.shiftl a (N.of_nat r) mod 256) (N.shiftr b (8 - N.of_nat r))) = firstn 8 (skipn r (bits 8 a ++ bits 8 b)) \/ ~ is_byte b.
Proof.
  intros H0 H. destruct (N.lt_ge_cases b 256) as [B|B]; [|right; unfold is_byte; lia]. left.
  assert (TB : forall i, 8 <= i -> N.testbit b i = false) by (apply is_byte_testbit; exact B).
  rewrite !bits8. rewrite !N.lor_spec. change 256 with (2 ^ 8). rewrite !N.mod_pow2_bits_low by lia. rewrite !N.shiftr_spec by lia.
  do 8 (destruct r as [|r]; [try lia; cbn -[N.shiftl N.testbit]; rewrite ?TB by lia;
    repeat (rewrite N.shiftl_spec_high' by lia); repeat (rewrite N.shiftl_spec_low by lia); cbn -[N.testbit]; rewrite ?Bool.orb_false_r; reflexivity|]). lia.
Qed.

(** Packing *)
Lemma pack_unique : forall l X k, is_bytes l -> bits_of l = X ++ repeat false k -> (k < 8)%nat -> pack X = l.
Proof.
  intros l X k B E K. assert (HL : (8 * length l = length X + k)%nat).
  { apply (f_equal (@length bool)) in E. rewrite bits_of_length, app_length, repeat_length in E. auto. }
  unfold pack. replace (ceil8 (length X)) with (length l) by (unfold ceil8; lia).
  replace (X ++ repeat false 8) with (bits_of l ++ repeat false (8 - k)).
  2:{ rewrite E, <- app_assoc, <- repeat_app. do 2 f_equal. lia. }
  generalize (repeat false (8 - k)). clear - B. intros z.
  induction B as [|c l BC B IH]; [reflexivity|]. cbn [length seq map]. f_equal.
  - rewrite Nat.mul_0_r, skipn_O, bits_of_cons, <- app_assoc. rewrite firstn_app, bits_length, Nat.sub_diag, firstn_O, app_nil_r.
    rewrite firstn_all2 by (rewrite bits_length; lia). now apply bitval_byte.
  - rewrite <- seq_shift, map_map. etransitivity; [|exact IH]. apply map_ext. intros i. f_equal. f_equal.
    replace (8 * S i)%nat with (8 + 8 * i)%nat by lia. rewrite <- skipn_skipn. f_equal.
Qed.

(** ** The invariant *)
Record PRep (p : bparser) (s : bstream) : Prop := mkPRep {
  q_n : pn p = length (all s);
  q_o : po p = off s;
  q_k : pk p = mk s;
  q_le : (mk s <= off s <= length (all s))%nat;
  q_bytes : is_bytes (pm p);
  q_len : (length (all s) <= 8 * length (pm p))%nat;
  q_bits : firstn (length (all s)) (bits_of (pm p)) = all s;
  q_own : match cd s with
          | Some d => pm p = d /\ pb p = None
          | None => exists b, pb p = Some b /\ Rep b (all s) /\ pm p = peek b
          end }.

Lemma owned_ok b l o k : Rep b l -> (k <= o <= length l)%nat -> PRep (mkp (peek b) (nb b) o k (Some b)) (mkbs l o k None).
Proof.
  intros R H. destruct (rep_len b l R) as (j & L & J & E). pose proof R as (N1 & B & _).
  constructor; cbn [pm pn po pk pb all off mk cd]; auto.
  - apply Forall_app. split; auto. constructor; [reflexivity|constructor].
  - unfold peek. rewrite app_length. cbn. lia.
  - unfold peek. rewrite bits_of_app, E, <- app_assoc, firstn_app, Nat.sub_diag, firstn_O, app_nil_r. apply firstn_all2. auto.
  - eauto.
Qed.
Lemma p_create_ok d n : given d n -> clean d n -> exists p, p_create d n = Ok p /\ PRep p (mkbs (firstn n (bits_of d)) 0 0 None).
Proof.
  intros G C. unfold p_create. destruct (add_bytes_ok bb_create [] d n create_ok G (fun _ => C)) as (b & E & R). rewrite E. cbn [bind app] in *.
  eexists. split; [reflexivity|]. pose proof R as (N1 & _). destruct G as (_ & G).
  assert (NL : length (firstn n (bits_of d)) = n) by (rewrite firstn_length, bits_of_length; lia).
  replace n with (nb b) at 1 by lia. apply owned_ok; auto. lia.
Qed.
Lemma p_create_const_ok d n : given d n -> PRep (p_create_const d n) (mkbs (firstn n (bits_of d)) 0 0 (Some d)).
Proof.
  intros (B & G). assert (NL : length (firstn n (bits_of d)) = n) by (rewrite firstn_length, bits_of_length; lia).
  constructor; cbn [pm pn po pk pb all off mk cd p_create_const]; auto; try lia. now rewrite NL.
Qed.

(** What the bytes hold up to the last used one *)
Lemma clean_zeros d n : (n <= 8 * length d)%nat -> clean d n ->
  bits_of (firstn (ceil8 n) d) = firstn n (bits_of d) ++ repeat false (8 * ceil8 n - n).
Proof.
  intros H C. unfold clean in C.
  assert (CL : (ceil8 n <= length d)%nat) by (unfold ceil8; lia).
  assert (FE : firstn n (bits_of d) = firstn n (bits_of (firstn (ceil8 n) d))).
  { rewrite <- firstn_bits_of, firstn_firstn. f_equal. unfold ceil8. lia. }
  rewrite FE. rewrite <- (firstn_skipn n (bits_of (firstn (ceil8 n) d))) at 1. f_equal.
  assert (LS : length (skipn n (bits_of (firstn (ceil8 n) d))) = (8 * ceil8 n - n)%nat) by (rewrite skipn_length, bits_of_length, firstn_length; lia).
  revert LS C. generalize (skipn n (bits_of (firstn (ceil8 n) d))) (8 * ceil8 n - n)%nat. clear.
  intros l. induction l as [|x l IH]; intros m Hm HC; cbn [length] in Hm; subst; auto.
  inversion HC; subst. cbn [repeat]. f_equal. now apply IH.
Qed.
Lemma used_bits p s : PRep p s -> cd_clean s -> exists k, bits_of (firstn (ceil8 (length (all s))) (pm p)) = all s ++ repeat false k /\ (k < 8)%nat.
Proof.
  intros R C. unfold cd_clean in C. pose proof (q_own _ _ R) as O. destruct (cd s) as [d|].
  - destruct O as (E1 & _). exists (8 * ceil8 (length (all s)) - length (all s))%nat. split; [|unfold ceil8; lia]. subst d.
    rewrite clean_zeros by (auto; apply (q_len _ _ R)). f_equal. apply (q_bits _ _ R).
  - destruct O as (b & _ & RB & ->). destruct (rep_len b _ RB) as (k & L & K & E). exists k. split; auto.
    unfold peek. replace (ceil8 (length (all s))) with (length (bb b)) by (unfold ceil8; lia).
    rewrite firstn_app, Nat.sub_diag, firstn_O, app_nil_r, firstn_all. exact E.
Qed.
Lemma ensure_append_ok p s : PRep p s -> cd_clean s -> exists b, ensure_append p = Ok b /\ Rep b (all s).
Proof.
  intros R C. unfold ensure_append, cd_clean in *. pose proof (q_own _ _ R) as O. destruct (cd s) as [d|].
  - destruct O as (E1 & ->). rewrite E1, (q_n _ _ R). pose proof (q_len _ _ R) as L. pose proof (q_bytes _ _ R) as B. rewrite E1 in L, B.
    destruct (add_bytes_ok bb_create [] d (length (all s)) create_ok (conj B L) (fun _ => C)) as (b & E & RB). exists b. split; auto.
    cbn [app] in RB. rewrite <- E1 in RB. now rewrite (q_bits _ _ R) in RB.
  - destruct O as (b & -> & RB & _). eauto.
Qed.
Lemma extend_own p s b l : PRep p s -> Rep b (all s ++ l) -> PRep (owned p b) (extend s l).
Proof.
  intros R RB. unfold owned, extend. rewrite (q_o _ _ R), (q_k _ _ R). apply owned_ok; auto. pose proof (q_le _ _ R). rewrite app_length. lia.
Qed.

Lemma seek_ok p s n : PRep p s -> (off s + n <= length (all s))%nat -> PRep (seek p (po p + n)) (move s n).
Proof.
  intros R H. destruct R. constructor; cbn [seek move pm pn po pk pb all off mk cd]; auto; lia.
Qed.
Lemma left_len p s : PRep p s -> length (left s) = (length (all s) - off s)%nat.
Proof. intros R. unfold left. now rewrite skipn_length. Qed.
Lemma p_len_ok p s : PRep p s -> p_len p = length (left s).
Proof. intros R. rewrite (left_len p s R). unfold p_len. rewrite (q_n _ _ R), (q_o _ _ R). destruct (Nat.leb_spec (length (all s)) (off s)); lia. Qed.
Lemma next_bit_ok p s b l : PRep p s -> left s = b :: l -> next_bit p = Ok b.
Proof.
  intros R E. pose proof (left_len p s R) as LL. rewrite E in LL. cbn [length] in LL. pose proof (q_len _ _ R). unfold next_bit. rewrite (q_o _ _ R).
  destruct (rd (pm p) (off s / 8)) as [c| |] eqn:EC; [|exfalso; destruct (rd_lt (pm p) (i := (off s / 8)%nat) ltac:(lia)); congruence..].
  cbn [bind]. f_equal. rewrite testbit_land. pose proof (nth_bits_of _ _ _ EC) as NB.
  assert (NA : nth_error (all s) (off s) = Some b).
  { replace (off s) with (off s + 0)%nat by lia. rewrite <- skipn_nth_error. fold (left s). now rewrite E. }
  rewrite <- (q_bits _ _ R), firstn_nth_error in NA. destruct (Nat.ltb_spec (off s) (length (all s))); [|lia]. congruence.
Qed.
Lemma left_move s n : left (move s n) = skipn n (left s).
Proof. unfold left, move. cbn [off all]. now rewrite skipn_skipn. Qed.

Lemma peek_bit_ok p s : PRep p s -> p_peek_bit p = Ok (hd_error (left s)).
Proof.
  intros R. unfold p_peek_bit. pose proof (left_len p s R) as LL. rewrite (q_n _ _ R), (q_o _ _ R). destruct (left s) as [|b l] eqn:E; cbn [length] in LL.
  - destruct (Nat.leb_spec (length (all s)) (off s)); [reflexivity|lia].
  - destruct (Nat.leb_spec (length (all s)) (off s)); [lia|]. rewrite (next_bit_ok p s b l R E). reflexivity.
Qed.
Lemma read_bit_ok p s : PRep p s -> exists p', p_read_bit p = Ok (hd_error (left s), p') /\ PRep p' (move s (Nat.min 1 (length (left s)))).
Proof.
  intros R. unfold p_read_bit. rewrite (peek_bit_ok p s R). cbn [bind]. pose proof (left_len p s R) as LL. pose proof (q_le _ _ R).
  destruct (left s) as [|b l]; cbn [hd_error length Nat.min] in *.
  - exists p. split; auto. pose proof (seek_ok p s 0 R ltac:(lia)) as S. rewrite Nat.add_0_r in S. destruct p; exact S.
  - eexists. split; [reflexivity|]. rewrite <- (Nat.add_1_r (po p)). apply seek_ok; auto. lia.
Qed.
Lemma bits_loop_ok : forall n p s acc, PRep p s -> (n <= length (left s))%nat ->
  exists p', bits_loop p n acc = Ok (acc ++ firstn n (left s), p') /\ PRep p' (move s n).
Proof.
  induction n as [|n IH]; intros p s acc R H; cbn [bits_loop].
  - rewrite firstn_O, app_nil_r. exists p. split; auto. pose proof (q_le _ _ R). pose proof (seek_ok p s 0 R ltac:(lia)) as S. rewrite Nat.add_0_r in S. destruct p; exact S.
  - pose proof (left_len p s R) as LL. destruct (left s) as [|b l] eqn:E; cbn [length] in *; [lia|].
    rewrite (next_bit_ok p s b l R E). cbn [bind]. pose proof (seek_ok p s 1 R ltac:(lia)) as R1. rewrite Nat.add_1_r in R1.
    assert (L1 : left (move s 1) = l) by (rewrite left_move, E; reflexivity).
    destruct (IH _ _ (acc ++ [b]) R1) as (p' & E' & R'); [rewrite L1; lia|]. exists p'. rewrite E', L1. split.
    + cbn [firstn]. now rewrite <- app_assoc.
    + unfold move in *. cbn [all off mk cd] in *. now replace (off s + S n)%nat with (off s + 1 + n)%nat by lia.
Qed.

(** ** Bytes *)
Lemma shift_loop_ok m r : is_bytes m -> (0 < r)%nat -> (r < 8)%nat -> forall k i, (i + k < length m)%nat ->
  exists l, shift_loop m i (N.of_nat r) k = Ok l /\ length l = k /\ is_bytes l /\ bits_of l = firstn (8 * k) (skipn (8 * i + r) (bits_of m)).
Proof.
  intros B H0 H. induction k as [|k IH]; intros i Hi; cbn [shift_loop].
  - exists []. split; auto. split; auto. split; [constructor|]. now rewrite Nat.mul_0_r, firstn_O.
  - destruct (skipn_rd m (i := i) ltac:(lia)) as (a & EA & _ & SA). destruct (skipn_rd m (i := S i) ltac:(lia)) as (b & EB & _ & SB).
    rewrite EA, EB. cbn [bind]. destruct (IH (S i)) as (l & E & L & BL & BB); [lia|]. rewrite E. cbn [bind].
    eexists. split; [reflexivity|]. split; [cbn; lia|]. split.
    + constructor; auto. pose proof (rd_byte _ _ _ B EB) as XB. apply is_byte_testbit. intros j Hj. rewrite N.lor_spec.
      change 256 with (2 ^ 8). rewrite N.mod_pow2_bits_high by lia. rewrite N.shiftr_spec by lia. rewrite is_byte_testbit in XB. cbn [orb]. apply XB. lia.
    + rewrite bits_of_cons, BB. destruct (bits8_shift a b r H0 H) as [E8|E8]; [|exfalso; apply E8; exact (rd_byte _ _ _ B EB)].
      rewrite E8.
      assert (S1 : skipn (8 * i + r) (bits_of m) = skipn r (bits 8 a ++ bits 8 b ++ bits_of (skipn (S (S i)) m))).
      { rewrite <- skipn_skipn, skipn_bits_of, SA, bits_of_cons. rewrite SB, bits_of_cons. reflexivity. }
      assert (S2 : skipn (8 * S i + r) (bits_of m) = skipn 8 (skipn r (bits 8 a ++ bits 8 b ++ bits_of (skipn (S (S i)) m)))).
      { rewrite <- S1, skipn_skipn. f_equal. lia. }
      rewrite S1, S2. replace (8 * S k)%nat with (8 + 8 * k)%nat by lia. set (W := skipn r (bits 8 a ++ bits 8 b ++ bits_of (skipn (S (S i)) m))).
      rewrite <- (firstn_skipn 8 W) at 2. rewrite firstn_app. f_equal.
      * assert (LW : (8 <= length W)%nat) by (unfold W; rewrite skipn_length, !app_length, !bits_length; lia).
        rewrite (firstn_all2 (n := 8 + 8 * k)) by (rewrite firstn_length; lia). unfold W. rewrite app_assoc, (skipn_app r (bits 8 a ++ bits 8 b)).
        rewrite firstn_app. rewrite skipn_length, app_length, !bits_length. replace (8 - (8 + 8 - r))%nat with O by lia. rewrite firstn_O, app_nil_r. reflexivity.
      * assert (LW : (8 <= length W)%nat) by (unfold W; rewrite skipn_length, !app_length, !bits_length; lia).
        rewrite firstn_length. f_equal. lia.
Qed.

Lemma next_bytes_ok p s dl n strict : PRep p s -> (0 < n)%nat -> (n <= length (left s))%nat -> (ceil8 n <= dl)%nat -> room s (off s) n ->
  exists l, next_bytes p dl n strict = Ok l /\ length l = ceil8 n /\ is_bytes l /\
    firstn n (bits_of l) = firstn n (left s) /\ (strict = true -> bits_of l = firstn n (left s) ++ repeat false (8 * ceil8 n - n)).
Proof.
  intros R H0 Hn HD HR. pose proof (left_len p s R) as LL. pose proof (q_len _ _ R) as QL. pose proof (q_bytes _ _ R) as QB. unfold next_bytes.
  rewrite (q_n _ _ R), (q_o _ _ R). destruct (Nat.eqb_spec n 0); [lia|]. destruct (Nat.ltb_spec (length (all s)) (off s + n)); [lia|].
  destruct (Nat.ltb_spec dl (ceil8 n)); [lia|].
  assert (X : exists l, (if (off s mod 8 =? 0)%nat then rdn (pm p) (off s / 8) (ceil8 n) else shift_loop (pm p) (off s / 8) (N.of_nat (off s mod 8)) (ceil8 n)) = Ok l /\
    length l = ceil8 n /\ is_bytes l /\ bits_of l = firstn (8 * ceil8 n) (skipn (off s) (bits_of (pm p)))).
  { destruct (Nat.eqb_spec (off s mod 8) 0) as [Z|Z].
    - assert (HL : (off s / 8 + ceil8 n <= length (pm p))%nat) by (unfold ceil8 in *; lia).
      rewrite rdn_lt by lia. eexists. split; [reflexivity|]. split; [rewrite firstn_length, skipn_length; lia|]. split.
      + rewrite <- (firstn_skipn (off s / 8) (pm p)) in QB. apply Forall_app in QB. destruct QB as (_ & QB).
        rewrite <- (firstn_skipn (ceil8 n) (skipn (off s / 8) (pm p))) in QB. apply Forall_app in QB. tauto.
      + rewrite <- firstn_bits_of, <- skipn_bits_of. do 2 f_equal. lia.
    - assert (HL : (off s / 8 + ceil8 n < length (pm p))%nat).
      { destruct HR as [HR|HR]; [lia|]. pose proof (q_own _ _ R) as O. destruct (cd s) as [d|].
        - destruct O as (-> & _). exact HR.
        - destruct O as (b & _ & RB & ->). destruct (rep_len b _ RB) as (k & L & K & _). unfold peek. rewrite app_length. cbn [length]. unfold ceil8. lia. }
      destruct (shift_loop_ok (pm p) (off s mod 8) QB ltac:(lia) ltac:(lia) (ceil8 n) (off s / 8) HL) as (l & E & L & B & BB).
      exists l. split; auto. split; auto. split; auto. rewrite BB. do 2 f_equal. lia. }
  destruct X as (l & E & L & B & BB). rewrite E. cbn [bind].
  assert (F : firstn n (bits_of l) = firstn n (left s)).
  { rewrite BB, firstn_firstn. replace (Nat.min n (8 * ceil8 n)) with n by (unfold ceil8; lia). unfold left. rewrite <- (q_bits _ _ R).
    rewrite skipn_firstn_comm, firstn_firstn. f_equal. lia. }
  destruct strict; cbn [andb].
  2:{ exists l. split; auto. split; auto. split; auto. split; auto. discriminate. }
  destruct (Nat.ltb_spec 0 (n mod 8)) as [Z|Z].
  - assert (C1 : (ceil8 n - 1 = n / 8)%nat) by (unfold ceil8; lia). rewrite C1. assert (C2 : (ceil8 n = S (n / 8))%nat) by (unfold ceil8; lia).
    destruct (rd l (n / 8)) as [c| |] eqn:EC; [|exfalso; destruct (rd_lt l (i := (n / 8)%nat) ltac:(lia)); congruence..]. cbn [bind].
    rewrite wr_lt by lia. pose proof (rd_byte _ _ _ B EC) as BC. pose proof EC as EC'. apply rd_Ok in EC'. destruct (nth_error_split _ _ EC') as (a & z & EZ & HA).
    assert (HZ : z = []) by (apply length_zero_iff_nil; rewrite EZ, app_length in L; cbn [length] in L; lia). subst z. rewrite EZ, <- HA, upd_app_mid.
    set (c' := N.land c (N.lxor 255 (N.shiftl 1 (8 - N.of_nat (n mod 8)) - 1))).
    assert (FA : firstn n (left s) = bits_of a ++ firstn (n mod 8) (bits 8 c)).
    { rewrite <- F, EZ, bits_of_app. unfold bits_of at 2. cbn [map concat]. rewrite app_nil_r.
      replace n with (length (bits_of a) + n mod 8)%nat at 1 by (rewrite bits_of_length; lia). apply firstn_app_2. }
    assert (BB' : bits_of (a ++ [c']) = firstn n (left s) ++ repeat false (8 * ceil8 n - n)).
    { rewrite bits_of_app. unfold bits_of at 2. cbn [map concat]. rewrite app_nil_r. unfold c'. rewrite bits8_mask by lia. rewrite FA, app_assoc. do 2 f_equal. unfold ceil8. lia. }
    exists (a ++ [c']). split; auto. split; [rewrite app_length; cbn [length]; lia|]. split.
    { rewrite EZ in B. apply Forall_app in B. apply Forall_app. split; [tauto|]. constructor; [now apply byte_land|constructor]. }
    split; auto. rewrite BB', firstn_app, firstn_length. replace (n - Nat.min n (length (left s)))%nat with O by lia. rewrite firstn_O, app_nil_r, firstn_firstn. f_equal. lia.
  - exists l. split; auto. split; auto. split; auto. split; auto. intros _. rewrite <- F. rewrite firstn_all2 by (rewrite bits_of_length; unfold ceil8 in L; lia).
    replace (8 * ceil8 n - n)%nat with O by (unfold ceil8; lia). now rewrite app_nil_r.
Qed.

Lemma be_loop_ok : forall l X, is_bytes l -> (length X + 8 * length l <= 64)%nat -> be_loop l (bitval X) = bitval (X ++ bits_of l).
Proof.
  induction l as [|c l IH]; intros X B H; cbn [be_loop length] in *; [cbn; now rewrite app_nil_r|]. inversion B; subst.
  rewrite bits_of_cons, app_assoc. rewrite <- IH; [|auto|rewrite app_length, bits_length; lia]. f_equal.
  rewrite bitval_app, bits_length, bitval_byte by auto. change (2 ^ N.of_nat 8) with 256.
  pose proof (bitval_bound X). assert (2 ^ N.of_nat (length X) <= 2 ^ 56) by (apply N.pow_le_mono_r; lia).
  rewrite N.shiftl_mul_pow2. change (2 ^ 8) with 256. rewrite N.mod_small by (change (2 ^ 64) with (2 ^ 56 * 256); nia).
  apply (lor_disj _ _ 8); [change (2 ^ 8) with 256; apply N.mod_mul; lia|assumption].
Qed.
Lemma read_uint_ok p s n : PRep p s -> room s (off s) n ->
  exists p', p_read_uint p n = Ok ((n <=? 64)%nat && (n <=? length (left s))%nat,
      if (n <=? 64)%nat && (n <=? length (left s))%nat then bitval (firstn n (left s)) else 0, p') /\
    PRep p' (if (n <=? 64)%nat && (n <=? length (left s))%nat then move s n else s).
Proof.
  intros R HR. pose proof (q_le _ _ R). pose proof (left_len p s R) as LL. unfold p_read_uint. destruct (Nat.eqb_spec n 0) as [->|Hn].
  - cbn [Nat.leb andb firstn]. exists p. split; auto. pose proof (seek_ok p s 0 R ltac:(lia)) as S. rewrite Nat.add_0_r in S. destruct p; exact S.
  - rewrite (p_len_ok p s R). destruct (Nat.ltb_spec 64 n), (Nat.leb_spec n 64); try lia; cbn [orb andb]; eauto.
    destruct (Nat.ltb_spec (length (left s)) n), (Nat.leb_spec n (length (left s))); try lia; eauto.
    destruct (next_bytes_ok p s 8 n false R) as (l & E & L & B & F & _); auto; try lia; [unfold ceil8; lia|]. rewrite E. cbn [bind].
    destruct (Nat.eqb_spec (length l) 0) as [Z|Z]; [unfold ceil8 in L; lia|].
    exists (seek p (po p + n)). split; [|apply seek_ok; auto; lia]. f_equal. f_equal. f_equal.
    rewrite <- F. assert (BE : be_loop l 0 = bitval (bits_of l)) by (apply (be_loop_ok l []); auto; cbn [length]; unfold ceil8 in L; lia).
    rewrite BE. destruct (Nat.ltb_spec 0 (n mod 8)) as [M|M].
    + rewrite N.shiftr_div_pow2. rewrite <- (firstn_skipn n (bits_of l)) at 1. rewrite bitval_app, skipn_length, bits_of_length, L.
      replace (N.of_nat (8 * ceil8 n - n)) with (8 - N.of_nat (n mod 8)) by (unfold ceil8; lia).
      pose proof (bitval_bound (skipn n (bits_of l))) as U. rewrite skipn_length, bits_of_length, L in U.
      replace (N.of_nat (8 * ceil8 n - n)) with (8 - N.of_nat (n mod 8)) in U by (unfold ceil8; lia).
      rewrite N.add_comm, N.div_add by (apply N.pow_nonzero; lia). rewrite N.div_small by exact U. reflexivity.
    + rewrite firstn_all2; auto. rewrite bits_of_length. unfold ceil8 in L. lia.
Qed.

(** ** Signed numbers *)
Lemma int64_small v : v < 2 ^ 63 -> int64 v = Z.of_N v.
Proof. intros H. unfold int64. destruct (N.ltb_spec v (2 ^ 63)); [auto|lia]. Qed.
Lemma pow_nat_le a b : (a <= b)%nat -> 2 ^ N.of_nat a <= 2 ^ N.of_nat b.
Proof. intros H. apply N.pow_le_mono_r; lia. Qed.
Lemma testbit_top x m : N.testbit (bitval (x :: m)) (N.of_nat (length m)) = x.
Proof.
  rewrite bitval_cons. pose proof (bitval_bound m). rewrite N.testbit_eqb. assert (P : 2 ^ N.of_nat (length m) <> 0) by (apply N.pow_nonzero; lia). destruct x.
  - replace (2 ^ N.of_nat (length m) + bitval m) with (bitval m + 1 * 2 ^ N.of_nat (length m)) by lia. rewrite N.div_add, N.div_small by auto. reflexivity.
  - rewrite N.add_0_l, N.div_small by auto. reflexivity.
Qed.
Lemma bitval_mod x m : bitval (x :: m) mod 2 ^ N.of_nat (length m) = bitval m.
Proof.
  rewrite bitval_cons. pose proof (bitval_bound m). assert (P : 2 ^ N.of_nat (length m) <> 0) by (apply N.pow_nonzero; lia). destruct x.
  - replace (2 ^ N.of_nat (length m) + bitval m) with (bitval m + 1 * 2 ^ N.of_nat (length m)) by lia. rewrite N.mod_add, N.mod_small by auto. reflexivity.
  - rewrite N.add_0_l. now apply N.mod_small.
Qed.
Lemma ones_ok x m : (0 < length m)%nat -> (length m < 64)%nat ->
  (if negb (N.land (bitval (x :: m)) (N.shiftl 1 (N.of_nat (S (length m)) - 1)) =? 0)
   then (- int64 (N.land (N.lxor (2 ^ 64 - 1) (bitval (x :: m))) (N.shiftl 1 (N.of_nat (S (length m)) - 1) - 1)))%Z
   else int64 (bitval (x :: m))) = signed OnesComp (x :: m).
Proof.
  intros H0 H. replace (N.of_nat (S (length m)) - 1) with (N.of_nat (length m)) by lia. rewrite testbit_land, testbit_top. cbn [signed].
  pose proof (bitval_bound m) as U. pose proof (pow_nat_le (length m) 63 ltac:(lia)) as LE. change (2 ^ N.of_nat 63) with (2 ^ 63) in LE.
  destruct x.
  - f_equal. rewrite bitval_negb.
    assert (E : N.land (N.lxor (2 ^ 64 - 1) (bitval (true :: m))) (N.shiftl 1 (N.of_nat (length m)) - 1) = N.lnot (bitval m) (N.of_nat (length m))).
    { apply N.bits_inj. intros i. rewrite N.shiftl_1_l. replace (2 ^ N.of_nat (length m) - 1) with (N.ones (N.of_nat (length m))) by (rewrite N.ones_equiv, N.sub_1_r; reflexivity).
      rewrite N.land_spec, N.lxor_spec. change (2 ^ 64 - 1) with (N.ones 64). rewrite <- (bitval_mod true m).
      destruct (N.lt_ge_cases i (N.of_nat (length m))) as [L|L].
      - rewrite !N.ones_spec_low by lia. rewrite N.lnot_spec_low by lia. rewrite N.mod_pow2_bits_low by lia. now rewrite Bool.andb_true_r.
      - rewrite (N.ones_spec_high (N.of_nat (length m))) by lia. rewrite N.lnot_spec_high by lia. rewrite N.mod_pow2_bits_high by lia. apply Bool.andb_false_r. }
    rewrite E. assert (LG : N.log2 (bitval m) < N.of_nat (length m)).
    { destruct (N.eq_dec (bitval m) 0) as [->|]; [cbn; lia|]. apply N.log2_lt_pow2; [lia|exact U]. }
    rewrite N.lnot_sub_low by exact LG. rewrite N.ones_equiv. rewrite int64_small; [f_equal; lia|lia].
  - rewrite bitval_cons, N.add_0_l. apply int64_small. lia.
Qed.
Lemma twos_ok x m : (length m < 64)%nat ->
  int64 ((N.lxor (bitval (x :: m)) (N.shiftl 1 (N.of_nat (S (length m)) - 1)) + 2 ^ 64 - N.shiftl 1 (N.of_nat (S (length m)) - 1)) mod 2 ^ 64) = signed TwosComp (x :: m).
Proof.
  intros H. replace (N.of_nat (S (length m)) - 1) with (N.of_nat (length m)) by lia. rewrite N.shiftl_1_l. cbn [signed].
  pose proof (bitval_bound m) as U. pose proof (pow_nat_le (length m) 63 ltac:(lia)) as LE. change (2 ^ N.of_nat 63) with (2 ^ 63) in LE.
  assert (NC : N.lxor (bitval m) (2 ^ N.of_nat (length m)) = bitval m + 2 ^ N.of_nat (length m)).
  { symmetry. apply N.add_nocarry_lxor. apply N.bits_inj. intros i. rewrite N.land_spec, N.bits_0, N.pow2_bits_eqb.
    destruct (N.eqb_spec (N.of_nat (length m)) i) as [<-|]; [|apply Bool.andb_false_r]. rewrite Bool.andb_true_r. rewrite N.testbit_eqb, N.div_small by auto. reflexivity. }
  assert (ZP : (2 ^ Z.of_nat (length m))%Z = Z.of_N (2 ^ N.of_nat (length m))) by (rewrite N2Z.inj_pow, nat_N_Z; reflexivity). rewrite ZP.
  rewrite bitval_cons. destruct x.
  - rewrite (N.add_comm (2 ^ N.of_nat (length m)) (bitval m)), <- NC, N.lxor_assoc, N.lxor_nilpotent, N.lxor_0_r. rewrite N.mod_small by lia. unfold int64.
    destruct (N.ltb_spec (bitval m + 2 ^ 64 - 2 ^ N.of_nat (length m)) (2 ^ 63)); lia.
  - rewrite N.add_0_l, NC. replace (bitval m + 2 ^ N.of_nat (length m) + 2 ^ 64 - 2 ^ N.of_nat (length m)) with (bitval m + 1 * 2 ^ 64) by lia.
    rewrite N.mod_add by lia. rewrite N.mod_small by lia. rewrite int64_small by lia. lia.
Qed.
Lemma read_int_ok p s n f : PRep p s -> pallowed s (PReadInt n f) ->
  exists p', (do '(ok, v, p) <- p_read_int p n f; Ok (OVal ok v, p)) = Ok (fst (pstep s (PReadInt n f)), p') /\ PRep p' (snd (pstep s (PReadInt n f))).
Proof.
  intros R (H64 & HR). cbn [pstep]. unfold p_read_int. destruct (Nat.ltb_spec n 2) as [H2|H2]; [cbn [bind fst snd]; eauto|].
  pose proof (left_len p s R) as LL. destruct f.
  - destruct (read_bit_ok p s R) as (p1 & E1 & R1). rewrite E1. cbn [bind]. destruct (left s) as [|x l] eqn:EL; cbn [hd_error length Nat.min] in *.
    + destruct (Nat.leb_spec n 0); [lia|]. cbn [fst snd bind]. eauto.
    + assert (L1 : left (move s 1) = l) by (rewrite left_move, EL; reflexivity).
      destruct (read_uint_ok p1 (move s 1) (n - 1) R1 HR) as (p2 & E2 & R2). rewrite E2. cbn [bind]. rewrite L1 in *.
      replace ((n - 1 <=? 64)%nat) with true in * by (symmetry; apply Nat.leb_le; lia). cbn [andb] in *.
      destruct (Nat.leb_spec (n - 1) (length l)), (Nat.leb_spec n (S (length l))); try lia; cbn [fst snd]; exists p2; split; auto.
      * f_equal. f_equal. f_equal. destruct n as [|n]; [lia|]. cbn [firstn signed]. replace (S n - 1)%nat with n by lia.
        assert (B : bitval (firstn n l) < 2 ^ 63).
        { eapply N.lt_le_trans; [apply bitval_bound|]. change (2 ^ 63) with (2 ^ N.of_nat 63). apply pow_nat_le. rewrite firstn_length. lia. }
        rewrite int64_small by exact B. reflexivity.
      * unfold move in *. cbn [all off mk cd] in *. now replace (off s + 1 + (n - 1))%nat with (off s + n)%nat in R2 by lia.
  - destruct (read_uint_ok p s n R HR) as (p2 & E2 & R2). rewrite E2. cbn [bind].
    replace ((n <=? 64)%nat) with true in * by (symmetry; apply Nat.leb_le; lia). cbn [andb] in *.
    destruct (Nat.leb_spec n (length (left s))) as [HL|HL]; cbn [fst snd negb]; exists p2; split; auto.
    f_equal. f_equal. f_equal. destruct n as [|n]; [lia|]. destruct (left s) as [|x l]; cbn [length] in *; [lia|]. rewrite firstn_cons.
    assert (LF : length (firstn n l) = n) by (rewrite firstn_length; lia). rewrite <- (ones_ok x (firstn n l)) by lia. now rewrite LF.
  - destruct (read_uint_ok p s n R HR) as (p2 & E2 & R2). rewrite E2. cbn [bind].
    replace ((n <=? 64)%nat) with true in * by (symmetry; apply Nat.leb_le; lia). cbn [andb] in *.
    destruct (Nat.leb_spec n (length (left s))) as [HL|HL]; cbn [fst snd negb]; exists p2; split; auto.
    f_equal. f_equal. f_equal. destruct n as [|n]; [lia|]. destruct (left s) as [|x l]; cbn [length] in *; [lia|]. rewrite firstn_cons.
    assert (LF : length (firstn n l) = n) by (rewrite firstn_length; lia). rewrite <- (twos_ok x (firstn n l)) by lia. now rewrite LF.
Qed.

(** ** Counting *)
Notation ctrue := (fun l => count_occ Bool.bool_dec l true).
Lemma popcount_bits x : is_byte x -> popcount8 x = Ok (N.of_nat (ctrue (bits 8 x))).
Proof.
  intros H. pose proof (byte_sweep (fun x => match popcount8 x with Ok v => v =? N.of_nat (ctrue (bits 8 x)) | _ => false end) ltac:(vm_compute; reflexivity) H) as S.
  cbv beta in S. destruct (popcount8 x); try discriminate. apply N.eqb_eq in S. now subst.
Qed.
Lemma pop_loop_ok m : is_bytes m -> forall k i c, (i + k <= length m)%nat ->
  pop_loop m i k c = Ok (c + N.of_nat (ctrue (bits_of (firstn k (skipn i m))))).
Proof.
  intros B. induction k as [|k IH]; intros i c H; cbn [pop_loop].
  - rewrite firstn_O. cbn. f_equal. lia.
  - destruct (skipn_rd m (i := i) ltac:(lia)) as (a & EA & _ & SA). rewrite EA. cbn [bind]. rewrite popcount_bits by exact (rd_byte _ _ _ B EA). cbn [bind].
    rewrite IH by lia. rewrite SA, firstn_cons, bits_of_cons, count_occ_app. f_equal. lia.
Qed.
Lemma count_repeat k : ctrue (repeat false k) = O.
Proof. induction k; cbn; auto. Qed.
Lemma count_two l : (ctrue l + count_occ Bool.bool_dec l false = length l)%nat.
Proof. induction l as [|[|] l IH]; cbn; lia. Qed.
Lemma bits8_land_shift x r : (r < 8)%nat -> ctrue (bits 8 (N.land (N.shiftl x (N.of_nat r)) 255)) = ctrue (skipn r (bits 8 x)).
Proof.
  intros H. rewrite !bits8. rewrite !N.land_spec.
  do 8 (destruct r as [|r]; [cbn -[N.shiftl N.testbit]; repeat (rewrite N.shiftl_spec_high' by lia); repeat (rewrite N.shiftl_spec_low by lia); cbn -[N.testbit];
    rewrite ?Bool.andb_true_r; reflexivity|]). lia.
Qed.
Lemma p_count_ok p s b : PRep p s -> cd_clean s -> exists z, p_count p b = Ok z /\ Z.to_nat z = count_occ Bool.bool_dec (left s) b.
Proof.
  intros R C. unfold p_count. pose proof (left_len p s R) as LL. rewrite (q_n _ _ R), (q_o _ _ R). pose proof (q_len _ _ R) as QL. pose proof (q_bytes _ _ R) as QB.
  destruct (Nat.leb_spec (length (all s)) (off s)) as [H|H].
  - exists 0%Z. split; auto. destruct (left s); [reflexivity|cbn in LL; lia].
  - destruct (used_bits p s R C) as (k & U & K). set (N1 := ceil8 (length (all s))) in *.
    assert (HN : (N1 <= length (pm p))%nat) by (unfold N1, ceil8; lia).
    assert (X : exists i c, (if (0 <? off s mod 8)%nat then do x <- rd (pm p) (off s / 8); do y <- popcount8 (N.land (N.shiftl x (N.of_nat (off s mod 8))) 255); Ok (S (off s / 8), y) else Ok ((off s / 8)%nat, 0)) = Ok (i, c) /\
       (i <= N1)%nat /\ (c + N.of_nat (ctrue (bits_of (firstn (N1 - i) (skipn i (pm p))))) = N.of_nat (ctrue (left s)))).
    { assert (CT : ctrue (skipn (off s) (bits_of (firstn N1 (pm p)))) = ctrue (left s)).
      { rewrite U. unfold left. rewrite skipn_app. replace (off s - length (all s))%nat with O by lia. rewrite skipn_O, count_occ_app, count_repeat. lia. }
      assert (SP : forall i, (i <= N1)%nat -> firstn (N1 - i) (skipn i (pm p)) = skipn i (firstn N1 (pm p))) by (intros; now rewrite skipn_firstn_comm).
      destruct (Nat.ltb_spec 0 (off s mod 8)) as [Z|Z].
      - assert (HI : (off s / 8 < N1)%nat) by (unfold N1, ceil8; lia).
        destruct (skipn_rd (firstn N1 (pm p)) (i := (off s / 8)%nat)) as (a & EA & _ & SA); [rewrite firstn_length; lia|].
        assert (EA' : rd (pm p) (off s / 8) = Ok a).
        { unfold rd in *. rewrite firstn_nth_error in EA. destruct (Nat.ltb_spec (off s / 8) N1); [exact EA|lia]. }
        rewrite EA'. cbn [bind]. rewrite popcount_bits by (unfold is_byte; change 255 with (N.ones 8); rewrite N.land_ones; change (2 ^ 8) with 256; apply N.mod_lt; lia).
        cbn [bind]. do 2 eexists. split; [reflexivity|]. split; [lia|]. rewrite bits8_land_shift by lia. rewrite SP by lia.
        rewrite <- CT. replace (off s) with (8 * (off s / 8) + off s mod 8)%nat at 3 by lia. rewrite <- skipn_skipn, skipn_bits_of, SA, bits_of_cons, skipn_app, bits_length.
        replace (off s mod 8 - 8)%nat with O by lia. rewrite skipn_O, count_occ_app. lia.
      - do 2 eexists. split; [reflexivity|]. split; [unfold N1, ceil8; lia|]. rewrite SP by (unfold N1, ceil8; lia). rewrite <- CT. rewrite <- skipn_bits_of.
        rewrite N.add_0_l. replace (8 * (off s / 8))%nat with (off s) by lia. reflexivity. }
    destruct X as (i & c & E & HI & EC). rewrite E. cbn [bind]. rewrite pop_loop_ok by (auto; lia). cbn [bind]. rewrite EC.
    pose proof (count_two (left s)). eexists. split; [reflexivity|]. destruct b; lia.
Qed.

(** ** Runs *)
Lemma run_le b l : (run_of b l <= length l)%nat.
Proof. induction l as [|x l IH]; cbn; [lia|]. destruct (Bool.eqb x b); lia. Qed.
Lemma range_loop_ok : forall fuel p s b n max x l, PRep p s -> left s = x :: l -> (length (left s) < fuel)%nat -> (n < max)%nat ->
  exists p', range_loop fuel p b n max = Ok ((n + S (run_of b (firstn (max - n - 1) l)))%nat, p') /\ PRep p' (move s (S (run_of b (firstn (max - n - 1) l)))).
Proof.
  induction fuel as [|fuel IH]; intros p s b n max x l R EL HF HM; [lia|]. cbn [range_loop].
  pose proof (left_len p s R) as LL. rewrite EL in LL, HF. cbn [length] in *.
  pose proof (seek_ok p s 1 R ltac:(lia)) as R1. rewrite Nat.add_1_r in R1.
  assert (L1 : left (move s 1) = l) by (rewrite left_move, EL; reflexivity).
  destruct (Nat.ltb_spec (S n) max) as [H|H].
  - rewrite (peek_bit_ok _ _ R1), L1. cbn [bind]. destruct l as [|y l']; cbn [hd_error].
    + rewrite firstn_nil. cbn [run_of]. eexists. split; [do 2 f_equal; lia|]. exact R1.
    + replace (max - n - 1)%nat with (S (max - S n - 1)) by lia. rewrite firstn_cons. cbn [run_of]. destruct (Bool.eqb y b).
      * destruct (IH _ (move s 1) b (S n) max y l' R1 L1) as (p' & E' & R'); [rewrite L1; cbn [length] in *; lia|lia|].
        exists p'. rewrite E'. split; [do 2 f_equal; lia|]. unfold move in *. cbn [all off mk cd] in *.
        match goal with |- PRep _ (mkbs _ ?a _ _) => match type of R' with PRep _ (mkbs _ ?b _ _) => replace a with b by lia end end. exact R'.
      * eexists. split; [do 2 f_equal; lia|]. exact R1.
  - replace (max - n - 1)%nat with O by lia. rewrite firstn_O. cbn [run_of]. eexists. split; [do 2 f_equal; lia|]. exact R1.
Qed.
Lemma read_range_ok p s max x l : PRep p s -> left s = x :: l -> (0 < max)%nat ->
  exists p', p_read_range p max = Ok (true, x, run_of x (firstn max (left s)), p') /\ PRep p' (move s (run_of x (firstn max (left s)))).
Proof.
  intros R EL HM. unfold p_read_range. destruct (Nat.eqb_spec max 0); [lia|]. rewrite (peek_bit_ok _ _ R), EL. cbn [bind hd_error].
  pose proof (left_len p s R) as LL.
  destruct (range_loop_ok (S (pn p)) p s x 0 max x l R EL) as (p' & E & R'); [rewrite (q_n _ _ R); lia|lia|]. rewrite E. cbn [bind].
  exists p'. destruct max as [|max]; [lia|]. rewrite firstn_cons. cbn [run_of]. rewrite Bool.eqb_reflx.
  replace (S max - 0 - 1)%nat with max in * by lia. cbn [Nat.add]. auto.
Qed.
Lemma to_next_ok p s b max : PRep p s ->
  exists p', (do '(ok, p) <- p_to_next p b max; Ok (OBool ok, p)) = Ok (fst (pstep s (PToNext b max)), p') /\ PRep p' (snd (pstep s (PToNext b max))).
Proof.
  intros R. cbn [pstep]. unfold p_to_next. rewrite (p_len_ok p s R). pose proof (left_len p s R) as LL. pose proof (q_le _ _ R) as QL.
  assert (M0 : PRep p (move s 0)) by (pose proof (seek_ok p s 0 R ltac:(lia)) as S; rewrite Nat.add_0_r in S; destruct p; exact S).
  destruct (Nat.eqb_spec (Nat.min (length (left s)) max) 0) as [Z|Z].
  - assert (E : firstn max (left s) = []) by (apply length_zero_iff_nil; rewrite firstn_length; lia). rewrite E. cbn [run_of length Nat.ltb Nat.leb bind fst snd]. eauto.
  - destruct (left s) as [|x l] eqn:EL; [cbn in Z; lia|]. rewrite (next_bit_ok p s x l R EL). cbn [bind].
    assert (FM : firstn (Nat.min (length (x :: l)) max) (x :: l) = firstn max (x :: l)).
    { rewrite <- firstn_firstn. apply firstn_all2. rewrite firstn_length. lia. }
    destruct max as [|max]; [lia|]. destruct (Bool.eqb x b) eqn:EB.
    + apply Bool.eqb_prop in EB. subst b. rewrite firstn_cons. cbn [run_of]. replace (Bool.eqb x (negb x)) with false by (destruct x; reflexivity).
      cbn [length Nat.ltb Nat.leb bind fst snd]. eexists. split; [reflexivity|]. rewrite <- Nat.add_1_r. apply seek_ok; auto. cbn [length] in LL. lia.
    + assert (NB : negb b = x) by (destruct x, b; try reflexivity; discriminate). rewrite NB.
      destruct (read_range_ok p s (Nat.min (length (x :: l)) (S max)) x l R EL ltac:(lia)) as (p' & E & R'). rewrite E. cbn [bind]. rewrite EL in R'. rewrite EL in *. rewrite FM in *.
      set (k := run_of x (firstn (S max) (x :: l))) in *. rewrite firstn_length. rewrite Nat.min_comm.
      destruct (Nat.leb_spec (Nat.min (S max) (length (x :: l))) k), (Nat.ltb_spec k (Nat.min (S max) (length (x :: l)))); try lia; cbn [bind fst snd].
      * eauto.
      * eexists. split; [reflexivity|]. pose proof (seek_ok _ _ 1 R') as S1. rewrite (Nat.add_1_r (po p')) in S1. cbn [move all off mk cd] in S1. specialize (S1 ltac:(lia)).
        unfold move in *. cbn [all off mk cd] in *. replace (off s + S k)%nat with (off s + k + 1)%nat by lia. exact S1.
Qed.

(** ** Every operation *)
Lemma pstep_ok p s o : PRep p s -> pallowed s o ->
  exists p', pstep_m p o = Ok (fst (pstep s o), p') /\ PRep p' (snd (pstep s o)).
Proof.
  intros R A. pose proof (left_len p s R) as LL. pose proof (q_le _ _ R) as QL.
  assert (M0 : PRep p (move s 0)) by (pose proof (seek_ok p s 0 R ltac:(lia)) as S; rewrite Nat.add_0_r in S; destruct p; exact S).
  destruct o as [d n|v n|c|d n| | |b| | | | |n| | |n|n dl|n|n f|max|b max]; cbn [pstep_m].
  - destruct A as (G & C & CC). cbn [pstep]. unfold p_append. destruct (Nat.eqb_spec n 0); [cbn [bind fst snd]; eauto|].
    destruct (ensure_append_ok p s R CC) as (b & E & RB). rewrite E. cbn [bind]. destruct (add_bytes_ok b _ d n RB G C) as (b' & E' & RB'). rewrite E'. cbn [bind fst snd].
    eexists. split; [reflexivity|]. now apply extend_own.
  - cbn [pstep]. unfold p_append_uint. destruct (Nat.eqb_spec n 0) as [|Hn]; [cbn [bind fst snd]; eauto|].
    destruct (ensure_append_ok p s R A) as (b & E & RB). rewrite E. cbn [bind]. destruct (add_ok b _ v n PNone RB) as (b' & E' & RB').
    rewrite E'. cbn [bind fst snd]. eexists. split; [reflexivity|]. apply extend_own; auto.
    replace (0 <? n)%nat with true in RB' by (symmetry; apply Nat.ltb_lt; lia). destruct (Nat.leb_spec n 64); cbn [andb] in RB'; rewrite ?app_nil_r; exact RB'.
  - cbn [pstep]. unfold p_append_bitstr. destruct c as [|c cs]; [cbn [bind fst snd]; eauto|].
    destruct (ensure_append_ok p s R A) as (b & E & RB). rewrite E. cbn [bind]. destruct (add_bitstr_ok b _ (c :: cs) PNone RB) as (b' & E' & RB').
    rewrite E'. unfold bstep in RB' |- *. destruct (read_bits (c :: cs)) as (l, ok) eqn:ER. cbn [bind fst snd] in *.
    eexists. split; [reflexivity|]. apply extend_own; auto.
  - destruct A as (G & C). cbn [pstep fst snd]. unfold p_reset.
    assert (X : exists b, (match pb p with Some b => truncate b 0 | None => Ok bb_create end) = Ok b /\ Rep b []).
    { pose proof (q_own _ _ R) as O. destruct (cd s).
      - destruct O as (_ & ->). exists bb_create. split; auto. apply create_ok.
      - destruct O as (b & -> & RB & _). destruct (truncate_ok b _ 0 RB ltac:(lia)) as (b' & E' & RB'). eauto. }
    destruct X as (b & E & RB). rewrite E. cbn [bind]. destruct (add_bytes_ok b [] d n RB G (fun _ => C)) as (b' & E' & RB'). rewrite E'. cbn [bind app] in *.
    eexists. split; [reflexivity|]. apply owned_ok; auto. lia.
  - cbn [pstep fst snd]. rewrite (p_len_ok p s R). eauto.
  - cbn [pstep fst snd]. rewrite (q_o _ _ R). eauto.
  - cbn [pstep fst snd]. destruct (p_count_ok p s b R A) as (z & E & EZ). rewrite E. cbn [bind]. rewrite EZ. eauto.
  - cbn [pstep fst snd]. eexists. split; [reflexivity|]. destruct R. constructor; cbn [pm pn po pk pb all off mk cd]; auto; lia.
  - cbn [pstep fst snd]. eexists. split; [reflexivity|]. destruct R. constructor; cbn [pm pn po pk pb all off mk cd]; auto; lia.
  - cbn [pstep fst snd]. rewrite (q_o _ _ R), (q_k _ _ R). eauto.
  - cbn [pstep fst snd]. rewrite (q_o _ _ R), (q_k _ _ R). eexists. split; [reflexivity|]. destruct R. constructor; cbn [seek pm pn po pk pb all off mk cd]; auto; lia.
  - cbn [pstep]. unfold p_consume. rewrite (p_len_ok p s R). destruct (Nat.eqb_spec n 0) as [->|Hn]; [cbn [Nat.leb fst snd]; eauto|].
    destruct (Nat.ltb_spec (length (left s)) n), (Nat.leb_spec n (length (left s))); try lia; cbn [fst snd]; eauto.
    eexists. split; [reflexivity|]. apply seek_ok; auto. lia.
  - cbn [pstep]. rewrite (peek_bit_ok p s R). cbn [bind]. destruct (left s); cbn [hd_error fst snd]; eauto.
  - cbn [pstep]. destruct (read_bit_ok p s R) as (p' & E & R'). rewrite E. cbn [bind]. destruct (left s); cbn [hd_error fst snd length Nat.min] in *; [|eauto].
    exists p'. split; auto. replace s with (move s 0); [exact R'|]. unfold move. rewrite Nat.add_0_r. now destruct s.
  - cbn [pstep]. unfold p_read_bits. rewrite (p_len_ok p s R). destruct (Nat.eqb_spec n 0) as [->|Hn]; [cbn [Nat.leb fst snd firstn bind]; eauto|].
    destruct (Nat.ltb_spec (length (left s)) n), (Nat.leb_spec n (length (left s))); try lia; cbn [fst snd bind]; eauto.
    destruct (bits_loop_ok n p s [] R ltac:(lia)) as (p' & E & R'). rewrite E. cbn [bind app]. eauto.
  - cbn [pstep]. unfold p_read_bytes. destruct (Nat.eqb_spec n 0) as [->|Hn]; [cbn [Nat.leb fst snd firstn bind andb ceil8]; eauto|].
    destruct (Nat.eqb_spec dl 0) as [->|Hd].
    { replace (ceil8 n <=? 0)%nat with false by (symmetry; apply Nat.leb_gt; unfold ceil8; lia). rewrite Bool.andb_false_r. cbn [bind fst snd]. eauto. }
    destruct (Nat.leb_spec n (length (left s))) as [H1|H1]; cbn [andb].
    2:{ unfold next_bytes. rewrite (q_n _ _ R), (q_o _ _ R). destruct (Nat.eqb_spec n 0); [lia|]. destruct (Nat.ltb_spec (length (all s)) (off s + n)); [|lia].
        cbn [bind length Nat.eqb fst snd]. eauto. }
    destruct (Nat.leb_spec (ceil8 n) dl) as [H2|H2].
    2:{ unfold next_bytes. rewrite (q_n _ _ R), (q_o _ _ R). destruct (Nat.eqb_spec n 0); [lia|]. destruct (Nat.ltb_spec (length (all s)) (off s + n)); [lia|].
        destruct (Nat.ltb_spec dl (ceil8 n)); [|lia]. cbn [bind length Nat.eqb fst snd]. eauto. }
    destruct (next_bytes_ok p s dl n true R) as (l & E & L & B & _ & BB); auto; [lia|]. specialize (BB eq_refl). rewrite E. cbn [bind].
    destruct (Nat.eqb_spec (length l) 0); [unfold ceil8 in L; lia|]. cbn [fst snd bind]. rewrite (pack_unique _ _ _ B BB) by (unfold ceil8; lia).
    eexists. split; [reflexivity|]. apply seek_ok; auto. lia.
  - cbn [pstep]. destruct (read_uint_ok p s n R A) as (p' & E & R'). rewrite E. cbn [bind].
    destruct ((n <=? 64)%nat && (n <=? length (left s))%nat); cbn [fst snd]; eauto.
  - now apply read_int_ok.
  - cbn [pstep]. destruct (left s) as [|x l] eqn:EL.
    + unfold p_read_range. destruct (Nat.eqb_spec max 0); [cbn [bind fst snd]; eauto|]. rewrite (peek_bit_ok p s R), EL. cbn [hd_error bind fst snd]. eauto.
    + destruct (Nat.eqb_spec max 0) as [->|Hm].
      * cbn [p_read_range Nat.eqb bind fst snd]. eauto.
      * destruct (read_range_ok p s max x l R EL ltac:(lia)) as (p' & E & R'). rewrite E. cbn [bind fst snd]. rewrite EL in *. eauto.
  - now apply to_next_ok.
Qed.
Lemma prun_ok : forall ops p s rs, PRep p s -> pall_allowed ops s ->
  exists p', prun_m ops p rs = Ok (fst (prun ops s rs), p') /\ PRep p' (snd (prun ops s rs)).
Proof.
  induction ops as [|o ops IH]; intros p s rs R A; cbn [prun_m prun]; [cbn; eauto|]. destruct A as (A & AS).
  destruct (pstep_ok p s o R A) as (p1 & E1 & R1). rewrite E1. cbn [bind]. destruct (pstep s o) as (r, s'). cbn [fst snd] in *. now apply IH.
Qed.

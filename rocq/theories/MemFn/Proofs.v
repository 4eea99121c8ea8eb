(** Proofs about the memory functions. *)
From Verif Require Import Base.Lib Base.Mem Base64.Proofs MemFn.Model MemFn.Spec.
Local Open Scope N_scope.

(** ** Comparison and search *)

Lemma mem_eq_loop_ok : forall k m1 m2 i r, (i + k <= length m1)%nat -> (i + k <= length m2)%nat ->
  exists e, mem_eq_loop m1 m2 i k r = Ok e /\ (e = true <-> r = 0 /\ firstn k (skipn i m1) = firstn k (skipn i m2)).
Proof.
  induction k as [|k IH]; intros m1 m2 i r H1 H2; cbn [mem_eq_loop].
  - exists (r =? 0). split; auto. rewrite !firstn_O, N.eqb_eq. tauto.
  - destruct (skipn_rd m1 (i := i) ltac:(lia)) as (a & Ea & _ & S1).
    destruct (skipn_rd m2 (i := i) ltac:(lia)) as (b & Eb & _ & S2).
    rewrite Ea, Eb. cbn [bind].
    destruct (IH m1 m2 (S i) (N.lor r (N.lxor a b))) as (e & Ee & He); try lia.
    exists e. split; auto. rewrite He, S1, S2. cbn [firstn]. rewrite N.lor_eq_0_iff, N.lxor_eq_0_iff.
    split; [intros [[-> ->] ->]; auto|]. intros [-> Q]. injection Q as -> Q. auto.
Qed.
Lemma mem_eq_ok m1 m2 k : (k <= length m1)%nat -> (k <= length m2)%nat ->
  exists e, mem_eq m1 m2 k = Ok e /\ (e = true <-> firstn k m1 = firstn k m2).
Proof.
  intros H1 H2. destruct (mem_eq_loop_ok k m1 m2 0 0 H1 H2) as (e & E & He). exists e. split; auto.
  rewrite He, !skipn_O. tauto.
Qed.

Lemma occurs_firstn n h i : occurs_at n h i <-> firstn (length n) (skipn i h) = n /\ (i + length n <= length h)%nat.
Proof.
  split.
  - intros (x & y & -> & L). rewrite skipn_len by auto. rewrite firstn_len by auto. split; auto. rewrite !app_length. lia.
  - intros [E L]. exists (firstn i h), (skipn (length n) (skipn i h)).
    rewrite <- E at 1. rewrite !firstn_skipn, firstn_length. split; auto. lia.
Qed.

Lemma mem_eq_occurs n h i : (i + length n <= length h)%nat ->
  exists e, mem_eq (skipn i h) n (length n) = Ok e /\ (e = true <-> occurs_at n h i).
Proof.
  intros H. destruct (mem_eq_ok (skipn i h) n (length n)) as (e & E & He); [rewrite skipn_length; lia|lia|].
  exists e. split; auto. rewrite He, firstn_all, occurs_firstn. tauto.
Qed.

Lemma memchr_ok m c : forall n i, (i + n <= length m)%nat ->
  exists r, memchr m i c n = Ok r /\
   match r with
   | None => forall j, (i <= j < i + n)%nat -> nth_error m j <> Some c
   | Some p => (i <= p < i + n)%nat /\ nth_error m p = Some c /\ forall j, (i <= j < p)%nat -> nth_error m j <> Some c
   end.
Proof.
  induction n as [|n IH]; intros i H; cbn [memchr].
  - exists None. split; auto. intros; lia.
  - destruct (skipn_rd m (i := i) ltac:(lia)) as (x & Ex & Nx & _). rewrite Ex. cbn [bind].
    destruct (N.eqb_spec x c) as [->|Hc].
    + exists (Some i). repeat split; auto; try lia.
    + destruct (IH (S i) ltac:(lia)) as (r & -> & Hr). exists r. split; auto. destruct r as [p|].
      * destruct Hr as (B & Np & Hj). repeat split; auto; try lia. intros j Hj'.
        destruct (Nat.eq_dec j i) as [->|]; [rewrite Nx; congruence|apply Hj; lia].
      * intros j Hj'. destruct (Nat.eq_dec j i) as [->|]; [rewrite Nx; congruence|apply Hr; lia].
Qed.

Lemma occurs_head n h i c : nth_error n 0 = Some c -> occurs_at n h i -> nth_error h i = Some c.
Proof.
  intros Hc (x & y & -> & <-). destruct n; [discriminate|]. injection Hc as ->. cbn [app]. apply nth_error_mid. auto.
Qed.

Definition first_at (n h : list N) (r : option nat) : Prop :=
  match r with
  | None => forall i, ~ occurs_at n h i
  | Some p => occurs_at n h p /\ forall i, (i < p)%nat -> ~ occurs_at n h i
  end.

Lemma mem_mem_loop_ok h n : n <> [] -> (length n <= length h)%nat -> forall fuel i,
  (i <= length h)%nat -> (length h - i < fuel)%nat -> (forall j, (j < i)%nat -> ~ occurs_at n h j) ->
  exists r, mem_mem_loop fuel h (length h) n (length n) i = Ok r /\ first_at n h r.
Proof.
  intros Hn Hl. induction fuel as [|f IH]; intros i Hi Hf Hno; [lia|]. cbn [mem_mem_loop].
  assert (Far : forall j, (length h - length n < j)%nat -> ~ occurs_at n h j).
  { intros j Hj O. apply occurs_firstn in O. lia. }
  destruct (Nat.ltb_spec (length h - length n) i) as [H|H].
  { exists None. split; auto. intros j O. destruct (Nat.lt_ge_cases j i); [apply (Hno j)|apply (Far j)]; auto; lia. }
  destruct n as [|c n]; [congruence|]. cbn [rd nth_error bind].
  destruct (memchr_ok h c (length h - i) i ltac:(lia)) as (r & -> & Hr). cbn [bind].
  destruct r as [p|].
  - destruct Hr as (B & Np & Hj).
    assert (Hno' : forall j, (j < p)%nat -> ~ occurs_at (c :: n) h j).
    { intros j Hlt O. destruct (Nat.lt_ge_cases j i); [apply (Hno j); auto|].
      apply (Hj j ltac:(lia)). eapply occurs_head; eauto. reflexivity. }
    destruct (Nat.ltb_spec (length h - length (c :: n)) p) as [H2|H2].
    + exists None. split; auto. intros j O. destruct (Nat.lt_ge_cases j p); [apply (Hno' j)|apply (Far j)]; auto; lia.
    + destruct (mem_eq_occurs (c :: n) h p ltac:(lia)) as (e & -> & He). cbn [bind]. destruct e.
      * exists (Some p). split; auto. split; auto. now apply He.
      * apply IH; try lia. intros j Hlt. destruct (Nat.eq_dec j p) as [->|]; [rewrite <- He; congruence|apply Hno'; lia].
  - exists None. split; auto. intros j O. destruct (Nat.lt_ge_cases j i); [apply (Hno j); auto|].
    apply (Hr j); [|eapply occurs_head; eauto; reflexivity]. apply occurs_firstn in O. cbn [length] in *. lia.
Qed.

Lemma mem_mem_ok h n : exists r, mem_mem h (length h) n (length n) = Ok r /\
  (h = [] -> r = None) /\ (h <> [] -> first_at n h r).
Proof.
  unfold mem_mem. destruct (Nat.eqb_spec (length h) 0) as [Z|Z]; cbn [orb].
  { destruct h; [|cbn in Z; lia]. exists None. repeat split; auto. congruence. }
  assert (Hh : h <> []) by (intros ->; auto).
  destruct (Nat.ltb_spec (length h) (length n)) as [H|H].
  { exists None. split; auto. split; [congruence|]. intros _ i O. apply occurs_firstn in O. lia. }
  destruct (Nat.eqb_spec (length n) 0) as [Zn|Zn].
  { destruct n; [|cbn in Zn; lia]. exists (Some O). split; auto. split; [congruence|]. intros _. split; [|lia]. exists [], h. auto. }
  destruct (mem_mem_loop_ok h n) with (fuel := S (length h)) (i := O) as (r & E & Hr); try lia.
  { intros ->. auto. }
  exists r. split; auto. split; [congruence|auto].
Qed.

Lemma rmem_loop_ok h n : (length n <= length h)%nat -> forall i, (i <= length h - length n + 1)%nat ->
  (forall j, (i <= j)%nat -> ~ occurs_at n h j) ->
  exists r, rmem_loop h n (length n) i = Ok r /\
    match r with None => forall i, ~ occurs_at n h i | Some p => occurs_at n h p /\ forall j, (p < j)%nat -> ~ occurs_at n h j end.
Proof.
  intros Hl. induction i as [|i IH]; intros Hi Hno; cbn [rmem_loop].
  - exists None. split; auto. intros j. apply Hno. lia.
  - destruct (mem_eq_occurs n h i ltac:(lia)) as (e & -> & He). cbn [bind]. destruct e.
    + exists (Some i). split; auto. split; [now apply He|]. intros j Hj. apply Hno. lia.
    + apply IH; [lia|]. intros j Hj. destruct (Nat.eq_dec j i) as [->|]; [rewrite <- He; congruence|apply Hno; lia].
Qed.
Lemma mem_rmem_ok h n : h <> [] -> n <> [] -> exists r, mem_rmem h (length h) n (length n) = Ok r /\
    match r with None => forall i, ~ occurs_at n h i | Some p => occurs_at n h p /\ forall j, (p < j)%nat -> ~ occurs_at n h j end.
Proof.
  intros Hh Hn. unfold mem_rmem.
  destruct (Nat.eqb_spec (length h) 0) as [Z|Z]; [destruct h; [congruence|discriminate]|].
  destruct (Nat.eqb_spec (length n) 0) as [Zn|Zn]; [destruct n; [congruence|discriminate]|].
  destruct (Nat.ltb_spec (length h) (length n)) as [H|H].
  { exists None. split; auto. intros i O. apply occurs_firstn in O. lia. }
  apply rmem_loop_ok; auto. intros j Hj O. apply occurs_firstn in O. lia.
Qed.

Lemma mem_count_ok b : forall s2 s1 cnt,
  mem_count (s1 ++ s2) (length s1) (length s2) b cnt = Ok (cnt + count_occ N.eq_dec s2 b)%nat.
Proof.
  induction s2 as [|x s2 IH]; intros s1 cnt; cbn [mem_count length count_occ].
  - f_equal. lia.
  - rewrite rd_mid by auto. cbn [bind].
    specialize (IH (s1 ++ [x])). rewrite <- app_assoc, app_length in IH. cbn [app length] in IH.
    replace (S (length s1)) with (length s1 + 1)%nat by lia. rewrite IH.
    f_equal. destruct (N.eqb_spec x b), (N.eq_dec x b); try congruence; lia.
Qed.

Lemma swap_bytes_ok s i j : exists ok s', swap_bytes s i j = Ok (ok, s') /\
  (ok = true <-> (i < length s /\ j < length s)%nat) /\ (ok = false -> s' = s) /\
  (ok = true -> length s' = length s /\
     forall k, nth_error s' k = nth_error s (if k =? i then j else if k =? j then i else k)%nat).
Proof.
  unfold swap_bytes.
  destruct (Nat.eqb_spec (length s) 0) as [|H0]; cbn [orb]; [exists false, s; repeat split; auto; intros; try congruence; lia|].
  destruct (Nat.leb_spec (length s) i) as [|Hi]; cbn [orb]; [exists false, s; repeat split; auto; intros; try congruence; lia|].
  destruct (Nat.leb_spec (length s) j) as [|Hj]; [exists false, s; repeat split; auto; intros; try congruence; lia|].
  destruct (Nat.eqb_spec i j) as [<-|Hij].
  { exists true, s. repeat split; auto; try congruence. intros k. destruct (Nat.eqb_spec k i); subst; auto. }
  destruct (skipn_rd s Hi) as (b & Eb & Nb & _). destruct (skipn_rd s Hj) as (c & Ec & Nc & _).
  rewrite Eb, Ec. cbn [bind]. rewrite wr_lt by auto. cbn [bind]. rewrite wr_lt by (rewrite length_upd; auto). cbn [bind].
  exists true. eexists. split; [reflexivity|]. repeat split; auto; try congruence; [rewrite !length_upd; auto|].
  intros k. rewrite !nth_error_upd. rewrite length_upd.
  destruct (Nat.eqb_spec k i), (Nat.eqb_spec k j); subst; try congruence;
  repeat match goal with |- context [Nat.eqb ?a ?b] => destruct (Nat.eqb_spec a b) end;
  repeat match goal with |- context [Nat.ltb ?a ?b] => destruct (Nat.ltb_spec a b) end; subst; cbn; try congruence; try lia.
Qed.

(** ** LRC *)

Lemma lxor_mod a b k : (0 <= k)%Z -> (Z.lxor a b mod 2 ^ k = Z.lxor (a mod 2 ^ k) (b mod 2 ^ k))%Z.
Proof.
  intros Hk. apply Z.bits_inj'. intros i Hi. rewrite Z.lxor_spec.
  destruct (Z.lt_ge_cases i k).
  - rewrite !Z.mod_pow2_bits_low by lia. apply Z.lxor_spec.
  - rewrite !Z.mod_pow2_bits_high by lia. reflexivity.
Qed.
Lemma schar_mod b : is_byte b -> (schar b mod 2 ^ 8 = Z.of_N b)%Z.
Proof.
  intros Hb. unfold is_byte in Hb. unfold schar. destruct (N.ltb_spec b 128); change (2 ^ 8)%Z with 256%Z.
  - apply Z.mod_small. lia.
  - symmetry. apply Z.mod_unique with (q := (-1)%Z); lia.
Qed.
Lemma of_N_lxor a b : Z.of_N (N.lxor a b) = Z.lxor (Z.of_N a) (Z.of_N b).
Proof. destruct a, b; reflexivity. Qed.
Lemma lrc_ok s : is_bytes s -> mem_lrc s = fold_left N.lxor s 0.
Proof.
  intros Hs. unfold mem_lrc. change 256%Z with (2 ^ 8)%Z.
  assert (G : forall s z n, is_bytes s -> (z mod 2 ^ 8)%Z = Z.of_N n ->
    (fold_left (fun l b => Z.lxor l (schar b)) s z mod 2 ^ 8)%Z = Z.of_N (fold_left N.lxor s n)).
  { clear. induction s as [|b s IH]; intros z n Hs E; cbn [fold_left]; auto. inversion Hs; subst.
    apply IH; auto. rewrite lxor_mod, E, schar_mod by (auto; lia). now rewrite of_N_lxor. }
  rewrite (G s 0%Z 0); auto. apply N2Z.id.
Qed.

(** ** Byte order *)

Lemma land_byte n k : N.land n (N.shiftl 255 k) = N.shiftl (N.shiftr n k mod 256) k.
Proof.
  change 256 with (2 ^ 8). rewrite <- N.land_ones. change (N.ones 8) with 255.
  apply N.bits_inj. intros i. rewrite N.land_spec.
  destruct (N.lt_ge_cases i k).
  - rewrite !N.shiftl_spec_low by auto. apply andb_false_r.
  - rewrite !N.shiftl_spec_high' by auto. rewrite N.land_spec, N.shiftr_spec'. do 2 f_equal. lia.
Qed.

(** A byte of [n] moved from bit [k] to bit [m]. *)
Lemma moved_up n k j : N.shiftl (N.land n (N.shiftl 255 k)) j = n / 2 ^ k mod 256 * 2 ^ (k + j).
Proof. rewrite land_byte, N.shiftl_shiftl, N.shiftr_div_pow2, N.shiftl_mul_pow2. reflexivity. Qed.
Lemma moved_down n k j : j <= k -> N.shiftr (N.land n (N.shiftl 255 k)) j = n / 2 ^ k mod 256 * 2 ^ (k - j).
Proof. intros H. rewrite land_byte, N.shiftr_shiftl_l, N.shiftr_div_pow2, N.shiftl_mul_pow2 by auto. reflexivity. Qed.

Lemma lor_disj a b k : a mod 2 ^ k = 0 -> b < 2 ^ k -> N.lor a b = a + b.
Proof.
  intros Ha Hb. pose proof (N.div_mod a (2 ^ k) ltac:(apply N.pow_nonzero; lia)) as D. rewrite Ha, N.add_0_r in D.
  rewrite D at 1. rewrite N.mul_comm, <- N.shiftl_mul_pow2, lor_add by auto. lia.
Qed.

Lemma swap16_val n : n < 2 ^ 16 -> swap16 n = n / 2 ^ 0 mod 256 * 2 ^ 8 + n / 2 ^ 8 mod 256.
Proof.
  intros H. unfold swap16.
  change (N.land n 255) with (N.land n (N.shiftl 255 0)). rewrite moved_up.
  change 0xff00 with (N.shiftl 255 8). rewrite moved_down by lia.
  rewrite (lor_disj _ _ 8); change (2 ^ 8) with 256; change (2 ^ 16) with 65536 in *; change (2 ^ (0 + 8)) with 256; change (2 ^ (8 - 8)) with 1; change (2 ^ 0) with 1; lia.
Qed.

(** The bytes as digits: [le] of digits *)
Fixpoint le_val (l : list N) : N := match l with [] => 0 | x :: l' => x + 256 * le_val l' end.
Lemma le_val_app l x : le_val (l ++ [x]) = le_val l + x * 256 ^ N.of_nat (length l).
Proof.
  induction l as [|y l IH]; [cbn; lia|]. cbn [app le_val length]. rewrite IH, Nat2N.inj_succ, N.pow_succ_r'. lia.
Qed.
Lemma le_val_bound l : Forall (fun x => x < 256) l -> le_val l < 256 ^ N.of_nat (length l).
Proof.
  induction 1 as [|x l Hx Hl IH]; [cbn; lia|]. cbn [le_val length]. rewrite Nat2N.inj_succ, N.pow_succ_r'. lia.
Qed.
Lemma le_digits_val : forall l, Forall (fun x => x < 256) l -> le_digits (length l) (le_val l) = l.
Proof.
  induction 1 as [|x l Hx Hl IH]; auto. cbn [le_val length le_digits]. f_equal.
  - lia.
  - replace ((x + 256 * le_val l) / 256) with (le_val l) by lia. exact IH.
Qed.
Lemma le_digits_spec : forall k n, le_digits k n = map (fun i => n / 2 ^ (8 * N.of_nat i) mod 256) (seq 0 k).
Proof.
  assert (G : forall k n m, le_digits k (n / 2 ^ (8 * N.of_nat m)) = map (fun i => n / 2 ^ (8 * N.of_nat i) mod 256) (seq m k)).
  { induction k as [|k IH]; intros n m; [reflexivity|]. cbn [le_digits seq map]. f_equal.
    rewrite <- IH. f_equal. rewrite N.div_div by (try apply N.pow_nonzero; lia). f_equal.
    replace (8 * N.of_nat (S m)) with (8 * N.of_nat m + 8) by lia. rewrite N.pow_add_r. reflexivity. }
  intros k n. rewrite <- (G k n O). cbn [N.of_nat]. change (8 * 0) with 0. now rewrite N.pow_0_r, N.div_1_r.
Qed.

Lemma swap16_ok n : n < 2 ^ 16 -> le_digits 2 (swap16 n) = rev (le_digits 2 n) /\ swap16 n < 2 ^ 16.
Proof.
  intros H.
  assert (F : Forall (fun x => x < 256) (rev (le_digits 2 n))).
  { rewrite le_digits_spec. repeat constructor; apply N.mod_lt; lia. }
  assert (E : swap16 n = le_val (rev (le_digits 2 n))).
  { rewrite swap16_val by auto. rewrite le_digits_spec. cbn [seq map rev app le_val].
    change (8 * N.of_nat 0) with 0. change (8 * N.of_nat 1) with 8. lia. }
  rewrite E. split; [exact (le_digits_val _ F)|exact (le_val_bound _ F)].
Qed.

Ltac pows := change (2 ^ (0 + 24)) with (2 ^ 24); change (2 ^ (8 + 8)) with (2 ^ 16); change (2 ^ (16 - 8)) with (2 ^ 8); change (2 ^ (24 - 24)) with 1;
  change (2 ^ (0 + 56)) with (2 ^ 56); change (2 ^ (8 + 40)) with (2 ^ 48); change (2 ^ (16 + 24)) with (2 ^ 40); change (2 ^ (24 + 8)) with (2 ^ 32);
  change (2 ^ (32 - 8)) with (2 ^ 24); change (2 ^ (40 - 24)) with (2 ^ 16); change (2 ^ (48 - 40)) with (2 ^ 8); change (2 ^ (56 - 56)) with 1.
Ltac pv := change (2 ^ 8) with 256; change (2 ^ 16) with 65536; change (2 ^ 24) with 16777216; change (2 ^ 32) with 4294967296;
  change (2 ^ 40) with 1099511627776; change (2 ^ 48) with 281474976710656; change (2 ^ 56) with 72057594037927936; change (2 ^ 64) with 18446744073709551616.

Lemma swap32_val n : swap32 n = n / 2 ^ 0 mod 256 * 2 ^ 24 + n / 2 ^ 8 mod 256 * 2 ^ 16 + n / 2 ^ 16 mod 256 * 2 ^ 8 + n / 2 ^ 24 mod 256.
Proof.
  unfold swap32.
  change (N.land n 255) with (N.land n (N.shiftl 255 0)). change 0xff00 with (N.shiftl 255 8).
  change 0xff0000 with (N.shiftl 255 16). change 0xff000000 with (N.shiftl 255 24).
  rewrite !moved_up, !moved_down by lia. pows.
  pose proof (N.mod_lt (n / 2 ^ 0) 256 ltac:(lia)) as B0; pose proof (N.mod_lt (n / 2 ^ 8) 256 ltac:(lia)) as B1;
  pose proof (N.mod_lt (n / 2 ^ 16) 256 ltac:(lia)) as B2; pose proof (N.mod_lt (n / 2 ^ 24) 256 ltac:(lia)) as B3.
  revert B0 B1 B2 B3. generalize (n / 2 ^ 0 mod 256) (n / 2 ^ 8 mod 256) (n / 2 ^ 16 mod 256) (n / 2 ^ 24 mod 256).
  intros d0 d1 d2 d3 B0 B1 B2 B3.
  rewrite (N.mod_small (d0 * _)), (N.mod_small (d1 * _)) by (pv; lia).
  rewrite (lor_disj (d0 * _) _ 24) by (try apply N.mod_mul; pv; lia).
  rewrite (lor_disj _ (d2 * _) 16) by (pv; lia).
  rewrite (lor_disj _ (d3 * _) 8) by (pv; lia). lia.
Qed.
Lemma swap32_ok n : le_digits 4 (swap32 n) = rev (le_digits 4 n) /\ swap32 n < 2 ^ 32.
Proof.
  assert (F : Forall (fun x => x < 256) (rev (le_digits 4 n))).
  { rewrite le_digits_spec. repeat constructor; apply N.mod_lt; lia. }
  assert (E : swap32 n = le_val (rev (le_digits 4 n))).
  { rewrite swap32_val. rewrite le_digits_spec. cbn [seq map rev app le_val].
    change (8 * N.of_nat 0) with 0. change (8 * N.of_nat 1) with 8. change (8 * N.of_nat 2) with 16. change (8 * N.of_nat 3) with 24.
    generalize (n / 2 ^ 0 mod 256) (n / 2 ^ 8 mod 256) (n / 2 ^ 16 mod 256) (n / 2 ^ 24 mod 256). intros. pv. lia. }
  rewrite E. split; [exact (le_digits_val _ F)|exact (le_val_bound _ F)].
Qed.

Lemma swap64_val n : swap64 n = n / 2 ^ 0 mod 256 * 2 ^ 56 + n / 2 ^ 8 mod 256 * 2 ^ 48 + n / 2 ^ 16 mod 256 * 2 ^ 40 + n / 2 ^ 24 mod 256 * 2 ^ 32 +
  n / 2 ^ 32 mod 256 * 2 ^ 24 + n / 2 ^ 40 mod 256 * 2 ^ 16 + n / 2 ^ 48 mod 256 * 2 ^ 8 + n / 2 ^ 56 mod 256.
Proof.
  unfold swap64.
  change (N.land n 255) with (N.land n (N.shiftl 255 0)). change 0xff00 with (N.shiftl 255 8).
  change 0xff0000 with (N.shiftl 255 16). change 0xff000000 with (N.shiftl 255 24).
  change 0xff00000000 with (N.shiftl 255 32). change 0xff0000000000 with (N.shiftl 255 40).
  change 0xff000000000000 with (N.shiftl 255 48). change 0xff00000000000000 with (N.shiftl 255 56).
  rewrite !moved_up, !moved_down by lia. pows.
  pose proof (N.mod_lt (n / 2 ^ 0) 256 ltac:(lia)) as B0; pose proof (N.mod_lt (n / 2 ^ 8) 256 ltac:(lia)) as B1;
  pose proof (N.mod_lt (n / 2 ^ 16) 256 ltac:(lia)) as B2; pose proof (N.mod_lt (n / 2 ^ 24) 256 ltac:(lia)) as B3;
  pose proof (N.mod_lt (n / 2 ^ 32) 256 ltac:(lia)) as B4; pose proof (N.mod_lt (n / 2 ^ 40) 256 ltac:(lia)) as B5;
  pose proof (N.mod_lt (n / 2 ^ 48) 256 ltac:(lia)) as B6; pose proof (N.mod_lt (n / 2 ^ 56) 256 ltac:(lia)) as B7.
  revert B0 B1 B2 B3 B4 B5 B6 B7.
  generalize (n / 2 ^ 0 mod 256) (n / 2 ^ 8 mod 256) (n / 2 ^ 16 mod 256) (n / 2 ^ 24 mod 256) (n / 2 ^ 32 mod 256) (n / 2 ^ 40 mod 256) (n / 2 ^ 48 mod 256) (n / 2 ^ 56 mod 256).
  intros d0 d1 d2 d3 d4 d5 d6 d7 B0 B1 B2 B3 B4 B5 B6 B7.
  rewrite (N.mod_small (d0 * _)), (N.mod_small (d1 * _)), (N.mod_small (d2 * _)), (N.mod_small (d3 * _)) by (pv; lia).
  rewrite (lor_disj (d0 * _) _ 56) by (try apply N.mod_mul; pv; lia).
  rewrite (lor_disj _ (d2 * _) 48) by (pv; lia).
  rewrite (lor_disj _ (d3 * _) 40) by (pv; lia).
  rewrite (lor_disj _ (d4 * _) 32) by (pv; lia).
  rewrite (lor_disj _ (d5 * _) 24) by (pv; lia).
  rewrite (lor_disj _ (d6 * _) 16) by (pv; lia).
  rewrite (lor_disj _ (d7 * _) 8) by (pv; lia). lia.
Qed.
Lemma swap64_ok n : le_digits 8 (swap64 n) = rev (le_digits 8 n) /\ swap64 n < 2 ^ 64.
Proof.
  assert (F : Forall (fun x => x < 256) (rev (le_digits 8 n))).
  { rewrite le_digits_spec. repeat constructor; apply N.mod_lt; lia. }
  assert (E : swap64 n = le_val (rev (le_digits 8 n))).
  { rewrite swap64_val. rewrite le_digits_spec. cbn [seq map rev app le_val].
    change (8 * N.of_nat 0) with 0. change (8 * N.of_nat 1) with 8. change (8 * N.of_nat 2) with 16. change (8 * N.of_nat 3) with 24.
    change (8 * N.of_nat 4) with 32. change (8 * N.of_nat 5) with 40. change (8 * N.of_nat 6) with 48. change (8 * N.of_nat 7) with 56.
    generalize (n / 2 ^ 0 mod 256) (n / 2 ^ 8 mod 256) (n / 2 ^ 16 mod 256) (n / 2 ^ 24 mod 256) (n / 2 ^ 32 mod 256) (n / 2 ^ 40 mod 256) (n / 2 ^ 48 mod 256) (n / 2 ^ 56 mod 256).
    intros. pv. lia. }
  rewrite E. split; [exact (le_digits_val _ F)|exact (le_val_bound _ F)].
Qed.

Lemma le_digits_inj : forall k a b, a < 256 ^ N.of_nat k -> b < 256 ^ N.of_nat k -> le_digits k a = le_digits k b -> a = b.
Proof.
  induction k as [|k IH]; intros a b Ha Hb E; [cbn in *; lia|].
  rewrite Nat2N.inj_succ, N.pow_succ_r' in Ha, Hb. cbn [le_digits] in E. injection E as E1 E2.
  apply IH in E2; [|apply N.div_lt_upper_bound; lia|apply N.div_lt_upper_bound; lia].
  rewrite (N.div_mod a 256), (N.div_mod b 256), E1, E2 by lia. reflexivity.
Qed.
Lemma swap_invol k (swap : N -> N) : (forall n, n < 256 ^ N.of_nat k -> le_digits k (swap n) = rev (le_digits k n) /\ swap n < 256 ^ N.of_nat k) ->
  forall n, n < 256 ^ N.of_nat k -> swap (swap n) = n.
Proof.
  intros H n Hn. destruct (H n Hn) as [E B]. destruct (H (swap n) B) as [E2 B2].
  apply (le_digits_inj k); auto. now rewrite E2, E, rev_involutive.
Qed.

(** ** M_mem_cmpsort *)
Lemma memcmp_anti : forall a b, memcmp b a = (- memcmp a b)%Z.
Proof.
  induction a as [|x a IH]; destruct b as [|y b]; cbn; auto.
  destruct (N.eqb_spec x y), (N.eqb_spec y x); try congruence; auto.
  destruct (N.ltb_spec x y), (N.ltb_spec y x); try lia.
Qed.
Lemma memcmp_range : forall a b, memcmp a b = (-1)%Z \/ memcmp a b = 0%Z \/ memcmp a b = 1%Z.
Proof.
  induction a as [|x a IH]; destruct b as [|y b]; cbn; auto.
  destruct (x =? y); auto. destruct (x <? y); auto.
Qed.
Lemma memcmp_zero : forall a b, length a = length b -> (memcmp a b = 0%Z <-> a = b).
Proof.
  induction a as [|x a IH]; destruct b as [|y b]; cbn; intros L; try discriminate; [tauto|].
  destruct (N.eqb_spec x y).
  - subst. rewrite IH by lia. split; congruence.
  - destruct (x <? y); split; intros H; try discriminate; congruence.
Qed.
Lemma memcmp_trans : forall a b c, length a = length b -> length b = length c ->
  (memcmp a b <= 0)%Z -> (memcmp b c <= 0)%Z -> (memcmp a c <= 0)%Z.
Proof.
  induction a as [|x a IH]; intros [|y b] [|z c]; cbn; intros L1 L2; try discriminate; try lia.
  destruct (N.eqb_spec x y), (N.eqb_spec y z), (N.eqb_spec x z); try congruence; try (apply IH; lia);
    destruct (N.ltb_spec x y), (N.ltb_spec y z), (N.ltb_spec x z); try lia.
Qed.
Ltac cmpsort_cases :=
  unfold mem_cmpsort;
  repeat match goal with
  | |- context [(?a =? ?b)%nat] => destruct (Nat.eqb_spec a b)
  | |- context [(?a <? ?b)%nat] => destruct (Nat.ltb_spec a b)
  end; cbn [andb]; try lia.
Lemma cmpsort_anti a b : Z.sgn (mem_cmpsort b a) = (- Z.sgn (mem_cmpsort a b))%Z.
Proof. cmpsort_cases; rewrite (memcmp_anti a b); destruct (memcmp_range a b) as [->|[->| ->]]; reflexivity. Qed.
Lemma cmpsort_zero a b : mem_cmpsort a b = 0%Z <-> a = b.
Proof.
  cmpsort_cases; try (split; intros H'; [discriminate|subst; lia]); try (apply memcmp_zero; lia).
  destruct a, b; cbn in *; try discriminate. tauto.
Qed.
Lemma cmpsort_trans a b c : (mem_cmpsort a b <= 0 -> mem_cmpsort b c <= 0 -> mem_cmpsort a c <= 0)%Z.
Proof. cmpsort_cases; intros; apply (memcmp_trans a b c); auto; lia. Qed.

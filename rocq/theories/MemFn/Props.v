(** Properties C28 (memory search), C51 (byte order), C52 (comparison and checksums). *)
From Verif Require Import Base.Lib Base.Mem Sort.Spec MemFn.Model MemFn.Spec MemFn.Proofs MemFn.Crc.
Local Open Scope N_scope.

(** ** C28 *)

(** M_mem_mem: the first occurrence, NULL iff there is none; an empty
    haystack never matches, not even the empty needle. *)
Theorem mem_mem_first : forall h n, h <> [] ->
  exists r, mem_mem h (length h) n (length n) = Ok r /\
    match r with
    | None => forall i, ~ occurs_at n h i
    | Some p => occurs_at n h p /\ forall i, (i < p)%nat -> ~ occurs_at n h i
    end.
Proof.
  intros h n Hh. destruct (mem_mem_ok h n) as (r & E & _ & H). exists r. split; auto. exact (H Hh).
Qed.
Print Assumptions mem_mem_first.
Theorem mem_mem_empty : forall n, mem_mem [] 0 n (length n) = Ok None.
Proof. reflexivity. Qed.
Print Assumptions mem_mem_empty.
Example mem_mem_case : mem_mem [1; 1; 2; 1; 1; 2; 3] 7 [1; 2; 3] 3 = Ok (Some 4%nat) /\ mem_mem [1; 2] 2 [2; 1] 2 = Ok None.
Proof. split; reflexivity. Qed.

(** M_mem_rmem: the last occurrence of a non-empty needle. *)
Theorem mem_rmem_last_partial : forall h n, h <> [] -> n <> [] ->
  exists r, mem_rmem h (length h) n (length n) = Ok r /\
    match r with
    | None => forall i, ~ occurs_at n h i
    | Some p => occurs_at n h p /\ forall i, (p < i)%nat -> ~ occurs_at n h i
    end.
Proof. exact mem_rmem_ok. Qed.
Print Assumptions mem_rmem_last_partial.
Example mem_rmem_case : mem_rmem [1; 2; 1; 2; 3] 5 [1; 2] 2 = Ok (Some 2%nat).
Proof. reflexivity. Qed.
(** For the empty needle it returns the first position, not the last. *)
Theorem mem_rmem_last_refuted : exists h, mem_rmem h (length h) [] 0 = Ok (Some 0%nat) /\ occurs_at [] h (length h) /\ (0 < length h)%nat.
Proof. exists [7]. repeat split; auto. exists [7], []. auto. Qed.
Print Assumptions mem_rmem_last_refuted.

(** ** C51 *)

(** The swaps reverse the bytes, stay in range and are involutions. *)
Theorem swaps_reverse : forall k swap, In (k, swap) [(2%nat, swap16); (4%nat, swap32); (8%nat, swap64)] ->
  forall n, n < 256 ^ N.of_nat k ->
  le_digits k (swap n) = rev (le_digits k n) /\ swap n < 256 ^ N.of_nat k /\ swap (swap n) = n.
Proof.
  intros k swap I.
  assert (H : forall n, n < 256 ^ N.of_nat k -> le_digits k (swap n) = rev (le_digits k n) /\ swap n < 256 ^ N.of_nat k).
  { destruct I as [I|[I|[I|[]]]]; injection I as <- <-; intros n Hn.
    - apply swap16_ok. exact Hn.
    - apply swap32_ok.
    - apply swap64_ok. }
  intros n Hn. destruct (H n Hn). repeat split; auto. apply (swap_invol k); auto.
Qed.
Print Assumptions swaps_reverse.
Example swap_case : swap32 0x01020304 = 0x04030201 /\ le_digits 4 0x01020304 = [4; 3; 2; 1].
Proof. split; reflexivity. Qed.

(** On a machine of either byte order, the network form of a value is stored
    highest byte first, the little-endian form lowest byte first, and the
    conversions back give the value. *)
Theorem byte_order_conversions : forall k swap big, In (k, swap) [(2%nat, swap16); (4%nat, swap32); (8%nat, swap64)] ->
  forall n, n < 256 ^ N.of_nat k ->
  stored big k (hton swap big n) = rev (le_digits k n) /\ stored big k (htol swap big n) = le_digits k n /\
  ntoh swap big (hton swap big n) = n /\ ltoh swap big (htol swap big n) = n /\
  hton swap big (ntoh swap big n) = n /\ htol swap big (ltoh swap big n) = n.
Proof.
  intros k swap big I n Hn. destruct (swaps_reverse k swap I n Hn) as (R & B & V).
  unfold stored, hton, htol, ntoh, ltoh. destruct big; rewrite ?R, ?rev_involutive; repeat split; auto.
Qed.
Print Assumptions byte_order_conversions.

(** ** C52 *)

Theorem mem_eq_exact : forall m1 m2 k, (k <= length m1)%nat -> (k <= length m2)%nat ->
  exists e, mem_eq m1 m2 k = Ok e /\ (e = true <-> firstn k m1 = firstn k m2).
Proof. exact mem_eq_ok. Qed.
Print Assumptions mem_eq_exact.
Example mem_eq_case : mem_eq [1; 2; 3] [1; 2; 4] 2 = Ok true /\ mem_eq [1; 2; 3] [1; 2; 4] 3 = Ok false.
Proof. split; reflexivity. Qed.

Theorem mem_count_exact : forall s b, mem_count s 0 (length s) b 0 = Ok (count_occ N.eq_dec s b).
Proof. intros s b. exact (mem_count_ok b s [] 0). Qed.
Print Assumptions mem_count_exact.

Theorem swap_bytes_exact : forall s i j, exists ok s', swap_bytes s i j = Ok (ok, s') /\
  (ok = true <-> (i < length s /\ j < length s)%nat) /\ (ok = false -> s' = s) /\
  (ok = true -> length s' = length s /\
     forall k, nth_error s' k = nth_error s (if k =? i then j else if k =? j then i else k)%nat).
Proof. exact swap_bytes_ok. Qed.
Print Assumptions swap_bytes_exact.

(** The LRC is the exclusive or of the bytes; appended to the message it gives 0. *)
Theorem lrc_exact : forall s, is_bytes s ->
  mem_lrc s = fold_left N.lxor s 0 /\ is_byte (mem_lrc s) /\ mem_lrc (s ++ [mem_lrc s]) = 0.
Proof.
  intros s Hs.
  assert (B : is_byte (mem_lrc s)).
  { rewrite lrc_ok by auto. assert (G : forall s n, is_bytes s -> is_byte n -> is_byte (fold_left N.lxor s n)).
    { clear. induction s as [|b s IH]; intros n Hs Hn; cbn; auto. inversion Hs; subst. apply IH; auto. now apply lxor_byte. }
    apply G; auto. unfold is_byte. lia. }
  split; [now apply lrc_ok|]. split; auto.
  rewrite (lrc_ok (s ++ [mem_lrc s])).
  - rewrite fold_left_app. cbn [fold_left]. rewrite <- lrc_ok by auto. apply N.lxor_nilpotent.
  - apply Forall_app. split; auto.
Qed.
Print Assumptions lrc_exact.
Example lrc_case : mem_lrc [200; 100; 7] = 171 /\ is_bytes [200; 100; 7].
Proof. split; [reflexivity|]. repeat constructor; unfold is_byte; lia. Qed.

(** CRC-8: the remainder of the message times x^8 modulo x^8 + x^2 + x + 1. *)
Theorem crc8_remainder : forall s, is_bytes s ->
  exists v, crc8 s = Ok v /\ v < 2 ^ 8 /\ bits 8 v = crc_rem (bits 8 0x07) (zeros 8) false s.
Proof. exact crc8_ok. Qed.
Print Assumptions crc8_remainder.
(** CRC-16: x^16 + x^12 + x^5 + 1, initial value 0xFFFF; the code defines the
    CRC of the empty message as 0. *)
Theorem crc16_remainder : forall s, is_bytes s -> s <> [] ->
  exists v, crc16 s = Ok v /\ v < 2 ^ 16 /\ bits 16 v = crc_rem (bits 16 0x1021) (repeat true 16) false s.
Proof. exact crc16_ok. Qed.
Print Assumptions crc16_remainder.
(** CRC-32: the reflected form of 0x04C11DB7, initial value all ones, complemented. *)
Theorem crc32_remainder : forall s, is_bytes s -> s <> [] ->
  exists v, crc32 s = Ok v /\ v < 2 ^ 32 /\
    map negb (rev (bits 32 v)) = crc_rem (bits 32 0x04C11DB7) (repeat true 32) true s.
Proof. exact crc32_ok. Qed.
Print Assumptions crc32_remainder.
(** The check values of "123456789". *)
Example crc_cases : let s := [49; 50; 51; 52; 53; 54; 55; 56; 57] in
  crc8 s = Ok 0xF4 /\ crc16 s = Ok 0x29B1 /\ crc32 s = Ok 0xCBF43926.
Proof. repeat split; vm_compute; reflexivity. Qed.

(** M_mem_cmpsort is a total order: shorter regions first, then bytewise. *)
Theorem mem_cmpsort_order : total_preorder mem_cmpsort /\ forall a b, mem_cmpsort a b = 0%Z <-> a = b.
Proof. split; [split; [exact cmpsort_anti|exact cmpsort_trans]|exact cmpsort_zero]. Qed.
Print Assumptions mem_cmpsort_order.
Example mem_cmpsort_case : mem_cmpsort [9; 9] [1; 2; 3] = (-1)%Z /\ mem_cmpsort [1; 200] [1; 100] = 1%Z.
Proof. split; reflexivity. Qed.
(** ... namely: shorter regions first, then by the first differing byte. *)
Theorem mem_cmpsort_exact : forall a b, (mem_cmpsort a b < 0)%Z <->
  (length a < length b)%nat \/
  length a = length b /\ exists p x y a' b', a = p ++ x :: a' /\ b = p ++ y :: b' /\ x < y.
Proof.
  assert (M : forall a b, length a = length b -> ((memcmp a b < 0)%Z <-> exists p x y a' b', a = p ++ x :: a' /\ b = p ++ y :: b' /\ x < y)).
  { induction a as [|c a IH]; intros [|d b] L; try discriminate.
    - split; [cbn; lia|]. intros (p & x & y & a' & b' & E & _). now destruct p.
    - injection L as L. cbn [memcmp]. destruct (N.eqb_spec c d) as [->|ND].
      + rewrite (IH b L). split.
        * intros (p & x & y & a' & b' & -> & -> & H). exists (d :: p), x, y, a', b'. auto.
        * intros (p & x & y & a' & b' & E1 & E2 & H). destruct p as [|z p]; cbn [app] in *.
          { injection E1 as -> ->. injection E2 as -> ->. lia. }
          injection E1 as -> ->. injection E2 as ->. exists p, x, y, a', b'. auto.
      + destruct (N.ltb_spec c d) as [H|H].
        * split; [intros _|lia]. exists [], c, d, a, b. auto.
        * split; [lia|]. intros (p & x & y & a' & b' & E1 & E2 & H'). destruct p as [|z p]; cbn [app] in *.
          { injection E1 as -> ->. injection E2 as -> ->. lia. }
          injection E1 as -> ->. injection E2 as -> ->. contradiction. }
  intros a b. unfold mem_cmpsort. destruct ((length a =? 0)%nat && (length b =? 0)%nat) eqn:Z.
  - apply andb_true_iff in Z. rewrite !Nat.eqb_eq in Z. split; [lia|]. intros [H|(_ & p & x & y & a' & b' & E & _)]; [lia|].
    exfalso. destruct Z as (Z & _). rewrite E, app_length in Z. cbn [length] in Z. lia.
  - destruct (Nat.ltb_spec (length a) (length b)); [split; [auto|lia]|]. destruct (Nat.ltb_spec (length b) (length a)).
    + split; [lia|]. intros [|(E & _)]; lia.
    + rewrite M by lia. split; [intros; right; split; [lia|auto]|]. intros [|(_ & H1)]; [lia|auto].
Qed.
Print Assumptions mem_cmpsort_exact.

(** Properties of the bit helpers (C07). *)
From Verif Require Import Base.Lib Bithacks.Model Bithacks.Spec Bithacks.Proofs.
Local Open Scope N_scope.

(** C07: the power-of-two test, for every width. *)
Theorem bit_is_power_of_two : forall n, is_power_of_two n = true <-> exists k, n = 2 ^ k.
Proof. exact is_power_of_two_ok. Qed.
Print Assumptions bit_is_power_of_two.

(** C07: rounding up, wherever the answer is representable. *)
Theorem bit_round_up32 : forall n, 0 < n -> n <= 2 ^ 31 -> least_pow2_ge n (round_up32 n).
Proof. exact round_up32_ok. Qed.
Print Assumptions bit_round_up32.
Theorem bit_round_up64 : forall n, 0 < n -> n <= 2 ^ 63 -> least_pow2_ge n (round_up64 n).
Proof. exact round_up64_ok. Qed.
Print Assumptions bit_round_up64.
(** Outside that domain both answer 0. *)
Theorem bit_round_up_out_of_range :
  (forall n, n = 0 \/ 2 ^ 31 < n < 2 ^ 32 -> round_up32 n = 0) /\
  (forall n, n = 0 \/ 2 ^ 63 < n < 2 ^ 64 -> round_up64 n = 0).
Proof. exact (conj round_up32_over round_up64_over). Qed.
Print Assumptions bit_round_up_out_of_range.

Theorem bit_round_down32 : forall n, 0 < n -> n < 2 ^ 32 -> greatest_pow2_le n (round_down32 n).
Proof. exact round_down32_ok. Qed.
Print Assumptions bit_round_down32.
Theorem bit_round_down64 : forall n, 0 < n -> n < 2 ^ 64 -> greatest_pow2_le n (round_down64 n).
Proof. exact round_down64_ok. Qed.
Print Assumptions bit_round_down64.

(** C07: log2 is the floor of the logarithm (hence exact on powers of two). *)
Theorem bit_log2_32 : forall n, 0 < n -> n < 2 ^ 32 ->
  exists k, log2_32 n = Ok k /\ 2 ^ k <= n < 2 ^ (k + 1).
Proof. exact log2_32_ok. Qed.
Print Assumptions bit_log2_32.
Theorem bit_log2_64 : forall n, 0 < n -> n < 2 ^ 64 ->
  exists k, log2_64 n = Ok k /\ 2 ^ k <= n < 2 ^ (k + 1).
Proof. exact log2_64_ok. Qed.
Print Assumptions bit_log2_64.

Example bit_cases :
  round_up64 (2 ^ 40 + 1) = 2 ^ 41 /\ log2_64 (2 ^ 63 + 5) = Ok 63 /\ log2_32 12345 = Ok 13 /\
  round_down64 (2 ^ 64 - 1) = 2 ^ 63 /\
  (* the two log2 disagree on 0, outside the domain *)
  log2_32 0 = Ok 0 /\ log2_64 0 = Ok 63.
Proof. repeat split; vm_compute; reflexivity. Qed.

(** Sign extension yields the number its w-bit pattern denotes; a width of 0
    or above 64 is an undefined shift. *)
Theorem bit_sign_extend : forall x w, 1 <= w <= 64 -> x < 2 ^ w ->
  exists z, sign_extend x w = Ok z /\ twos_complement w x z.
Proof. exact sign_extend_ok. Qed.
Print Assumptions bit_sign_extend.
Theorem bit_sign_extend_undefined : forall x w, w = 0 \/ 64 < w < 2 ^ 64 -> sign_extend x w = UB.
Proof. exact sign_extend_ub. Qed.
Print Assumptions bit_sign_extend_undefined.

Example bit_sign_extend_case : sign_extend 0xF3 8 = Ok (-13)%Z /\ sign_extend (2 ^ 64 - 1) 64 = Ok (-1)%Z.
Proof. split; vm_compute; reflexivity. Qed.

(** Population counts count the ones. *)
Theorem bit_popcount8 : forall x, x < 256 -> popcount8 x = Ok (ones_count 8 x).
Proof. exact popcount8_ok. Qed.
Print Assumptions bit_popcount8.
Theorem bit_popcount64 : forall n, n < 2 ^ 64 -> popcount64 n = Ok (ones_count 64 n).
Proof. exact popcount64_ok. Qed.
Print Assumptions bit_popcount64.

Example bit_popcount_case : popcount64 (2 ^ 64 - 1) = Ok 64 /\ popcount8 0xB5 = Ok 5.
Proof. split; vm_compute; reflexivity. Qed.

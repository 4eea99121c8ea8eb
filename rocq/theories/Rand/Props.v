(** Properties of M_rand_range and friends (C08). *)
From Verif Require Import Base.Lib Rand.Model Rand.Proofs.
Local Open Scope N_scope.

(** C08, first half: whatever the generator and its state, a returned value
    lies in [min, max). *)
Theorem rand_range_in_range : forall S (gen : S -> N * S) fuel st min max v st',
  min < max -> max < 2 ^ 64 -> rand_range gen fuel st min max = Ok (v, st') -> min <= v < max.
Proof. exact @rand_range_in. Qed.
Print Assumptions rand_range_in_range.

(** C08, second half: a draw r that is not rejected gives v exactly when it
    lies in v's group, and all groups have the same size M_RAND_MAX/(max-min):
    no value is excluded and none is favoured. *)
Theorem rand_range_no_bias : forall S (gen : S -> N * S) f st min max v r st1,
  min <= v < max -> max < 2 ^ 64 -> gen st = (r, st1) ->
  (max - min) * (RAND_MAX / (max - min)) <= r \/
  (rand_range gen (Datatypes.S f) st min max = Ok (v, st1) <->
   (v - min) * (RAND_MAX / (max - min)) <= r < (v - min + 1) * (RAND_MAX / (max - min))).
Proof. exact @rand_range_uniform. Qed.
Print Assumptions rand_range_no_bias.

(** Fewer than one draw in 2^64/(max-min) is rejected. *)
Theorem rand_range_rejections : forall min max, min < max -> max < 2 ^ 64 ->
  2 ^ 64 - (max - min) * (RAND_MAX / (max - min)) <= max - min.
Proof. exact rand_range_retry. Qed.
Print Assumptions rand_range_rejections.

(** A generator that keeps returning UINT64_MAX shows both branches. *)
Example rand_range_case :
  rand_range (fun n : nat => match n with O => (2 ^ 64 - 1, 1%nat) | _ => (2 ^ 63, 0%nat) end) 3 0%nat 5 32
    = Ok (18, 0%nat).
Proof. vm_compute. reflexivity. Qed.

(** M_rand keeps the state inside four 64-bit words and never reaches the
    all-zero state from a non-zero one (where it would be stuck). *)
Theorem rand_state_never_zero : forall s, words s -> nonzero s ->
  words (snd (rand_step s)) /\ nonzero (snd (rand_step s)) /\ fst (rand_step s) < 2 ^ 64.
Proof.
  intros s Hw Hn. destruct (rand_step_words s Hw) as [A B].
  split; [exact A|]. split; [exact (rand_step_nonzero s Hw Hn)|exact B].
Qed.
Print Assumptions rand_state_never_zero.

(** The state map loses nothing: different states have different successors,
    so the generator runs on cycles. *)
Theorem rand_state_injective : forall s t, words s -> words t ->
  snd (rand_step s) = snd (rand_step t) -> s = t.
Proof. exact rand_step_inj. Qed.
Print Assumptions rand_state_injective.

Example rand_state_case : words {| s0 := 1; s1 := 2; s2 := 3; s3 := 4 |} /\
  nonzero {| s0 := 1; s1 := 2; s2 := 3; s3 := 4 |} /\
  fst (rand_step {| s0 := 1; s1 := 2; s2 := 3; s3 := 4 |}) = 11520.
Proof. repeat split; try (vm_compute; reflexivity). intros (H & _). discriminate. Qed.

(** M_rand_str fills the buffer with characters of the set and a NUL, given
    room for len + 1 bytes; the only other outcome is an endless retry. *)
Theorem rand_str_chars : forall S (gen : S -> N * S) fuel st cs out len,
  (0 < length cs)%nat -> N.of_nat (length cs) < 2 ^ 64 -> (0 < len)%nat -> (len < length out)%nat ->
  rand_str gen fuel st cs out len = Fuel \/
  exists o st' t, rand_str gen fuel st cs out len = Ok (true, o, st') /\
    length t = len /\ Forall (fun c => In c cs) t /\ firstn (Datatypes.S len) o = t ++ [0].
Proof. exact @rand_str_ok. Qed.
Print Assumptions rand_str_chars.

Example rand_str_case :
  rand_str (fun n : N => (n, n * 3 mod 2 ^ 64)) 5 (2 ^ 60) [97; 98; 99] [7;7;7;7;7] 4
    = Ok (true, [97; 97; 98; 99; 0], 0x1000000000000000 * 81 mod 2 ^ 64).
Proof. vm_compute. reflexivity. Qed.

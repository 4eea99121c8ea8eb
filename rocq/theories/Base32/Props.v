(** Properties of the base32 codec (C05). *)
From Verif Require Import Base.Lib Base32.Model Base32.Spec Base32.Proofs.

(** C05 is false: one byte comes back as five. *)
Theorem b32_round_trip_refuted : exists b out' dec',
  is_bytes b /\ b32_encode (repeat 0%N 9) b 0 = Ok (8, out') /\
  b32_decode (repeat 7%N 8) out' 8 = Ok (5, dec') /\ length b = 1.
Proof.
  exists [65]%N, [73;69;61;61;61;61;61;61;0]%N, [65;0;0;0;0;7;7;7]%N.
  split; [repeat constructor|]. repeat split; vm_compute; reflexivity.
Qed.
Print Assumptions b32_round_trip_refuted.

(** C05, exact: the encoder writes the RFC 4648 text (with line breaks) and a
    NUL inside its buffer; decoding it yields the bytes followed by zero bytes
    up to a multiple of five. *)
Theorem b32_round_trip_partial : forall b w out dec z,
  is_bytes b -> b <> [] -> b32_encode_size (length b) w <= length out ->
  b32_decode_size (length (wrap_text w (b32_text b))) <= length dec -> 
  exists n out' dec',
    b32_encode out b w = Ok (n, out') /\ length out' = length out /\
    n = length (wrap_text w (b32_text b)) /\
    firstn (S n) out' = wrap_text w (b32_text b) ++ [0%N] /\
    b32_decode dec (firstn (S n) out' ++ z) n = Ok (length (pad5 b), dec') /\
    firstn (length (pad5 b)) dec' = pad5 b.
Proof. exact b32_round_trip_lemma. Qed.
Print Assumptions b32_round_trip_partial.

(** Hence the round trip is exact for lengths divisible by five. *)
Theorem b32_round_trip_mult5 : forall b, length b mod 5 = 0 -> pad5 b = b.
Proof. exact pad5_id. Qed.
Print Assumptions b32_round_trip_mult5.

Example b32_round_trip_case :
  pad5 [1;2;3;4;5]%N = [1;2;3;4;5]%N /\ pad5 [1;2;3;4;5;6]%N = [1;2;3;4;5;6;0;0;0;0]%N /\
  b32_encode_size 6 4 = 20 /\ length (wrap_text 4 (b32_text [1;2;3;4;5;6]%N)) = 19.
Proof. repeat split; vm_compute; reflexivity. Qed.

(** The decoder ignores its length argument: given a longer NUL-terminated
    text than announced it writes past the output buffer. *)
Theorem b32_decode_in_bounds_refuted : exists mem,
  length (firstn 8 mem) = 8 /\ b32_decode_size 8 <= length (repeat 0%N 5) /\
  b32_decode (repeat 0%N 5) mem 8 = UB.
Proof.
  exists [65;65;65;65;65;65;65;65;65;65;65;65;65;65;65;65;0]%N.
  repeat split; vm_compute; (reflexivity || lia).
Qed.
Print Assumptions b32_decode_in_bounds_refuted.

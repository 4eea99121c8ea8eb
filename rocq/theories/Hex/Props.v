(** Properties of the hex codec (C01, C02, C04 hex part, C06 hex part). *)
From Verif Require Import Base.Lib Hex.Model Hex.Spec Hex.Proofs.

(** C01.  Encoding any non-empty byte string into any buffer of at least
    2*|b| characters yields the upper-case hex text without leaving the
    buffer, and decoding that text gives the byte string back. *)
Theorem hex_round_trip : forall b out dec,
  is_bytes b -> b <> [] -> 2 * length b <= length out -> length b <= length dec ->
  exists out' dec',
    hex_encode b out 0 = Ok (2 * length b, out') /\ length out' = length out /\
    firstn (2 * length b) out' = hex_text b /\
    hex_decode (firstn (2 * length b) out') dec = Ok (length b, dec') /\
    firstn (length b) dec' = b.
Proof. exact hex_round_trip_lemma. Qed.
Print Assumptions hex_round_trip.

Example hex_round_trip_case :
  let b := [0; 171; 255]%N in
  is_bytes b /\ hex_encode b (repeat 0%N 6) 0 = Ok (6, [48;48;65;66;70;70]%N) /\
  hex_decode [48;48;97;66;70;102]%N (repeat 0%N 3) = Ok (3, b).
Proof.
  cbn zeta. split; [repeat constructor|]; split; vm_compute; reflexivity.
Qed.

(** C02.  On a text without white space the decoder returns exactly the bytes
    denoted by the digit pairs, and 0 when the text denotes none. *)
Theorem hex_decode_denotes : forall s out,
  s <> [] -> Forall (fun c => ~ is_space c) s -> length s / 2 <= length out ->
  exists n out', hex_decode s out = Ok (n, out') /\ length out' = length out /\
    match denotes s with
    | Some l => n = length l /\ firstn n out' = l
    | None => n = 0
    end.
Proof. exact hex_decode_denotes_lemma. Qed.
Print Assumptions hex_decode_denotes.

Example hex_decode_denotes_case :
  denotes [65; 98; 57; 48]%N = Some [171; 144]%N /\ denotes [65; 103]%N = None /\
  Forall (fun c => ~ is_space c) [65; 98; 57; 48]%N.
Proof. repeat split. repeat constructor; unfold is_space; lia. Qed.

(** C04, hex part: false in general; a line-wrapped encoding with an odd
    number of line breaks is rejected by the decoder. *)
Theorem hex_wrap_round_trip_refuted : exists b w out' dec',
  is_bytes b /\ 0 < w /\
  hex_encode b (repeat 0%N 8) w = Ok (5, out') /\
  firstn 5 out' = wrap_text w (hex_text b) /\
  hex_decode (firstn 5 out') (repeat 0%N 8) = Ok (0, dec').
Proof.
  exists [1; 2]%N, 2, [48;49;10;48;50;0;0;0]%N, (repeat 0%N 8).
  split; [repeat constructor|]. repeat split; vm_compute; (reflexivity || lia).
Qed.
Print Assumptions hex_wrap_round_trip_refuted.

(** C04, hex part, exact: the round trip holds iff the number of line breaks
    (2|b|-1)/w is even; otherwise the decoder returns 0. *)
Theorem hex_wrap_exact_partial : forall b w out dec,
  is_bytes b -> b <> [] -> 0 < w ->
  2 * length b + (2 * length b / w + 1) <= length out ->
  2 * length b <= length dec ->
  exists n out' dec',
    hex_encode b out w = Ok (n, out') /\ firstn n out' = wrap_text w (hex_text b) /\
    (if Nat.even ((2 * length b - 1) / w)
     then hex_decode (firstn n out') dec = Ok (length b, dec') /\ firstn (length b) dec' = b
     else hex_decode (firstn n out') dec = Ok (0, dec')).
Proof. exact hex_wrap_exact_lemma. Qed.
Print Assumptions hex_wrap_exact_partial.

Example hex_wrap_exact_case : Nat.even ((2 * 3 - 1) / 2) = true /\ Nat.even ((2 * 2 - 1) / 2) = false.
Proof. split; reflexivity. Qed.

(** C06, hex part: on every text and every output buffer the decoder stays in
    bounds ([Ok], not [UB]) and reports at most the buffer's size. *)
Theorem hex_decode_in_bounds : forall s out,
  exists n out', hex_decode s out = Ok (n, out') /\
    length out' = length out /\ n <= length out.
Proof. exact hex_decode_safe. Qed.
Print Assumptions hex_decode_in_bounds.

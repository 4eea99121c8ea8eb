(** Properties of the base64 codec (C03, C04 base64 part, C06 base64 part). *)
From Verif Require Import Base.Lib Base64.Model Base64.Spec Base64.Proofs.

(** C03.  For every non-empty byte string the unwrapped encoding into a buffer
    of M_base64_encode_size bytes stays in bounds, is the RFC 4648 text
    followed by NUL, and decodes back to the byte string. *)
Theorem b64_round_trip : forall b out dec,
  is_bytes b -> b <> [] -> b64_len (length b) + 1 <= length out -> length b <= length dec ->
  exists out' dec',
    b64_encode out b 0 = Ok (b64_len (length b), out') /\ length out' = length out /\
    firstn (b64_len (length b) + 1) out' = b64_text b ++ [0%N] /\
    b64_decode dec (firstn (b64_len (length b)) out') = Ok (length b, dec') /\
    firstn (length b) dec' = b.
Proof. exact b64_round_trip_unwrapped. Qed.
Print Assumptions b64_round_trip.

Example b64_round_trip_case :
  b64_encode (repeat 0%N 9) [77;97;110;255]%N 0 = Ok (8, [84;87;70;117;47;119;61;61;0]%N) /\
  b64_decode (repeat 0%N 6) [84;87;70;117;47;119;61;61]%N = Ok (4, [77;97;110;255;0;0]%N) /\
  b64_len 4 = 8 /\ is_bytes [77;97;110;255]%N.
Proof. repeat split; try (vm_compute; reflexivity). repeat constructor. Qed.

(** The size functions are exact: M_base64_encode_size is the text length
    (with line breaks) plus the NUL, and M_base64_decode_size of that text is
    always enough for the original bytes. *)
Theorem b64_sizes : forall b w, b <> [] ->
  b64_encode_size (length b) w = length (wrap_text w (b64_text b)) + 1 /\
  length b <= b64_decode_size (length (wrap_text w (b64_text b))).
Proof. exact b64_sizes_lemma. Qed.
Print Assumptions b64_sizes.

(** C04, base64 part: false in general. *)
Theorem b64_wrap_round_trip_refuted : exists b w out' dec',
  is_bytes b /\ 0 < w /\
  b64_encode (repeat 0%N 6) b w = Ok (5, out') /\
  firstn 5 out' = wrap_text w (b64_text b) /\
  b64_decode (repeat 0%N 6) (firstn 5 out') = Ok (0, dec').
Proof.
  exists [1]%N, 3, [65;81;61;10;61;0]%N, (repeat 0%N 6).
  split; [repeat constructor|]. repeat split; vm_compute; (reflexivity || lia).
Qed.
Print Assumptions b64_wrap_round_trip_refuted.

(** C04, base64 part, exact: with line length [w > 0] the round trip fails
    (decoder returns 0) exactly when the text ends in "==" and the line break
    falls between the two padding characters. *)
Theorem b64_wrap_exact_partial : forall b w out dec,
  is_bytes b -> b <> [] -> b64_encode_size (length b) w <= length out -> length b <= length dec ->
  exists n out' dec',
    b64_encode out b w = Ok (n, out') /\ length out' = length out /\
    firstn (S n) out' = wrap_text w (b64_text b) ++ [0%N] /\
    n = length (wrap_text w (b64_text b)) /\
    if (length b mod 3 =? 1) && negb (w =? 0) && ((b64_len (length b) - 1) mod w =? 0)
    then b64_decode dec (firstn n out') = Ok (0, dec')
    else b64_decode dec (firstn n out') = Ok (length b, dec') /\ firstn (length b) dec' = b.
Proof. exact b64_wrap_exact_lemma. Qed.
Print Assumptions b64_wrap_exact_partial.

(** C06, base64 part: false; an input of white space only makes the decoder
    read before the start of the input. *)
Theorem b64_decode_in_bounds_refuted : exists out s,
  out <> [] /\ s <> [] /\ b64_decode out s = UB.
Proof. exists [0%N], [32%N]. repeat split; try discriminate; vm_compute; reflexivity. Qed.
Print Assumptions b64_decode_in_bounds_refuted.

(** C06, exact: that is the only way to leave the buffers. *)
Theorem b64_decode_in_bounds_partial : forall out s,
  Exists (fun c => ~ is_space c) s ->
  exists n o, b64_decode out s = Ok (n, o) /\ length o = length out /\ n <= length out.
Proof. exact b64_decode_safe_partial. Qed.
Print Assumptions b64_decode_in_bounds_partial.

Example b64_decode_in_bounds_case : Exists (fun c => ~ is_space c) [32; 61; 10]%N.
Proof. right. left. unfold is_space. lia. Qed.

(** Malformed padding is not always rejected: "AA=B" decodes to two bytes. *)
Theorem b64_malformed_padding_accepted : exists out',
  b64_decode (repeat 0%N 3) [65;65;61;66]%N = Ok (2, out').
Proof. exists [0;1;0]%N. vm_compute. reflexivity. Qed.
Print Assumptions b64_malformed_padding_accepted.

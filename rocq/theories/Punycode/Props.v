(** Punycode: the properties. *)
From Verif Require Import Base.Lib Base.Mem Utf8.Model Utf8.Spec Utf8.Proofs Utf8.Text Punycode.Model Punycode.Spec Punycode.Proofs.
Local Open Scope N_scope.

(** [C64] What the encoder writes is the RFC's encoding of the text, and ASCII.  It
    fails only where the 32 bit counter overflows, which a text of fewer than 3854
    characters cannot do. *)
Theorem puny_encode_rfc : forall cps, Forall (fun c => code_cp c /\ c <> 0) cps -> N.of_nat (length cps) + 2 < 2 ^ 32 ->
  (exists t, puny_encode (utf8_text cps) = Ok (PSuccess t) /\ Forall (fun c => c < 128) t /\ Rfc t cps) \/
  (puny_encode (utf8_text cps) = Ok PFail /\ (3854 <= length cps)%nat).
Proof.
  intros cps T L. destruct (encode_text cps T L) as [[E S]|H]; [right|left; exact H]. split; auto.
  unfold small in S. change max32 with 4294967295 in S. lia.
Qed.
Print Assumptions puny_encode_rfc.

(** [C64] Whatever text the RFC gives a meaning to is decoded to that meaning, or
    refused when it is long.  (The full claim has no such limit; see
    [puny_round_trip_refuted].) *)
Theorem puny_decode_rfc_partial : forall t cps, Rfc t cps -> Forall (fun c => code_cp c /\ c <> 0) cps -> N.of_nat (length cps) + 2 < 2 ^ 32 ->
  puny_decode t = Ok (PSuccess (utf8_text cps)) \/ (puny_decode t = Ok PFail /\ (3854 <= length cps)%nat).
Proof.
  intros t cps R T L. destruct (decode_text t cps R T L) as [E|[E S]]; [now left|right]. split; auto.
  unfold small in S. change max32 with 4294967295 in S. lia.
Qed.
Print Assumptions puny_decode_rfc_partial.

(** [C64] Round trip.  Full claim: for texts of any length. *)
Theorem puny_round_trip_partial : forall cps, Forall (fun c => code_cp c /\ c <> 0) cps -> (length cps < 3854)%nat ->
  exists t, puny_encode (utf8_text cps) = Ok (PSuccess t) /\ puny_decode t = Ok (PSuccess (utf8_text cps)).
Proof.
  intros cps T L. assert (L2 : N.of_nat (length cps) + 2 < 2 ^ 32) by (change (2 ^ 32) with 4294967296; lia).
  destruct (puny_encode_rfc cps T L2) as [(t & E & _ & R)|[_ X]]; [|lia].
  exists t. split; auto. destruct (puny_decode_rfc_partial t cps R T L2) as [Dq|[_ X]]; [auto|lia].
Qed.
Print Assumptions puny_round_trip_partial.

(** [C64] A longer text never comes back as another text. *)
Theorem puny_never_another : forall cps t, Forall (fun c => code_cp c /\ c <> 0) cps -> N.of_nat (length cps) + 2 < 2 ^ 32 ->
  puny_encode (utf8_text cps) = Ok (PSuccess t) ->
  puny_decode t = Ok (PSuccess (utf8_text cps)) \/ puny_decode t = Ok PFail.
Proof.
  intros cps t T L E. destruct (puny_encode_rfc cps T L) as [(t' & E' & _ & R)|[E' _]]; [|congruence].
  assert (t' = t) by congruence. subst t'. destruct (puny_decode_rfc_partial t cps R T L) as [Dq|[Dq _]]; auto.
Qed.
Print Assumptions puny_never_another.

(** [C64] The counters of the encoder and of the decoder do not overflow on the same
    texts: the encoder starts counting at zero again for each character, the decoder
    at the place of the last one. *)
Theorem puny_round_trip_refuted : exists cps t, Forall (fun c => code_cp c /\ c <> 0) cps /\
  puny_encode (utf8_text cps) = Ok (PSuccess t) /\ puny_decode t = Ok PFail.
Proof.
  exists (repeat 97 3998 ++ [128; 1073869]),
    (match puny_encode (utf8_text (repeat 97 3998 ++ [128; 1073869])) with Ok (PSuccess t) => t | _ => [] end).
  split; [|split].
  - apply Forall_app. split; [apply Forall_forall; intros c Hc; apply repeat_spec in Hc; subst c|].
    + split; [apply is_valid_cp_iff; reflexivity|discriminate].
    + constructor; [split; [apply is_valid_cp_iff; reflexivity|discriminate]|]. constructor; [split; [apply is_valid_cp_iff; reflexivity|discriminate]|constructor].
  - vm_compute. reflexivity.
  - vm_compute. reflexivity.
Qed.
Print Assumptions puny_round_trip_refuted.

(** [C64] The decoder lets the code point wrap around: a text to which the RFC gives
    the code point 2^32 + 65 decodes to "A". *)
Theorem puny_decode_overflow_refuted : exists t, puny_decode t = Ok (PSuccess [65]) /\ Rfc t [2 ^ 32 + 65].
Proof.
  exists (match encode_int 33 36 72 (2 ^ 32 - 63) with Ok t => t | _ => [] end).
  split; [vm_compute; reflexivity|].
  assert (E : encode_int 33 36 72 (2 ^ 32 - 63) = Ok (match encode_int 33 36 72 (2 ^ 32 - 63) with Ok t => t | _ => [] end)) by (vm_compute; reflexivity).
  set (t := match _ with Ok t => t | _ => [] end) in *.
  assert (NI : ~ In 45 t) by (vm_compute; intuition discriminate). clearbody t.
  exists [], t. split; [right; split; reflexivity|]. split; [exact NI|]. split; [constructor|].
  rewrite <- (app_nil_r t).
  destruct (adapt_ok (2 ^ 32 - 63) 1 true) as (bias & _ & _ & A); [discriminate|discriminate|].
  apply (R_step 128 0 72 true [] t (2 ^ 32 - 63) bias (2 ^ 32 + 65) 0 [] [2 ^ 32 + 65]).
  - apply (encode_vli 72 ltac:(discriminate) 33 36 _ _ ltac:(reflexivity) E).
  - exact A.
  - reflexivity.
  - reflexivity.
  - constructor.
Qed.
Print Assumptions puny_decode_overflow_refuted.

(** [C64] What is not UTF-8 is bad input to the encoder, what is not ASCII to the
    decoder. *)
Theorem puny_bad_input : forall cps bad t,
  Forall (fun c => code_cp c /\ c <> 0) cps -> no_nul bad -> bad_start bad -> Exists (fun c => 128 <= c) t ->
  puny_encode (utf8_text cps ++ bad) = Ok PBadInput /\ puny_decode t = Ok PBadInput.
Proof.
  intros cps bad t T Hn Hb Ex. split.
  - unfold puny_encode. destruct (forallb (fun c => c <? 128) (utf8_text cps ++ bad)) eqn:A.
    + exfalso. rewrite forallb_app in A. apply andb_true_iff in A. destruct A as [_ A]. destruct Hb as [Hne Hb]. destruct bad as [|c bad]; [congruence|].
      cbn in A. apply andb_true_iff in A. destruct A as [A _]. inversion Hn; subst. apply N.ltb_lt in A.
      apply (Hb c bad); [split; [|assumption]|now rewrite enc_ascii]. apply is_valid_cp_iff. unfold is_valid_cp.
      repeat match goal with |- context [?a =? ?b] => rewrite (proj2 (N.eqb_neq a b)) by lia | |- context [?a <=? ?b] => rewrite (proj2 (N.leb_gt a b)) by lia end.
      rewrite (proj2 (N.ltb_ge _ _)) by lia. reflexivity.
    + rewrite <- app_assoc, is_valid_bad by auto. reflexivity.
  - unfold puny_decode. replace (forallb (fun c => c <? 128) t) with false; [reflexivity|]. symmetry. apply not_true_is_false.
    rewrite forallb_ascii. intros F. rewrite Forall_forall in F. apply Exists_exists in Ex. destruct Ex as (c & Hc & L). specialize (F c Hc). lia.
Qed.
Print Assumptions puny_bad_input.

(** "bücher" is "bcher-kva". *)
Example puny_case :
  let s := [98; 252; 99; 104; 101; 114] in
  Forall (fun c => code_cp c /\ c <> 0) s /\ (length s < 3854)%nat /\
  puny_encode (utf8_text s) = Ok (PSuccess [98; 99; 104; 101; 114; 45; 107; 118; 97]) /\
  puny_decode [98; 99; 104; 101; 114; 45; 107; 118; 97] = Ok (PSuccess (utf8_text s)) /\
  Rfc [98; 99; 104; 101; 114; 45; 107; 118; 97] s.
Proof.
  cbv zeta. assert (T : Forall (fun c => code_cp c /\ c <> 0) [98; 252; 99; 104; 101; 114]) by (repeat (constructor; [split; [apply is_valid_cp_iff; reflexivity|discriminate]|]); constructor).
  split; [exact T|]. split; [cbn; lia|]. split; [reflexivity|]. split; [reflexivity|].
  destruct (puny_encode_rfc _ T ltac:(reflexivity)) as [(t & E & _ & R)|[E _]]; [|discriminate E].
  revert E. vm_compute (puny_encode _). intros E. injection E as <-. exact R.
Qed.

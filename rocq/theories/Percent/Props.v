(** The property C62: percent encoding, text/textcodec/m_textcodec_percent.c. *)
From Coq Require Import String Ascii.
From Verif Require Import Base.Lib Base.Mem Hex.Spec Percent.Model Percent.Spec Percent.Proofs.
Local Open Scope N_scope.

(** Every string can be encoded, with every codec and error handler, and
    decoding the text with the same codec gives the string back. *)
Theorem percent_round_trip : forall k eh eh' s, is_bytes s -> exists t,
  encode_percent k eh s = Ok (TSuccess, t) /\ decode_percent k eh' t = Ok (TSuccess, s).
Proof.
  intros k eh eh' s H. exists (flat_map (etext k) s). unfold encode_percent. rewrite encode_loop_ok by auto. split; auto.
  assert (D := encode_decodes k s H). unfold decode_percent.
  assert (A : forallb (fun c => c <? 128) (flat_map (etext k) s) = true).
  { apply Decodes_ascii in D. rewrite Forall_forall in D. apply forallb_forall. intros c Hc. apply N.ltb_lt. now apply D. }
  rewrite A. cbn [negb]. destruct eh'; now rewrite (decode_loop_decodes k _ _ _ D).
Qed.
Print Assumptions percent_round_trip.

(** The text consists of harmless characters. *)
Theorem percent_encode_safe : forall k eh s t, is_bytes s -> encode_percent k eh s = Ok (TSuccess, t) -> Forall (safe k) t.
Proof.
  intros k eh s t H. unfold encode_percent. rewrite encode_loop_ok by auto. cbn [app]. intros E; injection E as <-.
  induction H as [|c s H F IH]; cbn [flat_map]; [constructor|]. apply Forall_app. split; auto. now apply etext_safe.
Qed.
Print Assumptions percent_encode_safe.

(** The strict decoder accepts exactly the texts that stand for something, and
    gives what they stand for; the tolerant decoders agree with it there. *)
Theorem percent_decode_exact : forall k t s, decode_percent k EFail t = Ok (TSuccess, s) <-> Decodes (is_form k) t s.
Proof.
  intros k t s. split.
  - unfold decode_percent. destruct (forallb (fun c => c <? 128) t) eqn:A; cbn [negb]; [|discriminate]. intros E.
    assert (A' : Forall (fun c => c < 128) t).
    { apply Forall_forall. intros c Hc. rewrite forallb_forall in A. apply N.ltb_lt. now apply A. }
    destruct (decode_loop_fail k (length t) t (le_n _) A' [] TSuccess) as [(s' & D)|(b & E')]; [|congruence].
    rewrite (decode_loop_decodes k _ _ _ D) in E. injection E as <-. exact D.
  - intros D. unfold decode_percent. replace (forallb (fun c => c <? 128) t) with true; [now rewrite (decode_loop_decodes k _ _ _ D)|].
    symmetry. apply Decodes_ascii in D. rewrite Forall_forall in D. apply forallb_forall. intros c Hc. apply N.ltb_lt. now apply D.
Qed.
Print Assumptions percent_decode_exact.

Theorem percent_decode_tolerant : forall k eh t s, Decodes (is_form k) t s -> decode_percent k eh t = Ok (TSuccess, s).
Proof.
  intros k eh t s D. destruct eh; [now apply percent_decode_exact| |]; unfold decode_percent; now rewrite (decode_loop_decodes k _ _ _ D).
Qed.
Print Assumptions percent_decode_tolerant.

Theorem percent_decode_defined : forall k eh t, exists r s, decode_percent k eh t = Ok (r, s).
Proof.
  intros k eh t. unfold decode_percent. destruct eh; [destruct (negb _); eauto| |]; apply (decode_loop_total k _ (length t) t (le_n _)).
Qed.
Print Assumptions percent_decode_defined.

Definition b (s : string) : list N := map N_of_ascii (list_ascii_of_string s).
Example percent_case :
  encode_percent PForm EFail (b "a b+c/%" ++ [195; 169]) = Ok (TSuccess, b "a+b%2Bc%2F%25%C3%A9") /\
  encode_percent PUrlMin EFail (b "a b+c/%") = Ok (TSuccess, b "a%20b+c/%25") /\
  decode_percent PForm EFail (b "a+b%2bc%2F%25") = Ok (TSuccess, b "a b+c/%") /\
  decode_percent PUrl EFail (b "100%") = Ok (TFail, b "100") /\
  decode_percent PUrl EIgnore (b "1%zz2%4") = Ok (TSuccessEh, b "124") /\
  Decodes true (b "a+%2b") (b "a +").
Proof. repeat split; try (vm_compute; reflexivity). apply (percent_decode_exact PForm). vm_compute. reflexivity. Qed.

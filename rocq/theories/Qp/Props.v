(** The property C63: quoted-printable, text/textcodec/m_textcodec_quoted_printable.c. *)
From Coq Require Import String Ascii.
From Verif Require Import Base.Lib Base.Mem Hex.Spec Percent.Model Qp.Model Qp.Spec Qp.Proofs.
Local Open Scope N_scope.

(** Full statement: for every byte string and every platform.  Missing: bytes
    above 127 where [char] is signed ([qp_encode_refuted]). *)
Theorem qp_round_trip_partial : forall sg s eh, is_bytes s -> (sg = true -> Forall (fun c => c < 128) s) ->
  exists t, qp_encode sg s = Ok t /\ Quoted t s /\ qp_decode eh t = Ok (TSuccess, s).
Proof.
  intros sg s eh H Hs. destruct (qp_encode_quoted sg s H Hs 0 []) as (t & E & Q). exists t. split; [exact E|]. split; [auto|].
  unfold qp_decode. now rewrite (decode_loose t s (Quoted_Loose _ _ Q)) by lia.
Qed.
Print Assumptions qp_round_trip_partial.

(** No line of the encoding is longer than the 76 characters the RFC allows.
    Missing as above. *)
Theorem qp_lines_partial : forall sg s t, is_bytes s -> (sg = true -> Forall (fun c => c < 128) s) ->
  qp_encode sg s = Ok t -> short_lines 76 t.
Proof.
  intros sg s t H Hs E. destruct (qp_encode_fits sg s H Hs 0 []) as (t' & E' & F); [lia|].
  unfold qp_encode in E. rewrite E' in E. injection E as <-. now apply fits_short.
Qed.
Print Assumptions qp_lines_partial.

(** Where [char] is signed, any byte above 127 makes the encoder read before the
    digit table. *)
Theorem qp_encode_refuted : forall s, is_bytes s -> Exists (fun c => 128 <= c) s -> qp_encode true s = UB.
Proof. intros s H E. now apply qp_encode_ub. Qed.
Print Assumptions qp_encode_refuted.

(** Every well-formed text is decoded.  Full statement for the strict handler:
    exactly those ([qp_decode_refuted]); the texts it does take are [Loose]. *)
Theorem qp_decode_complete : forall eh t s, Quoted t s -> qp_decode eh t = Ok (TSuccess, s).
Proof. intros eh t s Q. unfold qp_decode. now rewrite (decode_loose t s (Quoted_Loose _ _ Q)) by lia. Qed.
Print Assumptions qp_decode_complete.

Theorem qp_decode_strict_partial : forall t s, qp_decode EFail t = Ok (TSuccess, s) <-> Loose t s.
Proof.
  intros t s. unfold qp_decode. split.
  - intros E. destruct (decode_fail (length t) t (le_n _)) as [(s' & L)|F].
    + rewrite (decode_loose t s' L) in E by lia. injection E as <-. exact L.
    + destruct (F (S (length t)) [] TSuccess) as (b & E'); [lia|congruence].
  - intros L. now rewrite (decode_loose t s L) by lia.
Qed.
Print Assumptions qp_decode_strict_partial.

Definition b (s : string) : list N := map N_of_ascii (list_ascii_of_string s).
Theorem qp_decode_refuted : exists t s, qp_decode EFail t = Ok (TSuccess, s) /\ ~ Quoted t s.
Proof.
  exists (b "=-1"), [255]. split; [vm_compute; reflexivity|]. intros Q. inversion Q as [|c t s N1 Q1|t s Q1|h1 h2 x y t s H1 H2 Q1 E1 E2]; subst; first [congruence|discriminate].
Qed.
Print Assumptions qp_decode_refuted.

Theorem qp_decode_defined : forall eh t, exists r s, qp_decode eh t = Ok (r, s).
Proof. intros eh t. exact (decode_total eh (length t) t (le_n _) (S (length t)) [] TSuccess (le_n _)). Qed.
Print Assumptions qp_decode_defined.

Example qp_case :
  qp_encode true (b "a=b" ++ [127; 9]) = Ok (b "a=3Db=7F" ++ [9]) /\
  qp_encode false [195; 169] = Ok (b "=C3=A9") /\
  qp_encode true [195; 169] = UB /\
  qp_encode true (repeat 97 80) = Ok (repeat 97 73 ++ [61; 13; 10] ++ repeat 97 7) /\
  qp_decode EFail (b "a=3db=" ++ [13; 10] ++ b "c") = Ok (TSuccess, b "a=bc") /\
  qp_decode EFail (b "=4Gx") = Ok (TSuccess, 4 :: b "Gx") /\
  qp_decode EFail (b "a=zz") = Ok (TFail, b "a") /\
  qp_decode EIgnore (b "a=zz=4") = Ok (TSuccessEh, b "azz4") /\
  Quoted (b "a=3D") (b "a=").
Proof.
  repeat (split; [vm_compute; reflexivity|]). change (Quoted (97 :: 61 :: 51 :: 68 :: []) (97 :: 16 * 3 + 13 :: [])).
  apply Q_plain; [discriminate|]. apply Q_hex; [reflexivity|reflexivity|constructor].
Qed.

(** The properties C74, C75 and C76: text codecs. *)
From Coq Require Import String Ascii.
From Verif Require Import Base.Lib Base.Mem Utf8.Model Utf8.Spec Utf8.Proofs Utf8.Text StrEq.Model StrEq.Spec
  Hex.Spec Percent.Model Percent.Spec Percent.Props Qp.Model Qp.Spec Qp.Props Punycode.Model Punycode.Spec Punycode.Props
  TextCodec.Tables TextCodec.Std TextCodec.Model TextCodec.Spec TextCodec.Proofs TextCodec.Names.
Local Open Scope N_scope.
Local Open Scope list_scope.

Lemma enc_bytes c : code_cp c -> is_bytes (utf8_enc c).
Proof.
  intros V. pose proof (code_cp_bound c V) as B. unfold utf8_enc, is_bytes, is_byte.
  destruct (N.ltb_spec c 0x80); [repeat apply Forall_cons; try apply Forall_nil; lia|].
  destruct (N.ltb_spec c 0x800); [repeat apply Forall_cons; try apply Forall_nil; lia|].
  destruct (N.ltb_spec c 0x10000); repeat apply Forall_cons; try apply Forall_nil; lia.
Qed.
Lemma text_bytes cps : Forall uchar cps -> is_bytes (utf8_text cps).
Proof. induction 1 as [|c cps [V _] F IH]; [constructor|]. rewrite text_cons. apply Forall_app. split; auto. now apply enc_bytes. Qed.

(** [C74] The tables are the published ones, in both directions. *)
Theorem codepage_tables_standard : forall m b c, b < 256 ->
  dec_lookup (map_of m) b = std_char m b /\ (enc_lookup (map_of m) c = Some b <-> std_char m b = Some c).
Proof.
  intros m b c H. split; [now apply dec_std|]. rewrite byte_of_iff. unfold Byte_of. tauto.
Qed.
Print Assumptions codepage_tables_standard.

(** The outcomes of the specification are determined. *)
Theorem codepage_outcome_unique : forall m rep cps s,
  (exists ok out, Encodes m rep ok cps out /\ forall ok' out', Encodes m rep ok' cps out' -> ok' = ok /\ out' = out) /\
  (exists ok out, Decoded m rep ok s out /\ forall ok' out', Decoded m rep ok' s out' -> ok' = ok /\ out' = out).
Proof.
  intros m rep cps s. split.
  - destruct (encodes_total m rep cps) as (ok & out & E). exists ok, out. split; auto.
    intros ok' out' E'. destruct (encodes_unique _ _ _ _ _ E _ _ E'). auto.
  - destruct (decoded_total m rep s) as (ok & out & E). exists ok, out. split; auto.
    intros ok' out' E'. destruct (decoded_unique _ _ _ _ _ E _ _ E'). auto.
Qed.
Print Assumptions codepage_outcome_unique.

Lemma utf8_is_valid_text cps : Forall uchar cps -> utf8_is_valid (utf8_text cps ++ [0]) = Ok (true, Some [0]).
Proof. intros F. exact (is_valid_good cps [] F). Qed.

Lemma text_cases cps : Forall uchar cps -> utf8_text cps = [] -> cps = [].
Proof. destruct cps as [|c cps]; auto. rewrite text_cons. destruct (enc_nonempty c) as (x & l & ->). discriminate. Qed.

Lemma encode_map_eq sg eh m cps : Forall uchar cps ->
  encode_codec sg eh (CMap m) (utf8_text cps) = match cps with [] => Ok (TSuccess, []) | _ => encode_map eh (map_of m) (utf8_text cps) end.
Proof.
  intros F. destruct cps as [|c cps]; [reflexivity|]. unfold encode_codec.
  destruct (utf8_text (c :: cps)) as [|x l] eqn:E; [now apply text_cases in E|].
  rewrite <- E, (utf8_is_valid_text _ F). reflexivity.
Qed.

(** [C75] Encoding valid text: characters without a byte make the call fail, or
    become a question mark, or are left out.  Full statement: for every input;
    missing: invalid input with the handlers that carry on, which is undefined
    ([codepage_encode_invalid_refuted]). *)
Theorem codepage_encode_partial : forall sg m cps ok out rep out', Forall uchar cps ->
  Encodes m [] ok cps out -> Encodes m rep ok cps out' -> rep = [63] ->
  (exists o, encode_codec sg EFail (CMap m) (utf8_text cps) = Ok (if ok then TSuccess else TFail, o) /\ (ok = true -> o = out)) /\
  encode_codec sg EIgnore (CMap m) (utf8_text cps) = Ok (if ok then TSuccess else TSuccessEh, out) /\
  encode_codec sg EReplace (CMap m) (utf8_text cps) = Ok (if ok then TSuccess else TSuccessEh, out').
Proof.
  intros sg m cps ok out rep out' F X X' ->. rewrite !encode_map_eq by auto.
  assert (L : (S (length cps) < S (S (length (utf8_text cps))))%nat) by (pose proof (text_len_ge cps); lia).
  destruct cps as [|c cps]; [inversion X; inversion X'; subst; cbn; eauto|].
  unfold encode_map. split; [|split].
  - destruct (enc_loop_fail m _ [] F _ [] ok out L X) as (o & E & Ho). exists o. auto.
  - rewrite (enc_loop_ok EIgnore m _ [] ltac:(discriminate) F _ _ _ ok out) by (auto; lia). reflexivity.
  - rewrite (enc_loop_ok EReplace m _ [] ltac:(discriminate) F _ _ _ ok out') by (auto; lia). reflexivity.
Qed.
Print Assumptions codepage_encode_partial.

(** [C75] Invalid text is refused by the strict handler, *)
Theorem codec_encode_invalid_strict : forall sg k cps bad, k <> CUtf8 -> Forall uchar cps -> no_nul bad -> bad_start bad ->
  encode_codec sg EFail k (utf8_text cps ++ bad) = Ok (TBadInput, []).
Proof.
  intros sg k cps bad Hk F Hn B. unfold encode_codec.
  destruct (utf8_text cps ++ bad) as [|x l] eqn:E; [apply app_eq_nil in E; destruct E, B; congruence|].
  rewrite <- E, <- app_assoc, (is_valid_bad cps bad [] F Hn B). destruct k; [reflexivity|congruence|reflexivity..].
Qed.
Print Assumptions codec_encode_invalid_strict.

(** but every other handler follows a NULL pointer, whatever the code page and
    the text: M_utf8_get_cp has set [next] to NULL. *)
Theorem codepage_encode_invalid_refuted : forall sg eh m cps bad, eh <> EFail -> Forall uchar cps -> no_nul bad -> bad_start bad ->
  encode_codec sg eh (CMap m) (utf8_text cps ++ bad) = UB.
Proof.
  intros sg eh m cps bad He F Hn B. unfold encode_codec.
  destruct (utf8_text cps ++ bad) as [|x l] eqn:E; [apply app_eq_nil in E; destruct E, B; congruence|].
  rewrite <- E at 1. rewrite <- app_assoc, (is_valid_bad cps bad [] F Hn B). cbn [bind negb andb].
  replace (match eh with EFail => true | _ => false end) with false by (destruct eh; congruence).
  unfold encode_map. rewrite <- E, <- app_assoc. apply enc_loop_ub; auto. rewrite app_length. pose proof (text_len_ge cps).
  pose proof (bad_len bad B). lia.
Qed.
Print Assumptions codepage_encode_invalid_refuted.
Example codepage_encode_invalid_case : bad_start [0xE9] /\ encode_codec true EReplace (CMap Asc) [65; 0xE9] = UB.
Proof.
  split; [|vm_compute; reflexivity]. split; [discriminate|]. intros c r U E.
  assert (G := get_cp_enc c (r ++ [0]) (proj1 U) (proj2 U)). rewrite app_assoc, <- E in G. vm_compute in G. discriminate.
Qed.

(** [C75] Decoding: bytes without a character make the call fail, or are left out,
    or become the two bytes FF FD. *)
Theorem codepage_decode_partial : forall m s ok out out', is_bytes s ->
  Decoded m [] ok s out -> Decoded m [0xFF; 0xFD] ok s out' ->
  (exists o, decode_codec EFail (CMap m) s = Ok (if ok then TSuccess else TFail, o) /\ (ok = true -> o = out)) /\
  decode_codec EIgnore (CMap m) s = Ok (if ok then TSuccess else TSuccessEh, out) /\
  decode_codec EReplace (CMap m) s = Ok (if ok then TSuccess else TSuccessEh, out').
Proof.
  intros m s ok out out' B X X'. destruct s as [|b s]; [inversion X; inversion X'; subst; cbn; eauto|].
  unfold decode_codec, decode_map. split; [|split].
  - exact (dec_loop_fail m _ B [] ok out X).
  - rewrite (dec_loop_ok EIgnore m _ ltac:(discriminate) B _ _ ok out); auto.
  - rewrite (dec_loop_ok EReplace m _ ltac:(discriminate) B _ _ ok out'); auto.
Qed.
Print Assumptions codepage_decode_partial.

(** [C75] Without replacement what decoding gives is valid UTF-8; *)
Theorem codepage_decode_valid_partial : forall eh m s r out, eh <> EReplace -> is_bytes s -> no_nul s ->
  decode_codec eh (CMap m) s = Ok (r, out) -> is_error r = false -> ValidText out.
Proof.
  intros eh m s r out He B Hn E Er.
  destruct (decoded_total m [] s) as (ok & o & X). destruct (decoded_total m [0xFF; 0xFD] s) as (ok' & o' & X').
  assert (ok = ok').
  { clear - X X'. revert ok' o' X'. induction X; intros ok' o' X'; inversion X'; subst; auto; try congruence; eauto. }
  subst ok'. destruct (codepage_decode_partial m s ok o o' B X X') as ((o1 & E1 & Ho) & E2 & _).
  destruct eh; [|congruence|].
  - rewrite E1 in E. injection E as <- <-. destruct ok; [|discriminate]. rewrite Ho by auto.
    eapply decoded_valid; eauto. apply valid_nil.
  - rewrite E2 in E. injection E as <- <-. eapply decoded_valid; eauto. apply valid_nil.
Qed.
Print Assumptions codepage_decode_valid_partial.

(** with replacement it is invalid whenever a replacement takes place (the header
    promises U+FFFD). *)
Theorem codepage_decode_replace_refuted : forall m s out, is_bytes s ->
  decode_codec EReplace (CMap m) s = Ok (TSuccessEh, out) -> ~ ValidText out.
Proof.
  intros m s out B E V.
  destruct (decoded_total m [0xFF; 0xFD] s) as (ok & o & X).
  destruct s as [|b s]; [discriminate|]. unfold decode_codec, decode_map in E.
  rewrite (dec_loop_ok EReplace m _ ltac:(discriminate) B _ _ ok o) in E by auto. cbn [app] in E.
  destruct ok; [discriminate|]. injection E as <-. apply valid_no_ff in V. apply V. exact (decoded_ff m false _ _ X eq_refl).
Qed.
Print Assumptions codepage_decode_replace_refuted.
Example codepage_decode_replace_case : decode_codec EReplace (CMap Cp1252) [65; 0x81; 0x80] = Ok (TSuccessEh, [65; 0xFF; 0xFD; 0xE2; 0x82; 0xAC]) /\
  replacement_text = [0xEF; 0xBF; 0xBD].
Proof. split; vm_compute; reflexivity. Qed.

(** The question mark is an ASCII one in the EBCDIC pages, too: it reads back as
    U+001A. *)
Theorem codepage_replace_mark_refuted : exists m s, encode_codec true EReplace (CMap m) s = Ok (TSuccessEh, [63]) /\
  decode_codec EFail (CMap m) [63] = Ok (TSuccess, [0x1A]) /\ Byte_of m 63 0x6F.
Proof. exists Cp037, (utf8_enc 0x20AC). repeat split; vm_compute; reflexivity. Qed.
Print Assumptions codepage_replace_mark_refuted.

(** [C75] The UTF-8 codec: strict, *)
Theorem utf8_codec_strict : forall sg s, no_nul s ->
  (ValidText s -> encode_codec sg EFail CUtf8 s = Ok (TSuccess, s) /\ decode_codec EFail CUtf8 s = Ok (TSuccess, s)) /\
  (~ ValidText s -> encode_codec sg EFail CUtf8 s = Ok (TFail, []) /\ decode_codec EFail CUtf8 s = Ok (TFail, [])).
Proof.
  intros sg s Hn. destruct s as [|x l]; [split; [split; reflexivity|intros N; exfalso; apply N, valid_nil]|].
  assert (P : forall enc, (ValidText (x :: l) -> utf8_to_utf8 EFail enc (x :: l) = Ok (TSuccess, x :: l)) /\
                          (~ ValidText (x :: l) -> utf8_to_utf8 EFail enc (x :: l) = Ok (TFail, []))).
  { intros enc. destruct (utf8_loop_strict enc (x :: l) Hn ltac:(discriminate)) as (cps & bad & F & E & B & R).
    unfold utf8_to_utf8. rewrite R. destruct B as [-> | B].
    - split; [reflexivity|]. intros N. exfalso. apply N. exists cps. rewrite app_nil_r in E. auto.
    - split; [|destruct bad; [destruct B; congruence|reflexivity]]. intros (c2 & F2 & E2). exfalso.
      assert (Hnb : no_nul bad) by (rewrite E in Hn; apply no_nul_app in Hn; apply Hn).
      pose proof (is_valid_bad cps bad [] F Hnb B) as V1. pose proof (is_valid_good c2 [] F2) as V2.
      rewrite <- E2, E, <- app_assoc in V2. congruence. }
  split; intros V; split; apply (P _); auto.
Qed.
Print Assumptions utf8_codec_strict.

(** replacing: valid characters stay, every offending byte with the continuation
    bytes behind it becomes one replacement. *)
Theorem utf8_codec_replace_partial : forall sg s, no_nul s -> exists o o' r,
  encode_codec sg EReplace CUtf8 s = Ok (r, o) /\ Repaired [63] s o /\ ValidText o /\
  decode_codec EReplace CUtf8 s = Ok (r, o') /\ Repaired [0xFF; 0xFD] s o' /\
  (r = TSuccess <-> ValidText s) /\ (r = TSuccess \/ r = TSuccessEh).
Proof.
  intros sg s Hn. destruct s as [|x l].
  { exists [], [], TSuccess. split; [reflexivity|]. split; [apply Rep_nil|]. split; [apply valid_nil|]. split; [reflexivity|].
    split; [apply Rep_nil|]. split; [|auto]. split; auto. intros _. apply valid_nil. }
  destruct (utf8_loop_replace true _ _ (le_n _) Hn) as (o & R & E).
  destruct (utf8_loop_replace false _ _ (le_n _) Hn) as (o' & R' & E').
  exists o, o', (match utf8_is_valid ((x :: l) ++ [0]) with Ok (true, _) => TSuccess | _ => TSuccessEh end).
  unfold encode_codec, decode_codec, utf8_to_utf8. rewrite E, E' by lia.
  repeat (split; [first [reflexivity|exact R|exact R'|exact (repaired_valid _ _ R)]|]).
  destruct (decompose _ _ (le_n _) Hn) as (cps & bad & F & Eq & [-> | B]).
  - rewrite app_nil_r in Eq. rewrite Eq, (is_valid_good cps [] F). split; [|auto]. split; auto. intros _. exists cps. auto.
  - assert (Hnb : no_nul bad) by (rewrite Eq in Hn; apply no_nul_app in Hn; apply Hn).
    rewrite Eq, <- app_assoc, (is_valid_bad cps bad [] F Hnb B). split; [|auto]. split; [discriminate|].
    intros (c2 & F2 & E2). exfalso. pose proof (is_valid_bad cps bad [] F Hnb B) as V1. pose proof (is_valid_good c2 [] F2) as V2.
    rewrite <- E2, <- app_assoc in V2. congruence.
Qed.
Print Assumptions utf8_codec_replace_partial.

(** What the decoder gives for invalid text is invalid again; the handler IGNORE
    leaves everything in. *)
Theorem utf8_codec_decode_refuted : forall s, no_nul s -> s <> [] -> ~ ValidText s ->
  (exists o, decode_codec EReplace CUtf8 s = Ok (TSuccessEh, o) /\ ~ ValidText o) /\
  decode_codec EIgnore CUtf8 s = Ok (TSuccessEh, s).
Proof.
  intros s Hn Hne V. split.
  - destruct (utf8_codec_replace_partial true s Hn) as (o & o' & r & _ & _ & _ & E & R & [H _] & [-> | ->]); [exfalso; auto|].
    exists o'. split; auto. intros Vo. apply V. exact (repaired_ff _ _ R Vo).
  - destruct s as [|x l]; [congruence|]. unfold decode_codec, utf8_to_utf8.
    destruct (decompose _ _ (le_n _) Hn) as (cps & bad & F & Eq & [-> | B]).
    + exfalso. apply V. exists cps. rewrite app_nil_r in Eq. auto.
    + assert (Hnb : no_nul bad) by (rewrite Eq in Hn; apply no_nul_app in Hn; apply Hn).
      rewrite Eq, <- app_assoc, (is_valid_bad cps bad [] F Hnb B). reflexivity.
Qed.
Print Assumptions utf8_codec_decode_refuted.
Example utf8_codec_case :
  encode_codec true EReplace CUtf8 [65; 0xE9; 66; 0xF0; 0x80; 0x80; 67] = Ok (TSuccessEh, [65; 63; 66; 63; 67]) /\
  decode_codec EReplace CUtf8 [65; 0xE9; 66] = Ok (TSuccessEh, [65; 0xFF; 0xFD; 66]).
Proof. split; vm_compute; reflexivity. Qed.

(** ** Round trips *)

Lemma encodes_ok m rep cps : Forall (fun c => exists b, Byte_of m c b) cps -> exists out, Encodes m rep true cps out /\
  Forall2 (fun c b => Byte_of m c b) cps out.
Proof.
  induction 1 as [|c cps (b & B) F (out & E & R)]; [exists []; split; constructor|]. exists (b :: out). split; constructor; auto.
Qed.

(** [C74] Text all of whose characters the code page has comes back. *)
Theorem codepage_round_trip : forall sg eh eh' m cps, Forall uchar cps -> Forall (fun c => exists b, Byte_of m c b) cps ->
  exists t, encode_codec sg eh (CMap m) (utf8_text cps) = Ok (TSuccess, t) /\
    Forall2 (Byte_of m) cps t /\ no_nul t /\ decode_codec eh' (CMap m) t = Ok (TSuccess, utf8_text cps).
Proof.
  intros sg eh eh' m cps F R. destruct (encodes_ok m [] cps R) as (t & X & T). destruct (encodes_ok m [63] cps R) as (t' & X' & T').
  assert (Et : t' = t).
  { clear - T T'. revert t T. induction T' as [|c b cps t' B T' IH]; intros t T; inversion T; subst; auto.
    rewrite (byte_of_unique m c b y); auto. f_equal. auto. }
  subst t'. exists t.
  destruct (codepage_encode_partial sg m cps true t [63] t F X X' eq_refl) as ((o & E1 & Ho) & E2 & E3). rewrite Ho in E1 by auto.
  assert (Hb : is_bytes t) by (clear - T; induction T as [|c b cps t [H _] T IH]; constructor; auto).
  split; [destruct eh; auto|]. split; [exact T|]. split.
  - clear - F T. induction T as [|c b cps t [H B] T IH]; [constructor|]. inversion F as [|? ? [_ N0] F']; subst.
    constructor; [|now apply IH]. destruct (dec_entry m b c H B) as [_ Z]. intros Eb. apply N0. now apply Z.
  - assert (D : forall rep, Decoded m rep true t (utf8_text cps)).
    { intros rep. clear - T. induction T as [|c b cps t [H B] T IH]; [constructor|]. rewrite text_cons. constructor; auto. }
    destruct (codepage_decode_partial m t true _ _ Hb (D _) (D _)) as ((o' & D1 & Ho') & D2 & D3). rewrite Ho' in D1 by auto.
    destruct eh'; auto.
Qed.
Print Assumptions codepage_round_trip.

(** [C74] Bytes all of which have characters come back. *)
Theorem codepage_round_trip_bytes : forall sg eh eh' m s, is_bytes s -> no_nul s -> Forall (fun b => std_char m b <> None) s ->
  exists t, decode_codec eh (CMap m) s = Ok (TSuccess, t) /\ ValidText t /\ encode_codec sg eh' (CMap m) t = Ok (TSuccess, s).
Proof.
  intros sg eh eh' m s B Hn D.
  assert (C : exists cps, Forall uchar cps /\ Forall2 (Byte_of m) cps s).
  { revert Hn D. induction B as [|b s Hb B IH]; intros Hn D; [exists []; split; constructor|].
    inversion Hn; inversion D; subst. destruct (IH H2 H6) as (cps & F & R). destruct (std_char m b) as [c|] eqn:E; [|congruence].
    exists (c :: cps). destruct (dec_entry m b c Hb E) as [V Z]. split; constructor; auto; split; auto. tauto. }
  destruct C as (cps & F & R).
  assert (R' : Forall (fun c => exists b, Byte_of m c b) cps) by (clear - R; induction R; constructor; eauto).
  destruct (codepage_round_trip sg eh' eh m cps F R') as (t & E & T & _ & E').
  assert (t = s).
  { clear - T R. revert t T. induction R as [|c b cps s Hb R IH]; intros t T; inversion T; subst; auto.
    rewrite (byte_of_unique m c b y); auto. f_equal. auto. }
  subst t. exists (utf8_text cps). split; auto. split; auto. exists cps. auto.
Qed.
Print Assumptions codepage_round_trip_bytes.

Example codepage_case :
  encode_codec true EFail (CMap Iso15) (utf8_text [0x41; 0x20AC; 0x17D]) = Ok (TSuccess, [0x41; 0xA4; 0xB4]) /\
  decode_codec EFail (CMap Cp037) [0xC8; 0x89; 0x5A] = Ok (TSuccess, name_bytes "Hi!") /\
  encode_codec true EFail (CMap Asc) (utf8_text [0x41; 0xE9]) = Ok (TFail, [0x41]) /\
  encode_codec true EIgnore (CMap Asc) (utf8_text [0x41; 0xE9; 0x42]) = Ok (TSuccessEh, [0x41; 0x42]).
Proof. repeat split; vm_compute; reflexivity. Qed.

Lemma utf8_valid_id eh enc cps : Forall uchar cps -> utf8_to_utf8 eh enc (utf8_text cps) = Ok (TSuccess, utf8_text cps).
Proof.
  intros F. pose proof (utf8_is_valid_text cps F) as V.
  assert (L : forall fail, utf8_loop (S (S (length (utf8_text cps)))) fail enc (utf8_text cps ++ [0]) [] TSuccess = Ok (TSuccess, utf8_text cps)).
  { intros fail. destruct cps as [|c cps]; [reflexivity|]. inversion F as [|? ? Hc _]; subst.
    destruct (text_head c cps [0] Hc) as (y & Ey & Ey0). cbn [utf8_loop]. rewrite Ey. cbn [bind]. rewrite Ey0, V. cbn [bind].
    rewrite firstn_upto. reflexivity. }
  destruct eh; cbn [utf8_to_utf8]; [apply L|apply L|]. rewrite V. reflexivity.
Qed.

(** The texts that codec [k] takes; [sg]: [char] is signed. *)
Definition fits (sg : bool) (k : codec) (cps : list N) : Prop :=
  match k with
  | CUnknown => False
  | CUtf8 | CPct _ => True
  | CMap m => Forall (fun c => exists b, Byte_of m c b) cps
  | CPuny => (length cps < 3854)%nat
  | CQp => sg = true -> Forall (fun c => c < 128) cps
  end.

Lemma rdec_in n i bias first l ext r : Rdec n i bias first l ext r -> (forall x, In x l -> In x r) /\ no_nul ext.
Proof.
  induction 1 as [n i bias first l|n i bias first l ds v bias' n' p rest r V A En Ep R IH].
  - split; auto. constructor.
  - destruct IH as [I1 I2]. split.
    + intros x Hx. apply I1. rewrite <- (firstn_skipn (N.to_nat p) l) in Hx. rewrite in_app_iff in *. cbn [In]. tauto.
    + apply Forall_app. split; auto. clear - V. assert (D : forall c d, digit c = Some d -> c <> 0).
      { intros c d E ->. discriminate. }
      induction V; constructor; eauto.
Qed.

Lemma puny_no_nul t cps : Rfc t cps -> no_nul cps -> no_nul t.
Proof.
  intros (basic & ext & Et & _ & _ & R) Hn. apply rdec_in in R. destruct R as [I F].
  assert (Hb : no_nul basic). { apply Forall_forall. intros x Hx. apply I in Hx. unfold no_nul in Hn. rewrite Forall_forall in Hn. now apply Hn. }
  destruct Et as [-> | [-> ->]]; auto. apply no_nul_app. split; auto. constructor; [discriminate|auto].
Qed.

Lemma quoted_no_nul t s : Quoted t s -> no_nul s -> no_nul t.
Proof.
  assert (D : forall c d, digit_val c = Some d -> c <> 0) by (intros c d E ->; discriminate).
  induction 1 as [|c t s Hc Q IH|t s Q IH|h1 h2 x y t s H1 H2 Q IH]; intros Hn.
  - constructor.
  - inversion Hn; subst. constructor; auto. now apply IH.
  - constructor; [discriminate|]. constructor; [discriminate|]. constructor; [discriminate|]. now apply IH.
  - inversion Hn; subst. constructor; [discriminate|]. constructor; [eapply D; eauto|]. constructor; [eapply D; eauto|]. now apply IH.
Qed.

Lemma ascii_text cps : Forall (fun c => c < 128) cps -> utf8_text cps = cps.
Proof. induction 1 as [|c cps H F IH]; auto. rewrite text_cons, enc1 by exact H. cbn. now rewrite IH. Qed.

(** [C74] Through the interface, for every codec: what a call of M_textcodec_encode
    gives for a text the codec takes is a string, and M_textcodec_decode turns that
    back into the text.  Full statement: for CUnknown, too
    ([unknown_codec_refuted]), for Punycode and quoted-printable without the
    bounds. *)
Theorem textcodec_round_trip_partial : forall sg eh eh' k cps, Forall uchar cps -> cps <> [] -> fits sg k cps ->
  exists t, textcodec_encode sg eh k (utf8_text cps) = Ok (TSuccess, Some t) /\ no_nul t /\
    textcodec_decode eh' k t = Ok (TSuccess, Some (utf8_text cps)).
Proof.
  intros sg eh eh' k cps F Hne Fit.
  assert (Ht : utf8_text cps <> []) by (intros E; apply Hne, text_cases; auto).
  assert (P : exists t, encode_codec sg eh k (utf8_text cps) = Ok (TSuccess, t) /\ no_nul t /\
                decode_codec eh' k t = Ok (TSuccess, utf8_text cps)).
  { pose proof (text_no_nul cps F) as Hn. pose proof (text_bytes cps F) as Hb. pose proof (utf8_is_valid_text cps F) as V.
    destruct k as [| |m|p| |]; cbn [fits] in Fit; [destruct Fit| | | | |].
    - exists (utf8_text cps). split; [|split; auto].
      + unfold encode_codec. destruct (utf8_text cps) eqn:Et; [congruence|]. rewrite <- Et. now apply utf8_valid_id.
      + unfold decode_codec. destruct (utf8_text cps) eqn:Et; [congruence|]. rewrite <- Et. now apply utf8_valid_id.
    - destruct (codepage_round_trip sg eh eh' m cps F Fit) as (t & E & _ & N0 & D). eauto.
    - destruct (percent_round_trip p eh eh' _ Hb) as (t & E & D). exists t.
      split; [unfold encode_codec; destruct (utf8_text cps) as [|x0 l0] eqn:Et; [now elim Ht|]; rewrite V; cbn [bind negb andb]; exact E|].
      split; [|destruct t; [|exact D]].
      + apply percent_encode_safe in E; auto. eapply Forall_impl; [|exact E]. intros c [Hc _]. lia.
      + exfalso. unfold decode_percent in D. destruct eh'; cbn in D; congruence.
    - destruct (puny_encode_rfc cps F) as [(t & E & _ & R)|[_ X]]; [change (2 ^ 32) with 4294967296; lia| |lia]. exists t.
      split; [unfold encode_codec; destruct (utf8_text cps) as [|x0 l0] eqn:Et; [now elim Ht|]; rewrite V; cbn [bind negb andb]; rewrite E; reflexivity|].
      split; [apply (puny_no_nul t cps R); eapply Forall_impl; [|exact F]; intros c [_ H]; exact H|].
      destruct (puny_decode_rfc_partial t cps R F) as [D|[_ X]]; [change (2 ^ 32) with 4294967296; lia| |lia].
      unfold decode_codec. destruct t as [|x t]; [|rewrite D; reflexivity]. exfalso. assert (D0 : puny_decode [] = Ok (PSuccess [])) by reflexivity. congruence.
    - destruct (qp_round_trip_partial sg (utf8_text cps) eh' Hb) as (t & E & R & D).
      { intros S. rewrite ascii_text; auto. }
      exists t.
      split; [unfold encode_codec; destruct (utf8_text cps) as [|x0 l0] eqn:Et; [now elim Ht|]; rewrite V; cbn [bind negb andb]; rewrite E; reflexivity|].
      split; [apply (quoted_no_nul t _ R Hn)|]. destruct t; [|exact D]. exfalso. cbn in D. congruence. }
  destruct P as (t & E & Hn & D). exists t. unfold textcodec_encode, textcodec_decode. rewrite E, D. cbn [bind finish is_error].
  assert (t <> []) by (intros ->; cbn in D; congruence).
  split; [destruct t; [congruence|reflexivity]|]. split; auto. destruct (utf8_text cps); [congruence|reflexivity].
Qed.
Print Assumptions textcodec_round_trip_partial.

(** M_TEXTCODEC_UNKNOWN encodes and does not decode; a text of which nothing is
    left gives success and no string. *)
Theorem unknown_codec_refuted : forall sg eh cps, Forall uchar cps -> cps <> [] ->
  textcodec_encode sg eh CUnknown (utf8_text cps) = Ok (TSuccess, Some (utf8_text cps)) /\
  textcodec_decode eh CUnknown (utf8_text cps) = Ok (TFail, None).
Proof.
  intros sg eh cps F Hne. pose proof (utf8_is_valid_text cps F) as V.
  unfold textcodec_encode, textcodec_decode, encode_codec, decode_codec.
  destruct (utf8_text cps) as [|x l] eqn:E; [apply text_cases in E; congruence|]. rewrite V. split; reflexivity.
Qed.
Print Assumptions unknown_codec_refuted.
Theorem textcodec_empty_refuted : forall sg eh k, textcodec_encode sg eh k [] = Ok (TSuccess, None) /\
  textcodec_encode sg EIgnore (CMap Asc) (utf8_enc 0xE9) = Ok (TSuccessEh, None).
Proof. intros sg eh k. split; reflexivity. Qed.
Print Assumptions textcodec_empty_refuted.

(** ** Names *)

(** [C76] The name of a codec is recognised. *)
Theorem codec_name_round_trip : forall k, codec_from_str (codec_to_str k) = Ok k.
Proof. intros k. destruct k as [| |m|p| |]; [| |destruct m|destruct p| |]; vm_compute; reflexivity. Qed.
Print Assumptions codec_name_round_trip.

(** [C76] Names are compared without regard to case. *)
Theorem codec_name_case : forall s s', no_nul s -> no_nul s' -> is_bytes s -> is_bytes s' -> N.of_nat (length s) < size_max -> nocase s s' ->
  exists k, codec_from_str s = Ok k /\ codec_from_str s' = Ok k.
Proof.
  intros s s' Hs Hs' Bs Bs' Ls X. assert (L : length s = length s') by (clear - X; unfold nocase in X; induction X; cbn; auto).
  destruct s as [|x s], s' as [|x' s']; try discriminate; [exists CUnknown; split; reflexivity|].
  unfold codec_from_str. apply from_str_alike; auto; try exact good_names. rewrite <- L. exact Ls.
Qed.
Print Assumptions codec_name_case.

(** [C76] The usual names of the code pages are recognised, in any case.  Full
    statement: all of them; missing: iso8859_16 ([codec_names_refuted]). *)
Theorem codec_names_partial : forall n m s, Named n m -> n <> name_bytes "iso8859_16" ->
  no_nul s -> is_bytes s -> N.of_nat (length s) < size_max -> nocase s n -> codec_from_str s = Ok (CMap m).
Proof.
  intros n m s (p & x & -> & H) Hx Hs Bs Ls X.
  set (good := fun (pr : list string) (xs : list (string * cmap)) =>
    forallb (fun p => forallb (fun e =>
      let n := name_bytes (String.append p (fst e)) in
      ((if list_eq_dec N.eq_dec n (name_bytes "iso8859_16") then true else false)
       || match from_fast n from_table with CMap m => (if list_eq_dec N.eq_dec (codec_to_str (CMap m)) (codec_to_str (CMap (snd e))) then true else false) | _ => false end)
      && forallb (fun c => negb (c =? 0)) n && (N.of_nat (length n) <? 1000) && negb (length n =? 0)%nat) xs) pr).
  assert (G : good iso_prefixes iso_parts = true /\ good latin_prefixes latin_alphabets = true /\ good windows_prefixes windows_pages = true)
    by (repeat split; vm_compute; reflexivity).
  assert (Bn : is_bytes (name_bytes (p ++ x))).
  { apply Forall_forall. intros c Hc. unfold name_bytes in Hc. apply in_map_iff in Hc. destruct Hc as (a & <- & _). apply N_ascii_bounded. }
  assert (K : forall pr xs, good pr xs = true -> In p pr -> In (x, m) xs ->
     codec_from_str (name_bytes (p ++ x)) = Ok (CMap m) /\ no_nul (name_bytes (p ++ x))).
  { intros pr xs Gg Hp Hxm. unfold good in Gg. rewrite forallb_forall in Gg. specialize (Gg p Hp). rewrite forallb_forall in Gg.
    specialize (Gg (x, m) Hxm). cbn [fst snd] in Gg. rewrite !andb_true_iff, orb_true_iff in Gg. destruct Gg as (((A & B) & Ln) & Z).
    assert (Nn : no_nul (name_bytes (p ++ x))) by (apply Forall_forall; intros c Hc; rewrite forallb_forall in B; specialize (B c Hc); lia).
    split; auto.
    unfold codec_from_str. destruct (name_bytes (p ++ x)) as [|y l] eqn:En; [discriminate|]. rewrite <- En in *.
    rewrite (from_fast_ok _ from_table Nn Bn); [|change size_max with 18446744073709551615; lia|exact good_names].
    destruct A as [A|A]; [destruct (list_eq_dec _ _ _) in A; [congruence|discriminate]|].
    destruct (from_fast _ _) as [| |m'|k'| |] in *; try discriminate.
    destruct (list_eq_dec _ _ _) as [E|E] in A; [|discriminate].
    pose proof (codec_name_round_trip (CMap m')) as R1. rewrite E, codec_name_round_trip in R1. congruence. }
  assert (K' : codec_from_str (name_bytes (p ++ x)) = Ok (CMap m) /\ no_nul (name_bytes (p ++ x))).
  { destruct G as (G1 & G2 & G3). destruct H as [[Hp He]|[[Hp He]|[Hp He]]]; [exact (K _ _ G1 Hp He)|exact (K _ _ G2 Hp He)|exact (K _ _ G3 Hp He)]. }
  destruct K' as [K1 K2].
  destruct (codec_name_case s (name_bytes (p ++ x)) Hs K2 Bs Bn Ls X) as (k & E1 & E2). congruence.
Qed.
Print Assumptions codec_names_partial.
Theorem codec_names_refuted : Named (name_bytes "iso8859_16") Iso16 /\
  codec_from_str (name_bytes "iso8859_16") = Ok CUnknown /\ codec_from_str (name_bytes "iso8859_17") = Ok (CMap Iso16).
Proof.
  split; [|split; vm_compute; reflexivity]. exists "iso8859_"%string, "16"%string. split; [reflexivity|]. left. cbn. tauto.
Qed.
Print Assumptions codec_names_refuted.
Example codec_names_case : codec_from_str (name_bytes "Windows-1252") = Ok (CMap Cp1252) /\
  codec_from_str (name_bytes "Latin 5") = Ok (CMap Iso9) /\ codec_from_str (name_bytes "ISO-8859-1") = Ok (CMap Iso1) /\
  Named (name_bytes "latin_5") Iso9.
Proof.
  split; [vm_compute; reflexivity|]. split; [vm_compute; reflexivity|]. split; [vm_compute; reflexivity|].
  exists "latin_"%string, "5"%string. split; [reflexivity|]. right. left. cbn. tauto.
Qed.

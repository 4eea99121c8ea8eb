From Verif Require Import Base.Lib Base.Mem Utf8.Model Utf8.Spec Utf8.Proofs Utf8.Text Percent.Model TextCodec.Tables TextCodec.Std TextCodec.Model TextCodec.Spec.
Local Open Scope N_scope.
Local Open Scope list_scope.

(** ** The tables *)

Definition bytes256 : list N := map N.of_nat (seq 0 256).
Lemma in_bytes256 b : b < 256 -> In b bytes256.
Proof.
  intros H. unfold bytes256. apply in_map_iff. exists (N.to_nat b). split; [apply N2Nat.id|]. apply in_seq. lia.
Qed.

Definition oeqb (a b : option N) : bool :=
  match a, b with Some x, Some y => x =? y | None, None => true | _, _ => false end.
Lemma oeqb_eq a b : oeqb a b = true -> a = b.
Proof. destruct a, b; cbn; try discriminate; auto. intros E. apply N.eqb_eq in E. congruence. Qed.

Definition check_dec (m : cmap) : bool := forallb (fun b => oeqb (dec_lookup (map_of m) b) (std_char m b)) bytes256.
Definition check_enc (m : cmap) : bool :=
  forallb (fun b => match std_char m b with None => true | Some c => oeqb (enc_lookup (map_of m) c) (Some b) end) bytes256.
Definition check_ent (m : cmap) : bool :=
  forallb (fun e => (fst e <? 256) && oeqb (std_char m (fst e)) (Some (snd e)) && is_valid_cp (snd e)
                    && Bool.eqb (fst e =? 0) (snd e =? 0)) (map_of m).

Lemma checks m : check_dec m = true /\ check_enc m = true /\ check_ent m = true.
Proof. destruct m; vm_compute; auto. Qed.

Lemma dec_std m b : b < 256 -> dec_lookup (map_of m) b = std_char m b.
Proof.
  intros H. destruct (checks m) as (C & _). unfold check_dec in C. rewrite forallb_forall in C.
  apply oeqb_eq, C, in_bytes256, H.
Qed.

Lemma std_enc m b c : b < 256 -> std_char m b = Some c -> enc_lookup (map_of m) c = Some b.
Proof.
  intros H E. destruct (checks m) as (_ & C & _). unfold check_enc in C. rewrite forallb_forall in C.
  specialize (C b (in_bytes256 b H)). rewrite E in C. now apply oeqb_eq.
Qed.

Lemma entry m e : In e (map_of m) ->
  fst e < 256 /\ std_char m (fst e) = Some (snd e) /\ code_cp (snd e) /\ (fst e = 0 <-> snd e = 0).
Proof.
  intros I. destruct (checks m) as (_ & _ & C). unfold check_ent in C. rewrite forallb_forall in C.
  specialize (C e I). rewrite !andb_true_iff in C. destruct C as (((A & B) & V) & Z).
  split; [now apply N.ltb_lt|]. split; [now apply oeqb_eq|]. split; [now apply is_valid_cp_iff|].
  apply eqb_prop in Z. rewrite <- !N.eqb_eq. rewrite Z. reflexivity.
Qed.

Lemma enc_entry m c b : enc_lookup (map_of m) c = Some b -> In (b, c) (map_of m).
Proof.
  unfold enc_lookup. destruct (find _ _) as [[b' c']|] eqn:F; [|discriminate]. cbn. intros E; injection E as ->.
  apply find_some in F. destruct F as [I E]. cbn in E. apply N.eqb_eq in E. now subst.
Qed.

Lemma byte_of_iff m c b : enc_lookup (map_of m) c = Some b <-> Byte_of m c b.
Proof.
  split.
  - intros E. apply enc_entry in E. apply entry in E. cbn in E. split; apply E.
  - intros [H E]. now apply std_enc.
Qed.

Lemma byte_of_none m c : enc_lookup (map_of m) c = None <-> forall b, ~ Byte_of m c b.
Proof.
  split.
  - intros E b B. apply byte_of_iff in B. congruence.
  - intros H. destruct (enc_lookup _ _) as [b|] eqn:E; auto. apply byte_of_iff in E. now apply H in E.
Qed.

Lemma dec_entry m b c : b < 256 -> std_char m b = Some c -> code_cp c /\ (b = 0 <-> c = 0).
Proof.
  intros H E. apply (std_enc m b c H) in E. apply enc_entry, entry in E. cbn in E. tauto.
Qed.

(** ** Encoding *)

Lemma encodes_total m rep cps : exists ok out, Encodes m rep ok cps out.
Proof.
  induction cps as [|c cps (ok & out & IH)]; [exists true, []; constructor|].
  destruct (enc_lookup (map_of m) c) as [b|] eqn:E.
  - apply byte_of_iff in E. exists ok, (b :: out). now constructor.
  - rewrite byte_of_none in E. exists false, (rep ++ out). econstructor; eauto.
Qed.

Lemma byte_of_unique m c b b' : Byte_of m c b -> Byte_of m c b' -> b = b'.
Proof. rewrite <- !byte_of_iff. congruence. Qed.

Lemma encodes_unique m rep cps ok out : Encodes m rep ok cps out -> forall ok' out',
  Encodes m rep ok' cps out' -> ok = ok' /\ out = out'.
Proof.
  induction 1 as [|ok c b cps out B E IH|ok c cps out B E IH]; intros ok' out' X; inversion X; subst; auto.
  - apply IH in H4. destruct H4 as [-> ->]. now rewrite (byte_of_unique m c b b0).
  - now apply H2 in B.
  - now apply B in H2.
  - apply IH in H4. destruct H4 as [_ ->]. auto.
Qed.

Definition eh_rep (eh : ehandler) (rep : list N) : list N := match eh with EReplace => rep | _ => [] end.

Lemma enc_step eh m f c cps r0 buf r : uchar c -> is_error r = false ->
  encode_map_loop (S f) eh (map_of m) (Some (utf8_text (c :: cps) ++ r0)) buf r =
  match enc_lookup (map_of m) c with
  | Some cp => encode_map_loop f eh (map_of m) (Some (utf8_text cps ++ r0)) (buf ++ [cp]) r
  | None =>
    match eh with
    | EFail => encode_map_loop f eh (map_of m) (Some (utf8_text cps ++ r0)) buf TFail
    | EReplace => encode_map_loop f eh (map_of m) (Some (utf8_text cps ++ r0)) (buf ++ cp_replace) TSuccessEh
    | EIgnore => encode_map_loop f eh (map_of m) (Some (utf8_text cps ++ r0)) buf TSuccessEh
    end
  end.
Proof.
  intros [V N0] Er. cbn [encode_map_loop].
  destruct (text_head c cps r0 (conj V N0)) as (x & Ex & Ex0). rewrite Ex. cbn [bind]. rewrite Ex0, Er. cbn [orb].
  rewrite text_cons, <- app_assoc, get_cp_enc by auto. cbn [bind uerr_ok].
  destruct (enc_lookup (map_of m) c) as [b|] eqn:E; auto.
  apply enc_entry, entry in E. cbn in E. now rewrite N.mod_small by apply E.
Qed.

Lemma enc_stop eh m f cps r0 buf r : Forall uchar cps -> (cps = [] -> exists x, rd r0 0 = Ok x) ->
  is_error r = true -> encode_map_loop (S f) eh (map_of m) (Some (utf8_text cps ++ r0)) buf r = Ok (r, buf).
Proof.
  intros F H Er. cbn [encode_map_loop].
  assert (X : exists x, rd (utf8_text cps ++ r0) 0 = Ok x).
  { destruct cps as [|c cps]; [apply H; auto|]. inversion F; subst. destruct (text_head c cps r0 H2) as (x & Ex & _). eauto. }
  destruct X as (x & ->). cbn [bind]. now rewrite Er, orb_true_r.
Qed.

(** The handlers that carry on. *)
Lemma enc_loop_ok eh m cps z : eh <> EFail -> Forall uchar cps -> forall f buf r ok out, (length cps < f)%nat ->
  Encodes m (eh_rep eh cp_replace) ok cps out -> is_error r = false ->
  encode_map_loop f eh (map_of m) (Some (utf8_text cps ++ 0 :: z)) buf r =
    Ok (if ok then r else TSuccessEh, buf ++ out).
Proof.
  intros He F. induction F as [|c cps U F IH]; intros f buf r ok out Lf X Er; (destruct f as [|f]; [cbn in Lf; lia|]).
  - inversion X; subst. cbn. now rewrite app_nil_r.
  - rewrite enc_step by auto. cbn [length] in Lf. inversion X; subst.
    + rewrite (proj2 (byte_of_iff m c b)) by auto. rewrite (IH _ _ _ ok out0) by (auto; lia). now rewrite <- app_assoc.
    + rewrite (proj2 (byte_of_none m c)) by auto. destruct eh; [congruence| |]; cbn [eh_rep] in *.
      * rewrite (IH _ _ _ ok0 out0) by (auto; lia). rewrite <- app_assoc. now destruct ok0.
      * rewrite (IH _ _ _ ok0 out0) by (auto; lia). cbn [app]. now destruct ok0.
Qed.

(** The strict handler. *)
Lemma enc_loop_fail m cps z : Forall uchar cps -> forall f buf ok out, (S (length cps) < f)%nat ->
  Encodes m [] ok cps out ->
  exists out', encode_map_loop f EFail (map_of m) (Some (utf8_text cps ++ 0 :: z)) buf TSuccess =
    Ok (if ok then TSuccess else TFail, out') /\ (ok = true -> out' = buf ++ out).
Proof.
  intros F. induction F as [|c cps U F IH]; intros f buf ok out Lf X; (destruct f as [|f]; [cbn in Lf; lia|]).
  - inversion X; subst. cbn. exists buf. now rewrite app_nil_r.
  - rewrite enc_step by auto. cbn [length] in Lf. inversion X; subst.
    + rewrite (proj2 (byte_of_iff m c b)) by auto. destruct (IH f (buf ++ [b]) ok out0) as (o & E & Ho); [lia|auto|].
      exists o. split; auto. intros Eo. rewrite (Ho Eo), <- app_assoc. reflexivity.
    + rewrite (proj2 (byte_of_none m c)) by auto. destruct f as [|f]; [lia|].
      rewrite enc_stop; auto; [|intros _; exists 0; reflexivity]. exists buf. split; auto. discriminate.
Qed.

(** Invalid text. *)
Lemma enc_loop_ub eh m cps bad : eh <> EFail -> Forall uchar cps -> no_nul bad -> bad_start bad ->
  forall f buf r, (S (length cps) < f)%nat -> is_error r = false ->
  encode_map_loop f eh (map_of m) (Some (utf8_text cps ++ bad ++ [0])) buf r = UB.
Proof.
  intros He F Hn Hb. induction F as [|c cps U F IH]; intros f buf r Lf Er; (destruct f as [|f]; [cbn in Lf; lia|]).
  - cbn [utf8_text map concat app encode_map_loop]. destruct (bad_head bad [] Hn Hb) as (x & E & Hx). rewrite E. cbn [bind].
    rewrite (proj2 (N.eqb_neq x 0)), Er by auto. cbn [orb].
    destruct (bad_get bad [] Hn Hb) as (e & G & Ee). rewrite G. cbn [bind]. rewrite Ee. cbn [next_chr_null bind].
    destruct f as [|f]; [cbn in Lf; lia|]. destruct eh; [congruence| |]; reflexivity.
  - rewrite enc_step by auto. cbn [length] in Lf. destruct (enc_lookup _ _); [apply IH; auto; lia|].
    destruct eh; [congruence| |]; apply IH; auto; lia.
Qed.

(** ** Decoding *)

Lemma decoded_total m rep s : exists ok out, Decoded m rep ok s out.
Proof.
  induction s as [|b s (ok & out & IH)]; [exists true, []; constructor|].
  destruct (std_char m b) as [c|] eqn:E.
  - exists ok, (utf8_enc c ++ out). now constructor.
  - exists false, (rep ++ out). econstructor; eauto.
Qed.

Lemma decoded_unique m rep s ok out : Decoded m rep ok s out -> forall ok' out',
  Decoded m rep ok' s out' -> ok = ok' /\ out = out'.
Proof.
  induction 1 as [|ok b c s out B E IH|ok b s out B E IH]; intros ok' out' X; inversion X; subst; auto; try congruence.
  - apply IH in H4. destruct H4 as [-> ->]. assert (c = c0) by congruence. subst. auto.
  - apply IH in H4. destruct H4 as [_ ->]. auto.
Qed.

Lemma dec_step eh m b s buf r : b < 256 ->
  decode_map_loop eh (map_of m) (b :: s) buf r =
  match std_char m b with
  | Some c => decode_map_loop eh (map_of m) s (buf ++ utf8_enc c) r
  | None =>
    match eh with
    | EFail => Ok (TFail, buf)
    | EReplace => decode_map_loop eh (map_of m) s (buf ++ utf8_replace) TSuccessEh
    | EIgnore => decode_map_loop eh (map_of m) s buf TSuccessEh
    end
  end.
Proof.
  intros H. cbn [decode_map_loop]. rewrite (dec_std m b H). destruct (std_char m b) as [c|] eqn:E; [|reflexivity].
  destruct (dec_entry m b c H E) as [V _]. pose proof (code_cp_bound c V) as B.
  rewrite N.mod_small by (change (2 ^ 32) with 4294967296; lia).
  assert (W : (cp_width c <= 4)%nat) by (destruct (cp_width_cases c) as [[W _]|[[W _]|[[W _]|[W _]]]]; lia).
  rewrite from_cp_enc; [|auto|lia|cbn; lia]. cbn [bind uerr_ok].
  rewrite <- (length_enc c). rewrite firstn_app, Nat.sub_diag, firstn_all. cbn [firstn]. now rewrite app_nil_r.
Qed.

Lemma dec_loop_ok eh m s : eh <> EFail -> is_bytes s -> forall buf r ok out,
  Decoded m (eh_rep eh utf8_replace) ok s out ->
  decode_map_loop eh (map_of m) s buf r = Ok (if ok then r else TSuccessEh, buf ++ out).
Proof.
  intros He F. induction F as [|b s U F IH]; intros buf r ok out X.
  - inversion X; subst. cbn. now rewrite app_nil_r.
  - rewrite dec_step by auto. inversion X; subst.
    + match goal with H : std_char _ _ = _ |- _ => rewrite H end. rewrite (IH _ _ ok out0) by auto. now rewrite <- app_assoc.
    + match goal with H : std_char _ _ = _ |- _ => rewrite H end. destruct eh; [congruence| |]; cbn [eh_rep] in *; rewrite (IH _ _ ok0 out0) by auto.
      * rewrite <- app_assoc. now destruct ok0.
      * cbn [app]. now destruct ok0.
Qed.

Lemma dec_loop_fail m s : is_bytes s -> forall buf ok out, Decoded m [] ok s out ->
  exists out', decode_map_loop EFail (map_of m) s buf TSuccess = Ok (if ok then TSuccess else TFail, out') /\
    (ok = true -> out' = buf ++ out).
Proof.
  intros F. induction F as [|b s U F IH]; intros buf ok out X.
  - inversion X; subst. cbn. exists buf. now rewrite app_nil_r.
  - rewrite dec_step by auto. inversion X; subst.
    + match goal with H : std_char _ _ = _ |- _ => rewrite H end. destruct (IH (buf ++ utf8_enc c) ok out0) as (o & E & Ho); auto. exists o. split; auto.
      intros Eo. rewrite (Ho Eo), <- app_assoc. reflexivity.
    + match goal with H : std_char _ _ = _ |- _ => rewrite H end. exists buf. split; auto. discriminate.
Qed.

(** ** UTF-8 *)

Lemma not_cont_dec x : cont x \/ ~ cont x.
Proof.
  unfold cont. destruct (N.leb_spec 0x80 x); destruct (N.leb_spec x 0xBF); [left|right|right|right]; lia.
Qed.

Lemma take_cont s : exists l r, s = l ++ r /\ Forall cont l /\ (forall x r', r = x :: r' -> ~ cont x).
Proof.
  induction s as [|x s (l & r & -> & F & H)]; [exists [], []; repeat split; auto; discriminate|].
  destruct (not_cont_dec x) as [C|C].
  - exists (x :: l), r. repeat split; auto.
  - exists [], (x :: l ++ r). repeat split; auto. intros y r' E; injection E as <- _. auto.
Qed.

Lemma skip_cont l : Forall cont l -> forall r f, (length l < f)%nat -> (forall x r', r = x :: r' -> ~ cont x) -> r <> [] ->
  skip_continue f (l ++ r) = Ok r.
Proof.
  induction 1 as [|x l C F IH]; intros r f Lf H Hr; (destruct f as [|f]; [cbn in Lf; lia|]); cbn [skip_continue app].
  - destruct r as [|y r]; [congruence|]. cbn [rd nth_error bind]. specialize (H y r eq_refl).
    destruct (is_continue y) eqn:E; auto. exfalso. apply H. unfold is_continue in E. unfold cont. lia.
  - cbn [rd nth_error bind]. assert (E : is_continue x = true) by (unfold is_continue, cont in *; lia). rewrite E.
    cbn [skipn]. apply IH; auto. cbn in Lf. lia.
Qed.

Lemma next_chr_skip b l r : b <> 0 -> Forall cont l -> (forall x r', r = x :: r' -> ~ cont x) ->
  next_chr (b :: l ++ r ++ [0]) = Ok (Some (r ++ [0])).
Proof.
  intros Hb F H. unfold next_chr. cbn [rd nth_error bind skipn]. rewrite (proj2 (N.eqb_neq b 0)) by auto.
  rewrite skip_cont; auto.
  - cbn [length]. rewrite !app_length. lia.
  - intros x r' E. destruct r as [|y r]; cbn in E; injection E as <- _; [unfold cont; lia|]. now apply (H y r).
  - destruct r; discriminate.
Qed.

Lemma repaired_app rep cps s out : Forall uchar cps -> Repaired rep s out -> Repaired rep (utf8_text cps ++ s) (utf8_text cps ++ out).
Proof.
  induction 1 as [|c cps U F IH]; intros X; auto. rewrite text_cons, <- !app_assoc. constructor; auto.
Qed.

Lemma firstn_upto (a b : list N) : firstn (length (a ++ b) - length b) (a ++ b) = a.
Proof.
  rewrite app_length, Nat.add_sub. rewrite firstn_app, Nat.sub_diag, firstn_all. cbn [firstn]. apply app_nil_r.
Qed.

Lemma utf8_loop_replace (enc : bool) : forall n s, (length s <= n)%nat -> no_nul s ->
  exists out, Repaired (if enc then cp_replace else utf8_replace) s out /\
  forall f buf r, (length s + 1 < f)%nat ->
    utf8_loop f false enc (s ++ [0]) buf r =
      Ok (match utf8_is_valid (s ++ [0]) with Ok (true, _) => r | _ => TSuccessEh end, buf ++ out).
Proof.
  intros n. set (rep := if enc then cp_replace else utf8_replace).
  induction n as [|n IH]; intros s L Hn.
  { destruct s; [|cbn in L; lia]. exists []. split; [constructor|]. intros f buf r Lf. destruct f; [lia|]. cbn. now rewrite app_nil_r. }
  destruct (decompose (length s) s (le_n _) Hn) as (cps & bad & F & E & [-> | B]).
  - rewrite app_nil_r in E. exists s. split; [rewrite E, <- (app_nil_r (utf8_text cps)); apply repaired_app; auto; constructor|].
    intros f buf r Lf. destruct f as [|f]; [lia|]. cbn [utf8_loop].
    destruct cps as [|c cps]; [subst s; cbn; now rewrite app_nil_r|].
    rewrite E. assert (Uc := F). inversion Uc as [|? ? Hc _]; subst x l. destruct (text_head c cps [0] Hc) as (x & Ex & Ex0).
    rewrite Ex. cbn [bind]. rewrite Ex0, (is_valid_good (c :: cps) [] F). cbn [bind].
    destruct f as [|f]; [lia|].
    rewrite firstn_upto. cbn. reflexivity.
  - assert (Hnb : no_nul bad) by (rewrite E in Hn; apply no_nul_app in Hn; apply Hn).
    destruct bad as [|b t]; [destruct B; congruence|].
    destruct (take_cont t) as (l & rest & -> & Fl & Hr).
    destruct (IH rest) as (out & R & Lo).
    { rewrite E in L. rewrite app_length in L. cbn [length] in L. rewrite app_length in L. lia. }
    { inversion Hnb; subst. apply no_nul_app in H2. apply H2. }
    exists (utf8_text cps ++ rep ++ out). split.
    + rewrite E. apply repaired_app; auto. constructor; auto. destruct B as [_ B]. intros c r Hc. apply B, Hc.
    + intros f buf r Lf. destruct f as [|f]; [lia|]. cbn [utf8_loop].
      destruct (bad_text_head cps (b :: l ++ rest) [] F Hnb B) as (x & Ex & Ex0).
      rewrite E, <- app_assoc. rewrite Ex. cbn [bind]. rewrite Ex0, (is_valid_bad cps _ [] F Hnb B). cbn [bind].
      cbn [app]. rewrite <- app_assoc. rewrite next_chr_skip; auto; [|inversion Hnb; auto]. cbn [bind].
      rewrite Lo.
      * f_equal. f_equal; [destruct (utf8_is_valid (rest ++ [0])) as [[[|] ?]| |]; reflexivity|].
        rewrite <- !app_assoc. f_equal.
        now rewrite firstn_upto.
      * rewrite E in Lf. rewrite app_length in Lf. cbn [length] in Lf. rewrite app_length in Lf. lia.
Qed.

Lemma utf8_loop_strict (enc : bool) s : no_nul s -> s <> [] -> exists cps bad, Forall uchar cps /\ s = utf8_text cps ++ bad /\
  (bad = [] \/ bad_start bad) /\
  utf8_loop (S (S (length s))) true enc (s ++ [0]) [] TSuccess = Ok (match bad with [] => (TSuccess, s) | _ => (TFail, []) end).
Proof.
  intros Hn Hne. destruct (decompose (length s) s (le_n _) Hn) as (cps & bad & F & E & B). exists cps, bad. repeat split; auto.
  cbn [utf8_loop]. assert (X : exists x, rd (s ++ [0]) 0 = Ok x /\ (x =? 0) = false).
  { destruct s as [|x s]; [congruence|]. exists x. split; auto. inversion Hn; now apply N.eqb_neq. }
  destruct X as (x & -> & X0). cbn [bind]. rewrite X0. destruct B as [-> | B].
  - rewrite app_nil_r in E. subst s. rewrite (is_valid_good cps [] F). cbn [bind].
    rewrite firstn_upto. reflexivity.
  - assert (Hnb : no_nul bad) by (rewrite E in Hn; apply no_nul_app in Hn; apply Hn).
    rewrite E, <- app_assoc, (is_valid_bad cps bad [] F Hnb B). cbn [bind]. destruct B as [Bn _]. destruct bad; congruence.
Qed.

(** ** Valid and invalid results *)

Lemma valid_nil : ValidText [].
Proof. exists []. split; auto. Qed.
Lemma valid_chr c s : uchar c -> ValidText s -> ValidText (utf8_enc c ++ s).
Proof. intros U (cps & F & ->). exists (c :: cps). split; auto. Qed.
Lemma valid_app a b : ValidText a -> ValidText b -> ValidText (a ++ b).
Proof. intros (x & F & ->) (y & G & ->). exists (x ++ y). split; [now apply Forall_app|]. unfold utf8_text. now rewrite map_app, concat_app. Qed.
Lemma valid_q : ValidText cp_replace.
Proof. exists [63]. split; [|reflexivity]. constructor; auto. split; [apply is_valid_cp_iff; reflexivity|discriminate]. Qed.

Lemma enc_no_ff c : code_cp c -> ~ In 0xFF (utf8_enc c).
Proof.
  intros V. pose proof (code_cp_bound c V) as B. unfold utf8_enc.
  destruct (N.ltb_spec c 0x80); [intros [I|[]]; lia|]. destruct (N.ltb_spec c 0x800); [cbn [In]; intros [I|[I|[]]]; lia|].
  destruct (N.ltb_spec c 0x10000); [cbn [In]; intros [I|[I|[I|[]]]]; lia|]. cbn [In]; intros [I|[I|[I|[I|[]]]]]; lia.
Qed.

Lemma valid_no_ff s : ValidText s -> ~ In 0xFF s.
Proof.
  intros (cps & F & ->). induction F as [|c cps [V _] F IH]; [auto|]. rewrite text_cons, in_app_iff. intros [I|I]; auto.
  now apply enc_no_ff in I.
Qed.

Lemma repaired_ff s out : Repaired utf8_replace s out -> ValidText out -> ValidText s.
Proof.
  induction 1 as [|c s out U R IH|b l s out H1 H2 H3 R IH]; intros V; auto.
  - apply valid_chr; auto. apply IH. destruct V as (cps & F & E). destruct cps as [|c' cps].
    + destruct (enc_nonempty c) as (x & y & Ec). rewrite Ec in E. discriminate.
    + rewrite text_cons in E. inversion F as [|? ? Hc Fc]; subst.
      assert (G1 := get_cp_enc c out (proj1 U) (proj2 U)). rewrite E in G1. rewrite get_cp_enc in G1 by apply Hc.
      assert (out = utf8_text cps) by congruence. subst. exists cps. auto.
  - exfalso. apply valid_no_ff in V. apply V. cbn. auto.
Qed.

Lemma repaired_valid s out : Repaired cp_replace s out -> ValidText out.
Proof.
  induction 1 as [|c s out U R IH|b l s out H1 H2 H3 R IH]; [apply valid_nil|apply valid_chr; auto|].
  apply valid_app; auto. apply valid_q.
Qed.

Lemma decoded_valid m rep ok s out : is_bytes s -> no_nul s -> ValidText rep -> Decoded m rep ok s out -> ValidText out.
Proof.
  intros Hb Hn Hr X. induction X as [|ok b c s out E X IH|ok b s out E X IH]; [apply valid_nil| |].
  - inversion Hb; inversion Hn; subst. destruct (dec_entry m b c H1 E) as [V Z]. apply valid_chr; [split; tauto|auto].
  - inversion Hb; inversion Hn; subst. apply valid_app; auto.
Qed.

Lemma decoded_ff m ok s out : Decoded m utf8_replace ok s out -> ok = false -> In 0xFF out.
Proof.
  induction 1 as [|ok b c s out E X IH|ok b s out E X IH]; intros Eo; [discriminate|apply in_app_iff; auto|cbn; auto].
Qed.

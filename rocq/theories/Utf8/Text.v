(** Encoding, whole texts, indexing. *)
From Verif Require Import Base.Lib Base.Mem Base64.Proofs Utf8.Model Utf8.Spec Utf8.Proofs.
Local Open Scope N_scope.

(** ** M_utf8_from_cp *)

Lemma lor_hi h k a : a < 2 ^ k -> N.lor (h * 2 ^ k) a = h * 2 ^ k + a.
Proof. apply lorm. Qed.

Lemma lead2 x : x < 32 -> N.lor 0xC0 x = 0xC0 + x.
Proof. intros H. apply (lorm 6 x 5). exact H. Qed.
Lemma lead3 x : x < 16 -> N.lor 0xE0 x = 0xE0 + x.
Proof. intros H. apply (lorm 14 x 4). exact H. Qed.
Lemma lead4 x : x < 8 -> N.lor 0xF0 x = 0xF0 + x.
Proof. intros H. apply (lorm 30 x 3). exact H. Qed.
Lemma contb x : x < 64 -> N.lor 0x80 x = 0x80 + x.
Proof. intros H. apply (lorm 2 x 6). exact H. Qed.

Lemma shr cp k : N.shiftr cp k = cp / 2 ^ k.
Proof. apply N.shiftr_div_pow2. Qed.

Lemma from_cp_enc buf size cp : code_cp cp -> (cp_width cp <= size)%nat -> (size <= length buf)%nat ->
  from_cp buf size cp = Ok (USuccess, utf8_enc cp ++ skipn (cp_width cp) buf, Some (cp_width cp)).
Proof.
  intros V Hs Hb. unfold from_cp. pose proof (code_cp_bound _ V) as B.
  apply is_valid_cp_iff in V. rewrite V. cbn [negb].
  destruct (cp_width_cases cp) as [[W R]|[[W R]|[[W R]|[W R]]]]; rewrite W in *; cbn [Nat.eqb];
    match goal with |- context [(size <? ?w)%nat] => destruct (Nat.ltb_spec size w) as [L|_]; try lia end.
  - rewrite enc1 by lia. destruct buf as [|x0 buf]; [cbn in Hb; lia|].
    rewrite N.mod_small by lia. reflexivity.
  - rewrite enc2 by lia. destruct buf as [|x0 [|x1 buf]]; [cbn in Hb; lia..|].
    rewrite !land63, !shr. change (2 ^ 6) with 64.
    rewrite lead2, contb by lia. rewrite !N.mod_small by lia.
    cbn [wr upd Nat.ltb Nat.leb length bind app skipn]. reflexivity.
  - rewrite enc3 by lia. destruct buf as [|x0 [|x1 [|x2 buf]]]; [cbn in Hb; lia..|].
    rewrite !land63, !shr. change (2 ^ 6) with 64. change (2 ^ 12) with 4096.
    rewrite (N.mod_small (cp / 4096)) by lia. rewrite lead3, !contb by lia.
    rewrite (N.mod_small (0xE0 + _)), (N.mod_small (0x80 + cp / 64 mod 64)), (N.mod_small (0x80 + cp mod 64)) by lia.
    reflexivity.
  - rewrite enc4 by lia. destruct buf as [|x0 [|x1 [|x2 [|x3 buf]]]]; [cbn in Hb; lia..|].
    rewrite !land63, !shr. change (2 ^ 6) with 64. change (2 ^ 12) with 4096. change (2 ^ 18) with 262144.
    rewrite (N.mod_small (cp / 262144)) by lia. rewrite lead4, !contb by lia.
    rewrite (N.mod_small (0xF0 + _)), (N.mod_small (0x80 + cp / 4096 mod 64)),
      (N.mod_small (0x80 + cp / 64 mod 64)), (N.mod_small (0x80 + cp mod 64)) by lia.
    reflexivity.
Qed.

Lemma from_cp_err buf size cp : (size <= length buf)%nat ->
  from_cp buf size cp =
    if is_valid_cp cp then
      if (cp_width cp <=? size)%nat
      then Ok (USuccess, utf8_enc cp ++ skipn (cp_width cp) buf, Some (cp_width cp))
      else Ok (UTruncated, buf, None)
    else Ok (UBadCodePoint, buf, None).
Proof.
  intros Hb. destruct (is_valid_cp cp) eqn:V.
  - destruct (Nat.leb_spec (cp_width cp) size) as [L|L].
    + apply from_cp_enc; auto. now apply is_valid_cp_iff.
    + unfold from_cp. rewrite V. cbn [negb].
      destruct (Nat.eqb_spec (cp_width cp) 0) as [E|_].
      { destruct (cp_width_cases cp) as [[W R]|[[W R]|[[W R]|[W R]]]]; lia. }
      destruct (Nat.ltb_spec size (cp_width cp)); [reflexivity|lia].
  - unfold from_cp. rewrite V. reflexivity.
Qed.

(** ** Decoding never leaves the string *)

Lemma check_continue_total s z n : forall i, (i <= length s)%nat ->
  exists e, check_continue (s ++ 0 :: z) i n = Ok e.
Proof.
  induction n as [|n IH]; intros i Hi; cbn [check_continue]; eauto.
  destruct (Nat.eq_dec i (length s)) as [->|Hn].
  - rewrite rd_app_mid. cbn. eauto.
  - destruct (rd_lt (s ++ 0 :: z) (i := i)) as [c Hc]; [rewrite app_length; lia|].
    rewrite Hc. cbn [bind]. destruct (c =? 0); eauto. destruct (negb _); eauto.
    apply IH. lia.
Qed.

Lemma get_cp_total s z : exists e cp nx, get_cp (s ++ 0 :: z) = Ok (e, cp, nx) /\
  (uerr_ok e = false -> cp = 0 /\ nx = None).
Proof.
  assert (T : forall i n, check_continue (s ++ 0 :: z) i n = Ok None ->
     forall k, (k < n)%nat -> exists c, rd (s ++ 0 :: z) (i + k) = Ok c).
  { intros i n. revert i. induction n as [|n IH]; intros i H k Hk; [lia|]. cbn [check_continue] in H.
    apply bind_ok in H. destruct H as (c & Hc & H). destruct k as [|k].
    - rewrite Nat.add_0_r. eauto.
    - destruct (c =? 0); [discriminate|]. destruct (negb _); [discriminate|].
      destruct (IH (S i) H k ltac:(lia)) as (c' & E). exists c'. now replace (i + S k)%nat with (S i + k)%nat by lia. }
  unfold get_cp. destruct (rd_lt (s ++ 0 :: z) (i := 0)) as [c0 Hc0]; [rewrite app_length; cbn; lia|].
  rewrite Hc0. cbn [bind]. destruct (N.eqb_spec c0 0) as [->|N0].
  { do 3 eexists. split; [reflexivity|discriminate]. }
  destruct (Nat.eqb_spec (byte_width c0) 0); [do 3 eexists; split; [reflexivity|auto]|].
  destruct (Nat.eqb_spec (byte_width c0) 1); [do 3 eexists; split; [reflexivity|discriminate]|].
  assert (Hs : (1 <= length s)%nat).
  { destruct s; [|cbn; lia]. cbn in Hc0. congruence. }
  destruct (check_continue_total s z (byte_width c0 - 1) 1 Hs) as [[e|] He]; rewrite He; cbn [bind].
  { do 3 eexists. split; [reflexivity|auto]. }
  match goal with |- context [bind ?m _] => assert (M : exists v, m = Ok v) end.
  { destruct (Nat.eqb_spec (byte_width c0) 2).
    - destruct (T _ _ He 0%nat ltac:(lia)) as [c1 E1]. cbn [Nat.add] in E1. rewrite E1. cbn. eauto.
    - destruct (Nat.eqb_spec (byte_width c0) 3).
      + destruct (T _ _ He 0%nat ltac:(lia)) as [c1 E1]. destruct (T _ _ He 1%nat ltac:(lia)) as [c2 E2].
        cbn [Nat.add] in E1, E2. rewrite E1, E2. cbn. eauto.
      + assert (byte_width c0 = 4)%nat.
        { destruct (byte_width_cases c0) as [W|[[W R]|[[W R]|[[W R]|[W R]]]]]; lia. }
        destruct (T _ _ He 0%nat ltac:(lia)) as [c1 E1]. destruct (T _ _ He 1%nat ltac:(lia)) as [c2 E2].
        destruct (T _ _ He 2%nat ltac:(lia)) as [c3 E3].
        cbn [Nat.add] in E1, E2, E3. rewrite E1, E2, E3. cbn. eauto. }
  destruct M as [v ->]. cbn [bind].
  destruct (is_valid_cp v); cbn [negb]; [|do 3 eexists; split; [reflexivity|auto]].
  destruct (Nat.eqb _ (cp_width v)); cbn [negb]; do 3 eexists; (split; [reflexivity|auto]); discriminate.
Qed.

(** ** Prefixes of NUL-terminated strings *)

Lemma enc_no_nul cp : cp <> 0 -> no_nul (utf8_enc cp).
Proof.
  intros H. unfold no_nul, utf8_enc. destruct (_ <? _); [|destruct (_ <? _); [|destruct (_ <? _)]];
    repeat constructor; lia.
Qed.

Lemma enc_nonempty cp : exists c l, utf8_enc cp = c :: l.
Proof. unfold utf8_enc. destruct (_ <? _); [|destruct (_ <? _); [|destruct (_ <? _)]]; eauto. Qed.

Lemma prefix_split a : forall r s z, no_nul a -> a ++ r = s ++ 0 :: z ->
  exists r', s = a ++ r' /\ r = r' ++ 0 :: z.
Proof.
  induction a as [|x a IH]; intros r s z Ha E; cbn in E.
  - exists s. auto.
  - inversion Ha as [|? ? Hx Ha']; subst. destruct s as [|y s]; cbn in E; injection E as E1 E2.
    + congruence.
    + subst y. destruct (IH _ _ _ Ha' E2) as (r' & -> & ->). exists r'. auto.
Qed.

Lemma get_cp_iff_lemma s z cp nx : no_nul s -> s <> [] ->
  get_cp (s ++ 0 :: z) = Ok (USuccess, cp, nx) <->
  (code_cp cp /\ exists r, s = utf8_enc cp ++ r /\ nx = Some (r ++ 0 :: z)).
Proof.
  intros Hs Hne. split.
  - intros H. destruct (get_cp_inv _ _ _ H) as [(r & E & _)|(N0 & V & r & E & ->)].
    + destruct s as [|y s]; [congruence|]. cbn in E. injection E as -> _. inversion Hs; congruence.
    + split; auto. symmetry in E. destruct (prefix_split _ _ _ _ (enc_no_nul _ N0) E) as (r' & -> & ->). eauto.
  - intros (V & r & -> & ->). rewrite <- app_assoc. apply get_cp_enc; auto.
    intros ->. cbn in Hs. inversion Hs; congruence.
Qed.

(** ** Whole texts *)

Definition tcp (cp : N) : Prop := code_cp cp /\ cp <> 0.

Definition bad_start (s : list N) : Prop :=
  s <> [] /\ forall cp r, tcp cp -> s <> utf8_enc cp ++ r.

Lemma bad_get s z : no_nul s -> bad_start s ->
  exists e, get_cp (s ++ 0 :: z) = Ok (e, 0, None) /\ uerr_ok e = false.
Proof.
  intros Hs [Hne Hb]. destruct (get_cp_total s z) as (e & cp & nx & E & He).
  destruct (uerr_ok e) eqn:Ee.
  - exfalso. destruct e; try discriminate. apply get_cp_iff_lemma in E; auto.
    destruct E as (V & r & E & _). apply (Hb cp r); auto. split; auto.
    intros ->. subst s. inversion Hs; congruence.
  - destruct (He eq_refl) as [-> ->]. eauto.
Qed.

Lemma text_cons cp cps : utf8_text (cp :: cps) = utf8_enc cp ++ utf8_text cps.
Proof. reflexivity. Qed.

Lemma text_no_nul cps : Forall tcp cps -> no_nul (utf8_text cps).
Proof.
  induction 1 as [|cp cps [V H] _ IH]; [constructor|]. rewrite text_cons. apply Forall_app.
  split; auto. now apply enc_no_nul.
Qed.

Lemma decompose n : forall s, (length s <= n)%nat -> no_nul s -> exists cps bad,
  Forall tcp cps /\ s = utf8_text cps ++ bad /\ (bad = [] \/ bad_start bad).
Proof.
  induction n as [|n IH]; intros s L Hs.
  - destruct s; [|cbn in L; lia]. exists [], []. auto.
  - destruct s as [|c s]; [exists [], []; auto|].
    destruct (get_cp_total (c :: s) []) as (e & cp & nx & E & He).
    destruct (uerr_ok e) eqn:Ee.
    + destruct e; try discriminate. apply get_cp_iff_lemma in E; auto; [|discriminate].
      destruct E as (V & r & E & _).
      assert (N0 : cp <> 0) by (intros ->; cbn in E; injection E as -> _; inversion Hs; congruence).
      destruct (enc_nonempty cp) as (c' & l & El).
      destruct (IH r) as (cps & bad & F & -> & B).
      * rewrite E, El in L. cbn in L. rewrite app_length in L. lia.
      * rewrite E in Hs. apply Forall_app in Hs. apply Hs.
      * exists (cp :: cps), bad. split; [constructor; auto; split; auto|].
        split; auto. rewrite E, text_cons, app_assoc. reflexivity.
    + exists [], (c :: s). split; auto. split; auto. right. split; [discriminate|].
      intros cp' r [V N0] E'. destruct (He eq_refl) as [-> ->]. rewrite E' in E.
      rewrite <- app_assoc, get_cp_enc in E by auto. injection E as <- _ _. discriminate.
Qed.

Lemma bad_head bad z : no_nul bad -> bad_start bad -> exists c, rd (bad ++ 0 :: z) 0 = Ok c /\ c <> 0.
Proof.
  intros Hn [Hne _]. destruct bad as [|c bad]; [congruence|]. exists c. split; auto. inversion Hn; auto.
Qed.

Lemma enc_head cp r : cp <> 0 -> exists c, rd (utf8_enc cp ++ r) 0 = Ok c /\ (c =? 0) = false.
Proof.
  intros H. destruct (enc_nonempty cp) as (c & l & E). pose proof (enc_no_nul cp H) as F. rewrite E in *.
  exists c. split; auto. inversion F; subst. now apply N.eqb_neq.
Qed.

Lemma text_len_ge cps : (length cps <= length (utf8_text cps))%nat.
Proof.
  induction cps as [|cp cps IH]; auto. rewrite text_cons, app_length.
  destruct (enc_nonempty cp) as (c & l & ->). cbn [length]. lia.
Qed.

Lemma text_head cp cps r : tcp cp -> exists c, rd (utf8_text (cp :: cps) ++ r) 0 = Ok c /\ (c =? 0) = false.
Proof.
  intros [_ H]. rewrite text_cons, <- app_assoc. apply enc_head, H.
Qed.

(** validation of a valid text *)
Lemma validate_loop_good cps z : Forall tcp cps -> forall fuel endp len, (length cps < fuel)%nat ->
  exists endp', validate_loop fuel USuccess (Some (utf8_text cps ++ 0 :: z)) endp len
    = Ok (USuccess, Some (0 :: z), endp', (len + length cps)%nat).
Proof.
  induction 1 as [|cp cps H F IH]; intros fuel endp len L; (destruct fuel as [|fuel]; [cbn in L; lia|]);
    cbn [validate_loop uerr_ok].
  - cbn. exists endp. now rewrite Nat.add_0_r.
  - destruct (text_head cp cps (0 :: z) H) as (c & -> & Ec). cbn [bind]. rewrite Ec.
    rewrite text_cons, <- app_assoc, get_cp_enc by apply H. cbn [bind].
    destruct (IH fuel (Some (utf8_enc cp ++ utf8_text cps ++ 0 :: z)) (S len)) as [endp' E]; [cbn in L; lia|].
    exists endp'. rewrite E. cbn [length]. now rewrite Nat.add_succ_r.
Qed.

(** ... and of one that goes wrong: the end pointer is left on the offending
    character. *)
Lemma validate_loop_bad cps bad z : Forall tcp cps -> no_nul bad -> bad_start bad ->
  forall fuel endp len, (length cps + 1 < fuel)%nat ->
  exists e, uerr_ok e = false /\ validate_loop fuel USuccess (Some (utf8_text cps ++ bad ++ 0 :: z)) endp len
    = Ok (e, None, Some (bad ++ 0 :: z), (len + length cps + 1)%nat).
Proof.
  intros F Hn Hb. induction F as [|cp cps H F IH]; intros fuel endp len L;
    (destruct fuel as [|fuel]; [cbn in L; lia|]); cbn [validate_loop uerr_ok].
  - cbn [utf8_text map concat app]. destruct (bad_head bad z Hn Hb) as (c & -> & Hc). cbn [bind].
    rewrite (proj2 (N.eqb_neq _ _) Hc).
    destruct (bad_get bad z Hn Hb) as (e & -> & He). cbn [bind].
    exists e. split; auto. destruct fuel; [cbn in L; lia|]. cbn [validate_loop]. rewrite He.
    cbn [length]. do 2 f_equal. lia.
  - destruct (text_head cp cps (bad ++ 0 :: z) H) as (c & -> & Ec). cbn [bind]. rewrite Ec.
    rewrite text_cons, <- app_assoc, get_cp_enc by apply H. cbn [bind].
    destruct (IH fuel (Some (utf8_enc cp ++ utf8_text cps ++ bad ++ 0 :: z)) (S len)) as [e [He E]]; [cbn in L; lia|].
    exists e. split; auto. rewrite E. cbn [length]. do 2 f_equal. lia.
Qed.

Lemma is_valid_good cps z : Forall tcp cps ->
  utf8_is_valid (utf8_text cps ++ 0 :: z) = Ok (true, Some (0 :: z)).
Proof.
  intros F. unfold utf8_is_valid. destruct cps as [|cp cps].
  - reflexivity.
  - pose proof F as F'. inversion F' as [|? ? H _]; subst.
    destruct (text_head cp cps (0 :: z) H) as (c & E & Ec). rewrite E. cbn [bind]. rewrite Ec.
    unfold validate_int. rewrite E. cbn [bind]. rewrite Ec.
    destruct (validate_loop_good (cp :: cps) z F (S (length (utf8_text (cp :: cps) ++ 0 :: z)))
      (Some (utf8_text (cp :: cps) ++ 0 :: z)) 0) as [endp' ->].
    + rewrite app_length. pose proof (text_len_ge (cp :: cps)). lia.
    + reflexivity.
Qed.

Lemma bad_text_head cps bad z : Forall tcp cps -> no_nul bad -> bad_start bad ->
  exists c, rd (utf8_text cps ++ bad ++ 0 :: z) 0 = Ok c /\ (c =? 0) = false.
Proof.
  intros F Hn Hb. destruct cps as [|cp cps].
  - destruct (bad_head bad z Hn Hb) as (c & E & Hc). exists c. split; auto. now apply N.eqb_neq.
  - inversion F; subst. now apply text_head.
Qed.

Lemma bad_len bad : bad_start bad -> (1 <= length bad)%nat.
Proof. intros [H _]. destruct bad; [congruence|cbn; lia]. Qed.

Lemma is_valid_bad cps bad z : Forall tcp cps -> no_nul bad -> bad_start bad ->
  utf8_is_valid (utf8_text cps ++ bad ++ 0 :: z) = Ok (false, Some (bad ++ 0 :: z)).
Proof.
  intros F Hn Hb. unfold utf8_is_valid.
  destruct (bad_text_head cps bad z F Hn Hb) as (c & E & Ec). rewrite E. cbn [bind]. rewrite Ec.
  unfold validate_int. rewrite E. cbn [bind]. rewrite Ec.
  match goal with |- context [validate_loop ?f _ _ ?e ?l] =>
    destruct (validate_loop_bad cps bad z F Hn Hb f e l) as (e' & He & ->) end.
  - rewrite !app_length. pose proof (text_len_ge cps). pose proof (bad_len bad Hb). cbn [length]. lia.
  - cbn [bind]. rewrite He. reflexivity.
Qed.

Lemma cnt_good cps z : Forall tcp cps -> utf8_cnt (utf8_text cps ++ 0 :: z) = Ok (length cps).
Proof.
  intros F. unfold utf8_cnt, validate_int. destruct cps as [|cp cps]; [reflexivity|].
  pose proof F as F'. inversion F' as [|? ? H _]; subst.
  destruct (text_head cp cps (0 :: z) H) as (c & E & Ec). rewrite E. cbn [bind]. rewrite Ec.
  match goal with |- context [validate_loop ?f _ _ ?e ?l] =>
    destruct (validate_loop_good (cp :: cps) z F f e l) as [e' ->] end.
  - rewrite app_length. pose proof (text_len_ge (cp :: cps)). lia.
  - reflexivity.
Qed.

Lemma cnt_bad cps bad z : Forall tcp cps -> no_nul bad -> bad_start bad ->
  utf8_cnt (utf8_text cps ++ bad ++ 0 :: z) = Ok 0%nat.
Proof.
  intros F Hn Hb. unfold utf8_cnt, validate_int.
  destruct (bad_text_head cps bad z F Hn Hb) as (c & E & Ec). rewrite E. cbn [bind]. rewrite Ec.
  match goal with |- context [validate_loop ?f _ _ ?e ?l] =>
    destruct (validate_loop_bad cps bad z F Hn Hb f e l) as (e' & He & ->) end.
  - rewrite !app_length. pose proof (text_len_ge cps). pose proof (bad_len bad Hb). cbn [length]. lia.
  - cbn [bind]. rewrite He. reflexivity.
Qed.

(** ** M_utf8_cp_at *)

Lemma cp_at_loop_in pre cp post r : Forall tcp pre -> tcp cp -> forall fuel cp0 i,
  (length pre < fuel)%nat ->
  cp_at_loop fuel (Some (utf8_text (pre ++ cp :: post) ++ r)) USuccess cp0 i (i + length pre)
    = Ok (USuccess, cp, (i + length pre)%nat).
Proof.
  intros F H. induction F as [|p pre Hp F IH]; intros fuel cp0 i L;
    (destruct fuel as [|fuel]; [cbn in L; lia|]); cbn [cp_at_loop].
  - cbn [app]. destruct (text_head cp post r H) as (c & -> & Ec). cbn [bind]. rewrite Ec. cbn [negb andb uerr_ok].
    rewrite text_cons, <- app_assoc, get_cp_enc by apply H. cbn [bind length].
    rewrite Nat.add_0_r, Nat.eqb_refl. reflexivity.
  - cbn [app]. destruct (text_head p (pre ++ cp :: post) r Hp) as (c & -> & Ec). cbn [bind]. rewrite Ec. cbn [negb andb uerr_ok].
    rewrite text_cons, <- app_assoc, get_cp_enc by apply Hp. cbn [bind length].
    destruct (Nat.eqb_spec i (i + S (length pre))); [lia|].
    replace (i + S (length pre))%nat with (S i + length pre)%nat by lia.
    apply IH. cbn in L; lia.
Qed.

Lemma last_default {A} (l : list A) x d e : last (x :: l) d = last (x :: l) e.
Proof. revert x; induction l as [|y l IH]; intros x; auto. change (last (y :: l) d = last (y :: l) e). apply IH. Qed.

Lemma cp_at_loop_end cps z : Forall tcp cps -> forall fuel cp0 i idx,
  (length cps < fuel)%nat -> (i + length cps <= idx)%nat ->
  cp_at_loop fuel (Some (utf8_text cps ++ 0 :: z)) USuccess cp0 i idx
    = Ok (USuccess, last cps cp0, (i + length cps)%nat).
Proof.
  induction 1 as [|p pre Hp F IH]; intros fuel cp0 i idx L Hi;
    (destruct fuel as [|fuel]; [cbn in L; lia|]); cbn [cp_at_loop].
  - cbn. now rewrite Nat.add_0_r.
  - destruct (text_head p pre (0 :: z) Hp) as (c & -> & Ec). cbn [bind]. rewrite Ec. cbn [negb andb uerr_ok].
    rewrite text_cons, <- app_assoc, get_cp_enc by apply Hp. cbn [bind length] in *.
    destruct (Nat.eqb_spec i idx); [lia|].
    rewrite IH by lia. f_equal. f_equal; [|lia]. f_equal.
    destruct pre; auto. change (last (n0 :: pre) p = last (n0 :: pre) cp0). apply last_default.
Qed.

Lemma cp_at_loop_bad cps bad z : Forall tcp cps -> no_nul bad -> bad_start bad ->
  forall fuel cp0 i idx, (length cps + 1 < fuel)%nat -> (i + length cps <= idx)%nat ->
  (idx = (i + length cps)%nat /\
     exists e, uerr_ok e = false /\ get_cp (bad ++ 0 :: z) = Ok (e, 0, None) /\
       cp_at_loop fuel (Some (utf8_text cps ++ bad ++ 0 :: z)) USuccess cp0 i idx = Ok (e, 0, idx)) \/
  ((i + length cps < idx)%nat /\
     cp_at_loop fuel (Some (utf8_text cps ++ bad ++ 0 :: z)) USuccess cp0 i idx = UB).
Proof.
  intros F Hn Hb. induction F as [|p pre Hp F IH]; intros fuel cp0 i idx L Hi;
    (destruct fuel as [|fuel]; [cbn in L; lia|]); cbn [cp_at_loop].
  - cbn [utf8_text map concat app length]. destruct (bad_head bad z Hn Hb) as (c & -> & Hc).
    cbn [bind]. rewrite (proj2 (N.eqb_neq _ _) Hc). cbn [negb andb uerr_ok].
    destruct (bad_get bad z Hn Hb) as (e & -> & He). cbn [bind].
    destruct (Nat.eqb_spec i idx) as [->|Hne].
    + left. split; [lia|]. exists e. auto.
    + right. split; [cbn in Hi; lia|]. destruct fuel; [cbn in L; lia|]. reflexivity.
  - destruct (text_head p pre (bad ++ 0 :: z) Hp) as (c & -> & Ec). cbn [bind]. rewrite Ec. cbn [negb andb uerr_ok].
    rewrite text_cons, <- app_assoc, get_cp_enc by apply Hp. cbn [bind length] in *.
    destruct (Nat.eqb_spec i idx); [lia|].
    destruct (IH fuel p (S i) idx ltac:(lia) ltac:(lia)) as [[E X]|[E X]]; [left|right]; (split; [lia|exact X]).
Qed.

Lemma cp_at_good_in cps idx cp r cp0 : Forall tcp cps -> nth_error cps idx = Some cp ->
  cp_at (utf8_text cps ++ r) idx cp0 = Ok (USuccess, cp).
Proof.
  intros F E. apply nth_error_split in E. destruct E as (pre & post & -> & L).
  pose proof F as F'. apply Forall_app in F'. destruct F' as [F1 F2]. inversion F2 as [|? ? H F3]; subst.
  assert (Hd : exists c, rd (utf8_text (pre ++ cp :: post) ++ r) 0 = Ok c /\ (c =? 0) = false).
  { destruct pre as [|p pre]; cbn [app]; [now apply text_head|]. inversion F1; subst. now apply text_head. }
  destruct Hd as (c & E & Ec). unfold cp_at. rewrite E. cbn [bind]. rewrite Ec.
  pose proof (cp_at_loop_in pre cp post r F1 H (S (length (utf8_text (pre ++ cp :: post) ++ r))) cp0 0) as X.
  cbn [Nat.add] in X. rewrite X.
  - cbn [bind uerr_ok negb]. rewrite Nat.eqb_refl. reflexivity.
  - rewrite app_length. pose proof (text_len_ge (pre ++ cp :: post)) as Y. rewrite app_length in Y. lia.
Qed.

Lemma cp_at_good_out cps idx z cp0 : Forall tcp cps -> cps <> [] -> (length cps <= idx)%nat ->
  cp_at (utf8_text cps ++ 0 :: z) idx cp0 =
    Ok (if (idx =? length cps)%nat then USuccess else UInvalidParam, last cps 0).
Proof.
  intros F Hne L. destruct cps as [|cp cps]; [congruence|]. inversion F as [|? ? H F']; subst.
  destruct (text_head cp cps (0 :: z) H) as (c & E & Ec). unfold cp_at. rewrite E. cbn [bind]. rewrite Ec.
  rewrite cp_at_loop_end; auto.
  - cbn [bind uerr_ok negb Nat.add]. rewrite (last_default cps cp cp0 0).
    rewrite (Nat.eqb_sym idx). destruct (Nat.eqb_spec (length (cp :: cps)) idx); reflexivity.
  - rewrite app_length. pose proof (text_len_ge (cp :: cps)). lia.
Qed.

Lemma cp_at_bad cps bad idx z cp0 : Forall tcp cps -> no_nul bad -> bad_start bad -> (length cps <= idx)%nat ->
  (idx = length cps /\ exists e, uerr_ok e = false /\
      cp_at (utf8_text cps ++ bad ++ 0 :: z) idx cp0 = Ok (e, 0)) \/
  ((length cps < idx)%nat /\ cp_at (utf8_text cps ++ bad ++ 0 :: z) idx cp0 = UB).
Proof.
  intros F Hn Hb L. destruct (bad_text_head cps bad z F Hn Hb) as (c & E & Ec).
  unfold cp_at. rewrite E. cbn [bind]. rewrite Ec.
  destruct (cp_at_loop_bad cps bad z F Hn Hb (S (length (utf8_text cps ++ bad ++ 0 :: z))) cp0 0 idx) as [(-> & e & He & _ & X)|(Hi & X)].
  - rewrite !app_length. pose proof (text_len_ge cps). pose proof (bad_len bad Hb). cbn [length]. lia.
  - cbn. lia.
  - left. split; auto. exists e. split; auto. rewrite X. cbn [bind]. rewrite He. reflexivity.
  - right. split; auto. rewrite X. reflexivity.
Qed.

(** ** M_utf8_next_chr *)

Lemma skip_continue_run l r x : Forall (fun c => 0x80 <= c <= 0xBF) l -> ~ (0x80 <= x <= 0xBF) ->
  forall fuel, (length l < fuel)%nat -> skip_continue fuel (l ++ x :: r) = Ok (x :: r).
Proof.
  intros F Hx. induction F as [|c l Hc F IH]; intros fuel L; (destruct fuel as [|fuel]; [cbn in L; lia|]);
    cbn [skip_continue app rd nth_error bind].
  - destruct (is_continue x) eqn:C; auto. unfold is_continue in C. lia.
  - replace (is_continue c) with true by (unfold is_continue; lia). apply IH. cbn in L; lia.
Qed.

Lemma enc_tail cp : cp <= 0x10FFFF -> exists c l, utf8_enc cp = c :: l /\
  ~ (0x80 <= c <= 0xBF) /\ Forall (fun c => 0x80 <= c <= 0xBF) l.
Proof.
  intros H. unfold utf8_enc. destruct (N.ltb_spec cp 0x80); [|destruct (N.ltb_spec cp 0x800); [|destruct (N.ltb_spec cp 0x10000)]];
    do 2 eexists; (split; [reflexivity|]); (split; [lia|repeat constructor; lia]).
Qed.

Lemma next_chr_text cp cps z : tcp cp -> Forall tcp cps ->
  next_chr (utf8_text (cp :: cps) ++ 0 :: z) = Ok (Some (utf8_text cps ++ 0 :: z)).
Proof.
  intros H F. unfold next_chr. destruct (text_head cp cps (0 :: z) H) as (c & E & Ec). rewrite E. cbn [bind]. rewrite Ec.
  destruct (enc_tail cp (code_cp_bound _ (proj1 H))) as (c' & l & El & _ & Fl).
  rewrite text_cons, <- app_assoc, El. cbn [app skipn].
  assert (X : exists x r, utf8_text cps ++ 0 :: z = x :: r /\ ~ (0x80 <= x <= 0xBF)).
  { destruct F as [|p cps Hp F]; [exists 0, z; split; [reflexivity|lia]|].
    destruct (enc_tail p (code_cp_bound _ (proj1 Hp))) as (x & l' & El' & Hx & _).
    rewrite text_cons, El'. cbn [app]. eauto. }
  destruct X as (x & r & -> & Hx). rewrite skip_continue_run; auto.
  cbn [length]. rewrite app_length. lia.
Qed.

Lemma skip_continue_total s z : forall fuel, (length s < fuel)%nat ->
  exists p q, s = p ++ q /\ Forall (fun c => 0x80 <= c <= 0xBF) p /\
    skip_continue fuel (s ++ 0 :: z) = Ok (q ++ 0 :: z).
Proof.
  induction s as [|c s IH]; intros fuel L; (destruct fuel as [|fuel]; [cbn in L; lia|]).
  - exists [], []. auto.
  - cbn [skip_continue app rd nth_error bind]. destruct (is_continue c) eqn:C.
    + destruct (IH fuel) as (p & q & -> & F & E); [cbn in L; lia|].
      exists (c :: p), q. split; auto. split; [constructor; auto; unfold is_continue in C; lia|exact E].
    + exists [], (c :: s). auto.
Qed.

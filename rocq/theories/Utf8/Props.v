(** Properties of the UTF-8 functions (C13, C14, C15). *)
From Verif Require Import Base.Lib Base.Mem Utf8.Model Utf8.Spec Utf8.Proofs Utf8.Text.
Local Open Scope N_scope.

(** ** C13 *)

(** Whatever is written by M_utf8_from_cp is the encoding of the standard, it
    fits in the buffer, and nothing else of the buffer changes; the call fails
    exactly for rejected code points and short buffers. *)
Theorem utf8_from_cp_writes : forall buf size cp, (size <= length buf)%nat ->
  from_cp buf size cp =
    if is_valid_cp cp then
      if (length (utf8_enc cp) <=? size)%nat
      then Ok (USuccess, utf8_enc cp ++ skipn (length (utf8_enc cp)) buf, Some (length (utf8_enc cp)))
      else Ok (UTruncated, buf, None)
    else Ok (UBadCodePoint, buf, None).
Proof. intros buf size cp H. rewrite length_enc. exact (from_cp_err buf size cp H). Qed.
Print Assumptions utf8_from_cp_writes.

(** C13, first half.  Full statement: also for U+0000; missing because a NUL
    ends the text ([utf8_round_trip_refuted] below). *)
Theorem utf8_round_trip_partial : forall cp buf size rest, is_valid_cp cp = true -> cp <> 0 ->
  (4 <= size)%nat -> (size <= length buf)%nat ->
  exists buf' n, from_cp buf size cp = Ok (USuccess, buf', Some n) /\
    get_cp (firstn n buf' ++ rest) = Ok (USuccess, cp, Some rest).
Proof.
  intros cp buf size rest V N0 Hs Hb. apply is_valid_cp_iff in V.
  assert (W : (cp_width cp <= 4)%nat).
  { destruct (cp_width_cases cp) as [[W R]|[[W R]|[[W R]|[W R]]]]; lia. }
  do 2 eexists. split; [apply from_cp_enc; auto; lia|].
  rewrite <- length_enc, firstn_app, Nat.sub_diag, firstn_O, app_nil_r, firstn_all. now apply get_cp_enc.
Qed.
Print Assumptions utf8_round_trip_partial.

Example utf8_round_trip_case :
  from_cp (repeat 7 8) 8 0x20AC = Ok (USuccess, [0xE2; 0x82; 0xAC; 7; 7; 7; 7; 7], Some 3%nat) /\
  get_cp [0xE2; 0x82; 0xAC; 65; 0] = Ok (USuccess, 0x20AC, Some [65; 0]).
Proof. split; vm_compute; reflexivity. Qed.

(** U+0000 is accepted and encoded as one byte, but decoding consumes none. *)
Theorem utf8_round_trip_refuted : exists cp buf, is_valid_cp cp = true /\
  from_cp buf 4 cp = Ok (USuccess, 0 :: skipn 1 buf, Some 1%nat) /\
  get_cp [0; 65; 0] = Ok (USuccess, 0, Some [0; 65; 0]).
Proof. exists 0, [1; 1; 1; 1]. repeat split. Qed.
Print Assumptions utf8_round_trip_refuted.

(** C13, second half: re-encoding what was decoded gives back the bytes
    consumed. *)
Theorem utf8_reencode : forall s z cp nx buf size, no_nul s -> s <> [] ->
  get_cp (s ++ 0 :: z) = Ok (USuccess, cp, nx) -> (4 <= size)%nat -> (size <= length buf)%nat ->
  exists buf' n r, from_cp buf size cp = Ok (USuccess, buf', Some n) /\
    s = firstn n buf' ++ r /\ nx = Some (r ++ 0 :: z).
Proof.
  intros s z cp nx buf size Hs Hne H H4 Hb. apply get_cp_iff_lemma in H; auto.
  destruct H as (V & r & -> & ->).
  assert (W : (cp_width cp <= 4)%nat).
  { destruct (cp_width_cases cp) as [[W R]|[[W R]|[[W R]|[W R]]]]; lia. }
  do 3 eexists. split; [apply from_cp_enc; auto; lia|]. split; [|reflexivity].
  rewrite <- length_enc, (firstn_app (length (utf8_enc cp))), Nat.sub_diag, firstn_O, app_nil_r, firstn_all.
  reflexivity.
Qed.
Print Assumptions utf8_reencode.

(** ** C14 *)

(** Decoding any NUL-terminated text, even one whose object ends right after
    the NUL, stays inside the text; on failure it reports code point 0 and no
    next position. *)
Theorem utf8_get_cp_in_bounds : forall s, exists e cp nx, get_cp (s ++ [0]) = Ok (e, cp, nx) /\
  (uerr_ok e = false -> cp = 0 /\ nx = None).
Proof. intros s. exact (get_cp_total s []). Qed.
Print Assumptions utf8_get_cp_in_bounds.

(** Success exactly on texts starting with a well-formed sequence.  Full
    statement: with [good_cp cp] for [code_cp cp]; missing: the twelve
    noncharacters at the end of planes 10 to 15 are accepted. *)
Theorem utf8_well_formed_partial : forall s z cp nx, no_nul s -> s <> [] ->
  get_cp (s ++ 0 :: z) = Ok (USuccess, cp, nx) <->
  (code_cp cp /\ exists r, s = utf8_enc cp ++ r /\ nx = Some (r ++ 0 :: z)).
Proof. exact get_cp_iff_lemma. Qed.
Print Assumptions utf8_well_formed_partial.

Theorem utf8_well_formed_refuted : exists s cp,
  get_cp (s ++ [0]) = Ok (USuccess, cp, Some [0]) /\ s = utf8_enc cp /\ nonchar cp.
Proof.
  exists (utf8_enc 0xAFFFE), 0xAFFFE. split; [vm_compute; reflexivity|]. split; auto.
  right. vm_compute. discriminate.
Qed.
Print Assumptions utf8_well_formed_refuted.

(** Overlong encodings and surrogates: no success on a text whose first
    sequence spells a code point with more bytes than needed, or a surrogate. *)
Definition enc_wide (w : nat) (cp : N) : list N :=
  match w with
  | 2%nat => [0xC0 + cp / 64; 0x80 + cp mod 64]
  | 3%nat => [0xE0 + cp / 4096; 0x80 + cp / 64 mod 64; 0x80 + cp mod 64]
  | _ => [0xF0 + cp / 262144; 0x80 + cp / 4096 mod 64; 0x80 + cp / 64 mod 64; 0x80 + cp mod 64]
  end.

Lemma cons_inj (a b : N) l m : a :: l = b :: m -> a = b /\ l = m.
Proof. intros H. injection H; auto. Qed.

Theorem utf8_overlong_rejected : forall w cp r z, (2 <= w <= 4)%nat ->
  (length (utf8_enc cp) < w)%nat -> no_nul (enc_wide w cp ++ r) ->
  exists e, get_cp (enc_wide w cp ++ r ++ 0 :: z) = Ok (e, 0, None) /\ uerr_ok e = false.
Proof.
  intros w cp r z Hw Hl Hn. rewrite app_assoc. apply bad_get; auto. split.
  { destruct w as [|[|[|[|]]]]; discriminate. }
  rewrite length_enc in Hl.
  intros c r' [V C0] E. pose proof (code_cp_bound _ V) as B.
  assert (W : w = 2%nat \/ w = 3%nat \/ w = 4%nat) by lia.
  destruct (cp_width_cases cp) as [[W1 R1]|[[W1 R1]|[[W1 R1]|[W1 R1]]]];
  destruct W as [->|[->| ->]]; try lia; cbn [enc_wide app] in E;
  destruct (cp_width_cases c) as [[W2 R2]|[[W2 R2]|[[W2 R2]|[W2 R2]]]];
    first [rewrite (enc1 c) in E by lia|rewrite (enc2 c) in E by lia|rewrite (enc3 c) in E by lia|rewrite (enc4 c) in E by lia];
    cbn [app] in E; apply cons_inj in E; destruct E as [E1 E];
    try (apply cons_inj in E; destruct E as [E2 E]); try (apply cons_inj in E; destruct E as [E3 E]); lia.
Qed.
Print Assumptions utf8_overlong_rejected.

Theorem utf8_surrogate_rejected : forall cp r z, 0xD800 <= cp <= 0xDFFF -> no_nul r ->
  exists e, get_cp (utf8_enc cp ++ r ++ 0 :: z) = Ok (e, 0, None) /\ uerr_ok e = false.
Proof.
  intros cp r z Hc Hr. rewrite app_assoc. apply bad_get.
  - apply Forall_app. split; auto. apply enc_no_nul. lia.
  - split; [rewrite enc3 by lia; discriminate|].
    intros c r' [V C0] E. rewrite (enc3 cp) in E by lia. cbn [app] in E. pose proof (code_cp_bound _ V) as B.
    destruct (cp_width_cases c) as [[W2 R2]|[[W2 R2]|[[W2 R2]|[W2 R2]]]].
    + rewrite (enc1 c) in E by lia. apply cons_inj in E; destruct E as [E1 E]; lia.
    + rewrite (enc2 c) in E by lia. apply cons_inj in E; destruct E as [E1 E]; lia.
    + rewrite (enc3 c) in E by lia. cbn [app] in E. apply cons_inj in E; destruct E as [E1 E]; apply cons_inj in E; destruct E as [E2 E]; apply cons_inj in E; destruct E as [E3 _].
      assert (c = cp).
      { clear - E1 E2 E3. assert (c / 4096 = cp / 4096) by lia. assert (c / 64 mod 64 = cp / 64 mod 64) by lia.
        assert (c mod 64 = cp mod 64) by lia. clear E1 E2 E3. lia. }
      subst c. destruct V as [[[_ S] _]|[A _]]; [lia|]. lia.
    + rewrite (enc4 c) in E by lia. apply cons_inj in E; destruct E as [E1 E]; lia.
Qed.
Print Assumptions utf8_surrogate_rejected.

Example utf8_rejections_case :
  get_cp [0xC0; 0xAF; 0] = Ok (UBadStart, 0, None) /\ get_cp [0xE0; 0x80; 0xAF; 0] = Ok (UOverlong, 0, None) /\
  get_cp [0xED; 0xA0; 0x80; 0] = Ok (UBadCodePoint, 0, None) /\ get_cp [0xE2; 0x82; 0] = Ok (UTruncated, 0, None).
Proof. repeat split; vm_compute; reflexivity. Qed.

(** ** Whole texts *)

(** Every C string splits in one way into code points and a rest that is
    empty or does not start with a well-formed sequence (so "the idx-th code
    point" below is meaningful for every text). *)
Theorem utf8_text_decomposes : forall s, no_nul s -> exists cps bad,
  Forall (fun c => code_cp c /\ c <> 0) cps /\ s = utf8_text cps ++ bad /\ (bad = [] \/ bad_start bad).
Proof. intros s H. exact (decompose (length s) s (le_n _) H). Qed.
Print Assumptions utf8_text_decomposes.

Theorem utf8_text_unique : forall cps1 cps2 bad1 bad2,
  Forall (fun c => code_cp c /\ c <> 0) cps1 -> Forall (fun c => code_cp c /\ c <> 0) cps2 ->
  no_nul bad1 -> no_nul bad2 -> (bad1 = [] \/ bad_start bad1) -> (bad2 = [] \/ bad_start bad2) ->
  utf8_text cps1 ++ bad1 = utf8_text cps2 ++ bad2 -> cps1 = cps2 /\ bad1 = bad2.
Proof.
  intros cps1 cps2 bad1 bad2 F1. revert cps2. induction F1 as [|c1 cps1 H1 F1 IH];
    intros cps2 F2 N1 N2 B1 B2 E; destruct F2 as [|c2 cps2 H2 F2]; cbn [utf8_text map concat app] in E; auto.
  - exfalso. fold (utf8_text cps2) in E. rewrite <- app_assoc in E. destruct B1 as [->|[Hne B1]].
    + destruct (enc_nonempty c2) as (x & l & X). rewrite X in E. discriminate.
    + apply (B1 _ _ H2 E).
  - exfalso. fold (utf8_text cps1) in E. rewrite <- app_assoc in E. destruct B2 as [->|[Hne B2]].
    + destruct (enc_nonempty c1) as (x & l & X). rewrite X in E. discriminate.
    + apply (B2 _ (utf8_text cps1 ++ bad1) H1). now rewrite E.
  - fold (utf8_text cps1) in E. fold (utf8_text cps2) in E. rewrite <- !app_assoc in E.
    pose proof (get_cp_enc c1 (utf8_text cps1 ++ bad1) (proj1 H1) (proj2 H1)) as G1.
    pose proof (get_cp_enc c2 (utf8_text cps2 ++ bad2) (proj1 H2) (proj2 H2)) as G2.
    rewrite E, G2 in G1. injection G1 as -> G1.
    destruct (IH cps2 F2 N1 N2 B1 B2 (eq_sym G1)) as [-> ->]. auto.
Qed.
Print Assumptions utf8_text_unique.

(** M_utf8_is_valid: TRUE exactly on texts of code points, with the end
    pointer on the NUL; otherwise the end pointer is on the first offending
    character. *)
Theorem utf8_is_valid_exact : forall cps bad z,
  Forall (fun c => code_cp c /\ c <> 0) cps -> no_nul bad -> (bad = [] \/ bad_start bad) ->
  utf8_is_valid (utf8_text cps ++ bad ++ 0 :: z) =
    Ok (match bad with [] => true | _ => false end, Some (bad ++ 0 :: z)).
Proof.
  intros cps bad z F Hn [->|B]; [exact (is_valid_good cps z F)|].
  rewrite is_valid_bad by auto. destruct B as [Hne _]. destruct bad; congruence.
Qed.
Print Assumptions utf8_is_valid_exact.

(** M_utf8_cnt: the number of code points, 0 for an invalid text. *)
Theorem utf8_cnt_exact : forall cps bad z,
  Forall (fun c => code_cp c /\ c <> 0) cps -> no_nul bad -> (bad = [] \/ bad_start bad) ->
  utf8_cnt (utf8_text cps ++ bad ++ 0 :: z) = Ok (match bad with [] => length cps | _ => 0%nat end).
Proof.
  intros cps bad z F Hn [->|B]; [exact (cnt_good cps z F)|].
  rewrite cnt_bad by auto. destruct B as [Hne _]. destruct bad; congruence.
Qed.
Print Assumptions utf8_cnt_exact.

(** ** C15 *)

(** Full statement: success iff the text is valid up to the idx-th code point
    and idx is smaller than the number of code points.  What the code does:
    right below the count; at the count of a valid text it reports success
    with the last code point; and past an invalid sequence it follows a NULL
    pointer. *)
Theorem utf8_cp_at_partial : forall cps bad z idx cp0,
  Forall (fun c => code_cp c /\ c <> 0) cps -> no_nul bad -> (bad = [] \/ bad_start bad) -> cps <> [] ->
  match nth_error cps idx with
  | Some cp => cp_at (utf8_text cps ++ bad ++ 0 :: z) idx cp0 = Ok (USuccess, cp)
  | None =>
    match bad with
    | [] => cp_at (utf8_text cps ++ bad ++ 0 :: z) idx cp0
            = Ok (if (idx =? length cps)%nat then USuccess else UInvalidParam, last cps 0)
    | _ => if (idx =? length cps)%nat
           then exists e, uerr_ok e = false /\ cp_at (utf8_text cps ++ bad ++ 0 :: z) idx cp0 = Ok (e, 0)
           else cp_at (utf8_text cps ++ bad ++ 0 :: z) idx cp0 = UB
    end
  end.
Proof.
  intros cps bad z idx cp0 F Hn B Hne. destruct (nth_error cps idx) as [cp|] eqn:E.
  - now apply cp_at_good_in.
  - apply nth_error_None in E. destruct bad as [|b bad].
    + now apply cp_at_good_out.
    + destruct B as [|B]; [discriminate|].
      destruct (cp_at_bad cps (b :: bad) idx z cp0 F Hn B E) as [[-> X]|[L X]].
      * rewrite Nat.eqb_refl. exact X.
      * destruct (Nat.eqb_spec idx (length cps)); [lia|exact X].
Qed.
Print Assumptions utf8_cp_at_partial.

(** Index = count: success, and the last character again. *)
Theorem utf8_cp_at_refuted : exists s idx cp, utf8_cnt s = Ok idx /\
  cp_at s idx 0 = Ok (USuccess, cp).
Proof. exists [65; 66; 0], 2%nat, 66. split; vm_compute; reflexivity. Qed.
Print Assumptions utf8_cp_at_refuted.

(** An invalid first byte and index 1: NULL pointer dereference. *)
Theorem utf8_cp_at_null_refuted : exists s, cp_at s 1 0 = UB /\ nth_error s 2 = Some 0.
Proof. exists [0x80; 66; 0]. split; vm_compute; reflexivity. Qed.
Print Assumptions utf8_cp_at_null_refuted.

Example utf8_text_case :
  utf8_text [0x41; 0xE9; 0x20AC; 0x1F600] = [0x41; 0xC3; 0xA9; 0xE2; 0x82; 0xAC; 0xF0; 0x9F; 0x98; 0x80] /\
  utf8_cnt (utf8_text [0x41; 0xE9; 0x20AC; 0x1F600] ++ [0]) = Ok 4%nat /\
  cp_at (utf8_text [0x41; 0xE9; 0x20AC; 0x1F600] ++ [0]) 2 0 = Ok (USuccess, 0x20AC).
Proof. repeat split; vm_compute; reflexivity. Qed.

(** M_utf8_next_chr steps from one code point of a valid text to the next, and
    on any text stops inside it. *)
Theorem utf8_next_chr_steps : forall cp cps z, (code_cp cp /\ cp <> 0) ->
  Forall (fun c => code_cp c /\ c <> 0) cps ->
  next_chr (utf8_text (cp :: cps) ++ 0 :: z) = Ok (Some (utf8_text cps ++ 0 :: z)).
Proof. exact next_chr_text. Qed.
Print Assumptions utf8_next_chr_steps.

Theorem utf8_next_chr_in_bounds : forall c s, c <> 0 ->
  exists p q, s = p ++ q /\ Forall (fun c => 0x80 <= c <= 0xBF) p /\
    next_chr (c :: s ++ [0]) = Ok (Some (q ++ [0])).
Proof.
  intros c s Hc. unfold next_chr. cbn [rd nth_error bind skipn].
  rewrite (proj2 (N.eqb_neq _ _) Hc).
  destruct (skip_continue_total s [] (S (length (c :: s ++ [0])))) as (p & q & E & F & X).
  - cbn [length]. rewrite app_length. lia.
  - exists p, q. rewrite X. auto.
Qed.
Print Assumptions utf8_next_chr_in_bounds.

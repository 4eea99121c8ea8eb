From Verif Require Import Base.Lib Hex.Model Hex.Spec.

(** ** Encoder *)

Lemma hex_digit_hi x : is_byte x ->
  hex_digit (N.shiftr (N.land 240 x) 4) = digit_char (x / 16).
Proof.
  intros H. apply N.eqb_eq.
  apply (byte_sweep (fun x => hex_digit (N.shiftr (N.land 240 x) 4) =? digit_char (x / 16))%N);
    [vm_compute; reflexivity|exact H].
Qed.
Lemma hex_digit_lo x : is_byte x ->
  hex_digit (N.shiftr (N.land 15 x) 0) = digit_char (x mod 16).
Proof.
  intros H. apply N.eqb_eq.
  apply (byte_sweep (fun x => hex_digit (N.shiftr (N.land 15 x) 0) =? digit_char (x mod 16))%N);
    [vm_compute; reflexivity|exact H].
Qed.

(** Text produced from line position [k]: as [wrapped] but the code decides
    by "last input byte", which is the same. *)
Lemma add_byte_plain out pos k c :
  pos < length out ->
  exists out', add_byte (out, pos, k) 0 c = Ok (out', S pos, S k) /\
    length out' = length out /\ firstn (S pos) out' = firstn pos out ++ [c].
Proof.
  intros H. destruct (wr_seq out c H) as (m & E & L & F & _).
  exists m. unfold add_byte. rewrite E. cbn. auto.
Qed.

Lemma add_byte_wrap out pos k w c :
  pos + (if S k =? w then 1 else 0) < length out -> k < w ->
  exists out', add_byte (out, pos, k) w c =
     Ok (out', pos + (if S k =? w then 2 else 1), if S k =? w then 0 else S k) /\
    length out' = length out /\
    firstn (pos + (if S k =? w then 2 else 1)) out' =
      firstn pos out ++ (if S k =? w then [c; 10%N] else [c]).
Proof.
  intros H Hk.
  assert (H1 : pos < length out) by (destruct (_ =? _); lia).
  destruct (wr_seq out c H1) as (m & E & L & F & _).
  unfold add_byte. rewrite E. cbn [bind].
  destruct (Nat.eqb_spec (S k) w) as [He|He].
  - replace ((0 <? w) && (w <=? S k)) with true by lia.
    assert (H2 : S pos < length m) by lia.
    destruct (wr_seq m 10%N H2) as (m2 & E2 & L2 & F2 & _).
    rewrite E2. cbn [bind]. exists m2. replace (pos + 2) with (S (S pos)) by lia.
    repeat split; try congruence. rewrite F2, F, <- app_assoc. reflexivity.
  - replace ((0 <? w) && (w <=? S k)) with false by lia.
    exists m. replace (pos + 1) with (S pos) by lia. auto.
Qed.

Lemma wrapped_cons w k c s : s <> [] ->
  wrapped w k (c :: s) = (if S k =? w then [c; 10%N] else [c]) ++
                         wrapped w (if S k =? w then 0 else S k) s.
Proof. intros H. destruct s; [congruence|]. cbn [wrapped]. destruct (S k =? w); reflexivity. Qed.

Lemma wrapped_pos w k s : s <> [] -> 0 < length (wrapped w k s).
Proof.
  destruct s as [|c [|d s]]; intros H; [congruence|cbn; lia|].
  rewrite wrapped_cons, app_length by discriminate. destruct (S k =? w); cbn [length]; lia.
Qed.

Lemma hex_text_nonnil x b : hex_text (x :: b) <> [].
Proof. discriminate. Qed.

Lemma enc_loop_nowrap b : forall out pos k,
  is_bytes b -> pos + 2 * length b <= length out ->
  exists out' k', enc_loop b (out, pos, k) 0 = Ok (out', pos + 2 * length b, k') /\
    length out' = length out /\
    firstn (pos + 2 * length b) out' = firstn pos out ++ hex_text b.
Proof.
  induction b as [|x b IH]; intros out pos k Hb Hl; cbn [length] in *.
  - exists out, k. cbn. rewrite Nat.add_0_r, app_nil_r. auto.
  - inversion Hb; subst. cbn [enc_loop].
    rewrite hex_digit_hi, hex_digit_lo by assumption.
    destruct (@add_byte_plain out pos k (digit_char (x / 16))) as (o1 & E1 & L1 & F1); [lia|].
    rewrite E1. cbn [bind].
    destruct (@add_byte_plain o1 (S pos) (S k) (digit_char (x mod 16))) as (o2 & E2 & L2 & F2); [lia|].
    replace (match b with [] => 0 | _ :: _ => 0 end) with 0 by (destruct b; auto).
    rewrite E2. cbn [bind].
    destruct (IH o2 (S (S pos)) (S (S k))) as (o3 & k3 & E3 & L3 & F3); [assumption|lia|].
    exists o3, k3. rewrite E3. replace (pos + 2 * S (length b)) with (S (S pos) + 2 * length b) by lia.
    repeat split; try congruence.
    rewrite F3, F2, F1, <- !app_assoc. reflexivity.
Qed.

Lemma enc_loop_wrap w b : forall out pos k,
  0 < w -> k < w -> b <> [] ->
  is_bytes b -> pos + length (wrapped w k (hex_text b)) <= length out ->
  exists out' k', enc_loop b (out, pos, k) w =
      Ok (out', pos + length (wrapped w k (hex_text b)), k') /\
    length out' = length out /\
    firstn (pos + length (wrapped w k (hex_text b))) out' =
      firstn pos out ++ wrapped w k (hex_text b).
Proof.
  induction b as [|x b IH]; intros out pos k Hw Hk Hne Hb Hl; [congruence|].
  inversion Hb; subst. cbn [enc_loop].
  rewrite hex_digit_hi, hex_digit_lo by assumption.
  cbn [hex_text] in *. set (h := digit_char (x / 16)) in *. set (l := digit_char (x mod 16)) in *.
  rewrite wrapped_cons in * by discriminate.
  rewrite app_length in *.
  set (k1 := if S k =? w then 0 else S k) in *.
  assert (Hk1 : k1 < w) by (subst k1; destruct (Nat.eqb_spec (S k) w); lia).
  assert (Hlen : length (if S k =? w then [h; 10%N] else [h]) = (if S k =? w then 2 else 1))
    by (destruct (S k =? w); reflexivity).
  rewrite Hlen in *. clear Hlen.
  assert (Hd0 : (if S k =? w then 1 else 0) + 1 = (if S k =? w then 2 else 1)) by (destruct (S k =? w); reflexivity).
  set (d0 := if S k =? w then 2 else 1) in *.
  assert (Hpos : 0 < length (wrapped w k1 (l :: hex_text b)))
    by (apply wrapped_pos; discriminate).
  destruct (@add_byte_wrap out pos k w h) as (o1 & E1 & L1 & F1);
    [lia|assumption|].
  fold d0 in E1, F1. rewrite E1. cbn [bind]. fold k1.
  set (pos1 := pos + d0) in *.
  destruct b as [|y b].
  - cbn [hex_text wrapped] in *.
    destruct (@add_byte_plain o1 pos1 k1 l) as (o2 & E2 & L2 & F2); [cbn in *; subst pos1; lia|].
    rewrite E2. cbn [bind enc_loop]. exists o2, (S k1).
    cbn [length] in *.
    replace (pos + (d0 + 1)) with (S pos1) by (subst pos1; lia).
    repeat split; try congruence. rewrite F2, F1, <- app_assoc. reflexivity.
  - rewrite wrapped_cons in * by discriminate. rewrite app_length in *.
    set (k2 := if S k1 =? w then 0 else S k1) in *.
    assert (Hlen2 : length (if S k1 =? w then [l; 10%N] else [l]) = (if S k1 =? w then 2 else 1))
      by (destruct (S k1 =? w); reflexivity).
    rewrite Hlen2 in *. clear Hlen2.
    assert (Hd1 : (if S k1 =? w then 1 else 0) + 1 = (if S k1 =? w then 2 else 1)) by (destruct (S k1 =? w); reflexivity).
    set (d1 := if S k1 =? w then 2 else 1) in *.
    assert (Hk2 : k2 < w) by (subst k2; destruct (Nat.eqb_spec (S k1) w); lia).
    assert (Hpos2 : 0 < length (wrapped w k2 (hex_text (y :: b)))).
    { apply wrapped_pos; discriminate. }
    destruct (@add_byte_wrap o1 pos1 k1 w l) as (o2 & E2 & L2 & F2);
      [subst pos1; lia|assumption|].
    fold d1 in E2, F2. rewrite E2. cbn [bind]. fold k2.
    set (pos2 := pos1 + d1) in *.
    destruct (IH o2 pos2 k2) as (o3 & k3 & E3 & L3 & F3);
      [assumption|assumption|discriminate|assumption|subst pos2 pos1; lia|].
    exists o3, k3. rewrite E3.
    replace (pos + (d0 + (d1 + length (wrapped w k2 (hex_text (y :: b))))))
      with (pos2 + length (wrapped w k2 (hex_text (y :: b)))) by (subst pos2 pos1; lia).
    repeat split; try congruence.
    rewrite F3, F2, F1, <- !app_assoc. reflexivity.
Qed.

Lemma length_hex_text b : length (hex_text b) = 2 * length b.
Proof. induction b; cbn [hex_text length]; lia. Qed.

(** Number of newlines. *)
Lemma length_wrapped w s : 0 < w -> s <> [] -> forall k, k < w ->
  length (wrapped w k s) = length s + (k + length s - 1) / w.
Proof.
  intros Hw. induction s as [|c s IH]; intros Hne k Hk; [congruence|].
  destruct s as [|d s].
  - cbn [wrapped length]. replace (k + 1 - 1) with k by lia. rewrite Nat.div_small; lia.
  - rewrite wrapped_cons, app_length by discriminate.
    specialize (IH ltac:(discriminate)).
    destruct (Nat.eqb_spec (S k) w) as [He|He].
    + rewrite IH by lia. cbn [length].
      replace (k + S (S (length s)) - 1) with (1 * w + (0 + S (length s) - 1)) by lia.
      rewrite Nat.div_add_l by lia. lia.
    + rewrite IH by lia. cbn [length].
      replace (k + S (S (length s)) - 1) with (S k + S (length s) - 1) by lia. lia.
Qed.

Lemma div_pred_le n w : 0 < w -> (n - 1) / w <= n / w.
Proof. intros H. apply Nat.div_le_mono; lia. Qed.

Lemma hex_encode_correct b out w :
  is_bytes b -> b <> [] -> hex_target_size (length b) w <= length out ->
  exists out', hex_encode b out w = Ok (length (wrap_text w (hex_text b)), out') /\
    length out' = length out /\
    firstn (length (wrap_text w (hex_text b))) out' = wrap_text w (hex_text b).
Proof.
  intros Hb Hne Hl. unfold hex_encode.
  assert (Hlb : 0 < length b) by (destruct b; cbn; [congruence|lia]).
  replace ((length b =? 0) || (length out <? hex_target_size (length b) w)) with false by lia.
  assert (Hloop : exists out' k', enc_loop b (out, 0, 0) w =
      Ok (out', length (wrap_text w (hex_text b)), k') /\
    length out' = length out /\
    firstn (length (wrap_text w (hex_text b))) out' = wrap_text w (hex_text b)).
  { unfold hex_target_size in Hl. replace (length b =? 0) with false in Hl by lia.
    destruct w as [|w].
    - cbn [wrap_text]. rewrite length_hex_text.
      destruct (@enc_loop_nowrap b out 0 0 Hb) as (o & k & E & L & F); [cbn in *; lia|].
      exists o, k. auto.
    - cbn [wrap_text].
      assert (Hne' : hex_text b <> []) by (destruct b; [congruence|discriminate]).
      assert (L := @length_wrapped (S w) (hex_text b) ltac:(lia) Hne' 0 ltac:(lia)).
      rewrite length_hex_text in L.
      assert (Hd := @div_pred_le (2 * length b) (S w) ltac:(lia)).
      replace (S w =? 0) with false in Hl by lia.
      replace (length b * 2) with (2 * length b) in Hl by lia.
      rewrite Nat.add_0_l in L.
      destruct (@enc_loop_wrap (S w) b out 0 0) as (o & k & E & L' & F); auto; try lia.
      exists o, k. auto. }
  destruct Hloop as (o & k & E & L & F). rewrite E. cbn [bind].
  destruct (Nat.ltb_spec (length (wrap_text w (hex_text b))) (length o)) as [H|H].
  - destruct (wr_seq o 0%N H) as (m & Em & Lm & Fm & _). rewrite Em. cbn [bind].
    exists m. repeat split; try congruence.
        apply wr_inv in Em as [_ ->]. rewrite firstn_upd_ge by lia. exact F.
  - exists o. auto.
Qed.

(** ** Decoder *)

Definition strip (s : list N) : list N := filter (fun c => negb (chr_isspace c)) s.

Lemma skip_space_cases s :
  match skip_space s with
  | [] => strip s = []
  | c :: s' => chr_isspace c = false /\ strip s = c :: strip s' /\ length s' < length s
  end.
Proof.
  induction s as [|c s IH]; cbn; auto.
  destruct (chr_isspace c) eqn:E; cbn.
  - destruct (skip_space s); auto. destruct IH as (A & B & C); repeat split; auto.
  - auto.
Qed.

Definition valid (c : N) : bool := hex_isvalidchar c.

Lemma digit_val_valid c : is_byte c ->
  hex_isvalidchar c = match digit_val c with Some _ => true | None => false end.
Proof.
  intros _. unfold hex_isvalidchar, digit_val.
  destruct ((48 <=? c) && (c <=? 57))%N; auto.
  destruct ((65 <=? c) && (c <=? 70))%N; auto.
  destruct ((97 <=? c) && (c <=? 102))%N; auto.
Qed.

Lemma hex2dec_val c v : digit_val c = Some v -> hex2dec c = v /\ (v < 16)%N.
Proof.
  unfold digit_val, hex2dec. intros H.
  destruct (((48 <=? c) && (c <=? 57))%N) eqn:E1;
  [|destruct (((65 <=? c) && (c <=? 70))%N) eqn:E2;
    [|destruct (((97 <=? c) && (c <=? 102))%N) eqn:E3; [|discriminate]]];
  injection H as <-;
  repeat match goal with |- context [if ?b then _ else _] => destruct b eqn:? end; lia.
Qed.

Lemma combine_nibbles a b : (a < 16 -> b < 16 ->
  (N.lor (N.shiftl a 4) b) mod 256 = 16 * a + b)%N.
Proof.
  intros Ha Hb.
  assert (H : forallb (fun a => forallb (fun b =>
     ((N.lor (N.shiftl a 4) b) mod 256 =? 16 * a + b)%N) (range_list 16)) (range_list 16) = true)
    by (vm_compute; reflexivity).
  apply N.eqb_eq.
  apply (range_sweep 16 (fun b => ((N.lor (N.shiftl a 4) b) mod 256 =? 16 * a + b)%N)); [|exact Hb].
  apply (range_sweep 16 (fun a => forallb (fun b =>
     ((N.lor (N.shiftl a 4) b) mod 256 =? 16 * a + b)%N) (range_list 16))); [exact H|exact Ha].
Qed.

(** Pairs denoted by a stripped text; an unpaired last digit is dropped. *)
Fixpoint pairs (t : list N) : list N :=
  match t with
  | a :: b :: t' =>
      match digit_val a, digit_val b with
      | Some x, Some y => (16 * x + y)%N :: pairs t'
      | _, _ => []
      end
  | _ => []
  end.

Definition dv (c : N) : bool := match digit_val c with Some _ => true | None => false end.

Lemma valid_dv c : hex_isvalidchar c = dv c.
Proof.
  unfold hex_isvalidchar, dv, digit_val.
  destruct ((48 <=? c) && (c <=? 57))%N; auto.
  destruct ((65 <=? c) && (c <=? 70))%N; auto.
  destruct ((97 <=? c) && (c <=? 102))%N; auto.
Qed.

Lemma get_byte_cases s :
  match strip s with
  | [] => get_byte s = GEnd
  | c :: t => if dv c then exists s', get_byte s = GByte c s' /\ strip s' = t /\ length s' < length s
              else get_byte s = GFail
  end.
Proof.
  unfold get_byte. pose proof (skip_space_cases s) as H.
  destruct (skip_space s) as [|c s'].
  - rewrite H. reflexivity.
  - destruct H as (_ & -> & L). rewrite valid_dv. destruct (dv c); eauto.
Qed.

Lemma dec_loop_correct fuel : forall s out pos,
  length s < fuel -> pos + length (strip s) / 2 <= length out ->
  exists n out' f, dec_loop fuel s out pos = Ok (f, pos + n, out') /\
    length out' = length out /\ n <= length (strip s) / 2 /\
    (f = negb (forallb dv (strip s))) /\
    (f = false -> n = length (strip s) / 2 /\
       firstn (pos + n) out' = firstn pos out ++ pairs (strip s)).
Proof.
  induction fuel as [|fuel IH]; intros s out pos Hf Hl; [lia|].
  cbn [dec_loop].
  pose proof (get_byte_cases s) as G.
  destruct (strip s) as [|c1 t] eqn:Es.
  - rewrite G. exists 0, out, false. rewrite Nat.add_0_r. cbn. rewrite app_nil_r. auto 6.
  - destruct (dv c1) eqn:V1.
    2:{ rewrite G. exists 0, out, true. rewrite Nat.add_0_r. cbn [forallb]. rewrite V1. cbn.
        repeat split; auto; try lia; discriminate. }
    destruct G as (s1 & -> & Es1 & Ls1).
    pose proof (get_byte_cases s1) as G. rewrite Es1 in G.
    destruct t as [|c2 t].
    + rewrite G. exists 0, out, false. rewrite Nat.add_0_r. cbn. rewrite V1, app_nil_r. cbn. auto 6.
    + destruct (dv c2) eqn:V2.
      2:{ rewrite G. exists 0, out, true. rewrite Nat.add_0_r. cbn [forallb]. rewrite V1, V2. cbn.
          repeat split; auto; try lia; discriminate. }
      destruct G as (s2 & -> & Es2 & Ls2).
      assert (Hd : length (c1 :: c2 :: t) / 2 = S (length t / 2)).
      { cbn [length]. replace (S (S (length t))) with (1 * 2 + length t) by lia.
        rewrite Nat.div_add_l by lia. lia. }
      rewrite Hd in *.
      assert (Hp : pos < length out) by lia.
      destruct (wr_seq out ((N.lor (N.shiftl (hex2dec c1) 4) (hex2dec c2)) mod 256)%N Hp)
        as (m & Em & Lm & Fm & _).
      rewrite Em. cbn [bind].
      destruct (IH s2 m (S pos)) as (n & out' & f & E & L & Hn & Hfl & Hres).
      { lia. } { rewrite Es2. lia. }
      rewrite Es2 in *.
      exists (S n), out', f. rewrite E. replace (pos + S n) with (S pos + n) by lia.
      cbn [forallb]. rewrite V1, V2. cbn [andb].
      split; [reflexivity|]. split; [congruence|]. split; [lia|]. split; [assumption|].
      intros H. apply Hres in H as [Hn' Hfi]. split.
      * congruence.
      * rewrite Hfi, Fm, <- app_assoc.
        unfold dv in V1, V2. cbn [pairs].
        destruct (digit_val c1) as [x|] eqn:D1; [|discriminate].
        destruct (digit_val c2) as [y|] eqn:D2; [|discriminate].
        apply hex2dec_val in D1 as [-> ?]. apply hex2dec_val in D2 as [-> ?].
        rewrite combine_nibbles by assumption. reflexivity.
Qed.

Lemma length_strip s : length (strip s) <= length s.
Proof. unfold strip. induction s as [|c s IH]; cbn; auto. destruct (negb _); cbn; lia. Qed.

Lemma is_space_dec c : is_byte c -> chr_isspace c = true <-> is_space c.
Proof. intros _. unfold chr_isspace, is_space. lia. Qed.

Lemma chr_isspace_spec c : chr_isspace c = true <-> is_space c.
Proof. unfold chr_isspace, is_space. lia. Qed.

Lemma strip_id s : Forall (fun c => ~ is_space c) s -> strip s = s.
Proof.
  unfold strip. induction 1 as [|c s H _ IH]; cbn; auto.
  destruct (chr_isspace c) eqn:E; cbn; [|congruence].
  apply chr_isspace_spec in E. contradiction.
Qed.

Lemma denotes_pairs s : length s mod 2 = 0 ->
  denotes s = if forallb dv s then Some (pairs s) else None.
Proof.
  remember (length s) as n. revert s Heqn.
  induction n as [n IH] using lt_wf_ind. intros s -> Hm.
  destruct s as [|a [|b s]]; [reflexivity|discriminate|].
  cbn [denotes forallb pairs].
  rewrite (IH (length s)); auto.
  - unfold dv at 2 3. destruct (digit_val a) as [x|]; cbn; auto.
    destruct (digit_val b) as [y|]; cbn; auto.
    destruct (forallb dv s); auto.
  - cbn [length] in *. lia.
  - cbn [length] in Hm. replace (S (S (length s))) with (length s + 1 * 2) in Hm by lia.
    rewrite Nat.mod_add in Hm; lia.
Qed.

(** General behaviour of the decoder, white space included. *)
Lemma hex_decode_general s out :
  s <> [] -> length s mod 2 = 0 -> length s / 2 <= length out ->
  exists n out', hex_decode s out = Ok (n, out') /\ length out' = length out /\
    if forallb dv (strip s)
    then n = length (strip s) / 2 /\ firstn n out' = pairs (strip s)
    else n = 0.
Proof.
  intros Hne He Hl. unfold hex_decode.
  assert (0 < length s) by (destruct s; cbn; [congruence|lia]).
  replace ((length s =? 0) || negb (length s mod 2 =? 0) || (length out <? length s / 2))
    with false by lia.
  pose proof (length_strip s).
  assert (length (strip s) / 2 <= length s / 2) by (apply Nat.div_le_mono; lia).
  destruct (@dec_loop_correct (S (length s)) s out 0) as (n & o & f & E & L & _ & Hf & Hr); [lia|lia|].
  rewrite E. cbn [bind]. destruct f.
  - exists 0, o. destruct (forallb dv (strip s)); [discriminate|auto].
  - exists n, o. destruct (forallb dv (strip s)); [|discriminate].
    destruct (Hr eq_refl) as [-> F]. auto.
Qed.

Lemma hex_decode_safe s out : exists n out', hex_decode s out = Ok (n, out') /\
  length out' = length out /\ n <= length out.
Proof.
  destruct (Nat.eq_dec (length s) 0) as [H0|H0].
  { exists 0, out. unfold hex_decode. rewrite H0. cbn. auto with arith. }
  destruct (Nat.eq_dec (length s mod 2) 0) as [He|He].
  2:{ exists 0, out. unfold hex_decode.
      replace ((length s =? 0) || negb (length s mod 2 =? 0) || (length out <? length s / 2))
        with true by lia. auto with arith. }
  destruct (Nat.le_gt_cases (length s / 2) (length out)) as [Hl|Hl].
  - destruct (@hex_decode_general s out) as (n & o & E & L & R); auto; [destruct s; cbn in *; congruence|].
    exists n, o. repeat split; auto.
    pose proof (length_strip s).
    assert (length (strip s) / 2 <= length s / 2) by (apply Nat.div_le_mono; lia).
    destruct (forallb dv (strip s)); lia.
  - exists 0, out. unfold hex_decode.
    replace ((length s =? 0) || negb (length s mod 2 =? 0) || (length out <? length s / 2))
      with true by lia. auto with arith.
Qed.

(** ** Round trip *)

Lemma digit_char_val d : (d < 16)%N ->
  digit_val (digit_char d) = Some d /\ chr_isspace (digit_char d) = false.
Proof.
  intros H.
  assert (K : (match digit_val (digit_char d) with Some v => (v =? d)%N | None => false end
               && negb (chr_isspace (digit_char d))) = true).
  { apply (range_sweep 16 (fun d => match digit_val (digit_char d) with Some v => (v =? d)%N | None => false end
               && negb (chr_isspace (digit_char d)))); [vm_compute; reflexivity|exact H]. }
  apply andb_prop in K as [K1 K2].
  destruct (digit_val (digit_char d)); [|discriminate]. apply N.eqb_eq in K1. subst.
  split; auto. now apply negb_true_iff.
Qed.

Lemma strip_hex_text b : is_bytes b -> strip (hex_text b) = hex_text b.
Proof.
  unfold strip. induction 1 as [|x b Hx _ IH]; cbn [hex_text filter]; auto.
  unfold is_byte in Hx.
  rewrite (proj2 (@digit_char_val (x / 16) ltac:(lia))), (proj2 (@digit_char_val (x mod 16) ltac:(lia))).
  cbn. congruence.
Qed.

Lemma pairs_hex_text b : is_bytes b -> pairs (hex_text b) = b.
Proof.
  induction 1 as [|x b Hx _ IH]; cbn [hex_text pairs]; auto.
  unfold is_byte in Hx.
  rewrite (proj1 (@digit_char_val (x / 16) ltac:(lia))), (proj1 (@digit_char_val (x mod 16) ltac:(lia))).
  rewrite IH. f_equal. pose proof (N.div_mod x 16). lia.
Qed.

Lemma dv_hex_text b : is_bytes b -> forallb dv (hex_text b) = true.
Proof.
  induction 1 as [|x b Hx _ IH]; cbn [hex_text forallb]; auto.
  unfold is_byte in Hx. unfold dv at 1 2.
  rewrite (proj1 (@digit_char_val (x / 16) ltac:(lia))), (proj1 (@digit_char_val (x mod 16) ltac:(lia))).
  auto.
Qed.

Lemma strip_wrapped w s : forall k, strip (wrapped w k s) = strip s.
Proof.
  unfold strip. induction s as [|c s IH]; intros k; auto.
  destruct s as [|d s]; auto.
  rewrite wrapped_cons by discriminate. rewrite filter_app, IH.
  destruct (S k =? w); cbn; destruct (negb (chr_isspace c)); reflexivity.
Qed.

Lemma strip_wrap_text w s : strip (wrap_text w s) = strip s.
Proof. destruct w; cbn [wrap_text]; auto. apply strip_wrapped. Qed.

Lemma length_wrap_text w s : s <> [] ->
  length (wrap_text w s) = length s + (if w =? 0 then 0 else (length s - 1) / w).
Proof.
  intros H. destruct w; cbn [wrap_text]; [cbn; lia|].
  rewrite (@length_wrapped (S w) s) by (auto; lia).
  replace (S w =? 0) with false by lia. rewrite Nat.add_0_l. reflexivity.
Qed.

Lemma hex_wrap_decode b w out :
  is_bytes b -> b <> [] -> length (wrap_text w (hex_text b)) / 2 <= length out ->
  exists out', 
    if Nat.even (if w =? 0 then 0 else (2 * length b - 1) / w)
    then hex_decode (wrap_text w (hex_text b)) out = Ok (length b, out') /\
         firstn (length b) out' = b
    else hex_decode (wrap_text w (hex_text b)) out = Ok (0, out') .
Proof.
  intros Hb Hne Hl.
  assert (Hne' : hex_text b <> []) by (destruct b; [congruence|discriminate]).
  pose proof (length_wrap_text w _ Hne') as L. rewrite length_hex_text in L.
  set (nl := if w =? 0 then 0 else (2 * length b - 1) / w) in *.
  set (t := wrap_text w (hex_text b)) in *.
  assert (Hlb : 0 < length b) by (destruct b; cbn; [congruence|lia]).
  destruct (Nat.even nl) eqn:Ev.
  - assert (Hm : length t mod 2 = 0).
    { apply Nat.even_spec in Ev as [m ->]. rewrite L.
      replace (2 * length b + 2 * m) with ((length b + m) * 2) by lia. apply Nat.mod_mul. lia. }
    destruct (@hex_decode_general t out) as (n & o & E & _ & R); auto.
    { intros ->. cbn in L. lia. }
    exists o. unfold t in R. rewrite strip_wrap_text, strip_hex_text in R by assumption.
    rewrite dv_hex_text, pairs_hex_text, length_hex_text in R by assumption.
    rewrite (Nat.mul_comm 2), Nat.div_mul in R by lia. destruct R as [-> R]. auto.
  - exists out. unfold hex_decode.
    assert (Hm : length t mod 2 <> 0).
    { intros Hm. apply Nat.mod_divides in Hm as [m Hm]; [|lia].
      assert (Nat.even (2 * length b + nl) = true) by (rewrite <- L, Hm; apply Nat.even_spec; exists m; lia).
      rewrite Nat.even_add, Ev in H. replace (Nat.even (2 * length b)) with true in H; [discriminate|].
      symmetry. apply Nat.even_spec. exists (length b). lia. }
    replace ((length t =? 0) || negb (length t mod 2 =? 0) || (length out <? length t / 2))
      with true by lia. reflexivity.
Qed.

(** ** Property lemmas *)

Lemma hex_round_trip_lemma b out dec :
  is_bytes b -> b <> [] -> 2 * length b <= length out -> length b <= length dec ->
  exists out' dec',
    hex_encode b out 0 = Ok (2 * length b, out') /\ length out' = length out /\
    firstn (2 * length b) out' = hex_text b /\
    hex_decode (firstn (2 * length b) out') dec = Ok (length b, dec') /\
    firstn (length b) dec' = b.
Proof.
  intros Hb Hne Ho Hd.
  destruct (@hex_encode_correct b out 0) as (o & E & L & F); auto.
  { unfold hex_target_size. destruct (Nat.eqb_spec (length b) 0); cbn [Nat.eqb]; lia. }
  cbn [wrap_text] in *. rewrite length_hex_text in *.
  destruct (@hex_wrap_decode b 0 dec) as (d & E2); auto.
  { cbn [wrap_text]. rewrite length_hex_text. lia. }
  cbn [Nat.eqb Nat.even wrap_text] in E2. destruct E2 as [E2 F2].
  exists o, d. rewrite F. auto.
Qed.

Lemma hex_decode_denotes_lemma s out :
  s <> [] -> Forall (fun c => ~ is_space c) s -> length s / 2 <= length out ->
  exists n out', hex_decode s out = Ok (n, out') /\ length out' = length out /\
    match denotes s with
    | Some l => n = length l /\ firstn n out' = l
    | None => n = 0
    end.
Proof.
  intros Hne Hsp Hl.
  destruct (Nat.eq_dec (length s mod 2) 0) as [Hm|Hm].
  - destruct (@hex_decode_general s out) as (n & o & E & L & R); auto.
    exists n, o. rewrite strip_id in R by assumption. rewrite denotes_pairs by assumption.
    destruct (forallb dv s) eqn:V; auto.
    destruct R as [-> F]. repeat split; auto. rewrite <- F.
    rewrite firstn_length, Nat.min_l; auto; lia.
  - exists 0, out. unfold hex_decode.
    replace ((length s =? 0) || negb (length s mod 2 =? 0) || (length out <? length s / 2))
      with true by lia.
    repeat split; auto.
    enough (denotes s = None) as -> by reflexivity.
    remember (length s) as n eqn:En. clear -Hm En. revert s En Hm.
    induction n as [n IH] using lt_wf_ind. intros s -> Hm.
    destruct s as [|a [|b s]]; [cbn in Hm; congruence|reflexivity|].
    cbn [denotes]. rewrite (IH (length s)); auto.
    + destruct (digit_val a), (digit_val b); reflexivity.
    + cbn [length]; lia.
    + cbn [length] in Hm. lia.
Qed.

Lemma hex_wrap_exact_lemma b w out dec :
  is_bytes b -> b <> [] -> 0 < w ->
  2 * length b + (2 * length b / w + 1) <= length out ->
  2 * length b <= length dec ->
  exists n out' dec',
    hex_encode b out w = Ok (n, out') /\ firstn n out' = wrap_text w (hex_text b) /\
    (if Nat.even ((2 * length b - 1) / w)
     then hex_decode (firstn n out') dec = Ok (length b, dec') /\ firstn (length b) dec' = b
     else hex_decode (firstn n out') dec = Ok (0, dec')).
Proof.
  intros Hb Hne Hw Ho Hd.
  assert (0 < length b) by (destruct b; cbn; [congruence|lia]).
  destruct (@hex_encode_correct b out w) as (o & E & L & F); auto.
  { unfold hex_target_size. replace (length b =? 0) with false by lia.
    replace (w =? 0) with false by lia. rewrite (Nat.mul_comm (length b)). lia. }
  exists (length (wrap_text w (hex_text b))), o.
  assert (Hne' : hex_text b <> []) by (destruct b; [congruence|discriminate]).
  pose proof (length_wrap_text w _ Hne') as Lw. rewrite length_hex_text in Lw.
  replace (w =? 0) with false in Lw by lia.
  destruct (@hex_wrap_decode b w dec) as (d & E2); auto.
  { rewrite Lw.
    assert ((2 * length b - 1) / w <= 2 * length b - 1).
    { apply Nat.div_le_upper_bound; [lia|]. nia. }
    apply Nat.div_le_upper_bound; lia. }
  replace (w =? 0) with false in E2 by lia.
  exists d. rewrite F. auto.
Qed.

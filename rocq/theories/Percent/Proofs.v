(** Proofs for percent encoding. *)
From Verif Require Import Base.Lib Hex.Model Hex.Spec Hex.Proofs Percent.Model Percent.Spec.
Local Open Scope N_scope.

Lemma hex_one c : is_byte c -> hex_encode [c] [0; 0; 0; 0] 0 = Ok (2%nat, [digit_char (c / 16); digit_char (c mod 16); 0; 0]).
Proof.
  intros H. assert (T : forallb (fun n => let c := N.of_nat n in match hex_encode [c] [0; 0; 0; 0] 0 with
      | Ok (k, [a; b; x; y]) => (k =? 2)%nat && (a =? digit_char (c / 16)) && (b =? digit_char (c mod 16)) && (x =? 0) && (y =? 0) | _ => false end) (seq 0 256) = true)
    by (vm_compute; reflexivity).
  rewrite forallb_forall in T. specialize (T (N.to_nat c)). cbn zeta in T. rewrite N2Nat.id in T.
  unfold is_byte in H. specialize (T ltac:(apply in_seq; lia)).
  destruct (hex_encode [c] [0; 0; 0; 0] 0) as [[k [|a [|b [|x [|y [|]]]]]]| |]; try discriminate.
  rewrite !andb_true_iff, !N.eqb_eq, Nat.eqb_eq in T. destruct T as [[[[-> ->] ->] ->] ->]. reflexivity.
Qed.

Lemma digit_val_cases c : digit_val c = if hex_isvalidchar c then Some (hex2dec c) else None.
Proof.
  unfold digit_val, hex_isvalidchar, hex2dec.
  destruct (N.leb_spec 48 c), (N.leb_spec c 57), (N.leb_spec 65 c), (N.leb_spec c 70), (N.leb_spec 97 c), (N.leb_spec c 102); cbn [andb]; try lia; auto; f_equal; lia.
Qed.
Lemma valid_not_space c : hex_isvalidchar c = true -> chr_isspace c = false.
Proof.
  unfold hex_isvalidchar, chr_isspace.
  destruct (N.leb_spec 48 c), (N.leb_spec c 57), (N.leb_spec 65 c), (N.leb_spec c 70), (N.leb_spec 97 c), (N.leb_spec c 102); cbn [andb]; try discriminate; intros _;
    repeat (rewrite (proj2 (N.eqb_neq _ _)) by lia); reflexivity.
Qed.
Lemma valid_lt c : hex_isvalidchar c = true -> hex2dec c < 16 /\ c < 128.
Proof.
  unfold hex_isvalidchar, hex2dec.
  destruct (N.leb_spec 48 c), (N.leb_spec c 57), (N.leb_spec 65 c), (N.leb_spec c 70), (N.leb_spec 97 c), (N.leb_spec c 102); cbn [andb]; try discriminate; intros _; lia.
Qed.

Lemma hex_pair a b : exists n d, hex_decode [a; b] [0; 0; 0; 0] = Ok (n, d) /\
  match digit_val a, digit_val b with
  | Some x, Some y => n = 1%nat /\ firstn 1 d = [16 * x + y]
  | _, _ => n = 0%nat
  end.
Proof.
  unfold hex_decode. cbn [length Nat.eqb orb Nat.modulo Nat.divmod fst snd Nat.sub negb]. cbn [Nat.ltb Nat.leb Nat.div Nat.divmod fst].
  rewrite !digit_val_cases. cbn [dec_loop]. unfold get_byte. cbn [skip_space].
  destruct (hex_isvalidchar a) eqn:Ea.
  - rewrite (valid_not_space a Ea), Ea. destruct (hex_isvalidchar b) eqn:Eb.
    + cbn [skip_space]. rewrite (valid_not_space b Eb), Eb. cbn [wr upd length Nat.ltb Nat.leb]. cbn.
      eexists; eexists; split; [reflexivity|]. split; auto. cbn [firstn]. f_equal.
      destruct (valid_lt a Ea) as [La _], (valid_lt b Eb) as [Lb _]. rewrite (combine_nibbles _ _ La Lb). reflexivity.
    + cbn [skip_space]. destruct (chr_isspace b); cbn; [|rewrite Eb; cbn]; eexists; eexists; (split; [reflexivity|reflexivity]).
  - destruct (chr_isspace a) eqn:Sa; [|rewrite Ea; cbn; eexists; eexists; split; reflexivity].
    destruct (chr_isspace b); cbn; [eexists; eexists; split; reflexivity|].
    destruct (hex_isvalidchar b); cbn; eexists; eexists; split; reflexivity.
Qed.

(** The text of one character. *)
Definition etext (k : pcodec) (c : N) : list N :=
  if negb (must_process k c) then [c]
  else if c =? 32 then (if is_form k then [43] else [37; 50; 48])
  else [37; digit_char (c / 16); digit_char (c mod 16)].

Lemma encode_one_ok k eh c : is_byte c -> encode_one k eh c = Ok (etext k c, TSuccess).
Proof.
  intros H. unfold encode_one, etext. destruct (negb (must_process k c)); auto. destruct (c =? 32); auto.
  rewrite hex_one by auto. reflexivity.
Qed.
Lemma encode_loop_ok k eh s : is_bytes s -> forall buf, encode_loop k eh s buf TSuccess = Ok (TSuccess, buf ++ flat_map (etext k) s).
Proof.
  induction 1 as [|c s H F IH]; intros buf; cbn [encode_loop flat_map]; [now rewrite app_nil_r|].
  rewrite encode_one_ok by auto. cbn [bind]. now rewrite IH, app_assoc.
Qed.

Lemma reserved_in c : is_percent_reserved c = false -> In c rfc_reserved -> c = 43.
Proof.
  intros X Y. cbn [rfc_reserved In] in Y. repeat (destruct Y as [<-|Y]; [first [reflexivity|discriminate X]|]). destruct Y.
Qed.
Lemma safe_of k c : 33 <= c <= 126 -> is_percent_reserved c = false -> safe k c.
Proof. intros H R. split; [now left|]. intros _. now apply reserved_in. Qed.

Lemma not_processed k c : must_process k c = false -> c < 128 /\ c <> 37 /\ (is_form k = true -> c <> 43) /\ safe k c.
Proof.
  unfold must_process. intros H. destruct (is_form k && ((c =? 13) || (c =? 10))) eqn:E.
  - rewrite andb_true_iff, orb_true_iff, !N.eqb_eq in E. destruct E as [F E].
    assert (R : is_percent_reserved c = false) by (destruct E; subst; reflexivity).
    split; [lia|]. split; [lia|]. split; [lia|]. split; [now right|]. intros _. now apply reserved_in.
  - destruct ((c <? 33) || (126 <? c) || (c =? 37)) eqn:E2; [discriminate|].
    assert (B : 33 <= c <= 126 /\ c <> 37) by lia. split; [lia|]. split; [tauto|]. split.
    + intros F ->. destruct k; try discriminate; cbn in H; discriminate.
    + split; [left; tauto|]. intros [->| ->]; apply reserved_in; auto. apply orb_false_iff in H. tauto.
Qed.

Lemma digit_char_safe k d : d < 16 -> safe k (digit_char d).
Proof.
  intros H. assert (K : forallb (fun d => let c := digit_char d in (33 <=? c) && (c <=? 126) && negb (is_percent_reserved c)) (map N.of_nat (seq 0 16)) = true)
    by (vm_compute; reflexivity).
  rewrite forallb_forall in K. specialize (K d). cbv zeta in K. rewrite !andb_true_iff, negb_true_iff in K.
  destruct K as [K1 K2]; [apply in_map_iff; exists (N.to_nat d); rewrite in_seq; lia|]. apply safe_of; auto; lia.
Qed.

Lemma etext_safe k c : is_byte c -> Forall (safe k) (etext k c).
Proof.
  intros H. unfold etext. destruct (must_process k c) eqn:E; cbn [negb].
  - assert (P : safe k 37) by (apply safe_of; [lia|reflexivity]).
    destruct (c =? 32).
    + destruct (is_form k); repeat (apply Forall_cons; [apply safe_of; [lia|reflexivity]|]); constructor.
    + unfold is_byte in H. repeat (apply Forall_cons; [first [exact P|apply digit_char_safe; lia]|]); constructor.
  - apply Forall_cons; [apply (not_processed k c E)|constructor].
Qed.

Lemma etext_decodes k c t s : is_byte c -> Decodes (is_form k) t s -> Decodes (is_form k) (etext k c ++ t) (c :: s).
Proof.
  intros H D. unfold etext. destruct (must_process k c) eqn:E; cbn [negb].
  - destruct (N.eqb_spec c 32) as [->|Hc].
    + destruct (is_form k) eqn:F; cbn [app]; [now constructor|]. change 32 with (16 * 2 + 0). now constructor.
    + cbn [app]. unfold is_byte in H. replace c with (16 * (c / 16) + c mod 16) at 3 by lia. constructor; auto; apply digit_char_val; lia.
  - destruct (not_processed k c E) as (A & B & C & _). cbn [app]. now constructor.
Qed.

Lemma encode_decodes k s : is_bytes s -> Decodes (is_form k) (flat_map (etext k) s) s.
Proof. induction 1 as [|c s H F IH]; cbn [flat_map]; [constructor|]. now apply etext_decodes. Qed.

Lemma digit_val_lt h x : digit_val h = Some x -> h < 128.
Proof. rewrite digit_val_cases. destruct (hex_isvalidchar h) eqn:E; [|discriminate]. intros _. now apply valid_lt. Qed.

Lemma Decodes_ascii f t s : Decodes f t s -> Forall (fun c => c < 128) t.
Proof.
  induction 1; constructor; auto; try lia. constructor; [eapply digit_val_lt; eauto|]. constructor; [eapply digit_val_lt; eauto|auto].
Qed.

Lemma decode_loop_decodes k eh t s : Decodes (is_form k) t s -> forall buf r, decode_loop k eh t buf r = Ok (r, buf ++ s).
Proof.
  induction 1 as [|t s F D IH|c t s L N1 N2 D IH|h1 h2 x y t s H1 H2 D IH]; intros buf r; cbn [decode_loop].
  - now rewrite app_nil_r.
  - rewrite F. cbn [N.eqb Pos.eqb andb]. rewrite IH, <- app_assoc. reflexivity.
  - destruct (N.eqb_spec c 43) as [->|]; destruct (is_form k); cbn [andb]; try (exfalso; now apply N2);
      rewrite (proj2 (N.eqb_neq _ 37)) by (auto; discriminate); cbn [negb]; rewrite IH, <- app_assoc; reflexivity.
  - cbn [N.eqb Pos.eqb andb negb]. destruct (hex_pair h1 h2) as (n & d & E & X). rewrite E. cbn [bind]. rewrite H1, H2 in X. destruct X as [-> X].
    cbn [Nat.eqb]. rewrite X, IH, <- app_assoc. reflexivity.
Qed.

(** Every text is decoded or refused. *)
Lemma decode_loop_fail k : forall n t, (length t <= n)%nat -> Forall (fun c => c < 128) t -> forall buf r,
  (exists s, Decodes (is_form k) t s) \/ exists b, decode_loop k EFail t buf r = Ok (TFail, b).
Proof.
  induction n as [|n IH]; intros t Hl A buf r.
  - destruct t; [|cbn in Hl; lia]. left. exists []. constructor.
  - destruct t as [|c t]; [left; exists []; constructor|]. inversion A as [|? ? Ac At]; subst. cbn [length] in Hl. cbn [decode_loop].
    destruct ((c =? 43) && is_form k) eqn:E1.
    { rewrite andb_true_iff, N.eqb_eq in E1. destruct E1 as [-> F].
      destruct (IH t ltac:(lia) At (buf ++ [32]) r) as [(s & D)|(b & E)]; [left; exists (32 :: s); now constructor|right; eauto]. }
    destruct (N.eqb_spec c 37) as [->|Hc]; cbn [negb].
    2:{ destruct (IH t ltac:(lia) At (buf ++ [c]) r) as [(s & D)|(b & E)]; [left; exists (c :: s)|right; eauto].
        constructor; auto. intros F ->. rewrite F in E1. discriminate. }
    destruct t as [|h1 [|h2 t]]; [right; eauto|right; eauto|]. inversion At as [|? ? A1 At1]; inversion At1; subst.
    destruct (hex_pair h1 h2) as (k0 & d & E & X). rewrite E. cbn [bind]. cbn [length] in Hl.
    destruct (digit_val h1) as [x|] eqn:D1; [|subst; right; cbn; eauto]. destruct (digit_val h2) as [y|] eqn:D2; [|subst; right; cbn; eauto].
    destruct X as [-> X]. cbn [Nat.eqb]. destruct (IH t ltac:(lia) ltac:(auto) (buf ++ firstn 1 d) r) as [(s & D)|(b & E')]; [left|right; eauto].
    exists (16 * x + y :: s). now constructor.
Qed.

Lemma decode_loop_total k eh : forall n t, (length t <= n)%nat -> forall buf r, exists r' b, decode_loop k eh t buf r = Ok (r', b).
Proof.
  induction n as [|n IH]; intros t Hl buf r; [destruct t; [cbn; eauto|cbn in Hl; lia]|].
  destruct t as [|c t]; [cbn; eauto|]. cbn [decode_loop length] in *. destruct ((c =? 43) && is_form k); [apply IH; lia|].
  destruct (negb (c =? 37)); [apply IH; lia|]. destruct t as [|h1 [|h2 t]].
  - destruct eh; eauto. apply IH; cbn; lia.
  - destruct eh; eauto. apply IH; cbn in *; lia.
  - destruct (hex_pair h1 h2) as (k0 & d & E & X). rewrite E. cbn [bind length] in *. destruct (k0 =? 0)%nat; [destruct eh; eauto|]; apply IH; lia.
Qed.

(** Decimal numbers in front of other text. *)
From Coq Require Import QArith.
From Verif Require Import Base.Lib Base.Mem StrNum.Model StrNum.Spec StrNum.Proofs StrNum.Props Decimal.Model Decimal.Spec Decimal.Arith Decimal.Proofs Decimal.Text.
Local Open Scope N_scope.

(** What may follow a number. *)
Definition after_num (r : list N) : Prop :=
  match r with [] => True | c :: _ => ~ (48 <= c <= 57) /\ c <> 46 /\ c <> 101 /\ c <> 69 end.

Lemma after_stops r : after_num r -> stops 10 r.
Proof.
  destruct r as [|c r]; [intros _; exact I|]. intros (H & _) d Hd. cbn in Hd.
  destruct Hd as [[? E]|[? [E|E]]]; lia.
Qed.

Lemma after_head r z : after_num r -> exists c, rd (r ++ 0 :: z) 0 = Ok c /\ c <> 46 /\ is_e c = false.
Proof.
  destruct r as [|c r]; cbn [app rd nth_error]; intros H; eexists; (split; [reflexivity|]); [split; [discriminate|reflexivity]|].
  destruct H as (H1 & H2 & H3 & H4). split; auto. unfold is_e, ct_tolower. apply N.eqb_neq. destruct ((65 <=? c) && (c <=? 90)) eqn:E; lia.
Qed.

Lemma num_point ws fs sg neg rest z : digits_ok ws -> digits_ok fs -> ws <> [] -> fs <> [] -> (length fs <= 255)%nat ->
  sign_text sg neg -> in64 (Z.of_N (value 10 fs)) -> in64 (sgz neg * Z.of_N (value 10 (ws ++ fs))) -> no_nul rest -> after_num rest ->
  let t := sg ++ chars ws ++ 46 :: chars fs in
  exists v k, from_str (t ++ rest ++ 0 :: z) (length (t ++ rest)) = Ok (Success, reduce (mkd v k), Some (rest ++ 0 :: z)) /\
    (k <= 255)%nat /\ (ratio v k == text_ratio neg ws fs)%Q.
Proof.
  intros Fw Ff Nw Nf Lf Hs If Iv Nr An t.
  assert (Et : t ++ rest ++ 0 :: z = sg ++ chars ws ++ (46 :: chars fs ++ rest) ++ 0 :: z) by (unfold t; rewrite <- !app_assoc; cbn [app]; now rewrite <- !app_assoc).
  rewrite value_p10 in Iv. pose proof (p10_pos (length fs)) as Pp.
  set (W := Z.of_N (value 10 ws)) in *. set (F := Z.of_N (value 10 fs)) in *.
  assert (HW : (0 <= W)%Z) by (unfold W; lia). assert (HF : (0 <= F)%Z) by (unfold F; lia).
  assert (IW : in64 (sgz neg * W)) by (unfold sgz, in64, imin, imax in *; destruct neg; nia).
  assert (IWp : in64 (sgz neg * W * p10 (length fs))) by (unfold sgz, in64, imin, imax in *; destruct neg; nia).
  assert (IF' : in64 (sgz neg * F)) by (unfold sgz, in64, imin, imax in *; destruct neg; nia).
  assert (Lt : length (t ++ rest) = length (sg ++ chars ws ++ 46 :: chars fs ++ rest)) by (unfold t; rewrite <- !app_assoc; reflexivity).
  assert (Lt0 : (length (t ++ rest) =? 0)%nat = false).
  { apply Nat.eqb_neq. unfold t. rewrite !app_length. cbn [length]. lia. }
  unfold from_str. rewrite Lt0.
  assert (H0 : exists c0, rd (t ++ rest ++ 0 :: z) 0 = Ok c0 /\ (c0 =? 45) = neg /\ (c0 =? 46) = false).
  { unfold t. destruct ws as [|w0 ws0]; [congruence|]. assert (w0 < 10) by (inversion Fw; auto).
    destruct Hs as [[-> ->]|[[-> ->]|[-> ->]]]; cbn [app chars map rd nth_error]; eexists; (split; [reflexivity|]);
      split; try reflexivity; apply N.eqb_neq; lia. }
  destruct H0 as (c0 & -> & C1 & C2). cbn [bind]. rewrite C1, C2.
  assert (P1 : to_int64_ex (t ++ rest ++ 0 :: z) (length (t ++ rest)) 10 0 = Ok (ISuccess, (sgz neg * W)%Z, Some ((46 :: chars fs ++ rest) ++ 0 :: z))).
  { rewrite Et, Lt. rewrite (int64_digits ws sg neg (46 :: chars fs ++ rest) z 0%Z); auto.
    - rewrite signed. reflexivity.
    - constructor; [lia|]. apply Forall_app. split; [apply chars_no_nul|exact Nr].
    - apply stops_point.
    - rewrite signed. exact IW. }
  rewrite P1. cbn [bind].
  assert (Nd : (length (t ++ rest ++ 0%N :: z) - length ((46%N :: chars fs ++ rest) ++ 0%N :: z))%nat = (length t - S (length fs))%nat).
  { rewrite !app_length. cbn [length]. rewrite !app_length, chars_length. lia. }
  assert (Lg : (S (length fs) < length t)%nat).
  { unfold t. rewrite !app_length. cbn [length]. rewrite !chars_length. destruct ws; [congruence|cbn [length]; lia]. }
  rewrite Nd, app_length. destruct (Nat.ltb_spec (length t - S (length fs)) (length t + length rest)); [|lia].
  cbn [app rd nth_error bind]. change (46 =? 46) with true. cbv iota. rewrite <- app_assoc.
  replace (length t + length rest - S (length t - S (length fs)))%nat with (length (chars fs ++ rest)) by (rewrite app_length, chars_length; lia). cbn [skipn].
  assert (P2 : to_int64_ex (chars fs ++ rest ++ 0 :: z) (length (chars fs ++ rest)) 10 0 = Ok (ISuccess, F, Some (rest ++ 0 :: z))).
  { apply (int64_digits fs [] false rest z 0%Z Ff Nf); auto; [left; auto|now apply after_stops]. }
  assert (Fl : frac_loop (chars fs ++ rest ++ 0 :: z) (length (chars fs ++ rest)) Success 0 None None = Ok (Some (Success, F, Some (rest ++ 0 :: z), Some (rest ++ 0 :: z)))).
  { revert P2. destruct (length (chars fs ++ rest)) as [|lf] eqn:El; [destruct fs; cbn in El; congruence|]. cbn [frac_loop]. intros ->. reflexivity. }
  rewrite Fl. cbn [bind]. destruct (Z.ltb_spec F 0); [lia|].
  assert (Ng : (if neg || (sgz neg * W <? 0)%Z then chk (F * -1) else Ok F) = Ok (sgz neg * F)%Z).
  { unfold sgz in *. destruct neg; cbn [orb].
    - rewrite chk_ok by (replace (F * -1)%Z with (-1 * F)%Z by lia; auto). f_equal. lia.
    - destruct (Z.ltb_spec (1 * W) 0); [lia|]. f_equal. lia. }
  rewrite Ng. cbn [bind].
  assert (Jn : exists v k, join_loop (sgz neg * W) (sgz neg * F)
      (if (sgz neg * F =? 0)%Z then 0%nat else (length (chars fs ++ rest ++ 0%N :: z) - length (rest ++ 0%N :: z))%nat) Success = Ok (v, k, Success) /\
      (k <= 255)%nat /\ (ratio v k == text_ratio neg ws fs)%Q).
  { unfold text_ratio. fold (sgz neg). rewrite value_p10. fold W F.
    destruct (Z.eqb_spec (sgz neg * F) 0) as [E|E].
    - exists (sgz neg * W)%Z, 0%nat. split; [reflexivity|]. split; [lia|].
      assert (F = 0)%Z by (unfold sgz in E; destruct neg; lia). rewrite H1, Z.add_0_r, ratio_eq, p10_0. ring.
    - exists (sgz neg * W * p10 (length fs) + sgz neg * F)%Z, (length fs).
      rewrite app_length, chars_length. replace (length fs + length (rest ++ 0%N :: z) - length (rest ++ 0%N :: z))%nat with (length fs) by lia.
      split; [|split; [auto|]].
      + apply join_ok; auto.
        * destruct fs; [congruence|cbn [length] in *; lia].
        * replace (sgz neg * W * p10 (length fs) + sgz neg * F)%Z with (sgz neg * (W * p10 (length fs) + F))%Z by ring. exact Iv.
      + rewrite ratio_eq. ring. }
  destruct Jn as (v & k & -> & Hk & Q). cbn [bind]. rewrite (Nat.mod_small k) by lia.
  replace (length (t ++ rest ++ 0%N :: z) - length (rest ++ 0%N :: z))%nat with (length t) by (rewrite (app_length t); lia).
  destruct (Nat.ltb_spec (length t) (length t + length rest + 1)); [|lia].
  destruct (after_head rest z An) as (c & -> & _ & Ce). cbn [bind]. rewrite Ce. exists v, k. auto.
Qed.

Lemma num_whole ws sg neg rest z : digits_ok ws -> ws <> [] -> sign_text sg neg -> in64 (sgz neg * Z.of_N (value 10 ws)) -> no_nul rest -> after_num rest ->
  let t := sg ++ chars ws in
  from_str (t ++ rest ++ 0 :: z) (length (t ++ rest)) = Ok (Success, mkd (sgz neg * Z.of_N (value 10 ws)) 0, Some (rest ++ 0 :: z)).
Proof.
  intros Fw Nw Hs Iv Nr An t.
  assert (Et : t ++ rest ++ 0 :: z = sg ++ chars ws ++ rest ++ 0 :: z) by (unfold t; now rewrite <- !app_assoc).
  assert (Lt : length (t ++ rest) = length (sg ++ chars ws ++ rest)) by (unfold t; now rewrite <- !app_assoc).
  set (W := Z.of_N (value 10 ws)) in *.
  assert (Lt0 : (length (t ++ rest) =? 0)%nat = false).
  { apply Nat.eqb_neq. unfold t. rewrite !app_length, chars_length. destruct ws; [congruence|cbn [length]; lia]. }
  unfold from_str. rewrite Lt0.
  assert (H0 : exists c0, rd (t ++ rest ++ 0 :: z) 0 = Ok c0 /\ (c0 =? 45) = neg /\ (c0 =? 46) = false).
  { unfold t. destruct ws as [|w0 ws0]; [congruence|]. assert (w0 < 10) by (inversion Fw; auto).
    destruct Hs as [[-> ->]|[[-> ->]|[-> ->]]]; cbn [app chars map rd nth_error]; eexists; (split; [reflexivity|]);
      split; try reflexivity; apply N.eqb_neq; lia. }
  destruct H0 as (c0 & -> & C1 & C2). cbn [bind]. rewrite C1, C2.
  assert (P1 : to_int64_ex (t ++ rest ++ 0 :: z) (length (t ++ rest)) 10 0 = Ok (ISuccess, (sgz neg * W)%Z, Some (rest ++ 0 :: z))).
  { rewrite Et, Lt. rewrite (int64_digits ws sg neg rest z 0%Z); auto.
    - rewrite signed. reflexivity.
    - now apply after_stops.
    - rewrite signed. exact Iv. }
  rewrite P1. cbn [bind].
  replace (length (t ++ rest ++ 0%N :: z) - length (rest ++ 0%N :: z))%nat with (length t) by (rewrite (app_length t); lia).
  destruct (after_head rest z An) as (c & Ec & C46 & Ce).
  assert (Dot : (if (length t <? length (t ++ rest))%nat then do ' c <- rd (rest ++ 0 :: z) 0; Ok (c =? 46) else Ok false) = Ok false).
  { rewrite Ec. cbn [bind]. rewrite (proj2 (N.eqb_neq c 46) C46). now destruct (_ <? _)%nat. }
  rewrite Dot. cbn [bind]. change (0 =? 0)%Z with true. cbv iota. cbn [join_loop bind].
  replace (length (t ++ rest ++ 0%N :: z) - length (rest ++ 0%N :: z))%nat with (length t) by (rewrite (app_length t); lia).
  destruct (Nat.ltb_spec (length t) (length (t ++ rest) + 1)); [|rewrite app_length in *; lia]. rewrite Ec. cbn [bind]. rewrite Ce.
  change (0 mod 256)%nat with 0%nat. reflexivity.
Qed.

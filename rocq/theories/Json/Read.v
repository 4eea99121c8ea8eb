(** Reading the texts of the grammar. *)
From Coq Require Import QArith.
From Verif Require Import Base.Lib Base.Mem Hex.Model StrNum.Model StrNum.Spec StrNum.Proofs Utf8.Model Utf8.Spec Utf8.Proofs Utf8.Text Utf8.Props.
From Verif Require Import Decimal.Model Decimal.Spec Decimal.Arith Decimal.Proofs Decimal.Text Json.Model Json.Spec Json.Number.
Local Open Scope N_scope.

Ltac neqb := repeat match goal with H : ?a <> ?b |- context [?a =? ?b] => rewrite (proj2 (N.eqb_neq a b) H) end.

Lemma consume_app n (a b : list N) : length a = n -> consume n (a ++ b) = b.
Proof. intros <-. unfold consume. rewrite app_length, (proj2 (Nat.leb_le _ _)) by lia. rewrite skipn_app, skipn_all, Nat.sub_diag. reflexivity. Qed.
Lemma consume1 c s : consume 1 (c :: s) = s.
Proof. reflexivity. Qed.

(** ** White space and comments *)
Definition not_ign (u : list N) : Prop := match u with [] => True | c :: _ => chr_isspace c = false /\ c <> 47 end.

Lemma eat_ws_stop u : not_ign u -> eat_ws u = u.
Proof. destruct u as [|c u]; auto. intros [H _]. cbn. now rewrite H. Qed.

Lemma eat_ws_ign cm w u : Ign cm w -> not_ign u ->
  exists w', eat_ws (w ++ u) = w' ++ u /\ Ign cm w' /\ (length w' <= length w)%nat /\ match w' with [] => True | c :: _ => c = 47 end.
Proof.
  intros I Hu. induction I as [|c w Hc I IH|b w C Hb I IH|b w C Hb I IH].
  - exists []. split; [now apply eat_ws_stop|]. split; [constructor|]. auto.
  - destruct IH as (w' & E & I' & L & H). exists w'. split; [|split; auto; split; auto; cbn; lia].
    cbn. assert (S : chr_isspace c = true) by (destruct Hc as [->|[->|[->| ->]]]; reflexivity). now rewrite S.
  - exists (47 :: 42 :: b ++ 42 :: 47 :: w). split; [reflexivity|]. split; [now constructor|]. auto.
  - exists (47 :: 47 :: b ++ 10 :: w). split; [reflexivity|]. split; [now constructor|]. auto.
Qed.

Lemma after_close_ok b r : (forall x y, b <> x ++ 42 :: 47 :: y) -> after_close (b ++ 42 :: 47 :: r) = Some r.
Proof.
  induction b as [|c b IH]; intros H; [reflexivity|]. cbn [app after_close].
  assert (Hb : forall x y, b <> x ++ 42 :: 47 :: y) by (intros x y ->; now apply (H (c :: x) y)). specialize (IH Hb).
  destruct b as [|d b].
  - cbn [app] in *. replace ((c =? 42) && (42 =? 47)) with false by (now rewrite andb_false_r). exact IH.
  - cbn [app] in *. destruct ((c =? 42) && (d =? 47)) eqn:E; [|exact IH]. apply andb_prop in E. destruct E as [E1 E2]. apply N.eqb_eq in E1, E2. subst. exfalso. now apply (H [] b).
Qed.

Lemma eat_eol_ok b r : ~ In 10 b -> eat_eol (b ++ 10 :: r) = r.
Proof. induction b as [|c b IH]; intros H; [reflexivity|]. cbn. destruct (N.eqb_spec c 10) as [->|]; [exfalso; apply H; now left|]. apply IH. intros X. apply H. now right. Qed.

Lemma eat_comment_stop u : not_ign u -> eat_comment u = inr u.
Proof. destruct u as [|c [|d u]]; auto. intros [_ H]. cbn. neqb. reflexivity. Qed.

Lemma eat_comment_ign cm w u : Ign cm w -> match w with [] => False | c :: _ => c = 47 end ->
  exists w', eat_comment (w ++ u) = inr (w' ++ u) /\ Ign cm w' /\ (length w' < length w)%nat.
Proof.
  intros I H. destruct I as [|c w Hc I|b w C Hb I|b w C Hb I]; [destruct H|lia| |].
  - exists w. split; [|split; auto; cbn; rewrite app_length; cbn; lia]. cbn [app eat_comment N.eqb Pos.eqb negb]. rewrite <- app_assoc. cbn [app]. now rewrite after_close_ok.
  - exists w. split; [|split; auto; cbn; rewrite app_length; cbn; lia]. cbn [app eat_comment N.eqb Pos.eqb negb eat_eol]. rewrite <- app_assoc. cbn [app]. now rewrite eat_eol_ok.
Qed.

Lemma eat_loop_ok cm u : not_ign u -> forall k w fuel, (length w <= k)%nat -> (k < fuel)%nat -> Ign cm w -> eat_loop fuel (w ++ u) = Ok (inr u).
Proof.
  intros Hu. induction k as [|k IH]; intros w fuel Hk Hf I; (destruct fuel as [|fuel]; [lia|]); cbn [eat_loop];
    destruct (eat_ws_ign cm w u I Hu) as (w1 & -> & I1 & L1 & H1).
  - destruct w1 as [|c1 w1]; [|cbn in L1; lia]. cbn [app]. rewrite eat_comment_stop, eat_ws_stop by auto. destruct u as [|c u]; auto. destruct Hu as [_ Hc]. neqb. reflexivity.
  - destruct w1 as [|c1 w1].
    + cbn [app]. rewrite eat_comment_stop, eat_ws_stop by auto. destruct u as [|c u]; auto. destruct Hu as [_ Hc]. neqb. reflexivity.
    + destruct (eat_comment_ign cm (c1 :: w1) u I1 H1) as (w2 & -> & I2 & L2).
      destruct (eat_ws_ign cm w2 u I2 Hu) as (w3 & -> & I3 & L3 & H3). destruct w3 as [|c3 w3].
      * cbn [app]. destruct u as [|c u]; auto. destruct Hu as [_ Hc]. neqb. reflexivity.
      * cbn iota beta in H3. subst c3. cbn zeta. cbn [app]. change (47 =? 47) with true. cbn [andb].
        rewrite (proj2 (Nat.eqb_neq _ _)) by (cbn [length] in *; rewrite !app_length; lia). cbn [negb]. apply (IH (47 :: w3)); auto; cbn [length] in *; lia.
Qed.

Lemma eat_ignored_ok fl w u : Ign (negb (r_nocomment fl)) w -> not_ign u -> eat_ignored fl (w ++ u) = Ok (inr u).
Proof.
  intros I Hu. unfold eat_ignored. destruct (r_nocomment fl) eqn:E.
  - cbn [negb] in I. destruct (eat_ws_ign false w u I Hu) as (w' & -> & I' & _ & H). destruct w' as [|c w']; auto. inversion I' as [|? ? Hc|? ? C|? ? C]; subst; [lia|discriminate C..].
  - apply (eat_loop_ok (negb false)) with (k := length w); auto. rewrite app_length. lia.
Qed.
Lemma eat_stop fl u : not_ign u -> eat_ignored fl u = Ok (inr u).
Proof. apply (eat_ignored_ok fl []). constructor. Qed.

(** ** Strings *)
Section Strings.
Variable tail : list N.
Variable fl : rflags.
Hypothesis decode : r_nodecode fl = false.

Lemma hexval_digit h d : hexval h d -> chr_ishex h = true /\ digit_of h = d /\ d < 16 /\ h <> 0 /\ chr_isspace h = false /\ h <> 45 /\ h <> 43 /\ h <> 120 /\ h <> 88.
Proof.
  unfold hexval. intros H.
  assert (B : chr_ishex h = true /\ digit_of h = d /\ d < 16 /\ h <> 0 /\ 48 <= h <= 102 /\ h <> 88).
  { unfold chr_ishex, digit_of. destruct H as [[B ->]|[[B ->]|[B ->]]];
    repeat match goal with |- context [?a <=? ?b] => rewrite (proj2 (N.leb_le a b)) by lia end;
    repeat match goal with |- context [?a <=? ?b] => rewrite (proj2 (N.leb_gt a b)) by lia end; cbn [andb orb]; repeat split; lia. }
  destruct B as (B1 & B2 & B3 & B4 & B5 & B6). split; [exact B1|]. split; [exact B2|]. split; [exact B3|]. split; [exact B4|].
  split; [|lia]. unfold chr_isspace. repeat match goal with |- context [h =? ?b] => rewrite (proj2 (N.eqb_neq h b)) by lia end. reflexivity.
Qed.

Lemma unicode_ok h1 h2 h3 h4 d1 d2 d3 d4 r : hexval h1 d1 -> hexval h2 d2 -> hexval h3 d3 -> hexval h4 d4 ->
  let cp := ((d1 * 16 + d2) * 16 + d3) * 16 + d4 in code_cp cp ->
  unicode tail (92 :: 117 :: h1 :: h2 :: h3 :: h4 :: r) = Ok (Some (utf8_enc cp)).
Proof.
  intros H1 H2 H3 H4 cp V.
  apply hexval_digit in H1 as (A1 & B1 & C1 & D1 & E1 & F1 & G1 & _), H2 as (A2 & B2 & C2 & D2 & E2 & F2 & G2 & X2 & Y2), H3 as (A3 & B3 & C3 & D3 & _), H4 as (A4 & B4 & C4 & D4 & _).
  unfold unicode. cbn [length Nat.ltb Nat.leb app skipn ishex_max rd nth_error bind]. neqb. rewrite A1. cbn [skipn rd nth_error bind]. neqb. rewrite A2. cbn [skipn rd nth_error bind]. neqb. rewrite A3.
  cbn [skipn rd nth_error bind]. neqb. rewrite A4. cbn [bind negb]. unfold to_uint32_ex, to_uint64_ex. cbn [Nat.eqb].
  assert (P : intconv_prep (h1 :: h2 :: h3 :: h4 :: r ++ tail) 4 16 = Ok (h1 :: h2 :: h3 :: h4 :: r ++ tail, 4%nat, 16, false)).
  { unfold intconv_prep. cbn [eat_whitespace rd nth_error bind]. rewrite E1. cbn [bind str_sign rd nth_error]. neqb. cbn [orb bind N.eqb Pos.eqb andb Nat.leb].
    unfold str_eq_max_int, lit_0x. cbn [str_eq_max_loop rd nth_error bind skipn]. neqb. cbn [N.eqb Pos.eqb bind]. reflexivity. }
  rewrite P. cbn [bind]. unfold to_uint64_int. change ((16 <? 2) || (36 <? 16)) with false. cbv iota.
  cbn [digit_loop rd nth_error bind skipn]. neqb. rewrite B1, B2, B3, B4.
  rewrite (proj2 (N.leb_gt 16 d1)), (proj2 (N.leb_gt 16 d2)), (proj2 (N.leb_gt 16 d3)), (proj2 (N.leb_gt 16 d4)) by auto. unfold w64. change (2 ^ 64) with 18446744073709551616.
  rewrite !(N.mod_small (0 * 16 + d1)) by lia. rewrite !(N.mod_small ((0 * 16 + d1) * 16 + d2)) by lia. rewrite !(N.mod_small (((0 * 16 + d1) * 16 + d2) * 16 + d3)) by lia.
  rewrite !(N.mod_small ((((0 * 16 + d1) * 16 + d2) * 16 + d3) * 16 + d4)) by lia.
  replace (0 * 16 + d1) with d1 by lia. fold cp.
  rewrite (proj2 (N.ltb_ge d1 0)) by lia. rewrite (proj2 (N.ltb_ge (d1 * 16 + d2) d1)) by lia. rewrite (proj2 (N.ltb_ge ((d1 * 16 + d2) * 16 + d3) (d1 * 16 + d2))) by lia.
  rewrite (proj2 (N.ltb_ge cp ((d1 * 16 + d2) * 16 + d3))) by (unfold cp; lia). cbn [orb bind length].
  rewrite (proj2 (Nat.eqb_neq _ _)) by lia. cbn [bind]. change (2 ^ 32 - 1) with 4294967295. rewrite (proj2 (N.ltb_ge 4294967295 cp)) by (unfold cp; lia). cbn [bind].
  rewrite utf8_from_cp_writes by (cbn; lia). rewrite (proj2 (is_valid_cp_iff cp) V).
  assert (L : (length (utf8_enc cp) <= 4)%nat) by (unfold utf8_enc; repeat destruct (_ <? _); cbn; lia).
  rewrite (proj2 (Nat.leb_le _ _)) by lia. cbn [bind]. rewrite firstn_app, firstn_all, Nat.sub_diag, firstn_O, app_nil_r. reflexivity.
Qed.

Lemma string_loop_ok t v : Chars t v -> forall f r buf cp, (length t < f)%nat -> cp <> 92 -> string_loop tail fl f (t ++ 34 :: r) buf cp = Ok (inr (buf ++ v, 34 :: r)).
Proof.
  induction 1 as [|c t v H1 H2 H3 C IH|e c t v He C IH|h1 h2 h3 h4 d1 d2 d3 d4 cp t v A1 A2 A3 A4 Ec Nz V C IH]; intros f r buf p Hf Hp; (destruct f as [|f]; [cbn in Hf; lia|]).
  - cbn [app string_loop]. now rewrite N.eqb_refl, app_nil_r.
  - cbn [app string_loop]. neqb. cbn [orb]. rewrite (proj2 (N.ltb_ge c 32) H1). neqb. rewrite consume1. rewrite IH by (auto; cbn in Hf; lia). now rewrite <- app_assoc.
  - cbn [app string_loop N.eqb Pos.eqb orb]. neqb. cbn [N.ltb N.compare Pos.compare Pos.compare_cont length Nat.leb nth].
    assert (E2 : forall s, consume 2 (92 :: e :: s) = s) by reflexivity. rewrite !E2. cbn [length] in Hf.
    destruct He as [[-> ->]|[[-> ->]|[[-> ->]|[[-> ->]|[[-> ->]|[[-> ->]|[[-> ->]|[-> ->]]]]]]]]; cbn [N.eqb Pos.eqb orb]; (rewrite IH; [now rewrite <- app_assoc|lia|discriminate]).
  - cbn [app string_loop N.eqb Pos.eqb orb]. neqb. cbn [N.ltb N.compare Pos.compare Pos.compare_cont length Nat.leb nth]. cbn [N.eqb Pos.eqb orb].
    subst cp. rewrite (unicode_ok _ _ _ _ d1 d2 d3 d4) by auto. cbn [bind]. rewrite decode.
    match goal with |- context [consume 2 (consume 4 ?s)] => change (consume 2 (consume 4 s)) with (t ++ 34 :: r) end.
    cbn [length] in Hf. rewrite IH; [now rewrite <- app_assoc|lia|discriminate].
Qed.

Lemma upto_nul_id s : no_nul s -> upto_nul s = s.
Proof. induction 1 as [|c s Hc F IH]; auto. cbn. neqb. now rewrite IH. Qed.

Lemma chars_no_nul' t v : Chars t v -> no_nul v.
Proof.
  induction 1 as [|c t v H1 H2 H3 C IH|e c t v He C IH|h1 h2 h3 h4 d1 d2 d3 d4 cp t v A1 A2 A3 A4 Ec Nz V C IH]; unfold no_nul in *.
  - constructor.
  - constructor; auto. lia.
  - constructor; auto. unfold escape in He. lia.
  - apply Forall_app. split; auto. now apply enc_no_nul.
Qed.

Lemma read_string_ok t v r : Chars t v -> read_string tail fl (34 :: t ++ 34 :: r) = Ok (inr (v, r)).
Proof.
  intros C. unfold read_string. rewrite consume1. rewrite (string_loop_ok t v C) by (cbn; rewrite ?app_length; cbn; try lia; discriminate). cbn [bind app N.eqb Pos.eqb].
  rewrite consume1, upto_nul_id by (eapply chars_no_nul'; eauto). reflexivity.
Qed.
End Strings.

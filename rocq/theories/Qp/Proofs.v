From Verif Require Import Base.Lib Base.Mem Hex.Model Hex.Spec Hex.Proofs StrNum.Model Percent.Model Percent.Proofs Qp.Model Qp.Spec.
Local Open Scope N_scope.

(** ** Reading two characters as a number *)

Lemma digit_of_val c : digit_of c <? 16 = match digit_val c with Some _ => true | None => false end.
Proof.
  unfold digit_of, digit_val.
  destruct ((48 <=? c) && (c <=? 57)) eqn:E1; [lia|].
  destruct ((97 <=? c) && (c <=? 122)) eqn:E2; destruct ((65 <=? c) && (c <=? 90)) eqn:E3;
  destruct ((65 <=? c) && (c <=? 70)) eqn:E4; destruct ((97 <=? c) && (c <=? 102)) eqn:E5; lia.
Qed.
Lemma digit_of_some c x : digit_val c = Some x -> digit_of c = x /\ x < 16 /\ c <> 0 /\ c <> 120 /\ c <> 88 /\ c <> 43 /\ c <> 45 /\ chr_isspace c = false.
Proof.
  unfold digit_of, digit_val, chr_isspace. intros H.
  destruct ((48 <=? c) && (c <=? 57)) eqn:E1; [injection H as <-; lia|].
  destruct ((65 <=? c) && (c <=? 70)) eqn:E4; [injection H as <-|].
  { replace ((97 <=? c) && (c <=? 122)) with false by lia. replace ((65 <=? c) && (c <=? 90)) with true by lia. lia. }
  destruct ((97 <=? c) && (c <=? 102)) eqn:E5; [injection H as <-|discriminate].
  replace ((97 <=? c) && (c <=? 122)) with true by lia. lia.
Qed.
Lemma digit_of_none c : digit_val c = None -> 16 <=? digit_of c = true.
Proof. intros H. assert (E := digit_of_val c). rewrite H in E. lia. Qed.

(** One or two digits at the start of [s]. *)
Lemma run2 a b r x y : digit_val a = Some x -> digit_val b = Some y ->
  digit_loop (a :: b :: r) 2 16 0 false = Ok (16 * x + y, false, r).
Proof.
  intros Ha Hb. destruct (digit_of_some _ _ Ha) as (A1 & A2 & A3 & _), (digit_of_some _ _ Hb) as (B1 & B2 & B3 & _).
  cbn [digit_loop rd nth_error bind skipn]. rewrite (proj2 (N.eqb_neq a 0)), (proj2 (N.eqb_neq b 0)) by auto. rewrite A1, B1.
  rewrite (proj2 (N.leb_gt 16 x)), (proj2 (N.leb_gt 16 y)) by auto. unfold w64.
  rewrite !N.mod_small; try (rewrite ?N.mod_small; clear - A2 B2; lia). do 2 f_equal; [f_equal; [lia|]].
  cbn [orb]. apply orb_false_iff. split; apply N.ltb_ge; lia.
Qed.
Lemma run1 a s x n : digit_val a = Some x -> n = 1%nat \/ (exists b r, s = b :: r /\ digit_val b = None) ->
  (1 <= n)%nat -> digit_loop (a :: s) n 16 0 false = Ok (x, false, s).
Proof.
  intros Ha H Hn. destruct (digit_of_some _ _ Ha) as (A1 & A2 & A3 & _). destruct n as [|n]; [lia|].
  cbn [digit_loop rd nth_error bind skipn]. rewrite (proj2 (N.eqb_neq a 0)) by auto. rewrite A1, (proj2 (N.leb_gt 16 x)) by auto.
  unfold w64. rewrite !N.mod_small by (clear - A2; lia). replace (0 * 16 + x) with x by lia. replace (x <? 0) with false by lia. cbn [orb].
  destruct n as [|n]; [reflexivity|]. destruct H as [H|(b & r & -> & Hb)]; [lia|].
  cbn [digit_loop rd nth_error bind skipn]. destruct (b =? 0); [reflexivity|]. now rewrite digit_of_none.
Qed.
Lemma run0 a s n : digit_val a = None -> digit_loop (a :: s) n 16 0 false = Ok (0, false, a :: s).
Proof.
  intros Ha. destruct n as [|n]; [reflexivity|].
  cbn [digit_loop rd nth_error bind skipn]. destruct (a =? 0); [reflexivity|]. now rewrite digit_of_none.
Qed.

Definition read2 (a b : N) : option (Z * nat) :=
  match digit_val a, digit_val b with
  | Some x, Some y => Some (Z.of_N (16 * x + y), 2%nat)
  | Some x, None => if (a =? 48) && ((b =? 120) || (b =? 88)) then None else Some (Z.of_N x, 1%nat)
  | None, Some y => if chr_isspace a || (a =? 43) then Some (Z.of_N y, 2%nat) else if a =? 45 then Some ((- Z.of_N y)%Z, 2%nat) else None
  | None, None => None
  end.

Lemma tolower_0 c : ct_tolower c = 48 <-> c = 48.
Proof. unfold ct_tolower. destruct ((65 <=? c) && (c <=? 90)) eqn:E; lia. Qed.
Lemma tolower_x c : ct_tolower c = 120 <-> c = 120 \/ c = 88.
Proof. unfold ct_tolower. destruct ((65 <=? c) && (c <=? 90)) eqn:E; lia. Qed.

Lemma eq0x a b r : str_eq_max_int ct_tolower (a :: b :: r) lit_0x 2 = Ok ((a =? 48) && ((b =? 120) || (b =? 88))).
Proof.
  unfold str_eq_max_int, lit_0x. cbn [str_eq_max_loop rd nth_error bind skipn].
  destruct (N.eqb_spec a 0) as [->|Ha]; [reflexivity|]. cbn [N.eqb].
  destruct (N.eqb_spec b 0) as [->|Hb]; [cbn [N.eqb Pos.eqb orb]; rewrite andb_false_r; match goal with |- context [negb ?x] => destruct (negb x) end; reflexivity|].
  f_equal. apply eq_true_iff_eq. rewrite N.eqb_eq, andb_true_iff, orb_true_iff, !N.eqb_eq, !N.lor_eq_0_iff, !N.lxor_eq_0_iff.
  change (ct_tolower 48) with 48. change (ct_tolower 120) with 120. rewrite tolower_0, tolower_x. tauto.
Qed.

Lemma prep_two a b r : digit_val a <> None -> intconv_prep (a :: b :: r) 2 16 =
  if (a =? 48) && ((b =? 120) || (b =? 88)) then Ok (r, 0%nat, 16, false) else Ok (a :: b :: r, 2%nat, 16, false).
Proof.
  intros H. destruct (digit_val a) as [x|] eqn:Ha; [|congruence]. destruct (digit_of_some _ _ Ha) as (_ & _ & _ & _ & _ & A1 & A2 & A3).
  unfold intconv_prep. cbn [eat_whitespace rd nth_error bind]. rewrite A3. cbn [bind str_sign rd nth_error].
  rewrite (proj2 (N.eqb_neq a 45)), (proj2 (N.eqb_neq a 43)) by auto. cbn [orb bind N.eqb Pos.eqb andb Nat.leb]. rewrite eq0x. cbn [bind].
  now destruct ((a =? 48) && _).
Qed.

(** What is left after white space and a sign has at most one character. *)
Lemma tail1 s n neg : (n <= 1)%nat -> s <> [] -> forall s0 len0, intconv_prep s0 len0 16 = Ok (s, n, 16, neg) -> (len0 =? 0)%nat = false ->
  to_int64_ex s0 len0 16 0 =
  match s with
  | b :: r => match digit_val b, n with
              | Some y, 1%nat => Ok (ISuccess, if neg then (- Z.of_N y)%Z else Z.of_N y, Some r)
              | _, _ => Ok (IInvalid, 0%Z, Some s)
              end
  | [] => UB
  end.
Proof.
  intros Hn Hs s0 len0 E E0. unfold to_int64_ex. rewrite E0, E. cbn [bind]. destruct s as [|b r]; [congruence|].
  unfold to_uint64_int. replace ((16 <? 2) || (36 <? 16)) with false by reflexivity.
  assert (D0 : forall k, digit_val b = None \/ k = 0%nat -> digit_loop (b :: r) k 16 0 false = Ok (0, false, b :: r)).
  { intros k [H| ->]; [now apply run0|reflexivity]. }
  destruct (digit_val b) as [y|] eqn:Hb.
  - destruct n as [|[|n]]; [rewrite D0 by auto|rewrite (run1 b r y 1 Hb) by auto|lia].
    + cbn [bind]. rewrite Nat.eqb_refl. cbn [bind]. destruct neg; reflexivity.
    + destruct (digit_of_some _ _ Hb) as (_ & Y & _). cbn [bind length]. replace (length r =? S (length r))%nat with false by (symmetry; apply Nat.eqb_neq; lia).
      cbn [bind]. replace (2 ^ 63 <? y) with false by (clear - Y; lia). replace (2 ^ 63 - 1 <? y) with false by (clear - Y; lia).
      rewrite !andb_false_r. unfold to_int64, w64. destruct neg.
      * destruct (N.eqb_spec y 0) as [->|]; [reflexivity|]. rewrite N.mod_small by (clear - Y n; lia).
        replace (2 ^ 64 - y <? 2 ^ 63) with false by (clear - Y; lia). do 3 f_equal. clear - Y. lia.
      * replace (y <? 2 ^ 63) with true by (clear - Y; lia). reflexivity.
  - rewrite D0 by auto. cbn [bind]. rewrite Nat.eqb_refl. cbn [bind]. destruct n, neg; reflexivity.
Qed.

Lemma read2_ok a b r : r <> [] ->
  match read2 a b with
  | Some (v, k) => to_int64_ex (a :: b :: r) 2 16 0 = Ok (ISuccess, v, Some (skipn k (a :: b :: r)))
  | None => exists v p, to_int64_ex (a :: b :: r) 2 16 0 = Ok (IInvalid, v, p)
  end.
Proof.
  intros Hr. unfold read2. destruct (digit_val a) as [x|] eqn:Ha.
  - destruct (digit_of_some _ _ Ha) as (_ & X & _). destruct ((a =? 48) && ((b =? 120) || (b =? 88))) eqn:E0.
    + assert (Hb : digit_val b = None).
      { rewrite andb_true_iff, orb_true_iff, !N.eqb_eq in E0. destruct E0 as [_ [->| ->]]; reflexivity. }
      rewrite Hb. rewrite (tail1 r 0 false) by (auto; rewrite prep_two by congruence; now rewrite E0).
      destruct r as [|c r]; [congruence|]. destruct (digit_val c); eauto.
    + unfold to_int64_ex. cbn [Nat.eqb]. rewrite prep_two by congruence. rewrite E0. cbn [bind]. unfold to_uint64_int.
      replace ((16 <? 2) || (36 <? 16)) with false by reflexivity.
      destruct (digit_val b) as [y|] eqn:Hb.
      * destruct (digit_of_some _ _ Hb) as (_ & Y & _). rewrite (run2 a b r x y) by auto. cbn [bind length].
        replace (length r =? S (S (length r)))%nat with false by (symmetry; apply Nat.eqb_neq; lia). cbn [bind andb negb].
        replace (2 ^ 63 - 1 <? 16 * x + y) with false by (clear - X Y; lia). unfold to_int64.
        replace (16 * x + y <? 2 ^ 63) with true by (clear - X Y; lia). reflexivity.
      * rewrite (run1 a (b :: r) x 2) by eauto. cbn [bind length].
        replace (S (length r) =? S (S (length r)))%nat with false by (symmetry; apply Nat.eqb_neq; lia). cbn [bind andb negb].
        replace (2 ^ 63 - 1 <? x) with false by (clear - X; lia). unfold to_int64.
        replace (x <? 2 ^ 63) with true by (clear - X; lia). reflexivity.
  - destruct (chr_isspace a) eqn:Sa.
    + (* white space first *)
      assert (P : exists s n neg, intconv_prep (a :: b :: r) 2 16 = Ok (s, n, 16, neg) /\ (n <= 1)%nat /\ s <> [] /\
                (digit_val b <> None -> s = b :: r /\ n = 1%nat /\ neg = false) /\ (digit_val b = None -> n = 0%nat \/ s = b :: r)).
      { unfold intconv_prep. cbn [eat_whitespace rd nth_error bind]. rewrite Sa. cbn [skipn].
        destruct (chr_isspace b) eqn:Sb.
        - assert (Hb : digit_val b = None) by (destruct (digit_val b) as [y|] eqn:Hb; auto; apply digit_of_some in Hb; intuition congruence).
          rewrite Hb. destruct r as [|c r]; [congruence|]. cbn [eat_whitespace rd nth_error bind skipn]. rewrite Sb. cbn [eat_whitespace rd nth_error bind skipn].
          destruct (chr_isspace c); cbn [bind str_sign N.eqb Pos.eqb andb Nat.leb]; do 3 eexists; (split; [reflexivity|]); repeat split; try congruence; auto.
        - cbn [eat_whitespace rd nth_error bind skipn]. rewrite ?Sb. cbn [bind str_sign rd nth_error]. destruct ((b =? 45) || (b =? 43)) eqn:E; cbn [bind N.eqb Pos.eqb andb Nat.leb]; do 3 eexists; (split; [reflexivity|]).
          + assert (Hb : digit_val b = None) by (rewrite orb_true_iff, !N.eqb_eq in E; destruct E as [->| ->]; reflexivity).
            rewrite Hb. repeat split; try congruence; auto.
          + repeat split; try congruence; auto. }
      destruct P as (s & n & neg & P & Hn & Hs & P1 & P2). rewrite (tail1 s n neg Hn Hs _ _ P) by reflexivity. cbn [orb].
      destruct (digit_val b) as [y|] eqn:Hb.
      * destruct P1 as (-> & -> & ->); [congruence|]. now rewrite Hb.
      * destruct P2 as [->| ->]; auto; [|rewrite Hb; eauto]. destruct s as [|c s]; [congruence|]. destruct (digit_val c); eauto.
    + (* a sign or something else first *)
      assert (P : exists n, intconv_prep (a :: b :: r) 2 16 = Ok (skipn n (a :: b :: r), (2 - n)%nat, 16, a =? 45) /\
                            (if (a =? 45) || (a =? 43) then n = 1%nat else n = 0%nat)).
      { unfold intconv_prep. cbn [eat_whitespace rd nth_error bind]. rewrite Sa. cbn [bind str_sign rd nth_error].
        destruct ((a =? 45) || (a =? 43)) eqn:E; cbn [bind N.eqb Pos.eqb andb Nat.leb].
        - exists 1%nat. auto.
        - exists 0%nat. rewrite eq0x. cbn [bind]. replace ((a =? 48) && ((b =? 120) || (b =? 88))) with false.
          + apply orb_false_iff in E. destruct E as [-> _]. auto.
          + destruct (N.eqb_spec a 48) as [->|]; [discriminate Ha|reflexivity]. }
      destruct P as (n & P & Hn). cbn [orb]. destruct ((a =? 45) || (a =? 43)) eqn:E.
      * subst n. rewrite (tail1 (b :: r) 1 (a =? 45)) by (auto; discriminate).
        destruct (digit_val b) as [y|]; [|eauto]. destruct (N.eqb_spec a 43) as [->|]; [reflexivity|].
        destruct (N.eqb_spec a 45) as [->|]; [reflexivity|discriminate E].
      * subst n. apply orb_false_iff in E. destruct E as [E1 E2]. rewrite E1, E2.
        replace (match digit_val b with Some _ | _ => None end) with (@None (Z * nat)) by (destruct (digit_val b); reflexivity).
        unfold to_int64_ex. cbn [Nat.eqb]. rewrite P. cbn [bind skipn]. unfold to_uint64_int.
        replace ((16 <? 2) || (36 <? 16)) with false by reflexivity. rewrite run0 by auto. cbn [bind]. rewrite Nat.eqb_refl. cbn [bind]. rewrite E1. do 2 eexists. reflexivity.
Qed.

(** ** The decoder *)

Lemma decode_plain f eh c t buf r : c <> 61 -> qp_decode_loop (S f) eh (c :: t) buf r = qp_decode_loop (S f) eh t (buf ++ [c]) r.
Proof.
  intros H. cbn [qp_decode_loop index_eq]. rewrite (proj2 (N.eqb_neq c 61)) by auto.
  destruct t as [|d t]; [reflexivity|]. destruct (index_eq (d :: t)) as [n|]; cbn [option_map].
  - change (firstn (S n) (c :: d :: t)) with (c :: firstn n (d :: t)). change (skipn (S (S n)) (c :: d :: t)) with (skipn (S n) (d :: t)).
    change (c :: firstn n (d :: t)) with ([c] ++ firstn n (d :: t)). rewrite (app_assoc buf [c]). reflexivity.
  - now rewrite <- app_assoc.
Qed.

Lemma decode_soft f eh t buf r : qp_decode_loop (S f) eh (61 :: 13 :: 10 :: t) buf r = qp_decode_loop f eh t buf r.
Proof. cbn [qp_decode_loop index_eq N.eqb Pos.eqb skipn firstn andb]. now rewrite app_nil_r. Qed.

Lemma decode_pair f eh a b t buf r : (a =? 13) && (b =? 10) = false -> qp_decode_loop (S f) eh (61 :: a :: b :: t) buf r =
  match read2 a b with
  | Some (v, k) => qp_decode_loop f eh (skipn k (a :: b :: t)) (buf ++ [Z.to_N (v mod 256)]) r
  | None => match eh with
            | EFail => Ok (TFail, buf)
            | EReplace => qp_decode_loop f eh (a :: b :: t) (buf ++ [255; 253]) TSuccessEh
            | EIgnore => qp_decode_loop f eh (a :: b :: t) buf TSuccessEh
            end
  end.
Proof.
  intros H. cbn [qp_decode_loop index_eq N.eqb Pos.eqb skipn firstn]. rewrite H, app_nil_r.
  change ((a :: b :: t) ++ [0]) with (a :: b :: (t ++ [0])). assert (R := read2_ok a b (t ++ [0])).
  assert (K : forall v k, read2 a b = Some (v, k) -> (k = 1 \/ k = 2)%nat).
  { intros v k. unfold read2. destruct (digit_val a), (digit_val b); try discriminate; repeat match goal with |- context [if ?x then _ else _] => destruct x end;
    try discriminate; intros E; injection E as <- <-; auto. }
  destruct (read2 a b) as [[v k]|].
  - rewrite R by (now destruct t). cbn [bind]. f_equal. destruct (K v k eq_refl) as [->| ->]; cbn [skipn length]; rewrite app_length; cbn [length].
    + replace (S (S (length t)) + 1 - S (length t + 1))%nat with 1%nat by lia. reflexivity.
    + replace (S (S (length t)) + 1 - (length t + 1))%nat with 2%nat by lia. reflexivity.
  - destruct R as (v & p & ->); [now destruct t|]. reflexivity.
Qed.

Lemma read2_none_or a b : read2 a b = None \/ exists v k, read2 a b = Some (v, k) /\ (k = 1 \/ k = 2)%nat.
Proof.
  unfold read2. destruct (digit_val a), (digit_val b); repeat match goal with |- context [if ?x then _ else _] => destruct x end; eauto 8.
Qed.

(** The decoder always ends. *)
Lemma decode_total eh : forall n t, (length t <= n)%nat -> forall f buf r, (length t < f)%nat -> exists r' b, qp_decode_loop f eh t buf r = Ok (r', b).
Proof.
  induction n as [|n IH]; intros t Hn f buf r Hf; (destruct f as [|f]; [lia|]).
  - destruct t; [cbn; eauto|cbn in Hn; lia].
  - destruct t as [|c t]; [cbn; eauto|]. cbn [length] in *. destruct (N.eq_dec c 61) as [->|Hc].
    2:{ rewrite decode_plain by auto. apply IH; lia. }
    destruct t as [|a [|b t]].
    + cbn. destruct eh; eauto.
    + cbn. destruct eh; eauto.
    + destruct ((a =? 13) && (b =? 10)) eqn:E.
      { rewrite andb_true_iff, !N.eqb_eq in E. destruct E as [-> ->]. rewrite decode_soft. apply IH; cbn in *; lia. }
      rewrite decode_pair by auto. cbn [length] in *. destruct (read2_none_or a b) as [->|(v & k & -> & [->| ->])].
      * destruct eh; eauto; apply IH; cbn; lia.
      * apply IH; cbn; lia.
      * apply IH; cbn; lia.
Qed.

Lemma byte_val x : x < 256 -> Z.to_N (Z.of_N x mod 256) = x.
Proof. intros H. rewrite Z.mod_small by lia. lia. Qed.

Lemma decode_loose t s : Loose t s -> forall f eh buf r, (length t < f)%nat -> qp_decode_loop f eh t buf r = Ok (r, buf ++ s).
Proof.
  induction 1 as [|c t s Hc L IH|t s L IH|h1 h2 x y t s H1 H2 L IH|h1 c x t s H1 H2 H3 L IH|w h y t s Hw Hh L IH|h y t s Hh L IH];
    intros f eh buf r Hf; (destruct f as [|f]; [lia|]); cbn [length] in Hf.
  - cbn. now rewrite app_nil_r.
  - rewrite decode_plain, IH, <- app_assoc by (auto; lia). reflexivity.
  - rewrite decode_soft. apply IH. lia.
  - destruct (digit_of_some _ _ H1) as (_ & X & _ & _ & _ & _ & _ & X'), (digit_of_some _ _ H2) as (_ & Y & _ & _ & _ & _ & _ & Y').
    rewrite decode_pair. 2:{ destruct (N.eqb_spec h1 13) as [->|]; [discriminate X'|reflexivity]. }
    unfold read2. rewrite H1, H2. cbn [skipn]. rewrite byte_val by lia. rewrite IH, <- app_assoc by lia. reflexivity.
  - destruct (digit_of_some _ _ H1) as (_ & X & _ & _ & _ & _ & _ & X').
    rewrite decode_pair. 2:{ destruct (N.eqb_spec h1 13) as [->|]; [discriminate X'|reflexivity]. }
    unfold read2. rewrite H1, H2. replace ((h1 =? 48) && ((c =? 120) || (c =? 88))) with false.
    + cbn [skipn]. rewrite byte_val by lia. rewrite IH, <- app_assoc by (cbn [length]; lia). reflexivity.
    + symmetry. apply not_true_iff_false. rewrite andb_true_iff, orb_true_iff, !N.eqb_eq. exact H3.
  - destruct (digit_of_some _ _ Hh) as (_ & Y & _ & _ & _ & _ & _ & Y').
    rewrite decode_pair. 2:{ destruct (N.eqb_spec h 10) as [->|]; [discriminate Y'|apply andb_false_r]. }
    assert (Dw : digit_val w = None) by (unfold digit_val; replace ((48 <=? w) && (w <=? 57)) with false by lia; replace ((65 <=? w) && (w <=? 70)) with false by lia;
      replace ((97 <=? w) && (w <=? 102)) with false by lia; reflexivity).
    unfold read2. rewrite Dw, Hh. replace (chr_isspace w || (w =? 43)) with true by (unfold chr_isspace; lia).
    cbn [skipn]. rewrite byte_val by lia. rewrite IH, <- app_assoc by lia. reflexivity.
  - destruct (digit_of_some _ _ Hh) as (_ & Y & _ & _ & _ & _ & _ & Y').
    rewrite decode_pair by reflexivity. unfold read2. rewrite Hh. change (digit_val 45) with (@None N). cbn [chr_isspace N.eqb Pos.eqb orb skipn].
    replace (Z.to_N (- Z.of_N y mod 256)) with ((256 - y) mod 256).
    + rewrite IH, <- app_assoc by lia. reflexivity.
    + destruct (N.eq_dec y 0) as [->|]; [reflexivity|]. rewrite N.mod_small by lia. replace (- Z.of_N y)%Z with (256 - Z.of_N y + -1 * 256)%Z by lia.
      rewrite Z.mod_add, Z.mod_small by lia. lia.
Qed.

Lemma decode_fail : forall n t, (length t <= n)%nat -> (exists s, Loose t s) \/
  forall f buf r, (length t < f)%nat -> exists b, qp_decode_loop f EFail t buf r = Ok (TFail, b).
Proof.
  induction n as [|n IH]; intros t Hn.
  - destruct t; [left; exists []; constructor|cbn in Hn; lia].
  - destruct t as [|c t]; [left; exists []; constructor|]. cbn [length] in *. destruct (N.eq_dec c 61) as [->|Hc].
    2:{ destruct (IH t ltac:(lia)) as [(s & L)|F]; [left; exists (c :: s); now constructor|right].
        intros [|f] buf r Hf; [lia|]. rewrite decode_plain by auto. apply F. lia. }
    destruct t as [|a [|b t]]; [right; intros [|f] buf r Hf; [lia|cbn; eauto]|right; intros [|f] buf r Hf; [lia|cbn; eauto]|]. cbn [length] in *.
    destruct ((a =? 13) && (b =? 10)) eqn:E.
    { rewrite andb_true_iff, !N.eqb_eq in E. destruct E as [-> ->].
      destruct (IH t ltac:(lia)) as [(s & L)|F]; [left; exists s; now constructor|right].
      intros [|f] buf r Hf; [lia|]. rewrite decode_soft. apply F. lia. }
    assert (G1 : (exists v, read2 a b = Some (v, 2%nat)) -> (forall s, Loose t s -> exists s', Loose (61 :: a :: b :: t) s') ->
      (exists s, Loose (61 :: a :: b :: t) s) \/ forall f buf r, (S (S (S (length t))) < f)%nat -> exists b', qp_decode_loop f EFail (61 :: a :: b :: t) buf r = Ok (TFail, b')).
    { intros (v & R) G. destruct (IH t ltac:(lia)) as [(s & L)|F]; [left; eauto|right].
      intros [|f] buf r Hf; [lia|]. rewrite decode_pair, R by auto. apply F. cbn. lia. }
    assert (G0 : read2 a b = None -> (exists s, Loose (61 :: a :: b :: t) s) \/ forall f buf r, (S (S (S (length t))) < f)%nat -> exists b', qp_decode_loop f EFail (61 :: a :: b :: t) buf r = Ok (TFail, b')).
    { intros R. right. intros [|f] buf r Hf; [lia|]. rewrite decode_pair, R by auto. eauto. }
    destruct (digit_val a) as [x|] eqn:Ha, (digit_val b) as [y|] eqn:Hb.
    + apply G1; [unfold read2; rewrite Ha, Hb; eauto|]. intros s L. exists (16 * x + y :: s). now apply L_hex.
    + destruct ((a =? 48) && ((b =? 120) || (b =? 88))) eqn:E0; [apply G0; unfold read2; now rewrite Ha, Hb, E0|].
      destruct (IH (b :: t) ltac:(cbn; lia)) as [(s & L)|F].
      * left. exists (x :: s). apply L_one; auto. rewrite <- !N.eqb_eq, <- orb_true_iff, <- andb_true_iff, E0. discriminate.
      * right. intros [|f] buf r Hf; [lia|]. rewrite decode_pair by auto. unfold read2. rewrite Ha, Hb, E0. apply F. cbn. lia.
    + destruct (chr_isspace a || (a =? 43)) eqn:E1.
      { apply G1; [unfold read2; rewrite Ha, Hb, E1; eauto|]. intros s L. exists (y :: s). apply L_blank; auto. unfold chr_isspace in E1. lia. }
      destruct (N.eqb_spec a 45) as [->|Hm].
      { apply G1; [unfold read2; rewrite Ha, Hb, E1; cbn; eauto|]. intros s L. exists ((256 - y) mod 256 :: s). now apply L_minus. }
      apply G0. unfold read2. rewrite Ha, Hb, E1. apply N.eqb_neq in Hm. now rewrite Hm.
    + apply G0. unfold read2. now rewrite Ha, Hb.
Qed.

Lemma Quoted_Loose t s : Quoted t s -> Loose t s.
Proof. induction 1; [constructor|now apply L_plain|now apply L_soft|now apply L_hex]. Qed.

(** ** The encoder *)

Definition quote (c : N) : list N :=
  if escapes (Z.of_N c) then [61; digit_char (c / 16); digit_char (c mod 16)] else [c].

Lemma digit_at_ok d : d < 16 -> digit_at (Z.of_N d) = Ok (digit_char d).
Proof.
  intros H. assert (K : forall n, (n < 16)%nat -> digit_at (Z.of_nat n) = Ok (digit_char (N.of_nat n))).
  { intros n Hn. do 16 (destruct n as [|n]; [reflexivity|]). lia. }
  specialize (K (N.to_nat d) ltac:(lia)). now rewrite N_nat_Z, N2Nat.id in K.
Qed.

Lemma qp_encode_step sg c s cnt buf : is_byte c -> (sg = true -> c < 128) ->
  qp_encode_loop sg (c :: s) cnt buf =
  let cnt := if c =? 10 then 0%nat else (cnt + length (quote c))%nat in
  if (72 <? cnt)%nat then qp_encode_loop sg s 0 ((buf ++ quote c) ++ [61; 13; 10]) else qp_encode_loop sg s cnt (buf ++ quote c).
Proof.
  intros Hb Hs. unfold is_byte in Hb. cbn [qp_encode_loop].
  assert (V : char_val sg c = Z.of_N c).
  { unfold char_val. destruct sg; [|reflexivity]. specialize (Hs eq_refl). now rewrite (proj2 (N.leb_gt 128 c)). }
  rewrite V. unfold quote. replace (Z.of_N c =? 10)%Z with (c =? 10) by lia. destruct (escapes (Z.of_N c)).
  - replace (Z.shiftr (Z.of_N c) 4) with (Z.of_N (c / 16)) by (rewrite Z.shiftr_div_pow2 by lia; rewrite N2Z.inj_div; reflexivity).
    replace (Z.land (Z.of_N c) 15) with (Z.of_N (c mod 16)) by (change 15%Z with (Z.ones 4); rewrite Z.land_ones by lia; rewrite N2Z.inj_mod; reflexivity).
    rewrite !digit_at_ok by lia. reflexivity.
  - reflexivity.
Qed.

Lemma quote_quoted c t s : is_byte c -> Quoted t s -> Quoted (quote c ++ t) (c :: s).
Proof.
  intros Hb Q. unfold is_byte in Hb. unfold quote. destruct (escapes (Z.of_N c)) eqn:E; cbn [app].
  - replace c with (16 * (c / 16) + c mod 16) at 3 by lia. apply Q_hex; auto; apply digit_char_val; lia.
  - apply Q_plain; auto. intros ->. discriminate E.
Qed.

Lemma qp_encode_quoted sg s : is_bytes s -> (sg = true -> Forall (fun c => c < 128) s) -> forall cnt buf,
  exists t, qp_encode_loop sg s cnt buf = Ok (buf ++ t) /\ Quoted t s.
Proof.
  induction 1 as [|c s Hc F IH]; intros Hs cnt buf.
  - exists []. cbn. rewrite app_nil_r. split; [reflexivity|constructor].
  - rewrite qp_encode_step; auto. 2:{ intros X. specialize (Hs X). now inversion Hs. }
    assert (Hs' : sg = true -> Forall (fun c => c < 128) s) by (intros X; specialize (Hs X); now inversion Hs). cbv zeta.
    set (k := if c =? 10 then 0%nat else (cnt + length (quote c))%nat). destruct (72 <? k)%nat.
    + destruct (IH Hs' 0%nat ((buf ++ quote c) ++ [61; 13; 10])) as (t & -> & Q). exists (quote c ++ 61 :: 13 :: 10 :: t). rewrite <- !app_assoc. split; auto.
      apply quote_quoted; auto. now constructor.
    + destruct (IH Hs' k (buf ++ quote c)) as (t & -> & Q). exists (quote c ++ t). rewrite <- app_assoc. split; auto. now apply quote_quoted.
Qed.

(** Line lengths: [k] characters stand on the current line. *)
Fixpoint fits (k : nat) (t : list N) : Prop :=
  match t with
  | [] => True
  | c :: t' => if (c =? 10) || (c =? 13) then fits 0 t' else (S k <= 76)%nat /\ fits (S k) t'
  end.
Lemma fits_le t : forall j k, (j <= k)%nat -> fits k t -> fits j t.
Proof.
  induction t as [|c t IH]; intros j k H F; cbn [fits] in *; auto. destruct ((c =? 10) || (c =? 13)); auto.
  destruct F. split; [lia|]. eapply IH; [|eauto]. lia.
Qed.
Lemma fits_short t : fits 0 t -> short_lines 76 t.
Proof.
  intros F a l b -> H1 H2. assert (G : exists k, fits k (l ++ b)).
  { clear H1 H2. revert F. generalize 0%nat. induction a as [|c a IH]; intros k F; cbn [app fits] in *; eauto.
    destruct ((c =? 10) || (c =? 13)); [eauto|]. destruct F. eauto. }
  destruct G as (k & G). assert (k + length l <= 76 \/ l = [])%nat.
  { clear F a. revert k G. induction l as [|c l IH]; intros k G; auto. left. cbn [app fits length] in *.
    destruct (N.eqb_spec c 10) as [->|]; [exfalso; apply H1; cbn; auto|]. destruct (N.eqb_spec c 13) as [->|]; [exfalso; apply H2; cbn; auto|].
    cbn [orb] in G. destruct G as [G1 G]. destruct (IH ltac:(cbn in H1; tauto) ltac:(cbn in H2; tauto) _ G) as [| ->]; [lia|cbn; lia]. }
  destruct H as [H| ->]; [lia|cbn; lia].
Qed.

Lemma quote_fits c t k : is_byte c -> (k <= 72)%nat -> fits (if (c =? 10) || (c =? 13) then 0%nat else (k + length (quote c))%nat) t -> fits k (quote c ++ t).
Proof.
  intros Hb Hk F. unfold quote in *. unfold is_byte in Hb. destruct (escapes (Z.of_N c)) eqn:E; cbn [app fits length] in *.
  - assert (D : forall d, d < 16 -> (digit_char d =? 10) || (digit_char d =? 13) = false).
    { intros d Hd. unfold digit_char. destruct (N.ltb_spec d 10); lia. }
    rewrite !D by lia. cbn [N.eqb Pos.eqb orb]. assert (N1 : (c =? 10) || (c =? 13) = false).
    { destruct (N.eqb_spec c 10) as [->|]; [discriminate E|]. destruct (N.eqb_spec c 13) as [->|]; [discriminate E|reflexivity]. }
    rewrite N1 in F. repeat (split; [lia|]). now replace (S (S (S k))) with (k + 3)%nat by lia.
  - destruct ((c =? 10) || (c =? 13)); auto. split; [lia|]. now replace (S k) with (k + 1)%nat by lia.
Qed.

Lemma qp_encode_fits sg s : is_bytes s -> (sg = true -> Forall (fun c => c < 128) s) -> forall cnt buf, (cnt <= 72)%nat ->
  exists t, qp_encode_loop sg s cnt buf = Ok (buf ++ t) /\ fits cnt t.
Proof.
  induction 1 as [|c s Hc F IH]; intros Hs cnt buf Hcnt.
  - exists []. cbn. rewrite app_nil_r. auto.
  - rewrite qp_encode_step; auto. 2:{ intros X. specialize (Hs X). now inversion Hs. }
    assert (Hs' : sg = true -> Forall (fun c => c < 128) s) by (intros X; specialize (Hs X); now inversion Hs). cbv zeta.
    set (k := if c =? 10 then 0%nat else (cnt + length (quote c))%nat).
    assert (K : (k <= 75)%nat).
    { unfold k, quote. destruct (c =? 10); [lia|]. destruct (escapes (Z.of_N c)); cbn [length]; lia. }
    assert (Le : ((if ((c =? 10) || (c =? 13))%N then 0 else cnt + length (quote c)) <= k)%nat).
    { unfold k. destruct (c =? 10), (c =? 13); cbn; lia. }
    destruct (Nat.ltb_spec 72 k).
    + destruct (IH Hs' 0%nat ((buf ++ quote c) ++ [61; 13; 10])) as (t & -> & Q); [lia|]. exists (quote c ++ 61 :: 13 :: 10 :: t).
      rewrite <- !app_assoc. split; auto. apply quote_fits; auto. eapply fits_le; [exact Le|]. cbn [fits N.eqb Pos.eqb orb]. split; [lia|auto].
    + destruct (IH Hs' k (buf ++ quote c)) as (t & -> & Q); [lia|]. exists (quote c ++ t). rewrite <- !app_assoc. split; auto.
      apply quote_fits; auto. eapply fits_le; [exact Le|auto].
Qed.

(** Signed characters above 127. *)
Lemma qp_encode_ub s : is_bytes s -> Exists (fun c => 128 <= c) s -> forall cnt buf, qp_encode_loop true s cnt buf = UB.
Proof.
  induction 1 as [|c s Hc F IH]; intros Hs cnt buf; [inversion Hs|]. destruct (N.ltb_spec c 128).
  - rewrite qp_encode_step by auto. inversion Hs; subst; [lia|]. cbv zeta. match goal with |- context [if ?x then qp_encode_loop _ _ _ _ else _] => destruct x end; auto.
  - cbn [qp_encode_loop]. unfold is_byte in Hc. unfold char_val. replace (128 <=? c) with true by lia. cbn [andb].
    assert (E : escapes (Z.of_N c - 256) = true) by (unfold escapes; lia). rewrite E.
    assert (X : (Z.shiftr (Z.of_N c - 256) 4 < 0)%Z) by (rewrite Z.shiftr_neg; lia). unfold digit_at at 1. now rewrite (proj2 (Z.ltb_lt _ 0) X).
Qed.

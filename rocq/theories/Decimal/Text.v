(** Lemmas about decimals as text. *)
From Coq Require Import QArith.
From Verif Require Import Base.Lib Base.Mem StrNum.Model StrNum.Spec StrNum.Proofs StrNum.Props.
From Verif Require Import Decimal.Model Decimal.Spec Decimal.Arith Decimal.Proofs.
Local Open Scope N_scope.

(** ** Printing *)

Definition chars (ds : list N) : list N := map (fun d => 48 + d) ds.

Lemma chars_app a b : chars (a ++ b) = chars a ++ chars b.
Proof. apply map_app. Qed.
Lemma chars_length a : length (chars a) = length a.
Proof. apply map_length. Qed.

Lemma print_loop_ok fuel : forall n acc, n < 10 ^ N.of_nat fuel -> (0 < fuel)%nat ->
  exists ds, print_loop n acc fuel = chars ds ++ acc /\ value 10 ds = n /\ Forall (fun d => d < 10) ds /\ ds <> [] /\
    (length ds = 1%nat \/ 10 ^ N.of_nat (length ds - 1) <= n).
Proof.
  induction fuel as [|fuel IH]; intros n acc H Hf; [lia|]. cbn [print_loop].
  pose proof (N.mod_lt n 10 ltac:(lia)) as M. pose proof (N.div_mod n 10 ltac:(lia)) as D.
  destruct (N.eqb_spec (n / 10) 0) as [E|E].
  - exists [n mod 10]. split; [reflexivity|]. split; [cbn; lia|]. split; [auto|]. split; [discriminate|auto].
  - assert (Hd : n / 10 < 10 ^ N.of_nat fuel).
    { rewrite Nat2N.inj_succ, N.pow_succ_r' in H. apply N.div_lt_upper_bound; lia. }
    destruct fuel as [|fuel]; [cbn in Hd; lia|].
    destruct (IH (n / 10) ((48 + n mod 10) :: acc) Hd ltac:(lia)) as (ds & -> & V & F & Hne & L).
    exists (ds ++ [n mod 10]). split; [now rewrite chars_app, <- app_assoc|]. split.
    { rewrite value_snoc, V. lia. }
    split; [apply Forall_app; auto|]. split; [now destruct ds|]. right.
    rewrite app_length. cbn [length]. destruct ds as [|d0 ds0]; [congruence|]. set (ds := d0 :: ds0) in *.
    replace (length ds + 1 - 1)%nat with (S (length ds - 1)) by (subst ds; cbn [length]; lia).
    rewrite Nat2N.inj_succ, N.pow_succ_r'. destruct L as [L|L].
    + rewrite L. cbn. lia.
    + lia.
Qed.

Lemma print_u64_ok n : n < 2 ^ 64 -> exists ds, print_u64 n = chars ds /\ value 10 ds = n /\
  Forall (fun d => d < 10) ds /\ ds <> [] /\ (length ds = 1%nat \/ 10 ^ N.of_nat (length ds - 1) <= n).
Proof.
  intros H. destruct (print_loop_ok 20 n [] ltac:(change (N.of_nat 20) with 20; lia) ltac:(lia)) as (ds & E & R).
  exists ds. unfold print_u64. rewrite E, app_nil_r. auto.
Qed.

Lemma count_loop_ok fuel : forall n c, n < 10 ^ N.of_nat fuel -> (0 < fuel)%nat ->
  exists k, count_digits_loop n c fuel = Ok (c + k)%nat /\ n < 10 ^ N.of_nat (S k) /\ (k = 0%nat \/ 10 ^ N.of_nat k <= n).
Proof.
  induction fuel as [|fuel IH]; intros n c H Hf; [lia|]. cbn [count_digits_loop].
  pose proof (N.mod_lt n 10 ltac:(lia)) as M. pose proof (N.div_mod n 10 ltac:(lia)) as D.
  destruct (N.eqb_spec (n / 10) 0) as [E|E].
  - exists 0%nat. split; [f_equal; lia|]. split; [|auto]. change (N.of_nat 1) with 1. rewrite N.pow_1_r. lia.
  - assert (Hd : n / 10 < 10 ^ N.of_nat fuel).
    { rewrite Nat2N.inj_succ, N.pow_succ_r' in H. apply N.div_lt_upper_bound; lia. }
    destruct fuel as [|fuel]; [cbn in Hd; lia|].
    destruct (IH (n / 10) (S c) Hd ltac:(lia)) as (k & -> & U & L).
    exists (S k). split; [f_equal; lia|]. rewrite (Nat2N.inj_succ (S k)), N.pow_succ_r'. split; [lia|]. right.
    rewrite Nat2N.inj_succ, N.pow_succ_r'. destruct L as [-> |L]; [cbn; lia|lia].
Qed.

Lemma count_digits_ok n : n < 2 ^ 64 -> exists c, count_digits n = Ok c /\ (1 <= c)%nat /\
  n < 10 ^ N.of_nat c /\ (c = 1%nat \/ 10 ^ N.of_nat (c - 1) <= n).
Proof.
  intros H. destruct (count_loop_ok 20 n 1 ltac:(change (N.of_nat 20) with 20; lia) ltac:(lia)) as (k & E & U & L).
  exists (S k). split; [exact E|]. split; [lia|]. split; [exact U|]. replace (S k - 1)%nat with k by lia. destruct L as [->|]; auto.
Qed.

Lemma pow10_le a b : (a <= b)%nat -> 10 ^ N.of_nat a <= 10 ^ N.of_nat b.
Proof. intros. apply N.pow_le_mono_r; lia. Qed.

(** Two bounds on the same number agree on the number of digits. *)
Lemma digits_le n c k : (c = 1%nat \/ 10 ^ N.of_nat (c - 1) <= n) -> (1 <= k)%nat -> n < 10 ^ N.of_nat k -> (c <= k)%nat.
Proof.
  intros [->|L] Hk U; [lia|]. destruct (le_lt_dec c k); auto. pose proof (pow10_le k (c - 1) ltac:(lia)). lia.
Qed.

Lemma print_len n c : n < 2 ^ 64 -> count_digits n = Ok c -> length (print_u64 n) = c.
Proof.
  intros H E. destruct (print_u64_ok n H) as (ds & -> & V & F & Hne & L). rewrite chars_length.
  destruct (count_digits_ok n H) as (c' & E' & P & U & L'). rewrite E' in E. injection E as <-.
  assert (length ds <> 0%nat) by (destruct ds; cbn; congruence).
  pose proof (value_lt 10 ds F) as Vl. rewrite V in Vl.
  pose proof (digits_le n (length ds) c' L P U). pose proof (digits_le n c' (length ds) L' ltac:(lia) Vl). lia.
Qed.

Lemma value_zeros k ds : value 10 (repeat 0 k ++ ds) = value 10 ds.
Proof.
  induction k as [|k IH]; cbn [repeat app value]; auto.
Qed.

Lemma chars_repeat k : chars (repeat 0 k) = repeat 48 k.
Proof.
  induction k as [|k IH]; auto. cbn [repeat]. change (chars (0 :: repeat 0 k)) with (48 :: chars (repeat 0 k)). now rewrite IH.
Qed.

Lemma pad_ok k n : n < 2 ^ 64 -> (1 <= k)%nat -> n < 10 ^ N.of_nat k -> exists ds, print_u64_pad k n = chars ds /\
  value 10 ds = n /\ Forall (fun d => d < 10) ds /\ length ds = k.
Proof.
  intros H Hk U. unfold print_u64_pad. destruct (print_u64_ok n H) as (ds & -> & V & F & Hne & L).
  rewrite chars_length. pose proof (digits_le n (length ds) k L Hk U).
  exists (repeat 0 (k - length ds) ++ ds). rewrite chars_app, chars_repeat. split; [reflexivity|].
  split; [now rewrite value_zeros|]. split.
  - apply Forall_app. split; auto. apply Forall_forall. intros x Hx. apply repeat_spec in Hx. lia.
  - rewrite app_length, repeat_length. lia.
Qed.

Lemma exp64_loop e : forall r, uint64_exp_loop (w64 r) 10 e = w64 (r * 10 ^ N.of_nat e).
Proof.
  induction e as [|e IH]; intros r; cbn [uint64_exp_loop].
  - f_equal. change (10 ^ N.of_nat 0) with 1. lia.
  - replace (w64 (w64 r * 10)) with (w64 (r * 10)).
    + rewrite IH. f_equal. rewrite Nat2N.inj_succ, N.pow_succ_r'. ring.
    + unfold w64. rewrite N.mul_mod_idemp_l; [reflexivity|discriminate].
Qed.
Lemma exp64_ok e : uint64_exp 10 e = w64 (10 ^ N.of_nat e).
Proof. unfold uint64_exp. change 1 with (w64 1) at 1. rewrite exp64_loop. f_equal. lia. Qed.
Lemma exp64_small e : (e <= 19)%nat -> uint64_exp 10 e = 10 ^ N.of_nat e.
Proof.
  intros H. rewrite exp64_ok. unfold w64. apply N.mod_small. pose proof (pow10_le e 19 H).
  change (10 ^ N.of_nat 19) with 10000000000000000000 in *. lia.
Qed.

Lemma abs_ok z : in64 z -> decimal_abs z = Z.to_N (Z.abs z).
Proof.
  unfold decimal_abs, in64, imin, imax. intros H.
  destruct (Z.eqb_spec z (- 2 ^ 63)) as [->|]; [reflexivity|]. destruct (Z.ltb_spec z 0); f_equal; lia.
Qed.

(** From 20 places on, 10^places is reduced modulo 2^64. *)
Definition printable (d : dec) : Prop :=
  (nd d <= 19)%nat \/ Z.to_N (Z.abs (num d)) < w64 (10 ^ N.of_nat (nd d)).

Definition sign_chars (z : Z) : list N := if (z <? 0)%Z then [45] else [].

Definition text_of (d : dec) (ws fs : list N) : list N :=
  sign_chars (num d) ++ chars ws ++ (if (nd d =? 0)%nat then [] else 46 :: chars fs).

Definition digits_ok (ds : list N) : Prop := Forall (fun x => x < 10) ds.

Lemma to_str_ok d : valid d -> printable d -> exists ws fs,
    value 10 (ws ++ fs) = Z.to_N (Z.abs (num d)) /\ length fs = nd d /\ ws <> [] /\ digits_ok ws /\ digits_ok fs /\
    (length ws = 1%nat \/ 10 ^ N.of_nat (length ws - 1) <= value 10 ws) /\
    forall len, to_str d len = Ok (if (length (text_of d ws fs) <? len)%nat then (Success, text_of d ws fs) else (Invalid, [])).
Proof.
  intros [V W] P. assert (Hn : Z.to_N (Z.abs (num d)) <= 2 ^ 63) by (unfold in64, imin, imax in V; lia).
  unfold printable in P. unfold text_of, to_str. rewrite (abs_ok _ V).
  set (n := Z.to_N (Z.abs (num d))) in *. set (k := nd d) in *. 
  destruct (count_digits_ok n ltac:(lia)) as (c & C & Hc & U & L).
  pose proof (print_len n c ltac:(lia) C) as Pl. rewrite C. cbn [bind].
  assert (Sl : length (sign_chars (num d)) = if (num d <? 0)%Z then 1%nat else 0%nat)
    by (unfold sign_chars; destruct (num d <? 0)%Z; reflexivity).
  fold (sign_chars (num d)). set (sc := sign_chars (num d)) in *. clearbody sc n k. clear V W.
  set (e := uint64_exp 10 k).
  assert (E : (k = 0%nat -> e = 1) /\ 0 < e /\ ((c <= k)%nat -> n < e) /\ ((k <= 19)%nat -> e = 10 ^ N.of_nat k)).
  { unfold e. destruct (le_lt_dec k 19) as [K|K].
    - rewrite exp64_small by auto. split; [intros ->; reflexivity|]. split; [apply N.neq_0_lt_0, N.pow_nonzero; lia|].
      split; auto. intros Hk. pose proof (pow10_le c k Hk). lia.
    - destruct P as [|P]; [lia|]. rewrite exp64_ok. split; [lia|]. split; [lia|]. split; [auto|lia]. }
  destruct E as (E0 & E1 & E2 & E3).
  assert (Wh : exists ws, (if (c <=? k)%nat then Ok [48] else if e =? 0 then UB else Ok (print_u64 (n / e))) = Ok (chars ws) /\
    ws <> [] /\ digits_ok ws /\ (length ws = 1%nat \/ 10 ^ N.of_nat (length ws - 1) <= value 10 ws) /\
    value 10 ws = n / e /\ (length ws = if (c <=? k)%nat then 1 else c - k)%nat).
  { destruct (Nat.leb_spec c k) as [K|K].
    - exists [0]. rewrite N.div_small by (apply E2; auto). repeat split; auto; try discriminate. repeat constructor.
    - destruct (N.eqb_spec e 0); [lia|].
      assert (Hk : (k <= 19)%nat).
      { destruct (le_lt_dec k 19); auto. exfalso. destruct L as [->|L]; [lia|].
        pose proof (pow10_le 20 (c - 1) ltac:(lia)). change (10 ^ N.of_nat 20) with 100000000000000000000 in *. lia. }
      rewrite (E3 Hk) in *.
      assert (Hq : n / 10 ^ N.of_nat k < 2 ^ 64) by (apply N.div_lt_upper_bound; [lia|]; clear - Hn E1; nia).
      destruct (print_u64_ok (n / 10 ^ N.of_nat k) Hq) as (ws & -> & Vw & Fw & Nw & Lw).
      exists ws. rewrite Vw. repeat split; auto.
      destruct (count_digits_ok _ Hq) as (c' & C' & Hc' & U' & L').
      assert (length ws = c').
      { rewrite <- (print_len _ _ Hq C'). destruct (print_u64_ok (n / 10 ^ N.of_nat k) Hq) as (ws' & Ew & Vw' & Fw' & Nw' & Lw').
        rewrite Ew, chars_length. pose proof (value_lt 10 ws Fw). pose proof (value_lt 10 ws' Fw').
        rewrite Vw in *. rewrite Vw' in *.
        assert (forall l : list N, l <> [] -> (1 <= length l)%nat) by (intros [|]; cbn; [congruence|lia]).
        apply Nat.le_antisymm; eapply digits_le; eauto. }
      assert (Dm : n = 10 ^ N.of_nat k * (n / 10 ^ N.of_nat k) + n mod 10 ^ N.of_nat k) by (apply N.div_mod; lia).
      pose proof (N.mod_lt n (10 ^ N.of_nat k) ltac:(lia)) as Ml.
      set (q := n / 10 ^ N.of_nat k) in *. set (m := n mod 10 ^ N.of_nat k) in *. clearbody q m.
      apply Nat.le_antisymm.
      + destruct (Nat.eq_dec c' 1) as [|]; [lia|]. destruct L' as [|L']; [lia|].
        assert (10 ^ N.of_nat (k + (c' - 1)) <= n).
        { replace (N.of_nat (k + (c' - 1))) with (N.of_nat k + N.of_nat (c' - 1)) by lia. rewrite N.pow_add_r. nia. }
        destruct (le_lt_dec (length ws) (c - k)); auto. exfalso.
        pose proof (pow10_le c (k + (c' - 1)) ltac:(lia)). lia.
      + assert (n < 10 ^ N.of_nat (k + c')).
        { replace (N.of_nat (k + c')) with (N.of_nat k + N.of_nat c') by lia. rewrite N.pow_add_r. nia. }
        pose proof (digits_le n c (k + c') L ltac:(lia) H0). lia. }
  destruct Wh as (ws & Ew & Nw & Fw & Lw & Vw & Len).
  destruct (Nat.eqb_spec k 0) as [K0|K0].
  - exists ws, []. rewrite app_nil_r, E0, N.div_1_r in * by auto. rewrite app_nil_r.
    split; [exact Vw|]. split; [now rewrite K0|]. split; auto. split; auto. split; [constructor|]. split; auto.
    intros len. rewrite Ew. cbn [bind].
    destruct (Nat.leb_spec c k); [lia|]. destruct (Nat.ltb_spec c k); [lia|].
    rewrite app_length, chars_length.
    replace (c + 1 + 0 + (if (num d <? 0)%Z then 1 else 0) + 0 + 0)%nat with (S (length sc + length ws)) by lia.
    destruct (Nat.ltb_spec len 2).
    { destruct (Nat.ltb_spec (length sc + length ws) len); auto. destruct ws; [congruence|cbn [length] in *; lia]. }
    destruct (Nat.ltb_spec len (S (length sc + length ws))), (Nat.ltb_spec (length sc + length ws) len); try lia; auto.
    rewrite firstn_all2 by (rewrite chars_length; lia). reflexivity.
  - assert (Fm : n mod e < 2 ^ 64) by (pose proof (N.mod_le n e ltac:(lia)); lia).
    assert (Fk : n mod e < 10 ^ N.of_nat k).
    { destruct (le_lt_dec k 19) as [K|K].
      - rewrite <- (E3 K). apply N.mod_lt. lia.
      - pose proof (pow10_le 20 k ltac:(lia)). change (10 ^ N.of_nat 20) with 100000000000000000000 in *. lia. }
    destruct (pad_ok k (n mod e) Fm ltac:(lia) Fk) as (fs & Ef & Vf & Ff & Lf).
    exists ws, fs. split.
    { rewrite value_app, Vw, Vf, Lf. destruct (le_lt_dec k 19) as [K|K].
      - rewrite <- (E3 K). pose proof (N.div_mod n e ltac:(lia)). lia.
      - destruct P as [|P]; [lia|]. unfold e. rewrite exp64_ok, N.div_small, N.mod_small by auto. lia. }
    split; auto. split; auto. split; auto. split; auto. split; auto.
    intros len. rewrite Ew. cbn [bind]. destruct (N.eqb_spec e 0); [lia|]. rewrite Ef.
    rewrite !app_length. cbn [length]. rewrite !chars_length, Lf.
    assert (R : (c + 1 + 1 + (if (num d <? 0)%Z then 1 else 0) + (if (c <=? k)%nat then 1 else 0) + (if (c <? k)%nat then k - c else 0))%nat
      = S (length sc + (length ws + S k))).
    { rewrite Sl, Len. destruct (Nat.leb_spec c k), (Nat.ltb_spec c k); destruct (num d <? 0)%Z; lia. }
    rewrite R. destruct (Nat.ltb_spec len 2).
    { destruct (Nat.ltb_spec (length sc + (length ws + S k)) len); auto. lia. }
    destruct (Nat.ltb_spec len (S (length sc + (length ws + S k)))), (Nat.ltb_spec (length sc + (length ws + S k)) len); try lia; auto.
    rewrite !firstn_all2 by (rewrite chars_length; lia). reflexivity.
Qed.

(** ** Parsing *)

Lemma spells_chars ds : digits_ok ds -> spells 10 (chars ds) ds.
Proof.
  intros F. split; auto. unfold chars. induction F; cbn; constructor; auto. left. split; auto.
Qed.

Lemma chars_no_nul ds : no_nul (chars ds).
Proof. unfold no_nul, chars. apply Forall_forall. intros x Hx. apply in_map_iff in Hx as (d & <- & _). lia. Qed.

Lemma stops_point r : stops 10 (46 :: r).
Proof. intros d [[? E]|[? [E|E]]]; lia. Qed.

Lemma int64_digits ws sg neg rest z v0 : digits_ok ws -> ws <> [] -> sign_text sg neg -> no_nul rest -> stops 10 rest ->
  let v := (if neg then - Z.of_N (value 10 ws) else Z.of_N (value 10 ws))%Z in in64 v ->
  to_int64_ex (sg ++ chars ws ++ rest ++ 0 :: z) (length (sg ++ chars ws ++ rest)) 10 v0 = Ok (ISuccess, v, Some (rest ++ 0 :: z)).
Proof.
  intros F Hne Hs Hn Hst v I.
  assert (T : text_ok 10 [] sg neg (chars ws) ws rest).
  { split; [lia|]. split; [constructor|]. split; auto. split; [now apply spells_chars|]. split; [now destruct ws|].
    split; auto. split; auto. discriminate. }
  assert (B : value 10 ws < 2 ^ 64) by (unfold v, in64, imin, imax in I; destruct neg; lia).
  pose proof (int64_parse_partial _ _ _ _ _ _ _ z v0 T B) as E. cbn [app] in E. rewrite E. fold v.
  unfold in64, imin, imax in I. destruct (Z.leb_spec (- 2 ^ 63) v), (Z.ltb_spec v (2 ^ 63)); try lia. reflexivity.
Qed.

Lemma join_ok n f k : in64 n -> in64 f -> (1 <= k <= 255)%nat -> in64 (n * p10 k) -> in64 (n * p10 k + f)%Z ->
  join_loop n f k Success = Ok ((n * p10 k + f)%Z, k, Success).
Proof.
  intros Hn Hf Hk Hm Hs. destruct k as [|k]; [lia|]. cbn [join_loop]. rewrite (Nat.mod_small (S k)) by lia.
  assert (M : mult_int64 n (snd (exp_int64 10 (S k))) = (Success, (n * p10 (S k))%Z)).
  { destruct (Z.eq_dec n 0) as [->|Hz].
    - rewrite mult_spec; [reflexivity|vm_compute; split; discriminate|].
      destruct (le_lt_dec (S k) 18) as [L|L].
      + rewrite exp_ok by auto. cbn [snd]. pose proof (p10_pos (S k)). pose proof (p10_18 _ L). unfold in64, imin, imax. lia.
      + rewrite exp_over by lia. apply wrap_in64.
    - assert (L : (S k <= 18)%nat).
      { destruct (le_lt_dec (S k) 18) as [|L]; auto. exfalso. pose proof (p10_le 19 _ L) as P. change (p10 19) with (10 ^ 19)%Z in P.
        set (z := p10 (S k)) in *. clearbody z. unfold in64, imin, imax in *. clear - Hm Hz P. nia. }
      rewrite exp_ok by auto. cbn [snd]. pose proof (p10_pos (S k)). pose proof (p10_18 _ L).
      rewrite mult_spec by (auto; unfold in64, imin, imax; lia).
      rewrite (proj2 (in64b_iff _) Hm), wrap_id by auto. reflexivity. }
  rewrite M, add_spec, (proj2 (in64b_iff _) Hs) by auto. reflexivity.
Qed.

Lemma value_p10 ws fs : Z.of_N (value 10 (ws ++ fs)) = (Z.of_N (value 10 ws) * p10 (length fs) + Z.of_N (value 10 fs))%Z.
Proof.
  rewrite value_app, N2Z.inj_add, N2Z.inj_mul, N2Z.inj_pow. unfold p10. change (Z.of_N 10) with 10%Z.
  now rewrite nat_N_Z.
Qed.

Definition sgz (neg : bool) : Z := if neg then (-1)%Z else 1%Z.

Lemma signed (neg : bool) v : (if neg then - Z.of_N v else Z.of_N v)%Z = (sgz neg * Z.of_N v)%Z.
Proof. unfold sgz. destruct neg; lia. Qed.

(** Digits, a point and digits. *)
Lemma from_str_point ws fs sg neg z : digits_ok ws -> digits_ok fs -> ws <> [] -> fs <> [] -> (length fs <= 255)%nat ->
  sign_text sg neg -> in64 (Z.of_N (value 10 fs)) -> in64 (sgz neg * Z.of_N (value 10 (ws ++ fs))) ->
  let t := sg ++ chars ws ++ 46 :: chars fs in
  exists d, from_str (t ++ 0 :: z) (length t) = Ok (Success, d, Some (0 :: z)) /\ (qval d == text_ratio neg ws fs)%Q.
Proof.
  intros Fw Ff Nw Nf Lf Hs If Iv t.
  assert (Et : t ++ 0 :: z = sg ++ chars ws ++ (46 :: chars fs) ++ 0 :: z) by (unfold t; now rewrite <- !app_assoc).
  rewrite value_p10 in Iv. pose proof (p10_pos (length fs)) as Pp.
  set (W := Z.of_N (value 10 ws)) in *. set (F := Z.of_N (value 10 fs)) in *.
  assert (HW : (0 <= W)%Z) by (unfold W; lia). assert (HF : (0 <= F)%Z) by (unfold F; lia).
  assert (IW : in64 (sgz neg * W)) by (unfold sgz, in64, imin, imax in *; destruct neg; nia).
  assert (IWp : in64 (sgz neg * W * p10 (length fs))) by (unfold sgz, in64, imin, imax in *; destruct neg; nia).
  assert (IF' : in64 (sgz neg * F)) by (unfold sgz, in64, imin, imax in *; destruct neg; nia).
  assert (Lt : length t = length (sg ++ chars ws ++ 46 :: chars fs)) by reflexivity.
  assert (Lt0 : (length t =? 0)%nat = false).
  { apply Nat.eqb_neq. unfold t. rewrite !app_length. cbn [length]. lia. }
  unfold from_str. rewrite Lt0.
  assert (H0 : exists c0, rd (t ++ 0 :: z) 0 = Ok c0 /\ (c0 =? 45) = neg /\ (c0 =? 46) = false).
  { unfold t. destruct ws as [|w0 ws0]; [congruence|]. assert (w0 < 10) by (inversion Fw; auto).
    destruct Hs as [[-> ->]|[[-> ->]|[-> ->]]]; cbn [app chars map rd nth_error]; eexists; (split; [reflexivity|]);
      split; try reflexivity; apply N.eqb_neq; lia. }
  destruct H0 as (c0 & -> & C1 & C2). cbn [bind]. rewrite C1, C2.
  assert (P1 : to_int64_ex (t ++ 0 :: z) (length t) 10 0 = Ok (ISuccess, (sgz neg * W)%Z, Some ((46 :: chars fs) ++ 0 :: z))).
  { rewrite Et, Lt. rewrite (int64_digits ws sg neg (46 :: chars fs) z 0%Z); auto.
    - rewrite signed. reflexivity.
    - constructor; [lia|apply chars_no_nul].
    - apply stops_point.
    - rewrite signed. exact IW. }
  rewrite P1. cbn [bind].
  assert (Nr : (length (t ++ 0%N :: z) - length ((46%N :: chars fs) ++ 0%N :: z))%nat = (length t - S (length fs))%nat).
  { rewrite !app_length. cbn [length]. rewrite chars_length. lia. }
  assert (Lg : (S (length fs) < length t)%nat).
  { unfold t. rewrite !app_length. cbn [length]. rewrite !chars_length. destruct ws; [congruence|cbn [length]; lia]. }
  rewrite Nr. destruct (Nat.ltb_spec (length t - S (length fs)) (length t)); [|lia].
  cbn [app rd nth_error bind]. change (46 =? 46) with true. cbv iota.
  replace (length t - S (length t - S (length fs)))%nat with (length fs) by lia. cbn [skipn].
  assert (P2 : to_int64_ex (chars fs ++ 0 :: z) (length fs) 10 0 = Ok (ISuccess, F, Some (0 :: z))).
  { pose proof (int64_digits fs [] false [] z 0%Z Ff Nf) as E. cbn [app] in E. rewrite app_nil_r, chars_length in E.
    apply E; auto; [left; auto|constructor|exact I]. }
  assert (Fl : frac_loop (chars fs ++ 0 :: z) (length fs) Success 0 None None = Ok (Some (Success, F, Some (0 :: z), Some (0 :: z)))).
  { destruct (length fs) as [|lf] eqn:El; [destruct fs; cbn in El; congruence|]. cbn [frac_loop].
    rewrite P2. reflexivity. }
  rewrite Fl. cbn [bind]. destruct (Z.ltb_spec F 0); [lia|].
  assert (Ng : (if neg || (sgz neg * W <? 0)%Z then chk (F * -1) else Ok F) = Ok (sgz neg * F)%Z).
  { unfold sgz in *. destruct neg; cbn [orb].
    - rewrite chk_ok by (replace (F * -1)%Z with (-1 * F)%Z by lia; auto). f_equal. lia.
    - destruct (Z.ltb_spec (1 * W) 0); [lia|]. f_equal. lia. }
  rewrite Ng. cbn [bind].
  assert (Jn : exists v k, join_loop (sgz neg * W) (sgz neg * F)
      (if (sgz neg * F =? 0)%Z then 0%nat else (length (chars fs ++ 0%N :: z) - length (0%N :: z))%nat) Success = Ok (v, k, Success) /\
      (k <= 255)%nat /\ (ratio v k == text_ratio neg ws fs)%Q).
  { unfold text_ratio. fold (sgz neg). rewrite value_p10. fold W F.
    destruct (Z.eqb_spec (sgz neg * F) 0) as [E|E].
    - exists (sgz neg * W)%Z, 0%nat. split; [reflexivity|]. split; [lia|].
      assert (F = 0)%Z by (unfold sgz in E; destruct neg; lia). rewrite H1, Z.add_0_r, ratio_eq, p10_0. ring.
    - exists (sgz neg * W * p10 (length fs) + sgz neg * F)%Z, (length fs).
      rewrite app_length, chars_length. replace (length fs + length (0%N :: z) - length (0%N :: z))%nat with (length fs) by lia.
      split; [|split; [auto|]].
      + apply join_ok; auto.
        * destruct fs; [congruence|cbn [length] in *; lia].
        * replace (sgz neg * W * p10 (length fs) + sgz neg * F)%Z with (sgz neg * (W * p10 (length fs) + F))%Z by ring. exact Iv.
      + rewrite ratio_eq. ring. }
  destruct Jn as (v & k & -> & Hk & Q). cbn [bind]. rewrite (Nat.mod_small k) by lia.
  rewrite !app_length. cbn [length].
  replace (length t + S (length z) - S (length z))%nat with (length t) by lia.
  destruct (Nat.ltb_spec (length t) (length t + 1)); [|lia]. cbn [rd nth_error bind]. change (is_e 0) with false. cbv iota.
  eexists. split; [reflexivity|]. rewrite reduce_qval. exact Q.
Qed.

(** Digits only. *)
Lemma from_str_whole ws sg neg z : digits_ok ws -> ws <> [] -> sign_text sg neg -> in64 (sgz neg * Z.of_N (value 10 ws)) ->
  let t := sg ++ chars ws in
  from_str (t ++ 0 :: z) (length t) = Ok (Success, mkd (sgz neg * Z.of_N (value 10 ws)) 0, Some (0 :: z)).
Proof.
  intros Fw Nw Hs Iv t.
  assert (Et : t ++ 0 :: z = sg ++ chars ws ++ [] ++ 0 :: z) by (unfold t; now rewrite <- !app_assoc).
  set (W := Z.of_N (value 10 ws)) in *.
  assert (Lt0 : (length t =? 0)%nat = false).
  { apply Nat.eqb_neq. unfold t. rewrite !app_length, chars_length. destruct ws; [congruence|cbn [length]; lia]. }
  unfold from_str. rewrite Lt0.
  assert (H0 : exists c0, rd (t ++ 0 :: z) 0 = Ok c0 /\ (c0 =? 45) = neg /\ (c0 =? 46) = false).
  { unfold t. destruct ws as [|w0 ws0]; [congruence|]. assert (w0 < 10) by (inversion Fw; auto).
    destruct Hs as [[-> ->]|[[-> ->]|[-> ->]]]; cbn [app chars map rd nth_error]; eexists; (split; [reflexivity|]);
      split; try reflexivity; apply N.eqb_neq; lia. }
  destruct H0 as (c0 & -> & C1 & C2). cbn [bind]. rewrite C1, C2.
  assert (P1 : to_int64_ex (t ++ 0 :: z) (length t) 10 0 = Ok (ISuccess, (sgz neg * W)%Z, Some (0 :: z))).
  { rewrite Et. unfold t. rewrite <- (app_nil_r (chars ws)) at 2. rewrite (int64_digits ws sg neg [] z 0%Z); auto.
    - rewrite signed. reflexivity.
    - constructor.
    - exact I.
    - rewrite signed. exact Iv. }
  rewrite P1. cbn [bind]. rewrite !app_length. cbn [length].
  replace (length t + S (length z) - S (length z))%nat with (length t) by lia.
  destruct (Nat.ltb_spec (length t) (length t)); [lia|]. cbn [bind].
  change (0 =? 0)%Z with true. cbv iota. cbn [join_loop bind length].
  replace (length t + S (length z) - S (length z))%nat with (length t) by lia.
  destruct (Nat.ltb_spec (length t) (length t + 1)); [|lia]. cbn [rd nth_error bind]. change (is_e 0) with false. cbv iota.
  change (0 mod 256)%nat with 0%nat. reflexivity.
Qed.

Lemma roundtrip d z : valid d -> printable d -> (nd d <= 18)%nat \/ num d <> imin ->
  exists t, (forall len, (length t < len)%nat -> to_str d len = Ok (Success, t)) /\
  exists d', from_str (t ++ 0 :: z) (length t) = Ok (Success, d', Some (0 :: z)) /\ (qval d' == qval d)%Q.
Proof.
  intros V P Hm. destruct (to_str_ok d V P) as (ws & fs & Vl & Lf & Nw & Fw & Ff & _ & E).
  exists (text_of d ws fs). split.
  { intros len L. rewrite E. destruct (Nat.ltb_spec (length (text_of d ws fs)) len); [reflexivity|lia]. }
  destruct V as [V W].
  assert (Hs : sign_text (sign_chars (num d)) (num d <? 0)%Z).
  { unfold sign_chars, sign_text. destruct (num d <? 0)%Z; auto. }
  assert (Hn : (sgz (num d <? 0)%Z * Z.of_N (value 10 (ws ++ fs)))%Z = num d).
  { rewrite Vl. unfold sgz. destruct (Z.ltb_spec (num d) 0); lia. }
  unfold text_of. destruct (Nat.eqb_spec (nd d) 0) as [K|K].
  - destruct fs; [|cbn in Lf; lia]. rewrite !app_nil_r in *.
    rewrite (from_str_whole ws _ (num d <? 0)%Z) by (auto; rewrite Hn; auto). eexists. split; [reflexivity|].
    unfold qval. cbn [num nd]. rewrite Hn, K. reflexivity.
  - destruct (from_str_point ws fs (sign_chars (num d)) (num d <? 0)%Z z) as (d' & E' & Q); auto.
    + intros ->. cbn in Lf. lia.
    + lia.
    + assert (B1 : value 10 fs <= value 10 (ws ++ fs)) by (rewrite value_app; lia). rewrite Vl in B1.
      pose proof (value_lt 10 fs Ff) as B2. rewrite Lf in B2.
      unfold in64, imin, imax in *. split; [lia|]. destruct Hm as [Hm|Hm]; [|lia].
      pose proof (pow10_le (nd d) 18 Hm). change (10 ^ N.of_nat 18) with 1000000000000000000 in *. lia.
    + rewrite Hn. exact V.
    + exists d'. split; [exact E'|]. rewrite Q. unfold text_ratio. fold (sgz (num d <? 0)%Z). rewrite Hn, Lf. reflexivity.
Qed.

(** What the writer writes is a text of the grammar. *)
From Coq Require Import QArith.
From Verif Require Import Base.Lib Base.Mem StrNum.Model StrNum.Spec Utf8.Model Utf8.Spec Utf8.Proofs Utf8.Text.
From Verif Require Import Decimal.Model Decimal.Spec Decimal.Arith Decimal.Proofs Decimal.Text Json.Model Json.Spec Json.Number Json.Read Json.Tree.
Import StrNum.Proofs.
Local Open Scope N_scope.

(** ** Trees *)
Section Induction.
Variable P : json -> Prop.
Hypothesis Hobj : forall l, Forall (fun kv => P (snd kv)) l -> P (JObj l).
Hypothesis Harr : forall l, Forall P l -> P (JArr l).
Hypothesis Hstr : forall s, P (JStr s).
Hypothesis Hint : forall z, P (JInt z).
Hypothesis Hdec : forall d, P (JDec d).
Hypothesis Hbool : forall b, P (JBool b).
Hypothesis Hnull : P JNull.
Fixpoint json_tree_ind (v : json) : P v :=
  match v with
  | JObj l => Hobj l ((fix go (l : list (list N * json)) : Forall (fun kv => P (snd kv)) l :=
      match l with [] => Forall_nil _ | kv :: r => Forall_cons kv (json_tree_ind (snd kv)) (go r) end) l)
  | JArr l => Harr l ((fix go (l : list json) : Forall P l :=
      match l with [] => Forall_nil _ | x :: r => Forall_cons x (json_tree_ind x) (go r) end) l)
  | JStr s => Hstr s
  | JInt z => Hint z
  | JDec d => Hdec d
  | JBool b => Hbool b
  | JNull => Hnull
  end.
End Induction.

(** ** Escaped characters *)
Lemma hex_chr_val d : d < 16 -> hexval (hex_chr d) d.
Proof. intros H. unfold hexval, hex_chr. destruct (N.ltb_spec d 10); lia. Qed.

Lemma hex_loop_step f n acc : hex_loop (S f) n acc = if n / 16 =? 0 then hex_chr (n mod 16) :: acc else hex_loop f (n / 16) (hex_chr (n mod 16) :: acc).
Proof. reflexivity. Qed.

Lemma print_x4_ok n : n < 65536 -> print_x4 n = [hex_chr (n / 4096); hex_chr (n / 256 mod 16); hex_chr (n / 16 mod 16); hex_chr (n mod 16)].
Proof.
  intros H. unfold print_x4.
  assert (D2 : n / 16 / 16 = n / 256) by (rewrite N.div_div by lia; reflexivity).
  assert (D3 : n / 256 / 16 = n / 4096) by (rewrite N.div_div by lia; reflexivity).
  assert (D4 : n / 4096 / 16 = 0) by (rewrite N.div_div by lia; apply N.div_small; lia).
  assert (M4 : n / 4096 mod 16 = n / 4096) by (apply N.mod_small; apply N.div_lt_upper_bound; lia).
  rewrite hex_loop_step. destruct (N.eqb_spec (n / 16) 0) as [E1|E1].
  { cbn [length Nat.sub repeat app]. rewrite <- D3, <- D2, E1. reflexivity. }
  rewrite hex_loop_step, D2. destruct (N.eqb_spec (n / 256) 0) as [E2|E2].
  { cbn [length Nat.sub repeat app]. rewrite <- D3, E2. reflexivity. }
  rewrite hex_loop_step, D3. destruct (N.eqb_spec (n / 4096) 0) as [E3|E3].
  { cbn [length Nat.sub repeat app]. rewrite E3. reflexivity. }
  rewrite hex_loop_step, D4, M4. reflexivity.
Qed.

Lemma uni_ok n t v : n < 65536 -> n <> 0 -> code_cp n -> Chars t v -> Chars (([92; 117] ++ print_x4 n) ++ t) (utf8_enc n ++ v).
Proof.
  intros H H0 V C. rewrite print_x4_ok by auto. cbn [app].
  apply (Ch_uni _ _ _ _ (n / 4096) (n / 256 mod 16) (n / 16 mod 16) (n mod 16)); auto; try (apply hex_chr_val; try (apply N.mod_lt; lia); apply N.div_lt_upper_bound; lia).
  assert (D2 : n / 16 / 16 = n / 256) by (rewrite N.div_div by lia; reflexivity).
  assert (D3 : n / 256 / 16 = n / 4096) by (rewrite N.div_div by lia; reflexivity).
  pose proof (N.div_mod' n 16). pose proof (N.div_mod' (n / 16) 16). pose proof (N.div_mod' (n / 256) 16). lia.
Qed.

Lemma x4_no_nul n : n < 65536 -> no_nul (print_x4 n).
Proof.
  intros H. rewrite print_x4_ok by auto. assert (X : forall d, hex_chr d <> 0) by (intros d; unfold hex_chr; destruct (_ <? _); lia).
  unfold no_nul. repeat constructor; apply X.
Qed.

Ltac flat := repeat (progress (cbn [app]; rewrite <- ?app_assoc)); reflexivity.
Section Writes.
Variable fl : wflags.

Notation wcp := (safe_char (w_noencode fl)).

Lemma enc_high cp : 128 <= cp -> Forall (fun c => 128 <= c) (utf8_enc cp).
Proof.
  intros H. unfold utf8_enc. rewrite (proj2 (N.ltb_ge cp 128)) by auto. destruct (cp <? 0x800); [|destruct (cp <? 0x10000)]; repeat constructor; lia.
Qed.

Lemma plain_chars b t v : Forall (fun c => 128 <= c) b -> Chars t v -> Chars (b ++ t) (b ++ v).
Proof. intros F C. induction F as [|c b Hc F IH]; auto. cbn [app]. constructor; auto; lia. Qed.

Lemma code_low c : c < 128 -> code_cp c.
Proof. intros H. left. split; [split; lia|]. unfold nonchar. rewrite (N.mod_small c) by lia. lia. Qed.

Lemma string_chars_ok cps : Forall wcp cps -> forall f, (length (utf8_text cps) < f)%nat ->
  exists t, string_chars fl f (utf8_text cps) = Ok (Some t) /\ Chars t (utf8_text cps) /\ no_nul t.
Proof.
  induction 1 as [|cp cps (V & N0 & W) F IH]; intros f Hf; (destruct f as [|f]; [lia|]).
  { exists []. split; [reflexivity|]. split; constructor. }
  rewrite text_cons in *. rewrite app_length in Hf. destruct (N.lt_ge_cases cp 128) as [L|L].
  - assert (Ee : utf8_enc cp = [cp]) by (unfold utf8_enc; now rewrite (proj2 (N.ltb_lt cp 128))). rewrite Ee in *. cbn [app length] in *.
    destruct (IH f ltac:(lia)) as (t & E & C & Nn). cbn [string_chars]. rewrite !E. cbn [bind option_map].
    assert (Esc : forall e, escape e cp -> e <> 0 -> exists t0, Ok (Some ([92; e] ++ t)) = Ok (Some t0) /\ Chars t0 (cp :: utf8_text cps) /\ no_nul t0).
    { intros e He Ne. eexists. split; [reflexivity|]. cbn [app]. split; [now constructor|]. unfold no_nul in *. repeat constructor; auto; discriminate. }
    destruct (N.eqb_spec cp 8) as [->|]; [apply Esc; [unfold escape; lia|discriminate]|].
    destruct (N.eqb_spec cp 12) as [->|]; [apply Esc; [unfold escape; lia|discriminate]|].
    destruct (N.eqb_spec cp 10) as [->|]; [apply Esc; [unfold escape; lia|discriminate]|].
    destruct (N.eqb_spec cp 13) as [->|]; [apply Esc; [unfold escape; lia|discriminate]|].
    destruct (N.eqb_spec cp 9) as [->|]; [apply Esc; [unfold escape; lia|discriminate]|].
    destruct (N.eqb_spec cp 47) as [->|]; [apply Esc; [unfold escape; lia|discriminate]|].
    destruct (N.eqb_spec cp 34) as [->|]; [apply Esc; [unfold escape; lia|discriminate]|].
    destruct (N.eqb_spec cp 92) as [->|]; [apply Esc; [unfold escape; lia|discriminate]|]. cbn [orb].
    destruct (N.ltb_spec cp 32).
    + eexists. split; [reflexivity|]. split.
      * change (cp :: utf8_text cps) with ([cp] ++ utf8_text cps). rewrite <- Ee. apply uni_ok; auto. lia.
      * unfold no_nul in *. cbn [app]. constructor; [discriminate|]. constructor; [discriminate|]. apply Forall_app. split; auto. apply x4_no_nul. lia.
    + rewrite (proj2 (N.ltb_ge 127 cp)) by lia. eexists. split; [reflexivity|]. cbn [app]. split; [constructor; auto|]. constructor; auto.
  - pose proof (enc_high cp L) as Hh. destruct (enc_nonempty cp) as (c & l & Ec). assert (Hc : 128 <= c) by (rewrite Ec in Hh; now inversion Hh).
    assert (Tn : no_nul (utf8_text cps)) by (apply text_no_nul; eapply Forall_impl; [|exact F]; intros a (? & ? & ?); split; auto).
    assert (Nn0 : no_nul (utf8_enc cp ++ utf8_text cps)) by (apply Forall_app; split; auto; now apply enc_no_nul).
    assert (G : get_cp ((utf8_enc cp ++ utf8_text cps) ++ [0]) = Ok (USuccess, cp, Some (utf8_text cps ++ [0]))).
    { apply get_cp_iff_lemma; auto; [rewrite Ec; discriminate|]. split; auto. eauto. }
    assert (SC : string_chars fl (S f) (utf8_enc cp ++ utf8_text cps) = do o <- string_chars fl f (utf8_text cps);
      Ok (option_map (app (if w_noencode fl then utf8_enc cp else [92; 117] ++ print_x4 cp)) o)).
    { rewrite Ec in G |- *. cbn [app string_chars].
      repeat match goal with |- context [c =? ?b] => rewrite (proj2 (N.eqb_neq c b)) by lia end. cbn [orb]. rewrite (proj2 (N.ltb_ge c 32)), (proj2 (N.ltb_lt 127 c)) by lia.
      cbn [app] in G. rewrite G. cbn [bind].
      assert (En : (S (length (c :: l ++ utf8_text cps)) - length (utf8_text cps ++ [0%N]))%nat = length (c :: l)) by (cbn [length]; rewrite !app_length; cbn [length]; lia).
      rewrite En. change (c :: l ++ utf8_text cps) with ((c :: l) ++ utf8_text cps). rewrite skipn_app, skipn_all, Nat.sub_diag. cbn [app skipn].
      change (c :: l ++ utf8_text cps) with ((c :: l) ++ utf8_text cps). rewrite firstn_app, firstn_all, Nat.sub_diag, firstn_O, app_nil_r. reflexivity. }
    rewrite SC. destruct (IH f) as (t & E & C & Nn); [rewrite Ec in Hf; cbn [length] in Hf; lia|]. rewrite E. cbn [bind option_map].
    eexists. split; [reflexivity|]. destruct (w_noencode fl) eqn:Ew.
    + split; [now apply plain_chars|]. apply Forall_app. split; auto. now apply enc_no_nul.
    + destruct W as [W|W]; [discriminate W|]. split; [apply uni_ok; auto; lia|].
      apply Forall_app. split; auto. unfold no_nul. constructor; [discriminate|]. constructor; [discriminate|]. apply x4_no_nul. lia.
Qed.

(** ** Numbers *)
Lemma write_integer_ok z : (- js_max <= z <= js_max)%Z -> Num (write_integer fl z) (JInt z) /\ no_nul (write_integer fl z).
Proof.
  intros H. unfold write_integer. assert (U : unsafe_int z = false) by (unfold unsafe_int; destruct (Z.ltb_spec z (- js_max)); [lia|]; destruct (Z.ltb_spec js_max z); [lia|reflexivity]).
  rewrite U, andb_false_r. cbn [app]. rewrite app_nil_r. unfold print_int. unfold js_max in H.
  destruct (print_u64_ok (Z.to_N (Z.abs z)) ltac:(change (2 ^ 64) with 18446744073709551616; lia)) as (ds & -> & Vd & Fd & Nd & _).
  change (if (z <? 0)%Z then [45] else []) with (minus (z <? 0)%Z). split.
  - apply N_int; [split; auto|..].
    + rewrite Vd. destruct (Z.ltb_spec z 0); unfold fits; lia.
    + unfold number, text_ratio. rewrite app_nil_r, Vd. cbn [length]. rewrite ratio_0. destruct (Z.ltb_spec z 0); apply inject_Z_injective; lia.
  - apply Forall_app. split; [|apply chars_no_nul]. unfold minus. destruct (z <? 0)%Z; repeat constructor; discriminate.
Qed.

Lemma half_away_bound n m q M : (0 < m)%Z -> half_away n m q -> (Z.abs n <= M * m)%Z -> (Z.abs q <= M)%Z.
Proof.
  unfold half_away. intros Hm [H _] B. assert (2 * (Z.abs q * m) <= (2 * M + 1) * m)%Z by (rewrite <- (Z.abs_eq m) at 1 by lia; rewrite <- Z.abs_mul; lia).
  assert (2 * Z.abs q <= 2 * M + 1)%Z by nia. lia.
Qed.

Lemma write_decimal_ok d : safe_dec d -> exists t v, write_decimal fl d = Ok (Some t) /\ Num t v /\ number (qval d) v /\ no_nul t.
Proof.
  intros (Vn & Hn & B). change (2 ^ 53 - 1)%Z with js_max in B. assert (V : valid d) by (split; [now apply fits_in64|lia]). fold (p10 (nd d)) in B.
  assert (T : exists i, to_int d 0 = Ok i /\ unsafe_int i = false).
  { assert (X : forall i, (Z.abs i <= js_max)%Z -> unsafe_int i = false).
    { intros i Hi. unfold unsafe_int. destruct (Z.ltb_spec i (- js_max)); [lia|]; destruct (Z.ltb_spec js_max i); [lia|reflexivity]. }
    destruct (Nat.eq_dec (nd d) 0) as [E0|E0].
    - exists (num d). split; [now apply to_int_0|]. apply X. rewrite E0, p10_0 in B. lia.
    - unfold to_int. assert (Ci : num d <> imin \/ (nd d - 0)%nat <> 1%nat).
      { destruct (Nat.eq_dec (nd d) 1) as [E1|]; [left|right; lia]. rewrite E1 in B. change (p10 1) with 10%Z in B. unfold js_max, imin in *. lia. }
      destruct (transform_down d 0 RTrad V ltac:(lia)) as [(_ & L' & _)|(_ & T)]; [lia|]. destruct (T (or_intror Ci)) as (q & E & R & _ & _). rewrite E. cbn [bind num].
      exists q. split; [now destruct (_ =? 0)%Z|]. apply X. rewrite Nat.sub_0_r in R. cbn [rounded] in R. apply (half_away_bound (num d) (p10 (nd d))); auto. apply p10_pos. }
  destruct T as (i & Ei & Ui). unfold write_decimal. rewrite Ei. cbn [bind]. rewrite Ui. rewrite (proj2 (Nat.ltb_ge 15 (nd d))) by auto. cbn [orb]. rewrite andb_false_r.
  destruct (to_str_ok d V) as (ws & fs & Vl & Lf & Nw & Fw & Ff & Lw & E); [left; lia|]. rewrite E. cbn [bind].
  assert (Wl : (length ws <= 20)%nat).
  { destruct Lw as [->|Lw]; [lia|]. assert (Hv : value 10 ws <= value 10 (ws ++ fs)) by (rewrite value_app; pose proof (N.pow_nonzero 10 (N.of_nat (length fs))); nia).
    destruct (le_lt_dec (length ws) 20); auto. pose proof (pow10_le 20 (length ws - 1) ltac:(lia)) as P. change (10 ^ N.of_nat 20) with 100000000000000000000 in P. unfold fits in Vn. lia. }
  assert (Lt : (length (text_of d ws fs) <? 256)%nat = true).
  { apply Nat.ltb_lt. unfold text_of, sign_chars. rewrite !app_length. destruct (nd d =? 0)%nat, (num d <? 0)%Z; cbn [length]; rewrite ?chars_length; lia. }
  rewrite Lt. cbn [app]. rewrite app_nil_r.
  set (r := reduce d). exists (text_of d ws fs), (if (nd r =? 0)%nat then JInt (num r) else JDec r). split; [reflexivity|].
  assert (Nv : number (qval d) (if (nd r =? 0)%nat then JInt (num r) else JDec r)).
  { pose proof (reduce_qval d) as Q. fold r in Q. destruct (reduce_spec d) as (j & _ & _ & R). fold r in R. destruct (Nat.eqb_spec (nd r) 0) as [E0|E0]; cbn [number].
    - rewrite <- Q. unfold qval. rewrite E0. apply ratio_0.
    - split; [rewrite <- Q; reflexivity|]. split; auto. rewrite <- rem10. tauto. }
  assert (Sv : ((if (num d <? 0)%Z then -1 else 1) * Z.of_N (value 10 (ws ++ fs)))%Z = num d) by (rewrite Vl; destruct (Z.ltb_spec (num d) 0); lia).
  assert (Qe : (text_ratio (num d <? 0)%Z ws fs == qval d)%Q) by (unfold text_ratio, qval; rewrite Sv, Lf; reflexivity).
  assert (Nm : number (text_ratio (num d <? 0)%Z ws fs) (if (nd r =? 0)%nat then JInt (num r) else JDec r)).
  { destruct (nd r =? 0)%nat; cbn [number] in *; [now rewrite Qe|]. destruct Nv as (Nv & ?). split; auto. now rewrite Qe. }
  split; [|split; auto].
  - unfold text_of. change (sign_chars (num d)) with (minus (num d <? 0)%Z). destruct (Nat.eqb_spec (nd d) 0) as [E0|E0].
    + rewrite E0 in Lf. destruct fs; [|discriminate Lf]. rewrite app_nil_r in *. apply N_int; auto; [split; auto|]. now rewrite Sv.
    + apply N_frac; auto; [split; auto|split; auto; destruct fs; [cbn in Lf; lia|discriminate]|lia| |now rewrite Sv].
      assert (Hv : value 10 fs <= value 10 (ws ++ fs)) by (rewrite value_app; lia). pose proof (StrNum.Proofs.value_lt 10 fs Ff) as Hl.
      pose proof (pow10_le (length fs) 15 ltac:(lia)) as P. change (10 ^ N.of_nat 15) with 1000000000000000 in P. unfold fits. lia.
  - unfold text_of, sign_chars. apply Forall_app. split; [destruct (num d <? 0)%Z; repeat constructor; discriminate|]. apply Forall_app. split; [apply chars_no_nul|].
    destruct (nd d =? 0)%nat; [constructor|]. constructor; [discriminate|apply chars_no_nul].
Qed.

(** ** White space *)
Lemma ign_app cm a b : Ign cm a -> Ign cm b -> Ign cm (a ++ b).
Proof.
  intros I1 I2. induction I1 as [|c w Hc I IH|x w C Hb I IH|x w C Hb I IH]; auto.
  - cbn [app]. now constructor.
  - cbn [app]. rewrite <- app_assoc. cbn [app]. now constructor.
  - cbn [app]. rewrite <- app_assoc. cbn [app]. now constructor.
Qed.
Lemma ign_repeat cm c n : c = 32 \/ c = 9 \/ c = 10 \/ c = 13 -> Ign cm (repeat c n).
Proof. intros H. induction n; cbn [repeat]; [apply I_nil|now apply I_ws]. Qed.
Lemma ign_depth cm n : Ign cm (write_depth fl n).
Proof. unfold write_depth. destruct (w_space fl); [|destruct (w_tab fl)]; [apply ign_repeat; auto..|apply I_nil]. Qed.
Lemma ign_newline cm : Ign cm (write_newline fl).
Proof. unfold write_newline. destruct (negb _); [apply I_nil|]. destruct (w_crlf fl); repeat (apply I_ws; [auto|]); apply I_nil. Qed.
Lemma ign_no_nul w : Ign false w -> no_nul w.
Proof. induction 1 as [|c w Hc I IH|x w C|x w C]; [constructor|constructor; auto; lia|discriminate C..]. Qed.
Lemma nul_depth n : no_nul (write_depth fl n).
Proof. apply ign_no_nul, ign_depth. Qed.
Lemma nul_newline : no_nul (write_newline fl).
Proof. apply ign_no_nul, ign_newline. Qed.
Lemma no_nul_app a b : no_nul a -> no_nul b -> no_nul (a ++ b).
Proof. intros. now apply Forall_app. Qed.
Lemma no_nul_cons c b : c <> 0 -> no_nul b -> no_nul (c :: b).
Proof. intros. now constructor. Qed.

(** ** Trees *)
Definition warr (depth : nat) := fix go (l : list json) : res (option (list N)) :=
  match l with
  | [] => Ok (Some [])
  | v :: r =>
    do o <- write_node fl (S depth) v;
    match o with
    | None => Ok None
    | Some t =>
      do o <- go r;
      Ok (option_map (app (write_depth fl (S depth) ++ t ++ (match r with [] => [] | _ => [44] end) ++ write_newline fl)) o)
    end
  end.
Definition wobj (depth : nat) := fix go (l : list (list N * json)) : res (option (list N)) :=
  match l with
  | [] => Ok (Some [])
  | (k, v) :: r =>
    do o <- write_node fl (S depth) v;
    match o with
    | None => Ok None
    | Some t =>
      do o <- go r;
      Ok (option_map (app (write_depth fl (S depth) ++ [34] ++ k ++ [34] ++ (if pretty fl then [32] else []) ++ [58] ++
        (if pretty fl then [32] else []) ++ t ++ (match r with [] => [] | _ => [44] end) ++ write_newline fl)) o)
    end
  end.
Lemma write_arr depth l : write_node fl depth (JArr l) = do o <- warr depth l; Ok (option_map (fun t => [91] ++ write_newline fl ++ t ++ write_depth fl depth ++ [93]) o).
Proof. reflexivity. Qed.
Lemma write_obj depth l : write_node fl depth (JObj l) = do o <- wobj depth l; Ok (option_map (fun t => [123] ++ write_newline fl ++ t ++ write_depth fl depth ++ [125]) o).
Proof. reflexivity. Qed.

Definition good (depth : nat) (v : json) : Prop := exists t v', write_node fl depth v = Ok (Some t) /\ same v v' /\ no_nul t /\ forall cm du, Val cm du t v'.

Lemma warr_ok depth l : l <> [] -> Forall (good (S depth)) l ->
  exists t l', warr depth l = Ok (Some (write_depth fl (S depth) ++ t)) /\ Forall2 same l l' /\ no_nul t /\ forall cm du w, Ign cm w -> Elems cm du (t ++ w) l'.
Proof.
  intros N0 F. induction F as [|v l (t & v' & E & S & Nn & V) F IH]; [congruence|]. cbn [warr]. rewrite E. cbn [bind]. destruct l as [|x l].
  - cbn [warr bind option_map]. exists (t ++ write_newline fl), [v']. rewrite app_nil_r. split; [reflexivity|]. split; [repeat constructor; auto|].
    split; [apply no_nul_app; auto; apply nul_newline|]. intros cm du w I. rewrite <- app_assoc. apply E_one; auto. apply ign_app; auto. apply ign_newline.
  - destruct IH as (ts & l' & El & Sl & Nl & Vl); [discriminate|]. rewrite El. cbn [bind option_map].
    exists (t ++ [] ++ 44 :: (write_newline fl ++ write_depth fl (Datatypes.S depth)) ++ ts), (v' :: l'). split; [|split; [now constructor|split]].
    + f_equal. f_equal. flat.
    + cbn [app]. repeat (apply no_nul_app || apply no_nul_cons); auto; [discriminate|apply nul_newline|apply nul_depth].
    + intros cm du w I. rewrite <- app_assoc. cbn [app]. rewrite <- app_assoc. apply (E_more cm du t v' []); auto; [apply I_nil|apply ign_app; [apply ign_newline|apply ign_depth]].
Qed.

Lemma key_chars k : Forall (fun c => 32 <= c /\ c <> 34 /\ c <> 92) k -> Chars k k.
Proof. induction 1 as [|c k (H1 & H2 & H3) F IH]; constructor; auto. Qed.

Definition sp : list N := if pretty fl then [32] else [].
Lemma ign_sp cm : Ign cm sp.
Proof. unfold sp. destruct (pretty fl); repeat constructor. Qed.

Lemma wobj_ok depth l : l <> [] -> Forall (fun kv => safe_key (fst kv)) l -> Forall (fun kv => good (S depth) (snd kv)) l ->
  exists t l', wobj depth l = Ok (Some (write_depth fl (S depth) ++ t)) /\ Forall2 (fun kv kv' => fst kv = fst kv' /\ same (snd kv) (snd kv')) l l' /\
    no_nul t /\ forall cm du w, Ign cm w -> Members cm du (t ++ w) l'.
Proof.
  intros N0 K F. induction F as [|[k v] l (t & v' & E & S & Nn & V) F IH]; [congruence|]. inversion K as [|? ? [Hk Fk] K']; subst. cbn [fst snd] in *.
  assert (Nk : no_nul k) by (eapply Forall_impl; [|exact Fk]; intros a (? & _); lia). pose proof (key_chars k Fk) as Ck.
  assert (Nsp : no_nul sp) by (apply ign_no_nul, ign_sp).
  cbn [wobj]. fold sp. rewrite E. cbn [bind]. destruct l as [|x l].
  - cbn [wobj bind option_map]. exists ((34 :: k ++ [34]) ++ sp ++ 58 :: sp ++ t ++ write_newline fl), [(k, v')]. rewrite app_nil_r.
    split; [cbn [app]; rewrite <- !app_assoc; reflexivity|]. split; [repeat constructor; auto|]. split.
    + repeat (apply no_nul_app || apply no_nul_cons); auto; try discriminate; [constructor|apply nul_newline].
    + intros cm du w I. replace (((34 :: k ++ [34]) ++ sp ++ 58 :: sp ++ t ++ write_newline fl) ++ w) with ((34 :: k ++ [34]) ++ sp ++ 58 :: sp ++ t ++ (write_newline fl ++ w)).
      * apply M_one; auto; try apply ign_sp. apply ign_app; auto. apply ign_newline.
      * flat.
  - destruct IH as (ts & l' & El & Sl & Nl & Vl); [discriminate|auto|]. rewrite El. cbn [bind option_map].
    exists ((34 :: k ++ [34]) ++ sp ++ 58 :: sp ++ t ++ [] ++ 44 :: (write_newline fl ++ write_depth fl (Datatypes.S depth)) ++ ts), ((k, v') :: l'). split; [|split; [constructor; auto|split]].
    + f_equal. f_equal. flat.
    + cbn [app]. repeat (apply no_nul_app || apply no_nul_cons); auto; try discriminate; [constructor|apply nul_newline|apply nul_depth].
    + intros cm du w I.
      replace (((34 :: k ++ [34]) ++ sp ++ 58 :: sp ++ t ++ [] ++ 44 :: (write_newline fl ++ write_depth fl (Datatypes.S depth)) ++ ts) ++ w)
        with ((34 :: k ++ [34]) ++ sp ++ 58 :: sp ++ t ++ [] ++ 44 :: (write_newline fl ++ write_depth fl (Datatypes.S depth)) ++ (ts ++ w)).
      * apply M_more; auto; try apply ign_sp; [apply I_nil|apply ign_app; [apply ign_newline|apply ign_depth]].
      * flat.
Qed.

Lemma merged_nodup l : NoDup (map fst l) -> merged l l.
Proof.
  intros ND. split.
  - unfold firsts. rewrite nodup_fixed_point by now apply NoDup_rev. now rewrite rev_involutive.
  - apply Forall_forall. intros [k v] H. unfold last_of. destruct (find _ (rev l)) as [[k' v']|] eqn:E.
    + apply find_some in E. cbn [fst snd] in *. destruct E as [E1 E2]. destruct (list_eq_dec N.eq_dec k' k) as [->|]; [|discriminate E2]. apply in_rev in E1. cbn [option_map snd]. f_equal.
      clear E2. induction l as [|[a b] l IH]; [destruct H|]. cbn [map fst] in ND. inversion ND as [|? ? D1 D2]; subst. destruct H as [H|H], E1 as [E1|E1]; try congruence; auto.
      * injection H as -> ->. exfalso. apply D1. apply (in_map fst) in E1. exact E1.
      * injection E1 as -> ->. exfalso. apply D1. apply (in_map fst) in H. exact H.
    + apply in_rev in H. eapply find_none in E; [|exact H]. cbn [fst] in E. now destruct (list_eq_dec N.eq_dec k k).
Qed.

Lemma write_node_ok v : writable (w_noencode fl) v -> forall depth, good depth v.
Proof.
  induction v as [l IH|l IH|s|z|d|b|] using json_tree_ind; intros W depth; inversion W; subst.
  - destruct l as [|kv l].
    + exists ([123] ++ write_newline fl ++ [] ++ write_depth fl depth ++ [125]), (JObj []). split; [reflexivity|]. split; [repeat constructor|]. split.
      * cbn [app]. repeat (apply no_nul_app || apply no_nul_cons); try discriminate; [apply nul_newline|apply nul_depth|constructor].
      * intros cm du. cbn [app]. rewrite app_assoc. apply V_obj0. apply ign_app; [apply ign_newline|apply ign_depth].
    + destruct (wobj_ok depth (kv :: l)) as (t & l' & E & Sl & Nn & V); [discriminate|auto| |].
      { rewrite Forall_forall in *. intros x Hx. apply IH; auto. }
      unfold good. rewrite write_obj, E. cbn [bind option_map]. eexists. exists (JObj l'). split; [reflexivity|]. split; [now constructor|].
      assert (Ek : map fst l' = map fst (kv :: l)) by (clear - Sl; induction Sl as [|a b la lb [H _] Sl IHs]; auto; cbn [map]; congruence).
      split.
      * cbn [app]. repeat (apply no_nul_app || apply no_nul_cons); try discriminate; auto; [apply nul_newline|apply nul_depth|apply nul_depth|constructor].
      * intros cm du. replace ([123] ++ write_newline fl ++ (write_depth fl (S depth) ++ t) ++ write_depth fl depth ++ [125])
          with (123 :: (write_newline fl ++ write_depth fl (S depth)) ++ (t ++ write_depth fl depth) ++ [125]) by (cbn [app]; now rewrite <- !app_assoc).
        apply (V_obj cm du _ _ l'); [apply ign_app; [apply ign_newline|apply ign_depth]|apply V, ign_depth|apply merged_nodup; now rewrite Ek|intros _; now rewrite Ek].
  - destruct l as [|x l].
    + exists ([91] ++ write_newline fl ++ [] ++ write_depth fl depth ++ [93]), (JArr []). split; [reflexivity|]. split; [repeat constructor|]. split.
      * cbn [app]. repeat (apply no_nul_app || apply no_nul_cons); try discriminate; [apply nul_newline|apply nul_depth|constructor].
      * intros cm du. cbn [app]. rewrite app_assoc. apply V_arr0. apply ign_app; [apply ign_newline|apply ign_depth].
    + destruct (warr_ok depth (x :: l)) as (t & l' & E & Sl & Nn & V); [discriminate| |].
      { rewrite Forall_forall in *. intros y Hy. apply IH; auto. }
      unfold good. rewrite write_arr, E. cbn [bind option_map]. eexists. exists (JArr l'). split; [reflexivity|]. split; [now constructor|]. split.
      * cbn [app]. repeat (apply no_nul_app || apply no_nul_cons); try discriminate; auto; [apply nul_newline|apply nul_depth|apply nul_depth|constructor].
      * intros cm du. replace ([91] ++ write_newline fl ++ (write_depth fl (S depth) ++ t) ++ write_depth fl depth ++ [93])
          with (91 :: (write_newline fl ++ write_depth fl (S depth)) ++ (t ++ write_depth fl depth) ++ [93]) by (cbn [app]; now rewrite <- !app_assoc).
        apply V_arr; [apply ign_app; [apply ign_newline|apply ign_depth]|apply V, ign_depth].
  - destruct (string_chars_ok cps H0 (S (length (utf8_text cps))) ltac:(lia)) as (t & E & C & Nn). exists (34 :: t ++ [34]), (JStr (utf8_text cps)).
    split; [cbn [write_node]; unfold write_string; rewrite E; reflexivity|]. split; [constructor|]. split; [|intros; now apply V_str].
    repeat (apply no_nul_app || apply no_nul_cons); try discriminate; auto. constructor.
  - destruct (write_integer_ok z) as (Nm & Nn); [exact H0|]. exists (write_integer fl z), (JInt z). split; [reflexivity|]. split; [constructor|]. split; auto. intros. now apply V_num.
  - destruct (write_decimal_ok d H0) as (t & v & E & Nm & Q & Nn). exists t, v. split; [exact E|]. split; [now constructor|]. split; auto. intros. now apply V_num.
  - exists (if b then lit_true else lit_false), (JBool b). split; [reflexivity|]. split; [constructor|]. destruct b; (split; [repeat constructor; discriminate|intros; constructor]).
  - exists lit_null, JNull. split; [reflexivity|]. split; [constructor|]. split; [repeat constructor; discriminate|intros; constructor].
Qed.
End Writes.

(** The reader on arbitrary input: it ends, and what it accepts is a proper tree. *)
From Verif Require Import Base.Lib Base.Mem Hex.Model StrNum.Model Utf8.Model Decimal.Model Decimal.Arith.
From Verif Require Import Json.Model Json.Spec Json.Read Json.Tree.
Local Open Scope N_scope.

Definition nf {A} (m : res A) : Prop := m <> Fuel.
Lemma nf_ok {A} (a : A) : nf (Ok a).
Proof. discriminate. Qed.
Lemma nf_ub {A} : nf (@UB A).
Proof. discriminate. Qed.
Lemma nf_bind {A B} (m : res A) (k : A -> res B) : nf m -> (forall a, m = Ok a -> nf (k a)) -> nf (bind m k).
Proof. unfold nf. intros H K. destruct m; cbn; auto; congruence. Qed.
Lemma nf_rd {A} (l : list A) i : nf (rd l i).
Proof. unfold nf, rd. destruct (nth_error l i); discriminate. Qed.
Lemma nf_wr {A} (l : list A) i x : nf (wr l i x).
Proof. unfold nf, wr. destruct (_ <? _)%nat; discriminate. Qed.
Create HintDb nf.
#[export] Hint Resolve nf_ok nf_ub nf_rd nf_wr : nf.

Ltac nf1 := first
  [ solve [auto with nf]
  | apply nf_bind; [|let E := fresh "E" in intros ? E]
  | match goal with |- nf (match ?x with _ => _ end) => destruct x end
  | match goal with |- nf (let _ := _ in _) => cbv zeta end
  | match goal with |- forall _, _ => intro end ].
Ltac nfs := repeat nf1.

(** ** Numbers *)
Lemma nf_digit_loop s len base : forall ret o, nf (digit_loop s len base ret o).
Proof. revert s. induction len as [|len IH]; intros s ret o; cbn [digit_loop]; nfs; apply IH. Qed.
#[export] Hint Resolve nf_digit_loop : nf.
Lemma nf_eat s len : nf (eat_whitespace s len).
Proof. revert s. induction len as [|len IH]; intros s; cbn [eat_whitespace]; nfs; apply IH. Qed.
Lemma nf_eq f max : forall a b r, nf (str_eq_max_loop f a b max r).
Proof. induction max as [|m IH]; intros a b r; cbn [str_eq_max_loop]; nfs; apply IH. Qed.
#[export] Hint Resolve nf_eat nf_eq : nf.
Lemma nf_sign s len : nf (str_sign s len).
Proof. unfold str_sign. nfs. Qed.
#[export] Hint Resolve nf_sign : nf.
Lemma nf_prep s len base : nf (intconv_prep s len base).
Proof. unfold intconv_prep, str_eq_max_int. nfs. Qed.
#[export] Hint Resolve nf_prep : nf.
Lemma nf_u64i s len base : nf (to_uint64_int s len base).
Proof. unfold to_uint64_int. nfs. Qed.
#[export] Hint Resolve nf_u64i : nf.
Lemma nf_u32 s len base v : nf (to_uint32_ex s len base v).
Proof. unfold to_uint32_ex, to_uint64_ex. nfs. Qed.
Lemma nf_i64 s len base v : nf (to_int64_ex s len base v).
Proof. unfold to_int64_ex. nfs. Qed.
Lemma nf_chk z : nf (chk z).
Proof. unfold chk. nfs. Qed.
#[export] Hint Resolve nf_u32 nf_i64 nf_chk : nf.
Lemma nf_frac ptr : forall len rv a t e, nf (frac_loop ptr len rv a t e).
Proof. induction len as [|len IH]; intros; cbn [frac_loop]; nfs; apply IH. Qed.
Lemma nf_div a b c r : nf (div_int64 a b c r).
Proof. unfold div_int64, m_abs. nfs. Qed.
#[export] Hint Resolve nf_frac nf_div : nf.
Lemma nf_join : forall k n a rv, nf (join_loop n a k rv).
Proof. induction k as [|k IH]; intros; cbn [join_loop]; nfs; apply IH. Qed.
Lemma nf_transform d k r : nf (transform d k r).
Proof. unfold transform. nfs. Qed.
#[export] Hint Resolve nf_join nf_transform : nf.

Lemma transform_nd d rv d' r : transform d (nd d - 1) r = Ok (rv, d') -> nd d' = (nd d - 1)%nat.
Proof.
  unfold transform. destruct (Nat.eqb_spec (nd d - 1) (nd d)) as [E|E]; [intros H; injection H as <- <-; lia|].
  destruct (Nat.ltb_spec (nd d) (nd d - 1)); [lia|]. destruct (num d =? 0)%Z; [intros H0; injection H0 as <- <-; reflexivity|].
  replace (nd d - (nd d - 1))%nat with 1%nat by lia. change (exp_int64 10 1) with (Success, 10%Z). cbn iota.
  destruct (div_int64 (num d) (num d) 10 r) as [[rv1 n]| |]; cbn [bind]; [intros H0; injection H0 as <- <-; reflexivity|discriminate..].
Qed.

Lemma nf_mult fuel : forall t1 t2 i, (nd t1 <= fuel)%nat -> nf (mult_loop t1 t2 i fuel).
Proof.
  induction fuel as [|fuel IH]; intros t1 t2 i H; cbn [mult_loop]; destruct (mult_int64 (num t1) (num t2)) as [rv n]; destruct (negb _); auto with nf; destruct (Nat.eqb_spec (nd t1) 0); auto with nf; [lia|].
  apply nf_bind; auto with nf. intros [rv1 t1'] E1. apply transform_nd in E1. apply nf_bind; auto with nf. intros [rv2 t2'] E2. apply IH. lia.
Qed.
Lemma nf_preploop a b : forall k t1 t2, nf (prep_loop a b t1 t2 k).
Proof. induction k as [|k IH]; intros; cbn [prep_loop]; nfs; apply IH. Qed.
#[export] Hint Resolve nf_preploop : nf.
Lemma nf_multiply d a b : nf (multiply d a b).
Proof.
  unfold multiply, prepmath. apply nf_bind; [nfs|]. intros [[[rv t1] t2]|] _; auto with nf. apply nf_bind; [apply nf_mult; lia|]. intros [[[rv1 n] t1'] i] _. nfs.
Qed.
#[export] Hint Resolve nf_multiply : nf.
Lemma nf_from_str s len : nf (from_str s len).
Proof. unfold from_str. nfs. Qed.
Lemma nf_to_int d k : nf (to_int d k).
Proof. unfold to_int. nfs. Qed.
Lemma nf_from_cp b n cp : nf (from_cp b n cp).
Proof. unfold from_cp. nfs. Qed.
#[export] Hint Resolve nf_from_str nf_to_int nf_from_cp : nf.

(** ** Lengths *)
Lemma consume_len n s : (length (consume n s) <= length s)%nat.
Proof. unfold consume. destruct (_ <=? _)%nat; [rewrite skipn_length|]; lia. Qed.
Lemma consume1_len s : (length (consume 1 s) <= length s - 1)%nat.
Proof. destruct s; cbn; lia. Qed.
Lemma eat_ws_len s : (length (eat_ws s) <= length s)%nat.
Proof. induction s as [|c s IH]; cbn; auto. destruct (chr_isspace c); cbn; lia. Qed.
Lemma after_close_len s r : after_close s = Some r -> (length r <= length s)%nat.
Proof.
  revert r. induction s as [|c s IH]; intros r; cbn [after_close]; [discriminate|]. destruct s as [|d s']; [discriminate|].
  destruct (_ && _); [intros H; injection H as <-; cbn; lia|]. intros H. apply IH in H. cbn [length] in *. lia.
Qed.
Lemma eat_eol_len s : (length (eat_eol s) <= length s)%nat.
Proof. induction s as [|c s IH]; cbn; auto. destruct (c =? 10); lia. Qed.
Lemma eat_comment_len s r : eat_comment s = inr r -> (length r <= length s)%nat.
Proof.
  unfold eat_comment. destruct s as [|c [|d s]]; try (intros H; injection H as <-; auto; fail). destruct (negb _); [intros H; injection H as <-; auto|].
  destruct (d =? 42).
  - destruct (after_close s) as [r'|] eqn:E; [|discriminate]. intros H; injection H as <-. apply after_close_len in E. cbn. lia.
  - destruct (d =? 47); [|discriminate]. intros H. assert (r = eat_eol (c :: d :: s)) as -> by congruence. apply eat_eol_len.
Qed.
Lemma eat_loop_len f : forall s r, eat_loop f s = Ok (inr r) -> (length r <= length s)%nat.
Proof.
  induction f as [|f IH]; intros s r; cbn [eat_loop]; [discriminate|]. pose proof (eat_ws_len s). destruct (eat_comment (eat_ws s)) as [e|s1] eqn:E; [discriminate|].
  apply eat_comment_len in E. pose proof (eat_ws_len s1). cbv zeta. destruct (eat_ws s1) as [|c s2] eqn:E2; [intros H1; injection H1 as <-; cbn; lia|].
  destruct (_ && _); [intros H1; apply IH in H1|intros H1; injection H1 as <-]; lia.
Qed.
Lemma eat_loop_nf f : forall s, (length s < f)%nat -> nf (eat_loop f s).
Proof.
  induction f as [|f IH]; intros s Hf; cbn [eat_loop]; [lia|]. pose proof (eat_ws_len s). destruct (eat_comment (eat_ws s)) as [e|s1] eqn:E; auto with nf.
  apply eat_comment_len in E. pose proof (eat_ws_len s1). cbv zeta. destruct (eat_ws s1) as [|c s2] eqn:E2; auto with nf.
  destruct (_ && _) eqn:Eb; auto with nf. apply andb_prop in Eb. destruct Eb as [_ Eb]. apply negb_true_iff, Nat.eqb_neq in Eb. apply IH. lia.
Qed.
Section Reader.
Variable tail : list N.
Variable fl : rflags.
Lemma eat_ignored_len s r : eat_ignored fl s = Ok (inr r) -> (length r <= length s)%nat.
Proof. unfold eat_ignored. destruct (r_nocomment fl); [intros H; injection H as <-; apply eat_ws_len|apply eat_loop_len]. Qed.
Lemma eat_ignored_nf s : nf (eat_ignored fl s).
Proof. unfold eat_ignored. destruct (r_nocomment fl); auto with nf. apply eat_loop_nf. lia. Qed.

Lemma skip_bad_len p : forall n j s r, skip_bad p j n s = Ok r -> (length r <= length s)%nat.
Proof.
  induction n as [|n IH]; intros j s r; cbn [skip_bad]; [intros H; injection H as <-; auto|]. destruct (rd p (1 + j)) as [c| |]; cbn [bind]; try discriminate.
  intros H. apply IH in H. destruct (chr_ishex c); auto. pose proof (consume_len 1 s). lia.
Qed.
Lemma skip_bad_nf p : forall n j s, nf (skip_bad p j n s).
Proof. induction n as [|n IH]; intros; cbn [skip_bad]; nfs; apply IH. Qed.
Lemma ishex_nf : forall n p, nf (ishex_max p n).
Proof. induction n as [|n IH]; intros; cbn [ishex_max]; nfs; apply IH. Qed.
Hint Resolve skip_bad_nf ishex_nf : nf.
Lemma unicode_nf s : nf (unicode tail s).
Proof. unfold unicode. nfs. Qed.
Hint Resolve unicode_nf : nf.

Lemma consume2_len s : (2 <= length s)%nat -> (length (consume 2 s) <= length s - 2)%nat.
Proof. destruct s as [|a [|b s]]; cbn; lia. Qed.

Lemma ce_len (s : list N) : (if (2 <=? length s)%nat then nth 1 s 0 else 0) <> 0 -> (2 <= length s)%nat.
Proof. destruct (Nat.leb_spec 2 (length s)); auto. congruence. Qed.

Lemma string_loop_facts f : forall s buf cp, ((length s < f)%nat -> nf (string_loop tail fl f s buf cp)) /\
  (forall b r, string_loop tail fl f s buf cp = Ok (inr (b, r)) -> (length r <= length s)%nat).
Proof.
  induction f as [|f IH]; intros s buf cp; [split; [lia|discriminate]|]. cbn [string_loop]. destruct s as [|c s0] eqn:Es; [split; [auto with nf|intros b r H; injection H as _ <-; auto]|].
  rewrite <- Es. destruct (_ || _); [split; [auto with nf|intros b r H; injection H as _ <-; auto]|].
  assert (L : (1 <= length s)%nat) by (rewrite Es; cbn; lia). clear Es. pose proof (consume1_len s) as C1.
  assert (ST : forall s' b' c', (length s' < length s)%nat -> ((length s < S f)%nat -> nf (string_loop tail fl f s' b' c')) /\
     (forall b r, string_loop tail fl f s' b' c' = Ok (inr (b, r)) -> (length r <= length s)%nat)).
  { intros s' b' c' Hl. destruct (IH s' b' c') as [I1 I2]. split; [intros; apply I1; lia|]. intros b r H. apply I2 in H. lia. }
  assert (ER : forall e : jerr, ((length s < S f)%nat -> nf (Ok (inl e) : pres (list N))) /\ (forall b r, (Ok (inl e) : pres (list N)) = Ok (inr (b, r)) -> (length r <= length s)%nat)).
  { intros e. split; [auto with nf|discriminate]. }
  destruct (c <? 32); [destruct (r_replace fl); [apply ST; lia|apply ER]|].
  destruct (c =? 92); [|apply ST; lia]. cbv zeta. pose proof (ce_len s) as CE. set (ce := if (2 <=? length s)%nat then nth 1 s 0 else 0) in *. clearbody ce.
  assert (S2 : forall b' c', ce <> 0 -> ((length s < S f)%nat -> nf (string_loop tail fl f (consume 2 s) b' c')) /\
     (forall b r, string_loop tail fl f (consume 2 s) b' c' = Ok (inr (b, r)) -> (length r <= length s)%nat)).
  { intros b' c' Hc. apply ST. pose proof (consume2_len s (CE Hc)). lia. }
  destruct (N.eqb_spec ce 34); cbn [orb]; [apply S2; lia|]. destruct (N.eqb_spec ce 47); cbn [orb]; [apply S2; lia|]. destruct (N.eqb_spec ce 92); [apply S2; lia|].
  destruct (N.eqb_spec ce 98); [apply S2; lia|]. destruct (N.eqb_spec ce 102); [apply S2; lia|]. destruct (N.eqb_spec ce 110); [apply S2; lia|].
  destruct (N.eqb_spec ce 114); [apply S2; lia|]. destruct (N.eqb_spec ce 116); [apply S2; lia|]. destruct (N.eqb_spec ce 117) as [E117|]; [|apply ER].
  pose proof (CE ltac:(lia)) as C2. pose proof (unicode_nf s) as Un. destruct (unicode tail s) as [[b0|]| |]; cbn [bind]; [| |split; [auto with nf|discriminate]|destruct (Un eq_refl)].
  - apply ST. destruct s as [|x1 [|x2 s1]]; [cbn in C2; lia|cbn in C2; lia|]. unfold consume at 1. pose proof (consume_len 4 (x1 :: x2 :: s1)) as C4.
    destruct (Nat.leb_spec 2 (length (consume 4 (x1 :: x2 :: s1)))); [rewrite skipn_length; lia|]. cbn [length] in *. lia.
  - destruct (r_replace fl); [|apply ER]. pose proof (skip_bad_nf (skipn 1 (s ++ tail)) 3 1 (consume 1 s)) as Sn. destruct (skip_bad _ 1 3 (consume 1 s)) as [s'| |] eqn:Eb; cbn [bind]; [|split; [auto with nf|discriminate]|destruct (Sn eq_refl)].
    apply skip_bad_len in Eb. apply ST. pose proof (consume_len 2 s'). lia.
Qed.

Lemma read_string_nf s : nf (read_string tail fl s).
Proof.
  unfold read_string. apply nf_bind; [|intros [e|[b r]] _; nfs]. apply string_loop_facts. pose proof (consume_len 1 s). lia.
Qed.
Lemma upto_no_nul s : no_nul (upto_nul s).
Proof. induction s as [|c s IH]; cbn; [constructor|]. destruct (N.eqb_spec c 0); constructor; auto. Qed.
Lemma read_string_len s b r : s <> [] -> read_string tail fl s = Ok (inr (b, r)) -> (length r < length s)%nat /\ no_nul b.
Proof.
  intros N0. unfold read_string. destruct (string_loop _ _ _ _ _ _) as [[e|[b0 r0]]| |] eqn:E; cbn [bind]; try discriminate. apply string_loop_facts in E.
  destruct r0 as [|c r0]; [discriminate|]. destruct (c =? 34); [|discriminate]. intros H. injection H as <- <-. split; [|apply upto_no_nul].
  pose proof (consume1_len s). destruct s; [congruence|]. cbn [length] in *. change (consume 1 (c :: r0)) with r0. lia.
Qed.
Lemma read_number_nf s : nf (read_number tail fl s).
Proof. unfold read_number. nfs. Qed.
Hint Resolve eat_ignored_nf read_string_nf read_number_nf : nf.

Definition pok (s : list N) (m : pres json) : Prop := forall v r, m = Ok (inr (v, r)) -> proper v /\ (length r <= length s)%nat.
Lemma pok_err s e : pok s (Ok (inl e)).
Proof. discriminate. Qed.
Lemma pok_ub s : pok s UB.
Proof. discriminate. Qed.
Lemma pok_fuel s : pok s Fuel.
Proof. discriminate. Qed.
Lemma pok_ok s v r : proper v -> (length r <= length s)%nat -> pok s (Ok (inr (v, r))).
Proof. intros P L v' r' H. injection H as <- <-. auto. Qed.
Lemma pok_le s s' m : pok s' m -> (length s' <= length s)%nat -> pok s m.
Proof. intros P L v r H. destruct (P v r H). split; auto. lia. Qed.
Lemma pok_bind {A} s (m : res A) k : (forall a, m = Ok a -> pok s (k a)) -> pok s (bind m k).
Proof. intros H. destruct m; cbn; auto; discriminate. Qed.

Lemma read_number_ok' s : pok s (read_number tail fl s).
Proof.
  unfold read_number. apply pok_bind. intros [[rv d] e] _. cbv zeta. set (s' := match e with Some _ => _ | None => s end).
  assert (L : (length s' <= length s)%nat) by (unfold s'; destruct e; auto; apply consume_len). clearbody s'.
  assert (X : pok s (if (nd d =? 0)%nat then do n <- to_int d 0; Ok (inr (JInt n, s')) else Ok (inr (JDec d, s')))).
  { destruct (Nat.eqb_spec (nd d) 0); [apply pok_bind; intros; apply pok_ok; auto; constructor|apply pok_ok; auto; now constructor]. }
  destruct rv; auto using pok_err. destruct (r_trunc fl); auto using pok_err.
Qed.

Definition members_ok (l : list (list N * json)) : Prop :=
  Forall (fun kv => fst kv <> [] /\ no_nul (fst kv)) l /\ NoDup (map fst l) /\ Forall (fun kv => proper (snd kv)) l.

Lemma members_insert l k v : members_ok l -> no_nul k -> proper v -> members_ok (obj_insert l k v).
Proof.
  intros (M1 & M2 & M3) Hk Hv. destruct k as [|x k]; [now repeat split|]. set (kk := x :: k) in *. assert (Nk : kk <> []) by discriminate.
  assert (In' : forall k' v', In (k', v') (obj_insert l kk v) -> k' <> [] /\ no_nul k' /\ proper v').
  { intros k' v' H. apply obj_insert_in in H; auto. destruct H as [[-> ->]|[_ H]]; [auto|]. rewrite Forall_forall in M1, M3. destruct (M1 _ H). split; auto. split; auto. exact (M3 _ H). }
  split; [|split].
  - apply Forall_forall. intros [k' v'] H. apply In' in H. cbn. tauto.
  - rewrite obj_insert_keys by auto. destruct (has_key kk l) eqn:E; auto. apply NoDup_snoc; auto. intros H. apply has_key_In in H. congruence.
  - apply Forall_forall. intros [k' v'] H. apply In' in H. cbn. tauto.
Qed.

Ltac eatd := match goal with |- context [eat_ignored fl ?s] =>
  let E := fresh "Eg" in pose proof (eat_ignored_nf s); destruct (eat_ignored fl s) as [[?|?]| |] eqn:E; cbn [bind];
  [ | apply eat_ignored_len in E | | congruence ] end.

Lemma read_facts f :
  (forall s, ((2 * length s + 1 <= f)%nat -> nf (read_value tail fl f s)) /\ pok s (read_value tail fl f s)) /\
  (forall s l len, ((2 * length s + 2 <= f)%nat \/ (len = length s /\ (1 <= f)%nat) -> nf (arr_loop tail fl f s l len)) /\ (Forall proper l -> pok s (arr_loop tail fl f s l len))) /\
  (forall s l, ((2 * length s + 2 <= f)%nat -> nf (obj_loop tail fl f s l)) /\ (members_ok l -> pok s (obj_loop tail fl f s l))).
Proof.
  induction f as [|f (IHv & IHa & IHo)].
  { split; [|split]; intros; (split; [lia|]); intros; apply pok_fuel. }
  split; [|split].
  - intros s. cbn [read_value]. fold (obj_loop tail fl). fold (arr_loop tail fl). eatd; [split; [auto with nf|apply pok_err]| |split; [auto with nf|apply pok_ub]].
    destruct l as [|c l'] eqn:El; [split; [auto with nf|apply pok_err]|]. rewrite <- El in *. assert (L1 : (1 <= length l)%nat) by (rewrite El; cbn; lia). assert (Nl : l <> []) by (rewrite El; discriminate). clear El.
    pose proof (consume1_len l) as C1.
    destruct (c =? 123).
    { destruct (IHo (consume 1 l) []) as [I1 I2]. split; [intros; apply I1; lia|]. apply (pok_le _ (consume 1 l)); [|lia]. apply I2. repeat split; constructor. }
    destruct (c =? 91).
    { eatd; [split; [auto with nf|apply pok_err]| |split; [auto with nf|apply pok_ub]]. destruct (IHa l0 [] 0%nat) as [I1 I2]. split; [intros; apply I1; left; lia|]. apply (pok_le _ l0); [|lia]. apply I2. constructor. }
    destruct (c =? 34).
    { pose proof (read_string_nf l) as Rn. destruct (read_string tail fl l) as [[e|[b r]]| |] eqn:Es; cbn [bind]; [split; [auto with nf|apply pok_err]| |split; [auto with nf|apply pok_ub]|destruct (Rn eq_refl)].
      apply read_string_len in Es; auto. destruct Es. split; [auto with nf|]. apply pok_ok; [now constructor|lia]. }
    destruct (_ || _).
    { unfold read_bool. destruct l as [|c' l]; [congruence|]. set (l1 := c' :: l) in *. destruct (_ || _); (split; [auto with nf|]); [apply pok_err|apply pok_ok; [constructor|]]. pose proof (consume_len (if c' =? 116 then 4 else 5) l1). lia. }
    destruct (c =? 110).
    { unfold read_null. destruct (_ || _); (split; [auto with nf|]); [apply pok_err|apply pok_ok; [constructor|]]. pose proof (consume_len 4 l). lia. }
    destruct (_ || _); [split; [auto with nf|]; apply (pok_le _ l); [apply read_number_ok'|lia]|].
    destruct (c =? 0); (split; [auto with nf|apply pok_err]).
  - intros s l len. cbn [arr_loop]. fold (read_value tail fl). fold (arr_loop tail fl). cbv zeta.
    assert (CL : forall s' : list N, (length s' <= length s)%nat -> nf (match s' with | c :: _ => if c =? 93 then Ok (inr (JArr l, consume 1 s')) else Ok (inl EUnclosedArray) | [] => Ok (inl EUnclosedArray) end : pres json) /\
       (Forall proper l -> pok s (match s' with | c :: _ => if c =? 93 then Ok (inr (JArr l, consume 1 s')) else Ok (inl EUnclosedArray) | [] => Ok (inl EUnclosedArray) end))).
    { intros s' Hl. split; [nfs|]. intros F. destruct s' as [|c s']; [apply pok_err|]. destruct (c =? 93); [|apply pok_err]. apply pok_ok; [now constructor|]. pose proof (consume_len 1 (c :: s')). lia. }
    destruct s as [|c s'] eqn:Es; [split; [auto with nf|intros; apply pok_err]|]. rewrite <- Es in *.
    destruct (Nat.eqb_spec len (length s)) as [El|El]; cbn [orb].
    { destruct (CL s (le_n _)) as [X1 X2]. rewrite Es in X1, X2 |- *. auto. }
    destruct (c =? 93) eqn:E93.
    { destruct (CL s (le_n _)) as [X1 X2]. rewrite Es in X1, X2 |- *. rewrite E93 in *. auto. }
    clear Es E93. eatd; [split; [auto with nf|intros; apply pok_err]| |split; [auto with nf|intros; apply pok_ub]].
    destruct l0 as [|c1 l1] eqn:El1; [split; [auto with nf|intros; apply pok_err]|]. rewrite <- El1 in *. destruct (c1 =? 93) eqn:E93.
    { destruct (CL l0 Eg) as [X1 X2]. rewrite El1 in X1, X2 |- *. rewrite E93 in *. auto. }
    clear El1. destruct (IHv l0) as [V1 V2]. destruct (read_value tail fl f l0) as [[e|[v s2]]| |] eqn:Ev; cbn [bind]; [split; [auto with nf|intros; apply pok_err]| |split; [auto with nf|intros; apply pok_ub]|split; [intros; apply V1; lia|intros; apply pok_fuel]].
    destruct (V2 v s2 eq_refl) as [Pv L2]. eatd; [split; [auto with nf|intros; apply pok_err]| |split; [auto with nf|intros; apply pok_ub]].
    assert (ST : forall s4, (length s4 <= length l2)%nat -> ((2 * length s + 2 <= S f)%nat \/ len = length s /\ (1 <= S f)%nat -> nf (arr_loop tail fl f s4 (l ++ [v]) (length s))) /\
       (Forall proper l -> pok s (arr_loop tail fl f s4 (l ++ [v]) (length s)))).
    { intros s4 H4. destruct (IHa s4 (l ++ [v]) (length s)) as [A1 A2]. split.
      - intros [Hf|[Hf _]]; [|congruence]. apply A1. destruct (Nat.eq_dec (length s) (length s4)); [right; split; [auto|lia]|left; lia].
      - intros F. apply (pok_le _ s4); [|lia]. apply A2. apply Forall_app. split; auto. }
    set (cc := match peek l2 with Some c => c | None => c1 end). clearbody cc. destruct (match peek l2 with Some _ => false | None => _ end); [split; [auto with nf|intros; apply pok_err]|].
    destruct (cc =? 44); [|apply ST; lia]. pose proof (consume_len 1 l2) as C1. eatd; [split; [auto with nf|intros; apply pok_err]| |split; [auto with nf|intros; apply pok_ub]].
    destruct (peek l3) as [c4|]; [|split; [auto with nf|intros; apply pok_err]]. destruct (c4 =? 93); [split; [auto with nf|intros; apply pok_err]|apply ST; lia].
  - intros s l. cbn [obj_loop]. fold (read_value tail fl). fold (obj_loop tail fl). cbv zeta.
    assert (CL : forall s' : list N, (length s' <= length s)%nat -> nf (match s' with | c :: _ => if c =? 125 then Ok (inr (JObj l, consume 1 s')) else Ok (inl EUnclosedObject) | [] => Ok (inl EUnclosedObject) end : pres json) /\
       (members_ok l -> pok s (match s' with | c :: _ => if c =? 125 then Ok (inr (JObj l, consume 1 s')) else Ok (inl EUnclosedObject) | [] => Ok (inl EUnclosedObject) end))).
    { intros s' Hl. split; [nfs|]. intros (F1 & F2 & F3). destruct s' as [|c s']; [apply pok_err|]. destruct (c =? 125); [|apply pok_err]. apply pok_ok; [now constructor|]. pose proof (consume_len 1 (c :: s')). lia. }
    destruct s as [|c s'] eqn:Es; [split; [auto with nf|intros; apply pok_err]|]. rewrite <- Es in *.
    destruct (c =? 125) eqn:E93.
    { destruct (CL s (le_n _)) as [X1 X2]. rewrite Es in X1, X2 |- *. rewrite E93 in *. auto. }
    clear Es E93. eatd; [split; [auto with nf|intros; apply pok_err]| |split; [auto with nf|intros; apply pok_ub]].
    destruct l0 as [|c1 l1] eqn:El1; [split; [auto with nf|intros; apply pok_err]|]. rewrite <- El1 in *. destruct (c1 =? 125) eqn:E93.
    { destruct (CL l0 Eg) as [X1 X2]. rewrite El1 in X1, X2 |- *. rewrite E93 in *. auto. }
    clear El1. destruct (negb (c1 =? 34)); [split; [auto with nf|intros; apply pok_err]|].
    destruct (IHv l0) as [V1 V2]. destruct (read_value tail fl f l0) as [[e|[kn s2]]| |] eqn:Ev; cbn [bind]; [split; [auto with nf|intros; apply pok_err]| |split; [auto with nf|intros; apply pok_ub]|split; [intros; apply V1; lia|intros; apply pok_fuel]].
    destruct (V2 kn s2 eq_refl) as [Pk L2].
    set (k := match kn with JStr k => k | _ => [] end). assert (Nk : no_nul k) by (unfold k; destruct Pk; auto; constructor). clearbody k.
    destruct (_ && _); [split; [auto with nf|intros; apply pok_err]|].
    eatd; [split; [auto with nf|intros; apply pok_err]| |split; [auto with nf|intros; apply pok_ub]].
    destruct (peek l2) as [c2|] eqn:Ep; [|split; [auto with nf|intros; apply pok_err]].
    assert (L3 : (1 <= length l2)%nat) by (destruct l2; [discriminate Ep|cbn; lia]). clear Ep.
    destruct (negb (c2 =? 58)); [split; [auto with nf|intros; apply pok_err]|]. pose proof (consume1_len l2) as C1.
    destruct (IHv (consume 1 l2)) as [W1 W2]. destruct (read_value tail fl f (consume 1 l2)) as [[e|[v s4]]| |] eqn:Ev2; cbn [bind]; [split; [auto with nf|intros; apply pok_err]| |split; [auto with nf|intros; apply pok_ub]|split; [intros; apply W1; lia|intros; apply pok_fuel]].
    destruct (W2 v s4 eq_refl) as [Pv L4]. eatd; [split; [auto with nf|intros; apply pok_err]| |split; [auto with nf|intros; apply pok_ub]].
    assert (ST : forall s6, (length s6 <= length l3)%nat -> ((2 * length s + 2 <= S f)%nat -> nf (obj_loop tail fl f s6 (obj_insert l k v))) /\
       (members_ok l -> pok s (obj_loop tail fl f s6 (obj_insert l k v)))).
    { intros s6 H6. destruct (IHo s6 (obj_insert l k v)) as [A1 A2]. split; [intros; apply A1; lia|]. intros M. apply (pok_le _ s6); [|lia]. apply A2. now apply members_insert. }
    set (cc := match peek l3 with Some c => c | None => c2 end). clearbody cc. destruct (match peek l3 with Some _ => false | None => _ end); [split; [auto with nf|intros; apply pok_err]|].
    destruct (cc =? 44); [|apply ST; lia]. pose proof (consume_len 1 l3) as C3. eatd; [split; [auto with nf|intros; apply pok_err]| |split; [auto with nf|intros; apply pok_ub]].
    destruct (peek l4) as [c4|]; [|split; [auto with nf|intros; apply pok_err]]. destruct (c4 =? 125); [split; [auto with nf|intros; apply pok_err]|apply ST; lia].
Qed.

Lemma json_read_nf want data : nf (json_read tail fl want data).
Proof.
  unfold json_read. destruct data as [|c0 d0] eqn:Ed; [auto with nf|]. rewrite <- Ed. destruct (c0 =? 0); auto with nf. apply nf_bind.
  - apply read_facts. lia.
  - intros [e|[root s]] _; nfs.
Qed.

Lemma json_read_proper want data v n : json_read tail fl want data = Ok (inr (v, n)) ->
  proper v /\ (match v with JObj _ | JArr _ => True | _ => False end) /\ (n <= length data)%nat /\ (want = false -> n = length data).
Proof.
  unfold json_read. destruct data as [|c0 d0] eqn:Ed; [discriminate|]. rewrite <- Ed. destruct (c0 =? 0); [discriminate|].
  destruct (read_value tail fl (2 * length data + 2) data) as [[e|[root s]]| |] eqn:E; cbn [bind]; try discriminate. apply (proj1 (read_facts _)) in E. destruct E as [P L].
  assert (X : forall root', (do g <- (match s with [] => Ok (inr s) | _ => eat_ignored fl s end);
        match g with
        | inl e => Ok (inl e)
        | inr s =>
          if want then Ok (inr (root', (length data - length s)%nat))
          else match s with [] => Ok (inr (root', length data)) | _ => Ok (inl EExpectedEnd) end
        end) = Ok (inr (v, n)) -> root' = v /\ (n <= length data)%nat /\ (want = false -> n = length data)).
  { intros root'. destruct (match s with [] => Ok (inr s) | _ => eat_ignored fl s end) as [[e|s']| |]; cbn [bind]; try discriminate.
    destruct want; [intros H; assert (root' = v) by congruence; assert (n = (length data - length s')%nat) by congruence; split; [auto|split; [lia|discriminate]]|].
    destruct s'; [|discriminate]. intros H. assert (root' = v) by congruence; assert (n = length data) by congruence. split; auto. split; [lia|auto]. }
  destruct root; try discriminate; intros H; apply X in H; destruct H as (<- & H1 & H2); auto.
Qed.
End Reader.

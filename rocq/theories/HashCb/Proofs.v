From Verif Require Import Base.Lib Sort.Spec Hash.Spec Glob.Model MemFn.Model HashCb.Model HashCb.Spec.
Local Open Scope N_scope.

(** ** Orders *)
Lemma strcmp_refl : forall a, strcmp a a = 0%Z.
Proof. induction a as [|x a IH]; [reflexivity|]. cbn [strcmp]. now rewrite N.eqb_refl. Qed.
Lemma strcmp_zero : forall a b, strcmp a b = 0%Z -> a = b.
Proof.
  induction a as [|x a IH]; intros [|y b] H; try reflexivity; try discriminate H. cbn [strcmp] in H.
  destruct (N.eqb_spec x y) as [->|E]; [f_equal; auto|]. destruct (x <? y); discriminate H.
Qed.
Lemma strcmp_neg : forall a b, (strcmp a b < 0)%Z <-> lex_lt a b.
Proof.
  induction a as [|x a IH]; intros [|y b]; cbn [strcmp].
  - split; [lia|intros H; inversion H].
  - split; [constructor|lia].
  - split; [lia|intros H; inversion H].
  - destruct (N.eqb_spec x y) as [->|E].
    + rewrite IH. split; [now constructor|]. intros H. inversion H; subst; [lia|assumption].
    + destruct (N.ltb_spec x y) as [L|L]; [split; [now constructor|lia]|]. split; [lia|]. intros H. inversion H; subst; [lia|congruence].
Qed.
Lemma strcmp_anti : forall a b, (strcmp b a = - strcmp a b)%Z.
Proof.
  induction a as [|x a IH]; intros [|y b]; try reflexivity. cbn [strcmp]. rewrite (N.eqb_sym y x). destruct (N.eqb_spec x y) as [->|E]; [apply IH|].
  destruct (N.ltb_spec x y), (N.ltb_spec y x); try reflexivity; lia.
Qed.
Lemma lex_trans : forall a b c, lex_lt a b -> lex_lt b c -> lex_lt a c.
Proof.
  intros a b c H. revert c. induction H as [y b|x y a b L|x a b H IH]; intros c K.
  - inversion K; constructor.
  - inversion K; subst; [apply lex_diff; lia|now apply lex_diff].
  - inversion K; subst; [now apply lex_diff|]. apply lex_same. auto.
Qed.
Lemma strcmp_cases : forall a b, (strcmp a b <= 0)%Z <-> a = b \/ lex_lt a b.
Proof.
  intros a b. split.
  - intros H. destruct (Z.eq_dec (strcmp a b) 0) as [E|E]; [left; now apply strcmp_zero|]. right. apply strcmp_neg. lia.
  - intros [->|H]; [rewrite strcmp_refl; lia|]. apply strcmp_neg in H. lia.
Qed.
Lemma strcmp_trans : forall a b c, (strcmp a b <= 0 -> strcmp b c <= 0 -> strcmp a c <= 0)%Z.
Proof. intros a b c. rewrite !strcmp_cases. intros [->|H] [->|K]; auto. right. eapply lex_trans; eauto. Qed.

(** A comparison through the contents is a total preorder. *)
Lemma preorder_via : forall (f : N -> list N) (cmp : N -> N -> Z), (forall p q, cmp p q = strcmp (f p) (f q)) -> total_preorder cmp.
Proof.
  intros f cmp H. split.
  - intros x y. rewrite !H, strcmp_anti. lia.
  - intros x y z. rewrite !H. apply strcmp_trans.
Qed.
Lemma preorder_flip : forall (cmp : N -> N -> Z), total_preorder cmp -> total_preorder (fun p q => cmp q p).
Proof. intros cmp [A B]. split; [intros x y; apply A|]. intros x y z H K. now apply (B z y x). Qed.

Section Contents.
Variable mem : N -> list N.
Lemma compar_str_eq : forall p q, compar_str mem p q = strcmp (str_safe mem p) (str_safe mem q).
Proof. intros p q. unfold compar_str, str_cmpsort. destruct (N.eqb_spec p q) as [->|]; [now rewrite strcmp_refl|reflexivity]. Qed.
Lemma compar_case_eq : forall p q, compar_str_casecmp mem p q = strcmp (map chr_tolower (str_safe mem p)) (map chr_tolower (str_safe mem q)).
Proof. intros p q. unfold compar_str_casecmp, str_casecmpsort, strcasecmp. destruct (N.eqb_spec p q) as [->|]; [now rewrite strcmp_refl|reflexivity]. Qed.

End Contents.

Lemma tolower_same : forall x y, chr_tolower x = chr_tolower y <-> same_letter x y.
Proof.
  intros x y. unfold chr_tolower, same_letter.
  destruct (N.leb_spec 65 x), (N.leb_spec x 90), (N.leb_spec 65 y), (N.leb_spec y 90); cbn [andb]; lia.
Qed.
Lemma map_lower_same : forall a b, map chr_tolower a = map chr_tolower b <-> same_text a b.
Proof.
  unfold same_text. induction a as [|x a IH]; intros [|y b]; cbn [map]; split; intros H; try discriminate H; try (now constructor); try (now inversion H).
  - injection H as H1 H2. constructor; [now apply tolower_same|now apply IH].
  - inversion H; subst. f_equal; [now apply tolower_same|now apply IH].
Qed.
Lemma lower_upper : forall c, chr_tolower (chr_toupper c) = chr_tolower c.
Proof.
  intros c. unfold chr_tolower, chr_toupper. destruct (N.leb_spec 97 c), (N.leb_spec c 122); cbn [andb]; try reflexivity.
  destruct (N.leb_spec 65 (c - 32)), (N.leb_spec (c - 32) 90), (N.leb_spec 65 c), (N.leb_spec c 90); cbn [andb]; lia.
Qed.
Lemma lower_lower : forall c, chr_tolower (chr_tolower c) = chr_tolower c.
Proof.
  intros c. unfold chr_tolower. destruct (N.leb_spec 65 c), (N.leb_spec c 90); cbn [andb]; try reflexivity;
  destruct (N.leb_spec 65 (c + 32)), (N.leb_spec (c + 32) 90); cbn [andb]; try lia;
  destruct (N.leb_spec 65 c), (N.leb_spec c 90); cbn [andb]; lia.
Qed.
Lemma dup_lower : forall k s, map chr_tolower (dup_text k s) = map chr_tolower s.
Proof. intros [] s; cbn [dup_text]; [reflexivity| |]; rewrite map_map; apply map_ext; [apply lower_upper|apply lower_lower]. Qed.

Lemma memcmp_strcmp : forall a b, length a = length b -> memcmp a b = strcmp a b.
Proof. induction a as [|x a IH]; intros [|y b] L; try discriminate L; [reflexivity|]. cbn [memcmp strcmp]. injection L as L. now rewrite IH. Qed.
Lemma strcmp_app : forall h a b, strcmp (h ++ a) (h ++ b) = strcmp a b.
Proof. induction h as [|x h IH]; intros a b; [reflexivity|]. cbn [app strcmp]. now rewrite N.eqb_refl. Qed.
Lemma le_bytes_len : forall n v, length (le_bytes n v) = n.
Proof. induction n as [|n IH]; intros v; [reflexivity|]. cbn [le_bytes length]. now rewrite IH. Qed.
Lemma binwraped_spec : forall mem p q,
  ((compar_binwraped mem p q < 0)%Z <-> shortlex_lt (mem p) (mem q)) /\ (compar_binwraped mem p q = 0%Z <-> mem p = mem q).
Proof.
  intros mem p q. unfold compar_binwraped, shortlex_lt. destruct (N.eqb_spec p q) as [->|PQ].
  - split; [|split; reflexivity]. split; [lia|]. intros [H|[_ H]]; [lia|]. apply strcmp_neg in H. rewrite strcmp_refl in H. lia.
  - unfold mem_cmpsort, wrapped. rewrite !app_length, !le_bytes_len. cbn [Nat.eqb Nat.add andb].
    destruct (Nat.ltb_spec (8 + length (mem p)) (8 + length (mem q))) as [L|L]; cbn [Nat.add] in L.
    + rewrite (proj2 (Nat.ltb_lt _ _) L). split; [split; [left; lia|lia]|]. split; [discriminate|]. intros E. rewrite E in L. lia.
    + rewrite (proj2 (Nat.ltb_ge _ _) L). destruct (Nat.ltb_spec (8 + length (mem q)) (8 + length (mem p))) as [L2|L2]; cbn [Nat.add] in L2.
      * rewrite (proj2 (Nat.ltb_lt _ _) L2). split; [split; [lia|intros [H|[H _]]; lia]|]. split; [discriminate|]. intros E. rewrite E in L2. lia.
      * rewrite (proj2 (Nat.ltb_ge _ _) L2). assert (E : length (mem p) = length (mem q)) by lia. rewrite memcmp_strcmp by (rewrite !app_length, !le_bytes_len; lia).
        rewrite E, strcmp_app. split; [rewrite strcmp_neg; split; [intros H; right; auto|intros [H|[_ H]]; [lia|auto]]|]. split; [apply strcmp_zero|]. intros ->. apply strcmp_refl.
Qed.
Lemma shortlex_trans : forall a b c, shortlex_lt a b -> shortlex_lt b c -> shortlex_lt a c.
Proof. intros a b c [H|[H1 H2]] [K|[K1 K2]]; unfold shortlex_lt; try (left; lia). right. split; [lia|]. eapply lex_trans; eauto. Qed.
Lemma lex_anti : forall a b, lex_lt a b -> lex_lt b a -> False.
Proof. intros a b H K. apply strcmp_neg in H, K. rewrite strcmp_anti in K. lia. Qed.
Lemma shortlex_total : forall a b, shortlex_lt a b \/ a = b \/ shortlex_lt b a.
Proof.
  intros a b. unfold shortlex_lt. destruct (lt_eq_lt_dec (length a) (length b)) as [[L|L]|L]; auto.
  destruct (Z_lt_le_dec (strcmp a b) 0) as [H|H]; [left; right; split; auto; now apply strcmp_neg|].
  destruct (Z.eq_dec (strcmp a b) 0) as [E|E]; [right; left; now apply strcmp_zero|]. right. right. right. split; auto. apply strcmp_neg. rewrite strcmp_anti. lia.
Qed.
Lemma shortlex_irr : forall a b, shortlex_lt a b -> shortlex_lt b a -> False.
Proof. intros a b [H|[H1 H2]] [K|[K1 K2]]; try lia. eapply lex_anti; eauto. Qed.
Lemma binwraped_preorder : forall mem, total_preorder (compar_binwraped mem).
Proof.
  intros mem. assert (S := binwraped_spec mem). split.
  - intros x y. destruct (shortlex_total (mem x) (mem y)) as [H|[H|H]].
    + assert (A : (compar_binwraped mem x y < 0)%Z) by (now apply S).
      assert (B : (0 < compar_binwraped mem y x)%Z).
      { destruct (Z_lt_le_dec 0 (compar_binwraped mem y x)) as [|L]; [assumption|]. exfalso. destruct (Z.eq_dec (compar_binwraped mem y x) 0) as [E|E].
        - apply S in E. rewrite E in H. eapply shortlex_irr; eauto.
        - assert (K : shortlex_lt (mem y) (mem x)) by (apply S; lia). eapply shortlex_irr; eauto. }
      rewrite (Z.sgn_neg _ A), (Z.sgn_pos _ B). reflexivity.
    + assert (A : compar_binwraped mem x y = 0%Z) by (now apply S). assert (B : compar_binwraped mem y x = 0%Z) by (apply S; auto). rewrite A, B. reflexivity.
    + assert (A : (compar_binwraped mem y x < 0)%Z) by (now apply S).
      assert (B : (0 < compar_binwraped mem x y)%Z).
      { destruct (Z_lt_le_dec 0 (compar_binwraped mem x y)) as [|L]; [assumption|]. exfalso. destruct (Z.eq_dec (compar_binwraped mem x y) 0) as [E|E].
        - apply S in E. rewrite E in H. eapply shortlex_irr; eauto.
        - assert (K : shortlex_lt (mem x) (mem y)) by (apply S; lia). eapply shortlex_irr; eauto. }
      rewrite (Z.sgn_neg _ A), (Z.sgn_pos _ B). reflexivity.
  - intros x y z A B. assert (A' : shortlex_lt (mem x) (mem y) \/ mem x = mem y) by (destruct (Z.eq_dec (compar_binwraped mem x y) 0); [right; now apply S|left; apply S; lia]).
    assert (B' : shortlex_lt (mem y) (mem z) \/ mem y = mem z) by (destruct (Z.eq_dec (compar_binwraped mem y z) 0); [right; now apply S|left; apply S; lia]).
    destruct A' as [A'|A'], B' as [B'|B'].
    + assert (C : (compar_binwraped mem x z < 0)%Z) by (apply S; eapply shortlex_trans; eauto). lia.
    + assert (C : (compar_binwraped mem x z < 0)%Z) by (apply S; rewrite <- B'; auto). lia.
    + assert (C : (compar_binwraped mem x z < 0)%Z) by (apply S; rewrite A'; auto). lia.
    + assert (C : compar_binwraped mem x z = 0%Z) by (apply S; congruence). lia.
Qed.
Lemma u64_preorder : forall num, total_preorder (compar_u64 num).
Proof.
  intros num. unfold compar_u64. split.
  - intros x y. destruct (N.eqb_spec (num y) (num x)), (N.eqb_spec (num x) (num y)), (N.ltb_spec (num y) (num x)), (N.ltb_spec (num x) (num y)); try lia; reflexivity.
  - intros x y z. destruct (N.eqb_spec (num x) (num y)), (N.eqb_spec (num y) (num z)), (N.eqb_spec (num x) (num z)), (N.ltb_spec (num x) (num y)), (N.ltb_spec (num y) (num z)), (N.ltb_spec (num x) (num z)); lia.
Qed.
Lemma vp_preorder : total_preorder compar_vp.
Proof.
  unfold compar_vp. split.
  - intros x y. destruct (N.ltb_spec y x), (N.ltb_spec x y); try lia; reflexivity.
  - intros x y z. destruct (N.ltb_spec x y), (N.ltb_spec y x), (N.ltb_spec y z), (N.ltb_spec z y), (N.ltb_spec x z), (N.ltb_spec z x); lia.
Qed.

(** ** Hashes *)
Lemma lxor_lt : forall a b n, a < 2 ^ n -> b < 2 ^ n -> N.lxor a b < 2 ^ n.
Proof.
  intros a b n A B. destruct (N.eq_dec (N.lxor a b) 0) as [->|E]; [apply N.neq_0_lt_0, N.pow_nonzero; lia|].
  apply N.log2_lt_pow2; [lia|]. eapply N.le_lt_trans; [apply N.log2_lxor|]. destruct (N.eq_dec n 0) as [->|NZ]; [cbn in A, B; assert (a = 0) by lia; assert (b = 0) by lia; subst; cbn in E; congruence|].
  apply N.max_lub_lt; (destruct (N.eq_dec a 0) as [->|]; destruct (N.eq_dec b 0) as [->|]; cbn [N.log2]; try lia; apply N.log2_lt_pow2; lia).
Qed.
Lemma fnv_step_mul : forall hv b, fnv_step hv b = (N.lxor hv b * fnv_prime) mod 2 ^ 32.
Proof.
  intros hv b. unfold fnv_step, shl32, fnv_prime. set (x := N.lxor hv b). rewrite !N.shiftl_mul_pow2. change (2 ^ 32) with 4294967296.
  change (2^1) with 2. change (2^4) with 16. change (2^7) with 128. change (2^8) with 256. change (2^24) with 16777216.
  assert (D1 := N.div_mod (x * 2) 4294967296 ltac:(discriminate)). assert (D2 := N.div_mod (x * 16) 4294967296 ltac:(discriminate)).
  assert (D3 := N.div_mod (x * 128) 4294967296 ltac:(discriminate)). assert (D4 := N.div_mod (x * 256) 4294967296 ltac:(discriminate)).
  assert (D5 := N.div_mod (x * 16777216) 4294967296 ltac:(discriminate)).
  set (r1 := (x * 2) mod 4294967296) in *. set (r2 := (x * 16) mod 4294967296) in *. set (r3 := (x * 128) mod 4294967296) in *. set (r4 := (x * 256) mod 4294967296) in *. set (r5 := (x * 16777216) mod 4294967296) in *.
  set (q1 := x * 2 / 4294967296) in *. set (q2 := x * 16 / 4294967296) in *. set (q3 := x * 128 / 4294967296) in *. set (q4 := x * 256 / 4294967296) in *. set (q5 := x * 16777216 / 4294967296) in *.
  clearbody r1 r2 r3 r4 r5 q1 q2 q3 q4 q5 x.
  replace (x * 16777619) with ((x + (r1 + r2 + r3 + r4 + r5)) + (q1 + q2 + q3 + q4 + q5) * 4294967296) by lia. rewrite N.mod_add by lia. reflexivity.
Qed.
Lemma fnv_lt : forall d hv, hv < 2 ^ 32 -> fnv1a d hv < 2 ^ 32.
Proof. induction d as [|b d IH]; intros hv H; [exact H|]. cbn [fnv1a]. apply IH. rewrite fnv_step_mul. apply N.mod_lt. discriminate. Qed.
Lemma fnv_eq_published : forall d seed, fnv1a d seed = fnv_published d seed.
Proof. unfold fnv_published. induction d as [|b d IH]; intros seed; [reflexivity|]. cbn [fnv1a fold_left]. rewrite fnv_step_mul. apply IH. Qed.
Lemma fnv_case : forall d seed, fnv1a_casecmp d seed = fnv1a (map chr_tolower d) seed.
Proof. induction d as [|b d IH]; intros seed; [reflexivity|]. cbn [fnv1a_casecmp map fnv1a]. apply IH. Qed.
(** 899433627 is the inverse of the prime modulo 2^32. *)
Lemma mul_prime_inj : forall x y, x < 2 ^ 32 -> y < 2 ^ 32 -> (x * fnv_prime) mod 2 ^ 32 = (y * fnv_prime) mod 2 ^ 32 -> x = y.
Proof.
  assert (K : forall x, x < 2 ^ 32 -> ((x * fnv_prime) mod 2 ^ 32 * 899433627) mod 2 ^ 32 = x).
  { intros x H. rewrite N.mul_mod_idemp_l by discriminate. rewrite <- N.mul_assoc. rewrite <- N.mul_mod_idemp_r by discriminate.
    replace ((fnv_prime * 899433627) mod 2 ^ 32) with 1 by (vm_compute; reflexivity). rewrite N.mul_1_r. now apply N.mod_small. }
  intros x y X Y E. rewrite <- (K x X), <- (K y Y), E. reflexivity.
Qed.
Lemma lxor_inj_r : forall h x y, N.lxor h x = N.lxor h y -> x = y.
Proof. intros h x y E. apply (f_equal (N.lxor h)) in E. rewrite <- !N.lxor_assoc, N.lxor_nilpotent, !N.lxor_0_l in E. exact E. Qed.
Lemma fnv_step_inj : forall h h' b, h < 2 ^ 32 -> h' < 2 ^ 32 -> b < 2 ^ 32 -> fnv_step h b = fnv_step h' b -> h = h'.
Proof.
  intros h h' b H H' B E. rewrite !fnv_step_mul in E. apply mul_prime_inj in E; try now apply lxor_lt.
  rewrite (N.lxor_comm h), (N.lxor_comm h') in E. eapply lxor_inj_r; eauto.
Qed.
Lemma fnv_inj_seed : forall d h h', Forall (fun b => b < 256) d -> h < 2 ^ 32 -> h' < 2 ^ 32 -> fnv1a d h = fnv1a d h' -> h = h'.
Proof.
  induction d as [|b d IH]; intros h h' F H H' E; [exact E|]. inversion F; subst. cbn [fnv1a] in E. apply IH in E; auto.
  - apply (fnv_step_inj h h' b); auto. apply N.lt_trans with 256; [assumption|reflexivity].
  - rewrite fnv_step_mul. apply N.mod_lt. discriminate.
  - rewrite fnv_step_mul. apply N.mod_lt. discriminate.
Qed.
Lemma fnv_app : forall a b h, fnv1a (a ++ b) h = fnv1a b (fnv1a a h).
Proof. induction a as [|x a IH]; intros b h; [reflexivity|]. cbn [app fnv1a]. apply IH. Qed.
Lemma fnv_one_byte : forall a x y c seed, seed < 2 ^ 32 -> x < 256 -> y < 256 -> Forall (fun b => b < 256) c ->
  fnv1a (a ++ x :: c) seed = fnv1a (a ++ y :: c) seed -> x = y.
Proof.
  intros a x y c seed SE X Y C E. rewrite !fnv_app in E. cbn [fnv1a] in E. apply fnv_inj_seed in E; auto; try (rewrite fnv_step_mul; apply N.mod_lt; discriminate).
  rewrite !fnv_step_mul in E. assert (256 < 2 ^ 32) by reflexivity. apply mul_prime_inj in E; try (apply lxor_lt; [now apply fnv_lt|lia]). eapply lxor_inj_r; eauto.
Qed.

(** ** The callbacks of the typed tables *)
Lemma key_eq_zero : forall mem f p q, key_equality mem f p q = 0%Z <->
  (if casecmp f then same_text (str_safe mem p) (str_safe mem q) else str_safe mem p = str_safe mem q).
Proof.
  intros mem f p q. destruct f as [cc o a d kc]; destruct cc; cbn [casecmp].
  - assert (Q : forall p q, compar_str_casecmp mem p q = 0%Z <-> same_text (str_safe mem p) (str_safe mem q)).
    { intros p0 q0. rewrite compar_case_eq. rewrite <- (map_lower_same (str_safe mem p0) (str_safe mem q0)). split; [apply strcmp_zero|intros ->; apply strcmp_refl]. }
    assert (Q2 : forall p q, compar_str_casecmp_desc mem p q = 0%Z <-> same_text (str_safe mem p) (str_safe mem q)).
    { intros p0 q0. unfold compar_str_casecmp_desc. rewrite Q. rewrite <- (map_lower_same (str_safe mem p0) (str_safe mem q0)), <- (map_lower_same (str_safe mem q0) (str_safe mem p0)). split; auto. }
    unfold key_equality. cbn [casecmp kordered sortasc sortdesc]. destruct o, a, d; auto.
  - assert (Q : forall p q, compar_str mem p q = 0%Z <-> str_safe mem p = str_safe mem q).
    { intros. rewrite compar_str_eq. split; [apply strcmp_zero|intros ->; apply strcmp_refl]. }
    assert (Q2 : forall p q, compar_str_desc mem p q = 0%Z <-> str_safe mem p = str_safe mem q).
    { intros. unfold compar_str_desc. rewrite Q. split; auto. }
    unfold key_equality. cbn [casecmp kordered sortasc sortdesc]. destruct o, a, d; auto.
Qed.
Lemma key_eq_preorder : forall mem f, total_preorder (key_equality mem f).
Proof.
  intros mem f. assert (A := preorder_via _ _ (compar_str_eq mem)). assert (B := preorder_via _ _ (compar_case_eq mem)).
  assert (A' := preorder_flip _ A). assert (B' := preorder_flip _ B).
  unfold key_equality. destruct (casecmp f), (kordered f), (sortasc f), (sortdesc f); auto.
Qed.
Lemma key_hash_cong : forall mem f seed p q, key_equality mem f p q = 0%Z -> key_hash mem f seed p = key_hash mem f seed q.
Proof.
  intros mem f seed p q H. apply key_eq_zero in H. unfold key_hash. destruct (casecmp f).
  - unfold hash_str_casecmp. rewrite !fnv_case. now rewrite (proj2 (map_lower_same _ _) H).
  - unfold hash_str. now rewrite H.
Qed.

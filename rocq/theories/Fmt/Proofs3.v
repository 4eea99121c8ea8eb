(** What the conversions print. *)
From Verif Require Import Base.Lib Base.Mem Fmt.Model Fmt.Spec Fmt.Proofs Fmt.Proofs2.
Local Open Scope N_scope.

(** ** Numerals *)
Fixpoint digs (n : nat) (v base : N) (u : bool) : list N :=
  match n with
  | O => []
  | S n => base_char u (v mod base) :: if 0 <? v / base then digs n (v / base) base u else []
  end.
Lemma digit_loop_ok base u : 1 < base -> forall k v l r fuel, v < base ^ N.of_nat k -> (0 < k <= fuel)%nat -> (k < r)%nat ->
  let ds := digs k v base u in
  (length ds <= k)%nat /\
  digit_loop fuel v base u (l ++ repeat 0 r) (length l) (length l + r) = Ok ((l ++ ds ++ repeat 0 (r - length ds))%list, (length l + length ds)%nat).
Proof.
  intros B. induction k as [|k IH]; intros v l r fuel V F K; [lia|]. destruct fuel as [|fuel]; [lia|]. destruct r as [|r]; [lia|].
  cbn [digs digit_loop repeat]. rewrite wr_app_mid. cbn [bind]. cbv zeta.
  set (c := base_char u (v mod base)).
  destruct (N.ltb_spec 0 (v / base)) as [P|P].
  - assert (K1 : (0 < k)%nat).
    { destruct k; [|lia]. exfalso. change (N.of_nat 1) with 1 in V. rewrite N.pow_1_r in V. rewrite N.div_small in P by lia. lia. }
    rewrite (proj2 (Nat.ltb_lt _ _)) by lia. cbn [andb].
    assert (V' : v / base < base ^ N.of_nat k). { apply N.div_lt_upper_bound; [lia|]. rewrite Nat2N.inj_succ, N.pow_succ_r' in V. exact V. }
    destruct (IH (v / base) (l ++ [c])%list r fuel V' ltac:(lia) ltac:(lia)) as [L E].
    split; [cbn [length]; lia|].
    replace (l ++ c :: repeat 0 r)%list with ((l ++ [c]) ++ repeat 0 r)%list by (rewrite <- app_assoc; reflexivity).
    rewrite app_length in E. cbn [length] in E. replace (length l + S r)%nat with (length l + 1 + r)%nat by lia. replace (S (length l)) with (length l + 1)%nat by lia.
    rewrite E. rewrite <- app_assoc. cbn [app length]. do 2 f_equal. lia.
  - cbn [andb]. split; [cbn; lia|]. cbn [app length]. rewrite Nat.sub_succ, Nat.sub_0_r. do 2 f_equal. lia.
Qed.
Lemma reverse_loop_ok rest : forall i A M B, length A = i -> length B = i ->
  reverse_loop (A ++ M ++ B ++ rest) i (length A + length M + length B - 1) = Ok (rev B ++ M ++ rev A ++ rest)%list.
Proof.
  induction i as [|i IH]; intros A M B LA LB.
  - apply length_zero_iff_nil in LA, LB. subst. reflexivity.
  - destruct B as [|b B]; [discriminate LB|]. destruct A as [|a' A'] using rev_ind; [discriminate LA|]. rename a' into a, A' into A. clear IHA'.
    rewrite app_length in LA. cbn [length] in LA, LB. assert (LA' : length A = i) by lia. assert (LB' : length B = i) by lia. clear LA LB.
    cbn [reverse_loop]. rewrite !app_length. cbn [length]. replace (length A + 1 + length M + S (length B) - 1 - i)%nat with (length (A ++ [a] ++ M)) by (rewrite !app_length; cbn [length]; lia).
    replace ((A ++ [a]) ++ M ++ (b :: B) ++ rest)%list with (A ++ a :: (M ++ b :: B ++ rest))%list by (rewrite <- app_assoc; reflexivity).
    rewrite <- LA' at 1. rewrite rd_app_mid. cbn [bind].
    replace (A ++ a :: (M ++ b :: B ++ rest))%list with ((A ++ [a] ++ M) ++ b :: (B ++ rest))%list at 1 by (rewrite <- !app_assoc; reflexivity).
    rewrite rd_app_mid. cbn [bind]. rewrite <- LA' at 1. rewrite wr_app_mid. cbn [bind].
    replace (A ++ b :: (M ++ b :: B ++ rest))%list with ((A ++ [b] ++ M) ++ b :: (B ++ rest))%list by (rewrite <- !app_assoc; reflexivity).
    replace (length (A ++ [a] ++ M)) with (length (A ++ [b] ++ M)) by (rewrite !app_length; reflexivity).
    rewrite wr_app_mid. cbn [bind].
    replace ((A ++ [b] ++ M) ++ a :: B ++ rest)%list with (A ++ ([b] ++ M ++ [a]) ++ B ++ rest)%list by (rewrite <- !app_assoc; reflexivity).
    replace (length A + 1 + length M + S (length B) - 1)%nat with (length A + length ([b] ++ M ++ [a]) + length B - 1)%nat by (rewrite !app_length; cbn [length]; lia).
    rewrite (IH A _ B LA' LB'). cbn [rev]. rewrite rev_app_distr. cbn [rev app]. rewrite <- !app_assoc. reflexivity.
Qed.
Lemma reverse_bytes_ok l rest : reverse_bytes (l ++ rest) (length l) = Ok (rev l ++ rest)%list.
Proof.
  unfold reverse_bytes. destruct (Nat.eqb_spec (length l) 0) as [E|NE]; [apply length_zero_iff_nil in E; now subst|].
  set (h := (length l / 2)%nat). assert (H2 : (2 * h <= length l)%nat) by (unfold h; apply Nat.mul_div_le; lia).
  assert (H3 : (length l < 2 * h + 2)%nat) by (unfold h; pose proof (Nat.div_mod (length l) 2 ltac:(lia)); pose proof (Nat.mod_upper_bound (length l) 2 ltac:(lia)); lia).
  set (A := firstn h l). set (M := firstn (length l - 2 * h) (skipn h l)). set (B := skipn (length l - 2 * h) (skipn h l)).
  assert (EL : l = (A ++ M ++ B)%list) by (unfold A, M, B; rewrite firstn_skipn, firstn_skipn; reflexivity).
  assert (LA : length A = h) by (unfold A; rewrite firstn_length; lia).
  assert (LM : length M = (length l - 2 * h)%nat) by (unfold M; rewrite firstn_length, skipn_length; lia).
  assert (LB : length B = h) by (unfold B; rewrite !skipn_length; lia).
  assert (RM : rev M = M). { destruct M as [|x [|y M']]; [reflexivity|reflexivity|]. cbn [length] in LM. lia. }
  replace (length l - 1)%nat with (length A + length M + length B - 1)%nat by lia.
  clearbody A M B. rewrite EL at 1. rewrite <- !app_assoc. rewrite (reverse_loop_ok rest h A M B LA LB). f_equal.
  rewrite EL, !rev_app_distr, RM, <- !app_assoc. reflexivity.
Qed.
Lemma base_char_ok base u d : base <= 16 -> d < base -> is_digit base u (base_char u d) /\ dval (base_char u d) = d /\ (base_char u d = 48 -> d = 0) /\ base_char u d <> 0.
Proof.
  intros B D. unfold is_digit, base_char, dval. destruct (N.ltb_spec d 10).
  - rewrite (proj2 (N.leb_le (48 + d) 57)) by lia. repeat split; lia.
  - destruct u; [rewrite (proj2 (N.leb_gt (55 + d) 57)) by lia; rewrite (proj2 (N.leb_le (55 + d) 70)) by lia|
                 rewrite (proj2 (N.leb_gt (87 + d) 57)) by lia; rewrite (proj2 (N.leb_gt (87 + d) 70)) by lia]; repeat split; lia.
Qed.
Lemma value_app base l c : value base (l ++ [c]) = value base l * base + dval c.
Proof. unfold value. now rewrite fold_left_app. Qed.
Lemma digs_numeral base u : 1 < base -> base <= 16 -> forall k v, v < base ^ N.of_nat k -> (0 < k)%nat ->
  numeral base u v (rev (digs k v base u)) /\ Forall (fun b => b <> 0) (digs k v base u).
Proof.
  intros B B16. induction k as [|k IH]; intros v V K; [lia|]. cbn [digs].
  assert (D : v mod base < base) by (apply N.mod_lt; lia).
  destruct (base_char_ok base u (v mod base) B16 D) as (D1 & D2 & D3 & D4).
  pose proof (N.div_mod v base ltac:(lia)) as DM.
  destruct (N.ltb_spec 0 (v / base)) as [P|P].
  - assert (K1 : (0 < k)%nat).
    { destruct k; [|lia]. exfalso. change (N.of_nat 1) with 1 in V. rewrite N.pow_1_r in V. rewrite N.div_small in P by lia. lia. }
    assert (V' : v / base < base ^ N.of_nat k). { apply N.div_lt_upper_bound; [lia|]. rewrite Nat2N.inj_succ, N.pow_succ_r' in V. exact V. }
    destruct (IH _ V' K1) as [(F & VA & LZ) NN]. split; [|constructor; auto]. cbn [rev]. split; [|split].
    + apply Forall_app. split; [exact F|]. now constructor.
    + rewrite value_app, VA, D2. rewrite N.mul_comm. symmetry. exact DM.
    + right. destruct LZ as [E|(c & r & E & NE)].
      * exfalso. rewrite E in VA. change (value base [48]) with (0 * base + 0) in VA. lia.
      * rewrite E. exists c, (r ++ [base_char u (v mod base)])%list. split; [reflexivity|exact NE].
  - apply N.le_0_r in P. rewrite P, N.mul_0_r, N.add_0_l in DM. split; [|constructor; auto]. cbn [rev app]. split; [|split].
    + now constructor.
    + unfold value. cbn [fold_left]. rewrite D2, N.mul_0_l. symmetry. exact DM.
    + destruct (N.eq_dec (base_char u (v mod base)) 48) as [E|NE]; [left; now rewrite E|right; eauto].
Qed.
Lemma integer_to_str_ok v base u : 8 <= base <= 16 -> v < 2 ^ 64 ->
  exists ds, integer_to_str v base u (repeat 0 32) = Ok (ds ++ repeat 0 (32 - length ds))%list /\ (length ds <= 22)%nat /\
             numeral base u v ds /\ no_nul ds.
Proof.
  intros B V.
  assert (VB : v < base ^ N.of_nat 22). { eapply N.lt_le_trans with (8 ^ 22); [eapply N.lt_trans; [exact V|reflexivity]|]. apply N.pow_le_mono_l. lia. }
  destruct (digs_numeral base u ltac:(lia) ltac:(lia) 22 v VB ltac:(lia)) as [NU NN].
  exists (rev (digs 22 v base u)). unfold integer_to_str. rewrite repeat_length.
  destruct (digit_loop_ok base u ltac:(lia) 22 v [] 32 32 VB ltac:(lia) ltac:(lia)) as [L E]. cbn [app length Nat.add] in E. rewrite E. cbn [bind].
  rewrite reverse_bytes_ok, rev_length. split; [reflexivity|]. split; [exact L|]. split; [exact NU|]. unfold no_nul. now apply Forall_rev.
Qed.

(** ** Strings in arrays *)
Lemma strlen_pad t r : no_nul t -> (0 < r)%nat -> strlen (t ++ repeat 0 r) = Ok (length t).
Proof. intros H P. destruct r; [lia|]. now apply strlen_ok. Qed.
Lemma text_pad t r : no_nul t -> (0 < r)%nat -> text_of (t ++ repeat 0 r) = Ok t.
Proof.
  intros H P. unfold text_of. rewrite strlen_pad by auto. cbn [bind]. unfold rdn. rewrite app_length, (proj2 (Nat.leb_le _ _)) by lia.
  cbn [skipn]. rewrite firstn_app, firstn_all, Nat.sub_diag, firstn_O, app_nil_r. reflexivity.
Qed.
Lemma shift_pad t r (pre : list N) : (length pre < r)%nat -> pre <> [] ->
  exists m, mmove (t ++ repeat 0 r) (length pre) 0 (length t + 1) = Ok m /\ length m = (length t + r)%nat /\
            skipn (length pre) m = (t ++ repeat 0 (r - length pre))%list.
Proof.
  intros P NE. unfold mmove, rdn. rewrite app_length, repeat_length. rewrite (proj2 (Nat.leb_le _ _)) by lia. cbn [bind skipn].
  assert (FT : firstn (length t + 1) (t ++ repeat 0 r) = (t ++ [0])%list).
  { rewrite firstn_app, firstn_all2 by lia. f_equal. replace (length t + 1 - length t)%nat with 1%nat by lia. destruct r; [lia|]. reflexivity. }
  rewrite FT. unfold wrn. rewrite !app_length, repeat_length. cbn [length]. rewrite (proj2 (Nat.leb_le _ _)) by lia.
  eexists. split; [reflexivity|].
  assert (FL : length (firstn (length pre) (t ++ repeat 0 r)) = length pre) by (rewrite firstn_length, app_length, repeat_length; lia).
  split.
  - rewrite !app_length, FL, skipn_length, app_length, repeat_length. cbn [length]. lia.
  - rewrite skipn_app, FL, Nat.sub_diag, skipn_all2 by lia. cbn [skipn app]. rewrite <- app_assoc. f_equal.
    rewrite skipn_app, skipn_all2 by lia. cbn [app]. replace (length pre + (length t + 1) - length t)%nat with (length pre + 1)%nat by lia.
    clear - P. assert (SR : forall a n, skipn a (repeat (0 : N) n) = repeat 0 (n - a)) by (induction a as [|a IH]; intros [|n]; cbn; auto).
    rewrite SR. replace (r - length pre)%nat with (S (r - (length pre + 1)))%nat by lia. reflexivity.
Qed.
Lemma put_front (m pre t : list N) : skipn (length pre) m = t -> (length pre <= length m)%nat -> wrn m 0 pre = Ok (pre ++ t)%list.
Proof. intros E L. unfold wrn. rewrite (proj2 (Nat.leb_le _ _)) by lia. cbn [firstn app Nat.add]. now rewrite E. Qed.
Lemma put_front1 (m : list N) c t : skipn 1 m = t -> (1 <= length m)%nat -> wr m 0 c = Ok (c :: t).
Proof. intros E L. destruct m as [|x m]; [cbn in L; lia|]. cbn in E. subst. reflexivity. Qed.

(** ** Integers *)
Definition sgn (pos : bool) (st : stype) : list N :=
  if pos then match st with SNeg => [] | SNegPos => [43] | SPosSpace => [32] end else [45].
(** Zeros go between the sign and the digits, blanks around both *)
Definition sfield (pre t : list N) (c p : N) (j : bool) : list N :=
  if c =? 48 then (pre ++ just t c (p - N.of_nat (length pre)) j)%list else just (pre ++ t) c p j.
Lemma sfield_nil t c p j : sfield [] t c p j = just t c p j.
Proof. unfold sfield. cbn [length app]. rewrite N.sub_0_r. now destruct (c =? 48). Qed.
Lemma add_sign_ok s t r pos st c p : no_nul t -> (1 < r)%nat ->
  exists o t' r' p', add_sign _ add_text s (t ++ repeat 0 r) (length t) pos st c p = Ok ((s ++ o)%list, Z.of_nat (length o), (t' ++ repeat 0 r')%list, p') /\
    no_nul t' /\ (r <= r' + 1)%nat /\ (pos = true -> st = SNeg -> o = [] /\ t' = t /\ r' = r /\ p' = p) /\
    forall j, (o ++ just t' c p' j)%list = sfield (sgn pos st) t c p j.
Proof.
  intros T R. unfold add_sign.
  destruct (pos && match st with SNeg => true | _ => false end) eqn:Q.
  { apply andb_prop in Q as [-> Q]. destruct st; try discriminate Q. exists [], t, r, p. rewrite app_nil_r. split; [reflexivity|]. split; [exact T|]. split; [lia|]. split; [auto|].
    intros j. cbn [sgn app]. now rewrite sfield_nil. }
  cbv zeta. set (sg := match st with SNeg => 45 | SNegPos => if pos then 43 else 45 | SPosSpace => if pos then 32 else 45 end).
  assert (SG : sgn pos st = [sg]) by (unfold sgn, sg; destruct pos, st; cbn in Q; congruence).
  assert (N0 : sg <> 0) by (unfold sg; destruct st, pos; discriminate).
  assert (NP : pos = true -> st = SNeg -> False) by (intros -> ->; discriminate Q).
  destruct (c =? 48) eqn:C.
  - unfold add_byte. rewrite add_bytes_gives. cbn [bind]. exists [sg], t, r, (p - N.min p 1).
    split; [reflexivity|]. split; [exact T|]. split; [lia|]. split; [intros X Y; destruct (NP X Y)|].
    intros j. unfold sfield. rewrite C, SG. cbn [app length]. do 2 f_equal. lia.
  - destruct (shift_pad t r [sg]) as (m & E & L & S); [exact R|discriminate|]. cbn [length] in *. rewrite E. cbn [bind].
    rewrite (put_front1 m sg _ S) by lia. cbn [bind]. exists [], (sg :: t), (r - 1)%nat, p. rewrite app_nil_r.
    split; [reflexivity|]. split; [now constructor|]. split; [lia|]. split; [intros X Y; destruct (NP X Y)|].
    intros j. unfold sfield. rewrite C, SG. reflexivity.
Qed.
Lemma add_integer_sign s v base pos st u c p j : 8 <= base <= 16 -> v < 2 ^ 64 ->
  exists ds, numeral base u v ds /\ gives s (add_integer_just _ add_text s v base pos st false u c p j) (sfield (sgn pos st) ds c p j).
Proof.
  intros B V. unfold gives, add_integer_just. cbv zeta.
  destruct (integer_to_str_ok v base u B V) as (ds & E & L & NU & NN). exists ds. split; [exact NU|]. rewrite E. cbn [bind].
  rewrite strlen_pad by (auto; lia). cbn [bind].
  destruct (add_sign_ok s ds (32 - length ds) pos st c p NN ltac:(lia)) as (o & t' & r' & p' & E1 & N1 & R1 & _ & F).
  rewrite E1. cbn [bind]. rewrite strlen_pad by (auto; lia). cbn [bind]. rewrite text_pad by (auto; lia). cbn [bind].
  rewrite add_bytes_just_gives. cbn [bind or_null]. rewrite <- (F j), <- app_assoc, app_length. do 2 f_equal. lia.
Qed.
Definition pfx (base v : N) (u : bool) : list N :=
  if base =? 8 then (if v =? 0 then [] else [48]) else [48; if u then 88 else 120].
Lemma numeral_head base u v ds : 1 < base -> numeral base u v ds -> exists c r, ds = c :: r /\ (c =? 48) = (v =? 0).
Proof.
  intros B (F & V & [->|(c & r & -> & NE)]).
  - exists 48, []. split; [reflexivity|]. change (value base [48]) with (0 * base + 0) in V. subst v. reflexivity.
  - exists c, r. split; [reflexivity|]. rewrite (proj2 (N.eqb_neq c 48) NE). symmetry. apply N.eqb_neq. intros ->.
    inversion F as [|x y D Fr]; subst. cbn beta in D. destruct D as [D1 D2].
    assert (0 < dval c) by (destruct u; unfold dval; destruct (N.leb_spec c 57); try lia; destruct (N.leb_spec c 70); lia).
    unfold value in V. cbn [fold_left] in V. change (0 * base + dval c) with (dval c) in V.
    assert (M : forall l a, a <= fold_left (fun a0 c0 => a0 * base + dval c0) l a).
    { induction l as [|x l IH]; intros a; cbn [fold_left]; [lia|]. eapply N.le_trans; [|apply IH]. nia. }
    pose proof (M r (dval c)). lia.
Qed.
Lemma add_integer_prefix s v base u c p j : base = 8 \/ base = 16 -> v < 2 ^ 64 ->
  exists ds, numeral base u v ds /\ gives s (add_integer_just _ add_text s v base true SNeg true u c p j) (sfield (pfx base v u) ds c p j).
Proof.
  intros B V. assert (B' : 8 <= base <= 16) by lia. unfold gives, add_integer_just. cbv zeta.
  destruct (integer_to_str_ok v base u B' V) as (ds & E & L & NU & NN). exists ds. split; [exact NU|]. rewrite E. cbn [bind].
  rewrite strlen_pad by (auto; lia). cbn [bind]. unfold add_sign. cbn [andb bind].
  rewrite strlen_pad by (auto; lia). cbn [bind].
  destruct (numeral_head base u v ds ltac:(lia) NU) as (d & r & ED & DV).
  unfold add_prefix. replace (rd (ds ++ repeat 0 (32 - length ds)) 0) with (Ok d) by (rewrite ED; reflexivity). cbn [bind].
  rewrite DV.
  replace (if base =? 8 then if v =? 0 then [] else [48] else if base =? 16 then if u then [48; 88] else [48; 120] else []) with (pfx base v u).
  2:{ unfold pfx. destruct B as [-> | ->]; [reflexivity|]. cbn [N.eqb Pos.eqb]. now destruct u. }
  assert (PL : (length (pfx base v u) <= 2)%nat) by (unfold pfx; destruct (base =? 8), (v =? 0); cbn; lia).
  assert (PN : no_nul (pfx base v u)) by (unfold pfx; destruct (base =? 8), (v =? 0), u; repeat constructor; discriminate).
  destruct (pfx base v u) as [|a pr] eqn:PE.
  - cbn [bind]. rewrite text_pad by (auto; lia). cbn [bind]. rewrite add_bytes_just_gives. cbn [bind or_null]. rewrite sfield_nil. reflexivity.
  - rewrite <- PE in *. destruct (c =? 48) eqn:C.
    + rewrite add_bytes_just_gives. cbn [bind or_null]. rewrite text_pad by (auto; lia). cbn [bind]. rewrite add_bytes_just_gives. cbn [bind or_null].
      unfold sfield. rewrite C. assert (J : just (pfx base v u) 0 0 false = pfx base v u) by reflexivity. rewrite J.
      rewrite <- app_assoc, app_length. replace (p - N.min p (N.of_nat (length (pfx base v u)))) with (p - N.of_nat (length (pfx base v u))) by lia. do 2 f_equal. lia.
    + destruct (shift_pad ds (32 - length ds) (pfx base v u)) as (m & E2 & L2 & S2); [lia|rewrite PE; discriminate|].
      rewrite E2. cbn [bind]. rewrite (put_front m _ _ S2) by lia. cbn [bind]. rewrite app_assoc.
      rewrite text_pad by (try (apply no_nul_app; auto); lia). cbn [bind]. rewrite add_bytes_just_gives. cbn [bind or_null].
      unfold sfield. rewrite C. reflexivity.
Qed.
(** ** Floating point numbers, given their digits *)
Lemma add_double_ok s neg text st prec c p j :
  let t := text (Nat.min (N.to_nat prec) 100) in no_nul t -> (length t < 511)%nat ->
  gives s (add_double_just _ add_text s neg text st prec c p j) (sfield (sgn (negb neg) st) t c p j).
Proof.
  intros t NN L. unfold gives, add_double_just. cbv zeta.
  replace (N.to_nat (if 100 <? prec then 100 else prec)) with (Nat.min (N.to_nat prec) 100) by (destruct (N.ltb_spec 100 prec); lia).
  fold t. unfold wrn. rewrite repeat_length, (proj2 (Nat.leb_le _ _)) by lia. cbn [bind firstn app Nat.add].
  assert (SR : forall a n, skipn a (repeat (0 : N) n) = repeat 0 (n - a)) by (induction a as [|a IH]; intros [|n]; cbn; auto).
  rewrite SR. rewrite strlen_pad by (auto; lia). cbn [bind].
  destruct (add_sign_ok s t (512 - length t) (negb neg) st c p NN ltac:(lia)) as (o & t' & r' & p' & E1 & N1 & R1 & _ & F).
  rewrite E1. cbn [bind]. rewrite text_pad by (auto; lia). cbn [bind].
  rewrite add_bytes_just_gives. cbn [bind or_null]. rewrite <- (F j), <- app_assoc, app_length. do 2 f_equal. lia.
Qed.

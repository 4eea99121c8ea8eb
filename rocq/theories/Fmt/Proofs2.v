(** The sinks, and that printing ends. *)
From Verif Require Import Base.Lib Base.Mem Fmt.Model Fmt.Spec Fmt.Proofs.
Local Open Scope N_scope.

(** ** A caller's buffer *)
Definition sb_rel (b0 : option (list N)) (size : nat) (s : sbuf) (out : list N) : Prop :=
  let '(buf, pos, len) := s in
  len = size /\
  match buf, b0 with
  | None, None => True
  | None, Some _ | Some _, None => False
  | Some m, Some m0 => if (size =? 0)%nat then m = m0
              else (size <= length m0)%nat /\ pos = Nat.min (length out) (size - 1) /\ m = (firstn pos out ++ skipn pos m0)%list
  end.
Lemma firstn_min {A} (l : list A) n : firstn (Nat.min (length l) n) l = firstn n l.
Proof.
  destruct (Nat.le_ge_cases (length l) n).
  - rewrite Nat.min_l by lia. rewrite !firstn_all2; auto; lia.
  - now rewrite Nat.min_r by lia.
Qed.
Lemma skipn_skipn' {A} a b (l : list A) : skipn a (skipn b l) = skipn (b + a) l.
Proof. rewrite skipn_skipn. f_equal; lia. Qed.
Lemma sb_add m0 size s out b : sb_rel m0 size s out -> b <> [] -> sim (Rz _ _ (sb_rel m0 size)) (add_sbuf s b) (add_text out b).
Proof.
  destruct s as [[buf pos] len]. unfold sb_rel at 1. intros [-> H] _. unfold add_sbuf, add_text.
  destruct buf as [m|], m0 as [m0|]; try contradiction; [|cbn; repeat split].
  destruct (Nat.eqb_spec size 0) as [->|NZ].
  - cbn. subst m. repeat split.
  - destruct H as (L & P & M).
    set (tlen := if (size - pos - 1 <? length b)%nat then (size - pos - 1)%nat else length b).
    assert (T : tlen = Nat.min (size - pos - 1) (length b)) by (unfold tlen; destruct (Nat.ltb_spec (size - pos - 1) (length b)); lia).
    assert (FL : length (firstn pos out) = pos) by (rewrite firstn_length; lia).
    assert (FB : length (firstn tlen b) = tlen) by (rewrite firstn_length; lia).
    unfold wrn. rewrite FB. rewrite M, app_length, FL, skipn_length.
    rewrite (proj2 (Nat.leb_le (pos + tlen) _)) by lia. cbn [bind sim]. split; [|reflexivity]. cbn [fst]. unfold sb_rel.
    split; [reflexivity|]. rewrite (proj2 (Nat.eqb_neq size 0) NZ). split; [exact L|].
    assert (NP : (pos + tlen)%nat = Nat.min (length (out ++ b)) (size - 1)) by (rewrite app_length; lia).
    split; [exact NP|].
    rewrite firstn_app, FL, Nat.sub_diag, firstn_O, app_nil_r, firstn_firstn, Nat.min_id.
    rewrite skipn_app, FL. replace (pos + tlen - pos)%nat with tlen by lia. rewrite skipn_skipn'.
    rewrite (skipn_all2 (firstn pos out)) by lia. cbn [app].
    rewrite firstn_app. rewrite app_assoc. f_equal.
    destruct (Nat.le_gt_cases (length out) (size - 1)).
    + clearbody tlen. replace pos with (length out) by lia. rewrite firstn_all, (firstn_all2 out) by lia. f_equal. f_equal. lia.
    + replace tlen with 0%nat by lia. rewrite firstn_O, app_nil_r, Nat.add_0_r. replace (pos - length out)%nat with 0%nat by lia. rewrite firstn_O, app_nil_r. reflexivity.
Qed.
Lemma vsnprintf_spec buf size fmt ap : match buf with Some m => (size <= length m)%nat | None => True end ->
  match print_text fmt ap with
  | Ok (t, _) =>
    vsnprintf buf size fmt ap =
    Ok (match buf with
        | None => None
        | Some m => if (size =? 0)%nat then Some m else Some (firstn (size - 1) t ++ [0%N] ++ skipn (S (Nat.min (length t) (size - 1))) m)%list
        end, N.of_nat (length t))
  | UB => vsnprintf buf size fmt ap = UB
  | Fuel => vsnprintf buf size fmt ap = Fuel
  end.
Proof.
  intros B.
  assert (R0 : sb_rel buf size (buf, 0%nat, size) []).
  { split; [reflexivity|]. destruct buf as [m|]; [|exact I]. destruct (Nat.eqb_spec size 0); [reflexivity|]. repeat split; auto. }
  pose proof (do_print_sim _ _ add_sbuf add_text (sb_rel buf size) (sb_add buf size) (buf, 0%nat, size) [] fmt ap R0) as S.
  fold (print_text fmt ap) in S. unfold vsnprintf. pose proof (print_text_len fmt ap) as PL.
  destruct (print_text fmt ap) as [[t z]| |], (do_print _ add_sbuf _ _ _) as [[[[buf' pos] len] r]| |]; cbn [sim] in S; try contradiction; cbn [bind]; auto.
  destruct S as [[E S] Z]. cbn [fst snd] in *. subst r len. specialize (PL t z eq_refl). subst z.
  replace (Z.of_nat (length t) <? 0)%Z with false by (symmetry; apply Z.ltb_ge; lia).
  replace (Z.of_nat (length t) =? -1)%Z with false by (symmetry; apply Z.eqb_neq; lia). cbn [orb].
  replace (Z.to_N (Z.of_nat (length t))) with (N.of_nat (length t)) by lia.
  destruct buf' as [m|], buf as [m0|]; try contradiction; [|reflexivity].
  destruct (Nat.eqb_spec size 0) as [->|NZ]; [now subst m|].
  destruct S as (L & P & M).
  assert (FL : length (firstn pos t) = pos) by (rewrite firstn_length; lia).
  destruct (skipn pos m0) as [|c r] eqn:SK. { assert (length (skipn pos m0) = 0%nat) by now rewrite SK. rewrite skipn_length in *. lia. }
  replace (wr m pos 0) with (Ok (firstn pos t ++ 0 :: r)%list).
  2:{ rewrite M. symmetry. pose proof (wr_app_mid (firstn pos t) c r 0) as W. rewrite FL in W. exact W. }
  cbn [bind]. do 4 f_equal.
  - rewrite P. apply firstn_min.
  - cbn [app]. f_equal. rewrite <- P. change (S pos) with (1 + pos)%nat. replace (1 + pos)%nat with (pos + 1)%nat by lia. rewrite <- skipn_skipn', SK. reflexivity.
Qed.

(** ** An M_buf *)
Lemma vbprintf_spec buf fmt ap :
  match print_text fmt ap with
  | Ok (t, _) => vbprintf buf fmt ap = Ok (match buf with Some b => Some (b ++ t)%list | None => None end, N.of_nat (length t))
  | UB => vbprintf buf fmt ap = UB
  | Fuel => vbprintf buf fmt ap = Fuel
  end.
Proof.
  set (R := fun (s : option (list N)) (out : list N) => s = match buf with Some b => Some (b ++ out)%list | None => None end).
  assert (HA : forall s1 s2 b, R s1 s2 -> b <> [] -> sim (Rz _ _ R) (add_mbuf s1 b) (add_text s2 b)).
  { intros s1 s2 b -> _. unfold add_mbuf, add_text. cbn. split; [|reflexivity]. cbn. unfold R. destruct buf; [now rewrite app_assoc|reflexivity]. }
  assert (R0 : R buf []). { unfold R. destruct buf; [now rewrite app_nil_r|reflexivity]. }
  pose proof (do_print_sim _ _ add_mbuf add_text R HA buf [] fmt ap R0) as S. fold (print_text fmt ap) in S. unfold vbprintf.
  pose proof (print_text_len fmt ap) as PL.
  destruct (print_text fmt ap) as [[t z]| |], (do_print _ add_mbuf _ _ _) as [[buf' r]| |]; cbn [sim] in S; try contradiction; cbn [bind]; auto.
  destruct S as [S Z]. cbn [fst snd] in *. subst r. specialize (PL t z eq_refl). subst z. rewrite S.
  replace (Z.of_nat (length t) <? 0)%Z with false by (symmetry; apply Z.ltb_ge; lia). do 2 f_equal. lia.
Qed.

(** ** A file descriptor *)
Lemma fd_big_ok fuel : forall b out, (length b < fuel)%nat ->
  exists b' out', fd_big fuel b out = Ok (b', out') /\ (out' ++ b' = out ++ b)%list /\ (length b' <= 512)%nat.
Proof.
  induction fuel as [|n IH]; intros b out L; [lia|]. cbn [fd_big].
  destruct (Nat.ltb_spec 512 (length b)) as [G|G].
  - destruct (IH (skipn 512 b) (out ++ firstn 512 b)%list) as (b' & out' & E & A & B). { rewrite skipn_length. lia. }
    exists b', out'. split; [exact E|]. split; [|exact B]. rewrite A, <- app_assoc. now rewrite firstn_skipn.
  - exists b, out. repeat split; auto.
Qed.
Definition fd_rel (s : fdbuf) (out : list N) : Prop :=
  let '(wbuf, len, o) := s in length wbuf = 512%nat /\ (len <= 512)%nat /\ out = (o ++ firstn len wbuf)%list.
Lemma fd_add s out b : fd_rel s out -> b <> [] -> sim (Rz _ _ fd_rel) (add_fd s b) (add_text out b).
Proof.
  destruct s as [[wbuf len] o]. intros (L & B & E) _. unfold add_fd, add_text.
  destruct (Nat.leb_spec 512 (len + length b)) as [G|G].
  - unfold rdn. rewrite (proj2 (Nat.leb_le _ _)) by lia. cbn [bind skipn].
    destruct (fd_big_ok (S (length b)) b (o ++ firstn len wbuf)%list) as (b' & o' & F & A & C); [lia|]. rewrite F. cbn [bind].
    unfold wrn. rewrite (proj2 (Nat.leb_le _ _)) by lia. cbn [bind sim]. split; [|reflexivity]. cbn [fst]. split; [|split].
    + rewrite !app_length, firstn_length, skipn_length. lia.
    + lia.
    + cbn [firstn app Nat.add]. rewrite firstn_app, firstn_all, Nat.sub_diag, firstn_O, app_nil_r, A. now rewrite E.
  - cbn [bind]. unfold wrn. rewrite (proj2 (Nat.leb_le _ _)) by lia. cbn [bind sim]. split; [|reflexivity]. cbn [fst].
    assert (FL : length (firstn len wbuf) = len) by (rewrite firstn_length; lia). split; [|split].
    + rewrite !app_length, FL, skipn_length. lia.
    + lia.
    + rewrite app_assoc, firstn_app, app_length, FL, Nat.sub_diag, firstn_O, app_nil_r. rewrite firstn_all2 by (rewrite app_length; lia).
      rewrite E, app_assoc. reflexivity.
Qed.
Lemma vdprintf_spec wbuf fmt ap : length wbuf = 512%nat ->
  match print_text fmt ap with
  | Ok (t, _) => vdprintf wbuf fmt ap = Ok (t, Z.of_nat (length t))
  | UB => vdprintf wbuf fmt ap = UB
  | Fuel => vdprintf wbuf fmt ap = Fuel
  end.
Proof.
  intros L. assert (R0 : fd_rel (wbuf, 0%nat, []) []) by (repeat split; auto; lia).
  pose proof (do_print_sim _ _ add_fd add_text fd_rel fd_add _ [] fmt ap R0) as S. fold (print_text fmt ap) in S. unfold vdprintf.
  pose proof (print_text_len fmt ap) as PL.
  destruct (print_text fmt ap) as [[t z]| |], (do_print _ add_fd _ _ _) as [[[[w len] o] r]| |]; cbn [sim] in S; try contradiction; cbn [bind]; auto.
  destruct S as [(A & B & E) Z]. cbn [fst snd] in *. subst r. specialize (PL t z eq_refl). subst z.
  replace (Z.of_nat (length t) =? -1)%Z with false by (symmetry; apply Z.eqb_neq; lia).
  unfold rdn. rewrite (proj2 (Nat.leb_le _ _)) by lia. cbn [bind skipn]. now rewrite <- E.
Qed.

(** ** A stream; none of the calls fails *)
Lemma vfprintf_spec fails fmt ap : Forall (fun b => b = false) fails ->
  match print_text fmt ap with
  | Ok (t, _) => vfprintf fails fmt ap = Ok (t, Z.of_nat (length t))
  | UB => vfprintf fails fmt ap = UB
  | Fuel => vfprintf fails fmt ap = Fuel
  end.
Proof.
  intros F. set (R := fun (s : list N * list bool) (out : list N) => fst s = out /\ Forall (fun b => b = false) (snd s)).
  assert (HA : forall s1 s2 b, R s1 s2 -> b <> [] -> sim (Rz _ _ R) (add_stream s1 b) (add_text s2 b)).
  { intros [o fs] s2 b [E G] _. cbn in E, G. subst s2. unfold add_stream, add_text. destruct fs as [|x fs]; [now repeat split|].
    inversion G; subst. now repeat split. }
  assert (R0 : R ([], fails) []) by (split; [reflexivity|exact F]).
  pose proof (do_print_sim _ _ add_stream add_text R HA _ [] fmt ap R0) as S. fold (print_text fmt ap) in S. unfold vfprintf.
  pose proof (print_text_len fmt ap) as PL.
  destruct (print_text fmt ap) as [[t z]| |], (do_print _ add_stream _ _ _) as [[s r]| |]; cbn [sim] in S; try contradiction; cbn [bind]; auto.
  destruct S as [[A B] Z]. cbn [fst snd] in *. subst r. specialize (PL t z eq_refl). subst z. now rewrite A.
Qed.

(** ** Printing ends *)
Lemma bind_nf {A B} (x : res A) (f : A -> res B) : x <> Fuel -> (forall a, x = Ok a -> f a <> Fuel) -> bind x f <> Fuel.
Proof. destruct x; cbn; intros; auto; congruence. Qed.
Lemma rd_nf {A} (m : list A) i : rd m i <> Fuel.
Proof. unfold rd. destruct (nth_error m i); discriminate. Qed.
Lemma wr_nf {A} (m : list A) i v : wr m i v <> Fuel.
Proof. unfold wr. destruct (_ <? _)%nat; discriminate. Qed.
Lemma rdn_nf {A} (m : list A) i n : rdn m i n <> Fuel.
Proof. unfold rdn. destruct (_ <=? _)%nat; discriminate. Qed.
Lemma wrn_nf {A} (m : list A) i l : wrn m i l <> Fuel.
Proof. unfold wrn. destruct (_ <=? _)%nat; discriminate. Qed.
Lemma mmove_nf {A} (m : list A) d s n : mmove m d s n <> Fuel.
Proof. unfold mmove. apply bind_nf; [apply rdn_nf|]. intros; apply wrn_nf. Qed.
Lemma strlen_nf m : strlen m <> Fuel.
Proof. induction m; cbn; [discriminate|]. destruct (_ =? 0); [discriminate|]. apply bind_nf; [auto|discriminate]. Qed.
Lemma strlen_max_nf n : forall m, strlen_max m n <> Fuel.
Proof. intros m. revert n. induction m as [|c m IH]; intros [|n]; cbn; try discriminate. destruct (_ =? 0); [discriminate|]. apply bind_nf; [auto|discriminate]. Qed.
Lemma reverse_loop_nf i : forall b l, reverse_loop b i l <> Fuel.
Proof.
  induction i; intros b l; cbn [reverse_loop]; [discriminate|].
  repeat (apply bind_nf; [first [apply rd_nf|apply wr_nf]|intros]). apply IHi.
Qed.
Lemma digit_loop_nf fuel : forall v ba u b i len, (len <= i + fuel)%nat -> (0 < fuel)%nat -> digit_loop fuel v ba u b i len <> Fuel.
Proof.
  induction fuel as [|n IH]; intros v ba u b i len L P; [lia|]. cbn [digit_loop]. apply bind_nf; [apply wr_nf|]. intros b' _. cbv zeta.
  destruct (_ && _) eqn:E; [|discriminate]. apply andb_prop in E as [_ E]. apply Nat.ltb_lt in E. apply IH; lia.
Qed.
Lemma integer_to_str_nf v ba u b : (0 < length b)%nat -> integer_to_str v ba u b <> Fuel.
Proof.
  intros L. unfold integer_to_str. apply bind_nf; [apply digit_loop_nf; lia|]. intros [b' i] _. unfold reverse_bytes.
  destruct (_ =? 0)%nat; [discriminate|apply reverse_loop_nf].
Qed.
Lemma flag_round_len f b fmt : is_flag b = true -> (length (snd (flag_round f (b :: fmt))) <= length fmt)%nat.
Proof.
  intros H. unfold flag_round.
  assert (C : forall c l, (length (snd (chk c l)) <= length l)%nat) by (intros c [|x l]; cbn; [lia|destruct (_ =? _); cbn; lia]).
  assert (ST : forall c, b =? c = false -> chk c (b :: fmt) = (false, b :: fmt)) by (intros c E; cbn; now rewrite E).
  assert (TK : forall c, b =? c = true -> chk c (b :: fmt) = (true, fmt)) by (intros c E; cbn; now rewrite E).
  unfold is_flag in H.
  repeat match goal with
  | |- context [chk ?c (b :: fmt)] => let E := fresh "E" in destruct (b =? c) eqn:E; [rewrite (TK c E)|rewrite (ST c E)]
  | |- context [let (_, _) := chk ?c ?l in _] => let X := fresh "X" in pose proof (C c l) as X; destruct (chk c l); cbn [snd] in X
  end; cbn [snd]; try lia.
Qed.
Lemma flag_loop_nf n : forall f fmt, (length fmt < n)%nat -> flag_loop n f fmt <> Fuel.
Proof.
  induction n as [|n IH]; intros f fmt L; [lia|]. cbn [flag_loop]. destruct fmt as [|b fmt]; [discriminate|].
  destruct (is_flag b) eqn:E; [|discriminate]. pose proof (flag_round_len f b fmt E) as K. destruct (flag_round f (b :: fmt)) as [f' fmt']. cbn [snd length] in *.
  apply IH. lia.
Qed.
Lemma add_sign_nf s b n p t c l : add_sign _ add_text s b n p t c l <> Fuel.
Proof.
  unfold add_sign. destruct (p && _); [discriminate|]. cbv zeta. destruct (c =? 48).
  - apply bind_nf; [unfold add_byte; rewrite add_bytes_gives; discriminate|]. intros [? ?] _. discriminate.
  - apply bind_nf; [apply mmove_nf|]. intros x _. apply bind_nf; [apply wr_nf|]. discriminate.
Qed.
Lemma add_prefix_nf s b n ba u c l : add_prefix _ add_text s b n ba u c l <> Fuel.
Proof.
  unfold add_prefix. apply bind_nf; [apply rd_nf|]. intros b0 _. cbv zeta. set (pre := if ba =? 8 then _ else _).
  destruct pre; [discriminate|]. destruct (c =? 48).
  - rewrite add_bytes_just_gives. discriminate.
  - apply bind_nf; [apply mmove_nf|]. intros x _. apply bind_nf; [apply wrn_nf|]. discriminate.
Qed.
Lemma text_of_nf b : text_of b <> Fuel.
Proof. unfold text_of. apply bind_nf; [apply strlen_nf|]. intros; apply rdn_nf. Qed.
Lemma add_integer_just_nf s v ba p st pre u c l j : add_integer_just _ add_text s v ba p st pre u c l j <> Fuel.
Proof.
  unfold add_integer_just. cbv zeta. apply bind_nf; [apply integer_to_str_nf; rewrite repeat_length; lia|]. intros b1 _.
  apply bind_nf; [apply strlen_nf|]. intros n1 _.
  apply bind_nf; [apply add_sign_nf|]. intros [[[s1 o1] b2] l2] _.
  apply bind_nf; [apply strlen_nf|]. intros n2 _.
  apply bind_nf; [destruct pre; [apply add_prefix_nf|discriminate]|]. intros [[[s2 o2] b3] l3] _.
  apply bind_nf; [apply text_of_nf|]. intros t _. rewrite add_bytes_just_gives. discriminate.
Qed.
Lemma add_double_just_nf s g tx st pr c l j : add_double_just _ add_text s g tx st pr c l j <> Fuel.
Proof.
  unfold add_double_just. cbv zeta. apply bind_nf; [apply wrn_nf|]. intros b1 _.
  apply bind_nf; [apply strlen_nf|]. intros n1 _.
  apply bind_nf; [apply add_sign_nf|]. intros [[[s1 o1] b2] l2] _.
  apply bind_nf; [apply text_of_nf|]. intros t _. rewrite add_bytes_just_gives. discriminate.
Qed.
Lemma parse_error_nf s n fmt ap : parse_error _ add_text s n fmt ap <> Fuel.
Proof. rewrite parse_error_gives. discriminate. Qed.
Lemma fin_nf k r fmt ap : r <> Fuel -> fin _ add_text k r fmt ap <> Fuel.
Proof. intros H. unfold fin. apply bind_nf; [exact H|]. intros [s z] _. destruct (_ =? -2)%Z; [apply parse_error_nf|discriminate]. Qed.
(** A result that is not Fuel and whose rest of the format is not longer than [n] *)
Definition shr (n : nat) (r : res (list N * Z * list N * list arg)) : Prop :=
  match r with Ok (_, _, fmt, _) => (length fmt <= n)%nat | UB => True | Fuel => False end.
Lemma parse_error_shr n s k fmt ap : (length fmt <= n)%nat -> shr n (parse_error _ add_text s k fmt ap).
Proof. now rewrite parse_error_gives. Qed.
Lemma fin_shr n k s r fmt ap : r <> Fuel -> grows s id r -> (length fmt <= n)%nat -> shr n (fin _ add_text k r fmt ap).
Proof.
  unfold fin. destruct r as [[s1 z]| |]; cbn [bind]; [|intros; exact I|congruence]. intros _ (t & E) L. cbv [id] in E. injection E as -> ->.
  replace (Z.of_nat (length t) =? -2)%Z with false by (symmetry; apply Z.eqb_neq; lia). exact L.
Qed.
Lemma shr_bind {A} n (x : res A) f : x <> Fuel -> (forall a, shr n (f a)) -> shr n (bind x f).
Proof. destruct x; cbn; intros; auto; congruence. Qed.
Lemma shr_le n m r : shr n r -> (n <= m)%nat -> shr m r.
Proof. destruct r as [[[[s z] f] a]| |]; cbn; auto; lia. Qed.
Lemma conv_loop_shr k f n : forall s fmt ap h p i t, (length fmt <= n)%nat -> shr n (conv_loop _ add_text k f s fmt ap h p i t).
Proof.
  induction n as [|n IH]; intros s fmt ap h p i t L.
  - destruct fmt; [|cbn in L; lia]. cbn [conv_loop]. now apply parse_error_shr.
  - destruct fmt as [|b fmt]; [cbn [conv_loop]; now apply parse_error_shr|]. cbn [length] in L. cbn [conv_loop]. cbv zeta.
    assert (IH' : forall ap h p i t, shr (S n) (conv_loop _ add_text k f s fmt ap h p i t)) by (intros; eapply shr_le; [apply IH; lia|lia]).
    assert (LF : (length fmt <= S n)%nat) by lia.
    pose proof (fun k ap => parse_error_shr (S n) s k fmt ap LF) as PE.
    assert (VI : forall ap, va_int ap <> Fuel) by (intros [|[] ?]; discriminate).
    assert (VL : forall ap, va_long ap <> Fuel) by (intros [|[] ?]; discriminate).
    assert (VP : forall ap, va_ptr ap <> Fuel) by (intros [|[] ?]; discriminate).
    assert (VS : forall ap, va_str ap <> Fuel) by (intros [|[] ?]; discriminate).
    assert (VD : forall ap, va_dbl ap <> Fuel) by (intros [|[] ?]; discriminate).
    assert (GS : get_signed t ap <> Fuel) by (destruct t; apply bind_nf; auto; intros [? ?] _; discriminate).
    assert (GU : get_unsigned t ap <> Fuel) by (destruct t; cbn [get_unsigned]; auto; apply bind_nf; auto; intros [? ?] _; discriminate).
    destruct (b =? 46); [destruct h; auto|].
    destruct (isdig b); [destruct h; auto|].
    destruct (b =? 42); [apply shr_bind; auto; intros [v ap']; cbv zeta; destruct h; auto|].
    destruct (b =? 104); [destruct t; auto|].
    destruct (b =? 108); [destruct t; auto|].
    destruct (b =? 73).
    { destruct fmt as [|x [|y fmt'']]; try (destruct t; auto; fail).
      destruct t; auto. destruct (_ && _); [eapply shr_le; [apply IH; cbn in L; lia|lia]|].
      destruct (_ && _); [eapply shr_le; [apply IH; cbn in L; lia|lia]|auto]. }
    destruct (b =? 122); [destruct t; auto|].
    destruct (_ || _). { apply shr_bind; auto; intros [v ap']. eapply fin_shr; auto; [apply add_integer_just_nf|apply add_integer_just_grows]. }
    destruct (_ || _). { apply shr_bind; auto; intros [v ap']. eapply fin_shr; auto; [apply add_integer_just_nf|apply add_integer_just_grows]. }
    destruct (b =? 117). { apply shr_bind; auto; intros [v ap']. eapply fin_shr; auto; [apply add_integer_just_nf|apply add_integer_just_grows]. }
    destruct ((b =? 120) || _). { apply shr_bind; auto; intros [v ap']. eapply fin_shr; auto; [apply add_integer_just_nf|apply add_integer_just_grows]. }
    destruct ((b =? 112) || _). { apply shr_bind; auto; intros [v ap']. eapply fin_shr; auto; [apply add_integer_just_nf|apply add_integer_just_grows]. }
    destruct (_ || (b =? 71)). { apply shr_bind; auto; intros [[v tx] ap']. eapply fin_shr; auto; [apply add_double_just_nf|apply add_double_just_grows]. }
    destruct (b =? 99). { apply shr_bind; auto; intros [v ap']. rewrite (fin_gives k s _ _ _ _ (add_bytes_just_gives s _ _ _ _)). exact LF. }
    destruct (b =? 115).
    { apply shr_bind; auto; intros [v ap']. apply shr_bind.
      { destruct v as [m|]; [|discriminate]. apply bind_nf; [destruct h; [apply strlen_max_nf|apply strlen_nf]|]. intros n1 _. apply bind_nf; [apply rdn_nf|discriminate]. }
      intros tx. rewrite (fin_gives k s _ _ _ _ (add_bytes_just_gives s _ _ _ _)). exact LF. }
    auto.
Qed.
Lemma flag_loop_len n : forall f fmt f' fmt', flag_loop n f fmt = Ok (f', fmt') -> (length fmt' <= length fmt)%nat.
Proof.
  induction n as [|n IH]; intros f fmt f' fmt' E; [discriminate E|]. cbn [flag_loop] in E. destruct fmt as [|b fmt]; [injection E as <- <-; auto|].
  destruct (is_flag b) eqn:F; [|injection E as <- <-; auto]. pose proof (flag_round_len f b fmt F) as K. destruct (flag_round f (b :: fmt)) as [f1 fmt1]. cbn [snd length] in *.
  apply IH in E. lia.
Qed.
Lemma handle_control_shr s fmt ap : shr (length fmt) (handle_control _ add_text s fmt ap).
Proof.
  unfold handle_control. destruct fmt as [|b fmt]; [now apply parse_error_shr|]. destruct (b =? 37).
  - unfold add_byte. rewrite add_bytes_gives. cbn [bind shr length]. lia.
  - pose proof (flag_loop_nf (S (length (b :: fmt))) (mkf false false SNeg 32) (b :: fmt)) as NF.
    destruct (flag_loop _ _ _) as [[f fmt']| |] eqn:E; cbn [bind]; [|exact I|apply NF; auto].
    apply flag_loop_len in E. eapply shr_le; [apply conv_loop_shr, Nat.le_refl|exact E].
Qed.
Lemma print_loop_nf n : forall s fmt ap o, (length fmt < n)%nat -> print_loop _ add_text n s fmt ap o <> Fuel.
Proof.
  induction n as [|n IH]; intros s fmt ap o L; [lia|]. cbn [print_loop]. destruct fmt as [|b fmt]; [discriminate|]. cbn [length] in L.
  assert (G : shr (length fmt) (if b =? 37 then handle_control _ add_text s fmt ap else do ' (s0, r) <- add_byte _ add_text s b; Ok (s0, r, fmt, ap))).
  { destruct (b =? 37); [apply handle_control_shr|]. unfold add_byte. rewrite add_bytes_gives. cbn [bind shr]. lia. }
  destruct (if b =? 37 then _ else _) as [[[[s1 z] fmt'] ap']| |]; cbn [bind shr] in *; [|discriminate|contradiction].
  destruct (_ =? -1)%Z; [discriminate|apply IH; lia].
Qed.
Lemma print_text_nf fmt ap : print_text fmt ap <> Fuel.
Proof. apply print_loop_nf. lia. Qed.

(** From the format to the conversions. *)
From Verif Require Import Base.Lib Base.Mem Fmt.Model Fmt.Spec Fmt.Proofs Fmt.Proofs2 Fmt.Proofs3.
Local Open Scope N_scope.

(** ** Flags *)
Definition fstep (f : flags) (c : N) : flags :=
  if c =? 45 then mkf (f_prefix f) true (f_sign f) 32
  else if c =? 43 then mkf (f_prefix f) (f_ljust f) SNegPos (f_pad f)
  else if c =? 32 then match f_sign f with SNegPos => f | _ => mkf (f_prefix f) (f_ljust f) SPosSpace (f_pad f) end
  else if c =? 35 then mkf true (f_ljust f) (f_sign f) (f_pad f)
  else if f_ljust f then f else mkf (f_prefix f) (f_ljust f) (f_sign f) 48.
Definition isf (b : N) : Prop := In b [45; 43; 32; 35; 48].
Definition after (f : flags) (l : list N) (x : flags * list N) : Prop :=
  exists l1, l = (l1 ++ snd x)%list /\ Forall isf l1 /\ fst x = fold_left fstep l1 f.
Lemma after_trans f l f1 l' x : after f l (f1, l') -> after f1 l' x -> after f l x.
Proof.
  intros (a & E & F & G) (b & E' & F' & G'). cbn [fst snd] in *. exists (a ++ b)%list. rewrite fold_left_app, <- G. split; [|split]; auto.
  - now rewrite E, E', <- app_assoc.
  - now apply Forall_app.
Qed.
Lemma after_chk c f l g : isf c -> fstep f c = g ->
  after f l (let (r, l') := chk c l in (if r then g else f, l')).
Proof.
  intros I G. unfold chk. destruct l as [|b l]; [now exists []|]. destruct (N.eqb_spec b c) as [->|].
  - exists [c]. repeat split; auto.
  - now exists [].
Qed.
Lemma flag_round_after f l : after f l (flag_round f l).
Proof.
  unfold flag_round.
  pose proof (after_chk 45 f l _ (or_introl eq_refl) eq_refl) as A1. destruct (chk 45 l) as [r1 l1].
  change (fstep f 45) with (mkf (f_prefix f) true (f_sign f) 32) in A1. set (f1 := if r1 then _ else _) in *. eapply after_trans; [exact A1|]. clear A1.
  clearbody f1.
  pose proof (after_chk 43 f1 l1 _ ltac:(cbn; auto) eq_refl) as A1. destruct (chk 43 l1) as [r2 l2].
  change (fstep f1 43) with (mkf (f_prefix f1) (f_ljust f1) SNegPos (f_pad f1)) in A1. set (f2 := if r2 then _ else _) in *. eapply after_trans; [exact A1|]. clear A1.
  clearbody f2.
  pose proof (after_chk 32 f2 l2 _ ltac:(cbn; auto) eq_refl) as A1. destruct (chk 32 l2) as [r3 l3].
  assert (X : (if r3 then fstep f2 32 else f2) = (if r3 && match f_sign f2 with SNegPos => false | _ => true end then mkf (f_prefix f2) (f_ljust f2) SPosSpace (f_pad f2) else f2)).
  { destruct r3; [|reflexivity]. cbn. destruct (f_sign f2); reflexivity. }
  rewrite X in A1. clear X.
  set (f3 := if r3 && _ then _ else _) in *. eapply after_trans; [exact A1|]. clear A1. clearbody f3.
  pose proof (after_chk 35 f3 l3 _ ltac:(cbn; auto) eq_refl) as A1. destruct (chk 35 l3) as [r4 l4].
  change (fstep f3 35) with (mkf true (f_ljust f3) (f_sign f3) (f_pad f3)) in A1. set (f4 := if r4 then _ else _) in *. eapply after_trans; [exact A1|]. clear A1.
  clearbody f4.
  pose proof (after_chk 48 f4 l4 _ ltac:(cbn; auto 10) eq_refl) as A1. destruct (chk 48 l4) as [r5 l5].
  assert (X : (if r5 then fstep f4 48 else f4) = (if r5 && negb (f_ljust f4) then mkf (f_prefix f4) (f_ljust f4) (f_sign f4) 48 else f4)).
  { destruct r5; [|reflexivity]. cbn. destruct (f_ljust f4); reflexivity. }
  rewrite X in A1. exact A1.
Qed.
Lemma isf_flag b : isf b <-> is_flag b = true.
Proof.
  unfold isf, is_flag. rewrite !orb_true_iff, !N.eqb_eq. cbn [In]. intuition.
Qed.
Definition plain (l : list N) : Prop := match l with b :: _ => ~ isf b | [] => True end.
Lemma flags_split l1 l2 fl rest : (l1 ++ l2 = fl ++ rest)%list -> Forall isf l1 -> plain rest -> exists fl', fl = (l1 ++ fl')%list /\ l2 = (fl' ++ rest)%list.
Proof.
  revert fl. induction l1 as [|a l1 IH]; intros fl E F P; [exists fl; auto|]. inversion F; subst. destruct fl as [|b fl].
  - cbn in E. subst rest. cbn in P. contradiction.
  - cbn in E. injection E as -> E. destruct (IH fl E H2 P) as (fl' & -> & ->). exists fl'. auto.
Qed.
Lemma flag_loop_ok n : forall f fl rest, (length fl < n)%nat -> Forall isf fl -> plain rest ->
  flag_loop n f (fl ++ rest) = Ok (fold_left fstep fl f, rest).
Proof.
  induction n as [|n IH]; intros f fl rest L F P; [lia|]. cbn [flag_loop]. destruct fl as [|b fl].
  - cbn [app fold_left]. destruct rest as [|b rest]; [reflexivity|]. cbn in P. destruct (is_flag b) eqn:E; [|reflexivity]. destruct P. now apply isf_flag.
  - cbn [app]. inversion F; subst. rewrite (proj1 (isf_flag b) H1).
    pose proof (flag_round_after f (b :: fl ++ rest)) as (l1 & E & F1 & G). pose proof (flag_round_len f b (fl ++ rest) (proj1 (isf_flag b) H1)) as LN.
    destruct (flag_round f (b :: fl ++ rest)) as [f' l']. cbn [fst snd] in *.
    change (b :: fl ++ rest)%list with ((b :: fl) ++ rest)%list in E. symmetry in E.
    destruct (flags_split _ _ _ _ E F1 P) as (fl' & E1 & ->). rewrite E1, fold_left_app, <- G.
    rewrite E1 in F, L. apply Forall_app in F as [_ F]. rewrite app_length in L, LN. rewrite app_length in LN.
    assert (length (b :: fl) = length (l1 ++ fl')%list) by now rewrite E1. rewrite app_length in H. cbn [length] in H.
    apply IH; auto. lia.
Qed.
Definition fpad (fl : list N) : N := if has 45 fl then 32 else if has 48 fl then 48 else 32.
Definition fsgn (fl : list N) : stype := if has 43 fl then SNegPos else if has 32 fl then SPosSpace else SNeg.
Lemma has_app c a b : has c (a ++ b) = has c a || has c b.
Proof. apply existsb_app. Qed.
Lemma flags_mean fl : Forall isf fl -> fold_left fstep fl (mkf false false SNeg 32) = mkf (has 35 fl) (has 45 fl) (fsgn fl) (fpad fl).
Proof.
  induction fl as [|c fl IH] using rev_ind; intros F; [reflexivity|]. apply Forall_app in F as [F1 F2]. rewrite fold_left_app, (IH F1). cbn [fold_left].
  inversion F2; subst. unfold fpad, fsgn. rewrite !has_app. cbn [In isf] in H1.
  destruct (has 35 fl), (has 45 fl), (has 43 fl), (has 32 fl), (has 48 fl); destruct H1 as [<-|[<-|[<-|[<-|[<-|[]]]]]]; reflexivity.
Qed.
Lemma sgn_sign fl neg : sgn (negb neg) (fsgn fl) = sign fl neg.
Proof. unfold sgn, sign, fsgn. destruct neg; [reflexivity|]. cbn. now destruct (has 43 fl), (has 32 fl). Qed.
Lemma sfield_field fl w pre t : sfield pre t (fpad fl) w (has 45 fl) = field true fl w pre t.
Proof.
  unfold sfield, field, fpad, just. destruct (has 45 fl); [reflexivity|]. destruct (has 48 fl); cbn [N.eqb Pos.eqb andb]; [|reflexivity].
  do 3 f_equal. rewrite app_length. lia.
Qed.
Lemma just_field fl w t : just t (fpad fl) w (has 45 fl) = field true fl w [] t.
Proof. now rewrite <- sfield_field, sfield_nil. Qed.
Lemma just_field_s fl w t : just t 32 w (has 45 fl) = field false fl w [] t.
Proof. unfold field, just. cbn [app andb]. reflexivity. Qed.

(** ** Widths *)
Section Loop.
Variables (k : nat) (f : flags) (s : list N).
Notation cl := (conv_loop (list N) add_text k f s).
Definition dec10 (n : N) (ds : list N) : N := fold_left mul10 ds n.
Lemma digits_pad ds : forall rest ap p i t, Forall (fun c => 48 <= c <= 57) ds -> cl (ds ++ rest)%list ap false p i t = cl rest ap false (dec10 p ds) i t.
Proof.
  induction ds as [|c ds IH]; intros rest ap p i t F; [reflexivity|]. inversion F; subst. cbn [app conv_loop]. cbv zeta.
  rewrite (proj2 (N.eqb_neq c 46)) by lia. unfold isdig. rewrite (proj2 (N.leb_le 48 c)), (proj2 (N.leb_le c 57)) by lia. cbn [andb].
  rewrite IH by auto. reflexivity.
Qed.
Lemma digits_inp ds : forall rest ap p i t, Forall (fun c => 48 <= c <= 57) ds -> cl (ds ++ rest)%list ap true p i t = cl rest ap true p (dec10 i ds) t.
Proof.
  induction ds as [|c ds IH]; intros rest ap p i t F; [reflexivity|]. inversion F; subst. cbn [app conv_loop]. cbv zeta.
  rewrite (proj2 (N.eqb_neq c 46)) by lia. unfold isdig. rewrite (proj2 (N.leb_le 48 c)), (proj2 (N.leb_le c 57)) by lia. cbn [andb].
  rewrite IH by auto. reflexivity.
Qed.
Lemma dec10_mod ds : forall a, Forall (fun c => 48 <= c <= 57) ds -> dec10 (a mod 2 ^ 64) ds = fold_left (fun a c => a * 10 + dval c) ds a mod 2 ^ 64.
Proof.
  unfold dec10. induction ds as [|c ds IH]; intros a F; [reflexivity|]. inversion F; subst. cbn [fold_left].
  rewrite <- IH by auto. f_equal. unfold mul10. replace (dval c) with (c - 48) by (unfold dval; rewrite (proj2 (N.leb_le c 57)) by lia; reflexivity).
  rewrite N.add_mod by discriminate. rewrite N.mul_mod_idemp_l by discriminate. rewrite <- N.add_mod by discriminate. reflexivity.
Qed.
Lemma dec10_dec ds : Forall (fun c => 48 <= c <= 57) ds -> dec ds < 2 ^ 64 -> dec10 0 ds = dec ds.
Proof. intros F L. change 0 with (0 mod 2 ^ 64) at 1. rewrite dec10_mod by auto. apply N.mod_small. exact L. Qed.
Lemma sgnd_pos v : v < 2 ^ 31 -> sgnd 32 v = Z.of_N v.
Proof. intros H. unfold sgnd. change (32 - 1) with 31. now rewrite (proj2 (N.ltb_lt _ _)). Qed.
Lemma width_ok w rest ap t : okwidth w -> cl (rwidth w ++ rest)%list (wargs w ++ ap)%list false 0 0 t = cl rest ap false (wnum w) 0 t.
Proof.
  destruct w as [|ds|v]; cbn [okwidth rwidth wargs wnum app].
  - reflexivity.
  - intros (F & L & _). rewrite digits_pad by auto. now rewrite dec10_dec.
  - intros L. cbn [conv_loop]. cbv zeta. change (42 =? 46) with false. change (isdig 42) with false. change (42 =? 42) with true. cbn iota. cbn [va_int bind].
    rewrite sgnd_pos by auto. destruct (Z.ltb_spec 0 (Z.of_N v)); [rewrite N2Z.id; reflexivity|]. replace v with 0 by lia. reflexivity.
Qed.
Definition have_of (p : option width) : bool := match p with Some _ => true | None => false end.
Definition inp_of (p : option width) : N := match p with Some w => wnum w | None => 0 end.
Lemma prec_ok p rest ap w t : okprec p -> cl (rprec p ++ rest)%list (pargs p ++ ap)%list false w 0 t = cl rest ap (have_of p) w (inp_of p) t.
Proof.
  destruct p as [[|ds|v]|]; cbn [okprec okwidth rprec rwidth pargs wargs have_of inp_of wnum app].
  - reflexivity.
  - intros (F & L). cbn [conv_loop]. cbv zeta. change (46 =? 46) with true. cbn iota. rewrite digits_inp by auto. now rewrite dec10_dec.
  - intros L. cbn [conv_loop]. cbv zeta. change (46 =? 46) with true. cbn iota. change (42 =? 46) with false. change (isdig 42) with false. change (42 =? 42) with true. cbn iota. cbn [va_int bind].
    rewrite sgnd_pos by auto. destruct (Z.ltb_spec 0 (Z.of_N v)); [rewrite N2Z.id; reflexivity|]. replace v with 0 by lia. reflexivity.
  - reflexivity.
Qed.
Definition ty (l : lenmod) : dtype :=
  match l with LNone | LI32 => TInt | LHH => TChar | LH => TShort | LL => TLong | LLL | LI64 => TLongLong | LZ => TSizet end.
Lemma len_ok l rest ap h p i : cl (rlen l ++ rest)%list ap h p i TInt = cl rest ap h p i (ty l).
Proof. destruct l; reflexivity. Qed.
End Loop.

(** ** Arguments *)
Lemma bits_of_mod w w' v : (w' <= w) -> bits_of w v mod 2 ^ w' = bits_of w' v.
Proof.
  intros L. unfold bits_of. apply N2Z.inj. rewrite N2Z.inj_mod, N2Z.inj_pow. change (Z.of_N 2) with 2%Z.
  assert (P : forall x, (0 < 2 ^ Z.of_N x)%Z) by (intros; apply Z.pow_pos_nonneg; lia).
  rewrite !Z2N.id by (apply Z.mod_pos_bound, P).
  replace (2 ^ Z.of_N w)%Z with (2 ^ Z.of_N w' * 2 ^ Z.of_N (w - w'))%Z by (rewrite <- Z.pow_add_r by lia; f_equal; lia).
  rewrite Z.rem_mul_r by (pose proof (P w'); pose proof (P (w - w')); lia).
  rewrite Z.mul_comm, Z.mod_add by (pose proof (P w'); lia). apply Z.mod_mod. pose proof (P w'). lia.
Qed.
Lemma sgnd_bits w v : 0 < w -> (- 2 ^ Z.of_N (w - 1) <= v < 2 ^ Z.of_N (w - 1))%Z -> sgnd w (bits_of w v) = v.
Proof.
  intros W V. unfold sgnd, bits_of. set (h := (2 ^ Z.of_N (w - 1))%Z) in *.
  assert (P : (2 ^ Z.of_N w = 2 * h)%Z) by (unfold h; rewrite <- Z.pow_succ_r by lia; f_equal; lia).
  assert (HN : Z.of_N (2 ^ (w - 1)) = h) by (rewrite N2Z.inj_pow; reflexivity).
  assert (WN : Z.of_N (2 ^ w) = (2 * h)%Z) by (rewrite N2Z.inj_pow; exact P). rewrite P, WN.
  assert (M : (v mod (2 * h) = if v <? 0 then v + 2 * h else v)%Z).
  { destruct (Z.ltb_spec v 0). - symmetry. apply Z.mod_unique_pos with (-1)%Z; lia. - apply Z.mod_small. lia. }
  rewrite M. clear M. destruct (Z.ltb_spec v 0); [destruct (N.ltb_spec (Z.to_N (v + 2 * h)) (2 ^ (w - 1)))|destruct (N.ltb_spec (Z.to_N v) (2 ^ (w - 1)))]; lia.
Qed.
Lemma bits_of_N w v : v < 2 ^ w -> bits_of w (Z.of_N v) = v.
Proof.
  intros L. unfold bits_of. rewrite Z.mod_small; [now rewrite N2Z.id|]. split; [lia|]. apply N2Z.inj_lt in L. rewrite N2Z.inj_pow in L. exact L.
Qed.
Lemma get_signed_ok l v ap : (- 2 ^ Z.of_N (bits l - 1) <= v < 2 ^ Z.of_N (bits l - 1))%Z -> get_signed (ty l) (iarg l v :: ap) = Ok (v, ap).
Proof.
  intros H. destruct l; cbn [ty iarg get_signed va_int va_long bind]; rewrite ?bits_of_mod by lia; rewrite sgnd_bits by (try lia; exact H); reflexivity.
Qed.
Lemma get_unsigned_ok l v ap : v < 2 ^ bits l -> get_unsigned (ty l) (iarg l (Z.of_N v) :: ap) = Ok (v, ap).
Proof.
  intros H. destruct l; cbn [ty iarg get_unsigned va_int va_long bind]; rewrite ?bits_of_mod by lia; rewrite bits_of_N by exact H; reflexivity.
Qed.
Lemma bits_64 l v : v < 2 ^ bits l -> v < 2 ^ 64.
Proof. intros H. eapply N.lt_le_trans; [exact H|]. apply N.pow_le_mono_r; [discriminate|]. destruct l; cbn; lia. Qed.
Lemma abs_64 l v : (- 2 ^ Z.of_N (bits l - 1) <= v < 2 ^ Z.of_N (bits l - 1))%Z -> uabs v < 2 ^ 64.
Proof.
  intros H. unfold uabs. apply N2Z.inj_lt. rewrite Z2N.id by lia. change (Z.of_N (2 ^ 64)) with (2 ^ 64)%Z.
  assert (2 ^ Z.of_N (bits l - 1) <= 2 ^ 63)%Z by (apply Z.pow_le_mono_r; [lia|]; destruct l; cbn; lia). lia.
Qed.

(** ** Items *)
Lemma str_arg p t after : no_nul t -> (exists r, after = 0 :: r) \/ (exists w, p = Some w /\ wnum w <= N.of_nat (length t)) ->
  (do n <- (if have_of p then strlen_max (t ++ after) (N.to_nat (inp_of p)) else strlen (t ++ after)%list); do l <- rdn (t ++ after)%list 0 n; Ok (Some l)) =
  Ok (Some (firstn (cut p (length t)) t)).
Proof.
  intros NN H.
  assert (E : (if have_of p then strlen_max (t ++ after) (N.to_nat (inp_of p)) else strlen (t ++ after)%list) = Ok (cut p (length t))).
  { destruct H as [(r & ->)|(w & -> & L)].
    - destruct p as [w|]; cbn [have_of inp_of cut]; [now apply strlen_max_ok|now apply strlen_ok].
    - cbn [have_of inp_of cut]. assert (LN : (N.to_nat (wnum w) <= length t)%nat) by lia. rewrite Nat.min_l by exact LN. generalize dependent (N.to_nat (wnum w)). clear L.
      intros n. revert NN n. induction t as [|c t IH]; intros NN [|n] L; cbn [app strlen_max]; try reflexivity.
      + destruct after; reflexivity.
      + cbn in L. lia.
      + inversion NN; subst. rewrite (proj2 (N.eqb_neq c 0)) by auto. cbn [length] in L. rewrite IH by (auto; lia). reflexivity. }
  rewrite E. cbn [bind]. unfold rdn. assert (C : (cut p (length t) <= length t)%nat) by (destruct p; cbn [cut]; lia).
  rewrite app_length, (proj2 (Nat.leb_le _ _)) by lia. cbn [skipn bind]. rewrite firstn_app. replace (cut p (length t) - length t)%nat with 0%nat by lia.
  now rewrite firstn_O, app_nil_r.
Qed.
Lemma conv_ok k fl s w l c rest ap : okconv l c -> okwidth w ->
  exists t, prints1 (Cnv fl w l c) t /\
    conv_loop _ add_text k (mkf (has 35 fl) (has 45 fl) (fsgn fl) (fpad fl)) s (rconv c ++ rest)%list (vargs l c :: ap) (have_of (precision c)) (wnum w) (inp_of (precision c)) (ty l) =
    Ok ((s ++ t)%list, Z.of_nat (length t), rest, ap).
Proof.
  intros OC OW. destruct c as [ii v|v|u v|u v|u v|c|p [t|] aft|kk p neg text]; cbn [okconv] in OC; cbn [rconv vargs precision have_of inp_of app].
  - destruct (add_integer_sign s (uabs v) 10 (negb (v <? 0)%Z) (fsgn fl) false (fpad fl) (wnum w) (has 45 fl) ltac:(lia) (abs_64 l v OC)) as (ds & NU & G).
    rewrite sgn_sign, sfield_field in G. eexists. split; [apply PInt; exact NU|].
    destruct ii; cbn [conv_loop]; cbv zeta; [change (isdig 105) with false|change (isdig 100) with false]; cbn [N.eqb Pos.eqb orb]; rewrite (get_signed_ok l v ap OC); cbn [bind f_pad f_ljust f_sign];
      apply fin_gives; exact G.
  - destruct (add_integer_sign s v 10 true SNeg false (fpad fl) (wnum w) (has 45 fl) ltac:(lia) (bits_64 l v OC)) as (ds & NU & G).
    cbn [sgn] in G. rewrite sfield_field in G. eexists. split; [apply PUns; exact NU|].
    cbn [conv_loop]. cbv zeta. change (isdig 117) with false. cbn [N.eqb Pos.eqb orb]. rewrite (get_unsigned_ok l v ap OC). cbn [bind f_pad f_ljust f_sign].
    apply fin_gives. exact G.
  - assert (exists ds, numeral 8 u v ds /\ gives s (add_integer_just _ add_text s v 8 true SNeg (has 35 fl) u (fpad fl) (wnum w) (has 45 fl)) (field true fl (wnum w) (if has 35 fl && negb (v =? 0) then [48] else []) ds)) as (ds & NU & G).
    { destruct (has 35 fl).
      - destruct (add_integer_prefix s v 8 u (fpad fl) (wnum w) (has 45 fl) ltac:(auto) (bits_64 l v OC)) as (ds & NU & G). exists ds. split; [exact NU|].
        rewrite sfield_field in G. unfold pfx in G. cbn [N.eqb Pos.eqb] in G. cbn [andb]. destruct (v =? 0); exact G.
      - destruct (add_integer_sign s v 8 true SNeg u (fpad fl) (wnum w) (has 45 fl) ltac:(lia) (bits_64 l v OC)) as (ds & NU & G). exists ds. split; [exact NU|].
        rewrite sfield_field in G. exact G. }
    eexists. split; [apply POct; exact NU|].
    destruct u; cbn [conv_loop]; cbv zeta; [change (isdig 79) with false|change (isdig 111) with false]; cbn [N.eqb Pos.eqb orb]; rewrite (get_unsigned_ok l v ap OC); cbn [bind f_pad f_ljust f_sign f_prefix];
      apply fin_gives; exact G.
  - assert (exists ds, numeral 16 u v ds /\ gives s (add_integer_just _ add_text s v 16 true SNeg (has 35 fl) u (fpad fl) (wnum w) (has 45 fl)) (field true fl (wnum w) (if has 35 fl then [48; if u then 88 else 120] else []) ds)) as (ds & NU & G).
    { destruct (has 35 fl).
      - destruct (add_integer_prefix s v 16 u (fpad fl) (wnum w) (has 45 fl) ltac:(auto) (bits_64 l v OC)) as (ds & NU & G). exists ds. split; [exact NU|].
        rewrite sfield_field in G. exact G.
      - destruct (add_integer_sign s v 16 true SNeg u (fpad fl) (wnum w) (has 45 fl) ltac:(lia) (bits_64 l v OC)) as (ds & NU & G). exists ds. split; [exact NU|].
        rewrite sfield_field in G. exact G. }
    eexists. split; [apply PHex; exact NU|].
    destruct u; cbn [conv_loop]; cbv zeta; [change (isdig 88) with false|change (isdig 120) with false]; cbn [N.eqb Pos.eqb orb]; rewrite (get_unsigned_ok l v ap OC); cbn [bind f_pad f_ljust f_sign f_prefix];
      apply fin_gives; exact G.
  - destruct OC as [OC ->].
    destruct (add_integer_prefix s v 16 u (fpad fl) (wnum w) (has 45 fl) ltac:(auto) OC) as (ds & NU & G). rewrite sfield_field in G.
    eexists. split; [apply PPtr; exact NU|].
    destruct u; cbn [conv_loop]; cbv zeta; [change (isdig 80) with false|change (isdig 112) with false]; cbn [N.eqb Pos.eqb orb va_ptr bind f_pad f_ljust f_sign f_prefix];
      apply fin_gives; exact G.
  - destruct OC as [OC ->]. eexists. split; [apply PChr|].
    cbn [conv_loop]. cbv zeta. change (isdig 99) with false. cbn [N.eqb Pos.eqb orb va_int bind f_pad f_ljust]. rewrite N.mod_small by exact OC.
    apply fin_gives. rewrite <- just_field. apply add_bytes_just_gives.
  - destruct OC as (-> & OP & NN & AF). eexists. split; [apply PStr|].
    cbn [conv_loop]. cbv zeta. change (isdig 115) with false. cbn [N.eqb Pos.eqb orb va_str bind]. rewrite (str_arg p t aft NN AF). cbn [bind f_ljust].
    apply fin_gives. rewrite <- just_field_s. apply add_bytes_just_gives.
  - destruct OC as (-> & OP & _). eexists. split; [apply PNul|].
    cbn [conv_loop]. cbv zeta. change (isdig 115) with false. cbn [N.eqb Pos.eqb orb va_str bind f_ljust].
    apply fin_gives. rewrite <- just_field_s. apply add_bytes_just_gives.
  - destruct OC as (KK & -> & OP & TX). eexists. split; [apply PDbl|].
    match goal with |- conv_loop _ _ ?k ?f ?s (kk :: ?rest) ?ap ?h ?w ?i ?t = _ =>
      assert (CL : conv_loop _ add_text k f s (kk :: rest)%list ap h w i t = fin _ add_text k (add_double_just _ add_text s neg text (f_sign f) (if h then i else 6) (f_pad f) w (f_ljust f)) rest (tl ap)) by
        (cbn [In] in KK; destruct KK as [<-|[<-|[<-|[<-|[<-|[<-|[]]]]]]]; reflexivity);
      rewrite CL; clear CL end. cbn [tl f_pad f_ljust f_sign].
    apply fin_gives. rewrite <- sfield_field, <- sgn_sign.
    set (pr := if have_of p then inp_of p else 6).
    replace (match p with None => 6%nat | Some w0 => Nat.min (N.to_nat (wnum w0)) 100 end) with (Nat.min (N.to_nat pr) 100) by (unfold pr; destruct p; reflexivity).
    destruct (TX (Nat.min (N.to_nat pr) 100) ltac:(lia)) as [T1 T2]. apply add_double_ok; assumption.
Qed.
Lemma plain_rest w l c rest : okconv l c -> okwidth w -> plain (rwidth w ++ rprec (precision c) ++ rlen l ++ rconv c ++ rest)%list.
Proof.
  intros OC. assert (R : plain (rprec (precision c) ++ rlen l ++ rconv c ++ rest)%list).
  { destruct (precision c); cbn [rprec app plain isf In]; [intuition discriminate|]. destruct l; cbn [rlen app plain isf In]; try (intuition discriminate).
    destruct c as [[]| |[]|[]|[]| | |kk]; cbn [rconv app plain isf In]; try (intuition discriminate). cbn [okconv In] in OC. intuition (subst; try discriminate). }
  destruct w as [|ds|v]; cbn [okwidth rwidth app].
  - auto.
  - intros (F & _ & c0 & r & -> & NE). cbn [app plain isf In]. inversion F; subst. intuition (subst; try discriminate; try lia; try congruence).
  - intros _. cbn [plain isf In]. intuition discriminate.
Qed.
Lemma item_ok i s rest ap : okitem i ->
  exists t, prints1 i t /\ forall n o, (length (render1 i ++ rest) < n)%nat ->
    exists n', (length rest < n')%nat /\ print_loop _ add_text n s (render1 i ++ rest)%list (args1 i ++ ap)%list o = print_loop _ add_text n' (s ++ t)%list rest ap (o + Z.of_nat (length t))%Z.
Proof.
  intros OK. destruct i as [b| |fl w l c]; cbn [okitem] in OK.
  - exists [b]. split; [apply PLit|]. intros [|n] o L; [lia|]. exists n. cbn [render1 app length] in *. split; [lia|].
    cbn [print_loop args1 app]. rewrite (proj2 (N.eqb_neq b 37)) by auto. unfold add_byte. rewrite add_bytes_gives. reflexivity.
  - exists [37]. split; [apply PPct|]. intros [|n] o L; [lia|]. exists n. cbn [render1 app length] in *. split; [lia|]. reflexivity.
  - destruct OK as (F & OW & OC).
    destruct (conv_ok (length (fl ++ rwidth w ++ rprec (precision c) ++ rlen l ++ rconv c ++ rest)%list) fl s w l c rest ap OC OW) as (t & P & E).
    exists t. split; [exact P|]. intros [|n] o L; [lia|]. exists n. split.
    { cbn [render1] in L. cbn [app length] in L. rewrite !app_length in L. lia. }
    cbn [render1 args1 app print_loop]. change (37 =? 37) with true. cbn iota.
    assert (H : handle_control _ add_text s ((fl ++ rwidth w ++ rprec (precision c) ++ rlen l ++ rconv c) ++ rest)%list ((wargs w ++ pargs (precision c) ++ [vargs l c]) ++ ap)%list = Ok ((s ++ t)%list, Z.of_nat (length t), rest, ap)).
    { rewrite <- !app_assoc. unfold handle_control.
      pose proof (plain_rest w l c rest OC OW) as PR.
      assert (NP : forall b x, (fl ++ rwidth w ++ rprec (precision c) ++ rlen l ++ rconv c ++ rest = b :: x)%list -> b =? 37 = false).
      { intros b x EQ. apply N.eqb_neq. intros ->. destruct fl as [|b' fl].
        - cbn [app] in EQ. clear - EQ OW OC. destruct w as [|ds|v]; cbn [rwidth app] in EQ.
          + destruct (precision c); cbn [rprec app] in EQ; [discriminate EQ|]. destruct l; cbn [rlen app] in EQ; try discriminate EQ. destruct c as [[]| |[]|[]|[]| | |kk]; try discriminate EQ. cbn [rconv app] in EQ. injection EQ as -> _. cbn [okconv In] in OC. intuition discriminate.
          + destruct OW as (F & _ & c0 & r & -> & NE). cbn [app] in EQ. injection EQ as -> _. inversion F; subst. lia.
          + discriminate EQ.
        - cbn [app] in EQ. injection EQ as -> _. inversion F; subst. cbn [In] in H1. intuition discriminate. }
      destruct (fl ++ rwidth w ++ rprec (precision c) ++ rlen l ++ rconv c ++ rest)%list as [|b x] eqn:EQ.
      { exfalso. apply (f_equal (@length N)) in EQ. rewrite !app_length in EQ. assert (length (rconv c) = 1%nat) by (destruct c as [[]| |[]|[]|[]| | |kk]; reflexivity). cbn [length] in EQ. lia. }
      rewrite (NP b x eq_refl). rewrite <- EQ in E |- *. rewrite flag_loop_ok; [|rewrite app_length; lia|exact F|exact PR]. cbn [bind].
      rewrite flags_mean by exact F. rewrite width_ok by exact OW.
      rewrite prec_ok. 2:{ destruct c as [| | | | | |p t0 aft|kk p neg text]; cbn [precision okprec] in *; try exact I; [destruct OC as (_ & X & _)|destruct OC as (_ & _ & X & _)]; exact X. }
      rewrite len_ok. cbn [app]. exact E. }
    rewrite H. cbn [bind]. replace (Z.of_nat (length t) =? -1)%Z with false by (symmetry; apply Z.eqb_neq; lia). reflexivity.
Qed.
Lemma items_ok its : forall s n o, Forall okitem its -> (length (render its) < n)%nat ->
  exists t, prints its t /\ print_loop _ add_text n s (render its) (args its) o = Ok ((s ++ t)%list, (o + Z.of_nat (length t))%Z).
Proof.
  induction its as [|i its IH]; intros s n o F L.
  - exists []. split; [constructor|]. destruct n; [lia|]. cbn. rewrite app_nil_r. do 2 f_equal. lia.
  - inversion F; subst. destruct (item_ok i s (render its) (args its) H1) as (t & P & E).
    change (render (i :: its)) with (render1 i ++ render its)%list in *. change (args (i :: its)) with (args1 i ++ args its)%list.
    destruct (E n o L) as (n' & L' & ->). destruct (IH (s ++ t)%list n' (o + Z.of_nat (length t))%Z H2 L') as (t' & P' & ->).
    exists (t ++ t')%list. split; [now constructor|]. rewrite app_length, app_assoc. do 2 f_equal. lia.
Qed.
Lemma print_items its : Forall okitem its -> exists t, prints its t /\ print_text (render its) (args its) = Ok (t, Z.of_nat (length t)).
Proof. intros F. destruct (items_ok its [] (S (length (render its))) 0%Z F ltac:(lia)) as (t & P & E). exists t. split; [exact P|]. exact E. Qed.

(** The text is unique: numerals are. *)
Lemma numeral_unique base u v a b : 1 < base <= 16 -> numeral base u v a -> numeral base u v b -> a = b.
Proof.
  intros B.
  assert (DI : forall c d, is_digit base u c -> is_digit base u d -> dval c = dval d -> c = d).
  { intros c d [C _] [D _] E. unfold dval in E. destruct u; destruct (N.leb_spec c 57), (N.leb_spec d 57), (N.leb_spec c 70), (N.leb_spec d 70); lia. }
  (* equal lengths first: strip digits from the end *)
  assert (G : forall a b, Forall (is_digit base u) a -> Forall (is_digit base u) b -> value base a = value base b -> length a = length b -> a = b).
  { induction a0 as [|x a0 IH] using rev_ind; intros b0 FA FB V L.
    - destruct b0; [reflexivity|discriminate L].
    - destruct b0 as [|y b0 _] using rev_ind; [rewrite app_length in L; cbn in L; lia|].
      apply Forall_app in FA as [FA Fx], FB as [FB Fy]. inversion Fx; inversion Fy; subst. rewrite !value_app in V.
      destruct H1 as [H1 H1'], H5 as [H5 H5'].
      assert (value base a0 = value base b0 /\ dval x = dval y) as [V1 V2].
      { apply (N.div_mod_unique base); auto. rewrite (N.mul_comm base), (N.mul_comm base). exact V. }
      rewrite !app_length in L. cbn in L. rewrite (IH b0 FA FB V1 ltac:(lia)). f_equal. f_equal. apply DI; auto; split; auto. }
  assert (UB : forall l, Forall (is_digit base u) l -> value base l < base ^ N.of_nat (length l)).
  { induction l as [|x l IH] using rev_ind; intros F; [reflexivity|]. apply Forall_app in F as [F Fx]. inversion Fx; subst. destruct H1 as [_ D].
    specialize (IH F). rewrite value_app, app_length. cbn [length]. rewrite Nat.add_1_r, Nat2N.inj_succ, N.pow_succ_r'. nia. }
  assert (LB : forall c r, Forall (is_digit base u) (c :: r) -> c <> 48 -> base ^ N.of_nat (length r) <= value base (c :: r)).
  { intros c r F NE. induction r as [|x r IH] using rev_ind.
    - inversion F; subst. destruct H1 as [H1 _]. unfold value. cbn. assert (0 < dval c) by (destruct u; unfold dval; destruct (N.leb_spec c 57); try lia; destruct (N.leb_spec c 70); lia). lia.
    - change (c :: r ++ [x])%list with ((c :: r) ++ [x])%list in *. apply Forall_app in F as [F Fx]. specialize (IH F). rewrite value_app, app_length. cbn [length].
      rewrite Nat.add_1_r, Nat2N.inj_succ, N.pow_succ_r'. nia. }
  intros (FA & VA & ZA) (FB & VB & ZB).
  assert (LT : forall x y, Forall (is_digit base u) x -> Forall (is_digit base u) y -> value base x = value base y ->
     (x = [48] \/ exists c r, x = c :: r /\ c <> 48) -> (y = [48] \/ exists c r, y = c :: r /\ c <> 48) -> (length x <= length y)%nat).
  { intros x y FX FY V ZX ZY. assert (1 <= length y)%nat by (destruct ZY as [->|(? & ? & -> & _)]; cbn; lia).
    destruct ZX as [->|(c & r & -> & NE)]; [exact H|]. specialize (LB c r FX NE). specialize (UB y FY). rewrite <- V in UB.
    cbn [length]. assert (base ^ N.of_nat (length r) < base ^ N.of_nat (length y)) by lia. apply N.pow_lt_mono_r_iff in H0; lia. }
  apply G; auto; [congruence|]. apply Nat.le_antisymm; apply LT; auto; congruence.
Qed.
Lemma prints1_unique i t t' : prints1 i t -> prints1 i t' -> t = t'.
Proof.
  intros P P'. destruct P; inversion P'; subst; try reflexivity;
    match goal with A : numeral ?b ?u ?v ?x, B : numeral ?b ?u ?v ?y |- _ => assert (x = y) by (eapply numeral_unique; [|exact A|exact B]; lia); subst; reflexivity end.
Qed.
Lemma prints_unique its : forall t t', prints its t -> prints its t' -> t = t'.
Proof.
  induction its as [|i its IH]; intros t t' P P'; inversion P; inversion P'; subst; [reflexivity|]. f_equal; [eapply prints1_unique; eauto|now apply IH].
Qed.

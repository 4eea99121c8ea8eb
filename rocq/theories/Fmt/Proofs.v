(** Proofs about formatted output. *)
From Verif Require Import Base.Lib Base.Mem Fmt.Model Fmt.Spec.
Local Open Scope N_scope.

(** ** Two sinks that do the same *)
Definition sim {A B} (P : A -> B -> Prop) (x : res A) (y : res B) : Prop :=
  match x, y with Ok a, Ok b => P a b | UB, UB => True | Fuel, Fuel => True | _, _ => False end.
Lemma sim_bind {A B C D} (P : A -> B -> Prop) (Q : C -> D -> Prop) x y f g :
  sim P x y -> (forall a b, P a b -> sim Q (f a) (g b)) -> sim Q (bind x f) (bind y g).
Proof. destruct x, y; cbn; intros H K; auto; contradiction. Qed.
Lemma sim_same {A B C} (Q : B -> C -> Prop) (x : res A) f g :
  (forall a, x = Ok a -> sim Q (f a) (g a)) -> sim Q (bind x f) (bind x g).
Proof. destruct x; cbn; auto. Qed.

Section Sim.
Variables (S1 S2 : Type) (add1 : S1 -> list N -> res (S1 * Z)) (add2 : S2 -> list N -> res (S2 * Z)) (R : S1 -> S2 -> Prop).
Definition Rz (x : S1 * Z) (y : S2 * Z) : Prop := R (fst x) (fst y) /\ snd x = snd y.
Definition Rb (x : S1 * Z * list N * N) (y : S2 * Z * list N * N) : Prop :=
  Rz (fst (fst x)) (fst (fst y)) /\ snd (fst x) = snd (fst y) /\ snd x = snd y.
Definition Ro (x : S1 * Z * list N * list arg) (y : S2 * Z * list N * list arg) : Prop :=
  Rz (fst (fst x)) (fst (fst y)) /\ snd (fst x) = snd (fst y) /\ snd x = snd y.
Hypothesis Hadd : forall s1 s2 b, R s1 s2 -> b <> [] -> sim Rz (add1 s1 b) (add2 s2 b).

Lemma add_bytes_sim s1 s2 b : R s1 s2 -> sim Rz (add_bytes S1 add1 s1 b) (add_bytes S2 add2 s2 b).
Proof. intros H. unfold add_bytes. destruct b; [now split|]. apply Hadd; [exact H|discriminate]. Qed.
Lemma add_byte_sim s1 s2 b : R s1 s2 -> sim Rz (add_byte S1 add1 s1 b) (add_byte S2 add2 s2 b).
Proof. apply add_bytes_sim. Qed.
Ltac pairs := intros [? ?] [? ?] [? ?]; cbn [fst snd] in *; subst.
Lemma fill_loop_sim n : forall s1 s2 b len, R s1 s2 -> sim Rz (fill_loop S1 add1 s1 b n len) (fill_loop S2 add2 s2 b n len).
Proof.
  induction n as [|n IH]; intros s1 s2 b len H; cbn [fill_loop]; [now split|].
  eapply sim_bind; [now apply add_byte_sim|]. pairs.
  destruct (_ =? 1)%Z; [now apply IH|now split].
Qed.
Lemma add_fill_sim s1 s2 b n : R s1 s2 -> sim Rz (add_fill S1 add1 s1 b n) (add_fill S2 add2 s2 b n).
Proof. apply fill_loop_sim. Qed.
Lemma add_bytes_just_sim s1 s2 b c p l : R s1 s2 -> sim Rz (add_bytes_just S1 add1 s1 b c p l) (add_bytes_just S2 add2 s2 b c p l).
Proof.
  intros H. unfold add_bytes_just. cbv zeta.
  set (bb := match b with Some x => x | None => null_text end).
  set (pl := if p <=? N.of_nat (length bb) then 0 else p - N.of_nat (length bb)).
  apply (sim_bind Rz). { destruct ((0 <? pl) && negb l); [now apply add_fill_sim|now split]. }
  intros [a1 z1] [a2 z2] [H1 H2]; cbn [fst snd] in *; subst.
  destruct (negb _); [now split|].
  apply (sim_bind Rz); [now apply add_bytes_sim|].
  intros [b1 y1] [b2 y2] [H3 H4]; cbn [fst snd] in *; subst.
  destruct (negb _); [now split|].
  apply (sim_bind Rz). { destruct ((0 <? pl) && l); [now apply add_fill_sim|now split]. }
  intros [c1 w1] [c2 w2] [H5 H6]; cbn [fst snd] in *; subst.
  destruct (negb _); now split.
Qed.
Lemma add_sign_sim s1 s2 b n p t c l : R s1 s2 -> sim Rb (add_sign S1 add1 s1 b n p t c l) (add_sign S2 add2 s2 b n p t c l).
Proof.
  intros H. unfold add_sign. destruct (p && _); [now repeat split|]. cbv zeta. destruct (c =? 48).
  - apply (sim_bind Rz); [now apply add_byte_sim|]. intros [a1 z1] [a2 z2] [H1 H2]; cbn [fst snd] in *; subst. now repeat split.
  - apply sim_same. intros x _. apply sim_same. intros y _. now repeat split.
Qed.
Lemma add_prefix_sim s1 s2 b n ba u c l : R s1 s2 -> sim Rb (add_prefix S1 add1 s1 b n ba u c l) (add_prefix S2 add2 s2 b n ba u c l).
Proof.
  intros H. unfold add_prefix. apply sim_same. intros b0 _. cbv zeta.
  set (pre := if ba =? 8 then _ else _). destruct pre as [|x pre]; [now repeat split|]. destruct (c =? 48).
  - apply (sim_bind Rz); [now apply add_bytes_just_sim|]. intros [a1 z1] [a2 z2] [H1 H2]; cbn [fst snd] in *; subst. now repeat split.
  - apply sim_same. intros y _. apply sim_same. intros z _. now repeat split.
Qed.
Lemma add_integer_just_sim s1 s2 v ba p st pre u c l j : R s1 s2 ->
  sim Rz (add_integer_just S1 add1 s1 v ba p st pre u c l j) (add_integer_just S2 add2 s2 v ba p st pre u c l j).
Proof.
  intros H. unfold add_integer_just. cbv zeta. apply sim_same. intros by1 _. apply sim_same. intros n1 _.
  apply (sim_bind Rb); [now apply add_sign_sim|].
  intros [[[a1 z1] m1] l1] [[[a2 z2] m2] l2] ((H1 & H2) & H3 & H4); cbn [fst snd] in *; subst.
  apply sim_same. intros n2 _.
  apply (sim_bind Rb). { destruct pre; [now apply add_prefix_sim|now repeat split]. }
  intros [[[b1 y1] m3] l3] [[[b2 y2] m4] l4] ((H5 & H6) & H7 & H8); cbn [fst snd] in *; subst.
  apply sim_same. intros t _.
  apply (sim_bind Rz); [now apply add_bytes_just_sim|].
  intros [c1 w1] [c2 w2] [H9 H10]; cbn [fst snd] in *; subst. now split.
Qed.
Lemma add_double_just_sim s1 s2 g tx st pr c l j : R s1 s2 ->
  sim Rz (add_double_just S1 add1 s1 g tx st pr c l j) (add_double_just S2 add2 s2 g tx st pr c l j).
Proof.
  intros H. unfold add_double_just. cbv zeta. apply sim_same. intros by1 _. apply sim_same. intros n1 _.
  apply (sim_bind Rb); [now apply add_sign_sim|].
  intros [[[a1 z1] m1] l1] [[[a2 z2] m2] l2] ((H1 & H2) & H3 & H4); cbn [fst snd] in *; subst.
  apply sim_same. intros t _.
  apply (sim_bind Rz); [now apply add_bytes_just_sim|].
  intros [c1 w1] [c2 w2] [H9 H10]; cbn [fst snd] in *; subst. now split.
Qed.
Lemma parse_error_sim s1 s2 n fmt ap : R s1 s2 -> sim Ro (parse_error S1 add1 s1 n fmt ap) (parse_error S2 add2 s2 n fmt ap).
Proof.
  intros H. unfold parse_error. apply (sim_bind Rz); [now apply add_byte_sim|].
  intros [a1 z1] [a2 z2] [H1 H2]; cbn [fst snd] in *; subst.
  destruct (_ =? -1)%Z; [now repeat split|].
  apply (sim_bind Rz); [now apply add_fill_sim|].
  intros [b1 y1] [b2 y2] [H3 H4]; cbn [fst snd] in *; subst. now repeat split.
Qed.
Lemma fin_sim k r1 r2 fmt ap : sim Rz r1 r2 -> sim Ro (fin S1 add1 k r1 fmt ap) (fin S2 add2 k r2 fmt ap).
Proof.
  intros H. unfold fin. apply (sim_bind Rz); [exact H|].
  intros [a1 z1] [a2 z2] [H1 H2]; cbn [fst snd] in *; subst.
  destruct (_ =? -2)%Z; [now apply parse_error_sim|now repeat split].
Qed.
Lemma conv_loop_sim k f n : forall s1 s2 fmt ap h p i t, (length fmt <= n)%nat -> R s1 s2 ->
  sim Ro (conv_loop S1 add1 k f s1 fmt ap h p i t) (conv_loop S2 add2 k f s2 fmt ap h p i t).
Proof.
  induction n as [|n IH]; intros s1 s2 fmt ap h p i t L H.
  - destruct fmt; [|cbn in L; lia]. cbn. now apply parse_error_sim.
  - destruct fmt as [|b fmt]; [cbn; now apply parse_error_sim|]. cbn [length] in L. cbn [conv_loop]. cbv zeta.
    assert (IH' : forall ap h p i t, sim Ro (conv_loop S1 add1 k f s1 fmt ap h p i t) (conv_loop S2 add2 k f s2 fmt ap h p i t)) by (intros; apply IH; [lia|auto]).
    pose proof (fun n fmt ap => parse_error_sim s1 s2 n fmt ap H) as PE.
    destruct (b =? 46); [destruct h; auto|].
    destruct (isdig b); [destruct h; auto|].
    destruct (b =? 42); [apply sim_same; intros [v ap'] _; cbv zeta; destruct h; auto|].
    destruct (b =? 104); [destruct t; auto|].
    destruct (b =? 108); [destruct t; auto|].
    destruct (b =? 73).
    { destruct fmt as [|x [|y fmt'']]; try (destruct t; auto; fail).
      destruct t; auto. destruct (_ && _); [apply IH; [cbn in L; lia|auto]|].
      destruct (_ && _); [apply IH; [cbn in L; lia|auto]|auto]. }
    destruct (b =? 122); [destruct t; auto|].
    destruct (_ || _). { apply sim_same; intros [v ap'] _. apply fin_sim, add_integer_just_sim, H. }
    destruct (_ || _). { apply sim_same; intros [v ap'] _. apply fin_sim, add_integer_just_sim, H. }
    destruct (b =? 117). { apply sim_same; intros [v ap'] _. apply fin_sim, add_integer_just_sim, H. }
    destruct ((b =? 120) || _). { apply sim_same; intros [v ap'] _. apply fin_sim, add_integer_just_sim, H. }
    destruct ((b =? 112) || _). { apply sim_same; intros [v ap'] _. apply fin_sim, add_integer_just_sim, H. }
    destruct (_ || (b =? 71)). { apply sim_same; intros [[v tx] ap'] _. apply fin_sim, add_double_just_sim, H. }
    destruct (b =? 99). { apply sim_same; intros [v ap'] _. apply fin_sim, add_bytes_just_sim, H. }
    destruct (b =? 115). { apply sim_same; intros [v ap'] _. apply sim_same. intros tx _. apply fin_sim, add_bytes_just_sim, H. }
    auto.
Qed.
Lemma handle_control_sim s1 s2 fmt ap : R s1 s2 -> sim Ro (handle_control S1 add1 s1 fmt ap) (handle_control S2 add2 s2 fmt ap).
Proof.
  intros H. unfold handle_control. destruct fmt as [|b fmt]; [now apply parse_error_sim|]. destruct (b =? 37).
  - apply (sim_bind Rz); [now apply add_byte_sim|]. intros [a1 z1] [a2 z2] [H1 H2]; cbn [fst snd] in *; subst. now repeat split.
  - apply sim_same. intros [f fmt'] _. apply conv_loop_sim with (n := length fmt'); auto.
Qed.
Lemma print_loop_sim n : forall s1 s2 fmt ap o, R s1 s2 -> sim Rz (print_loop S1 add1 n s1 fmt ap o) (print_loop S2 add2 n s2 fmt ap o).
Proof.
  induction n as [|n IH]; intros s1 s2 fmt ap o H; cbn [print_loop]; [exact I|].
  destruct fmt as [|b fmt]; [now split|].
  apply (sim_bind Ro).
  - destruct (b =? 37); [now apply handle_control_sim|].
    apply (sim_bind Rz); [now apply add_byte_sim|]. intros [a1 z1] [a2 z2] [H1 H2]; cbn [fst snd] in *; subst. now repeat split.
  - intros [[[a1 z1] m1] l1] [[[a2 z2] m2] l2] ((H1 & H2) & H3 & H4); cbn [fst snd] in *; subst.
    destruct (_ =? -1)%Z; [now split|now apply IH].
Qed.
Lemma do_print_sim s1 s2 fmt ap : R s1 s2 -> sim Rz (do_print S1 add1 s1 fmt ap) (do_print S2 add2 s2 fmt ap).
Proof. apply print_loop_sim. Qed.
End Sim.

(** ** A sink that keeps the text *)
Definition add_text (s : list N) (b : list N) : res (list N * Z) := Ok (s ++ b, Z.of_nat (length b))%list.
Definition print_text (fmt : list N) (ap : list arg) : res (list N * Z) := do_print _ add_text [] fmt ap.
(** [r] appends [t] to [s] *)
Definition gives (s : list N) (r : res (list N * Z)) (t : list N) : Prop := r = Ok ((s ++ t)%list, Z.of_nat (length t)).

Lemma add_bytes_gives s b : gives s (add_bytes _ add_text s b) b.
Proof. unfold gives, add_bytes. destruct b; [now rewrite app_nil_r|reflexivity]. Qed.
Lemma fill_loop_text n : forall s b len, fill_loop _ add_text s b n len = Ok ((s ++ repeat b n)%list, len).
Proof.
  induction n as [|n IH]; intros s b len; cbn [fill_loop repeat]; [now rewrite app_nil_r|].
  unfold add_byte, add_bytes, add_text at 1. cbn [bind length Z.of_nat Pos.of_succ_nat Z.eqb Pos.eqb].
  rewrite IH, <- app_assoc. reflexivity.
Qed.
Lemma add_fill_gives s b n : gives s (add_fill _ add_text s b n) (repeat b (N.to_nat n)).
Proof. unfold gives, add_fill. rewrite fill_loop_text, repeat_length. do 2 f_equal. lia. Qed.
Definition just (b : list N) (c p : N) (l : bool) : list N :=
  let f := repeat c (N.to_nat p - length b) in if l then (b ++ f)%list else (f ++ b)%list.
Definition or_null (b : option (list N)) : list N := match b with Some x => x | None => null_text end.
Lemma add_bytes_just_gives s b c p l : gives s (add_bytes_just _ add_text s b c p l) (just (or_null b) c p l).
Proof.
  unfold gives, add_bytes_just, just. cbv zeta. fold (or_null b). set (bb := or_null b).
  set (pl := if p <=? N.of_nat (length bb) then 0 else p - N.of_nat (length bb)).
  assert (PL : (N.to_nat p - length bb)%nat = N.to_nat pl) by (unfold pl; destruct (N.leb_spec p (N.of_nat (length bb))); lia).
  rewrite PL.
  assert (A : (if (0 <? pl) && negb l then add_fill _ add_text s c pl else Ok (s, Z.of_N pl)) = Ok ((s ++ if l then [] else repeat c (N.to_nat pl))%list, Z.of_N pl)).
  { destruct (N.ltb_spec 0 pl); cbn [andb].
    - destruct l; cbn [negb]; [now rewrite app_nil_r|]. rewrite add_fill_gives, repeat_length. do 2 f_equal. lia.
    - replace pl with 0 by lia. cbn. destruct l; now rewrite app_nil_r. }
  rewrite A. cbn [bind]. rewrite Z.eqb_refl. cbn [negb]. rewrite add_bytes_gives. cbn [bind].
  replace (Z.of_nat (length bb) =? Z.of_N (N.of_nat (length bb)))%Z with true by (symmetry; apply Z.eqb_eq; lia). cbn [negb].
  set (s' := ((s ++ _) ++ bb)%list).
  assert (B : (if (0 <? pl) && l then add_fill _ add_text s' c pl else Ok (s', Z.of_N pl)) = Ok ((s' ++ if l then repeat c (N.to_nat pl) else [])%list, Z.of_N pl)).
  { destruct (N.ltb_spec 0 pl); cbn [andb].
    - destruct l; [|now rewrite app_nil_r]. rewrite add_fill_gives, repeat_length. do 2 f_equal. lia.
    - replace pl with 0 by lia. cbn. destruct l; now rewrite app_nil_r. }
  rewrite B. cbn [bind]. rewrite Z.eqb_refl. cbn [negb]. unfold s'. destruct l; rewrite ?app_nil_r, <- ?app_assoc, ?app_length, repeat_length; do 2 f_equal; lia.
Qed.

(** Whatever is printed, the length returned is the number of bytes appended. *)
Definition grows {A} (s : list N) (pr : A -> list N * Z) (r : res A) : Prop :=
  match r with Ok a => exists t, pr a = ((s ++ t)%list, Z.of_nat (length t)) | _ => True end.
Lemma gives_grows s r t : gives s r t -> grows s id r.
Proof. intros ->. now exists t. Qed.
Definition p4 {A} (x : list N * Z * list N * A) : list N * Z := fst (fst x).
Lemma add_sign_grows s b n p t c l : grows s p4 (add_sign _ add_text s b n p t c l).
Proof.
  unfold add_sign. destruct (p && _); [exists []; now rewrite app_nil_r|]. cbv zeta. destruct (c =? 48).
  - unfold add_byte. rewrite add_bytes_gives. cbn [bind grows]. eexists. reflexivity.
  - destruct (mmove _ _ _ _); cbn [bind]; [|exact I..]. destruct (wr _ _ _); cbn [bind]; [|exact I..]. exists []. now rewrite app_nil_r.
Qed.
Lemma add_prefix_grows s b n ba u c l : grows s p4 (add_prefix _ add_text s b n ba u c l).
Proof.
  unfold add_prefix. destruct (rd b 0); cbn [bind]; [|exact I..]. cbv zeta. set (pre := if ba =? 8 then _ else _).
  destruct pre; [exists []; now rewrite app_nil_r|]. destruct (c =? 48).
  - rewrite add_bytes_just_gives. cbn [bind grows]. eexists. reflexivity.
  - destruct (mmove _ _ _ _); cbn [bind]; [|exact I..]. destruct (wrn _ _ _); cbn [bind]; [|exact I..]. exists []. now rewrite app_nil_r.
Qed.
Lemma add_integer_just_grows s v ba p st pre u c l j : grows s id (add_integer_just _ add_text s v ba p st pre u c l j).
Proof.
  unfold add_integer_just. cbv zeta. destruct (integer_to_str _ _ _ _) as [by1| |]; cbn [bind]; [|exact I..].
  destruct (strlen by1) as [n1| |]; cbn [bind]; [|exact I..].
  pose proof (add_sign_grows s by1 n1 p st c l) as G. destruct (add_sign _ _ _ _ _ _ _ _ _) as [[[[s1 o1] by2] l2]| |]; cbn [bind]; [|exact I..].
  destruct G as (t1 & E1). cbv [p4 fst] in E1. injection E1 as -> ->.
  destruct (strlen by2) as [n2| |]; cbn [bind]; [|exact I..].
  assert (G : grows (s ++ t1) p4 (if pre then add_prefix _ add_text (s ++ t1)%list by2 n2 ba u c l2 else Ok ((s ++ t1)%list, 0%Z, by2, l2))).
  { destruct pre; [apply add_prefix_grows|exists []; now rewrite app_nil_r]. }
  destruct (if pre then _ else _) as [[[[s2 o2] by3] l3]| |]; cbn [bind]; [|exact I..].
  destruct G as (t2 & E2). cbv [p4 fst] in E2. injection E2 as -> ->.
  destruct (text_of by3) as [t| |]; cbn [bind]; [|exact I..].
  rewrite add_bytes_just_gives. cbn [bind grows id]. exists (t1 ++ t2 ++ just (or_null (Some t)) c l3 j)%list.
  unfold id. rewrite !app_length, <- !app_assoc. f_equal. lia.
Qed.
Lemma add_double_just_grows s g tx st pr c l j : grows s id (add_double_just _ add_text s g tx st pr c l j).
Proof.
  unfold add_double_just. cbv zeta. destruct (wrn _ _ _) as [by1| |]; cbn [bind]; [|exact I..].
  destruct (strlen by1) as [n1| |]; cbn [bind]; [|exact I..].
  pose proof (add_sign_grows s by1 n1 (negb g) st c l) as G. destruct (add_sign _ _ _ _ _ _ _ _ _) as [[[[s1 o1] by2] l2]| |]; cbn [bind]; [|exact I..].
  destruct G as (t1 & E1). cbv [p4 fst] in E1. injection E1 as -> ->.
  destruct (text_of by2) as [t| |]; cbn [bind]; [|exact I..].
  rewrite add_bytes_just_gives. cbn [bind grows id]. exists (t1 ++ just (or_null (Some t)) c l2 j)%list.
  unfold id. rewrite !app_length, <- !app_assoc. f_equal. lia.
Qed.
Lemma parse_error_gives s n fmt ap : parse_error _ add_text s n fmt ap =
  Ok ((s ++ 37 :: repeat 63 (N.to_nat n))%list, Z.of_nat (Datatypes.S (N.to_nat n)), fmt, ap).
Proof.
  unfold parse_error, add_byte. rewrite add_bytes_gives. cbn [bind length]. change (Z.of_nat 1 =? -1)%Z with false. cbn iota.
  rewrite add_fill_gives. cbn [bind]. rewrite <- app_assoc, repeat_length. replace (Z.of_nat 1 + Z.of_nat (N.to_nat n))%Z with (Z.of_nat (Datatypes.S (N.to_nat n))) by lia. reflexivity.
Qed.
Lemma parse_error_grows s n fmt ap : grows s p4 (parse_error _ add_text s n fmt ap).
Proof. rewrite parse_error_gives. exists (37 :: repeat 63 (N.to_nat n)). cbv [p4 fst]. cbn [length]. rewrite repeat_length. reflexivity. Qed.
Lemma fin_grows k s r fmt ap : grows s id r -> grows s p4 (fin _ add_text k r fmt ap).
Proof.
  unfold fin. destruct r as [[s1 z]| |]; cbn [bind]; [|exact (fun _ => I)..]. intros (t & E). cbv [id] in E. injection E as -> ->.
  replace (Z.of_nat (length t) =? -2)%Z with false by (symmetry; apply Z.eqb_neq; lia). exists t. reflexivity.
Qed.
Lemma fin_gives k s r t fmt ap : gives s r t -> fin _ add_text k r fmt ap = Ok ((s ++ t)%list, Z.of_nat (length t), fmt, ap).
Proof.
  unfold fin. intros ->. cbn [bind]. replace (Z.of_nat (length t) =? -2)%Z with false by (symmetry; apply Z.eqb_neq; lia). reflexivity.
Qed.
Lemma grows_bind {A B} s (pr : B -> list N * Z) (x : res A) f :
  (forall a, x = Ok a -> grows s pr (f a)) -> grows s pr (bind x f).
Proof. destruct x; cbn; auto. Qed.
Lemma conv_loop_grows k f n : forall s fmt ap h p i t, (length fmt <= n)%nat -> grows s p4 (conv_loop _ add_text k f s fmt ap h p i t).
Proof.
  induction n as [|n IH]; intros s fmt ap h p i t L.
  - destruct fmt; [|cbn in L; lia]. cbn [conv_loop]. apply parse_error_grows.
  - destruct fmt as [|b fmt]; [cbn [conv_loop]; apply parse_error_grows|]. cbn [length] in L. cbn [conv_loop]. cbv zeta.
    assert (IH' : forall ap h p i t, grows s p4 (conv_loop _ add_text k f s fmt ap h p i t)) by (intros; apply IH; lia).
    pose proof (fun n fmt ap => parse_error_grows s n fmt ap) as PE.
    destruct (b =? 46); [destruct h; auto|].
    destruct (isdig b); [destruct h; auto|].
    destruct (b =? 42); [apply grows_bind; intros [v ap'] _; cbv zeta; destruct h; auto|].
    destruct (b =? 104); [destruct t; auto|].
    destruct (b =? 108); [destruct t; auto|].
    destruct (b =? 73).
    { destruct fmt as [|x [|y fmt'']]; try (destruct t; auto; fail).
      destruct t; auto. destruct (_ && _); [apply IH; cbn in L; lia|].
      destruct (_ && _); [apply IH; cbn in L; lia|auto]. }
    destruct (b =? 122); [destruct t; auto|].
    destruct (_ || _). { apply grows_bind; intros [v ap'] _. apply fin_grows, add_integer_just_grows. }
    destruct (_ || _). { apply grows_bind; intros [v ap'] _. apply fin_grows, add_integer_just_grows. }
    destruct (b =? 117). { apply grows_bind; intros [v ap'] _. apply fin_grows, add_integer_just_grows. }
    destruct ((b =? 120) || _). { apply grows_bind; intros [v ap'] _. apply fin_grows, add_integer_just_grows. }
    destruct ((b =? 112) || _). { apply grows_bind; intros [v ap'] _. apply fin_grows, add_integer_just_grows. }
    destruct (_ || (b =? 71)). { apply grows_bind; intros [[v tx] ap'] _. apply fin_grows, add_double_just_grows. }
    destruct (b =? 99). { apply grows_bind; intros [v ap'] _. eapply fin_grows, gives_grows, add_bytes_just_gives. }
    destruct (b =? 115). { apply grows_bind; intros [v ap'] _. apply grows_bind. intros tx _. eapply fin_grows, gives_grows, add_bytes_just_gives. }
    auto.
Qed.
Lemma handle_control_grows s fmt ap : grows s p4 (handle_control _ add_text s fmt ap).
Proof.
  unfold handle_control. destruct fmt as [|b fmt]; [apply parse_error_grows|]. destruct (b =? 37).
  - unfold add_byte. rewrite add_bytes_gives. cbn [bind]. eexists. reflexivity.
  - apply grows_bind. intros [f fmt'] _. apply conv_loop_grows with (n := length fmt'); auto.
Qed.
Lemma print_loop_len n : forall s fmt ap o,
  match print_loop _ add_text n s fmt ap o with
  | Ok (s', z) => exists t, s' = (s ++ t)%list /\ z = (o + Z.of_nat (length t))%Z
  | _ => True
  end.
Proof.
  induction n as [|n IH]; intros s fmt ap o; cbn [print_loop]; [exact I|].
  destruct fmt as [|b fmt]; [exists []; rewrite app_nil_r; cbn; split; [reflexivity|lia]|].
  assert (G : grows s p4 (if b =? 37 then handle_control _ add_text s fmt ap else do ' (s0, r) <- add_byte _ add_text s b; Ok (s0, r, fmt, ap))).
  { destruct (b =? 37); [apply handle_control_grows|]. unfold add_byte. rewrite add_bytes_gives. cbn [bind]. eexists. reflexivity. }
  destruct (if b =? 37 then _ else _) as [[[[s1 z] fmt'] ap']| |]; cbn [bind]; [|exact I..].
  destruct G as (t & E). cbv [p4 fst] in E. injection E as -> ->.
  replace (Z.of_nat (length t) =? -1)%Z with false by (symmetry; apply Z.eqb_neq; lia).
  specialize (IH (s ++ t)%list fmt' ap' (o + Z.of_nat (length t))%Z).
  destruct (print_loop _ _ _ _ _ _ _) as [[s2 z2]| |]; [|exact I..].
  destruct IH as (t2 & -> & ->). exists (t ++ t2)%list. rewrite app_length, app_assoc. split; [reflexivity|lia].
Qed.
Lemma print_text_len fmt ap t z : print_text fmt ap = Ok (t, z) -> z = Z.of_nat (length t).
Proof.
  intros H. pose proof (print_loop_len (Datatypes.S (length fmt)) [] fmt ap 0) as G. unfold print_text, do_print in H. rewrite H in G.
  destruct G as (t' & -> & ->). reflexivity.
Qed.

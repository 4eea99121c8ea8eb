From Verif Require Import Base.Lib Base.Mem Hex.Model Str.Model Str.Spec.
Local Open Scope N_scope.


(** ** explode *)

Definition zpieces (ps : list (list N)) : list N := concat (map (fun p => p ++ [0]) ps).

Lemma join_snoc d ps p q : ps <> [] \/ True -> join d (ps ++ [p; q]) = join d (ps ++ [p]) ++ d :: q.
Proof.
  intros _. induction ps as [|x ps IH]; auto.
  cbn [app join]. destruct ps as [|y ps]; cbn [app] in *.
  - cbn. now rewrite <- app_assoc.
  - rewrite IH. now rewrite <- app_assoc.
Qed.

Lemma join_last d ps p r : join d (ps ++ [p ++ r]) = join d (ps ++ [p]) ++ r.
Proof.
  induction ps as [|x ps IH]; auto. cbn [app join].
  destruct ps as [|y ps]; cbn [app] in *.
  - now rewrite <- app_assoc.
  - rewrite IH. now rewrite <- app_assoc.
Qed.

Lemma starts_app o ps : forall qs, starts o (ps ++ qs) = starts o ps ++ starts (o + length (zpieces ps)) qs.
Proof.
  revert o. induction ps as [|p ps IH]; intros o qs; cbn [app starts].
  - cbn. now rewrite Nat.add_0_r.
  - rewrite IH. cbn [app]. do 3 f_equal. unfold zpieces. cbn [map concat]. llen.
Qed.

Lemma length_starts o ps : length (starts o ps) = length ps.
Proof. revert o; induction ps as [|p ps IH]; intros o; cbn; auto. Qed.

Lemma zpieces_snoc ps p : zpieces (ps ++ [p]) = zpieces ps ++ p ++ [0].
Proof. unfold zpieces. rewrite map_app, concat_app. cbn. now rewrite app_nil_r. Qed.

Definition nd (d : N) (s : list N) : nat := length (filter (fun c => c =? d) s).

Lemma count_ok d rest : forall pre num z,
  count_delims (pre ++ rest ++ z) d (length pre) (length rest) num = Ok (num + nd d rest)%nat.
Proof.
  induction rest as [|c rest IH]; intros pre num z; cbn [count_delims length].
  - unfold nd. cbn. f_equal. lia.
  - cbn [app]. rewrite rd_app_mid. cbn [bind].
    specialize (IH (pre ++ [c]) (if c =? d then S num else num) z).
    rewrite <- app_assoc, app_length in IH. cbn [app length] in IH.
    replace (length pre + 1)%nat with (S (length pre)) in IH by lia. rewrite IH. f_equal.
    unfold nd. cbn [filter]. destruct (c =? d); cbn [length]; lia.
Qed.

Lemma explode_loop_ok d rest : forall qs last (so sl : list nat),
  Forall (fun p => ~ In d p) qs -> ~ In d last ->
  length so = nd d rest -> length sl = S (nd d rest) ->
  exists ps lastp l, Forall (fun p => ~ In d p) ps /\ ~ In d lastp /\
    join d (ps ++ [lastp]) = join d (qs ++ [last]) ++ rest /\
    length (ps ++ [lastp]) = (length qs + 1 + nd d rest)%nat /\
    explode_loop d (length (zpieces qs ++ last)) (length rest)
      (zpieces qs ++ last ++ rest ++ [0])
      (starts 0 (qs ++ [last]) ++ so) (map (@length N) qs ++ sl) (length qs + 1) =
    Ok (zpieces ps ++ lastp ++ [0], starts 0 (ps ++ [lastp]), map (@length N) ps ++ [l],
        (length ps + 1)%nat).
Proof.
  induction rest as [|c rest IH]; intros qs last so sl Fq Fl Lo Ll; cbn [explode_loop length].
  - unfold nd in *. cbn in Lo, Ll. destruct so; [|discriminate]. destruct sl as [|l [|]]; try discriminate.
    exists qs, last, l. rewrite !app_nil_r. repeat split; auto. cbn [filter]; llen.
  - rewrite (app_assoc (zpieces qs)). cbn [app]. rewrite rd_app_mid. cbn [bind].
    unfold nd in Lo, Ll. cbn [filter] in Lo, Ll. destruct (N.eqb_spec c d) as [->|Hc]; cbn [negb].
    + cbn [length] in Lo, Ll. fold (nd d rest) in Lo, Ll.
      rewrite wr_app_mid. cbn [bind].
      destruct so as [|o so]; [discriminate|].
      rewrite wr_mid by (rewrite length_starts; llen). cbn [bind].
      assert (R : rd (starts 0 (qs ++ [last]) ++ S (length (zpieces qs ++ last)) :: so) (length qs + 1 - 1)
                  = Ok (length (zpieces qs))).
      { rewrite starts_app. cbn [starts Nat.add app]. rewrite <- app_assoc. cbn [app]. apply rd_mid.
        rewrite length_starts. lia. }
      rewrite R. cbn [bind].
      destruct sl as [|l sl]; [discriminate|].
      rewrite wr_mid by llen. cbn [bind].
      replace (length (zpieces qs ++ last) - length (zpieces qs))%nat with (length last) by llen.
      destruct (IH (qs ++ [last]) [] so sl) as (ps & lastp & l' & F1 & F2 & E1 & E2 & E3); auto.
      { apply Forall_app. auto. } 
      exists ps, lastp, l'. split; auto. split; auto. split.
      { rewrite E1. rewrite <- app_assoc. cbn [app]. rewrite join_snoc by auto. rewrite <- app_assoc. reflexivity. }
      split.
      { rewrite E2, app_length. unfold nd. cbn [filter]. rewrite N.eqb_refl. cbn [length]. lia. }
      rewrite <- E3. f_equal.
      * rewrite app_nil_r, zpieces_snoc. llen.
      * rewrite zpieces_snoc. cbn [app]. rewrite <- !app_assoc. reflexivity.
      * rewrite (starts_app 0 (qs ++ [last]) [[]]). cbn [starts app]. rewrite zpieces_snoc, <- app_assoc. cbn [app].
        do 2 f_equal. llen.
      * rewrite map_app. cbn [map]. now rewrite <- app_assoc.
      * llen.
    + fold (nd d rest) in Lo, Ll.
      destruct (IH qs (last ++ [c]) so sl) as (ps & lastp & l' & F1 & F2 & E1 & E2 & E3); auto.
      { rewrite in_app_iff. cbn. intuition congruence. }
      exists ps, lastp, l'. split; auto. split; auto. split.
      { rewrite E1, join_last, <- app_assoc. reflexivity. }
      split.
      { rewrite E2. unfold nd. cbn [filter]. rewrite (proj2 (N.eqb_neq c d)) by auto. reflexivity. }
      rewrite <- E3. f_equal.
      * llen.
      * rewrite <- !app_assoc. reflexivity.
      * f_equal. clear. rewrite !starts_app. reflexivity.
Qed.

Lemma length_join d ps p : length (join d (ps ++ [p])) = length (zpieces ps ++ p).
Proof.
  induction ps as [|x ps IH]; auto. unfold zpieces in *. cbn [map concat app join].
  destruct ps as [|y ps]; cbn [app] in *.
  - cbn [map concat join]. rewrite !app_length. cbn [length]. rewrite ?app_length. cbn [length]. lia.
  - rewrite (app_length x). cbn [length]. rewrite IH. rewrite !app_length. cbn [length]. lia.
Qed.

Lemma explode_ok d s z g : no_nul s -> s <> [] ->
  exists ps, Forall (fun p => ~ In d p) ps /\ join d ps = s /\ length ps = S (nd d s) /\
    explode d (s ++ 0 :: z) (length s) g = Ok (Some (zpieces ps, starts 0 ps, map (@length N) ps)).
Proof.
  intros Hn Hne. unfold explode. destruct s as [|c0 s0] eqn:Es; [congruence|]. rewrite <- Es in *.
  assert (R0 : rd (s ++ 0 :: z) 0 = Ok c0) by (subst s; reflexivity).
  rewrite R0. cbn [bind]. rewrite (proj2 (N.eqb_neq c0 0)) by (subst s; inversion Hn; auto).
  pose proof (rdn_ok (@nil N) s (0 :: z)) as RD. cbn [app length] in RD. rewrite RD. cbn [bind].
  pose proof (count_ok d s [] 1 [0]) as C. cbn [app length] in C. rewrite C. cbn [bind Nat.add].
  cbn [repeat]. unfold wr at 1. cbn [length Nat.ltb Nat.leb upd bind].
  destruct (explode_loop_ok d s [] [] (repeat g (nd d s)) (g :: repeat g (nd d s)))
    as (ps & lastp & l & F1 & F2 & E1 & E2 & E3); auto.
  { now rewrite repeat_length. }
  { cbn [length]. now rewrite repeat_length. }
  cbn [zpieces map concat app length starts Nat.add] in E3. rewrite E3. cbn [bind].
  exists (ps ++ [lastp]). split; [apply Forall_app; auto|]. split; [exact E1|]. split; [rewrite E2; cbn; lia|].
  assert (R : rd (starts 0 (ps ++ [lastp])) (length ps + 1 - 1) = Ok (length (zpieces ps))).
  { rewrite starts_app. cbn [starts Nat.add]. apply rd_mid. rewrite length_starts. lia. }
  rewrite R. cbn [bind]. rewrite wr_mid by llen. cbn [bind].
  rewrite zpieces_snoc, map_app. cbn [map]. do 5 f_equal.
  assert (T : length (zpieces ps ++ lastp) = length s).
  { change (join d (ps ++ [lastp]) = s) in E1. rewrite <- E1. symmetry. apply length_join. }
  rewrite app_length in T. lia.
Qed.

Lemma implode_loop_join d enc esc ps : Forall (fun p => has_restricted p d enc esc = false) ps ->
  forall i buf, implode_loop d enc esc false (S i) ps buf = buf ++ flat_map (fun p => d :: p) ps.
Proof.
  induction 1 as [|p ps H F IH]; intros i buf; cbn [implode_loop flat_map].
  - now rewrite app_nil_r.
  - rewrite IH. unfold implode_one. rewrite H. cbn [orb Nat.eqb]. rewrite <- !app_assoc. reflexivity.
Qed.

Lemma join_flat d p ps : join d (p :: ps) = p ++ flat_map (fun p => d :: p) ps.
Proof.
  revert p; induction ps as [|q ps IH]; intros p.
  - cbn. now rewrite app_nil_r.
  - change (join d (p :: q :: ps)) with (p ++ d :: join d (q :: ps)). rewrite IH. reflexivity.
Qed.

Lemma implode_join d enc esc ps : ps <> [] -> Forall (fun p => has_restricted p d enc esc = false) ps ->
  implode d enc esc false ps = Some (join d ps).
Proof.
  intros Hne F. destruct F as [|p ps H F]; [congruence|]. unfold implode.
  cbn [implode_loop Nat.eqb app]. rewrite implode_loop_join by auto. unfold implode_one. rewrite H.
  cbn [orb]. now rewrite join_flat.
Qed.

(** ** trim *)

Lemma isspace_iff c : chr_isspace c = true <-> is_space c.
Proof. unfold chr_isspace, is_space. rewrite !orb_true_iff, !N.eqb_eq. tauto. Qed.
Lemma isspace_false c : chr_isspace c = false <-> ~ is_space c.
Proof. rewrite <- isspace_iff. destruct (chr_isspace c); split; congruence. Qed.

Lemma lead_space_ok w : forall pre r, Forall is_space w -> 
  (r = [] \/ exists c r', r = c :: r' /\ ~ is_space c) -> forall z,
  lead_space (pre ++ w ++ r ++ z) (length pre) (length w + length r) = Ok (length pre + length w)%nat.
Proof.
  induction w as [|c w IH]; intros pre r F Hr z.
  - cbn [app length Nat.add]. destruct Hr as [->|(c & r' & -> & Hc)]; cbn [length lead_space].
    + f_equal. lia.
    + cbn [app]. rewrite rd_app_mid. cbn [bind]. apply isspace_false in Hc. rewrite Hc. f_equal. lia.
  - inversion F as [|? ? Hc F']; subst. cbn [app length Nat.add lead_space]. rewrite rd_app_mid. cbn [bind].
    apply isspace_iff in Hc. rewrite Hc. specialize (IH (pre ++ [c]) r F' Hr z).
    rewrite <- app_assoc, app_length in IH. cbn [app length] in IH.
    replace (S (length pre)) with (length pre + 1)%nat by lia. rewrite IH. f_equal. lia.
Qed.

Lemma trail_space_ok t w : Forall is_space w -> (t = [] \/ exists t' c, t = t' ++ [c] /\ ~ is_space c) ->
  forall z, trail_space (t ++ w ++ z) (length t + length w) = Ok (length t).
Proof.
  intros F Ht. induction w as [|c w IH] using rev_ind; intros z.
  - cbn [app length]. rewrite Nat.add_0_r. destruct Ht as [->|(t' & c & -> & Hc)]; auto.
    rewrite app_length. cbn [length]. rewrite Nat.add_1_r. cbn [trail_space].
    rewrite <- app_assoc. cbn [app]. rewrite rd_app_mid. cbn [bind]. apply isspace_false in Hc. now rewrite Hc.
  - apply Forall_app in F. destruct F as [F Fc]. inversion Fc as [|? ? Hc _]; subst.
    rewrite app_length. cbn [length]. replace (length t + (length w + 1))%nat with (S (length t + length w)) by lia.
    cbn [trail_space]. rewrite <- (app_assoc w). cbn [app]. rewrite (app_assoc t).
    rewrite rd_mid by llen. cbn [bind]. apply isspace_iff in Hc. rewrite Hc.
    rewrite <- app_assoc. apply IH, F.
Qed.

Lemma space_dec c : is_space c \/ ~ is_space c.
Proof. destruct (chr_isspace c) eqn:E; [left|right]; [now apply isspace_iff|now apply isspace_false]. Qed.

Lemma split_lead s : exists w r, s = w ++ r /\ Forall is_space w /\ (r = [] \/ exists c r', r = c :: r' /\ ~ is_space c).
Proof.
  induction s as [|c s (w & r & -> & F & H)].
  - exists [], []. auto.
  - destruct (space_dec c) as [Hc|Hc].
    + exists (c :: w), r. auto.
    + exists [], (c :: w ++ r). split; auto. split; auto. right. eauto.
Qed.
Lemma split_trail s : exists t w, s = t ++ w /\ Forall is_space w /\ (t = [] \/ exists t' c, t = t' ++ [c] /\ ~ is_space c).
Proof.
  induction s as [|c s (t & w & -> & F & H)] using rev_ind.
  - exists [], []. auto.
  - destruct (space_dec c) as [Hc|Hc].
    + exists t, (w ++ [c]). rewrite app_assoc. split; auto. split; auto. apply Forall_app. auto.
    + exists ((t ++ w) ++ [c]), []. rewrite app_nil_r. split; auto. split; auto. right. eauto.
Qed.

Lemma trim_decomp s : exists w1 t w2, s = w1 ++ t ++ w2 /\ Forall is_space w1 /\ Forall is_space w2 /\
  ((t = [] /\ w2 = []) \/ (exists c r, t = c :: r /\ ~ is_space c) /\ (exists r c, t = r ++ [c] /\ ~ is_space c)).
Proof.
  destruct (split_lead s) as (w1 & r & -> & F1 & H1).
  destruct (split_trail r) as (t & w2 & -> & F2 & H2).
  destruct H1 as [E|(c & r' & E & Hc)].
  - apply app_eq_nil in E. destruct E as [-> ->]. exists w1, [], []. auto 6.
  - exists w1, t, w2. repeat split; auto. right. destruct t as [|c' t].
    + cbn in E. subst w2. inversion F2; subst. contradiction.
    + cbn in E. injection E as -> E. split; [eauto|]. destruct H2 as [|H2]; [discriminate|].
      destruct H2 as (t' & x & E' & Hx). eauto.
Qed.


(** Trimming: the object afterwards holds the trimmed text and a terminator. *)
Lemma trim_ok w1 t w2 z : no_nul (w1 ++ t ++ w2) -> Forall is_space w1 -> Forall is_space w2 ->
  ((t = [] /\ w2 = []) \/ (exists c r, t = c :: r /\ ~ is_space c) /\ (exists r c, t = r ++ [c] /\ ~ is_space c)) ->
  exists z', trim_max ((w1 ++ t ++ w2) ++ 0 :: z) None = Ok (t ++ 0 :: z') /\
    length (t ++ 0 :: z') = length ((w1 ++ t ++ w2) ++ 0 :: z).
Proof.
  intros Hn F1 F2 Ht. unfold trim_max, str_len_opt. rewrite strlen_ok by auto. cbn [bind].
  destruct Ht as [[-> ->]|[(c & r & Ec & Hc) (r' & c' & Ec' & Hc')]].
  - cbn [app]. rewrite app_nil_r in *. destruct w1 as [|x w1].
    + cbn. exists z. auto.
    + cbn [length Nat.eqb]. pose proof (lead_space_ok (x :: w1) [] [] F1 (or_introl eq_refl) (0 :: z)) as L.
      cbn [app length] in L. rewrite Nat.add_0_r in L. cbn [app length]. rewrite L. cbn [bind Nat.add].
      rewrite Nat.eqb_refl. cbn. exists (w1 ++ 0 :: z). auto.
  - assert (Lt : (1 <= length t)%nat) by (subst t; cbn; lia).
    destruct (Nat.eqb_spec (length (w1 ++ t ++ w2)) 0) as [E|_]; [rewrite !app_length in E; lia|].
    assert (Hr : t ++ w2 = [] \/ exists c r', t ++ w2 = c :: r' /\ ~ is_space c).
    { right. exists c, (r ++ w2). rewrite Ec. auto. }
    pose proof (lead_space_ok w1 [] (t ++ w2) F1 Hr (0 :: z)) as L.
    cbn [app length Nat.add] in L. rewrite <- app_length in L. rewrite app_assoc in L. rewrite L. cbn [bind].
    destruct (Nat.eqb_spec (length w1) (length (w1 ++ t ++ w2))) as [E|_]; [rewrite !app_length in E; lia|].
    assert (T : t = [] \/ exists t' c, t = t' ++ [c] /\ ~ is_space c) by (right; eauto).
    destruct (Nat.eqb_spec (length w1) 0) as [E|E].
    + destruct w1; [|discriminate]. cbn [app bind]. rewrite app_length, <- app_assoc.
      rewrite (trail_space_ok t w2 F2 T (0 :: z)). cbn [bind].
      destruct w2 as [|x w2]; cbn [app]; rewrite wr_app_mid.
      * exists z. auto.
      * exists (w2 ++ 0 :: z). split; auto. llen.
    + assert (M : exists z1, mmove ((w1 ++ t ++ w2) ++ 0 :: z) 0 (length w1) (length (w1 ++ t ++ w2) - length w1)
                   = Ok ((t ++ w2) ++ z1) /\ length ((t ++ w2) ++ z1) = length ((w1 ++ t ++ w2) ++ 0 :: z) /\ (1 <= length z1)%nat).
      { unfold mmove. replace (length (w1 ++ t ++ w2) - length w1)%nat with (length (t ++ w2)) by llen.
        rewrite <- (app_assoc w1). rewrite rdn_ok. cbn [bind]. rewrite wrn_lt by llen.
        rewrite firstn_O. cbn [app Nat.add]. eexists. split; [reflexivity|]. split.
        - rewrite app_length, skipn_length. llen.
        - rewrite skipn_length. llen. }
      destruct M as (z1 & -> & Lz & Lz1). cbn [bind].
      destruct z1 as [|x z1]; [cbn in Lz1; lia|].
      rewrite wr_mid by llen. cbn [bind].
      replace (length (w1 ++ t ++ w2) - length w1)%nat with (length t + length w2)%nat by llen.
      rewrite <- app_assoc, (trail_space_ok t w2 F2 T (0 :: z1)). cbn [bind].
      destruct w2 as [|y w2]; cbn [app]; rewrite wr_app_mid.
      * exists z1. split; auto. rewrite <- Lz. llen.
      * exists (w2 ++ 0 :: z1). split; auto. rewrite <- Lz. llen.
Qed.

(** Uniqueness of the trimmed text. *)
Lemma trimmed_unique s t1 t2 : trimmed s t1 -> trimmed s t2 -> t1 = t2.
Proof.
  intros (a1 & b1 & E1 & Fa1 & Fb1 & L1 & R1) (a2 & b2 & E2 & Fa2 & Fb2 & L2 & R2).
  assert (X : forall (a1 a2 t1 t2 b1 b2 : list N), a1 ++ t1 ++ b1 = a2 ++ t2 ++ b2 -> Forall is_space a1 -> Forall is_space a2 ->
     Forall is_space b1 -> Forall is_space b2 ->
     (forall c t', t1 = c :: t' -> ~ is_space c) -> (forall c t', t2 = c :: t' -> ~ is_space c) ->
     t1 ++ b1 = t2 ++ b2 \/ (t1 = [] /\ t2 = [])).
  { clear. induction a1 as [|x a1 IH]; intros a2 t1 t2 b1 b2 E Fa1 Fa2 Fb1 Fb2 L1 L2.
    - destruct a2 as [|y a2]; [left; exact E|]. cbn in E. inversion Fa2 as [|? ? Hy Fa2']; subst.
      destruct t1 as [|x t1].
      + right. split; auto. destruct t2 as [|z t2]; auto. exfalso.
        cbn in E. subst b1. inversion Fb1 as [|? ? ? Fb]; subst. apply Forall_app in Fb. destruct Fb as [_ Fb].
        cbn in Fb. inversion Fb; subst. eapply L2; eauto.
      + cbn in E. injection E as -> E. exfalso. eapply L1; eauto.
    - destruct a2 as [|y a2].
      + cbn in E. inversion Fa1 as [|? ? Hx Fa1']; subst. destruct t2 as [|z t2].
        * right. split; auto. destruct t1 as [|z t1]; auto. exfalso.
          cbn in E. subst b2. inversion Fb2 as [|? ? ? Fb]; subst. apply Forall_app in Fb. destruct Fb as [_ Fb].
          cbn in Fb. inversion Fb; subst. eapply L1; eauto.
        * cbn in E. injection E as -> E. exfalso. eapply L2; eauto.
      + cbn in E. injection E as -> E. inversion Fa1; inversion Fa2; subst. eapply IH; eauto. }
  rewrite E1 in E2. destruct (X _ _ _ _ _ _ E2 Fa1 Fa2 Fb1 Fb2 L1 L2) as [E|[-> ->]]; auto.
  apply (f_equal (@rev N)) in E. rewrite !rev_app_distr in E.
  assert (Y := X (rev b1) (rev b2) (rev t1) (rev t2) [] []). rewrite !app_nil_r in Y.
  destruct Y as [Y|[Y1 Y2]]; auto.
  - apply Forall_rev; auto.
  - apply Forall_rev; auto.
  - intros c t' Ec. apply (R1 c (rev t')). rewrite <- (rev_involutive t1), Ec. reflexivity.
  - intros c t' Ec. apply (R2 c (rev t')). rewrite <- (rev_involutive t2), Ec. reflexivity.
  - rewrite <- (rev_involutive t1), Y. apply rev_involutive.
  - rewrite <- (rev_involutive t1), <- (rev_involutive t2), Y1, Y2. reflexivity.
Qed.

(** ** quote and unquote *)

Definition esc1 (q e c : N) : list N := if ceq c q || ceq c e then [e; c] else [c].

Lemma quote_loop_ok q e z rest : forall done mid buf,
  buf ++ mid = q :: flat_map (esc1 q e) (done ++ mid) ->
  exists st buf', quote_loop (done ++ mid ++ rest ++ z) q e (length (done ++ mid)) (length rest) (length done) buf = Ok (st, buf') /\
    (st <= length (done ++ mid ++ rest))%nat /\
    buf' ++ skipn st (done ++ mid ++ rest) = q :: flat_map (esc1 q e) (done ++ mid ++ rest).
Proof.
  induction rest as [|c rest IH]; intros done mid buf E; cbn [quote_loop length app].
  - exists (length done), buf. rewrite !app_nil_r. split; auto. split; [llen|].
    rewrite skipn_app, skipn_all, Nat.sub_diag. cbn [skipn app]. exact E.
  - rewrite (app_assoc done). rewrite rd_app_mid. cbn [bind].
    assert (E1 : flat_map (esc1 q e) ((done ++ mid) ++ [c]) = flat_map (esc1 q e) (done ++ mid) ++ esc1 q e c).
    { rewrite flat_map_app. cbn. now rewrite app_nil_r. }
    destruct (ceq c q || ceq c e) eqn:Ec.
    + replace (length (done ++ mid) - length done)%nat with (length mid) by llen.
      rewrite <- (app_assoc done), rdn_ok. cbn [bind].
      destruct (IH (done ++ mid) [c] (buf ++ mid ++ [e])) as (st & buf' & E2 & L & E3).
      { rewrite E1. unfold esc1 at 2. rewrite Ec. rewrite (app_comm_cons), <- E, <- !app_assoc. reflexivity. }
      exists st, buf'. rewrite <- !app_assoc in E2, L, E3. cbn [app] in E2, L, E3. split; auto.
      rewrite <- E2. f_equal. llen.
    + destruct (IH done (mid ++ [c]) buf) as (st & buf' & E2 & L & E3).
      { rewrite !app_assoc. rewrite E1. unfold esc1 at 2. rewrite Ec. now rewrite E. }
      exists st, buf'. rewrite <- !app_assoc in E2, L, E3. cbn [app] in E2, L, E3. split; auto.
      rewrite <- E2, <- !app_assoc. f_equal. llen.
Qed.

Lemma quote_ok s z q e : no_nul s -> s <> [] ->
  str_quote_max (s ++ 0 :: z) q e None = Ok (q :: flat_map (esc1 q e) s ++ [q]).
Proof.
  intros Hn Hne. unfold str_quote_max. destruct s as [|c0 s0] eqn:Es; [congruence|]. rewrite <- Es in *.
  assert (R0 : rd (s ++ 0 :: z) 0 = Ok c0) by (subst s; reflexivity).
  rewrite R0. cbn [bind]. rewrite (proj2 (N.eqb_neq c0 0)) by (subst s; inversion Hn; auto).
  unfold str_len_opt. rewrite strlen_ok by auto. cbn [bind].
  destruct (quote_loop_ok q e (0 :: z) s [] [] [q] eq_refl) as (st & buf' & E & L & E3).
  cbn [app length] in *. rewrite E. cbn [bind].
  destruct (Nat.ltb_spec st (length s)) as [H|H].
  - rewrite rdn_lt by (rewrite app_length; lia). cbn [bind].
    rewrite skipn_app, firstn_app, skipn_length. replace (length s - st - (length s - st))%nat with 0%nat by lia.
    rewrite firstn_O, app_nil_r, firstn_all2 by (rewrite skipn_length; lia).
    rewrite app_assoc, E3. reflexivity.
  - cbn [bind app]. rewrite skipn_all2, app_nil_r in E3 by lia. rewrite E3. reflexivity.
Qed.

Lemma esc_no_nul q e s : e <> 0 -> no_nul s -> no_nul (flat_map (esc1 q e) s).
Proof.
  intros He. induction 1 as [|c s Hc F IH]; cbn [flat_map]; [constructor|].
  apply no_nul_app. split; auto. unfold esc1. destruct (_ || _); repeat constructor; auto.
Qed.

Lemma unquote_loop_ok q e : e < 128 -> forall rest done junk fuel, (length (flat_map (esc1 q e) rest) < fuel)%nat ->
  exists junk', unquote_loop fuel (done ++ flat_map (esc1 q e) rest ++ 0 :: junk) q e (length done)
     (length (done ++ flat_map (esc1 q e) rest)) = Ok (done ++ rest ++ 0 :: junk') /\
   length (done ++ rest ++ 0 :: junk') = length (done ++ flat_map (esc1 q e) rest ++ 0 :: junk).
Proof.
  intros He. induction rest as [|c rest IH]; intros done junk fuel Hf; (destruct fuel as [|fuel]; [lia|]).
  - cbn [flat_map app unquote_loop]. rewrite app_nil_r, Nat.ltb_irrefl. exists junk. auto.
  - cbn [unquote_loop flat_map]. cbn [flat_map] in Hf.
    destruct (ceq c q || ceq c e) eqn:Ec.
    + assert (EE : esc1 q e c = [e; c]) by (unfold esc1; now rewrite Ec). rewrite EE in *. rewrite app_length in Hf.
      destruct (Nat.ltb_spec (length done) (length (done ++ [e; c] ++ flat_map (esc1 q e) rest))) as [_|H];
        [|rewrite !app_length in H; cbn in H; lia].
      cbn [app]. rewrite rd_app_mid. cbn [bind]. rewrite N.eqb_refl.
      assert (R : rd (done ++ e :: c :: flat_map (esc1 q e) rest ++ 0 :: junk) (length done + 1) = Ok c).
      { replace (done ++ e :: c :: flat_map (esc1 q e) rest ++ 0 :: junk) with ((done ++ [e]) ++ c :: flat_map (esc1 q e) rest ++ 0 :: junk)
          by (rewrite <- app_assoc; reflexivity). apply rd_mid. llen. }
      rewrite R. cbn [bind]. rewrite orb_comm, Ec.
      assert (M : mmove (done ++ e :: c :: flat_map (esc1 q e) rest ++ 0 :: junk) (length done) (length done + 1)
                 (length (done ++ e :: c :: flat_map (esc1 q e) rest) - length done)
               = Ok ((done ++ [c]) ++ flat_map (esc1 q e) rest ++ 0 :: 0 :: junk)).
      { unfold mmove. set (X := flat_map (esc1 q e) rest).
        replace (length (done ++ e :: c :: X) - length done)%nat with (length ((c :: X) ++ [0])) by llen.
        replace (length done + 1)%nat with (length (done ++ [e])) by llen.
        replace (done ++ e :: c :: X ++ 0 :: junk) with ((done ++ [e]) ++ ((c :: X) ++ [0]) ++ junk) at 1
          by (rewrite <- !app_assoc; reflexivity).
        rewrite rdn_ok. cbn [bind].
        replace (done ++ e :: c :: X ++ 0 :: junk) with (done ++ (e :: c :: X) ++ 0 :: junk) by reflexivity.
        rewrite wrn_ok by llen. rewrite <- !app_assoc. reflexivity. }
      rewrite M. cbn [bind].
      destruct (IH (done ++ [c]) (0 :: junk) fuel) as (j' & E & L); [cbn in Hf; lia|].
      exists j'. rewrite <- (app_assoc done [c] (rest ++ _)) in E, L. cbn [app] in *. split; [|rewrite L; llen].
      rewrite <- E. f_equal; llen.
    + assert (EE : esc1 q e c = [c]) by (unfold esc1; now rewrite Ec). rewrite EE in *. rewrite app_length in Hf.
      destruct (Nat.ltb_spec (length done) (length (done ++ [c] ++ flat_map (esc1 q e) rest))) as [_|H];
        [|rewrite !app_length in H; cbn in H; lia].
      cbn [app]. rewrite rd_app_mid. cbn [bind].
      assert (Hc : (c =? e) = false).
      { apply orb_false_iff in Ec. destruct Ec as [_ Ec]. unfold ceq in Ec. destruct (N.eqb_spec c e); auto.
        subst. cbn in Ec. apply N.ltb_ge in Ec. lia. }
      rewrite Hc.
      destruct (IH (done ++ [c]) junk fuel) as (j' & E & L); [cbn in Hf; lia|].
      exists j'. rewrite <- (app_assoc done [c] (rest ++ _)) in E, L. cbn [app] in *. split; [|rewrite L; llen].
      rewrite <- E, <- app_assoc. cbn [app]. f_equal; llen.
Qed.

Lemma unquote_ok s q e z : no_nul s -> 0 < q < 128 -> 0 < e < 128 -> ~ is_space q -> s <> [] ->
  exists z', str_unquote_max ((q :: flat_map (esc1 q e) s ++ [q]) ++ 0 :: z) q e None = Ok (s ++ 0 :: z').
Proof.
  intros Hn Hq He Hs Hne. unfold str_unquote_max. set (X := flat_map (esc1 q e) s).
  assert (HX : no_nul X) by (apply esc_no_nul; auto; lia).
  assert (LX : (1 <= length X)%nat).
  { unfold X. destruct s as [|c s]; [congruence|]. cbn. rewrite app_length. unfold esc1.
    destruct (_ || _); cbn; lia. }
  set (t := q :: X ++ [q]).
  assert (Ht : no_nul t).
  { constructor; [lia|]. apply no_nul_app. split; auto. repeat constructor. lia. }
  destruct (trim_ok [] t [] z) as (z' & E & _); auto.
  { cbn [app]. now rewrite app_nil_r. }
  { right. split; [exists q, (X ++ [q])|exists (q :: X), q]; auto. }
  cbn [app] in E. rewrite app_nil_r in E. rewrite E. cbn [bind].
  assert (R0 : rd (t ++ 0 :: z') 0 = Ok q) by reflexivity.
  rewrite R0. cbn [bind]. rewrite (proj2 (N.eqb_neq q 0)) by lia.
  unfold str_len_opt. rewrite strlen_ok by auto. cbn [bind].
  assert (Lt : length t = (length X + 2)%nat) by (unfold t; llen). rewrite Lt.
  destruct (Nat.eqb_spec (length X + 2) 1) as [|_]; [lia|].
  replace (length X + 2 - 1)%nat with (length (q :: X)) by llen.
  unfold t. rewrite (app_comm_cons X), <- app_assoc. cbn [app]. rewrite (app_comm_cons X), rd_app_mid. cbn [bind].
  assert (Cq : ceq q q = true) by (unfold ceq; rewrite N.eqb_refl; cbn; apply N.ltb_lt; lia).
  rewrite Cq. cbn [negb orb]. rewrite wr_app_mid. cbn [bind].
  assert (M : mmove ((q :: X) ++ 0 :: 0 :: z') 0 1 (length (q :: X)) = Ok (X ++ 0 :: 0 :: 0 :: z')).
  { unfold mmove. 
    pose proof (rdn_ok [q] (X ++ [0]) (0 :: z')) as R. rewrite app_length in R. cbn [length] in *.
    replace (length X + 1)%nat with (S (length X)) in R by lia.
    rewrite <- app_assoc in R. cbn [app] in *. rewrite R. cbn [bind].
    pose proof (wrn_ok (@nil N) (q :: X) (0 :: 0 :: z') (X ++ [0])) as W. cbn [app length] in W.
    rewrite W by llen. now rewrite <- app_assoc. }
  rewrite M. cbn [bind]. replace (length X + 2 - 2)%nat with (length X) by lia.
  destruct (unquote_loop_ok q e ltac:(lia) s [] (0 :: 0 :: z') (S (length X + 2))) as (j & E' & _); [fold X; lia|].
  cbn [app length] in E'. fold X in E'. rewrite E'. eauto.
Qed.

(** ** replace *)

Lemma is_prefix_iff b : forall s, is_prefix b s = true <-> exists y, s = b ++ y.
Proof.
  induction b as [|x b IH]; intros s; cbn [is_prefix].
  - split; [intros _; exists s; reflexivity|auto].
  - destruct s as [|y s].
    + split; [discriminate|]. intros (y & E). discriminate.
    + rewrite andb_true_iff, N.eqb_eq, IH. split.
      * intros [-> (z & ->)]. exists z. reflexivity.
      * intros (z & E). cbn in E. injection E as -> ->. eauto.
Qed.

Lemma strstr_spec b s :
  match strstr s b with
  | Some k => exists x y, first_occ b s x y /\ length x = k
  | None => forall x y, s <> x ++ b ++ y
  end.
Proof.
  induction s as [|c s IH]; cbn [strstr].
  - destruct (is_prefix b []) eqn:E.
    + apply is_prefix_iff in E. destruct E as (y & E). exists [], y. repeat split; auto. intros; cbn; lia.
    + intros x y H. destruct x; [|discriminate]. cbn in H.
      assert (is_prefix b [] = true) by (apply is_prefix_iff; eauto). congruence.
  - destruct (is_prefix b (c :: s)) eqn:E.
    + apply is_prefix_iff in E. destruct E as (y & E). exists [], y. repeat split; auto. intros; cbn; lia.
    + assert (NE : forall y, c :: s <> b ++ y).
      { intros y H. assert (is_prefix b (c :: s) = true) by (apply is_prefix_iff; eauto). congruence. }
      destruct (strstr s b) as [k|]; cbn [option_map].
      * destruct IH as (x & y & (E1 & M) & L). exists (c :: x), y. split; [split|].
        -- cbn. now rewrite E1.
        -- intros x' y' E'. destruct x' as [|c' x']; [elim (NE y' E')|].
           cbn in E'. injection E' as -> E'. cbn. apply M in E'. lia.
        -- cbn. now rewrite L.
      * intros x y H. destruct x as [|c' x]; [elim (NE y H)|]. cbn in H. injection H as -> H. elim (IH _ _ H).
Qed.

Lemma first_occ_fun b s x y x' y' : first_occ b s x y -> first_occ b s x' y' -> x = x' /\ y = y'.
Proof.
  intros [E M] [E' M']. assert (L : length x = length x') by (apply Nat.le_antisymm; eauto).
  rewrite E in E'. clear - L E'. revert x' L E'. induction x as [|c x IH]; intros [|c' x'] L E'; try discriminate.
  - cbn in E'. split; auto. eapply app_inv_head; eauto.
  - cbn in *. injection E' as -> E'. destruct (IH x') as [-> ->]; auto.
Qed.

Lemma replaced_fun b a s r : replaced b a s r -> forall r', replaced b a s r' -> r = r'.
Proof.
  induction 1 as [s N|s x y r F H IH]; intros r' H'; inversion H' as [? N'|? x' y' r2 F' H2]; subst; auto.
  - destruct F' as [F' _]. elim (N _ _ F').
  - destruct F as [F _]. elim (N' _ _ F).
  - destruct (first_occ_fun _ _ _ _ _ _ F F') as [-> ->]. f_equal. f_equal. auto.
Qed.


Lemma replace_loop_ok b a : b <> [] -> forall fuel pre s buf, (length s < fuel)%nat -> 
  exists lp out r, replace_loop fuel (pre ++ s) b a (length pre) (length pre) buf = Ok (lp, out) /\
    (lp <= length (pre ++ s))%nat /\ replaced b a s r /\
    ((out ++ skipn lp (pre ++ s) = buf ++ r /\ forall t, ~ ends_in_match b s t) \/
     exists t, ends_in_match b s t /\ out ++ skipn lp (pre ++ s) = buf ++ r ++ t).
Proof.
  intros Hb. assert (Lb : (1 <= length b)%nat) by (destruct b; [congruence|cbn; lia]).
  induction fuel as [|fuel IH]; intros pre s buf Hf; [lia|].
  cbn [replace_loop]. rewrite skipn_len by auto. pose proof (strstr_spec b s) as SS. destruct (strstr s b) as [k|].
  - destruct SS as (x & y & F & Lx). assert (E : s = x ++ b ++ y) by apply F.
    assert (Ls : length s = (length x + (length b + length y))%nat) by (rewrite E, !app_length; lia).
    replace (length pre + k - length pre)%nat with k by lia.
    assert (EF : firstn k s = x) by (rewrite E; apply firstn_len; auto). rewrite EF.
    assert (Ep : (length pre + k + length b)%nat = length (pre ++ x ++ b)) by (rewrite !app_length; lia).
    rewrite Ep.
    assert (ES : pre ++ s = (pre ++ x ++ b) ++ y) by (rewrite E, <- !app_assoc; reflexivity).
    destruct (Nat.leb_spec (length (pre ++ s)) (length (pre ++ x ++ b))) as [H|H].
    + rewrite ES, app_length in H. assert (y = []) by (destruct y; auto; cbn in H; lia). subst y.
      exists (length pre), (buf ++ x ++ a), (x ++ a ++ []). split; auto. split; [llen|]. split.
      * eapply rp_hit; eauto. constructor. intros x' y' Q. symmetry in Q.
        apply app_eq_nil in Q. destruct Q as [_ Q]. apply app_eq_nil in Q. tauto.
      * right. exists s. split; [econstructor; eauto|]. rewrite skipn_len by auto. rewrite app_nil_r, <- !app_assoc. reflexivity.
    + rewrite ES. destruct (IH (pre ++ x ++ b) y (buf ++ x ++ a)) as (lp & out & r & E1 & L1 & R1 & D1); [lia|].
      exists lp, out, (x ++ a ++ r). split; auto. split; auto. split; [eapply rp_hit; eauto|].
      destruct D1 as [[D1 D2]|(t & D1 & D2)].
      * left. rewrite D1, <- !app_assoc. split; auto. intros t Q. inversion Q as [? x' F'|? x' y' ? F' Q']; subst t.
        -- destruct (first_occ_fun _ _ _ _ _ _ F F') as [_ ->]. rewrite ES, app_nil_r in H. lia.
        -- destruct (first_occ_fun _ _ _ _ _ _ F F') as [_ <-]. subst. eapply D2; eauto.
      * right. exists t. split; [eapply em_hit; eauto|]. rewrite D2, <- !app_assoc. reflexivity.
  - exists (length pre), buf, s. split; auto. split; [llen|]. split; [constructor; auto|].
    rewrite skipn_len by auto. left. split; auto. intros t Q. inversion Q as [? x' F'|? x' y' ? F' Q']; subst;
      destruct F' as [F' _]; eapply SS; eauto.
Qed.

Lemma replace_str_ok s b a : s <> [] -> b <> [] -> exists r, replaced b a s r /\
  ((replace_str s b a = Ok r /\ forall t, ~ ends_in_match b s t) \/
   exists t, ends_in_match b s t /\ replace_str s b a = Ok (r ++ t)).
Proof.
  intros Hs Hb. unfold replace_str. destruct s as [|c s]; [congruence|]. destruct b as [|d b0]; [congruence|].
  set (b := d :: b0) in *.
  destruct (replace_loop_ok b a Hb (S (length (c :: s))) [] (c :: s) []) as (lp & out & r & E & L & R & D); [lia|].
  cbn [app length] in *. rewrite E. cbn [bind].
  destruct (Nat.leb_spec lp (S (length s))) as [_|H]; [|lia].
  exists r. split; auto. destruct D as [[D1 D2]|(t & D1 & D2)]; [left|right].
  - split; auto. now rewrite D1.
  - exists t. split; auto. now rewrite D2.
Qed.

(** ** justify *)

Lemma just_fill_sum j srclen justlen l r : (srclen <= justlen)%nat -> just_fill j srclen justlen = (l, r) ->
  (l + srclen + r = justlen)%nat.
Proof.
  intros H. unfold just_fill. set (k := (justlen - srclen)%nat).
  pose proof (Nat.div_mod k 2 ltac:(lia)). pose proof (Nat.mod_upper_bound k 2 ltac:(lia)).
  pose proof (Nat.div_mod (k + 1) 2 ltac:(lia)). pose proof (Nat.mod_upper_bound (k + 1) 2 ltac:(lia)).
  destruct j; intros E; apply pair_equal_spec in E; lia.
Qed.

Lemma rdn_wrn3 (dest x l r : list N) : (length x + length l + length r < length dest)%nat ->
  (do dest <- (if (length l =? 0)%nat then Ok dest else wrn dest (length x) l);
   do dest <- (if (length x =? 0)%nat then Ok dest else wrn dest 0 x);
   do dest <- (if (length r =? 0)%nat then Ok dest else wrn dest (length x + length l) r);
   wr dest (length x + length l + length r) 0) =
  Ok (x ++ l ++ r ++ 0 :: skipn (length x + length l + length r + 1) dest).
Proof.
  intros H. set (n := (length x + length l + length r)%nat) in *.
  assert (D : exists a b c y d3, dest = a ++ b ++ c ++ y :: d3 /\ length a = length x /\ length b = length l /\ length c = length r).
  { destruct (skipn n dest) as [|y d3] eqn:E.
    { apply (f_equal (@length N)) in E. rewrite skipn_length in E. cbn in E. lia. }
    exists (firstn (length x) dest), (firstn (length l) (skipn (length x) dest)),
      (firstn (length r) (skipn (length x + length l) dest)), y, d3.
    split; [|rewrite !firstn_length, !skipn_length; lia].
    rewrite <- E. unfold n. rewrite <- (skipn_skipn dest (length r) (length x + length l)), firstn_skipn.
    rewrite <- (skipn_skipn dest (length l) (length x)), firstn_skipn, firstn_skipn. reflexivity. }
  destruct D as (a & b & c & y & d3 & -> & La & Lb & Lc).
  assert (E4 : skipn (n + 1) (a ++ b ++ c ++ y :: d3) = d3).
  { replace (a ++ b ++ c ++ y :: d3) with ((a ++ b ++ c ++ [y]) ++ d3) by (rewrite <- !app_assoc; reflexivity).
    apply skipn_len. unfold n. llen. }
  rewrite E4.
  assert (W1 : (if (length l =? 0)%nat then Ok (a ++ b ++ c ++ y :: d3) else wrn (a ++ b ++ c ++ y :: d3) (length x) l) = Ok (a ++ l ++ c ++ y :: d3)).
  { destruct (Nat.eqb_spec (length l) 0) as [Z|Z].
    - destruct l; [|discriminate]. destruct b; [|discriminate]. reflexivity.
    - rewrite <- La. apply wrn_ok. lia. }
  rewrite W1. cbn [bind].
  assert (W2 : (if (length x =? 0)%nat then Ok (a ++ l ++ c ++ y :: d3) else wrn (a ++ l ++ c ++ y :: d3) 0 x) = Ok (x ++ l ++ c ++ y :: d3)).
  { destruct (Nat.eqb_spec (length x) 0) as [Z|Z].
    - destruct x; [|discriminate]. destruct a; [|discriminate]. reflexivity.
    - apply (wrn_ok (@nil N)). lia. }
  rewrite W2. cbn [bind].
  assert (W3 : (if (length r =? 0)%nat then Ok (x ++ l ++ c ++ y :: d3) else wrn (x ++ l ++ c ++ y :: d3) (length x + length l) r) = Ok (x ++ l ++ r ++ y :: d3)).
  { destruct (Nat.eqb_spec (length r) 0) as [Z|Z].
    - destruct r; [|discriminate]. destruct c; [|discriminate]. reflexivity.
    - rewrite app_assoc, <- app_length. rewrite (app_assoc x). rewrite <- (app_assoc x l (r ++ _)). 
      rewrite (app_assoc x l (r ++ _)). apply wrn_ok. lia. }
  rewrite W3. cbn [bind]. unfold n.
  replace (x ++ l ++ r ++ y :: d3) with ((x ++ l ++ r) ++ y :: d3) by (rewrite <- !app_assoc; reflexivity).
  rewrite wr_mid by llen. rewrite <- !app_assoc. reflexivity.
Qed.

(** What justify_max leaves in [dest]. *)
Lemma justify_ok dest destlen src srclen j ch justlen :
  (destlen <= length dest)%nat -> (srclen <= length src)%nat ->
  (justlen < destlen)%nat -> (no_trunc j = true -> srclen <= justlen)%nat ->
  let '(inptr, sl, jl) := just_in j srclen justlen in
  let '(llen, rlen) := just_fill j sl jl in
  justify_max dest destlen src srclen j ch justlen =
    Ok (jl, (repeat ch llen ++ firstn sl (skipn inptr src) ++ repeat ch rlen) ++ 0 :: skipn (jl + 1) dest) /\
  (llen + sl + rlen = jl)%nat /\ (inptr + sl <= srclen)%nat /\ (jl <= justlen)%nat.
Proof.
  intros Hd Hs Hj Ht. unfold justify_max.
  destruct (Nat.leb_spec destlen justlen) as [|_]; [lia|].
  assert (NT : no_trunc j && (justlen <? srclen)%nat = false).
  { destruct (no_trunc j); auto. cbn. apply Nat.ltb_ge. auto. }
  rewrite NT. destruct (just_in j srclen justlen) as [[inptr sl] jl] eqn:Ei.
  assert (B : (sl <= jl /\ jl <= justlen /\ inptr + sl <= srclen)%nat).
  { unfold just_in in Ei. destruct (Nat.ltb_spec justlen srclen); destruct j; injection Ei as <- <- <-; lia. }
  destruct (just_fill j sl jl) as [ll rl] eqn:Ef.
  pose proof (just_fill_sum j sl jl ll rl ltac:(lia) Ef) as S. split; [|lia].
  set (l := firstn sl (skipn inptr src)).
  assert (Ll : length l = sl) by (unfold l; rewrite firstn_length, skipn_length; lia).
  pose proof (rdn_wrn3 dest (repeat ch ll) l (repeat ch rl)) as W. rewrite !repeat_length, Ll in W.
  assert (R : (if (sl =? 0)%nat then Ok dest else do l0 <- rdn src inptr sl; wrn dest ll l0)
            = (if (sl =? 0)%nat then Ok dest else wrn dest ll l)).
  { destruct (sl =? 0)%nat; auto. rewrite rdn_lt by lia. reflexivity. }
  rewrite R. rewrite S in W. specialize (W ltac:(lia)).
  destruct (if (sl =? 0)%nat then Ok dest else wrn dest ll l) as [d1| |]; cbn [bind] in *; try discriminate.
  destruct (if (ll =? 0)%nat then Ok d1 else wrn d1 0 (repeat ch ll)) as [d2| |]; cbn [bind] in *; try discriminate.
  destruct (if (rl =? 0)%nat then Ok d2 else wrn d2 (ll + sl) (repeat ch rl)) as [d3| |]; cbn [bind] in *; try discriminate.
  rewrite W. cbn [bind]. rewrite <- !app_assoc. reflexivity.
Qed.

(** ** Small editing functions *)


Lemma str_cat_ok d z s z' dest_len : no_nul d -> no_nul s -> (dest_len <= length (d ++ 0%N :: z))%nat ->
  str_cat (d ++ 0 :: z) dest_len (s ++ 0 :: z') =
    if (length d + length s <? dest_len)%nat then Ok (true, (d ++ s) ++ 0 :: skipn (length s) z)
    else Ok (false, d ++ 0 :: z).
Proof.
  intros Hd Hs HL. unfold str_cat. destruct (Nat.eqb_spec dest_len 0) as [->|H0]; auto.
  rewrite !strlen_ok by auto. cbn [bind].
  destruct (Nat.leb_spec dest_len (length d + length s)) as [H|H];
  destruct (Nat.ltb_spec (length d + length s) dest_len) as [H'|H']; try lia; auto.
  pose proof (rdn_ok (@nil N) s (0 :: z')) as R. cbn [app length] in R. rewrite R. cbn [bind].
  pose proof (wrn_wr_end (d ++ 0 :: z) (length d) s 0 ltac:(lia)) as W.
  destruct (wrn (d ++ 0 :: z) (length d) s) as [m| |]; cbn [bind] in *; try discriminate.
  rewrite W. cbn [bind]. rewrite firstn_len by auto. rewrite <- app_assoc. do 5 f_equal.
  rewrite <- Nat.add_assoc. rewrite skipn_app, skipn_all2 by lia. cbn [app].
  replace (length d + (length s + 1) - length d)%nat with (S (length s)) by lia. reflexivity.
Qed.

Lemma str_cpy_ok dest dest_len s z : no_nul s -> (0 < dest_len <= length dest)%nat ->
  str_cpy_max dest dest_len (s ++ 0 :: z) None =
    Ok (true, firstn (dest_len - 1) s ++ 0 :: skipn (Nat.min (length s) (dest_len - 1) + 1) dest).
Proof.
  intros Hs HL. unfold str_cpy_max. destruct (Nat.eqb_spec dest_len 0) as [E|_]; [lia|].
  rewrite strlen_ok by auto. cbn [bind]. set (n := Nat.min (length s) (dest_len - 1)).
  rewrite rdn_lt by llen. cbn [bind]. rewrite skipn_O.
  assert (Ef : firstn n (s ++ 0 :: z) = firstn (dest_len - 1) s).
  { rewrite firstn_app. replace (n - length s)%nat with 0%nat by lia. rewrite firstn_O, app_nil_r. unfold n.
    destruct (Nat.le_ge_cases (length s) (dest_len - 1)).
    - rewrite Nat.min_l by auto. rewrite !firstn_all2; auto.
    - now rewrite Nat.min_r. }
  rewrite Ef. assert (Lf : length (firstn (dest_len - 1) s) = n) by (rewrite firstn_length; lia).
  pose proof (wrn_wr_end dest 0 (firstn (dest_len - 1) s) 0) as W. rewrite Lf in W. cbn [Nat.add] in W.
  specialize (W ltac:(lia)).
  destruct (wrn dest 0 (firstn (dest_len - 1) s)) as [m| |]; cbn [bind] in *; try discriminate.
  rewrite W. reflexivity.
Qed.

(** Given length: the first [n] bytes are copied whatever they are. *)
Lemma str_cpy_max_ok dest dest_len s n : (n <= length s)%nat -> (0 < dest_len <= length dest)%nat ->
  str_cpy_max dest dest_len s (Some n) =
    Ok (true, firstn (Nat.min n (dest_len - 1)) s ++ 0 :: skipn (Nat.min n (dest_len - 1) + 1) dest).
Proof.
  intros Hs HL. unfold str_cpy_max. destruct (Nat.eqb_spec dest_len 0) as [E|_]; [lia|].
  cbn [bind]. set (k := Nat.min n (dest_len - 1)).
  rewrite rdn_lt by lia. cbn [bind]. rewrite skipn_O.
  assert (Lf : length (firstn k s) = k) by (rewrite firstn_length; lia).
  pose proof (wrn_wr_end dest 0 (firstn k s) 0) as W. rewrite Lf in W. cbn [Nat.add] in W.
  specialize (W ltac:(lia)).
  destruct (wrn dest 0 (firstn k s)) as [m| |]; cbn [bind] in *; try discriminate.
  rewrite W. reflexivity.
Qed.

Lemma delete_loop_ok drop rest : forall kept gap z,
  exists m, delete_loop drop (kept ++ gap ++ rest ++ z) (length (kept ++ gap)) (length kept) (length rest) =
    Ok (kept ++ filter (fun c => negb (drop c)) rest ++ m ++ z, length (kept ++ filter (fun c => negb (drop c)) rest)) /\
    length (kept ++ filter (fun c => negb (drop c)) rest ++ m ++ z) = length (kept ++ gap ++ rest ++ z).
Proof.
  induction rest as [|c rest IH]; intros kept gap z; cbn [delete_loop length filter app].
  - exists gap. rewrite app_nil_r. auto.
  - rewrite (app_assoc kept gap), rd_app_mid. cbn [bind].
    destruct (drop c) eqn:Ed; cbn [negb].
    + destruct (IH kept (gap ++ [c]) z) as (m & E & L). exists m. split.
      * rewrite <- E. rewrite <- !app_assoc. cbn [app]. f_equal. llen.
      * rewrite L. llen.
    + cbn [app]. destruct gap as [|g gap].
      * rewrite app_nil_r, wr_app_mid. cbn [bind].
        destruct (IH (kept ++ [c]) [] z) as (m & E & L). exists m.
        rewrite !app_nil_r in E. rewrite <- !app_assoc in E. cbn [app] in E.
        rewrite <- !app_assoc in L. cbn [app] in L. split; [|rewrite L; llen].
        rewrite app_length in E. cbn [length] in E. rewrite Nat.add_1_r in E. rewrite E. reflexivity.
      * rewrite <- app_assoc. cbn [app]. rewrite wr_app_mid. cbn [bind].
        destruct (IH (kept ++ [c]) (gap ++ [c]) z) as (m & E & L). exists m.
        rewrite <- !app_assoc in E. cbn [app] in E. rewrite <- !app_assoc in L. cbn [app] in L.
        split; [|rewrite L; llen]. rewrite <- E. f_equal; llen.
Qed.

Lemma str_delete_ok drop s z : no_nul s -> exists z', 
  str_delete drop (s ++ 0 :: z) = Ok (filter (fun c => negb (drop c)) s ++ 0 :: z') /\
  length (filter (fun c => negb (drop c)) s ++ 0 :: z') = length (s ++ 0 :: z).
Proof.
  intros Hs. unfold str_delete. rewrite strlen_ok by auto. cbn [bind].
  destruct (delete_loop_ok drop s [] [] (0 :: z)) as (m & E & L). cbn [app length] in *. rewrite E. cbn [bind].
  destruct m as [|y m]; cbn [app]; rewrite wr_app_mid.
  - exists z. auto.
  - exists (m ++ 0 :: z). split; auto. rewrite <- L. llen.
Qed.

Lemma map_loop_ok f s : forall pre z n, no_nul s ->
  map_loop f (pre ++ s ++ 0 :: z) (length pre) n = Ok (pre ++ map f (firstn n s) ++ skipn n s ++ 0 :: z).
Proof.
  induction s as [|c s IH]; intros pre z n Hn.
  - destruct n as [|n]; cbn [map_loop firstn map app skipn]; auto. rewrite rd_app_mid. cbn [bind]. reflexivity.
  - inversion Hn as [|? ? Hc Hn']; subst. destruct n as [|n]; cbn [map_loop firstn map app skipn]; auto.
    rewrite rd_app_mid. cbn [bind]. rewrite (proj2 (N.eqb_neq c 0)) by auto.
    rewrite wr_app_mid. cbn [bind]. specialize (IH (pre ++ [f c]) z n Hn').
    rewrite <- !app_assoc in IH. cbn [app] in IH. rewrite app_length in IH. cbn [length] in IH. rewrite Nat.add_1_r in IH.
    rewrite IH. reflexivity.
Qed.

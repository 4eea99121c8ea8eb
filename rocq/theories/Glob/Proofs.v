From Verif Require Import Base.Lib Base.Mem Glob.Model Glob.Spec.
Local Open Scope N_scope.

Lemma char_eq_iff nc x c : char_eq nc x c = true <-> same nc c x.
Proof. unfold char_eq, same. destruct nc; rewrite N.eqb_eq; split; intros; symmetry; auto. Qed.

Lemma neq_b (a b : N) : a <> b -> (a =? b) = false.
Proof. apply N.eqb_neq. Qed.

(** ** The closing bracket *)

Definition no_close (i : item) : Prop := match i with IChar c => c <> 92 /\ c <> 93 | IEsc c => c <> 92 /\ c <> 93
  | IRange lo hi => plain lo /\ plain hi end.

Lemma rc_plain c tl bang i : c <> 92 -> c <> 93 -> range_close (c :: tl) bang i false = range_close tl bang (S i) false.
Proof. intros H1 H2. cbn [range_close]. now rewrite !neq_b by auto. Qed.

Lemma rc_items items : Forall no_close items -> forall tl bang i,
  range_close (flat_map show_item items ++ tl) bang i false = range_close tl bang (i + length (flat_map show_item items)) false.
Proof.
  induction 1 as [|it items H F IH]; intros tl bang i; cbn [flat_map].
  - cbn. f_equal. lia.
  - rewrite <- app_assoc, app_length.
    assert (E : range_close (show_item it ++ flat_map show_item items ++ tl) bang i false =
                range_close (flat_map show_item items ++ tl) bang (i + length (show_item it)) false).
    { destruct it as [c|c|lo hi]; cbn [show_item app length].
      - destruct H. rewrite rc_plain by auto. f_equal. lia.
      - destruct H as [H1 H2]. cbn [range_close]. rewrite N.eqb_refl, !neq_b by auto. cbn [negb]. f_equal. lia.
      - destruct H as [(A1 & A2 & A3) (B1 & B2 & B3)]. rewrite !rc_plain by (auto; discriminate). f_equal. lia. }
    rewrite E, IH. f_equal. lia.
Qed.

Lemma wf_no_close nc i : wf_item nc i -> no_close i.
Proof.
  destruct i as [c|c|lo hi]; cbn; unfold plain.
  - tauto.
  - intros H. split; intros ->; destruct H as [|[|]]; discriminate.
  - tauto.
Qed.

Lemma rc_set nc neg items rest : wf_set nc neg items ->
  let body := (if neg then [33] else []) ++ flat_map show_item items in
  range_close (body ++ 93 :: rest) neg 0 false = Some (length body) /\
  (match body ++ 93 :: rest with c1 :: _ => c1 =? 33 | [] => false end) = neg.
Proof.
  intros (Hne & pre & mid & post & E & Hpre & Hpost & Fm & Hb) body.
  assert (Lb : (1 <= length (flat_map show_item items))%nat).
  { destruct items as [|i items]; [congruence|]. cbn. rewrite app_length. destruct i; cbn; lia. }
  assert (Fmp : Forall no_close (mid ++ post)).
  { apply Forall_app. split; [eapply Forall_impl; [|exact Fm]; apply wf_no_close|].
    destruct Hpost as [->| ->]; repeat constructor; discriminate. }
  assert (Epre : forall i, (i = 0 /\ neg = false \/ i = 1 /\ neg = true)%nat -> forall tl,
     range_close (flat_map show_item pre ++ tl) neg i false = range_close tl neg (i + length (flat_map show_item pre)) false).
  { intros i Hi tl. destruct Hpre as [->|[->| ->]]; cbn [flat_map show_item app length].
    - f_equal. lia.
    - cbn [range_close]. rewrite (neq_b 93 92), N.eqb_refl by discriminate.
      assert (negb ((i =? 0)%nat || ((i =? 1)%nat && neg)) = false) as ->.
      { destruct Hi as [[-> ->]|[-> ->]]; reflexivity. }
      cbn [andb]. f_equal. lia.
    - rewrite rc_plain by discriminate. f_equal. lia. }
  assert (Last : forall n, (1 + (if neg then 1 else 0) <= n)%nat -> range_close (93 :: rest) neg n false = Some n).
  { intros n Hn. cbn [range_close]. rewrite (neq_b 93 92), N.eqb_refl by discriminate.
    assert (negb ((n =? 0)%nat || ((n =? 1)%nat && neg)) = true) as ->; [|reflexivity].
    destruct (Nat.eqb_spec n 0); [lia|]. destruct (Nat.eqb_spec n 1), neg; auto; lia. }
  assert (All : forall i, (i = 0 /\ neg = false \/ i = 1 /\ neg = true)%nat ->
     range_close (flat_map show_item items ++ 93 :: rest) neg i false = Some (i + length (flat_map show_item items))%nat).
  { intros i Hi. rewrite E, flat_map_app, <- app_assoc, Epre, rc_items by auto. rewrite Last.
    - f_equal. rewrite app_length. lia.
    - rewrite E, flat_map_app, app_length in Lb. destruct Hi as [[-> ->]|[-> ->]]; lia. }
  unfold body. destruct neg.
  - cbn [app length]. rewrite rc_plain by discriminate. rewrite All by auto. split; reflexivity.
  - cbn [app]. rewrite All by auto. split; auto. specialize (Hb eq_refl).
    destruct (flat_map show_item items) as [|c r] eqn:Ef; [cbn in Lb; lia|]. cbn [app].
    apply N.eqb_neq. intros ->. eapply Hb; eauto.
Qed.

(** ** Membership *)

Lemma rd_next (d : list N) x y t : rd (d ++ x :: y :: t) (S (length d)) = Ok y.
Proof. replace (d ++ x :: y :: t) with ((d ++ [x]) ++ y :: t) by (rewrite <- app_assoc; reflexivity). apply rd_mid. llen. Qed.

Lemma plain_step nc c x d tl rb n : plain c ->
  set_loop nc (d ++ c :: tl) x (length d) rb (S n) =
  if char_eq nc x c then Ok SHit else set_loop nc (d ++ c :: tl) x (S (length d)) rb n.
Proof.
  intros (H1 & H2 & H3). cbn [set_loop]. rewrite rd_app_mid. cbn [bind]. now rewrite !neq_b by auto.
Qed.

Lemma sc_ascii c : c < 128 -> sc c = Z.of_N c.
Proof. intros H. unfold sc. now rewrite (proj2 (N.ltb_lt c 128)). Qed.

(** One item: a hit iff the item has [x]. *)
Lemma item_step nc it x d tl n : x < 256 -> wf_item nc it ->
  (exists h, set_loop nc (d ++ show_item it ++ tl) x (length d) (length (d ++ show_item it) + n) (length (show_item it) + n) =
    (if h : bool then Ok SHit
     else set_loop nc (d ++ show_item it ++ tl) x (length (d ++ show_item it)) (length (d ++ show_item it) + n) n) /\
   (h = true <-> member nc x it)).
Proof.
  intros Hx. destruct it as [c|c|lo hi]; cbn [wf_item show_item app length member].
  - intros Hp. exists (char_eq nc x c). split; [|apply char_eq_iff].
    cbn [Nat.add]. rewrite plain_step by auto. destruct (char_eq nc x c); auto. f_equal. llen.
  - intros Hc. exists (x =? c). split; [|rewrite N.eqb_eq; split; auto].
    cbn [Nat.add]. cbn [set_loop]. rewrite rd_app_mid, rd_next. cbn [bind].
    rewrite N.eqb_refl. assert (is_esc c = true) as -> by (destruct Hc as [->|[->| ->]]; reflexivity).
    destruct (x =? c) eqn:Exc; auto. 
    assert (Hp : plain c) by (unfold plain; destruct Hc as [->|[->| ->]]; repeat split; discriminate).
    destruct Hp as (P1 & P2 & P3). rewrite !neq_b by auto.
    assert (char_eq nc x c = false) as ->.
    { apply not_true_iff_false. rewrite char_eq_iff. apply N.eqb_neq in Exc. unfold same, lower. destruct nc; [|congruence].
      destruct Hc as [->|[->| ->]]; destruct (N.leb_spec 65 x), (N.leb_spec x 90); cbn; lia. }
    f_equal. llen.
  - intros (-> & Hl & Hh & Hlh & Hh128).
    set (h1 := char_eq false x lo). set (h3 := char_eq false x hi).
    set (h2 := (sc lo <? sc x)%Z && (sc x <? sc hi)%Z).
    exists (h1 || h2 || h3). split.
    + cbn [Nat.add]. rewrite plain_step by auto. fold h1. destruct h1; cbn [orb]; auto.
      cbn [set_loop]. rewrite rd_next. cbn [bind].
      assert (E92 : (45 =? 92) = false) by reflexivity. rewrite E92, N.eqb_refl.
      assert (((S (length d) =? 0)%nat || (S (length d) =? length (d ++ [lo; 45%N; hi]) + n - 1)%nat) = false) as ->.
      { apply orb_false_iff. split; [reflexivity|]. apply Nat.eqb_neq. rewrite app_length. cbn [length]. lia. }
      replace (S (length d) - 1)%nat with (length d) by lia. rewrite rd_app_mid. cbn [bind].
      assert (R : rd (d ++ lo :: 45 :: hi :: tl) (S (S (length d))) = Ok hi).
      { replace (d ++ lo :: 45 :: hi :: tl) with ((d ++ [lo; 45]) ++ hi :: tl) by (rewrite <- app_assoc; reflexivity).
        apply rd_mid. llen. }
      rewrite R. cbn [bind]. fold h2. destruct h2; cbn [orb]; auto.
      destruct Hh as (P1 & P2 & P3). rewrite !neq_b by auto. fold h3.
      destruct h3; auto. f_equal. llen.
    + unfold h1, h2, h3, char_eq. rewrite !orb_true_iff, !N.eqb_eq, andb_true_iff, !Z.ltb_lt.
      rewrite (sc_ascii lo), (sc_ascii hi) by lia. unfold sc. destruct (N.ltb_spec x 128); lia.
Qed.

Lemma items_ok nc x items : x < 256 -> Forall (wf_item nc) items -> forall d tl n,
  exists h, set_loop nc (d ++ flat_map show_item items ++ tl) x (length d)
     (length (d ++ flat_map show_item items) + n) (length (flat_map show_item items) + n) =
    (if h : bool then Ok SHit else set_loop nc (d ++ flat_map show_item items ++ tl) x (length (d ++ flat_map show_item items))
      (length (d ++ flat_map show_item items) + n) n) /\
   (h = true <-> Exists (member nc x) items).
Proof.
  intros Hx. induction 1 as [|it items H F IH]; intros d tl n; cbn [flat_map].
  - exists false. cbn [app length Nat.add]. rewrite app_nil_r. split; auto. split; [discriminate|]. intros E; inversion E.
  - destruct (item_step nc it x d (flat_map show_item items ++ tl) (length (flat_map show_item items) + n) Hx H) as (h1 & E1 & M1).
    destruct (IH (d ++ show_item it) tl n) as (h2 & E2 & M2).
    exists (h1 || h2). split.
    + rewrite <- !app_assoc in *.
      replace (length (d ++ show_item it ++ flat_map show_item items) + n)%nat
        with (length (d ++ show_item it) + (length (flat_map show_item items) + n))%nat by llen.
      replace (length (show_item it ++ flat_map show_item items) + n)%nat
        with (length (show_item it) + (length (flat_map show_item items) + n))%nat by llen.
      rewrite E1. destruct h1; cbn [orb]; auto.
      replace (length (d ++ show_item it) + (length (flat_map show_item items) + n))%nat
        with (length (d ++ show_item it ++ flat_map show_item items) + n)%nat by llen.
      rewrite E2. reflexivity.
    + rewrite orb_true_iff, M1, M2, Exists_cons. reflexivity.
Qed.

Lemma lower93 x : lower 93 = lower x <-> 93 = x.
Proof. unfold lower. cbn. destruct (N.leb_spec 65 x), (N.leb_spec x 90); cbn; lia. Qed.
Lemma lower45 x : lower 45 = lower x <-> 45 = x.
Proof. unfold lower. cbn. destruct (N.leb_spec 65 x), (N.leb_spec x 90); cbn; lia. Qed.

(** The whole set. *)
Lemma set_ok nc neg items x rest : x < 256 -> wf_set nc neg items ->
  let rb := length (flat_map show_item items) in
  exists h, set_loop nc (flat_map show_item items ++ 93 :: rest) x 0 rb rb = Ok (if h : bool then SHit else SMiss) /\
    (h = true <-> Exists (member nc x) items).
Proof.
  intros Hx (Hne & pre & mid & post & E & Hpre & Hpost & Fm & _) rb.
  set (P := flat_map show_item pre). set (M := flat_map show_item mid). set (Q := flat_map show_item post).
  assert (EB : flat_map show_item items = P ++ M ++ Q) by (rewrite E, !flat_map_app; reflexivity).
  assert (Erb : rb = length (P ++ M ++ Q)) by (unfold rb; now rewrite EB).
  rewrite EB.
  (* the last *)
  assert (S3 : exists h3, set_loop nc ((P ++ M ++ Q) ++ 93 :: rest) x (length (P ++ M)) rb (length Q) = Ok (if h3 : bool then SHit else SMiss) /\
     (h3 = true <-> Exists (member nc x) post)).
  { destruct Hpost as [->| ->].
    - exists false. cbn. split; auto. split; [discriminate|]. intros X; inversion X.
    - exists (x =? 45). subst Q. cbn [flat_map show_item app length set_loop].
      replace ((P ++ M ++ [45]) ++ 93 :: rest) with ((P ++ M) ++ 45 :: 93 :: rest) by (rewrite <- !app_assoc; reflexivity).
      rewrite rd_app_mid. cbn [bind]. assert ((45 =? 92) = false) as -> by reflexivity. rewrite N.eqb_refl.
      assert ((length (P ++ M) =? rb - 1)%nat = true) as ->.
      { apply Nat.eqb_eq. rewrite Erb. cbn [flat_map show_item app]. llen. }
      rewrite orb_true_r. split; [destruct (x =? 45); reflexivity|].
      rewrite N.eqb_eq, Exists_cons. cbn [member]. unfold same. destruct nc; rewrite ?lower45; split; auto; 
        intros [|X]; auto; inversion X. }
  destruct S3 as (h3 & S3 & M3).
  assert (S2 : exists h2, set_loop nc ((P ++ M ++ Q) ++ 93 :: rest) x (length P) rb (length M + length Q) = Ok (if h2 : bool then SHit else SMiss) /\
     (h2 = true <-> Exists (member nc x) (mid ++ post))).
  { destruct (items_ok nc x mid Hx Fm P (Q ++ 93 :: rest) (length Q)) as (h2 & S2 & M2). fold M in S2.
    exists (h2 || h3). split.
    - replace ((P ++ M ++ Q) ++ 93 :: rest) with (P ++ M ++ Q ++ 93 :: rest) in * by (rewrite <- !app_assoc; reflexivity).
      replace (length (P ++ M) + length Q)%nat with rb in S2 by (rewrite Erb; llen).
      rewrite S2. destruct h2; cbn [orb]; auto.
    - rewrite orb_true_iff, M2, M3, Exists_app. reflexivity. }
  destruct S2 as (h2 & S2 & M2).
  assert (Lrb : rb = (length P + (length M + length Q))%nat) by (rewrite Erb; llen).
  destruct Hpre as [->|[->| ->]].
  - exists h2. rewrite E. cbn [app]. subst P. cbn [flat_map app length] in *. rewrite Lrb at 2. cbn [Nat.add]. split; auto.
  - exists ((x =? 93) || h2). rewrite E. cbn [app]. subst P. cbn [flat_map show_item app length] in *. split.
    + rewrite Lrb at 2. cbn [Nat.add set_loop rd nth_error bind].
      assert ((93 =? 92) = false) as -> by reflexivity. assert ((93 =? 45) = false) as -> by reflexivity.
      rewrite N.eqb_refl. cbn [Nat.eqb]. destruct (x =? 93); auto.
    + rewrite orb_true_iff, M2, N.eqb_eq, Exists_cons. cbn [member]. unfold same. destruct nc; rewrite ?lower93; split; intros [|]; auto.
  - exists ((x =? 45) || h2). rewrite E. cbn [app]. subst P. cbn [flat_map show_item app length] in *. split.
    + rewrite Lrb at 2. cbn [Nat.add set_loop rd nth_error bind].
      assert ((45 =? 92) = false) as -> by reflexivity.
      rewrite N.eqb_refl. cbn [Nat.eqb orb]. destruct (x =? 45); auto.
    + rewrite orb_true_iff, M2, N.eqb_eq, Exists_cons. cbn [member]. unfold same. destruct nc; rewrite ?lower45; split; intros [|]; auto.
Qed.

(** ** The matcher *)

Definition star_loop (f : nat) (nc : bool) (p' : list N) : list N -> res bool :=
  fix star (s : list N) : res bool :=
     do b <- pm f nc p' s;
     if b : bool then Ok true else match s with [] => Ok false | _ :: s' => star s' end.

Lemma star_ok f nc p' (L : list N -> Prop) s :
  Forall (fun c => c < 256) s ->
  (forall s, Forall (fun c => c < 256) s -> exists b, pm f nc p' s = Ok b /\ (b = true <-> L s)) ->
  exists b, star_loop f nc p' s = Ok b /\ (b = true <-> exists s1 s2, s = s1 ++ s2 /\ L s2).
Proof.
  intros Hs H. induction Hs as [|x s Hx Hs IH].
  - destruct (H []) as (b & E & I); auto. exists b. cbn [star_loop]. rewrite E. cbn [bind]. destruct b.
    + split; auto. split; auto. intros _. exists [], []. split; auto. now apply I.
    + split; auto. split; [discriminate|]. intros (s1 & s2 & E2 & L2).
      symmetry in E2. apply app_eq_nil in E2. destruct E2 as [-> ->]. now apply I.
  - destruct (H (x :: s)) as (b & E & I); [constructor; auto|]. destruct IH as (b' & E' & I').
    cbn [star_loop]. rewrite E. cbn [bind]. destruct b.
    + exists true. split; auto. split; auto. intros _. exists [], (x :: s). split; auto. now apply I.
    + exists b'. split; auto. rewrite I'. split.
      * intros (s1 & s2 & -> & L2). exists (x :: s1), s2. auto.
      * intros (s1 & s2 & E2 & L2). destruct s1 as [|y s1].
        -- cbn in E2. subst s2. apply I in L2. discriminate.
        -- cbn in E2. injection E2 as -> ->. eauto.
Qed.

Lemma pm_star f nc p' s : p' <> [] -> pm (S f) nc (42 :: p') s = star_loop f nc p' s.
Proof. intros H. destruct p' as [|c p']; [congruence|]. reflexivity. Qed.

Lemma pm_ok nc ts : Forall (wf_tok nc) ts -> forall fuel s, (length (show ts) < fuel)%nat -> Forall (fun c => c < 256) s ->
  exists b, pm fuel nc (show ts) s = Ok b /\ (b = true <-> lang nc ts s).
Proof.
  induction 1 as [|t ts Ht F IH]; intros fuel s Hf Hs; (destruct fuel as [|fuel]; [lia|]).
  - cbn. destruct s; eexists; (split; [reflexivity|]); split; intros X; try discriminate; try constructor; inversion X.
  - assert (Hf' : forall k, (length (show_tok t) = S k -> length (show ts) < fuel)%nat).
    { intros k E. unfold show in *. cbn [flat_map] in Hf. rewrite app_length in Hf. lia. }
    unfold show in *. cbn [flat_map]. fold (show ts) in *. destruct t as [c|c| | |neg items]; cbn [show_tok app] in *.
    + destruct Ht as (H1 & H2 & H3 & H4 & H5). cbn [pm]. rewrite !neq_b by auto.
      destruct s as [|x s]; [exists false; split; auto; split; [discriminate|intros X; inversion X]|].
      destruct (char_eq nc x c) eqn:E.
      * inversion Hs; subst. destruct (IH fuel s) as (b & Eb & Ib); auto; [now apply (Hf' 0%nat)|].
        exists b. split; auto. rewrite Ib. apply char_eq_iff in E. split; [now constructor|]. intros X; now inversion X.
      * exists false. split; auto. split; [discriminate|]. intros X; inversion X; subst.
        assert (char_eq nc x c = true) by now apply char_eq_iff. congruence.
    + cbn [pm]. rewrite N.eqb_refl.
      assert (is_esc c = true) as -> by (destruct Ht as [->|[->|[->|[->| ->]]]]; reflexivity).
      destruct s as [|x s]; [exists false; split; auto; split; [discriminate|intros X; inversion X]|].
      destruct (N.eqb_spec x c) as [->|E].
      * inversion Hs; subst. destruct (IH fuel s) as (b & Eb & Ib); auto; [now apply (Hf' 1%nat)|].
        exists b. split; auto. rewrite Ib. split; [now constructor|]. intros X; now inversion X.
      * exists false. split; auto. split; [discriminate|]. intros X; inversion X; subst. congruence.
    + cbn [pm]. rewrite !neq_b by discriminate. rewrite N.eqb_refl.
      destruct s as [|x s]; [exists false; split; auto; split; [discriminate|intros X; inversion X]|].
      inversion Hs; subst. destruct (IH fuel s) as (b & Eb & Ib); auto; [now apply (Hf' 0%nat)|].
      exists b. split; auto. rewrite Ib. split; [now constructor|]. intros X; now inversion X.
    + assert (SL : exists b, pm (S fuel) nc (42 :: show ts) s = Ok b /\ (b = true <-> exists s1 s2, s = s1 ++ s2 /\ lang nc ts s2)).
      { destruct (list_eq_dec N.eq_dec (show ts) []) as [E|E].
        - rewrite E. exists true. split; auto. split; auto. intros _. exists s, []. rewrite app_nil_r. split; auto.
          assert (ts = []) as ->; [|constructor]. destruct ts as [|t ts]; auto. unfold show in E. cbn in E.
          apply app_eq_nil in E. destruct E as [E _]. destruct t; try discriminate.
        - rewrite pm_star by auto. apply star_ok; auto. intros s' Hs'. apply IH; auto. now apply (Hf' 0%nat). }
      destruct SL as (b & Eb & Ib). exists b. split; auto. rewrite Ib. split.
      * intros (s1 & s2 & -> & L). now constructor.
      * intros X; inversion X; subst. eauto.
    + cbn [pm]. rewrite (neq_b 91 92) by discriminate. rewrite N.eqb_refl.
      destruct s as [|x s]; [exists false; split; auto; split; [discriminate|intros X; inversion X]|].
      rewrite <- app_assoc, <- app_assoc. cbn [app].
      inversion Hs as [|? ? Hx Hs']; subst. cbn [wf_tok] in Ht.
      destruct (rc_set nc neg items (show ts) Ht) as (RC & BG). cbn zeta in RC, BG.
      set (body := (if neg then [33] else []) ++ flat_map show_item items) in *.
      assert (EB : (if neg then [33] else []) ++ flat_map show_item items ++ 93 :: show ts = body ++ 93 :: show ts)
        by (unfold body; now rewrite <- app_assoc).
      rewrite EB. rewrite BG, RC.
      assert (Q1 : (if neg then skipn 1 (body ++ 93 :: show ts) else body ++ 93 :: show ts) = flat_map show_item items ++ 93 :: show ts).
      { rewrite <- EB. destruct neg; reflexivity. }
      assert (Q2 : (if neg then (length body - 1)%nat else length body) = length (flat_map show_item items)).
      { unfold body. destruct neg; cbn [app length]; lia. }
      rewrite Q1, Q2.
      destruct (set_ok nc neg items x (show ts) Hx Ht) as (h & SE & SI). rewrite SE. cbn [bind].
      assert (SK : skipn (length (flat_map show_item items) + 1) (flat_map show_item items ++ 93 :: show ts) = show ts).
      { replace (flat_map show_item items ++ 93 :: show ts) with ((flat_map show_item items ++ [93]) ++ show ts) by (rewrite <- app_assoc; reflexivity).
        rewrite skipn_app, skipn_all2 by llen. cbn [app]. rewrite app_length. cbn [length].
        rewrite Nat.sub_diag. reflexivity. }
      rewrite SK. destruct (IH fuel s) as (b & Eb & Ib); auto.
      { cbn [flat_map show_tok app length] in Hf. repeat (rewrite ?app_length in Hf; cbn [length] in Hf). fold (show ts) in Hf. lia. }
      destruct h, neg.
      * exists false. split; auto. split; [discriminate|]. intros X; inversion X; subst. elim H2. now apply SI.
      * exists b. split; auto. rewrite Ib. split; [intros; constructor; auto; now apply SI|]. intros X; now inversion X.
      * exists b. split; auto. rewrite Ib. split.
        -- intros; constructor; auto. intros Q. apply SI in Q. discriminate.
        -- intros X; now inversion X.
      * exists false. split; auto. split; [discriminate|]. intros X; inversion X; subst. apply SI in H2. discriminate.
Qed.

(** ** Every pattern: the matcher terminates in bounds *)

Lemma range_close_lt pat : forall bang i e k, range_close pat bang i e = Some k -> (i <= k < i + length pat)%nat /\ k <> 0%nat.
Proof.
  induction pat as [|c pat IH]; intros bang i e k; cbn [range_close length]; [discriminate|].
  destruct (c =? 92); [intros H; apply IH in H; lia|].
  destruct (c =? 93); [|intros H; apply IH in H; lia].
  destruct (negb _ && negb e) eqn:E; [|intros H; apply IH in H; lia].
  intros H. injection H as <-. split; [lia|]. intros ->. discriminate.
Qed.

Lemma set_loop_total nc q x rb : (rb < length q)%nat -> forall n i, (i + n = rb)%nat -> exists r, set_loop nc q x i rb n = Ok r.
Proof.
  intros Hrb. induction n as [|n IH]; intros i Hi; cbn [set_loop]; [eauto|].
  destruct (@rd_lt _ q i) as (c2 & ->); [lia|]. cbn [bind].
  destruct (@rd_lt _ q (S i)) as (c3 & ->); [lia|]. cbn [bind].
  destruct (IH (S i) ltac:(lia)) as (r & Er).
  destruct (c2 =? 92). { destruct (is_esc c3); eauto. destruct (x =? c3); eauto. }
  destruct (c2 =? 45).
  { destruct ((i =? 0)%nat || (i =? rb - 1)%nat); [destruct (x =? 45); eauto|].
    destruct (@rd_lt _ q (i - 1)) as (a & ->); [lia|]. cbn [bind]. destruct ((_ <? _)%Z && _); eauto. }
  destruct (c2 =? 93). { destruct (i =? 0)%nat; eauto. destruct (x =? c2); eauto. }
  destruct (char_eq nc x c2); eauto.
Qed.

Lemma pm_total nc fuel : forall p s, (length p < fuel)%nat -> exists b, pm fuel nc p s = Ok b.
Proof.
  induction fuel as [|f IH]; intros p s Hf; [lia|]. destruct p as [|c p']; [eexists; reflexivity|]. cbn [length] in Hf.
  destruct (N.eq_dec c 42) as [->|N42].
  { destruct p' as [|c1 p1]; [eexists; reflexivity|]. rewrite pm_star by discriminate. 
    induction s as [|x s IHs]; cbn [star_loop].
    - destruct (IH (c1 :: p1) []) as ([|] & ->); [cbn in *; lia| |]; eexists; reflexivity.
    - destruct (IH (c1 :: p1) (x :: s)) as ([|] & ->); [cbn in *; lia| |]; cbn [bind]; eauto. }
  cbn [pm].
  destruct (c =? 92).
  { destruct p' as [|c2 p2]; eauto. destruct (is_esc c2); eauto. destruct s as [|x s]; eauto.
    destruct (x =? c2); eauto. apply IH. cbn in Hf. lia. }
  destruct (c =? 91).
  { destruct s as [|x s]; eauto. set (bang := match p' with c1 :: _ => c1 =? 33 | [] => false end).
    destruct (range_close p' bang 0 false) as [k|] eqn:E; eauto. apply range_close_lt in E.
    set (q := if bang then skipn 1 p' else p'). set (rb := if bang then (k - 1)%nat else k).
    assert (Lq : (rb < length q)%nat).
    { unfold rb, q. destruct bang; [rewrite skipn_length; lia|lia]. }
    assert (Lq2 : (length q <= length p')%nat).
    { unfold q. destruct bang; [rewrite skipn_length|]; lia. }
    destruct (set_loop_total nc q x rb Lq rb 0%nat eq_refl) as (r & ->). cbn [bind].
    assert (IHq : exists b, pm f nc (skipn (rb + 1) q) s = Ok b) by (apply IH; rewrite skipn_length; lia).
    destruct r, bang; eauto. }
  destruct (c =? 93); eauto.
  destruct (c =? 63). { destruct s; eauto. apply IH. lia. }
  rewrite (neq_b c 42) by auto.
  destruct s; eauto. destruct (char_eq nc n c); eauto. apply IH. lia.
Qed.

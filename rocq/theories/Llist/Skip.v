From Verif Require Import Base.Lib Sort.Spec Sort.Binary Llist.Spec Llist.Model Llist.Proofs Llist.Sorted.

(** Sorted lists: the nodes of every level are linked, in the order of the list. *)
Record Reps (cmp : N -> N -> Z) (d : ll) (l : list entry) : Prop := mkrs {
  r_view : View d l;
  r_hd : 1 <= length (hd d);
  r_hgt : forall x, In x (ids l) -> 1 <= hgt (hp d) x <= length (hd d);
  r_lv : forall j, j < length (hd d) -> seg (hp d) j None (lv (hgt (hp d)) j (ids l)) None /\
                                    nth_error (hd d) j = Some (nxt_of (lv (hgt (hp d)) j (ids l)) None);
  r_sorted : sorted cmp (vals l) }.

Lemma gv_in d l x v : View d l -> In (x, v) l -> gv (hp d) x = v.
Proof. intros V H. unfold gv. now rewrite (v_val _ _ V _ _ H). Qed.
Lemma map_gv d l : View d l -> map (gv (hp d)) (ids l) = vals l.
Proof.
  intro V. unfold ids, vals. rewrite map_map. apply map_ext_in. intros [x v] H. cbn. eapply gv_in; eauto.
Qed.
Lemma sorted_mid cmp (a : list N) v b : sorted cmp (a ++ b) -> (forall x, In x a -> (cmp x v <= 0)%Z) ->
  (forall x, In x b -> (cmp v x <= 0)%Z) -> sorted cmp (a ++ v :: b).
Proof.
  unfold sorted. induction a as [|x a IH]; cbn; intros Hs Ha Hb.
  - constructor; auto. apply Forall_forall. auto.
  - apply StronglySorted_inv in Hs as [H1 H2]. constructor; auto. rewrite Forall_forall in *. intros y Hy.
    rewrite in_app_iff in Hy. cbn in Hy. destruct Hy as [Hy|[<-|Hy]]; auto; apply H2; apply in_or_app; auto.
Qed.
Lemma sorted_del cmp (a : list N) v b : sorted cmp (a ++ v :: b) -> sorted cmp (a ++ b).
Proof.
  unfold sorted. induction a as [|x a IH]; cbn; intro Hs; apply StronglySorted_inv in Hs as [H1 H2]; auto.
  constructor; auto. rewrite Forall_forall in *. intros y Hy. apply H2. rewrite in_app_iff in *. cbn. tauto.
Qed.
Lemma app_same_len {A} (a b a' b' : list A) : length a = length a' -> a ++ b = a' ++ b' -> a = a' /\ b = b'.
Proof.
  revert a'; induction a as [|x a IH]; intros [|y a'] L E; try discriminate; auto.
  injection E as -> E. injection L as L. destruct (IH a' L E) as [-> ->]. auto.
Qed.
Lemma split_ids (l : list entry) a b : ids l = a ++ b -> exists la lb, l = la ++ lb /\ ids la = a /\ ids lb = b.
Proof.
  revert a; induction l as [|x l IH]; intros a H.
  - destruct a; [|discriminate]. exists [], []. auto.
  - destruct a as [|y a]; [exists [], (x :: l); auto|]. injection H as H1 H2.
    destruct (IH a H2) as (la & lb & -> & E1 & E2). exists (x :: la), lb. unfold ids in *. cbn. split; [auto|split; [congruence|auto]].
Qed.

Lemma nth_firstn {A} (l : list A) : forall k j, j < k -> nth_error (firstn k l) j = nth_error l j.
Proof.
  induction l as [|x l IH]; intros [|k] j H; try lia; cbn; [destruct j; reflexivity|].
  destruct j as [|j]; cbn; auto. apply IH. lia.
Qed.

Section Skip.
Context (cmp : N -> N -> Z) (Hp : total_preorder cmp) (c : cfg) (Hs : srt c = true) (lev : nat -> nat).

Lemma create_s : Reps cmp (create c) [].
Proof.
  unfold create. rewrite Hs. constructor; cbn [hp hd length repeat]; try lia.
  - constructor; cbn; auto; [constructor|intro x; unfold VL; destruct x; cbn; intuition congruence|intros x v []].
  - intros x [].
  - intros j Hj. split; [exact I|]. change (lv _ _ (ids [])) with (@nil nat). cbn.
    destruct j as [|[|[|[|j]]]]; auto; lia.
  - constructor.
Qed.

Lemma insert_s d l n v d' : Reps cmp d l -> node_create c d v = (d', n) ->
  exists d'' a b, insert_sorted cmp lev d' n = Ok d'' /\ l = a ++ b /\ Reps cmp d'' (a ++ (n, v) :: b) /\
    n = length (hp d) /\ fr d'' = fr d /\ length (hp d'') = S (length (hp d)).
Proof.
  intros [V H1 Hh Hl So] E. unfold node_create in E. rewrite Hs in E. injection E as <- <-.
  set (n := length (hp d)). unfold insert_sorted. cbv zeta.
  match goal with |- context [calc_level lev ?x n] => remember (calc_level lev x n) as nl eqn:Enl end. cbn [hp hd tl cnt fr set_hp].
  assert (Hnl : 0 < nl <= S (length (hd d))).
  { subst nl. unfold calc_level, max_level. cbn [hd cnt set_hp]. destruct (Nat.leb_spec (S (cnt d)) 16) as [F|F]; [lia|].
    assert (1 <= Nat.log2_up (S (cnt d))); [|lia]. change 1 with (Nat.log2_up 2). apply Nat.log2_up_le_mono. lia. }
  clear Enl. unfold get. rewrite nth_error_app2 by (unfold n; lia). unfold n at 1. rewrite Nat.sub_diag. cbn [nth_error bind nval].
  remember (if length (hd d) <? nl then hd d ++ repeat None (nl - length (hd d)) else hd d) as hds eqn:Ehds.
  assert (Lh : length hds = Nat.max nl (length (hd d))).
  { subst hds. destruct (Nat.ltb_spec (length (hd d)) nl); rewrite ?app_length, ?repeat_length; lia. }
  assert (Nh : forall j, j < length hds -> nth_error hds j = if j <? length (hd d) then nth_error (hd d) j else Some None).
  { intros j Hj. rewrite Lh in Hj. subst hds. destruct (Nat.ltb_spec (length (hd d)) nl).
    - destruct (Nat.ltb_spec j (length (hd d))); [now rewrite nth_error_app1|].
      rewrite nth_error_app2 by lia. apply nth_error_repeat. lia.
    - destruct (Nat.ltb_spec j (length (hd d))); auto. lia. }
  clear Ehds.
  match goal with |- context [upd ?x n ?y] => remember (upd x n y) as h eqn:Eh end.
  assert (Gh : forall x, nth_error h x = if x =? n then Some (Some (mkn v (repeat None nl) (repeat None nl))) else nth_error (hp d) x).
  { intro x. rewrite Eh, nth_error_upd, app_length. cbn [length]. fold n.
    destruct (Nat.eqb_spec x n) as [->|Hx]; cbn [andb].
    - rewrite (proj2 (Nat.ltb_lt n (n + 1))) by lia. reflexivity.
    - destruct (Nat.lt_ge_cases x n); [now rewrite nth_error_app1|].
      rewrite nth_error_app2 by (unfold n in *; lia). rewrite (proj2 (nth_error_None (hp d) x)) by (unfold n in *; lia).
      destruct (x - length (hp d)) as [|[|k]] eqn:Ek; auto. unfold n in *. lia. }
  assert (Lhp : length h = S n) by (rewrite Eh, length_upd, app_length; cbn; unfold n; lia).
  clear Eh.
  pose proof (v_fresh _ _ V) as Hfr. fold n in Hfr.
  assert (Vo : forall x, x <> n -> VL h x = VL (hp d) x) by (intros x Hx; unfold VL; rewrite Gh, (proj2 (Nat.eqb_neq x n) Hx); auto).
  assert (Vn : VL h n = Some v) by (unfold VL; rewrite Gh, Nat.eqb_refl; auto).
  assert (No : forall i x, x <> n -> NX h i x = NX (hp d) i x) by (intros i x Hx; unfold NX; rewrite Gh, (proj2 (Nat.eqb_neq x n) Hx); auto).
  assert (Po : forall i x, x <> n -> PV h i x = PV (hp d) i x) by (intros i x Hx; unfold PV; rewrite Gh, (proj2 (Nat.eqb_neq x n) Hx); auto).
  assert (Ho : forall x, x <> n -> hgt h x = hgt (hp d) x) by (intros x Hx; unfold hgt; rewrite Gh, (proj2 (Nat.eqb_neq x n) Hx); auto).
  assert (Hn : hgt h n = nl) by (unfold hgt; rewrite Gh, Nat.eqb_refl; cbn [nnext]; apply repeat_length).
  assert (Hno : forall x, In x (ids l) -> x <> n) by (intros x Hx ->; contradiction).
  assert (Hlv : forall j, lv (hgt h) j (ids l) = lv (hgt (hp d)) j (ids l)) by (intro j; apply lv_ext; auto).
  assert (Hgv : map (gv h) (ids l) = vals l).
  { rewrite <- (map_gv _ _ V). apply map_ext_in. intros x Hx. unfold gv. rewrite Vo; auto. }
  destruct (ins_ok cmp Hp (hgt h) (ids l) n v nl) with (i := length hds) (d := mkd h hds (tl d) (cnt d) (fr d)) (a := @nil nat) (b := ids l)
    as (d' & u & b' & Er & Eb & _ & Hle & Hge & S1 & S2 & S3 & S4 & S5 & S6 & S7 & S8 & S9 & Lv & Tl);
    cbn [hp hd tl cnt fr] in *; auto.
  { apply (v_nd _ _ V). } { intros x Hx. rewrite Ho by auto. specialize (Hh x Hx). lia. } { lia. }
  { unfold ord. rewrite Hgv. exact So. }
  { intros x Hx. rewrite Vo by auto. now apply (v_alive _ _ V). }
  { pose proof (v_len _ _ V). unfold ids. rewrite map_length. unfold n in *. lia. }
  { intros j Hj. rewrite Nh, Hlv by exact Hj. destruct (Nat.ltb_spec j (length (hd d))) as [F|F].
    - destruct (Hl j F) as [A B]. split; auto. eapply seg_frame; [exact A|]. intros x Hx. apply lv_in in Hx. destruct Hx as [Hx _].
      rewrite No, Po by auto. auto.
    - rewrite lv_none; [split; [exact I|reflexivity]|]. intros x Hx. specialize (Hh x Hx). lia. }
  { intros j Hj. unfold NX, PV. rewrite Gh, Nat.eqb_refl. cbn [nnext nprev]. rewrite nth_error_repeat by lia. eauto. }
  { split; [reflexivity|]. split; [intros x F; discriminate|]. intros z Hz F. rewrite Ho in F by auto. specialize (Hh z Hz). lia. }
  cbn [app lst_of] in *. rewrite Er. cbn [bind]. destruct (split_ids _ _ _ Eb) as (la & lb & El & Ea & Elb).
  exists (mkd (hp d') (hd d') (tl d') (S (cnt d')) (fr d')), la, lb. split; [reflexivity|]. split; [exact El|].
  split; [|split; [reflexivity|split; [auto|cbn [hp]; lia]]].
  assert (Hpos : 0 < length hds) by lia.
  assert (Lv' : forall j, j < length hds -> seg (hp d') j None (lv (hgt (hp d')) j (ids (la ++ (n, v) :: lb))) None /\
     nth_error (hd d') j = Some (nxt_of (lv (hgt (hp d')) j (ids (la ++ (n, v) :: lb))) None)).
  { intros j Hj. replace (lv (hgt (hp d')) j (ids (la ++ (n, v) :: lb))) with
      (if j <? nl then lv (hgt h) j u ++ n :: lv (hgt h) j b' else lv (hgt h) j (ids l)).
    - destruct (Lv j Hj) as (l' & -> & A & B). auto.
    - rewrite (lv_ext (hgt (hp d')) (hgt h)) by auto. rewrite ids_app, lv_app. cbn [ids map fst]. fold (ids lb). rewrite lv_cons, Hn, Ea, Elb.
      destruct (j <? nl); auto. rewrite Eb, lv_app. reflexivity. }
  assert (Hall : forall x, In x (ids (la ++ (n, v) :: lb)) <-> x = n \/ In x (ids l)).
  { intro x. rewrite El, !ids_app. cbn. rewrite !in_app_iff. cbn. intuition congruence. }
  assert (H0 : lv (hgt (hp d')) 0 (ids (la ++ (n, v) :: lb)) = ids (la ++ (n, v) :: lb)).
  { apply lv_all. intros x Hx. apply Hall in Hx. rewrite S4. destruct Hx as [->|Hx]; [lia|]. rewrite Ho by auto. specialize (Hh x Hx). lia. }
  constructor; cbn [hp hd tl cnt fr]; auto.
  - constructor; cbn [hp hd tl cnt fr].
    + apply nd_mid; rewrite <- El; auto. apply (v_nd _ _ V).
    + intro x. rewrite S3, Hall. destruct (Nat.eq_dec x n) as [->|Hx]; [rewrite Vn; intuition congruence|].
      rewrite Vo by auto. rewrite (v_alive _ _ V). intuition congruence.
    + intros x w Hx. rewrite S3. rewrite in_app_iff in Hx. cbn in Hx.
      destruct Hx as [Hx|[Hx|Hx]]; [|injection Hx as <- <-; exact Vn|];
        (assert (Hx' : In (x, w) l) by (rewrite El; apply in_or_app; auto); rewrite Vo by (apply Hno; apply (in_map fst) in Hx'; exact Hx');
         apply (v_val _ _ V); exact Hx').
    + rewrite <- H0. apply Lv'; auto.
    + rewrite <- H0. apply Lv'; auto.
    + rewrite Tl, (proj2 (Nat.ltb_lt _ _) Hpos). cbn [andb]. rewrite (v_tl _ _ V), El, !ids_app, !lst_app. change (ids ((n, v) :: lb)) with (n :: ids lb). cbn [lst_of]. rewrite Elb.
      destruct b' as [|z b']; auto.
    + rewrite S8, (v_cnt _ _ V), El, !app_length. cbn. lia.
  - lia.
  - intros x Hx. apply Hall in Hx. rewrite S4, S7, Lh. destruct Hx as [->|Hx]; [lia|]. rewrite Ho by auto. specialize (Hh x Hx). lia.
  - intros j Hj. apply Lv'. lia.
  - unfold vals. rewrite map_app. cbn [map snd]. fold (vals la) (vals lb).
    assert (Ev : map (gv h) u = vals la /\ map (gv h) b' = vals lb).
    { rewrite El in Hgv. unfold vals in Hgv. rewrite ids_app, !map_app, Ea, Elb in Hgv. fold (vals la) (vals lb) in Hgv.
      apply app_same_len in Hgv; auto. rewrite <- Ea. unfold vals, ids. now rewrite !map_length. }
    destruct Ev as [Eva Evb]. apply sorted_mid.
    + unfold vals. rewrite <- map_app. fold (vals (la ++ lb)). rewrite <- El. exact So.
    + rewrite <- Eva. intros x Hx. apply in_map_iff in Hx. destruct Hx as (y & <- & Hy). auto.
    + rewrite <- Evb. intros x Hx. apply in_map_iff in Hx. destruct Hx as (y & <- & Hy). auto.
Qed.

Lemma relink_levels_ok ht n A B : NoDup (A ++ n :: B) -> (forall x, In x (A ++ n :: B) -> 0 < ht x) ->
  forall i d, i <= ht n -> i <= length (hd d) ->
  (forall j, j < i -> seg (hp d) j None (lv ht j (A ++ n :: B)) None /\
                      nth_error (hd d) j = Some (nxt_of (lv ht j (A ++ n :: B)) None)) ->
  exists d', relink_levels i d n = Ok d' /\
    (forall j y, i <= j -> NX (hp d') j y = NX (hp d) j y /\ PV (hp d') j y = PV (hp d) j y) /\
    (forall j, i <= j -> nth_error (hd d') j = nth_error (hd d) j) /\
    (forall y, VL (hp d') y = VL (hp d) y) /\ (forall y, hgt (hp d') y = hgt (hp d) y) /\
    length (hp d') = length (hp d) /\ length (hd d') = length (hd d) /\ cnt d' = cnt d /\ fr d' = fr d /\
    (forall j, j < i -> seg (hp d') j None (lv ht j (A ++ B)) None /\ nth_error (hd d') j = Some (nxt_of (lv ht j (A ++ B)) None)) /\
    tl d' = (if (0 <? i) && match B with [] => true | _ => false end then lst_of None A else tl d).
Proof.
  intros Hnd Hht. induction i as [|i IH]; intros d Hi Hd Hsg.
  - exists d. repeat split; auto; lia.
  - destruct (Hsg i ltac:(lia)) as [Sg Hh]. cbn [relink_levels].
    assert (E : forall B, lv ht i (A ++ n :: B) = lv ht i A ++ n :: lv ht i B).
    { intro B0. rewrite lv_app, lv_cons, (proj2 (Nat.ltb_lt i (ht n))) by lia. reflexivity. }
    rewrite E in Sg, Hh.
    destruct (relink_ok d n i (lv ht i A) (lv ht i B)) as (d1 & -> & (T1 & T2 & T3 & T4 & T5 & T6 & T7 & T8 & T9) & Sg1 & Hh1 & _ & Tl1); auto.
    { rewrite <- E. now apply lv_nodup. }
    cbn [bind].
    destruct (IH d1) as (d' & -> & S1 & S2 & S3 & S4 & S6 & S7 & S8 & S9 & Lv & Tl); [lia|lia| |].
    { intros j Hj. rewrite T2 by lia. destruct (Hsg j ltac:(lia)) as [X Y]. split; auto. eapply seg_frame; [exact X|]. intros x Hx. apply T1; lia. }
    exists d'. split; [reflexivity|].
    split; [intros j y Hj; destruct (S1 j y ltac:(lia)) as [-> ->]; apply T1; lia|].
    split; [intros j Hj; rewrite S2, T2 by lia; auto|].
    split; [intro; now rewrite S3, T3|]. split; [intro; now rewrite S4, T4|]. split; [lia|]. split; [lia|]. split; [lia|]. split; [congruence|]. split.
    + intros j Hj. destruct (Nat.eq_dec j i) as [->|Hj']; [|apply Lv; lia]. rewrite lv_app, S2 by lia. split; auto.
      eapply seg_frame; [exact Sg1|]. intros x Hx. apply S1; lia.
    + rewrite Tl. destruct i as [|i]; cbn [Nat.ltb Nat.leb Nat.eqb andb] in *; [|rewrite Tl1; reflexivity].
      rewrite Tl1. rewrite !(lv_all ht 0); auto; intros x Hx; apply Hht; apply in_or_app; cbn; auto.
Qed.

Lemma trim_ok hds : forall i, 1 <= i -> 1 <= trim i hds <= i /\ forall j, trim i hds <= j < i -> nth j hds None = None.
Proof.
  induction i as [|i IH]; intro Hi; [lia|]. destruct i as [|i]; [cbn; split; [lia|intros; lia]|].
  change (trim (S (S i)) hds) with (match nth (S i) hds None with None => trim (S i) hds | Some _ => S (S i) end).
  destruct (nth (S i) hds None) eqn:E; [split; [lia|intros; lia]|].
  destruct (IH ltac:(lia)) as [A B]. split; [lia|]. intros j Hj. destruct (Nat.eq_dec j (S i)) as [->|]; auto. apply B. lia.
Qed.

Lemma remove_s d a n v b rm : Reps cmp d (a ++ (n, v) :: b) ->
  exists d', take_remove c d n rm = Ok (v, d') /\ Reps cmp d' (a ++ b) /\
    fr d' = (if rm then v :: fr d else fr d) /\ length (hp d') = length (hp d).
Proof.
  intros [V H1 Hh Hl So]. destruct (view_at _ _ _ _ _ V) as (Vn & _ & _).
  pose proof (v_nd _ _ V) as Hd. rewrite ids_app in Hd. cbn [ids map fst] in Hd. fold (ids a) (ids b) in Hd.
  assert (Hno : forall x, In x (ids a ++ ids b) -> x <> n) by (intros x Hx ->; apply NoDup_remove_2 in Hd; contradiction).
  assert (Hin : forall x, In x (ids (a ++ (n, v) :: b)) <-> x = n \/ In x (ids a ++ ids b)).
  { intro x. rewrite !ids_app. cbn. rewrite !in_app_iff. cbn. intuition congruence. }
  assert (Hnin : In n (ids (a ++ (n, v) :: b))) by (apply Hin; auto).
  pose proof (Hh n Hnin) as Hhn.
  assert (Ei : ids (a ++ (n, v) :: b) = ids a ++ n :: ids b) by (rewrite ids_app; reflexivity).
  rewrite Ei in *.
  unfold take_remove. rewrite Hs.
  assert (exists nd, get (hp d) n = Ok nd /\ nval nd = v /\ length (nnext nd) = hgt (hp d) n) as (nd & -> & Hv & Hln).
  { unfold get, VL, hgt in *. destruct (nth_error (hp d) n) as [[nd|]|]; try discriminate. exists nd. repeat split; congruence. }
  cbn [bind]. rewrite Hln.
  destruct (relink_levels_ok (hgt (hp d)) n (ids a) (ids b)) with (i := hgt (hp d) n) (d := d)
    as (d1 & -> & S1 & S2 & S3 & S4 & S6 & S7 & S8 & S9 & Lv & Tl); auto; [intros x Hx; apply (Hh x Hx)|lia|intros j Hj; apply Hl; lia|].
  cbn [bind]. unfold node_destroy. cbn [hp hd tl cnt fr].
  assert (exists nd', get (hp d1) n = Ok nd' /\ nval nd' = v) as (nd' & E' & Hv').
  { rewrite <- S3 in Vn. unfold get, VL in *. destruct (nth_error (hp d1) n) as [[nd'|]|]; try discriminate. exists nd'. split; congruence. }
  rewrite E'. cbn [bind]. rewrite Hv, Hv'. eexists; split; [reflexivity|]. cbn [hp hd tl cnt fr]. split; [|rewrite length_upd, S9; auto].
  destruct (trim_ok (hd d1) (length (hd d1)) ltac:(lia)) as [Ht1 Ht2]. remember (trim (length (hd d1)) (hd d1)) as k eqn:Ek. clear Ek.
  assert (Vf := fun x => proj1 (proj2 (proj2 (free_v (hp d1) n x 0)))).
  assert (Hf := fun x => proj2 (proj2 (proj2 (free_v (hp d1) n x 0)))).
  assert (Hlv : forall j, lv (hgt (upd (hp d1) n None)) j (ids a ++ ids b) = lv (hgt (hp d)) j (ids a ++ ids b)).
  { intro j. apply lv_ext. intros x Hx. rewrite Hf, (proj2 (Nat.eqb_neq x n)) by auto. auto. }
  assert (Sg : forall j, j < length (hd d) -> seg (hp d1) j None (lv (hgt (hp d)) j (ids a ++ ids b)) None /\
                         nth_error (hd d1) j = Some (nxt_of (lv (hgt (hp d)) j (ids a ++ ids b)) None)).
  { intros j Hj. destruct (Nat.lt_ge_cases j (hgt (hp d) n)) as [F|F]; [apply Lv; auto|]. rewrite S2 by auto.
    destruct (Hl j Hj) as [X Y]. rewrite lv_app, lv_cons, (proj2 (Nat.ltb_ge j (hgt (hp d) n))) in X, Y by lia. rewrite <- lv_app in X, Y.
    split; auto. eapply seg_frame; [exact X|]. intros x Hx. apply S1. auto. }
  assert (Hk : forall x, In x (ids a ++ ids b) -> hgt (hp d) x <= k).
  { intros x Hx. destruct (Nat.le_gt_cases (hgt (hp d) x) k) as [|F]; auto. exfalso.
    destruct (Hh x) as [G1 G2]; [rewrite in_app_iff in *; cbn; tauto|].
    destruct (Sg (hgt (hp d) x - 1)) as [_ Y]; [lia|]. specialize (Ht2 (hgt (hp d) x - 1) ltac:(lia)).
    assert (K0 := eq_trans (eq_sym (nth_error_nth _ _ None Y)) Ht2). apply nxt_none in K0.
    assert (K : In x (lv (hgt (hp d)) (hgt (hp d) x - 1) (ids a ++ ids b))) by (apply lv_in; split; [auto|lia]). rewrite K0 in K. destruct K. }
  assert (H0 : lv (hgt (hp d)) 0 (ids a ++ ids b) = ids a ++ ids b).
  { apply lv_all. intros x Hx. destruct (Hh x); [rewrite in_app_iff in *; cbn; tauto|lia]. }
  assert (Sg' : forall j, j < k -> seg (upd (hp d1) n None) j None (lv (hgt (hp d)) j (ids a ++ ids b)) None /\
                         nth_error (firstn k (hd d1)) j = Some (nxt_of (lv (hgt (hp d)) j (ids a ++ ids b)) None)).
  { intros j Hj. destruct (Sg j ltac:(lia)) as [X Y]. rewrite nth_firstn by lia. split; auto.
    eapply seg_frame; [exact X|]. intros x Hx. apply lv_in in Hx. destruct Hx as [Hx _].
    destruct (free_v (hp d1) n x j) as (-> & -> & _). rewrite (proj2 (Nat.eqb_neq x n)) by auto. auto. }
  constructor; cbn [hp hd tl cnt fr]; rewrite ?ids_app.
  - constructor; cbn [hp hd tl cnt fr]; rewrite ?ids_app; auto.
    + eapply NoDup_remove_1; eauto.
    + intro x. rewrite Vf. destruct (Nat.eqb_spec x n) as [->|Hx].
      * split; [congruence|]. intro H. exfalso. exact (Hno _ H eq_refl).
      * rewrite S3, (v_alive _ _ V), Ei. rewrite !in_app_iff. cbn. intuition congruence.
    + intros x w Hx. rewrite Vf. destruct (Nat.eqb_spec x n) as [->|Hxn].
      * exfalso. apply (Hno n); auto. rewrite <- ids_app. apply (in_map fst) in Hx. exact Hx.
      * rewrite S3. apply (v_val _ _ V). apply in_app_iff in Hx. apply in_or_app. cbn. tauto.
    + rewrite <- H0. apply Sg'. lia.
    + rewrite <- H0. apply Sg'. lia.
    + rewrite Tl, (v_tl _ _ V), Ei, !lst_app. rewrite (proj2 (Nat.ltb_lt 0 (hgt (hp d) n))) by lia. cbn [andb lst_of].
      destruct (ids b); auto.
    + rewrite S8, (v_cnt _ _ V), !app_length. cbn. lia.
  - rewrite firstn_length. lia.
  - intros x Hx. rewrite Hf, (proj2 (Nat.eqb_neq x n)), S4, firstn_length by auto. specialize (Hk x Hx).
    destruct (Hh x); [rewrite in_app_iff in *; cbn; tauto|lia].
  - intros j Hj. rewrite firstn_length in Hj. rewrite Hlv. apply Sg'. lia.
  - unfold vals in *. rewrite map_app in *. cbn in So. eapply sorted_del; eauto.
Qed.
End Skip.

From Verif Require Import Base.Lib Base.Mem Sort.Spec Sort.Model Sort.Qsort Sort.Binary Sort.Props List.Spec List.Model List.Proofs List.Unsorted.

Section Srt.
Context (cmp : N -> N -> Z) (Hc : total_preorder cmp).
Lemma crefl x : cmp x x = 0%Z.
Proof. destruct Hc as [H _]. specialize (H x x). lia. Qed.
Lemma cflip x y : (cmp x y < 0 <-> cmp y x > 0)%Z /\ (cmp x y = 0 <-> cmp y x = 0)%Z.
Proof. destruct Hc as [H _]. specialize (H x y). lia. Qed.
Lemma ctrans x y z : (cmp x y <= 0 -> cmp y z <= 0 -> cmp x z <= 0)%Z.
Proof. destruct Hc as [_ H]. apply H. Qed.
Lemma clt x y z : (cmp x y < 0 -> cmp y z <= 0 -> cmp x z < 0)%Z.
Proof.
  intros H1 H2. destruct (Z.lt_ge_cases (cmp x z) 0) as [|H]; auto. exfalso.
  assert (cmp z x <= 0)%Z by (pose proof (cflip z x); lia).
  pose proof (ctrans y z x H2 H0). pose proof (cflip x y). lia.
Qed.
Lemma sorted_inv a b : sorted cmp (a ++ b) -> sorted cmp a /\ sorted cmp b /\ forall x y, In x a -> In y b -> (cmp x y <= 0)%Z.
Proof.
  unfold sorted. induction a as [|x a IH]; cbn [app]; intros H.
  - split; [constructor|]. split; auto. intros x y [].
  - inversion H as [|? ? H1 H2]; subst. destruct (IH H1) as (I1 & I2 & I3). rewrite Forall_app in H2. destruct H2 as [H2 H3].
    split; [constructor; auto|]. split; auto. rewrite Forall_forall in H3. intros u y [<-|Hu] Hy; auto.
Qed.
Lemma sorted_cons x l : sorted cmp (x :: l) -> sorted cmp l /\ forall y, In y l -> (cmp x y <= 0)%Z.
Proof. intros H. unfold sorted in H. inversion H as [|? ? H1 H2]; subst. rewrite Forall_forall in H2. auto. Qed.
Lemma sorted_sub a b : forall r, sorted cmp (a ++ r ++ b) -> sorted cmp (a ++ b).
Proof.
  intros r H. apply sorted_inv in H as (H1 & H2 & H3). apply sorted_inv in H2 as (_ & H4 & _).
  apply sorted_app; auto. intros x y Hx Hy. apply H3; auto. apply in_or_app; auto.
Qed.
Lemma sorted_filter p l : sorted cmp l -> sorted cmp (filter p l).
Proof.
  unfold sorted. induction 1 as [|x l H IH F]; cbn [filter]; [constructor|]. destruct (p x); auto.
  constructor; auto. rewrite Forall_forall in *. intros y Hy. apply filter_In in Hy as [Hy _]. auto.
Qed.
Lemma dedup_in p x : forall n l, In x (dedup n p l) -> In x l.
Proof.
  induction n as [|n IH]; intros [|y l] H; cbn [dedup] in H; try contradiction. destruct H as [<-|H]; [left; auto|right].
  apply IH, filter_In in H. tauto.
Qed.
Lemma sorted_dedup p : forall n l, sorted cmp l -> sorted cmp (dedup n p l).
Proof.
  induction n as [|n IH]; intros [|y l] H; cbn [dedup]; try constructor.
  - apply IH, sorted_filter. apply sorted_cons in H. tauto.
  - rewrite Forall_forall. intros x Hx. apply dedup_in, filter_In in Hx as [Hx _]. apply sorted_cons in H as [_ H]. auto.
Qed.

(** A suffix not below v, split into equal and greater; likewise a prefix *)
Definition eqv (v x : N) : bool := (cmp v x =? 0)%Z.
Lemma suffix_split v q : sorted cmp q -> (forall y, In y q -> cmp v y <= 0)%Z ->
  exists qe qh, q = qe ++ qh /\ (forall y, In y qe -> cmp v y = 0%Z) /\ (forall y, In y qh -> cmp v y < 0)%Z.
Proof.
  induction q as [|y q IH]; intros S H; [exists [], []; cbn; intuition|].
  apply sorted_cons in S as [S1 S2]. destruct (Z.eq_dec (cmp v y) 0) as [E|E].
  - destruct IH as (qe & qh & -> & H1 & H2); auto. { intros z Hz. apply H. now right. }
    exists (y :: qe), qh. split; auto. split; auto. intros z [<-|Hz]; auto.
  - exists [], (y :: q). split; auto. split; [intros z []|]. specialize (H y (or_introl eq_refl)) as Hy.
    intros z [<-|Hz]; [lia|]. apply (clt v y z); [lia|auto].
Qed.
Lemma prefix_split v p : sorted cmp p -> (forall y, In y p -> cmp v y >= 0)%Z ->
  exists pl pe, p = pl ++ pe /\ (forall y, In y pe -> cmp v y = 0%Z) /\ (forall y, In y pl -> cmp v y > 0)%Z.
Proof.
  induction p as [|y p IH]; intros S H; [exists [], []; cbn; intuition|].
  apply sorted_cons in S as [S1 S2]. destruct IH as (pl & pe & -> & H1 & H2); auto. { intros z Hz. apply H. now right. }
  destruct (Z.eq_dec (cmp v y) 0) as [E|E].
  - assert (pl = []) as ->.
    { destruct pl as [|z pl]; auto. exfalso. specialize (H2 z (or_introl eq_refl)). specialize (S2 z (or_introl eq_refl)).
      assert (cmp v z <= 0)%Z by (apply (ctrans v y z); lia). lia. }
    exists [], (y :: pe). split; auto. split; auto. intros z [<-|Hz]; auto.
  - exists (y :: pl), pe. split; auto. split; auto. intros z [<-|Hz]; auto. specialize (H y (or_introl eq_refl)). lia.
Qed.
Lemma region l a x b v : sorted cmp l -> l = a ++ x :: b -> cmp v x = 0%Z ->
  exists pl pe qe qh, a = pl ++ pe /\ b = qe ++ qh /\
    (forall y, In y pe -> cmp v y = 0%Z) /\ (forall y, In y pl -> cmp v y > 0)%Z /\
    (forall y, In y qe -> cmp v y = 0%Z) /\ (forall y, In y qh -> cmp v y < 0)%Z.
Proof.
  intros S -> E. apply sorted_inv in S as (S1 & S2 & S3). apply sorted_cons in S2 as [S2 S4].
  destruct (suffix_split v b S2) as (qe & qh & -> & H1 & H2).
  { intros y Hy. apply (ctrans v x y); auto. lia. }
  destruct (prefix_split v a S1) as (pl & pe & -> & H3 & H4).
  { intros y Hy. specialize (S3 y x Hy (or_introl eq_refl)). destruct (Z.lt_ge_cases (cmp v y) 0) as [Q|Q]; [|lia].
    pose proof (clt v y x Q S3). lia. }
  exists pl, pe, qe, qh. auto 7.
Qed.
Lemma filter_true {A} (p : A -> bool) l : (forall y, In y l -> p y = true) -> filter p l = l.
Proof. induction l as [|x l IH]; intros H; auto. cbn [filter]. rewrite H by (now left). f_equal. apply IH. intros y Hy. apply H. now right. Qed.
Lemma filter_false {A} (p : A -> bool) l : (forall y, In y l -> p y = false) -> filter p l = [].
Proof. induction l as [|x l IH]; intros H; auto. cbn [filter]. rewrite H by (now left). apply IH. intros y Hy. apply H. now right. Qed.

Section Ops.
Context (c : cfg) (g : N) (Hs : srt c = true) (He : has_eq c = true) (Hq : stack c = false).

Lemma scan_up_ok d l f v : Rep d l false f -> forall q p fuel, l = p ++ q -> sorted cmp q -> (forall y, In y q -> cmp v y <= 0)%Z -> length q < fuel ->
  exists r, scan_up cmp fuel d v (length p) = Ok r /\ match r with Some i => nth_error l i = Some v | None => ~ In v q end.
Proof.
  intros R. pose proof R as (_ & L & _). induction q as [|y q IH]; intros p [|fuel] El Sq Hv Hf; try (cbn in Hf; lia).
  - cbn [scan_up]. rewrite L, El, app_nil_r. destruct (Nat.ltb_spec (length p) (length p)); [lia|]. exists None. auto.
  - cbn [scan_up]. rewrite L. destruct (Nat.ltb_spec (length p) (length l)) as [H|H]; [|rewrite El in H; hlen].
    assert (Hn : nth_error l (length p) = Some y) by (rewrite El; now apply nth_error_mid).
    rewrite (cell_rep d l false f (length p) y R Hn). cbn [bind].
    destruct (Z.eqb_spec (cmp v y) 0) as [E|E]; cbn [negb].
    + destruct (N.eqb_spec v y) as [Q|Q]; [exists (Some (length p)); split; auto; congruence|].
      replace (S (length p)) with (length (p ++ [y])) by llen.
      apply sorted_cons in Sq as [Sq _]. cbn [length] in Hf.
      destruct (IH (p ++ [y]) fuel) as (r & Er & Hr); auto. { now rewrite <- app_assoc. } { intros z Hz. apply Hv. now right. } { lia. }
      exists r. split; auto. destruct r; auto. intros [G|G]; [congruence|auto].
    + exists None. split; auto. intros G. assert (cmp v v < 0)%Z; [|pose proof (crefl v); lia].
      specialize (Hv y (or_introl eq_refl)) as Hy. destruct G as [G|G]; [subst; pose proof (crefl v); lia|].
      apply (clt v y v); [lia|]. apply sorted_cons in Sq as [_ Sq]. auto.
Qed.
Lemma scan_down_ok d l f v : Rep d l false f -> forall i p q, l = p ++ q -> length p = i -> sorted cmp p -> (forall y, In y p -> cmp v y >= 0)%Z ->
  exists r, scan_down cmp d v i = Ok r /\ match r with Some i => nth_error l i = Some v | None => ~ In v p end.
Proof.
  intros R. induction i as [|i IH]; intros p q El Lp Sp Hv.
  - destruct p; [|hlen]. exists None. cbn. auto.
  - destruct (exists_last (l := p) ltac:(destruct p; [hlen|discriminate])) as (p' & y & ->). cbn [scan_down].
    assert (Hn : nth_error l i = Some y) by (rewrite El, <- app_assoc; apply nth_error_mid; hlen).
    rewrite (cell_rep d l false f i y R Hn). cbn [bind]. apply sorted_inv in Sp as (Sp & _ & Sy).
    destruct (Z.eqb_spec (cmp v y) 0) as [E|E]; cbn [negb].
    + destruct (N.eqb_spec v y) as [Q|Q]; [exists (Some i); split; auto; congruence|].
      destruct (IH p' (y :: q)) as (r & Er & Hr); auto. { now rewrite El, <- app_assoc. } { hlen. } { intros z Hz. apply Hv. apply in_or_app; auto. }
      exists r. split; auto. destruct r; auto. intros G. apply in_app_or in G as [G|[G|[]]]; auto.
    + exists None. split; auto. intros G. specialize (Hv y ltac:(apply in_or_app; right; now left)) as Hy.
      apply in_app_or in G as [G|[G|[]]]; [|subst; pose proof (crefl v); lia].
      specialize (Sy v y G (or_introl eq_refl)). lia.
Qed.

Lemma conv_s d l f i : Rep d l false f -> i <= length l -> Z.to_nat (conv_at c d i) = if length l =? 0 then 0 else i.
Proof. intros R H. rewrite (conv_queue c d l false f i R Hq H). destruct (length l =? 0); lia. Qed.
Lemma rdn_rep d l m f : Rep d l m f -> rdn (base d) (start d) (elems d) = Ok l.
Proof. intros ((pre & post & E & S) & L & _). rewrite E, S, L. apply rdn_ok. Qed.

Lemma index_of_s d l f t v : Rep d l false f -> sorted cmp l ->
  exists r, index_of cmp c d v t = Ok r /\
    match r with
    | Some i => usable c t v = true /\ exists x, nth_error l i = Some x /\ matches cmp t v x = true /\ cmp v x = 0%Z
    | None => hits cmp c t v l = []
    end.
Proof.
  intros R Sl. unfold index_of. rewrite (usable_cond c d l false f t v R). pose proof R as (_ & L & _ & M & _).
  destruct (usable c t v) eqn:U; cbn [negb orb]. 2: { exists None. split; auto. unfold hits. now rewrite U. }
  destruct (Nat.eqb_spec (length l) 0) as [Z|Z].
  { exists None. split; auto. assert (l = []) as -> by (destruct l; [auto|hlen]). unfold hits. now rewrite U. }
  rewrite M, Hs. cbn [negb andb]. rewrite (rdn_rep d l false f R). cbn [bind].
  destruct (binary_search_exact N cmp Hc l v (stable c) Sl) as (b & i & E & H1 & H2). rewrite E. cbn [bind].
  destruct b; cbn [negb].
  - destruct (H2 eq_refl) as [(x & Hx & Ex) _]. assert (Hi : i < length l) by (apply nth_error_Some; congruence).
    assert (Fin : forall j, nth_error l j <> None -> Z.to_nat (conv_at c d j) = j).
    { intros j Hj. apply nth_error_Some in Hj. rewrite (conv_s d l f j R) by lia. destruct (Nat.eqb_spec (length l) 0); lia. }
    destruct (mptr t) eqn:P.
    + rewrite (cell_rep d l false f i x R Hx). cbn [bind]. destruct (N.eqb_spec v x) as [Q|Q].
      * cbn [bind option_map]. rewrite Fin by congruence. exists (Some i). split; auto. split; auto. exists x. split; auto. unfold matches. rewrite P. split; auto. subst; apply N.eqb_refl.
      * destruct (split_mid l i Hi) as (a & x' & b & El & La).
        assert (x' = x) as -> by (rewrite El in Hx; rewrite nth_error_mid in Hx by auto; congruence).
        assert (Sl' := Sl). rewrite El in Sl'. apply sorted_inv in Sl' as (S1 & S2 & S3). apply sorted_cons in S2 as [S2 S4].
        assert (Hb : forall y, In y b -> (cmp v y <= 0)%Z) by (intros y Hy; apply (ctrans v x y); auto; lia).
        assert (Ha : forall y, In y a -> (cmp v y >= 0)%Z).
        { intros y Hy. specialize (S3 y x Hy (or_introl eq_refl)). destruct (Z.lt_ge_cases (cmp v y) 0) as [G|G]; [|lia].
          pose proof (clt v y x G S3). lia. }
        replace (S i) with (length (a ++ [x])) by hlen.
        destruct (scan_up_ok d l f v R b (a ++ [x]) (S (elems d))) as (r & Er & Hr); auto. { now rewrite <- app_assoc. } { rewrite L, El. llen. }
        rewrite Er. cbn [bind].
        assert (G : forall j, nth_error l j = Some v -> exists r, (do r0 <- Ok (Some j); Ok (option_map (fun i0 => Z.to_nat (conv_at c d i0)) r0)) = Ok r /\
           match r with Some i => true = true /\ exists x, nth_error l i = Some x /\ matches cmp t v x = true /\ cmp v x = 0%Z | None => hits cmp c t v l = [] end).
        { intros j Hj. exists (Some j). cbn [bind option_map]. rewrite Fin by congruence. split; auto. split; auto. exists v. split; auto.
          unfold matches. rewrite P, N.eqb_refl. split; auto. apply crefl. }
        destruct r as [j|]; [apply (G j Hr)|].
        destruct (scan_down_ok d l f v R i a (x :: b) El La S1 Ha) as (r & Er' & Hr'). rewrite Er'.
        destruct r as [j|]; [apply (G j Hr')|]. exists None. split; auto. unfold hits. rewrite U. apply filter_false.
        intros y Hy. unfold matches. rewrite P. apply N.eqb_neq. intros <-. rewrite El in Hy. apply in_app_or in Hy as [Hy|[Hy|Hy]]; auto.
    + cbn [bind option_map]. rewrite Fin by congruence. exists (Some i). split; auto. split; auto. exists x. split; auto. unfold matches. rewrite P. split; auto. now apply Z.eqb_eq.
  - exists None. split; auto. unfold hits. rewrite U. apply filter_false. intros y Hy. unfold matches.
    assert (Hn : cmp v y <> 0%Z). { intros G. assert (false = true) by (apply H1; eauto). discriminate. }
    destruct (mptr t); [|now apply Z.eqb_neq]. apply N.eqb_neq. intros <-. apply Hn, crefl.
Qed.
Lemma set_check_s d l f v : Rep d l false f -> sorted cmp l ->
  exists r, (if isset c then index_of cmp c d v (mkt false (setp c)) else Ok None) = Ok r /\
    (if in_set cmp c v l then exists i, r = Some i else r = None).
Proof.
  intros R Sl. unfold in_set. destruct (isset c); cbn [andb]; [|eauto].
  destruct (index_of_s d l f (mkt false (setp c)) v R Sl) as (r & E & H). exists r. split; auto. destruct r as [i|].
  - destruct H as (U & x & Hx & Mx & _). unfold hits. rewrite U.
    assert (In x (filter (matches cmp (mkt false (setp c)) v) l)) by (apply filter_In; split; auto; eapply nth_error_In; eauto).
    destruct (filter _ l); [contradiction|]. cbn. eauto.
  - rewrite H. reflexivity.
Qed.

Lemma insert_idx_s d l f v : Rep d l false f -> sorted cmp l ->
  exists i, list_insert_idx cmp c d v = Ok i /\ conv_insert c d i = i /\ i <= length l /\
    (forall j x, j < i -> nth_error l j = Some x -> (cmp v x >= 0)%Z) /\
    (forall j x, i <= j -> nth_error l j = Some x -> (cmp v x <= 0)%Z).
Proof.
  intros R Sl. pose proof R as (_ & L & _ & M & _). unfold list_insert_idx. rewrite M, Hs. cbn [negb andb].
  rewrite (rdn_rep d l false f R). cbn [bind]. destruct (insert_idx_ok cmp Hc l v Sl (stable c)) as (i & E & Li & H1 & H2 & _).
  rewrite E. cbn [bind].
  assert (C : conv_insert c d i = i).
  { unfold conv_insert. rewrite L, Hq. cbn zeta. cbn [negb]. destruct (Nat.eqb_spec (length l) 0); [lia|].
    rewrite (conv_s d l f i R Li). destruct (Nat.eqb_spec (length l) 0); lia. }
  exists i. rewrite C. auto.
Qed.

(** the loops of M_list_match_op_val_int *)
Lemma after_val d l f v t op : mptr t = false -> Rep d l false f -> forall qe p qh fuel cnt e, l = p ++ qe ++ qh ->
  (forall y, In y qe -> cmp v y = 0%Z) -> (forall y, In y qh -> cmp v y < 0)%Z -> length qe < fuel -> length p = S e ->
  after_loop cmp c fuel d v t op (S e) cnt e = Ok (d, cnt, e + length qe).
Proof.
  intros P R. pose proof R as (_ & L & _). induction qe as [|y qe IH]; intros p qh [|fuel] cnt e El H1 H2 Hf Hp; try (cbn in Hf; lia); cbn [after_loop]; rewrite L.
  - cbn [app length] in *. rewrite Nat.add_0_r. destruct (Nat.ltb_spec (S e) (length l)) as [H|H]; auto.
    destruct qh as [|z qh]; [rewrite El in H; hlen|].
    rewrite (cell_rep d l false f (S e) z R) by (rewrite El; now apply nth_error_mid). cbn [bind].
    specialize (H2 z (or_introl eq_refl)). destruct (Z.eqb_spec (cmp v z) 0); [lia|]. auto.
  - destruct (Nat.ltb_spec (S e) (length l)) as [H|H]; [|rewrite El in H; hlen].
    rewrite (cell_rep d l false f (S e) y R) by (rewrite El; now apply nth_error_mid). cbn [bind].
    rewrite (H1 y) by (now left). cbn [Z.eqb negb]. rewrite P.
    rewrite (IH (p ++ [y]) qh).
    + do 2 f_equal. llen.
    + now rewrite <- app_assoc.
    + intros z Hz. apply H1. now right.
    + auto.
    + cbn [length] in Hf. lia.
    + llen.
Qed.
Lemma before_val d l f v t op : mptr t = false -> Rep d l false f -> forall i pl pe q cnt, l = (pl ++ pe) ++ q -> length (pl ++ pe) = i ->
  (forall y, In y pe -> cmp v y = 0%Z) -> (forall y, In y pl -> cmp v y > 0)%Z ->
  before_loop cmp c d v t op i cnt i = Ok (d, cnt, length pl).
Proof.
  intros P R. induction i as [|i IH]; intros pl pe q cnt El Li H1 H2; cbn [before_loop].
  - destruct pl; [auto|hlen].
  - destruct (exists_last (l := pl ++ pe) ltac:(destruct (pl ++ pe); [hlen|discriminate])) as (p' & y & E).
    rewrite (cell_rep d l false f i y R) by (rewrite El, E, <- app_assoc; apply nth_error_mid; rewrite E in Li; hlen). cbn [bind].
    destruct pe as [|e0 pe0] using rev_ind.
    + rewrite app_nil_r in *. specialize (H2 y ltac:(rewrite E; apply in_or_app; right; now left)).
      destruct (Z.eqb_spec (cmp v y) 0); [lia|]. cbn [negb]. now rewrite Li.
    + clear IHpe0. rewrite app_assoc in E. apply app_inj_tail in E as [E ->]. rewrite (H1 y) by (apply in_or_app; right; now left). cbn [Z.eqb negb]. rewrite P.
      apply (IH pl pe0 (y :: q)).
      * rewrite El, !app_assoc, <- (app_assoc (pl ++ pe0) [y] q). reflexivity.
      * hlen.
      * intros z Hz. apply H1. apply in_or_app; auto.
      * auto.
Qed.
Lemma after_ptr d l f v t op : mptr t = true -> Rep d l false f -> forall qe p qh fuel cnt e, l = p ++ qe ++ qh ->
  (forall y, In y qe -> cmp v y = 0%Z) -> (forall y, In y qh -> cmp v y < 0)%Z -> length qe < fuel ->
  op = MCount \/ ~ In v qe -> forall i, length p = i ->
  after_loop cmp c fuel d v t op i cnt e = Ok (d, cnt + length (filter (N.eqb v) qe), e).
Proof.
  intros P R. pose proof R as (_ & L & _). induction qe as [|y qe IH]; intros p qh [|fuel] cnt e El H1 H2 Hf Hop i Li; try (cbn in Hf; lia); cbn [after_loop]; rewrite L.
  - cbn [app length filter] in *. rewrite Nat.add_0_r. destruct (Nat.ltb_spec i (length l)) as [H|H]; auto.
    destruct qh as [|z qh]; [rewrite El in H; hlen|].
    rewrite (cell_rep d l false f i z R) by (rewrite El; now apply nth_error_mid). cbn [bind].
    specialize (H2 z (or_introl eq_refl)). destruct (Z.eqb_spec (cmp v z) 0); [lia|]. auto.
  - destruct (Nat.ltb_spec i (length l)) as [H|H]; [|rewrite El in H; hlen].
    rewrite (cell_rep d l false f i y R) by (rewrite El; now apply nth_error_mid). cbn [bind].
    rewrite (H1 y) by (now left). cbn [Z.eqb negb]. rewrite P. cbn [filter].
    assert (Hop' : op = MCount \/ ~ In v qe) by (destruct Hop as [|Hop]; auto; right; intros G; apply Hop; now right).
    assert (IH' : forall cnt, after_loop cmp c fuel d v t op (S i) cnt e = Ok (d, cnt + length (filter (N.eqb v) qe), e)).
    { intros cnt'. apply (IH (p ++ [y]) qh); auto.
      - now rewrite <- app_assoc.
      - intros z Hz. apply H1. now right.
      - cbn [length] in Hf. lia.
      - llen. }
    destruct (N.eqb_spec v y) as [Q|Q].
    + destruct Hop as [->|Hop]; [|exfalso; apply Hop; now left]. cbn [removing]. rewrite IH'. do 3 f_equal. cbn [length]. lia.
    + apply IH'.
Qed.
Lemma before_ptr d l f v t op : mptr t = true -> Rep d l false f -> forall i pl pe q cnt s, l = (pl ++ pe) ++ q -> length (pl ++ pe) = i ->
  (forall y, In y pe -> cmp v y = 0%Z) -> (forall y, In y pl -> cmp v y > 0)%Z -> op = MCount \/ ~ In v pe ->
  before_loop cmp c d v t op i cnt s = Ok (d, cnt + length (filter (N.eqb v) pe), s).
Proof.
  intros P R. induction i as [|i IH]; intros pl pe q cnt s El Li H1 H2 Hop; cbn [before_loop].
  - destruct pe; [cbn; do 3 f_equal; lia|hlen].
  - destruct (exists_last (l := pl ++ pe) ltac:(destruct (pl ++ pe); [hlen|discriminate])) as (p' & y & E).
    rewrite (cell_rep d l false f i y R) by (rewrite El, E, <- app_assoc; apply nth_error_mid; rewrite E in Li; hlen). cbn [bind].
    destruct pe as [|e0 pe0] using rev_ind.
    + rewrite app_nil_r in *. specialize (H2 y ltac:(rewrite E; apply in_or_app; right; now left)).
      destruct (Z.eqb_spec (cmp v y) 0); [lia|]. cbn. do 3 f_equal. lia.
    + clear IHpe0. rewrite app_assoc in E. apply app_inj_tail in E as [E ->]. rewrite (H1 y) by (apply in_or_app; right; now left). cbn [Z.eqb negb]. rewrite P.
      assert (Hop' : op = MCount \/ ~ In v pe0) by (destruct Hop as [|Hop]; auto; right; intros G; apply Hop; apply in_or_app; auto).
      assert (IH' : forall cnt, before_loop cmp c d v t op i cnt s = Ok (d, cnt + length (filter (N.eqb v) pe0), s)).
      { intros cnt'. apply (IH pl pe0 (y :: q)).
        * rewrite El, !app_assoc, <- (app_assoc (pl ++ pe0) [y] q). reflexivity.
        * hlen.
        * intros z Hz. apply H1. apply in_or_app; auto.
        * auto.
        * auto. }
      rewrite filter_app, app_length. cbn [filter]. destruct (N.eqb_spec v y) as [Q|Q].
      * destruct Hop as [->|Hop]; [|exfalso; apply Hop; apply in_or_app; right; now left]. cbn [removing]. rewrite IH'. do 3 f_equal. cbn [length]. lia.
      * rewrite IH'. do 3 f_equal. cbn [length]. lia.
Qed.

Lemma refill_ok w : forall n d l f i, Rep d l false f -> i <= length l ->
  exists d', refill cmp c g d w n i = Ok d' /\ Rep d' (firstn i l ++ repeat w n ++ skipn i l) false f.
Proof.
  induction n as [|n IH]; intros d l f i R Hi; cbn [refill].
  - exists d. cbn [repeat app]. rewrite firstn_skipn. auto.
  - destruct (insert_raw cmp c g d l false f w (Z.of_nat i) R ltac:(lia)) as (d1 & E & R1). rewrite E. cbn [bind].
    destruct (Z.ltb_spec (Z.of_nat i) 0); [lia|]. rewrite Nat2Z.id in R1.
    destruct (IH d1 _ f (S i) R1) as (d' & E' & R'). { rewrite app_length, firstn_length. cbn [length]. rewrite skipn_length. lia. }
    exists d'. split; auto.
    assert (Lf : S i = length (firstn i l ++ [w])) by (rewrite app_length, firstn_length; cbn; lia).
    replace (firstn i l ++ w :: skipn i l) with ((firstn i l ++ [w]) ++ skipn i l) in R' by (now rewrite <- app_assoc).
    rewrite firstn_len, skipn_len in R' by auto. rewrite <- app_assoc in R'. exact R'.
Qed.

Lemma hits_region t v pl pe x qe qh : usable c t v = true -> matches cmp t v x = true ->
  (forall y, In y pe -> cmp v y = 0%Z) -> (forall y, In y pl -> cmp v y > 0)%Z ->
  (forall y, In y qe -> cmp v y = 0%Z) -> (forall y, In y qh -> cmp v y < 0)%Z ->
  hits cmp c t v ((pl ++ pe) ++ x :: qe ++ qh) = if mptr t then filter (N.eqb v) pe ++ x :: filter (N.eqb v) qe else pe ++ x :: qe.
Proof.
  intros U Mx H1 H2 H3 H4. unfold hits. rewrite U, !filter_app. cbn [filter]. rewrite Mx, filter_app. unfold matches. destruct (mptr t).
  - assert (E : forall k, (forall y, In y k -> cmp v y <> 0%Z) -> filter (fun z => (v =? z)%N) k = []).
    { intros k Hk. apply filter_false. intros y Hy. apply N.eqb_neq. intros <-. apply (Hk v Hy), crefl. }
    rewrite (E pl), (E qh); [now rewrite app_nil_r| |]; intros y Hy.
    + specialize (H4 y Hy). lia.
    + specialize (H2 y Hy). lia.
  - rewrite (filter_false _ pl), (filter_true _ pe), (filter_true _ qe), (filter_false _ qh); [now rewrite app_nil_r| | | |]; intros y Hy.
    + apply Z.eqb_neq. specialize (H4 y Hy). lia.
    + apply Z.eqb_eq. auto.
    + apply Z.eqb_eq. auto.
    + apply Z.eqb_neq. specialize (H2 y Hy). lia.
Qed.

Lemma region_found d l f v i x : Rep d l false f -> sorted cmp l -> nth_error l i = Some x -> cmp v x = 0%Z ->
  exists pl pe qe qh, l = (pl ++ pe) ++ x :: qe ++ qh /\ i = length (pl ++ pe) /\
  (forall y, In y pe -> cmp v y = 0%Z) /\ (forall y, In y pl -> cmp v y > 0)%Z /\
  (forall y, In y qe -> cmp v y = 0%Z) /\ (forall y, In y qh -> cmp v y < 0)%Z.
Proof.
  intros R Sl Hx Ex. assert (Hi : i < length l) by (apply nth_error_Some; congruence).
  destruct (split_mid l i Hi) as (a & x' & b & El & La).
  assert (x' = x) as -> by (rewrite El in Hx; rewrite nth_error_mid in Hx by auto; congruence).
  destruct (region l a x b v Sl El Ex) as (pl & pe & qe & qh & -> & -> & H). exists pl, pe, qe, qh. auto.
Qed.

Lemma count_s d l f t v : Rep d l false f -> sorted cmp l ->
  match_sorted cmp c g d v t MCount = Ok (length (hits cmp c t v l), d).
Proof.
  intros R Sl. unfold match_sorted. destruct (index_of_s d l f t v R Sl) as (r & E & Hr). rewrite E. cbn [bind].
  destruct r as [i|]; [|now rewrite Hr]. destruct Hr as (U & x & Hx & Mx & Ex).
  destruct (region_found d l f v i x R Sl Hx Ex) as (pl & pe & qe & qh & El & -> & H1 & H2 & H3 & H4).
  pose proof (hits_region t v pl pe x qe qh U Mx H1 H2 H3 H4) as Hh. rewrite <- El in Hh. rewrite Hh.
  pose proof R as (_ & L & _). cbn [removing negb]. rewrite orb_true_r.
  assert (El2 : l = ((pl ++ pe) ++ [x]) ++ qe ++ qh) by (rewrite El, <- !app_assoc; reflexivity).
  assert (Lx : length ((pl ++ pe) ++ [x]) = S (length (pl ++ pe))) by llen.
  destruct (mptr t) eqn:P.
  - rewrite (after_ptr d l f v t MCount P R qe ((pl ++ pe) ++ [x]) qh) by (auto; rewrite L, El; llen). cbn [bind].
    rewrite (before_ptr d l f v t MCount P R _ pl pe (x :: qe ++ qh)) by auto. cbn [bind]. do 2 f_equal. rewrite !app_length. cbn [length]. lia.
  - rewrite (after_val d l f v t MCount P R qe ((pl ++ pe) ++ [x]) qh) by (auto; rewrite L, El; llen).
    cbn [bind]. rewrite (before_val d l f v t MCount P R _ pl pe (x :: qe ++ qh)) by auto. cbn [bind]. do 2 f_equal. rewrite !app_length. cbn [length]. lia.
Qed.

(** removal part *)
Lemma remove_s d l f t v op : op <> MCount -> Rep d l false f -> sorted cmp l -> (mall t = true -> mptr t = true -> length (hits cmp c t v l) <= 1) ->
  exists n l1, removed cmp c t v l l1 n /\ sorted cmp l1 /\
   ((n = 0 /\ l1 = l /\ match_sorted cmp c g d v t op = Ok (0, d)) \/
    exists d1 fr, Rep d1 l1 false (fr ++ f) /\ Permutation l (l1 ++ fr) /\
    match_sorted cmp c g d v t op =
      (do d2 <- (match op with
             | MReplace w => do i <- list_insert_idx cmp c d1 w; refill cmp c g d1 w n (conv_insert c d1 i)
             | _ => Ok d1
             end); Ok (n, d2))).
Proof.
  intros Hop R Sl Al. unfold match_sorted. assert (Hrm : removing op = true) by (destruct op; [congruence|auto|auto]).
  destruct (index_of_s d l f t v R Sl) as (r & E & Hr). rewrite E. cbn [bind].
  destruct r as [i|].
  2: { exists 0, l. unfold removed. rewrite Hr. cbn. auto 6. }
  destruct Hr as (U & x & Hx & Mx & Ex). pose proof R as (_ & L & _).
  destruct (region_found d l f v i x R Sl Hx Ex) as (pl & pe & qe & qh & El & -> & H1 & H2 & H3 & H4).
  pose proof (hits_region t v pl pe x qe qh U Mx H1 H2 H3 H4) as Hh. rewrite <- El in Hh.
  assert (Hn0 : length (hits cmp c t v l) <> 0) by (rewrite Hh; destruct (mptr t); llen).
  rewrite Hrm. cbn [negb]. rewrite orb_false_r.
  assert (El2 : l = ((pl ++ pe) ++ [x]) ++ qe ++ qh) by (rewrite El, <- !app_assoc; reflexivity).
  assert (Lx : length ((pl ++ pe) ++ [x]) = S (length (pl ++ pe))) by llen.
  (* one element at idx *)
  assert (One : exists d1, remove_range c d (length (pl ++ pe)) (length (pl ++ pe)) = Ok (true, d1) /\ Rep d1 ((pl ++ pe) ++ qe ++ qh) false ([x] ++ f)).
  { destruct (remove_range_ok c d l false f (length (pl ++ pe)) (length (pl ++ pe)) R) as (d1 & a & r & b & Er & Ea & La & Lr & R1); auto. { rewrite El; llen. }
    rewrite Hq in La. assert (Lr1 : length r = 1) by (rewrite Lr, El; llen). destruct r as [|x1 [|]]; try discriminate.
    exists d1. split; auto. rewrite El in Ea. cbn [app] in Ea.
    apply app_eq_app in Ea as (u & [[G1 G2]|[G1 G2]]); (assert (u = []) as -> by (destruct u; [auto|rewrite G1 in *; hlen]));
      rewrite app_nil_r in *; cbn in G2; injection G2 as <- <-; rewrite G1 in *; exact R1. }
  destruct One as (d1 & E1 & R1).
  assert (S1 : sorted cmp ((pl ++ pe) ++ qe ++ qh)) by (apply (sorted_sub _ _ [x]); cbn [app]; now rewrite <- El).
  assert (P1 : Permutation l (((pl ++ pe) ++ qe ++ qh) ++ [x])) by (rewrite El; perm).
  destruct (mall t) eqn:Ma.
  - destruct (mptr t) eqn:P.
    + specialize (Al eq_refl eq_refl). rewrite Hh in Al. rewrite !app_length in Al. cbn [length] in Al.
      assert (N1 : ~ In v pe) by (intros G; assert (In v (filter (N.eqb v) pe)) by (apply filter_In; split; auto; apply N.eqb_refl); destruct (filter (N.eqb v) pe); [auto|hlen]).
      assert (N2 : ~ In v qe) by (intros G; assert (In v (filter (N.eqb v) qe)) by (apply filter_In; split; auto; apply N.eqb_refl); destruct (filter (N.eqb v) qe); [auto|hlen]).
      rewrite (after_ptr d l f v t op P R qe ((pl ++ pe) ++ [x]) qh) by (auto; rewrite L, El; llen). cbn [bind].
      rewrite (before_ptr d l f v t op P R _ pl pe (x :: qe ++ qh)) by auto. cbn [bind].
      assert (Z1 : length (filter (N.eqb v) qe) = 0) by lia. assert (Z2 : length (filter (N.eqb v) pe) = 0) by lia. rewrite Z1, Z2. cbn [Nat.add].
      exists 1, ((pl ++ pe) ++ qe ++ qh). split.
      { unfold removed. rewrite Hh, Ma. destruct (Nat.eqb_spec (length (filter (N.eqb v) pe ++ x :: filter (N.eqb v) qe)) 0); [hlen|].
        split; [|rewrite app_length; cbn [length]; lia]. rewrite El, !filter_app. cbn [filter]. rewrite Mx. cbn [negb]. rewrite filter_app.
        assert (G : forall k, ~ In v k -> filter (fun z => negb (matches cmp t v z)) k = k).
        { intros k Hk. apply filter_true. intros y Hy. unfold matches. rewrite P. destruct (N.eqb_spec v y); auto. subst; contradiction. }
        rewrite (G pl), (G pe), (G qe), (G qh); auto.
        - intros G'. specialize (H4 v G'). pose proof (crefl v). lia.
        - intros G'. specialize (H2 v G'). pose proof (crefl v). lia. }
      split; auto. right. exists d1, [x]. split; auto. split; auto. rewrite E1. reflexivity.
    + rewrite (after_val d l f v t op P R qe ((pl ++ pe) ++ [x]) qh) by (auto; rewrite L, El; llen).
      cbn [bind]. rewrite (before_val d l f v t op P R _ pl pe (x :: qe ++ qh)) by auto. cbn [bind].
      set (e := length (pl ++ pe) + length qe). 
      destruct (remove_range_ok c d l false f (length pl) e R) as (d2 & a & r & b & Er & Ea & La & Lr & R2); auto. { subst e; llen. } { rewrite El; llen. }
      rewrite Hq in La. assert (Lr1 : length r = length (pe ++ x :: qe)).
      { rewrite Lr, El. subst e. llen. }
      assert (a = pl /\ r = pe ++ x :: qe /\ b = qh) as (-> & -> & ->).
      { rewrite El in Ea. replace ((pl ++ pe) ++ x :: qe ++ qh) with (pl ++ (pe ++ x :: qe) ++ qh) in Ea by (rewrite <- !app_assoc; reflexivity).
        apply app_eq_app in Ea as (u & [[G1 G2]|[G1 G2]]); (assert (u = []) as -> by (destruct u; [auto|rewrite G1 in *; hlen]));
        rewrite app_nil_r in *; cbn [app] in G2; subst;
        apply app_eq_app in G2 as (u & [[G1 G2]|[G1 G2]]); (assert (u = []) as -> by (destruct u; [auto|rewrite G1 in *; hlen]));
        rewrite app_nil_r in *; cbn [app] in G2; subst; auto. }
      exists (length (pe ++ x :: qe)), (pl ++ qh). split.
      { unfold removed. rewrite Hh, Ma. destruct (Nat.eqb_spec (length (pe ++ x :: qe)) 0); [hlen|]. split; auto.
        rewrite El, !filter_app. cbn [filter]. rewrite Mx. cbn [negb]. rewrite filter_app.
        rewrite (filter_true _ pl), (filter_false _ pe), (filter_false _ qe), (filter_true _ qh); [now rewrite app_nil_r| | | |]; intros y Hy; unfold matches; rewrite P.
        - specialize (H4 y Hy). destruct (Z.eqb_spec (cmp v y) 0); [lia|auto].
        - rewrite (H3 y Hy). auto.
        - rewrite (H1 y Hy). auto.
        - specialize (H2 y Hy). destruct (Z.eqb_spec (cmp v y) 0); [lia|auto]. }
      split. { apply (sorted_sub pl qh (pe ++ x :: qe)). rewrite El in Sl. rewrite <- !app_assoc in *. exact Sl. }
      right. exists d2, (rev (pe ++ x :: qe)). split; auto. split; [rewrite El; perm|].
      rewrite Er. cbn [bind]. replace (1 + (e - length pl)) with (length (pe ++ x :: qe)) by (subst e; llen). reflexivity.
  - cbn [bind]. exists 1, ((pl ++ pe) ++ qe ++ qh). split.
    { unfold removed. rewrite Ma. destruct (Nat.eqb_spec (length (hits cmp c t v l)) 0); [lia|]. split; auto.
      exists (pl ++ pe), x, (qe ++ qh). auto. }
    split; auto. right. exists d1, [x]. split; auto. split; auto. rewrite E1. cbn [bind]. rewrite Nat.sub_diag. destruct (mptr t); reflexivity.
Qed.

(** duplicates *)
Lemma dup_ptr_ok x a : forall fuel d mid rest f, Rep d (a ++ x :: mid ++ rest) false f -> length rest < fuel ->
  sorted cmp rest -> (forall y, In y rest -> cmp x y <= 0)%Z ->
  exists d' fr, dup_ptr cmp c fuel d (length a) (length a + 1 + length mid) = Ok d' /\
    Rep d' (a ++ x :: mid ++ filter (fun y => negb (x =? y)%N) rest) false (fr ++ f) /\
    Permutation rest (filter (fun y => negb (x =? y)%N) rest ++ fr).
Proof.
  induction fuel as [|n IH]; intros d mid rest f R Hf Sr Hr; [lia|]. cbn [dup_ptr]. pose proof R as (_ & L & _). rewrite L.
  destruct (Nat.ltb_spec (length a + 1 + length mid) (length (a ++ x :: mid ++ rest))) as [H|H].
  - destruct rest as [|y rest]; [hlen|].
    rewrite (cell_rep d _ false f (length a) x R) by (now apply nth_error_mid). cbn [bind].
    rewrite (cell_rep d _ false f (length a + 1 + length mid) y R).
    2: { replace (a ++ x :: mid ++ y :: rest) with ((a ++ x :: mid) ++ y :: rest) by (now rewrite <- app_assoc). apply nth_error_mid. llen. }
    cbn [bind]. apply sorted_cons in Sr as [Sr Sy]. destruct (Z.eqb_spec (cmp x y) 0) as [E0|E0].
    + destruct (N.eqb_spec x y) as [M|M].
      * set (l := a ++ x :: mid ++ y :: rest) in *. set (j := length a + 1 + length mid) in *.
        rewrite (conv_s d l f j R) by lia. destruct (Nat.eqb_spec (length l) 0); [lia|].
        destruct (remove_at_ok c d l false f _ R H) as (d1 & p & y1 & q & E & El & Lp & R1). rewrite E. cbn [bind].
        assert (Lp' : length p = length (a ++ x :: mid)) by (unfold pos in Lp; rewrite Hq in Lp; subst j; llen).
        assert (El2 : (a ++ x :: mid) ++ y :: rest = p ++ y1 :: q) by (rewrite <- El; unfold l; now rewrite <- app_assoc).
        assert (p = a ++ x :: mid /\ y1 = y /\ q = rest) as (-> & -> & ->).
        { apply app_eq_app in El2 as (u & [[E1 E2]|[E1 E2]]); rewrite E1 in Lp';
            (assert (u = []) as -> by (destruct u; [auto|hlen])); cbn in E2; injection E2 as <- <-; now rewrite app_nil_r in *. }
        rewrite <- app_assoc in R1. cbn [app] in R1. cbn [length] in Hf.
        destruct (IH d1 mid rest (y :: f) R1 ltac:(lia) Sr) as (d' & fr & E1 & R2 & P). { intros z Hz. apply Hr. now right. }
        exists d', (fr ++ [y]). fold j in E1. rewrite E1. split; auto. cbn [filter]. rewrite <- M, N.eqb_refl. cbn [negb]. rewrite <- app_assoc.
        rewrite <- M in R2. split; auto. perm.
      * replace (S (length a + 1 + length mid)) with (length a + 1 + length (mid ++ [y])) by llen.
        cbn [length] in Hf. destruct (IH d (mid ++ [y]) rest f) as (d' & fr & E1 & R2 & P); [now rewrite <- app_assoc|lia|auto| |]. { intros z Hz. apply Hr. now right. }
        exists d', fr. split; auto. cbn [filter]. destruct (N.eqb_spec x y); [congruence|]. cbn [negb]. rewrite <- app_assoc in R2. split; auto. perm.
    + assert (Hx : ~ In x (y :: rest)).
      { intros [G|G]; [subst; pose proof (crefl x); lia|]. specialize (Hr y (or_introl eq_refl)).
        pose proof (clt x y x ltac:(lia) (Sy x G)). pose proof (crefl x). lia. }
      rewrite filter_true. 2: { intros z Hz. destruct (N.eqb_spec x z); auto. subst; contradiction. }
      exists d, []. rewrite app_nil_r. auto.
  - assert (rest = []) as -> by (destruct rest; [auto|hlen]). exists d, []. cbn. split; auto.
Qed.
Lemma dup_outer_s t : mptr t = true -> forall fuel d a rest f, Rep d (a ++ rest) false f -> length rest < fuel -> sorted cmp rest ->
  exists d' fr, dup_outer cmp c fuel d t (length a) = Ok d' /\
    Rep d' (a ++ dedup (length rest) (fun x y => matches cmp t x y) rest) false (fr ++ f) /\
    Permutation rest (dedup (length rest) (fun x y => matches cmp t x y) rest ++ fr).
Proof.
  assert (Hf : forall q (l : list N), length (filter q l) <= length l).
  { intros q l. induction l as [|x l IH]; cbn [filter length]; [lia|]. destruct (q x); cbn [length]; lia. }
  intros P. induction fuel as [|n IH]; intros d a rest f R L0 Sr; [lia|]. cbn [dup_outer]. pose proof R as (_ & L & _ & M & _). rewrite L, M.
  destruct rest as [|x rest].
  - rewrite app_nil_r. destruct (Nat.ltb_spec (length a) (length a)); [lia|]. exists d, []. cbn. rewrite app_nil_r in *. auto.
  - destruct (Nat.ltb_spec (length a) (length (a ++ x :: rest))) as [H|H]; [|hlen].
    rewrite Hs, P. cbn [negb andb]. apply sorted_cons in Sr as [Sr Sx].
    destruct (dup_ptr_ok x a (S (length (a ++ x :: rest))) d [] rest f R ltac:(llen) Sr Sx) as (d1 & fr1 & E1 & R1 & P1).
    cbn [length app] in E1, R1. replace (length a + 1 + 0) with (S (length a)) in E1 by lia. rewrite E1. cbn [bind].
    replace (S (length a)) with (length (a ++ [x])) by llen.
    assert (Ef : filter (fun y => negb (x =? y)%N) rest = filter (fun y => negb (matches cmp t x y)) rest) by (unfold matches; now rewrite P).
    rewrite Ef in *. set (r1 := filter (fun y => negb (matches cmp t x y)) rest) in *.
    assert (Lr : length r1 <= length rest) by apply Hf.
    destruct (IH d1 (a ++ [x]) r1 (fr1 ++ f)) as (d' & fr2 & E2 & R2 & P2).
    { now rewrite <- app_assoc. }
    { cbn [length] in L0. lia. }
    { now apply sorted_filter. }
    exists d', (fr2 ++ fr1). split; auto. cbn [dedup length]. fold r1. rewrite (dedup_fuel _ (length rest) (length r1)) by lia.
    rewrite <- !app_assoc in *. split; auto. cbn [app]. perm.
Qed.

Lemma sorted_refill l i w n : sorted cmp l -> i <= length l ->
  (forall j x, j < i -> nth_error l j = Some x -> (cmp w x >= 0)%Z) ->
  (forall j x, i <= j -> nth_error l j = Some x -> (cmp w x <= 0)%Z) ->
  sorted cmp (firstn i l ++ repeat w n ++ skipn i l).
Proof.
  intros Sl Hi H1 H2. destruct (split_at l i Hi) as (a & b & -> & La). rewrite firstn_len, skipn_len by auto.
  apply sorted_inv in Sl as (S1 & S2 & S3).
  assert (A1 : forall x, In x a -> (cmp x w <= 0)%Z).
  { intros x Hx. apply In_nth_error in Hx as [j Hj]. assert (j < length a) by (apply nth_error_Some; congruence).
    specialize (H1 j x ltac:(lia)). rewrite nth_error_app1 in H1 by lia. specialize (H1 Hj). pose proof (cflip w x). lia. }
  assert (A2 : forall x, In x b -> (cmp w x <= 0)%Z).
  { intros x Hx. apply In_nth_error in Hx as [j Hj]. 
    specialize (H2 (i + j) x ltac:(lia)). rewrite nth_error_app2 in H2 by lia. replace (i + j - length a) with j in H2 by lia. auto. }
  assert (Sw : sorted cmp (repeat w n)).
  { clear -Hc. induction n; cbn; constructor; auto. rewrite Forall_forall. intros y Hy. apply repeat_spec in Hy. subst. pose proof (crefl w). lia. }
  apply sorted_app; auto.
  - apply sorted_app; auto. intros x y Hx Hy. apply repeat_spec in Hx. subst. auto.
  - intros x y Hx Hy. apply in_app_or in Hy as [Hy|Hy]; [apply repeat_spec in Hy; subst|]; auto.
Qed.
Lemma sorted_del i l : sorted cmp l -> sorted cmp (del i l).
Proof.
  intros H. destruct (Nat.lt_ge_cases i (length l)) as [Q|Q].
  - destruct (split_mid l i Q) as (a & x & b & -> & La). rewrite del_mid by auto. apply (sorted_sub a b [x]). auto.
  - now rewrite del_over.
Qed.
Lemma sorted_removelast l : sorted cmp l -> sorted cmp (removelast l).
Proof.
  intros H. destruct l as [|x l]; auto. rewrite removelast_del by discriminate. now apply sorted_del.
Qed.

(** One operation on a sorted list *)
Lemma step_s d l f o : Rep d l false f -> sorted cmp l -> sallowed cmp c l o -> o <> InsertEnd ->
  exists r d', step cmp c g d o = Ok (r, d') /\ exists l' fr, Rep d' l' (mafter o false) (fr ++ f) /\
    srel cmp c l o r l' /\ (mafter o false = false -> sorted cmp l') /\ Permutation (given cmp c l o r ++ l) (l' ++ fr ++ taken l o r).
Proof.
  intros R Sl Al Ho. pose proof R as (_ & L & _ & M & F).
  assert (Hem : length l = 0 -> l = []) by (intros; destruct l; [auto|hlen]).
  assert (Vw : forall k, view c k = k) by (intros; unfold view; now rewrite Hq).
  assert (U : indep o = true -> exists r d', step cmp c g d o = Ok (r, d') /\ exists s', (r, s') = ustep cmp c l o /\
     exists fr, Rep d' s' (mafter o false) (fr ++ f) /\ Permutation (given cmp c l o r ++ l) (s' ++ fr ++ taken l o r)).
  { intros I. destruct (step_u cmp c g d l false f o R) as (r & d' & E & s' & E1 & G); auto. { congruence. }
    { rewrite Vw. destruct o; try discriminate I; cbn; auto. }
    exists r, d'. split; auto. rewrite Vw in E1. exists s'. split; auto. destruct G as (l' & fr & Ev & R' & P). rewrite Vw in *. subst. eauto. }
  assert (Ind : indep o = true -> (forall r s', (r, s') = ustep cmp c l o -> sorted cmp s') -> srel cmp c l o = (fun r l' => (r, l') = ustep cmp c l o) ->
    exists r d', step cmp c g d o = Ok (r, d') /\ exists l' fr, Rep d' l' (mafter o false) (fr ++ f) /\
    srel cmp c l o r l' /\ (mafter o false = false -> sorted cmp l') /\ Permutation (given cmp c l o r ++ l) (l' ++ fr ++ taken l o r)).
  { intros I Hso Hsr. destruct (U I) as (r & d' & E & s' & E1 & fr & R' & P). exists r, d'. split; auto. exists s', fr. split; auto. rewrite Hsr. split; auto. split; auto.
    intros _. eapply Hso; eauto. }
  assert (Same : forall r, step cmp c g d o = Ok (r, d) -> srel cmp c l o r l -> given cmp c l o r = [] -> taken l o r = [] -> mafter o false = false ->
    exists r d', step cmp c g d o = Ok (r, d') /\ exists l' fr, Rep d' l' (mafter o false) (fr ++ f) /\
    srel cmp c l o r l' /\ (mafter o false = false -> sorted cmp l') /\ Permutation (given cmp c l o r ++ l) (l' ++ fr ++ taken l o r)).
  { intros r H1 H2 H3 H4 H5. exists r, d. split; auto. exists l, []. rewrite H3, H4, H5. cbn [app]. rewrite app_nil_r. auto. }
  destruct o as [v|v i| |i| | | | |i| | |i|i j|v t|v t|v t|v w t|v i|i j|t| |]; cbn [sallowed] in Al.
  - (* Insert *)
    clear Ind U Same. destruct (insert_idx_s d l f v R Sl) as (i & Ei & Ci & Li & H1 & H2).
    destruct (set_check_s d l f v R Sl) as (r & Er & Hr).
    cbn [step]. unfold insert. rewrite Ei. cbn [bind]. rewrite Ci, insert_split, Er. cbn [bind srel].
    destruct (in_set cmp c v l).
    + destruct Hr as [k ->]. cbn [bind]. do 2 eexists. split; [reflexivity|]. exists l, []. cbn. rewrite app_nil_r. auto 7.
    + subst r. destruct (insert_raw cmp c g d l false f v (Z.of_nat i) R ltac:(lia)) as (d' & E & R').
      rewrite E. cbn [bind]. do 2 eexists. split; [reflexivity|].
      destruct (Z.ltb_spec (Z.of_nat i) 0); [lia|]. rewrite Nat2Z.id in R'.
      exists (firstn i l ++ v :: skipn i l), []. split; auto. split; [split; auto; exists i; reflexivity|]. split.
      * intros _. apply (insert_sorted cmp Hc l v i Sl); auto.
      * cbn. assert (Q : Permutation l (firstn i l ++ skipn i l)) by (now rewrite firstn_skipn). perm.
  - (* InsertAt *)
    apply (Same (RB false)); auto; cbn; auto. unfold Model.insert_at. rewrite M, Hs. reflexivity.
  - apply Ind; auto. intros r s' E. injection E as -> ->. auto.
  - apply Ind; auto. intros r s' E. injection E as -> ->. auto.
  - apply Ind; auto. intros r s' E. injection E as -> ->. auto.
  - apply Ind; auto. intros r s' E. injection E as -> ->. auto.
  - apply Ind; auto. intros r s' E. apply pair_equal_spec in E as [-> ->]. now apply sorted_del.
  - apply Ind; auto. intros r s' E. apply pair_equal_spec in E as [-> ->]. now apply sorted_removelast.
  - apply Ind; auto. intros r s' E. apply pair_equal_spec in E as [-> ->]. now apply sorted_del.
  - apply Ind; auto. intros r s' E. apply pair_equal_spec in E as [-> ->]. now apply sorted_del.
  - apply Ind; auto. intros r s' E. apply pair_equal_spec in E as [-> ->]. now apply sorted_removelast.
  - apply Ind; auto. intros r s' E. apply pair_equal_spec in E as [-> ->]. now apply sorted_del.
  - apply Ind; auto. intros r s' E. cbn [ustep] in E. destruct ((i <=? j) && (i <? length l)) eqn:Q; apply pair_equal_spec in E as [-> ->]; auto.
    apply andb_true_iff in Q as [Q1 Q2]. apply Nat.leb_le in Q1. rewrite <- (firstn_skipn i l) in Sl.
    apply sorted_inv in Sl as (S1 & S2 & S3).
    assert (Es : skipn (S j) l = skipn (S j - i) (skipn i l)) by (rewrite skipn_skipn; f_equal; lia). rewrite Es.
    apply sorted_app; auto. { now apply sorted_skipn. } intros x y Hx Hy. apply S3; auto. rewrite <- (firstn_skipn (S j - i) (skipn i l)). apply in_or_app; auto.
  - (* RemoveVal *)
    clear Ind U Same. cbn [step]. unfold match_op. rewrite (usable_cond c d l false f t v R), orb_false_r.
    destruct (negb (usable c t v) || (length l =? 0)) eqn:Q.
    + cbn [bind]. do 2 eexists; split; [reflexivity|]. exists l, []. split; auto. split.
      * exists 0. split; auto. unfold removed. assert (hits cmp c t v l = []) as ->; [|cbn; auto].
        unfold hits. destruct (usable c t v); auto. cbn in Q. apply Nat.eqb_eq in Q. rewrite (Hem Q). auto.
      * split; auto. cbn. now rewrite app_nil_r.
    + cbn [bind]. rewrite M, Hs. cbn [negb andb].
      destruct (remove_s d l f t v MRemove ltac:(discriminate) R Sl Al) as (n & l1 & Hr & S1 & [(-> & -> & E)|(d1 & fr & R1 & P & E)]); rewrite E; cbn [bind];
        do 2 eexists; (split; [reflexivity|]).
      * exists l, []. split; auto. split; [exists 0; auto|]. split; auto. cbn. now rewrite app_nil_r.
      * exists l1, fr. split; auto. split; [exists n; auto|]. split; auto. cbn [given taken app]. now rewrite app_nil_r.
  - (* Count *)
    apply (Same (RN (length (hits cmp c t v l)))); auto; cbn; auto.
    unfold match_op. rewrite (usable_cond c d l false f t v R), orb_false_r. 
    destruct (negb (usable c t v) || (length l =? 0)) eqn:Q.
    + assert (hits cmp c t v l = []) as ->; [|reflexivity].
      unfold hits. destruct (usable c t v); auto. cbn in Q. apply Nat.eqb_eq in Q. rewrite (Hem Q). auto.
    + cbn [bind]. rewrite M, Hs. cbn [negb andb]. now rewrite (count_s d l f t v R Sl).
  - (* IndexOf *)
    destruct (index_of_s d l f t v R Sl) as (r & E & Hr). apply (Same (RI r)); auto; cbn. { now rewrite E. }
    split; auto. destruct r as [i|]; auto. destruct Hr as (Hu & x & H1 & H2 & _). eauto.
  - (* ReplaceVal *)
    clear Ind U Same. cbn [step]. unfold match_op. rewrite (usable_cond c d l false f t v R). cbn [srel]. unfold replaceable.
    destruct (usable c t v) eqn:Us; cbn [negb orb andb].
    2: { cbn [bind]. do 2 eexists; split; [reflexivity|]. exists l, []. cbn. rewrite app_nil_r. split; auto. split; auto. split; auto.
         now destruct (in_set cmp c w l). }
    destruct (Nat.eqb_spec (length l) 0) as [Z|Z].
    { cbn [bind orb]. do 2 eexists; split; [reflexivity|]. exists l, []. split; auto. split.
      - destruct (negb _ && negb _); [|auto]. exists 0, l. split; auto. split; [|destruct (in_set cmp c w l); auto].
        unfold removed. assert (hits cmp c t v l = []) as ->; [|cbn; auto]. unfold hits. rewrite Us, (Hem Z). auto.
      - split; auto. cbn. rewrite app_nil_r. now destruct (in_set cmp c w l). }
    cbn [orb].
    assert ((w =? 0)%N || (if mptr t then (v =? w)%N else (cmp v w =? 0)%Z) =
            negb (negb (w =? 0)%N && negb (if mptr t then (v =? w)%N else (cmp v w =? 0)%Z))) as ->.
    { destruct (w =? 0)%N, (if mptr t then (v =? w)%N else (cmp v w =? 0)%Z); auto. }
    destruct (negb (w =? 0)%N && negb (if mptr t then (v =? w)%N else (cmp v w =? 0)%Z)); cbn [negb].
    2: { cbn [bind]. do 2 eexists; split; [reflexivity|]. exists l, []. cbn. rewrite app_nil_r. split; auto. split; auto. split; auto.
         now destruct (in_set cmp c w l). }
    destruct (set_check_s d l f w R Sl) as (r & Er & Hr).
    assert (Eop : (if isset c then do r0 <- index_of cmp c d w (mkt false (setp c)); Ok (match r0 with Some _ => MRemove | None => MReplace w end) else Ok (MReplace w))
                  = Ok (if in_set cmp c w l then MRemove else MReplace w)).
    { destruct (isset c) eqn:Is.
      - rewrite Er. cbn [bind]. destruct (in_set cmp c w l); [destruct Hr as [k ->]; auto|subst r; auto].
      - unfold in_set. now rewrite Is. }
    rewrite Eop. cbn [bind]. rewrite M, Hs. cbn [negb andb].
    destruct (remove_s d l f t v (if in_set cmp c w l then MRemove else MReplace w)) as (n & l1 & Hrm & S1 & [(-> & -> & E)|(d1 & fr & R1 & P & E)]); auto.
    { destruct (in_set cmp c w l); discriminate. }
    + rewrite E. cbn [bind]. do 2 eexists; split; [reflexivity|]. exists l, []. split; auto. split.
      * exists 0, l. split; auto. split; auto. destruct (in_set cmp c w l); auto.
      * split; auto. cbn. rewrite app_nil_r. now destruct (in_set cmp c w l).
    + rewrite E. destruct (in_set cmp c w l) eqn:Iw.
      * cbn [bind]. do 2 eexists; split; [reflexivity|]. exists l1, fr. split; auto. split; [exists n, l1; auto|].
        split; auto. cbn [given taken]. rewrite Iw, app_nil_r. auto.
      * destruct (insert_idx_s d1 l1 (fr ++ f) w R1 S1) as (i & Ei & Ci & Li & H1 & H2). rewrite Ei. cbn [bind]. rewrite Ci.
        destruct (refill_ok w n d1 l1 (fr ++ f) i R1 Li) as (d2 & E2 & R2). rewrite E2. cbn [bind].
        do 2 eexists; split; [reflexivity|]. exists (firstn i l1 ++ repeat w n ++ skipn i l1), fr. split; auto.
        assert (Q : Permutation l1 (firstn i l1 ++ skipn i l1)) by (now rewrite firstn_skipn).
        split. { exists n, l1. split; auto. split; auto. perm. }
        split. { intros _. now apply sorted_refill. }
        cbn [given taken]. rewrite Iw. perm.
  - (* ReplaceAt *)
    apply (Same (RB false)); auto; cbn; auto. unfold replace_at. rewrite M, Hs. cbn [negb andb]. now rewrite orb_true_r.
  - apply Ind; auto. intros r s' E. cbn [ustep] in E. rewrite Hs in E. cbn [orb] in E. apply pair_equal_spec in E as [-> ->]. auto.
  - (* RemoveDups *)
    clear Ind U Same. cbn [step]. unfold remove_duplicates. rewrite Al. cbn [negb andb].
    destruct (dup_outer_s t Al (S (elems d)) d [] l f R ltac:(lia) Sl) as (d' & fr & E & R' & P). cbn [length app] in E, R'. rewrite E. cbn [bind].
    do 2 eexists; split; [reflexivity|]. exists (dedup (length l) (fun x y => matches cmp t x y) l), fr. split; auto. split; [cbn; auto|].
    split; [intros _; now apply sorted_dedup|]. cbn [given taken app]. now rewrite app_nil_r.
  - (* InsertBegin *) apply Ind; auto. intros r s' E. injection E as -> ->. auto.
  - congruence.
Qed.
End Ops.

(** Every operation *)
Lemma step_ok c g d l m f o : wf_cfg c -> Rep d l m f -> (is_sorting c m = true -> sorted cmp l) -> lallowed cmp c (view c l) m o ->
  exists r d' l' fr, step cmp c g d o = Ok (r, d') /\ lrel cmp c (view c l) m o r (view c l') (mafter o m) fr /\ Rep d' l' (mafter o m) (fr ++ f).
Proof.
  intros W R Sl Al.
  assert (Vp : forall a b fr g0 tk, Permutation (g0 ++ a) (b ++ fr ++ tk) -> Permutation (g0 ++ view c a) (view c b ++ fr ++ tk)).
  { intros a b fr g0 tk P. pose proof (view_perm c a). pose proof (view_perm c b). perm. }
  destruct o; try (
    cbn [lallowed] in Al; unfold lrel; destruct (is_sorting c m) eqn:Is;
    [ assert (Hm : m = false) by (unfold is_sorting in Is; destruct (srt c), m; auto; discriminate);
      assert (Hs : srt c = true) by (unfold is_sorting in Is; destruct (srt c), m; auto; discriminate); subst m;
      destruct W as [W _]; destruct (W Hs) as [He Hq];
      assert (Vw : forall k, view c k = k) by (intros; unfold view; now rewrite Hq); rewrite Vw in *;
      edestruct (step_s c g Hs Hq d l f) as (r & d' & E & l' & fr & R' & Hsr & So & P); [exact R|auto|exact Al|discriminate|];
      exists r, d', l', fr; split; [exact E|]; split; [|exact R']; split; [reflexivity|]; rewrite Vw; split; [exact Hsr|]; split; [|exact P];
      intros Q; apply So; unfold is_sorting in Q; cbn [mafter] in *; rewrite ?andb_false_r in Q; auto; discriminate
    | edestruct (step_u cmp c g d l m f) as (r & d' & E & s' & E1 & l' & fr & Ev & R' & P); [exact R|auto|exact Al|discriminate|];
      exists r, d', l', fr; split; [exact E|]; split; [|exact R']; split; [reflexivity|]; rewrite Ev; split; [exact E1|]; split; [|subst s'; apply Vp; exact P];
      intros Q; unfold is_sorting in *; cbn [mafter negb] in *; rewrite ?andb_false_r in Q; congruence ]).
  (* InsertEnd *)
  cbn [step]. unfold insert_end. pose proof R as ((pre & post & E & S) & L & B & M & F). rewrite M. destruct m; cbn [negb].
  - destruct (srt c) eqn:Hs; cbn [andb].
    + destruct W as [W _]. destruct (W Hs) as [He Hq]. assert (Vw : forall k, view c k = k) by (intros; unfold view; now rewrite Hq).
      assert (Srt : exists b l', (if negb (elems d =? 0) then
             do a <- rdn (base d) (start d) (elems d);
             do a <- (if stable c then mergesort cmp (Datatypes.S (length a)) a else qsort cmp (Datatypes.S (length a)) a 0 (length a));
             wrn (base d) (start d) a
           else Ok (base d)) = Ok b /\ b = pre ++ l' ++ post /\ Permutation l' l /\ sorted cmp l' /\ (stable c = true -> forall x, equals_of cmp x l' = equals_of cmp x l)).
      { destruct (Nat.eqb_spec (elems d) 0) as [Z|Z]; cbn [negb].
        - exists (base d), l. assert (l = []) as -> by (destruct l; [auto|hlen]). split; auto. split; auto. split; auto. split; [constructor|auto].
        - rewrite (rdn_rep d l true f R). cbn [bind]. destruct (stable c).
          + destruct (mergesort_stable_sort N cmp Hc l) as (l' & E1 & P & S1 & St). rewrite E1. cbn [bind].
            rewrite E, S. rewrite (wrn_ok pre l post l') by (now apply Permutation_length). exists (pre ++ l' ++ post), l'. auto 6.
          + destruct (qsort_sorts N cmp Hc l) as (l' & E1 & P & S1). rewrite E1. cbn [bind].
            rewrite E, S. rewrite (wrn_ok pre l post l') by (now apply Permutation_length). exists (pre ++ l' ++ post), l'. repeat split; auto. discriminate. }
      destruct Srt as (b & l' & Eb & -> & P & S1 & St).
      assert (Ll : length l' = length l) by (now apply Permutation_length).
      rewrite Eb. cbn [bind]. do 2 eexists; exists l', []. split; [reflexivity|]. rewrite !Vw. split.
      * split; [reflexivity|]. rewrite Hs. cbn [andb]. split; auto. split; auto. cbn. rewrite app_nil_r. now apply Permutation_sym.
      * split; [exists pre, post; auto|]. cbn. split; [congruence|]. split; [rewrite E in B; rewrite !app_length, Ll in *; lia|auto].
    + cbn [bind]. do 2 eexists; exists l, []. split; [reflexivity|]. split.
      * split; [reflexivity|]. rewrite Hs. cbn [andb]. split; auto. split; [unfold is_sorting; rewrite Hs; discriminate|]. cbn. now rewrite app_nil_r.
      * split; [exists pre, post; auto|]. cbn. auto.
  - cbn [bind]. do 2 eexists; exists l, []. split; [reflexivity|]. split; auto.
    split; [reflexivity|]. rewrite andb_false_r. split; auto. split; [|cbn; now rewrite app_nil_r].
    intros Q. unfold view. destruct W as [W _]. unfold is_sorting in Q. apply andb_true_iff in Q as [Hs _]. destruct (W Hs) as [_ Hq]. rewrite Hq.
    apply Sl. unfold is_sorting. rewrite Hs. auto.
Qed.

Lemma run_ok c g : wf_cfg c -> forall ops d l m f, Rep d l m f -> (is_sorting c m = true -> sorted cmp l) -> safe cmp c (view c l) m ops ->
  exists rs d' l' m' fr, run cmp c g ops d = Ok (rs, d') /\ chain cmp c (view c l) m ops rs (view c l') m' fr /\ Rep d' l' m' (fr ++ f).
Proof.
  intros W. induction ops as [|o ops IH]; intros d l m f R Sl Sa.
  - exists [], d, l, m, []. split; auto. split; [constructor|auto].
  - destruct Sa as [Al Sa]. destruct (step_ok c g d l m f o W R Sl Al) as (r & d1 & l1 & fr1 & E & Lr & R1).
    destruct (IH d1 l1 (mafter o m) (fr1 ++ f) R1) as (rs & d' & l' & m' & fr & E2 & C & R2).
    + intros Q. destruct Lr as (_ & _ & So & _). specialize (So Q). unfold view in So. destruct (stack c) eqn:S; auto.
      destruct W as [W _]. unfold is_sorting in Q. apply andb_true_iff in Q as [Hs _]. destruct (W Hs). congruence.
    + eapply Sa; eauto.
    + exists (r :: rs), d', l', m', (fr ++ fr1). cbn [run]. rewrite E. cbn [bind]. rewrite E2. cbn [bind]. split; auto. split; [econstructor; eauto|].
      now rewrite <- app_assoc.
Qed.
End Srt.

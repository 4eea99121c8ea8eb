From Verif Require Import Base.Lib Base.Mem Sort.Spec Queue.Spec Queue.Model.
From Verif Require Hash.Use Llist.Step Llist.Proofs Llist.Spec Llist.Model Hash.Spec Hash.Model.

Section Prf.
Context (cmp : N -> N -> Z) (srtd : bool) (hash : N -> N) (lev : nat -> nat) (g : N).
Context (Hc : srtd = true -> total_preorder cmp).
Notation lcfg := (lcfg srtd).
Notation lcmp := (lcmp cmp srtd).
Notation LRep := (Llist.Step.Rep lcmp lcfg).
Notation Holds := (Hash.Use.Holds vp hash).
Notation rel := (rel cmp srtd).

Lemma vp_keys : Hash.Use.good_keys vp hash.
Proof.
  unfold Hash.Use.good_keys, vp. split; [intros; lia|]. split; [intros; lia|]. split; [intros; lia|]. intros x y H. f_equal. lia.
Qed.
Lemma lgood : Llist.Spec.good_cmp lcmp lcfg.
Proof.
  unfold Llist.Spec.good_cmp, Queue.Model.lcmp. cbn [Llist.Spec.srt Queue.Model.lcfg]. destruct srtd; [|auto].
  exact (Hc eq_refl).
Qed.
Definition is_m (m : N) (e : nat * N) : bool := (snd e =? m)%N.
Definition node_of (el : list (nat * N)) (m : N) : option N := option_map (fun e => N.of_nat (S (fst e))) (find (is_m m) el).
Definition QRep (q : queue) (l : list N) : Prop :=
  exists el, LRep (ql q) el /\ Llist.Spec.vals el = l /\ NoDup l /\ ~ In 0%N l /\ Holds (qh q) (node_of el).

Lemma node_none el m : node_of el m = None <-> mem m (Llist.Spec.vals el) = false.
Proof.
  unfold node_of, mem, Llist.Spec.vals. induction el as [|[n x] el IH]; cbn; [tauto|]. unfold is_m. cbn. rewrite (N.eqb_sym m x). destruct (N.eqb_spec x m); cbn.
  - split; discriminate.
  - exact IH.
Qed.
Lemma find_split {A} (P : A -> bool) l e : find P l = Some e -> exists a b, l = a ++ e :: b /\ P e = true /\ forall x, In x a -> P x = false.
Proof.
  induction l as [|x l IH]; cbn; [discriminate|]. destruct (P x) eqn:E.
  - intros [= ->]. exists [], l. split; auto. split; auto. intros y [].
  - intros H. destruct (IH H) as (a & b & -> & Pe & Ha). exists (x :: a), b. split; auto. split; auto. intros y [<-|Hy]; auto.
Qed.
Lemma node_some el m v : node_of el m = Some v -> exists a n b, el = a ++ (n, m) :: b /\ v = N.of_nat (S n).
Proof.
  unfold node_of. destruct (find (is_m m) el) as [e|] eqn:E; [|discriminate]. intros [= <-]. apply find_split in E.
  destruct E as (a & b & -> & P & _). destruct e as [n x]. unfold is_m in P. cbn in P. apply N.eqb_eq in P. subst x. exists a, n, b. auto.
Qed.
Lemma node_mem el m v : node_of el m = Some v -> mem m (Llist.Spec.vals el) = true.
Proof. intros H. destruct (mem m (Llist.Spec.vals el)) eqn:E; auto. apply node_none in E. congruence. Qed.
Lemma mem_in m l : mem m l = true <-> In m l.
Proof. unfold mem. rewrite existsb_exists. split; [intros (x & H & E); apply N.eqb_eq in E; now subst|intros H; exists m; split; auto; apply N.eqb_refl]. Qed.
Lemma mem_out m l : mem m l = false -> out m l = l.
Proof.
  intros H. unfold out. rewrite <- (app_nil_r l) at 2. induction l as [|x l IH]; auto. cbn in *. apply orb_false_iff in H. destruct H as [A B]. rewrite N.eqb_sym, A. cbn. now rewrite IH.
Qed.
Lemma vals_mid a n m b : Llist.Spec.vals (a ++ (n, m) :: b) = Llist.Spec.vals a ++ m :: Llist.Spec.vals b.
Proof. unfold Llist.Spec.vals. now rewrite map_app. Qed.
Lemma vals_app a b : Llist.Spec.vals (a ++ b) = Llist.Spec.vals a ++ Llist.Spec.vals b.
Proof. apply map_app. Qed.
Lemma out_mid m a b : NoDup (a ++ m :: b) -> out m (a ++ m :: b) = a ++ b.
Proof.
  intros H. apply NoDup_remove_2 in H. unfold out. rewrite filter_app. cbn. rewrite N.eqb_refl. cbn.
  assert (K : forall l, ~ In m l -> filter (fun x => negb (x =? m)%N) l = l).
  { intros l Hl. apply mem_out. destruct (mem m l) eqn:E; auto. apply mem_in in E. contradiction. }
  rewrite in_app_iff in H. rewrite !K; tauto.
Qed.
(** Positions of the members after an insertion or removal at a place *)
Lemma node_mid a n m b x : ~ In m (Llist.Spec.vals (a ++ b)) ->
  node_of (a ++ (n, m) :: b) x = if (m =? x)%N then Some (N.of_nat (S n)) else node_of (a ++ b) x.
Proof.
  intros H. unfold node_of. induction a as [|[n1 x1] a IH]; cbn.
  - unfold is_m at 1. cbn. destruct (N.eqb_spec m x); auto.
  - unfold is_m at 1 3. cbn. destruct (N.eqb_spec x1 x) as [->|]; cbn.
    + destruct (N.eqb_spec m x) as [->|]; auto. exfalso. apply H. cbn. auto 8.
    + apply IH. intros Hi. apply H. cbn. auto 8.
Qed.
Lemma perm_nodup {A} (a b : list A) : Permutation a b -> NoDup a -> NoDup b.
Proof. intros P. now rewrite P. Qed.

Lemma lookup_ok q l m : QRep q l -> m <> 0%N -> exists el, LRep (ql q) el /\ Llist.Spec.vals el = l /\ NoDup l /\ ~ In 0%N l /\ Holds (qh q) (node_of el) /\
  lookup hash q m = Ok (node_of el m).
Proof.
  intros (el & R & V & Nd & Nz & Ho) Hz. exists el. repeat (split; auto). unfold lookup. apply (Hash.Use.holds_get vp hash lev g vp_keys _ _ _ Ho Hz).
Qed.
Lemma vp0 m x : (vp m x =? 0)%Z = (m =? x)%N.
Proof. unfold vp. destruct (N.eqb_spec m x), (Z.eqb_spec (Z.of_N m - Z.of_N x) 0); auto; lia. Qed.

Lemma insert_ok q l m : QRep q l -> exists b q' l', insert cmp srtd hash lev g q m = Ok (b, q') /\ QRep q' l' /\ rel l (Insert m) (RB b) l' [] /\ Llist.Model.fr (ql q') = Llist.Model.fr (ql q).
Proof.
  intros Q. unfold insert. cbn [Queue.Spec.rel]. destruct (N.eqb_spec m 0) as [->|Hz]; cbn [orb].
  { exists false, q, l. auto 8. }
  destruct (lookup_ok q l m Q Hz) as (el & R & V & Nd & Nz & Ho & E). rewrite E. cbn [bind]. destruct (node_of el m) as [v|] eqn:En.
  - apply node_mem in En. rewrite V in En. rewrite En. exists false, q, l. auto 8.
  - pose proof En as En2. apply node_none in En2. rewrite V in En2. rewrite En2.
    destruct (Llist.Step.step_ok lcmp lcfg lev eq_refl lgood (ql q) el (Llist.Spec.Insert m) R I) as (r & d' & el' & f & Es & R' & Rel & Fr & _).
    unfold lstep. rewrite Es. cbn [bind]. destruct Rel as (Pf & So & Rel). cbn [Llist.Spec.srt Queue.Model.lcfg] in So, Rel. assert (Hz2 : (m =? 0)%N = false) by lia.
    assert (Nm : ~ In m l) by (intros Hi; apply mem_in in Hi; congruence).
    assert (K : exists a b n, el = a ++ b /\ el' = a ++ (n, m) :: b /\ r = Llist.Spec.RP (Some n) /\ (srtd = false -> b = [])).
    { cbn [Llist.Spec.ustep] in Rel. rewrite Hz2 in Rel. destruct srtd.
      - destruct Rel as (-> & i & ->). unfold insert_at. exists (firstn i el), (skipn i el), (length (Llist.Model.hp (ql q))). rewrite firstn_skipn. repeat split; auto. discriminate.
      - injection Rel as -> ->. exists el, [], (length (Llist.Model.hp (ql q))). rewrite app_nil_r. auto. }
    destruct K as (a & b & n & Ea & Eb & -> & Eu). subst el el'.
    unfold hstep. cbn [qh ql node_ptr].
    destruct (Hash.Use.holds_insert vp hash lev g vp_keys (qh q) _ m (N.of_nat (S n)) Ho Hz) as (h' & Eh & Ho'). rewrite Eh. cbn [bind].
    assert (Fe : f = []).
    { cbn [Llist.Spec.freed_by] in Pf. rewrite Llist.Step.gone_none in Pf; [now apply Permutation_sym, Permutation_nil in Pf|].
      intros x Hx. unfold Llist.Spec.ids in *. rewrite map_app in *. cbn. rewrite in_app_iff in *. cbn. tauto. }
    eexists true, _, (Llist.Spec.vals (a ++ (n, m) :: b)). split; [reflexivity|]. cbn [ql]. rewrite Fr, Fe. split; [|split; [|reflexivity]].
    + assert (Pm : Permutation (m :: l) (Llist.Spec.vals (a ++ (n, m) :: b))) by (rewrite vals_mid, <- V, vals_app; apply Permutation_middle).
      eexists. split; [exact R'|]. split; [reflexivity|]. cbn [qh]. split; [|split].
      * apply (perm_nodup _ _ Pm). constructor; auto.
      * intros Hi. apply (Permutation_in _ (Permutation_sym Pm)) in Hi. destruct Hi; auto.
      * eapply Hash.Use.holds_ext; [exact Ho'|]. intros k Hk. cbn beta. rewrite vp0, node_mid by (rewrite V; auto). reflexivity.
    + split; auto. split; auto. destruct srtd.
      * split; [|unfold Queue.Model.lcmp in So; exact (So eq_refl)]. exists (length a). rewrite <- V, vals_mid, vals_app. unfold insert_at.
        assert (La : length (Llist.Spec.vals a) = length a) by apply map_length. rewrite <- La, firstn_len, skipn_len by reflexivity. reflexivity.
      * rewrite (Eu eq_refl) in *. rewrite <- V, app_nil_r, vals_mid. reflexivity.
Qed.

(** Removal of the node of a member *)
Lemma unnode q a n m b (fv : bool) : LRep (ql q) (a ++ (n, m) :: b) -> NoDup (Llist.Spec.vals (a ++ (n, m) :: b)) -> ~ In 0%N (Llist.Spec.vals (a ++ (n, m) :: b)) ->
  Holds (qh q) (node_of (a ++ (n, m) :: b)) -> forall dv,
  exists q1 q2 b1 r, lstep cmp srtd lev q (if fv then Llist.Spec.RemoveNode n else Llist.Spec.TakeNode n) = Ok (r, q1) /\
    (fv = false -> r = Llist.Spec.RV m) /\
    hstep hash lev g q1 (Hash.Spec.Remove m dv) = Ok (b1, q2) /\ QRep q2 (Llist.Spec.vals (a ++ b)) /\
    Llist.Model.fr (ql q2) = (if fv then [m] else []) ++ Llist.Model.fr (ql q).
Proof.
  intros R Nd Nz Ho dv. pose proof (Llist.Step.rep_view lcmp lcfg _ _ R) as Vw.
  pose proof (Llist.Proofs.v_nd _ _ Vw) as Ni. rewrite Llist.Proofs.ids_app in Ni. cbn in Ni.
  assert (N1 : ~ In n (Llist.Spec.ids a) /\ ~ In n (Llist.Spec.ids b)) by (apply NoDup_remove_2 in Ni; rewrite in_app_iff in Ni; tauto). destruct N1 as [Na Nb].
  set (o := if fv then Llist.Spec.RemoveNode n else Llist.Spec.TakeNode n).
  assert (Al : Llist.Spec.allowed (a ++ (n, m) :: b) o).
  { assert (In n (Llist.Spec.ids (a ++ (n, m) :: b))) by (rewrite Llist.Proofs.ids_app; apply in_elt). unfold o. destruct fv; exact H. }
  destruct (Llist.Step.step_ok lcmp lcfg lev eq_refl lgood (ql q) _ o R Al) as (r & d' & el' & f & Es & R' & Rel & Fr & _).
  unfold lstep. rewrite Es. cbn [bind]. destruct Rel as (Pf & _ & Rel).
  assert (K : el' = a ++ b /\ (fv = false -> r = Llist.Spec.RV m) /\ f = if fv then [m] else []).
  { unfold o in *. destruct fv; cbn [Llist.Spec.ustep Llist.Spec.freed_by] in *; injection Rel as -> ->; rewrite Llist.Proofs.drop_mid in * by auto; split; auto.
    - split; [discriminate|]. rewrite filter_app in Pf. cbn [filter fst] in Pf.
      assert (Q : forall x, In x (Llist.Spec.ids (a ++ b)) -> existsb (Nat.eqb x) (Llist.Spec.ids (a ++ b)) = true) by (intros x Hx; apply existsb_exists; exists x; split; auto; apply Nat.eqb_refl).
      assert (Qn : existsb (Nat.eqb n) (Llist.Spec.ids (a ++ b)) = false).
      { destruct (existsb (Nat.eqb n) (Llist.Spec.ids (a ++ b))) eqn:E; auto. apply existsb_exists in E. destruct E as (x & Hx & Ex). apply Nat.eqb_eq in Ex. subst x.
        rewrite Llist.Proofs.ids_app, in_app_iff in Hx. tauto. }
      rewrite Qn in Pf. cbn [negb] in Pf.
      assert (Qf : forall l, (forall e, In e l -> In e (a ++ b)) -> filter (fun e : nat * N => negb (existsb (Nat.eqb (fst e)) (Llist.Spec.ids (a ++ b)))) l = []).
      { intros l. induction l as [|e l IH]; intros Hl; auto. cbn [filter]. rewrite Q by (apply Llist.Step.in_ids, Hl; left; auto). cbn [negb]. apply IH. intros x Hx. apply Hl. right; auto. }
      rewrite !Qf in Pf by (intros e He; apply in_app_iff; auto). cbn in Pf. now apply Permutation_sym, Permutation_length_1_inv in Pf.
    - split; [intros _; now rewrite Llist.Proofs.val_of_mid|]. now apply Permutation_sym, Permutation_nil in Pf. }
  destruct K as (-> & Kr & Kf).
  rewrite vals_mid in Nd, Nz. rewrite in_app_iff in Nz. cbn in Nz.
  assert (Hz : m <> 0%N) by (intros ->; tauto). pose proof (NoDup_remove_2 _ _ _ Nd) as Nm.
  unfold hstep. cbn [qh ql].
  destruct (Hash.Use.holds_remove vp hash lev g vp_keys (qh q) _ m dv Ho Hz) as (h' & Eh & Ho').
  eexists _, _, _, r. split; [reflexivity|]. split; [exact Kr|]. cbn [qh ql]. rewrite Eh. cbn [bind]. split; [reflexivity|]. cbn [qh ql]. rewrite Fr, Kf. split; [|reflexivity].
  exists (a ++ b). split; [exact R'|]. split; [reflexivity|]. rewrite vals_app. split; [eapply NoDup_remove_1; eauto|]. split; [rewrite in_app_iff; tauto|].
  eapply Hash.Use.holds_ext; [exact Ho'|]. intros k Hk. cbn beta. rewrite vp0, node_mid by (rewrite vals_app; auto).
  destruct (N.eqb_spec m k) as [<-|]; auto. symmetry. apply node_none. rewrite vals_app. destruct (mem m (Llist.Spec.vals a ++ Llist.Spec.vals b)) eqn:E; auto.
  apply mem_in in E. contradiction.
Qed.
Lemma drop_ok q l m fv : QRep q l -> exists q', drop cmp srtd hash lev g fv q m = Ok (mem m l, q') /\ QRep q' (out m l) /\
  Llist.Model.fr (ql q') = (if fv && mem m l then [m] else []) ++ Llist.Model.fr (ql q).
Proof.
  intros Q. unfold drop. destruct (N.eqb_spec m 0) as [->|Hz].
  { assert (E : mem 0 l = false) by (destruct Q as (el & _ & _ & _ & Nz & _); destruct (mem 0 l) eqn:E; auto; apply mem_in in E; contradiction).
    exists q. rewrite E, mem_out, andb_false_r by auto. auto. }
  destruct (lookup_ok q l m Q Hz) as (el & R & V & Nd & Nz & Ho & E). rewrite E. cbn [bind]. destruct (node_of el m) as [v|] eqn:En.
  - pose proof (node_mem _ _ _ En) as Mm. rewrite V in Mm. rewrite Mm, andb_true_r.
    destruct (node_some _ _ _ En) as (a & n & b & -> & ->). subst l. unfold ptr_node. destruct (N.eqb_spec (N.of_nat (S n)) 0); [lia|]. cbn [bind].
    replace (N.to_nat (N.of_nat (S n) - 1)) with n by lia.
    destruct (unnode q a n m b fv R Nd Nz Ho (negb fv)) as (q1 & q2 & b1 & r & E1 & _ & E2 & Q2 & F2). rewrite E1. cbn [bind]. rewrite E2. cbn [bind].
    exists q2. split; auto. split; auto. rewrite vals_mid in *. rewrite out_mid by auto. now rewrite <- vals_app.
  - apply node_none in En. rewrite V in En. rewrite En, andb_false_r, mem_out by auto. exists q. auto.
Qed.
Lemma take_first_ok q l : QRep q l -> exists q', take_first cmp srtd hash lev g q = Ok (hd 0%N l, q') /\ QRep q' (tl l) /\ Llist.Model.fr (ql q') = Llist.Model.fr (ql q).
Proof.
  intros Q. pose proof Q as (el & R & V & Nd & Nz & Ho). unfold take_first.
  rewrite (Llist.Proofs.view_first _ _ (Llist.Step.rep_view lcmp lcfg _ _ R)). cbn [bind]. destruct el as [|[n m] el]; subst l; cbn [Llist.Proofs.nxt_of Llist.Spec.ids map].
  - exists q. auto.
  - destruct (unnode q [] n m el false R Nd Nz Ho false) as (q1 & q2 & b1 & r & E1 & Er & E2 & Q2 & F2). cbn [fst]. rewrite E1. cbn [bind]. rewrite (Er eq_refl), E2. cbn [bind].
    exists q2. auto.
Qed.
Lemma peek_first q l : QRep q l -> peek cmp srtd lev q Llist.Spec.First = Ok (hd 0%N l).
Proof.
  intros (el & R & V & _). unfold peek, lstep. cbn [Llist.Model.step].
  rewrite (Llist.Proofs.view_first _ _ (Llist.Step.rep_view lcmp lcfg _ _ R)). cbn [bind]. destruct el as [|[n m] el]; subst l; auto.
  cbn [Llist.Proofs.nxt_of Llist.Spec.ids map fst]. apply (Llist.Step.rep_at lcmp lcfg (ql q) [] n m el R).
Qed.
Lemma peek_last q l : QRep q l -> peek cmp srtd lev q Llist.Spec.Last = Ok (last l 0%N).
Proof.
  intros (el & R & V & _). unfold peek, lstep. cbn [Llist.Model.step]. cbn [bind].
  rewrite (Llist.Proofs.v_tl _ _ (Llist.Step.rep_view lcmp lcfg _ _ R)). subst l.
  destruct (list_eq_dec (fun x y : nat * N => ltac:(repeat decide equality)) el []) as [->|Ne]; auto.
  destruct (exists_last Ne) as (a & [n m] & ->). rewrite Llist.Proofs.ids_app, Llist.Proofs.lst_app. cbn. rewrite vals_mid. cbn. rewrite last_last.
  apply (Llist.Step.rep_at lcmp lcfg (ql q) a n m [] R).
Qed.
Lemma collect_at q el : LRep (ql q) el -> forall b a n m fuel, el = a ++ (n, m) :: b -> length b + 1 < fuel -> collect fuel q (At n) = Ok (m :: Llist.Spec.vals b).
Proof.
  intros R. induction b as [|[n2 m2] b IH]; intros a n m fuel E Hf; (destruct fuel as [|fuel]; [cbn in Hf; lia|]); cbn [collect]; unfold foreach; cbn [bind];
    assert (R2 := R); rewrite E in R2; destruct (Llist.Step.rep_at lcmp lcfg (ql q) a n m _ R2) as (-> & -> & _); cbn [bind Llist.Proofs.nxt_of Llist.Spec.ids map fst].
  - destruct fuel as [|fuel]; [cbn in Hf; lia|]. reflexivity.
  - rewrite (IH (a ++ [(n, m)]) n2 m2 fuel); [reflexivity| |cbn in Hf; lia]. now rewrite <- app_assoc.
Qed.
Lemma collect_ok q l : QRep q l -> collect (S (Llist.Model.cnt (ql q))) q Start = Ok l.
Proof.
  intros (el & R & V & _). pose proof (Llist.Step.rep_view lcmp lcfg _ _ R) as Vw. rewrite (Llist.Proofs.v_cnt _ _ Vw). subst l. destruct el as [|[n m] el].
  - cbn [collect length]. unfold foreach. rewrite (Llist.Proofs.view_first _ _ Vw). reflexivity.
  - pose proof (collect_at q _ R el [] n m (S (length ((n, m) :: el))) eq_refl) as K. cbn [length] in *. change (Llist.Spec.vals ((n, m) :: el)) with (m :: Llist.Spec.vals el). rewrite <- K by lia. cbn [collect].
    unfold foreach. rewrite (Llist.Proofs.view_first _ _ Vw). reflexivity.
Qed.
Lemma step_ok q l o : QRep q l -> exists r q' l' f, step cmp srtd hash lev g q o = Ok (r, q') /\ QRep q' l' /\ rel l o r l' f /\ Llist.Model.fr (ql q') = f ++ Llist.Model.fr (ql q).
Proof.
  intros Q. pose proof Q as (el & R & V & Nd & Nz & Ho).
  destruct o as [m|m|m|m| | | | |]; cbn [step].
  - destruct (insert_ok q l m Q) as (b & q' & l' & E & Q' & Rl & F). rewrite E. cbn [bind]. exists (RB b), q', l', []. auto.
  - destruct (drop_ok q l m true Q) as (q' & E & Q' & F). rewrite E. cbn [bind]. eexists _, q', _, _. split; [reflexivity|]. split; [exact Q'|]. split; [cbn; auto|exact F].
  - destruct (drop_ok q l m false Q) as (q' & E & Q' & F). rewrite E. cbn [bind]. eexists _, q', _, _. split; [reflexivity|]. split; [exact Q'|]. split; [cbn; auto|exact F].
  - unfold qexists. exists (RB (mem m l)), q, l, []. split; [|cbn; auto]. destruct (N.eqb_spec m 0) as [->|Hz].
    + assert (E : mem 0 l = false) by (destruct (mem 0 l) eqn:E; auto; apply mem_in in E; contradiction). now rewrite E.
    + destruct (lookup_ok q l m Q Hz) as (el2 & _ & V2 & _ & _ & _ & E). rewrite E. cbn [bind]. destruct (node_of el2 m) eqn:En; cbn [bind].
      * apply node_mem in En. rewrite V2 in En. now rewrite En.
      * apply node_none in En. rewrite V2 in En. now rewrite En.
  - assert (L : Llist.Model.cnt (ql q) = length l) by (rewrite (Llist.Proofs.v_cnt _ _ (Llist.Step.rep_view lcmp lcfg _ _ R)), <- V; symmetry; apply map_length).
    rewrite L. exists (RN (length l)), q, l, []. cbn. auto 8.
  - rewrite (peek_first q l Q). cbn [bind]. eexists _, q, l, []. cbn. auto 8.
  - destruct (take_first_ok q l Q) as (q' & E & Q' & F). rewrite E. cbn [bind]. eexists _, q', _, []. split; [reflexivity|]. split; [exact Q'|]. cbn. auto 8.
  - rewrite (peek_last q l Q). cbn [bind]. eexists _, q, l, []. cbn. auto 8.
  - rewrite (collect_ok q l Q). cbn [bind]. eexists _, q, l, []. cbn. auto 8.
Qed.
Lemma create_ok : exists q, create srtd = Some q /\ QRep q [] /\ Llist.Model.fr (ql q) = [].
Proof.
  unfold create. destruct (Hash.Use.holds_create vp hash lev) as (h & -> & Ho).
  eexists. split; [reflexivity|]. split; [|reflexivity]. exists []. cbn [ql qh]. split; [apply Llist.Step.rep_create; auto|]. split; [reflexivity|]. split; [constructor|]. split; [intros []|exact Ho].
Qed.
Lemma run_ok : forall ops q l, QRep q l -> exists rs q' l' f, run cmp srtd hash lev g ops q = Ok (rs, q') /\ QRep q' l' /\ chain cmp srtd l ops rs l' f /\ Llist.Model.fr (ql q') = f ++ Llist.Model.fr (ql q).
Proof.
  induction ops as [|o ops IH]; intros q l Q; cbn [run].
  - exists [], q, l, []. repeat (split; auto). constructor.
  - destruct (step_ok q l o Q) as (r & q1 & l1 & f1 & E & Q1 & Rl & F1). rewrite E. cbn [bind].
    destruct (IH q1 l1 Q1) as (rs & q2 & l2 & f2 & E2 & Q2 & C & F2). rewrite E2. cbn [bind].
    exists (r :: rs), q2, l2, (f2 ++ f1). split; auto. split; auto. split; [econstructor; eauto|]. now rewrite F2, F1, app_assoc.
Qed.
End Prf.

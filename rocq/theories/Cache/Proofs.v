From Verif Require Import Base.Lib Base.Mem Sort.Spec Cache.Spec Cache.Model.
From Verif Require Hash.Use Llist.Step Llist.Proofs Llist.Spec Llist.Model Llist.Destroy Hash.Spec Hash.Model.

Section Prf.
Context (kcmp : N -> N -> Z) (hash : N -> N) (kdup vdup : option (nat -> N -> N)) (lev : nat -> nat) (g : N).
Context (Hk : Hash.Use.good_keys kcmp hash).
Context (Hd : forall f n k, kdup = Some f -> k <> 0%N -> f n k <> 0%N /\ kcmp k (f n k) = 0%Z).
Notation LRep := (Llist.Step.Rep lcmp lcfg).
Notation Holds := (Hash.Use.Holds kcmp hash).
Definition is_some {A} (o : option A) : bool := match o with Some _ => true | None => false end.
Notation rel := (rel kcmp (is_some kdup) (is_some vdup)).
Notation chain := (chain kcmp (is_some kdup) (is_some vdup)).

Lemma krefl x : kcmp x x = 0%Z. Proof. destruct Hk as (A & _). apply A. Qed.
Lemma ksym x y : kcmp x y = 0%Z -> kcmp y x = 0%Z. Proof. destruct Hk as (_ & A & _). apply A. Qed.
Lemma ktr x y z : kcmp x y = 0%Z -> kcmp y z = 0%Z -> kcmp x z = 0%Z. Proof. destruct Hk as (_ & _ & A & _). apply A. Qed.

(** An entry: its node, its cell, its key and value *)
Notation ent := (nat * nat * (N * N))%type.
Definition en (e : ent) : nat := fst (fst e).
Definition ei (e : ent) : nat := snd (fst e).
Definition kv (e : ent) : N * N := snd e.
Definition key (e : ent) : N := fst (kv e).
Definition els (t : list ent) : list (nat * N) := map (fun e => (en e, to_ptr (ei e))) t.
Definition hit (k : N) (e : ent) : bool := same kcmp k (kv e).
Definition node_of (t : list ent) (k : N) : option N := option_map (fun e => to_ptr (en e)) (find (hit k) t).
Fixpoint uniq (ks : list N) : Prop :=
  match ks with [] => True | k :: ks' => (forall k2, In k2 ks' -> kcmp k k2 <> 0%Z) /\ uniq ks' end.
Record Cl (s : list (option (N * N))) (t : list ent) : Prop := mkcl {
  cl_nd : NoDup (map ei t);
  cl_in : forall e, In e t -> nth_error s (ei e) = Some (Some (kv e));
  cl_al : forall i p, nth_error s i = Some (Some p) -> In i (map ei t) }.
Record CRep (c : cache) (t : list ent) : Prop := mkcr {
  cr_l : LRep (cl c) (els t);
  cr_c : Cl (cells c) t;
  cr_h : Holds (ct c) (node_of t);
  cr_u : uniq (map key t);
  cr_z : forall e, In e t -> key e <> 0%N;
  cr_m : length t <= maxsz c }.

Lemma els_app a b : els (a ++ b) = els a ++ els b. Proof. apply map_app. Qed.
Lemma to_of n : of_ptr (to_ptr n) = Ok n.
Proof. unfold of_ptr, to_ptr. destruct (N.eqb_spec (N.of_nat (S n)) 0); [lia|]. f_equal. lia. Qed.
Lemma to_nz n : to_ptr n <> 0%N. Proof. unfold to_ptr. lia. Qed.
Lemma uniq_perm a b : Permutation a b -> uniq a -> uniq b.
Proof.
  induction 1 as [|x a b P IH|x y a|a b c P1 IH1 P2 IH2]; cbn; auto.
  - intros [A B]. split; auto. intros k2 H. apply A. now apply (Permutation_in _ (Permutation_sym P)).
  - intros (A & B & C). repeat split; auto.
    intros k2 [<-|H]; auto. intro K. apply ksym in K. now apply (A x (or_introl eq_refl)).
Qed.
Lemma uniq_mid a k b : uniq (a ++ k :: b) -> (forall k2, In k2 (a ++ b) -> kcmp k k2 <> 0%Z) /\ uniq (a ++ b).
Proof.
  intro H. assert (P : Permutation (a ++ k :: b) (k :: a ++ b)) by (symmetry; apply Permutation_middle).
  apply (uniq_perm _ _ P) in H. exact H.
Qed.
Lemma key_nin t k : node_of t k = None <-> forall e, In e t -> kcmp k (key e) <> 0%Z.
Proof.
  unfold node_of. destruct (find (hit k) t) as [e|] eqn:E; cbn.
  - apply find_some in E. destruct E as [Hi Hh]. unfold hit, same in Hh. apply Z.eqb_eq in Hh.
    split; [discriminate|]. intro H. elim (H e Hi). exact Hh.
  - split; auto. intros _ e He K. apply (find_none _ _ E) in He. unfold hit, same in He. apply Z.eqb_neq in He. contradiction.
Qed.
Lemma node_mid a e b k : uniq (map key (a ++ e :: b)) ->
  node_of (a ++ e :: b) k = if (kcmp (key e) k =? 0)%Z then Some (to_ptr (en e)) else node_of (a ++ b) k.
Proof.
  intro U. assert (U2 := U). rewrite map_app in U2. cbn [map] in U2. apply uniq_mid in U2. destruct U2 as [U2 _]. rewrite <- map_app in U2.
  unfold node_of. clear U. induction a as [|x a IH]; cbn [app find].
  - assert (E : hit k e = (kcmp (key e) k =? 0)%Z).
    { unfold hit, same. fold (key e). destruct (Z.eqb_spec (kcmp k (key e)) 0) as [K|K], (Z.eqb_spec (kcmp (key e) k) 0) as [K2|K2]; auto; apply ksym in K || apply ksym in K2; contradiction. }
    rewrite E. destruct (kcmp (key e) k =? 0)%Z; reflexivity.
  - destruct (hit k x) eqn:Ex.
    + unfold hit, same in Ex. apply Z.eqb_eq in Ex. fold (key x) in Ex. destruct (Z.eqb_spec (kcmp (key e) k) 0) as [K|K]; auto.
      elim (U2 (key x)); [left; reflexivity|]. eapply ktr; eauto.
    + apply IH. intros k2 H. apply U2. cbn. now right.
Qed.
Lemma node_gone a e b k : uniq (map key (a ++ e :: b)) -> kcmp (key e) k = 0%Z -> node_of (a ++ b) k = None.
Proof.
  intros U K. rewrite map_app in U. cbn [map] in U. apply uniq_mid in U. destruct U as [U _]. rewrite <- map_app in U.
  apply key_nin. intros x Hx Kx. apply (U (key x)); [now apply in_map|]. eapply ktr; eauto.
Qed.
Lemma find_at t k : match find (hit k) t with
  | Some e => exists a b, t = a ++ e :: b /\ kcmp k (key e) = 0%Z /\ forall x, In x a -> hit k x = false
  | None => forall e, In e t -> hit k e = false end.
Proof.
  induction t as [|x t IH]; cbn; [intros e []|]. destruct (hit k x) eqn:E.
  - exists [], t. split; auto. split; [unfold hit, same in E; now apply Z.eqb_eq in E|]. intros y [].
  - destruct (find (hit k) t) as [e|].
    + destruct IH as (a & b & -> & K & H). exists (x :: a), b. split; auto. split; auto. intros y [<-|Hy]; auto.
    + intros e [<-|He]; auto.
Qed.
Lemma find_kv t k : find (same kcmp k) (map kv t) = option_map kv (find (hit k) t).
Proof. induction t as [|e t IH]; cbn; auto. unfold hit at 1. destruct (same kcmp k (kv e)); auto. Qed.
Lemma del_none k l : (forall e, In e l -> same kcmp k e = false) -> del kcmp k l = l.
Proof. intro H. unfold del. induction l as [|e l IH]; cbn; auto. rewrite H by (left; auto). cbn. f_equal. apply IH. intros; apply H; right; auto. Qed.
Lemma del_mid a e b k : uniq (map key (a ++ e :: b)) -> kcmp k (key e) = 0%Z -> del kcmp k (map kv (a ++ e :: b)) = map kv (a ++ b).
Proof.
  intros U K. rewrite map_app in U. cbn [map] in U. apply uniq_mid in U. destruct U as [U _]. rewrite <- map_app in U.
  assert (H : forall x, In x (a ++ b) -> same kcmp k (kv x) = false).
  { intros x Hx. apply Z.eqb_neq. intro Kx. apply (U (key x)); [now apply in_map|]. eapply ktr; [apply ksym; exact K|exact Kx]. }
  unfold del. rewrite !map_app, filter_app. cbn [map filter].
  replace (same kcmp k (kv e)) with true by (symmetry; apply Z.eqb_eq; exact K). cbn [negb].
  change (del kcmp k (map kv a) ++ del kcmp k (map kv b) = map kv a ++ map kv b).
  rewrite !del_none; auto; intros y Hy; apply in_map_iff in Hy; destruct Hy as (x & <- & Hx); apply H, in_or_app; auto.
Qed.

(** ** The list *)
Lemma lgood : Llist.Spec.good_cmp lcmp lcfg.
Proof. intros x y _. reflexivity. Qed.
Lemma ids_notin d a e b : LRep d (els (a ++ e :: b)) -> ~ In (en e) (Llist.Spec.ids (els a)) /\ ~ In (en e) (Llist.Spec.ids (els b)).
Proof.
  intro R. pose proof (Llist.Proofs.v_nd _ _ (Llist.Step.rep_view _ _ _ _ R)) as Ni. rewrite els_app, Llist.Proofs.ids_app in Ni. cbn in Ni.
  apply NoDup_remove_2 in Ni. rewrite in_app_iff in Ni. tauto.
Qed.
Lemma l_in a e b : In (en e) (Llist.Spec.ids (els (a ++ e :: b))).
Proof. rewrite els_app, Llist.Proofs.ids_app. apply in_or_app. right. left. reflexivity. Qed.
Lemma l_take d a e b : LRep d (els (a ++ e :: b)) ->
  exists d', Llist.Model.step lcmp lcfg lev d (Llist.Spec.TakeNode (en e)) = Ok (Llist.Spec.RV (to_ptr (ei e)), d') /\ LRep d' (els (a ++ b)).
Proof.
  intro R. destruct (ids_notin _ _ _ _ R) as [Na Nb].
  destruct (Llist.Step.step_ok lcmp lcfg lev eq_refl lgood d _ (Llist.Spec.TakeNode (en e)) R (l_in a e b)) as (r & d' & el' & f & Es & R' & Rel & _).
  destruct Rel as (_ & _ & Rel). cbn [Llist.Spec.ustep] in Rel. apply pair_equal_spec in Rel. destruct Rel as [-> ->].
  rewrite els_app in *. cbn [els map] in *. fold (els b) in *. rewrite Llist.Proofs.drop_mid, Llist.Proofs.val_of_mid in * by auto.
  exists d'. split; [exact Es|]. rewrite ?els_app; exact R'.
Qed.
Lemma l_front d a e b : LRep d (els (a ++ e :: b)) ->
  exists r d', Llist.Model.step lcmp lcfg lev d (Llist.Spec.SetFirst (en e)) = Ok (r, d') /\ LRep d' (els (e :: a ++ b)).
Proof.
  intro R. destruct (ids_notin _ _ _ _ R) as [Na Nb].
  destruct (Llist.Step.step_ok lcmp lcfg lev eq_refl lgood d _ (Llist.Spec.SetFirst (en e)) R (l_in a e b)) as (r & d' & el' & f & Es & R' & Rel & _).
  destruct Rel as (_ & _ & Rel). cbn [Llist.Spec.ustep Llist.Spec.srt lcfg] in Rel. apply pair_equal_spec in Rel. destruct Rel as [-> ->].
  rewrite els_app in *. cbn [els map] in *. fold (els b) in *. rewrite Llist.Proofs.drop_mid, Llist.Proofs.val_of_mid in * by auto.
  exists Llist.Spec.RU, d'. split; [exact Es|]. rewrite ?map_app; exact R'.
Qed.
Lemma l_insert d t i kw : LRep d (els t) ->
  exists n d', Llist.Model.step lcmp lcfg lev d (Llist.Spec.InsertFirst (to_ptr i)) = Ok (Llist.Spec.RP (Some n), d') /\ LRep d' (els ((n, i, kw) :: t)).
Proof.
  intro R. destruct (Llist.Step.step_ok lcmp lcfg lev eq_refl lgood d _ (Llist.Spec.InsertFirst (to_ptr i)) R I) as (r & d' & el' & f & Es & R' & Rel & _).
  destruct Rel as (_ & _ & Rel). cbn [Llist.Spec.ustep Llist.Spec.srt lcfg] in Rel. destruct (N.eqb_spec (to_ptr i) 0) as [K|_]; [elim (to_nz i K)|].
  cbn [orb] in Rel. apply pair_equal_spec in Rel. destruct Rel as [-> ->]. eexists _, d'. split; [exact Es|exact R'].
Qed.
Lemma l_cnt d t : LRep d (els t) -> Llist.Model.cnt d = length t.
Proof. intro R. rewrite (Llist.Proofs.v_cnt _ _ (Llist.Step.rep_view _ _ _ _ R)). apply map_length. Qed.
Lemma l_last d a e : LRep d (els (a ++ [e])) -> Llist.Model.tl d = Some (en e).
Proof.
  intro R. rewrite (Llist.Proofs.v_tl _ _ (Llist.Step.rep_view _ _ _ _ R)), els_app, Llist.Proofs.ids_app, Llist.Proofs.lst_app. reflexivity.
Qed.
Lemma l_cell c a e b : LRep (cl c) (els (a ++ e :: b)) -> node_cell c (en e) = Ok (ei e).
Proof.
  intro R. rewrite els_app in R. destruct (Llist.Step.rep_at lcmp lcfg (cl c) _ _ _ _ R) as (E & _).
  unfold node_cell. rewrite E. cbn [bind]. apply to_of.
Qed.

(** ** The cells *)
Lemma cl_cell c a e b : Cl (cells c) (a ++ e :: b) -> cell c (ei e) = Ok (kv e).
Proof. intros [_ H _]. unfold cell. rewrite H; auto. apply in_or_app. right. now left. Qed.
Lemma cl_free s a e b : Cl s (a ++ e :: b) -> Cl (upd s (ei e) None) (a ++ b).
Proof.
  intros [Nd Hi Ha]. rewrite map_app in Nd. cbn in Nd. split.
  - rewrite map_app. now apply NoDup_remove_1 in Nd.
  - intros x Hx. rewrite nth_error_upd. apply NoDup_remove_2 in Nd. rewrite <- map_app in Nd.
    destruct (Nat.eqb_spec (ei x) (ei e)) as [K|K].
    + elim Nd. rewrite <- K. now apply in_map.
    + cbn. apply Hi. apply in_app_iff in Hx. apply in_app_iff. cbn. tauto.
  - intros i p H. rewrite nth_error_upd in H. destruct (Nat.eqb_spec i (ei e)) as [K|K]; cbn [andb] in H.
    + destruct (ei e <? length s) eqn:El; cbn [andb] in H; [discriminate|]. subst i. assert (nth_error s (ei e) = None) by (apply nth_error_None; apply Nat.ltb_ge in El; auto). congruence.
    + apply Ha in H. rewrite map_app in *. cbn in H. apply in_app_iff in H. apply in_app_iff. cbn in H. intuition congruence.
Qed.
Lemma cl_set s a e b p : Cl s (a ++ e :: b) -> Cl (upd s (ei e) (Some p)) (a ++ (fst e, p) :: b).
Proof.
  intros [Nd Hi Ha].
  assert (Em : map ei (a ++ (fst e, p) :: b) = map ei (a ++ e :: b)) by (rewrite !map_app; reflexivity).
  assert (Hl : ei e < length s). { apply nth_error_Some. rewrite Hi by (apply in_or_app; right; left; auto). discriminate. }
  split; rewrite ?Em; auto.
  - intros x Hx. rewrite nth_error_upd. rewrite map_app in Nd. cbn in Nd. apply NoDup_remove_2 in Nd. rewrite <- map_app in Nd.
    apply in_app_iff in Hx. cbn in Hx. destruct Hx as [Hx|[<-|Hx]].
    + destruct (Nat.eqb_spec (ei x) (ei e)) as [K|K]; [elim Nd; rewrite <- K; apply in_map, in_or_app; auto|]. cbn. apply Hi, in_or_app. auto.
    + change (ei (fst e, p)) with (ei e). rewrite Nat.eqb_refl. apply Nat.ltb_lt in Hl. rewrite Hl. reflexivity.
    + destruct (Nat.eqb_spec (ei x) (ei e)) as [K|K]; [elim Nd; rewrite <- K; apply in_map, in_or_app; auto|]. cbn. apply Hi, in_or_app. right. now right.
  - intros i q H. rewrite nth_error_upd in H. destruct (Nat.eqb_spec i (ei e)) as [->|K]; cbn [andb] in H.
    + rewrite map_app. cbn. apply in_or_app. right. now left.
    + eapply Ha; eauto.
Qed.
Lemma cl_perm s t t' : Permutation t t' -> Cl s t -> Cl s t'.
Proof.
  intros P [Nd Hi Ha]. split.
  - now rewrite <- P.
  - intros e He. apply Hi. now apply (Permutation_in _ (Permutation_sym P)).
  - intros i p H. rewrite <- P. eauto.
Qed.
Lemma cl_new s t n p : Cl s t -> Cl (s ++ [Some p]) ((n, length s, p) :: t).
Proof.
  intros [Nd Hi Ha]. split.
  - cbn. constructor; auto. intro K. apply in_map_iff in K. destruct K as (e & E & He). specialize (Hi e He).
    assert (ei e < length s) by (apply nth_error_Some; congruence). cbn in E. lia.
  - intros e [<-|He]; cbn.
    + rewrite nth_error_app2, Nat.sub_diag by lia. reflexivity.
    + specialize (Hi e He). assert (ei e < length s) by (apply nth_error_Some; congruence). now rewrite nth_error_app1.
  - intros i q H. cbn. destruct (lt_dec i (length s)) as [L|L].
    + rewrite nth_error_app1 in H by auto. right. eauto.
    + left. assert (i < length (s ++ [Some p])) by (apply nth_error_Some; congruence). rewrite app_length in *. cbn in *. lia.
Qed.

(** ** The calls *)
Lemma lookup_ok c t k : CRep c t -> k <> 0%N -> lookup kcmp hash c k = Ok (node_of t k).
Proof. intros R Hz. apply (Hash.Use.holds_get kcmp hash lev g Hk _ _ _ (cr_h _ _ R) Hz). Qed.
Lemma h_remove c a e b k : Holds (ct c) (node_of (a ++ e :: b)) -> uniq (map key (a ++ e :: b)) -> kcmp (key e) k = 0%Z -> k <> 0%N ->
  exists h, hstep kcmp hash lev g c (Hash.Spec.Remove k false) = Ok (mkca h (cl c) (cells c) (maxsz c) (kfr c) (vfr c) (copies c)) /\ Holds h (node_of (a ++ b)).
Proof.
  intros Ho U K Hz. destruct (Hash.Use.holds_remove kcmp hash lev g Hk _ _ k false Ho Hz) as (h & E & H).
  exists h. unfold hstep. rewrite E. cbn [bind]. split; auto. eapply Hash.Use.holds_ext; [exact H|]. intros k2 Hk2. cbn beta.
  rewrite node_mid by auto. destruct (Z.eqb_spec (kcmp k k2) 0) as [K2|K2].
  - symmetry. eapply node_gone; [exact U|]. eapply ktr; eauto.
  - destruct (Z.eqb_spec (kcmp (key e) k2) 0) as [K3|K3]; auto. elim K2. eapply ktr; [apply ksym; exact K|exact K3].
Qed.
Lemma h_insert c t e : Holds (ct c) (node_of t) -> key e <> 0%N -> uniq (map key (e :: t)) ->
  exists h, hstep kcmp hash lev g c (Hash.Spec.Insert (key e) (to_ptr (en e))) = Ok (mkca h (cl c) (cells c) (maxsz c) (kfr c) (vfr c) (copies c)) /\ Holds h (node_of (e :: t)).
Proof.
  intros Ho Hz U. destruct (Hash.Use.holds_insert kcmp hash lev g Hk _ _ (key e) (to_ptr (en e)) Ho Hz) as (h & E & H).
  exists h. unfold hstep. rewrite E. cbn [bind]. split; auto. eapply Hash.Use.holds_ext; [exact H|]. intros k2 Hk2. cbn beta.
  change (e :: t) with ([] ++ e :: t). rewrite node_mid by exact U. reflexivity.
Qed.
Lemma holds_perm h a e b : Holds h (node_of (a ++ e :: b)) -> uniq (map key (a ++ e :: b)) -> Holds h (node_of (e :: a ++ b)).
Proof.
  intros Ho U. eapply Hash.Use.holds_ext; [exact Ho|]. intros k Hz. rewrite node_mid by auto.
  change (e :: a ++ b) with ([] ++ e :: a ++ b). rewrite node_mid; auto. cbn [app].
  eapply uniq_perm; [|exact U]. apply Permutation_map. symmetry. apply Permutation_middle.
Qed.
Lemma uniq_front a e b : uniq (map key (a ++ e :: b)) -> uniq (map key (e :: a ++ b)).
Proof. intro U. eapply uniq_perm; [|exact U]. apply Permutation_map. symmetry. apply Permutation_middle. Qed.
Lemma uniq_out a e b : uniq (map key (a ++ e :: b)) -> uniq (map key (a ++ b)).
Proof. intro U. apply uniq_front in U. apply U. Qed.
Lemma crep_ext c c' t : ct c' = ct c -> cl c' = cl c -> cells c' = cells c -> maxsz c' = maxsz c -> CRep c t -> CRep c' t.
Proof. intros A B C D [R1 R2 R3 R4 R5 R6]. split; rewrite ?A, ?B, ?C, ?D; auto. Qed.
Lemma drop_ok c a e b k : CRep c (a ++ e :: b) -> kcmp (key e) k = 0%Z -> k <> 0%N ->
  exists c1 c2 c3, take_node lev c (en e) = Ok (ei e, c1) /\ cell c1 (ei e) = Ok (kv e) /\
    hstep kcmp hash lev g c1 (Hash.Spec.Remove k false) = Ok c2 /\ value_destroy c2 (ei e) true = Ok c3 /\
    CRep c3 (a ++ b) /\ kfr c3 = key e :: kfr c /\ vfr c3 = snd (kv e) :: vfr c /\ maxsz c3 = maxsz c /\ Llist.Model.cnt (cl c3) = length (a ++ b).
Proof.
  intros R K Hz. destruct (l_take _ _ _ _ (cr_l _ _ R)) as (d & Ed & Rd).
  unfold take_node, lstep. rewrite Ed. cbn [bind]. rewrite to_of. cbn [bind].
  set (c1 := mkca _ _ _ _ _ _ _).
  assert (Ec : forall h d, cell (mkca h d (cells c) (maxsz c) (kfr c) (vfr c) (copies c)) (ei e) = Ok (kv e)).
  { intros. eapply (cl_cell (mkca _ _ _ _ _ _ _)). apply (cr_c _ _ R). }
  destruct (h_remove c1 a e b k (cr_h _ _ R) (cr_u _ _ R) K Hz) as (h & Eh & Hh).
  eexists c1, _, _. split; [reflexivity|]. split; [apply Ec|]. split; [exact Eh|]. unfold c1. cbn [cl cells maxsz kfr vfr copies].
  unfold value_destroy. rewrite Ec. cbn [bind]. split; [reflexivity|]. cbn [cl cells maxsz kfr vfr copies]. split.
  - split; cbn [ct cl cells maxsz].
    + exact Rd.
    + apply cl_free. apply (cr_c _ _ R).
    + exact Hh.
    + eapply uniq_out, (cr_u _ _ R).
    + intros x Hx. apply (cr_z _ _ R). apply in_app_iff in Hx. apply in_app_iff. cbn. tauto.
    + pose proof (cr_m _ _ R) as L. rewrite app_length in *. cbn in L. lia.
  - repeat (split; [reflexivity|]). now apply l_cnt.
Qed.
Lemma front_ok c a e b : CRep c (a ++ e :: b) ->
  exists r c', lstep lev c (Llist.Spec.SetFirst (en e)) = Ok (r, c') /\ CRep c' (e :: a ++ b) /\
    kfr c' = kfr c /\ vfr c' = vfr c /\ maxsz c' = maxsz c /\ copies c' = copies c.
Proof.
  intro R. destruct (l_front _ _ _ _ (cr_l _ _ R)) as (r & d & Ed & Rd). unfold lstep. rewrite Ed. cbn [bind].
  eexists r, _. split; [reflexivity|]. cbn. split; auto.
  assert (P : Permutation (a ++ e :: b) (e :: a ++ b)) by (symmetry; apply Permutation_middle).
  split; cbn [ct cl cells maxsz].
  - exact Rd.
  - eapply cl_perm; [exact P|apply (cr_c _ _ R)].
  - apply holds_perm; [apply (cr_h _ _ R)|apply (cr_u _ _ R)].
  - apply uniq_front, (cr_u _ _ R).
  - intros x Hx. apply (cr_z _ _ R). now apply (Permutation_in _ (Permutation_sym P)).
  - rewrite <- (Permutation_length P). apply (cr_m _ _ R).
Qed.
Lemma set_value c a e b v : CRep c (a ++ e :: b) ->
  set_cell c (ei e) (key e, v) = Ok (set_cells c (upd (cells c) (ei e) (Some (key e, v)))) /\
  CRep (set_cells c (upd (cells c) (ei e) (Some (key e, v)))) (a ++ (fst e, (key e, v)) :: b).
Proof.
  intro R. assert (Em : map key (a ++ (fst e, (key e, v)) :: b) = map key (a ++ e :: b)) by (rewrite !map_app; reflexivity).
  split.
  - unfold set_cell. rewrite (cl_cell c a e b (cr_c _ _ R)). reflexivity.
  - split; cbn [ct cl cells maxsz set_cells]; rewrite ?Em.
    + replace (els (a ++ (fst e, (key e, v)) :: b)) with (els (a ++ e :: b)) by (rewrite !els_app; reflexivity). apply (cr_l _ _ R).
    + apply cl_set, (cr_c _ _ R).
    + eapply Hash.Use.holds_ext; [apply (cr_h _ _ R)|]. intros k Hz. rewrite !node_mid; rewrite ?Em; auto; apply (cr_u _ _ R).
    + apply (cr_u _ _ R).
    + intros x Hx. apply in_app_iff in Hx. cbn in Hx. destruct Hx as [Hx|[<-|Hx]]; [| |]; try (apply (cr_z _ _ R), in_app_iff; cbn; tauto).
      apply (cr_z _ _ R e), in_elt.
    + pose proof (cr_m _ _ R) as L. rewrite app_length in *. exact L.
Qed.
Definition same_but (c c' : cache) : Prop :=
  ct c' = ct c /\ cl c' = cl c /\ cells c' = cells c /\ maxsz c' = maxsz c /\ kfr c' = kfr c /\ vfr c' = vfr c.
Lemma copy_value_ok b c k v : exists v' c', copy_value vdup b c k v = (v', c') /\ same_but c c' /\ (is_some vdup = false -> v' = v).
Proof.
  unfold copy_value. destruct vdup as [f|]; [destruct (b || negb (v =? 0)%N)|]; eexists _, _; (split; [reflexivity|]); (split; [repeat split|]); auto; discriminate.
Qed.
Lemma copy_key_ok c k : k <> 0%N -> exists k' c', copy_key kdup c k = (k', c') /\ same_but c c' /\ kcmp k k' = 0%Z /\ k' <> 0%N /\ (is_some kdup = false -> k' = k).
Proof.
  intro Hz. unfold copy_key. destruct kdup as [f|] eqn:E.
  - eexists _, _. split; [reflexivity|]. split; [repeat split|]. destruct (Hd f (copies c) k eq_refl Hz). repeat split; auto. discriminate.
  - eexists _, _. split; [reflexivity|]. split; [repeat split|]. split; [apply krefl|]. auto.
Qed.

Lemma insert_ok c t k v : CRep c t -> exists b c' t' fk fv, insert kcmp hash kdup vdup lev g c k v = Ok (b, c') /\ CRep c' t' /\
  rel (maxsz c) (map kv t) (Insert k v) (RB b) (maxsz c') (map kv t') fk fv /\ kfr c' = fk ++ kfr c /\ vfr c' = fv ++ vfr c.
Proof.
  intro R. unfold insert. cbn [Cache.Spec.rel]. destruct (N.eqb_spec k 0) as [->|Hz]; cbn [orb].
  { exists false, c, t, [], []. auto 10. }
  destruct (maxsz c =? 0) eqn:Em.
  { exists false, c, t, [], []. auto 10. }
  apply Nat.eqb_neq in Em. rewrite (lookup_ok c t k R Hz). cbn [bind]. rewrite find_kv. unfold node_of.
  pose proof (find_at t k) as Fa. destruct (find (hit k) t) as [e|]; cbn [option_map].
  - (* the key is there *)
    destruct Fa as (a & b & -> & K & _). rewrite to_of. cbn [bind]. rewrite (l_cell c a e b (cr_l _ _ R)). cbn [bind].
    rewrite (cl_cell c a e b (cr_c _ _ R)). cbn [bind].
    set (c1 := mkca _ _ _ _ _ _ _).
    destruct (copy_value_ok false c1 k v) as (v' & c2 & Ev & (S1 & S2 & S3 & S4 & S5 & S6) & Hv). rewrite Ev.
    assert (R2 : CRep c2 (a ++ e :: b)) by (eapply crep_ext; [..|exact R]; auto).
    destruct (set_value c2 a e b v' R2) as [Es R3]. fold (key e). rewrite Es. cbn [bind].
    set (e' := (fst e, (key e, v'))) in *. change (en e) with (en e').
    destruct (front_ok _ _ _ _ R3) as (r & c4 & E4 & R4 & K4 & V4 & M4 & _). rewrite E4. cbn [bind].
    eexists true, c4, _, [], [snd (kv e)]. split; [reflexivity|]. split; [exact R4|]. rewrite K4, V4, M4. cbn [set_cells maxsz kfr vfr].
    rewrite S4, S5, S6. unfold c1. cbn [maxsz kfr vfr]. split; [|auto]. split; auto. split; auto. exists v'. split; auto.
    unfold kv at 1. destruct (snd e) as [k0 v0] eqn:Ese.
    split; [|unfold kv; rewrite Ese; auto]. cbn [map]. rewrite (del_mid a e b k (cr_u _ _ R) K). unfold e', kv at 1, key, kv. cbn. now rewrite Ese.
  - assert (Hn : forall e, In e t -> kcmp k (key e) <> 0%Z).
    { intros e He. specialize (Fa e He). unfold hit, same in Fa. now apply Z.eqb_neq in Fa. }
    assert (Hu : forall k', kcmp k k' = 0%Z -> forall k2, In k2 (map key t) -> kcmp k' k2 <> 0%Z).
    { intros k' Kk k2 Hi K2. apply in_map_iff in Hi. destruct Hi as (x & <- & Hx). apply (Hn x Hx). eapply ktr; eauto. }
    rewrite (l_cnt _ _ (cr_l _ _ R)). destruct (Nat.eqb_spec (length t) (maxsz c)) as [El|El].
    + (* evict the last entry *)
      destruct (exists_last (l := t)) as (a & e & ->); [intros ->; cbn in El; lia|].
      rewrite (l_last _ _ _ (cr_l _ _ R)). rewrite (l_cell c a e [] (cr_l _ _ R)). cbn [bind]. rewrite (cl_cell c a e [] (cr_c _ _ R)). cbn [bind]. fold (key e).
      destruct (h_remove c a e [] (key e) (cr_h _ _ R) (cr_u _ _ R) (krefl _)) as (h & Eh & Hh); [apply (cr_z _ _ R), in_elt|].
      rewrite Eh. cbn [bind]. unfold value_destroy.
      assert (Ec : forall h d m x y z, cell (mkca h d (cells c) m x y z) (ei e) = Ok (kv e)).
      { intros. eapply (cl_cell (mkca _ _ _ _ _ _ _)). apply (cr_c _ _ R). }
      rewrite Ec. cbn [bind ct cl cells maxsz kfr vfr copies]. fold (key e).
      set (c3 := mkca _ _ _ _ _ _ _).
      destruct (copy_key_ok c3 k Hz) as (k' & c4 & Ek & (S1 & S2 & S3 & S4 & S5 & S6) & Kk & Hz' & Hkk). rewrite Ek.
      unfold c3 in S1, S2, S3, S4, S5, S6. cbn [ct cl cells maxsz kfr vfr] in S1, S2, S3, S4, S5, S6.
      pose proof (cl_set _ _ _ _ (0%N, 0%N) (cr_c _ _ R)) as C1. rewrite <- S3 in C1.
      unfold set_cell at 1. change (ei e) with (ei (fst e, (0%N, 0%N))). rewrite (cl_cell c4 a _ [] C1). cbn [bind].
      apply (cl_set _ _ _ _ (k', 0%N)) in C1. cbn [fst] in C1.
      set (c5 := set_cells c4 _). assert (C5 : Cl (cells c5) (a ++ [(fst e, (k', 0%N))])) by exact C1.
      destruct (h_insert c5 a (fst e, (k', 0%N))) as (h2 & Eh2 & Hh2).
      { unfold c5. cbn [ct set_cells]. rewrite S1, app_nil_r in *. exact Hh. }
      { exact Hz'. }
      { cbn [map]. split; [|pose proof (cr_u _ _ R) as U; apply uniq_out in U; now rewrite app_nil_r in U].
        intros k2 H2. apply (Hu k' Kk). rewrite map_app. apply in_or_app. now left. }
      change (key (fst e, (k', 0%N))) with k' in Eh2. change (en (fst e, (k', 0%N))) with (en e) in Eh2. rewrite Eh2. cbn [bind].
      set (c6 := mkca h2 _ _ _ _ _ _).
      destruct (copy_value_ok false c6 k v) as (v' & c7 & Ev & (T1 & T2 & T3 & T4 & T5 & T6) & Hv). rewrite Ev.
      assert (C7 : Cl (cells c7) (a ++ [(fst e, (k', 0%N))])) by (rewrite T3; exact C5).
      unfold set_cell. change (ei (fst e, (0%N, 0%N))) with (ei (fst e, (k', 0%N))). rewrite (cl_cell c7 a _ [] C7). cbn [bind].
      apply (cl_set _ _ _ _ (k', v')) in C7. cbn [fst] in C7.
      set (c8 := set_cells c7 _). change (Cl (cells c8) (a ++ [(fst e, (k', v'))])) in C7.
      set (e' := (fst e, (k', v'))) in *.
      assert (L8 : LRep (cl c8) (els (a ++ [e']))).
      { unfold c8. cbn [cl set_cells]. rewrite T2. unfold c6. cbn [cl]. unfold c5. cbn [cl set_cells]. rewrite S2.
        replace (els (a ++ [e'])) with (els (a ++ [e])) by (rewrite !els_app; reflexivity). apply (cr_l _ _ R). }
      destruct (l_front _ _ _ _ L8) as (r & d & Ed & Rd). unfold lstep. change (en e) with (en e'). rewrite Ed. cbn [bind]. rewrite app_nil_r in Rd.
      assert (Fs : forall f : cache -> list N, True) by auto.
      eexists true, _, (e' :: a), [key e], [snd (kv e)]. split; [reflexivity|]. cbn [maxsz kfr vfr].
      unfold c8. cbn [set_cells maxsz kfr vfr]. rewrite T4, T5, T6. unfold c6. cbn [maxsz kfr vfr]. unfold c5. cbn [set_cells maxsz kfr vfr]. rewrite S4, S5, S6.
      split; [|split; [|auto]].
      * split; cbn [ct cl cells maxsz].
        -- exact Rd.
        -- eapply cl_perm; [|exact C7]. symmetry. apply Permutation_cons_append.
        -- change (Holds (ct c7) (node_of (e' :: a))). rewrite T1. eapply Hash.Use.holds_ext; [exact Hh2|].
           intros k2 _. unfold node_of. cbn [find]. change (hit k2 e') with (hit k2 (fst e, (k', 0%N))). destruct (hit k2 (fst e, (k', 0%N))); reflexivity.
        -- cbn [map]. split; [|pose proof (cr_u _ _ R) as U; apply uniq_out in U; now rewrite app_nil_r in U].
           intros k2 H2. apply (Hu k' Kk). rewrite map_app. apply in_or_app. now left.
        -- intros x [<-|Hx]; [exact Hz'|]. apply (cr_z _ _ R), in_or_app. now left.
        -- rewrite app_length in El. cbn in *. lia.
      * split; auto. split; auto. exists v'. split; auto. exists k'. split; auto. split; auto.
        rewrite app_length in El. cbn [length] in El.
        assert (El2 : maxsz c = S (length (map kv a))) by (rewrite map_length; lia). rewrite El2. rewrite map_app. cbn [firstn skipn map].
        rewrite firstn_len, skipn_len by reflexivity. auto.
    + (* there is room *)
      unfold value_create. destruct (copy_key_ok c k Hz) as (k' & c1 & Ek & (S1 & S2 & S3 & S4 & S5 & S6) & Kk & Hz' & Hkk). rewrite Ek.
      destruct (copy_value_ok true c1 k v) as (v' & c2 & Ev & (T1 & T2 & T3 & T4 & T5 & T6) & Hv). rewrite Ev.
      set (c3 := set_cells c2 _).
      assert (L3 : LRep (cl c3) (els t)) by (unfold c3; cbn [cl set_cells]; rewrite T2, S2; apply (cr_l _ _ R)).
      destruct (l_insert _ _ (length (cells c2)) (k', v') L3) as (n & d & Ed & Rd). unfold lstep at 1. rewrite Ed. cbn [bind].
      set (c4 := mkca _ d _ _ _ _ _). set (e := (n, length (cells c2), (k', v'))) in *.
      assert (U : uniq (map key (e :: t))) by (split; [apply (Hu k' Kk)|apply (cr_u _ _ R)]).
      destruct (h_insert c4 t e) as (h2 & Eh2 & Hh2); [|exact Hz'|exact U|].
      { unfold c4, c3. cbn [ct set_cells]. rewrite T1, S1. apply (cr_h _ _ R). }
      change (key e) with k' in Eh2. change (en e) with n in Eh2. rewrite Eh2. cbn [bind].
      set (c5 := mkca h2 _ _ _ _ _ _).
      assert (R5 : CRep c5 ([] ++ e :: t)).
      { split; cbn [app].
        - exact Rd.
        - unfold c5, c4, c3. cbn [cells set_cells]. unfold e. apply cl_new. rewrite T3, S3. apply (cr_c _ _ R).
        - exact Hh2.
        - exact U.
        - intros x [<-|Hx]; [exact Hz'|apply (cr_z _ _ R _ Hx)].
        - unfold c5, c4, c3. cbn [maxsz set_cells length]. rewrite T4, S4. pose proof (cr_m _ _ R). lia. }
      destruct (front_ok _ _ _ _ R5) as (r & c6 & E6 & R6 & K6 & V6 & M6 & _). change (en e) with n in E6. rewrite E6. cbn [bind app] in *.
      eexists true, c6, _, [], []. split; [reflexivity|]. split; [exact R6|]. rewrite K6, V6, M6. unfold c5, c4, c3. cbn [maxsz kfr vfr set_cells].
      rewrite T4, T5, T6, S4, S5, S6. split; [|auto]. split; auto. split; auto. exists v'. split; auto. exists k'. split; auto. split; auto.
      pose proof (cr_m _ _ R) as Lm. rewrite firstn_all2, skipn_all2 by (cbn [length]; rewrite map_length; lia). auto.
Qed.
Lemma remove_ok c t k : CRep c t -> exists b c' t' fk fv, remove kcmp hash lev g c k = Ok (b, c') /\ CRep c' t' /\
  rel (maxsz c) (map kv t) (Remove k) (RB b) (maxsz c') (map kv t') fk fv /\ kfr c' = fk ++ kfr c /\ vfr c' = fv ++ vfr c.
Proof.
  intro R. unfold remove. cbn [Cache.Spec.rel]. destruct (N.eqb_spec k 0) as [->|Hz].
  { exists false, c, t, [], []. auto 10. }
  rewrite (lookup_ok c t k R Hz). cbn [bind]. rewrite find_kv. unfold node_of.
  pose proof (find_at t k) as Fa. destruct (find (hit k) t) as [e|]; cbn [option_map].
  - destruct Fa as (a & b & -> & K & _). rewrite to_of. cbn [bind].
    destruct (drop_ok c a e b k R (ksym _ _ K) Hz) as (c1 & c2 & c3 & E1 & _ & E2 & E3 & R3 & K3 & V3 & M3 & _).
    rewrite E1. cbn [bind]. rewrite E2. cbn [bind]. rewrite E3. cbn [bind].
    exists true, c3, (a ++ b), [key e], [snd (kv e)]. split; auto. split; auto. rewrite K3, V3, M3. split; auto. split; auto.
    unfold key, kv. destruct (snd e) as [k0 v0] eqn:Es. split; auto. split; auto. symmetry. apply (del_mid a e b k (cr_u _ _ R) K).
  - exists false, c, t, [], []. auto 10.
Qed.
Lemma cget_ok c t k : CRep c t -> exists v c' t', cget kcmp hash lev c k = Ok (v, c') /\ CRep c' t' /\
  rel (maxsz c) (map kv t) (Get k) (RG v) (maxsz c') (map kv t') [] [] /\ kfr c' = kfr c /\ vfr c' = vfr c.
Proof.
  intro R. unfold cget. cbn [Cache.Spec.rel]. destruct (N.eqb_spec k 0) as [->|Hz].
  { exists None, c, t. auto 10. }
  rewrite (lookup_ok c t k R Hz). cbn [bind]. rewrite find_kv. unfold node_of.
  pose proof (find_at t k) as Fa. destruct (find (hit k) t) as [e|]; cbn [option_map].
  - destruct Fa as (a & b & -> & K & _). rewrite to_of. cbn [bind].
    destruct (front_ok _ _ _ _ R) as (r & c4 & E4 & R4 & K4 & V4 & M4 & _). rewrite E4. cbn [bind].
    rewrite (l_cell c4 [] e (a ++ b) (cr_l _ _ R4)). cbn [bind]. rewrite (cl_cell c4 [] e (a ++ b) (cr_c _ _ R4)). cbn [bind].
    exists (Some (snd (kv e))), c4, (e :: a ++ b). split; auto. split; auto. split; auto. split; auto. split; auto. split; auto. split; auto.
    cbn [map]. now rewrite (del_mid a e b k (cr_u _ _ R) K).
  - exists None, c, t. auto 10.
Qed.
Lemma shrink_ok m : forall fuel c t, CRep c t -> length t < fuel -> exists c' t', shrink kcmp hash lev g fuel c m = Ok c' /\ CRep c' t' /\
  maxsz c' = m /\ map kv t' = firstn m (map kv t) /\ kfr c' = map fst (skipn m (map kv t)) ++ kfr c /\ vfr c' = map snd (skipn m (map kv t)) ++ vfr c.
Proof.
  induction fuel as [|fuel IH]; intros c t R Hf; [lia|]. cbn [shrink]. rewrite (l_cnt _ _ (cr_l _ _ R)).
  destruct (Nat.ltb_spec m (length t)) as [Lt|Ge].
  - destruct (exists_last (l := t)) as (a & e & ->); [intros ->; cbn in Lt; lia|].
    rewrite (l_last _ _ _ (cr_l _ _ R)).
    destruct (drop_ok c a e [] (key e) R (krefl _)) as (c1 & c2 & c3 & E1 & Ec & E2 & E3 & R3 & K3 & V3 & M3 & _); [apply (cr_z _ _ R), in_elt|].
    rewrite E1. cbn [bind]. rewrite Ec. cbn [bind]. fold (key e). rewrite E2. cbn [bind]. rewrite E3. cbn [bind]. rewrite app_nil_r in R3.
    rewrite app_length in *. cbn [length] in *.
    destruct (IH c3 a R3) as (c' & t' & E' & R' & M' & F' & Kf & Vf); [lia|].
    exists c', t'. split; auto. split; auto. split; auto. rewrite Kf, Vf, F', K3, V3. rewrite map_app. cbn [map].
    rewrite firstn_app, skipn_app, !map_app. replace (m - length (map kv a)) with 0 by (rewrite map_length; lia). cbn [firstn skipn map]. rewrite app_nil_r, <- !app_assoc. auto.
  - eexists _, t. split; [reflexivity|]. cbn [maxsz kfr vfr]. rewrite firstn_all2, skipn_all2 by (rewrite map_length; lia). split; auto.
    destruct R as [R1 R2 R3 R4 R5 R6]. split; auto.
Qed.
Lemma step_ok c t o : CRep c t -> exists r c' t' fk fv, step kcmp hash kdup vdup lev g c o = Ok (r, c') /\ CRep c' t' /\
  rel (maxsz c) (map kv t) o r (maxsz c') (map kv t') fk fv /\ kfr c' = fk ++ kfr c /\ vfr c' = fv ++ vfr c.
Proof.
  intro R. destruct o as [k v|k|k| | |m]; cbn [step].
  - destruct (insert_ok c t k v R) as (b & c' & t' & fk & fv & E & H). rewrite E. cbn [bind]. exists (RB b), c', t', fk, fv. auto.
  - destruct (remove_ok c t k R) as (b & c' & t' & fk & fv & E & H). rewrite E. cbn [bind]. exists (RB b), c', t', fk, fv. auto.
  - destruct (cget_ok c t k R) as (b & c' & t' & E & H). rewrite E. cbn [bind]. exists (RG b), c', t', [], []. auto.
  - exists (RN (Llist.Model.cnt (cl c))), c, t, [], []. cbn. rewrite (l_cnt _ _ (cr_l _ _ R)), map_length. auto 10.
  - exists (RN (maxsz c)), c, t, [], []. cbn. auto 10.
  - destruct (shrink_ok m (S (Llist.Model.cnt (cl c))) c t R) as (c' & t' & E & R' & M & F & K & V); [rewrite (l_cnt _ _ (cr_l _ _ R)); lia|].
    rewrite E. cbn [bind]. eexists (RB true), c', t', _, _. split; [reflexivity|]. split; auto. split; [|split; [exact K|exact V]]. cbn. auto 10.
Qed.
Lemma run_ok : forall ops c t, CRep c t -> exists rs c' t' fk fv, run kcmp hash kdup vdup lev g ops c = Ok (rs, c') /\ CRep c' t' /\
  chain (maxsz c) (map kv t) ops rs (maxsz c') (map kv t') fk fv /\ kfr c' = fk ++ kfr c /\ vfr c' = fv ++ vfr c.
Proof.
  induction ops as [|o ops IH]; intros c t R; cbn [run].
  - exists [], c, t, [], []. split; auto. split; auto. split; [constructor|auto].
  - destruct (step_ok c t o R) as (r & c1 & t1 & k1 & v1 & E & R1 & Rl & K1 & V1). rewrite E. cbn [bind].
    destruct (IH c1 t1 R1) as (rs & c2 & t2 & k2 & v2 & E2 & R2 & C & K2 & V2). rewrite E2. cbn [bind].
    exists (r :: rs), c2, t2, (k2 ++ k1), (v2 ++ v1). split; auto. split; auto. split; [econstructor; eauto|]. now rewrite K2, V2, K1, V1, !app_assoc.
Qed.
Lemma create_ok m : exists c, create m = Some c /\ CRep c [] /\ maxsz c = m /\ kfr c = [] /\ vfr c = [].
Proof.
  unfold create. destruct (Hash.Use.holds_create kcmp hash lev) as (h & -> & Ho). eexists. split; [reflexivity|]. cbn [maxsz kfr vfr]. split; auto. split; cbn [ct cl cells maxsz els map]; auto.
  - apply Llist.Step.rep_create; auto.
  - split; cbn; [constructor|intros e []|]. intros [|i] p; discriminate.
  - exact I.
  - cbn. lia.
Qed.
Lemma destroy_loop_ok : forall fuel c t, LRep (cl c) (els t) -> Cl (cells c) t -> length t < fuel ->
  exists c', destroy_loop lev fuel c = Ok c' /\ LRep (cl c') [] /\ Cl (cells c') [] /\
    kfr c' = rev (map key t) ++ kfr c /\ vfr c' = rev (map snd (map kv t)) ++ vfr c.
Proof.
  induction fuel as [|fuel IH]; intros c t L C Hf; [lia|]. cbn [destroy_loop].
  rewrite (Llist.Proofs.view_first _ _ (Llist.Step.rep_view _ _ _ _ L)). cbn [bind]. destruct t as [|e t]; cbn [els map Llist.Spec.ids fst Llist.Proofs.nxt_of].
  - exists c. auto.
  - destruct (l_take _ [] e t L) as (d & Ed & Rd). unfold take_node, lstep. rewrite Ed. cbn [bind]. rewrite to_of. cbn [bind].
    unfold value_destroy. set (c1 := mkca _ _ _ _ _ _ _). rewrite (cl_cell c1 [] e t C). cbn [bind].
    match goal with |- context [destroy_loop lev fuel ?c2] => destruct (IH c2 t) as (c' & E' & L' & C' & K' & V') end.
    + exact Rd.
    + cbn [cells]. apply (cl_free _ [] e t C).
    + cbn in Hf. lia.
    + exists c'. split; auto. split; auto. split; auto. rewrite K', V'. cbn [kfr vfr rev]. unfold c1. cbn [kfr vfr]. rewrite <- !app_assoc. auto.
Qed.
Lemma destroy_ok c t : CRep c t -> exists c', destroy kcmp lev c = Ok c' /\ (forall i, cell c' i = UB) /\
  kfr c' = rev (map key t) ++ kfr c /\ vfr c' = rev (map snd (map kv t)) ++ vfr c.
Proof.
  intro R. unfold destroy. destruct (Hash.Use.holds_destroy kcmp hash lev Hk _ _ false (cr_h _ _ R)) as (h & ->). cbn [bind].
  rewrite (l_cnt _ _ (cr_l _ _ R)).
  destruct (destroy_loop_ok (S (length t)) c t (cr_l _ _ R) (cr_c _ _ R)) as (c' & -> & L' & C' & K & V); [lia|]. cbn [bind].
  destruct (Llist.Destroy.destroy_ok (cl c') [] false (Llist.Step.rep_view _ _ _ _ L')) as (d & -> & _). cbn [bind].
  exists c'. split; auto. split; auto. intro i. unfold cell. destruct (nth_error (cells c') i) as [[p|]|] eqn:E; auto. destruct C' as [_ _ Ha]. destruct (Ha _ _ E).
Qed.
End Prf.

From Verif Require Import Base.Lib.
From Verif Require Import ThreadTls.Model ThreadTls.Spec ThreadTls.Proofs ThreadTls.Proofs2.
Local Open Scope N_scope.
Set Implicit Arguments.

Definition by_ (t : thr) (e : ev) : Prop :=
  match e with ECreated t' _ _ | ESet t' _ _ _ | EGet t' _ _ | EDtor t' _ _ | EEnd t' => t' = t end.
Lemma foreign_value t t' k l : t' <> t -> Forall (by_ t) l -> forall v, fold_left (upd_value t' k) l v = v.
Proof.
  intros D F. induction F as [|e l B F IH]; intros v; cbn; auto. rewrite IH.
  destruct e; cbn in *; subst; auto; destruct (Nat.eqb_spec t t'); try congruence; cbn; try reflexivity; destruct r; reflexivity.
Qed.
Lemma foreign_life t t' k l : t' <> t -> Forall (by_ t) l -> forall h, life t' k h l = Some h.
Proof.
  intros D F. induction F as [|e l B F IH]; intros h; cbn; auto.
  assert (life1 t' k h e = Some h) as ->; auto.
  destruct e; cbn in *; subst; auto; destruct (Nat.eqb_spec t t'); try congruence; cbn; try reflexivity; destruct r; reflexivity.
Qed.
Lemma by_dtor t k o : Forall (by_ t) (dtor t k o).
Proof. destruct o as [[[] v]|]; cbn; repeat constructor. Qed.

(** A value of a key with a destructor is destroyed. *)
Lemma life_dtor t k d o : d <> Some false -> (forall b v, o = Some (b, v) -> d = Some b) ->
  life t k (kept o) (dtor t k o) = Some None.
Proof.
  intros N E. destruct o as [[b v]|]; cbn [kept dtor]; auto.
  specialize (E _ _ eq_refl). destruct b; [|congruence]. apply (@life_dtor_same t k true v eq_refl).
Qed.

Lemma T_frame s s' tr t e : InvT s tr -> Forall (by_ t) e -> good (tr ++ e) ->
  (forall t', t' <> t -> at_ s' t' = at_ s t') -> (forall t' k, t' <> t -> ent s' t' k = ent s t' k) ->
  (forall k, dget (keys s') k <> Some false -> dget (keys s) k <> Some false) ->
  (forall k, (forall a ks, at_ s' t <> Purging a ks) -> value_of (tr ++ e) t k = shown (ent s' t k)) ->
  (forall k, dget (keys s') k <> Some false -> life t k (kept (ent s t k)) e = Some (kept (ent s' t k))) ->
  InvT s' (tr ++ e).
Proof.
  intros T B G AT EN KK V L. split; auto.
  - intros t' k N. destruct (Nat.eq_dec t' t) as [->|D]; auto.
    rewrite value_app, (foreign_value k D B), EN by auto. apply (t_val T). intros a ks. rewrite <- AT by auto. apply N.
  - intros t' k N. rewrite life_app. destruct (Nat.eq_dec t' t) as [->|D].
    + rewrite (t_life T t (KK _ N)). apply L, N.
    + rewrite (t_life T t' (KK _ N)), (foreign_life k D B), EN by auto. reflexivity.
Qed.

Lemma step_T s tr t c s' e : InvK s tr -> InvH s -> InvT s tr -> step s t c = Ok (s', e) -> InvH s' /\ InvT s' (tr ++ e).
Proof.
  intros K H T E. destruct (@step_H s t c H) as (s1 & e1 & E1 & H1 & AT & EN & X).
  { intros k d A. exact (proj1 (proj2 (k_cre K A))). }
  rewrite E in E1. injection E1 as <- <-. split; auto.
  destruct (at_ s t) as [|k0 d0|k0 v0 d0 a0|k0 a0|a0 [|k0 ks0]] eqn:A.
  - destruct X as (X1 & X2 & X3 & X4).
    assert (VT : forall k, value_of tr t k = shown (ent s t k)) by (intros k; apply (t_val T); congruence).
    destruct e as [|[t' k d|t' k v r|t' k v|t' k v|t'] [|]]; try contradiction.
    + rewrite app_nil_r. replace tr with (tr ++ []) by apply app_nil_r. apply T_frame with (s := s) (t := t); auto.
      * rewrite app_nil_r. apply T.
      * intros k. now rewrite X2.
      * intros k _. now rewrite app_nil_r, X1.
      * intros k _. cbn. now rewrite X1.
    + destruct X4 as (-> & -> & X4). apply T_frame with (s := s) (t := t); auto.
      * repeat constructor.
      * apply good_snoc; [apply T|]. cbn. split; [discriminate|]. intros (d & Y). apply (k_keys K) in Y. congruence.
      * intros k'. now rewrite X2.
      * intros k' _. rewrite value_app. cbn. now rewrite X1.
      * intros k' _. cbn. now rewrite X1.
    + destruct X4 as (-> & -> & X4). apply T_frame with (s := s) (t := t); auto.
      * repeat constructor.
      * apply good_snoc; [apply T|]. cbn. now rewrite VT, X4.
      * intros k'. now rewrite X2.
      * intros k' _. rewrite value_app. cbn. now rewrite X1.
      * intros k' _. cbn. rewrite X1, X4. cbn. destruct (Nat.eqb t t && (k =? k')); reflexivity.
    + destruct X4 as (-> & X4). apply T_frame with (s := s) (t := t); auto.
      * repeat constructor.
      * apply good_snoc; [apply T|exact I].
      * intros k'. now rewrite X2.
      * intros k' _. rewrite value_app. cbn. now rewrite Nat.eqb_refl, X1, X4.
      * intros k' _. cbn. now rewrite X1, X4, Nat.eqb_refl.
  - destruct X as (X1 & X2 & X3 & ->). destruct (k_cre K A) as (K1 & K2 & K3).
    apply T_frame with (s := s) (t := t); auto.
    + repeat constructor.
    + apply good_snoc; [apply T|]. cbn. split; [lia|]. intros (d & Y). apply (k_keys K) in Y. congruence.
    + intros k'. rewrite X2. cbn. destruct (N.eqb_spec k' k0) as [->|]; auto. congruence.
    + intros k' _. rewrite value_app. cbn. rewrite X1. apply (t_val T). congruence.
    + intros k' _. cbn. now rewrite X1.
  - destruct X as (X1 & X2 & X3 & ->). pose proof (h_pc H t) as PC. unfold pc_ok in PC. rewrite A in PC. destruct PC as [P G].
    apply T_frame with (s := s) (t := t); auto.
    + apply Forall_app. split; [apply by_dtor|repeat constructor].
    + rewrite app_assoc. apply good_snoc; [apply (@good_dtor _ _ _ _ (t_good T)); intros v Y; apply (k_keys K); exact (h_ent H Y)|]. cbn. split; auto. intros _. exists d0.
      apply created_app. left. now apply (k_keys K).
    + intros k'. now rewrite X2.
    + intros k' _. rewrite app_assoc, value_app, value_dtor. cbn. rewrite Nat.eqb_refl, X1. cbn.
      rewrite (N.eqb_sym k0 k'). destruct (k' =? k0); auto. apply (t_val T). congruence.
    + intros k' N. rewrite X2 in N. rewrite life_app, X1. destruct (N.eqb_spec k' k0) as [->|D].
      * rewrite (@life_dtor t k0 (dget (keys s) k0)); auto.
        -- cbn. rewrite Nat.eqb_refl, N.eqb_refl. reflexivity.
        -- intros b v Y. apply (@h_ent _ H t k0 b v Y).
      * rewrite life_dtor_other by (right; congruence). cbn. rewrite Nat.eqb_refl. cbn. destruct (N.eqb_spec k0 k'); congruence.
  - destruct X as (X1 & X2 & X3 & ->).
    assert (VT : forall k, value_of tr t k = shown (ent s t k)) by (intros k; apply (t_val T); congruence).
    apply T_frame with (s := s) (t := t); auto.
    + repeat constructor.
    + apply good_snoc; [apply T|]. cbn. now rewrite VT.
    + intros k'. now rewrite X2.
    + intros k' _. rewrite value_app. cbn. now rewrite X1.
    + intros k' _. cbn. rewrite X1, Nat.eqb_refl. cbn. destruct (N.eqb_spec k0 k') as [->|]; auto.
      destruct (ent s t k') as [[b v]|]; cbn; now rewrite ?N.eqb_refl.
  - destruct X as (X1 & X0 & X2 & X3 & ->). apply T_frame with (s := s) (t := t); auto.
    + repeat constructor.
    + apply good_snoc; [apply T|exact I].
    + intros k'. now rewrite X2.
    + intros k' _. rewrite value_app. cbn. now rewrite Nat.eqb_refl, X1.
    + intros k' _. cbn. now rewrite X1, X0, Nat.eqb_refl.
  - destruct X as (X1 & X2 & X3 & ->). apply T_frame with (s := s) (t := t); auto.
    + apply by_dtor.
    + apply (@good_dtor _ _ _ _ (t_good T)). intros v Y. apply (k_keys K). exact (h_ent H Y).
    + intros k'. now rewrite X2.
    + intros k' N. elim (N _ _ X3).
    + intros k' N. rewrite X2 in N. rewrite X1. destruct (N.eqb_spec k' k0) as [->|D].
      * apply (@life_dtor t k0 (dget (keys s) k0)); auto. intros b v Y. apply (@h_ent _ H t k0 b v Y).
      * apply life_dtor_other. right. congruence.
Qed.

Lemma inv_init : InvK init [] /\ InvH init /\ InvT init [].
Proof.
  split; [|split]; split; cbn; try discriminate; try tauto.
  - intros k d. split; [discriminate|]. intros (t & []).
  - intros p e q E. destruct p; discriminate.
Qed.

Lemma run_inv l : forall s tr, InvK s tr -> InvH s -> InvT s tr ->
  exists s' e, run s l = Ok (s', e) /\ InvK s' (tr ++ e) /\ InvH s' /\ InvT s' (tr ++ e).
Proof.
  induction l as [|[t c] l IH]; intros s tr K H T; cbn [run].
  - exists s, []. rewrite app_nil_r. auto.
  - destruct (@step_H s t c H) as (s1 & e1 & E1 & _).
    { intros k d A. exact (proj1 (proj2 (k_cre K A))). }
    rewrite E1. cbn [bind]. pose proof (step_K _ _ K E1) as K1. destruct (step_T _ _ K H T E1) as [H1 T1].
    destruct (IH s1 (tr ++ e1) K1 H1 T1) as (s2 & e2 & E2 & K2 & H2 & T2). rewrite E2. cbn [bind].
    exists s2, (e1 ++ e2). rewrite app_assoc. auto.
Qed.

(** Counting. *)
Lemma life_count t k v tr : forall h h', life t k h tr = Some h' ->
  ((if match h with Some w => N.eqb w v | None => false end then 1 else 0) + n_set tr t k v =
   n_dtor tr t k v + if match h' with Some w => N.eqb w v | None => false end then 1 else 0)%nat.
Proof.
  induction tr as [|e tr IH]; intros h h' E; cbn in E.
  - injection E as <-. cbn. lia.
  - destruct (life1 t k h e) as [h1|] eqn:E1; [|discriminate]. specialize (IH _ _ E).
    destruct e as [t' k' d|t' k' v' [|]|t' k' v'|t' k' v'|t']; cbn in E1 |- *.
    + injection E1 as <-. exact IH.
    + destruct (Nat.eqb t' t && (k' =? k)); cbn.
      * destruct h; [discriminate|]. injection E1 as <-. lia.
      * injection E1 as <-. exact IH.
    + injection E1 as <-. exact IH.
    + destruct (Nat.eqb t' t && (k' =? k)); [|injection E1 as <-; exact IH].
      destruct (v' =? _); [|discriminate]. injection E1 as <-. exact IH.
    + destruct (Nat.eqb t' t && (k' =? k)); cbn; [|injection E1 as <-; exact IH].
      destruct h as [w0|]; [|discriminate]. destruct (N.eqb_spec w0 v') as [Q|]; [subst w0|discriminate].
      injection E1 as <-. lia.
    + destruct (Nat.eqb t' t); [|injection E1 as <-; exact IH].
      destruct h; [discriminate|]. injection E1 as <-. exact IH.
Qed.

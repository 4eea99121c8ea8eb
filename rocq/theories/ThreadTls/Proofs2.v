From Verif Require Import Base.Lib.
From Verif Require Import ThreadTls.Model ThreadTls.Spec ThreadTls.Proofs.
Local Open Scope N_scope.
Set Implicit Arguments.

(** Only where threads are, the keys and the counter change. *)
Lemma H_same s s' t : InvH s -> pool s' = pool s -> heap s' = heap s -> nxt s' = nxt s ->
  (forall k d, dget (keys s) k = Some d -> dget (keys s') k = Some d) ->
  (forall t', t' <> t -> at_ s' t' = at_ s t') -> pc_ok s' t ->
  InvH s' /\ forall t' k, ent s' t' k = ent s t' k.
Proof.
  intros H P1 P2 P3 KK AT PC.
  assert (EN : forall t' k, ent s' t' k = ent s t' k) by (intros; unfold ent; rewrite P1, P2; reflexivity).
  split; auto. split.
  - rewrite P1, P2. exact (@h_pool _ H).
  - rewrite P1. exact (@h_inj _ H).
  - rewrite P2, P3. exact (@h_nxt _ H).
  - intros t'. destruct (Nat.eq_dec t' t) as [->|D]; auto. pose proof (h_pc H t') as X. unfold pc_ok in *.
    rewrite (AT _ D), P1. destruct (at_ s t'); auto.
    + destruct X as [X1 X2]. auto.
    + destruct X as [X1 X2]. split; auto. intros k x. rewrite EN. apply X2.
  - intros t' k d v. rewrite EN. intros X. apply KK. exact (h_ent H X).
Qed.

(** A thread's own table is changed. *)
Lemma H_table s s' t a st st' : InvH s -> pool s t = Some a -> heap s a = Some st ->
  pool s' = pool s -> heap s' = set (heap s) a (Some st') -> nxt s' = nxt s -> keys s' = keys s ->
  (forall t', t' <> t -> at_ s' t' = at_ s t') -> pc_ok s' t ->
  (forall k d v, get st' k = Some (d, v) -> dget (keys s) k = Some d) ->
  InvH s' /\ (forall t' k, t' <> t -> ent s' t' k = ent s t' k) /\ forall k, ent s' t k = get st' k.
Proof.
  intros H P S0 P1 P2 P3 KK AT PC G.
  assert (EN : forall t' k, t' <> t -> ent s' t' k = ent s t' k).
  { intros t' k D. unfold ent at 1. rewrite P1, P2. apply (ent_heap _ H P); auto. }
  assert (ET : forall k, ent s' t k = get st' k).
  { intros k. unfold ent. rewrite P1, P2, P, set_same. reflexivity. }
  split; [|auto]. split.
  - intros t' b. rewrite P1, P2. intros X. unfold set. destruct (Nat.eqb b a); [eauto|exact (h_pool H X)].
  - rewrite P1. exact (@h_inj _ H).
  - intros b L. rewrite P2. rewrite P3 in L. rewrite set_other; [exact (h_nxt H L)|].
    intros ->. rewrite (h_nxt H L) in S0. discriminate.
  - intros t'. destruct (Nat.eq_dec t' t) as [->|D]; auto. pose proof (h_pc H t') as X. unfold pc_ok in *.
    rewrite (AT _ D), P1, KK. destruct (at_ s t'); auto.
    destruct X as [X1 X2]. split; auto. intros k x. rewrite EN by auto. apply X2.
  - intros t' k d v. rewrite KK. destruct (Nat.eq_dec t' t) as [->|D].
    + rewrite ET. apply G.
    + rewrite EN by auto. exact (@h_ent _ H t' k d v).
Qed.

Lemma step_H s t c : InvH s -> (forall k d, at_ s t = Creating k d -> dget (keys s) k = None) -> exists s' e, step s t c = Ok (s', e) /\ InvH s' /\
  (forall t', t' <> t -> at_ s' t' = at_ s t') /\
  (forall t' k, t' <> t -> ent s' t' k = ent s t' k) /\
  match at_ s t with
  | Idle => (forall k, ent s' t k = ent s t k) /\ keys s' = keys s /\ (at_ s' t = Idle \/ e = []) /\
      match e with
      | [] => True
      | [ESet t' k v r] => t' = t /\ r = false /\ dget (keys s) k = None
      | [EGet t' k v] => t' = t /\ v = 0 /\ forall k', ent s t k' = None
      | [EEnd t'] => t' = t /\ forall k', ent s t k' = None
      | _ => False
      end
  | Creating k d => (forall k', ent s' t k' = ent s t k') /\ keys s' = (k, d) :: keys s /\ at_ s' t = Idle /\ e = [ECreated t k d]
  | Setting k v d a => (forall k', ent s' t k' = if k' =? k then Some (d, v) else ent s t k') /\ keys s' = keys s /\ at_ s' t = Idle /\
      e = dtor t k (ent s t k) ++ [ESet t k v true]
  | Getting k a => (forall k', ent s' t k' = ent s t k') /\ keys s' = keys s /\ at_ s' t = Idle /\ e = [EGet t k (shown (ent s t k))]
  | Purging a (k :: ks) => (forall k', ent s' t k' = if k' =? k then None else ent s t k') /\ keys s' = keys s /\ at_ s' t = Purging a ks /\
      e = dtor t k (ent s t k)
  | Purging a [] => (forall k', ent s' t k' = None) /\ (forall k', ent s t k' = None) /\ keys s' = keys s /\ at_ s' t = Idle /\ e = [EEnd t]
  end.
Proof.
  intros H NEW. pose proof (h_pc H t) as PC. unfold pc_ok in PC. unfold step. destruct (at_ s t) as [|k0 d0|k0 v0 d0 a0|k0 a0|a0 [|k0 ks0]] eqn:A.
  - destruct c as [d|k v|k|]; cbn [enter].
    + eexists; eexists. split; [reflexivity|].
      destruct (@H_same s (Sys (cnt s + 1) (keys s) (pool s) (heap s) (nxt s) (set (at_ s) t (Creating (cnt s + 1) d))) t) as [H1 H2]; auto.
      * intros t' D. cbn. now rewrite set_other.
      * unfold pc_ok. cbn. now rewrite set_same.
      * split; auto. split; [intros t' D; cbn; now rewrite set_other|]. auto 10.
    + destruct (dget (keys s) k) as [d|] eqn:G.
      * destruct (pool s t) as [a|] eqn:P; eexists; eexists; (split; [reflexivity|]).
        -- destruct (@H_same s (Sys (cnt s) (keys s) (pool s) (heap s) (nxt s) (set (at_ s) t (Setting k v d a))) t) as [H1 H2]; auto.
           ++ intros t' D. cbn. now rewrite set_other.
           ++ unfold pc_ok. cbn. rewrite set_same. auto.
           ++ split; auto. split; [intros t' D; cbn; now rewrite set_other|]. auto 10.
        -- assert (NE : forall t' b, pool s t' = Some b -> b <> nxt s).
           { intros t' b X ->. destruct (h_pool H X) as [st Y]. rewrite (h_nxt H (le_n _)) in Y. discriminate. }
           set (s' := Sys _ _ _ _ _ _).
           assert (EN : forall t' k', ent s' t' k' = ent s t' k').
           { intros t' k'. unfold ent, s'. cbn. unfold set at 1. destruct (Nat.eqb_spec t' t) as [->|D].
             - rewrite set_same, P. reflexivity.
             - destruct (pool s t') as [b|] eqn:X; auto. rewrite set_other; eauto. }
           split; [|split; [intros t' D; unfold s'; cbn; now rewrite set_other|split; [auto|split; auto]]].
           split; cbn [s' pool heap nxt keys at_].
           ++ intros t' b. unfold set. destruct (Nat.eqb_spec t' t) as [->|D].
              ** intros X. injection X as <-. rewrite Nat.eqb_refl. eauto.
              ** intros X. destruct (Nat.eqb b (nxt s)); eauto. exact (h_pool H X).
           ++ intros t1 t2 b. unfold set. destruct (Nat.eqb_spec t1 t) as [->|D1], (Nat.eqb_spec t2 t) as [->|D2]; auto.
              ** intros X Y. injection X as <-. elim (NE _ _ Y). reflexivity.
              ** intros X Y. injection Y as <-. elim (NE _ _ X). reflexivity.
              ** apply (h_inj H).
           ++ intros b L. rewrite set_other by lia. apply (h_nxt H). lia.
           ++ intros t'. unfold pc_ok. cbn. unfold set at 1. destruct (Nat.eqb_spec t' t) as [->|D].
              ** rewrite set_same. auto.
              ** pose proof (h_pc H t') as X. unfold pc_ok in X. rewrite (set_other (pool s)) by auto. destruct (at_ s t'); auto.
                 destruct X as [X1 X2]. split; auto. intros k' x. fold s'. rewrite EN. apply X2.
           ++ intros t' k' d' v'. fold s'. rewrite EN. apply (h_ent H).
      * eexists; eexists; (split; [reflexivity|]). rewrite A. auto 12.
    + destruct (pool s t) as [a|] eqn:P; eexists; eexists; (split; [reflexivity|]).
      * destruct (@H_same s (Sys (cnt s) (keys s) (pool s) (heap s) (nxt s) (set (at_ s) t (Getting k a))) t) as [H1 H2]; auto.
        -- intros t' D. cbn. now rewrite set_other.
        -- unfold pc_ok. cbn. now rewrite set_same.
        -- split; auto. split; [intros t' D; cbn; now rewrite set_other|]. auto 10.
      * rewrite A. repeat (split; auto). intros k'. unfold ent. now rewrite P.
    + destruct (pool s t) as [a|] eqn:P; eexists; eexists; (split; [reflexivity|]).
      * set (s' := Sys _ _ _ _ _ _). destruct (@H_same s s' t) as [H1 H2]; auto.
        -- intros t' D. cbn. now rewrite set_other.
        -- unfold pc_ok, s'. cbn. rewrite set_same. split; auto. intros k x. fold s'. unfold ent, s'. cbn. rewrite P.
           destruct (heap s a); [|discriminate]. apply get_in.
        -- split; auto. split; [intros t' D; cbn; now rewrite set_other|]. auto 10.
      * rewrite A. repeat (split; auto). intros k'. unfold ent. now rewrite P.
  - unfold go. rewrite A. eexists; eexists; (split; [reflexivity|]). set (s' := Sys _ _ _ _ _ _).
    specialize (NEW _ _ eq_refl).
    destruct (@H_same s s' t) as [H1 H2]; auto.
    + intros k d. cbn. destruct (N.eqb_spec k k0) as [->|]; congruence.
    + intros t' D. cbn. now rewrite set_other.
    + unfold pc_ok. cbn. now rewrite set_same.
    + split; auto. split; [intros t' D; cbn; now rewrite set_other|]. split; auto. split; auto. split; auto. split; auto.
      cbn. now rewrite set_same.
  - destruct PC as [P G0]. unfold go. rewrite A. destruct (h_pool H P) as [st S0]. rewrite S0.
    assert (ES : forall k, ent s t k = get st k) by (intros k; unfold ent; now rewrite P, S0).
    assert (GE : forall (b : bool) k d v, get (put (if b then del st k0 else st) k0 (d0, v0)) k = Some (d, v) -> dget (keys s) k = Some d).
    { intros b k d v. rewrite get_put. destruct (N.eqb_spec k k0) as [->|D].
      - intros X. now injection X as <- _.
      - intros X. apply (@h_ent _ H t k d v). rewrite ES. destruct b; auto. rewrite get_del in X.
        destruct (N.eqb_spec k k0); congruence. }
    assert (X : (if v0 =? 0 then (del st k0, dtor t k0 (get st k0)) else (st, [])) =
                (if v0 =? 0 then del st k0 else st, if v0 =? 0 then dtor t k0 (get st k0) else [])) by (destruct (v0 =? 0); reflexivity).
    rewrite X. clear X. eexists; eexists; (split; [reflexivity|]). set (s' := Sys _ _ _ _ _ _).
    destruct (@H_table s s' t a0 st (put (if v0 =? 0 then del st k0 else st) k0 (d0, v0))) as (H1 & H2 & H3); auto.
    + intros t' D. cbn. now rewrite set_other.
    + unfold pc_ok. cbn. now rewrite set_same.
    + intros k d v. apply GE.
    + split; auto. split; [intros t' D; cbn; now rewrite set_other|]. split; auto. split.
      { intros k'. rewrite H3, get_put. destruct (N.eqb_spec k' k0); auto. rewrite ES. destruct (v0 =? 0); auto.
        rewrite get_del. destruct (N.eqb_spec k' k0); congruence. }
      split; auto. split; [cbn; now rewrite set_same|]. rewrite ES. destruct (v0 =? 0).
      * rewrite get_del, N.eqb_refl. reflexivity.
      * reflexivity.
  - unfold go. rewrite A. destruct (h_pool H PC) as [st S0]. rewrite S0.
    assert (ES : forall k, ent s t k = get st k) by (intros k; unfold ent; now rewrite PC, S0).
    eexists; eexists; (split; [reflexivity|]). set (s' := Sys _ _ _ _ _ _).
    destruct (@H_same s s' t) as [H1 H2]; auto.
    + intros t' D. cbn. now rewrite set_other.
    + unfold pc_ok. cbn. now rewrite set_same.
    + split; auto. split; [intros t' D; cbn; now rewrite set_other|]. split; auto. split; auto. split; auto.
      split; [cbn; now rewrite set_same|]. rewrite ES. reflexivity.
  - destruct PC as [P PI]. unfold go. rewrite A. destruct (h_pool H P) as [st S0]. rewrite S0.
    assert (ES : forall k, ent s t k = None).
    { intros k. destruct (ent s t k) as [x|] eqn:X; auto. destruct (PI _ _ X). }
    assert (st = []) as ->.
    { apply get_nil. intros k. specialize (ES k). unfold ent in ES. now rewrite P, S0 in ES. }
    eexists; eexists; (split; [reflexivity|]). set (s' := Sys _ _ _ _ _ _).
    assert (EN : forall t' k, t' <> t -> ent s' t' k = ent s t' k).
    { intros t' k D. unfold ent at 1, s'. cbn. rewrite (set_other (pool s)) by auto. apply (ent_heap _ H P); auto. }
    assert (ET : forall k, ent s' t k = None) by (intros k; unfold ent, s'; cbn; now rewrite set_same).
    split; [|split; [intros t' D; cbn; now rewrite set_other|split; [auto|split; [auto|split; [auto|split; [auto|split; [cbn; now rewrite set_same|reflexivity]]]]]]].
    split; cbn [s' pool heap nxt keys at_].
    + intros t' b. unfold set. destruct (Nat.eqb_spec t' t) as [->|D]; [discriminate|]. intros X.
      destruct (Nat.eqb_spec b a0) as [->|]; [elim D; exact (h_inj H X P)|exact (h_pool H X)].
    + intros t1 t2 b. unfold set. destruct (Nat.eqb_spec t1 t) as [->|D1], (Nat.eqb_spec t2 t) as [->|D2]; try discriminate. apply (h_inj H).
    + intros b L. unfold set. destruct (Nat.eqb b a0); auto. exact (h_nxt H L).
    + intros t'. unfold pc_ok. cbn. unfold set at 1. destruct (Nat.eqb_spec t' t) as [->|D]; [exact I|].
      pose proof (h_pc H t') as X. unfold pc_ok in X. rewrite (set_other (pool s)) by auto. destruct (at_ s t'); auto.
      destruct X as [X1 X2]. split; auto. intros k' x. fold s'. rewrite EN by auto. apply X2.
    + intros t' k d v. fold s'. destruct (Nat.eq_dec t' t) as [->|D]; [rewrite ET; discriminate|rewrite EN by auto; apply (h_ent H)].
  - destruct PC as [P PI]. unfold go. rewrite A. destruct (h_pool H P) as [st S0]. rewrite S0.
    assert (ES : forall k, ent s t k = get st k) by (intros k; unfold ent; now rewrite P, S0).
    eexists; eexists; (split; [reflexivity|]). set (s' := Sys _ _ _ _ _ _).
    assert (E3 : forall k, ent s' t k = get (del st k0) k) by (intros k; unfold ent, s'; cbn; now rewrite P, set_same).
    destruct (@H_table s s' t a0 st (del st k0)) as (H1 & H2 & H3); auto.
    + intros t' D. cbn. now rewrite set_other.
    + unfold pc_ok, s'. cbn. rewrite set_same. split; auto. fold s'. intros k x. rewrite E3, get_del.
      destruct (N.eqb_spec k k0); [discriminate|]. rewrite <- ES. intros X. destruct (PI _ _ X); [congruence|auto].
    + intros k d v. rewrite get_del. destruct (k =? k0); [discriminate|]. rewrite <- ES. apply (h_ent H).
    + split; auto. split; [intros t' D; cbn; now rewrite set_other|]. split; auto. split.
      { intros k'. rewrite E3, get_del, ES. reflexivity. }
      split; auto. split; [cbn; now rewrite set_same|]. rewrite ES. reflexivity.
Qed.

(** Progress of the pool: no deadlock. *)
From Verif Require Import Base.Lib Base.Conc Threadpool.Model Threadpool.Spec Threadpool.Proofs Threadpool.Live.

(** ** The parents referred to exist *)
Definition refp (p : pc) : option nat := match p with
  | WFetchSig t | WFetchOut t | WStart t | WRunning t | WPLock t | WPDec t | WPOut t => Some (fst t)
  | DLock k _ | DAdd k _ | DPOut k _ | DQLock k _ | DSpawn k _ _ _ | DTest k _ _ _ | DSig k _ _ | DWait k _ _ | DBlocked k _ _ | DWoken k _ _ | DDec k _ _
  | DOut k _ | PLock k | PTest k | PWait k | PBlocked k | PWoken k | PClear k | POut k | KLock k | KTest k | KOut k _ => Some k
  | _ => None end.
Definition refok (n : nat) (p : pc) : Prop := match refp p with Some k => k < n | None => True end.
Definition refs (s : state) : Prop :=
  Forall (refok (length (parents s))) (threads s) /\ Forall (fun t => fst t < length (parents s)) (queue (pl s)).

Lemma Forall_upd {A} (P : A -> Prop) l i x : Forall P l -> P x -> Forall P (upd l i x).
Proof. intros H Hx. revert i. induction H; intros [|i]; cbn [upd]; constructor; auto. Qed.

Lemma refok_wake n q : refok n q -> refok n (wake q). Proof. destruct q; exact (fun H => H). Qed.

Lemma refs_effect n e c l l' : Forall (refok n) l -> apply_effect e c l = Some l' -> Forall (refok n) l'.
Proof.
  intros F H. destruct e as [|v|v|]; cbn [apply_effect] in H.
  - injection H as <-. exact F.
  - destruct (existsb _ l); [|now injection H as <-]. destruct (nth_error l c) as [q|] eqn:E; [|discriminate H].
    destruct (waits_on v q); [|discriminate H]. injection H as <-. apply Forall_upd; [exact F|]. apply refok_wake.
    eapply Forall_forall; [exact F|]. eapply nth_error_In; eauto.
  - injection H as <-. apply Forall_map. eapply Forall_impl; [|exact F]. intros q Q. destruct (waits_on v q); [now apply refok_wake|exact Q].
  - injection H as <-. apply Forall_app. split; [exact F|]. constructor; [exact I|constructor].
Qed.

Lemma refs_step cfg s a s' e : refs s -> step cfg s a = Some (s', e) -> refs s'.
Proof.
  intros [F Q] H.
  apply step_cases in H as [(i & c & p & o & Hi & Hr & Ha & _ & Hp & Hq & _)|[(i & o & Hi & Al & Ht & _ & Hp & Hq & _)|(i & q & r & Hi & _ & Hw & Ht & Hp & Hq & _)]].
  - unfold refs. rewrite Hp, Hq, (run_pars_len _ _ _ _ _ _ _ Hr).
    assert (P0 : refok (length (parents s)) p) by (eapply Forall_forall; [exact F|eapply nth_error_In; eauto]).
    assert (refok (length (parents s)) (o_pc o) /\ Forall (fun t => fst t < length (parents s)) (queue (o_pl o))) as [P1 P2].
    { clear - P0 Q Hr. destruct (pl s) as [m u fr nt ni wt qu]. cbn [qm up freed nthr nidle waiters queue] in *.
      destruct p; split_run Hr; cbn [queue]; unfold refok in *; cbn [refp fst] in *; split; auto.
      all: try (subst; inversion Q; subst; assumption).
      all: try (apply Forall_app; split; [assumption|constructor; [assumption|constructor]]).
      all: try (match goal with |- match refp (match ?a with _ => _ end) with _ => _ end => destruct a; exact P0 end). }
    split; [|exact P2]. eapply refs_effect; [|exact Ha]. now apply Forall_upd.
  - unfold refs. rewrite Hp, Hq, Ht. split; [|exact Q]. apply Forall_upd; [exact F|]. unfold allowed in Al.
    assert (X : forall k, match nth_error (parents s) k with Some r => negb (dead r) | None => false end = true -> k < length (parents s)).
    { intros k E. apply nth_error_Some. destruct (nth_error (parents s) k); discriminate. }
    unfold refok. destruct o as [k [|x a']|k| |k|]; cbn [entry refp]; try exact I; apply X; rewrite ?andb_true_iff in Al; tauto.
  - unfold refs. rewrite Hp, Hq, Ht. split; [|exact Q]. apply Forall_upd; [exact F|].
    assert (P0 : refok (length (parents s)) q) by (eapply Forall_forall; [exact F|eapply nth_error_In; eauto]).
    assert (Hw' : r = wake q \/ q = WBlocked true /\ r = WWoken true) by tauto. destruct Hw' as [->|[-> ->]]; [now apply refok_wake|exact I].
Qed.

(** ** Which threads can go on *)
Definition stuck (cfg : config) (s : state) : Prop := forall i c, step cfg s (Run i c) = None.
Definition resting (p : pc) : bool := match p with
  | WBlocked _ | WDead | CIdle | DBlocked _ _ _ | PBlocked _ | ABlocked | XBlocked => true | _ => false end.
Definition wants_qm (p : pc) : bool := match p with WLock | WWoken _ | WExitLock | DQLock _ _ | DWoken _ _ _ | ALock | AWoken | XLock | XWoken => true | _ => false end.
Definition wants_pm (p : pc) : bool := match p with WPLock _ | DLock _ _ | PLock _ | PWoken _ | KLock _ => true | _ => false end.

Lemma effect_can e l : exists c, apply_effect e c l <> None.
Proof.
  destruct e as [|v|v|]; cbn [apply_effect]; try (exists 0; discriminate).
  destruct (existsb (waits_on v) l) eqn:E; [|exists 0; discriminate].
  apply existsb_exists in E as (q & Hq & W). apply In_nth_error in Hq as [c Hc]. exists c. rewrite Hc, W. discriminate.
Qed.

Lemma goes cfg s i p : refs s -> sumf emptyd (threads s) = 0 -> nth_error (threads s) i = Some p -> resting p = false ->
  (wants_qm p = true -> qm (pl s) = false) -> (wants_pm p = true -> forall k r, nth_error (parents s) k = Some r -> pm r = false) ->
  exists c, step cfg s (Run i c) <> None.
Proof.
  intros [F _] Em Hi R WQ WP.
  assert (P0 : refok (length (parents s)) p) by (eapply Forall_forall; [exact F|eapply nth_error_In; eauto]).
  pose proof (sumf_ge emptyd _ _ _ Hi) as G. cbn [step]. rewrite Hi.
  assert (E : (exists o, forall c, run cfg (pl s) (parents s) i p c = Some o) \/ (exists o, run cfg (pl s) (parents s) i p 0 = Some o /\ o_eff o = Quiet)).
  { assert (N : forall k, k < length (parents s) -> exists r, nth_error (parents s) k = Some r).
    { intros k L. destruct (nth_error (parents s) k) eqn:E; [eauto|]. apply nth_error_None in E. lia. }
    rewrite Em in G. clear Hi F Em. destruct p; try discriminate R; unfold refok in P0; cbn [refp] in P0; cbn [wants_qm wants_pm] in WQ, WP; cbn [run];
      try (rewrite (WQ eq_refl)); try (destruct (N _ P0) as [r Hr]; rewrite Hr; try rewrite (WP eq_refl _ _ Hr)); try (left; eexists; intros; reflexivity).
    all: try (match goal with |- context [(0 <? 0)%nat] => right; cbn [Nat.ltb Nat.leb]; rewrite andb_false_r; eexists; split; reflexivity end).
    all: left.
    all: repeat match goal with |- context [match ?x with _ => _ end] => destruct x end; try (eexists; intros; reflexivity).
    all: cbn in G; lia. }
  destruct E as [[o E]|[o [E Q]]].
  - destruct (effect_can (o_eff o) (upd (threads s) i (o_pc o))) as [c Hc]. exists c. rewrite E. destruct (apply_effect _ _ _); [discriminate|congruence].
  - exists 0. rewrite E, Q. discriminate.
Qed.

Lemma sumf_in (f : pc -> nat) l : 0 < sumf f l -> exists i p, nth_error l i = Some p /\ 0 < f p.
Proof. 
  induction l as [|p l IH]; cbn [sumf]; intros H; [lia|]. destruct (Nat.eq_dec (f p) 0) as [E|E].
  - destruct (IH ltac:(lia)) as (i & q & Hi & Hq). exists (S i), q. auto.
  - exists 0, p. split; [reflexivity|lia].
Qed.

(** When no thread can go on by itself, nobody holds a lock, and every thread rests. *)
Lemma stuck_rests cfg s tr : inv cfg s tr -> refs s -> stuck cfg s ->
  qm (pl s) = false /\ (forall k r, nth_error (parents s) k = Some r -> pm r = false) /\
  (forall i p, nth_error (threads s) i = Some p -> resting p = true).
Proof.
  intros [C D [dl A] P] R S. pose proof (ac_empty _ _ _ _ _ A) as Em.
  assert (Q0 : qm (pl s) = false).
  { pose proof (co_qm _ _ _ _ _ _ C) as E. destruct (qm (pl s)); [|reflexivity]. cbn in E.
    destruct (sumf_in inq (threads s) ltac:(lia)) as (i & p & Hi & Hp). exfalso.
    destruct (goes cfg s i p R Em Hi) as [c Hc]; [destruct p; auto; cbn in Hp; lia|destruct p; try discriminate; cbn in Hp; lia|destruct p; try discriminate; cbn in Hp; lia|].
    apply Hc, S. }
  assert (P0 : forall k r, nth_error (parents s) k = Some r -> pm r = false).
  { intros k r Hr. pose proof (po_pm _ _ _ _ _ _ (P k r Hr)) as E. destruct (pm r) eqn:Er; [|reflexivity]. cbn in E.
    destruct (sumf_in (inp k) (threads s) ltac:(lia)) as (i & p & Hi & Hp). exfalso.
    destruct (goes cfg s i p R Em Hi) as [c Hc]; [destruct p; auto; cbn in Hp; lia|destruct p; try discriminate; cbn in Hp; lia|destruct p; try discriminate; cbn in Hp; lia|].
    apply Hc, S. }
  split; [exact Q0|]. split; [exact P0|]. intros i p Hi. destruct (resting p) eqn:Rp; [reflexivity|exfalso].
  destruct (goes cfg s i p R Em Hi Rp (fun _ => Q0) (fun _ => P0)) as [c Hc]. apply Hc, S.
Qed.

Record linv (cfg : config) (s : state) : Prop := mklv {
  l_stays : stays cfg (pl s) (sumf tm (threads s)) (sumf quit (threads s)); l_awake : awake s; l_heard : heard s }.
Record binv (s : state) : Prop := mkbv { b_owed : owed s; b_ending : ending (pl s) (sumf sleeper (threads s)) (sumf xblk (threads s)); b_refs : refs s }.

Lemma binv_exec cfg l : forall s tr s' e, inv cfg s tr -> binv s -> exec cfg s l = Some (s', e) -> binv s'.
Proof.
  induction l as [|a l IH]; intros s tr s' e I B H; cbn [exec] in H; [injection H as <- <-; exact B|].
  destruct (step cfg s a) as [[s1 e1]|] eqn:E; [|discriminate H]. destruct (exec cfg s1 l) as [[s2 e2]|] eqn:E2; [|discriminate H].
  injection H as <- <-. eapply (IH s1 (tr ++ e1)); [eapply inv_step; eauto| |exact E2].
  destruct I as [C D A P], B as [B1 B2 B3]. constructor; [eapply owed_step|eapply ending_step|eapply refs_step]; eauto.
Qed.

Lemma linv_exec cfg l : keeps cfg -> 1 <= min_threads cfg -> (1 <= queue_max cfg)%N ->
  forall s tr s' e, inv cfg s tr -> linv cfg s -> exec cfg s l = Some (s', e) -> linv cfg s'.
Proof.
  intros K M Q. induction l as [|a l IH]; intros s tr s' e I B H; cbn [exec] in H; [injection H as <- <-; exact B|].
  destruct (step cfg s a) as [[s1 e1]|] eqn:E; [|discriminate H]. destruct (exec cfg s1 l) as [[s2 e2]|] eqn:E2; [|discriminate H].
  injection H as <- <-. eapply (IH s1 (tr ++ e1)); [eapply inv_step; eauto| |exact E2].
  destruct I as [C D A P], B as [B1 B2 B3]. constructor; [eapply stays_step|eapply awake_step|eapply heard_step]; eauto.
Qed.

Lemma sumf_rep0 (f : pc -> nat) p n : f p = 0 -> sumf f (repeat p n) = 0.
Proof. intros E. induction n; cbn [repeat sumf]; lia. Qed.

Lemma start_sum cfg np nc f : f CIdle = 0 -> sumf f (threads (start cfg np nc)) = min_threads cfg * f WLock.
Proof. intros E. cbn [start threads]. rewrite sumf_app, (sumf_rep0 f CIdle) by exact E. rewrite sumf_repeat. lia. Qed.

Lemma binv_start cfg np nc : binv (start cfg np nc).
Proof.
  constructor.
  - intros k r _. rewrite !start_sum by reflexivity. cbn. rewrite Nat.mul_0_r. lia.
  - rewrite !start_sum by reflexivity. constructor; cbn; rewrite ?Nat.mul_0_r; lia.
  - split; [|constructor]. cbn [start threads parents]. apply Forall_app.
    split; apply Forall_forall; intros p Hp; apply repeat_spec in Hp; subst; exact I.
Qed.

Lemma linv_start cfg np nc : linv cfg (start cfg np nc).
Proof.
  constructor.
  - rewrite !start_sum by reflexivity. constructor; cbn; intros; rewrite ?Nat.mul_0_r; lia.
  - intros H. exfalso. apply H. reflexivity.
  - unfold heard. rewrite !start_sum by reflexivity. cbn. rewrite Nat.mul_0_r. lia.
Qed.

Lemma sumf_none (f : pc -> nat) l : (forall i p, nth_error l i = Some p -> f p = 0) -> sumf f l = 0.
Proof.
  intros H. destruct (Nat.eq_dec (sumf f l) 0) as [E|E]; [exact E|]. destruct (sumf_in f l ltac:(lia)) as (i & p & Hi & Hp).
  rewrite (H i p Hi) in Hp. lia.
Qed.

(** ** No deadlock *)
Lemma rests_zero (f : pc -> nat) s : (forall i p, nth_error (threads s) i = Some p -> resting p = true) -> (forall p, resting p = true -> f p = 0) -> sumf f (threads s) = 0.
Proof. intros H F. apply sumf_none. intros i p Hi. apply F, (H i p Hi). Qed.

Lemma up_not_freed s : downs s -> up (pl s) = true -> freed (pl s) = false.
Proof. intros D U. destruct (freed (pl s)) eqn:E; [|reflexivity]. rewrite (proj2 (dn_up _ _ _ _ _ _ _ D) (or_intror E)) in U. discriminate U. Qed.

Lemma stuck_up cfg s tr : inv cfg s tr -> binv s -> linv cfg s -> stuck cfg s -> up (pl s) = true ->
  queue (pl s) = [] /\ (forall i p, nth_error (threads s) i = Some p -> p = CIdle \/ p = WBlocked false) /\
  (forall t, completed t tr = dispatched t tr /\ returned t tr = dispatched t tr).
Proof.
  intros V [O E R] [Y Aw He] S U. destruct (stuck_rests cfg s tr V R S) as (_ & _ & Re). destruct V as [C D [dl A] P].
  assert (Q0 : queue (pl s) = []).
  { destruct (queue (pl s)) eqn:Eq; [reflexivity|exfalso]. assert (X : queue (pl s) <> []) by (rewrite Eq; discriminate). specialize (Aw X U).
    rewrite (rests_zero wact s Re), (rests_zero dsig s Re) in Aw; [lia| |]; intros []; auto; discriminate. }
  assert (B0 : sumf bi (threads s) = 0).
  { destruct (Nat.eq_dec (sumf bi (threads s)) 0) as [Z|Z]; [exact Z|exfalso]. unfold heard in He. specialize (He ltac:(lia)).
    rewrite (rests_zero pendi s Re) in He; [lia|]. intros [] Hp; auto; discriminate Hp. }
  assert (DL : dl = []) by (apply (ac_drop _ _ _ _ _ A), (up_not_freed s D U)).
  assert (N0 : forall i p, nth_error (threads s) i = Some p -> p = CIdle \/ p = WBlocked false).
  { intros i p Hi. pose proof (Re i p Hi) as Re1. pose proof (sumf_ge bi _ _ _ Hi) as G1. pose proof (sumf_ge xdown _ _ _ Hi) as G2.
    pose proof (sumf_ge quit _ _ _ Hi) as G3. pose proof (sumf_ge tm _ _ _ Hi) as G4. rewrite (sy_quit _ _ _ _ Y U) in G3. rewrite (sy_tm _ _ _ _ Y) in G4.
    assert (X0 : sumf xdown (threads s) = 0).
    { destruct (Nat.eq_dec (sumf xdown (threads s)) 0) as [Z|Z]; [exact Z|exfalso]. rewrite (proj2 (dn_up _ _ _ _ _ _ _ D)) in U; [discriminate U|left; lia]. }
    destruct p; try discriminate Re1; auto; cbn in G1, G2, G3, G4; try lia.
    - destruct timed; [lia|auto].
    - exfalso. destruct R as [R _]. assert (refok (length (parents s)) (PBlocked p)) as Rp by (eapply Forall_forall; [exact R|eapply nth_error_In; eauto]).
      unfold refok in Rp. cbn in Rp. destruct (nth_error (parents s) p) as [r|] eqn:Er; [|apply nth_error_None in Er; lia].
      destruct (O p r Er) as [O1 _]. pose proof (sumf_ge (pblk p) _ _ _ Hi) as G. cbn in G. unfold is in G. rewrite Nat.eqb_refl in G.
      destruct (O1 ltac:(lia)) as [L _]. rewrite (ac_rem _ _ _ _ _ A p r Er), Q0, DL in L. cbn in L.
      rewrite (sumf_none (held p)) in L; [lia|]. intros j x Hj. specialize (Re j x Hj).
      pose proof (sumf_ge bi _ _ _ Hj) as G5. destruct x; try discriminate Re; auto; cbn in G5; lia. }
  split; [exact Q0|]. split; [exact N0|]. intros t.
  pose proof (ac_disp _ _ _ _ _ A t) as A1. pose proof (ac_ret _ _ _ _ _ A t) as A2. rewrite Q0, DL in A1. cbn in A1.
  rewrite (sumf_none (pend t)), (sumf_none (inwork t)) in A1 by (intros j x Hj; destruct (N0 j x Hj) as [->| ->]; reflexivity).
  rewrite (sumf_none (calling t)) in A2 by (intros j x Hj; destruct (N0 j x Hj) as [->| ->]; reflexivity). lia.
Qed.

(** A call of destroy gets done: when no thread can go on and the pool is down, it has
    been given back, no worker is left, and nobody is inside a call but
    M_threadpool_parent_wait. *)
Lemma stuck_down cfg s tr : inv cfg s tr -> binv s -> stuck cfg s -> up (pl s) = false ->
  freed (pl s) = true /\ (forall i p, nth_error (threads s) i = Some p -> p = CIdle \/ p = WDead \/ exists k, p = PBlocked k).
Proof.
  intros V [O E R] S U. destruct (stuck_rests cfg s tr V R S) as (_ & _ & Re). destruct V as [C D [dl A] P].
  assert (X0 : sumf xblk (threads s) = 0).
  { destruct (Nat.eq_dec (sumf xblk (threads s)) 0) as [Z|Z]; [exact Z|exfalso]. pose proof (en_wait _ _ _ E ltac:(lia)) as L.
    rewrite (co_thr _ _ _ _ _ _ C) in L. destruct (sumf_in live _ L) as (i & p & Hi & Hp). specialize (Re i p Hi).
    pose proof (sumf_ge sleeper _ _ _ Hi) as G. rewrite (en_sleep _ _ _ E U) in G. destruct p; try discriminate Re; cbn in Hp, G; lia. }
  assert (F : freed (pl s) = true).
  { destruct (proj1 (dn_up _ _ _ _ _ _ _ D) U) as [L|L]; [exfalso|exact L]. destruct (sumf_in xdown _ L) as (i & p & Hi & Hp).
    specialize (Re i p Hi). pose proof (sumf_ge xblk _ _ _ Hi) as G. destruct p; try discriminate Re; cbn in Hp, G; lia. }
  split; [exact F|]. intros i p Hi. destruct (freed_unused s i p D F Hi) as (F1 & F2 & F3 & _). specialize (Re i p Hi).
  destruct p; try discriminate Re; try discriminate F1; try discriminate F2; try discriminate F3; eauto.
Qed.

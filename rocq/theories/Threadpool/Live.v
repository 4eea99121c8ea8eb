(** No lost wake-ups in the thread pool. *)
From Verif Require Import Base.Lib Base.Conc Threadpool.Model Threadpool.Spec Threadpool.Proofs.

(** ** Sums that only grow or only shrink when threads are woken *)
Definition grows (f : pc -> nat) : Prop := (forall q, f q <= f (wake q)) /\ f (WBlocked true) <= f (WWoken true).
Definition shrinks (f : pc -> nat) : Prop := (forall q, f (wake q) <= f q) /\ f (WWoken true) <= f (WBlocked true) /\ f WLock = 0.

Lemma grows_effect f e c l l' : grows f -> apply_effect e c l = Some l' -> sumf f l <= sumf f l'.
Proof.
  intros [W _] H. destruct e as [|v|v|]; cbn [apply_effect] in H.
  - injection H as <-. lia.
  - destruct (existsb _ l).
    + destruct (nth_error l c) as [q|] eqn:E; [|discriminate H]. destruct (waits_on v q); [|discriminate H]. injection H as <-.
      pose proof (sumf_upd f l c q (wake q) E) as U. specialize (W q). lia.
    + injection H as <-. lia.
  - injection H as <-. induction l as [|z l IH]; cbn [sumf map]; [lia|]. specialize (W z). destruct (waits_on v z); lia.
  - injection H as <-. rewrite sumf_app. lia.
Qed.

Lemma shrinks_effect f e c l l' : shrinks f -> apply_effect e c l = Some l' -> sumf f l' <= sumf f l.
Proof.
  intros (W & _ & W3) H. destruct e as [|v|v|]; cbn [apply_effect] in H.
  - injection H as <-. lia.
  - destruct (existsb _ l).
    + destruct (nth_error l c) as [q|] eqn:E; [|discriminate H]. destruct (waits_on v q); [|discriminate H]. injection H as <-.
      pose proof (sumf_upd f l c q (wake q) E) as U. specialize (W q). lia.
    + injection H as <-. lia.
  - injection H as <-. induction l as [|z l IH]; cbn [sumf map]; [lia|]. specialize (W z). destruct (waits_on v z); lia.
  - injection H as <-. rewrite sumf_app. cbn [sumf]. lia.
Qed.

Definition won (v : cond) (p : pc) : nat := b2n (waits_on v p).

(** A signal wakes somebody, or nobody waits. *)
Lemma signal_effect f v c l l' : (forall q, waits_on v q = true -> f q < f (wake q)) ->
  apply_effect (Signal v) c l = Some l' -> sumf (won v) l = 0 \/ sumf f l < sumf f l'.
Proof.
  intros W H. cbn [apply_effect] in H. destruct (existsb (waits_on v) l) eqn:Ex.
  - right. destruct (nth_error l c) as [q|] eqn:E; [|discriminate H]. destruct (waits_on v q) eqn:Q; [|discriminate H]. injection H as <-.
    pose proof (sumf_upd f l c q (wake q) E) as U. specialize (W q Q). lia.
  - left. now apply existsb_sumf.
Qed.

(** After a broadcast nobody waits. *)
Lemma broadcast_effect v c l l' : apply_effect (Broadcast v) c l = Some l' -> sumf (won v) l' = 0.
Proof.
  intros H. cbn [apply_effect] in H. injection H as <-. induction l as [|z l IH]; cbn [sumf map]; [reflexivity|]. rewrite IH.
  unfold won. destruct (waits_on v z) eqn:E; [|now rewrite E]. destruct v, z; try discriminate E; reflexivity.
Qed.

Lemma grows_run f l i p x e c l' : grows f -> nth_error l i = Some p -> apply_effect e c (upd l i x) = Some l' -> sumf f l + f x <= sumf f l' + f p.
Proof. intros W Hi H. pose proof (grows_effect f e c _ _ W H). pose proof (sumf_upd f l i p x Hi). lia. Qed.

Lemma shrinks_run f l i p x e c l' : shrinks f -> nth_error l i = Some p -> apply_effect e c (upd l i x) = Some l' -> sumf f l' + f p <= sumf f l + f x.
Proof. intros W Hi H. pose proof (shrinks_effect f e c _ _ W H). pose proof (sumf_upd f l i p x Hi). lia. Qed.

Ltac gr := split; [intros []; cbn; lia | cbn; lia].
Ltac sh := split; [intros []; cbn; lia | split; cbn; lia].

(** ** Workers only leave when the pool goes down *)
Definition tm (p : pc) : nat := match p with WTop true | WBlocked true | WWoken true | WDec true => 1 | _ => 0 end.
Definition quit (p : pc) : nat := match p with WQuit | WExitLock | WExitDec | WExitOut | WDead => 1 | _ => 0 end.
Lemma quit_w : winv quit. Proof. wi. Qed.
Lemma tm_s : shrinks tm.
Proof. split; [intros []; cbn; try lia; destruct timed; lia|split; cbn; lia]. Qed.

(** No thread is ever told to go: no idle time, or as many threads as at least. *)
Definition keeps (cfg : config) : Prop := idle_time cfg = Never \/ max_threads cfg <= min_threads cfg.

Record stays (cfg : config) (q : pool) (c_tm c_quit : nat) : Prop := mksy {
  sy_tm : c_tm = 0; sy_quit : up q = true -> c_quit = 0; sy_min : up q = true -> min_threads cfg <= nthr q }.

Lemma stays_step cfg s a s' e : keeps cfg -> counts cfg s -> stays cfg (pl s) (sumf tm (threads s)) (sumf quit (threads s)) ->
  step cfg s a = Some (s', e) -> stays cfg (pl s') (sumf tm (threads s')) (sumf quit (threads s')).
Proof.
  intros K C [Y1 Y2 Y3] H.
  apply step_cases in H as [(i & c & p & o & Hi & Hr & Ha & _ & Hp & _)|[(i & o & Hi & _ & Ht & _ & Hp & _)|(i & q & r & Hi & _ & Hw & Ht & Hp & _)]].
  - rewrite Hp. clear Hp. pose proof (shrinks_run tm _ _ _ _ _ _ _ tm_s Hi Ha) as X. pose proof (sumf_ge tm _ _ _ Hi) as G.
    destruct (change_run _ _ _ _ _ _ _ Hi Ha quit quit_w) as [X2 G2].
    assert (M : nthr (pl s) <= max_threads cfg) by apply C.
    assert (Q : quit p = 1 \/ quit p = 0) by (destruct p; cbn; auto).
    set (a1 := sumf tm (threads s)) in *. set (a2 := sumf quit (threads s)) in *. set (b1 := sumf tm (threads s')) in *. set (b2 := sumf quit (threads s')) in *.
    clearbody a1 a2 b1 b2. clear Ha Hi C.
    destruct (pl s) as [m u fr nt ni wt qu]. cbn [qm up freed nthr nidle waiters queue] in *.
    destruct p; split_run Hr; split_out X; split_out X2.
    all: try (destruct tmo; cbn [tm] in G; [exfalso; lia|]).
    all: try (exfalso; destruct K as [K|K]; [congruence|]; rewrite Nat.ltb_lt in *; lia).
    all: cbn [tm quit spawned andb] in *.
    all: constructor; cbn [up nthr]; try assumption; try lia; try discriminate.
    all: try (destruct u; cbn in *; try discriminate; intros; try specialize (Y2 eq_refl); try specialize (Y3 eq_refl); try lia; discriminate).
    all: try (intros U; specialize (Y2 U); try specialize (Y3 U); lia).
  - rewrite Hp, Ht. rewrite !(sumf_same _ _ _ _ _ Hi) by (destruct o as [? []| | | |]; reflexivity). constructor; assumption.
  - rewrite Hp, Ht. assert (Hw' : r = wake q \/ q = WBlocked true /\ r = WWoken true) by tauto.
    rewrite (wake_same quit _ _ _ _ quit_w Hi Hw'). constructor; try assumption.
    pose proof (sumf_upd tm _ _ _ r Hi). destruct tm_s as (W1 & W2 & _). assert (tm r <= tm q) by (destruct Hw' as [->|[-> ->]]; auto). lia.
Qed.

(** Who holds the mutex is alone. *)
Lemma alone (m g : pc -> nat) l i p : (forall x, g x <= m x) -> nth_error l i = Some p -> m p = 1 -> g p = 0 -> sumf m l <= 1 -> sumf g l = 0.
Proof.
  intros H Hi M G S. pose proof (sumf_ge (fun x => m x - g x) l i p Hi) as A. cbn beta in A.
  assert (sumf (fun x => m x - g x) l + sumf g l = sumf m l) by (apply sumf_add; intros x; specialize (H x); lia). lia.
Qed.

Lemma qm_one cfg s : counts cfg s -> sumf inq (threads s) <= 1.
Proof. intros C. rewrite (co_qm _ _ _ _ _ _ C). destruct (qm (pl s)); cbn; lia. Qed.

(** ** Queued tasks have a worker *)
Definition wact (p : pc) : nat := match p with
  | WLock | WTop _ | WFetchSig _ | WFetchOut _ | WStart _ | WRunning _ | WPLock _ | WPDec _ | WPOut _ | WWoken _ | WDec _ => 1 | _ => 0 end.
Definition dsig (p : pc) : nat := match p with DSig _ _ _ => 1 | _ => 0 end.
Definition idl (p : pc) : nat := match p with WIdleSig | WWait => 1 | _ => 0 end.
Lemma wact_g : grows wact. Proof. gr. Qed.
Lemma dsig_w : winv dsig. Proof. wi. Qed.

Lemma live_parts l : sumf live l <= sumf wact l + sumf idl l + sumf (won OCond) l + sumf quit l.
Proof. induction l as [|p l IH]; cbn [sumf]; [lia|]. destruct p; cbn; lia. Qed.

(** After inserting a task and signalling, a worker is awake. *)
Lemma dsig_wakes cfg s i k all a x c l' : counts cfg s -> stays cfg (pl s) (sumf tm (threads s)) (sumf quit (threads s)) -> 1 <= min_threads cfg ->
  nth_error (threads s) i = Some (DSig k all a) -> x = DOut k all \/ x = DSpawn k all a true ->
  apply_effect (Signal OCond) c (upd (threads s) i x) = Some l' -> up (pl s) = true -> 0 < sumf wact l'.
Proof.
  intros C Y M Hi Hx Ha U.
  pose proof (alone inq idl _ _ _ ltac:(intros []; cbn; lia) Hi eq_refl eq_refl (qm_one _ _ C)) as I0.
  destruct (signal_effect wact OCond c _ _ ltac:(intros []; cbn; try discriminate; lia) Ha) as [Z|Z]; [|lia].
  assert (E : l' = upd (threads s) i x).
  { cbn [apply_effect] in Ha. destruct (existsb _ _) eqn:Ex; [|congruence]. apply existsb_exists in Ex as (y & Hy & By).
    apply In_nth_error in Hy as [j Hj]. pose proof (sumf_ge (won OCond) _ _ _ Hj). unfold won at 1 in H. rewrite By in H. cbn in H. lia. }
  subst l'. pose proof (live_parts (upd (threads s) i x)) as P.
  assert (sumf live (upd (threads s) i x) = sumf live (threads s)) by (apply (sumf_same _ _ _ _ _ Hi); destruct Hx as [-> | ->]; reflexivity).
  assert (sumf quit (upd (threads s) i x) = sumf quit (threads s)) by (apply (sumf_same _ _ _ _ _ Hi); destruct Hx as [-> | ->]; reflexivity).
  assert (sumf idl (upd (threads s) i x) = sumf idl (threads s)) by (apply (sumf_same _ _ _ _ _ Hi); destruct Hx as [-> | ->]; reflexivity).
  pose proof (sy_quit _ _ _ _ Y U). pose proof (sy_min _ _ _ _ Y U). pose proof (co_thr _ _ _ _ _ _ C). lia.
Qed.

Definition awake (s : state) : Prop := queue (pl s) <> [] -> up (pl s) = true -> 0 < sumf wact (threads s) + sumf dsig (threads s).

Lemma awake_step cfg s a s' e : 1 <= min_threads cfg -> counts cfg s -> stays cfg (pl s) (sumf tm (threads s)) (sumf quit (threads s)) -> awake s ->
  step cfg s a = Some (s', e) -> awake s'.
Proof.
  intros M C Y A H.
  apply step_cases in H as [(i & c & p & o & Hi & Hr & Ha & _ & Hp & _)|[(i & o & Hi & _ & Ht & _ & Hp & _)|(i & q & r & Hi & _ & Hw & Ht & Hp & _)]].
  - unfold awake in *. rewrite Hp. intros Q U.
    destruct (dsig p) eqn:Ed.
    2: { destruct p; try discriminate Ed. injection Hr as <-. cbn [o_pl o_pc o_eff] in *.
         assert (0 < sumf wact (threads s')); [eapply (dsig_wakes cfg s i p all a0); try eassumption; destruct a0; auto|lia]. }
    pose proof (grows_run wact _ _ _ _ _ _ _ wact_g Hi Ha) as X. destruct (change_run _ _ _ _ _ _ _ Hi Ha dsig dsig_w) as [X2 G2].
    pose proof (sy_tm _ _ _ _ Y) as T. pose proof (sumf_ge tm _ _ _ Hi) as G.
    clear Ha Hi.
    set (a1 := sumf wact (threads s)) in *. set (a2 := sumf dsig (threads s)) in *. set (b1 := sumf wact (threads s')) in *. set (b2 := sumf dsig (threads s')) in *.
    clearbody a1 a2 b1 b2. destruct (pl s) as [m u fr nt ni wt qu]. cbn [qm up freed nthr nidle waiters queue] in *.
    destruct p; try discriminate Ed; split_run Hr; split_out X; split_out X2; cbn [wact dsig spawned] in *; try (specialize (A Q U); lia); try (exfalso; congruence); try lia.
    + subst u. discriminate.
    + specialize (A ltac:(congruence) U). lia.
  - unfold awake in *. rewrite Hp, Ht. rewrite !(sumf_same _ _ _ _ _ Hi) by (destruct o as [? []| | | |]; reflexivity). exact A.
  - unfold awake in *. rewrite Hp, Ht. assert (Hw' : r = wake q \/ q = WBlocked true /\ r = WWoken true) by tauto.
    rewrite (wake_same dsig _ _ _ _ dsig_w Hi Hw'). intros Q U. specialize (A Q U).
    pose proof (sumf_upd wact _ _ _ r Hi). destruct wact_g as (W1 & W2). assert (wact q <= wact r) by (destruct Hw' as [->|[-> ->]]; auto). lia.
Qed.

(** ** Blocked callers have somebody to wake them *)
Definition bi (p : pc) : nat := match p with DWait _ _ _ | DBlocked _ _ _ | AWait | ABlocked => 1 | _ => 0 end.
Definition biw (p : pc) : nat := match p with DWait _ _ _ | AWait => 1 | _ => 0 end.
Definition bib (p : pc) : nat := match p with DBlocked _ _ _ | ABlocked => 1 | _ => 0 end.
Definition pendi (p : pc) : nat := match p with
  | WIdleSig | DWoken _ _ _ | DDec _ _ _ | DSpawn _ _ _ true | DTest _ _ _ true | DSig _ _ _ | AWoken | ADec | ARelay | XWoken => 1
  | _ => wact p end.
Definition prest (p : pc) : nat := pendi p - (wact p + dsig p).
Lemma bi_s : shrinks bi. Proof. sh. Qed.
Lemma pendi_g : grows pendi. Proof. gr. Qed.

Definition heard (s : state) : Prop := 0 < sumf bi (threads s) -> 0 < sumf pendi (threads s).

Lemma heard_step cfg s a s' e : 1 <= min_threads cfg -> (1 <= queue_max cfg)%N -> counts cfg s -> downs s ->
  stays cfg (pl s) (sumf tm (threads s)) (sumf quit (threads s)) -> awake s -> heard s ->
  step cfg s a = Some (s', e) -> heard s'.
Proof.
  intros M QM C D Y A A2 H.
  apply step_cases in H as [(i & c & p & o & Hi & Hr & Ha & _ & Hp & _)|[(i & o & Hi & _ & Ht & _ & Hp & _)|(i & q & r & Hi & _ & Hw & Ht & Hp & _)]].
  - intros B.
    pose proof (shrinks_run bi _ _ _ _ _ _ _ bi_s Hi Ha) as X. pose proof (grows_run pendi _ _ _ _ _ _ _ pendi_g Hi Ha) as X2.
    assert (O1 : sumf bi (threads s) <= sumf us (threads s)) by (apply sumf_le; intros []; cbn; lia).
    assert (O2 : sumf bi (threads s) <= sumf iwait (threads s)) by (apply sumf_le; intros []; cbn; lia).
    assert (O3 : sumf iwait (threads s) <= sumf bi (threads s) + sumf pendi (threads s)).
    { clear. induction (threads s) as [|z l IH]; cbn [sumf]; [lia|]. destruct z; cbn; lia. }
    assert (O4 : sumf wact (threads s) + sumf dsig (threads s) <= sumf pendi (threads s)).
    { clear. induction (threads s) as [|z l IH]; cbn [sumf]; [lia|]. destruct z; cbn; lia. }
    assert (O6 : sumf prest (threads s) + (sumf wact (threads s) + sumf dsig (threads s)) = sumf pendi (threads s)).
    { clear. induction (threads s) as [|z l IH]; cbn [sumf]; [lia|]. unfold prest at 1. destruct z; cbn; try lia; destruct woke; cbn; lia. }
    assert (O5 : sumf bi (threads s) = sumf biw (threads s) + sumf bib (threads s)).
    { symmetry. apply sumf_add. intros []; reflexivity. }
    assert (U : 0 < sumf us (threads s) -> up (pl s) = true).
    { intros U. destruct (up (pl s)) eqn:E; auto. exfalso. assert (F := proj1 (dn_up _ _ _ _ _ _ _ D) E).
      assert (sumf xdown (threads s) <= sumf xs (threads s)) by (apply sumf_le; intros []; cbn; lia).
      destruct F as [F|F]; [pose proof (dn_excl _ _ _ _ _ _ _ D); lia|pose proof (dn_freed _ _ _ _ _ _ _ D F); lia]. }
    assert (XE : 0 < sumf xs (threads s) -> sumf us (threads s) = 0) by apply (dn_excl _ _ _ _ _ _ _ D).
    pose proof (sumf_ge xs _ _ _ Hi) as GX. pose proof (sumf_ge us _ _ _ Hi) as GU. pose proof (sumf_ge tm _ _ _ Hi) as GT.
    pose proof (sy_tm _ _ _ _ Y) as T. pose proof (sumf_ge pendi _ _ _ Hi) as GP. pose proof (sumf_ge prest _ _ _ Hi) as GR.
    pose proof (co_wait _ _ _ _ _ _ C) as CW. unfold heard in A2.
    destruct (pendi p) eqn:Ep.
    + (* the thread was not pending *)
      destruct (bi (o_pc o)) eqn:Eb; [lia|].
      assert (up (pl s) = true) as U1.
      { destruct p; split_run Hr; try discriminate Eb; try discriminate Ep; try (destruct (nthr _ =? 0)%nat; discriminate Eb); cbn in GU; try (apply U; lia). }
      destruct p; split_run Hr; try discriminate Eb; try discriminate Ep; try (destruct (nthr _ =? 0)%nat; discriminate Eb); cbn [bi o_pc pendi wact] in *; try lia.
      * destruct woke; [discriminate Ep|]. rewrite orb_false_r in Heqb. cbn in X2.
        apply andb_false_iff in Heqb as [E|E].
        -- apply Nat.eqb_neq in E. lia.
        -- apply N.ltb_ge in E. assert (Q : queue (pl s) <> []) by (intros Q; rewrite Q in E; cbn in E; lia). specialize (A Q U1). lia.
      * apply orb_false_iff in Heqb as [E1 E2]. rewrite Nat.ltb_ge in *.
        pose proof (co_idle _ _ _ _ _ _ C) as I. pose proof (sy_min _ _ _ _ Y U1) as Y3. pose proof (sy_quit _ _ _ _ Y U1) as Y2.
        pose proof (co_thr _ _ _ _ _ _ C) as CT.
        assert (L : sumf live (threads s) <= sumf wact (threads s) + sumf idle (threads s) + sumf quit (threads s)).
        { clear. induction (threads s) as [|z l IH]; cbn [sumf]; [lia|]. destruct z; cbn; lia. }
        lia.
    + (* it was *)
      assert (NB : inq p = 1 -> pendi (o_pc o) = 0 -> bi (o_pc o) = 0 -> o_eff o = Signal ICond -> 0 < sumf pendi (threads s')).
      { intros I1 P1 B1 ES. rewrite ES in Ha.
        destruct (signal_effect pendi ICond c _ _ ltac:(intros []; cbn; try discriminate; lia) Ha) as [Z|Z]; [exfalso|lia].
        assert (bib (o_pc o) = 0 /\ bib p = 0) as [B2 B3] by (split; [destruct (o_pc o); auto; discriminate B1|destruct p; auto; discriminate I1]).
        pose proof (sumf_upd bib _ _ _ (o_pc o) Hi) as V. 
        assert (sumf bib (upd (threads s) i (o_pc o)) <= sumf (won ICond) (upd (threads s) i (o_pc o))) by (apply sumf_le; intros []; cbn; lia).
        assert (sumf biw (threads s) = 0).
        { destruct (biw p) eqn:E3; [|destruct p; try discriminate E3; discriminate Ep].
          eapply (alone inq biw); [intros []; cbn; lia|exact Hi|exact I1|exact E3|eapply qm_one; eauto]. }
        lia. }
      assert (I0 : sumf biw (threads s) = 0 \/ inq p = 0 \/ biw p = 1).
      { destruct (inq p) as [|[|]] eqn:I1; auto; [|destruct p; discriminate I1]. destruct (biw p) eqn:E3; [|destruct p; try discriminate E3; auto].
        left. eapply (alone inq biw); [intros []; cbn; lia|exact Hi|exact I1|exact E3|eapply qm_one; eauto]. }
      destruct (pendi (o_pc o)) eqn:Epo; [|lia].
      destruct p; try discriminate Ep; split_run Hr; try discriminate Epo; cbn [inq bi o_pc pendi wact] in *; try (apply NB; reflexivity).
      * rewrite (U ltac:(lia)) in Heqb. discriminate Heqb.
      * destruct tmo; [cbn in GT; lia|discriminate Heqb0].
      * apply Nat.ltb_ge in Heqb. lia.
      * destruct woke; [discriminate Epo|discriminate Ep].
      * destruct woke; [discriminate Epo|discriminate Ep].
      * destruct woke; [|discriminate Ep]. cbn [orb] in Heqb. rewrite orb_true_r in Heqb. cbn [andb] in Heqb. apply N.ltb_ge in Heqb.
        assert (Q : queue (pl s) <> []) by (intros Q; rewrite Q in Heqb; cbn in Heqb; lia).
        assert (U1 : up (pl s) = true) by (apply U; cbn in GU; lia). specialize (A Q U1). cbn in GR. lia.
      * assert (U1 : up (pl s) = true) by (apply U; cbn in GU; lia).
        assert (0 < sumf wact (threads s')); [eapply (dsig_wakes cfg s i p all a0); try eassumption; destruct a0; auto|].
        assert (sumf wact (threads s') <= sumf pendi (threads s')) by (apply sumf_le; intros []; cbn; lia). lia.
      * apply Nat.ltb_ge in Heqb. lia.
      * cbn in GX. lia.
  - unfold heard in *. rewrite Ht. rewrite !(sumf_same _ _ _ _ _ Hi) by (destruct o as [? []| | | |]; reflexivity). exact A2.
  - unfold heard in *. rewrite Ht. assert (Hw' : r = wake q \/ q = WBlocked true /\ r = WWoken true) by tauto.
    pose proof (sumf_upd bi _ _ _ r Hi). pose proof (sumf_upd pendi _ _ _ r Hi). destruct bi_s as (W1 & W2 & _). destruct pendi_g as (W3 & W4).
    assert (bi r <= bi q) by (destruct Hw' as [->|[-> ->]]; auto). assert (pendi q <= pendi r) by (destruct Hw' as [->|[-> ->]]; auto). lia.
Qed.

(** ** Waiting parents have tasks remaining *)
Definition pblk (k : nat) (p : pc) : nat := match p with PWait r | PBlocked r => is k r | _ => 0 end.
Definition pclr (k : nat) (p : pc) : nat := match p with PClear r => is k r | _ => 0 end.
Lemma pblk_s k : shrinks (pblk k). Proof. sh. Qed.
Lemma pclr_w k : winv (pclr k). Proof. wi. Qed.

Definition owed (s : state) : Prop := forall k r, nth_error (parents s) k = Some r ->
  (0 < sumf (pblk k) (threads s) -> 0 < remaining r /\ waiting r = true) /\ (0 < sumf (pclr k) (threads s) -> remaining r = 0).

Lemma pm_one s k r : pars s -> nth_error (parents s) k = Some r -> sumf (inp k) (threads s) <= 1.
Proof. intros P H. rewrite (po_pm _ _ _ _ _ _ (P k r H)). destruct (pm r); cbn; lia. Qed.

Lemma owed_step cfg s a s' e : pars s -> owed s -> step cfg s a = Some (s', e) -> owed s'.
Proof.
  intros P O H k r' Hr'.
  apply step_cases in H as [(i & c & p & o & Hi & Hr & Ha & _ & Hp & Hq & He)|[(i & o & Hi & Al & Ht & _ & Hp & Hq & He)|(i & q & r & Hi & _ & Hw & Ht & Hp & Hq & He)]].
  - rewrite Hq in Hr'. assert (exists r, nth_error (parents s) k = Some r) as [r Hk].
    { destruct (nth_error (parents s) k) eqn:E; eauto. apply nth_error_None in E. pose proof (run_pars_len _ _ _ _ _ _ _ Hr).
      assert (nth_error (o_pars o) k = None) by (apply nth_error_None; lia). congruence. }
    destruct (O k r Hk) as [O1 O2]. pose proof (shrinks_run (pblk k) _ _ _ _ _ _ _ (pblk_s k) Hi Ha) as X. pose proof (sumf_ge (pblk k) _ _ _ Hi) as G.
    destruct (change_run _ _ _ _ _ _ _ Hi Ha (pclr k) (pclr_w k)) as [X2 G2].
    assert (AL : inp k p = 1 -> pclr k p = 0 -> sumf (pclr k) (threads s) = 0).
    { intros E1 E2. eapply (alone (inp k) (pclr k)); [intros []; cbn; lia|exact Hi|exact E1|exact E2|eapply pm_one; eauto]. }
    assert (BC : inp k p = 1 -> o_eff o = Broadcast (PCond k) -> pblk k p = 0 -> pblk k (o_pc o) = 0 -> sumf (pblk k) (threads s') = 0).
    { intros E1 E2 E3 E4. rewrite E2 in *. pose proof (broadcast_effect _ _ _ _ Ha) as Z.
      set (pw := fun x => match x with PWait r => is k r | _ => 0 end).
      assert (W0 : sumf pw (threads s) = 0).
      { eapply (alone (inp k) pw); [intros []; cbn; lia|exact Hi|exact E1|destruct p; auto|eapply pm_one; eauto]. }
      assert (PW : winv pw) by (split; [intros []; reflexivity|reflexivity]).
      destruct (change_run _ _ _ _ _ _ _ Hi Ha pw PW) as [X3 _].
      assert (pw (o_pc o) = 0) by (destruct (o_pc o); auto). cbn [spawned] in X3.
      assert (sumf pw (threads s') + sumf (won (PCond k)) (threads s') = sumf (pblk k) (threads s')).
      { apply sumf_add. intros []; cbn; auto. }
      lia. }
    clear Hi Ha P O.
    set (a1 := sumf (pblk k) (threads s)) in *. set (a2 := sumf (pclr k) (threads s)) in *. set (b1 := sumf (pblk k) (threads s')) in *. set (b2 := sumf (pclr k) (threads s')) in *.
    clearbody a1 a2 b1 b2.
    destruct p; split_run Hr; split_out X; split_out X2.
    all: cbv [pblk pclr inp is] in X, X2, G, G2, AL, BC.
    all: try (apply nth_upd in Hr' as [[-> ->]|[? Hr']]; [|assert (r' = r) by congruence; subst r']).
    all: try (assert (r' = r) by congruence; subst r').
    all: try match goal with N : ?k <> ?j |- _ => rewrite (proj2 (Nat.eqb_neq j k)) in * by congruence end.
    all: rewrite ?Nat.eqb_refl in *.
    all: try match goal with A : nth_error ?x ?y = Some ?u, B : nth_error ?x ?y = Some ?v |- _ => tryif constr_eq u v then fail else (assert (v = u) by congruence; subst v; clear B) end.
    all: cbn [pm waiting remaining dead spawned] in *.
    all: try (split; intros L; [apply O1; lia|apply O2; lia]).
    + specialize (BC eq_refl eq_refl eq_refl eq_refl). specialize (AL eq_refl eq_refl). lia.
    + specialize (AL eq_refl eq_refl). split; [|lia]. intros L. destruct (O1 ltac:(lia)) as [R W]. rewrite W in Heqb. cbn [andb] in Heqb.
      apply Nat.eqb_neq in Heqb. split; [lia|auto].
    + specialize (AL eq_refl eq_refl). split; [|lia]. intros L. destruct (O1 ltac:(lia)) as [R W]. split; [lia|auto].
    + apply Nat.eqb_eq in Heqb. split; [intros L; apply O1; lia|]. intros L. destruct (Nat.eqb_spec p k) as [->|N]; [congruence|]. apply O2. lia.
    + specialize (AL eq_refl eq_refl). apply Nat.eqb_neq in Heqb. split; [|lia]. intros _. split; [lia|reflexivity].
    + split; [|intros; apply O2; lia]. intros L. destruct (O1 ltac:(lia)) as [R W]. rewrite (O2 ltac:(lia)) in R. lia.
  - rewrite Hq in Hr'. rewrite Ht. rewrite !(sumf_same _ _ _ _ _ Hi) by (destruct o as [? []| | | |]; reflexivity). exact (O k r' Hr').
  - rewrite Hq in Hr'. rewrite Ht. assert (Hw' : r = wake q \/ q = WBlocked true /\ r = WWoken true) by tauto.
    rewrite (wake_same (pclr k) _ _ _ _ (pclr_w k) Hi Hw'). destruct (O k r' Hr') as [O1 O2]. split; [|exact O2].
    pose proof (sumf_upd (pblk k) _ _ _ r Hi). destruct (pblk_s k) as (W1 & W2 & _).
    assert (pblk k r <= pblk k q) by (destruct Hw' as [->|[-> ->]]; auto). intros L. apply O1. lia.
Qed.

(** ** Going down *)
Definition sleeper (p : pc) : nat := match p with WIdleSig | WWait | WBlocked _ => 1 | _ => 0 end.
Definition xblk (p : pc) : nat := match p with XWait | XBlocked => 1 | _ => 0 end.
Definition xwt (p : pc) : nat := match p with XWait => 1 | _ => 0 end.
Lemma sleeper_s : shrinks sleeper. Proof. sh. Qed.
Lemma xblk_s : shrinks xblk. Proof. sh. Qed.
Lemma xwt_w : winv xwt. Proof. wi. Qed.
Lemma idl_w : winv idl. Proof. wi. Qed.

Record ending (q : pool) (c_s c_x : nat) : Prop := mken {
  en_sleep : up q = false -> c_s = 0; en_wait : 0 < c_x -> 0 < nthr q }.

Lemma ending_step cfg s a s' e : counts cfg s -> downs s -> ending (pl s) (sumf sleeper (threads s)) (sumf xblk (threads s)) ->
  step cfg s a = Some (s', e) -> ending (pl s') (sumf sleeper (threads s')) (sumf xblk (threads s')).
Proof.
  intros C D [N1 N2] H.
  apply step_cases in H as [(i & c & p & o & Hi & Hr & Ha & _ & Hp & _)|[(i & o & Hi & _ & Ht & _ & Hp & _)|(i & q & r & Hi & _ & Hw & Ht & Hp & _)]].
  - rewrite Hp. clear Hp. pose proof (shrinks_run sleeper _ _ _ _ _ _ _ sleeper_s Hi Ha) as X. pose proof (shrinks_run xblk _ _ _ _ _ _ _ xblk_s Hi Ha) as X2.
    pose proof (sumf_ge sleeper _ _ _ Hi) as G. 
    assert (B1 : inq p = 1 -> sleeper p = 0 -> sleeper (o_pc o) = 0 -> o_eff o = Broadcast OCond -> sumf sleeper (threads s') = 0).
    { intros E1 E3 E4 E2. rewrite E2 in *. pose proof (broadcast_effect _ _ _ _ Ha) as Z.
      assert (W0 : sumf idl (threads s) = 0).
      { eapply (alone inq idl); [intros []; cbn; lia|exact Hi|exact E1|destruct p; auto; discriminate E3|eapply qm_one; eauto]. }
      destruct (change_run _ _ _ _ _ _ _ Hi Ha idl idl_w) as [X3 _].
      assert (idl (o_pc o) = 0) by (destruct (o_pc o); auto; discriminate E4). cbn [spawned] in X3.
      assert (sumf idl (threads s') + sumf (won OCond) (threads s') = sumf sleeper (threads s')) by (apply sumf_add; intros []; reflexivity).
      lia. }
    assert (B2 : inq p = 1 -> xblk p = 0 -> xblk (o_pc o) = 0 -> sumf xwt (threads s) = 0).
    { intros E1 E3 E4. eapply (alone inq xwt); [intros []; cbn; lia|exact Hi|exact E1|destruct p; auto; discriminate E3|eapply qm_one; eauto]. }
    assert (B3 : inq p = 1 -> xblk p = 0 -> xblk (o_pc o) = 0 -> o_eff o = Broadcast ICond -> sumf xblk (threads s') = 0).
    { intros E1 E3 E4 E2. specialize (B2 E1 E3 E4). rewrite E2 in *. pose proof (broadcast_effect _ _ _ _ Ha) as Z.
      destruct (change_run _ _ _ _ _ _ _ Hi Ha xwt xwt_w) as [X3 _].
      assert (xwt (o_pc o) = 0) by (destruct (o_pc o); auto; discriminate E4). cbn [spawned] in X3.
      assert (sumf xblk (threads s') <= sumf xwt (threads s') + sumf (won ICond) (threads s')).
      { clear. induction (threads s') as [|z l IH]; cbn [sumf]; [lia|]. destruct z; cbn; lia. }
      lia. }
    assert (T : nthr (pl s) = sumf live (threads s)) by apply C.
    assert (UD : 0 < sumf xblk (threads s) -> up (pl s) = false).
    { intros L. apply (dn_up _ _ _ _ _ _ _ D). left. assert (sumf xblk (threads s) <= sumf xdown (threads s)) by (apply sumf_le; intros []; cbn; lia). lia. }
    pose proof (sumf_ge live _ _ _ Hi) as GL.
    clear Hi Ha B2.
    set (a1 := sumf sleeper (threads s)) in *. set (a2 := sumf xblk (threads s)) in *. set (b1 := sumf sleeper (threads s')) in *. set (b2 := sumf xblk (threads s')) in *.
    set (n := sumf live (threads s)) in *. clear C D.
    clearbody a1 a2 b1 b2 n. destruct (pl s) as [m u fr nt ni wt qu]. cbn [qm up freed nthr nidle waiters queue] in *.
    destruct p; split_run Hr; split_out X; split_out X2; cbn [sleeper xblk live] in *; constructor; cbn [up nthr].
    all: try (intros F; specialize (N1 F); lia).
    all: try (intros F; specialize (N2 ltac:(lia)); lia).
    all: try (intros F; subst u; try discriminate; cbn in *; try discriminate; lia).
    + intros L. rewrite (UD ltac:(lia)) in B3. cbn [negb andb] in B3. destruct (Init.Nat.pred nt =? 0) eqn:E; [|apply Nat.eqb_neq in E; lia].
      specialize (B3 eq_refl eq_refl eq_refl eq_refl). lia.
    + intros _. apply B1; reflexivity.
    + intros L. apply Nat.eqb_neq in Heqb. lia.
  - rewrite Hp, Ht. rewrite !(sumf_same _ _ _ _ _ Hi) by (destruct o as [? []| | | |]; reflexivity). constructor; assumption.
  - rewrite Hp, Ht. assert (Hw' : r = wake q \/ q = WBlocked true /\ r = WWoken true) by tauto.
    pose proof (sumf_upd sleeper _ _ _ r Hi). pose proof (sumf_upd xblk _ _ _ r Hi).
    assert (sleeper r <= sleeper q /\ xblk r <= xblk q).
    { destruct sleeper_s as (W1 & W2 & _), xblk_s as (W3 & W4 & _). destruct Hw' as [->|[-> ->]]; auto. }
    constructor; [intros F; specialize (N1 F); lia|intros L; apply N2; lia].
Qed.


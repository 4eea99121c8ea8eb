(** Property theorems about the spin lock and M_thread_once (C85, C86). *)
From Verif Require Import Base.Lib Base.Conc Spin.Model Spin.Spec Spin.Proofs.
Local Open Scope N_scope.

(** C85: never two threads inside, whatever unlock calls are made by threads
    that do not hold the lock, even after the 32 bit counters have wrapped. *)
Theorem spin_mutual_exclusion : forall n s tr i j p q,
  N.of_nat n <= 2 ^ 32 -> reach n s tr ->
  nth_error (threads s) i = Some p -> nth_error (threads s) j = Some q ->
  inside p = true -> inside q = true -> i = j.
Proof.
  intros n s tr i j p q Hn R P Q IP IQ. destruct (reach_inv n s tr Hn R) as (W & I & _).
  eapply own_hd; eauto using inside_own.
Qed.
Print Assumptions spin_mutual_exclusion.

(** C85: the lock is given in the order of arrival (drawing a ticket). *)
Theorem spin_fifo : forall n s tr, N.of_nat n <= 2 ^ 32 -> reach n s tr ->
  exists waiting, arrivals tr = acquisitions tr ++ waiting.
Proof.
  intros n s tr Hn R. destruct (reach_inv n s tr Hn R) as (W & I & (pre & F1 & F2) & _).
  rewrite F1, F2. unfold headown. destruct W as [|i W]; [exists []; now rewrite !app_nil_r|].
  destruct (nth_error (threads s) i) as [p|]; [destruct (own p)|].
  - exists W. now rewrite <- app_assoc.
  - exists (i :: W). now rewrite app_nil_r.
  - exists (i :: W). now rewrite app_nil_r.
Qed.
Print Assumptions spin_fifo.

(** C85: an unlock by a thread that does not hold the lock has no effect. *)
Theorem spin_rogue_ignored : forall n s tr i ao r, N.of_nat n <= 2 ^ 32 -> reach n s tr ->
  nth_error (threads s) i = Some (UTest Rogue ao r) ->
  step s (Run i) = Some (mkst (current s) (queue s) (threadid s) (initialized s) (upd (threads s) i Idle),
                         [EReturn i Rogue r]).
Proof.
  intros n s tr i ao r Hn R P. destruct (reach_inv n s tr Hn R) as (W & I & _).
  cbn [step]. rewrite P. cbn [exec]. pose proof (i_bad _ _ _ I i _ P) as B. destruct ao; [discriminate|].
  destruct (Nat.eqb_spec (threadid s) (S i)) as [T|T]; [|reflexivity].
  exfalso. destruct (i_tidz _ _ _ I ltac:(congruence)) as (j & p & Q & TS & TJ).
  assert (j = i) by congruence. subst j. rewrite P in Q. injection Q as <-. discriminate.
Qed.
Print Assumptions spin_rogue_ignored.

(** C85: an unlock by the holder is never taken for a rogue one: it releases. *)
Theorem spin_unlock_releases : forall n s tr i k ao r, N.of_nat n <= 2 ^ 32 -> reach n s tr -> k <> Rogue ->
  nth_error (threads s) i = Some (UTest k ao r) ->
  exists s', step s (Run i) = Some (s', []) /\ nth_error (threads s') i = Some (UClear k ao r).
Proof.
  intros n s tr i k ao r Hn R K P. destruct (reach_inv n s tr Hn R) as (W & I & _).
  cbn [step]. rewrite P. cbn [exec].
  assert (T : ao || (threadid s =? S i)%nat = true).
  { destruct ao; [reflexivity|]. apply Nat.eqb_eq. apply (i_tid _ _ _ I i _ P). destruct k; reflexivity || congruence. }
  rewrite T. eexists. split; [reflexivity|]. cbn [go threads]. now rewrite (get_upd _ i _ i _ P), Nat.eqb_refl.
Qed.
Print Assumptions spin_unlock_releases.

(** C85: no deadlock: as long as a call is in progress some thread can do a
    step that changes something (does not merely spin). *)
Theorem spin_progress : forall n s tr i p, N.of_nat n <= 2 ^ 32 -> reach n s tr ->
  nth_error (threads s) i = Some p -> p <> Idle ->
  exists j s' ev, step s (Run j) = Some (s', ev) /\ s' <> s.
Proof.
  intros n s tr i p Hn R P NI. destruct (reach_inv n s tr Hn R) as (W & I & _).
  destruct W as [|j W].
  - destruct (exec_changes s i p P NI) as (s' & ev & E & NE).
    + intros k ao t ->. exfalso. destruct (i_out _ _ _ I i _ P) as [_ H]. now apply H.
    + exists i, s', ev. cbn [step]. rewrite P. auto.
  - assert (L : (j < length (threads s))%nat) by (rewrite (i_len _ _ _ I); apply (i_lt _ _ _ I); now left).
    destruct (nth_error (threads s) j) as [pj|] eqn:PJ; [|apply nth_error_None in PJ; lia].
    destruct (exec_changes s j pj PJ) as (s' & ev & E & NE).
    + intros ->. destruct (i_out _ _ _ I j _ PJ) as [H _]. discriminate H. now left.
    + intros k ao t ->. pose proof (i_ticket _ _ _ I 0%nat j k ao t eq_refl PJ) as T.
      rewrite N.add_0_r, N.mod_small in T by apply (i_cur _ _ _ I). congruence.
    + exists j, s', ev. cbn [step]. rewrite PJ. auto.
Qed.
Print Assumptions spin_progress.

(** The bound on the number of threads is needed: with more than 2^32 of them
    two tickets coincide.  (Not reachable on real systems.)  Below, a run in
    which two threads contend, a third one unlocks without the lock, and the
    second gets in only after the first has left. *)
Fixpoint play (s : state) (tr : list event) (l : list action) : option (state * list event) :=
  match l with
  | [] => Some (s, tr)
  | a :: l => match step s a with Some (s', ev) => play s' (tr ++ ev) l | None => None end
  end.
Lemma play_reach n l : forall s tr s' tr', reach n s tr -> play s tr l = Some (s', tr') -> reach n s' tr'.
Proof.
  induction l as [|a l IH]; intros s tr s' tr' R E; cbn in E.
  - injection E as <- <-. exact R.
  - destruct (step s a) as [[s1 ev]|] eqn:X; [|discriminate].
    apply (IH s1 (tr ++ ev)); [|assumption]. eapply reach_step; eauto.
Qed.
Example spin_run :
  exists s tr, reach 3 s tr /\ nth_error (threads s) 0 = Some (UInc Spin false true)
  /\ nth_error (threads s) 1 = Some (LSpin Spin false 1)
  /\ arrivals tr = [0; 1]%nat /\ acquisitions tr = [0]%nat
  /\ exists s2 tr2, reach 3 s2 tr2 /\ nth_error (threads s2) 1 = Some (Crit Spin false)
     /\ acquisitions tr2 = [0; 1]%nat /\ count is_init tr2 = 0%nat.
Proof.
  pose (l := [Call 0 Spin false; Run 0; Call 1 Spin false; Run 1; Run 0; Run 1; Run 0; Run 0;
              Call 2 Rogue false; Run 2; Run 0; Run 0]%nat).
  pose (l2 := l ++ [Run 0; Run 1; Run 1]%nat).
  destruct (play (start 3) [] l) as [[s tr]|] eqn:E; [|discriminate].
  exists s, tr. split; [eapply play_reach; [apply reach_start|exact E]|].
  vm_compute in E. injection E as <- <-. repeat (split; [reflexivity|]).
  destruct (play (start 3) [] l2) as [[s2 tr2]|] eqn:E2; [|discriminate].
  exists s2, tr2. split; [eapply play_reach; [apply reach_start|exact E2]|].
  vm_compute in E2. injection E2 as <- <-. repeat split.
Qed.

(** C86: the init routine is run at most once, and once more after each reset;
    runs never overlap. *)
Theorem once_runs_once : forall n s tr, N.of_nat n <= 2 ^ 32 -> reach n s tr ->
  (count is_init tr <= S (count is_reset tr))%nat
  /\ (count is_reset tr <= count is_init_end tr)%nat
  /\ (forall i j p q, nth_error (threads s) i = Some p -> nth_error (threads s) j = Some q ->
        in_init p = true -> in_init q = true -> i = j).
Proof.
  intros n s tr Hn R. destruct (reach_inv n s tr Hn R) as (W & I & _ & C).
  assert (ONE : (cnt initing (threads s) + b2n (initialized s) <= 1)%nat).
  { destruct (cnt initing (threads s)) as [|[|m]] eqn:D.
    - destruct (initialized s); cbn; lia.
    - destruct (proj1 (cnt_pos initing (threads s)) ltac:(lia)) as (i & p & P & IP).
      destruct (c_flag _ _ C i p P) as [H _]. rewrite (H IP). cbn. lia.
    - exfalso. assert (NOTWO : forall l : list pc, (2 <= cnt initing l)%nat ->
        exists i j p q, i <> j /\ nth_error l i = Some p /\ nth_error l j = Some q /\ initing p = true /\ initing q = true).
      { induction l as [|x l IH]; cbn [cnt]; [lia|]. destruct (initing x) eqn:X; intros H.
        - destruct (proj1 (cnt_pos initing l) ltac:(lia)) as (j & q & Q & IQ). exists 0%nat, (S j), x, q. auto.
        - destruct (IH ltac:(lia)) as (i & j & p & q & NE & P & Q & IP & IQ). exists (S i), (S j), p, q. auto. }
      destruct (NOTWO (threads s) ltac:(lia)) as (i & j & p & q & NE & P & Q & IP & IQ).
      apply NE. eapply own_hd; eauto using initing_own. }
  split; [rewrite (c_init _ _ C); lia|]. split; [rewrite (c_end _ _ C); lia|].
  intros i j p q P Q IP IQ. eapply own_hd; [exact I|exact P|exact Q| |]; destruct p, q; discriminate || reflexivity.
Qed.
Print Assumptions once_runs_once.

(** C86: whenever a call of M_thread_once returns, the init routine has been
    run to its end (by whichever thread); if there was no reset it has been run
    exactly once and the object is still initialised. *)
Theorem once_done_on_return : forall n s tr a s' ev i r, N.of_nat n <= 2 ^ 32 -> reach n s tr ->
  step s a = Some (s', ev) -> In (EReturn i Once r) ev ->
  (1 <= count is_init_end tr)%nat
  /\ (count is_reset tr = 0%nat ->
        count is_init tr = 1%nat /\ count is_init_end tr = 1%nat /\ initialized s' = true).
Proof.
  intros n s tr a s' ev i r Hn R E IN.
  destruct (once_runs_once n s tr Hn R) as (R1 & _ & _).
  destruct (reach_inv n s tr Hn R) as (W & I & _ & C).
  assert (KEY : ((1 <= count is_init_end tr)%nat /\ (count is_reset tr = 0%nat -> initialized s = true))
                /\ initialized s' = initialized s).
  { destruct a as [j k ao|j]; cbn [step] in E; destruct (nth_error (threads s) j) as [p|] eqn:P; try discriminate.
    - destruct p; try discriminate. injection E as <- <-. destruct IN.
    - pose proof (c_flag _ _ C j p P) as (_ & _ & L).
      destruct p as [|ao|k ao|k ao t|k|k ao|ao|ao|ao|k ao r'|k ao r'|k ao r']; cbn [exec] in E.
      + discriminate.
      + destruct (initialized s) eqn:INI; injection E as <- <-; [|destruct IN].
        split; [|exact INI]. split; [|auto]. rewrite (c_end _ _ C), INI. cbn. lia.
      + injection E as <- <-. destruct IN as [IN|[]]. discriminate.
      + destruct (current s =? t); injection E as <- <-; [destruct IN as [IN|[]]; discriminate|destruct IN].
      + injection E as <- <-. destruct IN.
      + destruct k; try destruct (initialized s); injection E as <- <-; try destruct IN as [IN|[]]; try discriminate; destruct IN.
      + injection E as <- <-. destruct IN as [IN|[]]. discriminate.
      + injection E as <- <-. destruct IN.
      + injection E as <- <-. destruct IN as [IN|[]]. discriminate.
      + destruct (ao || (threadid s =? S j)%nat); injection E as <- <-; [destruct IN|].
        destruct IN as [IN|[]]. injection IN as _ -> _. split; [exact (L eq_refl)|reflexivity].
      + injection E as <- <-. destruct IN.
      + injection E as <- <-. destruct IN as [IN|[]]. injection IN as _ -> _. split; [exact (L eq_refl)|reflexivity]. }
  destruct KEY as [[K1 K2] K3]. split; [exact K1|]. intros Z. specialize (K2 Z).
  pose proof (c_init _ _ C) as CI. pose proof (c_end _ _ C) as CE. rewrite K2, Z in CI, CE. cbn in CI, CE.
  assert (LE : (cnt oset (threads s) <= cnt initing (threads s))%nat)
    by (apply cnt_le; intros []; cbn; congruence).
  rewrite Z in R1. split; [lia|]. split; [lia|congruence].
Qed.
Print Assumptions once_done_on_return.

(** C86: exactly one call returns M_TRUE for each run of the routine, and one
    M_thread_once_reset for each reset: when no call is in progress the numbers
    agree. *)
Theorem once_results : forall n s tr, N.of_nat n <= 2 ^ 32 -> reach n s tr ->
  (count (returned Once true) tr <= count is_init_end tr)%nat
  /\ (count (returned Reset true) tr <= count is_reset tr)%nat
  /\ (Forall (fun p => p = Idle) (threads s) ->
        count (returned Once true) tr = count is_init tr
        /\ count is_init_end tr = count is_init tr
        /\ count (returned Reset true) tr = count is_reset tr
        /\ count is_init tr = (count is_reset tr + if initialized s then 1 else 0)%nat).
Proof.
  intros n s tr Hn R. destruct (reach_inv n s tr Hn R) as (W & I & _ & C).
  destruct C as [C1 C2 C3 C4 _]. split; [lia|]. split; [lia|]. intros F.
  assert (Z : forall f, f Idle = false -> cnt f (threads s) = 0%nat).
  { intros f Hf. clear -F Hf. induction F as [|p l -> F IH]; cbn [cnt]; [reflexivity|]. now rewrite Hf, IH. }
  rewrite !Z in * by reflexivity. unfold b2n in *. lia.
Qed.
Print Assumptions once_results.

Example once_run :
  exists s tr, reach 2 s tr /\ count is_init tr = 1%nat /\ In (EReturn 0 Once true) tr
  /\ In (EReturn 1 Once false) tr /\ initialized s = true /\ arrivals tr = [0; 1]%nat.
Proof.
  pose (l := [Call 0 Once false; Call 1 Once true; Run 0; Run 1; Run 0; Run 1; Run 0; Run 0; Run 1; Run 0; Run 0;
              Run 0; Run 0; Run 0; Run 0; Run 1; Run 1; Run 1; Run 1; Run 1]%nat).
  destruct (play (start 2) [] l) as [[s tr]|] eqn:E; [|discriminate].
  exists s, tr. split; [eapply play_reach; [apply reach_start|exact E]|].
  vm_compute in E. injection E as <- <-. vm_compute. tauto.
Qed.

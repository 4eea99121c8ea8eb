(** Without new lock calls and spurious wake-ups every schedule ends. *)
From Verif Require Import Base.Lib Base.Conc Rwlock.Model Rwlock.Spec Rwlock.Proofs.

(** Steps a thread still needs at most, with [n] threads around. *)
Definition weight (n : nat) (p : pc) : nat :=
  let b := 5 * n + 15 in
  match p with
  | Idle => 0
  | RStart | WStart => b + 4
  | RTest | WTest => b + 3
  | RInc | WInc => b + 2
  | RWait | WWait => b + 1
  | RBlocked | WBlocked => b
  | RWoken | WWoken => b + 5
  | RDec | WDec => b + 4
  | RTake | WTake => 5 * n + 14
  | ROut | WOut => 5 * n + 13
  | HoldR | HoldW => 5 * n + 12
  | UStart _ => 5 * n + 11
  | UTest _ => 5 * n + 10
  | URead _ | UWrite _ => 5 * n + 9
  | UReadOut _ | UWriteOut _ _ => 5 * n + 8
  | UReadSig _ | UWriteSig _ _ => 5 * n + 7
  | USignal => 6
  | UBroadcast => 5 * n + 1
  end.

Fixpoint total (n : nat) (l : list pc) : nat := match l with [] => 0 | p :: l' => weight n p + total n l' end.

Lemma total_upd n l : forall i p q, nth_error l i = Some p -> total n (upd l i q) + weight n p = total n l + weight n q.
Proof.
  induction l as [|z l IH]; intros [|i] p q H; cbn [nth_error] in H; try discriminate; cbn [upd total].
  - injection H as ->. lia.
  - specialize (IH i p q H). lia.
Qed.

Lemma total_broadcast n l : total n (map wake_readers l) <= total n l + 5 * length l.
Proof. induction l as [|z l IH]; cbn [map total length]; [lia|]. destruct z; cbn [wake_readers weight]; lia. Qed.

(** A statement of a thread inside a call, or the call of unlock by a holder. *)
Definition quiet (s : state) (a : action) : bool :=
  match a with
  | Run i _ => match nth_error (threads s) i with Some Idle => false | Some _ => true | None => false end
  | Spurious _ => false
  end.

Lemma run_length misuse s i p c s' : run misuse s i p c = Some s' -> length (threads s') = length (threads s).
Proof.
  destruct s as [mx lc nr nw l]. intros H.
  destruct p; cbn [run mutex lockcnt num_rd num_wr threads] in H; try discriminate H;
    try (destruct mx; [discriminate H|]);
    try (injection H as <-; cbn [threads]; rewrite ?map_length, ?length_upd; reflexivity).
  - destruct c as [|[|c]]; [| |destruct misuse; [|discriminate H]]; injection H as <-; cbn [threads]; now rewrite length_upd.
  - destruct (existsb _ _).
    + destruct (nth_error l c) as [[]|]; try discriminate H. injection H as <-. cbn [threads]. now rewrite !length_upd.
    + injection H as <-. cbn [threads]. now rewrite length_upd.
Qed.

Lemma total_run s i p c s' : p <> Idle -> nth_error (threads s) i = Some p -> run false s i p c = Some s' ->
  let n := length (threads s) in total n (threads s') < total n (threads s).
Proof.
  destruct s as [mx lc nr nw l]. cbn [threads]. intros N Hi H. cbv zeta.
  assert (U : forall q, weight (length l) q < weight (length l) p -> total (length l) (upd l i q) < total (length l) l).
  { intros q Hq. pose proof (total_upd (length l) l i p q Hi). lia. }
  destruct p; try congruence; cbn [run mutex lockcnt num_rd num_wr threads] in H; try discriminate H;
    try (destruct mx; [discriminate H|]);
    try (injection H as <-; cbn [threads]; apply U; repeat match goal with |- context [if ?b then _ else _] => destruct b end; cbn [weight]; lia).
  - destruct (existsb _ _).
    + destruct (nth_error l c) as [q|] eqn:Hc; [|discriminate H]. destruct q; try discriminate H. injection H as <-. cbn [threads].
      assert (Hc' : nth_error (upd l i Idle) c = Some WBlocked).
      { rewrite nth_error_upd_ne; auto. intros ->. rewrite Hc in Hi. discriminate Hi. }
      pose proof (total_upd (length l) _ _ _ WWoken Hc') as A. pose proof (total_upd (length l) _ _ _ Idle Hi) as B.
      cbn [weight] in A, B. lia.
    + injection H as <-. cbn [threads]. apply U. cbn [weight]. lia.
  - injection H as <-. cbn [threads]. pose proof (total_broadcast (length l) (upd l i Idle)) as A. rewrite length_upd in A.
    pose proof (total_upd (length l) _ _ _ Idle Hi) as B. cbn [weight] in B. lia.
Qed.

(** Schedules of such steps only. *)
Fixpoint exec_quiet (s : state) (l : list action) : option state :=
  match l with
  | [] => Some s
  | a :: l' => if quiet s a then match step false s a with Some s' => exec_quiet s' l' | None => None end else None
  end.

Lemma quiet_bound l : forall s s', exec_quiet s l = Some s' ->
  length l + total (length (threads s)) (threads s') <= total (length (threads s)) (threads s) /\ length (threads s') = length (threads s).
Proof.
  induction l as [|a l IH]; intros s s' H; cbn [exec_quiet length] in *.
  - injection H as ->. lia.
  - destruct (quiet s a) eqn:Q; [|discriminate H]. destruct (step false s a) as [s1|] eqn:E; [|discriminate H].
    destruct a as [i c|i]; cbn [quiet] in Q; [|discriminate Q]. cbn [step] in E.
    destruct (nth_error (threads s) i) as [p|] eqn:Hi; [|discriminate Q].
    pose proof (run_length _ _ _ _ _ _ E) as L. pose proof (total_run s i p c s1 ltac:(destruct p; congruence) Hi E) as T. cbv zeta in T.
    destruct (IH s1 s' H) as [B C]. rewrite L in *. lia.
Qed.

(** Where such a schedule cannot be continued, nobody is inside or holding. *)
Lemma quiet_end s : inv s -> (forall a, quiet s a = true -> step false s a = None) ->
  forall i p, nth_error (threads s) i = Some p -> p = Idle.
Proof.
  intros I H.
  assert (NB : cnt busy (threads s) = 0).
  { destruct (cnt busy (threads s)) eqn:E; auto. destruct (busy_progress s I ltac:(lia)) as (i & c & s' & p & Hi & B & St).
    rewrite (H (Run i c)) in St; [discriminate St|]. cbn [quiet]. rewrite Hi. destruct p; auto; discriminate B. }
  assert (NH : forall i p, nth_error (threads s) i = Some p -> ~ reading p /\ ~ writing p).
  { intros i p Hi. unfold reading, writing.
    split; intros ->; assert (Q : quiet s (Run i 0) = true) by (cbn [quiet]; now rewrite Hi);
      apply H in Q; cbn [step] in Q; rewrite Hi in Q; discriminate Q. }
  intros i p Hi. destruct (NH i p Hi) as [N1 N2]. pose proof (cnt_zero busy _ _ _ NB Hi) as B.
  assert (NBl : ~ blocked p).
  { intros Bl. assert (0 < cnt busy (threads s)) by (apply no_lost_wakeup; eauto). lia. }
  unfold reading, writing, blocked in *. destruct p; cbn in B; try discriminate B; auto; tauto.
Qed.

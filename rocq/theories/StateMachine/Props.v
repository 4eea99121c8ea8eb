(** Properties C91-C94: state machines. *)
From Verif Require Import Base.Lib StateMachine.Model StateMachine.Spec StateMachine.Proofs.
Local Open Scope N_scope.

(** C91: which state is called next, and what a call of run answers.  [P] is any
    set of cleanup machines that never answer NEXT, PREV or CONTINUE; machines of
    any depth are such a set (sm_nested). *)
Theorem sm_transitions : forall D R (rrun : R -> reason -> D -> res (status * R * D)) rreset P, quiet rrun rreset P ->
  forall m0, wf m0 -> clean_ok P m0 ->
  forall h m, session rrun rreset m0 h m ->
  forall fuel d st m' d' ev, run rrun fuel m d = Ok (st, m', d', ev) ->
  let H := rev (map inl ev) ++ h in
  valid (m_flags m0) (m_ids m0) (nexts_of m0) (hasclean_of m0) H /\
  answer (m_flags m0) (m_ids m0) (nexts_of m0) H st /\
  m_running m' = negb (settled st).
Proof.
  intros D R rrun rreset P Q m0 W CK h m S fuel d st m' d' ev E H.
  destruct (session_ok rrun rreset P Q m0 W CK h m S) as [ST C]. destruct W as (W1 & W2 & W3).
  eapply run_ok in E; try eassumption. destruct E as (V & A & _ & _ & K). split; [exact V |]. split; [exact A |].
  destruct (settled st); [exact K | apply K].
Qed.
Print Assumptions sm_transitions.

(** The answers are final (DONE or an error) or WAIT and PAUSE; NEXT, PREV,
    CONTINUE, NONE and STOP_CLEANUP are never returned.  Neither is
    ERROR_NO_PREV, which the documentation promises when PREV has nowhere to go:
    the answer is then ERROR_BAD_ID. *)
Theorem sm_answers : forall D R (rrun : R -> reason -> D -> res (status * R * D)) rreset P, quiet rrun rreset P ->
  forall m0, wf m0 -> clean_ok P m0 ->
  forall h m, session rrun rreset m0 h m ->
  forall fuel d st m' d' ev, run rrun fuel m d = Ok (st, m', d', ev) ->
  In st [S_WAIT; S_PAUSE; S_DONE; S_ERROR_STATE; S_ERROR_BAD_ID; S_ERROR_NO_NEXT; S_ERROR_BAD_NEXT; S_ERROR_SELF_NEXT; S_ERROR_INF_CONT].
Proof.
  intros D R rrun rreset P Q m0 W CK h m S fuel d st m' d' ev E.
  pose proof (sm_transitions _ _ _ _ _ Q _ W CK _ _ S _ _ _ _ _ _ E) as (V & A & _).
  assert (st = S_WAIT \/ st = S_PAUSE \/ st = S_DONE \/ exists r, after (m_flags m0) (m_ids m0) (nexts_of m0) (rev (map inl ev) ++ h) = Cleaning r st) as C.
  { unfold answer in A. destruct st; try tauto; destruct A as [[_ X] | A]; try discriminate X; tauto. }
  destruct C as [-> | [-> | [-> | [r C]]]]; cbn; try tauto. eapply after_ending in C; try exact V; try apply W. destruct st; try discriminate C; tauto.
Qed.
Print Assumptions sm_answers.

(** The order of the states, read off the history: a call is followed by the
    state it asked for, if that is allowed; by the same state after WAIT; by the
    last state left with NEXT or PAUSE after PREV; and there is no call once the
    cleanup has begun. *)
Theorem sm_next_call : forall f ids nexts hc h a g st n b g' st' n',
  valid f ids nexts hc (inl (ECall b g' st' n') :: inl (ECall a g st n) :: h) ->
  In b ids /\ g' = (if f_explicit_next f then 0 else successor ids b) /\
  match st with
  | S_WAIT => b = a
  | S_NEXT | S_CONTINUE | S_PAUSE => b = n /\ n <> 0 /\ permitted nexts a n /\ (f_self_call f = false -> n <> a)
  | S_PREV => exists l, stack f h = b :: l
  | _ => False
  end.
Proof.
  intros f ids nexts hc h a g st n b g' st' n' V. inversion V as [| h1 a1 s1 n1 V1 AF RP E1 | | ]; subst. clear V.
  inversion V1 as [| h2 a2 s2 n2 V2 AF2 RP2 E2 | | ]; subst. clear RP.
  assert (forall h x, valid f ids nexts hc h -> (after f ids nexts h = At x -> In x ids) /\ (forall p, In p (stack f h) -> In p ids)) as REG.
  { clear. intros h x V. revert x. induction V as [| h a st n V IH AF RP | h a r st0 st V IH AF HC DU | h r V IH]; intros x.
    - split; [| intros p []]. cbn. destruct ids; [discriminate |]. intros E. injection E as <-. left; reflexivity.
    - destruct (IH a) as [IA PI]. specialize (IA AF). split.
      + cbn. unfold done_place, arrive.
        destruct st; try discriminate RP; intros E;
          try (destruct (stack f h) as [| p l] eqn:SK; [discriminate | injection E as <-; apply PI; left; reflexivity]);
          try (injection E as <-; exact IA); try discriminate E;
          try (destruct (f_done_cleanup f); discriminate E);
          destruct (n =? 0); try (destruct (f_linear_end f && negb (f_explicit_next f)); [destruct (f_done_cleanup f) |]; discriminate E);
          destruct (negb (permittedb nexts a n)); try discriminate E;
          try (destruct (negb (f_continue_loop f) && existsb (N.eqb n) (continued h)); try discriminate E);
          destruct (negb (f_self_call f) && (n =? a)); try discriminate E;
          destruct (existsb (N.eqb n) ids) eqn:EX; try discriminate E; injection E as <-; apply mem_in; exact EX.
      + intros p. cbn. destruct st; try discriminate RP; try exact (PI p);
          try (intros [<- | HP]; [exact IA | destruct (f_single_prev f); [destruct HP | exact (PI p HP)]]).
        intros HP. apply PI. destruct (stack f h); [destruct HP | right; exact HP].
    - cbn. apply IH.
    - cbn. destruct (IH x) as [_ PI]. split; [| exact PI]. destruct (after f ids nexts h) as [| ? [] |]; discriminate. }
  split; [exact (proj1 (REG _ b V1) AF) |]. split; [reflexivity |].
  cbn in AF. unfold done_place, arrive in AF.
  destruct st; try discriminate RP2; try discriminate AF.
  all: try (destruct (n =? 0) eqn:NZ; [destruct (f_linear_end f && negb (f_explicit_next f)); [destruct (f_done_cleanup f) |]; discriminate AF |];
      destruct (permittedb nexts a n) eqn:PM; cbn [negb] in AF; [| discriminate AF];
      try (destruct (negb (f_continue_loop f) && existsb (N.eqb n) (continued h)); [discriminate AF |]);
      destruct (negb (f_self_call f) && (n =? a)) eqn:SC; [discriminate AF |];
      destruct (existsb (N.eqb n) ids); [| discriminate AF]; injection AF as <-;
      split; [reflexivity |]; split; [apply N.eqb_neq; exact NZ |]; split;
      [unfold permittedb in PM; unfold permitted; destruct (nexts a); [apply mem_in; exact PM | exact I]
      | intros SF; rewrite SF in SC; apply N.eqb_neq; exact SC]).
  - destruct (stack f h) as [| p l]; [discriminate AF |]. injection AF as <-. eauto.
  - injection AF as <-. reflexivity.
  - destruct (f_done_cleanup f); discriminate AF.
Qed.
Print Assumptions sm_next_call.

(** Machines of any depth may serve as cleanup machines. *)
Theorem sm_nested : forall D fuel n, quiet (mrrun D fuel n) (mreset D n) (mtame D n).
Proof. exact mrun_quiet. Qed.
Print Assumptions sm_nested.

(** No run has undefined behaviour. *)
Theorem sm_no_ub : forall D fuel n (m : mach D n) d, mrun D fuel n m d <> UB.
Proof.
  intros D fuel. induction n as [| n IH]; intros m d; cbn [mrun]; apply run_no_ub.
  - intros [].
  - intros c r d'. match goal with |- bind ?x _ <> _ => assert (x <> UB) as X by apply IH; destruct x as [[[[? ?] ?] ?] | |] end; cbn [bind]; congruence.
Qed.
Print Assumptions sm_no_ub.

(** C92: the cleanup law.  Missing: with ONE_CLEANUP the law needs every cleanup
    machine to end with DONE at once (refuted below without that). *)
Theorem sm_cleanup_partial : forall D R (rrun : R -> reason -> D -> res (status * R * D)) rreset P, quiet rrun rreset P ->
  forall m0, wf m0 -> clean_ok P m0 ->
  forall h m, session rrun rreset m0 h m ->
  forall fuel d st m' d' ev, run rrun fuel m d = Ok (st, m', d', ev) ->
  let H := rev (map inl ev) ++ h in
  f_one_cleanup (m_flags m0) = false \/ all_done H ->
  cleanup_law (m_flags m0) (m_ids m0) (nexts_of m0) (hasclean_of m0) H st.
Proof.
  intros D R rrun rreset P Q m0 W CK h m S fuel d st m' d' ev E H L.
  destruct (session_ok rrun rreset P Q m0 W CK h m S) as [ST C]. destruct W as (W1 & W2 & W3).
  eapply run_ok in E; try eassumption. destruct E as (_ & _ & X & _). apply X. exact L.
Qed.
Print Assumptions sm_cleanup_partial.

(** C93: without CONTINUE_LOOP a machine whose states never answer NEXT comes to
    an answer, however the states CONTINUE or go back. *)
Theorem sm_terminates : forall D R (rrun : R -> reason -> D -> res (status * R * D)),
  (forall c r d, exists x, rrun c r d = Ok x) ->
  forall fuel m d, wf m -> f_continue_loop (m_flags m) = false -> never_next m ->
  (length (m_prev m) + length (m_ids m) + 2 <= fuel)%nat -> exists x, run rrun fuel m d = Ok x.
Proof. intros D R rrun T. apply (run_total rrun T). Qed.
Print Assumptions sm_terminates.

(** C94: a linear machine calls every state once, in the order of insertion. *)
Theorem sm_linear : forall D R (rrun : R -> reason -> D -> res (status * R * D)) (m : machine D R) act d,
  wf m -> m_running m = false -> linear m act ->
  f_linear_end (m_flags m) = true -> f_explicit_next (m_flags m) = false -> f_done_cleanup (m_flags m) = false ->
  exists m', run rrun (length (m_ids m)) m d =
    Ok (S_DONE, m', fold_left (fun d id => act id d) (m_ids m) d,
        map (fun id => ECall id (successor (m_ids m) id) S_NEXT (successor (m_ids m) id)) (m_ids m)) /\
    m_running m' = false.
Proof. intros D R rrun. apply run_linear. Qed.
Print Assumptions sm_linear.

(** Insertion keeps machines well formed. *)
Theorem sm_insert : forall D R f (l : list (N * state D R)),
  wf (fold_left (fun m '(id, s) => fst (insert_state m id s)) l (create f)).
Proof.
  intros D R f l. assert (wf (@create D R f)) as W by apply create_wf. revert W. generalize (@create D R f) as m.
  induction l as [| [id s] l IH]; intros m W; [exact W |]. cbn [fold_left]. apply IH. now apply insert_wf.
Qed.
Print Assumptions sm_insert.

(** ** A concrete machine.  The data is a list of answers to give; each call takes
    one.  A cleanup machine of depth 0 does the same. *)
Definition script : Type := list (status * option N).
Definition play (_ : reason) (d : script) (given : N) : status * N * script :=
  match d with
  | [] => (S_DONE, given, [])
  | (st, None) :: d' => (st, given, d')
  | (st, Some n) :: d' => (st, n, d')
  end.
Definition no_flags := mkflags false false false false false false false.
Definition cleaner : mach script 0 := fst (insert_state (create no_flags) 1 (mkstate play None None)).
Definition build f (l : list (N * state script (mach script 0))) := fold_left (fun m '(id, s) => fst (insert_state m id s)) l (create f).
Definition sample f := build f [(10, mkstate play (Some [20; 30]) (Some cleaner)); (20, mkstate play None None); (30, mkstate play None (Some cleaner))].
Definition rr := mrrun script 10 0.
Definition answer_of (x : res (status * machine script (mach script 0) * script * list event)) :=
  match x with Ok (st, _, d, ev) => Some (st, ev) | _ => None end.
Definition then_run (x : res (status * machine script (mach script 0) * script * list event)) (d : script) :=
  match x with Ok (_, m, _, _) => run rr 20 m d | e => e end.

Example sample_wf : wf (sample no_flags) /\ clean_ok (mtame script 0) (sample no_flags) /\ session rr (mreset script 0) (sample no_flags) [] (sample no_flags).
Proof.
  split; [apply sm_insert |]. split; [| constructor; reflexivity].
  intros id s c L. cbn in L. repeat (match type of L with (if ?b then _ else _) = _ => destruct b end; [injection L as <-; cbn; intros X; try discriminate X; injection X as <-; reflexivity |]).
  discriminate.
Qed.

(** NEXT, NEXT, WAIT; then an error, the cleanup of 30 waits; then both cleanups end *)
Example sample_run :
  let r1 := run rr 20 (sample no_flags) [(S_NEXT, None); (S_NEXT, None); (S_WAIT, None)] in
  let r2 := then_run r1 [(S_ERROR_STATE, None); (S_WAIT, None)] in
  let r3 := then_run r2 [(S_DONE, None); (S_ERROR_STATE, None)] in
  answer_of r1 = Some (S_WAIT, [ECall 10 20 S_NEXT 20; ECall 20 30 S_NEXT 30; ECall 30 0 S_WAIT 0]) /\
  answer_of r2 = Some (S_WAIT, [ECall 30 0 S_ERROR_STATE 0; EClean 30 C_ERROR S_WAIT]) /\
  answer_of r3 = Some (S_ERROR_STATE, [EClean 30 C_ERROR S_DONE; EClean 10 C_ERROR S_ERROR_STATE]).
Proof. vm_compute. auto. Qed.

Example sample_terminates : never_next (sample no_flags) -> False.
Proof. intros H. specialize (H 10 _ C_NONE [(S_NEXT, None)] 0 (or_introl eq_refl)). apply H. reflexivity. Qed.
Definition hop (_ : reason) (d : unit) (given : N) : status * N * unit := (S_CONTINUE, if given =? 0 then 1 else given, d).
Definition hopper : machine unit (mach unit 0) :=
  fold_left (fun m '(id, s) => fst (insert_state m id s)) [(1, mkstate hop None None); (2, mkstate hop None None); (3, mkstate hop None None)] (create no_flags).
Example hopper_stops : never_next hopper /\ (exists m' d', run (mrrun unit 10 0) 5 hopper tt =
  Ok (S_ERROR_INF_CONT, m', d', [ECall 1 2 S_CONTINUE 2; ECall 2 3 S_CONTINUE 3; ECall 3 0 S_CONTINUE 1; ECall 1 2 S_CONTINUE 2])).
Proof.
  split.
  - intros id s r d g I. cbn in I. destruct I as [E | [E | [E | []]]]; injection E as <- <-; discriminate.
  - do 2 eexists. vm_compute. reflexivity.
Qed.

Definition count (_ : reason) (d : N) (given : N) : status * N * N := (S_NEXT, given, d + 1).
Definition counter : machine N (mach N 0) :=
  fold_left (fun m '(id, s) => fst (insert_state m id s)) [(7, mkstate count None None); (2, mkstate count (Some [5]) None); (5, mkstate count None None)]
    (create (mkflags false false false false false false true)).
Example counter_linear : linear counter (fun _ d => d + 1) /\ (exists m', run (mrrun N 10 0) 3 counter 0 =
  Ok (S_DONE, m', 3, [ECall 7 2 S_NEXT 2; ECall 2 5 S_NEXT 5; ECall 5 0 S_NEXT 0])).
Proof.
  split.
  - intros id s L. change (m_states counter) with [(7, @mkstate N (mach N 0) count None None); (2, mkstate count (Some [5]) None); (5, mkstate count None None)] in L.
    cbn -[N.eqb] in L. destruct (N.eqb_spec 7 id) as [<- | _]; [injection L as <-; cbn; auto |].
    destruct (N.eqb_spec 2 id) as [<- | _]; [injection L as <-; cbn; auto |].
    destruct (N.eqb_spec 5 id) as [<- | _]; [injection L as <-; cbn; auto | discriminate L].
  - eexists. vm_compute. reflexivity.
Qed.

(** With ONE_CLEANUP a cleanup machine that waits is never run again: the machine
    answers with the cleanup of state 30 unfinished. *)
Definition one_flags := mkflags false false false false true false false.
Theorem sm_one_cleanup_refuted : exists r1 r2,
  run rr 20 (sample one_flags) [(S_NEXT, None); (S_NEXT, None); (S_ERROR_STATE, None); (S_WAIT, None)] = r1 /\
  answer_of r1 = Some (S_WAIT, [ECall 10 20 S_NEXT 20; ECall 20 30 S_NEXT 30; ECall 30 0 S_ERROR_STATE 0; EClean 30 C_ERROR S_WAIT]) /\
  then_run r1 [(S_DONE, None); (S_DONE, None)] = r2 /\
  answer_of r2 = Some (S_ERROR_STATE, [EClean 10 C_ERROR S_DONE]) /\
  ~ cleanup_law one_flags [10; 20; 30] (nexts_of (sample one_flags)) (hasclean_of (sample one_flags))
    (rev (map inl [ECall 10 20 S_NEXT 20; ECall 20 30 S_NEXT 30; ECall 30 0 S_ERROR_STATE 0; EClean 30 C_ERROR S_WAIT; EClean 10 C_ERROR S_DONE])) S_ERROR_STATE.
Proof.
  eexists _, _. split; [reflexivity |]. split; [vm_compute; reflexivity |]. split; [reflexivity |]. split; [vm_compute; reflexivity |].
  intros X. vm_compute in X. discriminate.
Qed.
Print Assumptions sm_one_cleanup_refuted.

(** With ONE_CLEANUP a cleanup machine that fails is run again. *)
Theorem sm_one_cleanup_twice_refuted :
  answer_of (run rr 20 (sample one_flags) [(S_NEXT, None); (S_NEXT, None); (S_NEXT, Some 10); (S_NEXT, Some 30); (S_ERROR_STATE, None);
    (S_ERROR_STATE, None); (S_DONE, None); (S_DONE, None); (S_DONE, None)]) =
  Some (S_ERROR_STATE, [ECall 10 20 S_NEXT 20; ECall 20 30 S_NEXT 30; ECall 30 0 S_NEXT 10; ECall 10 20 S_NEXT 30; ECall 30 0 S_ERROR_STATE 0;
    EClean 30 C_ERROR S_ERROR_STATE; EClean 10 C_ERROR S_DONE; EClean 30 C_ERROR S_DONE]).
Proof. vm_compute. reflexivity. Qed.
Print Assumptions sm_one_cleanup_twice_refuted.

(** STOP_CLEANUP does not stop the cleanup, and CONTINUE does not keep a state
    from being cleaned up, against their documentation. *)
Theorem sm_stop_cleanup_refuted :
  answer_of (run rr 20 (sample no_flags) [(S_CONTINUE, Some 30); (S_ERROR_STATE, None); (S_STOP_CLEANUP, None); (S_DONE, None)]) =
  Some (S_ERROR_STATE, [ECall 10 20 S_CONTINUE 30; ECall 30 0 S_ERROR_STATE 0; EClean 30 C_ERROR S_ERROR_STATE; EClean 10 C_ERROR S_DONE]).
Proof. vm_compute. reflexivity. Qed.
Print Assumptions sm_stop_cleanup_refuted.

(** PREV from the first state *)
Example sample_prev : answer_of (run rr 20 (sample no_flags) [(S_PREV, None); (S_DONE, None)]) =
  Some (S_ERROR_BAD_ID, [ECall 10 20 S_PREV 20; EClean 10 C_ERROR S_DONE]).
Proof. vm_compute. reflexivity. Qed.

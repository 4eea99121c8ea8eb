(** Properties C107-C109: the asynchronous writer of the log. *)
From Verif Require Import Base.Lib AsyncWriter.Model AsyncWriter.Spec AsyncWriter.Proofs.
Local Open Scope N_scope.

(** ** C107: order *)

(** Whatever the callback answers and whatever comes between: the messages it takes are messages that were
    accepted, each once, in the order they were; those that wait are the latest that were accepted. *)
Theorem aw_order mx os s tr : run (create mx) os = Some (s, tr) ->
  subseq (printed tr) (taken tr) /\ exists p, taken tr = p ++ q s /\ subseq (printed tr) p.
Proof.
  intros E. assert (O : order tr s).
  { apply (run_order os (create mx) [] s tr E). exists [], []. repeat split; auto. constructor. }
  destruct O as (p & mid & T & P & _). split.
  - rewrite T. apply subseq_more, P.
  - exists (p ++ held s ++ mid). split; [rewrite T, <- !app_assoc; reflexivity|apply subseq_more, P].
Qed.
Print Assumptions aw_order.

(** ** C108: what is dropped is reported *)

(** Every accepted or too long message has been taken by the callback, or was reported as dropped, or is counted as dropped, or waits,
    or is in the hands of the worker; no call hangs.  Missing: the two situations of [fine]. *)
Theorem aw_accounts_partial mx os : fine (create mx) os ->
  exists s tr, run (create mx) os = Some (s, tr) /\
    count (taken tr) + refused (create mx) os = count (printed tr) + reported tr + nd s + count (q s) + count (held s) + held_dropped s.
Proof.
  intros F. destruct (run_counts os (create mx) [] 0) as (s & tr & E & C); [|exact F|].
  - repeat split; auto.
  - exists s, tr. split; [exact E|]. apply C.
Qed.
Print Assumptions aw_accounts_partial.

(** A message that fits is accepted and waits as the last one; the limit holds then. *)
Theorem aw_write_partial mx os s tr m : fine (create mx) os -> run (create mx) os = Some (s, tr) -> st s = RUNNING \/ st s = STOPPED ->
  0 < N.of_nat (length m) <= maxb s ->
  exists s' l, step s (Write m) = Some (s', [EWrite m true]) /\ q s' = l ++ [m] /\ size (q s') <= maxb s.
Proof.
  intros F E St L. destruct (run_counts os (create mx) [] 0) as (s0 & tr0 & E0 & C); [repeat split; auto|exact F|].
  rewrite E0 in E. injection E as -> ->. destruct C as (S & _).
  pose proof (step_total s (Write m) S) as T.
  assert (ST : step s (Write m) = write s m) by (unfold step; destruct St as [-> | ->]; reflexivity). rewrite ST in *.
  unfold write in *. unfold len in *. destruct (N.eqb_spec (N.of_nat (length m)) 0); [lia|].
  assert (NF : in_flush (st s) = false) by (destruct St as [-> | ->]; reflexivity). rewrite NF in *.
  destruct (N.ltb_spec (maxb s) (N.of_nat (length m))); [lia|].
  assert (SZ : sb s + N.of_nat (length m) = size (q s ++ [m])) by (rewrite size_app, size_cons, S; change (size []) with 0; unfold len; lia).
  destruct (trim _ _ _ _) as [[[l b] d]|] eqn:Tr; [|congruence].
  destruct (trim_spec _ _ _ _ _ _ _ Tr) as (x & X & _ & B & Bm). rewrite SZ in Tr.
  destruct (trim_keeps _ _ _ _ _ _ _ (proj2 L) Tr) as (l0 & ->).
  eexists. exists l0. split; [reflexivity|]. split; [reflexivity|]. cbn [q]. rewrite <- B; [exact Bm|exact SZ].
Qed.
Print Assumptions aw_write_partial.

(** A message that the callback refuses comes back to an empty queue: it is gone, nobody is told, and its size stays counted.
    After that a message is accepted that is dropped at once; and if the limit is lowered, the next call
    of M_async_writer_write never returns. *)
Definition m4 : msg := [97; 98; 99; 10].
Definition lonely : list op := [Start; Write m4; Pop true; Call true false; Replace].
Theorem aw_lost_refuted : exists s tr, run (create 10) lonely = Some (s, tr) /\
  taken tr = [m4] /\ printed tr = [] /\ reported tr = 0 /\ nd s = 0 /\ q s = [] /\ held s = [] /\ sb s = 4.
Proof. eexists. eexists. vm_compute. repeat split. Qed.
Print Assumptions aw_lost_refuted.
Theorem aw_dead_refuted : exists s tr s', run (create 10) (lonely ++ tl lonely) = Some (s, tr) /\ 
  step s (Write m4) = Some (s', [EWrite m4 true]) /\ q s' = [] /\ nd s' = 1.
Proof. eexists. eexists. eexists. vm_compute. repeat split. Qed.
Print Assumptions aw_dead_refuted.
Theorem aw_hang_refuted : exists s tr, run (create 10) (lonely ++ tl lonely ++ [SetMax 5]) = Some (s, tr) /\ st s = RUNNING /\ step s (Write m4) = None.
Proof. eexists. eexists. vm_compute. repeat split. Qed.
Print Assumptions aw_hang_refuted.

(** A report that was accepted is made again when the message after it is refused. *)
Definition m9 : msg := [1; 2; 3; 4; 5; 6; 7; 8; 9].
Theorem aw_twice_refuted : exists s tr,
  run (create 8) [Start; Write m9; Write m4; Pop true; Call true false; Write m4; Replace; Pop true; Call true true] = Some (s, tr) /\
  refused (create 8) [Start; Write m9; Write m4; Pop true; Call true false; Write m4; Replace; Pop true; Call true true] = 1 /\
  tr = [EWrite m9 false; EWrite m4 true; EReport 1 true; EOut (Some m4) 0 false; EWrite m4 true; EReport 1 true; EOut (Some m4) 0 true] /\ reported tr = 2.
Proof. eexists. eexists. vm_compute. repeat split. Qed.
Print Assumptions aw_twice_refuted.

(** ** C109: commands *)

(** The flags that were set with success are exactly those the callback got, those that wait and those in the hands of the
    worker, provided the callback refuses no report of dropped messages. *)
Theorem aw_commands_partial mx os s tr : run (create mx) os = Some (s, tr) -> reports_taken tr -> ~ In (Block 0) os ->
  asked tr = N.lor (given tr) (N.lor (cmd s) (held_cmd s)).
Proof. intros E R NB. apply (run_cmds os (create mx) [] s tr E R NB). reflexivity. Qed.
Print Assumptions aw_commands_partial.

(** Who waits for a command is woken within three steps of the worker if the callback takes what it gets. *)
Theorem aw_block_returns_partial mx os s tr : run (create mx) os = Some (s, tr) -> reports_taken tr -> ~ In (Block 0) os ->
  st s = RUNNING -> cdone s = false ->
  exists w s' t, (length w <= 3)%nat /\ Forall (fun o => o = Pop true \/ o = Call true true \/ o = Replace) w /\ run s w = Some (s', t) /\ cdone s' = true.
Proof.
  intros E R NB St CD. destruct (run_cmds os (create mx) [] s tr E R NB) as [_ B]. destruct B as (B1 & B2).
  { split; [discriminate|discriminate]. }
  destruct (B1 CD) as (Fo & NZ). specialize (B2 St). clear B1 E R NB.
  (* from Ready *)
  assert (Rdy : forall s1, st s1 = RUNNING -> wk s1 = Ready -> force s1 = true -> cmd s1 <> 0 ->
    exists s' t, run s1 [Pop true; Call true true] = Some (s', t) /\ cdone s' = true).
  { intros s1 A1 A2 A3 A4. cbn [run]. unfold step. rewrite A1.
    destruct (pop s1 true) as [s2 t2] eqn:EP. destruct (pop_cases s1 true s2 t2) as [(_ & _ & X)|(_ & D)]; [congruence|exact EP| |].
    - destruct (X A2) as (_ & _ & [Y|Y]); congruence.
    - assert (HH : exists m k, wk s2 = Got m k (cmd s1) /\ st s2 = RUNNING).
      { unfold pop in EP. rewrite A1, A2, A3 in EP. cbn [negb orb] in EP. replace (cmd s1 =? 0) with false in EP by (symmetry; apply N.eqb_neq; exact A4).
        rewrite andb_false_r in EP. destruct (q s1); injection EP as <- _; eexists; eexists; (split; [reflexivity|reflexivity]). }
      destruct HH as (m & k & K & S2). rewrite S2. unfold call. rewrite K.
      replace ((k =? 0) || true) with true by (symmetry; apply orb_true_r). cbn [andb].
      replace (cmd s1 =? 0) with false by (symmetry; apply N.eqb_neq; exact A4). eexists. eexists. split; [reflexivity|reflexivity]. }
  assert (FF : Forall (fun o => o = Pop true \/ o = Call true true \/ o = Replace) [Pop true; Call true true]) by (repeat constructor; auto).
  destruct (wk s) as [| |m k c|m k] eqn:K; [congruence| | |].
  - unfold held_cmd in NZ. rewrite K in NZ. destruct NZ as [NZ|NZ]; [|congruence].
    destruct (Rdy s St K Fo NZ) as (s' & t & E & D). exists [Pop true; Call true true], s', t. repeat split; auto.
  - destruct (N.eq_dec c 0) as [Z|Z].
    + unfold held_cmd in NZ. rewrite K in NZ. destruct NZ as [NZ|NZ]; [|congruence].
      destruct (call s true true) as [s1 t1] eqn:EC.
      assert (S1 : st s1 = RUNNING /\ wk s1 = Ready /\ force s1 = true /\ cmd s1 = cmd s).
      { unfold call in EC. rewrite K in EC. rewrite orb_true_r in EC. injection EC as <- _. cbn [st wk force cmd andb]. repeat split; auto. destruct m; reflexivity. }
      destruct S1 as (A1 & A2 & A3 & A4). destruct (Rdy s1 A1 A2 A3) as (s' & t & E & D); [congruence|].
      exists [Call true true; Pop true; Call true true], s', (t1 ++ t). split; [cbn; lia|]. split; [constructor; auto|]. split; [|exact D].
      change (run s [Call true true; Pop true; Call true true]) with
        (match step s (Call true true) with None => None | Some (s1, t) => match run s1 [Pop true; Call true true] with None => None | Some (s2, tr) => Some (s2, t ++ tr) end end).
      unfold step. rewrite St, EC, E. reflexivity.
    + exists [Call true true]. cbn [run]. unfold step. rewrite St. unfold call. rewrite K, orb_true_r. cbn [andb].
      replace (c =? 0) with false by (symmetry; apply N.eqb_neq; exact Z). eexists. eexists. split; [cbn; lia|]. split; [constructor; auto|]. split; reflexivity.
  - unfold held_cmd in NZ. rewrite K in NZ. destruct NZ as [NZ|NZ]; [|congruence].
    destruct (replace s) as [s1 t1] eqn:EC.
    assert (S1 : st s1 = RUNNING /\ wk s1 = Ready /\ force s1 = true /\ cmd s1 = cmd s).
    { unfold replace in EC. rewrite K in EC. destruct (_ && _); injection EC as <- _; repeat split; auto. }
    destruct S1 as (A1 & A2 & A3 & A4). destruct (Rdy s1 A1 A2 A3) as (s' & t & E & D); [congruence|].
    exists [Replace; Pop true; Call true true], s', (t1 ++ t). split; [cbn; lia|]. split; [constructor; auto|]. split; [|exact D].
    change (run s [Replace; Pop true; Call true true]) with
      (match step s Replace with None => None | Some (s1, t) => match run s1 [Pop true; Call true true] with None => None | Some (s2, tr) => Some (s2, t ++ tr) end end).
    unfold step. rewrite St, EC, E. reflexivity.
Qed.
Print Assumptions aw_block_returns_partial.

(** Who waits for a command is not woken before the callback was given some command, while the writer is running and
    nobody stops or destroys it. *)
Theorem aw_block_waits s c os s1 t1 s2 tr : st s = RUNNING -> step s (Block c) = Some (s1, t1) -> run s1 os = Some (s2, tr) ->
  ~ In Stop os -> (forall f, ~ In (Destroy f) os) -> cdone s2 = true ->
  exists m c' a, In (EOut m c' a) tr /\ c' <> 0.
Proof.
  intros St E R NS ND CD.
  assert (A : cdone s1 = false /\ st s1 = RUNNING).
  { unfold step in E. rewrite St in E. unfold set_command in E. rewrite St in E. cbn [in_flush] in E. injection E as <- _. cbn. auto. }
  clear E St s t1. destruct A as [C St]. revert s1 tr C St R. induction os as [|o os IH]; intros s1 tr C St R; cbn [run] in R.
  { injection R as <- <-. congruence. }
  destruct (step s1 o) as [[s3 t3]|] eqn:E; [|discriminate]. destruct (run s3 os) as [[s4 t4]|] eqn:R2; [|discriminate].
  injection R as -> <-.
  assert (D : (cdone s3 = false /\ st s3 = RUNNING) \/ exists m c' a, In (EOut m c' a) t3 /\ c' <> 0).
  { unfold step in E. rewrite St in E. destruct o as [m|c1 f|c1|n| | |f|a|a1 a2|].
    - left. unfold write in E. rewrite St in E. cbn [in_flush] in E. destruct (len m =? 0); [injection E as <- _; auto|].
      destruct (maxb s1 <? len m); [injection E as <- _; auto|].
      destruct (trim _ _ _ _) as [[[l b] d]|]; [|discriminate]. injection E as <- _. auto.
    - left. unfold set_command in E. rewrite St in E. cbn [in_flush] in E. injection E as <- _. auto.
    - left. unfold set_command in E. rewrite St in E. cbn [in_flush] in E. injection E as <- _. auto.
    - left. injection E as <- _. auto.
    - left. injection E as <- _. auto.
    - elim NS. now left.
    - elim (ND f). now left.
    - left. unfold pop in E. rewrite St in E. destruct (wk s1); try (injection E as <- _; auto; fail).
      destruct (q s1); cbn in E; [destruct (negb (force s1) || (cmd s1 =? 0))|]; injection E as <- _; cbn; auto.
    - unfold call in E. destruct (wk s1) as [| |m k c2|]; try (left; injection E as <- _; auto; fail).
      destruct ((k =? 0) || a1) eqn:G; cbn [andb] in E.
      + destruct (N.eqb_spec c2 0) as [->|NZ].
        * left. injection E as <- _. cbn. auto.
        * right. injection E as _ <-. exists m, c2, a2. split; auto. apply in_or_app. right. now left.
      + left. injection E as <- _. cbn. auto.
    - left. unfold replace in E. destruct (wk s1); try (injection E as <- _; auto; fail).
      destruct (_ && _); injection E as <- _; cbn; auto. }
  destruct D as [[C3 S3]|(m & c' & a & I & NZ)].
  - destruct (IH (fun H => NS (or_intror H)) (fun f H => ND f (or_intror H)) s3 t4 C3 S3 R2) as (m & c' & a & I & NZ).
    exists m, c', a. split; auto. apply in_or_app. auto.
  - exists m, c', a. split; auto. apply in_or_app. auto.
Qed.
Print Assumptions aw_block_waits.
Example ex_block_waits : exists s s1 t1 s2 tr, run (create 8) [Start; Write m4] = Some (s, [EWrite m4 true]) /\ st s = RUNNING /\
  step s (Block 2) = Some (s1, t1) /\ run s1 [Pop true; SetMax 9] = Some (s2, []) /\ cdone s2 = false /\
  run s1 [Pop true; SetMax 9; Call true true] = Some (tr, [EOut (Some m4) 2 true]) /\ cdone tr = true.
Proof. eexists; eexists; eexists; eexists; eexists. repeat (split; [vm_compute; reflexivity|]). vm_compute. reflexivity. Qed.

(** A command that comes together with a report that the callback refuses is lost: it is not
    carried out later, and who waits for it is not woken while no other command comes. *)
Definition lost_cmd : list op := [Start; Write m9; Write m4; Write m4; Block 2; Pop true; Call false true; Replace; Pop true; Call true true; Pop true; Call true true].
Theorem aw_command_lost_refuted : exists s tr, run (create 8) lost_cmd = Some (s, tr) /\ asked tr = 2 /\ given tr = 0 /\
  forall n, run s (repeat (Pop true) n) = Some (s, []) /\ cdone s = false.
Proof.
  eexists. eexists. split; [vm_compute; reflexivity|]. split; [reflexivity|]. split; [reflexivity|]. intros n. split; [|reflexivity].
  induction n as [|n IH]; [reflexivity|]. cbn [repeat run]. change (step _ (Pop true)) with (Some (W [] 0 0 8 0 true false RUNNING Ready, @nil ev)). cbv iota beta. rewrite IH. reflexivity.
Qed.
Print Assumptions aw_command_lost_refuted.

(** Who waits for a command can be woken by the end of an earlier one, before their own was given to the callback. *)
Theorem aw_block_early_refuted : exists s tr, run (create 8) [Start; SetCmd 1 true; Pop true; Block 2; Call true true] = Some (s, tr) /\
  cdone s = true /\ given tr = 1 /\ cmd s = 2.
Proof. eexists. eexists. vm_compute. repeat split. Qed.
Print Assumptions aw_block_early_refuted.

(** ** Cases that meet the hypotheses: a message too long, a refused message that comes back behind another one, one that is dropped for room *)
Definition a_day : list op :=
  [Start; Write m4; Write m9; Write m4; Pop true; Call false true; Write [1; 10]; Replace; SetCmd 4 true; Pop true; Call true true; Block 2; Pop true; Call true true;
   Write m4; Write m4; Destroy true; Pop true; Call true true; Pop true; Call true true; Pop true].
Example aw_case : exists s tr, run (create 8) a_day = Some (s, tr) /\ fine (create 8) a_day /\ st s = Dead /\ ~ In (Block 0) a_day.
Proof. eexists. eexists. split; [vm_compute; reflexivity|]. split; [vm_compute; repeat split; auto; first [left; discriminate|right; left; discriminate|right; right; reflexivity]|]. split; [reflexivity|]. cbn. intuition discriminate. Qed.
Example aw_case_reports : exists s tr, run (create 8) [Start; Write m9; Write m4; Pop true; Block 2] = Some (s, tr) /\ reports_taken tr /\ st s = RUNNING /\ cdone s = false.
Proof. eexists. eexists. split; [vm_compute; reflexivity|]. split; [intros k; cbn; intuition discriminate|]. split; reflexivity. Qed.
Example aw_case_write : exists s tr, run (create 8) [Start; Write m4; Write m4] = Some (s, tr) /\ fine (create 8) [Start; Write m4; Write m4] /\ st s = RUNNING /\ maxb s = 8 /\ size (q s) = 8.
Proof. eexists. eexists. vm_compute. repeat split; auto. Qed.

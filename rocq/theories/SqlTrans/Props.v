(** Properties C104-C106: SQL transactions with automatic retry. *)
From Verif Require Import Base.Lib SqlTrans.Model SqlTrans.Spec SqlTrans.Proofs.

Lemma run_good env nar cmd fuel e tr : run env nar cmd fuel = Ok (e, tr) -> good cmd e tr.
Proof.
  unfold run. destruct (process env nar cmd fuel 0 (Wd 0 [])) as [[e0 w]| |] eqn:E; try discriminate. cbn [bind]. intros X. injection X as <- <-.
  destruct (process_spec _ _ _ _ _ _ _ _ E) as (tr & P & G). unfold plus in P. cbn [trace app] in P. rewrite P. exact G.
Qed.
Lemma act_sent : forall l d, fold_left act (sent l) d = Db (pending d ++ worked l) (durable d).
Proof.
  induction l as [|[s x] l IH]; intros [p q]; [unfold worked; cbn; rewrite app_nil_r; reflexivity|].
  cbn [sent map fold_left fst snd act]. unfold worked. cbn [filter snd]. destruct (is_error x); cbn [negb map fst].
  - fold (sent l). rewrite IH. reflexivity.
  - fold (sent l). rewrite IH. cbn [pending durable]. rewrite <- app_assoc. reflexivity.
Qed.

(** C104: when M_sql_trans_process reports no error, what was executed in exactly one
    call of the command was committed, and the code returned is the one of that call;
    nothing of earlier attempts is left. *)
Theorem sql_trans_once env nar cmd fuel e tr :
  run env nar cmd fuel = Ok (e, tr) -> is_error e = false ->
  exists n l tr0 c d, talks (cmd n) l e /\
    tr = tr0 ++ [EAcquire; EBegin SUCCESS] ++ sent l ++ [ECommit c; ERelease d] /\
    applied tr0 = [] /\ applied tr = [worked l].
Proof.
  intros R NE. destruct (run_good _ _ _ _ _ _ R) as (_ & _ & G). rewrite NE in G.
  destruct G as (n & l & tr0 & c & d & T & N0 & C & ->). exists n, l, tr0, c, d. split; [exact T|]. split; [reflexivity|].
  unfold applied. split; [rewrite fold_noc by exact N0; reflexivity|].
  rewrite !fold_left_app. cbn [fold_left act]. rewrite act_sent. cbn [act durable pending app]. rewrite C. cbn [durable].
  rewrite fold_noc by exact N0. reflexivity.
Qed.
Print Assumptions sql_trans_once.

(** ... and when it reports an error, nothing is left. *)
Theorem sql_trans_none env nar cmd fuel e tr : run env nar cmd fuel = Ok (e, tr) -> is_error e = true -> applied tr = [].
Proof.
  intros R NE. destruct (run_good _ _ _ _ _ _ R) as (_ & _ & G). rewrite NE in G. unfold applied. rewrite fold_noc by exact G. reflexivity.
Qed.
Print Assumptions sql_trans_none.

(** C105: the codes that ask for a retry are never returned (m_sql_trans.h, M_sql_trans_process). *)
Theorem sql_trans_retries env nar cmd fuel e tr :
  run env nar cmd fuel = Ok (e, tr) -> e <> QUERY_DEADLOCK /\ e <> USER_RETRY /\ e <> CONN_LOST /\ e <> CONN_FAILED /\ is_disconnect e = false.
Proof.
  intros R. destruct (run_good _ _ _ _ _ _ R) as (G & _). repeat split; try (intros ->; discriminate). destruct e; try reflexivity; discriminate.
Qed.
Print Assumptions sql_trans_retries.

(** When the trouble ends (from some answer on, all is well) and a command that meets no trouble
    does not ask for a retry, the call ends: there are no more rounds than there were answers. *)
Theorem sql_trans_ends env nar cmd K :
  (forall i, (K <= i)%nat -> env i = (SUCCESS, true)) -> (forall n, is_rollback (sunny (cmd n)) = false) -> (forall n, honest (cmd n)) ->
  exists e tr, run env nar cmd (Datatypes.S K) = Ok (e, tr).
Proof.
  intros C S H. pose proof (process_fuel env nar cmd K C S (Datatypes.S K) 0 (Wd 0 []) ltac:(cbn [used]; lia)) as F.
  pose proof (process_safe env nar cmd H (Datatypes.S K) 0 (Wd 0 [])) as U.
  unfold run. destruct (process env nar cmd (Datatypes.S K) 0 (Wd 0 [])) as [[e w]| |]; [|congruence|congruence]. exists e, (trace w). reflexivity.
Qed.
Print Assumptions sql_trans_ends.

(** C106: connections are used as the driver expects: each is begun, used and ended in order; nothing but
    the rollback follows a statement that was told the transaction is gone; each is given
    back with no transaction open, and destroyed if it was lost; none is kept.  Missing:
    drivers whose rollback fails without saying that the connection is lost. *)
Theorem sql_trans_protocol_partial env nar cmd fuel e tr :
  run env nar cmd fuel = Ok (e, tr) -> rollbacks_ok tr -> protos Idle tr = Some Idle.
Proof. intros R. apply (run_good _ _ _ _ _ _ R). Qed.
Print Assumptions sql_trans_protocol_partial.

(** The memory of a connection is not used after it is gone, provided the command does not hide
    from M_sql_trans_process that a statement failed with a rollback code. *)
Theorem sql_trans_safe_partial env nar cmd fuel : (forall n, honest (cmd n)) -> run env nar cmd fuel <> UB.
Proof.
  intros H. pose proof (process_safe env nar cmd H fuel 0 (Wd 0 [])) as U. unfold run.
  destruct (process env nar cmd fuel 0 (Wd 0 [])) as [[e w]| |]; [discriminate|congruence|discriminate].
Qed.
Print Assumptions sql_trans_safe_partial.

(** A command that goes on after its statement lost the connection, and returns success:
    M_sql_trans_commit gives the connection back, which destroys it, and then reads its state. *)
Definition deaf : prog := Exec 1 (fun _ => Ret SUCCESS).
Definition answers (l : list err) (i : nat) : err * bool := (nth i l SUCCESS, true).
Theorem sql_trans_use_after_free_refuted : run (answers [SUCCESS; SUCCESS; CONN_LOST]) false (fun _ => deaf) 2 = UB.
Proof. reflexivity. Qed.
Print Assumptions sql_trans_use_after_free_refuted.

(** A rollback that fails with another code than one of a lost connection: the connection
    is put back into the pool although a transaction is open on it. *)
Theorem sql_trans_open_transaction_refuted :
  exists env tr, run env false (fun _ => Exec 1 (fun e => Ret e)) 2 = Ok (QUERY_CONSTRAINT, tr) /\
    tr = [EAcquire; EBegin SUCCESS; EExec 1 QUERY_CONSTRAINT; ERollback QUERY_FAILURE; ERelease false] /\ protos Idle tr = None.
Proof.
  exists (fun i => (nth i [SUCCESS; SUCCESS; QUERY_CONSTRAINT; QUERY_FAILURE] SUCCESS, negb (i =? 4)%nat)). eexists. vm_compute. repeat split.
Qed.
Print Assumptions sql_trans_open_transaction_refuted.

(** ** Cases that meet the hypotheses *)
(** Two statements; the second fails with a deadlock the first time; the commit of the second
    attempt loses the connection; the third attempt works. *)
Definition transfer : prog := Exec 1 (fun e => if is_error e then Ret e else Exec 2 (fun e => Ret e)).
Definition bad_day : nat -> err * bool := fun i =>
  (nth i [SUCCESS; SUCCESS; SUCCESS; QUERY_DEADLOCK; SUCCESS; SUCCESS;
          SUCCESS; SUCCESS; SUCCESS; SUCCESS; CONN_LOST] SUCCESS, negb (Nat.eqb i 5)).
Definition bad_day_trace : list ev :=
  [EAcquire; EBegin SUCCESS; EExec 1 SUCCESS; EExec 2 QUERY_DEADLOCK; ERollback SUCCESS; ERelease false; ESleep;
   EAcquire; EBegin SUCCESS; EExec 1 SUCCESS; EExec 2 SUCCESS; ECommit CONN_LOST; ERelease true; ESleep;
   EAcquire; EBegin SUCCESS; EExec 1 SUCCESS; EExec 2 SUCCESS; ECommit SUCCESS; ERelease true].
Example sql_trans_case :
  run bad_day false (fun _ => transfer) 13 = Ok (SUCCESS, bad_day_trace) /\ applied bad_day_trace = [[1; 2]%N].
Proof. vm_compute. split; reflexivity. Qed.
Example sql_trans_case_rollbacks : rollbacks_ok bad_day_trace.
Proof.
  intros x X E. assert (A : forallb (fun e => match e with ERollback y => negb (is_error y) | _ => true end) bad_day_trace = true) by reflexivity.
  rewrite forallb_forall in A. apply A in X. rewrite E in X. discriminate.
Qed.
Example transfer_honest : honest transfer.
Proof.
  intros l e T (s & x & I & R). inversion T as [|? ? x0 l0 ? T0]; subst. destruct (is_error x0) eqn:E0.
  - inversion T0; subst. exact E0.
  - inversion T0 as [|? ? x1 l1 ? T1]; subst. inversion T1; subst. destruct I as [I|[I|[]]]; injection I as <- <-;
    [rewrite (rb_err _ R) in E0; discriminate|apply rb_err, R].
Qed.
Example sql_trans_ends_case : (forall i, (12 <= i)%nat -> bad_day i = (SUCCESS, true)) /\ is_rollback (sunny transfer) = false.
Proof.
  split; [|reflexivity]. intros i L. unfold bad_day. rewrite nth_overflow by (cbn; lia). destruct (Nat.eqb_spec i 5); [lia|reflexivity].
Qed.
Example sql_trans_error_case : exists tr, run (answers [SUCCESS; SUCCESS; SUCCESS; QUERY_CONSTRAINT]) false (fun _ => transfer) 3 = Ok (QUERY_CONSTRAINT, tr) /\ applied tr = [].
Proof. eexists. vm_compute. split; reflexivity. Qed.

(** Proofs about SQL transactions. *)
From Verif Require Import Base.Lib SqlTrans.Model SqlTrans.Spec.

Definition noc (tr : list ev) : Prop := forall x, In (ECommit x) tr -> is_error x = true.
Lemma noc_app a b : noc a -> noc b -> noc (a ++ b).
Proof. intros A B x X. apply in_app_or in X. destruct X; auto. Qed.
Lemma noc_nil : noc []. Proof. intros x []. Qed.
Lemma fold_noc : forall tr d, noc tr -> durable (fold_left act tr d) = durable d.
Proof.
  induction tr as [|e tr IH]; intros d H; [reflexivity|]. cbn [fold_left]. rewrite IH by (intros x X; apply H; right; exact X).
  destruct e; cbn [act]; try reflexivity.
  - destruct (is_error e); reflexivity.
  - rewrite (H e) by (left; reflexivity). reflexivity.
Qed.
Lemma protos_app p a b : protos p (a ++ b) = match protos p a with Some q => protos q b | None => None end.
Proof.
  unfold protos. rewrite fold_left_app. destruct (fold_left _ a (Some p)) as [q|]; [reflexivity|].
  induction b as [|e b IH]; [reflexivity|exact IH].
Qed.
Lemma rb_app a b : rollbacks_ok (a ++ b) -> rollbacks_ok a /\ rollbacks_ok b.
Proof. intros H. split; intros x X; apply H, in_or_app; auto. Qed.
Lemma disc_err e : is_disconnect e = true -> is_rollback e = true /\ is_error e = true.
Proof. destruct e; cbn; intros; try discriminate; auto. Qed.
Lemma rb_err e : is_rollback e = true -> is_error e = true.
Proof. destruct e; cbn; intros; try discriminate; auto. Qed.
Lemma fatal_eq e : is_fatal e = is_error e && negb (is_rollback e).
Proof. destruct e; reflexivity. Qed.

Definition phase_of (st : cstate) : phase := match st with OK => Txn | ROLLBACK => Doomed | FAILED => Lost end.
Definition plus (w w' : world) (tr : list ev) : Prop := trace w' = trace w ++ tr.
Lemma plus_trans w1 w2 w3 a b : plus w1 w2 a -> plus w2 w3 b -> plus w1 w3 (a ++ b).
Proof. unfold plus. intros A B. rewrite B, A, app_assoc. reflexivity. Qed.

Section Env.
Variable env : nat -> err * bool.
Variable nar : bool.

Lemma release_spec st w c w' : release env st w = (c, w') -> exists d, plus w w' [ERelease d] /\ (st = FAILED -> d = true) /\ c = if d then None else Some OK.
Proof.
  unfold release. cbn [ask_bool]. intros E. injection E as <- <-. eexists. split; [reflexivity|]. split; [intros ->; reflexivity|reflexivity].
Qed.

Lemma begin_spec : forall fuel w e t w', begin env nar fuel w = Ok (e, t, w') ->
  exists tr, noc tr /\ rollbacks_ok tr /\ protos Idle tr = Some Idle /\
   ((e = SUCCESS /\ t = Some OK /\ plus w w' (tr ++ [EAcquire; EBegin SUCCESS])) \/ (is_error e = true /\ t = None /\ plus w w' tr)).
Proof.
  induction fuel as [|fuel IH]; intros w e t w' E; [discriminate|]. cbn [begin] in E. cbn [ask_bool ask_begin ask_err] in E.
  destruct (negb (snd (env (used w)))).
  - injection E as <- <- <-. exists [ENoPool]. split; [intros x [X|[]]; discriminate|]. split; [intros x [X|[]]; discriminate|]. split; [reflexivity|]. right. repeat split.
  - cbn [say used trace] in E. remember (fst (env (Datatypes.S (used w)))) as e0 eqn:He0 in *; clear He0.
    destruct (is_error e0) eqn:Er; cbv beta iota zeta in E; cbn [say used trace] in E.
    + assert (NS : e0 <> SUCCESS) by (intros X; rewrite X in Er; discriminate).
      destruct (release env (set_state OK e0) (say (Wd (Datatypes.S (Datatypes.S (used w))) (trace w ++ [EAcquire])) (EBegin e0))) as [c w1] eqn:ER.
      destruct (release_spec _ _ _ _ ER) as (d & P & FD & _). unfold plus in P. unfold say in P. cbn [trace] in P.
      assert (E' : (if is_error e0 && negb (is_fatal e0) && negb nar then begin env nar fuel (say w1 ESleep) else Ok (e0, None, w1)) = Ok (e, t, w')).
      { destruct e0; try discriminate Er; exact E. }
      clear E. 
      assert (PR : protos Idle [EAcquire; EBegin e0; ERelease d] = Some Idle).
      { unfold protos. cbn [fold_left proto]. destruct (is_disconnect e0) eqn:Ed.
        - rewrite FD by (unfold set_state; rewrite Ed; reflexivity). destruct e0; try discriminate; reflexivity.
        - destruct e0; try discriminate; reflexivity. }
      assert (N0 : noc [EAcquire; EBegin e0; ERelease d]) by (intros x [X|[X|[X|[]]]]; discriminate).
      assert (R0 : rollbacks_ok [EAcquire; EBegin e0; ERelease d]) by (intros x [X|[X|[X|[]]]]; discriminate).
      rewrite Er in E'. destruct (true && negb (is_fatal e0) && negb nar).
      * destruct (IH _ _ _ _ E') as (tr & N1 & R1 & P1 & Q).
        exists ([EAcquire; EBegin e0; ERelease d] ++ [ESleep] ++ tr).
        split; [apply noc_app; auto; apply noc_app; auto; intros x [X|[]]; discriminate|].
        split; [intros x X; repeat (apply in_app_or in X; destruct X as [X|X]); auto; destruct X as [X|[]]; discriminate|].
        split; [rewrite !protos_app, PR; exact P1|].
        assert (PL : plus w (say w1 ESleep) ([EAcquire; EBegin e0; ERelease d] ++ [ESleep])).
        { unfold plus. cbn [say trace]. rewrite P, <- !app_assoc. reflexivity. }
        destruct Q as [(-> & -> & Q)|(Qe & -> & Q)]; [left|right]; repeat split; auto.
        -- replace (([EAcquire; EBegin e0; ERelease d] ++ [ESleep] ++ tr) ++ [EAcquire; EBegin SUCCESS])
             with (([EAcquire; EBegin e0; ERelease d] ++ [ESleep]) ++ (tr ++ [EAcquire; EBegin SUCCESS])) by (rewrite <- !app_assoc; reflexivity).
           eapply plus_trans; [exact PL|exact Q].
        -- rewrite app_assoc. eapply plus_trans; [exact PL|exact Q].
      * injection E' as <- <- <-. exists [EAcquire; EBegin e0; ERelease d]. repeat split; auto. right. repeat split; auto.
        unfold plus. rewrite P, <- !app_assoc. reflexivity.
    + cbn [is_error andb set_state is_disconnect is_rollback] in E. injection E as <- <- <-.
      exists []. split; [apply noc_nil|]. split; [intros x []|]. split; [reflexivity|]. left. repeat split.
      unfold plus, say. cbn [trace app]. rewrite <- app_assoc. reflexivity.
Qed.

Lemma rollback_spec st w e c w' : rollback env st w = (e, c, w') ->
  exists tr, plus w w' tr /\ noc tr /\ (rollbacks_ok tr -> protos (phase_of st) tr = Some Idle).
Proof.
  unfold rollback. cbn [ask_err]. intros E.
  assert (A : st <> FAILED -> exists x d, plus w w' [ERollback x; ERelease d] /\ (set_state st x = FAILED -> d = true)).
  { intros NF. destruct st; [| |congruence];
    (match type of E with context [release env ?a ?b] => destruct (release env a b) as [c1 w1] eqn:ER end; injection E as <- <- <-;
     destruct (release_spec _ _ _ _ ER) as (d & P & F & _); exists (fst (env (used w))), d; split; [unfold plus in *; cbn [trace say] in P; rewrite P, <- app_assoc; reflexivity|exact F]). }
  destruct st.
  3:{ destruct (release env FAILED w) as [c1 w1] eqn:ER. injection E as <- <- <-. destruct (release_spec _ _ _ _ ER) as (d & P & F & _).
      exists [ERelease d]. split; [exact P|]. split; [intros x [X|[]]; discriminate|]. intros _. rewrite (F eq_refl). reflexivity. }
  1,2: destruct A as (x & d & P & F); [discriminate|]; exists [ERollback x; ERelease d]; split; [exact P|];
    (split; [intros y [X|[X|[]]]; discriminate|]); intros RO; specialize (RO x (or_introl eq_refl));
    unfold protos; cbn [fold_left phase_of proto]; unfold after, set_state in *; destruct (is_disconnect x) eqn:Ed;
    [rewrite F by reflexivity; rewrite andb_false_r; reflexivity|];
    destruct (is_error x); [specialize (RO eq_refl); discriminate|reflexivity].
Qed.

Lemma run_cmd_bad : forall p st w e st' w', st <> OK -> run_cmd env p st w = (e, st', w') -> st' = st /\ w' = w /\ exists l, talks p l e.
Proof.
  induction p as [x|s k IH]; intros st w e st' w' NO E; cbn [run_cmd] in E.
  - injection E as <- <- <-. repeat split. exists []. constructor.
  - assert (E' : run_cmd env (k QUERY_DEADLOCK) st w = (e, st', w')) by (destruct st; [congruence|exact E|exact E]).
    destruct (IH _ _ _ _ _ _ NO E') as (-> & -> & l & T). repeat split. exists ((s, QUERY_DEADLOCK) :: l). constructor. exact T.
Qed.
Lemma run_cmd_spec : forall p w e st' w', run_cmd env p OK w = (e, st', w') ->
  exists tr l, plus w w' tr /\ noc tr /\ rollbacks_ok tr /\ protos Txn tr = Some (phase_of st') /\ talks p l e /\
    ((st' = OK /\ tr = sent l) \/ (st' <> OK /\ exists s x, In (s, x) l /\ is_rollback x = true)).
Proof.
  induction p as [x|s k IH]; intros w e st' w' E; cbn [run_cmd] in E.
  - injection E as <- <- <-. exists [], []. split; [unfold plus; rewrite app_nil_r; reflexivity|]. split; [apply noc_nil|]. split; [intros x0 []|].
    split; [reflexivity|]. split; [constructor|]. left. split; reflexivity.
  - unfold execute in E. cbn [ask_err] in E. set (x := fst (env (used w))) in *.
    set (w1 := say (Wd (Datatypes.S (used w)) (trace w)) (EExec s x)) in *.
    assert (P1 : plus w w1 [EExec s x]) by reflexivity.
    assert (N1 : noc [EExec s x]) by (intros y [X|[]]; discriminate).
    assert (R1 : rollbacks_ok [EExec s x]) by (intros y [X|[]]; discriminate).
    destruct (set_state OK x) eqn:ES.
    + assert (NR : is_rollback x = false) by (unfold set_state in ES; destruct (is_disconnect x); [discriminate|]; destruct (is_rollback x); [discriminate|reflexivity]).
      destruct (IH x _ _ _ _ E) as (tr & l & P & N & R & PR & T & C).
      exists ([EExec s x] ++ tr), ((s, x) :: l). split; [eapply plus_trans; eassumption|]. split; [apply noc_app; auto|].
      split; [intros y Y; apply in_app_or in Y; destruct Y; auto|].
      split. { rewrite protos_app. unfold protos at 1. cbn [fold_left proto]. rewrite NR. unfold after.
               unfold set_state in ES. destruct (is_disconnect x); [discriminate|]. exact PR. }
      split; [constructor; exact T|]. destruct C as [(-> & ->)|(C1 & s' & x' & I1 & I2)]; [left; split; reflexivity|right; split; [exact C1|exists s', x'; split; [right; exact I1|exact I2]]].
    + assert (NO : ROLLBACK <> OK) by discriminate. destruct (run_cmd_bad _ _ _ _ _ _ NO E) as (-> & -> & l & T).
      exists [EExec s x], ((s, x) :: l). repeat (split; [assumption|]).
      assert (NR : is_disconnect x = false /\ is_rollback x = true) by (unfold set_state in ES; destruct (is_disconnect x); [discriminate|]; destruct (is_rollback x); [auto|discriminate]).
      destruct NR as [ND NR]. split; [unfold protos; cbn [fold_left proto]; unfold after; rewrite ND, NR; reflexivity|]. split; [constructor; exact T|].
      right. split; [discriminate|]. exists s, x. split; [left; reflexivity|exact NR].
    + assert (NO : FAILED <> OK) by discriminate. destruct (run_cmd_bad _ _ _ _ _ _ NO E) as (-> & -> & l & T).
      exists [EExec s x], ((s, x) :: l). repeat (split; [assumption|]).
      assert (ND : is_disconnect x = true) by (unfold set_state in ES; destruct (is_disconnect x); [auto|]; destruct (is_rollback x); discriminate).
      split; [unfold protos; cbn [fold_left proto]; unfold after; rewrite ND; reflexivity|]. split; [constructor; exact T|].
      right. split; [discriminate|]. exists s, x. split; [left; reflexivity|apply disc_err, ND].
Qed.

Lemma commit_ok w e w' : commit env OK w = Ok (e, w') -> exists d, plus w w' [ECommit e; ERelease d] /\ protos Txn [ECommit e; ERelease d] = Some Idle.
Proof.
  unfold commit. cbn [ask_err]. intros E.
  match type of E with context [release env ?a ?b] => destruct (release env a b) as [c1 w1] eqn:ER end. injection E as <- <-.
  destruct (release_spec _ _ _ _ ER) as (d & P & F & _). exists d. split; [unfold plus in *; cbn [trace say] in P; rewrite P, <- app_assoc; reflexivity|].
  unfold protos. cbn [fold_left proto]. unfold after, set_state in *. destruct (is_disconnect _); [rewrite F by reflexivity|]; reflexivity.
Qed.
(** A commit on a connection that is not well is a rollback *)
Lemma commit_bad st w e w' : st <> OK -> commit env st w = Ok (e, w') ->
  e = QUERY_DEADLOCK /\ exists tr, plus w w' tr /\ noc tr /\ (rollbacks_ok tr -> protos (phase_of st) tr = Some Idle).
Proof.
  intros NO E. assert (E' : (let '(_, c, w) := rollback env st w in match c with None => UB | Some FAILED => Ok (CONN_FAILED, w) | Some _ => Ok (QUERY_DEADLOCK, w) end) = Ok (e, w'))
    by (destruct st; [congruence|exact E|exact E]).
  destruct (rollback env st w) as [[e0 c] w1] eqn:ER. destruct (rollback_spec _ _ _ _ _ ER) as (tr & X).
  assert (CO : c = None \/ c = Some OK).
  { unfold rollback in ER. cbn [ask_err] in ER. destruct st;
    (match type of ER with context [release env ?a ?b] => destruct (release env a b) as [c1 w2] eqn:EL end; injection ER as <- <- <-;
     destruct (release_spec _ _ _ _ EL) as (d & _ & _ & ->); destruct d; auto). }
  destruct CO as [-> | ->]; [discriminate|]. injection E' as <- <-. split; [reflexivity|exists tr; exact X].
Qed.

Variable cmd : nat -> prog.
Definition good (e : err) (tr : list ev) : Prop :=
  is_rollback e = false /\ (rollbacks_ok tr -> protos Idle tr = Some Idle) /\
  (if is_error e then noc tr else
   exists n l tr0 c d, talks (cmd n) l e /\ noc tr0 /\ is_error c = false /\ tr = tr0 ++ [EAcquire; EBegin SUCCESS] ++ sent l ++ [ECommit c; ERelease d]).
Lemma good_more e tr a : noc a -> (rollbacks_ok a -> protos Idle a = Some Idle) -> good e tr -> good e (a ++ tr).
Proof.
  intros N P (G1 & G2 & G3). split; [exact G1|]. split.
  - intros R. apply rb_app in R. destruct R as [Ra Rt]. rewrite protos_app, (P Ra). auto.
  - destruct (is_error e); [apply noc_app; auto|]. destruct G3 as (n & l & tr0 & c & d & T & N0 & C & ->).
    exists n, l, (a ++ tr0), c, d. repeat split; auto; [apply noc_app; auto|rewrite app_assoc; reflexivity].
Qed.
Lemma process_spec : forall fuel n w e w', process env nar cmd fuel n w = Ok (e, w') -> exists tr, plus w w' tr /\ good e tr.
Proof.
  induction fuel as [|fuel IH]; intros n w e w' E; [discriminate|]. cbn [process] in E.
  destruct (begin env nar (Datatypes.S fuel) w) as [[[e0 t] w0]| |] eqn:EB; cbn [bind] in E; try discriminate.
  destruct (begin_spec _ _ _ _ _ EB) as (tr & N0 & R0 & P0 & [(-> & -> & PL)|(Er & -> & PL)]).
  2:{ rewrite Er in E. destruct (is_rollback e0) eqn:Rb.
      - destruct (IH _ _ _ _ E) as (tr' & P' & G'). exists ((tr ++ [ESleep]) ++ tr'). split.
        + eapply plus_trans; [|exact P']. unfold plus in *. cbn [say trace]. rewrite PL, app_assoc. reflexivity.
        + apply good_more; [apply noc_app; [auto|intros x [X|[]]; discriminate]|intros _; rewrite protos_app, P0; reflexivity|exact G'].
      - injection E as <- <-. exists tr. split; [exact PL|]. split; [exact Rb|]. split; [auto|]. rewrite Er. exact N0. }
  cbn [is_error] in E. destruct (run_cmd env (cmd n) OK w0) as [[e1 st] w1] eqn:EC.
  destruct (run_cmd_spec _ _ _ _ _ EC) as (tc & l & PC & NC & RC & PRC & T & C).
  set (h := tr ++ [EAcquire; EBegin SUCCESS]) in *.
  assert (PH : plus w w1 (h ++ tc)) by (eapply plus_trans; eassumption).
  assert (NH : noc (h ++ tc)) by (unfold h; repeat apply noc_app; auto; intros x [X|[X|[]]]; discriminate).
  assert (QH : protos Idle (h ++ tc) = Some (phase_of st)) by (unfold h; rewrite !protos_app, P0; exact PRC).
  (* an attempt that is rolled back *)
  assert (Roll : forall e2 c w2, rollback env st w1 = (e2, c, w2) -> exists a, plus w w2 a /\ noc a /\ (rollbacks_ok a -> protos Idle a = Some Idle)).
  { intros e2 c w2 ER. destruct (rollback_spec _ _ _ _ _ ER) as (a & Pa & Na & Qa). exists ((h ++ tc) ++ a).
    split; [eapply plus_trans; eassumption|]. split; [apply noc_app; auto|]. intros R. apply rb_app in R. rewrite protos_app, QH. apply Qa, R. }
  assert (Again : forall a w2, plus w w2 a -> noc a -> (rollbacks_ok a -> protos Idle a = Some Idle) ->
            process env nar cmd fuel (Datatypes.S n) (say w2 ESleep) = Ok (e, w') -> exists tr, plus w w' tr /\ good e tr).
  { intros a w2 Pa Na Qa EP. destruct (IH _ _ _ _ EP) as (tr' & P' & G'). exists ((a ++ [ESleep]) ++ tr'). split.
    - eapply plus_trans; [|exact P']. unfold plus in *. cbn [say trace]. rewrite Pa, app_assoc. reflexivity.
    - apply good_more; [apply noc_app; [auto|intros x [X|[]]; discriminate]|intros R; apply rb_app in R; rewrite protos_app, (Qa (proj1 R)); reflexivity|exact G']. }
  destruct (is_error e1) eqn:E1.
  { destruct (rollback env st w1) as [[e2 c] w2] eqn:ER. destruct (Roll _ _ _ eq_refl) as (a & Pa & Na & Qa).
    destruct (is_rollback e1) eqn:Rb; [apply (Again a w2); auto|].
    injection E as <- <-. exists a. split; [exact Pa|]. split; [exact Rb|]. split; [exact Qa|]. rewrite E1. exact Na. }
  assert (SR : e1 = SUCCESS_ROW \/ (e1 <> SUCCESS_ROW /\
     (do ' (ce, w2) <- commit env st w1; if is_error ce then if is_rollback ce then process env nar cmd fuel (Datatypes.S n) (say w2 ESleep) else Ok (ce, w2) else Ok (e1, w2)) = Ok (e, w'))).
  { destruct e1; try discriminate E1; [right|left; reflexivity|right|right]; (split; [discriminate|exact E]). }
  destruct SR as [->|(NR & E')].
  { destruct (rollback env st w1) as [[e2 c] w2] eqn:ER. destruct (Roll _ _ _ eq_refl) as (a & Pa & Na & Qa).
    injection E as <- <-. exists a. split; [exact Pa|]. split; [reflexivity|]. split; [exact Qa|]. exact Na. }
  clear E. destruct (commit env st w1) as [[ce w2]| |] eqn:ECm; cbn [bind] in E'; try discriminate.
  destruct C as [(-> & ->)|(NO & _)].
  - destruct (commit_ok _ _ _ ECm) as (d & Pc & Qc).
    assert (Pa : plus w w2 ((h ++ sent l) ++ [ECommit ce; ERelease d])) by (eapply plus_trans; eassumption).
    assert (Qa : protos Idle ((h ++ sent l) ++ [ECommit ce; ERelease d]) = Some Idle) by (rewrite protos_app, QH; exact Qc).
    destruct (is_error ce) eqn:Ce.
    + assert (Na : noc ((h ++ sent l) ++ [ECommit ce; ERelease d])) by (apply noc_app; [auto|]; intros x [X|[X|[]]]; [injection X as <-; exact Ce|discriminate]).
      destruct (is_rollback ce) eqn:Rb; [apply (Again _ _ Pa Na (fun _ => Qa) E')|].
      injection E' as <- <-. eexists. split; [exact Pa|]. split; [exact Rb|]. split; [auto|]. rewrite Ce. exact Na.
    + injection E' as <- <-. eexists. split; [exact Pa|]. split; [destruct e1; try discriminate E1; reflexivity|]. split; [auto|].
      rewrite E1. exists n, l, tr, ce, d. repeat split; auto. unfold h. rewrite <- !app_assoc. reflexivity.
  - destruct (commit_bad _ _ _ _ NO ECm) as (-> & a & Pa & Na & Qa). cbn [is_error is_rollback] in E'.
    apply (Again ((h ++ tc) ++ a) w2); auto; [eapply plus_trans; eassumption|apply noc_app; auto|].
    intros R. apply rb_app in R. rewrite protos_app, QH. apply Qa, R.
Qed.

(** ** No use after destruction with commands that are honest *)
Lemma process_safe : (forall n, honest (cmd n)) -> forall fuel n w, process env nar cmd fuel n w <> UB.
Proof.
  intros HO. induction fuel as [|fuel IH]; intros n w; [discriminate|]. cbn [process].
  assert (BN : forall f w, begin env nar f w <> UB).
  { induction f as [|f IHf]; intros w0; [discriminate|]. cbn [begin]. cbn [ask_bool ask_begin ask_err].
    destruct (negb _); [discriminate|]. cbn [say used trace].
    match goal with |- context [match ?x with SUCCESS => _ | _ => _ end] => set (e := x) end.
    destruct (match e with SUCCESS => _ | _ => _ end) as [t w1]. destruct (is_error e && negb (is_fatal e) && negb nar); [apply IHf|discriminate]. }
  destruct (begin env nar (Datatypes.S fuel) w) as [[[e0 t] w0]| |] eqn:EB; cbn [bind]; [|exfalso; eapply BN, EB|discriminate].
  destruct (begin_spec _ _ _ _ _ EB) as (tr & _ & _ & _ & [(-> & -> & _)|(Er & -> & _)]).
  2:{ rewrite Er. destruct (is_rollback e0); [apply IH|discriminate]. }
  cbn [is_error]. destruct (run_cmd env (cmd n) OK w0) as [[e1 st] w1] eqn:EC.
  destruct (run_cmd_spec _ _ _ _ _ EC) as (tc & l & _ & _ & _ & _ & T & C).
  destruct (is_error e1) eqn:E1.
  { destruct (rollback env st w1) as [[e2 c] w2]. destruct (is_rollback e1); [apply IH|discriminate]. }
  destruct C as [(-> & _)|(NO & X)]; [|rewrite (HO n l e1 T X) in E1; discriminate].
  assert (CM : exists ce w2, commit env OK w1 = Ok (ce, w2)).
  { unfold commit. cbn [ask_err]. match goal with |- context [release env ?a ?b] => destruct (release env a b) end. eauto. }
  destruct CM as (ce & w2 & CM).
  destruct e1; try discriminate E1; try (destruct (rollback env OK w1) as [[e2 c] w3]; discriminate);
    rewrite CM; cbn [bind]; (destruct (is_error ce); [destruct (is_rollback ce); [apply IH|discriminate]|discriminate]).
Qed.

(** ** When the trouble ends, the call ends *)
Lemma release_used st w c w' : release env st w = (c, w') -> used w' = Datatypes.S (used w).
Proof. unfold release. cbn [ask_bool]. intros E. injection E as <- <-. reflexivity. Qed.
Lemma rollback_used st w e c w' : rollback env st w = (e, c, w') -> (used w <= used w')%nat.
Proof.
  unfold rollback. cbn [ask_err]. destruct st; intros E;
    (match type of E with context [release env ?a ?b] => destruct (release env a b) as [c1 w1] eqn:ER end; injection E as <- <- <-;
     apply release_used in ER; unfold say in ER; cbn [used] in ER; lia).
Qed.
Lemma commit_used st w e w' : commit env st w = Ok (e, w') -> (used w <= used w')%nat.
Proof.
  unfold commit. intros E. destruct st.
  - cbn [ask_err] in E. match type of E with context [release env ?a ?b] => destruct (release env a b) as [c1 w1] eqn:ER end. injection E as <- <-.
    apply release_used in ER; unfold say in ER; cbn [used] in ER; lia.
  - destruct (rollback env ROLLBACK w) as [[e0 c] w1] eqn:ER. apply rollback_used in ER. destruct c as [[]|]; try discriminate; injection E as <- <-; exact ER.
  - destruct (rollback env FAILED w) as [[e0 c] w1] eqn:ER. apply rollback_used in ER. destruct c as [[]|]; try discriminate; injection E as <- <-; exact ER.
Qed.
Lemma run_cmd_used : forall p st w e st' w', run_cmd env p st w = (e, st', w') -> (used w <= used w')%nat.
Proof.
  induction p as [x|s k IH]; intros st w e st' w' E; cbn [run_cmd] in E; [injection E as <- <- <-; lia|].
  unfold execute in E. destruct st; [cbn [ask_err] in E|..]; apply IH in E; unfold say in E; cbn [used] in E; lia.
Qed.
Lemma begin_used : forall fuel w e t w', begin env nar fuel w = Ok (e, t, w') -> (used w < used w')%nat.
Proof.
  induction fuel as [|fuel IH]; intros w e t w' E; [discriminate|]. cbn [begin] in E. cbn [ask_bool ask_begin ask_err] in E.
  destruct (negb (snd (env (used w)))); [injection E as <- <- <-; unfold say; cbn [used]; lia|].
  cbn [used] in E.
  match type of E with context [match ?x with SUCCESS => _ | _ => _ end] => remember x as e0 end.
  match type of E with (let '(t, w) := ?X in _) = _ => remember X as q eqn:Q; destruct q as [t0 w0] end.
  assert (U : (used w < used w0)%nat).
  { assert (Q' : (Some (set_state OK e0), say (Wd (Datatypes.S (Datatypes.S (used w))) (trace w ++ [EAcquire])) (EBegin e0)) = (t0, w0) \/
       exists c, release env (set_state OK e0) (say (Wd (Datatypes.S (Datatypes.S (used w))) (trace w ++ [EAcquire])) (EBegin e0)) = (c, w0)).
    { destruct e0; [left; symmetry; exact Q|..]; right;
      (match type of Q with context [release env ?a ?b] => destruct (release env a b) as [c1 w1] eqn:ER end; injection Q as -> ->; exists c1; exact ER). }
    destruct Q' as [Q'|(c & Q')]; [injection Q' as <- <-; unfold say; cbn [used]; lia|]. apply release_used in Q'. unfold say in Q'. cbn [used] in Q'. lia. }
  destruct (is_error e0 && negb (is_fatal e0) && negb nar); [apply IH in E; unfold say in E; cbn [used] in E; lia|injection E as <- <- <-; exact U].
Qed.

Variable K : nat.
Hypothesis calm : forall i, (K <= i)%nat -> env i = (SUCCESS, true).
Lemma begin_calm fuel w : (K <= used w)%nat -> begin env nar (Datatypes.S fuel) w =
  Ok (SUCCESS, Some OK, Wd (Datatypes.S (Datatypes.S (used w))) ((trace w ++ [EAcquire]) ++ [EBegin SUCCESS])).
Proof.
  intros L. cbn [begin]. cbn [ask_bool ask_begin ask_err used say trace]. rewrite (calm _ L). cbn [snd negb].
  unfold say. cbn [used trace]. rewrite (calm (Datatypes.S (used w))) by lia. reflexivity.
Qed.
Lemma run_cmd_calm : forall p w, (K <= used w)%nat -> exists w', run_cmd env p OK w = (sunny p, OK, w') /\ (used w <= used w')%nat.
Proof.
  induction p as [x|s k IH]; intros w L; cbn [run_cmd sunny]; [eauto|]. unfold execute. cbn [ask_err]. rewrite (calm _ L).
  cbn [fst set_state is_disconnect is_rollback]. edestruct (IH SUCCESS) as (w' & E & U); [|rewrite E; eexists; split; [reflexivity|]]; unfold say in *; cbn [used] in *; lia.
Qed.
Lemma begin_fuel : forall fuel w, (K - used w < fuel)%nat -> begin env nar fuel w <> Fuel.
Proof.
  induction fuel as [|fuel IH]; intros w L; [lia|]. destruct (Nat.le_gt_cases K (used w)) as [A|A].
  - rewrite begin_calm by exact A. discriminate.
  - cbn [begin]. cbn [ask_bool ask_begin ask_err]. destruct (negb (snd (env (used w)))); [discriminate|]. cbn [used].
    match goal with |- context [match ?x with SUCCESS => _ | _ => _ end] => remember x as e0 end.
    match goal with |- (let '(t, w) := ?X in _) <> _ => remember X as q eqn:Q; destruct q as [t0 w0] end.
    assert (U : (used w < used w0)%nat).
    { assert (Q' : (Some (set_state OK e0), say (Wd (Datatypes.S (Datatypes.S (used w))) (trace w ++ [EAcquire])) (EBegin e0)) = (t0, w0) \/
         exists c, release env (set_state OK e0) (say (Wd (Datatypes.S (Datatypes.S (used w))) (trace w ++ [EAcquire])) (EBegin e0)) = (c, w0)).
      { destruct e0; [left; symmetry; exact Q|..]; right;
        (match type of Q with context [release env ?a ?b] => destruct (release env a b) as [c1 w1] eqn:ER end; injection Q as -> ->; exists c1; exact ER). }
      destruct Q' as [Q'|(c & Q')]; [injection Q' as <- <-; unfold say; cbn [used]; lia|]. apply release_used in Q'. unfold say in Q'. cbn [used] in Q'. lia. }
    destruct (is_error e0 && negb (is_fatal e0) && negb nar); [|discriminate]. apply IH. unfold say. cbn [used]. lia.
Qed.
Hypothesis settles : forall n, is_rollback (sunny (cmd n)) = false.
Lemma process_fuel : forall fuel n w, (K - used w < fuel)%nat -> process env nar cmd fuel n w <> Fuel.
Proof.
  induction fuel as [|fuel IH]; intros n w L; [lia|]. cbn [process]. destruct (Nat.le_gt_cases K (used w)) as [A|A].
  - rewrite begin_calm by exact A. cbn [bind is_error].
    edestruct (run_cmd_calm (cmd n)) as (w1 & E & U); [|rewrite E]; [cbn [used]; lia|]. cbn [used] in U.
    destruct (is_error (sunny (cmd n))) eqn:Er.
    + destruct (rollback env OK w1) as [[e2 c] w2]. rewrite settles. discriminate.
    + assert (C : exists w2, commit env OK w1 = Ok (SUCCESS, w2)).
      { unfold commit. cbn [ask_err]. rewrite (calm (used w1)) by lia. cbn [fst]. match goal with |- context [release env ?a ?b] => destruct (release env a b) end. eauto. }
      destruct C as (w2 & C). destruct (sunny (cmd n)); try discriminate Er; try (rewrite C; cbn [bind is_error]; discriminate).
      destruct (rollback env OK w1) as [[e2 c] w3]. discriminate.
  - destruct (begin env nar (Datatypes.S fuel) w) as [[[e0 t] w0]| |] eqn:EB; cbn [bind]; [|discriminate|exfalso; revert EB; apply begin_fuel; exact L].
    pose proof (begin_used _ _ _ _ _ EB) as U0.
    destruct (begin_spec _ _ _ _ _ EB) as (tr & _ & _ & _ & [(-> & -> & _)|(Er & -> & _)]).
    2:{ rewrite Er. destruct (is_rollback e0); [|discriminate]. apply IH. unfold say. cbn [used]. lia. }
    cbn [is_error]. destruct (run_cmd env (cmd n) OK w0) as [[e1 st] w1] eqn:EC. apply run_cmd_used in EC.
    destruct (is_error e1) eqn:E1.
    { destruct (rollback env st w1) as [[e2 c] w2] eqn:ER. apply rollback_used in ER. destruct (is_rollback e1); [|discriminate].
      apply IH. unfold say. cbn [used]. lia. }
    assert (CM : (do ' (ce, w2) <- commit env st w1; if is_error ce then if is_rollback ce then process env nar cmd fuel (Datatypes.S n) (say w2 ESleep) else Ok (ce, w2) else Ok (e1, w2)) <> Fuel).
    { destruct (commit env st w1) as [[ce w2]| |] eqn:ECm; cbn [bind].
      - apply commit_used in ECm. destruct (is_error ce); [|discriminate]. destruct (is_rollback ce); [|discriminate]. apply IH. unfold say. cbn [used]. lia.
      - discriminate.
      - exfalso. unfold commit in ECm. cbn [ask_err] in ECm. destruct st;
        [match type of ECm with context [release env ?a ?b] => destruct (release env a b) end; discriminate|..];
        (match type of ECm with context [rollback env ?a ?b] => destruct (rollback env a b) as [[? [[]|]] ?] end; discriminate). }
    destruct e1; try discriminate E1; try exact CM. destruct (rollback env st w1) as [[e2 c] w2]. discriminate.
Qed.
End Env.

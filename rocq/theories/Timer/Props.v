(** Timers of an event loop (C50). *)
From Verif Require Import Base.Lib Timer.Model Timer.Spec Timer.Proofs.
Open Scope Z_scope.

(** C50.  Whatever is done with the timers of an event loop, from its callbacks and from
    other threads, in any order: as long as timer [id] is used according to the rules in
    Spec.v, its callback is only called when it is started, its time has come (in whole
    milliseconds), its fire count is not used up, its end has not been reached and its
    callback is not running.  Missing from the full claim: a call of start that fails, an
    absolute start set while it runs or used from the callback, and a fire count changed
    while it runs; see the refutations below. *)
Theorem timer_fires_only_when_due_partial us0 w0 acts s tr1 us w id tr2 :
  exec (init us0 w0) acts = Some (s, tr1 ++ EFire us w id :: tr2) -> s_ok (spec id tr1) = true -> may_fire (spec id tr1) us w.
Proof. intros H Ok. exact (exec_fire acts _ [] _ _ _ _ _ _ (inv_init us0 w0) H Ok). Qed.
Print Assumptions timer_fires_only_when_due_partial.

Definition ex_acts : list action :=
  [Add 0; Add 0; Do true 0 1 (OSetCount 2); Do true 0 1 (OStart 10); Do false 0 0 (OStart 25); Tick 12000;
   Begin; Iter 0; Do true 0 0 OStatus; Tick 3000; Back 0; Iter 0; Tick 11000; Begin; Iter 0; Back 0; Iter 0; Back 0; Iter 0; Tick 100000; Begin; Iter 0].
Example timer_fires_ex : exists s, exec (init 0 zero) ex_acts = Some (s,
  [EAdd 0; EAdd 1; EOp 0 zero 1 (OSetCount 2) 1; EOp 0 zero 1 (OStart 10) 1; EOp 0 zero 0 (OStart 25) 1;
   EFire 12000 zero 1; EOp 12000 zero 0 OStatus 1; EBack 15000 1; EFire 26000 zero 0; EBack 26000 0; EFire 26000 zero 1; EBack 26000 1; EFire 126000 zero 0]) /\
  s_ok (spec 1 [EAdd 0; EAdd 1; EOp 0 zero 1 (OSetCount 2) 1; EOp 0 zero 1 (OStart 10) 1; EOp 0 zero 0 (OStart 25) 1; EFire 12000 zero 1; EOp 12000 zero 0 OStatus 1; EBack 15000 1]) = true.
Proof. eexists. split; [vm_compute; reflexivity|vm_compute; reflexivity]. Qed.

(** In particular never after it was stopped or removed, until it is started again. *)
Theorem timer_silent_after_stop us0 w0 acts s tr1 us w id o r tr2 us' w' tr3 :
  exec (init us0 w0) acts = Some (s, tr1 ++ EOp us w id o r :: tr2 ++ EFire us' w' id :: tr3) -> o = OStop \/ o = ORemove ->
  s_ok (spec id (tr1 ++ EOp us w id o r :: tr2)) = true -> exists us1 w1 o1, In (EOp us1 w1 id o1 1) tr2 /\ ((exists iv, o1 = OStart iv) \/ exists iv, o1 = OReset iv).
Proof.
  intros H Ho Ok. replace (tr1 ++ EOp us w id o r :: tr2 ++ EFire us' w' id :: tr3) with ((tr1 ++ EOp us w id o r :: tr2) ++ EFire us' w' id :: tr3) in H by (rewrite <- app_assoc; reflexivity).
  destruct (timer_fires_only_when_due_partial _ _ _ _ _ _ _ _ _ H Ok) as ((d & Hd & _) & _). clear H Ok.
  assert (K : forall l a, s_due a = None -> s_due (fold_left (sp_step id) l a) <> None -> exists us1 w1 o1, In (EOp us1 w1 id o1 1) l /\ ((exists iv, o1 = OStart iv) \/ exists iv, o1 = OReset iv)).
  { induction l as [|x l IH]; intros a Ha Hn; cbn [fold_left] in Hn; [congruence|].
    destruct (s_due (sp_step id a x)) as [d1|] eqn:E; [|destruct (IH _ E Hn) as (u1 & w1 & o1 & I1 & I2); exists u1, w1, o1; split; [right; exact I1|exact I2]].
    clear IH Hn. destruct x as [j|u1 w1 j o1 r1|u1 w1 j|u1 j|j|j]; cbn [sp_step] in E; try congruence;
      destruct (Nat.eqb_spec j id) as [->|N]; try congruence; cbn [s_due] in E; try (rewrite Ha in E; discriminate E); [|cbn in E; congruence].
    exists u1, w1, o1. destruct o1 as [iv| |iv|iv|x|x|n|b|m| | |]; cbn [sp_op] in E; try (cbn in E; congruence);
      destruct (Z.eqb_spec r1 1) as [->|]; cbn in E; rewrite ?Ha in E; try (cbn in E; congruence); (split; [left; reflexivity|eauto]). }
  apply (K tr2 (spec id (tr1 ++ [EOp us w id o r]))).
  - rewrite spec_app. cbn [fold_left sp_step]. rewrite Nat.eqb_refl. destruct Ho as [->| ->]; reflexivity.
  - rewrite <- spec_app, <- app_assoc. cbn [app]. rewrite Hd. discriminate.
Qed.
Print Assumptions timer_silent_after_stop.
Example timer_silent_ex : exists s, exec (init 0 zero) [Add 0; Do true 0 0 (OStart 5); Do true 0 0 OStop; Do true 0 0 (OReset 0); Tick 5000; Begin; Iter 0] =
  Some (s, [EAdd 0; EOp 0 zero 0 (OStart 5) 1] ++ EOp 0 zero 0 OStop 1 :: [EOp 0 zero 0 (OReset 0) 1] ++ EFire 5000 zero 0 :: []).
Proof. eexists. vm_compute. reflexivity. Qed.

(** C50.  The timers of a loop fire in the order of their times: when the callback of one
    is called no other started timer has an earlier time.  Of timers at the same
    millisecond the one that ran least recently comes first. *)
Theorem timer_order us0 w0 acts s tr pos s' us w id :
  exec (init us0 w0) acts = Some (s, tr) -> step s (Iter pos) = Some (s', [EFire us w id]) ->
  exists t, get s id = Some t /\ started t = true /\
  forall j u, get s j = Some u -> started u = true -> fst (nxt t) * 1000 + snd (nxt t) / 1000 <= fst (nxt u) * 1000 + snd (nxt u) / 1000.
Proof. intros H Hs. exact (fire_first _ _ _ _ _ _ _ _ (inv_exec _ _ _ _ _ (inv_init us0 w0) H) Hs ltac:(cbn; auto)). Qed.
Print Assumptions timer_order.
Example timer_order_ex : exists s tr s', exec (init 0 zero) [Add 0; Add 0; Do true 0 0 (OStart 7); Do true 0 1 (OStart 5); Tick 9000; Begin] = Some (s, tr) /\ step s (Iter 0) = Some (s', [EFire 9000 zero 1]).
Proof. eexists _, _, _. split; [vm_compute; reflexivity|vm_compute; reflexivity]. Qed.

(** C50.  A due timer is not overlooked: a call of the processing function begins with a
    started timer whose time is the earliest, and ends only when the next timer is the
    one whose callback has just run, or when no started timer is due any more. *)
Theorem timer_due_found us0 w0 acts s tr j u pos :
  exec (init us0 w0) acts = Some (s, tr) -> proc s = None -> get s j = Some u -> started u = true -> fst (nxt u) * 1000 + snd (nxt u) / 1000 <= msec (now s) ->
  exists s' e id t, exec s [Begin; Iter pos] = Some (s', [e]) /\ (e = EFire (now s) (wall s) id \/ e = EExpire id) /\
  get s id = Some t /\ started t = true /\ fst (nxt t) * 1000 + snd (nxt t) / 1000 <= fst (nxt u) * 1000 + snd (nxt u) / 1000.
Proof. intros H. exact (due_found _ _ _ _ _ (inv_exec _ _ _ _ _ (inv_init us0 w0) H)). Qed.
Print Assumptions timer_due_found.
Example timer_due_ex : exists s tr, exec (init 0 zero) [Add 0; Do true 0 0 (OStart 7); Tick 7000] = Some (s, tr) /\ proc s = None /\
  exists u, get s 0 = Some u /\ started u = true /\ fst (nxt u) * 1000 + snd (nxt u) / 1000 = 7.
Proof. eexists _, _. split; [vm_compute; reflexivity|]. split; [reflexivity|]. eexists. vm_compute. split; [reflexivity|split; reflexivity]. Qed.

Theorem timer_process_end us0 w0 acts s tr pos s' :
  exec (init us0 w0) acts = Some (s, tr) -> step s (Iter pos) = Some (s', []) ->
  exists c l, proc s = Some (c, l) /\ proc s' = None /\
  ((exists k, l = Some k /\ hd_error (que s) = Some k) \/
   forall j u, get s' j = Some u -> started u = true -> fst c * 1000 + snd c / 1000 < fst (nxt u) * 1000 + snd (nxt u) / 1000).
Proof.
  intros H Hs. destruct (process_end _ _ _ _ (inv_exec _ _ _ _ _ (inv_init us0 w0) H) Hs) as (c & l & P & -> & K).
  exists c, l. split; [exact P|]. split; [reflexivity|]. destruct K as [K|K]; [left; exact K|right; exact K].
Qed.
Print Assumptions timer_process_end.
Example timer_process_end_ex : exists s tr s', exec (init 0 zero) [Add 0; Add 0; Do true 0 0 (OStart 7); Tick 2000; Begin] = Some (s, tr) /\ step s (Iter 0) = Some (s', []).
Proof. eexists _, _, _. split; [vm_compute; reflexivity|vm_compute; reflexivity]. Qed.

(** C50.  The time the event loop may sleep is the least remaining time of the started
    timers not executing; unlimited only if there is none. *)
Theorem timer_minimum us0 w0 acts s tr : exec (init us0 w0) acts = Some (s, tr) ->
  match minimum s with
  | Some m => (exists id t, get s id = Some t /\ started t = true /\ remaining (now s) t = m) /\
              forall j u, get s j = Some u -> exe u = false -> started u = true -> m <= remaining (now s) u
  | None => forall j u, get s j = Some u -> exe u = false -> started u = false
  end.
Proof. intros H. exact (minimum_spec _ _ (inv_exec _ _ _ _ _ (inv_init us0 w0) H)). Qed.
Print Assumptions timer_minimum.
Example timer_minimum_ex : exists s tr, exec (init 0 zero) [Add 0; Add 0; Do true 0 0 (OStart 7); Do true 0 1 (OStart 5); Tick 2000] = Some (s, tr) /\ minimum s = Some 3.
Proof. eexists _, _. split; [vm_compute; reflexivity|vm_compute; reflexivity]. Qed.

(** Every timer is queued exactly once unless its callback is running, and at most one is. *)
Theorem timer_queued us0 w0 acts s tr : exec (init us0 w0) acts = Some (s, tr) ->
  NoDup (que s) /\ (forall id, In id (que s) <-> exists t, get s id = Some t /\ running s <> Some id).
Proof.
  intros H. destruct (inv_exec _ _ _ _ _ (inv_init us0 w0) H) as (W & _). split; [exact (w_nodup _ _ W)|]. intros id. split.
  - intros Hi. destruct (w_que _ _ W id Hi) as (_ & t & Ht & Et). exists t. split; [exact Ht|]. intros R. destruct (w_run2 _ _ W id R) as (_ & (t' & Ht' & Et') & _). congruence.
  - intros (t & Ht & N). apply (w_all _ _ W id t); [discriminate|exact Ht|]. destruct (exe t) eqn:E; [|reflexivity]. destruct (N (w_run1 _ _ W id t ltac:(discriminate) Ht E)).
Qed.
Print Assumptions timer_queued.

(** ** What is missing is false of the code *)

(** A start that fails, here because of an interval of 0, leaves a running timer running
    with time zero: it fires at once, although it was started for 1000 ms. *)
Theorem timer_failed_start_refuted : exists acts s,
  exec (init 1000000 zero) acts = Some (s, [EAdd 0; EOp 1000000 zero 0 (OStart 1000) 1; EOp 1000000 zero 0 (OStart 0) 0; EFire 1000000 zero 0]).
Proof. exists [Add 0; Do true 0 0 (OStart 1000); Do true 0 0 (OStart 0); Begin; Iter 0]. eexists. vm_compute. reflexivity. Qed.

(** So does an absolute start more than 30 days ahead. *)
Theorem timer_far_start_refuted : exists acts s,
  exec (init 1000000 (1, 0)) acts = Some (s, [EAdd 0; EOp 1000000 (1, 0) 0 (OStart 1000) 1; EOp 1000000 (1, 0) 0 (OSetStart (Some (3000000, 0))) 1;
    EOp 1000000 (1, 0) 0 (OStart 1000) 0; EFire 1000000 (1, 0) 0]).
Proof. exists [Add 0; Do true 0 0 (OStart 1000); Do true 0 0 (OSetStart (Some (3000000, 0))); Do true 0 0 (OStart 1000); Begin; Iter 0]. eexists. vm_compute. reflexivity. Qed.

(** Restarted from its own callback with an absolute time of 60 s, it fires after 10 ms. *)
Theorem timer_start_in_callback_refuted : exists acts s,
  exec (init 0 zero) acts = Some (s, [EAdd 0; EOp 0 zero 0 (OStart 10) 1; EFire 10000 zero 0; EOp 10000 zero 0 (OSetStart (Some (60, 0))) 1;
    EOp 10000 zero 0 (OStart 10) 1; EBack 10000 0; EFire 20000 zero 0]).
Proof. exists [Add 0; Do true 0 0 (OStart 10); Tick 10000; Begin; Iter 0; Do true 0 0 (OSetStart (Some (60, 0))); Do true 0 0 (OStart 10); Back 0; Iter 0; Tick 10000; Begin; Iter 0]. eexists. vm_compute. reflexivity. Qed.

(** The absolute start of a running timer takes effect without a start: the timer of
    100 ms fires again after 10 ms. *)
Theorem timer_set_start_running_refuted : exists acts s,
  exec (init 0 (1, 0)) acts = Some (s, [EAdd 0; EOp 0 (1, 0) 0 (OStart 100) 1; EOp 0 (1, 0) 0 (OSetStart (Some (1, 10000))) 1;
    EFire 100000 (1, 0) 0; EBack 100000 0; EFire 110000 (1, 0) 0]).
Proof. exists [Add 0; Do true 0 0 (OStart 100); Do true 0 0 (OSetStart (Some (1, 10000))); Tick 100000; Begin; Iter 0; Back 0; Iter 0; Tick 10000; Begin; Iter 0]. eexists. vm_compute. reflexivity. Qed.

(** Started for 10 ms, it fires after 9001 microseconds. *)
Theorem timer_early_refuted : exists acts s,
  exec (init 999 zero) acts = Some (s, [EAdd 0; EOp 999 zero 0 (OStart 10) 1; EFire 10000 zero 0]).
Proof. exists [Add 0; Do true 0 0 (OStart 10); Tick 9001; Begin; Iter 0]. eexists. vm_compute. reflexivity. Qed.

(** M_event_timer_stop by another thread reads the timer after releasing the lock, when
    the event loop may have freed it. *)
Theorem timer_stop_race_refuted : exists acts s tr, exec (init 0 zero) acts = Some (s, tr ++ [EUaf 0]) /\ forall us w r, ~ In (EOp us w 0 ORemove r) tr.
Proof.
  exists [Add 0; Do true 0 0 (OSetAuto true); Do true 0 0 (OStart 5); Tick 5000; Begin; Iter 0; Do false 0 0 OStop; Back 0; Iter 0; Tail 0 0]. eexists.
  exists [EAdd 0; EOp 0 zero 0 (OSetAuto true) 1; EOp 0 zero 0 (OStart 5) 1; EFire 5000 zero 0; EOp 5000 zero 0 OStop 1; EBack 5000 0].
  split; [vm_compute; reflexivity|]. intros us w r H. cbn in H. intuition discriminate.
Qed.
Print Assumptions timer_stop_race_refuted.

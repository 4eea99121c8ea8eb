(** Invariants of the thread pool that hold under every schedule. *)
From Verif Require Import Base.Lib Base.Conc Threadpool.Model Threadpool.Spec.

(** ** Classes of program counters *)

(** holds queue_lock *)
Definition inq (p : pc) : nat := match p with
  | WTop _ | WFetchSig _ | WFetchOut _ | WIdleSig | WWait | WDec _ | WQuit | WExitDec | WExitOut
  | DSpawn _ _ _ _ | DTest _ _ _ _ | DSig _ _ _ | DWait _ _ _ | DDec _ _ _ | DOut _ _
  | ATest | AWait | ADec | ARelay | AOut | XDown | XTest | XWait | XOut => 1 | _ => 0 end.
Definition is (k r : nat) : nat := if (r =? k)%nat then 1 else 0.
(** holds the lock of parent [k] *)
Definition inp (k : nat) (p : pc) : nat := match p with
  | WPDec t | WPOut t => is k (fst t)
  | DAdd r _ | DPOut r _ | PTest r | PWait r | PClear r | POut r | KTest r | KOut r _ => is k r
  | _ => 0 end.
(** workers that count in num_threads *)
Definition live (p : pc) : nat := match p with
  | WLock | WTop _ | WFetchSig _ | WFetchOut _ | WStart _ | WRunning _ | WPLock _ | WPDec _ | WPOut _ | WIdleSig | WWait | WBlocked _
  | WWoken _ | WDec _ | WQuit | WExitLock | WExitDec => 1 | _ => 0 end.
Definition idle (p : pc) : nat := match p with WIdleSig | WWait | WBlocked _ | WWoken _ | WDec _ => 1 | _ => 0 end.
Definition iwait (p : pc) : nat := match p with
  | DWait _ _ _ | DBlocked _ _ _ | DWoken _ _ _ | DDec _ _ _ | AWait | ABlocked | AWoken | ADec => 1 | _ => 0 end.

(** [f] does not change when the thread is woken *)
Definition winv (f : pc -> nat) : Prop := (forall q, f (wake q) = f q) /\ f (WWoken true) = f (WBlocked true).

Ltac wi := split; [intros []; reflexivity | reflexivity].
Lemma inq_w : winv inq. Proof. wi. Qed.
Lemma inp_w k : winv (inp k). Proof. wi. Qed.
Lemma live_w : winv live. Proof. wi. Qed.
Lemma idle_w : winv idle. Proof. wi. Qed.
Lemma iwait_w : winv iwait. Proof. wi. Qed.

Definition spawned (e : effect) (f : pc -> nat) : nat := match e with Spawn => f WLock | _ => 0 end.

Lemma sumf_effect f e c l l' : winv f -> apply_effect e c l = Some l' -> sumf f l' = sumf f l + spawned e f.
Proof.
  intros [W _] H. destruct e as [|v|v|]; cbn [apply_effect spawned] in *.
  - injection H as <-. lia.
  - destruct (existsb _ l).
    + destruct (nth_error l c) as [q|] eqn:E; [|discriminate H]. destruct (waits_on v q); [|discriminate H]. injection H as <-.
      pose proof (sumf_upd f l c q (wake q) E) as U. rewrite W in U. lia.
    + injection H as <-. lia.
  - injection H as <-. rewrite sumf_map; [lia|]. intros x. destruct (waits_on v x); auto.
  - injection H as <-. rewrite sumf_app. cbn [sumf]. lia.
Qed.

(** What every step does to a sum over the threads. *)
Definition change (l l' : list pc) (p x : pc) (e : effect) : Prop :=
  forall f, winv f -> sumf f l' + f p = sumf f l + f x + spawned e f /\ f p <= sumf f l.

Lemma change_run l i p x e c l' : nth_error l i = Some p -> apply_effect e c (upd l i x) = Some l' -> change l l' p x e.
Proof.
  intros Hi H f W. pose proof (sumf_effect f e c _ _ W H). pose proof (sumf_upd f l i p x Hi). pose proof (sumf_ge f l i p Hi). lia.
Qed.

Section INV.
Variable cfg : config.

(** Induction over the steps: a property of the shared data, the sums over the
    threads and the trace is preserved if the thread steps, the calls and the
    wake-ups preserve it. *)
Lemma step_cases s a s' e : step cfg s a = Some (s', e) ->
  (exists i c p o, nth_error (threads s) i = Some p /\ run cfg (pl s) (parents s) i p c = Some o /\
     apply_effect (o_eff o) c (upd (threads s) i (o_pc o)) = Some (threads s') /\ a = Run i c /\
     pl s' = o_pl o /\ parents s' = o_pars o /\ e = o_ev o) \/
  (exists i o, nth_error (threads s) i = Some CIdle /\ allowed s o = true /\ threads s' = upd (threads s) i (entry o) /\ a = Call i o /\
     pl s' = pl s /\ parents s' = parents s /\ e = ECall i o :: match o with Dispatch _ [] => [ERet i o] | _ => [] end) \/
  (exists i q r, nth_error (threads s) i = Some q /\ is_blocked q = true /\ (r = wake q \/ q = WBlocked true /\ r = WWoken true /\ a = Timeout i) /\
     threads s' = upd (threads s) i r /\
     pl s' = pl s /\ parents s' = parents s /\ e = []).
Proof.
  destruct a as [i c|i o|i|i]; cbn [step]; intros H.
  - destruct (nth_error (threads s) i) as [p|] eqn:Hi; [|discriminate H]. destruct (run _ _ _ _ _ _) as [o|] eqn:Hr; [|discriminate H].
    destruct (apply_effect _ _ _) as [l|] eqn:Ha; [|discriminate H]. injection H as <- <-. left. exists i, c, p, o. cbn. auto 10.
  - destruct (nth_error (threads s) i) as [p|] eqn:Hi; [|discriminate H]. destruct p; try discriminate H.
    destruct (allowed s o) eqn:Ha; [|discriminate H]. injection H as <- <-. right. left. exists i, o. cbn. auto 10.
  - destruct (nth_error (threads s) i) as [p|] eqn:Hi; [|discriminate H]. destruct (is_blocked p) eqn:Ha; [|discriminate H]. injection H as <- <-.
    right. right. exists i, p, (wake p). cbn. auto 10.
  - destruct (nth_error (threads s) i) as [p|] eqn:Hi; [|discriminate H]. destruct p; try discriminate H. destruct timed; [|discriminate H].
    injection H as <- <-. right. right. exists i, (WBlocked true), (WWoken true). cbn. auto 10.
Qed.
End INV.

(** Takes a run apart: one goal per program counter and branch. *)
Ltac split_run H :=
  unfold run in H; cbn zeta in H;
  repeat match type of H with
  | (if ?b then _ else _) = Some _ => destruct b eqn:?; try discriminate H
  | match ?b with _ => _ end = Some _ => destruct b eqn:?; try discriminate H
  end; try discriminate H; injection H as <-; cbn [o_pl o_pars o_pc o_eff o_ev qm up freed nthr nidle waiters queue] in *.

(** ** The pool's counters *)
Record countok (cfg : config) (q : pool) (c_inq c_live c_idle c_iwait : nat) : Prop := mkco {
  co_qm : c_inq = b2n (qm q);
  co_thr : nthr q = c_live;
  co_max : (nthr q <= max_threads cfg)%nat;
  co_idle : nidle q = c_idle;
  co_wait : waiters q = c_iwait;
  co_queue : (N.of_nat (length (queue q)) <= queue_max cfg)%N }.

Definition counts (cfg : config) (s : state) : Prop :=
  let l := threads s in countok cfg (pl s) (sumf inq l) (sumf live l) (sumf idle l) (sumf iwait l).

Ltac use E f w := let X := fresh "X" in let G := fresh "G" in destruct (E f w) as [X G]; cbn [inq live idle iwait spawned] in X, G.

Lemma counts_run cfg q ps i p c o l l' : run cfg q ps i p c = Some o -> change l l' p (o_pc o) (o_eff o) ->
  countok cfg q (sumf inq l) (sumf live l) (sumf idle l) (sumf iwait l) ->
  countok cfg (o_pl o) (sumf inq l') (sumf live l') (sumf idle l') (sumf iwait l').
Proof.
  intros H E [C1 C2 C3 C4 C5 C6].
  destruct (E inq inq_w) as [X1 G1]. destruct (E live live_w) as [X2 G2]. destruct (E idle idle_w) as [X3 G3]. destruct (E iwait iwait_w) as [X4 G4].
  clear E. set (a1 := sumf inq l) in *. set (a2 := sumf live l) in *. set (a3 := sumf idle l) in *. set (a4 := sumf iwait l) in *.
  set (b1 := sumf inq l') in *. set (b2 := sumf live l') in *. set (b3 := sumf idle l') in *. set (b4 := sumf iwait l') in *.
  clearbody a1 a2 a3 a4 b1 b2 b3 b4.
  destruct q as [m u fr nt ni wt qu]. cbn [qm up freed nthr nidle waiters queue] in *.
  destruct p; split_run H.
  all: repeat match type of X1 with
       | context [if ?b then _ else _] => destruct b eqn:?
       | context [match ?a with [] => _ | _ :: _ => _ end] => destruct a end.
  all: cbn [inq live idle iwait spawned] in *.
  all: constructor; cbn [qm up freed nthr nidle waiters queue b2n] in *.
  all: try (clear - C6; assumption).
  all: try (clear - C1 X1 G1; destruct m; cbn [b2n] in *; lia).
  all: try (subst m; clear - C1 X1 G1; cbn [b2n] in *; lia).
  all: try (clear - C2 X2 G2; lia).
  all: try (clear - C3 C2 X2 G2; lia).
  all: try (clear - C4 X3 G3; lia).
  all: try (clear - C5 X4 G4; lia).
  - clear; cbn [length]. lia.
  - subst qu. clear - C6. cbn [length] in *. lia.
  - rewrite !andb_true_iff in *. rewrite Nat.ltb_lt in *. lia.
  - rewrite app_length. cbn [length]. rewrite andb_true_iff in *. rewrite N.ltb_lt in *. lia.
  - clear; cbn [length]. lia.
Qed.

Lemma sumf_same {A} (f : A -> nat) l i p x : nth_error l i = Some p -> f x = f p -> sumf f (upd l i x) = sumf f l.
Proof. intros Hi H. pose proof (sumf_upd f l i p x Hi). lia. Qed.

Lemma wake_same f l i q r : winv f -> nth_error l i = Some q -> r = wake q \/ q = WBlocked true /\ r = WWoken true -> sumf f (upd l i r) = sumf f l.
Proof. intros [W1 W2] Hi [->|[-> ->]]; eapply sumf_same; eauto. Qed.

Lemma counts_step cfg s a s' e : counts cfg s -> step cfg s a = Some (s', e) -> counts cfg s'.
Proof.
  intros C H. apply step_cases in H as [(i & c & p & o & Hi & Hr & Ha & _ & Hp & _)|[(i & o & Hi & _ & Ht & _ & Hp & _)|(i & q & r & Hi & _ & Hw & Ht & Hp & _)]].
  - unfold counts. rewrite Hp. eapply counts_run; [exact Hr| |exact C]. eapply change_run; eauto.
  - unfold counts. rewrite Hp, Ht. rewrite !(sumf_same _ _ _ _ _ Hi) by (destruct o as [? []| | | |]; reflexivity). exact C.
  - unfold counts. rewrite Hp, Ht. assert (Hw' : r = wake q \/ q = WBlocked true /\ r = WWoken true) by tauto.
    rewrite !(fun f w => wake_same f _ _ _ _ w Hi Hw'); auto using inq_w, live_w, idle_w, iwait_w.
Qed.

(** ** Where the tasks are *)
Definition num (k : nat) (l : list task) : nat := sumf (fun t => is k (fst t)) l.

(** tasks of parent [k] that count in its tasks_remaining *)
Definition held (k : nat) (p : pc) : nat := match p with
  | DPOut r all | DQLock r all => if (r =? k)%nat then length all else 0
  | DSpawn r _ a _ | DTest r _ a _ | DSig r _ a | DWait r _ a | DBlocked r _ a | DWoken r _ a | DDec r _ a => if (r =? k)%nat then length a else 0
  | WFetchSig t | WFetchOut t | WStart t | WRunning t | WPLock t | WPDec t => is k (fst t)
  | _ => 0 end.
Definition of (r : nat) (a : list N) : list task := map (fun x => (r, x)) a.
(** [t] in a call, still to be inserted *)
Definition pend (t : task) (p : pc) : nat := match p with
  | DLock r all | DAdd r all | DPOut r all | DQLock r all => times t (of r all)
  | DSpawn r _ a _ | DTest r _ a _ | DSig r _ a | DWait r _ a | DBlocked r _ a | DWoken r _ a | DDec r _ a => times t (of r a)
  | _ => 0 end.
(** [t] in a worker, not completed *)
Definition inwork (t : task) (p : pc) : nat := match p with
  | WFetchSig u | WFetchOut u | WStart u | WRunning u => times t [u] | _ => 0 end.
Definition running (t : task) (p : pc) : nat := match p with WRunning u => times t [u] | _ => 0 end.
(** [t] in a call that has not returned *)
Definition calling (t : task) (p : pc) : nat := match p with
  | DLock r all | DAdd r all | DPOut r all | DQLock r all
  | DSpawn r all _ _ | DTest r all _ _ | DSig r all _ | DWait r all _ | DBlocked r all _ | DWoken r all _ | DDec r all _ | DOut r all => times t (of r all)
  | _ => 0 end.

Lemma held_w k : winv (held k). Proof. wi. Qed.
Lemma pend_w t : winv (pend t). Proof. wi. Qed.
Lemma inwork_w t : winv (inwork t). Proof. wi. Qed.
Lemma running_w t : winv (running t). Proof. wi. Qed.
Lemma calling_w t : winv (calling t). Proof. wi. Qed.

(** A dispatch has something to insert until it is done. *)
Definition emptyd (p : pc) : nat := match p with
  | DLock _ [] | DAdd _ [] | DPOut _ [] | DQLock _ [] | DSpawn _ _ [] _ | DTest _ _ [] _ | DWait _ _ [] | DBlocked _ _ [] | DWoken _ _ [] | DDec _ _ [] => 1
  | _ => 0 end.
Lemma emptyd_w : winv emptyd. Proof. wi. Qed.

Record acct (q : pool) (ps : list parent) (l : list pc) (tr : list event) (dl : list task) : Prop := mkac {
  ac_drop : freed q = false -> dl = [];
  ac_rem : forall k r, nth_error ps k = Some r -> remaining r = sumf (held k) l + num k (queue q) + num k dl;
  ac_disp : forall t, dispatched t tr = sumf (pend t) l + times t (queue q) + sumf (inwork t) l + completed t tr + times t dl;
  ac_start : forall t, started t tr = sumf (running t) l + completed t tr;
  ac_ret : forall t, dispatched t tr = returned t tr + sumf (calling t) l;
  ac_fifo : inserts tr = fetches tr ++ queue q ++ dl;
  ac_empty : sumf emptyd l = 0 }.

Lemma num_app k a b : num k (a ++ b) = num k a + num k b. Proof. apply sumf_app. Qed.
Lemma times_app t a b : times t (a ++ b) = times t a + times t b.
Proof. induction a as [|u a IH]; cbn [times app]; [reflexivity|]. lia. Qed.
Lemma dispatched_app t a b : dispatched t (a ++ b) = dispatched t a + dispatched t b.
Proof. unfold dispatched. now rewrite map_app, list_sum_app. Qed.
Lemma returned_app t a b : returned t (a ++ b) = returned t a + returned t b.
Proof. unfold returned. now rewrite map_app, list_sum_app. Qed.
Lemma started_app t a b : started t (a ++ b) = started t a + started t b.
Proof. unfold started. now rewrite map_app, list_sum_app. Qed.
Lemma completed_app t a b : completed t (a ++ b) = completed t a + completed t b.
Proof. unfold completed. now rewrite map_app, list_sum_app. Qed.
Lemma inserts_app a b : inserts (a ++ b) = inserts a ++ inserts b.
Proof. induction a as [|[] a IH]; cbn [inserts app]; auto. now rewrite IH. Qed.
Lemma fetches_app a b : fetches (a ++ b) = fetches a ++ fetches b.
Proof. induction a as [|[] a IH]; cbn [fetches app]; auto. now rewrite IH. Qed.

Lemma nth_upd {A} (l : list A) i x j y : nth_error (upd l i x) j = Some y -> (j = i /\ y = x) \/ (j <> i /\ nth_error l j = Some y).
Proof.
  intros H. destruct (Nat.eq_dec j i) as [->|N].
  - left. split; auto. assert (i < length l).
    { assert (i < length (upd l i x)) by (apply nth_error_Some; congruence). now rewrite length_upd in *. }
    rewrite nth_error_upd_eq in H by auto. congruence.
  - right. split; auto. now rewrite nth_error_upd_ne in H by auto.
Qed.

Ltac split_out X :=
  repeat match type of X with
  | context [if ?b then _ else _] => destruct b eqn:?
  | context [match ?a with [] => _ | _ :: _ => _ end] => destruct a eqn:? end.

(** An unchanged sum. *)
Ltac same X := match type of X with (?b + _ = ?a + _ + _)%nat => first [is_var b; assert (b = a) by (clear - X; lia); subst b; clear X | idtac] end.

(** ** Destruction of the pool *)
Definition xs (p : pc) : nat := b2n (destroys_pool p).
Definition us (p : pc) : nat := b2n (uses_pool p).
Definition xdown (p : pc) : nat := match p with XTest | XWait | XBlocked | XWoken | XOut | XFree => 1 | _ => 0 end.
Definition xout (p : pc) : nat := match p with XOut | XFree => 1 | _ => 0 end.
Definition wexit (p : pc) : nat := match p with WExitOut => 1 | _ => 0 end.
Definition inqrest (p : pc) : nat := inq p - wexit p.
Lemma xs_w : winv xs. Proof. wi. Qed.
Lemma us_w : winv us. Proof. wi. Qed.
Lemma xdown_w : winv xdown. Proof. wi. Qed.
Lemma xout_w : winv xout. Proof. wi. Qed.
Lemma wexit_w : winv wexit. Proof. wi. Qed.
Lemma inqrest_w : winv inqrest. Proof. wi. Qed.

Record down (q : pool) (c_x c_u c_xd c_xo c_live c_we : nat) : Prop := mkdn {
  dn_one : (c_x <= 1)%nat;
  dn_excl : (0 < c_x)%nat -> c_u = 0%nat;
  dn_freed : freed q = true -> c_x = 0%nat /\ c_u = 0%nat /\ queue q = [];
  dn_gone : (0 < c_xo)%nat \/ freed q = true -> c_live = 0%nat /\ c_we = 0%nat;
  dn_up : up q = false <-> (0 < c_xd)%nat \/ freed q = true }.

Definition downs (s : state) : Prop :=
  let l := threads s in down (pl s) (sumf xs l) (sumf us l) (sumf xdown l) (sumf xout l) (sumf live l) (sumf wexit l).

Lemma downs_run cfg q ps i p c o l l' : run cfg q ps i p c = Some o -> change l l' p (o_pc o) (o_eff o) ->
  sumf inq l = b2n (qm q) -> nthr q = sumf live l ->
  down q (sumf xs l) (sumf us l) (sumf xdown l) (sumf xout l) (sumf live l) (sumf wexit l) ->
  down (o_pl o) (sumf xs l') (sumf us l') (sumf xdown l') (sumf xout l') (sumf live l') (sumf wexit l').
Proof.
  intros H E Q T [D1 D2 D3 D4 D5].
  destruct (E xs xs_w) as [X1 G1]. destruct (E us us_w) as [X2 G2]. destruct (E xdown xdown_w) as [X3 G3]. destruct (E xout xout_w) as [X4 G4].
  destruct (E live live_w) as [X5 G5]. destruct (E wexit wexit_w) as [X6 G6]. destruct (E inqrest inqrest_w) as [_ G7]. clear E.
  assert (R : sumf inqrest l + sumf wexit l = sumf inq l) by (apply sumf_add; intros []; reflexivity).
  assert (O1 : sumf xdown l <= sumf xs l) by (apply sumf_le; intros []; cbn; lia).
  assert (O2 : sumf xout l <= sumf xdown l) by (apply sumf_le; intros []; cbn; lia).
  assert (B : b2n (qm q) <= 1) by (destruct (qm q); cbn; lia).
  set (a0 := sumf inq l) in *. set (a1 := sumf xs l) in *. set (a2 := sumf us l) in *. set (a3 := sumf xdown l) in *. set (a4 := sumf xout l) in *.
  set (a5 := sumf live l) in *. set (a6 := sumf wexit l) in *. set (a7 := sumf inqrest l) in *.
  set (b1 := sumf xs l') in *. set (b2 := sumf us l') in *. set (b3 := sumf xdown l') in *. set (b4 := sumf xout l') in *.
  set (b5 := sumf live l') in *. set (b6 := sumf wexit l') in *.
  clearbody a0 a1 a2 a3 a4 a5 a6 a7 b1 b2 b3 b4 b5 b6.
  destruct q as [m u fr nt ni wt qu]. cbn [qm up freed nthr nidle waiters queue] in *.
  destruct p; split_run H; split_out X1.
  all: cbv [xs us b2n destroys_pool uses_pool] in X1, G1, X2, G2; cbn [xdown xout live wexit inqrest inq spawned Nat.sub] in *.
  all: constructor; cbn [qm up freed nthr nidle waiters queue] in *.
  all: try (clear - D1 D2 D3 X1 G1 X2 G2; lia).
  all: try same X1; try same X2; try same X3; try same X4; try same X5; try same X6.
  all: try assumption.
  all: try (clear - D4 X5 X6 G5; intuition lia).
  all: try (clear - D3 X1 X2 G1 G2; intuition (congruence || lia)).
  - intros F. destruct (D3 F) as (? & ? & ?). auto.
  - intros F. destruct (D4 (or_intror F)). lia.
  - intros F. destruct (D4 F). lia.
  - intros F. exfalso. assert (a2 = 0); [|lia]. destruct F as [F|F]; [apply D2; lia|apply D3; auto].
  - split; auto. intros _. left. lia.
  - intros _. apply Nat.eqb_eq in Heqb. lia.
  - intros _. split; [lia|]. split; [apply D2; lia|reflexivity].
  - intros _. apply D4. left. lia.
  - split; auto. intros _. apply D5. left. lia.
Qed.

Lemma existsb_sumf (f : pc -> bool) l : existsb f l = false -> sumf (fun p => b2n (f p)) l = 0.
Proof. induction l as [|z l IH]; cbn [existsb sumf]; intros H; [reflexivity|]. apply orb_false_iff in H as [-> H]. cbn [b2n]. auto. Qed.

Definition touches_pool (o : op) : bool := match o with Dispatch _ _ | WaitAvail | Destroy => true | _ => false end.

Lemma downs_step cfg s a s' e : counts cfg s -> downs s -> step cfg s a = Some (s', e) -> downs s'.
Proof.
  intros C D H. apply step_cases in H as [(i & c & p & o & Hi & Hr & Ha & _ & Hp & _)|[(i & o & Hi & Al & Ht & _ & Hp & _)|(i & q & r & Hi & _ & Hw & Ht & Hp & _)]].
  - unfold downs. rewrite Hp. eapply downs_run; [exact Hr| |apply C|apply C|exact D]. eapply change_run; eauto.
  - unfold downs. rewrite Hp, Ht. rewrite !(sumf_same live _ _ _ _ Hi), !(sumf_same wexit _ _ _ _ Hi), !(sumf_same xdown _ _ _ _ Hi), !(sumf_same xout _ _ _ _ Hi)
      by (destruct o as [? []| | | |]; reflexivity).
    pose proof (sumf_upd xs _ _ _ (entry o) Hi) as X. pose proof (sumf_upd us _ _ _ (entry o) Hi) as U.
    assert (N1 : touches_pool o = true -> freed (pl s) = false /\ sumf xs (threads s) = 0).
    { intros N. unfold touches_pool in N. unfold allowed in Al. destruct o; try discriminate N; rewrite ?andb_true_iff, ?negb_true_iff in Al;
        (split; [tauto|apply (existsb_sumf destroys_pool); tauto]). }
    assert (N2 : o = Destroy -> sumf us (threads s) = 0).
    { intros ->. unfold allowed in Al. rewrite ?andb_true_iff, ?negb_true_iff in Al. apply (existsb_sumf uses_pool); tauto. }
    clear Al. destruct D as [D1 D2 D3 D4 D5].
    set (a1 := sumf xs (threads s)) in *. set (a2 := sumf us (threads s)) in *.
    set (b1 := sumf xs (upd _ _ _)) in *. set (b2 := sumf us (upd _ _ _)) in *. clearbody a1 a2 b1 b2.
    destruct o as [k [|z a0]|k| |k|]; cbn [touches_pool] in *; cbn [entry xs us destroys_pool uses_pool b2n] in X, U;
      try (assert (b1 = a1) by lia; subst b1); try (assert (b2 = a2) by lia; subst b2);
      try (constructor; assumption); destruct (N1 eq_refl) as [F N]; constructor; try assumption; try congruence; try lia.
  - unfold downs. rewrite Hp, Ht. assert (Hw' : r = wake q \/ q = WBlocked true /\ r = WWoken true) by tauto.
    rewrite !(fun f w => wake_same f _ _ _ _ w Hi Hw'); auto using xs_w, us_w, xdown_w, xout_w, live_w, wexit_w.
Qed.

(** Who still uses the pool when its memory has been given back: nobody. *)
Lemma freed_unused s i p : downs s -> freed (pl s) = true -> nth_error (threads s) i = Some p -> live p = 0 /\ us p = 0 /\ xs p = 0 /\ wexit p = 0.
Proof.
  intros D F Hi. destruct (dn_freed _ _ _ _ _ _ _ D F) as (A & B & _). destruct (dn_gone _ _ _ _ _ _ _ D (or_intror F)) as [C E].
  pose proof (sumf_ge live _ _ _ Hi). pose proof (sumf_ge us _ _ _ Hi). pose proof (sumf_ge xs _ _ _ Hi). pose proof (sumf_ge wexit _ _ _ Hi). lia.
Qed.

(** ** Tasks *)
Lemma acct_run cfg q ps i p c o l l' tr dl : run cfg q ps i p c = Some o -> change l l' p (o_pc o) (o_eff o) ->
  (freed q = true -> us p = 0 /\ xs p = 0 /\ queue q = []) ->
  acct q ps l tr dl -> exists dl', acct (o_pl o) (o_pars o) l' (tr ++ o_ev o) dl'.
Proof.
  intros H E F [A1 A2 A3 A4 A5 A6 A7].
  destruct (E emptyd emptyd_w) as [X0 G0].
  assert (E1 : forall k, sumf (held k) l' + held k p = sumf (held k) l + held k (o_pc o) + 0 /\ held k p <= sumf (held k) l)
    by (intros k; destruct (E (held k) (held_w k)); destruct (o_eff o); cbn in *; lia).
  assert (E2 : forall t, sumf (pend t) l' + pend t p = sumf (pend t) l + pend t (o_pc o) /\ pend t p <= sumf (pend t) l)
    by (intros t; destruct (E (pend t) (pend_w t)); destruct (o_eff o); cbn in *; lia).
  assert (E3 : forall t, sumf (inwork t) l' + inwork t p = sumf (inwork t) l + inwork t (o_pc o) /\ inwork t p <= sumf (inwork t) l)
    by (intros t; destruct (E (inwork t) (inwork_w t)); destruct (o_eff o); cbn in *; lia).
  assert (E4 : forall t, sumf (running t) l' + running t p = sumf (running t) l + running t (o_pc o) /\ running t p <= sumf (running t) l)
    by (intros t; destruct (E (running t) (running_w t)); destruct (o_eff o); cbn in *; lia).
  assert (E5 : forall t, sumf (calling t) l' + calling t p = sumf (calling t) l + calling t (o_pc o) /\ calling t p <= sumf (calling t) l)
    by (intros t; destruct (E (calling t) (calling_w t)); destruct (o_eff o); cbn in *; lia).
  clear E.
  destruct q as [m u fr nt ni wt qu]. cbn [qm up freed nthr nidle waiters queue] in *.
  exists (match p with XFree => qu | _ => dl end).
  destruct p; split_run H; split_out X0; try subst qu.
  all: constructor; cbn [qm up freed nthr nidle waiters queue] in *.
  (* dropped *)
  all: try exact A1.
  (* tasks_remaining *)
  all: try match goal with |- forall k r, nth_error _ k = Some r -> _ => 
    let k := fresh "k" in let r := fresh "r" in let Hr := fresh "Hr" in
    intros k r Hr; clear A3 A4 A5 A6 A7 E2 E3 E4 E5 X0 G0; specialize (E1 k); cbn [held] in E1;
    try (apply nth_upd in Hr as [[-> ->]|[? Hr]]; [match goal with Hr : nth_error _ _ = Some _ |- _ => pose proof (A2 _ _ Hr) end; clear A2; cbn [remaining] in *; rewrite ?Nat.eqb_refl in *|]);
    try specialize (A2 _ _ Hr); unfold is in *; rewrite ?Nat.eqb_refl in *;
    solve [lia | rewrite ?(proj2 (Nat.eqb_neq _ _)) in E1 by auto; lia] end.
  (* conservation *)
  all: try match goal with |- forall t, dispatched t _ = _ + sumf (inwork _) _ + _ + _ =>
    let t := fresh "t" in intros t; clear A2 A4 A5 A6 A7 E1 E4 E5 X0 G0; specialize (E2 t); specialize (E3 t); specialize (A3 t);
    rewrite dispatched_app, completed_app; cbn [pend inwork dispatched completed map list_sum fold_right] in *; solve [lia] end.
  all: try match goal with |- forall t, started t _ = _ =>
    let t := fresh "t" in intros t; clear A2 A3 A5 A6 A7 E1 E2 E3 E5 X0 G0; specialize (E4 t); specialize (A4 t);
    rewrite started_app, completed_app; cbn [running started completed map list_sum fold_right] in *; solve [lia] end.
  all: try match goal with |- forall t, dispatched t _ = returned _ _ + _ =>
    let t := fresh "t" in intros t; clear A2 A3 A4 A6 A7 E1 E2 E3 E4 X0 G0; specialize (E5 t); specialize (A5 t);
    rewrite dispatched_app, returned_app; cbn [calling dispatched returned map list_sum fold_right tasks_of times] in *; unfold of in *; solve [lia] end.
  all: try match goal with |- inserts _ = _ =>
    rewrite inserts_app, fetches_app; cbn [inserts fetches]; rewrite ?app_nil_r; solve [exact A6] end.
  all: try match goal with |- sumf emptyd _ = 0 => cbn [emptyd spawned] in X0, G0; clear - A7 X0 G0; solve [lia] end.
  - intros k r Hr. specialize (E1 k). cbn [held] in E1. specialize (A2 _ _ Hr). unfold num in *. cbn [sumf] in A2. lia.
  - intros u0. specialize (E2 u0). specialize (E3 u0). specialize (A3 u0). rewrite dispatched_app, completed_app.
    cbn [pend inwork dispatched completed map list_sum fold_right times] in *. lia.
  - rewrite inserts_app, fetches_app. cbn [inserts fetches]. rewrite app_nil_r, <- app_assoc. exact A6.
  - intros k r Hr. specialize (E1 k). cbn [held] in E1. specialize (A2 _ _ Hr). rewrite num_app. unfold num in *. cbn [sumf fst].
    replace (is k p) with (if (p =? k)%nat then 1 else 0) by reflexivity. destruct (p =? k); cbn [length] in *; lia.
  - intros u0. specialize (E2 u0). specialize (E3 u0). specialize (A3 u0). rewrite dispatched_app, completed_app, times_app.
    cbn [pend inwork dispatched completed map list_sum fold_right times of] in *. fold (of p l0) in *. lia.
  - rewrite inserts_app, fetches_app. cbn [inserts fetches]. rewrite app_nil_r. 
    assert (dl = []) as ->. { destruct fr; auto. destruct (F eq_refl) as [F1 _]. discriminate F1. }
    rewrite !app_nil_r in *. rewrite A6, app_assoc. reflexivity.
  - intros k r Hr. specialize (E1 k). cbn [held length] in E1. specialize (A2 _ _ Hr). destruct (p =? k); lia.
  - intros u0. specialize (E2 u0). specialize (E3 u0). specialize (A3 u0). rewrite dispatched_app, completed_app.
    cbn [pend inwork dispatched completed map list_sum fold_right times of] in *. lia.
  - discriminate.
  - assert (dl = []) as ->. { destruct fr; auto. destruct (F eq_refl) as (_ & F1 & _). discriminate F1. }
    intros k r Hr. specialize (E1 k). cbn [held length] in E1. specialize (A2 _ _ Hr). unfold num in *. cbn [sumf] in *. lia.
  - assert (dl = []) as ->. { destruct fr; auto. destruct (F eq_refl) as (_ & F1 & _). discriminate F1. }
    intros u0. specialize (E2 u0). specialize (E3 u0). specialize (A3 u0). rewrite dispatched_app, completed_app.
    cbn [pend inwork dispatched completed map list_sum fold_right times tasks_of] in *. lia.
  - assert (dl = []) as ->. { destruct fr; auto. destruct (F eq_refl) as (_ & F1 & _). discriminate F1. }
    rewrite inserts_app, fetches_app. cbn [inserts fetches]. rewrite !app_nil_r in *. exact A6.
Qed.

Definition accts (s : state) (tr : list event) : Prop := exists dl, acct (pl s) (parents s) (threads s) tr dl.

Lemma accts_step cfg s a s' e tr : downs s -> accts s tr -> step cfg s a = Some (s', e) -> accts s' (tr ++ e).
Proof.
  intros D [dl A] H.
  apply step_cases in H as [(i & c & p & o & Hi & Hr & Ha & _ & Hp & Hq & He)|[(i & o & Hi & Al & Ht & _ & Hp & Hq & He)|(i & q & r & Hi & _ & Hw & Ht & Hp & Hq & He)]].
  - unfold accts. rewrite Hp, Hq, He. eapply acct_run; [exact Hr|eapply change_run; eauto| |exact A].
    intros F. destruct (freed_unused s i p D F Hi) as (_ & A1 & A2 & _). destruct (dn_freed _ _ _ _ _ _ _ D F) as (_ & _ & A3). auto.
  - exists dl. rewrite Hp, Hq, He, Ht. destruct A as [A1 A2 A3 A4 A5 A6 A7].
    constructor; auto.
    + intros k r Hr. rewrite (sumf_same (held k) _ _ _ _ Hi); auto. destruct o as [? []| | | |]; reflexivity.
    + intros t. rewrite (sumf_same (inwork t) _ _ _ _ Hi) by (destruct o as [? []| | | |]; reflexivity).
      pose proof (sumf_upd (pend t) _ _ _ (entry o) Hi) as X. specialize (A3 t). rewrite dispatched_app, completed_app.
      destruct o as [? []| | | |]; cbn [pend entry dispatched completed map list_sum fold_right tasks_of times of] in *; unfold of in *; lia.
    + intros t. rewrite (sumf_same (running t) _ _ _ _ Hi) by (destruct o as [? []| | | |]; reflexivity).
      specialize (A4 t). rewrite started_app, completed_app. destruct o as [? []| | | |]; cbn [started completed map list_sum fold_right] in *; lia.
    + intros t. pose proof (sumf_upd (calling t) _ _ _ (entry o) Hi) as X. specialize (A5 t). rewrite dispatched_app, returned_app.
      destruct o as [? []| | | |]; cbn [calling entry dispatched returned map list_sum fold_right tasks_of times of] in *; unfold of in *; lia.
    + rewrite inserts_app, fetches_app. destruct o as [? []| | | |]; cbn [inserts fetches]; rewrite !app_nil_r; exact A6.
    + rewrite (sumf_same emptyd _ _ _ _ Hi); auto. destruct o as [? []| | | |]; reflexivity.
  - exists dl. rewrite Hp, Hq, He, Ht, app_nil_r. assert (Hw' : r = wake q \/ q = WBlocked true /\ r = WWoken true) by tauto.
    destruct A as [A1 A2 A3 A4 A5 A6 A7]. 
    constructor; intros; rewrite ?(fun f w => wake_same f _ _ _ _ w Hi Hw'); auto using held_w, pend_w, inwork_w, running_w, calling_w, emptyd_w.
Qed.

(** ** Destruction of a parent *)
Definition kds (k : nat) (p : pc) : nat := b2n (destroys_parent k p).
Definition kus (k : nat) (p : pc) : nat := b2n (uses_parent k p).
Definition kok (k : nat) (p : pc) : nat := match p with KOut r true => is k r | _ => 0 end.
Definition wpout (k : nat) (p : pc) : nat := match p with WPOut t => is k (fst t) | _ => 0 end.
Definition inprest (k : nat) (p : pc) : nat := inp k p - wpout k p.
Lemma kds_w k : winv (kds k). Proof. wi. Qed.
Lemma kus_w k : winv (kus k). Proof. wi. Qed.
Lemma kok_w k : winv (kok k). Proof. wi. Qed.
Lemma wpout_w k : winv (wpout k). Proof. wi. Qed.
Lemma inprest_w k : winv (inprest k). Proof. wi. Qed.

Record parok (r : parent) (c_p c_k c_u c_o c_w : nat) : Prop := mkpo {
  po_pm : c_p = b2n (pm r);
  po_one : (c_k <= 1)%nat;
  po_excl : (0 < c_k)%nat -> c_u = 0%nat /\ dead r = false;
  po_dead : dead r = true -> c_k = 0%nat /\ c_u = 0%nat;
  po_rem : (0 < c_o)%nat \/ dead r = true -> remaining r = 0%nat /\ c_w = 0%nat }.

Definition pars (s : state) : Prop := forall k r, nth_error (parents s) k = Some r ->
  let l := threads s in parok r (sumf (inp k) l) (sumf (kds k) l) (sumf (kus k) l) (sumf (kok k) l) (sumf (wpout k) l).

Lemma pars_run cfg q ps i p c o l l' k r r' : run cfg q ps i p c = Some o -> change l l' p (o_pc o) (o_eff o) ->
  nth_error ps k = Some r -> nth_error (o_pars o) k = Some r' -> sumf (held k) l <= remaining r ->
  parok r (sumf (inp k) l) (sumf (kds k) l) (sumf (kus k) l) (sumf (kok k) l) (sumf (wpout k) l) ->
  parok r' (sumf (inp k) l') (sumf (kds k) l') (sumf (kus k) l') (sumf (kok k) l') (sumf (wpout k) l').
Proof.
  intros H E Hr Hr' Hh [D1 D2 D3 D4 D5].
  destruct (E (inp k) (inp_w k)) as [X1 G1]. destruct (E (kds k) (kds_w k)) as [X2 G2]. destruct (E (kus k) (kus_w k)) as [X3 G3].
  destruct (E (kok k) (kok_w k)) as [X4 G4]. destruct (E (wpout k) (wpout_w k)) as [X5 G5]. destruct (E (held k) (held_w k)) as [_ G6].
  destruct (E (inprest k) (inprest_w k)) as [_ G7]. clear E.
  assert (R : sumf (inprest k) l + sumf (wpout k) l = sumf (inp k) l).
  { apply sumf_add; intros []; try reflexivity; unfold inprest; cbn [inp wpout]; lia. }
  assert (O1 : sumf (kok k) l <= sumf (kds k) l).
  { apply sumf_le; intros []; cbn; try lia. unfold kds, is. cbn. destruct ok, (p0 =? k); cbn; lia. }
  assert (B : b2n (pm r) <= 1) by (destruct (pm r); cbn; lia).
  set (a1 := sumf (inp k) l) in *. set (a2 := sumf (kds k) l) in *. set (a3 := sumf (kus k) l) in *. set (a4 := sumf (kok k) l) in *.
  set (a5 := sumf (wpout k) l) in *. set (a6 := sumf (held k) l) in *. set (a7 := sumf (inprest k) l) in *.
  set (b1 := sumf (inp k) l') in *. set (b2 := sumf (kds k) l') in *. set (b3 := sumf (kus k) l') in *. set (b4 := sumf (kok k) l') in *.
  set (b5 := sumf (wpout k) l') in *.
  clearbody a1 a2 a3 a4 a5 a6 a7 b1 b2 b3 b4 b5.
  destruct q as [m u fr nt ni wt qu]. cbn [qm up freed nthr nidle waiters queue] in *.
  destruct p; split_run H; split_out X1.
  all: cbv [kds kus kok wpout inp inprest is destroys_parent uses_parent held spawned] in *.
  all: try (apply nth_upd in Hr' as [[-> ->]|[? Hr']]; [|assert (r' = r) by congruence; subst r']).
  all: try (assert (r' = r) by congruence; subst r').
  all: try match goal with N : ?k <> ?j |- _ => rewrite (proj2 (Nat.eqb_neq j k)) in * by congruence end.
  all: rewrite ?Nat.eqb_refl in *.
  all: cbn [b2n pm waiting remaining dead Nat.sub] in *.
  all: try match type of G3 with context [(?j =? ?k)%nat] => destruct (j =? k)%nat eqn:? end.
  all: try match type of G6 with context [(?j =? ?k)%nat] => destruct (j =? k)%nat eqn:? end.
  all: try match type of G7 with context [(?j =? ?k)%nat] => destruct (j =? k)%nat eqn:? end.
  all: cbn [b2n Nat.sub] in *.
  all: try same X1; try same X2; try same X3; try same X4; try same X5.
  all: try (constructor; assumption).
  all: try match goal with A : nth_error ?x ?y = Some ?u, B : nth_error ?x ?y = Some ?v |- _ => tryif constr_eq u v then fail else (assert (v = u) by congruence; subst v; clear B) end.
  all: constructor; cbn [pm waiting remaining dead b2n] in *; try assumption.
  all: try match goal with F : pm _ = false |- _ => rewrite F in * end; cbn [b2n] in *; try lia.
  all: try match goal with |- _ = 0 => solve [match type of D1 with _ = b2n ?z => destruct z; cbn [b2n] in *; lia end] end.
  - intros F. exfalso. destruct F as [F|F]; [destruct (D3 ltac:(lia))|destruct (D4 F)]; lia.
  - (* KTest *) apply Nat.eqb_eq in Heqb. subst p. assert (p0 = r) by congruence. subst p0.
    intros F. split; [|lia]. destruct (remaining r =? 0)%nat eqn:Z; [now apply Nat.eqb_eq|]. apply D5. destruct F as [F|F]; [left; lia|auto].
  - intros F. apply D5. destruct F as [F|F]; [|auto]. left. destruct (remaining p0 =? 0)%nat; lia.
  - intros F. apply D5. destruct ok; cbn [orb] in F; [left; lia|]. destruct F as [F|F]; [left; lia|auto].
  - intros F. apply D5. destruct F as [F|F]; [|auto]. left. destruct ok; lia.
Qed.

Lemma run_pars_len cfg q ps i p c o : run cfg q ps i p c = Some o -> length (o_pars o) = length ps.
Proof. intros H. destruct p; split_run H; rewrite ?length_upd; reflexivity. Qed.

Lemma pars_step cfg s a s' e tr : accts s tr -> pars s -> step cfg s a = Some (s', e) -> pars s'.
Proof.
  intros [dl A] P H k r' Hr'.
  apply step_cases in H as [(i & c & p & o & Hi & Hr & Ha & _ & Hp & Hq & He)|[(i & o & Hi & Al & Ht & _ & Hp & Hq & He)|(i & q & r & Hi & _ & Hw & Ht & Hp & Hq & He)]].
  - cbv zeta. rewrite Hq in Hr'. assert (exists r, nth_error (parents s) k = Some r) as [r Hk].
    { destruct (nth_error (parents s) k) eqn:E; eauto. apply nth_error_None in E. pose proof (run_pars_len _ _ _ _ _ _ _ Hr).
      assert (nth_error (o_pars o) k = None) by (apply nth_error_None; lia). congruence. }
    eapply pars_run; [exact Hr|eapply change_run; eauto|exact Hk|exact Hr'| |exact (P k r Hk)].
    rewrite (ac_rem _ _ _ _ _ A k r Hk). lia.
  - cbv zeta. rewrite Hq in Hr'. rewrite Ht. specialize (P k r' Hr'). cbv zeta in P.
    rewrite (sumf_same (inp k) _ _ _ _ Hi), (sumf_same (kok k) _ _ _ _ Hi), (sumf_same (wpout k) _ _ _ _ Hi) by (destruct o as [? []| | | |]; reflexivity).
    pose proof (sumf_upd (kds k) _ _ _ (entry o) Hi) as X. pose proof (sumf_upd (kus k) _ _ _ (entry o) Hi) as U.
    assert (N1 : match o with Dispatch j _ | Wait j | ParentDestroy j => j = k | _ => False end -> dead r' = false /\ sumf (kds k) (threads s) = 0).
    { intros N. unfold allowed in Al. destruct o; try contradiction; subst; rewrite Hr' in Al; rewrite ?andb_true_iff, ?negb_true_iff in Al;
        (split; [tauto|apply (existsb_sumf (destroys_parent k)); tauto]). }
    assert (N2 : o = ParentDestroy k -> sumf (kus k) (threads s) = 0).
    { intros ->. unfold allowed in Al. rewrite ?andb_true_iff, ?negb_true_iff in Al. apply (existsb_sumf (uses_parent k)); tauto. }
    clear Al. destruct P as [D1 D2 D3 D4 D5].
    set (a1 := sumf (kds k) (threads s)) in *. set (a2 := sumf (kus k) (threads s)) in *.
    set (b1 := sumf (kds k) (upd _ _ _)) in *. set (b2 := sumf (kus k) (upd _ _ _)) in *. clearbody a1 a2 b1 b2.
    destruct o as [j [|z a0]|j| |j|]; cbn [entry kds kus destroys_parent uses_parent b2n] in X, U; unfold kds, kus in X, U; cbn [destroys_parent uses_parent b2n] in X, U;
      try (destruct (Nat.eqb_spec j k) as [->|N]; cbn [b2n] in X, U);
      try (assert (b1 = a1) by lia; subst b1); try (assert (b2 = a2) by lia; subst b2);
      try (constructor; assumption); destruct (N1 eq_refl) as [F N]; constructor; try assumption; try congruence; try lia.
    intros _. split; auto.
  - cbv zeta. rewrite Hq in Hr'. rewrite Ht. assert (Hw' : r = wake q \/ q = WBlocked true /\ r = WWoken true) by tauto.
    rewrite !(fun f w => wake_same f _ _ _ _ w Hi Hw'); auto using inp_w, kds_w, kus_w, kok_w, wpout_w.
Qed.

(** ** All of it *)
Record inv (cfg : config) (s : state) (tr : list event) : Prop := mkinv {
  v_counts : counts cfg s; v_downs : downs s; v_accts : accts s tr; v_pars : pars s }.

Lemma inv_step cfg s a s' e tr : inv cfg s tr -> step cfg s a = Some (s', e) -> inv cfg s' (tr ++ e).
Proof.
  intros [V1 V2 V3 V4] H. constructor; [eapply counts_step|eapply downs_step|eapply accts_step|eapply pars_step]; eauto.
Qed.

Lemma inv_exec cfg l : forall s tr s' e, inv cfg s tr -> exec cfg s l = Some (s', e) -> inv cfg s' (tr ++ e).
Proof.
  induction l as [|a l IH]; intros s tr s' e I H; cbn [exec] in H.
  - injection H as <- <-. now rewrite app_nil_r.
  - destruct (step cfg s a) as [[s1 e1]|] eqn:E; [|discriminate H]. destruct (exec cfg s1 l) as [[s2 e2]|] eqn:E2; [|discriminate H].
    injection H as <- <-. rewrite app_assoc. eapply IH; [|exact E2]. eapply inv_step; eauto.
Qed.

Lemma sumf_zero_all {A} (f : A -> nat) l : (forall x, In x l -> f x = 0) -> sumf f l = 0.
Proof. induction l as [|z l IH]; cbn [sumf]; intros H; [reflexivity|]. rewrite (H z), IH; auto; [intros; apply H|]; cbn; auto. Qed.

Lemma inv_start cfg np nc : min_threads cfg <= max_threads cfg -> inv cfg (start cfg np nc) [].
Proof.
  intros M.
  assert (Z : forall f : pc -> nat, f CIdle = 0 -> f WLock = 0 -> sumf f (threads (start cfg np nc)) = 0).
  { intros f A B. cbn [start threads]. rewrite sumf_app, !sumf_repeat, A, B. lia. }
  constructor.
  - unfold counts. rewrite (Z inq), (Z idle), (Z iwait) by reflexivity. cbn [start pl threads]. rewrite sumf_app, !sumf_repeat. cbn [live].
    constructor; cbn [qm nthr nidle waiters queue b2n length]; lia.
  - unfold downs. rewrite !(Z xs), !(Z us), !(Z xdown), !(Z xout), !(Z wexit) by reflexivity.
    constructor; cbn [start pl up freed queue]; try lia; try discriminate; intuition (discriminate || lia).
  - exists []. constructor; cbn [start pl up freed queue parents]; auto; intros; try (rewrite !Z by reflexivity); try reflexivity.
    apply nth_error_In, repeat_spec in H. now subst r.
  - intros k r H. cbv zeta. rewrite !Z by reflexivity. cbn [start parents] in H. apply nth_error_In, repeat_spec in H. subst r.
    constructor; cbn; try lia; try discriminate.
Qed.

Lemma inv_reach cfg np nc l s tr : min_threads cfg <= max_threads cfg -> exec cfg (start cfg np nc) l = Some (s, tr) -> inv cfg s tr.
Proof. intros M H. exact (inv_exec cfg l _ [] _ _ (inv_start cfg np nc M) H). Qed.

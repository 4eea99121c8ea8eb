(** What the trace of a pool says: waiting, number of running tasks, order. *)
From Verif Require Import Base.Lib Base.Conc Threadpool.Model Threadpool.Spec Threadpool.Proofs Threadpool.Live.

(** A property of every step of an execution. *)
Lemma exec_ind_inv cfg (P : state -> list event -> Prop) :
  (forall s a s' e tr, inv cfg s tr -> P s tr -> step cfg s a = Some (s', e) -> P s' (tr ++ e)) ->
  forall l s tr s' e, inv cfg s tr -> P s tr -> exec cfg s l = Some (s', e) -> P s' (tr ++ e).
Proof.
  intros H. induction l as [|a l IH]; intros s tr s' e I B E; cbn [exec] in E; [injection E as <- <-; now rewrite app_nil_r|].
  destruct (step cfg s a) as [[s1 e1]|] eqn:E1; [|discriminate E]. destruct (exec cfg s1 l) as [[s2 e2]|] eqn:E2; [|discriminate E].
  injection E as <- <-. rewrite app_assoc. eapply IH; [eapply inv_step; eauto|eapply H; eauto|exact E2].
Qed.

Lemma exec_app cfg l1 l2 : forall s, exec cfg s (l1 ++ l2) =
  match exec cfg s l1 with Some (s1, e1) => match exec cfg s1 l2 with Some (s2, e2) => Some (s2, e1 ++ e2) | None => None end | None => None end.
Proof.
  induction l1 as [|a l1 IH]; intros s; cbn [exec app]; [destruct (exec cfg s l2) as [[]|]; reflexivity|].
  destruct (step cfg s a) as [[s1 e1]|]; [|reflexivity]. rewrite IH. destruct (exec cfg s1 l1) as [[s2 e2]|]; [|reflexivity].
  destruct (exec cfg s2 l2) as [[s3 e3]|]; [|reflexivity]. now rewrite app_assoc.
Qed.

(** The step that makes an event. *)
Lemma exec_event cfg l : forall s s' tr x ev y, exec cfg s l = Some (s', tr) -> tr = x ++ ev :: y ->
  exists l1 a l2 s1 s2 x1 x2 y1 y2, l = l1 ++ a :: l2 /\ exec cfg s l1 = Some (s1, x1) /\ step cfg s1 a = Some (s2, x2 ++ ev :: y1) /\
    exec cfg s2 l2 = Some (s', y2) /\ x = x1 ++ x2 /\ y = y1 ++ y2.
Proof.
  induction l as [|a l IH]; intros s s' tr x ev y E T; cbn [exec] in E; [injection E as <- <-; destruct x; discriminate T|].
  destruct (step cfg s a) as [[s1 e1]|] eqn:E1; [|discriminate E]. destruct (exec cfg s1 l) as [[s2 e2]|] eqn:E2; [|discriminate E].
  injection E as <- <-. assert (D : (exists z, e1 = x ++ ev :: z /\ y = z ++ e2) \/ (exists z, x = e1 ++ z /\ e2 = z ++ ev :: y)).
  { clear - T. revert x T. induction e1 as [|b e1 IH]; intros x T; [right; exists x; auto|].
    destruct x as [|c x]; cbn in T; injection T as <- T; [left; exists e1; auto|].
    destruct (IH x T) as [(z & -> & ->)|(z & -> & ->)]; [left|right]; exists z; auto. }
  destruct D as [(z & -> & ->)|(z & -> & ->)].
  - exists [], a, l, s, s1, [], x, z, e2. repeat split; auto.
  - destruct (IH s1 s2 _ z ev y E2 eq_refl) as (l1 & b & l2 & t1 & t2 & x1 & x2 & y1 & y2 & -> & A & B & C & -> & ->).
    exists (a :: l1), b, l2, t1, t2, (e1 ++ x1), x2, y1, y2. repeat split; auto; [cbn [exec]; now rewrite E1, A|apply app_assoc].
Qed.

Lemma returned_app t a b : returned t (a ++ b) = returned t a + returned t b.
Proof. unfold returned. now rewrite map_app, list_sum_app. Qed.
Lemma completed_app t a b : completed t (a ++ b) = completed t a + completed t b.
Proof. unfold completed. now rewrite map_app, list_sum_app. Qed.

Lemma nth_error_upd_same {A} (l : list A) i x y : nth_error l i = Some x -> nth_error (upd l i y) i = Some y.
Proof. intros H. apply nth_error_upd_eq. apply nth_error_Some. congruence. Qed.

(** ** Waiting for a parent's tasks *)
Definition waited (k : nat) (p : pc) : bool := match p with PClear r | POut r => (r =? k)%nat | _ => false end.
Definition calledby (i : nat) (e : event) : bool := match e with ECall j _ => (j =? i)%nat | _ => false end.
Definition waitinv (k : nat) (s : state) (tr : list event) : Prop :=
  forall i p, nth_error (threads s) i = Some p -> waited k p = true -> forall t, fst t = k ->
  forall a1 o a2, tr = a1 ++ ECall i o :: a2 -> returned t a1 <= completed t tr.

Lemma times_num t l : times t l <= num (fst t) l.
Proof.
  induction l as [|u l IH]; [apply le_n|]. cbn [times]. unfold num, is in *. cbn [sumf]. unfold task_eqb.
  rewrite (Nat.eqb_sym (fst t) (fst u)). destruct (fst u =? fst t); [destruct (snd t =? snd u)%N; cbn [andb]; lia|cbn [andb]; lia].
Qed.
Lemma times_of t k a : times t (of k a) <= if k =? fst t then length a else 0.
Proof.
  unfold of. induction a as [|x a IH]; cbn [map times length]; [destruct (k =? fst t); lia|]. unfold task_eqb. cbn [fst snd].
  rewrite (Nat.eqb_sym (fst t) k). destruct (k =? fst t); [destruct (snd t =? x)%N; cbn; lia|cbn; lia].
Qed.

Lemma none_left cfg s tr k r t : inv cfg s tr -> nth_error (parents s) k = Some r -> remaining r = 0 -> fst t = k -> returned t tr <= completed t tr.
Proof.
  intros [_ _ [dl A] _] Hr R E. subst k. pose proof (ac_rem _ _ _ _ _ A _ _ Hr) as A1. pose proof (ac_disp _ _ _ _ _ A t) as A2.
  pose proof (ac_ret _ _ _ _ _ A t) as A3. pose proof (times_num t (queue (pl s))). pose proof (times_num t dl).
  assert (sumf (inwork t) (threads s) <= sumf (held (fst t)) (threads s)).
  { apply sumf_le. intros []; cbn [inwork held]; try lia; cbn [times]; unfold task_eqb, is; rewrite Nat.eqb_sym;
      (destruct (fst t0 =? fst t); [destruct (snd t =? snd t0)%N; cbn; lia|cbn; lia]). }
  assert (sumf (pend t) (threads s) <= sumf (calling t) (threads s) + sumf (held (fst t)) (threads s)).
  { clear. induction (threads s) as [|p l IH]; cbn [sumf]; [lia|].
    assert (pend t p <= calling t p + held (fst t) p); [|lia].
    destruct p; cbn [pend calling held]; try lia; match goal with |- times ?t (of ?k ?a) <= _ => pose proof (times_of t k a); lia end. }
  lia.
Qed.

Lemma split_call (tr e a1 : list event) ev a2 : ~ In ev e -> tr ++ e = a1 ++ ev :: a2 -> exists a3, tr = a1 ++ ev :: a3.
Proof.
  intros N. revert a1. induction tr as [|x tr IH]; intros a1 H; cbn in H.
  - exfalso. apply N. rewrite H. apply in_elt.
  - destruct a1 as [|y a1]; cbn in H; injection H as <- H; [exists tr; reflexivity|]. destruct (IH a1 H) as [a3 ->]. exists a3. reflexivity.
Qed.

Lemma effect_waited k e c l l' j q : apply_effect e c l = Some l' -> nth_error l' j = Some q -> waited k q = true -> nth_error l j = Some q.
Proof.
  intros H Hj W. destruct e as [|v|v|]; cbn [apply_effect] in H.
  - injection H as <-. exact Hj.
  - destruct (existsb _ l); [|injection H as <-; exact Hj]. destruct (nth_error l c) as [x|] eqn:E; [|discriminate H].
    destruct (waits_on v x) eqn:V; [|discriminate H]. injection H as <-.
    destruct (Nat.eq_dec j c) as [->|N]; [|now rewrite nth_error_upd_ne in Hj by congruence].
    rewrite (nth_error_upd_same _ _ _ _ E) in Hj. injection Hj as <-. destruct v, x; discriminate.
  - injection H as <-. rewrite nth_error_map in Hj. destruct (nth_error l j) as [x|]; [|discriminate Hj]. cbn in Hj.
    destruct (waits_on v x) eqn:V; [|exact Hj]. injection Hj as <-. destruct v, x; discriminate.
  - injection H as <-. destruct (Nat.lt_ge_cases j (length l)) as [L|L]; [now rewrite nth_error_app1 in Hj|].
    rewrite nth_error_app2 in Hj by lia. destruct (j - length l) as [|[|?]]; cbn in Hj; try discriminate Hj. injection Hj as <-. discriminate W.
Qed.

Lemma run_nocall cfg q ps i p c o j op : run cfg q ps i p c = Some o -> ~ In (ECall j op) (o_ev o).
Proof. intros H. destruct p; split_run H; cbn [In]; intuition discriminate. Qed.

Lemma waitinv_step cfg k s a s' e tr : inv cfg s tr -> waitinv k s tr -> step cfg s a = Some (s', e) -> waitinv k s' (tr ++ e).
Proof.
  intros V W H j q Hj Wq t Et a1 op a2 T.
  apply step_cases in H as [(i & c & p & o & Hi & Hr & Ha & _ & Hp & Hq & He)|[(i & o & Hi & Al & Ht & _ & Hp & Hq & He)|(i & x & r & Hi & _ & Hw & Ht & Hp & Hq & He)]].
  - assert (N : ~ In (ECall j op) e) by (rewrite He; eapply run_nocall; eauto). destruct (split_call _ _ _ _ _ N T) as [a3 T3].
    pose proof (effect_waited k _ _ _ _ _ _ Ha Hj Wq) as Hj2. rewrite completed_app.
    destruct (Nat.eq_dec j i) as [->|Nj]; [|rewrite nth_error_upd_ne in Hj2 by congruence; specialize (W j q Hj2 Wq t Et a1 op a3 T3); lia].
    rewrite (nth_error_upd_same _ _ _ _ Hi) in Hj2. injection Hj2 as Hj2.
    destruct (waited k p) eqn:Wp; [specialize (W i p Hi Wp t Et a1 op a3 T3); lia|].
    assert (exists r, p = PTest k /\ nth_error (parents s) k = Some r /\ remaining r = 0) as (r & -> & Hr2 & R0).
    { clear - Hr Hj2 Wq Wp. destruct p; split_run Hr; cbn [o_pc] in Hj2; subst q; cbn [waited] in Wq, Wp; try discriminate Wq; try congruence.
      - destruct a; discriminate Wq.
      - apply Nat.eqb_eq in Wq. subst p. apply Nat.eqb_eq in Heqb. eauto.
      - destruct (nthr (pl s) =? 0); discriminate Wq. }
    pose proof (none_left cfg s tr k r t V Hr2 R0 Et) as L. rewrite T3, returned_app in L. rewrite <- T3 in L. lia.
  - rewrite Ht in Hj. destruct (Nat.eq_dec j i) as [->|Nj].
    + rewrite (nth_error_upd_same _ _ _ _ Hi) in Hj. injection Hj as <-. destruct o as [? []| | | |]; discriminate Wq.
    + rewrite nth_error_upd_ne in Hj by congruence.
      assert (N : ~ In (ECall j op) e). { rewrite He. intros [X|X]; [congruence|]. destruct o as [? []| | | |]; cbn in X; intuition discriminate. }
      destruct (split_call _ _ _ _ _ N T) as [a3 T3]. specialize (W j q Hj Wq t Et a1 op a3 T3). rewrite completed_app. lia.
  - subst e. rewrite app_nil_r in *. rewrite Ht in Hj. destruct (Nat.eq_dec j i) as [->|Nj].
    + rewrite (nth_error_upd_same _ _ _ _ Hi) in Hj. injection Hj as <-.
      destruct Hw as [->|(-> & -> & _)]; [|discriminate Wq]. destruct (waited k x) eqn:Wx; [exact (W i x Hi Wx t Et a1 op a2 T)|].
      destruct x; try discriminate Wq; cbn [wake waited] in Wq, Wx; congruence.
    + rewrite nth_error_upd_ne in Hj by congruence. exact (W j q Hj Wq t Et a1 op a2 T).
Qed.

Lemma wait_done cfg np nc l s tr i k t a1 o a2 a3 : min_threads cfg <= max_threads cfg -> exec cfg (start cfg np nc) l = Some (s, tr) ->
  tr = a1 ++ ECall i o :: a2 ++ ERet i (Wait k) :: a3 -> fst t = k -> returned t a1 <= completed t (a1 ++ ECall i o :: a2).
Proof.
  intros M H T Et. destruct (exec_event _ _ _ _ _ (a1 ++ ECall i o :: a2) (ERet i (Wait k)) a3 H) as (l1 & a & l2 & s1 & s2 & x1 & x2 & y1 & y2 & -> & E1 & E2 & E3 & X & Y).
  { rewrite T. now rewrite <- app_assoc. }
  pose proof (inv_reach _ _ _ _ _ _ M E1) as V.
  assert (W : waitinv k s1 x1).
  { refine (exec_ind_inv cfg (waitinv k) _ l1 (start cfg np nc) [] s1 x1 (inv_start cfg np nc M) _ E1); [intros; eapply waitinv_step; eauto|].
    intros j p Hj Wp. exfalso. apply nth_error_In in Hj. cbn [start threads] in Hj. apply in_app_iff in Hj as [Hj|Hj]; apply repeat_spec in Hj; subst p; discriminate Wp. }
  apply step_cases in E2 as [(j & c & p & ou & Hi & Hr & Ha & _ & Hp & Hq & He)|[(j & op & Hi & Al & Ht & _ & Hp & Hq & He)|(j & x & r & Hi & _ & Hw & Ht & Hp & Hq & He)]].
  - assert (x2 = [] /\ j = i /\ p = POut k) as (-> & -> & ->).
    { clear - Hr He. destruct p; split_run Hr; cbn [o_ev] in He; destruct x2 as [|? [|? ?]]; try discriminate He; injection He; intros; subst; try discriminate; auto. }
    rewrite app_nil_r in X. rewrite X. refine (W i (POut k) Hi _ t Et a1 o a2 (eq_sym X)). cbn. apply Nat.eqb_refl.
  - exfalso. destruct op as [? []| | | |]; destruct x2 as [|? [|? [|? ?]]]; discriminate He.
  - destruct x2; discriminate He.
Qed.

(** ** How many tasks run at a time *)
Definition runs (p : pc) : nat := match p with WRunning _ => 1 | _ => 0 end.
Lemma runs_w : winv runs. Proof. wi. Qed.

Definition concinv (s : state) (tr : list event) : Prop := length (starts tr) = sumf runs (threads s) + length (dones tr).

Lemma starts_app a b : starts (a ++ b) = starts a ++ starts b.
Proof. induction a as [|[] a IH]; cbn [starts app]; rewrite ?IH; reflexivity. Qed.
Lemma dones_app a b : dones (a ++ b) = dones a ++ dones b.
Proof. induction a as [|[] a IH]; cbn [dones app]; rewrite ?IH; reflexivity. Qed.
Lemma inserts_app' a b : inserts (a ++ b) = inserts a ++ inserts b.
Proof. induction a as [|[] a IH]; cbn [inserts app]; rewrite ?IH; reflexivity. Qed.
Lemma fetches_app' a b : fetches (a ++ b) = fetches a ++ fetches b.
Proof. induction a as [|[] a IH]; cbn [fetches app]; rewrite ?IH; reflexivity. Qed.
Lemma handed_app a b : handed (a ++ b) = handed a ++ handed b.
Proof. induction a as [|[] a IH]; cbn [handed app]; rewrite ?IH, ?app_assoc; reflexivity. Qed.

Lemma conc_step cfg s a s' e tr : inv cfg s tr -> concinv s tr -> step cfg s a = Some (s', e) -> concinv s' (tr ++ e).
Proof.
  intros _ C H. unfold concinv in *. rewrite starts_app, dones_app, !app_length.
  apply step_cases in H as [(i & c & p & o & Hi & Hr & Ha & _ & Hp & Hq & He)|[(i & o & Hi & Al & Ht & _ & Hp & Hq & He)|(i & q & r & Hi & _ & Hw & Ht & Hp & Hq & He)]].
  - destruct (change_run _ _ _ _ _ _ _ Hi Ha runs runs_w) as [X _]. rewrite He. clear - X Hr C.
    destruct p; split_run Hr; split_out X; cbn [runs starts dones length spawned] in *; lia.
  - rewrite Ht. rewrite (sumf_same _ _ _ _ _ Hi) by (destruct o as [? []| | | |]; reflexivity). subst e. destruct o as [? []| | | |]; cbn; lia.
  - subst e. rewrite Ht. assert (Hw' : r = wake q \/ q = WBlocked true /\ r = WWoken true) by tauto.
    rewrite (wake_same runs _ _ _ _ runs_w Hi Hw'). cbn. lia.
Qed.

Lemma conc_reach cfg np nc l s tr : min_threads cfg <= max_threads cfg -> exec cfg (start cfg np nc) l = Some (s, tr) -> concinv s tr.
Proof.
  intros M E. refine (exec_ind_inv cfg concinv _ l (start cfg np nc) [] s tr (inv_start cfg np nc M) _ E); [intros; eapply conc_step; eauto|].
  unfold concinv. cbn [start threads starts dones length]. rewrite sumf_app, !sumf_repeat. cbn. rewrite !Nat.mul_0_r. reflexivity.
Qed.

Lemma conc_max cfg np nc l s tr : min_threads cfg <= max_threads cfg -> exec cfg (start cfg np nc) l = Some (s, tr) ->
  length (dones tr) <= length (starts tr) <= length (dones tr) + max_threads cfg.
Proof.
  intros M E. pose proof (conc_reach _ _ _ _ _ _ M E) as C. destruct (inv_reach _ _ _ _ _ _ M E) as [[_ T X _ _ _] _ _ _].
  assert (sumf runs (threads s) <= sumf live (threads s)) by (apply sumf_le; intros []; cbn; lia). unfold concinv in C. lia.
Qed.

(** ** Order with one worker and one client *)
Lemma flat_one {B} (m : pc -> nat) (g : pc -> list B) l : (forall x, m x = 0 -> g x = []) ->
  forall i p y, nth_error l i = Some p -> m p = 1 -> sumf m l <= 1 -> flat_map g (upd l i y) = g y.
Proof.
  intros Z. assert (N : forall l, sumf m l = 0 -> flat_map g l = []).
  { induction l0 as [|x l0 IH]; cbn [sumf flat_map]; intros E; [reflexivity|]. rewrite (Z x) by lia. apply IH. lia. }
  induction l as [|x l IH]; intros [|i] p y Hi Hp S; cbn [nth_error sumf upd flat_map] in *; try discriminate Hi.
  - injection Hi as ->. rewrite N by lia. apply app_nil_r.
  - pose proof (sumf_ge m l i p Hi). rewrite (Z x) by lia. cbn. apply (IH i p y Hi Hp). lia.
Qed.

Definition wkeep {B} (g : pc -> list B) : Prop := (forall q, g (wake q) = g q) /\ g (WWoken true) = g (WBlocked true) /\ g WLock = [].
Lemma flat_upd {B} (g : pc -> list B) l : forall i p y, nth_error l i = Some p -> g y = g p -> flat_map g (upd l i y) = flat_map g l.
Proof.
  induction l as [|x l IH]; intros [|i] p y Hi E; cbn [nth_error upd flat_map] in *; try discriminate Hi; [injection Hi as ->; now rewrite E|].
  f_equal. now apply (IH i p).
Qed.
Lemma flat_effect {B} (g : pc -> list B) e c l l' : wkeep g -> apply_effect e c l = Some l' -> flat_map g l' = flat_map g l.
Proof.
  intros (W & _ & W3) H. destruct e as [|v|v|]; cbn [apply_effect] in H.
  - now injection H as <-.
  - destruct (existsb _ l); [|now injection H as <-]. destruct (nth_error l c) as [q|] eqn:E; [|discriminate H].
    destruct (waits_on v q); [|discriminate H]. injection H as <-. now apply (flat_upd g l c q).
  - injection H as <-. induction l as [|q l IH]; cbn [map flat_map]; [reflexivity|]. rewrite IH. destruct (waits_on v q); now rewrite ?W.
  - injection H as <-. rewrite flat_map_app. cbn. now rewrite W3, app_nil_r.
Qed.

(** fetched, not started; handed over, not inserted *)
Definition unst (p : pc) : list task := match p with WFetchSig t | WFetchOut t | WStart t => [t] | _ => [] end.
Definition unins (p : pc) : list task := match p with
  | DLock r all | DAdd r all | DPOut r all | DQLock r all => of r all
  | DSpawn r _ a _ | DTest r _ a _ | DSig r _ a | DWait r _ a | DBlocked r _ a | DWoken r _ a | DDec r _ a => of r a
  | _ => [] end.
Definition client (p : pc) : nat := match p with
  | WLock | WTop _ | WFetchSig _ | WFetchOut _ | WStart _ | WRunning _ | WPLock _ | WPDec _ | WPOut _ | WIdleSig | WWait | WBlocked _
  | WWoken _ | WDec _ | WQuit | WExitLock | WExitDec | WExitOut | WDead => 0 | _ => 1 end.
Lemma client_w : winv client. Proof. wi. Qed.
Lemma unst_w : wkeep unst. Proof. split; [intros []; reflexivity|split; reflexivity]. Qed.
Lemma unins_w : wkeep unins. Proof. split; [intros []; reflexivity|split; reflexivity]. Qed.

Definition orderw (s : state) (tr : list event) : Prop := fetches tr = starts tr ++ flat_map unst (threads s).
Definition orderc (s : state) (tr : list event) : Prop := handed tr = inserts tr ++ flat_map unins (threads s).

Lemma orderw_step cfg s a s' e tr : max_threads cfg <= 1 -> inv cfg s tr -> orderw s tr -> step cfg s a = Some (s', e) -> orderw s' (tr ++ e).
Proof.
  intros M V O H. unfold orderw in *. rewrite fetches_app', starts_app.
  assert (L : sumf live (threads s) <= 1). { destruct V as [[_ T X _ _ _] _ _ _]. lia. } clear V.
  apply step_cases in H as [(i & c & p & o & Hi & Hr & Ha & _ & Hp & Hq & He)|[(i & o & Hi & Al & Ht & _ & Hp & Hq & He)|(i & q & r & Hi & _ & Hw & Ht & Hp & Hq & He)]].
  - rewrite (flat_effect unst _ _ _ _ unst_w Ha). subst e.
    destruct (live p) as [|[|?]] eqn:Lp; [| |destruct p; discriminate Lp].
    + rewrite (flat_upd unst _ _ _ _ Hi) by (clear - Hr Lp; destruct p; try discriminate Lp; split_run Hr; try reflexivity; cbn [o_pc]; repeat match goal with |- context [match ?x with _ => _ end] => destruct x end; reflexivity).
      assert (fetches (o_ev o) = [] /\ starts (o_ev o) = []) as [-> ->] by (clear - Hr Lp; destruct p; try discriminate Lp; split_run Hr; split; reflexivity).
      now rewrite !app_nil_r.
    + assert (Z : forall x, live x = 0 -> unst x = []) by (intros []; try discriminate; reflexivity).
      rewrite (flat_one live unst _ Z _ _ _ Hi Lp L). rewrite O. 
      rewrite <- (flat_upd unst _ _ _ p Hi eq_refl), (flat_one live unst _ Z _ _ _ Hi Lp L).
      clear - Hr Lp. destruct p; try discriminate Lp; split_run Hr; cbn [o_ev o_pc unst fetches starts app]; rewrite ?app_nil_r, <- ?app_assoc; try reflexivity.
  - rewrite Ht, (flat_upd unst _ _ _ _ Hi) by (destruct o as [? []| | | |]; reflexivity). subst e. rewrite O. destruct o as [? []| | | |]; cbn; rewrite !app_nil_r; reflexivity.
  - subst e. cbn [fetches starts]. rewrite !app_nil_r. rewrite Ht, (flat_upd unst _ _ _ _ Hi); [exact O|]. destruct Hw as [->|(-> & -> & _)]; [apply unst_w|reflexivity].
Qed.

Definition oneclient (s : state) (tr : list event) : Prop := sumf client (threads s) <= 1 /\ orderc s tr.

Lemma orderc_step cfg s a s' e tr : inv cfg s tr -> oneclient s tr -> step cfg s a = Some (s', e) -> oneclient s' (tr ++ e).
Proof.
  intros V [L O] H. unfold oneclient, orderc in *. rewrite handed_app, inserts_app'.
  assert (Em : sumf emptyd (threads s) = 0) by (destruct V as [_ _ [dl A] _]; apply (ac_empty _ _ _ _ _ A)). clear V.
  assert (Z : forall x, client x = 0 -> unins x = []) by (intros []; try discriminate; reflexivity).
  apply step_cases in H as [(i & c & p & o & Hi & Hr & Ha & _ & Hp & Hq & He)|[(i & o & Hi & Al & Ht & _ & Hp & Hq & He)|(i & q & r & Hi & _ & Hw & Ht & Hp & Hq & He)]].
  - destruct (change_run _ _ _ _ _ _ _ Hi Ha client client_w) as [X _]. pose proof (sumf_ge emptyd _ _ _ Hi) as G. rewrite Em in G.
    split; [clear - X L Hr; destruct p; split_run Hr; split_out X; cbn [client spawned] in *; lia|].
    rewrite (flat_effect unins _ _ _ _ unins_w Ha). subst e.
    destruct (client p) as [|[|?]] eqn:Lp; [| |destruct p; discriminate Lp].
    + rewrite (flat_upd unins _ _ _ _ Hi) by (clear - Hr Lp; destruct p; try discriminate Lp; split_run Hr; reflexivity).
      assert (handed (o_ev o) = [] /\ inserts (o_ev o) = []) as [-> ->] by (clear - Hr Lp; destruct p; try discriminate Lp; split_run Hr; split; reflexivity).
      now rewrite !app_nil_r.
    + rewrite (flat_one client unins _ Z _ _ _ Hi Lp L). rewrite O. 
      rewrite <- (flat_upd unins _ _ _ p Hi eq_refl), (flat_one client unins _ Z _ _ _ Hi Lp L).
      clear - Hr Lp G. destruct p; try discriminate Lp; split_run Hr; cbn [o_ev o_pc unins handed inserts app]; rewrite ?app_nil_r, <- ?app_assoc; try reflexivity.
      all: repeat match goal with |- context [match ?x with _ => _ end] => destruct x end; cbn [unins of map]; rewrite ?app_nil_r; reflexivity.
  - rewrite Ht. pose proof (sumf_upd client _ _ _ (entry o) Hi) as U. cbn in U. split; [destruct o as [? []| | | |]; cbn in U |- *; lia|].
    rewrite (flat_one client unins _ Z _ _ _ Hi eq_refl L). rewrite O. rewrite <- (flat_upd unins _ _ _ CIdle Hi eq_refl), (flat_one client unins _ Z _ _ _ Hi eq_refl L).
    subst e. destruct o as [? []| | | |]; cbn; rewrite ?app_nil_r; reflexivity.
  - subst e. cbn [handed inserts]. rewrite !app_nil_r. rewrite Ht. assert (Hw' : r = wake q \/ q = WBlocked true /\ r = WWoken true) by tauto.
    rewrite (wake_same client _ _ _ _ client_w Hi Hw'). split; [exact L|]. rewrite (flat_upd unins _ _ _ _ Hi); [exact O|].
    destruct Hw' as [->|[-> ->]]; [apply unins_w|reflexivity].
Qed.

Lemma flat_start {B} (g : pc -> list B) cfg np nc : g CIdle = [] -> g WLock = [] -> flat_map g (threads (start cfg np nc)) = [].
Proof.
  intros A C. assert (R : forall p n, g p = [] -> flat_map g (repeat p n) = []) by (intros p n E; induction n; cbn; rewrite ?E; auto).
  cbn [start threads]. now rewrite flat_map_app, !R.
Qed.

Lemma one_worker cfg np nc l s tr : min_threads cfg <= max_threads cfg -> max_threads cfg <= 1 -> exec cfg (start cfg np nc) l = Some (s, tr) ->
  exists rest, inserts tr = starts tr ++ rest.
Proof.
  intros M M1 E. assert (O : orderw s tr).
  { refine (exec_ind_inv cfg orderw _ l (start cfg np nc) [] s tr (inv_start cfg np nc M) _ E); [intros; eapply orderw_step; eauto|].
    unfold orderw. now rewrite flat_start. }
  destruct (inv_reach _ _ _ _ _ _ M E) as [_ _ [dl A] _]. rewrite (ac_fifo _ _ _ _ _ A), O, <- app_assoc. eauto.
Qed.

Lemma one_client cfg np l s tr : min_threads cfg <= max_threads cfg -> exec cfg (start cfg np 1) l = Some (s, tr) ->
  exists rest, handed tr = inserts tr ++ rest.
Proof.
  intros M E. assert (O : oneclient s tr).
  { refine (exec_ind_inv cfg oneclient _ l (start cfg np 1) [] s tr (inv_start cfg np 1 M) _ E); [intros; eapply orderc_step; eauto|].
    split; [|unfold orderc; now rewrite flat_start]. cbn [start threads]. rewrite sumf_app, !sumf_repeat. cbn. rewrite Nat.mul_0_r. lia. }
  destruct O as [_ O]. rewrite O. eauto.
Qed.

(** ** After destroy *)
Definition busy (e : event) : bool := match e with EInsert _ | EFetch _ | EStart _ | EDone _ => true | _ => false end.

Lemma freed_step cfg s a s' e tr : inv cfg s tr -> freed (pl s) = true -> step cfg s a = Some (s', e) -> freed (pl s') = true /\ existsb busy e = false.
Proof.
  intros V F H. assert (D : downs s) by apply V.
  apply step_cases in H as [(i & c & p & o & Hi & Hr & Ha & _ & Hp & Hq & He)|[(i & o & Hi & Al & Ht & _ & Hp & Hq & He)|(i & q & r & Hi & _ & Hw & Ht & Hp & Hq & He)]].
  - rewrite Hp, He. destruct (freed_unused s i p D F Hi) as (F1 & F2 & F3 & F4). clear - Hr F F1 F2 F3 F4.
    destruct p; try discriminate F1; try discriminate F2; try discriminate F3; try discriminate F4; split_run Hr; cbn [o_pl o_ev]; auto.
  - rewrite Hp, He. split; [exact F|]. destruct o as [? []| | | |]; reflexivity.
  - rewrite Hp, He. auto.
Qed.

Lemma freed_exec cfg l : forall s s' e tr, inv cfg s tr -> freed (pl s) = true -> exec cfg s l = Some (s', e) -> existsb busy e = false.
Proof.
  induction l as [|a l IH]; intros s s' e tr V F E; cbn [exec] in E; [injection E as <- <-; reflexivity|].
  destruct (step cfg s a) as [[s1 e1]|] eqn:E1; [|discriminate E]. destruct (exec cfg s1 l) as [[s2 e2]|] eqn:E2; [|discriminate E].
  injection E as <- <-. destruct (freed_step _ _ _ _ _ _ V F E1) as [F1 B]. rewrite existsb_app, B. eapply IH; [eapply inv_step; eauto|exact F1|exact E2].
Qed.

Lemma destroyed cfg np nc l s tr i a1 a2 : min_threads cfg <= max_threads cfg -> exec cfg (start cfg np nc) l = Some (s, tr) ->
  tr = a1 ++ ERet i Destroy :: a2 -> existsb busy a2 = false.
Proof.
  intros M H T. destruct (exec_event _ _ _ _ _ _ _ _ H T) as (l1 & a & l2 & s1 & s2 & x1 & x2 & y1 & y2 & -> & E1 & E2 & E3 & X & Y).
  pose proof (inv_reach _ _ _ _ _ _ M E1) as V. pose proof (inv_step _ _ _ _ _ _ V E2) as V2.
  apply step_cases in E2 as [(j & c & p & ou & Hi & Hr & Ha & _ & Hp & Hq & He)|[(j & op & Hi & Al & Ht & _ & Hp & Hq & He)|(j & x & r & Hi & _ & Hw & Ht & Hp & Hq & He)]].
  - assert (y1 = [] /\ freed (pl s2) = true) as (-> & F).
    { clear - Hr He Hp. destruct p; split_run Hr; cbn [o_ev] in He; destruct x2 as [|? [|? ?]]; try discriminate He; injection He; intros; subst; try discriminate; rewrite Hp; auto. }
    subst a2. cbn. eapply freed_exec; [exact V2|exact F|exact E3].
  - exfalso. destruct op as [? []| | | |]; destruct x2 as [|? [|? [|? ?]]]; discriminate He.
  - destruct x2; discriminate He.
Qed.

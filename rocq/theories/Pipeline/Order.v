(** The order of tasks in a pipeline, and its progress. *)
From Verif Require Import Base.Lib Base.Conc Pipeline.Model Pipeline.Spec Pipeline.Proofs.

Lemma sub_refl l : sublist l l. Proof. induction l; [apply sub_nil|now apply sub_keep]. Qed.
Lemma sub_nil_l l : sublist [] l. Proof. induction l; constructor; auto. Qed.
Lemma sub_app a b c d : sublist a b -> sublist c d -> sublist (a ++ c) (b ++ d).
Proof. intros H1 H2. induction H1; cbn [app]; [exact H2|now apply sub_skip|now apply sub_keep]. Qed.
Lemma sub_trans a b c : sublist a b -> sublist b c -> sublist a c.
Proof.
  intros H1 H2. revert a H1. induction H2 as [|x b c H2 IH|x b c H2 IH]; intros a H1; auto.
  - apply sub_skip. auto.
  - inversion H1; subst; [apply sub_skip|apply sub_keep]; auto.
Qed.
Lemma sub_times t a b : sublist a b -> times t a <= times t b.
Proof. unfold times. induction 1; cbn [count_occ]; auto; destruct (N.eq_dec x t); lia. Qed.
Lemma sub_prefix a b c : sublist (a ++ b) c -> sublist a c.
Proof. intros H. eapply sub_trans; [|exact H]. rewrite <- (app_nil_r a) at 1. apply sub_app; [apply sub_refl|apply sub_nil_l]. Qed.

Definition olist (o : option task) : list task := match o with Some t => [t] | None => [] end.
Definition runhold (p : spc) : list task := match p with SRun t => [t] | _ => [] end.
Definition passhold (p : spc) : list task := match p with SDone t true | SFullB t | SFullW t => [t] | _ => [] end.

Lemma begun_app i a b : begun i (a ++ b) = begun i a ++ begun i b.
Proof. induction a as [|[] a IH]; cbn [begun app]; auto. destruct (i0 =? i); cbn [app]; now rewrite IH. Qed.
Lemma passed_app i a b : passed i (a ++ b) = passed i a ++ passed i b.
Proof. induction a as [|[? ?|? ? ?|? ?|j t []|? ?] a IH]; cbn [passed app]; auto. destruct (j =? i); cbn [app]; now rewrite IH. Qed.
Lemma ended_app i a b : ended i (a ++ b) = ended i a ++ ended i b.
Proof. induction a as [|[? ?|? ? ?|? ?|j t ?|? ?] a IH]; cbn [ended app]; auto. destruct (j =? i); cbn [app]; now rewrite IH. Qed.
Lemma succeeded_app a b : succeeded (a ++ b) = succeeded a ++ succeeded b.
Proof. induction a as [|[? ?|? ? ?|? ?|? ? ?|t []] a IH]; cbn [succeeded app]; auto. now rewrite IH. Qed.

(** How tasks flow through the critical sections of step [i]. *)
Record flow (n i : nat) (p : pipe) (pc : spc) (o : out) : Prop := mkfl {
  f_begun : forall j, j <> i -> begun j (o_ev o) = [];
  f_passed : forall j, j <> i -> passed j (o_ev o) = [];
  f_succ : S i <> n -> succeeded (o_ev o) = [];
  f_in0 : i = 0%nat -> sublist (begun 0 (o_ev o) ++ queue (o_p o)) (queue p);
  f_in : i <> 0%nat -> sublist (begun i (o_ev o) ++ olist (slot (o_p o) i)) (olist (slot p i));
  f_run : sublist (passed i (o_ev o) ++ runhold (o_pc o)) (runhold pc ++ begun i (o_ev o));
  f_out : S i <> n -> sublist (olist (slot (o_p o) (S i)) ++ passhold (o_pc o)) (olist (slot p (S i)) ++ passhold pc ++ passed i (o_ev o));
  f_last : S i = n -> sublist (succeeded (o_ev o) ++ passhold (o_pc o)) (passhold pc ++ passed i (o_ev o)) }.

Lemma abort_ev l : (forall j, begun j (map (fun t => EFin t Abort) l) = []) /\ (forall j, passed j (map (fun t => EFin t Abort) l) = []) /\
  succeeded (map (fun t => EFin t Abort) l) = [].
Proof. induction l as [|x l (A & B & C)]; cbn; auto. Qed.

Lemma loop_flow i p : (i < length (slots p))%nat -> (i = 0%nat -> slot p 0 = None) ->
  let o := loop i p in
  (forall j, j <> i -> begun j (o_ev o) = []) /\ (forall j, passed j (o_ev o) = []) /\ succeeded (o_ev o) = [] /\
  (i = 0%nat -> sublist (begun 0 (o_ev o) ++ queue (o_p o)) (queue p)) /\
  (i <> 0%nat -> sublist (begun i (o_ev o) ++ olist (slot (o_p o) i)) (olist (slot p i))) /\
  runhold (o_pc o) = begun i (o_ev o) /\ passhold (o_pc o) = [].
Proof.
  intros L S0. cbv zeta. unfold loop. destruct (status p) eqn:St; cbn [negb].
  - destruct (slot p i) as [t|] eqn:E.
    + cbn [o_p o_pc o_ev begun passed succeeded set_slot queue runhold passhold]. rewrite Nat.eqb_refl.
      split; [intros j N; destruct (Nat.eqb_spec i j); congruence|]. split; [reflexivity|]. split; [reflexivity|]. split; [intros ->; specialize (S0 eq_refl); congruence|].
      split; [|split; reflexivity]. intros _. fold (set_slot p i None). rewrite slot_upd, Nat.eqb_refl by exact L. apply sub_refl.
    + destruct (Nat.eqb_spec i 0) as [->|N].
      * destruct (queue p) as [|t q] eqn:Q; cbn [o_p o_pc o_ev begun passed succeeded queue runhold passhold]; rewrite ?Q, ?Nat.eqb_refl.
        -- repeat split; auto; intros; try congruence; apply sub_refl.
        -- repeat split; auto; try congruence; [intros j N; destruct (Nat.eqb_spec 0 j); congruence|]. intros _. apply sub_refl.
      * cbn [o_p o_pc o_ev begun passed succeeded runhold passhold]. rewrite E. repeat split; auto; intros; try congruence; apply sub_refl.
  - cbn [o_p o_pc o_ev runhold passhold]. match goal with |- context [map _ ?l] => destruct (abort_ev l) as (A & B & C) end.
    rewrite C. repeat split; auto.
    + intros ->. rewrite A. cbn. apply sub_nil_l.
    + intros N. rewrite A. cbn [app]. destruct (slot p i) as [t|] eqn:E.
      * match goal with |- sublist (olist (slot ?x i)) _ => assert (X : slot x i = slot (set_slot p i None) i) by reflexivity end.
        rewrite X, slot_upd, Nat.eqb_refl by exact L. apply sub_nil_l.
      * match goal with |- sublist (olist (slot ?x i)) _ => assert (X : slot x i = slot p i) by reflexivity end. rewrite X, E. apply sub_refl.
Qed.

Lemma send_flow n i t p pc sig bc : (S i < length (slots p))%nat -> (i = 0%nat -> slot p 0 = None) -> passhold pc = [t] -> runhold pc = [] -> S i <> n ->
  flow n i p pc (send i t p sig bc).
Proof.
  intros L S0 P R N. unfold send. destruct (slot p (S i)) as [u|] eqn:E.
  - constructor; cbn [o_p o_pc o_ev begun passed succeeded runhold passhold app]; auto; try congruence; intros; try apply sub_refl.
    + apply sub_nil_l.
    + rewrite P, app_nil_r, E. apply sub_refl.
  - destruct (status p) eqn:St; cbn [negb].
    + assert (L2 : (i < length (slots (set_slot p (S i) (Some t))))%nat) by (cbn [set_slot slots]; rewrite length_upd; lia).
      assert (SL : forall j, j <> S i -> slot (set_slot p (S i) (Some t)) j = slot p j) by (intros j Nj; rewrite slot_upd by exact L; destruct (Nat.eqb_spec j (S i)); congruence).
      destruct (loop_flow i _ L2) as (A & B & C & D & F & G & H); [intros Z; rewrite SL by lia; auto|].
      destruct (loop_effects i _ L2) as (_ & _ & X). unfold and_loop. constructor; cbn [o_p o_pc o_ev app]; auto; try congruence.
      * intros Z. rewrite <- (SL i) by lia. auto.
      * rewrite B, R, G. apply sub_refl.
      * intros _. rewrite X, H, B, P, slot_upd, Nat.eqb_refl, E by exact L. apply sub_refl.
    + assert (L2 : (i < length (slots (finish_task p)))%nat) by (cbn; lia).
      destruct (loop_flow i _ L2 S0) as (A & B & C & D & F & G & H).
      destruct (loop_effects i _ L2) as (_ & _ & X). unfold and_loop. constructor; cbn [o_p o_pc o_ev app begun passed succeeded]; auto; try congruence.
      * rewrite B, R, G. apply sub_refl.
      * intros _. rewrite X, H, B, P. change (slot (finish_task p) (S i)) with (slot p (S i)). rewrite E. cbn. apply sub_nil_l.
Qed.

Lemma run_flow na i pc p c o : (i < length (slots p))%nat -> wellformed (length (slots p)) i pc -> (i = 0%nat -> slot p 0 = None) ->
  run na i pc p c = Some o -> flow (length (slots p)) i p pc o.
Proof.
  intros L WF S0 H. destruct pc; cbn [run] in H; try discriminate H; injection H as <-.
  - destruct (loop_flow i p L S0) as (A & B & C & D & F & G & K). destruct (loop_effects i p L) as (_ & _ & X). constructor; auto.
    + rewrite B, G. apply sub_refl.
    + intros _. rewrite X, K, B. apply sub_refl.
    + intros _. rewrite C, K. apply sub_nil_l.
  - constructor; cbn [o_p o_pc o_ev begun succeeded runhold app]; auto; intros; try apply sub_refl.
    + cbn. destruct c; [|reflexivity]. destruct (Nat.eqb_spec i j); congruence.
    + cbn [passed]. destruct c; rewrite ?Nat.eqb_refl; apply sub_refl || apply sub_nil_l.
    + cbn [passed passhold]. destruct c; rewrite ?Nat.eqb_refl; apply sub_refl.
    + cbn [passed passhold]. destruct c; rewrite ?Nat.eqb_refl; apply sub_refl.
  - destruct (finish_cases na i t rv p) as [(r & -> & Hs)|(-> & Ok & La & _)].
    + set (p1 := if negb rv && negb na then mkpipe false (slots p) (queue p) (cnt p) (freed p) else p).
      assert (L2 : (i < length (slots (finish_task p1)))%nat) by (subst p1; destruct (negb rv && negb na); exact L).
      assert (SL : forall j, slot (finish_task p1) j = slot p j) by (intros j; subst p1; destruct (negb rv && negb na); reflexivity).
      assert (QL : queue (finish_task p1) = queue p) by (subst p1; destruct (negb rv && negb na); reflexivity).
      destruct (loop_flow i _ L2) as (A & B & C & D & F & G & H); [rewrite SL; exact S0|].
      destruct (loop_effects i _ L2) as (_ & _ & X). rewrite SL in F, X. rewrite QL in D.
      unfold and_loop. fold p1. constructor; cbn [o_p o_pc o_ev app begun passed]; auto.
      * intros N. destruct r; cbn [succeeded]; auto. destruct (Hs eq_refl) as [_ La]. apply Nat.eqb_eq in La. congruence.
      * rewrite B, G. apply sub_refl.
      * intros N. rewrite X, H, B, !app_nil_r. rewrite <- (app_nil_r (olist (slot p (S i)))) at 1. apply sub_app; [apply sub_refl|apply sub_nil_l].
      * intros _. rewrite H, B, !app_nil_r. destruct r; cbn [succeeded]; rewrite ?C; try apply sub_nil_l. destruct (Hs eq_refl) as [-> _]. apply sub_refl.
    + apply Nat.eqb_neq in La. subst rv. apply send_flow; auto; lia.
  - cbn in WF. apply send_flow; auto; lia.
Qed.

Record order (n : nat) (s : state) (tr : list event) : Prop := mkor {
  k_in : sublist (begun 0 tr ++ queue (pp s)) (inserted tr);
  k_next : forall i pc, S i <> n -> nth_error (steps s) i = Some pc -> sublist (begun (S i) tr ++ olist (slot (pp s) (S i)) ++ passhold pc) (passed i tr);
  k_run : forall i pc, nth_error (steps s) i = Some pc -> sublist (passed i tr ++ runhold pc) (begun i tr);
  k_last : forall i pc, S i = n -> nth_error (steps s) i = Some pc -> sublist (succeeded tr ++ passhold pc) (passed i tr) }.

Lemma swake_holds p : runhold (swake p) = runhold p /\ passhold (swake p) = passhold p. Proof. destruct p; auto. Qed.

(** Steps that only wake threads. *)
Lemma order_wakes n s tr s' e f q : order n s tr -> steps s' = wakes f 0 (steps s) -> slots (pp s') = slots (pp s) ->
  queue (pp s') = queue (pp s) ++ q -> inserted e = q -> (forall i, begun i e = []) -> (forall i, passed i e = []) -> succeeded e = [] -> order n s' (tr ++ e).
Proof.
  intros [K1 K2 K3 K4] Hs Hl Hq Hi B P S.
  assert (SL : forall j, slot (pp s') j = slot (pp s) j) by (intros j; unfold slot; now rewrite Hl).
  constructor; intros; rewrite ?begun_app, ?passed_app, ?succeeded_app, ?inserted_app, ?B, ?P, ?S, ?app_nil_r.
  - rewrite Hq, Hi, app_assoc. apply sub_app; [exact K1|apply sub_refl].
  - rewrite Hs in H0. apply woken_nth in H0 as (r & Hr & ->). rewrite SL. destruct (swake_holds r) as [_ E]. destruct (f i); rewrite ?E; auto.
  - rewrite Hs in H. apply woken_nth in H as (r & Hr & ->). destruct (swake_holds r) as [E _]. destruct (f i); rewrite ?E; auto.
  - rewrite Hs in H0. apply woken_nth in H0 as (r & Hr & ->). destruct (swake_holds r) as [_ E]. destruct (f i); rewrite ?E; auto.
Qed.

Lemma order_step na n s a s' e tr : inv n s tr -> order n s tr -> step na s a = Some (s', e) -> order n s' (tr ++ e).
Proof.
  intros V K H. destruct a as [i c|k|k o|i|k]; cbn [step] in H.
  - destruct (nth_error (steps s) i) as [pc|] eqn:Hi; [|discriminate H]. destruct (run na i pc (pp s) c) as [o|] eqn:Hr; [|discriminate H].
    injection H as <- <-. pose proof (nth_lt _ _ _ Hi) as L. pose proof (v_steps _ _ _ V) as Ls. pose proof (v_slots _ _ _ V) as Ln.
    assert (L2 : (i < length (slots (pp s)))%nat) by lia.
    assert (WF : wellformed (length (slots (pp s))) i pc) by (pose proof (v_sok _ _ _ V i pc Hi) as Z; destruct pc; cbn in *; tauto).
    pose proof (run_effects _ _ _ _ _ _ L2 WF Hr) as [E1 E2 E3 E4 E5 E6 E7 E8 E9 E10].
    pose proof (run_flow _ _ _ _ _ _ L2 WF (fun _ => v_slot0 _ _ _ V) Hr) as [F1 F2 F3 F4 F5 F6 F7 F8]. rewrite Ln in *.
    assert (Hi' : nth_error (wakes (o_sig o) 0 (steps s)) i = Some (if o_sig o i then swake pc else pc)) by (rewrite wakes_nth, Hi; reflexivity).
    assert (Wn : forall j q, j <> i -> nth_error (upd (wakes (o_sig o) 0 (steps s)) i (o_pc o)) j = Some q ->
                 exists r, nth_error (steps s) j = Some r /\ runhold q = runhold r /\ passhold q = passhold r).
    { intros j q N Hj. rewrite nth_error_upd_ne in Hj by congruence. apply woken_nth in Hj as (r & Hj & ->). exists r. split; [exact Hj|].
      destruct (o_sig o j); auto. apply swake_holds. }
    destruct K as [K1 K2 K3 K4]. constructor; cbn [pp steps].
    + rewrite begun_app, inserted_app, (run_noins _ _ _ _ _ _ Hr), app_nil_r. destruct (Nat.eq_dec i 0) as [->|N].
      * eapply sub_trans; [|exact K1]. rewrite <- app_assoc. apply sub_app; [apply sub_refl|auto].
      * rewrite F1, app_nil_r by congruence. destruct E8 as [->|]; [exact K1|contradiction].
    + intros j q Nj Hj. rewrite begun_app, passed_app. destruct (Nat.eq_dec j i) as [->|N].
      * rewrite (nth_error_upd_same _ _ _ _ Hi') in Hj. injection Hj as <-. rewrite F1, app_nil_r by lia.
        eapply sub_trans; [apply sub_app; [apply sub_refl|exact (F7 Nj)]|]. rewrite !app_assoc. apply sub_app; [|apply sub_refl]. rewrite <- !app_assoc. auto.
      * destruct (Wn j q N Hj) as (r & Hr2 & _ & ->). rewrite (F2 j N), app_nil_r. destruct (Nat.eq_dec (S j) i) as [<-|N2].
        -- eapply sub_trans; [|exact (K2 j r Nj Hr2)]. rewrite <- app_assoc. apply sub_app; [apply sub_refl|]. rewrite app_assoc. apply sub_app; [|apply sub_refl]. apply F5. lia.
        -- rewrite F1, app_nil_r, E5 by congruence. auto.
    + intros j q Hj. rewrite begun_app, passed_app. destruct (Nat.eq_dec j i) as [->|N].
      * rewrite (nth_error_upd_same _ _ _ _ Hi') in Hj. injection Hj as <-. rewrite <- app_assoc.
        eapply sub_trans; [apply sub_app; [apply sub_refl|exact F6]|]. rewrite app_assoc. apply sub_app; [auto|apply sub_refl].
      * destruct (Wn j q N Hj) as (r & Hr2 & -> & _). rewrite F1, F2, !app_nil_r by exact N. auto.
    + intros j q Nj Hj. rewrite succeeded_app, passed_app. destruct (Nat.eq_dec j i) as [->|N].
      * rewrite (nth_error_upd_same _ _ _ _ Hi') in Hj. injection Hj as <-. rewrite <- app_assoc.
        eapply sub_trans; [apply sub_app; [apply sub_refl|exact (F8 Nj)]|]. rewrite app_assoc. apply sub_app; [auto|apply sub_refl].
      * destruct (Wn j q N Hj) as (r & Hr2 & _ & ->). rewrite F2, F3, !app_nil_r by lia. auto.
  - destruct (nth_error (clients s) k) as [q|] eqn:Hk; [|discriminate H].
    destruct q as [|o|lim| | | |j]; cbn [client] in H; try discriminate H.
    + destruct o as [t|lim| | |].
      * destruct (negb (status (pp s))); injection H as <- <-.
        -- eapply (order_wakes _ _ _ _ _ nobody []); eauto; cbn; rewrite ?wakes_none, ?app_nil_r; auto.
        -- eapply (order_wakes _ _ _ _ _ _ [t]); eauto; cbn; auto.
      * destruct (cnt (pp s) <=? lim); injection H as <- <-; eapply (order_wakes _ _ _ _ _ nobody []); eauto; cbn; rewrite ?wakes_none, ?app_nil_r; auto.
      * injection H as <- <-; eapply (order_wakes _ _ _ _ _ nobody []); eauto; cbn; rewrite ?wakes_none, ?app_nil_r; auto.
      * injection H as <- <-; eapply (order_wakes _ _ _ _ _ nobody []); eauto; cbn; rewrite ?wakes_none, ?app_nil_r; auto.
      * injection H as <- <-; eapply (order_wakes _ _ _ _ _ _ []); eauto; cbn; rewrite ?app_nil_r; auto.
    + destruct (cnt (pp s) <=? 0); injection H as <- <-; eapply (order_wakes _ _ _ _ _ nobody []); eauto; cbn; rewrite ?wakes_none, ?app_nil_r; auto.
    + injection H as <- <-; eapply (order_wakes _ _ _ _ _ _ []); eauto; cbn; rewrite ?app_nil_r; auto.
    + destruct (nth_error (steps s) j) as [[]|] eqn:Hj; try discriminate H.
      destruct (S j =? length (steps s)); injection H as <- <-.
      * eapply (order_wakes _ _ _ _ _ nobody []); eauto; cbn; rewrite ?wakes_none, ?app_nil_r; auto.
      * eapply (order_wakes _ _ _ _ _ _ []); eauto; cbn; rewrite ?app_nil_r; auto.
  - destruct (nth_error (clients s) k) as [[]|] eqn:Hk; try discriminate H. destruct (allowed s o) eqn:Al; [|discriminate H]. injection H as <- <-.
    eapply (order_wakes _ _ _ _ _ nobody []); eauto; cbn; rewrite ?wakes_none, ?app_nil_r; auto.
  - destruct (nth_error (steps s) i) as [pc|] eqn:Hi; [|discriminate H]. injection H as <- <-.
    eapply (order_wakes _ _ _ _ _ (fun j => (j =? i)%nat) []); eauto; cbn; rewrite ?app_nil_r; auto.
    apply nth_error_ext. intros j. rewrite wakes_nth. cbn [Nat.add]. destruct (Nat.eqb_spec j i) as [->|N].
    + rewrite (nth_error_upd_same _ _ _ _ Hi), Hi. reflexivity.
    + rewrite nth_error_upd_ne by congruence. destruct (nth_error (steps s) j); reflexivity.
  - destruct (nth_error (clients s) k) as [q|] eqn:Hk; [|discriminate H]. injection H as <- <-.
    eapply (order_wakes _ _ _ _ _ nobody []); eauto; cbn; rewrite ?wakes_none, ?app_nil_r; auto.
Qed.

Lemma order_start n nc : order n (start n nc) [].
Proof.
  constructor; cbn; try constructor.
  - intros i pc _ Hi. apply nth_repeat_some in Hi as ->. unfold slot. cbn. rewrite nth_repeat. constructor.
  - intros i pc Hi. apply nth_repeat_some in Hi as ->. constructor.
  - intros i pc _ Hi. apply nth_repeat_some in Hi as ->. constructor.
Qed.

Lemma order_exec na n l : forall s tr s' e, inv n s tr -> order n s tr -> exec na s l = Some (s', e) -> order n s' (tr ++ e).
Proof.
  induction l as [|a l IH]; intros s tr s' e V K H; cbn [exec] in H; [injection H as <- <-; now rewrite app_nil_r|].
  destruct (step na s a) as [[s1 e1]|] eqn:E1; [|discriminate H]. destruct (exec na s1 l) as [[s2 e2]|] eqn:E2; [|discriminate H].
  injection H as <- <-. rewrite app_assoc. eapply IH; [eapply inv_step; eauto|eapply order_step; eauto|exact E2].
Qed.

Lemma order_reach na n nc l s tr : (0 < n)%nat -> exec na (start n nc) l = Some (s, tr) -> order n s tr.
Proof. intros N H. exact (order_exec na n l _ [] _ _ (inv_start n nc N) (order_start n nc) H). Qed.

(** The callbacks of a step run one after the other. *)
Lemma run_serial na i pc p c o : run na i pc p c = Some o ->
  ended i (o_ev o) ++ runhold (o_pc o) = runhold pc ++ begun i (o_ev o) /\ (forall j, j <> i -> ended j (o_ev o) = [] /\ begun j (o_ev o) = []).
Proof.
  assert (A : forall j l, ended j (map (fun t => EFin t Abort) l) = [] /\ begun j (map (fun t => EFin t Abort) l) = []) by (intros j; induction l; auto).
  assert (Lp : forall p, ended i (o_ev (loop i p)) ++ runhold (o_pc (loop i p)) = begun i (o_ev (loop i p)) /\
                         (forall j, ended j (o_ev (loop i p)) = []) /\ (forall j, j <> i -> begun j (o_ev (loop i p)) = [])).
  { intros x. unfold loop. destruct (negb (status x)).
    - cbn [o_ev o_pc runhold]. rewrite app_nil_r. split; [|split; intros; apply A]. rewrite (proj1 (A i _)), (proj2 (A i _)). reflexivity.
    - assert (E : forall j (t : task), j <> i -> (if (i =? j)%nat then [t] else []) = []) by (intros j t N; destruct (Nat.eqb_spec i j); congruence).
      destruct (slot x i); [cbn [o_ev o_pc runhold ended begun]; rewrite Nat.eqb_refl; auto|]. destruct (i =? 0); [destruct (queue x)|];
        cbn [o_ev o_pc runhold ended begun]; rewrite ?Nat.eqb_refl; auto. }
  assert (AL : forall p s b ev, (forall j, ended j ev = []) -> (forall j, begun j ev = []) -> let o := and_loop i p s b ev in
     ended i (o_ev o) ++ runhold (o_pc o) = begun i (o_ev o) /\ (forall j, j <> i -> ended j (o_ev o) = [] /\ begun j (o_ev o) = [])).
  { intros x sg b ev H1 H2. unfold and_loop. cbn [o_ev o_pc]. destruct (Lp x) as (B & C & D). split.
    - rewrite ended_app, begun_app, H1, H2. exact B.
    - intros j N. rewrite ended_app, begun_app, H1, H2, C, D; auto. }
  assert (Sn : forall t p s b, let o := send i t p s b in
     ended i (o_ev o) ++ runhold (o_pc o) = begun i (o_ev o) /\ (forall j, j <> i -> ended j (o_ev o) = [] /\ begun j (o_ev o) = [])).
  { intros t x sg b. unfold send. destruct (slot x (S i)); [cbn; auto|]. destruct (negb (status x)); apply AL; reflexivity. }
  intros H. destruct pc; cbn [run] in H; try discriminate H; injection H as <-; cbn [runhold app]; auto.
  - destruct (Lp p) as (B & C & D). auto.
  - cbn. rewrite Nat.eqb_refl. split; [reflexivity|]. intros j N. destruct (Nat.eqb_spec i j); [congruence|auto].
  - destruct (finish_cases na i t rv p) as [(r & -> & _)|(-> & _)]; auto.
Qed.

Definition serial (s : state) (tr : list event) : Prop := forall i pc, nth_error (steps s) i = Some pc -> begun i tr = ended i tr ++ runhold pc.

Lemma serial_wakes s tr s' e f : serial s tr -> steps s' = wakes f 0 (steps s) -> (forall i, begun i e = []) -> (forall i, ended i e = []) -> serial s' (tr ++ e).
Proof.
  intros K Hs B E i pc Hi. rewrite begun_app, ended_app, B, E, !app_nil_r. rewrite Hs in Hi. apply woken_nth in Hi as (r & Hr & ->).
  rewrite (K i r Hr). destruct (f i); [|reflexivity]. now rewrite (proj1 (swake_holds r)).
Qed.

Lemma serial_step na s a s' e tr : serial s tr -> step na s a = Some (s', e) -> serial s' (tr ++ e).
Proof.
  intros K H. destruct a as [i c|k|k o|i|k]; cbn [step] in H.
  - destruct (nth_error (steps s) i) as [pc|] eqn:Hi; [|discriminate H]. destruct (run na i pc (pp s) c) as [o|] eqn:Hr; [|discriminate H].
    injection H as <- <-. destruct (run_serial _ _ _ _ _ _ Hr) as [R1 R2]. intros j q Hj. cbn [steps] in Hj. rewrite begun_app, ended_app.
    destruct (Nat.eq_dec j i) as [->|N].
    + assert (Hi' : nth_error (wakes (o_sig o) 0 (steps s)) i = Some (if o_sig o i then swake pc else pc)) by (rewrite wakes_nth, Hi; reflexivity).
      rewrite (nth_error_upd_same _ _ _ _ Hi') in Hj. injection Hj as <-. rewrite <- app_assoc, R1, app_assoc, <- (K i pc Hi). reflexivity.
    + rewrite nth_error_upd_ne in Hj by congruence. apply woken_nth in Hj as (r & Hj & ->). destruct (R2 j N) as [-> ->].
      rewrite !app_nil_r, (K j r Hj). destruct (o_sig o j); [|reflexivity]. now rewrite (proj1 (swake_holds r)).
  - destruct (nth_error (clients s) k) as [q|] eqn:Hk; [|discriminate H].
    assert (exists f, steps s' = wakes f 0 (steps s) /\ (forall i, begun i e = []) /\ (forall i, ended i e = [])) as (f & A & B & C).
    { destruct q as [|o|lim| | | |j]; cbn [client] in H; try discriminate H;
        [destruct o as [t|lim| | |]; [destruct (negb (status (pp s)))|destruct (cnt (pp s) <=? lim)| | |]|destruct (cnt (pp s) <=? 0)| |destruct (nth_error (steps s) j) as [[]|]; try discriminate H; destruct (S j =? length (steps s))];
        injection H as <- <-; cbn [steps]; (exists nobody; rewrite wakes_none; split; [reflexivity|]; split; intros; reflexivity) || (eexists; split; [reflexivity|]; split; intros; reflexivity). }
    exact (serial_wakes _ _ _ _ _ K A B C).
  - destruct (nth_error (clients s) k) as [[]|] eqn:Hk; try discriminate H. destruct (allowed s o) eqn:Al; [|discriminate H]. injection H as <- <-.
    eapply (serial_wakes _ _ _ _ nobody); eauto. cbn. now rewrite wakes_none.
  - destruct (nth_error (steps s) i) as [pc|] eqn:Hi; [|discriminate H]. injection H as <- <-.
    apply (serial_wakes _ _ _ _ (fun j => (j =? i)%nat) K); auto. cbn [steps].
    apply nth_error_ext. intros j. rewrite wakes_nth. cbn [Nat.add]. destruct (Nat.eqb_spec j i) as [->|N].
    + rewrite (nth_error_upd_same _ _ _ _ Hi), Hi. reflexivity.
    + rewrite nth_error_upd_ne by congruence. destruct (nth_error (steps s) j); reflexivity.
  - destruct (nth_error (clients s) k) as [q|] eqn:Hk; [|discriminate H]. injection H as <- <-.
    eapply (serial_wakes _ _ _ _ nobody); eauto. cbn. now rewrite wakes_none.
Qed.

Lemma serial_reach na n nc l s tr : exec na (start n nc) l = Some (s, tr) -> serial s tr.
Proof.
  assert (G : forall l s tr s' e, serial s tr -> exec na s l = Some (s', e) -> serial s' (tr ++ e)).
  { clear. induction l as [|a l IH]; intros s tr s' e K H; cbn [exec] in H; [injection H as <- <-; now rewrite app_nil_r|].
    destruct (step na s a) as [[s1 e1]|] eqn:E1; [|discriminate H]. destruct (exec na s1 l) as [[s2 e2]|] eqn:E2; [|discriminate H].
    injection H as <- <-. rewrite app_assoc. eapply IH; [eapply serial_step; eauto|exact E2]. }
  intros H. apply (G l (start n nc) [] s tr); [|exact H]. intros i pc Hi. cbn [start steps] in Hi. apply nth_repeat_some in Hi as ->. reflexivity.
Qed.

(** ** Progress *)
Lemma quiet_step na s i pc : (forall c, step na s (Run i c) = None) -> nth_error (steps s) i = Some pc -> pc = SBlocked \/ (exists t, pc = SFullB t) \/ pc = SDead.
Proof. intros Q H. specialize (Q true). cbn [step] in Q. rewrite H in Q. destruct pc; cbn [run] in Q; eauto; discriminate Q. Qed.

Lemma quiet_client na s k q : step na s (Go k) = None -> nth_error (clients s) k = Some q ->
  q = CIdle \/ (exists lim, q = CWaitB lim) \/ q = CD2B \/ exists i, q = CJoin i /\ nth_error (steps s) i <> Some SDead.
Proof.
  intros Q H. cbn [step] in Q. rewrite H in Q. destruct q as [|o| | | | |j]; cbn [client] in Q; eauto; try discriminate Q.
  - destruct o; [destruct (negb (status (pp s)))|destruct (cnt (pp s) <=? lim)| | |]; discriminate Q.
  - destruct (cnt (pp s) <=? 0); discriminate Q.
  - right. right. right. exists j. split; [reflexivity|]. intros Z. rewrite Z in Q. destruct (S j =? length (steps s)); discriminate Q.
Qed.

Lemma all_slots p : (forall i, (i < length (slots p))%nat -> slot p i = None) -> queue p = [] -> forall w, weigh w p = 0.
Proof.
  intros H Q w. unfold weigh. rewrite Q, tot_nil, Nat.add_0_r. apply sumf_zero. intros i x Hx. pose proof (nth_lt _ _ _ Hx) as L.
  specialize (H i L). rewrite (slot_nth p i L) in Hx. injection Hx as <-. now rewrite H.
Qed.

Lemma quiet_done n s tr : inv n s tr -> (forall i pc, nth_error (steps s) i = Some pc -> pc = SBlocked \/ pc = SDead) ->
  cnt (pp s) = 0%nat /\ forall w, tot w (inserted tr) = tot w (finished tr).
Proof.
  intros V D. pose proof (v_steps _ _ _ V) as Ls. pose proof (v_slots _ _ _ V) as Ln.
  assert (SD : forall i, (i < n)%nat -> slot (pp s) i = None /\ (i = 0%nat -> queue (pp s) = [])).
  { intros i L. destruct (nth_error (steps s) i) as [pc|] eqn:E; [|apply nth_error_None in E; lia].
    pose proof (v_sok _ _ _ V i pc E) as K. destruct (D i pc E) as [->| ->]; cbn in K; tauto. }
  assert (W : forall w, weigh w (pp s) = 0).
  { apply all_slots; [intros i L; apply SD; lia|]. apply (SD 0%nat); [exact (v_pos _ _ _ V)|reflexivity]. }
  assert (Hh : forall w, sumf (hw w) (steps s) = 0).
  { intros w. apply sumf_zero. intros i pc Hi. destruct (D i pc Hi) as [->| ->]; reflexivity. }
  split; [rewrite (v_cnt _ _ _ V), W, Hh; reflexivity|]. intros w. rewrite (v_task _ _ _ V w), W, Hh. lia.
Qed.

(** While the pipeline is up, a step waits for work or for the next step; the last
    one cannot wait for another, so nobody does. *)
Lemma quiet_up na n s tr : inv n s tr -> status (pp s) = true -> (forall i c, step na s (Run i c) = None) ->
  forall i pc, nth_error (steps s) i = Some pc -> pc = SBlocked.
Proof.
  intros V St Q. assert (G : forall m i pc, (n <= i + m)%nat -> nth_error (steps s) i = Some pc -> pc = SBlocked).
  { induction m as [|m IH]; intros i pc L Hi; pose proof (nth_lt _ _ _ Hi) as Li; pose proof (v_steps _ _ _ V) as Ls; [lia|].
    pose proof (v_sok _ _ _ V i pc Hi) as K. destruct (quiet_step na s i pc (Q i) Hi) as [->|[[t ->]| ->]]; cbn in K.
    - reflexivity.
    - destruct K as [K1 K2]. rewrite (v_slots _ _ _ V) in K1. exfalso.
      destruct (nth_error (steps s) (S i)) as [q|] eqn:E; [|apply nth_error_None in E; lia].
      assert (q = SBlocked) as -> by (apply (IH (S i)); [lia|exact E]). pose proof (v_sok _ _ _ V _ _ E) as K3. cbn in K3. destruct K3 as (_ & K3 & _). exact (K2 St K3).
    - destruct K as [K _]. congruence. }
  intros i pc. apply (G n). lia.
Qed.

(** Why a pipeline goes down. *)
Lemma run_down na i pc p c o : (i < length (slots p))%nat -> wellformed (length (slots p)) i pc -> run na i pc p c = Some o ->
  status p = true -> status (o_p o) = false -> na = false /\ exists t, pc = SDone t false.
Proof.
  intros L WF H U D.
  assert (Lp : forall p, (i < length (slots p))%nat -> status (o_p (loop i p)) = status p) by (intros x Lx; apply loop_effects, Lx).
  assert (Sn : forall t s b, (S i < length (slots p))%nat -> status (o_p (send i t p s b)) = status p).
  { intros t s b Ls. unfold send. destruct (slot p (S i)); [reflexivity|]. destruct (status p) eqn:X; cbn [negb]; unfold and_loop; cbn [o_p]; rewrite Lp; auto.
    cbn [set_slot slots]. rewrite length_upd. lia. }
  destruct pc; cbn [run] in H; try discriminate H; injection H as <-; cbn in WF.
  - rewrite Lp in D by exact L. congruence.
  - cbn in D. congruence.
  - destruct rv.
    + exfalso. destruct (finish_cases na i t true p) as [(r & E & _)|(E & _ & La & _)]; rewrite E in D; cbn [negb andb] in D.
      * unfold and_loop in D. cbn [o_p] in D. rewrite Lp in D by exact L. cbn in D. congruence.
      * apply Nat.eqb_neq in La. rewrite Sn in D by lia. congruence.
    + destruct na; [|eauto]. exfalso. destruct (finish_cases true i t false p) as [(r & E & _)|(_ & X & _)]; [|discriminate X].
      rewrite E in D. unfold and_loop in D. cbn [o_p negb andb] in D. rewrite Lp in D by exact L. cbn in D. congruence.
  - rewrite Sn in D by exact WF. congruence.
Qed.

Record causes (na : bool) (s : state) (tr : list event) : Prop := mkca {
  ca_down : status (pp s) = false -> (exists k, In (ECall k Destroy) tr) \/ na = false /\ exists i t, In (EDone i t false) tr;
  ca_fail : forall i t, nth_error (steps s) i = Some (SDone t false) -> In (EDone i t false) tr;
  ca_dest : forall k, nth_error (clients s) k = Some (CCall Destroy) -> exists k, In (ECall k Destroy) tr }.

Lemma run_pc_done na i pc p c o t b : run na i pc p c = Some o -> o_pc o = SDone t b -> In (EDone i t b) (o_ev o).
Proof.
  assert (Lp : forall p, o_pc (loop i p) <> SDone t b).
  { intros x. unfold loop. destruct (negb (status x)); [discriminate|]. destruct (slot x i); [discriminate|]. destruct (i =? 0); [destruct (queue x)|]; discriminate. }
  assert (Sn : forall u p s b', o_pc (send i u p s b') <> SDone t b).
  { intros. unfold send. destruct (slot p0 (S i)); [discriminate|]. destruct (negb (status p0)); apply Lp. }
  intros H E. destruct pc; cbn [run] in H; try discriminate H; injection H as <-.
  - elim (Lp _ E).
  - cbn in E. injection E as -> ->. cbn. auto.
  - exfalso. destruct (finish_cases na i t0 rv p) as [(r & X & _)|(X & _)]; rewrite X in E; [elim (Lp _ E)|elim (Sn _ _ _ _ E)].
  - elim (Sn _ _ _ _ E).
Qed.

Lemma causes_step na n s a s' e tr : inv n s tr -> causes na s tr -> step na s a = Some (s', e) -> causes na s' (tr ++ e).
Proof.
  intros V [D F C] H.
  assert (D' : status (pp s) = false -> (exists k, In (ECall k Destroy) (tr ++ e)) \/ na = false /\ exists i t, In (EDone i t false) (tr ++ e)).
  { intros X. destruct (D X) as [(k & A)|(A & i & t & B)]; [left; exists k|right; split; [exact A|]; exists i, t]; apply in_or_app; auto. }
  assert (F' : forall f i t, nth_error (wakes f 0 (steps s)) i = Some (SDone t false) -> In (EDone i t false) (tr ++ e)).
  { intros f i t Hi. apply woken_nth in Hi as (r & Hr & E). apply in_or_app. left. apply F. rewrite Hr. destruct (f i); [destruct r; cbn in E; congruence|congruence]. }
  assert (F'' : forall i t, nth_error (steps s) i = Some (SDone t false) -> In (EDone i t false) (tr ++ e)) by (intros; apply in_or_app; auto).
  assert (C' : forall k q, nth_error (clients s) k = Some q -> q = CCall Destroy -> exists k, In (ECall k Destroy) (tr ++ e)).
  { intros k q Hk ->. destruct (C k Hk) as [k' A]. exists k'. apply in_or_app. auto. }
  assert (W : forall k, nth_error (map cwake (clients s)) k = Some (CCall Destroy) -> exists k, In (ECall k Destroy) (tr ++ e)).
  { intros k Hk. rewrite nth_error_map in Hk. destruct (nth_error (clients s) k) as [q|] eqn:X; [|discriminate Hk]. apply (C' k q X). destruct q; cbn in Hk; congruence. }
  assert (U : forall k x, x <> CCall Destroy -> forall k', nth_error (upd (clients s) k x) k' = Some (CCall Destroy) -> exists k, In (ECall k Destroy) (tr ++ e)).
  { intros k x Nx k' Hk. destruct (Nat.eq_dec k' k) as [->|N].
    - pose proof (nth_lt _ _ _ Hk) as L. rewrite length_upd in L. rewrite nth_error_upd_eq in Hk by exact L. congruence.
    - rewrite nth_error_upd_ne in Hk by congruence. exact (C' k' _ Hk eq_refl). }
  destruct a as [i c|k|k o|i|k]; cbn [step] in H.
  - destruct (nth_error (steps s) i) as [pc|] eqn:Hi; [|discriminate H]. destruct (run na i pc (pp s) c) as [o|] eqn:Hr; [|discriminate H].
    injection H as <- <-. pose proof (nth_lt _ _ _ Hi) as L. pose proof (v_steps _ _ _ V) as Ls. pose proof (v_slots _ _ _ V) as Ln.
    assert (L2 : (i < length (slots (pp s)))%nat) by lia.
    assert (WF : wellformed (length (slots (pp s))) i pc) by (pose proof (v_sok _ _ _ V i pc Hi) as Z; destruct pc; cbn in *; tauto).
    constructor; cbn [pp steps clients].
    + intros X. destruct (status (pp s)) eqn:St; [|auto]. destruct (run_down _ _ _ _ _ _ L2 WF Hr St X) as (A & t & ->). right. split; [exact A|]. eauto.
    + intros j t Hj. destruct (Nat.eq_dec j i) as [->|N].
      * assert (Hi' : nth_error (wakes (o_sig o) 0 (steps s)) i = Some (if o_sig o i then swake pc else pc)) by (rewrite wakes_nth, Hi; reflexivity).
        rewrite (nth_error_upd_same _ _ _ _ Hi') in Hj. injection Hj as Hj. apply in_or_app. right. exact (run_pc_done _ _ _ _ _ _ _ _ Hr Hj).
      * rewrite nth_error_upd_ne in Hj by congruence. eauto.
    + destruct (o_bc o); [exact W|]. intros k Hk. eauto.
  - destruct (nth_error (clients s) k) as [q|] eqn:Hk; [|discriminate H].
    destruct q as [|o|lim| | | |j]; cbn [client] in H; try discriminate H;
        [destruct o as [t|lim| | |]; [destruct (negb (status (pp s)))|destruct (cnt (pp s) <=? lim)| | |]|destruct (cnt (pp s) <=? 0)| |destruct (nth_error (steps s) j) as [[]|]; try discriminate H; destruct (S j =? length (steps s))];
        injection H as <- <-; constructor; cbn [pp steps clients status]; eauto; try (apply U; discriminate).
  - destruct (nth_error (clients s) k) as [[]|] eqn:Hk; try discriminate H. destruct (allowed s o) eqn:Al; [|discriminate H]. injection H as <- <-.
    constructor; cbn [pp steps clients]; eauto. intros k' Hk'. destruct (Nat.eq_dec k' k) as [->|N].
    + rewrite (nth_error_upd_same _ _ _ _ Hk) in Hk'. injection Hk' as ->. exists k. apply in_or_app. right. cbn. auto.
    + rewrite nth_error_upd_ne in Hk' by congruence. eauto.
  - destruct (nth_error (steps s) i) as [pc|] eqn:Hi; [|discriminate H]. injection H as <- <-. constructor; cbn [pp steps clients]; eauto.
    intros j t Hj. destruct (Nat.eq_dec j i) as [->|N].
    + rewrite (nth_error_upd_same _ _ _ _ Hi) in Hj. injection Hj as Hj. apply F''. rewrite Hi. destruct pc; cbn in Hj; congruence.
    + rewrite nth_error_upd_ne in Hj by congruence. auto.
  - destruct (nth_error (clients s) k) as [q|] eqn:Hk; [|discriminate H]. injection H as <- <-. constructor; cbn [pp steps clients]; eauto.
    intros k' Hk'. destruct (Nat.eq_dec k' k) as [->|N].
    + rewrite (nth_error_upd_same _ _ _ _ Hk) in Hk'. injection Hk' as Hk'. apply (C' k q Hk). destruct q; cbn in Hk'; congruence.
    + rewrite nth_error_upd_ne in Hk' by congruence. eauto.
Qed.

Lemma causes_reach na n nc l s tr : (0 < n)%nat -> exec na (start n nc) l = Some (s, tr) -> causes na s tr.
Proof.
  intros N. assert (G : forall l s tr s' e, inv n s tr -> causes na s tr -> exec na s l = Some (s', e) -> causes na s' (tr ++ e)).
  { clear - N. induction l as [|a l IH]; intros s tr s' e V K H; cbn [exec] in H; [injection H as <- <-; now rewrite app_nil_r|].
    destruct (step na s a) as [[s1 e1]|] eqn:E1; [|discriminate H]. destruct (exec na s1 l) as [[s2 e2]|] eqn:E2; [|discriminate H].
    injection H as <- <-. rewrite app_assoc. eapply IH; [eapply inv_step; eauto|eapply causes_step; eauto|exact E2]. }
  intros H. apply (G l (start n nc) [] s tr (inv_start n nc N)); [|exact H]. constructor; cbn.
  - discriminate.
  - intros i t Hi. apply nth_repeat_some in Hi. discriminate Hi.
  - intros k Hk. apply nth_repeat_some in Hk. discriminate Hk.
Qed.

(** Proofs about the timers of an event loop. *)
From Verif Require Import Base.Lib Base.Conc Timer.Model Timer.Spec.
Open Scope Z_scope.

(** ** Times *)
Definition mst (x : tv) : Z := fst x * 1000 + snd x / 1000.
Definition norm (x : tv) : Prop := 0 <= fst x /\ 0 <= snd x < 1000000.

Lemma diff_mst a b : norm a -> norm b -> diff a b = mst b - mst a.
Proof. unfold norm, diff, mst. intros [_ A] [_ B]. rewrite !Z.quot_div_nonneg by lia. lia. Qed.
Lemma norm_zero : norm zero. Proof. unfold norm, zero. cbn. lia. Qed.
Lemma norm_of us : 0 <= us -> norm (tv_of us).
Proof. intros H. unfold norm, tv_of. cbn [fst snd]. split; [apply Z.div_pos; lia|apply Z.mod_pos_bound; lia]. Qed.
Lemma mst_of us : 0 <= us -> mst (tv_of us) = msec us.
Proof.
  intros H. unfold mst, tv_of, msec. cbn [fst snd].
  assert (E : us = 1000000 * (us / 1000000) + us mod 1000000) by (apply Z.div_mod; lia).
  rewrite E at 3. replace (1000000 * (us / 1000000)) with ((1000 * (us / 1000000)) * 1000) by ring. rewrite Z.div_add_l by lia. lia.
Qed.
Lemma msec_mono a b : a <= b -> msec a <= msec b. Proof. intros H. apply Z.div_le_mono; lia. Qed.
Lemma isset_tvset x : isset x = tvset x.
Proof. unfold isset, tvset. destruct (fst x =? 0), (snd x =? 0); reflexivity. Qed.
Lemma tvset_zero x : tvset x = false -> x = zero.
Proof. destruct x as [a b]. unfold tvset, zero. cbn [fst snd]. destruct (Z.eqb_spec a 0), (Z.eqb_spec b 0); cbn; congruence. Qed.

(** Adding [ms] milliseconds and normalising. *)
Lemma add_ms x ms : norm x -> 0 <= ms -> let u := snd x + ms * 1000 in let y := (fst x + Z.quot u 1000000, Z.rem u 1000000) in norm y /\ mst y = mst x + ms.
Proof.
  intros [A B] M. cbv zeta. assert (P : 0 <= snd x + ms * 1000) by lia. rewrite Z.quot_div_nonneg, Z.rem_mod_nonneg by lia.
  pose proof (Z.mod_pos_bound (snd x + ms * 1000) 1000000 ltac:(lia)) as Mo. pose proof (Z.div_pos (snd x + ms * 1000) 1000000 P ltac:(lia)) as D.
  unfold norm, mst. cbn [fst snd]. split; [lia|].
  assert (E : snd x + ms * 1000 = 1000000 * ((snd x + ms * 1000) / 1000000) + (snd x + ms * 1000) mod 1000000) by (apply Z.div_mod; lia).
  assert (F : (snd x + ms * 1000) / 1000 = snd x / 1000 + ms) by (apply Z.div_add; lia).
  revert E F Mo. generalize ((snd x + ms * 1000) mod 1000000) as m, ((snd x + ms * 1000) / 1000000) as d. intros m d E F Mo.
  rewrite E in F. replace (1000000 * d) with ((1000 * d) * 1000) in F by ring. rewrite Z.div_add_l in F by lia. lia.
Qed.

(** ** Scheduling *)
Definition tnorm (t : timer) : Prop := norm (nxt t) /\ norm (last t) /\ 0 <= ival t.

Lemma schedule_facts us w t ok t' : 0 <= us -> tnorm t -> schedule us w t = (ok, t') ->
  tnorm t' /\ exe t' = exe t /\ started t' = started t /\ t_end t' = t_end t /\ fcnt t' = fcnt t /\ cnt t' = cnt t /\ mono t' = mono t /\ ival t' = ival t /\
  auto t' = auto t /\ dd t' = dd t /\ last t' = last t /\
  (ok = true -> tvset (t_start t') = false /\
     mst (nxt t') = (if negb (tvset (nxt t)) || negb (mono t) then msec us else mst (nxt t)) + (if tvset (t_start t) then Z.max 0 (diff w (t_start t)) else ival t)) /\
  (ok = false -> (ival t = 0 /\ fcnt t <> 1%N) \/ tvset (t_start t) = true) /\ (tvset (t_start t) = false -> t_start t' = t_start t) /\
  (ok = true -> ival t <> 0 \/ fcnt t = 1%N).
Proof.
  intros U (N1 & N2 & N3). unfold schedule. destruct (Z.eqb_spec (ival t) 0) as [I0|I0].
  1: destruct (N.eqb_spec (fcnt t) 1) as [F1|F1]; cbn [negb andb].
  2: { intros H. injection H as <- <-. unfold tnorm. repeat match goal with |- _ /\ _ => split end; auto; discriminate. }
  all: cbn [andb]; set (t1 := if negb (tvset (nxt t)) || negb (mono t) then set_nxt (tv_of us) t else t);
    assert (A : norm (nxt t1) /\ mst (nxt t1) = (if negb (tvset (nxt t)) || negb (mono t) then msec us else mst (nxt t)))
      by (subst t1; destruct (negb (tvset (nxt t)) || negb (mono t)); cbn [set_nxt nxt]; split; auto using norm_of, mst_of);
    destruct A as [A1 A2]; rewrite <- A2; clear A2;
    assert (B : exe t1 = exe t /\ started t1 = started t /\ t_end t1 = t_end t /\ t_start t1 = t_start t /\ fcnt t1 = fcnt t /\ cnt t1 = cnt t /\ mono t1 = mono t /\ ival t1 = ival t /\ auto t1 = auto t /\ dd t1 = dd t /\ last t1 = last t)
      by (subst t1; destruct (negb (tvset (nxt t)) || negb (mono t)); repeat split);
    destruct B as (B1 & B2 & B3 & B4 & B5 & B6 & B7 & B8 & B9 & B10 & B11); clearbody t1;
    destruct (tvset (t_start t)) eqn:Ts; cbn [andb].
  all: try (destruct (interval_max <? Z.max 0 (diff w (t_start t)))).
  all: intros H; injection H as <- <-; cbn [set_nxt set_tstart nxt last ival exe started t_end t_start fcnt cnt mono auto dd].
  all: unfold tnorm; cbn [set_nxt set_tstart nxt last ival]; rewrite ?B4, ?B8, ?B11.
  all: repeat match goal with |- _ /\ _ => split end; auto; try discriminate; try (intros; congruence).
  all: try (intros _; split; [first [reflexivity|congruence]|]).
  all: try (apply (add_ms (nxt t1)); auto; lia).
Qed.

(** ** The order of the queue *)
Definition le_key (a b : timer) : Prop :=
  started a = true /\ (started b = false \/ mst (nxt a) < mst (nxt b) \/ mst (nxt a) = mst (nxt b) /\ mst (last a) <= mst (last b)) \/
  started a = false /\ started b = false.
Lemma compar_le a b : tnorm a -> tnorm b -> (compar a b <= 0 <-> le_key a b) /\ (0 <= compar a b -> le_key b a).
Proof.
  intros (A1 & A2 & _) (B1 & B2 & _). unfold compar, le_key. destruct (started a), (started b); cbn [negb andb].
  - rewrite !diff_mst by assumption. repeat match goal with |- context [?x <? ?y] => destruct (Z.ltb_spec x y) end; split; intuition (try lia; try discriminate).
  - split; intuition (try lia; try discriminate).
  - split; intuition (try lia; try discriminate).
  - split; intuition (try lia; try discriminate).
Qed.
Lemma le_key_trans a b c : le_key a b -> le_key b c -> le_key a c.
Proof. unfold le_key. intros [[A H]|[A H]] [[B K]|[B K]]; try (right; split; congruence); try congruence; left; (split; [exact A|]); intuition (try congruence; try lia). Qed.

Definition le_at (h : nat -> option timer) (i j : nat) : Prop := forall a b, h i = Some a -> h j = Some b -> le_key a b.
Fixpoint srt (h : nat -> option timer) (q : list nat) : Prop := match q with [] => True | i :: q' => (forall j, In j q' -> le_at h i j) /\ srt h q' end.

Lemma srt_ext h h' q : (forall i, In i q -> h' i = h i) -> srt h q -> srt h' q.
Proof.
  induction q as [|i q IH]; intros E S; cbn in *; [exact I|]. destruct S as [S1 S2]. split; [|apply IH; auto].
  intros j Hj a b. rewrite !E by auto. apply S1. exact Hj.
Qed.
Lemma srt_filter h f q : srt h q -> srt h (filter f q).
Proof.
  induction q as [|i q IH]; intros S; cbn in *; [exact I|]. destruct S as [S1 S2]. destruct (f i); cbn; [|auto]. split; [|auto].
  intros j Hj. apply filter_In in Hj as [Hj _]. auto.
Qed.
Lemma ins_in h p id t q j : In j (ins h p id t q) <-> j = id \/ In j q.
Proof.
  revert p. induction q as [|i q IH]; intros p; cbn; [intuition|]. destruct (h i) as [u|]; [|cbn; rewrite IH; tauto].
  destruct (compar t u <? 0); [cbn; intuition|]. destruct (compar t u =? 0); [destruct p|]; cbn; rewrite ?IH; intuition.
Qed.
Lemma ins_nodup h p id t q : ~ In id q -> NoDup q -> NoDup (ins h p id t q).
Proof.
  revert p. induction q as [|i q IH]; intros p Ni N; cbn; [constructor; auto; constructor|].
  inversion N as [|? ? Nq Nd]; subst. assert (A : forall p, NoDup (i :: ins h p id t q)).
  { intros p'. constructor; [rewrite ins_in; cbn in Ni; intuition|]. apply IH; cbn in Ni; intuition. }
  destruct (h i) as [u|]; [|apply A]. destruct (compar t u <? 0); [constructor; auto|]. destruct (compar t u =? 0); [destruct p; [constructor; auto|]|]; apply A.
Qed.
Lemma ins_srt h p id t q : tnorm t -> (forall j, In j q -> exists u, h j = Some u /\ tnorm u) -> ~ In id q -> srt h q ->
  srt (fun j => if (j =? id)%nat then Some t else h j) (ins h p id t q).
Proof.
  intros Nt. revert p. induction q as [|i q IH]; intros p L Ni S; cbn [ins]; [cbn; intuition|].
  destruct S as [S1 S2]. destruct (L i ltac:(cbn; auto)) as (u & Hu & Nu). rewrite Hu. destruct (compar_le t u Nt Nu) as [C1 C2].
  set (h' := fun j => if (j =? id)%nat then Some t else h j).
  assert (E : forall j, In j (i :: q) -> h' j = h j) by (intros j Hj; subst h'; cbn beta; destruct (Nat.eqb_spec j id); [congruence|reflexivity]).
  assert (F : h' id = Some t) by (subst h'; cbn beta; now rewrite Nat.eqb_refl).
  assert (A : compar t u <= 0 -> srt h' (id :: i :: q)).
  { intros Le. split; [|apply (srt_ext h); auto; split; auto]. intros j Hj a b Ha Hb. rewrite F in Ha. injection Ha as <-.
    rewrite E in Hb by exact Hj. apply C1 in Le. destruct Hj as [<-|Hj]; [congruence|]. eapply le_key_trans; [exact Le|]. exact (S1 j Hj u b Hu Hb). }
  assert (B : forall p, 0 <= compar t u -> srt h' (i :: ins h p id t q)).
  { intros p' Ge. split; [|apply IH; cbn in Ni; auto; intros; apply L; cbn; auto]. intros j Hj a b Ha Hb. rewrite E in Ha by (cbn; auto). assert (a = u) by congruence. subst a.
    apply ins_in in Hj as [->|Hj]; [rewrite F in Hb; injection Hb as <-; auto|]. rewrite E in Hb by (cbn; auto). exact (S1 j Hj u b Hu Hb). }
  destruct (Z.ltb_spec (compar t u) 0); [apply A; lia|]. destruct (Z.eqb_spec (compar t u) 0); [destruct p; [apply A; lia|]|]; apply B; lia.
Qed.

(** ** Well-formed states; timer [x] may be out of the queue *)
Lemma get_put s id o j : (id < length (tm s))%nat -> get (put s id o) j = if (j =? id)%nat then o else get s j.
Proof.
  intros L. unfold get, put. cbn [tm]. destruct (Nat.eqb_spec j id) as [->|N].
  - rewrite nth_error_upd_eq by exact L. destruct o; reflexivity.
  - rewrite nth_error_upd_ne by congruence. reflexivity.
Qed.
Lemma get_lt s id t : get s id = Some t -> (id < length (tm s))%nat.
Proof. unfold get. intros H. apply nth_error_Some. intros E. rewrite E in H. discriminate H. Qed.

Record wf (x : option nat) (s : state) : Prop := mkwf {
  w_now : 0 <= now s;
  w_curr : forall c l, proc s = Some (c, l) -> exists u, 0 <= u <= now s /\ c = tv_of u;
  w_que : forall id, In id (que s) -> Some id <> x /\ exists t, get s id = Some t /\ exe t = false;
  w_nodup : NoDup (que s);
  w_all : forall id t, Some id <> x -> get s id = Some t -> exe t = false -> In id (que s);
  w_run1 : forall id t, Some id <> x -> get s id = Some t -> exe t = true -> running s = Some id;
  w_run2 : forall id, running s = Some id -> Some id <> x /\ (exists t, get s id = Some t /\ exe t = true) /\ proc s <> None;
  w_norm : forall id t, Some id <> x -> get s id = Some t -> tnorm t;
  w_srt : srt (get s) (que s) }.

Lemma del_in q id j : In j (filter (fun j => negb (j =? id)%nat) q) <-> In j q /\ j <> id.
Proof. rewrite filter_In. destruct (Nat.eqb_spec j id); cbn; intuition congruence. Qed.

Lemma wf_dequeue s id t : wf None s -> get s id = Some t -> exe t = false -> wf (Some id) (dequeue s id).
Proof.
  intros [A B C D E F G H I] Hg He. constructor; cbn [dequeue with_que now proc que running]; auto.
  - intros j Hj. apply del_in in Hj as [Hj N]. split; [congruence|]. apply C. exact Hj.
  - apply NoDup_filter. exact D.
  - intros j u N Hj Hu. apply del_in. split; [eapply E; eauto; discriminate|congruence].
  - intros j u N Hj Hu. eapply F; eauto. discriminate.
  - intros j Hj. destruct (G j Hj) as (G1 & G2 & G3). split; [|auto]. intros Z. injection Z as ->. destruct G2 as (u & U1 & U2). congruence.
  - intros j u N Hj. eapply H; eauto. discriminate.
  - apply srt_filter. exact I.
Qed.

Lemma wf_enqueue s pos id t : wf (Some id) s -> (id < length (tm s))%nat -> exe t = false -> tnorm t -> wf None (enqueue s pos id t).
Proof.
  intros [A B C D E F G H I] L He Nt. assert (Ni : ~ In id (que s)) by (intros Z; destruct (C id Z) as [Y _]; congruence).
  assert (Gp : forall j, get (enqueue s pos id t) j = if (j =? id)%nat then Some t else get s j) by (intros j; rewrite <- get_put by exact L; reflexivity).
  constructor; cbn [now proc running]; auto.
  - intros j Hj. change (que (enqueue s pos id t)) with (ins (get s) pos id t (que s)) in Hj. split; [discriminate|]. rewrite Gp. apply ins_in in Hj as [->|Hj].
    + rewrite Nat.eqb_refl. eauto.
    + destruct (Nat.eqb_spec j id); [congruence|]. apply C. exact Hj.
  - apply ins_nodup; auto.
  - intros j u _. rewrite Gp. change (que (enqueue s pos id t)) with (ins (get s) pos id t (que s)). rewrite ins_in.
    destruct (Nat.eqb_spec j id) as [->|N]; [auto|]. intros Hj Hu. right. eapply E; eauto. congruence.
  - intros j u _. rewrite Gp. destruct (Nat.eqb_spec j id) as [->|N]; [intros Z; injection Z as <-; congruence|]. intros Hj Hu. eapply F; eauto. congruence.
  - intros j Hj. destruct (G j Hj) as (G1 & G2 & G3). split; [discriminate|]. rewrite Gp. destruct (Nat.eqb_spec j id); [congruence|auto].
  - intros j u _. rewrite Gp. destruct (Nat.eqb_spec j id) as [->|N]; [intros Z; injection Z as <-; exact Nt|]. intros Hj. eapply H; eauto. congruence.
  - apply (srt_ext (fun j => if (j =? id)%nat then Some t else get s j)); [intros; apply Gp|]. apply ins_srt; auto.
    intros j Hj. destruct (C j Hj) as (N & u & Hu & _). exists u. split; [exact Hu|]. eapply H; eauto.
Qed.

Lemma wf_free s id : wf (Some id) s -> (id < length (tm s))%nat -> wf None (put s id None).
Proof.
  intros [A B C D E F G H I] L. assert (Ni : ~ In id (que s)) by (intros Z; destruct (C id Z) as [Y _]; congruence).
  pose proof (fun j => get_put s id None j L) as Gp.
  constructor; cbn [put now proc running que]; auto.
  - intros j Hj. split; [discriminate|]. rewrite Gp. destruct (Nat.eqb_spec j id); [congruence|]. apply C. exact Hj.
  - intros j u _. rewrite Gp. destruct (Nat.eqb_spec j id); [discriminate|]. intros. eapply E; eauto. congruence.
  - intros j u _. rewrite Gp. destruct (Nat.eqb_spec j id); [discriminate|]. intros. eapply F; eauto. congruence.
  - intros j Hj. destruct (G j Hj) as (G1 & G2 & G3). split; [discriminate|]. rewrite Gp. destruct (Nat.eqb_spec j id); [congruence|auto].
  - intros j u _. rewrite Gp. destruct (Nat.eqb_spec j id); [discriminate|]. intros. eapply H; eauto. congruence.
  - apply (srt_ext (get s)); [|exact I]. intros j Hj. rewrite Gp. destruct (Nat.eqb_spec j id); [congruence|reflexivity].
Qed.

(** Changing fields that do not matter for the order, or of the timer executing. *)
Lemma wf_put s id t t' : wf None s -> get s id = Some t -> exe t' = exe t -> tnorm t' ->
  exe t = true \/ (started t' = started t /\ nxt t' = nxt t /\ last t' = last t) -> wf None (put s id (Some t')).
Proof.
  intros [A B C D E F G H I] Hg He Nt K. pose proof (get_lt _ _ _ Hg) as L. pose proof (fun j => get_put s id (Some t') j L) as Gp.
  constructor; cbn [put now proc running que]; auto.
  - intros j Hj. split; [discriminate|]. rewrite Gp. destruct (C j Hj) as (_ & u & Hu & Eu). destruct (Nat.eqb_spec j id) as [->|]; [|eauto]. exists t'. split; congruence.
  - intros j u _. rewrite Gp. destruct (Nat.eqb_spec j id) as [->|]; [intros Z; injection Z as <-; intros; apply (E id t); congruence|]. intros; eapply E; eauto. congruence.
  - intros j u _. rewrite Gp. destruct (Nat.eqb_spec j id) as [->|]; [intros Z; injection Z as <-; intros; apply (F id t); congruence|]. intros; eapply F; eauto. congruence.
  - intros j Hj. destruct (G j Hj) as (G1 & (u & G2 & G2') & G3). split; [discriminate|]. rewrite Gp. destruct (Nat.eqb_spec j id) as [->|]; [|eauto]. split; [exists t'; split; congruence|auto].
  - intros j u _. rewrite Gp. destruct (Nat.eqb_spec j id) as [->|]; [intros Z; injection Z as <-; exact Nt|]. intros; eapply H; eauto. congruence.
  - revert I C. generalize (que s). induction l as [|i l IH]; intros I C; [exact Logic.I|]. destruct I as [I1 I2].
    assert (KK : forall j u, In j (i :: l) -> get (put s id (Some t')) j = Some u -> exists v, get s j = Some v /\ started u = started v /\ nxt u = nxt v /\ last u = last v).
    { intros j u Hj Hu. rewrite Gp in Hu. destruct (Nat.eqb_spec j id) as [->|]; [|eauto]. injection Hu as <-. exists t. split; [exact Hg|].
      destruct K as [K|K]; [|exact K]. destruct (C id Hj) as (_ & v & Hv & Ev). congruence. }
    split.
    + intros j Hj a b Ha Hb. destruct (KK i a ltac:(cbn; auto) Ha) as (a' & Ha' & A1 & A2 & A3). destruct (KK j b ltac:(cbn; auto) Hb) as (b' & Hb' & B1 & B2 & B3).
      pose proof (I1 j Hj a' b' Ha' Hb') as Q. unfold le_key in *. now rewrite A1, A2, A3, B1, B2, B3.
    + apply IH; [exact I2|]. intros j Hj. apply C. cbn. auto.
Qed.

Lemma wf_requeue s pos id t t' : wf None s -> get s id = Some t -> exe t' = exe t -> tnorm t' -> wf None (requeue s pos id t t').
Proof.
  intros W Hg He Nt. unfold requeue. destruct (exe t) eqn:Et.
  - eapply wf_put; eauto; congruence.
  - apply wf_enqueue; auto. { eapply wf_dequeue; eauto. } exact (get_lt _ _ _ Hg).
Qed.
Lemma get_requeue s pos id t t' j : get s id = Some t -> get (requeue s pos id t t') j = if (j =? id)%nat then Some t' else get s j.
Proof.
  intros Hg. pose proof (get_lt _ _ _ Hg) as L. unfold requeue. destruct (exe t); [apply get_put, L|].
  unfold enqueue. change (get (with_que (put (dequeue s id) id (Some t')) (ins (get (dequeue s id)) pos id t' (que (dequeue s id)))) j) with (get (put (dequeue s id) id (Some t')) j).
  rewrite get_put by exact L. reflexivity.
Qed.

Lemma wf_remove_self s id t : wf None s -> get s id = Some t -> wf None (remove_self s id t).
Proof.
  intros W Hg. unfold remove_self. destruct (exe t) eqn:Et.
  - eapply wf_put; eauto. exact (w_norm _ _ W id t ltac:(discriminate) Hg).
  - apply wf_free; [eapply wf_dequeue; eauto|exact (get_lt _ _ _ Hg)].
Qed.

(** Fields nothing depends on. *)
Lemma wf_aux x s ts tl : wf x s -> wf x (mkst (now s) (wall s) (tm s) (que s) (running s) (proc s) ts tl).
Proof. intros [A B C D E F G H I]. constructor; auto. Qed.

Lemma wf_start_op s pos id t iv s' r : wf None s -> get s id = Some t -> 0 <= iv -> start_op s pos id t iv = (s', r) -> wf None s'.
Proof.
  intros W Hg Hi. unfold start_op. destruct (interval_max <? iv); [intros H; injection H as <- <-; exact W|].
  destruct (start (now s) (wall s) iv t) as [ok t'] eqn:E. intros H. injection H as <- <-.
  unfold start in E. destruct (schedule (now s) (wall s) (set_nxt zero (set_cnt 0 (set_ival iv t)))) as [ok2 t2] eqn:E2. injection E as <- <-.
  destruct (w_norm _ _ W id t ltac:(discriminate) Hg) as (N1 & N2 & N3).
  assert (Nt : tnorm (set_nxt zero (set_cnt 0 (set_ival iv t)))) by (repeat split; cbn; try lia; apply N2).
  destruct (schedule_facts _ _ _ _ _ (w_now _ _ W) Nt E2) as (F1 & F2 & _).
  apply wf_requeue; auto; destruct ok2; auto.
Qed.

Lemma wf_do s self pos id t o s' r : wf None s -> get s id = Some t -> do_op s self pos id t o = (s', r) -> wf None s'.
Proof.
  intros W Hg H. pose proof (w_norm _ _ W id t ltac:(discriminate) Hg) as Nt. pose proof Nt as (N1 & N2 & N3).
  assert (St : wf None (requeue s pos id t (set_started false t))) by (apply wf_requeue; auto).
  assert (Gs : get (requeue s pos id t (set_started false t)) id = Some (set_started false t)) by (rewrite get_requeue, Nat.eqb_refl by exact Hg; reflexivity).
  destruct o as [iv| |iv|iv|x|x|n|b|m| | |]; cbn [do_op] in H.
  - refine (wf_start_op _ _ _ _ _ _ _ W Hg _ H). lia.
  - injection H as <- <-. destruct self; [destruct (auto t)|]; auto; [now apply wf_remove_self|now apply wf_aux].
  - assert (0 <= (if (iv =? 0)%N then ival t else Z.of_N iv)) by (destruct (iv =? 0)%N; lia).
    destruct (started t); [exact (wf_start_op _ _ _ _ _ _ _ St Gs H0 H)|exact (wf_start_op _ _ _ _ _ _ _ W Hg H0 H)].
  - destruct ((iv =? 0)%N || (interval_max <? Z.of_N iv) || mono t); [injection H as <- <-; exact W|].
    destruct (started t && (Z.of_N iv <? remaining (now s) t)); [refine (wf_start_op _ _ _ _ _ _ _ St Gs _ H); lia|]. injection H as <- <-.
    eapply wf_put; eauto. repeat split; cbn; try lia; apply N1 || apply N2.
  - destruct x as [x|]; [destruct (tvset x)|destruct (tvset (t_start t))]; injection H as <- <-; auto; eapply wf_put; eauto.
  - destruct x as [x|]; [destruct (tvset x)|destruct (tvset (t_end t))]; injection H as <- <-; auto; eapply wf_put; eauto.
  - injection H as <- <-. eapply wf_put; eauto.
  - injection H as <- <-. eapply wf_put; eauto.
  - injection H as <- <-. eapply wf_put; eauto.
  - injection H as <- <-. destruct self; [now apply wf_remove_self|]. unfold remove_other. now apply wf_aux.
  - injection H as <- <-. exact W.
  - injection H as <- <-. exact W.
Qed.

Lemma wf_after s pos id t : wf (Some id) s -> (id < length (tm s))%nat -> exe t = false -> tnorm t -> wf None (after s pos id t).
Proof.
  intros W L He Nt. unfold after.
  set (t1 := if negb (fcnt t =? 0)%N && (fcnt t <=? cnt t)%N then set_started false t else t).
  assert (A : exe t1 = false /\ tnorm t1) by (subst t1; destruct (negb (fcnt t =? 0)%N && (fcnt t <=? cnt t)%N); auto). destruct A as [A1 A2]. clearbody t1.
  destruct (negb (started t1) && auto t1 || dd t1); [now apply wf_free|]. cbv zeta.
  set (t2 := set_last (tv_of (now s)) t1). assert (B : exe t2 = false /\ tnorm t2).
  { split; [exact A1|]. destruct A2 as (N1 & N2 & N3). repeat split; cbn; try lia; try apply N1; apply norm_of, (w_now _ _ W). }
  destruct B as [B1 B2]. clearbody t2.
  set (t3 := if started t2 then snd (schedule (now s) (wall s) t2) else t2). assert (C : exe t3 = false /\ tnorm t3).
  { subst t3. destruct (started t2); [|auto]. destruct (schedule (now s) (wall s) t2) as [ok t'] eqn:E. cbn [snd].
    destruct (schedule_facts _ _ _ _ _ (w_now _ _ W) B2 E) as (F1 & F2 & _). split; [congruence|exact F1]. }
  destruct C as [C1 C2]. clearbody t3.
  pose proof (wf_enqueue s pos id t3 W L C1 C2) as [X1 X2 X3 X4 X5 X6 X7 X8 X9]. constructor; auto; cbn [proc now].
  - intros c l. destruct (proc (enqueue s pos id t3)) as [[c0 l0]|]; [|discriminate]. intros Z. injection Z as <- <-. eexists. split; [|reflexivity]. cbn in X1. cbn. lia.
  - intros j Hj. destruct (X7 j Hj) as (Y1 & Y2 & Y3). split; [exact Y1|]. split; [exact Y2|]. destruct (proc (enqueue s pos id t3)) as [[]|]; congruence.
Qed.

Lemma wf_step s a s' e : wf None s -> step s a = Some (s', e) -> wf None s'.
Proof.
  intros W H. destruct a as [pos|self pos id o|k pos| |d|x| |pos|pos]; cbn [step] in H.
  - destruct (unlocked s); [|discriminate H]. injection H as <- <-. apply wf_enqueue; [|cbn; rewrite app_length; cbn; lia|reflexivity|].
    + assert (G : forall j, get (mkst (now s) (wall s) (tm s ++ [Some fresh]) (que s) (running s) (proc s) (tasks s) (tails s)) j = if (j =? length (tm s))%nat then Some fresh else get s j).
      { intros j. unfold get. cbn [tm]. destruct (Nat.eqb_spec j (length (tm s))) as [->|N].
        - rewrite nth_error_app2, Nat.sub_diag by lia. reflexivity.
        - destruct (lt_dec j (length (tm s))); [rewrite nth_error_app1 by lia; reflexivity|].
          replace (nth_error (tm s ++ [Some fresh]) j) with (@None (option timer)) by (symmetry; apply nth_error_None; rewrite app_length; cbn; lia).
          replace (nth_error (tm s) j) with (@None (option timer)) by (symmetry; apply nth_error_None; lia). reflexivity. }
      assert (GL : forall j t, get s j = Some t -> j <> length (tm s)) by (intros j t Hj; apply get_lt in Hj; lia).
      destruct W as [A B C D E F G2 H I]. constructor; cbn [now proc running que]; auto.
      * intros j Hj. destruct (C j Hj) as (_ & t & Ht & Et). pose proof (GL j t Ht). split; [congruence|]. exists t. rewrite G. destruct (Nat.eqb_spec j (length (tm s))); [congruence|auto].
      * intros j t N. rewrite G. destruct (Nat.eqb_spec j (length (tm s))); [congruence|]. intros. eapply E; eauto. discriminate.
      * intros j t N. rewrite G. destruct (Nat.eqb_spec j (length (tm s))); [congruence|]. intros. eapply F; eauto. discriminate.
      * intros j Hj. destruct (G2 j Hj) as (_ & (t & Ht & Et) & P). pose proof (GL j t Ht). split; [congruence|]. split; [|exact P]. exists t. rewrite G. destruct (Nat.eqb_spec j (length (tm s))); [congruence|auto].
      * intros j t N. rewrite G. destruct (Nat.eqb_spec j (length (tm s))); [congruence|]. intros. eapply H; eauto. discriminate.
      * apply (srt_ext (get s)); [|exact I]. intros j Hj. destruct (C j Hj) as (_ & t & Ht & _). pose proof (GL j t Ht). rewrite G. destruct (Nat.eqb_spec j (length (tm s))); congruence.
    + repeat split; cbn; lia.
  - destruct (unlocked s); [|discriminate H]. destruct (get s id) as [t|] eqn:Hg; [|discriminate H].
    destruct (do_op s self pos id t o) as [s1 r] eqn:Hd. injection H as <- <-. eapply wf_do; eauto.
  - destruct (unlocked s); [|discriminate H]. destruct (nth_error (tails s) k) as [id|]; [|discriminate H].
    destruct (get s id) as [t|] eqn:Hg; injection H as <- <-; [|now apply wf_aux]. destruct (auto t); [|now apply wf_aux]. unfold remove_other. apply wf_aux.
    apply wf_requeue; auto; [now apply wf_aux|]. exact (w_norm _ _ W id t ltac:(discriminate) Hg).
  - destruct (proc s) eqn:P; [discriminate H|]. destruct (tasks s) as [|id r]; [discriminate H|]. rewrite <- P in H. destruct (existsb (Nat.eqb id) (que s)).
    + destruct (get s id) as [t|] eqn:Hg; [|discriminate H]. injection H as <- <-. apply wf_remove_self; [|exact Hg]. now apply wf_aux.
    + injection H as <- <-. now apply wf_aux.
  - injection H as <- <-. destruct W as [A B C D E F G H I]. constructor; auto; cbn [now proc]; [lia|]. intros c l P. destruct (B c l P) as (u & U & ->). exists u. split; [lia|reflexivity].
  - injection H as <- <-. destruct W as [A B C D E F G H I]. constructor; auto.
  - destruct (proc s) eqn:P; [discriminate H|]. injection H as <- <-. destruct W as [A B C D E F G H I]. constructor; auto; cbn [now proc].
    + intros c l Z. injection Z as <- <-. exists (now s). split; [lia|reflexivity].
    + intros j Hj. destruct (G j Hj) as (G1 & G2 & G3). split; [exact G1|]. split; [exact G2|discriminate].
  - destruct (proc s) as [[curr l]|] eqn:P; [|discriminate H]. destruct (running s) eqn:R; [discriminate H|].
    assert (Dn : wf None (mkst (now s) (wall s) (tm s) (que s) None None (tasks s) (tails s))).
    { destruct W as [A B C D E F G H' I]. rewrite R in *. constructor; auto; cbn [running proc]; discriminate. }
    destruct (que s) as [|id r] eqn:Q; [injection H as <- <-; exact Dn|]. destruct (get s id) as [t|] eqn:Hg; [|discriminate H].
    destruct (w_que _ _ W id ltac:(rewrite Q; cbn; auto)) as (_ & t' & Ht' & Et). assert (t' = t) by congruence. subst t'. clear Ht'.
    destruct (negb _ && started t && (0 <=? diff (nxt t) curr)); [|injection H as <- <-; exact Dn].
    assert (W1 : wf (Some id) (mkst (now s) (wall s) (tm s) r (running s) (Some (curr, Some id)) (tasks s) (tails s))).
    { destruct W as [A B C D E F G H' I]. rewrite Q, R in *. inversion D as [|? ? Ni Nd]; subst. constructor; cbn [now proc que running]; auto.
      - intros c l0 Z. injection Z as <- <-. exact (B curr l P).
      - intros j Hj. split; [congruence|]. apply C. cbn. auto.
      - intros j u N Hj Hu. destruct (E j u ltac:(discriminate) Hj Hu) as [<-|Z]; [congruence|exact Z].
      - intros j u N Hj Hu. exact (F j u ltac:(discriminate) Hj Hu).
      - intros j Hj. discriminate Hj.
      - intros j u N Hj. exact (H' j u ltac:(discriminate) Hj).
      - destruct I as [_ I]. exact I. }
    assert (Nt : tnorm t) by (eapply (w_norm _ _ W); eauto; discriminate). pose proof (get_lt _ _ _ Hg) as L. rewrite R in W1.
    destruct (tvset (t_end t) && (diff (wall s) (t_end t) <=? 0)); injection H as <- <-.
    + apply wf_after; [exact W1|exact L|exact Et|exact Nt].
    + destruct W1 as [A B C D E F G H' I]. cbn [now proc que running tm] in *.
      pose proof (fun j => get_put (mkst (now s) (wall s) (tm s) r None (Some (curr, Some id)) (tasks s) (tails s)) id (Some (set_exe true (set_cnt (cnt t + 1) t))) j L) as Gp.
      assert (Gx : forall j, get {| now := now (put (mkst (now s) (wall s) (tm s) r None (Some (curr, Some id)) (tasks s) (tails s)) id (Some (set_exe true (set_cnt (cnt t + 1) t))));
         wall := wall s; tm := upd (tm s) id (Some (set_exe true (set_cnt (cnt t + 1) t))); que := r; running := Some id; proc := Some (curr, Some id); tasks := tasks s; tails := tails s |} j
         = if (j =? id)%nat then Some (set_exe true (set_cnt (cnt t + 1) t)) else get s j) by (intros j; rewrite <- Gp; reflexivity).
      constructor; cbn [put now proc que running tm wall tasks tails]; auto.
      * intros j Hj. destruct (C j Hj) as (N & u & Hu & Eu). split; [discriminate|]. exists u. split; [|exact Eu]. etransitivity; [apply Gx|]. destruct (Nat.eqb_spec j id); [congruence|exact Hu].
      * intros j u _ Hj Hu. pose proof (eq_trans (eq_sym (Gx j)) Hj) as Z. destruct (Nat.eqb_spec j id); [injection Z as <-; discriminate Hu|]. eapply E; eauto. congruence.
      * intros j u _ Hj Hu. pose proof (eq_trans (eq_sym (Gx j)) Hj) as Z. destruct (Nat.eqb_spec j id); [congruence|]. pose proof (F j u ltac:(congruence) Z Hu). discriminate.
      * intros j Hj. injection Hj as <-. split; [discriminate|]. split; [|discriminate]. eexists. split; [etransitivity; [apply Gx|]; rewrite Nat.eqb_refl; reflexivity|reflexivity].
      * intros j u _ Hj. pose proof (eq_trans (eq_sym (Gx j)) Hj) as Z. destruct (Nat.eqb_spec j id); [injection Z as <-; exact Nt|]. eapply H'; eauto. congruence.
      * eapply srt_ext; [|exact I]. intros j Hj. destruct (C j Hj) as (N & _). etransitivity; [apply Gx|]. destruct (Nat.eqb_spec j id); [congruence|reflexivity].
  - destruct (running s) as [id|] eqn:R; [|discriminate H]. destruct (get s id) as [t|] eqn:Hg; [|discriminate H]. injection H as <- <-.
    assert (Nt : tnorm t) by (eapply (w_norm _ _ W); eauto; discriminate).
    apply wf_after; [|exact (get_lt _ _ _ Hg)|reflexivity|exact Nt].
    destruct W as [A B C D E F G H I]. rewrite R in *. destruct (G id eq_refl) as (_ & (t' & Ht' & Et) & _). assert (t' = t) by congruence. subst t'.
    constructor; cbn [now proc que running]; auto; try discriminate.
    + intros j Hj. destruct (C j Hj) as (_ & u & Hu & Eu). split; [congruence|eauto].
    + intros j u N Hj Hu. exact (E j u ltac:(discriminate) Hj Hu).
    + intros j u N Hj Hu. pose proof (F j u ltac:(discriminate) Hj Hu). congruence.
    + intros j u N Hj. exact (H j u ltac:(discriminate) Hj).
Qed.

(** ** What the calls say and what the timer holds *)
Record R (a : sp) (t : timer) : Prop := mkR {
  r_iv : s_iv a = ival t;
  r_lim : s_lim a = fcnt t;
  r_mono : s_mono a = mono t;
  r_off : s_off a = t_start t;
  r_end : s_end a = t_end t;
  r_exec : s_exec a = exe t;
  r_fired : (s_fired a <= cnt t)%N;
  r_st : started t = true ->
    (exists d, s_due a = Some d /\ d <= mst (nxt t)) /\ tvset (t_start t) = false /\ (ival t <> 0 \/ fcnt t = 1%N) /\
    (exe t = true \/ fcnt t = 0%N \/ (cnt t < fcnt t)%N) }.

Lemma R_start_op s pos id t iv s' r a : wf None s -> get s id = Some t -> 0 <= iv -> s_ok a = true ->
  s_lim a = fcnt t -> s_mono a = mono t -> s_off a = t_start t -> s_end a = t_end t -> s_exec a = exe t ->
  start_op s pos id t iv = (s', r) ->
  (forall j, j <> id -> get s' j = get s j) /\
  (r = 1 -> s_ok (s_arm (now s) (wall s) iv a) = true -> exists t', get s' id = Some t' /\ R (s_arm (now s) (wall s) iv a) t') /\
  (r = 1 \/ interval_max < iv \/ iv = 0 \/ tvset (t_start t) = true).
Proof.
  intros W Hg Hi Ok L1 L2 L3 L4 L5. unfold start_op. destruct (Z.ltb_spec interval_max iv) as [Im|Im].
  { intros H. injection H as <- <-. repeat split; auto; discriminate. }
  destruct (start (now s) (wall s) iv t) as [ok t'] eqn:E. intros H. injection H as <- <-.
  unfold start in E. destruct (schedule (now s) (wall s) (set_nxt zero (set_cnt 0 (set_ival iv t)))) as [ok2 t2] eqn:E2. injection E as <- <-.
  destruct (w_norm _ _ W id t ltac:(discriminate) Hg) as (N1 & N2 & N3).
  assert (Nt : tnorm (set_nxt zero (set_cnt 0 (set_ival iv t)))) by (repeat split; cbn; try lia; apply N2).
  destruct (schedule_facts _ _ _ _ _ (w_now _ _ W) Nt E2) as (F1 & F2 & F3 & F4 & F5 & F6 & F7 & F8 & _ & _ & _ & F9 & F10 & F11 & F12).
  cbn [set_nxt set_cnt set_ival exe started t_end fcnt cnt mono ival nxt t_start] in *.
  split; [|split].
  - intros j N. rewrite get_requeue by exact Hg. destruct (Nat.eqb_spec j id); [congruence|reflexivity].
  - destruct ok2; [|discriminate]. intros _ Oa. eexists. split; [rewrite get_requeue, Nat.eqb_refl by exact Hg; reflexivity|].
    destruct (F9 eq_refl) as [F9a F9b]. change (tvset zero) with false in F9b. cbn [negb orb] in F9b.
    constructor; cbn [s_arm s_iv s_lim s_mono s_off s_end s_exec s_fired s_due s_ok set_started ival fcnt mono t_start t_end exe cnt started nxt] in *; try congruence.
    + symmetry. apply tvset_zero. exact F9a.
    + lia.
    + intros _. split; [|split; [exact F9a|split]].
      * eexists. split; [reflexivity|]. rewrite F9b, L3, isset_tvset. lia.
      * rewrite F8, F5. apply F12. reflexivity.
      * right. rewrite F5, F6. destruct (fcnt t) as [|p]; [left; reflexivity|right; lia].
  - destruct ok2; [left; reflexivity|right]. destruct (F10 eq_refl) as [[Z _]|Z]; auto.
Qed.

Lemma get_remove_self s id t j : get s id = Some t -> get (remove_self s id t) j = if (j =? id)%nat then (if exe t then Some (set_dd (set_started false t)) else None) else get s j.
Proof.
  intros Hg. pose proof (get_lt _ _ _ Hg) as L. unfold remove_self. destruct (exe t); [apply get_put, L|].
  change (get (put (dequeue s id) id None) j) with (get (put (dequeue s id) id None) j). rewrite get_put by exact L. reflexivity.
Qed.

Lemma R_stop a t : R a t -> R (s_stop a) (set_started false t).
Proof. intros [A B C D E F G H]. constructor; cbn; auto. discriminate. Qed.
Lemma R_dd a t : R a t -> R a (set_dd t).
Proof. intros [A B C D E F G H]. constructor; auto. Qed.
Lemma R_idle a t : R a t -> R a (set_started false t).
Proof. intros [A B C D E F G H]. constructor; cbn; auto. discriminate. Qed.

Lemma start_frame s pos id t iv s' r : get s id = Some t -> start_op s pos id t iv = (s', r) -> forall j, j <> id -> get s' j = get s j.
Proof.
  intros Hg. unfold start_op. destruct (interval_max <? iv); [intros H; injection H as <- <-; reflexivity|]. destruct (start _ _ _ _) as [ok t']. intros H. injection H as <- <-.
  intros j N. rewrite get_requeue by exact Hg. destruct (Nat.eqb_spec j id); [congruence|reflexivity].
Qed.
Lemma do_frame s self pos id t o s' r : get s id = Some t -> do_op s self pos id t o = (s', r) -> forall j, j <> id -> get s' j = get s j.
Proof.
  intros Hg H j N. pose proof (get_lt _ _ _ Hg) as L.
  assert (Pu : forall t1, get (put s id t1) j = get s j) by (intros t1; rewrite get_put by exact L; destruct (Nat.eqb_spec j id); [congruence|reflexivity]).
  assert (Gs : get (requeue s pos id t (set_started false t)) id = Some (set_started false t)) by (rewrite get_requeue, Nat.eqb_refl by exact Hg; reflexivity).
  assert (Go : get (requeue s pos id t (set_started false t)) j = get s j) by (rewrite get_requeue by exact Hg; destruct (Nat.eqb_spec j id); [congruence|reflexivity]).
  destruct o as [iv| |iv|iv|x|x|n|b|m| | |]; cbn [do_op] in H.
  - eapply start_frame; eauto.
  - injection H as <- <-. destruct self; [destruct (auto t)|]; auto. rewrite get_remove_self by exact Gs. destruct (Nat.eqb_spec j id); [congruence|auto].
  - destruct (started t); [rewrite (start_frame _ _ _ _ _ _ _ Gs H j N)|rewrite (start_frame _ _ _ _ _ _ _ Hg H j N)]; auto.
  - destruct (_ || _); [injection H as <- <-; reflexivity|]. destruct (_ && _); [rewrite (start_frame _ _ _ _ _ _ _ Gs H j N); exact Go|]. injection H as <- <-. apply Pu.
  - destruct x as [x|]; [destruct (tvset x)|destruct (tvset (t_start t))]; injection H as <- <-; auto.
  - destruct x as [x|]; [destruct (tvset x)|destruct (tvset (t_end t))]; injection H as <- <-; auto.
  - injection H as <- <-. auto.
  - injection H as <- <-. auto.
  - injection H as <- <-. auto.
  - injection H as <- <-. destruct self; [|exact Go]. rewrite get_remove_self by exact Hg. destruct (Nat.eqb_spec j id); [congruence|auto].
  - injection H as <- <-. reflexivity.
  - injection H as <- <-. reflexivity.
Qed.

Lemma R_do s self pos id t o s' r a : wf None s -> get s id = Some t -> R a t -> do_op s self pos id t o = (s', r) ->
  (forall j, j <> id -> get s' j = get s j) /\
  (s_ok a = true -> s_ok (sp_op a (now s) (wall s) o r) = true -> forall t', get s' id = Some t' -> R (sp_op a (now s) (wall s) o r) t').
Proof.
  intros W Hg Ra H. pose proof (get_lt _ _ _ Hg) as L. pose proof (w_norm _ _ W id t ltac:(discriminate) Hg) as Nt. pose proof Nt as (N1 & N2 & N3).
  assert (Pu : forall t1 b, (s', r) = (put s id (Some t1), b) -> r = b /\ (forall j, j <> id -> get s' j = get s j) /\ (forall t', get s' id = Some t' -> t' = t1)).
  { intros t1 b Z. injection Z as -> ->. split; [reflexivity|]. split; intros; rewrite get_put in * by exact L; [destruct (Nat.eqb_spec j id); [congruence|reflexivity]|rewrite Nat.eqb_refl in *; congruence]. }
  assert (Sa : forall b, (s', r) = (s, b) -> r = b /\ (forall j, j <> id -> get s' j = get s j) /\ (forall t', get s' id = Some t' -> t' = t)).
  { intros b Z. injection Z as -> ->. repeat split; auto. intros. congruence. }
  assert (St : wf None (requeue s pos id t (set_started false t))) by (apply wf_requeue; auto).
  assert (Gs : get (requeue s pos id t (set_started false t)) id = Some (set_started false t)) by (rewrite get_requeue, Nat.eqb_refl by exact Hg; reflexivity).
  assert (Go : forall j, j <> id -> get (requeue s pos id t (set_started false t)) j = get s j) by (intros j N; rewrite get_requeue by exact Hg; destruct (Nat.eqb_spec j id); [congruence|reflexivity]).
  assert (Nq : now (requeue s pos id t (set_started false t)) = now s /\ wall (requeue s pos id t (set_started false t)) = wall s) by (unfold requeue; destruct (exe t); split; reflexivity).
  destruct Nq as [Nq Wq]. pose proof Ra as [A B C D E F G I].
  destruct o as [iv| |iv|iv|x|x|n|b|m| | |]; cbn [do_op] in H.
  - assert (Hi : 0 <= Z.of_N iv) by lia. split.
    + clear Ra A B C D E F G I. unfold start_op in H. destruct (interval_max <? Z.of_N iv); [injection H as <- <-; auto|]. destruct (start (now s) (wall s) (Z.of_N iv) t). injection H as <- <-.
      intros j N. rewrite get_requeue by exact Hg. destruct (Nat.eqb_spec j id); [congruence|reflexivity].
    + intros Oa Ob t' Ht'. destruct (R_start_op _ _ _ _ _ _ _ a W Hg Hi Oa B C D E F H) as (_ & K & _).
      cbn [sp_op] in *. destruct (Z.eqb_spec r 1) as [R1|R1]; [|discriminate Ob]. destruct (K R1 Ob) as (t2 & G2 & R2). congruence.
  - injection H as <- <-. cbn [sp_op]. destruct self; [destruct (auto t)|].
    + split; [intros j N|intros _ _ t' Ht']; rewrite get_remove_self in * by exact Gs.
      * destruct (Nat.eqb_spec j id); [congruence|auto].
      * rewrite Nat.eqb_refl in Ht'. cbn [set_started exe] in Ht'. destruct (exe t) eqn:Et; [|discriminate Ht']. injection Ht' as <-. apply R_dd. apply R_idle. now apply R_stop.
    + split; [exact Go|]. intros _ _ t' Ht'. assert (t' = set_started false t) by congruence. subst t'. now apply R_stop.
    + split; [exact Go|]. intros _ _ t' Ht'. assert (t' = set_started false t) by (unfold get in *; cbn [tm] in Ht'; congruence). subst t'. now apply R_stop.
  - assert (Hi : 0 <= (if (iv =? 0)%N then ival t else Z.of_N iv)) by (destruct (iv =? 0)%N; lia). split.
    + clear Ra A B C D E F G I. unfold start_op in H. destruct (interval_max <? (if (iv =? 0)%N then ival t else Z.of_N iv)).
      * injection H as <- <-. destruct (started t); auto.
      * destruct (started t); match type of H with context [start ?x ?y ?z ?u] => destruct (start x y z u) end; injection H as <- <-; intros j N;
          [rewrite get_requeue by exact Gs; destruct (Nat.eqb_spec j id); [congruence|auto]|rewrite get_requeue by exact Hg; destruct (Nat.eqb_spec j id); [congruence|auto]].
    + intros Oa Ob t' Ht'. cbn [sp_op] in *. rewrite A in *. destruct (Z.eqb_spec r 1) as [R1|R1]; [|discriminate Ob]. destruct (started t) eqn:St'.
      * destruct (R_start_op _ _ _ _ _ _ _ a St Gs Hi Oa B C D E F H) as (_ & K & _). rewrite Nq, Wq in K. destruct (K R1 Ob) as (t2 & G2 & R2). congruence.
      * destruct (R_start_op _ _ _ _ _ _ _ a W Hg Hi Oa B C D E F H) as (_ & K & _). destruct (K R1 Ob) as (t2 & G2 & R2). congruence.
  - destruct ((iv =? 0)%N || (interval_max <? Z.of_N iv) || mono t) eqn:Bad.
    { destruct (Sa 0 (eq_sym H)) as (-> & S1 & S2). split; [exact S1|]. intros _ _ t' Ht'. rewrite (S2 t' Ht'). exact Ra. }
    apply orb_false_iff in Bad as [Bad Mo]. apply orb_false_iff in Bad as [B1 B2]. apply N.eqb_neq in B1. apply Z.ltb_ge in B2.
    assert (Hi : 0 <= Z.of_N iv) by lia.
    destruct (started t) eqn:St'; cbn [andb] in H.
    + destruct (I eq_refl) as ((d & Hd & Ld) & Ts & Iv & Cn). unfold remaining in H. rewrite St', diff_mst, mst_of in H by (first [exact N1|exact (w_now _ _ W)|exact (norm_of _ (w_now _ _ W))]).
      destruct (Z.ltb_spec (Z.of_N iv) (Z.max 0 (mst (nxt t) - msec (now s)))) as [Re|Re].
      * split.
        { clear Ra A B C D E F G I. unfold start_op in H. destruct (interval_max <? Z.of_N iv); [injection H as <- <-; exact Go|]. match type of H with context [start ?x ?y ?z ?u] => destruct (start x y z u) end. injection H as <- <-.
          intros j N. rewrite get_requeue by exact Gs. destruct (Nat.eqb_spec j id); [congruence|auto]. }
        intros Oa Ob t' Ht'. destruct (R_start_op _ _ _ _ _ _ _ a St Gs Hi Oa B C D E F H) as (_ & K & Or). cbn [set_started t_start] in Or.
        assert (R1 : r = 1) by (destruct Or as [Or|[Or|[Or|Or]]]; [exact Or|lia|lia|congruence]). subst r. rewrite Nq, Wq in K.
        assert (Off : isset (s_off a) = false) by (rewrite D, isset_tvset; exact Ts).
        destruct (K eq_refl) as (t2 & G2 & [K1 K2 K3 K4 K5 K6 K7 K8]). { cbn [s_arm s_ok]. rewrite Oa, Off, andb_false_r. reflexivity. }
        assert (t' = t2) by congruence. subst t'. cbn [sp_op]. rewrite Hd. cbn [Z.eqb Pos.eqb].
        cbn [s_arm s_iv s_lim s_mono s_off s_end s_exec s_fired s_due] in K1, K2, K3, K4, K5, K6, K7, K8.
        constructor; cbn [s_iv s_lim s_mono s_off s_end s_exec s_fired s_due]; auto.
        -- rewrite <- K4. rewrite D. apply tvset_zero. exact Ts.
        -- intros S2. destruct (K8 S2) as ((d2 & Hd2 & Ld2) & Rest). split; [|exact Rest]. rewrite Off in Hd2. injection Hd2 as <-.
           eexists. split; [reflexivity|]. destruct (Z.ltb_spec (Z.of_N iv) (d - msec (now s))); lia.
      * destruct (Pu _ _ (eq_sym H)) as (-> & S1 & S2). split; [exact S1|]. intros _ _ t' Ht'. rewrite (S2 t' Ht'). cbn [sp_op]. rewrite Hd. cbn [Z.eqb Pos.eqb].
        constructor; cbn [s_iv s_lim s_mono s_off s_end s_exec s_fired s_due set_ival ival fcnt mono t_start t_end exe cnt started nxt]; auto; [lia|].
        intros _. split; [|split; [exact Ts|split; [left; lia|exact Cn]]]. eexists. split; [reflexivity|]. destruct (Z.ltb_spec (Z.of_N iv) (d - msec (now s))); lia.
    + destruct (Pu _ _ (eq_sym H)) as (-> & S1 & S2). split; [exact S1|]. intros _ _ t' Ht'. rewrite (S2 t' Ht'). cbn [sp_op Z.eqb Pos.eqb].
      destruct (s_due a) as [d|]; constructor; cbn [s_iv s_lim s_mono s_off s_end s_exec s_fired s_due set_ival ival fcnt mono t_start t_end exe cnt started nxt]; auto; try lia; congruence.
  - assert (Q : (s', r) = (s, 0) \/ r = 1 /\ exists y, unset x = y /\ (s', r) = (put s id (Some (set_tstart y t)), 1)).
    { destruct x as [x|]; [destruct (tvset x)|destruct (tvset (t_start t))]; rewrite <- H; auto; injection H as <- <-; right; cbn; eauto. }
    destruct Q as [Q|(-> & y & Hy & Q)].
    + destruct (Sa 0 Q) as (-> & S1 & S2). split; [exact S1|]. intros _ _ t' Ht'. rewrite (S2 t' Ht'). exact Ra.
    + destruct (Pu _ _ Q) as (_ & S1 & S2). split; [exact S1|]. cbn [sp_op Z.eqb Pos.eqb s_ok]. intros Oa Ob t' Ht'. rewrite (S2 t' Ht').
      constructor; cbn [s_iv s_lim s_mono s_off s_end s_exec s_fired s_due set_tstart ival fcnt mono t_start t_end exe cnt started nxt]; auto.
      intros S3. destruct (I S3) as ((d & Hd & _) & _). rewrite Oa in Ob. unfold stopped in Ob. rewrite Hd in Ob. discriminate Ob.
  - assert (Q : (s', r) = (s, 0) \/ r = 1 /\ (s', r) = (put s id (Some (mkt (unset x) (t_start t) (ival t) (fcnt t) (auto t) (dd t) (mono t) (started t) (cnt t) (nxt t) (last t) (exe t))), 1)).
    { destruct x as [x|]; [destruct (tvset x)|destruct (tvset (t_end t))]; rewrite <- H; auto; injection H as <- <-; right; cbn; eauto. }
    destruct Q as [Q|(-> & Q)].
    + destruct (Sa 0 Q) as (-> & S1 & S2). split; [exact S1|]. intros _ _ t' Ht'. rewrite (S2 t' Ht'). exact Ra.
    + destruct (Pu _ _ Q) as (_ & S1 & S2). split; [exact S1|]. cbn [sp_op Z.eqb Pos.eqb s_ok]. intros Oa Ob t' Ht'. rewrite (S2 t' Ht'). constructor; auto.
  - destruct (Pu _ _ (eq_sym H)) as (-> & S1 & S2). split; [exact S1|]. cbn [sp_op s_ok]. intros Oa Ob t' Ht'. rewrite (S2 t' Ht'). constructor; auto.
    intros S3. destruct (I S3) as ((d & Hd & _) & _). rewrite Oa in Ob. unfold stopped in Ob. rewrite Hd in Ob. discriminate Ob.
  - destruct (Pu _ _ (eq_sym H)) as (-> & S1 & S2). split; [exact S1|]. cbn [sp_op s_ok]. intros Oa Ob t' Ht'. rewrite (S2 t' Ht'). constructor; auto.
  - destruct (Pu _ _ (eq_sym H)) as (-> & S1 & S2). split; [exact S1|]. cbn [sp_op s_ok]. intros Oa Ob t' Ht'. rewrite (S2 t' Ht'). constructor; auto.
  - injection H as <- <-. cbn [sp_op]. destruct self.
    + split; [intros j N|intros _ _ t' Ht']; rewrite get_remove_self in * by exact Hg.
      * destruct (Nat.eqb_spec j id); [congruence|auto].
      * rewrite Nat.eqb_refl in Ht'. destruct (exe t) eqn:Et; [|discriminate Ht']. injection Ht' as <-. apply R_dd. now apply R_stop.
    + split; [exact Go|]. intros _ _ t' Ht'. assert (t' = set_started false t) by (unfold get in *; cbn [tm remove_other] in Ht'; congruence). subst t'. now apply R_stop.
  - destruct (Sa _ (eq_sym H)) as (-> & S1 & S2). split; [exact S1|]. intros _ _ t' Ht'. rewrite (S2 t' Ht'). exact Ra.
  - destruct (Sa _ (eq_sym H)) as (-> & S1 & S2). split; [exact S1|]. intros _ _ t' Ht'. rewrite (S2 t' Ht'). exact Ra.
Qed.

Lemma get_enqueue s pos id t j : (id < length (tm s))%nat -> get (enqueue s pos id t) j = if (j =? id)%nat then Some t else get s j.
Proof. intros L. rewrite <- get_put by exact L. reflexivity. Qed.

Lemma get_after_other s pos id t j : (id < length (tm s))%nat -> j <> id -> get (after s pos id t) j = get s j.
Proof.
  intros L N. unfold after. destruct (_ || _).
  - rewrite get_put by exact L. destruct (Nat.eqb_spec j id); [congruence|reflexivity].
  - cbv zeta. match goal with |- get (mkst _ _ (tm (enqueue s pos id ?x)) _ _ _ _ _) j = _ => change (get (enqueue s pos id x) j = get s j) end.
    rewrite get_enqueue by exact L. destruct (Nat.eqb_spec j id); [congruence|reflexivity].
Qed.

Lemma R_after s pos id t t' a : 0 <= now s -> (id < length (tm s))%nat -> tnorm t -> exe t = true -> R a t ->
  get (after s pos id (set_exe false t)) id = Some t' -> R (sp_step id a (EBack (now s) id)) t'.
Proof.
  intros U L Nt Et [A B C D E F G I]. unfold after. cbn [set_exe fcnt cnt].
  set (t1 := if negb (fcnt t =? 0)%N && (fcnt t <=? cnt t)%N then set_started false (set_exe false t) else set_exe false t).
  assert (T1 : tnorm t1 /\ exe t1 = false /\ ival t1 = ival t /\ fcnt t1 = fcnt t /\ mono t1 = mono t /\ t_start t1 = t_start t /\ t_end t1 = t_end t /\ cnt t1 = cnt t /\ nxt t1 = nxt t).
  { subst t1. destruct (negb (fcnt t =? 0)%N && (fcnt t <=? cnt t)%N); repeat match goal with |- _ /\ _ => split end; auto; exact Nt. }
  assert (T2 : started t1 = true -> started t = true /\ (fcnt t = 0%N \/ (cnt t < fcnt t)%N)).
  { subst t1. destruct (N.eqb_spec (fcnt t) 0); cbn [negb andb]; [cbn; auto|]. destruct (N.leb_spec (fcnt t) (cnt t)); cbn; [discriminate|auto]. }
  clearbody t1. destruct T1 as (T1n & T1e & T1i & T1f & T1m & T1o & T1d & T1c & T1x).
  destruct ((negb (started t1) && auto t1) || dd t1); [rewrite get_put, Nat.eqb_refl by exact L; discriminate|]. cbv zeta.
  match goal with |- get (mkst _ _ (tm (enqueue s pos id ?x)) _ _ _ _ _) id = _ -> _ => change (get (enqueue s pos id x) id = Some t' -> R (sp_step id a (EBack (now s) id)) t') end.
  rewrite get_enqueue, Nat.eqb_refl by exact L. intros H. injection H as H.
  cbn [sp_step]. rewrite Nat.eqb_refl. change (started (set_last (tv_of (now s)) t1)) with (started t1) in H. destruct (started t1) eqn:S1.
  - destruct (T2 eq_refl) as [S0 Cn]. destruct (I S0) as ((d & Hd & Ld) & Ts & Iv & _).
    destruct (schedule (now s) (wall s) (set_last (tv_of (now s)) t1)) as [ok t2] eqn:Es. cbn [snd] in H. subst t2.
    assert (N2 : tnorm (set_last (tv_of (now s)) t1)). { destruct T1n as (X1 & X2 & X3). repeat split; cbn; try lia; try apply X1; apply norm_of, U. }
    destruct (schedule_facts _ _ _ _ _ U N2 Es) as (F1 & F2 & F3 & F4 & F5 & F6 & F7 & F8 & _ & _ & _ & F9 & F10 & F11 & F12).
    cbn [set_last exe started t_end fcnt cnt mono ival nxt t_start] in *. rewrite T1e, T1i, T1f, T1m, T1o, T1d, T1c, T1x in *.
    assert (Ok : ok = true). { destruct ok; [reflexivity|]. destruct (F10 eq_refl) as [[Z1 Z2]|Z]; [destruct Iv; congruence|congruence]. }
    destruct (F9 Ok) as [F9a F9b]. rewrite Ts in F9b. rewrite Hd, B, A, C.
    replace (negb (fcnt t =? 0)%N && (fcnt t <=? s_fired a)%N) with false.
    2: { symmetry. destruct (N.eqb_spec (fcnt t) 0); [reflexivity|]. destruct Cn as [Cn|Cn]; [congruence|]. cbn. apply N.leb_gt. lia. }
    destruct Nt as (Nt1 & _ & Nt3).
    constructor; cbn [s_iv s_lim s_mono s_off s_end s_exec s_fired s_due]; try congruence.
    + rewrite (F11 Ts). exact D.
    + intros _. split; [|split; [exact F9a|split; [rewrite F8, F5; exact Iv|right; rewrite F5, F6; exact Cn]]].
      eexists. split; [reflexivity|]. rewrite F9b. destruct (mono t); cbn [negb orb]; rewrite ?orb_false_r, ?orb_true_r; [|lia].
      destruct (tvset (nxt t)) eqn:Tn; cbn [negb]; [destruct (s_fired a =? 0)%N; lia|].
      apply tvset_zero in Tn. rewrite Tn in Ld. change (mst zero) with 0 in Ld. assert (0 <= msec (now s)) by (apply Z.div_pos; lia). destruct (s_fired a =? 0)%N; lia.
  - subst t'. constructor; cbn [s_iv s_lim s_mono s_off s_end s_exec s_fired s_due set_last exe started t_end fcnt cnt mono ival nxt t_start]; try congruence.
Qed.

Lemma R_expire s pos id t t' a : (id < length (tm s))%nat -> exe t = false -> R a t ->
  get (after s pos id (set_started false t)) id = Some t' -> R (s_stop a) t'.
Proof.
  intros L Et Ra. unfold after. set (t1 := if negb (fcnt (set_started false t) =? 0)%N && (fcnt (set_started false t) <=? cnt (set_started false t))%N then set_started false (set_started false t) else set_started false t). assert (T : t1 = set_started false t) by (subst t1; destruct (_ && _); reflexivity). rewrite T. clear T t1.
  destruct (_ || _); [rewrite get_put, Nat.eqb_refl by exact L; discriminate|]. cbv zeta. cbn [set_last set_started started].
  match goal with |- get (mkst _ _ (tm (enqueue s pos id ?x)) _ _ _ _ _) id = _ -> _ => change (get (enqueue s pos id x) id = Some t' -> R (s_stop a) t') end.
  rewrite get_enqueue, Nat.eqb_refl by exact L. intros H. injection H as <-. destruct Ra as [A B C D E F G I]. constructor; auto. discriminate.
Qed.

(** ** The invariant along an execution *)
Definition Inv (s : state) (tr : list event) : Prop :=
  wf None s /\ (forall id, (length (tm s) <= id)%nat -> spec id tr = s_new) /\ (forall id t, get s id = Some t -> s_ok (spec id tr) = true -> R (spec id tr) t).

Lemma spec_app id tr e : spec id (tr ++ e) = fold_left (sp_step id) e (spec id tr).
Proof. apply fold_left_app. Qed.

Lemma ok_op a us w o r : s_ok (sp_op a us w o r) = true -> s_ok a = true.
Proof.
  destruct o; cbn; try (destruct (r =? 1)); cbn; try discriminate; auto; try (intros H; apply andb_true_iff in H; tauto).
  destruct (s_due a); cbn; auto.
Qed.

(** What a firing means, in the state in which it happens. *)
Lemma fire_spec s pos s' e tr us w id : Inv s tr -> step s (Iter pos) = Some (s', e) -> In (EFire us w id) e -> s_ok (spec id tr) = true ->
  e = [EFire us w id] /\ us = now s /\ may_fire (spec id tr) us w /\ proc s <> None /\
  exists t, get s id = Some t /\ started t = true /\ que s <> [] /\ hd_error (que s) = Some id.
Proof.
  intros (W & I1 & I2) H Hi Ok. cbn [step] in H. destruct (proc s) as [[curr l]|] eqn:P; [|discriminate H]. destruct (running s) eqn:Rn; [discriminate H|].
  destruct (que s) as [|j r] eqn:Q; [injection H as <- <-; destruct Hi|]. destruct (get s j) as [t|] eqn:Hg; [|discriminate H].
  destruct (negb _ && started t && (0 <=? diff (nxt t) curr)) eqn:Cd; [|injection H as <- <-; destruct Hi].
  destruct (tvset (t_end t) && (diff (wall s) (t_end t) <=? 0)) eqn:En; injection H as <- <-; [destruct Hi as [Hi|[]]; discriminate Hi|].
  destruct Hi as [Hi|[]]. injection Hi as <- <- <-. split; [reflexivity|]. split; [reflexivity|]. split.
  - destruct (I2 j t Hg Ok) as [A B C D E F G I]. apply andb_true_iff in Cd as [Cd Df]. apply andb_true_iff in Cd as [_ St]. apply Z.leb_le in Df.
    destruct (I St) as ((d & Hd & Ld) & _ & _ & Cn). destruct (w_curr _ _ W _ _ P) as (u & Hu & ->).
    destruct (w_norm _ _ W j t ltac:(discriminate) Hg) as (N1 & _). rewrite diff_mst, mst_of in Df by (try apply norm_of; try apply N1; lia).
    pose proof (msec_mono u (now s) ltac:(lia)). destruct (w_que _ _ W j ltac:(rewrite Q; cbn; auto)) as (_ & t' & Ht' & Et). assert (t' = t) by congruence. subst t'.
    repeat split.
    + exists d. split; [exact Hd|lia].
    + rewrite B. destruct Cn as [Cn|[Cn|Cn]]; [congruence|left; exact Cn|right; lia].
    + congruence.
    + rewrite E, isset_tvset. intros Te. rewrite Te in En. cbn [andb] in En. apply Z.leb_gt in En. exact En.
  - split; [congruence|]. exists t. apply andb_true_iff in Cd as [Cd _]. apply andb_true_iff in Cd as [_ St]. repeat split; auto; discriminate.
Qed.

Lemma len_requeue s pos id t t' : length (tm (requeue s pos id t t')) = length (tm s).
Proof. unfold requeue, enqueue. destruct (exe t); cbn; rewrite length_upd; reflexivity. Qed.
Lemma len_remove_self s id t : length (tm (remove_self s id t)) = length (tm s).
Proof. unfold remove_self. destruct (exe t); cbn; rewrite length_upd; reflexivity. Qed.
Lemma len_after s pos id t : length (tm (after s pos id t)) = length (tm s).
Proof. unfold after. destruct (_ || _); cbn; rewrite length_upd; reflexivity. Qed.
Lemma len_start s pos id t iv s' r : start_op s pos id t iv = (s', r) -> length (tm s') = length (tm s).
Proof.
  unfold start_op. destruct (interval_max <? iv); [intros H; injection H as <- <-; reflexivity|]. destruct (start _ _ _ _) as [ok t']. intros H. injection H as <- <-. apply len_requeue.
Qed.
Lemma len_do s self pos id t o s' r : do_op s self pos id t o = (s', r) -> length (tm s') = length (tm s).
Proof.
  destruct o as [iv| |iv|iv|x|x|n|b|m| | |]; cbn [do_op]; intros H.
  - eapply len_start; eauto.
  - injection H as <- <-. destruct self; [destruct (auto t)|]; cbn; rewrite ?len_remove_self; apply len_requeue.
  - apply len_start in H. rewrite H. destruct (started t); [apply len_requeue|reflexivity].
  - destruct (_ || _); [injection H as <- <-; reflexivity|]. destruct (_ && _); [apply len_start in H; rewrite H; apply len_requeue|]. injection H as <- <-. cbn. apply length_upd.
  - destruct x as [x|]; [destruct (tvset x)|destruct (tvset (t_start t))]; injection H as <- <-; cbn; rewrite ?length_upd; reflexivity.
  - destruct x as [x|]; [destruct (tvset x)|destruct (tvset (t_end t))]; injection H as <- <-; cbn; rewrite ?length_upd; reflexivity.
  - injection H as <- <-. apply length_upd.
  - injection H as <- <-. apply length_upd.
  - injection H as <- <-. apply length_upd.
  - injection H as <- <-. destruct self; [apply len_remove_self|apply len_requeue].
  - injection H as <- <-. reflexivity.
  - injection H as <- <-. reflexivity.
Qed.

(** The usual shape: the events concern timer [id] only, the other timers do not change. *)
Lemma inv_by s s' tr e id : Inv s tr -> wf None s' -> (id < length (tm s))%nat -> length (tm s') = length (tm s) ->
  (forall j, j <> id -> get s' j = get s j /\ forall a, fold_left (sp_step j) e a = a) ->
  (forall t', get s' id = Some t' -> s_ok (fold_left (sp_step id) e (spec id tr)) = true -> R (fold_left (sp_step id) e (spec id tr)) t') ->
  Inv s' (tr ++ e).
Proof.
  intros (W & I1 & I2) W' L Ln Ot Me. split; [exact W'|]. split.
  - intros j Hj. rewrite spec_app. destruct (Ot j ltac:(lia)) as [_ ->]. apply I1. lia.
  - intros j t. rewrite spec_app. destruct (Nat.eq_dec j id) as [->|N]; [apply Me|]. destruct (Ot j N) as [-> ->]. apply I2.
Qed.

Lemma inv_step s a s' e tr : Inv s tr -> step s a = Some (s', e) -> Inv s' (tr ++ e).
Proof.
  intros V H. pose proof V as (W & I1 & I2). pose proof (wf_step _ _ _ _ W H) as W'.
  assert (Sm : forall e', (forall j a, fold_left (sp_step j) e' a = a) -> tm s' = tm s -> Inv s' (tr ++ e')).
  { intros e' Ee T. assert (Gg : forall j, get s' j = get s j) by (intros j; unfold get; now rewrite T). split; [exact W'|]. split; intros j; rewrite spec_app, Ee; [rewrite T; apply I1|]. intros t. rewrite Gg. apply I2. }
  destruct a as [pos|self pos id o|k pos| |d|x| |pos|pos]; cbn [step] in H.
  - destruct (unlocked s); [|discriminate H]. injection H as <- <-. split; [exact W'|].
    assert (Le : length (tm (enqueue (mkst (now s) (wall s) (tm s ++ [Some fresh]) (que s) (running s) (proc s) (tasks s) (tails s)) pos (length (tm s)) fresh)) = S (length (tm s))) by (cbn; rewrite length_upd, app_length; cbn; lia).
    split; [intros j Hj; rewrite spec_app; cbn [fold_left sp_step]; apply I1; rewrite Le in Hj; lia|].
    intros j t. rewrite get_enqueue by (cbn; rewrite app_length; cbn; lia). rewrite spec_app. cbn [fold_left sp_step]. destruct (Nat.eqb_spec j (length (tm s))) as [->|N].
    + intros Z _. injection Z as <-. rewrite I1 by lia. constructor; cbn; try reflexivity; discriminate.
    + unfold get. cbn [tm]. destruct (lt_dec j (length (tm s))) as [Lj|Lj]; [rewrite nth_error_app1 by lia; apply I2|].
      replace (nth_error (tm s ++ [Some fresh]) j) with (@None (option timer)) by (symmetry; apply nth_error_None; rewrite app_length; cbn; lia). discriminate.
  - destruct (unlocked s); [|discriminate H]. destruct (get s id) as [t|] eqn:Hg; [|discriminate H].
    destruct (do_op s self pos id t o) as [s1 r] eqn:Hd. injection H as <- <-. pose proof (len_do _ _ _ _ _ _ _ _ Hd) as Ln.
    apply (inv_by s _ _ _ id); auto; [exact (get_lt _ _ _ Hg)| |].
    + intros j N. cbn [fold_left sp_step]. destruct (Nat.eqb_spec id j); [congruence|]. split; [|reflexivity].
      exact (do_frame _ _ _ _ _ _ _ _ Hg Hd j N).
    + cbn [fold_left sp_step]. rewrite Nat.eqb_refl. intros t' Ht' Ob. pose proof (ok_op _ _ _ _ _ Ob) as Ok.
      exact (proj2 (R_do _ _ _ _ _ _ _ _ _ W Hg (I2 id t Hg Ok) Hd) Ok Ob t' Ht').
  - destruct (unlocked s); [|discriminate H]. destruct (nth_error (tails s) k) as [id|]; [|discriminate H].
    destruct (get s id) as [t|] eqn:Hg; injection H as <- <-; [|apply Sm; reflexivity]. destruct (auto t); [|apply Sm; reflexivity].
    apply (inv_by s _ _ _ id); auto; [exact (get_lt _ _ _ Hg)| | |].
    + cbn. unfold requeue, enqueue. destruct (exe t); cbn; rewrite length_upd; reflexivity.
    + intros j N. split; [|reflexivity]. unfold remove_other. match goal with |- get (mkst _ _ (tm ?x) _ _ _ _ _) j = _ => change (get x j = get s j) end.
      rewrite get_requeue by exact Hg. destruct (Nat.eqb_spec j id); [congruence|reflexivity].
    + intros t' Ht' Ok. unfold remove_other in Ht'. match type of Ht' with get (mkst _ _ (tm ?x) _ _ _ _ _) id = _ => change (get x id = Some t') in Ht' end.
      rewrite get_requeue, Nat.eqb_refl in Ht' by exact Hg. injection Ht' as <-. cbn [fold_left] in *. apply R_idle. apply I2; auto.
  - destruct (proc s) eqn:P; [discriminate H|]. destruct (tasks s) as [|id r]; [discriminate H|]. rewrite <- P in H. destruct (existsb (Nat.eqb id) (que s)).
    + destruct (get s id) as [t|] eqn:Hg; [|discriminate H]. injection H as <- <-.
      assert (Gg : forall j, get (remove_self (mkst (now s) (wall s) (tm s) (que s) (running s) (proc s) r (tails s)) id t) j = if (j =? id)%nat then (if exe t then Some (set_dd (set_started false t)) else None) else get s j)
        by (intros j; exact (get_remove_self (mkst (now s) (wall s) (tm s) (que s) (running s) (proc s) r (tails s)) id t j Hg)).
      apply (inv_by s _ _ _ id); auto; [exact (get_lt _ _ _ Hg)|exact (len_remove_self (mkst (now s) (wall s) (tm s) (que s) (running s) (proc s) r (tails s)) id t)| |].
      * intros j N. split; [|reflexivity]. rewrite Gg. destruct (Nat.eqb_spec j id); [congruence|reflexivity].
      * intros t' Ht' Ok. rewrite Gg, Nat.eqb_refl in Ht'. destruct (exe t); [|discriminate Ht']. injection Ht' as <-. apply R_dd, R_idle. apply I2; auto.
    + injection H as <- <-. apply Sm; reflexivity.
  - injection H as <- <-. apply Sm; reflexivity.
  - injection H as <- <-. apply Sm; reflexivity.
  - destruct (proc s); [discriminate H|]. injection H as <- <-. apply Sm; reflexivity.
  - destruct (proc s) as [[curr l]|] eqn:P; [|discriminate H]. destruct (running s) eqn:Rn; [discriminate H|].
    destruct (que s) as [|id r] eqn:Q; [injection H as <- <-; apply Sm; reflexivity|]. destruct (get s id) as [t|] eqn:Hg; [|discriminate H].
    destruct (w_que _ _ W id ltac:(rewrite Q; cbn; auto)) as (_ & t0 & Ht0 & Et). assert (t0 = t) by congruence. subst t0. clear Ht0.
    destruct (negb _ && started t && (0 <=? diff (nxt t) curr)); [|injection H as <- <-; apply Sm; reflexivity]. pose proof (get_lt _ _ _ Hg) as L.
    destruct (tvset (t_end t) && (diff (wall s) (t_end t) <=? 0)); injection H as <- <-.
    + apply (inv_by s _ _ _ id); auto; [rewrite len_after; reflexivity| |].
      * intros j N. cbn [fold_left sp_step]. destruct (Nat.eqb_spec id j); [congruence|]. split; [|reflexivity]. rewrite get_after_other by auto. reflexivity.
      * cbn [fold_left sp_step]. rewrite Nat.eqb_refl. intros t' Ht' Ok. eapply R_expire; [|exact Et| |exact Ht']; [exact L|]. apply I2; auto.
    + match goal with |- Inv ?x _ => assert (Gg : forall j, get x j = if (j =? id)%nat then Some (set_exe true (set_cnt (cnt t + 1) t)) else get s j) end.
      { intros j. rewrite <- get_put by exact L. reflexivity. }
      apply (inv_by s _ _ _ id); auto; [cbn; apply length_upd| |].
      * intros j N. cbn [fold_left sp_step]. destruct (Nat.eqb_spec id j); [congruence|]. split; [|reflexivity]. rewrite Gg. destruct (Nat.eqb_spec j id); [congruence|reflexivity].
      * cbn [fold_left sp_step]. rewrite Nat.eqb_refl. intros t' Ht' Ok. rewrite Gg, Nat.eqb_refl in Ht'. injection Ht' as <-.
        destruct (I2 id t Hg Ok) as [A B C D E F G I]. constructor; cbn; auto; [lia|]. intros St. destruct (I St) as (X1 & X2 & X3 & _). auto 6.
  - destruct (running s) as [id|] eqn:Rn; [|discriminate H]. destruct (get s id) as [t|] eqn:Hg; [|discriminate H]. injection H as <- <-.
    pose proof (get_lt _ _ _ Hg) as L. destruct (w_run2 _ _ W id Rn) as (_ & (t0 & Ht0 & Et) & _). assert (t0 = t) by congruence. subst t0.
    apply (inv_by s _ _ _ id); auto; [rewrite len_after; reflexivity| |].
    + intros j N. cbn [fold_left sp_step]. destruct (Nat.eqb_spec id j); [congruence|]. split; [|reflexivity]. rewrite get_after_other by auto. reflexivity.
    + intros t' Ht' Ok. cbn [fold_left]. eapply R_after with (s := mkst (now s) (wall s) (tm s) (que s) None (proc s) (tasks s) (tails s)); eauto; [exact (w_now _ _ W)|exact (w_norm _ _ W id t ltac:(discriminate) Hg)|].
      apply I2; auto. cbn [fold_left sp_step] in Ok. rewrite Nat.eqb_refl in Ok. exact Ok.
Qed.

Lemma inv_init us w : Inv (init us w) [].
Proof.
  split; [|split; [reflexivity|]]; [|intros id t H; destruct id; discriminate H].
  constructor; cbn; try discriminate; try tauto; try lia; try apply NoDup_nil; intros id t _ H; destruct id; discriminate H.
Qed.

Lemma inv_exec l : forall s tr s' e, Inv s tr -> exec s l = Some (s', e) -> Inv s' (tr ++ e).
Proof.
  induction l as [|a l IH]; intros s tr s' e V H; cbn in H.
  - injection H as <- <-. rewrite app_nil_r. exact V.
  - destruct (step s a) as [[s1 e1]|] eqn:E; [|discriminate H]. destruct (exec s1 l) as [[s2 e2]|] eqn:E2; [|discriminate H]. injection H as <- <-.
    rewrite app_assoc. eapply IH; [|exact E2]. eapply inv_step; eauto.
Qed.

Lemma step_fire s a s' e us w id : step s a = Some (s', e) -> In (EFire us w id) e -> exists pos, a = Iter pos.
Proof.
  intros H Hi. destruct a as [pos|self pos j o|k pos| |d|x| |pos|pos]; cbn [step] in H; [..|eauto|]; exfalso;
    repeat match type of H with
    | (match ?x with _ => _ end) = _ => destruct x eqn:?; try discriminate H
    | (let '(_, _) := ?x in _) = _ => destruct x
    end; injection H as <- <-; cbn in Hi; try contradiction; destruct Hi as [Hi|[]]; discriminate Hi.
Qed.

Lemma step_one s a s' e : step s a = Some (s', e) -> (length e <= 1)%nat.
Proof.
  intros H. destruct a as [pos|self pos j o|k pos| |d|x| |pos|pos]; cbn [step] in H;
    repeat match type of H with
    | (match ?x with _ => _ end) = _ => destruct x eqn:?; try discriminate H
    | (let '(_, _) := ?x in _) = _ => destruct x
    end; injection H as <- <-; cbn; lia.
Qed.

Lemma exec_fire l : forall s tr s' tr1 us w id tr2, Inv s tr -> exec s l = Some (s', tr1 ++ EFire us w id :: tr2) -> s_ok (spec id (tr ++ tr1)) = true ->
  may_fire (spec id (tr ++ tr1)) us w.
Proof.
  induction l as [|a l IH]; intros s tr s' tr1 us w id tr2 V H Ok; cbn in H.
  - injection H as _ H. destruct tr1; discriminate H.
  - destruct (step s a) as [[s1 e1]|] eqn:E; [|discriminate H]. destruct (exec s1 l) as [[s2 e2]|] eqn:E2; [|discriminate H]. injection H as _ H.
    pose proof (step_one _ _ _ _ E) as L1. destruct e1 as [|x [|]]; [| |cbn in L1; lia]; cbn [app] in H.
    + subst e2. pose proof (inv_step _ _ _ _ _ V E) as V1. rewrite app_nil_r in V1. exact (IH _ _ _ _ _ _ _ _ V1 E2 Ok).
    + destruct tr1 as [|y tr1]; cbn [app] in H.
      * injection H as -> _. rewrite app_nil_r in *. destruct (step_fire _ _ _ _ _ _ _ E ltac:(cbn; auto)) as [pos ->].
        exact (proj1 (proj2 (proj2 (fire_spec _ _ _ _ _ _ _ _ V E ltac:(cbn; auto) Ok)))).
      * injection H as -> H. subst e2. pose proof (inv_step _ _ _ _ _ V E) as V1. rewrite (app_assoc tr [y] tr1 : tr ++ y :: tr1 = (tr ++ [y]) ++ tr1) in *. exact (IH _ _ _ _ _ _ _ _ V1 E2 Ok).
Qed.

(** ** The order of firing *)
Lemma head_least s id j t u : wf None s -> hd_error (que s) = Some id -> get s id = Some t -> get s j = Some u -> exe u = false -> le_key t u \/ j = id.
Proof.
  intros W Hh Ht Hu Eu. pose proof (w_all _ _ W j u ltac:(discriminate) Hu Eu) as Hj. pose proof (w_srt _ _ W) as S.
  destruct (que s) as [|i r]; [discriminate Hh|]. injection Hh as ->. destruct S as [S _]. destruct Hj as [->|Hj]; [auto|]. left. exact (S j Hj t u Ht Hu).
Qed.

Lemma fire_first s pos s' e us w id tr : Inv s tr -> step s (Iter pos) = Some (s', e) -> In (EFire us w id) e ->
  exists t, get s id = Some t /\ started t = true /\ forall j u, get s j = Some u -> started u = true -> mst (nxt t) <= mst (nxt u).
Proof.
  intros (W & _) H Hi. cbn [step] in H. destruct (proc s) as [[curr l]|] eqn:P; [|discriminate H]. destruct (running s) eqn:Rn; [discriminate H|].
  destruct (que s) as [|j r] eqn:Q; [injection H as <- <-; destruct Hi|]. destruct (get s j) as [t|] eqn:Hg; [|discriminate H].
  destruct (negb _ && started t && (0 <=? diff (nxt t) curr)) eqn:Cd; [|injection H as <- <-; destruct Hi].
  destruct (tvset (t_end t) && (diff (wall s) (t_end t) <=? 0)) eqn:En; injection H as <- <-; destruct Hi as [Hi|[]]; [discriminate Hi|]. injection Hi as <- <- <-.
  apply andb_true_iff in Cd as [Cd _]. apply andb_true_iff in Cd as [_ St]. exists t. split; [exact Hg|]. split; [exact St|].
  intros k u Hu Su. assert (Eu : exe u = false). { destruct (exe u) eqn:X; [|reflexivity]. pose proof (w_run1 _ _ W k u ltac:(discriminate) Hu X). congruence. }
  destruct (head_least s j k t u W ltac:(rewrite Q; reflexivity) Hg Hu Eu) as [[[_ K]|[K _]]| ->]; [|congruence|assert (u = t) by congruence; subst; lia].
  destruct K as [K|[K|[K _]]]; [congruence|lia|lia].
Qed.

Lemma process_end s pos s' tr : Inv s tr -> step s (Iter pos) = Some (s', []) -> exists c l, proc s = Some (c, l) /\ s' = mkst (now s) (wall s) (tm s) (que s) None None (tasks s) (tails s) /\
  ((exists k, l = Some k /\ hd_error (que s) = Some k) \/ forall j u, get s j = Some u -> started u = true -> mst c < mst (nxt u)).
Proof.
  intros (W & _) H. cbn [step] in H. destruct (proc s) as [[curr l]|] eqn:P; [|discriminate H]. destruct (running s) eqn:Rn; [discriminate H|]. exists curr, l. split; [reflexivity|].
  assert (Al : forall k u, get s k = Some u -> exe u = false) by (intros k u Hu; destruct (exe u) eqn:X; [|reflexivity]; pose proof (w_run1 _ _ W k u ltac:(discriminate) Hu X); congruence).
  destruct (que s) as [|id r] eqn:Q.
  { injection H as <-. split; [reflexivity|]. right. intros j u Hu _. pose proof (w_all _ _ W j u ltac:(discriminate) Hu (Al j u Hu)) as X. rewrite Q in X. destruct X. }
  destruct (get s id) as [t|] eqn:Hg; [|discriminate H].
  destruct (negb _ && started t && (0 <=? diff (nxt t) curr)) eqn:Cd.
  { destruct (tvset (t_end t) && (diff (wall s) (t_end t) <=? 0)); discriminate H. }
  injection H as <-. split; [reflexivity|].
  destruct (match l with Some j => (j =? id)%nat | None => false end) eqn:Ls.
  { left. destruct l as [k|]; [|discriminate Ls]. apply Nat.eqb_eq in Ls. subst k. exists id. auto. }
  right. cbn [negb andb] in Cd. intros j u Hu Su. destruct (w_curr _ _ W _ _ P) as (c & Hc & ->).
  pose proof (w_norm _ _ W id t ltac:(discriminate) Hg) as (N1 & _).
  destruct (head_least s id j t u W ltac:(rewrite Q; reflexivity) Hg Hu (Al j u Hu)) as [[[St K]|[K K']]| ->].
  - rewrite St in Cd. cbn [andb] in Cd. apply Z.leb_gt in Cd. rewrite diff_mst in Cd by (try apply norm_of; auto; lia). destruct K as [K|[K|[K _]]]; [congruence|lia|lia].
  - congruence.
  - assert (u = t) by congruence. subst u. rewrite Su in Cd. cbn [andb] in Cd. apply Z.leb_gt in Cd. rewrite diff_mst in Cd by (try apply norm_of; auto; lia). lia.
Qed.

Lemma minimum_spec s tr : Inv s tr ->
  match minimum s with
  | Some m => (exists id t, get s id = Some t /\ started t = true /\ remaining (now s) t = m) /\
              forall j u, get s j = Some u -> exe u = false -> started u = true -> m <= remaining (now s) u
  | None => forall j u, get s j = Some u -> exe u = false -> started u = false
  end.
Proof.
  intros (W & _). unfold minimum. destruct (que s) as [|id r] eqn:Q.
  { intros j u Hu Eu. pose proof (w_all _ _ W j u ltac:(discriminate) Hu Eu) as X. rewrite Q in X. destruct X. }
  destruct (w_que _ _ W id ltac:(rewrite Q; cbn; auto)) as (_ & t & Hg & Et). rewrite Hg.
  assert (Hh : hd_error (que s) = Some id) by (rewrite Q; reflexivity). pose proof (w_now _ _ W) as Un.
  destruct (started t) eqn:St.
  - split; [exists id, t; unfold remaining; rewrite St; auto|]. intros j u Hu Eu Su. unfold remaining. rewrite Su.
    pose proof (w_norm _ _ W id t ltac:(discriminate) Hg) as (N1 & _). pose proof (w_norm _ _ W j u ltac:(discriminate) Hu) as (N2 & _).
    rewrite !diff_mst by (auto using norm_of). destruct (head_least s id j t u W Hh Hg Hu Eu) as [[[_ K]|[K _]]| ->]; [|congruence|assert (u = t) by congruence; subst; lia].
    destruct K as [K|[K|[K _]]]; [congruence|lia|lia].
  - intros j u Hu Eu. destruct (head_least s id j t u W Hh Hg Hu Eu) as [[[K _]|[_ K]]| ->]; [congruence|exact K|congruence].
Qed.

(** A call of M_event_timer_process finds the due timers. *)
Lemma due_found s tr j u pos : Inv s tr -> proc s = None -> get s j = Some u -> started u = true -> mst (nxt u) <= msec (now s) ->
  exists s' e id t, exec s [Begin; Iter pos] = Some (s', [e]) /\ (e = EFire (now s) (wall s) id \/ e = EExpire id) /\ get s id = Some t /\ started t = true /\ mst (nxt t) <= mst (nxt u).
Proof.
  intros (W & _) P Hu Su Du. assert (Rn : running s = None) by (destruct (running s) eqn:X; [|reflexivity]; destruct (w_run2 _ _ W n X) as (_ & _ & K); congruence).
  assert (Eu : exe u = false) by (destruct (exe u) eqn:X; [|reflexivity]; pose proof (w_run1 _ _ W j u ltac:(discriminate) Hu X); congruence).
  pose proof (w_all _ _ W j u ltac:(discriminate) Hu Eu) as Hj. cbn [exec step]. rewrite P. cbn [proc running que now wall tm tasks tails]. rewrite Rn. pose proof (w_now _ _ W) as Un.
  destruct (que s) as [|id r] eqn:Q; [destruct Hj|]. destruct (w_que _ _ W id ltac:(rewrite Q; cbn; auto)) as (_ & t & Hg & Et).
  change (get (mkst (now s) (wall s) (tm s) (id :: r) None (Some (tv_of (now s), None)) (tasks s) (tails s)) id) with (get s id). rewrite Hg.
  pose proof (w_norm _ _ W id t ltac:(discriminate) Hg) as (N1 & _).
  assert (K : started t = true /\ mst (nxt t) <= mst (nxt u)).
  { destruct (head_least s id j t u W ltac:(rewrite Q; reflexivity) Hg Hu Eu) as [[[St K]|[_ K]]| ->]; [|congruence|assert (u = t) by congruence; subst; split; [exact Su|lia]].
    split; [exact St|]. destruct K as [K|[K|[K _]]]; [congruence|lia|lia]. }
  destruct K as [St Lt]. rewrite St. cbn [negb andb]. rewrite diff_mst, mst_of by (try apply norm_of; auto).
  destruct (Z.leb_spec 0 (msec (now s) - mst (nxt t))) as [_|X]; [|lia].
  destruct (tvset (t_end t) && (diff (wall s) (t_end t) <=? 0)); eexists _, _, id, t; (split; [reflexivity|]); auto.
Qed.

(** The invariant of the emulated read/write lock. *)
From Verif Require Import Base.Lib Base.Conc Rwlock.Model Rwlock.Spec.

(** Classes of program counters. *)
Definition inm (p : pc) : bool := match p with
  | RTest | RInc | RWait | RDec | RTake | ROut | WTest | WInc | WWait | WDec | WTake | WOut
  | UTest _ | URead _ | UReadOut _ | UWrite _ | UWriteOut _ _ => true | _ => false end.
Definition holdr (p : pc) : bool := match p with
  | ROut | HoldR | UStart (Some false) | UTest (Some false) | URead (Some false) => true | _ => false end.
Definition holdw (p : pc) : bool := match p with
  | WOut | HoldW | UStart (Some true) | UTest (Some true) | UWrite (Some true) => true | _ => false end.
Definition bad (p : pc) : bool := match p with
  | UStart None | UTest None | URead None | URead (Some true) | UWrite None | UWrite (Some false) => true | _ => false end.
Definition rcount (p : pc) : bool := match p with RWait | RBlocked | RWoken | RDec => true | _ => false end.
Definition wcount (p : pc) : bool := match p with WWait | WBlocked | WWoken | WDec => true | _ => false end.
Definition wpend (p : pc) : bool := match p with
  | WWoken | WDec | WTest | WTake | USignal => true
  | UReadOut n | UReadSig n | UWriteOut _ n | UWriteSig _ n => (0 <? n)%nat | _ => false end.
Definition winc (p : pc) : bool := match p with WInc | WWait => true | _ => false end.
Definition wtake (p : pc) : bool := match p with WTake => true | _ => false end.
Definition rtake (p : pc) : bool := match p with RTake => true | _ => false end.
Definition rinc (p : pc) : bool := match p with RInc | RWait => true | _ => false end.
Definition rblk (p : pc) : bool := match p with RBlocked => true | _ => false end.
Definition wmid (p : pc) : bool := match p with WTest | WInc | WTake => true | _ => false end.
Definition bcast (p : pc) : bool := match p with
  | UBroadcast => true
  | UWriteOut m n | UWriteSig m n => (0 <? m)%nat && (n =? 0)%nat | _ => false end.

Definition wtest (p : pc) : bool := match p with WTest => true | _ => false end.
Definition mrest (p : pc) : bool := match p with
  | RTest | RDec | ROut | WDec | WOut | UTest _ | URead _ | UReadOut _ | UWrite _ | UWriteOut _ _ => true | _ => false end.

Lemma parts l : (cnt winc l + cnt wtake l + cnt rtake l + cnt rinc l + cnt wtest l + cnt mrest l = cnt inm l)%nat.
Proof. induction l as [|p l IH]; cbn [cnt]; [lia|]. destruct p; cbn [winc wtake rtake rinc inm wtest mrest]; lia. Qed.
Lemma wmid_parts l : (cnt wmid l <= cnt winc l + cnt wtake l + cnt wtest l)%nat.
Proof. induction l as [|p l IH]; cbn [cnt]; [lia|]. destruct p; cbn [winc wtake wtest wmid]; lia. Qed.
Lemma wcount_split l : (cnt wcount l <= cnt is_wblocked l + cnt wpend l + cnt winc l)%nat.
Proof. induction l as [|p l IH]; cbn [cnt]; [lia|]. destruct p; cbn [wcount is_wblocked wpend winc]; lia. Qed.
Lemma rblk_rcount l : (cnt rblk l <= cnt rcount l)%nat.
Proof. apply cnt_le. intros []; cbn; auto; discriminate. Qed.

(** The invariant, in numbers. *)
Record ok (mx : bool) (lc : Z) (nr nw c_inm c_bad c_holdr c_holdw c_rcount c_wcount c_winc c_wtake c_rtake c_rinc c_wpend c_rblk c_wmid c_bcast : nat) : Prop := mkok {
  i_mutex : c_inm = b2n mx;
  i_bad : c_bad = 0%nat;
  i_cnt : (c_holdw = 0%nat /\ lc = Z.of_nat c_holdr) \/ (c_holdw = 1%nat /\ c_holdr = 0%nat /\ lc = (-1)%Z);
  i_rd : nr = c_rcount;
  i_wr : nw = c_wcount;
  i_winc : (0 < c_winc)%nat -> lc <> 0%Z;
  i_wtake : (0 < c_wtake)%nat -> lc = 0%Z;
  i_rtake : (0 < c_rtake)%nat -> (0 <= lc)%Z;
  i_rinc : (0 < c_rinc)%nat -> (lc < 0)%Z \/ (0 < nw)%nat;
  i_w : lc = 0%Z -> (0 < nw)%nat -> (0 < c_wpend)%nat;
  i_r : (0 < c_rblk)%nat -> (0 <= lc)%Z -> nw = 0%nat -> c_wmid = 0%nat -> (0 < c_bcast)%nat
}.

Definition inv (s : state) : Prop :=
  let l := threads s in
  ok (mutex s) (lockcnt s) (num_rd s) (num_wr s) (cnt inm l) (cnt bad l) (cnt holdr l) (cnt holdw l) (cnt rcount l) (cnt wcount l)
    (cnt winc l) (cnt wtake l) (cnt rtake l) (cnt rinc l) (cnt wpend l) (cnt rblk l) (cnt wmid l) (cnt bcast l).

Lemma inv_start n : inv (start n).
Proof. unfold start, inv. cbn [threads mutex lockcnt num_rd num_wr]. rewrite ?cnt_repeat. cbn. split; cbn [b2n]; lia. Qed.

(** All counts before, and after the thread at [p] moved to [q]. *)
Lemma e00 a b : (b + 0 = a + 0)%nat -> b = a. Proof. lia. Qed.
Lemma e11 a b : (b + 1 = a + 1)%nat -> b = a. Proof. lia. Qed.
Lemma e01 a b : (b + 0 = a + 1)%nat -> b = S a. Proof. lia. Qed.
Lemma e10 a b : (b + 1 = a + 0)%nat -> a = S b. Proof. lia. Qed.

Ltac one Hi q f :=
  let l := match type of Hi with nth_error ?l _ = _ => l end in
  let E := fresh "E" in let G := fresh "G" in
  pose proof (cnt_upd f l _ _ q Hi) as E; pose proof (cnt_ge f l _ _ Hi) as G;
  let a := fresh "a" in let b := fresh "b" in
  set (a := cnt f l) in *; set (b := cnt f (upd l _ q)) in *; clearbody a b;
  cbv [b2n inm holdr holdw bad rcount wcount wpend winc wtake rtake rinc rblk wmid bcast is_wblocked wtest mrest] in E, G;
  first [apply e00 in E; rewrite E in *; clear E b G | apply e11 in E; rewrite E in *; clear E b | apply e01 in E; rewrite E in *; clear E b G
        | apply e10 in E; rewrite E in *; clear E a G | idtac].

Ltac moved Hi q :=
  one Hi q inm; one Hi q holdr; one Hi q holdw; one Hi q bad; one Hi q rcount; one Hi q wcount; one Hi q wpend; one Hi q winc;
  one Hi q wtake; one Hi q rtake; one Hi q rinc; one Hi q rblk; one Hi q wmid; one Hi q bcast; one Hi q is_wblocked; one Hi q wtest; one Hi q mrest.

Ltac finish P1 P2 P3 P4 I1 I2 I3 I4 I5 I6 I7 I8 I9 I10 I11 :=
  constructor;
  [ try match goal with B : (b2n _ <= 1)%nat |- _ => clear - I1 B end
  | try reflexivity
  | clear P2 P3 P4 I4 I5 I6 I9 I10 I11
  | clear - I4
  | clear - I5
  | clear P2 P3 P4 I2 I4 I5 I7 I8 I9 I10 I11
  | clear P2 P3 P4 I2 I4 I5 I6 I8 I9 I10 I11
  | clear P2 P3 P4 I2 I4 I5 I6 I7 I9 I10 I11
  | clear P2 P3 P4 I2 I4 I6 I7 I8 I10 I11
  | clear P2 P3 I2 I4 I7 I9 I11
  | clear P4 I2 I6 I7 I10 ].

Lemma inv_wake mx lc nr nw l i p : inv (mkst mx lc nr nw l) -> nth_error l i = Some p -> p = RBlocked \/ p = WBlocked ->
  inv (mkst mx lc nr nw (upd l i (match p with RBlocked => RWoken | _ => WWoken end))).
Proof.
  intros I Hi Hp. destruct I as [I1 I2 I3 I4 I5 I6 I7 I8 I9 I10 I11].
  pose proof (parts l) as P1. pose proof (wmid_parts l) as P2. pose proof (rblk_rcount l) as P3. pose proof (wcount_split l) as P4.
  cbn [threads mutex lockcnt num_rd num_wr] in *. unfold inv. cbn [threads mutex lockcnt num_rd num_wr].
  destruct Hp as [-> | ->]; match goal with |- context [upd _ _ ?q] => moved Hi q end; clear Hi;
    finish P1 P2 P3 P4 I1 I2 I3 I4 I5 I6 I7 I8 I9 I10 I11; cbn [b2n] in *; lia.
Qed.

Lemma inv_signalled mx lc nr nw l i : inv (mkst mx lc nr nw l) -> nth_error l i = Some USignal ->
  (0 < cnt (fun p => match p with WWoken => true | _ => false end) l \/ cnt is_wblocked l = 0)%nat ->
  inv (mkst mx lc nr nw (upd l i Idle)).
Proof.
  intros I Hi Hw. destruct I as [I1 I2 I3 I4 I5 I6 I7 I8 I9 I10 I11].
  assert (Q : (cnt (fun p => match p with WWoken => true | _ => false end) l <= cnt wpend (upd l i Idle))%nat).
  { clear - Hi. revert i Hi. induction l as [|x l IH]; intros [|i] Hi; cbn [nth_error] in Hi; try discriminate; cbn [upd cnt].
    - injection Hi as ->. cbn [wpend]. apply le_n_S in IH || idtac.
      assert (forall l, cnt (fun p => match p with WWoken => true | _ => false end) l <= cnt wpend l)%nat as A
        by (intros; apply cnt_le; intros []; cbn; auto; discriminate). specialize (A l). lia.
    - specialize (IH i Hi). destruct x; cbn [wpend]; lia. }
  set (k := cnt (fun p => _) l) in *. clearbody k.
  pose proof (parts l) as P1. pose proof (wmid_parts l) as P2. pose proof (rblk_rcount l) as P3. pose proof (wcount_split (upd l i Idle)) as P4.
  cbn [threads mutex lockcnt num_rd num_wr] in *. unfold inv. cbn [threads mutex lockcnt num_rd num_wr].
  moved Hi Idle; clear Hi;
    finish P1 P2 P3 P4 I1 I2 I3 I4 I5 I6 I7 I8 I9 I10 I11; cbn [b2n] in *; lia.
Qed.

Lemma upd_comm {A} (l : list A) i j x y : i <> j -> upd (upd l i x) j y = upd (upd l j y) i x.
Proof. revert i j. induction l as [|z l IH]; intros [|i] [|j] H; cbn; auto; try lia. f_equal. apply IH. lia. Qed.

Lemma inv_run s i p c s' : inv s -> nth_error (threads s) i = Some p -> run false s i p c = Some s' -> inv s'.
Proof.
  intros I Hi H. destruct I as [I1 I2 I3 I4 I5 I6 I7 I8 I9 I10 I11].
  pose proof (parts (threads s)) as P1. pose proof (wmid_parts (threads s)) as P2.
  pose proof (rblk_rcount (threads s)) as P3. pose proof (wcount_split (threads s)) as P4.
  destruct s as [mx lc nr nw l]. cbn [threads mutex lockcnt num_rd num_wr] in *.
  assert (Bm : (b2n mx <= 1)%nat) by (clear; destruct mx; cbn; lia).
  destruct p; cbn [run mutex lockcnt num_rd num_wr threads] in H.
  all: try discriminate H.
  all: try (destruct mx; [discriminate H|]).
  all: try match type of H with context [match ?c with O => _ | _ => _ end] => destruct c as [|[|c]]; try discriminate H end.
  all: try match type of H with context [existsb] => shelve end.
  all: try match type of H with context [map wake_readers] => shelve end.
  all: injection H as <-.
  all: repeat match goal with |- context [if ?b then _ else _] => destruct b eqn:? end.
  all: try match goal with h : option bool |- _ => destruct h as [[|]|] end.
  all: try match goal with Hi : nth_error _ _ = Some (UReadOut ?n) |- _ => destruct n
       | Hi : nth_error _ _ = Some (UReadSig ?n) |- _ => destruct n
       | Hi : nth_error _ _ = Some (UWriteOut ?m ?n) |- _ => destruct m, n
       | Hi : nth_error _ _ = Some (UWriteSig ?m ?n) |- _ => destruct m, n end.
  all: try discriminate.
  all: try match goal with |- context [upd _ _ (UReadOut ?x)] => is_var x; destruct x end.
  all: try match goal with |- context [upd _ _ (UWriteOut ?x ?y)] => is_var x; is_var y; destruct x, y end.
  all: unfold inv; cbn [threads mutex lockcnt num_rd num_wr].
  all: match goal with |- context [upd _ _ ?q] => moved Hi q end; clear Hi.
  all: try (exfalso; clear - I2; lia).
  all: try (exfalso; clear P1 P2 P3 P4 I1 I2 I4 I5 I6 I7 I8 I9 I10 I11; lia).
  all: finish P1 P2 P3 P4 I1 I2 I3 I4 I5 I6 I7 I8 I9 I10 I11; cbn [b2n] in *; try lia.
  Unshelve.
  - (* cond_signal *)
    assert (I : inv (mkst mx lc nr nw l)) by (constructor; assumption).
    destruct (existsb is_wblocked l) eqn:Ex.
    + destruct (nth_error l c) as [q|] eqn:Hc; [|discriminate H]. destruct q; try discriminate H. injection H as <-.
      assert (N : i <> c) by (intros ->; rewrite Hc in Hi; discriminate Hi).
      rewrite upd_comm by auto. apply inv_signalled.
      * apply (inv_wake mx lc nr nw l c WBlocked); auto.
      * rewrite nth_error_upd_ne; auto.
      * left. eapply cnt_in; [apply nth_error_upd_eq; apply nth_error_Some; rewrite Hc; discriminate|reflexivity].
    + injection H as <-. apply inv_signalled; auto. right.
      clear - Ex. induction l as [|x l IH]; cbn in *; auto. apply orb_false_iff in Ex as [-> Ex]. auto.
  - (* cond_broadcast *)
    injection H as <-. unfold inv. cbn [threads mutex lockcnt num_rd num_wr].
    rewrite !cnt_map.
    assert (W : forall f, (forall p, f (wake_readers p) = f p) -> cnt (fun p => f (wake_readers p)) (upd l i Idle) = cnt f (upd l i Idle)).
    { intros f Hf. apply cnt_ext. exact Hf. }
    rewrite (W inm), (W bad), (W holdr), (W holdw), (W rcount), (W wcount), (W winc), (W wtake), (W rtake), (W rinc), (W wpend), (W wmid), (W bcast)
      by (intros []; reflexivity).
    assert (Z0 : cnt (fun p => rblk (wake_readers p)) (upd l i Idle) = 0%nat).
    { clear. induction (upd l i Idle) as [|x l' IH]; cbn [cnt]; auto. rewrite IH. destruct x; reflexivity. }
    rewrite Z0. clear W Z0. moved Hi Idle. clear Hi.
    finish P1 P2 P3 P4 I1 I2 I3 I4 I5 I6 I7 I8 I9 I10 I11; cbn [b2n] in *; lia.
Qed.

Lemma inv_step s a s' : inv s -> step false s a = Some s' -> inv s'.
Proof.
  intros I H. destruct a as [i c|i]; cbn [step] in H.
  - destruct (nth_error (threads s) i) as [p|] eqn:Hi; [|discriminate H]. eapply inv_run; eauto.
  - destruct (nth_error (threads s) i) as [p|] eqn:Hi; [|discriminate H].
    destruct s as [mx lc nr nw l]. cbn [threads mutex lockcnt num_rd num_wr] in *.
    destruct p; try discriminate H; injection H as <-.
    + apply (inv_wake mx lc nr nw l i RBlocked); auto.
    + apply (inv_wake mx lc nr nw l i WBlocked); auto.
Qed.

Lemma inv_exec l : forall s s', inv s -> exec false s l = Some s' -> inv s'.
Proof.
  induction l as [|a l IH]; intros s s' I H; cbn [exec] in H; [congruence|].
  destruct (step false s a) as [s1|] eqn:E; [|discriminate H]. eapply IH; [|exact H]. eapply inv_step; eauto.
Qed.

Lemma reachable_inv n l s : exec false (start n) l = Some s -> inv s.
Proof. apply inv_exec, inv_start. Qed.

(** ** Consequences *)

Lemma exclusion s i j p q : inv s -> nth_error (threads s) i = Some p -> nth_error (threads s) j = Some q -> i <> j ->
  holdw p = true -> holdr q = false /\ holdw q = false.
Proof.
  intros I Hi Hj N Hp. pose proof (i_cnt _ _ _ _ _ _ _ _ _ _ _ _ _ _ _ _ _ _ I) as C. pose proof (cnt_in holdw _ _ _ Hi Hp) as C1.
  split.
  - destruct (holdr q) eqn:E; auto. pose proof (cnt_in holdr _ _ _ Hj E). lia.
  - destruct (holdw q) eqn:E; auto. pose proof (cnt_two holdw _ _ _ _ _ N Hi Hj Hp E). lia.
Qed.

(** A thread that is inside a call and not blocked. *)
Definition busy (p : pc) : bool := match p with Idle | HoldR | HoldW | RBlocked | WBlocked => false | _ => true end.

(** Whoever is busy, except for the mutex, can go on. *)
Lemma busy_runs s i p : nth_error (threads s) i = Some p -> busy p = true -> mutex s = false \/ inm p = true ->
  exists c s', step false s (Run i c) = Some s'.
Proof.
  intros Hi B M. cbn [step]. rewrite Hi.
  destruct p; cbn [busy inm] in *; try discriminate B; cbn [run];
    try (destruct M as [M|M]; [rewrite M|discriminate M]); try (exists 0%nat; eexists; reflexivity).
  destruct (existsb is_wblocked (threads s)) eqn:Ex.
  - apply existsb_exists in Ex as (x & Hx & Bx). apply In_nth_error in Hx as [j Hj]. destruct x; try discriminate Bx.
    exists j. rewrite Hj. eexists. reflexivity.
  - exists 0%nat. eexists. reflexivity.
Qed.

Lemma busy_progress s : inv s -> (0 < cnt busy (threads s))%nat -> exists i c s' p, nth_error (threads s) i = Some p /\ busy p = true /\
  step false s (Run i c) = Some s'.
Proof.
  intros I B. pose proof (i_mutex _ _ _ _ _ _ _ _ _ _ _ _ _ _ _ _ _ _ I) as M. cbv zeta in M. destruct (mutex s) eqn:E.
  - assert (H : (0 < cnt inm (threads s))%nat) by (rewrite M; cbn; lia). apply cnt_pos in H as (i & p & Hi & Hp).
    destruct (busy_runs s i p Hi) as (c & s' & R); auto; [destruct p; auto; discriminate|].
    exists i, c, s', p. split; auto. split; auto. destruct p; auto; discriminate.
  - apply cnt_pos in B as (i & p & Hi & Hp). destruct (busy_runs s i p Hi Hp) as (c & s' & R); auto. exists i, c, s', p. auto.
Qed.

(** No holder and a blocked thread: somebody is busy. *)
Lemma no_lost_wakeup s : inv s -> (forall i p, nth_error (threads s) i = Some p -> ~ reading p /\ ~ writing p) ->
  (exists i p, nth_error (threads s) i = Some p /\ blocked p) -> (0 < cnt busy (threads s))%nat.
Proof.
  intros I H (i & p & Hi & Hb). destruct (cnt busy (threads s)) eqn:E; [|lia]. exfalso.
  destruct I as [I1 I2 I3 I4 I5 I6 I7 I8 I9 I10 I11].
  assert (A : forall f, (forall p, f p = true -> busy p = true \/ p = HoldR \/ p = HoldW) -> cnt f (threads s) = 0%nat).
  { intros f Hf. destruct (cnt f (threads s)) eqn:F; auto. assert (C : (0 < cnt f (threads s))%nat) by lia.
    apply cnt_pos in C as (j & q & Hj & Fq). destruct (Hf q Fq) as [Bq|Hq].
    - pose proof (cnt_zero busy _ _ _ E Hj). congruence.
    - destruct (H j q Hj). unfold reading, writing in *. tauto. }
  assert (holdw0 : cnt holdw (threads s) = 0%nat) by (apply A; intros []; cbn; auto; discriminate).
  assert (holdr0 : cnt holdr (threads s) = 0%nat) by (apply A; intros []; cbn; auto; discriminate).
  assert (wpend0 : cnt wpend (threads s) = 0%nat) by (apply A; intros []; cbn; auto; discriminate).
  assert (wmid0 : cnt wmid (threads s) = 0%nat) by (apply A; intros []; cbn; auto; discriminate).
  assert (bcast0 : cnt bcast (threads s) = 0%nat) by (apply A; intros []; cbn; auto; discriminate).
  destruct Hb as [-> | ->].
  - pose proof (cnt_in rblk _ _ _ Hi eq_refl). lia.
  - pose proof (cnt_in wcount _ _ _ Hi eq_refl). lia.
Qed.

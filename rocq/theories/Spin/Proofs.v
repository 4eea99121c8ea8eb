(** Invariants of the spin lock. *)
From Verif Require Import Base.Lib Base.Conc Spin.Model Spin.Spec.
Local Open Scope N_scope.

Definition out (p : pc) : bool :=
  match p with
  | Idle | OFast _ | LTake _ _ => false
  | UTest Rogue _ _ => false
  | _ => true
  end.
Definition own (p : pc) : bool := match p with LSpin _ _ _ => false | _ => out p end.
Definition tidset (p : pc) : bool :=
  match p with
  | Crit _ ao | OInit ao | OSet ao | RSet ao => negb ao
  | UTest Rogue _ _ => false
  | UTest _ ao _ | UClear _ ao _ => negb ao
  | _ => false
  end.
(** Program points of [Rogue] calls that must not be reached. *)
Definition bad (p : pc) : bool :=
  match p with
  | LTake Rogue _ | LSpin Rogue _ _ | LOwn Rogue | Crit Rogue _ 
  | UClear Rogue _ _ | UInc Rogue _ _ | UTest Rogue true _ => true
  | _ => false
  end.

Record Inv (n : nat) (s : state) (W : list nat) : Prop := {
  i_len : length (threads s) = n;
  i_nodup : NoDup W;
  i_out : forall i p, nth_error (threads s) i = Some p -> (In i W <-> out p = true);
  i_lt : forall i, In i W -> (i < n)%nat;
  i_cur : current s < 2 ^ 32;
  i_queue : queue s = (current s + N.of_nat (length W)) mod 2 ^ 32;
  i_ticket : forall j i k ao t, nth_error W j = Some i -> nth_error (threads s) i = Some (LSpin k ao t) ->
               t = (current s + N.of_nat j) mod 2 ^ 32;
  i_own : forall i p, nth_error (threads s) i = Some p -> own p = true -> hd_error W = Some i;
  i_tid : forall i p, nth_error (threads s) i = Some p -> tidset p = true -> threadid s = S i;
  i_tidz : threadid s <> 0%nat ->
           exists i p, nth_error (threads s) i = Some p /\ tidset p = true /\ threadid s = S i;
  i_bad : forall i p, nth_error (threads s) i = Some p -> bad p = false
}.

Lemma nodup_le_n (W : list nat) n : NoDup W -> (forall i, In i W -> (i < n)%nat) -> (length W <= n)%nat.
Proof.
  intros ND H. rewrite <- (seq_length n 0). apply NoDup_incl_length; [assumption|].
  intros i Hi. apply in_seq. specialize (H i Hi). lia.
Qed.

Lemma get_upd (l : list pc) i p j q : nth_error l i = Some p -> 
  nth_error (upd l i q) j = if Nat.eqb i j then Some q else nth_error l j.
Proof.
  intros H. assert (L : (i < length l)%nat) by (apply nth_error_Some; congruence).
  destruct (Nat.eqb_spec i j) as [<-|NE].
  - now apply nth_error_upd_eq.
  - now apply nth_error_upd_ne.
Qed.

Ltac upd_cases H i' :=
  match goal with P : nth_error (threads _) ?i = Some _ |- _ =>
    rewrite (get_upd _ i _ i' _ P) in H; destruct (Nat.eqb_spec i i') as [<- | NE];
    [try (injection H as <-) | ] end.

(** A step that keeps its place in the queue. *)
Lemma Inv_same n s W i p q ini : Inv n s W -> nth_error (threads s) i = Some p ->
  out q = out p -> (own q = true -> own p = true) -> tidset q = tidset p -> bad q = false ->
  (forall k ao t, q <> LSpin k ao t) ->
  Inv n (mkst (current s) (queue s) (threadid s) ini (upd (threads s) i q)) W.
Proof.
  intros I P HO HW HT HB HS. destruct I. constructor; cbn [current queue threadid initialized threads]; auto.
  - now rewrite length_upd.
  - intros i' p' E. upd_cases E i'; [rewrite HO|]; now apply i_out0.
  - intros j i' k ao t Hj E. upd_cases E i'; [injection E as E; now destruct (HS k ao t)|eauto].
  - intros i' p' E O. upd_cases E i'; eauto.
  - intros i' p' E O. upd_cases E i'; [rewrite HT in O|]; eauto.
  - intros T. destruct (i_tidz0 T) as (i' & p' & E & O & T').
    exists i'. rewrite (get_upd _ i p) by assumption.
    destruct (Nat.eqb_spec i i') as [<-|NE]; [exists q|exists p']; repeat split; auto; congruence.
  - intros i' p' E. upd_cases E i'; eauto.
Qed.

Lemma own_hd n s W i j p q : Inv n s W -> nth_error (threads s) i = Some p -> nth_error (threads s) j = Some q ->
  own p = true -> own q = true -> i = j.
Proof. intros I P Q OP OQ. pose proof (i_own _ _ _ I i p P OP). pose proof (i_own _ _ _ I j q Q OQ). congruence. Qed.

Lemma tidset_own p : tidset p = true -> own p = true.
Proof. destruct p as [| | | | | | | | |[]|[]|[]]; cbn; congruence. Qed.

Lemma add_mod_ne c j : j < 2 ^ 32 -> c < 2 ^ 32 -> c = (c + j) mod 2 ^ 32 -> j = 0.
Proof.
  intros Hj Hc E. destruct (N.lt_ge_cases (c + j) (2 ^ 32)) as [L|G].
  - rewrite N.mod_small in E by assumption. lia.
  - change (2 ^ 32) with 4294967296 in *.
    assert ((c + j) mod 4294967296 = c + j - 4294967296).
    { symmetry. apply (N.mod_unique _ _ 1); lia. }
    lia.
Qed.

Definition ghost (W : list nat) (i : nat) (p : pc) : list nat :=
  match p with
  | LTake _ _ => W ++ [i]
  | UInc _ _ _ => tl W
  | _ => W
  end.

Lemma nth_hd {A} (W : list A) i : hd_error W = Some i -> exists V, W = i :: V.
Proof. destruct W; cbn; [discriminate|]. intros [= ->]. eauto. Qed.

Lemma mod_succ a : ((a mod 2 ^ 32) + 1) mod 2 ^ 32 = (a + 1) mod 2 ^ 32.
Proof. rewrite N.add_mod_idemp_l by discriminate. reflexivity. Qed.

Lemma exec_inv n s W i p s' ev : N.of_nat n <= 2 ^ 32 ->
  Inv n s W -> nth_error (threads s) i = Some p -> exec s i p = Some (s', ev) -> Inv n s' (ghost W i p).
Proof.
  intros Hn I P E. destruct p as [|ao|k ao|k ao t|k|k ao|ao|ao|ao|k ao r|k ao r|k ao r]; cbn [exec ghost] in *.
  - discriminate.
  - destruct (initialized s) eqn:INI; injection E as <- <-; unfold go;
      eapply Inv_same; eauto; try reflexivity; cbn; congruence.
  - (* ticket *)
    injection E as <- <-. destruct I.
    assert (NI : ~ In i W) by (rewrite (i_out0 i _ P); discriminate).
    assert (Li : (i < n)%nat) by (rewrite <- i_len0; apply nth_error_Some; congruence).
    constructor; cbn [current queue threadid initialized threads]; auto.
    + now rewrite length_upd.
    + rewrite <- (rev_involutive (W ++ [i])), rev_app_distr. apply NoDup_rev. cbn.
      constructor; [now rewrite <- in_rev|]. now apply NoDup_rev.
    + intros i' p' E. rewrite in_app_iff. cbn [In]. upd_cases E i'; [cbn; tauto|].
      rewrite (i_out0 i' p' E). split; [|tauto]. intros [H|[H|[]]]; [exact H|congruence].
    + intros i' H. apply in_app_iff in H. destruct H as [H|[<-|[]]]; auto.
    + unfold inc32. rewrite i_queue0, mod_succ, app_length. cbn [length].
      f_equal. lia.
    + intros j i' k' ao' t Hj E. upd_cases E i'.
      * assert (j = length W).
        { destruct (Nat.lt_trichotomy j (length W)) as [L|[L|L]]; [|exact L|].
          - rewrite nth_error_app1 in Hj by exact L. now apply nth_error_In in Hj.
          - rewrite nth_error_app2 in Hj by lia. destruct (j - length W)%nat as [|[|m]] eqn:D; cbn in Hj; try discriminate; lia. }
        subst j. try injection E as ? ? ?. congruence.
      * assert (j < length W)%nat.
        { destruct (Nat.lt_ge_cases j (length W)) as [L|L]; [exact L|].
          rewrite nth_error_app2 in Hj by lia. destruct (j - length W)%nat as [|[|m]] eqn:D; cbn in Hj; try discriminate; congruence. }
        rewrite nth_error_app1 in Hj by assumption. eauto.
    + intros i' p' E O. upd_cases E i'; [discriminate|].
      pose proof (i_own0 i' p' E O) as H. destruct W; [discriminate|exact H].
    + intros i' p' E O. upd_cases E i'; [discriminate|eauto].
    + intros T. destruct (i_tidz0 T) as (i' & p' & E & O & T'). exists i', p'.
      rewrite (get_upd _ i _ i' _ P). destruct (Nat.eqb_spec i i') as [<-|]; [|auto].
      rewrite P in E. injection E as <-. discriminate.
    + intros i' p' E. upd_cases E i'; [|eauto]. pose proof (i_bad0 i _ P). now destruct k.
  - (* spin *)
    destruct (N.eqb_spec (current s) t) as [C|C]; injection E as <- <-; [|exact I].
    assert (HD : hd_error W = Some i).
    { destruct I. assert (IW : In i W) by (rewrite (i_out0 i _ P); reflexivity).
      apply In_nth_error in IW. destruct IW as [j Hj].
      pose proof (i_ticket0 j i k ao t Hj P) as T. subst t.
      pose proof (nodup_le_n W n i_nodup0 i_lt0) as LW.
      assert (j < length W)%nat by (apply nth_error_Some; congruence).
      apply add_mod_ne in T; [|lia|assumption]. assert (j = 0%nat) by lia. subst j.
      destruct W; [discriminate|exact Hj]. }
    assert (BK : k <> Rogue) by (pose proof (i_bad _ _ _ I i _ P); destruct k; cbn in *; congruence).
    pose (q := if ao then Crit k ao else LOwn k).
    assert (OQ : out q = true) by (destruct ao; reflexivity).
    assert (NT : tidset q = false) by (destruct ao; reflexivity).
    destruct I. constructor; unfold go; cbn [current queue threadid initialized threads]; fold q; auto.
    + now rewrite length_upd.
    + intros i' p' E. upd_cases E i'; [|eauto]. rewrite OQ, (i_out0 i _ P). cbn. tauto.
    + intros j i' k' ao' t' Hj E. upd_cases E i'; [destruct ao; discriminate|eauto].
    + intros i' p' E O. upd_cases E i'; eauto.
    + intros i' p' E O. upd_cases E i'; [congruence|eauto].
    + intros T. destruct (i_tidz0 T) as (i' & p' & E & O & T'). exists i', p'.
      rewrite (get_upd _ i _ i' _ P). destruct (Nat.eqb_spec i i') as [<-|]; [|auto].
      rewrite P in E. injection E as <-. discriminate.
    + intros i' p' E. upd_cases E i'; [|eauto]. unfold q. destruct ao, k; try reflexivity; congruence.
  - (* own *)
    injection E as <- <-.
    assert (BK : k <> Rogue) by (pose proof (i_bad _ _ _ I i _ P); destruct k; cbn in *; congruence).
    assert (OP : own (LOwn k) = true) by reflexivity.
    assert (ONE : forall i' p', nth_error (threads s) i' = Some p' -> own p' = true -> i' = i)
      by (intros i' p' E O; eapply own_hd; eauto).
    pose proof I as I'. destruct I. constructor; cbn [current queue threadid initialized threads]; auto.
    + now rewrite length_upd.
    + intros i' p' E. upd_cases E i'; [|eauto]. rewrite (i_out0 i _ P). cbn. tauto.
    + intros j i' k' ao' t' Hj E. upd_cases E i'; [discriminate|eauto].
    + intros i' p' E O. upd_cases E i'; eauto.
    + intros i' p' E O. upd_cases E i'; [reflexivity|]. f_equal. symmetry. apply (ONE i' p' E). now apply tidset_own.
    + intros _. exists i, (Crit k false). rewrite (get_upd _ i _ i _ P), Nat.eqb_refl. auto.
    + intros i' p' E. upd_cases E i'; [|eauto]. destruct k; try reflexivity; congruence.
  - (* critical section *)
    assert (BK : k <> Rogue) by (pose proof (i_bad _ _ _ I i _ P); destruct k; cbn in *; congruence).
    destruct k; [| | |congruence]; try destruct (initialized s) eqn:INI; injection E as <- <-; unfold go;
      (eapply Inv_same; [exact I|exact P|reflexivity|reflexivity|reflexivity|reflexivity|discriminate]).
  - injection E as <- <-; unfold go;
      (eapply Inv_same; [exact I|exact P|reflexivity|reflexivity|reflexivity|reflexivity|discriminate]).
  - injection E as <- <-; unfold go;
      (eapply Inv_same; [exact I|exact P|reflexivity|reflexivity|reflexivity|reflexivity|discriminate]).
  - injection E as <- <-; unfold go;
      (eapply Inv_same; [exact I|exact P|reflexivity|reflexivity|reflexivity|reflexivity|discriminate]).
  - (* unlock: test *)
    destruct (ao || (threadid s =? S i)%nat) eqn:T; injection E as <- <-; unfold go.
    + destruct k; try (eapply Inv_same; [exact I|exact P|reflexivity|reflexivity|reflexivity|reflexivity|discriminate]).
      exfalso. pose proof (i_bad _ _ _ I i _ P) as B. destruct ao; [discriminate|]. cbn in T.
      apply Nat.eqb_eq in T. destruct (i_tidz _ _ _ I ltac:(congruence)) as (j & p & Q & TS & TJ).
      assert (j = i) by congruence. subst j. rewrite P in Q. injection Q as <-. discriminate.
    + destruct k.
      4: (eapply Inv_same; [exact I|exact P|reflexivity|discriminate|reflexivity|reflexivity|discriminate]).
      all: exfalso; apply Bool.orb_false_iff in T; destruct T as [-> T]; apply Nat.eqb_neq in T;
        apply T; exact (i_tid _ _ _ I i _ P eq_refl).
  - (* unlock: clear *)
    injection E as <- <-.
    assert (BK : k <> Rogue) by (pose proof (i_bad _ _ _ I i _ P); destruct k; cbn in *; congruence).
    assert (OP : own (UClear k ao r) = true) by (destruct k; reflexivity || congruence).
    assert (ONE : forall i' p', nth_error (threads s) i' = Some p' -> own p' = true -> i' = i)
      by (intros i' p' E O; eapply own_hd; eauto).
    destruct I. constructor; cbn [current queue threadid initialized threads]; auto.
    + now rewrite length_upd.
    + intros i' p' E. upd_cases E i'; [|eauto]. rewrite (i_out0 i _ P). destruct k; cbn; tauto.
    + intros j i' k' ao' t' Hj E. upd_cases E i'; [discriminate|eauto].
    + intros i' p' E O. upd_cases E i'; eauto.
    + intros i' p' E O. upd_cases E i'; [discriminate|]. exfalso. apply NE. symmetry. apply (ONE i' p' E). now apply tidset_own.
    + congruence.
    + intros i' p' E. upd_cases E i'; [|eauto]. destruct k; try reflexivity; congruence.
  - (* unlock: next ticket *)
    injection E as <- <-.
    assert (BK : k <> Rogue) by (pose proof (i_bad _ _ _ I i _ P); destruct k; cbn in *; congruence).
    assert (OP : own (UInc k ao r) = true) by (destruct k; reflexivity || congruence).
    assert (ONE : forall i' p', nth_error (threads s) i' = Some p' -> own p' = true -> i' = i)
      by (intros i' p' E O; eapply own_hd; eauto).
    destruct I. destruct (nth_hd W i (i_own0 i _ P OP)) as [V ->]. cbn [tl].
    apply NoDup_cons_iff in i_nodup0. destruct i_nodup0 as [NI ND].
    constructor; cbn [current queue threadid initialized threads]; auto.
    + now rewrite length_upd.
    + intros i' p' E. upd_cases E i'; [cbn; split; [intros; contradiction|discriminate]|].
      rewrite <- (i_out0 i' p' E). cbn. split; [tauto|]. intros [->|]; [congruence|assumption].
    + intros i' H. apply i_lt0. now right.
    + apply N.mod_lt. discriminate.
    + unfold inc32. rewrite i_queue0, N.add_mod_idemp_l by discriminate. f_equal. cbn [length]. lia.
    + intros j i' k' ao' t' Hj E. upd_cases E i'; [discriminate|].
      rewrite (i_ticket0 (S j) i' k' ao' t' Hj E). unfold inc32. rewrite N.add_mod_idemp_l by discriminate. f_equal. lia.
    + intros i' p' E O. upd_cases E i'; [discriminate|]. exfalso. apply NE. symmetry. now apply (ONE i' p' E).
    + intros i' p' E O. upd_cases E i'; [discriminate|]. eauto.
    + intros T. destruct (i_tidz0 T) as (i' & p' & E & O & T'). exists i', p'.
      rewrite (get_upd _ i _ i' _ P). destruct (Nat.eqb_spec i i') as [<-|]; [|auto].
      rewrite P in E. injection E as <-. discriminate.
    + intros i' p' E. upd_cases E i'; [reflexivity|eauto].
Qed.

Lemma entry_flags k ao : out (entry k ao) = false /\ own (entry k ao) = false /\ tidset (entry k ao) = false
  /\ bad (entry k ao) = false /\ forall k' ao' t, entry k ao <> LSpin k' ao' t.
Proof. destruct k; repeat split; discriminate. Qed.

Lemma call_inv n s W i k ao : Inv n s W -> nth_error (threads s) i = Some Idle -> Inv n (go s i (entry k ao)) W.
Proof.
  intros I P. destruct (entry_flags k ao) as (A & B & C & D & E). unfold go.
  eapply Inv_same; [exact I|exact P|now rewrite A|congruence|now rewrite C|assumption|assumption].
Qed.

Lemma start_inv n : Inv n (start n) [].
Proof.
  assert (R : forall i p, nth_error (repeat Idle n) i = Some p -> p = Idle).
  { intros i p H. apply nth_error_In in H. now apply repeat_spec in H. }
  constructor; cbn [start current queue threadid initialized threads].
  - apply repeat_length.
  - constructor.
  - intros i p H. apply R in H as ->. cbn. split; [intros []|discriminate].
  - intros i [].
  - reflexivity.
  - reflexivity.
  - intros [|j]; discriminate.
  - intros i p H. apply R in H as ->. discriminate.
  - intros i p H. apply R in H as ->. discriminate.
  - congruence.
  - intros i p H. apply R in H as ->. reflexivity.
Qed.

(** *** Order *)
Definition headown (s : state) (W : list nat) : list nat :=
  match W with
  | [] => []
  | i :: _ => match nth_error (threads s) i with Some p => if own p then [i] else [] | None => [] end
  end.
Definition Fifo (s : state) (W : list nat) (tr : list event) : Prop :=
  exists pre, arrivals tr = pre ++ W /\ acquisitions tr = pre ++ headown s W.

Lemma headown_upd s W i p q c qq ti ini : nth_error (threads s) i = Some p -> own q = own p ->
  headown (mkst c qq ti ini (upd (threads s) i q)) W = headown s W.
Proof.
  intros P H. destruct W as [|j W]; [reflexivity|]. cbn [headown threads].
  rewrite (get_upd _ i p j q P). destruct (Nat.eqb_spec i j) as [<-|]; [|reflexivity].
  rewrite P, H. reflexivity.
Qed.

Lemma arrivals_app a b : arrivals (a ++ b) = arrivals a ++ arrivals b.
Proof. apply flat_map_app. Qed.
Lemma acquisitions_app a b : acquisitions (a ++ b) = acquisitions a ++ acquisitions b.
Proof. apply flat_map_app. Qed.

Lemma exec_fifo n s W i p s' ev tr : N.of_nat n <= 2 ^ 32 ->
  Inv n s W -> nth_error (threads s) i = Some p -> exec s i p = Some (s', ev) ->
  Fifo s W tr -> Fifo s' (ghost W i p) (tr ++ ev).
Proof.
  intros Hn I P E (pre & F1 & F2). pose proof (exec_inv n s W i p s' ev Hn I P E) as I'.
  assert (SAME : forall q c qq ti ini e, s' = mkst c qq ti ini (upd (threads s) i q) -> own q = own p ->
            ghost W i p = W -> ev = e -> arrivals e = [] -> acquisitions e = [] -> Fifo s' (ghost W i p) (tr ++ ev)).
  { intros q c qq ti ini e -> O -> -> A B. exists pre. rewrite arrivals_app, acquisitions_app, A, B, !app_nil_r.
    rewrite (headown_upd s W i p q c qq ti ini P O). auto. }
  destruct p as [|ao|k ao|k ao t|k|k ao|ao|ao|ao|k ao r|k ao r|k ao r]; cbn [exec] in E.
  - discriminate.
  - destruct (initialized s); injection E as <- <-; unfold go in *; eapply SAME; reflexivity.
  - injection E as <- <-. cbn [ghost] in *. exists pre.
    rewrite arrivals_app, acquisitions_app, F1, F2. cbn [arrivals acquisitions flat_map app]. rewrite !app_nil_r.
    split; [now rewrite app_assoc|]. f_equal.
    destruct W as [|j W]; cbn [app headown threads].
    + rewrite (get_upd _ i _ i _ P), Nat.eqb_refl. reflexivity.
    + rewrite (get_upd _ i _ j _ P). destruct (Nat.eqb_spec i j) as [<-|]; [|reflexivity]. rewrite P. reflexivity.
  - destruct (N.eqb_spec (current s) t); injection E as <- <-; cbn [ghost] in *.
    + assert (O : own (if ao then Crit k ao else LOwn k) = true) by (destruct ao; reflexivity).
      assert (HD : hd_error W = Some i).
      { apply (i_own _ _ _ I' i (if ao then Crit k ao else LOwn k)); [|exact O].
        cbn [go threads]. now rewrite (get_upd _ i _ i _ P), Nat.eqb_refl. }
      destruct (nth_hd W i HD) as [V ->]. cbn [headown] in F2. rewrite P in F2. cbn in F2.
      exists pre. rewrite arrivals_app, acquisitions_app, F1, F2. cbn [arrivals acquisitions flat_map app].
      rewrite !app_nil_r. split; [reflexivity|]. cbn [headown go threads].
      rewrite (get_upd _ i _ i _ P), Nat.eqb_refl, O. reflexivity.
    + exists pre. rewrite !app_nil_r. auto.
  - injection E as <- <-. eapply SAME; reflexivity.
  - destruct k; try destruct (initialized s); injection E as <- <-; unfold go in *; try (eapply SAME; reflexivity).
    all: pose proof (i_bad _ _ _ I i _ P); discriminate.
  - injection E as <- <-; unfold go in *; eapply SAME; reflexivity.
  - injection E as <- <-; unfold go in *; eapply SAME; reflexivity.
  - injection E as <- <-; unfold go in *; eapply SAME; reflexivity.
  - destruct (ao || (threadid s =? S i)%nat) eqn:T; injection E as <- <-; unfold go in *.
    + destruct k; try (eapply SAME; reflexivity).
      pose proof (i_bad _ _ _ I' i (UClear Rogue ao r)) as B. cbn [threads] in B.
      rewrite (get_upd _ i _ i _ P), Nat.eqb_refl in B. specialize (B eq_refl). discriminate.
    + destruct k; try (eapply SAME; reflexivity).
      all: exfalso; apply Bool.orb_false_iff in T; destruct T as [-> T]; apply Nat.eqb_neq in T;
        apply T; exact (i_tid _ _ _ I i _ P eq_refl).
  - injection E as <- <-. eapply SAME; reflexivity.
  - injection E as <- <-. cbn [ghost] in *.
    assert (BK : k <> Rogue) by (pose proof (i_bad _ _ _ I i _ P); destruct k; cbn in *; congruence).
    assert (OP : own (UInc k ao r) = true) by (destruct k; reflexivity || congruence).
    destruct (nth_hd W i (i_own _ _ _ I i _ P OP)) as [V ->]. cbn [tl] in *.
    cbn [headown] in F2. rewrite P, OP in F2.
    exists (pre ++ [i]). rewrite arrivals_app, acquisitions_app, F1, F2. cbn [arrivals acquisitions flat_map app].
    rewrite !app_nil_r, <- app_assoc. split; [reflexivity|].
    destruct V as [|j V]; cbn [headown threads]; [now rewrite app_nil_r|].
    rewrite (get_upd _ i _ j _ P). destruct (Nat.eqb_spec i j) as [<-|NE]; [now rewrite app_nil_r|].
    destruct (nth_error (threads s) j) as [pj|] eqn:PJ; [|now rewrite app_nil_r].
    destruct (own pj) eqn:OJ; [|now rewrite app_nil_r].
    exfalso. apply NE. eapply own_hd; [exact I|exact P|exact PJ|exact OP|exact OJ].
Qed.

(** *** Counting *)
Definition initing (p : pc) : bool := match p with OInit _ | OSet _ => true | _ => false end.
Definition oset (p : pc) : bool := match p with OSet _ => true | _ => false end.
Definition pend (k : kind) (p : pc) : bool :=
  match p, k with
  | OSet _, Once => true
  | UTest Once _ true, Once | UClear Once _ true, Once | UInc Once _ true, Once => true
  | UTest Reset _ true, Reset | UClear Reset _ true, Reset | UInc Reset _ true, Reset => true
  | _, _ => false
  end.
Definition leaving (p : pc) : bool :=
  match p with UTest Once _ _ | UClear Once _ _ | UInc Once _ _ => true | _ => false end.

Lemma count_app f a b : count f (a ++ b) = (count f a + count f b)%nat.
Proof. induction a as [|e a IH]; cbn; [reflexivity|]. rewrite IH. lia. Qed.

Record Cnt (s : state) (tr : list event) : Prop := {
  c_init : count is_init tr = (count is_reset tr + b2n (initialized s) + cnt initing (threads s))%nat;
  c_end : count is_init_end tr = (count is_reset tr + b2n (initialized s) + cnt oset (threads s))%nat;
  c_once : (count (returned Once true) tr + cnt (pend Once) (threads s) = count is_init_end tr)%nat;
  c_reset : (count (returned Reset true) tr + cnt (pend Reset) (threads s) = count is_reset tr)%nat;
  c_flag : forall i p, nth_error (threads s) i = Some p ->
             (initing p = true -> initialized s = false)
             /\ (forall ao, p = RSet ao -> initialized s = true)
             /\ (leaving p = true -> (1 <= count is_init_end tr)%nat
                                     /\ (count is_reset tr = 0%nat -> initialized s = true))
}.

Lemma cnt_start f n : f Idle = false -> cnt f (repeat Idle n) = 0%nat.
Proof. intros H. rewrite cnt_repeat, H. reflexivity. Qed.

Lemma start_cnt n : Cnt (start n) [].
Proof.
  constructor; cbn; rewrite ?cnt_start by reflexivity; auto.
  intros i p H. apply nth_error_In in H. apply repeat_spec in H. subst p. repeat split; discriminate.
Qed.

Lemma initing_own p : initing p = true -> own p = true.
Proof. destruct p; cbn; congruence. Qed.

Ltac cnts P q :=
  pose proof (cnt_upd initing _ _ _ q P); pose proof (cnt_upd oset _ _ _ q P);
  pose proof (cnt_upd (pend Once) _ _ _ q P); pose proof (cnt_upd (pend Reset) _ _ _ q P).

Ltac quiet P :=
  match goal with |- Cnt (mkst _ _ _ _ (upd _ _ ?q)) _ => cnts P q end;
  match goal with C5 : forall i p, nth_error (threads _) i = Some p -> _ |- _ =>
  constructor; cbn [threads initialized]; rewrite ?count_app; cbn in *; rewrite ?Nat.add_0_r in *; try lia;
  let j := fresh "j" in let pj := fresh "pj" in let E := fresh "E" in
  intros j pj E; upd_cases E j; try rewrite !count_app; 
  [ pose proof (C5 _ _ P);
    (split; [cbn in *; congruence || tauto|]); (split; [cbn in *; congruence|]); cbn in *;
    first [discriminate | tauto |
           intros _; split; [try lia|intros; try congruence; try assumption; try tauto]]
  | let X := fresh in let Y := fresh in let Z := fresh in
    destruct (C5 j pj E) as (X & Y & Z);
    (split; [try congruence; auto|split; [try congruence; auto|
       let L := fresh in intros L; destruct (Z L); split; [lia|try congruence; auto]]])] end.

Lemma exec_cnt n s W i p s' ev tr :
  Inv n s W -> Inv n s' (ghost W i p) -> nth_error (threads s) i = Some p -> exec s i p = Some (s', ev) ->
  Cnt s tr -> Cnt s' (tr ++ ev).
Proof.
  intros I I' P E C.
  assert (OTHER : own p = true -> forall j pj, nth_error (threads s) j = Some pj -> j <> i -> own pj = false).
  { intros O j pj PJ NE. destruct (own pj) eqn:OJ; [|reflexivity]. exfalso. apply NE.
    exact (own_hd n s W j i pj p I PJ P OJ O). }
  assert (NOINIT : own p = true -> forall j pj, nth_error (threads s) j = Some pj -> j <> i ->
            initing pj = false /\ (forall ao, pj <> RSet ao) /\ (leaving pj = false)).
  { intros O j pj PJ NE. pose proof (OTHER O j pj PJ NE) as H. destruct pj as [| | | | | | | | |[]|[]|[]]; cbn in *; repeat split; congruence. }
  destruct C as [C1 C2 C3 C4 C5].
  destruct p as [|ao|k ao|k ao t|k|k ao|ao|ao|ao|k ao r|k ao r|k ao r]; cbn [exec] in E.
  - discriminate.
  - destruct (initialized s) eqn:INI; injection E as <- <-; unfold go in *; rewrite ?INI; quiet P.
  - injection E as <- <-. quiet P.
  - destruct (current s =? t); injection E as <- <-; unfold go in *;
      [destruct ao; quiet P|rewrite app_nil_r; now constructor].
  - injection E as <- <-. quiet P.
  - destruct k; try destruct (initialized s) eqn:INI; injection E as <- <-; unfold go in *; rewrite ?INI; quiet P.
  - injection E as <- <-. unfold go in *. quiet P.
  - (* initialized = true *)
    injection E as <- <-. pose proof (proj1 (C5 i _ P) eq_refl) as INI.
    cnts P (UTest Once ao true). constructor; cbn [threads initialized]; rewrite ?count_app; cbn in *;
      rewrite ?INI in *; cbn in *; try lia.
    intros j pj E. upd_cases E j.
    + split; [discriminate|]. split; [discriminate|]. intros _. split; [lia|auto].
    + destruct (NOINIT eq_refl j pj E ltac:(congruence)) as (X & Y & Z).
      split; [congruence|]. split; [intros ao' ->; now destruct (Y ao')|congruence].
  - (* initialized = false *)
    injection E as <- <-. pose proof (proj1 (proj2 (C5 i _ P)) ao eq_refl) as INI.
    cnts P (UTest Reset ao true). constructor; cbn [threads initialized]; rewrite ?count_app; cbn in *;
      rewrite ?INI in *; cbn in *; try lia.
    intros j pj E. upd_cases E j.
    + split; [discriminate|]. split; discriminate.
    + destruct (NOINIT eq_refl j pj E ltac:(congruence)) as (X & Y & Z).
      split; [congruence|]. split; [intros ao' ->; now destruct (Y ao')|congruence].
  - assert (T : ao || (threadid s =? S i)%nat = true \/ k = Rogue).
    { destruct k; [left| left|left|right; reflexivity]; (destruct ao; [reflexivity|]);
        apply Nat.eqb_eq; exact (i_tid _ _ _ I i _ P eq_refl). }
    destruct T as [T| ->].
    + rewrite T in E. injection E as <- <-. unfold go in *. destruct k, r; quiet P.
    + destruct (ao || (threadid s =? S i)%nat); injection E as <- <-; unfold go in *; quiet P.
  - injection E as <- <-. destruct k, r; quiet P.
  - injection E as <- <-. destruct k, r; quiet P.
Qed.

Lemma call_cnt s tr i k ao : nth_error (threads s) i = Some Idle -> Cnt s tr -> Cnt (go s i (entry k ao)) (tr ++ []).
Proof.
  intros P [C1 C2 C3 C4 C5]. rewrite app_nil_r. unfold go. cnts P (entry k ao).
  destruct k; constructor; cbn [threads initialized entry] in *; cbn [b2n initing oset pend entry] in *;
    unfold b2n in *; cbn in *; try lia;
    intros j pj E; (upd_cases E j; [repeat split; discriminate|exact (C5 j pj E)]).
Qed.

Lemma reach_inv n s tr : N.of_nat n <= 2 ^ 32 -> reach n s tr ->
  exists W, Inv n s W /\ Fifo s W tr /\ Cnt s tr.
Proof.
  intros Hn R. induction R as [|s tr a s' ev R IH E]; [|destruct IH as (W & I & F & C)].
  - exists []. split; [apply start_inv|]. split; [exists []; split; reflexivity|apply start_cnt].
  - destruct a as [i k ao|i]; cbn [step] in E; destruct (nth_error (threads s) i) as [p|] eqn:P; try discriminate.
    + destruct p; try discriminate. injection E as <- <-. exists W.
      split; [now apply call_inv|]. split; [|now apply call_cnt].
      destruct F as (pre & F1 & F2). exists pre. rewrite app_nil_r. split; [exact F1|].
      rewrite F2. f_equal. symmetry. unfold go. eapply headown_upd; [exact P|].
      now destruct (entry_flags k ao) as (_ & -> & _).
    + exists (ghost W i p). pose proof (exec_inv n s W i p s' ev Hn I P E) as I'.
      split; [exact I'|]. split; [exact (exec_fifo n s W i p s' ev tr Hn I P E F)|exact (exec_cnt n s W i p s' ev tr I I' P E C)].
Qed.

Lemma inside_own p : inside p = true -> own p = true.
Proof. destruct p; cbn; congruence. Qed.

Lemma go_ne s i p q : nth_error (threads s) i = Some p -> q <> p -> forall c qq ti ini,
  mkst c qq ti ini (upd (threads s) i q) <> s.
Proof.
  intros P NE c qq ti ini E. apply (f_equal threads) in E. cbn in E.
  assert (H : nth_error (upd (threads s) i q) i = Some p) by now rewrite E.
  rewrite (get_upd _ i _ i _ P), Nat.eqb_refl in H. congruence.
Qed.

Lemma exec_changes s i p : nth_error (threads s) i = Some p -> p <> Idle ->
  (forall k ao t, p = LSpin k ao t -> current s = t) ->
  exists s' ev, exec s i p = Some (s', ev) /\ s' <> s.
Proof.
  intros P NI SP. destruct p as [|ao|k ao|k ao t|k|k ao|ao|ao|ao|k ao r|k ao r|k ao r]; cbn [exec]; try congruence.
  - destruct (initialized s); do 2 eexists; (split; [reflexivity|]); unfold go; apply (go_ne s i _ _ P); discriminate.
  - do 2 eexists; (split; [reflexivity|]); apply (go_ne s i _ _ P); discriminate.
  - rewrite (SP k ao t eq_refl), N.eqb_refl. do 2 eexists; (split; [reflexivity|]); unfold go.
    apply (go_ne s i _ _ P); destruct ao; discriminate.
  - do 2 eexists; (split; [reflexivity|]); apply (go_ne s i _ _ P); discriminate.
  - destruct k; try destruct (initialized s); do 2 eexists; (split; [reflexivity|]); unfold go; apply (go_ne s i _ _ P); discriminate.
  - do 2 eexists; (split; [reflexivity|]); apply (go_ne s i _ _ P); discriminate.
  - do 2 eexists; (split; [reflexivity|]); apply (go_ne s i _ _ P); discriminate.
  - do 2 eexists; (split; [reflexivity|]); apply (go_ne s i _ _ P); discriminate.
  - destruct (ao || (threadid s =? S i)%nat); do 2 eexists; (split; [reflexivity|]); unfold go; apply (go_ne s i _ _ P); discriminate.
  - do 2 eexists; (split; [reflexivity|]); apply (go_ne s i _ _ P); discriminate.
  - do 2 eexists; (split; [reflexivity|]); apply (go_ne s i _ _ P); discriminate.
Qed.

(** Proofs for the state machine model. *)
From Verif Require Import Base.Lib StateMachine.Model StateMachine.Spec.
Local Open Scope N_scope.

Lemma rev_map_app : forall (a b : list event) (h : history), rev (map inl (a ++ b)) ++ h = rev (map inl b) ++ rev (map inl a) ++ h.
Proof. intros. rewrite map_app, rev_app_distr, <- app_assoc. reflexivity. Qed.

Lemma dedup_cong : forall l s s', (forall x, In x l -> existsb (N.eqb x) s = existsb (N.eqb x) s') -> dedup s l = dedup s' l.
Proof.
  induction l as [| a l IH]; intros s s' H; [reflexivity |]. cbn. rewrite (H a (or_introl eq_refl)).
  destruct (existsb (N.eqb a) s'); [apply IH; intros; apply H; right; assumption |].
  f_equal. apply IH. intros x Hx. cbn. now rewrite (H x (or_intror Hx)).
Qed.

Section Proofs.
Context {D R : Type} (rrun : R -> reason -> D -> res (status * R * D)) (rreset : R -> reason -> R).
Notation mach := (machine D R).

(** A set of cleanup machines that never answer NEXT, PREV or CONTINUE *)
Variable P : R -> Prop.
Definition quiet : Prop :=
  (forall c r d st c' d', P c -> rrun c r d = Ok (st, c', d') -> st <> S_NEXT /\ st <> S_PREV /\ st <> S_CONTINUE /\ P c') /\
  (forall c r, P c -> P (rreset c r)).
Definition clean_ok (m : mach) : Prop := forall id s c, lookup (m_states m) id = Some s -> s_clean s = Some c -> P c.

(** The ids and the states of a machine agree, as insertion keeps them *)
Definition wf (m : mach) : Prop := m_ids m = map fst (m_states m) /\ NoDup (m_ids m) /\ ~ In 0 (m_ids m).

Definition nexts_of (m : mach) (id : N) : option (list N) := match lookup (m_states m) id with Some s => s_next s | None => None end.
Definition hasclean_of (m : mach) (id : N) : bool :=
  match lookup (m_states m) id with Some s => match s_clean s with Some _ => true | None => false end | None => false end.

Lemma lookup_in : forall l id, lookup l id <> None <-> In id (map fst (l : list (N * state D R))).
Proof.
  induction l as [| [i s] l IH]; intros id; cbn; [tauto |].
  destruct (N.eqb_spec i id) as [-> | NE].
  - split; [auto | congruence].
  - rewrite IH. tauto.
Qed.

Lemma lookup_app : forall l1 l2 id, lookup (l1 ++ l2 : list (N * state D R)) id =
  match lookup l1 id with Some s => Some s | None => lookup l2 id end.
Proof. induction l1 as [| [i s] l IH]; intros l2 id; cbn; [reflexivity |]. destruct (i =? id); auto. Qed.

Lemma create_wf : forall f, wf (create f).
Proof. intros. unfold wf, create; cbn. repeat split; [constructor | tauto]. Qed.

Lemma insert_wf : forall m id s, wf m -> wf (fst (insert_state m id s)).
Proof.
  intros m id s (A & B & C). unfold insert_state.
  destruct (N.eqb_spec id 0) as [E | NE]; [cbn; split; auto |].
  destruct (lookup (m_states m) id) eqn:L; [cbn; split; auto |]. cbn. unfold wf; cbn.
  assert (~ In id (m_ids m)) as NI. { rewrite A. intro H. apply lookup_in in H. congruence. }
  rewrite map_app, A. cbn. split; [reflexivity |]. split.
  - rewrite <- A. apply NoDup_rev in B. rewrite <- (rev_involutive (m_ids m)).
    change [id] with (rev [id]). rewrite <- rev_app_distr. apply NoDup_rev. cbn.
    constructor; [rewrite <- in_rev; exact NI | exact B].
  - rewrite <- A. rewrite in_app_iff. cbn. intuition congruence.
Qed.

(** Updating a cleanup machine *)
Lemma update_fst : forall (l : list (N * state D R)) id c, map fst (update_clean l id c) = map fst l.
Proof. induction l as [| [i s] l IH]; intros; cbn; [reflexivity |]. destruct (i =? id); cbn; [reflexivity |]. now rewrite IH. Qed.
Lemma update_lookup : forall (l : list (N * state D R)) id c x s, lookup l x = Some s ->
  exists s', lookup (update_clean l id c) x = Some s' /\ s_func s' = s_func s /\ s_next s' = s_next s /\ (s_clean s' = s_clean s \/ (x = id /\ s_clean s' = Some c)).
Proof.
  induction l as [| [i t] l IH]; intros id c x s H; cbn in *; [discriminate |].
  destruct (N.eqb_spec i id) as [-> | NE]; cbn.
  - destruct (N.eqb_spec id x) as [-> | NE2]; [injection H as <-; eexists; split; [reflexivity | cbn; auto 6] | exists s; auto 6].
  - destruct (N.eqb_spec i x) as [-> | NE2]; [exists s; auto 6 | eapply IH; eassumption].
Qed.

Section Fixed.
Variables (f : flags) (ids : list N) (nexts : N -> option (list N)) (hasclean : N -> bool).

(** The parts that do not change *)
Definition static (m : mach) : Prop :=
  m_flags m = f /\ m_ids m = ids /\ map fst (m_states m) = ids /\
  (forall id s, lookup (m_states m) id = Some s -> s_next s = nexts id /\ hasclean id = match s_clean s with Some _ => true | None => false end) /\
  (forall id, ~ In id ids -> hasclean id = false) /\ clean_ok m.
Hypothesis nodup : NoDup ids.
Hypothesis nozero : ~ In 0 ids.

Lemma static_same : forall m m' : mach, static m -> m_flags m' = m_flags m -> m_ids m' = m_ids m -> m_states m' = m_states m -> static m'.
Proof. unfold static, clean_ok. intros m m' H -> -> ->. exact H. Qed.

Lemma static_update : forall (m : mach) id c s c0, static m -> lookup (m_states m) id = Some s -> s_clean s = Some c0 -> P c ->
  static (set_states m (update_clean (m_states m) id c)).
Proof.
  intros m id c s c0 (A & B & C & E & F & G) L SC PC. unfold static; cbn. rewrite update_fst.
  assert (forall id0 s0, lookup (update_clean (m_states m) id c) id0 = Some s0 ->
    exists t, lookup (m_states m) id0 = Some t /\ s_next s0 = s_next t /\ (s_clean s0 = s_clean t \/ (id0 = id /\ s_clean s0 = Some c))) as BACK.
  { intros id0 s0 L0. destruct (lookup (m_states m) id0) as [t |] eqn:LT.
    - destruct (update_lookup _ id c _ _ LT) as (t' & L' & _ & N' & K). assert (s0 = t') by congruence. subst s0. eauto.
    - assert (In id0 (map fst (update_clean (m_states m) id c))) as X by (apply lookup_in; congruence).
      rewrite update_fst in X. apply lookup_in in X. congruence. }
  split; [exact A |]. split; [exact B |]. split; [exact C |]. split; [| split; [exact F |]].
  - intros id0 s0 L0. destruct (BACK _ _ L0) as (t & LT & N' & K). destruct (E _ _ LT) as [E1 E2]. split; [congruence |].
    rewrite E2. destruct K as [-> | [-> ->]]; [reflexivity |]. assert (t = s) by congruence. subst t. now rewrite SC.
  - intros id0 s0 c1 L0 C1. cbn in L0. destruct (BACK _ _ L0) as (t & LT & N' & [K | [_ K]]); [| congruence].
    eapply G; [exact LT | congruence].
Qed.

Lemma lookup_reg : forall m, static m -> forall id, (exists s, lookup (m_states m) id = Some s) <-> In id ids.
Proof.
  intros m (_ & _ & C & _) id. rewrite <- C, <- lookup_in. split; [intros [s ->]; congruence |].
  destruct (lookup (m_states m) id); [eauto | congruence].
Qed.

(** What is left to clean *)
Definition todo (one : bool) (seen l : list N) : list N :=
  if one then dedup seen (filter hasclean l) else filter hasclean l.

Definition lawful (h : history) : Prop := f_one_cleanup f = false \/ all_done h.
Lemma lawful_tl : forall e h, lawful (e ++ h) -> lawful h.
Proof. intros e h [H | H]; [left; assumption | right]. intros a r st I. eapply H. apply in_or_app. right. eassumption. Qed.

Notation after := (after f ids nexts).
Notation due := (due hasclean).
Notation owed := (owed f hasclean).
Notation valid := (valid f ids nexts hasclean).

Definition frozen (m m' : mach) : Prop :=
  m_reason m' = m_reason m /\ m_ret m' = m_ret m /\ m_cur m' = m_cur m /\ m_running m' = m_running m /\ m_preason m' = m_preason m.
Lemma frozen_refl : forall m, frozen m m. Proof. intros. unfold frozen. auto. Qed.

Lemma filter_seen : forall s id l, hasclean id = false -> dedup (id :: s) (filter hasclean l) = dedup s (filter hasclean l).
Proof.
  intros. apply dedup_cong. intros x Hx. apply filter_In in Hx as [_ Hx]. cbn.
  destruct (N.eqb_spec x id) as [-> | _]; [congruence | reflexivity].
Qed.

Lemma cleanup_loop_ok : quiet -> forall l m d ev h r0 st0 st m' d' ev',
  cleanup_loop rrun l m d ev = Ok (st, m', d', ev') ->
  static m -> valid h -> after h = Cleaning r0 st0 -> m_reason m = r0 -> (forall x, In x l -> In x ids) ->
  incl (filter hasclean l) (due h) ->
  (lawful h -> owed h = cleaned h ++ todo (f_one_cleanup f) (m_seen m) l) ->
  exists e, ev' = ev ++ e /\
    let H := rev (map inl e) ++ h in
    static m' /\ valid H /\ after H = after h /\ due H = due h /\ frozen m m' /\
    ((st = S_DONE /\ (lawful H -> owed H = cleaned H)) \/
     ((st = S_WAIT \/ st = S_PAUSE) /\ (exists a r H', H = inl (EClean a r st) :: H') /\
      (forall x, In x (m_cleanup_ids m') -> In x ids) /\ incl (filter hasclean (m_cleanup_ids m')) (due H) /\
      (lawful H -> owed H = cleaned H ++ todo (f_one_cleanup f) (m_seen m') (m_cleanup_ids m')))).
Proof.
  intros Q. induction l as [| id l IH]; intros m d ev h r0 st0 st m' d' ev' E ST V AF RE LI INC LAW;
    cbn -[clear_cleanup_ids mem m_seen m_flags m_reason m_states set_seen set_states set_cleanup_ids] in E.
  - injection E as <- <- <- <-. exists []. rewrite app_nil_r. split; [reflexivity |]. cbn zeta. cbn [map rev app].
    split. { eapply static_same; [exact ST | reflexivity ..]. }
    split; [exact V |]. split; [reflexivity |]. split; [reflexivity |]. split; [unfold frozen; auto |].
    left. split; [reflexivity |]. intros K. rewrite (LAW K). unfold todo.
    destruct (f_one_cleanup f); cbn; apply app_nil_r.
  - assert (In id ids) as IDI by (apply LI; left; reflexivity).
    destruct (N.eqb_spec id 0) as [-> | NZ]; [contradiction |].
    assert (forall x, In x l -> In x ids) as LI' by (intros; apply LI; right; assumption).
    assert (m_flags m = f) as FL by apply ST.
    change (m_flags (set_cleanup_ids m l)) with (m_flags m) in E. change (m_seen (set_cleanup_ids m l)) with (m_seen m) in E. rewrite FL in E.
    assert (incl (filter hasclean l) (due h)) as INC'.
    { intros x Hx. apply INC. cbn. destruct (hasclean id); [right |]; exact Hx. }
    destruct (f_one_cleanup f && mem (m_seen m) id) eqn:SEEN.
    + apply andb_true_iff in SEEN as [ONE SEEN].
      eapply IH in E; [exact E | | exact V | exact AF | exact RE | exact LI' | exact INC' |].
      * eapply static_same; [exact ST | reflexivity ..].
      * intros K. rewrite (LAW K). unfold todo. rewrite ONE. cbn. destruct (hasclean id); cbn; [| reflexivity].
        unfold mem in SEEN. now rewrite SEEN.
    + set (m1 := set_cleanup_ids m l) in *.
      set (m2 := if f_one_cleanup f then set_seen m1 (id :: m_seen m) else m1) in *.
      assert (static m2) as ST2.
      { unfold m2, m1. destruct (f_one_cleanup f); (eapply static_same; [exact ST | reflexivity ..]). }
      assert (m_seen m2 = if f_one_cleanup f then id :: m_seen m else m_seen m) as SN2 by (unfold m2, m1; destruct (f_one_cleanup f); reflexivity).
      assert (frozen m m2) as FR2 by (unfold m2, m1, frozen; destruct (f_one_cleanup f); cbn; auto).
      assert (m_cleanup_ids m2 = l) as CI2 by (unfold m2, m1; destruct (f_one_cleanup f); reflexivity).
      clearbody m2. clear m1.
      assert (m_reason m2 = r0) as RE2 by (destruct FR2; congruence).
      assert (forall (m3 m4 : mach), frozen m m3 -> frozen m3 m4 -> frozen m m4) as TR by (clear; unfold frozen; intuition congruence).
      destruct (proj2 (lookup_reg m2 ST2 id) IDI) as [s LK]. rewrite LK in E.
      assert (hasclean id = match s_clean s with Some _ => true | None => false end) as HC by apply (proj1 (proj2 (proj2 (proj2 ST2))) _ _ LK).
      destruct (s_clean s) as [c |] eqn:SC.
      * destruct (rrun c (m_reason m2) d) as [[[st1 c'] d1] | |] eqn:RR; cbn [bind] in E; try discriminate E.
        assert (P c) as PC by (eapply (proj2 (proj2 (proj2 (proj2 (proj2 ST2))))); eassumption).
        destruct (proj1 Q _ _ _ _ _ _ PC RR) as (Q1 & Q2 & Q3 & PC').
        set (m3 := set_states m2 (update_clean (m_states m2) id c')) in *.
        assert (static m3) as ST3 by (eapply static_update; eassumption).
        assert (frozen m m3) as FR3 by (unfold m3, frozen in *; cbn; exact FR2).
        assert (m_seen m3 = if f_one_cleanup f then id :: m_seen m else m_seen m) as SN3 by exact SN2.
        assert (m_cleanup_ids m3 = l) as CI3 by exact CI2.
        assert (m_reason m3 = r0) as RE3 by exact RE2. change (m_reason m2) with (m_reason m3) in E. clearbody m3.
        assert (valid (inl (EClean id (m_reason m3) st1) :: h)) as V3.
        { rewrite RE3. eapply valid_clean; [exact V | exact AF | exact HC |]. apply INC. cbn. rewrite HC. left. reflexivity. }
        assert (~ (f_one_cleanup f = true /\ existsb (N.eqb id) (m_seen m) = true)) as NS.
        { intros [X Y]. unfold mem in SEEN. rewrite X, Y in SEEN. discriminate. }
        assert (forall K : lawful h, owed h = cleaned h ++ id :: todo (f_one_cleanup f) (m_seen m3) l) as LAW3.
        { intros K. rewrite (LAW K). unfold todo. rewrite SN3. cbn. rewrite HC. destruct (f_one_cleanup f); [| reflexivity].
          cbn. destruct (existsb (N.eqb id) (m_seen m)); [exfalso; apply NS; auto | reflexivity]. }
        assert (forall w : status, st1 = w -> settled w = false -> w <> S_NEXT ->
          Ok (w, set_cleanup_ids m3 (id :: l), d1, ev ++ [EClean id (m_reason m3) w]) = Ok (st, m', d', ev') ->
          exists e : list event, ev' = ev ++ e /\ (let H := rev (map inl e) ++ h in
            static m' /\ valid H /\ after H = after h /\ due H = due h /\ frozen m m' /\
            ((st = S_DONE /\ (lawful H -> owed H = cleaned H)) \/
             ((st = S_WAIT \/ st = S_PAUSE) /\ (exists a r H', H = inl (EClean a r st) :: H') /\
              (forall x, In x (m_cleanup_ids m') -> In x ids) /\ incl (filter hasclean (m_cleanup_ids m')) (due H) /\
              (lawful H -> owed H = cleaned H ++ todo (f_one_cleanup f) (m_seen m') (m_cleanup_ids m')))))) as WAITING.
        { intros w -> SW _ X. injection X as <- <- <- <-. exists [EClean id (m_reason m3) w]. split; [reflexivity |]. cbv zeta. cbn [map rev app].
          split. { eapply static_same; [exact ST3 | reflexivity ..]. }
          split; [exact V3 |]. split; [reflexivity |]. split; [reflexivity |]. split; [exact FR3 |].
          right. split; [destruct w; cbn in SW; try discriminate; auto |]. split; [eauto |]. split; [cbn; exact LI |]. split; [cbn; exact INC |].
          intros [K | K].
          - cbn [cleaned]. rewrite SW. change (owed (inl (EClean id (m_reason m3) w) :: h)) with (owed h).
            rewrite (LAW (or_introl K)). unfold todo. rewrite K. reflexivity.
          - specialize (K id (m_reason m3) w (or_introl eq_refl)). subst w. discriminate. }
        assert (forall m4 : mach, st1 <> S_WAIT -> st1 <> S_PAUSE -> static m4 -> frozen m m4 ->
          (st1 = S_DONE \/ f_one_cleanup f = false -> m_seen m4 = m_seen m3) ->
          cleanup_loop rrun l m4 d1 (ev ++ [EClean id (m_reason m3) st1]) = Ok (st, m', d', ev') ->
          exists e : list event, ev' = ev ++ e /\ (let H := rev (map inl e) ++ h in
            static m' /\ valid H /\ after H = after h /\ due H = due h /\ frozen m m' /\
            ((st = S_DONE /\ (lawful H -> owed H = cleaned H)) \/
             ((st = S_WAIT \/ st = S_PAUSE) /\ (exists a r H', H = inl (EClean a r st) :: H') /\
              (forall x, In x (m_cleanup_ids m') -> In x ids) /\ incl (filter hasclean (m_cleanup_ids m')) (due H) /\
              (lawful H -> owed H = cleaned H ++ todo (f_one_cleanup f) (m_seen m') (m_cleanup_ids m')))))) as GOON.
        { intros m4 W1 W2 ST4 FR4 SN4 X.
          assert (settled st1 = true) as SE by (destruct st1; congruence || reflexivity).
          eapply (IH m4 d1 _ (inl (EClean id (m_reason m3) st1) :: h)) in X; [| exact ST4 | exact V3 | exact AF | destruct FR4; congruence | exact LI' | exact INC' |].
          - destruct X as (e & -> & X). exists (EClean id (m_reason m3) st1 :: e). rewrite <- app_assoc. split; [reflexivity |].
            cbv zeta in X.
            destruct X as (Y1 & Y2 & Y3 & Y4 & Y5 & Y6). cbv zeta. cbn [map rev]. rewrite <- (app_assoc _ [inl _]). cbn [app].
            split; [exact Y1 |]. split; [exact Y2 |]. split; [exact Y3 |]. split; [exact Y4 |]. split; [eapply TR; eassumption | exact Y6].
          - intros K. cbn [cleaned]. rewrite SE, <- app_assoc. change (owed (inl (EClean id (m_reason m3) st1) :: h)) with (owed h).
            rewrite (LAW3 (lawful_tl [_] _ K)). cbn [app]. rewrite SN4; [reflexivity |].
            destruct K as [K | K]; [auto | left; eapply K; left; reflexivity]. }
        assert (forall s', static (if f_one_cleanup f then set_seen m3 s' else m3)) as ST5.
        { intros s'. destruct (f_one_cleanup f); [| exact ST3]. eapply static_same; [exact ST3 | reflexivity ..]. }
        assert (forall s', frozen m (if f_one_cleanup f then set_seen m3 s' else m3)) as FR5.
        { intros s'. destruct (f_one_cleanup f); [| exact FR3]. exact FR3. }
        destruct st1; try congruence;
          try (apply (WAITING _ eq_refl); [reflexivity | discriminate | exact E]);
          (eapply GOON; [discriminate | discriminate | | | | exact E]; [apply ST5 || exact ST3 | apply FR5 || exact FR3 |]);
          (intros [X | X]; [discriminate X || reflexivity | rewrite ?X; reflexivity]).
      * eapply IH in E; [| exact ST2 | exact V | exact AF | exact RE2 | exact LI' | exact INC' |].
        -- destruct E as (e & -> & X). exists e. split; [reflexivity |]. cbn in *.
           destruct X as (Y1 & Y2 & Y3 & Y4 & Y5 & Y6). split; [exact Y1 |]. split; [exact Y2 |]. split; [exact Y3 |]. split; [exact Y4 |]. split; [eapply TR; eassumption | exact Y6].
        -- intros K. rewrite (LAW K). unfold todo. rewrite SN2. cbn. rewrite HC.
           destruct (f_one_cleanup f); [| reflexivity]. now rewrite filter_seen.
Qed.

(** The invariant of a running machine *)
Notation stack := (stack f).
Definition standing (h : history) (m : mach) : Prop :=
  match after h with
  | At a => m_reason m = C_NONE /\ m_cur m = a /\ In a ids /\ m_prev m = stack h /\ (forall p, In p (stack h) -> In p ids) /\
      (f_single_prev f = true -> (length (stack h) <= 1)%nat) /\ m_conts m = continued h /\ m_seen m = [] /\ cleaned h = [] /\
      due h = filter hasclean (m_cleanup_ids m)
  | Cleaning r st =>
      (In (m_cur m) ids /\ m_reason m = r /\ has_reason r = true /\ m_ret m = st /\ st <> S_ERROR_BAD_ID) \/
      (~ In (m_cur m) ids /\ r = C_ERROR /\ st = S_ERROR_BAD_ID)
  | Finished => False
  end.
Definition Inv (h : history) (m : mach) : Prop :=
  static m /\ valid h /\ m_running m = true /\ (forall x, In x (m_cleanup_ids m) -> In x ids) /\
  incl (filter hasclean (m_cleanup_ids m)) (due h) /\
  (lawful h -> owed h = cleaned h ++ todo (f_one_cleanup f) (m_seen m) (m_cleanup_ids m)) /\
  standing h m.
Definition Good (h : history) (st : status) (m : mach) : Prop :=
  valid h /\ answer f ids nexts h st /\ (lawful h -> cleanup_law f ids nexts hasclean h st) /\ static m /\
  (if settled st then m_running m = false else Inv h m).

Lemma index_successor : forall l a, In a l -> exists i, index_of l a = Some i /\ nth (S i) l 0 = successor l a.
Proof.
  induction l as [| x l IH]; intros a H; [destruct H |]. cbn [index_of successor].
  destruct (N.eqb_spec x a) as [-> | NE].
  - exists O. split; [reflexivity |]. destruct l; reflexivity.
  - destruct H as [-> | H]; [congruence |]. destruct (IH a H) as (i & -> & E). exists (S i). split; [reflexivity |]. exact E.
Qed.

Lemma mem_in : forall l x, existsb (N.eqb x) l = true <-> In x l.
Proof.
  intros l x. rewrite existsb_exists. split.
  - intros (y & I & E). apply N.eqb_eq in E. now subst.
  - intros I. exists x. split; [exact I | apply N.eqb_refl].
Qed.

Lemma insert_prev_ok : forall (m : mach) a, m_flags m = f -> (f_single_prev f = true -> (length (m_prev m) <= 1)%nat) ->
  insert_prev m a = set_prev m (a :: if f_single_prev f then [] else m_prev m).
Proof.
  intros m a F L. unfold insert_prev. rewrite F. destruct (f_single_prev f); cbn; [| reflexivity].
  specialize (L eq_refl). destruct (m_prev m) as [| x [| y l]]; cbn in *; [reflexivity | reflexivity | lia].
Qed.

Definition good_outcome (h : history) (o : @outcome D R) : Prop :=
  match o with
  | Again m' d' ev => Inv (rev (map inl ev) ++ h) m'
  | Return st m' d' ev => Good (rev (map inl ev) ++ h) st m'
  end.

Lemma called_base : forall h m a g st n (m' : mach), Inv h m -> after h = At a -> reported st = true -> g = default_next f ids a ->
  static m' -> m_running m' = true -> m_seen m' = [] ->
  m_cleanup_ids m' = (if is_wait st then m_cleanup_ids m else a :: m_cleanup_ids m) ->
  standing (inl (ECall a g st n) :: h) m' -> Inv (inl (ECall a g st n) :: h) m'.
Proof.
  intros h m a g st n m' (ST & V & RU & CI & INC & LAW & SD) AF RP -> ST' RU' SN' CI' SD'.
  unfold standing in SD. rewrite AF in SD. destruct SD as (_ & _ & IA & _ & _ & _ & _ & _ & CL & DU).
  assert (due (inl (ECall a (default_next f ids a) st n) :: h) = filter hasclean (m_cleanup_ids m')) as DU'.
  { cbn [Spec.due]. rewrite CI', DU. destruct (is_wait st); cbn; [reflexivity |]. destruct (hasclean a); reflexivity. }
  split; [exact ST' |]. split; [constructor; assumption |]. split; [exact RU' |].
  split. { rewrite CI'. destruct (is_wait st); [exact CI | intros x [<- | X]; auto]. }
  split. { rewrite DU'. apply incl_refl. }
  split; [| exact SD'].
  intros _. cbn [cleaned]. rewrite CL. cbn [app]. unfold Spec.owed, todo. rewrite DU', SN'. reflexivity.
Qed.

Lemma finish_good : forall h m a g st n (m' : mach), Inv h m -> after h = At a -> reported st = true -> g = default_next f ids a ->
  static m' -> m_running m' = false -> after (inl (ECall a g st n) :: h) = Finished ->
  Good (inl (ECall a g st n) :: h) S_DONE m'.
Proof.
  intros h m a g st n m' (ST & V & RU & CI & INC & LAW & SD) AF RP -> ST' RU' AF'.
  unfold standing in SD. rewrite AF in SD. destruct SD as (_ & _ & IA & _ & _ & _ & _ & _ & CL & DU).
  split; [constructor; assumption |]. split; [cbn; left; split; [exact AF' | reflexivity] |].
  split; [| split; [exact ST' | exact RU']]. intros _. unfold cleanup_law. cbn [settled]. rewrite AF'. exact CL.
Qed.

Lemma wait_law : forall h st (m : mach), settled st = false -> Inv h m -> lawful h -> cleanup_law f ids nexts hasclean h st.
Proof.
  intros h st m SE (_ & _ & _ & _ & _ & LAW & _) L. unfold cleanup_law. rewrite SE. eexists. exact (LAW L).
Qed.

Lemma permittedb_of : forall m a s n, static m -> lookup (m_states m) a = Some s ->
  permittedb nexts a n = match s_next s with Some l => mem l n | None => true end.
Proof. intros m a s n ST L. unfold permittedb. destruct (proj1 (proj2 (proj2 (proj2 ST))) _ _ L) as [-> _]. reflexivity. Qed.

Lemma advance_ok : forall h (m m1 : mach) a s st n d g, Inv h m -> after h = At a -> g = default_next f ids a ->
  lookup (m_states m) a = Some s -> st = S_NEXT \/ st = S_CONTINUE \/ st = S_PAUSE ->
  m1 = set_cleanup_ids m (a :: m_cleanup_ids m) ->
  good_outcome h (advance m1 s st n d [ECall a g st n]).
Proof.
  intros h m m1 a s st n d g I AF G L STS M1.
  assert (reported st = true) as RP by (destruct STS as [-> | [-> | ->]]; reflexivity).
  assert (is_wait st = false) as NW by (destruct STS as [-> | [-> | ->]]; reflexivity).
  pose proof I as (ST & V & RU & CI & INC & LAW & SD).
  unfold standing in SD. rewrite AF in SD. destruct SD as (RE & CU & IA & PV & PI & SP & CO & SN & CL & DU).
  pose proof (permittedb_of m a s n ST L) as PB.
  assert (m_flags m1 = f) as FL by (rewrite M1; apply ST).
  assert (static m1) as ST1 by (subst m1; eapply static_same; [exact ST | reflexivity ..]).
  assert (forall m' : mach, m_flags m' = m_flags m1 -> m_ids m' = m_ids m1 -> m_states m' = m_states m1 -> m_running m' = true -> m_seen m' = [] ->
    m_cleanup_ids m' = a :: m_cleanup_ids m -> standing (inl (ECall a g st n) :: h) m' -> Inv (inl (ECall a g st n) :: h) m') as BASE.
  { intros m' E1 E2 E3 E4 E5 E6 E7. eapply called_base; try eassumption; [eapply static_same; eassumption | rewrite NW; exact E6]. }
  assert (forall r0 s0 (m' : mach), after (inl (ECall a g st n) :: h) = Cleaning r0 s0 -> has_reason r0 = true -> s0 <> S_ERROR_BAD_ID ->
    m_reason m' = r0 -> m_ret m' = s0 -> m_cur m' = a -> standing (inl (ECall a g st n) :: h) m') as SC.
  { intros r0 s0 m' E1 E2 E3 E4 E5 E6. unfold standing. rewrite E1. left. rewrite E6. auto. }
  unfold advance. rewrite FL.
  destruct (N.eqb_spec n 0) as [Z | NZ].
  - assert (after (inl (ECall a g st n) :: h) = if f_linear_end f && negb (f_explicit_next f) then done_place f else Cleaning C_ERROR S_ERROR_NO_NEXT) as A1.
    { cbn [Spec.after]. rewrite Z. destruct STS as [-> | [-> | ->]]; reflexivity. }
    destruct (f_linear_end f), (f_explicit_next f); cbn [orb negb andb] in *;
      try (cbn [good_outcome map rev app]; apply BASE; try (subst m1; cbn; first [reflexivity | assumption]);
           eapply SC; [exact A1 | reflexivity | discriminate | subst m1; cbn; first [reflexivity | assumption] ..]).
    unfold done_place in A1. destruct (f_done_cleanup f); cbn [good_outcome map rev app].
    + apply BASE; try (subst m1; cbn; first [reflexivity | assumption]).
      eapply SC; [exact A1 | reflexivity | discriminate | subst m1; cbn; first [reflexivity | assumption] ..].
    + eapply finish_good; try eassumption. reflexivity.
  - assert (match s_next s with Some l => negb (mem l n) | None => false end = negb (permittedb nexts a n)) as -> by (rewrite PB; destruct (s_next s); reflexivity).
    assert (n =? 0 = false) as NZ' by now apply N.eqb_neq.
    destruct (permittedb nexts a n) eqn:PM; cbn [negb].
    2:{ cbn [good_outcome map rev app]. apply BASE; try (subst m1; cbn; first [reflexivity | assumption]).
        eapply SC; [| | | subst m1; cbn; first [reflexivity | assumption] ..]; [| reflexivity | discriminate].
        cbn [Spec.after]. rewrite NZ', PM. destruct STS as [-> | [-> | ->]]; reflexivity. }
    (* moving on, once continuations are settled *)
    assert (forall m2 : mach, m_flags m2 = m_flags m1 -> m_ids m2 = m_ids m1 -> m_states m2 = m_states m1 -> m_running m2 = true -> m_seen m2 = [] ->
      m_cleanup_ids m2 = a :: m_cleanup_ids m -> m_cur m2 = a -> m_reason m2 = C_NONE ->
      m_prev m2 = stack (inl (ECall a g st n) :: h) -> m_conts m2 = continued (inl (ECall a g st n) :: h) ->
      match st with S_CONTINUE => negb (f_continue_loop f) && existsb (N.eqb n) (continued h) | _ => false end = false ->
      good_outcome h
        (if negb (f_self_call f) && (m_cur m2 =? n) then Again (set_end m2 C_ERROR S_ERROR_SELF_NEXT) d [ECall a g st n]
         else if is_pause st then Return st (set_cur m2 n) d [ECall a g st n] else Again (set_cur m2 n) d [ECall a g st n])) as GO.
    { intros m2 E1 E2 E3 E4 E5 E6 E7 E8 E9 E10 NL.
      assert (after (inl (ECall a g st n) :: h) = if negb (f_self_call f) && (n =? a) then Cleaning C_ERROR S_ERROR_SELF_NEXT else arrive ids n) as A1.
      { cbn [Spec.after]. rewrite NZ', PM. cbn [negb]. rewrite NL. destruct STS as [-> | [-> | ->]]; reflexivity. }
      rewrite E7, (N.eqb_sym a n). destruct (negb (f_self_call f) && (n =? a)).
      - cbn [good_outcome map rev app]. apply BASE; try (cbn; assumption).
        eapply SC; [exact A1 | reflexivity | discriminate | cbn; first [reflexivity | assumption] ..].
      - assert (Inv (inl (ECall a g st n) :: h) (set_cur m2 n)) as INV.
        { apply BASE; try (cbn; assumption). unfold standing. rewrite A1. unfold arrive.
          destruct (existsb (N.eqb n) ids) eqn:EX.
          - apply mem_in in EX. cbn. rewrite E6. split; [exact E8 |]. split; [reflexivity |]. split; [exact EX |]. split; [exact E9 |].
            split. { destruct STS as [-> | [-> | ->]]; cbn; [| exact PI |];
              (intros p [<- | HP]; [exact IA |]; destruct (f_single_prev f); [destruct HP | apply PI; exact HP]). }
            split. { intros SG. specialize (SP SG). destruct STS as [-> | [-> | ->]]; cbn; rewrite ?SG; cbn; lia. }
            split; [exact E10 |]. split; [exact E5 |]. split; [exact CL |].
            rewrite NW, DU. cbn. destruct (hasclean a); reflexivity.
          - right. cbn. split; [| auto]. intros X. apply mem_in in X. congruence. }
        destruct (is_pause st) eqn:PS; cbn [good_outcome map rev app]; [| exact INV].
        destruct st; try discriminate PS. split; [apply INV |]. split; [cbn; left; subst g; eauto |].
        split; [intros LF; eapply wait_law; [reflexivity | exact INV | exact LF] |].
        split; [apply INV | exact INV]. }
    assert (insert_prev m1 (m_cur m1) = set_prev m1 (a :: if f_single_prev f then [] else stack h)) as IP.
    { rewrite insert_prev_ok; [| exact FL | subst m1; cbn; rewrite PV; exact SP]. subst m1; cbn. rewrite CU, PV. reflexivity. }
    assert (m_conts m1 = continued h) as CO1 by (subst m1; exact CO).
    destruct STS as [-> | [-> | ->]].
    + rewrite IP. apply GO; try (subst m1; cbn; first [reflexivity | assumption]).
    + rewrite CO1. change (mem (continued h) n) with (existsb (N.eqb n) (continued h)).
      destruct (negb (f_continue_loop f) && existsb (N.eqb n) (continued h)) eqn:CL1.
      * cbn [good_outcome map rev app]. apply BASE; try (subst m1; cbn; first [reflexivity | assumption]).
        eapply SC; [| | | subst m1; cbn; first [reflexivity | assumption] ..]; [| reflexivity | discriminate].
        cbn [Spec.after]. now rewrite NZ', PM, CL1.
      * apply GO; try (subst m1; cbn; first [reflexivity | assumption]); reflexivity.
    + rewrite IP. apply GO; try (subst m1; cbn; first [reflexivity | assumption]).
Qed.

Lemma call_ok : forall h m d a s st0 n d1, Inv h m -> after h = At a -> lookup (m_states m) a = Some s ->
  s_func s (m_preason m) d (default_next f ids a) = (st0, n, d1) ->
  forall o,
  (let st := state_status st0 in
   let ev := [ECall (m_cur m) (default_next f ids a) st n] in
   let m := if is_wait st then m else set_cleanup_ids m (m_cur m :: m_cleanup_ids m) in
   match st with
   | S_NEXT | S_CONTINUE | S_PAUSE => Ok (advance m s st n d1 ev)
   | S_PREV =>
     let '(m, id) := pop_prev m in
     let m := set_cur m id in
     if id =? 0 then Ok (Again (set_end m C_ERROR S_ERROR_NO_PREV) d1 ev) else Ok (Again m d1 ev)
   | S_WAIT => Ok (Return S_WAIT (set_conts m []) d1 ev)
   | S_DONE =>
     if f_done_cleanup f then Ok (Again (set_conts (set_end m C_DONE S_DONE) []) d1 ev)
     else Ok (Return S_DONE (set_conts (set_running (clear_cleanup_ids m) false) []) d1 ev)
   | st => Ok (Again (set_conts (set_end m C_ERROR st) []) d1 ev)
   end) = Ok o -> good_outcome h o.
Proof.
  intros h m d a s st0 n d1 I AF L SF o E. cbv zeta in E.
  pose proof I as (ST & V & RU & CI & INC & LAW & SD).
  unfold standing in SD. rewrite AF in SD. destruct SD as (RE & CU & IA & PV & PI & SP & CO & SN & CL & DU).
  rewrite CU in E. set (g := default_next f ids a) in *. assert (reported (state_status st0) = true) as RP by (destruct st0; reflexivity).
  assert (state_status st0 = S_NEXT \/ state_status st0 = S_CONTINUE \/ state_status st0 = S_PAUSE \/ state_status st0 = S_PREV \/
    state_status st0 = S_WAIT \/ state_status st0 = S_DONE \/ state_status st0 = S_ERROR_STATE) as SS by (destruct st0; cbn; tauto).
  set (st := state_status st0) in *. clearbody st. clear st0 SF.
  assert (forall m' : mach, is_wait st = false -> static m' -> m_running m' = true -> m_seen m' = [] ->
    m_cleanup_ids m' = a :: m_cleanup_ids m -> standing (inl (ECall a g st n) :: h) m' -> Inv (inl (ECall a g st n) :: h) m') as BASE.
  { intros m' NW E1 E4 E5 E6 E7. eapply called_base; try eassumption; [reflexivity | rewrite NW; exact E6]. }
  destruct SS as [-> | [-> | [-> | [-> | [-> | [-> | ->]]]]]]; cbn [is_wait] in *.
  - injection E as <-. eapply advance_ok; eauto.
  - injection E as <-. eapply advance_ok; eauto.
  - injection E as <-. eapply advance_ok; eauto.
  - unfold pop_prev in E. cbn [m_prev set_cleanup_ids] in E. rewrite PV in E.
    destruct (stack h) as [| p ps] eqn:SK.
    + cbn [N.eqb] in E. injection E as <-. cbn [good_outcome map rev app]. apply BASE; try reflexivity; try assumption.
      unfold standing. cbn [Spec.after]. rewrite SK. right. cbn. auto.
    + assert (In p ids) as IP by (apply PI; left; reflexivity).
      destruct (N.eqb_spec p 0) as [-> | NP]; [contradiction |]. injection E as <-. cbn [good_outcome map rev app].
      apply BASE; try reflexivity; try assumption.
      unfold standing. cbn [Spec.after]. rewrite SK. cbn. rewrite SK. cbn. split; [exact RE |]. split; [reflexivity |]. split; [exact IP |].
      split; [reflexivity |]. split; [intros; apply PI; right; assumption |]. split; [intros SG; specialize (SP SG); cbn in SP; lia |].
      split; [exact CO |]. split; [exact SN |]. split; [exact CL |]. rewrite DU. destruct (hasclean a); reflexivity.
  - injection E as <-. cbn [good_outcome map rev app].
    assert (Inv (inl (ECall a g S_WAIT n) :: h) (set_conts m [])) as INV.
    { eapply called_base; try eassumption; try reflexivity. unfold standing. cbn. repeat split; assumption. }
    split; [apply INV |]. split; [cbn; left; unfold g; eauto |]. split; [intros LF; eapply wait_law; [reflexivity | exact INV | exact LF] |].
    split; [apply INV | exact INV].
  - assert (after (inl (ECall a g S_DONE n) :: h) = done_place f) as A1 by reflexivity. unfold done_place in A1.
    destruct (f_done_cleanup f); injection E as <-; cbn [good_outcome map rev app].
    + apply BASE; try reflexivity; try assumption. unfold standing. rewrite A1. left. cbn. rewrite CU. repeat split; try assumption; discriminate.
    + eapply finish_good; try eassumption; reflexivity.
  - injection E as <-. cbn [good_outcome map rev app]. apply BASE; try reflexivity; try assumption.
    unfold standing. cbn. left. rewrite CU. repeat split; try assumption; discriminate.
Qed.

Definition ending (st : status) : bool :=
  match st with S_DONE | S_ERROR_STATE | S_ERROR_BAD_ID | S_ERROR_NO_NEXT | S_ERROR_BAD_NEXT | S_ERROR_SELF_NEXT | S_ERROR_INF_CONT => true | _ => false end.
Lemma after_ending : forall h, valid h -> forall r st, after h = Cleaning r st -> ending st = true.
Proof.
  induction 1 as [| h a st n V IH AF RP | h a r st0 st V IH AF HC DU | h r V IH]; intros r' st' E; cbn in E.
  - destruct ids; discriminate.
  - unfold done_place, arrive in E.
    assert (forall b x, (if b : bool then Cleaning C_DONE S_DONE else Finished) = Cleaning r' x -> ending x = true) as DP by (intros [] x X; congruence || (injection X as <- <-; reflexivity)).
    destruct st; try discriminate RP; try (injection E as <- <-; reflexivity); try discriminate E; try (eapply DP; exact E);
      try (destruct (stack h); [injection E as <- <-; reflexivity | discriminate]);
      repeat match type of E with (if ?b then _ else _) = _ => destruct b end;
      first [discriminate E | injection E as <- <-; reflexivity].
  - eapply IH; exact E.
  - destruct (after h) as [a | r0 s0 |]; try (injection E as <- <-; reflexivity).
    destruct s0; injection E as <- <-; reflexivity.
Qed.

Lemma pass_ok : quiet -> forall h m d o, Inv h m -> pass rrun m d = Ok o -> good_outcome h o.
Proof.
  intros Q h m d o I E. pose proof I as (ST & V & RU & CI & INC & LAW & SD). unfold standing in SD.
  destruct (after h) as [a | r0 st0 |] eqn:AF; [| | destruct SD].
  - destruct SD as (RE & CU & IA & PV & PI & SP & CO & SN & CL & DU).
    destruct (proj2 (lookup_reg m ST a) IA) as [s L]. unfold pass in E. cbv zeta in E. rewrite CU, L in E. rewrite RE in E. cbn [has_reason] in E.
    rewrite ?CU in E.
    assert (m_flags m = f) as FL by apply ST. assert (m_ids m = ids) as IS by apply ST. rewrite FL, IS in E.
    destruct (index_successor ids a IA) as (i & IX & NX). rewrite IX in E.
    assert ((if f_explicit_next f then Some 0 else Some (nth (S i) ids 0)) = Some (default_next f ids a)) as DF
      by (unfold default_next; rewrite NX; destruct (f_explicit_next f); reflexivity).
    rewrite DF in E. destruct (s_func s (m_preason m) d (default_next f ids a)) as [[st1 n] d1] eqn:SF.
    eapply call_ok; try eassumption. rewrite CU. exact E.
  - assert (exists m1, m1 = (match lookup (m_states m) (m_cur m) with None => set_end m C_ERROR S_ERROR_BAD_ID | Some _ => m end) /\
      m_reason m1 = r0 /\ m_ret m1 = st0 /\ has_reason r0 = true /\ static m1 /\ m_running m1 = true /\ m_cleanup_ids m1 = m_cleanup_ids m /\
      m_seen m1 = m_seen m /\ m_cur m1 = m_cur m) as (m1 & M1 & RE & RT & HR & ST1 & RU1 & CI1 & SN1 & CU1).
    { eexists. split; [reflexivity |]. destruct SD as [(A & B & C & G & K) | (A & B & C)].
      - destruct (proj2 (lookup_reg m ST _) A) as [s ->]. auto 10.
      - destruct (lookup (m_states m) (m_cur m)) eqn:L; [exfalso; apply A; apply (lookup_reg m ST); eauto |].
        subst r0 st0. cbn. split; [reflexivity |]. split; [reflexivity |]. split; [reflexivity |].
        split; [eapply static_same; [exact ST | reflexivity ..] | auto]. }
    unfold pass in E. rewrite <- M1 in E. rewrite RE, HR in E. unfold run_cleanup in E. rewrite RE, HR in E.
    destruct (cleanup_loop rrun (m_cleanup_ids m1) m1 d []) as [[[[st2 m2] d2] ev2] | |] eqn:CL; cbn [bind] in E; try discriminate E.
    rewrite CI1 in CL. eapply cleanup_loop_ok in CL; [| exact Q | exact ST1 | exact V | exact AF | exact RE | exact CI | exact INC | rewrite SN1; exact LAW].
    destruct CL as (e & -> & ST2 & V2 & AF2 & DU2 & FR & CASES). cbn [app] in *. destruct FR as (F1 & F2 & F3 & F4 & F5).
    assert (after (rev (map inl e) ++ h) = Cleaning r0 st0) as AF3 by congruence.
    assert (settled st0 = true /\ st0 <> S_WAIT /\ st0 <> S_PAUSE) as (SE & SW & SP).
    { pose proof (after_ending _ V _ _ AF) as X. destruct st0; try discriminate X; repeat split; discriminate. }
    destruct CASES as [(-> & LW) | (ST' & NE & CI2 & INC2 & LW)].
    + cbn [is_wait is_pause orb] in E. injection E as <-. cbn [good_outcome]. rewrite F2, RT.
      split; [exact V2 |]. split. { unfold answer. destruct st0; try (right; eauto; fail); congruence. }
      split. { intros LF. unfold cleanup_law. rewrite SE, AF3. symmetry. exact (LW LF). }
      split; [eapply static_same; [exact ST2 | reflexivity ..] |]. now rewrite SE.
    + assert (Inv (rev (map inl e) ++ h) m2) as INV.
      { split; [exact ST2 |]. split; [exact V2 |]. split; [congruence |]. split; [exact CI2 |]. split; [exact INC2 |]. split; [exact LW |].
        unfold standing. rewrite AF3, F3, CU1. destruct SD as [(A & B & C & G & K) | (A & B & C)]; [left | right; auto].
        repeat split; try assumption; congruence. }
      destruct NE as (a & r & H' & HE).
      assert (o = Return st2 m2 d2 e) as -> by (destruct ST' as [-> | ->]; cbn in E; congruence).
      cbn [good_outcome]. split; [exact V2 |]. split. { destruct ST' as [-> | ->]; cbn; right; eauto. }
      split. { intros LF. eapply wait_law; [destruct ST' as [-> | ->]; reflexivity | exact INV | exact LF]. }
      split; [exact ST2 |]. destruct ST' as [-> | ->]; exact INV.
Qed.

Lemma loop_ok : quiet -> forall fuel h m d ev st m' d' ev', loop rrun fuel m d ev = Ok (st, m', d', ev') -> Inv h m ->
  exists e, ev' = ev ++ e /\ Good (rev (map inl e) ++ h) st m'.
Proof.
  intros Q. induction fuel as [| fuel IH]; intros h m d ev st m' d' ev' E I; [discriminate |]. cbn in E.
  destruct (pass rrun m d) as [o | |] eqn:PS; cbn [bind] in E; try discriminate E.
  pose proof (pass_ok Q _ _ _ _ I PS) as G. destruct o as [m1 d1 e1 | st1 m1 d1 e1]; cbn [good_outcome] in G.
  - eapply IH in E; [| exact G]. destruct E as (e & -> & X). exists (e1 ++ e). rewrite app_assoc. split; [reflexivity |].
    rewrite rev_map_app. exact X.
  - injection E as <- <- <- <-. exists e1. auto.
Qed.

Lemma start_inv : forall m first rest, ids = first :: rest -> static m ->
  Inv [] (set_running (set_end (set_cur (set_prev (clear_cleanup_ids (set_conts m [])) []) first) C_NONE S_NONE) true).
Proof.
  intros m first rest IS ST. split; [eapply static_same; [exact ST | reflexivity ..] |]. split; [constructor |]. split; [reflexivity |].
  split; [intros x [] |]. split; [intros x [] |]. split; [intros _; cbn; unfold Spec.owed, todo; destruct (f_one_cleanup f); reflexivity |].
  unfold standing. cbn [Spec.after]. rewrite IS. cbn. repeat split; try tauto; intros; lia.
Qed.

Lemma set_running_id : forall m : mach, m_running m = true -> set_running m true = m.
Proof. intros [] E. cbn in *. now subst. Qed.

Lemma run_ok : quiet -> forall fuel h m d st m' d' ev, run rrun fuel m d = Ok (st, m', d', ev) -> static m ->
  (m_running m = false /\ h = [] \/ ids <> [] /\ Inv h m) -> Good (rev (map inl ev) ++ h) st m'.
Proof.
  intros Q fuel h m d st m' d' ev E ST C. unfold run in E. assert (m_ids m = ids) as IDS by apply ST.
  destruct (m_ids m) as [| first rest]; symmetry in IDS.
  - injection E as <- <- <- <-. cbn. destruct C as [[RU ->] | I].
    + split; [constructor |]. split; [left; cbn; rewrite IDS; auto |]. split; [intros _; unfold cleanup_law; cbn; rewrite IDS; reflexivity |].
      split; [eapply static_same; [exact ST | reflexivity ..] | reflexivity].
    + exfalso. apply (proj1 I). exact IDS.
  - assert (exists m1, m1 = set_running (if m_running m then m else set_end (set_cur (set_prev (clear_cleanup_ids (set_conts m [])) []) first) C_NONE S_NONE) true /\ Inv h m1) as (m1 & M1 & I1).
    { eexists. split; [reflexivity |]. destruct C as [[RU ->] | [_ I]].
      - rewrite RU. eapply start_inv; [exact IDS | exact ST].
      - assert (m_running m = true) as RU by apply I. rewrite RU, set_running_id by exact RU. exact I. }
    rewrite <- M1 in E. eapply loop_ok in E; [| exact Q | exact I1]. destruct E as (e & -> & G). exact G.
Qed.

Lemma reset_inv : quiet -> forall h m r, Inv h m -> has_reason r = true -> Inv (inr r :: h) (reset rreset m r).
Proof.
  intros Q h m r (ST & V & RU & CI & INC & LAW & SD) HR. unfold reset. rewrite RU. cbn [negb].
  assert (forall m' : mach, static m' -> m_running m' = true -> m_cleanup_ids m' = m_cleanup_ids m -> m_seen m' = m_seen m ->
    standing (inr r :: h) m' -> Inv (inr r :: h) m') as BASE.
  { intros m' E1 E2 E3 E4 E5. split; [exact E1 |]. split; [constructor; exact V |]. split; [exact E2 |]. rewrite E3, E4.
    split; [exact CI |]. split; [exact INC |]. split; [| exact E5].
    intros L. apply (lawful_tl [_]) in L. exact (LAW L). }
  unfold standing in *. cbn [Spec.after] in *.
  destruct (lookup (m_states m) (m_cur m)) as [s |] eqn:LK.
  - assert (In (m_cur m) ids) as IC by (apply (lookup_reg m ST); eauto).
    set (m1 := match m_cleanup_ids m with [] => m | last :: _ => _ end).
    assert (static m1 /\ m_running m1 = true /\ m_cleanup_ids m1 = m_cleanup_ids m /\ m_seen m1 = m_seen m /\ m_cur m1 = m_cur m) as (E1 & E2 & E3 & E4 & E5).
    { unfold m1. destruct (m_cleanup_ids m) as [| last rest] eqn:CC; [auto |].
      destruct (lookup (m_states m) last) as [t |] eqn:LT; [| auto]. destruct (s_clean t) as [c |] eqn:CT; [| auto].
      split; [| auto]. eapply static_update; try eassumption. apply (proj2 Q). eapply (proj2 (proj2 (proj2 (proj2 (proj2 ST))))); eassumption. }
    clearbody m1. rewrite HR. apply BASE; try assumption; try (eapply static_same; [exact E1 | reflexivity ..]).
    destruct (after h) as [a | r0 s0 |]; [| | destruct SD].
    + left. cbn. rewrite E5. repeat split; try assumption; discriminate.
    + destruct SD as [(A & B & C & G & K) | (A & _)]; [| contradiction].
      destruct s0; try congruence; (left; cbn; rewrite E5; repeat split; try assumption; discriminate).
  - assert (~ In (m_cur m) ids) as IC. { intros X. apply (lookup_reg m ST) in X as [s X]. congruence. }
    apply BASE; auto. destruct (after h) as [a | r0 s0 |]; [| | destruct SD].
    + destruct SD as (_ & CU & IA & _). rewrite CU in IC. contradiction.
    + destruct SD as [(A & _) | (A & -> & ->)]; [contradiction | right; auto].
Qed.
End Fixed.

Lemma wf_static : forall m : mach, wf m -> clean_ok m -> static (m_flags m) (m_ids m) (nexts_of m) (hasclean_of m) m.
Proof.
  intros m (A & B & C) CK. split; [reflexivity |]. split; [reflexivity |]. split; [symmetry; exact A |]. split; [| split; [| exact CK]].
  - intros id s L. unfold nexts_of, hasclean_of. rewrite L. auto.
  - intros id NI. unfold hasclean_of. destruct (lookup (m_states m) id) eqn:L; [| reflexivity].
    exfalso. apply NI. rewrite A. apply lookup_in. congruence.
Qed.

Lemma session_ok : quiet -> forall m0, wf m0 -> clean_ok m0 -> forall h m, session rrun rreset m0 h m ->
  static (m_flags m0) (m_ids m0) (nexts_of m0) (hasclean_of m0) m /\
  (m_running m = false /\ h = [] \/ m_ids m0 <> [] /\ Inv (m_flags m0) (m_ids m0) (nexts_of m0) (hasclean_of m0) h m).
Proof.
  intros Q m0 W CK h m S. destruct W as (W1 & W2 & W3).
  induction S as [RU | h m fuel d st m' d' ev S IH E SE | h m r S IH RU NR].
  - split; [apply wf_static; [split; auto | exact CK] | left; auto].
  - destruct IH as [ST C]. pose proof E as E0. eapply run_ok in E; try eassumption.
    destruct E as (_ & _ & _ & ST' & K). rewrite SE in K. split; [exact ST' |]. right. split; [| exact K].
    intros X. unfold run in E0. assert (m_ids m = m_ids m0) as Y by apply ST. rewrite Y, X in E0. injection E0 as <- _ _ _. discriminate.
  - destruct IH as [ST [[RF _] | [NE I]]]; [congruence |].
    assert (has_reason r = true) as HR by (destruct r; congruence || reflexivity).
    pose proof (reset_inv _ _ _ _ Q h m r I HR) as I'. split; [apply I' | right; auto].
Qed.

(** ** The answers of a machine, whatever its cleanup machines answer *)
Definition loud (st : status) : bool := match st with S_NEXT | S_PREV | S_CONTINUE => true | _ => false end.
Definition tame (m : mach) : Prop := loud (m_ret m) = false.

Lemma cleanup_ret : forall l m d ev st m' d' ev', cleanup_loop rrun l m d ev = Ok (st, m', d', ev') -> m_ret m' = m_ret m.
Proof.
  induction l as [| id l IH]; intros m d ev st m' d' ev' E; cbn -[mem clear_cleanup_ids] in E.
  - injection E as <- <- <- <-. reflexivity.
  - destruct (id =? 0); [injection E as <- <- <- <-; reflexivity |].
    destruct (f_one_cleanup (m_flags m) && mem (m_seen m) id); [apply IH in E; exact E |].
    set (m1 := if f_one_cleanup (m_flags m) then _ else _) in E. assert (m_ret m1 = m_ret m) as M1 by (unfold m1; destruct (f_one_cleanup (m_flags m)); reflexivity).
    clearbody m1. destruct (lookup (m_states m1) id) as [s |]; [| apply IH in E; congruence].
    destruct (s_clean s) as [c |]; [| apply IH in E; congruence].
    destruct (rrun c (m_reason m1) d) as [[[st1 c'] d1] | |]; cbn [bind] in E; try discriminate E.
    destruct st1; try (injection E as <- <- <- <-; exact M1); try (apply IH in E; rewrite E; cbn; destruct (f_one_cleanup (m_flags m)); exact M1).
Qed.

Definition fine (o : @outcome D R) : Prop := match o with Again m _ _ => tame m | Return st m _ _ => loud st = false /\ tame m end.
Lemma advance_tame : forall m s st n d ev, loud st = true \/ st = S_PAUSE -> tame m -> fine (advance m s st n d ev).
Proof.
  intros m s st n d ev STS T. unfold advance.
  assert (forall a, tame (insert_prev m a)) as IP by (intros; unfold insert_prev; destruct (negb (f_single_prev (m_flags m)) || _); exact T).
  destruct (n =? 0). { destruct (f_explicit_next (m_flags m) || negb (f_linear_end (m_flags m))); [reflexivity |]. destruct (f_done_cleanup (m_flags m)); [reflexivity |]. split; [reflexivity | exact T]. }
  destruct (match s_next s with Some l => negb (mem l n) | None => false end); [reflexivity |].
  assert (forall m1, tame m1 -> fine (if negb (f_self_call (m_flags m)) && (m_cur m1 =? n) then Again (set_end m1 C_ERROR S_ERROR_SELF_NEXT) d ev
    else if is_pause st then Return st (set_cur m1 n) d ev else Again (set_cur m1 n) d ev)) as GO.
  { intros m1 T1. destruct (negb (f_self_call (m_flags m)) && (m_cur m1 =? n)); [reflexivity |].
    destruct st; cbn [is_pause]; try exact T1. split; [reflexivity | exact T1]. }
  destruct st; try (apply GO; apply IP). destruct (negb (f_continue_loop (m_flags m)) && mem (m_conts m) n); [reflexivity | apply GO; exact T].
Qed.

Lemma pass_tame : forall m d o, tame m -> pass rrun m d = Ok o -> fine o.
Proof.
  intros m d o T E. unfold pass in E. cbv zeta in E.
  set (m1 := match lookup (m_states m) (m_cur m) with Some _ => m | None => set_end m C_ERROR S_ERROR_BAD_ID end) in E.
  assert (tame m1) as T1 by (unfold m1; destruct (lookup (m_states m) (m_cur m)); [exact T | reflexivity]).
  destruct (has_reason (m_reason m1)) eqn:HR.
  - unfold run_cleanup in E. rewrite HR in E.
    destruct (cleanup_loop rrun (m_cleanup_ids m1) m1 d []) as [[[[st m2] d2] e2] | |] eqn:CL; cbn [bind] in E; try discriminate E.
    apply cleanup_ret in CL. assert (tame m2) as T2 by (unfold tame; rewrite CL; exact T1).
    destruct (is_wait st || is_pause st) eqn:WP; injection E as <-; cbn [fine].
    + split; [destruct st; try discriminate WP; reflexivity | exact T2].
    + split; [exact T2 | exact T2].
  - destruct (lookup (m_states m) (m_cur m)) as [s |]; [| discriminate E]. subst m1.
    destruct (if f_explicit_next (m_flags m) then Some 0 else _) as [g |]; [| injection E as <-; reflexivity].
    destruct (s_func s (m_preason m) d g) as [[st0 n] d1].
    destruct st0; cbn [state_status is_wait] in E; try (injection E as <-; first [reflexivity | apply advance_tame; [cbn; auto | exact T] | split; [reflexivity | exact T]]).
    + destruct (pop_prev _) as [m1 id] eqn:PP. assert (tame m1) as T3.
      { unfold pop_prev in PP. cbn in PP. destruct (m_prev m); injection PP as <- <-; exact T. }
      destruct (id =? 0); injection E as <-; [reflexivity | exact T3].
    + destruct (f_done_cleanup (m_flags m)); injection E as <-; [reflexivity | split; [reflexivity | exact T]].
Qed.

Lemma run_tame : forall fuel m d st m' d' ev, tame m -> run rrun fuel m d = Ok (st, m', d', ev) -> loud st = false /\ tame m'.
Proof.
  intros fuel m d st m' d' ev T E. unfold run in E. destruct (m_ids m) as [| first rest]; [injection E as <- <- <- <-; split; [reflexivity | exact T] |].
  set (m1 := set_running _ true) in E. assert (tame m1) as T1 by (unfold m1; destruct (m_running m); [exact T | reflexivity]).
  clearbody m1. revert E. generalize (@nil event) as e. revert d m1 T1. clear m T.
  induction fuel as [| fuel IH]; intros d m T e E; [discriminate |]. cbn [loop] in E.
  destruct (pass rrun m d) as [o | |] eqn:PS; cbn [bind] in E; try discriminate E. pose proof (pass_tame _ _ _ T PS) as F.
  destruct o as [m1 d1 e1 | st1 m1 d1 e1]; [eapply IH; [exact F | exact E] |]. injection E as <- <- <- <-. exact F.
Qed.

Lemma reset_tame : forall m r, tame m -> tame (reset rreset m r).
Proof.
  intros m r T. unfold reset. destruct (m_running m); cbn [negb]; [| exact T].
  destruct (lookup (m_states m) (m_cur m)); [reflexivity | exact T].
Qed.

(** ** No undefined behaviour *)
Lemma cleanup_no_ub : (forall c r d, rrun c r d <> UB) -> forall l m d ev, cleanup_loop rrun l m d ev <> UB.
Proof.
  intros NU. induction l as [| id l IH]; intros m d ev; cbn -[mem clear_cleanup_ids]; [discriminate |].
  destruct (id =? 0); [discriminate |].
  destruct (f_one_cleanup (m_flags m) && mem (m_seen m) id); [apply IH |].
  match goal with |- context [lookup ?a ?b] => destruct (lookup a b) as [s |] end; [| apply IH].
  destruct (s_clean s) as [c |]; [| apply IH].
  match goal with |- context [rrun ?a ?b ?c] => pose proof (NU a b c); destruct (rrun a b c) as [[[st c'] d'] | |] end; cbn [bind]; try congruence.
  destruct st; try discriminate; apply IH.
Qed.

Lemma run_no_ub : (forall c r d, rrun c r d <> UB) -> forall fuel m d, run rrun fuel m d <> UB.
Proof.
  intros NU fuel m d. unfold run. destruct (m_ids m) as [| first rest]; [discriminate |].
  match goal with |- loop _ _ ?x _ ?e <> _ => generalize x as m1; generalize e end. clear m first rest. revert d.
  induction fuel as [| fuel IH]; intros d e m; [discriminate |]. cbn [loop].
  assert (pass rrun m d <> UB) as PU.
  { unfold pass. cbv zeta. destruct (lookup (m_states m) (m_cur m)) as [s |].
    - destruct (has_reason (m_reason m)) eqn:HR.
      + unfold run_cleanup. rewrite HR. pose proof (cleanup_no_ub NU (m_cleanup_ids m) m d []) as X.
        destruct (cleanup_loop rrun (m_cleanup_ids m) m d []) as [[[[a b] c] e'] | |]; cbn [bind]; try congruence. destruct (is_wait a || is_pause a); discriminate.
      + destruct (if f_explicit_next (m_flags m) then Some 0 else _) as [g |]; [| discriminate].
        destruct (s_func s (m_preason m) d g) as [[st n] d1]. destruct (state_status st); try discriminate.
        * destruct (pop_prev _) as [m1 id]. destruct (id =? 0); discriminate.
        * destruct (f_done_cleanup (m_flags m)); discriminate.
    - cbn [m_reason set_end has_reason]. unfold run_cleanup. cbn [m_reason set_end has_reason m_cleanup_ids].
      match goal with |- context [cleanup_loop rrun ?a ?b ?c ?e'] => pose proof (cleanup_no_ub NU a b c e'); destruct (cleanup_loop rrun a b c e') as [[[[? ?] ?] ?] | |] end; cbn [bind]; try congruence.
      destruct (is_wait _ || is_pause _); discriminate. }
  destruct (pass rrun m d) as [[m1 d1 e1 | st m1 d1 e1] | |]; cbn [bind]; try congruence; apply IH.
Qed.

(** ** Continuations end *)
Definition fresh (m : mach) : nat := length (filter (fun x => negb (mem (m_conts m) x)) (m_ids m)).
Definition closing (m : mach) : Prop := has_reason (m_reason m) = true \/ lookup (m_states m) (m_cur m) = None.
Definition never_next (m : mach) : Prop :=
  forall id s r d g, In (id, s) (m_states m) -> fst (fst (s_func s r d g)) <> S_NEXT.

Lemma lookup_In : forall (l : list (N * state D R)) id s, lookup l id = Some s -> In (id, s) l.
Proof.
  induction l as [| [i t] l IH]; intros id s H; cbn in H; [discriminate |].
  destruct (N.eqb_spec i id) as [-> | NE]; [injection H as ->; left; reflexivity | right; auto].
Qed.

Lemma total_cleanup : (forall c r d, exists x, rrun c r d = Ok x) -> forall l m d ev, exists x, cleanup_loop rrun l m d ev = Ok x.
Proof.
  intros T. induction l as [| id l IH]; intros m d ev; cbn -[mem clear_cleanup_ids]; [eauto |].
  destruct (id =? 0); [eauto |].
  destruct (f_one_cleanup (m_flags m) && mem (m_seen m) id); [apply IH |].
  match goal with |- context [lookup ?a ?b] => destruct (lookup a b) as [s |] end; [| apply IH].
  destruct (s_clean s) as [c |]; [| apply IH].
  match goal with |- context [rrun ?a ?b ?c] => destruct (T a b c) as [[[st c'] d'] ->] end; cbn [bind].
  destruct st; eauto.
Qed.

Lemma closing_returns : (forall c r d, exists x, rrun c r d = Ok x) -> forall m d, closing m -> exists st m' d' ev, pass rrun m d = Ok (Return st m' d' ev).
Proof.
  intros T m d C. unfold pass. cbv zeta.
  set (m1 := match lookup (m_states m) (m_cur m) with Some _ => m | None => set_end m C_ERROR S_ERROR_BAD_ID end).
  assert (has_reason (m_reason m1) = true) as HR.
  { unfold m1. destruct C as [C | C]; [| rewrite C; reflexivity]. destruct (lookup (m_states m) (m_cur m)); [exact C | reflexivity]. }
  rewrite HR. unfold run_cleanup. rewrite HR. destruct (total_cleanup T (m_cleanup_ids m1) m1 d []) as [[[[a b] c] e] ->]. cbn [bind].
  destruct (is_wait a || is_pause a); eauto.
Qed.

Lemma filter_shrink : forall (p q : N -> bool) l x, (forall y, q y = true -> p y = true) -> In x l -> p x = true -> q x = false ->
  (length (filter q l) < length (filter p l))%nat.
Proof.
  intros p q l x PQ I PX QX. induction l as [| y l IH]; [destruct I |].
  assert (forall l', (length (filter q l') <= length (filter p l'))%nat) as LE.
  { induction l' as [| z l' IHl]; [cbn; lia |]. cbn. specialize (PQ z). destruct (q z); [rewrite PQ by reflexivity; cbn; lia |]. destruct (p z); cbn; lia. }
  cbn. destruct I as [-> | I].
  - rewrite PX, QX. cbn. specialize (LE l). lia.
  - specialize (IH I). specialize (PQ y). destruct (q y); [rewrite PQ by reflexivity; cbn; lia |]. destruct (p y); cbn; lia.
Qed.

Lemma pass_progress : (forall c r d, exists x, rrun c r d = Ok x) -> forall m d, wf m -> f_continue_loop (m_flags m) = false -> never_next m ->
  (exists st m' d' ev, pass rrun m d = Ok (Return st m' d' ev)) \/
  (exists m' d' ev, pass rrun m d = Ok (Again m' d' ev) /\ wf m' /\ m_flags m' = m_flags m /\ m_states m' = m_states m /\
     (closing m' \/ (length (m_prev m') + fresh m' < length (m_prev m) + fresh m)%nat)).
Proof.
  intros T m d W CLF NN.
  destruct (has_reason (m_reason m)) eqn:HR. { left. apply closing_returns; [exact T | left; exact HR]. }
  destruct (lookup (m_states m) (m_cur m)) as [s |] eqn:L. 2:{ left. apply closing_returns; [exact T | right; exact L]. }
  assert (In (m_cur m) (m_ids m)) as IC. { destruct W as (-> & _). apply lookup_in. congruence. }
  unfold pass. cbv zeta. rewrite L, HR. destruct (index_successor (m_ids m) (m_cur m) IC) as (i & IX & _). rewrite IX.
  assert (exists g, (if f_explicit_next (m_flags m) then Some 0 else Some (nth (S i) (m_ids m) 0)) = Some g) as [g ->] by (destruct (f_explicit_next (m_flags m)); eauto).
  pose proof (NN _ s (m_preason m) d g (lookup_In _ _ _ L)) as NX.
  destruct (s_func s (m_preason m) d g) as [[st0 n] d1]. cbn [fst] in NX.
  assert (forall m' : mach, m_ids m' = m_ids m -> m_states m' = m_states m -> wf m') as W' by (intros m' E1 E2; unfold wf; rewrite E1, E2; exact W).
  assert (state_status st0 = S_CONTINUE \/ state_status st0 = S_PAUSE \/ state_status st0 = S_PREV \/
    state_status st0 = S_WAIT \/ state_status st0 = S_DONE \/ state_status st0 = S_ERROR_STATE) as SS by (destruct st0; cbn; try tauto; congruence).
  assert (forall (m1 : mach) st ev, st = S_CONTINUE \/ st = S_PAUSE -> m_flags m1 = m_flags m -> m_ids m1 = m_ids m -> m_states m1 = m_states m ->
    m_conts m1 = m_conts m -> m_prev m1 = m_prev m -> m_cur m1 = m_cur m -> m_reason m1 = m_reason m ->
    (exists st' m' d' ev', Ok (advance m1 s st n d1 ev) = Ok (Return st' m' d' ev')) \/
    (exists m' d' ev', Ok (advance m1 s st n d1 ev) = Ok (Again m' d' ev') /\ wf m' /\ m_flags m' = m_flags m /\ m_states m' = m_states m /\
     (closing m' \/ (length (m_prev m') + fresh m' < length (m_prev m) + fresh m)%nat))) as ADV.
  { intros m1 st ev STS E1 E2 E3 E4 E5 E6 E7. unfold advance. rewrite E1, CLF. cbn [negb andb].
    assert (forall m' : mach, m_flags m' = m_flags m -> m_ids m' = m_ids m -> m_states m' = m_states m -> has_reason (m_reason m') = true ->
      wf m' /\ m_flags m' = m_flags m /\ m_states m' = m_states m /\ (closing m' \/ (length (m_prev m') + fresh m' < length (m_prev m) + fresh m)%nat)) as ENDS.
    { intros m' X1 X2 X3 X4. split; [auto |]. split; [auto |]. split; [auto |]. left; left; exact X4. }
    destruct (n =? 0).
    { destruct (f_explicit_next (m_flags m) || negb (f_linear_end (m_flags m))); [right; eexists _, _, _; split; [reflexivity | apply ENDS; cbn; auto] |].
      destruct (f_done_cleanup (m_flags m)); [right; eexists _, _, _; split; [reflexivity | apply ENDS; cbn; auto] | left; eauto]. }
    destruct (match s_next s with Some l => negb (mem l n) | None => false end); [right; eexists _, _, _; split; [reflexivity | apply ENDS; cbn; auto] |].
    destruct STS as [-> | ->].
    - destruct (mem (m_conts m1) n) eqn:MC; [right; eexists _, _, _; split; [reflexivity | apply ENDS; cbn; auto] |].
      destruct (negb (f_self_call (m_flags m)) && (m_cur (set_conts m1 (n :: m_conts m1)) =? n)); [right; eexists _, _, _; split; [reflexivity | apply ENDS; cbn; auto] |].
      cbn [is_pause]. right. eexists _, _, _. split; [reflexivity |]. split; [apply W'; cbn; auto |]. split; [cbn; auto |]. split; [cbn; auto |].
      unfold closing. cbn [m_reason m_states m_cur set_cur set_conts m_prev].
      destruct (lookup (m_states m1) n) as [s' |] eqn:L'; [| left; right; reflexivity]. right.
      unfold fresh. cbn [m_conts m_ids set_cur set_conts]. rewrite E2, E4, E5. apply Nat.add_lt_mono_l. apply filter_shrink with (x := n).
      + intros y Y. unfold mem in *. cbn in Y. destruct (y =? n); [discriminate Y | exact Y].
      + destruct W as (-> & _). apply lookup_in. rewrite <- E3. congruence.
      + rewrite <- E4, MC. reflexivity.
      + unfold mem. cbn. rewrite N.eqb_refl. reflexivity.
    - destruct (negb (f_self_call (m_flags m)) && _); [right; eexists _, _, _; split; [reflexivity | apply ENDS] | cbn [is_pause]; left; eauto];
        unfold insert_prev; cbn; try match goal with |- context [if ?b then set_prev _ _ else _] => destruct b end; cbn; auto. }
  destruct SS as [E | [E | [E | [E | [E | E]]]]]; rewrite E; cbn [is_wait].
  - apply ADV; auto.
  - apply ADV; auto.
  - unfold pop_prev. cbn [m_prev set_cleanup_ids]. destruct (m_prev m) as [| p ps] eqn:PV.
    + cbn [N.eqb]. right. eexists _, _, _. split; [reflexivity |]. split; [apply W'; reflexivity |]. split; [reflexivity |]. split; [reflexivity |]. left; left; reflexivity.
    + right. destruct (p =? 0); (eexists _, _, _; split; [reflexivity |]; split; [apply W'; reflexivity |]; split; [reflexivity |]; split; [reflexivity |]);
        [left; left; reflexivity | right; cbn [m_prev set_cur set_prev length]; match goal with |- (_ + fresh ?x < _)%nat => change (fresh x) with (fresh m) end; rewrite ?PV; cbn [length]; lia].
  - left. eauto.
  - destruct (f_done_cleanup (m_flags m)); [right | left; eauto].
    eexists _, _, _. split; [reflexivity |]. split; [apply W'; reflexivity |]. split; [reflexivity |]. split; [reflexivity |]. left; left; reflexivity.
  - right. eexists _, _, _. split; [reflexivity |]. split; [apply W'; reflexivity |]. split; [reflexivity |]. split; [reflexivity |]. left; left; reflexivity.
Qed.

Lemma loop_total : (forall c r d, exists x, rrun c r d = Ok x) -> forall fuel m d ev, wf m -> f_continue_loop (m_flags m) = false -> never_next m ->
  (length (m_prev m) + fresh m + 2 <= fuel)%nat -> exists x, loop rrun fuel m d ev = Ok x.
Proof.
  intros T. induction fuel as [| fuel IH]; intros m d ev W C NN LE; [lia |]. cbn [loop].
  destruct (pass_progress T m d W C NN) as [(st & m' & d' & e & ->) | (m' & d' & e & -> & W' & F' & S' & [CL | LT])]; cbn [bind]; [eauto | |].
  - destruct fuel as [| fuel]; [lia |]. cbn [loop]. destruct (closing_returns T m' d' CL) as (st & m2 & d2 & e2 & ->). cbn [bind]. eauto.
  - apply IH; [exact W' | congruence | unfold never_next; rewrite S'; exact NN | lia].
Qed.

Lemma run_total : (forall c r d, exists x, rrun c r d = Ok x) -> forall fuel m d, wf m -> f_continue_loop (m_flags m) = false -> never_next m ->
  (length (m_prev m) + length (m_ids m) + 2 <= fuel)%nat -> exists x, run rrun fuel m d = Ok x.
Proof.
  intros T fuel m d W C NN LE. unfold run. destruct (m_ids m) as [| a l] eqn:IDS; [eauto |].
  assert (forall m' : mach, fresh m' <= length (m_ids m'))%nat as FL.
  { intros m'. unfold fresh. induction (m_ids m') as [| x l' IHl]; cbn; [lia |]. destruct (negb (mem (m_conts m') x)); cbn; lia. }
  apply loop_total; destruct (m_running m); try exact T; try exact W; try exact C; try exact NN.
  - specialize (FL (set_running m true)). cbn [m_ids set_running m_prev] in *. rewrite IDS in FL. lia.
  - match goal with |- (_ + fresh ?x + _ <= _)%nat => specialize (FL x); change (m_ids x) with (m_ids m) in FL; change (m_prev x) with (@nil N) end.
    rewrite IDS in FL. cbn [length] in *. lia.
Qed.

(** ** Linear machines *)
Definition linear (m : mach) (act : N -> D -> D) : Prop :=
  forall id s, lookup (m_states m) id = Some s ->
    (forall r d g, s_func s r d g = (S_NEXT, g, act id d)) /\
    match s_next s with Some l => In (successor (m_ids m) id) l | None => True end.

Lemma successor_last : forall l a, ~ In a l -> successor (l ++ [a]) a = 0.
Proof.
  induction l as [| x l IH]; intros a NI; cbn; [now rewrite N.eqb_refl |].
  destruct (N.eqb_spec x a) as [-> | _]; [exfalso; apply NI; left; reflexivity | apply IH; intro; apply NI; right; assumption].
Qed.
Lemma successor_mid : forall l a b l2, ~ In a l -> successor (l ++ a :: b :: l2) a = b.
Proof.
  induction l as [| x l IH]; intros a b l2 NI; cbn; [now rewrite N.eqb_refl |].
  destruct (N.eqb_spec x a) as [-> | _]; [exfalso; apply NI; left; reflexivity | apply IH; intro; apply NI; right; assumption].
Qed.

Lemma linear_loop : forall act l2 l1 a m d ev, wf m -> m_ids m = l1 ++ a :: l2 -> linear m act -> m_cur m = a -> m_reason m = C_NONE ->
  f_linear_end (m_flags m) = true -> f_explicit_next (m_flags m) = false -> f_done_cleanup (m_flags m) = false ->
  exists m', loop rrun (length (a :: l2)) m d ev =
    Ok (S_DONE, m', fold_left (fun d id => act id d) (a :: l2) d, ev ++ map (fun id => ECall id (successor (m_ids m) id) S_NEXT (successor (m_ids m) id)) (a :: l2)) /\
    m_running m' = false.
Proof.
  intros act. induction l2 as [| b l2 IH]; intros l1 a m d ev W IDS LN CU RE LE EX DC.
  - pose proof W as (A & B & Z). assert (In a (m_ids m)) as IA by (rewrite IDS; apply in_or_app; right; left; reflexivity).
    rewrite A in IA. apply lookup_in in IA. destruct (lookup (m_states m) a) as [s |] eqn:L; [| congruence]. clear IA.
    destruct (LN _ _ L) as [FN NX].
    assert (~ In a l1) as NI. { rewrite IDS in B. apply NoDup_remove_2 in B. rewrite in_app_iff in B. tauto. }
    assert (successor (m_ids m) a = 0) as SU by (rewrite IDS; apply successor_last; exact NI).
    assert (In a (m_ids m)) as IA by (rewrite IDS; apply in_or_app; right; left; reflexivity).
    destruct (index_successor _ _ IA) as (i & IX & NT).
    cbn [length loop]. unfold pass. cbv zeta. rewrite CU, L, RE. cbn [has_reason]. rewrite EX, CU, IX, NT, SU, FN. cbn [state_status is_wait].
    unfold advance. cbn [N.eqb m_flags set_cleanup_ids]. rewrite EX, LE, DC. cbn [orb negb bind]. eexists.
    split; [cbn [map fold_left]; rewrite SU; reflexivity | reflexivity].
  - pose proof W as (A & B & Z). assert (In a (m_ids m)) as IA by (rewrite IDS; apply in_or_app; right; left; reflexivity).
    destruct (index_successor _ _ IA) as (i & IX & NT).
    rewrite A in IA. apply lookup_in in IA. destruct (lookup (m_states m) a) as [s |] eqn:L; [| congruence]. clear IA.
    destruct (LN _ _ L) as [FN NX].
    assert (~ In a l1) as NI. { rewrite IDS in B. apply NoDup_remove_2 in B. rewrite in_app_iff in B. tauto. }
    assert (successor (m_ids m) a = b) as SU by (rewrite IDS; apply successor_mid; exact NI).
    assert (b <> 0) as BZ. { intros ->. apply Z. rewrite IDS. apply in_or_app. right. right. left. reflexivity. }
    assert (a <> b) as AB. { intros ->. rewrite IDS in B. apply NoDup_remove_2 in B. apply B. apply in_or_app. right. left. reflexivity. }
    change (length (a :: b :: l2)) with (S (length (b :: l2))). cbn [loop]. unfold pass. cbv zeta. rewrite CU, L, RE. cbn [has_reason].
    rewrite EX, CU, IX, NT, SU, FN. cbn [state_status is_wait]. unfold advance.
    apply N.eqb_neq in BZ. rewrite BZ. apply N.eqb_neq in AB.
    assert (match s_next s with Some l => negb (mem l b) | None => false end = false) as ->.
    { destruct (s_next s) as [l |]; [| reflexivity]. rewrite SU in NX. unfold mem. rewrite (proj2 (mem_in l b) NX). reflexivity. }
    set (m1 := set_conts (insert_prev (set_cleanup_ids m (a :: m_cleanup_ids m)) (m_cur (set_cleanup_ids m (a :: m_cleanup_ids m)))) []).
    assert (m_cur m1 = a /\ m_ids m1 = m_ids m /\ m_states m1 = m_states m /\ m_flags m1 = m_flags m /\ m_reason m1 = C_NONE) as (E1 & E2 & E3 & E4 & E5).
    { unfold m1, insert_prev. match goal with |- context [if ?b then set_prev _ _ else _] => destruct b end; cbn; auto. }
    clearbody m1. rewrite E1, AB, andb_false_r. cbn [is_pause bind].
    destruct (IH (l1 ++ [a]) b (set_cur m1 b) (act a d) (ev ++ [ECall a b S_NEXT b])) as (m' & -> & R'); cbn [m_ids m_cur m_reason m_flags m_states set_cur];
      try (rewrite ?E2, ?E3, ?E4; assumption).
    + unfold wf. cbn. rewrite E2, E3. exact W.
    + rewrite E2, IDS, <- app_assoc. reflexivity.
    + unfold linear. cbn. rewrite E2, E3. exact LN.
    + reflexivity.
    + exists m'. split; [| exact R']. rewrite E2, <- app_assoc. cbn [map fold_left app]. rewrite SU. reflexivity.
Qed.

Lemma run_linear : forall m act d, wf m -> m_running m = false -> linear m act ->
  f_linear_end (m_flags m) = true -> f_explicit_next (m_flags m) = false -> f_done_cleanup (m_flags m) = false ->
  exists m', run rrun (length (m_ids m)) m d =
    Ok (S_DONE, m', fold_left (fun d id => act id d) (m_ids m) d, map (fun id => ECall id (successor (m_ids m) id) S_NEXT (successor (m_ids m) id)) (m_ids m)) /\
    m_running m' = false.
Proof.
  intros m act d W RU LN LE EX DC. unfold run. rewrite RU. destruct (m_ids m) as [| a l] eqn:IDS; [eexists; split; reflexivity |].
  rewrite <- IDS. 
  match goal with |- context [loop _ _ ?x _ _] => destruct (linear_loop act l [] a x d []) as (m' & E & R') end; try assumption; try reflexivity.
  cbn [m_ids set_running set_end set_cur set_prev clear_cleanup_ids set_seen set_cleanup_ids set_conts] in E. rewrite IDS in *. cbn [app] in E. rewrite E. eauto.
Qed.
End Proofs.

(** ** Machines as cleanup machines *)
Definition mtame (D : Type) (n : nat) : mach D n -> Prop := match n with O => fun m => tame m | S _ => fun m => tame m end.
Definition mset (D : Type) (n : nat) (r : reason) : mach D n -> mach D n :=
  match n with O => fun m => set_preason m r | S _ => fun m => set_preason m r end.
Definition mrrun (D : Type) (fuel n : nat) (c : mach D n) (r : reason) (d : D) : res (status * mach D n * D) :=
  do '(st, c', d', _) <- mrun D fuel n (mset D n r c) d; Ok (st, mset D n C_NONE c', d').

Lemma mrun_quiet : forall D fuel n, quiet (mrrun D fuel n) (mreset D n) (mtame D n).
Proof.
  intros D fuel n. split.
  - intros c r d st c' d' T E. unfold mrrun in E.
    destruct (mrun D fuel n (mset D n r c) d) as [[[[st1 c1] d1] e1] | |] eqn:RN; cbn [bind] in E; try discriminate E. injection E as <- <- <-.
    assert (loud st1 = false /\ mtame D n (mset D n C_NONE c1)) as [L T'].
    { destruct n; cbn in *; apply run_tame in RN; try exact T; exact RN. }
    repeat split; try exact T'; intros ->; discriminate.
  - intros c r T. destruct n; cbn in *; apply reset_tame; exact T.
Qed.

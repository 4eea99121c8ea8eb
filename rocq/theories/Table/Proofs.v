(** Invariant of the id representation and refinement of every call. *)
From Verif Require Import Base.Lib Sort.Model Sort.Spec Sort.Props.
From Verif Require Import Table.Model Table.Spec.
Open Scope nat_scope.
Set Implicit Arguments.

(** ** Association lists *)
Section Map.
Context {K V : Type} (dec : forall a b : K, {a = b} + {a <> b}).

Lemma aget_adel (m : list (K * V)) k k' :
  aget dec (adel dec m k) k' = if dec k' k then None else aget dec m k'.
Proof.
  unfold adel. induction m as [|[a v] m IH]; cbn.
  - destruct (dec k' k); reflexivity.
  - destruct (dec k a) as [->|N1]; cbn.
    + rewrite IH. destruct (dec k' a); reflexivity.
    + rewrite IH. destruct (dec k' a) as [->|]; auto. destruct (dec a k); congruence.
Qed.

Lemma aget_aput (m : list (K * V)) k v k' :
  aget dec (aput dec m k v) k' = if dec k' k then Some v else aget dec m k'.
Proof. unfold aput. cbn [aget]. rewrite aget_adel. destruct (dec k' k); reflexivity. Qed.

Lemma keys_adel (m : list (K * V)) k : NoDup (map fst m) -> NoDup (map fst (adel dec m k)) /\ ~ In k (map fst (adel dec m k)).
Proof.
  unfold adel. induction m as [|[a v] m IH]; cbn; intros H; [split; [constructor|tauto]|].
  inversion H as [|? ? N1 N2]; subst. destruct (IH N2) as [I1 I2].
  assert (X : forall x, In x (map fst (filter (fun e => if dec k (fst e) then false else true) m)) -> In x (map fst m)).
  { intros x. rewrite !in_map_iff. intros (e & E & He). apply filter_In in He. exists e. tauto. }
  destruct (dec k a) as [->|D]; cbn; auto. split; [constructor; auto|]. intros [E|E]; auto.
Qed.

Lemma keys_aput (m : list (K * V)) k v : NoDup (map fst m) -> NoDup (map fst (aput dec m k v)).
Proof. intros H. destruct (keys_adel m k H). cbn. constructor; auto. Qed.

Lemma in_aget (m : list (K * V)) k v : NoDup (map fst m) -> In (k, v) m -> aget dec m k = Some v.
Proof.
  induction m as [|[a w] m IH]; cbn; [tauto|]. intros H [E|E].
  - injection E as -> ->. destruct (dec k k); congruence.
  - inversion H as [|? ? N1 N2]; subst. destruct (dec k a) as [->|]; auto.
    exfalso. apply N1. apply in_map_iff. exists (a, v). auto.
Qed.

Lemma aget_in (m : list (K * V)) k v : aget dec m k = Some v -> In (k, v) m.
Proof.
  induction m as [|[a w] m IH]; cbn; [discriminate|].
  destruct (dec k a) as [->|]; [intros E; injection E as ->|]; auto.
Qed.

Lemma aget_map (m : list (K * V)) (f : V -> V) k :
  aget dec (map (fun e => (fst e, f (snd e))) m) k = option_map f (aget dec m k).
Proof. induction m as [|[a w] m IH]; cbn; auto. destruct (dec k a); auto. Qed.
End Map.

(** ** Lists *)
Lemma map_insert_at {A B} (f : A -> B) i x l : map f (insert_at i x l) = insert_at i (f x) (map f l).
Proof. unfold insert_at. rewrite map_app. cbn [map]. now rewrite firstn_map, skipn_map. Qed.

Lemma perm_insert_at {A} i (x : A) l : Permutation (insert_at i x l) (x :: l).
Proof. unfold insert_at. rewrite <- Permutation_middle, firstn_skipn. reflexivity. Qed.

Lemma in_insert_at {A} i (x : A) l y : In y (insert_at i x l) <-> y = x \/ In y l.
Proof.
  split; intros H.
  - apply (Permutation_in _ (perm_insert_at i x l)) in H. destruct H; auto.
  - apply (Permutation_in _ (Permutation_sym (perm_insert_at i x l))). cbn. destruct H; auto.
Qed.

Lemma nodup_insert_at {A} i (x : A) l : NoDup l -> ~ In x l -> NoDup (insert_at i x l).
Proof. intros H N. apply (Permutation_NoDup (Permutation_sym (perm_insert_at i x l))). now constructor. Qed.

Lemma insert_at_end {A} (x : A) l : insert_at (length l) x l = l ++ [x].
Proof. unfold insert_at. now rewrite firstn_all, skipn_all. Qed.

Lemma map_del_at {A B} (f : A -> B) i l : map f (del_at i l) = drop_at i (map f l).
Proof. unfold del_at, drop_at. now rewrite map_app, firstn_map, skipn_map. Qed.

Lemma split_at {A} (l : list A) i x : nth_error l i = Some x -> l = firstn i l ++ x :: skipn (S i) l.
Proof.
  revert i; induction l as [|y l IH]; intros [|i] E; cbn in E; try discriminate.
  - now injection E as ->.
  - change (firstn (S i) (y :: l)) with (y :: firstn i l). change (skipn (S (S i)) (y :: l)) with (skipn (S i) l).
    cbn [app]. f_equal. now apply IH.
Qed.

Lemma perm_del_at {A} (l : list A) i x : nth_error l i = Some x -> Permutation l (x :: del_at i l).
Proof. intros E. unfold del_at. rewrite (split_at l i E) at 1. symmetry. apply Permutation_middle. Qed.

Lemma nodup_del_at {A} (l : list A) i x : nth_error l i = Some x -> NoDup l ->
  NoDup (del_at i l) /\ forall y, In y (del_at i l) <-> In y l /\ y <> x.
Proof.
  intros E H. pose proof (perm_del_at l i E) as P. pose proof (Permutation_NoDup P H) as Q.
  inversion Q as [|? ? Q1 Q2]; subst. split; auto. intros y. split.
  - intros I. split; [apply (Permutation_in _ (Permutation_sym P)); cbn; auto | intros ->; auto].
  - intros [I N]. apply (Permutation_in _ P) in I. destruct I as [I|I]; congruence.
Qed.

Lemma index_of_some l x i : index_of l x = Some i -> nth_error l i = Some x.
Proof.
  revert i; induction l as [|y l IH]; cbn; intros i; [discriminate|].
  destruct (N.eq_dec x y) as [->|D].
  - intros E; injection E as <-. reflexivity.
  - destruct (index_of l x) as [j|]; cbn; intros E; [injection E as <-|discriminate]. cbn. auto.
Qed.

Lemma index_of_in l x : In x l -> exists i, index_of l x = Some i.
Proof.
  induction l as [|y l IH]; cbn; [tauto|]. intros H. destruct (N.eq_dec x y) as [->|D]; [eauto|].
  destruct IH as [i ->]; [destruct H; congruence|]. cbn. eauto.
Qed.

Lemma index_of_nth l x i : NoDup l -> nth_error l i = Some x -> index_of l x = Some i.
Proof.
  intros H E. destruct (index_of_in l x (nth_error_In _ _ E)) as [j F]. rewrite F. f_equal.
  apply index_of_some in F. apply (proj1 (NoDup_nth_error l) H); [|congruence].
  apply nth_error_Some. congruence.
Qed.

Lemma map_upd {A B} (f g : A -> B) l i x : NoDup l -> nth_error l i = Some x ->
  (forall y, In y l -> y <> x -> f y = g y) -> upd (map f l) i (g x) = map g l.
Proof.
  revert i; induction l as [|y l IH]; intros [|i] H E F; cbn in *; try discriminate.
  - injection E as ->. f_equal. apply map_ext_in. intros z Hz. apply F; auto.
    intros ->. inversion H; auto.
  - inversion H as [|? ? H1 H2]; subst. f_equal.
    + apply F; auto. intros ->. apply H1. eapply nth_error_In; eauto.
    + apply IH; auto.
Qed.

Lemma nth_map_error {A B} (f : A -> B) l i x d : nth_error l i = Some x -> nth i (map f l) d = f x.
Proof. intros E. apply nth_error_nth. now rewrite nth_error_map, E. Qed.

Lemma ltb_nth {A} (l : list A) i x : nth_error l i = Some x -> (i <? length l) = true.
Proof. intros E. apply Nat.ltb_lt. apply nth_error_Some. congruence. Qed.
Lemma ltb_none {A} (l : list A) i : nth_error l i = None -> (i <? length l) = false.
Proof. intros E. apply Nat.ltb_ge. now apply nth_error_None. Qed.

Lemma select_filter {A B} (p : A -> bool) (f : A -> B) l : select (map p l) (map f l) = map f (filter p l).
Proof. induction l as [|x l IH]; cbn; auto. destruct (p x); cbn; congruence. Qed.

Lemma count_filter {A} (p : A -> bool) l : count_false (map p l) = length (filter (fun x => negb (p x)) l).
Proof. unfold count_false. induction l as [|x l IH]; cbn; auto. destruct (p x); cbn; congruence. Qed.

Lemma nth_seq_map {A} (l : list A) d : l = map (fun i => nth i l d) (seq 0 (length l)).
Proof.
  induction l as [|x l IH]; cbn; auto. f_equal. rewrite <- seq_shift, map_map. exact IH.
Qed.

(** ** The abstraction *)
Definition rowvals (t : table) (r : N) : list (option str) := map (cell_get_int t r) (co t).
Definition abs (t : table) : tab := Tab (map (iget (cin t)) (co t)) (map (rowvals t) (ro t)).

Section R.
Variable nrm : str -> str.
Hypothesis nrm_nil : forall m, nrm m = nrm [] -> m = [].

Record Inv (t : table) : Prop := {
  i_co : NoDup (co t);
  i_ro : NoDup (ro t);
  i_name : forall n id, nget (cni t) n = Some id <-> In id (co t) /\ exists m, iget (cin t) id = Some m /\ nrm m = n;
  i_cin : forall id m, iget (cin t) id = Some m -> In id (co t) /\ m <> [];
  i_keys : NoDup (map fst (rws t));
  i_rows : forall r d, iget (rws t) r = Some d -> In r (ro t) /\ forall c v, iget d c = Some v -> In c (co t);
  i_rnd : NoDup (rnd t) /\ forall x, In x (rnd t) -> ~ In x (co t) /\ ~ In x (ro t)
}.

Lemma inv_create draws : NoDup draws -> Inv (create draws).
Proof.
  intros H. split; cbn; try constructor; auto; try discriminate; try tauto; intros; try discriminate.
Qed.

Lemma names_len t : length (names (abs t)) = length (co t).
Proof. apply map_length. Qed.
Lemma cells_len t : length (cells (abs t)) = length (ro t).
Proof. apply map_length. Qed.

Lemma find_some (l : list N) g n i : find_name nrm (map g l) n = Some i ->
  exists id m, nth_error l i = Some id /\ g id = Some m /\ nrm m = nrm n.
Proof.
  revert i; induction l as [|x l IH]; cbn; intros i; [discriminate|].
  destruct (g x) as [m|] eqn:G.
  - destruct (str_dec (nrm n) (nrm m)) as [E|E].
    + intros H; injection H as <-. exists x, m. cbn. auto.
    + destruct (find_name nrm (map g l) n) as [j|]; cbn; intros H; [injection H as <-|discriminate].
      destruct (IH j eq_refl) as (id & m' & H1 & H2). exists id, m'. auto.
  - destruct (find_name nrm (map g l) n) as [j|]; cbn; intros H; [injection H as <-|discriminate].
    destruct (IH j eq_refl) as (id & m' & H1 & H2). exists id, m'. auto.
Qed.

Lemma find_none (l : list N) g n : find_name nrm (map g l) n = None ->
  forall id m, In id l -> g id = Some m -> nrm m <> nrm n.
Proof.
  induction l as [|x l IH]; cbn; [tauto|]. destruct (g x) as [m|] eqn:G.
  - destruct (str_dec (nrm n) (nrm m)) as [E|E]; [discriminate|].
    destruct (find_name nrm (map g l) n) as [j|]; cbn; [discriminate|].
    intros _ id m' [<-|H] H2; [congruence|]. eapply IH; eauto.
  - destruct (find_name nrm (map g l) n) as [j|]; cbn; [discriminate|].
    intros _ id m' [<-|H] H2; [congruence|]. eapply IH; eauto.
Qed.

Lemma find_col t n : Inv t ->
  match col_of nrm t n with
  | Some id => exists i, find_name nrm (names (abs t)) n = Some i /\ nth_error (co t) i = Some id
  | None => find_name nrm (names (abs t)) n = None
  end.
Proof.
  intros I. unfold col_of. cbn [names abs].
  destruct (find_name nrm (map (iget (cin t)) (co t)) n) as [i|] eqn:F.
  - destruct (find_some _ _ _ F) as (id & m & H1 & H2 & H3).
    assert (X : nget (cni t) (nrm n) = Some id).
    { apply (i_name I). split; [eapply nth_error_In; eauto | eauto]. }
    rewrite X. eauto.
  - destruct (nget (cni t) (nrm n)) as [id|] eqn:G; auto.
    apply (i_name I) in G. destruct G as (H1 & m & H2 & H3). destruct (@find_none _ _ _ F id m H1 H2 H3).
Qed.

Lemma has_find t n : Inv t -> has (col_of nrm t n) = given (find_name nrm (names (abs t)) n).
Proof.
  intros I. pose proof (find_col n I) as F. destruct (col_of nrm t n); [destruct F as (i & -> & _)|rewrite F]; reflexivity.
Qed.

Lemma find_nil t : Inv t -> find_name nrm (names (abs t)) [] = None.
Proof.
  intros I. destruct (find_name nrm (names (abs t)) []) as [i|] eqn:F; auto.
  destruct (find_some _ _ _ F) as (id & m & H1 & H2 & H3). apply nrm_nil in H3. apply (i_cin I) in H2. tauto.
Qed.

Lemma no_cell t r c : Inv t -> ~ In c (co t) -> cell_get_int t r c = None.
Proof.
  intros I H. unfold cell_get_int. destruct (iget (rws t) r) as [d|] eqn:E; auto.
  destruct (iget d c) as [v|] eqn:F; auto. destruct (H (proj2 (i_rows I _ E) _ _ F)).
Qed.

Lemma no_row t r : Inv t -> ~ In r (ro t) -> iget (rws t) r = None.
Proof.
  intros I H. destruct (iget (rws t) r) as [d|] eqn:E; auto. destruct (H (proj1 (i_rows I _ E))).
Qed.

(** *** Inserting a column *)
Lemma gen_fresh (used : N -> bool) id r : used id = false -> gen_id used (id :: r) = Ok (id, r).
Proof. intros E. cbn. rewrite E, andb_false_r. reflexivity. Qed.

Lemma col_insert_ok t i n k : Inv t -> S k <= length (rnd t) ->
  exists t' o, column_insert_at_int nrm t i n = Ok (t', o) /\ Inv t' /\ k <= length (rnd t') /\ ro t' = ro t /\
    (abs t', has o) = s_col_insert nrm (abs t) i n /\
    (match o with
     | None => t' = t
     | Some id => nth_error (co t') i = Some id /\ co t' = insert_at i id (co t) /\ ~ In id (co t) /\
         rws t' = rws t
     end).
Proof.
  intros I L. unfold column_insert_at_int, s_col_insert. rewrite names_len, <- has_find by auto.
  change (empty_name n) with (is_nil n).
  destruct (Nat.ltb_spec (length (co t)) i) as [H|H]; cbn [orb].
  { exists t, None. repeat (split; auto); try lia. }
  destruct (negb (is_nil n) && has (col_of nrm t n)) eqn:C.
  { exists t, None. repeat (split; auto); try lia. }
  destruct (rnd t) as [|id r] eqn:R; [cbn in L; lia|].
  pose proof (i_rnd I) as [R1 R2]. rewrite R in R1, R2. destruct (R2 id (or_introl eq_refl)) as [F1 F2].
  assert (G : iget (cin t) id = None).
  { destruct (iget (cin t) id) eqn:E; auto. apply (i_cin I) in E. tauto. }
  rewrite gen_fresh by (now rewrite G). cbn [bind].
  inversion R1 as [|? ? R3 R4]; subst.
  assert (NTH : nth_error (insert_at i id (co t)) i = Some id).
  { unfold insert_at. rewrite nth_error_app2; rewrite firstn_length_le by lia; [|lia]. now rewrite Nat.sub_diag. }
  assert (RV : forall cc, map (fun x => map (cell_get_int t x) (insert_at i id (co t))) (cc : list N) =
               map (insert_at i None) (map (rowvals t) cc)).
  { intros cc. rewrite map_map. apply map_ext. intros x. rewrite map_insert_at. f_equal. now apply no_cell. }
  assert (RND : forall x, In x r -> ~ In x (insert_at i id (co t)) /\ ~ In x (ro t)).
  { intros x Hx. destruct (R2 x (or_intror Hx)) as [X Y]. split; auto. rewrite in_insert_at. intros [->|]; auto. }
  assert (ROWS : forall rr d, iget (rws t) rr = Some d -> In rr (ro t) /\ forall c v, iget d c = Some v -> In c (insert_at i id (co t))).
  { intros rr d E. destruct (i_rows I _ E) as [A B]. split; auto. intros c v Hc. apply in_insert_at. right. eauto. }
  destruct (is_nil n) eqn:En.
  - exists (Table (insert_at i id (co t)) (cin t) (cni t) (ro t) (rws t) r), (Some id).
    split; [reflexivity|]. split; [|split; [cbn in L |- *; lia|split; [reflexivity|]]].
    + split; cbn; auto.
      * apply nodup_insert_at; auto. apply I.
      * apply I.
      * intros m x. rewrite (i_name I), in_insert_at. split; intros (A & m' & B & D); split; eauto.
        destruct A as [->|A]; auto. congruence.
      * intros x m E. rewrite in_insert_at. apply (i_cin I) in E. tauto.
      * apply I.
    + split; [|auto]. unfold put_col, abs. cbn. change (empty_name n) with (is_nil n). rewrite En, map_insert_at, G.
      f_equal. f_equal. apply RV.
  - cbn in C.
    exists (Table (insert_at i id (co t)) (iput (cin t) id n) (nput (cni t) (nrm n) id) (ro t) (rws t) r), (Some id).
    split; [reflexivity|]. split; [|split; [cbn in L |- *; lia|split; [reflexivity|]]].
    + split; cbn [co cin cni ro rws rnd]; auto.
      * apply nodup_insert_at; auto. apply I.
      * apply I.
      * intros m x. rewrite aget_aput, in_insert_at. destruct (str_dec m (nrm n)) as [->|D].
        -- split.
           ++ intros E; injection E as <-. split; auto. exists n. rewrite aget_aput.
              destruct (N.eq_dec id id); [auto|congruence].
           ++ intros (A & m' & B & D). f_equal. destruct A as [->|A]; auto. exfalso.
              rewrite aget_aput in B. destruct (N.eq_dec x id) as [->|]; [auto|].
              unfold col_of in C.
              assert (X : nget (cni t) (nrm n) = Some x) by (apply (i_name I); split; eauto).
              rewrite X in C. discriminate.
        -- rewrite (i_name I). split; intros (A & m' & B & D').
           ++ split; auto. exists m'. rewrite aget_aput. destruct (N.eq_dec x id) as [->|]; auto. congruence.
           ++ rewrite aget_aput in B. destruct (N.eq_dec x id) as [->|].
              { injection B as <-. congruence. }
              split; [destruct A; congruence|eauto].
      * intros x m. rewrite aget_aput, in_insert_at. destruct (N.eq_dec x id) as [->|].
        { intros E; injection E as <-. split; auto. intros ->. discriminate. }
        intros E. apply (i_cin I) in E. tauto.
      * apply I.
    + split; [|auto]. unfold put_col, abs. cbn [names cells co cin cni ro rws rnd has].
      change (empty_name n) with (is_nil n). rewrite En, map_insert_at, aget_aput.
      destruct (N.eq_dec id id); [|congruence]. f_equal. f_equal; [|apply RV]. f_equal. apply map_ext_in.
      intros x Hx. rewrite aget_aput. destruct (N.eq_dec x id); congruence.
Qed.

(** *** Cells *)
Lemma cell_set_int_get t r c v r' c' :
  cell_get_int (cell_set_int t r c v) r' c' =
  if N.eq_dec r' r then if N.eq_dec c' c then v else cell_get_int t r' c' else cell_get_int t r' c'.
Proof.
  unfold cell_get_int, cell_set_int. cbn [rws]. rewrite aget_aput.
  destruct (N.eq_dec r' r) as [->|]; auto. destruct (iget (rws t) r) as [d|].
  - destruct v; rewrite ?aget_aput, ?aget_adel; reflexivity.
  - destruct v; rewrite ?aget_aput, ?aget_adel; reflexivity.
Qed.

Lemma cell_set_int_ok t i j r c v : Inv t -> nth_error (ro t) i = Some r -> nth_error (co t) j = Some c ->
  Inv (cell_set_int t r c v) /\ abs (cell_set_int t r c v) = put_cell (abs t) i j v.
Proof.
  intros I Hr Hc. split.
  - split; cbn [cell_set_int co cin cni ro rws rnd]; try apply I.
    + apply keys_aput, I.
    + intros r' d'. rewrite aget_aput. destruct (N.eq_dec r' r) as [->|]; [|apply I].
      intros E. injection E as <-. split; [eapply nth_error_In; eauto|].
      assert (D : forall c' v', iget (match iget (rws t) r with Some d => d | None => [] end) c' = Some v' -> In c' (co t)).
      { intros c' v'. destruct (iget (rws t) r) as [d|] eqn:E; [|discriminate]. apply (i_rows I _ E). }
      intros c' v'. destruct v as [w|].
      * rewrite aget_aput. destruct (N.eq_dec c' c) as [->|]; [|eauto]. intros _. eapply nth_error_In; eauto.
      * rewrite aget_adel. destruct (N.eq_dec c' c) as [->|]; [discriminate|eauto].
  - unfold put_cell, abs at 2. cbn [cells]. rewrite nth_error_map, Hr. cbn [option_map].
    unfold abs at 1. cbn [cell_set_int co cin cni ro rws rnd]. unfold abs. cbn [names cells]. f_equal.
    symmetry. replace (upd (rowvals t r) j v) with (rowvals (cell_set_int t r c v) r).
    { apply map_upd; auto. apply I. intros y Hy N1. apply map_ext. intros c'. rewrite cell_set_int_get.
      destruct (N.eq_dec y r); congruence. }
    unfold rowvals. cbn [cell_set_int co]. fold (cell_set_int t r c v).
    assert (X : cell_get_int (cell_set_int t r c v) r c = v).
    { rewrite cell_set_int_get. destruct (N.eq_dec r r); [|congruence]. destruct (N.eq_dec c c); congruence. }
    rewrite <- X at 2. symmetry. apply map_upd; auto. apply I.
    intros y Hy N1. rewrite cell_set_int_get. destruct (N.eq_dec r r); [|congruence]. destruct (N.eq_dec y c); congruence.
Qed.

Lemma cell_set_ok t r n v f k : Inv t -> S k <= length (rnd t) ->
  exists t' b, cell_set nrm t r n v f = Ok (t', b) /\ Inv t' /\ k <= length (rnd t') /\
    (abs t', b) = s_cell_set nrm (abs t) r n v f.
Proof.
  intros I L. unfold cell_set, s_cell_set. rewrite cells_len. change (empty_name n) with (is_nil n).
  destruct (nth_error (ro t) r) as [rid|] eqn:R.
  2:{ rewrite (ltb_none _ _ R). exists t, false. repeat (split; auto); lia. }
  rewrite (ltb_nth _ _ R). cbn [negb orb].
  destruct (is_nil n) eqn:En. { exists t, false. repeat (split; auto); lia. }
  pose proof (find_col n I) as F. destruct (col_of nrm t n) as [c|] eqn:C.
  - destruct F as (j & -> & J). exists (cell_set_int t rid c v), true.
    destruct (cell_set_int_ok r j v I R J) as [A B]. rewrite B. repeat (split; auto). cbn; lia.
  - rewrite F. destruct f.
    + exists t, false. repeat (split; auto); lia.
    + exists t, true. repeat (split; auto); lia.
    + destruct (col_insert_ok (length (co t)) n I L) as (t' & o & E & I' & L' & RO & Q & O).
      rewrite E. cbn [bind]. unfold s_col_insert in Q. rewrite names_len, Nat.ltb_irrefl, F in Q.
      rewrite andb_false_r in Q. cbn [orb] in Q. destruct o as [c|]; [|discriminate].
      apply (f_equal fst) in Q. cbn [fst] in Q. destruct O as (O1 & O2 & O3).
      rewrite <- RO in R. destruct (cell_set_int_ok r _ v I' R O1) as [A B].
      exists (cell_set_int t' rid c v), true. rewrite B, names_len, Q. repeat (split; auto).
Qed.

(** *** Rows *)
Lemma row_insert_ok t i k : Inv t -> S k <= length (rnd t) -> i <= length (ro t) ->
  exists id r, rnd t = id :: r /\
    row_insert_at_int t i = Ok (Table (co t) (cin t) (cni t) (insert_at i id (ro t)) (rws t) r, Some id) /\
    ~ In id (ro t) /\ Inv (Table (co t) (cin t) (cni t) (insert_at i id (ro t)) (rws t) r) /\ k <= length r.
Proof.
  intros I L H. destruct (rnd t) as [|id r] eqn:R; [cbn in L; lia|]. exists id, r. split; auto.
  pose proof (i_rnd I) as [R1 R2]. rewrite R in R1, R2. destruct (R2 id (or_introl eq_refl)) as [F1 F2].
  unfold row_insert_at_int. destruct (Nat.ltb_spec (length (ro t)) i); [lia|].
  rewrite R, gen_fresh by (now rewrite no_row). split; [reflexivity|]. split; auto.
  inversion R1; subst. split; [|cbn in L; lia].
  split; cbn; try apply I; auto.
  - apply nodup_insert_at; auto. apply I.
  - intros r' d E. rewrite in_insert_at. destruct (i_rows I _ E). auto.
  - split; auto. intros x Hx. destruct (R2 x (or_intror Hx)) as [X Y]. split; auto.
    rewrite in_insert_at. intros [->|]; auto.
Qed.

Lemma row_insert_abs t i id r : Inv t -> ~ In id (ro t) ->
  abs (Table (co t) (cin t) (cni t) (insert_at i id (ro t)) (rws t) r) = put_row (abs t) i (blank (abs t)).
Proof.
  intros I H. unfold abs, put_row, blank. cbn. f_equal. rewrite map_insert_at. unfold rowvals. cbn.
  f_equal. rewrite map_map. apply map_ext. intros c. unfold cell_get_int. cbn. now rewrite no_row.
Qed.

Lemma dict_ok f data : forall t row k, Inv t -> (forall c v, iget row c = Some v -> In c (co t)) ->
  length data + k <= length (rnd t) ->
  exists t' o, dict_loop nrm t row data f = Ok (t', o) /\ Inv t' /\ k <= length (rnd t') /\ ro t' = ro t /\
    match o with
    | Some row' => s_dict nrm (abs t) (map (iget row) (co t)) data f = Some (abs t', map (iget row') (co t')) /\
        (forall c v, iget row' c = Some v -> In c (co t'))
    | None => s_dict nrm (abs t) (map (iget row) (co t)) data f = None /\ t' = t
    end.
Proof.
  induction data as [|[key val] data IH]; intros t row k I D L; cbn [length] in L.
  { exists t, (Some row). repeat (split; auto). }
  cbn [dict_loop s_dict]. pose proof (find_col key I) as F. destruct (col_of nrm t key) as [c|] eqn:C.
  - destruct F as (j & -> & J).
    destruct (IH t (iput row c val) k I) as (t' & o & E & I' & L' & RO & O); [|lia|].
    { intros c' v'. rewrite aget_aput. destruct (N.eq_dec c' c) as [->|]; [|eauto]. intros _. eapply nth_error_In; eauto. }
    assert (U : upd (map (iget row) (co t)) j (Some val) = map (iget (iput row c val)) (co t)).
    { replace (Some val) with (iget (iput row c val) c).
      - apply map_upd; auto. apply I. intros y _ N1. rewrite aget_aput. destruct (N.eq_dec y c); congruence.
      - rewrite aget_aput. destruct (N.eq_dec c c); congruence. }
    exists t', o. rewrite U. repeat (split; auto).
  - rewrite F. destruct f.
    + exists t, None. repeat (split; auto). lia.
    + destruct (IH t row k I D) as (t' & o & E); [lia|]. exists t', o. auto.
    + destruct (@col_insert_ok t (length (co t)) key (length data + k) I) as (t' & o & E & I' & L' & RO & Q & O); [lia|].
      rewrite E. cbn [bind]. unfold s_col_insert in Q. rewrite names_len, Nat.ltb_irrefl, F in Q.
      rewrite andb_false_r in Q. cbn [orb] in Q. destruct o as [c|]; [|discriminate].
      apply (f_equal fst) in Q. cbn [fst] in Q. destruct O as (O1 & O2 & O3 & O4).
      destruct (IH t' (iput row c val) k I') as (t2 & o2 & E2 & I2 & L2 & RO2 & P2); [|lia|].
      { intros c' v'. rewrite aget_aput, O2, insert_at_end, in_app_iff. destruct (N.eq_dec c' c) as [->|]; cbn; [auto|].
        intros X. left. eauto. }
      assert (U : map (iget (iput row c val)) (co t') = map (iget row) (co t) ++ [Some val]).
      { rewrite O2, insert_at_end, map_app. f_equal.
        - apply map_ext_in. intros y Hy. rewrite aget_aput. destruct (N.eq_dec y c); congruence.
        - cbn [map]. rewrite aget_aput. destruct (N.eq_dec c c); congruence. }
      rewrite U, Q in P2. rewrite names_len. exists t2, o2. split; auto. split; auto. split; auto. split; [congruence|].
      destruct o2 as [row'|]; [exact P2|]. destruct P2 as [P2 ->]. exfalso. clear - P2.
      revert P2. generalize (put_col (abs t) (length (co t)) key), (map (iget row) (co t) ++ [Some val]).
      induction data as [|[a b] data IH]; intros T r; cbn; [discriminate|].
      destruct (find_name nrm (names T) a); apply IH.
Qed.

Lemma s_dict_blank t : map (iget []) (co t) = blank (abs t).
Proof. unfold blank, abs. cbn. rewrite map_map. reflexivity. Qed.

Lemma s_dict_cells T row data f T' row' : s_dict nrm T row data f = Some (T', row') -> length (cells T') = length (cells T).
Proof.
  revert T row. induction data as [|[a b] data IH]; intros T row; cbn.
  - intros E; congruence.
  - destruct (find_name nrm (names T) a); [apply IH|]. destruct f; [discriminate|apply IH|].
    intros E. apply IH in E. rewrite E. cbn. now rewrite map_length.
Qed.

Lemma row_dict_ok t i data f k : Inv t -> S (length data) + k <= length (rnd t) ->
  exists t' b, row_insert_dict_at nrm t i data f = Ok (t', b) /\ Inv t' /\ k <= length (rnd t') /\
    (abs t', b) = s_row_dict nrm (abs t) i data f.
Proof.
  intros I L. unfold row_insert_dict_at, s_row_dict. rewrite cells_len.
  destruct (Nat.ltb_spec (length (ro t)) i) as [H|H].
  { exists t, false. repeat (split; auto). lia. }
  destruct (is_nil data) eqn:En.
  { destruct data; [|discriminate]. cbn in L.
    destruct (@row_insert_ok t i k I) as (id & r & R & E & F & I' & L'); [lia|auto|].
    unfold row_insert_at. rewrite E. cbn [bind has]. eexists; eexists. split; [reflexivity|]. split; auto. split; auto.
    cbn [s_dict]. now rewrite row_insert_abs. }
  destruct (@dict_ok f data t [] (S k) I) as (t' & o & E & I' & L' & RO & O); [discriminate|lia|].
  rewrite E. cbn [bind]. rewrite s_dict_blank in O. destruct o as [row|].
  2:{ destruct O as [-> ->]. exists t, false. repeat (split; auto). lia. }
  destruct O as [-> D].
  destruct (@row_insert_ok t' i k I') as (id & r & R & E2 & F & I2 & L2); [lia|congruence|].
  rewrite E2. cbn [bind co cin cni ro rws rnd]. eexists; eexists. split; [reflexivity|].
  split; [|split; [exact L2|]].
  - split; cbn [co cin cni ro rws rnd]; try apply I2.
    + apply keys_aput, I2.
    + intros r' d'. rewrite aget_aput. destruct (N.eq_dec r' id) as [->|]; [|apply (i_rows I2)].
      intros X; injection X as <-. split; auto. apply in_insert_at. auto.
  - unfold abs, put_row. cbn. f_equal. f_equal. rewrite map_insert_at. unfold rowvals. cbn [co cin cni ro rws rnd].
    f_equal.
    + apply map_ext. intros c. unfold cell_get_int. cbn [rws]. rewrite aget_aput. destruct (N.eq_dec id id); congruence.
    + apply map_ext_in. intros x Hx. apply map_ext. intros c. unfold cell_get_int. cbn [rws]. rewrite aget_aput.
      destruct (N.eq_dec x id) as [->|]; [|reflexivity]. destruct F. exact Hx.
Qed.

Lemma row_remove_ok t i : Inv t ->
  Inv (row_remove t i) /\
  abs (row_remove t i) = if i <? length (cells (abs t)) then Tab (names (abs t)) (drop_at i (cells (abs t))) else abs t.
Proof.
  intros I. unfold row_remove. rewrite cells_len. destruct (nth_error (ro t) i) as [id|] eqn:E.
  2:{ rewrite (ltb_none _ _ E). auto. }
  rewrite (ltb_nth _ _ E). destruct (nodup_del_at _ E (i_ro I)) as [N1 N2]. split.
  - split; cbn; try apply I; auto.
    + apply keys_adel, I.
    + intros r d. rewrite aget_adel. destruct (N.eq_dec r id) as [->|]; [discriminate|].
      intros X. apply (i_rows I) in X. destruct X. split; auto. apply N2. auto.
    + split; [apply I|]. intros x Hx. destruct (proj2 (i_rnd I) x Hx). split; auto. rewrite N2. tauto.
  - unfold abs. cbn. f_equal. rewrite <- map_del_at. apply map_ext_in. intros x Hx. apply N2 in Hx.
    unfold rowvals. cbn. apply map_ext. intros c. unfold cell_get_int. cbn. rewrite aget_adel.
    destruct (N.eq_dec x id); tauto.
Qed.

(** *** Removing a column *)
Lemma name_remove_inv t id : Inv t -> In id (co t) ->
  forall co', (forall y, In y co' <-> In y (co t) /\ y <> id) ->
  (forall n x, nget (name_remove nrm (cni t) (iget (cin t) id)) n = Some x <->
     In x co' /\ exists m, iget (idel (cin t) id) x = Some m /\ nrm m = n).
Proof.
  intros I H co' C n x. unfold name_remove. destruct (iget (cin t) id) as [m0|] eqn:E.
  - rewrite aget_adel. destruct (str_dec n (nrm m0)) as [->|D].
    + split; [discriminate|]. intros (A & m & B & F). exfalso. rewrite aget_adel in B.
      destruct (N.eq_dec x id) as [->|X]; [discriminate|]. apply C in A.
      assert (P : nget (cni t) (nrm m0) = Some x) by (apply (i_name I); split; [tauto|eauto]).
      assert (Q : nget (cni t) (nrm m0) = Some id) by (apply (i_name I); split; [tauto|eauto]). congruence.
    + rewrite (i_name I), C. split; intros (A & m & B & F).
      * assert (X : x <> id) by (intros ->; congruence). split; auto. exists m. rewrite aget_adel.
        destruct (N.eq_dec x id); tauto.
      * rewrite aget_adel in B. destruct (N.eq_dec x id) as [->|X]; [discriminate|]. split; [tauto|eauto].
  - rewrite (i_name I), C. split; intros (A & m & B & F).
    + assert (X : x <> id) by (intros ->; congruence). split; auto. exists m. rewrite aget_adel.
      destruct (N.eq_dec x id); tauto.
    + rewrite aget_adel in B. destruct (N.eq_dec x id) as [->|X]; [discriminate|]. split; [tauto|eauto].
Qed.

Lemma col_remove_ok t i id : Inv t -> nth_error (co t) i = Some id ->
  Inv (column_remove_int nrm t id) /\ abs (column_remove_int nrm t id) = drop_col (abs t) i.
Proof.
  intros I E. unfold column_remove_int. rewrite (index_of_nth _ (i_co I) E).
  destruct (nodup_del_at _ E (i_co I)) as [N1 N2]. split.
  - split; cbn; auto.
    + apply I.
    + apply name_remove_inv; auto. eapply nth_error_In; eauto.
    + intros x m. rewrite aget_adel. destruct (N.eq_dec x id) as [->|]; [discriminate|]. intros X.
      apply (i_cin I) in X. rewrite N2. tauto.
    + rewrite map_map. cbn. apply I.
    + intros r d. rewrite (aget_map N.eq_dec (rws t) (fun d => idel d id)). destruct (iget (rws t) r) as [d0|] eqn:F; [|discriminate].
      cbn. intros X; injection X as <-. destruct (i_rows I _ F) as [A B]. split; auto.
      intros c v. rewrite aget_adel. destruct (N.eq_dec c id) as [->|]; [discriminate|]. intros X. apply N2. split; eauto.
    + split; [apply I|]. intros x Hx. destruct (proj2 (i_rnd I) x Hx). split; auto. rewrite N2. tauto.
  - unfold abs, drop_col. cbn. f_equal.
    + rewrite <- map_del_at. apply map_ext_in. intros x Hx. apply N2 in Hx. rewrite aget_adel. destruct (N.eq_dec x id); tauto.
    + rewrite map_map. apply map_ext. intros r. unfold rowvals. cbn. rewrite <- map_del_at. apply map_ext_in.
      intros c Hc. apply N2 in Hc. unfold cell_get_int. cbn. rewrite (aget_map N.eq_dec (rws t) (fun d => idel d id)).
      destruct (iget (rws t) r); cbn; auto. rewrite aget_adel. destruct (N.eq_dec c id); tauto.
Qed.

(** *** Empty columns and rows *)
Lemma col_have_spec t id : Inv t -> col_have t id = existsb (fun r => has (cell_get_int t r id)) (ro t).
Proof.
  intros I. apply eq_true_iff_eq. unfold col_have. rewrite !existsb_exists. split.
  - intros ([r d] & H1 & H2). apply (in_aget N.eq_dec) in H1; [|apply I]. exists r. split; [apply (i_rows I _ H1)|].
    unfold cell_get_int. now rewrite H1.
  - intros (r & H1 & H2). unfold cell_get_int in H2. destruct (iget (rws t) r) as [d|] eqn:E; [|discriminate].
    exists (r, d). split; auto. eapply aget_in; eauto.
Qed.

Lemma firstn_S_nth {A} (l : list A) i x : nth_error l i = Some x -> firstn (S i) l = firstn i l ++ [x].
Proof.
  revert i; induction l as [|y l IH]; intros [|i] E; cbn in E; try discriminate.
  - now injection E as ->.
  - change (firstn (S (S i)) (y :: l)) with (y :: firstn (S i) l). rewrite (IH _ E). reflexivity.
Qed.

(** Deleting position i of a list that still has its first S i elements. *)
Lemma del_at_app {A} (l : list A) i x s : nth_error l i = Some x ->
  del_at i (firstn (S i) l ++ s) = firstn i l ++ s.
Proof.
  intros E. assert (H : length (firstn i l) = i).
  { apply firstn_length_le. assert (i < length l) by (apply nth_error_Some; congruence). lia. }
  rewrite (firstn_S_nth _ _ E), <- app_assoc. unfold del_at. cbn [app].
  rewrite firstn_app, H, Nat.sub_diag. cbn [firstn]. rewrite app_nil_r.
  rewrite firstn_firstn, Nat.min_id. f_equal. rewrite skipn_app, H.
  rewrite skipn_all2 by lia. replace (S i - i) with 1 by lia. reflexivity.
Qed.

Lemma nth_app_firstn {A} (l : list A) i x s : nth_error l i = Some x -> nth_error (firstn (S i) l ++ s) i = Some x.
Proof.
  intros E. rewrite (firstn_S_nth _ _ E), <- app_assoc, nth_error_app2.
  - rewrite firstn_length_le; [now rewrite Nat.sub_diag|]. assert (i < length l) by (apply nth_error_Some; congruence). lia.
  - rewrite firstn_length. lia.
Qed.

Lemma cols_loop_ok have : forall i cs t cnt, Inv t -> i <= length cs -> NoDup cs ->
  co t = firstn i cs ++ filter have (skipn i cs) ->
  (forall c, In c cs -> col_have t c = have c) ->
  let '(t', n) := remove_cols_loop nrm i t cnt in
  Inv t' /\ co t' = filter have cs /\ ro t' = ro t /\ rws t' = rws t /\ (forall c, In c (co t') -> iget (cin t') c = iget (cin t) c) /\
  n = cnt + length (filter (fun c => negb (have c)) (firstn i cs)).
Proof.
  induction i as [|i IH]; intros cs t cnt I L ND C Hv; cbn [remove_cols_loop].
  { rewrite skipn_O in C. repeat (split; auto); cbn; lia. }
  destruct (nth_error cs i) as [id|] eqn:E.
  2:{ apply nth_error_None in E. lia. }
  assert (HI : In id cs) by (eapply nth_error_In; eauto).
  assert (S1 : filter have (skipn i cs) = (if have id then [id] else []) ++ filter have (skipn (S i) cs)).
  { rewrite (split_at cs i E) at 1. rewrite skipn_app, firstn_length_le by lia.
    rewrite skipn_all2 by (rewrite firstn_length; lia). rewrite Nat.sub_diag. cbn [skipn app filter].
    destruct (have id); reflexivity. }
  assert (F1 : filter (fun c => negb (have c)) (firstn (S i) cs) =
               filter (fun c => negb (have c)) (firstn i cs) ++ (if have id then [] else [id])).
  { rewrite (firstn_S_nth _ _ E), filter_app. cbn [filter]. destruct (have id); reflexivity. }
  rewrite C, (nth_app_firstn _ _ _ E), (Hv id HI).
  destruct (have id) eqn:Hid.
  - assert (C2 : co t = firstn i cs ++ filter have (skipn i cs)).
    { rewrite C, S1, (firstn_S_nth _ _ E), <- app_assoc. reflexivity. }
    specialize (IH cs t cnt I ltac:(lia) ND C2 Hv). destruct (remove_cols_loop nrm i t cnt) as [t' n].
    rewrite F1, app_nil_r. exact IH.
  - rewrite (del_at_app _ _ _ E). cbn [app] in S1. rewrite <- S1.
    set (t1 := Table _ _ _ _ _ _).
    assert (Eid : nth_error (co t) i = Some id) by (rewrite C; now apply nth_app_firstn).
    assert (C1 : co t1 = del_at i (co t)).
    { cbn. rewrite C, (del_at_app _ _ _ E), S1. reflexivity. }
    destruct (nodup_del_at _ Eid (i_co I)) as [N1 N2].
    assert (NC : forall r, cell_get_int t r id = None).
    { intros r. specialize (Hv id HI). rewrite Hid, col_have_spec in Hv by auto.
      destruct (cell_get_int t r id) as [v|] eqn:X; auto. exfalso.
      assert (Y : existsb (fun r => has (cell_get_int t r id)) (ro t) = true); [|congruence].
      apply existsb_exists. exists r. rewrite X. split; auto. unfold cell_get_int in X.
      destruct (iget (rws t) r) eqn:Z; [|discriminate]. apply (i_rows I _ Z). }
    assert (I1 : Inv t1).
    { split; try apply I.
      - rewrite C1. exact N1.
      - cbn [t1 cni cin]. apply name_remove_inv; auto; [eapply nth_error_In; eauto|]. rewrite C1. exact N2.
      - cbn [t1 cin]. intros x m. rewrite aget_adel. destruct (N.eq_dec x id) as [->|]; [discriminate|]. intros X.
        apply (i_cin I) in X. rewrite C1, N2. tauto.
      - intros r d X. change (iget (rws t) r = Some d) in X. destruct (i_rows I _ X) as [A B]. split; auto.
        intros c v Hc. rewrite C1, N2. split; eauto. intros ->. specialize (NC r). unfold cell_get_int in NC.
        rewrite X in NC. congruence.
      - split; [apply I|]. intros x Hx. destruct (proj2 (i_rnd I) x Hx). split; auto. rewrite C1, N2. tauto. }
    specialize (IH cs t1 (S cnt) I1 ltac:(lia) ND eq_refl Hv).
    destruct (remove_cols_loop nrm i t1 (S cnt)) as [t' n]. destruct IH as (A1 & A2 & A3 & A4 & A5 & A6).
    repeat (split; auto).
    + intros c Hc. rewrite (A5 c Hc). cbn [t1 cin]. rewrite aget_adel. destruct (N.eq_dec c id) as [->|]; auto.
      exfalso. rewrite A2 in Hc. apply filter_In in Hc. destruct Hc. congruence.
    + rewrite F1, app_length. cbn. lia.
Qed.

Lemma col_mask_spec t : Inv t -> col_mask (abs t) = map (col_have t) (co t).
Proof.
  intros I. unfold col_mask. rewrite names_len. apply nth_ext with (d := false) (d' := false).
  - now rewrite !map_length, seq_length.
  - intros i Hi. rewrite map_length, seq_length in Hi.
    destruct (nth_error (co t) i) as [c|] eqn:E; [|apply nth_error_None in E; lia].
    rewrite (nth_map_error _ _ _ _ E), (nth_map_error _ _ i _ (x := i)).
    2:{ rewrite (nth_error_nth' _ 0) by (now rewrite seq_length). now rewrite seq_nth. }
    rewrite col_have_spec by auto. cbn [abs cells].
    induction (ro t) as [|r l IH]; cbn; auto. rewrite IH. f_equal. unfold rowvals. now rewrite (nth_map_error _ _ _ _ E).
Qed.

Lemma remove_cols_ok t : Inv t ->
  let '(t', n) := remove_empty_columns nrm t in
  Inv t' /\ rnd t' = rnd t /\
  abs t' = Tab (select (col_mask (abs t)) (names (abs t))) (map (select (col_mask (abs t))) (cells (abs t))) /\
  n = count_false (col_mask (abs t)).
Proof.
  intros I. unfold remove_empty_columns.
  assert (RND : forall i t cnt, rnd (fst (remove_cols_loop nrm i t cnt)) = rnd t).
  { induction i as [|i IH]; intros u cnt; cbn; auto. destruct (nth_error (co u) i); cbn; auto.
    destruct (col_have u n); rewrite IH; reflexivity. }
  specialize (RND (length (co t)) t 0).
  pose proof (cols_loop_ok (col_have t) (cs := co t) 0 I (le_n _) (i_co I)) as X.
  rewrite firstn_all, skipn_all in X. cbn [filter] in X. rewrite app_nil_r in X. specialize (X eq_refl (fun _ _ => eq_refl)).
  destruct (remove_cols_loop nrm (length (co t)) t 0) as [t' n]. destruct X as (A1 & A2 & A3 & A4 & A5 & A6).
  split; auto. split; auto. rewrite col_mask_spec by auto. split; [|rewrite count_filter; exact A6].
  cbn [names cells abs]. rewrite select_filter, map_map. unfold abs. rewrite A3. f_equal.
  - rewrite <- A2. apply map_ext_in. exact A5.
  - apply map_ext. intros r. unfold rowvals. rewrite select_filter, <- A2. apply map_ext. intros c.
    unfold cell_get_int. now rewrite A4.
Qed.

Lemma row_empty_spec t r : Inv t -> row_empty t r = negb (existsb given (rowvals t r)).
Proof.
  intros I. unfold row_empty, rowvals, cell_get_int. destruct (iget (rws t) r) as [d|] eqn:E.
  - destruct d as [|[c v] d]; cbn.
    + symmetry. apply negb_true_iff. induction (co t); cbn; auto.
    + symmetry. apply negb_false_iff. apply existsb_exists.
      assert (X : iget ((c, v) :: d) c = Some v) by (cbn; destruct (N.eq_dec c c); congruence).
      exists (Some v). split; auto. apply in_map_iff. exists c. split; auto. apply (proj2 (i_rows I _ E) _ _ X).
  - symmetry. apply negb_true_iff. induction (co t); cbn; auto.
Qed.

Lemma rows_loop_ok keep : forall i rs t cnt, Inv t -> i <= length rs -> NoDup rs ->
  ro t = firstn i rs ++ filter keep (skipn i rs) ->
  (forall r, In r (firstn i rs) -> row_empty t r = negb (keep r)) ->
  let '(t', n) := remove_rows_loop i t cnt in
  Inv t' /\ ro t' = filter keep rs /\ co t' = co t /\ cin t' = cin t /\ rnd t' = rnd t /\
  (forall r, In r (ro t') -> iget (rws t') r = iget (rws t) r) /\
  n = cnt + length (filter (fun c => negb (keep c)) (firstn i rs)).
Proof.
  induction i as [|i IH]; intros rs t cnt I L ND C Hv; cbn [remove_rows_loop].
  { rewrite skipn_O in C. repeat (split; auto); cbn; lia. }
  destruct (nth_error rs i) as [id|] eqn:E.
  2:{ apply nth_error_None in E. lia. }
  assert (S1 : filter keep (skipn i rs) = (if keep id then [id] else []) ++ filter keep (skipn (S i) rs)).
  { rewrite (split_at rs i E) at 1. rewrite skipn_app, firstn_length_le by lia.
    rewrite skipn_all2 by (rewrite firstn_length; lia). rewrite Nat.sub_diag. cbn [skipn app filter].
    destruct (keep id); reflexivity. }
  assert (F1 : filter (fun c => negb (keep c)) (firstn (S i) rs) =
               filter (fun c => negb (keep c)) (firstn i rs) ++ (if keep id then [] else [id])).
  { rewrite (firstn_S_nth _ _ E), filter_app. cbn [filter]. destruct (keep id); reflexivity. }
  assert (Hid0 : row_empty t id = negb (keep id)).
  { apply Hv. rewrite (firstn_S_nth _ _ E), in_app_iff. cbn. auto. }
  assert (HF : forall r, In r (firstn i rs) -> In r (firstn (S i) rs)).
  { intros r Hr. rewrite (firstn_S_nth _ _ E), in_app_iff. auto. }
  rewrite C, (nth_app_firstn _ _ _ E), Hid0.
  destruct (keep id) eqn:Hid; cbn [negb].
  - assert (C2 : ro t = firstn i rs ++ filter keep (skipn i rs)).
    { rewrite C, S1, (firstn_S_nth _ _ E), <- app_assoc. reflexivity. }
    specialize (IH rs t cnt I ltac:(lia) ND C2 (fun r Hr => Hv r (HF r Hr))). destruct (remove_rows_loop i t cnt) as [t' n].
    rewrite F1, app_nil_r. exact IH.
  - rewrite (del_at_app _ _ _ E). cbn [app] in S1. rewrite <- S1.
    set (t1 := Table _ _ _ _ _ _).
    assert (Eid : nth_error (ro t) i = Some id) by (rewrite C; now apply nth_app_firstn).
    assert (T1 : t1 = row_remove t i).
    { unfold row_remove. rewrite Eid. unfold t1. rewrite C, (del_at_app _ _ _ E), S1. reflexivity. }
    assert (NI : ~ In id (firstn i rs)).
    { intros X. rewrite (split_at rs i E) in ND. apply NoDup_remove_2 in ND. apply ND. apply in_app_iff. auto. }
    assert (I1 : Inv t1) by (rewrite T1; apply row_remove_ok; auto).
    assert (Hv1 : forall r, In r (firstn i rs) -> row_empty t1 r = negb (keep r)).
    { intros r Hr. rewrite <- (Hv r (HF r Hr)). unfold row_empty. cbn [t1 rws]. rewrite aget_adel.
      destruct (N.eq_dec r id) as [->|]; [contradiction|reflexivity]. }
    specialize (IH rs t1 (S cnt) I1 ltac:(lia) ND eq_refl Hv1).
    destruct (remove_rows_loop i t1 (S cnt)) as [t' n]. destruct IH as (A1 & A2 & A3 & A4 & A5 & A6 & A7).
    repeat (split; auto).
    + intros c Hc. rewrite (A6 c Hc). cbn [t1 rws]. rewrite aget_adel. destruct (N.eq_dec c id) as [->|]; auto.
      exfalso. rewrite A2 in Hc. apply filter_In in Hc. destruct Hc. congruence.
    + rewrite F1, app_length. cbn. lia.
Qed.

Lemma remove_rows_ok t : Inv t ->
  let '(t', n) := remove_empty_rows t in
  Inv t' /\ rnd t' = rnd t /\
  abs t' = Tab (names (abs t)) (select (row_mask (abs t)) (cells (abs t))) /\
  n = count_false (row_mask (abs t)).
Proof.
  intros I. unfold remove_empty_rows.
  pose proof (rows_loop_ok (fun r => existsb given (rowvals t r)) (rs := ro t) 0 I (le_n _) (i_ro I)) as X.
  rewrite firstn_all, skipn_all in X. cbn [filter] in X. rewrite app_nil_r in X.
  specialize (X eq_refl (fun r _ => row_empty_spec r I)).
  destruct (remove_rows_loop (length (ro t)) t 0) as [t' n]. destruct X as (A1 & A2 & A3 & A4 & A5 & A6 & A7).
  split; auto. split; auto. unfold row_mask. cbn [names cells abs]. rewrite map_map.
  split; [|rewrite count_filter; exact A7].
  rewrite select_filter. unfold abs. rewrite A3, A4. f_equal. rewrite <- A2. apply map_ext_in.
  intros r Hr. unfold rowvals. rewrite A3. apply map_ext. intros c. unfold cell_get_int. now rewrite (A6 r Hr).
Qed.

(** *** Sorting *)
Lemma preorder_by {A B} (f : A -> B) cmp : total_preorder cmp -> total_preorder (fun x y => cmp (f x) (f y)).
Proof. intros [H1 H2]. split; intros; eauto. Qed.

Lemma preorder_eq0 {A} (cmp : A -> A -> Z) x y : total_preorder cmp -> cmp x y = 0%Z -> cmp y x = 0%Z.
Proof. intros [H1 H2] E. specialize (H1 x y). rewrite E in H1. cbn in H1. lia. Qed.

Lemma preorder_lex {A} (c1 c2 : A -> A -> Z) : total_preorder c1 -> total_preorder c2 ->
  total_preorder (fun x y => if (c1 x y =? 0)%Z then c2 x y else c1 x y).
Proof.
  intros P1 P2. destruct P1 as [S1 T1]. destruct P2 as [S2 T2]. split.
  - intros x y. pose proof (S1 x y). pose proof (S2 x y).
    destruct (Z.eqb_spec (c1 x y) 0) as [E|E]; destruct (Z.eqb_spec (c1 y x) 0) as [F|F]; auto; exfalso.
    + rewrite E in H. cbn in H. lia.
    + rewrite F in H. cbn in H. lia.
  - intros x y z. pose proof (T1 x y z). pose proof (T2 x y z). pose proof (S1 x y). pose proof (S1 y z). pose proof (S1 x z).
    pose proof (T1 z x y). pose proof (T1 y z x).
    destruct (Z.eqb_spec (c1 x y) 0) as [E|E]; destruct (Z.eqb_spec (c1 y z) 0) as [F|F];
      destruct (Z.eqb_spec (c1 x z) 0) as [G|G]; intros; auto; lia.
Qed.

Lemma sorted_map {A B} (f : A -> B) cmp cmp' l : sorted cmp l ->
  (forall x y, In x l -> In y l -> cmp' (f x) (f y) = cmp x y) -> sorted cmp' (map f l).
Proof.
  unfold sorted. induction 1 as [|x l H IH F]; cbn; intros E; constructor.
  - apply IH. intros; apply E; cbn; auto.
  - apply Forall_forall. intros y Hy. apply in_map_iff in Hy. destruct Hy as (z & <- & Hz).
    rewrite E by (cbn; auto). rewrite Forall_forall in F. auto.
Qed.

Lemma inv_perm_rows t l : Inv t -> Permutation l (ro t) -> Inv (Table (co t) (cin t) (cni t) l (rws t) (rnd t)).
Proof.
  intros I P. pose proof (fun x => @Permutation_in _ _ _ x P) as P1.
  pose proof (fun x => @Permutation_in _ _ _ x (Permutation_sym P)) as P2.
  split; cbn; try apply I.
  - apply (Permutation_NoDup (Permutation_sym P)), I.
  - intros r d E. apply (i_rows I) in E. destruct E. auto.
  - split; [apply I|]. intros x Hx. destruct (proj2 (i_rnd I) x Hx). auto.
Qed.

Lemma inv_perm_cols t l : Inv t -> Permutation l (co t) -> Inv (Table l (cin t) (cni t) (ro t) (rws t) (rnd t)).
Proof.
  intros I P. pose proof (fun x => @Permutation_in _ _ _ x P) as P1.
  pose proof (fun x => @Permutation_in _ _ _ x (Permutation_sym P)) as P2.
  split; cbn; try apply I.
  - apply (Permutation_NoDup (Permutation_sym P)), I.
  - intros n id. rewrite (i_name I). split; intros [A B]; auto.
  - intros id m E. apply (i_cin I) in E. destruct E. auto.
  - intros r d E. apply (i_rows I) in E. destruct E. eauto.
  - split; [apply I|]. intros x Hx. destruct (proj2 (i_rnd I) x Hx). auto.
Qed.

Definition sec_at (t : table) (sec : option (N * (str -> str -> Z))) (sec' : option (nat * (str -> str -> Z))) : Prop :=
  match sec, sec' with
  | None, None => True
  | Some (c, f), Some (i, g) => f = g /\ nth_error (co t) i = Some c
  | _, _ => False
  end.

Lemma sort_int_ok t c i cmp sec sec' : Inv t -> nth_error (co t) i = Some c -> sec_at t sec sec' ->
  total_preorder cmp -> (match sec with Some (_, f) => total_preorder f | None => True end) ->
  exists t', sort_data_int t c cmp sec = Ok t' /\ Inv t' /\ rnd t' = rnd t /\
    rows_sorted (abs t) (abs t') (row_cmp i cmp sec').
Proof.
  intros I E S P P2. unfold sort_data_int.
  assert (TP : total_preorder (coldata_compar t c cmp sec)).
  { unfold coldata_compar. destruct sec as [[c2 f]|].
    - apply (preorder_lex (c1 := fun x y => cmp (orempty (cell_get_int t x c)) (orempty (cell_get_int t y c)))
               (c2 := fun x y => f (orempty (cell_get_int t x c2)) (orempty (cell_get_int t y c2)))).
      + apply (preorder_by (fun x => orempty (cell_get_int t x c))); auto.
      + apply (preorder_by (fun x => orempty (cell_get_int t x c2))); auto.
    - apply (preorder_by (fun x => orempty (cell_get_int t x c))); auto. }
  destruct (qsort_sorts _ _ TP (ro t)) as (l & Q & PM & SO). rewrite Q. cbn [bind].
  eexists. split; [reflexivity|]. split; [apply inv_perm_rows; auto|]. split; [reflexivity|].
  split; [reflexivity|]. unfold abs. cbn [cells ro].
  change (rowvals (Table (co t) (cin t) (cni t) l (rws t) (rnd t))) with (rowvals t).
  split; [apply Permutation_map; auto|].
  apply (sorted_map _ _ SO). intros x y _ _. unfold row_cmp, coldata_compar, rowvals.
  rewrite !(nth_map_error _ _ _ _ E). destruct sec as [[c2 f]|], sec' as [[i2 g]|]; cbn in S; try tauto.
  destruct S as [-> S]. rewrite !(nth_map_error _ _ _ _ S). reflexivity.
Qed.

Lemma order_ok t cmp : Inv t -> total_preorder cmp ->
  exists t', column_order t cmp = Ok t' /\ Inv t' /\ rnd t' = rnd t /\ cols_sorted (abs t) (abs t') cmp.
Proof.
  intros I P. unfold column_order.
  assert (TP : total_preorder (colname_compar t cmp)) by (apply (preorder_by (fun x => orempty (iget (cin t) x))); auto).
  destruct (qsort_sorts _ _ TP (co t)) as (l & Q & PM & SO). rewrite Q. cbn [bind].
  eexists. split; [reflexivity|]. split; [apply inv_perm_cols; auto|]. split; [reflexivity|].
  assert (X : exists p, l = map (fun i => nth i (co t) 0%N) p /\ Permutation (seq 0 (length (co t))) p).
  { apply Permutation_map_inv. rewrite <- nth_seq_map. auto. }
  destruct X as (p & -> & PP). exists p. rewrite names_len.
  assert (B : forall i, In i p -> i < length (co t)).
  { intros i Hi. apply (Permutation_in _ (Permutation_sym PP)) in Hi. apply in_seq in Hi. lia. }
  assert (NE : forall {A} (f : N -> A) d, map f (map (fun i => nth i (co t) 0%N) p) = map (fun i => nth i (map f (co t)) d) p).
  { intros A f d. rewrite map_map. apply map_ext_in. intros i Hi. specialize (B i Hi).
    destruct (nth_error (co t) i) as [c|] eqn:E; [|apply nth_error_None in E; lia].
    rewrite (nth_map_error _ _ _ _ E). f_equal. now apply nth_error_nth. }
  split; [symmetry; auto|]. split; [apply NE|]. split.
  - unfold abs. cbn [cells ro]. rewrite map_map. apply map_ext. intros r. unfold rowvals. cbn [co]. apply NE.
  - unfold abs. cbn [names co cin]. rewrite map_map. apply (sorted_map _ _ SO). intros; reflexivity.
Qed.

(** *** Names *)
Lemma set_name_ok t i n : Inv t -> ok_op nrm (abs t) (OSetName i n) ->
  Inv (fst (column_set_name nrm t i n)) /\ rnd (fst (column_set_name nrm t i n)) = rnd t /\
  step nrm (abs t) (OSetName i n) (OB (snd (column_set_name nrm t i n))) (abs (fst (column_set_name nrm t i n))).
Proof.
  intros I H. cbn [ok_op] in H. unfold column_set_name, step. rewrite names_len.
  cbn [abs names] in H. rewrite nth_error_map in H.
  destruct (nth_error (co t) i) as [id|] eqn:E; cbn [option_map] in H.
  2:{ rewrite (ltb_none _ _ E). auto. }
  rewrite (ltb_nth _ _ E). destruct H as [H1 H2]. pose proof (nth_error_In _ _ E) as HI.
  change (empty_name n) with (is_nil n) in *. destruct (is_nil n) eqn:En.
  - destruct (iget (cin t) id) as [m|] eqn:G; [destruct H2; discriminate|].
    destruct n; [|discriminate]. split; [|split; [reflexivity|split; [|reflexivity]]].
    + split; cbn; try apply I.
      * intros m x. rewrite aget_adel. destruct (str_dec m (nrm [])) as [->|D].
        -- split; [discriminate|]. intros (A & m' & B & F). exfalso. apply nrm_nil in F. subst m'.
           rewrite aget_adel in B. destruct (N.eq_dec x id); [discriminate|]. apply (i_cin I) in B. tauto.
        -- rewrite (i_name I). split; intros (A & m' & B & F); split; auto; exists m'; rewrite ?aget_adel in *;
             destruct (N.eq_dec x id) as [->|]; auto; congruence.
      * intros x m. rewrite aget_adel. destruct (N.eq_dec x id); [discriminate|]. apply I.
    + unfold abs. cbn. f_equal. symmetry.
      replace (@None str) with (iget (idel (cin t) id) id) by (rewrite aget_adel; destruct (N.eq_dec id id); congruence).
      apply map_upd; auto. apply I. intros y _ D. rewrite aget_adel. destruct (N.eq_dec y id); congruence.
  - assert (FR : forall x m, iget (cin t) x = Some m -> x <> id -> nrm m <> nrm n).
    { intros x m A B C. destruct (iget (cin t) id) as [m0|] eqn:G.
      - destruct H2 as [_ H2].
        assert (X : nget (cni t) (nrm n) = Some x) by (apply (i_name I); split; [apply (i_cin I _ A)|eauto]).
        assert (Y : nget (cni t) (nrm n) = Some id) by (apply (i_name I); split; eauto). congruence.
      - destruct H1 as [H1|H1]; [discriminate|]. exact (@find_none _ _ _ H1 x m (proj1 (i_cin I _ A)) A C). }
    assert (OLD : forall m, iget (cin t) id = Some m -> nrm m = nrm n).
    { intros m G. rewrite G in H2. tauto. }
    split; [|split; [reflexivity|split; [|reflexivity]]].
    + split; cbn [co cin cni ro rws rnd fst]; try apply I.
      * intros m x. rewrite aget_aput. destruct (str_dec m (nrm n)) as [->|D].
        -- split.
           ++ intros X; injection X as <-. split; auto. exists n. rewrite aget_aput. destruct (N.eq_dec id id); [auto|congruence].
           ++ intros (A & m' & B & F). f_equal. rewrite aget_aput in B. destruct (N.eq_dec x id) as [->|X]; auto.
              destruct (FR _ _ B X F).
        -- rewrite (i_name I). split; intros (A & m' & B & F); split; auto; exists m'; rewrite ?aget_aput in *.
           ++ destruct (N.eq_dec x id) as [->|]; auto. apply OLD in B. congruence.
           ++ destruct (N.eq_dec x id) as [->|]; auto. injection B as <-. congruence.
      * intros x m. rewrite aget_aput. destruct (N.eq_dec x id) as [->|]; [|apply I].
        intros X; injection X as <-. split; auto. intros ->. discriminate.
    + unfold abs. cbn [co cin cni ro rws rnd fst names cells]. f_equal. symmetry.
      replace (Some n) with (iget (iput (cin t) id n) id) by (rewrite aget_aput; destruct (N.eq_dec id id); congruence).
      apply map_upd; auto. apply I. intros y _ D. rewrite aget_aput. destruct (N.eq_dec y id); congruence.
Qed.

Lemma set_all_ok r f data : forall t k, Inv t -> length data + k <= length (rnd t) ->
  exists t', set_dict_loop nrm t r data f = Ok t' /\ Inv t' /\ k <= length (rnd t') /\
    abs t' = s_set_all nrm (abs t) r data f.
Proof.
  induction data as [|[a b] data IH]; intros t k I L; cbn [length] in L; cbn [set_dict_loop s_set_all].
  { exists t. auto. }
  destruct (@cell_set_ok t r a (Some b) f (length data + k) I) as (t' & x & E & I' & L' & Q); [lia|].
  rewrite E. cbn [bind]. rewrite <- Q. cbn [fst]. apply IH; auto.
Qed.

(** *** One call *)
Lemma apply_ok t o k : Inv t -> ok_op nrm (abs t) o -> cost [o] + k <= length (rnd t) ->
  exists t' x, apply nrm t o = Ok (t', x) /\ Inv t' /\ k <= length (rnd t') /\ step nrm (abs t) o x (abs t').
Proof.
  intros I H L. destruct o; cbn [cost] in L; rewrite ?Nat.add_0_r in L; cbn [apply retb retv].
  - destruct (@col_insert_ok t idx name k I L) as (t' & o & E & I' & L' & _ & Q & _).
    unfold column_insert_at. rewrite E. cbn [bind has step]. eexists; eexists. split; [reflexivity|]. split; auto. split; auto.
    now rewrite <- Q.
  - destruct (set_name_ok I H) as (A & B & C). destruct (column_set_name nrm t idx name) as [t' b].
    cbn [bind has step]. eexists; eexists. split; [reflexivity|]. split; auto. split; [cbn in B; rewrite B; exact L|exact C].
  - cbn [bind has step]. eexists; eexists. split; [reflexivity|]. unfold column_remove.
    destruct (is_nil name) eqn:En.
    { destruct name; [|discriminate]. rewrite find_nil by auto. auto. }
    pose proof (find_col name I) as F. destruct (col_of nrm t name) as [c|].
    + destruct F as (j & -> & J). destruct (col_remove_ok j I J) as [A B]. split; auto. split; [|auto].
      unfold column_remove_int. destruct (index_of (co t) c); cbn; exact L.
    + rewrite F. auto.
  - cbn [bind has step]. eexists; eexists. split; [reflexivity|]. unfold column_remove_at. rewrite names_len.
    destruct (nth_error (co t) idx) as [c|] eqn:E.
    + rewrite (ltb_nth _ _ E). destruct (col_remove_ok idx I E) as [A B]. split; auto. split; [|auto].
      unfold column_remove_int. destruct (index_of (co t) c); cbn; exact L.
    + rewrite (ltb_none _ _ E). auto.
  - pose proof (remove_cols_ok I) as X. destruct (remove_empty_columns nrm t) as [t' n]. destruct X as (A & B & C & D).
    eexists; eexists. split; [reflexivity|]. split; auto. split; [rewrite B; exact L|]. cbn [step]. rewrite D. auto.
  - destruct (order_ok I H) as (t' & E & A & B & C). rewrite E. cbn [bind has step]. eexists; eexists. split; [reflexivity|]. split; auto.
    split; [rewrite B; exact L|auto].
  - unfold row_insert_at. cbn [step]. rewrite cells_len. destruct (Nat.ltb_spec (length (ro t)) idx) as [X|X].
    + unfold row_insert_at_int. destruct (Nat.ltb_spec (length (ro t)) idx); [|lia]. cbn [bind has step].
      eexists; eexists. split; [reflexivity|]. split; auto. split; auto. lia.
    + destruct (@row_insert_ok t idx k I) as (id & r & R & E & F & I' & L'); [lia|auto|].
      rewrite E. cbn [bind has]. eexists; eexists. split; [reflexivity|]. split; auto. split; auto.
      split; auto. now apply row_insert_abs.
  - destruct (@row_dict_ok t idx data f k I) as (t' & b & E & I' & L' & Q); [lia|].
    rewrite E. cbn [bind has step]. eexists; eexists. split; [reflexivity|]. split; auto. split; auto. now rewrite <- Q.
  - cbn [bind has step]. eexists; eexists. split; [reflexivity|]. destruct (row_remove_ok idx I) as [A B]. split; auto. split.
    + unfold row_remove. destruct (nth_error (ro t) idx); cbn; exact L.
    + split; auto.
  - pose proof (remove_rows_ok I) as X. destruct (remove_empty_rows t) as [t' n]. destruct X as (A & B & C & D).
    eexists; eexists. split; [reflexivity|]. split; auto. split; [rewrite B; exact L|]. cbn [step]. rewrite D. auto.
  - destruct (@cell_set_ok t row name val f k I) as (t' & b & E & I' & L' & Q); [lia|].
    rewrite E. cbn [bind has step]. eexists; eexists. split; [reflexivity|]. split; auto. split; auto. now rewrite <- Q.
  - cbn [step]. rewrite cells_len, names_len. unfold cell_set_at.
    destruct (nth_error (ro t) row) as [r|] eqn:R.
    2:{ rewrite (ltb_none _ _ R). cbn [bind has step andb]. eexists; eexists. split; [reflexivity|]. auto 6. }
    rewrite (ltb_nth _ _ R). destruct (nth_error (co t) col) as [c|] eqn:C.
    2:{ rewrite (ltb_none _ _ C). cbn [bind has step andb]. eexists; eexists. split; [reflexivity|]. auto 6. }
    rewrite (ltb_nth _ _ C). cbn [andb bind]. destruct (cell_set_int_ok row col val I R C) as [A B].
    eexists; eexists. split; [reflexivity|]. split; auto.
  - unfold cell_set_dict. cbn [step]. unfold s_set_dict.
    assert (X : (match f with INone => existsb (fun kv => negb (has (col_of nrm t (fst kv)))) data | _ => false end) =
                (match f with INone => existsb (fun kv => negb (given (find_name nrm (names (abs t)) (fst kv)))) data | _ => false end)).
    { destruct f; auto. clear L H. induction data as [|[a b] data IH]; cbn [existsb]; auto. rewrite IH. cbn [fst]. rewrite has_find by auto. reflexivity. }
    rewrite X. clear X. match goal with |- context [match f with INone => ?e | IIgnore => ?a | IAdd => ?b end] =>
      destruct (match f with INone => e | IIgnore => a | IAdd => b end) end.
    + cbn [bind has step]. eexists; eexists. split; [reflexivity|]. split; auto. split; auto. lia.
    + destruct (@set_all_ok row f data t k I) as (t' & E & I' & L' & Q); [lia|].
      rewrite E. cbn [bind has step]. eexists; eexists. split; [reflexivity|]. split; auto. split; auto. now rewrite <- Q.
  - cbn [ok_op] in H. destruct H as [P P2]. unfold sort_data. cbn [step].
    change (empty_name name2) with (is_nil name2) in *. destruct (is_nil name) eqn:En.
    { destruct name; [|discriminate]. rewrite find_nil by auto. cbn [bind has step andb]. eexists; eexists. split; [reflexivity|]. auto 6. }
    pose proof (find_col name I) as F. destruct (col_of nrm t name) as [c|].
    2:{ rewrite F. cbn [bind has step andb]. eexists; eexists. split; [reflexivity|]. auto 6. }
    destruct F as (j & -> & J). pose proof (find_col name2 I) as F2. destruct cmp2 as [f|].
    + destruct P2 as [P2 E2]. rewrite E2. destruct (col_of nrm t name2) as [c2|].
      * destruct F2 as (j2 & -> & J2).
        destruct (@sort_int_ok t c j cmp (Some (c2, f)) (Some (j2, f)) I J (conj eq_refl J2) P P2) as (t' & E & A & B & C).
        rewrite E. cbn [bind has step]. eexists; eexists. split; [reflexivity|]. split; auto. split; [rewrite B; exact L|auto].
      * rewrite F2. cbn [bind has step given]. eexists; eexists. split; [reflexivity|]. auto 6.
    + destruct (@sort_int_ok t c j cmp None None I J Logic.I P Logic.I) as (t' & E & A & B & C).
      destruct (is_nil name2) eqn:E2; cbn [orb].
      * rewrite E. cbn [bind has step]. eexists; eexists. split; [reflexivity|]. split; auto. split; [rewrite B; exact L|auto].
      * destruct (col_of nrm t name2) as [c2|].
        -- destruct F2 as (j2 & -> & J2). cbn [given]. rewrite E. cbn [bind has step]. eexists; eexists. split; [reflexivity|]. split; auto.
           split; [rewrite B; exact L|auto].
        -- rewrite F2. cbn [bind has step given]. eexists; eexists. split; [reflexivity|]. auto 6.
Qed.

(** *** Sequences of calls *)
Lemma run_ok ops : forall t k, Inv t -> covered nrm (abs t) ops -> cost ops + k <= length (rnd t) ->
  exists t' xs, run nrm t ops = Ok (t', xs) /\ Inv t' /\ k <= length (rnd t') /\ steps nrm (abs t) ops xs (abs t').
Proof.
  induction ops as [|o ops IH]; intros t k I C L.
  - exists t, []. split; [reflexivity|]. split; auto. split; auto. constructor.
  - destruct C as [C1 C2].
    assert (LL : cost [o] + (cost ops + k) <= length (rnd t)) by (cbn [cost] in *; lia).
    destruct (@apply_ok t o (cost ops + k) I C1 LL) as (t1 & x & E & I1 & L1 & S1).
    destruct (IH t1 k I1 (C2 _ _ S1) L1) as (t2 & xs & E2 & I2 & L2 & S2).
    exists t2, (x :: xs). cbn [run]. rewrite E. cbn [bind]. rewrite E2. cbn [bind]. split; auto. split; auto. split; auto.
    econstructor; eauto.
Qed.

(** *** What the queries return *)
Lemma column_name_ok t i : column_name t i = nth i (names (abs t)) None.
Proof.
  unfold column_name, abs. cbn. destruct (nth_error (co t) i) as [c|] eqn:E.
  - now rewrite (nth_map_error _ _ _ _ E).
  - apply nth_error_None in E. rewrite nth_overflow; auto. now rewrite map_length.
Qed.

Lemma cell_at_ok t r c : cell_at t r c = nth c (nth r (cells (abs t)) []) None.
Proof.
  unfold cell_at, abs. cbn. destruct (nth_error (ro t) r) as [rid|] eqn:R.
  - rewrite (nth_map_error _ _ _ _ R). unfold rowvals. destruct (nth_error (co t) c) as [cid|] eqn:E.
    + now rewrite (nth_map_error _ _ _ _ E).
    + apply nth_error_None in E. rewrite nth_overflow; auto. now rewrite map_length.
  - apply nth_error_None in R. rewrite (nth_overflow (map _ _)) by (now rewrite map_length). now destruct c.
Qed.

Lemma column_idx_ok t n : Inv t -> column_idx nrm t n = find_name nrm (names (abs t)) n.
Proof.
  intros I. unfold column_idx. pose proof (find_col n I) as F. destruct (col_of nrm t n) as [c|]; [|now rewrite F].
  destruct F as (i & -> & J). apply index_of_nth; auto. apply I.
Qed.

Lemma cell_ok t r n : Inv t ->
  cell nrm t r n = match find_name nrm (names (abs t)) n with
                   | Some c => nth c (nth r (cells (abs t)) []) None
                   | None => None
                   end.
Proof.
  intros I. unfold cell. destruct (nth_error (ro t) r) as [rid|] eqn:R.
  - destruct (is_nil n) eqn:En.
    { destruct n; [|discriminate]. now rewrite find_nil. }
    pose proof (find_col n I) as F. destruct (col_of nrm t n) as [c|]; [|now rewrite F].
    destruct F as (i & -> & J). rewrite <- cell_at_ok. unfold cell_at. now rewrite R, J.
  - destruct (find_name nrm (names (abs t)) n) as [c|]; auto. rewrite <- cell_at_ok. unfold cell_at. now rewrite R.
Qed.
End R.

(** Merging two tables: m_table.c:761-812. *)
From Verif Require Import Base.Lib Sort.Spec.
From Verif Require Import Table.Model Table.Spec Table.Proofs.
Open Scope nat_scope.
Set Implicit Arguments.

Lemma nth_upd {A} (l : list A) i v j d : nth j (upd l i v) d = if (j =? i) && (i <? length l) then v else nth j l d.
Proof.
  revert i j; induction l as [|x l IH]; intros [|i] [|j]; cbn; auto.
  - now rewrite andb_false_r.
  - apply IH.
Qed.

Section M.
Variable nrm : str -> str.
Hypothesis nrm_nil : forall m, nrm m = nrm [] -> m = [].

Lemma find_nrm l n n' : nrm n = nrm n' -> find_name nrm l n = find_name nrm l n'.
Proof. intros E. induction l as [|[m|] l IH]; cbn; auto; rewrite ?E, IH; reflexivity. Qed.

Lemma find_spec l n c : find_name nrm l n = Some c -> exists m, nth_error l c = Some (Some m) /\ nrm m = nrm n.
Proof.
  revert c; induction l as [|[m|] l IH]; cbn; intros c; [discriminate| |].
  - destruct (str_dec (nrm n) (nrm m)) as [E|E].
    + intros H; injection H as <-. exists m. cbn. auto.
    + destruct (find_name nrm l n) as [j|]; cbn; intros H; [injection H as <-|discriminate]. cbn. auto.
  - destruct (find_name nrm l n) as [j|]; cbn; intros H; [injection H as <-|discriminate]. cbn. auto.
Qed.

Lemma find_lt l n c : find_name nrm l n = Some c -> c < length l.
Proof. intros H. destruct (find_spec _ _ H) as (m & E & _). apply nth_error_Some. congruence. Qed.

Lemma find_same l n n' c : find_name nrm l n = Some c -> find_name nrm l n' = Some c -> nrm n = nrm n'.
Proof.
  intros H H'. destruct (find_spec _ _ H) as (m & E & F). destruct (find_spec _ _ H') as (m' & E' & F'). congruence.
Qed.

Lemma find_app l m n : find_name nrm (l ++ [Some m]) n =
  match find_name nrm l n with
  | Some c => Some c
  | None => if str_dec (nrm n) (nrm m) then Some (length l) else None
  end.
Proof.
  induction l as [|[x|] l IH]; cbn.
  - destruct (str_dec (nrm n) (nrm m)); reflexivity.
  - destruct (str_dec (nrm n) (nrm x)); auto. rewrite IH. destruct (find_name nrm l n); auto.
    destruct (str_dec (nrm n) (nrm m)); reflexivity.
  - rewrite IH. destruct (find_name nrm l n); auto. destruct (str_dec (nrm n) (nrm m)); reflexivity.
Qed.

(** Every row has one place per column. *)
Definition wf (T : tab) : Prop := forall row, In row (cells T) -> length row = length (names T).

Lemma wf_abs t : wf (abs t).
Proof.
  intros row. cbn. rewrite in_map_iff. intros (r & <- & _). unfold rowvals. now rewrite !map_length.
Qed.

Lemma put_cell_names T r c v : names (put_cell T r c v) = names T.
Proof. unfold put_cell. destruct (nth_error (cells T) r); reflexivity. Qed.
Lemma put_cell_len T r c v : length (cells (put_cell T r c v)) = length (cells T).
Proof. unfold put_cell. destruct (nth_error (cells T) r); cbn; rewrite ?length_upd; reflexivity. Qed.

Lemma put_cell_nth T r c v r' c' : wf T -> r < length (cells T) -> c < length (names T) ->
  nth c' (nth r' (cells (put_cell T r c v)) []) None =
  if (r' =? r) && (c' =? c) then v else nth c' (nth r' (cells T) []) None.
Proof.
  intros W R C. unfold put_cell. destruct (nth_error (cells T) r) as [row|] eqn:E.
  2:{ apply nth_error_None in E. lia. }
  cbn [cells]. rewrite nth_upd. destruct (Nat.eqb_spec r' r) as [->|D]; cbn [andb]; auto.
  destruct (Nat.ltb_spec r (length (cells T))); [|lia]. rewrite nth_upd.
  rewrite (W row) by (eapply nth_error_In; eauto). destruct (Nat.ltb_spec c (length (names T))); [|lia].
  rewrite andb_true_r. destruct (c' =? c); auto. now rewrite (nth_error_nth _ _ _ E).
Qed.

Lemma put_col_end T n : empty_name n = false ->
  put_col T (length (names T)) n = Tab (names T ++ [Some n]) (map (insert_at (length (names T)) None) (cells T)).
Proof. intros E. unfold put_col. now rewrite E, insert_at_end. Qed.

(** Setting a cell by name, columns being added. *)
Lemma set_value T r n v : wf T -> r < length (cells T) -> n <> [] ->
  let T' := fst (s_cell_set nrm T r n v IAdd) in
  names T' = union_names nrm (names T) [Some n] /\ length (cells T') = length (cells T) /\
  forall r' n', value nrm T' r' n' = if (r' =? r) && (if str_dec (nrm n') (nrm n) then true else false) then v else value nrm T r' n'.
Proof.
  intros W R NE. unfold s_cell_set. destruct (Nat.ltb_spec r (length (cells T))); [|lia]. cbn [negb orb].
  assert (En : empty_name n = false) by (destruct n; [congruence|reflexivity]). rewrite En. cbn [union_names text].
  destruct (find_name nrm (names T) n) as [c|] eqn:F; cbn [fst given].
  - rewrite put_cell_names, put_cell_len. split; auto. split; auto. intros r' n'. unfold value. rewrite put_cell_names.
    pose proof (find_lt _ _ F). destruct (find_name nrm (names T) n') as [c'|] eqn:F'.
    + rewrite put_cell_nth by auto. destruct (r' =? r); cbn [andb]; auto.
      destruct (Nat.eqb_spec c' c) as [->|D]; destruct (str_dec (nrm n') (nrm n)) as [E|E]; auto.
      * destruct E. eapply find_same; eauto.
      * rewrite (find_nrm _ E) in F'. congruence.
    + destruct (str_dec (nrm n') (nrm n)) as [E|E]; [rewrite (find_nrm _ E) in F'; congruence|]. now rewrite andb_false_r.
  - rewrite put_col_end by auto. set (T1 := Tab _ _).
    assert (W1 : wf T1).
    { intros row. cbn. rewrite in_map_iff. intros (x & <- & Hx). rewrite <- (W x Hx), insert_at_end, !app_length, (W x Hx). reflexivity. }
    rewrite put_cell_names, put_cell_len. split; auto. split; [cbn; apply map_length|].
    intros r' n'. unfold value. rewrite put_cell_names. cbn [T1 names]. rewrite find_app.
    assert (R1 : r < length (cells T1)) by (cbn; rewrite map_length; auto).
    assert (C1 : length (names T) < length (names T1)) by (cbn; rewrite app_length; cbn; lia).
    assert (OLD : forall c', c' < length (names T) -> nth c' (nth r' (cells T1) []) None = nth c' (nth r' (cells T) []) None).
    { intros c' Hc. cbn [T1 cells]. destruct (nth_error (cells T) r') as [row|] eqn:E.
      - rewrite (nth_error_nth (cells T) r' [] E), (nth_map_error (insert_at (length (names T)) None) (cells T) r' [] E).
        rewrite <- (W row) by (eapply nth_error_In; eauto). rewrite insert_at_end. apply app_nth1.
        rewrite (W row); auto. eapply nth_error_In; eauto.
      - apply nth_error_None in E. rewrite !(nth_overflow _ [] (n := r')); auto. now rewrite map_length. }
    destruct (find_name nrm (names T) n') as [c'|] eqn:F'.
    + pose proof (find_lt _ _ F'). rewrite put_cell_nth by auto. rewrite OLD by auto.
      destruct (Nat.eqb_spec c' (length (names T))); [lia|]. rewrite andb_false_r.
      destruct (str_dec (nrm n') (nrm n)) as [E|E]; [rewrite (find_nrm _ E) in F'; congruence|]. now rewrite andb_false_r.
    + destruct (str_dec (nrm n') (nrm n)) as [E|E]; [|now rewrite andb_false_r].
      rewrite put_cell_nth by auto. rewrite Nat.eqb_refl. destruct (r' =? r); cbn [andb]; auto.
      destruct (nth_error (cells T) r') as [row|] eqn:G.
      * cbn [T1 cells]. rewrite (nth_map_error (insert_at (length (names T)) None) (cells T) r' [] G).
        rewrite <- (W row) by (eapply nth_error_In; eauto). rewrite insert_at_end, app_nth2 by lia. now rewrite Nat.sub_diag.
      * apply nth_error_None in G. cbn [T1 cells]. rewrite (nth_overflow _ [] (n := r')) by (now rewrite map_length).
        now destruct (length (names T)).
Qed.

Lemma union_app l a b : union_names nrm l (a ++ b) = union_names nrm (union_names nrm l a) b.
Proof. revert l; induction a as [|m a IH]; intros l; cbn; auto. Qed.

Lemma find_union_old l a n : given (find_name nrm l n) = true -> given (find_name nrm (union_names nrm l a) n) = true.
Proof.
  revert l; induction a as [|m a IH]; intros l H; cbn; auto. apply IH.
  destruct (given (find_name nrm l (text m))); auto. destruct m as [m|].
  - rewrite find_app. destruct (find_name nrm l n); [reflexivity|discriminate].
  - destruct (find_name nrm l n) as [c|] eqn:E; [|discriminate]. clear H IH. revert c E.
    induction l as [|[x|] l IH]; cbn; intros c; [discriminate| |].
    + destruct (str_dec (nrm n) (nrm x)); auto. destruct (find_name nrm l n) as [j|]; cbn; [|discriminate]. intros _.
      specialize (IH j eq_refl). destruct (find_name nrm (l ++ [None]) n); auto.
    + destruct (find_name nrm l n) as [j|]; cbn; [|discriminate]. intros _.
      specialize (IH j eq_refl). destruct (find_name nrm (l ++ [None]) n); auto.
Qed.

Lemma union_has l a m : In (Some m) a -> given (find_name nrm (union_names nrm l a) m) = true.
Proof.
  revert l; induction a as [|x a IH]; intros l; cbn; [tauto|]. intros [->|H]; [|auto]. cbn [text].
  apply find_union_old. destruct (given (find_name nrm l m)) eqn:E; auto. rewrite find_app.
  destruct (find_name nrm l m); auto. destruct (str_dec (nrm m) (nrm m)); [reflexivity|congruence].
Qed.

Lemma union_stable l a : (forall x, In x a -> exists m, x = Some m /\ given (find_name nrm l m) = true) -> union_names nrm l a = l.
Proof.
  induction a as [|x a IH]; intros H; cbn; auto. destruct (H x (or_introl eq_refl)) as (m & -> & E).
  cbn [text]. rewrite E. apply IH. intros y Hy. apply H. cbn; auto.
Qed.

Definition named (T : tab) : Prop := forall x, In x (names T) -> exists m, x = Some m /\ m <> [].

(** The inner loop. *)
Lemma merge_cols_ok src i rowidx k : Inv nrm src -> named (abs src) ->
  forall n d j, Inv nrm d -> n + j = length (co src) -> rowidx < length (ro d) -> n + k <= length (rnd d) ->
  exists d', merge_cols nrm n d src rowidx i j = Ok d' /\ Inv nrm d' /\ k <= length (rnd d') /\ length (ro d') = length (ro d) /\
    names (abs d') = union_names nrm (names (abs d)) (skipn j (names (abs src))) /\
    forall r' n', value nrm (abs d') r' n' =
      if r' =? rowidx then
        match find_name nrm (skipn j (names (abs src))) n' with
        | Some q => cell_at src i (j + q)
        | None => value nrm (abs d) r' n'
        end
      else value nrm (abs d) r' n'.
Proof.
  intros IS NM. induction n as [|n IH]; intros d j ID E R L.
  - exists d. rewrite (skipn_all2 (n := j)) by (rewrite names_len; lia). cbn [merge_cols union_names find_name].
    repeat (split; auto). intros r' n'. destruct (r' =? rowidx); reflexivity.
  - cbn [merge_cols].
    destruct (nth_error (names (abs src)) j) as [x|] eqn:X.
    2:{ apply nth_error_None in X. rewrite names_len in X. lia. }
    destruct (NM x (nth_error_In _ _ X)) as (m & -> & NE).
    assert (CN : column_name src j = Some m) by (rewrite column_name_ok; now apply nth_error_nth).
    rewrite CN. cbn [orempty].
    destruct (@cell_set_ok nrm nrm_nil d rowidx m (cell_at src i j) IAdd (n + k) ID) as (d1 & b & E1 & I1 & L1 & Q); [lia|].
    rewrite E1. cbn [bind].
    assert (RT : rowidx < length (cells (abs d))) by (rewrite cells_len; auto).
    pose proof (set_value (cell_at src i j) (wf_abs d) RT NE) as V. rewrite <- Q in V. cbn [fst] in V.
    destruct V as (V1 & V2 & V3). rewrite !cells_len in V2.
    destruct (IH d1 (S j) I1) as (d' & E' & I' & L' & R' & N' & VV); [lia|rewrite V2; auto|lia|].
    exists d'. split; auto. split; auto. split; auto. split; [congruence|].
    assert (SK : skipn j (names (abs src)) = Some m :: skipn (S j) (names (abs src))).
    { rewrite (split_at _ _ X) at 1. rewrite skipn_app, firstn_length_le by (rewrite names_len; lia).
      rewrite skipn_all2 by (rewrite firstn_length; lia). rewrite Nat.sub_diag. reflexivity. }
    split.
    { rewrite N', V1, SK. reflexivity. }
    intros r' n'. rewrite VV, V3, SK. cbn [find_name]. destruct (r' =? rowidx) eqn:RR; cbn [andb]; auto.
    destruct (str_dec (nrm n') (nrm m)) as [D|D].
    + destruct (find_name nrm (skipn (S j) (names (abs src))) n') as [q|] eqn:F.
      2:{ now rewrite Nat.add_0_r. }
      exfalso. destruct (find_spec _ _ F) as (m' & F1 & F2).
      assert (P1 : nth_error (names (abs src)) (S j + q) = Some (Some m')).
      { rewrite <- (firstn_skipn (S j) (names (abs src))), nth_error_app2; rewrite firstn_length_le by (rewrite names_len; lia); [|lia].
        rewrite <- F1. f_equal. lia. }
      cbn [abs names] in X, P1. rewrite nth_error_map in X, P1.
      destruct (nth_error (co src) j) as [c1|] eqn:C1; [|discriminate].
      destruct (nth_error (co src) (S j + q)) as [c2|] eqn:C2; [|discriminate].
      cbn in X, P1. injection X as X. injection P1 as P1.
      assert (A1 : nget (cni src) (nrm n') = Some c1) by (apply (i_name IS); split; [eapply nth_error_In; eauto|eauto]).
      assert (A2 : nget (cni src) (nrm n') = Some c2) by (apply (i_name IS); split; [eapply nth_error_In; eauto|eauto]).
      assert (S j + q = j); [|lia]. apply (proj1 (NoDup_nth_error (co src)) (i_co IS)).
      * apply nth_error_Some. congruence.
      * congruence.
    + destruct (find_name nrm (skipn (S j) (names (abs src))) n') as [q|]; cbn [option_map]; auto. f_equal. lia.
Qed.

Lemma value_src src i n : value nrm (abs src) i n =
  match find_name nrm (names (abs src)) n with Some q => cell_at src i q | None => None end.
Proof. unfold value. destruct (find_name nrm (names (abs src)) n); auto. now rewrite cell_at_ok. Qed.

Lemma merge_rows_ok src k : Inv nrm src -> named (abs src) ->
  forall n d i, Inv nrm d -> n + i = length (ro src) -> n * S (length (co src)) + k <= length (rnd d) ->
  exists d', merge_rows nrm n d src i = Ok d' /\ Inv nrm d' /\ k <= length (rnd d') /\ length (ro d') = length (ro d) + n /\
    names (abs d') = (if n =? 0 then names (abs d) else union_names nrm (names (abs d)) (names (abs src))) /\
    (forall r' n', r' < length (ro d) -> value nrm (abs d') r' n' = value nrm (abs d) r' n') /\
    (forall q n', q < n -> value nrm (abs d') (length (ro d) + q) n' = value nrm (abs src) (i + q) n').
Proof.
  intros IS NM. induction n as [|n IH]; intros d i ID E L.
  - exists d. cbn. repeat (split; auto); intros; lia.
  - cbn [merge_rows]. cbn [Nat.mul] in L.
    assert (LL : S (length (co src) + (n * S (length (co src)) + k)) <= length (rnd d)) by lia.
    destruct (row_insert_ok nrm_nil ID LL (le_n (length (ro d)))) as (id & r & RN & E1 & FR & I1 & L1).
    unfold row_insert_at. rewrite E1. cbn [bind]. set (d1 := Table _ _ _ _ _ _) in *.
    assert (R1 : length (ro d1) = S (length (ro d))).
    { cbn. rewrite insert_at_end, app_length. cbn. lia. }
    assert (A1 : abs d1 = put_row (abs d) (length (ro d)) (blank (abs d))) by (eapply row_insert_abs; eauto).
    destruct (@merge_cols_ok src i (length (ro d)) (n * S (length (co src)) + k) IS NM (length (co src)) d1 0 I1) as
      (d2 & E2 & I2 & L2 & R2 & N2 & V2); [lia|lia|exact L1|].
    rewrite E2. cbn [bind].
    destruct (IH d2 (S i) I2) as (d3 & E3 & I3 & L3 & R3 & N3 & V3 & W3); [lia|lia|].
    exists d3. split; auto. split; auto. split; auto. split; [lia|].
    assert (V1 : forall r' n', r' < length (ro d) -> value nrm (abs d1) r' n' = value nrm (abs d) r' n').
    { intros r' n' H. unfold value. rewrite A1. cbn [put_row names cells].
      rewrite <- (cells_len d), insert_at_end, app_nth1 by (rewrite cells_len; auto). reflexivity. }
    assert (VB : forall n', value nrm (abs d1) (length (ro d)) n' = None).
    { intros n'. unfold value. rewrite A1. cbn [put_row names cells].
      rewrite <- (cells_len d), insert_at_end, app_nth2, Nat.sub_diag by lia. cbn [nth].
      destruct (find_name nrm (names (abs d)) n'); auto. unfold blank. generalize (names (abs d)), n0. clear.
      induction l as [|x l IH]; intros [|q]; cbn; auto. }
    rewrite skipn_O in N2, V2. split; [|split].
    + cbn [Nat.eqb]. rewrite N3, N2. change (names (abs d1)) with (names (abs d)). destruct (n =? 0); auto.
      apply union_stable. intros x Hx. destruct (NM x Hx) as (m & -> & _). exists m. split; auto. apply union_has; auto.
    + intros r' n' H. rewrite V3 by lia. rewrite V2. destruct (Nat.eqb_spec r' (length (ro d))); [lia|]. auto.
    + intros [|q] n' H.
      * rewrite !Nat.add_0_r. rewrite V3 by lia. rewrite V2, Nat.eqb_refl, (value_src src), VB. reflexivity.
      * replace (length (ro d) + S q) with (length (ro d2) + q) by lia. rewrite W3 by lia. f_equal. lia.
Qed.

Lemma all_named_spec t : Inv nrm t -> all_named t = true <-> named (abs t).
Proof.
  intros I. unfold all_named. rewrite forallb_forall. split.
  - intros H x Hx. apply In_nth_error in Hx. destruct Hx as [i Hi].
    assert (B : i < length (co t)) by (rewrite <- names_len; apply nth_error_Some; congruence).
    specialize (H i). rewrite column_name_ok, (nth_error_nth _ _ _ Hi) in H.
    specialize (H ltac:(apply in_seq; lia)). destruct x as [m|]; [|discriminate].
    exists m. split; auto. intros ->. discriminate.
  - intros H i Hi. apply in_seq in Hi. rewrite column_name_ok.
    destruct (nth_error (names (abs t)) i) as [x|] eqn:E.
    + rewrite (nth_error_nth _ _ _ E). destruct (H x (nth_error_In _ _ E)) as (m & -> & NE). destruct m; [congruence|reflexivity].
    + apply nth_error_None in E. rewrite names_len in E. lia.
Qed.

Lemma merge_ok dest src k : Inv nrm dest -> Inv nrm src ->
  length (ro src) * S (length (co src)) + k <= length (rnd dest) ->
  exists d b, merge nrm dest src = Ok (d, b) /\ Inv nrm d /\ k <= length (rnd d) /\
    (b = true <-> named (abs dest) /\ named (abs src)) /\
    (if b then merged nrm (abs dest) (abs src) (abs d) else d = dest).
Proof.
  intros ID IS L. unfold merge.
  pose proof (all_named_spec ID) as A1. pose proof (all_named_spec IS) as A2.
  destruct (all_named dest); cbn [negb].
  2:{ exists dest, false. repeat (split; auto); try discriminate; [lia|]. intros [H _]. apply A1 in H. discriminate. }
  destruct (all_named src); cbn [negb].
  2:{ exists dest, false. repeat (split; auto); try discriminate; [lia|]. intros [_ H]. apply A2 in H. discriminate. }
  destruct (@merge_rows_ok src k IS (proj1 A2 eq_refl) (length (ro src)) dest 0 ID) as (d & E & I & L' & R & N1 & V & W); [lia|auto|].
  rewrite E. cbn [bind]. exists d, true. split; auto. split; auto. split; auto.
  split; [tauto|]. split.
  - rewrite N1. cbn [abs cells]. destruct (ro src); reflexivity.
  - rewrite !cells_len. auto.
Qed.
End M.

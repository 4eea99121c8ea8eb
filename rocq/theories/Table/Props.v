(** C95-C97: tables. *)
From Verif Require Import Base.Lib Sort.Spec.
From Verif Require Import Table.Model Table.Spec Table.Proofs Table.Merge.
Open Scope nat_scope.

Lemma nrm_of_nil cc m : nrm_of cc m = nrm_of cc [] -> m = [].
Proof. destruct cc, m; cbn; congruence. Qed.

Lemma shows_abs cc t : Inv (nrm_of cc) t -> shows (nrm_of cc) t (abs t).
Proof.
  intros I. unfold shows. rewrite names_len, cells_len. split; auto. split; auto. split; [rewrite <- names_len; exact (wf_abs t)|].
  split; [apply column_name_ok|]. split; [apply cell_at_ok|]. split; [intros; now apply column_idx_ok|].
  intros r n. apply cell_ok; auto. apply nrm_of_nil.
Qed.

(** C95. Every sequence of covered calls on a new table, with names compared
    either way: the calls return and leave what the list of columns and rows
    says, provided the random ids do not repeat. [covered] excludes renaming
    a column that has a name and naming two columns alike, for which the
    claim is false (below). *)
Theorem table_refines_partial : forall cc draws ops,
  NoDup draws -> cost ops <= length draws -> covered (nrm_of cc) (Tab [] []) ops ->
  exists t xs T, run (nrm_of cc) (create draws) ops = Ok (t, xs) /\
    steps (nrm_of cc) (Tab [] []) ops xs T /\ shows (nrm_of cc) t T.
Proof.
  intros cc draws ops ND L C.
  destruct (@run_ok (nrm_of cc) (@nrm_of_nil cc) ops (create draws) 0) as (t & xs & E & I & _ & S).
  - now apply inv_create.
  - exact C.
  - cbn. lia.
  - exists t, xs, (abs t). split; auto. split; [exact S|]. now apply shows_abs.
Qed.
Print Assumptions table_refines_partial.

Definition A := 65%N. Definition B := 66%N. Definition a := 97%N.

(** Two columns, a row from a dictionary that adds a third one, an unnamed
    column, cells set by name (other case) and by position, a column and the
    empty rows removed. *)
Definition ex_ops : list op :=
  [OColInsert 0 [A]; OColInsert 0 [B]; ORowInsertDict 0 [([A], [49%N]); ([a; a], [50%N])] IAdd;
   OColInsert 1 []; ORowInsert 0; ORowInsert 2; OCellSet 2 [a] (Some [51%N]) INone;
   OColRemove [B]; OCellSetAt 2 0 (Some []); ORowRemoveEmpty; OColRemoveEmpty].
Definition ex_draws : list N := map N.of_nat (seq 1 40).
Example ex_covered : NoDup ex_draws /\ cost ex_ops <= length ex_draws /\ covered (nrm_of true) (Tab [] []) ex_ops.
Proof.
  split; [|split; [vm_compute; lia|]].
  - unfold ex_draws. apply FinFun.Injective_map_NoDup; [intros x y H; lia | apply seq_NoDup].
  - cbn; repeat split.
Qed.
Example ex_run : exists t, run (nrm_of true) (create ex_draws) ex_ops =
    Ok (t, [OB true; OB true; OB true; OB true; OB true; OB true; OB true; OV; OB true; OC 1; OC 0]) /\
  abs t = Tab [None; Some [A]; Some [a; a]] [[None; Some [49%N]; Some [50%N]]; [Some []; Some [51%N]; None]].
Proof. eexists. split; vm_compute; reflexivity. Qed.

(** C95, renaming: the old name still finds the column, and keeps a new column
    from being given that name; a cleared name still finds the column. *)
Theorem table_rename_refuted :
  exists t xs, run (nrm_of false) (create ex_draws) [OColInsert 0 [A]; OSetName 0 [B]; OColInsert 1 [A]] = Ok (t, xs) /\
    xs = [OB true; OB true; OB false] /\ column_name t 0 = Some [B] /\ length (co t) = 1 /\
    column_idx (nrm_of false) t [A] = Some 0 /\
  exists t' xs', run (nrm_of false) (create ex_draws) [OColInsert 0 [A]; OSetName 0 []] = Ok (t', xs') /\
    xs' = [OB true; OB true] /\ column_name t' 0 = None /\ column_idx (nrm_of false) t' [A] = Some 0.
Proof.
  eexists; eexists. split; [vm_compute; reflexivity|]. split; [reflexivity|]. split; [vm_compute; reflexivity|].
  split; [reflexivity|]. split; [vm_compute; reflexivity|].
  eexists; eexists. split; [vm_compute; reflexivity|]. split; [reflexivity|]. split; vm_compute; reflexivity.
Qed.
Print Assumptions table_rename_refuted.

(** C95, two columns given one name: removing one of them leaves a column of
    that name which the name does not find. *)
Theorem table_same_name_refuted :
  exists t xs, run (nrm_of false) (create ex_draws) [OColInsert 0 [A]; OColInsert 1 [B]; OSetName 1 [A]; OColRemoveAt 0] = Ok (t, xs) /\
    nth_error xs 2 = Some (OB true) /\ length (co t) = 1 /\ column_name t 0 = Some [A] /\ column_idx (nrm_of false) t [A] = None.
Proof.
  eexists; eexists. split; [vm_compute; reflexivity|]. repeat split.
Qed.
Print Assumptions table_same_name_refuted.

(** C95, ids: a repeated draw gives two rows one id, since the ids of rows
    without values are not looked at; a value set in one row then shows in
    the other. *)
Theorem table_id_refuted :
  exists t xs, run (nrm_of false) (create [1; 7; 7]%N) [OColInsert 0 [A]; ORowInsert 0; ORowInsert 1; OCellSet 0 [A] (Some [B]) INone] = Ok (t, xs) /\
    cell (nrm_of false) t 0 [A] = Some [B] /\ cell (nrm_of false) t 1 [A] = Some [B].
Proof. eexists; eexists. split; [vm_compute; reflexivity|]. split; reflexivity. Qed.
Print Assumptions table_id_refuted.

(** C95, ids: what the code does look at. A draw other than 0 that is the id
    of a column with a name, or of a row values were set in, is thrown away
    and the next one taken: the call does what it does without that draw.
    With table_id_refuted, these are all the draws that are checked. *)
Definition with_draws (t : table) (d : list N) : table := Table (co t) (cin t) (cni t) (ro t) (rws t) d.
Theorem table_id_redrawn_partial : forall cc t i id r n, id <> 0%N ->
  (forall j m, nth_error (co t) j = Some id -> column_name t j = Some m ->
     column_insert_at (nrm_of cc) (with_draws t (id :: r)) i n = column_insert_at (nrm_of cc) (with_draws t r) i n \/
     column_insert_at (nrm_of cc) (with_draws t (id :: r)) i n = Ok (with_draws t (id :: r), false) /\
     column_insert_at (nrm_of cc) (with_draws t r) i n = Ok (with_draws t r, false)) /\
  (forall j c v, nth_error (ro t) j = Some id -> cell_at t j c = Some v ->
     row_insert_at (with_draws t (id :: r)) i = row_insert_at (with_draws t r) i \/
     row_insert_at (with_draws t (id :: r)) i = Ok (with_draws t (id :: r), false) /\
     row_insert_at (with_draws t r) i = Ok (with_draws t r, false)).
Proof.
  intros cc t i id r n Z. apply N.eqb_neq in Z. split.
  - intros j m J M. unfold column_name in M. rewrite J in M.
    unfold column_insert_at, column_insert_at_int, col_of. cbn [with_draws co cin cni ro rws rnd gen_id].
    rewrite M, Z. cbn [negb andb has].
    destruct (length (co t) <? i); [right; split; reflexivity|].
    destruct (negb (is_nil n) && has (nget (cni t) (nrm_of cc n))); [right; split; reflexivity|].
    left. reflexivity.
  - intros j c v J V. unfold cell_at in V. rewrite J in V.
    assert (H : has (iget (rws t) id) = true).
    { destruct (nth_error (co t) c); [|discriminate]. unfold cell_get_int in V.
      destruct (iget (rws t) id); [reflexivity|discriminate]. }
    unfold row_insert_at, row_insert_at_int. cbn [with_draws co cin cni ro rws rnd gen_id].
    rewrite H, Z. cbn [negb andb].
    destruct (length (ro t) <? i); [right; split; reflexivity|left; reflexivity].
Qed.
Print Assumptions table_id_redrawn_partial.
Example ex_redrawn : exists t xs,
  run (nrm_of false) (create [5; 5; 6; 7; 7; 8]%N)
    [OColInsert 0 [A]; OColInsert 1 [B]; ORowInsert 0; OCellSet 0 [A] (Some [B]) INone; ORowInsert 1] = Ok (t, xs) /\
  co t = [5; 6]%N /\ ro t = [7; 8]%N.
Proof. eexists; eexists. split; [vm_compute; reflexivity|]. split; reflexivity. Qed.

(** A table some covered calls have led to, with [k] draws left. *)
Definition reached (cc : bool) (k : nat) (t : table) : Prop :=
  exists draws ops xs, NoDup draws /\ cost ops + k <= length draws /\
    covered (nrm_of cc) (Tab [] []) ops /\ run (nrm_of cc) (create draws) ops = Ok (t, xs).

Lemma reached_inv cc k t : reached cc k t -> Inv (nrm_of cc) t /\ k <= length (rnd t).
Proof.
  intros (draws & ops & xs & ND & L & C & R).
  destruct (@run_ok (nrm_of cc) (@nrm_of_nil cc) ops (create draws) k) as (t' & xs' & E & I & K & S).
  - now apply inv_create.
  - exact C.
  - exact L.
  - rewrite R in E. injection E as <- <-. auto.
Qed.

(** C96. Sorting by a column that exists, then by a second one: the rows are
    reordered and sorted; no other effect. *)
Theorem table_sort : forall cc k t n cmp c, reached cc k t -> total_preorder cmp ->
  column_idx (nrm_of cc) t n = Some c -> forall n2 cmp2 c2, n2 <> [] -> total_preorder cmp2 ->
  column_idx (nrm_of cc) t n2 = Some c2 ->
  exists T t' T' t'' T'', shows (nrm_of cc) t T /\
    sort_data (nrm_of cc) t n cmp [] None = Ok t' /\ shows (nrm_of cc) t' T' /\
    rows_sorted T T' (row_cmp c cmp None) /\
    sort_data (nrm_of cc) t n cmp n2 (Some cmp2) = Ok t'' /\ shows (nrm_of cc) t'' T'' /\
    rows_sorted T T'' (row_cmp c cmp (Some (c2, cmp2))).
Proof.
  intros cc k t n cmp c RE P F n2 cmp2 c2 NE P2 F2. destruct (reached_inv _ _ _ RE) as [I L].
  rewrite column_idx_ok in F by auto. rewrite column_idx_ok in F2 by auto.
  assert (E2 : empty_name n2 = false) by (destruct n2; [congruence|reflexivity]).
  destruct (@apply_ok _ (@nrm_of_nil cc) t (OSort n cmp [] None) 0 I) as (t' & x' & E' & I' & _ & S');
    [split; auto|cbn; lia|].
  destruct (@apply_ok _ (@nrm_of_nil cc) t (OSort n cmp n2 (Some cmp2)) 0 I) as (t'' & x'' & E'' & I'' & _ & S'');
    [split; auto|cbn; lia|].
  cbn [apply] in E', E''. unfold retv in E', E''.
  apply bind_ok in E'. destruct E' as (u' & E' & U'). injection U' as -> <-.
  apply bind_ok in E''. destruct E'' as (u'' & E'' & U''). injection U'' as -> <-.
  cbn [step] in S', S''. rewrite F in S', S''. rewrite F2 in S''. destruct S' as [_ S'], S'' as [_ S''].
  exists (abs t), t', (abs t'), t'', (abs t''). split; [now apply shows_abs|]. split; auto. split; [now apply shows_abs|].
  split; [exact S'|]. split; auto. split; [now apply shows_abs|exact S''].
Qed.
Print Assumptions table_sort.

Definition len_cmp (x y : str) : Z := (Z.of_nat (length x) - Z.of_nat (length y))%Z.
Definition sort_ops : list op :=
  [OColInsert 0 [A]; OColInsert 1 [B];
   ORowInsertDict 0 [([A], [49; 49]%N); ([B], [1]%N)] INone; ORowInsertDict 1 [([A], [50%N]); ([B], [1; 2]%N)] INone;
   ORowInsertDict 2 [([A], [51%N])] INone].
Example ex_sort : total_preorder len_cmp /\ exists t xs, run (nrm_of false) (create ex_draws) sort_ops = Ok (t, xs) /\
  column_idx (nrm_of false) t [A] = Some 0 /\ column_idx (nrm_of false) t [B] = Some 1 /\
  exists t', sort_data (nrm_of false) t [A] len_cmp [B] (Some len_cmp) = Ok t' /\
    cells (abs t') = [[Some [51%N]; None]; [Some [50%N]; Some [1; 2]%N]; [Some [49; 49]%N; Some [1]%N]].
Proof.
  split; [split; unfold len_cmp; intros; lia|].
  eexists; eexists. split; [vm_compute; reflexivity|]. split; [vm_compute; reflexivity|]. split; [vm_compute; reflexivity|].
  eexists. split; vm_compute; reflexivity.
Qed.

(** C96, by position: M_table_column_sort_data_at does nothing for any
    position of a column. *)
Theorem table_sort_at_refuted : (forall t idx idx2 cmp cmp2, idx < length (co t) -> sort_data_at t idx cmp idx2 cmp2 = Ok t) /\
  exists t xs, run (nrm_of false) (create ex_draws) sort_ops = Ok (t, xs) /\
    length (co t) = 2 /\ sort_data_at t 0 len_cmp 1 None = Ok t /\ ~ sorted (row_cmp 0 len_cmp None) (cells (abs t)).
Proof.
  split.
  - intros t idx idx2 cmp cmp2 H. unfold sort_data_at. destruct (Nat.leb_spec idx (length (co t))); [reflexivity|lia].
  - eexists; eexists. split; [vm_compute; reflexivity|]. split; [reflexivity|]. split; [reflexivity|].
    intros S. apply StronglySorted_inv in S. destruct S as [_ S]. apply Forall_inv in S. vm_compute in S. congruence.
Qed.
Print Assumptions table_sort_at_refuted.

(** C97. Merging succeeds exactly if all columns of both tables are named, and
    then gives the columns and rows of both. *)
Theorem table_merge : forall cc k1 k2 dest src, reached cc k1 dest -> reached cc k2 src ->
  length (ro src) * S (length (co src)) <= k1 ->
  exists D S d b R, shows (nrm_of cc) dest D /\ shows (nrm_of cc) src S /\
    merge (nrm_of cc) dest src = Ok (d, b) /\ shows (nrm_of cc) d R /\
    (b = true <-> forall x, In x (names D) \/ In x (names S) -> exists m, x = Some m /\ m <> []) /\
    (if b then merged (nrm_of cc) D S R else d = dest).
Proof.
  intros cc k1 k2 dest src R1 R2 L. destruct (reached_inv _ _ _ R1) as [I1 L1]. destruct (reached_inv _ _ _ R2) as [I2 L2].
  destruct (@merge_ok (nrm_of cc) (@nrm_of_nil cc) dest src 0 I1 I2) as (d & b & E & I & _ & N1 & M); [lia|].
  exists (abs dest), (abs src), d, b, (abs d). split; [now apply shows_abs|]. split; [now apply shows_abs|].
  split; auto. split; [now apply shows_abs|]. split; [|exact M].
  rewrite N1. unfold named. split; [intros [H1 H2] x [H|H]; auto | intros H; split; intros x Hx; apply H; auto].
Qed.
Print Assumptions table_merge.

Definition src_ops : list op :=
  [OColInsert 0 [a; a]; OColInsert 1 [a]; ORowInsertDict 0 [([a], [52%N]); ([a; a], [53%N])] INone; ORowInsert 1].
Example ex_merge : exists t1 x1 t2 x2 d,
  run (nrm_of true) (create ex_draws) sort_ops = Ok (t1, x1) /\ run (nrm_of true) (create ex_draws) src_ops = Ok (t2, x2) /\
  length (ro t2) * S (length (co t2)) + cost sort_ops <= length ex_draws /\
  merge (nrm_of true) t1 t2 = Ok (d, true) /\
  abs d = Tab [Some [A]; Some [B]; Some [a; a]]
    [[Some [49; 49]%N; Some [1]%N; None]; [Some [50]%N; Some [1; 2]%N; None]; [Some [51]%N; None; None];
     [Some [52]%N; None; Some [53]%N]; [None; None; None]].
Proof.
  eexists; eexists; eexists; eexists; eexists. split; [vm_compute; reflexivity|]. split; [vm_compute; reflexivity|].
  split; [vm_compute; lia|]. split; vm_compute; reflexivity.
Qed.

(** C97: one would expect the columns of a table without rows too. *)
Theorem table_merge_columns_refuted : exists t1 x1 t2 x2 d,
  run (nrm_of false) (create ex_draws) [OColInsert 0 [A]] = Ok (t1, x1) /\
  run (nrm_of false) (create ex_draws) [OColInsert 0 [B]] = Ok (t2, x2) /\
  merge (nrm_of false) t1 t2 = Ok (d, true) /\ column_idx (nrm_of false) d [B] = None.
Proof.
  eexists; eexists; eexists; eexists; eexists. split; [vm_compute; reflexivity|]. split; [vm_compute; reflexivity|].
  split; vm_compute; reflexivity.
Qed.
Print Assumptions table_merge_columns_refuted.

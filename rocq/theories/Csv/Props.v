(** * CSV: reading and writing (m_csv.c) *)
From Verif Require Import Base.Lib Base.Mem Hex.Model Str.Model Str.Spec Str.Proofs Csv.Model Csv.Spec Csv.Proofs Csv.Scan Csv.Write.
Local Open Scope N_scope.

(** ** C65 *)

(** Reading a well-formed text gives exactly its table: as many rows as lines, as many
    columns as the first line has cells, the delimiters, quotes and line ends inside
    quoted cells being data, short rows filled up with NULL.  Missing: cells of nothing
    but quotes, for which the claim is false, see below. *)
Theorem csv_parse_text_partial delim quote trim t vss : controls delim quote -> Text delim quote trim t vss ->
  Forall (Forall (fun v => ~ only_quotes quote v)) vss ->
  exists c, csv_parse delim quote trim t = Ok (Some c) /\ c_rows c = length vss /\ c_cols c = length (nth 0 vss []) /\
    forall row col, raw_cell c row col = Ok (cell_of vss row col).
Proof.
  intros Ctl Tx F. destruct (csv_parse_ok delim quote Ctl trim t vss (TextQ_of delim quote trim t vss Tx F)) as (c & E & R & C & H).
  exists c. split; auto. split; auto. split; auto. intros row col. unfold cell_of.
  destruct (Nat.ltb_spec row (length vss)) as [Hr|Hr].
  - destruct (Nat.ltb_spec col (length (nth 0 vss []))) as [Hc|Hc]; [now apply H|]. unfold raw_cell. rewrite R, C, (proj2 (Nat.ltb_ge col _)) by lia. rewrite andb_false_r. reflexivity.
  - unfold raw_cell. rewrite R, (proj2 (Nat.ltb_ge row _)) by lia. cbn [andb]. rewrite (nth_overflow vss (n:=row)) by lia. destruct (col <? _)%nat; auto. now destruct col.
Qed.

(** a,"x,""y""\n",<space>b<CRLF>,"" *)
Definition sample : list N := [97; 44; 34; 120; 44; 34; 34; 121; 34; 34; 10; 34; 44; 32; 98; 13; 10; 44; 34; 34].
Definition sample_table : list (list (option (list N))) := [[Some [97]; Some [120; 44; 34; 121; 34; 10]; Some [98]]; [None; Some []]].
Lemma plain_ex c : c <> 0 -> c <> 44 -> c <> 34 -> c <> 10 -> c <> 13 -> plain 44 34 c.
Proof. unfold plain. auto. Qed.
Example csv_sample : Text 44 34 true sample sample_table /\ controls 44 34 /\ Forall (Forall (fun v => ~ only_quotes 34 v)) sample_table.
Proof.
  split; [|split].
  - apply (T_more 44 34 true ([97] ++ 44 :: (34 :: [120; 44; 34; 34; 121; 34; 34; 10] ++ [34]) ++ 44 :: [32; 98]) _ [13; 10] ([] ++ 44 :: (34 :: [] ++ [34]))).
    + apply R_more.
      * apply C_plain; [repeat constructor; discriminate|]. exists [97]. split; [|reflexivity]. exists [], []. split; [reflexivity|]. split; [constructor|]. split; [constructor|].
        split; [intros c t' E; injection E as <- _; unfold is_space; lia|]. intros c [|x t'] E; [injection E as <-; unfold is_space; lia|destruct t'; discriminate E].
      * apply R_more; [apply (C_quoted 44 34 true [120; 44; 34; 121; 34; 10]); repeat constructor; discriminate|]. apply R_one.
        apply C_plain; [repeat constructor; discriminate|]. exists [98]. split; [|reflexivity]. exists [32], []. split; [reflexivity|].
        split; [repeat constructor; unfold is_space; lia|]. split; [constructor|].
        split; [intros c t' E; injection E as <- _; unfold is_space; lia|]. intros c [|x t'] E; [injection E as <-; unfold is_space; lia|destruct t'; discriminate E].
    + now right.
    + apply T_last; [|discriminate]. apply R_more; [|apply R_one, (C_quoted 44 34 true []); constructor].
      apply C_plain; [constructor|]. exists []. split; [|reflexivity]. exists [], []. split; [reflexivity|]. split; [constructor|]. split; [constructor|].
      split; [intros c t' E; discriminate E|]. intros c [|x t'] E; discriminate E.
  - unfold controls. repeat split; discriminate.
  - repeat constructor; intros (n & E); try discriminate E; injection E as E; try discriminate E; destruct n as [|n]; try discriminate E; injection E as E; try discriminate E.
Qed.
Example csv_sample_run : exists c, csv_parse 44 34 true sample = Ok (Some c) /\ c_rows c = 2%nat /\ c_cols c = 3%nat /\
  raw_cell c 0 1 = Ok (Some [120; 44; 34; 121; 34; 10]) /\ raw_cell c 0 2 = Ok (Some [98]) /\ raw_cell c 1 0 = Ok None /\ raw_cell c 1 1 = Ok (Some []) /\ raw_cell c 1 2 = Ok None.
Proof. eexists. split; [vm_compute; reflexivity|]. repeat split; vm_compute; reflexivity. Qed.
Print Assumptions csv_parse_text_partial.

(** A cell that is one quote, written as RFC 4180 has it, """", is read as two quotes. *)
Theorem csv_parse_text_refuted : exists t v, Text 44 34 false t [[Some v]] /\
  exists c w, csv_parse 44 34 false t = Ok (Some c) /\ raw_cell c 0 0 = Ok (Some w) /\ w <> v.
Proof.
  exists [34; 34; 34; 34], [34]. split.
  - apply T_last; [|discriminate]. apply R_one. apply (C_quoted 44 34 false [34]). repeat constructor. discriminate.
  - eexists _, [34; 34]. split; [vm_compute; reflexivity|]. split; [reflexivity|discriminate].
Qed.
Print Assumptions csv_parse_text_refuted.

(** Whatever the bytes, the delimiter and the quote, the reader stays inside its buffer
    and every cell of what it returns can be read. *)
Theorem csv_parse_safe delim quote trim data : csv_parse delim quote trim data = Ok None \/
  exists c, csv_parse delim quote trim data = Ok (Some c) /\ (1 <= c_rows c)%nat /\ (1 <= c_cols c)%nat /\
    forall row col, exists v, raw_cell c row col = Ok v /\ match v with Some s => no_nul s | None => True end.
Proof. apply csv_parse_total. Qed.
Example csv_safe_run : exists c, csv_parse 44 34 true [34; 44; 10; 0; 34; 34; 34] = Ok (Some c) /\ c_rows c = 1%nat.
Proof. eexists. split; vm_compute; reflexivity. Qed.
Print Assumptions csv_parse_safe.

(** Writing a table that was read and reading the result back, possibly with other
    control characters, trimming or not, and only the rows a filter keeps: the same
    header and rows in the same order, cell by cell, except that an empty string comes
    back as NULL.  Missing: tables with a cell of nothing but quotes. *)
Theorem csv_write_read_partial delim quote trim data c : csv_parse delim quote trim data = Ok (Some c) ->
  forall delim' quote' trim' keep, controls delim' quote' -> delim' <> 0 ->
  (forall row col v, raw_cell c row col = Ok v -> ~ only_quotes quote' v) ->
  exists h t c', output_headers delim' quote' [] c = Ok h /\ output_rows delim' quote' keep h c = Ok t /\
    csv_parse delim' quote' trim' t = Ok (Some c') /\ c_cols c' = c_cols c /\
    let rows := 0%nat :: map S (filter keep (seq 0 (c_rows c - 1))) in
    c_rows c' = length rows /\
    forall k row, nth_error rows k = Some row -> forall col, exists v, raw_cell c row col = Ok v /\ raw_cell c' k col = Ok (null_if_empty v).
Proof.
  intros P delim' quote' trim' keep Ctl Dz NO. destruct (csv_parse_total delim quote trim data) as [E|(c0 & E & R1 & C1 & Rd)]; [rewrite P in E; discriminate E|].
  assert (c0 = c) by congruence. subst c0. clear E P.
  destruct (add_row_ok delim' quote' Ctl Dz trim' c 0 [] Rd C1) as (t0 & E0 & Rw0). cbn [app] in E0.
  destruct (output_rows_ok delim' quote' Ctl Dz trim' c keep Rd C1 (c_rows c - 1) 0 [] t0 _ Rw0) as (t & Et & Tx). cbn [app] in Et.
  exists (t0 ++ [13; 10]), t. set (rows := 0%nat :: map S (filter keep (seq 0 (c_rows c - 1)))).
  assert (Ev : map (fun k => null_if_empty (val c 0 k)) (seq 0 (c_cols c)) :: map (fun k => table_row c (S k)) (filter keep (seq 0 (c_rows c - 1))) = map (table_row c) rows).
  { unfold rows. cbn [map]. now rewrite map_map. }
  rewrite Ev in Tx. assert (Fq : Forall (Forall (fun v => ~ only_quotes quote' v)) (map (table_row c) rows)).
  { apply Forall_forall. intros vs Hv. apply in_map_iff in Hv. destruct Hv as (row & <- & _). apply Forall_forall. intros v Hv. unfold table_row in Hv. apply in_map_iff in Hv.
    destruct Hv as (col & <- & _). unfold val. destruct (Rd row col) as (v & E & _). rewrite E. specialize (NO row col v E). intros (n & X). apply NO. exists n. destruct v as [[|]|]; auto; discriminate X. }
  destruct (csv_parse_text_partial delim' quote' trim' t _ Ctl Tx Fq) as (c' & Ec & R & C & H). exists c'.
  split; [exact E0|]. split; [exact Et|]. split; auto. split; [rewrite C; unfold rows, table_row; cbn [map nth]; now rewrite map_length, seq_length|].
  split; [now rewrite R, map_length|]. intros k row Hk col. destruct (Rd row col) as (v & E & _). exists v. split; auto. rewrite H. f_equal.
  assert (Hn : nth k (map (table_row c) rows) [] = table_row c row) by (apply nth_error_nth; now rewrite nth_error_map, Hk).
  unfold cell_of. rewrite Hn. replace (length (nth 0 (map (table_row c) rows) [])) with (c_cols c) by (unfold rows, table_row; cbn [map nth]; now rewrite map_length, seq_length).
  destruct (Nat.ltb_spec col (c_cols c)) as [Hc|Hc].
  - unfold table_row. apply nth_error_nth. rewrite nth_error_map. rewrite (nth_error_nth' _ 0%nat) by (rewrite seq_length; lia). rewrite seq_nth by lia. cbn [option_map]. unfold val. now rewrite Nat.add_0_l, E.
  - assert (v = None). { unfold raw_cell in E. rewrite (proj2 (Nat.ltb_ge col _)), andb_false_r in E by lia. congruence. } now subst v.
Qed.
Example csv_write_read_run : exists c h t, csv_parse 44 34 true sample = Ok (Some c) /\ output_headers 59 39 [] c = Ok h /\ output_rows 59 39 (fun _ => true) h c = Ok t /\
  t = [97; 59; 39; 120; 44; 34; 121; 34; 10; 39; 59; 98; 13; 10; 59; 59; 13; 10].
Proof. do 3 eexists. split; [vm_compute; reflexivity|]. split; [vm_compute; reflexivity|]. split; vm_compute; reflexivity. Qed.
Print Assumptions csv_write_read_partial.

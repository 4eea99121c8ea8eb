From Verif Require Import Base.Lib Base.Mem Hex.Model Str.Model Str.Spec Str.Proofs Str.Props Csv.Model Csv.Spec Csv.Proofs Csv.Scan.
Local Open Scope N_scope.

(** ** Any text: no access out of bounds *)
Section Total.
Variables delim quote : N.
Variable trim : bool.

Definition good (L : nat) (buf : list N) : Prop := exists u, buf = u ++ [0] /\ length u = L.
Lemma good_len L buf : good L buf -> length buf = S L.
Proof. intros (u & -> & H). rewrite app_length. cbn. lia. Qed.
Lemma good_wr L buf i : good L buf -> (i < L)%nat -> exists buf', wr buf i 0 = Ok buf' /\ good L buf'.
Proof.
  intros (u & -> & H) Hi. rewrite wr_lt by (rewrite app_length; lia). eexists. split; [reflexivity|]. rewrite upd_app1 by lia.
  eexists. split; [reflexivity|]. now rewrite length_upd.
Qed.
Lemma good_split u : exists s z, u ++ [0] = s ++ 0 :: z /\ no_nul s.
Proof.
  induction u as [|c u IH]; [exists [], []; split; [reflexivity|constructor]|]. destruct (N.eq_dec c 0) as [->|Hc]; [exists [], (u ++ [0]); split; [reflexivity|constructor]|].
  destruct IH as (s & z & E & H). exists (c :: s), z. cbn. rewrite E. split; auto. constructor; auto.
Qed.
Lemma good_at L buf p f : (forall s z, no_nul s -> exists u, f (s ++ 0 :: z) = Ok (u ++ 0 :: z) /\ length u = length s) ->
  good L buf -> (p <= L)%nat -> exists buf', at_str f buf p = Ok buf' /\ good L buf'.
Proof.
  intros Hf (u & -> & H) Hp. rewrite <- (firstn_skipn p u). set (a := firstn p u). set (b := skipn p u).
  assert (La : length a = p) by (unfold a; rewrite firstn_length; lia). rewrite <- app_assoc. replace (at_str f (a ++ b ++ [0]) p) with (at_str f (a ++ b ++ [0]) (length a)) by now rewrite La. rewrite at_str_mid.
  destruct (good_split b) as (s & z & E & Hs). rewrite E. destruct (Hf s z Hs) as (w & -> & Lw). cbn [bind]. eexists. split; [reflexivity|].
  assert (Lb : length b = (L - p)%nat) by (unfold b; rewrite skipn_length; lia). apply (f_equal (@length N)) in E as El. rewrite !app_length in El. cbn [length] in El.
  destruct z as [|x z] using rev_ind.
  - exists (a ++ w). rewrite <- app_assoc. split; auto. rewrite app_length. cbn [length] in El. lia.
  - clear IHz. assert (x = 0). { replace (s ++ 0 :: z ++ [x]) with ((s ++ 0 :: z) ++ [x]) in E by (rewrite <- app_assoc; reflexivity). apply app_inj_tail in E. symmetry. apply E. }
    subst x. exists (a ++ w ++ 0 :: z). rewrite <- !app_assoc. split; auto. rewrite !app_length in *. cbn [length] in *. lia.
Qed.

Definition okmat (L NR NC : nat) (out : matrix) : Prop :=
  length out = NR /\ Forall (fun r => length r = NC /\ Forall (fun p => match p with None => True | Some k => (k <= L)%nat end) r) out.

Lemma okmat_get L NR NC out row col : okmat L NR NC out -> (row < NR)%nat -> (col < NC)%nat -> exists p, mget out row col = Ok p /\ match p with None => True | Some k => (k <= L)%nat end.
Proof.
  intros [Ln F] Hr Hc. unfold mget. destruct (rd_lt out (i:=row) ltac:(lia)) as (r & Er). rewrite Er. cbn [bind]. apply rd_Ok in Er. apply nth_error_In in Er.
  rewrite Forall_forall in F. destruct (F _ Er) as [Lr Fr]. destruct (rd_lt r (i:=col) ltac:(lia)) as (p & Ep). exists p. split; auto. apply rd_Ok in Ep. apply nth_error_In in Ep.
  rewrite Forall_forall in Fr. apply (Fr _ Ep).
Qed.
Lemma Forall_upd {A} (P : A -> Prop) l i x : Forall P l -> P x -> Forall P (upd l i x).
Proof. intros F Hx. revert i. induction F as [|y l Hy F IH]; intros [|i]; cbn; constructor; auto. Qed.
Lemma okmat_set L NR NC out row col p : okmat L NR NC out -> (row < NR)%nat -> (col < NC)%nat -> match p with None => True | Some k => (k <= L)%nat end ->
  exists out', mset out row col p = Ok out' /\ okmat L NR NC out'.
Proof.
  intros [Ln F] Hr Hc Hp. unfold mset. destruct (rd_lt out (i:=row) ltac:(lia)) as (r & Er). rewrite Er. cbn [bind]. apply rd_Ok in Er. apply nth_error_In in Er.
  assert (F' := F). rewrite Forall_forall in F'. destruct (F' _ Er) as [Lr Fr]. rewrite (wr_lt r) by lia. cbn [bind]. rewrite wr_lt by lia. eexists. split; [reflexivity|].
  split; [now rewrite length_upd|]. apply Forall_upd; auto. split; [now rewrite length_upd|]. now apply Forall_upd.
Qed.

Lemma finish_total L NR NC buf out row col hq : good L buf -> okmat L NR NC out -> (row < NR)%nat ->
  exists buf' out', finish_cell quote trim NC buf out row col hq = Ok (buf', out') /\ good L buf' /\ okmat L NR NC out'.
Proof.
  intros G O Hr. unfold finish_cell. destruct (Nat.ltb_spec col NC) as [Hc|]; [|eauto 6].
  destruct (okmat_get L NR NC out row col O Hr Hc) as (p & -> & Hp). cbn [bind]. destruct p as [p|]; [|eauto 6]. destruct hq.
  - destruct (good_at L buf p (remove_quotes quote)) as (b & -> & Gb); auto; [|cbn [bind]; eauto 6].
    intros s z Hs. destruct (remove_quotes_ok quote s z Hs) as (u & w & E & Lu & _). eauto.
  - assert (X : exists b, (if trim then at_str (fun m => trim_max m None) buf p else Ok buf) = Ok b /\ good L b).
    { destruct trim; [|eauto]. apply good_at; auto. intros s z Hs. destruct (trim_mem s z Hs) as (t & u & w & _ & E & Lu & _). eauto. }
    destruct X as (b & -> & Gb). cbn [bind]. destruct (rd_lt b (i:=p)) as (c & ->); [rewrite (good_len L) by auto; lia|]. cbn [bind].
    destruct (c =? 0); [|eauto 6]. destruct (okmat_set L NR NC out row col None O Hr Hc I) as (o & -> & Oo). cbn [bind]. eauto 6.
Qed.

Lemma parse_total L NR NC : (1 <= NC)%nat -> forall k n, (n <= k)%nat -> forall i buf out row col onq hq, good L buf -> okmat L NR NC out -> (row < NR)%nat -> (i + n = L)%nat ->
  exists buf' out' row' col' hq', parse_loop delim quote trim NR NC n i buf out row col onq hq = Ok (buf', out', row', col', hq') /\ good L buf' /\ okmat L NR NC out'.
Proof.
  intros HNC. induction k as [|k IH]; intros n Hk i buf out row col onq hq G O Hr Hi; (destruct n as [|n]; [cbn [parse_loop]; eauto 10|]); [lia|].
  cbn [parse_loop]. pose proof (good_len _ _ G) as GL. destruct (rd_lt buf (i:=i) ltac:(lia)) as (c & ->). cbn [bind].
  destruct (c =? quote).
  - destruct onq; [|apply IH; auto; lia]. destruct (rd_lt buf (i:=(S i)) ltac:(lia)) as (d & ->). cbn [bind].
    destruct (d =? quote); [|apply IH; auto; lia]. destruct n as [|n]; [eauto 10|]. apply IH; auto; lia.
  - destruct (negb onq && (c =? delim)).
    + destruct (good_wr L buf i G ltac:(lia)) as (b & -> & Gb). cbn [bind]. destruct (finish_total L NR NC b out row col hq Gb O Hr) as (b' & o & -> & Gb' & Oo). cbn [bind].
      assert (X : exists o', (if (S col <? NC)%nat then mset o row (S col) (Some (S i)) else Ok o) = Ok o' /\ okmat L NR NC o').
      { destruct (Nat.ltb_spec (S col) NC); [|eauto]. apply okmat_set; auto. lia. }
      destruct X as (o' & -> & Oo'). cbn [bind]. apply IH; auto; lia.
    + destruct (negb onq && (c =? 10)).
      * destruct (good_wr L buf i G ltac:(lia)) as (b & -> & Gb). cbn [bind]. destruct (finish_total L NR NC b out row col hq Gb O Hr) as (b' & o & -> & Gb' & Oo). cbn [bind].
        destruct (Nat.eqb_spec (S row) NR); [eauto 10|]. destruct (okmat_set L NR NC o (S row) 0 (Some (S i)) Oo ltac:(lia) ltac:(lia) ltac:(cbn; lia)) as (o' & -> & Oo'). cbn [bind]. apply IH; auto; lia.
      * destruct (negb onq && (c =? 13)); [|apply IH; auto; lia]. destruct (good_wr L buf i G ltac:(lia)) as (b & -> & Gb). cbn [bind]. apply IH; auto; lia.
Qed.

Lemma count_total : forall k n, (n <= k)%nat -> forall i str onq rl nr nc, (i + n < length str)%nat -> (nr <> 0%nat -> (1 <= nc)%nat) ->
  exists rl' nr' nc', count_loop delim quote n i str onq rl nr nc = Ok (rl', nr', nc') /\ (nr' <> 0%nat -> (1 <= nc')%nat).
Proof.
  induction k as [|k IH]; intros n Hk i str onq rl nr nc Hi Hn; (destruct n as [|n]; [cbn [count_loop]; eauto 6|]); [lia|].
  cbn [count_loop]. destruct (rd_lt str (i:=i) ltac:(lia)) as (c & ->). cbn [bind]. destruct (c =? quote).
  - destruct (rd_lt str (i:=(S i)) ltac:(lia)) as (d & ->). cbn [bind]. destruct (d =? quote); [|apply IH; auto; lia]. destruct n as [|n]; [eauto 6|]. apply IH; auto; lia.
  - destruct (negb onq && (c =? delim) && (nr =? 0)%nat); [apply IH; lia|]. destruct (negb onq && (c =? 10)).
    + apply IH; try lia. intros _. destruct (Nat.eqb_spec nr 0); lia.
    + destruct (onq || negb (c =? 13)); apply IH; auto; lia.
Qed.

Lemma csv_parse_total data : csv_parse delim quote trim data = Ok None \/
  exists c, csv_parse delim quote trim data = Ok (Some c) /\ (1 <= c_rows c)%nat /\ (1 <= c_cols c)%nat /\
    forall row col, exists v, raw_cell c row col = Ok v /\ match v with Some s => no_nul s | None => True end.
Proof.
  unfold csv_parse. destruct (Nat.eqb_spec (length data) 0); [now left|]. unfold parse_inplace. rewrite (proj2 (Nat.eqb_neq _ _)) by auto. unfold parse_count.
  destruct (count_total (length data) (length data) (le_n _) 0 (data ++ [0]) false 0 0 0) as (rl & nr & nc & -> & Hn); [rewrite app_length; cbn; lia|congruence|]. cbn [bind].
  set (NR := if negb (rl =? 0)%nat then S nr else nr). set (NC := if (nr =? 0)%nat && negb (rl =? 0)%nat then S nc else nc).
  destruct (Nat.eqb_spec NR 0) as [|HR]; [now left|right].
  assert (HC : (1 <= NC)%nat).
  { unfold NC, NR in *. destruct (Nat.eqb_spec rl 0), (Nat.eqb_spec nr 0); cbn [negb andb] in *; lia. }
  assert (O : okmat (length data) NR NC (repeat (repeat None NC) NR)).
  { split; [apply repeat_length|]. apply Forall_forall. intros r Hr. apply repeat_spec in Hr. subst r. split; [apply repeat_length|]. apply Forall_forall. intros p Hp. apply repeat_spec in Hp. now subst p. }
  destruct (okmat_set _ _ _ _ 0 0 (Some 0%nat) O ltac:(lia) ltac:(lia) ltac:(cbn; lia)) as (o & -> & Oo). cbn [bind].
  assert (G : good (length data) (data ++ [0])) by (eexists; eauto).
  destruct (parse_total (length data) NR NC HC (length data) (length data) (le_n _) 0 (data ++ [0]) o 0 0 false false G Oo ltac:(lia) eq_refl) as (b & o' & row & col & hq & -> & Gb & Oo'). cbn [bind].
  assert (X : exists b2 o2, (if (row <? NR)%nat && (col <? NC)%nat then finish_cell quote trim NC b o' row col hq else Ok (b, o')) = Ok (b2, o2) /\ good (length data) b2 /\ okmat (length data) NR NC o2).
  { destruct (Nat.ltb_spec row NR); cbn [andb]; [|eauto 6]. destruct (col <? NC)%nat; [|eauto 6]. now apply finish_total. }
  destruct X as (b2 & o2 & -> & G2 & O2). cbn [bind]. eexists. split; [reflexivity|]. cbn [c_rows c_cols]. split; [lia|]. split; [exact HC|].
  intros r cc. unfold raw_cell. cbn [c_rows c_cols c_out c_buf]. destruct (Nat.ltb_spec r NR); cbn [andb]; [|exists None; auto]. destruct (Nat.ltb_spec cc NC); [|exists None; auto].
  destruct (okmat_get _ _ _ _ r cc O2 ltac:(lia) ltac:(lia)) as (p & -> & Hp). cbn [bind]. destruct p as [p|]; [|exists None; auto].
  unfold cstr. rewrite (proj2 (Nat.leb_le _ _)) by (rewrite (good_len _ _ G2); lia). destruct G2 as (u & -> & Lu). rewrite skipn_app. replace (p - length u)%nat with 0%nat by lia. cbn [skipn].
  destruct (good_split (skipn p u)) as (s & z & -> & Hs). rewrite strlen_ok by auto. cbn [bind]. exists (Some s). split; auto.
  rewrite firstn_app, firstn_all, Nat.sub_diag, firstn_O, app_nil_r. reflexivity.
Qed.
End Total.

(** ** Writing *)
Section Write.
Variables delim quote : N.
Hypothesis ctl : controls delim quote.
Hypothesis delim_nz : delim <> 0.
Variable trim : bool.
Notation doubled := (doubled quote).

Notation norm := null_if_empty.

Lemma mem_chr_split s : match mem_chr quote s with
  | None => doubled s = s
  | Some n => exists a b, s = a ++ quote :: b /\ length a = n /\ doubled a = a end.
Proof.
  induction s as [|c s IH]; [reflexivity|]. cbn [mem_chr]. destruct (N.eqb_spec c quote) as [->|Hc]; [exists [], s; auto|].
  destruct (mem_chr quote s) as [n|].
  - destruct IH as (a & b & -> & L & Ea). exists (c :: a), b. split; auto. split; [cbn; lia|]. rewrite doubled_cons, (proj2 (N.eqb_neq c quote) Hc), Ea. reflexivity.
  - rewrite doubled_cons, (proj2 (N.eqb_neq c quote) Hc), IH. reflexivity.
Qed.
Lemma doubled_app a b : doubled (a ++ b) = doubled a ++ doubled b.
Proof. apply flat_map_app. Qed.
Lemma escape_ok : forall f s buf, (length s < f)%nat -> escape_loop quote f buf s = Ok (buf ++ doubled s).
Proof.
  induction f as [|f IH]; intros s buf Hf; [lia|]. cbn [escape_loop]. pose proof (mem_chr_split s) as M. destruct (mem_chr quote s) as [n|].
  - destruct M as (a & b & -> & La & Ea).
    replace (firstn (S n) (a ++ quote :: b)) with (a ++ [quote]).
    2:{ subst n. rewrite (mid1 a quote b). rewrite (S_len a quote). rewrite firstn_app, firstn_all, Nat.sub_diag, firstn_O, app_nil_r. reflexivity. }
    replace (skipn (S n) (a ++ quote :: b)) with b.
    2:{ subst n. rewrite (mid1 a quote b). rewrite (S_len a quote). rewrite skipn_app, skipn_all, Nat.sub_diag. reflexivity. }
    rewrite doubled_app, doubled_cons, N.eqb_refl, Ea. rewrite app_length in Hf. cbn [length] in Hf.
    destruct b as [|x b]; [cbn; rewrite <- !app_assoc; reflexivity|]. rewrite IH by lia. rewrite <- !app_assoc. reflexivity.
  - rewrite firstn_all, skipn_all, M. reflexivity.
Qed.

(** The text [add_cell] writes. *)
Lemma add_cell_ok buf v : match v with Some s => no_nul s | None => True end ->
  exists t, add_cell delim quote buf v = Ok (buf ++ t ++ [delim]) /\ Cell delim quote trim t (norm v).
Proof.
  destruct ctl as (D1 & D2 & D3 & Q2 & Q3 & Q0).
  assert (E0 : Cell delim quote trim [] None).
  { constructor; [constructor|]. exists []. split; [|reflexivity]. destruct trim; [|reflexivity]. exists [], []. repeat split; auto; intros c t' E; [discriminate|destruct t'; discriminate]. }
  intros Hv. unfold add_cell. destruct v as [[|c s]|]; cbn [bind null_if_empty]; [exists []; split; auto| |exists []; split; auto].
  rewrite escape_ok by lia. cbn [bind].
  destruct (chr_isspace c || chr_isspace (last (c :: s) 0) || existsb (fun c0 => existsb (N.eqb c0) (chars_to_quote delim quote)) (c :: s)) eqn:Q.
  - exists (quote :: doubled (c :: s) ++ [quote]). split; [|now apply C_quoted]. set (w := doubled (c :: s)). clearbody w. clear. rewrite <- !app_assoc. cbn [app]. rewrite <- !app_assoc. reflexivity.
  - apply orb_false_iff in Q. destruct Q as [Q Q4]. apply orb_false_iff in Q. destruct Q as [Q5 Q6].
    assert (P : Forall (plain delim quote) (c :: s)).
    { apply Forall_forall. intros x Hx. unfold no_nul in Hv. rewrite Forall_forall in Hv. split; [now apply Hv|].
      assert (Y : existsb (N.eqb x) (chars_to_quote delim quote) = false).
      { destruct (existsb (N.eqb x) (chars_to_quote delim quote)) eqn:Y; auto. rewrite <- Q4. symmetry. apply existsb_exists. eauto. }
      unfold chars_to_quote in Y. rewrite (proj2 (N.eqb_neq delim 0)), (proj2 (N.eqb_neq quote 0)) in Y by auto. cbn [existsb] in Y.
      repeat (apply orb_false_iff in Y; let Y1 := fresh in destruct Y as [Y1 Y]; apply N.eqb_neq in Y1). auto. }
    assert (Dd : doubled (c :: s) = c :: s).
    { clear - P. induction P as [|x l Hx F IH]; [reflexivity|]. rewrite doubled_cons, IH. destruct Hx as (_ & _ & Hx & _). now rewrite (proj2 (N.eqb_neq x quote) Hx). }
    exists (c :: s). rewrite Dd. split; [rewrite <- !app_assoc; reflexivity|]. apply C_plain; auto. exists (c :: s). split; [|reflexivity]. destruct trim; auto.
    exists [], []. rewrite app_nil_r. split; [reflexivity|]. split; [constructor|]. split; [constructor|]. split.
    + intros x t' E. injection E as <- _. apply isspace_false; auto.
    + intros x t' E. rewrite E, last_last in Q6. apply isspace_false; auto.
Qed.

Definition val (c : csv) (row col : nat) : option (list N) := match raw_cell c row col with Ok v => v | _ => None end.
Definition readable (c : csv) : Prop := forall row col, exists v, raw_cell c row col = Ok v /\ match v with Some s => no_nul s | None => True end.

Lemma add_cells_ok c row : readable c -> forall n buf col, (1 <= n)%nat ->
  exists t, add_cells delim quote buf c row col n = Ok (buf ++ t ++ [delim]) /\ Row delim quote trim t (map (fun k => norm (val c row k)) (seq col n)).
Proof.
  intros R. induction n as [|n IH]; intros buf col Hn; [lia|]. cbn [add_cells]. destruct (R row col) as (v & Ev & Hv). rewrite Ev. cbn [bind].
  destruct (add_cell_ok buf v Hv) as (t & -> & C). cbn [bind seq map]. unfold val at 1. rewrite Ev. destruct n as [|n].
  - cbn [add_cells seq map]. exists t. split; auto. now constructor.
  - destruct (IH (buf ++ t ++ [delim]) (S col)) as (t' & E & Rw); [lia|]. exists (t ++ delim :: t'). split.
    + rewrite E. rewrite <- !app_assoc. reflexivity.
    + apply R_more; auto.
Qed.

Lemma add_row_ok c row buf : readable c -> (1 <= c_cols c)%nat ->
  exists t, add_row delim quote buf c row = Ok (buf ++ t ++ [13; 10]) /\ Row delim quote trim t (map (fun k => norm (val c row k)) (seq 0 (c_cols c))).
Proof.
  intros R H. unfold add_row. destruct (add_cells_ok c row R (c_cols c) buf 0 H) as (t & -> & Rw). cbn [bind]. exists t. split; auto. f_equal.
  rewrite app_assoc, (app_assoc buf t). f_equal. rewrite app_length. cbn [length]. replace (length (buf ++ t) + 1 - 1)%nat with (length (buf ++ t)) by lia.
  rewrite firstn_app, firstn_all, Nat.sub_diag, firstn_O, app_nil_r. reflexivity.
Qed.

Definition table_row (c : csv) (row : nat) : list (option (list N)) := map (fun k => norm (val c row k)) (seq 0 (c_cols c)).

Lemma output_rows_ok c f : readable c -> (1 <= c_cols c)%nat -> forall n row buf t0 v0, Row delim quote trim t0 v0 -> 
  exists t, output_rows_loop delim quote f (buf ++ t0 ++ [13; 10]) c row n = Ok (buf ++ t) /\ Text delim quote trim t (v0 :: map (fun k => table_row c (S k)) (filter f (seq row n))).
Proof.
  intros R H. induction n as [|n IH]; intros row buf t0 v0 R0.
  - exists (t0 ++ [13; 10]). split; [reflexivity|]. apply T_end; auto. now right.
  - cbn [output_rows_loop seq filter]. destruct (f row).
    + destruct (add_row_ok c (S row) (buf ++ t0 ++ [13; 10]) R H) as (t & -> & Rw). cbn [bind].
      destruct (IH (S row) (buf ++ t0 ++ [13; 10]) t _ Rw) as (t' & E & Tx). rewrite E. exists (t0 ++ [13; 10] ++ t'). split; [rewrite <- !app_assoc; reflexivity|].
      cbn [map]. apply T_more; auto. now right.
    + apply IH; auto.
Qed.
End Write.

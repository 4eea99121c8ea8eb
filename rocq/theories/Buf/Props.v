(** Properties C23, C24: the byte buffer. *)
From Verif Require Import Base.Lib Base.Mem Hex.Spec Str.Model Str.Spec Buf.Model Buf.Spec Buf.Proofs.
Local Open Scope N_scope.

(** ** C23: a buffer is a byte string *)

Theorem buf_refines_bytes : forall g ops, Forall wf_op ops ->
  let '(rs, c) := spec_run ops [] [] in
  exists b, run g ops buf_create [] = Ok (rs, b) /\ buf_peek b = Ok c /\ blen b = length c.
Proof.
  intros g ops F. destruct (run_ok g ops buf_create [] [] (proj1 create_ok) F) as (b & E & R & _).
  destruct (spec_run ops [] []) as [rs c]. exists b. split; auto. now apply peek_ok.
Qed.
Print Assumptions buf_refines_bytes.

(** M_buf_finish hands over the same bytes. *)
Theorem buf_finish_bytes : forall g ops rs b, Forall wf_op ops ->
  run g ops buf_create [] = Ok (rs, b) ->
  let c := snd (spec_run ops [] []) in
  exists m, buf_finish b = Ok (m, length c) /\ match m with None => c = [] | Some d => firstn (length c) d = c end.
Proof.
  intros g ops rs b F E. destruct (run_ok g ops buf_create [] [] (proj1 create_ok) F) as (b' & E' & R & _).
  rewrite E in E'. injection E' as _ <-. now apply finish_ok.
Qed.
Print Assumptions buf_finish_bytes.

Definition demo : list op :=
  [AddBytes [65; 66; 67]; Drop 1; AddTransf (fun _ => true) [32; 120; 89; 10]; AddFill 0 1030; Truncate 5;
   AddUintbin 258 2 true; AddUintbin 256 1 true; AddUintbcd 1234 3; AddHex [52; 49]; DirectWrite 10 [7; 8]].
Ltac wf := repeat (apply Forall_cons || apply Forall_nil); cbn [wf_op]; unfold Hex.Spec.is_space; auto; try reflexivity; try (cbn; lia).
Lemma demo_wf : Forall wf_op demo.
Proof. unfold demo. wf. Qed.
Example demo_runs : Forall wf_op demo /\
  spec_run demo [] [] = ([true; true; true; false; true; true; true; true; true; true],
                         [66; 67; 120; 121; 0; 1; 2; 0; 18; 52; 65; 7; 8]) /\
  exists b, run 170 demo buf_create [] = Ok (fst (spec_run demo [] []), b) /\ buf_peek b = Ok (snd (spec_run demo [] [])).
Proof.
  split; [|split; [reflexivity|]].
  - exact demo_wf.
  - pose proof (buf_refines_bytes 170 demo) as H. destruct (spec_run demo [] []) as [rs c].
    destruct H as (b & E & P & _); [exact demo_wf|eauto].
Qed.

(** The byte behind the contents is a terminator, unless a hexadecimal add of
    invalid text or an empty direct write came last: the terminator is lost. *)
Theorem buf_terminated_partial : forall g ops rs b, Forall wf_op ops -> Forall terminates ops ->
  run g ops buf_create [] = Ok (rs, b) -> forall d, bdata b = Some d -> nth_error d (bcons b + blen b) = Some 0.
Proof.
  intros g ops rs b F T E d Ed. destruct (run_ok g ops buf_create [] [] (proj1 create_ok) F) as (b' & E' & R & H & _).
  rewrite E in E'. injection E' as _ <-. specialize (H (proj2 create_ok) T). unfold Term in H. rewrite Ed in H. exact H.
Qed.
Print Assumptions buf_terminated_partial.

Theorem buf_terminated_refuted : exists ops g rs b d, Forall wf_op ops /\
  run g ops buf_create [] = Ok (rs, b) /\ hd false rs = true /\ bdata b = Some d /\
  nth_error d (bcons b + blen b) = Some 66.
Proof.
  exists [AddBytes [65]; AddHex [52; 50; 122; 122]], 170.
  destruct (run 170 [AddBytes [65]; AddHex [52; 50; 122; 122]] buf_create []) as [[rs b]| |] eqn:E; vm_compute in E; try discriminate.
  destruct (bdata b) as [d|] eqn:Ed; [|exfalso; injection E as _ <-; discriminate].
  exists rs, b, d. split.
  - wf.
  - split; [auto|]. injection E as <- <-. cbn in Ed. injection Ed as <-. repeat split; reflexivity.
Qed.
Print Assumptions buf_terminated_refuted.

(** Justified fields are correct as long as nothing was dropped; after a drop
    the stored offset is stale when the buffer moves its data. *)
Theorem buf_add_just_partial : forall g ops rs b flag bytes j fill width,
  Forall wf_op ops -> Forall no_drop ops -> run g ops buf_create [] = Ok (rs, b) -> (0 < width)%nat ->
  let c := snd (spec_run ops [] []) in
  let t := transformed flag bytes in
  exists b' out, buf_add_just g flag b bytes j fill width = Ok b' /\ buf_peek b' = Ok (c ++ out) /\
    (if no_trunc j && (width <? length t)%nat then out = [] else justified j t fill width out).
Proof.
  intros g ops rs b flag bytes j fill width F D E Hw.
  destruct (run_ok g ops buf_create [] [] (proj1 create_ok) F) as (b1 & E' & R & _ & H).
  rewrite E in E'. injection E' as _ <-. specialize (H eq_refl D). cbv zeta.
  destruct (just_ok g flag b _ bytes j fill width R H Hw) as (b' & out & Eb & R' & J).
  exists b', out. split; auto. split; auto. now apply peek_ok.
Qed.
Print Assumptions buf_add_just_partial.
Example buf_add_just_case : exists b b',
  run 170 [AddBytes [65; 66]] buf_create [] = Ok ([true], b) /\
  buf_add_just 170 (fun _ => false) b [120; 121] JRight 48 5 = Ok b' /\ buf_peek b' = Ok [65; 66; 48; 48; 48; 120; 121].
Proof. do 2 eexists. split; [reflexivity|]. split; vm_compute; reflexivity. Qed.

(** 1000 bytes added, 990 dropped: a field of width 30 is written past the allocation. *)
Theorem buf_add_just_refuted : exists ops g rs b, Forall wf_op ops /\ run g ops buf_create [] = Ok (rs, b) /\
  buf_add_just g (fun _ => false) b [120; 121] JLeft 48 30 = UB.
Proof.
  exists [AddFill 97 1000; Drop 990], 170.
  destruct (run 170 [AddFill 97 1000; Drop 990] buf_create []) as [[rs b]| |] eqn:E; vm_compute in E; try discriminate.
  exists rs, b. split; [repeat apply Forall_cons; cbn; auto|]. split; auto. injection E as <- <-. vm_compute. reflexivity.
Qed.
Print Assumptions buf_add_just_refuted.

(** ** C24: merging *)

(** What is appended are the first bytes of the source's allocation, which are
    its contents only if none were dropped since the data last moved. *)
Theorem buf_merge_partial : forall g ops1 ops2 rs1 rs2 dest src,
  Forall wf_op ops1 -> Forall wf_op ops2 ->
  run g ops1 buf_create [] = Ok (rs1, dest) -> run g ops2 buf_create [] = Ok (rs2, src) ->
  exists b' l, buf_merge g dest src = Ok b' /\ buf_peek b' = Ok (snd (spec_run ops1 [] []) ++ l) /\
    length l = length (snd (spec_run ops2 [] [])) /\
    (bcons src = O -> l = snd (spec_run ops2 [] [])) /\ (Forall no_drop ops2 -> bcons src = O).
Proof.
  intros g ops1 ops2 rs1 rs2 dest src F1 F2 E1 E2.
  destruct (run_ok g ops1 buf_create [] [] (proj1 create_ok) F1) as (d' & E' & R1 & _).
  rewrite E1 in E'. injection E' as _ <-.
  destruct (run_ok g ops2 buf_create [] [] (proj1 create_ok) F2) as (s' & E' & R2 & _ & H).
  rewrite E2 in E'. injection E' as _ <-.
  destruct (merge_ok g dest _ src R1 (rep_bound src _ R2)) as (b' & E & R').
  exists b', (match bdata src with None => [] | Some d => firstn (blen src) d end). split; auto.
  split; [now apply peek_ok|]. pose proof (peek_ok src _ R2) as [_ L2]. split; [|split].
  - rewrite <- L2. pose proof (rep_bound src _ R2) as B. unfold Rep in R2. destruct (bdata src) as [d|].
    + rewrite firstn_length. specialize (B d eq_refl). lia.
    + destruct R2 as (_ & _ & Z & _). cbn. lia.
  - apply rep_cons0. exact R2.
  - auto.
Qed.
Print Assumptions buf_merge_partial.
Example buf_merge_case : exists d s b', run 170 [AddBytes [1]] buf_create [] = Ok ([true], d) /\
  run 170 [AddBytes [2; 3; 4]; Truncate 2] buf_create [] = Ok ([true; true], s) /\
  bcons s = O /\ buf_merge 170 d s = Ok b' /\ buf_peek b' = Ok [1; 2; 3].
Proof. do 3 eexists. repeat split; vm_compute; reflexivity. Qed.

(** After a drop the overwritten bytes are merged. *)
Theorem buf_merge_refuted : exists g ops rs src b',
  Forall wf_op ops /\ run g ops buf_create [] = Ok (rs, src) /\ snd (spec_run ops [] []) = [67; 68] /\
  buf_merge g buf_create src = Ok b' /\ buf_peek b' = Ok [255; 255].
Proof.
  exists 170, [AddBytes [65; 66; 67; 68]; Drop 2].
  do 3 eexists. split; [repeat apply Forall_cons; cbn; auto|].
  split; [vm_compute; reflexivity|]. split; [reflexivity|]. split; vm_compute; reflexivity.
Qed.
Print Assumptions buf_merge_refuted.

(** Joining buffers nothing was dropped from: the contents with the separator
    between neighbours. *)
Theorem buf_bjoin_partial : forall g ops rs dest sep srcs,
  Forall wf_op ops -> run g ops buf_create [] = Ok (rs, dest) ->
  Forall (fun '(o, b) => Forall wf_op o /\ Forall no_drop o /\ exists r, run g o buf_create [] = Ok (r, b)) srcs ->
  exists b', buf_bjoin g dest sep (map snd srcs) = Ok b' /\
    buf_peek b' = Ok (snd (spec_run ops [] []) ++ joined [sep] (map (fun s => snd (spec_run (fst s) [] [])) srcs)).
Proof.
  intros g ops rs dest sep srcs F E FS.
  destruct (run_ok g ops buf_create [] [] (proj1 create_ok) F) as (d' & E' & R & _). rewrite E in E'. injection E' as _ <-.
  clear E F. revert R. generalize (snd (spec_run ops [] [])). revert dest. clear ops rs.
  assert (M : forall o b, (Forall wf_op o /\ Forall no_drop o /\ exists r, run g o buf_create [] = Ok (r, b)) -> forall dest c, Rep dest c ->
    exists b', buf_merge g dest b = Ok b' /\ Rep b' (c ++ snd (spec_run o [] []))).
  { intros o b (W & ND & r & E) dest c R. destruct (run_ok g o buf_create [] [] (proj1 create_ok) W) as (s' & E' & R2 & _ & H).
    rewrite E in E'. injection E' as _ <-. destruct (merge_ok g dest c b R (rep_bound b _ R2)) as (b' & E1 & R').
    rewrite (rep_cons0 _ _ R2) in R' by (apply H; auto). eauto. }
  induction FS as [|(o & b) srcs H FS IH]; intros dest c R; cbn [map].
  - exists dest. cbn [buf_bjoin joined]. split; auto. rewrite app_nil_r. now apply peek_ok.
  - destruct (M o b H dest c R) as (b1 & E1 & R1). cbn [snd fst]. destruct srcs as [|(o2 & b2) srcs].
    + exists b1. cbn [map buf_bjoin joined]. split; auto. now apply peek_ok.
    + cbn [map buf_bjoin snd fst]. rewrite E1. cbn [bind]. destruct (add_bytes_ok g b1 _ [sep] R1) as (b3 & E3 & R3 & _). rewrite E3. cbn [bind].
      destruct (IH _ _ R3) as (b' & E' & P'). exists b'. split; [exact E'|]. rewrite P'. f_equal. cbn [map snd fst joined]. rewrite <- !app_assoc. reflexivity.
Qed.
Print Assumptions buf_bjoin_partial.
Example buf_bjoin_case : exists x y b', run 170 [AddBytes [2; 3]] buf_create [] = Ok ([true], x) /\ run 170 [] buf_create [] = Ok ([], y) /\
  buf_bjoin 170 buf_create 44 [x; y; x] = Ok b' /\ buf_peek b' = Ok [2; 3; 44; 44; 2; 3].
Proof. do 3 eexists. repeat split; vm_compute; reflexivity. Qed.

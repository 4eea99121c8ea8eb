(** Proofs about permission objects. *)
From Verif Require Import Base.Lib FsPerms.Model FsPerms.Spec.
Local Open Scope N_scope.

Lemma has_bit m k : has m (2 ^ k) = N.testbit m k.
Proof.
  unfold has. destruct (N.testbit m k) eqn:E.
  - apply Bool.negb_true_iff, N.eqb_neq. intros H.
    assert (X : N.testbit (N.land m (2 ^ k)) k = true)
      by now rewrite N.land_spec, E, N.pow2_bits_true.
    rewrite H, N.bits_0 in X. discriminate.
  - apply Bool.negb_false_iff, N.eqb_eq, N.bits_inj. intros i.
    rewrite N.land_spec, N.bits_0, N.pow2_bits_eqb.
    destruct (N.eqb_spec k i) as [<-|]; [rewrite E; reflexivity | apply Bool.andb_false_r].
Qed.
Lemma has_r m : has m MODE_READ = N.testbit m 0. Proof. apply (has_bit m 0). Qed.
Lemma has_w m : has m MODE_WRITE = N.testbit m 1. Proof. apply (has_bit m 1). Qed.
Lemma has_x m : has m MODE_EXEC = N.testbit m 2. Proof. apply (has_bit m 2). Qed.

Lemma tb_if (c : bool) a b i : N.testbit (if c then a else b) i = if c then N.testbit a i else N.testbit b i.
Proof. destruct c; reflexivity. Qed.

(** The bit of the mode that is tested for the mask bit [i]. *)
Definition sel (m r w x i : N) : bool :=
  (N.testbit m 0 && N.testbit r i) || (N.testbit m 1 && N.testbit w i)
  || (N.testbit m 2 && N.testbit x i).

Lemma add_bits_spec mode m r w x i :
  N.testbit (add_bits mode m r w x) i = N.testbit mode i || sel m r w x i.
Proof.
  unfold add_bits, sel. rewrite has_r, has_w, has_x.
  destruct (N.testbit m 0), (N.testbit m 1), (N.testbit m 2); cbn [andb orb];
    rewrite ?N.lor_spec; 
    destruct (N.testbit mode i), (N.testbit r i), (N.testbit w i), (N.testbit x i); reflexivity.
Qed.
Lemma del_bits_spec mode m r w x i :
  N.testbit (del_bits mode m r w x) i = N.testbit mode i && negb (sel m r w x i).
Proof.
  unfold del_bits, sel. rewrite has_r, has_w, has_x.
  destruct (N.testbit m 0), (N.testbit m 1), (N.testbit m 2); cbn [andb orb];
    rewrite ?N.ldiff_spec; 
    destruct (N.testbit mode i), (N.testbit r i), (N.testbit w i), (N.testbit x i); reflexivity.
Qed.

Definition chg (o : option part) : change :=
  match o with None => None | Some p => Some (p_mode p, p_type p) end.

Lemma update_part_spec mode isdir p d r w x i :
  N.testbit (update_part mode isdir p d r w x) i
  = match chg (choose isdir p d) with
    | None => N.testbit mode i
    | Some (m, EXACT) => (N.testbit mode i && negb (N.testbit r i || N.testbit w i || N.testbit x i))
                         || sel m r w x i
    | Some (m, ADD) => N.testbit mode i || sel m r w x i
    | Some (m, REMOVE) => N.testbit mode i && negb (sel m r w x i)
    end.
Proof.
  unfold update_part. destruct (choose isdir p d) as [[s m t]|]; [|reflexivity].
  cbn [chg p_type p_mode]. destruct t.
  - rewrite add_bits_spec, N.ldiff_spec, !N.lor_spec. reflexivity.
  - apply add_bits_spec.
  - apply del_bits_spec.
Qed.

Lemma to_mode_part_spec isdir p d r w x i :
  N.testbit (to_mode_part isdir p d r w x) i
  = match chg (choose isdir p d) with
    | None => false
    | Some (m, REMOVE) => false
    | Some (m, _) => sel m r w x i
    end.
Proof.
  unfold to_mode_part. destruct (choose isdir p d) as [[s m t]|]; [|apply N.bits_0].
  cbn [chg p_type p_mode]. destruct t; rewrite ?add_bits_spec, ?N.bits_0; reflexivity.
Qed.

Lemma choose_effective q isdir w :
  chg (choose isdir (file_part q w) (dir_part q w)) = effective (Some q) isdir w.
Proof.
  unfold choose, effective, shown; cbn.
  destruct isdir; cbn; [destruct (p_set (dir_part q w)); [reflexivity|] |];
    destruct (p_set (file_part q w)); reflexivity.
Qed.

Ltac consts :=
  cbv [S_IRUSR S_IWUSR S_IXUSR S_IRGRP S_IWGRP S_IXGRP S_IROTH S_IWOTH S_IXOTH] in *.

Lemma small_bit c i : c < 512 -> 9 <= i -> N.testbit c i = false.
Proof.
  intros Hc Hi. destruct (N.eq_dec c 0) as [->|]; [apply N.bits_0|].
  apply N.bits_above_log2. assert (N.log2 c < 9); [|lia].
  apply N.log2_lt_pow2; [lia|]. exact Hc.
Qed.

(** *** to_mode *)
Lemma to_mode_allowed q isdir w x :
  allowed (to_mode q isdir) w x = grants (effective (Some q) isdir w) x.
Proof.
  unfold allowed, to_mode. rewrite !N.lor_spec, !to_mode_part_spec, N.bits_0.
  pose proof (choose_effective q isdir USER) as HU.
  pose proof (choose_effective q isdir GROUP) as HG.
  pose proof (choose_effective q isdir OTHER) as HO.
  cbn [file_part dir_part] in *. rewrite HU, HG, HO.
  clear HU HG HO; destruct w, x;
  destruct (effective (Some q) isdir USER) as [[mu []]|];
  destruct (effective (Some q) isdir GROUP) as [[mg []]|];
  destruct (effective (Some q) isdir OTHER) as [[mo []]|];
  unfold sel; cbn;
  rewrite ?Bool.andb_false_r, ?Bool.andb_true_r, ?Bool.orb_false_r, ?Bool.orb_true_r; reflexivity.
Qed.
Lemma to_mode_high q isdir i : 9 <= i -> N.testbit (to_mode q isdir) i = false.
Proof.
  intros Hi. unfold to_mode. rewrite !N.lor_spec, !to_mode_part_spec, N.bits_0.
  unfold sel; consts. rewrite !(small_bit _ i) by (reflexivity || assumption).
  destruct (chg (choose isdir (pu q) (du q))) as [[? []]|];
  destruct (chg (choose isdir (pg q) (dg q))) as [[? []]|];
  destruct (chg (choose isdir (po q) (do_ q))) as [[? []]|];
  rewrite ?Bool.andb_false_r; reflexivity.
Qed.

(** *** update_mode *)
Lemma update_mode_allowed mode q isdir w x :
  allowed (update_mode mode q isdir) w x
  = allowed mode w x || grants (effective (Some q) isdir w) x.
Proof.
  unfold allowed, update_mode. rewrite !N.lor_spec, !update_part_spec, N.bits_0.
  pose proof (choose_effective q isdir USER) as HU.
  pose proof (choose_effective q isdir GROUP) as HG.
  pose proof (choose_effective q isdir OTHER) as HO.
  cbn [file_part dir_part] in *. rewrite HU, HG, HO.
  remember (N.testbit mode (unix_bit w x)) as b eqn:Eb. clear Eb.
  clear HU HG HO; destruct w, x;
  destruct (effective (Some q) isdir USER) as [[mu []]|];
  destruct (effective (Some q) isdir GROUP) as [[mg []]|];
  destruct (effective (Some q) isdir OTHER) as [[mo []]|];
  unfold sel; cbn;
  rewrite ?Bool.andb_false_r, ?Bool.andb_true_r, ?Bool.orb_false_r, ?Bool.orb_true_r;
  cbn; rewrite ?Bool.andb_false_r, ?Bool.andb_true_r, ?Bool.orb_false_r, ?Bool.orb_true_r;
  destruct b; cbn; rewrite ?Bool.orb_true_r; try reflexivity;
  repeat match goal with |- context [N.testbit ?m ?i] => destruct (N.testbit m i) end; reflexivity.
Qed.
Lemma update_mode_high mode q isdir i :
  9 <= i -> N.testbit (update_mode mode q isdir) i = N.testbit mode i.
Proof.
  intros Hi. unfold update_mode. rewrite !N.lor_spec, !update_part_spec, N.bits_0.
  unfold sel; consts. rewrite !(small_bit 256 i), !(small_bit 128 i), !(small_bit 64 i), 
    !(small_bit 32 i), !(small_bit 16 i), !(small_bit 8 i), !(small_bit 4 i), !(small_bit 2 i),
    !(small_bit 1 i) by (reflexivity || assumption).
  destruct (chg (choose isdir (pu q) (du q))) as [[? []]|];
  destruct (chg (choose isdir (pg q) (dg q))) as [[? []]|];
  destruct (chg (choose isdir (po q) (do_ q))) as [[? []]|];
  rewrite ?Bool.andb_false_r; destruct (N.testbit mode i); reflexivity.
Qed.

(** *** mode_to_perms *)
Lemma three_bit mode a b c x :
  N.testbit (three mode (2 ^ a) (2 ^ b) (2 ^ c)) (mode_bit x)
  = N.testbit mode (match x with READ => a | WRITE => b | EXEC => c end).
Proof.
  unfold three. rewrite !has_bit.
  destruct (N.testbit mode a) eqn:A, (N.testbit mode b) eqn:B, (N.testbit mode c) eqn:C, x;
    cbn; congruence.
Qed.
Lemma mode_to_perms_shown mode w :
  exists m, effective (Some (mode_to_perms mode)) false w = Some (m, EXACT)
            /\ forall x, N.testbit m (mode_bit x) = allowed mode w x.
Proof.
  destruct w; eexists; (split; [reflexivity|]); intros x.
  - etransitivity; [exact (three_bit mode 8 7 6 x)|]. now destruct x.
  - etransitivity; [exact (three_bit mode 5 4 3 x)|]. now destruct x.
  - etransitivity; [exact (three_bit mode 2 1 0 x)|]. now destruct x.
Qed.
Lemma stat_roundtrip mode w x :
  allowed (to_mode (mode_to_perms mode) false) w x = allowed mode w x.
Proof.
  rewrite to_mode_allowed. destruct (mode_to_perms_shown mode w) as (m & -> & H). apply H.
Qed.
Lemma low_bit i : i < 9 -> exists w x, i = unix_bit w x.
Proof.
  intros H. assert (D : i = 0 \/ i = 1 \/ i = 2 \/ i = 3 \/ i = 4 \/ i = 5 \/ i = 6 \/ i = 7 \/ i = 8)
    by lia.
  destruct D as [->|[->|[->|[->|[->|[->|[->|[->| ->]]]]]]]].
  - now exists OTHER, EXEC.
  - now exists OTHER, WRITE.
  - now exists OTHER, READ.
  - now exists GROUP, EXEC.
  - now exists GROUP, WRITE.
  - now exists GROUP, READ.
  - now exists USER, EXEC.
  - now exists USER, WRITE.
  - now exists USER, READ.
Qed.
Lemma stat_roundtrip_mod mode : to_mode (mode_to_perms mode) false = mode mod 512.
Proof.
  apply N.bits_inj. intros i. change 512 with (2 ^ 9).
  destruct (N.lt_ge_cases i 9) as [H|H].
  - rewrite N.mod_pow2_bits_low by assumption.
    destruct (low_bit i H) as (w & x & ->). apply stat_roundtrip.
  - rewrite N.mod_pow2_bits_high by assumption. now apply to_mode_high.
Qed.

(** *** the table *)
Lemma shown_none_file q w : p_set (file_part q w) = false -> shown (Some q) false w = None.
Proof. unfold shown; cbn. now intros ->. Qed.

Definition run_op (q : option perms) (o : op) : option perms :=
  match o with
  | SetMode m w t => set_mode q m w t
  | SetDirMode m w t => set_dir_mode q m w t
  | Unset w => unset_mode q w
  | UnsetDir w => unset_dir_mode q w
  end.
Lemma run_op_shown q o dir w :
  shown (run_op (Some q) o) dir w = spec_op (shown (Some q)) o dir w.
Proof. destruct o as [m v t|m v t|v|v], dir, w, v; reflexivity. Qed.
Lemma run_op_some q o : exists q', run_op (Some q) o = Some q'.
Proof. destruct o; eexists; reflexivity. Qed.
Lemma spec_op_ext t t' o : (forall d w, t d w = t' d w) -> forall d w, spec_op t o d w = spec_op t' o d w.
Proof.
  intros H d w. destruct o; cbn; unfold put; rewrite ?H; reflexivity.
Qed.
Lemma run_ops_shown ops : forall q,
  exists q', fold_left run_op ops (Some q) = Some q'
  /\ forall dir w, shown (Some q') dir w = fold_left spec_op ops (shown (Some q)) dir w.
Proof.
  assert (EXT : forall ops t t', (forall d w, t d w = t' d w) ->
      forall d w, fold_left spec_op ops t d w = fold_left spec_op ops t' d w).
  { induction ops0 as [|o ops0 IH]; intros t t' H d w; [apply H|].
    cbn. apply IH. now apply spec_op_ext. }
  induction ops as [|o ops IH]; intros q; [now exists q|].
  cbn [fold_left]. destruct (run_op_some q o) as [q1 E]. rewrite E.
  destruct (IH q1) as (q' & E' & H). exists q'. split; [exact E'|].
  intros dir w. rewrite H. apply EXT. intros d v. rewrite <- E. apply run_op_shown.
Qed.
(** An unset part reads as no permissions, exact: invariant of the calls. *)
Definition clean (p : part) : Prop := p_set p = false -> p_mode p = 0 /\ p_type p = EXACT.
Definition all_clean (q : perms) : Prop := forall w, clean (file_part q w) /\ clean (dir_part q w).
Lemma clean_create : all_clean perms_create.
Proof. intros []; split; intros _; split; reflexivity. Qed.
Lemma clean_op q o q' : all_clean q -> run_op (Some q) o = Some q' -> all_clean q'.
Proof.
  intros C E w. pose proof (C w) as [C1 C2].
  destruct o as [m v t|m v t|v|v]; cbn in E; injection E as <-;
    destruct v, w; cbn in *; split; try assumption; intros E; try discriminate; now split.
Qed.
Lemma clean_ops ops : forall q q', all_clean q -> fold_left run_op ops (Some q) = Some q' -> all_clean q'.
Proof.
  induction ops as [|o ops IH]; intros q q' C E; cbn [fold_left] in E; [injection E as <-; exact C|].
  destruct (run_op_some q o) as [q1 E1]. rewrite E1 in E.
  apply (IH q1); [|assumption]. eapply clean_op; eassumption.
Qed.

(** *** merge *)
Lemma merge_part_shown d s :
  chg (if p_set (merge_part d s) then Some (merge_part d s) else None)
  = merge_change (chg (if p_set d then Some d else None)) (chg (if p_set s then Some s else None)).
Proof.
  destruct d as [[] md []], s as [[] ms []]; reflexivity.
Qed.
Lemma shown_chg q dir w :
  shown (Some q) dir w
  = chg (let p := if dir then dir_part q w else file_part q w in if p_set p then Some p else None).
Proof. unfold shown; destruct dir; cbn; [destruct (p_set (dir_part q w))|destruct (p_set (file_part q w))]; reflexivity. Qed.
Lemma merge_shown d s dir w q :
  perms_merge (Some d) (Some s) = Some q ->
  shown (Some q) dir w = merge_change (shown (Some d) dir w) (shown (Some s) dir w).
Proof.
  intros E. cbn in E. injection E as <-. rewrite !shown_chg.
  destruct dir, w; cbn [file_part dir_part pu pg po du dg do_]; apply merge_part_shown.
Qed.

(** Merging changes is doing one after the other when the first is absent or exact. *)
Lemma merge_change_seq d s x old :
  (match d with Some (_, EXACT) | None => True | _ => match s with Some (_, EXACT) | None => True | _ => False end end) ->
  after (merge_change d s) x old = after s x (after d x old).
Proof.
  destruct d as [[md td]|], s as [[ms ts]|]; try destruct td; try destruct ts; cbn; intros H;
    try contradiction; rewrite ?N.lor_spec, ?N.ldiff_spec; reflexivity.
Qed.

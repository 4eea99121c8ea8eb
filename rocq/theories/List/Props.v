(** The theorems about M_list: C31, C32, C33. *)
From Verif Require Import Base.Lib Base.Mem Sort.Spec Sort.Model Sort.Props List.Spec List.Model List.Proofs List.Unsorted List.Sorted.

(** C31/C32: from a fresh list every run of permitted operations succeeds (no
    access outside the allocation, termination), and the results and the list
    behave as the specification says; values are neither lost nor freed twice.
    The list seen through its indices is the abstract one.  Partial: the uses
    excluded by [lallowed], refuted below. *)
Theorem list_refines_partial : forall cmp c g, total_preorder cmp -> wf_cfg c -> forall ops, safe cmp c [] false ops ->
  exists rs d l m fr, run cmp c g ops (create g) = Ok (rs, d) /\ chain cmp c [] false ops rs l m fr /\
    freed d = fr /\ elems d = length l /\ forall i, at_ c d i = Ok (nth i l 0%N).
Proof.
  intros cmp c g Hc W ops Sa.
  destruct (run_ok cmp Hc c g W ops (create g) [] false [] (rep_create g)) as (rs & d & l & m & fr & E & C & R).
  - intros _. constructor.
  - unfold view. now destruct (stack c).
  - exists rs, d, (view c l), m, fr. split; auto. split. { unfold view in C at 1. now destruct (stack c). }
    rewrite app_nil_r in R. pose proof R as (_ & L & _ & _ & F). split; auto. split; [now rewrite view_len|].
    intros i. now apply (at_u cmp c g d l m fr).
Qed.
Print Assumptions list_refines_partial.

(** C31: on a list that is not sorted the specification is a function. *)
Fixpoint uruns (cmp : N -> N -> Z) (c : cfg) (ops : list lop) (l : list N) : list ret * list N :=
  match ops with
  | [] => ([], l)
  | o :: ops' => let '(r, l) := ustep cmp c l o in let '(rs, l) := uruns cmp c ops' l in (r :: rs, l)
  end.
Fixpoint usafe (cmp : N -> N -> Z) (c : cfg) (ops : list lop) (l : list N) : Prop :=
  match ops with
  | [] => True
  | o :: ops' => uallowed cmp c l o /\ usafe cmp c ops' (snd (ustep cmp c l o))
  end.
Lemma uruns_ok cmp c g : srt c = false -> forall ops d l m f, Rep d l m f -> usafe cmp c ops (view c l) ->
  exists rs d' l' m' f', run cmp c g ops d = Ok (rs, d') /\ uruns cmp c ops (view c l) = (rs, view c l') /\ Rep d' l' m' f'.
Proof.
  intros Hs. induction ops as [|o ops IH]; intros d l m f R Sa.
  - exists [], d, l, m, f. auto.
  - destruct Sa as [Al Sa].
    assert (H : exists r d1 l1 m1 f1, step cmp c g d o = Ok (r, d1) /\ (r, view c l1) = ustep cmp c (view c l) o /\ Rep d1 l1 m1 f1).
    { assert (Ho : {o = InsertEnd} + {o <> InsertEnd}) by (destruct o; (left; reflexivity) || (right; discriminate)).
      destruct Ho as [->|Ho].
      - cbn [step]. unfold insert_end. pose proof R as (R1 & L & B & M & F). rewrite M, Hs. destruct m; cbn [negb andb bind].
        + do 2 eexists; exists l; do 2 eexists. split; [reflexivity|]. split; [reflexivity|].
          split; [exact R1|]. cbn. split; [exact L|]. split; [exact B|]. split; [reflexivity|exact F].
        + do 2 eexists; exists l; do 2 eexists. split; [reflexivity|]. split; [reflexivity|]. exact R.
      - destruct (step_u cmp c g d l m f o R) as (r & d' & E & s' & E1 & l' & fr & Ev & R' & _); auto.
        { intros _. unfold is_sorting. now rewrite Hs. }
        exists r, d', l'. rewrite Ev. eauto 6. }
    destruct H as (r & d1 & l1 & m1 & f1 & E & E1 & R1). rewrite <- E1 in Sa. cbn [snd] in Sa.
    destruct (IH d1 l1 m1 f1 R1 Sa) as (rs & d' & l' & m' & f' & E2 & E3 & R2).
    exists (r :: rs), d', l', m', f'. cbn [run uruns]. rewrite E, <- E1. cbn [bind]. rewrite E2, E3. auto.
Qed.
Theorem unsorted_list_refines_partial : forall cmp c g, srt c = false -> forall ops, usafe cmp c ops [] ->
  exists d, run cmp c g ops (create g) = Ok (fst (uruns cmp c ops []), d) /\
    let l := snd (uruns cmp c ops []) in elems d = length l /\ forall i, at_ c d i = Ok (nth i l 0%N).
Proof.
  intros cmp c g Hs ops Sa.
  destruct (uruns_ok cmp c g Hs ops (create g) [] false [] (rep_create g)) as (rs & d & l & m & f & E & E1 & R).
  - unfold view. now destruct (stack c).
  - assert (Ev : view c [] = []) by (unfold view; now destruct (stack c)). rewrite Ev in E1. rewrite E1. cbn [fst snd].
    exists d. split; auto. cbn zeta. pose proof R as (_ & L & _). rewrite view_len. split; auto. intros i. now apply (at_u cmp c g d l m f).
Qed.
Print Assumptions unsorted_list_refines_partial.

(** C32: a sorted list that is not in a multi insert is sorted after every
    permitted run, whatever the run. *)
Theorem sorted_list_sorted_partial : forall cmp c g, total_preorder cmp -> wf_cfg c -> srt c = true -> forall ops, safe cmp c [] false ops ->
  exists rs d l fr, run cmp c g ops (create g) = Ok (rs, d) /\ freed d = fr /\ elems d = length l /\
    (forall i, at_ c d i = Ok (nth i l 0%N)) /\ (multi d = false -> sorted cmp l).
Proof.
  intros cmp c g Hc W Hs ops Sa.
  destruct (run_ok cmp Hc c g W ops (create g) [] false [] (rep_create g)) as (rs & d & l & m & fr & E & C & R).
  - intros _. constructor.
  - unfold view. now destruct (stack c).
  - exists rs, d, (view c l), fr. split; auto. rewrite app_nil_r in R. pose proof R as (_ & L & _ & M & F). split; auto. split; [now rewrite view_len|].
    split; [intros i; now apply (at_u cmp c g d l m fr)|]. rewrite M. clear - C Hs.
    assert (G : forall l m ops rs l' m' fr, chain cmp c l m ops rs l' m' fr -> (is_sorting c m = true -> sorted cmp l) -> is_sorting c m' = true -> sorted cmp l').
    { induction 1 as [|? ? ? ? ? ? ? ? ? ? ? ? (_ & _ & H & _) _ IH]; auto. }
    intros ->. apply (G _ _ _ _ _ _ _ C).
    + intros _. unfold view. destruct (stack c); constructor.
    + unfold is_sorting. now rewrite Hs.
Qed.
Print Assumptions sorted_list_sorted_partial.

(** What is in the list and what was freed or handed out is what was put in. *)
Theorem list_conserves : forall cmp c l m ops rs l' m' fr, chain cmp c l m ops rs l' m' fr ->
  exists gv tk, Permutation (gv ++ l) (l' ++ fr ++ tk) /\
    (forall x, In x gv -> exists o, In o ops /\
        match o with Insert v | InsertAt v _ | ReplaceAt v _ | ReplaceVal _ v _ => v = x | _ => False end) /\
    (forall x, In x tk -> In (RV x) rs).
Proof.
  induction 1 as [|l m o ops r rs l1 m1 f l2 m2 f2 (_ & _ & _ & P) C (gv & tk & IH & Hg & Ht)].
  - exists [], []. cbn. rewrite app_nil_r. split; auto. split; intros x [].
  - exists (given cmp c l o r ++ gv), (taken l o r ++ tk). split; [perm|]. split.
    + intros x Hx. apply in_app_or in Hx as [Hx|Hx].
      * exists o. split; [now left|]. destruct o, r as [[|]| | |]; cbn in Hx; try contradiction; try (destruct Hx as [->|[]]; reflexivity).
        destruct (in_set cmp c w l); [contradiction|]. apply repeat_spec in Hx. auto.
      * destruct (Hg x Hx) as (o' & Ho & E). exists o'. split; [now right|auto].
    + intros x Hx. apply in_app_or in Hx as [Hx|Hx]; [left|right; auto].
      destruct o, r; cbn [taken] in Hx; try contradiction; match type of Hx with In _ (if ?q then _ else _) => destruct q end; try contradiction; destruct Hx as [->|[]]; auto.
Qed.
Print Assumptions list_conserves.

(** C33: what M_list_remove_duplicates leaves (unsorted by either criterion,
    sorted by pointer): no two elements match, every old element matches one
    that is left, the rest keeps its order. *)
Inductive subseq : list N -> list N -> Prop :=
| ss_nil : subseq [] []
| ss_keep x a b : subseq a b -> subseq (x :: a) (x :: b)
| ss_drop x a b : subseq a b -> subseq a (x :: b).
Lemma subseq_filter p l : subseq (filter p l) l.
Proof. induction l as [|x l IH]; cbn [filter]; [constructor|]. destruct (p x); constructor; auto. Qed.
Lemma subseq_trans a b : subseq a b -> forall d, subseq d a -> subseq d b.
Proof.
  induction 1 as [|x a b H IH|x a b H IH]; intros d Hd.
  - auto.
  - inversion Hd; subst; constructor; auto.
  - constructor. auto.
Qed.
Lemma dedup_ok (p : N -> N -> bool) : (forall x, p x x = true) -> (forall x y, p x y = true -> p y x = true) ->
  forall n l, length l <= n -> subseq (dedup n p l) l /\ (forall x, In x l -> exists y, In y (dedup n p l) /\ p x y = true) /\
    ForallOrdPairs (fun x y => p x y = false) (dedup n p l).
Proof.
  intros Rf Sy. assert (Hf : forall q (l : list N), length (filter q l) <= length l).
  { intros q l. induction l as [|x l IH]; cbn [filter length]; [lia|]. destruct (q x); cbn [length]; lia. }
  induction n as [|n IH]; intros [|x l] H; cbn [length dedup] in *; try lia.
  1,2: split; [constructor|split; [intros x []|constructor]].
  destruct (IH (filter (fun y => negb (p x y)) l)) as (I1 & I2 & I3). { pose proof (Hf (fun y => negb (p x y)) l). lia. }
  split; [|split].
  - constructor. eapply subseq_trans; [apply subseq_filter|exact I1].
  - intros z [<-|Hz]; [exists x; split; [now left|auto]|]. destruct (p x z) eqn:E.
    + exists x. split; [now left|auto].
    + destruct (I2 z) as (y & Hy & Ey). { apply filter_In. rewrite E. auto. } exists y. split; [now right|auto].
  - constructor; auto. rewrite Forall_forall. intros y Hy. apply dedup_in, filter_In in Hy as [_ Hy]. now destruct (p x y).
Qed.
Definition distinct_of (p : N -> N -> bool) (l' l : list N) : Prop :=
  subseq l' l /\ (forall x, In x l -> exists y, In y l' /\ p x y = true) /\ ForallOrdPairs (fun x y => p x y = false) l'.
Theorem remove_duplicates_partial : forall cmp c g d l m f t, total_preorder cmp -> wf_cfg c -> Rep d l m f ->
  (is_sorting c m = true -> sorted cmp l /\ mptr t = true) -> (mptr t || has_eq c = true) ->
  exists d' l' fr, step cmp c g d (RemoveDups t) = Ok (RB true, d') /\ Rep d' l' m (fr ++ f) /\
    distinct_of (matches cmp t) l' l /\ Permutation l (l' ++ fr).
Proof.
  intros cmp c g d l m f t Hc W R Hs Ht.
  assert (G : distinct_of (matches cmp t) (dedup (length l) (matches cmp t) l) l).
  { apply dedup_ok; auto.
    - intros x. unfold matches. rewrite N.eqb_refl, (crefl cmp Hc x). now destruct (mptr t).
    - intros x y. unfold matches. destruct (mptr t); [rewrite N.eqb_sym; auto|]. intros E. apply Z.eqb_eq in E. apply Z.eqb_eq. pose proof (cflip cmp Hc x y). lia. }
  cbn [step]. unfold remove_duplicates. pose proof R as (_ & L & _ & M & _).
  assert (negb (mptr t) && negb (has_eq c) = false) as -> by (destruct (mptr t), (has_eq c); auto; discriminate).
  destruct (is_sorting c m) eqn:Is.
  - destruct (Hs eq_refl) as [Sl P].
    assert (Hm : m = false) by (unfold is_sorting in Is; destruct (srt c), m; auto; discriminate).
    assert (Hsr : srt c = true) by (unfold is_sorting in Is; destruct (srt c), m; auto; discriminate). subst m. rewrite Hm in *.
    destruct W as [W _]. destruct (W Hsr) as [He Hq].
    destruct (dup_outer_s cmp Hc c g Hsr Hq t P (S (elems d)) d [] l f) as (d' & fr & E & R' & Pm); auto. { lia. }
    cbn [length] in E. rewrite E. cbn [bind app] in *. exists d', (dedup (length l) (matches cmp t) l), fr. split; auto.
  - destruct (dup_outer_u cmp c g t (S (elems d)) d [] l m f Is R ltac:(lia)) as (d' & fr & E & R' & Pm).
    cbn [length] in E. rewrite E. cbn [bind app] in *. exists d', (dedup (length l) (matches cmp t) l), fr. split; auto.
Qed.
Print Assumptions remove_duplicates_partial.

(** C33 fails for a sorted list by value: of three different values one goes. *)
Definition ncmp (x y : N) : Z := (Z.of_N x - Z.of_N y)%Z.
Example ncmp_preorder : total_preorder ncmp.
Proof. split; unfold ncmp; intros; lia. Qed.
Definition plain : cfg := mkc false false false false false false true.
Definition stk : cfg := mkc true false false false false false true.
Definition set_ : cfg := mkc false false false true false false true.
Definition srtd : cfg := mkc false true false false false false true.
Definition seen (c : cfg) (d : lst) : list (res N) := map (at_ c d) (seq 0 (elems d)).
Definition ends (cmp : N -> N -> Z) (c : cfg) (ops : list lop) : res (list ret * list (res N)) :=
  do '(rs, d) <- run cmp c 77%N ops (create 77); Ok (rs, seen c d).
Definition val := mkt false false.
Definition vall := mkt true false.
Theorem remove_duplicates_refuted :
  ends ncmp srtd [Insert 1%N; Insert 2%N; Insert 3%N; RemoveDups val] = Ok ([RB true; RB true; RB true; RB true], [Ok 1%N; Ok 3%N]).
Proof. vm_compute. reflexivity. Qed.
Print Assumptions remove_duplicates_refuted.

(** C32: all matches by pointer of a sorted list are not removed, although
    counted. *)
Theorem sorted_remove_ptr_refuted :
  ends ncmp srtd [Insert 5%N; Insert 5%N; Insert 5%N; RemoveVal 5%N (mkt true true)] = Ok ([RB true; RB true; RB true; RN 3], [Ok 5%N]).
Proof. vm_compute. reflexivity. Qed.
Print Assumptions sorted_remove_ptr_refuted.

(** C31: uses that go wrong.  Insertion into a stack at index 0 lands at index 1. *)
Theorem stack_insert_at_refuted :
  ends ncmp stk [Insert 1%N; Insert 2%N; InsertAt 3%N 0] = Ok ([RB true; RB true; RB true], [Ok 2%N; Ok 3%N; Ok 1%N]).
Proof. vm_compute. reflexivity. Qed.
Print Assumptions stack_insert_at_refuted.
(** An index beyond the end inserts before the last value, not behind it. *)
Theorem insert_at_beyond_refuted :
  ends ncmp plain [Insert 1%N; Insert 2%N; InsertAt 3%N 10] = Ok ([RB true; RB true; RB true], [Ok 1%N; Ok 3%N; Ok 2%N]).
Proof. vm_compute. reflexivity. Qed.
Print Assumptions insert_at_beyond_refuted.
(** Removing a range from a stack passes a negative length to memset. *)
Theorem stack_remove_range_refuted :
  ends ncmp stk [Insert 1%N; Insert 2%N; Insert 3%N; RemoveRange 0 2] = UB.
Proof. vm_compute. reflexivity. Qed.
Print Assumptions stack_remove_range_refuted.
(** Removing a value from a stack removes the value at the mirrored index. *)
Theorem stack_remove_val_refuted :
  ends ncmp stk [Insert 5%N; Insert 6%N; Insert 7%N; RemoveVal 5%N val] = Ok ([RB true; RB true; RB true; RN 1], [Ok 6%N; Ok 5%N]).
Proof. vm_compute. reflexivity. Qed.
Print Assumptions stack_remove_val_refuted.
(** Swapping with the index one behind the end succeeds and loses the value. *)
Theorem swap_beyond_refuted :
  ends ncmp plain [Insert 1%N; Swap 0 1] = Ok ([RB true; RB true], [Ok 77%N]).
Proof. vm_compute. reflexivity. Qed.
Print Assumptions swap_beyond_refuted.
(** A set holds a value twice after replacing at an index. *)
Theorem set_replace_at_refuted :
  ends ncmp set_ [Insert 1%N; Insert 2%N; ReplaceAt 1%N 1; Insert 1%N] = Ok ([RB true; RB true; RB true; RB false], [Ok 1%N; Ok 1%N]).
Proof. vm_compute. reflexivity. Qed.
Print Assumptions set_replace_at_refuted.

(** Cases the theorems speak about *)
Example list_case :
  usafe ncmp plain [Insert 3%N; Insert 1%N; Insert 3%N; InsertAt 9%N 1; RemoveRange 1 2; ReplaceVal 3%N 4%N vall; Swap 0 1; TakeLast; RemoveDups val; At 0] [] /\
  ends ncmp plain [Insert 3%N; Insert 1%N; Insert 3%N; InsertAt 9%N 1; RemoveRange 1 2; ReplaceVal 3%N 4%N vall; Swap 0 1; TakeLast; RemoveDups val; At 0] =
  Ok ([RB true; RB true; RB true; RB true; RB true; RN 2; RB true; RV 4%N; RB true; RV 4%N], [Ok 4%N]).
Proof. split; [cbn; intuition lia|vm_compute; reflexivity]. Qed.
Example stack_case :
  usafe ncmp stk [Insert 3%N; Insert 1%N; Insert 2%N; At 0; Last; RemoveAt 1; Count 3%N val; TakeFirst] [] /\
  ends ncmp stk [Insert 3%N; Insert 1%N; Insert 2%N; At 0; Last; RemoveAt 1; Count 3%N val; TakeFirst] =
  Ok ([RB true; RB true; RB true; RV 2%N; RV 3%N; RB true; RN 1; RV 2%N], [Ok 3%N]).
Proof. split; [cbn; intuition lia|vm_compute; reflexivity]. Qed.
(** A sufficient condition for [safe] *)
Definition mild (o : lop) : bool :=
  match o with
  | RemoveVal _ t | ReplaceVal _ _ t => negb (mall t && mptr t)
  | InsertAt _ _ | RemoveDups _ | Swap _ _ => false
  | _ => true
  end.
Lemma mild_safe cmp c : stack c = false -> forall ops l m, forallb mild ops = true -> safe cmp c l m ops.
Proof.
  intros Hq. induction ops as [|o ops IH]; intros l m H; [exact Logic.I|]. cbn [forallb] in H. apply andb_true_iff in H as [H1 H2]. cbn [safe]. split.
  - destruct o; cbn [lallowed]; try discriminate H1; destruct (is_sorting c m); cbn [sallowed uallowed]; try exact Logic.I; auto;
      intros A B; cbn [mild] in H1; rewrite A, B in H1; discriminate H1.
  - intros r l' m' f _. now apply IH.
Qed.
Example sorted_case :
  safe ncmp srtd [] false [Insert 3%N; Insert 1%N; InsertBegin; Insert 4%N; InsertEnd; RemoveVal 3%N vall; IndexOf 1%N val; ReplaceVal 1%N 5%N vall] /\
  ends ncmp srtd [Insert 3%N; Insert 1%N; InsertBegin; Insert 4%N; InsertEnd; RemoveVal 3%N vall; IndexOf 1%N val; ReplaceVal 1%N 5%N vall] =
  Ok ([RB true; RB true; RB true; RB true; RB true; RN 1; RI (Some 0); RN 1], [Ok 4%N; Ok 5%N]).
Proof. split; [apply mild_safe; reflexivity|vm_compute; reflexivity]. Qed.

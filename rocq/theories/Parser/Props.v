(** Properties C25 - C28, C55: the stream parser. *)
From Verif Require Import Base.Lib Base.Mem Hex.Model Buf.Model MemFn.Model MemFn.Spec MemFn.Proofs Parser.Spec Parser.Model Parser.Proofs Parser.Steps Parser.Boundary.
Local Open Scope N_scope.

(** The unread data, as M_parser_peek and M_parser_len give it *)
Definition unread (p : parser) : res (list N) := rdn (pmem p) (ppos p) (plen p).

(** ** C25: a parser is a byte stream *)

(** Missing for the full statement: appending while a mark is set at the
    current position and nothing is unread (see [parser_mark_refuted]), and
    the reading searches whose piece exceeds the buffer, which [sstep]
    describes as they are (see [parser_failed_read_refuted]). *)
Theorem parser_dyn_refines_partial : forall g track ops, all_allowed true ops (start_stream []) ->
  let '(rs, s) := srun true ops (start_stream []) [] in
  exists p, run g ops (create track) [] = Ok (rs, p) /\ unread p = Ok (rest s) /\ plen p = length (rest s).
Proof.
  intros g track ops A. destruct (run_ok g ops (create track) (start_stream []) [] (create_ok track) A) as (p & E & R & _).
  cbn [pdyn create] in *. destruct (srun true ops (start_stream []) []) as [rs s]. exists p. split; auto.
  split; [now apply rest_rdn|now apply rep_plen].
Qed.
Print Assumptions parser_dyn_refines_partial.

Theorem parser_const_refines_partial : forall g track d ops, is_bytes d -> all_allowed false ops (start_stream d) ->
  let '(rs, s) := srun false ops (start_stream d) [] in
  exists p, run g ops (create_const d track) [] = Ok (rs, p) /\ unread p = Ok (rest s) /\ plen p = length (rest s).
Proof.
  intros g track d ops B A. destruct (run_ok g ops (create_const d track) (start_stream d) [] (create_const_ok d track B) A) as (p & E & R & _).
  cbn [pdyn create_const] in *. destruct (srun false ops (start_stream d) []) as [rs s]. exists p. split; auto.
  split; [now apply rest_rdn|now apply rep_plen].
Qed.
Print Assumptions parser_const_refines_partial.

Ltac bytes := repeat (apply Forall_cons || apply Forall_nil); reflexivity.
Definition demo : list op :=
  [Append [65; 66; 67; 68; 69]; ReadBytes 2; Mark; Consume 1; Append [70; 71; 72; 73; 74; 75]; ReadBytesMax 3 10; MarkLen; MarkRewind;
   ReadUntil 5 [69; 70] true; PeekMark; Truncate 3; ReadInt 2 false; Offset; MarkClear; DirectWrite 4 [32; 10; 9]; ReadMark 9;
   Consume 1; ConsumeWhite true false; ReadBytes 2; Len].
Example demo_ok : all_allowed true demo (start_stream []) /\
  srun true demo (start_stream []) [] =
    ([RLen 1; RBytes 0 []; RLen 2; RBool true; RBytes 0 []; RBool true; RBool true; RLen 8; RVal (Some 18503); RBool true;
      RBytes 4 [67; 68; 69; 70]; RBytes 4 [67; 68; 69; 70]; RLen 4; RLen 4; RBytes 3 [68; 69; 70]; RBool true; RBool true; RBool true;
      RBytes 1 [65; 66]; RBool true], mks [65; 66; 67; 68; 69; 70; 71; 72; 73; 32; 10] [9] None None).
Proof.
  split; [|vm_compute; reflexivity].
  cbn [all_allowed demo allowed]. repeat split; try exact Logic.I; try bytes; vm_compute; auto; try lia; intros; discriminate.
Qed.

(** A reading call that reports failure leaves the unread data alone ... *)
Definition reads (o : op) : bool :=
  match o with
  | ReadBytes _ | ReadBytesMax _ _ | ReadMark _ | ReadUntil _ _ _ | ReadSet _ _ _ | ReadPred _ _ | ReadInt _ _ | ReadBcd _ => true
  | _ => false
  end.
Definition failed (r : out) : Prop := r = RBytes 0 [] \/ r = RVal None.
(** ... provided the piece found fits the buffer given. *)
Definition fits (l : list N) (o : op) : Prop :=
  match o with
  | ReadUntil bl pat eat => (until pat eat l <= bl)%nat
  | ReadSet bl cs inc => (set_span cs inc l <= bl)%nat
  | _ => True
  end.
Lemma failed_keeps dyn s o : reads o = true -> fits (rest s) o -> failed (fst (sstep dyn s o)) -> rest (snd (sstep dyn s o)) = rest s.
Proof.
  intros H HF F. destruct o; try discriminate H; cbn [sstep fits] in *.
  all: repeat match type of F with
       | context [if ?b then _ else _] => destruct b eqn:?
       | context [take _ ?n _] => unfold take in *
       end; cbn [fst snd rest adv] in *; auto.
  all: repeat match goal with
       | H : (_ && _)%bool = true |- _ => apply andb_true_iff in H; destruct H
       | H : (_ <? _)%nat = true |- _ => apply Nat.ltb_lt in H
       | H : (_ <=? _)%nat = true |- _ => apply Nat.leb_le in H
       | H : (_ <=? _)%nat = false |- _ => apply Nat.leb_gt in H
       | H : (_ =? _)%nat = false |- _ => apply Nat.eqb_neq in H
       end; try lia; try (destruct F; discriminate).
  - assert (Z : Nat.min n (length (rest s)) = O) by (destruct F as [F|F]; [injection F as -> _; auto|discriminate]). now rewrite Z.
  - destruct F as [F|F]; [injection F as Z _; congruence|discriminate].
  - destruct F as [F|F]; [injection F as Z _; congruence|discriminate].
  - destruct F as [F|F]; [injection F as Z _; congruence|discriminate].
  - pose proof (span_le f (firstn buf_len (rest s))) as SL. rewrite firstn_length in SL. lia.
Qed.
Theorem parser_failed_read_partial : forall g p s o r p', Rep p s -> allowed s o -> reads o = true -> fits (rest s) o ->
  step g p o = Ok (r, p') -> failed r -> unread p' = unread p.
Proof.
  intros g p s o r p' R A H HF E F. destruct (step_ok g p s o R A) as (q & E' & R' & _). rewrite E in E'. injection E' as -> <-.
  unfold unread. rewrite (rest_rdn p s R), (rest_rdn _ _ R'). f_equal. now apply failed_keeps.
Qed.
Print Assumptions parser_failed_read_partial.
(** M_parser_read_bytes_until with a four byte buffer, the delimiter seven
    bytes away: nothing is returned, seven bytes are lost. *)
Definition lossy : list op := [Append [65; 66; 67; 68; 69; 70; 10; 71]; ReadUntil 4 [10] true; Len].
Theorem parser_failed_read_refuted : exists ops, all_allowed true ops (start_stream []) /\
  exists p, run 0 ops (create false) [] = Ok ([RLen 1; RBytes 0 []; RBool true], p) /\ all_appended ops = [65; 66; 67; 68; 69; 70; 10; 71].
Proof.
  exists lossy. split.
  - cbn. repeat split; try bytes. intros _ _. left. reflexivity.
  - eexists. split; [vm_compute; reflexivity|reflexivity].
Qed.
Print Assumptions parser_failed_read_refuted.

(** ** C26: marks *)
Lemma keeps_content dyn s o : keeps_mark o = true ->
  let s' := snd (sstep dyn s o) in
  um s' = um s /\ past s' ++ rest s' = past s ++ rest s ++ (if dyn then appended o else []) /\
  exists x, past s' = past s ++ x.
Proof.
  intros K. assert (AD : forall n, um (adv s n) = um s /\ past (adv s n) ++ rest (adv s n) = past s ++ rest s ++ [] /\
    exists x, past (adv s n) = past s ++ x).
  { intros n. unfold adv. cbn [um past rest]. split; auto. split; [|eauto].
    now rewrite <- app_assoc, firstn_skipn, app_nil_r. }
  assert (TK : forall n bl, let s' := snd (take s n bl) in um s' = um s /\ past s' ++ rest s' = past s ++ rest s ++ [] /\
    exists x, past s' = past s ++ x).
  { intros n bl. unfold take. destruct (n =? 0)%nat; [|destruct (n <=? bl)%nat]; cbn [snd um past rest].
    - split; auto. split; [now rewrite app_nil_r|exists []; now rewrite app_nil_r].
    - apply (AD n).
    - apply (AD n). }
  assert (ID : um s = um s /\ past s ++ rest s = past s ++ rest s ++ [] /\ exists x, past s = past s ++ x).
  { split; auto. split; [now rewrite app_nil_r|exists []; now rewrite app_nil_r]. }
  destruct o; try discriminate K; cbn [sstep appended];
    repeat match goal with |- context [if ?b then _ else _] => destruct b end; cbn [snd fst]; try apply AD; try apply ID; try apply TK;
    cbn [um past rest]; (split; [reflexivity|split; [now rewrite app_assoc || now rewrite app_nil_r|exists []; now rewrite app_nil_r]]).
Qed.
Lemma keeps_run dyn : forall ops s outs, forallb keeps_mark ops = true ->
  let s' := snd (srun dyn ops s outs) in
  um s' = um s /\ past s' ++ rest s' = past s ++ rest s ++ (if dyn then all_appended ops else []) /\ exists x, past s' = past s ++ x.
Proof.
  induction ops as [|o ops IH]; intros s outs K; cbn [srun].
  - cbn. split; auto. split; [destruct dyn; now rewrite app_nil_r|exists []; now rewrite app_nil_r].
  - cbn [forallb] in K. apply andb_true_iff in K. destruct K as (K1 & K2).
    pose proof (keeps_content dyn s o K1) as KC. destruct (sstep dyn s o) as [r s1]. cbn [snd] in KC. destruct KC as (A & B & x & C).
    destruct (IH s1 (r :: outs) K2) as (A' & B' & x' & C'). split; [congruence|]. split.
    + rewrite B'. replace (past s1 ++ rest s1 ++ (if dyn then all_appended ops else [])) with ((past s1 ++ rest s1) ++ (if dyn then all_appended ops else [])) by now rewrite app_assoc.
      rewrite B. unfold all_appended. cbn [map concat]. destruct dyn; rewrite ?app_nil_r, <- ?app_assoc; auto.
    + exists (x ++ x'). rewrite C', C. now rewrite app_assoc.
Qed.

(** After a mark, any operations that keep it and then a rewind, the unread
    data is what it was at the mark with what was appended since; the length
    marked, and returned by the rewind, is the number of bytes consumed since. *)
Theorem parser_mark_partial : forall g p s ops, Rep p s -> forallb keeps_mark ops = true ->
  all_allowed (pdyn p) (Mark :: ops) s ->
  exists p1 p2 rs, run g (Mark :: ops) p [] = Ok (rs, p1) /\
    (ppos p1 <= length (pmem p1))%nat /\ (pcons p <= pcons p1)%nat /\
    mark_len p1 = N.of_nat (pcons p1 - pcons p) /\
    mark_rewind p1 = Ok (N.of_nat (pcons p1 - pcons p), p2) /\
    unread p2 = Ok (rest s ++ if pdyn p then all_appended ops else []) /\ pcons p2 = pcons p.
Proof.
  intros g p s ops R K A. destruct (run_ok g (Mark :: ops) p s [] R A) as (p1 & E & R1 & D1).
  cbn [srun sstep] in *.
  pose proof (keeps_run (pdyn p) ops (mks (past s) (rest s) (Some (length (past s))) (im s)) [RBool true] K) as KR. cbv zeta in KR.
  destruct (srun (pdyn p) ops (mks (past s) (rest s) (Some (length (past s))) (im s)) [RBool true]) as [rs s1]. cbn [fst snd um past rest] in *.
  destruct KR as (U & C & x & PX).
  assert (SN : since s1 (um s1) = length x) by (rewrite U; unfold since; rewrite PX, app_length; lia).
  destruct (mark_rewind_ok p1 s1 R1) as (p2 & E2 & R2 & D2). rewrite SN in *.
  assert (PC : pcons p = length (past s)) by (destruct R as (? & ? & R); apply (r_cons _ _ _ _ R)).
  assert (PC1 : pcons p1 = length (past s1)) by (destruct R1 as (? & ? & R1); apply (r_cons _ _ _ _ R1)).
  assert (LX : (pcons p1 - pcons p)%nat = length x) by (rewrite PC, PC1, PX, app_length; lia).
  assert (ML : mark_len p1 = N.of_nat (length x)).
  { destruct (marked_ok p1 s1 true false R1) as (st0 & EM & _ & _). unfold mark_len. rewrite EM. cbn [snd].
    assert (SM : smin true false s1 = um s1) by (unfold smin; destruct (um s1); auto). now rewrite SM, SN. }
  assert (C2 : rest s1 = skipn (length x) (rest s ++ if pdyn p then all_appended ops else []) /\ x = firstn (length x) (rest s ++ if pdyn p then all_appended ops else [])).
  { rewrite PX, <- app_assoc in C. apply app_inv_head in C. rewrite <- C. split.
    - now rewrite skipn_app, skipn_all, Nat.sub_diag.
    - now rewrite firstn_app, Nat.sub_diag, firstn_O, app_nil_r, firstn_all. }
  exists p1, p2, rs. rewrite LX. split; auto. split.
  { destruct R1 as (pre & post & R1). rewrite (r_mem _ _ _ _ R1), app_length, (r_pos _ _ _ _ R1). lia. }
  split; [rewrite PC, PC1, PX, app_length; lia|]. split; auto. split; auto.
  unfold unread. rewrite (rest_rdn p2 _ R2).
  assert (PC2 : pcons p2 = length (past (if (length x =? 0)%nat then s1 else back s1 (length x)))) by (destruct R2 as (? & ? & R2); apply (r_cons _ _ _ _ R2)).
  rewrite PC2, PC. destruct (Nat.eqb_spec (length x) 0) as [Z|Z].
  - destruct x; [|discriminate]. destruct C2 as (C2 & _). cbn [length] in C2. rewrite skipn_O in C2. split; [congruence|]. rewrite PX, app_nil_r. auto.
  - unfold back. cbn [rest past]. rewrite PX, app_length. replace (length (past s) + length x - length x)%nat with (length (past s)) by lia.
    rewrite skipn_app, skipn_all, Nat.sub_diag, firstn_app, Nat.sub_diag, firstn_O, app_nil_r, firstn_all. split; auto.
    cbn [app]. destruct C2 as (C2 & C3). rewrite skipn_O, C2. rewrite C3 at 1. now rewrite firstn_skipn.
Qed.
Print Assumptions parser_mark_partial.

Example parser_mark_case : Rep (create false) (start_stream []) /\
  all_allowed true [Append [1; 2; 3]; Consume 1; Mark; Consume 1; Append [4; 5; 6; 7; 8; 9]; ReadBytes 3] (start_stream []) /\
  exists p, run 0 [Append [1; 2; 3]; Consume 1; Mark; Consume 1; Append [4; 5; 6; 7; 8; 9]; ReadBytes 3; MarkRewind] (create false) [] =
    Ok ([RLen 4; RBytes 1 [3; 4; 5]; RBool true; RBool true; RBool true; RBool true; RBool true], p) /\
    unread p = Ok [2; 3; 4; 5; 6; 7; 8; 9].
Proof.
  split; [apply create_ok|]. split.
  - cbn [all_allowed allowed sstep snd]. repeat split; try bytes; vm_compute; auto; intros; discriminate.
  - eexists. split; vm_compute; reflexivity.
Qed.

(** Without the restriction: the mark is not moved with the buffer, the marked
    length wraps around. *)
Theorem parser_mark_refuted : exists ops p, run 0 ops (create false) [] = Ok ([RBool true; RBool true; RBool true; RBool true], p) /\
  ops = [Append [97; 98; 99]; Consume 3; Mark; Append [100; 101; 102]] /\ mark_len p = 2 ^ 64 - 3 /\ mark_clear p = UB.
Proof. eexists. eexists. split; [|split; [reflexivity|]]; vm_compute; [reflexivity|]. repeat split; reflexivity. Qed.
Print Assumptions parser_mark_refuted.

(** ** C27: boundaries *)

(** In any case: what is reported found is there, what is kept back otherwise
    is the beginning of the pattern, and the rest of the data is untouched. *)
Theorem parser_boundary_sound : forall p s pat eat, Rep p s -> pat <> [] -> rest s <> [] ->
  exists n found p', consume_boundary p pat eat = Ok ((if found && eat then n + length pat else n)%nat, found, p') /\
    unread p' = Ok (skipn (if found && eat then n + length pat else n)%nat (rest s)) /\
    (n <= length (rest s))%nat /\
    (if found : bool then prefixb pat (skipn n (rest s)) = true
     else prefixb (skipn n (rest s)) pat = true /\ (length (rest s) - n < length pat)%nat).
Proof.
  intros p s pat eat R NE NL. unfold consume_boundary.
  assert (LP : (0 < length pat)%nat) by (destruct pat; cbn; [congruence|lia]). destruct (Nat.eqb_spec (length pat) 0) as [ZZ|_]; [lia|].
  pose proof R as (pre & post & RA).
  destruct (boundary_ok pre post pat (rest s) NE NL) as (f & n & E & HN & HF & _).
  rewrite (rep_plen p s R), (r_mem _ _ _ _ RA), <- (r_pos _ _ _ _ RA), E. cbn [bind].
  destruct (consume_ok p s (if f && eat then n + length pat else n)%nat R) as (p' & E' & R' & _).
  { destruct f, eat; cbn [andb]; try lia. }
  rewrite E'. cbn [bind]. exists n, f, p'. split; auto. split; [unfold unread; apply (rest_rdn p' _ R')|]. split; auto. destruct f; tauto.
Qed.
Print Assumptions parser_boundary_sound.

(** It is what it should be when no match that breaks off overlaps the start
    of another.  Missing: there is no backtracking, see the refutation; and the
    case of no unread data. *)
Theorem parser_boundary_partial : forall p s pat eat, Rep p s -> pat <> [] -> rest s <> [] -> breaks_clean pat (rest s) ->
  exists n found p', consume_boundary p pat eat = Ok ((if found && eat then n + length pat else n)%nat, found, p') /\
    boundary_at pat (rest s) found n.
Proof.
  intros p s pat eat R NE NL BC. destruct (parser_boundary_sound p s pat eat R NE NL) as (n & f & p' & E & _).
  exists n, f, p'. split; auto. unfold consume_boundary in E.
  assert (LP : (0 < length pat)%nat) by (destruct pat; cbn; [congruence|lia]). destruct (Nat.eqb_spec (length pat) 0) as [ZZ|_]; [lia|].
  pose proof R as (pre & post & RA).
  destruct (boundary_ok pre post pat (rest s) NE NL) as (f1 & n1 & E1 & HN & HF & HB).
  rewrite (rep_plen p s R), (r_mem _ _ _ _ RA), <- (r_pos _ _ _ _ RA), E1 in E. cbn [bind] in E.
  destruct (consume p (if f1 && eat then n1 + length pat else n1)%nat) as [[b q]| |]; try discriminate. cbn [bind] in E.
  injection E as E2 <- _. destruct f1, eat; cbn [andb] in E2; try (apply Nat.add_cancel_r in E2); subst; auto.
Qed.
Print Assumptions parser_boundary_partial.
(** For instance with a pattern of one repeated byte, on any data ... *)
Theorem parser_boundary_same_partial : forall p s x k eat, Rep p s -> rest s <> [] ->
  exists n found p', consume_boundary p (repeat x (S k)) eat = Ok ((if found && eat then n + S k else n)%nat, found, p') /\
    boundary_at (repeat x (S k)) (rest s) found n.
Proof.
  intros p s x k eat R NL. destruct (parser_boundary_partial p s (repeat x (S k)) eat R) as (n & f & p' & E & B); auto.
  - discriminate.
  - apply clean_same.
  - rewrite repeat_length in E. eauto.
Qed.
Print Assumptions parser_boundary_same_partial.
(** ... or if its first byte comes only once in it and never where a match
    breaks off. *)
Theorem parser_boundary_first_partial : forall p s x pat eat, Rep p s -> rest s <> [] -> ~ In x pat ->
  (forall a j, firstn (S j) (skipn a (rest s)) = firstn (S j) (x :: pat) -> nth_error (rest s) (a + S j) = Some x -> False) ->
  exists n found p', consume_boundary p (x :: pat) eat = Ok ((if found && eat then n + length (x :: pat) else n)%nat, found, p') /\
    boundary_at (x :: pat) (rest s) found n.
Proof. intros p s x pat eat R NL NI H. apply parser_boundary_partial; auto; [discriminate|now apply clean_first]. Qed.
Print Assumptions parser_boundary_first_partial.

Example boundary_case : exists p, run 0 [Append [65; 13; 66; 13; 10; 45; 67]] (create false) [] = Ok ([RBool true], p) /\
  consume_boundary p [13; 10; 45] true = Ok (6%nat, true, snd (match consume p 6 with Ok x => x | _ => (false, p) end)) /\
  (forall a j, firstn (S j) (skipn a [65; 13; 66; 13; 10; 45; 67]) = firstn (S j) [13; 10; 45] ->
     nth_error [65; 13; 66; 13; 10; 45; 67] (a + S j) = Some 13 -> False) /\
  boundary_at [13; 10; 45] [65; 13; 66; 13; 10; 45; 67] true 3.
Proof.
  eexists. split; [vm_compute; reflexivity|]. split; [vm_compute; reflexivity|]. split.
  - intros a j H1 H2.
    assert (HL : (a + S j < 7)%nat) by (change 7%nat with (length [65; 13; 66; 13; 10; 45; 67]); apply nth_error_Some; congruence).
    do 7 (destruct a as [|a]; [do 7 (destruct j as [|j]; [vm_compute in H1, H2; congruence|]); lia|]). lia.
  - split; [cbn; lia|]. split; [reflexivity|]. intros q Hq. do 3 (destruct q as [|q]; [reflexivity|]). lia.
Qed.

(** "ab" is not found in "aab". *)
Theorem parser_boundary_refuted : exists p p', run 0 [Append [97; 97; 98]] (create false) [] = Ok ([RBool true], p) /\
  consume_boundary p [97; 98] false = Ok (3%nat, false, p') /\ boundary_at [97; 98] [97; 97; 98] true 1.
Proof.
  eexists. eexists. split; [vm_compute; reflexivity|]. split; [vm_compute; reflexivity|].
  split; [cbn; lia|]. split; [reflexivity|]. intros q Hq. replace q with O by lia. reflexivity.
Qed.
Print Assumptions parser_boundary_refuted.
(** Without unread data the byte there is read all the same: NULL is
    dereferenced, or a stale byte is taken for the boundary. *)
Theorem parser_boundary_empty_refuted :
  consume_boundary (create false) [97] false = UB /\
  exists p p', run 0 [Append [97; 98]; Mark; Consume 1; MarkRewind; Truncate 2; Append [97; 98; 99]; Consume 1; MarkClear; Truncate 0] (create false) [] =
      Ok ([RBool true; RBool true; RBool true; RBool true; RBool true; RLen 1; RBool true; RBool true; RBool true], p) /\
    plen p = O /\ consume_boundary p [255] false = Ok (O, true, p').
Proof. split; [reflexivity|]. eexists. eexists. split; [vm_compute; reflexivity|]. split; vm_compute; reflexivity. Qed.
Print Assumptions parser_boundary_empty_refuted.

(** ** C28: consuming up to a pattern *)
Theorem parser_consume_until_exact : forall p s pat eat, Rep p s -> pat <> [] ->
  exists n p', consume_until p pat eat = Ok (n, p') /\ unread p' = Ok (skipn n (rest s)) /\ pcons p' = (pcons p + n)%nat /\
    ((n = O /\ forall i, ~ occurs_at pat (rest s) i) \/
     exists k, occurs_at pat (rest s) k /\ (forall i, (i < k)%nat -> ~ occurs_at pat (rest s) i) /\
       n = if eat then (k + length pat)%nat else k).
Proof.
  intros p s pat eat R NE. destruct (consume_until_ok p s pat eat R) as (p' & E & R' & _).
  exists (until pat eat (rest s)), p'. split; auto. split; [apply (rest_rdn p' _ R')|]. split.
  - pose proof (until_le pat eat (rest s)). destruct R as (? & ? & R), R' as (? & ? & R').
    rewrite (r_cons _ _ _ _ R), (r_cons _ _ _ _ R'). unfold adv. cbn [past]. rewrite app_length, firstn_length. lia.
  - unfold until. destruct pat as [|x pat]; [congruence|]. pose proof (find_first_ok (x :: pat) (rest s)) as F.
    destruct (find_first (x :: pat) (rest s)) as [k|]; cbn in F.
    + right. exists k. destruct F. auto.
    + left. auto.
Qed.
Print Assumptions parser_consume_until_exact.
Example consume_until_case : exists p p', run 0 [Append [97; 97; 98; 97; 98]] (create false) [] = Ok ([RBool true], p) /\
  consume_until p [97; 98] true = Ok (3%nat, p').
Proof. eexists. eexists. split; vm_compute; reflexivity. Qed.

(** ** C55: lines and columns *)
(** M_parser_current_line, M_parser_current_column: lines 528-541 *)
Definition current_line (p : parser) : nat := if ptrack p then S (pline p) else O.
Definition current_column (p : parser) : nat := if ptrack p then S (pcol p) else O.

Ltac inv_ok H :=
  repeat match type of H with
  | bind ?x _ = Ok _ => destruct x eqn:?; cbn [bind] in H; try discriminate H
  | (let '(_, _) := ?x in _) = Ok _ => destruct x eqn:?
  | (if ?b then _ else _) = Ok _ => destruct b eqn:?; try discriminate H
  | (match ?b with Some _ => _ | None => _ end) = Ok _ => destruct b eqn:?; try discriminate H
  end.
Ltac fin H := injection H; intros; subst; cbn [ptrack set_len set_mem set_marks] in *; auto; try congruence.
Lemma chop_track p p' n : chop p = Ok (p', n) -> ptrack p' = ptrack p.
Proof. unfold chop. intros H. inv_ok H; fin H. Qed.
Lemma ensure_track g p n p' : ensure_space g p n = Ok p' -> ptrack p' = ptrack p.
Proof. unfold ensure_space. intros H. inv_ok H; pose proof (chop_track _ _ _ Heqr); fin H. Qed.
Lemma consume_track p n b p' : consume p n = Ok (b, p') -> ptrack p' = ptrack p.
Proof. unfold consume. intros H. inv_ok H; fin H. Qed.
Lemma truncate_track p n b p' : truncate p n = Ok (b, p') -> ptrack p' = ptrack p.
Proof. unfold truncate. intros H. inv_ok H; fin H. Qed.
Lemma clear_track u i p p' : mark_clear_int u i p = Ok p' -> ptrack p' = ptrack p.
Proof. unfold mark_clear_int. intros H. inv_ok H; fin H. Qed.
Lemma rewind_track p n b p' : rewind_int p n = Ok (b, p') -> ptrack p' = ptrack p.
Proof. unfold rewind_int. intros H. inv_ok H; fin H. Qed.
Ltac tr :=
  repeat match goal with
  | H : consume _ _ = Ok (_, _) |- _ => apply consume_track in H
  | H : truncate _ _ = Ok (_, _) |- _ => apply truncate_track in H
  | H : mark_clear_int _ _ _ = Ok _ |- _ => apply clear_track in H
  | H : rewind_int _ _ = Ok (_, _) |- _ => apply rewind_track in H
  | H : ensure_space _ _ _ = Ok _ |- _ => apply ensure_track in H
  end.
Lemma until_track p pat eat n p' : consume_until p pat eat = Ok (n, p') -> ptrack p' = ptrack p.
Proof. unfold consume_until. intros H. inv_ok H; tr; fin H. Qed.
Lemma set_track p cs inc n p' : consume_charset_int p cs inc = Ok (n, p') -> ptrack p' = ptrack p.
Proof. unfold consume_charset_int. intros H. inv_ok H; tr; fin H. Qed.
Lemma pred_track p f k n p' : consume_predicate_max p f k = Ok (n, p') -> ptrack p' = ptrack p.
Proof. unfold consume_predicate_max. intros H. inv_ok H; tr; fin H. Qed.
Lemma readmark_track b p n k l p' : read_bytes_mark_int b p n = Ok (k, l, p') -> ptrack p' = ptrack p.
Proof. unfold read_bytes_mark_int. intros H. inv_ok H; tr; fin H. Qed.
Lemma marked_track p n f k l p' : (forall q a q', f q = Ok (a, q') -> ptrack q' = ptrack q) ->
  read_marked p n f = Ok (k, l, p') -> ptrack p' = ptrack p.
Proof.
  unfold read_marked. intros HF H. inv_ok H; try (injection H as <- <- <-); repeat match goal with H : f _ = Ok _ |- _ => apply HF in H end; tr.
  - cbn in *. congruence.
  - apply readmark_track in H. cbn in *. congruence.
Qed.
Lemma track_step g p o r p' : step g p o = Ok (r, p') -> ptrack p' = ptrack p.
Proof.
  intros H. destruct o; cbn [step] in H;
    unfold append, direct_write, mark, mark_clear, mark_rewind, read_bytes, read_bytes_max, consume_whitespace, consume_eol,
      truncate_until, truncate_charset, truncate_predicate_max, read_int_binary, read_uint_bcd, read_bytes_until, read_bytes_charset_int, read_bytes_predicate in H.
  all: repeat match type of H with
       | bind (bind ?x ?f) _ = Ok _ => destruct (bind x f) eqn:?; cbn [bind] in H; [|discriminate H|discriminate H]
       | bind (if ?b then _ else _) _ = Ok _ => destruct b eqn:?
       end.
  all: inv_ok H.
  all: repeat match goal with H : bind _ _ = Ok _ |- _ => progress inv_ok H end.
  all: repeat match goal with
       | H : Ok _ = Ok _ |- _ => injection H; clear H; intros; subst
       | H : (_, _) = (_, _) |- _ => injection H; clear H; intros; subst
       end.
  all: repeat match goal with
       | H : consume_until _ _ _ = Ok _ |- _ => apply until_track in H
       | H : consume_charset_int _ _ _ = Ok _ |- _ => apply set_track in H
       | H : consume_predicate_max _ _ _ = Ok _ |- _ => apply pred_track in H
       | H : read_bytes_mark_int _ _ _ = Ok _ |- _ => apply readmark_track in H
       | H : read_marked _ _ _ = Ok _ |- _ => apply marked_track in H; [|intros; (eapply until_track; eassumption) || (eapply set_track; eassumption) || (eapply pred_track; eassumption)]
       end; tr; cbn [ptrack set_len set_mem] in *; auto; try congruence.
Qed.
Lemma track_run g : forall ops p outs r p', run g ops p outs = Ok (r, p') -> ptrack p' = ptrack p.
Proof.
  induction ops as [|o ops IH]; intros p outs r p' H; cbn [run] in H; [congruence|].
  inv_ok H. subst. apply IH in H. apply track_step in Heqr0. congruence.
Qed.

(** With line tracking the current line is one more than the number of
    newlines consumed (and not rewound), for every history; for a parser over
    constant data the current column is one more than the number of bytes since
    the last of them. *)
Theorem parser_line_exact : forall g ops, all_allowed true ops (start_stream []) ->
  exists rs p, run g ops (create true) [] = Ok (rs, p) /\
    current_line p = S (newlines (past (snd (srun true ops (start_stream []) [])))).
Proof.
  intros g ops A. destruct (run_ok g ops (create true) (start_stream []) [] (create_ok true) A) as (p & E & R & _).
  eexists. exists p. split; [exact E|]. apply track_run in E. unfold current_line. rewrite E. cbn [create ptrack pdyn] in *.
  f_equal. destruct R as (? & ? & R). apply (r_line _ _ _ _ R). auto.
Qed.
Print Assumptions parser_line_exact.
Theorem parser_const_line_column_exact : forall g d ops, is_bytes d -> all_allowed false ops (start_stream d) ->
  exists rs p, run g ops (create_const d true) [] = Ok (rs, p) /\
    let gone := past (snd (srun false ops (start_stream d) [])) in
    current_line p = S (newlines gone) /\ current_column p = S (column gone).
Proof.
  intros g d ops B A. destruct (run_ok g ops (create_const d true) (start_stream d) [] (create_const_ok d true B) A) as (p & E & R & D).
  eexists. exists p. split; [exact E|]. apply track_run in E. unfold current_line, current_column. rewrite E. cbn [create_const ptrack pdyn] in *.
  destruct R as (? & ? & R). cbv zeta. rewrite (r_line _ _ _ _ R), (r_col _ _ _ _ R); auto.
Qed.
Print Assumptions parser_const_line_column_exact.
Example parser_lines_case : exists p, run 0 [Consume 3; Mark; ConsumeEol; MarkRewind; Consume 2] (create_const [97; 10; 98; 99; 10; 100; 101] true) [] =
  Ok ([RBool true; RLen 2; RLen 2; RBool true; RBool true], p) /\ current_line p = 3%nat /\ current_column p = 1%nat.
Proof. eexists. split; vm_compute; [reflexivity|split; reflexivity]. Qed.

(** For a dynamic parser the column is lost by a rewind: the bytes before the
    mark have been overwritten. *)
Theorem parser_column_refuted : exists ops p, ops = [Append [97; 10; 98; 99; 100]; Consume 3; Mark; Consume 1; MarkRewind] /\
  all_allowed true ops (start_stream []) /\ past (snd (srun true ops (start_stream []) [])) = [97; 10; 98] /\
  run 0 ops (create true) [] = Ok ([RLen 1; RBool true; RBool true; RBool true; RBool true], p) /\
  current_column p = 4%nat /\ S (column [97; 10; 98]) = 2%nat.
Proof.
  eexists. eexists. split; [reflexivity|]. split.
  - cbn. repeat split; try bytes. intros _ _. left. reflexivity.
  - split; [reflexivity|]. split; [vm_compute; reflexivity|]. split; reflexivity.
Qed.
Print Assumptions parser_column_refuted.

(** ** C25 continued: M_parser_truncate_whitespace, M_parser_reset *)
Lemma tws_loop_ok nl sp : forall l pre post,
  tws_loop (pre ++ l ++ post) (length pre) (length l) nl sp = Ok (length l - tail_span (blank nl sp) l)%nat.
Proof.
  induction l as [|c l IH] using rev_ind; intros pre post; [reflexivity|].
  rewrite app_length. cbn [length]. rewrite Nat.add_1_r. cbn [tws_loop].
  replace (pre ++ (l ++ [c]) ++ post) with ((pre ++ l) ++ c :: post) by (rewrite <- !app_assoc; reflexivity).
  rewrite rd_mid by llen. cbn [bind]. unfold tail_span. rewrite rev_app_distr. cbn [app rev span].
  assert (SP : chr_isspace c = space c).
  { unfold chr_isspace, space. cbn. destruct (N.eqb_spec c 32), (N.eqb_spec c 9), (N.eqb_spec c 10), (N.eqb_spec c 11), (N.eqb_spec c 12), (N.eqb_spec c 13); subst; auto; cbn; lia. }
  rewrite SP. unfold blank at 1. fold (tail_span (blank nl sp) l).
  replace ((pre ++ l) ++ c :: post) with (pre ++ l ++ (c :: post)) by now rewrite <- app_assoc. rewrite IH.
  destruct nl, sp, (N.eqb_spec c 10), (N.eqb_spec c 32), (space c) eqn:ES; subst; cbn [negb andb orb]; try discriminate ES; try lia; reflexivity.
Qed.
Theorem parser_truncate_whitespace_partial : forall p s nl sp, Rep p s -> (nl = true -> rest s <> []) ->
  exists p', truncate_whitespace p nl sp = Ok ((length (rest s) - tail_white_left nl sp (rest s))%nat, p') /\
    unread p' = Ok (firstn (tail_white_left nl sp (rest s)) (rest s)).
Proof.
  intros p s nl sp R HN. pose proof (rep_plen p s R) as PL. unfold truncate_whitespace. rewrite PL.
  set (l1 := if nl && (last (rest s) 0 =? 10) then removelast (rest s) else rest s).
  assert (L1 : exists t, rest s = l1 ++ t).
  { unfold l1. destruct (nl && _) eqn:Z; [|exists []; now rewrite app_nil_r]. apply andb_true_iff in Z. destruct Z as (Z & _).
    exists [last (rest s) 0]. apply app_removelast_last. auto. }
  destruct L1 as (t & L1).
  assert (D : (if nl then if (ppos p + length (rest s) =? 0)%nat then UB
     else do c <- rd (pmem p) (ppos p + length (rest s) - 1);
       if c =? 10 then if (length (rest s) =? 0)%nat then UB else Ok (length (rest s) - 1)%nat else Ok (length (rest s))
     else Ok (length (rest s))) = Ok (length l1)).
  { unfold l1. destruct nl; cbn [andb]; [|reflexivity]. specialize (HN eq_refl).
    destruct (exists_last HN) as (r & c & E). rewrite E, last_last, removelast_last, app_length. cbn [length].
    replace (ppos p + (length r + 1) =? 0)%nat with false by (symmetry; apply Nat.eqb_neq; lia).
    replace (ppos p + (length r + 1) - 1)%nat with (ppos p + length r)%nat by lia.
    rewrite (rd_mem p s) by (auto; rewrite E, app_length; cbn; lia). rewrite E, rd_mid by auto. cbn [bind].
    destruct (N.eqb_spec c 10).
    - replace (length r + 1 =? 0)%nat with false by (symmetry; apply Nat.eqb_neq; lia). f_equal. lia.
    - rewrite app_length. reflexivity. }
  rewrite D. cbn [bind]. unfold tail_white_left. fold l1.
  assert (W : tws_loop (pmem p) (ppos p) (length l1) nl sp = Ok (length l1 - tail_span (blank nl sp) l1)%nat).
  { destruct R as (pre & post & R). rewrite (r_mem _ _ _ _ R), <- (r_pos _ _ _ _ R), L1, <- app_assoc. apply tws_loop_ok. }
  rewrite W. cbn [bind]. set (k := (length l1 - tail_span (blank nl sp) l1)%nat).
  assert (K : (k <= length (rest s))%nat) by (rewrite L1, app_length; lia).
  destruct (Nat.eqb_spec (length (rest s) - k) 0) as [Z|Z].
  - exists p. rewrite Z. split; auto. unfold unread. rewrite (rest_rdn p s R). f_equal. symmetry. apply firstn_all2. lia.
  - destruct (truncate_ok p s k R K) as (p' & E & R' & _). rewrite E. cbn [bind]. exists p'. split; auto. apply (rest_rdn p' _ R').
Qed.
Print Assumptions parser_truncate_whitespace_partial.
Example truncate_whitespace_case : exists p p', run 0 [Append [65; 10; 9; 32; 10]] (create false) [] = Ok ([RBool true], p) /\
  truncate_whitespace p true false = Ok (3%nat, p') /\ tail_white_left true false [65; 10; 9; 32; 10] = 2%nat /\
  tail_white_left true true [65; 10; 9; 32; 10] = 3%nat.
Proof. eexists. eexists. split; [vm_compute; reflexivity|]. vm_compute. repeat split; reflexivity. Qed.
(** Without unread data the byte in front of it is read. *)
Theorem parser_truncate_whitespace_refuted : truncate_whitespace (create false) true false = UB /\
  exists p, run 0 [Append [10]; Mark; Consume 1] (create false) [] = Ok ([RBool true; RBool true; RBool true], p) /\
    truncate_whitespace p true false = UB.
Proof. split; [reflexivity|]. eexists. split; vm_compute; reflexivity. Qed.
Print Assumptions parser_truncate_whitespace_refuted.

(** Resetting a parser over constant data makes everything unread again (minus
    what was truncated); with nothing consumed it reports 0. *)
Theorem parser_reset_exact : forall g d track ops rs p, is_bytes d -> all_allowed false ops (start_stream d) ->
  run g ops (create_const d track) [] = Ok (rs, p) ->
  let s := snd (srun false ops (start_stream d) []) in
  exists p', reset p = Ok (length (past s), p') /\ unread p' = Ok (past s ++ rest s) /\ pcons p' = O.
Proof.
  intros g d track ops rs p B A E s. destruct (run_ok g ops (create_const d track) (start_stream d) [] (create_const_ok d track B) A) as (q & E' & R & D).
  rewrite E in E'. injection E' as _ <-. cbn [create_const pdyn] in *. fold s in R.
  unfold reset. rewrite D. cbn [andb].
  pose proof R as (pre & post & RA). rewrite (r_cons _ _ _ _ RA).
  destruct (Nat.eq_dec (length (past s)) 0) as [Z|Z].
  - rewrite Z. unfold rewind_int. cbn [N.of_nat N.eqb bind]. exists p. split; auto. unfold unread. rewrite (rest_rdn p s R).
    destruct (past s) eqn:EP; [|discriminate]. rewrite (r_cons _ _ _ _ RA), EP. auto.
  - assert (PP : ppos p = length (past s)) by (rewrite <- (r_pos _ _ _ _ RA), (r_const _ _ _ _ RA); auto).
    destruct (rewind_ok p s (length (past s)) pre post RA) as (p' & E2 & R2 & _); [lia|lia| |].
    { rewrite PP, (r_const _ _ _ _ RA) by auto. reflexivity. }
    rewrite E2. cbn [bind]. exists p'. split; auto. unfold unread. rewrite (rest_rdn p' _ R2).
    pose proof R2 as (pre2 & post2 & RA2). rewrite (r_cons _ _ _ _ RA2). unfold back. cbn [past rest]. rewrite Nat.sub_diag, skipn_O, firstn_O. auto.
Qed.
Print Assumptions parser_reset_exact.

(** M_parser_consume_boundary. *)
From Verif Require Import Base.Lib Base.Mem Hex.Model Buf.Model MemFn.Model MemFn.Spec MemFn.Proofs Parser.Spec Parser.Model Parser.Proofs Parser.Steps.
Local Open Scope N_scope.

Lemma firstn_S_skipn (l : list N) a j c : nth_error l (a + j) = Some c -> firstn (S j) (skipn a l) = firstn j (skipn a l) ++ [c].
Proof.
  intros H. assert (HL : (a + j < length l)%nat) by (apply nth_error_Some; congruence).
  assert (E : nth_error (skipn a l) j = Some c) by (rewrite skipn_nth_error; exact H).
  revert E. generalize (skipn a l). clear. induction j as [|j IH]; intros l; destruct l as [|x l]; cbn [nth_error]; try discriminate.
  - intros [= ->]. reflexivity.
  - intros E. cbn [firstn app]. f_equal. apply IH. exact E.
Qed.
Lemma firstn_S_nth (l : list N) j c : nth_error l j = Some c -> firstn (S j) l = firstn j l ++ [c].
Proof. intros H. apply (firstn_S_skipn l 0 j c H). Qed.

(** The state of the loop: a match of [j] bytes starts at [a]; [dead]: nothing
    before [a] can still become a match. *)
Section Loop.
Variables (pre post pat l : list N).
Hypothesis NE : pat <> [].
Let m := pre ++ l ++ post.
Definition live (q i : nat) : Prop :=
  let k := Nat.min (i - q) (length pat) in firstn k (skipn q l) = firstn k pat.
Definition st (i j a : nat) : Prop := (a + j = i)%nat /\ (j < length pat)%nat /\ firstn j (skipn a l) = firstn j pat.
Definition dead (i a : nat) : Prop := forall q, (q < a)%nat -> (q < i)%nat /\ ~ live q i.

Lemma live_shrink q i i' : (i <= i')%nat -> live q i' -> live q i.
Proof.
  unfold live. cbv zeta. intros H E.
  assert (G : forall a b x y, (a <= b)%nat -> firstn b x = firstn b y -> firstn a x = firstn a (y : list N)).
  { intros a b x y HL HE. replace a with (Nat.min a b) by lia. rewrite <- !firstn_firstn. now rewrite HE. }
  apply (G _ _ _ _ (ltac:(lia) : (Nat.min (i - q) (length pat) <= Nat.min (i' - q) (length pat))%nat) E).
Qed.

Lemma rd_m i : (i < length l)%nat -> exists c, rd m (length pre + i) = Ok c /\ nth_error l i = Some c.
Proof.
  intros H. destruct (nth_error l i) as [c|] eqn:E; [|apply nth_error_None in E; lia]. exists c. split; auto.
  unfold m, rd. rewrite nth_error_app2 by lia. replace (length pre + i - length pre)%nat with i by lia.
  rewrite nth_error_app1 by lia. now rewrite E.
Qed.

Lemma loop_ok : forall fuel i j a, (length l < fuel + i)%nat -> (i < length l)%nat -> st i j a ->
  exists found n, boundary_loop fuel m (length pre) (length l) pat i j a = Ok (found, n) /\
    (n <= length l)%nat /\
    (if found then (n + length pat <= length l)%nat /\ firstn (length pat) (skipn n l) = pat
     else exists k, (k < length pat)%nat /\ skipn n l = firstn k pat) /\
    (dead i a -> breaks_clean pat l -> exists i', (i' <= length l)%nat /\ (if found then i' = (n + length pat)%nat else i' = length l) /\ dead i' n).
Proof.
  induction fuel as [|fuel IH]; intros i j a HF Hi (S1 & S2 & S3); [lia|]. cbn [boundary_loop].
  destruct (rd_m i Hi) as (c & E & EN). rewrite E. cbn [bind].
  destruct (nth_error pat j) as [x|] eqn:EX; [|apply nth_error_None in EX; lia].
  assert (RX : rd pat j = Ok x) by (unfold rd; now rewrite EX). rewrite RX. cbn [bind].
  assert (ENa : nth_error l (a + j) = Some c) by now rewrite S1.
  destruct (N.eqb_spec c x) as [->|Hc].
  - assert (G : firstn (S j) (skipn a l) = firstn (S j) pat).
    { rewrite (firstn_S_skipn l a j x), (firstn_S_nth pat j x) by auto. now rewrite S3. }
    assert (Dd : dead i a -> dead (S i) a).
    { intros D q Hq. destruct (D q Hq). split; [lia|]. intros X. apply H0. apply (live_shrink q i (S i)); auto. }
    destruct (Nat.leb_spec (length pat) (S j)) as [L|L]; cbn [negb andb].
    + rewrite Bool.andb_false_r. exists true, a. split; auto. split; [lia|]. split.
      * split; [lia|]. replace (length pat) with (S j) by lia. rewrite G. apply firstn_all2. lia.
      * intros D _. exists (S i). split; [lia|]. split; [lia|]. auto.
    + rewrite Bool.andb_true_r. destruct (Nat.ltb_spec (S i) (length l)) as [L2|L2].
      * destruct (IH (S i) (S j) a) as (f & n & B & B1 & B2 & B3); [lia|lia|split; [lia|auto]|].
        exists f, n. auto 8.
      * exists false, a. split; auto. split; [lia|]. split.
        -- exists (S j). split; [lia|]. rewrite <- G. symmetry. apply firstn_all2. rewrite skipn_length. lia.
        -- intros D _. exists (S i). split; [lia|]. split; [lia|auto].
  - assert (Dd : dead i a -> breaks_clean pat l -> dead (S i) (S i)).
    { intros D BC q Hq. split; [lia|]. intros X. destruct (Nat.lt_ge_cases q a) as [Q|Q].
      - destruct (D q Q) as (_ & D2). apply D2. apply (live_shrink q i (S i)); auto.
      - destruct (Nat.eq_dec q a) as [->|QN].
        + unfold live in X. cbv zeta in X. replace (Nat.min (S i - a) (length pat)) with (S j) in X by lia.
          rewrite (firstn_S_skipn l a j c), (firstn_S_nth pat j x) in X by auto.
          apply app_inj_tail in X. destruct X. congruence.
        + unfold live in X. cbv zeta in X. replace (Nat.min (S i - q) (length pat)) with (a + j + 1 - q)%nat in X by lia.
          apply (BC a j q c) in X; auto; try lia. rewrite EX. congruence. }
    rewrite Bool.andb_true_r. destruct (Nat.ltb_spec (S i) (length l)) as [L2|L2].
    + destruct (IH (S i) 0%nat (S i)) as (f & n & B & B1 & B2 & B3); [lia|lia| |].
      * split; [lia|]. split; [lia|reflexivity].
      * exists f, n. split; auto.
    + exists false, (S i). split; auto. split; [lia|]. split.
      * exists O. split; [lia|]. rewrite skipn_all2 by lia. reflexivity.
      * intros D BC. exists (S i). split; [lia|]. split; [lia|auto].
Qed.
End Loop.

Lemma prefixb_firstn pat : forall l, prefixb pat l = true <-> firstn (length pat) l = pat /\ (length pat <= length l)%nat.
Proof.
  intros l. rewrite prefixb_iff. split; [|tauto]. intros H. split; auto. rewrite <- H at 1. rewrite firstn_length. lia.
Qed.

Lemma boundary_ok (pre post pat l : list N) : pat <> [] -> l <> [] ->
  exists found n, boundary_loop (S (length l)) (pre ++ l ++ post) (length pre) (length l) pat 0 0 0 = Ok (found, n) /\
    (n <= length l)%nat /\
    (if found then (n + length pat <= length l)%nat /\ prefixb pat (skipn n l) = true
     else prefixb (skipn n l) pat = true /\ (length l - n < length pat)%nat) /\
    (breaks_clean pat l -> boundary_at pat l found n).
Proof.
  intros NE NL. assert (0 < length l)%nat by (destruct l; cbn; [congruence|lia]).
  assert (0 < length pat)%nat by (destruct pat; cbn; [congruence|lia]).
  destruct (loop_ok pre post pat l (S (length l)) 0 0 0) as (f & n & E & HN & H1 & H2); [lia|lia| |].
  { split; [lia|]. split; [lia|reflexivity]. }
  exists f, n. split; auto. split; auto.
  assert (H1' : if f then (n + length pat <= length l)%nat /\ prefixb pat (skipn n l) = true
     else prefixb (skipn n l) pat = true /\ (length l - n < length pat)%nat).
  { destruct f.
    - destruct H1 as (A & B). split; auto. now apply prefixb_iff.
    - destruct H1 as (k & A & B). assert (LK : length (skipn n l) = k) by (rewrite B, firstn_length; lia).
      rewrite skipn_length in LK. split; [|lia]. apply prefixb_iff. rewrite B, firstn_length. f_equal. lia. }
  split; auto. intros BC. split; auto. destruct H2 as (i' & HI & HI2 & D); auto.
  { intros q Hq. lia. }
  assert (L0 : forall q, prefixb pat (skipn q l) = true -> live pat l q i').
  { intros q P. apply prefixb_firstn in P. destruct P as (P & _). unfold live. cbv zeta. rewrite <- P at 3.
    rewrite firstn_firstn. f_equal. lia. }
  destruct f.
  - split; [tauto|]. intros q Hq. destruct (prefixb pat (skipn q l)) eqn:P; auto. exfalso.
    destruct (D q Hq) as (_ & X). auto.
  - subst i'. split; [|split; [tauto|]].
    + intros q. destruct (prefixb pat (skipn q l)) eqn:P; auto. exfalso.
      destruct (Nat.lt_ge_cases q n) as [Hq|Hq]; [destruct (D q Hq) as (_ & X); auto|].
      apply prefixb_firstn in P. rewrite skipn_length in P. lia.
    + intros q Hq. destruct (prefixb (skipn q l) pat) eqn:P; auto. exfalso. destruct (D q Hq) as (_ & X). apply X.
      apply prefixb_firstn in P. rewrite skipn_length in P. destruct P as (P & PL). unfold live. cbv zeta.
      replace (Nat.min (length l - q) (length pat)) with (length l - q)%nat by lia. rewrite P.
      apply firstn_all2. rewrite skipn_length. lia.
Qed.

(** When the matches that break off are harmless *)
Lemma clean_same x k l : breaks_clean (repeat x k) l.
Proof.
  intros a j q c H1 H2 H3 H4 H5 H6. rewrite repeat_length in H2.
  assert (HL : (a + j < length l)%nat) by (apply nth_error_Some; congruence).
  set (d := (a + j - q)%nat) in *.
  assert (E : nth_error (firstn (a + j + 1 - q) (skipn q l)) d = Some c).
  { rewrite firstn_nth_error. destruct (Nat.ltb_spec d (a + j + 1 - q)); [|lia].
    rewrite skipn_nth_error. replace (q + d)%nat with (a + j)%nat by lia. auto. }
  rewrite H6 in E. rewrite firstn_nth_error in E. destruct (Nat.ltb_spec d (a + j + 1 - q)); [|lia].
  rewrite nth_error_repeat in E by lia. injection E as <-. apply H4. apply nth_error_repeat. lia.
Qed.
(** The first byte of the pattern comes again neither in the pattern nor where
    a match breaks off. *)
Lemma clean_first x pat l : ~ In x pat ->
  (forall a j, firstn (S j) (skipn a l) = firstn (S j) (x :: pat) -> nth_error l (a + S j) = Some x -> False) ->
  breaks_clean (x :: pat) l.
Proof.
  intros NI HB a j q c H1 H2 H3 H4 H5 H6. cbn [length] in H2.
  assert (E : nth_error (firstn (a + j + 1 - q) (skipn q l)) 0 = Some x).
  { rewrite H6. destruct (a + j + 1 - q)%nat eqn:Z; [lia|reflexivity]. }
  rewrite firstn_nth_error in E. destruct (Nat.ltb_spec 0 (a + j + 1 - q)); [|lia]. rewrite skipn_nth_error in E.
  replace (q + 0)%nat with q in E by lia.
  destruct (Nat.eq_dec q (a + j)) as [->|Q].
  - destruct j as [|j]; [lia|]. apply (HB a j); auto.
  - remember (q - a)%nat as d eqn:Hd. assert (E2 : nth_error (firstn j (skipn a l)) d = Some x).
    { rewrite firstn_nth_error. destruct (Nat.ltb_spec d j); [|lia]. rewrite skipn_nth_error.
      replace (a + d)%nat with q by lia. auto. }
    rewrite H1 in E2. rewrite firstn_nth_error in E2. destruct (Nat.ltb_spec d j); [|lia].
    destruct d as [|d]; [lia|]. cbn [nth_error] in E2. apply NI. eapply nth_error_In; eauto.
Qed.

(** The property C60: string comparison of base/data/m_str.c. *)
From Verif Require Import Base.Lib Base.Mem StrEq.Model StrEq.Spec StrEq.Proofs.
Local Open Scope N_scope.

(** The bounded comparisons look at the first [max] characters only and say
    whether these are the same string. *)
Theorem str_eq_max_correct : forall ci s1 s2 t1 t2 max,
  denotes s1 t1 -> denotes s2 t2 -> no_nul t1 -> no_nul t2 -> is_bytes t1 -> is_bytes t2 ->
  exists b n, eq_max_int s1 s2 max ci = Ok (b, n) /\
    (b = true <-> alike ci (firstn (N.to_nat max) t1) (firstn (N.to_nat max) t2)).
Proof.
  intros ci s1 s2 t1 t2 max D1 D2 N1 N2 B1 B2. rewrite eq_str_of.
  destruct (str_of_denotes _ _ D1) as (z1 & ->), (str_of_denotes _ _ D2) as (z2 & ->).
  destruct (eq_max_ok ci max t1 t2 z1 z2) as (b & E & X); eauto.
Qed.
Print Assumptions str_eq_max_correct.

Theorem str_eq_correct : forall s1 s2 t1 t2,
  denotes s1 t1 -> denotes s2 t2 -> no_nul t1 -> no_nul t2 -> is_bytes t1 -> is_bytes t2 ->
  N.of_nat (length t1) < size_max -> N.of_nat (length t2) < size_max ->
  (exists b n, str_eq s1 s2 = Ok (b, n) /\ (b = true <-> t1 = t2)) /\
  (exists b n, str_caseeq s1 s2 = Ok (b, n) /\ (b = true <-> nocase t1 t2)).
Proof.
  intros s1 s2 t1 t2 D1 D2 N1 N2 B1 B2 L1 L2. unfold str_eq, str_caseeq, str_eq_max, str_caseeq_max.
  assert (C := fun ci => str_eq_max_correct ci s1 s2 t1 t2 size_max D1 D2 N1 N2 B1 B2).
  rewrite !firstn_size in C by auto. split; [apply (C false)|apply (C true)].
Qed.
Print Assumptions str_eq_correct.

(** The number of rounds depends on the lengths alone: two comparisons with
    contents of the same lengths take the same number, equal or not. *)
Theorem str_eq_constant_time : forall ci s1 s2 t1 t2 u1 u2 v1 v2 max b n c k,
  denotes s1 t1 -> denotes s2 t2 -> denotes u1 v1 -> denotes u2 v2 ->
  no_nul t1 -> no_nul t2 -> no_nul v1 -> no_nul v2 -> is_bytes t1 -> is_bytes t2 -> is_bytes v1 -> is_bytes v2 ->
  length t1 = length v1 -> length t2 = length v2 ->
  eq_max_int s1 s2 max ci = Ok (b, n) -> eq_max_int u1 u2 max ci = Ok (c, k) -> n = k.
Proof.
  intros ci s1 s2 t1 t2 u1 u2 v1 v2 max b n c k D1 D2 D3 D4 N1 N2 N3 N4 B1 B2 B3 B4 L1 L2 E F.
  rewrite eq_str_of in E, F.
  destruct (str_of_denotes _ _ D1) as (z1 & Z1), (str_of_denotes _ _ D2) as (z2 & Z2).
  destruct (str_of_denotes _ _ D3) as (z3 & Z3), (str_of_denotes _ _ D4) as (z4 & Z4). rewrite Z1, Z2 in E. rewrite Z3, Z4 in F.
  destruct (eq_max_ok ci max t1 t2 z1 z2) as (? & E' & _); auto.
  destruct (eq_max_ok ci max v1 v2 z3 z4) as (? & F' & _); auto. rewrite L1, L2 in E'. congruence.
Qed.
Print Assumptions str_eq_constant_time.

(** The header promises that s1 is read to its end whatever s2 is, so that the
    length of the secret s2 cannot be found out by guessing.  The loop stops at
    the end of the shorter string: against the input "aaaa" the secrets "b" and
    "bbb" take one and three rounds. *)
Theorem str_eq_secret_length_refuted : exists input secret1 secret2 n1 n2,
  str_eq (Some input) (Some secret1) = Ok (false, n1) /\ str_eq (Some input) (Some secret2) = Ok (false, n2) /\ n1 <> n2.
Proof.
  exists [97;97;97;97;0], [98;0], [98;98;98;0], 1, 3.
  split; [|split]; [vm_compute; reflexivity|vm_compute; reflexivity|discriminate].
Qed.
Print Assumptions str_eq_secret_length_refuted.

(** M_str_eq_start and M_str_caseeq_start.  In the second theorem [s1] is an unterminated
    array (any [m]) that is at least as long as [s2]. *)
Theorem str_eq_start_correct : forall ci s1 s2 t1 t2,
  denotes s1 t1 -> denotes s2 t2 -> no_nul t1 -> no_nul t2 -> is_bytes t1 -> is_bytes t2 ->
  exists b n, eq_start_int s1 s2 ci = Ok (b, n) /\ (b = true <-> exists u v, t1 = u ++ v /\ alike ci u t2).
Proof.
  intros ci s1 s2 t1 t2 D1 D2 N1 N2 B1 B2. unfold eq_start_int. rewrite (len_of_denotes s2 t2) by auto. cbn [bind].
  destruct (str_eq_max_correct ci s1 s2 t1 t2 (N.of_nat (length t2))) as (b & n & E & X); auto.
  exists b, n. split; auto. rewrite X, Nnat.Nat2N.id, (firstn_all t2). split.
  - intros A. exists (firstn (length t2) t1), (skipn (length t2) t1). split; auto. symmetry. apply firstn_skipn.
  - intros (u & v & -> & A). assert (L := alike_len _ _ _ A). rewrite firstn_app, <- L, firstn_all, Nat.sub_diag, firstn_O, app_nil_r. auto.
Qed.
Print Assumptions str_eq_start_correct.

Theorem str_eq_start_unterminated : forall ci m s2 t2,
  denotes s2 t2 -> no_nul t2 -> is_bytes t2 -> no_nul (firstn (length t2) m) -> is_bytes (firstn (length t2) m) ->
  (length t2 <= length m)%nat ->
  exists b n, eq_start_int (Some m) s2 ci = Ok (b, n) /\ (b = true <-> alike ci (firstn (length t2) m) t2).
Proof.
  intros ci m s2 t2 D2 N2 B2 N1 B1 L. unfold eq_start_int. rewrite (len_of_denotes s2 t2) by auto. cbn [bind].
  rewrite eq_str_of. destruct (str_of_denotes _ _ D2) as (z2 & ->). cbn [str_of].
  destruct (eq_same_len ci (firstn (length t2) m) t2 (skipn (length t2) m) (0 :: z2)) as (b & E & X); auto.
  { rewrite firstn_length. lia. }
  rewrite firstn_skipn in E. eauto.
Qed.
Print Assumptions str_eq_start_unterminated.

(** M_str_eq_end and M_str_caseeq_end, for non-NULL strings. *)
Theorem str_eq_end_correct : forall ci t1 z1 t2 z2, no_nul t1 -> no_nul t2 -> is_bytes t1 -> is_bytes t2 ->
  exists b n, eq_end_int (Some (t1 ++ 0 :: z1)) (Some (t2 ++ 0 :: z2)) ci = Ok (b, n) /\
    (b = true <-> exists u v, t1 = u ++ v /\ alike ci v t2).
Proof.
  intros ci t1 z1 t2 z2 N1 N2 B1 B2. unfold eq_end_int. cbn [len_of]. rewrite !strlen_ok by auto. cbn [bind].
  destruct (Nat.ltb_spec (length t1) (length t2)) as [L|L].
  - exists false, 0. split; auto. split; [discriminate|]. intros (u & v & -> & A). apply alike_len in A. rewrite app_length in L. lia.
  - set (k := (length t1 - length t2)%nat).
    assert (E1 : t1 = firstn k t1 ++ skipn k t1) by (symmetry; apply firstn_skipn).
    assert (L2 : length (skipn k t1) = length t2) by (rewrite skipn_length; subst k; lia).
    assert (L1 : length (firstn k t1) = k) by (rewrite firstn_length; subst k; lia).
    assert (Q : skipn k (t1 ++ 0 :: z1) = skipn k t1 ++ 0 :: z1).
    { rewrite skipn_app. replace (k - length t1)%nat with 0%nat by (subst k; lia). reflexivity. }
    rewrite Q. destruct (eq_same_len ci (skipn k t1) t2 (0 :: z1) (0 :: z2)) as (b & E & X); auto.
    { rewrite E1 in N1. now apply Forall_app in N1. }
    { rewrite E1 in B1. now apply Forall_app in B1. }
    exists b, (N.of_nat (length t2)). split; auto. rewrite X. split; [eauto|].
    intros (u & v & E' & A). assert (L3 := alike_len _ _ _ A).
    assert (v = skipn k t1) as <-; auto. rewrite E'. subst k. rewrite E', app_length, L3.
    replace (length u + length t2 - length t2)%nat with (length u) by lia.
    rewrite skipn_app, skipn_all, Nat.sub_diag. reflexivity.
Qed.
Print Assumptions str_eq_end_correct.

(** M_str_casestr finds the first occurrence up to case.  Partial: an empty
    needle in an empty haystack, see [casestr_empty_refuted]. *)
Theorem casestr_first_partial : forall s z needle zn, no_nul s -> no_nul needle -> is_bytes s -> is_bytes needle ->
  s <> [] \/ needle <> [] ->
  exists r, casestr (Some (s ++ 0 :: z)) (Some (needle ++ 0 :: zn)) = Ok r /\
  match r with
  | Some i => found_at s needle i /\ forall j, (j < i)%nat -> ~ found_at s needle j
  | None => forall j, ~ found_at s needle j
  end.
Proof.
  intros s z needle zn Ns Nn Bs Bn Hne. unfold casestr. rewrite !strlen_ok by auto. cbn [bind].
  destruct (casestr_loop_ok needle zn Nn Bn (length s) [] s z Ns Bs eq_refl) as (r & E & R). exists r. split; auto.
  destruct r as [i|].
  - destruct R as (k & -> & _ & F & M). auto.
  - intros j F. destruct (Nat.lt_ge_cases j (length s)) as [H|H]; [now apply (R j)|].
    destruct F as (p & m & q & E1 & E2 & F). assert (X := f_equal (@length N) E1). rewrite !app_length in X.
    assert (Lm := Forall2_length _ _ _ F). destruct m as [|x m]; [|cbn in X; lia].
    destruct needle; [|discriminate]. destruct s as [|c s]; [destruct Hne; congruence|].
    apply (R 0%nat); [cbn; lia|]. exists [], [], (c :: s). repeat split; auto.
Qed.
Print Assumptions casestr_first_partial.

(** strstr("", "") is the start of the haystack, M_str_casestr("", "") is
    NULL. *)
Theorem casestr_empty_refuted : exists s needle, found_at s needle 0 /\
  casestr (Some (s ++ [0])) (Some (needle ++ [0])) = Ok None.
Proof. exists [], []. split; [|reflexivity]. exists [], [], []. repeat split. constructor. Qed.
Print Assumptions casestr_empty_refuted.

(** Non-trivial cases: "Host" and "hOSt", a prefix, a suffix, a search. *)
Example str_eq_case :
  str_caseeq (Some [72;111;115;116;0]) (Some [104;79;83;116;0;9]) = Ok (true, 4) /\
  str_eq (Some [72;111;115;116;0]) (Some [104;79;83;116;0]) = Ok (false, 4) /\
  str_eq None (Some [0]) = Ok (true, 0) /\
  eq_start_int (Some [72;111;115;116;0]) (Some [104;111;0]) true = Ok (true, 2) /\
  eq_end_int (Some [72;111;115;116;0]) (Some [115;116;0]) false = Ok (true, 2) /\
  casestr (Some [72;111;115;116;0]) (Some [83;84;0]) = Ok (Some 2%nat) /\
  casestr (Some [72;111;115;116;0]) (Some [83;83;0]) = Ok None.
Proof. repeat split; vm_compute; reflexivity. Qed.

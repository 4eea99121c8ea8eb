From Coq Require Import String Ascii.
From Verif Require Import Base.Lib Base.Mem StrEq.Model StrEq.Spec StrEq.Props Percent.Model TextCodec.Tables TextCodec.Model.
Local Open Scope N_scope.
Local Open Scope list_scope.

Lemma caseeq_names s n : no_nul s -> is_bytes s -> N.of_nat (length s) < size_max ->
  no_nul (bs n) -> N.of_nat (length (bs n)) < size_max ->
  exists b k, str_caseeq (Some (s ++ [0])) (Some (bs n ++ [0])) = Ok (b, k) /\ (b = true <-> nocase s (bs n)).
Proof.
  intros Hs Bs Ls Hn Ln.
  apply (str_eq_correct (Some (s ++ [0])) (Some (bs n ++ [0])) s (bs n)); auto.
  - exists []. reflexivity.
  - exists []. reflexivity.
  - unfold bs. apply Forall_forall. intros c Hc. apply in_map_iff in Hc. destruct Hc as (a & <- & _). apply N_ascii_bounded.
Qed.

Definition good_name (n : string) : bool := forallb (fun c => negb (c =? 0)) (bs n) && (N.of_nat (length (bs n)) <? 1000).
Lemma good_names : forallb (fun e => forallb good_name (fst e)) from_table = true.
Proof. vm_compute. reflexivity. Qed.

Lemma good_name_ok n : good_name n = true -> no_nul (bs n) /\ N.of_nat (length (bs n)) < size_max.
Proof.
  unfold good_name. rewrite andb_true_iff, forallb_forall, N.ltb_lt. intros [A B]. split.
  - apply Forall_forall. intros c Hc. specialize (A c Hc). lia.
  - change size_max with 18446744073709551615. lia.
Qed.

Lemma match_any_ok s names : no_nul s -> is_bytes s -> N.of_nat (length s) < size_max -> forallb good_name names = true ->
  exists b, match_any s names = Ok b /\ (b = true <-> exists n, In n names /\ nocase s (bs n)).
Proof.
  intros Hs Bs Ls. induction names as [|n names IH]; intros G; cbn [match_any].
  - exists false. split; auto. split; [discriminate|]. intros (n & [] & _).
  - cbn [forallb] in G. apply andb_true_iff in G. destruct G as [G1 G2]. apply good_name_ok in G1.
    destruct (caseeq_names s n Hs Bs Ls (proj1 G1) (proj2 G1)) as (b & k & -> & Hb). cbn [bind].
    destruct b.
    + exists true. split; auto. split; auto. intros _. exists n. split; [now left|]. now apply Hb.
    + destruct (IH G2) as (b & -> & Hb'). exists b. split; auto. rewrite Hb'. split.
      * intros (x & I & X). exists x. split; [now right|auto].
      * intros (x & [-> | I] & X); [apply Hb in X; discriminate|]. eauto.
Qed.

Lemma nocase_trans a b c : nocase a b -> nocase b c -> nocase a c.
Proof.
  unfold nocase. intros H. revert c. induction H as [|x y a b E H IH]; intros c X; inversion X; subst; constructor; auto; congruence.
Qed.
Lemma nocase_sym a b : nocase a b -> nocase b a.
Proof. induction 1; constructor; auto. Qed.

Lemma from_str_alike s s' tbl : no_nul s -> is_bytes s -> N.of_nat (length s) < size_max ->
  no_nul s' -> is_bytes s' -> N.of_nat (length s') < size_max -> nocase s s' ->
  forallb (fun e => forallb good_name (fst e)) tbl = true ->
  exists k, from_str_loop s tbl = Ok k /\ from_str_loop s' tbl = Ok k.
Proof.
  intros Hs Bs Ls Hs' Bs' Ls' X. induction tbl as [|[names k] tbl IH]; intros G; cbn [from_str_loop]; eauto.
  cbn [forallb fst] in G. apply andb_true_iff in G. destruct G as [G1 G2].
  destruct (match_any_ok s names) as (b & -> & Hb); auto. destruct (match_any_ok s' names) as (b' & -> & Hb'); auto.
  cbn [bind]. assert (b = b').
  { destruct b, b'; auto.
    - symmetry. apply Hb'. destruct (proj1 Hb eq_refl) as (n & I & Y). exists n. split; auto. eapply nocase_trans; [apply nocase_sym|]; eauto.
    - apply Hb. destruct (proj1 Hb' eq_refl) as (n & I & Y). exists n. split; auto. eapply nocase_trans; eauto. }
  subst b'. destruct b; eauto.
Qed.

(** A faster way to the result, for the checks below. *)
Fixpoint nocaseb (a b : list N) : bool :=
  match a, b with
  | [], [] => true
  | x :: a', y :: b' => (low x =? low y) && nocaseb a' b'
  | _, _ => false
  end.
Lemma nocaseb_iff a : forall b, nocaseb a b = true <-> nocase a b.
Proof.
  induction a as [|x a IH]; intros [|y b]; cbn; split; intros H; try discriminate; try (now inversion H); try constructor.
  - apply andb_true_iff in H. lia.
  - apply andb_true_iff in H. now apply IH.
  - inversion H; subst. apply andb_true_iff. split; [lia|now apply IH].
Qed.
Fixpoint from_fast (s : list N) (tbl : list (list string * codec)) : codec :=
  match tbl with
  | [] => CUnknown
  | (names, k) :: tbl' => if existsb (fun n => nocaseb s (bs n)) names then k else from_fast s tbl'
  end.
Lemma from_fast_ok s tbl : no_nul s -> is_bytes s -> N.of_nat (length s) < size_max ->
  forallb (fun e => forallb good_name (fst e)) tbl = true -> from_str_loop s tbl = Ok (from_fast s tbl).
Proof.
  intros Hs Bs Ls. induction tbl as [|[names k] tbl IH]; intros G; cbn [from_str_loop from_fast]; auto.
  cbn [forallb fst] in G. apply andb_true_iff in G. destruct G as [G1 G2].
  destruct (match_any_ok s names Hs Bs Ls G1) as (b & -> & Hb). cbn [bind].
  assert (E : b = existsb (fun n => nocaseb s (bs n)) names).
  { apply eq_true_iff_eq. rewrite Hb, existsb_exists. split; intros (n & I & X); exists n; (split; [auto|]); now apply nocaseb_iff. }
  rewrite <- E. destruct b; auto.
Qed.

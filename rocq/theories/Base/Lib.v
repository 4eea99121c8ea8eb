(** Shared vocabulary of the models: outcomes of C code, bounds-checked
    buffers, and lemmas about them.  Nothing in this file models a particular
    file of /repo except where a comment says so. *)
From Coq Require Export List Arith NArith ZArith Lia Bool.
From Coq Require Export ZifyBool ZifyNat ZifyN.
Export ListNotations.
Global Ltac Zify.zify_post_hook ::= Z.div_mod_to_equations.
Set Implicit Arguments.

(** Outcome of a piece of C code: a value, undefined behaviour (out-of-bounds
    access, division by zero, signed overflow, ...) or exhausted fuel of the
    model's loop (theorems always exclude the last one). *)
Inductive res (A : Type) : Type :=
| Ok (a : A)
| UB
| Fuel.
Arguments Ok {A} a.
Arguments UB {A}.
Arguments Fuel {A}.

Definition bind {A B} (m : res A) (f : A -> res B) : res B :=
  match m with Ok a => f a | UB => UB | Fuel => Fuel end.

Notation "'do' x <- m ; f" := (bind m (fun x => f))
  (at level 200, x name, m at level 100, f at level 200).
Notation "'do' ' p <- m ; f" := (bind m (fun p => f))
  (at level 200, p pattern, m at level 100, f at level 200).

(** Reading and writing cell [i] of a C array of [length m] cells. *)
Definition rd {A} (m : list A) (i : nat) : res A :=
  match nth_error m i with Some a => Ok a | None => UB end.

Fixpoint upd {A} (m : list A) (i : nat) (v : A) : list A :=
  match m, i with
  | [], _ => []
  | _ :: m', O => v :: m'
  | x :: m', S i' => x :: upd m' i' v
  end.

Definition wr {A} (m : list A) (i : nat) (v : A) : res (list A) :=
  if i <? length m then Ok (upd m i v) else UB.

(** A byte is a number below 256. *)
Definition is_byte (b : N) : Prop := (b < 256)%N.
Definition is_bytes (l : list N) : Prop := Forall is_byte l.

(** ** Lemmas *)

Lemma bind_ok {A B} (m : res A) (f : A -> res B) b :
  bind m f = Ok b <-> exists a, m = Ok a /\ f a = Ok b.
Proof.
  destruct m; cbn; split; intros H; try discriminate; eauto;
    destruct H as (x & E & H); try discriminate.
  now injection E as ->.
Qed.

Lemma length_upd {A} (m : list A) i v : length (upd m i v) = length m.
Proof. revert i; induction m as [|x m IH]; intros [|i]; cbn; auto. Qed.

Lemma nth_error_upd {A} (m : list A) i v j :
  nth_error (upd m i v) j =
  if (j =? i) && (i <? length m) then Some v else nth_error m j.
Proof.
  revert i j; induction m as [|x m IH]; intros [|i] [|j]; cbn; auto.
  - rewrite andb_false_r. reflexivity.
  - rewrite IH. reflexivity.
Qed.

Lemma upd_app_mid {A} (p : list A) x s v : upd (p ++ x :: s) (length p) v = p ++ v :: s.
Proof. induction p as [|y p IH]; cbn; congruence. Qed.

Lemma wr_app_mid {A} (p : list A) x s v :
  wr (p ++ x :: s) (length p) v = Ok (p ++ v :: s).
Proof.
  unfold wr. rewrite upd_app_mid.
  destruct (Nat.ltb_spec (length p) (length (p ++ x :: s))) as [_|H]; auto.
  rewrite app_length in H; cbn in H; lia.
Qed.

Lemma rd_app_mid {A} (p : list A) x s : rd (p ++ x :: s) (length p) = Ok x.
Proof. unfold rd. rewrite nth_error_app2, Nat.sub_diag; auto. Qed.

Lemma rd_Ok {A} (m : list A) i a : rd m i = Ok a <-> nth_error m i = Some a.
Proof. unfold rd. destruct (nth_error m i); split; congruence. Qed.

Lemma rd_lt {A} (m : list A) i : i < length m -> exists a, rd m i = Ok a.
Proof.
  intros H. unfold rd. destruct (nth_error m i) eqn:E; eauto.
  apply nth_error_None in E. lia.
Qed.

Lemma wr_lt {A} (m : list A) i v : i < length m -> wr m i v = Ok (upd m i v).
Proof. intros H. unfold wr. destruct (Nat.ltb_spec i (length m)); auto; lia. Qed.

Lemma firstn_upd_ge {A} (m : list A) i v n : n <= i -> firstn n (upd m i v) = firstn n m.
Proof.
  revert i n; induction m as [|x m IH]; intros [|i] [|n] H; cbn; auto; try lia.
  rewrite IH; auto; lia.
Qed.

Lemma skipn_upd_lt {A} (m : list A) i v n : i < n -> skipn n (upd m i v) = skipn n m.
Proof.
  revert i n; induction m as [|x m IH]; intros [|i] [|n] H; cbn; auto; try lia.
  apply IH; lia.
Qed.

Lemma firstn_S_upd {A} (m : list A) i v :
  i < length m -> firstn (S i) (upd m i v) = firstn i m ++ [v].
Proof.
  revert i; induction m as [|x m IH]; intros [|i] H; cbn in *; auto; try lia.
  rewrite <- IH by lia. reflexivity.
Qed.

Lemma wr_inv {A} (m : list A) i v m' : wr m i v = Ok m' -> i < length m /\ m' = upd m i v.
Proof.
  unfold wr. destruct (Nat.ltb_spec i (length m)); [|discriminate].
  intros E; injection E as <-. auto.
Qed.

(** Writing the cells [pos ..] in order. *)
Lemma wr_seq {A} (m : list A) pos v :
  pos < length m ->
  exists m', wr m pos v = Ok m' /\ length m' = length m /\
             firstn (S pos) m' = firstn pos m ++ [v] /\
             skipn (S pos) m' = skipn (S pos) m.
Proof.
  intros H. exists (upd m pos v).
  rewrite wr_lt, length_upd, firstn_S_upd, skipn_upd_lt by lia; auto.
Qed.

Lemma firstn_nth_error {A} (l : list A) n i :
  nth_error (firstn n l) i = if i <? n then nth_error l i else None.
Proof.
  revert n i; induction l as [|x l IH]; intros [|n] [|i]; cbn; auto.
  - match goal with |- context [if ?b then _ else _] => destruct b end; auto.
  - rewrite IH. reflexivity.
Qed.

Lemma skipn_nth_error {A} (l : list A) n i :
  nth_error (skipn n l) i = nth_error l (n + i).
Proof.
  revert n i; induction l as [|x l IH]; intros [|n] i; cbn; auto.
  destruct i; auto.
Qed.

Lemma nth_error_ext {A} (l1 l2 : list A) :
  (forall i, nth_error l1 i = nth_error l2 i) -> l1 = l2.
Proof.
  revert l2; induction l1 as [|x l1 IH]; intros [|y l2] H; auto.
  - specialize (H 0); discriminate.
  - specialize (H 0); discriminate.
  - f_equal.
    + specialize (H 0); cbn in H; congruence.
    + apply IH. intros i. apply (H (S i)).
Qed.

(** Finite sweeps. *)
Definition byte_list : list N := map N.of_nat (seq 0 256).
Lemma byte_list_spec b : is_byte b -> In b byte_list.
Proof.
  unfold is_byte, byte_list. intros H. apply in_map_iff.
  exists (N.to_nat b). split; [lia|]. apply in_seq. lia.
Qed.
Lemma byte_sweep (P : N -> bool) :
  forallb P byte_list = true -> forall b, is_byte b -> P b = true.
Proof. intros H b Hb. rewrite forallb_forall in H. apply H, byte_list_spec, Hb. Qed.

Definition range_list (n : nat) : list N := map N.of_nat (seq 0 n).
Lemma range_sweep n (P : N -> bool) :
  forallb P (range_list n) = true -> forall b, (b < N.of_nat n)%N -> P b = true.
Proof.
  intros H b Hb. rewrite forallb_forall in H. apply H.
  apply in_map_iff. exists (N.to_nat b). split; [lia|]. apply in_seq. lia.
Qed.

Lemma nth_byte (l : list N) i d : is_bytes l -> (d < 256)%N -> is_byte (nth i l d).
Proof.
  intros H Hd. destruct (Nat.lt_ge_cases i (length l)) as [L|L].
  - unfold is_bytes in H. rewrite Forall_forall in H. apply H, nth_In, L.
  - rewrite nth_overflow by lia. exact Hd.
Qed.

Lemma skipn_skipn {A} (l : list A) i j : skipn i (skipn j l) = skipn (j + i) l.
Proof.
  apply nth_error_ext. intros k. rewrite !skipn_nth_error. f_equal. lia.
Qed.

Lemma skipn_rd {A} (l : list A) i : i < length l ->
  exists x, rd l i = Ok x /\ nth_error l i = Some x /\ skipn i l = x :: skipn (S i) l.
Proof.
  intros H. destruct (rd_lt l H) as [x Hx]. exists x. split; auto. apply rd_Ok in Hx. split; auto. clear H.
  revert i Hx. induction l as [|y l IH]; intros [|i] H; cbn in H; try discriminate.
  - cbn. congruence.
  - cbn [skipn]. apply IH, H.
Qed.

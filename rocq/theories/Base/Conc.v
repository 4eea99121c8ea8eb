(** Counting the threads of a concurrent model.  Models no file of /repo. *)
From Verif Require Import Base.Lib.

Section CNT.
Context {A : Type}.

(** How many entries of [l] satisfy [f]. *)
Fixpoint cnt (f : A -> bool) (l : list A) : nat :=
  match l with [] => 0 | x :: l' => (if f x then 1 else 0) + cnt f l' end.

Definition b2n (b : bool) : nat := if b then 1 else 0.

Lemma cnt_upd f l : forall i x y, nth_error l i = Some x -> cnt f (upd l i y) + b2n (f x) = cnt f l + b2n (f y).
Proof.
  induction l as [|z l IH]; intros [|i] x y H; cbn [nth_error] in H; try discriminate; cbn [upd cnt].
  - injection H as ->. unfold b2n. destruct (f x), (f y); lia.
  - specialize (IH i x y H). lia.
Qed.

Lemma cnt_pos f l : (0 < cnt f l)%nat <-> exists i x, nth_error l i = Some x /\ f x = true.
Proof.
  induction l as [|z l IH]; cbn [cnt].
  - split; [lia|]. intros ([|i] & x & H & _); discriminate.
  - split.
    + intros H. destruct (f z) eqn:E; [exists 0%nat, z; auto|]. destruct IH as [IH _]. destruct (IH ltac:(lia)) as (i & x & Hi & Hx).
      exists (S i), x. auto.
    + intros ([|i] & x & Hi & Hx); cbn [nth_error] in Hi.
      * injection Hi as ->. rewrite Hx. lia.
      * destruct IH as [_ IH]. assert (0 < cnt f l)%nat by (apply IH; eauto). lia.
Qed.

Lemma cnt_in f l i x : nth_error l i = Some x -> f x = true -> (1 <= cnt f l)%nat.
Proof. intros. assert (0 < cnt f l)%nat by (apply cnt_pos; eauto). lia. Qed.

Lemma cnt_ge f l i x : nth_error l i = Some x -> (b2n (f x) <= cnt f l)%nat.
Proof. intros H. destruct (f x) eqn:E; cbn; [|lia]. now apply (cnt_in f l i x). Qed.

Lemma cnt_zero f l i x : cnt f l = 0%nat -> nth_error l i = Some x -> f x = false.
Proof. intros H E. destruct (f x) eqn:F; auto. pose proof (cnt_in f l i x E F). lia. Qed.

Lemma cnt_map f g l : cnt f (map g l) = cnt (fun x => f (g x)) l.
Proof. induction l as [|z l IH]; cbn [cnt map]; auto. Qed.

Lemma cnt_ext f g l : (forall x, f x = g x) -> cnt f l = cnt g l.
Proof. intros H. induction l as [|z l IH]; cbn [cnt]; auto. now rewrite H, IH. Qed.

Lemma cnt_add f g h l : (forall x, b2n (f x) + b2n (g x) = b2n (h x)) -> (cnt f l + cnt g l = cnt h l)%nat.
Proof. intros H. induction l as [|z l IH]; cbn [cnt]; auto. specialize (H z). unfold b2n in H. destruct (f z), (g z), (h z); lia. Qed.

Lemma cnt_le f g l : (forall x, f x = true -> g x = true) -> (cnt f l <= cnt g l)%nat.
Proof. intros H. induction l as [|z l IH]; cbn [cnt]; auto. specialize (H z). destruct (f z), (g z); lia. Qed.

Lemma cnt_repeat f x n : cnt f (repeat x n) = if f x then n else 0%nat.
Proof. induction n as [|n IH]; cbn [cnt repeat]; [destruct (f x); reflexivity|]. rewrite IH. destruct (f x); lia. Qed.

Lemma cnt_two f l i j x y : i <> j -> nth_error l i = Some x -> nth_error l j = Some y -> f x = true -> f y = true -> (2 <= cnt f l)%nat.
Proof.
  revert i j. induction l as [|z l IH]; intros [|i] [|j] H Hi Hj Fx Fy; cbn [nth_error cnt] in *; try discriminate; try lia.
  - injection Hi as ->. rewrite Fx. pose proof (cnt_in f l j y Hj Fy). lia.
  - injection Hj as ->. rewrite Fy. pose proof (cnt_in f l i x Hi Fx). lia.
  - pose proof (IH i j ltac:(lia) Hi Hj Fx Fy). destruct (f z); lia.
Qed.

Lemma nth_error_upd_eq (l : list A) i y : (i < length l)%nat -> nth_error (upd l i y) i = Some y.
Proof. revert i. induction l as [|z l IH]; intros [|i] H; cbn in *; try lia; auto. apply IH. lia. Qed.

Lemma nth_error_upd_ne (l : list A) i j y : i <> j -> nth_error (upd l i y) j = nth_error l j.
Proof. revert i j. induction l as [|z l IH]; intros [|i] [|j] H; cbn; auto; try lia. Qed.
End CNT.

Section SUM.
Context {A : Type}.

(** The sum of [f] over the entries of [l]. *)
Fixpoint sumf (f : A -> nat) (l : list A) : nat :=
  match l with [] => 0 | x :: l' => f x + sumf f l' end.

Lemma sumf_upd f l : forall i x y, nth_error l i = Some x -> sumf f (upd l i y) + f x = sumf f l + f y.
Proof.
  induction l as [|z l IH]; intros [|i] x y H; cbn [nth_error] in H; try discriminate; cbn [upd sumf].
  - injection H as ->. lia.
  - specialize (IH i x y H). lia.
Qed.

Lemma sumf_app f l k : sumf f (l ++ k) = sumf f l + sumf f k.
Proof. induction l as [|z l IH]; cbn [sumf app]; [reflexivity|]. lia. Qed.

Lemma sumf_map f (g : A -> A) l : (forall x, f (g x) = f x) -> sumf f (map g l) = sumf f l.
Proof. intros H. induction l as [|z l IH]; cbn [sumf map]; [reflexivity|]. now rewrite H, IH. Qed.

Lemma sumf_ge f l i x : nth_error l i = Some x -> f x <= sumf f l.
Proof. intros H. pose proof (sumf_upd f l i x x H). revert i H H0. induction l as [|z l IH]; intros [|i] H H0; cbn in *; try discriminate.
  - injection H as ->. lia.
  - pose proof (IH i H ltac:(lia)). lia.
Qed.

Lemma sumf_repeat f x n : sumf f (repeat x n) = n * f x.
Proof. induction n as [|n IH]; cbn [sumf repeat]; [reflexivity|]. rewrite IH. lia. Qed.

Lemma sumf_le f g l : (forall x, f x <= g x) -> sumf f l <= sumf g l.
Proof. intros H. induction l as [|z l IH]; cbn [sumf]; [lia|]. specialize (H z). lia. Qed.

Lemma sumf_add f g h l : (forall x, f x + g x = h x) -> sumf f l + sumf g l = sumf h l.
Proof. intros H. induction l as [|z l IH]; cbn [sumf]; [lia|]. specialize (H z). lia. Qed.

Lemma sumf_zero f l : (sumf f l = 0) <-> (forall i x, nth_error l i = Some x -> f x = 0).
Proof.
  split.
  - intros H i x Hi. pose proof (sumf_ge f l i x Hi). lia.
  - intros H. induction l as [|z l IH]; cbn [sumf]; [reflexivity|]. rewrite (H 0 z eq_refl), IH; auto. intros i x Hi. exact (H (S i) x Hi).
Qed.

Lemma sumf_pos f l : 0 < sumf f l <-> exists i x, nth_error l i = Some x /\ 0 < f x.
Proof.
  split.
  - intros H. induction l as [|z l IH]; cbn [sumf] in H; [lia|]. destruct (f z) eqn:E.
    + destruct (IH ltac:(lia)) as (i & x & Hi & Hx). exists (S i), x. auto.
    + exists 0, z. split; [reflexivity|]. lia.
  - intros (i & x & Hi & Hx). pose proof (sumf_ge f l i x Hi). lia.
Qed.

Lemma sumf_two f l i j x y : i <> j -> nth_error l i = Some x -> nth_error l j = Some y -> f x + f y <= sumf f l.
Proof.
  revert i j. induction l as [|z l IH]; intros [|i] [|j] H Hi Hj; cbn [nth_error sumf] in *; try discriminate; try lia.
  - injection Hi as ->. pose proof (sumf_ge f l j y Hj). lia.
  - injection Hj as ->. pose proof (sumf_ge f l i x Hi). lia.
  - pose proof (IH i j ltac:(lia) Hi Hj). lia.
Qed.
End SUM.

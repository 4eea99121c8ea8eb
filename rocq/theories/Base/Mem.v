(** Block operations on bounds-checked memory and C strings.

    [rdn]/[wrn] read and write a block; memmove/memcpy/memset on one object
    are [mmove]/[wrn].  base/mem/m_mem.c (M_mem_move, M_mem_copy, M_mem_set)
    only adds NULL checks to the C functions. *)
From Verif Require Import Base.Lib.
Set Implicit Arguments.

Definition rdn {A} (m : list A) (i n : nat) : res (list A) :=
  if i + n <=? length m then Ok (firstn n (skipn i m)) else UB.
Definition wrn {A} (m : list A) (i : nat) (l : list A) : res (list A) :=
  if i + length l <=? length m then Ok (firstn i m ++ l ++ skipn (i + length l) m) else UB.
(** memmove inside one object. *)
Definition mmove {A} (m : list A) (dst src n : nat) : res (list A) :=
  do l <- rdn m src n; wrn m dst l.

(** strlen: base/data/m_str.c:364-369 *)
Fixpoint strlen (m : list N) : res nat :=
  match m with
  | [] => UB
  | c :: m' => if (c =? 0)%N then Ok 0 else do n <- strlen m'; Ok (S n)
  end.

(** base/data/m_str.c:371-386 for [max] below SIZE_MAX. *)
Fixpoint strlen_max (m : list N) (max : nat) : res nat :=
  match max with
  | O => Ok 0
  | S max' =>
    match m with
    | [] => UB
    | c :: m' => if (c =? 0)%N then Ok 0 else do n <- strlen_max m' max'; Ok (S n)
    end
  end.

Definition no_nul (s : list N) : Prop := Forall (fun b => b <> 0%N) s.

Lemma rdn_ok {A} (p l s : list A) : rdn (p ++ l ++ s) (length p) (length l) = Ok l.
Proof.
  unfold rdn. rewrite !app_length. destruct (Nat.leb_spec (length p + length l) (length p + (length l + length s))); [|lia].
  rewrite skipn_app, skipn_all, Nat.sub_diag. cbn [app skipn].
  rewrite firstn_app, firstn_all, Nat.sub_diag, firstn_O, app_nil_r. reflexivity.
Qed.

Lemma wrn_ok {A} (p l s x : list A) : length x = length l ->
  wrn (p ++ l ++ s) (length p) x = Ok (p ++ x ++ s).
Proof.
  intros E. unfold wrn. rewrite !app_length.
  destruct (Nat.leb_spec (length p + length x) (length p + (length l + length s))); [|lia].
  rewrite firstn_app, firstn_all, Nat.sub_diag, firstn_O, app_nil_r. do 3 f_equal.
  rewrite E, skipn_app, skipn_all2 by lia. cbn [app].
  replace (length p + length l - length p) with (length l) by lia.
  rewrite skipn_app, skipn_all, Nat.sub_diag. reflexivity.
Qed.

Lemma rdn_len {A} (m : list A) i n l : rdn m i n = Ok l -> length l = n /\ i + n <= length m.
Proof.
  unfold rdn. destruct (Nat.leb_spec (i + n) (length m)); [|discriminate].
  intros E; injection E as <-. split; [|lia]. rewrite firstn_length, skipn_length. lia.
Qed.

Lemma rdn_lt {A} (m : list A) i n : i + n <= length m -> rdn m i n = Ok (firstn n (skipn i m)).
Proof. intros H. unfold rdn. destruct (Nat.leb_spec (i + n) (length m)); auto; lia. Qed.

Lemma wrn_lt {A} (m : list A) i l : i + length l <= length m ->
  wrn m i l = Ok (firstn i m ++ l ++ skipn (i + length l) m).
Proof. intros H. unfold wrn. destruct (Nat.leb_spec (i + length l) (length m)); auto; lia. Qed.

Lemma wrn_len {A} (m : list A) i l m' : wrn m i l = Ok m' -> length m' = length m.
Proof.
  unfold wrn. destruct (Nat.leb_spec (i + length l) (length m)); [|discriminate].
  intros E; injection E as <-. rewrite !app_length, firstn_length, skipn_length. lia.
Qed.

Lemma strlen_ok s z : no_nul s -> strlen (s ++ 0%N :: z) = Ok (length s).
Proof.
  induction 1 as [|c s H F IH]; auto. cbn [app strlen length].
  rewrite (proj2 (N.eqb_neq c 0)) by auto. now rewrite IH.
Qed.

Lemma strlen_max_ok s z max : no_nul s -> strlen_max (s ++ 0%N :: z) max = Ok (Nat.min max (length s)).
Proof.
  intros F. revert max. induction F as [|c s H F IH]; intros [|max]; auto. cbn [app strlen_max length].
  rewrite (proj2 (N.eqb_neq c 0)) by auto. now rewrite IH.
Qed.

(** Every successful strlen is about a NUL-terminated string. *)
Lemma strlen_inv m n : strlen m = Ok n -> exists s z, m = s ++ 0%N :: z /\ no_nul s /\ length s = n.
Proof.
  revert n. induction m as [|c m IH]; intros n H; [discriminate|]. cbn in H.
  destruct (N.eqb_spec c 0) as [->|Hc].
  - injection H as <-. exists [], m. repeat split; constructor.
  - apply bind_ok in H. destruct H as (k & Hk & E). injection E as <-.
    destruct (IH k Hk) as (s & z & -> & F & L). exists (c :: s), z. repeat split; auto.
    + constructor; auto.
    + cbn. now rewrite L.
Qed.

Lemma nth_error_mid {A} (p : list A) x s i : i = length p -> nth_error (p ++ x :: s) i = Some x.
Proof. intros ->. rewrite nth_error_app2, Nat.sub_diag by lia. reflexivity. Qed.
Lemma rd_mid {A} (p : list A) x s i : i = length p -> rd (p ++ x :: s) i = Ok x.
Proof. intros ->. apply rd_app_mid. Qed.
Lemma wr_mid {A} (p : list A) x s v i : i = length p -> wr (p ++ x :: s) i v = Ok (p ++ v :: s).
Proof. intros ->. apply wr_app_mid. Qed.

(** Length goals about appended lists. *)
Ltac hlen := repeat (progress (rewrite ?app_length, ?map_length, ?repeat_length, ?rev_length in *; cbn [length] in *)); lia.
Ltac llen := repeat (progress (rewrite ?app_length, ?map_length, ?repeat_length, ?rev_length; cbn [length])); lia.

Lemma skipn_len {A} (a b : list A) n : n = length a -> skipn n (a ++ b) = b.
Proof. intros ->. rewrite skipn_app, skipn_all, Nat.sub_diag. reflexivity. Qed.
Lemma firstn_len {A} (a b : list A) n : n = length a -> firstn n (a ++ b) = a.
Proof. intros ->. rewrite firstn_app, firstn_all, Nat.sub_diag, firstn_O, app_nil_r. reflexivity. Qed.

Lemma wrn_wr_end {A} (m : list A) i l v : (i + length l < length m) ->
  (do m <- wrn m i l; wr m (i + length l) v) = Ok (firstn i m ++ l ++ v :: skipn (i + length l + 1) m).
Proof.
  intros H. rewrite wrn_lt by lia. cbn [bind].
  destruct (skipn (i + length l) m) as [|y t] eqn:E.
  - apply (f_equal (@length A)) in E. rewrite skipn_length in E. cbn in E. lia.
  - rewrite app_assoc, wr_mid.
    + rewrite <- app_assoc. do 4 f_equal. rewrite <- skipn_skipn, E. reflexivity.
    + rewrite app_length, firstn_length. lia.
Qed.

Lemma no_nul_app a b : no_nul (a ++ b) <-> no_nul a /\ no_nul b.
Proof. apply Forall_app. Qed.

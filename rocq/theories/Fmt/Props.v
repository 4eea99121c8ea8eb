(** Properties C72 and C73: formatted output. *)
From Verif Require Import Base.Lib Base.Mem Fmt.Model Fmt.Spec Fmt.Proofs Fmt.Proofs2 Fmt.Proofs3 Fmt.Proofs4.
Local Open Scope N_scope.

Lemma vasprintf_spec fmt ap :
  match print_text fmt ap with
  | Ok (t, _) => vasprintf fmt ap = Ok (t, N.of_nat (length t))
  | UB => vasprintf fmt ap = UB
  | Fuel => vasprintf fmt ap = Fuel
  end.
Proof.
  pose proof (vbprintf_spec (Some []) fmt ap) as V. unfold vasprintf. destruct (print_text fmt ap) as [[t z]| |]; rewrite V; reflexivity.
Qed.

(** ** C72: one text, wherever it goes *)

(** Whatever the format and the arguments, every function ends.  If the arguments are
    there as the format asks for, there is one text such that M_asprintf returns it,
    M_bprintf appends it, M_dprintf (a 512 byte write buffer) and M_fprintf write it, and M_snprintf stores its first size-1
    bytes and a NUL and leaves the rest of the buffer as it was; all of them return the
    length of the whole text. *)
Theorem fmt_one_text fmt ap :
  vasprintf fmt ap <> Fuel /\
  (vasprintf fmt ap <> UB ->
   exists t,
    vasprintf fmt ap = Ok (t, N.of_nat (length t)) /\
    (forall b, vbprintf (Some b) fmt ap = Ok (Some (b ++ t)%list, N.of_nat (length t))) /\
    vbprintf None fmt ap = Ok (None, N.of_nat (length t)) /\
    (forall w, length w = 512%nat -> vdprintf w fmt ap = Ok (t, Z.of_nat (length t))) /\
    (forall fails, Forall (fun b => b = false) fails -> vfprintf fails fmt ap = Ok (t, Z.of_nat (length t))) /\
    (forall size, vsnprintf None size fmt ap = Ok (None, N.of_nat (length t))) /\
    (forall m, vsnprintf (Some m) 0 fmt ap = Ok (Some m, N.of_nat (length t))) /\
    (forall m size, (0 < size <= length m)%nat ->
       vsnprintf (Some m) size fmt ap = Ok (Some (firstn (size - 1) t ++ [0%N] ++ skipn (S (Nat.min (length t) (size - 1))) m)%list, N.of_nat (length t)))).
Proof.
  pose proof (print_text_nf fmt ap) as NF. pose proof (vasprintf_spec fmt ap) as A.
  pose proof (vdprintf_spec) as D. pose proof (vfprintf_spec) as F. pose proof vbprintf_spec as B. pose proof vsnprintf_spec as S.
  split; [destruct (print_text fmt ap) as [[t z]| |]; rewrite A; congruence|]. intros NU.
  destruct (print_text fmt ap) as [[t z]| |] eqn:E; [|congruence|congruence]. exists t. split; [exact A|].
  split; [intros b; specialize (B (Some b) fmt ap); now rewrite E in B|].
  split; [specialize (B None fmt ap); now rewrite E in B|].
  split; [intros w L; specialize (D w fmt ap L); now rewrite E in D|].
  split; [intros fs L; specialize (F fs fmt ap L); now rewrite E in F|].
  split; [intros size; specialize (S None size fmt ap I); now rewrite E in S|].
  split.
  - intros m. specialize (S (Some m) 0%nat fmt ap (Nat.le_0_l _)). now rewrite E in S.
  - intros m size [L1 L2]. specialize (S (Some m) size fmt ap L2). rewrite E in S. destruct size; [lia|]. exact S.
Qed.
Print Assumptions fmt_one_text.
(* "a%-4d|%s" with 7 and NULL in a buffer of 9 bytes of which 8 may be used *)
Example fmt_one_text_ex :
  vsnprintf (Some [1;2;3;4;5;6;7;8;9]) 8 [97;37;45;52;100;124;37;115] [AInt 7; AStr None]
  = Ok (Some [97;55;32;32;32;124;60;0;9], 12).
Proof. reflexivity. Qed.

(** The string in the buffer of M_snprintf is never longer than size-1, and it is the whole
    text exactly when the value returned is less than size. *)
Theorem fmt_truncation fmt ap m size m' n : (0 < size <= length m)%nat ->
  vsnprintf (Some m) size fmt ap = Ok (Some m', n) ->
  exists t, vasprintf fmt ap = Ok (t, n) /\ length m' = length m /\
    nth_error m' (Nat.min (length t) (size - 1)) = Some 0 /\
    (n < N.of_nat size <-> firstn (length t) m' = t /\ (length t < size)%nat).
Proof.
  intros L H. destruct (fmt_one_text fmt ap) as [NF K].
  assert (NU : vasprintf fmt ap <> UB).
  { intros U. pose proof (vasprintf_spec fmt ap) as A. pose proof (vsnprintf_spec (Some m) size fmt ap (proj2 L)) as S.
    destruct (print_text fmt ap) as [[t z]| |]; congruence. }
  destruct (K NU) as (t & A & _ & _ & _ & _ & _ & _ & S). specialize (S m size L). rewrite H in S.
  set (w := (firstn (size - 1) t ++ [0] ++ skipn (Datatypes.S (Nat.min (length t) (size - 1))) m)%list) in S. assert (m' = w) by congruence. assert (n = N.of_nat (length t)) by congruence. subst m' n w. clear S.
  exists t. split; [exact A|].
  assert (FL : length (firstn (size - 1) t) = Nat.min (length t) (size - 1)) by (rewrite firstn_length; lia).
  split. { rewrite !app_length, FL, skipn_length. cbn [length]. lia. }
  split. { rewrite nth_error_app2 by lia. rewrite FL, Nat.sub_diag. reflexivity. }
  split.
  - intros LT. split; [|lia]. rewrite firstn_app. rewrite firstn_firstn, Nat.min_l by lia. rewrite FL. rewrite Nat.min_l by lia. rewrite Nat.sub_diag, firstn_O, app_nil_r. apply firstn_all.
  - lia.
Qed.
Print Assumptions fmt_truncation.
Example fmt_truncation_ex : vsnprintf (Some [1;2;3]) 3 [37;117] [AInt 12345] = Ok (Some [49;50;0], 5).
Proof. reflexivity. Qed.

(** ** C73: what a conversion prints *)

(** For every format made of text, %% and conversions d i u o O x X p P c s e E f F g G with any flags,
    width, precision (of strings and floating point numbers) and length modifier, and arguments in the range of their
    type, the text is the one m_fmt.h describes (see the file Spec): sign, prefix, zeros, digits,
    blanks; and there is only one such text. *)
Theorem fmt_conversions its : Forall okitem its ->
  exists t, prints its t /\ (forall t', prints its t' -> t' = t) /\ vasprintf (render its) (args its) = Ok (t, N.of_nat (length t)).
Proof.
  intros F. destruct (print_items its F) as (t & P & E). exists t. split; [exact P|]. split; [intros t' P'; eapply prints_unique; eauto|].
  pose proof (vasprintf_spec (render its) (args its)) as A. rewrite E in A. exact A.
Qed.
Print Assumptions fmt_conversions.
(* "%+06d|%#-7x|%%%*s" *)
Definition ex_items : list item :=
  [Cnv [43;48] (WNum [54]) LNone (CInt false (-42)); Lit 124; Cnv [35;45] (WNum [55]) LHH (CHex false 171); Lit 124; Pct;
   Cnv [] (WStar 5) LNone (CStr (Some (WNum [50])) (Some [97;98;99]) [])].
Example fmt_conversions_ex :
  Forall okitem ex_items /\
  vasprintf (render ex_items) (args ex_items) = Ok ([45;48;48;48;52;50; 124; 48;120;97;98;32;32;32; 124; 37; 32;32;32;97;98], 21).
Proof.
  split; [|reflexivity].
  unfold ex_items. repeat apply Forall_cons; try apply Forall_nil; try discriminate; try exact I.
  - split; [repeat apply Forall_cons; try apply Forall_nil; cbn; auto 10|]. split; [|cbn; lia]. split; [repeat apply Forall_cons; try apply Forall_nil; lia|]. split; [cbn; lia|]. exists 54, []. split; [reflexivity|discriminate].
  - split; [repeat apply Forall_cons; try apply Forall_nil; cbn; auto 10|]. split; [|cbn; lia]. split; [repeat apply Forall_cons; try apply Forall_nil; lia|]. split; [cbn; lia|]. exists 55, []. split; [reflexivity|discriminate].
  - split; [constructor|]. split; [cbn; lia|]. split; [reflexivity|]. split; [split; [repeat apply Forall_cons; try apply Forall_nil; lia|cbn; lia]|]. split; [repeat apply Forall_cons; try apply Forall_nil; discriminate|].
    right. exists (WNum [50]). split; [reflexivity|]. cbn. lia.
Qed.

(** ** Where the claims of printf fail *)

(** %#x of 0 is "0x0"; C99 gives "0". *)
Theorem fmt_hex_zero_refuted : vasprintf [37;35;120] [AInt 0] = Ok ([48;120;48], 3).
Proof. reflexivity. Qed.
(** A precision of an integer is ignored: %.5d of 42 is "42". *)
Theorem fmt_int_precision_refuted : vasprintf [37;46;53;100] [AInt 42] = Ok ([52;50], 2).
Proof. reflexivity. Qed.
(** A negative * is no width to the left: %*d with -4 and 7 is "7".  A negative precision is
    not "as if omitted": %.*s with -1 prints nothing. *)
Theorem fmt_negative_star_refuted :
  vasprintf [37;42;100] [AInt (2 ^ 32 - 4); AInt 7] = Ok ([55], 1) /\
  vasprintf [37;46;42;115] [AInt (2 ^ 32 - 1); AStr (Some [97;98;0])] = Ok ([], 0).
Proof. split; reflexivity. Qed.
(** "I" is to be the same as z unless 64 or 32 follows.  It is if fewer than two bytes of
    the format follow; with more the argument is read as an int. *)
Theorem fmt_modifier_I_refuted :
  vasprintf [37;73;117] [ALong (2 ^ 32)] = Ok ([52;50;57;52;57;54;55;50;57;54], 10) /\
  vasprintf [37;73;117;10] [ALong (2 ^ 32)] = UB /\ vasprintf [37;73;117;10] [AInt 7] = Ok ([55;10], 2).
Proof. split; [reflexivity|split; reflexivity]. Qed.
(** An infinite number is filled with zeros under flag 0: "%05f" gives "00inf". *)
Theorem fmt_inf_zero_refuted : vasprintf [37;48;53;102] [ADbl false (fun _ => [105;110;102])] = Ok ([48;48;105;110;102], 5).
Proof. reflexivity. Qed.
(** A failed write need not be reported.  "%+05d" of 7 when the sign cannot be written: 4
    bytes are written and 3 is returned; if the digits cannot be written either, what
    follows is the text for a broken format, and 1 + 4 is returned. *)
Theorem fmt_write_error_refuted :
  vfprintf [true] [37;43;48;53;100] [AInt 7] = Ok ([48;48;48;55], 3%Z) /\
  vfprintf [true; true] [37;43;48;53;100] [AInt 7] = Ok ([37;63;63;63;63], 5%Z).
Proof. split; reflexivity. Qed.
(** A width of 2^64 is no width. *)
Theorem fmt_width_wraps_refuted :
  vasprintf (37 :: [49;56;52;52;54;55;52;52;48;55;51;55;48;57;53;53;49;54;49;54] ++ [100]) [AInt 7] = Ok ([55], 1).
Proof. reflexivity. Qed.

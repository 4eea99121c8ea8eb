(** Properties C69 (a serialised dictionary reads back) and C70 (splitting respects quotes). *)
From Verif Require Import Base.Lib Base.Mem Dict.Model Dict.Spec Dict.Proofs.
Local Open Scope N_scope.

(** C69.  Whatever the values are, and in every combination of flags other than HEXENCODE,
    reading what was written gives the entries back, in order, NULL values included. *)
Theorem dict_roundtrip : forall delim kvd quote escape fl b tr d,
  specials_ok delim kvd quote escape -> modes_ok delim kvd quote (lf_to_crlf fl) tr -> hexencode fl = false ->
  d <> [] -> Forall (fun e => key_ok delim kvd quote tr (fst e) /\ val_ok quote escape (always_quote fl) (snd e)) d ->
  exists s, serialize delim kvd quote escape fl (Some b) d = Ok s /\ deserialize delim kvd quote escape tr s = Ok (Some d).
Proof. intros. apply roundtrip; auto. Qed.

(** No two dictionaries are written the same way. *)
Theorem dict_serialize_inj : forall delim kvd quote escape fl b tr d1 d2 s,
  specials_ok delim kvd quote escape -> modes_ok delim kvd quote (lf_to_crlf fl) tr -> hexencode fl = false ->
  d1 <> [] -> d2 <> [] ->
  Forall (fun e => key_ok delim kvd quote tr (fst e) /\ val_ok quote escape (always_quote fl) (snd e)) d1 ->
  Forall (fun e => key_ok delim kvd quote tr (fst e) /\ val_ok quote escape (always_quote fl) (snd e)) d2 ->
  serialize delim kvd quote escape fl (Some b) d1 = Ok s -> serialize delim kvd quote escape fl (Some b) d2 = Ok s -> d1 = d2.
Proof.
  intros delim kvd quote escape fl b tr d1 d2 s SP MO NH N1 N2 F1 F2 S1 S2.
  destruct (dict_roundtrip delim kvd quote escape fl b tr d1 SP MO NH N1 F1) as [s1 [A1 B1]].
  destruct (dict_roundtrip delim kvd quote escape fl b tr d2 SP MO NH N2 F2) as [s2 [A2 B2]]. congruence.
Qed.

(** C70.  The pieces put together give the text back, and there are at most [max]. *)
Theorem explode_quoted_joined : forall delim quote escape max s,
  quote < 128 -> delim < 128 -> escape < 128 -> delim <> escape -> delim <> 0 -> s <> [] -> no_nul s ->
  exists l, explode_strs delim quote escape max s = Ok (Some l) /\ joined delim l = s /\ ((2 <= max)%nat -> (length l <= max)%nat).
Proof. intros. apply explode_joined; auto. Qed.

(** The cuts are at the delimiters outside quotes and nowhere else. *)
Theorem explode_quoted_cuts : forall delim quote escape s,
  quote < 128 -> delim < 128 -> escape < 128 -> delim <> escape -> delim <> quote -> delim <> 0 -> s <> [] -> no_nul s ->
  exists l, explode_strs delim quote escape 0 s = Ok (Some l) /\ joined delim l = s /\ cut_right delim quote escape l.
Proof.
  intros delim quote escape s Q D E DE DQ D0 NS NN. destruct (explode_joined delim quote escape Q D E DE D0 0%nat s NS NN) as [l [A [B _]]].
  destruct (explode_cuts delim quote escape Q D E DE D0 s DQ NS NN) as [l' [A' C]]. exists l. split; [exact A|]. split; [exact B|]. congruence.
Qed.

(** ** What does not hold *)

Definition noflags := {| always_quote := false; quote_non_ans := false; hexencode := false; lf_to_crlf := false |}.
Definition aqflags := {| always_quote := true; quote_non_ans := false; hexencode := false; lf_to_crlf := false |}.
Definition hexflags := {| always_quote := false; quote_non_ans := false; hexencode := true; lf_to_crlf := false |}.
Definition lfflags := {| always_quote := false; quote_non_ans := false; hexencode := false; lf_to_crlf := true |}.

(** An empty value makes the writer look at the byte in front of the string. *)
Theorem dict_empty_value_refuted : exists d, Forall (fun e => snd e = Some []) d /\ d <> [] /\
  serialize 59 61 34 92 noflags None d = UB.
Proof. exists [([97], Some [])]. split; [repeat constructor|]. split; [discriminate|]. vm_compute. reflexivity. Qed.
(** A value ending in the escape character swallows its closing quote: a="b\\";c=d comes
    back as a single entry. *)
Theorem dict_trailing_escape_refuted : exists d s,
  serialize 59 61 34 92 noflags (Some 0) d = Ok s /\ deserialize 59 61 34 92 false s <> Ok (Some d).
Proof. eexists [([97], Some [98; 92]); ([99], Some [100])], _. split; [vm_compute; reflexivity|]. vm_compute. discriminate. Qed.
(** Keys are not quoted: a key with the delimiter in it does not come back. *)
Theorem dict_key_refuted : exists d s,
  serialize 59 61 34 92 noflags (Some 0) d = Ok s /\ deserialize 59 61 34 92 false s <> Ok (Some d).
Proof. eexists [([97; 61; 98], Some [99])], _. split; [vm_compute; reflexivity|]. vm_compute. discriminate. Qed.
(** ALWAYS_QUOTE turns NULL into the empty string. *)
Theorem dict_null_quoted_refuted : exists s,
  serialize 59 61 34 92 aqflags (Some 0) [([97], None)] = Ok s /\ deserialize 59 61 34 92 false s = Ok (Some [([97], Some [])]).
Proof. eexists. split; vm_compute; reflexivity. Qed.
(** HEXENCODE is not undone, and a byte above 127 is written as [[FFFFFFxx]]. *)
Theorem dict_hexencode_refuted :
  serialize 59 61 34 92 hexflags (Some 0) [([97], Some [200])] = Ok ([97; 61; 34] ++ [91; 70; 70; 70; 70; 70; 70; 67; 56; 93] ++ [34; 59]) /\
  deserialize 59 61 34 92 false ([97; 61; 34] ++ [91; 70; 70; 70; 70; 70; 70; 67; 56; 93] ++ [34; 59]) = Ok (Some [([97], Some [91; 70; 70; 70; 70; 70; 70; 67; 56; 93])]).
Proof. split; vm_compute; reflexivity. Qed.
(** LF_TO_CRLF without TRIM_WHITESPACE leaves a CR behind every value. *)
Theorem dict_crlf_refuted : exists s,
  serialize 10 61 34 92 lfflags (Some 0) [([97], Some [98])] = Ok s /\ deserialize 10 61 34 92 false s = Ok (Some [([97], Some [98; 13])]).
Proof. eexists. split; vm_compute; reflexivity. Qed.
(** The empty dictionary comes back as NULL. *)
Theorem dict_empty_refuted : exists s, serialize 59 61 34 92 noflags (Some 0) [] = Ok s /\ deserialize 59 61 34 92 false s = Ok None.
Proof. eexists. split; vm_compute; reflexivity. Qed.
(** A limit of one piece is no limit. *)
Theorem explode_quoted_max1_refuted : explode_strs 59 34 92 1 [97; 59; 98; 59; 99] = Ok (Some [[97]; [98]; [99]]).
Proof. vm_compute. reflexivity. Qed.
(** With the delimiter as escape character the two loops disagree (the second one sees the
    NULs the first one did not write), and the array keeps an uninitialised pointer. *)
Theorem explode_quoted_delim_escape_refuted : explode_strs 92 34 92 0 [92; 34; 92; 34; 92] = UB.
Proof. vm_compute. reflexivity. Qed.

(** ** Not vacuous *)

(** A space in front, all four special characters, NULL, empty, quotes only, plain. *)
Definition demo : list (list N * option (list N)) :=
  [([97], Some [32; 98; 59; 34; 61; 92; 99]); ([98; 99], None); ([100], Some []); ([101], Some [34; 34]); ([102], Some [120; 121])].
Example demo_ok : specials_ok 59 61 34 92 /\ modes_ok 59 61 34 false true /\ demo <> [] /\
  Forall (fun e => key_ok 59 61 34 true (fst e) /\ val_ok 34 92 false (snd e)) demo.
Proof.
  unfold specials_ok, modes_ok, key_ok, val_ok, white, demo. repeat split; try lia; try discriminate; intros; try lia.
  repeat constructor; cbn [fst snd hd last]; try discriminate; try (intros; lia); repeat constructor; try discriminate; try lia; try (right; discriminate); try (intros; left; reflexivity); intros; right; discriminate.
Qed.
Example demo_dq : val_ok 34 34 false (Some [34; 34]) /\ specials_ok 59 61 34 34.
Proof. unfold specials_ok, val_ok. repeat split; try lia; repeat constructor; try lia; try congruence. Qed.
Example demo_text : serialize 59 61 34 92 noflags (Some 0) demo =
  Ok ([97; 61; 34; 32; 98; 59; 92; 34; 61; 92; 92; 99; 34; 59] ++ [98; 99; 61; 59] ++ [100; 61; 34; 34; 59] ++ [101; 61; 34; 92; 34; 92; 34; 34; 59] ++ [102; 61; 120; 121; 59]).
Proof. vm_compute. reflexivity. Qed.
Example explode_demo : explode_strs 59 34 92 0 [97; 34; 59; 92; 34; 59; 34; 59; 98] = Ok (Some [[97; 34; 59; 92; 34; 59; 34]; [98]]).
Proof. vm_compute. reflexivity. Qed.

Print Assumptions dict_roundtrip.
Print Assumptions dict_serialize_inj.
Print Assumptions explode_quoted_joined.
Print Assumptions explode_quoted_cuts.
Print Assumptions dict_empty_value_refuted.
Print Assumptions dict_trailing_escape_refuted.
Print Assumptions dict_key_refuted.
Print Assumptions dict_null_quoted_refuted.
Print Assumptions dict_hexencode_refuted.
Print Assumptions dict_crlf_refuted.
Print Assumptions dict_empty_refuted.
Print Assumptions explode_quoted_max1_refuted.
Print Assumptions explode_quoted_delim_escape_refuted.

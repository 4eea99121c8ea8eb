(** * JSON: reading and writing (m_json_reader.c, m_json_writer.c) *)
From Coq Require Import QArith.
From Verif Require Import Base.Lib Base.Mem Hex.Model Utf8.Spec StrNum.Spec Decimal.Model Decimal.Spec Json.Model Json.Number Json.Spec Json.Read Json.Tree Json.Write Json.Safe.
Local Open Scope N_scope.

(** ** C66 *)
Definition rf (trunc nocomment unique nodecode replace : bool) : rflags :=
  {| r_trunc := trunc; r_nocomment := nocomment; r_unique := unique; r_nodecode := nodecode; r_replace := replace |}.
Definition rf0 : rflags := rf false false false false false.
Definition wf (space tab crlf noencode nocompat replace : bool) : wflags :=
  {| w_space := space; w_tab := tab; w_crlf := crlf; w_noencode := noencode; w_nocompat := nocompat; w_replace := replace |}.
Definition wf0 : wflags := wf false false false false false false.

(** Every document of the grammar of Spec.v is accepted, completely consumed, and gives
    exactly the tree the grammar assigns to it, whatever follows in memory.  Missing:
    numbers with an exponent, empty keys and escaped surrogate pairs (which lose data or
    are refused, see below); texts outside the grammar, of which some are accepted. *)
Theorem json_read_text_partial fl z want t v : r_nodecode fl = false -> no_nul t ->
  Doc (negb (r_nocomment fl)) (negb (r_unique fl)) t v ->
  json_read (0 :: z) fl want t = Ok (inr (v, length t)).
Proof.
  intros Dec Nn (w1 & t' & w2 & -> & I1 & I2 & V & Root).
  assert (A2 : after_num w2) by (rewrite <- (app_nil_r w2); apply (after_ign fl); auto; exact I).
  pose proof (proj1 (read_all z fl Dec) t' v V w1 w2 (2 * length (w1 ++ t' ++ w2) + 2)%nat I1 Nn A2 ltac:(lia)) as R.
  unfold json_read. destruct (w1 ++ t' ++ w2) as [|c0 d0] eqn:E.
  { exfalso. destruct (val_head fl _ _ V) as (c & u & -> & _). destruct w1; discriminate E. }
  assert (c0 <> 0) by (inversion Nn; auto). rewrite (proj2 (N.eqb_neq c0 0)) by auto. rewrite <- E in *. rewrite R. cbn [bind].
  assert (G : (match w2 with [] => Ok (inr w2) | _ => eat_ignored fl w2 end) = Ok (inr [] : jerr + list N)).
  { pose proof (eat_ignored_ok fl w2 [] I2 I) as X. rewrite app_nil_r in X. destruct w2; auto. }
  rewrite G. destruct v; try (destruct Root); cbn [bind]; destruct want; do 3 f_equal; cbn [length]; lia.
Qed.

(** <space>{"a":[1,-2.50,"x\né"]/* c */, "b":null ,"a" : true} *)
Definition jsample : list N :=
  [32; 123; 34; 97; 34; 58; 91; 49; 44; 45; 50; 46; 53; 48; 44; 34; 120; 92; 110; 92; 117; 48; 48; 101; 57; 34; 93; 47; 42; 32; 99; 32; 42; 47; 44; 32;
   34; 98; 34; 58; 110; 117; 108; 108; 32; 44; 34; 97; 34; 32; 58; 32; 116; 114; 117; 101; 125].
Definition jsample_tree : json := JObj [([97], JBool true); ([98], JNull)].
Definition jarr : json := JArr [JInt 1; JDec {| num := -25; nd := 1 |}; JStr [120; 10; 195; 169]].
Lemma code_233 : code_cp 233.
Proof. left. split; [split; lia|]. unfold nonchar. cbn. lia. Qed.
Lemma jarr_val : Val true true [91; 49; 44; 45; 50; 46; 53; 48; 44; 34; 120; 92; 110; 92; 117; 48; 48; 101; 57; 34; 93] jarr.
Proof.
  apply (V_arr true true [] [49; 44; 45; 50; 46; 53; 48; 44; 34; 120; 92; 110; 92; 117; 48; 48; 101; 57; 34]); [constructor|].
  apply (E_more true true [49] (JInt 1) [] []); try constructor.
  { apply (N_int false [1] (JInt 1)); [split; [discriminate|repeat constructor; lia]|cbv; split; discriminate|reflexivity]. }
  apply (E_more true true [45; 50; 46; 53; 48] (JDec {| num := -25; nd := 1 |}) [] []); try constructor.
  { apply (N_frac true [2] [5; 0] (JDec {| num := -25; nd := 1 |})); [split; [discriminate|repeat constructor; lia]|split; [discriminate|repeat constructor; lia]|cbn; lia|cbv; split; discriminate|cbv; split; discriminate|].
    split; [reflexivity|]. split; discriminate. }
  apply (E_one true true [34; 120; 92; 110; 92; 117; 48; 48; 101; 57; 34] (JStr [120; 10; 195; 169]) []); [|constructor].
  apply (V_str true true [120; 92; 110; 92; 117; 48; 48; 101; 57]). apply Ch_plain; try lia; try discriminate. apply Ch_esc; [unfold escape; lia|].
  apply (Ch_uni 48 48 101 57 0 0 14 9 233 [] []); try (unfold hexval; lia); try discriminate; [exact code_233|constructor].
Qed.
Example json_sample : Doc true true jsample jsample_tree /\ no_nul jsample.
Proof.
  split; [|repeat constructor; discriminate].
  exists [32], (skipn 1 jsample), []. split; [reflexivity|]. split; [apply I_ws; [auto|constructor]|]. split; [constructor|]. split; [|exact I].
  apply (V_obj true true [] (firstn 54 (skipn 2 jsample)) [([97], jarr); ([98], JNull); ([97], JBool true)]); [constructor| | |discriminate].
  - apply (M_more true true [97] [97] [] [] [91; 49; 44; 45; 50; 46; 53; 48; 44; 34; 120; 92; 110; 92; 117; 48; 48; 101; 57; 34; 93] jarr [47; 42; 32; 99; 32; 42; 47] [32]);
      [apply Ch_plain; try lia; try discriminate; constructor|discriminate|constructor|constructor|exact jarr_val| |apply I_ws; [auto|constructor]|].
    { apply (I_block true [32; 99; 32] []); [reflexivity| |constructor]. intros [|? [|? [|? [|? x]]]] y H; discriminate H. }
    apply (M_more true true [98] [98] [] [] [110; 117; 108; 108] JNull [32] []);
      [apply Ch_plain; try lia; try discriminate; constructor|discriminate|constructor|constructor|constructor|apply I_ws; [auto|constructor]|constructor|].
    apply (M_one true true [97] [97] [32] [32] [116; 114; 117; 101] (JBool true) []);
      [apply Ch_plain; try lia; try discriminate; constructor|discriminate|apply I_ws; [auto|constructor]|apply I_ws; [auto|constructor]|constructor|constructor].
  - split; [reflexivity|]. repeat constructor.
Qed.
Example json_sample_run : json_read [0] rf0 false jsample = Ok (inr (jsample_tree, 57%nat)).
Proof. vm_compute. reflexivity. Qed.
Print Assumptions json_read_text_partial.

(** A tree of safe values is written, and the text, which is a document whichever of the
    options of the reader are chosen, is read back as the same tree up to the
    representation of decimals; an integral one comes back as an integer.  Missing: what
    [writable] excludes, see below. *)
Theorem json_write_read_partial wfl v : writable (w_noencode wfl) v -> match v with JObj _ | JArr _ => True | _ => False end ->
  exists t v', json_write wfl v = Ok (Some t) /\ same v v' /\ (forall cm du, Doc cm du t v') /\
    forall fl z want, r_nodecode fl = false -> json_read (0 :: z) fl want t = Ok (inr (v', length t)).
Proof.
  intros W Root. destruct (write_node_ok wfl v W 0) as (t & v' & Et & S & Nn & V). exists t, v'. split; [exact Et|]. split; auto.
  assert (D : forall cm du, Doc cm du t v').
  { intros cm du. exists [], t, []. rewrite app_nil_r. split; [reflexivity|]. split; [constructor|]. split; [constructor|]. split; [apply V|]. inversion S; subst; auto; destruct Root. }
  split; auto. intros fl z want Dec. now apply json_read_text_partial.
Qed.
Definition jtree : json := JObj [([97; 98], JArr [JInt (-7); JDec {| num := 250; nd := 2 |}; JNull]); ([99], JStr [34; 9; 195; 169; 47]); ([100], JObj []); ([101], JBool false)].
Example jtree_writable : writable false jtree.
Proof.
  apply W_obj.
  - repeat constructor; try discriminate; lia.
  - repeat constructor; cbn; intuition discriminate.
  - repeat constructor; try (cbv; (discriminate || lia)); try (split; discriminate).
    apply (W_str false [34; 9; 233; 47]). repeat apply Forall_cons; try constructor; try (apply code_low; lia); try exact code_233; split; try discriminate; right; lia.
Qed.
(** {"ab" : [-7,2.5,null], ...} with two spaces per level *)
Example jtree_run : exists t, json_write (wf true false false false false false) jtree = Ok (Some t) /\ length t = 99%nat /\
  json_read [0] rf0 false t = Ok (inr (JObj [([97; 98], JArr [JInt (-7); JDec {| num := 25; nd := 1 |}; JNull]); ([99], JStr [34; 9; 195; 169; 47]); ([100], JObj []); ([101], JBool false)], 99%nat)).
Proof. eexists. split; [vm_compute; reflexivity|]. split; vm_compute; reflexivity. Qed.
Print Assumptions json_write_read_partial.

(** The reader comes to an end on all data: there is no input on which it loops, with or
    without what lies behind the data. *)
Theorem json_read_ends tail fl want data : json_read tail fl want data <> Fuel.
Proof. apply json_read_nf. Qed.
Print Assumptions json_read_ends.

(** Whatever text is accepted, the tree is an object or an array, its strings are C
    strings and its objects have distinct non-empty keys; no more than the data is
    consumed, and all of it if the caller does not ask how much. *)
Theorem json_read_result tail fl want data v n : json_read tail fl want data = Ok (inr (v, n)) ->
  proper v /\ match v with JObj _ | JArr _ => True | _ => False end /\ (n <= length data)%nat /\ (want = false -> n = length data).
Proof. apply json_read_proper. Qed.
Print Assumptions json_read_result.

(** *** What goes wrong *)
(** [1 2] and {"a":1 "b":2} are accepted: "and" for "or" in lines 208 and 289. *)
Theorem json_comma_refuted :
  json_read [0] rf0 false [91; 49; 32; 50; 93] = Ok (inr (JArr [JInt 1; JInt 2], 5%nat)) /\
  json_read [0] rf0 false [123; 34; 97; 34; 58; 49; 32; 34; 98; 34; 58; 50; 125] = Ok (inr (JObj [([97], JInt 1); ([98], JInt 2)], 13%nat)).
Proof. split; vm_compute; reflexivity. Qed.
(** {"":1} loses its member. *)
Theorem json_empty_key_refuted : json_read [0] rf0 false [123; 34; 34; 58; 49; 125] = Ok (inr (JObj [], 6%nat)).
Proof. vm_compute. reflexivity. Qed.
(** Keys are not escaped when written: the text of an object whose key has a quote in it is not accepted. *)
Theorem json_write_key_refuted : exists t, json_write wf0 (JObj [([97; 34; 98], JInt 1)]) = Ok (Some t) /\
  json_read [0] rf0 false t = Ok (inl EMissingPairSeparator).
Proof. eexists. split; [vm_compute; reflexivity|]. vm_compute. reflexivity. Qed.
(** U+1F600 is written as \u1F600 and read back as U+1F60 and "0"; the surrogate pair
    that JSON wants is refused. *)
Theorem json_unicode_refuted :
  (exists t, json_write wf0 (JArr [JStr [240; 159; 152; 128]]) = Ok (Some t) /\ json_read [0] rf0 false t = Ok (inr (JArr [JStr [225; 189; 160; 48]], length t))) /\
  json_read [0] rf0 false [91; 34; 92; 117; 100; 56; 51; 100; 92; 117; 100; 101; 48; 48; 34; 93] = Ok (inl EInvalidUnicodeEscape).
Proof. split; [eexists; split; [vm_compute; reflexivity|]|]; vm_compute; reflexivity. Qed.
(** "a\u0000b" is read as "a". *)
Theorem json_nul_refuted : json_read [0] rf0 false [91; 34; 97; 92; 117; 48; 48; 48; 48; 98; 34; 93] = Ok (inr (JArr [JStr [97]], 12%nat)).
Proof. vm_compute. reflexivity. Qed.
(** 2^53 with NUMBER_NOCOMPAT is followed by a stray quote, and without it it comes back
    as a string. *)
Theorem json_big_integer_refuted :
  (exists t, json_write (wf false false false false true false) (JArr [JInt 9007199254740992]) = Ok (Some t) /\
    (forall v n, json_read [0] rf0 false t <> Ok (inr (v, n)))) /\
  (exists t s, json_write wf0 (JArr [JInt 9007199254740992]) = Ok (Some t) /\ json_read [0] rf0 false t = Ok (inr (JArr [JStr s], length t))).
Proof. split; [eexists; split; [vm_compute; reflexivity|vm_compute; discriminate]|do 2 eexists; split; [vm_compute; reflexivity|]; vm_compute; reflexivity]. Qed.
(** REPLACE_BAD_CHARS adds a question mark but keeps the control character. *)
Theorem json_replace_refuted : json_read [0] (rf false false false false true) false [91; 34; 1; 34; 93] = Ok (inr (JArr [JStr [63; 1]], 5%nat)).
Proof. vm_compute. reflexivity. Qed.
(** With it, looking for the rest of a bad escape leaves the data. *)
Theorem json_replace_overread_refuted : json_read [] (rf false false false false true) false [91; 34; 92; 117; 34] = UB.
Proof. vm_compute. reflexivity. Qed.
(** A number at the end of the data: the byte after it is read. *)
Theorem json_number_overread_refuted : json_read [] rf0 false [91; 49] = UB.
Proof. vm_compute. reflexivity. Qed.
(** [1e-9223372036854775808]: signed overflow. *)
Theorem json_exponent_refuted : json_read [0] rf0 false [91; 49; 101; 45; 57; 50; 50; 51; 51; 55; 50; 48; 51; 54; 56; 53; 52; 55; 55; 53; 56; 48; 56; 93] = UB.
Proof. vm_compute. reflexivity. Qed.

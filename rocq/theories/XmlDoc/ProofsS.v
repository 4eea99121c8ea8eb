(** The reader on any data: no undefined behaviour, and the form of what it returns. *)
From Verif Require Import Base.Lib Base.Mem Hex.Model StrEq.Spec StrEq.Proofs XmlEnt.Model XmlEnt.Spec XmlEnt.Proofs XmlEnt.Props XmlDoc.Model XmlDoc.Spec XmlDoc.Proofs.
Local Open Scope N_scope.

(** ** Safety *)

Lemma plain_skipn n s : plain s -> plain (skipn n s).
Proof. intros H. rewrite <- (firstn_skipn n s) in H. now apply plain_app in H. Qed.
Lemma plain_firstn n s : plain s -> plain (firstn n s).
Proof. intros H. rewrite <- (firstn_skipn n s) in H. now apply plain_app in H. Qed.
Lemma plain_cons c s : plain (c :: s) <-> plain [c] /\ plain s.
Proof. apply (plain_app [c] s). Qed.

Lemma decode_total ents SS z : Forall (fun e : entity => exists l, snd e = 38 :: l /\ no_nul l /\ is_bytes l) ents -> plain SS -> forall len, (len <= length SS)%nat -> N.of_nat len <= int_max ->
  forall n i out rest, (1 <= n)%nat -> (len < n + i)%nat -> (length out <= i)%nat -> (length out <= len)%nat -> (length out + length rest = len + 1)%nat ->
  exists v rest', decode_loop ents n (SS ++ 0 :: z) len i (out ++ rest) (N.of_nat (length out)) = Ok (v ++ rest', N.of_nat (length v)) /\ (1 <= length rest')%nat.
Proof.
  intros WF PS len HL HI. induction n as [|n IH]; intros i out rest H1 Hn Ho Hl Hr; [lia|]. cbn [decode_loop].
  destruct (Nat.ltb_spec i len) as [L|L]; [|exists out, rest; split; [reflexivity|lia]].
  assert (Hc : exists c, rd (SS ++ 0 :: z) i = Ok c) by (apply rd_lt; rewrite app_length; cbn [length]; lia). destruct Hc as (c & Ec). rewrite Ec. cbn [bind].
  assert (Sk : skipn i (SS ++ 0 :: z) = skipn i SS ++ 0 :: z) by (rewrite skipn_app; replace (i - length SS)%nat with 0%nat by lia; reflexivity). rewrite Sk.
  destruct (plain_skipn i SS PS) as [N1 B1]. destruct (find_entity_ok (skipn i SS) z N1 B1 ents WF) as (o & Eo & _).
  assert (F : exists o', (if c =? 38 then find_entity ents (skipn i SS ++ 0 :: z) else Ok None) = Ok o' /\ match o' with Some e => (1 <= length (snd e))%nat | None => True end).
  { destruct (c =? 38); [|exists None; auto]. exists o. split; auto. destruct o as [e|]; [|auto].
    assert (X : exists o2, find_entity ents (skipn i SS ++ 0 :: z) = Ok o2 /\ match o2 with Some e => In (fst e, snd e) ents | None => True end).
    { destruct (find_entity_ok (skipn i SS) z N1 B1 ents WF) as (o2 & E2 & H2). exists o2. split; auto. destruct o2; tauto. }
    destruct X as (o2 & E2 & H2). assert (o2 = Some e) by congruence. subst o2. rewrite Forall_forall in WF. destruct (WF _ H2) as (l & El & _). cbn [snd] in El. rewrite El. cbn [length]. lia. }
  destruct F as (o' & -> & Lo). cbn [bind]. destruct rest as [|x rest]; [cbn [length] in Hr; lia|].
  assert (P : forall y, put (out ++ x :: rest) (N.of_nat (length out)) y = Ok ((out ++ [y]) ++ rest)) by (intros y; apply put_ok; lia).
  replace (N.of_nat (length out) + 1) with (N.of_nat (length (out ++ [c]))) by (rewrite app_length; cbn [length]; lia).
  assert (Q : forall y, length (out ++ [y]) = (length out + 1)%nat) by (intros y; rewrite app_length; reflexivity). cbn [length] in Hr.
  destruct o' as [e|].
  - rewrite P. cbn [bind]. rewrite (Q c), <- (Q (fst e)). apply IH; rewrite ?Q; lia.
  - rewrite P. cbn [bind]. apply IH; rewrite ?Q; lia.
Qed.
Lemma decode_safe g SS z len : plain SS -> (len <= length SS)%nat -> N.of_nat len < 2 ^ 31 -> exists v, xml_entities_decode (SS ++ 0 :: z) len g = Ok v.
Proof.
  intros PS HL HI. change (2 ^ 31) with 2147483648 in HI. unfold xml_entities_decode, decode_int.
  destruct (decode_total decode_entities SS z decode_wf PS len HL) with (n := S len) (i := 0%nat) (out := @nil N) (rest := repeat g (S len)) as (v & rest' & E & L); try (cbn [length]; unfold int_max; lia).
  { rewrite repeat_length. cbn [length]. lia. }
  cbn [app length] in E. change (N.of_nat 0) with 0 in E. rewrite E. cbn [bind]. rewrite Nat2N.id. destruct rest' as [|x rest']; [cbn in L; lia|]. rewrite wr_app_mid. cbn [bind]. eauto.
Qed.

Lemma small_part a b c : small (a ++ b ++ c) -> small b.
Proof. intros H. apply small_app in H. destruct H as [_ H]. now apply small_app in H. Qed.
Lemma small_skipn n s : small s -> small (skipn n s).
Proof. intros H. rewrite <- (firstn_skipn n s) in H. now apply small_app in H. Qed.
Lemma small_firstn n s : small s -> small (firstn n s).
Proof. intros H. rewrite <- (firstn_skipn n s) in H. now apply small_app in H. Qed.
Lemma drop_space_suffix s : exists w, s = w ++ drop_space s.
Proof. induction s as [|c s (w & IH)]; [now exists []|]. cbn [drop_space]. destruct (chr_isspace c); [exists (c :: w); cbn [app]; now rewrite <- IH|now exists []]. Qed.
Lemma small_drop s : small s -> small (drop_space s).
Proof. intros H. destruct (drop_space_suffix s) as (w & E). rewrite E in H. now apply small_app in H. Qed.
Lemma trim_part s : exists a b, s = a ++ trim s ++ b.
Proof.
  unfold trim. destruct (drop_space_suffix s) as (a & E). destruct (drop_space_suffix (rev (drop_space s))) as (b & E'). exists a, (rev b). apply (f_equal (@rev N)) in E'. rewrite rev_involutive, rev_app_distr in E'. rewrite E at 1. now rewrite E' at 1.
Qed.
Lemma small_trim s : small s -> small (trim s).
Proof. intros H. destruct (trim_part s) as (a & b & E). rewrite E in H. now apply small_part in H. Qed.
Lemma cstr_prefix s : exists b, s = cstr s ++ b.
Proof. induction s as [|c s (b & IH)]; [now exists []|]. cbn [cstr]. destruct (c =? 0); [now exists (c :: s)|]. exists b. cbn [app]. now rewrite <- IH. Qed.
Lemma small_le s t : small s -> plain t -> (length t <= length s)%nat -> small t.
Proof. intros [_ L] P H. split; [exact P|]. change (2 ^ 31) with 2147483648 in *. lia. Qed.

Lemma strip_loop_ok d : plain d -> forall q req, plain (strip_loop q req d) /\ (length (strip_loop q req d) <= length d + match req with RSpace => 1 | _ => 0 end)%nat.
Proof.
  assert (PA : forall r, plain (asked r)) by (intros []; split; repeat constructor; discriminate).
  assert (LA : forall r, length (asked r) = match r with RSpace => 1 | _ => 0 end%nat) by (now intros []).
  induction d as [|c d IH]; intros P q req; cbn [strip_loop]; [split; [split; constructor|lia]|]. apply plain_cons in P. destruct P as [P0 P]. specialize (IH P).
  destruct q as [x|].
  - destruct (IH (if c =? x then None else Some x) req) as [A B]. split; [now apply plain_cons|cbn [length]; lia].
  - destruct (is_quote c).
    + destruct (IH (Some c) RNone) as [A B]. split; [apply plain_app; split; [apply PA|now apply plain_cons]|]. rewrite app_length, LA. cbn [length]. destruct req; lia.
    + destruct (chr_isspace c).
      * destruct (IH None (match req with RNever => RNever | _ => RSpace end)) as [A B]. split; [exact A|]. cbn [length]. destruct req; lia.
      * destruct (c =? 61).
        -- destruct (IH None RNever) as [A B]. split; [now apply plain_cons|]. cbn [length]. lia.
        -- destruct (IH None RNone) as [A B]. split; [apply plain_app; split; [apply PA|now apply plain_cons]|]. rewrite app_length, LA. cbn [length]. destruct req; lia.
Qed.
Lemma explode_loop_ok ch s : forall q cur, plain s -> plain cur -> Forall (fun p => plain p /\ (length p <= length cur + length s)%nat) (explode_loop ch q cur s).
Proof.
  induction s as [|c s IH]; intros q cur P PC; cbn [explode_loop]; [constructor; [split; [auto|lia]|constructor]|]. apply plain_cons in P. destruct P as [P0 P].
  assert (K : forall q', Forall (fun p => plain p /\ (length p <= length cur + length (c :: s))%nat) (explode_loop ch q' (cur ++ [c]) s)).
  { intros q'. eapply Forall_impl; [|apply IH; [auto|now apply plain_app]]. intros p [A B]. split; [exact A|]. rewrite app_length in B. cbn [length] in *. lia. }
  destruct (is_quote c); [apply K|]. destruct (_ && _); [|apply K]. constructor; [split; [auto|lia]|]. eapply Forall_impl; [|apply IH; [auto|split; constructor]]. intros p [A B]. split; [exact A|]. cbn [length] in *. lia.
Qed.
Lemma explode_small ch s : small s -> Forall small (explode ch s).
Proof. intros H. eapply Forall_impl; [|apply (explode_loop_ok ch s None []); [apply H|split; constructor]]. intros p [A B]. eapply small_le; eauto. Qed.
Lemma strip_quotes_small s : small s -> small (match strip_quotes s with Some x => x | None => s end).
Proof.
  intros H. unfold strip_quotes. destruct s as [|c s]; [exact H|]. destruct (_ && _); [|exact H]. destruct (rev_case_or s) as [-> |(l & x & ->)]; [cbn [removelast]; apply (small_app [c] []), H|].
  rewrite removelast_last. eapply (small_part [c] l [x]). exact H.
Qed.

Lemma read_pairs_total g fl kvs : Forall small kvs -> forall a, exists o, read_pairs g fl kvs a = Ok o.
Proof.
  induction 1 as [|kv kvs K H IH]; intros a; cbn [read_pairs]; [eauto|].
  pose proof (explode_small 61 kv K) as E. set (val := match explode 61 kv with _ :: v :: _ => Some _ | _ => None end).
  assert (V : small (match val with Some v => v | None => [] end)).
  { unfold val. destruct (explode 61 kv) as [|p1 [|p2 ps]]; try (eapply small_le; [exact K|split; constructor|cbn; lia]). apply Forall_cons_iff in E. destruct E as [_ E]. apply Forall_cons_iff in E. destruct E as [E _]. now apply strip_quotes_small. }
  match goal with |- exists o, (do v <- ?X; _) = _ => assert (D : exists v, X = Ok v) end.
  { fold val. destruct (r_raw_attrs fl); [eauto|]. destruct V as [[NV BV] LV]. destruct (proj2 (xml_decode_correct _ [] g NV BV LV)) as (v & -> & _). cbn [bind]. eauto. }
  destruct D as (v & ->). cbn [bind]. destruct (insert_attribute _ _ _); eauto.
Qed.
Lemma read_attributes_total g fl d : small d -> exists o, read_attributes g fl d = Ok o.
Proof.
  intros H. unfold read_attributes, strip_extra. destruct (drop_space d); [eauto|]. apply read_pairs_total, explode_small.
  destruct (strip_loop_ok (trim d) (proj1 (small_trim d H)) None RNone) as [A B]. destruct (cstr_prefix (strip_loop None RNone (trim d))) as (b & E).
  eapply small_le; [exact (small_trim d H)| |]; [rewrite E in A; now apply plain_app in A|]. apply (f_equal (@length N)) in E. rewrite app_length in E. lia.
Qed.

Lemma tag_rest_small p ty i : small p -> tag_rest p ty = inr i -> small (t_body i) /\ small (t_after i) /\ small (t_rest i) /\ (length (t_body i) <= length (t_after i))%nat.
Proof.
  intros H. unfold tag_rest. destruct (tag_end p ty) as [e|[[lft used] ty']]; [discriminate|].
  assert (L : forall k q, (length (firstn k q) <= @length N q)%nat) by (intros k q; rewrite firstn_length; lia).
  destruct ty'; try (destruct (take_nospace (firstn lft p)); [discriminate|]); intros X; injection X as <-; cbn [t_body t_after t_rest]; auto using small_firstn, small_skipn.
Qed.
Lemma tag_info_small s i : small s -> tag_info (60 :: s) = inr i -> small (t_body i) /\ small (t_after i) /\ small (t_rest i) /\ (length (t_body i) <= length (t_after i))%nat.
Proof.
  intros H. unfold tag_info. pose proof (small_drop s H) as D. destruct (drop_space s) as [|c r]; [discriminate|]. assert (D' : small r) by (apply (small_app [c] r), D). pose proof (small_drop r D') as D2.
  destruct (c =? 47); [now apply tag_rest_small|]. destruct (c =? 63); [now apply tag_rest_small|]. destruct (c =? 60); [discriminate|].
  destruct (c =? 33); [|now apply tag_rest_small]. destruct (drop_space r) as [|x y] eqn:E; [discriminate|]. rewrite <- E in *. clear E.
  destruct (prefixb [45; 45] (drop_space r)); [apply tag_rest_small; now apply small_skipn|]. destruct (prefixb _ (drop_space r)); apply tag_rest_small; auto; now apply small_skipn.
Qed.
Lemma strdup_on_total z s : plain s -> exists d, strdup_on (0 :: z) s = Ok d.
Proof. intros [P _]. unfold strdup_on. rewrite strlen_ok by auto. cbn [bind]. eauto. Qed.
Lemma tag_process_total g fl z i st : small (t_body i) -> small (t_after i) -> (length (t_body i) <= length (t_after i))%nat -> exists r, tag_process g fl (0 :: z) i st = Ok r.
Proof.
  intros B A L. unfold tag_process. destruct (read_attributes_total g fl (t_body i) B) as (o & EO). destruct (strdup_on_total z (t_after i) (proj1 A)) as (d & ED).
  destruct (t_type i).
  - destruct (is_nil (t_name i)); [eauto|]. rewrite EO. cbn [bind]. destruct o; eauto.
  - destruct (r_ignore_comments fl); eauto.
  - destruct (is_nil (t_name i)); [eauto|]. rewrite EO. cbn [bind]. destruct o; eauto.
  - destruct (s_open st) as [|[[? ?] ?] ?]; [eauto|]. destruct ((if r_casecmp fl then caseeqb else str_eqb) (t_name i) l); eauto.
  - destruct (is_nil (t_name i)); [eauto|]. rewrite EO. cbn [bind]. destruct o; eauto.
  - destruct (r_raw_text fl); [rewrite ED; cbn [bind]; eauto|]. destruct (decode_safe g (t_after i) z (length (t_body i))) as (v & ->); [apply A|auto|apply B|]. cbn [bind]. eauto.
  - destruct (is_nil (t_name i)); [eauto|]. rewrite ED. cbn [bind]. eauto.
Qed.
Lemma take_to_tag_prefix s : exists b, s = take_to_tag s ++ b.
Proof. induction s as [|c s (b & IH)]; [now exists []|]. cbn [take_to_tag]. destruct (c =? 60); [now exists (c :: s)|]. exists b. cbn [app]. now rewrite <- IH. Qed.
Lemma read_turn_total g fl z want c s st : small (c :: s) -> exists t, read_turn g fl (0 :: z) want c s st = Ok t /\ match t with Next s2 _ => small s2 | _ => True end.
Proof.
  intros H. assert (H' : small s) by (apply (small_app [c] s), H). unfold read_turn. destruct (chr_isspace c); [eexists; split; [reflexivity|exact H']|].
  destruct (_ && _); [destruct want; (eexists; split; [reflexivity|exact I])|]. destruct (N.eqb_spec c 60) as [-> |NC].
  - destruct (tag_info (60 :: s)) as [e|i] eqn:E; [eexists; split; [reflexivity|exact I]|]. destruct (tag_info_small s i H' E) as (A & B & C & D). destruct (tag_process_total g fl z i st A B D) as (r & ->). cbn [bind].
    destruct r as [e|st2]; (eexists; split; [reflexivity|exact C || exact I]).
  - unfold read_text. destruct (take_to_tag_prefix (c :: s)) as (b & Eb).
    assert (X : exists x, (if r_raw_text fl then Ok (trim (take_to_tag (c :: s))) else xml_entities_decode (trim (take_to_tag (c :: s)) ++ [0]) (length (trim (take_to_tag (c :: s)))) g) = Ok x).
    { destruct (r_raw_text fl); [eauto|]. assert (ST : small (trim (take_to_tag (c :: s)))). { apply small_trim. rewrite Eb in H. now apply small_app in H. }
      destruct ST as [[NU BY] LN]. destruct (proj1 (xml_decode_correct _ [] g NU BY LN)) as (v & Ev & _). eauto. }
    destruct X as (x & ->). cbn [bind]. eexists. split; [reflexivity|]. now apply small_skipn.
Qed.
Lemma read_loop_total g fl z want f : forall s st, (length s < f)%nat -> small s -> exists r, read_loop g fl (0 :: z) want f s st = Ok r.
Proof.
  induction f as [|f IH]; intros s st L SM; [lia|]. cbn [read_loop]. destruct s as [|c s]; [eauto|]. destruct (read_turn_total g fl z want c s st SM) as (t & E & N2). pose proof E as E'. rewrite E. cbn [bind].
  destruct t as [s2 st2|e|]; [|eauto|eauto]. apply turn_len in E'. cbn [length] in L. apply IH; [lia|exact N2].
Qed.
Lemma xml_read_total g fl want s z : small s -> exists r, xml_read g fl want (s ++ 0 :: z) (length s) = Ok r.
Proof.
  intros SM. unfold xml_read. destruct (length s =? 0)%nat; [eauto|]. rewrite skipn_len, firstn_len by reflexivity.
  destruct (read_loop_total g fl z want (S (length s)) s {| s_open := []; s_doc := [] |}) as (r & ->); [lia|auto|]. cbn [bind]. destruct r as [e|[d rest]]; eauto.
Qed.

(** ** What is read *)

Lemma cstr_nonul s : no_nul (cstr s).
Proof. induction s as [|c s IH]; [constructor|]. cbn [cstr]. destruct (N.eqb_spec c 0); [constructor|]. now constructor. Qed.
Lemma nonul_part a b c : no_nul (a ++ b ++ c) -> no_nul b.
Proof. rewrite !no_nul_app. tauto. Qed.
Lemma drop_space_hd s c r : drop_space s = c :: r -> ~ space c.
Proof. induction s as [|x s IH]; [discriminate|]. cbn [drop_space]. destruct (chr_isspace x) eqn:E; [auto|]. intros X. injection X as -> ->. intros F. apply isspace_iff in F. congruence. Qed.
Lemma trim_is_tight s : tight (trim s).
Proof.
  unfold trim. destruct (drop_space (rev (drop_space s))) as [|c r] eqn:E; [split; intros; [discriminate|destruct r; discriminate]|]. split.
  - intros x y X. destruct (drop_space_suffix (rev (drop_space s))) as (w & Ew). rewrite E in Ew. apply (f_equal (@rev N)) in Ew. rewrite rev_involutive, rev_app_distr, X in Ew. cbn [app] in Ew. eapply drop_space_hd. exact Ew.
  - intros x y X. cbn [rev] in X. apply app_inj_tail in X. destruct X as [_ <-]. eapply drop_space_hd. exact E.
Qed.

Lemma attr_get_fresh a k : attr_get a k = None -> Forall (fun kv => ~ nocase (fst kv) k) a.
Proof.
  unfold attr_get. destruct (find _ a) eqn:F; [discriminate|]. intros _. apply Forall_forall. intros kv I X. apply caseeqb_iff in X. pose proof (find_none _ _ F kv I) as Y. cbn in Y. congruence.
Qed.
Lemma keyed_snoc a k v : keyed a -> k <> [] -> attr_get a k = None -> keyed (a ++ [(k, v)]).
Proof.
  intros [D F] K G. apply attr_get_fresh in G. split; [|apply Forall_app; split; [auto|constructor; [exact K|constructor]]].
  induction D as [|x a H D IH]; [constructor; constructor|]. inversion F; inversion G; subst. cbn [app]. constructor; [|apply IH; auto]. apply Forall_app. split; [exact H|]. constructor; [assumption|constructor].
Qed.
Lemma read_pairs_keyed g fl kvs : forall a b, keyed a -> read_pairs g fl kvs a = Ok (Some b) -> keyed b.
Proof.
  induction kvs as [|kv kvs IH]; intros a b K; cbn [read_pairs]; [intros X; injection X as <-; exact K|]. intros X. apply bind_ok in X. destruct X as (v & _ & X).
  unfold insert_attribute in X. destruct (is_nil _) eqn:NL; [discriminate|]. destruct v as [v|]; [|discriminate]. destruct (attr_get a _) eqn:G; [discriminate|]. apply IH in X; [exact X|]. apply keyed_snoc; auto.
  intros Y. rewrite Y in NL. discriminate.
Qed.
Lemma read_attributes_keyed g fl d b : read_attributes g fl d = Ok (Some b) -> keyed b.
Proof.
  assert (KN : keyed []) by (split; constructor). unfold read_attributes. destruct (strip_extra d); [now apply read_pairs_keyed|]. intros X. injection X as <-. exact KN.
Qed.

Lemma take_nospace_ok s : Forall (fun c => ~ space c) (take_nospace s).
Proof. induction s as [|c s IH]; [constructor|]. cbn [take_nospace]. destruct (chr_isspace c) eqn:E; [constructor|]. constructor; [|exact IH]. intros F. apply isspace_iff in F. congruence. Qed.
Lemma tag_name_ok p ty i : tag_rest p ty = inr i -> t_name i <> [] -> token (t_name i).
Proof.
  unfold tag_rest. destruct (tag_end p ty) as [e|[[lft used] ty']]; [discriminate|]. pose proof (take_nospace_ok (firstn lft p)) as F. intros H NN. split; [exact NN|]. revert H NN.
  assert (K : forall nm, Forall (fun c => ~ space c) nm -> Forall (fun c => ~ space c /\ c <> 0) (cstr nm)).
  { intros nm G. pose proof (cstr_nonul nm) as Z. destruct (cstr_prefix nm) as (b & E). rewrite E in G. apply Forall_app in G. destruct G as [G _]. unfold no_nul in Z. rewrite Forall_forall in *. intros c C. split; auto. }
  destruct (take_nospace (firstn lft p)) as [|c nm]; destruct ty'; try discriminate; intros X; injection X as <-; cbn [t_name]; try congruence; intros _; apply (K (c :: nm) F).
Qed.
Lemma tag_info_name s i : tag_info s = inr i -> t_name i <> [] -> token (t_name i).
Proof.
  unfold tag_info. destruct s as [|c0 s]; [discriminate|]. destruct (N.eq_dec c0 60) as [-> |D].
  - destruct (drop_space s) as [|c r]; [discriminate|]. destruct (c =? 47); [apply tag_name_ok|]. destruct (c =? 63); [apply tag_name_ok|]. destruct (c =? 60); [discriminate|].
    destruct (c =? 33); [|apply tag_name_ok]. destruct (drop_space r); [discriminate|]. destruct (prefixb [45; 45] _); [apply tag_name_ok|]. destruct (prefixb _ _); apply tag_name_ok.
  - intros X. exfalso. revert X. destruct c0 as [|p]; [discriminate|]. repeat (destruct p as [p|p|]; try discriminate); now contradiction D.
Qed.

Definition not_elem (n : node) : Prop := is_elem n = false.
Definition framed (f : frame) : Prop := let '(n, a, ch) := f in token n /\ keyed a /\ Forall Formed ch.
Record Inv (st : state) : Prop := { i_doc : Forall Formed (s_doc st); i_open : Forall framed (s_open st);
  i_root : Forall not_elem (s_doc st) \/ s_open st = [] /\ exists r p, s_doc st = r :: p /\ element r /\ Forall not_elem p }.
Definition clear (st : state) : Prop := Forall not_elem (s_doc st).
Lemma add_child_inv n st : Inv st -> clear st -> Formed n -> Inv (add_child n st).
Proof.
  intros [D O R] C F. unfold add_child. destruct (s_open st) as [|[[nm a] ch] o] eqn:E.
  - constructor; cbn [s_doc s_open]; auto. destruct n as [nm a l| | | |] eqn:En; try (left; constructor; [reflexivity|exact C]). right. split; [reflexivity|]. eexists _, _. split; [reflexivity|]. split; [exact I|exact C].
  - apply Forall_cons_iff in O. destruct O as [(T & K & CH) O']. constructor; cbn [s_doc s_open]; auto. constructor; [|exact O']. cbn. auto.
Qed.
Lemma existsb_not l : existsb is_elem l = false <-> Forall not_elem l.
Proof. induction l as [|x l IH]; cbn [existsb]; [split; constructor|]. rewrite orb_false_iff, Forall_cons_iff, IH. reflexivity. Qed.
Lemma clear_of st : Inv st -> is_nil (s_open st) && existsb is_elem (s_doc st) = false -> clear st.
Proof.
  intros [_ _ R] H. destruct R as [R|(O & r & p & E & EL & _)]; [exact R|]. exfalso. rewrite O, E in H. destruct r; try contradiction. discriminate H.
Qed.

Lemma strdup_nonul tl s d : strdup_on tl s = Ok d -> no_nul d.
Proof. unfold strdup_on. intros H. apply bind_ok in H. destruct H as (n & E & H). injection H as <-. apply strlen_inv in E. destruct E as (p & r & E & L & P). rewrite E, firstn_len by auto. exact L. Qed.
Lemma tag_process_inv g fl tl i st st' : Inv st -> clear st -> (t_name i <> [] -> token (t_name i)) -> tag_process g fl tl i st = Ok (inr st') -> Inv st'.
Proof.
  intros H C T. unfold tag_process. assert (NN : is_nil (t_name i) = false -> token (t_name i)) by (intros X; apply T; intros Y; rewrite Y in X; discriminate).
  destruct (t_type i) eqn:TY.
  - destruct (is_nil (t_name i)); [discriminate|]. specialize (NN eq_refl). intros X. apply bind_ok in X. destruct X as (o & E & X). destruct o as [a|]; [|discriminate]. injection X as <-. apply read_attributes_keyed in E. apply add_child_inv; auto. now constructor.
  - destruct (r_ignore_comments fl); intros X; injection X as <-; auto. apply add_child_inv; auto. constructor; [apply trim_is_tight|]. destruct (trim_part (cstr (t_body i))) as (a & b & E). pose proof (cstr_nonul (t_body i)) as Z. rewrite E in Z. now apply nonul_part in Z.
  - destruct (is_nil (t_name i)); [discriminate|]. specialize (NN eq_refl). intros X. apply bind_ok in X. destruct X as (o & E & X). destruct o as [a|]; [|discriminate]. injection X as <-. apply read_attributes_keyed in E.
    destruct H as [D O R]. constructor; cbn [s_doc s_open]; auto. constructor; [|exact O]. cbn. auto.
  - destruct (s_open st) as [|[[nm a] ch] o] eqn:EO; [discriminate|]. destruct ((if r_casecmp fl then caseeqb else str_eqb) (t_name i) nm); [|discriminate]. intros X. injection X as <-.
    destruct H as [D O R]. rewrite EO in O. apply Forall_cons_iff in O. destruct O as [(TK & K & CH) O']. apply add_child_inv; [constructor; cbn [s_doc s_open]; auto|exact C|]. constructor; auto. now apply Forall_rev.
  - destruct (is_nil (t_name i)); [discriminate|]. specialize (NN eq_refl). intros X. apply bind_ok in X. destruct X as (o & E & X). destruct o as [a|]; [|discriminate]. injection X as <-. apply read_attributes_keyed in E. apply add_child_inv; auto. constructor; auto.
  - intros X. apply bind_ok in X. destruct X as (t & E & X). injection X as <-. apply add_child_inv; auto. constructor. destruct (r_raw_text fl); [now apply strdup_nonul in E|]. apply bind_ok in E. destruct E as (x & _ & E). injection E as <-. apply cstr_nonul.
  - destruct (is_nil (t_name i)); [discriminate|]. specialize (NN eq_refl). intros X. apply bind_ok in X. destruct X as (d & _ & X). injection X as <-. apply add_child_inv; auto. now constructor.
Qed.
Lemma read_turn_inv g fl tl want c s st s2 st2 : Inv st -> read_turn g fl tl want c s st = Ok (Next s2 st2) -> Inv st2.
Proof.
  intros H. unfold read_turn. destruct (chr_isspace c); [intros X; injection X as <- <-; exact H|]. destruct (is_nil (s_open st) && existsb is_elem (s_doc st)) eqn:L; [destruct want; discriminate|]. pose proof (clear_of st H L) as C.
  destruct (c =? 60).
  - destruct (tag_info (c :: s)) as [e|i] eqn:E; [discriminate|]. intros X. apply bind_ok in X. destruct X as (r & P & X). destruct r as [e|st']; [discriminate|]. injection X as <- <-. eapply tag_process_inv; eauto. intros NN. eapply tag_info_name; eauto.
  - intros X. apply bind_ok in X. destruct X as ([s3 st3] & P & X). injection X as <- <-. unfold read_text in P. apply bind_ok in P. destruct P as (x & _ & P). injection P as <- <-. apply add_child_inv; auto. constructor. apply cstr_nonul.
Qed.
Lemma read_loop_inv g fl tl want f : forall s st d rest, Inv st -> read_loop g fl tl want f s st = Ok (inr (d, rest)) ->
  (length rest <= length s)%nat /\ (want = false -> rest = []) /\ Forall Formed d /\ exists l r, d = l ++ [r] /\ element r /\ Forall not_elem l.
Proof.
  assert (EN : forall s st d rest, Inv st -> read_end s st = inr (d, rest) -> rest = s /\ Forall Formed d /\ exists l r, d = l ++ [r] /\ element r /\ Forall not_elem l).
  { intros s st d rest [D O R] X. unfold read_end in X. destruct (s_open st); [|discriminate]. destruct (existsb is_elem (s_doc st)) eqn:E; [|discriminate]. injection X as <- <-. split; [reflexivity|]. split; [now apply Forall_rev|].
    destruct R as [R|(_ & r & p & -> & EL & NE)]; [apply existsb_not in R; congruence|]. exists (rev p), r. split; [reflexivity|]. split; [exact EL|now apply Forall_rev]. }
  induction f as [|f IH]; intros s st d rest H; cbn [read_loop]; [discriminate|]. destruct s as [|c s].
  - intros X. injection X as X. destruct (EN _ _ _ _ H X) as (-> & A & B). auto.
  - intros X. apply bind_ok in X. destruct X as (t & T & X). destruct t as [s2 st2|e|]; [|discriminate|].
    + pose proof (turn_len _ _ _ _ _ _ _ _ _ T) as L. apply read_turn_inv in T; [|exact H]. destruct (IH _ _ _ _ T X) as (A & B). split; [cbn [length]; lia|exact B].
    + assert (W : want = true). { unfold read_turn in T. destruct (chr_isspace c); [discriminate|]. destruct (_ && _).
        - destruct want; [reflexivity|discriminate].
        - destruct (c =? 60); [destruct (tag_info (c :: s)); [discriminate|]|]; apply bind_ok in T; [destruct T as ([e|st'] & _ & T); discriminate|destruct T as ([s3 st3] & _ & T); discriminate]. }
      injection X as X. destruct (EN _ _ _ _ H X) as (-> & A & B). split; [auto|]. split; [congruence|auto].
Qed.
Lemma xml_read_formed_ok g fl want m n d k : xml_read g fl want m n = Ok (inr (d, k)) ->
  (k <= n)%nat /\ (want = false -> k = n) /\ Forall Formed d /\ exists l r, d = l ++ [r] /\ element r /\ Forall not_elem l.
Proof.
  unfold xml_read. destruct (n =? 0)%nat; [discriminate|]. intros X. apply bind_ok in X. destruct X as (r & E & X). destruct r as [e|[d' rest]]; [discriminate|]. injection X as <- <-.
  apply read_loop_inv in E; [|constructor; cbn; auto; left; constructor]. destruct E as (A & B & C & D). split; [lia|]. split; [intros W; rewrite (B W); cbn [length]; lia|auto].
Qed.

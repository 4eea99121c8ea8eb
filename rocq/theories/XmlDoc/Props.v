(** XML documents: reading, writing, and reading back what has been written. *)
From Verif Require Import Base.Lib Base.Mem Hex.Model StrEq.Spec XmlEnt.Model XmlEnt.Spec XmlEnt.Proofs XmlDoc.Model XmlDoc.Spec XmlDoc.Proofs XmlDoc.ProofsW XmlDoc.ProofsS.
From Coq Require Import Ascii String.
Local Open Scope string_scope.
Local Open Scope list_scope.
Local Open Scope N_scope.

(** Byte strings for the examples below. *)
Fixpoint bytes (s : string) : list N := match s with EmptyString => [] | String a s' => N_of_ascii a :: bytes s' end.
Definition rplain : rflags := {| r_ignore_comments := false; r_casecmp := false; r_raw_text := false; r_raw_attrs := false |}.
Definition wplain : wflags := {| w_ignore_comments := false; w_lower_tags := false; w_lower_attrs := false; w_raw_text := false; w_raw_attrs := false; w_pretty := PNone; w_close_space := false |}.
Definition wpretty : wflags := {| w_ignore_comments := false; w_lower_tags := false; w_lower_attrs := false; w_raw_text := false; w_raw_attrs := false; w_pretty := PSpace; w_close_space := true |}.
Definition read (s : string) : res (xerr + (list node * nat)) := xml_read 7 rplain false (bytes s ++ [0])%list (List.length (bytes s)).

(** C78. M_xml_read on the text of a document gives its tree, whatever the white space, the
    quotes and the way references are written; with processed_len anything may follow
    the document and is not consumed, without it that is an error. *)
Theorem xml_read_correct g fl want d s r tl : r_ignore_comments fl = false -> r_raw_text fl = false -> r_raw_attrs fl = false ->
  Document d s -> no_nul s -> is_bytes s -> N.of_nat (List.length s) < 2 ^ 31 -> (r = [] \/ exists c r', r = (c :: r')%list /\ ~ space c) ->
  xml_read g fl want ((s ++ r) ++ tl) (List.length (s ++ r)) = Ok (if want || is_nil r then inr (d, List.length s) else inl EExpectedEnd).
Proof. intros FC FT FA D NU BY L R. apply xml_read_ok; auto. now split. Qed.

(** An element closed by another name is refused. *)
Theorem xml_read_mismatch_rejected g fl want n n' a s l c w r tl : r_ignore_comments fl = false -> r_raw_text fl = false -> r_raw_attrs fl = false ->
  name n -> name n' -> Attrs a s -> distinct a -> Content false l c -> spaces w -> (if r_casecmp fl then ~ nocase n' n else n' <> n) ->
  let t := ([60] ++ n ++ s ++ [62] ++ c ++ [60; 47] ++ n' ++ w ++ [62])%list in
  no_nul t -> is_bytes t -> N.of_nat (List.length t) < 2 ^ 31 ->
  xml_read g fl want ((t ++ r) ++ tl) (List.length (t ++ r)) = Ok (inl EUnexpectedClose).
Proof.
  intros FC FT FA NM NM' A D C W NE t NU BY LT. unfold xml_read. rewrite (proj2 (Nat.eqb_neq _ _)) by (unfold t; cbn [app List.length]; lia).
  rewrite skipn_len, firstn_len by reflexivity.
  assert (SM : small t) by (split; [now split|exact LT]). unfold t in SM. repeat match goal with H : small (_ ++ _) |- _ => apply small_app in H; destruct H end.
  set (st0 := {| s_open := []; s_doc := [] |}). set (st1 := add_all l {| s_open := [(n, a, [])]; s_doc := [] |}).
  assert (St : steps g fl tl want (t ++ r) st0 (60 :: 47 :: n' ++ w ++ 62 :: r) st1).
  { unfold t. rewrite <- !app_assoc. cbn [app]. destruct (info_named n (s ++ 62 :: c ++ 60 :: 47 :: n' ++ w ++ 62 :: r) NM) as (I & _). rewrite (tag_start n a s) in I by auto. eapply (turn_tag g fl tl want _ st0) in I; [|reflexivity|].
    2: { unfold tag_process. cbn [t_type t_name t_body]. rewrite name_nil by auto. rewrite (read_attributes_ok g fl a s) by (auto; match goal with H : small s |- _ => apply H end). reflexivity. }
    cbn [t_rest] in I. eapply steps_trans; [exact I|]. eapply steps_trans; [apply steps_space|]. apply (read_markup g fl tl want FC FT FA) with (b := false); auto. discriminate. }
  destruct (steps_loop _ _ _ _ _ _ _ _ St (S (List.length (t ++ r)))) as (f' & L' & ->); [lia|]. destruct f' as [|f']; [lia|]. cbn [read_loop].
  unfold st1. rewrite add_all_open. unfold read_turn. change (chr_isspace 60) with false. cbn [s_open is_nil andb]. change (60 =? 60) with true. cbn iota.
  destruct (info_named n' (w ++ 62 :: r) NM') as (_ & I & _). rewrite I, tag_close by auto. unfold tag_process. cbn [t_type t_name s_open].
  assert (E : (if r_casecmp fl then caseeqb else str_eqb) n' n = false).
  { destruct (r_casecmp fl); [destruct (caseeqb n' n) eqn:X; [apply caseeqb_iff in X; contradiction|reflexivity]|destruct (str_eqb n' n) eqn:X; [apply str_eqb_iff in X; contradiction|reflexivity]]. }
  rewrite E. reflexivity.
Qed.

(** C79. M_xml_write produces a text of the document, with any pretty printing. *)
Theorem xml_write_correct fl d : w_ignore_comments fl = false -> w_lower_tags fl = false -> w_lower_attrs fl = false -> w_raw_text fl = false -> w_raw_attrs fl = false ->
  GoodDoc d -> exists t, xml_write fl d = Ok t /\ Document d t /\ no_nul t /\ is_bytes t.
Proof. intros F1 F2 F3 F4 F5 G. destruct (xml_write_ok fl F1 F2 F3 F4 F5 d G) as (t & E & D & P & B). eauto. Qed.

(** C79. What has been written is read back as the same tree. *)
Theorem xml_doc_roundtrip fw fr g want d t tl : w_ignore_comments fw = false -> w_lower_tags fw = false -> w_lower_attrs fw = false -> w_raw_text fw = false -> w_raw_attrs fw = false ->
  r_ignore_comments fr = false -> r_raw_text fr = false -> r_raw_attrs fr = false -> GoodDoc d -> xml_write fw d = Ok t -> N.of_nat (List.length t) < 2 ^ 31 ->
  xml_read g fr want (t ++ tl) (List.length t) = Ok (inr (d, List.length t)).
Proof.
  intros F1 F2 F3 F4 F5 G1 G2 G3 GD W L. destruct (xml_write_ok fw F1 F2 F3 F4 F5 d GD) as (t' & E & D & P). assert (t' = t) by congruence. subst t'.
  pose proof (xml_read_ok g fr want d t [] tl G1 G2 G3 D P L (or_introl eq_refl)) as X. rewrite app_nil_r in X. rewrite X. now rewrite orb_true_r.
Qed.
Print Assumptions xml_read_correct.
Print Assumptions xml_read_mismatch_rejected.
Print Assumptions xml_write_correct.
Print Assumptions xml_doc_roundtrip.

(** A tree with everything in it. *)
Definition sample : list node :=
  [Pi s_xml [(s_version, bytes "1.0"); (bytes "x", bytes "'y'")] []; Comment (bytes "a - b");
   Elem (bytes "r") [(bytes "k", bytes "a<b"); (bytes "m", [34%N; 38%N])] [Elem (bytes "e") [] []; Text (bytes "x < y & z"); Comment []; Elem (bytes "f") [] [Text (bytes "t")]]].
Example sample_written : xml_write wplain sample = Ok (bytes "<?xml version=""1.0"" x=""'y'""?><!-- a - b --><r k=""a&lt;b"" m=""&quot;&amp;""><e/>x &lt; y &amp; z<!-- --><f>t</f></r>").
Proof. vm_compute. reflexivity. Qed.
Lemma plain_bytes s : forallb (fun c => (0 <? c) && (c <? 256)) s = true -> plain s.
Proof. intros H. rewrite forallb_forall in H. split; apply Forall_forall; intros c I; specialize (H c I); unfold is_byte; lia. Qed.
Lemma name_bytes n : negb (is_nil n) && forallb (fun c => negb (chr_isspace c) && negb (existsb (N.eqb c) [0; 34; 39; 60; 62; 47; 63; 33; 61])) n = true -> name n.
Proof.
  intros H. apply andb_true_iff in H. destruct H as [H1 H2]. split; [destruct n; discriminate|]. rewrite forallb_forall in H2. apply Forall_forall. intros c I. specialize (H2 c I). apply andb_true_iff in H2. destruct H2 as [A B]. split.
  - intros S0. apply isspace_iff in S0. rewrite S0 in A. discriminate.
  - intros F. assert (X : existsb (N.eqb c) [0; 34; 39; 60; 62; 47; 63; 33; 61] = true) by (apply existsb_exists; exists c; split; [exact F|apply N.eqb_refl]). rewrite X in B. discriminate.
Qed.
Lemma tight_bytes s : negb (chr_isspace (hd 0 s)) && negb (chr_isspace (last s 0)) = true -> tight s.
Proof.
  intros H. apply andb_true_iff in H. destruct H as [A B]. split.
  - intros c r ->. cbn [hd] in A. intros S0. apply isspace_iff in S0. rewrite S0 in A. discriminate.
  - intros r c ->. rewrite last_last in B. intros S0. apply isspace_iff in S0. rewrite S0 in B. discriminate.
Qed.
Example sample_good : GoodDoc sample.
Proof.
  unfold sample. eexists [_; _], _. split; [reflexivity|]. split; [repeat constructor|]. split; [exact I|].
  assert (NC : forall k v, caseeqb k v = false -> ~ nocase k v) by (intros k v E X; apply caseeqb_iff in X; congruence).
  constructor; [|constructor; [|constructor; [|constructor]]].
  - apply G_pi; [apply name_bytes; reflexivity|apply plain_bytes; reflexivity| |].
    + split; [constructor; [constructor; [apply NC; vm_compute; reflexivity|constructor]|constructor; constructor]|]. constructor; [|constructor; [|constructor]]; cbn [fst snd]; (split; [apply name_bytes; reflexivity|split; apply plain_bytes; reflexivity]).
    + intros _. exists [(s_version, bytes "1.0")], [(bytes "x", bytes "'y'")]. split; [reflexivity|]. split; [apply Sub_take, Sub_skip, Sub_skip, Sub_nil|]. constructor; [|constructor]. cbn [fst]. repeat split; apply NC; vm_compute; reflexivity.
  - apply G_comment. split; [apply tight_bytes; reflexivity|]. split; [apply plain_bytes; reflexivity|]. intros x y E. cbn in E. do 5 (destruct x as [|? x]; [discriminate E|]; cbn [app] in E; injection E as _ E). destruct x; discriminate E.
  - apply G_elem; [apply name_bytes; reflexivity|apply plain_bytes; reflexivity| | |exact I].
    + split; [constructor; [constructor; [apply NC; vm_compute; reflexivity|constructor]|constructor; constructor]|]. constructor; [|constructor; [|constructor]]; cbn [fst snd]; (split; [apply name_bytes; reflexivity|split; apply plain_bytes; reflexivity]).
    + constructor; [|constructor; [|constructor; [|constructor; [|constructor]]]].
      * apply G_elem; [apply name_bytes; reflexivity|apply plain_bytes; reflexivity|split; constructor|constructor|exact I].
      * apply G_text. split; [discriminate|]. split; [apply tight_bytes; reflexivity|apply plain_bytes; reflexivity].
      * apply G_comment. split; [apply tight_bytes; reflexivity|]. split; [apply plain_bytes; reflexivity|]. intros x y E. destruct x; discriminate E.
      * apply G_elem; [apply name_bytes; reflexivity|apply plain_bytes; reflexivity|split; constructor| |exact I]. constructor; [|constructor]. apply G_text. split; [discriminate|]. split; [apply tight_bytes; reflexivity|apply plain_bytes; reflexivity].
Qed.
Example sample_pretty : exists t, xml_write wpretty sample = Ok t /\ xml_read 7 rplain false (t ++ [0]) (List.length t) = Ok (inr (sample, List.length t)) /\ t <> bytes "".
Proof. eexists. split; [vm_compute; reflexivity|]. split; [vm_compute; reflexivity|discriminate]. Qed.
Example sample_read : read " <a  x = 'p' y=""&LT;q'""  > t &#xa;u <b / ></a >" = Ok (inr ([Elem (bytes "a") [(bytes "x", bytes "p"); (bytes "y", bytes "<q'")] [Text (bytes "t " ++ [10] ++ bytes "u"); Elem (bytes "b") [] []]], 47%nat)).
Proof. vm_compute. reflexivity. Qed.

(** C80. Whatever the data, M_xml_read has no undefined behaviour, if the data has no NUL and is
    followed by one. *)
Theorem xml_read_safe g fl want s z : no_nul s -> is_bytes s -> N.of_nat (List.length s) < 2 ^ 31 -> exists r, xml_read g fl want (s ++ 0 :: z) (List.length s) = Ok r.
Proof. intros NU BY L. apply xml_read_total. split; [now split|exact L]. Qed.
Print Assumptions xml_read_safe.
(** Without the terminator a declaration, or a reference at the end of CDATA, is read
    past the end of the data. *)
Theorem xml_read_unterminated_refuted :
  xml_read 7 rplain false (bytes "<!d><a/>") 8 = UB /\
  xml_read 7 {| r_ignore_comments := false; r_casecmp := false; r_raw_text := true; r_raw_attrs := false |} false (bytes "<a><![CDATA[x]]></a>") 20 = UB.
Proof. split; vm_compute; reflexivity. Qed.

(** C81. Whatever has been read has one root element, after which there is nothing; names are
    not empty and have no white space, no attribute is there twice (in any case), nothing
    beyond the data has been consumed. *)
Theorem xml_read_wellformed g fl want m n d k : xml_read g fl want m n = Ok (inr (d, k)) ->
  (k <= n)%nat /\ (want = false -> k = n) /\ Forall Formed d /\ exists l r, d = (l ++ [r])%list /\ element r /\ Forall (fun x => ~ element x) l.
Proof.
  intros H. apply xml_read_formed_ok in H. destruct H as (A & B & C & l & r & E & ER & NE). split; [exact A|]. split; [exact B|]. split; [exact C|]. exists l, r. split; [exact E|]. split; [exact ER|].
  eapply Forall_impl; [|exact NE]. intros x X Y. destruct x; try contradiction. discriminate X.
Qed.
Print Assumptions xml_read_wellformed.

(** ** Where the reader is not XML *)

(** The data of a document type declaration is the whole rest of the text. *)
Theorem xml_doctype_refuted : read "<!DOCTYPE x><a/>" = Ok (inr ([Decl (bytes "DOCTYPE") (bytes " x><a/>"); Elem (bytes "a") [] []], 16%nat)).
Proof. vm_compute. reflexivity. Qed.
(** References in CDATA are replaced although XML has none there, and undecoded CDATA runs
    to the end of the text. *)
Theorem xml_cdata_refuted :
  read "<a><![CDATA[&lt;]]></a>" = Ok (inr ([Elem (bytes "a") [] [Text (bytes "<")]], 23%nat)) /\
  xml_read 7 {| r_ignore_comments := false; r_casecmp := false; r_raw_text := true; r_raw_attrs := false |} false (bytes "<a><![CDATA[x]]></a>" ++ [0]) 20
    = Ok (inr ([Elem (bytes "a") [] [Text (bytes "x]]></a>")]], 20%nat)).
Proof. split; vm_compute; reflexivity. Qed.
(** XML allows comments after the root element and no text before it. *)
Theorem xml_outside_root_refuted :
  read "<a/><!-- c -->" = Ok (inl EExpectedEnd) /\ read "x<a/>" = Ok (inr ([Text (bytes "x"); Elem (bytes "a") [] []], 5%nat)).
Proof. split; vm_compute; reflexivity. Qed.
(** An attribute without a value, two values, or a value without quotes are accepted; without decoding, an
    attribute without a value is reported as a duplicate. *)
Theorem xml_attribute_forms_refuted :
  read "<a b/>" = Ok (inr ([Elem (bytes "a") [(bytes "b", [])] []], 6%nat)) /\
  read "<a b=c=d e=f/>" = Ok (inr ([Elem (bytes "a") [(bytes "b", bytes "c"); (bytes "e", bytes "f")] []], 14%nat)) /\
  xml_read 7 {| r_ignore_comments := false; r_casecmp := false; r_raw_text := false; r_raw_attrs := true |} false (bytes "<a b/>" ++ [0]) 6 = Ok (inl EAttrExists).
Proof. repeat split; vm_compute; reflexivity. Qed.
(** Text that begins or ends with white space, texts side by side, data of a processing
    instruction and a comment with its end mark in it are not read back. *)
Theorem xml_roundtrip_refuted :
  (exists t, xml_write wplain [Elem (bytes "a") [] [Text (bytes " x ")]] = Ok t /\ xml_read 7 rplain false (t ++ [0]) (List.length t) = Ok (inr ([Elem (bytes "a") [] [Text (bytes "x")]], List.length t))) /\
  (exists t, xml_write wplain [Elem (bytes "a") [] [Text (bytes "x"); Text (bytes "y")]] = Ok t /\ xml_read 7 rplain false (t ++ [0]) (List.length t) = Ok (inr ([Elem (bytes "a") [] [Text (bytes "xy")]], List.length t))) /\
  (exists t, xml_write wplain [Pi (bytes "p") [] (bytes "q"); Elem (bytes "a") [] []] = Ok t /\ xml_read 7 rplain false (t ++ [0]) (List.length t) = Ok (inr ([Pi (bytes "p") [(bytes "q", [])] []; Elem (bytes "a") [] []], List.length t))) /\
  (exists t, xml_write wplain [Elem (bytes "a") [] [Comment (bytes "-->")]] = Ok t /\ xml_read 7 rplain false (t ++ [0]) (List.length t) = Ok (inr ([Elem (bytes "a") [] [Comment []; Text (bytes "-->")]], List.length t))).
Proof. repeat split; eexists; split; vm_compute; reflexivity. Qed.

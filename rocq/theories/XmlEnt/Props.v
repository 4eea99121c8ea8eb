(** * Entities of XML (m_xml_entities.c) *)
From Verif Require Import Base.Lib Base.Mem StrEq.Model StrEq.Spec StrEq.Proofs XmlEnt.Model XmlEnt.Spec XmlEnt.Proofs.
Local Open Scope N_scope.

(** ** C67 *)

(** Encoding, of any bytes, replaces exactly the five special characters (for attributes
    the three) by their references and reads nothing behind the string. *)
Theorem xml_encode_correct s z :
  (exists t, xml_entities_encode (s ++ z) (length s) = Ok t /\ Escaped in_text s t) /\
  (exists t, xml_attribute_encode (s ++ z) (length s) = Ok t /\ Escaped in_attribute s t).
Proof.
  split; apply encode_int_ok; intros c; [intros e H|intros H|intros e H|intros H].
  1,2: pose proof (text_table c) as T; now rewrite H in T.
  all: pose proof (attribute_table c) as T; now rewrite H in T.
Qed.
Example xml_encode_run : xml_entities_encode [97; 60; 38; 98; 99] 4 = Ok [97; 38; 108; 116; 59; 38; 97; 109; 112; 59; 98].
Proof. vm_compute. reflexivity. Qed.
Print Assumptions xml_encode_correct.

(** No markup survives encoding: no angle bracket or quote is left, and every ampersand
    starts a reference. *)
Theorem xml_encode_clean s z t : xml_entities_encode (s ++ z) (length s) = Ok t ->
  ~ In 60 t /\ ~ In 62 t /\ ~ In 34 t /\ ~ In 39 t /\ forall a b, t = a ++ 38 :: b -> exists c e b', reference c e /\ 38 :: b = e ++ b'.
Proof.
  intros H. destruct (proj1 (xml_encode_correct s z)) as (t' & E & Es). assert (t' = t) by congruence. subst t'. clear E H.
  assert (N1 : forall c e, reference c e -> exists l, e = 38 :: l /\ ~ In 60 e /\ ~ In 62 e /\ ~ In 34 e /\ ~ In 39 e /\ ~ In 38 l).
  { intros c e R. unfold reference in R. repeat (destruct R as [R|R] || (destruct R as [-> ->])); eexists; (split; [reflexivity|]); cbn; repeat split; intros X; repeat (destruct X as [X|X]; [discriminate X|]); exact X. }
  assert (N2 : ~ In 60 t /\ ~ In 62 t /\ ~ In 34 t /\ ~ In 39 t).
  { induction Es as [|c e s t Sp R Es IH|c s t Sp Es IH]; [cbn; tauto| |].
    - destruct (N1 c e R) as (l & _ & H). rewrite !in_app_iff. tauto.
    - cbn [In]. unfold in_text in Sp. repeat split; intros [X|X]; try (apply IH in X; exact X); subst; apply Sp; lia. }
  destruct N2 as (A1 & A2 & A3 & A4). repeat (split; auto). induction Es as [|c e s t Sp R Es IH|c s t Sp Es IH]; intros a b E.
  - destruct a; discriminate E.
  - destruct (N1 c e R) as (l & -> & _ & _ & _ & _ & N38). destruct a as [|x a]; cbn [app] in E.
    + exists c, (38 :: l), t. split; [exact R|]. cbn [app]. congruence.
    + injection E as <- E. assert (X : exists a', t = a' ++ 38 :: b).
      { clear - E N38. revert a E. induction l as [|y l IH]; intros a E; [now exists a|]. cbn [app] in E. destruct a as [|x a]; cbn [app] in E.
        - injection E as -> _. exfalso. apply N38. now left.
        - injection E as _ E. apply (IH (fun H => N38 (or_intror H)) a E). }
      destruct X as (a' & X). apply (IH) with (a := a') (b := b); auto; intros Y; [apply A1|apply A2|apply A3|apply A4]; apply in_or_app; now right.
  - destruct a as [|x a]; cbn [app] in E.
    + injection E as -> _. exfalso. apply Sp. unfold in_text. lia.
    + injection E as _ E. apply (IH) with (a := a) (b := b); auto; intros Y; [apply A1|apply A2|apply A3|apply A4]; now right.
Qed.
Print Assumptions xml_encode_clean.

(** Decoding a string of less than 2 GB never leaves it, needs no more room than it, and
    gives what the text stands for with the references the library knows. *)
Theorem xml_decode_correct s z g : no_nul s -> is_bytes s -> N.of_nat (length s) < 2 ^ 31 ->
  (exists v, xml_entities_decode (s ++ 0 :: z) (length s) g = Ok v /\ Stands text_known s v /\ (length v <= length s)%nat) /\
  (exists v, xml_attribute_decode (s ++ 0 :: z) (length s) g = Ok v /\ Stands attribute_known s v /\ (length v <= length s)%nat).
Proof.
  intros Ns Bs Hi. assert (Hm : N.of_nat (length s) <= int_max) by (unfold int_max; change (2 ^ 31) with 2147483648 in Hi; lia).
  split.
  - destruct (decode_int_ok decode_entities decode_wf s z g Ns Bs Hm) as (v & E & St & L). exists v. split; auto. split; auto. apply (Stands_iff (known decode_entities)); auto. apply known_text.
  - destruct (decode_int_ok attribute_entities attribute_wf s z g Ns Bs Hm) as (v & E & St & L). exists v. split; auto. split; auto. apply (Stands_iff (known attribute_entities)); auto. apply known_attribute.
Qed.
(** &lt;&LT;&amp;lt;& gives <<&lt;& *)
Example xml_decode_run : xml_entities_decode [38; 108; 116; 59; 38; 76; 84; 59; 38; 97; 109; 112; 59; 108; 116; 59; 38; 0] 17 7 = Ok [60; 60; 38; 108; 116; 59; 38].
Proof. vm_compute. reflexivity. Qed.
Print Assumptions xml_decode_correct.

(** Decoding undoes encoding, for text and for attributes; also the text decoder undoes
    the attribute encoder. *)
Theorem xml_roundtrip s z : no_nul s -> is_bytes s -> N.of_nat (length s) < 2 ^ 28 ->
  (exists t, xml_entities_encode (s ++ z) (length s) = Ok t /\ forall z' g, xml_entities_decode (t ++ 0 :: z') (length t) g = Ok s) /\
  (exists t, xml_attribute_encode (s ++ z) (length s) = Ok t /\ forall z' g,
     xml_attribute_decode (t ++ 0 :: z') (length t) g = Ok s /\ xml_entities_decode (t ++ 0 :: z') (length t) g = Ok s).
Proof.
  intros Ns Bs Hi.
  assert (Len : forall sp t, Escaped sp s t -> N.of_nat (length t) < 2 ^ 31).
  { intros sp t E. assert (X : (length t <= 6 * length s)%nat).
    { clear - E. induction E as [|c e s t Sp R E IH|c s t Sp E IH]; cbn [length] in *; try lia. rewrite app_length.
      assert (length e <= 6)%nat by (unfold reference in R; repeat (destruct R as [R|R] || (destruct R as [-> ->])); cbn; lia). lia. }
    change (2 ^ 28) with 268435456 in Hi. change (2 ^ 31) with 2147483648. lia. }
  destruct (xml_encode_correct s z) as [(t1 & E1 & Es1) (t2 & E2 & Es2)]. split.
  - exists t1. split; auto. intros z' g. destruct (escaped_bytes _ _ _ Ns Bs Es1) as [Nt Bt].
    destruct (proj1 (xml_decode_correct t1 z' g Nt Bt (Len _ _ Es1))) as (v & Ed & St & _). rewrite Ed. f_equal.
    apply (escape_stands in_text text_known s t1 v); auto; [intros c _ e R; now left|unfold in_text; lia].
  - exists t2. split; auto. intros z' g. destruct (escaped_bytes _ _ _ Ns Bs Es2) as [Nt Bt].
    destruct (xml_decode_correct t2 z' g Nt Bt (Len _ _ Es2)) as [(v & Ed & St & _) (v' & Ed' & St' & _)]. rewrite Ed, Ed'. split; f_equal.
    + apply (escape_stands in_attribute attribute_known s t2 v'); auto; [intros c Sp e R; now split|intros c e [_ R]; now left|unfold in_attribute; lia].
    + apply (escape_stands in_attribute text_known s t2 v); auto; [intros c _ e R; now left|unfold in_attribute; lia].
Qed.
Print Assumptions xml_roundtrip.

(** *** What goes wrong *)
(** The name of an entity may leave the given length: of the one character [&] of the
    text [&lt;] the decoder makes [<], and without a terminator it reads what is behind. *)
Theorem xml_decode_length_refuted : xml_entities_decode [38; 108; 116; 59; 0] 1 0 = Ok [60] /\ xml_entities_decode [38] 1 0 = UB.
Proof. split; vm_compute; reflexivity. Qed.
(** XML has no &LT; and writes a line feed also as &#10; *)
Theorem xml_decode_names_refuted : xml_entities_decode [38; 76; 84; 59; 0] 4 0 = Ok [60] /\ xml_entities_decode [38; 35; 49; 48; 59; 0] 5 0 = Ok [38; 35; 49; 48; 59].
Proof. split; vm_compute; reflexivity. Qed.
(** Attribute values: the apostrophe's reference, which XML allows in them, is not decoded. *)
Theorem xml_attribute_apos_refuted : xml_attribute_decode [38; 97; 112; 111; 115; 59; 0] 6 0 = Ok [38; 97; 112; 111; 115; 59].
Proof. vm_compute. reflexivity. Qed.

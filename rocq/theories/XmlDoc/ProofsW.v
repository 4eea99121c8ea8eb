(** The writer produces a text of the document. *)
From Verif Require Import Base.Lib Base.Mem Hex.Model StrEq.Spec StrEq.Proofs XmlEnt.Model XmlEnt.Spec XmlEnt.Proofs XmlEnt.Props XmlDoc.Model XmlDoc.Spec XmlDoc.Proofs.
Local Open Scope N_scope.

Lemma node_ind2 (P : node -> Prop) : (forall n a l, Forall P l -> P (Elem n a l)) -> (forall n a d, P (Pi n a d)) -> (forall n d, P (Decl n d)) -> (forall t, P (Text t)) -> (forall t, P (Comment t)) -> forall n, P n.
Proof.
  intros HE HP HD HT HC. fix IH 1. intros [n a l|n a d|n d|t|t]; [apply HE|apply HP|apply HD|apply HT|apply HC].
  induction l as [|x l IHl]; constructor; [apply IH|exact IHl].
Qed.

Lemma escaped_stands (sp : N -> Prop) (k : N -> list N -> Prop) s t : (forall c, sp c -> forall e, reference c e -> k c e) -> (forall c e, k c e -> text_known c e) -> sp 38 -> Escaped sp s t -> Stands k t s.
Proof.
  intros K1 K2 S38. induction 1 as [|c e s t Sp R E IH|c s t Sp E IH]; [constructor| |].
  - apply (S_ref k c e e); eauto. apply nocase_refl.
  - apply S_chr; [|exact IH]. intros c' e e' r K Nc X. destruct (known_cases _ _ (K2 _ _ K)) as (l & ->). apply nocase_hd in Nc. destruct Nc as (l' & ->). cbn [app] in X. injection X as -> _. contradiction.
Qed.
Lemma reference_chars c e : reference c e -> exists l, e = 38 :: l ++ [59] /\ ~ In 60 e /\ ~ In 34 e.
Proof.
  unfold reference. intros R. repeat (destruct R as [R|R] || (destruct R as [-> ->])).
  - exists [113; 117; 111; 116]. cbn. repeat split; lia.
  - exists [97; 112; 111; 115]. cbn. repeat split; lia.
  - exists [97; 109; 112]. cbn. repeat split; lia.
  - exists [103; 116]. cbn. repeat split; lia.
  - exists [108; 116]. cbn. repeat split; lia.
Qed.
Lemma escaped_no (sp : N -> Prop) s t k : sp k -> k = 60 \/ k = 34 -> Escaped sp s t -> ~ In k t.
Proof.
  intros S1 S2. induction 1 as [|c e s t Sp R E IH|c s t Sp E IH]; [auto| |].
  - destruct (reference_chars c e R) as (l & _ & A & B). rewrite in_app_iff. destruct S2 as [-> | ->]; tauto.
  - intros [-> |X]; auto.
Qed.
Lemma escaped_ends (sp : N -> Prop) s t : Escaped sp s t -> tight s -> s <> [] -> t <> [] /\ tight t.
Proof.
  intros E [A B] NE. split; [|split].
  - destruct E as [|c e s t Sp R E|c s t Sp E]; [congruence| |discriminate]. destruct (reference_chars c e R) as (l & -> & _). discriminate.
  - intros x y X. destruct E as [|c e s t Sp R E|c s t Sp E]; [congruence| |].
    + destruct (reference_chars c e R) as (l & -> & _). cbn [app] in X. injection X as <- _. unfold space. lia.
    + injection X as <- _. eapply A. reflexivity.
  - clear A. induction E as [|c e s t Sp R E IH|c s t Sp E IH]; [congruence| |].
    + intros r x X. destruct s as [|y s].
      * inversion E; subst. destruct (reference_chars c e R) as (l & -> & _). rewrite app_nil_r in X. change (38 :: l ++ [59]) with ((38 :: l) ++ [59]) in X. apply app_inj_tail in X. destruct X as [_ <-]. unfold space. lia.
      * assert (Nt : t <> []). { inversion E as [|? e' ? ? ? R'|]; subst; [|discriminate]. destruct (reference_chars _ _ R') as (l & -> & _). discriminate. }
        destruct (exists_last Nt) as (r' & x' & ->). rewrite app_assoc in X. apply app_inj_tail in X. destruct X as [_ <-]. eapply IH; [|discriminate|reflexivity].
        intros r0 c0 Y. apply (B (c :: r0)). cbn [app]. now rewrite Y.
    + intros r x X. destruct s as [|y s].
      * inversion E; subst. destruct r as [|? [|]]; try discriminate X. injection X as <-. apply (B [] c). reflexivity.
      * assert (Nt : t <> []). { inversion E as [|? e' ? ? ? R'|]; subst; [|discriminate]. destruct (reference_chars _ _ R') as (l & -> & _). discriminate. }
        destruct (exists_last Nt) as (r' & x' & ->). change (c :: r' ++ [x']) with ((c :: r') ++ [x']) in X. apply app_inj_tail in X. destruct X as [_ <-]. eapply IH; [|discriminate|reflexivity].
        intros r0 c0 Y. apply (B (c :: r0)). cbn [app]. now rewrite Y.
Qed.

Lemma spaces_app a b : spaces a -> spaces b -> spaces (a ++ b).
Proof. intros A B. now apply Forall_app. Qed.
Lemma attrs_space a s w : Attrs a s -> spaces w -> Attrs a (s ++ w).
Proof.
  induction 1 as [w0 W0|k v a w0 w1 w2 q e s W0 WN K W1 W2 Q I V H IH]; intros W; [constructor; now apply spaces_app|].
  rewrite <- !app_assoc. constructor; auto.
Qed.
Lemma attrs_pre a s w : Attrs a s -> spaces w -> Attrs a (w ++ s).
Proof.
  intros H W. destruct H as [w0 W0|k v a w0 w1 w2 q e s W0 WN K W1 W2 Q I V H]; [constructor; now apply spaces_app|].
  rewrite app_assoc. constructor; auto; [now apply spaces_app|]. destruct w; [auto|discriminate].
Qed.
Lemma attrs_app2 a s b t : Attrs a s -> Attrs b t -> Attrs (a ++ b) (s ++ t).
Proof.
  induction 1 as [w0 W0|k v a w0 w1 w2 q e s W0 WN K W1 W2 Q I V H IH]; intros B; [cbn [app]; now apply attrs_pre|].
  rewrite <- !app_assoc. apply (At_cons k v (a ++ b) w0 w1 w2 q e (s ++ t)); auto.
Qed.
Lemma content_pre b l s w : Content b l s -> spaces w -> Content b l (w ++ s).
Proof.
  intros H W. destruct H as [b w0 W0|b w0 n s l r W0 M C|w0 t e l r W0 T C]; rewrite ?(app_assoc w w0); constructor; auto; now apply spaces_app.
Qed.
Lemma content_post l : forall b s w, Content b l s -> spaces w -> Content b l (s ++ w).
Proof.
  induction l as [|n l IH]; intros b s w H W.
  - inversion H; subst. constructor. now apply spaces_app.
  - inversion H as [|b0 w0 n0 s0 l0 r W0 M C|w0 t e l0 r W0 T C]; subst; rewrite <- !app_assoc; [apply C_node|apply C_text]; auto.
Qed.
Lemma document_pre d s w : Document d s -> spaces w -> Document d (w ++ s).
Proof. intros H W. destruct H; rewrite (app_assoc w); constructor; auto; now apply spaces_app. Qed.

Section Writer.
Variable fl : wflags.
Hypothesis F1 : w_ignore_comments fl = false.
Hypothesis F2 : w_lower_tags fl = false.
Hypothesis F3 : w_lower_attrs fl = false.
Hypothesis F4 : w_raw_text fl = false.
Hypothesis F5 : w_raw_attrs fl = false.

Ltac plains := repeat (rewrite plain_app || match goal with |- _ /\ _ => split | |- plain _ => assumption || (split; repeat constructor; discriminate) end).

Lemma indent_spaces d : spaces (indent fl d) /\ plain (indent fl d).
Proof.
  assert (R : forall c k, space c -> spaces (repeat c k) /\ plain (repeat c k)).
  { intros c k C. split; [|split]; apply Forall_forall; intros x X; apply repeat_spec in X; subst; auto; unfold space in C; try lia; unfold is_byte; lia. }
  unfold indent. destruct (w_pretty fl); [split; [constructor|split; constructor]|apply R; unfold space; lia|apply R; unfold space; lia].
Qed.
Lemma newline_spaces : spaces (newline fl) /\ plain (newline fl).
Proof. unfold newline, spaces, plain, no_nul, is_bytes. destruct (w_pretty fl); repeat split; repeat constructor; unfold space; try lia; discriminate. Qed.

Lemma enc_attr_ok v : plain v -> exists e, enc_attr fl v = Ok e /\ Stands attribute_known e v /\ ~ In 34 e /\ plain e.
Proof.
  intros [NV BV]. unfold enc_attr. rewrite F5. destruct (proj2 (xml_encode_correct v [0])) as (e & E & Es). exists e. split; [exact E|]. split; [|split].
  - eapply escaped_stands; [| | |exact Es]; [intros c C x X; now split|intros c x [_ X]; now left|unfold in_attribute; lia].
  - eapply escaped_no; [| |exact Es]; unfold in_attribute; lia.
  - destruct (escaped_bytes _ _ _ NV BV Es). now split.
Qed.
Lemma write_attr_ok k v : name k -> plain k -> plain v -> exists x, write_attr fl k v = Ok x /\ Attrs [(k, v)] x /\ plain x.
Proof.
  intros K PK PV. destruct (enc_attr_ok v PV) as (e & E & S & N34 & PE). unfold write_attr. rewrite E. cbn [bind]. eexists. split; [reflexivity|]. split.
  - change ([32] ++ k ++ [61; 34] ++ e ++ [34]) with ([32] ++ k ++ [] ++ [61] ++ [] ++ [34] ++ e ++ [34] ++ []). apply At_cons; auto.
    + constructor; [unfold space; lia|constructor].
    + discriminate.
    + constructor.
    + constructor.
    + constructor; constructor.
  - plains.
Qed.
Definition sound (kv : list N * list N) : Prop := name (fst kv) /\ plain (fst kv) /\ plain (snd kv).
Lemma write_attrs_ok is_dec a : Forall sound a -> (is_dec = true -> Forall (fun kv => existsb (caseeqb (fst kv)) declaration_attributes = false) a) ->
  exists x, write_attrs fl is_dec a = Ok x /\ Attrs a x /\ plain x.
Proof.
  induction 1 as [|[k v] a (K & PK & PV) H IH]; intros D; cbn [write_attrs].
  - exists []. split; [reflexivity|]. split; [constructor; constructor|split; constructor].
  - cbn [fst snd] in *. destruct (write_attr_ok k v K PK PV) as (x & E & A & PX). destruct IH as (y & E' & A' & PY); [intros X; specialize (D X); now inversion D|].
    assert (C : is_dec && existsb (caseeqb k) declaration_attributes = false). { destruct is_dec; [|reflexivity]. specialize (D eq_refl). inversion D; subst. assumption. }
    rewrite C. unfold attr_key. rewrite F3, E. cbn [bind]. rewrite E'. cbn [bind]. exists (x ++ y). split; [reflexivity|]. split; [apply (attrs_app2 [(k, v)]); auto|now apply plain_app].
Qed.
Lemma write_attrs_skip b c : Forall (fun kv => existsb (caseeqb (fst kv)) declaration_attributes = true) b -> write_attrs fl true (b ++ c) = write_attrs fl true c.
Proof.
  induction 1 as [|[k v] b H _ IH]; [reflexivity|]. cbn [app write_attrs fst] in *. rewrite H. cbn [andb bind]. rewrite IH. now destruct (write_attrs fl true c).
Qed.
Lemma attr_get_app b c k : attr_get c k = None -> attr_get (b ++ c) k = attr_get b k.
Proof.
  unfold attr_get. intros H. induction b as [|x b IH]; cbn [app find]; [now destruct (find _ c)|]. destruct (caseeqb (fst x) k); auto.
Qed.
Lemma write_decl_cons k ks a : write_decl_attrs fl (k :: ks) a = do x <- match attr_get a k with None => Ok [] | Some v => write_attr fl k v end; do y <- write_decl_attrs fl ks a; Ok (x ++ y).
Proof. reflexivity. Qed.

Lemma write_decl_ok b c : Sub (map fst b) declaration_attributes -> Forall sound b ->
  Forall (fun kv => ~ nocase (fst kv) s_version /\ ~ nocase (fst kv) s_encoding /\ ~ nocase (fst kv) s_standalone) c ->
  exists x, write_decl_attrs fl declaration_attributes (b ++ c) = Ok x /\ Attrs b x /\ plain x.
Proof.
  intros SB FS NC.
  assert (G : forall k, In k declaration_attributes -> attr_get (b ++ c) k = attr_get b k).
  { intros k K. apply attr_get_app, attr_get_none. intros k' v I Y. rewrite Forall_forall in NC. specialize (NC _ I). cbn [fst] in NC. cbn in K. destruct K as [<-|[<-|[<-|[]]]]; tauto. }
  unfold declaration_attributes in *. rewrite !write_decl_cons, !G by (cbn; tauto).
  assert (P1 : exists x, Ok (A := list N) [] = Ok x /\ Attrs [] x /\ plain x) by (exists []; split; [reflexivity|split; [constructor; constructor|split; constructor]]).
  assert (JOIN : forall a1 a2 r1 r2, (exists x, r1 = Ok x /\ Attrs a1 x /\ plain x) -> (exists x, r2 = Ok x /\ Attrs a2 x /\ plain x) -> exists x, (do x <- r1; do y <- r2; Ok (x ++ y)) = Ok x /\ Attrs (a1 ++ a2) x /\ plain x).
  { intros a1 a2 r1 r2 (x & -> & A1 & X1) (y & -> & A2 & X2). cbn [bind]. exists (x ++ y). split; [reflexivity|]. split; [now apply attrs_app2|now apply plain_app]. }
  assert (ONE : forall k v, sound (k, v) -> exists x, write_attr fl k v = Ok x /\ Attrs [(k, v)] x /\ plain x) by (intros k v (K & PK & PV); now apply write_attr_ok).
  inversion SB as [|k1 l1 m1 S1 E1 E1'|k1 l1 m1 S1 E1 E1']; subst; inversion S1 as [|k2 l2 m2 S2 E2 E2'|k2 l2 m2 S2 E2 E2']; subst; inversion S2 as [|k3 l3 m3 S3 E3 E3'|k3 l3 m3 S3 E3 E3']; subst; inversion S3; subst;
  repeat match goal with
  | H : _ :: _ = map fst ?b |- _ => symmetry in H
  | H : [] = map fst ?b |- _ => symmetry in H
  | H : map fst ?b = [] |- _ => apply map_eq_nil in H; subst b
  | H : map fst ?b = _ :: _ |- _ => let kk := fresh "k" in let vv := fresh "v" in let bb := fresh "b" in destruct b as [|[kk vv] bb]; [discriminate H|]; cbn [map fst] in H; injection H as ? H; subst kk
  | H : Forall sound (_ :: _) |- _ => inversion H; clear H; subst
  end.
  all: cbn [app]; repeat match goal with |- context [attr_get ?B ?K] => let r := eval vm_compute in (attr_get B K) in change (attr_get B K) with r end; cbn iota.
  all: cbn [write_decl_attrs].
  all: match goal with |- exists x, (do x0 <- ?A; do y0 <- (do x1 <- ?B; do y1 <- (do x2 <- ?C; do y2 <- ?D; _); _); _) = _ /\ Attrs ?L _ /\ _ =>
    let one t := match t with write_attr _ ?k ?v => constr:([(k, v)]) | _ => constr:(@nil (list N * list N)) end in
    let a := one A in let b := one B in let c := one C in change L with (a ++ b ++ c ++ []) end.
  all: repeat apply JOIN; auto.
Qed.

Lemma open_attributes_ok is_pi n a : good_attrs a -> (is_pi = true -> n = s_xml -> in_order a) -> exists x, open_attributes fl is_pi n a = Ok x /\ Attrs a x /\ plain x.
Proof.
  intros [D G] O. unfold open_attributes. destruct (is_pi && str_eqb n [120; 109; 108]) eqn:E.
  - apply andb_true_iff in E. destruct E as [E1 E2]. apply str_eqb_iff in E2. destruct (O E1 E2) as (b & c & -> & SB & NC). apply Forall_app in G. destruct G as [Gb Gc].
    destruct (write_decl_ok b c SB Gb NC) as (x & -> & A & PX). cbn [bind]. rewrite write_attrs_skip.
    + destruct (write_attrs_ok true c Gc) as (y & -> & A' & PY).
      * intros _. eapply Forall_impl; [|exact NC]. intros kv (N1 & N2 & N3). cbn [existsb declaration_attributes].
        repeat match goal with |- context [caseeqb ?u ?v] => let X := fresh in destruct (caseeqb u v) eqn:X; [apply caseeqb_iff in X; exfalso; tauto|] end. reflexivity.
      * cbn [bind]. exists (x ++ y). split; [reflexivity|]. split; [now apply attrs_app2|now apply plain_app].
    + apply Forall_forall. intros kv I. assert (IN : In (fst kv) declaration_attributes).
      { assert (X : forall (A : Type) (l m : list A), Sub l m -> forall z, In z l -> In z m) by (intros T l m H; induction H as [|? ? ? ? IHs|? ? ? ? IHs]; intros z Z; auto; [destruct Z as [-> |Z]; [now left|right; auto]|right; auto]).
        eapply X; [exact SB|]. now apply in_map. }
      apply existsb_exists. exists (fst kv). split; [exact IN|apply caseeqb_refl].
  - cbn [bind]. destruct (write_attrs_ok false a G) as (y & -> & A' & PY); [discriminate|]. cbn [bind app]. eauto.
Qed.

(** The text of one child. *)
Definition item (n : node) (x : list N) : Prop := plain x /\ exists w s w', x = w ++ s ++ w' /\ spaces w /\ spaces w' /\ match n with Text t => Textual t s | _ => Markup n s end.
Lemma only_if (b : bool) w : spaces w /\ plain w -> spaces (if b then w else []) /\ plain (if b then w else []).
Proof. intros H. destruct b; [exact H|split; [constructor|split; constructor]]. Qed.
Lemma only_else (b : bool) w : spaces w /\ plain w -> spaces (if b then [] else w) /\ plain (if b then [] else w).
Proof. intros H. destruct b; [split; [constructor|split; constructor]|exact H]. Qed.

Lemma comment_end d : (forall x y, d <> x ++ [45; 45; 62] ++ y) -> ends_at (32 :: d ++ [32]) [45; 45] 62.
Proof.
  intros H x y E. apply (f_equal (@rev N)) in E. rewrite !rev_app_distr in E. cbn [rev app] in E. rewrite rev_app_distr in E. cbn [rev app] in E. rewrite <- !app_assoc in E. cbn [app] in E.
  destruct (rev y) as [|a [|b [|c y']]]; cbn [app] in E; try discriminate E. injection E as _ _ _ E.
  destruct x as [|x0 x]; cbn [rev app] in E.
  - change (62 :: 45 :: [45]) with ([62; 45] ++ [45]) in E. rewrite app_assoc in E. apply app_inj_tail in E. destruct E as [_ E]. discriminate E.
  - change (62 :: 45 :: 45 :: rev x ++ [x0]) with ((62 :: 45 :: 45 :: rev x) ++ [x0]) in E. rewrite app_assoc in E. apply app_inj_tail in E. destruct E as [E _].
    apply (H x (rev y')). apply (f_equal (@rev N)) in E. rewrite rev_involutive, rev_app_distr in E. cbn [rev] in E. rewrite rev_involutive, <- !app_assoc in E. exact E.
Qed.

Lemma children_ok d sibs l : (forall prev next n, In n l -> exists x, write_node fl d false sibs prev next n = Ok x /\ item n x) -> apart l -> forall prev, (prev = true -> first_is_text l = false) ->
  exists y, (fix go (prev : bool) (l : list node) : res (list N) :=
      match l with
      | [] => Ok []
      | c :: l' => do u <- write_node fl d false sibs prev (first_is_text l') c; do v <- go (is_text c) l'; Ok (u ++ v)
      end) prev l = Ok y /\ Content prev l y /\ plain y.
Proof.
  induction l as [|n l IH]; intros W AP prev P.
  - exists []. split; [reflexivity|]. split; [constructor; constructor|split; constructor].
  - destruct (W prev (first_is_text l) n) as (u & -> & PU & w & s & w' & -> & W1 & W2 & M); [now left|]. cbn [bind].
    destruct (IH (fun p q m I => W p q m (or_intror I))) with (prev := is_text n) as (v & -> & C & PV).
    + cbn [apart] in AP. destruct n; try exact AP. destruct l as [|[] l]; try exact AP; try exact I. contradiction.
    + intros T. destruct n; try discriminate T. cbn [apart] in AP. destruct l as [|[] l]; try reflexivity. contradiction.
    + cbn [bind]. exists ((w ++ s ++ w') ++ v). split; [reflexivity|]. split; [|now apply plain_app]. rewrite <- !app_assoc.
      destruct n as [? ? ?|? ? ?|? ?|t|?]; try (apply C_node; [auto|exact M|apply content_pre; [exact C|exact W2]]).
      destruct prev; [exfalso; specialize (P eq_refl); discriminate P|]. apply C_text; auto. apply content_pre; [exact C|exact W2].
Qed.

Lemma write_node_ok n : Good n -> forall d pdoc sibs prev next, exists x, write_node fl d pdoc sibs prev next n = Ok x /\ item n x.
Proof.
  induction n as [n a l IH|n a d0|n d0|t|t] using node_ind2; intros G d pdoc sibs prev next; inversion G; subst; cbn [write_node].
  - match goal with H : good_attrs a |- _ => destruct (open_attributes_ok false n a H) as (x & -> & A & PX); [discriminate|]; destruct H as [D _] end. cbn [bind].
    destruct (children_ok (S d) (length l) l) with (prev := false) as (y & -> & C & PY); [|auto|discriminate|].
    { intros p q m I. rewrite Forall_forall in IH. apply IH; auto. match goal with H : Forall Good l |- _ => rewrite Forall_forall in H; now apply H end. }
    cbn [bind]. unfold tag_name. rewrite F2. destruct (indent_spaces d) as [WI PI']. destruct newline_spaces as [WN PN].
    eexists. split; [reflexivity|]. destruct l as [|c l].
    + cbn [is_nil only_text first_is_text length Nat.eqb andb]. inversion C; subst.
      assert (CS : spaces (if w_close_space fl then [32] else []) /\ plain (if w_close_space fl then [32] else [])).
      { apply only_if. split; [constructor; [unfold space; lia|constructor]|split; repeat constructor; discriminate]. }
      destruct CS as [CS PC]. split; [plains|]. exists (indent fl d), ([60] ++ n ++ (x ++ (if w_close_space fl then [32] else [])) ++ [47; 62]), (newline fl ++ y). split; [|split; [auto|split; [now apply spaces_app|]]].
      * rewrite <- !app_assoc. cbn [app]. now rewrite app_nil_r.
      * apply M_empty; auto. now apply attrs_space.
    + cbn [is_nil]. remember (c :: l) as l0 eqn:El. destruct (only_else (only_text l0) _ (conj WN PN)) as [WN1 PN1]. destruct (only_else (only_text l0) _ (conj WI PI')) as [WI1 PI1]. destruct (only_else pdoc _ (conj WN PN)) as [WN2 PN2].
      split; [plains|]. exists (indent fl d), ([60] ++ n ++ x ++ [62] ++ ((if only_text l0 then [] else newline fl) ++ y ++ (if only_text l0 then [] else indent fl d)) ++ [60; 47] ++ n ++ [] ++ [62]), (if pdoc then [] else newline fl). split; [|split; [auto|split; [auto|]]].
      * rewrite <- ?app_assoc. cbn [app]. rewrite <- ?app_assoc. cbn [app]. rewrite <- ?app_assoc. cbn [app]. rewrite <- ?app_assoc. reflexivity.
      * apply M_elem; auto; [|constructor]. apply content_pre; auto. apply content_post; auto.
  - match goal with H : good_attrs a |- _ => destruct (open_attributes_ok true n a H) as (x & -> & A & PX); [auto|]; destruct H as [D _] end. cbn [bind open_tag_data is_nil]. unfold tag_name. rewrite F2.
    destruct (indent_spaces d) as [WI PI']. destruct newline_spaces as [WN PN]. eexists. split; [reflexivity|]. split; [plains|].
    exists (indent fl d), ([60; 63] ++ n ++ x ++ [63; 62]), (newline fl). split; [rewrite <- !app_assoc; cbn [app]; rewrite <- ?app_assoc; reflexivity|]. split; [auto|split; [auto|]]. now apply M_pi.
  - match goal with H : good_text t |- _ => destruct H as (NE & T & [NT BT]) end. unfold enc_text. rewrite F4. destruct (proj1 (xml_encode_correct t [0])) as (e & E & Es).
    rewrite E. cbn [bind]. destruct (escaped_bytes _ _ _ NT BT Es) as [NE' BE]. assert (PE : plain e) by now split.
    destruct (only_if ((1 <? sibs)%nat && negb prev) _ (indent_spaces d)) as [W1 P1]. destruct (only_if ((1 <? sibs)%nat && negb next) _ newline_spaces) as [W2 P2].
    eexists. split; [reflexivity|]. split; [plains|]. eexists _, e, _. split; [reflexivity|]. split; [auto|split; [auto|]].
    destruct (escaped_ends _ _ _ Es T NE) as [X1 X2]. split; [auto|split; [auto|split]].
    + eapply escaped_no; [| |exact Es]; unfold in_text; lia.
    + eapply escaped_stands; [| | |exact Es]; [intros c C z Z; now left|auto|unfold in_text; lia].
  - rewrite F1. match goal with H : good_comment t |- _ => destruct H as (T & PT & NC) end. destruct (indent_spaces d) as [WI PI']. destruct newline_spaces as [WN PN].
    assert (W32 : spaces [32]) by (constructor; [unfold space; lia|constructor]).
    eexists. split; [reflexivity|]. assert (PD : plain (open_tag_data t)). { unfold open_tag_data. destruct (is_nil t); [split; constructor|]. change (32 :: t) with ([32] ++ t). plains. }
    split; [plains|]. destruct t as [|c t].
    + cbn [open_tag_data is_nil]. exists (indent fl d), ([60; 33; 45; 45] ++ [32] ++ [] ++ [] ++ [45; 45; 62]), (newline fl). split; [rewrite <- !app_assoc; reflexivity|]. split; [auto|split; [auto|]]. apply M_comment; auto; [constructor|].
      intros x y E. cbn [app] in E. destruct x as [|x0 [|x1 [|x2 x]]]; try discriminate E. destruct x; discriminate E.
    + unfold open_tag_data. cbn [is_nil]. exists (indent fl d), ([60; 33; 45; 45] ++ [32] ++ (c :: t) ++ [32] ++ [45; 45; 62]), (newline fl). split; [cbn [app]; rewrite <- ?app_assoc; cbn [app]; rewrite <- ?app_assoc; reflexivity|]. split; [auto|split; [auto|]].
      apply M_comment; auto. apply (comment_end (c :: t)). exact NC.
Qed.

Lemma xml_write_ok d : GoodDoc d -> exists t, xml_write fl d = Ok t /\ Document d t /\ plain t.
Proof.
  intros (l & r & -> & ML & ER & G). unfold xml_write. generalize (length (l ++ [r])) as sibs. generalize false as prev. intros prev sibs. apply Forall_app in G. destruct G as [Gl Gr]. inversion Gr; subst.
  revert prev Gl. induction ML as [|n l Mn ML IH]; intros prev Gl.
  - cbn [app write_children first_is_text]. destruct (write_node_ok r ltac:(assumption) 0%nat true sibs prev false) as (x & -> & PX & w & s & w' & -> & W & W' & M). cbn [bind]. rewrite app_nil_r. eexists. split; [reflexivity|]. split; [|auto].
    destruct r; try contradiction. now apply D_root.
  - inversion Gl; subst. cbn [app write_children]. destruct (write_node_ok n ltac:(assumption) 0%nat true sibs prev (first_is_text (l ++ [r]))) as (x & -> & PX & w & s & w' & -> & W & W' & M). cbn [bind].
    destruct (IH (is_text n)) as (y & -> & D & PY); [auto|]. cbn [bind]. eexists. split; [reflexivity|]. split; [|now apply plain_app]. rewrite <- !app_assoc. destruct n; try contradiction; (apply D_misc; [auto|exact I|exact M|now apply document_pre]).
Qed.
End Writer.

From Verif Require Import Base.Lib Base.Mem StrEq.Model StrEq.Spec StrEq.Proofs XmlEnt.Model XmlEnt.Spec.
Local Open Scope N_scope.

(** ** Encoding *)
Section Encode.
Variable ents : list entity.
Variable special : N -> Prop.
Hypothesis tab_some : forall c e, find (fun e => c =? fst e) ents = Some e -> special c /\ reference c (snd e).
Hypothesis tab_none : forall c, find (fun e => c =? fst e) ents = None -> ~ special c.

Lemma encode_loop_ok z : forall s pre prev buf pend,
  (prev = None /\ pend = [] \/ exists p, prev = Some (length p) /\ pre = p ++ pend) ->
  exists t, encode_loop ents (length s) (pre ++ s ++ z) (length pre) prev buf = Ok (buf ++ pend ++ t) /\ Escaped special s t.
Proof.
  induction s as [|c s IH]; intros pre prev buf pend P.
  - exists []. split; [|constructor]. cbn [length encode_loop app]. rewrite app_nil_r. destruct P as [[-> ->]|(p & -> & ->)]; [now rewrite app_nil_r|].
    rewrite app_length. replace (length p + length pend - length p)%nat with (length pend) by lia. rewrite <- app_assoc, rdn_ok. reflexivity.
  - cbn [length encode_loop app]. rewrite rd_app_mid. cbn [bind]. destruct (find (fun e => c =? fst e) ents) as [e|] eqn:F.
    + destruct (tab_some _ _ F) as [Sp R].
      assert (X : (match prev with None => Ok buf | Some p => do b <- rdn (pre ++ c :: s ++ z) p (length pre - p); Ok (buf ++ b) end) = Ok (buf ++ pend)).
      { destruct P as [[-> ->]|(p & -> & ->)]; [now rewrite app_nil_r|]. rewrite app_length. replace (length p + length pend - length p)%nat with (length pend) by lia. rewrite <- app_assoc, rdn_ok. reflexivity. }
      rewrite X. cbn [bind]. destruct (IH (pre ++ [c]) None ((buf ++ pend) ++ snd e) []) as (t & E & Es); [now left|].
      rewrite <- app_assoc in E. cbn [app] in E. rewrite app_length in E. cbn [length] in E. rewrite Nat.add_1_r in E. rewrite E.
      exists (snd e ++ t). split; [now rewrite !app_assoc|]. now apply E_ref.
    + destruct (IH (pre ++ [c]) (match prev with None => Some (length pre) | p => p end) buf (pend ++ [c])) as (t & E & Es).
      { right. destruct P as [[-> ->]|(p & -> & ->)]; [exists pre; auto|exists p; split; auto; now rewrite app_assoc]. }
      rewrite <- app_assoc in E. cbn [app] in E. rewrite app_length in E. cbn [length] in E. rewrite Nat.add_1_r in E. rewrite E.
      exists (c :: t). split; [now rewrite <- app_assoc|]. apply E_chr; auto.
Qed.
Lemma encode_int_ok s z : exists t, encode_int ents (s ++ z) (length s) = Ok t /\ Escaped special s t.
Proof. destruct (encode_loop_ok z s [] None [] []) as (t & E & Es); [now left|]. exists t. split; auto. Qed.
End Encode.

Lemma text_table c : match find (fun e => c =? fst e) encode_entities with Some e => in_text c /\ reference c (snd e) | None => ~ in_text c end.
Proof.
  unfold encode_entities, in_text. cbn [find fst quot apos amp gt lt].
  repeat match goal with |- context [c =? ?k] => destruct (N.eqb_spec c k) as [->|]; [split; [lia|unfold reference; tauto]|] end. lia.
Qed.
Lemma attribute_table c : match find (fun e => c =? fst e) attribute_entities with Some e => in_attribute c /\ reference c (snd e) | None => ~ in_attribute c end.
Proof.
  unfold attribute_entities, in_attribute. cbn [find fst quot apos amp gt lt].
  repeat match goal with |- context [c =? ?k] => destruct (N.eqb_spec c k) as [->|]; [split; [lia|unfold reference; tauto]|] end. lia.
Qed.

(** ** Decoding *)
Lemma find_entity_ok s z : no_nul s -> is_bytes s -> forall ents, Forall (fun e : entity => exists l, snd e = 38 :: l /\ no_nul l /\ is_bytes l) ents -> exists o, find_entity ents (s ++ 0 :: z) = Ok o /\
  match o with
  | Some e => In (fst e, snd e) ents /\ exists e' r, s = e' ++ r /\ nocase e' (snd e)
  | None => forall c e e' r, In (c, e) ents -> nocase e' e -> s <> e' ++ r
  end.
Proof.
  intros Ns Bs. induction ents as [|e es IH]; intros wf.
  - exists None. split; [reflexivity|]. intros c e e' r [].
  - apply Forall_cons_iff in wf. destruct wf as [(l & El & Nl & Bl) wf']. cbn [find_entity].
    assert (Ne : no_nul (snd e)) by (rewrite El; constructor; auto; discriminate). assert (Be : is_bytes (snd e)) by (rewrite El; constructor; auto; reflexivity).
    destruct (eq_max_ok true (N.of_nat (length (snd e))) s (snd e) z [] Ns Ne Bs Be) as (b & Eb & Hb). unfold str_caseeq_max. rewrite Eb. cbn [bind].
    rewrite Nat2N.id, firstn_all in Hb. cbn [alike] in Hb. destruct b.
    + exists (Some e). split; auto. split; [left; now destruct e|]. exists (firstn (length (snd e)) s), (skipn (length (snd e)) s). split; [now rewrite firstn_skipn|]. now apply Hb.
    + destruct (IH wf') as (o & Eo & Ho). exists o. split; auto. destruct o as [e1|].
      * destruct Ho as [K X]. split; auto. now right.
      * intros c e1 e' r [K|K] Nc Es; [|now apply (Ho c e1 e' r K)]. subst e. cbn [snd] in *. pose proof (Forall2_length _ _ _ Nc) as L.
        assert (X : false = true); [|discriminate X]. apply Hb. rewrite Es, <- L, firstn_app, firstn_all, Nat.sub_diag, app_nil_r. exact Nc.
Qed.

Section Decode.
Variable ents : list entity.
Hypothesis wf : Forall (fun e => exists l, snd e = 38 :: l /\ no_nul l /\ is_bytes l) ents.
Definition known (c : N) (e : list N) : Prop := In (c, e) ents.

Lemma known_wf c e : known c e -> exists l, e = 38 :: l /\ no_nul l /\ is_bytes l.
Proof. intros H. rewrite Forall_forall in wf. exact (wf _ H). Qed.

Lemma nocase_hd e' l : nocase e' (38 :: l) -> exists l', e' = 38 :: l'.
Proof.
  intros H. inversion H as [|x y a b Hx Ha]; subst. exists a. f_equal. revert Hx. unfold low. cbn. destruct (N.leb_spec 65 x), (N.leb_spec x 90); cbn [andb]; lia.
Qed.

Lemma put_ok out x rest c : N.of_nat (length out) < int_max -> put (out ++ x :: rest) (N.of_nat (length out)) c = Ok ((out ++ [c]) ++ rest).
Proof. intros H. unfold put. rewrite (proj2 (N.eqb_neq _ _)) by lia. rewrite Nat2N.id, wr_app_mid. now rewrite <- app_assoc. Qed.

Lemma decode_loop_ok z : forall n s pre out rest,
  no_nul s -> is_bytes s -> (length s < n)%nat -> (length out <= length pre)%nat -> (length s < length rest)%nat ->
  N.of_nat (length pre + length s) <= int_max ->
  exists v rest', Stands known s v /\ (length v <= length s)%nat /\ (1 <= length rest')%nat /\
    decode_loop ents n (pre ++ s ++ 0 :: z) (length pre + length s) (length pre) (out ++ rest) (N.of_nat (length out)) = Ok ((out ++ v) ++ rest', N.of_nat (length out + length v)).
Proof.
  induction n as [|n IH]; intros s pre out rest Ns Bs Hn Ho Hr Hi; [lia|]. cbn [decode_loop]. destruct s as [|c s].
  - exists [], rest. split; [constructor|]. split; [auto|]. split; [cbn [length] in Hr; lia|]. cbn [length]. rewrite (proj2 (Nat.ltb_ge _ _)) by lia. now rewrite app_nil_r, Nat.add_0_r.
  - rewrite (proj2 (Nat.ltb_lt _ _)) by (cbn [length]; lia). cbn [app]. rewrite rd_app_mid. cbn [bind]. destruct rest as [|x rest]; [cbn in Hr; lia|].
    assert (Sk : skipn (length pre) (pre ++ c :: s ++ 0 :: z) = (c :: s) ++ 0 :: z) by (rewrite skipn_app, skipn_all, Nat.sub_diag; reflexivity). rewrite Sk.
    assert (F : exists o, (if c =? 38 then find_entity ents ((c :: s) ++ 0 :: z) else Ok None) = Ok o /\
       match o with
       | Some e => known (fst e) (snd e) /\ exists e' r, c :: s = e' ++ r /\ nocase e' (snd e)
       | None => forall c1 e e' r, known c1 e -> nocase e' e -> c :: s <> e' ++ r
       end).
    { destruct (N.eqb_spec c 38) as [->|Hc]; [apply (find_entity_ok _ z Ns Bs ents wf)|]. exists None. split; auto. intros c1 e e' r K Nc E. destruct (known_wf _ _ K) as (l & -> & _). apply nocase_hd in Nc. destruct Nc as (l' & ->). cbn [app] in E. congruence. }
    destruct F as (o & -> & Fo). cbn [bind]. destruct o as [e|].
    + destruct Fo as (K & e' & r & Es & Nc). pose proof (Forall2_length _ _ _ Nc) as Le. destruct (known_wf _ _ K) as (l & El & _).
      assert (1 <= length e')%nat by (rewrite Le, El; cbn [length]; lia).
      assert (Ls : length (c :: s) = (length e' + length r)%nat) by (rewrite Es; apply app_length).
      rewrite put_ok by lia. cbn [bind].
      rewrite Es in Ns, Bs. apply Forall_app in Ns, Bs.
      destruct (IH r (pre ++ e') (out ++ [fst e]) rest) as (v & rest' & St & L1 & L2 & Ed); try tauto; try (rewrite ?app_length; cbn [length] in *; lia).
      exists (fst e :: v), rest'. rewrite Es. split; [now apply (S_ref known (fst e) (snd e))|]. split; [cbn [length]; rewrite app_length; lia|]. split; auto.
      rewrite !app_length in Ed. cbn [length] in Ed. rewrite <- Le, app_length.
      replace (length pre + (length e' + length r))%nat with (length pre + length e' + length r)%nat by lia.
      replace (N.of_nat (length out) + 1) with (N.of_nat (length out + 1)) by lia.
      replace (pre ++ c :: s ++ 0 :: z) with ((pre ++ e') ++ r ++ 0 :: z) by (change (c :: s ++ 0 :: z) with ((c :: s) ++ 0 :: z); rewrite Es, <- !app_assoc; reflexivity).
      rewrite Ed. f_equal. f_equal; [now rewrite <- !app_assoc|cbn [length]; lia].
    + rewrite put_ok by (cbn [length] in *; lia). cbn [bind]. inversion Ns; inversion Bs; subst.
      destruct (IH s (pre ++ [c]) (out ++ [c]) rest) as (v & rest' & St & L1 & L2 & Ed); auto; try (rewrite ?app_length; cbn [length] in *; lia).
      exists (c :: v), rest'. split; [now constructor|]. split; [cbn [length]; lia|]. split; auto.
      rewrite !app_length in Ed. cbn [length] in Ed. cbn [length].
      replace (length pre + S (length s))%nat with (length pre + 1 + length s)%nat by lia. replace (S (length pre)) with (length pre + 1)%nat by lia.
      replace (N.of_nat (length out) + 1) with (N.of_nat (length out + 1)) by lia.
      replace (pre ++ c :: s ++ 0 :: z) with ((pre ++ [c]) ++ s ++ 0 :: z) by (rewrite <- app_assoc; reflexivity).
      rewrite Ed. f_equal. f_equal; [now rewrite <- !app_assoc|lia].
Qed.

Lemma decode_int_ok s z g : no_nul s -> is_bytes s -> N.of_nat (length s) <= int_max ->
  exists v, decode_int ents (s ++ 0 :: z) (length s) g = Ok v /\ Stands known s v /\ (length v <= length s)%nat.
Proof.
  intros Ns Bs Hi. unfold decode_int.
  destruct (decode_loop_ok z (S (length s)) s [] [] (repeat g (S (length s))) Ns Bs) as (v & rest' & St & L1 & L2 & Ed); try (rewrite ?repeat_length; cbn [length]; lia).
  exists v. split; auto. cbn [app length Nat.add] in Ed. change (N.of_nat 0) with 0 in Ed. rewrite Ed. cbn [bind]. rewrite Nat2N.id. destruct rest' as [|x rest']; [cbn in L2; lia|].
  rewrite wr_app_mid. cbn [bind]. rewrite firstn_app, firstn_all, Nat.sub_diag. cbn [firstn]. now rewrite app_nil_r.
Qed.
End Decode.

Lemma decode_wf : Forall (fun e : entity => exists l, snd e = 38 :: l /\ no_nul l /\ is_bytes l) decode_entities.
Proof. repeat constructor; eexists; (split; [reflexivity|]); split; repeat constructor; discriminate. Qed.
Lemma attribute_wf : Forall (fun e : entity => exists l, snd e = 38 :: l /\ no_nul l /\ is_bytes l) attribute_entities.
Proof. repeat constructor; eexists; (split; [reflexivity|]); split; repeat constructor; discriminate. Qed.

Lemma known_text c e : known decode_entities c e <-> text_known c e.
Proof.
  unfold known, decode_entities, text_known, reference, char_reference, quot, apos, amp, gt, lt, nl, cr. cbn [In]. split.
  - intros H. repeat (destruct H as [H|H]; [injection H as <- <-; tauto|]). destruct H.
  - intros H. repeat (destruct H as [H|H] || (destruct H as [-> ->])); tauto.
Qed.
Lemma known_attribute c e : known attribute_entities c e <-> attribute_known c e.
Proof.
  unfold known, attribute_entities, attribute_known, in_attribute, reference, quot, amp, lt. cbn [In]. split.
  - intros H. repeat (destruct H as [H|H]; [injection H as <- <-; tauto|]). destruct H.
  - intros [H R]. repeat (destruct R as [[-> ->]|R]); [tauto| | | |destruct R as [-> ->]]; try tauto; exfalso; lia.
Qed.

Lemma Stands_iff k1 k2 t s : (forall c e, k1 c e <-> k2 c e) -> Stands k1 t s -> Stands k2 t s.
Proof.
  intros K H. induction H as [|c e e' t s Hk Nc H IH|c t s Hn H IH]; [constructor| |].
  - apply (S_ref k2 c e); auto. now apply K.
  - constructor; auto. intros c' e e' r Hk. apply (Hn c' e e' r). now apply K.
Qed.

(** ** Both *)
Lemma nocase_refl l : nocase l l.
Proof. induction l; constructor; auto. Qed.

Lemma known_cases c e : text_known c e -> exists l, e = 38 :: l.
Proof. unfold text_known, reference, char_reference. intros H. repeat (destruct H as [H|H] || (destruct H as [-> ->])); eauto. Qed.

Lemma low_letter x k : low x = low k -> (k <? 65) || (90 <? k) = true -> x = k \/ (97 <= k <= 122 /\ x = k - 32).
Proof. unfold low. destruct (N.leb_spec 65 x), (N.leb_spec x 90), (N.leb_spec 65 k), (N.leb_spec k 90), (N.ltb_spec k 65), (N.ltb_spec 90 k); cbn [andb orb]; try discriminate; lia. Qed.

Lemma reference_unique c1 e1 c2 e2 e' t1 t2 : reference c1 e1 -> text_known c2 e2 -> nocase e' e2 -> e1 ++ t1 = e' ++ t2 -> c1 = c2 /\ t1 = t2.
Proof.
  intros R K Nc E. unfold text_known, reference, char_reference in *.
  repeat (destruct K as [K|K] || (destruct K as [-> ->]));
  repeat match goal with H : nocase _ (_ :: _) |- _ => inversion H; clear H; subst | H : Forall2 _ _ (_ :: _) |- _ => inversion H; clear H; subst | H : nocase _ [] |- _ => inversion H; clear H; subst | H : Forall2 _ _ [] |- _ => inversion H; clear H; subst end;
  repeat (destruct R as [R|R] || (destruct R as [-> ->])); cbn [app] in E; injection E as; subst;
  repeat match goal with H : low ?a = low ?b |- _ => (vm_compute in H; discriminate H) || clear H end; auto.
Qed.

Lemma escape_stands (special : N -> Prop) (k : N -> list N -> Prop) s t v : (forall c, special c -> forall e, reference c e -> k c e) -> (forall c e, k c e -> text_known c e) -> special 38 ->
  Escaped special s t -> Stands k t v -> v = s.
Proof.
  intros K1 K2 S38 E. revert v. induction E as [|c e s t Sp R E IH|c s t Sp E IH]; intros v H.
  - inversion H as [|c e e' t0 s0 K Nc H0 He|]; subst; auto. destruct (known_cases _ _ (K2 _ _ K)) as (l & ->). apply nocase_hd in Nc. destruct Nc as (l' & ->). discriminate He.
  - assert (X : exists v', v = c :: v' /\ Stands k t v').
    { remember (e ++ t) as et eqn:Et. destruct H as [|c2 e2 e' t2 s2 K Nc H0|c2 t2 s2 Hn H0].
      - destruct (known_cases c e) as (l & ->); [now left|]. discriminate Et.
      - symmetry in Et. destruct (reference_unique c e c2 e2 e' t t2 R (K2 _ _ K) Nc Et) as [<- <-]. eauto.
      - exfalso. apply (Hn c e e t); auto. apply nocase_refl. }
    destruct X as (v' & -> & H'). f_equal. now apply IH.
  - remember (c :: t) as ct eqn:Et. destruct H as [|c2 e2 e' t2 s2 K Nc H0|c2 t2 s2 Hn H0]; [discriminate Et| |].
    + exfalso. destruct (known_cases _ _ (K2 _ _ K)) as (l & ->). apply nocase_hd in Nc. destruct Nc as (l' & ->). cbn [app] in Et. injection Et as X _. subst c. auto.
    + injection Et as -> ->. f_equal. now apply IH.
Qed.

Lemma escaped_bytes special s t : no_nul s -> is_bytes s -> Escaped special s t -> no_nul t /\ is_bytes t.
Proof.
  intros Ns Bs E. induction E as [|c e s t Sp R E IH|c s t Sp E IH]; [auto| |]; inversion Ns; inversion Bs; subst; destruct IH as [I1 I2]; auto.
  - assert (X : no_nul e /\ is_bytes e) by (unfold reference in R; repeat (destruct R as [R|R] || (destruct R as [-> ->])); split; repeat constructor; discriminate). destruct X. split; apply Forall_app; auto.
  - split; constructor; auto.
Qed.

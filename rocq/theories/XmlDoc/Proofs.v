From Verif Require Import Base.Lib Base.Mem Hex.Model StrEq.Spec StrEq.Proofs XmlEnt.Model XmlEnt.Spec XmlEnt.Proofs XmlEnt.Props XmlDoc.Model XmlDoc.Spec.
Local Open Scope N_scope.

(** ** Characters and strings *)

Lemma isspace_iff c : chr_isspace c = true <-> space c.
Proof. unfold chr_isspace, space. lia. Qed.
Lemma isspace_not c : ~ space c -> chr_isspace c = false.
Proof. intros H. destruct (chr_isspace c) eqn:E; auto. apply isspace_iff in E. contradiction. Qed.
Lemma space_dec c : space c \/ ~ space c.
Proof. destruct (chr_isspace c) eqn:E; [left; now apply isspace_iff|right]. intros H. apply isspace_iff in H. congruence. Qed.
Lemma space_noquote c : space c -> is_quote c = false.
Proof. unfold space, is_quote. lia. Qed.

Lemma str_eqb_iff a b : str_eqb a b = true <-> a = b.
Proof. unfold str_eqb. destruct (list_eq_dec N.eq_dec a b); split; congruence. Qed.
Lemma str_eqb_refl a : str_eqb a a = true.
Proof. now apply str_eqb_iff. Qed.
Lemma caseeqb_iff a b : caseeqb a b = true <-> nocase a b.
Proof.
  unfold caseeqb. rewrite str_eqb_iff. unfold nocase. revert b. induction a as [|x a IH]; intros [|y b]; cbn [map]; split; intros H; try discriminate; try (inversion H; fail); auto.
  - constructor; [congruence|]. apply IH. congruence.
  - inversion H; subst. f_equal; auto. now apply IH.
Qed.
Lemma caseeqb_refl a : caseeqb a a = true.
Proof. unfold caseeqb. apply str_eqb_refl. Qed.

Lemma cstr_id s : no_nul s -> cstr s = s.
Proof. induction 1 as [|c s H _ IH]; [reflexivity|]. cbn [cstr]. destruct (N.eqb_spec c 0); [contradiction|]. now rewrite IH. Qed.
Lemma drop_space_app w s : spaces w -> drop_space (w ++ s) = drop_space s.
Proof. induction 1 as [|c w H _ IH]; [reflexivity|]. cbn [app drop_space]. apply isspace_iff in H. now rewrite H. Qed.
Lemma drop_space_spaces w : spaces w -> drop_space w = [].
Proof. intros H. rewrite <- (app_nil_r w), drop_space_app by auto. reflexivity. Qed.
Lemma drop_space_stop c s : ~ space c -> drop_space (c :: s) = c :: s.
Proof. intros H. cbn [drop_space]. now rewrite isspace_not. Qed.
Lemma spaces_rev w : spaces w -> spaces (rev w).
Proof. intros H. apply Forall_forall. intros c I. apply in_rev in I. unfold spaces in H. rewrite Forall_forall in H. auto. Qed.
Lemma tight_cases s : tight s -> s = [] \/ (exists c r, s = c :: r /\ ~ space c) /\ (exists r c, s = r ++ [c] /\ ~ space c).
Proof.
  intros [A B]. destruct s as [|c r]; [now left|]. right. split; [exists c, r; split; eauto|].
  destruct (exists_last (l := c :: r)) as (r' & c' & E); [discriminate|]. exists r', c'. split; eauto.
Qed.
Lemma trim_tight w t w' : spaces w -> tight t -> spaces w' -> trim (w ++ t ++ w') = t.
Proof.
  intros W T W'. unfold trim. rewrite drop_space_app by auto. destruct (tight_cases t T) as [-> |[(c & r & E & C) (r' & c' & E' & C')]].
  - cbn [app]. rewrite (drop_space_spaces w') by auto. reflexivity.
  - rewrite E at 1. cbn [app]. rewrite drop_space_stop by auto. change (c :: r ++ w') with ((c :: r) ++ w'). rewrite <- E, rev_app_distr, drop_space_app by now apply spaces_rev.
    rewrite E' at 1. rewrite rev_app_distr. cbn [rev app]. rewrite drop_space_stop by auto. cbn [rev]. rewrite rev_involutive. now symmetry.
Qed.

Lemma name_nonul n : name n -> no_nul n.
Proof. intros [_ H]. eapply Forall_impl; [|exact H]. intros c [_ X] ->. apply X. now left. Qed.
Lemma name_hd n : name n -> exists c r, n = c :: r /\ name_char c.
Proof. intros [N H]. destruct H as [|c r C _]; [congruence|]. eauto. Qed.
Lemma name_noquote c : name_char c -> is_quote c = false.
Proof. intros [_ X]. unfold is_quote. cbn in X. lia. Qed.
Ltac nc H := let X := fresh in pose proof (proj2 H) as X; cbn [In] in X.

(** ** Finding unquoted characters *)

Definition shift (k : nat) (o : option nat) : option nat := option_map (fun n => (k + n)%nat) o.
Lemma shift_S k o : option_map S (shift k o) = shift (S k) o.
Proof. destruct o; reflexivity. Qed.
Lemma shift_shift a b o : shift a (shift b o) = shift (a + b) o.
Proof. destruct o; cbn; auto. f_equal. lia. Qed.

(** Text in which quotes are balanced and [ch] occurs only between them. *)
Inductive Balanced (ch : N) : list N -> Prop :=
| B_nil : Balanced ch []
| B_chr : forall c s, is_quote c = false -> c <> ch -> Balanced ch s -> Balanced ch (c :: s)
| B_quo : forall q e s, is_quote q = true -> ~ In q e -> Balanced ch s -> Balanced ch (q :: e ++ q :: s).
Lemma balanced_app ch a b : Balanced ch a -> Balanced ch b -> Balanced ch (a ++ b).
Proof.
  induction 1 as [|c s C D H IH|q e s Q I H IH]; intros B; [exact B| |].
  - cbn [app]. apply B_chr; auto.
  - cbn [app]. rewrite <- app_assoc. cbn [app]. apply B_quo; auto.
Qed.
Lemma balanced_plain ch s : Forall (fun c => is_quote c = false /\ c <> ch) s -> Balanced ch s.
Proof. induction 1 as [|c s [A B] _ IH]; [constructor|]. apply B_chr; auto. Qed.
Lemma balanced_spaces ch w : ~ space ch -> spaces w -> Balanced ch w.
Proof. intros C H. apply balanced_plain. eapply Forall_impl; [|exact H]. intros c S. split; [now apply space_noquote|]. intros ->. contradiction. Qed.
Lemma balanced_name ch n : ~ name_char ch -> name n -> Balanced ch n.
Proof. intros C [_ H]. apply balanced_plain. eapply Forall_impl; [|exact H]. intros c S. split; [now apply name_noquote|]. intros ->. contradiction. Qed.

Lemma find_unquoted_in q e s ch : is_quote q = true -> ~ In q e -> find_unquoted (Some q) (e ++ q :: s) ch = shift (S (length e)) (find_unquoted None s ch).
Proof.
  intros Q. induction e as [|c e IH]; intros I; cbn [app find_unquoted length].
  - rewrite Q. cbn [flip]. rewrite N.eqb_refl. destruct (find_unquoted None s ch); reflexivity.
  - assert (D : c <> q) by (intros ->; apply I; now left). rewrite <- shift_S, <- IH by (intros F; apply I; now right).
    destruct (is_quote c).
    + cbn [flip]. destruct (N.eqb_spec c q); [contradiction|reflexivity].
    + rewrite andb_false_r. reflexivity.
Qed.
Lemma find_unquoted_skip ch x s : Balanced ch x -> find_unquoted None (x ++ s) ch = shift (length x) (find_unquoted None s ch).
Proof.
  induction 1 as [|c x C D H IH|q e x Q I H IH].
  - cbn. destruct (find_unquoted None s ch); reflexivity.
  - cbn [app find_unquoted length]. rewrite C, IH. destruct (N.eqb_spec c ch); [contradiction|]. cbn [andb]. apply shift_S.
  - cbn [app find_unquoted]. rewrite Q. cbn [flip]. rewrite <- app_assoc. cbn [app]. rewrite find_unquoted_in, IH, shift_S, shift_shift by auto.
    f_equal. cbn [length]. rewrite app_length. cbn [length]. lia.
Qed.
Lemma explode_skip ch x : Balanced ch x -> forall cur s, explode_loop ch None cur (x ++ s) = explode_loop ch None (cur ++ x) s.
Proof.
  induction 1 as [|c x C D H IH|q e x Q I H IH]; intros cur s.
  - now rewrite app_nil_r.
  - cbn [app explode_loop]. rewrite C. destruct (N.eqb_spec c ch); [contradiction|]. cbn [andb]. rewrite IH, <- app_assoc. reflexivity.
  - cbn [app explode_loop]. rewrite Q. cbn [flip]. rewrite <- app_assoc. cbn [app].
    assert (E : forall e cur, ~ In q e -> explode_loop ch (Some q) cur (e ++ q :: x ++ s) = explode_loop ch None (cur ++ e ++ [q]) (x ++ s)).
    { clear I IH cur. intros e0. induction e0 as [|c e0 IH]; intros cur I; cbn [app explode_loop].
      - rewrite Q. cbn [flip]. now rewrite N.eqb_refl.
      - assert (D : c <> q) by (intros ->; apply I; now left). assert (I' : ~ In q e0) by (intros F; apply I; now right). specialize (IH (cur ++ [c]) I').
        rewrite <- app_assoc in IH. cbn [app] in IH. destruct (is_quote c).
        + cbn [flip]. destruct (N.eqb_spec c q); [contradiction|]. exact IH.
        + rewrite andb_false_r. exact IH. }
    rewrite E by auto. rewrite IH, <- !app_assoc. cbn [app]. rewrite <- ?app_assoc. reflexivity.
Qed.

(** ** Attributes *)

(** One attribute as written. *)
Record piece := { p_w : list N; p_k : list N; p_w1 : list N; p_w2 : list N; p_q : N; p_e : list N; p_v : list N }.
Definition quoted (p : piece) : list N := p_q p :: p_e p ++ [p_q p].
Definition p_core (p : piece) : list N := p_k p ++ p_w1 p ++ [61] ++ p_w2 p ++ quoted p.
Definition p_text (p : piece) : list N := p_w p ++ p_core p.
Definition p_short (p : piece) : list N := p_k p ++ [61] ++ quoted p.
Record okp (p : piece) : Prop := { o_w : spaces (p_w p); o_wn : p_w p <> []; o_k : name (p_k p); o_w1 : spaces (p_w1 p); o_w2 : spaces (p_w2 p);
  o_q : is_quote (p_q p) = true; o_e : ~ In (p_q p) (p_e p); o_v : Stands attribute_known (p_e p) (p_v p) }.

Lemma attrs_pieces a s : Attrs a s -> exists ps w, Forall okp ps /\ spaces w /\ s = concat (map p_text ps) ++ w /\ a = map (fun p => (p_k p, p_v p)) ps.
Proof.
  induction 1 as [w W|k v a w w1 w2 q e s W WN K W1 W2 Q I V H (ps & w' & P & W' & -> & ->)].
  - exists [], w. repeat split; auto.
  - exists ({| p_w := w; p_k := k; p_w1 := w1; p_w2 := w2; p_q := q; p_e := e; p_v := v |} :: ps), w'. split; [|split; [auto|split; [|reflexivity]]].
    + constructor; auto. constructor; cbn; auto. unfold is_quote. lia.
    + cbn [map concat p_text p_w]. unfold p_text, p_core, quoted. cbn [p_w p_k p_w1 p_w2 p_q p_e]. rewrite <- !app_assoc. cbn [app]. rewrite <- ?app_assoc. cbn [app]. reflexivity.
Qed.

Lemma strip_quoted q e s req : strip_loop (Some q) req (e ++ q :: s) = e ++ q :: strip_loop None req s \/ In q e.
Proof.
  induction e as [|c e IH]; cbn [app strip_loop].
  - left. now rewrite N.eqb_refl.
  - destruct (N.eqb_spec c q) as [->|D]; [right; now left|]. destruct IH as [-> |I]; [now left|right; now right].
Qed.
Lemma strip_name n req s : Forall name_char n -> strip_loop None req (n ++ s) = match n with [] => strip_loop None req s | _ => asked req ++ n ++ strip_loop None RNone s end.
Proof.
  intros H. revert req. induction H as [|c n C _ IH]; intros req; [reflexivity|]. cbn [app strip_loop].
  rewrite name_noquote, isspace_not by (auto; apply C). nc C. destruct (N.eqb_spec c 61); [lia|]. rewrite IH. destruct n; reflexivity.
Qed.
Lemma strip_spaces w req s : spaces w -> strip_loop None req (w ++ s) = strip_loop None (match w with [] => req | _ => match req with RNever => RNever | _ => RSpace end end) s.
Proof.
  intros H. revert req. induction H as [|c w C _ IH]; intros req; [reflexivity|]. cbn [app strip_loop].
  rewrite space_noquote, (proj2 (isspace_iff c)) by auto. rewrite IH. destruct w, req; reflexivity.
Qed.
Lemma strip_core p req s : okp p -> strip_loop None req (p_core p ++ s) = asked req ++ p_short p ++ strip_loop None RNone s.
Proof.
  intros [W WN [KN K] W1 W2 Q I _]. unfold p_core, p_short, quoted. rewrite <- !app_assoc, strip_name by auto. destruct (p_k p) as [|c k]; [congruence|].
  f_equal. f_equal. rewrite strip_spaces by auto. cbn [app strip_loop]. change (is_quote 61) with false. change (chr_isspace 61) with false. change (61 =? 61) with true. cbn iota.
  f_equal. rewrite strip_spaces by auto.
  assert (E : (match p_w2 p with [] => RNever | _ :: _ => RNever end) = RNever) by (destruct (p_w2 p); reflexivity). rewrite E.
  cbn [app strip_loop asked]. rewrite Q. cbn [app]. f_equal. rewrite <- !app_assoc. cbn [app]. destruct (strip_quoted (p_q p) (p_e p) s RNone) as [-> |F]; [reflexivity|contradiction].
Qed.
(** The pieces with one space between. *)
Fixpoint joined (ps : list piece) : list N := match ps with [] => [] | p :: ps' => 32 :: p_short p ++ joined ps' end.
Lemma strip_pieces ps : Forall okp ps -> strip_loop None RNone (concat (map p_text ps)) = joined ps.
Proof.
  induction 1 as [|p ps P _ IH]; [reflexivity|]. cbn [map concat joined]. unfold p_text at 1. rewrite <- app_assoc, strip_spaces by apply P.
  destruct (p_w p) eqn:E; [exfalso; now apply (o_wn p P)|]. rewrite strip_core, IH by auto. reflexivity.
Qed.
Lemma balanced_short ch p : okp p -> ~ name_char ch -> ch <> 61 -> Balanced ch (p_short p).
Proof.
  intros P C D. unfold p_short, quoted. apply balanced_app; [apply balanced_name; [auto|apply P]|]. cbn [app]. apply B_chr; [reflexivity|auto|]. apply B_quo; [apply P|apply P|constructor].
Qed.
Lemma explode_pieces ps : Forall okp ps -> forall p, okp p -> explode 32 (p_short p ++ joined ps) = p_short p :: map p_short ps.
Proof.
  intros H. unfold explode. induction H as [|x ps X H IH]; intros p P; cbn [joined map].
  - rewrite explode_skip; [reflexivity|]. apply balanced_short; auto; [|discriminate]. intros [F _]. apply F. now left.
  - rewrite explode_skip by (apply balanced_short; auto; [|discriminate]; intros [F _]; apply F; now left). cbn [app explode_loop]. change (is_quote 32) with false. cbn iota. change ((32 =? 32) && true) with true. cbn iota.
    f_equal. now apply IH.
Qed.
Lemma explode_piece p : okp p -> explode 61 (p_short p) = [p_k p; quoted p].
Proof.
  intros P. unfold explode, p_short. rewrite explode_skip by (apply balanced_name; [|apply P]; intros [_ F]; apply F; cbn; tauto). cbn [app explode_loop]. change (is_quote 61) with false. cbn iota.
  change ((61 =? 61) && true) with true. cbn iota. f_equal. assert (B : Balanced 61 (quoted p)) by (unfold quoted; apply B_quo; [apply P|apply P|constructor]).
  pose proof (explode_skip 61 (quoted p) B [] []) as X. rewrite app_nil_r in X. unfold quoted in *. cbn [app] in X. rewrite X. reflexivity.
Qed.
Lemma strip_quotes_quoted p : okp p -> strip_quotes (quoted p) = Some (p_e p).
Proof.
  intros P. unfold strip_quotes, quoted. rewrite (o_q p P). change (p_q p :: p_e p ++ [p_q p]) with ((p_q p :: p_e p) ++ [p_q p]) at 1. rewrite last_last, N.eqb_refl. cbn [andb]. now rewrite removelast_last.
Qed.
Lemma strip_quotes_name n : name n -> strip_quotes n = None.
Proof. intros H. destruct (name_hd n H) as (c & r & -> & C). unfold strip_quotes. now rewrite name_noquote. Qed.

(** ** Decoding: a text stands for one string only *)
Lemma nocase_map a b : nocase a b -> map low a = map low b.
Proof. induction 1; cbn [map]; congruence. Qed.
Lemma refs_unique c1 e1 f1 c2 e2 f2 t1 t2 : text_known c1 e1 -> nocase f1 e1 -> text_known c2 e2 -> nocase f2 e2 -> f1 ++ t1 = f2 ++ t2 -> c1 = c2 /\ t1 = t2.
Proof.
  intros K1 N1 K2 N2 E.
  assert (M : c1 = c2 /\ e1 = e2).
  { apply nocase_map in N1. apply nocase_map in N2. apply (f_equal (map low)) in E. rewrite !map_app, N1, N2 in E. clear N1 N2.
    unfold text_known, reference, char_reference in K1, K2.
    repeat (destruct K1 as [K1|K1] || (destruct K1 as [-> ->])); repeat (destruct K2 as [K2|K2] || (destruct K2 as [-> ->]));
    first [split; reflexivity|exfalso; cbn in E; congruence]. }
  destruct M as [-> ->]. split; [reflexivity|]. apply Forall2_length in N1. apply Forall2_length in N2.
  assert (L : length f1 = length f2) by congruence. clear - E L. revert f2 E L. induction f1 as [|x f1 IH]; intros [|y f2] E L; try discriminate; auto.
  injection E as _ E. injection L as L. eauto.
Qed.
Lemma stands_det (k : N -> list N -> Prop) : (forall c e, k c e -> text_known c e) -> forall t s, Stands k t s -> forall s', Stands k t s' -> s = s'.
Proof.
  intros K t s H. induction H as [|c e e' t s Ke Nc H IH|c t s Hn H IH]; intros v V.
  - inversion V as [|c e e' t0 s0 Ke Nc H0 He|]; subst; auto. destruct (known_cases _ _ (K _ _ Ke)) as (l & ->). apply nocase_hd in Nc. destruct Nc as (l' & ->). discriminate He.
  - remember (e' ++ t) as x eqn:X. destruct V as [|c2 e2 f2 t2 s2 K2 N2 V|c2 t2 s2 Hn V].
    + destruct (known_cases _ _ (K _ _ Ke)) as (l & ->). apply nocase_hd in Nc. destruct Nc as (l' & ->). discriminate X.
    + symmetry in X. destruct (refs_unique c e e' c2 e2 f2 t t2 (K _ _ Ke) Nc (K _ _ K2) N2 X) as [<- <-]. f_equal. auto.
    + exfalso. eapply Hn; eauto.
  - remember (c :: t) as x eqn:X. destruct V as [|c2 e2 f2 t2 s2 K2 N2 V|c2 t2 s2 Hn2 V]; [discriminate X| |].
    + exfalso. exact (Hn _ _ _ _ K2 N2 eq_refl).
    + injection X as -> ->. f_equal. auto.
Qed.
Lemma stands_nonul (k : N -> list N -> Prop) t s : (forall c e, k c e -> text_known c e) -> Stands k t s -> no_nul t -> no_nul s.
Proof.
  intros K H. induction H as [|c e e' t s Ke Nc H IH|c t s Hn H IH]; intros X; [constructor| |].
  - apply no_nul_app in X. constructor; [|now apply IH]. apply K in Ke. unfold text_known, reference, char_reference in Ke. lia.
  - inversion X; subst. constructor; auto. now apply IH.
Qed.
Lemma attribute_text c e : attribute_known c e -> text_known c e.
Proof. intros [_ H]. now left. Qed.
Lemma decode_attr g e v : plain e -> N.of_nat (length e) < 2 ^ 31 -> Stands attribute_known e v ->
  xml_attribute_decode (e ++ [0]) (length e) g = Ok v /\ no_nul v.
Proof.
  intros [N B] L H. destruct (proj2 (xml_decode_correct e [] g N B L)) as (v' & E & V & _).
  assert (v' = v) by exact (stands_det attribute_known attribute_text e v' V v H). subst v'. split; auto. exact (stands_nonul attribute_known e v attribute_text H N).
Qed.
Lemma decode_text g e v : plain e -> N.of_nat (length e) < 2 ^ 31 -> Stands text_known e v ->
  xml_entities_decode (e ++ [0]) (length e) g = Ok v /\ no_nul v.
Proof.
  intros [N B] L H. destruct (proj1 (xml_decode_correct e [] g N B L)) as (v' & E & V & _).
  assert (v' = v) by exact (stands_det text_known (fun _ _ K => K) e v' V v H). subst v'. split; auto. exact (stands_nonul text_known e v (fun _ _ K => K) H N).
Qed.

Lemma plain_app a b : plain (a ++ b) <-> plain a /\ plain b.
Proof. unfold plain, is_bytes. rewrite no_nul_app, Forall_app. tauto. Qed.
Lemma attr_get_none a k : (forall k' v, In (k', v) a -> ~ nocase k' k) -> attr_get a k = None.
Proof.
  intros H. unfold attr_get. destruct (find _ a) as [[k' v]|] eqn:F; [|reflexivity]. apply find_some in F. destruct F as [I C]. apply caseeqb_iff in C. exfalso. eapply H; eauto.
Qed.
Lemma distinct_app x y : distinct (x ++ y) -> forall a b, In a x -> In b y -> ~ nocase (fst a) (fst b).
Proof.
  induction x as [|c x IH]; intros D a b A B; [destruct A|]. cbn [app] in D. inversion D as [|? ? F D']; subst. destruct A as [-> |A].
  - rewrite Forall_forall in F. apply F. apply in_or_app. now right.
  - eapply IH; eauto.
Qed.
Lemma read_pairs_ok g fl ps : r_raw_attrs fl = false -> Forall okp ps -> Forall (fun p => plain (p_e p) /\ N.of_nat (length (p_e p)) < 2 ^ 31) ps -> forall a,
  distinct (a ++ map (fun p => (p_k p, p_v p)) ps) ->
  read_pairs g fl (map p_short ps) a = Ok (Some (a ++ map (fun p => (p_k p, p_v p)) ps)).
Proof.
  intros R H. induction H as [|p ps P H IH]; intros L a D; cbn [map read_pairs]; [now rewrite app_nil_r|]. inversion L as [|? ? [PE LE] L']; subst.
  rewrite explode_piece by auto. cbn [hd]. rewrite (strip_quotes_name (p_k p)) by apply P. rewrite strip_quotes_quoted by auto. rewrite R.
  destruct (decode_attr g (p_e p) (p_v p) PE LE (o_v p P)) as [E NV]. rewrite E. cbn [bind]. rewrite cstr_id by auto. unfold insert_attribute.
  destruct (name_hd _ (o_k p P)) as (c & r & EK & _). rewrite EK at 1. cbn [is_nil].
  rewrite attr_get_none.
  - rewrite (IH L' (a ++ [(p_k p, p_v p)])); rewrite <- app_assoc; [reflexivity|exact D].
  - intros k' v I. change (p_k p) with (fst (p_k p, p_v p)). change k' with (fst (k', v)). eapply distinct_app; [exact D|exact I|now left].
Qed.

Lemma core_tight ps p : okp p -> Forall okp ps -> tight (p_core p ++ concat (map p_text ps)).
Proof.
  intros P H. split.
  - intros c r E. destruct (name_hd _ (o_k p P)) as (c' & r' & EK & [C _]). unfold p_core in E. rewrite EK in E. cbn [app] in E. injection E as <- _. exact C.
  - intros r c E. assert (X : exists y q, p_core p ++ concat (map p_text ps) = y ++ [q] /\ is_quote q = true).
    { clear E. revert p P. induction H as [|x ps X H IH]; intros p P.
      - exists (p_k p ++ p_w1 p ++ [61] ++ p_w2 p ++ p_q p :: p_e p), (p_q p). split; [|apply P]. unfold p_core, quoted. cbn [map concat]. rewrite app_nil_r, <- !app_assoc. cbn [app]. rewrite <- ?app_assoc. reflexivity.
      - destruct (IH x X) as (y & q & E & Q). exists (p_core p ++ p_w x ++ y), q. split; auto. cbn [map concat]. unfold p_text at 1. rewrite <- !app_assoc. now rewrite E. }
    destruct X as (y & q & E' & Q). rewrite E' in E. apply app_inj_tail in E. destruct E as [_ <-]. intros F. apply space_noquote in F. congruence.
Qed.
Lemma joined_nonul ps w : no_nul (concat (map p_text ps) ++ w) -> no_nul (joined ps).
Proof.
  intros H. apply no_nul_app in H. destruct H as [H _]. induction ps as [|p ps IH]; [constructor|]. cbn [map concat joined] in *. apply no_nul_app in H. destruct H as [H1 H2].
  constructor; [discriminate|]. apply no_nul_app. split; [|auto]. unfold p_text, p_core, p_short in *. rewrite !no_nul_app in *. tauto.
Qed.
Lemma read_attributes_ok g fl a s : r_raw_attrs fl = false -> Attrs a s -> distinct a -> plain s -> N.of_nat (length s) < 2 ^ 31 ->
  read_attributes g fl s = Ok (Some a).
Proof.
  intros R A D PL L. destruct (attrs_pieces a s A) as (ps & w & P & W & Es & Ea). unfold read_attributes, strip_extra.
  destruct ps as [|p ps].
  - cbn in Es. subst s a. now rewrite drop_space_spaces by auto.
  - inversion P as [|? ? Pp Ps]; subst s. set (co := p_core p ++ concat (map p_text ps)).
    assert (ES : concat (map p_text (p :: ps)) ++ w = p_w p ++ co ++ w) by (cbn [map concat]; unfold p_text at 1; unfold co; now rewrite <- !app_assoc). rewrite ES.
    assert (TC : tight co) by (now apply core_tight).
    rewrite trim_tight by (auto; apply Pp). rewrite drop_space_app by apply Pp.
    assert (E : strip_loop None RNone co = p_short p ++ joined ps) by (unfold co; rewrite strip_core, strip_pieces by auto; reflexivity). rewrite E.
    assert (NJ : no_nul (p_short p ++ joined ps)).
    { destruct PL as [NU _]. apply joined_nonul in NU. cbn [joined] in NU. now inversion NU. }
    assert (DS : exists c r, drop_space (co ++ w) = c :: r).
    { destruct (name_hd _ (o_k p Pp)) as (c & r & EK & [C _]). unfold co, p_core. rewrite EK. cbn [app]. rewrite drop_space_stop by auto. eauto. }
    destruct DS as (c & r & ->). rewrite (cstr_id _ NJ), explode_pieces by auto. change (p_short p :: map p_short ps) with (map p_short (p :: ps)). rewrite read_pairs_ok; [now rewrite Ea|auto|auto| |now rewrite <- Ea].
    apply Forall_forall. intros y Y.
    assert (SP : exists u v, concat (map p_text (p :: ps)) ++ w = u ++ p_e y ++ v).
    { apply in_split in Y. destruct Y as (l1 & l2 & ->). rewrite map_app, concat_app. cbn [map concat]. unfold p_text at 2. unfold p_core, quoted.
      exists (concat (map p_text l1) ++ p_w y ++ p_k y ++ p_w1 y ++ [61] ++ p_w2 y ++ [p_q y]), ([p_q y] ++ concat (map p_text l2) ++ w). rewrite <- !app_assoc. cbn [app]. rewrite <- ?app_assoc. cbn [app]. rewrite <- ?app_assoc. reflexivity. }
    destruct SP as (u & v & SP). rewrite SP in PL, L. apply plain_app in PL. destruct PL as [_ PL]. apply plain_app in PL. split; [apply PL|]. rewrite !app_length in L. lia.
Qed.

(** ** Tags *)

Lemma rev_case_or {A} (l : list A) : l = [] \/ exists l' x, l = l' ++ [x].
Proof. destruct l as [|y l]; [now left|]. right. destruct (exists_last (l := y :: l)) as (l' & x & E); [discriminate|eauto]. Qed.
Lemma balanced_attrs a s : Attrs a s -> Balanced 62 s.
Proof.
  induction 1 as [w W|k v a w w1 w2 q e s W WN K W1 W2 Q I V H IH]; [apply balanced_spaces; auto; unfold space; lia|].
  apply balanced_app; [apply balanced_spaces; auto; unfold space; lia|]. apply balanced_app; [apply balanced_name; auto; intros [_ F]; apply F; cbn; tauto|].
  apply balanced_app; [apply balanced_spaces; auto; unfold space; lia|]. cbn [app]. apply B_chr; [reflexivity|discriminate|].
  apply balanced_app; [apply balanced_spaces; auto; unfold space; lia|]. apply B_quo; auto. unfold is_quote. lia.
Qed.
Definition blank_hd (s : list N) : Prop := s = [] \/ exists c r, s = c :: r /\ space c.
Lemma spaces_hd w : spaces w -> blank_hd w.
Proof. intros H. destruct H as [|c w C _]; [now left|right; eauto]. Qed.
Lemma attrs_hd a s : Attrs a s -> blank_hd s.
Proof.
  intros [w W|k v a' w w1 w2 q e s' W WN K W1 W2 Q I V H]; [now apply spaces_hd|]. destruct W as [|c w C _]; [congruence|]. right. cbn [app]. eauto.
Qed.
Lemma take_nospace_name n s : name n -> blank_hd s -> take_nospace (n ++ s) = n.
Proof.
  intros [_ H] B. induction H as [|c n [C _] _ IH].
  - cbn [app]. destruct B as [-> |(c & r & -> & C)]; [reflexivity|]. cbn [take_nospace]. apply isspace_iff in C. now rewrite C.
  - cbn [app take_nospace]. rewrite isspace_not, IH by auto. reflexivity.
Qed.
(** The last character of a tag that is not white space. *)
Lemma attrs_last n a s : name n -> Attrs a s -> exists x c w, n ++ s = x ++ c :: w /\ spaces w /\ ~ space c /\ c <> 47 /\ c <> 63.
Proof.
  intros NM A. destruct (attrs_pieces a s A) as (ps & w & P & W & -> & _). destruct (rev_case_or ps) as [-> |(l & p & ->)].
  - cbn [map concat app]. destruct NM as [NN F]. destruct (exists_last NN) as (x & c & ->). apply Forall_app in F. destruct F as [_ F]. inversion F as [|? ? [C D] _]; subst.
    exists x, c, w. rewrite <- app_assoc. cbn in D. repeat split; auto; lia.
  - apply Forall_app in P. destruct P as [_ P]. inversion P as [|? ? Pp _]; subst. rewrite map_app, concat_app. cbn [map concat]. rewrite app_nil_r. unfold p_text at 2. unfold p_core, quoted.
    exists (n ++ concat (map p_text l) ++ p_w p ++ p_k p ++ p_w1 p ++ [61] ++ p_w2 p ++ p_q p :: p_e p), (p_q p), w.
    rewrite <- !app_assoc. cbn [app]. rewrite <- ?app_assoc. cbn [app]. rewrite <- ?app_assoc. split; [reflexivity|]. split; [exact W|].
    pose proof (o_q p Pp) as Q. unfold is_quote in Q. unfold space. lia.
Qed.
Lemma find_nonws_rev_ok x c w ch : spaces w -> ~ space c -> find_nonws_rev (x ++ c :: w) ch = if c =? ch then Some (length x) else None.
Proof.
  intros W C. unfold find_nonws_rev. change (c :: w) with ([c] ++ w). rewrite app_assoc, !rev_app_distr, drop_space_app by now apply spaces_rev. cbn [rev app]. rewrite drop_space_stop by auto. now rewrite rev_length.
Qed.

Lemma tag_rest_named p ty n b m used ty' : p = n ++ b ++ m -> name n -> blank_hd b -> tag_end p ty = inr ((length n + length b)%nat, used, ty') -> ty' <> TCdata -> ty' <> TComment ->
  tag_rest p ty = inr {| t_name := n; t_type := ty'; t_body := b; t_after := b ++ m; t_rest := skipn used p |}.
Proof.
  intros -> NM B E C1 C2. unfold tag_rest. rewrite E.
  assert (F : firstn (length n + length b) (n ++ b ++ m) = n ++ b) by (rewrite app_assoc; apply firstn_len; now rewrite app_length).
  rewrite F, take_nospace_name by auto. destruct (name_hd n NM) as (c & r & En & _).
  assert (G : skipn (length (cstr n)) (n ++ b ++ m) = b ++ m) by (rewrite cstr_id by (now apply name_nonul); now apply skipn_len).
  assert (G' : firstn (length n + length b - length (cstr n)) (b ++ m) = b) by (rewrite cstr_id by (now apply name_nonul); apply firstn_len; lia).
  destruct ty'; try congruence; rewrite En at 1; cbn iota; rewrite <- En; rewrite G, G', cstr_id by (now apply name_nonul); reflexivity.
Qed.
Lemma attrs_nonws n a s ch : name n -> Attrs a s -> ch = 47 \/ ch = 63 -> find_nonws_rev (n ++ s) ch = None.
Proof. intros NM A H. destruct (attrs_last n a s NM A) as (x & c & w & -> & W & C & C1 & C2). rewrite find_nonws_rev_ok by auto. destruct (N.eqb_spec c ch); [lia|reflexivity]. Qed.
Lemma balanced_tag n a s : name n -> Attrs a s -> Balanced 62 (n ++ s).
Proof. intros NM A. apply balanced_app; [apply balanced_name; auto; intros [_ F]; apply F; cbn; tauto|eapply balanced_attrs; eauto]. Qed.
Lemma tag_start n a s r : name n -> Attrs a s -> tag_rest (n ++ s ++ 62 :: r) TStart = inr {| t_name := n; t_type := TStart; t_body := s; t_after := s ++ 62 :: r; t_rest := r |}.
Proof.
  intros NM A. rewrite (tag_rest_named _ _ n s (62 :: r) (length (n ++ s) + 1) TStart); auto; try discriminate.
  - f_equal. f_equal. change (62 :: r) with ([62] ++ r). rewrite !app_assoc. apply skipn_len. now rewrite (app_length (n ++ s)).
  - eapply attrs_hd; eauto.
  - unfold tag_end. rewrite app_assoc, find_unquoted_skip by (eapply balanced_tag; eauto). cbn [find_unquoted]. change (is_quote 62) with false. change ((62 =? 62) && true) with true. cbn [shift option_map]. rewrite Nat.add_0_r.
    rewrite firstn_len by reflexivity. rewrite (attrs_nonws n a) by auto. rewrite app_length. reflexivity.
Qed.
Lemma tag_closed n a s r ch ty ty' : name n -> Attrs a s -> (ch = 47 /\ ty = TStart /\ ty' = TEmpty \/ ch = 63 /\ ty = TPi /\ ty' = TPi) ->
  tag_rest (n ++ s ++ ch :: 62 :: r) ty = inr {| t_name := n; t_type := ty'; t_body := s; t_after := s ++ ch :: 62 :: r; t_rest := r |}.
Proof.
  intros NM A H. rewrite (tag_rest_named _ _ n s (ch :: 62 :: r) (length (n ++ s ++ [ch]) + 1) ty'); auto.
  - f_equal. f_equal. change (ch :: 62 :: r) with ([ch] ++ [62] ++ r). rewrite !app_assoc. apply skipn_len. rewrite !app_length. reflexivity.
  - eapply attrs_hd; eauto.
  - assert (B : Balanced 62 (n ++ s ++ [ch])).
    { rewrite app_assoc. apply balanced_app; [eapply balanced_tag; eauto|]. apply balanced_plain. constructor; [|constructor]. unfold is_quote. lia. }
    unfold tag_end. replace (n ++ s ++ ch :: 62 :: r) with ((n ++ s ++ [ch]) ++ 62 :: r) by (rewrite <- !app_assoc; reflexivity).
    assert (FU : find_unquoted None ((n ++ s ++ [ch]) ++ 62 :: r) 62 = Some (length (n ++ s ++ [ch]))).
    { rewrite find_unquoted_skip by exact B. cbn [find_unquoted]. change (is_quote 62) with false. change ((62 =? 62) && true) with true. cbn [shift option_map]. now rewrite Nat.add_0_r. }
    assert (FN : find_nonws_rev (firstn (length (n ++ s ++ [ch])) ((n ++ s ++ [ch]) ++ 62 :: r)) ch = Some (length n + length s)%nat).
    { rewrite firstn_len by reflexivity. rewrite app_assoc, find_nonws_rev_ok, N.eqb_refl, app_length; [reflexivity|constructor|]. unfold space. lia. }
    destruct H as [(-> & -> & ->)|(-> & -> & ->)]; rewrite FU, FN; reflexivity.
  - destruct H as [(_ & _ & ->)|(_ & _ & ->)]; discriminate.
  - destruct H as [(_ & _ & ->)|(_ & _ & ->)]; discriminate.
Qed.
Lemma tag_close n w r : name n -> spaces w -> tag_rest (n ++ w ++ 62 :: r) TEnd = inr {| t_name := n; t_type := TEnd; t_body := w; t_after := w ++ 62 :: r; t_rest := r |}.
Proof.
  intros NM W. rewrite (tag_rest_named _ _ n w (62 :: r) (length (n ++ w) + 1) TEnd); auto; try discriminate.
  - f_equal. f_equal. change (62 :: r) with ([62] ++ r). rewrite !app_assoc. apply skipn_len. now rewrite (app_length (n ++ w)).
  - now apply spaces_hd.
  - unfold tag_end. rewrite app_assoc, find_unquoted_skip by (apply (balanced_tag n []); auto; now constructor). cbn [find_unquoted]. change (is_quote 62) with false. change ((62 =? 62) && true) with true. cbn [shift option_map]. rewrite Nat.add_0_r.
    rewrite app_length. reflexivity.
Qed.

Lemma prefixb_iff p s : prefixb p s = true <-> exists y, s = p ++ y.
Proof.
  revert s. induction p as [|a p IH]; intros s; cbn [prefixb]; [split; [intros _; now exists s|reflexivity]|]. destruct s as [|b s]; [split; [intros F; discriminate F|intros (y & F); discriminate F]|].
  rewrite andb_true_iff, IH, N.eqb_eq. split; [intros [-> (y & ->)]; now exists y|intros (y & E); injection E as -> ->; split; eauto].
Qed.
Lemma app_prefix {A} (a b c d : list A) : a ++ b = c ++ d -> (length c <= length a)%nat -> exists y, a = c ++ y.
Proof.
  revert a. induction c as [|x c IH]; intros [|z a] E L; cbn in *; try lia; eauto. injection E as -> E. destruct (IH a E) as (y & ->); [lia|]. now exists y.
Qed.
Lemma find_sub_ok m c e r : ends_at e m c -> find_sub (m ++ [c]) (e ++ m ++ [c] ++ r) = Some (length e).
Proof.
  induction e as [|x e IH]; intros E.
  - cbn [app length]. assert (P : prefixb (m ++ [c]) (m ++ c :: r) = true) by (apply prefixb_iff; exists r; now rewrite <- app_assoc).
    destruct (m ++ c :: r) eqn:X; cbn [find_sub]; rewrite P; reflexivity.
  - cbn [app length find_sub]. destruct (prefixb (m ++ [c]) (x :: e ++ m ++ c :: r)) eqn:P.
    + exfalso. apply prefixb_iff in P. destruct P as (y & P). change (x :: e ++ m ++ c :: r) with ((x :: e) ++ m ++ c :: r) in P. rewrite app_assoc in P.
      destruct (app_prefix _ _ _ _ P) as (z & Z); [rewrite !app_length; cbn [length]; lia|]. apply (E [] z). rewrite Z, <- app_assoc. reflexivity.
    + change (m ++ c :: r) with (m ++ [c] ++ r). rewrite IH; [reflexivity|]. intros a b X. apply (E (x :: a) b). cbn [app]. f_equal. exact X.
Qed.
Lemma tag_comment e r : ends_at e [45; 45] 62 -> tag_rest (e ++ [45; 45; 62] ++ r) TComment = inr {| t_name := []; t_type := TComment; t_body := e; t_after := e ++ [45; 45; 62] ++ r; t_rest := r |}.
Proof.
  intros E. unfold tag_rest, tag_end. change [45; 45; 62] with ([45; 45] ++ [62]) at 1. change (e ++ [45; 45; 62] ++ r) with (e ++ [45; 45] ++ [62] ++ r). rewrite find_sub_ok by auto.
  rewrite firstn_len by reflexivity. f_equal. f_equal. change ([45; 45] ++ [62] ++ r) with ([45; 45; 62] ++ r). rewrite app_assoc. apply skipn_len. rewrite app_length. reflexivity.
Qed.
Lemma tag_cdata e r : ends_at e [93; 93] 62 -> tag_rest (e ++ [93; 93; 62] ++ r) TCdata = inr {| t_name := []; t_type := TCdata; t_body := e; t_after := e ++ [93; 93; 62] ++ r; t_rest := r |}.
Proof.
  intros E. unfold tag_rest, tag_end. change [93; 93; 62] with ([93; 93] ++ [62]) at 1. change (e ++ [93; 93; 62] ++ r) with (e ++ [93; 93] ++ [62] ++ r). rewrite find_sub_ok by auto.
  rewrite firstn_len by reflexivity. f_equal. f_equal. change ([93; 93] ++ [62] ++ r) with ([93; 93; 62] ++ r). rewrite app_assoc. apply skipn_len. rewrite app_length. reflexivity.
Qed.

Lemma info_named n t : name n -> tag_info (60 :: n ++ t) = tag_rest (n ++ t) TStart /\ tag_info (60 :: 47 :: n ++ t) = tag_rest (n ++ t) TEnd /\ tag_info (60 :: 63 :: n ++ t) = tag_rest (n ++ t) TPi.
Proof.
  intros NM. destruct (name_hd n NM) as (c & r & -> & C). pose proof (proj2 C) as D. cbn [In] in D. destruct C as [C _].
  assert (F : forall k, In k [47; 63; 60; 33] -> (c =? k) = false) by (intros k K; apply N.eqb_neq; cbn in K; lia).
  cbn [app]. unfold tag_info. split; [|split].
  - rewrite drop_space_stop by auto. rewrite !F by (cbn; tauto). reflexivity.
  - rewrite (drop_space_stop 47) by (unfold space; lia). change (47 =? 47) with true. cbn iota. now rewrite drop_space_stop.
  - rewrite (drop_space_stop 63) by (unfold space; lia). change (63 =? 47) with false. change (63 =? 63) with true. cbn iota. now rewrite drop_space_stop.
Qed.
Lemma info_comment t : tag_info ([60; 33; 45; 45] ++ t) = tag_rest t TComment.
Proof. reflexivity. Qed.
Lemma info_cdata t : tag_info ([60; 33; 91; 67; 68; 65; 84; 65; 91] ++ t) = tag_rest t TCdata.
Proof. reflexivity. Qed.

(** ** CDATA *)

Lemma decode_plain ents z : forall n s pre out rest, ~ In 38 s -> (length s < n)%nat -> (length out <= length pre)%nat -> (length s < length rest)%nat -> N.of_nat (length pre + length s) <= int_max ->
  exists rest', (1 <= length rest')%nat /\
    decode_loop ents n (pre ++ s ++ z) (length pre + length s) (length pre) (out ++ rest) (N.of_nat (length out)) = Ok ((out ++ s) ++ rest', N.of_nat (length out + length s)).
Proof.
  induction n as [|n IH]; intros s pre out rest NA Hn Ho Hr Hi; [lia|]. cbn [decode_loop]. destruct s as [|c s].
  - exists rest. cbn [length] in *. split; [lia|]. rewrite (proj2 (Nat.ltb_ge _ _)) by lia. now rewrite app_nil_r, Nat.add_0_r.
  - cbn [length] in *. rewrite (proj2 (Nat.ltb_lt _ _)) by lia. cbn [app]. rewrite rd_app_mid. cbn [bind]. destruct rest as [|x rest]; [cbn in Hr; lia|].
    destruct (N.eqb_spec c 38) as [-> |]; [exfalso; apply NA; now left|]. cbn [bind]. rewrite put_ok by lia. cbn [bind].
    destruct (IH s (pre ++ [c]) (out ++ [c]) rest) as (rest' & L & E).
    + intros F. apply NA. now right.
    + lia.
    + rewrite !app_length. cbn [length]. lia.
    + cbn [length] in Hr. lia.
    + rewrite app_length. cbn [length]. lia.
    + exists rest'. split; [exact L|]. rewrite !app_length in E. cbn [length] in E. rewrite <- !app_assoc in E. cbn [app] in E. rewrite <- !app_assoc. cbn [app].
      replace (length pre + S (length s))%nat with (length pre + 1 + length s)%nat by lia. replace (S (length pre)) with (length pre + 1)%nat by lia.
      replace (N.of_nat (length out) + 1) with (N.of_nat (length out + 1)) by lia. replace (length out + S (length s))%nat with (length out + 1 + length s)%nat by lia. exact E.
Qed.
Lemma decode_cdata g s z : ~ In 38 s -> N.of_nat (length s) < 2 ^ 31 -> xml_entities_decode (s ++ z) (length s) g = Ok s.
Proof.
  intros NA L. change (2 ^ 31) with 2147483648 in L. unfold xml_entities_decode, decode_int.
  destruct (decode_plain decode_entities z (S (length s)) s [] [] (repeat g (S (length s)))) as (rest' & L' & E); auto; try (rewrite ?repeat_length; cbn [length]; unfold int_max; lia).
  cbn [app length Nat.add] in E. change (N.of_nat 0) with 0 in E. rewrite E. cbn [bind]. rewrite Nat2N.id. destruct rest' as [|x rest']; [cbn in L'; lia|]. rewrite wr_app_mid. cbn [bind]. now rewrite firstn_len.
Qed.

(** ** The reader on a document *)

Definition small (s : list N) : Prop := plain s /\ N.of_nat (length s) < 2 ^ 31.
Lemma small_app a b : small (a ++ b) -> small a /\ small b.
Proof. unfold small. rewrite plain_app, app_length. intros [[A B] L]. change (2 ^ 31) with 2147483648 in *. repeat split; try apply A; try apply B; lia. Qed.
Section Steps.
Variable g : N.
Variable fl : rflags.
Variable tl : list N.
Variable want : bool.
Hypothesis FC : r_ignore_comments fl = false.
Hypothesis FT : r_raw_text fl = false.
Hypothesis FA : r_raw_attrs fl = false.

Inductive steps : list N -> state -> list N -> state -> Prop :=
| st_refl : forall s st, steps s st s st
| st_step : forall c s st s2 st2 s3 st3, read_turn g fl tl want c s st = Ok (Next s2 st2) -> steps s2 st2 s3 st3 -> steps (c :: s) st s3 st3.
Lemma steps_trans s st s2 st2 s3 st3 : steps s st s2 st2 -> steps s2 st2 s3 st3 -> steps s st s3 st3.
Proof. induction 1; eauto using st_step. Qed.
Lemma steps_space s st : steps s st (drop_space s) st.
Proof.
  induction s as [|c s IH]; [constructor|]. cbn [drop_space]. destruct (chr_isspace c) eqn:E; [|constructor]. eapply st_step; [|exact IH]. unfold read_turn. now rewrite E.
Qed.
Lemma steps_spaces w s st : spaces w -> steps (w ++ s) st s st.
Proof.
  induction 1 as [|c w C _ IH]; [constructor|]. cbn [app]. eapply st_step; [|exact IH]. unfold read_turn. apply isspace_iff in C. now rewrite C.
Qed.
Definition live (st : state) : Prop := is_nil (s_open st) && existsb is_elem (s_doc st) = false.
Lemma turn_tag s st i st' : live st -> tag_info (60 :: s) = inr i -> tag_process g fl tl i st = Ok (inr st') -> steps (60 :: s) st (t_rest i) st'.
Proof.
  intros L I P. eapply st_step; [|constructor]. unfold read_turn. change (chr_isspace 60) with false. cbn iota. rewrite L. change (60 =? 60) with true. cbn iota. now rewrite I, P.
Qed.
Lemma live_open st : s_open st <> [] -> live st.
Proof. unfold live. destruct (s_open st); [congruence|reflexivity]. Qed.
Lemma add_child_open n st : s_open st <> [] -> s_open (add_child n st) <> [].
Proof. unfold add_child. destruct (s_open st) as [|[[? ?] ?] ?]; [congruence|discriminate]. Qed.
Definition add_all (l : list node) (st : state) : state := fold_left (fun st n => add_child n st) l st.
Lemma add_all_open l n a ch o d : add_all l {| s_open := (n, a, ch) :: o; s_doc := d |} = {| s_open := (n, a, rev l ++ ch) :: o; s_doc := d |}.
Proof. revert ch. induction l as [|x l IH]; intros ch; [reflexivity|]. unfold add_all in *. cbn [fold_left add_child s_open s_doc]. rewrite IH. cbn [rev]. now rewrite <- app_assoc. Qed.

Ltac split_small := repeat match goal with H : small (_ ++ _) |- _ => apply small_app in H; destruct H end.

Lemma name_nil n : name n -> is_nil n = false.
Proof. intros [H _]. now destruct n. Qed.

Lemma take_to_tag_ok e x : ~ In 60 e -> take_to_tag (e ++ 60 :: x) = e.
Proof. induction e as [|c e IH]; intros NI; [reflexivity|]. cbn [app take_to_tag]. destruct (N.eqb_spec c 60) as [-> |]; [exfalso; apply NI; now left|]. rewrite IH; [reflexivity|]. intros F. apply NI. now right. Qed.
Lemma spaces_not w c : spaces w -> ~ space c -> ~ In c w.
Proof. intros W C I. unfold spaces in W. rewrite Forall_forall in W. apply C. auto. Qed.

Lemma turn_text t e w x st : Textual t e -> spaces w -> small e -> s_open st <> [] -> steps (e ++ w ++ 60 :: x) st (60 :: x) (add_child (Text t) st).
Proof.
  intros (NE & T & N60 & V) W [PE LE] O. destruct (tight_cases e T) as [-> |[(c & r & E & C) _]]; [congruence|]. rewrite E. cbn [app]. eapply st_step; [|constructor].
  unfold read_turn. rewrite (isspace_not c) by auto. rewrite (live_open st O). assert (D : c <> 60) by (intros ->; apply N60; rewrite E; now left). destruct (N.eqb_spec c 60); [contradiction|].
  unfold read_text. change (c :: r ++ w ++ 60 :: x) with ((c :: r) ++ w ++ 60 :: x). rewrite <- E.
  assert (TT : take_to_tag (e ++ w ++ 60 :: x) = e ++ w). { rewrite app_assoc. apply take_to_tag_ok. rewrite in_app_iff. intros [F|F]; [auto|]. revert F. apply spaces_not; auto. unfold space. lia. }
  rewrite TT. assert (TR : trim (e ++ w) = e) by (change (e ++ w) with ([] ++ e ++ w); apply trim_tight; auto; constructor). rewrite TR, FT.
  destruct (decode_text g e t PE LE V) as [Dd NV]. rewrite Dd. cbn [bind]. rewrite (cstr_id t NV). rewrite app_assoc, skipn_len by reflexivity. reflexivity.
Qed.

Lemma markup_hd n s : Markup n s -> exists x, s = 60 :: x.
Proof. intros H. destruct H; cbn [app]; eauto. Qed.
Lemma content_true l c r : Content true l c -> exists w x, spaces w /\ c ++ 60 :: r = w ++ 60 :: x.
Proof.
  intros H. inversion H as [b w W|b w n s l' r' W M C|]; subst.
  - exists c, r. auto.
  - destruct (markup_hd n s M) as (x & ->). exists w, (x ++ r' ++ 60 :: r). split; auto. rewrite <- !app_assoc. reflexivity.
Qed.

Scheme markup_ind2 := Minimality for Markup Sort Prop with content_ind2 := Minimality for Content Sort Prop.
Combined Scheme markup_content_ind from markup_ind2, content_ind2.

Lemma read_markup :
  (forall n s, Markup n s -> forall r st, small s -> live st -> steps (s ++ r) st r (add_child n st)) /\
  (forall b l c, Content b l c -> forall r st, small c -> s_open st <> [] -> steps (drop_space (c ++ 60 :: r)) st (60 :: r) (add_all l st)).
Proof.
  apply markup_content_ind.
  - intros n a s NM A D r st SM L. split_small. rewrite <- !app_assoc. cbn [app].
    destruct (info_named n (s ++ 47 :: 62 :: r) NM) as (I & _). rewrite (tag_closed n a s r 47 TStart TEmpty) in I by auto. eapply turn_tag in I; eauto.
    unfold tag_process. cbn [t_type t_name t_body]. rewrite name_nil by auto. rewrite (read_attributes_ok g fl a s) by (auto; match goal with H : small s |- _ => apply H end). reflexivity.
  - intros n a s l c w NM A D C IH W r st SM L. split_small. rewrite <- !app_assoc. cbn [app].
    destruct (info_named n (s ++ 62 :: c ++ 60 :: 47 :: n ++ w ++ 62 :: r) NM) as (I & _). rewrite (tag_start n a s) in I by auto. eapply turn_tag in I; eauto.
    2: { unfold tag_process. cbn [t_type t_name t_body]. rewrite name_nil by auto. rewrite (read_attributes_ok g fl a s) by (auto; match goal with H : small s |- _ => apply H end). reflexivity. }
    cbn [t_rest] in I. eapply steps_trans; [exact I|]. clear I. eapply steps_trans; [apply steps_space|]. eapply steps_trans; [apply IH; auto; discriminate|]. rewrite add_all_open, app_nil_r.
    destruct (info_named n (w ++ 62 :: r) NM) as (_ & I & _). rewrite tag_close in I by auto. eapply turn_tag in I; [exact I|reflexivity|].
    unfold tag_process. cbn [t_type t_name s_open s_doc]. replace ((if r_casecmp fl then caseeqb else str_eqb) n n) with true by (destruct (r_casecmp fl); [now rewrite caseeqb_refl|now rewrite str_eqb_refl]).
    rewrite rev_involutive. destruct st; reflexivity.
  - intros n a s NM A D r st SM L. split_small. rewrite <- !app_assoc. cbn [app].
    destruct (info_named n (s ++ 63 :: 62 :: r) NM) as (_ & _ & I). rewrite (tag_closed n a s r 63 TPi TPi) in I by auto. eapply turn_tag in I; eauto.
    unfold tag_process. cbn [t_type t_name t_body]. rewrite name_nil by auto. rewrite (read_attributes_ok g fl a s) by (auto; match goal with H : small s |- _ => apply H end). reflexivity.
  - intros w t w' W T W' E r st SM L. split_small. rewrite <- !app_assoc.
    pose proof (info_comment (w ++ t ++ w' ++ [45; 45; 62] ++ r)) as I. replace (w ++ t ++ w' ++ [45; 45; 62] ++ r) with ((w ++ t ++ w') ++ [45; 45; 62] ++ r) in I by (now rewrite <- !app_assoc).
    rewrite tag_comment in I by auto. cbn [app] in I. eapply turn_tag in I; [rewrite <- !app_assoc in I; exact I|exact L|].
    unfold tag_process. cbn [t_type t_body]. rewrite FC, cstr_id, trim_tight; auto. unfold small, plain in *. rewrite !no_nul_app. tauto.
  - intros t NA E r st SM L. split_small. rewrite <- !app_assoc.
    pose proof (info_cdata (t ++ [93; 93; 62] ++ r)) as I. rewrite tag_cdata in I by auto. cbn [app] in I. eapply turn_tag in I; [exact I|exact L|].
    unfold tag_process. cbn [t_type t_body t_after]. rewrite FT, <- app_assoc, decode_cdata; [|auto|match goal with H : small t |- _ => apply H end]. cbn [bind]. rewrite cstr_id; [reflexivity|]. match goal with H : small t |- _ => apply H end.
  - intros b w W r st SM O. rewrite drop_space_app by auto. rewrite drop_space_stop by (unfold space; lia). constructor.
  - intros b w n s l r' W M IHM C IHC r st SM O. split_small. rewrite <- !app_assoc, drop_space_app by auto. destruct (markup_hd n s M) as (x & E). rewrite E at 1. cbn [app]. rewrite drop_space_stop by (unfold space; lia).
    change (60 :: x ++ r' ++ 60 :: r) with ((60 :: x) ++ r' ++ 60 :: r). rewrite <- E. eapply steps_trans; [apply IHM; auto; now apply live_open|]. eapply steps_trans; [apply steps_space|]. apply IHC; auto. now apply add_child_open.
  - intros w t e l r' W T C IHC r st SM O. split_small. rewrite <- !app_assoc, drop_space_app by auto. destruct (content_true _ _ r C) as (w' & x & W' & E).
    destruct T as (NE & T & TT). destruct (tight_cases e T) as [-> |[(c & y & Ee & Cc) _]]; [congruence|]. rewrite Ee at 1. cbn [app]. rewrite drop_space_stop by auto. change (c :: y ++ r' ++ 60 :: r) with ((c :: y) ++ r' ++ 60 :: r). rewrite <- Ee.
    rewrite E. eapply steps_trans; [apply (turn_text t e w' x); auto; now split|]. specialize (IHC r (add_child (Text t) st)). rewrite E, drop_space_app, drop_space_stop in IHC by (auto; unfold space; lia).
    apply IHC; auto. now apply add_child_open.
Qed.
End Steps.

Lemma drop_space_len s : (length (drop_space s) <= length s)%nat.
Proof. induction s as [|c s IH]; cbn [drop_space]; [auto|]. destruct (chr_isspace c); cbn [length]; lia. Qed.
Lemma tag_rest_len p ty i : tag_rest p ty = inr i -> (length (t_rest i) <= length p)%nat.
Proof.
  unfold tag_rest. destruct (tag_end p ty) as [e|[[lft used] ty']]; [discriminate|].
  assert (L : (length (skipn used p) <= length p)%nat) by (rewrite skipn_length; lia).
  destruct ty'; try (destruct (take_nospace (firstn lft p)); [discriminate|]); intros H; injection H as <-; exact L.
Qed.
Lemma tag_info_len s i : tag_info (60 :: s) = inr i -> (length (t_rest i) <= length s)%nat.
Proof.
  unfold tag_info. pose proof (drop_space_len s) as L. destruct (drop_space s) as [|c r]; [discriminate|]. cbn [length] in L. pose proof (drop_space_len r) as L'.
  destruct (c =? 47); [intros H; apply tag_rest_len in H; lia|]. destruct (c =? 63); [intros H; apply tag_rest_len in H; lia|]. destruct (c =? 60); [discriminate|].
  destruct (c =? 33); [|intros H; apply tag_rest_len in H; cbn [length] in H; lia]. destruct (drop_space r) as [|x y] eqn:E; [discriminate|]. rewrite <- E in *. clear E.
  destruct (prefixb [45; 45] (drop_space r)); [intros H; apply tag_rest_len in H; rewrite skipn_length in H; lia|].
  destruct (prefixb _ (drop_space r)); intros H; apply tag_rest_len in H; [rewrite skipn_length in H|]; lia.
Qed.
Lemma turn_len g fl tl want c s st s2 st2 : read_turn g fl tl want c s st = Ok (Next s2 st2) -> (length s2 <= length s)%nat.
Proof.
  unfold read_turn. destruct (chr_isspace c); [intros H; injection H as <- <-; auto|]. destruct (_ && _); [destruct want; discriminate|].
  destruct (N.eqb_spec c 60) as [-> |NC].
  - destruct (tag_info (60 :: s)) as [e|i] eqn:I; [discriminate|]. apply tag_info_len in I. destruct (tag_process g fl tl i st) as [[e|st']| |]; cbn [bind]; try discriminate. intros H. injection H as <- <-. exact I.
  - unfold read_text. cbn [take_to_tag]. destruct (N.eqb_spec c 60); [contradiction|]. destruct (if r_raw_text fl then _ else _) as [x| |]; cbn [bind]; try discriminate. intros H. injection H as <- <-. cbn [length skipn]. rewrite skipn_length. lia.
Qed.
Lemma steps_loop g fl tl want s st s3 st3 : steps g fl tl want s st s3 st3 -> forall f, (length s < f)%nat -> exists f', (length s3 < f')%nat /\ read_loop g fl tl want f s st = read_loop g fl tl want f' s3 st3.
Proof.
  induction 1 as [s st|c s st s2 st2 s3 st3 T H IH]; intros f L; [eauto|]. destruct f as [|f]; [lia|]. cbn [read_loop]. pose proof (turn_len _ _ _ _ _ _ _ _ _ T) as L2. rewrite T. cbn [bind]. apply IH. cbn [length] in L. lia.
Qed.

Lemma read_document g fl tl want : r_ignore_comments fl = false -> r_raw_text fl = false -> r_raw_attrs fl = false -> forall d s, Document d s -> forall r st,
  small s -> s_open st = [] -> existsb is_elem (s_doc st) = false ->
  exists st', steps g fl tl want (s ++ r) st r st' /\ s_open st' = [] /\ s_doc st' = rev d ++ s_doc st /\ existsb is_elem (s_doc st') = true.
Proof.
  intros FC FT FA d s H. destruct (read_markup g fl tl want FC FT FA) as [RM _].
  induction H as [w n s w' W EL M W'|w n s d r' W MI M H IH]; intros r st SM O NEl; apply small_app in SM; destruct SM as [_ SM]; apply small_app in SM; destruct SM as [S1 S2].
  - exists (add_child n st). split; [|split; [|split]].
    + rewrite <- !app_assoc. eapply steps_trans; [now apply steps_spaces|]. eapply steps_trans; [apply RM; eauto; unfold live; now rewrite O, NEl|now apply steps_spaces].
    + unfold add_child. now rewrite O.
    + unfold add_child. rewrite O. reflexivity.
    + unfold add_child. rewrite O. cbn [s_doc existsb]. destruct n; try contradiction. reflexivity.
  - destruct (IH r (add_child n st)) as (st' & St & O' & D' & E').
    + auto.
    + unfold add_child. now rewrite O.
    + unfold add_child. rewrite O. cbn [s_doc existsb]. destruct n; try contradiction; exact NEl.
    + exists st'. split; [|split; [auto|split; [|auto]]].
      * rewrite <- !app_assoc. eapply steps_trans; [now apply steps_spaces|]. eapply steps_trans; [apply RM; eauto; unfold live; now rewrite O, NEl|exact St].
      * rewrite D'. unfold add_child. rewrite O. cbn [s_doc rev]. now rewrite <- app_assoc.
Qed.
Lemma document_nonempty d s : Document d s -> s <> [].
Proof. intros H. destruct H as [w n s w' _ _ M _|w n s d r _ _ M _]; destruct (markup_hd n s M) as (x & ->); destruct w; discriminate. Qed.

(** A document in text is read; what follows it is left, or an error. *)
Lemma xml_read_ok g fl want d s r tl : r_ignore_comments fl = false -> r_raw_text fl = false -> r_raw_attrs fl = false ->
  Document d s -> plain s -> N.of_nat (length s) < 2 ^ 31 -> (r = [] \/ exists c r', r = c :: r' /\ ~ space c) ->
  xml_read g fl want ((s ++ r) ++ tl) (length (s ++ r)) = Ok (if want || is_nil r then inr (d, length s) else inl EExpectedEnd).
Proof.
  intros FC FT FA D P L R. unfold xml_read. destruct (length (s ++ r) =? 0)%nat eqn:Z.
  { apply Nat.eqb_eq in Z. rewrite app_length in Z. pose proof (document_nonempty _ _ D). destruct s; [congruence|cbn in Z; lia]. }
  rewrite skipn_len, firstn_len by reflexivity. destruct (read_document g fl tl want FC FT FA d s D r {| s_open := []; s_doc := [] |}) as (st' & St & O & Dd & Ee); try reflexivity; [now split|].
  destruct (steps_loop _ _ _ _ _ _ _ _ St (S (length (s ++ r)))) as (f' & L' & ->); [lia|]. destruct f' as [|f']; [lia|].
  cbn [s_doc] in Dd. rewrite app_nil_r in Dd. destruct R as [-> |(c & r' & -> & C)].
  - cbn [read_loop bind]. unfold read_end. rewrite O, Ee, Dd, rev_involutive. cbn [is_nil length]. rewrite orb_true_r, app_nil_r, Nat.sub_0_r. reflexivity.
  - cbn [read_loop]. unfold read_turn. rewrite isspace_not by auto. rewrite O, Ee. cbn [is_nil andb bind]. destruct want; cbn [orb bind]; [|reflexivity].
    unfold read_end. rewrite O, Ee, Dd, rev_involutive. cbn [bind]. rewrite app_length. do 3 f_equal. lia.
Qed.

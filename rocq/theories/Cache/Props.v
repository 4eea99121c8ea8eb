(** C37: cache *)
From Verif Require Import Base.Lib Base.Mem Cache.Spec Cache.Model Cache.Proofs.
From Verif Require Hash.Use.

(** Copies of keys are keys equal to the original. *)
Definition good_copy (kcmp : N -> N -> Z) (kdup : option (nat -> N -> N)) : Prop :=
  forall f n k, kdup = Some f -> k <> 0%N -> f n k <> 0%N /\ kcmp k (f n k) = 0%Z.

(** Every sequence of calls on a new cache succeeds; results, the entries kept
    and their order of recency, and the keys and values freed are those of the
    specification.  The number of entries never exceeds the maximum.  Destroying
    the cache frees each remaining key and value once.  What is missing for the
    full property: with a value_duplicate callback nothing is said about the
    values (see the refutation below). *)
Theorem cache_lru_partial kcmp hash kdup vdup lev g m ops :
  Hash.Use.good_keys kcmp hash -> good_copy kcmp kdup ->
  exists c rs c' m' l fk fv c2, create m = Some c /\ run kcmp hash kdup vdup lev g ops c = Ok (rs, c') /\
    chain kcmp (is_some kdup) (is_some vdup) m [] ops rs m' l fk fv /\
    kfr c' = fk /\ vfr c' = fv /\ length l <= m' /\
    destroy kcmp lev c' = Ok c2 /\ kfr c2 = rev (map fst l) ++ fk /\ vfr c2 = rev (map snd l) ++ fv /\ (forall i, cell c2 i = UB).
Proof.
  intros Hk Hd. destruct (create_ok kcmp hash kdup lev g Hd m) as (c & Ec & R0 & M0 & K0 & V0).
  destruct (run_ok kcmp hash kdup vdup lev g Hk Hd ops c [] R0) as (rs & c' & t & fk & fv & E & R & C & K & V).
  rewrite K0, V0, M0, !app_nil_r in *.
  destruct (destroy_ok kcmp hash kdup lev g Hk Hd c' t R) as (c2 & Ed & Hu & K2 & V2).
  exists c, rs, c', (maxsz c'), (map kv t), fk, fv, c2. rewrite <- K, <- V.
  split; [exact Ec|]. split; [exact E|]. split; [now rewrite K, V|]. split; auto. split; auto. split; [rewrite map_length; apply (cr_m _ _ _ _ R)|].
  split; [exact Ed|]. split; [rewrite K2, map_map; reflexivity|]. split; auto.
Qed.
Print Assumptions cache_lru_partial.

(** ** What this means for a history *)
Section History.
Context (kcmp : N -> N -> Z).
Context (Hr : forall x, kcmp x x = 0%Z) (Hs : forall x y, kcmp x y = 0%Z -> kcmp y x = 0%Z)
        (Ht : forall x y z, kcmp x y = 0%Z -> kcmp y z = 0%Z -> kcmp x z = 0%Z).
(** The different keys of a list *)
Definition note (seen : list N) (k : N) : list N := if existsb (fun x => (kcmp k x =? 0)%Z) seen then seen else k :: seen.
Definition different (ks : list N) : nat := length (fold_left note ks []).

Fixpoint uniq (l : list (N * N)) : Prop :=
  match l with [] => True | e :: l' => (forall x, In x l' -> kcmp (fst e) (fst x) <> 0%Z) /\ uniq l' end.
Lemma same_iff k e : same kcmp k e = true <-> kcmp k (fst e) = 0%Z.
Proof. apply Z.eqb_eq. Qed.
Lemma same_no k e : same kcmp k e = false <-> kcmp k (fst e) <> 0%Z.
Proof. apply Z.eqb_neq. Qed.
Lemma uniq_del k l : uniq l -> uniq (del kcmp k l).
Proof.
  induction l as [|e l IH]; cbn; auto. intros [A B]. destruct (same kcmp k e); cbn; auto. split; auto.
  intros x Hx. unfold del in Hx. apply filter_In in Hx. apply A, Hx.
Qed.
Lemma uniq_firstn n : forall l, uniq l -> uniq (firstn n l).
Proof.
  induction n as [|n IH]; intros [|e l]; cbn; auto. intros [A B]. split; auto. intros x Hx. apply A.
  rewrite <- (firstn_skipn n l). apply in_or_app. now left.
Qed.
Lemma in_del x k l : In x (del kcmp k l) <-> In x l /\ kcmp k (fst x) <> 0%Z.
Proof. unfold del. rewrite filter_In, negb_true_iff, same_no. tauto. Qed.
Lemma find_in k l : match find (same kcmp k) l with Some e => In e l /\ kcmp k (fst e) = 0%Z | None => forall x, In x l -> kcmp k (fst x) <> 0%Z end.
Proof.
  destruct (find (same kcmp k) l) as [e|] eqn:E.
  - apply find_some in E. destruct E as [A B]. apply same_iff in B. auto.
  - intros x Hx. apply same_no. exact (find_none _ _ E x Hx).
Qed.
Lemma uniq_push k0 k v l : kcmp k k0 = 0%Z -> uniq l -> uniq ((k0, v) :: del kcmp k l).
Proof.
  intros K U. split; [|now apply uniq_del]. intros x Hx. apply in_del in Hx. destruct Hx as [_ Hx]. cbn. intro K2. apply Hx. eapply Ht; eauto.
Qed.
Lemma filter_length_le {A} (P : A -> bool) l : length (filter P l) <= length l.
Proof. induction l as [|x l IH]; cbn; auto. destruct (P x); cbn; lia. Qed.
Lemma rel_uniq kc vc m l o r m' l' fk fv : rel kcmp kc vc m l o r m' l' fk fv -> length l <= m -> uniq l -> uniq l' /\ length l' <= m'.
Proof.
  assert (Ld : forall k e, In e l -> kcmp k (fst e) = 0%Z -> S (length (del kcmp k l)) <= length l).
  { intros k. induction l as [|x l0 IH]; intros e; cbn; [tauto|]. intros [<-|He] K.
    - apply same_iff in K. rewrite K. cbn. pose proof (filter_length_le (fun e => negb (same kcmp k e)) l0). unfold del. lia.
    - destruct (same kcmp k x); cbn; [pose proof (filter_length_le (fun e => negb (same kcmp k e)) l0); unfold del; lia|].
      specialize (IH e He K). unfold del in *. lia. }
  intros R Hl U. destruct o as [k v|k|k| | |m2]; cbn in R.
  - destruct R as [-> R]. destruct ((k =? 0)%N || (m =? 0)); [destruct R as (_ & -> & _); auto|].
    destruct R as (_ & v' & _ & R). pose proof (find_in k l) as F. destruct (find (same kcmp k) l) as [[k0 v0]|].
    + destruct R as (-> & _). destruct F as [F K]. split; [now apply uniq_push|]. cbn [length]. specialize (Ld k _ F K). cbn in *. lia.
    + destruct R as (k' & K & _ & -> & _). split; [|apply firstn_le_length]. apply uniq_firstn. split; auto.
      intros x Hx K2. apply (F x Hx). eapply Ht; eauto.
  - destruct R as [-> R]. pose proof (find_in k l) as F. destruct (k =? 0)%N; [destruct R as (_ & -> & _); auto|].
    destruct (find (same kcmp k) l) as [[k0 v0]|]; destruct R as (_ & -> & _); auto. split; [now apply uniq_del|].
    pose proof (filter_length_le (fun e => negb (same kcmp k e)) l). unfold del. lia.
  - destruct R as (-> & _ & _ & R). pose proof (find_in k l) as F. destruct (k =? 0)%N; [destruct R as (_ & ->); auto|].
    destruct (find (same kcmp k) l) as [[k0 v0]|]; destruct R as (_ & ->); auto. destruct F as [F K]. split; [now apply uniq_push|].
    cbn [length]. specialize (Ld k _ F K). lia.
  - destruct R as (_ & -> & -> & _). auto.
  - destruct R as (_ & -> & -> & _). auto.
  - destruct R as (_ & -> & -> & _). split; [now apply uniq_firstn|]. apply firstn_le_length.
Qed.
Lemma chain_uniq kc vc : forall ops m l rs m' l' fk fv, chain kcmp kc vc m l ops rs m' l' fk fv -> length l <= m -> uniq l -> uniq l' /\ length l' <= m'.
Proof.
  induction ops as [|o ops IH]; intros m l rs m' l' fk fv C Hl U; inversion C; subst; auto.
  match goal with R : rel _ _ _ _ _ _ _ _ _ _ _ |- _ => destruct (rel_uniq _ _ _ _ _ _ _ _ _ _ R Hl U) end. eauto.
Qed.
Lemma chain_app kc vc : forall a b m l rs m' l' fk fv, chain kcmp kc vc m l (a ++ b) rs m' l' fk fv ->
  exists ra rb m1 l1 k1 v1 k2 v2, rs = ra ++ rb /\ chain kcmp kc vc m l a ra m1 l1 k1 v1 /\ chain kcmp kc vc m1 l1 b rb m' l' k2 v2.
Proof.
  induction a as [|o a IH]; intros b m l rs m' l' fk fv C; cbn in C.
  - exists [], rs, m, l, [], [], fk, fv. split; auto. split; auto. constructor.
  - inversion C; subst. match goal with H : chain _ _ _ _ _ (a ++ b) _ _ _ _ _ |- _ => destruct (IH _ _ _ _ _ _ _ _ H) as (ra & rb & m2 & l2 & k3 & v3 & k4 & v4 & -> & C1 & C2) end.
    eexists (r :: ra), rb, m2, l2, _, _, k4, v4. split; auto. split; [econstructor; eauto|exact C2].
Qed.

(** The place of a key among those used since *)
Definition here (k0 v : N) (seen : list N) (l : list (N * N)) : Prop :=
  exists a b, l = a ++ (k0, v) :: b /\ length a = length seen /\
    forall k, (exists e, In e a /\ kcmp k (fst e) = 0%Z) <-> (exists x, In x seen /\ kcmp k x = 0%Z).
Definition gone (k0 : N) (m : nat) (seen : list N) (l : list (N * N)) : Prop :=
  m <= length seen /\ forall e, In e l -> kcmp k0 (fst e) <> 0%Z.
Lemma seen_some k seen : existsb (fun x => (kcmp k x =? 0)%Z) seen = true <-> exists x, In x seen /\ kcmp k x = 0%Z.
Proof. rewrite existsb_exists. split; intros (x & A & B); exists x; (split; [exact A|now apply Z.eqb_eq]). Qed.
Lemma uniq_app a e b : uniq (a ++ e :: b) -> forall x, In x (a ++ b) -> kcmp (fst e) (fst x) <> 0%Z.
Proof.
  induction a as [|y a IH]; cbn; intros [A B] x Hx; auto. destruct Hx as [<-|Hx]; [|now apply IH].
  intro K. apply (A e); [apply in_elt|]. now apply Hs.
Qed.
Lemma del_app k a b : del kcmp k (a ++ b) = del kcmp k a ++ del kcmp k b.
Proof. apply filter_app. Qed.
Lemma del_len k a e : uniq a -> In e a -> kcmp k (fst e) = 0%Z -> S (length (del kcmp k a)) = length a.
Proof.
  induction a as [|x a IH]; cbn; [tauto|]. intros [A B] [<-|He] K.
  - rewrite (proj2 (same_iff k x) K). cbn. f_equal. f_equal. change (del kcmp k a = a).
    apply (del_none kcmp k a). intros y Hy. apply same_no. intro Ky. apply (A y Hy). eapply Ht; [apply Hs; exact K|exact Ky].
  - assert (Kx : same kcmp k x = false). { apply same_no. intro Kx. apply (A e He). eapply Ht; [apply Hs; exact Kx|exact K]. }
    rewrite Kx. cbn. now rewrite <- (IH B He K).
Qed.
Lemma uniq_l a b : uniq (a ++ b) -> uniq a.
Proof. induction a as [|x a IH]; cbn; auto. intros [A B]. split; auto. intros y Hy. apply A, in_or_app. auto. Qed.
(** One more insertion of another key *)
Lemma here_step kc k0 v m seen l k2 v2 r m' l' fk fv :
  here k0 v seen l -> uniq l -> length l <= m -> kcmp k0 k2 <> 0%Z -> k2 <> 0%N ->
  rel kcmp kc false m l (Insert k2 v2) r m' l' fk fv ->
  m' = m /\ (here k0 v (note seen k2) l' \/ gone k0 m (note seen k2) l').
Proof.
  intros (a & b & -> & La & Ha) U Hl Nk Hz R. cbn [rel] in R. destruct R as [-> R]. split; auto.
  rewrite app_length in Hl. cbn [length] in Hl.
  destruct (N.eqb_spec k2 0); [contradiction|]. destruct (Nat.eqb_spec m 0); [lia|]. cbn [orb] in R.
  destruct R as (_ & v' & Hv & R). specialize (Hv eq_refl). subst v'.
  assert (Nk2 : same kcmp k2 (k0, v) = false) by (apply same_no; cbn; intro K; apply Nk; auto).
  pose proof (find_in k2 (a ++ (k0, v) :: b)) as F. destruct (find (same kcmp k2) (a ++ (k0, v) :: b)) as [[k3 v3]|].
  - destruct R as (-> & _). destruct F as [Fi Fk]. cbn in Fk. left. rewrite del_app. cbn [del filter]. rewrite Nk2. cbn [negb]. fold (del kcmp k2 b).
    exists ((k3, v2) :: del kcmp k2 a), (del kcmp k2 b). split; auto. unfold note.
    assert (Hmem : forall k, (exists e, In e ((k3, v2) :: del kcmp k2 a) /\ kcmp k (fst e) = 0%Z) <->
                     (kcmp k k2 = 0%Z \/ exists x, In x seen /\ kcmp k x = 0%Z)).
    { intro k. rewrite <- Ha. split.
      - intros (e & [<-|He] & K); [left; cbn in K; eapply Ht; [exact K|apply Hs; exact Fk]|]. apply in_del in He. right. exists e. tauto.
      - intros [K|(e & He & K)].
        + exists (k3, v2). split; [left; auto|]. cbn. eapply Ht; eauto.
        + destruct (Z.eq_dec (kcmp k2 (fst e)) 0) as [K2|K2].
          * exists (k3, v2). split; [left; auto|]. cbn. eapply Ht; [exact K|]. eapply Ht; [apply Hs; exact K2|exact Fk].
          * exists e. split; auto. right. apply in_del. auto. }
    destruct (existsb (fun x => (kcmp k2 x =? 0)%Z) seen) eqn:Es.
    + apply seen_some in Es. pose proof Es as Es2. apply Ha in Es. destruct Es as (e & He & Ke).
      split; [cbn [length]; rewrite (del_len k2 a e (uniq_l _ _ U) He Ke); exact La|].
      intro k. rewrite Hmem. split; [|auto]. intros [K|K]; auto. destruct Es2 as (x & Hx & Kx). exists x. split; auto. eapply Ht; eauto.
    + assert (Dn : del kcmp k2 a = a).
      { apply (del_none kcmp). intros e He. apply same_no. intro K. assert (T : existsb (fun x => (kcmp k2 x =? 0)%Z) seen = true) by (apply seen_some, Ha; exists e; auto). congruence. }
      split; [cbn [length]; rewrite Dn; now rewrite La|]. intro k. rewrite Hmem. cbn [In]. split.
      * intros [K|(x & Hx & K)]; [exists k2; auto|exists x; auto].
      * intros (x & [<-|Hx] & K); [left; auto|right; exists x; auto].
  - destruct R as (k' & K' & _ & -> & _). unfold note.
    assert (Es : existsb (fun x => (kcmp k2 x =? 0)%Z) seen = false).
    { destruct (existsb (fun x => (kcmp k2 x =? 0)%Z) seen) eqn:Es; auto. apply seen_some, Ha in Es. destruct Es as (e & He & Ke).
      elim (F e); auto. apply in_or_app. auto. }
    rewrite Es. destruct (le_lt_dec m (S (length a))) as [Hm|Hm].
    + right. split; [cbn [length]; lia|]. intros e He. assert (Em : m = S (length a)) by lia. rewrite Em in He. cbn [firstn] in He.
      rewrite firstn_len in He by reflexivity. destruct He as [<-|He]; cbn.
      * intro K. apply Nk. eapply Ht; [exact K|apply Hs; exact K'].
      * apply (uniq_app _ _ _ U e). apply in_or_app. auto.
    + left. destruct m as [|m]; [lia|]. cbn [firstn]. rewrite firstn_app, (firstn_all2 a) by lia.
      remember (m - length a) as q eqn:Eq. destruct q as [|q]; [lia|]. cbn [firstn].
      exists ((k', v2) :: a), (firstn q b). split; auto. split; [cbn; now rewrite La|]. intro k. cbn [In]. split.
      * intros (e & [<-|He] & K); [exists k2; split; auto; cbn in K; eapply Ht; [exact K|apply Hs; exact K']|].
        destruct (proj1 (Ha k)) as (x & Hx & Kx); [exists e; auto|]. exists x. auto.
      * intros (x & [<-|Hx] & K); [exists (k', v2); split; auto; cbn; eapply Ht; eauto|].
        destruct (proj2 (Ha k)) as (e & He & Ke); [exists x; auto|]. exists e. auto.
Qed.
Lemma gone_step kc k0 m seen l k2 v2 r m' l' fk fv :
  gone k0 m seen l -> kcmp k0 k2 <> 0%Z -> rel kcmp kc false m l (Insert k2 v2) r m' l' fk fv -> m' = m /\ gone k0 m (note seen k2) l'.
Proof.
  intros [G1 G2] Nk R. cbn [rel] in R. destruct R as [-> R]. split; auto. split; [unfold note; destruct existsb; cbn [length]; lia|].
  destruct ((k2 =? 0)%N || (m =? 0)); [destruct R as (_ & -> & _); auto|].
  destruct R as (_ & v' & _ & R). pose proof (find_in k2 l) as F. destruct (find (same kcmp k2) l) as [[k3 v3]|].
  - destruct R as (-> & _). destruct F as [_ F]. intros e [<-|He]; [cbn in *; intro K; apply Nk; eapply Ht; [exact K|apply Hs; exact F]|].
    apply in_del in He. apply G2, He.
  - destruct R as (k' & K' & _ & -> & _). intros e He.
    assert (He2 : In e ((k', v') :: l)). { rewrite <- (firstn_skipn m ((k', v') :: l)). apply in_or_app. now left. }
    destruct He2 as [<-|He2]; auto. cbn. intro K. apply Nk. eapply Ht; [exact K|apply Hs; exact K'].
Qed.
Definition ins (e : N * N) : cop := Insert (fst e) (snd e).
Lemma inserts_place kc k0 v : forall kvs m seen l rs m' l' fk fv,
  here k0 v seen l \/ gone k0 m seen l -> uniq l -> length l <= m ->
  (forall e, In e kvs -> kcmp k0 (fst e) <> 0%Z /\ fst e <> 0%N) ->
  chain kcmp kc false m l (map ins kvs) rs m' l' fk fv ->
  m' = m /\ uniq l' /\ length l' <= m /\ (here k0 v (fold_left note (map fst kvs) seen) l' \/ gone k0 m (fold_left note (map fst kvs) seen) l').
Proof.
  induction kvs as [|[k2 v2] kvs IH]; intros m seen l rs m' l' fk fv P U Hl Hn C; cbn [map] in C; inversion C; subst; auto.
  destruct (Hn (k2, v2) (or_introl eq_refl)) as [Nk Nz]. cbn in Nk, Nz.
  match goal with R : rel _ _ _ _ _ _ _ _ _ _ _ |- _ => destruct (rel_uniq _ _ _ _ _ _ _ _ _ _ R Hl U) as [U1 L1];
    assert (K : m1 = m /\ (here k0 v (note seen k2) l1 \/ gone k0 m (note seen k2) l1)) by
      (destruct P as [P|P]; [exact (here_step _ _ _ _ _ _ _ _ _ _ _ _ _ P U Hl Nk Nz R)|destruct (gone_step _ _ _ _ _ _ _ _ _ _ _ _ P Nk R); auto]) end.
  destruct K as [-> K]. cbn [map fold_left fst].
  match goal with C : chain _ _ _ _ _ (map ins kvs) _ _ _ _ _ |- _ => apply (IH _ _ _ _ _ _ _ _ K U1 L1) in C; [exact C|] end.
  intros e He. apply Hn. now right.
Qed.
Lemma get_here k k0 v seen l : kcmp k k0 = 0%Z -> k <> 0%N -> uniq l -> here k0 v seen l -> find (same kcmp k) l = Some (k0, v).
Proof.
  intros K Hz U (a & b & -> & _). pose proof (uniq_app _ _ _ U) as Ua. cbn in Ua.
  assert (Na : forall e, In e a -> same kcmp k e = false).
  { intros e He. apply same_no. intro Ke. apply (Ua e); [apply in_or_app; auto|]. eapply Ht; [apply Hs; exact K|exact Ke]. }
  clear U Ua. induction a as [|x a IH]; cbn.
  - now rewrite (proj2 (same_iff k (k0, v)) K).
  - rewrite (Na x) by (left; auto). apply IH. intros e He. apply Na. now right.
Qed.
End History.

Lemma last_app1 {A} (l : list A) x d : last (l ++ [x]) d = x.
Proof. apply last_last. Qed.
(** After any history, insert a value for a key, then insert values for other
    keys: the cache still returns the value iff fewer different keys than its
    maximal size were used since. *)
Theorem cache_recent kcmp hash kdup lev g m pre k v kvs :
  Hash.Use.good_keys kcmp hash -> good_copy kcmp kdup -> k <> 0%N ->
  (forall e, In e kvs -> kcmp k (fst e) <> 0%Z /\ fst e <> 0%N) ->
  exists c m1 rs c', create m = Some c /\
    run kcmp hash kdup None lev g (pre ++ MaxSize :: Insert k v :: map ins kvs ++ [Get k]) c = Ok (rs, c') /\
    nth_error rs (length pre) = Some (RN m1) /\
    last rs (RB false) = RG (if different kcmp (map fst kvs) <? m1 then Some v else None).
Proof.
  intros Hk Hd Hz Hn. pose proof Hk as (Hr & Hs & Ht & _).
  destruct (create_ok kcmp hash kdup lev g Hd m) as (c & Ec & R0 & M0 & _).
  destruct (run_ok kcmp hash kdup None lev g Hk Hd (pre ++ MaxSize :: Insert k v :: map ins kvs ++ [Get k]) c [] R0) as (rs & c' & t & fk & fv & E & _ & C & _).
  rewrite M0 in C. cbn [is_some map] in C. apply chain_app in C. destruct C as (ra & rb & m1 & l1 & k1 & v1 & k2 & v2 & -> & C1 & C2).
  assert (Lra : length ra = length pre).
  { clear - C1. revert C1. generalize (@nil (N * N)). revert ra m k1 v1. induction pre; intros; inversion C1; subst; cbn; eauto. }
  destruct (chain_uniq kcmp Hr Hs Ht _ _ _ _ _ _ _ _ _ _ C1) as [U1 L1]; [cbn; lia|exact I|].
  exists c, m1. inversion C2; subst. match goal with R : rel _ _ _ _ _ MaxSize _ _ _ _ _ |- _ => cbn [rel] in R; destruct R as (-> & -> & -> & -> & ->) end.
  match goal with C : chain _ _ _ _ _ (Insert _ _ :: _) _ _ _ _ _ |- _ => inversion C; subst end.
  match goal with C : chain _ _ _ _ _ (map ins kvs ++ [Get k]) _ _ _ _ _ |- _ => apply chain_app in C; destruct C as (rc & rd & m5 & l5 & k5 & v5 & k6 & v6 & -> & C5 & C6) end.
  match goal with R : rel _ _ _ _ _ (Insert _ _) _ _ _ _ _ |- _ => pose proof R as RI; destruct (rel_uniq kcmp Hr Hs Ht _ _ _ _ _ _ _ _ _ _ R L1 U1) as [U2 L2] end.
  inversion C6; subst. match goal with C : chain _ _ _ _ _ [] _ _ _ _ _ |- _ => inversion C; subst end.
  eexists _, c'. split; [exact Ec|]. split; [exact E|]. split; [rewrite nth_error_app2, Lra, Nat.sub_diag by lia; reflexivity|].
  match goal with |- last (ra ++ ?p :: ?q :: rc ++ [?b]) _ = _ => replace (ra ++ p :: q :: rc ++ [b]) with ((ra ++ p :: q :: rc) ++ [b]) by (rewrite <- app_assoc; reflexivity) end.
  rewrite last_app1.
  (* the insertion *)
  cbn [rel] in RI. destruct RI as [-> RI]. rewrite (proj2 (N.eqb_neq k 0) Hz) in RI. cbn [orb] in RI.
  assert (P : exists k0, kcmp k k0 = 0%Z /\ (here kcmp k0 v [] l0 \/ gone kcmp k0 m1 [] l0)).
  { destruct (Nat.eqb_spec m1 0) as [->|Hm].
    - exists k. split; auto. right. split; [cbn; lia|]. destruct l0; [intros e []|cbn in L2; lia].
    - destruct RI as (_ & v' & Hv & RI). specialize (Hv eq_refl). subst v'.
      assert (H0 : forall k0 rest, here kcmp k0 v [] ((k0, v) :: rest)).
      { intros k0 rest. exists [], rest. split; auto. split; auto. intro q. split; intros (x & [] & _). }
      pose proof (find_in kcmp k l1) as F. destruct (find (same kcmp k) l1) as [[k0 v0]|].
      + destruct RI as (-> & _). exists k0. split; [apply F|]. left. apply H0.
      + destruct RI as (k' & K' & _ & -> & _). exists k'. split; auto. left. destruct m1 as [|q]; [lia|]. cbn [firstn]. apply H0. }
  destruct P as (k0 & K0 & P).
  assert (Hn0 : forall e, In e kvs -> kcmp k0 (fst e) <> 0%Z /\ fst e <> 0%N).
  { intros e He. destruct (Hn e He) as [A B]. split; auto. intro K. apply A. eapply Ht; eauto. }
  destruct (inserts_place kcmp Hr Hs Ht _ k0 v kvs m1 [] l0 _ _ _ _ _ P U2 L2 Hn0 C5) as (-> & U5 & L5 & P5).
  unfold different. set (seen := fold_left (note kcmp) (map fst kvs) []) in *.
  match goal with R : rel _ _ _ _ _ (Get _) _ _ _ _ _ |- _ => cbn [rel] in R; destruct R as (_ & _ & _ & RG) end.
  rewrite (proj2 (N.eqb_neq k 0) Hz) in RG. destruct P5 as [P5|P5].
  - rewrite (get_here kcmp Hs Ht k k0 v seen l5 K0 Hz U5 P5) in RG. destruct RG as [-> _]. destruct P5 as (a & b & -> & La & _).
    rewrite app_length in L5. cbn [length] in L5. destruct (Nat.ltb_spec (length seen) m1); [reflexivity|lia].
  - destruct P5 as [G1 G2]. pose proof (find_in kcmp k l5) as F. destruct (find (same kcmp k) l5) as [e|].
    + destruct F as [Fi Fk]. elim (G2 e Fi). eapply Ht; [apply Hs; exact K0|exact Fk].
    + destruct RG as [-> _]. destruct (Nat.ltb_spec (length seen) m1); [lia|reflexivity].
Qed.
Print Assumptions cache_recent.

(** value_duplicate is applied to the key: the cache returns a copy of the key
    instead of the value. *)
Definition idcmp (x y : N) : Z := (Z.of_N x - Z.of_N y)%Z.
Definition results kdup vdup m ops :=
  match create m with
  | Some c => do '(rs, c) <- run idcmp (fun x => x) kdup vdup (fun n => n) 0%N ops c; Ok (rs, kfr c, vfr c)
  | None => UB
  end.
Theorem cache_value_duplicate_refuted :
  results None (Some (fun _ x => x)) 4 [Insert 7%N 100%N; Get 7%N] = Ok ([RB true; RG (Some 7%N)], [], []).
Proof. vm_compute. reflexivity. Qed.
Print Assumptions cache_value_duplicate_refuted.

(** Cases the theorems speak about *)
Example cache_case :
  results None None 2 [Insert 1%N 10%N; Insert 2%N 20%N; Get 1%N; Insert 3%N 30%N; Get 2%N; Get 1%N; SetMaxSize 1; Get 3%N; Size; Insert 1%N 11%N] =
  Ok ([RB true; RB true; RG (Some 10%N); RB true; RG None; RG (Some 10%N); RB true; RG None; RN 1; RB true], [3; 2]%N, [10; 30; 20]%N).
Proof. vm_compute. reflexivity. Qed.
Example cache_recent_case :
  results None None 3 [MaxSize; Insert 1%N 10%N; Insert 2%N 20%N; Insert 3%N 30%N; Insert 2%N 21%N; Get 1%N] =
    Ok ([RN 3; RB true; RB true; RB true; RB true; RG (Some 10%N)], [], [20]%N) /\
  different idcmp [2; 3; 2]%N = 2.
Proof. vm_compute. auto. Qed.
Example cache_keys : Hash.Use.good_keys idcmp (fun x => x) /\ good_copy idcmp None.
Proof.
  split; [|intros f n k; discriminate]. unfold Hash.Use.good_keys, idcmp. split; [intros; lia|]. split; [intros; lia|]. split; intros; lia.
Qed.

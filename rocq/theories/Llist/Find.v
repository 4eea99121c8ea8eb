From Verif Require Import Base.Lib Sort.Spec Sort.Binary Llist.Spec Llist.Model Llist.Proofs Llist.Sorted Llist.Skip.

(** The first entry satisfying a test *)
Lemma first_some (P : entry -> bool) a y w b : (forall e, In e a -> P e = false) -> P (y, w) = true ->
  hd_error (ids (filter P (a ++ (y, w) :: b))) = Some y.
Proof.
  intros Ha Hp. induction a as [|e a IH]; cbn; [rewrite Hp; reflexivity|]. rewrite Ha by (left; auto). apply IH. intros; apply Ha; right; auto.
Qed.
Lemma filter_none {A} (P : A -> bool) l : (forall e, In e l -> P e = false) -> filter P l = [].
Proof. induction l as [|x l IH]; cbn; intro H; auto. rewrite H by auto. auto. Qed.
Lemma filter_all {A} (P : A -> bool) l : (forall e, In e l -> P e = true) -> filter P l = l.
Proof. induction l as [|x l IH]; cbn; intro H; auto. rewrite H by auto. f_equal; auto. Qed.

Section Find.
Context (cmp : N -> N -> Z) (Hp : total_preorder cmp).
Section Levels.
Context (d : ll) (l : list entry) (R : Reps cmp d l) (v : N).
Let h := hp d.
Let ht := hgt (hp d).
Let L := ids l.

Lemma r_ord : ord cmp h L.
Proof. unfold ord, h, L. rewrite (map_gv _ _ (r_view _ _ _ R)). apply (r_sorted _ _ _ R). Qed.
Lemma r_val x : In x L -> value h x = Ok (gv h x).
Proof.
  intro Hx. apply (v_alive _ _ (r_view _ _ _ R)) in Hx. apply value_ok. unfold gv, h. destruct (VL (hp d) x); congruence.
Qed.
Lemma r_ht x : In x L -> 0 < ht x.
Proof. intro Hx. apply (r_hgt _ _ _ R) in Hx. unfold ht. lia. Qed.

Lemma seek_ok i : i < length (hd d) -> forall fuel a x b, length b < fuel -> L = a ++ x :: b -> i < ht x ->
  (forall z, In z a -> i < ht z -> (cmp (gv h z) v < 0)%Z) ->
  exists p m, seek cmp fuel h v i x = Ok (p, m) /\
    (m = true -> exists y, p = Some y /\ In y L /\ cmp (gv h y) v = 0%Z) /\
    (m = false -> (forall z, In z L -> i < ht z -> cmp (gv h z) v <> 0%Z) /\
                  (forall y, p = Some y -> In y L /\ i < ht y /\ (cmp (gv h y) v < 0)%Z)).
Proof.
  intro Hi. destruct (r_lv _ _ _ R i Hi) as [Sg _]. fold ht L h in Sg. pose proof r_ord as Ho.
  induction fuel as [|f IH]; intros a x b Hf E Hx Ha; [lia|].
  assert (Hin : In x L) by (rewrite E; apply in_or_app; right; left; auto).
  cbn [seek]. rewrite r_val by auto. cbn [bind].
  assert (Sg' := Sg). rewrite E, lv_app, lv_cons, (proj2 (Nat.ltb_lt _ _) Hx) in Sg'. apply seg_app in Sg'. destruct Sg' as (_ & Nx & Px & _).
  assert (Ob : forall z, In z b -> (cmp (gv h x) (gv h z) <= 0)%Z).
  { intros z Hz. rewrite E in Ho. apply ord_suf in Ho. eapply ord_app with (a := [x]); [exact Ho|left; auto|auto]. }
  destruct (Z.eqb_spec (cmp (gv h x) v) 0) as [E0|E0].
  { exists (Some x), true. split; [reflexivity|]. split; [eauto|discriminate]. }
  destruct (Z.ltb_spec 0 (cmp (gv h x) v)) as [G|G].
  - rewrite (prev_ok _ _ _ _ Px). cbn [bind]. eexists _, false. split; [reflexivity|]. split; [discriminate|]. intros _. split.
    + intros z Hz Hzi. rewrite E in Hz. apply in_app_iff in Hz. destruct Hz as [Hz|[<-|Hz]]; [specialize (Ha z Hz Hzi); lia|auto|].
      apply (cgt cmp Hp) in G. pose proof (clt_le cmp Hp _ _ _ G (Ob z Hz)). pose proof (csgn cmp Hp v (gv h z)). lia.
    + intros y Ey. apply lst_in' in Ey. apply lv_in in Ey. destruct Ey as [Y1 Y2]. split; [rewrite E; apply in_or_app; auto|]. auto.
  - rewrite (next_ok _ _ _ _ Nx). cbn [bind]. destruct (lv ht i b) as [|y m] eqn:Eb; cbn [nxt_of].
    + exists None, false. split; [reflexivity|]. split; [discriminate|]. intros _. split; [|discriminate].
      intros z Hz Hzi. rewrite E in Hz. apply in_app_iff in Hz. destruct Hz as [Hz|[<-|Hz]]; [specialize (Ha z Hz Hzi); lia|auto|].
      exfalso. assert (F : In z (lv ht i b)) by (apply lv_in; auto). rewrite Eb in F. destruct F.
    + apply lv_first in Eb. destruct Eb as (u & w & -> & Hu & Hy & _).
      destruct (IH (a ++ x :: u) y w) as (p & m' & Es & R1 & R2).
      * rewrite app_length in Hf. cbn in Hf. lia.
      * rewrite E, <- app_assoc. reflexivity.
      * exact Hy.
      * intros z Hz Hzi. apply in_app_iff in Hz. destruct Hz as [Hz|[<-|Hz]]; [auto|lia|].
        exfalso. assert (F : In z (lv ht i u)) by (apply lv_in; auto). rewrite Hu in F. destruct F.
      * exists p, m'. auto.
Qed.

Lemma len_L : length L <= length (hp d).
Proof. unfold L, ids. rewrite map_length. apply (v_len _ _ (r_view _ _ _ R)). Qed.

Lemma find_levels_ok : forall i nd, 0 < i <= length (hd d) ->
  (forall x, nd = Some x -> In x L /\ i <= ht x /\ (cmp (gv h x) v < 0)%Z) ->
  exists p, find_levels cmp i d v nd = Ok p /\
    match p with
    | Some y => In y L /\ cmp (gv h y) v = 0%Z
    | None => forall z, In z L -> cmp (gv h z) v <> 0%Z
    end.
Proof.
  induction i as [|i IH]; intros nd Hi Hnd; [lia|]. cbn [find_levels].
  destruct (r_lv _ _ _ R i ltac:(lia)) as [_ Hh]. fold ht L in Hh.
  match goal with |- context [bind ?m _] => assert (exists nd' : ptr, m = Ok nd' /\
            (forall x, nd' = Some x -> exists a b, L = a ++ x :: b /\ i < ht x /\ forall z, In z a -> i < ht z -> (cmp (gv h z) v < 0)%Z) /\
            (nd' = None -> lv ht i L = [])) as (nd' & -> & H1 & H2) end.
  { destruct nd as [x|].
    - destruct (Hnd x eq_refl) as (X1 & X2 & X3). exists (Some x). split; [reflexivity|]. split; [|discriminate].
      intros y Ey. injection Ey as <-. apply in_split in X1. destruct X1 as (a & b & E). exists a, b. split; [auto|]. split; [lia|].
      intros z Hz _. apply (cle_lt cmp Hp) with (gv h x); auto. pose proof r_ord as Ho. rewrite E in Ho. eapply ord_app; [exact Ho|auto|left; auto].
    - rewrite (proj2 (rd_Ok _ _ _) Hh). eexists; split; [reflexivity|]. split; [|apply nxt_none].
      intros x Ex. destruct (lv ht i L) as [|y m] eqn:El; [discriminate|]. cbn in Ex. injection Ex as ->.
      apply lv_first in El. destruct El as (u & w & E & Hu & Hx & _). exists u, w. split; [auto|]. split; [auto|].
      intros z Hz Hzi. exfalso. assert (F : In z (lv ht i u)) by (apply lv_in; auto). rewrite Hu in F. destruct F. }
  cbn [bind]. destruct nd' as [x|].
  - destruct (H1 x eq_refl) as (a & b & E & Hx & Ha).
    destruct (seek_ok i ltac:(lia) (S (length (hp d))) a x b) as (p & m & Es & R1 & R2); auto.
    { pose proof len_L as F. rewrite E, app_length in F. cbn in F. lia. }
    unfold h in Es. rewrite Es. cbn [bind]. destruct m.
    + destruct (R1 eq_refl) as (y & -> & Y1 & Y2). exists (Some y). auto.
    + destruct (R2 eq_refl) as [N1 N2]. destruct i as [|i].
      * exists None. split; [reflexivity|]. intros z Hz. apply N1; auto. now apply r_ht.
      * apply IH; [lia|]. intros y Ey. destruct (N2 y Ey) as (A & B & C). split; [auto|split; [lia|auto]].
  - specialize (H2 eq_refl). destruct i as [|i].
    + exists None. split; [reflexivity|]. intros z Hz. exfalso.
      assert (F : In z (lv ht 0 L)) by (apply lv_in; split; [auto|now apply r_ht]). rewrite H2 in F. destruct F.
    + apply IH; [lia|]. discriminate.
Qed.

Lemma links a x b : L = a ++ x :: b -> NX h 0 x = Some (nxt_of b None) /\ PV h 0 x = Some (lst_of None a).
Proof.
  intro E. pose proof (v_seg _ _ (r_view _ _ _ R)) as Sg. fold h L in Sg. rewrite E in Sg. apply seg_app in Sg.
  destruct Sg as (_ & A & B & _). auto.
Qed.

Lemma back_ok : forall fuel a x b, length a < fuel -> L = a ++ x :: b -> cmp (gv h x) v = 0%Z ->
  exists a' y b', back cmp fuel d v x = Ok y /\ L = a' ++ y :: b' /\ cmp (gv h y) v = 0%Z /\
    forall z, In z a' -> (cmp (gv h z) v < 0)%Z.
Proof.
  induction fuel as [|f IH]; intros a x b Hf E E0; [lia|]. cbn [back].
  destruct (links _ _ _ E) as [_ Px]. unfold node_prev. fold h. rewrite (prev_ok _ _ _ _ Px). cbn [bind].
  destruct a as [|y a] using rev_ind.
  - cbn. exists [], x, b. repeat split; auto. intros z [].
  - clear IHa. rewrite lst_app. cbn [lst_of]. rewrite r_val by (rewrite E; apply in_or_app; left; apply in_or_app; right; left; auto). cbn [bind].
    rewrite app_length in Hf. cbn in Hf.
    destruct (Z.eqb_spec (cmp (gv h y) v) 0) as [E1|E1].
    + apply (IH a y (x :: b)); auto; [lia|]. rewrite E, <- app_assoc. reflexivity.
    + exists (a ++ [y]), x, b. repeat split; auto. intros z Hz.
      pose proof r_ord as Ho. rewrite E in Ho.
      assert (Hy : (cmp (gv h y) v < 0)%Z).
      { assert (Hyx : (cmp (gv h y) (gv h x) <= 0)%Z) by (eapply ord_app; [exact Ho|apply in_or_app; right; left; auto|left; auto]).
        pose proof (cle_trans cmp Hp (gv h y) (gv h x) v Hyx). lia. }
      apply in_app_iff in Hz. destruct Hz as [Hz|[<-|[]]]; auto.
      apply (cle_lt cmp Hp) with (gv h y); auto. rewrite <- app_assoc in Ho. cbn in Ho. eapply ord_app; [exact Ho|auto|left; auto].
Qed.

Lemma forth_ok : forall fuel a x b, length b < fuel -> L = a ++ x :: b -> cmp (gv h x) v = 0%Z ->
  (forall z, In z a -> gv h z <> v) ->
  exists p, forth cmp fuel d v x = Ok p /\
    match p with
    | Some y => exists a' b', L = a' ++ y :: b' /\ gv h y = v /\ forall z, In z a' -> gv h z <> v
    | None => forall z, In z L -> gv h z <> v
    end.
Proof.
  induction fuel as [|f IH]; intros a x b Hf E E0 Ha; [lia|]. cbn [forth]. fold h.
  rewrite r_val by (rewrite E; apply in_or_app; right; left; auto). cbn [bind].
  destruct (N.eqb_spec v (gv h x)) as [Ev|Ev].
  { exists (Some x). split; [reflexivity|]. exists a, b. auto. }
  destruct (links _ _ _ E) as [Nx _]. unfold node_next. fold h. rewrite (next_ok _ _ _ _ Nx). cbn [bind].
  destruct b as [|y b]; cbn [nxt_of].
  - exists None. split; [reflexivity|]. intros z Hz. rewrite E in Hz. apply in_app_iff in Hz. destruct Hz as [Hz|[<-|[]]]; auto.
  - rewrite r_val by (rewrite E; apply in_or_app; right; right; left; auto). cbn [bind].
    destruct (Z.eqb_spec (cmp (gv h y) v) 0) as [E1|E1].
    + apply (IH (a ++ [x]) y b); auto; [cbn in Hf; lia|rewrite E, <- app_assoc; reflexivity|].
      intros z Hz. apply in_app_iff in Hz. destruct Hz as [Hz|[<-|[]]]; auto.
    + exists None. split; [reflexivity|]. intros z Hz Ez. rewrite E in Hz. apply in_app_iff in Hz. destruct Hz as [Hz|[<-|Hz]]; [eapply Ha; eauto|auto|].
      assert (G : (0 < cmp (gv h y) v)%Z).
      { pose proof r_ord as Ho. rewrite E in Ho. apply ord_suf in Ho.
        assert (Hxy : (cmp (gv h x) (gv h y) <= 0)%Z) by (eapply ord_app with (a := [x]); [exact Ho|left; auto|left; auto]).
        assert (cmp v (gv h x) <= 0)%Z by (pose proof (csgn cmp Hp v (gv h x)); lia).
        pose proof (cle_trans cmp Hp v (gv h x) (gv h y) H Hxy). pose proof (csgn cmp Hp v (gv h y)). lia. }
      destruct Hz as [<-|Hz]; [rewrite Ez, (crefl cmp Hp) in G; lia|].
      pose proof r_ord as Ho. rewrite E in Ho. apply ord_suf in Ho.
      assert (Hyz : (cmp (gv h y) (gv h z) <= 0)%Z) by (eapply ord_app with (a := [x; y]); [exact Ho|right; left; auto|auto]).
      rewrite Ez in Hyz. lia.
Qed.
End Levels.

Lemma find_s (c : cfg) d l v t : srt c = true -> Reps cmp d l -> find cmp c d v t = Ok (first_hit cmp c t v l).
Proof.
  intros Hs R. unfold find, first_hit, usable.
  replace (negb (v =? 0)%N && (mptr t || has_eq c)) with (negb ((v =? 0)%N || (negb (mptr t) && negb (has_eq c))))
    by (destruct (v =? 0)%N, (mptr t), (has_eq c); reflexivity).
  destruct ((v =? 0)%N || (negb (mptr t) && negb (has_eq c))); cbn [negb]; auto. rewrite Hs.
  pose proof (r_view _ _ _ R) as V.
  assert (Hg : forall x w, In (x, w) l -> gv (hp d) x = w) by (intros; eapply gv_in; eauto).
  destruct (find_levels_ok d l R v (length (hd d)) None) as (p & -> & Hpp); [split; [apply (r_hd _ _ _ R)|auto]|discriminate|].
  cbn [bind]. assert (Hz : forall w, (cmp v w = 0 <-> cmp w v = 0)%Z) by (intro w; pose proof (csgn cmp Hp v w); lia).
  destruct p as [x|].
  - destruct Hpp as [Hx E0]. apply in_split in Hx. destruct Hx as (a & b & E).
    destruct (back_ok d l R v (S (length (hp d))) a x b) as (a' & y & b' & -> & E' & Ey & Ha'); auto.
    { pose proof (len_L d l R) as F. rewrite E, app_length in F. cbn in F. lia. }
    cbn [bind]. destruct (mptr t) eqn:Et; cbn [negb].
    + destruct (forth_ok d l R v (S (length (hp d))) a' y b') as (p & -> & Hf); auto.
      { pose proof (len_L d l R) as F. rewrite E', app_length in F. cbn in F. lia. }
      { intros z Hz' Ez. specialize (Ha' z Hz'). rewrite Ez, (crefl cmp Hp) in Ha'. lia. }
      f_equal. symmetry. destruct p as [q|].
      * destruct Hf as (a2 & b2 & E2 & Eq & Hne). destruct (split_ids _ _ _ E2) as (la & lb & El & Ela & Elb).
        destruct lb as [|[q' w] lb]; [discriminate|]. cbn in Elb. injection Elb as -> Elb. subst l. apply first_some.
        -- intros [e w'] He. unfold matches. rewrite Et. cbn [snd]. apply N.eqb_neq. intro F. subst w'.
           apply (Hne e); [rewrite <- Ela; apply (in_map fst) in He; exact He|]. apply Hg. apply in_or_app; auto.
        -- unfold matches. rewrite Et. cbn [snd]. apply N.eqb_eq. rewrite <- Eq. apply Hg. apply in_or_app; right; left; auto.
      * rewrite filter_none; auto. intros [e w] He. unfold matches. rewrite Et. cbn [snd]. apply N.eqb_neq. intro F. subst w.
        apply (Hf e); [apply (in_map fst) in He; exact He|]. apply Hg; auto.
    + f_equal. symmetry. destruct (split_ids _ _ _ E') as (la & lb & El & Ela & Elb).
      destruct lb as [|[q' w] lb]; [discriminate|]. cbn in Elb. injection Elb as -> Elb. subst l. apply first_some.
      * intros [e w'] He. unfold matches. rewrite Et. cbn [snd]. apply Z.eqb_neq. intro F. apply Hz in F.
        assert (K : In e a') by (rewrite <- Ela; apply (in_map fst) in He; exact He). specialize (Ha' e K).
        rewrite (Hg e w') in Ha' by (apply in_or_app; auto). lia.
      * unfold matches. rewrite Et. cbn [snd]. apply Z.eqb_eq. apply Hz. rewrite <- Ey. f_equal. symmetry. apply Hg. apply in_or_app; right; left; auto.
  - rewrite filter_none; auto. intros [e w] He. specialize (Hpp e ltac:(apply (in_map fst) in He; exact He)).
    rewrite (Hg e w He) in Hpp. unfold matches. cbn [snd]. destruct (mptr t).
    + apply N.eqb_neq. intros ->. rewrite (crefl cmp Hp) in Hpp. congruence.
    + apply Z.eqb_neq. intro F. apply Hz in F. congruence.
Qed.
End Find.

From Verif Require Import Base.Lib Sort.Spec Sort.Binary Llist.Spec Llist.Model Llist.Proofs.

Definition lv (ht : nat -> nat) (i : nat) (l : list nat) : list nat := filter (fun x => i <? ht x) l.
Definition gv (h : heap) (x : nat) : N := match VL h x with Some v => v | None => 0%N end.

Lemma lv_cons ht i x l : lv ht i (x :: l) = if i <? ht x then x :: lv ht i l else lv ht i l.
Proof. reflexivity. Qed.
Lemma lv_app ht i a b : lv ht i (a ++ b) = lv ht i a ++ lv ht i b.
Proof. apply filter_app. Qed.
Lemma lv_in ht i l x : In x (lv ht i l) <-> In x l /\ i < ht x.
Proof. unfold lv. rewrite filter_In, Nat.ltb_lt. tauto. Qed.
Lemma lv_none ht i l : (forall x, In x l -> ht x <= i) -> lv ht i l = [].
Proof.
  intro H. induction l as [|x l IH]; auto. rewrite lv_cons.
  destruct (Nat.ltb_spec i (ht x)) as [F|]; [specialize (H x (or_introl eq_refl)); lia|]. apply IH. intros; apply H; right; auto.
Qed.
Lemma lv_all ht i l : (forall x, In x l -> i < ht x) -> lv ht i l = l.
Proof.
  intro H. induction l as [|x l IH]; auto. rewrite lv_cons.
  destruct (Nat.ltb_spec i (ht x)) as [F|F]; [|specialize (H x (or_introl eq_refl)); lia]. f_equal. apply IH. intros; apply H; right; auto.
Qed.
Lemma lv_ext ht ht' i l : (forall x, In x l -> ht x = ht' x) -> lv ht i l = lv ht' i l.
Proof. intro H. apply filter_ext_in. intros x Hx. now rewrite H. Qed.
Lemma lv_nodup ht i l : NoDup l -> NoDup (lv ht i l).
Proof. apply NoDup_filter. Qed.
(** The first node of a level *)
Lemma lv_first ht i l y m : lv ht i l = y :: m -> exists u w, l = u ++ y :: w /\ lv ht i u = [] /\ i < ht y /\ lv ht i w = m.
Proof.
  induction l as [|x l IH]; [discriminate|]. rewrite lv_cons. intro E. destruct (Nat.ltb_spec i (ht x)) as [F|F].
  - injection E as -> E. exists [], l. auto.
  - destruct (IH E) as (u & w & -> & A & B & C). exists (x :: u), w. rewrite lv_cons.
    destruct (Nat.ltb_spec i (ht x)); [lia|]. auto.
Qed.
Lemma lv_lst ht i a : (forall x, lst_of None a = Some x -> i < ht x) -> lst_of None (lv ht i a) = lst_of None a.
Proof.
  destruct a as [|x a] using rev_ind; auto. clear IHa. intro H. rewrite lv_app, !lst_app in *. cbn [lst_of] in *. rewrite lv_cons.
  rewrite (proj2 (Nat.ltb_lt i (ht x)) (H x eq_refl)). reflexivity.
Qed.

Section Sorted.
Context (cmp : N -> N -> Z) (Hp : total_preorder cmp).

Lemma cle_trans x y z : (cmp x y <= 0 -> cmp y z <= 0 -> cmp x z <= 0)%Z.
Proof. apply Hp. Qed.
Lemma csgn x y : (Z.sgn (cmp y x) = - Z.sgn (cmp x y))%Z.
Proof. apply Hp. Qed.
Lemma cgt x y : (0 < cmp x y)%Z <-> (cmp y x < 0)%Z.
Proof. pose proof (csgn x y). lia. Qed.
Lemma cge x y : (0 <= cmp x y)%Z <-> (cmp y x <= 0)%Z.
Proof. pose proof (csgn x y). lia. Qed.
Lemma clt_le x y z : (cmp x y < 0 -> cmp y z <= 0 -> cmp x z < 0)%Z.
Proof.
  intros A B. pose proof (cle_trans x y z ltac:(lia) B). destruct (Z.eq_dec (cmp x z) 0) as [E|]; [|lia].
  assert (cmp z x <= 0)%Z by (pose proof (csgn x z); lia). pose proof (cle_trans y z x B H0).
  pose proof (csgn x y). lia.
Qed.
Lemma cle_lt x y z : (cmp x y <= 0 -> cmp y z < 0 -> cmp x z < 0)%Z.
Proof.
  intros A B. pose proof (cle_trans x y z A ltac:(lia)). destruct (Z.eq_dec (cmp x z) 0) as [E|]; [|lia].
  assert (cmp z x <= 0)%Z by (pose proof (csgn x z); lia). pose proof (cle_trans z x y H0 A).
  pose proof (csgn z y). lia.
Qed.
Lemma crefl x : cmp x x = 0%Z.
Proof. pose proof (csgn x x). lia. Qed.

(** Nodes in the order of their values *)
Definition ord (h : heap) (l : list nat) : Prop := sorted cmp (map (gv h) l).
Lemma ord_app h a b : ord h (a ++ b) -> forall x y, In x a -> In y b -> (cmp (gv h x) (gv h y) <= 0)%Z.
Proof.
  unfold ord, sorted. induction a as [|z a IH]; cbn; intros H x y Hx Hy; [destruct Hx|].
  apply StronglySorted_inv in H as [H1 H2]. destruct Hx as [->|Hx]; [|apply IH; auto].
  rewrite Forall_forall in H2. apply H2. rewrite map_app. apply in_or_app. right. now apply in_map.
Qed.
Lemma ord_last h a x y : ord h a -> lst_of None a = Some x -> In y a -> (cmp (gv h y) (gv h x) <= 0)%Z.
Proof.
  destruct a as [|z a] using rev_ind; [discriminate|]. rewrite lst_app. cbn. intros H E Hy. injection E as ->.
  apply in_app_iff in Hy. destruct Hy as [Hy|[->|[]]]; [|rewrite crefl; lia].
  eapply ord_app; eauto. left; auto.
Qed.
Lemma ord_pre h a b : ord h (a ++ b) -> ord h a.
Proof. unfold ord, sorted. rewrite map_app. induction a as [|x a IH]; cbn; intro H; constructor.
  - apply IH. now apply StronglySorted_inv in H as [? _].
  - apply StronglySorted_inv in H as [_ H]. rewrite Forall_forall in *. intros y Hy. apply H. apply in_or_app; auto.
Qed.
Lemma ord_suf h a b : ord h (a ++ b) -> ord h b.
Proof. unfold ord, sorted. induction a as [|x a IH]; cbn; intro H; auto. apply StronglySorted_inv in H as [H _]. auto. Qed.

Section Search.
Context (h : heap) (ht : nat -> nat) (L : list nat) (v : N) (Ho : ord h L) (Hnd : NoDup L)
  (Hv : forall x, In x L -> VL h x <> None).
Lemma val_in x : In x L -> value h x = Ok (gv h x).
Proof. intro Hx. apply Hv in Hx. apply value_ok. unfold gv. destruct (VL h x); congruence. Qed.

Definition placed (i : nat) (a b : list nat) : Prop :=
  L = a ++ b /\ (forall x, lst_of None a = Some x -> i <= ht x /\ (cmp (gv h x) v <= 0)%Z) /\
  (forall z, In z b -> i < ht z -> (cmp v (gv h z) <= 0)%Z /\ (a = [] -> (cmp v (gv h z) < 0)%Z)).

Lemma scan_ok i (Sg : seg h i None (lv ht i L) None) : forall fuel a b x, length b < fuel -> L = a ++ b ->
  lst_of None a = Some x -> i < ht x -> (cmp (gv h x) v <= 0)%Z ->
  exists u b' y, b = u ++ b' /\ scan cmp fuel h v i x = Ok y /\ lst_of None (a ++ u) = Some y /\ i < ht y /\
    (cmp (gv h y) v <= 0)%Z /\ (forall z, In z u -> (cmp (gv h z) v < 0)%Z) /\
    (forall z, In z b' -> i < ht z -> (cmp v (gv h z) <= 0)%Z).
Proof.
  induction fuel as [|f IH]; intros a b x Hf E Ex Hi Hle; [lia|].
  assert (Nx : NX h i x = Some (nxt_of (lv ht i b) None)).
  { rewrite E, lv_app in Sg. apply seg_app in Sg. destruct Sg as [Sg _]. eapply seg_last; [exact Sg|].
    rewrite lv_lst; auto. intros y Ey. congruence. }
  cbn [scan]. rewrite (next_ok _ _ _ _ Nx). cbn [bind].
  destruct (lv ht i b) as [|y m] eqn:Eb; cbn [nxt_of].
  - exists [], b, x. rewrite app_nil_r. repeat split; auto; [intros z []|].
    intros z Hz Hzi. exfalso. assert (In z (lv ht i b)) by (apply lv_in; auto). rewrite Eb in H. destruct H.
  - apply lv_first in Eb. destruct Eb as (u & w & -> & Hu & Hy & Hw).
    rewrite val_in by (rewrite E; apply in_or_app; right; apply in_or_app; right; left; auto). cbn [bind].
    destruct (Z.ltb_spec 0 (cmp v (gv h y))) as [Hgt|Hgt].
    + destruct (IH (a ++ u ++ [y]) w y) as (u' & b' & y' & -> & E' & El & Hi' & Hl & Hlt & Hge).
      * rewrite app_length in Hf. cbn in Hf. lia.
      * rewrite E, <- !app_assoc. reflexivity.
      * rewrite !lst_app. reflexivity.
      * exact Hy.
      * apply cgt in Hgt. lia.
      * exists (u ++ y :: u'), b', y'. rewrite <- !app_assoc in *. cbn [app] in *. repeat split; auto.
        intros z Hz. apply in_app_iff in Hz. destruct Hz as [Hz|[<-|Hz]]; auto; [|now apply cgt].
        apply cle_lt with (gv h y); [|now apply cgt].
        rewrite E in Ho. apply ord_suf in Ho. eapply ord_app; [exact Ho|exact Hz|left; auto].
    + exists [], (u ++ y :: w), x. rewrite app_nil_r. repeat split; auto; [intros z []|].
      intros z Hz Hzi. apply in_app_iff in Hz. destruct Hz as [Hz|[<-|Hz]]; auto.
      * exfalso. assert (In z (lv ht i u)) by (apply lv_in; auto). rewrite Hu in H. destruct H.
      * apply cle_trans with (gv h y); auto. rewrite E in Ho. apply ord_suf in Ho. apply ord_suf in Ho.
        eapply ord_app with (a := [y]); [exact Ho|left; auto|auto].
Qed.

Lemma search_ok d i a b : hp d = h -> seg h i None (lv ht i L) None ->
  nth_error (hd d) i = Some (nxt_of (lv ht i L) None) -> length L <= length h -> placed (S i) a b ->
  exists u b' n1, b = u ++ b' /\ start_at cmp d v i (lst_of None a) = Ok n1 /\
    match n1 with None => Ok None | Some x => do y <- scan cmp (S (length (hp d))) (hp d) v i x; Ok (Some y) end = Ok (lst_of None (a ++ u)) /\
    (forall z, In z u -> ht z <= S i) /\ placed i (a ++ u) b' /\ (forall x, lst_of None (a ++ u) = Some x -> i < ht x).
Proof.
  intros Eh Sg Hd Hlen (E & Ha & Hb).
  assert (Lb : length b <= length L) by (rewrite E, app_length; lia).
  destruct (lst_of None a) as [x|] eqn:Ex.
  - destruct (Ha x eq_refl) as [Hx Hle].
    destruct (scan_ok i Sg (S (length h)) a b x) as (u & b' & y & -> & Es & El & Hy & Hyle & Hlt & Hge); auto; try lia.
    exists u, b', (Some x). split; [reflexivity|]. split; [reflexivity|]. rewrite Eh, Es, El. cbn [bind]. split; [reflexivity|]. split.
    + intros z Hz. destruct (Nat.le_gt_cases (ht z) (S i)); auto. exfalso.
      destruct (Hb z) as [F _]; [apply in_or_app; auto|lia|]. specialize (Hlt z Hz). pose proof (csgn v (gv h z)). lia.
    + split; [|intros w Ew; try rewrite El in Ew; injection Ew as <-; auto].
      split; [rewrite E, <- app_assoc; reflexivity|]. split.
      * intros w Ew. rewrite El in Ew. injection Ew as <-. split; [lia|auto].
      * intros z Hz Hzi. split; [apply Hge; auto|]. intro F. rewrite F in El. discriminate.
  - assert (ids_a : a = []).
    { destruct a as [|q a]; auto. destruct (lst_ne None q a) as (? & F & _). congruence. }
    subst a. cbn [app] in E. subst b.
    unfold start_at. rewrite (proj2 (rd_Ok _ _ _) Hd), Eh. cbn [bind].
    destruct (lv ht i L) as [|x m] eqn:El; cbn [nxt_of].
    + exists [], L, None. split; [reflexivity|]. split; [reflexivity|]. split; [reflexivity|]. split; [intros z []|].
      split; [|intros ? F; discriminate]. split; [reflexivity|]. split; [intros ? F; discriminate|]. intros z Hz Hzi. exfalso.
      assert (F : In z (lv ht i L)) by (apply lv_in; auto). rewrite El in F. destruct F.
    + apply lv_first in El. destruct El as (u & w & E & Hu & Hx & Hw).
      assert (Hin : In x L) by (rewrite E; apply in_or_app; right; left; auto).
      rewrite val_in by auto. cbn [bind]. destruct (Z.ltb_spec 0 (cmp (gv h x) v)) as [Hgt|Hgt].
      * exists [], L, None. split; [reflexivity|]. split; [reflexivity|]. split; [reflexivity|]. split; [intros z []|].
        split; [|intros ? F; discriminate]. split; [reflexivity|]. split; [intros ? F; discriminate|]. intros z Hz Hzi.
        assert (cmp v (gv h z) < 0)%Z; [|split; intros; lia].
        apply clt_le with (gv h x); [now apply cgt|]. rewrite E in Hz. apply in_app_iff in Hz. destruct Hz as [Hz|[<-|Hz]].
        -- exfalso. assert (In z (lv ht i u)) by (apply lv_in; auto). rewrite Hu in H. destruct H.
        -- rewrite crefl. lia.
        -- rewrite E in Ho. apply ord_suf in Ho. eapply ord_app with (a := [x]); [exact Ho|left; auto|auto].
      * assert (Sg' : seg h i None (lv ht i L) None).
        { rewrite E, lv_app, lv_cons, (proj2 (Nat.ltb_lt _ _) Hx), Hu, Hw. exact Sg. }
        destruct (scan_ok i Sg' (S (length h)) (u ++ [x]) w x) as (u' & b' & y & -> & Es & Ely & Hy & Hyle & Hlt & Hge); auto.
        { rewrite E, app_length in Hlen. cbn in Hlen. lia. }
        { rewrite E, <- app_assoc. reflexivity. }
        { rewrite lst_app. reflexivity. }
        exists (u ++ x :: u'), b', (Some x).
        assert (El' : lst_of None (u ++ x :: u') = Some y) by (rewrite <- app_assoc in Ely; exact Ely).
        assert (Hall : forall z, In z (u ++ x :: u') -> (cmp (gv h z) v <= 0)%Z).
        { intros z Hz. apply cle_trans with (gv h y); auto. eapply ord_last; [|exact El'|auto].
          rewrite E in Ho. replace (u ++ x :: u' ++ b') with ((u ++ x :: u') ++ b') in Ho by (rewrite <- app_assoc; reflexivity).
          apply ord_pre in Ho. exact Ho. }
        split; [rewrite E, <- app_assoc; reflexivity|]. split; [reflexivity|]. rewrite Es. cbn [bind app]. split; [now rewrite El'|].
        split.
        -- intros z Hz. destruct (Nat.le_gt_cases (ht z) (S i)); auto. exfalso.
           destruct (Hb z) as [_ F]; [rewrite E; rewrite in_app_iff in *; cbn in *; rewrite in_app_iff; tauto|lia|].
           specialize (F eq_refl). specialize (Hall z Hz). pose proof (csgn v (gv h z)). lia.
        -- split; [|intros w Ew; try rewrite El' in Ew; injection Ew as <-; auto].
           split; [rewrite E, <- app_assoc; reflexivity|]. split.
           ++ intros w Ew. rewrite El' in Ew. injection Ew as <-. split; [lia|auto].
           ++ intros z Hz Hzi. split; [apply Hge; auto|]. intro F. rewrite F in El'. discriminate.
Qed.
End Search.

(** The lists differ at level [i] only. *)
Definition same_but (i : nat) (d d' : ll) : Prop :=
  (forall j y, j <> i -> NX (hp d') j y = NX (hp d) j y /\ PV (hp d') j y = PV (hp d) j y) /\
  (forall j, j <> i -> nth_error (hd d') j = nth_error (hd d) j) /\
  (forall y, VL (hp d') y = VL (hp d) y) /\ (forall y, hgt (hp d') y = hgt (hp d) y) /\
  (forall y, even (hp d) y -> even (hp d') y) /\
  length (hp d') = length (hp d) /\ length (hd d') = length (hd d) /\ cnt d' = cnt d /\ fr d' = fr d.
Lemma upd_hd (l : list ptr) i p : i < length l ->
  nth_error (upd l i p) i = Some p /\ forall j, j <> i -> nth_error (upd l i p) j = nth_error l j.
Proof.
  intro H. split; [|intros j Hj]; rewrite nth_error_upd; [rewrite Nat.eqb_refl, (proj2 (Nat.ltb_lt _ _) H); reflexivity|].
  rewrite (proj2 (Nat.eqb_neq _ _) Hj). reflexivity.
Qed.
Lemma seg_nx h i p l q x : seg h i p l q -> In x l -> exists a, NX h i x = Some a.
Proof. intros S Hx. destruct (seg_cons_in _ _ _ _ _ _ S Hx) as (a & _ & E & _). eauto. Qed.
Lemma seg_pv h i p l q x : seg h i p l q -> In x l -> exists a, PV h i x = Some a.
Proof. intros S Hx. destruct (seg_cons_in _ _ _ _ _ _ S Hx) as (_ & b & _ & E). eauto. Qed.
Ltac sn H h N P V G L E := edestruct (set_next_ok) as (h & H & N & P & V & G & L & E); [|rewrite H; cbn [bind]].
Ltac sp H h N P V G L E := edestruct (set_prev_ok) as (h & H & P & N & V & G & L & E); [|rewrite H; cbn [bind]].
Ltac neqb := match goal with H : ?a <> ?b |- context [?a =? ?b] => rewrite (proj2 (Nat.eqb_neq a b)) by exact H end.

Lemma chain_in_ok d n i A B q1 q2 : seg (hp d) i None (A ++ B) None -> NoDup (A ++ n :: B) ->
  nth_error (hd d) i = Some (nxt_of (A ++ B) None) -> NX (hp d) i n = Some q1 -> PV (hp d) i n = Some q2 ->
  exists d', chain_in d n i (lst_of None A) = Ok d' /\ same_but i d d' /\
    seg (hp d') i None (A ++ n :: B) None /\ nth_error (hd d') i = Some (nxt_of (A ++ n :: B) None) /\
    tl d' = (if (i =? 0) && match B with [] => true | _ => false end then Some n else tl d).
Proof.
  intros Sg Hnd Hh En Ep.
  assert (HnAB : ~ In n (A ++ B)) by (apply NoDup_remove_2; auto).
  assert (HnA : ~ In n A) by (intro; apply HnAB; apply in_or_app; auto).
  assert (HnB : ~ In n B) by (intro; apply HnAB; apply in_or_app; auto).
  assert (Hi : i < length (hd d)) by (apply nth_error_Some; congruence).
  unfold chain_in.
  (* first part *)
  assert (B1 : exists d1, match lst_of None A with
      | None => do p <- rd (hd d) i; do h <- set_next (hp d) i n p; do h <- set_prev h i n None;
                do hd' <- wr (hd d) i (Some n); Ok (mkd h hd' (tl d) (cnt d) (fr d))
      | Some x => do p <- next (hp d) i x; do h <- set_next (hp d) i n p; do h <- set_prev h i n (Some x);
                  do h <- set_next h i x (Some n); Ok (set_hp d h) end = Ok d1 /\
      same_but i d d1 /\ tl d1 = tl d /\ nth_error (hd d1) i = Some (nxt_of (A ++ n :: B) None) /\
      (forall x, x <> n -> NX (hp d1) i x = if peq (lst_of None A) x then Some (Some n) else NX (hp d) i x) /\
      (forall x, x <> n -> PV (hp d1) i x = PV (hp d) i x) /\
      NX (hp d1) i n = Some (nxt_of B None) /\ PV (hp d1) i n = Some (lst_of None A)).
  { destruct (lst_of None A) as [x|] eqn:EA.
    - assert (Hx := lst_in' _ _ EA). assert (x <> n) by (intros ->; auto).
      assert (Nx : NX (hp d) i x = Some (nxt_of B None)) by (apply seg_app in Sg; destruct Sg as [Sg _]; eapply seg_last; eauto).
      rewrite (next_ok _ _ _ _ Nx). cbn [bind].
      sn A1 h1 N1 P1 V1 G1 L1 E1; [exact En|]. sp A2 h2 N2 P2 V2 G2 L2 E2; [rewrite P1; exact Ep|].
      sn A3 h3 N3 P3 V3 G3 L3 E3; [rewrite N2, N1, (proj2 (Nat.eqb_neq x n)) by auto; rewrite andb_false_r; exact Nx|].
      eexists; split; [reflexivity|]. cbn [hp hd tl set_hp]. split; [|split; [reflexivity|]].
      + repeat split; cbn [hp hd tl cnt fr set_hp]; auto; intros; try congruence.
        * rewrite N3, N2, N1. neqb. reflexivity.
        * rewrite P3, P2, P1. neqb. reflexivity.
      + split; [rewrite Hh; f_equal; destruct A; [discriminate|reflexivity]|]. split; [|split; [|split]].
        * intros y Hy. rewrite N3, N2, N1. rewrite Nat.eqb_refl. cbn [andb peq]. rewrite (Nat.eqb_sym x y).
          rewrite (proj2 (Nat.eqb_neq y n)) by auto. reflexivity.
        * intros y Hy. rewrite P3, P2, P1, (proj2 (Nat.eqb_neq y n)) by auto. now rewrite andb_false_r.
        * rewrite N3, N2, N1, !Nat.eqb_refl, (proj2 (Nat.eqb_neq n x)) by auto. reflexivity.
        * rewrite P3, P2, !Nat.eqb_refl. reflexivity.
    - assert (A = []) as -> by (destruct A as [|y A]; auto; destruct (lst_ne None y A) as (? & F & _); congruence).
      cbn [app] in *. rewrite (proj2 (rd_Ok _ _ _) Hh). cbn [bind].
      sn A1 h1 N1 P1 V1 G1 L1 E1; [exact En|]. sp A2 h2 N2 P2 V2 G2 L2 E2; [rewrite P1; exact Ep|].
      rewrite wr_lt by exact Hi. cbn [bind]. eexists; split; [reflexivity|]. cbn [hp hd tl].
      destruct (upd_hd (hd d) i (Some n) Hi) as [U1 U2]. split; [|split; [reflexivity|]].
      + repeat split; cbn [hp hd tl cnt fr]; auto; intros; try congruence; [| |apply length_upd].
        * rewrite N2, N1. neqb. reflexivity.
        * rewrite P2, P1. neqb. reflexivity.
      + split; [exact U1|]. split; [|split; [|split]].
        * intros y Hy. rewrite N2, N1, (proj2 (Nat.eqb_neq y n)) by auto. now rewrite andb_false_r.
        * intros y Hy. rewrite P2, P1, (proj2 (Nat.eqb_neq y n)) by auto. now rewrite andb_false_r.
        * rewrite N2, N1, !Nat.eqb_refl. reflexivity.
        * rewrite P2, !Nat.eqb_refl. reflexivity. }
  destruct B1 as (d1 & -> & (S1 & S2 & S3 & S4 & S5 & S6 & S7 & S8 & S9) & Tl & Hh1 & N & P & Nn & Pn). cbn [bind].
  rewrite (next_ok _ _ _ _ Nn). cbn [bind].
  destruct B as [|y B]; cbn [nxt_of].
  - destruct (Nat.eqb_spec i 0) as [->|Hi0].
    + eexists; split; [reflexivity|]. cbn [hp hd tl cnt fr andb]. split; [|split; [|split]]; auto.
      * repeat split; cbn [hp hd tl cnt fr]; auto; intros; apply S1; auto.
      * eapply seg_insert; [exact Hnd|exact Sg| | |exact Nn|exact Pn].
        -- intros x Hx. apply N. intros ->; auto.
        -- intros x Hx. cbn. apply P. intros ->; auto.
    + eexists; split; [reflexivity|]. cbn [andb]. split; [|split; [|split]]; auto.
      * repeat split; auto; intros; apply S1; auto.
      * eapply seg_insert; [exact Hnd|exact Sg| | |exact Nn|exact Pn].
        -- intros x Hx. apply N. intros ->; auto.
        -- intros x Hx. cbn. apply P. intros ->; auto.
  - assert (Hyn : y <> n) by (intros ->; apply HnB; left; auto).
    destruct (seg_pv _ _ _ _ _ y Sg) as [q Q]; [apply in_or_app; right; left; auto|].
    sp A4 h4 N4 P4 V4 G4 L4 E4; [rewrite P by auto; exact Q|].
    eexists; split; [reflexivity|]. cbn [hp hd tl cnt fr set_hp]. rewrite andb_false_r. split; [|split; [|split]]; auto.
    + repeat split; cbn [hp hd tl cnt fr set_hp]; auto; intros; try congruence.
      * rewrite N4. apply S1; auto.
      * rewrite P4. neqb. apply S1; auto.
    + eapply seg_insert; [exact Hnd|exact Sg| | | |].
      * intros x Hx. rewrite N4. apply N. intros ->; auto.
      * intros x Hx. rewrite P4, Nat.eqb_refl. cbn [nxt_of peq andb]. rewrite (Nat.eqb_sym y x).
        destruct (x =? y); auto. apply P. intros ->; auto.
      * rewrite N4. exact Nn.
      * rewrite P4, (proj2 (Nat.eqb_neq n y)) by auto. rewrite andb_false_r. exact Pn.
Qed.

Lemma relink_ok d n i A B : seg (hp d) i None (A ++ n :: B) None -> NoDup (A ++ n :: B) ->
  nth_error (hd d) i = Some (nxt_of (A ++ n :: B) None) ->
  exists d', relink d n i = Ok d' /\ same_but i d d' /\
    seg (hp d') i None (A ++ B) None /\ nth_error (hd d') i = Some (nxt_of (A ++ B) None) /\
    (forall j, NX (hp d') j n = NX (hp d) j n /\ PV (hp d') j n = PV (hp d) j n) /\
    tl d' = (if (i =? 0) && match B with [] => true | _ => false end then lst_of None A else tl d).
Proof.
  intros Sg Hnd Hh.
  assert (HnAB : ~ In n (A ++ B)) by (apply NoDup_remove_2; auto).
  assert (HnA : ~ In n A) by (intro; apply HnAB; apply in_or_app; auto).
  assert (HnB : ~ In n B) by (intro; apply HnAB; apply in_or_app; auto).
  assert (Hi : i < length (hd d)) by (apply nth_error_Some; congruence).
  assert (HAB : forall x, In x A -> ~ In x B) by (intros x; apply nodup_app_x; eapply NoDup_remove_1; eauto).
  pose proof Sg as Sg'. apply seg_app in Sg'. destruct Sg' as (SA & En & Ep & SB).
  unfold relink. rewrite (next_ok _ _ _ _ En), (prev_ok _ _ _ _ Ep). cbn [bind].
  assert (B1 : exists d1, match nxt_of B None with
      | None => Ok (if i =? 0 then mkd (hp d) (hd d) (lst_of None A) (cnt d) (fr d) else d)
      | Some y => do h <- set_prev (hp d) i y (lst_of None A); Ok (set_hp d h) end = Ok d1 /\
      same_but i d d1 /\ hd d1 = hd d /\
      (forall x, NX (hp d1) i x = NX (hp d) i x) /\
      (forall x, PV (hp d1) i x = if peq (nxt_of B None) x then Some (lst_of None A) else PV (hp d) i x) /\
      tl d1 = (if (i =? 0) && match B with [] => true | _ => false end then lst_of None A else tl d)).
  { destruct B as [|y B]; cbn [nxt_of].
    - eexists; split; [reflexivity|]. destruct (i =? 0); cbn [andb hp hd tl cnt fr peq];
        (split; [repeat split; auto|auto]).
    - destruct (seg_pv _ _ _ _ _ y Sg) as [q Q]; [apply in_or_app; right; right; left; auto|].
      sp A4 h4 N4 P4 V4 G4 L4 E4; [exact Q|]. eexists; split; [reflexivity|]. cbn [hp hd tl cnt fr set_hp].
      rewrite andb_false_r. split; [|split; [auto|split; [auto|split; [|auto]]]].
      + repeat split; cbn [hp hd tl cnt fr set_hp]; auto; intros; try congruence. rewrite P4. neqb. reflexivity.
      + intro x. rewrite P4, Nat.eqb_refl. cbn. rewrite (Nat.eqb_sym y x). reflexivity. }
  destruct B1 as (d1 & -> & (S1 & S2 & S3 & S4 & S5 & S6 & S7 & S8 & S9) & Hh1 & N & P & Tl). cbn [bind].
  destruct (lst_of None A) as [x|] eqn:EA.
  - assert (Hx := lst_in' _ _ EA). destruct (seg_nx _ _ _ _ _ x Sg) as [q Q]; [apply in_or_app; auto|].
    sn A4 h4 N4 P4 V4 G4 L4 E4; [rewrite N; exact Q|]. eexists; split; [reflexivity|]. cbn [hp hd tl cnt fr set_hp].
    split; [|split; [|split; [|split]]]; auto.
    + repeat split; cbn [hp hd tl cnt fr set_hp]; auto; intros; try congruence.
      * rewrite N4. neqb. apply S1; auto.
      * rewrite P4. apply S1; auto.
    + eapply seg_delete; [exact Hnd|exact Sg| |].
      * intros z Hz. rewrite N4, Nat.eqb_refl. cbn [andb]. rewrite EA. cbn [peq]. rewrite (Nat.eqb_sym x z), N. reflexivity.
      * intros z Hz. rewrite P4, P, EA. reflexivity.
    + rewrite Hh1, Hh. destruct A; [discriminate|reflexivity].
    + intro j. rewrite N4, P4. assert (n <> x) by (intros ->; auto). rewrite (proj2 (Nat.eqb_neq n x)) by auto. rewrite andb_false_r.
      destruct (Nat.eq_dec j i) as [->|Hj]; [|apply S1; auto]. rewrite N, P, peq_nxt_notin by auto. auto.
  - assert (A = []) as -> by (destruct A as [|y A]; auto; destruct (lst_ne None y A) as (? & F & _); congruence).
    cbn [app] in *. rewrite wr_lt by (rewrite Hh1; exact Hi). cbn [bind]. eexists; split; [reflexivity|]. cbn [hp hd tl cnt fr].
    destruct (upd_hd (hd d1) i (nxt_of B None) ltac:(rewrite Hh1; exact Hi)) as [U1 U2].
    split; [|split; [|split; [|split]]]; auto.
    + repeat split; cbn [hp hd tl cnt fr]; auto; intros; try congruence; [apply S1; auto|apply S1; auto| |].
      * rewrite U2 by auto. auto.
      * rewrite length_upd. auto.
    + apply (seg_delete (hp d) (hp d1) i None [] n B None); [exact Hnd|exact Sg| |].
      * intros z Hz. rewrite N. reflexivity.
      * intros z Hz. rewrite P. reflexivity.
    + intro j. destruct (Nat.eq_dec j i) as [->|Hj]; [|apply S1; auto]. rewrite N, P, peq_nxt_notin by auto. auto.
Qed.

Lemma gv_ext h h' x : (forall y, VL h' y = VL h y) -> gv h' x = gv h x.
Proof. intro H. unfold gv. now rewrite H. Qed.
Lemma placed_ext h h' ht L v i a b : (forall y, VL h' y = VL h y) -> placed h ht L v i a b -> placed h' ht L v i a b.
Proof.
  intros H (E & A & B). split; [auto|split].
  - intros x Hx. rewrite (gv_ext h) by auto. auto.
  - intros z Hz. rewrite (gv_ext h) by auto. auto.
Qed.
Lemma ord_ext h h' l : (forall y, VL h' y = VL h y) -> ord h l -> ord h' l.
Proof. intro H. unfold ord. erewrite (map_ext (gv h')); [eauto|]. intro. now apply gv_ext. Qed.

(** What inserting [n] changes on the levels below [i] *)
Lemma ins_ok ht L n v nl : NoDup L -> ~ In n L -> (forall x, In x L -> 0 < ht x) -> 0 < nl ->
  forall i d a b, i <= length (hd d) -> ord (hp d) L -> (forall x, In x L -> VL (hp d) x <> None) ->
  length L <= length (hp d) ->
  (forall j, j < i -> seg (hp d) j None (lv ht j L) None /\ nth_error (hd d) j = Some (nxt_of (lv ht j L) None)) ->
  (forall j, j < nl -> exists q1 q2, NX (hp d) j n = Some q1 /\ PV (hp d) j n = Some q2) ->
  placed (hp d) ht L v i a b ->
  exists d' u b', ins_levels cmp i d n v nl (lst_of None a) = Ok d' /\ b = u ++ b' /\ (forall z, In z u -> ht z <= i) /\
    (forall z, In z (a ++ u) -> (cmp (gv (hp d) z) v <= 0)%Z) /\ (forall z, In z b' -> (cmp v (gv (hp d) z) <= 0)%Z) /\
    (forall j y, i <= j -> NX (hp d') j y = NX (hp d) j y /\ PV (hp d') j y = PV (hp d) j y) /\
    (forall j, i <= j -> nth_error (hd d') j = nth_error (hd d) j) /\
    (forall y, VL (hp d') y = VL (hp d) y) /\ (forall y, hgt (hp d') y = hgt (hp d) y) /\
    (forall y, even (hp d) y -> even (hp d') y) /\
    length (hp d') = length (hp d) /\ length (hd d') = length (hd d) /\ cnt d' = cnt d /\ fr d' = fr d /\
    (forall j, j < i -> exists l', l' = (if j <? nl then lv ht j (a ++ u) ++ n :: lv ht j b' else lv ht j L) /\
       seg (hp d') j None l' None /\ nth_error (hd d') j = Some (nxt_of l' None)) /\
    tl d' = (if (0 <? i) && match b' with [] => true | _ => false end then Some n else tl d).
Proof.
  intros Hnd Hn Hht Hnl. induction i as [|i IH]; intros d a b Hi Ho Hv Hlen Hsg Hnn Hpl.
  - destruct Hpl as (E & A & B). exists d, [], b. rewrite app_nil_r. split; [reflexivity|]. split; [reflexivity|].
    split; [intros z []|]. split.
    { intros z Hz. destruct (lst_of None a) as [x|] eqn:Ex; [|apply lst_none in Ex; subst a; destruct Hz].
      apply cle_trans with (gv (hp d) x); [|apply A; auto]. eapply ord_last; [|exact Ex|auto]. rewrite E in Ho. now apply ord_pre in Ho. }
    split. { intros z Hz. apply B; auto. apply Hht. rewrite E. apply in_or_app; auto. }
    repeat split; auto. intros j Hj. lia.
  - destruct (Hsg i ltac:(lia)) as [Sg Hh].
    destruct (search_ok (hp d) ht L v Ho Hv d i a b eq_refl Sg Hh Hlen Hpl) as (u & b0 & n1 & -> & E1 & E2 & Hu & Hp0 & Hlast).
    cbn [ins_levels]. rewrite E1. cbn [bind]. rewrite E2. cbn [bind].
    assert (EL : L = (a ++ u) ++ b0) by apply Hp0.
    destruct (Nat.leb_spec nl i) as [Hni|Hni].
    + destruct (IH d (a ++ u) b0) as (d' & u1 & b' & Er & -> & Hu1 & Hle & Hge & S1 & S2 & S3 & S4 & S5 & S6 & S7 & S8 & S9 & Lv & Tl);
        auto; try lia.
      exists d', (u ++ u1), b'. rewrite (app_assoc a u u1). split; [exact Er|]. split; [apply app_assoc|]. split; [intros z Hz; apply in_app_iff in Hz; destruct Hz as [Hz|Hz]; auto|].
      split; [auto|]. split; [auto|]. split; [intros; apply S1; lia|]. split; [intros; apply S2; lia|].
      repeat split; auto.
      * intros j Hj. destruct (Nat.eq_dec j i) as [->|Hj']; [|apply Lv; lia]. rewrite (proj2 (Nat.ltb_ge i nl)) by lia.
        eexists; split; [reflexivity|]. rewrite S2 by lia. split; auto. eapply seg_frame; [exact Sg|]. intros x Hx. apply S1; lia.
      * rewrite Tl. destruct i; [lia|]. reflexivity.
    + destruct (Hnn i Hni) as (q1 & q2 & Q1 & Q2).
      assert (Hnd' : NoDup (lv ht i (a ++ u) ++ n :: lv ht i b0)).
      { apply NoDup_Add with (a := n) (l := lv ht i (a ++ u) ++ lv ht i b0); [apply Add_app|]. rewrite <- lv_app, <- EL. split.
        - now apply lv_nodup. - rewrite lv_in. tauto. }
      destruct (chain_in_ok d n i (lv ht i (a ++ u)) (lv ht i b0) q1 q2) as (d1 & Ec & (T1 & T2 & T3 & T4 & T5 & T6 & T7 & T8 & T9) & Sg1 & Hh1 & Tl1); auto.
      { rewrite <- lv_app, <- EL. exact Sg. }
      { rewrite <- lv_app, <- EL. exact Hh. }
      rewrite lv_lst in Ec by exact Hlast. rewrite Ec. cbn [bind].
      destruct (IH d1 (a ++ u) b0) as (d' & u1 & b' & Er & -> & Hu1 & Hle & Hge & S1 & S2 & S3 & S4 & S5 & S6 & S7 & S8 & S9 & Lv & Tl).
      { lia. } { eapply ord_ext; eauto. } { intros x Hx. rewrite T3. auto. } { lia. }
      { intros j Hj. rewrite T2 by lia. destruct (Hsg j ltac:(lia)) as [A B]. split; auto. eapply seg_frame; [exact A|]. intros x Hx. apply T1; lia. }
      { intros j Hj. destruct (Nat.eq_dec j i) as [->|Hj']; [|destruct (T1 j n Hj') as [-> ->]; auto].
        destruct (seg_cons_in _ _ _ _ _ n Sg1) as (x1 & x2 & X1 & X2); [apply in_or_app; right; left; auto|eauto]. }
      { eapply placed_ext; eauto. }
      exists d', (u ++ u1), b'. rewrite (app_assoc a u u1). split; [exact Er|]. split; [apply app_assoc|].
      split; [intros z Hz; apply in_app_iff in Hz; destruct Hz as [Hz|Hz]; auto|].
      split; [intros z Hz; rewrite <- (gv_ext _ _ _ T3); auto|]. split; [intros z Hz; rewrite <- (gv_ext _ _ _ T3); auto|].
      split; [intros j y Hj; destruct (S1 j y ltac:(lia)) as [-> ->]; apply T1; lia|].
      split; [intros j Hj; rewrite S2, T2 by lia; auto|].
      assert (Lu : lv ht i u1 = []) by (apply lv_none; auto).
      split; [intro; now rewrite S3, T3|]. split; [intro; now rewrite S4, T4|]. split; [auto|]. split; [lia|]. split; [lia|]. split; [lia|].
      split; [congruence|]. split.
      * intros j Hj. destruct (Nat.eq_dec j i) as [->|Hj']; [|apply Lv; lia]. rewrite (proj2 (Nat.ltb_lt i nl)) by lia.
        eexists; split; [reflexivity|]. rewrite lv_app in Sg1, Hh1. rewrite !lv_app in *. rewrite Lu in *. rewrite !app_nil_r in *. cbn [app] in *.
        rewrite S2 by lia. split; auto. eapply seg_frame; [exact Sg1|]. intros x Hx. apply S1; lia.
      * rewrite Tl. destruct i as [|i]; cbn [Nat.ltb Nat.leb Nat.eqb andb] in *; [|rewrite Tl1; reflexivity].
        rewrite Tl1. assert (u1 = []) as ->.
        { destruct u1 as [|z u1]; auto. specialize (Hu1 z (or_introl eq_refl)).
          assert (0 < ht z) by (apply Hht; rewrite EL; apply in_or_app; right; left; auto). lia. }
        cbn [app]. rewrite lv_all; [reflexivity|]. intros x Hx. apply Hht. rewrite EL. apply in_or_app; right; auto.
Qed.
End Sorted.

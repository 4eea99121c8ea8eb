(** The buckets *)
From Verif Require Import Base.Lib Base.Mem Sort.Spec Hash.Spec Hash.Model.
From Coq Require Export Permutation.

Lemma perm_filter {A} (P : A -> bool) a b : Permutation a b -> Permutation (filter P a) (filter P b).
Proof.
  intros H. induction H; cbn; auto.
  - destruct (P x); auto.
  - destruct (P x), (P y); auto. constructor.
  - etransitivity; eauto.
Qed.
Lemma perm_one {A} (a b : list A) : Permutation a b -> length a <= 1 -> a = b.
Proof.
  intros P L. destruct a as [|x [|y a]]; cbn in L; [|now apply Permutation_length_1_inv in P|lia].
  now apply Permutation_nil in P.
Qed.
Lemma filter_none {A} (P : A -> bool) l : (forall x, In x l -> P x = false) -> filter P l = [].
Proof. induction l; cbn; intros H; auto. rewrite (H a) by auto. auto. Qed.
Lemma filter_all {A} (P : A -> bool) l : (forall x, In x l -> P x = true) -> filter P l = l.
Proof. induction l; cbn; intros H; auto. rewrite (H a) by auto. f_equal. auto. Qed.
Lemma filter_nil {A} (P : A -> bool) l : filter P l = [] -> forall x, In x l -> P x = false.
Proof.
  intros H x Hx. destruct (P x) eqn:E; auto. assert (In x (filter P l)) by (now apply filter_In). rewrite H in *. contradiction.
Qed.
Lemma concat_mid {A} (B1 : list (list A)) b B2 : concat (B1 ++ b :: B2) = concat B1 ++ b ++ concat B2.
Proof. now rewrite concat_app. Qed.

Section Table.
Context (kcmp : N -> N -> Z) (hash : N -> N).
Context (Hsym : forall x y, kcmp x y = 0%Z -> kcmp y x = 0%Z).
Context (Htr : forall x y z, kcmp x y = 0%Z -> kcmp y z = 0%Z -> kcmp x z = 0%Z).
Context (Hh : forall x y, kcmp x y = 0%Z -> hash x = hash y).

Definition isk (k : N) (it : item) : bool := (kcmp (ikey it) k =? 0)%Z.
Definition idx (n : nat) (k : N) : nat := N.to_nat (N.land (hash k) (N.of_nat n - 1)).
Lemma idx_lt e k : idx (2 ^ e) k < 2 ^ e.
Proof.
  unfold idx. rewrite Nat2N.inj_pow. change (N.of_nat 2) with 2%N.
  replace (2 ^ N.of_nat e - 1)%N with (N.ones (N.of_nat e)) by (rewrite N.ones_equiv; lia).
  rewrite N.land_ones. assert (H : (hash k mod 2 ^ N.of_nat e < 2 ^ N.of_nat e)%N) by (apply N.mod_lt, N.pow_nonzero; lia).
  assert (E : (2 ^ N.of_nat e)%N = N.of_nat (2 ^ e)) by (rewrite Nat2N.inj_pow; reflexivity). rewrite E in H |- *. lia.
Qed.

Record Tb (bs : list (list item)) (its : list item) : Prop := {
  t_len : exists e, length bs = 2 ^ e;
  t_place : forall B1 b B2 it, bs = B1 ++ b :: B2 -> In it b -> idx (length bs) (ikey it) = length B1;
  t_perm : Permutation (concat bs) its
}.
Definition kuniq (its : list item) : Prop := forall k, length (filter (isk k) its) <= 1.

Lemma get_match_ok k b : match get_match kcmp b k with
  | None => forall it, In it b -> isk k it = false
  | Some j => exists p it q, b = p ++ it :: q /\ j = length p /\ isk k it = true
  end.
Proof.
  induction b as [|x b IH]; cbn; [tauto|]. change (kcmp (ikey x) k =? 0)%Z with (isk k x). destruct (isk k x) eqn:E.
  - exists [], x, b. auto.
  - destruct (get_match kcmp b k); cbn.
    + destruct IH as (p & it & q & -> & -> & H). exists (x :: p), it, q. auto.
    + intros it [<-|H]; auto.
Qed.
Lemma isk_idx n k it : isk k it = true -> idx n (ikey it) = idx n k.
Proof. unfold isk, idx. intros H. rewrite (Hh (ikey it) k); auto. lia. Qed.
Lemma in_concat_mid (it : item) B1 b B2 : In it (concat B1 ++ b ++ concat B2) ->
  In it b \/ exists C1 d C2, In it d /\ (B1 ++ b :: B2 = C1 ++ d :: C2) /\ length C1 <> length B1.
Proof.
  rewrite !in_app_iff. intros [H|[H|H]]; auto; right; apply in_concat in H; destruct H as (d & H1 & H2); apply in_split in H1;
    destruct H1 as (C1 & C2 & ->).
  - exists C1, d, (C2 ++ b :: B2). rewrite <- app_assoc. cbn. split; auto. split; auto. hlen.
  - exists (B1 ++ b :: C1), d, C2. rewrite <- app_assoc. cbn. split; auto. split; auto. hlen.
Qed.
Lemma uniq_perm a b : Permutation a b -> kuniq a -> kuniq b.
Proof. intros P U k. rewrite <- (Permutation_length (perm_filter (isk k) _ _ P)). apply U. Qed.
Lemma uniq_others p it q k : kuniq (p ++ it :: q) -> isk k it = true -> forall x, In x (p ++ q) -> isk k x = false.
Proof.
  intros U H x Hx. destruct (isk k x) eqn:E; auto. exfalso. specialize (U k). rewrite filter_app in U. cbn [filter] in U. rewrite H in U.
  apply in_app_or in Hx. rewrite app_length in U. cbn [length] in U.
  destruct Hx as [Hx|Hx]; assert (F : In x (filter (isk k) p) \/ In x (filter (isk k) q)) by (rewrite !filter_In; auto);
    destruct F as [F|F]; apply in_split in F; destruct F as (? & ? & F); rewrite F in U; hlen.
Qed.

Lemma locate bs its k : Tb bs its -> kuniq its ->
  exists B1 b B2, bs = B1 ++ b :: B2 /\ length B1 = idx (length bs) k /\
  ((get_match kcmp b k = None /\ forall it, In it its -> isk k it = false) \/
   (exists p it q, b = p ++ it :: q /\ get_match kcmp b k = Some (length p) /\ isk k it = true /\
      forall x, In x (concat B1 ++ p ++ q ++ concat B2) -> isk k x = false)).
Proof.
  intros T U. destruct (t_len _ _ T) as [e He].
  destruct (nth_error bs (idx (length bs) k)) as [b|] eqn:E.
  2:{ apply nth_error_None in E. rewrite He in E. pose proof (idx_lt e k). lia. }
  apply nth_error_split in E. destruct E as (B1 & B2 & E & L). exists B1, b, B2. split; auto. split; auto.
  pose proof (get_match_ok k b) as G. destruct (get_match kcmp b k) as [j|].
  - right. destruct G as (p & it & q & -> & -> & Hi). exists p, it, q. repeat split; auto.
    intros x Hx. assert (U' : kuniq (concat bs)) by (eapply uniq_perm; [|exact U]; symmetry; apply (t_perm _ _ T)).
    rewrite E, concat_mid in U'. rewrite <- (app_assoc p), app_assoc in U'. cbn [app] in U'.
    eapply uniq_others; [exact U'|exact Hi|]. rewrite <- app_assoc. exact Hx.
  - left. split; auto. intros it Hit. destruct (isk k it) eqn:Ei; auto. exfalso.
    apply (Permutation_in _ (Permutation_sym (t_perm _ _ T))) in Hit. rewrite E, concat_mid in Hit.
    destruct (in_concat_mid _ _ _ _ Hit) as [H|(C1 & d & C2 & Hd & E2 & Ne)].
    + rewrite (G _ H) in Ei. discriminate.
    + apply Ne. rewrite <- E in E2. rewrite <- (t_place _ _ T C1 d C2 it E2 Hd), L. now apply isk_idx.
Qed.

Lemma place_upd B1 b b' B2 its : Tb (B1 ++ b :: B2) its ->
  (forall it, In it b' -> In (ikey it) (map ikey b) \/ idx (length (B1 ++ b :: B2)) (ikey it) = length B1) ->
  forall C1 d C2 it, B1 ++ b' :: B2 = C1 ++ d :: C2 -> In it d -> idx (length (B1 ++ b' :: B2)) (ikey it) = length C1.
Proof.
  intros T H C1 d C2 it E Hi. assert (L : length (B1 ++ b' :: B2) = length (B1 ++ b :: B2)) by llen. rewrite L.
  destruct (Nat.lt_trichotomy (length C1) (length B1)) as [Lt|[Eq|Gt]].
  - assert (F : nth_error (B1 ++ b :: B2) (length C1) = Some d).
    { rewrite nth_error_app1 by lia. rewrite <- (nth_error_app1 B1 (b' :: B2)) by lia. rewrite E. now apply nth_error_mid. }
    apply nth_error_split in F. destruct F as (D1 & D2 & F & L2). rewrite <- L2. eapply (t_place _ _ T); eauto.
  - assert (F : Some b' = Some d).
    { transitivity (nth_error (B1 ++ b' :: B2) (length C1)); [symmetry; now apply nth_error_mid|rewrite E; now apply nth_error_mid]. }
    injection F as <-. rewrite Eq. destruct (H _ Hi) as [K|K]; auto. apply in_map_iff in K. destruct K as (it0 & Ek & Hi0). rewrite <- Ek.
    eapply (t_place _ _ T); eauto.
  - assert (F : nth_error (B1 ++ b :: B2) (length C1) = Some d).
    { assert (F : nth_error (B1 ++ b' :: B2) (length C1) = Some d) by (rewrite E; now apply nth_error_mid).
      rewrite nth_error_app2 in F |- * by lia. destruct (length C1 - length B1) eqn:Q; [lia|exact F]. }
    apply nth_error_split in F. destruct F as (D1 & D2 & F & L2). rewrite <- L2. eapply (t_place _ _ T); eauto.
Qed.
Lemma tb_upd B1 b b' B2 its its' : Tb (B1 ++ b :: B2) its ->
  (forall it, In it b' -> In (ikey it) (map ikey b) \/ idx (length (B1 ++ b :: B2)) (ikey it) = length B1) ->
  Permutation (concat B1 ++ b' ++ concat B2) its' -> Tb (B1 ++ b' :: B2) its'.
Proof.
  intros T H P. split.
  - destruct (t_len _ _ T) as [e E]. exists e. rewrite <- E. llen.
  - eapply place_upd; eauto.
  - now rewrite concat_mid.
Qed.
Lemma chain_add_perm it b : Permutation (chain_add it b) (it :: b).
Proof. destruct b; cbn; auto. constructor. Qed.
Lemma tb_add B1 b B2 its it : Tb (B1 ++ b :: B2) its -> idx (length (B1 ++ b :: B2)) (ikey it) = length B1 ->
  Tb (B1 ++ chain_add it b :: B2) (its ++ [it]).
Proof.
  intros T H. eapply tb_upd; eauto.
  - intros x Hx. apply (Permutation_in _ (chain_add_perm it b)) in Hx. destruct Hx as [<-|Hx]; auto. left. now apply in_map.
  - transitivity (it :: its); [|apply Permutation_cons_append]. rewrite <- (t_perm _ _ T), concat_mid, (chain_add_perm it b). cbn [app].
    symmetry. apply Permutation_middle.
Qed.
Lemma tb_set B1 p it q B2 its it' : Tb (B1 ++ (p ++ it :: q) :: B2) its -> ikey it' = ikey it ->
  Tb (B1 ++ (p ++ it' :: q) :: B2) (concat B1 ++ p ++ it' :: q ++ concat B2).
Proof.
  intros T H. eapply tb_upd; eauto.
  - intros x Hx. left. rewrite map_app. cbn. apply in_app_iff. apply in_app_iff in Hx. cbn in *. destruct Hx as [Hx|[<-|Hx]]; auto using in_map.
  - rewrite <- app_assoc. cbn. reflexivity.
Qed.
Lemma tb_del B1 p it q B2 its : Tb (B1 ++ (p ++ it :: q) :: B2) its ->
  Tb (B1 ++ (p ++ q) :: B2) (concat B1 ++ p ++ q ++ concat B2).
Proof.
  intros T. eapply tb_upd; eauto.
  - intros x Hx. left. rewrite map_app. cbn. apply in_app_iff. apply in_app_iff in Hx. cbn in *. destruct Hx as [Hx|Hx]; auto using in_map.
  - rewrite <- app_assoc. reflexivity.
Qed.
Lemma unchain_ok p it q : unchain (p ++ it :: q) (length p) = p ++ q.
Proof.
  unfold unchain. replace (skipn (S (length p)) (p ++ it :: q)) with q.
  2:{ replace (p ++ it :: q) with ((p ++ [it]) ++ q) by (now rewrite <- app_assoc). symmetry. apply skipn_len. llen. }
  rewrite firstn_len by auto. destruct q; auto. destruct p; cbn; auto. now rewrite app_nil_r.
Qed.
Lemma tb_empty e : Tb (repeat [] (2 ^ e)) [].
Proof.
  split; [exists e; apply repeat_length| |].
  - intros B1 b B2 it E Hi. assert (b = []) as ->; [|contradiction]. apply (repeat_spec (2 ^ e) (@nil item)). rewrite E. apply in_elt.
  - induction (2 ^ e); cbn; auto.
Qed.
End Table.

From Verif Require Import Base.Lib Sort.Spec Llist.Spec Llist.Model.

(** What a heap says about a node: its links at a level, its value, its height *)
Definition NX (h : heap) (i x : nat) : option ptr :=
  match nth_error h x with Some (Some n) => nth_error (nnext n) i | _ => None end.
Definition PV (h : heap) (i x : nat) : option ptr :=
  match nth_error h x with Some (Some n) => nth_error (nprev n) i | _ => None end.
Definition VL (h : heap) (x : nat) : option N :=
  match nth_error h x with Some (Some n) => Some (nval n) | _ => None end.
Definition hgt (h : heap) (x : nat) : nat :=
  match nth_error h x with Some (Some n) => length (nnext n) | _ => 0 end.
Definition even (h : heap) (x : nat) : Prop :=
  match nth_error h x with Some (Some n) => length (nprev n) = length (nnext n) | _ => True end.

Lemma next_ok h i x p : NX h i x = Some p -> next h i x = Ok p.
Proof.
  unfold NX, next, get. destruct (nth_error h x) as [[n|]|]; try discriminate.
  cbn. intro H. apply rd_Ok. exact H.
Qed.
Lemma prev_ok h i x p : PV h i x = Some p -> prev h i x = Ok p.
Proof.
  unfold PV, prev, get. destruct (nth_error h x) as [[n|]|]; try discriminate.
  cbn. intro H. apply rd_Ok. exact H.
Qed.
Lemma value_ok h x v : VL h x = Some v -> value h x = Ok v.
Proof. unfold VL, value, get. destruct (nth_error h x) as [[n|]|]; try discriminate. cbn. congruence. Qed.
Lemma VL_lt h x v : VL h x = Some v -> x < length h.
Proof. unfold VL. intro H. apply nth_error_Some. destruct (nth_error h x); congruence. Qed.
Lemma NX_lt h i x p : NX h i x = Some p -> x < length h.
Proof. unfold NX. intro H. apply nth_error_Some. destruct (nth_error h x); congruence. Qed.
Lemma PV_lt h i x p : PV h i x = Some p -> x < length h.
Proof. unfold PV. intro H. apply nth_error_Some. destruct (nth_error h x); congruence. Qed.

Lemma set_next_ok h i x p q : NX h i x = Some q ->
  exists h', set_next h i x p = Ok h' /\
    (forall j y, NX h' j y = if (j =? i) && (y =? x) then Some p else NX h j y) /\
    (forall j y, PV h' j y = PV h j y) /\ (forall y, VL h' y = VL h y) /\ (forall y, hgt h' y = hgt h y) /\
    length h' = length h /\ (forall y, even h y -> even h' y).
Proof.
  unfold NX, PV, VL, hgt, even, set_next, get. intro E.
  destruct (nth_error h x) as [[n|]|] eqn:Ex; try discriminate.
  assert (Hi : i < length (nnext n)) by (apply nth_error_Some; congruence).
  cbn. rewrite wr_lt by exact Hi. cbn. eexists; split; [reflexivity|].
  assert (Hx : x < length h) by (apply nth_error_Some; congruence).
  rewrite length_upd.
  assert (Hu : forall y, nth_error (upd h x (Some (mkn (nval n) (upd (nnext n) i p) (nprev n)))) y =
                         if y =? x then Some (Some (mkn (nval n) (upd (nnext n) i p) (nprev n))) else nth_error h y).
  { intro y. rewrite nth_error_upd. apply Nat.ltb_lt in Hx. rewrite Hx, andb_true_r. reflexivity. }
  repeat split; intros; try rewrite Hu; destruct (Nat.eqb_spec y x) as [->|]; rewrite ?Ex, ?andb_false_r, ?andb_true_r; cbn; auto.
  - rewrite nth_error_upd. apply Nat.ltb_lt in Hi. rewrite Hi, andb_true_r. reflexivity.
  - now rewrite length_upd.
  - rewrite Ex in H. now rewrite length_upd.
Qed.
Lemma set_prev_ok h i x p q : PV h i x = Some q ->
  exists h', set_prev h i x p = Ok h' /\
    (forall j y, PV h' j y = if (j =? i) && (y =? x) then Some p else PV h j y) /\
    (forall j y, NX h' j y = NX h j y) /\ (forall y, VL h' y = VL h y) /\ (forall y, hgt h' y = hgt h y) /\
    length h' = length h /\ (forall y, even h y -> even h' y).
Proof.
  unfold NX, PV, VL, hgt, even, set_prev, get. intro E.
  destruct (nth_error h x) as [[n|]|] eqn:Ex; try discriminate.
  assert (Hi : i < length (nprev n)) by (apply nth_error_Some; congruence).
  cbn. rewrite wr_lt by exact Hi. cbn. eexists; split; [reflexivity|].
  assert (Hx : x < length h) by (apply nth_error_Some; congruence).
  rewrite length_upd.
  assert (Hu : forall y, nth_error (upd h x (Some (mkn (nval n) (nnext n) (upd (nprev n) i p)))) y =
                         if y =? x then Some (Some (mkn (nval n) (nnext n) (upd (nprev n) i p))) else nth_error h y).
  { intro y. rewrite nth_error_upd. apply Nat.ltb_lt in Hx. rewrite Hx, andb_true_r. reflexivity. }
  repeat split; intros; try rewrite Hu; destruct (Nat.eqb_spec y x) as [->|]; rewrite ?Ex, ?andb_false_r, ?andb_true_r; cbn; auto.
  - rewrite nth_error_upd. apply Nat.ltb_lt in Hi. rewrite Hi, andb_true_r. reflexivity.
  - rewrite Ex in H. now rewrite length_upd.
Qed.

(** Doubly linked segments *)
Definition nxt_of (l : list nat) (q : ptr) : ptr := match l with [] => q | y :: _ => Some y end.
Fixpoint lst_of (p : ptr) (l : list nat) : ptr := match l with [] => p | x :: l' => lst_of (Some x) l' end.
Fixpoint seg (h : heap) (i : nat) (p : ptr) (l : list nat) (q : ptr) : Prop :=
  match l with
  | [] => True
  | x :: l' => NX h i x = Some (nxt_of l' q) /\ PV h i x = Some p /\ seg h i (Some x) l' q
  end.
Lemma nxt_app a b q : nxt_of (a ++ b) q = nxt_of a (nxt_of b q).
Proof. destruct a; reflexivity. Qed.
Lemma lst_app p a b : lst_of p (a ++ b) = lst_of (lst_of p a) b.
Proof. revert p; induction a; intro p; cbn; auto. Qed.
Lemma seg_app h i p a b q : seg h i p (a ++ b) q <-> seg h i p a (nxt_of b q) /\ seg h i (lst_of p a) b q.
Proof.
  revert p; induction a as [|x a IH]; intro p; cbn [app seg lst_of]; [tauto|].
  rewrite IH, nxt_app. tauto.
Qed.
Lemma lst_in p l : lst_of p l = p \/ exists x, lst_of p l = Some x /\ In x l.
Proof.
  revert p; induction l as [|y l IH]; intro p; cbn; auto. right.
  destruct (IH (Some y)) as [->|(x & -> & H)]; eauto.
Qed.
Lemma lst_ne p x l : exists y, lst_of p (x :: l) = Some y /\ In y (x :: l) /\ forall q, lst_of q (x :: l) = Some y.
Proof.
  revert p x; induction l as [|z l IH]; intros p x; cbn.
  - exists x. auto.
  - destruct (IH p z) as (y & E & H & A). exists y. cbn in *. repeat split; auto.
Qed.
Lemma seg_ends h h' i p l q p' q' : NoDup l -> seg h i p l q ->
  (forall x, In x l -> NX h' i x = if peq (lst_of None l) x then Some q' else NX h i x) ->
  (forall x, In x l -> PV h' i x = if peq (nxt_of l None) x then Some p' else PV h i x) ->
  seg h' i p' l q'.
Proof.
  revert p p'; induction l as [|x l IH]; intros p p' Hd Hs Hn Hp; cbn [seg] in *; auto.
  inversion Hd as [|? ? Hx Hd']; subst. destruct Hs as (E1 & E2 & Hs). split; [|split].
  - rewrite Hn by (left; reflexivity). destruct l as [|y l].
    + cbn. rewrite Nat.eqb_refl. reflexivity.
    + destruct (lst_ne None y l) as (z & Ez & Hz & Hall). cbn [lst_of] in *. rewrite Ez. cbn [peq].
      destruct (Nat.eqb_spec z x) as [->|]; [contradiction|]. exact E1.
  - rewrite Hp by (left; reflexivity). cbn. rewrite Nat.eqb_refl. reflexivity.
  - apply (IH (Some x)); auto.
    + intros y Hy. rewrite Hn by (right; exact Hy). destruct l as [|z l]; [destruct Hy|].
      destruct (lst_ne None z l) as (w & Ew & Hw & Hall). cbn [lst_of] in *. rewrite Ew. reflexivity.
    + intros y Hy. rewrite Hp by (right; exact Hy). cbn [nxt_of peq].
      destruct (Nat.eqb_spec x y) as [->|]; [contradiction|].
      destruct l as [|z l]; [destruct Hy|]. cbn [nxt_of peq]. destruct (Nat.eqb_spec z y) as [->|]; [|reflexivity].
      destruct Hs as (_ & E & _). congruence.
Qed.
Lemma seg_frame h h' i p l q : seg h i p l q ->
  (forall x, In x l -> NX h' i x = NX h i x /\ PV h' i x = PV h i x) -> seg h' i p l q.
Proof.
  revert p; induction l as [|x l IH]; intros p Hs H; cbn [seg] in *; auto.
  destruct Hs as (E1 & E2 & Hs). destruct (H x (or_introl eq_refl)) as [A B]. rewrite A, B.
  split; [exact E1|split; [exact E2|]]. apply IH; auto. intros y Hy. apply H. right; exact Hy.
Qed.
Lemma peq_true p x : peq p x = true <-> p = Some x.
Proof. destruct p as [y|]; cbn; [|split; discriminate]. rewrite Nat.eqb_eq. split; congruence. Qed.
Lemma peq_lst_notin l x : ~ In x l -> peq (lst_of None l) x = false.
Proof.
  intro H. destruct (peq (lst_of None l) x) eqn:E; auto. apply peq_true in E.
  destruct (lst_in None l) as [F|(y & F & Hy)]; congruence.
Qed.
Lemma peq_nxt_notin l x : ~ In x l -> peq (nxt_of l None) x = false.
Proof. intro H. destruct l as [|y l]; cbn; auto. destruct (Nat.eqb_spec y x); auto. subst. exfalso. apply H. left; auto. Qed.
Lemma nodup_app_l {A} (a b : list A) : NoDup (a ++ b) -> NoDup a.
Proof. induction a; cbn; intro H; constructor; inversion H; subst; auto. rewrite in_app_iff in *. tauto. Qed.
Lemma nodup_app_r {A} (a b : list A) : NoDup (a ++ b) -> NoDup b.
Proof. induction a; cbn; intro H; auto. inversion H; auto. Qed.
Lemma nodup_app_x {A} (a b : list A) x : NoDup (a ++ b) -> In x a -> ~ In x b.
Proof.
  induction a as [|y a IH]; cbn; intros H Hx Hb; auto. inversion H; subst. destruct Hx as [->|Hx].
  - apply H2. apply in_or_app. auto.
  - eapply IH; eauto.
Qed.

Lemma seg_last h i p l q x : seg h i p l q -> lst_of None l = Some x -> NX h i x = Some q.
Proof.
  revert p; induction l as [|y l IH]; intros p Hs E; [discriminate|]. cbn [seg] in Hs. destruct Hs as (E1 & _ & Hs).
  destruct l as [|z l]; [cbn in *; congruence|]. apply (IH (Some y)); auto.
Qed.
Lemma seg_first h i p l q x : seg h i p l q -> nxt_of l None = Some x -> PV h i x = Some p.
Proof. destruct l; cbn; [discriminate|]. intros (_ & E & _) F. congruence. Qed.
Lemma seg_cons_in h i p l q x : seg h i p l q -> In x l -> exists a b, NX h i x = Some a /\ PV h i x = Some b.
Proof.
  revert p; induction l as [|y l IH]; intros p Hs Hx; [destruct Hx|]. destruct Hs as (E1 & E2 & Hs).
  destruct Hx as [->|Hx]; eauto.
Qed.

Lemma seg_insert h h' i p a n b q : NoDup (a ++ n :: b) -> seg h i p (a ++ b) q ->
  (forall x, In x (a ++ b) -> NX h' i x = if peq (lst_of None a) x then Some (Some n) else NX h i x) ->
  (forall x, In x (a ++ b) -> PV h' i x = if peq (nxt_of b None) x then Some (Some n) else PV h i x) ->
  NX h' i n = Some (nxt_of b q) -> PV h' i n = Some (lst_of p a) -> seg h' i p (a ++ n :: b) q.
Proof.
  intros Hd Hs Hn Hp E1 E2.
  assert (Hab : NoDup (a ++ b)) by (eapply NoDup_remove_1; eauto).
  apply seg_app in Hs. destruct Hs as [Ha Hb]. apply seg_app. split; [|cbn [seg]; split; [exact E1|split; [exact E2|]]].
  - cbn [nxt_of]. eapply seg_ends; [exact (nodup_app_l _ _ Hab)|exact Ha| |].
    + intros x Hx. apply Hn. apply in_or_app; auto.
    + intros x Hx. rewrite Hp by (apply in_or_app; auto).
      rewrite peq_nxt_notin by (apply (nodup_app_x _ _ _ Hab Hx)).
      destruct (peq (nxt_of a None) x) eqn:E; [|reflexivity]. apply peq_true in E. eapply seg_first; eauto.
  - eapply seg_ends; [exact (nodup_app_r _ _ Hab)|exact Hb| |].
    + intros x Hx. rewrite Hn by (apply in_or_app; auto).
      rewrite peq_lst_notin by (intro Hx'; apply (nodup_app_x _ _ _ Hab Hx' Hx)).
      destruct (peq (lst_of None b) x) eqn:E; [|reflexivity]. apply peq_true in E. eapply seg_last; eauto.
    + intros x Hx. apply Hp. apply in_or_app; auto.
Qed.
Lemma seg_delete h h' i p a n b q : NoDup (a ++ n :: b) -> seg h i p (a ++ n :: b) q ->
  (forall x, In x (a ++ b) -> NX h' i x = if peq (lst_of None a) x then Some (nxt_of b q) else NX h i x) ->
  (forall x, In x (a ++ b) -> PV h' i x = if peq (nxt_of b None) x then Some (lst_of p a) else PV h i x) ->
  seg h' i p (a ++ b) q.
Proof.
  intros Hd Hs Hn Hp.
  assert (Hab : NoDup (a ++ b)) by (eapply NoDup_remove_1; eauto).
  apply seg_app in Hs. destruct Hs as [Ha (_ & _ & Hb)]. apply seg_app. split.
  - eapply seg_ends; [exact (nodup_app_l _ _ Hab)|exact Ha| |].
    + intros x Hx. apply Hn. apply in_or_app; auto.
    + intros x Hx. rewrite Hp by (apply in_or_app; auto).
      rewrite peq_nxt_notin by (apply (nodup_app_x _ _ _ Hab Hx)).
      destruct (peq (nxt_of a None) x) eqn:E; [|reflexivity]. apply peq_true in E. eapply seg_first; eauto.
  - eapply seg_ends; [exact (nodup_app_r _ _ Hab)|exact Hb| |].
    + intros x Hx. rewrite Hn by (apply in_or_app; auto).
      rewrite peq_lst_notin by (intro Hx'; apply (nodup_app_x _ _ _ Hab Hx' Hx)).
      destruct (peq (lst_of None b) x) eqn:E; [|reflexivity]. apply peq_true in E. eapply seg_last; eauto.
    + intros x Hx. apply Hp. apply in_or_app; auto.
Qed.

(** What the specification functions do at a given place *)
Lemma in_split_ids n l : In n (ids l) -> NoDup (ids l) ->
  exists a v b, l = a ++ (n, v) :: b /\ ~ In n (ids a) /\ ~ In n (ids b).
Proof.
  intros H Hd. unfold ids in H. apply in_map_iff in H. destruct H as ([m v] & E & H). cbn in E. subst m.
  apply in_split in H. destruct H as (a & b & ->). exists a, v, b. split; auto.
  unfold ids in Hd. rewrite map_app in Hd. cbn in Hd. apply NoDup_remove_2 in Hd. rewrite in_app_iff in Hd. tauto.
Qed.
Lemma ids_app a b : ids (a ++ b) = ids a ++ ids b.
Proof. apply map_app. Qed.
Lemma notin_is_node n l e : ~ In n (ids l) -> In e l -> is_node n e = false.
Proof.
  intros H He. unfold is_node. destruct (Nat.eqb_spec (fst e) n) as [<-|]; auto.
  exfalso. apply H. apply in_map. exact He.
Qed.
Lemma drop_notin n l : ~ In n (ids l) -> drop n l = l.
Proof.
  intro H. unfold drop. assert (F : forall e, In e l -> is_node n e = false) by (intros; eapply notin_is_node; eauto).
  clear H. induction l as [|x l IH]; cbn; auto. rewrite F by (left; auto). cbn. f_equal. apply IH. intros; apply F; right; auto.
Qed.
Lemma drop_mid n a v b : ~ In n (ids a) -> ~ In n (ids b) -> drop n (a ++ (n, v) :: b) = a ++ b.
Proof.
  intros Ha Hb. unfold drop. rewrite filter_app. cbn [filter]. unfold is_node at 2. cbn [fst]. rewrite Nat.eqb_refl.
  fold (drop n a). fold (drop n b). now rewrite !drop_notin.
Qed.
Lemma val_of_mid n a v b : ~ In n (ids a) -> val_of n (a ++ (n, v) :: b) = v.
Proof.
  intro Ha. unfold val_of. rewrite filter_app.
  assert (F : filter (is_node n) a = []).
  { assert (F : forall e, In e a -> is_node n e = false) by (intros; eapply notin_is_node; eauto).
    clear Ha. induction a as [|x a IH]; cbn; auto. rewrite F by (left; auto). apply IH. intros; apply F; right; auto. }
  rewrite F. cbn. unfold is_node. cbn. now rewrite Nat.eqb_refl.
Qed.
Lemma put_after_notin n e l : ~ In n (ids l) -> put_after n e l = l.
Proof.
  intro H. unfold put_after. assert (F : forall e, In e l -> is_node n e = false) by (intros; eapply notin_is_node; eauto).
  clear H. induction l as [|x l IH]; cbn; auto. rewrite F by (left; auto). cbn. f_equal. apply IH. intros; apply F; right; auto.
Qed.
Lemma put_before_notin n e l : ~ In n (ids l) -> put_before n e l = l.
Proof.
  intro H. unfold put_before. assert (F : forall e, In e l -> is_node n e = false) by (intros; eapply notin_is_node; eauto).
  clear H. induction l as [|x l IH]; cbn; auto. rewrite F by (left; auto). cbn. f_equal. apply IH. intros; apply F; right; auto.
Qed.
Lemma put_after_mid n e a v b : ~ In n (ids a) -> ~ In n (ids b) -> put_after n e (a ++ (n, v) :: b) = a ++ (n, v) :: e :: b.
Proof.
  intros Ha Hb. unfold put_after. rewrite flat_map_app. cbn [flat_map]. unfold is_node at 2. cbn [fst]. rewrite Nat.eqb_refl.
  fold (put_after n e a). fold (put_after n e b). now rewrite !put_after_notin.
Qed.
Lemma put_before_mid n e a v b : ~ In n (ids a) -> ~ In n (ids b) -> put_before n e (a ++ (n, v) :: b) = a ++ e :: (n, v) :: b.
Proof.
  intros Ha Hb. unfold put_before. rewrite flat_map_app. cbn [flat_map]. unfold is_node at 2. cbn [fst]. rewrite Nat.eqb_refl.
  fold (put_before n e a). fold (put_before n e b). now rewrite !put_before_notin.
Qed.
Lemma succ_mid n a v b : ~ In n (ids a) -> succ n (a ++ (n, v) :: b) = nxt_of (ids b) None.
Proof.
  intro Ha. assert (F : forall e, In e a -> is_node n e = false) by (intros; eapply notin_is_node; eauto). clear Ha.
  induction a as [|x a IH]; cbn.
  - unfold is_node. cbn. rewrite Nat.eqb_refl. destruct (ids b); reflexivity.
  - rewrite F by (left; auto). apply IH. intros; apply F; right; auto.
Qed.
Lemma hd_error_nxt l : hd_error l = nxt_of l None.
Proof. destruct l; reflexivity. Qed.
Lemma nxt_rev l : nxt_of (rev l) None = lst_of None l.
Proof.
  assert (G : forall l q, lst_of q l = nxt_of (rev l) q).
  { induction l0 as [|x l0 IH]; intro q; cbn; auto. rewrite IH, nxt_app. reflexivity. }
  symmetry. apply G.
Qed.
Lemma ids_rev l : ids (rev l) = rev (ids l).
Proof. apply map_rev. Qed.

(** What every list guarantees, sorted or not *)
Record View (d : ll) (l : list entry) : Prop := mkv {
  v_nd : NoDup (ids l);
  v_alive : forall x, VL (hp d) x <> None <-> In x (ids l);
  v_val : forall x v, In (x, v) l -> VL (hp d) x = Some v;
  v_seg : seg (hp d) 0 None (ids l) None;
  v_hd : nth_error (hd d) 0 = Some (nxt_of (ids l) None);
  v_tl : tl d = lst_of None (ids l);
  v_cnt : cnt d = length l }.
Lemma v_len d l : View d l -> length l <= length (hp d).
Proof.
  intro V. replace (length l) with (length (ids l)) by apply map_length.
  rewrite <- (seq_length (length (hp d)) 0). apply NoDup_incl_length; [apply (v_nd _ _ V)|].
  intros x Hx. apply in_seq. apply (v_alive _ _ V) in Hx. destruct (VL (hp d) x) eqn:E; [|congruence].
  apply VL_lt in E. lia.
Qed.
Lemma v_fresh d l : View d l -> ~ In (length (hp d)) (ids l).
Proof.
  intros V H. apply (v_alive _ _ V) in H. destruct (VL (hp d) (length (hp d))) eqn:E; [|congruence].
  apply VL_lt in E. lia.
Qed.
Lemma view_at d a n v b : View d (a ++ (n, v) :: b) ->
  VL (hp d) n = Some v /\ NX (hp d) 0 n = Some (nxt_of (ids b) None) /\ PV (hp d) 0 n = Some (lst_of None (ids a)).
Proof.
  intro V. split; [apply (v_val _ _ V); apply in_or_app; right; left; auto|].
  pose proof (v_seg _ _ V) as S. rewrite ids_app in S. apply seg_app in S. destruct S as [_ (E1 & E2 & _)]. auto.
Qed.
Lemma view_first d l : View d l -> first d = Ok (nxt_of (ids l) None).
Proof. intro V. unfold first. apply rd_Ok. apply (v_hd _ _ V). Qed.

(** Unsorted lists *)
Definition Repu (d : ll) (l : list entry) : Prop := View d l /\ length (hd d) = 1.
Lemma hd1 d l : Repu d l -> hd d = [nxt_of (ids l) None].
Proof. intros [V L]. pose proof (v_hd _ _ V) as E. destruct (hd d) as [|p [|q m]]; cbn in *; try lia. congruence. Qed.

Section Unsorted.
Context (c : cfg) (Hc : circ c = false) (Hs : srt c = false).

Lemma create_v v d l : Repu d l -> forall d' n, node_create c d v = (d', n) ->
  n = length (hp d) /\ hd d' = hd d /\ tl d' = tl d /\ cnt d' = cnt d /\ fr d' = fr d /\ length (hp d') = S (length (hp d)) /\
  NX (hp d') 0 n = Some None /\ PV (hp d') 0 n = Some None /\ VL (hp d') n = Some v /\
  (forall y, y <> n -> NX (hp d') 0 y = NX (hp d) 0 y /\ PV (hp d') 0 y = PV (hp d) 0 y /\ VL (hp d') y = VL (hp d) y).
Proof.
  intros R d' n E. unfold node_create in E. rewrite Hs in E. injection E as <- <-. cbn.
  unfold NX, PV, VL. rewrite app_length. cbn.
  rewrite nth_error_app2 by lia. rewrite Nat.sub_diag. cbn.
  repeat split; auto; try lia; intros.
  all: destruct (Nat.lt_ge_cases y (length (hp d))) as [Hl|Hl];
    [now rewrite nth_error_app1 by lia|
     rewrite nth_error_app2 by lia; destruct (y - length (hp d)) as [|[|k]] eqn:Ek; [lia| |];
     cbn; replace (nth_error (hp d) y) with (@None (option node)) by (symmetry; apply nth_error_None; lia); auto].
Qed.

Lemma nd_mid (a : list entry) n v b : NoDup (ids (a ++ b)) -> ~ In n (ids (a ++ b)) -> NoDup (ids (a ++ (n, v) :: b)).
Proof.
  intros Hd Hn. rewrite ids_app in *. cbn. apply NoDup_Add with (a := n) (l := ids a ++ ids b); [apply Add_app|]. split; auto.
Qed.
Ltac sn H h N P V L := edestruct (set_next_ok) as (h & H & N & P & V & _ & L & _); [|rewrite H; cbn [bind]].
Ltac sp H h N P V L := edestruct (set_prev_ok) as (h & H & P & N & V & _ & L & _); [|rewrite H; cbn [bind]].
Lemma insert_ok d a b n v d' : Repu d (a ++ b) -> node_create c d v = (d', n) ->
  exists d'', insert_unsorted c d' n (lst_of None (ids a)) = Ok d'' /\ Repu d'' (a ++ (n, v) :: b) /\
    fr d'' = fr d /\ length (hp d'') = S (length (hp d)).
Proof.
  intros R E. pose proof (create_v _ _ _ R _ _ E) as (-> & Ehd & Etl & Ecn & Efr & Elen & En & Ep & Ev & Eo).
  clear E. pose proof (hd1 _ _ R) as H1. destruct R as [V L1].
  pose proof (v_fresh _ _ V) as Hf. set (n := length (hp d)) in *.
  assert (Hnd := nd_mid a n v b (v_nd _ _ V) Hf).
  assert (Hno : forall y, In y (ids (a ++ b)) -> y <> n) by (intros y Hy ->; contradiction).
  assert (S0 : seg (hp d') 0 None (ids a ++ ids b) None).
  { rewrite <- ids_app. eapply seg_frame; [apply (v_seg _ _ V)|]. intros x Hx. destruct (Eo x (Hno x Hx)) as (? & ? & _). auto. }
  assert (Fin : forall h' hd' tl', length h' = S n -> hd' = [nxt_of (ids (a ++ (n, v) :: b)) None] ->
     tl' = lst_of None (ids (a ++ (n, v) :: b)) ->
     seg h' 0 None (ids a ++ n :: ids b) None ->
     (forall y, VL h' y = VL (hp d') y) ->
     Repu (bump (mkd h' hd' tl' (cnt d') (fr d'))) (a ++ (n, v) :: b)).
  { intros h' hd' tl' Hl' Hh' Ht' Sg' Hv'. split; [|cbn; subst hd'; auto]. constructor; cbn [hp hd tl cnt fr bump]; auto.
    - intro x. rewrite Hv'. rewrite ids_app. cbn [ids map fst]. rewrite in_app_iff. cbn [In].
      destruct (Nat.eq_dec x n) as [->|Hx]; [rewrite Ev; split; [auto|congruence]|].
      destruct (Eo x Hx) as (_ & _ & ->). rewrite (v_alive _ _ V), ids_app, in_app_iff. fold (ids b). split; intuition congruence.
    - intros x w Hx. rewrite Hv'. apply in_app_iff in Hx. cbn in Hx.
      destruct Hx as [Hx|[Hx|Hx]]; [|injection Hx as <- <-; exact Ev|].
      + rewrite (proj2 (proj2 (Eo x (Hno x ltac:(apply (in_map fst) in Hx; rewrite ids_app, in_app_iff; auto))))).
        apply (v_val _ _ V). apply in_or_app; auto.
      + rewrite (proj2 (proj2 (Eo x (Hno x ltac:(apply (in_map fst) in Hx; rewrite ids_app, in_app_iff; auto))))).
        apply (v_val _ _ V). apply in_or_app; auto.
    - rewrite ids_app. exact Sg'.
    - rewrite Hh'. reflexivity.
    - rewrite Ecn, (v_cnt _ _ V), !app_length. cbn. lia. }
  unfold insert_unsorted. rewrite Ehd, H1. cbn [rd nth_error]. rewrite Hc.
  destruct (lst_of None (ids a)) as [x|] eqn:Ea.
  - (* after x *)
    assert (Hxa : In x (ids a)) by (destruct (lst_in None (ids a)) as [F|(y & F & Hy)]; congruence).
    assert (Hx : In x (ids (a ++ b))) by (rewrite ids_app, in_app_iff; auto).
    pose proof (Hno x Hx) as Hxn.
    assert (Nx : NX (hp d') 0 x = Some (nxt_of (ids b) None)).
    { apply seg_app in S0. destruct S0 as [S0 _]. eapply seg_last; eauto. }
    sp A1 h1 N1 P1 V1 L1'; [exact Ep|].
    rewrite (next_ok _ _ _ _ ltac:(rewrite N1; exact Nx)). cbn [bind].
    sn A2 h2 N2 P2 V2 L2; [rewrite N1; exact En|].
    sn A3 h3 N3 P3 V3 L3; [rewrite N2; replace (x =? n) with false by (symmetry; apply Nat.eqb_neq; auto); rewrite andb_false_r, N1; exact Nx|].
    destruct (nxt_of (ids b) None) as [y|] eqn:Eb.
    + assert (Hyb : In y (ids b)) by (destruct (ids b); cbn in Eb; [congruence|injection Eb as ->; left; auto]).
      assert (Hy : In y (ids (a ++ b))) by (rewrite ids_app, in_app_iff; auto).
      pose proof (Hno y Hy) as Hyn.
      assert (Py : exists q, PV (hp d') 0 y = Some q) by (destruct (seg_cons_in _ _ _ _ _ _ S0 ltac:(rewrite <- ids_app; exact Hy)) as (? & ? & _ & F); eauto).
      destruct Py as [q Py].
      sp A4 h4 N4 P4 V4 L4; [rewrite P3, P2, P1; replace (y =? n) with false by (symmetry; apply Nat.eqb_neq; auto); rewrite andb_false_r; exact Py|].
      eexists; split; [reflexivity|]. cbn [fr hp bump]. split; [|split; [auto|unfold n in *; lia]].
      apply Fin; [lia| | | |intro; now rewrite V4, V3, V2, V1].
      * destruct a as [|[]]; [discriminate|reflexivity].
      * rewrite Etl, (v_tl _ _ V), !ids_app, !lst_app. destruct b as [|[z w] b']; [discriminate|reflexivity].
      * eapply seg_insert; [rewrite ids_app in Hnd; exact Hnd|exact S0| | | |].
        -- intros z Hz. rewrite <- ids_app in Hz. pose proof (Hno z Hz) as Hzn. rewrite Ea. cbn [peq].
           rewrite N4, N3, N2, N1. cbn [Nat.eqb andb]. rewrite (Nat.eqb_sym x z).
           destruct (z =? x); [reflexivity|]. destruct (Nat.eqb_spec z n); [contradiction|reflexivity].
        -- intros z Hz. rewrite <- ids_app in Hz. pose proof (Hno z Hz) as Hzn. rewrite Eb. cbn [peq].
           rewrite P4, P3, P2, P1. cbn [Nat.eqb andb]. rewrite (Nat.eqb_sym y z).
           destruct (z =? y); [reflexivity|]. destruct (Nat.eqb_spec z n); [contradiction|reflexivity].
        -- rewrite N4, N3, N2. cbn [Nat.eqb andb]. destruct (Nat.eqb_spec n x); [congruence|]. rewrite Nat.eqb_refl. rewrite Eb; reflexivity.
        -- rewrite P4, P3, P2, P1. cbn [Nat.eqb andb]. destruct (Nat.eqb_spec n y); [congruence|]. rewrite Nat.eqb_refl. rewrite Ea; reflexivity.
    + assert (ids b = []) as Eb' by (destruct (ids b); [auto|discriminate]).
      eexists; split; [reflexivity|]. cbn [fr hp bump]. split; [|split; [auto|unfold n in *; lia]].
      apply Fin; [lia| | | |intro; now rewrite V3, V2, V1].
      * destruct a as [|[]]; [discriminate|reflexivity].
      * rewrite !ids_app, !lst_app. cbn. fold (ids b). rewrite Eb'. reflexivity.
      * eapply seg_insert; [rewrite ids_app in Hnd; exact Hnd|exact S0| | | |].
        -- intros z Hz. rewrite <- ids_app in Hz. pose proof (Hno z Hz) as Hzn. rewrite Ea. cbn [peq].
           rewrite N3, N2, N1. cbn [Nat.eqb andb]. rewrite (Nat.eqb_sym x z).
           destruct (z =? x); [reflexivity|]. destruct (Nat.eqb_spec z n); [contradiction|reflexivity].
        -- intros z Hz. rewrite <- ids_app in Hz. pose proof (Hno z Hz) as Hzn. rewrite Eb. cbn [peq].
           rewrite P3, P2, P1. cbn [Nat.eqb andb].
           destruct (Nat.eqb_spec z n); [contradiction|reflexivity].
        -- rewrite N3, N2. cbn [Nat.eqb andb]. destruct (Nat.eqb_spec n x); [congruence|]. rewrite Nat.eqb_refl. rewrite Eb; reflexivity.
        -- rewrite P3, P2, P1. cbn [Nat.eqb andb]. rewrite Nat.eqb_refl. rewrite Ea; reflexivity.
  - (* in front *)
    assert (ids a = []) as Ea' by (destruct (ids a) as [|y m] eqn:F; [auto|destruct (lst_ne None y m) as (? & G & _); congruence]).
    assert (a = []) as -> by (destruct a; [auto|discriminate]). cbn [ids map app] in *. fold (ids b) in *. clear Ea Ea'.
    cbn [rd nth_error bind].
    sn A1 h1 N1 P1 V1 L1'; [exact En|].
    destruct (nxt_of (ids b) None) as [y|] eqn:Eb.
    + assert (Hyb : In y (ids b)) by (destruct (ids b); cbn in Eb; [congruence|injection Eb as ->; left; auto]).
      pose proof (Hno y Hyb) as Hyn.
      assert (Py : exists q, PV (hp d') 0 y = Some q) by (destruct (seg_cons_in _ _ _ _ _ _ S0 Hyb) as (? & ? & _ & F); eauto).
      destruct Py as [q Py].
      sp A4 h4 N4 P4 V4 L4; [rewrite P1; exact Py|].
      eexists; split; [reflexivity|]. cbn [fr hp bump]. split; [|split; [auto|unfold n in *; lia]].
      apply Fin; [lia|reflexivity| | |intro; now rewrite V4, V1].
      * rewrite Etl, (v_tl _ _ V). cbn. fold (ids b). destruct b as [|[z w] b]; [discriminate|]. cbn. fold (ids b).
        destruct (lst_ne (Some n) z (ids b)) as (u & Hu & _). cbn in Hu. rewrite Hu. reflexivity.
      * apply (seg_insert (hp d') h4 0 None [] n (ids b) None); [exact Hnd|exact S0| | | |].
        -- intros z Hz. pose proof (Hno z Hz) as Hzn. cbn [peq lst_of].
           rewrite N4, N1. cbn [Nat.eqb andb]. destruct (Nat.eqb_spec z n); [contradiction|reflexivity].
        -- intros z Hz. pose proof (Hno z Hz) as Hzn. rewrite Eb. cbn [peq].
           rewrite P4, P1. cbn [Nat.eqb andb]. rewrite (Nat.eqb_sym y z). destruct (z =? y); reflexivity.
        -- rewrite N4, N1. cbn [Nat.eqb andb]. rewrite Nat.eqb_refl. rewrite Eb; reflexivity.
        -- rewrite P4, P1. cbn [Nat.eqb andb lst_of]. destruct (Nat.eqb_spec n y); [congruence|]. exact Ep.
    + assert (b = []) as -> by (destruct b; [auto|discriminate]).
      eexists; split; [reflexivity|]. cbn [fr hp bump]. split; [|split; [auto|unfold n in *; lia]].
      apply Fin; [lia|reflexivity| | |intro; now rewrite V1].
      * rewrite Etl, (v_tl _ _ V). reflexivity.
      * cbn. rewrite N1, P1. cbn. rewrite Nat.eqb_refl. auto.
Qed.

Lemma nxt_none (l : list nat) : nxt_of l None = None -> l = [].
Proof. destruct l; [auto|discriminate]. Qed.
Lemma lst_none (l : list nat) : lst_of None l = None -> l = [].
Proof. destruct l as [|x l]; [auto|]. destruct (lst_ne None x l) as (y & -> & _). discriminate. Qed.
Lemma nxt_in (l : list nat) y : nxt_of l None = Some y -> In y l.
Proof. destruct l; cbn; [discriminate|]. intro E; injection E as ->. auto. Qed.
Lemma lst_in' (l : list nat) y : lst_of None l = Some y -> In y l.
Proof. intro E. destruct (lst_in None l) as [F|(z & F & H)]; congruence. Qed.
Lemma peq_mid_nxt a n b : ~ In n a -> peq (nxt_of (a ++ n :: b) None) n = match a with [] => true | _ => false end.
Proof.
  intro H. destruct a as [|x a]; cbn; [apply Nat.eqb_refl|]. destruct (Nat.eqb_spec x n); auto. subst. exfalso; apply H; left; auto.
Qed.
Lemma peq_mid_lst a n b : ~ In n b -> peq (lst_of None (a ++ n :: b)) n = match b with [] => true | _ => false end.
Proof.
  intro H. rewrite lst_app. cbn. destruct b as [|x b]; cbn; [apply Nat.eqb_refl|].
  destruct (lst_ne None x b) as (y & _ & Hy & E). specialize (E None). cbn in E. rewrite E. cbn.
  destruct (Nat.eqb_spec y n); auto. subst. contradiction.
Qed.
Lemma unlink_ok d a n v b : Repu d (a ++ (n, v) :: b) ->
  exists d', unlink d n = Ok d' /\ seg (hp d') 0 None (ids a ++ ids b) None /\
    NX (hp d') 0 n = Some None /\ PV (hp d') 0 n = Some None /\ (forall y, VL (hp d') y = VL (hp d) y) /\
    hd d' = [nxt_of (ids a ++ ids b) None] /\ tl d' = lst_of None (ids a ++ ids b) /\ cnt d' = cnt d /\ fr d' = fr d /\
    length (hp d') = length (hp d).
Proof.
  intro R. pose proof (hd1 _ _ R) as H1. destruct R as [V _]. destruct (view_at _ _ _ _ _ V) as (Ev & En & Ep).
  pose proof (v_nd _ _ V) as Hd. rewrite ids_app in Hd. cbn [ids map fst] in Hd. fold (ids a) (ids b) in Hd.
  assert (Hna : ~ In n (ids a)) by (apply NoDup_remove_2 in Hd; rewrite in_app_iff in Hd; tauto).
  assert (Hnb : ~ In n (ids b)) by (apply NoDup_remove_2 in Hd; rewrite in_app_iff in Hd; tauto).
  assert (Hab : forall z, In z (ids a) -> ~ In z (ids b)).
  { intros z Hz. apply NoDup_remove_1 in Hd. eapply nodup_app_x; eauto. }
  assert (Sg := v_seg _ _ V). rewrite ids_app in Sg. cbn [ids map fst] in Sg. fold (ids a) (ids b) in Sg.
  unfold unlink. rewrite (next_ok _ _ _ _ En), (prev_ok _ _ _ _ Ep). cbn [bind].
  assert (B1 : exists h1, match nxt_of (ids b) None with Some y => set_prev (hp d) 0 y (lst_of None (ids a)) | None => Ok (hp d) end = Ok h1 /\
     (forall y, PV h1 0 y = if peq (nxt_of (ids b) None) y then Some (lst_of None (ids a)) else PV (hp d) 0 y) /\
     (forall y, NX h1 0 y = NX (hp d) 0 y) /\ (forall y, VL h1 y = VL (hp d) y) /\ length h1 = length (hp d)).
  { destruct (nxt_of (ids b) None) as [y|] eqn:Eb.
    - apply nxt_in in Eb. destruct (seg_cons_in _ _ _ _ _ y Sg) as (? & q & _ & Q); [apply in_or_app; right; right; auto|].
      edestruct set_prev_ok as (h1 & H & P1 & N1 & V1 & _ & L1 & _); [exact Q|]. exists h1. split; [exact H|].
      split; [|auto]. intro z. rewrite P1. cbn. rewrite (Nat.eqb_sym y z). reflexivity.
    - exists (hp d). auto. }
  destruct B1 as (h1 & -> & P1 & N1 & V1 & L1). cbn [bind].
  assert (B2 : exists h2, match lst_of None (ids a) with Some y => set_next h1 0 y (nxt_of (ids b) None) | None => Ok h1 end = Ok h2 /\
     (forall y, NX h2 0 y = if peq (lst_of None (ids a)) y then Some (nxt_of (ids b) None) else NX h1 0 y) /\
     (forall y, PV h2 0 y = PV h1 0 y) /\ (forall y, VL h2 y = VL h1 y) /\ length h2 = length h1).
  { destruct (lst_of None (ids a)) as [y|] eqn:Ea.
    - apply lst_in' in Ea. destruct (seg_cons_in _ _ _ _ _ y Sg) as (q & ? & Q & _); [apply in_or_app; auto|].
      edestruct set_next_ok as (h2 & H & N2 & P2 & V2 & _ & L2 & _); [rewrite N1; exact Q|]. exists h2. split; [exact H|].
      split; [|auto]. intro z. rewrite N2. cbn. rewrite (Nat.eqb_sym y z). reflexivity.
    - exists h1. auto. }
  destruct B2 as (h2 & -> & N2 & P2 & V2 & L2). cbn [bind]. rewrite H1. cbn [rd nth_error bind].
  assert (Nn : NX h2 0 n = Some (nxt_of (ids b) None)) by (rewrite N2, peq_lst_notin by auto; rewrite N1; exact En).
  assert (Pn : PV h2 0 n = Some (lst_of None (ids a))) by (rewrite P2, P1, peq_nxt_notin by auto; exact Ep).
  rewrite (v_tl _ _ V), !ids_app. cbn [ids map fst]. fold (ids a) (ids b). rewrite peq_mid_nxt, peq_mid_lst by auto.
  rewrite (next_ok _ _ _ _ Nn), (prev_ok _ _ _ _ Pn). cbn [bind].
  replace (if match ids a with [] => true | _ => false end then wr [nxt_of (ids a ++ n :: ids b) None] 0 (nxt_of (ids b) None) else Ok [nxt_of (ids a ++ n :: ids b) None])
    with (Ok [nxt_of (ids a ++ ids b) None]) by (destruct (ids a); reflexivity).
  replace (if match ids b with [] => true | _ => false end then Ok (lst_of None (ids a)) else Ok (lst_of None (ids a ++ n :: ids b)))
    with (Ok (lst_of None (ids a ++ ids b))).
  2:{ rewrite !lst_app. cbn. destruct (ids b) as [|x m]; [reflexivity|]. reflexivity. }
  cbn [bind].
  sn A3 h3 N3 P3 V3 L3; [exact Nn|]. sp A4 h4 N4 P4 V4 L4; [rewrite P3; exact Pn|].
  eexists; split; [reflexivity|]. cbn [hp hd tl cnt fr].
  split; [|split; [|split; [|split; [|repeat split; auto; lia]]]].
  - eapply seg_delete; [exact Hd|exact Sg| |].
    + intros x Hx. rewrite N4, N3. destruct (Nat.eqb_spec x n) as [->|]; [apply in_app_iff in Hx; tauto|].
      cbn [Nat.eqb andb]. rewrite N2, N1. reflexivity.
    + intros x Hx. rewrite P4, P3. destruct (Nat.eqb_spec x n) as [->|]; [apply in_app_iff in Hx; tauto|].
      cbn [Nat.eqb andb]. rewrite P2, P1. reflexivity.
  - rewrite N4, N3. cbn. now rewrite Nat.eqb_refl.
  - rewrite P4. cbn. now rewrite Nat.eqb_refl.
  - intro y. now rewrite V4, V3, V2, V1.
Qed.

(** Freeing a node *)
Lemma free_v h n : forall x i, NX (upd h n None) i x = (if x =? n then None else NX h i x) /\
  PV (upd h n None) i x = (if x =? n then None else PV h i x) /\
  VL (upd h n None) x = (if x =? n then None else VL h x) /\ hgt (upd h n None) x = (if x =? n then 0 else hgt h x).
Proof.
  intros x i. unfold NX, PV, VL, hgt. rewrite nth_error_upd. destruct (Nat.eqb_spec x n) as [->|]; cbn [andb]; auto.
  destruct (Nat.ltb_spec n (length h)) as [Hl|Hl]; auto.
  replace (nth_error h n) with (@None (option node)); auto. symmetry. now apply nth_error_None.
Qed.
Lemma remove_u d a n v b rm : Repu d (a ++ (n, v) :: b) ->
  exists d', take_remove c d n rm = Ok (v, d') /\ Repu d' (a ++ b) /\
    fr d' = (if rm then v :: fr d else fr d) /\ length (hp d') = length (hp d).
Proof.
  intro R. destruct (unlink_ok _ _ _ _ _ R) as (d1 & E & Sg & En & Ep & Ev & Ehd & Etl & Ecn & Efr & El).
  destruct R as [V _]. destruct (view_at _ _ _ _ _ V) as (Vn & _ & _).
  pose proof (v_nd _ _ V) as Hd. rewrite ids_app in Hd. cbn [ids map fst] in Hd. fold (ids a) (ids b) in Hd.
  assert (Hno : forall x, In x (ids a ++ ids b) -> x <> n) by (intros x Hx ->; apply NoDup_remove_2 in Hd; contradiction).
  unfold take_remove. rewrite Hs, E.
  assert (exists nd, get (hp d) n = Ok nd /\ nval nd = v) as (nd & -> & Hv).
  { unfold get, VL in *. destruct (nth_error (hp d) n) as [[nd|]|]; try discriminate. exists nd. split; congruence. }
  assert (exists nd', get (hp d1) n = Ok nd' /\ nval nd' = v) as (nd' & E' & Hv').
  { rewrite <- Ev in Vn. unfold get, VL in *. destruct (nth_error (hp d1) n) as [[nd'|]|]; try discriminate. exists nd'. split; congruence. }
  cbn [bind]. unfold node_destroy. rewrite E'. cbn [bind hp hd tl cnt fr]. rewrite Hv, Hv'.
  eexists; split; [reflexivity|]. cbn [hp hd tl cnt fr]. split; [|rewrite length_upd, Efr; auto].
  split; [|cbn; rewrite Ehd; reflexivity]. constructor; cbn [hp hd tl cnt fr]; rewrite ?ids_app; auto.
  - eapply NoDup_remove_1; eauto.
  - intro x. rewrite (proj1 (proj2 (proj2 (free_v _ _ _ 0)))). destruct (Nat.eqb_spec x n) as [->|Hx].
    + split; [congruence|]. intro H. exfalso. exact (Hno _ H eq_refl).
    + rewrite Ev. rewrite (v_alive _ _ V), ids_app. cbn. rewrite !in_app_iff. cbn. intuition congruence.
  - intros x w Hx. rewrite (proj1 (proj2 (proj2 (free_v _ _ _ 0)))).
    destruct (Nat.eqb_spec x n) as [->|Hxn].
    + exfalso. apply (Hno n); auto. rewrite <- ids_app. apply (in_map fst) in Hx. exact Hx.
    + rewrite Ev. apply (v_val _ _ V). apply in_app_iff in Hx. apply in_or_app. cbn. tauto.
  - eapply seg_frame; [exact Sg|]. intros x Hx. destruct (free_v (hp d1) n x 0) as (-> & -> & _).
    destruct (Nat.eqb_spec x n) as [->|]; auto. exfalso. exact (Hno _ Hx eq_refl).
  - rewrite Ehd. reflexivity.
  - rewrite Ecn, (v_cnt _ _ V), !app_length. cbn. lia.
Qed.

(** Taking a node out of a place leaves the others in order. *)
Lemma split_other n m a v b : n <> m -> In m (ids (a ++ (n, v) :: b)) -> In m (ids (a ++ b)).
Proof. rewrite !ids_app. cbn. rewrite !in_app_iff. cbn. intuition congruence. Qed.
Lemma view_moved d a m v b a' b' h hd' tl' : View d (a ++ (m, v) :: b) -> a ++ b = a' ++ b' ->
  (forall y, VL h y = VL (hp d) y) -> seg h 0 None (ids a' ++ m :: ids b') None ->
  hd' = [nxt_of (ids a' ++ m :: ids b') None] -> tl' = lst_of None (ids a' ++ m :: ids b') ->
  Repu (mkd h hd' tl' (cnt d) (fr d)) (a' ++ (m, v) :: b').
Proof.
  intros V E Ev Sg Eh Et.
  assert (P : Permutation (a ++ (m, v) :: b) (a' ++ (m, v) :: b')).
  { rewrite <- !Permutation_middle, E. reflexivity. }
  split; [|cbn; subst hd'; reflexivity]. constructor; cbn [hp hd tl cnt fr]; rewrite ?ids_app; auto.
  - rewrite <- ids_app with (b := (m, v) :: b'). eapply Permutation_NoDup; [|apply (v_nd _ _ V)]. now apply Permutation_map.
  - intro x. rewrite Ev, (v_alive _ _ V), <- ids_app with (b := (m, v) :: b').
    split; apply Permutation_in; [|symmetry]; now apply Permutation_map.
  - intros x w Hx. rewrite Ev. apply (v_val _ _ V). eapply Permutation_in; [symmetry; exact P|auto].
  - subst hd'. reflexivity.
  - rewrite (v_cnt _ _ V). now apply Permutation_length.
Qed.
Lemma move_before_u d l m b : Repu d l -> In m (ids l) -> In b (ids l) -> m <> b ->
  exists d', move_before c d m b = Ok (true, d') /\ Repu d' (put_before b (m, val_of m l) (drop m l)) /\
    fr d' = fr d /\ length (hp d') = length (hp d).
Proof.
  intros R Hm Hb Hmb. pose proof (proj1 R) as V.
  destruct (in_split_ids _ _ Hm (v_nd _ _ V)) as (a & v & rest & -> & Ha & Hr).
  rewrite val_of_mid, drop_mid by auto.
  unfold move_before. rewrite Hs, (proj2 (Nat.eqb_neq b m)) by auto. cbn [orb]. unfold node_next.
  destruct (view_at _ _ _ _ _ V) as (Vm & En & Ep). rewrite (next_ok _ _ _ _ En). cbn [bind].
  destruct (peq (nxt_of (ids rest) None) b) eqn:Eq.
  - apply peq_true in Eq. destruct rest as [|[b0 w] rest]; [discriminate|]. cbn in Eq. injection Eq as ->.
    exists d. split; [reflexivity|]. split; [|auto].
    pose proof (v_nd _ _ V) as Hd. rewrite ids_app in Hd. cbn in Hd.
    rewrite put_before_mid; [exact R| |].
    + intro H. eapply nodup_app_x in H; [|exact Hd]. apply H. right. left. reflexivity.
    + apply nodup_app_r in Hd. inversion Hd as [|? ? _ Hd']; subst. inversion Hd'; auto.
  - destruct (unlink_ok _ _ _ _ _ R) as (d1 & -> & Sg & En1 & Ep1 & Ev & Ehd & Etl & Ecn & Efr & El). cbn [bind].
    assert (Hb' := split_other m b a v rest Hmb Hb).
    assert (Hnd1 : NoDup (ids (a ++ rest))).
    { pose proof (v_nd _ _ V) as Hd. rewrite ids_app in Hd. cbn in Hd. apply NoDup_remove_1 in Hd. now rewrite ids_app. }
    destruct (in_split_ids _ _ Hb' Hnd1) as (a' & w & b' & Eab & Ha' & Hb1).
    rewrite Eab, put_before_mid by auto. rewrite <- ids_app, Eab, ids_app in Sg, Ehd, Etl. cbn [ids map fst] in Sg, Ehd, Etl. fold (ids a') (ids b') in Sg, Ehd, Etl.
    assert (Hma : ~ In m (ids a' ++ b :: ids b')).
    { intro H. pose proof (v_nd _ _ V) as Hd. rewrite ids_app in Hd. cbn in Hd. apply NoDup_remove_2 in Hd. fold (ids a) (ids rest) in Hd. rewrite <- ids_app, Eab, ids_app in Hd. exact (Hd H). }
    assert (Hnd2 : NoDup (ids a' ++ m :: b :: ids b')).
    { apply NoDup_Add with (a := m) (l := ids a' ++ b :: ids b'); [apply Add_app|]. split; auto. rewrite Eab, ids_app in Hnd1. exact Hnd1. }
    unfold first. rewrite Ehd. cbn [rd nth_error bind]. rewrite peq_mid_nxt by auto.
    replace (if match ids a' with [] => true | _ => false end then wr [nxt_of (ids a' ++ b :: ids b') None] 0 (Some m) else Ok [nxt_of (ids a' ++ b :: ids b') None])
      with (Ok [nxt_of (ids a' ++ m :: b :: ids b') None]) by (destruct (ids a'); reflexivity).
    cbn [bind].
    assert (Pb : PV (hp d1) 0 b = Some (lst_of None (ids a'))) by (apply seg_app in Sg; destruct Sg as (_ & _ & F & _); exact F).
    rewrite (prev_ok _ _ _ _ Pb). cbn [bind].
    sp A1 h1 N1 P1 V1 L1; [exact Pb|]. sn A2 h2 N2 P2 V2 L2; [rewrite N1; exact En1|].
    sp A3 h3 N3 P3 V3 L3; [rewrite P2, P1; rewrite (proj2 (Nat.eqb_neq m b)) by auto; rewrite andb_false_r; exact Ep1|].
    assert (B4 : exists h4, match lst_of None (ids a') with Some y => set_next h3 0 y (Some m) | None => Ok h3 end = Ok h4 /\
       (forall y, NX h4 0 y = if peq (lst_of None (ids a')) y then Some (Some m) else NX h3 0 y) /\
       (forall y, PV h4 0 y = PV h3 0 y) /\ (forall y, VL h4 y = VL h3 y) /\ length h4 = length h3).
    { destruct (lst_of None (ids a')) as [y|] eqn:Ea.
      - apply lst_in' in Ea. assert (Hym : y <> m) by (intros ->; apply Hma; apply in_or_app; auto).
        destruct (seg_cons_in _ _ _ _ _ y Sg) as (q & ? & Q & _); [apply in_or_app; auto|].
        edestruct set_next_ok as (h4 & H & N4 & P4 & V4 & _ & L4 & _);
          [rewrite N3, N2, (proj2 (Nat.eqb_neq y m)) by auto; rewrite andb_false_r, N1; exact Q|].
        exists h4. split; [exact H|]. split; [|auto]. intro z. rewrite N4. cbn. rewrite (Nat.eqb_sym y z). reflexivity.
      - exists h3. auto. }
    destruct B4 as (h4 & -> & N4 & P4 & V4 & L4). cbn [bind].
    eexists; split; [reflexivity|]. cbn [fr hp]. split; [|split; [auto|lia]].
    rewrite Ecn, Efr.
    apply view_moved with (a := a) (b := rest); auto.
    + intro y. now rewrite V4, V3, V2, V1, Ev.
    + cbn [ids map fst]. fold (ids b').
      apply (seg_insert (hp d1) h4 0 None (ids a') m (b :: ids b') None); [exact Hnd2|exact Sg| | | |].
      * intros x Hx. assert (x <> m) by (intros ->; auto). rewrite N4.
        destruct (peq (lst_of None (ids a')) x); [reflexivity|]. rewrite N3, N2, N1, (proj2 (Nat.eqb_neq x m)) by auto. now rewrite andb_false_r.
      * intros x Hx. assert (x <> m) by (intros ->; auto). rewrite P4, P3, (proj2 (Nat.eqb_neq x m)) by auto. rewrite andb_false_r, P2, P1.
        cbn. rewrite (Nat.eqb_sym b x). reflexivity.
      * rewrite N4, peq_lst_notin by (intro; apply Hma; apply in_or_app; auto). rewrite N3, N2. cbn. rewrite Nat.eqb_refl. reflexivity.
      * rewrite P4, P3. cbn. rewrite Nat.eqb_refl. reflexivity.
    + rewrite Etl, !lst_app. reflexivity.
Qed.
Lemma move_after_u d l m b : Repu d l -> In m (ids l) -> In b (ids l) -> m <> b ->
  exists d', move_after c d m b = Ok (true, d') /\ Repu d' (put_after b (m, val_of m l) (drop m l)) /\
    fr d' = fr d /\ length (hp d') = length (hp d).
Proof.
  intros R Hm Hb Hmb. pose proof (proj1 R) as V.
  destruct (in_split_ids _ _ Hm (v_nd _ _ V)) as (a & v & rest & -> & Ha & Hr).
  rewrite val_of_mid, drop_mid by auto.
  unfold move_after. rewrite Hs, (proj2 (Nat.eqb_neq b m)) by auto. cbn [orb]. unfold node_prev.
  destruct (view_at _ _ _ _ _ V) as (Vm & En & Ep). rewrite (prev_ok _ _ _ _ Ep). cbn [bind].
  destruct (peq (lst_of None (ids a)) b) eqn:Eq.
  - apply peq_true in Eq. pose proof Eq as Eq'. apply lst_in' in Eq'.
    destruct a as [|e0 a0] using rev_ind; [discriminate|]. clear IHa0. rewrite ids_app, lst_app in Eq. cbn in Eq.
    destruct e0 as [b0 w]. cbn in Eq. injection Eq as ->.
    exists d. split; [reflexivity|]. split; [|auto].
    pose proof (v_nd _ _ V) as Hd. rewrite !ids_app in Hd. cbn in Hd.
    rewrite <- !app_assoc in *. cbn [app] in *. rewrite put_after_mid; [exact R| |].
    + intro H. eapply nodup_app_x in H; [|exact Hd]. apply H. left. reflexivity.
    + apply nodup_app_r in Hd. inversion Hd as [|? ? Hd' _]; subst. intro; apply Hd'. right. auto.
  - destruct (unlink_ok _ _ _ _ _ R) as (d1 & -> & Sg & En1 & Ep1 & Ev & Ehd & Etl & Ecn & Efr & El). cbn [bind].
    assert (Hb' := split_other m b a v rest Hmb Hb).
    assert (Hnd1 : NoDup (ids (a ++ rest))).
    { pose proof (v_nd _ _ V) as Hd. rewrite ids_app in Hd. cbn in Hd. apply NoDup_remove_1 in Hd. now rewrite ids_app. }
    destruct (in_split_ids _ _ Hb' Hnd1) as (a' & w & b' & Eab & Ha' & Hb1).
    rewrite Eab, put_after_mid by auto. rewrite <- ids_app, Eab, ids_app in Sg, Ehd, Etl. cbn [ids map fst] in Sg, Ehd, Etl. fold (ids a') (ids b') in Sg, Ehd, Etl.
    assert (Hma : ~ In m (ids a' ++ b :: ids b')).
    { intro H. pose proof (v_nd _ _ V) as Hd. rewrite ids_app in Hd. cbn in Hd. apply NoDup_remove_2 in Hd. fold (ids a) (ids rest) in Hd. rewrite <- ids_app, Eab, ids_app in Hd. exact (Hd H). }
    assert (E2 : ids a' ++ b :: ids b' = (ids a' ++ [b]) ++ ids b') by (rewrite <- app_assoc; reflexivity).
    assert (E3 : ids a' ++ b :: m :: ids b' = (ids a' ++ [b]) ++ m :: ids b') by (rewrite <- app_assoc; reflexivity).
    assert (Hnd2 : NoDup ((ids a' ++ [b]) ++ m :: ids b')).
    { apply NoDup_Add with (a := m) (l := (ids a' ++ [b]) ++ ids b'); [apply Add_app|]. rewrite <- E2. split; auto. rewrite Eab, ids_app in Hnd1. exact Hnd1. }
    rewrite Etl. rewrite peq_mid_lst by auto.
    assert (Nb : NX (hp d1) 0 b = Some (nxt_of (ids b') None)) by (apply seg_app in Sg; destruct Sg as (_ & F & _); exact F).
    rewrite (next_ok _ _ _ _ Nb). cbn [bind].
    sn A1 h1 N1 P1 V1 L1; [exact Nb|]. sp A2 h2 N2 P2 V2 L2; [rewrite P1; exact Ep1|].
    sn A3 h3 N3 P3 V3 L3; [rewrite N2, N1; rewrite (proj2 (Nat.eqb_neq m b)) by auto; rewrite andb_false_r; exact En1|].
    assert (B4 : exists h4, match nxt_of (ids b') None with Some y => set_prev h3 0 y (Some m) | None => Ok h3 end = Ok h4 /\
       (forall y, PV h4 0 y = if peq (nxt_of (ids b') None) y then Some (Some m) else PV h3 0 y) /\
       (forall y, NX h4 0 y = NX h3 0 y) /\ (forall y, VL h4 y = VL h3 y) /\ length h4 = length h3).
    { destruct (nxt_of (ids b') None) as [y|] eqn:Ea.
      - apply nxt_in in Ea. assert (Hym : y <> m) by (intros ->; apply Hma; apply in_or_app; right; right; auto).
        destruct (seg_cons_in _ _ _ _ _ y Sg) as (? & q & _ & Q); [apply in_or_app; right; right; auto|].
        edestruct set_prev_ok as (h4 & H & P4 & N4 & V4 & _ & L4 & _);
          [rewrite P3, P2, (proj2 (Nat.eqb_neq y m)) by auto; rewrite andb_false_r, P1; exact Q|].
        exists h4. split; [exact H|]. split; [|auto]. intro z. rewrite P4. cbn. rewrite (Nat.eqb_sym y z). reflexivity.
      - exists h3. auto. }
    destruct B4 as (h4 & -> & P4 & N4 & V4 & L4). cbn [bind].
    eexists; split; [reflexivity|]. cbn [fr hp]. split; [|split; [auto|lia]].
    rewrite Ecn, Efr.
    replace (a' ++ (b, w) :: (m, v) :: b') with ((a' ++ [(b, w)]) ++ (m, v) :: b') by (rewrite <- app_assoc; reflexivity).
    apply view_moved with (a := a) (b := rest); auto.
    + rewrite <- app_assoc. exact Eab.
    + intro y. now rewrite V4, V3, V2, V1, Ev.
    + rewrite ids_app. cbn [ids map fst]. fold (ids a').
      rewrite E2 in Sg.
      apply (seg_insert (hp d1) h4 0 None (ids a' ++ [b]) m (ids b') None); [exact Hnd2|exact Sg| | | |].
      * intros x Hx. rewrite <- E2 in Hx. assert (x <> m) by (intros ->; auto). rewrite N4, N3, (proj2 (Nat.eqb_neq x m)) by auto. rewrite andb_false_r, N2, N1.
        rewrite lst_app. cbn. rewrite (Nat.eqb_sym b x). reflexivity.
      * intros x Hx. rewrite <- E2 in Hx. assert (x <> m) by (intros ->; auto). rewrite P4.
        destruct (peq (nxt_of (ids b') None) x); [reflexivity|]. rewrite P3, P2, P1, (proj2 (Nat.eqb_neq x m)) by auto. now rewrite andb_false_r.
      * rewrite N4, N3. cbn. rewrite Nat.eqb_refl. reflexivity.
      * rewrite P4, peq_nxt_notin by (intro; apply Hma; apply in_or_app; right; right; auto). rewrite P3, P2. cbn. rewrite Nat.eqb_refl. rewrite lst_app. reflexivity.
    + rewrite Ehd, ids_app, <- !app_assoc. destruct (ids a'); reflexivity.
    + rewrite ids_app, !lst_app. cbn. destruct (ids b'); reflexivity.
Qed.
End Unsorted.

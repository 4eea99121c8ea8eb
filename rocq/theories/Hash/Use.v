(** What users of a plain hash table (one value per key, no callbacks but the
    hash and the equality) need to know about it: it is a function. *)
From Verif Require Import Base.Lib Sort.Spec Hash.Spec Hash.Model Hash.Table Hash.Parts Hash.Proofs Hash.Enum Hash.Dup Hash.Props.

(** M_HASHTABLE_NONE, 75 percent *)
Definition plain := mkh false false false false false 75.
Definition same_ptr (_ : bool) (_ : nat) (x : N) : N := x.
Definition is_some {A} (o : option A) : bool := match o with Some _ => true | None => false end.
(** Key equality is an equivalence respected by the hash. *)
Definition good_keys (kcmp : N -> N -> Z) (hash : N -> N) : Prop :=
  (forall x, kcmp x x = 0)%Z /\ (forall x y, kcmp x y = 0 -> kcmp y x = 0)%Z /\
  (forall x y z, kcmp x y = 0 -> kcmp y z = 0 -> kcmp x z = 0)%Z /\ (forall x y, kcmp x y = 0%Z -> hash x = hash y).

Section Use.
Context (kcmp : N -> N -> Z) (hash : N -> N) (lev : nat -> nat) (g : N) (Hk : good_keys kcmp hash).
Notation step := (step kcmp kcmp hash plain same_ptr same_ptr lev g).
Notation hget := (hget kcmp hash plain).

Lemma use_cb i : good_cb kcmp kcmp hash plain (same_ptr i).
Proof. destruct Hk as (A & B & C & D). repeat (split; auto); discriminate. Qed.
Lemma use_wf : wf_cfg plain.
Proof. split; [reflexivity|]. split; auto. Qed.
Definition Holds (h : tab) (f : N -> option N) : Prop :=
  exists t ex, Rep kcmp kcmp hash plain h t ex /\ forall k, k <> 0%N -> hd_error (stored kcmp k t) = f k.
Lemma holds_create : exists h, create plain 16 = Some h /\ Holds h (fun _ => None).
Proof.
  destruct (create_ok kcmp kcmp hash plain same_ptr lev use_wf 16) as (h & E & R & _); [vm_compute; split; discriminate|].
  exists h. split; auto. exists [], 0. auto.
Qed.
Lemma holds_ext h f f' : Holds h f -> (forall k, k <> 0%N -> f k = f' k) -> Holds h f'.
Proof. intros (t & ex & R & H) E. exists t, ex. split; auto. intros k Hz. rewrite <- E; auto. Qed.
Lemma holds_get h f k : Holds h f -> k <> 0%N -> hget h k = Ok (f k).
Proof.
  intros (t & ex & R & H) Hz. rewrite (hget_ok kcmp kcmp hash plain same_ptr same_ptr lev g use_wf use_cb h t ex k R), <- H by auto.
  unfold look, stored. destruct (N.eqb_spec k 0); [contradiction|]. destruct (filter (same kcmp k) t) as [|[k' vs] l]; auto.
Qed.
Lemma holds_cong h f k k2 : Holds h f -> k <> 0%N -> k2 <> 0%N -> kcmp k k2 = 0%Z -> f k = f k2.
Proof.
  intros (t & ex & R & H) Hz Hz2 E. rewrite <- !H by auto. unfold stored. destruct Hk as (_ & B & C & _). now rewrite (look_cong kcmp k k2 t B C E).
Qed.
Lemma holds_rel h t ex o : Rep kcmp kcmp hash plain h t ex ->
  exists r h' t' fk fv d, step h o = Ok (r, h') /\ Rep kcmp kcmp hash plain h' t' (d + ex) /\
    rel kcmp kcmp plain (same_ptr true) (same_ptr true) (clk h) ex t o r t' fk fv d /\
    (forall k, k <> 0%N -> stored kcmp k t' = hist kcmp plain (same_ptr true) (clk h) (stored kcmp k t) k [o]).
Proof.
  intros R. destruct (step_ok kcmp kcmp hash plain same_ptr same_ptr lev g use_wf use_cb h t ex o R) as (r & h' & t' & fk & fv & d & E & R' & Rel & _).
  exists r, h', t', fk, fv, d. split; auto. split; auto. split; auto. intros k Hz.
  destruct (rel_hist kcmp kcmp hash plain (same_ptr true) (same_ptr true) _ _ _ _ _ _ _ _ _ k (use_cb true) eq_refl Rel) as [Eh _]; auto.
  intros e He. destruct R as [[its I] _ _ _]. apply (its_look kcmp kcmp hash plain same_ptr use_cb h its t I e He).
Qed.
Lemma holds_insert h f k v : Holds h f -> k <> 0%N ->
  exists h', step h (Insert k v) = Ok (RB true, h') /\ Holds h' (fun k2 => if (kcmp k k2 =? 0)%Z then Some v else f k2).
Proof.
  intros (t & ex & R & H) Hz. destruct (holds_rel h t ex (Insert k v) R) as (r & h' & t' & fk & fv & d & E & R' & Rel & Hs).
  cbn [rel] in Rel. destruct Rel as (_ & -> & Rel). destruct (N.eqb_spec k 0); [contradiction|]. destruct Rel as (-> & _).
  exists h'. split; auto. exists t', ex. split; auto. intros k2 Hz2. rewrite Hs by auto. cbn [hist]. destruct (N.eqb_spec k 0); [contradiction|]. cbn [negb andb].
  destruct (kcmp k k2 =? 0)%Z; auto.
Qed.
Lemma holds_remove h f k dv : Holds h f -> k <> 0%N ->
  exists h', step h (Remove k dv) = Ok (RB (is_some (f k)), h') /\ Holds h' (fun k2 => if (kcmp k k2 =? 0)%Z then None else f k2).
Proof.
  intros (t & ex & R & H) Hz. destruct (holds_rel h t ex (Remove k dv) R) as (r & h' & t' & fk & fv & d & E & R' & Rel & Hs).
  exists h'. cbn [rel] in Rel. destruct Rel as (-> & Rel). split.
  - rewrite E. rewrite <- H by auto. unfold stored. unfold look in Rel. destruct (N.eqb_spec k 0); [contradiction|].
    destruct (filter (same kcmp k) t) as [|[k' vs] l] eqn:Ef; cbn [hd_error snd is_some] in *.
    + now destruct Rel as (-> & _).
    + destruct Rel as (-> & _). assert (He : In (k', vs) t) by (assert (A : In (k', vs) (filter (same kcmp k) t)) by (rewrite Ef; left; auto); apply filter_In in A; tauto).
      destruct R as [[its I] _ _ _]. destruct (its_look kcmp kcmp hash plain same_ptr use_cb h its t I _ He) as (_ & Ne & _). cbn in Ne. destruct vs; [congruence|auto].
  - exists t', ex. split; auto. intros k2 Hz2. rewrite Hs by auto. cbn [hist]. destruct (N.eqb_spec k 0); [contradiction|]. cbn [negb andb].
    destruct (kcmp k k2 =? 0)%Z; auto.
Qed.
Lemma holds_destroy h f dv : Holds h f -> exists h', destroy kcmp plain lev h dv = Ok h'.
Proof.
  intros (t & ex & R & _). destruct (destroy_ok kcmp kcmp hash plain same_ptr lev use_cb h t ex dv R) as (h' & E & _). eauto.
Qed.
End Use.

From Verif Require Import Base.Lib.
From Verif Require Import ThreadTls.Model ThreadTls.Spec.
Local Open Scope N_scope.
Set Implicit Arguments.

Lemma get_del s k k' : get (del s k) k' = if k' =? k then None else get s k'.
Proof.
  unfold del. induction s as [|[j x] s IH]; cbn; [destruct (k' =? k); reflexivity|].
  destruct (N.eqb_spec k j) as [->|D]; cbn.
  - rewrite IH. destruct (N.eqb_spec k' j); reflexivity.
  - destruct (N.eqb_spec k' j) as [->|D'].
    + destruct (N.eqb_spec j k); [congruence|reflexivity].
    + exact IH.
Qed.
Lemma get_put s k x k' : get (put s k x) k' = if k' =? k then Some x else get s k'.
Proof. unfold put. cbn. rewrite get_del. destruct (k' =? k); reflexivity. Qed.
Lemma get_in s k x : get s k = Some x -> In k (map fst s).
Proof.
  induction s as [|[j y] s IH]; cbn; [discriminate|]. destruct (N.eqb_spec k j) as [->|D]; auto.
Qed.
Lemma get_nil s : (forall k, get s k = None) -> s = [].
Proof.
  destruct s as [|[j y] s]; auto. intros H. specialize (H j). cbn in H. rewrite N.eqb_refl in H. discriminate.
Qed.

(** What a thread has at a key. *)
Definition ent (s : sys) (t : thr) (k : key) : option (bool * val) :=
  match pool s t with
  | None => None
  | Some a => match heap s a with Some st => get st k | None => None end
  end.

Record InvK (s : sys) (tr : list ev) : Prop := {
  k_cnt : forall k d, dget (keys s) k = Some d -> 0 < k <= cnt s;
  k_cre : forall t k d, at_ s t = Creating k d -> 0 < k <= cnt s /\ dget (keys s) k = None /\
            forall t' d', at_ s t' = Creating k d' -> t' = t;
  k_keys : forall k d, dget (keys s) k = Some d <-> created tr k d
}.
Definition pc_ok (s : sys) (t : thr) : Prop :=
  match at_ s t with
  | Setting k v d a => pool s t = Some a /\ dget (keys s) k = Some d
  | Getting k a => pool s t = Some a
  | Purging a ks => pool s t = Some a /\ forall k x, ent s t k = Some x -> In k ks
  | _ => True
  end.
Record InvH (s : sys) : Prop := {
  h_pool : forall t a, pool s t = Some a -> exists st, heap s a = Some st;
  h_inj : forall t t' a, pool s t = Some a -> pool s t' = Some a -> t = t';
  h_nxt : forall a, (nxt s <= a)%nat -> heap s a = None;
  h_pc : forall t, pc_ok s t;
  h_ent : forall t k d v, ent s t k = Some (d, v) -> dget (keys s) k = Some d
}.
Definition okp (p : list ev) (e : ev) : Prop :=
  match e with
  | EGet t k v => v = value_of p t k
  | ESet t k v r => r = true <-> exists d, created p k d
  | ECreated t k d => k <> 0 /\ ~ exists d', created p k d'
  | EDtor t k v => created p k true
  | _ => True
  end.
Definition good (tr : list ev) : Prop := forall p e q, tr = p ++ e :: q -> okp p e.
Definition shown (o : option (bool * val)) : val := match o with Some (_, v) => v | None => 0 end.
Definition kept (o : option (bool * val)) : option val := match o with Some (_, v) => Some v | None => None end.
Record InvT (s : sys) (tr : list ev) : Prop := {
  t_good : good tr;
  t_val : forall t k, (forall a ks, at_ s t <> Purging a ks) -> value_of tr t k = shown (ent s t k);
  t_life : forall t k, dget (keys s) k <> Some false -> life t k None tr = Some (kept (ent s t k))
}.

Arguments k_cnt {s tr} _ {k d} _.
Arguments k_cre {s tr} _ {t k d} _.
Arguments k_keys {s tr} _ k d.
Arguments h_pool {s} _ {t a} _.
Arguments h_inj {s} _ {t t' a} _ _.
Arguments h_nxt {s} _ {a} _.
Arguments h_pc {s} _ t.
Arguments h_ent {s} _ {t k d v} _.
Arguments t_good {s tr} _.
Arguments t_val {s tr} _ {t} k _.
Arguments t_life {s tr} _ t {k} _.

Lemma snoc_cases {A} (q : list A) : q = [] \/ exists q' g, q = q' ++ [g].
Proof. destruct q using rev_ind; eauto. Qed.
Lemma good_snoc tr e : good tr -> okp tr e -> good (tr ++ [e]).
Proof.
  intros G O p f q E. destruct (snoc_cases q) as [->|(q' & g & ->)].
  - apply app_inj_tail in E. destruct E as [<- <-]. exact O.
  - change (p ++ f :: q' ++ [g]) with (p ++ (f :: q') ++ [g]) in E. rewrite app_assoc in E.
    apply app_inj_tail in E. destruct E as [-> <-]. apply (G p f q'). reflexivity.
Qed.

Lemma good_dtor tr t k o : good tr -> (forall v, o = Some (true, v) -> created tr k true) -> good (tr ++ dtor t k o).
Proof.
  intros G C. destruct o as [[[] v]|]; cbn [dtor]; rewrite ?app_nil_r; auto. apply good_snoc; [exact G|exact (C _ eq_refl)].
Qed.
Lemma created_app a b k d : created (a ++ b) k d <-> created a k d \/ created b k d.
Proof.
  unfold created. split.
  - intros (t & H). apply in_app_or in H. destruct H; eauto.
  - intros [(t & H)|(t & H)]; exists t; apply in_or_app; auto.
Qed.
Lemma created_dtor t k o k' d : ~ created (dtor t k o) k' d.
Proof. intros (t' & H). destruct o as [[[] v]|]; cbn in H; intuition discriminate. Qed.
Lemma value_app a b t k : value_of (a ++ b) t k = fold_left (upd_value t k) b (value_of a t k).
Proof. apply fold_left_app. Qed.
Lemma value_dtor a t k o t' k' : value_of (a ++ dtor t k o) t' k' = value_of a t' k'.
Proof. rewrite value_app. destruct o as [[[] v]|]; reflexivity. Qed.
Lemma life_app t k a : forall h b, life t k h (a ++ b) = match life t k h a with None => None | Some h' => life t k h' b end.
Proof. induction a as [|e a IH]; intros h b; cbn; auto. destruct (life1 t k h e); auto. Qed.
Lemma life_snoc t k tr h e : life t k None tr = Some h -> life t k None (tr ++ [e]) = life1 t k h e.
Proof. intros H. rewrite life_app, H. cbn. destruct (life1 t k h e); reflexivity. Qed.
Lemma life_dtor_other t k t' k' o h : t' <> t \/ k' <> k -> life t k h (dtor t' k' o) = Some h.
Proof.
  intros D. destruct o as [[[] v]|]; cbn; auto.
  destruct (Nat.eqb_spec t' t); cbn; auto. destruct (N.eqb_spec k' k); auto. tauto.
Qed.
Lemma life_dtor_same t k d v : d = true -> life t k (Some v) (dtor t k (Some (d, v))) = Some None.
Proof. intros ->. cbn. rewrite Nat.eqb_refl, !N.eqb_refl. reflexivity. Qed.

Lemma set_same {A} (f : nat -> A) i x : set f i x i = x.
Proof. unfold set. now rewrite Nat.eqb_refl. Qed.
Lemma set_other {A} (f : nat -> A) i x j : j <> i -> set f i x j = f j.
Proof. intros D. unfold set. destruct (Nat.eqb_spec j i); congruence. Qed.

Lemma ent_heap s t a f : InvH s -> pool s t = Some a -> forall t' k, t' <> t ->
  match pool s t' with None => None | Some b => match set (heap s) a f b with Some st => get st k | None => None end end = ent s t' k.
Proof.
  intros H P t' k D. unfold ent. destruct (pool s t') as [b|] eqn:E; auto.
  rewrite set_other; auto. intros ->. apply D. exact (h_inj H E P).
Qed.

Lemma step_K s tr t c s' e : InvK s tr -> step s t c = Ok (s', e) -> InvK s' (tr ++ e).
Proof.
  intros K E.
  assert (Q : forall l, (forall k d, ~ created l k d) -> forall s2, keys s2 = keys s -> cnt s2 = cnt s ->
     (forall t' k d, at_ s2 t' = Creating k d -> at_ s t' = Creating k d) -> InvK s2 (tr ++ l)).
  { intros l N s2 E1 E2 E3. split.
    - rewrite E1, E2. apply K.
    - intros t' k d A. rewrite E1, E2. apply E3 in A. destruct (k_cre K A) as (A1 & A2 & A3). repeat (split; auto); try tauto.
      intros t2 d2 B. apply E3 in B. eauto.
    - intros k d. rewrite E1, created_app, (k_keys K). specialize (N k d). tauto. }
  assert (N0 : forall k d, ~ created [] k d) by (intros k d (t' & []) ).
  unfold step in E. destruct (at_ s t) as [|k0 d0|k0 v0 d0 a0|k0 a0|a0 ks0] eqn:A.
  - destruct c as [d|k v|k|]; cbn [enter] in E.
    + injection E as <- <-. rewrite app_nil_r. split; cbn.
      * intros k d' H. apply (k_cnt K) in H. lia.
      * intros t' k d'. unfold set. destruct (Nat.eqb_spec t' t) as [->|D].
        -- intros X. injection X as <- <-. split; [lia|]. split.
           ++ destruct (dget (keys s) (cnt s + 1)) eqn:G; auto. apply (k_cnt K) in G. lia.
           ++ intros t2 d2. destruct (Nat.eqb_spec t2 t); auto. intros X. apply (k_cre K) in X. lia.
        -- intros X. destruct (k_cre K X) as (A1 & A2 & A3). split; [lia|]. split; auto.
           intros t2 d2. destruct (Nat.eqb_spec t2 t) as [->|]; eauto. intros Y. injection Y as Y1 Y2. lia.
      * apply K.
    + destruct (dget (keys s) k); [destruct (pool s t)|]; injection E as <- <-.
      1,2: apply Q; auto; intros t' k' d'; cbn; unfold set; destruct (Nat.eqb t' t); [discriminate|auto].
      apply Q; auto. intros k' d' (t' & H). cbn in H. intuition discriminate.
    + destruct (pool s t); injection E as <- <-; apply Q; auto.
      * intros t' k' d'; cbn; unfold set; destruct (Nat.eqb t' t); [discriminate|auto].
      * intros k' d' (t' & H). cbn in H. intuition discriminate.
    + destruct (pool s t); injection E as <- <-; apply Q; auto.
      * intros t' k' d'; cbn; unfold set; destruct (Nat.eqb t' t); [discriminate|auto].
      * intros k' d' (t' & H). cbn in H. intuition discriminate.
  - unfold go in E. rewrite A in E. injection E as <- <-. destruct (k_cre K A) as (A1 & A2 & A3). split; cbn.
    + intros k d. destruct (N.eqb_spec k k0) as [->|D]; [auto|apply K].
    + intros t' k d. unfold set. destruct (Nat.eqb_spec t' t) as [->|D]; [discriminate|]. intros X.
      destruct (k_cre K X) as (B1 & B2 & B3). split; auto. split.
      * destruct (N.eqb_spec k k0) as [->|]; auto. elim D. eauto.
      * intros t2 d2. destruct (Nat.eqb_spec t2 t); [discriminate|eauto].
    + intros k d. rewrite created_app. destruct (N.eqb_spec k k0) as [->|D].
      * split.
        -- intros X. injection X as <-. right. exists t. now left.
        -- intros [X|(t' & [X|[]])]; [apply (k_keys K) in X; congruence|]. now injection X as _ <-.
      * rewrite (k_keys K). split; auto. intros [X|(t' & [X|[]])]; auto. injection X as _ X _. congruence.
  - unfold go in E. rewrite A in E. destruct (heap s a0) as [st|]; [|discriminate].
    destruct (v0 =? 0); injection E as <- <-; apply Q; auto; intros k' d';
      try (cbn; unfold set; destruct (Nat.eqb k' t); [discriminate|auto]);
      try (cbn; intros d2; unfold set; destruct (Nat.eqb k' t); [discriminate|auto]);
      rewrite ?created_app; intros X; repeat destruct X as [X|X]; try (now apply created_dtor in X);
      destruct X as (t' & X); cbn in X; intuition discriminate.
  - unfold go in E. rewrite A in E. destruct (heap s a0) as [st|]; [|discriminate]. injection E as <- <-. apply Q; auto.
    + intros k' d' (t' & H). cbn in H. intuition discriminate.
    + intros t' k' d'; cbn; unfold set; destruct (Nat.eqb t' t); [discriminate|auto].
  - unfold go in E. rewrite A in E. destruct ks0; (destruct (heap s a0) as [st|]; [|discriminate]); injection E as <- <-; apply Q; auto.
    + intros k' d'. rewrite created_app. intros [X|(t' & [X|[]])]; [|discriminate].
      destruct X as (t' & X). apply in_flat_map in X. destruct X as ([k3 [[] v3]] & _ & X); cbn in X; intuition discriminate.
    + intros t' k' d'; cbn; unfold set; destruct (Nat.eqb t' t); [discriminate|auto].
    + intros k' d'. apply created_dtor.
    + intros t' k' d'; cbn; unfold set; destruct (Nat.eqb t' t); [discriminate|auto].
Qed.

From Verif Require Import Base.Lib Sort.Model Sort.Spec Sort.Merge.

Section Qsort.
Context {A : Type} (cmp : A -> A -> Z) (Hcmp : total_preorder cmp).

(** Only cells a .. b-1 were rearranged. *)
Definition frame (m m' : list A) (a b : nat) : Prop :=
  Permutation m m' /\ forall i, ~ (a <= i < b) -> nth_error m' i = nth_error m i.
Definition seg (m : list A) (a b : nat) (P : A -> Prop) : Prop :=
  forall i u, a <= i < b -> nth_error m i = Some u -> P u.
Definition sortedseg (m : list A) (a b : nat) : Prop :=
  forall x y u v, a <= x -> x < y -> y < b ->
    nth_error m x = Some u -> nth_error m y = Some v -> (cmp u v <= 0)%Z.

Lemma frame_refl m a b : frame m m a b.
Proof. split; auto. Qed.
Lemma frame_len m m' a b : frame m m' a b -> length m' = length m.
Proof. intros [H _]. symmetry. apply Permutation_length, H. Qed.
Lemma frame_trans m1 m2 m3 a b : frame m1 m2 a b -> frame m2 m3 a b -> frame m1 m3 a b.
Proof.
  intros [P1 F1] [P2 F2]. split; [etransitivity; eauto|]. intros i Hi. rewrite F2, F1; auto.
Qed.
Lemma frame_widen m m' a b a' b' : frame m m' a b -> a' <= a -> b <= b' -> frame m m' a' b'.
Proof. intros [P F] Ha Hb. split; auto. intros i Hi. apply F. lia. Qed.

Lemma frame_seg m m' a b P : frame m m' a b -> a <= b <= length m -> seg m a b P -> seg m' a b P.
Proof.
  intros F Hb S i u Hi Hu.
  pose proof (frame_len _ _ _ _ F) as L. destruct F as [HP HF].
  assert (E1 : firstn a m' = firstn a m).
  { apply nth_error_ext. intros j. rewrite !firstn_nth_error. destruct (Nat.ltb_spec j a); auto. apply HF. lia. }
  assert (E2 : skipn b m' = skipn b m).
  { apply nth_error_ext. intros j. rewrite !skipn_nth_error. apply HF. lia. }
  assert (D : forall l : list A, a <= b <= length l -> l = firstn a l ++ firstn (b - a) (skipn a l) ++ skipn b l).
  { intros l Hl. replace (skipn b l) with (skipn (b - a) (skipn a l)) by (rewrite skipn_skipn; now replace (a + (b - a)) with b by lia).
    rewrite firstn_skipn, firstn_skipn. reflexivity. }
  rewrite (D m Hb), (D m' ltac:(lia)), E1, E2 in HP.
  apply Permutation_app_inv_l, Permutation_app_inv_r in HP.
  assert (I : In u (firstn (b - a) (skipn a m'))).
  { apply nth_error_In with (n := i - a). rewrite firstn_nth_error, skipn_nth_error.
    replace (i - a <? b - a) with true by lia. replace (a + (i - a)) with i by lia. exact Hu. }
  apply (Permutation_in _ (Permutation_sym HP)) in I.
  apply In_nth_error in I as [n Hn]. rewrite firstn_nth_error, skipn_nth_error in Hn.
  destruct (Nat.ltb_spec n (b - a)); [|discriminate]. apply (S (a + n) u); auto. lia.
Qed.

Lemma seg_out m m' a b c d P : frame m m' a b -> d <= a \/ b <= c -> seg m c d P -> seg m' c d P.
Proof. intros [_ F] Hd S i u Hi Hu. apply (S i u Hi). rewrite <- F; auto. lia. Qed.

Lemma swap_ok (m : list A) i j : i < length m -> j < length m ->
  exists m', swap m i j = Ok m' /\ length m' = length m /\ Permutation m m' /\
    forall k, nth_error m' k = if k =? i then nth_error m j else if k =? j then nth_error m i else nth_error m k.
Proof.
  intros Hi Hj. unfold swap. destruct (Nat.eqb_spec i j) as [->|Hne].
  - exists m. repeat split; auto. intros k. destruct (Nat.eqb_spec k j) as [->|]; auto.
  - destruct (rd_lt m Hi) as [x Hx]. destruct (rd_lt m Hj) as [y Hy]. rewrite Hx, Hy. cbn [bind].
    rewrite wr_lt by auto. cbn [bind]. rewrite wr_lt by (rewrite length_upd; auto).
    apply rd_Ok in Hx, Hy. set (m' := upd (upd m i y) j x).
    assert (N : forall k, nth_error m' k = if k =? i then nth_error m j else if k =? j then nth_error m i else nth_error m k).
    { intros k. unfold m'. rewrite !nth_error_upd, length_upd.
      replace (j <? length m) with true by lia. replace (i <? length m) with true by lia.
      rewrite !andb_true_r. destruct (Nat.eqb_spec k j); destruct (Nat.eqb_spec k i); try lia; congruence. }
    assert (L : length m' = length m) by (unfold m'; now rewrite !length_upd).
    exists m'. repeat split; auto.
    apply Permutation_nth_error. split; [auto|].
    exists (fun k => if k =? i then j else if k =? j then i else k). split.
    + intros a b. 
      destruct (Nat.eqb_spec a i); destruct (Nat.eqb_spec a j); destruct (Nat.eqb_spec b i); destruct (Nat.eqb_spec b j); lia.
    + intros k. rewrite N. destruct (k =? i); auto. destruct (k =? j); auto.
Qed.

Ltac sw := match goal with
  | |- context [swap ?m ?i ?j] =>
     let m' := fresh "m" in let E := fresh "E" in let L := fresh "L" in let P := fresh "P" in let N := fresh "N" in
     destruct (swap_ok m i j) as (m' & E & L & P & N); [lia|lia|rewrite E; cbn [bind]]
  end.

Lemma swap_frame (m : list A) i j a b m' :
  a <= i < b -> a <= j < b -> Permutation m m' ->
  (forall k, nth_error m' k = if k =? i then nth_error m j else if k =? j then nth_error m i else nth_error m k) ->
  frame m m' a b.
Proof.
  intros Hi Hj HP HN. split; auto. intros k Hk. rewrite HN.
  destruct (Nat.eqb_spec k i); [lia|]. destruct (Nat.eqb_spec k j); [lia|auto].
Qed.

(** ** insertion sort *)

Lemma insertion_inner_ok : forall fuel m base p i,
  base <= p <= i -> i < length m -> p - base < fuel ->
  (forall x y u v, base <= x -> x < y -> y <= i -> x <> p -> y <> p ->
     nth_error m x = Some u -> nth_error m y = Some v -> (cmp u v <= 0)%Z) ->
  (forall y u v, p < y -> y <= i -> nth_error m p = Some u -> nth_error m y = Some v -> (cmp u v <= 0)%Z) ->
  exists m', insertion_inner cmp fuel m base p = Ok m' /\ frame m m' base (S i) /\ sortedseg m' base (S i).
Proof.
  induction fuel as [|f IH]; intros m base p i Hp Hi Hf H1 H2; [lia|].
  cbn [insertion_inner]. destruct (Nat.ltb_spec base p) as [Hb|Hb].
  - destruct (rd_lt m (i := p - 1) ltac:(lia)) as [x Hx]. destruct (rd_lt m (i := p) ltac:(lia)) as [y Hy].
    rewrite Hx, Hy. cbn [bind]. apply rd_Ok in Hx, Hy.
    destruct (Z.ltb_spec 0 (cmp x y)) as [C|C].
    + sw. destruct (IH m0 base (p - 1) i) as (m' & E' & F' & S'); try lia.
      * intros a b u v Ha Hab Hbi Ha1 Hb1 Hu Hv. rewrite N in Hu, Hv.
        destruct (Nat.eqb_spec a p) as [->|Hap].
        -- (* a = p: old p-1 against b > p *)
           destruct (Nat.eqb_spec b p); [lia|]. destruct (Nat.eqb_spec b (p - 1)); [lia|].
           apply (H1 (p - 1) b u v); auto; lia.
        -- destruct (Nat.eqb_spec a (p - 1)); [lia|].
           destruct (Nat.eqb_spec b p) as [->|Hbp].
           ++ apply (H1 a (p - 1) u v); auto; lia.
           ++ destruct (Nat.eqb_spec b (p - 1)); [lia|]. apply (H1 a b u v); auto.
      * intros b u v Hb1 Hbi Hu Hv. rewrite N in Hu, Hv.
        destruct (Nat.eqb_spec (p - 1) p); [lia|]. rewrite Nat.eqb_refl in Hu.
        destruct (Nat.eqb_spec b p) as [->|Hbp].
        -- rewrite Hy in Hu. rewrite Hx in Hv. injection Hu as <-. injection Hv as <-.
           assert (cmp x y > 0)%Z by lia. apply cmp_gt in H; auto. lia.
        -- destruct (Nat.eqb_spec b (p - 1)); [lia|]. apply (H2 b u v); auto; lia.
      * exists m'. split; auto. split; auto.
        apply frame_trans with m0; auto. apply (swap_frame m p (p - 1)); auto; lia.
    + exists m. split; auto. split; [apply frame_refl|].
      intros a b u v Ha Hab Hbi Hu Hv.
      destruct (Nat.eq_dec a p) as [->|Hap].
      * apply (H2 b u v); auto; lia.
      * destruct (Nat.eq_dec b p) as [->|Hbp].
        -- rewrite Hy in Hv. injection Hv as <-.
           destruct (Nat.eq_dec a (p - 1)) as [->|Hap1].
           ++ rewrite Hx in Hu. injection Hu as <-. lia.
           ++ apply (cmp_trans _ Hcmp u x y); [|lia]. apply (H1 a (p - 1) u x); auto; lia.
        -- apply (H1 a b u v); auto; lia.
  - exists m. split; auto. split; [apply frame_refl|].
    intros a b u v Ha Hab Hbi Hu Hv. destruct (Nat.eq_dec a p) as [->|Hap].
    + apply (H2 b u v); auto; lia.
    + apply (H1 a b u v); auto; lia.
Qed.

Lemma insertion_outer_ok : forall n m base i,
  base + i + n <= length m -> sortedseg m base (base + i) ->
  exists m', insertion_outer cmp n m base i = Ok m' /\ frame m m' base (base + i + n) /\
    sortedseg m' base (base + i + n).
Proof.
  induction n as [|n IH]; intros m base i Hl Hs.
  - exists m. cbn. rewrite Nat.add_0_r. split; auto. split; auto. apply frame_refl.
  - cbn [insertion_outer].
    destruct (insertion_inner_ok (S i) m base (base + i) (base + i)) as (m1 & E & F & S1); try lia.
    + intros x y u v Hx Hxy Hy Hx1 Hy1 Hu Hv. apply (Hs x y u v); auto. lia.
    + rewrite E. cbn [bind]. pose proof (frame_len _ _ _ _ F) as L.
      replace (Datatypes.S (base + i)) with (base + S i) in S1 by lia.
      destruct (IH m1 base (S i)) as (m2 & E2 & F2 & S2); [lia|auto|].
      replace (base + S i + n) with (base + i + S n) in * by lia.
      exists m2. split; auto. split; auto. apply frame_trans with m1; auto.
      apply (frame_widen _ _ _ _ base (base + i + S n) F); lia.
Qed.

Lemma insertion_ok m base n : base + n <= length m ->
  exists m', insertion cmp m base n = Ok m' /\ frame m m' base (base + n) /\ sortedseg m' base (base + n).
Proof.
  intros H. unfold insertion. destruct n as [|n].
  - exists m. cbn. rewrite Nat.add_0_r. split; auto. split; [apply frame_refl|].
    intros x y u v Hx Hxy Hy. lia.
  - replace (S n - 1) with n by lia.
    destruct (insertion_outer_ok n m base 1) as (m' & E & F & S1); [lia| |].
    + intros x y u v Hx Hxy Hy. lia.
    + replace (base + S n) with (base + 1 + n) by lia. eauto.
Qed.

(** ** pivot *)

Lemma median_ok m a b c : a < length m -> b < length m -> c < length m ->
  exists r, median cmp m a b c = Ok r /\ (r = a \/ r = b \/ r = c).
Proof.
  intros Ha Hb Hc. unfold median.
  destruct (rd_lt m Ha) as [x ->]. destruct (rd_lt m Hb) as [y ->]. destruct (rd_lt m Hc) as [z ->]. cbn [bind].
  eexists. split; [reflexivity|].
  repeat match goal with |- context [if ?c then _ else _] => destruct c end; auto.
Qed.

Lemma choose_pivot_ok m base n : 7 <= n -> base + n <= length m ->
  exists r, choose_pivot cmp m base n = Ok r /\ base <= r < base + n.
Proof.
  intros Hn Hl. unfold choose_pivot. destruct (Nat.ltb_spec 7 n) as [H7|H7].
  - destruct (Nat.ltb_spec 40 n) as [H40|H40].
    + set (s := n / 8).
      assert (Hs : 2 * s + s < n /\ s <= n / 2 /\ n / 2 + s < n /\ 0 < s) by (subst s; lia).
      destruct (median_ok m base (base + s) (base + 2 * s)) as (a & -> & Ha); [lia|lia|lia|].
      destruct (median_ok m (base + n / 2 - s) (base + n / 2) (base + n / 2 + s)) as (b & -> & Hb); [lia|lia|lia|].
      destruct (median_ok m (base + (n - 1) - 2 * s) (base + (n - 1) - s) (base + (n - 1))) as (c & -> & Hc); [lia|lia|lia|].
      cbn [bind]. destruct (median_ok m a b c) as (r & -> & Hr); [lia|lia|lia|].
      exists r. split; auto. lia.
    + cbn [bind]. destruct (median_ok m base (base + n / 2) (base + (n - 1))) as (r & -> & Hr); [lia|lia|lia|].
      exists r. split; auto. lia.
  - eexists. split; [reflexivity|]. lia.
Qed.

(** ** partition *)

Record pinv (m : list A) (p : A) (base l1 l2 r1 r2 e : nat) : Prop := {
  pi_ord : base < l1 /\ l1 <= l2 /\ l2 <= r1 + 1 /\ r1 <= r2 /\ r2 < e /\ e <= length m;
  pi_piv : nth_error m base = Some p;
  pi_el : seg m base l1 (fun u => cmp u p = 0%Z);
  pi_l : seg m l1 l2 (fun u => (cmp u p < 0)%Z);
  pi_g : seg m (r1 + 1) (r2 + 1) (fun u => (0 < cmp u p)%Z);
  pi_eg : seg m (r2 + 1) e (fun u => cmp u p = 0%Z) }.

Lemma nth_def (m : list A) i : i < length m -> exists x, nth_error m i = Some x.
Proof. intros H. destruct (nth_error m i) eqn:E; eauto. apply nth_error_None in E. lia. Qed.

Lemma scan_left_ok p e : forall fuel m base l1 l2 r1 r2,
  pinv m p base l1 l2 r1 r2 e -> r1 + 1 - l2 < fuel ->
  exists m' l1' l2', scan_left cmp fuel m base l1 l2 r1 = Ok (m', l1', l2') /\
    pinv m' p base l1' l2' r1 r2 e /\ frame m m' base e /\ l2 <= l2' /\
    (l2' <= r1 -> seg m' l2' (l2' + 1) (fun u => (0 < cmp u p)%Z)).
Proof.
  induction fuel as [|f IH]; intros m base l1 l2 r1 r2 HI Hf; [lia|].
  pose proof HI as [Ho Hpv He1 Hl Hg Heg]. cbn [scan_left].
  destruct (Nat.leb_spec l2 r1) as [Hle|Hle].
  2:{ exists m, l1, l2. repeat split; try apply HI; auto using frame_refl. lia. }
  destruct (rd_lt m (i := l2) ltac:(lia)) as [x Hx]. rewrite Hx. cbn [bind]. apply rd_Ok in Hx.
  assert (Hrb : rd m base = Ok p) by (apply rd_Ok; auto). rewrite Hrb. cbn [bind].
  destruct (Z.leb_spec (cmp x p) 0) as [C|C].
  2:{ exists m, l1, l2. repeat split; try apply HI; auto using frame_refl.
      intros _ i u Hi Hu. replace i with l2 in Hu by lia. rewrite Hx in Hu. injection Hu as <-. lia. }
  destruct (Z.eqb_spec (cmp x p) 0) as [C0|C0].
  - sw. assert (F : frame m m0 base e) by (apply (swap_frame m l1 l2); auto; lia).
    assert (HI' : pinv m0 p base (S l1) (S l2) r1 r2 e).
    { split; try lia.
      - rewrite N. destruct (Nat.eqb_spec base l1); [lia|]. destruct (Nat.eqb_spec base l2); [lia|auto].
      - intros i u Hi Hu. rewrite N in Hu. destruct (Nat.eqb_spec i l1) as [->|].
        + rewrite Hx in Hu. injection Hu as <-. auto.
        + destruct (Nat.eqb_spec i l2); [lia|]. apply (He1 i u); auto; lia.
      - intros i u Hi Hu. rewrite N in Hu. destruct (Nat.eqb_spec i l1); [lia|].
        destruct (Nat.eqb_spec i l2) as [->|]; [apply (Hl l1 u); auto; lia|]. apply (Hl i u); auto; lia.
      - intros i u Hi Hu. rewrite N in Hu. destruct (Nat.eqb_spec i l1); [lia|].
        destruct (Nat.eqb_spec i l2); [lia|]. apply (Hg i u); auto.
      - intros i u Hi Hu. rewrite N in Hu. destruct (Nat.eqb_spec i l1); [lia|].
        destruct (Nat.eqb_spec i l2); [lia|]. apply (Heg i u); auto. }
    destruct (IH m0 base (S l1) (S l2) r1 r2 HI' ltac:(lia)) as (m' & l1' & l2' & E' & I' & F' & L' & S').
    exists m', l1', l2'. repeat split; try apply I'; auto.
    + etransitivity; [exact P|]. apply F'.
    + intros i Hi. rewrite (proj2 F' i Hi). apply (proj2 F i Hi).
    + lia.
  - assert (HI' : pinv m p base l1 (S l2) r1 r2 e).
    { split; auto; try lia. intros i u Hi Hu. destruct (Nat.eq_dec i l2) as [->|].
      - rewrite Hx in Hu. injection Hu as <-. lia.
      - apply (Hl i u); auto; lia. }
    destruct (IH m base l1 (S l2) r1 r2 HI' ltac:(lia)) as (m' & l1' & l2' & E' & I' & F' & L' & S').
    exists m', l1', l2'. repeat split; try apply I'; auto; try apply F'. lia.
Qed.

Lemma scan_right_ok p e : forall fuel m base l1 l2 r1 r2,
  pinv m p base l1 l2 r1 r2 e -> r1 + 1 - l2 < fuel ->
  (l2 <= r1 -> seg m l2 (l2 + 1) (fun u => (0 < cmp u p)%Z)) ->
  exists m' r1' r2', scan_right cmp fuel m base l2 r1 r2 = Ok (m', r1', r2') /\
    pinv m' p base l1 l2 r1' r2' e /\ frame m m' base e /\ r1' <= r1 /\
    (l2 <= r1' -> seg m' l2 (l2 + 1) (fun u => (0 < cmp u p)%Z) /\
                  seg m' r1' (r1' + 1) (fun u => (cmp u p < 0)%Z)).
Proof.
  induction fuel as [|f IH]; intros m base l1 l2 r1 r2 HI Hf Hl2; [lia|].
  pose proof HI as [Ho Hpv He1 Hl Hg Heg]. cbn [scan_right].
  destruct (Nat.leb_spec l2 r1) as [Hle|Hle].
  2:{ exists m, r1, r2. split; auto. split; auto. split; [apply frame_refl|]. split; auto. lia. }
  destruct (rd_lt m (i := r1) ltac:(lia)) as [x Hx]. rewrite Hx. cbn [bind]. apply rd_Ok in Hx.
  assert (Hrb : rd m base = Ok p) by (apply rd_Ok; auto). rewrite Hrb. cbn [bind].
  destruct (Z.leb_spec 0 (cmp x p)) as [C|C].
  2:{ exists m, r1, r2. split; auto. split; auto. split; [apply frame_refl|]. split; auto.
      intros _. split; auto.
      intros i u Hi Hu. replace i with r1 in Hu by lia. rewrite Hx in Hu. injection Hu as <-. lia. }
  destruct (Z.eqb_spec (cmp x p) 0) as [C0|C0].
  - assert (Hlt : l2 < r1).
    { destruct (Nat.eq_dec l2 r1) as [->|]; [|lia]. specialize (Hl2 Hle r1 x ltac:(lia) Hx). cbn beta in Hl2. lia. }
    sw. assert (F : frame m m0 base e) by (apply (swap_frame m r1 r2); auto; lia).
    assert (HI' : pinv m0 p base l1 l2 (r1 - 1) (r2 - 1) e).
    { split; try lia.
      - rewrite N. destruct (Nat.eqb_spec base r1); [lia|]. destruct (Nat.eqb_spec base r2); [lia|auto].
      - intros i u Hi Hu. rewrite N in Hu. destruct (Nat.eqb_spec i r1); [lia|].
        destruct (Nat.eqb_spec i r2); [lia|]. apply (He1 i u); auto.
      - intros i u Hi Hu. rewrite N in Hu. destruct (Nat.eqb_spec i r1); [lia|].
        destruct (Nat.eqb_spec i r2); [lia|]. apply (Hl i u); auto.
      - intros i u Hi Hu. rewrite N in Hu. destruct (Nat.eqb_spec i r1) as [->|].
        + apply (Hg r2 u); auto; lia.
        + destruct (Nat.eqb_spec i r2); [lia|]. apply (Hg i u); auto; lia.
      - intros i u Hi Hu. rewrite N in Hu. destruct (Nat.eqb_spec i r1) as [->|].
        + replace r2 with r1 in Hu by lia. rewrite Hx in Hu. injection Hu as <-. auto.
        + destruct (Nat.eqb_spec i r2) as [->|].
          * rewrite Hx in Hu. injection Hu as <-. auto.
          * apply (Heg i u); auto; lia. }
    destruct (IH m0 base l1 l2 (r1 - 1) (r2 - 1) HI' ltac:(lia)) as (m' & r1' & r2' & E' & I' & F' & L' & S').
    { intros _ i u Hi Hu. rewrite N in Hu. destruct (Nat.eqb_spec i r1); [lia|].
      destruct (Nat.eqb_spec i r2); [lia|]. apply (Hl2 Hle i u); auto. }
    exists m', r1', r2'. split; auto. split; auto. split; [apply frame_trans with m0; auto|]. split; [lia|auto].
  - assert (HI' : pinv m p base l1 l2 (r1 - 1) r2 e).
    { split; auto; try lia. intros i u Hi Hu. destruct (Nat.eq_dec i r1) as [->|].
      - rewrite Hx in Hu. injection Hu as <-. lia.
      - apply (Hg i u); auto; lia. }
    destruct (IH m base l1 l2 (r1 - 1) r2 HI' ltac:(lia)) as (m' & r1' & r2' & E' & I' & F' & L' & S').
    { intros _. apply Hl2; auto. }
    exists m', r1', r2'. split; auto. split; auto. split; auto. split; [lia|auto].
Qed.

Lemma partition_ok p e : forall fuel m base l1 l2 r1 r2,
  pinv m p base l1 l2 r1 r2 e -> r1 + 1 - l2 < fuel ->
  exists m' l1' l2' r1' r2', partition cmp fuel m base l1 l2 r1 r2 = Ok (m', l1', l2', r1', r2') /\
    pinv m' p base l1' l2' r1' r2' e /\ frame m m' base e /\ l2' = r1' + 1.
Proof.
  induction fuel as [|f IH]; intros m base l1 l2 r1 r2 HI Hf; [lia|].
  cbn [partition].
  destruct (scan_left_ok p e (S (length m)) m base l1 l2 r1 r2 HI) as (m1 & l1' & l2' & E1 & I1 & F1 & L1 & S1).
  { destruct HI as [Ho _ _ _ _ _]. lia. }
  rewrite E1. cbn [bind].
  destruct (scan_right_ok p e (S (length m1)) m1 base l1' l2' r1 r2 I1) as (m2 & r1' & r2' & E2 & I2 & F2 & L2 & S2); auto.
  { destruct I1 as [Ho _ _ _ _ _]. lia. }
  rewrite E2. cbn [bind]. pose proof I2 as [Ho Hpv He1 Hl Hg Heg].
  destruct (Nat.ltb_spec r1' l2') as [Hlt|Hle].
  - exists m2, l1', l2', r1', r2'. split; auto. split; auto. split; [apply frame_trans with m1; auto|lia].
  - destruct (S2 Hle) as [Sl Sr].
    destruct (nth_def m2 l2') as [x Hx]; [lia|]. destruct (nth_def m2 r1') as [y Hy]; [lia|].
    pose proof (Sl l2' x ltac:(lia) Hx) as Cx. pose proof (Sr r1' y ltac:(lia) Hy) as Cy. cbn beta in Cx, Cy.
    assert (l2' < r1').
    { destruct (Nat.eq_dec l2' r1') as [Eq|]; [|lia]. rewrite Eq, Hy in Hx. injection Hx as ->. lia. }
    sw. assert (F : frame m2 m0 base e) by (apply (swap_frame m2 l2' r1'); auto; lia).
    destruct (IH m0 base l1' (S l2') (r1' - 1) r2') as (m' & a & b & c & d & E' & I' & F' & Q); [|lia|].
    { split; try lia.
      - rewrite N. destruct (Nat.eqb_spec base l2'); [lia|]. destruct (Nat.eqb_spec base r1'); [lia|auto].
      - intros i u Hi Hu. rewrite N in Hu. destruct (Nat.eqb_spec i l2'); [lia|].
        destruct (Nat.eqb_spec i r1'); [lia|]. apply (He1 i u); auto.
      - intros i u Hi Hu. rewrite N in Hu. destruct (Nat.eqb_spec i l2') as [->|].
        + rewrite Hy in Hu. injection Hu as <-. auto.
        + destruct (Nat.eqb_spec i r1'); [lia|]. apply (Hl i u); auto; lia.
      - intros i u Hi Hu. rewrite N in Hu. destruct (Nat.eqb_spec i l2'); [lia|].
        destruct (Nat.eqb_spec i r1') as [->|].
        + rewrite Hx in Hu. injection Hu as <-. auto.
        + apply (Hg i u); auto; lia.
      - intros i u Hi Hu. rewrite N in Hu. destruct (Nat.eqb_spec i l2'); [lia|].
        destruct (Nat.eqb_spec i r1'); [lia|]. apply (Heg i u); auto. }
    exists m', a, b, c, d. split; auto. split; auto. split; auto.
    apply frame_trans with m0; auto. apply frame_trans with m2; auto. apply frame_trans with m1; auto.
Qed.

Lemma swap_multiple_ok : forall n (m : list A) i j, i + n <= j -> j + n <= length m ->
  exists m', swap_multiple n m i j = Ok m' /\ length m' = length m /\ Permutation m m' /\
    forall k, nth_error m' k =
      if (i <=? k) && (k <? i + n) then nth_error m (k - i + j)
      else if (j <=? k) && (k <? j + n) then nth_error m (k - j + i) else nth_error m k.
Proof.
  induction n as [|n IH]; intros m i j Hij Hj.
  - exists m. repeat split; auto. intros k.
    replace ((i <=? k) && (k <? i + 0)) with false by lia.
    replace ((j <=? k) && (k <? j + 0)) with false by lia. reflexivity.
  - cbn [swap_multiple]. sw.
    destruct (IH m0 (S i) (S j)) as (m' & E' & L' & P' & N'); [lia|lia|].
    exists m'. split; auto. split; [congruence|]. split; [etransitivity; eauto|].
    intros k. rewrite N'.
    destruct (Nat.leb_spec (S i) k); destruct (Nat.ltb_spec k (S i + n)); cbn [andb].
    + rewrite N. replace ((i <=? k) && (k <? i + S n)) with true by lia.
      replace (k - S i + S j) with (k - i + j) by lia.
      destruct (Nat.eqb_spec (k - i + j) i); [lia|]. destruct (Nat.eqb_spec (k - i + j) j); [lia|auto].
    + replace ((i <=? k) && (k <? i + S n)) with false by lia.
      destruct (Nat.leb_spec (S j) k); destruct (Nat.ltb_spec k (S j + n)); cbn [andb]; rewrite ?N.
      * replace ((j <=? k) && (k <? j + S n)) with true by lia.
        replace (k - S j + S i) with (k - j + i) by lia.
        destruct (Nat.eqb_spec (k - j + i) i); [lia|]. destruct (Nat.eqb_spec (k - j + i) j); [lia|auto].
      * replace ((j <=? k) && (k <? j + S n)) with false by lia.
        destruct (Nat.eqb_spec k i); [lia|]. destruct (Nat.eqb_spec k j); [lia|auto].
      * destruct (Nat.eqb_spec k i); [lia|]. destruct (Nat.eqb_spec k j) as [->|].
        -- replace ((j <=? j) && (j <? j + S n)) with true by lia. replace (j - j + i) with i by lia. auto.
        -- replace ((j <=? k) && (k <? j + S n)) with false by lia. auto.
      * destruct (Nat.eqb_spec k i); [lia|]. destruct (Nat.eqb_spec k j) as [->|]; [lia|].
        replace ((j <=? k) && (k <? j + S n)) with false by lia. auto.
    + destruct (Nat.leb_spec (S j) k); [lia|]. cbn [andb]. rewrite N.
      destruct (Nat.eqb_spec k i) as [->|].
      * replace ((i <=? i) && (i <? i + S n)) with true by lia. replace (i - i + j) with j by lia. auto.
      * replace ((i <=? k) && (k <? i + S n)) with false by lia.
        destruct (Nat.eqb_spec k j); [lia|]. replace ((j <=? k) && (k <? j + S n)) with false by lia. auto.
    + lia.
Qed.

Lemma swap_multiple_frame m m' i j n a b :
  a <= i -> i + n <= b -> a <= j -> j + n <= b -> Permutation m m' ->
  (forall k, nth_error m' k =
      if (i <=? k) && (k <? i + n) then nth_error m (k - i + j)
      else if (j <=? k) && (k <? j + n) then nth_error m (k - j + i) else nth_error m k) ->
  frame m m' a b.
Proof.
  intros H1 H2 H3 H4 HP HN. split; auto. intros k Hk. rewrite HN.
  replace ((i <=? k) && (k <? i + n)) with false by lia.
  replace ((j <=? k) && (k <? j + n)) with false by lia. reflexivity.
Qed.

Lemma qsort_ok : forall fuel m base n, base + n <= length m -> n < fuel ->
  exists m', qsort cmp fuel m base n = Ok m' /\ frame m m' base (base + n) /\ sortedseg m' base (base + n).
Proof.
  induction fuel as [|f IH]; intros m base n Hl Hf; [lia|].
  cbn [qsort]. destruct (Nat.ltb_spec n 7) as [H7|H7]; [apply insertion_ok; auto|].
  destruct (choose_pivot_ok m base n H7 Hl) as (pv & -> & Hpv). cbn [bind].
  sw. assert (F0 : frame m m0 base (base + n)) by (apply (swap_frame m base pv); auto; lia).
  destruct (nth_def m0 base) as [p Hp]; [lia|].
  destruct (partition_ok p (base + n) (S (length m0)) m0 base (base + 1) (base + 1) (base + (n - 1)) (base + (n - 1)))
    as (m1 & l1 & l2 & r1 & r2 & E1 & I1 & F1 & Q).
  { split; auto; try lia.
    - intros i u Hi Hu. replace i with base in Hu by lia. rewrite Hp in Hu. injection Hu as <-. apply cmp_refl; auto.
    - intros i u Hi. lia.
    - intros i u Hi. lia.
    - intros i u Hi. lia. }
  { lia. }
  rewrite E1. cbn [bind]. destruct I1 as [Ho Hpv1 He1 Hlt Hgt Heg].
  set (s1 := Nat.min (l1 - base) (l2 - l1)).
  destruct (swap_multiple_ok s1 m1 base (l2 - s1)) as (m2 & E2 & L2 & P2 & N2); [lia|lia|].
  rewrite E2. cbn [bind].
  assert (F2 : frame m1 m2 base (base + n)) by (apply (swap_multiple_frame m1 m2 base (l2 - s1) s1); auto; lia).
  assert (Sl2 : seg m2 base (base + (l2 - l1)) (fun u => (cmp u p < 0)%Z)).
  { intros i u Hi Hu. rewrite N2 in Hu.
    destruct (Nat.leb_spec base i); destruct (Nat.ltb_spec i (base + s1)); cbn [andb] in Hu; try lia.
    - apply (Hlt (i - base + (l2 - s1)) u); auto; lia.
    - destruct (Nat.leb_spec (l2 - s1) i); destruct (Nat.ltb_spec i (l2 - s1 + s1)); cbn [andb] in Hu; try lia;
        apply (Hlt i u); auto; lia. }
  assert (Se2 : seg m2 (base + (l2 - l1)) l2 (fun u => cmp u p = 0%Z)).
  { intros i u Hi Hu. rewrite N2 in Hu.
    destruct (Nat.leb_spec base i); destruct (Nat.ltb_spec i (base + s1)); cbn [andb] in Hu; try lia.
    destruct (Nat.leb_spec (l2 - s1) i); destruct (Nat.ltb_spec i (l2 - s1 + s1)); cbn [andb] in Hu; try lia.
    - apply (He1 (i - (l2 - s1) + base) u); auto; lia.
    - apply (He1 i u); auto; lia. }
  assert (Sg2 : seg m2 (r1 + 1) (r2 + 1) (fun u => (0 < cmp u p)%Z)).
  { intros i u Hi Hu. rewrite N2 in Hu.
    replace ((base <=? i) && (i <? base + s1)) with false in Hu by lia.
    replace ((l2 - s1 <=? i) && (i <? l2 - s1 + s1)) with false in Hu by lia. apply (Hgt i u); auto. }
  assert (Seg2 : seg m2 (r2 + 1) (base + n) (fun u => cmp u p = 0%Z)).
  { intros i u Hi Hu. rewrite N2 in Hu.
    replace ((base <=? i) && (i <? base + s1)) with false in Hu by lia.
    replace ((l2 - s1 <=? i) && (i <? l2 - s1 + s1)) with false in Hu by lia. apply (Heg i u); auto. }
  set (s2 := Nat.min (r2 - r1) (base + n - (r2 + 1))).
  destruct (swap_multiple_ok s2 m2 l2 (base + n - s2)) as (m3 & E3 & L3 & P3 & N3); [lia|lia|].
  rewrite E3. cbn [bind].
  assert (F3 : frame m2 m3 base (base + n)) by (apply (swap_multiple_frame m2 m3 l2 (base + n - s2) s2); auto; lia).
  assert (Sl3 : seg m3 base (base + (l2 - l1)) (fun u => (cmp u p < 0)%Z)).
  { intros i u Hi Hu. rewrite N3 in Hu.
    replace ((l2 <=? i) && (i <? l2 + s2)) with false in Hu by lia.
    replace ((base + n - s2 <=? i) && (i <? base + n - s2 + s2)) with false in Hu by lia. apply (Sl2 i u); auto. }
  assert (Se3 : seg m3 (base + (l2 - l1)) (base + n - (r2 - r1)) (fun u => cmp u p = 0%Z)).
  { intros i u Hi Hu. rewrite N3 in Hu.
    destruct (Nat.leb_spec l2 i); destruct (Nat.ltb_spec i (l2 + s2)); cbn [andb] in Hu.
    - apply (Seg2 (i - l2 + (base + n - s2)) u); auto; lia.
    - destruct (Nat.leb_spec (base + n - s2) i); destruct (Nat.ltb_spec i (base + n - s2 + s2)); cbn [andb] in Hu; try lia;
        apply (Seg2 i u); auto; lia.
    - replace ((base + n - s2 <=? i) && (i <? base + n - s2 + s2)) with false in Hu by lia.
      apply (Se2 i u); auto; lia.
    - lia. }
  assert (Sg3 : seg m3 (base + n - (r2 - r1)) (base + n) (fun u => (0 < cmp u p)%Z)).
  { intros i u Hi Hu. rewrite N3 in Hu.
    destruct (Nat.leb_spec l2 i); destruct (Nat.ltb_spec i (l2 + s2)); cbn [andb] in Hu; try lia.
    destruct (Nat.leb_spec (base + n - s2) i); destruct (Nat.ltb_spec i (base + n - s2 + s2)); cbn [andb] in Hu; try lia.
    - apply (Sg2 (i - (base + n - s2) + l2) u); auto; lia.
    - apply (Sg2 i u); auto; lia. }
  (* left part *)
  assert (Hleft : exists m4, (if 1 <? l2 - l1 then qsort cmp f m3 base (l2 - l1) else Ok m3) = Ok m4 /\
      frame m3 m4 base (base + (l2 - l1)) /\ sortedseg m4 base (base + (l2 - l1))).
  { destruct (Nat.ltb_spec 1 (l2 - l1)); [apply IH; lia|].
    exists m3. split; auto. split; [apply frame_refl|]. intros x y u v Hx Hxy Hy. lia. }
  destruct Hleft as (m4 & E4 & F4 & S4). rewrite E4. cbn [bind].
  pose proof (frame_len _ _ _ _ F4) as L4.
  assert (Hright : exists m5, (if 1 <? r2 - r1 then qsort cmp f m4 (base + n - (r2 - r1)) (r2 - r1) else Ok m4) = Ok m5 /\
      frame m4 m5 (base + n - (r2 - r1)) (base + n) /\ sortedseg m5 (base + n - (r2 - r1)) (base + n)).
  { destruct (Nat.ltb_spec 1 (r2 - r1)).
    - destruct (IH m4 (base + n - (r2 - r1)) (r2 - r1)) as (m5 & E5 & F5 & S5); [lia|lia|].
      replace (base + n - (r2 - r1) + (r2 - r1)) with (base + n) in * by lia. eauto.
    - exists m4. split; auto. split; [apply frame_refl|]. intros x y u v Hx Hxy Hy. lia. }
  destruct Hright as (m5 & E5 & F5 & S5). exists m5. split; auto.
  split.
  { apply frame_trans with m0; auto. apply frame_trans with m1; auto. apply frame_trans with m2; auto.
    apply frame_trans with m3; auto. apply frame_trans with m4.
    - apply (frame_widen _ _ _ _ base (base + n) F4); lia.
    - apply (frame_widen _ _ _ _ base (base + n) F5); lia. }
  assert (Sl5 : seg m5 base (base + (l2 - l1)) (fun u => (cmp u p < 0)%Z)).
  { apply (seg_out m4 m5 _ _ _ _ _ F5); [lia|]. apply (frame_seg m3 m4); auto. lia. }
  assert (Se5 : seg m5 (base + (l2 - l1)) (base + n - (r2 - r1)) (fun u => cmp u p = 0%Z)).
  { apply (seg_out m4 m5 _ _ _ _ _ F5); [lia|]. apply (seg_out m3 m4 _ _ _ _ _ F4); [lia|auto]. }
  assert (Sg5 : seg m5 (base + n - (r2 - r1)) (base + n) (fun u => (0 < cmp u p)%Z)).
  { apply (frame_seg m4 m5); auto; [lia|]. apply (seg_out m3 m4 _ _ _ _ _ F4); [lia|auto]. }
  assert (Sl5' : sortedseg m5 base (base + (l2 - l1))).
  { intros x y u v Hx Hxy Hy Hu Hv. apply (S4 x y u v); auto; rewrite <- (proj2 F5); auto; lia. }
  assert (Hle : forall i u, base <= i < base + n - (r2 - r1) -> nth_error m5 i = Some u -> (cmp u p <= 0)%Z).
  { intros i u Hi Hu. destruct (Nat.lt_ge_cases i (base + (l2 - l1))).
    - specialize (Sl5 i u ltac:(lia) Hu). cbn beta in Sl5. lia.
    - specialize (Se5 i u ltac:(lia) Hu). cbn beta in Se5. lia. }
  assert (Hge : forall i u, base + (l2 - l1) <= i < base + n -> nth_error m5 i = Some u -> (cmp p u <= 0)%Z).
  { intros i u Hi Hu. destruct (Nat.lt_ge_cases i (base + n - (r2 - r1))).
    - specialize (Se5 i u ltac:(lia) Hu). cbn beta in Se5. apply cmp_sym0 in Se5; auto. lia.
    - specialize (Sg5 i u ltac:(lia) Hu). cbn beta in Sg5.
      assert (cmp u p > 0)%Z by lia. apply cmp_gt in H0; auto. lia. }
  intros x y u v Hx Hxy Hy Hu Hv.
  destruct (Nat.lt_ge_cases y (base + (l2 - l1))); [apply (Sl5' x y u v); auto|].
  destruct (Nat.lt_ge_cases x (base + n - (r2 - r1))).
  - apply (cmp_trans _ Hcmp u p v); [apply (Hle x u)|apply (Hge y v)]; auto; lia.
  - apply (S5 x y u v); auto.
Qed.

Lemma sortedseg_sorted m : sortedseg m 0 (length m) -> sorted cmp m.
Proof.
  induction m as [|x m IH]; intros H; constructor.
  - apply IH. intros a b u v Ha Hab Hb Hu Hv. apply (H (S a) (S b) u v); auto; cbn; lia.
  - apply Forall_forall. intros v Hv. apply In_nth_error in Hv as [n Hn].
    apply (H 0 (S n) x v); auto; try lia. cbn. rewrite <- Nat.succ_lt_mono.
    apply nth_error_Some. congruence.
Qed.

Lemma sorted_sortedseg m : sorted cmp m -> sortedseg m 0 (length m).
Proof.
  induction 1 as [|x m Hs IH HF]; intros a b u v Ha Hab Hb Hu Hv; cbn in Hb; [lia|].
  destruct b as [|b]; [lia|]. destruct a as [|a].
  - cbn in Hu. injection Hu as <-. rewrite Forall_forall in HF. apply HF. cbn in Hv. apply nth_error_In in Hv. exact Hv.
  - apply (IH a b u v); auto; lia.
Qed.

Lemma qsort_correct m : exists m', qsort cmp (S (length m)) m 0 (length m) = Ok m' /\
  Permutation m' m /\ sorted cmp m'.
Proof.
  destruct (qsort_ok (S (length m)) m 0 (length m)) as (m' & E & F & S'); [lia|lia|].
  exists m'. split; auto. pose proof (frame_len _ _ _ _ F) as L. destruct F as [HP _].
  split; [now symmetry|]. apply sortedseg_sorted. rewrite L. exact S'.
Qed.
End Qsort.

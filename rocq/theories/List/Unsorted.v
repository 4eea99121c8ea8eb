From Verif Require Import Base.Lib Base.Mem Sort.Spec Sort.Model List.Spec List.Model List.Proofs.

(** Counting turns permutation goals into arithmetic. *)
Definition cnt (z : N) (l : list N) : nat := count_occ N.eq_dec l z.
Lemma cnt_app z a b : cnt z (a ++ b) = cnt z a + cnt z b.
Proof. apply count_occ_app. Qed.
Lemma cnt_cons z x y l : cnt z (x :: y :: l) = cnt z [x] + cnt z (y :: l).
Proof. change (x :: y :: l) with ([x] ++ y :: l). apply cnt_app. Qed.
Lemma cnt_cons' z x l : cnt z (x :: l) = cnt z [x] + cnt z l.
Proof. change (x :: l) with ([x] ++ l). apply cnt_app. Qed.
Lemma cnt_rev z l : cnt z (rev l) = cnt z l.
Proof. apply count_occ_rev. Qed.
Lemma perm_cnt a b : Permutation a b <-> forall z, cnt z a = cnt z b.
Proof. apply (Permutation_count_occ N.eq_dec). Qed.
Ltac cntz :=
  repeat match goal with
  | |- context [cnt ?z (?a ++ ?b)] => rewrite (cnt_app z a b)
  | |- context [cnt ?z (?x :: ?y :: ?l)] => rewrite (cnt_cons z x y l)
  | |- context [cnt ?z (?x :: ?l)] => lazymatch l with [] => fail | _ => rewrite (cnt_cons' z x l) end
  | |- context [cnt ?z (rev ?a)] => rewrite (cnt_rev z a)
  | |- context [cnt ?z []] => change (cnt z []) with 0
  end.
Ltac perm :=
  repeat match goal with H : Permutation _ _ |- _ => rewrite perm_cnt in H end;
  apply perm_cnt; let z := fresh "z" in intros z;
  repeat match goal with H : forall z, cnt z _ = cnt z _ |- _ => specialize (H z); revert H end;
  cntz; intros; lia.

Lemma filter_perm (p : N -> bool) l : Permutation l (filter (fun x => negb (p x)) l ++ filter p l).
Proof.
  induction l as [|x l IH]; cbn [filter]; auto. destruct (p x); cbn [negb]; perm.
Qed.
Lemma filter_rev {A} (p : A -> bool) l : filter p (rev l) = rev (filter p l).
Proof.
  induction l as [|x l IH]; auto. cbn [rev filter]. rewrite filter_app, IH. cbn [filter]. destruct (p x); auto.
  now rewrite app_nil_r.
Qed.
Lemma find_spec p l : match find p l with
  | Some i => exists a x b, l = a ++ x :: b /\ length a = i /\ p x = true /\ filter p a = []
  | None => filter p l = [] end.
Proof.
  induction l as [|x l IH]; cbn [find filter]; auto. destruct (p x) eqn:E.
  - exists [], x, l. auto.
  - destruct (find p l); cbn [option_map]; auto.
    destruct IH as (a & y & b & -> & <- & H1 & H2). exists (x :: a), y, b. cbn [filter]. rewrite E. auto.
Qed.
Lemma find_lt p l i : find p l = Some i -> i < length l.
Proof. intros H. pose proof (find_spec p l) as F. rewrite H in F. destruct F as (a & x & b & -> & <- & _). llen. Qed.
Lemma find_none p l : find p l = None <-> filter p l = [].
Proof.
  pose proof (find_spec p l) as F. destruct (find p l); [|tauto]. destruct F as (a & x & b & -> & _ & H & _).
  rewrite filter_app. cbn [filter]. rewrite H. split; [discriminate|]. intros Q. destruct (filter p a); discriminate.
Qed.

(** Index sets of the specification *)
Section Idx.
Definition clear_from b (is : list nat) (l : list N) : list N :=
  map snd (filter (fun p => negb (existsb (Nat.eqb (fst p)) is)) (combine (seq b (length l)) l)).
Definition put_from b (is : list nat) (w : N) (l : list N) : list N :=
  map (fun p => if existsb (Nat.eqb (fst p)) is then w else snd p) (combine (seq b (length l)) l).

Lemma clear_from_q (q : N -> bool) is : forall l b,
  (forall j, j < length l -> existsb (Nat.eqb (b + j)) is = q (nth j l 0%N)) ->
  clear_from b is l = filter (fun x => negb (q x)) l.
Proof.
  induction l as [|x l IH]; intros b H; auto. unfold clear_from in *. cbn [length seq combine filter fst].
  specialize (H 0 ltac:(cbn; lia)) as H0. rewrite Nat.add_0_r in H0. cbn [nth] in H0. rewrite H0.
  assert (IH' := IH (S b)). rewrite <- IH'.
  - destruct (q x); auto.
  - intros j Hj. replace (S b + j) with (b + S j) by lia. rewrite (H (S j)) by (cbn; lia). reflexivity.
Qed.
Lemma put_from_q (q : N -> bool) is w : forall l b,
  (forall j, j < length l -> existsb (Nat.eqb (b + j)) is = q (nth j l 0%N)) ->
  put_from b is w l = map (fun x => if q x then w else x) l.
Proof.
  induction l as [|x l IH]; intros b H; auto. unfold put_from in *. cbn [length seq combine map fst snd].
  specialize (H 0 ltac:(cbn; lia)) as H0. rewrite Nat.add_0_r in H0. cbn [nth] in H0. rewrite H0. f_equal.
  apply IH. intros j Hj. replace (S b + j) with (b + S j) by lia. rewrite (H (S j)) by (cbn; lia). reflexivity.
Qed.
Lemma clear_from_none is : forall l b, (forall j, j < length l -> existsb (Nat.eqb (b + j)) is = false) -> clear_from b is l = l.
Proof.
  intros l b H. rewrite (clear_from_q (fun _ => false)) by auto. cbn. induction l; cbn; auto. f_equal. apply IHl.
  intros j Hj. apply H. cbn. lia.
Qed.
Lemma put_from_none is w : forall l b, (forall j, j < length l -> existsb (Nat.eqb (b + j)) is = false) -> put_from b is w l = l.
Proof. intros l b H. rewrite (put_from_q (fun _ => false)) by auto. apply map_id. Qed.
Lemma from_app b is a l : clear_from b is (a ++ l) = clear_from b is a ++ clear_from (b + length a) is l.
Proof.
  unfold clear_from. rewrite app_length, seq_app. rewrite <- map_app, <- filter_app. do 2 f_equal.
  assert (G : forall (x : list nat) (y : list N) x' y', length x = length y -> combine (x ++ x') (y ++ y') = combine x y ++ combine x' y').
  { clear. induction x as [|u x IH]; intros [|v y] x' y' E; cbn; auto; try discriminate. f_equal. apply IH. auto. }
  apply G. apply seq_length.
Qed.
Lemma put_app b is w a l : put_from b is w (a ++ l) = put_from b is w a ++ put_from (b + length a) is w l.
Proof.
  unfold put_from. rewrite app_length, seq_app. rewrite <- map_app. f_equal.
  assert (G : forall (x : list nat) (y : list N) x' y', length x = length y -> combine (x ++ x') (y ++ y') = combine x y ++ combine x' y').
  { clear. induction x as [|u x IH]; intros [|v y] x' y' E; cbn; auto; try discriminate. f_equal. apply IH. auto. }
  apply G. apply seq_length.
Qed.
Lemma ex1 k j : existsb (Nat.eqb j) [k] = (j =? k).
Proof. cbn. apply orb_false_r. Qed.
Lemma clear_one a x l k : k = length a -> clear [k] (a ++ x :: l) = a ++ l.
Proof.
  intros ->. change (clear [length a] (a ++ x :: l)) with (clear_from 0 [length a] (a ++ x :: l)).
  rewrite from_app. rewrite clear_from_none.
  2: { intros j Hj. rewrite ex1. apply Nat.eqb_neq. lia. }
  f_equal. change (x :: l) with ([x] ++ l). rewrite from_app. rewrite (clear_from_none _ l).
  2: { intros j Hj. rewrite ex1. apply Nat.eqb_neq. cbn [length]. lia. }
  unfold clear_from. cbn [length seq combine filter fst]. rewrite ex1, Nat.add_0_l, Nat.eqb_refl. reflexivity.
Qed.
Lemma put_one a x l w k : k = length a -> put [k] w (a ++ x :: l) = a ++ w :: l.
Proof.
  intros ->. change (put [length a] w (a ++ x :: l)) with (put_from 0 [length a] w (a ++ x :: l)).
  rewrite put_app. rewrite put_from_none.
  2: { intros j Hj. rewrite ex1. apply Nat.eqb_neq. lia. }
  f_equal. change (x :: l) with ([x] ++ l). rewrite put_app. rewrite (put_from_none _ _ l).
  2: { intros j Hj. rewrite ex1. apply Nat.eqb_neq. cbn [length]. lia. }
  unfold put_from. cbn [length seq combine map fst]. rewrite ex1, Nat.add_0_l, Nat.eqb_refl. reflexivity.
Qed.
Lemma clear_nil l : clear [] l = l.
Proof. apply (clear_from_none [] l 0). auto. Qed.
Lemma put_nil w l : put [] w l = l.
Proof. apply (put_from_none [] w l 0). auto. Qed.
Lemma all_idx (q : N -> bool) l j : j < length l ->
  existsb (Nat.eqb j) (filter (fun i => q (nth i l 0%N)) (seq 0 (length l))) = q (nth j l 0%N).
Proof.
  intros H. destruct (q (nth j l 0%N)) eqn:E.
  - apply existsb_exists. exists j. rewrite filter_In, in_seq, Nat.eqb_refl. split; auto. split; auto. lia.
  - apply not_true_is_false. intros Q. apply existsb_exists in Q as (k & Hk & Ek). apply Nat.eqb_eq in Ek. subst k.
    apply filter_In in Hk as [_ Hk]. congruence.
Qed.
Lemma clear_all (q : N -> bool) l : clear (filter (fun i => q (nth i l 0%N)) (seq 0 (length l))) l = filter (fun x => negb (q x)) l.
Proof. apply (clear_from_q q _ l 0). intros j Hj. now apply all_idx. Qed.
Lemma put_all (q : N -> bool) l w : put (filter (fun i => q (nth i l 0%N)) (seq 0 (length l))) w l = map (fun x => if q x then w else x) l.
Proof. apply (put_from_q q _ w l 0). intros j Hj. now apply all_idx. Qed.
Lemma idx_length (q : N -> bool) l : length (filter (fun i => q (nth i l 0%N)) (seq 0 (length l))) = length (filter q l).
Proof.
  induction l as [|x l IH]; auto. cbn [length seq filter nth].
  assert (E : length (filter (fun i => q (nth i (x :: l) 0%N)) (seq 1 (length l))) = length (filter (fun i => q (nth i l 0%N)) (seq 0 (length l)))).
  { rewrite <- seq_shift. generalize (seq 0 (length l)). intros s. clear. induction s as [|i s IH]; auto. cbn [map filter nth].
    destruct (q (nth i l 0%N)); cbn [length]; auto. }
  destruct (q x); cbn [length]; [f_equal|]; (etransitivity; [exact E|exact IH]).
Qed.
End Idx.

Lemma find_last_spec p l : match find_last p l with
  | Some i => exists a x b, l = a ++ x :: b /\ length a = i /\ p x = true /\ filter p b = []
  | None => filter p l = [] end.
Proof.
  unfold find_last. pose proof (find_spec p (rev l)) as F. destruct (find p (rev l)) as [i|].
  - destruct F as (a & x & b & E & L & H1 & H2). exists (rev b), x, (rev a).
    assert (El : l = rev b ++ x :: rev a).
    { rewrite <- (rev_involutive l), E, rev_app_distr. cbn [rev]. now rewrite <- app_assoc. }
    split; auto. split; [rewrite El; llen|]. split; auto. rewrite filter_rev, H2. auto.
  - rewrite filter_rev in F. apply (f_equal (@rev N)) in F. now rewrite rev_involutive in F.
Qed.
Lemma last_unique p (a a' b b' : list N) x x' : a ++ x :: b = a' ++ x' :: b' -> p x = true -> p x' = true ->
  filter p b = [] -> filter p b' = [] -> a = a' /\ x = x' /\ b = b'.
Proof.
  intros E Hx Hx' Hb Hb'. revert a' E. induction a as [|y a IH]; intros [|y' a'] E; cbn [app] in E; injection E as <- E.
  - subst b'. auto.
  - subst b. rewrite filter_app in Hb. cbn [filter] in Hb. rewrite Hx' in Hb. destruct (filter p a'); discriminate.
  - subst b'. rewrite filter_app in Hb'. cbn [filter] in Hb'. rewrite Hx in Hb'. destruct (filter p a); discriminate.
  - destruct (IH _ E) as (-> & -> & ->). auto.
Qed.

Lemma dedup_fuel p : forall n m l, length l <= n -> length l <= m -> dedup n p l = dedup m p l.
Proof.
  assert (Hf : forall q (l : list N), length (filter q l) <= length l).
  { intros q l. induction l as [|x l IH]; cbn [filter length]; [lia|]. destruct (q x); cbn [length]; lia. }
  induction n as [|n IH]; intros [|m] [|x l] H1 H2; cbn [length] in *; try lia; auto.
  cbn [dedup]. f_equal. pose proof (Hf (fun y => negb (p x y)) l). apply IH; lia.
Qed.

Lemma nth_mid (a b : list N) x i : length a = i -> nth i (a ++ x :: b) 0%N = x.
Proof. intros <-. rewrite app_nth2, Nat.sub_diag by lia. reflexivity. Qed.
Lemma upd_mid (a b : list N) x v i : length a = i -> upd (a ++ x :: b) i v = a ++ v :: b.
Proof. intros <-. apply upd_app_mid. Qed.
Lemma swap_upd (l : list N) (i j : nat) : i < j -> j < length l ->
  Permutation l (upd (upd l i (nth j l 0%N)) j (nth i l 0%N)) /\ upd (upd l i (nth j l 0%N)) j (nth i l 0%N) = upd (upd l j (nth i l 0%N)) i (nth j l 0%N).
Proof.
  intros H1 H2. destruct (split_mid l j H2) as (p & y & b & -> & Lp). destruct (split_mid p i ltac:(lia)) as (a & x & q & -> & La).
  rewrite (nth_mid (a ++ x :: q) b y j Lp). rewrite (upd_mid (a ++ x :: q) b y _ j Lp).
  rewrite <- !app_assoc. cbn [app]. rewrite (nth_mid a (q ++ y :: b) x i La), !(upd_mid a _ x _ i La).
  replace (a ++ y :: q ++ y :: b) with ((a ++ y :: q) ++ y :: b) by (now rewrite <- app_assoc).
  rewrite (upd_mid (a ++ y :: q)) by hlen. rewrite <- !app_assoc. cbn [app]. split; [perm|auto].
Qed.

Lemma del_mid (a b : list N) x i : length a = i -> del i (a ++ x :: b) = a ++ b.
Proof.
  intros <-. unfold del. rewrite firstn_len by auto. f_equal. change (x :: b) with ([x] ++ b).
  rewrite app_assoc. now apply skipn_len; llen.
Qed.
Lemma del_over l i : length l <= i -> del i l = l.
Proof. intros H. unfold del. rewrite firstn_all2, skipn_all2 by lia. apply app_nil_r. Qed.
Lemma last_nth l : l <> [] -> last l 0%N = nth (length l - 1) l 0%N.
Proof.
  intros H. destruct (exists_last H) as (a & x & ->). rewrite last_last. symmetry. apply nth_mid. llen.
Qed.
Lemma removelast_del l : l <> [] -> removelast l = del (length l - 1) l.
Proof.
  intros H. destruct (exists_last H) as (a & x & ->). rewrite removelast_last. rewrite del_mid by llen. now rewrite app_nil_r.
Qed.

Section Uns.
Context (cmp : N -> N -> Z) (c : cfg) (g : N).
Definition view (l : list N) : list N := if stack c then rev l else l.
Lemma view_len l : length (view l) = length l.
Proof. unfold view. destruct (stack c); auto. apply rev_length. Qed.
Lemma view_perm l : Permutation (view l) l.
Proof. unfold view. destruct (stack c); auto. apply Permutation_sym, Permutation_rev. Qed.
Lemma view_view l : view (view l) = l.
Proof. unfold view. destruct (stack c); auto. apply rev_involutive. Qed.
Lemma view_mid a x b l i : l = a ++ x :: b -> i < length l -> length a = pos c (length l) i ->
  exists a' b', view l = a' ++ x :: b' /\ length a' = i /\ view (a ++ b) = a' ++ b' /\ forall y, view (a ++ y :: b) = a' ++ y :: b'.
Proof.
  intros -> H L. unfold view, pos in *. destruct (stack c).
  - exists (rev b), (rev a). rewrite !rev_app_distr. cbn [rev]. rewrite <- !app_assoc. split; auto. split; [hlen|]. split; auto.
    intros y. rewrite rev_app_distr. cbn [rev]. now rewrite <- app_assoc.
  - exists a, b. auto.
Qed.
Lemma hits_view t v l : length (hits cmp c t v (view l)) = length (hits cmp c t v l).
Proof. unfold hits, view. destruct (usable c t v), (stack c); auto. rewrite filter_rev. apply rev_length. Qed.
Lemma in_set_view v l : in_set cmp c v (view l) = in_set cmp c v l.
Proof. unfold in_set. now rewrite hits_view. Qed.

Lemma scan_all_ok d l m f t v : Rep d l m f -> forall fuel i, i <= length l -> length l - i < fuel ->
  scan_all cmp fuel d t v i = Ok (option_map (Nat.add i) (find (matches cmp t v) (skipn i l))).
Proof.
  intros R. pose proof R as (_ & L & _). induction fuel as [|n IH]; intros i Hi Hf; [lia|]. cbn [scan_all]. rewrite L.
  destruct (Nat.ltb_spec i (length l)) as [H|H].
  - destruct (skipn_rd l (i := i) H) as (x & _ & Hx & Es). rewrite (cell_rep d l m f i x R Hx). cbn [bind]. rewrite Es. cbn [find].
    destruct (matches cmp t v x); [cbn; do 2 f_equal; lia|]. rewrite IH by lia.
    destruct (find _ (skipn (S i) l)); cbn [option_map]; auto. do 2 f_equal. lia.
  - rewrite skipn_all2 by lia. reflexivity.
Qed.

Lemma usable_cond d l m f t v : Rep d l m f ->
  (v =? 0)%N || (elems d =? 0) || (negb (mptr t) && negb (has_eq c)) = negb (usable c t v) || (length l =? 0).
Proof.
  intros (_ & -> & _). unfold usable. destruct (v =? 0)%N, (length l =? 0), (mptr t), (has_eq c); auto.
Qed.

Lemma index_of_u d l m f t v : Rep d l m f -> is_sorting c m = false ->
  index_of cmp c d v t = Ok (if usable c t v then (if stack c then find_last else find) (matches cmp t v) (view l) else None).
Proof.
  intros R H. unfold index_of. rewrite (usable_cond d l m f t v R). pose proof R as (_ & L & _ & M & _).
  destruct (usable c t v); cbn [negb orb]; auto.
  destruct (Nat.eqb_spec (length l) 0) as [Z|Z].
  { assert (l = []) as -> by (destruct l; [auto|hlen]). unfold view, find_last. now destruct (stack c). }
  unfold is_sorting in H. rewrite M, H. rewrite (scan_all_ok d l m f t v R) by lia. cbn [bind skipn].
  unfold view, find_last. destruct (find (matches cmp t v) l) as [i|] eqn:E; cbn [option_map].
  - pose proof (find_lt _ _ _ E) as Hi. rewrite Nat.add_0_l, (conv_pos c d l m f i R Hi), Nat2Z.id. unfold pos. destruct (stack c).
    + rewrite rev_involutive, E, rev_length. reflexivity.
    + now rewrite E.
  - destruct (stack c); rewrite ?rev_involutive, E; auto.
Qed.
Lemma set_check_u d l m f v : Rep d l m f -> is_sorting c m = false ->
  exists r, (if isset c then index_of cmp c d v (mkt false (setp c)) else Ok None) = Ok r /\
    (if in_set cmp c v l then exists i, r = Some i else r = None).
Proof.
  intros R H. unfold in_set. destruct (isset c); cbn [andb]; [|eauto]. rewrite (index_of_u d l m f _ v R H). eexists; split; [reflexivity|].
  unfold hits. destruct (usable c (mkt false (setp c)) v); [|reflexivity].
  set (p := matches cmp (mkt false (setp c)) v). unfold find_last, view. destruct (stack c).
  - rewrite rev_involutive. pose proof (find_none p l) as F. destruct (find p l), (filter p l); cbn [length Nat.eqb negb]; eauto;
      exfalso; intuition discriminate.
  - pose proof (find_none p l) as F. destruct (find p l), (filter p l); cbn [length Nat.eqb negb]; eauto;
      exfalso; intuition discriminate.
Qed.

Lemma insert_idx_u d l m f v : Rep d l m f -> is_sorting c m = false ->
  exists i, list_insert_idx cmp c d v = Ok i /\ conv_insert c d i = length l.
Proof.
  intros R H. pose proof R as (_ & L & _ & M & _). unfold list_insert_idx. unfold is_sorting in H. rewrite M, H. cbn [bind].
  eexists; split; [reflexivity|]. unfold conv_insert. rewrite L.
  destruct (Nat.eqb_spec (length l) 0) as [Z|Z]; [lia|]. cbn zeta. destruct (stack c) eqn:S; cbn [negb].
  - rewrite (conv_stack_end c d l m f R S) by (destruct l; [hlen|discriminate]). change (Z.to_nat (-1 + 1)) with 0.
    rewrite (conv_stack c d l m f 0 R S) by lia. lia.
  - rewrite (conv_queue c d l m f (length l) R S) by lia. destruct (Nat.eqb_spec (length l) 0); [lia|]. rewrite Nat2Z.id.
    rewrite (conv_queue c d l m f (length l) R S) by lia. destruct (Nat.eqb_spec (length l) 0); [lia|]. apply Nat2Z.id.
Qed.

(** matching loops *)
Lemma count_u d l m f v t : Rep d l m f -> forall a b i n, l = a ++ b -> length a = i ->
  match_unsorted cmp c d v t MCount i n = Ok (n + length (filter (matches cmp t v) a), d).
Proof.
  intros R a b i. revert a b. induction i as [|i IH]; intros a b n El La.
  - destruct a; [cbn; do 2 f_equal; lia|hlen].
  - destruct (exists_last (l := a) ltac:(destruct a; [hlen|discriminate])) as (a' & x & ->).
    cbn [match_unsorted]. rewrite <- app_assoc in El. cbn [app] in El.
    rewrite (cell_rep d l m f i x R) by (rewrite El; apply nth_error_mid; hlen). cbn [bind].
    rewrite filter_app. cbn [filter]. destruct (matches cmp t v x); cbn [bind]; rewrite andb_false_r.
    + rewrite (IH a' (x :: b)) by (auto; hlen). do 2 f_equal. llen.
    + rewrite (IH a' (x :: b)) by (auto; hlen). do 2 f_equal. llen.
Qed.
(** what a replacement or removal leaves of [a] *)
Definition left_of (t : mtype) (v : N) (op : mop) (a a' : list N) (n : nat) : Prop :=
  if mall t then
    n = length (filter (matches cmp t v) a) /\
    a' = match op with
         | MReplace w => map (fun x => if matches cmp t v x then w else x) a
         | _ => filter (fun x => negb (matches cmp t v x)) a
         end
  else
    match find_last (matches cmp t v) a with
    | None => n = 0 /\ a' = a
    | Some k => n = 1 /\ exists p x q, a = p ++ x :: q /\ length p = k /\
        a' = match op with MReplace w => p ++ w :: q | _ => p ++ q end
    end.
Definition gives (op : mop) (n : nat) : list N := match op with MReplace w => repeat w n | _ => [] end.

Lemma modify_u v t op : op <> MCount -> (stack c = false \/ exists w, op = MReplace w) ->
  forall i a b d m f n, (mall t = true \/ n = 0) -> Rep d (a ++ b) m f -> length a = i ->
  exists d' a' k fr, match_unsorted cmp c d v t op i n = Ok (n + k, d') /\ left_of t v op a a' k /\
    Rep d' (a' ++ b) m (fr ++ f) /\ Permutation (gives op k ++ a) (a' ++ fr).
Proof.
  intros Hop Hst. assert (Hrm : removing op = true) by (destruct op; auto; congruence).
  induction i as [|i IH]; intros a b d m f n Hn R La.
  - destruct a; [|hlen]. exists d, [], 0, []. cbn [match_unsorted]. rewrite Nat.add_0_r. split; auto.
    split; [unfold left_of; destruct (mall t); [destruct op; auto|cbn; auto]|]. split; auto. destruct op; cbn; auto.
  - destruct (exists_last (l := a) ltac:(destruct a; [hlen|discriminate])) as (a0 & x & ->).
    assert (L0 : length a0 = i) by hlen. rewrite <- app_assoc in R. cbn [app] in R.
    cbn [match_unsorted]. rewrite (cell_rep d _ m f i x R) by (now apply nth_error_mid). cbn [bind].
    destruct (matches cmp t v x) eqn:Mx.
    + assert (Hstep : exists d1 y, (do d0 <- match op with
                  | MReplace w => do b0 <- wr (base d) (start d + i) w; Ok (mkl b0 (start d) (elems d) (multi d) (x :: freed d))
                  | MRemove => do '(_, d0) <- remove_at c d i; Ok d0
                  | MCount => Ok d
                  end; Ok (d0, S n)) = Ok (d1, S n) /\ Rep d1 (a0 ++ y ++ b) m (x :: f) /\ y = gives op 1).
      { destruct op as [|  |w]; [congruence| |].
        - destruct Hst as [Hst|[w Hw]]; [|discriminate].
          destruct (remove_at_ok c d _ m f i R ltac:(llen)) as (d1 & p & x1 & q & E & El & Lp & R1).
          rewrite E. cbn [bind]. exists d1, []. split; auto. split; auto. unfold pos in Lp. rewrite Hst in Lp.
          apply app_eq_app in El as (u & [[-> Eu]|[-> Eu]]).
          + assert (u = []) as -> by (destruct u; [auto|hlen]). cbn in Eu. injection Eu as <- <-. now rewrite !app_nil_r in *.
          + assert (u = []) as -> by (destruct u; [auto|hlen]). cbn in Eu. injection Eu as <- <-. now rewrite !app_nil_r in *.
        - destruct R as ((pre & post & E & S) & L & B & M & F). rewrite E, S, <- app_assoc, (app_assoc pre). cbn [app].
          rewrite wr_mid by llen. cbn [bind]. eexists; exists [w]. split; [reflexivity|]. split; [|auto].
          split; [exists pre, post; cbn; rewrite <- !app_assoc; auto|]. cbn. split; [hlen|]. split; [rewrite E in B; hlen|]. split; congruence. }
      destruct Hstep as (d1 & y & -> & R1 & Ey). cbn [bind]. rewrite Hrm, andb_true_r.
      destruct (mall t) eqn:Ma.
      * rewrite andb_false_r. destruct (IH a0 (y ++ b) d1 m (x :: f) (S n) (or_introl eq_refl) R1 L0) as (d' & a' & k & fr & E & H1 & H2 & H3).
        exists d', (a' ++ y), (S k), (fr ++ [x]). split; [rewrite E; do 2 f_equal; lia|].
        unfold left_of in *. rewrite Ma in *. destruct H1 as [-> ->].
        split; [split|].
        -- rewrite filter_app. cbn [filter]. rewrite Mx. llen.
        -- subst y. destruct op; [congruence| |]; rewrite ?filter_app, ?map_app; cbn [filter map gives repeat]; rewrite Mx; reflexivity.
        -- rewrite <- !app_assoc. cbn [app] in *. split; auto.
           subst y. destruct op; [congruence| |]; cbn [gives repeat app] in *; perm.
      * destruct Hn as [Hn|Hn]; [congruence|]. subst n. cbn [Nat.eqb andb].
        exists d1, (a0 ++ y), 1, [x]. split; auto. split.
        -- unfold left_of. rewrite Ma. pose proof (find_last_spec (matches cmp t v) (a0 ++ [x])) as Fl.
           destruct (find_last (matches cmp t v) (a0 ++ [x])).
           ++ destruct Fl as (p & x1 & q & E & Lp & H1 & H2). split; auto.
              destruct (last_unique (matches cmp t v) a0 p [] q x x1 E Mx H1 eq_refl H2) as (<- & <- & <-).
              exists a0, x, []. split; auto. split; auto. subst y. destruct op; [congruence|auto|auto].
           ++ rewrite filter_app in Fl. cbn [filter] in Fl. rewrite Mx in Fl. destruct (filter _ a0); discriminate.
        -- rewrite <- app_assoc. split; auto. subst y. destruct op; [congruence| |]; cbn [gives repeat app]; perm.
    + cbn [bind]. rewrite Hrm, andb_true_r.
      assert ((n =? 1) && negb (mall t) = false) as ->.
      { destruct (mall t); [apply andb_false_r|]. destruct Hn as [Hn| ->]; [congruence|auto]. }
      destruct (IH a0 (x :: b) d m f n Hn R L0) as (d' & a' & k & fr & E & H1 & H2 & H3).
      exists d', (a' ++ [x]), k, fr. split; [auto|]. rewrite <- app_assoc. split; [|split; [auto|destruct op; cbn [gives] in *; perm]].
      unfold left_of in *. destruct (mall t).
      * destruct H1 as [-> ->]. rewrite filter_app. cbn [filter]. rewrite Mx, app_nil_r. split; auto.
        destruct op; rewrite ?filter_app, ?map_app; cbn [filter map]; rewrite Mx; reflexivity.
      * pose proof (find_last_spec (matches cmp t v) (a0 ++ [x])) as Fl. pose proof (find_last_spec (matches cmp t v) a0) as Fl0.
        destruct (find_last (matches cmp t v) (a0 ++ [x])) as [k1|], (find_last (matches cmp t v) a0) as [k0|].
        -- destruct H1 as (-> & p & y & q & E0 & Lp & Ha). split; auto. exists p, y, (q ++ [x]).
           destruct Fl as (p1 & y1 & q1 & E1 & L1 & M1 & F1). destruct Fl0 as (p0 & y0 & q0 & E2 & L2 & M2 & F2).
           assert (E3 : p0 ++ y0 :: (q0 ++ [x]) = p1 ++ y1 :: q1) by (rewrite <- E1, E2, <- app_assoc; reflexivity).
           apply (last_unique (matches cmp t v)) in E3 as (-> & -> & <-); auto.
           2: { rewrite filter_app, F2. cbn [filter]. rewrite Mx. auto. }
           split; [rewrite E0, <- app_assoc; reflexivity|]. split; [congruence|]. subst a'.
           destruct op; rewrite <- app_assoc; reflexivity.
        -- destruct Fl as (p1 & y1 & q1 & E1 & L1 & M1 & F1). exfalso. apply (f_equal (filter (matches cmp t v))) in E1.
           rewrite !filter_app, Fl0 in E1. cbn [filter] in E1. rewrite Mx, M1 in E1. destruct (filter _ p1); discriminate.
        -- destruct Fl0 as (p0 & y0 & q0 & E2 & L2 & M2 & F2). rewrite E2, !filter_app in Fl. cbn [filter] in Fl. rewrite M2 in Fl.
           exfalso. destruct (filter _ p0); discriminate.
        -- destruct H1 as [-> ->]. auto.
Qed.

(** duplicates *)
Lemma dup_any_ok t x a : forall fuel d mid rest m f, Rep d (a ++ x :: mid ++ rest) m f -> length rest < fuel ->
  exists d' fr, dup_any cmp c fuel d t (length a) (length a + 1 + length mid) = Ok d' /\
    Rep d' (a ++ x :: mid ++ filter (fun y => negb (matches cmp t x y)) rest) m (fr ++ f) /\
    Permutation rest (filter (fun y => negb (matches cmp t x y)) rest ++ fr).
Proof.
  induction fuel as [|n IH]; intros d mid rest m f R Hf; [lia|]. cbn [dup_any]. pose proof R as (_ & L & _). rewrite L.
  destruct (Nat.ltb_spec (length a + 1 + length mid) (length (a ++ x :: mid ++ rest))) as [H|H].
  - destruct rest as [|y rest]; [hlen|].
    rewrite (cell_rep d _ m f (length a) x R) by (now apply nth_error_mid). cbn [bind].
    rewrite (cell_rep d _ m f (length a + 1 + length mid) y R).
    2: { replace (a ++ x :: mid ++ y :: rest) with ((a ++ x :: mid) ++ y :: rest) by (now rewrite <- app_assoc). apply nth_error_mid. llen. }
    cbn [bind]. destruct (matches cmp t x y) eqn:M.
    + set (l := a ++ x :: mid ++ y :: rest) in *. set (j := length a + 1 + length mid) in *.
      assert (Hc : conv_at c d j = Z.of_nat (pos c (length l) j)) by (now apply (conv_pos c d l m f)).
      rewrite Hc, Nat2Z.id. assert (Hp : pos c (length l) j < length l) by (unfold pos; destruct (stack c); lia).
      destruct (remove_at_ok c d l m f _ R Hp) as (d1 & p & y1 & q & E & El & Lp & R1). rewrite E. cbn [bind].
      assert (Lp' : length p = length (a ++ x :: mid)) by (unfold pos in Lp; subst j; destruct (stack c); hlen).
      assert (El2 : (a ++ x :: mid) ++ y :: rest = p ++ y1 :: q) by (rewrite <- El; unfold l; now rewrite <- app_assoc).
      assert (p = a ++ x :: mid /\ y1 = y /\ q = rest) as (-> & -> & ->).
      { apply app_eq_app in El2 as (u & [[E1 E2]|[E1 E2]]); rewrite E1 in Lp';
          (assert (u = []) as -> by (destruct u; [auto|hlen])); cbn in E2; injection E2 as <- <-; now rewrite app_nil_r in *. }
      rewrite <- app_assoc in R1. cbn [app] in R1. cbn [length] in Hf.
      destruct (IH d1 mid rest m (y :: f) R1 ltac:(lia)) as (d' & fr & E1 & R2 & P).
      exists d', (fr ++ [y]). fold j in E1. rewrite E1. split; auto. cbn [filter]. rewrite M. cbn [negb]. rewrite <- app_assoc. split; auto. perm.
    + replace (S (length a + 1 + length mid)) with (length a + 1 + length (mid ++ [y])) by llen.
      cbn [length] in Hf. destruct (IH d (mid ++ [y]) rest m f) as (d' & fr & E1 & R2 & P); [now rewrite <- app_assoc|lia|].
      exists d', fr. split; auto. cbn [filter]. rewrite M. cbn [negb]. rewrite <- app_assoc in R2. split; auto. perm.
  - assert (rest = []) as -> by (destruct rest; [auto|hlen]). exists d, []. cbn. split; auto.
Qed.
Lemma dup_outer_u t : forall fuel d a rest m f, is_sorting c m = false -> Rep d (a ++ rest) m f -> length rest < fuel ->
  exists d' fr, dup_outer cmp c fuel d t (length a) = Ok d' /\
    Rep d' (a ++ dedup (length rest) (fun x y => matches cmp t x y) rest) m (fr ++ f) /\
    Permutation rest (dedup (length rest) (fun x y => matches cmp t x y) rest ++ fr).
Proof.
  assert (Hf : forall q (l : list N), length (filter q l) <= length l).
  { intros q l. induction l as [|x l IH]; cbn [filter length]; [lia|]. destruct (q x); cbn [length]; lia. }
  induction fuel as [|n IH]; intros d a rest m f Hs R L0; [lia|]. cbn [dup_outer]. pose proof R as (_ & L & _ & M & _). rewrite L, M.
  destruct rest as [|x rest].
  - rewrite app_nil_r. destruct (Nat.ltb_spec (length a) (length a)); [lia|]. exists d, []. cbn. rewrite app_nil_r in *. auto.
  - destruct (Nat.ltb_spec (length a) (length (a ++ x :: rest))) as [H|H]; [|hlen].
    unfold is_sorting in Hs. rewrite Hs.
    destruct (dup_any_ok t x a (S (length (a ++ x :: rest))) d [] rest m f R ltac:(llen)) as (d1 & fr1 & E1 & R1 & P1).
    cbn [length app] in E1, R1. replace (length a + 1 + 0) with (S (length a)) in E1 by lia. rewrite E1. cbn [bind].
    replace (S (length a)) with (length (a ++ [x])) by llen.
    set (r1 := filter (fun y => negb (matches cmp t x y)) rest) in *.
    assert (Lr : length r1 <= length rest) by apply Hf.
    destruct (IH d1 (a ++ [x]) r1 m (fr1 ++ f) Hs) as (d' & fr2 & E2 & R2 & P2).
    { now rewrite <- app_assoc. }
    { cbn [length] in L0. lia. }
    exists d', (fr2 ++ fr1). split; auto. cbn [dedup length]. fold r1. rewrite (dedup_fuel _ (length rest) (length r1)) by lia.
    rewrite <- !app_assoc in *. split; auto. cbn [app]. perm.
Qed.

(** One operation *)
Definition mafter (o : lop) (m : bool) : bool := match o with InsertBegin => true | InsertEnd => false | _ => m end.
Lemma pos_lt n i : i < n -> pos c n i < n.
Proof. unfold pos. destruct (stack c); lia. Qed.

(** The view changes as the specification says and nothing is lost. *)
Definition good (l : list N) (m : bool) (f : list N) (o : lop) (r : ret) (d' : lst) (s' : list N) : Prop :=
  exists l' fr, view l' = s' /\ Rep d' l' (mafter o m) (fr ++ f) /\ Permutation (given cmp c (view l) o r ++ l) (l' ++ fr ++ taken (view l) o r).

Lemma take_u d l m f i : Rep d l m f ->
  exists d', take_at c d i = Ok (nth i (view l) 0%N, d') /\
    exists l', view l' = del i (view l) /\ Rep d' l' m f /\
      Permutation l (l' ++ (if i <? length l then [nth i (view l) 0%N] else [])).
Proof.
  intros R. destruct (Nat.ltb_spec i (length l)) as [H|H].
  - destruct (take_ok c d l m f i R H) as (d' & a & x & b & E & El & La & R').
    destruct (view_mid a x b l i El H La) as (a' & b' & Ev & L' & Ev' & _).
    exists d'. rewrite Ev, (nth_mid a' b' x i L'), (del_mid a' b' x i L'). split; auto. exists (a ++ b). split; auto. split; auto. subst l. perm.
  - exists d. unfold take_at. pose proof R as (_ & L & _). destruct (Nat.leb_spec (elems d) i); [|lia].
    rewrite nth_overflow, del_over by (rewrite view_len; lia). split; auto. exists l. rewrite app_nil_r. auto.
Qed.
Lemma remove_u d l m f i : Rep d l m f ->
  exists d', remove_at c d i = Ok (i <? length l, d') /\
    exists l' fr, view l' = del i (view l) /\ Rep d' l' m (fr ++ f) /\ Permutation l (l' ++ fr).
Proof.
  intros R. destruct (Nat.ltb_spec i (length l)) as [H|H].
  - destruct (remove_at_ok c d l m f i R H) as (d' & a & x & b & E & El & La & R').
    destruct (view_mid a x b l i El H La) as (a' & b' & Ev & L' & Ev' & _).
    exists d'. rewrite Ev, (del_mid a' b' x i L'). split; auto. exists (a ++ b), [x]. split; auto. split; auto. subst l. perm.
  - exists d. unfold remove_at. pose proof R as (_ & L & _). destruct (Nat.leb_spec (elems d) i); [|lia].
    rewrite del_over by (rewrite view_len; lia). split; auto. exists l, []. rewrite app_nil_r. auto.
Qed.
Lemma at_u d l m f i : Rep d l m f -> at_ c d i = Ok (nth i (view l) 0%N).
Proof.
  intros R. unfold at_. pose proof R as (_ & L & _). rewrite L. destruct (Nat.leb_spec (length l) i) as [H|H].
  - now rewrite nth_overflow by (rewrite view_len; lia).
  - destruct (split_mid l (pos c (length l) i) (pos_lt _ _ H)) as (a & x & b & El & La).
    destruct (view_mid a x b l i El H La) as (a' & b' & Ev & L' & _).
    rewrite (conv_pos c d l m f i R H), Nat2Z.id. rewrite Ev, (nth_mid a' b' x i L').
    apply (cell_rep d l m f _ _ R). rewrite <- La, El. now apply nth_error_mid.
Qed.

Lemma match_u d l m f v t op : Rep d l m f -> is_sorting c m = false -> op <> MCount -> (stack c = false \/ exists w, op = MReplace w) ->
  usable c t v = true ->
  exists d' l' fr, match_unsorted cmp c d v t op (elems d) 0 = Ok (length (pick cmp c t v (view l)), d') /\
    view l' = (match op with MReplace w => put (pick cmp c t v (view l)) w (view l) | _ => clear (pick cmp c t v (view l)) (view l) end) /\
    Rep d' l' m (fr ++ f) /\ Permutation (gives op (length (pick cmp c t v (view l))) ++ l) (l' ++ fr).
Proof.
  intros R Hs Hop Hst U. pose proof R as (_ & L & _).
  destruct (modify_u v t op Hop Hst (elems d) l [] d m f 0 (or_intror eq_refl) ltac:(now rewrite app_nil_r) ltac:(auto)) as (d' & l' & k & fr & E & Hl & R' & P).
  rewrite app_nil_r in R'. cbn [Nat.add] in E. exists d', l', fr.
  unfold left_of in Hl. unfold pick. rewrite U. destruct (mall t).
  - destruct Hl as [-> ->].
    assert (Hk : length (filter (fun i => matches cmp t v (nth i (view l) 0%N)) (seq 0 (length (view l)))) = length (filter (matches cmp t v) l)).
    { rewrite idx_length. unfold view. destruct (stack c); auto. rewrite filter_rev. apply rev_length. }
    rewrite Hk. split; auto. split; [|auto].
    destruct op; [congruence| |].
    + destruct Hst as [Hst|[w Hw]]; [|discriminate]. rewrite (clear_all (matches cmp t v)). unfold view. now rewrite Hst.
    + rewrite (put_all (matches cmp t v)). unfold view. destruct (stack c); auto. now rewrite map_rev.
  - assert (Hn : newest c (matches cmp t v) (view l) = if stack c then match find_last (matches cmp t v) l with None => None | Some k => Some (length l - 1 - k) end
                                                     else find_last (matches cmp t v) l).
    { unfold newest, view. destruct (stack c); auto. unfold find_last. destruct (find (matches cmp t v) (rev l)) as [i|] eqn:Ei; auto.
      apply find_lt in Ei. rewrite rev_length in Ei. f_equal. lia. }
    rewrite Hn. destruct (find_last (matches cmp t v) l) as [j|].
    + destruct Hl as (-> & p & x & q & El & Lp & El').
      assert (Hi : length l - 1 - j < length l) by (rewrite El; llen).
      destruct (stack c) eqn:S.
      * destruct Hst as [Hst|[w ->]]; [discriminate|]. split; auto. split; [|auto]. subst l'.
        unfold view. rewrite S, El, !rev_app_distr. cbn [rev]. rewrite <- !app_assoc. cbn [app]. symmetry. apply put_one. hlen.
      * split; auto. split; auto. unfold view. rewrite S, El, El'. destruct op; [congruence| |]; symmetry.
        -- now apply clear_one.
        -- now apply put_one.
    + destruct Hl as [-> ->]. assert ((match (if stack c then None else None : option nat) with Some i => [i] | None => [] end) = []) as Q by (now destruct (stack c)).
      rewrite Q. split; auto. split; auto. destruct op; [congruence| |]; now rewrite ?clear_nil, ?put_nil.
Qed.

Lemma in_set_nil v : in_set cmp c v [] = false.
Proof. unfold in_set, hits. destruct (usable c _ v); cbn; apply andb_false_r. Qed.
Lemma pick_nil t v : pick cmp c t v [] = [].
Proof. unfold pick. destruct (usable c t v), (mall t); auto. unfold newest, find_last. now destruct (stack c). Qed.

(** Operations that do not ask whether the list is sorted *)
Definition indep (o : lop) : bool :=
  match o with
  | Len | At _ | First | Last | TakeFirst | TakeLast | TakeAt _ | RemoveFirst | RemoveLast | RemoveAt _ | RemoveRange _ _
  | Swap _ _ | InsertBegin => true
  | _ => false
  end.
Lemma step_u d l m f o : Rep d l m f -> (indep o = false -> is_sorting c m = false) -> uallowed cmp c (view l) o -> o <> InsertEnd ->
  exists r d', step cmp c g d o = Ok (r, d') /\ exists s', (r, s') = ustep cmp c (view l) o /\ good l m f o r d' s'.
Proof.
  intros R Hs0 Al Ho. pose proof R as (_ & L & _ & M & F).
  assert (Hem : length l = 0 -> l = []) by (intros; destruct l; [auto|hlen]).
  assert (Same : forall r, (r, view l) = ustep cmp c (view l) o -> step cmp c g d o = Ok (r, d) ->
     (forall x, r = RB x -> x = false \/ given cmp c (view l) o r = []) -> given cmp c (view l) o r = [] -> taken (view l) o r = [] -> mafter o m = m ->
     exists r d', step cmp c g d o = Ok (r, d') /\ exists s', (r, s') = ustep cmp c (view l) o /\ good l m f o r d' s').
  { intros r H1 H2 _ H3 H4 H5. exists r, d. split; auto. exists (view l). split; auto. exists l, []. rewrite H3, H4, H5. cbn [app]. rewrite app_nil_r. auto. }
  destruct o as [v|v i| |i| | | | |i| | |i|i j|v t|v t|v t|v w t|v i|i j|t| |]; cbn [uallowed] in Al; try (pose proof (Hs0 eq_refl) as Hs); clear Hs0.
  - (* Insert *)
    destruct (insert_idx_u d l m f v R Hs) as (i & Ei & Ci).
    destruct (set_check_u d l m f v R Hs) as (r & Er & Hr).
    cbn [step]. unfold insert. rewrite Ei. cbn [bind]. rewrite Ci, insert_split, Er. cbn [bind ustep]. rewrite in_set_view.
    destruct (in_set cmp c v l).
    + destruct Hr as [k ->]. cbn [bind]. do 2 eexists. split; [reflexivity|]. eexists. split; [reflexivity|].
      exists l, []. cbn. rewrite app_nil_r. auto.
    + subst r. destruct (insert_raw cmp c g d l m f v (Z.of_nat (length l)) R ltac:(lia)) as (d' & E & R').
      rewrite E. cbn [bind]. do 2 eexists. split; [reflexivity|]. eexists. split; [reflexivity|].
      destruct (Z.ltb_spec (Z.of_nat (length l)) 0); [lia|]. rewrite Nat2Z.id, firstn_all, skipn_all in R'.
      exists (l ++ [v]), []. split; [unfold view; destruct (stack c); auto; now rewrite rev_app_distr|]. split; auto. cbn. perm.
  - (* InsertAt *)
    destruct Al as [Al Hi]. rewrite view_len in Hi. cbn [step ustep]. unfold insert_at. unfold is_sorting in Hs. rewrite M, Hs.
    destruct (set_check_u d l m f v R Hs) as (r & Er & Hr). rewrite insert_split, Er. cbn [bind]. rewrite in_set_view.
    destruct (in_set cmp c v l).
    + destruct Hr as [k ->]. cbn [bind]. do 2 eexists. split; [reflexivity|]. eexists. split; [reflexivity|].
      exists l, []. cbn. rewrite app_nil_r. auto.
    + subst r. assert (Hc : exists k, conv_at c d i = Z.of_nat k /\ k <= length l /\ (firstn i (view l) ++ v :: skipn i (view l) = view (firstn k l ++ v :: skipn k l))).
      { destruct Al as [Al|Al].
        - exists i. rewrite (conv_queue c d l m f i R Al Hi). destruct (Nat.eqb_spec (length l) 0).
          + split; [lia|]. split; auto. unfold view. now rewrite Al.
          + split; auto. split; auto. unfold view. now rewrite Al.
        - assert (l = []) as -> by (apply Hem; rewrite <- view_len, Al; auto). cbn [length] in Hi. assert (i = 0) as -> by lia.
          exists 0. split; [unfold conv_at; rewrite L; auto|]. split; auto. unfold view. now destruct (stack c). }
      destruct Hc as (k & Ec & Lk & Ev). rewrite Ec.
      destruct (insert_raw cmp c g d l m f v (Z.of_nat k) R ltac:(lia)) as (d' & E & R').
      rewrite E. cbn [bind]. do 2 eexists. split; [reflexivity|]. eexists. split; [reflexivity|].
      destruct (Z.ltb_spec (Z.of_nat k) 0); [lia|]. rewrite Nat2Z.id in R'.
      exists (firstn k l ++ v :: skipn k l), []. split; [auto|]. split; auto. cbn. pose proof (firstn_skipn k l) as Q.
      assert (Permutation l (firstn k l ++ skipn k l)) by (now rewrite Q). perm.
  - apply (Same (RN (length l))); auto. { cbn. now rewrite view_len. } { cbn. now rewrite L. }
  - apply (Same (RV (nth i (view l) 0%N))); auto. { cbn. now rewrite (at_u d l m f i R). }
  - apply (Same (RV (nth 0 (view l) 0%N))); auto. { cbn [step]. rewrite L. destruct (Nat.eqb_spec (length l) 0) as [Z|Z].
      - cbn [bind]. rewrite nth_overflow by (rewrite view_len; lia). auto.
      - now rewrite (at_u d l m f 0 R). }
  - apply (Same (RV (last (view l) 0%N))); auto. { cbn [step]. rewrite L. destruct (Nat.eqb_spec (length l) 0) as [Z|Z].
      - cbn [bind]. rewrite (Hem Z). unfold view. now destruct (stack c).
      - rewrite (at_u d l m f _ R), last_nth; [now rewrite view_len|]. intros Q. apply (f_equal (@length N)) in Q. rewrite view_len in Q. cbn in Q. lia. }
  - (* TakeFirst *)
    cbn [step ustep]. rewrite L. destruct (Nat.eqb_spec (length l) 0) as [Z|Z].
    + cbn [bind]. rewrite (Hem Z). assert (view [] = []) as -> by (unfold view; now destruct (stack c)). do 2 eexists; split; [reflexivity|].
      eexists; split; [reflexivity|]. exists [], []. rewrite (Hem Z) in R. cbn. split; [unfold view; now destruct (stack c)|]. split; auto.
      unfold view. destruct (stack c); auto.
    + destruct (take_u d l m f 0 R) as (d' & E & l' & Ev & R' & P). rewrite E. cbn [bind]. do 2 eexists; split; [reflexivity|].
      eexists; split; [reflexivity|]. exists l', []. split; auto. split; auto. cbn [given taken app]. rewrite view_len.
      destruct (Nat.ltb_spec 0 (length l)); [|lia]. destruct (Nat.eqb_spec (length l) 0); [lia|]. auto.
  - (* TakeLast *)
    cbn [step ustep]. rewrite L. destruct (Nat.eqb_spec (length l) 0) as [Z|Z].
    + cbn [bind]. rewrite (Hem Z). assert (view [] = []) as -> by (unfold view; now destruct (stack c)). do 2 eexists; split; [reflexivity|].
      eexists; split; [reflexivity|]. exists [], []. rewrite (Hem Z) in R. cbn. split; [unfold view; now destruct (stack c)|]. split; auto.
      unfold view. destruct (stack c); auto.
    + assert (Hv : view l <> []) by (intros Q; apply (f_equal (@length N)) in Q; rewrite view_len in Q; cbn in Q; lia).
      rewrite (last_nth _ Hv), (removelast_del _ Hv), view_len.
      destruct (take_u d l m f (length l - 1) R) as (d' & E & l' & Ev & R' & P). rewrite E. cbn [bind]. do 2 eexists; split; [reflexivity|].
      eexists; split; [reflexivity|]. exists l', []. split; auto. split; auto. cbn [given taken app]. rewrite view_len.
      destruct (Nat.ltb_spec (length l - 1) (length l)); [|lia]. destruct (Nat.eqb_spec (length l) 0); [lia|]. auto.
  - (* TakeAt *)
    cbn [step ustep]. destruct (take_u d l m f i R) as (d' & E & l' & Ev & R' & P). rewrite E. cbn [bind]. do 2 eexists; split; [reflexivity|].
    eexists; split; [reflexivity|]. exists l', []. split; auto. split; auto. cbn [given taken app]. now rewrite view_len.
  - (* RemoveFirst *)
    cbn [step ustep]. rewrite L, view_len. destruct (Nat.eqb_spec (length l) 0) as [Z|Z].
    + cbn [bind negb]. do 2 eexists; split; [reflexivity|]. rewrite del_over by (rewrite view_len; lia).
      eexists; split; [reflexivity|]. exists l, []. cbn. rewrite app_nil_r. auto.
    + destruct (remove_u d l m f 0 R) as (d' & E & l' & fr & Ev & R' & P). rewrite E. cbn [bind negb]. do 2 eexists; split; [reflexivity|].
      destruct (Nat.ltb_spec 0 (length l)); [|lia]. eexists; split; [reflexivity|]. exists l', fr. split; auto. split; auto.
      cbn [given taken app]. now rewrite app_nil_r.
  - (* RemoveLast *)
    cbn [step ustep]. rewrite L, view_len. destruct (Nat.eqb_spec (length l) 0) as [Z|Z].
    + cbn [bind negb]. do 2 eexists; split; [reflexivity|]. 
      eexists; split; [reflexivity|]. exists l, []. rewrite (Hem Z). unfold view. destruct (stack c); cbn; rewrite (Hem Z) in R; auto.
    + assert (Hv : view l <> []) by (intros Q; apply (f_equal (@length N)) in Q; rewrite view_len in Q; cbn in Q; lia).
      rewrite (removelast_del _ Hv), view_len.
      destruct (remove_u d l m f (length l - 1) R) as (d' & E & l' & fr & Ev & R' & P). rewrite E. cbn [bind negb]. do 2 eexists; split; [reflexivity|].
      destruct (Nat.ltb_spec (length l - 1) (length l)); [|lia]. eexists; split; [reflexivity|]. exists l', fr. split; auto. split; auto.
      cbn [given taken app]. now rewrite app_nil_r.
  - (* RemoveAt *)
    cbn [step ustep]. rewrite view_len. destruct (remove_u d l m f i R) as (d' & E & l' & fr & Ev & R' & P). rewrite E. cbn [bind].
    do 2 eexists; split; [reflexivity|]. eexists; split; [reflexivity|]. exists l', fr. split; auto. split; auto.
    cbn [given taken app]. now rewrite app_nil_r.
  - (* RemoveRange *)
    cbn [step ustep]. rewrite view_len in *.
    destruct (Nat.leb_spec i j) as [H1|H1]; [destruct (Nat.ltb_spec i (length l)) as [H2|H2]|]; cbn [andb].
    + destruct (remove_range_ok c d l m f i j R H1 H2) as (d' & a & r & b & E & El & La & Lr & R'); [destruct Al as [Al|[Al|Al]]; auto; lia|].
      rewrite E. cbn [bind]. do 2 eexists; split; [reflexivity|]. eexists; split; [reflexivity|]. exists (a ++ b), (rev r).
      split; [|split; [auto|cbn [given taken app]; rewrite app_nil_r, El; perm]].
      unfold view. destruct (stack c) eqn:S.
      * assert (i = j) as <- by (destruct Al as [Al|[Al|Al]]; [discriminate|auto|lia]).
        destruct r as [|x [|]]; [hlen| |hlen]. rewrite El in La |- *. cbn [app] in *. rewrite !rev_app_distr. cbn [rev]. rewrite <- app_assoc. cbn [app].
        assert (Lb : length (rev b) = i) by (rewrite El in H2; hlen). rewrite firstn_len by auto. f_equal.
        symmetry.
        change (x :: rev a) with ([x] ++ rev a). rewrite app_assoc. apply skipn_len. hlen.
      * rewrite El at 1. rewrite firstn_len by auto. f_equal.
        assert (Ell := f_equal (@length N) El). destruct (Nat.le_gt_cases (length l) j) as [Q|Q].
        -- assert (b = []) as -> by (destruct b; [auto|hlen]). rewrite skipn_all2; [auto|hlen].
        -- rewrite El, app_assoc. symmetry. apply skipn_len. hlen.
    + unfold remove_range. rewrite L. destruct (Nat.ltb_spec j i); [lia|]. destruct (Nat.leb_spec (length l) i); [|lia]. cbn [orb bind].
      do 2 eexists; split; [reflexivity|]. eexists; split; [reflexivity|]. exists l, []. cbn. rewrite app_nil_r. auto.
    + unfold remove_range. destruct (Nat.ltb_spec j i); [|lia]. cbn [orb bind].
      do 2 eexists; split; [reflexivity|]. eexists; split; [reflexivity|]. exists l, []. cbn. rewrite app_nil_r. auto.
  - (* RemoveVal *)
    cbn [step ustep]. unfold match_op. rewrite (usable_cond d l m f t v R), orb_false_r. destruct (usable c t v) eqn:U; cbn [negb orb].
    + destruct (Nat.eqb_spec (length l) 0) as [Z|Z].
      * assert (view l = []) as Ev by (rewrite (Hem Z); unfold view; now destruct (stack c)).
        cbn [bind]. do 2 eexists; split; [reflexivity|]. rewrite Ev, pick_nil. eexists; split; [reflexivity|].
        exists l, []. cbn. rewrite app_nil_r. auto.
      * cbn [bind]. unfold is_sorting in Hs. rewrite M, Hs. 
        destruct (match_u d l m f v t MRemove R Hs ltac:(discriminate) (or_introl Al) U) as (d' & l' & fr & E & Ev & R' & P).
        rewrite E. cbn [bind]. do 2 eexists; split; [reflexivity|]. eexists; split; [reflexivity|]. exists l', fr. split; auto. split; auto.
        cbn [given taken app]. rewrite app_nil_r. auto.
    + cbn [bind]. do 2 eexists; split; [reflexivity|]. unfold pick. rewrite U, clear_nil. eexists; split; [reflexivity|].
      exists l, []. cbn. rewrite app_nil_r. auto.
  - (* Count *)
    apply (Same (RN (length (hits cmp c t v l)))); auto. { cbn. now rewrite hits_view. }
    cbn [step]. unfold match_op. rewrite (usable_cond d l m f t v R), orb_false_r. unfold hits. destruct (usable c t v) eqn:U; cbn [negb orb]; auto.
    destruct (Nat.eqb_spec (length l) 0) as [Z|Z].
    + rewrite (Hem Z). auto.
    + cbn [bind]. unfold is_sorting in Hs. rewrite M, Hs. rewrite (count_u d l m f v t R l [] (elems d)) by (rewrite ?app_nil_r; auto). auto.
  - (* IndexOf *)
    apply (Same (RI (if usable c t v then (if stack c then find_last else find) (matches cmp t v) (view l) else None))); auto.
    cbn [step]. now rewrite (index_of_u d l m f t v R Hs).
  - (* ReplaceVal *)
    cbn [step ustep]. unfold match_op. rewrite (usable_cond d l m f t v R). unfold replaceable.
    destruct (usable c t v) eqn:U; cbn [negb orb andb].
    2: { cbn [bind]. do 2 eexists; split; [reflexivity|]. eexists; split; [reflexivity|]. exists l, []. cbn. rewrite app_nil_r. split; auto. split; auto.
         now destruct (in_set cmp c w (view l)). }
    destruct (Nat.eqb_spec (length l) 0) as [Z|Z].
    { assert (view l = []) as Ev by (rewrite (Hem Z); unfold view; now destruct (stack c)).
      cbn [bind orb]. do 2 eexists; split; [reflexivity|]. rewrite Ev, pick_nil, clear_nil, put_nil. cbn [length].
      exists []. split. { destruct (negb _ && negb _), (in_set cmp c w []); auto. }
      exists l, []. rewrite Ev. cbn. rewrite app_nil_r. split; auto. split; auto.
      rewrite in_set_nil. auto. }
    cbn [orb].
    assert ((w =? 0)%N || (if mptr t then (v =? w)%N else (cmp v w =? 0)%Z) =
            negb (negb (w =? 0)%N && negb (if mptr t then (v =? w)%N else (cmp v w =? 0)%Z))) as ->.
    { destruct (w =? 0)%N, (if mptr t then (v =? w)%N else (cmp v w =? 0)%Z); auto. }
    destruct (negb (w =? 0)%N && negb (if mptr t then (v =? w)%N else (cmp v w =? 0)%Z)); cbn [negb].
    2: { cbn [bind]. do 2 eexists; split; [reflexivity|]. eexists; split; [reflexivity|]. exists l, []. cbn. rewrite app_nil_r. split; auto. split; auto.
         now destruct (in_set cmp c w (view l)). }
    destruct (set_check_u d l m f w R Hs) as (r & Er & Hr).
    assert (Eop : (if isset c then do r0 <- index_of cmp c d w (mkt false (setp c)); Ok (match r0 with Some _ => MRemove | None => MReplace w end) else Ok (MReplace w))
                  = Ok (if in_set cmp c w l then MRemove else MReplace w)).
    { destruct (isset c) eqn:Is.
      - rewrite Er. cbn [bind]. destruct (in_set cmp c w l); [destruct Hr as [k ->]; auto|subst r; auto].
      - unfold in_set. now rewrite Is. }
    rewrite Eop. cbn [bind]. unfold is_sorting in Hs. rewrite M, Hs. rewrite in_set_view in *.
    destruct (match_u d l m f v t (if in_set cmp c w l then MRemove else MReplace w) R Hs) as (d' & l' & fr & E & Ev & R' & P); auto.
    { destruct (in_set cmp c w l); discriminate. }
    { destruct Al as [Al|Al]; auto. rewrite Al. eauto. }
    rewrite E. cbn [bind]. do 2 eexists; split; [reflexivity|]. eexists; split; [reflexivity|]. exists l', fr.
    split. { rewrite Ev. destruct (in_set cmp c w l); auto. }
    split; auto. cbn [given taken]. rewrite app_nil_r, in_set_view. unfold gives in P. destruct (in_set cmp c w l); auto.
  - (* ReplaceAt *)
    cbn [step ustep]. rewrite view_len. unfold replace_at. unfold is_sorting in Hs. rewrite M, Hs, L, orb_false_r.
    destruct (Nat.ltb_spec i (length l)) as [H|H].
    + destruct (Nat.leb_spec (length l) i); [lia|]. cbn zeta. rewrite (conv_pos c d l m f i R H), Nat2Z.id.
      destruct (split_mid l (pos c (length l) i) (pos_lt _ _ H)) as (a & x & b & El & La).
      destruct (view_mid a x b l i El H La) as (a' & b' & Ev & L' & _ & Ev').
      rewrite (cell_rep d l m f _ x R). 2: { rewrite <- La, El. now apply nth_error_mid. }
      cbn [bind]. destruct R as ((pre & post & E & S) & _ & B & _ & _).
      rewrite <- La, E, S, El, <- app_assoc, (app_assoc pre). cbn [app]. rewrite wr_mid by llen. cbn [bind].
      do 2 eexists; split; [reflexivity|]. eexists; split; [reflexivity|].
      exists (a ++ v :: b), [x]. split.
      * rewrite Ev', <- El, Ev. rewrite <- L'. symmetry. apply upd_app_mid.
      * split; [|cbn [given taken]; perm]. split; [exists pre, post; cbn; rewrite <- !app_assoc; auto|].
        cbn. split; [rewrite El in L; hlen|]. split; [rewrite E, El in B; hlen|]. split; congruence.
    + destruct (Nat.leb_spec (length l) i); [|lia]. cbn [bind].
      do 2 eexists; split; [reflexivity|]. eexists; split; [reflexivity|]. exists l, []. cbn. rewrite app_nil_r. auto.
  - (* Swap *)
    cbn [step ustep]. unfold lswap. rewrite L, view_len in *.
    destruct (srt c || (i =? j) || (length l =? 0)) eqn:Q.
    + assert ((length l =? 0) || srt c || (i =? j) || (length l <? i) || (length l <? j) = true) as ->.
      { destruct (srt c), (i =? j), (length l =? 0); auto; discriminate. }
      cbn [bind]. do 2 eexists; split; [reflexivity|]. eexists; split; [reflexivity|]. exists l, []. cbn. rewrite app_nil_r. auto.
    + apply orb_false_iff in Q as [Q Q3]. apply orb_false_iff in Q as [Q1 Q2]. rewrite Q1, Q2, Q3. cbn [orb].
      apply Nat.eqb_neq in Q2, Q3. assert (Hne : view l <> []) by (intros Z; apply (f_equal (@length N)) in Z; rewrite view_len in Z; cbn in Z; lia).
      assert (A : stack c = false /\ i < length l /\ j < length l) by (destruct Al as [Al|[Al|[Al|Al]]]; [congruence|congruence|congruence|auto]). destruct A as (S & H1 & H2).
      destruct (Nat.ltb_spec (length l) i); [lia|]. destruct (Nat.ltb_spec (length l) j); [lia|]. cbn [orb].
      unfold view. rewrite S. pose proof R as ((pre & post & E & St) & _ & B & _ & _).
      assert (N1 : nth_error l i = Some (nth i l 0%N)) by (apply nth_error_nth'; auto).
      assert (N2 : nth_error l j = Some (nth j l 0%N)) by (apply nth_error_nth'; auto).
      rewrite (cell_rep d l m f i _ R N1), (cell_rep d l m f j _ R N2). cbn [bind].
      set (x := nth i l 0%N) in *. set (y := nth j l 0%N) in *.
      assert (Up : forall (ll : list N) k z, k < length ll -> wr (pre ++ ll ++ post) (length pre + k) z = Ok (pre ++ upd ll k z ++ post)).
      { intros ll k z Hk. destruct (split_mid ll k Hk) as (a & u & b & -> & La). rewrite <- app_assoc, (app_assoc pre). cbn [app].
        rewrite wr_mid by llen. rewrite <- La, upd_app_mid, <- !app_assoc. reflexivity. }
      rewrite E, St, Up by auto. cbn [bind]. rewrite Up by (rewrite length_upd; auto). cbn [bind].
      do 2 eexists; split; [reflexivity|]. eexists; split; [reflexivity|].
      exists (upd (upd l i y) j x), []. split; [unfold view; now rewrite S|]. split.
      { split; [exists pre, post; auto|]. cbn. rewrite !length_upd. split; auto. split; [rewrite E in B; rewrite !app_length, !length_upd in *; lia|auto]. }
      cbn [given taken app]. rewrite app_nil_r.
      assert (G : forall i j, i < j -> j < length l -> Permutation l (upd (upd l i (nth j l 0%N)) j (nth i l 0%N)) /\ upd (upd l i (nth j l 0%N)) j (nth i l 0%N) = upd (upd l j (nth i l 0%N)) i (nth j l 0%N)).
      { intros i0 j0. apply swap_upd. }
      destruct (Nat.lt_total i j) as [Q|[Q|Q]]; [apply (G i j); auto|congruence|].
      destruct (G j i Q H1) as [P1 P2]. fold x y in P1, P2. rewrite <- P2. auto.
  - (* RemoveDups *)
    cbn [step ustep]. unfold remove_duplicates. assert (negb (mptr t) && negb (has_eq c) = negb (mptr t || has_eq c)) as -> by (now destruct (mptr t), (has_eq c)).
    destruct (mptr t || has_eq c); cbn [negb].
    + destruct (dup_outer_u t (S (elems d)) d [] l m f Hs R ltac:(lia)) as (d' & fr & E & R' & P). cbn [length] in E. rewrite E. cbn [bind app] in *.
      do 2 eexists; split; [reflexivity|]. eexists; split; [reflexivity|]. rewrite view_len.
      exists (dedup (length l) (fun x y => matches cmp t x y) l), fr. split; [|split; [auto|cbn [given taken app]; now rewrite app_nil_r]].
      unfold view. destruct (stack c); auto. now rewrite rev_involutive.
    + cbn [bind]. do 2 eexists; split; [reflexivity|]. eexists; split; [reflexivity|]. exists l, []. cbn. rewrite app_nil_r. auto.
  - (* InsertBegin *)
    cbn [step ustep]. do 2 eexists; split; [reflexivity|]. eexists; split; [reflexivity|]. exists l, []. cbn. rewrite app_nil_r. split; auto. split; auto.
    destruct R as (R1 & R2 & R3 & R4 & R5). split; [exact R1|]. cbn. auto.
  - congruence.
Qed.
End Uns.

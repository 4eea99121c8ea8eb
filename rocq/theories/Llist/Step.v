From Verif Require Import Base.Lib Sort.Spec Sort.Binary Llist.Spec Llist.Model Llist.Proofs Llist.Sorted Llist.Skip Llist.Find.

(** Facts about sequences *)
Lemma in_ids (e : entry) l : In e l -> In (fst e) (ids l).
Proof. apply in_map. Qed.
Lemma nd_eq (l : list entry) e e' : NoDup (ids l) -> In e l -> In e' l -> fst e = fst e' -> e = e'.
Proof.
  induction l as [|x l IH]; cbn; intros Hd He He' E; [destruct He|]. inversion Hd; subst.
  destruct He as [->|He], He' as [->|He']; auto.
  - exfalso. apply H1. rewrite E. now apply in_ids.
  - exfalso. apply H1. rewrite <- E. now apply in_ids.
Qed.
Lemma gone_filter (Q : entry -> bool) l : NoDup (ids l) ->
  filter (fun e => negb (existsb (Nat.eqb (fst e)) (ids (filter Q l)))) l = filter (fun e => negb (Q e)) l.
Proof.
  intro Hd. apply filter_ext_in. intros e He. f_equal. destruct (Q e) eqn:E.
  - apply existsb_exists. exists (fst e). split; [|apply Nat.eqb_refl]. apply in_ids. apply filter_In. auto.
  - destruct (existsb _ _) eqn:F; auto. apply existsb_exists in F. destruct F as (x & Hx & Ex). apply Nat.eqb_eq in Ex.
    unfold ids in Hx. apply in_map_iff in Hx. destruct Hx as (e' & <- & He'). apply filter_In in He'. destruct He' as [He' Eq].
    rewrite (nd_eq l e e') in E; auto. congruence.
Qed.
Lemma gone_none (l l' : list entry) : (forall x, In x (ids l) -> In x (ids l')) ->
  filter (fun e => negb (existsb (Nat.eqb (fst e)) (ids l'))) l = [].
Proof.
  intro H. apply filter_none. intros e He. apply negb_false_iff. apply existsb_exists. exists (fst e). split; [|apply Nat.eqb_refl].
  apply H. now apply in_ids.
Qed.
Lemma drop_filter n l : drop n l = filter (fun e => negb (fst e =? n)) l.
Proof. reflexivity. Qed.
Lemma filter_filter {A} (P Q : A -> bool) l : filter P (filter Q l) = filter (fun x => Q x && P x) l.
Proof. induction l as [|x l IH]; cbn; auto. destruct (Q x); cbn; rewrite IH; auto. Qed.

Section Step.
Context (cmp : N -> N -> Z) (c : cfg) (lev : nat -> nat).
Context (Hc : circ c = false) (Hg : good_cmp cmp c).

Definition Rep (d : ll) (l : list entry) : Prop := if srt c then Reps cmp d l else Repu d l.
Lemma rep_view d l : Rep d l -> View d l.
Proof. unfold Rep. destruct (srt c); [apply r_view|intros [V _]; exact V]. Qed.
Lemma rep_sorted d l : Rep d l -> srt c = true -> sorted cmp (vals l).
Proof. unfold Rep. intros R E. rewrite E in R. apply (r_sorted _ _ _ R). Qed.
Lemma cmp_pre : srt c = true -> total_preorder cmp.
Proof. intro E. unfold good_cmp in Hg. now rewrite E in Hg. Qed.
Lemma zero_sym x y : cmp x y = 0%Z -> cmp y x = 0%Z.
Proof.
  unfold good_cmp in Hg. destruct (srt c) eqn:E; [|apply Hg]. intro H. pose proof (csgn cmp Hg x y). lia.
Qed.
Lemma zero_symb x y : (cmp x y =? 0)%Z = (cmp y x =? 0)%Z.
Proof. destruct (Z.eqb_spec (cmp x y) 0) as [E|E], (Z.eqb_spec (cmp y x) 0) as [F|F]; auto; [apply zero_sym in E|apply zero_sym in F]; congruence. Qed.
Lemma rep_remove d a n v b rm : Rep d (a ++ (n, v) :: b) ->
  exists d', take_remove c d n rm = Ok (v, d') /\ Rep d' (a ++ b) /\
    fr d' = (if rm then v :: fr d else fr d) /\ length (hp d') = length (hp d).
Proof.
  unfold Rep. destruct (srt c) eqn:E; intro R.
  - apply remove_s; auto.
  - apply remove_u; auto.
Qed.
Lemma rep_create : Rep (create c) [].
Proof.
  unfold Rep. destruct (srt c) eqn:E; [now apply create_s|]. unfold create. rewrite E. split; [|reflexivity].
  constructor; cbn; auto; [constructor|intro x; unfold VL; destruct x; cbn; intuition congruence|intros x v []].
Qed.
Lemma rep_at d a n v b : Rep d (a ++ (n, v) :: b) ->
  value (hp d) n = Ok v /\ node_next d n = Ok (nxt_of (ids b) None) /\ node_prev d n = Ok (lst_of None (ids a)).
Proof.
  intro R. destruct (view_at _ _ _ _ _ (rep_view _ _ R)) as (A & B & C).
  split; [now apply value_ok|split; [now apply next_ok|now apply prev_ok]].
Qed.
Lemma nxt_not_first d a x w b y : Rep d (a ++ (x, w) :: b) -> In y (ids b) -> peq (nxt_of (ids (a ++ (x, w) :: b)) None) y = false.
Proof.
  intros R Hy. pose proof (v_nd _ _ (rep_view _ _ R)) as Hd. rewrite ids_app in *. cbn in *. fold (ids b) in *.
  destruct (peq _ y) eqn:E; auto. apply peq_true in E. exfalso.
  destruct (ids a) as [|z m]; cbn in *; injection E as ->.
  - inversion Hd; subst. contradiction.
  - inversion Hd; subst. apply H1. apply in_or_app. right. right. auto.
Qed.

Lemma find_unsorted_ok d v t : forall b fuel a x w, length b < fuel -> Rep d (a ++ (x, w) :: b) ->
  (forall e, In e a -> matches cmp t v (snd e) = false) ->
  find_unsorted cmp fuel d v t (nxt_of (ids (a ++ (x, w) :: b)) None) x =
    Ok (hd_error (ids (filter (fun e => matches cmp t v (snd e)) (a ++ (x, w) :: b)))).
Proof.
  induction b as [|[y u] b IH]; intros fuel a x w Hf R Ha; (destruct fuel as [|fuel]; [cbn in Hf; lia|]); cbn [find_unsorted];
    destruct (rep_at _ _ _ _ _ R) as (-> & Nx & _); cbn [bind].
  all: replace ((negb (mptr t) && (cmp w v =? 0)%Z) || (mptr t && (v =? w)%N)) with (matches cmp t v w)
    by (unfold matches; rewrite (zero_symb w v); destruct (mptr t); cbn; rewrite ?orb_false_r; reflexivity).
  all: destruct (matches cmp t v w) eqn:E; [rewrite first_some; auto|]; rewrite Nx; cbn [bind ids map fst nxt_of].
  - rewrite filter_app, filter_none by auto. cbn. rewrite E. reflexivity.
  - pose proof (nxt_not_first _ _ _ _ _ y R) as F. rewrite F by (left; auto).
    replace (a ++ (x, w) :: (y, u) :: b) with ((a ++ [(x, w)]) ++ (y, u) :: b) in * by (rewrite <- app_assoc; reflexivity).
    apply IH; auto; [cbn in Hf; lia|]. intros e He. apply in_app_iff in He. destruct He as [He|[<-|[]]]; auto.
Qed.
Lemma rep_find d l v t : Rep d l -> find cmp c d v t = Ok (first_hit cmp c t v l).
Proof.
  intro R. destruct (srt c) eqn:Es.
  - apply find_s; auto; [now apply cmp_pre|]. unfold Rep in R. now rewrite Es in R.
  - unfold find, first_hit, usable.
    replace (negb (v =? 0)%N && (mptr t || has_eq c)) with (negb ((v =? 0)%N || (negb (mptr t) && negb (has_eq c))))
      by (destruct (v =? 0)%N, (mptr t), (has_eq c); reflexivity).
    destruct ((v =? 0)%N || (negb (mptr t) && negb (has_eq c))); cbn [negb]; auto. rewrite Es.
    rewrite (view_first _ _ (rep_view _ _ R)). cbn [bind]. destruct l as [|[x w] l]; [reflexivity|]. cbn [ids map fst nxt_of].
    apply (find_unsorted_ok d v t l (S (length (hp d))) [] x w); auto.
    + pose proof (v_len _ _ (rep_view _ _ R)) as F. cbn in F. lia.
    + intros e [].
Qed.

(** M_llist_match_op_val_int *)
Definition hit (t : mtype) (v : N) (e : entry) : bool := matches cmp t v (snd e).
Definition ordered_from (v : N) (l : list entry) : Prop := srt c = true -> forall e, In e l -> (cmp v (snd e) <= 0)%Z.
Lemma ordered_tail v e l : ordered_from v (e :: l) -> ordered_from v l.
Proof. intros H E e' He. apply H; auto. right; auto. Qed.
Lemma model_match t v w : let val_match := (srt c || negb (mptr t)) && (cmp v w =? 0)%Z in
  (val_match || (negb (srt c) && mptr t)) && (if mptr t then (v =? w)%N else true) = matches cmp t v w.
Proof.
  cbn. unfold matches. destruct (srt c) eqn:Es, (mptr t); cbn; rewrite ?andb_true_r, ?orb_false_r; auto.
  - destruct (N.eqb_spec v w) as [->|]; [|now rewrite andb_false_r]. now rewrite (crefl cmp (cmp_pre Es)).
Qed.
Lemma no_more t v w l : srt c = true -> sorted cmp (w :: vals l) -> (cmp v w <= 0)%Z -> (cmp v w =? 0)%Z = false ->
  forall e, In e l -> hit t v e = false.
Proof.
  intros Es So Hle Hne e He. pose proof (cmp_pre Es) as Hp. apply Z.eqb_neq in Hne.
  assert (Hlt : (cmp v (snd e) < 0)%Z).
  { apply (clt_le cmp Hp) with w; [lia|]. apply StronglySorted_inv in So as [_ So]. rewrite Forall_forall in So. apply So. now apply in_map. }
  unfold hit, matches. destruct (mptr t); [|apply Z.eqb_neq; lia]. apply N.eqb_neq. intros ->. rewrite (crefl cmp Hp) in Hlt. lia.
Qed.
Lemma rep_suffix d a b : Rep d (a ++ b) -> srt c = true -> sorted cmp (vals b).
Proof.
  intros R Es. pose proof (rep_sorted _ _ R Es) as So. unfold vals in *. rewrite map_app in So.
  induction (map snd a) as [|x m IH]; auto. apply StronglySorted_inv in So as [So _]. auto.
Qed.

Lemma one_match t v (rm : bool) pre x w post d n (R : Rep d (pre ++ (x, w) :: post)) :
  exists (d1 : ll) (f1 : list N), ((if matches cmp t v w then if rm then do '(_, d0) <- take_remove c d x true; Ok (d0, S n) else Ok (d, S n) else Ok (d, n)) : res (ll * nat))
                  = Ok (d1, n + length (filter (hit t v) [(x, w)])) /\
         Rep d1 (pre ++ (if rm then filter (fun e => negb (hit t v e)) [(x, w)] else [(x, w)]) ++ post) /\
         fr d1 = f1 ++ fr d /\ f1 = (if rm then vals (filter (hit t v) [(x, w)]) else []) /\ length (hp d1) = length (hp d).
Proof.
  cbn [filter]. unfold hit. cbn [snd]. destruct (matches cmp t v w); [destruct rm|]; cbn [negb length app].
  - destruct (rep_remove _ _ _ _ _ true R) as (d1 & -> & R1 & F1 & L1). cbn [bind]. exists d1, [w]. rewrite Nat.add_1_r. repeat split; auto.
  - exists d, []. rewrite Nat.add_1_r. repeat split; auto.
  - exists d, []. rewrite Nat.add_0_r. repeat split; auto; destruct rm; auto.
Qed.
Lemma match_all t v rm : rm = false \/ mall t = true -> forall post fuel pre x w d n fst, length post < fuel -> Rep d (pre ++ (x, w) :: post) ->
  (forall y, In y (ids post) -> peq fst y = false) -> ordered_from v ((x, w) :: post) ->
  exists d' f, match_loop cmp c fuel d v t rm fst x n = Ok (n + length (filter (hit t v) ((x, w) :: post)), d') /\
    Rep d' (pre ++ (if rm then filter (fun e => negb (hit t v e)) ((x, w) :: post) else (x, w) :: post)) /\
    fr d' = f ++ fr d /\ Permutation f (if rm then vals (filter (hit t v) ((x, w) :: post)) else []) /\ length (hp d') = length (hp d).
Proof.
  intro Hrm. induction post as [|[y u] post IH]; intros fuel pre x w d n fst Hf R Hfst Hord; (destruct fuel as [|fuel]; [cbn in Hf; lia|]).
  all: cbn [match_loop]; destruct (rep_at _ _ _ _ _ R) as (-> & -> & _); cbn [bind]; cbv zeta; rewrite model_match.
  all: assert (Hstop : forall k, (k =? 1) && negb (mall t) && rm = false) by (intro k; destruct Hrm as [-> | ->]; cbn; rewrite ?andb_false_r; auto).
  all: destruct (one_match t v rm pre x w _ d n R) as (d1 & f1 & -> & R1 & F1 & Ef1 & L1); cbn [bind]; rewrite Hstop.
  - cbn [ids map nxt_of]. rewrite app_nil_r in R1.
    exists d1, f1. split; [|split; [exact R1|split; [exact F1|split; [rewrite Ef1; auto|exact L1]]]].
    destruct (srt c && _); reflexivity.
  - change (filter (hit t v) ((x, w) :: (y, u) :: post)) with (filter (hit t v) ([(x, w)] ++ (y, u) :: post)).
    change (filter (fun e => negb (hit t v e)) ((x, w) :: (y, u) :: post)) with (filter (fun e => negb (hit t v e)) ([(x, w)] ++ (y, u) :: post)).
    rewrite !filter_app, app_length.
    destruct (srt c && negb ((srt c || negb (mptr t)) && (cmp v w =? 0)%Z)) eqn:Est.
    + apply andb_true_iff in Est. destruct Est as [Es Est]. rewrite Es in Est. cbn [orb andb] in Est. apply negb_true_iff in Est.
      pose proof (no_more t v w ((y, u) :: post) Es (rep_suffix _ _ _ R Es) (Hord Es _ (or_introl eq_refl)) Est) as Hno.
      rewrite (filter_none (hit t v) ((y, u) :: post)) by exact Hno.
      rewrite (filter_all (fun e => negb (hit t v e)) ((y, u) :: post)) by (intros e He; rewrite Hno; auto).
      exists d1, f1. cbn [length]. rewrite Nat.add_0_r, app_nil_r. repeat split; auto; [|rewrite Ef1; auto].
      destruct rm; [exact R1|exact R1].
    + cbn [ids map nxt_of Datatypes.fst]. rewrite Hfst by (left; auto).
      destruct (IH fuel (pre ++ (if rm then filter (fun e => negb (hit t v e)) [(x, w)] else [(x, w)])) y u d1 (n + length (filter (hit t v) [(x, w)])) fst)
        as (d2 & f2 & -> & R2 & F2 & P2 & L2).
      * cbn in Hf. lia.
      * rewrite <- app_assoc. exact R1.
      * intros z Hz. apply Hfst. right; auto.
      * eapply ordered_tail; eauto.
      * exists d2, (f2 ++ f1). split; [f_equal; f_equal; lia|]. split; [|split; [rewrite F2, F1, app_assoc; auto|split; [|congruence]]].
        -- rewrite <- app_assoc in R2. destruct rm; exact R2.
        -- rewrite Ef1. destruct rm; [|rewrite app_nil_r; exact P2]. unfold vals in *. rewrite map_app.
           rewrite Permutation_app_comm. apply Permutation_app_head. exact P2.
Qed.

Fixpoint drop_first (P : entry -> bool) (l : list entry) : list entry :=
  match l with [] => [] | e :: l' => if P e then l' else e :: drop_first P l' end.
Lemma drop_first_none P l : (forall e, In e l -> P e = false) -> drop_first P l = l.
Proof. induction l as [|e l IH]; cbn; intro H; auto. rewrite H by auto. f_equal. auto. Qed.
Lemma match_one t v : mall t = false -> forall post fuel pre x w d fst, length post < fuel -> Rep d (pre ++ (x, w) :: post) ->
  (forall y, In y (ids post) -> peq fst y = false) -> ordered_from v ((x, w) :: post) ->
  exists d' f, match_loop cmp c fuel d v t true fst x 0 = Ok (Nat.min 1 (length (filter (hit t v) ((x, w) :: post))), d') /\
    Rep d' (pre ++ drop_first (hit t v) ((x, w) :: post)) /\
    fr d' = f ++ fr d /\ f = firstn 1 (vals (filter (hit t v) ((x, w) :: post))) /\ length (hp d') = length (hp d).
Proof.
  intro Hall. induction post as [|[y u] post IH]; intros fuel pre x w d fst Hf R Hfst Hord; (destruct fuel as [|fuel]; [cbn in Hf; lia|]).
  all: cbn [match_loop]; destruct (rep_at _ _ _ _ _ R) as (-> & -> & _); cbn [bind]; cbv zeta; rewrite model_match.
  all: cbn [filter drop_first]; change (hit t v (x, w)) with (matches cmp t v w); destruct (matches cmp t v w) eqn:Em.
  1, 3: destruct (rep_remove _ _ _ _ _ true R) as (d1 & -> & R1 & F1 & L1); cbn [bind]; rewrite Hall; cbn [Nat.eqb negb andb];
    exists d1, [w]; (split; [destruct (srt c && _); reflexivity|]); repeat split; auto.
  all: cbn [bind]; rewrite Hall; cbn [Nat.eqb negb andb ids map nxt_of Datatypes.fst].
  - exists d, []. split; [destruct (srt c && _); reflexivity|]. repeat split; auto.
  - destruct (srt c && negb ((srt c || negb (mptr t)) && (cmp v w =? 0)%Z)) eqn:Est.
    + apply andb_true_iff in Est. destruct Est as [Es Est]. rewrite Es in Est. cbn [orb andb] in Est. apply negb_true_iff in Est.
      pose proof (no_more t v w ((y, u) :: post) Es (rep_suffix _ _ _ R Es) (Hord Es _ (or_introl eq_refl)) Est) as Hno.
      change (if hit t v (y, u) then (y, u) :: filter (hit t v) post else filter (hit t v) post) with (filter (hit t v) ((y, u) :: post)).
      change (if hit t v (y, u) then post else (y, u) :: drop_first (hit t v) post) with (drop_first (hit t v) ((y, u) :: post)).
      rewrite (filter_none (hit t v) ((y, u) :: post)) by exact Hno. rewrite drop_first_none by exact Hno.
      exists d, []. repeat split; auto.
    + rewrite Hfst by (left; auto).
      destruct (IH fuel (pre ++ [(x, w)]) y u d fst) as (d2 & f2 & -> & R2 & F2 & P2 & L2).
      * cbn in Hf. lia.
      * rewrite <- app_assoc. exact R.
      * intros z Hz. apply Hfst. right; auto.
      * eapply ordered_tail; eauto.
      * exists d2, f2. split; [reflexivity|]. rewrite <- app_assoc in R2. repeat split; auto.
Qed.

Lemma drop_first_mid P a e b : (forall x, In x a -> P x = false) -> P e = true -> drop_first P (a ++ e :: b) = a ++ b.
Proof. intros Ha He. induction a as [|x a IH]; cbn; [now rewrite He|]. rewrite Ha by (left; auto). f_equal. apply IH. intros; apply Ha; right; auto. Qed.
(** Either nothing satisfies the test or there is a first element that does. *)
Lemma first_split {A} (P : A -> bool) l : (forall e, In e l -> P e = false) \/ exists a e b, l = a ++ e :: b /\ P e = true /\ forall x, In x a -> P x = false.
Proof.
  induction l as [|y l IH]; [left; intros e []|]. destruct (P y) eqn:E.
  - right. exists [], y, l. repeat split; auto. intros x [].
  - destruct IH as [IH|(a & e & b & -> & He & Ha)].
    + left. intros e [<-|He]; auto.
    + right. exists (y :: a), e, b. repeat split; auto. intros x [<-|Hx]; auto.
Qed.
Lemma first_hit_mid t v a x w b : usable c t v = true -> hit t v (x, w) = true -> (forall e, In e a -> hit t v e = false) ->
  first_hit cmp c t v (a ++ (x, w) :: b) = Some x.
Proof. intros U H Ha. unfold first_hit. rewrite U. now apply first_some. Qed.
Lemma first_hit_none t v l : (forall e, In e l -> hit t v e = false) -> first_hit cmp c t v l = None.
Proof. intro H. unfold first_hit. destruct (usable c t v); auto. rewrite filter_none; auto. Qed.
Lemma sorted_ordered v d a x w b : Rep d (a ++ (x, w) :: b) -> cmp v w = 0%Z -> ordered_from v ((x, w) :: b).
Proof.
  intros R E Es e [<-|He]; cbn [snd]; [lia|]. pose proof (rep_suffix _ _ _ R Es) as So. unfold vals in So. cbn in So.
  apply StronglySorted_inv in So as [_ So]. rewrite Forall_forall in So.
  apply (cle_trans cmp (cmp_pre Es)) with w; [lia|]. apply So. now apply in_map.
Qed.
Lemma hit_zero t v w : srt c = true -> matches cmp t v w = true -> cmp v w = 0%Z.
Proof.
  intros Es. unfold matches. destruct (mptr t); [|apply Z.eqb_eq]. intro E. apply N.eqb_eq in E. subst. apply (crefl cmp (cmp_pre Es)).
Qed.

(** Where the loop starts: nothing before matches. *)
Lemma match_start d l v t rm : Rep d l -> usable c t v = true ->
  (match_op cmp c d v t rm = Ok (0, d) /\ (forall e, In e l -> hit t v e = false)) \/
  (exists a x w b fst, l = a ++ (x, w) :: b /\ (forall e, In e a -> hit t v e = false) /\
     (forall y, In y (ids b) -> peq fst y = false) /\ ordered_from v ((x, w) :: b) /\
     match_op cmp c d v t rm = match_loop cmp c (S (length (hp d))) d v t rm fst x 0).
Proof.
  intros R U. unfold match_op.
  replace ((v =? 0)%N || (negb (mptr t) && negb (has_eq c))) with (negb (usable c t v))
    by (unfold usable; destruct (v =? 0)%N, (mptr t), (has_eq c); reflexivity).
  rewrite U. cbn [negb]. destruct (srt c) eqn:Es.
  - rewrite (rep_find _ _ _ _ R). cbn [bind].
    destruct (first_split (hit t v) l) as [Hn|(a & [x w] & b & -> & Hh & Ha)].
    + rewrite first_hit_none by auto. left. auto.
    + rewrite first_hit_mid by auto. right. exists a, x, w, b, None. repeat split; auto.
      eapply sorted_ordered; eauto. apply (hit_zero t); auto.
  - rewrite (view_first _ _ (rep_view _ _ R)). cbn [bind]. destruct l as [|[x w] l].
    + left. split; [reflexivity|intros e []].
    + right. exists [], x, w, l, (Some x). repeat split; auto; [intros e []| |intros F; congruence].
      intros y Hy. apply (nxt_not_first d [] x w l y); auto.
Qed.

Lemma filter_compl {A} (P : A -> bool) l : length (filter P l) + length (filter (fun e => negb (P e)) l) = length l.
Proof. induction l as [|x l IH]; cbn; auto. destruct (P x); cbn; lia. Qed.

Lemma count_ok d l v t : Rep d l ->
  exists d', match_op cmp c d v t false = Ok (count cmp c t v l, d') /\ Rep d' l /\ fr d' = fr d /\ length (hp d') = length (hp d).
Proof.
  intro R. unfold count. destruct (usable c t v) eqn:U.
  - change (fun e => matches cmp t v (snd e)) with (hit t v).
    destruct (match_start d l v t false R U) as [[-> Hn]|(a & x & w & b & fst & -> & Ha & Hf & Ho & ->)].
    + exists d. rewrite filter_none by auto. auto.
    + destruct (match_all t v false (or_introl eq_refl) b (S (length (hp d))) a x w d 0 fst) as (d' & f & -> & R' & F & P & L); auto.
      * pose proof (v_len _ _ (rep_view _ _ R)) as F. rewrite app_length in F. cbn in F. lia.
      * apply Permutation_sym, Permutation_nil in P. subst f. exists d'. rewrite filter_app, (filter_none _ a) by auto. auto.
  - unfold match_op. unfold usable in U.
    replace ((v =? 0)%N || (negb (mptr t) && negb (has_eq c))) with true; [eauto|].
    destruct (v =? 0)%N, (mptr t), (has_eq c); cbn in *; congruence.
Qed.

Lemma remove_val_ok d l v t : Rep d l ->
  exists d' f, match_op cmp c d v t true = Ok (length l - length (remove_val cmp c t v l), d') /\ Rep d' (remove_val cmp c t v l) /\
    fr d' = f ++ fr d /\ Permutation f (freed_by l (remove_val cmp c t v l) (RemoveVal v t)) /\ length (hp d') = length (hp d).
Proof.
  intro R. pose proof (v_nd _ _ (rep_view _ _ R)) as Hd. unfold remove_val. destruct (usable c t v) eqn:U.
  - change (fun e : entry => negb (matches cmp t v (snd e))) with (fun e => negb (hit t v e)). cbn [freed_by].
    assert (Hlen : forall b a x (w : N), l = a ++ (x, w) :: b -> length b < S (length (hp d))).
    { intros b a x w E. pose proof (v_len _ _ (rep_view _ _ R)) as F. rewrite E, app_length in F. cbn in F. lia. }
    destruct (mall t) eqn:Ea.
    + pose proof (filter_compl (hit t v) l) as Hcl. rewrite (gone_filter (fun e => negb (hit t v e))) by auto.
      destruct (match_start d l v t true R U) as [[-> Hn]|(a & x & w & b & fst & El & Ha & Hf & Ho & ->)].
      * exists d, []. rewrite (filter_all (fun e => negb (hit t v e))) by (intros e He; rewrite Hn; auto).
        rewrite filter_none by (intros e He; rewrite Hn; auto).
        split; [f_equal; f_equal; lia|]. repeat split; auto.
      * destruct (match_all t v true (or_intror Ea) b (S (length (hp d))) a x w d 0 fst) as (d' & f & -> & R' & F & P & L); auto; [eapply Hlen; eauto|rewrite <- El; auto|].
        exists d', f. assert (E1 : filter (hit t v) l = filter (hit t v) ((x, w) :: b)) by (rewrite El, filter_app, (filter_none _ a) by auto; auto).
        split; [rewrite <- E1; f_equal; f_equal; lia|]. split.
        { rewrite El, filter_app, (filter_all _ a) by (intros e He; rewrite Ha; auto). exact R'. }
        repeat split; auto. rewrite P, <- E1. rewrite (filter_ext (fun e => negb (negb (hit t v e))) (hit t v)); auto. intro e. apply negb_involutive.
    + destruct (first_split (hit t v) l) as [Hn|(a1 & [x1 w1] & b1 & E1 & Hh1 & Ha1)].
      * rewrite first_hit_none by auto. rewrite gone_none by auto.
        destruct (match_start d l v t true R U) as [[-> _]|(a & x & w & b & fst & El & Ha & Hf & Ho & ->)].
        { exists d, []. rewrite Nat.sub_diag. repeat split; auto. }
        destruct (match_one t v Ea b (S (length (hp d))) a x w d fst) as (d' & f & -> & R' & F & P & L); auto; [eapply Hlen; eauto|rewrite <- El; auto|].
        assert (Hn' : forall e, In e ((x, w) :: b) -> hit t v e = false) by (intros e He; apply Hn; rewrite El; apply in_or_app; auto).
        rewrite (filter_none (hit t v)) in * by auto. rewrite drop_first_none in R' by auto. exists d', f. subst f. rewrite Nat.sub_diag, El.
        repeat split; auto.
      * assert (Hx1 : ~ In x1 (ids a1) /\ ~ In x1 (ids b1)).
        { rewrite E1, ids_app in Hd. cbn in Hd. fold (ids b1) in Hd. apply NoDup_remove_2 in Hd. rewrite in_app_iff in Hd. tauto. }
        destruct Hx1 as [Hx1 Hx1'].
        assert (F1 : first_hit cmp c t v l = Some x1) by (rewrite E1; apply first_hit_mid; auto). rewrite F1.
        assert (D1 : drop x1 l = a1 ++ b1) by (rewrite E1; apply drop_mid; auto).
        destruct (match_start d l v t true R U) as [[_ Hn]|(a & x & w & b & fst & El & Ha & Hf & Ho & ->)].
        { rewrite Hn in Hh1; [discriminate|]. rewrite E1. apply in_or_app; right; left; auto. }
        destruct (match_one t v Ea b (S (length (hp d))) a x w d fst) as (d' & f & -> & R' & F & P & L); auto; [eapply Hlen; eauto|rewrite <- El; auto|].
        assert (Es : filter (hit t v) ((x, w) :: b) = filter (hit t v) l) by (rewrite El, filter_app, (filter_none _ a) by auto; auto).
        assert (Ed : a ++ drop_first (hit t v) ((x, w) :: b) = drop x1 l).
        { rewrite D1, <- (drop_first_mid (hit t v) a1 (x1, w1) b1), <- E1, El; auto. clear - Ha.
          induction a as [|e a IH]; [reflexivity|].
          change ((e :: a) ++ (x, w) :: b) with (e :: (a ++ (x, w) :: b)). cbn [drop_first]. rewrite (Ha e) by (left; auto). cbn [app]. f_equal.
          apply IH. intros; apply Ha; right; auto. }
        rewrite Es in *. rewrite Ed in R'. rewrite E1, filter_app, (filter_none _ a1) in * by auto. cbn [app filter] in *. rewrite Hh1 in *.
        rewrite <- E1 in *. exists d', f. split.
        { f_equal. f_equal. rewrite D1, E1, !app_length. cbn. lia. }
        repeat split; auto. subst f. cbn. rewrite drop_filter, gone_filter by auto.
        replace (filter (fun e : entry => negb (negb (Datatypes.fst e =? x1))) l) with (filter (is_node x1) l)
          by (apply filter_ext; intro e; unfold is_node; rewrite negb_involutive; reflexivity).
        rewrite E1, filter_app. rewrite (filter_none (is_node x1) a1) by (intros e He; apply (notin_is_node x1 a1); auto). cbn [filter app]. unfold is_node at 1. cbn [Datatypes.fst].
        rewrite Nat.eqb_refl. rewrite (filter_none (is_node x1) b1) by (intros e He; apply (notin_is_node x1 b1); auto). reflexivity.
  - exists d, []. cbn [freed_by]. rewrite gone_none by auto. rewrite Nat.sub_diag. split; [|repeat split; auto].
    unfold match_op. unfold usable in U.
    replace ((v =? 0)%N || (negb (mptr t) && negb (has_eq c))) with true; auto.
    destruct (v =? 0)%N, (mptr t), (has_eq c); cbn in *; congruence.
Qed.

(** M_llist_remove_duplicates *)
Definition keep (t : mtype) (n1 : nat) (v1 : N) (e : entry) : bool := (fst e =? n1) || negb (hit t v1 e).
Lemma inner_ok t n1 v1 fst : forall post fuel pre x w d, length post < fuel -> Rep d (pre ++ (x, w) :: post) ->
  In (n1, v1) (pre ++ (x, w) :: post) -> (srt c = true -> In n1 (ids pre)) ->
  (forall y, In y (ids post) -> peq fst y = false) -> ordered_from v1 ((x, w) :: post) ->
  exists d' f, dup_inner cmp c fuel d t fst n1 x = Ok d' /\ Rep d' (pre ++ filter (keep t n1 v1) ((x, w) :: post)) /\
    fr d' = f ++ fr d /\ Permutation f (vals (filter (fun e => negb (keep t n1 v1 e)) ((x, w) :: post))) /\ length (hp d') = length (hp d).
Proof.
  induction post as [|[y u] post IH]; intros fuel pre x w d Hf R Hin Hs1 Hfst Hord; (destruct fuel as [|fuel]; [cbn in Hf; lia|]).
  all: cbn [dup_inner]; destruct (rep_at _ _ _ _ _ R) as (Ew & -> & _); cbn [bind].
  all: cbn [filter ids map nxt_of Datatypes.fst]; change (keep t n1 v1 (x, w)) with ((x =? n1) || negb (matches cmp t v1 w)); rewrite (Nat.eqb_sym n1 x).
  all: destruct (Nat.eqb_spec x n1) as [->|Hne]; cbn [orb negb].
  - exists d, []. repeat split; auto.
  - assert (exists d1, value (hp d) n1 = Ok v1 /\
      (if (if mptr t then (v1 =? w)%N else (cmp v1 w =? 0)%Z) then do '(_, d0) <- take_remove c d x true; Ok d0 else Ok d) = Ok d1 /\
      Rep d1 (pre ++ (if negb (matches cmp t v1 w) then [(x, w)] else [])) /\ fr d1 = (if negb (matches cmp t v1 w) then [] else [w]) ++ fr d /\ length (hp d1) = length (hp d)) as (d1 & E1 & E2 & R1 & F1 & L1).
    { pose proof (v_val _ _ (rep_view _ _ R) _ _ Hin) as Ev. fold (matches cmp t v1 w). destruct (matches cmp t v1 w); cbn [negb].
      - destruct (rep_remove _ _ _ _ _ true R) as (d1 & -> & R1 & F1 & L1). exists d1. cbn [bind]. repeat split; auto. now apply value_ok.
      - exists d. repeat split; auto. now apply value_ok. }
    rewrite E1, Ew. cbn [bind]. rewrite E2. cbn [bind].
    exists d1. eexists. split; [destruct (srt c && _); reflexivity|]. split; [exact R1|]. split; [exact F1|]. split; [|auto].
    destruct (matches cmp t v1 w); cbn; auto.
  - rewrite Hfst by (left; auto). destruct (IH fuel (pre ++ [(n1, w)]) y u d) as (d' & f & -> & R' & F & P & L).
    + cbn in Hf. lia.
    + rewrite <- app_assoc. exact R.
    + rewrite <- app_assoc. exact Hin.
    + intro Es. rewrite ids_app. apply in_or_app. left; auto.
    + intros z Hz. apply Hfst. right; auto.
    + eapply ordered_tail; eauto.
    + exists d', f. rewrite <- app_assoc in R'. repeat split; auto.
  - assert (exists d1, value (hp d) n1 = Ok v1 /\
      (if (if mptr t then (v1 =? w)%N else (cmp v1 w =? 0)%Z) then do '(_, d0) <- take_remove c d x true; Ok d0 else Ok d) = Ok d1 /\
      Rep d1 (pre ++ (if negb (matches cmp t v1 w) then [(x, w)] else []) ++ (y, u) :: post) /\ fr d1 = (if negb (matches cmp t v1 w) then [] else [w]) ++ fr d /\ length (hp d1) = length (hp d)) as (d1 & E1 & E2 & R1 & F1 & L1).
    { pose proof (v_val _ _ (rep_view _ _ R) _ _ Hin) as Ev. fold (matches cmp t v1 w). destruct (matches cmp t v1 w); cbn [negb].
      - destruct (rep_remove _ _ _ _ _ true R) as (d1 & -> & R1 & F1 & L1). exists d1. cbn [bind]. repeat split; auto. now apply value_ok.
      - exists d. repeat split; auto. now apply value_ok. }
    rewrite E1, Ew. cbn [bind]. rewrite E2. cbn [bind].
    change (if keep t n1 v1 (y, u) then (y, u) :: filter (keep t n1 v1) post else filter (keep t n1 v1) post) with (filter (keep t n1 v1) ((y, u) :: post)).
    change (if negb (keep t n1 v1 (y, u)) then (y, u) :: filter (fun e => negb (keep t n1 v1 e)) post else filter (fun e => negb (keep t n1 v1 e)) post)
      with (filter (fun e => negb (keep t n1 v1 e)) ((y, u) :: post)).
    destruct (srt c && negb (cmp v1 w =? 0)%Z) eqn:Est.
    + apply andb_true_iff in Est. destruct Est as [Es Est]. apply negb_true_iff in Est.
      pose proof (no_more t v1 w ((y, u) :: post) Es (rep_suffix _ _ _ R Es) (Hord Es _ (or_introl eq_refl)) Est) as Hno.
      assert (Hk : forall e, In e ((y, u) :: post) -> keep t n1 v1 e = true) by (intros e He; unfold keep; rewrite Hno by auto; apply orb_true_r).
      rewrite (filter_all (keep t n1 v1)) by auto. rewrite (filter_none (fun e => negb (keep t n1 v1 e)) ((y, u) :: post)) by (intros e He; rewrite Hk; auto).
      exists d1. eexists. split; [reflexivity|]. split; [|split; [exact F1|split; [|auto]]]; destruct (matches cmp t v1 w); auto.
    + rewrite Hfst by (left; auto).
      destruct (IH fuel (pre ++ (if negb (matches cmp t v1 w) then [(x, w)] else [])) y u d1) as (d' & f & -> & R' & F & P & L).
      * cbn in Hf. lia.
      * rewrite <- app_assoc. exact R1.
      * rewrite in_app_iff in *. cbn in Hin. destruct Hin as [Hin|[Hin|Hin]]; [left; apply in_or_app; auto|congruence|right; exact Hin].
      * intro Es. rewrite ids_app. apply in_or_app. left; auto.
      * intros z Hz. apply Hfst. right; auto.
      * eapply ordered_tail; eauto.
      * exists d'. eexists. split; [reflexivity|]. rewrite <- app_assoc in R'. split; [destruct (matches cmp t v1 w); exact R'|].
        split; [rewrite F, F1, app_assoc; reflexivity|]. split; [|congruence].
        destruct (matches cmp t v1 w); cbn [negb]; [|rewrite app_nil_r; exact P].
        rewrite Permutation_app_comm. cbn. constructor. exact P.
Qed.

Lemma dedup_nil k t : dedup cmp k t [] = [].
Proof. destruct k; reflexivity. Qed.
Lemma dedup_incl t : forall k l e, In e (dedup cmp k t l) -> In e l.
Proof.
  induction k as [|k IH]; intros [|x l] e He; try (destruct He; fail). cbn in He. destruct He as [->|He]; [left; auto|].
  right. apply IH in He. apply filter_In in He. tauto.
Qed.
Lemma filter_len {A} (P : A -> bool) l : length (filter P l) <= length l.
Proof. induction l as [|x l IH]; cbn; auto. destruct (P x); cbn; lia. Qed.
Lemma matches_sym t x y : matches cmp t x y = matches cmp t y x.
Proof. unfold matches. destruct (mptr t); [apply N.eqb_sym|apply zero_symb]. Qed.

Lemma outer_ok t : forall fuel pre n1 v1 post d k f0 fst, length post < fuel -> Rep d (pre ++ (n1, v1) :: post) ->
  (forall e e', In e pre -> In e' ((n1, v1) :: post) -> matches cmp t (snd e) (snd e') = false) ->
  S (length post) <= k -> nxt_of (ids (pre ++ (n1, v1) :: post)) None = f0 -> fst = f0 ->
  exists d' f, dup_outer cmp c fuel d t fst n1 = Ok d' /\ Rep d' (pre ++ dedup cmp k t ((n1, v1) :: post)) /\
    fr d' = f ++ fr d /\ Permutation (vals ((n1, v1) :: post)) (f ++ vals (dedup cmp k t ((n1, v1) :: post))) /\
    length (hp d') = length (hp d).
Proof.
  induction fuel as [|fuel IH]; intros pre n1 v1 post d k f0 fst Hf R Hpre Hk Ef0 ->; [lia|].
  destruct k as [|k]; [lia|]. cbn [dup_outer dedup snd].
  change (fun y : entry => negb (matches cmp t v1 (snd y))) with (fun y => negb (hit t v1 y)).
  pose proof (v_nd _ _ (rep_view _ _ R)) as Hd.
  assert (Hn1 : ~ In n1 (ids pre) /\ ~ In n1 (ids post)).
  { rewrite ids_app in Hd. cbn in Hd. fold (ids post) in Hd. apply NoDup_remove_2 in Hd. rewrite in_app_iff in Hd. tauto. }
  destruct Hn1 as [Hn1 Hn1'].
  assert (Hkp : filter (keep t n1 v1) post = filter (fun y => negb (hit t v1 y)) post).
  { apply filter_ext_in. intros e He. unfold keep. destruct (Nat.eqb_spec (Datatypes.fst e) n1) as [E|]; auto.
    exfalso. apply Hn1'. rewrite <- E. now apply in_ids. }
  assert (Hkpre : filter (keep t n1 v1) pre = pre).
  { apply filter_all. intros e He. unfold keep, hit. pose proof (Hpre e (n1, v1) He (or_introl eq_refl)) as K. cbn [snd] in K. rewrite matches_sym, K. apply orb_true_r. }
  assert (Hlen := v_len _ _ (rep_view _ _ R)). rewrite app_length in Hlen. cbn in Hlen.
  destruct (rep_at _ _ _ _ _ R) as (_ & Nx & _).
  assert (B : exists d1 f1, (do n2 <- (if srt c then node_next d n1 else first d);
      match n2 with None => Ok d | Some x => dup_inner cmp c (S (length (hp d))) d t f0 n1 x end) = Ok d1 /\
      Rep d1 (pre ++ (n1, v1) :: filter (fun y => negb (hit t v1 y)) post) /\ fr d1 = f1 ++ fr d /\
      Permutation (vals post) (f1 ++ vals (filter (fun y => negb (hit t v1 y)) post)) /\ length (hp d1) = length (hp d)).
  { assert (Hperm : forall f1, Permutation f1 (vals (filter (fun e => negb (keep t n1 v1 e)) post)) ->
                     Permutation (vals post) (f1 ++ vals (filter (fun y => negb (hit t v1 y)) post))).
    { intros f1 P. rewrite P, <- Hkp. clear. induction post as [|e post IH]; cbn; auto. destruct (keep t n1 v1 e); cbn.
      - rewrite IH. apply Permutation_middle. - constructor. exact IH. }
    destruct (srt c) eqn:Es.
    - rewrite Nx. cbn [bind]. destruct post as [|[y u] post]; cbn [ids map nxt_of Datatypes.fst].
      + exists d, []. repeat split; auto.
      + destruct (inner_ok t n1 v1 f0 post (S (length (hp d))) (pre ++ [(n1, v1)]) y u d) as (d1 & f1 & -> & R1 & F1 & P1 & L1).
        * cbn in Hlen. lia.
        * rewrite <- app_assoc. exact R.
        * rewrite <- app_assoc. apply in_or_app; right; left; auto.
        * intros _. rewrite ids_app. apply in_or_app; right; left; auto.
        * intros z Hz. rewrite <- Ef0. eapply nxt_not_first; [exact R|]. right; auto.
        * eapply ordered_tail. eapply sorted_ordered; [exact R|]. apply (crefl cmp (cmp_pre Es)).
        * rewrite <- app_assoc in R1. rewrite Hkp in R1. exists d1, f1. repeat split; auto.
    - rewrite (view_first _ _ (rep_view _ _ R)). cbn [bind]. destruct (pre ++ (n1, v1) :: post) as [|[x w] m] eqn:El; [destruct pre; discriminate|].
      cbn [ids map nxt_of Datatypes.fst].
      destruct (inner_ok t n1 v1 f0 m (S (length (hp d))) [] x w d) as (d1 & f1 & -> & R1 & F1 & P1 & L1).
      * apply (f_equal (@length _)) in El. rewrite app_length in El. cbn in El. lia.
      * exact R.
      * cbn [app]. rewrite <- El. apply in_or_app; right; left; auto.
      * congruence.
      * intros z Hz. rewrite <- Ef0. apply (nxt_not_first d [] x w m); auto.
      * intro F; congruence.
      * cbn [app] in R1. rewrite <- El, filter_app in *. cbn [filter] in *. unfold keep at 2 in R1. unfold keep at 2 in P1. cbn [Datatypes.fst] in *.
        rewrite Nat.eqb_refl in *. cbn [orb negb] in *. rewrite Hkpre, Hkp in R1.
        rewrite (filter_none (fun e => negb (keep t n1 v1 e)) pre) in P1.
        2: { intros e He. apply negb_false_iff. rewrite <- Hkpre in He. apply filter_In in He. tauto. }
        exists d1, f1. repeat split; auto. }
  destruct B as (d1 & f1 & B & R1 & F1 & P1 & L1).
  assert (B' : forall {A} (g : ll -> res A), (do n2 <- (if srt c then node_next d n1 else first d);
      do d0 <- match n2 with None => Ok d | Some x => dup_inner cmp c (S (length (hp d))) d t f0 n1 x end; g d0) = g d1).
  { intros A g. destruct (if srt c then node_next d n1 else first d) as [n2| |]; cbn [bind] in *; try discriminate. rewrite B. reflexivity. }
  rewrite B'. destruct (rep_at _ _ _ _ _ R1) as (_ & -> & _). cbn [bind].
  remember (filter (fun y => negb (hit t v1 y)) post) as post1 eqn:Epost.
  assert (Lp : length post1 <= length post) by (subst post1; apply filter_len).
  destruct post1 as [|[y u] post1]; cbn [ids map nxt_of Datatypes.fst].
  - exists d1, f1. rewrite dedup_nil. repeat split; auto. cbn in *. rewrite app_nil_r in P1. rewrite P1. apply Permutation_cons_append.
  - assert (Hy : peq f0 y = false).
    { rewrite <- Ef0. replace (nxt_of (ids (pre ++ (n1, v1) :: post)) None) with (nxt_of (ids (pre ++ (n1, v1) :: (y, u) :: post1)) None)
        by (destruct pre; reflexivity). eapply nxt_not_first; [exact R1|left; auto]. }
    rewrite Hy. cbn in Lp.
    destruct (IH (pre ++ [(n1, v1)]) y u post1 d1 k f0 f0) as (d2 & f2 & -> & R2 & F2 & P2 & L2); auto; try lia.
    + rewrite <- app_assoc. exact R1.
    + intros e e' He He'. assert (Hin : In e' post /\ hit t v1 e' = false).
      { rewrite Epost in He'. apply filter_In in He'. rewrite negb_true_iff in He'. exact He'. }
      apply in_app_iff in He. destruct He as [He|[<-|[]]]; [apply Hpre; auto; right; tauto|]. apply Hin.
    + rewrite <- Ef0. destruct pre; reflexivity.
    + exists d2, (f2 ++ f1). rewrite <- app_assoc in R2. split; [reflexivity|]. split; [exact R2|]. split; [rewrite F2, F1, app_assoc; reflexivity|].
      split; [|congruence]. change (vals ((n1, v1) :: post)) with (v1 :: vals post). rewrite P1, P2.
      change (vals ((n1, v1) :: dedup cmp k t ((y, u) :: post1))) with (v1 :: vals (dedup cmp k t ((y, u) :: post1))).
      rewrite <- Permutation_middle. constructor. rewrite !app_assoc. apply Permutation_app_tail. apply Permutation_app_comm.
Qed.

Lemma dedup_nodup t : forall k l, NoDup (ids l) -> NoDup (ids (dedup cmp k t l)).
Proof.
  induction k as [|k IH]; intros [|x l] Hd; try constructor.
  - cbn in Hd. inversion Hd; subst. intro F. apply H1. unfold ids in F. apply in_map_iff in F. destruct F as (e & E & He).
    apply dedup_incl in He. apply filter_In in He. rewrite <- E. apply in_ids. tauto.
  - apply IH. cbn in Hd. inversion Hd; subst. clear - H2. unfold ids in *. induction l as [|y l IH]; cbn; auto.
    cbn in H2. inversion H2; subst. destruct (negb _); cbn; auto. constructor; auto. intro F. apply H1. apply in_map_iff in F.
    destruct F as (e & <- & He). apply filter_In in He. apply in_map. tauto.
Qed.
Lemma nodup_ids_nodup (l : list entry) : NoDup (ids l) -> NoDup l.
Proof. apply NoDup_map_inv. Qed.
Lemma filter_perm {A} (P : A -> bool) l : Permutation l (filter (fun e => negb (P e)) l ++ filter P l).
Proof.
  induction l as [|x l IH]; cbn; auto. destruct (P x); cbn; [|constructor; auto]. rewrite IH at 1. apply Permutation_middle.
Qed.
Lemma gone_perm (l l' : list entry) f : NoDup (ids l) -> NoDup (ids l') -> (forall e, In e l' -> In e l) ->
  Permutation (vals l) (f ++ vals l') -> Permutation f (vals (filter (fun e => negb (existsb (Nat.eqb (fst e)) (ids l'))) l)).
Proof.
  intros Hd Hd' Hin P. apply Permutation_app_inv_r with (vals l'). rewrite <- P.
  eapply Permutation_trans; [apply Permutation_map; apply (filter_perm (fun e => existsb (Nat.eqb (fst e)) (ids l')) l)|].
  rewrite map_app. apply Permutation_app_head. apply Permutation_map. apply NoDup_Permutation.
  - apply NoDup_filter. now apply nodup_ids_nodup.
  - now apply nodup_ids_nodup.
  - intro e. rewrite filter_In, existsb_exists. split.
    + intros (He & x & Hx & E). apply Nat.eqb_eq in E. unfold ids in Hx. apply in_map_iff in Hx. destruct Hx as (e' & <- & He').
      rewrite (nd_eq l e e'); auto.
    + intro He. split; [auto|]. exists (fst e). split; [now apply in_ids|apply Nat.eqb_refl].
Qed.
Lemma dups_ok d l t : Rep d l ->
  let l' := if mptr t || has_eq c then dedup cmp (length l) t l else l in
  exists d' f, remove_duplicates cmp c d t = Ok d' /\ Rep d' l' /\ fr d' = f ++ fr d /\
    Permutation f (freed_by l l' (RemoveDups t)) /\ length (hp d') = length (hp d).
Proof.
  intro R. unfold remove_duplicates. replace (negb (mptr t) && negb (has_eq c)) with (negb (mptr t || has_eq c)) by apply negb_orb.
  destruct (mptr t || has_eq c); cbn [negb freed_by].
  - rewrite (view_first _ _ (rep_view _ _ R)). cbn [bind]. destruct l as [|[x w] l]; cbn [ids map fst nxt_of].
    + exists d, []. repeat split; auto.
    + pose proof (v_nd _ _ (rep_view _ _ R)) as Hd.
      destruct (outer_ok t (S (length (hp d))) [] x w l d (length ((x, w) :: l)) (Some x) (Some x)) as (d' & f & -> & R' & F & P & L); auto.
      * pose proof (v_len _ _ (rep_view _ _ R)) as F. cbn in F. lia.
      * intros e e' [].
      * exists d', f. split; [reflexivity|]. split; [exact R'|]. split; [auto|]. split; [|auto].
        apply gone_perm; auto; [now apply dedup_nodup|intros e He; eapply dedup_incl; eauto].
  - exists d, []. rewrite gone_none by auto. repeat split; auto.
Qed.

(** Insertion *)
Lemma unsorted_rep d l : srt c = false -> Rep d l -> Repu d l.
Proof. intros E R. unfold Rep in R. now rewrite E in R. Qed.
Lemma rep_unsorted d l : srt c = false -> Repu d l -> Rep d l.
Proof. intros E R. unfold Rep. now rewrite E. Qed.
Lemma insert_u d a b v f : srt c = false -> Rep d (a ++ b) ->
  (forall d', node_create c d v = (d', length (hp d)) -> f d' (length (hp d)) = insert_unsorted c d' (length (hp d)) (lst_of None (ids a))) ->
  exists d', inserting c d v f = Ok (RP (Some (length (hp d))), d') /\ Rep d' (a ++ (length (hp d), v) :: b) /\ fr d' = fr d /\
    length (hp d') = S (length (hp d)).
Proof.
  intros Es R Hf. unfold inserting. destruct (node_create c d v) as [d1 n] eqn:E.
  assert (n = length (hp d)) by (unfold node_create in E; congruence). subst n.
  destruct (insert_ok c Hc Es d a b _ v d1 (unsorted_rep _ _ Es R) E) as (d2 & E2 & R2 & F2 & L2).
  rewrite Hf by reflexivity. rewrite E2. cbn [bind]. exists d2. repeat split; auto. now apply rep_unsorted.
Qed.
Lemma create_prev d l v d' x p : srt c = false -> Rep d l -> node_create c d v = (d', length (hp d)) -> In x (ids l) ->
  prev (hp d) 0 x = Ok p -> prev (hp d') 0 x = Ok p.
Proof.
  intros Es R E Hx. unfold node_create in E. injection E as <-. cbn [hp set_hp]. unfold prev, get.
  rewrite nth_error_app1; auto. destruct (Nat.lt_ge_cases x (length (hp d))) as [|F]; auto. exfalso.
  apply (v_alive _ _ (rep_view _ _ R)) in Hx. apply Hx. unfold VL. rewrite (proj2 (nth_error_None _ _)) by lia. reflexivity.
Qed.

Lemma set_first_ok d l n : Rep d l -> In n (ids l) ->
  exists d', set_first c d n = Ok d' /\ Rep d' (if srt c then l else (n, val_of n l) :: drop n l) /\ fr d' = fr d /\ length (hp d') = length (hp d).
Proof.
  intros R Hn. unfold set_first. destruct (srt c) eqn:Es; [exists d; auto|]. cbn [orb].
  pose proof (rep_view _ _ R) as V. rewrite (v_cnt _ _ V).
  destruct (in_split_ids _ _ Hn (v_nd _ _ V)) as (a & v & b & El & Ha & Hb).
  assert (Ev : val_of n l = v) by (rewrite El; now apply val_of_mid). assert (Ed : drop n l = a ++ b) by (rewrite El; now apply drop_mid).
  destruct (Nat.leb_spec (length l) 1) as [H1|H1].
  { exists d. rewrite Ev, Ed. rewrite El, app_length in H1. cbn in H1. destruct a; [|cbn in H1; lia]. destruct b; [|cbn in H1; lia].
    subst l. auto. }
  rewrite Hc. rewrite (view_first _ _ V). cbn [bind].
  destruct l as [|[x w] m] eqn:Em; [destruct Hn|]. cbn [ids map fst nxt_of].
  destruct (Nat.eq_dec n x) as [->|Hne].
  - unfold move_before. rewrite Nat.eqb_refl. cbn [orb bind]. exists d. split; [reflexivity|]. rewrite Ev, Ed.
    destruct a as [|[z u] a]; cbn in El; [injection El as -> ->; auto|]. exfalso. apply Ha. left. cbn. congruence.
  - destruct (move_before_u c Es d _ n x (unsorted_rep _ _ Es R) Hn) as (d' & -> & R' & F & L); [left; auto|auto|].
    cbn [bind]. exists d'. split; [reflexivity|]. split; [|auto]. apply rep_unsorted; auto. rewrite Ev in *.
    rewrite Ed in *. destruct a as [|[z u] a]; cbn in El; injection El as -> -> El; [congruence|].
    replace (put_before z (n, v) (((z, u) :: a) ++ b)) with ((n, v) :: ((z, u) :: a) ++ b) in R'; [exact R'|].
    pose proof (v_nd _ _ V) as Hd. cbn in Hd. inversion Hd; subst. symmetry. apply (put_before_mid z (n, v) [] u (a ++ b)); [intros []|].
    intro F2. apply H2. fold (ids (a ++ (n, v) :: b)). rewrite ids_app in *. cbn. rewrite in_app_iff in *. cbn. tauto.
Qed.
Lemma lst_last_id (l : list entry) x : lst_of None (ids l) = Some x -> exists a w, l = a ++ [(x, w)].
Proof.
  destruct l as [|[y w] l] using rev_ind; [discriminate|]. rewrite ids_app, lst_app. cbn. intro E. injection E as ->. eauto.
Qed.
Lemma set_last_ok d l n : Rep d l -> In n (ids l) ->
  exists d', set_last c d n = Ok d' /\ Rep d' (if srt c then l else drop n l ++ [(n, val_of n l)]) /\ fr d' = fr d /\ length (hp d') = length (hp d).
Proof.
  intros R Hn. unfold set_last. destruct (srt c) eqn:Es; [exists d; auto|]. cbn [orb].
  pose proof (rep_view _ _ R) as V. rewrite (v_cnt _ _ V).
  destruct (in_split_ids _ _ Hn (v_nd _ _ V)) as (a & v & b & El & Ha & Hb).
  assert (Ev : val_of n l = v) by (rewrite El; now apply val_of_mid). assert (Ed : drop n l = a ++ b) by (rewrite El; now apply drop_mid).
  destruct (Nat.leb_spec (length l) 1) as [H1|H1].
  { exists d. rewrite Ev, Ed. rewrite El, app_length in H1. cbn in H1. destruct a; [|cbn in H1; lia]. destruct b; [|cbn in H1; lia].
    subst l. auto. }
  rewrite Hc, (v_tl _ _ V). destruct (lst_of None (ids l)) as [x|] eqn:Ex.
  2: { apply lst_none in Ex. rewrite Ex in Hn. destruct Hn. }
  destruct (lst_last_id _ _ Ex) as (p & w & Ep).
  destruct (Nat.eq_dec n x) as [->|Hne].
  - unfold move_after. rewrite Nat.eqb_refl. cbn [orb bind]. exists d. split; [reflexivity|]. rewrite Ev, Ed.
    destruct b as [|e b] using rev_ind; [rewrite app_nil_r, <- El; auto|]. exfalso. clear IHb.
    rewrite Ep in El. replace (a ++ (x, v) :: b ++ [e]) with ((a ++ (x, v) :: b) ++ [e]) in El by (rewrite <- app_assoc; reflexivity).
    apply app_inj_tail in El. destruct El as [_ <-]. apply Hb. rewrite ids_app. apply in_or_app; right; left; auto.
  - destruct (move_after_u c Es d _ n x (unsorted_rep _ _ Es R) Hn) as (d' & -> & R' & F & L); [apply lst_in' in Ex; exact Ex|auto|].
    cbn [bind]. exists d'. split; [reflexivity|]. split; [|auto]. apply rep_unsorted; auto. rewrite Ev in *.
    rewrite Ed in *. destruct b as [|e b] using rev_ind.
    { exfalso. rewrite Ep in El. apply app_inj_tail in El. destruct El as [_ E]. congruence. }
    clear IHb. assert (E : e = (x, w)).
    { rewrite Ep in El. replace (a ++ (n, v) :: b ++ [e]) with ((a ++ (n, v) :: b) ++ [e]) in El by (rewrite <- app_assoc; reflexivity).
      apply app_inj_tail in El. destruct El as [_ E]. congruence. }
    subst e. replace (put_after x (n, v) (a ++ b ++ [(x, w)])) with ((a ++ b ++ [(x, w)]) ++ [(n, v)]) in R'; [exact R'|].
    pose proof (v_nd _ _ V) as Hd. rewrite El in Hd. symmetry. rewrite !app_assoc. rewrite <- (app_assoc (a ++ b) [(x, w)]). cbn [app].
    apply (put_after_mid x (n, v) (a ++ b) w []); [|intros []].
    replace (a ++ (n, v) :: b ++ [(x, w)]) with ((a ++ (n, v) :: b) ++ (x, w) :: []) in Hd by (rewrite <- app_assoc; reflexivity).
    rewrite ids_app in Hd. cbn in Hd. apply NoDup_remove_2 in Hd. rewrite app_nil_r, ids_app in Hd. cbn in Hd.
    rewrite ids_app. rewrite in_app_iff in *. cbn in Hd. tauto.
Qed.

Lemma put_ids_before n e l x : In x (ids l) -> In x (ids (put_before n e l)).
Proof.
  unfold put_before. induction l as [|y l IH]; cbn; auto. intros [<-|H]; destruct (is_node n y); cbn; auto.
Qed.
Lemma put_ids_after n e l x : In x (ids l) -> In x (ids (put_after n e l)).
Proof.
  unfold put_after. induction l as [|y l IH]; cbn; auto. intros [<-|H]; destruct (is_node n y); cbn; auto.
Qed.
Lemma put_id_before n e l : In n (ids l) -> In (fst e) (ids (put_before n e l)).
Proof.
  unfold put_before. induction l as [|y l IH]; cbn; auto. intros [<-|H]; unfold is_node in *.
  - rewrite Nat.eqb_refl. cbn. auto.
  - destruct (fst y =? n); cbn; auto.
Qed.
Lemma put_id_after n e l : In n (ids l) -> In (fst e) (ids (put_after n e l)).
Proof.
  unfold put_after. induction l as [|y l IH]; cbn; auto. intros [<-|H]; unfold is_node in *.
  - rewrite Nat.eqb_refl. cbn. auto.
  - destruct (fst y =? n); cbn; auto.
Qed.
Lemma drop_in n l x : In x (ids l) -> x <> n -> In x (ids (drop n l)).
Proof.
  intros H Hn. unfold ids in *. apply in_map_iff in H. destruct H as (e & <- & He). apply in_map. apply filter_In. split; auto.
  unfold is_node. apply negb_true_iff. now apply Nat.eqb_neq.
Qed.

Lemma step_ok d l o : Rep d l -> allowed l o ->
  exists r d' l' f, step cmp c lev d o = Ok (r, d') /\ Rep d' l' /\ rel cmp c (length (hp d)) l o r l' f /\
    fr d' = f ++ fr d /\ length (hp d') = fresh_after (length (hp d)) r o.
Proof.
  intros R Ha. pose proof (rep_view _ _ R) as V.
  assert (Hself : filter (fun e : entry => negb (existsb (Nat.eqb (fst e)) (ids l))) l = []) by (apply gone_none; auto).
  assert (Hfr : freed_by l l o = []) by (destruct o; cbn; rewrite ?Hself; auto).
  assert (same : forall r, (r, l) = ustep cmp c (length (hp d)) l o -> (forall v, o <> Insert v) ->
            step cmp c lev d o = Ok (r, d) -> fresh_after (length (hp d)) r o = length (hp d) ->
            exists r d' l' f, step cmp c lev d o = Ok (r, d') /\ Rep d' l' /\ rel cmp c (length (hp d)) l o r l' f /\
            fr d' = f ++ fr d /\ length (hp d') = fresh_after (length (hp d)) r o).
  { intros r E Hni Hst Hfa. exists r, d, l, []. split; [auto|]. split; [auto|]. split; [|split; auto].
    split; [rewrite Hfr; auto|]. split; [apply (rep_sorted _ _ R)|]. destruct o; auto. exfalso. eapply Hni; eauto. }
  assert (other : forall r d' l' f, (r, l') = ustep cmp c (length (hp d)) l o -> (srt c = true -> forall v, o <> Insert v) ->
            Permutation f (freed_by l l' o) -> Rep d' l' -> rel cmp c (length (hp d)) l o r l' f).
  { intros r d' l' f E Hni Hfr' R'. split; [auto|]. split; [apply (rep_sorted _ _ R')|]. destruct o; auto.
    destruct (srt c); auto. exfalso. eapply Hni; eauto. }
  assert (ins0 : forall (v : N) n, In n (ids l) -> exists a w b, l = a ++ (n, w) :: b /\ ~ In n (ids a) /\ ~ In n (ids b)).
  { intros v n Hn. destruct (in_split_ids _ _ Hn (v_nd _ _ V)) as (a & w & b & X). eauto. }
  destruct o; cbn [allowed] in Ha.
  - (* Insert *)
    cbn [step]. destruct (N.eqb_spec v 0) as [->|Hv].
    { exists (RP None), d, l, []. split; [auto|]. split; [auto|]. split; [|split; auto]. split; [cbn; rewrite Hself; auto|].
      split; [apply (rep_sorted _ _ R)|]. cbn. destruct (srt c); auto. }
    destruct (srt c) eqn:Es.
    + unfold inserting. destruct (node_create c d v) as [d1 n] eqn:E.
      assert (R0 : Reps cmp d l) by (unfold Rep in R; now rewrite Es in R).
      destruct (insert_s cmp (cmp_pre Es) c Es lev d l n v d1 R0 E) as (d2 & a & b & E2 & El & R2 & -> & F2 & L2).
      unfold insert_node. rewrite Es, E2. cbn [bind]. eexists _, d2, (a ++ (length (hp d), v) :: b), []. split; [reflexivity|].
      split; [unfold Rep; rewrite Es; auto|]. split; [|split; auto]. split.
      { cbn [freed_by]. rewrite gone_none; auto. intro x. rewrite El, !ids_app. cbn. rewrite !in_app_iff. cbn. tauto. }
      split; [intros _; apply (r_sorted _ _ _ R2)|]. cbn. rewrite Es, (proj2 (N.eqb_neq v 0) Hv). split; [reflexivity|].
      exists (length a). unfold insert_at. rewrite El, firstn_app, skipn_app, firstn_all, skipn_all, Nat.sub_diag, app_nil_r. reflexivity.
    + destruct (insert_u d l [] v (insert_node cmp c lev) Es) as (d' & -> & R' & F & L).
      { rewrite app_nil_r. exact R. }
      { intros d' E. unfold insert_node. rewrite Es. f_equal. unfold node_create in E. injection E as <-. cbn. apply (v_tl _ _ V). }
      eexists _, d', _, []. split; [reflexivity|]. split; [exact R'|]. split; [|split; auto].
      apply (other _ d'); auto; try congruence.
      * cbn. rewrite (proj2 (N.eqb_neq v 0) Hv). reflexivity.
      * cbn [freed_by]. rewrite gone_none; auto. intros x Hx. rewrite ids_app. apply in_or_app; auto.
  - (* InsertFirst *)
    destruct ((v =? 0)%N || srt c) eqn:E0.
    { apply (same (RP None)); auto; cbn; try rewrite E0; auto; discriminate. }
    cbn [step]. rewrite E0. apply orb_false_iff in E0. destruct E0 as [Hv Es].
    destruct (insert_u d [] l v (fun d n => insert_unsorted c d n None) Es R) as (d' & -> & R' & F & L); [auto|].
    eexists _, d', _, []. split; [reflexivity|]. split; [exact R'|]. split; [|split; auto].
    apply (other _ d'); auto; try congruence; [cbn; rewrite Hv, Es; reflexivity|cbn [freed_by]]. rewrite gone_none; auto. intros x Hx. right; auto.
  - (* InsertBefore *)
    destruct ((v =? 0)%N || srt c) eqn:E0.
    { apply (same (RP None)); auto; cbn; try rewrite E0; auto; discriminate. }
    cbn [step]. rewrite E0. apply orb_false_iff in E0. destruct E0 as [Hv Es].
    destruct (ins0 v n Ha) as (a & w & b & El & Hna & Hnb).
    destruct (insert_u d a ((n, w) :: b) v (fun d n' => do p <- prev (hp d) 0 n; insert_unsorted c d n' p) Es) as (d' & -> & R' & F & L).
    { rewrite <- El. exact R. }
    { intros d' E. rewrite (create_prev d l v d' n (lst_of None (ids a)) Es R E Ha); [reflexivity|].
      rewrite El in R. apply (rep_at _ _ _ _ _ R). }
    assert (Ep : put_before n (length (hp d), v) l = a ++ (length (hp d), v) :: (n, w) :: b) by (rewrite El; apply put_before_mid; auto).
    eexists _, d', _, []. split; [reflexivity|]. split; [exact R'|]. split; [|split; auto].
    apply (other _ d'); auto; try congruence; [cbn; rewrite Hv, Es, Ep; reflexivity|cbn [freed_by]]. rewrite <- Ep. rewrite gone_none; auto. intros x Hx. now apply put_ids_before.
  - (* InsertAfter *)
    destruct ((v =? 0)%N || srt c) eqn:E0.
    { apply (same (RP None)); auto; cbn; try rewrite E0; auto; discriminate. }
    cbn [step]. rewrite E0. apply orb_false_iff in E0. destruct E0 as [Hv Es].
    destruct (ins0 v n Ha) as (a & w & b & El & Hna & Hnb).
    destruct (insert_u d (a ++ [(n, w)]) b v (fun d n' => insert_unsorted c d n' (Some n)) Es) as (d' & -> & R' & F & L).
    { rewrite <- app_assoc. cbn. rewrite <- El. exact R. }
    { intros d' E. rewrite ids_app, lst_app. reflexivity. }
    rewrite <- app_assoc in R'. cbn [app] in R'.
    assert (Ep : put_after n (length (hp d), v) l = a ++ (n, w) :: (length (hp d), v) :: b) by (rewrite El; apply put_after_mid; auto).
    eexists _, d', _, []. split; [reflexivity|]. split; [exact R'|]. split; [|split; auto].
    apply (other _ d'); auto; try congruence; [cbn; rewrite Hv, Es, Ep; reflexivity|cbn [freed_by]]. rewrite <- Ep. rewrite gone_none; auto. intros x Hx. now apply put_ids_after.
  - (* SetFirst *)
    cbn [step]. destruct (set_first_ok d l n R Ha) as (d' & -> & R' & F & L). cbn [bind].
    eexists _, d', _, []. split; [reflexivity|]. split; [exact R'|]. split; [|split; auto].
    apply (other _ d'); auto; try congruence. cbn [freed_by]. rewrite gone_none; auto. intros x Hx. destruct (srt c); auto.
    destruct (Nat.eq_dec x n) as [->|]; [left; auto|right; now apply drop_in].
  - (* SetLast *)
    cbn [step]. destruct (set_last_ok d l n R Ha) as (d' & -> & R' & F & L). cbn [bind].
    eexists _, d', _, []. split; [reflexivity|]. split; [exact R'|]. split; [|split; auto].
    apply (other _ d'); auto; try congruence. cbn [freed_by]. rewrite gone_none; auto. intros x Hx. destruct (srt c); auto.
    rewrite ids_app. apply in_or_app. destruct (Nat.eq_dec x n) as [->|]; [right; left; auto|left; now apply drop_in].
  - (* MoveBefore *)
    destruct Ha as [Hm Hb]. destruct ((b =? m) || srt c) eqn:E0.
    { apply (same (RB false)); auto; cbn; try discriminate; [|unfold move_before; rewrite E0; reflexivity].
      rewrite (Nat.eqb_sym m b), E0. reflexivity. }
    cbn [step]. pose proof E0 as E1. apply orb_false_iff in E1. destruct E1 as [E1 Es]. apply Nat.eqb_neq in E1.
    destruct (move_before_u c Es d l m b (unsorted_rep _ _ Es R) Hm Hb) as (d' & -> & R' & F & L); [auto|]. cbn [bind].
    apply rep_unsorted in R'; auto. eexists _, d', _, []. split; [reflexivity|]. split; [exact R'|]. split; [|split; auto].
    apply (other _ d'); auto; try congruence; [cbn; rewrite (Nat.eqb_sym m b), E0; reflexivity|cbn [freed_by]]. rewrite gone_none; auto. intros x Hx.
    destruct (Nat.eq_dec x m) as [->|]; [|apply put_ids_before; now apply drop_in].
    apply (put_id_before b (m, val_of m l)). now apply drop_in.
  - (* MoveAfter *)
    destruct Ha as [Hm Hb]. destruct ((a =? m) || srt c) eqn:E0.
    { apply (same (RB false)); auto; cbn; try discriminate; [|unfold move_after; rewrite E0; reflexivity].
      rewrite (Nat.eqb_sym m a), E0. reflexivity. }
    cbn [step]. pose proof E0 as E1. apply orb_false_iff in E1. destruct E1 as [E1 Es]. apply Nat.eqb_neq in E1.
    destruct (move_after_u c Es d l m a (unsorted_rep _ _ Es R) Hm Hb) as (d' & -> & R' & F & L); [auto|]. cbn [bind].
    apply rep_unsorted in R'; auto. eexists _, d', _, []. split; [reflexivity|]. split; [exact R'|]. split; [|split; auto].
    apply (other _ d'); auto; try congruence; [cbn; rewrite (Nat.eqb_sym m a), E0; reflexivity|cbn [freed_by]]. rewrite gone_none; auto. intros x Hx.
    destruct (Nat.eq_dec x m) as [->|]; [|apply put_ids_after; now apply drop_in].
    apply (put_id_after a (m, val_of m l)). now apply drop_in.
  - (* Len *) apply (same (RN (length l))); auto; cbn; [discriminate|]. now rewrite (v_cnt _ _ V).
  - (* Count *)
    cbn [step]. destruct (count_ok d l v t R) as (d' & -> & R' & F & L). cbn [bind].
    eexists _, d', l, []. split; [reflexivity|]. split; [exact R'|]. split; [|split; auto].
    apply (other _ d'); auto; try congruence. cbn. now rewrite Hself.
  - (* First *) apply (same (RP (hd_error (ids l)))); auto; cbn [step]; [discriminate|]. rewrite (view_first _ _ V), hd_error_nxt. reflexivity.
  - (* Last *) apply (same (RP (hd_error (rev (ids l))))); auto; cbn [step]; [discriminate|]. rewrite (v_tl _ _ V), hd_error_nxt, nxt_rev. reflexivity.
  - (* Find *) apply (same (RP (first_hit cmp c t v l))); auto; cbn [step]; [discriminate|]. rewrite (rep_find _ _ _ _ R). reflexivity.
  - (* TakeNode *)
    destruct (ins0 0%N n Ha) as (a & w & b & El & Hna & Hnb). rewrite El in R.
    destruct (rep_remove _ _ _ _ _ false R) as (d' & E & R' & F & L). cbn [step]. rewrite E. cbn [bind].
    eexists _, d', _, []. split; [reflexivity|]. split; [exact R'|]. split; [|split; auto].
    apply (other _ d'); auto; try congruence. cbn. rewrite El, val_of_mid, drop_mid by auto. reflexivity.
  - (* RemoveNode *)
    destruct (ins0 0%N n Ha) as (a & w & b & El & Hna & Hnb). pose proof R as R0. rewrite El in R0.
    destruct (rep_remove _ _ _ _ _ true R0) as (d' & E & R' & F & L). cbn [step]. rewrite E. cbn [bind].
    eexists _, d', _, [w]. split; [reflexivity|]. split; [exact R'|]. split; [|split; auto].
    assert (Ed : drop n l = a ++ b) by (rewrite El; apply drop_mid; auto).
    apply (other _ d'); auto; try congruence; [cbn; rewrite Ed; reflexivity|cbn [freed_by]].
    rewrite <- Ed, drop_filter, gone_filter by apply (v_nd _ _ V).
    replace (filter (fun e : entry => negb (negb (fst e =? n))) l) with (filter (is_node n) l)
      by (apply filter_ext; intro e; unfold is_node; rewrite negb_involutive; reflexivity).
    rewrite El, filter_app. rewrite (filter_none (is_node n) a) by (intros e He; apply (notin_is_node n a); auto). cbn [filter app].
    unfold is_node at 1. cbn [fst]. rewrite Nat.eqb_refl. rewrite (filter_none (is_node n) b) by (intros e He; apply (notin_is_node n b); auto). reflexivity.
  - (* RemoveVal *)
    cbn [step]. destruct (remove_val_ok d l v t R) as (d' & f & -> & R' & F & P & L). cbn [bind].
    eexists _, d', _, f. split; [reflexivity|]. split; [exact R'|]. split; [|split; auto].
    apply (other _ d'); auto; congruence.
  - (* RemoveDups *)
    cbn [step]. destruct (dups_ok d l t R) as (d' & f & -> & R' & F & P & L). cbn [bind].
    eexists _, d', _, f. split; [reflexivity|]. split; [exact R'|]. split; [|split; auto].
    apply (other _ d'); auto; congruence.
  - (* Next *)
    destruct (ins0 0%N n Ha) as (a & w & b & El & Hna & Hnb). apply (same (RP (succ n l))); auto; cbn [step]; [discriminate|].
    rewrite El in *. destruct (rep_at _ _ _ _ _ R) as (_ & -> & _). rewrite succ_mid by auto. reflexivity.
  - (* Prev *)
    destruct (ins0 0%N n Ha) as (a & w & b & El & Hna & Hnb). apply (same (RP (succ n (rev l)))); auto; cbn [step]; [discriminate|].
    rewrite El in *. destruct (rep_at _ _ _ _ _ R) as (_ & _ & ->). rewrite rev_app_distr. cbn [rev]. rewrite <- app_assoc. cbn [app].
    rewrite succ_mid by (rewrite ids_rev, <- in_rev; auto). rewrite ids_rev, nxt_rev. reflexivity.
  - (* Val *)
    destruct (ins0 0%N n Ha) as (a & w & b & El & Hna & Hnb). apply (same (RV (val_of n l))); auto; cbn [step]; [discriminate|].
    rewrite El in *. destruct (rep_at _ _ _ _ _ R) as (-> & _ & _). rewrite val_of_mid by auto. reflexivity.
Qed.

Lemma run_ok : forall ops d l, Rep d l -> safe cmp c (length (hp d)) l ops ->
  exists rs d' l' f, run cmp c lev ops d = Ok (rs, d') /\ Rep d' l' /\ fr d' = f ++ fr d /\
    chain cmp c (length (hp d)) l ops rs (length (hp d')) l' f.
Proof.
  induction ops as [|o ops IH]; intros d l R Hs.
  - exists [], d, l, []. repeat split; auto. constructor.
  - destruct Hs as [Ha Hs]. destruct (step_ok d l o R Ha) as (r & d1 & l1 & f1 & E & R1 & Hrel & F1 & L1).
    cbn [run]. rewrite E. cbn [bind]. specialize (Hs _ _ _ Hrel). rewrite <- L1 in Hs.
    destruct (IH d1 l1 R1 Hs) as (rs & d2 & l2 & f2 & -> & R2 & F2 & C2). cbn [bind].
    exists (r :: rs), d2, l2, (f2 ++ f1). split; [reflexivity|]. split; [auto|]. split; [rewrite F2, F1, app_assoc; reflexivity|].
    econstructor; [exact Hrel|]. rewrite <- L1. exact C2.
Qed.

Lemma walk_ok (st : nat -> res ptr) : forall l fuel, length l <= fuel -> (forall a x b, l = a ++ x :: b -> st x = Ok (nxt_of b None)) ->
  walk fuel st (nxt_of l None) = Ok l.
Proof.
  induction l as [|x l IH]; intros fuel Hf H; [destruct fuel; reflexivity|].
  destruct fuel as [|fuel]; [cbn in Hf; lia|]. cbn [nxt_of walk]. rewrite (H [] x l) by reflexivity. cbn [bind].
  rewrite IH; [reflexivity|cbn in Hf; lia|]. intros a y b ->. apply (H (x :: a) y b). reflexivity.
Qed.
Lemma rep_forwards d l : Rep d l -> forwards d = Ok (ids l).
Proof.
  intro R. pose proof (rep_view _ _ R) as V. unfold forwards. rewrite (view_first _ _ V). cbn [bind].
  apply walk_ok; [rewrite (v_cnt _ _ V); unfold ids; rewrite map_length; lia|].
  intros a x b E. pose proof (v_seg _ _ V) as S. rewrite E in S. apply seg_app in S. destruct S as (_ & N & _). now apply next_ok.
Qed.
Lemma rep_backwards d l : Rep d l -> backwards d = Ok (rev (ids l)).
Proof.
  intro R. pose proof (rep_view _ _ R) as V. unfold backwards. rewrite (v_tl _ _ V), <- nxt_rev.
  apply walk_ok; [rewrite rev_length, (v_cnt _ _ V); unfold ids; rewrite map_length; lia|].
  intros a x b E. apply (f_equal (@rev _)) in E. rewrite rev_involutive, rev_app_distr in E. cbn in E. rewrite <- app_assoc in E. cbn in E.
  pose proof (v_seg _ _ V) as S. rewrite E in S. apply seg_app in S. destruct S as (_ & _ & P & _). rewrite <- nxt_rev, rev_involutive in P. now apply prev_ok.
Qed.
End Step.

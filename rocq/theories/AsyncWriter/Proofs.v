(** Proofs about the asynchronous writer. *)
From Verif Require Import Base.Lib AsyncWriter.Model AsyncWriter.Spec.
Local Open Scope N_scope.

Lemma sumN_app a b : sumN (a ++ b) = sumN a + sumN b.
Proof. induction a; cbn [app sumN]; lia. Qed.
Lemma size_app a b : size (a ++ b) = size a + size b.
Proof. unfold size. rewrite map_app. apply sumN_app. Qed.
Lemma count_app {A} (a b : list A) : count (a ++ b) = count a + count b.
Proof. unfold count. rewrite app_length. lia. Qed.
Lemma taken_app a b : taken (a ++ b) = taken a ++ taken b. Proof. apply flat_map_app. Qed.
Lemma printed_app a b : printed (a ++ b) = printed a ++ printed b. Proof. apply flat_map_app. Qed.
Lemma reported_app a b : reported (a ++ b) = reported a + reported b.
Proof. unfold reported. rewrite map_app. apply sumN_app. Qed.
Lemma lors_app a b : lors (a ++ b) = N.lor (lors a) (lors b).
Proof. induction a; [reflexivity|]. cbn [app lors fold_right] in *. rewrite <- N.lor_assoc. f_equal. exact IHa. Qed.
Lemma asked_app a b : asked (a ++ b) = N.lor (asked a) (asked b).
Proof. unfold asked. rewrite map_app. apply lors_app. Qed.
Lemma given_app a b : given (a ++ b) = N.lor (given a) (given b).
Proof. unfold given. rewrite map_app. apply lors_app. Qed.
Lemma subseq_more a b c : subseq a b -> subseq a (b ++ c).
Proof. intros H. induction H; cbn; [induction c; [constructor|apply sub_skip; assumption]|apply sub_skip; assumption|apply sub_take; assumption]. Qed.
Lemma subseq_snoc a b m : subseq a b -> subseq (a ++ [m]) (b ++ [m]).
Proof. intros H. induction H; cbn; [apply sub_take, sub_nil|apply sub_skip; assumption|apply sub_take; assumption]. Qed.

Lemma trim_spec : forall l b d mx l' b' d', trim l b d mx = Some (l', b', d') ->
  exists x, l = x ++ l' /\ d' = d + count x /\ (b = size l -> b' = size l') /\ b' <= mx.
Proof.
  induction l as [|o l IH]; intros b d mx l' b' d' E; cbn [trim] in E; destruct (N.leb_spec b mx) as [L|L]; try discriminate.
  1,2: injection E as <- <- <-; exists []; repeat split; auto; unfold count; cbn; lia.
  destruct (IH _ _ _ _ _ _ E) as (x & -> & -> & S & B). exists (o :: x). repeat split; auto.
  - unfold count. cbn [length]. lia.
  - intros ->. apply S. unfold size, len. cbn [app map sumN]. lia.
Qed.
Lemma trim_total : forall l d mx, trim l (size l) d mx <> None.
Proof.
  induction l as [|o l IH]; intros d mx; cbn [trim].
  - destruct (N.leb_spec (size []) mx) as [L|L]; [discriminate|]. exfalso. change (size []) with 0 in L. lia.
  - destruct (N.leb_spec (size (o :: l)) mx) as [L|L]; [discriminate|]. replace (size (o :: l) - len o) with (size l) by (unfold size, len; cbn [map sumN]; lia). apply IH.
Qed.
Lemma trim_keeps : forall l m d mx l' b' d', len m <= mx -> trim (l ++ [m]) (size (l ++ [m])) d mx = Some (l', b', d') -> exists l0, l' = l0 ++ [m].
Proof.
  induction l as [|o l IH]; intros m d mx l' b' d' L E; cbn [app trim] in E.
  - destruct (N.leb_spec (size [m]) mx) as [L1|L1]; [injection E as <- <- <-; exists []; reflexivity|]. exfalso. unfold size, len in *. cbn [map sumN] in L1. lia.
  - destruct (size (o :: l ++ [m]) <=? mx); [injection E as <- <- <-; exists (o :: l); reflexivity|].
    replace (size (o :: l ++ [m]) - len o) with (size (l ++ [m])) in E by (unfold size, len; cbn [map sumN]; lia). eapply IH; eauto.
Qed.

(** ** Order *)
Definition order (tr : list ev) (s : wr) : Prop := exists p mid,
  taken tr = p ++ held s ++ mid ++ q s /\ subseq (printed tr) p /\ (held s = [] -> mid = []) /\ (nd s = 0 -> mid = []).
Lemma order_same tr t s s' : order tr s -> taken t = [] -> printed t = [] -> held s' = held s -> q s' = q s -> nd s' = nd s -> order (tr ++ t) s'.
Proof.
  intros (p & mid & T & P & H1 & H2) A B C D E. exists p, mid. rewrite taken_app, printed_app, A, B, !app_nil_r, C, D, E. auto.
Qed.
Lemma taken_rep k a : taken (if k =? 0 then [] else [EReport k a]) = [] /\ printed (if k =? 0 then [] else [EReport k a]) = [].
Proof. destruct (k =? 0); split; reflexivity. Qed.
Lemma pop_cases s a s' t : st s <> Dead -> pop s a = (s', t) ->
  (s' = s /\ t = [] /\ (wk s = Ready -> q s = [] /\ st s = RUNNING /\ (force s = false \/ cmd s = 0))) \/
  (wk s = Ready /\ (
   (s' = W (q s) (sb s) (nd s) (maxb s) (cmd s) (force s) true STOPPED Gone /\ t = [] /\ st s = STOPPED) \/
   (exists k b, s' = W [] b (if a then 0 else k) (maxb s) (cmd s) (force s) true Dead Gone /\ t = (if k =? 0 then [] else [EReport k a]) /\
        k = nd s + count (q s) /\ (sb s = size (q s) -> b = 0)) \/
   (exists m l, q s = m :: l /\ s' = W l (sb s - len m) 0 (maxb s) 0 (force s) (cdone s) (st s) (Got (Some m) (nd s) (cmd s)) /\ t = []) \/
   (q s = [] /\ s' = W [] (sb s) (nd s) (maxb s) 0 (force s) (cdone s) (st s) (Got None 0 (cmd s)) /\ t = []))).
Proof.
  intros ND E. unfold pop in E. destruct (wk s) eqn:K; try (injection E as <- <-; left; repeat split; auto; discriminate).
  destruct (st s) eqn:ES; destruct (q s) as [|m l] eqn:Q; cbn [andb] in E; try congruence.
  - destruct (negb (force s) || (cmd s =? 0)) eqn:F.
    + injection E as <- <-. left. repeat split. apply orb_true_iff in F. destruct F as [F|F]; [left; destruct (force s); [discriminate|reflexivity]|right; apply N.eqb_eq, F].
    + injection E as <- <-. right. split; [auto|]. right. right. right. repeat split.
  - injection E as <- <-. right. split; [auto|]. right. right. left. exists m, l. repeat split.
  - injection E as <- <-. right. split; [auto|]. left. repeat split.
  - injection E as <- <-. right. split; [auto|]. left. repeat split.
  - injection E as <- <-. right. split; [auto|]. right. left. exists (nd s), (sb s). repeat split; auto. unfold count. cbn. lia.
  - injection E as <- <-. right. split; [auto|]. right. right. left. exists m, l. repeat split.
  - injection E as <- <-. right. split; [auto|]. right. left. exists (nd s + N.of_nat (length (@nil msg))), 0. repeat split.
  - injection E as <- <-. right. split; [auto|]. right. left. exists (nd s + N.of_nat (length (m :: l))), 0. repeat split.
Qed.
Lemma order_step tr s o s' t : order tr s -> step s o = Some (s', t) -> order (tr ++ t) s'.
Proof.
  intros OR E. assert (O := OR). destruct OR as (p & mid & T & P & H1 & H2).
  assert (Same : forall s' t, taken t = [] -> printed t = [] -> held s' = held s -> q s' = q s -> nd s' = nd s -> order (tr ++ t) s') by (intros; eapply order_same; eauto).
  unfold step in E. destruct (st s) eqn:ES; [| | | |injection E as <- <-; apply Same; reflexivity].
  all: destruct o as [m|c f|c|n| | |f|a|a1 a2|].
  all: try (injection E as <- <-; apply Same; try reflexivity; destruct (wk s) eqn:K; unfold held; cbn; rewrite ?K; reflexivity).
  all: try (unfold set_command in E; rewrite ES in E; cbn [in_flush] in E; injection E as <- <-; apply Same; reflexivity).
  (* write *)
  all: try (unfold write in E; rewrite ES in E; cbn [in_flush] in E; destruct (len m =? 0); injection E as <- <-; apply Same; reflexivity).
  all: try (unfold write in E; rewrite ES in E; cbn [in_flush] in E;
    destruct (len m =? 0); [injection E as <- <-; apply Same; reflexivity|]; try (injection E as <- <-; apply Same; reflexivity);
    destruct (maxb s <? len m); [injection E as <- <-; exists p, mid; rewrite taken_app, printed_app; cbn [taken printed flat_map]; rewrite !app_nil_r;
       repeat split; auto; cbn [nd]; lia|];
    destruct (trim _ _ _ _) as [[[l b] d]|] eqn:Tr; [|discriminate]; injection E as <- <-;
    destruct (trim_spec _ _ _ _ _ _ _ Tr) as (x & X & -> & _ & _);
    rewrite <- (app_nil_r (printed tr)) in P;
    assert (TT : taken (tr ++ [EWrite m true]) = p ++ held s ++ (mid ++ x) ++ l) by
      (rewrite taken_app, T, <- !app_assoc; cbn [taken flat_map app]; rewrite <- X; reflexivity);
    assert (PP : printed (tr ++ [EWrite m true]) = printed tr ++ []) by (rewrite printed_app; reflexivity);
    destruct (held s) as [|hm hl] eqn:Hd;
    [exists (p ++ mid ++ x), []; rewrite TT, PP; unfold held in *; cbn [wk q]; rewrite Hd; cbn [app]; rewrite <- !app_assoc; repeat split; auto using subseq_more
    |exists p, (mid ++ x); rewrite TT, PP; unfold held in *; cbn [wk q nd]; rewrite Hd; repeat split; auto; [discriminate|];
     intros Z; rewrite H2 by lia; destruct x; [reflexivity|unfold count in Z; cbn [length] in Z; lia]]).
  (* pop *)
  all: try (injection E as E; assert (ND : st s <> Dead) by (rewrite ES; discriminate);
    destruct (pop_cases _ _ _ _ ND E) as [(-> & -> & _)|(K & C)]; [apply Same; reflexivity|];
    assert (Hd : held s = []) by (unfold held; rewrite K; reflexivity); rewrite Hd in *; rewrite (H1 eq_refl) in *; cbn [app] in T;
    destruct C as [(-> & -> & _)|[(k & b & -> & -> & _)|[(m & l & Q & -> & ->)|(Q & -> & ->)]]];
    [apply Same; reflexivity
    |destruct (taken_rep k a) as [Z1 Z2]; exists (p ++ q s), []; rewrite taken_app, printed_app, Z1, Z2, !app_nil_r, T; unfold held; cbn [wk q app]; rewrite ?app_nil_r; repeat split; auto using subseq_more
    |exists p, []; rewrite app_nil_r, T, Q; unfold held; cbn [wk q app]; repeat split; auto
    |apply Same; try reflexivity; cbn; rewrite Q; reflexivity]).
  (* call *)
  all: try (unfold call in E; destruct (wk s) as [| |m k c|] eqn:K; try (injection E as <- <-; apply Same; reflexivity);
    assert (Hd : held s = match m with Some x => [x] | None => [] end) by (unfold held; rewrite K; destruct m; reflexivity);
    destruct (taken_rep k a1) as [R1 R2];
    set (go := (k =? 0) || a1) in *; injection E as <- <-;
    assert (TT : taken (tr ++ (if k =? 0 then [] else [EReport k a1]) ++ (if go then [EOut m c a2] else [])) = taken tr) by
      (rewrite !taken_app, R1; destruct go; cbn; apply app_nil_r);
    assert (PP : printed (tr ++ (if k =? 0 then [] else [EReport k a1]) ++ (if go then [EOut m c a2] else [])) =
       printed tr ++ (if go && a2 then match m with Some x => [x] | None => [] end else [])) by
      (rewrite !printed_app, R2; destruct go, a2, m; reflexivity);
    destruct m as [m|];
    [destruct (go && a2) eqn:Co;
      [exists (p ++ [m] ++ mid), []; rewrite TT, PP, T, Hd; unfold held; cbn [wk q]; rewrite <- !app_assoc; repeat split; auto;
       rewrite app_assoc; apply subseq_more, subseq_snoc, P
      |exists p, mid; rewrite TT, PP, T, Hd, app_nil_r; unfold held; cbn [wk q nd]; repeat split; auto; discriminate]
    |exists p, mid; rewrite TT, PP, T; rewrite Hd in *; destruct (go && a2); rewrite app_nil_r; unfold held; cbn [wk q nd]; repeat split; auto]).
  (* replace *)
  all: unfold replace in E; destruct (wk s) as [| | |m k] eqn:K; try (injection E as <- <-; apply Same; reflexivity);
    assert (Hd : held s = [m]) by (unfold held; rewrite K; reflexivity); rewrite Hd in *;
    destruct ((nd s =? 0) && (sb s + len m <=? maxb s)) eqn:C; injection E as <- <-;
    [apply andb_true_iff in C; destruct C as [C _]; apply N.eqb_eq in C; rewrite (H2 C) in *; destruct (q s) as [|m0 l] eqn:Q;
      [exists (p ++ [m]), []; rewrite app_nil_r, T; unfold held; cbn [wk q app]; rewrite ?app_nil_r; repeat split; auto using subseq_more
      |exists p, []; rewrite app_nil_r, T; unfold held; cbn [wk q app]; repeat split; auto]
    |exists (p ++ [m] ++ mid), []; rewrite app_nil_r, T; unfold held; cbn [wk q]; rewrite <- !app_assoc; repeat split; auto; apply subseq_more, P].
Qed.

Lemma run_order : forall os s tr s' t, run s os = Some (s', t) -> order tr s -> order (tr ++ t) s'.
Proof.
  induction os as [|o os IH]; intros s tr s' t E O; cbn [run] in E; [injection E as <- <-; rewrite app_nil_r; exact O|].
  destruct (step s o) as [[s1 t1]|] eqn:E1; [|discriminate]. destruct (run s1 os) as [[s2 t2]|] eqn:E2; [|discriminate]. injection E as <- <-.
  rewrite app_assoc. eapply IH; [exact E2|]. eapply order_step; eauto.
Qed.

(** ** Counts *)
Definition counts (tr : list ev) (r : N) (s : wr) : Prop :=
  sb s = size (q s) /\ (wk s = Gone \/ wk s = Ready \/ (exists m k, wk s = Back m k) \/ (exists m k c, wk s = Got (Some m) k c) \/ exists c, wk s = Got None 0 c) /\
  count (taken tr) + r = count (printed tr) + reported tr + nd s + count (q s) + count (held s) + held_dropped s.
Lemma counts_same tr r t s s' : counts tr r s -> taken t = [] -> printed t = [] -> reported t = 0 -> q s' = q s -> sb s' = sb s -> wk s' = wk s -> nd s' = nd s -> counts (tr ++ t) r s'.
Proof.
  intros (S & V & C) A B R Q1 Q2 Q3 Q4. unfold counts. rewrite Q1, Q2, Q3, Q4. repeat split; auto.
  rewrite taken_app, printed_app, reported_app, A, B, R, !app_nil_r. unfold held, held_dropped in *. rewrite Q3. lia.
Qed.
Lemma count_nil {A} : count (@nil A) = 0. Proof. reflexivity. Qed.
Lemma count_cons {A} (x : A) l : count (x :: l) = 1 + count l. Proof. unfold count. cbn [length]. lia. Qed.
Lemma size_cons m l : size (m :: l) = len m + size l. Proof. reflexivity. Qed.
Lemma counts_pop tr r s a s' t : counts tr r s -> st s <> Dead -> pop s a = (s', t) -> counts (tr ++ t) r s'.
Proof.
  intros C0 ND E. assert (C := C0). destruct C as (S & V & C).
  destruct (pop_cases _ _ _ _ ND E) as [(-> & -> & _)|(K & D)]; [rewrite app_nil_r; exact C0|].
  destruct D as [(-> & -> & _)|[(k & b & -> & -> & -> & Bz)|[(m & l & Q & -> & ->)|(Q & -> & ->)]]];
  unfold counts, held, held_dropped in *; rewrite K in C; cbn [sb q wk nd].
  - rewrite app_nil_r; repeat split; auto; lia.
  - split; [apply Bz, S|]; split; [auto|]; rewrite taken_app, printed_app, reported_app; destruct (taken_rep (nd s + count (q s)) a) as [-> ->]; rewrite !app_nil_r.
    change (count (@nil msg)) with 0 in *.
    assert (RR : reported (if nd s + count (q s) =? 0 then [] else [EReport (nd s + count (q s)) a]) + (if a then 0 else nd s + count (q s)) = nd s + count (q s)) by
      (destruct (N.eqb_spec (nd s + count (q s)) 0); [change (reported []) with 0; destruct a; lia|unfold reported; cbn [map sumN]; destruct a; lia]); lia.
  - rewrite app_nil_r; rewrite Q, size_cons in S; split; [lia|]; split; [eauto 10|]; rewrite Q, count_cons in C; rewrite count_cons; change (count (@nil msg)) with 0 in *; lia.
  - rewrite app_nil_r; rewrite Q in *; split; [exact S|]; split; [eauto 10|]; lia.
Qed.
Lemma counts_call tr r s a1 a2 s' t : counts tr r s -> fine_step s (Call a1 a2) -> call s a1 a2 = (s', t) -> counts (tr ++ t) r s'.
Proof.
  intros C0 F E. assert (C := C0). destruct C as (S & V & C).
  unfold call in E; destruct (wk s) as [| |m k c|] eqn:K; try (injection E as <- <-; rewrite app_nil_r; exact C0).
  unfold fine_step in F; rewrite K in F; injection E as <- <-.
  unfold counts, held, held_dropped in *; rewrite K in C; cbn [sb q wk nd].
  rewrite !taken_app, !printed_app, !reported_app; destruct (taken_rep k a1) as [-> ->].
  destruct m as [m|];
  [|destruct V as [V|[V|[(x & y & V)|[(x & y & z & V)|(z & V)]]]]; try discriminate V; injection V as V1 V2].
  all: (split; [exact S|]); destruct (N.eqb_spec k 0) as [Z|Z]; destruct a1, a2; cbn [orb andb]; try (exfalso; lia);
  try (destruct F as [F|[F|F]]; try discriminate F; exfalso; congruence).
  all: (split; [eauto 10|]).
  all: unfold reported, taken, printed in *; cbn [map sumN flat_map app]; rewrite ?app_nil_r, ?count_app, ?count_cons in *; change (count (@nil msg)) with 0 in *; lia.
Qed.
Lemma counts_replace tr r s s' t : counts tr r s -> fine_step s Replace -> replace s = (s', t) -> counts (tr ++ t) r s'.
Proof.
  intros C0 F E. assert (C := C0). destruct C as (S & V & C).
  unfold replace in E; destruct (wk s) as [| | |m k] eqn:K; try (injection E as <- <-; rewrite app_nil_r; exact C0).
  unfold fine_step in F; rewrite K in F.
  unfold counts, held, held_dropped in *; rewrite K in C. rewrite count_cons in C. change (count (@nil msg)) with 0 in C.
  destruct ((nd s =? 0) && (sb s + len m <=? maxb s)) eqn:B; injection E as <- <-; cbn [sb q wk nd]; rewrite app_nil_r; change (count (@nil msg)) with 0.
  - apply andb_true_iff in B; destruct B as [B1 B2]; apply N.eqb_eq in B1; apply N.leb_le in B2; destruct F as [F|[F|F]]; [|exfalso; congruence|exfalso; unfold len in B2; lia].
    destruct (q s) as [|m0 l0]; [congruence|]; split; [rewrite (size_cons m), S; lia|]; split; [auto|]. rewrite (count_cons m). lia.
  - split; [exact S|]; split; [auto|]; lia.
Qed.
Lemma counts_step tr r s o s' t : counts tr r s -> fine_step s o -> step s o = Some (s', t) -> counts (tr ++ t) (r + too_long s o) s'.
Proof.
  intros C0 F E. assert (C := C0). destruct C as (S & V & C).
  assert (Same : forall s' t, too_long s o = 0 -> taken t = [] -> printed t = [] -> reported t = 0 -> q s' = q s -> sb s' = sb s -> wk s' = wk s -> nd s' = nd s ->
     counts (tr ++ t) (r + too_long s o) s') by (intros ? ? ->; rewrite N.add_0_r; intros; eapply counts_same; eauto).
  destruct (st s) eqn:ES.
  5: { unfold step in E. rewrite ES in E. injection E as <- <-. apply Same; try reflexivity. unfold too_long. rewrite ES. reflexivity. }
  all: assert (ND : st s <> Dead) by (rewrite ES; discriminate).
  all: assert (E' : match o with
    | Write m => write s m
    | SetCmd c f => Some (set_command s c f false)
    | Block c => Some (set_command s c true true)
    | SetMax n => Some (W (q s) (sb s) (nd s) n (cmd s) (force s) (cdone s) (st s) (wk s), [])
    | Start => Some (match st s, wk s with
                     | STOPPED, Gone => W (q s) (sb s) (nd s) (maxb s) (cmd s) (force s) true RUNNING Ready
                     | _, _ => s end, [])
    | Stop => Some (match st s with RUNNING => set_st s STOPPED (wk s) | _ => s end, [])
    | Destroy f => Some (match st s with
                         | STOPPED => match wk s with Gone => set_st s Dead Gone | _ => s end
                         | RUNNING => set_st s (if f then FLUSHING_TO_DESTROY else DESTROYING) (wk s)
                         | _ => s end, [])
    | Pop a => Some (pop s a)
    | Call a1 a2 => Some (call s a1 a2)
    | Replace => Some (replace s)
    end = Some (s', t)) by (unfold step in E; rewrite ES in E; destruct o; rewrite ?ES in *; exact E); clear E; rename E' into E.
  all: destruct o as [m|c f|c|n| | |f|a|a1 a2|].
  all: try (unfold set_command in E; rewrite ES in E; cbn [in_flush] in E; injection E as <- <-; apply Same; try reflexivity; unfold too_long; rewrite ES; reflexivity).
  all: try (injection E as <- <-; apply Same; try reflexivity; unfold too_long; rewrite ES; reflexivity).
  (* start, stop, destroy *)
  all: try (rewrite ES in E; injection E as <- <-; apply Same; try reflexivity; unfold too_long; rewrite ES; reflexivity).
  all: try (rewrite ES in E; destruct (wk s) eqn:K; injection E as <- <-;
    try (apply Same; try reflexivity; try (rewrite K; reflexivity); unfold too_long; rewrite ES; reflexivity);
    unfold counts, too_long in *; rewrite ES, app_nil_r, N.add_0_r; cbn [sb q wk nd]; split; [exact S|]; split; [auto|];
    unfold held, held_dropped in *; rewrite K in C; cbn [wk]; exact C).
  (* write *)
  all: try (unfold write in E; rewrite ES in E; cbn [in_flush] in E; destruct (len m =? 0) eqn:L0; injection E as <- <-; apply Same; try reflexivity; unfold too_long; rewrite ES; reflexivity).
  all: try (unfold write in E; rewrite ES in E; cbn [in_flush] in E; unfold too_long; rewrite ES;
    change (N.of_nat (length m)) with (len m);
    destruct (len m =? 0) eqn:L0;
      [apply N.eqb_eq in L0; rewrite L0 in *; replace (maxb s <? 0) with false by (symmetry; apply N.ltb_ge; lia);
       injection E as <- <-; rewrite N.add_0_r; eapply counts_same; eauto|];
    destruct (maxb s <? len m) eqn:LM;
      [injection E as <- <-; unfold counts in *; cbn [sb q wk nd]; split; [exact S|]; split; [exact V|];
       rewrite taken_app, printed_app, reported_app; cbn [taken printed flat_map reported map sumN]; rewrite !app_nil_r;
       unfold held, held_dropped in *; cbn [wk]; change (reported [EWrite m false]) with 0; lia|];
    destruct (trim _ _ _ _) as [[[l b] d]|] eqn:Tr; [|discriminate]; injection E as <- <-;
    destruct (trim_spec _ _ _ _ _ _ _ Tr) as (x & X & -> & SZ & _);
    unfold counts in *; cbn [sb q wk nd]; split; [apply SZ; rewrite S, size_app, size_cons; change (size []) with 0; lia|]; split; [exact V|];
    rewrite taken_app, printed_app, reported_app; change (taken [EWrite m true]) with [m]; change (printed [EWrite m true]) with (@nil msg);
    change (reported [EWrite m true]) with 0; rewrite app_nil_r, count_app, count_cons, count_nil;
    assert (XC : count (q s) + 1 = count x + count l) by (rewrite <- count_app, <- X, count_app, count_cons, count_nil; lia);
    unfold held, held_dropped in *; cbn [wk]; lia).
  (* the worker *)
  all: assert (TZ : too_long s (Pop true) = 0) by (unfold too_long; rewrite ES; reflexivity).
  all: try (change (too_long s (Pop a)) with (too_long s (Pop true)); rewrite TZ, N.add_0_r; injection E as E; eapply counts_pop; eauto).
  all: try (change (too_long s (Call a1 a2)) with (too_long s (Pop true)); rewrite TZ, N.add_0_r; injection E as E; eapply counts_call; eauto).
  all: try (change (too_long s Replace) with (too_long s (Pop true)); rewrite TZ, N.add_0_r; injection E as E; eapply counts_replace; eauto).
  (* destroy *)
  rewrite ES in E. change (too_long s (Destroy f)) with (too_long s (Pop true)) in *. 
  destruct (wk s) eqn:K; injection E as <- <-; apply Same; try reflexivity; auto.
Qed.
Lemma step_total s o : sb s = size (q s) -> step s o <> None.
Proof.
  intros S. unfold step. destruct (st s) eqn:ES; try discriminate; destruct o; try discriminate;
    unfold write; rewrite ES; cbn [in_flush]; destruct (len m =? 0); try discriminate; destruct (maxb s <? len m); try discriminate;
    (replace (sb s + len m) with (size (q s ++ [m])) by (rewrite size_app, size_cons, S; change (size []) with 0; lia));
    pose proof (trim_total (q s ++ [m]) (nd s) (maxb s)); destruct (trim _ _ _ _) as [[[? ?] ?]|]; congruence.
Qed.
Lemma run_counts : forall os s tr r, counts tr r s -> fine s os -> exists s' t, run s os = Some (s', t) /\ counts (tr ++ t) (r + refused s os) s'.
Proof.
  induction os as [|o os IH]; intros s tr r C F; cbn [run refused]; [exists s, []; rewrite app_nil_r, N.add_0_r; auto|].
  destruct F as [F1 F2]. destruct (step s o) as [[s1 t1]|] eqn:E1; [|exfalso; revert E1; apply step_total, C].
  destruct (IH s1 (tr ++ t1) (r + too_long s o)) as (s' & t & E & C'); [eapply counts_step; eauto|exact F2|].
  rewrite E. exists s', (t1 ++ t). split; [reflexivity|]. rewrite app_assoc, N.add_assoc. exact C'.
Qed.

(** ** Commands *)
Definition cmds (tr : list ev) (s : wr) : Prop := asked tr = N.lor (given tr) (N.lor (cmd s) (held_cmd s)).
Ltac bits := apply N.bits_inj; intros i; rewrite ?N.lor_spec, ?N.bits_0;
  repeat match goal with |- context [N.testbit ?x i] => destruct (N.testbit x i) end; reflexivity.
Lemma no_report k a : reports_taken (if k =? 0 then [] else [EReport k a]) -> k = 0 \/ a = true.
Proof. intros R. destruct (N.eqb_spec k 0); auto. destruct a; auto. exfalso. apply (R k). left. reflexivity. Qed.
Lemma given_rep k a : given (if k =? 0 then [] else [EReport k a]) = 0 /\ asked (if k =? 0 then [] else [EReport k a]) = 0.
Proof. destruct (k =? 0); split; reflexivity. Qed.
Lemma reports_app a b : reports_taken (a ++ b) -> reports_taken a /\ reports_taken b.
Proof. intros R. split; intros k K; apply (R k), in_or_app; auto. Qed.

Definition Binv (s : wr) : Prop :=
  (cdone s = false -> force s = true /\ (cmd s <> 0 \/ held_cmd s <> 0)) /\ (st s = RUNNING -> wk s <> Gone).
Lemma lor_nz a b : a <> 0 -> N.lor a b <> 0.
Proof. intros H E. apply N.lor_eq_0_iff in E. tauto. Qed.
Lemma lor_nz' a b : b <> 0 -> N.lor a b <> 0.
Proof. intros H E. apply N.lor_eq_0_iff in E. tauto. Qed.

Lemma call_cmds s a1 a2 s' t : call s a1 a2 = (s', t) -> reports_taken t ->
  cmd s' = cmd s /\ force s' = force s /\ st s' = st s /\ held_cmd s' = 0 /\ asked t = 0 /\ (wk s <> Gone -> wk s' <> Gone) /\
  given t = held_cmd s /\ cdone s' = (if held_cmd s =? 0 then cdone s else true).
Proof.
  intros E R. unfold call in E. unfold held_cmd. destruct (wk s) as [| |m k c|] eqn:K;
    try (injection E as <- <-; rewrite K; repeat split; auto; congruence).
  injection E as <- <-. apply reports_app in R. destruct R as [R _]. apply no_report in R.
  assert (G : (k =? 0) || a1 = true) by (destruct R as [-> | ->]; [reflexivity|apply orb_true_r]). rewrite G. cbn [andb cmd force st wk cdone].
  rewrite asked_app, given_app. destruct (given_rep k a1) as [-> ->].
  repeat split; auto.
  - destruct m as [m|]; [destruct a2|]; reflexivity.
  - destruct m as [m|]; [destruct a2|]; discriminate.
  - change (given [EOut m c a2]) with (N.lor c 0). bits.
  - destruct (c =? 0); reflexivity.
Qed.
Lemma step_cmds tr s o s' t : step s o = Some (s', t) -> reports_taken t -> (forall c, o = Block c -> c <> 0) ->
  (cmds tr s -> cmds (tr ++ t) s') /\ (Binv s -> Binv s').
Proof.
  intros E R HB.
  assert (Same : forall s' t, asked t = 0 -> given t = 0 -> cmd s' = cmd s -> held_cmd s' = held_cmd s -> force s' = force s -> (cdone s' = cdone s \/ cdone s' = true) ->
    (st s' = RUNNING -> wk s' = Gone -> st s = RUNNING /\ wk s = Gone) -> (cmds tr s -> cmds (tr ++ t) s') /\ (Binv s -> Binv s')).
  { intros s0 t0 A B C D F G I. split; [unfold cmds; rewrite asked_app, given_app, A, B, C, D, !N.lor_0_r; auto|].
    intros (B1 & B2). unfold Binv. rewrite C, D, F. split; [destruct G as [-> | ->]; [exact B1|discriminate]|]. intros X Y. destruct (I X Y). apply B2; auto. }
  destruct (st s) eqn:ES.
  5: { unfold step in E. rewrite ES in E. injection E as <- <-. apply Same; auto. congruence. }
  all: assert (ND : st s <> Dead) by (rewrite ES; discriminate); unfold step in E; rewrite ES in E.
  all: destruct o as [m|c f|c|n| | |f|a|a1 a2|].
  (* commands *)
  all: try (injection E as E; unfold set_command in E; rewrite ES in E; cbn [in_flush] in E; injection E as <- <-;
     first [apply Same; auto; congruence
     |split; [unfold cmds; rewrite asked_app, given_app; cbn [cmd]; unfold held_cmd; cbn [wk]; intros ->;
       change (asked [ECmd c true]) with (N.lor c 0); change (given [ECmd c true]) with 0; bits|];
      intros (B1 & B2); unfold Binv; unfold held_cmd in *; cbn [cmd force cdone st wk]; (split; [|first [exact B2|intros _; exact (B2 ES)|intros X; discriminate X]]);
      first [intros CD; destruct (B1 CD) as (-> & [X|X]); (split; [reflexivity|]); [left; apply lor_nz, X|right; exact X]
            |intros _; split; [rewrite !orb_true_r; reflexivity|left; apply lor_nz', (HB c eq_refl)]]]).
  (* pop *)
  all: try (injection E as E; destruct (pop_cases _ _ _ _ ND E) as [(-> & -> & _)|(K & D)]; [apply Same; auto; intros; split; congruence|];
    destruct D as [(-> & -> & _)|[(k & b & -> & -> & _)|[(m & l & Q & -> & ->)|(Q & -> & ->)]]];
    [apply Same; auto; [unfold held_cmd; rewrite K; reflexivity|discriminate]
    |destruct (given_rep k a) as [G1 G2]; apply Same; auto; [unfold held_cmd; rewrite K; reflexivity|discriminate]
    |split; [unfold cmds, held_cmd; rewrite K, app_nil_r; cbn [cmd wk]; intros ->; bits|];
     intros (B1 & B2); unfold Binv, held_cmd in *; rewrite K in B1; cbn [cmd force cdone st wk]; (split; [|discriminate]);
     intros CD; destruct (B1 CD) as (F & [X|X]); [split; [exact F|right; exact X]|congruence]
    |split; [unfold cmds, held_cmd; rewrite K, app_nil_r; cbn [cmd wk]; intros ->; bits|];
     intros (B1 & B2); unfold Binv, held_cmd in *; rewrite K in B1; cbn [cmd force cdone st wk]; (split; [|discriminate]);
     intros CD; destruct (B1 CD) as (F & [X|X]); [split; [exact F|right; exact X]|congruence]]).
  (* call *)
  all: try (injection E as E; destruct (call_cmds _ _ _ _ _ E R) as (A1 & A2 & A3 & A4 & A5 & A6 & A7 & A8);
    split; [unfold cmds; rewrite asked_app, given_app, A1, A4, A5, A7; intros ->; bits|];
    intros (B1 & B2); unfold Binv; rewrite A1, A2, A3, A4, A8; (split; [|intros X; apply A6, B2, X]);
    destruct (N.eqb_spec (held_cmd s) 0) as [Z|Z]; [|discriminate]; intros CD; destruct (B1 CD) as (F & [X|X]); [auto|congruence]).
  (* replace *)
  all: try (injection E as E; unfold replace in E; destruct (wk s) as [| | |m k] eqn:K; try (injection E as <- <-; apply Same; auto; congruence);
    destruct (_ && _); injection E as <- <-; apply Same; auto; first [discriminate|unfold held_cmd; rewrite K; reflexivity]).
  (* write *)
  all: try (unfold write in E; rewrite ES in E; cbn [in_flush] in E; destruct (len m =? 0); [injection E as <- <-; apply Same; auto; congruence|];
    try (injection E as <- <-; apply Same; auto; intros; split; congruence);
    destruct (maxb s <? len m); [injection E as <- <-; apply Same; auto; congruence|];
    destruct (trim _ _ _ _) as [[[l b] d]|]; [|discriminate]; injection E as <- <-; apply Same; auto; congruence).
  (* the rest *)
  all: try (injection E as <- <-; apply Same; auto; cbn; congruence).
  all: try (destruct (wk s) eqn:K; injection E as <- <-; apply Same; auto; try (unfold held_cmd; rewrite K; reflexivity); cbn; congruence).
  unfold write in E; rewrite ES in E; cbn [in_flush] in E; destruct (len m =? 0); injection E as <- <-; apply Same; auto; intros; split; congruence.
Qed.
Lemma run_cmds : forall os s tr s' t, run s os = Some (s', t) -> reports_taken t -> ~ In (Block 0) os ->
  (cmds tr s -> cmds (tr ++ t) s') /\ (Binv s -> Binv s').
Proof.
  induction os as [|o os IH]; intros s tr s' t E R HB; cbn [run] in E; [injection E as <- <-; rewrite app_nil_r; auto|].
  destruct (step s o) as [[s1 t1]|] eqn:E1; [|discriminate]. destruct (run s1 os) as [[s2 t2]|] eqn:E2; [|discriminate]. injection E as <- <-.
  apply reports_app in R. destruct R as [R1 R2].
  destruct (step_cmds tr _ _ _ _ E1 R1) as [A1 A2]; [intros c -> ->; apply HB; left; reflexivity|].
  destruct (IH s1 (tr ++ t1) _ _ E2 R2) as [B1 B2]; [intros X; apply HB; right; exact X|]. rewrite app_assoc. auto.
Qed.

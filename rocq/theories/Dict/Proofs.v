(** Lemmas about M_str_explode_quoted and the dictionary serialisation. *)
From Verif Require Import Base.Lib Base.Mem Str.Model Dict.Model.
Local Open Scope N_scope.

Lemma ceq_lt : forall c q, q < 128 -> ceq c q = (c =? q).
Proof. intros c q H. unfold ceq. destruct (N.eqb_spec c q) as [->|]; [|reflexivity]. cbn. apply N.ltb_lt. exact H. Qed.

(** ** The pieces as a function on the text *)

Section Pure.
Variables (delim quote escape : N).

(** [lim]: how many more cuts are allowed, [None] for any number. *)
Definition dec_lim (lim : option nat) : option nat := option_map pred lim.
Fixpoint pq (lim : option nat) (pv : N) (on : bool) (cur s : list N) {struct s} : list (list N) :=
  match s with
  | [] => [cur]
  | c :: s' =>
    let isq := negb (quote =? 0) && (c =? quote) in
    if isq && (quote =? escape) && (match s' with c2 :: _ => c2 =? quote | [] => false end)
    then match s' with c2 :: s'' => pq lim c2 on (cur ++ [c; c2]) s'' | [] => [cur ++ [c]] end
    else if isq && negb (escape =? 0) && negb (quote =? escape) && (pv =? escape) then pq lim c on (cur ++ [c]) s'
    else
    let on := if isq then negb on else on in
    if (c =? delim) && negb on then
      cur :: (match lim with Some 1%nat => [s'] | _ => pq (dec_lim lim) c on [] s' end)
    else pq lim c on (cur ++ [c]) s'
  end.
Definition lim_of (max num : nat) : option nat := if (max =? 0)%nat then None else Some (max - 1 - num)%nat.

Lemma pq_ne : forall lim pv on cur s, pq lim pv on cur s <> [].
Proof.
  intros lim pv on cur s. remember (length s) as n eqn:E. revert lim pv on cur s E. induction n as [n IH] using lt_wf_ind. intros lim pv on cur s E. subst n.
  destruct s as [|c s]; [discriminate|]. cbn [pq]. destruct (_ && _ && _).
  - destruct s as [|c2 s]; [discriminate|]. eapply IH; [|reflexivity]. cbn. lia.
  - destruct (_ && _ && _ && _); [eapply IH; [|reflexivity]; cbn; lia|]. destruct (_ && negb _); [discriminate|eapply IH; [|reflexivity]; cbn; lia].
Qed.

(** The copy with the cuts in place, and the offsets of the pieces. *)
Fixpoint cut (l : list (list N)) : list N := match l with [] => [] | [x] => x | x :: l' => x ++ 0 :: cut l' end.
Fixpoint offs (b : nat) (l : list (list N)) : list nat := match l with [] => [] | x :: l' => b :: offs (b + length x + 1) l' end.

Hypothesis q128 : quote < 128.
Hypothesis d128 : delim < 128.
Hypothesis e128 : escape < 128.
Hypothesis de : delim <> escape.
Hypothesis d0 : delim <> 0.

(** Same answer to the question whether the character in front escapes. *)
Definition pvok (i : nat) (dup : list N) (pv : N) : Prop :=
  escape = 0 \/ (i = 0%nat /\ pv <> escape) \/ (exists x, (0 < i)%nat /\ nth_error dup (i - 1) = Some x /\ (x =? escape) = (pv =? escape)).

(** The three reads of one round and the two tests they feed. *)
Lemma reads3 : forall pre c s i pv, length pre = i -> pvok i (pre ++ (c :: s) ++ [0]) pv ->
  exists nx p, rd (pre ++ (c :: s) ++ [0]) i = Ok c /\ rd (pre ++ (c :: s) ++ [0]) (i + 1) = Ok nx /\
    (if (0 <? i)%nat then rd (pre ++ (c :: s) ++ [0]) (i - 1) else Ok 0) = Ok p /\
    (quote <> 0 -> ceq nx quote = match s with c2 :: _ => c2 =? quote | [] => false end) /\
    (escape <> 0 -> (0 <? i)%nat && ceq p escape = (pv =? escape)).
Proof.
  intros pre c s i pv L V. subst i.
  assert (R0 : rd (pre ++ (c :: s) ++ [0]) (length pre) = Ok c) by (unfold rd; rewrite nth_error_app2, Nat.sub_diag by lia; reflexivity).
  assert (R1 : rd (pre ++ (c :: s) ++ [0]) (length pre + 1) = Ok (match s with c2 :: _ => c2 | [] => 0 end)).
  { unfold rd. rewrite nth_error_app2 by lia. replace (length pre + 1 - length pre)%nat with 1%nat by lia. cbn [app nth_error]. destruct s; reflexivity. }
  assert (R2 : exists p, (if (0 <? length pre)%nat then rd (pre ++ (c :: s) ++ [0]) (length pre - 1) else Ok 0) = Ok p /\
               ((0 < length pre)%nat -> nth_error (pre ++ (c :: s) ++ [0]) (length pre - 1) = Some p)).
  { destruct (Nat.ltb_spec 0 (length pre)) as [A|A]; [|exists 0; split; [reflexivity|lia]].
    unfold rd. destruct (nth_error (pre ++ (c :: s) ++ [0]) (length pre - 1)) as [x|] eqn:E; [exists x; split; [reflexivity|auto]|].
    exfalso. apply nth_error_None in E. rewrite app_length in E. lia. }
  destruct R2 as [p [R2 R3]]. eexists. exists p. split; [exact R0|]. split; [exact R1|]. split; [exact R2|]. split.
  - intros Q. rewrite ceq_lt by auto. destruct s; [|reflexivity]. apply N.eqb_neq. congruence.
  - intros E0. destruct V as [V|[[V1 V2]|[x [V1 [V2 V3]]]]]; [contradiction| |].
    + rewrite V1. cbn [Nat.ltb Nat.leb andb]. symmetry. now apply N.eqb_neq.
    + rewrite (proj2 (Nat.ltb_lt _ _) V1). cbn [andb]. rewrite ceq_lt by auto. rewrite R3 in V2 by auto. injection V2 as ->. exact V3.
Qed.

Lemma pvok_self : forall pre c s i, length pre = i -> pvok (i + 1) ((pre ++ [c]) ++ s) c.
Proof.
  intros pre c s i L. right. right. exists c. split; [lia|]. split; [|reflexivity]. rewrite <- app_assoc.
  rewrite nth_error_app2 by lia. replace (i + 1 - 1 - length pre)%nat with 0%nat by lia. reflexivity.
Qed.
Lemma pvok_cut : forall pre c s i, length pre = i -> (c =? escape) = false -> pvok (i + 1) ((pre ++ [0]) ++ s) c.
Proof.
  intros pre c s i L H. destruct (N.eqb_spec escape 0) as [E|E]; [now left|]. right. right. exists 0. split; [lia|]. split; [|rewrite H; now apply N.eqb_neq; congruence].
  rewrite <- app_assoc. rewrite nth_error_app2 by lia. replace (i + 1 - 1 - length pre)%nat with 0%nat by lia. reflexivity.
Qed.
Lemma pvok_any : forall i dup pv, escape = 0 -> pvok i dup pv.
Proof. intros. now left. Qed.

Lemma isq_true : forall c, negb (quote =? 0) && (c =? quote) = true -> quote <> 0.
Proof. intros c H. apply andb_prop in H. destruct H as [H _]. apply negb_true_iff, N.eqb_neq in H. exact H. Qed.


Lemma count_ok : forall s max s_len fuel i pre cur pv on num beg out,
  (length s < fuel)%nat -> length pre = i -> s_len = (i + length s)%nat -> (beg <= s_len)%nat -> pvok i (pre ++ s ++ [0]) pv ->
  exists beg', xq_loop delim quote escape max s_len false fuel i (pre ++ s ++ [0]) on num beg out =
    Ok (pre ++ s ++ [0], (num + length (pq (lim_of max num) pv on cur s) - 1)%nat, beg', out) /\ (beg' <= s_len)%nat.
Proof.
  intros s. remember (length s) as n eqn:E. revert s E. induction n as [n IH] using lt_wf_ind.
  intros s E max s_len fuel i pre cur pv on num beg out F L SL B V. destruct fuel as [|f]; [lia|]. cbn [xq_loop].
  destruct s as [|c s].
  - cbn [length] in E. subst n. destruct (Nat.ltb_spec i s_len); [lia|]. cbn [pq length]. exists beg. split; [do 4 f_equal; lia|auto].
  - cbn [length] in E. destruct (Nat.ltb_spec i s_len) as [_|]; [|lia].
    destruct (reads3 pre c s i pv L V) as [nx [p [R0 [R1 [R2 [T1 T2]]]]]]. rewrite R0, R1, R2. cbn [bind]. rewrite !(ceq_lt c) by auto. cbn [pq].
    assert (C1 : (negb (quote =? 0) && (c =? quote)) && (quote =? escape) && ceq nx quote = (negb (quote =? 0) && (c =? quote)) && (quote =? escape) && (match s with c2 :: _ => c2 =? quote | [] => false end)).
    { destruct (negb (quote =? 0) && (c =? quote)) eqn:Q; [|reflexivity]. rewrite T1 by (eapply isq_true; eauto). reflexivity. }
    rewrite C1. clear C1.
    assert (C2 : (negb (quote =? 0) && (c =? quote)) && negb (escape =? 0) && negb (quote =? escape) && (0 <? i)%nat && ceq p escape =
                 (negb (quote =? 0) && (c =? quote)) && negb (escape =? 0) && negb (quote =? escape) && (pv =? escape)).
    { destruct (N.eqb_spec escape 0) as [E0|E0]; [cbn [negb]; rewrite andb_false_r; reflexivity|]. rewrite <- !andb_assoc. rewrite T2 by auto. reflexivity. }
    rewrite C2. clear C2.
    destruct ((negb (quote =? 0) && (c =? quote)) && (quote =? escape) && _) eqn:D1.
    { destruct s as [|c2 s]; [rewrite andb_false_r in D1; discriminate D1|].
      replace (pre ++ (c :: c2 :: s) ++ [0]) with ((pre ++ [c; c2]) ++ s ++ [0]) by (rewrite <- app_assoc; reflexivity).
      apply (IH (length s)); auto; try (cbn [length] in *; rewrite ?app_length; cbn [length]; lia).
      replace (pre ++ [c; c2]) with ((pre ++ [c]) ++ [c2]) by (rewrite <- app_assoc; reflexivity).
      replace (i + 2)%nat with (i + 1 + 1)%nat by lia. apply pvok_self. rewrite app_length. cbn. lia. }
    destruct ((negb (quote =? 0) && (c =? quote)) && negb (escape =? 0) && negb (quote =? escape) && (pv =? escape)).
    { replace (pre ++ (c :: s) ++ [0]) with ((pre ++ [c]) ++ s ++ [0]) by (rewrite <- app_assoc; reflexivity).
      apply (IH (length s)); auto; try (cbn [length] in *; rewrite ?app_length; cbn [length]; lia). now apply pvok_self. }
    set (on' := if negb (quote =? 0) && (c =? quote) then negb on else on). clearbody on'.
    replace (pre ++ (c :: s) ++ [0]) with ((pre ++ [c]) ++ s ++ [0]) by (rewrite <- app_assoc; reflexivity).
    destruct ((c =? delim) && negb on').
    + cbn [bind]. unfold lim_of. destruct (Nat.eqb_spec max 0) as [M|M]; cbn [negb andb].
      * destruct (IH (length s) ltac:(lia) s eq_refl max s_len f (i + 1)%nat (pre ++ [c]) [] c on' (num + 1)%nat (i + 1)%nat out) as [beg' [X1 X2]]; try (rewrite ?app_length; cbn [length] in *; lia); [now apply pvok_self|].
        exists beg'. rewrite X1. split; [|auto]. unfold lim_of. rewrite (proj2 (Nat.eqb_eq _ _) M). cbn [length dec_lim option_map]. do 4 f_equal.
        assert (Q := pq_ne None c on' [] s). destruct (pq None c on' [] s); [congruence|cbn [length]; lia].
      * destruct (Nat.eqb_spec (num + 1) (max - 1)) as [M1|M1].
        -- eexists. split; [|instantiate (1 := (i + 1)%nat); lia]. replace (max - 1 - num)%nat with 1%nat by lia. cbn [length]. do 4 f_equal. lia.
        -- destruct (IH (length s) ltac:(lia) s eq_refl max s_len f (i + 1)%nat (pre ++ [c]) [] c on' (num + 1)%nat (i + 1)%nat out) as [beg' [X1 X2]]; try (rewrite ?app_length; cbn [length] in *; lia); [now apply pvok_self|].
           exists beg'. rewrite X1. split; [|auto]. unfold lim_of. rewrite (proj2 (Nat.eqb_neq _ _) M).
           assert (Z : match (max - 1 - num)%nat with 1%nat => [s] | _ => pq (dec_lim (Some (max - 1 - num)%nat)) c on' [] s end = pq (Some (max - 1 - (num + 1))%nat) c on' [] s).
           { cbn [dec_lim option_map]. replace (max - 1 - (num + 1))%nat with (Nat.pred (max - 1 - num)) by lia.
             destruct (max - 1 - num)%nat as [|[|m]] eqn:ME; [reflexivity|lia|reflexivity]. }
           cbn [length]. rewrite Z. do 4 f_equal. assert (Q := pq_ne (Some (max - 1 - (num + 1))%nat) c on' [] s). destruct (pq (Some (max - 1 - (num + 1))%nat) c on' [] s); [congruence|cbn [length]; lia].
    + destruct (IH (length s) ltac:(lia) s eq_refl max s_len f (i + 1)%nat (pre ++ [c]) (cur ++ [c]) c on' num beg out) as [beg' [X1 X2]]; try (rewrite ?app_length; cbn [length] in *; lia); [now apply pvok_self|].
      exists beg'. split; [exact X1|auto].
Qed.

(** What the second loop leaves, with the last piece stored. *)
Definition finish (s_len : nat) (r : res (list N * nat * nat * list (option nat))) : res (list N * list (option nat)) :=
  do '(dup, num, beg, out) <- r;
  if (beg <=? s_len)%nat then do out <- wr out num (Some beg); Ok (dup, out) else Ok (dup, out).

Lemma wr_next : forall (A : list (option nat)) x n v, wr (A ++ x :: n) (length A) v = Ok (A ++ v :: n).
Proof. intros. apply wr_app_mid. Qed.

Lemma fill_ok : forall s max s_len fuel i pre cur pv on num beg filled k,
  (length s < fuel)%nat -> length pre = beg -> i = (beg + length cur)%nat -> s_len = (i + length s)%nat -> length filled = num ->
  k = length (pq (lim_of max num) pv on cur s) -> pvok i ((pre ++ cur) ++ s ++ [0]) pv ->
  finish s_len (xq_loop delim quote escape max s_len true fuel i ((pre ++ cur) ++ s ++ [0]) on num beg (map Some filled ++ repeat None k)) =
    Ok (pre ++ cut (pq (lim_of max num) pv on cur s) ++ [0], map Some (filled ++ offs beg (pq (lim_of max num) pv on cur s))).
Proof.
  intros s. remember (length s) as n eqn:E. revert s E. induction n as [n IH] using lt_wf_ind.
  intros s E max s_len fuel i pre cur pv on num beg filled k F L IL SL FN K V. destruct fuel as [|f]; [lia|]. cbn [xq_loop].
  destruct s as [|c s].
  - cbn [length] in E. subst n. destruct (Nat.ltb_spec i s_len); [lia|]. cbn [pq length] in *. subst k. cbn [finish bind]. rewrite (proj2 (Nat.leb_le beg s_len)) by lia.
    cbn [repeat]. replace num with (length (map Some filled)) by (rewrite map_length; auto). rewrite wr_next. cbn [bind cut offs]. rewrite map_app. cbn [map app].
    rewrite <- app_assoc. reflexivity.
  - cbn [length] in E. destruct (Nat.ltb_spec i s_len) as [_|]; [|lia].
    assert (LP : length (pre ++ cur) = i) by (rewrite app_length; lia).
    destruct (reads3 (pre ++ cur) c s i pv LP V) as [nx [p [R0 [R1 [R2 [T1 T2]]]]]]. rewrite R0, R1, R2. cbn [bind]. rewrite !(ceq_lt c) by auto. cbn [pq] in K |- *.
    assert (C1 : (negb (quote =? 0) && (c =? quote)) && (quote =? escape) && ceq nx quote = (negb (quote =? 0) && (c =? quote)) && (quote =? escape) && (match s with c2 :: _ => c2 =? quote | [] => false end)).
    { destruct (negb (quote =? 0) && (c =? quote)) eqn:Q; [|reflexivity]. rewrite T1 by (eapply isq_true; eauto). reflexivity. }
    rewrite C1. clear C1.
    assert (C2 : (negb (quote =? 0) && (c =? quote)) && negb (escape =? 0) && negb (quote =? escape) && (0 <? i)%nat && ceq p escape =
                 (negb (quote =? 0) && (c =? quote)) && negb (escape =? 0) && negb (quote =? escape) && (pv =? escape)).
    { destruct (N.eqb_spec escape 0) as [E0|E0]; [cbn [negb]; rewrite andb_false_r; reflexivity|]. rewrite <- !andb_assoc. rewrite T2 by auto. reflexivity. }
    rewrite C2. clear C2.
    destruct ((negb (quote =? 0) && (c =? quote)) && (quote =? escape) && _) eqn:D1.
    { destruct s as [|c2 s]; [rewrite andb_false_r in D1; discriminate D1|].
      replace ((pre ++ cur) ++ (c :: c2 :: s) ++ [0]) with ((pre ++ (cur ++ [c; c2])) ++ s ++ [0]) by (rewrite <- !app_assoc; reflexivity).
      apply (IH (length s)); auto; try (cbn [length] in *; rewrite ?app_length; cbn [length]; lia).
      replace (pre ++ cur ++ [c; c2]) with (((pre ++ cur) ++ [c]) ++ [c2]) by (rewrite <- !app_assoc; reflexivity).
      replace (i + 2)%nat with (i + 1 + 1)%nat by lia. apply pvok_self. rewrite app_length. cbn. lia. }
    destruct ((negb (quote =? 0) && (c =? quote)) && negb (escape =? 0) && negb (quote =? escape) && (pv =? escape)).
    { replace ((pre ++ cur) ++ (c :: s) ++ [0]) with ((pre ++ (cur ++ [c])) ++ s ++ [0]) by (rewrite <- !app_assoc; reflexivity).
      apply (IH (length s)); auto; try (cbn [length] in *; rewrite ?app_length; cbn [length]; lia). rewrite (app_assoc pre cur [c]). now apply pvok_self. }
    set (on' := if negb (quote =? 0) && (c =? quote) then negb on else on) in *. clearbody on'.
    destruct ((c =? delim) && negb on') eqn:DD.
    + assert (CD : c = delim) by (apply andb_prop in DD; destruct DD as [DD _]; now apply N.eqb_eq in DD).
      assert (CE : (c =? escape) = false) by (apply N.eqb_neq; congruence).
      replace (wr ((pre ++ cur) ++ (c :: s) ++ [0]) i 0) with (Ok ((pre ++ cur ++ [0]) ++ s ++ [0])).
      2:{ subst i. change ((c :: s) ++ [0]) with (c :: (s ++ [0])). rewrite <- (app_length pre cur) || idtac. replace (beg + length cur)%nat with (length (pre ++ cur)) by lia. rewrite wr_app_mid. rewrite <- !app_assoc. reflexivity. }
      cbn [bind]. destruct k as [|k]; [discriminate K|]. cbn [repeat length] in K |- *. injection K as K.
      replace num with (length (map Some filled)) at 1 by (rewrite map_length; auto). rewrite wr_next. cbn [bind].
      replace (map Some filled ++ Some beg :: repeat None k) with (map Some (filled ++ [beg]) ++ repeat None k) by (rewrite map_app, <- app_assoc; reflexivity).
      assert (PV : pvok (i + 1) (((pre ++ cur ++ [0]) ++ []) ++ s ++ [0]) c) by (rewrite app_nil_r, (app_assoc pre cur [0]); apply pvok_cut; auto).
      assert (FL : length (filled ++ [beg]) = (num + 1)%nat) by (rewrite app_length; cbn; lia).
      assert (PL : length (pre ++ cur ++ [0]) = (i + 1)%nat) by (rewrite !app_length; cbn; lia).
      assert (CUT : forall l, l <> [] -> pre ++ cut (cur :: l) ++ [0] = (pre ++ cur ++ [0]) ++ cut l ++ [0]).
      { intros l NL. destruct l; [congruence|]. cbn [cut]. rewrite <- !app_assoc. reflexivity. }
      assert (OFF : forall l, filled ++ offs beg (cur :: l) = (filled ++ [beg]) ++ offs (i + 1) l) by (intros l; cbn [offs]; rewrite <- app_assoc; subst i; reflexivity).
      unfold lim_of in K |- *. destruct (Nat.eqb_spec max 0) as [M|M]; cbn [negb andb].
      * rewrite CUT by apply pq_ne. rewrite OFF. assert (X := IH (length s) ltac:(lia) s eq_refl max s_len f (i + 1)%nat (pre ++ cur ++ [0]) [] c on' (num + 1)%nat (i + 1)%nat (filled ++ [beg]) k).
        unfold lim_of in X. rewrite (proj2 (Nat.eqb_eq _ _) M) in X. rewrite app_nil_r in X, PV. cbn [dec_lim option_map] in *. apply X; auto; try (cbn [length] in *; lia).
      * destruct (Nat.eqb_spec (num + 1) (max - 1)) as [M1|M1].
        -- replace (max - 1 - num)%nat with 1%nat in * by lia. rewrite CUT by discriminate. rewrite OFF. cbn [length] in K. subst k. cbn [repeat finish bind].
           rewrite (proj2 (Nat.leb_le (i + 1) s_len)) by lia.
           replace (num + 1)%nat with (length (map Some (filled ++ [beg]))) by (rewrite map_length; auto). rewrite wr_next. cbn [bind cut offs]. rewrite (map_app _ (filled ++ [beg])). reflexivity.
        -- assert (Z : match (max - 1 - num)%nat with 1%nat => [s] | _ => pq (dec_lim (Some (max - 1 - num)%nat)) c on' [] s end = pq (Some (max - 1 - (num + 1))%nat) c on' [] s).
           { cbn [dec_lim option_map]. replace (max - 1 - (num + 1))%nat with (Nat.pred (max - 1 - num)) by lia.
             destruct (max - 1 - num)%nat as [|[|m]] eqn:ME; [reflexivity|lia|reflexivity]. }
           rewrite Z in K |- *. rewrite CUT by apply pq_ne. rewrite OFF. assert (X := IH (length s) ltac:(lia) s eq_refl max s_len f (i + 1)%nat (pre ++ cur ++ [0]) [] c on' (num + 1)%nat (i + 1)%nat (filled ++ [beg]) k).
           unfold lim_of in X. rewrite (proj2 (Nat.eqb_neq _ _) M) in X. rewrite app_nil_r in X, PV. apply X; auto; try (cbn [length] in *; lia).
    + replace ((pre ++ cur) ++ (c :: s) ++ [0]) with ((pre ++ (cur ++ [c])) ++ s ++ [0]) by (rewrite <- !app_assoc; reflexivity).
      apply (IH (length s)); auto; try (cbn [length] in *; rewrite ?app_length; cbn [length]; lia). rewrite (app_assoc pre cur [c]). now apply pvok_self.
Qed.

Lemma piece_at_ok : forall pre x r, no_nul x -> piece_at (pre ++ x ++ 0 :: r) (Some (length pre)) = Ok x.
Proof.
  intros pre x r H. unfold piece_at. rewrite skipn_app, skipn_all, Nat.sub_diag. cbn [app skipn]. rewrite strlen_ok by auto. cbn [bind]. apply rdn_ok.
Qed.
Lemma pieces_at_ok : forall l pre, l <> [] -> Forall no_nul l ->
  pieces_at (pre ++ cut l ++ [0]) (map Some (offs (length pre) l)) = Ok l.
Proof.
  induction l as [|x l IH]; intros pre NL F; [congruence|]. inversion F as [|? ? X F']; subst. destruct l as [|y l].
  - cbn [cut offs map pieces_at]. rewrite piece_at_ok by auto. reflexivity.
  - change (cut (x :: y :: l)) with (x ++ 0 :: cut (y :: l)). change (offs (length pre) (x :: y :: l)) with (length pre :: offs (length pre + length x + 1) (y :: l)). cbn [map]. change (pieces_at ?d (?a :: ?b)) with (do z <- piece_at d a; do zs <- pieces_at d b; Ok (z :: zs)).
    replace (pre ++ (x ++ 0 :: cut (y :: l)) ++ [0]) with (pre ++ x ++ 0 :: (cut (y :: l) ++ [0])) by (rewrite <- !app_assoc; reflexivity).
    rewrite piece_at_ok by auto. cbn [bind].
    replace (pre ++ x ++ 0 :: cut (y :: l) ++ [0]) with ((pre ++ x ++ [0]) ++ cut (y :: l) ++ [0]) by (rewrite <- !app_assoc; reflexivity).
    assert (PL : length (pre ++ x ++ [0]) = (length pre + length x + 1)%nat) by (rewrite !app_length; cbn; lia).
    assert (Y := IH (pre ++ x ++ [0]) ltac:(discriminate) F'). rewrite PL in Y. rewrite Y. reflexivity.
Qed.

Lemma pq_no_nul : forall lim pv on cur s, no_nul cur -> no_nul s -> Forall no_nul (pq lim pv on cur s).
Proof.
  intros lim pv on cur s. remember (length s) as n eqn:E. revert lim pv on cur s E. induction n as [n IH] using lt_wf_ind. intros lim pv on cur s E C S. subst n.
  destruct s as [|c s]; [repeat constructor; auto|]. inversion S as [|? ? S1 S2]; subst. cbn [pq].
  assert (C' : no_nul (cur ++ [c])) by (apply Forall_app; split; auto). destruct (_ && _ && _).
  - destruct s as [|c2 s]; [repeat constructor; auto|]. inversion S2; subst. eapply IH; [|reflexivity| |]; [cbn; lia| |auto]. apply Forall_app. split; auto.
  - destruct (_ && _ && _ && _); [eapply IH; [|reflexivity| |]; auto; cbn; lia|]. destruct (_ && negb _).
    + constructor; auto. destruct lim as [[|[|k]]|]; try (eapply IH; [|reflexivity|constructor|auto]; cbn; lia). constructor; [auto|constructor].
    + eapply IH; [|reflexivity| |]; auto; cbn; lia.
Qed.

Theorem explode_strs_pq : forall max s, s <> [] -> no_nul s ->
  explode_strs delim quote escape max s = Ok (Some (pq (lim_of max 0) 0 false [] s)).
Proof.
  intros max s NS NN. unfold explode_strs, explode_quoted. destruct (Nat.eqb_spec (length s) 0) as [E|_]; [destruct s; [congruence|discriminate E]|].
  assert (R : rdn s 0 (length s) = Ok s) by (generalize (rdn_ok [] s (@nil N)); cbn [app length]; rewrite app_nil_r; auto). rewrite R. cbn [bind].
  assert (V : pvok 0 (([] ++ []) ++ s ++ [0]) 0) by (destruct (N.eqb_spec escape 0) as [E|E]; [now left|right; left; split; [reflexivity|congruence]]).
  destruct (@count_ok s max (length s) (length s + 1) 0%nat [] [] 0 false 0%nat 0%nat []) as [beg [C B]]; auto; try (cbn; lia).
  cbn [app] in C. rewrite C. cbn [bind]. rewrite (proj2 (Nat.leb_le _ _) B).
  assert (P := pq_ne (lim_of max 0) 0 false [] s). set (secs := pq (lim_of max 0) 0 false [] s) in *.
  assert (LS : (0 + length secs - 1 + 1 = length secs)%nat) by (destruct secs; [congruence|cbn; lia]). rewrite LS.
  assert (X := @fill_ok s max (length s) (length s + 1) 0%nat [] [] 0 false 0%nat 0%nat [] (length secs)). cbn [app map length] in X, V. fold secs in X.
  specialize (X ltac:(lia) eq_refl eq_refl ltac:(lia) eq_refl eq_refl V). unfold finish in X.
  destruct (xq_loop delim quote escape max (length s) true (length s + 1) 0 (s ++ [0]) false 0 0 (repeat None (length secs))) as [[[[dup num] b] out]| |]; try discriminate X.
  cbn [bind] in X |- *. destruct (b <=? length s)%nat.
  - destruct (wr out num (Some b)) as [out'| |]; try discriminate X. cbn [bind] in X |- *. injection X as -> ->.
    assert (Y := pieces_at_ok secs [] P (pq_no_nul _ _ _ _ s (Forall_nil _) NN)). cbn [app length] in Y. rewrite Y. reflexivity.
  - injection X as -> ->. cbn [bind].
    assert (Y := pieces_at_ok secs [] P (pq_no_nul _ _ _ _ s (Forall_nil _) NN)). cbn [app length] in Y. rewrite Y. reflexivity.
Qed.
End Pure.

(** ** The round trip *)
From Verif Require Import Dict.Spec.

Lemma last_def : forall (v : list N) c d d', last (c :: v) d = last (c :: v) d'.
Proof. induction v as [|x v IH]; intros c d d'; [reflexivity|]. apply (IH x). Qed.
Lemma last_cons' : forall (v : list N) c d, last (c :: v) d = last v c.
Proof. intros [|x v] c d; [reflexivity|]. apply (last_def v x). Qed.

Section Scan.
Variables (delim quote escape : N).
Local Notation pq := (pq delim quote escape).

Lemma pq_char : forall lim pv on cur c s, c <> quote -> (c <> delim \/ on = true) -> pq lim pv on cur (c :: s) = pq lim c on (cur ++ [c]) s.
Proof.
  intros lim pv on cur c s Q D. cbn [Proofs.pq]. rewrite (proj2 (N.eqb_neq c quote)) by auto. rewrite andb_false_r. cbn [andb].
  destruct D as [D|D]; [rewrite (proj2 (N.eqb_neq c delim)) by auto; reflexivity|]. subst on. cbn [negb]. rewrite andb_false_r. reflexivity.
Qed.
Lemma pq_run : forall w lim pv on cur s, Forall (fun c => c <> quote /\ (c <> delim \/ on = true)) w ->
  pq lim pv on cur (w ++ s) = pq lim (last w pv) on (cur ++ w) s.
Proof.
  induction w as [|c w IH]; intros lim pv on cur s H; [cbn [app last]; now rewrite app_nil_r|].
  inversion H as [|? ? [H1 H2] H3]; subst. cbn [app]. rewrite pq_char by auto. rewrite IH by auto. rewrite <- app_assoc.
  rewrite last_cons'. reflexivity.
Qed.
Hypothesis q0 : quote <> 0.
Hypothesis e0 : escape <> 0.
Hypothesis dq : delim <> quote.
Hypothesis de : delim <> escape.

Definition esc1 (c : N) : list N := if (c =? quote) || (c =? escape) then [escape; c] else [c].
Definition body (v : list N) : list N := flat_map esc1 v.

(** A quote that is not escaped. *)
Lemma pq_toggle : forall lim pv on cur s, quote <> escape -> pv <> escape -> pq lim pv on cur (quote :: s) = pq lim quote (negb on) (cur ++ [quote]) s.
Proof.
  intros lim pv on cur s QE P. cbn [Proofs.pq]. rewrite N.eqb_refl, (proj2 (N.eqb_neq quote 0)), (proj2 (N.eqb_neq quote escape)) by auto.
  cbn [negb andb]. rewrite (proj2 (N.eqb_neq pv escape)), andb_false_r by auto. rewrite (proj2 (N.eqb_neq quote delim)) by auto. reflexivity.
Qed.
Lemma pq_escaped : forall lim on cur s, quote <> escape -> pq lim escape on cur (quote :: s) = pq lim quote on (cur ++ [quote]) s.
Proof.
  intros lim on cur s QE. cbn [Proofs.pq]. rewrite N.eqb_refl, (proj2 (N.eqb_neq quote 0)), (proj2 (N.eqb_neq quote escape)), (proj2 (N.eqb_neq escape 0)) by auto.
  cbn [negb andb]. rewrite N.eqb_refl. reflexivity.
Qed.
Lemma body_on : forall v lim pv cur s, quote <> escape -> pq lim pv true cur (body v ++ s) = pq lim (last v pv) true (cur ++ body v) s.
Proof.
  induction v as [|c v IH]; intros lim pv cur s QE; [cbn [body flat_map app last]; now rewrite app_nil_r|].
  unfold body in *. cbn [flat_map]. rewrite <- app_assoc.
  rewrite last_cons'. unfold esc1 at 1 3. destruct (N.eqb_spec c quote) as [->|C1].
  - cbn [orb app]. rewrite pq_char by auto. rewrite pq_escaped by auto. rewrite IH by auto. rewrite <- !app_assoc. reflexivity.
  - cbn [orb]. destruct (N.eqb_spec c escape) as [->|C2]; cbn [app].
    + rewrite !pq_char by auto. rewrite IH by auto. rewrite <- !app_assoc. reflexivity.
    + rewrite !pq_char by auto. rewrite IH by auto. rewrite <- !app_assoc. reflexivity.
Qed.

(** The same when quotes are doubled. *)
Section Doubled.
Hypothesis qe : quote = escape.
Lemma pq_pair : forall lim pv on cur s, pq lim pv on cur (quote :: quote :: s) = pq lim quote on (cur ++ [quote; quote]) s.
Proof.
  intros. cbn [Proofs.pq]. rewrite N.eqb_refl, (proj2 (N.eqb_neq quote 0)) by auto. rewrite <- qe, N.eqb_refl. reflexivity.
Qed.
Lemma pq_single : forall lim pv on cur x s, x <> quote -> pq lim pv on cur (quote :: x :: s) = pq lim quote (negb on) (cur ++ [quote]) (x :: s).
Proof.
  intros lim pv on cur x s X. cbn [Proofs.pq]. rewrite N.eqb_refl, (proj2 (N.eqb_neq quote 0)), (proj2 (N.eqb_neq x quote)) by auto. rewrite <- qe, N.eqb_refl.
  cbn [negb andb]. rewrite andb_false_r. cbn [andb]. rewrite (proj2 (N.eqb_neq quote delim)) by auto. reflexivity.
Qed.
Lemma esc1_q : esc1 quote = [quote; quote].
Proof. unfold esc1. rewrite N.eqb_refl, <- qe. reflexivity. Qed.
Lemma esc1_o : forall c, c <> quote -> esc1 c = [c].
Proof. intros c H. unfold esc1. rewrite <- qe, (proj2 (N.eqb_neq c quote)) by auto. reflexivity. Qed.
Lemma dbl_on : forall v lim pv cur x s, x <> quote ->
  pq lim pv true cur (body v ++ quote :: x :: s) = pq lim quote false (cur ++ body v ++ [quote]) (x :: s).
Proof.
  induction v as [|c v IH]; intros lim pv cur x s X; [cbn [body flat_map app]; now apply pq_single|].
  unfold body in *. cbn [flat_map]. destruct (N.eq_dec c quote) as [->|C].
  - rewrite esc1_q. cbn [app]. rewrite pq_pair. rewrite IH by auto. rewrite <- !app_assoc. reflexivity.
  - rewrite esc1_o by auto. cbn [app]. rewrite pq_char by auto. rewrite IH by auto. rewrite <- !app_assoc. reflexivity.
Qed.
Lemma dbl_off : forall v lim pv cur x s, x <> quote ->
  pq lim pv false cur (quote :: body v ++ quote :: x :: s) = pq lim quote false (cur ++ quote :: body v ++ [quote]) (x :: s).
Proof.
  induction v as [|c v IH]; intros lim pv cur x s X; [cbn [body flat_map app]; apply pq_pair|].
  unfold body in *. cbn [flat_map]. destruct (N.eq_dec c quote) as [->|C].
  - rewrite esc1_q. cbn [app]. rewrite pq_pair. rewrite IH by auto. rewrite <- !app_assoc. reflexivity.
  - rewrite esc1_o by auto. cbn [app]. rewrite pq_single by auto. cbn [negb]. rewrite pq_char by auto.
    assert (Y := dbl_on v lim c ((cur ++ [quote]) ++ [c]) x s X). unfold body in Y. rewrite Y. rewrite <- !app_assoc. reflexivity.
Qed.
End Doubled.

(** A quoted value as a whole. *)
Lemma pq_value : forall v lim pv cur x s, pv <> escape -> x <> quote -> (quote <> escape -> v = [] \/ last v 0 <> escape) ->
  pq lim pv false cur (quote :: body v ++ quote :: x :: s) = pq lim quote false (cur ++ quote :: body v ++ [quote]) (x :: s).
Proof.
  intros v lim pv cur x s P X L. destruct (N.eq_dec quote escape) as [E|E]; [now apply dbl_off|].
  rewrite pq_toggle by auto. cbn [negb]. rewrite body_on by auto. rewrite pq_toggle; auto.
  - cbn [negb]. rewrite <- !app_assoc. reflexivity.
  - destruct (L E) as [->|L']; [exact E|]. destruct v as [|c v]; [exact E|].
    rewrite (last_def v c quote 0). exact L'.
Qed.

Lemma unescape_body : forall v, unescape escape (body v) false = v.
Proof.
  induction v as [|c v IH]; [reflexivity|]. unfold body in *. cbn [flat_map]. unfold esc1 at 1. destruct ((c =? quote) || (c =? escape)) eqn:E.
  - cbn [app unescape negb andb]. rewrite N.eqb_refl. cbn [unescape negb andb]. now rewrite IH.
  - cbn [app unescape negb andb]. apply orb_false_elim in E. rewrite (proj2 E), IH. reflexivity.
Qed.
Lemma unescape_plain : forall v, ~ In escape v -> unescape escape v false = v.
Proof. induction v as [|c v IH]; intros H; [reflexivity|]. cbn [unescape negb andb]. destruct (N.eqb_spec c escape) as [->|]; [destruct H; now left|]. rewrite IH; auto. intros F. apply H. now right. Qed.

Lemma removelast_snoc' : forall (l : list N) x, removelast (l ++ [x]) = l.
Proof. apply removelast_last. Qed.
Lemma unquote_quoted : forall v, unquote quote escape (quote :: body v ++ [quote]) = Some v.
Proof.
  intros v. unfold unquote. cbn [length]. rewrite app_length. cbn [length]. rewrite (proj2 (Nat.leb_le 2 _)) by lia. rewrite N.eqb_refl.
  change (quote :: body v ++ [quote]) with ((quote :: body v) ++ [quote]). rewrite last_last, N.eqb_refl. cbn [andb].
  rewrite removelast_last, unescape_body. reflexivity.
Qed.
Lemma unquote_plain : forall v, v <> [] -> ~ In quote v -> ~ In escape v -> unquote quote escape v = Some v.
Proof.
  intros [|c v] N Q E; [congruence|]. unfold unquote. rewrite (proj2 (N.eqb_neq c quote)) by (intros ->; apply Q; now left).
  rewrite andb_false_r. cbn [andb]. now rewrite unescape_plain.
Qed.
End Scan.

Lemma white_iff : forall c, isspace c = true <-> white c.
Proof.
  intros c. unfold isspace, white. rewrite orb_true_iff, andb_true_iff, N.eqb_eq, !N.leb_le. tauto.
Qed.
Lemma not_white : forall c, ~ white c -> isspace c = false.
Proof. intros c H. destruct (isspace c) eqn:E; [|reflexivity]. apply white_iff in E. contradiction. Qed.
Lemma ltrim_id : forall s, (s = [] \/ isspace (hd 0 s) = false) -> ltrim s = s.
Proof. intros [|c s] H; [reflexivity|]. destruct H as [H|H]; [discriminate H|]. cbn [hd] in H. cbn [ltrim]. rewrite H. reflexivity. Qed.
Lemma trim_cr : forall s cr, s <> [] -> isspace (hd 0 s) = false -> isspace (last s 0) = false -> Forall (fun c => isspace c = true) cr -> trim (s ++ cr) = s.
Proof.
  intros s cr SN H L C. unfold trim. rewrite (ltrim_id (s ++ cr)) by (right; destruct s; [congruence|exact H]). rewrite rev_app_distr.
  assert (E : ltrim (rev cr ++ rev s) = ltrim (rev s)).
  { assert (R : Forall (fun c => isspace c = true) (rev cr)) by (apply Forall_rev; auto). induction R as [|c l X _ IH]; [reflexivity|]. cbn [app ltrim]. now rewrite X. }
  rewrite E, ltrim_id; [apply rev_involutive|]. right. destruct (rev s) as [|x r] eqn:R; [apply (f_equal (@length BinNums.N)) in R; rewrite rev_length in R; destruct s; [congruence|discriminate R]|].
  apply (f_equal (@rev N)) in R. rewrite rev_involutive in R. cbn [rev] in R. subst s. rewrite last_last in L. exact L.
Qed.
Lemma trim_id : forall s, s = [] \/ (isspace (hd 0 s) = false /\ isspace (last s 0) = false) -> trim s = s.
Proof.
  intros s [->|[A B]]; [reflexivity|]. destruct s as [|c s]; [reflexivity|]. rewrite <- (app_nil_r (c :: s)) at 1. apply trim_cr; auto. discriminate.
Qed.

Section RoundTrip.
Variables (delim kvd quote escape : N) (fl : sflags) (b : N) (tr : bool).
Hypothesis SP : specials_ok delim kvd quote escape.
Hypothesis MO : modes_ok delim kvd quote (lf_to_crlf fl) tr.
Hypothesis NH : hexencode fl = false.

Definition wpart (qt : qtype) (v : option (list N)) : list N :=
  match qt with QOff => val_bytes v | _ => quote :: body quote escape (val_bytes v) ++ [quote] end.
Definition cr : list N := if lf_to_crlf fl && (delim =? 10) then [13] else [].
Definition off_ok (v : list N) : Prop := v <> [] /\ isspace (hd 0 v) = false /\ isspace (last v 0) = false /\
  Forall (fun c => c <> delim /\ c <> kvd /\ c <> quote /\ c <> escape) v.

Lemma qt_loop : forall v qt,
  match quotetype_loop delim kvd quote escape fl v qt with
  | QOff => qt = QOff /\ Forall (fun c => c <> delim /\ c <> kvd /\ c <> quote /\ c <> escape) v
  | QOn => qt <> QEscape /\ Forall (fun c => c <> quote /\ c <> escape) v
  | QEscape => True
  end.
Proof.
  induction v as [|c v IH]; intros qt; cbn [quotetype_loop].
  - destruct qt; [split; [reflexivity|constructor]|split; [discriminate|constructor]|exact I].
  - rewrite NH, andb_false_r, orb_false_r. destruct (N.eqb_spec c quote) as [|CQ]; [exact I|]. destruct (N.eqb_spec c escape) as [|CE]; [exact I|]. cbn [orb].
    set (qt' := match qt with QOff => _ | _ => _ end). specialize (IH qt').
    destruct (quotetype_loop _ _ _ _ _ v qt').
    + destruct IH as [I1 I2]. assert (D : qt = QOff /\ c <> delim /\ c <> kvd).
      { unfold qt' in I1. destruct qt; try discriminate I1. split; [reflexivity|].
        destruct (N.eqb_spec c delim) as [|D1]; [rewrite orb_true_r in I1; discriminate I1|]. destruct (N.eqb_spec c kvd) as [|D2]; [rewrite orb_true_r in I1; discriminate I1|]. auto. }
      destruct D as [D1 [D2 D3]]. split; [auto|]. constructor; auto.
    + destruct IH as [I1 I2]. split; [|constructor; auto]. unfold qt' in I1. destruct qt; [discriminate|discriminate|auto].
    + exact I.
Qed.

Lemma qt_spec : forall v, exists qt, quotetype delim kvd quote escape fl (Some b) v = Ok qt /\
  match qt with
  | QOff => match v with Some v => off_ok v | None => True end
  | QOn => match v with Some v => Forall (fun c => c <> quote /\ c <> escape) v | None => always_quote fl = true end
  | QEscape => exists v', v = Some v'
  end.
Proof.
  intros [[|c v]|].
  - exists QOn. split; [reflexivity|constructor].
  - eexists. split; [reflexivity|]. assert (Q := qt_loop (c :: v) (if isspace c || isspace (last (c :: v) 0) then QOn else if always_quote fl then QOn else QOff)).
    destruct (quotetype_loop _ _ _ _ _ _ _).
    + destruct Q as [Q1 Q2]. destruct (isspace c || isspace (last (c :: v) 0)) eqn:S; [discriminate Q1|]. apply orb_false_elim in S. destruct S as [S1 S2].
      split; [discriminate|]. split; [exact S1|]. split; [exact S2|exact Q2].
    + apply Q.
    + eauto.
  - exists (if always_quote fl then QOn else QOff). split; [reflexivity|]. destruct (always_quote fl) eqn:A; [reflexivity|exact I].
Qed.

Lemma escape_one_esc1 : forall c, escape_one quote escape fl c = esc1 quote escape c.
Proof. intros c. unfold escape_one, esc1. rewrite NH, andb_false_r. destruct ((c =? quote) || (c =? escape)); reflexivity. Qed.
Lemma body_plain : forall v, Forall (fun c => c <> quote /\ c <> escape) v -> body quote escape v = v.
Proof.
  induction 1 as [|c v [A B] _ IH]; [reflexivity|]. unfold body in *. cbn [flat_map]. rewrite IH. unfold esc1.
  rewrite (proj2 (N.eqb_neq c quote)), (proj2 (N.eqb_neq c escape)) by auto. reflexivity.
Qed.
Lemma sep_kv : sep_bytes fl kvd = [kvd].
Proof. unfold sep_bytes. destruct (lf_to_crlf fl) eqn:C; [|reflexivity]. destruct MO as [_ M]. destruct (M eq_refl) as [M1 _]. rewrite (proj2 (N.eqb_neq _ _) M1). reflexivity. Qed.
Lemma sep_d : sep_bytes fl delim = cr ++ [delim].
Proof. unfold sep_bytes, cr. destruct (lf_to_crlf fl); cbn [andb]; [|reflexivity]. destruct (N.eqb_spec delim 10) as [->|]; reflexivity. Qed.

(** What one entry looks like. *)
Lemma ser_entry_ok : forall k v, val_ok quote escape (always_quote fl) v ->
  exists w, ser_entry delim kvd quote escape fl (Some b) (k, v) = Ok (k ++ kvd :: w ++ cr ++ [delim]) /\
    ((w = [] /\ v = None) \/ (exists u, v = Some u /\ w = u /\ off_ok u) \/
     (exists u, v = Some u /\ w = quote :: body quote escape u ++ [quote])).
Proof.
  intros k v V. destruct (qt_spec v) as [qt [Q S]]. unfold ser_entry. rewrite Q. cbn [bind]. rewrite sep_kv, sep_d.
  destruct qt.
  - exists (val_bytes v). split; [reflexivity|]. destruct v as [v|]; [right; left; exists v; auto|left; auto].
  - destruct v as [v|]; [|cbn in V; rewrite V in S; discriminate S]. exists (quote :: body quote escape v ++ [quote]). split.
    + cbn [val_bytes]. rewrite body_plain by auto. cbn [app]. rewrite <- !app_assoc. reflexivity.
    + right. right. exists v. auto.
  - destruct S as [v' ->]. exists (quote :: body quote escape v' ++ [quote]). split.
    + cbn [val_bytes]. assert (E : flat_map (escape_one quote escape fl) v' = body quote escape v') by (unfold body; apply flat_map_ext; apply escape_one_esc1).
      rewrite E. cbn [app]. rewrite <- !app_assoc. reflexivity.
    + right. right. exists v'. auto.
Qed.

Definition wform (v : option (list N)) (w : list N) : Prop :=
  (w = [] /\ v = None) \/ (exists u, v = Some u /\ w = u /\ off_ok u) \/ (exists u, v = Some u /\ w = quote :: body quote escape u ++ [quote]).

Lemma cr_delim_x : exists x s, cr ++ [delim] = x :: s /\ x <> quote.
Proof.
  destruct SP as [_ [_ [DQ _]]]. unfold cr. destruct (lf_to_crlf fl) eqn:C; cbn [andb]; [|exists delim, []; auto].
  destruct (N.eqb_spec delim 10) as [D|D]; [|exists delim, []; auto]. exists 13, [delim]. split; [reflexivity|].
  destruct MO as [M1 M2]. destruct (M2 eq_refl) as [_ M3]. destruct (M1 (M3 D)) as [_ M4]. intros E. apply M4. rewrite <- E. right. lia.
Qed.

(** The scanner passes over an entry and cuts behind it. *)
Lemma scan_entry : forall k v w pv rest, key_ok delim kvd quote tr k -> val_ok quote escape (always_quote fl) v -> wform v w ->
  pq delim quote escape None pv false [] ((k ++ kvd :: w ++ cr ++ [delim]) ++ rest) = (k ++ kvd :: w ++ cr) :: pq delim quote escape None delim false [] rest.
Proof.
  intros k v w pv rest [K1 [K2 _]] V W. destruct SP as [[[D0 D1] [[V0 V1] [[Q0 Q1] [E0 E1]]]] [DV [DQ [DE [VQ VE]]]]].
  replace ((k ++ kvd :: w ++ cr ++ [delim]) ++ rest) with (k ++ kvd :: (w ++ ((cr ++ [delim]) ++ rest))) by (rewrite <- !app_assoc; cbn [app]; rewrite <- !app_assoc; reflexivity).
  rewrite pq_run by (eapply Forall_impl; [|exact K2]; intros c; cbn beta; tauto). cbn [app]. rewrite pq_char by (auto; left; congruence).
  destruct cr_delim_x as [x [s [CX XQ]]].
  assert (T : exists pv', pq delim quote escape None kvd false (k ++ [kvd]) (w ++ ((cr ++ [delim]) ++ rest)) = pq delim quote escape None pv' false ((k ++ [kvd]) ++ w) ((cr ++ [delim]) ++ rest)).
  { destruct W as [[-> _]|[[u [-> [-> O]]]|[u [-> ->]]]].
    - exists kvd. now rewrite app_nil_r.
    - eexists. apply pq_run. destruct O as [_ [_ [_ O]]]. eapply Forall_impl; [|exact O]. intros c; cbn beta; tauto.
    - exists quote. rewrite CX. cbn [app]. rewrite <- app_assoc. cbn [app]. rewrite pq_value by (auto; try lia; apply V). reflexivity. }
  destruct T as [pv' ->]. unfold cr in CX |- *. rewrite <- app_assoc.
  assert (CUT : forall pv'' cur, pq delim quote escape None pv'' false cur ([delim] ++ rest) = cur :: pq delim quote escape None delim false [] rest).
  { intros pv'' cur. cbn [app pq]. rewrite (proj2 (N.eqb_neq delim quote)) by auto. rewrite andb_false_r. cbn [andb]. rewrite N.eqb_refl. reflexivity. }
  destruct (lf_to_crlf fl && (delim =? 10)) eqn:C.
  - injection CX as <- <-. apply andb_prop in C. destruct C as [_ C]. apply N.eqb_eq in C. cbn [app]. rewrite pq_char by (auto; left; rewrite C; lia).
    change (delim :: rest) with ([delim] ++ rest). rewrite CUT. rewrite <- ?app_assoc. reflexivity.
  - cbn [app]. change (delim :: rest) with ([delim] ++ rest). rewrite CUT. rewrite ?app_nil_r, <- ?app_assoc. reflexivity.
Qed.

Lemma body_no_nul : forall u, escape <> 0 -> no_nul u -> no_nul (body quote escape u).
Proof.
  intros u E H. induction H as [|c u C _ IH]; [constructor|]. unfold body in *. cbn [flat_map]. apply Forall_app. split; [|exact IH].
  unfold esc1. destruct (_ || _); repeat constructor; auto.
Qed.
Lemma w_no_nul : forall v w, val_ok quote escape (always_quote fl) v -> wform v w -> no_nul w.
Proof.
  intros v w V W. destruct SP as [[_ [_ [[Q0 _] [E0 _]]]] _]. destruct W as [[-> _]|[[u [-> [-> _]]]|[u [-> ->]]]]; [constructor|apply V|].
  constructor; [lia|]. apply Forall_app. split; [apply body_no_nul; [lia|apply V]|repeat constructor; lia].
Qed.
Lemma key_no_nul : forall k, key_ok delim kvd quote tr k -> no_nul k.
Proof. intros k [_ [K _]]. eapply Forall_impl; [|exact K]. cbn beta. tauto. Qed.

Lemma w_trim : forall v w, tr = true -> wform v w -> w = [] \/ (isspace (hd 0 w) = false /\ isspace (last w 0) = false).
Proof.
  intros v w T W. destruct MO as [M _]. destruct (M T) as [_ MQ]. destruct W as [[-> _]|[[u [-> [-> O]]]|[u [-> ->]]]]; [now left|right|right].
  - unfold off_ok in O. tauto.
  - cbn [hd]. split; [now apply not_white|]. change (quote :: body quote escape u ++ [quote]) with ((quote :: body quote escape u) ++ [quote]). rewrite last_last. now apply not_white.
Qed.
Lemma w_unquote : forall v w, wform v w -> unquote quote escape w = v.
Proof.
  intros v w W. destruct SP as [[_ [_ [[Q0 _] [E0 _]]]] [_ [DQ [DE _]]]]. destruct W as [[-> ->]|[[u [-> [-> O]]]|[u [-> ->]]]]; [reflexivity| |apply (unquote_quoted delim); auto; lia].
  destruct O as [N [_ [_ O]]]. rewrite Forall_forall in O. apply unquote_plain; auto; intros F; apply O in F; tauto.
Qed.
Lemma hd_app : forall (k r : list N), k <> [] -> hd 0 (k ++ r) = hd 0 k.
Proof. intros [|c k] r H; [congruence|reflexivity]. Qed.
Lemma last_app' : forall (k r : list N), r <> [] -> last (k ++ r) 0 = last r 0.
Proof. intros k r H. destruct (exists_last H) as [r' [x ->]]. rewrite app_assoc, !last_last. reflexivity. Qed.

(** Reading one section back. *)
Lemma read_section : forall k v w kvs, key_ok delim kvd quote tr k -> val_ok quote escape (always_quote fl) v -> wform v w ->
  deser_loop kvd quote escape tr ((k ++ kvd :: w ++ cr) :: kvs) =
  (do rest <- deser_loop kvd quote escape tr kvs; Ok (option_map (cons (k, v)) rest)).
Proof.
  intros k v w kvs K V W. cbn [deser_loop]. assert (WTR := w_trim v w). assert (KK := K). destruct KK as [K1 [K2 K3]]. destruct SP as [[[D0 D1] [[V0 V1] [[Q0 Q1] [E0 E1]]]] [DV [DQ [DE [VQ VE]]]]].
  assert (S : (if tr then trim (k ++ kvd :: w ++ cr) else k ++ kvd :: w ++ cr) = k ++ kvd :: w).
  { destruct tr eqn:T.
    - replace (k ++ kvd :: w ++ cr) with ((k ++ kvd :: w) ++ cr) by (rewrite <- app_assoc; reflexivity). destruct (K3 eq_refl) as [K4 K5].
      destruct MO as [M _]. destruct (M eq_refl) as [MV MQ]. apply trim_cr.
      + destruct k; discriminate.
      + rewrite hd_app by auto. now apply not_white.
      + rewrite last_app' by discriminate. destruct (WTR eq_refl W) as [->|[_ WL]]; [cbn; now apply not_white|]. destruct w as [|y w]; [cbn; now apply not_white|]. exact WL.
      + unfold cr. destruct (lf_to_crlf fl && (delim =? 10)); repeat constructor.
    - assert (C : cr = []). { unfold cr. destruct (lf_to_crlf fl) eqn:C; cbn [andb]; [|reflexivity]. destruct (N.eqb_spec delim 10) as [D|D]; [|reflexivity]. destruct MO as [_ M]. destruct (M eq_refl) as [_ M2]. discriminate (M2 D). }
      rewrite C, app_nil_r. reflexivity. }
  rewrite S. clear S. destruct (k ++ kvd :: w) as [|y s] eqn:NE; [destruct k; discriminate NE|]. rewrite <- NE. clear NE y s.
  rewrite explode_strs_pq; auto; try lia.
  2:{ destruct k; discriminate. }
  2:{ apply Forall_app. split; [now apply key_no_nul|]. constructor; [lia|]. eapply w_no_nul; eauto. }
  rewrite pq_run by (eapply Forall_impl; [|exact K2]; intros c; cbn beta; tauto). cbn [app].
  assert (P : forall pv, pq kvd quote escape (lim_of 2 0) pv false k (kvd :: w) = [k; w]).
  { intros pv. cbn [pq lim_of Nat.eqb Nat.sub]. rewrite (proj2 (N.eqb_neq kvd quote)) by auto. rewrite andb_false_r. cbn [andb]. rewrite N.eqb_refl. reflexivity. }
  rewrite P. cbn [bind]. assert (KT : (if tr then trim k else k) = k).
  { destruct tr eqn:T; [|reflexivity]. destruct (K3 eq_refl). apply trim_id. right. split; now apply not_white. }
  assert (WT : (if tr then trim w else w) = w) by (destruct tr eqn:T; [|reflexivity]; apply trim_id; exact (WTR eq_refl W)).
  rewrite KT, WT, (w_unquote v w W). destruct (deser_loop kvd quote escape tr kvs) as [r| |]; cbn [bind]; [|reflexivity|reflexivity]. destruct k; [congruence|reflexivity].
Qed.

Lemma ser_deser : forall d, Forall (fun e => key_ok delim kvd quote tr (fst e) /\ val_ok quote escape (always_quote fl) (snd e)) d ->
  exists s, serialize delim kvd quote escape fl (Some b) d = Ok s /\ no_nul s /\ (d = [] \/ s <> []) /\
    forall pv, deser_loop kvd quote escape tr (pq delim quote escape None pv false [] s) = Ok (Some d).
Proof.
  induction d as [|[k v] d IH]; intros H.
  - exists []. split; [reflexivity|]. split; [constructor|]. split; [now left|]. intros pv. cbn [pq deser_loop]. destruct tr; reflexivity.
  - inversion H as [|? ? [HK HV] HD]; subst. cbn [fst snd] in *. destruct (IH HD) as [s [S [NN [_ R]]]].
    destruct (ser_entry_ok k v HV) as [w [E W]]. exists ((k ++ kvd :: w ++ cr ++ [delim]) ++ s). cbn [serialize]. rewrite E, S. cbn [bind].
    split; [reflexivity|]. split.
    + destruct SP as [[[D0 D1] [[V0 V1] _]] _]. repeat (apply Forall_app; split); auto; [now apply key_no_nul|]. constructor; [lia|]. repeat (apply Forall_app; split); [eapply w_no_nul; eauto| |repeat constructor; lia].
      unfold cr. destruct (lf_to_crlf fl && (delim =? 10)); repeat constructor. lia.
    + split; [right; destruct k; discriminate|]. intros pv. rewrite (scan_entry k v w) by auto. rewrite (read_section k v w) by auto. rewrite R. reflexivity.
Qed.

Theorem roundtrip : forall d, d <> [] -> Forall (fun e => key_ok delim kvd quote tr (fst e) /\ val_ok quote escape (always_quote fl) (snd e)) d ->
  exists s, serialize delim kvd quote escape fl (Some b) d = Ok s /\ deserialize delim kvd quote escape tr s = Ok (Some d).
Proof.
  intros d N H. destruct (ser_deser d H) as [s [S [NN [NE R]]]]. exists s. split; [exact S|]. destruct NE as [NE|NE]; [congruence|].
  unfold deserialize. destruct s as [|c s]; [congruence|]. destruct SP as [[[D0 D1] [[V0 V1] [[Q0 Q1] [E0 E1]]]] [DV [DQ [DE [VQ VE]]]]].
  rewrite explode_strs_pq; auto; try lia. cbn [bind]. apply R.
Qed.
End RoundTrip.

(** ** Where M_str_explode_quoted cuts *)
Section Cuts.
Variables (delim quote escape : N).
Local Notation pq := (pq delim quote escape).
Lemma joined_cons : forall x l, l <> [] -> joined delim (x :: l) = x ++ delim :: joined delim l.
Proof. intros x [|y l] H; [congruence|reflexivity]. Qed.
Lemma pq_joined_n : forall n lim pv on cur s, (length s <= n)%nat -> joined delim (pq lim pv on cur s) = cur ++ s.
Proof.
  induction n as [|n IH]; intros lim pv on cur [|c s] L; try (cbn [Proofs.pq joined]; now rewrite app_nil_r); [cbn in L; lia|].
  cbn [length] in L. cbn [Proofs.pq].
  destruct (negb (quote =? 0) && (c =? quote) && (quote =? escape) && match s with c2 :: _ => c2 =? quote | [] => false end).
  { destruct s as [|c2 s]; [reflexivity|]. cbn [length] in L. rewrite IH by lia. rewrite <- app_assoc. reflexivity. }
  destruct (negb (quote =? 0) && (c =? quote) && negb (escape =? 0) && negb (quote =? escape) && (pv =? escape)); [rewrite IH by lia; rewrite <- app_assoc; reflexivity|].
  destruct ((c =? delim) && _) eqn:D; [|rewrite IH by lia; rewrite <- app_assoc; reflexivity].
  apply andb_prop in D. destruct D as [D _]. apply N.eqb_eq in D. subst c.
  set (X := if negb (quote =? 0) && (delim =? quote) then negb on else on).
  assert (Y : joined delim (match lim with Some 1%nat => [s] | _ => pq (dec_lim lim) delim X [] s end) = s /\ match lim with Some 1%nat => [s] | _ => pq (dec_lim lim) delim X [] s end <> []).
  { assert (Z : joined delim (pq (dec_lim lim) delim X [] s) = s /\ pq (dec_lim lim) delim X [] s <> []) by (split; [apply IH; lia|apply pq_ne]).
    destruct lim as [[|[|m]]|]; try exact Z. split; [reflexivity|discriminate]. }
  destruct Y as [Y1 Y2]. rewrite joined_cons by exact Y2. rewrite Y1. reflexivity.
Qed.
Lemma pq_len_n : forall n k pv on cur s, (length s <= n)%nat -> (1 <= k)%nat -> (length (pq (Some k) pv on cur s) <= S k)%nat.
Proof.
  induction n as [|n IH]; intros k pv on cur [|c s] L K; try (cbn [Proofs.pq length]; lia); [cbn in L; lia|].
  cbn [length] in L. cbn [Proofs.pq].
  destruct (negb (quote =? 0) && (c =? quote) && (quote =? escape) && match s with c2 :: _ => c2 =? quote | [] => false end).
  { destruct s as [|c2 s]; [cbn; lia|]. cbn [length] in L. apply IH; lia. }
  destruct (negb (quote =? 0) && (c =? quote) && negb (escape =? 0) && negb (quote =? escape) && (pv =? escape)); [apply IH; lia|].
  destruct ((c =? delim) && _) eqn:D; [|apply IH; lia].
  destruct k as [|[|k]]; [lia|cbn; lia|]. cbn [length dec_lim option_map pred].
  match goal with |- (S (length (pq (Some (S k)) c ?o [] s)) <= _)%nat => specialize (IH (S k) c o [] s ltac:(lia) ltac:(lia)) end. lia.
Qed.

Hypothesis dq : delim <> quote.
Hypothesis de : delim <> escape.
Lemma quotes_app : forall a pv b, quotes quote escape pv (a ++ b) = (quotes quote escape pv a + quotes quote escape (last a pv) b)%nat.
Proof. induction a as [|c a IH]; intros pv b; [reflexivity|]. cbn [app quotes]. rewrite IH, last_cons'. lia. Qed.
Definition sealed (cur : list N) : Prop := forall p r, cur = p ++ delim :: r -> ~ outside delim quote escape p.
Definition pvx (pv : N) : bool := negb (escape =? 0) && (pv =? escape).
Definition pinv (pv : N) (on : bool) (cur : list N) : Prop :=
  pvx pv = (last cur delim =? escape) /\ on = Nat.odd (quotes quote escape delim cur) /\ sealed cur.
Lemma last_snoc_def : forall (l : list N) x d, last (l ++ [x]) d = x.
Proof. intros. apply last_last. Qed.
Lemma sealed_snoc : forall cur c, sealed cur -> (c = delim -> ~ outside delim quote escape cur) -> sealed (cur ++ [c]).
Proof.
  intros cur c S C p r E. destruct r as [|x r] using rev_ind.
  - apply app_inj_tail in E. destruct E as [-> ->]. now apply C.
  - clear IHr. change (p ++ delim :: r ++ [x]) with (p ++ (delim :: r) ++ [x]) in E. rewrite app_assoc in E. apply app_inj_tail in E. destruct E as [E _]. now apply (S p r).
Qed.
Lemma out_odd : forall s, outside delim quote escape s <-> Nat.odd (quotes quote escape delim s) = false.
Proof. intros s. unfold outside, Nat.odd. destruct (Nat.even _); cbn; split; auto. Qed.
Lemma odd_add1 : forall a, Nat.odd (a + 1) = negb (Nat.odd a).
Proof. intros a. rewrite Nat.add_1_r, Nat.odd_succ. unfold Nat.odd. now rewrite negb_involutive. Qed.
Lemma pvx_nz : forall c, c <> 0 -> pvx c = (c =? escape).
Proof. intros c H. unfold pvx. destruct (N.eqb_spec escape 0) as [->|]; [cbn; symmetry; now apply N.eqb_neq|reflexivity]. Qed.
Lemma pinv_snoc : forall pv on cur c, pinv pv on cur -> c <> 0 -> (c = delim -> on = true) ->
  pinv c (if (c =? quote) && ((quote =? escape) || negb (pvx pv)) then negb on else on) (cur ++ [c]).
Proof.
  intros pv on cur c [A [B C]] NZ D. split; [rewrite last_snoc_def; now apply pvx_nz|]. split.
  - rewrite quotes_app. cbn [quotes]. rewrite Nat.add_0_r, <- A. destruct ((c =? quote) && ((quote =? escape) || negb (pvx pv))).
    + rewrite odd_add1, B. reflexivity.
    + rewrite Nat.add_0_r. exact B.
  - apply sealed_snoc; auto. intros E. rewrite out_odd, <- B, (D E). discriminate.
Qed.
Lemma pinv_start : delim <> 0 -> pinv delim false [].
Proof. intros D. split; [rewrite pvx_nz by auto; reflexivity|]. split; [reflexivity|]. intros [|] r E; discriminate E. Qed.
Lemma cut_cons : forall x l, l <> [] -> sealed x -> outside delim quote escape x -> cut_right delim quote escape l -> cut_right delim quote escape (x :: l).
Proof.
  intros x l N SX OX [C1 C2]. split.
  - intros piece p r [<-|I] E; [now apply (SX p r)|now apply (C1 piece p r)].
  - intros piece I. destruct l as [|y l]; [congruence|]. change (removelast (x :: y :: l)) with (x :: removelast (y :: l)) in I. destruct I as [<-|I]; auto.
Qed.
Lemma cut_one : forall x, sealed x -> cut_right delim quote escape [x].
Proof. intros x S. split; [intros piece p r [<-|[]] E; now apply (S p r)|intros piece []]. Qed.
Lemma pq_cuts_n : forall n pv on cur s, (length s <= n)%nat -> delim <> 0 -> Forall (fun c => c <> 0) s -> pinv pv on cur -> cut_right delim quote escape (pq None pv on cur s).
Proof.
  induction n as [|n IH]; intros pv on cur [|c s] L D0 NZ P; try (cbn [Proofs.pq]; apply cut_one, P); [cbn in L; lia|].
  cbn [length] in L. inversion NZ as [|? ? NC NS]; subst. cbn [Proofs.pq].
  assert (IQ : negb (quote =? 0) && (c =? quote) = (c =? quote)) by (destruct (N.eqb_spec quote 0) as [->|]; [cbn; symmetry; now apply N.eqb_neq|reflexivity]).
  rewrite IQ. destruct (N.eqb_spec c quote) as [->|CQ]; cbn [andb].
  - destruct (N.eqb_spec quote escape) as [QE|QE]; cbn [andb negb].
    + rewrite !andb_false_r. cbn [andb]. rewrite (proj2 (N.eqb_neq quote delim)) by auto. cbn [andb].
      assert (P1 := pinv_snoc pv on cur quote P NC ltac:(congruence)). rewrite N.eqb_refl, (proj2 (N.eqb_eq _ _) QE) in P1. cbn [andb orb] in P1.
      destruct s as [|c2 s]; [apply IH; auto; cbn; lia|]. destruct (N.eqb_spec c2 quote) as [->|C2].
      * assert (P2 := pinv_snoc quote (negb on) (cur ++ [quote]) quote P1 NC ltac:(congruence)). rewrite N.eqb_refl, (proj2 (N.eqb_eq _ _) QE) in P2. cbn [andb orb] in P2.
        rewrite negb_involutive, <- app_assoc in P2. cbn [length] in L. inversion NS; subst. apply IH; auto; lia.
      * apply IH; auto; lia.
    + assert (P1 := pinv_snoc pv on cur quote P NC ltac:(congruence)). rewrite N.eqb_refl, (proj2 (N.eqb_neq _ _) QE) in P1. cbn [andb orb] in P1.
      rewrite andb_true_r. fold (pvx pv). destruct (pvx pv); cbn [negb] in P1; [apply IH; auto; lia|]. rewrite (proj2 (N.eqb_neq quote delim)) by auto. cbn [andb]. apply IH; auto; lia.
  - assert (P1 := pinv_snoc pv on cur c P NC). rewrite (proj2 (N.eqb_neq _ _) CQ) in P1. cbn [andb] in P1.
    destruct (N.eqb_spec c delim) as [->|CD]; cbn [andb]; [|apply IH; auto; try lia; apply P1; congruence].
    destruct on; cbn [negb]; [apply IH; auto; try lia; now apply P1|].
    cbn [dec_lim option_map]. destruct P as [_ [PB PC]]. apply cut_cons; auto; [apply pq_ne|apply out_odd; auto|]. apply IH; auto; [lia|now apply pinv_start].
Qed.
End Cuts.

Section Explode3.
Variables (delim quote escape : N).
Hypothesis q128 : quote < 128.
Hypothesis d128 : delim < 128.
Hypothesis e128 : escape < 128.
Hypothesis de : delim <> escape.
Hypothesis d0 : delim <> 0.
Theorem explode_joined : forall max s, s <> [] -> no_nul s -> exists l, explode_strs delim quote escape max s = Ok (Some l) /\ joined delim l = s /\ ((2 <= max)%nat -> (length l <= max)%nat).
Proof.
  intros max s NS NN. eexists. split; [apply explode_strs_pq; auto|]. split; [apply (pq_joined_n delim quote escape (length s)); lia|].
  intros M. unfold lim_of. rewrite (proj2 (Nat.eqb_neq max 0)) by lia. assert (X := pq_len_n delim quote escape (length s) (max - 1 - 0) 0 false [] s ltac:(lia) ltac:(lia)). lia.
Qed.
Theorem explode_cuts : forall s, delim <> quote -> s <> [] -> no_nul s -> exists l, explode_strs delim quote escape 0 s = Ok (Some l) /\ cut_right delim quote escape l.
Proof.
  intros s DQ NS NN. eexists. split; [apply explode_strs_pq; auto|]. unfold lim_of. cbn [Nat.eqb].
  apply (pq_cuts_n delim quote escape DQ de (length s)); auto. destruct (pinv_start delim quote escape de d0) as [_ [B C]]. split; [|split; [exact B|exact C]].
  cbn [last]. rewrite (proj2 (N.eqb_neq delim escape)) by auto. unfold pvx. destruct (N.eqb_spec escape 0) as [->|E]; [reflexivity|]. cbn [negb andb]. apply N.eqb_neq. congruence.
Qed.
End Explode3.

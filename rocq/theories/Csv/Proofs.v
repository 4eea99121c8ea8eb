From Verif Require Import Base.Lib Base.Mem Hex.Model Str.Model Str.Spec Str.Proofs Str.Props Csv.Model Csv.Spec.
Local Open Scope N_scope.

Lemma rd_app1 {A} (m z : list A) i c : rd m i = Ok c -> rd (m ++ z) i = Ok c.
Proof. rewrite !rd_Ok. intros H. rewrite nth_error_app1; auto. apply nth_error_Some. congruence. Qed.
Lemma upd_app1 {A} (m z : list A) i x : (i < length m)%nat -> upd (m ++ z) i x = upd m i x ++ z.
Proof. revert i. induction m as [|a m IH]; intros [|i] H; cbn in *; try lia; auto. rewrite IH by lia. reflexivity. Qed.
Lemma wr_app1 {A} (m z : list A) i x m' : wr m i x = Ok m' -> wr (m ++ z) i x = Ok (m' ++ z).
Proof. intros H. apply wr_inv in H. destruct H as [L ->]. rewrite wr_lt by (rewrite app_length; lia). now rewrite upd_app1. Qed.
Lemma rdn_app1 {A} (m z : list A) i n l : rdn m i n = Ok l -> rdn (m ++ z) i n = Ok l.
Proof.
  unfold rdn. destruct (Nat.leb_spec (i + n) (length m)) as [L|]; [|discriminate]. intros E. injection E as <-. rewrite app_length.
  destruct (Nat.leb_spec (i + n) (length m + length z)); [|lia]. f_equal. rewrite skipn_app, firstn_app, skipn_length.
  replace (n - (length m - i))%nat with 0%nat by lia. now rewrite firstn_O, app_nil_r.
Qed.
Lemma wrn_app1 {A} (m z l : list A) i m' : wrn m i l = Ok m' -> wrn (m ++ z) i l = Ok (m' ++ z).
Proof.
  unfold wrn. destruct (Nat.leb_spec (i + length l) (length m)) as [L|]; [|discriminate]. intros E. injection E as <-. rewrite app_length.
  destruct (Nat.leb_spec (i + length l) (length m + length z)); [|lia]. f_equal. rewrite firstn_app, skipn_app.
  replace (i - length m)%nat with 0%nat by lia. replace (i + length l - length m)%nat with 0%nat by lia. rewrite firstn_O, app_nil_r, <- !app_assoc. reflexivity.
Qed.

(** ** M_str_trim does not touch what follows the string *)
Lemma lead_space_app s z : forall n i k, lead_space s i n = Ok k -> lead_space (s ++ z) i n = Ok k.
Proof.
  induction n as [|n IH]; intros i k H; [exact H|]. cbn [lead_space] in *. destruct (rd s i) as [c| |] eqn:E; cbn [bind] in H; try discriminate.
  rewrite (rd_app1 s z i c E). cbn [bind]. destruct (chr_isspace c); auto.
Qed.
Lemma trail_space_app s z : forall i k, trail_space s i = Ok k -> trail_space (s ++ z) i = Ok k.
Proof.
  induction i as [|i IH]; intros k H; [exact H|]. cbn [trail_space] in *. destruct (rd s i) as [c| |] eqn:E; cbn [bind] in H; try discriminate.
  rewrite (rd_app1 s z i c E). cbn [bind]. destruct (chr_isspace c); auto.
Qed.
Lemma trim_frame s z m : no_nul s -> trim_max (s ++ [0]) None = Ok m -> trim_max (s ++ 0 :: z) None = Ok (m ++ z).
Proof.
  intros Hn H. change (0 :: z) with ([0] ++ z). rewrite app_assoc. unfold trim_max, str_len_opt in *. rewrite strlen_ok in H by auto.
  rewrite <- app_assoc. cbn [app]. rewrite strlen_ok by auto. cbn [bind] in *. change (0 :: z) with ([0] ++ z). rewrite app_assoc. set (q := s ++ [0]) in *.
  destruct (length s =? 0)%nat; [congruence|]. destruct (lead_space q 0 (length s)) as [i| |] eqn:E1; cbn [bind] in H; try discriminate.
  rewrite (lead_space_app _ _ _ _ _ E1). cbn [bind]. destruct (i =? length s)%nat; [now apply wr_app1|].
  destruct (i =? 0)%nat; cbn [bind] in *.
  - destruct (trail_space q (length s)) as [j| |] eqn:E2; cbn [bind] in H; try discriminate. rewrite (trail_space_app _ _ _ _ E2). cbn [bind]. now apply wr_app1.
  - unfold mmove in *. destruct (rdn q i (length s - i)) as [l| |] eqn:E2; cbn [bind] in H; try discriminate. rewrite (rdn_app1 _ _ _ _ _ E2). cbn [bind].
    destruct (wrn q 0 l) as [q1| |] eqn:E3; cbn [bind] in H; try discriminate. rewrite (wrn_app1 _ _ _ _ _ E3). cbn [bind].
    destruct (wr q1 (length s - i) 0) as [q2| |] eqn:E4; cbn [bind] in H; try discriminate. rewrite (wr_app1 _ _ _ _ _ E4). cbn [bind].
    destruct (trail_space q2 (length s - i)) as [j| |] eqn:E5; cbn [bind] in H; try discriminate. rewrite (trail_space_app _ _ _ _ E5). cbn [bind]. now apply wr_app1.
Qed.
Lemma trim_mem s z : no_nul s -> exists t u w, trimmed s t /\ trim_max (s ++ 0 :: z) None = Ok (u ++ 0 :: z) /\ length u = length s /\ u ++ [0] = t ++ 0 :: w.
Proof.
  intros Hn. destruct (trim_correct s [] Hn) as (t & w & E & L & T & _). rewrite app_length in L. cbn [length] in L.
  assert (X : exists u, t ++ 0 :: w = u ++ [0]).
  { (* the last byte is still the terminator *)
    pose proof (trim_frame s [0] _ Hn E) as F.
    revert E. unfold trim_max, str_len_opt. rewrite strlen_ok by auto. cbn [bind]. set (q := s ++ [0]).
    assert (W : forall m j m', (j <= length s)%nat -> (exists u, m = u ++ [0]) -> length m = S (length s) -> wr m j 0 = Ok m' -> exists u, m' = u ++ [0]).
    { intros m j m' Hj (u & ->) Lm Ew. rewrite app_length in Lm. cbn in Lm. destruct (Nat.eq_dec j (length u)) as [->|].
      - rewrite wr_app_mid in Ew. injection Ew as <-. eauto.
      - apply wr_inv in Ew. destruct Ew as [_ ->]. rewrite upd_app1 by lia. eauto. }
    assert (Lq : length q = S (length s)) by (unfold q; rewrite app_length; cbn; lia).
    assert (Q : exists u, q = u ++ [0]) by (unfold q; eauto).
    destruct (Nat.eqb_spec (length s) 0); [intros Ew; injection Ew as <-; auto|].
    destruct (lead_space q 0 (length s)) as [i| |] eqn:E1; cbn [bind]; try discriminate.
    destruct (i =? length s)%nat; [intros Ew; apply (W q 0%nat); auto; lia|].
    assert (TS : forall q i j, trail_space q i = Ok j -> (j <= i)%nat).
    { clear. intros q. induction i as [|i IH]; intros j H; cbn [trail_space] in H; [injection H as <-; lia|].
      destruct (rd q i); cbn [bind] in H; try discriminate. destruct (chr_isspace a); [apply IH in H; lia|injection H as <-; lia]. }
    destruct (Nat.eqb_spec i 0); cbn [bind].
    - destruct (trail_space q (length s)) as [j| |] eqn:E2; cbn [bind]; try discriminate. apply TS in E2. intros Ew. apply (W q j); auto.
    - unfold mmove. destruct (rdn q i (length s - i)) as [l| |] eqn:E2; cbn [bind]; try discriminate.
      destruct (wrn q 0 l) as [q1| |] eqn:E3; cbn [bind]; try discriminate.
      destruct (wr q1 (length s - i) 0) as [q2| |] eqn:E4; cbn [bind]; try discriminate.
      destruct (trail_space q2 (length s - i)) as [j| |] eqn:E5; cbn [bind]; try discriminate. apply TS in E5. intros Ew.
      apply rdn_len in E2. destruct E2 as [L2 _].
      assert (Q1 : (exists u, q1 = u ++ [0]) /\ length q1 = S (length s)).
      { unfold wrn in E3. destruct (Nat.leb_spec (0 + length l) (length q)); [|discriminate]. injection E3 as <-. cbn [firstn app].
        rewrite app_length, skipn_length, Lq. split; [|lia]. unfold q. rewrite skipn_app. replace (length l - length s)%nat with 0%nat by lia. cbn [skipn].
        rewrite app_assoc. eexists. reflexivity. }
      destruct Q1 as [Q1 L1]. assert (Hj : (length s - i <= length s)%nat) by lia. assert (Q2 := W q1 (length s - i)%nat q2 Hj Q1 L1 E4). apply wr_inv in E4. destruct E4 as [_ ->].
      refine (W _ j _ _ Q2 _ Ew); [lia|now rewrite length_upd]. }
  destruct X as (u & X). exists t, u, w. split; auto. split; [|split; [|auto]].
  - rewrite (trim_frame s z _ Hn E), X, <- app_assoc. reflexivity.
  - apply (f_equal (@length N)) in X. rewrite !app_length in X. cbn [length] in X. rewrite !app_length in L. cbn [length] in L. lia.
Qed.

Section Proofs.
Variables delim quote : N.
Notation doubled := (doubled quote).

(** ** Removing the quotes *)
Fixpoint rqf (s : list N) : list N :=
  match s with
  | [] => []
  | c :: s' =>
    if c =? quote then
      match s' with
      | d :: s'' => if d =? quote then quote :: rqf s'' else rqf s'
      | [] => []
      end
    else c :: rqf s'
  end.

Lemma wr_first r (K : list N) c (T : list N) x : wr (r ++ (K ++ [c]) ++ T) (length r) x = Ok ((r ++ [x]) ++ tl (K ++ [c]) ++ T).
Proof. destruct K as [|k K]; cbn [app tl]; rewrite wr_app_mid, <- !app_assoc; reflexivity. Qed.

Lemma rq_loop_ok z : forall k s, (length s <= k)%nat -> no_nul s -> forall n r J, (length s < n)%nat ->
  exists J', rq_loop quote n (r ++ J ++ s ++ 0 :: z) (length r + length J + length s) (length r + length J) (length r)
    = Ok (r ++ rqf s ++ J' ++ 0 :: z, (length r + length (rqf s))%nat) /\ (length (rqf s) + length J' = length J + length s)%nat.
Proof.
  induction k as [|k IH]; intros s Hk Hn n r J L; (destruct n as [|n]; [lia|]).
  - destruct s; [|cbn in Hk; lia]. cbn [rq_loop length app rqf]. rewrite !Nat.add_0_r. rewrite Nat.ltb_irrefl. exists J. split; [reflexivity|lia].
  - destruct s as [|c s].
    + cbn [rq_loop length app rqf]. rewrite !Nat.add_0_r. rewrite Nat.ltb_irrefl. exists J. split; [reflexivity|lia].
    + cbn [rq_loop]. inversion Hn as [|? ? Hc Hs]; subst. rewrite (proj2 (Nat.ltb_lt (length r + length J) (length r + length J + length (c :: s)))) by (cbn [length]; lia).
      assert (R0 : rd (r ++ J ++ (c :: s) ++ 0 :: z) (length r + length J) = Ok c).
      { rewrite app_assoc, <- app_length. cbn [app]. apply rd_app_mid. }
      rewrite R0. cbn [bind rqf]. destruct (N.eqb_spec c quote) as [->|Hq].
      * destruct s as [|d s].
        -- (* the quote is last *)
           assert (R1 : rd (r ++ J ++ [quote] ++ 0 :: z) (S (length r + length J)) = Ok 0).
           { replace (S (length r + length J)) with (length ((r ++ J) ++ [quote])) by (rewrite !app_length; cbn; lia).
             rewrite (app_assoc J), (app_assoc r), (app_assoc r). apply rd_app_mid. }
           rewrite R1. cbn [bind]. rewrite (proj2 (N.eqb_neq 0 quote)) by congruence.
           destruct (IH [] ltac:(cbn in *; lia) ltac:(constructor) n r (J ++ [quote])) as (J' & E & Lj); [cbn in *; lia|].
           rewrite app_length in E, Lj. cbn [length app rqf] in *. exists J'. split; [|lia].
           replace (r ++ J ++ quote :: 0 :: z) with (r ++ (J ++ [quote]) ++ 0 :: z) by (now rewrite <- (app_assoc J)).
           replace (S (length r + length J)) with (length r + (length J + 1))%nat by lia.
           replace (length r + length J + 1)%nat with (length r + (length J + 1) + 0)%nat by lia. exact E.
        -- assert (R1 : rd (r ++ J ++ (quote :: d :: s) ++ 0 :: z) (S (length r + length J)) = Ok d).
           { replace (S (length r + length J)) with (length ((r ++ J) ++ [quote])) by (rewrite !app_length; cbn; lia).
             replace (r ++ J ++ (quote :: d :: s) ++ 0 :: z) with (((r ++ J) ++ [quote]) ++ d :: s ++ 0 :: z) by (now rewrite <- !app_assoc). apply rd_app_mid. }
           rewrite R1. cbn [bind]. inversion Hs as [|? ? Hd Hs']; subst. destruct (N.eqb_spec d quote) as [->|Hd'].
           ++ replace (r ++ J ++ (quote :: quote :: s) ++ 0 :: z) with (r ++ ((J ++ [quote]) ++ [quote]) ++ s ++ 0 :: z) by (now rewrite <- !app_assoc).
              rewrite wr_first. cbn [bind].
              destruct (IH s ltac:(cbn in *; lia) Hs' n (r ++ [quote]) (tl ((J ++ [quote]) ++ [quote]))) as (J' & E & Lj); [cbn in *; lia|].
              assert (Lt : length (tl ((J ++ [quote]) ++ [quote])) = S (length J)) by (destruct J; cbn; rewrite ?app_length; cbn; rewrite ?app_length; cbn; lia).
              rewrite Lt, app_length in *. cbn [length] in *. exists J'. split; [|lia].
              replace (S (S (length r + length J))) with (length r + 1 + S (length J))%nat by lia.
              replace (length r + length J + S (S (length s)))%nat with (length r + 1 + S (length J) + length s)%nat by lia.
              replace (S (length r)) with (length r + 1)%nat by lia.
              rewrite E. f_equal. f_equal; [|lia]. rewrite <- !app_assoc. reflexivity.
           ++ destruct (IH (d :: s) ltac:(cbn in *; lia) Hs n r (J ++ [quote])) as (J' & E & Lj); [cbn in *; lia|].
              rewrite app_length in E, Lj. cbn [length] in *. exists J'. split; [|lia].
              replace (r ++ J ++ (quote :: d :: s) ++ 0 :: z) with (r ++ (J ++ [quote]) ++ (d :: s) ++ 0 :: z) by (now rewrite <- (app_assoc J)).
              replace (S (length r + length J)) with (length r + (length J + 1))%nat by lia.
              replace (length r + length J + S (S (length s)))%nat with (length r + (length J + 1) + S (length s))%nat by lia. exact E.
      * replace (r ++ J ++ (c :: s) ++ 0 :: z) with (r ++ (J ++ [c]) ++ s ++ 0 :: z) by (now rewrite <- !app_assoc).
        rewrite wr_first. cbn [bind].
        destruct (IH s ltac:(cbn in *; lia) Hs n (r ++ [c]) (tl (J ++ [c]))) as (J' & E & Lj); [cbn in *; lia|].
        assert (Lt : length (tl (J ++ [c])) = length J) by (destruct J; cbn; rewrite ?app_length; cbn; lia).
        rewrite Lt, app_length in *. cbn [length] in *. exists J'. split; [|lia].
        replace (S (length r + length J)) with (length r + 1 + length J)%nat by lia.
        replace (length r + length J + S (length s))%nat with (length r + 1 + length J + length s)%nat by lia.
        replace (S (length r)) with (length r + 1)%nat by lia.
        rewrite E. f_equal. f_equal; [|lia]. rewrite <- !app_assoc. reflexivity.
Qed.

Definition unq (s : list N) : list N := match rqf s with [c] => if c =? quote then [] else [c] | r => r end.

Lemma remove_quotes_ok s z : no_nul s -> exists u w, remove_quotes quote (s ++ 0 :: z) = Ok (u ++ 0 :: z) /\ length u = length s /\ u ++ [0] = unq s ++ 0 :: w.
Proof.
  intros Hn. unfold remove_quotes. rewrite strlen_ok by auto. cbn [bind].
  destruct (rq_loop_ok z (length s) s ltac:(lia) Hn (S (length s)) [] [] ltac:(lia)) as (J & E & L). cbn [app length Nat.add] in *. rewrite E. cbn [bind].
  assert (W : exists u w, wr (rqf s ++ J ++ 0 :: z) (length (rqf s)) 0 = Ok (u ++ 0 :: z) /\ length u = length s /\ u ++ [0] = rqf s ++ 0 :: w).
  { destruct J as [|j J]; cbn [app]; rewrite wr_app_mid.
    - exists (rqf s), []. cbn in L. split; auto. split; auto. lia.
    - exists (rqf s ++ 0 :: J), (J ++ [0]). rewrite <- !app_assoc. cbn [app]. split; auto. split; auto. rewrite app_length. cbn [length] in *. lia. }
  destruct W as (u & w & -> & Lu & Eu). cbn [bind]. unfold unq.
  destruct (rqf s) as [|c [|c' r]] eqn:Er; cbn [length Nat.eqb]; [exists u, w; auto| |exists u, w; auto].
  assert (Hu : exists u', u = c :: u').
  { destruct u as [|x u']; [cbn in Lu; destruct s; [discriminate Er|discriminate Lu]|]. cbn in Eu. injection Eu as -> _. eauto. }
  destruct Hu as (u' & ->). cbn [app rd nth_error bind]. destruct (c =? quote).
  - cbn [app] in Eu. injection Eu as Eu. exists (0 :: u'), (0 :: w). split; [reflexivity|]. split; [exact Lu|]. cbn [app]. now rewrite Eu.
  - exists (c :: u'), w. auto.
Qed.

Hypothesis quote_nz : quote <> 0.

Lemma doubled_cons c s : doubled (c :: s) = (if c =? quote then [quote; quote] else [c]) ++ doubled s.
Proof. reflexivity. Qed.
Lemma rqf_inner s : rqf (doubled s ++ [quote]) = s.
Proof.
  induction s as [|c s IH]; [cbn; now rewrite N.eqb_refl|]. rewrite doubled_cons. destruct (N.eqb_spec c quote) as [->|Hc]; cbn [app rqf].
  - rewrite N.eqb_refl. now rewrite IH.
  - rewrite (proj2 (N.eqb_neq c quote)) by auto. now rewrite IH.
Qed.
Lemma rqf_quoted s : Exists (fun c => c <> quote) s -> rqf (quote :: doubled s ++ [quote]) = s.
Proof.
  induction s as [|c s IH]; intros H; [inversion H|]. rewrite doubled_cons. destruct (N.eqb_spec c quote) as [->|Hc].
  - cbn [app]. change (rqf (quote :: quote :: quote :: doubled s ++ [quote])) with
      (if quote =? quote then if quote =? quote then quote :: rqf (quote :: doubled s ++ [quote]) else rqf (quote :: quote :: doubled s ++ [quote]) else quote :: rqf (quote :: quote :: doubled s ++ [quote])).
    rewrite N.eqb_refl. rewrite IH; auto. inversion H; subst; congruence.
  - cbn [app]. change (rqf (quote :: c :: doubled s ++ [quote])) with
      (if quote =? quote then if c =? quote then quote :: rqf (doubled s ++ [quote]) else rqf (c :: doubled s ++ [quote]) else quote :: rqf (c :: doubled s ++ [quote])).
    rewrite N.eqb_refl. rewrite (proj2 (N.eqb_neq c quote)) by auto. cbn [rqf]. rewrite (proj2 (N.eqb_neq c quote)) by auto. now rewrite rqf_inner.
Qed.
Lemma all_quotes s : Forall (fun c => c = quote) s -> s = repeat quote (length s).
Proof. induction 1 as [|c s -> _ IH]; [reflexivity|]. cbn. now rewrite <- IH. Qed.
Lemma unq_quoted s : ~ only_quotes quote (Some s) -> unq (quote :: doubled s ++ [quote]) = s.
Proof.
  intros H. destruct (Forall_Exists_dec (fun c => c = quote) (fun c => N.eq_dec c quote) s) as [F|E].
  - destruct s as [|c s].
    + unfold unq. cbn [flat_map Csv.Spec.doubled app rqf]. rewrite !N.eqb_refl. reflexivity.
    + exfalso. apply H. exists (length s). f_equal. exact (all_quotes _ F).
  - unfold unq. rewrite rqf_quoted by exact E. destruct s as [|c [|c' s]]; auto. rewrite (proj2 (N.eqb_neq c quote)); auto. inversion E as [? ? X|? ? X]; subst; auto. inversion X.
Qed.
End Proofs.

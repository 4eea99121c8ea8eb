From Verif Require Import Base.Lib Base.Mem Hex.Model Str.Model Str.Spec Str.Proofs Str.Props Csv.Model Csv.Spec Csv.Proofs.
Local Open Scope N_scope.

Lemma rd_next {A} (B : list A) a b R : rd (B ++ a :: b :: R) (S (length B)) = Ok b.
Proof. replace (S (length B)) with (length (B ++ [a])) by (rewrite app_length; cbn; lia). replace (B ++ a :: b :: R) with ((B ++ [a]) ++ b :: R) by (now rewrite <- app_assoc). apply rd_app_mid. Qed.
Lemma S_len {A} (B : list A) a : S (length B) = length (B ++ [a]).
Proof. rewrite app_length. cbn. lia. Qed.
Lemma SS_len {A} (B : list A) a b : S (S (length B)) = length (B ++ [a; b]).
Proof. rewrite app_length. cbn. lia. Qed.
Lemma mid1 {A} (B : list A) a R : B ++ a :: R = (B ++ [a]) ++ R.
Proof. now rewrite <- app_assoc. Qed.
Lemma mid2 {A} (B : list A) a b R : B ++ a :: b :: R = (B ++ [a; b]) ++ R.
Proof. now rewrite <- app_assoc. Qed.

Section Scan.
Variables delim quote : N.
Hypothesis ctl : controls delim quote.
Variable trim : bool.
Notation doubled := (doubled quote).
Notation plain := (plain delim quote).

(** A cell, with had_quote. *)
Inductive CellQ : list N -> option (list N) -> bool -> Prop :=
| Q_plain s v : Forall plain s -> plain_value trim s v -> CellQ s v false
| Q_quoted s : no_nul s -> ~ only_quotes quote (Some s) -> CellQ (quote :: doubled s ++ [quote]) (Some s) true.
Lemma CellQ_of raw v : Cell delim quote trim raw v -> ~ only_quotes quote v -> exists hq, CellQ raw v hq.
Proof. intros [s v' F P|s Hn] NO; [exists false; now constructor|exists true; now constructor]. Qed.

Ltac eqbs := repeat match goal with
  | H : ?a <> ?b |- context [?a =? ?b] => rewrite (proj2 (N.eqb_neq a b) H)
  | H : ?b <> ?a |- context [?a =? ?b] => rewrite (proj2 (N.eqb_neq a b)) by congruence
  end; rewrite ?N.eqb_refl.

(** ** The first pass *)
Notation cl := (count_loop delim quote).

Lemma count_plain s : Forall plain s -> forall B R n rl nr nc,
  cl (length s + n) (length B) (B ++ s ++ R) false rl nr nc = cl n (length (B ++ s)) (B ++ s ++ R) false (rl + length s) nr nc.
Proof.
  induction 1 as [|c s (P0 & P1 & P2 & P3 & P4) F IH]; intros B R n rl nr nc.
  - cbn [length app Nat.add]. now rewrite app_nil_r, Nat.add_0_r.
  - cbn [length Nat.add count_loop app]. rewrite rd_app_mid. cbn [bind]. eqbs. cbn [negb andb orb].
    rewrite (mid1 B c), (S_len B c), IH. rewrite <- app_assoc. cbn [app]. f_equal; lia.
Qed.

Lemma count_pair B R n onq rl nr nc :
  cl (S (S n)) (length B) (B ++ quote :: quote :: R) onq rl nr nc = cl n (length (B ++ [quote; quote])) ((B ++ [quote; quote]) ++ R) onq (S rl) nr nc.
Proof.
  change (cl (S (S n)) (length B) (B ++ quote :: quote :: R) onq rl nr nc) with
    (do c <- rd (B ++ quote :: quote :: R) (length B);
     if c =? quote then
       do d <- rd (B ++ quote :: quote :: R) (S (length B));
       if d =? quote then cl n (S (S (length B))) (B ++ quote :: quote :: R) onq (S rl) nr nc
       else cl (S n) (S (length B)) (B ++ quote :: quote :: R) (negb onq) (S rl) nr nc
     else if negb onq && (c =? delim) && (nr =? 0)%nat then cl (S n) (S (length B)) (B ++ quote :: quote :: R) onq (S rl) nr (S nc)
     else if negb onq && (c =? 10) then cl (S n) (S (length B)) (B ++ quote :: quote :: R) onq 0 (S nr) (if (nr =? 0)%nat then S nc else nc)
     else if onq || negb (c =? 13) then cl (S n) (S (length B)) (B ++ quote :: quote :: R) onq (S rl) nr nc
     else cl (S n) (S (length B)) (B ++ quote :: quote :: R) onq rl nr nc).
  rewrite rd_app_mid. cbn [bind]. rewrite N.eqb_refl, rd_next. cbn [bind]. rewrite N.eqb_refl. now rewrite (SS_len B quote quote), <- mid2.
Qed.

Lemma count_inner s : forall B x R n rl nr nc, x <> quote ->
  exists k, cl (length (doubled s ++ [quote]) + n) (length B) (B ++ (doubled s ++ [quote]) ++ x :: R) true rl nr nc
    = cl n (length (B ++ doubled s ++ [quote])) (B ++ (doubled s ++ [quote]) ++ x :: R) false (rl + S k) nr nc.
Proof.
  induction s as [|c s IH]; intros B x R n rl nr nc Hx.
  - cbn [Spec.doubled flat_map app length Nat.add count_loop]. rewrite rd_app_mid. cbn [bind]. rewrite N.eqb_refl, rd_next. cbn [bind]. eqbs. cbn [negb].
    exists 0%nat. rewrite <- S_len. f_equal. lia.
  - rewrite doubled_cons. destruct (N.eqb_spec c quote) as [->|Hc]; cbn [app length Nat.add].
    + rewrite count_pair. destruct (IH (B ++ [quote; quote]) x R n (S rl) nr nc Hx) as (k & E).
      rewrite E. exists (S k). rewrite <- !app_assoc. cbn [app]. f_equal. lia.
    + cbn [count_loop]. rewrite rd_app_mid. cbn [bind]. eqbs. cbn [negb andb orb].
      rewrite (mid1 B c), (S_len B c). destruct (IH (B ++ [c]) x R n (S rl) nr nc Hx) as (k & E). rewrite E. exists (S k). rewrite <- !app_assoc. cbn [app]. f_equal. lia.
Qed.

Lemma count_one B x R n onq rl nr nc : x <> quote ->
  cl (S n) (length B) (B ++ quote :: x :: R) onq rl nr nc = cl n (S (length B)) (B ++ quote :: x :: R) (negb onq) (S rl) nr nc.
Proof. intros Hx. cbn [count_loop]. rewrite rd_app_mid. cbn [bind]. rewrite N.eqb_refl, rd_next. cbn [bind]. eqbs. reflexivity. Qed.

Lemma count_quoted s : forall B x R n rl nr nc, x <> quote ->
  exists k, cl (length (quote :: doubled s ++ [quote]) + n) (length B) (B ++ (quote :: doubled s ++ [quote]) ++ x :: R) false rl nr nc
    = cl n (length (B ++ quote :: doubled s ++ [quote])) (B ++ (quote :: doubled s ++ [quote]) ++ x :: R) false (rl + S k) nr nc.
Proof.
  induction s as [|c s IH]; intros B x R n rl nr nc Hx.
  - cbn [Spec.doubled flat_map app length Nat.add count_loop]. rewrite rd_app_mid. cbn [bind]. rewrite N.eqb_refl, rd_next. cbn [bind]. rewrite N.eqb_refl.
    exists 0%nat. rewrite <- SS_len. f_equal. lia.
  - rewrite doubled_cons. destruct (N.eqb_spec c quote) as [->|Hc]; cbn [app length Nat.add].
    + rewrite count_pair. destruct (IH (B ++ [quote; quote]) x R n (S rl) nr nc Hx) as (k & E). cbn [app length Nat.add] in E.
      rewrite E. exists (S k). rewrite <- !app_assoc. cbn [app]. f_equal. lia.
    + rewrite count_one by auto. cbn [negb].
      rewrite (mid1 B quote), (S_len B quote). destruct (count_inner (c :: s) (B ++ [quote]) x R n (S rl) nr nc Hx) as (k & E).
      rewrite doubled_cons in E. rewrite (proj2 (N.eqb_neq c quote) Hc) in E. cbn [app length Nat.add] in E. rewrite E. exists (S k). rewrite <- !app_assoc. cbn [app]. f_equal. lia.
Qed.

Lemma count_cell raw v hq B x R n rl nr nc : CellQ raw v hq -> x <> quote ->
  exists k, cl (length raw + n) (length B) (B ++ raw ++ x :: R) false rl nr nc = cl n (length (B ++ raw)) (B ++ raw ++ x :: R) false (rl + k) nr nc /\
    (k = 0%nat <-> raw = []).
Proof.
  intros [s v' F _|s _ _] Hx.
  - exists (length s). split; [apply count_plain; auto|]. destruct s; cbn; split; intros; try discriminate; auto.
  - destruct (count_quoted s B x R n rl nr nc Hx) as (k & E). exists (S k). split; [exact E|]. split; discriminate.
Qed.

(** Rows, with had_quote of the last cell. *)
Inductive RowQ : list N -> list (option (list N)) -> Prop :=
| RQ_one t v hq : CellQ t v hq -> RowQ t [v]
| RQ_more t v hq ts vs : CellQ t v hq -> RowQ ts vs -> RowQ (t ++ delim :: ts) (v :: vs).

Lemma RowQ_of t vs : Row delim quote trim t vs -> Forall (fun v => ~ only_quotes quote v) vs -> RowQ t vs.
Proof.
  induction 1 as [t v C|t v ts vs C Rw IH]; intros F; inversion F; subst.
  - destruct (CellQ_of _ _ C) as (hq & Q); auto. eapply RQ_one; eauto.
  - destruct (CellQ_of _ _ C) as (hq & Q); auto. eapply RQ_more; eauto.
Qed.

Lemma count_row t vs : RowQ t vs -> forall B x R n rl nr nc, x <> quote ->
  exists k, cl (length t + n) (length B) (B ++ t ++ x :: R) false rl nr nc
    = cl n (length (B ++ t)) (B ++ t ++ x :: R) false (rl + k) nr (if (nr =? 0)%nat then nc + (length vs - 1) else nc)%nat /\
    (k = 0%nat <-> t = []).
Proof.
  destruct ctl as (D1 & D2 & D3 & Q2 & Q3 & Q0).
  induction 1 as [t v hq C|t v hq ts vs C Rw IH]; intros B x R n rl nr nc Hx.
  - destruct (count_cell t v hq B x R n rl nr nc C Hx) as (k & E & Hk). exists k. split; auto. rewrite E. cbn [length Nat.sub]. destruct (nr =? 0)%nat; f_equal; lia.
  - rewrite app_length. cbn [length]. replace (length t + S (length ts) + n)%nat with (length t + S (length ts + n))%nat by lia.
    rewrite <- app_assoc. cbn [app].
    destruct (count_cell t v hq B delim (ts ++ x :: R) (S (length ts + n)) rl nr nc C D1) as (k & E & Hk). rewrite E. clear E.
    cbn [count_loop]. rewrite (app_assoc B t), rd_app_mid. cbn [bind]. eqbs. cbn [negb andb orb].
    assert (Lv : (1 <= length vs)%nat) by (destruct Rw; cbn; lia).
    rewrite (mid1 (B ++ t) delim), (S_len (B ++ t) delim). destruct (Nat.eqb_spec nr 0) as [->|Hn].
    + destruct (IH ((B ++ t) ++ [delim]) x R n (S (rl + k)) 0%nat (S nc) Hx) as (k' & E & Hk'). rewrite E. clear E. exists (k + S k')%nat. split.
      * cbn [Nat.eqb]. rewrite <- !app_assoc. cbn [app]. f_equal; lia.
      * split; [lia|]. intros X. destruct t; discriminate X.
    + destruct (IH ((B ++ t) ++ [delim]) x R n (S (rl + k)) nr nc Hx) as (k' & E & Hk'). rewrite E. clear E. exists (k + S k')%nat. split.
      * rewrite (proj2 (Nat.eqb_neq nr 0) Hn). rewrite <- !app_assoc. cbn [app]. f_equal; lia.
      * split; [lia|]. intros X. destruct t; discriminate X.
Qed.

(** A line end, in the first pass. *)
Lemma count_eol e B R n rl nr nc : eol e ->
  cl (length e + n) (length B) (B ++ e ++ R) false rl nr nc = cl n (length (B ++ e)) (B ++ e ++ R) false 0 (S nr) (if (nr =? 0)%nat then S nc else nc).
Proof.
  destruct ctl as (D1 & D2 & D3 & Q2 & Q3 & Q0). intros [->| ->]; cbn [app length Nat.add count_loop]; rewrite rd_app_mid; cbn [bind]; eqbs; cbn [negb andb orb].
  - replace (10 =? 10) with true by reflexivity. cbn [andb]. now rewrite <- S_len.
  - replace (13 =? 10) with false by reflexivity. replace (13 =? 13) with true by reflexivity. cbn [andb negb]. rewrite rd_next. cbn [bind]. eqbs. cbn [negb andb orb]. now rewrite <- SS_len.
Qed.

Inductive TextQ : list N -> list (list (option (list N))) -> Prop :=
| TQ_last t vs : RowQ t vs -> t <> [] -> TextQ t [vs]
| TQ_end t vs e : RowQ t vs -> eol e -> TextQ (t ++ e) [vs]
| TQ_more t vs e ts vss : RowQ t vs -> eol e -> TextQ ts vss -> TextQ (t ++ e ++ ts) (vs :: vss).

Lemma TextQ_of t vss : Text delim quote trim t vss -> Forall (Forall (fun v => ~ only_quotes quote v)) vss -> TextQ t vss.
Proof.
  induction 1 as [t vs Rw|t vs e Rw He|t vs e ts vss Rw He Tx IH]; intros F; inversion F; subst; constructor; auto; now apply RowQ_of.
Qed.

Lemma eol_head e : eol e -> exists x e', e = x :: e' /\ x <> quote.
Proof. destruct ctl as (D1 & D2 & D3 & Q2 & Q3 & Q0). intros [->| ->]; eexists _, _; (split; [reflexivity|congruence]). Qed.

Lemma count_text t vss : TextQ t vss -> forall B nr nc,
  exists rl nr', cl (length t) (length B) (B ++ t ++ [0]) false 0 nr nc = Ok (rl, nr', if (nr =? 0)%nat then if (rl =? 0)%nat || negb (nr' =? 0)%nat then nc + length (nth 0 vss []) else nc + (length (nth 0 vss []) - 1) else nc)%nat /\
    ((if (rl =? 0)%nat then nr' else S nr') = nr + length vss)%nat.
Proof.
  assert (Q0 : 0 <> quote) by (intros E; apply ctl; auto). assert (LR : forall t vs, RowQ t vs -> (1 <= length vs)%nat) by (intros ? ? []; cbn; lia).
  induction 1 as [t vs Rw Ht|t vs e Rw He|t vs e ts vss Rw He Tx IH]; intros B nr nc; cbn [nth].
  - destruct (count_row t vs Rw B 0 [] 0%nat 0%nat nr nc Q0) as (k & E & Hk). rewrite Nat.add_0_r in E. rewrite E. cbn [count_loop Nat.add].
    exists k, nr. split.
    + rewrite (proj2 (Nat.eqb_neq k 0)) by (intros X; apply Ht, Hk, X). cbn [orb]. destruct (Nat.eqb_spec nr 0) as [->|]; reflexivity.
    + rewrite (proj2 (Nat.eqb_neq k 0)) by (intros X; apply Ht, Hk, X). cbn [length]. lia.
  - destruct (eol_head e He) as (x & e' & Ee & Hx). rewrite app_length, <- app_assoc.
    destruct (count_row t vs Rw B x (e' ++ [0]) (length e) 0%nat nr nc Hx) as (k & E & Hk). change (x :: e' ++ [0]) with ((x :: e') ++ [0]) in E. rewrite <- Ee in E. rewrite E. clear E.
    replace (length e) with (length e + 0)%nat by lia. rewrite (app_assoc B t). rewrite count_eol by auto. cbn [count_loop].
    exists 0%nat, (S nr). split; [|cbn [length Nat.eqb]; lia]. cbn [Nat.eqb orb]. specialize (LR t vs Rw). destruct (nr =? 0)%nat; do 2 f_equal; lia.
  - destruct (eol_head e He) as (x & e' & Ee & Hx). rewrite !app_length, <- !app_assoc.
    destruct (count_row t vs Rw B x (e' ++ ts ++ [0]) (length e + length ts) 0%nat nr nc Hx) as (k & E & Hk). change (x :: e' ++ ts ++ [0]) with ((x :: e') ++ ts ++ [0]) in E. rewrite <- Ee in E.
    rewrite E. clear E. rewrite (app_assoc B t). rewrite count_eol by auto. rewrite (app_assoc (B ++ t) e).
    destruct (IH ((B ++ t) ++ e) (S nr) (if (nr =? 0)%nat then S (if (nr =? 0)%nat then nc + (length vs - 1) else nc) else (if (nr =? 0)%nat then nc + (length vs - 1) else nc))%nat) as (rl & nr' & E & Hl).
    rewrite E. exists rl, nr'. split; [|cbn [length]; lia]. cbn [Nat.eqb]. specialize (LR t vs Rw). destruct (Nat.eqb_spec nr 0) as [->|]; [|reflexivity].
    assert (N0 : nr' <> 0%nat) by (destruct (rl =? 0)%nat; destruct Tx; cbn in Hl; lia). rewrite (proj2 (Nat.eqb_neq nr' 0) N0). rewrite orb_true_r. do 2 f_equal. lia.
Qed.

Lemma parse_count_ok t vss : TextQ t vss -> parse_count delim quote (t ++ [0]) (length t) = Ok (length vss, length (nth 0 vss [])).
Proof.
  intros H. assert (LR : forall t vs, RowQ t vs -> (1 <= length vs)%nat) by (intros ? ? []; cbn; lia).
  unfold parse_count. destruct (count_text t vss H [] 0 0) as (rl & nr' & E & Hl). cbn [length app] in E. rewrite E. cbn [bind Nat.eqb Nat.add] in *.
  destruct (Nat.eqb_spec rl 0) as [->|Hr]; cbn [negb orb andb] in *.
  - rewrite andb_false_r. now rewrite Hl.
  - rewrite andb_true_r, Hl. destruct (Nat.eqb_spec nr' 0) as [E0|Hn]; cbn [negb]; [|reflexivity].
    assert (1 <= length (nth 0 vss []))%nat by (destruct H as [t vs Rw|t vs e Rw|t vs e ts vss Rw]; cbn [nth]; apply (LR _ _ Rw)). do 2 f_equal. lia.
Qed.

(** ** The second pass *)
Notation pl := (parse_loop delim quote trim).

Lemma parse_plain NR NC s : Forall plain s -> forall B R n out row col hq,
  pl NR NC (length s + n) (length B) (B ++ s ++ R) out row col false hq = pl NR NC n (length (B ++ s)) (B ++ s ++ R) out row col false hq.
Proof.
  induction 1 as [|c s (P0 & P1 & P2 & P3 & P4) F IH]; intros B R n out row col hq.
  - cbn [length app Nat.add]. now rewrite app_nil_r.
  - cbn [length Nat.add parse_loop app]. rewrite rd_app_mid. cbn [bind]. eqbs. cbn [negb andb orb].
    rewrite (mid1 B c), (S_len B c), IH. rewrite <- !app_assoc. reflexivity.
Qed.

Lemma parse_pair NR NC B R n out row col hq :
  pl NR NC (S (S n)) (length B) (B ++ quote :: quote :: R) out row col true hq = pl NR NC n (length (B ++ [quote; quote])) ((B ++ [quote; quote]) ++ R) out row col true true.
Proof.
  remember (S n) as n1 eqn:En. cbn [parse_loop]. rewrite rd_app_mid. cbn [bind]. rewrite N.eqb_refl, rd_next. cbn [bind]. rewrite N.eqb_refl. subst n1.
  now rewrite (SS_len B quote quote), <- mid2.
Qed.

Lemma parse_inner NR NC s : forall B x R n out row col hq, x <> quote -> hq = true ->
  pl NR NC (length (doubled s ++ [quote]) + n) (length B) (B ++ (doubled s ++ [quote]) ++ x :: R) out row col true hq
    = pl NR NC n (length (B ++ doubled s ++ [quote])) (B ++ (doubled s ++ [quote]) ++ x :: R) out row col false true.
Proof.
  induction s as [|c s IH]; intros B x R n out row col hq Hx ->.
  - cbn [Spec.doubled flat_map app length Nat.add parse_loop]. rewrite rd_app_mid. cbn [bind]. rewrite N.eqb_refl, rd_next. cbn [bind]. eqbs. now rewrite <- S_len.
  - rewrite doubled_cons. destruct (N.eqb_spec c quote) as [->|Hc]; cbn [app length Nat.add].
    + rewrite parse_pair, IH by auto. rewrite <- !app_assoc. reflexivity.
    + cbn [parse_loop]. rewrite rd_app_mid. cbn [bind]. eqbs. cbn [negb andb].
      rewrite (mid1 B c), (S_len B c), IH by auto. rewrite <- !app_assoc. reflexivity.
Qed.

Lemma parse_cell NR NC raw v hq B x R n out row col : CellQ raw v hq -> x <> quote ->
  pl NR NC (length raw + n) (length B) (B ++ raw ++ x :: R) out row col false false = pl NR NC n (length (B ++ raw)) (B ++ raw ++ x :: R) out row col false hq.
Proof.
  intros [s v' F _|s _ _] Hx.
  - now apply parse_plain.
  - cbn [length Nat.add app]. cbn [parse_loop]. rewrite rd_app_mid. cbn [bind]. rewrite N.eqb_refl.
    rewrite (mid1 B quote), (S_len B quote), parse_inner by auto. rewrite <- !app_assoc. reflexivity.
Qed.

(** ** The end of a cell *)
Lemma at_str_mid f M X : at_str f (M ++ X) (length M) = do m <- f X; Ok (M ++ m).
Proof.
  unfold at_str. rewrite app_length. rewrite (proj2 (Nat.leb_le _ _)) by lia. rewrite skipn_app, skipn_all, Nat.sub_diag. cbn [app skipn].
  rewrite firstn_app, firstn_all, Nat.sub_diag, firstn_O, app_nil_r. reflexivity.
Qed.
Lemma mget_mid pre cur post col : mget (pre ++ cur :: post) (length pre) col = rd cur col.
Proof. unfold mget. rewrite rd_app_mid. reflexivity. Qed.
Lemma mset_mid pre cur post col p cur' : wr cur col p = Ok cur' -> mset (pre ++ cur :: post) (length pre) col p = Ok (pre ++ cur' :: post).
Proof. intros E. unfold mset. rewrite rd_app_mid. cbn [bind]. rewrite E. cbn [bind]. apply wr_app_mid. Qed.

Definition holds (M : list N) (p : option nat) (v : option (list N)) : Prop :=
  match p, v with
  | None, None => True
  | Some k, Some s => no_nul s /\ (k <= length M)%nat /\ exists z, skipn k M = s ++ 0 :: z
  | _, _ => False
  end.
Lemma holds_app M X p v : holds M p v -> holds (M ++ X) p v.
Proof.
  destruct p as [k|], v as [s|]; cbn; auto. intros (H & L & z & E). split; auto. split; [rewrite app_length; lia|]. exists (z ++ X).
  rewrite skipn_app. replace (k - length M)%nat with 0%nat by lia. cbn [skipn]. rewrite E, <- app_assoc. reflexivity.
Qed.
Lemma Forall2_holds_app M X l vs : Forall2 (holds M) l vs -> Forall2 (holds (M ++ X)) l vs.
Proof. induction 1; constructor; auto. now apply holds_app. Qed.
Lemma holds_here M u s w X : no_nul s -> u ++ [0] = s ++ 0 :: w -> holds (M ++ u ++ 0 :: X) (Some (length M)) (Some s).
Proof.
  intros Hn E. cbn. split; auto. split; [rewrite app_length; lia|]. exists (w ++ X). rewrite skipn_app, skipn_all, Nat.sub_diag. cbn [skipn app].
  change (0 :: X) with ([0] ++ X). rewrite app_assoc, E, <- app_assoc. reflexivity.
Qed.

Definition slot (NC j b : nat) : list (option nat) := if (j <? NC)%nat then Some b :: repeat None (NC - j - 1) else [].

Lemma trimmed_nul s t : trimmed s t -> no_nul s -> no_nul t.
Proof. intros (w1 & w2 & -> & _) H. apply Forall_app in H. destruct H as [_ H]. apply Forall_app in H. apply H. Qed.
Lemma plain_nul s : Forall plain s -> no_nul s.
Proof. apply Forall_impl. unfold Spec.plain. tauto. Qed.
Lemma doubled_nul s : no_nul s -> no_nul (doubled s).
Proof. destruct ctl as (D1 & D2 & D3 & Q2 & Q3 & Q0). induction 1 as [|c s Hc F IH]; [constructor|]. rewrite doubled_cons. apply Forall_app. split; auto. destruct (c =? quote); repeat constructor; auto. Qed.

Lemma finish_ok NC raw v hq M R pre cells j post : CellQ raw v hq -> (j < NC)%nat -> length cells = j ->
  exists u p, finish_cell quote trim NC (M ++ raw ++ 0 :: R) (pre ++ (cells ++ Some (length M) :: repeat None (NC - j - 1)) :: post) (length pre) j hq
    = Ok (M ++ u ++ 0 :: R, pre ++ (cells ++ p :: repeat None (NC - j - 1)) :: post) /\ length u = length raw /\ holds (M ++ u ++ [0]) p v.
Proof.
  destruct ctl as (D1 & D2 & D3 & Q2 & Q3 & Q0).
  intros C Hj Hl. subst j. unfold finish_cell. rewrite (proj2 (Nat.ltb_lt _ NC) Hj). rewrite mget_mid. rewrite rd_app_mid. cbn [bind].
  destruct C as [s v' F (t & Ht & ->)|s Hn NO].
  - apply plain_nul in F.
    assert (X : exists u w, (if trim then at_str (fun m => trim_max m None) (M ++ s ++ 0 :: R) (length M) else Ok (M ++ s ++ 0 :: R)) = Ok (M ++ u ++ 0 :: R) /\ length u = length s /\ u ++ [0] = t ++ 0 :: w /\ no_nul t).
    { destruct trim.
      - rewrite at_str_mid. destruct (trim_mem s R F) as (t' & u & w & T' & E & Lu & Eu). rewrite E. cbn [bind]. rewrite (trimmed_unique _ _ _ Ht T').
        exists u, w. split; auto. split; auto. split; auto. apply (trimmed_nul s); auto.
      - subst t. exists s, []. auto. }
    destruct X as (u & w & -> & Lu & Eu & Tn). cbn [bind]. destruct t as [|c t].
    + assert (Hh : exists w', u ++ 0 :: R = 0 :: w').
      { destruct u as [|x u]; [cbn; eauto|]. cbn in Eu. injection Eu as -> _. cbn. eauto. }
      destruct Hh as (w' & Ew). rewrite Ew, rd_app_mid. cbn [bind]. replace (0 =? 0) with true by reflexivity.
      rewrite (mset_mid pre _ post (length cells) None (cells ++ None :: repeat None (NC - length cells - 1))) by apply wr_app_mid. cbn [bind].
      exists u, None. rewrite <- Ew. split; auto. split; auto. exact I.
    + assert (Hh : exists w', u ++ 0 :: R = c :: w').
      { destruct u as [|x u]; cbn in Eu; injection Eu as E0 E1; [|subst x; cbn; eauto]. inversion Tn; congruence. }
      destruct Hh as (w' & Ew). rewrite Ew, rd_app_mid. cbn [bind]. inversion Tn; subst. rewrite (proj2 (N.eqb_neq c 0)) by auto.
      exists u, (Some (length M)). rewrite <- Ew. split; auto. split; auto. apply (holds_here M u (c :: t) w []); auto.
  - rewrite at_str_mid. assert (Hr : no_nul (quote :: doubled s ++ [quote])).
    { constructor; auto. apply Forall_app. split; [now apply doubled_nul|repeat constructor; auto]. }
    destruct (remove_quotes_ok quote _ R Hr) as (u & w & E & Lu & Eu). rewrite E. cbn [bind]. rewrite unq_quoted in Eu by auto.
    exists u, (Some (length M)). split; auto. split; auto. apply (holds_here M u s w []); auto.
Qed.

Lemma firstn_more {A} (l : list A) x n : (n <= length l)%nat -> firstn n (l ++ [x]) = firstn n l.
Proof. intros H. rewrite firstn_app. replace (n - length l)%nat with 0%nat by lia. now rewrite firstn_O, app_nil_r. Qed.
Lemma firstn_less {A} (l : list A) n : (length l <= n)%nat -> firstn n l = l.
Proof. apply firstn_all2. Qed.

(** The cells of a row so far: [dn] are their values, [M] the memory up to here. *)
Definition sofar (NC : nat) (M : list N) (cells : list (option nat)) (dn : list (option (list N))) : Prop :=
  length cells = Nat.min (length dn) NC /\ Forall2 (holds M) cells (firstn NC dn).

Lemma finish_row NC raw v hq M R pre cells dn post : CellQ raw v hq -> sofar NC M cells dn ->
  exists u cells', finish_cell quote trim NC (M ++ raw ++ 0 :: R) (pre ++ (cells ++ slot NC (length dn) (length M)) :: post) (length pre) (length dn) hq
    = Ok (M ++ u ++ 0 :: R, pre ++ (cells' ++ repeat None (NC - length cells')) :: post) /\ length u = length raw /\
    sofar NC (M ++ u ++ [0]) cells' (dn ++ [v]).
Proof.
  intros C [Lc F]. unfold slot. destruct (Nat.ltb_spec (length dn) NC) as [Hj|Hj].
  - destruct (finish_ok NC raw v hq M R pre cells (length dn) post C Hj) as (u & p & E & Lu & H); [lia|].
    rewrite E. exists u, (cells ++ [p]). rewrite app_length. cbn [length]. split; [|split; auto].
    + rewrite <- !app_assoc. cbn [app]. replace (NC - (length cells + 1))%nat with (NC - length dn - 1)%nat by lia. reflexivity.
    + split; [rewrite !app_length; cbn [length]; lia|]. rewrite firstn_less in F |- * by (rewrite ?app_length; cbn [length]; lia).
      apply Forall2_app; [now apply Forall2_holds_app|]. constructor; auto.
  - unfold finish_cell. rewrite (proj2 (Nat.ltb_ge _ _) Hj). exists raw, cells. split; [|split; auto].
    + replace (NC - length cells)%nat with 0%nat by lia. reflexivity.
    + split; [rewrite app_length; cbn [length]; lia|]. rewrite firstn_more by auto. now apply Forall2_holds_app.
Qed.

(** A row, up to the end of its last cell. *)
Lemma parse_row NR NC t vs : RowQ t vs -> forall M cells dn pre post x R n, x <> quote -> sofar NC M cells dn ->
  exists M' raw v hq cells' dn',
    pl NR NC (length t + n) (length M) (M ++ t ++ x :: R) (pre ++ (cells ++ slot NC (length dn) (length M)) :: post) (length pre) (length dn) false false
    = pl NR NC n (length (M' ++ raw)) (M' ++ raw ++ x :: R) (pre ++ (cells' ++ slot NC (length dn') (length M')) :: post) (length pre) (length dn') false hq /\
    CellQ raw v hq /\ sofar NC M' cells' dn' /\ dn ++ vs = dn' ++ [v] /\ length (M' ++ raw) = length (M ++ t) /\ exists Y, M' = M ++ Y.
Proof.
  destruct ctl as (D1 & D2 & D3 & Q2 & Q3 & Q0).
  induction 1 as [t v hq C|t v hq ts vs C Rw IH]; intros M cells dn pre post x R n Hx S0.
  - exists M, t, v, hq, cells, dn. rewrite (parse_cell NR NC t v hq) by auto. split; [reflexivity|]. split; auto. split; auto. split; auto. split; auto. exists []. now rewrite app_nil_r.
  - rewrite app_length. cbn [length]. replace (length t + S (length ts) + n)%nat with (length t + S (length ts + n))%nat by lia. rewrite <- app_assoc. cbn [app].
    rewrite (parse_cell NR NC t v hq) by auto. cbn [parse_loop].
    rewrite (app_assoc M t), rd_app_mid. cbn [bind]. eqbs. cbn [negb andb]. rewrite wr_app_mid. cbn [bind]. rewrite <- (app_assoc M t).
    destruct (finish_row NC t v hq M (ts ++ x :: R) pre cells dn post C S0) as (u & cells' & E & Lu & S1). rewrite E. cbn [bind]. clear E.
    assert (L1 : S (length (M ++ t)) = length (M ++ u ++ [0])) by (rewrite !app_length; cbn [length]; lia). rewrite L1.
    assert (Ld : S (length dn) = length (dn ++ [v])) by (rewrite app_length; cbn; lia). rewrite Ld.
    assert (E2 : (if (length (dn ++ [v]) <? NC)%nat
        then mset (pre ++ (cells' ++ repeat None (NC - length cells')) :: post) (length pre) (length (dn ++ [v])) (Some (length (M ++ u ++ [0])))
        else Ok (pre ++ (cells' ++ repeat None (NC - length cells')) :: post)) = Ok (pre ++ (cells' ++ slot NC (length (dn ++ [v])) (length (M ++ u ++ [0]))) :: post)).
    { destruct S1 as [Lc _]. unfold slot. destruct (Nat.ltb_spec (length (dn ++ [v])) NC).
      - replace (NC - length cells')%nat with (S (NC - length (dn ++ [v]) - 1)) by lia. cbn [repeat].
        apply mset_mid. replace (length (dn ++ [v])) with (length cells') by lia. apply wr_app_mid.
      - replace (NC - length cells')%nat with 0%nat by lia. reflexivity. }
    unfold matrix in *. rewrite E2. cbn [bind]. clear E2.
    destruct (IH (M ++ u ++ [0]) cells' (dn ++ [v]) pre post x R n Hx S1) as (M' & raw & v' & hq' & cells2 & dn2 & E & C' & S2 & Ev & Lm & Y & EY).
    exists M', raw, v', hq', cells2, dn2. split; [|split; auto; split; auto; split; [|split]].
    + rewrite <- E. f_equal. rewrite <- !app_assoc. reflexivity.
    + rewrite <- Ev, <- app_assoc. reflexivity.
    + rewrite Lm, !app_length. cbn [length]. lia.
    + exists (u ++ [0] ++ Y). rewrite EY, <- !app_assoc. reflexivity.
Qed.

Definition row_done (NC : nat) (M : list N) (cur : list (option nat)) (vs : list (option (list N))) : Prop :=
  exists cells, cur = cells ++ repeat None (NC - length cells) /\ sofar NC M cells vs.
Lemma row_done_app NC M X cur vs : row_done NC M cur vs -> row_done NC (M ++ X) cur vs.
Proof. intros (cells & E & L & F). exists cells. split; auto. split; auto. now apply Forall2_holds_app. Qed.
Lemma rows_done_app NC M X l vss : Forall2 (row_done NC M) l vss -> Forall2 (row_done NC (M ++ X)) l vss.
Proof. induction 1; constructor; auto. now apply row_done_app. Qed.

(** The loop and what follows it. *)
Definition parse_all (NR NC n i : nat) (buf : list N) (out : matrix) (row col : nat) (onq hadq : bool) : res (list N * matrix) :=
  do '(buf, out, row, col, hadq) <- pl NR NC n i buf out row col onq hadq;
  if (row <? NR)%nat && (col <? NC)%nat then finish_cell quote trim NC buf out row col hadq else Ok (buf, out).

(** The line end after the last cell. *)
Lemma parse_eol NR NC e n M raw R pre cells post dn v hq : eol e -> CellQ raw v hq -> sofar NC M cells dn ->
  exists M' cur, length M' = length (M ++ raw ++ e) /\ row_done NC M' cur (dn ++ [v]) /\ (exists Y, M' = M ++ Y) /\
    pl NR NC (length e + n) (length (M ++ raw)) (M ++ raw ++ e ++ R) (pre ++ (cells ++ slot NC (length dn) (length M)) :: post) (length pre) (length dn) false hq
    = if (S (length pre) =? NR)%nat then Ok (M' ++ R, pre ++ cur :: post, S (length pre), 0%nat, hq)
      else do out <- mset (pre ++ cur :: post) (S (length pre)) 0 (Some (length M'));
           pl NR NC n (length M') (M' ++ R) out (S (length pre)) 0 false false.
Proof.
  destruct ctl as (D1 & D2 & D3 & Q2 & Q3 & Q0). intros [->| ->] C S0.
  - destruct (finish_row NC raw v hq M R pre cells dn post C S0) as (u & cells' & E & Lu & S1).
    exists (M ++ u ++ [0]), (cells' ++ repeat None (NC - length cells')). split; [rewrite !app_length; cbn [length]; lia|]. split; [exists cells'; auto|]. split; [eauto|].
    cbn [length Nat.add app parse_loop]. rewrite (app_assoc M raw), rd_app_mid. cbn [bind]. eqbs. cbn [negb andb]. rewrite wr_app_mid. cbn [bind]. rewrite <- (app_assoc M raw), E. cbn [bind].
    replace (S (length (M ++ raw))) with (length (M ++ u ++ [0])) by (rewrite !app_length; cbn [length]; lia). rewrite <- !app_assoc. cbn [app]. reflexivity.
  - destruct (finish_row NC raw v hq M (0 :: R) pre cells dn post C S0) as (u & cells' & E & Lu & S1).
    exists (M ++ u ++ [0; 0]), (cells' ++ repeat None (NC - length cells')). split; [rewrite !app_length; cbn [length]; lia|]. split.
    { exists cells'. split; auto. destruct S1 as [L F]. split; auto. replace (M ++ u ++ [0; 0]) with ((M ++ u ++ [0]) ++ [0]) by (rewrite <- !app_assoc; reflexivity). now apply Forall2_holds_app. }
    split; [eauto|]. cbn [length Nat.add app parse_loop]. rewrite (app_assoc M raw), rd_app_mid. cbn [bind]. eqbs. cbn [negb andb].
    replace (13 =? 10) with false by reflexivity. replace (13 =? 13) with true by reflexivity. cbn [andb]. rewrite wr_app_mid. cbn [bind]. rewrite rd_next. cbn [bind]. eqbs. cbn [negb andb].
    rewrite (mid1 (M ++ raw) 0), (S_len (M ++ raw) 0), wr_app_mid. cbn [bind]. rewrite <- !app_assoc. cbn [app]. rewrite E. cbn [bind].
    replace (S (length (M ++ raw ++ [0]))) with (length (M ++ u ++ [0; 0])) by (rewrite !app_length; cbn [length]; lia). rewrite <- ?app_assoc. cbn [app]. reflexivity.
Qed.

Lemma parse_text NR NC t vss : (1 <= NC)%nat -> TextQ t vss -> forall M pre dn, NR = (length pre + length vss)%nat -> Forall2 (row_done NC M) pre dn ->
  exists buf out, parse_all NR NC (length t) (length M) (M ++ t ++ [0]) (pre ++ slot NC 0 (length M) :: repeat (repeat None NC) (length vss - 1)) (length pre) 0 false false = Ok (buf, out) /\
    Forall2 (row_done NC buf) out (dn ++ vss).
Proof.
  intros HNC. assert (S0 : forall M, sofar NC M [] []) by (intros M; split; [reflexivity|rewrite firstn_nil; constructor]).
  assert (Q0 : 0 <> quote) by (intros E; apply ctl; auto).
  induction 1 as [t vs Rw Ht|t vs e Rw He|t vs e ts vss Rw He Tx IH]; intros M pre dn HN F; cbn [length] in *; unfold parse_all.
  - replace (length t) with (length t + 0)%nat by lia.
    destruct (parse_row NR NC t vs Rw M [] [] pre (repeat (repeat None NC) (1 - 1)) 0 [] 0%nat Q0 (S0 M)) as (M' & raw & v & hq & cells & dn' & E & C & S1 & Ev & Lm & Y & EY).
    cbn [app length] in E, Ev. rewrite E. cbn [parse_loop bind]. rewrite (proj2 (Nat.ltb_lt (length pre) NR)) by lia. cbn [andb].
    destruct (finish_row NC raw v hq M' [] pre cells dn' (repeat (repeat None NC) (1 - 1)) C S1) as (u & cells' & Ef & Lu & S2).
    assert (Eg : (if (length dn' <? NC)%nat then finish_cell quote trim NC (M' ++ raw ++ [0]) (pre ++ (cells ++ slot NC (length dn') (length M')) :: repeat (repeat None NC) (1 - 1)) (length pre) (length dn') hq
       else Ok (M' ++ raw ++ [0], pre ++ (cells ++ slot NC (length dn') (length M')) :: repeat (repeat None NC) (1 - 1))) = Ok (M' ++ u ++ [0], pre ++ (cells' ++ repeat None (NC - length cells')) :: repeat (repeat None NC) (1 - 1))).
    { rewrite <- Ef. unfold finish_cell. destruct (length dn' <? NC)%nat; reflexivity. }
    unfold matrix in *. rewrite Eg. eexists _, _. split; [reflexivity|]. cbn [Nat.sub repeat]. apply Forall2_app.
    + rewrite EY, <- !app_assoc. now apply rows_done_app.
    + constructor; [|constructor]. exists cells'. split; auto. rewrite Ev. exact S2.
  - destruct (eol_head e He) as (x & e' & Ee & Hx). rewrite app_length, <- app_assoc.
    destruct (parse_row NR NC t vs Rw M [] [] pre (repeat (repeat None NC) (1 - 1)) x (e' ++ [0]) (length e) Hx (S0 M)) as (M' & raw & v & hq & cells & dn' & E & C & S1 & Ev & Lm & Y & EY).
    change (x :: e' ++ [0]) with ((x :: e') ++ [0]) in E. rewrite <- Ee in E. cbn [app length] in E, Ev. rewrite E. clear E.
    replace (length e) with (length e + 0)%nat by lia.
    destruct (parse_eol NR NC e 0 M' raw [0] pre cells (repeat (repeat None NC) (1 - 1)) dn' v hq He C S1) as (M2 & cur & L2 & RD & (Y2 & EY2) & E). rewrite E. clear E.
    rewrite (proj2 (Nat.eqb_eq (S (length pre)) NR)) by lia. cbn [bind]. rewrite (proj2 (Nat.ltb_ge (S (length pre)) NR)) by lia. cbn [andb].
    eexists _, _. split; [reflexivity|]. cbn [Nat.sub repeat]. apply Forall2_app.
    + rewrite EY2, EY, <- !app_assoc. now apply rows_done_app.
    + constructor; [|constructor]. rewrite Ev. now apply row_done_app.
  - destruct (eol_head e He) as (x & e' & Ee & Hx). rewrite !app_length, <- !app_assoc.
    destruct (parse_row NR NC t vs Rw M [] [] pre (repeat (repeat None NC) (S (length vss) - 1)) x (e' ++ ts ++ [0]) (length e + length ts) Hx (S0 M)) as (M' & raw & v & hq & cells & dn' & E & C & S1 & Ev & Lm & Y & EY).
    change (x :: e' ++ ts ++ [0]) with ((x :: e') ++ ts ++ [0]) in E. rewrite <- Ee in E. cbn [app length] in E, Ev. rewrite E. clear E.
    destruct (parse_eol NR NC e (length ts) M' raw (ts ++ [0]) pre cells (repeat (repeat None NC) (S (length vss) - 1)) dn' v hq He C S1) as (M2 & cur & L2 & RD & (Y2 & EY2) & E). rewrite E. clear E.
    assert (Lv : (1 <= length vss)%nat) by (destruct Tx; cbn; lia).
    rewrite (proj2 (Nat.eqb_neq (S (length pre)) NR)) by lia.
    replace (S (length vss) - 1)%nat with (S (length vss - 1)) by lia. cbn [repeat].
    assert (Em : mset (pre ++ cur :: repeat None NC :: repeat (repeat None NC) (length vss - 1)) (S (length pre)) 0 (Some (length M2))
       = Ok ((pre ++ [cur]) ++ slot NC 0 (length M2) :: repeat (repeat None NC) (length vss - 1))).
    { rewrite (mid1 pre cur), (S_len pre cur). apply mset_mid. unfold slot. rewrite (proj2 (Nat.ltb_lt 0 NC)) by lia. replace NC with (S (NC - 0 - 1)) at 1 by lia. reflexivity. }
    rewrite Em. cbn [bind]. rewrite (S_len pre cur).
    destruct (IH M2 (pre ++ [cur]) (dn ++ [vs])) as (buf & out & Eo & Fo).
    + rewrite app_length. cbn [length]. lia.
    + apply Forall2_app.
      * rewrite EY2, EY, <- !app_assoc. now apply rows_done_app.
      * constructor; [|constructor]. rewrite Ev. exact RD.
    + unfold parse_all in Eo. rewrite Eo. exists buf, out. split; auto. rewrite <- app_assoc in Fo. exact Fo.
Qed.

Lemma row_cell NC M cur vs col : row_done NC M cur vs -> (col < NC)%nat ->
  (do p <- rd cur col; match p with None => Ok None | Some p => do s <- cstr M p; Ok (Some s) end) = Ok (nth col vs None).
Proof.
  intros (cells & -> & L & F) Hc.
  destruct (Nat.lt_ge_cases col (length cells)) as [H|H].
  - assert (X : exists p, nth_error cells col = Some p /\ holds M p (nth col (firstn NC vs) None)).
    { revert col Hc H. clear L. induction F as [|p v ps ws Hp F IH]; intros col Hc H; [cbn in H; lia|]. destruct col as [|col]; [exists p; auto|]. apply IH; cbn in H; lia. }
    destruct X as (p & Ep & Hp). rewrite (proj2 (rd_Ok _ _ p)) by (rewrite nth_error_app1 by auto; exact Ep). cbn [bind].
    assert (En : nth col (firstn NC vs) None = nth col vs None).
    { clear - Hc. revert col vs Hc. induction NC as [|k IH]; intros col vs Hc; [lia|]. destruct vs as [|v vs]; [reflexivity|]. destruct col as [|col]; [reflexivity|]. cbn. apply IH. lia. }
    rewrite En in Hp. destruct p as [p|], (nth col vs None) as [s|]; cbn in Hp; try contradiction; auto.
    destruct Hp as (Hn & Lp & z & Ez). unfold cstr. rewrite (proj2 (Nat.leb_le _ _) Lp), Ez, strlen_ok by auto. cbn [bind].
    rewrite firstn_app, firstn_all, Nat.sub_diag, firstn_O, app_nil_r. reflexivity.
  - rewrite nth_overflow by lia. replace (rd (cells ++ repeat None (NC - length cells)) col) with (Ok (None (A := nat))); [reflexivity|].
    symmetry. apply rd_Ok. rewrite nth_error_app2 by auto. apply nth_error_repeat. lia.
Qed.

Lemma csv_parse_ok t vss : TextQ t vss ->
  exists c, csv_parse delim quote trim t = Ok (Some c) /\ c_rows c = length vss /\ c_cols c = length (nth 0 vss []) /\
    forall row col, (row < length vss)%nat -> (col < length (nth 0 vss []))%nat -> raw_cell c row col = Ok (nth col (nth row vss []) None).
Proof.
  intros Tx. assert (LR : forall t vs, RowQ t vs -> (1 <= length vs)%nat) by (intros ? ? []; cbn; lia).
  assert (NC1 : (1 <= length (nth 0 vss []))%nat) by (destruct Tx as [t vs Rw|t vs e Rw|t vs e ts vss Rw]; cbn [nth]; apply (LR _ _ Rw)).
  assert (NR1 : (1 <= length vss)%nat) by (destruct Tx; cbn; lia).
  assert (T1 : (1 <= length t)%nat).
  { destruct Tx as [t vs Rw Ht|t vs e Rw He|t vs e ts vss Rw He Tx]; rewrite ?app_length; [destruct t; [congruence|cbn; lia]|destruct He as [->| ->]; cbn; lia|destruct He as [->| ->]; cbn; lia]. }
  unfold csv_parse. rewrite (proj2 (Nat.eqb_neq _ _)) by lia. unfold parse_inplace. rewrite (proj2 (Nat.eqb_neq _ _)) by lia.
  rewrite parse_count_ok with (1 := Tx). cbn [bind]. rewrite (proj2 (Nat.eqb_neq (length vss) 0)) by lia.
  set (NC := length (nth 0 vss [])) in *. 
  assert (Em : mset (repeat (repeat None NC) (length vss)) 0 0 (Some 0%nat) = Ok (slot NC 0 0 :: repeat (repeat None NC) (length vss - 1))).
  { replace (length vss) with (S (length vss - 1)) at 1 by lia. cbn [repeat]. apply (mset_mid []). unfold slot. rewrite (proj2 (Nat.ltb_lt 0 NC)) by lia. replace NC with (S (NC - 0 - 1)) at 1 by lia. reflexivity. }
  rewrite Em. cbn [bind].
  destruct (parse_text (length vss) NC t vss NC1 Tx [] [] [] eq_refl (Forall2_nil _)) as (buf & out & E & F). cbn [app length] in *. unfold parse_all in E.
  destruct (pl (length vss) NC (length t) 0 (t ++ [0]) (slot NC 0 0 :: repeat (repeat None NC) (length vss - 1)) 0 0 false false) as [[[[[b o] r] cc] h]| |]; cbn [bind] in E |- *; try discriminate E.
  rewrite E. cbn [bind]. exists (mkcsv buf out (length vss) NC). split; [reflexivity|]. split; [reflexivity|]. split; [reflexivity|].
  intros row col Hr Hc. unfold raw_cell. cbn [c_rows c_cols c_out c_buf]. rewrite (proj2 (Nat.ltb_lt _ _) Hr), (proj2 (Nat.ltb_lt _ _) Hc). cbn [andb].
  unfold mget. assert (X : exists cur, nth_error out row = Some cur /\ row_done NC buf cur (nth row vss [])).
  { clearbody NC. clear - F Hr. revert row Hr. induction F as [|cur vs os ws Hp F IH]; intros row H; [cbn in H; lia|]. destruct row as [|row]; [exists cur; auto|]. apply IH; cbn in H; lia. }
  destruct X as (cur & Ec & RD). rewrite (proj2 (rd_Ok _ _ _) Ec). cbn [bind]. apply (row_cell NC); auto.
Qed.
End Scan.

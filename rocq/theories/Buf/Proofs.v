(** Proofs about the byte buffer: refinement to a byte string. *)
From Verif Require Import Base.Lib Base.Mem Hex.Model Hex.Spec Hex.Proofs Str.Model Str.Spec Str.Proofs Str.Props Buf.Model Buf.Spec.
Local Open Scope N_scope.

(** [Rep b c]: the buffer holds [c]; there is room for a terminator. *)
Definition Rep (b : buf) (c : list N) : Prop :=
  match bdata b with
  | None => c = [] /\ bsize b = O /\ blen b = O /\ bcons b = O
  | Some d => exists pre x post, d = pre ++ c ++ x :: post /\
      length pre = bcons b /\ length c = blen b /\ length d = S (bsize b)
  end.
(** The byte after the contents is a terminator. *)
Definition Term (b : buf) : Prop :=
  match bdata b with None => True | Some d => nth_error d (bcons b + blen b) = Some 0 end.
(** [b] holds [c] and has room for [n] more bytes and a terminator. *)
Definition Room (b : buf) (c : list N) (n : nat) : Prop :=
  exists pre post, bdata b = Some (pre ++ c ++ post) /\ length pre = bcons b /\ length c = blen b /\
    length (pre ++ c ++ post) = S (bsize b) /\ (n < length post)%nat.

Lemma peek_ok b c : Rep b c -> buf_peek b = Ok c /\ blen b = length c.
Proof.
  unfold Rep, buf_peek. destruct (bdata b) as [d|].
  - intros (pre & x & post & -> & P & C & L). rewrite <- P, <- C. rewrite rdn_ok. auto.
  - intros (-> & _ & -> & _). auto.
Qed.

Lemma create_ok : Rep buf_create [] /\ Term buf_create.
Proof. split; cbn; auto. Qed.

Lemma mmove_front pre (c : list N) x post : c <> [] ->
  exists y, mmove (pre ++ c ++ x :: post) 0 (length pre) (length c) = Ok (c ++ y) /\
    length y = length (pre ++ x :: post).
Proof.
  intros Hc. unfold mmove. rewrite rdn_ok. cbn [bind].
  rewrite wrn_lt by llen. rewrite firstn_O. cbn [app].
  eexists. split; [reflexivity|]. rewrite skipn_length. llen.
Qed.

Lemma consume_ok b c : Rep b c ->
  exists b', buf_consume b = Ok b' /\ Rep b' c /\ bcons b' = O /\ bsize b' = bsize b /\ (Term b -> Term b') /\
    (bcons b <> O -> Term b').
Proof.
  intros R. unfold buf_consume. destruct (Nat.eqb_spec (bcons b) 0) as [E|E].
  - exists b. repeat split; auto; congruence.
  - unfold Rep in R. unfold with_data. destruct (bdata b) as [d|] eqn:Ed; [|lia].
    destruct R as (pre & x & post & -> & P & C & L). cbn [bind].
    assert (T : exists y, (if (blen b =? 0)%nat then Ok (pre ++ c ++ x :: post)
                else mmove (pre ++ c ++ x :: post) 0 (bcons b) (blen b)) = Ok (c ++ y) /\
              length y = length (pre ++ x :: post)).
    { destruct (Nat.eqb_spec (blen b) 0) as [Z|Z].
      - destruct c; [|cbn in C; lia]. exists (pre ++ x :: post). auto.
      - rewrite <- P, <- C. apply mmove_front. destruct c; [cbn in C; lia|congruence]. }
    destruct T as (y & -> & Ly). cbn [bind].
    destruct y as [|z y]; [rewrite app_length in Ly; cbn in Ly; lia|].
    rewrite wr_mid by auto. cbn [bind].
    eexists. split; [reflexivity|].
    assert (R' : Rep {| bdata := Some (c ++ 0 :: y); bsize := bsize b; blen := blen b; bcons := 0 |} c).
    { exists [], 0, y. cbn [app length bcons blen bsize]. repeat split; auto.
      hlen. }
    assert (T' : Term {| bdata := Some (c ++ 0 :: y); bsize := bsize b; blen := blen b; bcons := 0 |}).
    { unfold Term. cbn. apply nth_error_mid. auto. }
    repeat split; auto.
Qed.

Lemma grow_ok needed : forall fuel n, (0 < n)%nat -> (needed < n + fuel)%nat -> (0 < fuel)%nat ->
  exists m, grow fuel needed n = Ok m /\ (needed <= m)%nat /\ (n <= m)%nat.
Proof.
  induction fuel as [|f IH]; intros n Hn Hf H0; [lia|]. cbn [grow].
  destruct (Nat.ltb_spec n needed) as [H|H].
  - destruct (IH (2 * n)%nat) as (m & E & ? & ?); try lia. exists m. split; [exact E|lia].
  - exists n. auto.
Qed.

Lemma ensure_ok g b c n : Rep b c -> (0 < n)%nat ->
  exists b', ensure_space g b n = Ok b' /\ Room b' c n /\ (bcons b = 0%nat -> bcons b' = 0%nat).
Proof.
  intros R Hn. unfold ensure_space.
  destruct (Nat.ltb_spec (blen b + n) (bsize b - bcons b)) as [H|H].
  - exists b. repeat split; auto. unfold Rep in R. destruct (bdata b) as [d|] eqn:Ed; [|lia].
    destruct R as (pre & x & post & -> & P & C & L). exists pre, (x :: post). repeat split; auto.
    rewrite !app_length in L. lia.
  - destruct (consume_ok b c R) as (b1 & -> & R1 & C1 & S1 & T1 & _). cbn [bind].
    destruct (peek_ok _ _ R) as [_ Lb]. destruct (peek_ok _ _ R1) as [_ Lb1].
    rewrite Lb. rewrite <- Lb1.
    unfold Rep in R1. destruct (Nat.ltb_spec (bsize b1) (blen b1 + n)) as [H1|H1].
    + unfold next_multiple.
      destruct (grow_ok (blen b1 + n) (S (blen b1 + n)) (if (bsize b1 =? 0)%nat then initial_size else bsize b1)) as (m & -> & M1 & M2);
        [destruct (Nat.eqb_spec (bsize b1) 0); unfold initial_size; lia| lia|lia|].
      assert (M3 : (bsize b1 <= m)%nat) by (destruct (Nat.eqb_spec (bsize b1) 0); lia).
      cbn [bind]. eexists. split; [reflexivity|].
      destruct (bdata b1) as [d|] eqn:Ed.
      * destruct R1 as (pre & x & post & -> & P & C & L).
        destruct pre; [|cbn in P; lia]. cbn [app] in *.
        assert (RE : realloc g (Some (c ++ x :: post)) (m + 1) = c ++ x :: post ++ repeat g (m + 1 - length (c ++ x :: post))).
        { unfold realloc. rewrite firstn_all2 by lia. rewrite <- app_assoc. reflexivity. }
        rewrite RE. split; auto.
        exists [], (x :: post ++ repeat g (m + 1 - length (c ++ x :: post))).
        assert (length (x :: post ++ repeat g (m + 1 - length (c ++ x :: post))) = m + 1 - blen b1)%nat.
        { cbn [length]. rewrite app_length, repeat_length. rewrite app_length in *. cbn [length] in *. lia. }
        assert (LC : (length c + length (x :: post) = S (bsize b1))%nat) by (rewrite <- app_length; auto).
        cbn [app bcons blen bsize bdata] in *. repeat split; auto; try lia.
        rewrite app_length. lia.
      * destruct R1 as (-> & Z1 & Z2 & Z3). split; auto.
        exists [], (repeat g (m + 1)). cbn [bdata bcons blen bsize app length realloc]. unfold realloc.
        rewrite firstn_nil. cbn [app length]. rewrite Nat.sub_0_r, repeat_length. repeat split; auto; lia.
    + exists b1. split; [reflexivity|]. split; auto.
      destruct (bdata b1) as [d|] eqn:Ed; [|lia].
      destruct R1 as (pre & x & post & -> & P & C & L). exists pre, (x :: post). repeat split; auto.
      rewrite !app_length in L. lia.
Qed.

(** ** Appending *)

(** Storing [l] and a terminator behind the contents. *)
Lemma put_ok b c n l : Room b c n -> (length l <= n)%nat ->
  exists d d', with_data b = Ok d /\ wrn d (bcons b + blen b) l = Ok d' /\ length d' = S (bsize b) /\
  exists pre post, d' = pre ++ c ++ l ++ post /\ length pre = bcons b /\
    (n < length l + length post)%nat.
Proof.
  intros (pre & post & Ed & P & C & L & Hn) Hl. unfold with_data. rewrite Ed.
  assert (D : exists x y, post = x ++ y /\ length x = length l).
  { exists (firstn (length l) post), (skipn (length l) post). rewrite firstn_skipn, firstn_length. split; [auto|lia]. }
  destruct D as (x & y & -> & Lx).
  do 2 eexists. split; [reflexivity|]. split.
  - rewrite (app_assoc pre c (x ++ y)). replace (bcons b + blen b)%nat with (length (pre ++ c)) by llen.
    apply wrn_ok. auto.
  - split; [rewrite !app_length in *; lia|].
    exists pre, y. rewrite <- !app_assoc. repeat split; auto. rewrite app_length in Hn. lia.
Qed.

Lemma rep_intro d s k n pre (c : list N) x post : d = pre ++ c ++ x :: post -> length pre = n -> length c = k -> length d = S s ->
  Rep (mkbuf (Some d) s k n) c.
Proof. intros. exists pre, x, post. cbn. auto. Qed.
Lemma term_intro d s k n pre (c : list N) post : d = pre ++ c ++ 0 :: post -> length pre = n -> length c = k ->
  Term (mkbuf (Some d) s k n).
Proof. intros -> <- <-. unfold Term. cbn. rewrite app_assoc. apply nth_error_mid. llen. Qed.

Lemma app_ok b c n l : Room b c n -> (length l <= n)%nat ->
  exists d pre post, with_data b = Ok d /\
  (do d <- wrn d (bcons b + blen b) l; wr d (bcons b + blen b + length l) 0) =
    Ok (pre ++ (c ++ l) ++ 0 :: post) /\ length pre = bcons b /\ length c = blen b /\
    length (pre ++ (c ++ l) ++ 0 :: post) = S (bsize b).
Proof.
  intros R Hl. pose proof R as (pre0 & post0 & _ & _ & C & _ & _).
  destruct (put_ok b c n l R Hl) as (d & d' & -> & E & L & pre & post & -> & P & Hn).
  destruct post as [|x post]; [cbn in Hn; lia|].
  exists d, pre, post. split; auto. rewrite E. cbn [bind].
  replace (pre ++ c ++ l ++ x :: post) with ((pre ++ c ++ l) ++ x :: post) in * by now rewrite <- !app_assoc.
  rewrite wr_mid by llen. split; [|split; [|split]]; auto.
  - f_equal. now rewrite <- !app_assoc.
  - rewrite !app_length in *. cbn [length] in *. lia.
Qed.

Lemma fill_ok g b c x w : Rep b c ->
  exists b', buf_add_fill g b x w = Ok b' /\ Rep b' (c ++ repeat x w) /\ (Term b -> Term b') /\ (bcons b = O -> bcons b' = O).
Proof.
  intros R. unfold buf_add_fill. destruct (Nat.eqb_spec w 0) as [->|Hw].
  - cbn [repeat]. rewrite app_nil_r. exists b. auto.
  - destruct (ensure_ok g b c w R ltac:(lia)) as (b1 & -> & Rm & Hc). cbn [bind].
    destruct (app_ok b1 c w (repeat x w) Rm ltac:(rewrite repeat_length; lia)) as (d & pre & post & -> & E & P & C & L).
    cbn [bind]. rewrite repeat_length in E.
    destruct (wrn d (bcons b1 + blen b1) (repeat x w)) as [d1| |]; try discriminate. cbn [bind] in E |- *. rewrite E. cbn [bind].
    eexists. split; [reflexivity|]. split; [|split; auto].
    + eapply rep_intro; eauto. rewrite app_length, repeat_length. lia.
    + intros _. eapply term_intro; eauto. rewrite app_length, repeat_length. lia.
Qed.

(** ** Transformations *)

Lemma map_n_ok f : forall l pre post,
  map_n f (pre ++ l ++ post) (length pre) (length l) = Ok (pre ++ map f l ++ post).
Proof.
  induction l as [|c l IH]; intros pre post; [reflexivity|]. cbn [map_n length app map].
  rewrite rd_mid by auto. cbn [bind]. rewrite wr_mid by auto. cbn [bind].
  specialize (IH (pre ++ [f c]) post). rewrite <- !app_assoc, app_length in IH. cbn [app length] in IH.
  replace (S (length pre)) with (length pre + 1)%nat by lia. exact IH.
Qed.

Lemma isspace_eq c : chr_isspace c = spaceb c.
Proof.
  apply Bool.eq_true_iff_eq. unfold chr_isspace, spaceb.
  rewrite !orb_true_iff, andb_true_iff, !N.eqb_eq, !N.leb_le. lia.
Qed.

Lemma ltrim_split l : exists s, l = s ++ ltrim_text l /\ Forall (fun c => spaceb c = true) s /\
  match ltrim_text l with [] => True | c :: _ => spaceb c = false end.
Proof.
  induction l as [|c l (s & E & F & H)]; [exists []; cbn; auto|]. cbn [ltrim_text].
  destruct (spaceb c) eqn:Sc.
  - exists (c :: s). cbn. split; [f_equal; exact E|]. auto.
  - exists []. auto.
Qed.

Lemma ltrim_scan_ok pre c t : spaceb c = false -> forall s i d fuel, Forall (fun c => spaceb c = true) s ->
  d = pre ++ s ++ c :: t -> (i <= length s)%nat -> (length s - i < fuel)%nat ->
  ltrim_scan fuel d (length pre) i = Ok (length s).
Proof.
  intros Hc s i d fuel F -> Hi. revert fuel. remember (length s - i)%nat as k eqn:K. revert i Hi K.
  induction k as [|k IH]; intros i Hi K fuel Hf; (destruct fuel as [|fuel]; [lia|]); cbn [ltrim_scan].
  - assert (i = length s) by lia. subst i. rewrite app_assoc, rd_mid by llen. cbn [bind].
    rewrite isspace_eq, Hc. reflexivity.
  - destruct (nth_error s i) as [y|] eqn:Ny; [|apply nth_error_None in Ny; lia].
    unfold rd. rewrite nth_error_app2 by lia. replace (length pre + i - length pre)%nat with i by lia.
    rewrite nth_error_app1 by lia. rewrite Ny. cbn [bind]. rewrite isspace_eq.
    rewrite Forall_forall in F. rewrite (F y (nth_error_In _ _ Ny)). apply IH; lia.
Qed.

Lemma rtrim_snoc l c : rtrim_text (l ++ [c]) = if spaceb c then rtrim_text l else l ++ [c].
Proof.
  unfold rtrim_text. rewrite rev_app_distr. cbn [rev app ltrim_text].
  destruct (spaceb c); [reflexivity|]. cbn [rev]. now rewrite rev_involutive.
Qed.

Lemma rtrim_split l : exists s, l = rtrim_text l ++ s.
Proof.
  destruct (ltrim_split (rev l)) as (s & E & _ & _). exists (rev s). unfold rtrim_text.
  rewrite <- rev_app_distr, <- E, rev_involutive. reflexivity.
Qed.

Lemma rtrim_ok pre : forall l post, rtrim_cb (pre ++ l ++ post) (length pre) (length l) = Ok (length (rtrim_text l)).
Proof.
  intros l. pattern l. apply rev_ind; [reflexivity|]. intros c l0 IH post. clear l.
  rewrite rtrim_snoc. rewrite app_length, Nat.add_comm. cbn [length Nat.add rtrim_cb]. rewrite <- app_assoc. cbn [app].
  rewrite (app_assoc pre l0 (c :: post)), rd_mid by llen. cbn [bind]. rewrite isspace_eq.
  destruct (spaceb c) eqn:Sc.
  - rewrite <- app_assoc. apply IH.
  - f_equal. rewrite app_length. cbn. lia.
Qed.

Definition t_text (t : transf) (l : list N) : list N :=
  match t with TUpper => upper_text l | TLower => lower_text l | TLtrim => ltrim_text l | TRtrim => rtrim_text l end.

Lemma transf_cb_ok t pre l post :
  exists l2, transf_cb t (pre ++ l ++ 0 :: post) (length pre) (length l) = Ok (pre ++ t_text t l ++ l2, length (t_text t l)) /\
    (length (t_text t l) + length l2 = length l + S (length post))%nat /\ (length (t_text t l) <= length l)%nat /\
    (length (t_text t l) = length l -> l2 = 0 :: post).
Proof.
  destruct t; cbn [transf_cb t_text].
  - rewrite map_n_ok. cbn [bind]. exists (0 :: post). unfold upper_text. rewrite map_length. repeat split; auto.
  - rewrite map_n_ok. cbn [bind]. exists (0 :: post). unfold lower_text. rewrite map_length. repeat split; auto.
  - unfold ltrim_cb. destruct (ltrim_split l) as (s & E & F & H).
    set (u := ltrim_text l) in *. clearbody u. subst l.
    assert (Sc : ltrim_scan (S (length (pre ++ (s ++ u) ++ 0 :: post))) (pre ++ (s ++ u) ++ 0 :: post) (length pre) 0 = Ok (length s)).
    { destruct u as [|c u].
      - rewrite app_nil_r. apply (ltrim_scan_ok pre 0 post); auto; try lia. llen.
      - apply (ltrim_scan_ok pre c (u ++ 0 :: post)); auto; try lia; [|llen].
        rewrite <- app_assoc. reflexivity. }
    rewrite Sc. cbn [bind]. rewrite app_length.
    destruct (Nat.eqb_spec (length s) 0) as [Z|Z].
    + destruct s; [|cbn in Z; lia]. exists (0 :: post). cbn. repeat split; auto.
    + unfold mmove. replace (length s + length u - length s)%nat with (length u) by lia.
      replace (pre ++ (s ++ u) ++ 0 :: post) with ((pre ++ s) ++ u ++ 0 :: post) by now rewrite <- !app_assoc.
      replace (length pre + length s)%nat with (length (pre ++ s)) by llen.
      rewrite rdn_ok. cbn [bind].
      rewrite wrn_lt by llen.
      rewrite <- app_assoc, firstn_len by auto. cbn [bind]. eexists. split; [reflexivity|].
      rewrite skipn_length. repeat split; try llen.
  - destruct (rtrim_split l) as (s & E). rewrite rtrim_ok. cbn [bind].
    set (u := rtrim_text l) in *. clearbody u. subst l. exists (s ++ 0 :: post).
    rewrite <- app_assoc. repeat split; try llen.
    rewrite app_length. intros. destruct s; [reflexivity|cbn in *; lia].
Qed.

Lemma t_text_nil t : t_text t [] = [].
Proof. destruct t; reflexivity. Qed.

Lemma transf_loop_ok (flag : transf -> bool) (pre c : list N) s k : forall (ts : list transf) (l post : list N),
  length (pre ++ c ++ l ++ 0 :: post) = S s ->
  exists d' post', let l' := fold_left (fun l t => if flag t then t_text t l else l) ts l in
    transf_loop ts flag (mkbuf (Some (pre ++ c ++ l ++ 0 :: post)) s (length c + length l) k) (length (pre ++ c)) (length l) =
      Ok (mkbuf (Some d') s (length c + length l') k, length l') /\
    d' = pre ++ c ++ l' ++ 0 :: post' /\ length d' = S s.
Proof.
  induction ts as [|t ts IH]; intros l post L; cbn [transf_loop fold_left].
  { do 2 eexists. cbn. split; [reflexivity|]. auto. }
  destruct (Nat.eqb_spec (length l) 0) as [Z|Z].
  { destruct l; [|cbn in Z; lia].
    assert (N0 : fold_left (fun l t => if flag t then t_text t l else l) ts (if flag t then t_text t [] else []) = []).
    { rewrite t_text_nil. destruct (flag t); clear; induction ts as [|t ts IH]; auto; cbn [fold_left]; rewrite t_text_nil; destruct (flag t); auto. }
    rewrite N0. do 2 eexists. cbn. split; [reflexivity|]. auto. }
  destruct (flag t) eqn:Ft; cbn [negb]; [|apply IH; auto].
  unfold with_data. cbn [bdata bind bsize blen bcons].
  destruct (transf_cb_ok t (pre ++ c) l post) as (l2 & E & L1 & L2 & L3).
  rewrite <- app_assoc in E. rewrite E. cbn [bind].
  destruct (Nat.eqb_spec (length (t_text t l)) (length l)) as [Q|Q].
  - rewrite (L3 Q). rewrite <- Q. rewrite <- app_assoc. apply IH. rewrite !app_length in *. lia.
  - rewrite (proj2 (Nat.ltb_ge _ _)) by lia.
    replace (length c + length l - (length l - length (t_text t l)))%nat with (length c + length (t_text t l))%nat by lia.
    destruct l2 as [|x l2]; [cbn in L1; lia|].
    replace ((pre ++ c) ++ t_text t l ++ x :: l2) with (((pre ++ c) ++ t_text t l) ++ x :: l2) by now rewrite <- !app_assoc.
    rewrite wr_mid by llen. cbn [bind]. rewrite <- !app_assoc. apply IH.
    rewrite !app_length in *. cbn [length] in *. lia.
Qed.

Lemma transform_ok g flag b c bytes : Rep b c ->
  exists b', add_bytes_transform g flag b bytes = Ok (b', length (transformed flag bytes)) /\
    Rep b' (c ++ transformed flag bytes) /\ (Term b -> Term b') /\ (bcons b = O -> bcons b' = O).
Proof.
  intros R. unfold add_bytes_transform.
  destruct (Nat.eqb_spec (length bytes) 0) as [Z|Z].
  { destruct bytes; [|cbn in Z; lia].
    assert (T : transformed flag [] = []).
    { unfold transformed. destruct (flag TUpper), (flag TLower), (flag TLtrim), (flag TRtrim); reflexivity. }
    rewrite T, app_nil_r. exists b. auto. }
  destruct (ensure_ok g b c (length bytes) R ltac:(lia)) as (b1 & -> & Rm & Hc). cbn [bind].
  destruct (app_ok b1 c (length bytes) bytes Rm ltac:(lia)) as (d & pre & post & -> & E & P & C & L).
  cbn [bind].
  destruct (wrn d (bcons b1 + blen b1) bytes) as [d1| |]; try discriminate. cbn [bind] in E |- *. rewrite E. cbn [bind].
  rewrite <- app_assoc in L |- *.
  destruct (transf_loop_ok flag pre c (bsize b1) (bcons b1) [TUpper; TLower; TLtrim; TRtrim] bytes post L) as (d' & post' & EL & -> & L').
  cbv zeta in EL. rewrite app_length, P, C in EL. rewrite EL.
  assert (TT : fold_left (fun l t => if flag t then t_text t l else l) [TUpper; TLower; TLtrim; TRtrim] bytes = transformed flag bytes).
  { reflexivity. }
  rewrite TT in *. rewrite (app_assoc c) in L' |- *. eexists. split; [reflexivity|]. split; [|split; auto].
  - eapply rep_intro; eauto. rewrite app_length. lia.
  - intros _. eapply term_intro; eauto. rewrite app_length. lia.
Qed.

Lemma add_bytes_ok g b c bytes : Rep b c ->
  exists b', buf_add_bytes g b bytes = Ok b' /\ Rep b' (c ++ bytes) /\ (Term b -> Term b') /\ (bcons b = O -> bcons b' = O).
Proof.
  intros R. destruct (transform_ok g (fun _ => false) b c bytes R) as (b' & E & H).
  unfold buf_add_bytes. rewrite E. cbn [bind]. exists b'. auto.
Qed.

(** ** The other operations *)

Lemma truncate_ok b c n : Rep b c ->
  exists b', buf_truncate b n = Ok b' /\ Rep b' (firstn n c) /\ (Term b -> Term b') /\ (bcons b = O -> bcons b' = O).
Proof.
  intros R. pose proof (peek_ok b c R) as [_ Lc]. unfold buf_truncate. destruct (bdata b) as [d|] eqn:Ed.
  - destruct (Nat.leb_spec (blen b) n) as [H|H].
    + exists b. rewrite firstn_all2 by lia. auto.
    + unfold Rep in R. rewrite Ed in R. destruct R as (pre & x & post & -> & P & C & L).
      assert (D : exists c1 c2, c = c1 ++ c2 /\ length c1 = n).
      { exists (firstn n c), (skipn n c). rewrite firstn_skipn, firstn_length. split; auto. lia. }
      destruct D as (c1 & c2 & -> & L1). rewrite firstn_len by auto.
      rewrite app_length in C.
      destruct c2 as [|y c2]; [cbn in C; lia|].
      assert (W : (do d <- wrn (pre ++ (c1 ++ y :: c2) ++ x :: post) (bcons b + n) (repeat 255 (blen b - n)); wr d (bcons b + n) 0)
                 = Ok (pre ++ c1 ++ 0 :: (repeat 255 (length c2) ++ x :: post))).
      { replace (bcons b + n)%nat with (length (pre ++ c1)) by llen.
        replace (blen b - n)%nat with (S (length c2)) by (cbn in C; lia). cbn [repeat].
        replace (pre ++ (c1 ++ y :: c2) ++ x :: post) with ((pre ++ c1) ++ (y :: c2) ++ x :: post) by now rewrite <- !app_assoc.
        rewrite wrn_ok by (cbn; rewrite repeat_length; auto). cbn [bind app].
        rewrite wr_mid by auto. now rewrite <- app_assoc. }
      destruct (wrn _ (bcons b + n) (repeat 255 (blen b - n))) as [d1| |]; try discriminate. cbn [bind] in W |- *.
      rewrite W. cbn [bind]. eexists. split; [reflexivity|]. split; [|split; auto].
      * eapply rep_intro; eauto. hlen.
      * intros _. eapply term_intro; eauto.
  - exists b. split; auto. split; auto. unfold Rep in *. rewrite Ed in *. destruct R as (-> & R). rewrite firstn_nil. auto.
Qed.

Lemma drop_ok b c n : Rep b c ->
  exists b', buf_drop b n = Ok b' /\ Rep b' (skipn n c) /\ (Term b -> Term b').
Proof.
  intros R. pose proof (peek_ok b c R) as [_ Lc]. unfold buf_drop.
  destruct (Nat.eqb_spec n 0) as [->|Hn]; [exists b; rewrite skipn_O; auto|].
  unfold Rep in R. destruct (bdata b) as [d|] eqn:Ed.
  - destruct R as (pre & x & post & -> & P & C & L).
    assert (D : exists c1 c2, c = c1 ++ c2 /\ length c1 = Nat.min n (blen b) /\ skipn n c = c2).
    { exists (firstn n c), (skipn n c). rewrite firstn_skipn, firstn_length. rewrite C. auto. }
    destruct D as (c1 & c2 & -> & L1 & ->). rewrite <- L1. rewrite app_length in *.
    assert (W : wrn (pre ++ (c1 ++ c2) ++ x :: post) (bcons b) (repeat 255 (length c1)) =
                Ok ((pre ++ repeat 255 (length c1)) ++ c2 ++ x :: post)).
    { rewrite <- P. rewrite <- app_assoc. rewrite wrn_ok by (rewrite repeat_length; auto). now rewrite <- app_assoc. }
    rewrite W. cbn [bind]. eexists. split; [reflexivity|]. split.
    + eapply rep_intro; eauto; hlen.
    + intros T. unfold Term in *. rewrite Ed in T. cbn [bdata bcons blen].
      rewrite <- C. replace (bcons b + length c1 + (length c1 + length c2 - length c1))%nat with (length ((pre ++ repeat 255 (length c1)) ++ c2)) by llen.
      replace (bcons b + blen b)%nat with (length (pre ++ (c1 ++ c2))) in T by llen.
      rewrite app_assoc in T |- *. rewrite nth_error_app2 in T |- * by lia. now rewrite Nat.sub_diag in *.
  - destruct R as (-> & Z1 & Z2 & Z3). rewrite skipn_nil. eexists. split; [reflexivity|].
    unfold Rep, Term. cbn. repeat split; auto; lia.
Qed.

Lemma direct_ok g b c want bytes : Rep b c -> (length bytes <= want)%nat ->
  exists room b', buf_direct_write g b want bytes = Ok (room, b') /\ Rep b' (c ++ bytes) /\ (want <= room)%nat /\
    (bytes <> [] -> Term b') /\ (bcons b = O -> bcons b' = O).
Proof.
  intros R H. unfold buf_direct_write. destruct (Nat.eqb_spec want 0) as [->|Hw].
  { destruct bytes; [|cbn in H; lia]. rewrite app_nil_r. exists O, b. repeat split; auto. congruence. }
  destruct (ensure_ok g b c want R ltac:(lia)) as (b1 & -> & Rm & Hc). cbn [bind].
  assert (Hr : (want <= bsize b1 - bcons b1 - blen b1)%nat).
  { destruct Rm as (pre & post & _ & P & C & L & Hp). hlen. }
  pose proof Rm as (pre0 & post0 & _ & _ & C0 & _ & _).
  destruct (put_ok b1 c want bytes Rm H) as (d & d' & -> & E & L & pre & post & Dd & P & Hp).
  cbn [bind]. rewrite E. cbn [bind]. subst d'.
  destruct post as [|x post]; [cbn in Hp; lia|].
  destruct (Nat.eqb_spec (length bytes) 0) as [Z|Z].
  - destruct bytes; [|cbn in Z; lia]. rewrite app_nil_r. do 2 eexists. split; [reflexivity|]. cbn [app] in *.
    split; [|split; [auto|split; [congruence|auto]]]. eapply rep_intro; eauto.
  - replace (pre ++ c ++ bytes ++ x :: post) with ((pre ++ c ++ bytes) ++ x :: post) in * by now rewrite <- !app_assoc.
    rewrite wr_mid by llen. cbn [bind].
    replace ((pre ++ c ++ bytes) ++ 0 :: post) with (pre ++ (c ++ bytes) ++ 0 :: post) by now rewrite <- !app_assoc.
    do 2 eexists. split; [reflexivity|]. split; [|split; [auto|split; [|auto]]].
    + eapply rep_intro; eauto; hlen.
    + intros _. eapply term_intro; eauto. hlen.
Qed.

(** ** Numbers *)

Lemma nth_error_rev {A} (l : list A) i : (i < length l)%nat -> nth_error (rev l) i = nth_error l (length l - 1 - i).
Proof.
  intros H. destruct (nth_error l (length l - 1 - i)) as [y|] eqn:E; [|apply nth_error_None in E; lia].
  rewrite (nth_error_nth' (rev l) y) by (rewrite rev_length; lia). rewrite rev_nth by auto. f_equal.
  apply nth_error_nth. rewrite <- E. f_equal. lia.
Qed.

Lemma be_bytes_S w n : be_bytes (S w) n = be_bytes w (n / 256) ++ [n mod 256].
Proof. reflexivity. Qed.
Lemma be_bytes_nth : forall w n i, (i < w)%nat ->
  nth_error (be_bytes w n) i = Some (n / 256 ^ N.of_nat (w - 1 - i) mod 256).
Proof.
  induction w as [|w IH]; intros n i Hi; [lia|]. rewrite be_bytes_S.
  assert (L : forall w n, length (be_bytes w n) = w).
  { clear. induction w; intros; cbn; auto. rewrite app_length, IHw. cbn. lia. }
  destruct (Nat.eq_dec i w) as [->|Hne].
  - rewrite nth_error_app2 by (rewrite L; lia). rewrite L, Nat.sub_diag. cbn [nth_error].
    replace (S w - 1 - w)%nat with O by lia. cbn [N.of_nat]. now rewrite N.pow_0_r, N.div_1_r.
  - rewrite nth_error_app1 by (rewrite L; lia). rewrite IH by lia.
    replace (S w - 1 - i)%nat with (S (w - 1 - i)) by lia.
    rewrite Nat2N.inj_succ, N.pow_succ_r', N.div_div by (try apply N.pow_nonzero; lia). reflexivity.
Qed.
Lemma be_bytes_length : forall w n, length (be_bytes w n) = w.
Proof. induction w; intros; cbn; auto. rewrite app_length, IHw. cbn. lia. Qed.

Lemma uintbin_loop_ok g n width (big : bool) (out : list N) :
  length out = width ->
  (forall i, (i < width)%nat -> nth_error out i = Some (N.land (N.shiftr n (N.of_nat (if big then (width - 1 - i) * 8 else i * 8))) 255)) ->
  forall k i b c, Rep b c -> (i + k = width)%nat ->
  exists b', uintbin_loop g b n width i k big = Ok b' /\ Rep b' (c ++ skipn i out) /\ (Term b -> Term b') /\ (bcons b = O -> bcons b' = O).
Proof.
  intros Lo Ho. induction k as [|k IH]; intros i b c R Hi; cbn [uintbin_loop].
  - exists b. rewrite skipn_all2 by lia. rewrite app_nil_r. auto.
  - set (x := N.land _ 255).
    destruct (add_bytes_ok g b c [x] R) as (b1 & -> & R1 & T1 & C1). cbn [bind].
    destruct (IH (S i) b1 (c ++ [x]) R1 ltac:(lia)) as (b2 & -> & R2 & T2 & C2).
    exists b2. split; auto. split; auto.
    rewrite <- app_assoc in R2. cbn [app] in R2.
    destruct (skipn_rd out (i := i) ltac:(lia)) as (y & _ & Ny & ->). rewrite Ho in Ny by lia. injection Ny as <-. exact R2.
Qed.

Lemma uintbin_ok g b c n w big : Rep b c -> n < 2 ^ 64 ->
  exists b', buf_add_uintbin g b n w big = Ok (fst (spec_step c (AddUintbin n w big)), b') /\
    Rep b' (snd (spec_step c (AddUintbin n w big))) /\ (Term b -> Term b') /\ (bcons b = O -> bcons b' = O).
Proof.
  intros R Hn. unfold buf_add_uintbin. cbn [spec_step].
  destruct (Nat.ltb_spec 8 w) as [H8|H8]; cbn [orb].
  { rewrite (proj2 (Nat.leb_gt w 8)) by lia. rewrite andb_false_r. exists b. auto. }
  destruct (Nat.ltb_spec w 1) as [H1|H1].
  { rewrite (proj2 (Nat.leb_gt 1 w)) by lia. exists b. auto. }
  rewrite (proj2 (Nat.leb_le 1 w)), (proj2 (Nat.leb_le w 8)) by lia. cbn [andb].
  assert (P : 256 ^ N.of_nat w = 2 ^ (N.of_nat w * 8)).
  { change 256 with (2 ^ 8). rewrite <- N.pow_mul_r. f_equal. lia. }
  rewrite P.
  assert (Q : negb (w =? 8)%nat && (2 ^ (N.of_nat w * 8) <=? n) = negb (n <? 2 ^ (N.of_nat w * 8))).
  { rewrite N.leb_antisym. destruct (Nat.eqb_spec w 8) as [->|]; cbn [negb andb]; auto.
    change (N.of_nat 8 * 8) with 64. apply N.ltb_lt in Hn. now rewrite Hn. }
  rewrite Q. destruct (N.ltb_spec n (2 ^ (N.of_nat w * 8))) as [Hw|Hw]; cbn [negb].
  - destruct (uintbin_loop_ok g n w big (if big then be_bytes w n else rev (be_bytes w n))) with (k := w) (i := O) (b := b) (c := c)
      as (b' & -> & R' & HT); auto.
    + destruct big; rewrite ?rev_length; apply be_bytes_length.
    + intros i Hi.
      assert (SH : forall j, N.land (N.shiftr n (N.of_nat (j * 8))) 255 = n / 256 ^ N.of_nat j mod 256).
      { intros j. change 255 with (N.ones 8). rewrite N.land_ones, N.shiftr_div_pow2. change (2 ^ 8) with 256.
        do 2 f_equal. change 256 with (2 ^ 8). rewrite <- N.pow_mul_r. f_equal. lia. }
      destruct big.
      * rewrite be_bytes_nth, SH by auto. reflexivity.
      * rewrite SH. rewrite nth_error_rev by (rewrite be_bytes_length; auto). rewrite be_bytes_length.
        rewrite be_bytes_nth by lia. do 3 f_equal. f_equal. lia.
    + cbn [bind]. exists b'. rewrite skipn_O in R'. cbn. auto.
  - exists b. auto.
Qed.

Definition bcd_enc (t : N) : N := N.lor (N.shiftl (t / 10) 4) (t mod 10).
Lemma bcd_enc_ok n : bcd_enc (n mod 100) = 16 * (n / 10 mod 10) + n mod 10.
Proof.
  assert (A : n mod 100 / 10 = n / 10 mod 10) by lia.
  assert (B : (n mod 100) mod 10 = n mod 10) by lia.
  unfold bcd_enc. rewrite A, B. rewrite N.shiftl_mul_pow2. change (2 ^ 4) with 16. rewrite (N.mul_comm _ 16).
  assert (H1 : n / 10 mod 10 < 10) by (apply N.mod_lt; lia). assert (H2 : n mod 10 < 10) by (apply N.mod_lt; lia).
  revert H1 H2. generalize (n / 10 mod 10), (n mod 10). intros x y Hx Hy.
  assert (S : forallb (fun xy => N.lor (16 * fst xy) (snd xy) =? 16 * fst xy + snd xy)
     (list_prod (map N.of_nat (seq 0 10)) (map N.of_nat (seq 0 10))) = true) by reflexivity.
  rewrite forallb_forall in S. specialize (S (x, y)). apply N.eqb_eq. apply S.
  apply in_prod; apply in_map_iff; [exists (N.to_nat x)|exists (N.to_nat y)]; (split; [lia|apply in_seq; lia]).
Qed.

Lemma bcd_bytes_length : forall w n, length (bcd_bytes w n) = w.
Proof. induction w; intros; cbn; auto. rewrite app_length, IHw. cbn. lia. Qed.
Lemma bcd_bytes_pad : forall k w n, n < 100 ^ N.of_nat w -> bcd_bytes (k + w) n = repeat 0 k ++ bcd_bytes w n.
Proof.
  intros k w. induction w as [|w IH]; intros n Hn.
  - rewrite N.pow_0_r in Hn. assert (n = 0) by lia. subst n. rewrite Nat.add_0_r. cbn [bcd_bytes]. rewrite app_nil_r.
    clear Hn. induction k as [|k IH]; [reflexivity|].
    cbn [bcd_bytes]. change (0 / 100) with 0. rewrite IH. change (16 * (0 / 10 mod 10) + 0 mod 10) with 0.
    change [0] with (repeat 0 1). rewrite <- repeat_app. now rewrite Nat.add_comm.
  - replace (k + S w)%nat with (S (k + w)) by lia. cbn [bcd_bytes]. rewrite IH.
    + now rewrite <- app_assoc.
    + rewrite Nat2N.inj_succ, N.pow_succ_r' in Hn. apply N.div_lt_upper_bound; lia.
Qed.

Lemma bcd_split_ok : forall fuel n tmp i, (i <= length tmp)%nat -> n < 100 ^ N.of_nat (length tmp - i) ->
  (length tmp - i < fuel)%nat ->
  exists ds, bcd_split fuel n tmp i = Ok (firstn i tmp ++ ds ++ skipn (i + length ds) tmp, (i + length ds)%nat) /\
    (i + length ds <= length tmp)%nat /\
    map bcd_enc (rev ds) = bcd_bytes (length ds) n /\ n < 100 ^ N.of_nat (length ds) /\
    (n <> 0 -> (0 < length ds)%nat /\ 100 ^ N.of_nat (length ds - 1) <= n).
Proof.
  induction fuel as [|fuel IH]; intros n tmp i Hi Hn Hf; [lia|]. cbn [bcd_split].
  destruct (N.eqb_spec n 0) as [->|Hz].
  - exists []. cbn [app length rev map bcd_bytes]. rewrite Nat.add_0_r, firstn_skipn. split; [reflexivity|]. split; [lia|]. split; [reflexivity|]. split; [cbn; lia|congruence].
  - assert (Hl : (i < length tmp)%nat).
    { destruct (Nat.eq_dec i (length tmp)) as [->|]; [|lia]. rewrite Nat.sub_diag, N.pow_0_r in Hn. lia. }
    rewrite wr_lt by auto. cbn [bind]. remember (upd tmp i (n mod 100)) as tmp1 eqn:T1.
    assert (L1 : length tmp1 = length tmp) by (rewrite T1; apply length_upd).
    destruct (IH (n / 100) tmp1 (S i)) as (ds & E & D1 & D2 & D3 & D4); try lia.
    { rewrite L1. apply N.div_lt_upper_bound; [lia|].
      replace (length tmp - i)%nat with (S (length tmp - S i)) in Hn by lia.
      rewrite Nat2N.inj_succ, N.pow_succ_r' in Hn. exact Hn. }
    exists (n mod 100 :: ds). rewrite E. cbn [length]. split; [|split; [lia|split; [|split]]].
    + subst tmp1. rewrite firstn_S_upd by auto. rewrite skipn_upd_lt by lia. rewrite <- app_assoc. cbn [app].
      replace (i + S (length ds))%nat with (S i + length ds)%nat by lia. reflexivity.
    + cbn [rev bcd_bytes]. rewrite map_app, D2. cbn [map]. now rewrite bcd_enc_ok.
    + rewrite Nat2N.inj_succ, N.pow_succ_r'. pose proof (N.div_mod n 100 ltac:(lia)). pose proof (N.mod_lt n 100 ltac:(lia)). nia.
    + intros _. split; [lia|]. replace (S (length ds) - 1)%nat with (length ds) by lia.
      destruct (N.eq_dec (n / 100) 0) as [Z|Z].
      * rewrite Z in D2. destruct ds as [|x ds]; [cbn; lia|]. exfalso.
        specialize (IH 0 tmp1 (S i)). clear IH.
        destruct fuel; cbn [bcd_split] in E; [discriminate|]. rewrite Z in E. cbn in E.
        apply (f_equal (fun r => match r with Ok (_, k) => k | _ => O end)) in E. cbn in E. lia.
      * destruct (D4 Z) as [P Q]. destruct (length ds) as [|k]; [lia|]. replace (S k - 1)%nat with k in Q by lia.
        rewrite Nat2N.inj_succ, N.pow_succ_r'. pose proof (N.div_mod n 100 ltac:(lia)). nia.
Qed.

Lemma num_udigits_ok : forall fuel n count, n < 10 ^ N.of_nat fuel -> (0 < fuel)%nat ->
  exists d, num_udigits fuel n count = Ok (count + d)%nat /\ (0 < d)%nat /\ n < 10 ^ N.of_nat d /\
    (n <> 0 -> 10 ^ N.of_nat (d - 1) <= n) /\ (n = 0 -> d = 1%nat).
Proof.
  induction fuel as [|fuel IH]; intros n count Hn Hf; [lia|]. cbn [num_udigits].
  destruct (N.eqb_spec (n / 10) 0) as [Z|Z].
  - exists 1%nat. rewrite Nat.add_1_r. change (10 ^ N.of_nat 1) with 10. change (10 ^ N.of_nat (1 - 1)) with 1.
    repeat split; auto; try lia.
  - rewrite Nat2N.inj_succ, N.pow_succ_r' in Hn.
    assert (n / 10 < 10 ^ N.of_nat fuel) by (apply N.div_lt_upper_bound; lia).
    destruct fuel as [|fuel]; [cbn in *; lia|].
    destruct (IH (n / 10) (S count)) as (d & E & D1 & D2 & D3 & D4); auto; try lia.
    exists (S d). rewrite E. replace (S count + d)%nat with (count + S d)%nat by lia.
    rewrite Nat2N.inj_succ, N.pow_succ_r'. pose proof (N.div_mod n 10 ltac:(lia)). pose proof (N.mod_lt n 10 ltac:(lia)).
    split; auto. split; [lia|]. split; [nia|]. split.
    + intros _. specialize (D3 Z). destruct d as [|d]; [lia|]. replace (S (S d) - 1)%nat with (S d) by lia.
      replace (S d - 1)%nat with d in D3 by lia. rewrite Nat2N.inj_succ, N.pow_succ_r'. nia.
    + intros ->. cbn in Z. lia.
Qed.

Lemma bcd_add_ok g tmp : forall i b c, Rep b c -> (i <= length tmp)%nat ->
  exists b', bcd_add g b tmp i = Ok b' /\ Rep b' (c ++ map bcd_enc (rev (firstn i tmp))) /\ (Term b -> Term b') /\ (bcons b = O -> bcons b' = O).
Proof.
  induction i as [|i IH]; intros b c R Hi; cbn [bcd_add].
  - exists b. rewrite firstn_O. cbn. rewrite app_nil_r. auto.
  - destruct (rd_lt tmp (i := i) ltac:(lia)) as [t Et]. rewrite Et. cbn [bind].
    destruct (add_bytes_ok g b c [bcd_enc t] R) as (b1 & E1 & R1 & T1 & C1). unfold bcd_enc in E1. rewrite E1. cbn [bind].
    destruct (IH b1 _ R1 ltac:(lia)) as (b2 & -> & R2 & T2 & C2). exists b2. split; auto. split; auto.
    assert (Fs : firstn (S i) tmp = firstn i tmp ++ [t]).
    { destruct (skipn_rd tmp (i := i) ltac:(lia)) as (y & Ey & _ & Sk). rewrite Et in Ey. injection Ey as <-.
      rewrite <- (firstn_skipn i tmp) at 1. rewrite Sk, firstn_app, firstn_all2 by (rewrite firstn_length; lia).
      rewrite firstn_length. replace (S i - Nat.min i (length tmp))%nat with 1%nat by lia. reflexivity. }
    rewrite Fs, rev_app_distr. cbn [rev app map].
    now rewrite <- app_assoc in R2.
Qed.

Lemma pow100 k : 100 ^ N.of_nat k = 10 ^ N.of_nat (2 * k).
Proof. change 100 with (10 ^ 2). rewrite <- N.pow_mul_r. f_equal. lia. Qed.
Lemma pow10_lt a b : 10 ^ N.of_nat a < 10 ^ N.of_nat b -> (a < b)%nat.
Proof. intros H. apply N.pow_lt_mono_r_iff in H; lia. Qed.

Lemma uintbcd_ok g b c n w : Rep b c -> n < 2 ^ 64 ->
  exists b', buf_add_uintbcd g b n w = Ok (fst (spec_step c (AddUintbcd n w)), b') /\
    Rep b' (snd (spec_step c (AddUintbcd n w))) /\ (Term b -> Term b') /\ (bcons b = O -> bcons b' = O).
Proof.
  intros R Hn. unfold buf_add_uintbcd. cbn [spec_step].
  destruct (num_udigits_ok 21 n 0) as (d & -> & D1 & D2 & D3 & D4); [|lia|].
  { eapply N.lt_le_trans; [exact Hn|]. cbv. discriminate. }
  cbn [bind Nat.add].
  destruct (bcd_split_ok 11 n (repeat 0 10) 0) as (ds & Es & S1 & S2 & S3 & S4); try (rewrite repeat_length; lia).
  { rewrite repeat_length. eapply N.lt_le_trans; [exact Hn|]. cbv. discriminate. }
  set (len := (d / 2 + d mod 2)%nat).
  assert (Len : (1 <= len)%nat /\ n < 100 ^ N.of_nat len /\ (forall w, (1 <= w)%nat -> n < 100 ^ N.of_nat w -> (len <= w)%nat)).
  { pose proof (Nat.div_mod d 2 ltac:(lia)) as Q. pose proof (Nat.mod_upper_bound d 2 ltac:(lia)) as Q2.
    assert (d <= 2 * len /\ 2 * len <= d + 1)%nat by (unfold len; lia). split; [lia|]. split.
    - rewrite pow100. eapply N.lt_le_trans; [exact D2|]. apply N.pow_le_mono_r; lia.
    - intros w' Hw' Hl. destruct (N.eq_dec n 0) as [->|Z]; [specialize (D4 eq_refl); lia|].
      specialize (D3 Z). rewrite pow100 in Hl.
      assert (d - 1 < 2 * w')%nat by (apply pow10_lt; eapply N.le_lt_trans; eauto). lia. }
  destruct Len as (Len1 & Len2 & Len3). clearbody len.
  destruct (Nat.ltb_spec w len) as [Hw|Hw].
  { destruct (Nat.leb_spec 1 w) as [H1|H1]; cbn [andb]; [|exists b; auto].
    destruct (N.ltb_spec n (100 ^ N.of_nat w)) as [H2|H2]; [|exists b; auto]. specialize (Len3 w H1 H2). lia. }
  rewrite (proj2 (Nat.leb_le 1 w)) by lia. cbn [andb].
  assert (H2 : n < 100 ^ N.of_nat w).
  { eapply N.lt_le_trans; [exact Len2|]. apply N.pow_le_mono_r; lia. }
  rewrite (proj2 (N.ltb_lt _ _) H2). cbn [fst snd].
  assert (F : exists b1, (if (len <? w)%nat then buf_add_fill g b 0 (w - len) else Ok b) = Ok b1 /\
     Rep b1 (c ++ repeat 0 (w - len)) /\ (Term b -> Term b1) /\ (bcons b = O -> bcons b1 = O)).
  { destruct (Nat.ltb_spec len w) as [H|H].
    - apply fill_ok. auto.
    - exists b. replace (w - len)%nat with O by lia. cbn [repeat]. rewrite app_nil_r. auto. }
  destruct F as (b1 & -> & R1 & T1 & C1). cbn [bind].
  assert (PW : bcd_bytes w n = repeat 0 (w - len) ++ bcd_bytes len n).
  { replace w with ((w - len) + len)%nat at 1 by lia. now apply bcd_bytes_pad. }
  rewrite PW, app_assoc.
  destruct (N.eqb_spec n 0) as [->|Z].
  - specialize (Len3 1%nat ltac:(lia) ltac:(cbn; lia)). assert (len = 1)%nat by lia. subst len.
    destruct (add_bytes_ok g b1 _ [0] R1) as (b2 & -> & R2 & T2 & C2). cbn [bind]. exists b2. split; [reflexivity|split; [exact R2|auto]].
  - rewrite Es. cbn [bind]. rewrite firstn_O. cbn [app Nat.add].
    assert (Ld : length ds = len).
    { destruct (S4 Z) as [P Q].
      assert (length ds - 1 < len)%nat.
      { rewrite pow100 in Q, Len2. assert (2 * (length ds - 1) < 2 * len)%nat by (apply pow10_lt; eapply N.le_lt_trans; eauto). lia. }
      specialize (Len3 (length ds) ltac:(lia) S3). lia. }
    destruct (bcd_add_ok g (ds ++ skipn (length ds) (repeat 0 10)) (length ds) b1 _ R1) as (b2 & -> & R2 & T2 & C2).
    { rewrite app_length. lia. }
    rewrite firstn_len in R2 by auto. rewrite S2, Ld in R2. cbn [bind]. exists b2. auto 8.
Qed.

(** ** Hexadecimal input *)

Lemma denotes_length : forall k s, (length s <= k)%nat -> forall l, denotes s = Some l -> length s = (2 * length l)%nat.
Proof.
  induction k as [|k IH]; intros s Hk l E.
  - destruct s; [|cbn in Hk; lia]. cbn in E. injection E as <-. reflexivity.
  - destruct s as [|x [|y s]]; cbn in E; [injection E as <-; reflexivity|discriminate|].
    destruct (digit_val x), (digit_val y), (denotes s) as [m|] eqn:D; try discriminate. injection E as <-.
    cbn in *. rewrite (IH s ltac:(lia) m D). lia.
Qed.

Lemma hex_ok g b c hex : Rep b c -> Forall (fun c => ~ Hex.Spec.is_space c) hex ->
  exists b', buf_add_bytes_hex g b hex = Ok (Nat.even (length hex), b') /\
    Rep b' (match denotes hex with Some l => c ++ l | None => c end) /\
    (Term b -> denotes hex <> None -> Term b') /\ (bcons b = O -> bcons b' = O).
Proof.
  intros R F. unfold buf_add_bytes_hex.
  destruct (Nat.eqb_spec (length hex) 0) as [Z|Z].
  { destruct hex; [|cbn in Z; lia]. exists b. cbn. rewrite app_nil_r. auto. }
  pose proof (Nat.div_mod (length hex) 2 ltac:(lia)) as Q. pose proof (Nat.mod_upper_bound (length hex) 2 ltac:(lia)) as Q2.
  destruct (Nat.eqb_spec (length hex mod 2) 0) as [Ev|Ev]; cbn [negb].
  2:{ destruct (denotes hex) as [l|] eqn:D.
      - apply (denotes_length (length hex)) in D; [|lia]. rewrite D, Nat.mul_comm, Nat.mod_mul in Ev by lia. lia.
      - assert (Nat.even (length hex) = false) as ->.
        { destruct (Nat.even (length hex)) eqn:Ee; auto. apply Nat.even_spec in Ee. destruct Ee as [m Hm].
          rewrite Hm, Nat.mul_comm, Nat.mod_mul in Ev by lia. lia. }
        exists b. auto. }
  assert (Nat.even (length hex) = true) as ->.
  { apply Nat.even_spec. exists (length hex / 2)%nat. lia. }
  destruct (ensure_ok g b c (length hex / 2) R) as (b1 & -> & Rm & Hc).
  { destruct (length hex / 2)%nat; lia. }
  cbn [bind]. destruct Rm as (pre & post & Ed & P & C & L & Hp). unfold with_data. rewrite Ed. cbn [bind].
  assert (D : exists space x, post = space ++ [x] /\ length space = (bsize b1 - bcons b1 - blen b1)%nat).
  { destruct (exists_last (l := post)) as (sp & x & ->); [destruct post; [cbn in Hp; lia|congruence]|].
    exists sp, x. split; auto. hlen. }
  destruct D as (space & x & -> & Ls). rewrite <- Ls.
  replace (pre ++ c ++ space ++ [x]) with ((pre ++ c) ++ space ++ [x]) in * by now rewrite <- app_assoc.
  replace (bcons b1 + blen b1)%nat with (length (pre ++ c)) by llen.
  rewrite rdn_ok. cbn [bind].
  destruct (hex_decode_denotes_lemma hex space) as (n & sp' & E & Lsp & H).
  { destruct hex; [cbn in Z; lia|congruence]. }
  { exact F. }
  { rewrite app_length in Hp. cbn [length] in Hp. lia. }
  rewrite E. cbn [bind]. rewrite wrn_ok by auto. cbn [bind].
  destruct (denotes hex) as [l|] eqn:D.
  - destruct H as [-> Hf]. pose proof (denotes_length (length hex) hex ltac:(lia) l D) as DL.
    destruct (Nat.eqb_spec (length l) 0) as [Z0|Z0]; [lia|].
    assert (Sp : exists y, sp' = l ++ y).
    { exists (skipn (length l) sp'). rewrite <- Hf at 1. now rewrite firstn_skipn. }
    destruct Sp as [y ->].
    destruct (y ++ [x]) as [|z t] eqn:Ey; [destruct y; discriminate|].
    replace ((pre ++ c) ++ (l ++ y) ++ [x]) with ((pre ++ c ++ l) ++ z :: t) by (rewrite <- Ey, <- !app_assoc; reflexivity).
    rewrite wr_mid by llen. cbn [bind].
    replace ((pre ++ c ++ l) ++ 0 :: t) with (pre ++ (c ++ l) ++ 0 :: t) by now rewrite <- !app_assoc.
    eexists. split; [reflexivity|]. split; [|split; [|auto]].
    + eapply rep_intro; eauto; [llen|].
      apply (f_equal (@length N)) in Ey. hlen.
    + intros _ _. eapply term_intro; eauto. llen.
  - subst n. cbn [Nat.eqb]. eexists. split; [reflexivity|]. split; [|split; [congruence|auto]].
    destruct (sp' ++ [x]) as [|z t] eqn:Ey; [destruct sp'; discriminate|].
    eapply rep_intro with (x := z) (post := t); eauto.
    + now rewrite <- app_assoc.
    + apply (f_equal (@length N)) in Ey. hlen.
Qed.

(** ** Sequences of calls *)

(** The calls that leave a terminator behind the contents. *)
Definition terminates (o : op) : Prop :=
  match o with
  | DirectWrite _ bytes => bytes <> []
  | AddHex hex => denotes hex <> None
  | _ => True
  end.
Definition no_drop (o : op) : Prop := match o with Drop _ => False | _ => True end.

Lemma step_ok g b c o : Rep b c -> wf_op o ->
  exists b', step g b o = Ok (fst (spec_step c o), b') /\ Rep b' (snd (spec_step c o)) /\
    (Term b -> terminates o -> Term b') /\ (bcons b = O -> no_drop o -> bcons b' = O).
Proof.
  intros R W. destruct o as [bytes|flag bytes|x w|n|n|want bytes|n w big|n w|hex]; cbn [step spec_step fst snd] in *.
  - destruct (add_bytes_ok g b c bytes R) as (b' & -> & ? & ? & ?). exists b'. auto.
  - destruct (transform_ok g flag b c bytes R) as (b' & -> & ? & ? & ?). exists b'. auto.
  - destruct (fill_ok g b c x w R) as (b' & -> & ? & ? & ?). exists b'. auto.
  - destruct (truncate_ok b c n R) as (b' & -> & ? & ? & ?). exists b'. auto.
  - destruct (drop_ok b c n R) as (b' & -> & ? & ?). exists b'. cbn. repeat split; auto. tauto.
  - destruct (direct_ok g b c want bytes R W) as (room & b' & -> & ? & ? & ? & ?). exists b'. auto.
  - destruct (uintbin_ok g b c n w big R W) as (b' & -> & ? & ? & ?). exists b'. auto.
  - destruct (uintbcd_ok g b c n w R W) as (b' & -> & ? & ? & ?). exists b'. auto.
  - destruct (hex_ok g b c hex R W) as (b' & -> & ? & ? & ?). exists b'. auto.
Qed.

Lemma run_ok g : forall ops b c rs, Rep b c -> Forall wf_op ops ->
  exists b', run g ops b rs = Ok (fst (spec_run ops c rs), b') /\ Rep b' (snd (spec_run ops c rs)) /\
    (Term b -> Forall terminates ops -> Term b') /\ (bcons b = O -> Forall no_drop ops -> bcons b' = O).
Proof.
  induction ops as [|o ops IH]; intros b c rs R F; cbn [run spec_run].
  { exists b. auto. }
  inversion F as [|? ? Fo Fs]; subst.
  destruct (step_ok g b c o R Fo) as (b1 & -> & R1 & T1 & C1). cbn [bind].
  destruct (spec_step c o) as [r c1]. cbn [fst snd] in *.
  destruct (IH b1 c1 (r :: rs) R1 Fs) as (b2 & -> & R2 & T2 & C2).
  exists b2. repeat split; auto; intros HT HF; inversion HF; subst; auto.
Qed.

(** ** Merging, finishing and justified fields *)

Lemma merge_ok g dest cd src : Rep dest cd -> (forall d, bdata src = Some d -> (blen src <= length d)%nat) ->
  exists b', buf_merge g dest src = Ok b' /\
    Rep b' (cd ++ match bdata src with None => [] | Some d => firstn (blen src) d end).
Proof.
  intros R H. unfold buf_merge. destruct (bdata src) as [d|].
  - rewrite rdn_lt by (cbn; apply H; auto). cbn [bind]. rewrite skipn_O.
    destruct (add_bytes_ok g dest cd (firstn (blen src) d) R) as (b' & -> & ? & _). exists b'. auto.
  - exists dest. rewrite app_nil_r. auto.
Qed.

Lemma rep_cons0 b c : Rep b c -> bcons b = O -> match bdata b with None => [] | Some d => firstn (blen b) d end = c.
Proof.
  unfold Rep. destruct (bdata b) as [d|].
  - intros (pre & x & post & -> & P & C & L) Z. destruct pre; [|cbn in P; lia]. cbn [app]. now apply firstn_len.
  - intros (-> & _) _. reflexivity.
Qed.
Lemma rep_bound b c : Rep b c -> forall d, bdata b = Some d -> (blen b <= length d)%nat.
Proof.
  unfold Rep. intros R d E. rewrite E in R. destruct R as (pre & x & post & -> & P & C & L). llen.
Qed.

Lemma finish_ok b c : Rep b c ->
  exists m, buf_finish b = Ok (m, length c) /\
    match m with None => c = [] | Some d => firstn (length c) d = c end.
Proof.
  intros R. unfold buf_finish. destruct (consume_ok b c R) as (b' & -> & R' & C' & _). cbn [bind].
  pose proof (peek_ok _ _ R') as [_ L]. rewrite L. exists (bdata b'). split; auto.
  pose proof (rep_cons0 b' c R' C') as E. rewrite L in E. destruct (bdata b'); auto.
Qed.

Lemma just_ok g flag b c bytes j fill width : Rep b c -> bcons b = O -> (0 < width)%nat ->
  exists b' out, buf_add_just g flag b bytes j fill width = Ok b' /\ Rep b' (c ++ out) /\
    (if no_trunc j && (width <? length (transformed flag bytes))%nat then out = []
     else justified j (transformed flag bytes) fill width out).
Proof.
  intros R C0 Hw. unfold buf_add_just. destruct (Nat.eqb_spec width 0) as [|_]; [lia|].
  rewrite C0. cbn [Nat.add].
  destruct (transform_ok g flag b c bytes R) as (b1 & -> & R1 & _ & C1). specialize (C1 C0). cbn [bind].
  pose proof (peek_ok _ _ R) as [_ Lb].
  set (t := transformed flag bytes) in *. clearbody t.
  assert (E : exists b2 post, (if (length t <? width)%nat then ensure_space g b1 width else Ok b1) = Ok b2 /\
    bdata b2 = Some (c ++ t ++ post) /\ bcons b2 = O /\ blen b2 = (length c + length t)%nat /\
    length (c ++ t ++ post) = S (bsize b2) /\ (0 < length post)%nat /\ (width < length t + length post)%nat).
  { destruct (Nat.ltb_spec (length t) width) as [H|H].
    - destruct (ensure_ok g b1 _ width R1 Hw) as (b2 & E2 & (pre & post & Ed & P & C & L & Hp) & HC).
      exists b2, post. rewrite (HC C1) in P. destruct pre; [|cbn in P; lia]. cbn [app] in *. rewrite app_length in C.
      rewrite <- app_assoc in Ed, L. repeat split; auto; lia.
    - exists b1. pose proof (peek_ok _ _ R1) as [_ L1]. unfold Rep in R1. destruct (bdata b1) as [d|].
      + destruct R1 as (pre & x & post & -> & P & C & L). rewrite C1 in P. destruct pre; [|cbn in P; lia].
        exists (x :: post). cbn [app] in *. rewrite <- app_assoc in L |- *. rewrite app_length in C.
        repeat split; auto; cbn [length]; lia.
      + destruct R1 as (E & _). destruct c; [|discriminate]. destruct t; [|discriminate]. cbn in H. lia. }
  destruct E as (b2 & post & -> & Ed & C2 & L2 & LL & Hp & Hpw). cbn [bind]. unfold with_data. rewrite Ed. cbn [bind].
  rewrite Lb.
  rewrite (proj2 (Nat.ltb_ge _ _)) by llen. rewrite skipn_len, firstn_len by auto.
  destruct (justify_total (t ++ post) (Nat.max (length t) width + 1) (t ++ post) (length t) j fill width) as (n & d' & E & Ld & H1 & H2);
    [llen|llen|].
  rewrite E. cbn [bind].
  assert (O : exists out rest, d' = out ++ rest /\ length out = n /\ rest <> [] /\
     (if no_trunc j && (width <? length t)%nat then out = [] else justified j t fill width out)).
  { destruct (no_trunc j && (width <? length t)%nat) eqn:NT.
    - apply andb_true_iff in NT. destruct NT as [N1 N2]. apply Nat.ltb_lt in N2.
      destruct H1 as [-> ->]; auto. exists [], (t ++ post). repeat split; auto. destruct t; cbn; [|congruence]. destruct post; [cbn in Hp; lia|congruence].
    - assert (N1 : no_trunc j = true -> (length t <= width)%nat).
      { intros Nt. rewrite Nt in NT. cbn in NT. apply Nat.ltb_ge in NT. auto. }
      specialize (H2 ltac:(lia) N1).
      destruct (Nat.eq_dec n 0) as [Z|Z].
      + exists [], d'. split; auto. split; auto. split; [destruct d'; [hlen|congruence]|].
        assert (Zt : length t = 0%nat) by (destruct j; lia). destruct t; [|cbn in Zt; lia].
        split; [|cbn; lia]. intros _. destruct j; auto; exfalso; lia.
      + destruct (justify_correct (t ++ post) (Nat.max (length t) width + 1) (t ++ post) (length t) j fill width n d') as (out & Eo & Lo & Bo & J);
          auto; try llen.
        exists out, (0 :: skipn (n + 1) (t ++ post)). rewrite firstn_len in J by auto. split; auto. split; auto. split; [congruence|exact J]. }
  destruct O as (out & rest & -> & Lo & Hr & J). exists (mkbuf (Some (c ++ out ++ 0 :: tl rest)) (bsize b2) (length c + n) 0).
  exists out. split; [|split; auto].
  - rewrite L2, C2. cbn [Nat.add].
    assert (LE : (if (length t <=? n)%nat then (length c + length t + (n - length t))%nat else (length c + length t - (length t - n))%nat) = (length c + n)%nat).
    { destruct (Nat.leb_spec (length t) n); lia. }
    rewrite LE. destruct rest as [|x rest]; [congruence|].
    rewrite (app_assoc c out (x :: rest)), wr_mid by llen. cbn [bind tl]. now rewrite <- app_assoc.
  - destruct rest as [|x rest]; [congruence|]. cbn [tl].
    apply (rep_intro _ _ _ _ [] (c ++ out) 0 rest); [now rewrite <- app_assoc|auto|llen|hlen].
Qed.

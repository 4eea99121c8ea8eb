(** Property theorems of the buffer layer: C101, C102, C103. *)
From Verif Require Import Base.Lib IoBuf.Model IoBuf.Spec IoBuf.Proofs.
From Verif Require Bithacks.Spec.
Local Open Scope N_scope.

(** ** C101: the bytes come through, each once and in order *)

(** The reader gets what was read below, in order; what it has not got yet is what a
    read gives next, as much as it asks for *)
Theorem iobuf_reads : forall mr mw os h tr, runs mr mw os h tr ->
  exists rest, taken tr = delivered tr ++ rest /\ (mr = 0 -> rest = []) /\
    (0 < mr -> forall n r, 0 < n -> exists h' t, step h (AppRead n r) = Ok (h', t) /\
       In (ReadRet n (match rest with [] => None | _ => Some (firstn (N.to_nat n) rest) end)) t /\
       forall m x, ~ In (FromBelow m x) t).
Proof.
  intros mr mw os h tr R. destruct (runs_ok _ _ _ _ _ R) as ((D1 & _) & S & (M1 & _)). destruct R as (A & _).
  exists (bd (rb h)). split; [exact D1|]. split.
  - intros ->. apply S. rewrite M1. reflexivity.
  - intros P n r Hn. destruct (cap_ok mr mw A P) as (_ & NZ). cbn [step]. rewrite read_cb_spec by (congruence || auto).
    destruct (bd (rb h)) as [|x d]; do 2 eexists; (split; [reflexivity|]); split.
    + left. reflexivity.
    + intros m y [X|[]]. discriminate.
    + apply in_or_app. right. left. reflexivity.
    + intros m y X. apply in_app_or in X. destruct (hitr h); destruct X as [X|X]; cbn in X; decompose [or] X; try discriminate; auto.
Qed.

(** The layer below gets what the writer was told is written, in order; what it has not
    got yet is offered to it at the next write event, from the front and whole, and goes
    when it is taken; and a write is told exactly how much there was room for *)
Theorem iobuf_writes : forall mr mw os h tr, runs mr mw os h tr ->
  exists rest, accepted tr = sent tr ++ rest /\ (mw = 0 -> rest = []) /\
    (rest <> [] -> forall s r, exists h' t, step h (EvWrite s r) = Ok (h', t) /\
       In (ToBelow rest (match r with Some k => Some (firstn (N.to_nat k) rest) | None => None end)) t) /\
    (0 < mw -> exists cap, Bithacks.Spec.least_pow2_ge mw cap /\ lenN rest <= cap /\
       forall bs r, 0 < lenN bs < 2 ^ 63 -> exists h' t, step h (AppWrite bs r) = Ok (h', t) /\
       let k := N.min (lenN bs) (cap - lenN rest) in
       In (WriteRet bs (if k =? 0 then None else Some k)) t /\ forall b x, ~ In (ToBelow b x) t).
Proof.
  intros mr mw os h tr R. destruct (runs_ok _ _ _ _ _ R) as ((_ & D2 & _) & S & (_ & M2)). destruct R as (_ & B & _).
  assert (Z : mw = 0 -> wb h = []).
  { intros ->. apply lenN_nil. destruct S as (_ & _ & _ & _ & L & _). rewrite M2 in L. cbn in L. lia. }
  exists (wb h). split; [exact D2|]. split; [exact Z|]. split.
  - intros NE s r. cbn [step]. unfold process_write.
    destruct (maxw h =? 0) eqn:EZ.
    { exfalso. apply NE, lenN_nil. apply N.eqb_eq in EZ. destruct S as (_ & _ & _ & _ & L & _). lia. }
    destruct (wb h) as [|x w]; [congruence|]. unfold low_write. destruct r as [k|].
    + destruct (firstn (N.to_nat k) (x :: w)) as [|y l]; [|destruct (hitw h)]; do 2 eexists; (split; [reflexivity|left; reflexivity]).
    + do 2 eexists; (split; [reflexivity|left; reflexivity]).
  - intros P. exists (maxw h).
    assert (Q : Bithacks.Spec.least_pow2_ge mw (maxw h)).
    { rewrite M2. cbn [add_buffer maxw]. rewrite (proj2 (N.eqb_neq _ _)) by lia. apply (round_ok mw 63); [lia|auto|lia]. }
    split; [exact Q|]. split; [apply S|]. intros bs r Hb. cbn [step].
    rewrite write_cb_spec by (auto; destruct Q as (_ & G & _); lia). cbn zeta.
    destruct (N.min (lenN bs) (maxw h - lenN (wb h)) =? 0); do 2 eexists; (split; [reflexivity|]); split; cbn; auto;
      intros b x X; decompose [or] X; discriminate || auto.
Qed.

(** No run gets stuck or goes wrong: every operation of every run has an outcome *)
Theorem iobuf_total : forall mr mw os, mr <= 2 ^ 62 -> mw <= 2 ^ 63 -> Forall sane_op os ->
  exists h tr, run (add_buffer mr mw) os = Ok (h, tr).
Proof.
  intros mr mw os A B F. destruct (run_total os _ (new_Sz mr mw A B) F) as (h & tr & E & _). eauto.
Qed.

(** ** C102: whoever waits is told *)

(** A reader that was told to wait is told of the next bytes that arrive *)
Theorem iobuf_wakes_reader : forall mr mw os h tr s r, runs mr mw os h tr -> waits_read tr = true ->
  exists h' t, step h (EvRead s r) = Ok (h', t) /\
    ((exists l, r = Some l) -> In (Propagate RD) t) /\
    (0 < mr -> forall x, r = Some x -> exists room, 0 < room /\ In (FromBelow room (Some (firstn (N.to_nat room) x))) t).
Proof.
  intros mr mw os h tr s r R Wt. destruct (runs_ok _ _ _ _ _ R) as ((_ & _ & D3 & _) & S & (M1 & _)). destruct R as (A & _).
  specialize (D3 Wt). cbn [step]. destruct (N.eq_dec (maxr h) 0) as [Z|NZ].
  - unfold process_read. rewrite Z. do 2 eexists. split; [reflexivity|]. split; [intros _; left; reflexivity|].
    intros P. destruct (cap_ok mr mw A P) as (_ & NZ). congruence.
  - destruct (target_ok h S NZ) as (_ & LT & _).
    destruct (process_read_spec h r S NZ) as [(Q & _)|(Q & b' & rm & RR & _ & _ & _ & _ & _ & _ & E)].
    + rewrite D3 in Q. change (lenN []) with 0 in Q. lia.
    + rewrite E, D3. do 2 eexists. split; [reflexivity|]. split.
      * intros (l & ->). right. left. reflexivity.
      * intros _ x ->. exists rm. split; [lia|]. left. reflexivity.
Qed.

(** A writer that was told to wait is told as soon as the layer below takes a byte *)
Theorem iobuf_wakes_writer : forall mr mw os h tr s k, runs mr mw os h tr -> waits_write tr = true -> 0 < k ->
  exists h' t, step h (EvWrite s (Some k)) = Ok (h', t) /\ In (Propagate WR) t.
Proof.
  intros mr mw os h tr s k R Wt P. destruct (runs_ok _ _ _ _ _ R) as ((_ & _ & _ & D4 & _) & S & _).
  cbn [step]. unfold process_write. destruct (maxw h =? 0) eqn:E; [do 2 eexists; split; [reflexivity|left; reflexivity]|].
  apply N.eqb_neq in E. destruct (D4 Wt E) as (Hh & L). destruct (wb h) as [|x w]; [do 2 eexists; split; [reflexivity|left; reflexivity]|].
  cbn [low_write]. destruct (N.to_nat k) as [|k'] eqn:Ek; [lia|]. cbn [firstn]. rewrite Hh. do 2 eexists. split; [reflexivity|right; left; reflexivity].
Qed.

(** What the writer was told is written is not forgotten: a soft event that will offer it
    to the layer below is queued, or that layer took less than it was offered and owes
    the event *)
Theorem iobuf_flushes : forall mr mw os h tr, runs mr mw os h tr ->
  sent tr = accepted tr \/ queued WR tr = true \/ below_full tr = true.
Proof.
  intros mr mw os h tr R. destruct (runs_ok _ _ _ _ _ R) as ((_ & D2 & _ & _ & D5) & _ & _).
  destruct (wb h) as [|x w] eqn:E; [left; rewrite D2, app_nil_r; reflexivity|]. right. apply D5. discriminate.
Qed.

(** What may wait below is not forgotten either.  Missing: runs in which a read event is
    processed while the buffer is full; [iobuf_stall_refuted] is one. *)
Theorem iobuf_no_stall_partial : forall mr mw os h tr cap, runs mr mw os h tr -> 0 < mr -> read_cap mr cap -> never_full cap tr ->
  not_forgotten h tr.
Proof.
  intros mr mw os h tr cap R P (p & Hp & ->) NF. destruct (runs_ok _ _ _ _ _ R) as ((D1 & _) & S & (M1 & M2)).
  destruct R as (A & B & F & h0 & Fr & E). destruct (cap_ok mr mw A P) as (Q & NZ).
  destruct (fresh_ok mr mw h0 A B Fr) as (S0 & (M3 & M4) & Z1 & Z2 & Z3).
  assert (NS h tr) as (N1 & N2 & _).
  { apply (run_NS os h0 [] h tr S0 F); [| |exact E|].
    - unfold DI. rewrite Z1, Z2. cbn. repeat split; auto; discriminate.
    - unfold NS. rewrite Z1, Z3. cbn. repeat split; auto; try discriminate.
      intros _. destruct S0 as (_ & _ & _ & [X|X] & _); [left; exact X|right; change (lenN []) with 0; lia].
    - rewrite M3. unfold lim. rewrite <- (least_unique _ _ _ Hp Q). exact NF. }
  intros M. assert (NZ' : maxr h <> 0) by congruence.
  destruct (N1 NZ' M) as [Hh|X]; [|left; exact X]. destruct (N2 NZ' Hh) as [Y|Y]; [|left; exact Y]. right.
  split.
  - intros X. apply Y. rewrite <- X in D1. rewrite <- (app_nil_r (delivered tr)) in D1 at 1. apply app_inv_head in D1. auto.
  - intros n r Hn. cbn [step]. rewrite read_cb_spec by auto. destruct (bd (rb h)) as [|x d]; [congruence|]. rewrite Hh.
    do 2 eexists. split; [reflexivity|left; reflexivity].
Qed.

(** A read event that comes while the buffer is full clears the mark that more is to be
    fetched: then the reader empties the buffer, waits, and nobody fetches the rest *)
Definition stall_ops : list op :=
  [EvRead false (Some (repeat 7 20000)); EvRead false (Some [8]); AppRead 16384 None; AppRead 16384 None].
Theorem iobuf_stall_refuted : exists mr mw os h tr,
  runs mr mw os h tr /\ 0 < mr /\ ~ not_forgotten h tr /\ waits_read tr = true /\ lenN (delivered tr) = 16384 /\ queued RD tr = false.
Proof.
  assert (E : exists h tr, run (add_buffer 16384 0) stall_ops = Ok (h, tr) /\
              more_below tr = true /\ queued RD tr = false /\ waits_read tr = true /\ lenN (delivered tr) = 16384 /\ lenN (taken tr) = 16384).
  { destruct (iobuf_total 16384 0 stall_ops) as (h & tr & E); [discriminate|discriminate|repeat constructor; reflexivity|].
    exists h, tr. split; [exact E|].
    assert (X : match run (add_buffer 16384 0) stall_ops with
                | Ok (_, tr) => more_below tr && negb (queued RD tr) && waits_read tr && (lenN (delivered tr) =? 16384) && (lenN (taken tr) =? 16384)
                | _ => false end = true) by (vm_compute; reflexivity).
    rewrite E in X. repeat (apply andb_true_iff in X; destruct X as [X ?]). apply negb_true_iff in H2. apply N.eqb_eq in H, H0. auto. }
  destruct E as (h & tr & E & M & Q & Wt & L1 & L2).
  assert (R : runs 16384 0 stall_ops h tr).
  { unfold runs. split; [discriminate|]. split; [discriminate|]. split; [repeat constructor; try reflexivity; discriminate|].
    exists (add_buffer 16384 0). split; [left; reflexivity|exact E]. }
  exists 16384, 0, stall_ops, h, tr. split; [exact R|]. split; [reflexivity|]. split; [|auto].
  intros NF. destruct (NF M) as [X|(X & _)]; [congruence|]. apply X.
  destruct (iobuf_reads _ _ _ _ _ R) as (rest & T & _). rewrite T, lenN_app in L2.
  assert (rest = []) as -> by (apply lenN_nil; lia). rewrite T, app_nil_r. reflexivity.
Qed.

(** ** C103: how much is buffered *)

(** No more bytes wait in the layer than the limits allow, where a limit is rounded up to
    a power of two and a read limit below 16 KB counts as 16 KB *)
Theorem iobuf_bounded_partial : forall mr mw os h tr, runs mr mw os h tr ->
  (exists p, Bithacks.Spec.least_pow2_ge mw p /\ lenN (accepted tr) <= lenN (sent tr) + (if mw =? 0 then 0 else p)) /\
  (exists cap, read_cap mr cap /\ lenN (taken tr) <= lenN (delivered tr) + (if mr =? 0 then 0 else cap)).
Proof.
  intros mr mw os h tr R. destruct (runs_ok _ _ _ _ _ R) as ((D1 & D2 & _) & S & (M1 & M2)). destruct R as (A & B & _).
  assert (ZP : Bithacks.Spec.least_pow2_ge 0 1).
  { split; [exists 0; reflexivity|]. split; [lia|]. intros q (k & ->) _. assert (2 ^ k <> 0) by (apply N.pow_nonzero; discriminate). lia. }
  rewrite D1, D2, !lenN_app. destruct S as (Cr & _ & L & Bz & Lw & Z). rewrite M2 in Lw. rewrite M1 in *. cbn [add_buffer maxr maxw] in *.
  split.
  - destruct (mw =? 0) eqn:E.
    + apply N.eqb_eq in E. subst. exists 1. split; [exact ZP|lia].
    + apply N.eqb_neq in E. eexists. split; [apply (round_ok mw 63); [lia|auto|lia]|lia].
  - unfold read_cap. destruct (mr =? 0) eqn:E.
    + apply N.eqb_eq in E. subst. exists (N.max 16384 1). split; [exists 1; split; [exact ZP|reflexivity]|]. rewrite (Z eq_refl). cbn. lia.
    + apply N.eqb_neq in E. eexists. split; [eexists; split; [apply (round_ok mr 62); [lia|auto|lia]|reflexivity]|].
      unfold lim in Bz. destruct Bz as [Bz|(_ & Bz)]; lia.
Qed.
(** A layer told to buffer at most 1 byte buffers 16384 *)
Theorem iobuf_small_limit_refuted : exists os h tr, runs 1 0 os h tr /\ lenN (taken tr) = 16384 /\ lenN (delivered tr) = 0.
Proof.
  set (os := [EvRead false (Some (repeat 7 20000))]).
  destruct (iobuf_total 1 0 os) as (h & tr & E); [discriminate|discriminate|repeat constructor|].
  exists os, h, tr. split.
  - split; [discriminate|]. split; [discriminate|]. split; [repeat constructor; discriminate|]. exists (add_buffer 1 0). split; [left; reflexivity|exact E].
  - assert (X : match run (add_buffer 1 0) os with Ok (_, tr) => (lenN (taken tr) =? 16384) && (lenN (delivered tr) =? 0) | _ => false end = true) by (vm_compute; reflexivity).
    rewrite E in X. apply andb_true_iff in X. destruct X as [X Y]. apply N.eqb_eq in X, Y. auto.
Qed.

(** ** Concrete cases *)
Definition demo : list op :=
  [EvRead false (Some [1; 2; 3]); AppRead 2 None; AppWrite [4; 5; 6; 7; 8] None; AppWrite [9] None;
   EvWrite true (Some 3); AppWrite [9] None; AppRead 9 None; AppRead 9 None].
Example demo_sees : match run (add_buffer 100 3) demo with
  | Ok (_, tr) => (taken tr, delivered tr, accepted tr, sent tr, waits_read tr, queued WR tr) | _ => ([], [], [], [], false, false) end
  = ([1; 2; 3], [1; 2; 3], [4; 5; 6; 7; 9], [4; 5; 6], true, true).
Proof. vm_compute. reflexivity. Qed.
Example demo_runs : exists h tr, runs 100 3 demo h tr /\ waits_read tr = true.
Proof.
  destruct (iobuf_total 100 3 demo) as (h & tr & E); [discriminate|discriminate|repeat constructor|].
  exists h, tr. split; [|assert (X : match run (add_buffer 100 3) demo with Ok (_, tr) => waits_read tr | _ => false end = true) by (vm_compute; reflexivity); rewrite E in X; exact X].
  split; [discriminate|]. split; [discriminate|]. split; [repeat constructor; discriminate|]. exists (add_buffer 100 3). split; [left; reflexivity|exact E].
Qed.
(** The writer is told when room is made *)
Example demo_wakes : match run (add_buffer 0 2) [AppWrite [1; 2; 3] None] with
  | Ok (h, tr) => waits_write tr && existsb (fun o => match o with Propagate WR => true | _ => false end) (snd (process_write h (Some 1))) | _ => false end = true.
Proof. vm_compute. reflexivity. Qed.
(** More below and the buffer full: reading one byte queues the event that fetches the rest *)
Example demo_more : match run (add_buffer 16384 0) [EvRead false (Some (repeat 7 20000)); AppRead 1 None] with
  | Ok (_, tr) => more_below tr && queued RD tr | _ => false end = true.
Proof. vm_compute. reflexivity. Qed.

Print Assumptions iobuf_reads. Print Assumptions iobuf_writes. Print Assumptions iobuf_total.
Print Assumptions iobuf_wakes_reader. Print Assumptions iobuf_wakes_writer. Print Assumptions iobuf_flushes.
Print Assumptions iobuf_no_stall_partial. Print Assumptions iobuf_stall_refuted.
Print Assumptions iobuf_bounded_partial. Print Assumptions iobuf_small_limit_refuted.

(** Property theorems: C29 (bit buffer) and C30 (bit parser). *)
From Verif Require Import Base.Lib Base.Mem MemFn.Spec Bits.Spec Bits.Model Bits.Proofs Bits.PProofs.
Local Open Scope N_scope.

(** C29: after any sequence of operations on a new bit buffer the reported
    results, the length and the bytes are those of the bit string.  Partial:
    [ball_allowed] excludes bytes added at a byte boundary with non-zero bits
    behind the last one added, and truncating to more than is there. *)
Theorem bitbuf_refines_partial : forall ops, ball_allowed ops [] ->
  let '(rs, s) := brun ops [] [] in
  exists b, run ops bb_create [] = Ok (rs, b) /\ nb b = length s /\ bb b = pack s.
Proof.
  intros ops A. destruct (run_ok ops bb_create [] [] create_ok A) as (b & E & R). destruct (brun ops [] []) as (rs, s). cbn [fst snd] in *.
  exists b. split; auto. destruct (rep_len _ _ R) as (k & L & K & B). destruct R as (N1 & BY & _). split; auto. symmetry. now apply (pack_unique _ _ k).
Qed.
Print Assumptions bitbuf_refines_partial.
Example bitbuf_case : ball_allowed [AddBit true; Fill false 3; AddBytes [171; 205] 11; UpdateBit 2 true; Add 5 4 PAfter; AddBitstr [49; 32; 48; 49] PBefore; SetBit true 40 true; Trunc 37] [] /\
  exists b rs, run [AddBit true; Fill false 3; AddBytes [171; 205] 11; UpdateBit 2 true; Add 5 4 PAfter; AddBitstr [49; 32; 48; 49] PBefore; SetBit true 40 true; Trunc 37] bb_create [] = Ok (rs, b) /\ bb b = [170; 188; 160; 5; 248].
Proof.
  split; [|do 2 eexists; split; vm_compute; reflexivity]. cbn [ball_allowed ballowed]. split; [exact Logic.I|]. split; [exact Logic.I|]. split.
  { split; [|vm_compute; discriminate]. split; [repeat constructor|cbn; lia]. }
  split; [exact Logic.I|]. split; [exact Logic.I|]. split; [exact Logic.I|]. split; [exact Logic.I|]. split; [|exact Logic.I].
  vm_compute. repeat constructor.
Qed.
(** Without the restriction the claim is false: four of eight set bits are
    added, then a clear one; the buffer holds a set one. *)
Theorem bitbuf_refines_refuted : exists ops b rs, run ops bb_create [] = Ok (rs, b) /\
  nb b = length (snd (brun ops [] [])) /\ snd (brun ops [] []) = [true; true; true; true; false] /\
  firstn (nb b) (bits_of (bb b)) = [true; true; true; true; true].
Proof. exists [AddBytes [255] 4; AddBit false]. do 2 eexists. split; [vm_compute; reflexivity|]. vm_compute. repeat split; reflexivity. Qed.
Print Assumptions bitbuf_refines_refuted.
(** Truncating to a greater length than there is sets that length without the
    bytes to go with it. *)
Theorem bitbuf_truncate_refuted : exists b, run [Trunc 24] bb_create [] = Ok ([true], b) /\ nb b = 24%nat /\ bb b = [] /\
  run [Trunc 20] bb_create [] = UB.
Proof. eexists. split; [vm_compute; reflexivity|]. vm_compute. repeat split; reflexivity. Qed.
Print Assumptions bitbuf_truncate_refuted.

(** C30: every operation of a parser over a copy of the data, or over constant
    data, gives the result of the same operation on the sequence of bits, and
    leaves the parser at the same place.  Partial: [pall_allowed] excludes
    over-reads of constant data by one byte and dirty bits behind the end. *)
Theorem bitparser_refines_partial : forall d n ops, given d n -> clean d n -> pall_allowed ops (mkbs (firstn n (bits_of d)) 0 0 None) ->
  let '(rs, s) := prun ops (mkbs (firstn n (bits_of d)) 0 0 None) [] in
  exists p p', p_create d n = Ok p /\ prun_m ops p [] = Ok (rs, p') /\ po p' = off s /\ pn p' = length (all s).
Proof.
  intros d n ops G C A. destruct (p_create_ok d n G C) as (p & E & R). destruct (prun_ok ops p _ [] R A) as (p' & E' & R').
  destruct (prun ops _ []) as (rs, s). cbn [fst snd] in *. exists p, p'. split; auto. split; auto. split; [apply R'|apply R'].
Qed.
Print Assumptions bitparser_refines_partial.
Theorem bitparser_const_refines_partial : forall d n ops, given d n -> pall_allowed ops (mkbs (firstn n (bits_of d)) 0 0 (Some d)) ->
  let '(rs, s) := prun ops (mkbs (firstn n (bits_of d)) 0 0 (Some d)) [] in
  exists p', prun_m ops (p_create_const d n) [] = Ok (rs, p') /\ po p' = off s /\ pn p' = length (all s).
Proof.
  intros d n ops G A. destruct (prun_ok ops _ _ [] (p_create_const_ok d n G) A) as (p' & E' & R').
  destruct (prun ops _ []) as (rs, s). cbn [fst snd] in *. exists p'. split; auto. split; [apply R'|apply R'].
Qed.
Print Assumptions bitparser_const_refines_partial.

Definition case_ops := [PReadBit; PReadUint 5; PMark; PReadInt 7 TwosComp; PMarkRewind; PReadBytes 11 2; PAppendUint 9 5; PCount true; PReadRange 3; PToNext true 8; PReadUint 64].
Example bitparser_case : given [202; 254; 176] 21 /\ clean [202; 254; 176] 21 /\ pall_allowed case_ops (mkbs (firstn 21 (bits_of [202; 254; 176])) 0 0 None) /\
  fst (prun case_ops (mkbs (firstn 21 (bits_of [202; 254; 176])) 0 0 None) []) =
  [OVal false 0; OBool true; ORun true false 1; ONat 4; OBool true; OBytes true [191; 160]; ONat 7; OVal true (-33); OBool true; OVal true 18; OBits true [true]].
Proof.
  split; [split; [repeat constructor|cbn; lia]|]. split; [vm_compute; repeat constructor|]. split.
  - unfold case_ops. cbn [pall_allowed pallowed]. split; [exact Logic.I|]. split; [right; exact Logic.I|]. split; [exact Logic.I|].
    split; [split; [lia|right; exact Logic.I]|]. split; [exact Logic.I|]. split; [right; exact Logic.I|]. split; [exact Logic.I|]. split; [exact Logic.I|].
    split; [exact Logic.I|]. split; [exact Logic.I|]. split; [right; exact Logic.I|exact Logic.I].
  - vm_compute. reflexivity.
Qed.

(** Reading an unsigned number: C30's statement for the state after any
    sequence of operations. *)
Theorem bitparser_read_uint : forall d n ops k, given d n -> clean d n -> pall_allowed ops (mkbs (firstn n (bits_of d)) 0 0 None) -> (k <= 64)%nat ->
  let s := snd (prun ops (mkbs (firstn n (bits_of d)) 0 0 None) []) in
  exists p rs p' p'', p_create d n = Ok p /\ prun_m ops p [] = Ok (rs, p') /\
    p_read_uint p' k = Ok ((k <=? length (left s))%nat, if (k <=? length (left s))%nat then bitval (firstn k (left s)) else 0, p'') /\
    po p'' = (po p' + if (k <=? length (left s))%nat then k else 0)%nat /\ p_len p'' = (p_len p' - if (k <=? length (left s))%nat then k else 0)%nat.
Proof.
  intros d n ops k G C A K s. destruct (p_create_ok d n G C) as (p & E & R). destruct (prun_ok ops p _ [] R A) as (p' & E' & R'). fold s in R'.
  assert (CN : cd s = None).
  { unfold s. clear. assert (H : cd (mkbs (firstn n (bits_of d)) 0 0 None) = None) by reflexivity. revert H.
    generalize (mkbs (firstn n (bits_of d)) 0 0 None) (@nil out). induction ops as [|o ops IH]; intros s rs H; cbn [prun snd]; auto.
    destruct (pstep s o) as (r, s') eqn:E. apply IH. revert E. destruct o; cbn [pstep]; intros E;
    repeat match type of E with context [if ?b then _ else _] => destruct b | context [match ?x with [] => _ | _ :: _ => _ end] => destruct x
      | context [let '(_, _) := ?x in _] => destruct x | context [match ?x with SignMag => _ | OnesComp => _ | TwosComp => _ end] => destruct x end;
    injection E as _ <-; auto. }
  destruct (read_uint_ok p' s k R') as (p'' & E2 & R2); [right; now rewrite CN|].
  replace (k <=? 64)%nat with true in * by (symmetry; apply Nat.leb_le; lia). cbn [andb] in *.
  do 4 eexists. split; [exact E|]. split; [exact E'|]. split; [exact E2|].
  pose proof (left_len p' s R') as LL. rewrite (p_len_ok _ _ R2), (p_len_ok _ _ R'), (q_o _ _ R2), (q_o _ _ R').
  destruct (Nat.leb_spec k (length (left s))); [|lia]. rewrite left_move, skipn_length. cbn [move off]. lia.
Qed.
Print Assumptions bitparser_read_uint.

(** Reading 12 bits at offset 4 of two constant bytes reads a third one. *)
Theorem bitparser_const_refuted : exists p r, prun_m [PConsume 4] (p_create_const [255; 255] 16) [] = Ok (r, p) /\ p_len p = 12%nat /\ p_read_uint p 12 = UB.
Proof. do 2 eexists. split; [vm_compute; reflexivity|]. vm_compute. auto. Qed.
Print Assumptions bitparser_const_refuted.
(** Bits behind the end are counted. *)
Theorem bitparser_count_refuted : exists d n, given d n /\ p_count (p_create_const d n) true = Ok 8%Z /\ p_len (p_create_const d n) = 4%nat /\
  p_count (p_create_const d n) false = Ok (-4)%Z.
Proof. exists [255], 4%nat. split; [split; [repeat constructor|cbn; lia]|]. vm_compute. auto. Qed.
Print Assumptions bitparser_count_refuted.
(** A signed read of more bits than are left reports success. *)
Theorem bitparser_read_int_refuted : exists p p', p_create [128] 3 = Ok p /\ p_read_int p 5 SignMag = Ok (true, 0%Z, p') /\ po p' = 1%nat.
Proof. do 2 eexists. split; [vm_compute; reflexivity|]. vm_compute. auto. Qed.
Print Assumptions bitparser_read_int_refuted.

(** Property C71: the comparison and hash callbacks of the typed containers are what sorting,
    sorted lists and hash tables need. *)
From Verif Require Import Base.Lib Sort.Spec Hash.Spec Hash.Model Hash.Props Glob.Model MemFn.Model HashCb.Model HashCb.Spec HashCb.Proofs.
Local Open Scope N_scope.

(** The string comparisons order by contents: dictionary order of the bytes, NULL being
    the empty string; without regard to ASCII case for the other one. *)
Theorem compar_str_order : forall mem p q,
  ((compar_str mem p q < 0)%Z <-> lex_lt (str_safe mem p) (str_safe mem q)) /\
  (compar_str mem p q = 0%Z <-> str_safe mem p = str_safe mem q) /\
  (compar_str_casecmp mem p q = 0%Z <-> same_text (str_safe mem p) (str_safe mem q)).
Proof.
  intros mem p q. rewrite compar_str_eq, compar_case_eq. split; [apply strcmp_neg|]. split.
  - split; [apply strcmp_zero|intros ->; apply strcmp_refl].
  - rewrite <- map_lower_same. split; [apply strcmp_zero|intros ->; apply strcmp_refl].
Qed.
(** Numbers and pointers are ordered by value, and the descending comparisons the other
    way round. *)
Theorem compar_num_order : forall num p q,
  ((compar_u64 num p q < 0)%Z <-> num p < num q) /\ ((compar_u64 num p q > 0)%Z <-> num q < num p) /\
  ((compar_u64_desc num p q < 0)%Z <-> num q < num p) /\ ((compar_u64_desc num p q > 0)%Z <-> num p < num q) /\
  ((compar_vp p q < 0)%Z <-> p < q) /\ ((compar_vp p q > 0)%Z <-> q < p) /\ ((compar_vp_desc p q < 0)%Z <-> q < p) /\ ((compar_vp_desc p q > 0)%Z <-> p < q).
Proof.
  intros num p q. unfold compar_u64_desc, compar_u64, compar_vp_desc, compar_vp.
  repeat split; repeat match goal with |- context [?a <? ?b] => destruct (N.ltb_spec a b) | |- context [?a =? ?b] => destruct (N.eqb_spec a b) end; lia.
Qed.
Theorem compar_str_desc_order : forall mem p q,
  ((compar_str_desc mem p q < 0)%Z <-> lex_lt (str_safe mem q) (str_safe mem p)) /\
  ((compar_str_casecmp mem p q < 0)%Z <-> lex_lt (map chr_tolower (str_safe mem p)) (map chr_tolower (str_safe mem q))) /\
  ((compar_str_casecmp_desc mem p q < 0)%Z <-> lex_lt (map chr_tolower (str_safe mem q)) (map chr_tolower (str_safe mem p))).
Proof.
  intros mem p q. unfold compar_str_desc, compar_str_casecmp_desc. rewrite compar_str_eq, !compar_case_eq. repeat split; apply strcmp_neg.
Qed.
(** Wrapped binary values are ordered by length first. *)
Theorem compar_binwraped_order : forall mem p q,
  ((compar_binwraped mem p q < 0)%Z <-> shortlex_lt (mem p) (mem q)) /\ (compar_binwraped mem p q = 0%Z <-> mem p = mem q).
Proof. exact binwraped_spec. Qed.
(** All of them, and those of numbers and pointers, are total preorders: the hypothesis of
    the theorems about sorting (C11, C12), sorted lists (C32) and sorted keys (C35). *)
Theorem compar_total_preorders : forall mem num,
  total_preorder (compar_str mem) /\ total_preorder (compar_str_desc mem) /\
  total_preorder (compar_str_casecmp mem) /\ total_preorder (compar_str_casecmp_desc mem) /\
  total_preorder (compar_u64 num) /\ total_preorder (compar_u64_desc num) /\
  total_preorder (compar_binwraped mem) /\ total_preorder compar_vp /\ total_preorder compar_vp_desc.
Proof.
  intros mem num. assert (A := preorder_via _ _ (compar_str_eq mem)). assert (B := preorder_via _ _ (compar_case_eq mem)).
  assert (U := u64_preorder num). assert (W := binwraped_preorder mem). assert (V := vp_preorder).
  repeat (split; [first [assumption|apply preorder_flip; assumption]|]). apply preorder_flip. assumption.
Qed.

(** The shifts compute FNV-1a as published. *)
Theorem fnv1a_published : forall data seed, fnv1a data seed = fnv_published data seed.
Proof. exact fnv_eq_published. Qed.
(** Texts that differ in a single byte never have the same hash, whatever the seed. *)
Theorem fnv1a_one_byte : forall a x y c seed, seed < 2 ^ 32 -> is_byte x -> is_byte y -> is_bytes c ->
  x <> y -> fnv1a (a ++ x :: c) seed <> fnv1a (a ++ y :: c) seed.
Proof. intros a x y c seed SE X Y C NE E. apply NE. eapply fnv_one_byte; eauto. Qed.

(** A copy of a key made by the table: a fresh pointer to the text, its case changed as
    the flags say. *)
Definition copies (mem : N -> list N) (k : keycase) (dupk : nat -> N -> N) : Prop :=
  forall n p, p <> 0 -> dupk n p <> 0 /\ mem (dupk n p) = dup_text k (mem p).

(** The callbacks M_hash_strvp_create (and _stridx_, _strbin_, _stru64_) passes on are
    consistent, for any flags, seed and values, if changing the case of keys comes with
    comparing without regard to case. *)
Theorem strvp_callbacks_good : forall mem f seed c dupk vcmp,
  (casecmp f = false -> kcase f = AsIs) -> copies mem (kcase f) dupk -> (msort c = true -> total_preorder vcmp) ->
  good_cb (key_equality mem f) vcmp (key_hash mem f seed) c dupk.
Proof.
  intros mem f seed c dupk vcmp KC CP VP. assert (Z := key_eq_zero mem f). repeat split.
  - intros x. apply Z. destruct (casecmp f); [now apply map_lower_same|reflexivity].
  - intros x y H. apply Z. apply Z in H. destruct (casecmp f); [|auto]. apply map_lower_same. apply map_lower_same in H. auto.
  - intros x y z H K. apply Z. apply Z in H. apply Z in K. destruct (casecmp f); [|congruence]. apply map_lower_same. apply map_lower_same in H. apply map_lower_same in K. congruence.
  - intros x y H. now apply key_hash_cong.
  - now apply CP.
  - apply Z. destruct (CP n k H) as [C1 C2]. unfold str_safe. rewrite (proj2 (N.eqb_neq _ _) C1), (proj2 (N.eqb_neq _ _) H), C2.
    destruct (casecmp f); [apply map_lower_same, dup_lower|]. rewrite KC by reflexivity. reflexivity.
  - apply key_eq_preorder.
  - apply key_eq_preorder.
  - intros x y. now apply VP.
  - now apply VP.
Qed.
(** Numbers as keys (M_hash_u64vp and the like), and bare pointers. *)
Theorem u64_callbacks_good : forall num seed c dupk vcmp desc,
  (forall n p, p <> 0 -> dupk n p <> 0 /\ num (dupk n p) = num p) -> (msort c = true -> total_preorder vcmp) ->
  good_cb (if desc : bool then compar_u64_desc num else compar_u64 num) vcmp (hash_u64 num seed) c dupk.
Proof.
  intros num seed c dupk vcmp desc CP VP.
  assert (Z : forall p q, (if desc then compar_u64_desc num else compar_u64 num) p q = 0%Z <-> num p = num q).
  { intros p q. destruct desc; unfold compar_u64_desc, compar_u64.
    - destruct (N.eqb_spec (num q) (num p)), (N.ltb_spec (num q) (num p)); split; try discriminate; try lia.
    - destruct (N.eqb_spec (num p) (num q)), (N.ltb_spec (num p) (num q)); split; try discriminate; try lia. }
  assert (P : total_preorder (if desc then compar_u64_desc num else compar_u64 num)) by (destruct desc; [apply preorder_flip|]; apply u64_preorder).
  split; [intros x; now apply Z|]. split; [intros x y H; apply Z; apply Z in H; auto|]. split; [intros x y z H K; apply Z; apply Z in H; apply Z in K; congruence|].
  split; [intros x y H; apply Z in H; unfold hash_u64; now rewrite H|]. split; [intros n k H; destruct (CP n k H); split; [assumption|now apply Z]|]. split; auto.
Qed.
Theorem vp_callbacks_good : forall seed c vcmp, (msort c = true -> total_preorder vcmp) ->
  good_cb compar_vp vcmp (hash_vp seed) c (fun _ p => p).
Proof.
  intros seed c vcmp VP. assert (Z : forall p q, compar_vp p q = 0%Z <-> p = q).
  { intros p q. unfold compar_vp. destruct (N.ltb_spec p q), (N.ltb_spec q p); split; try discriminate; lia. }
  split; [intros x; now apply Z|]. split; [intros x y H; apply Z; apply Z in H; auto|]. split; [intros x y z H K; apply Z; apply Z in H; apply Z in K; congruence|].
  split; [intros x y H; apply Z in H; now rewrite H|]. split; [intros n k H; split; [assumption|now apply Z]|]. split; [intros _; apply vp_preorder|auto].
Qed.

(** So a string table made with any flags (but KEYS_UPPER or KEYS_LOWER alone), any seed and
    any size is a finite map on texts. *)
Theorem strvp_refines_map : forall mem f seed c dupk dupv vcmp lev g n ops,
  wf_cfg c -> (casecmp f = false -> kcase f = AsIs) -> (forall i, copies mem (kcase f) (dupk i)) -> (msort c = true -> total_preorder vcmp) ->
  (1 <= n <= 2 ^ 63)%N ->
  exists h0 rs h t m ex, create c n = Some h0 /\ run (key_equality mem f) vcmp (key_hash mem f seed) c dupk dupv lev g ops h0 = Ok (rs, h) /\
    chain (key_equality mem f) vcmp c (dupk true) (dupv true) 0 0 [] ops rs m ex t (kf h) (vf h).
Proof.
  intros mem f seed c dupk dupv vcmp lev g n ops W KC CP VP HN.
  destruct (hashtable_refines_map (key_equality mem f) vcmp (key_hash mem f seed) c dupk dupv lev g n ops W) as (h0 & rs & h & t & m & ex & A & B & C & _); auto.
  { intros i. now apply strvp_callbacks_good. }
  exists h0, rs, h, t, m, ex. auto.
Qed.

(** ** What does not hold *)

(** KEYS_UPPER without CASECMP (the header only recommends the combination): a key with a
    small letter is stored where neither its own spelling nor the stored one is looked for. *)
Definition mem1 (p : N) : list N := if p mod 2 =? 1 then [97] else [65].
Definition up1 (_ : bool) (_ : nat) (p : N) : N := 2.
Definition upflags := {| casecmp := false; kordered := false; sortasc := false; sortdesc := false; kcase := Upper |}.
Theorem keys_upper_alone_refuted :
  copies mem1 Upper (up1 true) /\
  match create single 64 with None => False | Some h0 =>
  match run (key_equality mem1 upflags) compar_vp (key_hash mem1 upflags 16777619) single up1 (fun _ _ v => v) lv 7 [Insert 1 7; Get 1; Get 2; NumKeys]%N h0 with
  | Ok (rs, _) => rs = [RB true; RV None; RV None; RN 1]
  | _ => False
  end end.
Proof.
  split.
  - intros n p H. split; [discriminate|]. unfold up1, mem1. destruct (p mod 2 =? 1); reflexivity.
  - vm_compute. reflexivity.
Qed.
(** The binary comparison is not the dictionary order of the data. *)
Theorem compar_binwraped_lex_refuted : exists mem p q, lex_lt (mem p) (mem q) /\ (compar_binwraped mem p q > 0)%Z.
Proof. exists (fun p => if p =? 1 then [1; 1] else [2]), 1, 2. split; [apply lex_diff; reflexivity|vm_compute; reflexivity]. Qed.

(** ** Not vacuous *)
Definition mem2 (p : N) : list N := match p mod 4 with 0 => [97; 98] | 1 => [65; 66] | 2 => [98] | _ => [] end.
Example compar_ex : compar_str mem2 4 1 = 1%Z /\ compar_str_casecmp mem2 4 1 = 0%Z /\ compar_str mem2 0 3 = 0%Z /\ compar_str_desc mem2 1 2 = 1%Z.
Proof. vm_compute. auto. Qed.
Example fnv_ex : fnv1a [102; 111; 111; 98; 97; 114] 2166136261 = 3214735720 /\ fnv1a_casecmp [70; 79; 79] 5 = fnv1a [102; 111; 111] 5.
Proof. vm_compute. auto. Qed.
Example copies_ex : copies mem2 AsIs (fun n p => p + 4 * N.of_nat n).
Proof.
  intros n p H. split; [lia|]. unfold mem2. cbn [dup_text]. replace (p + 4 * N.of_nat n) with (p + N.of_nat n * 4) by lia. rewrite N.mod_add by lia. reflexivity.
Qed.
Definition mem3 (p : N) : list N := match p mod 4 with 1 => [97] | _ => [65] end.
Example copies_ex2 : copies mem3 Upper (fun n p => 2) /\ mem3 1 <> mem3 2.
Proof. split; [|discriminate]. intros n p H. split; [discriminate|]. unfold mem3. destruct (p mod 4) as [|[[|[]|]|[]|]]; reflexivity. Qed.

Print Assumptions compar_str_order.
Print Assumptions compar_num_order.
Print Assumptions compar_str_desc_order.
Print Assumptions compar_binwraped_order.
Print Assumptions compar_total_preorders.
Print Assumptions fnv1a_published.
Print Assumptions fnv1a_one_byte.
Print Assumptions strvp_callbacks_good.
Print Assumptions u64_callbacks_good.
Print Assumptions vp_callbacks_good.
Print Assumptions strvp_refines_map.
Print Assumptions keys_upper_alone_refuted.
Print Assumptions compar_binwraped_lex_refuted.

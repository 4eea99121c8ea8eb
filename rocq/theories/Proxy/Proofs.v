From Verif Require Import Base.Lib Proxy.Model Proxy.Spec.
From Verif Require StrNum.Model StrNum.Spec StrNum.Proofs StrNum.Props.
Local Open Scope N_scope.

(** ** Lists *)
Lemma prefixb_app p : forall l x, prefixb p l = true -> prefixb p (l ++ x) = true.
Proof.
  induction p as [|a p IH]; intros [|b l] x H; cbn in *; auto; try discriminate.
  apply andb_prop in H. destruct H as [-> H]. cbn. auto.
Qed.
Lemma prefixb_app_f p : forall l x, (length p <= length l)%nat -> prefixb p (l ++ x) = prefixb p l.
Proof.
  induction p as [|a p IH]; intros [|b l] x H; cbn in *; auto; try lia.
  destruct (a =? b); cbn; auto. apply IH. lia.
Qed.
Lemma prefixb_len p : forall l, prefixb p l = true -> (length p <= length l)%nat.
Proof.
  induction p as [|a p IH]; intros [|b l] H; cbn in *; try discriminate; try lia.
  apply andb_prop in H. destruct H as [_ H]. apply IH in H. lia.
Qed.
Lemma prefixb_eq p : forall l, prefixb p l = true -> exists r, l = p ++ r.
Proof.
  induction p as [|a p IH]; intros [|b l] H; cbn in *; try discriminate; eauto.
  apply andb_prop in H. destruct H as [E H]. apply N.eqb_eq in E. subst b.
  destruct (IH _ H) as [r ->]. eauto.
Qed.
Lemma prefixb_self p : forall r, prefixb p (p ++ r) = true.
Proof. induction p as [|a p IH]; intros r; cbn; auto. rewrite N.eqb_refl. cbn. auto. Qed.

Lemma find_unfold pat l : find pat l = if prefixb pat l then Some 0%nat
  else match l with [] => None | _ :: l' => option_map S (find pat l') end.
Proof. destruct l; reflexivity. Qed.
Lemma find_bound pat : forall l i, find pat l = Some i -> (i + length pat <= length l)%nat.
Proof.
  induction l as [|b l IH]; intros i; rewrite find_unfold; destruct (prefixb pat _) eqn:E.
  - intros H. injection H as <-. apply prefixb_len in E. cbn in *. lia.
  - discriminate.
  - intros H. injection H as <-. apply prefixb_len in E. cbn in *. lia.
  - destruct (find pat l) as [j|]; cbn; [|discriminate]. intros H. injection H as <-. specialize (IH j eq_refl). lia.
Qed.
Lemma find_app pat : forall l x i, find pat l = Some i -> find pat (l ++ x) = Some i.
Proof.
  induction l as [|b l IH]; intros x i H; rewrite find_unfold in H; rewrite find_unfold.
  - destruct (prefixb pat []) eqn:E; [|discriminate]. rewrite (prefixb_app _ _ x E). exact H.
  - destruct (prefixb pat (b :: l)) eqn:E.
    + rewrite (prefixb_app _ _ x E). exact H.
    + destruct (find pat l) as [j|] eqn:F; cbn in H; [|discriminate].
      rewrite prefixb_app_f, E.
      * cbn [app]. rewrite (IH x j eq_refl). exact H.
      * apply find_bound in F. cbn [length]. lia.
Qed.
(** Where a pattern starting with [a] is first found after bytes without [a] *)
Lemma find_first a p : forall t r, Forall (fun c => c <> a) t -> find (a :: p) (t ++ a :: p ++ r) = Some (length t).
Proof.
  induction t as [|c t IH]; intros r F.
  - cbn [app length]. rewrite find_unfold. cbn [prefixb]. rewrite N.eqb_refl, prefixb_self. reflexivity.
  - inversion F as [|? ? E F']; subst. cbn [app length]. rewrite find_unfold. cbn [prefixb].
    rewrite (proj2 (N.eqb_neq a c)) by congruence. cbn. rewrite IH by auto. reflexivity.
Qed.
Lemma find_none_app a p : forall t, Forall (fun c => c <> a) t -> find (a :: p) t = None.
Proof.
  induction t as [|c t IH]; intros F; cbn; auto. inversion F; subst.
  rewrite (proj2 (N.eqb_neq a c)) by congruence. cbn. rewrite IH; auto.
Qed.

Lemma firstn_app_le {A} n (l x : list A) : (n <= length l)%nat -> firstn n (l ++ x) = firstn n l.
Proof. intros H. rewrite firstn_app. replace (n - length l)%nat with 0%nat by lia. cbn. apply app_nil_r. Qed.
Lemma skipn_app_le {A} n (l x : list A) : (n <= length l)%nat -> skipn n (l ++ x) = skipn n l ++ x.
Proof. intros H. rewrite skipn_app. replace (n - length l)%nat with 0%nat by lia. reflexivity. Qed.
Lemma firstn_len {A} (l x : list A) n : n = length l -> firstn n (l ++ x) = l.
Proof. intros ->. rewrite firstn_app_le by lia. apply firstn_all. Qed.
Lemma skipn_len {A} (l x : list A) n : n = length l -> skipn n (l ++ x) = x.
Proof. intros ->. rewrite skipn_app_le by lia. rewrite skipn_all. reflexivity. Qed.

Lemma consume_app n b x : (n <= length b)%nat -> consume n (b ++ x) = consume n b ++ x.
Proof.
  intros H. unfold consume. rewrite app_length.
  rewrite (proj2 (Nat.ltb_ge _ _)) by lia. rewrite (proj2 (Nat.ltb_ge _ _)) by lia. apply skipn_app_le. lia.
Qed.
Lemma consume_suffix n b : exists a, b = a ++ consume n b.
Proof. unfold consume. destruct (_ <? _)%nat; [exists []; auto|]. exists (firstn n b). symmetry. apply firstn_skipn. Qed.

(** ** The number parser is defined on C strings *)
Section Num.
Import StrNum.Model.
Lemma rd0_ok (s : list N) : (0 < length s)%nat -> exists c, rd s 0 = Ok c.
Proof. destruct s as [|c s]; cbn; [lia|]. intros _. exists c. reflexivity. Qed.
Lemma skipn1_len {A} (s : list A) : length (skipn 1 s) = (length s - 1)%nat.
Proof. apply skipn_length. Qed.
Lemma eat_ok : forall len s, (len < length s)%nat -> exists s' len', eat_whitespace s len = Ok (s', len') /\ (len' < length s')%nat.
Proof.
  induction len as [|len IH]; intros s H; destruct (rd0_ok s ltac:(lia)) as [c E]; cbn [eat_whitespace]; rewrite E; cbn [bind].
  - destruct (Hex.Model.chr_isspace c); eauto.
  - destruct (Hex.Model.chr_isspace c); [|eauto]. apply IH. rewrite skipn1_len. lia.
Qed.
Lemma digit_loop_ok base : forall len s r o, (len < length s)%nat -> exists x, digit_loop s len base r o = Ok x.
Proof.
  induction len as [|len IH]; intros s r o H; cbn [digit_loop]; [eauto|].
  destruct (rd0_ok s ltac:(lia)) as [c E]. rewrite E. cbn [bind].
  destruct (c =? 0); [eauto|]. destruct (base <=? digit_of c); [eauto|]. apply IH. rewrite skipn1_len. lia.
Qed.
Lemma to_uint32_ok s len : (len < length s)%nat -> exists x, to_uint32_ex s len 10 0 = Ok x.
Proof.
  intros H. unfold to_uint32_ex. destruct (len =? 0)%nat eqn:Z; [eauto|].
  unfold to_uint64_ex. rewrite Z. unfold intconv_prep.
  destruct (eat_ok len s H) as (s1 & l1 & -> & H1). cbn [bind].
  assert (exists n s2 l2, str_sign s1 l1 = Ok (n, s2, l2) /\ (l2 < length s2)%nat) as (n & s2 & l2 & -> & H2).
  { unfold str_sign. destruct l1 as [|l1]; [eauto 8|]. destruct (rd0_ok s1 ltac:(lia)) as [c E]. rewrite E. cbn [bind].
    destruct ((c =? 45) || (c =? 43)); [|eauto 8]. do 3 eexists. split; [reflexivity|]. rewrite skipn1_len. lia. }
  cbn [bind]. change (10 =? 0) with false. cbn [bind]. change (10 =? 16) with false. cbn [bind andb].
  unfold to_uint64_int. change ((10 <? 2) || (36 <? 10)) with false. cbn iota.
  destruct (digit_loop_ok 10 l2 s2 0 false H2) as [[[r o] p] ->]. cbn [bind].
  destruct o; [|destruct (length p =? length s2)%nat]; cbn [bind]; destruct (_ <? _); eauto.
Qed.
End Num.

Lemma str_to_uint32_ok t : exists v, str_to_uint32 t = Ok v.
Proof.
  unfold str_to_uint32. destruct (to_uint32_ok (t ++ [0]) (length t)) as [[[rv v] p] ->].
  - rewrite app_length. cbn. lia.
  - cbn [bind]. eauto.
Qed.

Lemma ltb_app (b x : list N) n : (length b <? n)%nat = false -> (length (b ++ x) <? n)%nat = false.
Proof. rewrite !Nat.ltb_ge, app_length. lia. Qed.

Lemma read_app cap pat b x len t b' : pat <> [] -> read_str_until cap pat b = (len, t, b') ->
  (len <> 0%nat -> read_str_until cap pat (b ++ x) = (len, t, b' ++ x) /\ (length pat <= length b')%nat).
Proof.
  intros NE H L. unfold read_str_until in *. destruct (find pat b) as [i|] eqn:F; [|injection H as <- <- <-; congruence].
  rewrite (find_app _ _ x _ F). pose proof (find_bound _ _ _ F) as B.
  destruct (_ <? _)%nat; injection H as <- <- <-; [congruence|].
  rewrite firstn_app_le, skipn_app_le by lia. split; [reflexivity|]. rewrite skipn_length. lia.
Qed.

(** ** One state on a beginning of the bytes *)
Section Run.
Variable pton ntop : list N -> option (list N).
Local Notation step := (step pton ntop).
Local Notation run_f := (run_f pton ntop).
Local Notation run := (run pton ntop).
Local Notation feed := (feed pton ntop).

(** [o], on the beginning, against [o'], on the bytes with [x] after it *)
Definition pre (w : bool) (o o' : out) (x : list N) : Prop :=
  match o with
  | OWait => True
  | ONext p h b => o' = ONext p h (b ++ x)
  | ODone h b => o' = ODone h (b ++ x)
  | OErr => w = true \/ o' = OErr
  | OUB => o' = OUB
  end.

Definition stable (w : bool) (p : pc) (h : hd) (b x : list N) : Prop := pre w (step p h b) (step p h (b ++ x)) x.

(** The states other than those of version 1 that read texts *)
Lemma stable_version h b x : stable false Ver h b x.
Proof.
  unfold stable. cbn [Model.step]. unfold st_version.
  destruct (length b <? 12)%nat eqn:L; [exact I|]. rewrite (ltb_app _ x _ L). apply Nat.ltb_ge in L.
  rewrite !prefixb_app_f by (cbn; lia).
  destruct (prefixb ident_v1 b); [destruct (_ && _); cbn; auto|].
  destruct (prefixb ident_v2 b); [destruct (_ && _); cbn; auto|]. cbn. auto.
Qed.
Lemma stable_v2_addr h b x : stable false V2Addr h b x.
Proof.
  unfold stable. cbn [Model.step]. unfold st_v2_addr. cbn zeta. set (k := match ntype h with N4 => 4%nat | _ => 16%nat end).
  destruct (length b <? 2 * k + 4)%nat eqn:L; [exact I|]. rewrite (ltb_app _ x _ L). apply Nat.ltb_ge in L.
  rewrite (firstn_app_le k) by lia. rewrite (skipn_app_le k) by lia.
  rewrite (firstn_app_le k) by (rewrite skipn_length; lia). rewrite (skipn_app_le (2 * k)) by lia.
  destruct (ntop _) as [a1|]; [|cbn; auto]. destruct (ntop _) as [a2|]; [|cbn; auto].
  assert (Q : (4 <= length (skipn (2 * k) b))%nat) by (rewrite skipn_length; lia).
  destruct (skipn (2 * k) b) as [|p1 [|p2 [|p3 [|p4 r]]]]; cbn [length] in Q; try lia. cbn [app].
  destruct (_ =? 0); [cbn; auto|]. destruct (_ =? 0); cbn; auto.
Qed.
Lemma stable_v2_tlv h b x : stable false V2Tlv h b x.
Proof.
  unfold stable. cbn [Model.step]. unfold st_v2_tlv. destruct (dlen h =? 0)%nat; [cbn; auto|].
  destruct (length b <? dlen h)%nat eqn:L; [exact I|]. rewrite (ltb_app _ x _ L). apply Nat.ltb_ge in L.
  rewrite consume_app by lia. cbn. auto.
Qed.
(** the header of version 2, unless the family is unspecified and bytes are to be skipped *)
Definition unspec_rest (b : list N) : Prop :=
  exists vc l1 l2 r, skipn 12 b = vc :: 0 :: l1 :: l2 :: r /\ l1 * 256 + l2 <> 0.
Lemma stable_v2_header h b x : ~ unspec_rest (b ++ x) -> stable false V2Header h b x.
Proof.
  intros NU. unfold stable. cbn [Model.step]. unfold st_v2_header.
  destruct (length b <? 16)%nat eqn:L; [exact I|]. rewrite (ltb_app _ x _ L). apply Nat.ltb_ge in L.
  unfold unspec_rest in NU. rewrite skipn_app_le in * by lia.
  assert (Q : (4 <= length (skipn 12 b))%nat) by (rewrite skipn_length; lia).
  destruct (skipn 12 b) as [|vc [|fam [|l1 [|l2 r]]]]; cbn [length] in Q; try lia. cbn [app] in *.
  destruct (negb _); [cbn; auto|]. destruct (negb _); [cbn; auto|].
  destruct (fam =? 0) eqn:Z.
  - apply N.eqb_eq in Z. subst fam. destruct (N.eq_dec (l1 * 256 + l2) 0) as [E|E]; [|exfalso; apply NU; eauto 8].
    rewrite E. cbn. unfold consume. cbn. auto.
  - destruct (fam =? 17); [destruct (_ <? _)%nat; cbn; auto|].
    destruct (fam =? 33); [destruct (_ <? _)%nat; cbn; auto|]. cbn; auto.
Qed.

(** The states that read texts: they may fail early *)
Lemma stable_v1_header h b x : stable true V1Header h b x.
Proof.
  unfold stable. cbn [Model.step]. unfold st_v1_header.
  destruct (length b <? 6)%nat eqn:L; [exact I|]. rewrite (ltb_app _ x _ L).
  destruct (find [32] b) as [i|] eqn:F; [|cbn; auto]. rewrite (find_app _ _ x _ F). apply find_bound in F. cbn [length] in F.
  destruct (_ =? _)%nat; [|cbn; auto]. rewrite skipn_app_le by lia. cbn. auto.
Qed.
Lemma stable_v1_protocol h b x : stable true V1Proto h b x.
Proof.
  unfold stable. cbn [Model.step]. unfold st_v1_protocol.
  destruct (length b <? 9)%nat eqn:L; [exact I|]. rewrite (ltb_app _ x _ L). apply Nat.ltb_ge in L.
  rewrite prefixb_app_f by (cbn; lia).
  destruct (prefixb txt_unknown b); [rewrite consume_app by lia; cbn; auto|].
  destruct (read_str_until 16 [32] b) as [[len t] b'] eqn:R.
  destruct (len =? 0)%nat eqn:Z; [cbn; auto|]. apply Nat.eqb_neq in Z.
  destruct (read_app 16 [32] b x _ _ _ ltac:(discriminate) R Z) as [-> B]. cbn [length] in B.
  rewrite (proj2 (Nat.eqb_neq len 0) Z). rewrite consume_app by lia.
  destruct (caseeq _ _); [cbn; auto|]. destruct (caseeq _ _); cbn; auto.
Qed.
Lemma stable_addr k b x :
  (forall a b', exists p h, k a b' = ONext p h b' /\ k a (b' ++ x) = ONext p h (b' ++ x)) ->
  pre true (st_v1_addr pton k b) (st_v1_addr pton k (b ++ x)) x.
Proof.
  intros K. unfold st_v1_addr. destruct (read_str_until 64 [32] b) as [[len t] b'] eqn:R.
  destruct (len =? 0)%nat eqn:Z; [destruct (_ || _); cbn; auto|]. apply Nat.eqb_neq in Z.
  destruct (read_app 64 [32] b x _ _ _ ltac:(discriminate) R Z) as [-> B]. cbn [length] in B.
  rewrite (proj2 (Nat.eqb_neq len 0) Z). rewrite consume_app by lia.
  destruct (pton (cstr t)); [|cbn; auto]. destruct (K (cstr t) (consume 1 b')) as (p & h & -> & ->). reflexivity.
Qed.
Lemma stable_v1_src h b x : stable true V1Src h b x.
Proof. apply stable_addr. intros a b'. do 2 eexists. split; reflexivity. Qed.
Lemma stable_v1_dst h b x : stable true V1Dst h b x.
Proof. apply stable_addr. intros a b'. do 2 eexists. split; reflexivity. Qed.
Lemma stable_port pat k b x : pat <> [] ->
  (forall a b', pre true (k a b') (k a (b' ++ x)) x) ->
  pre true (st_v1_port pat k b) (st_v1_port pat k (b ++ x)) x.
Proof.
  intros NE K. unfold st_v1_port. destruct (read_str_until 8 pat b) as [[len t] b'] eqn:R.
  destruct (len =? 0)%nat eqn:Z; [destruct (_ || _); cbn; auto|]. apply Nat.eqb_neq in Z.
  destruct (read_app 8 pat b x _ _ _ NE R Z) as [-> B].
  rewrite (proj2 (Nat.eqb_neq len 0) Z). rewrite consume_app by lia.
  destruct (str_to_uint32 (cstr t)) as [p| |]; try reflexivity.
  destruct (_ || _); [cbn; auto|]. apply K.
Qed.
Lemma stable_v1_sport h b x : stable true V1Sport h b x.
Proof. apply stable_port; [discriminate|]. intros a b'. reflexivity. Qed.
Lemma stable_v1_dport h b x : stable true V1Dport h b x.
Proof. apply stable_port; [discriminate|]. intros a b'. reflexivity. Qed.

(** ** The machine *)
Definition rank (p : pc) : nat :=
  match p with Ver => 7 | V1Header => 6 | V1Proto => 5 | V1Src => 4 | V1Dst => 3 | V1Sport => 2 | V1Dport => 1
             | V2Header => 3 | V2Addr => 2 | V2Tlv => 1 end.
Lemma step_rank p h b p' h' b' : step p h b = ONext p' h' b' -> (rank p' < rank p)%nat.
Proof.
  destruct p; cbn [Model.step]; unfold st_version, st_v1_header, st_v1_protocol, st_v1_src, st_v1_dst, st_v1_sport, st_v1_dport, st_v1_addr, st_v1_port,
    st_v2_header, st_v2_addr, st_v2_tlv, read_str_until; intros H; cbn zeta in H;
  repeat match type of H with context [match ?e with _ => _ end] => destruct e end;
  try discriminate; injection H as <- <- <-; cbn; lia.
Qed.
Lemma run_f_enough : forall n p h b, (rank p <= n)%nat -> run_f (S n) p h b = run_f n p h b \/ (n < rank p)%nat.
Proof.
  induction n as [|n IH]; intros p h b H; [destruct p; cbn in H; lia|]. left.
  change (run_f (S (S n)) p h b) with (match step p h b with
    | OWait => Connecting p h b | ONext p' h' b' => run_f (S n) p' h' b' | ODone h' b' => Connected h' b' | OErr => Failed | OUB => Undefined end).
  change (run_f (S n) p h b) with (match step p h b with
    | OWait => Connecting p h b | ONext p' h' b' => run_f n p' h' b' | ODone h' b' => Connected h' b' | OErr => Failed | OUB => Undefined end).
  destruct (step p h b) eqn:E; auto. apply step_rank in E. destruct (IH p0 h0 b0 ltac:(lia)) as [->|]; [reflexivity|lia].
Qed.
Lemma run_eq p h b : run p h b = match step p h b with
  | OWait => Connecting p h b | ONext p' h' b' => run p' h' b' | ODone h' b' => Connected h' b' | OErr => Failed | OUB => Undefined end.
Proof.
  unfold run. change (run_f 8 p h b) with (match step p h b with
    | OWait => Connecting p h b | ONext p' h' b' => run_f 7 p' h' b' | ODone h' b' => Connected h' b' | OErr => Failed | OUB => Undefined end).
  destruct (step p h b) eqn:E; auto. pose proof (step_rank _ _ _ _ _ _ E).
  assert (rank p <= 7)%nat by (destruct p; cbn; lia).
  destruct (run_f_enough 7 p0 h0 b0 ltac:(lia)) as [->|]; [reflexivity|lia].
Qed.
Lemma run_ind (P : pc -> hd -> list N -> Prop) :
  (forall p h b, (forall p' h' b', step p h b = ONext p' h' b' -> P p' h' b') -> P p h b) -> forall p h b, P p h b.
Proof.
  intros H p h b. remember (rank p) as n eqn:E. assert (L : (rank p <= n)%nat) by lia. clear E. revert p h b L.
  induction n as [|n IH]; intros p h b L; apply H; intros p' h' b' S; apply step_rank in S; [lia|apply IH; lia].
Qed.

(** Every state met on the bytes [W] agrees with itself on their beginnings *)
Inductive okfrom (w : bool) : pc -> hd -> list N -> Prop :=
| okfrom_intro p h W :
    (forall b x, W = b ++ x -> stable w p h b x) ->
    (forall p' h' W', step p h W = ONext p' h' W' -> okfrom w p' h' W') ->
    okfrom w p h W.

Lemma run_split w : forall p h b x, okfrom w p h (b ++ x) ->
  match run p h b with
  | Connecting p' h' b' => okfrom w p' h' (b' ++ x) /\ step p' h' b' = OWait /\ run p h (b ++ x) = run p' h' (b' ++ x)
  | Connected h' b' => run p h (b ++ x) = Connected h' (b' ++ x)
  | Failed => w = true \/ run p h (b ++ x) = Failed
  | Undefined => run p h (b ++ x) = Undefined
  | Stuck => False
  end.
Proof.
  intros p h b. pattern p, h, b. apply run_ind. clear p h b. intros p h b IH x OK.
  inversion OK as [? ? ? Hs Hn]; subst. specialize (Hs b x eq_refl). unfold stable, pre in Hs.
  rewrite (run_eq p h b). rewrite (run_eq p h (b ++ x)).
  destruct (step p h b) as [|p' h' b'|h' b'| |] eqn:E.
  - split; [exact OK|]. split; [exact E|]. rewrite <- run_eq. reflexivity.
  - rewrite Hs. apply IH; [reflexivity|]. apply Hn. exact Hs.
  - rewrite Hs. reflexivity.
  - destruct Hs as [-> | ->]; auto.
  - rewrite Hs. reflexivity.
Qed.

Lemma fold_final cs : forall s, (forall c, feed s c = s) -> fold_left feed cs s = s.
Proof. induction cs as [|c cs IH]; intros s H; cbn; auto. rewrite H. auto. Qed.
Lemma fold_connected cs : forall h a, fold_left feed cs (Connected h a) = Connected h (a ++ concat cs).
Proof. induction cs as [|c cs IH]; intros h a; cbn; [rewrite app_nil_r; auto|]. rewrite IH, app_assoc. reflexivity. Qed.

Lemma arrive_split w : forall cs p h b, okfrom w p h (b ++ concat cs) -> step p h b = OWait ->
  let r := fold_left feed cs (Connecting p h b) in
  r = run p h (b ++ concat cs) \/ (w = true /\ r = Failed).
Proof.
  induction cs as [|c cs IH]; intros p h b OK HW.
  - cbn [concat fold_left]. cbn zeta. rewrite app_nil_r. left. rewrite run_eq, HW. reflexivity.
  - cbn [concat fold_left] in *. rewrite app_assoc in *. cbn [Model.feed] in *.
    pose proof (run_split w p h (b ++ c) (concat cs) OK) as R.
    destruct (run p h (b ++ c)) as [p' h' b'|h' b'| | |].
    + destruct R as (OK' & HW' & ->). apply IH; auto.
    + rewrite R. cbn zeta. rewrite fold_connected. auto.
    + cbn zeta. rewrite (fold_final cs Failed) by reflexivity. destruct R as [-> | ->]; auto.
    + cbn zeta. rewrite (fold_final cs Undefined) by reflexivity. auto.
    + destruct R.
Qed.

(** ** All inputs *)
Lemma okfrom_weak p h W : p <> Ver -> (p = V2Header -> ~ unspec_rest W) -> okfrom true p h W.
Proof.
  pattern p, h, W. apply run_ind. clear p h W. intros p h W IH NV NU. constructor.
  - intros b x ->.
    assert (M : forall h, stable false p h b x -> stable true p h b x).
    { intros h0. unfold stable, pre. destruct (step p h0 b); auto. }
    destruct p; try congruence; auto using stable_v1_header, stable_v1_protocol, stable_v1_src, stable_v1_dst, stable_v1_sport, stable_v1_dport.
    + apply M, stable_v2_header. auto.
    + apply M, stable_v2_addr.
    + apply M, stable_v2_tlv.
  - intros p' h' W' E. apply IH; auto.
    + intros ->. apply step_rank in E. destruct p; cbn in E; lia.
    + intros ->. exfalso. clear IH NU. revert E. destruct p; cbn [Model.step]; unfold st_v1_header, st_v1_protocol, st_v1_src, st_v1_dst, st_v1_sport, st_v1_dport, st_v1_addr, st_v1_port,
        st_v2_header, st_v2_addr, st_v2_tlv, read_str_until; cbn zeta; intros H;
      repeat match type of H with context [match ?e with _ => _ end] => destruct e end; try discriminate; congruence.
Qed.
Lemma okfrom_v2 p h W : p = V2Header \/ p = V2Addr \/ p = V2Tlv -> (p = V2Header -> ~ unspec_rest W) -> okfrom false p h W.
Proof.
  pattern p, h, W. apply run_ind. clear p h W. intros p h W IH NV NU. constructor.
  - intros b x ->. destruct NV as [-> | [-> | ->]]; auto using stable_v2_header, stable_v2_addr, stable_v2_tlv.
  - intros p' h' W' E.
    assert (Q : p' = V2Addr \/ p' = V2Tlv).
    { destruct NV as [-> | [-> | ->]]; revert E; cbn [Model.step]; unfold st_v2_header, st_v2_addr, st_v2_tlv; cbn zeta; intros H;
      repeat match type of H with context [match ?e with _ => _ end] => destruct e end; try discriminate; injection H as <- <- <-; auto. }
    apply IH; auto; destruct Q as [-> | ->]; auto; discriminate.
Qed.
Lemma version_next h W p' h' W' : step Ver h W = ONext p' h' W' ->
  h' = h /\ W' = W /\ ((p' = V1Header /\ prefixb ident_v1 W = true) \/ (p' = V2Header /\ prefixb ident_v2 W = true)).
Proof.
  cbn [Model.step]. unfold st_version. destruct (_ <? _)%nat; [discriminate|].
  destruct (prefixb ident_v1 W) eqn:E1; [destruct (_ && _); [discriminate|]; intros H; injection H as <- <- <-; auto|].
  destruct (prefixb ident_v2 W) eqn:E2; [destruct (_ && _); [discriminate|]; intros H; injection H as <- <- <-; auto|]. discriminate.
Qed.
Lemma unspec_of W : prefixb ident_v2 W = true -> unspec_rest W -> v2_unspec_data W.
Proof.
  intros H (vc & l1 & l2 & r & E & NZ). apply prefixb_eq in H. destruct H as [r' ->].
  exists vc, l1, l2, r. split; auto. rewrite skipn_len in E by reflexivity. rewrite E. reflexivity.
Qed.
Lemma okfrom_start_weak h W : ~ v2_unspec_data W -> okfrom true Ver h W.
Proof.
  intros NU. constructor.
  - intros b x ->. pose proof (stable_version h b x) as S. unfold stable, pre in *. destruct (step Ver h b); auto.
  - intros p' h' W' E. apply version_next in E. destruct E as (-> & -> & [[-> _] | [-> Pf]]); apply okfrom_weak; try discriminate.
    intros _ U. apply NU, unspec_of; auto.
Qed.
Lemma okfrom_start_v2 h W : ~ v2_unspec_data W -> prefixb ident_v1 W = false -> okfrom false Ver h W.
Proof.
  intros NU N1. constructor.
  - intros b x ->. apply stable_version.
  - intros p' h' W' E. apply version_next in E. destruct E as (-> & -> & [[-> Pf] | [-> Pf]]); [congruence|].
    apply okfrom_v2; auto. intros _ U. apply NU, unspec_of; auto.
Qed.

Lemma version_wait h : step Ver h [] = OWait.
Proof. reflexivity. Qed.

(** ** Nothing is lost, nothing is undefined *)
Lemma step_suffix p h b :
  match step p h b with
  | ONext _ _ b' | ODone _ b' => exists a, b = a ++ b'
  | OUB => False
  | _ => True
  end.
Proof.
  assert (R : forall cap pat c len t b', read_str_until cap pat c = (len, t, b') -> exists a, c = a ++ b').
  { intros cap pat c len t b'. unfold read_str_until. destruct (find pat c) as [i|]; [|intros H; injection H as <- <- <-; exists []; auto].
    destruct (_ <? _)%nat; intros H; injection H as <- <- <-; exists (firstn i c); symmetry; apply firstn_skipn. }
  assert (C : forall n c b', (exists a, c = a ++ b') -> exists a, c = a ++ consume n b').
  { intros n c b' [a ->]. destruct (consume_suffix n b') as [a' E]. exists (a ++ a'). rewrite <- app_assoc, <- E. reflexivity. }
  destruct p; cbn [Model.step].
  - unfold st_version. destruct (_ <? _)%nat; auto. destruct (prefixb _ _); [destruct (_ && _); auto; exists []; auto|].
    destruct (prefixb _ _); [destruct (_ && _); auto; exists []; auto|]. auto.
  - unfold st_v1_header. destruct (_ <? _)%nat; auto. destruct (find _ _) as [i|]; auto. destruct (_ =? _)%nat; auto.
    exists (firstn (S i) b). symmetry. apply firstn_skipn.
  - unfold st_v1_protocol. destruct (_ <? _)%nat; auto. destruct (prefixb _ _); [apply consume_suffix|].
    destruct (read_str_until _ _ _) as [[len t] b'] eqn:E. apply R in E. destruct (_ =? _)%nat; auto.
    destruct (caseeq _ _); [auto|]. destruct (caseeq _ _); auto.
  - unfold st_v1_src, st_v1_addr. destruct (read_str_until _ _ _) as [[len t] b'] eqn:E. apply R in E. destruct (_ =? _)%nat; [destruct (_ || _); auto|].
    destruct (pton _); auto.
  - unfold st_v1_dst, st_v1_addr. destruct (read_str_until _ _ _) as [[len t] b'] eqn:E. apply R in E. destruct (_ =? _)%nat; [destruct (_ || _); auto|].
    destruct (pton _); auto.
  - unfold st_v1_sport, st_v1_port. destruct (read_str_until _ _ _) as [[len t] b'] eqn:E. apply R in E. destruct (_ =? _)%nat; [destruct (_ || _); auto|].
    destruct (str_to_uint32_ok (cstr t)) as [v ->]. destruct (_ || _); auto.
  - unfold st_v1_dport, st_v1_port. destruct (read_str_until _ _ _) as [[len t] b'] eqn:E. apply R in E. destruct (_ =? _)%nat; [destruct (_ || _); auto|].
    destruct (str_to_uint32_ok (cstr t)) as [v ->]. destruct (_ || _); auto.
  - unfold st_v2_header. destruct (length b <? 16)%nat eqn:L; auto. apply Nat.ltb_ge in L.
    assert (Q : (4 <= length (skipn 12 b))%nat) by (rewrite skipn_length; lia).
    pose proof (firstn_skipn 12 b) as FS.
    destruct (skipn 12 b) as [|vc [|fam [|l1 [|l2 r]]]]; cbn [length] in Q; try lia.
    assert (X : exists a, b = a ++ r). { exists (firstn 12 b ++ [vc; fam; l1; l2]). rewrite <- app_assoc. symmetry. exact FS. }
    destruct (negb _); auto. destruct (negb _); auto. cbn zeta. destruct (fam =? 0); [auto|].
    destruct (fam =? 17); [destruct (_ <? _)%nat; auto|]. destruct (fam =? 33); [destruct (_ <? _)%nat; auto|]. auto.
  - unfold st_v2_addr. cbn zeta. set (k := match ntype h with N4 => 4%nat | _ => 16%nat end).
    destruct (length b <? 2 * k + 4)%nat eqn:L; auto. apply Nat.ltb_ge in L.
    destruct (ntop _); auto. destruct (ntop _); auto.
    assert (Q : (4 <= length (skipn (2 * k) b))%nat) by (rewrite skipn_length; lia).
    pose proof (firstn_skipn (2 * k) b) as FS.
    destruct (skipn (2 * k) b) as [|p1 [|p2 [|p3 [|p4 r]]]]; cbn [length] in Q; try lia.
    destruct (_ =? 0); auto. destruct (_ =? 0); auto. exists (firstn (2 * k) b ++ [p1; p2; p3; p4]). rewrite <- app_assoc. symmetry. exact FS.
  - unfold st_v2_tlv. destruct (_ =? _)%nat; [exists []; auto|]. destruct (_ <? _)%nat; auto. apply consume_suffix.
Qed.
Lemma run_suffix : forall p h b, match run p h b with
  | Connecting _ _ b' | Connected _ b' => exists a, b = a ++ b'
  | Failed => True
  | Undefined | Stuck => False
  end.
Proof.
  intros p h b. pattern p, h, b. apply run_ind. clear p h b. intros p h b IH. rewrite run_eq.
  pose proof (step_suffix p h b) as S. destruct (step p h b) as [|p' h' b'|h' b'| |] eqn:E; auto.
  - exists []. auto.
  - specialize (IH _ _ _ eq_refl). destruct (run p' h' b'); auto; destruct S as [a ->], IH as [a' ->]; exists (a ++ a'); apply app_assoc.
Qed.
Lemma fold_suffix : forall cs s W, (match s with Connecting _ _ b' | Connected _ b' => exists a, W = a ++ b' | Failed => True | _ => False end) ->
  match fold_left feed cs s with
  | Connecting _ _ b' | Connected _ b' => exists a, W ++ concat cs = a ++ b'
  | Failed => True
  | Undefined | Stuck => False
  end.
Proof.
  induction cs as [|c cs IH]; intros s W H.
  - cbn. rewrite app_nil_r. destruct s; auto.
  - cbn [fold_left concat]. rewrite app_assoc. apply IH. destruct s as [p h b|h b| | |]; cbn [Model.feed]; auto.
    + destruct H as [a ->]. pose proof (run_suffix p h (b ++ c)) as R.
      destruct (run p h (b ++ c)); auto; destruct R as [a' E]; exists (a ++ a'); rewrite <- app_assoc, E, app_assoc; reflexivity.
    + destruct H as [a ->]. exists a. rewrite <- app_assoc. reflexivity.
Qed.

End Run.

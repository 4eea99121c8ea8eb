From Verif Require Import Base.Lib Proxy.Model Proxy.Spec Proxy.Proofs.
From Verif Require StrNum.Model StrNum.Spec StrNum.Proofs StrNum.Props.
Local Open Scope N_scope.

Lemma app_cover : forall (u b x r : list N), b ++ x = u ++ r -> (length u <= length b)%nat -> exists r', b = u ++ r'.
Proof.
  induction u as [|a u IH]; intros [|c b] x r E L; cbn in *; try lia; eauto.
  injection E as -> E. destruct (IH _ _ _ E) as [r' ->]; [lia|]. eauto.
Qed.
Lemma not_found a p t r b x : Forall (fun c => c <> a) t -> b ++ x = t ++ a :: p ++ r -> find (a :: p) b = None ->
  (length b < length t + length (a :: p))%nat.
Proof.
  intros F E H. destruct (Nat.lt_ge_cases (length b) (length t + length (a :: p))) as [|G]; auto. exfalso.
  replace (t ++ a :: p ++ r) with ((t ++ a :: p) ++ r) in E by (rewrite <- app_assoc; reflexivity).
  destruct (app_cover _ _ _ _ E) as [r' ->]; [rewrite app_length; lia|].
  rewrite <- app_assoc in H. cbn [app] in H. rewrite find_first in H by auto. discriminate.
Qed.

(** ** Ports *)
Lemma port_text_digits p t : port_text p t -> Forall (fun c => 48 <= c <= 57) t.
Proof.
  intros (ds & _ & [D F] & _). revert F. induction D as [|c d t ds Hd D IH]; intros F; constructor; inversion F; subst; auto.
  destruct Hd as [[? ->]|[? _]]; lia.
Qed.
Lemma cstr_id t : Forall (fun c => c <> 0) t -> cstr t = t.
Proof. induction 1 as [|c t H F IH]; cbn; auto. rewrite (proj2 (N.eqb_neq c 0)) by auto. rewrite IH. reflexivity. Qed.
Lemma port_parse p t : port_text p t -> port p -> str_to_uint32 t = Ok p.
Proof.
  intros (ds & NE & S & V) Hp. unfold port in Hp. unfold str_to_uint32.
  assert (T : StrNum.Proofs.text_ok 10 [] [] false t ds []).
  { unfold StrNum.Proofs.text_ok. repeat split; auto; try lia; try discriminate; try (apply S); constructor; auto. }
  pose proof (StrNum.Props.uint32_parse_partial 10 [] [] t ds [] [] 0 T) as P. rewrite V in P.
  specialize (P ltac:(change (2 ^ 64) with 18446744073709551616; lia)).
  rewrite (proj2 (N.ltb_lt p (2 ^ 32))) in P by (change (2 ^ 32) with 4294967296; lia).
  cbn [app] in P. rewrite app_nil_r in P. rewrite P. reflexivity.
Qed.
Lemma port_value p : port p -> (p mod 65536 =? 0) || (65535 <? p) = false /\ p mod 65536 = p.
Proof.
  intros H. unfold port in H. rewrite N.mod_small by lia. split; auto.
  rewrite (proj2 (N.eqb_neq p 0)), (proj2 (N.ltb_ge 65535 p)) by lia. reflexivity.
Qed.

Lemma dec_loop_spells : forall f n acc ds, (0 < f)%nat -> n < 10 ^ N.of_nat f -> StrNum.Spec.spells 10 acc ds ->
  exists ds', ds' <> [] /\ StrNum.Spec.spells 10 (dec_loop f n acc) (ds' ++ ds) /\ StrNum.Spec.value 10 ds' = n.
Proof.
  induction f as [|f IH]; intros n acc ds Hf Hn S; [lia|]. cbn [dec_loop].
  assert (M : n mod 10 < 10) by (apply N.mod_lt; lia).
  assert (S' : StrNum.Spec.spells 10 ((48 + n mod 10) :: acc) (n mod 10 :: ds)).
  { destruct S as [D F]. split; constructor; auto. left. auto. }
  destruct (n / 10 =? 0) eqn:Z.
  - apply N.eqb_eq in Z. exists [n mod 10]. split; [discriminate|]. split; [exact S'|]. cbn [StrNum.Spec.value length].
    rewrite N.pow_0_r. pose proof (N.div_mod n 10 ltac:(lia)). lia.
  - apply N.eqb_neq in Z. destruct f as [|f].
    { exfalso. apply Z. apply N.div_small. exact Hn. }
    assert (Hq : n / 10 < 10 ^ N.of_nat (Datatypes.S f)).
    { rewrite Nat2N.inj_succ, N.pow_succ_r' in Hn. apply N.div_lt_upper_bound; lia. }
    destruct (IH (n / 10) _ _ ltac:(lia) Hq S') as (ds' & NE & S2 & V).
    exists (ds' ++ [n mod 10]). split; [destruct ds'; discriminate|]. split; [rewrite <- app_assoc; exact S2|].
    rewrite StrNum.Proofs.value_snoc, V. pose proof (N.div_mod n 10 ltac:(lia)). lia.
Qed.
Lemma dec_text_port p : p < 10 ^ 20 -> port_text p (dec_text p).
Proof.
  intros H. destruct (dec_loop_spells 20 p [] []) as (ds & NE & S & V); [lia|exact H|split; constructor|].
  rewrite app_nil_r in S. exists ds. split; [|split; auto]. unfold dec_text. destruct S as [D _]. intros E. rewrite E in D. inversion D; congruence.
Qed.
Lemma dec_loop_len : forall f n acc k, n < 10 ^ N.of_nat (S k) -> (length (dec_loop f n acc) <= S k + length acc)%nat.
Proof.
  induction f as [|f IH]; intros n acc k H; cbn [dec_loop]; [lia|].
  destruct (n / 10 =? 0) eqn:Z; [cbn; lia|]. apply N.eqb_neq in Z. destruct k as [|k].
  { exfalso. apply Z, N.div_small. exact H. }
  rewrite Nat2N.inj_succ, N.pow_succ_r' in H.
  pose proof (IH (n / 10) ((48 + n mod 10) :: acc) k ltac:(apply N.div_lt_upper_bound; lia)) as L. cbn [length] in L. lia.
Qed.
Lemma dec_text_len p k : p < 10 ^ N.of_nat (S k) -> (length (dec_text p) <= S k)%nat.
Proof. intros H. pose proof (dec_loop_len 20 p [] k H). cbn in *. unfold dec_text. lia. Qed.

Lemma no_char_port p t c : port_text p t -> (c < 48 \/ 57 < c) -> Forall (fun d => d <> c) t.
Proof. intros H Hc. eapply Forall_impl; [|exact (port_text_digits _ _ H)]. cbn. intros; lia. Qed.

Section Wire.
Variable pton ntop : list N -> option (list N).
Local Notation step := (step pton ntop).
Local Notation run := (run pton ntop).
Local Notation stable := (stable pton ntop).
Local Notation okfrom := (okfrom pton ntop).

Lemma read_token cap a p t r : t <> [] -> Forall (fun c => c <> a) t -> (length t <= cap - 1)%nat ->
  read_str_until cap (a :: p) (t ++ a :: p ++ r) = (length t, t, a :: p ++ r).
Proof.
  intros NE F L. unfold read_str_until. rewrite find_first by auto.
  rewrite (proj2 (Nat.ltb_ge _ _)) by lia. rewrite firstn_len, skipn_len by auto. reflexivity.
Qed.
Lemma len_ne0 (t : list N) : t <> [] -> (length t =? 0)%nat = false.
Proof. destruct t; [congruence|reflexivity]. Qed.

(** ** Version 1, state by state *)
Definition w_head (r : list N) : list N := 80 :: 82 :: 79 :: 88 :: 89 :: 32 :: r.
Lemma step_head h r : step V1Header h (w_head r) = ONext V1Proto h r.
Proof. reflexivity. Qed.
Definition w_proto (six : bool) (r : list N) : list N := 84 :: 67 :: 80 :: (if six then 54 else 52) :: 32 :: r.
Lemma step_proto six h r : (4 <= length r)%nat ->
  step V1Proto h (w_proto six r) = ONext V1Src (set_net (set_local h false) (net_of six)) r.
Proof.
  intros L. cbn [Model.step]. unfold st_v1_protocol, w_proto.
  rewrite (proj2 (Nat.ltb_ge _ _)) by (cbn [length]; lia). destruct six; reflexivity.
Qed.
Definition addr_ok (a : list N) : Prop := plain a /\ (length a <= 63)%nat /\ pton a <> None.
Lemma step_addr k a r : addr_ok a -> st_v1_addr pton k (a ++ 32 :: r) = k a r.
Proof.
  intros ([NE F] & L & Hp). unfold st_v1_addr.
  pose proof (read_token 64 32 [] a r NE) as R. cbn [app] in R. rewrite R; [| |lia].
  2: { eapply Forall_impl; [|exact F]. cbn. tauto. }
  rewrite len_ne0 by auto. rewrite cstr_id by (eapply Forall_impl; [|exact F]; cbn; tauto).
  destruct (pton a); [reflexivity|congruence].
Qed.
Lemma step_port a p t n k r : (a < 48 \/ 57 < a) -> port_text n t -> port n -> (length t <= 7)%nat ->
  st_v1_port (a :: p) k (t ++ a :: p ++ r) = k n r.
Proof.
  intros Ha T Hn L. unfold st_v1_port. destruct T as (ds & NE & T). assert (T' : port_text n t) by (exists ds; auto).
  rewrite read_token; [|auto|eapply no_char_port; eauto|lia].
  rewrite len_ne0 by auto. rewrite cstr_id by (eapply Forall_impl; [|exact (port_text_digits _ _ T')]; cbn; intros; lia).
  rewrite (port_parse n t) by auto. destruct (port_value n Hn) as [-> ->].
  change (a :: p ++ r) with ((a :: p) ++ r). unfold consume.
  rewrite (proj2 (Nat.ltb_ge _ _)) by (rewrite app_length; lia). rewrite skipn_len by reflexivity. reflexivity.
Qed.

Definition v1_handle (h : hd) (six : bool) (sa da : list N) (sp dp : N) : hd :=
  set_dport (set_sport (set_dst (set_src (set_net (set_local h false) (net_of six)) sa) da) sp) dp.

Lemma wire_v1_shape six sa da sp dp rst :
  wire_v1 six sa da sp dp ++ rst = w_head (w_proto six (sa ++ 32 :: da ++ 32 :: sp ++ 32 :: dp ++ 13 :: [10] ++ rst)).
Proof. unfold wire_v1, w_head, w_proto. cbn [app]. do 11 f_equal. repeat (rewrite <- app_assoc; cbn [app]). reflexivity. Qed.

Lemma run_wire_v1 h six sa da spt dpt sp dp rst : v2f h && negb (v1f h) = false -> addr_ok sa -> addr_ok da ->
  port_text sp spt -> port_text dp dpt -> port sp -> port dp -> (length spt <= 7)%nat -> (length dpt <= 7)%nat ->
  run Ver h (wire_v1 six sa da spt dpt ++ rst) = Connected (v1_handle h six sa da sp dp) rst.
Proof.
  intros Fl A1 A2 T1 T2 P1 P2 L1 L2. rewrite wire_v1_shape. rewrite run_eq.
  cbn [Model.step]. unfold st_version. rewrite (proj2 (Nat.ltb_ge _ _)).
  2: { unfold w_head, w_proto. cbn [length]. repeat (rewrite app_length; cbn [length app]). lia. }
  change (prefixb ident_v1 (w_head _)) with true. cbn iota. rewrite Fl.
  rewrite run_eq, step_head.
  rewrite run_eq, step_proto by (repeat (rewrite app_length; cbn [length app]); lia).
  rewrite run_eq. cbn [Model.step]. unfold st_v1_src. rewrite step_addr by auto.
  rewrite run_eq. cbn [Model.step]. unfold st_v1_dst. rewrite step_addr by auto.
  rewrite run_eq. cbn [Model.step]. unfold st_v1_sport. change (spt ++ 32 :: ?r) with (spt ++ 32 :: [] ++ r).
  rewrite (step_port 32 [] spt sp) by (auto; lia).
  rewrite run_eq. cbn [Model.step]. unfold st_v1_dport. rewrite (step_port 13 [10] dpt dp) by (auto; lia). reflexivity.
Qed.

(** ** Version 1 in pieces *)
Lemma strong_head h b x : (find [32] b = None -> (length b < 6)%nat) -> stable false V1Header h b x.
Proof.
  intros N0. unfold Proofs.stable. cbn [Model.step]. unfold st_v1_header.
  destruct (length b <? 6)%nat eqn:L; [exact I|]. rewrite (ltb_app _ x _ L). apply Nat.ltb_ge in L.
  destruct (find [32] b) as [i|] eqn:F; [|specialize (N0 eq_refl); lia]. rewrite (find_app _ _ x _ F). apply find_bound in F. cbn [length] in F.
  destruct (_ =? _)%nat; [|cbn; auto]. rewrite skipn_app_le by lia. cbn. auto.
Qed.
Lemma strong_proto h b x : (find [32] b = None -> (length b < 9)%nat) -> stable false V1Proto h b x.
Proof.
  intros N0. unfold Proofs.stable. cbn [Model.step]. unfold st_v1_protocol.
  destruct (length b <? 9)%nat eqn:L; [exact I|]. rewrite (ltb_app _ x _ L). apply Nat.ltb_ge in L.
  rewrite prefixb_app_f by (cbn; lia).
  destruct (prefixb txt_unknown b); [rewrite consume_app by lia; cbn; auto|].
  unfold read_str_until. destruct (find [32] b) as [i|] eqn:F; [|specialize (N0 eq_refl); lia].
  rewrite (find_app _ _ x _ F). apply find_bound in F. cbn [length] in F.
  destruct (16 - 1 <? i)%nat; [cbn; auto|]. destruct (i =? 0)%nat; [cbn; auto|].
  rewrite firstn_app_le, skipn_app_le by lia. rewrite consume_app by (rewrite skipn_length; lia).
  destruct (caseeq _ _); [cbn; auto|]. destruct (caseeq _ _); cbn; auto.
Qed.
Lemma strong_addr k b x :
  (forall a b', exists p h, k a b' = ONext p h b' /\ k a (b' ++ x) = ONext p h (b' ++ x)) ->
  (find [32] b = None -> (length b < 40)%nat) ->
  pre false (st_v1_addr pton k b) (st_v1_addr pton k (b ++ x)) x.
Proof.
  intros K N0. unfold st_v1_addr, read_str_until. destruct (find [32] b) as [i|] eqn:F.
  - rewrite (find_app _ _ x _ F). apply find_bound in F. cbn [length] in F.
    destruct (64 - 1 <? i)%nat eqn:Li.
    + apply Nat.ltb_lt in Li. cbn [Nat.eqb]. rewrite !skipn_length, app_length.
      rewrite (proj2 (Nat.eqb_neq (length b - i) (length b))) by lia.
      rewrite (proj2 (Nat.eqb_neq (length b + length x - i) (length b + length x))) by lia.
      rewrite !orb_true_r. cbn. auto.
    + destruct (i =? 0)%nat eqn:Z.
      * apply Nat.eqb_eq in Z. subst i. cbn [skipn]. rewrite !Nat.eqb_refl. cbn [negb]. rewrite !orb_false_r.
        rewrite app_length. destruct (40 <=? length b)%nat eqn:Lb; [|exact I]. apply Nat.leb_le in Lb.
        rewrite (proj2 (Nat.leb_le _ _)) by lia. cbn. auto.
      * rewrite firstn_app_le, skipn_app_le by lia. rewrite consume_app by (rewrite skipn_length; lia).
        destruct (pton _); [|cbn; auto]. destruct (K (cstr (firstn i b)) (consume 1 (skipn i b))) as (p & h & -> & ->). reflexivity.
  - specialize (N0 eq_refl). cbn [Nat.eqb]. rewrite (proj2 (Nat.leb_gt _ _)) by lia. rewrite Nat.eqb_refl. exact I.
Qed.
Lemma strong_port pat k b x : pat <> [] ->
  (forall a b', pre false (k a b') (k a (b' ++ x)) x) ->
  (find pat b = None -> (length b < 5)%nat) ->
  pre false (st_v1_port pat k b) (st_v1_port pat k (b ++ x)) x.
Proof.
  intros NE K N0. unfold st_v1_port, read_str_until. destruct (find pat b) as [i|] eqn:F.
  - rewrite (find_app _ _ x _ F). apply find_bound in F.
    destruct (8 - 1 <? i)%nat eqn:Li.
    + apply Nat.ltb_lt in Li. cbn [Nat.eqb]. rewrite !skipn_length, app_length.
      rewrite (proj2 (Nat.eqb_neq (length b - i) (length b))) by lia.
      rewrite (proj2 (Nat.eqb_neq (length b + length x - i) (length b + length x))) by lia.
      rewrite !orb_true_r. cbn. auto.
    + destruct (i =? 0)%nat eqn:Z.
      * apply Nat.eqb_eq in Z. subst i. cbn [skipn]. rewrite !Nat.eqb_refl. cbn [negb]. rewrite !orb_false_r.
        rewrite app_length. destruct (5 <=? length b)%nat eqn:Lb; [|exact I]. apply Nat.leb_le in Lb.
        rewrite (proj2 (Nat.leb_le _ _)) by lia. cbn. auto.
      * rewrite firstn_app_le, skipn_app_le by lia. rewrite consume_app by (rewrite skipn_length; lia).
        destruct (str_to_uint32 _); try reflexivity. destruct (_ || _); [cbn; auto|]. apply K.
  - specialize (N0 eq_refl). cbn [Nat.eqb]. rewrite (proj2 (Nat.leb_gt _ _)) by lia. rewrite Nat.eqb_refl. exact I.
Qed.

Lemma okfrom_wire_v1 h six sa da spt dpt sp dp rst : addr_ok sa -> addr_ok da ->
  port_text sp spt -> port_text dp dpt -> port sp -> port dp ->
  (length sa <= 39)%nat -> (length da <= 39)%nat -> (length spt <= 4)%nat -> (length dpt <= 3)%nat ->
  okfrom false Ver h (wire_v1 six sa da spt dpt ++ rst).
Proof.
  intros A1 A2 T1 T2 P1 P2 La Lb L1 L2. rewrite wire_v1_shape.
  assert (NS : forall a, addr_ok a -> Forall (fun c => c <> 32) a).
  { intros a ([_ F] & _). eapply Forall_impl; [|exact F]. cbn. tauto. }
  constructor; [intros b x _; apply stable_version|]. intros p' h' W' E. apply version_next in E. destruct E as (-> & -> & [[-> _] | [-> Pf]]); [|discriminate Pf].
  constructor.
  { intros b x E. apply strong_head. intros N0.
    pose proof (not_found 32 [] [80; 82; 79; 88; 89] (w_proto six (sa ++ 32 :: da ++ 32 :: spt ++ 32 :: dpt ++ 13 :: [10] ++ rst)) b x) as Q.
    cbn in Q. apply Q; auto. repeat constructor; discriminate. }
  intros p' h' W' E. rewrite step_head in E. injection E as <- <- <-. constructor.
  { intros b x E. apply strong_proto. intros N0.
    pose proof (not_found 32 [] [84; 67; 80; if six then 54 else 52] (sa ++ 32 :: da ++ 32 :: spt ++ 32 :: dpt ++ 13 :: [10] ++ rst) b x) as Q.
    cbn [length Nat.add] in Q. enough (length b < 5)%nat by lia. apply Q; auto. repeat constructor; destruct six; discriminate. }
  intros p' h' W' E. rewrite step_proto in E by (repeat (rewrite app_length; cbn [length app]); lia).
  injection E as <- <- <-. constructor.
  { intros b x E. apply strong_addr; [intros; do 2 eexists; split; reflexivity|]. intros N0.
    pose proof (not_found 32 [] sa _ b x (NS _ A1) (eq_sym E) N0) as Q. cbn [length] in Q. lia. }
  intros p' h' W' E. cbn [Model.step] in E. unfold st_v1_src in E. rewrite step_addr in E by auto. injection E as <- <- <-. constructor.
  { intros b x E. apply strong_addr; [intros; do 2 eexists; split; reflexivity|]. intros N0.
    pose proof (not_found 32 [] da _ b x (NS _ A2) (eq_sym E) N0) as Q. cbn [length] in Q. lia. }
  intros p' h' W' E. cbn [Model.step] in E. unfold st_v1_dst in E. rewrite step_addr in E by auto. injection E as <- <- <-. constructor.
  { intros b x E. apply strong_port; [discriminate|reflexivity|]. intros N0.
    pose proof (not_found 32 [] spt _ b x (no_char_port _ _ 32 T1 ltac:(lia)) (eq_sym E) N0) as Q. cbn [length] in Q. lia. }
  intros p' h' W' E. cbn [Model.step] in E. unfold st_v1_sport in E. change (spt ++ 32 :: ?r) with (spt ++ 32 :: [] ++ r) in E.
  rewrite (step_port 32 [] spt sp) in E by (auto; lia). injection E as <- <- <-. constructor.
  { intros b x E. apply strong_port; [discriminate|reflexivity|]. intros N0.
    pose proof (not_found 13 [10] dpt rst b x (no_char_port _ _ 13 T2 ltac:(lia)) (eq_sym E) N0) as Q. cbn [length] in Q. lia. }
  intros p' h' W' E. cbn [Model.step] in E. unfold st_v1_dport in E. change (dpt ++ 13 :: 10 :: rst) with (dpt ++ 13 :: [10] ++ rst) in E. rewrite (step_port 13 [10] dpt dp) in E by (auto; lia). discriminate.
Qed.

(** UNKNOWN *)
Lemma wire_v1_local_run h rst : v2f h && negb (v1f h) = false ->
  run Ver h (wire_v1_local ++ rst) = Connected (set_local h true) rst.
Proof. intros Fl. rewrite run_eq. cbn [Model.step]. unfold st_version. cbn [wire_v1_local app length]. cbn -[Model.run]. rewrite Fl. reflexivity. Qed.
Lemma okfrom_v1_local h rst : okfrom false Ver h (wire_v1_local ++ rst).
Proof.
  constructor; [intros b x _; apply stable_version|]. intros p' h' W' E. apply version_next in E. destruct E as (-> & -> & [[-> _] | [-> Pf]]); [|discriminate Pf].
  constructor.
  { intros b x E. apply strong_head. intros N0.
    pose proof (not_found 32 [] [80; 82; 79; 88; 89] (txt_unknown ++ rst) b x) as Q.
    cbn in Q. apply Q; auto. repeat constructor; discriminate. }
  intros p' h' W' E. change (wire_v1_local ++ rst) with (w_head (txt_unknown ++ rst)) in E. rewrite step_head in E. injection E as <- <- <-. constructor.
  { intros b x E. unfold Proofs.stable. cbn [Model.step]. unfold st_v1_protocol.
    destruct (length b <? 9)%nat eqn:L; [exact I|]. rewrite (ltb_app _ x _ L). apply Nat.ltb_ge in L.
    destruct (app_cover txt_unknown b x rst (eq_sym E) ltac:(cbn; lia)) as [r' ->]. rewrite <- app_assoc. rewrite !prefixb_self.
    reflexivity. }
  intros p' h' W' E. discriminate E.
Qed.

(** ** Version 2 *)
Definition v2_handle (h : hd) (six : bool) (sa da : list N) (sp dp : N) : hd :=
  Hd (v1f h) (v2f h) false (Some sa) (Some da) sp dp (net_of six) 0.
Lemma be_split n : n < 65536 -> n / 256 * 256 + n mod 256 = n.
Proof. intros H. rewrite N.mul_comm. symmetry. apply N.div_mod. lia. Qed.
Lemma run_wire_v2 h six x y sa da sp dp tlv rst : v1f h && negb (v2f h) = false ->
  length x = addr_len six -> length y = addr_len six -> ntop x = Some sa -> ntop y = Some da -> port sp -> port dp ->
  N.of_nat (length x + length y + 4 + length tlv) < 65536 ->
  run Ver h (wire_v2 six x y sp dp tlv ++ rst) = Connected (v2_handle h six sa da sp dp) rst.
Proof.
  intros Fl Lx Ly Nx Ny P1 P2 Lt. unfold port in *. unfold wire_v2. cbn zeta. set (n := N.of_nat (length x + length y + 4 + length tlv)).
  set (tail := x ++ y ++ [sp / 256; sp mod 256; dp / 256; dp mod 256] ++ tlv ++ rst).
  replace ((v2_signature ++ [33; if six then 33 else 17; n / 256; n mod 256] ++ x ++ y ++ [sp / 256; sp mod 256; dp / 256; dp mod 256] ++ tlv) ++ rst)
    with (v2_signature ++ 33 :: (if six then 33 else 17) :: n / 256 :: n mod 256 :: tail).
  2: { unfold tail. repeat (rewrite <- app_assoc; cbn [app]). reflexivity. }
  rewrite run_eq. cbn [Model.step]. unfold st_version. rewrite (proj2 (Nat.ltb_ge _ _)) by (rewrite app_length; cbn; lia).
  change (prefixb ident_v1 (v2_signature ++ _)) with false. cbn iota.
  change (prefixb ident_v2 (v2_signature ++ _)) with true. cbn iota. rewrite Fl.
  rewrite run_eq. cbn [Model.step]. unfold st_v2_header. rewrite (proj2 (Nat.ltb_ge _ _)) by (rewrite app_length; cbn [length v2_signature]; lia).
  rewrite (skipn_len v2_signature) by reflexivity. change (33 / 16 =? 2) with true. change (33 mod 16) with 1. cbn [negb orb N.eqb Pos.eqb]. cbn zeta.
  rewrite be_split by lia.
  assert (Hn : N.to_nat n = (length x + length y + 4 + length tlv)%nat) by (unfold n; rewrite Nat2N.id; reflexivity).
  rewrite Hn.
  assert (Tl : forall k, k = length x -> (length tail <? 2 * k + 4)%nat = false).
  { intros k ->. apply Nat.ltb_ge. unfold tail. rewrite !app_length. cbn [length]. lia. }
  assert (K : forall h0, run V2Addr (set_dlen (set_net (set_local h0 false) (net_of six)) (length x + length y + 4 + length tlv)) tail =
              Connected (v2_handle h0 six sa da sp dp) rst).
  { intros h0. rewrite run_eq. cbn [Model.step]. unfold st_v2_addr. cbn zeta. cbn [ntype set_dlen set_net].
    assert (Ek : match net_of six with N4 => 4%nat | _ => 16%nat end = length x) by (rewrite Lx; destruct six; reflexivity).
    rewrite Ek. rewrite Tl by auto. unfold tail. rewrite (firstn_len x) by auto. rewrite (skipn_len x) by auto. rewrite (firstn_len y) by congruence.
    rewrite Nx, Ny. rewrite (app_assoc x y). rewrite (skipn_len (x ++ y)) by (rewrite app_length; lia). cbn [app].
    rewrite !be_split by lia. rewrite (proj2 (N.eqb_neq sp 0)), (proj2 (N.eqb_neq dp 0)) by lia.
    rewrite run_eq. cbn [Model.step]. unfold st_v2_tlv. cbn [dlen set_dlen set_dport set_sport set_dst set_src].
    replace (length x + length y + 4 + length tlv - (2 * length x + 4))%nat with (length tlv) by lia.
    destruct (length tlv =? 0)%nat eqn:Z.
    - apply Nat.eqb_eq in Z. destruct tlv; [|discriminate]. reflexivity.
    - rewrite (proj2 (Nat.ltb_ge _ _)) by (rewrite app_length; lia). unfold consume.
      rewrite (proj2 (Nat.ltb_ge _ _)) by (rewrite app_length; lia). rewrite skipn_len by reflexivity. reflexivity. }
  specialize (K h). destruct six; cbn [N.eqb Pos.eqb addr_len net_of] in *.
  - rewrite (proj2 (Nat.ltb_ge _ _)) by lia. exact K.
  - rewrite (proj2 (Nat.ltb_ge _ _)) by lia. exact K.
Qed.
Lemma wire_v2_plain six x y sp dp tlv rst : ~ v2_unspec_data (wire_v2 six x y sp dp tlv ++ rst).
Proof.
  intros (vc & l1 & l2 & r & E & _). unfold wire_v2 in E. cbn zeta in E. rewrite <- app_assoc in E. apply app_inv_head in E.
  cbn [app] in E. injection E as _ E _. destruct six; discriminate.
Qed.
Lemma wire_v2_local_run h rst : v1f h && negb (v2f h) = false ->
  run Ver h (wire_v2_local ++ rst) = Connected (set_dlen (set_net (set_local h true) NAny) 0) rst.
Proof.
  intros Fl. rewrite run_eq. cbn [Model.step]. unfold st_version. rewrite (proj2 (Nat.ltb_ge _ _)) by (rewrite app_length; cbn; lia).
  change (prefixb ident_v1 (wire_v2_local ++ rst)) with false. change (prefixb ident_v2 (wire_v2_local ++ rst)) with true. cbn iota. rewrite Fl.
  reflexivity.
Qed.
Lemma wire_v2_local_plain rst : ~ v2_unspec_data (wire_v2_local ++ rst).
Proof.
  intros (vc & l1 & l2 & r & E & NZ). unfold wire_v2_local in E. rewrite <- app_assoc in E. apply app_inv_head in E.
  cbn [app] in E. injection E as _ <- <- _. apply NZ. reflexivity.
Qed.

End Wire.

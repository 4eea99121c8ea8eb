(** Property theorems of the PROXY protocol layer: C98, C99, C100.

    [pton] and [ntop] are any functions between address texts and 4 or 16 bytes. *)
From Verif Require Import Base.Lib Proxy.Model Proxy.Spec Proxy.Proofs Proxy.Wire.
From Verif Require StrNum.Spec.
Local Open Scope N_scope.

Lemma one_piece pton ntop f1 f2 w : arrive pton ntop f1 f2 [w] = run pton ntop Ver (new_handle f1 f2) w.
Proof. reflexivity. Qed.
Lemma arrive_concat pton ntop w f1 f2 cs : okfrom pton ntop w Ver (new_handle f1 f2) (concat cs) ->
  arrive pton ntop f1 f2 cs = run pton ntop Ver (new_handle f1 f2) (concat cs) \/ (w = true /\ arrive pton ntop f1 f2 cs = Failed).
Proof. intros OK. apply (arrive_split pton ntop w cs Ver (new_handle f1 f2) [] OK). reflexivity. Qed.
Lemma v1_not_v2 w : prefixb ident_v1 w = true -> ~ v2_unspec_data w.
Proof. intros H (vc & l1 & l2 & r & -> & _). discriminate H. Qed.

(** ** C98: the header that is written tells the endpoints, and the data after it is the application's *)

(** Outbound: the endpoints that are accepted are valid, and what is written is the header of the protocol for them *)
Theorem proxy_writes : forall pton f1 f2 sa da sp dp h,
  (forall t x, pton t = Some x -> length x = 4%nat \/ length x = 16%nat) -> sp < 65536 -> dp < 65536 -> sa <> [] ->
  set_source_endpoints pton (new_handle f1 f2) sa da sp dp = (true, h) ->
  exists six x y, port sp /\ port dp /\ pton sa = Some x /\ pton da = Some y /\ length x = addr_len six /\ length y = addr_len six /\
    build pton h = if f2 || negb f1 then wire_v2 six x y sp dp [] else wire_v1 six sa da (dec_text sp) (dec_text dp).
Proof.
  intros pton f1 f2 sa da sp dp h HP S1 S2 NE H. unfold set_source_endpoints in H.
  destruct sa as [|a sa]; [congruence|]. destruct da as [|b da]; [discriminate|].
  set (SA := a :: sa) in *. set (DA := b :: da) in *.
  destruct ((sp =? 0) || (dp =? 0)) eqn:Z; [discriminate|]. apply orb_false_iff in Z. destruct Z as [Z1 Z2]. apply N.eqb_neq in Z1, Z2.
  destruct (pton SA) as [x|] eqn:Ex; [|discriminate]. destruct (pton DA) as [y|] eqn:Ey; [|discriminate].
  assert (Lx := HP _ _ Ex).
  assert (B : forall q, q < 65536 -> q / 256 mod 256 = q / 256) by (intros q Hq; apply N.mod_small, N.div_lt_upper_bound; lia).
  destruct (length x =? 4)%nat eqn:L4.
  - destruct (length y =? 4)%nat eqn:Ly; [|discriminate]. injection H as <-. apply Nat.eqb_eq in L4, Ly.
    exists false, x, y. unfold port. do 2 (split; [lia|]). do 2 (split; [auto|]). split; [exact L4|]. split; [exact Ly|].
    unfold build. cbn [v1f v2f new_handle]. destruct f1, f2; cbn [orb negb].
    all: unfold build_v2, build_v1, wire_v1, wire_v2, obin, be16; cbn [local ntype src dst sport dport otext]; rewrite ?Ex, ?Ey, ?(B sp), ?(B dp) by auto;
         cbn zeta; rewrite ?L4, ?Ly, ?app_nil_r; reflexivity.
  - destruct (length y =? 16)%nat eqn:Ly; [|discriminate]. injection H as <-. apply Nat.eqb_neq in L4. apply Nat.eqb_eq in Ly.
    destruct Lx as [Lx|Lx]; [congruence|].
    exists true, x, y. unfold port. do 2 (split; [lia|]). do 2 (split; [auto|]). split; [exact Lx|]. split; [exact Ly|].
    unfold build. cbn [v1f v2f new_handle]. destruct f1, f2; cbn [orb negb].
    all: unfold build_v2, build_v1, wire_v1, wire_v2, obin, be16; cbn [local ntype src dst sport dport otext]; rewrite ?Ex, ?Ey, ?(B sp), ?(B dp) by auto;
         cbn zeta; rewrite ?Lx, ?Ly, ?app_nil_r; reflexivity.
Qed.
Print Assumptions proxy_writes.

(** Without endpoints the header says that the connection is a local one *)
Theorem proxy_writes_local : forall pton f1 f2 sp dp,
  exists h, set_source_endpoints pton (new_handle f1 f2) [] [] sp dp = (true, h) /\
    build pton h = (if f2 || negb f1 then wire_v2_local else wire_v1_local) /\ build pton (new_handle f1 f2) = build pton h.
Proof. intros pton f1 f2 sp dp. eexists. split; [reflexivity|]. destruct f1, f2; split; reflexivity. Qed.
Print Assumptions proxy_writes_local.

(** Inbound, version 2: however the bytes are cut into pieces, the header is taken off and understood, its extensions are
    skipped, and the application reads what follows it *)
Theorem proxy_reads_v2 : forall pton ntop f1 f2 six x y sa da sp dp tlv app cs,
  f1 && negb f2 = false -> length x = addr_len six -> length y = addr_len six -> ntop x = Some sa -> ntop y = Some da ->
  port sp -> port dp -> N.of_nat (length x + length y + 4 + length tlv) < 65536 ->
  concat cs = wire_v2 six x y sp dp tlv ++ app ->
  exists h, arrive pton ntop f1 f2 cs = Connected h app /\ tells h true (net_of six) (Some sa) (Some da) sp dp.
Proof.
  intros pton ntop f1 f2 six x y sa da sp dp tlv app cs Fl Lx Ly Nx Ny P1 P2 Lt E.
  exists (v2_handle (new_handle f1 f2) six sa da sp dp). split; [|repeat split; reflexivity].
  destruct (arrive_concat pton ntop false f1 f2 cs) as [->|[? _]]; [|rewrite E; apply run_wire_v2; auto|discriminate].
  rewrite E. apply okfrom_start_v2; [apply wire_v2_plain|reflexivity].
Qed.
Print Assumptions proxy_reads_v2.

(** Inbound, version 1.  Full claim: the same for every cut into pieces; false of the code (proxy_cut_port_refuted).  True: in one
    piece, and in any pieces if the source port has at most 4 characters, the destination port at most 3 and the addresses at most 39 *)
Theorem proxy_reads_v1_partial : forall pton ntop f1 f2 six sa da spt dpt sp dp app cs,
  f2 && negb f1 = false -> plain sa -> plain da -> pton sa <> None -> pton da <> None ->
  (length sa <= 63)%nat -> (length da <= 63)%nat ->
  port_text sp spt -> port_text dp dpt -> port sp -> port dp -> (length spt <= 7)%nat -> (length dpt <= 7)%nat ->
  concat cs = wire_v1 six sa da spt dpt ++ app ->
  length cs = 1%nat \/ ((length sa <= 39)%nat /\ (length da <= 39)%nat /\ (length spt <= 4)%nat /\ (length dpt <= 3)%nat) ->
  exists h, arrive pton ntop f1 f2 cs = Connected h app /\ tells h true (net_of six) (Some sa) (Some da) sp dp.
Proof.
  intros pton ntop f1 f2 six sa da spt dpt sp dp app cs Fl Pa Pb Na Nb La Lb T1 T2 P1 P2 L1 L2 E C.
  exists (v1_handle (new_handle f1 f2) six sa da sp dp). split; [|repeat split; reflexivity].
  assert (A1 : addr_ok pton sa) by (repeat split; auto; apply Pa). assert (A2 : addr_ok pton da) by (repeat split; auto; apply Pb).
  destruct C as [C|(Ca & Cb & C1 & C2)].
  - destruct cs as [|c [|]]; try discriminate. rewrite one_piece. cbn [concat] in E. rewrite app_nil_r in E. rewrite E. apply run_wire_v1; auto.
  - destruct (arrive_concat pton ntop false f1 f2 cs) as [->|[? _]]; [|rewrite E; apply run_wire_v1; auto|discriminate].
    rewrite E. eapply okfrom_wire_v1; eauto.
Qed.
Print Assumptions proxy_reads_v1_partial.

(** Inbound, both versions: a local header *)
Theorem proxy_reads_local : forall pton ntop f1 f2 app cs,
  (f2 && negb f1 = false /\ concat cs = wire_v1_local ++ app) \/ (f1 && negb f2 = false /\ concat cs = wire_v2_local ++ app) ->
  exists h, arrive pton ntop f1 f2 cs = Connected h app /\ tells h false NAny None None 0 0.
Proof.
  intros pton ntop f1 f2 app cs [[Fl E]|[Fl E]].
  - exists (set_local (new_handle f1 f2) true). split; [|repeat split; reflexivity].
    destruct (arrive_concat pton ntop false f1 f2 cs) as [->|[? _]]; [|rewrite E; apply wire_v1_local_run; auto|discriminate].
    rewrite E. apply okfrom_v1_local.
  - exists (set_dlen (set_net (set_local (new_handle f1 f2) true) NAny) 0). split; [|repeat split; reflexivity].
    destruct (arrive_concat pton ntop false f1 f2 cs) as [->|[? _]]; [|rewrite E; apply wire_v2_local_run; auto|discriminate].
    rewrite E. apply okfrom_start_v2; [apply wire_v2_local_plain|reflexivity].
Qed.
Print Assumptions proxy_reads_local.

(** Both ends: what one side sets the other side is told, when its layer takes the version written.  With version 2 the texts are those
    that [ntop] gives for the addresses; with version 1 they are the texts themselves, for a header in one piece *)
Theorem proxy_both_ends_partial : forall pton ntop f1 f2 sa da sp dp h app cs,
  (forall t x, pton t = Some x -> (length x = 4%nat \/ length x = 16%nat) /\ ntop x <> None /\ plain t /\ (length t <= 63)%nat) ->
  sp < 65536 -> dp < 65536 -> sa <> [] ->
  set_source_endpoints pton (new_handle f1 f2) sa da sp dp = (true, h) ->
  concat cs = build pton h ++ app -> f2 || negb f1 = true \/ length cs = 1%nat ->
  exists six x y h' sa' da', arrive pton ntop false false cs = Connected h' app /\
    pton sa = Some x /\ pton da = Some y /\
    (if f2 || negb f1 then ntop x = Some sa' /\ ntop y = Some da' else sa' = sa /\ da' = da) /\
    tells h' true (net_of six) (Some sa') (Some da') sp dp /\ length x = addr_len six.
Proof.
  intros pton ntop f1 f2 sa da sp dp h app cs HP S1 S2 NE H E C.
  destruct (proxy_writes pton f1 f2 sa da sp dp h) as (six & x & y & P1 & P2 & Ex & Ey & Lx & Ly & B); auto.
  { intros t u Q. apply (HP t u Q). }
  exists six, x, y. destruct (HP _ _ Ex) as (_ & Nx & Px & Qx). destruct (HP _ _ Ey) as (_ & Ny & Py & Qy).
  rewrite B in E. destruct (f2 || negb f1) eqn:V.
  - destruct (ntop x) as [sa'|] eqn:Fx; [|congruence]. destruct (ntop y) as [da'|] eqn:Fy; [|congruence].
    destruct (proxy_reads_v2 pton ntop false false six x y sa' da' sp dp [] app cs) as (h' & A & T); auto.
    { rewrite Lx, Ly. destruct six; cbn; lia. }
    exists h', sa', da'. auto 8.
  - destruct C as [C|C]; [discriminate|].
    assert (L7 : forall q, q < 65536 -> (length (dec_text q) <= 7)%nat).
    { intros q Hq. assert (length (dec_text q) <= 5)%nat; [|lia]. apply dec_text_len. cbn. lia. }
    assert (PT : forall q, q < 65536 -> port_text q (dec_text q)).
    { intros q Hq. apply dec_text_port. change (10 ^ 20) with 100000000000000000000. lia. }
    destruct (proxy_reads_v1_partial pton ntop false false six sa da (dec_text sp) (dec_text dp) sp dp app cs) as (h' & A & T); auto; try congruence.
    exists h', sa, da. auto 8.
Qed.
Print Assumptions proxy_both_ends_partial.

(** ** C99: the outcome does not depend on how the bytes are cut *)

(** Full claim: [arrive cs] is [arrive [concat cs]].  True of every input that is not a version 1 header, unless it is a
    version 2 header with unspecified family and bytes to skip (proxy_cut_unspec_refuted); of version 1 headers true but for failures:
    a cut may make the layer fail where it would not in one piece (proxy_cut_port_refuted) *)
Theorem proxy_cut_partial : forall pton ntop f1 f2 cs, ~ v2_unspec_data (concat cs) ->
  arrive pton ntop f1 f2 cs = arrive pton ntop f1 f2 [concat cs] \/
  (firstn 5 (concat cs) = [80; 82; 79; 88; 89] /\ arrive pton ntop f1 f2 cs = Failed).
Proof.
  intros pton ntop f1 f2 cs NU. rewrite one_piece. destruct (prefixb ident_v1 (concat cs)) eqn:E.
  - destruct (arrive_concat pton ntop true f1 f2 cs) as [->|[_ ->]]; auto; [apply okfrom_start_weak; auto|].
    right. split; auto. apply prefixb_eq in E. destruct E as [r ->]. reflexivity.
  - destruct (arrive_concat pton ntop false f1 f2 cs) as [->|[? _]]; auto; [apply okfrom_start_v2; auto|discriminate].
Qed.
Print Assumptions proxy_cut_partial.

(** A valid version 1 header: in one piece it is accepted, cut after the 5 digits of the source port it is an error; the
    same for the destination port, even between CR and LF *)
Definition t_any (_ : list N) : option (list N) := Some [1; 2; 3; 4].
Definition h80 : list N := wire_v1 false [49; 46; 50] [51] [54; 48; 48; 48; 48] [56; 48].
Definition h8080 : list N := wire_v1 false [49; 46; 50] [51] [56; 48] [56; 48; 56; 48].
Theorem proxy_cut_port_refuted :
  (exists h, arrive t_any t_any false false [h80] = Connected h [] /\ sport h = 60000 /\ dport h = 80) /\
  arrive t_any t_any false false [firstn 22 h80; skipn 22 h80] = Failed /\
  (exists h, arrive t_any t_any false false [h8080] = Connected h [] /\ sport h = 80 /\ dport h = 8080) /\
  arrive t_any t_any false false [firstn 25 h8080; skipn 25 h8080] = Failed /\ firstn 1 (skipn 25 h8080) = [10].
Proof.
  split; [eexists; split; [vm_compute; reflexivity|split; reflexivity]|]. split; [vm_compute; reflexivity|].
  split; [eexists; split; [vm_compute; reflexivity|split; reflexivity]|]. split; vm_compute; reflexivity.
Qed.
Print Assumptions proxy_cut_port_refuted.

(** LOCAL, unspecified family, 3 bytes of extensions, then the application's byte 7.  In one piece they are skipped; if they come
    later, the application reads them as its own data *)
Definition hlocal3 : list N := v2_signature ++ [32; 0; 0; 3].
Theorem proxy_cut_unspec_refuted :
  (exists h, arrive t_any t_any false false [hlocal3 ++ [4; 0; 0; 7]] = Connected h [7]) /\
  (exists h, arrive t_any t_any false false [hlocal3; [4; 0; 0; 7]] = Connected h [4; 0; 0; 7]).
Proof. split; eexists; vm_compute; reflexivity. Qed.
Print Assumptions proxy_cut_unspec_refuted.

(** ** C100: whatever arrives *)

(** For all bytes in all pieces nothing undefined happens, and once the connection is up the application reads exactly the bytes after
    some beginning of what arrived: none is lost, repeated or reordered *)
Theorem proxy_total : forall pton ntop f1 f2 cs,
  match arrive pton ntop f1 f2 cs with
  | Connected _ app => exists header, concat cs = header ++ app
  | Connecting _ _ held => exists header, concat cs = header ++ held
  | Failed => True
  | Undefined | Stuck => False
  end.
Proof. intros pton ntop f1 f2 cs. apply (fold_suffix pton ntop cs (Connecting Ver (new_handle f1 f2) []) []). exists []. reflexivity. Qed.
Print Assumptions proxy_total.

(** Nothing but a header brings the connection up: what arrived begins with the identification of a version
    that the flags allow *)
Theorem proxy_needs_header : forall pton ntop f1 f2 cs h app, arrive pton ntop f1 f2 cs = Connected h app ->
  (f2 && negb f1 = false /\ firstn 6 (concat cs) = [80; 82; 79; 88; 89; 32]) \/
  (f1 && negb f2 = false /\ firstn 12 (concat cs) = v2_signature).
Proof.
  intros pton ntop f1 f2.
  assert (G : forall cs p h0 b W, (exists a, W = a ++ b) ->
    (p = Ver -> W = b /\ h0 = new_handle f1 f2) ->
    (p = V1Header -> W = b /\ h0 = new_handle f1 f2 /\ f2 && negb f1 = false /\ prefixb ident_v1 W = true) ->
    (p <> Ver -> p <> V1Header -> (f2 && negb f1 = false /\ prefixb (ident_v1 ++ [32]) W = true) \/ (f1 && negb f2 = false /\ prefixb ident_v2 W = true)) ->
    forall h app, fold_left (feed pton ntop) cs (Connecting p h0 b) = Connected h app ->
    (f2 && negb f1 = false /\ prefixb (ident_v1 ++ [32]) (W ++ concat cs) = true) \/ (f1 && negb f2 = false /\ prefixb ident_v2 (W ++ concat cs) = true)).
  2: { intros cs h app H. destruct (G cs Ver (new_handle f1 f2) [] []) with (5 := H) as [[F E]|[F E]]; auto; try congruence.
       - exists []. reflexivity.
       - left. split; auto. change ([] ++ concat cs) with (concat cs) in E. apply prefixb_eq in E. destruct E as [r ->]. reflexivity.
       - right. split; auto. change ([] ++ concat cs) with (concat cs) in E. apply prefixb_eq in E. destruct E as [r ->]. reflexivity. }
  (* one run of the machine keeps the description, or ends with it *)
  assert (R : forall p h0 b W, (exists a, W = a ++ b) ->
    (p = Ver -> W = b /\ h0 = new_handle f1 f2) ->
    (p = V1Header -> W = b /\ h0 = new_handle f1 f2 /\ f2 && negb f1 = false /\ prefixb ident_v1 W = true) ->
    (p <> Ver -> p <> V1Header -> (f2 && negb f1 = false /\ prefixb (ident_v1 ++ [32]) W = true) \/ (f1 && negb f2 = false /\ prefixb ident_v2 W = true)) ->
    match run pton ntop p h0 b with
    | Connecting p' h' b' => (exists a, W = a ++ b') /\ (p' = Ver -> W = b' /\ h' = new_handle f1 f2) /\
        (p' = V1Header -> W = b' /\ h' = new_handle f1 f2 /\ f2 && negb f1 = false /\ prefixb ident_v1 W = true) /\
        (p' <> Ver -> p' <> V1Header -> (f2 && negb f1 = false /\ prefixb (ident_v1 ++ [32]) W = true) \/ (f1 && negb f2 = false /\ prefixb ident_v2 W = true))
    | Connected _ _ => (f2 && negb f1 = false /\ prefixb (ident_v1 ++ [32]) W = true) \/ (f1 && negb f2 = false /\ prefixb ident_v2 W = true)
    | _ => True
    end).
  { intros p h0 b. pattern p, h0, b. apply (run_ind pton ntop). clear p h0 b. intros p h0 b IH W S HV HH HO.
    rewrite run_eq. pose proof (step_suffix pton ntop p h0 b) as SS. pose proof (step_rank pton ntop p h0 b) as SR.
    destruct (step pton ntop p h0 b) as [|p' h' b'|h' b'| |] eqn:E; auto.
    - apply IH; [reflexivity| | | |].
      + destruct S as [a ->], SS as [a' ->]. exists (a ++ a'). apply app_assoc.
      + intros ->. specialize (SR _ _ _ eq_refl). destruct p; cbn in SR; lia.
      + intros ->. specialize (SR _ _ _ eq_refl). destruct p; cbn in SR; try lia.
        destruct (HV eq_refl) as [-> ->]. pose proof (version_next pton ntop _ _ _ _ _ E) as (-> & -> & [[_ Pf] | [? _]]); [|discriminate].
        repeat split; auto. revert E. cbn [step]. unfold st_version. destruct (_ <? _)%nat; [discriminate|]. rewrite Pf.
        cbn [new_handle v1f v2f]. destruct (f2 && negb f1); [discriminate|auto].
      + intros N1 N2. destruct p.
        * destruct (HV eq_refl) as [-> ->]. pose proof (version_next pton ntop _ _ _ _ _ E) as (-> & -> & [[? _] | [_ Pf]]); [congruence|].
          right. split; auto. revert E. cbn [step]. unfold st_version. destruct (_ <? _)%nat; [discriminate|].
          destruct (prefixb ident_v1 b) eqn:P1; [destruct (_ && _); [discriminate|intros Q; injection Q as <-; congruence]|].
          rewrite Pf. cbn [new_handle v1f v2f]. destruct (f1 && negb f2); [discriminate|auto].
        * destruct (HH eq_refl) as (-> & -> & Fl & Pf). left. split; auto.
          destruct (prefixb_eq _ _ Pf) as [r ->]. revert E. cbn [step]. unfold st_v1_header. destruct (_ <? _)%nat; [discriminate|].
          destruct (find [32] (ident_v1 ++ r)) as [i|] eqn:F; [|discriminate]. destruct (Datatypes.S i =? 6)%nat eqn:I6; [|discriminate]. intros _.
          apply Nat.eqb_eq in I6. injection I6 as ->. cbn in F. destruct r as [|c r]; [discriminate|].
          rewrite find_unfold in F. cbn [prefixb] in F. cbn [app ident_v1 prefixb N.eqb Pos.eqb andb].
          destruct (32 =? c) eqn:Q32; [apply N.eqb_eq in Q32; subst c; reflexivity|]. exfalso. cbn [andb] in F. destruct (find [32] r); cbn in F; discriminate.
        * apply HO; congruence.
        * apply HO; congruence.
        * apply HO; congruence.
        * apply HO; congruence.
        * apply HO; congruence.
        * apply HO; congruence.
        * apply HO; congruence.
        * apply HO; congruence.
    - apply HO; intros ->; cbn [step] in E; unfold st_version, st_v1_header in E;
        repeat match type of E with context [if ?e then _ else _] => destruct e | context [match ?e with Some _ => _ | None => _ end] => destruct e end; discriminate E. }
  assert (M : forall W x, (f2 && negb f1 = false /\ prefixb (ident_v1 ++ [32]) W = true) \/ (f1 && negb f2 = false /\ prefixb ident_v2 W = true) ->
    (f2 && negb f1 = false /\ prefixb (ident_v1 ++ [32]) (W ++ x) = true) \/ (f1 && negb f2 = false /\ prefixb ident_v2 (W ++ x) = true)).
  { intros W x [[F E]|[F E]]; [left|right]; auto using prefixb_app. }
  induction cs as [|c cs IH]; intros p h0 b W S HV HH HO h app H; [discriminate|].
  cbn [fold_left concat feed] in *. rewrite app_assoc.
  specialize (R p h0 (b ++ c) (W ++ c)). destruct (run pton ntop p h0 (b ++ c)) as [p' h' b'|h' b'| | |].
  - destruct R as (S' & HV' & HH' & HO').
    + destruct S as [a ->]. exists a. rewrite app_assoc. reflexivity.
    + intros ->. destruct (HV eq_refl) as [-> ->]. auto.
    + intros ->. destruct (HH eq_refl) as (-> & -> & Fl & Pf). auto using prefixb_app.
    + intros N1 N2. apply M. auto.
    + eapply IH; eauto.
  - apply M. apply R.
    + destruct S as [a ->]. exists a. rewrite app_assoc. reflexivity.
    + intros ->. destruct (HV eq_refl) as [-> ->]. auto.
    + intros ->. destruct (HH eq_refl) as (-> & -> & Fl & Pf). auto using prefixb_app.
    + intros N1 N2. apply M. auto.
  - rewrite fold_final in H by reflexivity. discriminate.
  - rewrite fold_final in H by reflexivity. discriminate.
  - rewrite fold_final in H by reflexivity. discriminate.
Qed.
Print Assumptions proxy_needs_header.

(** ** Cases *)
(** Version 2 over IPv4 with an extension, cut inside the signature, an address and the extension; the application's bytes are 71 69 84 *)
Example proxy_v2_case : exists h,
  let w := wire_v2 false [10; 0; 0; 1] [10; 0; 0; 2] 51000 443 [4; 0; 1; 9] ++ [71; 69; 84] in
  arrive t_any (fun b => Some (map (fun c => c + 48) b)) true true [firstn 5 w; firstn 13 (skipn 5 w); firstn 12 (skipn 18 w); skipn 30 w] = Connected h [71; 69; 84] /\
  tells h true N4 (Some [58; 48; 48; 49]) (Some [58; 48; 48; 50]) 51000 443.
Proof. eexists. split; [vm_compute; reflexivity|repeat split; reflexivity]. Qed.
(** Version 1 over IPv6, one byte at a time *)
Example proxy_v1_case : exists h,
  arrive t_any t_any true false (map (fun c => [c]) (wire_v1 true [58; 58; 49] [58; 58; 50] [50; 48; 48; 48] [52; 52; 51] ++ [1; 2])) = Connected h [1; 2] /\
  tells h true N6 (Some [58; 58; 49]) (Some [58; 58; 50]) 2000 443.
Proof. eexists. split; [vm_compute; reflexivity|repeat split; reflexivity]. Qed.
Example proxy_set_case : exists h, set_source_endpoints t_any (new_handle true false) [49] [50] 60000 80 = (true, h) /\
  build t_any h = [80; 82; 79; 88; 89; 32; 84; 67; 80; 52; 32; 49; 32; 50; 32; 54; 48; 48; 48; 48; 32; 56; 48; 13; 10].
Proof. eexists. split; vm_compute; reflexivity. Qed.
Example proxy_reject_case : arrive t_any t_any true false [firstn 8 hlocal3; skipn 8 hlocal3] = Failed /\
  arrive t_any t_any false false [[71; 69; 84; 32; 47; 32; 72; 84; 84; 80; 47; 49]] = Failed.
Proof. split; vm_compute; reflexivity. Qed.

(** A version 2 header that brings the connection up is well-formed: version and command, a known family, a length that covers the
    addresses and ports and is exactly what is taken off, ports that are not 0; and what is told is what it says *)
Theorem proxy_v2_only : forall pton ntop f1 f2 cs h app, arrive pton ntop f1 f2 cs = Connected h app ->
  firstn 12 (concat cs) = v2_signature -> ~ v2_unspec_data (concat cs) ->
  exists loc fam l1 l2 rest, concat cs = v2_signature ++ [if loc : bool then 32 else 33; fam; l1; l2] ++ rest /\
  ((fam = 0 /\ l1 * 256 + l2 = 0 /\ app = rest /\ tells h (negb loc) NAny None None 0 0) \/
   exists six x y p1 p2 p3 p4 tlv, fam = (if six : bool then 33 else 17) /\ rest = x ++ y ++ [p1; p2; p3; p4] ++ tlv ++ app /\
     length x = addr_len six /\ length y = addr_len six /\ l1 * 256 + l2 = N.of_nat (length (x ++ y ++ [p1; p2; p3; p4] ++ tlv)) /\
     p1 * 256 + p2 <> 0 /\ p3 * 256 + p4 <> 0 /\ ntop x <> None /\ ntop y <> None /\
     tells h (negb loc) (net_of six) (ntop x) (ntop y) (p1 * 256 + p2) (p3 * 256 + p4)).
Proof.
  intros pton ntop f1 f2 cs h app A Sg NU.
  destruct (arrive_concat pton ntop false f1 f2 cs) as [E|[? _]]; [|rewrite E in A; clear E|discriminate].
  { apply okfrom_start_v2; auto. destruct (prefixb ident_v1 (concat cs)) eqn:P; auto. apply prefixb_eq in P. destruct P as [r P]. rewrite P in Sg. discriminate. }
  set (W := concat cs) in *. clearbody W. clear cs.
  assert (S12 : W = ident_v2 ++ skipn 12 W) by (rewrite <- (firstn_skipn 12 W) at 1; rewrite Sg; reflexivity).
  rewrite run_eq in A. cbn [step] in A. unfold st_version in A.
  destruct (length W <? 12)%nat; [discriminate|].
  destruct (prefixb ident_v1 W) eqn:P; [apply prefixb_eq in P; destruct P as [r P]; rewrite P in Sg; discriminate|].
  destruct (prefixb ident_v2 W); [|discriminate]. destruct (v1f (new_handle f1 f2) && negb (v2f (new_handle f1 f2))); [discriminate|].
  rewrite run_eq in A. cbn [step] in A. unfold st_v2_header in A.
  destruct (length W <? 16)%nat; [discriminate|].
  destruct (skipn 12 W) as [|vc [|fam [|l1 [|l2 rest]]]]; try discriminate.
  destruct (negb (vc / 16 =? 2)) eqn:V; [discriminate|]. apply negb_false_iff, N.eqb_eq in V.
  destruct (negb ((vc mod 16 =? 0) || (vc mod 16 =? 1))) eqn:V'; [discriminate|]. apply negb_false_iff in V'.
  assert (VC : vc = if vc mod 16 =? 0 then 32 else 33).
  { pose proof (N.div_mod vc 16 ltac:(lia)). destruct (N.eqb_spec (vc mod 16) 0); [lia|]. cbn [orb] in V'. apply N.eqb_eq in V'. lia. }
  exists (vc mod 16 =? 0), fam, l1, l2, rest. split; [rewrite S12; rewrite VC at 1; reflexivity|].
  set (loc := vc mod 16 =? 0) in *. clearbody loc. clear V V' VC.
  destruct (fam =? 0) eqn:F0.
  { apply N.eqb_eq in F0. left. injection A as <- <-. split; [exact F0|]. 
    assert (Z : l1 * 256 + l2 = 0).
    { destruct (N.eq_dec (l1 * 256 + l2) 0) as [|NZ]; [auto|]. exfalso. apply NU. subst fam. exists vc, l1, l2, rest. split; [exact S12|exact NZ]. }
    split; [exact Z|]. rewrite Z. split; [unfold consume; cbn; destruct rest; reflexivity|]. repeat split; cbn; destruct loc; reflexivity. }
  right.
  assert (B : exists six, fam = (if six : bool then 33 else 17) /\ (2 * addr_len six + 4 <= N.to_nat (l1 * 256 + l2))%nat /\
     run pton ntop V2Addr (set_dlen (set_net (set_local (new_handle f1 f2) loc) (net_of six)) (N.to_nat (l1 * 256 + l2))) rest = Connected h app).
  { destruct (N.eqb_spec fam 17) as [->|].
    - exists false. destruct (Nat.ltb_spec (N.to_nat (l1 * 256 + l2)) 12); [discriminate|]. split; [reflexivity|]. split; [cbn [addr_len]; lia|exact A].
    - destruct (N.eqb_spec fam 33) as [->|]; [|discriminate]. exists true.
      destruct (Nat.ltb_spec (N.to_nat (l1 * 256 + l2)) 36); [discriminate|]. split; [reflexivity|]. split; [cbn [addr_len]; lia|exact A]. }
  clear A. destruct B as (six & Fam & Ln & A). rewrite run_eq in A. cbn [step] in A. unfold st_v2_addr in A.
  assert (K : match ntype (set_dlen (set_net (set_local (new_handle f1 f2) loc) (net_of six)) (N.to_nat (l1 * 256 + l2))) with N4 => 4%nat | _ => 16%nat end = addr_len six)
    by (destruct six; reflexivity).
  rewrite K in A. clear K. set (k := addr_len six) in *.
  destruct (length rest <? 2 * k + 4)%nat eqn:Lr; [discriminate|]. apply Nat.ltb_ge in Lr.
  destruct (ntop (firstn k rest)) as [a1|] eqn:N1; [|discriminate]. destruct (ntop (firstn k (skipn k rest))) as [a2|] eqn:N2; [|discriminate].
  destruct (skipn (2 * k) rest) as [|p1 [|p2 [|p3 [|p4 r]]]] eqn:Sk; try discriminate.
  destruct (N.eqb_spec (p1 * 256 + p2) 0); [discriminate|]. destruct (N.eqb_spec (p3 * 256 + p4) 0); [discriminate|].
  assert (RE : rest = firstn k rest ++ firstn k (skipn k rest) ++ [p1; p2; p3; p4] ++ r).
  { rewrite <- (firstn_skipn k rest) at 1. f_equal. rewrite <- (firstn_skipn k (skipn k rest)) at 1. f_equal. rewrite skipn_skipn.
    replace (k + k)%nat with (2 * k)%nat by lia. rewrite Sk. reflexivity. }
  assert (Lx : length (firstn k rest) = k) by (rewrite firstn_length; lia).
  assert (Ly : length (firstn k (skipn k rest)) = k) by (rewrite firstn_length, skipn_length; lia).
  rewrite run_eq in A. cbn [step] in A. unfold st_v2_tlv in A. cbn [dlen set_dport set_sport set_dlen] in A.
  assert (T : exists tlv, r = tlv ++ app /\ length tlv = (N.to_nat (l1 * 256 + l2) - (2 * k + 4))%nat /\
     tells h (negb loc) (net_of six) (Some a1) (Some a2) (p1 * 256 + p2) (p3 * 256 + p4)).
  { destruct (Nat.eqb_spec (N.to_nat (l1 * 256 + l2) - (2 * k + 4)) 0) as [Z|NZ].
    - injection A as <- <-. exists []. repeat split; cbn; auto; destruct loc; reflexivity.
    - destruct (Nat.ltb_spec (length r) (N.to_nat (l1 * 256 + l2) - (2 * k + 4))); [discriminate|].
      unfold consume in A. replace (length r <? N.to_nat (l1 * 256 + l2) - (2 * k + 4))%nat with false in A by (symmetry; apply Nat.ltb_ge; lia). injection A as <- <-.
      exists (firstn (N.to_nat (l1 * 256 + l2) - (2 * k + 4)) r). split.
      + symmetry. apply firstn_skipn.
      + split; [rewrite firstn_length; lia|]. repeat split; cbn; auto; destruct loc; reflexivity. }
  destruct T as (tlv & -> & Lt & T).
  exists six, (firstn k rest), (firstn k (skipn k rest)), p1, p2, p3, p4, tlv.
  rewrite N1, N2. split; [exact Fam|]. split; [exact RE|]. split; [exact Lx|]. split; [exact Ly|]. split.
  { rewrite !app_length, Lx, Ly. cbn [length]. lia. }
  repeat (split; [first [assumption|discriminate]|]). exact T.
Qed.
Print Assumptions proxy_v2_only.
Example proxy_v2_only_case : exists h,
  arrive t_any t_any false false [v2_signature ++ [33; 17; 0]; [14; 1; 2; 3; 4; 5; 6; 7; 8; 0; 80; 1; 2; 9; 9; 77]] = Connected h [77] /\ dport h = 258.
Proof. eexists. split; vm_compute; reflexivity. Qed.
Example proxy_v2_short_case :
  arrive t_any t_any false false [v2_signature ++ [33; 33; 0; 12] ++ repeat 1 40] = Failed.
Proof. vm_compute. reflexivity. Qed.

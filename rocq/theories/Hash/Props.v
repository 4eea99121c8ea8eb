(** C35, C36: hash table *)
From Verif Require Import Base.Lib Sort.Spec Hash.Spec Hash.Model Hash.Table Hash.Parts Hash.Proofs Hash.Enum Hash.Dup.
From Verif Require Bithacks.Proofs.

(** Every sequence of calls on a new table of any size up to 2^63, with any
    callbacks that are consistent and any flags M_hashtable_create accepts,
    succeeds, whatever the hash function and however often the table grows.
    Results, keys and values freed and the listing are those of a finite map
    from keys to non-empty sequences of values; the number of buckets stays a
    power of two of at most 2^24. *)
Theorem hashtable_refines_map kcmp vcmp hash c dupk dupv lev g n ops :
  wf_cfg c -> (forall i, good_cb kcmp vcmp hash c (dupk i)) -> (1 <= n <= 2 ^ 63)%N ->
  exists h0 rs h t m ex, create c n = Some h0 /\ run kcmp vcmp hash c dupk dupv lev g ops h0 = Ok (rs, h) /\
    chain kcmp vcmp c (dupk true) (dupv true) 0 0 [] ops rs m ex t (kf h) (vf h) /\
    (exists e, size h = 2 ^ N.of_nat e)%N /\ (size h <= 2 ^ 24)%N.
Proof.
  intros W Hcb Hn. destruct (create_ok kcmp vcmp hash c dupk lev W n Hn) as (h0 & E0 & R0 & C0 & K0 & V0).
  destruct (run_ok kcmp vcmp hash c dupk dupv lev g W Hcb ops h0 [] 0 R0) as (rs & h & t & ex & fk & fv & E & R & Ch & K & V).
  exists h0, rs, h, t, (clk h), ex. split; auto. split; auto. rewrite C0 in Ch. rewrite K, V, K0, V0, !app_nil_r. split; auto.
  split; [eapply rep_size; eauto|]. eapply run_size; eauto. eapply create_size; eauto.
Qed.
Print Assumptions hashtable_refines_map.

(** What is found for a key is what was stored for equal keys and not removed
    since, in order; each key is counted and listed once.  (For values that are
    not sorted; [hashtable_refines_map] covers sorted ones.) *)
Lemma look_cong kcmp k k2 t : (forall x y, kcmp x y = 0 -> kcmp y x = 0)%Z -> (forall x y z, kcmp x y = 0 -> kcmp y z = 0 -> kcmp x z = 0)%Z ->
  kcmp k k2 = 0%Z -> filter (same kcmp k) t = filter (same kcmp k2) t.
Proof.
  intros Hs Ht E. apply filter_ext. intros x. unfold same. destruct (Z.eqb_spec (kcmp (fst x) k) 0) as [A|A], (Z.eqb_spec (kcmp (fst x) k2) 0) as [B|B]; auto.
  - destruct B. eauto.
  - destruct A. eauto.
Qed.
Definition stored kcmp (k : N) (t : table) : list N := match hd_error (filter (same kcmp k) t) with Some e => snd e | None => [] end.
Lemma stored_put kcmp k k2 vs t : (forall x y, kcmp x y = 0 -> kcmp y x = 0)%Z -> (forall x y z, kcmp x y = 0 -> kcmp y z = 0 -> kcmp x z = 0)%Z ->
  filter (same kcmp k2) t <> [] ->
  stored kcmp k (put kcmp k2 vs t) = if (kcmp k2 k =? 0)%Z then vs else stored kcmp k t.
Proof.
  intros Hs Ht Ne. unfold stored. destruct (Z.eqb_spec (kcmp k2 k) 0) as [E|E].
  - rewrite (look_cong kcmp k2 k t Hs Ht E) in Ne. unfold put. clear - Ne E Hs Ht. induction t as [|e t IH]; [cbn in Ne; congruence|]. cbn [map filter] in *.
    assert (Q : same kcmp k2 e = same kcmp k e).
    { unfold same. destruct (Z.eqb_spec (kcmp (fst e) k2) 0), (Z.eqb_spec (kcmp (fst e) k) 0); auto; exfalso; eauto. }
    rewrite Q. destruct (same kcmp k e) eqn:S; [|rewrite S; auto].
    assert (S2 : same kcmp k (fst e, vs) = true) by exact S. rewrite S2. reflexivity.
  - unfold put. clear - E Hs Ht. induction t as [|e t IH]; auto. cbn [map filter].
    destruct (same kcmp k2 e) eqn:S.
    + assert (S2 : same kcmp k (fst e, vs) = false) by (unfold same in *; cbn; destruct (Z.eqb_spec (kcmp (fst e) k) 0); auto; destruct E; apply (Ht _ (fst e)); auto; apply Hs; lia).
      rewrite S2. assert (S3 : same kcmp k e = false) by exact S2. rewrite S3. exact IH.
    + destruct (same kcmp k e); auto.
Qed.
Lemma stored_del kcmp k k2 t : (forall x y, kcmp x y = 0 -> kcmp y x = 0)%Z -> (forall x y z, kcmp x y = 0 -> kcmp y z = 0 -> kcmp x z = 0)%Z ->
  stored kcmp k (del kcmp k2 t) = if (kcmp k2 k =? 0)%Z then [] else stored kcmp k t.
Proof.
  intros Hs Ht. unfold stored, del. destruct (Z.eqb_spec (kcmp k2 k) 0) as [E|E].
  - rewrite <- (look_cong kcmp k2 k _ Hs Ht E). induction t as [|e t IH]; auto. cbn [filter]. destruct (same kcmp k2 e) eqn:S; cbn [negb]; auto. cbn [filter]. now rewrite S.
  - induction t as [|e t IH]; auto. cbn [filter]. destruct (same kcmp k2 e) eqn:S; cbn [negb].
    + assert (S3 : same kcmp k e = false) by (unfold same in *; cbn; destruct (Z.eqb_spec (kcmp (fst e) k) 0); auto; destruct E; apply (Ht _ (fst e)); auto; apply Hs; lia).
      rewrite S3. exact IH.
    + cbn [filter]. destruct (same kcmp k e); auto.
Qed.
Lemma stored_app kcmp k t k' vs : filter (same kcmp k) t = [] -> stored kcmp k (t ++ [(k', vs)]) = if (kcmp k' k =? 0)%Z then vs else [].
Proof. intros H. unfold stored. rewrite filter_app, H. cbn. unfold same. cbn. destruct (kcmp k' k =? 0)%Z; auto. Qed.
Lemma stored_app2 kcmp k t e : kcmp (fst e) k <> 0%Z -> stored kcmp k (t ++ [e]) = stored kcmp k t.
Proof.
  intros H. unfold stored. rewrite filter_app. cbn. unfold same at 2. destruct (Z.eqb_spec (kcmp (fst e) k) 0); [contradiction|]. now rewrite app_nil_r.
Qed.
Lemma rel_hist kcmp vcmp hash c dupk dupv n ex t o r t' fk fv d k : good_cb kcmp vcmp hash c dupk -> msort c = false ->
  rel kcmp vcmp c dupk dupv n ex t o r t' fk fv d -> (forall e, In e t -> snd e <> []) ->
  hist kcmp c dupv n (stored kcmp k t) k [o] = stored kcmp k t' /\ (forall e, In e t' -> snd e <> []).
Proof.
  intros (Hr & Hs & Ht & Hh & Hd & _) Hm R Hn.
  assert (St : forall k2 k' vs, look kcmp k2 t = Some (k', vs) -> k2 <> 0%N /\ filter (same kcmp k2) t <> [] /\ stored kcmp k2 t = vs /\ In (k', vs) t).
  { intros k2 k' vs L. unfold look in L. destruct (N.eqb_spec k2 0); [discriminate|]. unfold stored. destruct (filter (same kcmp k2) t) as [|e l] eqn:E; [discriminate|].
    cbn in L. injection L as ->. split; auto. split; [discriminate|]. split; [reflexivity|]. assert (In (k', vs) (filter (same kcmp k2) t)) by (rewrite E; left; auto).
    apply filter_In in H. tauto. }
  assert (Sn : forall k2, k2 <> 0%N -> look kcmp k2 t = None -> filter (same kcmp k2) t = []).
  { intros k2 Hz L. unfold look in L. destruct (N.eqb_spec k2 0); [contradiction|]. destruct (filter (same kcmp k2) t); auto; discriminate. }
  assert (Sc : forall k2, kcmp k2 k = 0%Z -> stored kcmp k t = stored kcmp k2 t) by (intros k2 E; unfold stored; now rewrite (look_cong kcmp k2 k t Hs Ht E)).
  assert (Pn : forall k2 vs, vs <> [] -> forall e, In e (put kcmp k2 vs t) -> snd e <> []).
  { intros k2 vs Hv e He. unfold put in He. apply in_map_iff in He. destruct He as (x & <- & Hx). destruct (same kcmp k2 x); auto. }
  assert (Dn : forall k2 e, In e (del kcmp k2 t) -> snd e <> []) by (intros k2 e He; apply filter_In in He; apply Hn; tauto).
  destruct o as [k2 v|k2|k2 dv|k2|k2 i|k2 i dv| |]; cbn [rel hist] in *.
  - destruct R as (_ & _ & R). destruct (N.eqb_spec k2 0) as [Hz|Hz]; cbn [negb andb].
    { destruct R as (_ & -> & _). auto. }
    destruct R as (_ & R). destruct (look kcmp k2 t) as [[k' vs]|] eqn:L.
    + destruct (St _ _ _ L) as (_ & Ne & Es & Hin). assert (Q : exists vs', t' = put kcmp k2 vs' t /\ vs' <> [] /\ vs' = if multi c then vs ++ [dupv n v] else [dupv n v]).
      { destruct (multi c); [|destruct R as [-> _]; eexists; split; [reflexivity|]; split; [discriminate|reflexivity]].
        destruct R as (_ & vs' & A & ->). unfold added in A. rewrite Hm in A. exists vs'. split; auto. rewrite A. split; auto. now destruct vs. }
      destruct Q as (vs' & -> & Nv & Ev). split; [|apply Pn; auto]. rewrite stored_put by auto. destruct (Z.eqb_spec (kcmp k2 k) 0) as [E|E]; auto.
      rewrite (Sc k2 E), Es, Ev. destruct (multi c); auto.
    + destruct R as [-> _]. specialize (Sn k2 Hz L). destruct (Hd n k2 Hz) as [_ Dk]. split.
      * destruct (Z.eqb_spec (kcmp k2 k) 0) as [E|E].
        -- rewrite stored_app by (now rewrite <- (look_cong kcmp k2 k t Hs Ht E)). assert (E2 : kcmp (dupk n k2) k = 0%Z) by eauto. rewrite E2.
           rewrite (Sc k2 E). unfold stored. rewrite Sn. cbn. now destruct (multi c).
        -- rewrite stored_app2; auto. cbn. intros E2. apply E. apply (Ht _ (dupk n k2)); auto.
      * intros e He. apply in_app_iff in He. destruct He as [He|[<-|[]]]; auto. discriminate.
  - destruct R as (-> & _). auto.
  - destruct R as (_ & R). destruct (look kcmp k2 t) as [[k' vs]|] eqn:L.
    + destruct R as (_ & -> & _). destruct (St _ _ _ L) as (Hz & _). destruct (N.eqb_spec k2 0); [contradiction|]. cbn [negb andb].
      split; auto. rewrite stored_del by auto. now destruct (kcmp k2 k =? 0)%Z. apply Dn.
    + destruct R as (_ & -> & _). split; auto. destruct (N.eqb_spec k2 0) as [|Hz]; auto. cbn [negb andb]. destruct (Z.eqb_spec (kcmp k2 k) 0) as [E|E]; auto.
      rewrite (Sc k2 E). unfold stored. now rewrite (Sn k2 Hz L).
  - destruct R as (-> & _). auto.
  - destruct R as (-> & _). auto.
  - destruct (multi c); [|destruct R as (_ & -> & _); rewrite andb_false_r; auto]. rewrite andb_true_r.
    destruct (look kcmp k2 t) as [[k' vs]|] eqn:L.
    + destruct (St _ _ _ L) as (Hz & Ne & Es & Hin). destruct (N.eqb_spec k2 0); [contradiction|]. cbn [negb andb].
      destruct (Nat.leb_spec (length vs) i) as [Hi|Hi].
      * destruct R as (_ & -> & _). split; auto. destruct (Z.eqb_spec (kcmp k2 k) 0) as [E|E]; auto. cbn [andb]. rewrite (Sc k2 E), Es.
        destruct (Nat.ltb_spec i (length vs)); [lia|auto].
      * destruct R as (_ & _ & R). destruct (Nat.eqb_spec (length vs) 1) as [L1|L1].
        -- destruct R as (-> & _). split; [|apply Dn]. rewrite stored_del by auto. destruct (Z.eqb_spec (kcmp k2 k) 0) as [E|E]; auto. cbn [andb]. rewrite (Sc k2 E), Es.
           destruct (Nat.ltb_spec i (length vs)); [|lia]. destruct vs as [|x [|y l]]; cbn in *; try lia. now replace i with 0 by lia.
        -- destruct R as (-> & _). assert (Nv : drop_nth i vs <> []).
           { intros Q. assert (Q2 : length (drop_nth i vs) = 0) by now rewrite Q. unfold drop_nth in Q2. rewrite app_length, firstn_length, skipn_length in Q2. lia. }
           split; [|apply Pn; auto]. rewrite stored_put by auto. destruct (Z.eqb_spec (kcmp k2 k) 0) as [E|E]; auto. cbn [andb]. rewrite (Sc k2 E), Es.
           destruct (Nat.ltb_spec i (length vs)); [|lia]. reflexivity.
    + destruct R as (_ & -> & _). split; auto. destruct (N.eqb_spec k2 0) as [|Hz]; auto. cbn [negb andb]. destruct (Z.eqb_spec (kcmp k2 k) 0) as [E|E]; auto. cbn [andb].
      rewrite (Sc k2 E). unfold stored. rewrite (Sn k2 Hz L). cbn. auto.
  - destruct R as (-> & _). auto.
  - destruct R as (-> & _). auto.
Qed.
Lemma chain_hist kcmp vcmp hash c dupk dupv k : good_cb kcmp vcmp hash c dupk -> msort c = false ->
  forall n ex t ops rs n2 ex2 t2 fk fv, chain kcmp vcmp c dupk dupv n ex t ops rs n2 ex2 t2 fk fv -> (forall e, In e t -> snd e <> []) ->
  hist kcmp c dupv n (stored kcmp k t) k ops = stored kcmp k t2.
Proof.
  intros Hg Hm n ex t ops rs n2 ex2 t2 fk fv C. induction C as [|n ex t o ops r rs t1 kf vf d n2 ex2 t2 kf2 vf2 R C IH]; intros Hn; auto.
  destruct (rel_hist kcmp vcmp hash c dupk dupv n ex t o r t1 kf vf d k Hg Hm R Hn) as [E Hn2]. specialize (IH Hn2).
  rewrite <- E in IH. exact IH.
Qed.
Theorem hashtable_history kcmp vcmp hash c dupk dupv lev g n ops :
  wf_cfg c -> (forall i, good_cb kcmp vcmp hash c (dupk i)) -> (1 <= n <= 2 ^ 63)%N -> msort c = false ->
  exists h0 rs h t cnt l, create c n = Some h0 /\ run kcmp vcmp hash c dupk dupv lev g ops h0 = Ok (rs, h) /\
    (forall k, k <> 0%N -> let vs := hist kcmp c (dupv true) 0 [] k ops in
       hget kcmp hash c h k = Ok (if getlast c then hd_error (rev vs) else hd_error vs) /\
       (multi c = true -> forall i, multi_get kcmp hash c h k i = Ok (nth_error vs i)) /\
       (multi c = true -> multi_len kcmp hash c h k = Ok (if length vs =? 0 then None else Some (length vs))) /\
       forall k' ws, In (k', ws) t /\ kcmp k' k = 0%Z -> ws = vs /\ vs <> []) /\
    (forall k, k <> 0%N -> hist kcmp c (dupv true) 0 [] k ops <> [] -> exists k', In (k', hist kcmp c (dupv true) 0 [] k ops) t /\ kcmp k' k = 0%Z) /\
    (forall a e b, t = a ++ e :: b -> fst e <> 0%N /\ forall x, In x (a ++ b) -> kcmp (fst x) (fst e) <> 0%Z) /\
    nk h = Z.of_nat (length t) /\ enum_all kcmp hash c h = Ok (cnt, l) /\ Permutation l (flat_map (fun e => map (pair (fst e)) (snd e)) t).
Proof.
  intros W Hcb Hn Hm. destruct (create_ok kcmp vcmp hash c dupk lev W n Hn) as (h0 & E0 & R0 & C0 & K0 & V0).
  destruct (run_ok kcmp vcmp hash c dupk dupv lev g W Hcb ops h0 [] 0 R0) as (rs & h & t & ex & fk & fv & E & R & Ch & K & V).
  destruct (enum_ok kcmp vcmp hash c dupk dupv lev g W Hcb h t ex R) as (l & El & t1 & P & Fl & _).
  rewrite C0 in Ch. assert (Hi : forall k, hist kcmp c (dupv true) 0 [] k ops = stored kcmp k t).
  { intros k. apply (chain_hist kcmp vcmp hash c (dupk true) (dupv true) k (Hcb true) Hm _ _ _ _ _ _ _ _ _ _ Ch). intros e []. }
  pose proof R as [[its I] Rk _ _]. pose proof (its_look kcmp vcmp hash c dupk Hcb h its t I) as Lk.
  assert (Ls : forall k, k <> 0%N -> look kcmp k t = match filter (same kcmp k) t with [] => None | e :: _ => Some e end) by (intros k Hz; unfold look; destruct (N.eqb_spec k 0); [contradiction|]; now destruct (filter _ _)).
  assert (Ne : forall k e, hd_error (filter (same kcmp k) t) = Some e -> In e t /\ kcmp (fst e) k = 0%Z).
  { intros k e He. assert (H : In e (filter (same kcmp k) t)) by (destruct (filter (same kcmp k) t); [discriminate|]; injection He as ->; left; auto).
    apply filter_In in H. destruct H as [H S]. split; auto. unfold same in S. lia. }
  pose proof (Hsym kcmp vcmp hash c dupk Hcb) as Hs. pose proof (Htr kcmp vcmp hash c dupk Hcb) as Ht.
  assert (Nz : forall e, In e t -> fst e <> 0%N).
  { intros e He Q. destruct (Lk e He) as [L _]. rewrite Q in L. discriminate. }
  assert (Un : forall k k' ws, k <> 0%N -> In (k', ws) t -> kcmp k' k = 0%Z -> hd_error (filter (same kcmp k) t) = Some (k', ws)).
  { intros k k' ws Hz Hin Ek. destruct (Lk _ Hin) as [L _]. cbn [fst] in L. rewrite Ls in L by (apply (Nz _ Hin)).
    rewrite <- (look_cong kcmp k' k t Hs Ht Ek). destruct (filter (same kcmp k') t); auto; discriminate. }
  exists h0, rs, h, t, (Z.of_nat (total t + ex)), l. split; auto. split; auto. split; [|split; [|split; [|split; [|split; [|]]]]]; auto.
  - intros k Hz. cbn zeta. rewrite Hi.
    rewrite (hget_ok kcmp vcmp hash c dupk dupv lev g W Hcb h t ex k R), (multi_len_ok kcmp vcmp hash c dupk Hcb h t ex k R).
    rewrite Ls by auto. unfold stored. destruct (filter (same kcmp k) t) as [|[k' vs] rest] eqn:Ef; cbn [hd_error snd].
    + split; [unfold got; destruct (getlast c); reflexivity|]. split; [|split].
      * intros M i. rewrite (multi_get_ok kcmp vcmp hash c dupk dupv lev g Hcb h t ex k i R), M. rewrite Ls, Ef by auto. now destruct i.
      * intros ->. reflexivity.
      * intros k' ws [Hin Ek]. pose proof (Un k k' ws Hz Hin Ek) as Q. rewrite Ef in Q. discriminate.
    + destruct (Ne k (k', vs)) as [Hin Ek]; [now rewrite Ef|]. destruct (Lk _ Hin) as (_ & Nv & _). cbn [snd] in Nv.
      split; [reflexivity|]. split; [|split].
      * intros M i. rewrite (multi_get_ok kcmp vcmp hash c dupk dupv lev g Hcb h t ex k i R), M. rewrite Ls, Ef by auto. reflexivity.
      * intros ->. destruct vs; [congruence|]. reflexivity.
      * intros k2 ws [Hin2 Ek2]. pose proof (Un k k2 ws Hz Hin2 Ek2) as Q. rewrite Ef in Q. cbn in Q. injection Q as <- <-. auto.
  - intros k Hz. rewrite Hi. unfold stored. destruct (hd_error (filter (same kcmp k) t)) as [[k' vs]|] eqn:Ef; [|congruence].
    intros _. exists k'. destruct (Ne k _ Ef). auto.
  - intros a e b Et. assert (He : In e t) by (rewrite Et; apply in_elt). split; [apply Nz; auto|]. intros x Hx Q.
    destruct I as (T & F & Ei & U). rewrite Et in Ei. apply map_eq_app in Ei. destruct Ei as (i1 & i2' & -> & E1 & E2). apply map_eq_cons in E2. destruct E2 as (it & i2 & -> & E3 & E4).
    assert (Ik : isk kcmp (ikey it) it = true) by (unfold isk; rewrite (Hrefl kcmp vcmp hash c dupk Hcb); auto).
    assert (Hy : exists y, In y (i1 ++ i2) /\ abs y = x).
    { rewrite <- E1, <- E4, <- map_app in Hx. apply in_map_iff in Hx. destruct Hx as (y & ? & ?). eauto. }
    destruct Hy as (y & Hy & <-). rewrite <- E3 in Q. cbn [fst abs] in Q.
    pose proof (uniq_others kcmp hash (Hsym kcmp vcmp hash c dupk Hcb) (Htr kcmp vcmp hash c dupk Hcb) (Hh kcmp vcmp hash c dupk Hcb) i1 it i2 _ U Ik y Hy) as N.
    unfold isk in N. lia.
  - rewrite Fl. apply Permutation_flat_map. exact P.
Qed.
Print Assumptions hashtable_history.

(** Destroying the table frees each key once and, if asked to, each value once. *)
Theorem hashtable_destroy kcmp vcmp hash c dupk dupv lev g n ops dv :
  wf_cfg c -> (forall i, good_cb kcmp vcmp hash c (dupk i)) -> (1 <= n <= 2 ^ 63)%N ->
  exists h0 rs h t m ex kf1 vf1 h', create c n = Some h0 /\ run kcmp vcmp hash c dupk dupv lev g ops h0 = Ok (rs, h) /\
    chain kcmp vcmp c (dupk true) (dupv true) 0 0 [] ops rs m ex t kf1 vf1 /\
    destroy kcmp c lev h dv = Ok h' /\
    Permutation (kf h') (map fst t ++ kf1) /\ Permutation (vf h') ((if dv then concat (map snd t) else []) ++ vf1).
Proof.
  intros W Hcb Hn. destruct (create_ok kcmp vcmp hash c dupk lev W n Hn) as (h0 & E0 & R0 & C0 & K0 & V0).
  destruct (run_ok kcmp vcmp hash c dupk dupv lev g W Hcb ops h0 [] 0 R0) as (rs & h & t & ex & fk & fv & E & R & Ch & K & V).
  destruct (destroy_ok kcmp vcmp hash c dupk lev Hcb h t ex dv R) as (h' & Ed & Pk & Pv).
  exists h0, rs, h, t, (clk h), ex, fk, fv, h'. rewrite C0 in Ch. rewrite K, K0, app_nil_r in Pk. rewrite V, V0, app_nil_r in Pv. auto 8.
Qed.
Print Assumptions hashtable_destroy.

(** A duplicate of the table holds copies of the same keys and values, and
    behaves like a table. *)
Theorem hashtable_duplicate kcmp vcmp hash hash2 c dupk dupv lev g n ops ops2 :
  wf_cfg c -> (forall i, good_cb kcmp vcmp hash c (dupk i)) -> (forall i, good_cb kcmp vcmp hash2 c (dupk i)) -> (1 <= n <= 2 ^ 63)%N ->
  exists h0 rs h t m ex kf1 vf1 d td m1 rs2 d2 m2 ex2 t2 kf2 vf2,
    create c n = Some h0 /\ run kcmp vcmp hash c dupk dupv lev g ops h0 = Ok (rs, h) /\
    chain kcmp vcmp c (dupk true) (dupv true) 0 0 [] ops rs m ex t kf1 vf1 /\
    duplicate kcmp vcmp hash hash2 c dupk dupv lev g h = Ok (Some d) /\
    dup_table_of kcmp vcmp c (dupk false) (dupv false) t td /\
    run kcmp vcmp hash2 c dupk dupv lev g ops2 d = Ok (rs2, d2) /\
    chain kcmp vcmp c (dupk true) (dupv true) m1 0 td ops2 rs2 m2 ex2 t2 kf2 vf2.
Proof.
  intros W Hcb Hcb2 Hn. destruct (create_ok kcmp vcmp hash c dupk lev W n Hn) as (h0 & E0 & R0 & C0 & K0 & V0).
  destruct (run_ok kcmp vcmp hash c dupk dupv lev g W Hcb ops h0 [] 0 R0) as (rs & h & t & ex & fk & fv & E & R & Ch & K & V).
  assert (S : (size h <= max_buckets)%N) by (eapply (run_size kcmp vcmp hash c dupk dupv lev g Hcb); eauto; eapply (create_size kcmp vcmp hash c dupk Hcb); eauto).
  destruct (dup_ok kcmp vcmp hash hash2 c dupk dupv lev g W Hcb Hcb2 h t ex R S) as (d & td & Ed & Rd & _ & Dd).
  destruct (run_ok kcmp vcmp hash2 c dupk dupv lev g W Hcb2 ops2 d td 0 Rd) as (rs2 & d2 & t2 & ex2 & fk2 & fv2 & E2 & R2 & Ch2 & _).
  exists h0, rs, h, t, (clk h), ex, fk, fv, d, td, (clk d), rs2, d2, (clk d2), ex2, t2, fk2, fv2. rewrite C0 in Ch. auto 10.
Qed.
Print Assumptions hashtable_duplicate.

Lemma chain_kept kcmp vcmp c dupk dupv n ex t ops rs n2 ex2 t2 kf2 vf2 : chain kcmp vcmp c dupk dupv n ex t ops rs n2 ex2 t2 kf2 vf2 ->
  (forall k i dv, ~ In (MultiRemove k i dv) ops) -> ex2 = ex.
Proof.
  induction 1 as [|n ex t o ops r rs t1 kf vf d n2 ex2 t2 kf2 vf2 R Ch IH]; intros Hno; auto.
  rewrite IH by (intros k i dv Hin; apply (Hno k i dv); right; auto). enough (d = 0) by lia.
  destruct o; cbn [rel] in R; try tauto. exfalso. eapply Hno. left. reflexivity.
Qed.
(** The count of values M_hashtable_enumerate returns is the number of pairs
    then listed, plus the number of calls of M_hashtable_multi_remove that left
    the key some values ([ex], see [rel]): the full statement is refuted below. *)
Theorem hashtable_count_partial kcmp vcmp hash c dupk dupv lev g n ops :
  wf_cfg c -> (forall i, good_cb kcmp vcmp hash c (dupk i)) -> (1 <= n <= 2 ^ 63)%N ->
  exists h0 rs h t m ex l, create c n = Some h0 /\ run kcmp vcmp hash c dupk dupv lev g ops h0 = Ok (rs, h) /\
    chain kcmp vcmp c (dupk true) (dupv true) 0 0 [] ops rs m ex t (kf h) (vf h) /\
    enum_all kcmp hash c h = Ok (Z.of_nat (length l + ex), l) /\
    ((forall k i dv, ~ In (MultiRemove k i dv) ops) -> ex = 0).
Proof.
  intros W Hcb Hn. destruct (create_ok kcmp vcmp hash c dupk lev W n Hn) as (h0 & E0 & R0 & C0 & K0 & V0).
  destruct (run_ok kcmp vcmp hash c dupk dupv lev g W Hcb ops h0 [] 0 R0) as (rs & h & t & ex & fk & fv & E & R & Ch & K & V).
  destruct (enum_ok kcmp vcmp hash c dupk dupv lev g W Hcb h t ex R) as (l & El & t1 & P & Fl & _).
  assert (Ll : length l = total t) by (rewrite Fl, flat_len; now apply total_perm).
  exists h0, rs, h, t, (clk h), ex, l. rewrite C0 in Ch. rewrite K, V, K0, V0, !app_nil_r, Ll. split; auto. split; auto. split; auto. split; auto.
  intros Hno. now apply (chain_kept _ _ _ _ _ _ _ _ _ _ _ _ _ _ _ Ch).
Qed.
Print Assumptions hashtable_count_partial.

(** Keys equal modulo 100, values sorted by their tens; the hash has four
    values, so that keys collide; copies of the n-th insertion are offset by
    1000 n (by 500 when copied). *)
Definition kc (x y : N) : Z := (Z.of_N (x mod 100) - Z.of_N (y mod 100))%Z.
Definition vc (x y : N) : Z := (Z.of_N (x mod 100 / 10) - Z.of_N (y mod 100 / 10))%Z.
Definition hs (x : N) : N := (x mod 4)%N.
Definition dk (i : bool) (n : nat) (x : N) : N := (x + (if i then 1000 else 500) * N.of_nat n)%N.
Definition lv (_ : nat) : nat := 1.
Definition single := mkh false false false false false 75.
Definition oneach := mkh true false true true true 75.
Definition sortvals := mkh true true false true false 50.
Definition go c (size : N) ops := match create c size with None => Ok None | Some h => do '(rs, h) <- run kc vc hs c dk dk lv 7 ops h; Ok (Some (rs, length (bk h), kf h, vf h)) end.
Lemma cb_ok i c : good_cb kc vc hs c (dk i).
Proof.
  unfold good_cb, kc, vc, hs, dk. split; [intros; lia|]. split; [intros; lia|]. split; [intros; lia|]. split.
  { intros x y H. assert (E : (x mod 100 = y mod 100)%N) by lia.
    assert (A : forall z, (z mod 4 = (z mod 100) mod 4)%N).
    { intros z. rewrite (N.div_mod z 100) at 1 by lia. replace (100 * (z / 100) + z mod 100)%N with (z mod 100 + (25 * (z / 100)) * 4)%N by lia. apply N.mod_add. lia. }
    rewrite (A x), (A y). now rewrite E. }
  split.
  { intros n k Hk. split; [lia|]. replace (k + (if i then 1000 else 500) * N.of_nat n)%N with (k + ((if i then 10 else 5) * N.of_nat n) * 100)%N by (destruct i; lia).
    rewrite N.mod_add by lia. lia. }
  unfold total_preorder. split; intros _; repeat split; intros; lia.
Qed.
Example single_ok : wf_cfg single /\ (forall i, good_cb kc vc hs single (dk i)) /\
  go single 1 [Insert 1 11; Insert 5 12; Insert 2 13; Insert 101 14; Get 1; Get 201; Remove 105 true; Get 5; NumKeys; Enum; Remove 0 true]%N =
  Ok (Some ([RB true; RB true; RB true; RB true; RV (Some 3014); RV (Some 3014); RB true; RV None; RN 2; RE 2 [(1, 3014); (2002, 2013)]; RB false]%N, 8, [1005]%N, [1012; 11]%N)).
Proof. split; [vm_compute; intuition congruence|]. split; [intros; apply cb_ok|]. vm_compute. reflexivity. Qed.
Example ordered_ok : wf_cfg oneach /\ (forall i, good_cb kc vc hs oneach (dk i)) /\
  go oneach 4 [Insert 7 11; Insert 3 12; Insert 103 13; Insert 5 14; MultiLen 3; MultiGet 3 1; Get 3; Enum; MultiRemove 7 0 true; Enum]%N =
  Ok (Some ([RB true; RB true; RB true; RB true; RL (Some 2%nat); RV (Some 2013); RV (Some 2013); RE 4 [(1003, 1012); (1003, 2013); (3005, 3014); (7, 11)]; RB true;
    RE 3 [(1003, 1012); (1003, 2013); (3005, 3014)]]%N, 8, [7]%N, [11]%N)).
Proof. split; [vm_compute; intuition congruence|]. split; [intros; apply cb_ok|]. vm_compute. reflexivity. Qed.
Example sortvals_ok : wf_cfg sortvals /\ (forall i, good_cb kc vc hs sortvals (dk i)) /\
  go sortvals 2 [Insert 9 31; Insert 4 12; Insert 9 15; Insert 9 22; Enum]%N =
  Ok (Some ([RB true; RB true; RB true; RB true; RE 4 [(9, 2015); (9, 3022); (9, 31); (1004, 1012)]]%N, 8, [], [])).
Proof. split; [vm_compute; intuition congruence|]. split; [intros; apply cb_ok|]. vm_compute. reflexivity. Qed.
Example history_ex : hist kc oneach (dk true) 0 [] 3%N [Insert 7 11; Insert 3 12; Insert 103 13; MultiRemove 3 0 true]%N = [2013]%N.
Proof. vm_compute. reflexivity. Qed.

(** Removing one of several values of a key does not decrease the count. *)
Theorem multi_remove_count_refuted :
  go oneach 4 [Insert 7 11; Insert 7 12; MultiRemove 7 0 true; Enum]%N = Ok (Some ([RB true; RB true; RB true; RE 2 [(7, 1012)%N]], 4, [], [11]%N)).
Proof. vm_compute. reflexivity. Qed.
Print Assumptions multi_remove_count_refuted.
(** Asking for more than 2^63 buckets gives a table without buckets; the first
    insertion reads outside it. *)
Theorem huge_table_refuted : go single (2 ^ 63 + 1)%N [] = Ok (Some ([], 0, [], [])) /\ go single (2 ^ 63 + 1)%N [Insert 1 2]%N = UB.
Proof. split; vm_compute; reflexivity. Qed.
Print Assumptions huge_table_refuted.
(** M_hashtable_enumerate_next, called again after it reported the end, lists
    the last bucket again. *)
Theorem enumerate_past_end_refuted :
  match create single 1 with
  | Some h => do '(_, h) <- run kc vc hs single dk dk lv 7 [Insert 1 11]%N h;
              do '(_, e) <- enumerate single h;
              do '(p1, e) <- enumerate_next kc hs single h e; do '(p2, e) <- enumerate_next kc hs single h e; do '(p3, e) <- enumerate_next kc hs single h e;
              Ok (p1, p2, p3)
  | None => UB
  end = Ok (Some (1, 11), None, Some (1, 11))%N.
Proof. vm_compute. reflexivity. Qed.
Print Assumptions enumerate_past_end_refuted.

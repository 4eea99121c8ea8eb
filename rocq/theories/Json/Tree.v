(** Numbers, members and whole trees: the reader accepts the texts of the grammar. *)
From Coq Require Import QArith.
From Verif Require Import Base.Lib Base.Mem Hex.Model StrNum.Model StrNum.Spec StrNum.Proofs Utf8.Model Utf8.Spec.
From Verif Require Import Decimal.Model Decimal.Spec Decimal.Arith Decimal.Proofs Decimal.Text Json.Model Json.Spec Json.Number Json.Read.
Local Open Scope N_scope.

Lemma ratio_0 z : (ratio z 0 == inject_Z z)%Q.
Proof. reflexivity. Qed.

Lemma rem10 z : (Z.rem z 10 = 0 <-> z mod 10 = 0)%Z.
Proof. rewrite Z.rem_divide, Z.mod_divide by discriminate. reflexivity. Qed.

Lemma number_unique r q v : number q v -> (nd r = 0%nat \/ (Z.rem (num r) 10 <> 0)%Z) -> (q == qval r)%Q ->
  v = if (nd r =? 0)%nat then JInt (num r) else JDec r.
Proof.
  intros H R E. destruct v as [| | |z|d| |]; try contradiction; cbn [number] in H.
  - assert (Q : (ratio z 0 == qval r)%Q) by (rewrite ratio_0, <- H; exact E).
    destruct (reduced_least r z 0 R Q) as (j & Hj & Hz). assert (nd r = 0%nat) as -> by lia. assert (j = 0%nat) as -> by lia. rewrite p10_0 in Hz. cbn [Nat.eqb]. f_equal. lia.
  - destruct H as (H & Hn & Hm). assert (Q : (ratio (num d) (nd d) == qval r)%Q) by (rewrite <- H; exact E).
    destruct (reduced_least r (num d) (nd d) R Q) as (j & Hj & Hz). destruct j as [|j].
    + rewrite p10_0, Z.mul_1_r in Hz. rewrite Nat.add_0_r in Hj. rewrite <- Hj. rewrite (proj2 (Nat.eqb_neq _ _) Hn). f_equal. destruct d, r; cbn in *; congruence.
    + exfalso. apply Hm. rewrite Hz, p10_S. replace (num r * (10 * p10 j))%Z with (num r * p10 j * 10)%Z by ring. now rewrite Z.mod_mul by discriminate.
Qed.

Lemma sgz_eq (neg : bool) : (if neg then -1 else 1)%Z = sgz neg.
Proof. reflexivity. Qed.
Lemma fits_in64 z : fits z <-> in64 z.
Proof. reflexivity. Qed.

Lemma to_int_0 d : nd d = 0%nat -> to_int d 0 = Ok (num d).
Proof. intros H. unfold to_int, transform. rewrite H. reflexivity. Qed.

Section Tree.
Variable z : list N.
Variable fl : rflags.
Hypothesis decode : r_nodecode fl = false.
Notation tail := (0 :: z).
Notation cm := (negb (r_nocomment fl)).
Notation du := (negb (r_unique fl)).

Lemma minus_text neg : sign_text (minus neg) neg.
Proof. unfold sign_text, minus. destruct neg; auto. Qed.

Lemma read_node t rest d v q : (nd d = 0%nat \/ (Z.rem (num d) 10 <> 0)%Z) -> (q == qval d)%Q -> number q v ->
  from_str ((t ++ rest) ++ tail) (length (t ++ rest)) = Ok (Success, d, Some (rest ++ tail)) -> read_number tail fl (t ++ rest) = Ok (inr (v, rest)).
Proof.
  intros R Q H E. unfold read_number. rewrite E. cbn [bind].
  replace (length ((t ++ rest) ++ tail) - length (rest ++ tail))%nat with (length t) by (rewrite !app_length; lia).
  rewrite (consume_app _ t rest) by reflexivity. rewrite (number_unique d q v H R Q).
  destruct (nd d =? 0)%nat eqn:E0; [|reflexivity]. apply Nat.eqb_eq in E0. rewrite to_int_0 by auto. reflexivity.
Qed.

Lemma read_number_ok t v rest : Num t v -> no_nul rest -> after_num rest -> read_number tail fl (t ++ rest) = Ok (inr (v, rest)).
Proof.
  intros H Nr An. destruct H as [neg ws v [Nw Fw] If H|neg ws fs v [Nw Fw] [Nf Ff] Lf If Iv H].
  - apply (read_node _ rest (mkd (sgz neg * Z.of_N (value 10 ws)) 0) v (text_ratio neg ws [])); auto.
    + unfold text_ratio, qval. cbn [num nd length]. rewrite app_nil_r. reflexivity.
    + rewrite <- app_assoc. apply (num_whole ws (minus neg) neg rest z); auto. apply minus_text.
  - destruct (num_point ws fs (minus neg) neg rest z) as (x & k & E & Hk & Q); auto; [apply minus_text|].
    pose proof (reduce_spec (mkd x k)) as (j & R1 & R2 & R3).
    apply (read_node _ rest (reduce (mkd x k)) v (text_ratio neg ws fs)); auto.
    + rewrite reduce_qval, <- Q. reflexivity.
    + rewrite <- app_assoc. exact E.
Qed.

(** ** Heads *)
Lemma num_head t v : Num t v -> exists c t', t = c :: t' /\ (c = 45 \/ 48 <= c <= 57).
Proof.
  assert (D : forall ws, digits ws -> exists c t', digit_text ws = c :: t' /\ 48 <= c <= 57).
  { intros [|d ws] [N0 F]; [congruence|]. cbn [digit_text map]. do 2 eexists. split; [reflexivity|]. apply Forall_inv in F. cbn beta in F. lia. }
  intros [neg ws v' Hw _ _|neg ws fs v' Hw _ _ _ _ _]; destruct (D ws Hw) as (c & t' & -> & Hc); destruct neg; cbn; do 2 eexists; (split; [reflexivity|]); auto.
Qed.

Lemma space_range c : 33 <= c -> chr_isspace c = false.
Proof. intros H. unfold chr_isspace. repeat match goal with |- context [c =? ?b] => rewrite (proj2 (N.eqb_neq c b)) by lia end. reflexivity. Qed.

Lemma val_head t v : Val cm du t v -> exists c t', t = c :: t' /\ (33 <= c /\ c <> 47 /\ c <> 93 /\ c <> 125 /\ c <> 44).
Proof.
  intros H; destruct H; try (do 2 eexists; split; [reflexivity|]; lia).
  destruct (num_head _ _ H) as (c & t' & -> & Hc). do 2 eexists. split; [reflexivity|]. lia.
Qed.
Lemma elems_head t l : Elems cm du t l -> exists c t', t = c :: t' /\ (33 <= c /\ c <> 47 /\ c <> 93 /\ c <> 125 /\ c <> 44).
Proof. intros H; destruct H as [t v w V _|t v w w' ts l V _ _ _]; destruct (val_head _ _ V) as (c & t' & -> & Hc); cbn; eauto. Qed.
Lemma members_head t l : Members cm du t l -> exists t', t = 34 :: t'.
Proof. intros H; destruct H; cbn; eauto. Qed.

Lemma not_ign_head c u : 33 <= c -> c <> 47 -> not_ign (c :: u).
Proof. intros H1 H2. split; auto. now apply space_range. Qed.

Lemma after_ign w u : Ign cm w -> after_num u -> after_num (w ++ u).
Proof. intros I A. destruct I as [|c w Hc _| |]; auto; cbn; lia. Qed.
Lemma after_head_ok c u : ~ (48 <= c <= 57) -> c <> 46 -> c <> 101 -> c <> 69 -> after_num (c :: u).
Proof. cbn. auto. Qed.

(** ** Steps of the reader *)
Lemma rv_go w c u f : Ign cm w -> 33 <= c -> c <> 47 -> read_value tail fl (S f) (w ++ c :: u) =
  (let s := c :: u in
   if c =? 123 then obj_loop tail fl f (consume 1 s) []
   else if c =? 91 then
     do g <- eat_ignored fl (consume 1 s);
     match g with inl e => Ok (inl e) | inr s => arr_loop tail fl f s [] 0 end
   else if c =? 34 then
     do r <- read_string tail fl s;
     match r with inl e => Ok (inl e) | inr (b, s) => Ok (inr (JStr b, s)) end
   else if (c =? 116) || (c =? 102) then read_bool s
   else if c =? 110 then read_null s
   else if (c =? 45) || ((48 <=? c) && (c <=? 57)) then read_number tail fl s
   else if c =? 0 then Ok (inl EUnexpectedTermination)
   else Ok (inl EInvalidIdentifier)).
Proof.
  intros I H1 H2. cbn [read_value]. rewrite (eat_ignored_ok fl w (c :: u) I) by now apply not_ign_head. reflexivity.
Qed.

Lemma rv_str w t s u f : Ign cm w -> Chars t s -> read_value tail fl (S f) (w ++ (34 :: t ++ [34]) ++ u) = Ok (inr (JStr s, u)).
Proof.
  intros I C. cbn [app]. rewrite rv_go by (auto; discriminate). cbn zeta. cbn [N.eqb Pos.eqb]. rewrite <- app_assoc. cbn [app].
  rewrite (read_string_ok tail fl decode t s u C). reflexivity.
Qed.

Lemma rv_num w t v u f : Ign cm w -> Num t v -> no_nul u -> after_num u -> read_value tail fl (S f) (w ++ t ++ u) = Ok (inr (v, u)).
Proof.
  intros I H Nr An. pose proof (read_number_ok t v u H Nr An) as E. destruct (num_head t v H) as (c & t' & -> & Hc). cbn [app] in *.
  rewrite rv_go by (auto; lia). cbn zeta. repeat match goal with |- context [c =? ?b] => lazymatch b with 45 => fail | _ => rewrite (proj2 (N.eqb_neq c b)) by lia end end. cbn [orb].
  assert (X : (c =? 45) || ((48 <=? c) && (c <=? 57)) = true).
  { destruct Hc as [->|Hc]; [reflexivity|]. rewrite (proj2 (N.leb_le 48 c)), (proj2 (N.leb_le c 57)) by lia. now rewrite orb_true_r. }
  rewrite X. exact E.
Qed.

Definition ins (l kvs : list (list N * json)) : list (list N * json) := fold_left (fun l kv => obj_insert l (fst kv) (snd kv)) kvs l.
Definition all_keys (kvs : list (list N * json)) : Prop := Forall (fun kv => fst kv <> []) kvs.

Lemma members_keys t l : Members cm du t l -> all_keys l.
Proof.
  revert t l. assert (X : (forall t v, Val cm du t v -> True) /\ (forall t l, Elems cm du t l -> True) /\ (forall t l, Members cm du t l -> all_keys l)).
  { apply Val_mutind; auto; intros; constructor; cbn; auto. }
  apply X.
Qed.

Lemma eqb_list_refl k : eqb_list k k = true.
Proof. unfold eqb_list. destruct (list_eq_dec _ _ _); auto. Qed.
Lemma eqb_list_neq a b : a <> b -> eqb_list a b = false.
Proof. unfold eqb_list. destruct (list_eq_dec _ _ _); auto. congruence. Qed.
Lemma eqb_list_eq a b : eqb_list a b = true -> a = b.
Proof. unfold eqb_list. destruct (list_eq_dec _ _ _); auto. discriminate. Qed.

Lemma has_key_In k l : has_key k l = true <-> In k (map fst l).
Proof.
  unfold has_key. rewrite existsb_exists, in_map_iff. split.
  - intros (x & H & E). apply eqb_list_eq in E. eauto.
  - intros (x & E & H). exists x. split; auto. rewrite E. apply eqb_list_refl.
Qed.

Lemma obj_insert_keys l k v : k <> [] -> map fst (obj_insert l k v) = if has_key k l then map fst l else map fst l ++ [k].
Proof.
  intros Hk. unfold obj_insert. destruct k as [|x k]; [congruence|]. destruct (has_key (x :: k) l).
  - rewrite map_map. apply map_ext. intros [a b]. cbn. now destruct (eqb_list a (x :: k)).
  - rewrite map_app. reflexivity.
Qed.

Lemma obj_insert_in l k v k' v' : k <> [] -> NoDup (map fst l) -> (In (k', v') (obj_insert l k v) <-> (k' = k /\ v' = v) \/ (k' <> k /\ In (k', v') l)).
Proof.
  intros Hk ND. unfold obj_insert. destruct k as [|x k]; [congruence|]. set (kk := x :: k) in *. destruct (has_key kk l) eqn:E.
  - rewrite in_map_iff. split.
    + intros ([a b] & E1 & H). cbn in E1. destruct (eqb_list a kk) eqn:Ea.
      * apply eqb_list_eq in Ea. injection E1 as -> ->. auto.
      * injection E1 as -> ->. right. split; auto. intros ->. rewrite eqb_list_refl in Ea. discriminate Ea.
    + intros [[-> ->]|[Nk H]].
      * apply has_key_In, in_map_iff in E. destruct E as ([a b] & Ea & H). cbn in Ea. subst a. exists (kk, b). cbn. rewrite eqb_list_refl. auto.
      * exists (k', v'). cbn. rewrite eqb_list_neq by auto. auto.
  - rewrite in_app_iff. cbn. split.
    + intros [H|[H|[]]].
      * right. split; auto. intros ->. assert (has_key kk l = true) by (apply has_key_In, in_map_iff; exists (kk, v'); auto). congruence.
      * injection H as <- <-. auto.
    + intros [[-> ->]|[_ H]]; auto.
Qed.

Lemma ins_snoc l kvs kv : ins l (kvs ++ [kv]) = obj_insert (ins l kvs) (fst kv) (snd kv).
Proof. unfold ins. now rewrite fold_left_app. Qed.

Lemma firsts_snoc ks k : firsts (ks ++ [k]) = if in_dec (list_eq_dec N.eq_dec) k (firsts ks) then firsts ks else firsts ks ++ [k].
Proof.
  unfold firsts. rewrite rev_app_distr. cbn [rev app nodup]. destruct (in_dec _ k (rev ks)) as [H|H]; destruct (in_dec _ k (rev (nodup _ (rev ks)))) as [H'|H']; auto.
  - exfalso. apply H'. rewrite <- in_rev. now apply nodup_In.
  - exfalso. apply H. apply in_rev in H'. now apply nodup_In in H'.
Qed.

Lemma last_of_snoc k kvs kv : last_of k (kvs ++ [kv]) = if list_eq_dec N.eq_dec (fst kv) k then Some (snd kv) else last_of k kvs.
Proof. unfold last_of. rewrite rev_app_distr. cbn [rev app find]. now destruct (list_eq_dec N.eq_dec (fst kv) k). Qed.

Lemma NoDup_snoc (l : list (list N)) x : NoDup l -> ~ In x l -> NoDup (l ++ [x]).
Proof.
  intros ND H. induction ND as [|y l Hy ND IH]; cbn [app]; constructor; try (now constructor); try tauto.
  - rewrite in_app_iff. intros [X|[->|[]]]; auto. apply H. now left.
  - apply IH. intros X. apply H. now right.
Qed.

Lemma ins_merged kvs : all_keys kvs -> merged kvs (ins [] kvs) /\ NoDup (map fst (ins [] kvs)).
Proof.
  induction kvs as [|kv kvs IH] using rev_ind; intros A.
  - split; [split; constructor|constructor].
  - apply Forall_app in A. destruct A as [A1 A2]. inversion A2 as [|? ? Hk _]; subst. destruct (IH A1) as [[M1 M2] ND]. rewrite ins_snoc.
    pose proof (obj_insert_keys (ins [] kvs) (fst kv) (snd kv) Hk) as K. split; [split|].
    + rewrite K, map_app. cbn [map]. rewrite firsts_snoc, <- M1. destruct (in_dec _ _ _) as [H|H]; destruct (has_key (fst kv) (ins [] kvs)) eqn:E; auto.
      * apply has_key_In in H. congruence.
      * apply has_key_In in E. contradiction.
    + apply Forall_forall. intros [k v] H. apply obj_insert_in in H; auto. rewrite last_of_snoc. cbn [fst snd]. destruct H as [[-> ->]|[Hn H]].
      * destruct (list_eq_dec _ _ _); congruence.
      * destruct (list_eq_dec _ _ _); [congruence|]. rewrite Forall_forall in M2. exact (M2 _ H).
    + rewrite K. destruct (has_key (fst kv) (ins [] kvs)) eqn:E; auto. apply NoDup_snoc; auto. intros H. apply has_key_In in H. congruence.
Qed.

Lemma merged_unique kvs l l' : merged kvs l -> merged kvs l' -> l = l'.
Proof.
  intros [K1 F1] [K2 F2]. assert (K : map fst l = map fst l') by congruence. clear K1 K2. revert l' K F2.
  induction F1 as [|[k v] l H F1 IH]; intros [|[k' v'] l'] K F2; try discriminate K; auto. cbn [map fst] in K. injection K as -> K. inversion F2 as [|? ? H' F2']; subst. cbn [fst snd] in *.
  f_equal; [congruence|auto].
Qed.

Lemma arr_go f s l len : s <> [] -> not_ign s -> (match s with c :: _ => c <> 93 | [] => True end) -> len <> length s ->
  arr_loop tail fl (S f) s l len =
  (do r <- read_value tail fl f s;
   match r with
   | inl e => Ok (inl e)
   | inr (v, s2) =>
     do g <- eat_ignored fl s2;
     match g with
     | inl e => Ok (inl e)
     | inr s3 =>
       let c := match peek s3 with Some c => c | None => match s with c :: _ => c | [] => 0 end end in
       if match peek s3 with None => negb (c =? 44) && negb (c =? 93) | Some _ => false end then Ok (inl EArrayUnexpectedChar)
       else if c =? 44 then
         do g <- eat_ignored fl (consume 1 s3);
         match g with
         | inl e => Ok (inl e)
         | inr s4 =>
           match peek s4 with
           | None => Ok (inl EExpectedValue)
           | Some c => if c =? 93 then Ok (inl EExpectedValue) else arr_loop tail fl f s4 (l ++ [v]) (length s)
           end
         end
       else arr_loop tail fl f s3 (l ++ [v]) (length s)
     end
   end).
Proof.
  intros H1 H2 H3 H4. destruct s as [|c s]; [congruence|]. cbn [arr_loop]. rewrite (proj2 (Nat.eqb_neq _ _) H4), (proj2 (N.eqb_neq c 93) H3). cbn [orb].
  rewrite (eat_stop fl _ H2). cbn [bind]. rewrite (proj2 (N.eqb_neq c 93) H3). reflexivity.
Qed.

Lemma arr_close f u l len : arr_loop tail fl (S f) (93 :: u) l len = Ok (inr (JArr l, u)).
Proof. cbn [arr_loop N.eqb Pos.eqb]. rewrite orb_true_r. reflexivity. Qed.
Lemma obj_close f u l : obj_loop tail fl (S f) (125 :: u) l = Ok (inr (JObj l, u)).
Proof. reflexivity. Qed.
Lemma obj_close_ws f w u l : Ign cm w -> obj_loop tail fl (S f) (w ++ 125 :: u) l = Ok (inr (JObj l, u)).
Proof.
  intros I. destruct w as [|c w]; [apply obj_close|]. cbn [app obj_loop].
  assert (Hc : c <> 125) by (inversion I; subst; lia). rewrite (proj2 (N.eqb_neq c 125) Hc).
  change (c :: w ++ 125 :: u) with ((c :: w) ++ 125 :: u). rewrite (eat_ignored_ok fl (c :: w) (125 :: u) I) by now apply not_ign_head. reflexivity.
Qed.

Lemma obj_go f w kt k w1 w2 u l : Ign cm w -> Chars kt k -> Ign cm w1 -> (r_unique fl = true -> ~ In k (map fst l)) -> (1 <= f)%nat ->
  obj_loop tail fl (S f) (w ++ (34 :: kt ++ [34]) ++ w1 ++ 58 :: w2 ++ u) l =
  (do r <- read_value tail fl f (w2 ++ u);
   match r with
   | inl e => Ok (inl e)
   | inr (v, s4) =>
     let l := obj_insert l k v in
     do g <- eat_ignored fl s4;
     match g with
     | inl e => Ok (inl e)
     | inr s5 =>
       let c := match peek s5 with Some c => c | None => 58 end in
       if match peek s5 with None => negb (c =? 44) && negb (c =? 125) | Some _ => false end then Ok (inl EObjectUnexpectedChar)
       else if c =? 44 then
         do g <- eat_ignored fl (consume 1 s5);
         match g with
         | inl e => Ok (inl e)
         | inr s6 =>
           match peek s6 with
           | None => Ok (inl EExpectedValue)
           | Some c => if c =? 125 then Ok (inl EExpectedValue) else obj_loop tail fl f s6 l
           end
         end
       else obj_loop tail fl f s5 l
     end
   end).
Proof.
  intros I C I1 U Hf. destruct f as [|f]; [lia|].
  assert (E : eat_ignored fl (w ++ (34 :: kt ++ [34]) ++ w1 ++ 58 :: w2 ++ u) = Ok (inr ([] ++ (34 :: kt ++ [34]) ++ w1 ++ 58 :: w2 ++ u))).
  { apply (eat_ignored_ok fl w _ I). cbn [app]. now apply not_ign_head. }
  pose proof (rv_str [] kt k (w1 ++ 58 :: w2 ++ u) f (I_nil _) C) as V.
  assert (E1 : eat_ignored fl (w1 ++ 58 :: w2 ++ u) = Ok (inr (58 :: w2 ++ u))) by (apply (eat_ignored_ok fl w1 _ I1); now apply not_ign_head).
  assert (Uk : r_unique fl && has_key k l = false).
  { destruct (r_unique fl) eqn:Eu; auto. cbn [andb]. destruct (has_key k l) eqn:Ek; auto. apply has_key_In in Ek. destruct (U eq_refl Ek). }
  assert (Hh : exists c r, w ++ (34 :: kt ++ [34]) ++ w1 ++ 58 :: w2 ++ u = c :: r /\ c <> 125).
  { destruct w as [|c w]; cbn [app]; do 2 eexists; (split; [reflexivity|]); [discriminate|]. inversion I; subst; lia. }
  revert E V. generalize (w ++ (34 :: kt ++ [34]) ++ w1 ++ 58 :: w2 ++ u) Hh. intros s0 (c0 & r0 & -> & Hc0) E V.
  cbn [app] in E, V. remember (S f) as f1. cbn [obj_loop]. fold (read_value tail fl). fold (obj_loop tail fl). rewrite (proj2 (N.eqb_neq c0 125) Hc0). rewrite E. cbn [bind N.eqb Pos.eqb negb].
  rewrite V. cbn [bind].
  rewrite Uk, E1. cbn [bind peek N.eqb Pos.eqb negb]. rewrite consume1. reflexivity.
Qed.

Ltac lens := repeat (progress (rewrite ?app_length in *; cbn [length] in * )); lia.
Theorem read_all :
  (forall t v, Val cm du t v -> forall w rest f, Ign cm w -> no_nul (w ++ t ++ rest) -> after_num rest -> (2 * length (w ++ t ++ rest) + 1 <= f)%nat ->
     read_value tail fl f (w ++ t ++ rest) = Ok (inr (v, rest))) /\
  (forall t l, Elems cm du t l -> forall rest f acc len, no_nul (t ++ 93 :: rest) -> (2 * length (t ++ 93%N :: rest) + 2 <= f)%nat ->
     len <> length (t ++ 93 :: rest) ->
     arr_loop tail fl f (t ++ 93 :: rest) acc len = Ok (inr (JArr (acc ++ l), rest))) /\
  (forall t kvs, Members cm du t kvs -> forall w rest f acc, Ign cm w -> no_nul (w ++ t ++ 125 :: rest) -> (2 * length (w ++ t ++ 125%N :: rest) + 2 <= f)%nat ->
     (r_unique fl = true -> NoDup (map fst kvs) /\ forall k, In k (map fst acc) -> ~ In k (map fst kvs)) ->
     obj_loop tail fl f (w ++ t ++ 125 :: rest) acc = Ok (inr (JObj (ins acc kvs), rest))).
Proof.
  assert (NR : forall a b : list N, no_nul (a ++ b) -> no_nul b) by (intros a b H; now apply Forall_app in H).
  assert (NS : forall (a : N) b, no_nul (a :: b) -> no_nul b) by (intros a b H; now inversion H).
  apply Val_mutind.
  - intros w rest f I _ _ Hf. destruct f as [|f]; [lia|]. cbn [app]. rewrite rv_go by (auto; discriminate). reflexivity.
  - intros w rest f I _ _ Hf. destruct f as [|f]; [lia|]. cbn [app]. rewrite rv_go by (auto; discriminate). reflexivity.
  - intros w rest f I _ _ Hf. destruct f as [|f]; [lia|]. cbn [app]. rewrite rv_go by (auto; discriminate). reflexivity.
  - intros t v H w rest f I Nn An Hf. destruct f as [|f]; [lia|]. apply rv_num; auto. now apply NR, NR in Nn.
  - intros t s C w rest f I Nn An Hf. destruct f as [|f]; [lia|]. now apply rv_str.
  - intros w0 I0 w rest f I Nn An Hf. destruct f as [|f]; [lia|]. cbn [app]. rewrite rv_go by (auto; discriminate). cbn zeta. cbn [N.eqb Pos.eqb]. rewrite consume1, <- app_assoc. cbn [app].
    rewrite (eat_ignored_ok fl w0 (93 :: rest) I0) by now apply not_ign_head. cbn [bind]. destruct f as [|f]; [|apply arr_close]. rewrite !app_length in Hf. cbn in Hf. lia.
  - intros w0 t l I0 El IH w rest f I Nn An Hf. destruct f as [|f]; [lia|]. cbn [app]. rewrite rv_go by (auto; discriminate). cbn zeta. cbn [N.eqb Pos.eqb]. rewrite consume1, <- !app_assoc. cbn [app].
    destruct (elems_head t l El) as (c & t' & Et & Hc). rewrite (eat_ignored_ok fl w0 (t ++ 93 :: rest) I0) by (rewrite Et; cbn [app]; apply not_ign_head; lia). cbn [bind].
    apply NR in Nn. cbn [app] in Nn. apply NS in Nn. rewrite <- !app_assoc in Nn. apply NR in Nn. cbn [app] in Nn.
    rewrite IH; auto.
    + lens.
    + rewrite Et. cbn. lia.
  - intros w0 I0 w rest f I Nn An Hf. destruct f as [|f]; [lia|]. cbn [app]. rewrite rv_go by (auto; discriminate). cbn zeta. cbn [N.eqb Pos.eqb]. rewrite consume1, <- app_assoc. cbn [app].
    destruct f as [|f]; [|now apply obj_close_ws]. rewrite !app_length in Hf. cbn in Hf. lia.
  - intros w0 t kvs l I0 Me IH Mg Du w rest f I Nn An Hf. destruct f as [|f]; [lia|]. cbn [app]. rewrite rv_go by (auto; discriminate). cbn zeta. cbn [N.eqb Pos.eqb]. rewrite consume1, <- !app_assoc. cbn [app].
    apply NR in Nn. cbn [app] in Nn. apply NS in Nn. rewrite <- !app_assoc in Nn. cbn [app] in Nn.
    rewrite IH; auto.
    + do 3 f_equal. f_equal. apply (merged_unique kvs); auto. apply ins_merged. eapply members_keys; eauto.
    + lens.
    + intros U. split; [apply Du; now rewrite U|]. intros k [].
  - (* last element *)
    intros t v w V IH I rest f acc len Nn Hf Hl. destruct f as [|f]; [lia|]. destruct (val_head t v V) as (c & t' & Et & Hc).
    rewrite arr_go; auto; [|rewrite Et; discriminate|rewrite Et; cbn [app]; apply not_ign_head; lia|rewrite Et; cbn [app]; lia].
    rewrite <- app_assoc in *. pose proof (IH [] (w ++ 93 :: rest) f (I_nil _) Nn) as E. cbn [app] in E. rewrite E; [|apply after_ign; auto; now apply after_head_ok|lia].
    cbn [bind]. rewrite (eat_ignored_ok fl w (93 :: rest) I) by now apply not_ign_head. cbn [bind peek N.eqb Pos.eqb]. cbn zeta. cbn [N.eqb Pos.eqb].
    destruct f as [|f]; [|apply arr_close]. rewrite !app_length in Hf. cbn in Hf. lia.
  - (* more elements *)
    intros t v w w' ts l V IH I I' El IHl rest f acc len Nn Hf Hl. destruct f as [|f]; [lia|]. destruct (val_head t v V) as (c & t' & Et & Hc).
    rewrite arr_go; auto; [|rewrite Et; discriminate|rewrite Et; cbn [app]; apply not_ign_head; lia|rewrite Et; cbn [app]; lia].
    repeat (rewrite <- app_assoc in *; cbn [app] in * ). pose proof (IH [] (w ++ 44 :: w' ++ ts ++ 93 :: rest) f (I_nil _) Nn) as E. cbn [app] in E. rewrite E; [|apply after_ign; auto; now apply after_head_ok|lia].
    cbn [bind]. rewrite (eat_ignored_ok fl w (44 :: w' ++ ts ++ 93 :: rest) I) by now apply not_ign_head. cbn [bind peek N.eqb Pos.eqb]. cbn zeta. cbn [N.eqb Pos.eqb]. rewrite consume1.
    destruct (elems_head ts l El) as (d & ts' & Es & Hd). rewrite (eat_ignored_ok fl w' (ts ++ 93 :: rest) I') by (rewrite Es; cbn [app]; apply not_ign_head; lia). cbn [bind].
    assert (Ep : peek (ts ++ 93 :: rest) = Some d) by (now rewrite Es). rewrite Ep. rewrite (proj2 (N.eqb_neq d 93)) by lia.
    assert (Ht : (1 <= length t)%nat) by (rewrite Et; cbn; lia).
    rewrite IHl.
    + now rewrite <- app_assoc.
    + apply NR, NR, NS, NR in Nn. exact Nn.
    + lens.
    + lens.
  - (* last member *)
    intros kt k w w' t v w2 C Hk I I' V IH I2 w0 rest f acc I0 Nn Hf U. destruct f as [|f]; [lia|].
    repeat (rewrite <- app_assoc in *; cbn [app] in * ).
    pose proof (obj_go f w0 kt k w w' (t ++ w2 ++ 125 :: rest) acc I0 C I) as G. cbn [app] in G. rewrite <- app_assoc in G. cbn [app] in G. rewrite G.
    2: { intros X. destruct (U X) as [_ D]. intros Y. apply (D k Y). cbn. auto. }
    2: { rewrite !app_length in Hf. cbn in Hf. lia. }
    apply NR, NS, NR, NS, NR, NS in Nn. rewrite IH; auto; [|apply after_ign; auto; now apply after_head_ok|lens].
    cbn [bind]. cbn zeta. rewrite (eat_ignored_ok fl w2 (125 :: rest) I2) by now apply not_ign_head. cbn [bind peek N.eqb Pos.eqb].
    destruct f as [|f]; [|apply obj_close]. rewrite !app_length in Hf. cbn in Hf. lia.
  - (* more members *)
    intros kt k w w' t v w2 w3 ts l C Hk I I' V IH I2 I3 Me IHl w0 rest f acc I0 Nn Hf U. destruct f as [|f]; [lia|].
    repeat (rewrite <- app_assoc in *; cbn [app] in * ).
    pose proof (obj_go f w0 kt k w w' (t ++ w2 ++ 44 :: w3 ++ ts ++ 125 :: rest) acc I0 C I) as G. cbn [app] in G. rewrite <- app_assoc in G. cbn [app] in G. rewrite G.
    2: { intros X. destruct (U X) as [_ D]. intros Y. apply (D k Y). cbn. auto. }
    2: { rewrite !app_length in Hf. cbn in Hf. lia. }
    apply NR, NS, NR, NS, NR, NS in Nn. rewrite IH; auto; [|apply after_ign; auto; now apply after_head_ok|lens].
    cbn [bind]. cbn zeta. rewrite (eat_ignored_ok fl w2 (44 :: w3 ++ ts ++ 125 :: rest) I2) by now apply not_ign_head. cbn [bind peek N.eqb Pos.eqb]. rewrite consume1.
    destruct (members_head ts l Me) as (ts' & Es). rewrite (eat_ignored_ok fl w3 (ts ++ 125 :: rest) I3) by (rewrite Es; cbn [app]; now apply not_ign_head). cbn [bind].
    assert (Ep : peek (ts ++ 125 :: rest) = Some 34) by (now rewrite Es). rewrite Ep. cbn [N.eqb Pos.eqb].
    pose proof (IHl [] rest f (obj_insert acc k v) (I_nil _)) as E. cbn [app] in E. rewrite E.
    + reflexivity.
    + apply NR, NR, NR, NS, NR in Nn. exact Nn.
    + lens.
    + intros X. destruct (U X) as [D1 D2]. cbn [map fst] in D1. inversion D1 as [|? ? D3 D4]; subst. split; auto. intros k' Hk'.
      rewrite obj_insert_keys in Hk' by auto. intros Y. destruct (has_key k acc); [apply (D2 k' Hk'); cbn; auto|].
      apply in_app_or in Hk'. destruct Hk' as [Hk'|[<-|[]]]; [apply (D2 k' Hk'); cbn; auto|auto].
Qed.
End Tree.

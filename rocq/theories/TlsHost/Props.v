(** The property C61: host name validation, tls/m_tls_hostvalidate.c. *)
From Coq Require Import String Ascii.
From Verif Require Import Base.Lib Base.Mem Str.Model Str.Spec StrEq.Model StrEq.Spec StrEq.Proofs.
From Verif Require Import TlsHost.Model TlsHost.Spec TlsHost.Proofs.
Local Open Scope N_scope.

(** Text of the examples. *)
Definition b (s : string) : list N := map N_of_ascii (list_ascii_of_string s).
Definition no_ip : list N -> option (list N) := fun _ => None.

(** A certificate is accepted exactly if one of its names admits the host; a
    name with a NUL inside never does.  Partial: the subject alternative DNS
    names have at most 255 bytes, see [tls_host_long_name_refuted], and what the
    flags MULTILEVEL_WILDCARD and FUZZY_BASE_DOMAIN admit ([accepts]) is not
    what they promise, see [tls_host_multilevel_refuted] and
    [tls_host_fuzzy_ip_refuted]. *)
Theorem tls_verify_host_partial : forall bin_to_ip host z flags g sans cns,
  (forall b ip, bin_to_ip b = Some ip -> no_nul ip /\ is_bytes ip /\ (0 < length ip < 64)%nat) ->
  host <> [] -> no_nul host -> is_bytes host -> N.of_nat (length host) < size_max ->
  (forall l, In (GDns (Some l)) sans -> is_bytes l /\ (length l <= 255)%nat) ->
  (forall l, In (Some l) cns -> is_bytes l /\ N.of_nat (length l) < size_max) ->
  (has flags F_FUZZY = true -> length host <= 255 /\ forall l, In (Some l) cns -> length l <= 255)%nat ->
  exists r, verify_host bin_to_ip sans cns (host ++ 0 :: z) flags g = Ok r /\
    (r = true <-> exists name, cert_name bin_to_ip sans cns flags name /\ accepts flags host name).
Proof.
  intros bin_to_ip host z flags g sans cns Hip Hh H1 H2 H3 Hs Hc HF. apply verify_ok; auto; [now repeat split|intros X; apply (proj1 (HF X))| |].
  - apply Forall_forall. intros [[l|]|bin|] I; cbn; auto.
  - apply Forall_forall. intros [l|] I; cbn; auto. destruct (Hc l I). repeat split; auto. intros X. apply (proj2 (HF X)); auto.
Qed.
Print Assumptions tls_verify_host_partial.

(** The default flags: a name admits the host if it is the same up to case, or
    if it is a wildcard whose remainder is the host without its first label. *)
Theorem tls_verify_host_normal_partial : forall bin_to_ip host z g sans cns,
  (forall b ip, bin_to_ip b = Some ip -> no_nul ip /\ is_bytes ip /\ (0 < length ip < 64)%nat) ->
  host <> [] -> no_nul host -> is_bytes host -> N.of_nat (length host) < size_max ->
  (forall l, In (GDns (Some l)) sans -> is_bytes l /\ (length l <= 255)%nat) ->
  (forall l, In (Some l) cns -> is_bytes l /\ N.of_nat (length l) < size_max) ->
  exists r, verify_host bin_to_ip sans cns (host ++ 0 :: z) F_NORMAL g = Ok r /\
    (r = true <-> exists name,
      ((In (GDns (Some name)) sans /\ no_nul name) \/ (exists bin, In (GIp bin) sans /\ bin_to_ip bin = Some name) \/
       (In (Some name) cns /\ no_nul name)) /\
      (nocase host name \/ wild host name)).
Proof.
  intros bin_to_ip host z g sans cns Hip Hh H1 H2 H3 Hs Hc.
  destruct (tls_verify_host_partial bin_to_ip host z F_NORMAL g sans cns) as (r & E & X); auto; [intros Y; discriminate Y|].
  exists r. split; auto. rewrite X. split.
  - intros (n & C & _ & [A|[[_ A]|[Y _]]]); [| |discriminate Y]; exists n; (split; [inversion C; subst; eauto|]); auto.
  - intros (n & C & A). exists n. split.
    + destruct C as [[I N1]|[(bin & I & B)|[I N1]]]; [apply cn_dns|apply (cn_ip _ _ _ _ bin)|apply cn_cn]; auto; reflexivity.
    + split.
      * destruct A as [A|(l & r0 & r' & -> & _)]; [|discriminate]. intros ->. inversion A; subst. congruence.
      * destruct A as [A|A]; [now left|]. right. left. split; [reflexivity|exact A].
Qed.
Print Assumptions tls_verify_host_normal_partial.

(** The wildcard of the default flags stands for one label: host and remainder
    have the same number of dots, so "*.google.com" does not admit
    "foo.bar.google.com". *)
Theorem tls_wild_one_level : forall host name, wild host name -> count_occ N.eq_dec host dot = count_occ N.eq_dec name dot.
Proof.
  intros host name (l & r & r' & -> & -> & Hl & C).
  assert (E : forall a b, nocase a b -> count_occ N.eq_dec a dot = count_occ N.eq_dec b dot).
  { unfold nocase. induction 1 as [|x y a b0 H F IH]; auto. cbn [count_occ].
    destruct (N.eq_dec x dot) as [->|Hx], (N.eq_dec y dot) as [->|Hy]; auto; exfalso.
    - apply Hy, low_dot. now rewrite <- H. - apply Hx, low_dot. now rewrite H. }
  rewrite count_occ_app. cbn [wildcard app count_occ]. rewrite (E r' r C).
  rewrite (proj1 (count_occ_not_In N.eq_dec l dot) Hl).
  destruct (N.eq_dec dot dot); [|congruence]. destruct (N.eq_dec 42 dot); [discriminate|]. destruct (N.eq_dec 46 dot); [reflexivity|unfold dot in *; congruence].
Qed.
Print Assumptions tls_wild_one_level.

(** MULTILEVEL_WILDCARD: the labels are compared counted from the left.  The
    certificate name "*.example.com" is accepted for a host of a stranger's
    domain and refused for a deeper host of its own. *)
Theorem tls_host_multilevel_refuted : exists cn good evil,
  wild_multi good cn /\ verify_host no_ip [] [Some cn] (good ++ [0]) (N.lor F_NORMAL F_MULTI) 0 = Ok false /\
  ~ wild_multi evil cn /\ verify_host no_ip [] [Some cn] (evil ++ [0]) (N.lor F_NORMAL F_MULTI) 0 = Ok true.
Proof.
  exists (b "*.example.com"), (b "foo.bar.example.com"), (b "foo.example.com.attacker.org"). split; [|split; [|split]].
  - exists (b "foo.bar"), (b "example.com"), (b "example.com"). split; [reflexivity|]. split; [reflexivity|]. apply nocase_map. reflexivity.
  - vm_compute. reflexivity.
  - intros (l & r & r' & E & E' & C). change (b "*.example.com") with (wildcard ++ b "example.com") in E. apply app_inv_head in E. subst r.
    apply (f_equal (map low)) in E'. rewrite map_app in E'. cbn [map] in E'. apply nocase_map in C. rewrite C in E'.
    apply (f_equal (@rev N)) in E'. rewrite rev_app_distr in E'. cbn in E'. discriminate E'.
  - vm_compute. reflexivity.
Qed.
Print Assumptions tls_host_multilevel_refuted.

(** FUZZY_BASE_DOMAIN compares the last two or three labels, also of IP
    addresses: a certificate for 192.168.0.1 is accepted for 10.9.0.1. *)
Theorem tls_host_fuzzy_ip_refuted : exists host cn, ~ nocase host cn /\
  verify_host no_ip [] [Some cn] (host ++ [0]) (N.lor F_NORMAL F_FUZZY) 0 = Ok true /\
  host = b "10.9.0.1" /\ cn = b "192.168.0.1".
Proof.
  exists (b "10.9.0.1"), (b "192.168.0.1"). split; [|split; [vm_compute; reflexivity|split; reflexivity]].
  intros X. apply nocase_map in X. discriminate X.
Qed.
Print Assumptions tls_host_fuzzy_ip_refuted.

(** A DNS name of more than 255 bytes is cut to 255 bytes before the
    comparison: the certificate name (a 255 byte host name followed by
    ".attacker.org") is accepted for that host. *)
Theorem tls_host_long_name_refuted : exists host san, no_nul san /\ ~ nocase host san /\ ~ wild host san /\
  verify_host no_ip [GDns (Some san)] [] (host ++ [0]) F_NORMAL 0 = Ok true.
Proof.
  set (h := repeat 97 251 ++ b ".com"). exists h, (h ++ b ".attacker.org"). split.
  { unfold h, no_nul. apply Forall_app. split; [apply Forall_app; split|].
    - apply Forall_forall. intros x Hx. apply repeat_spec in Hx. subst. discriminate.
    - repeat constructor; discriminate. - repeat constructor; discriminate. }
  split.
  { intros X. unfold nocase in X. apply Forall2_length in X. rewrite app_length in X. cbn in X. lia. }
  split.
  { intros (l & r & r' & E & _). discriminate E. }
  vm_compute. reflexivity.
Qed.
Print Assumptions tls_host_long_name_refuted.

(** Cases: the host "www.Example.com" against an IP name, a name with a NUL and
    a wildcard; a deeper host; the base domain of fuzzy matching. *)
Example tls_host_case :
  verify_host (fun _ => Some (b "10.0.0.1")) [GIp [10;0;0;1]; GDns (Some (b "www.example.com" ++ 0 :: b ".evil.org")); GDns (Some (b "*.example.COM"))] []
    (b "www.Example.com" ++ [0]) F_NORMAL 7 = Ok true /\
  verify_host (fun _ => Some (b "10.0.0.1")) [GIp [10;0;0;1]; GDns (Some (b "www.example.com" ++ 0 :: b ".evil.org"))] [None; Some (b "other.example.com")]
    (b "www.Example.com" ++ [0]) F_NORMAL 7 = Ok false /\
  verify_host no_ip [GDns (Some (b "*.google.com"))] [] (b "foo.bar.google.com" ++ [0]) F_NORMAL 7 = Ok false /\
  verify_host no_ip [] [Some (b "shop.example.co.uk")] (b "www.example.co.uk" ++ [0]) (N.lor F_NORMAL F_FUZZY) 7 = Ok true /\
  verify_host no_ip [] [Some (b "shop.other.co.uk")] (b "www.example.co.uk" ++ [0]) (N.lor F_NORMAL F_FUZZY) 7 = Ok false.
Proof. repeat split; vm_compute; reflexivity. Qed.

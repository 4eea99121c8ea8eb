(** What a certificate name stands for. *)
From Verif Require Import Base.Lib Base.Mem Str.Spec StrEq.Spec TlsHost.Model.
Local Open Scope N_scope.

Definition dot : N := 46.
(** "*." *)
Definition wildcard : list N := [42; 46].

(** RFC 6125: the wildcard stands for one label. *)
Definition wild (host name : list N) : Prop :=
  exists label rest rest', name = wildcard ++ rest /\ host = label ++ dot :: rest' /\ ~ In dot label /\ nocase rest' rest.

(** What the flag MULTILEVEL_WILDCARD is meant for: the wildcard stands for
    one or more labels. *)
Definition wild_multi (host name : list N) : Prop :=
  exists labels rest rest', name = wildcard ++ rest /\ host = labels ++ dot :: rest' /\ nocase rest' rest.

(** What it does: one label for the wildcard, and whole labels may follow. *)
Definition wild_prefix (host name : list N) : Prop :=
  exists label rest rest' tail, name = wildcard ++ rest /\ host = label ++ dot :: rest' ++ tail /\ ~ In dot label /\
    (tail = [] \/ exists t, tail = dot :: t) /\ nocase rest' rest.

(** The labels of a name. *)
Definition labels (s : list N) (ls : list (list N)) : Prop :=
  ls <> [] /\ Forall (fun l => ~ In dot l) ls /\ join dot ls = s.

(** The base domain: the last two labels, three below a two-letter domain. *)
Definition base_domain (s b : list N) : Prop :=
  exists pre ls, labels s (pre ++ ls) /\ b = join dot ls /\ ls <> [] /\
    let want := if (length (last ls []) =? 2)%nat then 3%nat else 2%nat in
    length ls = want \/ (pre = [] /\ (length ls < want)%nat).

(** The names of a certificate that are looked at. *)
Inductive cert_name (bin_to_ip : list N -> option (list N)) (sans : list gname) (cns : list (option (list N))) (flags : N) : list N -> Prop :=
| cn_dns l : has flags F_SAN = true -> In (GDns (Some l)) sans -> no_nul l -> cert_name bin_to_ip sans cns flags l
| cn_ip bin ip : has flags F_SAN = true -> In (GIp bin) sans -> bin_to_ip bin = Some ip -> cert_name bin_to_ip sans cns flags ip
| cn_cn l : has flags F_CN = true -> In (Some l) cns -> no_nul l -> cert_name bin_to_ip sans cns flags l.

(** When the name [name] of a certificate admits the host. *)
Definition accepts (flags : N) (host name : list N) : Prop :=
  name <> [] /\
  (nocase host name \/
   (has flags F_WILD = true /\ if has flags F_MULTI then wild_prefix host name else wild host name) \/
   (has flags F_FUZZY = true /\
     (nocase host localhost \/ exists b b', base_domain host b /\ base_domain name b' /\ nocase b b'))).

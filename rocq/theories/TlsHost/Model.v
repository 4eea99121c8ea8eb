(** Model of the host name check of TLS certificates, tls/m_tls_hostvalidate.c.

    OpenSSL is outside: a certificate is the list of its subject alternative
    names (of all such extensions, in order) and the list of its common names.
    A DNS or common name is what ASN1_STRING_to_UTF8 gives: [None] on failure,
    otherwise the bytes, which may contain NUL; OpenSSL puts a NUL behind them.
    M_io_net_bin_to_ipaddr is the parameter [bin_to_ip].  Not modelled: freeing
    (a common name skipped at line 249 is leaked). *)
From Verif Require Import Base.Lib Base.Mem Str.Model StrEq.Model.
Local Open Scope N_scope.

Inductive gname : Type :=
| GDns (utf8 : option (list N))
| GIp (bin : list N)
| GOther.

(** tls/m_tls_hostvalidate.h:27-35 *)
Definition F_CN : N := 1.
Definition F_SAN : N := 2.
Definition F_WILD : N := 4.
Definition F_MULTI : N := 8.
Definition F_FUZZY : N := 16.
Definition F_NORMAL : N := N.lor F_CN (N.lor F_SAN F_WILD).
Definition has (flags f : N) : bool := negb (N.land flags f =? 0).

Definition is_empty (s : list N) : res bool := do c <- rd s 0; Ok (c =? 0).
Definition caseeq (a b : list N) : res bool := do '(r, _) <- str_caseeq (Some a) (Some b); Ok r.

(** M_str_explode_str, base/data/m_str.c:881-884 *)
Definition explode_str (s : list N) : res (option (list N * list nat)) :=
  do n <- strlen s;
  do r <- explode 46 s n 0;
  Ok (match r with Some (blk, outs, _) => Some (blk, outs) | None => None end).

(** The string at a piece pointer. *)
Definition piece (blk : list N) (o : nat) : res (list N) :=
  do n <- strlen (skipn o blk);
  rdn blk o n.
Fixpoint pieces (blk : list N) (outs : list nat) : res (list (list N)) :=
  match outs with
  | [] => Ok []
  | o :: outs' => do p <- piece blk o; do ps <- pieces blk outs'; Ok (p :: ps)
  end.

(** M_tls_verify_host_extract_base_domain, lines 50-90.  [num] is 0 when the
    explosion fails.  M_str_implode is modelled in Str with the strings'
    contents as argument.  Result: the return value and the buffer. *)
Definition extract_base_domain (hostname buf : list N) (buf_len : nat) : res (bool * list N) :=
  do e <- explode_str hostname;
  let '(blk, outs) := match e with Some x => x | None => ([], []) end in
  let num := length outs in
  do last2 <- (if (num =? 0)%nat then Ok false
               else do o <- rd outs (num - 1); do n <- strlen (skipn o blk); Ok (n =? 2)%nat);
  let domain_sects := if last2 then 3%nat else 2%nat in
  if (num <=? domain_sects)%nat then
    do '(_, buf) <- str_cpy_max buf buf_len hostname None;
    Ok (true, buf)
  else
  do ps <- pieces blk (skipn (num - domain_sects) outs);
  match implode 46 0 0 false (firstn domain_sects ps) with
  | None | Some [] =>
    do '(_, buf) <- str_cpy_max buf buf_len hostname None;
    Ok (false, buf)
  | Some out =>
    do '(_, buf) <- str_cpy_max buf buf_len (out ++ [0]) None;
    Ok (true, buf)
  end.

(** Lines 127-130: [i] counts down to 1. *)
Fixpoint wild_loop (nblk : list N) (nouts : list nat) (hblk : list N) (houts : list nat) (i : nat) : res bool :=
  match i with
  | O => Ok true
  | S i' =>
    do n <- rd nouts i;
    do h <- rd houts i;
    do b <- caseeq (skipn n nblk) (skipn h hblk);
    if b then wild_loop nblk nouts hblk houts i' else Ok false
  end.

(** M_tls_verify_host_match_wildcard, lines 93-138 *)
Definition match_wildcard (hostname name : list N) (multi : bool) : res bool :=
  do e1 <- is_empty hostname;
  do e2 <- is_empty name;
  if e1 || e2 then Ok false
  else
  do '(star, _) <- str_eq_max (Some name) (Some [42; 46; 0]) 2;
  if negb star then Ok false
  else
  do hp <- explode_str hostname;
  do np <- explode_str name;
  match hp, np with
  | Some (hblk, houts), Some (nblk, nouts) =>
    let hn := length houts in
    let nn := length nouts in
    if (hn =? 0)%nat || (nn =? 0)%nat then Ok false
    else if negb multi && negb (hn =? nn)%nat then Ok false
    else if (hn <? nn)%nat then Ok false
    else wild_loop nblk nouts hblk houts (nn - 1)
  | _, _ => Ok false
  end.

(** "localhost" *)
Definition localhost : list N := [108; 111; 99; 97; 108; 104; 111; 115; 116].

(** M_tls_verify_host_match, lines 141-175; [g] is the content of the
    uninitialised stack buffers. *)
Definition host_match (hostname name : list N) (flags g : N) : res bool :=
  do e1 <- is_empty hostname;
  do e2 <- is_empty name;
  if e1 || e2 then Ok false
  else if flags =? 0 then Ok true
  else
  do b <- caseeq hostname name;
  if b then Ok true
  else
  do b <- (if has flags F_WILD then match_wildcard hostname name (has flags F_MULTI) else Ok false);
  if b then Ok true
  else if negb (has flags F_FUZZY) then Ok false
  else
  do b <- caseeq hostname (localhost ++ [0]);
  if b then Ok true
  else
  do '(b, host_base) <- extract_base_domain hostname (repeat g 256) 256;
  if negb b then Ok false
  else
  do '(b, name_base) <- extract_base_domain name (repeat g 256) 256;
  if negb b then Ok false
  else caseeq host_base name_base.

Section San.
Variable bin_to_ip : list N -> option (list N).

(** M_tls_verify_host_subjaltname, lines 178-229.  [dnsname] is the stack
    buffer (its content is left from the name before, [g] at first). *)
Fixpoint subjaltname (sans : list gname) (hostname : list N) (flags g : N) : res bool :=
  match sans with
  | [] => Ok false
  | GOther :: sans' => subjaltname sans' hostname flags g
  | GDns None :: sans' => subjaltname sans' hostname flags g
  | GDns (Some l) :: sans' =>
    do n <- strlen_max (l ++ [0]) (length l);
    if (length l =? 0)%nat || negb (n =? length l)%nat then subjaltname sans' hostname flags g
    else
    do '(_, dnsname) <- str_cpy_max (repeat g 256) 256 (l ++ [0]) (Some (length l));
    do b <- host_match hostname dnsname flags g;
    if b then Ok true else subjaltname sans' hostname flags g
  | GIp bin :: sans' =>
    match bin_to_ip bin with
    | None => subjaltname sans' hostname flags g
    | Some ip =>
      do '(_, dnsname) <- str_cpy_max (repeat g 256) 256 (ip ++ [0]) None;
      do b <- host_match hostname dnsname flags g;
      if b then Ok true else subjaltname sans' hostname flags g
    end
  end.

(** M_tls_verify_host_commonname, lines 232-262 *)
Fixpoint commonname (cns : list (option (list N))) (hostname : list N) (flags g : N) : res bool :=
  match cns with
  | [] => Ok false
  | None :: cns' => commonname cns' hostname flags g
  | Some l :: cns' =>
    do n <- strlen (l ++ [0]);
    if (length l =? 0)%nat || negb (n =? length l)%nat then commonname cns' hostname flags g
    else
    do b <- host_match hostname (l ++ [0]) flags g;
    if b then Ok true else commonname cns' hostname flags g
  end.

(** M_tls_verify_host, lines 265-279 *)
Definition verify_host (sans : list gname) (cns : list (option (list N))) (hostname : list N) (flags g : N) : res bool :=
  do e <- is_empty hostname;
  if e then Ok false
  else
  do b <- (if has flags F_SAN then subjaltname sans hostname flags g else Ok false);
  if b then Ok true
  else if has flags F_CN then commonname cns hostname flags g else Ok false.
End San.

(** The headers of the PROXY protocol (the text of versions 1 and 2 as HAProxy publishes it), as
    bytes on the wire, and what an accepted header tells the application. *)
From Verif Require Import Base.Lib Proxy.Model.
From Verif Require StrNum.Spec.
Local Open Scope N_scope.

(** [t] spells the port number [p] in decimal *)
Definition port_text (p : N) (t : list N) : Prop :=
  exists ds, t <> [] /\ StrNum.Spec.spells 10 t ds /\ StrNum.Spec.value 10 ds = p.
Definition port (p : N) : Prop := 1 <= p <= 65535.

(** PROXY TCP4 <src> <dst> <sport> <dport> CR LF *)
Definition wire_v1 (six : bool) (sa da sp dp : list N) : list N :=
  [80; 82; 79; 88; 89; 32] ++ [84; 67; 80; if six then 54 else 52; 32] ++ sa ++ [32] ++ da ++ [32] ++ sp ++ [32] ++ dp ++ [13; 10].
(** PROXY UNKNOWN CR LF *)
Definition wire_v1_local : list N := [80; 82; 79; 88; 89; 32; 85; 78; 75; 78; 79; 87; 78; 13; 10].

(** Signature, version 2 with command PROXY, family and protocol, length, addresses, ports, extensions *)
Definition v2_signature : list N := [13; 10; 13; 10; 0; 13; 10; 81; 85; 73; 84; 10].
Definition wire_v2 (six : bool) (x y : list N) (sp dp : N) (tlv : list N) : list N :=
  let n := N.of_nat (length x + length y + 4 + length tlv) in
  v2_signature ++ [33; if six then 33 else 17; n / 256; n mod 256] ++ x ++ y ++ [sp / 256; sp mod 256; dp / 256; dp mod 256] ++ tlv.
(** LOCAL, unspecified, nothing more *)
Definition wire_v2_local : list N := v2_signature ++ [32; 0; 0; 0].

Definition net_of (six : bool) : net := if six then N6 else N4.
Definition addr_len (six : bool) : nat := if six then 16%nat else 4%nat.

(** What M_io_proxy_protocol_relayed, _proxied_type, _source_ipaddr, _dest_ipaddr, _source_port and _dest_port say *)
Definition tells (h : hd) (relayed : bool) (n : net) (sa da : option (list N)) (sp dp : N) : Prop :=
  local h = negb relayed /\ ntype h = n /\ src h = sa /\ dst h = da /\ sport h = sp /\ dport h = dp.

(** A text without space and NUL, as an address is *)
Definition plain (t : list N) : Prop := t <> [] /\ Forall (fun c => c <> 32 /\ c <> 0) t.

(** The layer after bytes that came in the pieces [cs] *)
Section Arrive.
Variable pton ntop : list N -> option (list N).
Definition arrive (f1 f2 : bool) (cs : list (list N)) : conn :=
  fold_left (feed pton ntop) cs (Connecting Ver (new_handle f1 f2) []).
End Arrive.

(** A version 2 header whose family is unspecified and which has bytes after the length *)
Definition v2_unspec_data (w : list N) : Prop :=
  exists vc l1 l2 r, w = v2_signature ++ vc :: 0 :: l1 :: l2 :: r /\ l1 * 256 + l2 <> 0.

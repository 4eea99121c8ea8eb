(** The PROXY protocol layer of io/m_io_proxy_protocol.c: a connection is preceded by a header
    that names the endpoints it was accepted from.  Inbound, a state machine takes the header off
    the bytes as they arrive; outbound, the header is written before anything else.

    Simplifications: the parser (M_parser_t) is the list of the bytes not yet consumed (module
    Parser has the functions themselves); the nested M_state_machine_t of lines 557-585 is [run],
    its states in their order (module StateMachine has the machine itself); timeouts, errors of the layer below and
    the error texts are left out; [pton] and [ntop] stand for M_io_net_ipaddr_to_bin and
    M_io_net_bin_to_ipaddr (io/net/m_io_net.c:1714-1760), which call the C library. *)
From Verif Require Import Base.Lib.
From Verif Require StrNum.Model.
Local Open Scope N_scope.

(** ** Functions of the parser *)

Fixpoint prefixb (p l : list N) : bool :=
  match p, l with
  | [], _ => true
  | _, [] => false
  | a :: p', b :: l' => (a =? b) && prefixb p' l'
  end.

(** M_mem_mem: where [pat] first occurs; base/mem/m_mem.c, module MemFn *)
Fixpoint find (pat l : list N) : option nat :=
  if prefixb pat l then Some 0%nat
  else match l with [] => None | _ :: l' => option_map S (find pat l') end.

(** M_parser_read_str_until with eat_pat off, base/data/m_parser.c: length read, text, what is left.  When [cap]
    bytes do not hold the text and its terminator, the result is 0 although the text was consumed. *)
Definition read_str_until (cap : nat) (pat b : list N) : nat * list N * list N :=
  match find pat b with
  | None => (0%nat, [], b)
  | Some i => if (cap - 1 <? i)%nat then (0%nat, [], skipn i b) else (i, firstn i b, skipn i b)
  end.

(** M_parser_consume: all of [n] bytes or none *)
Definition consume (n : nat) (b : list N) : list N := if (length b <? n)%nat then b else skipn n b.

(** The C string in a buffer that holds [t] and a terminator *)
Fixpoint cstr (t : list N) : list N :=
  match t with [] => [] | c :: t' => if c =? 0 then [] else c :: cstr t' end.

Definition eqb_list (a b : list N) : bool := if list_eq_dec N.eq_dec a b then true else false.
Definition lower (c : N) : N := if (65 <=? c) && (c <=? 90) then c + 32 else c.
(** M_str_caseeq *)
Definition caseeq (a b : list N) : bool := eqb_list (map lower a) (map lower b).

(** M_str_to_uint32, base/data/m_str_num.c:371-378 *)
Definition str_to_uint32 (t : list N) : res N :=
  do '(rv, v, _) <- StrNum.Model.to_uint32_ex (t ++ [0]) (length t) 10 0;
  Ok match rv with StrNum.Model.IInvalid => 0 | _ => v end.

(** ** The handle: lines 33-56 *)
Inductive net := NAny | N4 | N6.
Record hd := Hd {
  v1f : bool; v2f : bool;                (* flags *)
  local : bool;
  src : option (list N); dst : option (list N); sport : N; dport : N; ntype : net;
  dlen : nat                             (* v2_dlen *)
}.
Definition set_local h l := Hd (v1f h) (v2f h) l (src h) (dst h) (sport h) (dport h) (ntype h) (dlen h).
Definition set_src h a := Hd (v1f h) (v2f h) (local h) (Some a) (dst h) (sport h) (dport h) (ntype h) (dlen h).
Definition set_dst h a := Hd (v1f h) (v2f h) (local h) (src h) (Some a) (sport h) (dport h) (ntype h) (dlen h).
Definition set_sport h p := Hd (v1f h) (v2f h) (local h) (src h) (dst h) p (dport h) (ntype h) (dlen h).
Definition set_dport h p := Hd (v1f h) (v2f h) (local h) (src h) (dst h) (sport h) p (ntype h) (dlen h).
Definition set_net h n := Hd (v1f h) (v2f h) (local h) (src h) (dst h) (sport h) (dport h) n (dlen h).
Definition set_dlen h n := Hd (v1f h) (v2f h) (local h) (src h) (dst h) (sport h) (dport h) (ntype h) n.

(** M_io_proxy_protocol_inbound_add 1004-1011, M_io_proxy_protocol_outbound_add 1040-1045 *)
Definition new_handle (f1 f2 : bool) : hd := Hd f1 f2 true None None 0 0 NAny 0.
(** M_io_proxy_protocol_reset_cb 930-957: [local] stays *)
Definition reset (h : hd) : hd := Hd (v1f h) (v2f h) (local h) None None 0 0 NAny 0.

(** ** States: lines 58-78 *)
Inductive pc := Ver | V1Header | V1Proto | V1Src | V1Dst | V1Sport | V1Dport | V2Header | V2Addr | V2Tlv.
(** What a state function does: M_STATE_MACHINE_STATUS_WAIT, _NEXT (and to which state), _DONE, _ERROR_STATE *)
Inductive out := OWait | ONext (p : pc) (h : hd) (b : list N) | ODone (h : hd) (b : list N) | OErr | OUB.

(** lines 81-84 *)
Definition ident_v1 : list N := [80; 82; 79; 88; 89].
Definition ident_v2 : list N := [13; 10; 13; 10; 0; 13; 10; 81; 85; 73; 84; 10].

Section Addresses.
Variable pton : list N -> option (list N).
Variable ntop : list N -> option (list N).

(** state_determine_version 114-141 *)
Definition st_version (h : hd) (b : list N) : out :=
  if (length b <? 12)%nat then OWait
  else if prefixb ident_v1 b then (if v2f h && negb (v1f h) then OErr else ONext V1Header h b)
  else if prefixb ident_v2 b then (if v1f h && negb (v2f h) then OErr else ONext V2Header h b)
  else OErr.

(** state_v1_header 154-172: M_parser_consume_until gives the bytes consumed with the space, 0 if there is none *)
Definition st_v1_header (h : hd) (b : list N) : out :=
  if (length b <? 6)%nat then OWait
  else match find [32] b with
       | None => OErr
       | Some i => if (S i =? 6)%nat then ONext V1Proto h (skipn (S i) b) else OErr
       end.

(** "UNKNOWN" CR LF, "TCP4", "TCP6" *)
Definition txt_unknown : list N := [85; 78; 75; 78; 79; 87; 78; 13; 10].
Definition txt_tcp4 : list N := [84; 67; 80; 52].
Definition txt_tcp6 : list N := [84; 67; 80; 54].

(** state_v1_protocol 174-212 *)
Definition st_v1_protocol (h : hd) (b : list N) : out :=
  if (length b <? 9)%nat then OWait
  else if prefixb txt_unknown b then ODone (set_local h true) (consume 9 b)
  else
  let h := set_local h false in
  let '(len, t, b') := read_str_until 16 [32] b in
  if (len =? 0)%nat then OErr
  else if caseeq (cstr t) txt_tcp4 then ONext V1Src (set_net h N4) (consume 1 b')
  else if caseeq (cstr t) txt_tcp6 then ONext V1Src (set_net h N6) (consume 1 b')
  else OErr.

(** state_v1_source_ipaddr 214-250, state_v1_dest_ipaddr 252-288 *)
Definition st_v1_addr (k : list N -> list N -> out) (b : list N) : out :=
  let '(len, t, b') := read_str_until 64 [32] b in
  if (len =? 0)%nat then
    (if (40 <=? length b')%nat || negb (length b' =? length b)%nat then OErr else OWait)
  else match pton (cstr t) with
       | None => OErr
       | Some _ => k (cstr t) (consume 1 b')
       end.
Definition st_v1_src (h : hd) (b : list N) : out := st_v1_addr (fun a b' => ONext V1Dst (set_src h a) b') b.
Definition st_v1_dst (h : hd) (b : list N) : out := st_v1_addr (fun a b' => ONext V1Sport (set_dst h a) b') b.

(** state_v1_source_port 290-325, state_v1_dest_port 327-362 *)
Definition st_v1_port (pat : list N) (k : N -> list N -> out) (b : list N) : out :=
  let '(len, t, b') := read_str_until 8 pat b in
  if (len =? 0)%nat then
    (if (5 <=? length b')%nat || negb (length b' =? length b)%nat then OErr else OWait)
  else match str_to_uint32 (cstr t) with
       | Ok port => if (port mod 65536 =? 0) || (65535 <? port) then OErr else k (port mod 65536) (consume (length pat) b')
       | _ => OUB
       end.
Definition st_v1_sport (h : hd) (b : list N) : out := st_v1_port [32] (fun p b' => ONext V1Dport (set_sport h p) b') b.
Definition st_v1_dport (h : hd) (b : list N) : out := st_v1_port [13; 10] (fun p b' => ODone (set_dport h p) b') b.

(** state_v2_header 365-447 *)
Definition st_v2_header (h : hd) (b : list N) : out :=
  if (length b <? 16)%nat then OWait
  else match skipn 12 b with
       | vc :: fam :: l1 :: l2 :: b' =>
         if negb (vc / 16 =? 2) then OErr
         else if negb ((vc mod 16 =? 0) || (vc mod 16 =? 1)) then OErr
         else
         let h := set_local h (vc mod 16 =? 0) in
         let n := N.to_nat (l1 * 256 + l2) in
         if fam =? 0 then ODone (set_dlen (set_net h NAny) n) (consume n b')
         else if fam =? 17 then (if (n <? 12)%nat then OErr else ONext V2Addr (set_dlen (set_net h N4) n) b')
         else if fam =? 33 then (if (n <? 36)%nat then OErr else ONext V2Addr (set_dlen (set_net h N6) n) b')
         else OErr
       | _ => OUB
       end.

(** state_v2_ipaddr 449-534 *)
Definition st_v2_addr (h : hd) (b : list N) : out :=
  let k := match ntype h with N4 => 4%nat | _ => 16%nat end in
  if (length b <? 2 * k + 4)%nat then OWait
  else match ntop (firstn k b), ntop (firstn k (skipn k b)) with
       | Some a1, Some a2 =>
         match skipn (2 * k) b with
         | p1 :: p2 :: p3 :: p4 :: b' =>
           let sp := p1 * 256 + p2 in
           let dp := p3 * 256 + p4 in
           if sp =? 0 then OErr else if dp =? 0 then OErr
           else ONext V2Tlv (set_dport (set_sport (set_dlen (set_dst (set_src h a1) a2) (dlen h - (2 * k + 4))) sp) dp) b'
         | _ => OUB
         end
       | _, _ => OErr
       end.

(** state_v2_tlv 536-555; as the last state, NEXT ends the machine *)
Definition st_v2_tlv (h : hd) (b : list N) : out :=
  if (dlen h =? 0)%nat then ODone h b
  else if (length b <? dlen h)%nat then OWait
  else ODone (set_dlen h 0) (consume (dlen h) b).

Definition step (p : pc) : hd -> list N -> out :=
  match p with
  | Ver => st_version | V1Header => st_v1_header | V1Proto => st_v1_protocol | V1Src => st_v1_src | V1Dst => st_v1_dst
  | V1Sport => st_v1_sport | V1Dport => st_v1_dport | V2Header => st_v2_header | V2Addr => st_v2_addr | V2Tlv => st_v2_tlv
  end.

(** ** The layer inbound *)
(** The connection as the application sees it: still hidden, up (with the bytes to be read), failed *)
Inductive conn := Connecting (p : pc) (h : hd) (b : list N) | Connected (h : hd) (app : list N) | Failed | Undefined | Stuck.

(** M_state_machine_run on the machine of 557-585: states follow each other until one waits; [fuel] at least the states left *)
Fixpoint run_f (fuel : nat) (p : pc) (h : hd) (b : list N) : conn :=
  match fuel with
  | O => Stuck
  | S fuel' =>
    match step p h b with
    | OWait => Connecting p h b
    | ONext p' h' b' => run_f fuel' p' h' b'
    | ODone h' b' => Connected h' b'
    | OErr => Failed
    | OUB => Undefined
    end
  end.
Definition run : pc -> hd -> list N -> conn := run_f 8.

(** A READ event with [c] to read below: M_io_proxy_protocol_process_inbound 662-716 until the header is complete.
    After that process_cb 884-885 stays out of the way, and read_cb 613-660 gives what is left in the
    parser and then what the layer below has. *)
Definition feed (s : conn) (c : list N) : conn :=
  match s with
  | Connecting p h b => run p h (b ++ c)
  | Connected h a => Connected h (a ++ c)
  | _ => s
  end.

(** ** The layer outbound *)
(** M_io_proxy_protocol_set_source_endpoints 1184-1256; an empty address is NULL or an empty text *)
Definition set_source_endpoints (h : hd) (sa da : list N) (sp dp : N) : bool * hd :=
  match sa, da with
  | [], [] => (true, Hd (v1f h) (v2f h) true None None 0 0 NAny (dlen h))
  | [], _ => (false, h)
  | _, [] => (false, h)
  | _, _ =>
    if (sp =? 0) || (dp =? 0) then (false, h)
    else match pton sa, pton da with
         | Some x, Some y =>
           let n := if (length x =? 4)%nat then N4 else N6 in
           if match n with N4 => (length y =? 4)%nat | _ => (length y =? 16)%nat end
           then (true, Hd (v1f h) (v2f h) false (Some sa) (Some da) sp dp n (dlen h))
           else (false, h)
         | _, _ => (false, h)
         end
  end.

(** M_buf_add_uint (base/data/m_buf.c:544-553) prints with %llu (module Fmt) *)
Fixpoint dec_loop (fuel : nat) (n : N) (acc : list N) : list N :=
  match fuel with
  | O => acc
  | S f => let acc' := (48 + n mod 10) :: acc in if n / 10 =? 0 then acc' else dec_loop f (n / 10) acc'
  end.
Definition dec_text (n : N) : list N := dec_loop 20 n [].

Definition otext (a : option (list N)) : list N := match a with Some t => t | None => [] end.

(** M_io_proxy_protocol_build_proxy_message_v1 752-787 *)
Definition build_v1 (h : hd) : list N :=
  ident_v1 ++ [32] ++
  (if local h then txt_unknown
   else (match ntype h with N4 => txt_tcp4 | _ => txt_tcp6 end) ++ [32] ++ otext (src h) ++ [32] ++ otext (dst h) ++ [32] ++
        dec_text (sport h) ++ [32] ++ dec_text (dport h) ++ [13; 10]).

Definition be16 (n : N) : list N := [n / 256 mod 256; n mod 256].
Definition obin (a : option (list N)) : list N := match pton (otext a) with Some x => x | None => [] end.

(** M_io_proxy_protocol_build_proxy_message_v2 789-848 *)
Definition build_v2 (h : hd) : list N :=
  ident_v2 ++ [if local h then 32 else 33] ++
  [if local h then 0 else match ntype h with N4 => 17 | _ => 33 end] ++
  be16 (if local h then 0 else match ntype h with N4 => 12 | _ => 36 end) ++
  (if local h then [] else obin (src h) ++ obin (dst h) ++ be16 (sport h) ++ be16 (dport h)).

(** M_io_proxy_protocol_build_proxy_message 850-859 *)
Definition build (h : hd) : list N := if v2f h || negb (v1f h || v2f h) then build_v2 h else build_v1 h.

End Addresses.

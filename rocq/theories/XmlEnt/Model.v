(** Model of formats/xml/m_xml_entities.c.  The string is the memory from [str] on; a
    read outside is UB.  A result is the content of the returned block without the
    terminator. *)
From Verif Require Import Base.Lib Base.Mem StrEq.Model.
Local Open Scope N_scope.

(** M_xml_entity_t, lines 31-35; [encoded_len] is the length of [encoded], which is
    without its terminator here.  The end mark is the end of the list. *)
Definition entity := (N * list N)%type.
Definition quot : entity := (34, [38; 113; 117; 111; 116; 59]).
Definition apos : entity := (39, [38; 97; 112; 111; 115; 59]).
Definition amp : entity := (38, [38; 97; 109; 112; 59]).
Definition gt : entity := (62, [38; 103; 116; 59]).
Definition lt : entity := (60, [38; 108; 116; 59]).
Definition nl : entity := (10, [38; 35; 120; 65; 59]).
Definition cr : entity := (13, [38; 35; 120; 68; 59]).
(** Lines 37-60 *)
Definition encode_entities : list entity := [quot; apos; amp; gt; lt].
Definition decode_entities : list entity := [quot; apos; amp; gt; lt; nl; cr].
Definition attribute_entities : list entity := [quot; amp; lt].

(** M_xml_entities_encode_int, lines 64-110.  [n] is what remains of [len], [prev] is
    [None] while is_first holds.  An empty result is replaced by the empty string (lines
    106-107), which is the same here. *)
Fixpoint encode_loop (ents : list entity) (n : nat) (str : list N) (i : nat) (prev : option nat) (buf : list N) : res (list N) :=
  let flush := match prev with None => Ok buf | Some p => do b <- rdn str p (i - p); Ok (buf ++ b) end in
  match n with
  | O => flush
  | S n' =>
    do c <- rd str i;
    match find (fun e => c =? fst e) ents with
    | Some e => do buf <- flush; encode_loop ents n' str (S i) None (buf ++ snd e)
    | None => encode_loop ents n' str (S i) (match prev with None => Some i | p => p end) buf
    end
  end.
Definition encode_int (ents : list entity) (str : list N) (len : nat) : res (list N) := encode_loop ents len str 0 None [].

(** Lines 122-126: the entity that [p] starts with. *)
Fixpoint find_entity (ents : list entity) (p : list N) : res (option entity) :=
  match ents with
  | [] => Ok None
  | e :: ents' =>
    do '(b, _) <- str_caseeq_max (Some p) (Some (snd e ++ [0])) (N.of_nat (length (snd e)));
    if b then Ok (Some e) else find_entity ents' p
  end.

(** M_xml_entities_decode_int, lines 112-140; [n] bounds the turns, [ret] has been
    allocated with [len] + 1 bytes of any content.  [cnt] is an int. *)
Definition int_max : N := 2147483647.
Definition put (ret : list N) (cnt c : N) : res (list N) :=
  if cnt =? int_max then UB else wr ret (N.to_nat cnt) c.
Fixpoint decode_loop (ents : list entity) (n : nat) (str : list N) (len i : nat) (ret : list N) (cnt : N) : res (list N * N) :=
  match n with
  | O => Fuel
  | S n' =>
    if (i <? len)%nat then
      do c <- rd str i;
      do e <- (if c =? 38 then find_entity ents (skipn i str) else Ok None);
      match e with
      | Some e => do ret <- put ret cnt (fst e); decode_loop ents n' str len (i + length (snd e)) ret (cnt + 1)
      | None => do ret <- put ret cnt c; decode_loop ents n' str len (S i) ret (cnt + 1)
      end
    else Ok (ret, cnt)
  end.
Definition decode_int (ents : list entity) (str : list N) (len : nat) (g : N) : res (list N) :=
  do '(ret, cnt) <- decode_loop ents (S len) str len 0 (repeat g (S len)) 0;
  do ret <- wr ret (N.to_nat cnt) 0;
  Ok (firstn (N.to_nat cnt) ret).

(** Lines 145-163 *)
Definition xml_entities_encode := encode_int encode_entities.
Definition xml_entities_decode := decode_int decode_entities.
Definition xml_attribute_encode := encode_int attribute_entities.
Definition xml_attribute_decode := decode_int attribute_entities.

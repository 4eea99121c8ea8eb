(** Model of M_str_explode_quoted (base/data/m_str.c) and of the serialisation of
    dictionaries in base/hash/m_hash_dict.c.

    [char] is signed, see [ceq] in Str/Model.v.  A dictionary is the list of its entries
    in the order of M_hash_dict_enumerate (all values of a key of a multi-value dictionary
    are entries); a value may be NULL.  The result of reading is the list of insertions.
    M_buf is the list of bytes appended. *)
From Verif Require Import Base.Lib Base.Mem Str.Model.
Local Open Scope N_scope.

(** ** M_str_explode_quoted, base/data/m_str.c:976-1070 *)

Section Explode.
Variables (delim quote escape : N) (max : nat) (s_len : nat).

(** The loop of lines 1002-1023 ([fill] false) and, with the same text, of lines
    1038-1062 ([fill] true), which also cuts the copy and stores the pieces.  [out] is the
    malloc'ed array, [None] an uninitialised pointer. *)
Fixpoint xq_loop (fill : bool) (fuel i : nat) (dup : list N) (on : bool) (num beg : nat) (out : list (option nat))
  : res (list N * nat * nat * list (option nat)) :=
  match fuel with
  | O => Fuel
  | S f =>
    if (i <? s_len)%nat then
      do c <- rd dup i;
      do nx <- rd dup (i + 1);
      do pv <- (if (0 <? i)%nat then rd dup (i - 1) else Ok 0);
      let isq := negb (quote =? 0) && ceq c quote in
      if isq && (quote =? escape) && ceq nx quote then xq_loop fill f (i + 2) dup on num beg out
      else if isq && negb (escape =? 0) && negb (quote =? escape) && (0 <? i)%nat && ceq pv escape then xq_loop fill f (i + 1) dup on num beg out
      else
      let on := if isq then negb on else on in
      if ceq c delim && negb on then
        do dup <- (if fill then wr dup i 0 else Ok dup);
        do out <- (if fill then wr out num (Some beg) else Ok out);
        if negb (max =? 0)%nat && (num + 1 =? max - 1)%nat then Ok (dup, (num + 1)%nat, (i + 1)%nat, out)
        else xq_loop fill f (i + 1) dup on (num + 1) (i + 1) out
      else xq_loop fill f (i + 1) dup on num beg out
    else Ok (dup, num, beg, out)
  end.

(** The copy and the array of piece offsets; [None] for NULL. *)
Definition explode_quoted (s : list N) : res (option (list N * list (option nat))) :=
  if (s_len =? 0)%nat then Ok None
  else
  do body <- rdn s 0 s_len;
  let dup := body ++ [0] in
  do '(dup, num, beg, _) <- xq_loop false (s_len + 1) 0 dup false 0 0 [];
  let n := if (beg <=? s_len)%nat then (num + 1)%nat else num in
  do '(dup, num, beg, out) <- xq_loop true (s_len + 1) 0 dup false 0 0 (repeat None n);
  if (beg <=? s_len)%nat then do out <- wr out num (Some beg); Ok (Some (dup, out)) else Ok (Some (dup, out)).
End Explode.

(** The strings in the array as a caller reads them. *)
Definition piece_at (dup : list N) (o : option nat) : res (list N) :=
  match o with
  | None => UB
  | Some b => do n <- strlen (skipn b dup); rdn dup b n
  end.
Fixpoint pieces_at (dup : list N) (l : list (option nat)) : res (list (list N)) :=
  match l with
  | [] => Ok []
  | o :: l' => do x <- piece_at dup o; do xs <- pieces_at dup l'; Ok (x :: xs)
  end.
Definition explode_strs (delim quote escape : N) (max : nat) (s : list N) : res (option (list (list N))) :=
  do r <- explode_quoted delim quote escape max (length s) s;
  match r with
  | None => Ok None
  | Some (dup, out) => do l <- pieces_at dup out; Ok (Some l)
  end.

(** ** Characters, base/data/m_chr.c:51-106 *)
Definition isspace (c : N) : bool := (c =? 32) || ((9 <=? c) && (c <=? 13)).
Definition isprint (c : N) : bool := ((33 <=? c) && (c <? 127)) || ((9 <=? c) && (c <=? 13)) || (c =? 32).
Definition isalnumsp (c : N) : bool :=
  ((97 <=? c) && (c <=? 122)) || ((65 <=? c) && (c <=? 90)) || ((48 <=? c) && (c <=? 57)) || (c =? 32).
(** M_str_trim (property C20): spaces at both ends dropped. *)
Fixpoint ltrim (s : list N) : list N :=
  match s with [] => [] | c :: s' => if isspace c then ltrim s' else s end.
Definition trim (s : list N) : list N := rev (ltrim (rev (ltrim s))).

(** ** M_hash_dict_serialize_buf, base/hash/m_hash_dict.c:284-379 *)
Record sflags := { always_quote : bool; quote_non_ans : bool; hexencode : bool; lf_to_crlf : bool }.
Inductive qtype := QOff | QOn | QEscape.

Section Dict.
Variables (delim kv_delim quote escape : N).
Variable fl : sflags.
(** Line 297 reads val[val_len-1]; for an empty value that is the byte in front of the
    string.  [before] is what is found there, [None] when nothing is. *)
Variable before : option N.

Fixpoint quotetype_loop (val : list N) (qt : qtype) : qtype :=
  match val with
  | [] => qt
  | c :: val' =>
    let qt := match qt with
              | QOff => if (quote_non_ans fl && negb (isalnumsp c)) || ((c =? delim) || (c =? kv_delim)) then QOn else QOff
              | _ => qt
              end in
    if (c =? quote) || (c =? escape) || (negb (isprint c) && hexencode fl) then QEscape
    else quotetype_loop val' qt
  end.
(** M_hash_dict_serialize_quotetype, m_hash_dict.c:284-314 *)
Definition quotetype (val : option (list N)) : res qtype :=
  let qt := if always_quote fl then QOn else QOff in
  match val with
  | None => Ok qt
  | Some [] => match before with Some _ => Ok QOn | None => UB end
  | Some (c :: v) => Ok (quotetype_loop (c :: v) (if isspace c || isspace (last (c :: v) 0) then QOn else qt))
  end.

(** One hexadecimal digit of printf's %X. *)
Definition hexdigit (n : N) : N := if n <? 10 then 48 + n else 55 + n.
(** [M_bprintf(buf, "[%02X]", (unsigned int)*val)]: a char above 127 is negative and
    becomes 0xFFFFFFxx. *)
Definition hexcode (c : N) : list N :=
  [91] ++ (if c <? 128 then [] else [70; 70; 70; 70; 70; 70]) ++ [hexdigit (c / 16); hexdigit (c mod 16)] ++ [93].
(** m_hash_dict.c:351-360 *)
Definition escape_one (c : N) : list N :=
  (if (c =? quote) || (c =? escape) then [escape] else []) ++ (if negb (isprint c) && hexencode fl then hexcode c else [c]).
Definition sep_bytes (d : N) : list N := if lf_to_crlf fl && (d =? 10) then [13; 10] else [d].
Definition val_bytes (val : option (list N)) : list N := match val with Some v => v | None => [] end.

(** m_hash_dict.c:332-375 *)
Definition ser_entry (e : list N * option (list N)) : res (list N) :=
  let '(key, val) := e in
  do qt <- quotetype val;
  let q := match qt with QOff => [] | _ => [quote] end in
  let body := match qt with QEscape => flat_map escape_one (val_bytes val) | _ => val_bytes val end in
  Ok (key ++ sep_bytes kv_delim ++ q ++ body ++ q ++ sep_bytes delim).
Fixpoint serialize (d : list (list N * option (list N))) : res (list N) :=
  match d with
  | [] => Ok []
  | e :: d' => do x <- ser_entry e; do xs <- serialize d'; Ok (x ++ xs)
  end.

(** ** M_hash_dict_deserialize, base/hash/m_hash_dict.c:402-500 *)
Variable trim_ws : bool.

(** m_hash_dict.c:424-432 *)
Fixpoint unescape (s : list N) (on : bool) : list N :=
  match s with
  | [] => []
  | c :: s' => if negb on && (c =? escape) then unescape s' true else c :: unescape s' false
  end.
(** M_hash_dict_fromstr_unquote, m_hash_dict.c:402-435 *)
Definition unquote (s : list N) : option (list N) :=
  match s with
  | [] => None
  | c :: s' =>
    if (2 <=? length s)%nat && (c =? quote) && (last s 0 =? quote) then Some (unescape (removelast s') false)
    else Some (unescape s false)
  end.

(** The loop over the sections, m_hash_dict.c:457-487; [None] for the result NULL.
    M_hash_dict_insert refuses an empty key. *)
Fixpoint deser_loop (kvs : list (list N)) : res (option (list (list N * option (list N)))) :=
  match kvs with
  | [] => Ok (Some [])
  | s :: kvs' =>
    let s := if trim_ws then trim s else s in
    match s with
    | [] => deser_loop kvs'
    | _ =>
      do kv <- explode_strs kv_delim quote escape 2 s;
      match kv with
      | Some [k; v] =>
        let k := if trim_ws then trim k else k in
        let v := if trim_ws then trim v else v in
        do rest <- deser_loop kvs';
        Ok (option_map (fun l => match k with [] => l | _ => (k, unquote v) :: l end) rest)
      | _ => Ok None
      end
    end
  end.
Definition deserialize (s : list N) : res (option (list (list N * option (list N)))) :=
  match s with
  | [] => Ok None
  | _ =>
    do kvs <- explode_strs delim quote escape 0 s;
    match kvs with
    | None => Ok None
    | Some kvs => deser_loop kvs
    end
  end.
End Dict.

(** Model of formats/json/m_json_reader.c and formats/json/m_json_writer.c.

    The parser of the reader is over constant data, so that its state is the data
    left, [s]; what lies behind the data in memory is [tail].  M_parser_peek_byte,
    M_parser_len and M_parser_consume are the obvious functions of [s] (property C25).
    A node is a tree; an object is the list of its members in the order in which
    M_hash_strvp with ordered keys enumerates them (property C35).  Line and column of
    an error, reading from and writing to files, and the tree functions of m_json.c
    other than those the reader calls are not modelled.  Recursion is bounded by fuel,
    the stack of the C program is not. *)
From Verif Require Import Base.Lib Base.Mem Hex.Model StrNum.Model Utf8.Model Decimal.Model.
Local Open Scope N_scope.

Inductive json :=
| JObj (l : list (list N * json))
| JArr (l : list json)
| JStr (s : list N)
| JInt (n : Z)
| JDec (d : dec)
| JBool (b : bool)
| JNull.

(** M_json_error_t: include/mstdlib/formats/m_json.h *)
Inductive jerr :=
| EMissingCommentClose | EUnexpectedCommentStart | EInvalidPairStart | EDuplicateKey | EMissingPairSeparator
| EObjectUnexpectedChar | EExpectedValue | EUnclosedObject | EArrayUnexpectedChar | EUnclosedArray
| EUnexpectedNewline | EUnexpectedControlChar | EInvalidUnicodeEscape | EUnexpectedEscape | EUnclosedString
| EInvalidBool | EInvalidNull | EInvalidNumber | EUnexpectedTermination | EInvalidIdentifier | EUnexpectedEnd
| EMisuse | EInvalidStart | EExpectedEnd.

(** The reader's flags: ALLOW_DECIMAL_TRUNCATION, DISALLOW_COMMENTS,
    OBJECT_UNIQUE_KEYS, DONT_DECODE_UNICODE, REPLACE_BAD_CHARS. *)
Record rflags := { r_trunc : bool; r_nocomment : bool; r_unique : bool; r_nodecode : bool; r_replace : bool }.

(** Success with the data left, or an error. *)
Definition pres (A : Type) : Type := res (jerr + A * list N).

(** M_parser_consume, base/data/m_parser.c:901-934 *)
Definition consume (n : nat) (s : list N) : list N := if (n <=? length s)%nat then skipn n s else s.

(** M_parser_consume_whitespace without flags, base/data/m_parser.c:937-961 *)
Fixpoint eat_ws (s : list N) : list N :=
  match s with
  | c :: r => if chr_isspace c then eat_ws r else s
  | [] => []
  end.

(** What follows the first "*/": M_parser_consume_until with the pattern eaten
    (property C28). *)
Fixpoint after_close (s : list N) : option (list N) :=
  match s with
  | c :: r => match r with
              | d :: r' => if (c =? 42) && (d =? 47) then Some r' else after_close r
              | [] => None
              end
  | [] => None
  end.

(** M_parser_consume_eol, base/data/m_parser.c:1094-1110 *)
Fixpoint eat_eol (s : list N) : list N :=
  match s with
  | c :: r => if c =? 10 then r else eat_eol r
  | [] => []
  end.

Section Reader.
Variable tail : list N.
Variable fl : rflags.

(** M_json_eat_comment, lines 44-77, comments being allowed. *)
Definition eat_comment (s : list N) : jerr + list N :=
  match s with
  | c :: d :: r =>
    if negb (c =? 47) then inr s
    else if d =? 42 then match after_close r with Some r' => inr r' | None => inl EMissingCommentClose end
    else if d =? 47 then inr (eat_eol s)
    else inl EUnexpectedCommentStart
  | _ => inr s
  end.

(** The loop of M_json_eat_ignored, lines 111-121.  That the loop over the eaters ends
    early without data (lines 117-119) makes no difference and is left out. *)
Fixpoint eat_loop (fuel : nat) (s : list N) : res (jerr + list N) :=
  match fuel with
  | O => Fuel
  | S f =>
    match eat_comment (eat_ws s) with
    | inl e => Ok (inl e)
    | inr s1 =>
      let s2 := eat_ws s1 in
      match s2 with
      | c :: _ => if (c =? 47) && negb (length s =? length s2)%nat then eat_loop f s2 else Ok (inr s2)
      | [] => Ok (inr s2)
      end
    end
  end.
(** M_json_eat_ignored, lines 96-124 *)
Definition eat_ignored (s : list N) : res (jerr + list N) :=
  if r_nocomment fl then Ok (inr (eat_ws s)) else eat_loop (S (length s)) s.

(** M_chr_ishex, base/data/m_chr.c:113-116 *)
Definition chr_ishex (c : N) : bool := ((48 <=? c) && (c <=? 57)) || ((97 <=? c) && (c <=? 102)) || ((65 <=? c) && (c <=? 70)).

(** M_str_ishex_max, base/data/m_str.c:427-443 and 657-660 *)
Fixpoint ishex_max (s : list N) (max : nat) : res bool :=
  match max with
  | O => Ok true
  | S m => do c <- rd s 0; if c =? 0 then Ok true else if chr_ishex c then ishex_max (skipn 1 s) m else Ok false
  end.

(** Lines 391-394: the code point's bytes, or [None] when the escape is bad.  [s] is the
    data left, from the backslash on. *)
Definition unicode (s : list N) : res (option (list N)) :=
  if (length s <? 6)%nat then Ok None
  else
  let p := skipn 2 (s ++ tail) in
  do h <- ishex_max p 4;
  if negb h then Ok None
  else
  do '(rv, cp, _) <- to_uint32_ex p 4 16 0;
  match rv with
  | ISuccess =>
    do '(e, buf, n) <- from_cp (repeat 0 8) 8 cp;
    match e, n with
    | USuccess, Some n => Ok (Some (firstn n buf))
    | _, _ => Ok None
    end
  | _ => Ok None
  end.

(** Lines 402-407: the data left after skipping what looks like the rest of a bad
    escape; [p] is where line 359 left [s] pointing. *)
Fixpoint skip_bad (p : list N) (j : nat) (n : nat) (s : list N) : res (list N) :=
  match n with
  | O => Ok s
  | S n' => do c <- rd p (1 + j); skip_bad p (S j) n' (if chr_ishex c then consume 1 s else s)
  end.

(** The loop of M_json_read_string, lines 338-436.  Result: the string's bytes, the data
    left. *)
Fixpoint string_loop (fuel : nat) (s : list N) (buf : list N) (cp : N) : pres (list N) :=
  match fuel with
  | O => Fuel
  | S f =>
    match s with
    | [] => Ok (inr (buf, s))
    | c :: _ =>
      if (c =? 34) || (cp =? 92) then Ok (inr (buf, s))
      else if c <? 32 then
        if r_replace fl then string_loop f (consume 1 s) ((buf ++ [63]) ++ [c]) c
        else Ok (inl (if c =? 10 then EUnexpectedNewline else EUnexpectedControlChar))
      else if c =? 92 then
        let ce := if (2 <=? length s)%nat then nth 1 s 0 else 0 in
        if (ce =? 34) || (ce =? 47) then string_loop f (consume 2 s) (buf ++ [ce]) ce
        else if ce =? 92 then string_loop f (consume 2 s) (buf ++ [ce]) 0
        else if ce =? 98 then string_loop f (consume 2 s) (buf ++ [8]) ce
        else if ce =? 102 then string_loop f (consume 2 s) (buf ++ [12]) ce
        else if ce =? 110 then string_loop f (consume 2 s) (buf ++ [10]) ce
        else if ce =? 114 then string_loop f (consume 2 s) (buf ++ [13]) ce
        else if ce =? 116 then string_loop f (consume 2 s) (buf ++ [9]) ce
        else if ce =? 117 then
          do u <- unicode s;
          match u with
          | None =>
            if r_replace fl then
              do s' <- skip_bad (skipn 1 (s ++ tail)) 1 3 (consume 1 s);
              string_loop f (consume 2 s') (buf ++ [63]) ce
            else Ok (inl EInvalidUnicodeEscape)
          | Some b =>
            let add := if r_nodecode fl then [92; 117] ++ firstn 4 (skipn 2 s) else b in
            string_loop f (consume 2 (consume 4 s)) (buf ++ add) ce
          end
        else Ok (inl EUnexpectedEscape)
      else string_loop f (consume 1 s) (buf ++ [c]) c
    end
  end.

(** The bytes up to the first NUL: M_strdup in M_json_set_string, m_json.c:615-625. *)
Fixpoint upto_nul (s : list N) : list N :=
  match s with
  | c :: r => if c =? 0 then [] else c :: upto_nul r
  | [] => []
  end.

(** M_json_read_string, lines 319-452; [s] starts with the quote. *)
Definition read_string (s : list N) : pres (list N) :=
  do r <- string_loop (S (length s)) (consume 1 s) [] 0;
  match r with
  | inl e => Ok (inl e)
  | inr (buf, s) =>
    match s with
    | c :: _ => if c =? 34 then Ok (inr (upto_nul buf, consume 1 s)) else Ok (inl EUnclosedString)
    | [] => Ok (inl EUnclosedString)
    end
  end.

Definition eqb_list (a b : list N) : bool := if list_eq_dec N.eq_dec a b then true else false.
Definition lit_true : list N := [116; 114; 117; 101].
Definition lit_false : list N := [102; 97; 108; 115; 101].
Definition lit_null : list N := [110; 117; 108; 108].

(** M_json_read_bool, lines 454-480, called with t or f in front.  M_str_eq_max over as
    many characters as are there is equality (property C60). *)
Definition read_bool (s : list N) : pres json :=
  match s with
  | c :: _ =>
    if ((c =? 116) && ((length s <? 4)%nat || negb (eqb_list (firstn 4 s) lit_true))) ||
       ((c =? 102) && ((length s <? 5)%nat || negb (eqb_list (firstn 5 s) lit_false)))
    then Ok (inl EInvalidBool)
    else Ok (inr (JBool (c =? 116), consume (if c =? 116 then 4 else 5) s))
  | [] => Ok (inl EInvalidBool)
  end.

(** M_json_read_null, lines 482-493 *)
Definition read_null (s : list N) : pres json :=
  if (length s <? 4)%nat || negb (eqb_list (firstn 4 s) lit_null) then Ok (inl EInvalidNull)
  else Ok (inr (JNull, consume 4 s)).

(** M_json_read_number, lines 495-518, with M_parser_read_decimal,
    base/data/m_parser.c:1168-1189. *)
Definition read_number (s : list N) : pres json :=
  do '(rv, d, e) <- from_str (s ++ tail) (length s);
  let s' := match e with Some e => consume (length (s ++ tail) - length e) s | None => s end in
  let node := if (nd d =? 0)%nat then do n <- to_int d 0; Ok (inr (JInt n, s')) else Ok (inr (JDec d, s')) in
  match rv with
  | Success => node
  | Truncation => if r_trunc fl then node else Ok (inl EInvalidNumber)
  | _ => Ok (inl EInvalidNumber)
  end.

(** M_json_object_value: M_hash_strvp_get_direct *)
Definition has_key (k : list N) (l : list (list N * json)) : bool := existsb (fun kv => eqb_list (fst kv) k) l.

(** M_hash_strvp_insert, base/hash/m_hash_strvp.c:106-113, into a table with ordered
    keys and one value per key: an empty key is refused, a key that is there keeps its
    place (property C35). *)
Definition obj_insert (l : list (list N * json)) (k : list N) (v : json) : list (list N * json) :=
  match k with
  | [] => l
  | _ => if has_key k l then map (fun kv => if eqb_list (fst kv) k then (fst kv, v) else kv) l else l ++ [(k, v)]
  end.

Definition peek (s : list N) : option N := match s with c :: _ => Some c | [] => None end.

(** M_json_read_value, lines 520-565, M_json_read_object, lines 126-241, and
    M_json_read_array, lines 243-317; [arr_loop] and [obj_loop] are their loops and what
    follows.  [len] is the variable of that name. *)
Fixpoint read_value (fuel : nat) (s : list N) : pres json :=
  match fuel with
  | O => Fuel
  | S f =>
    do g <- eat_ignored s;
    match g with
    | inl e => Ok (inl e)
    | inr s =>
      match s with
      | [] => Ok (inl EUnexpectedEnd)
      | c :: _ =>
        if c =? 123 then obj_loop f (consume 1 s) []
        else if c =? 91 then
          do g <- eat_ignored (consume 1 s);
          match g with inl e => Ok (inl e) | inr s => arr_loop f s [] 0 end
        else if c =? 34 then
          do r <- read_string s;
          match r with inl e => Ok (inl e) | inr (b, s) => Ok (inr (JStr b, s)) end
        else if (c =? 116) || (c =? 102) then read_bool s
        else if c =? 110 then read_null s
        else if (c =? 45) || ((48 <=? c) && (c <=? 57)) then read_number s
        else if c =? 0 then Ok (inl EUnexpectedTermination)
        else Ok (inl EInvalidIdentifier)
      end
    end
  end
with arr_loop (fuel : nat) (s : list N) (l : list json) (len : nat) : pres json :=
  match fuel with
  | O => Fuel
  | S f =>
    let close s := match s with
                   | c :: _ => if c =? 93 then Ok (inr (JArr l, consume 1 s)) else Ok (inl EUnclosedArray)
                   | [] => Ok (inl EUnclosedArray)
                   end in
    match s with
    | [] => close s
    | c :: _ =>
      if (len =? length s)%nat || (c =? 93) then close s
      else
      do g <- eat_ignored s;
      match g with
      | inl e => Ok (inl e)
      | inr s1 =>
        match s1 with
        | [] => close s1
        | c1 :: _ =>
          if c1 =? 93 then close s1
          else
          do r <- read_value f s1;
          match r with
          | inl e => Ok (inl e)
          | inr (v, s2) =>
            do g <- eat_ignored s2;
            match g with
            | inl e => Ok (inl e)
            | inr s3 =>
              let c := match peek s3 with Some c => c | None => c1 end in
              if match peek s3 with None => negb (c =? 44) && negb (c =? 93) | Some _ => false end then Ok (inl EArrayUnexpectedChar)
              else if c =? 44 then
                do g <- eat_ignored (consume 1 s3);
                match g with
                | inl e => Ok (inl e)
                | inr s4 =>
                  match peek s4 with
                  | None => Ok (inl EExpectedValue)
                  | Some c => if c =? 93 then Ok (inl EExpectedValue) else arr_loop f s4 (l ++ [v]) (length s)
                  end
                end
              else arr_loop f s3 (l ++ [v]) (length s)
            end
          end
        end
      end
    end
  end
with obj_loop (fuel : nat) (s : list N) (l : list (list N * json)) : pres json :=
  match fuel with
  | O => Fuel
  | S f =>
    let close s := match s with
                   | c :: _ => if c =? 125 then Ok (inr (JObj l, consume 1 s)) else Ok (inl EUnclosedObject)
                   | [] => Ok (inl EUnclosedObject)
                   end in
    match s with
    | [] => close s
    | c :: _ =>
      if c =? 125 then close s
      else
      do g <- eat_ignored s;
      match g with
      | inl e => Ok (inl e)
      | inr s1 =>
        match s1 with
        | [] => close s1
        | c1 :: _ =>
          if c1 =? 125 then close s1
          else if negb (c1 =? 34) then Ok (inl EInvalidPairStart)
          else
          do r <- read_value f s1;
          match r with
          | inl e => Ok (inl e)
          | inr (kn, s2) =>
            let k := match kn with JStr k => k | _ => [] end in
            if r_unique fl && has_key k l then Ok (inl EDuplicateKey)
            else
            do g <- eat_ignored s2;
            match g with
            | inl e => Ok (inl e)
            | inr s3 =>
              match peek s3 with
              | None => Ok (inl EMissingPairSeparator)
              | Some c2 =>
                if negb (c2 =? 58) then Ok (inl EMissingPairSeparator)
                else
                do r <- read_value f (consume 1 s3);
                match r with
                | inl e => Ok (inl e)
                | inr (v, s4) =>
                  let l := obj_insert l k v in
                  do g <- eat_ignored s4;
                  match g with
                  | inl e => Ok (inl e)
                  | inr s5 =>
                    let c := match peek s5 with Some c => c | None => c2 end in
                    if match peek s5 with None => negb (c =? 44) && negb (c =? 125) | Some _ => false end then Ok (inl EObjectUnexpectedChar)
                    else if c =? 44 then
                      do g <- eat_ignored (consume 1 s5);
                      match g with
                      | inl e => Ok (inl e)
                      | inr s6 =>
                        match peek s6 with
                        | None => Ok (inl EExpectedValue)
                        | Some c => if c =? 125 then Ok (inl EExpectedValue) else obj_loop f s6 l
                        end
                      end
                    else obj_loop f s5 l
                  end
                end
              end
            end
          end
        end
      end
    end
  end.

(** M_json_read, lines 593-656, data being [data] and data_len its length; [want] for a
    non-NULL processed_len.  Result: the root and *processed_len. *)
Definition json_read (want : bool) (data : list N) : res (jerr + json * nat) :=
  match data with
  | [] => Ok (inl EMisuse)
  | c :: _ =>
    if c =? 0 then Ok (inl EMisuse)
    else
    do r <- read_value (2 * length data + 2) data;
    match r with
    | inl e => Ok (inl e)
    | inr (root, s) =>
      match root with
      | JObj _ | JArr _ =>
        do g <- (match s with [] => Ok (inr s) | _ => eat_ignored s end);
        match g with
        | inl e => Ok (inl e)
        | inr s =>
          if want then Ok (inr (root, (length data - length s)%nat))
          else match s with [] => Ok (inr (root, length data)) | _ => Ok (inl EExpectedEnd) end
        end
      | _ => Ok (inl EInvalidStart)
      end
    end
  end.
End Reader.

(** The writer's flags: PRETTYPRINT_SPACE, PRETTYPRINT_TAB, PRETTYPRINT_WINLINEEND,
    DONT_ENCODE_UNICODE, NUMBER_NOCOMPAT, REPLACE_BAD_CHARS. *)
Record wflags := { w_space : bool; w_tab : bool; w_crlf : bool; w_noencode : bool; w_nocompat : bool; w_replace : bool }.

(** The digits of "%X", most significant first; [fuel] bounds their number. *)
Definition hex_chr (d : N) : N := if d <? 10 then 48 + d else 55 + d.
Fixpoint hex_loop (fuel : nat) (n : N) (acc : list N) : list N :=
  match fuel with
  | O => acc
  | S f => let acc := hex_chr (n mod 16) :: acc in if n / 16 =? 0 then acc else hex_loop f (n / 16) acc
  end.
(** "%04X" *)
Definition print_x4 (n : N) : list N :=
  let h := hex_loop 8 n [] in repeat 48 (4 - length h) ++ h.

(** "%lld": M_buf_add_int, base/data/m_buf.c:555-560 *)
Definition print_int (z : Z) : list N := (if (z <? 0)%Z then [45] else []) ++ print_u64 (Z.to_N (Z.abs z)).

Section Writer.
Variable fl : wflags.
Definition pretty : bool := w_space fl || w_tab fl.

(** M_json_write_depth, lines 38-45 *)
Definition write_depth (depth : nat) : list N :=
  if w_space fl then repeat 32 (depth * 2) else if w_tab fl then repeat 9 depth else [].
(** M_json_write_newline, lines 47-58 *)
Definition write_newline : list N := if negb pretty then [] else if w_crlf fl then [13; 10] else [10].

(** M_json_write_node_string, lines 136-216: the characters; [None] for line 191. *)
Fixpoint string_chars (fuel : nat) (s : list N) : res (option (list N)) :=
  match fuel with
  | O => Fuel
  | S f =>
    match s with
    | [] => Ok (Some [])
    | c :: r =>
      let put t r := do o <- string_chars f r; Ok (option_map (app t) o) in
      if c =? 8 then put [92; 98] r
      else if c =? 12 then put [92; 102] r
      else if c =? 10 then put [92; 110] r
      else if c =? 13 then put [92; 114] r
      else if c =? 9 then put [92; 116] r
      else if c =? 47 then put [92; 47] r
      else if (c =? 34) || (c =? 92) then put [92; c] r
      else if c <? 32 then put ([92; 117] ++ print_x4 c) r
      else if 127 <? c then
        do '(e, cp, p) <- get_cp (s ++ [0]);
        match e, p with
        | USuccess, Some p =>
          let n := (S (length s) - length p)%nat in
          put (if w_noencode fl then firstn n s else [92; 117] ++ print_x4 cp) (skipn n s)
        | _, _ => if w_replace fl then put [63] r else Ok None
        end
      else put [c] r
    end
  end.
Definition write_string (s : list N) : res (option (list N)) :=
  do o <- string_chars (S (length s)) s;
  Ok (option_map (fun t => [34] ++ t ++ [34]) o).

Definition js_max : Z := 9007199254740991.
Definition unsafe_int (z : Z) : bool := (z <? - js_max)%Z || (js_max <? z)%Z.

(** M_json_write_node_integer, lines 218-232 *)
Definition write_integer (z : Z) : list N :=
  (if negb (w_nocompat fl) && unsafe_int z then [34] else []) ++ print_int z ++ (if unsafe_int z then [34] else []).

(** M_json_write_node_decimal, lines 234-255, with M_buf_add_decimal,
    base/data/m_buf.c:1022-1058. *)
Definition write_decimal (d : dec) : res (option (list N)) :=
  do i <- to_int d 0;
  let q := if negb (w_nocompat fl) && ((15 <? nd d)%nat || unsafe_int i) then [34] else [] in
  do '(rv, t) <- to_str d 256;
  match rv with
  | Success => Ok (Some (q ++ t ++ q))
  | _ => Ok None
  end.

(** M_json_write_node and what it calls, lines 60-134 and 257-304.  The elements of an
    array are written by the local loops; an index below the length as well as the
    count-down of the members is "not the last". *)
Fixpoint write_node (depth : nat) (v : json) {struct v} : res (option (list N)) :=
  match v with
  | JObj l =>
    let fix go (l : list (list N * json)) : res (option (list N)) :=
      match l with
      | [] => Ok (Some [])
      | (k, v) :: r =>
        do o <- write_node (S depth) v;
        match o with
        | None => Ok None
        | Some t =>
          do o <- go r;
          Ok (option_map (app (write_depth (S depth) ++ [34] ++ k ++ [34] ++ (if pretty then [32] else []) ++ [58] ++
            (if pretty then [32] else []) ++ t ++ (match r with [] => [] | _ => [44] end) ++ write_newline)) o)
        end
      end in
    do o <- go l;
    Ok (option_map (fun t => [123] ++ write_newline ++ t ++ write_depth depth ++ [125]) o)
  | JArr l =>
    let fix go (l : list json) : res (option (list N)) :=
      match l with
      | [] => Ok (Some [])
      | v :: r =>
        do o <- write_node (S depth) v;
        match o with
        | None => Ok None
        | Some t =>
          do o <- go r;
          Ok (option_map (app (write_depth (S depth) ++ t ++ (match r with [] => [] | _ => [44] end) ++ write_newline)) o)
        end
      end in
    do o <- go l;
    Ok (option_map (fun t => [91] ++ write_newline ++ t ++ write_depth depth ++ [93]) o)
  | JStr s => write_string s
  | JInt z => Ok (Some (write_integer z))
  | JDec d => write_decimal d
  | JBool b => Ok (Some (if b then lit_true else lit_false))
  | JNull => Ok (Some lit_null)
  end.

(** M_json_write, lines 308-326: the text, or [None] for NULL. *)
Definition json_write (v : json) : res (option (list N)) := write_node 0 v.
End Writer.

(** Model of formats/xml/m_xml_reader.c and m_xml_writer.c on trees as built by m_xml.c. *)
From Verif Require Import Base.Lib Base.Mem Hex.Model StrEq.Spec XmlEnt.Model.
Local Open Scope N_scope.

(** struct M_xml_node, m_xml.c:33-62, without the pointer to the parent.  Attributes are an
    ordered dictionary with keys compared without case (line 219): a list here, in the
    order of insertion.  NULL texts and tag data are the empty string, which the writer
    does not tell apart.  A document (M_XML_NODE_TYPE_DOC) is the list of its children;
    m_xml.c:471 admits it only at the top. *)
Definition attrs := list (list N * list N).
Inductive node :=
| Elem (name : list N) (a : attrs) (children : list node)
| Pi (name : list N) (a : attrs) (tag_data : list N)
| Decl (name : list N) (tag_data : list N)
| Text (text : list N)
| Comment (tag_data : list N).
Definition is_text (n : node) : bool := match n with Text _ => true | _ => false end.
Definition is_elem (n : node) : bool := match n with Elem _ _ _ => true | _ => false end.

Definition str_eqb (a b : list N) : bool := if list_eq_dec N.eq_dec a b then true else false.
(** M_str_caseeq, as proved in StrEq/Props.v (str_eq_correct). *)
Definition caseeqb (a b : list N) : bool := str_eqb (map low a) (map low b).
Definition is_nil {A} (l : list A) : bool := match l with [] => true | _ => false end.
(** A C string ends at its first NUL. *)
Fixpoint cstr (s : list N) : list N := match s with [] => [] | c :: s' => if c =? 0 then [] else c :: cstr s' end.

(** M_hash_dict_get on the attributes *)
Definition attr_get (a : attrs) (key : list N) : option (list N) :=
  match find (fun kv => caseeqb (fst kv) key) a with Some kv => Some (snd kv) | None => None end.
(** M_xml_node_insert_attribute, m_xml.c:646-674, without a limit and without overwriting;
    [None] for the result M_FALSE. *)
Definition insert_attribute (a : attrs) (key : list N) (val : option (list N)) : option attrs :=
  if is_nil key then None
  else match val with
       | None => None
       | Some v => match attr_get a key with Some _ => None | None => Some (a ++ [(key, v)]) end
       end.

(** * m_xml_writer.c *)

Inductive pretty := PNone | PSpace | PTab.
(** M_xml_writer_flags_t, include/mstdlib/formats/m_xml.h:139-153; of the two
    PRETTYPRINT flags the one for spaces wins (lines 41-45). *)
Record wflags := { w_ignore_comments : bool; w_lower_tags : bool; w_lower_attrs : bool; w_raw_text : bool; w_raw_attrs : bool; w_pretty : pretty; w_close_space : bool }.

Section Write.
Variable fl : wflags.

(** M_xml_write_node_indent and M_xml_write_node_newline, lines 36-53 *)
Definition indent (depth : nat) : list N :=
  match w_pretty fl with PSpace => repeat 32 (depth * 2) | PTab => repeat 9 depth | PNone => [] end.
Definition newline : list N := match w_pretty fl with PNone => [] | _ => [10] end.

Definition tag_name (name : list N) : list N := if w_lower_tags fl then map low name else name.
Definition attr_key (key : list N) : list N := if w_lower_attrs fl then map low key else key.
(** Lines 73-79 and 178-184; the strings are NUL terminated. *)
Definition enc_text (s : list N) : res (list N) := if w_raw_text fl then Ok s else xml_entities_encode (s ++ [0]) (length s).
Definition enc_attr (s : list N) : res (list N) := if w_raw_attrs fl then Ok s else xml_attribute_encode (s ++ [0]) (length s).

(** 'version', 'encoding', 'standalone', lines 137-144 *)
Definition declaration_attributes : list (list N) :=
  [[118; 101; 114; 115; 105; 111; 110]; [101; 110; 99; 111; 100; 105; 110; 103]; [115; 116; 97; 110; 100; 97; 108; 111; 110; 101]].
Definition write_attr (key val : list N) : res (list N) := do v <- enc_attr val; Ok ([32] ++ key ++ [61; 34] ++ v ++ [34]).
(** Lines 164-186 *)
Fixpoint write_decl_attrs (keys : list (list N)) (a : attrs) : res (list N) :=
  match keys with
  | [] => Ok []
  | k :: keys' =>
    do x <- match attr_get a k with None => Ok [] | Some v => write_attr k v end;
    do y <- write_decl_attrs keys' a;
    Ok (x ++ y)
  end.
(** Lines 193-220 *)
Fixpoint write_attrs (is_dec : bool) (a : attrs) : res (list N) :=
  match a with
  | [] => Ok []
  | (k, v) :: a' =>
    do x <- (if is_dec && existsb (caseeqb k) declaration_attributes then Ok [] else write_attr (attr_key k) v);
    do y <- write_attrs is_dec a';
    Ok (x ++ y)
  end.
(** M_xml_write_node_tag_open_attributes, lines 147-224 *)
Definition open_attributes (is_pi : bool) (name : list N) (a : attrs) : res (list N) :=
  let is_dec := is_pi && str_eqb name [120; 109; 108] in
  do x <- (if is_dec then write_decl_attrs declaration_attributes a else Ok []);
  do y <- write_attrs is_dec a;
  Ok (x ++ y).
(** M_xml_write_node_tag_open_tag_data, lines 227-245 *)
Definition open_tag_data (d : list N) : list N := if is_nil d then [] else 32 :: d.
Definition first_is_text (l : list node) : bool := match l with n :: _ => is_text n | [] => false end.
(** Lines 270 and 314: [true] when the only child is a text. *)
Definition only_text (children : list node) : bool := (length children =? 1)%nat && first_is_text children.

(** M_xml_write_node, lines 349-362, with its eight functions one after another.  [pdoc]:
    the parent is the document; [sibs]: the number of the parent's children; [prev] and
    [next]: the sibling before or after is a text (M_xml_node_sibling, m_xml.c:514-543). *)
Fixpoint write_node (depth : nat) (pdoc : bool) (sibs : nat) (prev next : bool) (n : node) {struct n} : res (list N) :=
  match n with
  | Text s =>
    do t <- enc_text s;
    Ok ((if (1 <? sibs)%nat && negb prev then indent depth else []) ++ t ++ (if (1 <? sibs)%nat && negb next then newline else []))
  | Elem name a ch =>
    do x <- open_attributes false name a;
    do y <- (fix go (prev : bool) (l : list node) : res (list N) :=
      match l with
      | [] => Ok []
      | c :: l' => do u <- write_node (S depth) false (length ch) prev (first_is_text l') c; do v <- go (is_text c) l'; Ok (u ++ v)
      end) false ch;
    let open := indent depth ++ [60] ++ tag_name name ++ x in
    let open_end := (if is_nil ch then (if w_close_space fl then [32] else []) ++ [47] else []) ++ [62] ++ (if only_text ch then [] else newline) in
    let close := if is_nil ch then [] else (if only_text ch then [] else indent depth) ++ [60; 47] ++ tag_name name ++ [62] ++ (if pdoc then [] else newline) in
    Ok (open ++ open_end ++ y ++ close)
  | Pi name a d =>
    do x <- open_attributes true name a;
    Ok (indent depth ++ [60; 63] ++ tag_name name ++ x ++ open_tag_data d ++ [63; 62] ++ newline)
  | Decl name d => Ok (indent depth ++ [60; 33] ++ tag_name name ++ open_tag_data d ++ [62] ++ newline)
  | Comment d =>
    if w_ignore_comments fl then Ok []
    else Ok (indent depth ++ [60; 33; 45; 45] ++ open_tag_data d ++ [32; 45; 45; 62] ++ newline)
  end.
(** M_xml_write_node_children for the document, lines 277-300 *)
Fixpoint write_children (sibs : nat) (prev : bool) (l : list node) : res (list N) :=
  match l with
  | [] => Ok []
  | c :: l' => do u <- write_node 0 true sibs prev (first_is_text l') c; do v <- write_children sibs (is_text c) l'; Ok (u ++ v)
  end.
(** M_xml_write of a document, lines 366-399 *)
Definition xml_write (doc : list node) : res (list N) := write_children (length doc) false doc.
End Write.

(** * m_xml_reader.c *)

(** M_xml_reader_tags_t, lines 33-41 *)
Inductive tag := TPi | TComment | TStart | TEnd | TEmpty | TCdata | TDecl.
Inductive xerr := EGeneric | EMisuse | EAttrExists | ENoElements | EInvalidStart | EInvalidChar | EEmptyStart | EMissingDecl
  | EIneligible | EUnexpectedClose | EMissingClose | EMissingPiEnd | EExpectedEnd.
(** M_xml_reader_flags_t, include/mstdlib/formats/m_xml.h:125-136 *)
Record rflags := { r_ignore_comments : bool; r_casecmp : bool; r_raw_text : bool; r_raw_attrs : bool }.

Definition is_quote (c : N) : bool := (c =? 39) || (c =? 34).
Definition flip (q : option N) (c : N) : option N := match q with Some x => if c =? x then None else Some x | None => Some c end.
(** M_xml_read_find_unquoted_chr, lines 61-80: the offset; [q] is on_quote. *)
Fixpoint find_unquoted (q : option N) (d : list N) (ch : N) : option nat :=
  match d with
  | [] => None
  | c :: d' =>
    if is_quote c then option_map S (find_unquoted (flip q c) d' ch)
    else if (c =? ch) && match q with None => true | _ => false end then Some O
    else option_map S (find_unquoted q d' ch)
  end.

Fixpoint drop_space (s : list N) : list N := match s with c :: s' => if chr_isspace c then drop_space s' else s | [] => [] end.
Fixpoint take_nospace (s : list N) : list N := match s with c :: s' => if chr_isspace c then [] else c :: take_nospace s' | [] => [] end.
(** Leading and trailing white space removed: M_str_trim, and lines 656-664. *)
Definition trim (s : list N) : list N := rev (drop_space (rev (drop_space s))).
Fixpoint prefixb (p s : list N) : bool :=
  match p, s with [], _ => true | a :: p', b :: s' => (a =? b) && prefixb p' s' | _, [] => false end.
(** M_mem_mem: the first offset of [p], which is not empty (proved in MemFn/Props.v). *)
Fixpoint find_sub (p s : list N) : option nat :=
  if prefixb p s then Some O else match s with [] => None | _ :: s' => option_map S (find_sub p s') end.

(** M_xml_read_find_nonws_ch_reverse, lines 88-102 *)
Definition find_nonws_rev (d : list N) (ch : N) : option nat :=
  match drop_space (rev d) with c :: r => if c =? ch then Some (length r) else None | [] => None end.

(** M_xml_read_tag_end, lines 115-167: the length before the end mark, the length with it
    and the type. *)
Definition tag_end (p : list N) (ty : tag) : xerr + (nat * nat * tag) :=
  let mark := match ty with TComment => [45; 45; 62] | TCdata => [93; 93; 62] | _ => [62] end in
  match (match ty with TComment | TCdata => find_sub mark p | _ => find_unquoted None p 62 end) with
  | None => inl EMissingClose
  | Some n =>
    let used := (n + length mark)%nat in
    match ty with
    | TPi => match find_nonws_rev (firstn n p) 63 with None => inl EMissingPiEnd | Some k => inr (k, used, ty) end
    | TStart => match find_nonws_rev (firstn n p) 47 with None => inr (n, used, ty) | Some k => inr (k, used, TEmpty) end
    | _ => inr (n, used, ty)
    end
  end.

(** M_xml_reader_tag_info_t, lines 43-49: [t_body] is what is left inside the tag after
    the name, [t_after] all data from there on and [t_rest] the data after the tag; the
    code keeps three lengths. *)
Record info := { t_name : list N; t_type : tag; t_body : list N; t_after : list N; t_rest : list N }.

(** The end of M_xml_read_tag_info, lines 286-304, with M_xml_read_name, lines 174-187.  The
    name's length is taken with M_str_len. *)
Definition tag_rest (p : list N) (ty : tag) : xerr + info :=
  match tag_end p ty with
  | inl e => inl e
  | inr (lft, used, ty) =>
    let rest := skipn used p in
    match ty with
    | TCdata | TComment => inr {| t_name := []; t_type := ty; t_body := firstn lft p; t_after := p; t_rest := rest |}
    | _ =>
      match take_nospace (firstn lft p) with
      | [] => inl EInvalidStart
      | nm =>
        let nm := cstr nm in
        inr {| t_name := nm; t_type := ty; t_body := firstn (lft - length nm) (skipn (length nm) p); t_after := skipn (length nm) p; t_rest := rest |}
      end
    end
  end.
(** M_xml_read_tag_info, lines 199-285 *)
Definition tag_info (d : list N) : xerr + info :=
  match d with
  | 60 :: r =>
    match drop_space r with
    | [] => inl EEmptyStart
    | c :: r1 =>
      if c =? 47 then tag_rest (drop_space r1) TEnd
      else if c =? 63 then tag_rest (drop_space r1) TPi
      else if c =? 60 then inl EInvalidChar
      else if c =? 33 then
        match drop_space r1 with
        | [] => inl EMissingDecl
        | r3 =>
          if prefixb [45; 45] r3 then tag_rest (skipn 2 r3) TComment
          else if prefixb [91; 67; 68; 65; 84; 65; 91] r3 then tag_rest (skipn 7 r3) TCdata
          else tag_rest r3 TDecl
        end
      else tag_rest (c :: r1) TStart
    end
  | _ => inl EInvalidStart
  end.

(** The loop of M_xml_read_attribute_strip_extra_whitespace, lines 337-369; [req] is
    request_space. *)
Inductive request := RNone | RSpace | RNever.
Definition asked (r : request) : list N := match r with RSpace => [32] | _ => [] end.
Fixpoint strip_loop (q : option N) (req : request) (d : list N) : list N :=
  match d with
  | [] => []
  | c :: d' =>
    match q with
    | Some x => c :: strip_loop (if c =? x then None else q) req d'
    | None =>
      if is_quote c then asked req ++ c :: strip_loop (Some c) RNone d'
      else if chr_isspace c then strip_loop None (match req with RNever => RNever | _ => RSpace end) d'
      else if c =? 61 then c :: strip_loop None RNever d'
      else asked req ++ c :: strip_loop None RNone d'
    end
  end.
(** Lines 314-373 *)
Definition strip_extra (d : list N) : option (list N) :=
  match drop_space d with [] => None | _ => Some (cstr (strip_loop None RNone (trim d))) end.
(** M_xml_read_attribute_explode, lines 376-411: the pieces between the unquoted [ch]; the
    code counts first, and starts each search behind the piece before, unquoted. *)
Fixpoint explode_loop (ch : N) (q : option N) (cur s : list N) : list (list N) :=
  match s with
  | [] => [cur]
  | c :: s' =>
    if is_quote c then explode_loop ch (flip q c) (cur ++ [c]) s'
    else if (c =? ch) && match q with None => true | _ => false end then cur :: explode_loop ch None [] s'
    else explode_loop ch q (cur ++ [c]) s'
  end.
Definition explode (ch : N) (s : list N) : list (list N) := explode_loop ch None [] s.
(** M_xml_read_strip_surrounding_quotes, lines 418-434.  For a single quote character the
    length wraps to SIZE_MAX and the empty rest is returned. *)
Definition strip_quotes (s : list N) : option (list N) :=
  match s with
  | c :: s' => if is_quote c && (last s 0 =? c) then Some (removelast s') else None
  | [] => None
  end.

(** Elements not closed yet: name, attributes, children in reverse.  The code's curr_level
    is the first one, or the document; here an element joins its parent's children when it is closed. *)
Definition frame := (list N * attrs * list node)%type.
Record state := { s_open : list frame; s_doc : list node }.
Definition add_child (n : node) (st : state) : state :=
  match s_open st with
  | [] => {| s_open := []; s_doc := n :: s_doc st |}
  | (name, a, ch) :: o => {| s_open := (name, a, n :: ch) :: o; s_doc := s_doc st |}
  end.

Section Read.
(** [g]: the content of fresh memory; [tl]: the memory behind the data; [want]: the caller
    passed processed_len. *)
Variable g : N.
Variable fl : rflags.
Variable tl : list N.
Variable want : bool.

(** Lines 464-500 *)
Fixpoint read_pairs (kvs : list (list N)) (a : attrs) : res (option attrs) :=
  match kvs with
  | [] => Ok (Some a)
  | kv :: kvs' =>
    let parts := explode 61 kv in
    let unquoted s := match strip_quotes s with Some x => x | None => s end in
    let key := unquoted (hd [] parts) in
    let val := match parts with _ :: v :: _ => Some (unquoted v) | _ => None end in
    do v <- (if r_raw_attrs fl then Ok val
             else let s := match val with Some v => v | None => [] end in
                  do x <- xml_attribute_decode (s ++ [0]) (length s) g; Ok (Some (cstr x)));
    match insert_attribute a key v with
    | None => Ok None
    | Some a => read_pairs kvs' a
    end
  end.
(** M_xml_read_tag_attributes, lines 443-505, for a new node *)
Definition read_attributes (d : list N) : res (option attrs) :=
  match strip_extra d with None => Ok (Some []) | Some s => read_pairs (explode 32 s) [] end.

(** M_strdup of a pointer into the data *)
Definition strdup_on (s : list N) : res (list N) := do n <- strlen (s ++ tl); Ok (firstn n (s ++ tl)).

(** M_xml_read_tag_process, lines 510-597 *)
Definition tag_process (i : info) (st : state) : res (xerr + state) :=
  match t_type i with
  | TDecl =>
    if is_nil (t_name i) then Ok (inl EGeneric)
    else do d <- strdup_on (t_after i); Ok (inr (add_child (Decl (t_name i) d) st))
  | TPi | TStart | TEmpty =>
    if is_nil (t_name i) then Ok (inl EGeneric)
    else
    do a <- read_attributes (t_body i);
    match a with
    | None => Ok (inl EAttrExists)
    | Some a =>
      match t_type i with
      | TStart => Ok (inr {| s_open := (t_name i, a, []) :: s_open st; s_doc := s_doc st |})
      | TPi => Ok (inr (add_child (Pi (t_name i) a []) st))
      | _ => Ok (inr (add_child (Elem (t_name i) a []) st))
      end
    end
  | TEnd =>
    match s_open st with
    | [] => Ok (inl EIneligible)
    | (name, a, ch) :: o =>
      if (if r_casecmp fl then caseeqb else str_eqb) (t_name i) name
      then Ok (inr (add_child (Elem name a (rev ch)) {| s_open := o; s_doc := s_doc st |}))
      else Ok (inl EUnexpectedClose)
    end
  | TCdata =>
    do t <- (if r_raw_text fl then strdup_on (t_after i)
             else do x <- xml_entities_decode (t_after i ++ tl) (length (t_body i)) g; Ok (cstr x));
    Ok (inr (add_child (Text t) st))
  | TComment => if r_ignore_comments fl then Ok (inr st) else Ok (inr (add_child (Comment (trim (cstr (t_body i)))) st))
  end.

Fixpoint take_to_tag (s : list N) : list N := match s with c :: s' => if c =? 60 then [] else c :: take_to_tag s' | [] => [] end.
(** M_xml_read_text, lines 640-682; the parent is the document or an element, and then
    M_xml_create_text succeeds. *)
Definition read_text (s : list N) (st : state) : res (list N * state) :=
  let seg := take_to_tag s in
  let t := trim seg in
  do x <- (if r_raw_text fl then Ok t else xml_entities_decode (t ++ [0]) (length t) g);
  Ok (skipn (length seg) s, add_child (Text (cstr x)) st).

(** One turn of the loop of M_xml_read, lines 737-778: the next position and state, an
    error, or the end. *)
Inductive turn := Next (s : list N) (st : state) | Fail (e : xerr) | Stop.
Definition read_turn (c : N) (s' : list N) (st : state) : res turn :=
  if chr_isspace c then Ok (Next s' st)
  else if is_nil (s_open st) && existsb is_elem (s_doc st) then Ok (if want then Stop else Fail EExpectedEnd)
  else if c =? 60 then
    match tag_info (c :: s') with
    | inl e => Ok (Fail e)
    | inr i => do r <- tag_process i st; match r with inl e => Ok (Fail e) | inr st' => Ok (Next (t_rest i) st') end
    end
  else do '(s2, st') <- read_text (c :: s') st; Ok (Next s2 st').

(** M_xml_read from the loop on, lines 737-798: an error, or the document's children and
    the data not processed. *)
Definition read_end (s : list N) (st : state) : xerr + (list node * list N) :=
  match s_open st with
  | _ :: _ => inl EMissingClose
  | [] => if existsb is_elem (s_doc st) then inr (rev (s_doc st), s) else inl ENoElements
  end.
Fixpoint read_loop (fuel : nat) (s : list N) (st : state) : res (xerr + (list node * list N)) :=
  match fuel with
  | O => Fuel
  | S f =>
    match s with
    | [] => Ok (read_end s st)
    | c :: s' =>
      do t <- read_turn c s' st;
      match t with
      | Next s2 st2 => read_loop f s2 st2
      | Fail e => Ok (inl e)
      | Stop => Ok (read_end s st)
      end
    end
  end.
End Read.

(** M_xml_read, lines 709-798: [n] bytes of [m]; the document's children and *processed_len. *)
Definition xml_read (g : N) (fl : rflags) (want : bool) (m : list N) (n : nat) : res (xerr + (list node * nat)) :=
  if (n =? 0)%nat then Ok (inl EMisuse)
  else
  do r <- read_loop g fl (skipn n m) want (S n) (firstn n m) {| s_open := []; s_doc := [] |};
  match r with
  | inl e => Ok (inl e)
  | inr (doc, rest) => Ok (inr (doc, (n - length rest)%nat))
  end.

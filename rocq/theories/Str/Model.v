(** Model of the string functions of base/data/m_str.c: explode, implode, trim,
    quote, unquote, replace, justify and the small editing functions.

    A [char *] argument is the list of bytes of the object it points to,
    starting at the pointer; access outside is UB.  [char] is taken as signed
    (x86, arm-macOS): comparing a [char] with an [unsigned char] parameter
    succeeds only below 128, see [ceq].  An output buffer built with M_buf is
    the list of bytes appended to it (M_buf itself is modelled in Buf).  NULL
    arguments are not modelled. *)
From Verif Require Import Base.Lib Base.Mem Hex.Model.
Local Open Scope N_scope.

(** [(char)c == (unsigned char)q] after the integer promotions. *)
Definition ceq (c q : N) : bool := (c =? q) && (c <? 128).

(** ** M_str_explode: base/data/m_str.c:826-879 *)

(** Lines 850-854 *)
Fixpoint count_delims (dup : list N) (delim : N) (i n : nat) (num : nat) : res nat :=
  match n with
  | O => Ok num
  | S n' =>
    do c <- rd dup i;
    count_delims dup delim (S i) n' (if c =? delim then S num else num)
  end.

(** Lines 862-873: pointers into [dupstr] are offsets; [out] and [lens] are the
    two malloc'ed arrays. *)
Fixpoint explode_loop (delim : N) (i n : nat) (dup : list N) (out lens : list nat) (num : nat)
  : res (list N * list nat * list nat * nat) :=
  match n with
  | O => Ok (dup, out, lens, num)
  | S n' =>
    do c <- rd dup i;
    if negb (c =? delim) then explode_loop delim (S i) n' dup out lens num
    else
    do dup <- wr dup i 0;
    do out <- wr out num (S i);
    do start <- rd out (num - 1);
    do lens <- wr lens (num - 1)%nat (i - start)%nat;
    explode_loop delim (S i) n' dup out lens (S num)
  end.

(** Uninitialised malloc memory is filled with [g] (the theorems hold for every
    [g]).  Result: [None] for NULL, otherwise the block, the piece pointers and
    the lengths. *)
Definition explode (delim : N) (s : list N) (s_len : nat) (g : nat) : res (option (list N * list nat * list nat)) :=
  do c <- rd s 0;
  if c =? 0 then Ok None
  else
  do body <- rdn s 0 s_len;
  let dup := body ++ [0] in
  do num <- count_delims dup delim 0 s_len 1;
  do out <- wr (repeat g num) 0 0%nat;
  do '(dup, out, lens, k) <- explode_loop delim 0 s_len dup out (repeat g num) 1;
  do start <- rd out (k - 1);
  do lens <- wr lens (k - 1)%nat (s_len - start)%nat;
  Ok (Some (dup, out, lens)).

(** ** M_str_implode: base/data/m_str.c:149-176, 1134-1171 (non-NULL strings,
    given without terminator) *)

Definition has_restricted (s : list N) (delim enc esc : N) : bool :=
  existsb (fun c => ceq c delim || ceq c enc || ceq c esc) s.

Definition implode_escape (s : list N) (enc esc : N) : list N :=
  flat_map (fun c => if ceq c enc || ceq c esc then [esc; c] else [c]) s.

Definition implode_one (delim enc esc : N) (always : bool) (s : list N) : list N :=
  let r := has_restricted s delim enc esc in
  if always || r then [enc] ++ (if r then implode_escape s enc esc else s) ++ [enc] else s.

Fixpoint implode_loop (delim enc esc : N) (always : bool) (i : nat) (strs : list (list N)) (buf : list N) : list N :=
  match strs with
  | [] => buf
  | s :: strs' =>
    let buf := if (i =? 0)%nat then buf else buf ++ [delim] in
    implode_loop delim enc esc always (S i) strs' (buf ++ implode_one delim enc esc always s)
  end.

Definition implode (delim enc esc : N) (always : bool) (strs : list (list N)) : option (list N) :=
  match strs with [] => None | _ => Some (implode_loop delim enc esc always 0 strs []) end.

(** ** M_str_trim_max: base/data/m_str.c:1251-1286 *)

Definition str_len_opt (s : list N) (max : option nat) : res nat :=
  match max with None => strlen s | Some m => strlen_max s m end.

(** Line 1265 *)
Fixpoint lead_space (s : list N) (i n : nat) : res nat :=
  match n with
  | O => Ok i
  | S n' => do c <- rd s i; if chr_isspace c then lead_space s (S i) n' else Ok i
  end.
(** Line 1280; counts down from [i]-1 (the result is the C variable i plus 1). *)
Fixpoint trail_space (s : list N) (i : nat) : res nat :=
  match i with
  | O => Ok O
  | S i' => do c <- rd s i'; if chr_isspace c then trail_space s i' else Ok i
  end.

(** [max = None] is SIZE_MAX, i.e. M_str_trim. *)
Definition trim_max (s : list N) (max : option nat) : res (list N) :=
  do len <- str_len_opt s max;
  if (len =? 0)%nat then Ok s
  else
  do i <- lead_space s 0 len;
  if (i =? len)%nat then wr s 0 0
  else
  do '(s, len) <-
    (if (i =? 0)%nat then Ok (s, len)
     else
     do s <- mmove s 0 i (len - i);
     do s <- wr s (len - i) 0;
     Ok (s, (len - i)%nat));
  do j <- trail_space s len;
  wr s j 0.

(** ** M_str_quote_max, M_str_unquote_max: base/data/m_str.c:1530-1609 *)

(** Lines 1596-1602; [buf] is the output so far. *)
Fixpoint quote_loop (s : list N) (quote escape : N) (i n start : nat) (buf : list N) : res (nat * list N) :=
  match n with
  | O => Ok (start, buf)
  | S n' =>
    do c <- rd s i;
    if ceq c quote || ceq c escape then
      do b <- rdn s start (i - start);
      quote_loop s quote escape (S i) n' i (buf ++ b ++ [escape])
    else quote_loop s quote escape (S i) n' start buf
  end.

Definition str_quote_max (s : list N) (quote escape : N) (max : option nat) : res (list N) :=
  do c <- rd s 0;
  if c =? 0 then Ok []
  else
  do len <- str_len_opt s max;
  do '(start, buf) <- quote_loop s quote escape 0 len 0 [quote];
  do b <- (if (start <? len)%nat then rdn s start (len - start) else Ok []);
  Ok (buf ++ b ++ [quote]).

(** Lines 1561-1569 *)
Fixpoint unquote_loop (fuel : nat) (s : list N) (quote escape : N) (i len : nat) : res (list N) :=
  match fuel with
  | O => Fuel
  | S fuel' =>
    if (i <? len)%nat then
      do c <- rd s i;
      if c =? escape then
        do d <- rd s (i + 1);
        if ceq d escape || ceq d quote then
          do s <- mmove s i (i + 1) (len - i);
          unquote_loop fuel' s quote escape (S i) (len - 1)
        else unquote_loop fuel' s quote escape (S i) len
      else unquote_loop fuel' s quote escape (S i) len
    else Ok s
  end.

Definition str_unquote_max (s : list N) (quote escape : N) (max : option nat) : res (list N) :=
  do s <- trim_max s max;
  do c <- rd s 0;
  if c =? 0 then Ok s
  else
  do len <- str_len_opt s max;
  if (len =? 1)%nat then Ok s
  else
  do e <- rd s (len - 1);
  if negb (ceq c quote) || negb (ceq e quote) then Ok s
  else
  do s <- wr s (len - 1) 0;
  do s <- mmove s 0 1 (len - 1);
  unquote_loop (S len) s quote escape 0 (len - 2).

(** ** M_strdup_replace_str: base/data/m_str.c:1744-1786 *)

(** strstr from the C standard: the offset of the first occurrence. *)
Fixpoint is_prefix (b s : list N) : bool :=
  match b, s with
  | [], _ => true
  | x :: b', y :: s' => (x =? y) && is_prefix b' s'
  | _ :: _, [] => false
  end.
Fixpoint strstr (s b : list N) : option nat :=
  if is_prefix b s then Some 0%nat
  else match s with [] => None | _ :: s' => option_map S (strstr s' b) end.

(** The loop of lines 1765-1780 on the string contents [s]; [p], [lp] are
    offsets.  Result: final [lp] and the output. *)
Fixpoint replace_loop (fuel : nat) (s b a : list N) (p lp : nat) (buf : list N) : res (nat * list N) :=
  match fuel with
  | O => Fuel
  | S fuel' =>
    match strstr (skipn p s) b with
    | None => Ok (lp, buf)
    | Some k =>
      let p := (p + k)%nat in
      let buf := buf ++ firstn (p - lp) (skipn lp s) ++ a in
      let p := (p + length b)%nat in
      if (length s <=? p)%nat then Ok (lp, buf)
      else replace_loop fuel' s b a p p buf
    end
  end.

Definition replace_str (s b a : list N) : res (list N) :=
  match s, b with
  | [], _ => Ok []
  | _, [] => Ok s
  | _, _ =>
    do '(lp, buf) <- replace_loop (S (length s)) s b a 0 0 [];
    Ok (if (lp <=? length s)%nat then buf ++ skipn lp s else buf)
  end.

(** ** M_str_justify_max: base/data/m_str.c:1826-1923 *)

(** include/mstdlib/base/m_str.h:715-740 *)
Inductive just :=
| JRight | JLeft | JRightTruncRight | JLeftTruncRight | JRightNoTrunc | JLeftNoTrunc
| JTruncRight | JTruncLeft | JCenter | JCenterTruncRight | JCenterNoTrunc.

Definition no_trunc (j : just) : bool :=
  match j with JLeftNoTrunc | JRightNoTrunc | JCenterNoTrunc => true | _ => false end.

(** Lines 1850-1883: where the copied part starts, its length, and [justlen]. *)
Definition just_in (j : just) (srclen justlen : nat) : nat * nat * nat :=
  if (justlen <? srclen)%nat then
    match j with
    | JRightTruncRight | JLeftTruncRight | JCenterTruncRight | JTruncRight => (0, justlen, justlen)%nat
    | JRight | JLeft | JCenter | JTruncLeft => (srclen - justlen, justlen, justlen)%nat
    | _ => (0, justlen, justlen)%nat
    end
  else
    match j with
    | JTruncRight | JTruncLeft => (0, srclen, srclen)%nat
    | _ => (0, srclen, justlen)%nat
    end.

(** Lines 1885-1908 *)
Definition just_fill (j : just) (srclen justlen : nat) : nat * nat :=
  match j with
  | JRight | JRightTruncRight | JRightNoTrunc => (justlen - srclen, 0)%nat
  | JLeft | JLeftTruncRight | JLeftNoTrunc | JTruncLeft | JTruncRight => (0, justlen - srclen)%nat
  | JCenter | JCenterTruncRight | JCenterNoTrunc => ((justlen - srclen + 1) / 2, (justlen - srclen) / 2)%nat
  end.

(** [dest] and [src] are distinct objects. *)
Definition justify_max (dest : list N) (destlen : nat) (src : list N) (srclen : nat) (j : just) (ch : N) (justlen : nat)
  : res (nat * list N) :=
  if (destlen <=? justlen)%nat then Ok (0%nat, dest)
  else if no_trunc j && (justlen <? srclen)%nat then Ok (0%nat, dest)
  else
  let '(inptr, srclen, justlen) := just_in j srclen justlen in
  let '(llen, rlen) := just_fill j srclen justlen in
  do dest <- (if (srclen =? 0)%nat then Ok dest else do l <- rdn src inptr srclen; wrn dest llen l);
  do dest <- (if (llen =? 0)%nat then Ok dest else wrn dest 0 (repeat ch llen));
  do dest <- (if (rlen =? 0)%nat then Ok dest else wrn dest (llen + srclen) (repeat ch rlen));
  do dest <- wr dest justlen 0;
  Ok (justlen, dest).

(** ** Small editing functions *)

(** base/data/m_str.c:1639-1656 *)
Definition str_cat (dest : list N) (dest_len : nat) (src : list N) : res (bool * list N) :=
  if (dest_len =? 0)%nat then Ok (false, dest)
  else
  do dlen <- strlen dest;
  do slen <- strlen src;
  if (dest_len <=? dlen + slen)%nat then Ok (false, dest)
  else
  do l <- rdn src 0 slen;
  do dest <- wrn dest dlen l;
  do dest <- wr dest (dlen + slen) 0;
  Ok (true, dest).

(** base/data/m_str.c:1800-1817; [src_len = None] is SIZE_MAX (M_str_cpy). *)
Definition str_cpy_max (dest : list N) (dest_len : nat) (src : list N) (src_len : option nat) : res (bool * list N) :=
  if (dest_len =? 0)%nat then Ok (false, dest)
  else
  do src_len <- (match src_len with None => strlen src | Some n => Ok n end);
  let copy_len := Nat.min src_len (dest_len - 1) in
  do l <- rdn src 0 copy_len;
  do dest <- wrn dest 0 l;
  do dest <- wr dest copy_len 0;
  Ok (true, dest).

(** base/data/m_str.c:1658-1696: M_str_delete_spaces with [drop] =
    M_chr_isspace, M_str_delete_newlines with [drop] = CR or LF. *)
Fixpoint delete_loop (drop : N -> bool) (s : list N) (src dst n : nat) : res (list N * nat) :=
  match n with
  | O => Ok (s, dst)
  | S n' =>
    do c <- rd s src;
    if negb (drop c) then do s <- wr s dst c; delete_loop drop s (S src) (S dst) n'
    else delete_loop drop s (S src) dst n'
  end.
Definition str_delete (drop : N -> bool) (s : list N) : res (list N) :=
  do len <- strlen s;
  do '(s, dst) <- delete_loop drop s 0 0 len;
  wr s dst 0.

(** base/data/m_str.c:178-192 (M_str_map_max, used by M_str_lower and
    M_str_upper) and 1698-1714 (M_str_replace_chr): apply [f] in place. *)
Fixpoint map_loop (f : N -> N) (s : list N) (i : nat) (n : nat) : res (list N) :=
  match n with
  | O => Ok s
  | S n' =>
    do c <- rd s i;
    if c =? 0 then Ok s else do s <- wr s i (f c); map_loop f s (S i) n'
  end.

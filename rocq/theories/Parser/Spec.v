(** The parser as a byte stream: what has been consumed, what is still to be
    read, and the marked positions (counted from the start of the stream). *)
From Verif Require Import Base.Lib.
Local Open Scope N_scope.

Record stream := mks { past : list N; rest : list N; um : option nat; im : option nat }.
Definition start_stream (d : list N) : stream := mks [] d None None.

(** ** Searching lists *)
Fixpoint prefixb (pat l : list N) : bool :=
  match pat, l with
  | [], _ => true
  | x :: pat', y :: l' => (x =? y) && prefixb pat' l'
  | _ :: _, [] => false
  end.
Fixpoint find_first (pat l : list N) : option nat :=
  if prefixb pat l then Some O else match l with [] => None | _ :: l' => option_map S (find_first pat l') end.
Fixpoint find_last (pat l : list N) : option nat :=
  match l with
  | [] => if prefixb pat [] then Some O else None
  | _ :: l' =>
    match find_last pat l' with
    | Some k => Some (S k)
    | None => if prefixb pat l then Some O else None
    end
  end.
(** Length of the longest prefix (suffix) of elements satisfying f. *)
Fixpoint span (f : N -> bool) (l : list N) : nat :=
  match l with [] => O | x :: l' => if f x then S (span f l') else O end.
Definition tail_span (f : N -> bool) (l : list N) : nat := span f (rev l).

(** Length of the white space in front: up to and including the first newline
    with [nl], only blanks with [sp]. *)
Definition space (c : N) : bool := existsb (N.eqb c) [32; 9; 10; 11; 12; 13].
Fixpoint white (nl sp : bool) (l : list N) : nat :=
  match l with
  | [] => O
  | c :: l' =>
    if nl && (c =? 10) then 1%nat
    else if (if sp then c =? 32 else space c) then S (white nl sp l') else O
  end.
Fixpoint line_length (l : list N) : nat :=
  match l with [] => O | c :: l' => if c =? 10 then 1%nat else S (line_length l') end.

(** ** Numbers *)
Definition be_value (l : list N) : N := fold_left (fun v b => v * 256 + b) l 0.
(** Two decimal digits per byte, highest first *)
Definition bcd_value (l : list N) : N := fold_left (fun v b => (v * 10 + b / 16) * 10 + b mod 16) l 0.

(** ** Lines and columns *)
Definition newlines (l : list N) : nat := count_occ N.eq_dec l 10.
(** Bytes since the last newline *)
Definition column (l : list N) : nat := tail_span (fun c => negb (c =? 10)) l.

(** ** Operations *)
Inductive out := RBool (b : bool) | RLen (n : nat) | RBytes (n : nat) (l : list N) | RVal (v : option N).

Inductive op :=
| Append (d : list N) | DirectWrite (want : nat) (d : list N)
| Consume (n : nat) | Truncate (n : nat)
| Mark | MarkClear | MarkRewind | MarkLen | PeekMark
| Len | Offset | PeekBytes (n : nat) | Compare (d : list N)
| ReadBytes (n : nat) | ReadBytesMax (n buf_len : nat) | ReadMark (buf_len : nat)
| ConsumeUntil (pat : list N) (eat : bool) | ConsumePred (f : N -> bool) (max : nat)
| ConsumeSet (cs : list N) (inclusion : bool) | ConsumeWhite (nl sp : bool) | ConsumeEol
| TruncUntil (pat : list N) (eat : bool) | TruncSet (cs : list N) | TruncPred (f : N -> bool) (max : nat)
| ReadUntil (buf_len : nat) (pat : list N) (eat : bool) | ReadSet (buf_len : nat) (cs : list N) (inclusion : bool)
| ReadPred (buf_len : nat) (f : N -> bool)
| ReadInt (len : nat) (big : bool) | ReadBcd (len : nat).

Definition adv (s : stream) (n : nat) : stream :=
  mks (past s ++ firstn n (rest s)) (skipn n (rest s)) (um s) (im s).
Definition cut (s : stream) (n : nat) : stream := mks (past s) (firstn n (rest s)) (um s) (im s).
(** Number of bytes consumed since a mark *)
Definition since (s : stream) (m : option nat) : nat := match m with None => O | Some k => (length (past s) - k)%nat end.
Definition back (s : stream) (n : nat) : stream :=
  let k := (length (past s) - n)%nat in
  let keep m := match m with Some x => if (x <=? k)%nat then m else None | None => None end in
  mks (firstn k (past s)) (skipn k (past s) ++ rest s) (keep (um s)) (keep (im s)).

(** Length of the piece a consuming search takes *)
Definition until (pat : list N) (eat : bool) (l : list N) : nat :=
  match pat with
  | [] => O
  | _ => match find_first pat l with None => O | Some k => if eat then (k + length pat)%nat else k end
  end.
Definition set_span (cs : list N) (inclusion : bool) (l : list N) : nat :=
  match cs with [] => O | _ => span (fun c => Bool.eqb (existsb (N.eqb c) cs) inclusion) l end.

(** A reading search: it fails when the piece is empty; when the piece does not
    fit the buffer it also fails, but the piece is consumed and an internal
    mark stays at its start. *)
Definition take (s : stream) (n buf_len : nat) : out * stream :=
  if (n =? 0)%nat then (RBytes 0 [], mks (past s) (rest s) (um s) None)
  else if (n <=? buf_len)%nat then
    let s' := adv s n in (RBytes n (firstn n (rest s)), mks (past s') (rest s') (um s') None)
  else let s' := adv s n in (RBytes 0 [], mks (past s') (rest s') (um s') (Some (length (past s)))).

(** [dyn]: made by M_parser_create *)
Definition sstep (dyn : bool) (s : stream) (o : op) : out * stream :=
  let l := rest s in
  match o with
  | Append d => if dyn then (RBool true, mks (past s) (l ++ d) (um s) (im s)) else (RBool false, s)
  | DirectWrite want d => if dyn then (RBool true, mks (past s) (l ++ d) (um s) (im s)) else (RBool true, s)
  | Consume n => if (n <=? length l)%nat then (RBool true, adv s n) else (RBool false, s)
  | Truncate n => if (n <=? length l)%nat then (RBool true, cut s n) else (RBool false, s)
  | Mark => (RBool true, mks (past s) l (Some (length (past s))) (im s))
  | MarkClear => (RBool true, mks (past s) l None (im s))
  | MarkRewind => let n := since s (um s) in (RLen n, if (n =? 0)%nat then s else back s n)
  | MarkLen => (RLen (since s (um s)), s)
  | PeekMark =>
    let n := since s (um s) in (RBytes n (skipn (length (past s) - n) (past s)), s)
  | Len => (RLen (length l), s)
  | Offset => (RLen (length (past s)), s)
  | PeekBytes n =>
    if (0 <? n)%nat && (n <=? length l)%nat then (RBytes 1 (firstn n l), s) else (RBytes 0 [], s)
  | Compare d => (RBool (negb (length d =? 0)%nat && prefixb d l), s)
  | ReadBytes n =>
    if (0 <? n)%nat && (n <=? length l)%nat then (RBytes 1 (firstn n l), adv s n) else (RBytes 0 [], s)
  | ReadBytesMax n bl =>
    if (n <=? bl)%nat then let k := Nat.min n (length l) in (RBytes k (firstn k l), adv s k) else (RBytes 0 [], s)
  | ReadMark bl =>
    let n := since s (um s) in
    if (n <=? bl)%nat && negb (n =? 0)%nat
    then (RBytes n (skipn (length (past s) - n) (past s)), mks (past s) l None (im s))
    else (RBytes 0 [], s)
  | ConsumeUntil pat eat => let n := until pat eat l in (RLen n, adv s n)
  | ConsumePred f max => let n := span f (firstn max l) in (RLen n, adv s n)
  | ConsumeSet cs inc => let n := set_span cs inc l in (RLen n, adv s n)
  | ConsumeWhite nl sp => let n := white nl sp l in (RLen n, adv s n)
  | ConsumeEol => let n := line_length l in (RLen n, adv s n)
  | TruncUntil pat eat =>
    let n := if (length pat =? 0)%nat || (length l <? length pat)%nat then O
             else match find_last pat l with
                  | None => length l
                  | Some k => if eat then (length l - k)%nat else (length l - k - length pat)%nat
                  end in
    (RLen n, cut s (length l - n))
  | TruncSet cs => let n := match cs with [] => O | _ => tail_span (fun c => existsb (N.eqb c) cs) l end in
    (RLen n, cut s (length l - n))
  | TruncPred f max => let n := Nat.min max (tail_span f l) in (RLen n, cut s (length l - n))
  | ReadUntil bl pat eat =>
    if (bl =? 0)%nat || (length pat =? 0)%nat then (RBytes 0 [], s) else take s (until pat eat l) bl
  | ReadSet bl cs inc =>
    if (bl =? 0)%nat || (length cs =? 0)%nat then (RBytes 0 [], s) else take s (set_span cs inc l) bl
  | ReadPred bl f => if (bl =? 0)%nat then (RBytes 0 [], s) else take s (span f (firstn bl l)) bl
  | ReadInt n big =>
    if (0 <? n)%nat && (n <=? 8)%nat && (n <=? length l)%nat
    then (RVal (Some (be_value (if big then firstn n l else rev (firstn n l)))), adv s n)
    else (RVal None, s)
  | ReadBcd n =>
    if (0 <? n)%nat && (n <=? 10)%nat && (n <=? length l)%nat
    then (RVal (Some (bcd_value (firstn n l) mod 2 ^ 64)), adv s n) else (RVal None, s)
  end.

Fixpoint srun (dyn : bool) (ops : list op) (s : stream) (outs : list out) : list out * stream :=
  match ops with
  | [] => (outs, s)
  | o :: ops' => let '(r, s') := sstep dyn s o in srun dyn ops' s' (r :: outs)
  end.

(** A caller keeps to the interface: bytes are bytes and a direct write does
    not exceed the space asked for.  [mark_safe]: data is not appended while
    nothing is left to read, a mark is set, and all marks are at the current
    position (nor at the very start of the stream); see the refutation in
    Props for what happens otherwise. *)
Definition mark_safe (s : stream) : Prop :=
  rest s = [] -> past s = [] \/ (um s = None /\ im s = None) \/ (since s (um s) > 0)%nat \/ (since s (im s) > 0)%nat.
Definition allowed (s : stream) (o : op) : Prop :=
  match o with
  | Append d => is_bytes d /\ (d <> [] -> mark_safe s)
  | DirectWrite want d => is_bytes d /\ (length d <= want)%nat /\ (want <> O -> mark_safe s)
  | _ => True
  end.
Fixpoint all_allowed (dyn : bool) (ops : list op) (s : stream) : Prop :=
  match ops with
  | [] => True
  | o :: ops' => allowed s o /\ all_allowed dyn ops' (snd (sstep dyn s o))
  end.

(** ** Marks *)
(** Operations that neither touch the user's mark nor truncate *)
Definition keeps_mark (o : op) : bool :=
  match o with
  | Mark | MarkClear | MarkRewind | ReadMark _ | Truncate _ | TruncUntil _ _ | TruncSet _ | TruncPred _ _ => false
  | _ => true
  end.
Definition appended (o : op) : list N := match o with Append d | DirectWrite _ d => d | _ => [] end.
Definition all_appended (ops : list op) : list N := concat (map appended ops).

(** ** Boundaries *)
(** What consuming up to a boundary should do: whether the boundary occurs in
    [l], and how much of [l] lies before its first occurrence, or else before
    the longest rest of [l] with which an occurrence could begin. *)
Definition boundary_at (pat l : list N) (found : bool) (n : nat) : Prop :=
  (n <= length l)%nat /\
  if found then prefixb pat (skipn n l) = true /\ forall q, (q < n)%nat -> prefixb pat (skipn q l) = false
  else (forall q, prefixb pat (skipn q l) = false) /\
       prefixb (skipn n l) pat = true /\ forall q, (q < n)%nat -> prefixb (skipn q l) pat = false.

(** No match of [pat] that breaks off inside [l] overlaps the start of another
    one (up to the byte at which it breaks off). *)
Definition breaks_clean (pat l : list N) : Prop :=
  forall a j q c, firstn j (skipn a l) = firstn j pat -> (j < length pat)%nat ->
    nth_error l (a + j) = Some c -> nth_error pat j <> Some c ->
    (a < q <= a + j)%nat -> firstn (a + j + 1 - q) (skipn q l) <> firstn (a + j + 1 - q) pat.

(** ** Trailing white space *)
Definition blank (nl sp : bool) (c : N) : bool :=
  space c && (negb nl || negb (c =? 10)) && (negb sp || (c =? 32)).
(** Length of the data left: with [nl] one final newline goes first. *)
Definition tail_white_left (nl sp : bool) (l : list N) : nat :=
  let l := if nl && (last l 0 =? 10) then removelast l else l in
  (length l - tail_span (blank nl sp) l)%nat.

(** What the string functions are expected to do, on contents without
    terminators. *)
From Verif Require Import Base.Lib Base.Mem Str.Model.
Local Open Scope N_scope.

(** The pieces [ps] joined with one [d] between neighbours. *)
Fixpoint join (d : N) (ps : list (list N)) : list N :=
  match ps with
  | [] => []
  | [p] => p
  | p :: ps' => p ++ d :: join d ps'
  end.

(** The starting offsets of pieces stored one after the other, each followed by
    one byte. *)
Fixpoint starts (o : nat) (ps : list (list N)) : list nat :=
  match ps with [] => [] | p :: ps' => o :: starts (o + length p + 1) ps' end.

Definition is_space (c : N) : Prop := c = 9 \/ c = 10 \/ c = 11 \/ c = 12 \/ c = 13 \/ c = 32.

(** [t] is [s] without its surrounding white space. *)
Definition trimmed (s t : list N) : Prop :=
  exists w1 w2, s = w1 ++ t ++ w2 /\ Forall is_space w1 /\ Forall is_space w2 /\
    (forall c t', t = c :: t' -> ~ is_space c) /\ (forall c t', t = t' ++ [c] -> ~ is_space c).

(** [x] is what precedes the first occurrence of [b] in [s], [y] what follows. *)
Definition first_occ (b s x y : list N) : Prop :=
  s = x ++ b ++ y /\ forall x' y', s = x' ++ b ++ y' -> (length x <= length x')%nat.

(** Left-to-right replacement of the non-overlapping occurrences of [b]. *)
Inductive replaced (b a : list N) : list N -> list N -> Prop :=
| rp_none s : (forall x y, s <> x ++ b ++ y) -> replaced b a s s
| rp_hit s x y r : first_occ b s x y -> replaced b a y r -> replaced b a s (x ++ a ++ r).

(** The scan ends with a match that reaches the end of [s]; [t] is what
    follows the match before. *)
Inductive ends_in_match (b : list N) : list N -> list N -> Prop :=
| em_end s x : first_occ b s x [] -> ends_in_match b s s
| em_hit s x y t : first_occ b s x y -> ends_in_match b y t -> ends_in_match b s t.

(** [out] is [src] fitted into [w] columns with the padding byte [ch]; the
    modes are those of enum M_str_justify_type (only the names are taken from the model). *)
Definition justified (j : just) (src : list N) (ch : N) (w : nat) (out : list N) : Prop :=
  ((length src <= w)%nat ->
     match j with
     | JTruncRight | JTruncLeft => out = src
     | JLeft | JLeftTruncRight | JLeftNoTrunc => length out = w /\ exists k, out = src ++ repeat ch k
     | JRight | JRightTruncRight | JRightNoTrunc => length out = w /\ exists k, out = repeat ch k ++ src
     | JCenter | JCenterTruncRight | JCenterNoTrunc =>
         length out = w /\ exists k l, out = repeat ch k ++ src ++ repeat ch l /\ (l <= k <= l + 1)%nat
     end) /\
  ((w < length src)%nat ->
     length out = w /\
     match j with
     | JTruncRight | JLeftTruncRight | JRightTruncRight | JCenterTruncRight => exists x, src = out ++ x
     | JTruncLeft | JLeft | JRight | JCenter => exists x, src = x ++ out
     | JLeftNoTrunc | JRightNoTrunc | JCenterNoTrunc => False
     end).

(** Reading a record back: fields separated by [d]; a field starting with [e]
    runs to the next [e] not preceded by the escape character [x]. *)
Inductive fmode := FStart | FPlain | FQuoted.
Fixpoint read_fields (d e x : N) (m : fmode) (cur s : list N) {struct s} : list (list N) :=
  match s with
  | [] => [rev cur]
  | c :: s' =>
    match m with
    | FQuoted =>
      match s' with
      | n :: s'' => if (c =? x) && ((n =? e) || (n =? x)) then read_fields d e x FQuoted (n :: cur) s''
                    else if c =? e then read_fields d e x FPlain cur s'
                    else read_fields d e x FQuoted (c :: cur) s'
      | [] => if c =? e then [rev cur] else [rev (c :: cur)]
      end
    | _ => if c =? d then rev cur :: read_fields d e x FStart [] s'
           else if match m with FStart => c =? e | _ => false end then read_fields d e x FQuoted [] s'
           else read_fields d e x FPlain (c :: cur) s'
    end
  end.

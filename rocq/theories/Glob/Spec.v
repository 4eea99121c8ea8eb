(** Glob patterns as syntax, how they are written, and what they match. *)
From Verif Require Import Base.Lib.
Local Open Scope N_scope.

(** Members of a bracket expression: a character, an escaped [ ? or *, a
    range. *)
Inductive item := IChar (c : N) | IEsc (c : N) | IRange (lo hi : N).
Inductive tok :=
| TLit (c : N)        (** an ordinary character *)
| TEsc (c : N)        (** an escaped [, ], ?, * or \ *)
| TAny                (** ? *)
| TStar               (** * *)
| TSet (neg : bool) (items : list item).

Definition show_item (i : item) : list N :=
  match i with IChar c => [c] | IEsc c => [92; c] | IRange lo hi => [lo; 45; hi] end.
Definition show_tok (t : tok) : list N :=
  match t with
  | TLit c => [c]
  | TEsc c => [92; c]
  | TAny => [63]
  | TStar => [42]
  | TSet neg items => [91] ++ (if neg then [33] else []) ++ flat_map show_item items ++ [93]
  end.
Definition show (ts : list tok) : list N := flat_map show_tok ts.

(** ASCII lower case *)
Definition lower (c : N) : N := if (65 <=? c) && (c <=? 90) then c + 32 else c.
Definition same (nocase : bool) (c x : N) : Prop := if nocase then lower c = lower x else c = x.

Definition member (nocase : bool) (x : N) (i : item) : Prop :=
  match i with
  | IChar c => same nocase c x
  | IEsc c => c = x
  | IRange lo hi => lo <= x <= hi
  end.

(** The strings a pattern matches. *)
Inductive lang (nocase : bool) : list tok -> list N -> Prop :=
| l_nil : lang nocase [] []
| l_lit c x ts s : same nocase c x -> lang nocase ts s -> lang nocase (TLit c :: ts) (x :: s)
| l_esc c ts s : lang nocase ts s -> lang nocase (TEsc c :: ts) (c :: s)
| l_any x ts s : lang nocase ts s -> lang nocase (TAny :: ts) (x :: s)
| l_star s1 s2 ts : lang nocase ts s2 -> lang nocase (TStar :: ts) (s1 ++ s2)
| l_in x items ts s : Exists (member nocase x) items -> lang nocase ts s -> lang nocase (TSet false items :: ts) (x :: s)
| l_out x items ts s : ~ Exists (member nocase x) items -> lang nocase ts s -> lang nocase (TSet true items :: ts) (x :: s).

(** ** Well-formed patterns *)

(** Characters that stand for themselves inside brackets at any place. *)
Definition plain (c : N) : Prop := c <> 92 /\ c <> 93 /\ c <> 45.
Definition wf_item (nocase : bool) (i : item) : Prop :=
  match i with
  | IChar c => plain c
  | IEsc c => c = 91 \/ c = 63 \/ c = 42
  | IRange lo hi => nocase = false /\ plain lo /\ plain hi /\ lo <= hi /\ hi < 128
  end.
(** ']' may come first, '-' first or last, and '!' not first unless the set is
    negated. *)
Definition wf_set (nocase neg : bool) (items : list item) : Prop :=
  items <> [] /\
  exists pre mid post, items = pre ++ mid ++ post /\
    (pre = [] \/ pre = [IChar 93] \/ pre = [IChar 45]) /\ (post = [] \/ post = [IChar 45]) /\
    Forall (wf_item nocase) mid /\
    (neg = false -> forall r, flat_map show_item items <> 33 :: r).
Definition wf_tok (nocase : bool) (t : tok) : Prop :=
  match t with
  | TLit c => c <> 92 /\ c <> 91 /\ c <> 93 /\ c <> 63 /\ c <> 42
  | TEsc c => c = 91 \/ c = 93 \/ c = 63 \/ c = 42 \/ c = 92
  | TAny | TStar => True
  | TSet neg items => wf_set nocase neg items
  end.

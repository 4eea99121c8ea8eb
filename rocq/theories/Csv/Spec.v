(** CSV texts and the tables they stand for (RFC 4180, with any delimiter and quote,
    either line end, rows of any length). *)
From Verif Require Import Base.Lib Base.Mem Str.Spec.
Local Open Scope N_scope.

Section Csv.
Variables delim quote : N.

(** Usable control characters. *)
Definition controls : Prop := delim <> quote /\ delim <> 10 /\ delim <> 13 /\ quote <> 10 /\ quote <> 13 /\ quote <> 0.

Definition plain (c : N) : Prop := c <> 0 /\ c <> delim /\ c <> quote /\ c <> 10 /\ c <> 13.

(** Quotes inside a quoted cell are doubled. *)
Definition doubled (s : list N) : list N := flat_map (fun c => if c =? quote then [quote; quote] else [c]) s.

(** The value of a cell that is not quoted: an empty one is NULL. *)
Definition plain_value (trim : bool) (s : list N) (v : option (list N)) : Prop :=
  exists t, (if trim then trimmed s t else t = s) /\ v = match t with [] => None | _ => Some t end.

(** A cell: its text and its value. *)
Inductive Cell (trim : bool) : list N -> option (list N) -> Prop :=
| C_plain s v : Forall plain s -> plain_value trim s v -> Cell trim s v
| C_quoted s : no_nul s -> Cell trim (quote :: doubled s ++ [quote]) (Some s).

(** A row: at least one cell. *)
Inductive Row (trim : bool) : list N -> list (option (list N)) -> Prop :=
| R_one t v : Cell trim t v -> Row trim t [v]
| R_more t v ts vs : Cell trim t v -> Row trim ts vs -> Row trim (t ++ delim :: ts) (v :: vs).

Definition eol (e : list N) : Prop := e = [10] \/ e = [13; 10].

(** A text: rows with their line ends; the last may lack it. *)
Inductive Text (trim : bool) : list N -> list (list (option (list N))) -> Prop :=
| T_last t vs : Row trim t vs -> t <> [] -> Text trim t [vs]
| T_end t vs e : Row trim t vs -> eol e -> Text trim (t ++ e) [vs]
| T_more t vs e ts vss : Row trim t vs -> eol e -> Text trim ts vss -> Text trim (t ++ e ++ ts) (vs :: vss).

(** What the reader is known to get wrong: a quoted cell of nothing but quotes. *)
Definition only_quotes (v : option (list N)) : Prop := exists n, v = Some (repeat quote (S n)).
End Csv.

(** The table has as many columns as its first row: other rows are cut or filled up
    with NULL. *)
Definition cell_of (vss : list (list (option (list N)))) (row col : nat) : option (list N) :=
  if (col <? length (nth 0 vss []))%nat then nth col (nth row vss []) None else None.

(** Written cells: the writer has no text for an empty string other than NULL's. *)
Definition null_if_empty (v : option (list N)) : option (list N) := match v with Some [] => None | _ => v end.

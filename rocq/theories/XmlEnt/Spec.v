(** Entities of XML: what a text with references stands for. *)
From Verif Require Import Base.Lib StrEq.Spec XmlEnt.Model.
Local Open Scope N_scope.

(** The five predefined entities and the three needed between double quotes (XML 1.0,
    4.6 and 2.4), and the two character references that the library knows. *)
Definition reference (c : N) (e : list N) : Prop :=
  (c = 34 /\ e = [38; 113; 117; 111; 116; 59]) \/ (c = 39 /\ e = [38; 97; 112; 111; 115; 59]) \/ (c = 38 /\ e = [38; 97; 109; 112; 59]) \/
  (c = 62 /\ e = [38; 103; 116; 59]) \/ (c = 60 /\ e = [38; 108; 116; 59]).
Definition char_reference (c : N) (e : list N) : Prop := (c = 10 /\ e = [38; 35; 120; 65; 59]) \/ (c = 13 /\ e = [38; 35; 120; 68; 59]).
Definition in_text (c : N) : Prop := c = 34 \/ c = 39 \/ c = 38 \/ c = 62 \/ c = 60.
Definition in_attribute (c : N) : Prop := c = 34 \/ c = 38 \/ c = 60.

(** [t] is [s] with the characters in [special] replaced by their references. *)
Inductive Escaped (special : N -> Prop) : list N -> list N -> Prop :=
| E_nil : Escaped special [] []
| E_ref c e s t : special c -> reference c e -> Escaped special s t -> Escaped special (c :: s) (e ++ t)
| E_chr c s t : ~ special c -> Escaped special s t -> Escaped special (c :: s) (c :: t).

(** [t] stands for [s]: references from [known] are replaced (their names in any case),
    everything else is itself. *)
Inductive Stands (known : N -> list N -> Prop) : list N -> list N -> Prop :=
| S_nil : Stands known [] []
| S_ref c e e' t s : known c e -> nocase e' e -> Stands known t s -> Stands known (e' ++ t) (c :: s)
| S_chr c t s : (forall c' e e' r, known c' e -> nocase e' e -> c :: t <> e' ++ r) -> Stands known t s -> Stands known (c :: t) (c :: s).

Definition text_known (c : N) (e : list N) : Prop := reference c e \/ char_reference c e.
Definition attribute_known (c : N) (e : list N) : Prop := in_attribute c /\ reference c e.

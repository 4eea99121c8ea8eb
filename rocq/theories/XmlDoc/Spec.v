(** XML documents as text: which text stands for which tree (XML 1.0, 2.1-2.8 and 3.1,
    without document type declarations), independent of the reader and the writer.
    References in texts and attribute values are those of XmlEnt/Spec.v. *)
From Verif Require Import Base.Lib Base.Mem StrEq.Spec XmlEnt.Spec XmlDoc.Model.
Local Open Scope N_scope.

Definition space (c : N) : Prop := c = 32 \/ c = 9 \/ c = 10 \/ c = 11 \/ c = 12 \/ c = 13.
Definition spaces (w : list N) : Prop := Forall space w.
(** No white space at either end. *)
Definition tight (s : list N) : Prop := (forall c r, s = c :: r -> ~ space c) /\ (forall r c, s = r ++ [c] -> ~ space c).

(** Names: no white space and none of quotes, < > / ? ! = (XML allows fewer characters). *)
Definition name_char (c : N) : Prop := ~ space c /\ ~ In c [0; 34; 39; 60; 62; 47; 63; 33; 61].
Definition name (n : list N) : Prop := n <> [] /\ Forall name_char n.

(** [ k = 'v'] any number of times and white space. *)
Inductive Attrs : attrs -> list N -> Prop :=
| At_end : forall w, spaces w -> Attrs [] w
| At_cons : forall k v a w w1 w2 q e s, spaces w -> w <> [] -> name k -> spaces w1 -> spaces w2 -> (q = 34 \/ q = 39) -> ~ In q e ->
    Stands attribute_known e v -> Attrs a s ->
    Attrs ((k, v) :: a) (w ++ k ++ w1 ++ [61] ++ w2 ++ [q] ++ e ++ [q] ++ s).
(** Keys differ also without regard to case. *)
Definition distinct (a : attrs) : Prop := ForallOrdPairs (fun x y => ~ nocase (fst x) (fst y)) a.

(** The text of a text node: not blank, no tag. *)
Definition Textual (t e : list N) : Prop := e <> [] /\ tight e /\ ~ In 60 e /\ Stands text_known e t.
(** [e] followed by [mark] does not have [mark] any earlier; [mark] is [m] and one more character. *)
Definition ends_at (e m : list N) (c : N) : Prop := forall x y, e ++ m <> x ++ m ++ [c] ++ y.

Inductive Markup : node -> list N -> Prop :=
| M_empty : forall n a s, name n -> Attrs a s -> distinct a -> Markup (Elem n a []) ([60] ++ n ++ s ++ [47; 62])
| M_elem : forall n a s l c w, name n -> Attrs a s -> distinct a -> Content false l c -> spaces w ->
    Markup (Elem n a l) ([60] ++ n ++ s ++ [62] ++ c ++ [60; 47] ++ n ++ w ++ [62])
| M_pi : forall n a s, name n -> Attrs a s -> distinct a -> Markup (Pi n a []) ([60; 63] ++ n ++ s ++ [63; 62])
| M_comment : forall w t w', spaces w -> tight t -> spaces w' -> ends_at (w ++ t ++ w') [45; 45] 62 ->
    Markup (Comment t) ([60; 33; 45; 45] ++ w ++ t ++ w' ++ [45; 45; 62])
| M_cdata : forall t, ~ In 38 t -> ends_at t [93; 93] 62 ->
    Markup (Text t) ([60; 33; 91; 67; 68; 65; 84; 65; 91] ++ t ++ [93; 93; 62])
(** The content of an element; [true]: right after a text. *)
with Content : bool -> list node -> list N -> Prop :=
| C_end : forall b w, spaces w -> Content b [] w
| C_node : forall b w n s l r, spaces w -> Markup n s -> Content false l r -> Content b (n :: l) (w ++ s ++ r)
| C_text : forall w t e l r, spaces w -> Textual t e -> Content true l r -> Content false (Text t :: l) (w ++ e ++ r).

(** Comments and processing instructions, then one element. *)
Definition misc (n : node) : Prop := match n with Comment _ | Pi _ _ _ => True | _ => False end.
Definition element (n : node) : Prop := match n with Elem _ _ _ => True | _ => False end.
Inductive Document : list node -> list N -> Prop :=
| D_root : forall w n s w', spaces w -> element n -> Markup n s -> spaces w' -> Document [n] (w ++ s ++ w')
| D_misc : forall w n s d r, spaces w -> misc n -> Markup n s -> Document d r -> Document (n :: d) (w ++ s ++ r).

(** ** Trees that can be written so *)

Definition plain (s : list N) : Prop := no_nul s /\ is_bytes s.
Definition good_attrs (a : attrs) : Prop := distinct a /\ Forall (fun kv => name (fst kv) /\ plain (fst kv) /\ plain (snd kv)) a.
Definition good_text (t : list N) : Prop := t <> [] /\ tight t /\ plain t.
Definition good_comment (t : list N) : Prop := tight t /\ plain t /\ forall x y, t <> x ++ [45; 45; 62] ++ y.
(** The XML declaration has its attributes in their order, in small letters, first. *)
Definition s_xml : list N := [120; 109; 108].
Definition s_version : list N := [118; 101; 114; 115; 105; 111; 110].
Definition s_encoding : list N := [101; 110; 99; 111; 100; 105; 110; 103].
Definition s_standalone : list N := [115; 116; 97; 110; 100; 97; 108; 111; 110; 101].
Inductive Sub {A} : list A -> list A -> Prop :=
| Sub_nil : Sub [] []
| Sub_take : forall x l m, Sub l m -> Sub (x :: l) (x :: m)
| Sub_skip : forall x l m, Sub l m -> Sub l (x :: m).
Definition in_order (a : attrs) : Prop := exists b c, a = b ++ c /\ Sub (map fst b) [s_version; s_encoding; s_standalone] /\
  Forall (fun kv => ~ nocase (fst kv) s_version /\ ~ nocase (fst kv) s_encoding /\ ~ nocase (fst kv) s_standalone) c.

(** No two texts side by side. *)
Fixpoint apart (l : list node) : Prop :=
  match l with
  | Text _ :: Text _ :: _ => False
  | _ :: l' => apart l'
  | [] => True
  end.
Inductive Good : node -> Prop :=
| G_elem : forall n a l, name n -> plain n -> good_attrs a -> Forall Good l -> apart l -> Good (Elem n a l)
| G_pi : forall n a, name n -> plain n -> good_attrs a -> (n = s_xml -> in_order a) -> Good (Pi n a [])
| G_text : forall t, good_text t -> Good (Text t)
| G_comment : forall t, good_comment t -> Good (Comment t).
Definition GoodDoc (d : list node) : Prop := exists l r, d = l ++ [r] /\ Forall misc l /\ element r /\ Forall Good d.

(** ** What every tree that has been read is like *)
Definition token (n : list N) : Prop := n <> [] /\ Forall (fun c => ~ space c /\ c <> 0) n.
Definition keyed (a : attrs) : Prop := distinct a /\ Forall (fun kv => fst kv <> []) a.
Inductive Formed : node -> Prop :=
| F_elem : forall n a l, token n -> keyed a -> Forall Formed l -> Formed (Elem n a l)
| F_pi : forall n a, token n -> keyed a -> Formed (Pi n a [])
| F_decl : forall n d, token n -> Formed (Decl n d)
| F_text : forall t, no_nul t -> Formed (Text t)
| F_comment : forall t, tight t -> no_nul t -> Formed (Comment t).

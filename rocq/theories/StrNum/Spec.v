(** What a digit string denotes, independently of the code. *)
From Verif Require Import Base.Lib.
Local Open Scope N_scope.

(** The character [c] stands for the digit [d]: 0-9, then a-z or A-Z. *)
Definition denotes (c d : N) : Prop :=
  (d < 10 /\ c = 48 + d) \/ (10 <= d < 36 /\ (c = 97 + (d - 10) \/ c = 65 + (d - 10))).

(** The value of a digit list, most significant first. *)
Fixpoint value (b : N) (ds : list N) : N :=
  match ds with
  | [] => 0
  | d :: ds' => d * b ^ N.of_nat (length ds') + value b ds'
  end.

(** [cs] spells the digits [ds] in base [b]. *)
Definition spells (b : N) (cs ds : list N) : Prop := Forall2 denotes cs ds /\ Forall (fun d => d < b) ds.

(** The rest of the text does not go on with a digit of that base. *)
Definition stops (b : N) (rest : list N) : Prop :=
  match rest with [] => True | c :: _ => forall d, denotes c d -> b <= d end.

Definition space (c : N) : Prop := c = 9 \/ c = 10 \/ c = 11 \/ c = 12 \/ c = 13 \/ c = 32.

(** An optional sign and what it means. *)
Definition sign_text (sg : list N) (neg : bool) : Prop :=
  (sg = [] /\ neg = false) \/ (sg = [43] /\ neg = false) \/ (sg = [45] /\ neg = true).

(** The digits of a number, for the printing direction. *)
Definition digit_char (d : N) : N := if d <? 10 then 48 + d else 97 + (d - 10).

(** Specification of hexadecimal text, independent of the model. *)
From Verif Require Import Base.Lib.

(** The upper-case digit character for 0..15: '0'+d or 'A'+d-10. *)
Definition digit_char (d : N) : N := if (d <? 10)%N then (48 + d)%N else (65 + (d - 10))%N.

(** The text of a byte string: two digits per byte, high digit first. *)
Fixpoint hex_text (b : list N) : list N :=
  match b with
  | [] => []
  | x :: b' => digit_char (x / 16) :: digit_char (x mod 16) :: hex_text b'
  end.

(** [wrapped w k s]: [s] with a newline after every [w]-th character, except
    after the last; [k] characters are already on the current line. *)
Fixpoint wrapped (w k : nat) (s : list N) : list N :=
  match s with
  | [] => []
  | [c] => [c]
  | c :: s' => if S k =? w then c :: 10%N :: wrapped w 0 s' else c :: wrapped w (S k) s'
  end.
Definition wrap_text (w : nat) (s : list N) : list N :=
  match w with O => s | S _ => wrapped w 0 s end.

(** Value of a hex digit character of either case. *)
Definition digit_val (c : N) : option N :=
  if ((48 <=? c) && (c <=? 57))%N then Some (c - 48)%N
  else if ((65 <=? c) && (c <=? 70))%N then Some (c - 55)%N
  else if ((97 <=? c) && (c <=? 102))%N then Some (c - 87)%N
  else None.

(** The byte string denoted by a text of hex digit pairs. *)
Fixpoint denotes (s : list N) : option (list N) :=
  match s with
  | [] => Some []
  | [_] => None
  | a :: b :: s' =>
      match digit_val a, digit_val b, denotes s' with
      | Some x, Some y, Some l => Some (16 * x + y :: l)%N
      | _, _, _ => None
      end
  end.

(** White space of C's isspace: tab, LF, VT, FF, CR, space. *)
Definition is_space (c : N) : Prop := (9 <= c <= 13)%N \/ c = 32%N.

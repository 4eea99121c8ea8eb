(** Equality of strings up to ASCII case. *)
From Verif Require Import Base.Lib.
Local Open Scope N_scope.

(** [x] with the letters A-Z made small; other bytes, also those above 127,
    stay. *)
Definition low (c : N) : N := if (65 <=? c) && (c <=? 90) then c + 32 else c.

Definition nocase (a b : list N) : Prop := Forall2 (fun x y => low x = low y) a b.

(** What [ci] (case insensitive) asks for. *)
Definition alike (ci : bool) (a b : list N) : Prop := if ci then nocase a b else a = b.

(** [needle] is found in [s] at offset [i]. *)
Definition found_at (s needle : list N) (i : nat) : Prop :=
  exists pre mid post, s = pre ++ mid ++ post /\ length pre = i /\ nocase mid needle.

(** The [char *] argument [s] is the string [t]: NULL counts as the empty
    string. *)
Definition denotes (s : option (list N)) (t : list N) : Prop :=
  match s with None => t = [] | Some m => exists z, m = t ++ 0 :: z end.

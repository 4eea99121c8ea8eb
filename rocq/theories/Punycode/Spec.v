(** Punycode, RFC 3492, on unbounded numbers. *)
From Verif Require Import Base.Lib.
Local Open Scope N_scope.

(** Section 5: the digits, in either case. *)
Definition digit (c : N) : option N :=
  if (97 <=? c) && (c <=? 122) then Some (c - 97)
  else if (65 <=? c) && (c <=? 90) then Some (c - 65)
  else if (48 <=? c) && (c <=? 57) then Some (c - 48 + 26)
  else None.

(** Section 3.3: the threshold of the digit position [k]. *)
Definition thr (k bias : N) : N := N.max 1 (N.min 26 (k - bias)).

(** Section 3.3: generalised variable-length integers, least significant digit
    first. *)
Inductive Vli (bias : N) : N -> list N -> N -> Prop :=
| V_last k c d : digit c = Some d -> d < thr k bias -> Vli bias k [c] d
| V_more k c d ds v : digit c = Some d -> thr k bias <= d -> Vli bias (k + 36) ds v ->
    Vli bias k (c :: ds) (d + (36 - thr k bias) * v).

(** Section 3.4: bias adaptation. *)
Definition rfc_adapt (delta numpoints : N) (first : bool) (bias : N) : Prop :=
  let x := if first then delta / 700 else delta / 2 in
  let y := x + x / numpoints in
  exists j, y / 35 ^ j <= 455 /\ (forall j', j' < j -> 455 < y / 35 ^ j') /\
    bias = 36 * j + 36 * (y / 35 ^ j) / (y / 35 ^ j + 38).

(** Section 3.2: the state <n, i> runs through the positions of the string; each
    number says how far to the next insertion. *)
Inductive Rdec : N -> N -> N -> bool -> list N -> list N -> list N -> Prop :=
| R_end n i bias first l : Rdec n i bias first l [] l
| R_step n i bias first l ds v bias' n' p rest r :
    Vli bias 36 ds v -> rfc_adapt v (N.of_nat (length l) + 1) first bias' ->
    n' = n + (i + v) / (N.of_nat (length l) + 1) ->
    p = (i + v) mod (N.of_nat (length l) + 1) ->
    Rdec n' (p + 1) bias' false (firstn (N.to_nat p) l ++ n' :: skipn (N.to_nat p) l) rest r ->
    Rdec n i bias first l (ds ++ rest) r.

(** Section 3.1: the text [t] stands for the code points [cps].  (The reference
    code of the RFC, too, takes a leading hyphen for the end of no basic code
    points.) *)
Definition Rfc (t cps : list N) : Prop :=
  exists basic ext, (t = basic ++ 45 :: ext \/ (basic = [] /\ t = ext)) /\ ~ In 45 ext /\
    Forall (fun c => c < 128) basic /\ Rdec 128 0 72 true basic ext cps.

(** Model of base/math/m_rand.c: the generator step and the range reduction.
    Seeding from the clock (lines 69-106) and M_rand_jump are not modelled. *)
From Verif Require Import Base.Lib.
Local Open Scope N_scope.

Definition W : N := 2 ^ 64.
(** M_RAND_MAX, include/mstdlib/base/m_rand.h 45. *)
Definition RAND_MAX : N := 2 ^ 64 - 1.

(** struct M_rand, lines 38-40. *)
Record rstate := { s0 : N; s1 : N; s2 : N; s3 : N }.

(** M_rand_rotate_left, lines 52-55. *)
Definition rotl (v r : N) : N := N.lor (N.shiftl v r mod W) (N.shiftr v (64 - r)).

(** M_rand on an existing state, lines 117-141 (a NULL state draws a fresh
    one first): the number returned and the next state. *)
Definition rand_step (s : rstate) : N * rstate :=
  let ret := (rotl ((s1 s * 5) mod W) 7 * 9) mod W in
  let tmp := N.shiftl (s1 s) 17 mod W in
  let a2 := N.lxor (s2 s) (s0 s) in
  let a3 := N.lxor (s3 s) (s1 s) in
  let a1 := N.lxor (s1 s) a2 in
  let a0 := N.lxor (s0 s) a3 in
  let b2 := N.lxor a2 tmp in
  let b3 := rotl a3 45 in
  (ret, {| s0 := a0; s1 := a1; s2 := b2; s3 := b3 |}).

(** M_rand_range, lines 144-192, over an arbitrary generator [gen] with states
    in [S] (M_rand is one; the function uses nothing else of the state).
    Its recursion (line 184) runs on fuel. *)
Fixpoint rand_range {S : Type} (gen : S -> N * S) (fuel : nat) (st : S) (min max : N)
  : res (N * S) :=
  if max <=? min then (if min =? max then Ok (min, st) else Ok (0, st)) else
  match fuel with
  | O => Fuel
  | Datatypes.S f =>
    let range := max - min in
    let '(r, st') := gen st in
    if RAND_MAX - RAND_MAX mod range <=? r then rand_range gen f st' min max
    else Ok ((min + r / (RAND_MAX / range)) mod W, st')
  end.

(** M_rand_max, lines 195-198. *)
Definition rand_max {S : Type} (gen : S -> N * S) fuel st max := rand_range gen fuel st 0 max.

(** The loop of M_rand_str, lines 215-217: [len] characters of [charset]
    written to [out] from index [i] on. *)
Fixpoint rand_str_loop {S : Type} (gen : S -> N * S) (fuel : nat) (st : S)
    (charset : list N) (out : list N) (i : nat) (len : nat) : res (list N * S) :=
  match len with
  | O => Ok (out, st)
  | Datatypes.S n =>
    do 'p <- rand_range gen fuel st 0 (N.of_nat (length charset));
    do c <- rd charset (N.to_nat (fst p));
    do o <- wr out i c;
    rand_str_loop gen fuel (snd p) charset o (Datatypes.S i) n
  end.

(** M_rand_str, lines 201-222, on a given state; [out] is the caller's buffer. *)
Definition rand_str {S : Type} (gen : S -> N * S) fuel st charset out len : res (bool * list N * S) :=
  if (length charset =? 0)%nat || (len =? 0)%nat then Ok (false, out, st) else
  do 'p <- rand_str_loop gen fuel st charset out 0 len;
  do o <- wr (fst p) len 0;
  Ok (true, o, snd p).

(** Model of base/math/m_bithacks.c.  Unsigned words are [N] below 2^w, with
    the wrap-around written out. *)
From Verif Require Import Base.Lib.
Local Open Scope N_scope.

Definition W32 : N := 2 ^ 32.
Definition W64 : N := 2 ^ 64.

(** M_uint32_is_power_of_two, M_uint64_is_power_of_two and
    M_size_t_is_power_of_two, base/math/m_bithacks.c 30-63 (same body at each
    width; [n - 1] cannot wrap after the test for 0). *)
Definition is_power_of_two (n : N) : bool :=
  if n =? 0 then false else if negb (N.land n (n - 1) =? 0) then false else true.

(** One statement [n |= n >> k], lines 68-72 and others. *)
Definition smear (k n : N) : N := N.lor n (N.shiftr n k).

(** M_uint32_round_down_to_power_of_two, lines 66-74. *)
Definition round_down32 (n : N) : N :=
  let n := smear 16 (smear 8 (smear 4 (smear 2 (smear 1 n)))) in
  (n + W32 - N.shiftr n 1) mod W32.

(** M_uint64_round_down_to_power_of_two, lines 77-86; M_size_t_… (89-93) is
    this one where size_t has 64 bits. *)
Definition round_down64 (n : N) : N :=
  let n := smear 32 (smear 16 (smear 8 (smear 4 (smear 2 (smear 1 n))))) in
  (n + W64 - N.shiftr n 1) mod W64.

(** M_uint32_round_up_to_power_of_two, lines 96-106. *)
Definition round_up32 (n : N) : N :=
  let n := (n + W32 - 1) mod W32 in
  let n := smear 16 (smear 8 (smear 4 (smear 2 (smear 1 n)))) in
  (n + 1) mod W32.

(** M_uint64_round_up_to_power_of_two, lines 109-120; M_size_t_… (123-127) is
    this one where size_t has 64 bits. *)
Definition round_up64 (n : N) : N :=
  let n := (n + W64 - 1) mod W64 in
  let n := smear 32 (smear 16 (smear 8 (smear 4 (smear 2 (smear 1 n))))) in
  (n + 1) mod W64.

(** tab32, lines 132-137. *)
Definition tab32 : list N :=
  [ 0;  1; 28;  2; 29; 14; 24;  3;
   30; 22; 20; 15; 25; 17;  4;  8;
   31; 27; 13; 23; 21; 19; 16;  7;
   26; 12; 18;  6; 11;  5; 10;  9 ].

(** M_uint32_log2, lines 130-143. *)
Definition log2_32 (n : N) : res N :=
  let n := if negb (is_power_of_two n) then round_down32 n else n in
  rd tab32 (N.to_nat (N.shiftr ((n * 0x077CB531) mod W32) 27)).

(** tab64, lines 148-157. *)
Definition tab64 : list N :=
  [63;  0; 58;  1; 59; 47; 53;  2;
   60; 39; 48; 27; 54; 33; 42;  3;
   61; 51; 37; 40; 49; 18; 28; 20;
   55; 30; 34; 11; 43; 14; 22;  4;
   62; 57; 46; 52; 38; 26; 32; 41;
   50; 36; 17; 19; 29; 10; 13; 21;
   56; 45; 25; 31; 35; 16;  9; 12;
   44; 24; 15;  8; 23;  7;  6;  5].

(** M_uint64_log2, lines 146-163. *)
Definition log2_64 (n : N) : res N :=
  let n := if negb (is_power_of_two n) then round_down64 n else n in
  rd tab64 (N.to_nat (N.shiftr ((n * 0x07EDD5E59A4E28C2) mod W64) 58)).

(** Conversion M_uint64 -> M_int64 (two's complement, as every supported
    compiler does it). *)
Definition to_int64 (x : N) : Z :=
  if x <? 2 ^ 63 then Z.of_N x else (Z.of_N x - 2 ^ 64)%Z.

(** M_sign_extend, lines 166-170.  Shifting by 64 or more (also
    [num_bits] = 0, where [num_bits - 1] wraps) is undefined. *)
Definition sign_extend (x num_bits : N) : res Z :=
  let sh := (num_bits + W64 - 1) mod W64 in
  if 64 <=? sh then UB else
  let mask := N.shiftl 1 sh in
  Ok (to_int64 ((N.lxor x mask + W64 - mask) mod W64)).

(** The lookup table of M_uint8_popcount, lines 176-181 (macros B2, B4, B6
    written out as functions). *)
Definition B2 (n : N) : list N := [n; n + 1; n + 1; n + 2].
Definition B4 (n : N) : list N := B2 n ++ B2 (n + 1) ++ B2 (n + 1) ++ B2 (n + 2).
Definition B6 (n : N) : list N := B4 n ++ B4 (n + 1) ++ B4 (n + 1) ++ B4 (n + 2).
Definition popcount_tab : list N := B6 0 ++ B6 1 ++ B6 1 ++ B6 2.

(** M_uint8_popcount, lines 173-183. *)
Definition popcount8 (x : N) : res N := rd popcount_tab (N.to_nat x).

(** The loop of M_uint64_popcount, lines 191-193; [count] is an M_uint8. *)
Fixpoint popcount_loop (fuel : nat) (num count : N) : res N :=
  match fuel with
  | O => Fuel
  | S f => if num =? 0 then Ok count
           else popcount_loop f (N.land num (num - 1)) ((count + 1) mod 256)
  end.

(** M_uint64_popcount, lines 185-195. *)
Definition popcount64 (num : N) : res N := popcount_loop 65 num 0.

(** Model of /repo/base/bincodec/m_base64.c.  Conventions as in Hex/Model.v:
    a buffer with its length is a list, writes and the index-based reads are
    bounds checked.  NULL pointers and wrap-around of sizes at 2^64 are not
    modelled, except that [inlen-1] for [inlen = 0] is an out-of-bounds read. *)
From Verif Require Import Base.Lib.
From Verif Require Export Hex.Model. (* chr_isspace: base/data/m_chr.c:51-59 *)

(** m_base64.c:31 enc_table *)
Definition enc_table : list N := map N.of_nat
  (seq 65 26 ++ seq 97 26 ++ seq 48 10 ++ [43; 47]).

(** m_base64.c:34-38 dec_table *)
Definition dec_table : list Z :=
  [62; -1; -1; -1; 63; 52; 53; 54; 55; 56; 57; 58; 59; 60; 61;
   -1; -1; -1; -1; -1; -1; -1; 0; 1; 2; 3; 4; 5; 6; 7; 8; 9; 10;
   11; 12; 13; 14; 15; 16; 17; 18; 19; 20; 21; 22; 23; 24; 25; -1;
   -1; -1; -1; -1; -1; 26; 27; 28; 29; 30; 31; 32; 33; 34; 35; 36;
   37; 38; 39; 40; 41; 42; 43; 44; 45; 46; 47; 48; 49; 50; 51]%Z.

(** m_base64.c:42-53 *)
Definition b64_isvalidchar (c : N) : bool :=
  ((48 <=? c) && (c <=? 57) || (65 <=? c) && (c <=? 90) ||
   (97 <=? c) && (c <=? 122) || (c =? 43) || (c =? 47) || (c =? 61))%N.

(** Encoder state: out, pos, len. *)
Definition est : Type := list N * nat * nat.

(** m_base64.c:55-61 M_base64_encode_adder *)
Definition adder (st : est) (bidx : N) (wrap : nat) (ispad : bool) : res est :=
  let '(out, pos, len) := st in
  do ch <- (if ispad then Ok 61%N else rd enc_table (N.to_nat bidx));
  do out1 <- wr out pos ch;
  let len1 := S len in
  if (0 <? wrap) && (0 <? len1) && (len1 mod wrap =? 0) then
    do out2 <- wr out1 (S pos) 10%N; Ok (out2, S (S pos), len1)
  else Ok (out1, S pos, len1).

(** m_base64.c:116-138 M_base64_encode_size ([x & ~3] is [x/4*4]) *)
Definition b64_encode_size (inlen wrap : nat) : nat :=
  if inlen =? 0 then 0
  else
    let ret := ((4 * inlen / 3) + 3) / 4 * 4 in
    let ret := if 0 <? wrap then
                 (if negb (ret mod wrap =? 0) then ret + ret / wrap
                  else ret + (ret / wrap - 1))
               else ret in
    ret + 1.

(** m_base64.c:140-147 *)
Definition b64_decode_size (inlen : nat) : nat :=
  if inlen =? 0 then 0 else (inlen / 4) * 3.

Definition bits6 (tmp : N) (sh : N) : N := N.land (N.shiftr tmp sh) 63.

(** m_base64.c:161-198: the loop over full groups and the tail, on the
    remaining input. *)
Fixpoint enc_groups (inb : list N) (st : est) (wrap : nat) : res est :=
  match inb with
  | x :: y :: z :: rest =>
      let tmp := N.lor (N.lor (N.shiftl x 16) (N.shiftl y 8)) z in
      do st1 <- adder st (bits6 tmp 18) wrap false;
      do st2 <- adder st1 (bits6 tmp 12) wrap false;
      do st3 <- adder st2 (bits6 tmp 6) wrap false;
      do st4 <- adder st3 (N.land tmp 63) wrap false;
      enc_groups rest st4 wrap
  | [x; y] =>
      let tmp := N.lor (N.shiftl x 16) (N.shiftl y 8) in
      do st1 <- adder st (bits6 tmp 18) wrap false;
      do st2 <- adder st1 (bits6 tmp 12) wrap false;
      do st3 <- adder st2 (bits6 tmp 6) wrap false;
      adder st3 0 wrap true
  | [x] =>
      let tmp := N.shiftl x 16 in
      do st1 <- adder st (bits6 tmp 18) wrap false;
      do st2 <- adder st1 (bits6 tmp 12) wrap false;
      do st3 <- adder st2 0 wrap true;
      adder st3 0 wrap true
  | [] => Ok st
  end.

(** m_base64.c:149-207 M_base64_encode; returns return value and [out] *)
Definition b64_encode (out inb : list N) (wrap : nat) : res (nat * list N) :=
  if (length out =? 0) || (length inb =? 0) || (length out <? b64_encode_size (length inb) wrap)
  then Ok (0, out)
  else
    do '(out1, pos, _) <- enc_groups inb (out, 0, 0) wrap;
    do last <- (match pos with O => UB | S p => rd out1 p end);
    let pos1 := if (last =? 10)%N then pos - 1 else pos in
    do out2 <- wr out1 pos1 0%N;
    Ok (pos1, out2).

(** m_base64.c:73-74: skip white space from index [idx] below [inlen]. *)
Fixpoint skip_ws (fuel : nat) (inb : list N) (inlen idx : nat) : res nat :=
  match fuel with
  | O => Fuel
  | S fuel' =>
      if idx <? inlen then
        do c <- rd inb idx;
        if chr_isspace c then skip_ws fuel' inb inlen (S idx) else Ok idx
      else Ok idx
  end.

(** m_base64.c:63-103 M_base64_get_decchar: [Ok None] is M_FALSE, otherwise
    the value and the new index. *)
Definition get_decchar (inb : list N) (inlen idx : nat) : res (option (N * nat)) :=
  if inlen <=? idx then Ok None else
  do idx1 <- skip_ws (S (inlen - idx)) inb inlen idx;
  if inlen <=? idx1 then Ok None else
  do c <- rd inb idx1;
  if negb (b64_isvalidchar c) then Ok None else
  if (c =? 61)%N then
    (* [*idx-1 < inlen-2] in size_t: for inlen = 1 the right side wraps *)
    if (inlen <? 2) || (idx1 <? inlen - 2) then Ok None else Ok (Some (0%N, S idx1))
  else if (c <? 43)%N || (320 <? c - 43)%N then Ok None   (* sizeof(dec_table) = 80*4 *)
  else
    do v <- rd dec_table (N.to_nat (c - 43));
    if (v =? -1)%Z then Ok None else Ok (Some (Z.to_N v, S idx1)).

(** m_base64.c:105-112 M_base64_write_decchar: [None] is M_FALSE *)
Definition write_decchar (out : list N) (pos : nat) (c : N) : res (option (list N * nat)) :=
  if length out <=? pos then Ok None
  else do out1 <- wr out pos c; Ok (Some (out1, S pos)).

(** m_base64.c:224-225 *)
Fixpoint trim_end (inb : list N) (inlen : nat) : res nat :=
  match inlen with
  | O => UB  (* in[(size_t)-1] *)
  | S n => do c <- rd inb n; if chr_isspace c then trim_end inb n else Ok inlen
  end.

(** m_base64.c:230-256; [Ok None] is "return 0" *)
Fixpoint dec_loop (fuel : nat) (inb : list N) (inlen i : nat) (out : list N) (pos : nat)
  : res (option nat * list N) :=
  match fuel with
  | O => Fuel
  | S fuel' =>
    if i <? inlen then
      do ra <- get_decchar inb inlen i;
      match ra with None => Ok (None, out) | Some (a, i1) =>
      do rb <- get_decchar inb inlen i1;
      match rb with None => Ok (None, out) | Some (b, i2) =>
      do rc <- get_decchar inb inlen i2;
      match rc with None => Ok (None, out) | Some (c, i3) =>
      do rd' <- get_decchar inb inlen i3;
      match rd' with None => Ok (None, out) | Some (d, i4) =>
      let tmp := N.lor (N.lor (N.lor (N.shiftl a 18) (N.shiftl b 12)) (N.shiftl c 6)) d in
      do w1 <- write_decchar out pos (N.land (N.shiftr tmp 16) 255);
      match w1 with None => Ok (None, out) | Some (out1, pos1) =>
      do two <- (if negb (i4 =? inlen) then Ok true
                 else if inlen <? 2 then UB
                 else do x <- rd inb (inlen - 2); Ok (negb (x =? 61)%N));
      do w2 <- (if two : bool then write_decchar out1 pos1 (N.land (N.shiftr tmp 8) 255)
                else Ok (Some (out1, pos1)));
      match w2 with None => Ok (None, out1) | Some (out2, pos2) =>
      do three <- (if negb (i4 =? inlen) then Ok true
                   else do x <- rd inb (inlen - 1); Ok (negb (x =? 61)%N));
      do w3 <- (if three : bool then write_decchar out2 pos2 (N.land tmp 255)
                else Ok (Some (out2, pos2)));
      match w3 with None => Ok (None, out2) | Some (out3, pos3) =>
      dec_loop fuel' inb inlen i4 out3 pos3
      end end end end end end end
    else Ok (Some pos, out)
  end.

(** m_base64.c:209-259 M_base64_decode *)
Definition b64_decode (out inb : list N) : res (nat * list N) :=
  if (length out =? 0) || (length inb =? 0) then Ok (0, out)
  else
    do inlen <- trim_end inb (length inb);
    if inlen =? 0 then Ok (0, out) else
    do '(r, out1) <- dec_loop (S inlen) inb inlen 0 out 0;
    match r with None => Ok (0, out1) | Some pos => Ok (pos, out1) end.

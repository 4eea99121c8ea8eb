(** Model of /repo/base/bincodec/m_hex.c.
    Characters and bytes are [N]; a C buffer with its length is a list, reads
    of the input are in bounds because the code guards every read by
    [i < inLen]; writes to the output go through the bounds-checked [wr].
    Lengths are [nat]: wrap-around of [2*inLen] at 2^64 is not modelled (an
    object of that size cannot exist). NULL pointers are not modelled (the
    code returns 0 for them). *)
From Verif Require Import Base.Lib.

(** m_hex.c:29 hex2dec; only applied to characters accepted by
    [hex_isvalidchar]. *)
Definition hex2dec (c : N) : N :=
  if (97 <=? c)%N then (c - 97 + 10)%N
  else if (65 <=? c)%N then (c - 65 + 10)%N else (c - 48)%N.

(** m_hex.c:31-40 *)
Definition hex_isvalidchar (c : N) : bool :=
  if ((48 <=? c) && (c <=? 57))%N then true
  else if ((65 <=? c) && (c <=? 70))%N then true
  else if ((97 <=? c) && (c <=? 102))%N then true
  else false.

(** base/data/m_chr.c:51-59 M_chr_isblank / M_chr_isspace:
    ' ' 32, \t 9, \f 12, \n 10, \r 13, \v 11 *)
Definition chr_isspace (c : N) : bool :=
  ((c =? 32) || (c =? 9) || (c =? 12) || (c =? 10) || (c =? 13) || (c =? 11))%N.

(** State of the encoder loop: output buffer, [pos], [linelen]. *)
Definition est : Type := list N * nat * nat.

(** m_hex.c:42-50 add_byte *)
Definition add_byte (st : est) (wrap : nat) (c : N) : res est :=
  let '(out, pos, linelen) := st in
  do out1 <- wr out pos c;
  let pos1 := S pos in
  let linelen1 := S linelen in
  if (0 <? wrap) && (wrap <=? linelen1) then
    do out2 <- wr out1 pos1 10%N;
    Ok (out2, S pos1, 0)
  else Ok (out1, pos1, linelen1).

(** m_hex.c:52-67 get_byte.  The input position is represented by the rest of
    the input.  Result: remaining input, and [Some c] on success, [None] with
    the [fail] flag otherwise. *)
Fixpoint skip_space (s : list N) : list N :=
  match s with
  | c :: s' => if chr_isspace c then skip_space s' else s
  | [] => []
  end.
Inductive getres := GByte (c : N) (rest : list N) | GEnd | GFail.
Definition get_byte (s : list N) : getres :=
  match skip_space s with
  | [] => GEnd
  | c :: s' => if hex_isvalidchar c then GByte c s' else GFail
  end.

(** m_hex.c:69-78 *)
Definition hex_target_size (srcsize wrap : nat) : nat :=
  if srcsize =? 0 then 0
  else if wrap =? 0 then srcsize * 2
  else (srcsize * 2) + ((srcsize * 2) / wrap + 1).

(** m_hex.c:82 hex_digits *)
Definition hex_digits : list N :=
  [48;49;50;51;52;53;54;55;56;57;65;66;67;68;69;70]%N.
Definition hex_digit (i : N) : N := nth (N.to_nat i) hex_digits 0%N.

(** m_hex.c:90-95: loop over the remaining input. *)
Fixpoint enc_loop (inb : list N) (st : est) (wrap : nat) : res est :=
  match inb with
  | [] => Ok st
  | x :: rest =>
      do st1 <- add_byte st wrap (hex_digit (N.shiftr (N.land 240 x) 4));
      do st2 <- add_byte st1 (match rest with [] => 0 | _ => wrap end)
                              (hex_digit (N.shiftr (N.land 15 x) 0));
      enc_loop rest st2 wrap
  end.

(** m_hex.c:80-101 M_hex_encode; outLen = length out.  Returns the return
    value and the final contents of [out]. *)
Definition hex_encode (inb out : list N) (wrap : nat) : res (nat * list N) :=
  if (length inb =? 0) || (length out <? hex_target_size (length inb) wrap)
  then Ok (0, out)
  else
    do '(out1, pos, _) <- enc_loop inb (out, 0, 0) wrap;
    if pos <? length out1 then
      do out2 <- wr out1 pos 0%N; Ok (pos, out2)
    else Ok (pos, out1).

(** m_hex.c:114-116: the decode loop.  Each iteration consumes at least two
    characters; [fuel] bounds the iterations. *)
Fixpoint dec_loop (fuel : nat) (s out : list N) (pos : nat)
  : res (bool * nat * list N) :=
  match fuel with
  | O => Fuel
  | S fuel' =>
      match get_byte s with
      | GEnd => Ok (false, pos, out)
      | GFail => Ok (true, pos, out)
      | GByte c1 s1 =>
          match get_byte s1 with
          | GEnd => Ok (false, pos, out)
          | GFail => Ok (true, pos, out)
          | GByte c2 s2 =>
              do out1 <- wr out pos
                 ((N.lor (N.shiftl (hex2dec c1) 4) (hex2dec c2)) mod 256)%N;
              dec_loop fuel' s2 out1 (S pos)
          end
      end
  end.

(** m_hex.c:103-121 M_hex_decode *)
Definition hex_decode (inb out : list N) : res (nat * list N) :=
  if (length inb =? 0) || negb (length inb mod 2 =? 0) || (length out <? length inb / 2)
  then Ok (0, out)
  else
    do '(fail, pos, out1) <- dec_loop (S (length inb)) inb out 0;
    if fail : bool then Ok (0, out1) else Ok (pos, out1).

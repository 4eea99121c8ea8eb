(** Model of /repo/base/bincodec/m_base32.c.  The decoder ignores its length
    argument and reads up to a NUL byte, so its input is the memory starting
    at the pointer: a list whose end is the end of the object (reading past it
    is [UB]). *)
From Verif Require Import Base.Lib.
From Verif Require Export Hex.Model. (* chr_isspace *)

(** m_base32.c:29-52 *)
Definition b32_encode_size (len wrap : nat) : nat :=
  if len =? 0 then 0 else
  let ret := ((8 * len) + 4) / 5 in
  let ret := if negb (ret mod 8 =? 0) then ret + (8 - ret mod 8) else ret in
  let ret := if 0 <? wrap then
               (if negb (ret mod wrap =? 0) then ret + ret / wrap
                else ret + (ret / wrap - 1))
             else ret in
  ret + 1.

(** m_base32.c:54-58 *)
Definition b32_decode_size (len : nat) : nat := (len / 8) * 5.

(** m_base32.c:60 *)
Definition b32_charset : list N := map N.of_nat (seq 65 26 ++ seq 50 6).

(** m_base32.c:62-79: the table maps '2'..'7' to 26..31, '=' to 0, letters of
    both cases to 0..25, everything else to -1.  Written row by row of 16. *)
Definition neg16 : list Z := repeat (-1)%Z 16.
Definition b32_rev : list Z :=
  (neg16 ++ neg16 ++ neg16 ++
   [-1;-1;26;27;28;29;30;31;-1;-1;-1;-1;-1;0;-1;-1] ++
   [-1;0;1;2;3;4;5;6;7;8;9;10;11;12;13;14] ++
   [15;16;17;18;19;20;21;22;23;24;25;-1;-1;-1;-1;-1] ++
   [-1;0;1;2;3;4;5;6;7;8;9;10;11;12;13;14] ++
   [15;16;17;18;19;20;21;22;23;24;25;-1;-1;-1;-1;-1] ++
   neg16 ++ neg16 ++ neg16 ++ neg16 ++ neg16 ++ neg16 ++ neg16 ++ neg16)%Z.

(** m_base32.c:98-100: [n |= (M_uint64)in[i+j] << (32 - j*8)] *)
Fixpoint group_val (bs : list N) (j : nat) (n : N) : N :=
  match bs with
  | [] => n
  | x :: bs' => group_val bs' (S j) (N.lor n (N.shiftl x (32 - N.of_nat j * 8)))
  end.

Definition est : Type := list N * nat * nat. (* out, cnt, datalen *)

(** m_base32.c:102-112, [k] iterations from [j] *)
Fixpoint enc_chars (k j : nat) (st : est) (n : N) (bytes wrap : nat) : res est :=
  match k with
  | O => Ok st
  | S k' =>
      let '(out, cnt, datalen) := st in
      do '(out1, cnt1) <-
        (if negb (wrap =? 0) && (0 <? datalen) && (datalen mod wrap =? 0)
         then do o <- wr out cnt 10%N; Ok (o, S cnt) else Ok (out, cnt));
      do ch <- (if bytes * 8 <? j * 5 then Ok 61%N
                else rd b32_charset (N.to_nat (N.land (N.shiftr n (35 - N.of_nat j * 5)) 31)));
      do out2 <- wr out1 cnt1 ch;
      enc_chars k' (S j) (out2, S cnt1, S datalen) n bytes wrap
  end.

(** m_base32.c:90-113 *)
Fixpoint enc_loop (fuel : nat) (inb : list N) (st : est) (wrap : nat) : res est :=
  match inb with
  | [] => Ok st
  | _ => match fuel with
         | O => Fuel
         | S fuel' =>
             let grp := firstn 5 inb in
             do st1 <- enc_chars 8 0 st (group_val grp 0 0) (length grp) wrap;
             enc_loop fuel' (skipn 5 inb) st1 wrap
         end
  end.

(** m_base32.c:81-117 M_base32_encode *)
Definition b32_encode (out inb : list N) (wrap : nat) : res (nat * list N) :=
  if (length out =? 0) || (length inb =? 0) || (length out <? b32_encode_size (length inb) wrap)
  then Ok (0, out)
  else
    do '(out1, cnt, _) <- enc_loop (length inb) inb (out, 0, 0) wrap;
    do out2 <- wr out1 cnt 0%N;
    Ok (cnt, out2).

(** m_base32.c:134-136: skip white space; result: current character and the
    memory from it on. *)
Fixpoint skip_sp (s : list N) : res (N * list N) :=
  match s with
  | [] => UB
  | c :: s' => if chr_isspace c then skip_sp s' else Ok (c, s')
  end.

(** m_base32.c:131-148: [k] more characters, [i] done.  [Ok None] is
    "return 0". *)
Fixpoint read_group (k i : nat) (s : list N) (n : N) : res (option (N * list N)) :=
  match k with
  | O => Ok (Some (n, s))
  | S k' =>
      do '(c, s1) <- skip_sp s;
      if (c =? 0)%N then Ok None else
      do v <- rd b32_rev (N.to_nat c);
      if (v <? 0)%Z then Ok None
      else read_group k' (S i) s1 (N.lor n (N.shiftl (Z.to_N v) (35 - N.of_nat i * 5)))
  end.

(** m_base32.c:150-153 *)
Fixpoint write5 (k i : nat) (out : list N) (cnt : nat) (n : N) : res (list N * nat) :=
  match k with
  | O => Ok (out, cnt)
  | S k' =>
      do out1 <- wr out cnt (N.land (N.shiftr n (32 - N.of_nat i * 8)) 255);
      write5 k' (S i) out1 (S cnt) n
  end.

(** m_base32.c:126-155 *)
Fixpoint dec_loop (fuel : nat) (s out : list N) (cnt : nat) : res (nat * list N) :=
  match fuel with
  | O => Fuel
  | S fuel' =>
      match s with
      | [] => UB
      | c :: _ =>
          if (c =? 0)%N then Ok (cnt, out) else
          do r <- read_group 8 0 s 0;
          match r with
          | None => Ok (0, out)
          | Some (n, s1) =>
              do '(out1, cnt1) <- write5 5 0 out cnt n;
              dec_loop fuel' s1 out1 cnt1
          end
      end
  end.

(** m_base32.c:119-156 M_base32_decode(out, out_len, in, in_len) *)
Definition b32_decode (out mem : list N) (in_len : nat) : res (nat * list N) :=
  if (length out =? 0) || (in_len =? 0) || (length out <? b32_decode_size in_len)
  then Ok (0, out)
  else dec_loop (S (length mem)) mem out 0.

(** A buffer is a byte string: what each call does to it and returns. *)
From Verif Require Import Base.Lib Hex.Spec Buf.Model.
Local Open Scope N_scope.

(** Case change and trimming of ASCII text. *)
Definition upper_text := map (fun c : N => if (97 <=? c) && (c <=? 122) then c - 32 else c).
Definition lower_text := map (fun c : N => if (65 <=? c) && (c <=? 90) then c + 32 else c).
Definition spaceb (c : N) : bool := ((9 <=? c) && (c <=? 13)) || (c =? 32).
Fixpoint ltrim_text (l : list N) : list N :=
  match l with [] => [] | c :: l' => if spaceb c then ltrim_text l' else l end.
Definition rtrim_text (l : list N) : list N := rev (ltrim_text (rev l)).
Definition transformed (flag : transf -> bool) (l : list N) : list N :=
  let l := if flag TUpper then upper_text l else l in
  let l := if flag TLower then lower_text l else l in
  let l := if flag TLtrim then ltrim_text l else l in
  if flag TRtrim then rtrim_text l else l.

(** Positional notation, most significant first: [w] bytes; [w] bytes of two decimal digits each. *)
Fixpoint be_bytes (w : nat) (n : N) : list N :=
  match w with O => [] | S w' => be_bytes w' (n / 256) ++ [n mod 256] end.
Fixpoint bcd_bytes (w : nat) (n : N) : list N :=
  match w with O => [] | S w' => bcd_bytes w' (n / 100) ++ [16 * (n / 10 mod 10) + n mod 10] end.

Definition spec_step (c : list N) (o : op) : bool * list N :=
  match o with
  | AddBytes bytes => (true, c ++ bytes)
  | AddTransf flag bytes => (true, c ++ transformed flag bytes)
  | AddFill x w => (true, c ++ repeat x w)
  | Truncate n => (true, firstn n c)
  | Drop n => (true, skipn n c)
  | DirectWrite _ bytes => (true, c ++ bytes)
  | AddUintbin n w big =>
    if (1 <=? w)%nat && (w <=? 8)%nat && (n <? 256 ^ N.of_nat w)
    then (true, c ++ if big then be_bytes w n else rev (be_bytes w n)) else (false, c)
  | AddUintbcd n w =>
    if (1 <=? w)%nat && (n <? 100 ^ N.of_nat w) then (true, c ++ bcd_bytes w n) else (false, c)
  | AddHex hex =>
    (Nat.even (length hex), match denotes hex with Some l => c ++ l | None => c end)
  end.
Fixpoint spec_run (ops : list op) (c : list N) (rs : list bool) : list bool * list N :=
  match ops with
  | [] => (rs, c)
  | o :: ops' => let '(r, c) := spec_step c o in spec_run ops' c (r :: rs)
  end.

(** Arguments within the interface's contract: 64-bit numbers, a direct write
    within the room asked for; hexadecimal text without white space. *)
Definition wf_op (o : op) : Prop :=
  match o with
  | DirectWrite want bytes => (length bytes <= want)%nat
  | AddUintbin n _ _ | AddUintbcd n _ => n < 2 ^ 64
  | AddHex hex => Forall (fun c => ~ is_space c) hex
  | _ => True
  end.

(** Byte strings with [sep] between neighbours *)
Fixpoint joined (sep : list N) (l : list (list N)) : list N :=
  match l with [] => [] | [x] => x | x :: l' => x ++ sep ++ joined sep l' end.

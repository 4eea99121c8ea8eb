(** What a format means, after the tables of include/mstdlib/base/m_fmt.h and C99 7.19.6.1:
    nothing here refers to the model except the type of the arguments.  [Item]s are the parts of a format, with
    the values to print; [render] is the format they are written as, [args] the arguments
    they need and [prints] the text they stand for. *)
From Verif Require Import Base.Lib Fmt.Model.
Local Open Scope N_scope.

(** ** Numerals *)
Definition dval (c : N) : N := if c <=? 57 then c - 48 else if c <=? 70 then c - 55 else c - 87.
Definition value (base : N) (ds : list N) : N := fold_left (fun a c => a * base + dval c) ds 0.
Definition is_digit (base : N) (upper : bool) (c : N) : Prop :=
  (48 <= c <= 57 \/ (if upper then 65 <= c <= 70 else 97 <= c <= 102)) /\ dval c < base.
(** [ds] is the numeral of [v]: no leading zeros, but 0 is written 0 *)
Definition numeral (base : N) (upper : bool) (v : N) (ds : list N) : Prop :=
  Forall (is_digit base upper) ds /\ value base ds = v /\ (ds = [48] \/ exists c r, ds = c :: r /\ c <> 48).

(** ** Parts of a format *)
Inductive width := WNone | WNum (ds : list N) | WStar (v : N).
Inductive lenmod := LNone | LHH | LH | LL | LLL | LZ | LI64 | LI32.
Inductive conversion :=
| CInt (i : bool) (v : Z)               (* d, i *)
| CUns (v : N)                          (* u *)
| COct (upper : bool) (v : N)           (* o, O *)
| CHex (upper : bool) (v : N)           (* x, X *)
| CPtr (upper : bool) (v : N)           (* p, P *)
| CChr (c : N)                          (* c *)
| CStr (prec : option width) (s : option (list N)) (after : list N) (* s: the text, what follows it in memory *)
| CDbl (k : N) (prec : option width) (neg : bool) (text : nat -> list N).  (* e E f F g G *)
Inductive item := Lit (b : N) | Pct | Cnv (flags : list N) (w : width) (l : lenmod) (c : conversion).

(** ** How they are written *)
Definition rwidth (w : width) : list N := match w with WNone => [] | WNum ds => ds | WStar _ => [42] end.
Definition rprec (p : option width) : list N := match p with None => [] | Some w => 46 :: rwidth w end.
Definition rlen (l : lenmod) : list N :=
  match l with LNone => [] | LHH => [104; 104] | LH => [104] | LL => [108] | LLL => [108; 108] | LZ => [122] | LI64 => [73; 54; 52] | LI32 => [73; 51; 50] end.
Definition rconv (c : conversion) : list N :=
  match c with
  | CInt i _ => [if i then 105 else 100] | CUns _ => [117] | COct u _ => [if u then 79 else 111]
  | CHex u _ => [if u then 88 else 120] | CPtr u _ => [if u then 80 else 112]
  | CChr _ => [99] | CStr _ _ _ => [115] | CDbl k _ _ _ => [k]
  end.
Definition precision (c : conversion) : option width :=
  match c with CStr p _ _ => p | CDbl _ p _ _ => p | _ => None end.
Definition render1 (i : item) : list N :=
  match i with
  | Lit b => [b]
  | Pct => [37; 37]
  | Cnv fl w l c => 37 :: fl ++ rwidth w ++ rprec (precision c) ++ rlen l ++ rconv c
  end.
Definition render (its : list item) : list N := flat_map render1 its.

(** ** The arguments they need *)
Definition bits_of (w : N) (z : Z) : N := Z.to_N (z mod 2 ^ Z.of_N w)%Z.
(** char and short are passed as int *)
Definition iarg (l : lenmod) (z : Z) : arg :=
  match l with LL | LLL | LZ | LI64 => ALong (bits_of 64 z) | _ => AInt (bits_of 32 z) end.
Definition wargs (w : width) : list arg := match w with WStar v => [AInt v] | _ => [] end.
Definition pargs (p : option width) : list arg := match p with Some w => wargs w | None => [] end.
Definition vargs (l : lenmod) (c : conversion) : arg :=
  match c with
  | CInt _ v => iarg l v
  | CUns v | COct _ v | CHex _ v => iarg l (Z.of_N v)
  | CPtr _ v => APtr v
  | CChr c => AInt c
  | CStr _ s after => AStr (match s with Some t => Some (t ++ after) | None => None end)
  | CDbl _ _ neg text => ADbl neg text
  end.
Definition args1 (i : item) : list arg :=
  match i with Cnv _ w l c => wargs w ++ pargs (precision c) ++ [vargs l c] | _ => [] end.
Definition args (its : list item) : list arg := flat_map args1 its.

(** ** Which of them are well formed *)
Definition dec (ds : list N) : N := value 10 ds.
Definition okwidth (w : width) : Prop :=
  match w with
  | WNone => True
  | WNum ds => Forall (fun c => 48 <= c <= 57) ds /\ dec ds < 2 ^ 64 /\ exists c r, ds = c :: r /\ c <> 48
  | WStar v => v < 2 ^ 31
  end.
(** A precision may have leading zeros or no digits at all *)
Definition okprec (p : option width) : Prop :=
  match p with
  | None => True
  | Some (WNum ds) => Forall (fun c => 48 <= c <= 57) ds /\ dec ds < 2 ^ 64
  | Some w => okwidth w
  end.
Definition bits (l : lenmod) : N := match l with LNone | LI32 => 32 | LHH => 8 | LH => 16 | _ => 64 end.
Definition wnum (w : width) : N := match w with WNone => 0 | WNum ds => dec ds | WStar v => v end.
Definition cut (p : option width) (n : nat) : nat := match p with None => n | Some w => Nat.min (N.to_nat (wnum w)) n end.
Definition okconv (l : lenmod) (c : conversion) : Prop :=
  match c with
  | CInt _ v => (- 2 ^ Z.of_N (bits l - 1) <= v < 2 ^ Z.of_N (bits l - 1))%Z
  | CUns v | COct _ v | CHex _ v => v < 2 ^ bits l
  | CPtr _ v => v < 2 ^ 64 /\ l = LNone
  | CChr c => c < 256 /\ l = LNone
  | CStr p s after =>
    l = LNone /\ okprec p /\
    match s with
    | None => True
    (* the text ends with a NUL, or as many bytes as the precision allows are there *)
    | Some t => Forall (fun b => b <> 0) t /\ ((exists r, after = 0 :: r) \/ exists w, p = Some w /\ wnum w <= N.of_nat (length t))
    end
  | CDbl k p _ text => In k [101; 69; 102; 70; 103; 71] /\ l = LNone /\ okprec p /\ forall n, (n <= 100)%nat -> Forall (fun b => b <> 0) (text n) /\ (length (text n) < 511)%nat
  end.
Definition okitem (i : item) : Prop :=
  match i with
  | Lit b => b <> 37
  | Pct => True
  | Cnv fl w l c => Forall (fun b => In b [45; 43; 32; 35; 48]) fl /\ okwidth w /\ okconv l c
  end.

(** ** What they print *)
Definition has (c : N) (fl : list N) : bool := existsb (N.eqb c) fl.
(** A field of at least [w] bytes: on the left with flag -, else filled with zeros
    between [pre] and [t] with flag 0, else on the right *)
Definition field (zero : bool) (fl : list N) (w : N) (pre t : list N) : list N :=
  let body := (pre ++ t)%list in
  let fill := (N.to_nat w - length body)%nat in
  if has 45 fl then (body ++ repeat 32 fill)%list
  else if zero && has 48 fl then (pre ++ repeat 48 fill ++ t)%list
  else (repeat 32 fill ++ body)%list.
Definition sign (fl : list N) (neg : bool) : list N :=
  if neg then [45] else if has 43 fl then [43] else if has 32 fl then [32] else [].
Inductive prints1 : item -> list N -> Prop :=
| PLit b : prints1 (Lit b) [b]
| PPct : prints1 Pct [37]
| PInt fl w l i v ds : numeral 10 false (Z.to_N (Z.abs v)) ds ->
    prints1 (Cnv fl w l (CInt i v)) (field true fl (wnum w) (sign fl (v <? 0)%Z) ds)
| PUns fl w l v ds : numeral 10 false v ds ->
    prints1 (Cnv fl w l (CUns v)) (field true fl (wnum w) [] ds)
| POct fl w l u v ds : numeral 8 u v ds ->
    prints1 (Cnv fl w l (COct u v)) (field true fl (wnum w) (if has 35 fl && negb (v =? 0) then [48] else []) ds)
(* C99 leaves out the 0x of a zero; m_fmt.h does not say so, see fmt_hex_zero_refuted *)
| PHex fl w l u v ds : numeral 16 u v ds ->
    prints1 (Cnv fl w l (CHex u v)) (field true fl (wnum w) (if has 35 fl then [48; if u then 88 else 120] else []) ds)
| PPtr fl w l u v ds : numeral 16 u v ds ->
    prints1 (Cnv fl w l (CPtr u v)) (field true fl (wnum w) [48; if u then 88 else 120] ds)
| PChr fl w l c : prints1 (Cnv fl w l (CChr c)) (field true fl (wnum w) [] [c])
| PStr fl w l p t after :
    prints1 (Cnv fl w l (CStr p (Some t) after)) (field false fl (wnum w) [] (firstn (cut p (length t)) t))
| PNul fl w l p after : prints1 (Cnv fl w l (CStr p None after)) (field false fl (wnum w) [] [60; 78; 85; 76; 76; 62])
| PDbl fl w l k p neg text :
    prints1 (Cnv fl w l (CDbl k p neg text))
      (field true fl (wnum w) (sign fl neg) (text (match p with None => 6%nat | Some w => Nat.min (N.to_nat (wnum w)) 100 end))).
Inductive prints : list item -> list N -> Prop :=
| PNil : prints [] []
| PCons i its t ts : prints1 i t -> prints its ts -> prints (i :: its) (t ++ ts).

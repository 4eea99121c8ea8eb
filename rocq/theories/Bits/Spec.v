(** Bit strings: what a bit buffer holds and a bit parser reads. *)
From Verif Require Import Base.Lib MemFn.Spec.
Local Open Scope N_scope.

(** The bits of a byte string, highest bit of each byte first. *)
Definition bits_of (l : list N) : list bool := concat (map (bits 8) l).
Definition bitval (l : list bool) : N := fold_left (fun v b => 2 * v + (if b : bool then 1 else 0)) l 0.
Definition ceil8 (n : nat) : nat := ((n + 7) / 8)%nat.
(** The bytes holding a bit string, zero padded. *)
Definition pack (l : list bool) : list N :=
  map (fun i => bitval (firstn 8 (skipn (8 * i) (l ++ repeat false 8)))) (seq 0 (ceil8 (length l))).

(** ** Bit buffer *)
Inductive pad := PNone | PBefore | PAfter.
Inductive bop :=
| AddBit (b : bool) | Fill (b : bool) (n : nat) | SetBit (b : bool) (idx : nat) (fill : bool)
| UpdateBit (idx : nat) (b : bool) | AddBytes (d : list N) (n : nat) | Add (v : N) (n : nat) (p : pad)
| AddBitstr (s : list N) (p : pad) | Trunc (n : nat).

(** How many bits are missing to a full byte *)
Definition missing (n : nat) : nat := ((8 - n mod 8) mod 8)%nat.
Definition padded (s add : list bool) (count : nat) (p : pad) (ok : bool) : list bool :=
  let z := repeat false (missing (length s + count)) in
  match p with
  | PNone => s ++ add
  | PBefore => s ++ z ++ add
  | PAfter => s ++ add ++ if ok then z else []
  end.
Definition white_chars : list N := [32; 9; 10; 11; 12; 13].
(** The bits written in a string, up to the first foreign character. *)
Fixpoint read_bits (s : list N) : list bool * bool :=
  match s with
  | [] => ([], true)
  | c :: s' =>
    if existsb (N.eqb c) white_chars then read_bits s'
    else if (c =? 48) || (c =? 49) then let '(l, ok) := read_bits s' in ((c =? 49) :: l, ok)
    else ([], false)
  end.
Definition count01 (s : list N) : nat := length (filter (fun c => (c =? 48) || (c =? 49)) s).

Definition bstep (s : list bool) (o : bop) : bool * list bool :=
  match o with
  | AddBit b => (true, s ++ [b])
  | Fill b n => (true, s ++ repeat b n)
  | SetBit b i f => (true, if (i <? length s)%nat then upd s i b else s ++ repeat f (i - length s) ++ [b])
  | UpdateBit i b => if (i <? length s)%nat then (true, upd s i b) else (false, s)
  | AddBytes d n => (true, s ++ firstn n (bits_of d))
  | Add v n p => (true, if (0 <? n)%nat && (n <=? 64)%nat then padded s (bits n v) n p true else s)
  | AddBitstr c p => match c with [] => (true, s) | _ => let '(l, ok) := read_bits c in (ok, padded s l (count01 c) p ok) end
  | Trunc n => (true, firstn n s)
  end.
Fixpoint brun (ops : list bop) (s : list bool) (rs : list bool) : list bool * list bool :=
  match ops with [] => (rs, s) | o :: ops' => let '(r, s') := bstep s o in brun ops' s' (r :: rs) end.

(** The unused bits of the last byte are zero. *)
Definition clean (d : list N) (n : nat) : Prop := Forall (fun b => b = false) (skipn n (bits_of (firstn (ceil8 n) d))).
Definition given (d : list N) (n : nat) : Prop := is_bytes d /\ (n <= 8 * length d)%nat.
(** Within the interface; in addition bytes added to a full buffer must be
    clean (see the refutation in Props), and truncation must not extend. *)
Definition ballowed (s : list bool) (o : bop) : Prop :=
  match o with
  | AddBytes d n => given d n /\ ((length s mod 8 = 0)%nat -> clean d n)
  | Trunc n => (n <= length s)%nat
  | _ => True
  end.
Fixpoint ball_allowed (ops : list bop) (s : list bool) : Prop :=
  match ops with [] => True | o :: ops' => ballowed s o /\ ball_allowed ops' (snd (bstep s o)) end.

(** ** Bit parser *)
(** [cd]: the constant data, as long as the parser does not own a copy. *)
Record bstream := mkbs { all : list bool; off : nat; mk : nat; cd : option (list N) }.
Definition left (s : bstream) : list bool := skipn (off s) (all s).
Inductive int_format := SignMag | OnesComp | TwosComp.
Inductive pop :=
| PAppend (d : list N) (n : nat) | PAppendUint (v : N) (n : nat) | PAppendBitstr (c : list N) | PReset (d : list N) (n : nat)
| PLen | POffset | PCount (b : bool) | PRewindStart | PMark | PMarkLen | PMarkRewind | PConsume (n : nat)
| PPeekBit | PReadBit | PReadBits (n : nat) | PReadBytes (n destlen : nat) | PReadUint (n : nat)
| PReadInt (n : nat) (f : int_format) | PReadRange (max : nat) | PToNext (b : bool) (max : nat).
Inductive out := OBool (b : bool) | ONat (n : nat) | OBits (ok : bool) (l : list bool) | OBytes (ok : bool) (l : list N)
| OVal (ok : bool) (v : Z) | ORun (ok : bool) (b : bool) (n : nat).

Definition move (s : bstream) (n : nat) : bstream := mkbs (all s) (off s + n) (mk s) (cd s).
Definition extend (s : bstream) (l : list bool) : bstream := mkbs (all s ++ l) (off s) (mk s) None.
(** Length of the run of [b] at the front *)
Fixpoint run_of (b : bool) (l : list bool) : nat :=
  match l with [] => O | x :: l' => if Bool.eqb x b then S (run_of b l') else O end.
(** The signed number in the three formats, highest bit first *)
Definition signed (f : int_format) (l : list bool) : Z :=
  match l with
  | [] => 0%Z
  | s :: m =>
    match f with
    | SignMag => if s then (- Z.of_N (bitval m))%Z else Z.of_N (bitval m)
    | OnesComp => if s then (- Z.of_N (bitval (map negb m)))%Z else Z.of_N (bitval m)
    | TwosComp => (Z.of_N (bitval m) - if s then 2 ^ Z.of_nat (length m) else 0)%Z
    end
  end.

Definition pstep (s : bstream) (o : pop) : out * bstream :=
  let l := left s in
  match o with
  | PAppend d n => (OBool true, if (n =? 0)%nat then s else extend s (firstn n (bits_of d)))
  | PAppendUint v n => (OBool true, if (n =? 0)%nat then s else extend s (if (n <=? 64)%nat then bits n v else []))
  | PAppendBitstr c => match c with [] => (OBool true, s) | _ => let '(b, ok) := read_bits c in (OBool ok, extend s b) end
  | PReset d n => (OBool true, mkbs (firstn n (bits_of d)) 0 0 None)
  | PLen => (ONat (length l), s)
  | POffset => (ONat (off s), s)
  | PCount b => (ONat (count_occ Bool.bool_dec l b), s)
  | PRewindStart => (OBool true, mkbs (all s) 0 0 (cd s))
  | PMark => (OBool true, mkbs (all s) (off s) (off s) (cd s))
  | PMarkLen => (ONat (off s - mk s), s)
  | PMarkRewind => (ONat (off s - mk s), mkbs (all s) (mk s) (mk s) (cd s))
  | PConsume n => if (n <=? length l)%nat then (OBool true, move s n) else (OBool false, s)
  | PPeekBit => match l with [] => (OBits false [], s) | b :: _ => (OBits true [b], s) end
  | PReadBit => match l with [] => (OBits false [], s) | b :: _ => (OBits true [b], move s 1) end
  | PReadBits n => if (n <=? length l)%nat then (OBits true (firstn n l), move s n) else (OBits false [], s)
  | PReadBytes n dl =>
    if (n <=? length l)%nat && (ceil8 n <=? dl)%nat then (OBytes true (pack (firstn n l)), move s n) else (OBytes false [], s)
  | PReadUint n =>
    if (n <=? 64)%nat && (n <=? length l)%nat then (OVal true (Z.of_N (bitval (firstn n l))), move s n) else (OVal false 0, s)
  | PReadInt n f =>
    if (n <? 2)%nat then (OVal false 0, s)
    else if (n <=? length l)%nat then (OVal true (signed f (firstn n l)), move s n)
    else (* reported as success; the sign bit of a signed magnitude is lost *)
      (OVal true 0, match f with SignMag => move s (Nat.min 1 (length l)) | _ => s end)
  | PReadRange max =>
    match l with
    | [] => (ORun false false 0, s)
    | b :: _ => if (max =? 0)%nat then (ORun false false 0, s)
                else let n := run_of b (firstn max l) in (ORun true b n, move s n)
    end
  | PToNext b max =>
    let l := firstn max l in
    let n := run_of (negb b) l in
    if (n <? length l)%nat then (OBool true, move s (S n)) else (OBool false, move s n)
  end.
Fixpoint prun (ops : list pop) (s : bstream) (rs : list out) : list out * bstream :=
  match ops with [] => (rs, s) | o :: ops' => let '(r, s') := pstep s o in prun ops' s' (r :: rs) end.

(** Reading at an offset that is not a multiple of 8 touches one byte more. *)
Definition room (s : bstream) (o n : nat) : Prop :=
  (o mod 8 = 0)%nat \/ match cd s with None => True | Some d => (o / 8 + ceil8 n < length d)%nat end.
Definition cd_clean (s : bstream) : Prop := match cd s with None => True | Some d => clean d (length (all s)) end.
Definition pallowed (s : bstream) (o : pop) : Prop :=
  match o with
  | PAppend d n => given d n /\ ((length (all s) mod 8 = 0)%nat -> clean d n) /\ cd_clean s
  | PReset d n => given d n /\ clean d n
  | PAppendUint _ _ | PAppendBitstr _ | PCount _ => cd_clean s
  | PReadBytes n _ | PReadUint n => room s (off s) n
  | PReadInt n f => (n <= 64)%nat /\ match f with SignMag => room s (off s + 1) (n - 1) | _ => room s (off s) n end
  | _ => True
  end.
Fixpoint pall_allowed (ops : list pop) (s : bstream) : Prop :=
  match ops with [] => True | o :: ops' => pallowed s o /\ pall_allowed ops' (snd (pstep s o)) end.

(** JSON texts (RFC 8259) and the trees they stand for, with comments as an option.
    Only the type of trees is taken from the model. *)
From Coq Require Import QArith.
From Verif Require Import Base.Lib Base.Mem Utf8.Spec StrNum.Spec Decimal.Model Decimal.Spec Json.Model.
Local Open Scope N_scope.

Section Grammar.
(** Whether comments, and whether equal keys in an object are allowed. *)
Variables comments dups : bool.

(** White space, and comments if allowed. *)
Inductive Ign : list N -> Prop :=
| I_nil : Ign []
| I_ws c w : c = 32 \/ c = 9 \/ c = 10 \/ c = 13 -> Ign w -> Ign (c :: w)
| I_block b w : comments = true -> (forall x y, b <> x ++ 42 :: 47 :: y) -> Ign w -> Ign (47 :: 42 :: b ++ 42 :: 47 :: w)
| I_line b w : comments = true -> ~ In 10 b -> Ign w -> Ign (47 :: 47 :: b ++ 10 :: w).

Definition hexval (h d : N) : Prop :=
  (48 <= h <= 57 /\ d = h - 48) \/ (97 <= h <= 102 /\ d = h - 87) \/ (65 <= h <= 70 /\ d = h - 55).

Definition escape (e c : N) : Prop :=
  (e = 34 /\ c = 34) \/ (e = 92 /\ c = 92) \/ (e = 47 /\ c = 47) \/ (e = 98 /\ c = 8) \/ (e = 102 /\ c = 12) \/
  (e = 110 /\ c = 10) \/ (e = 114 /\ c = 13) \/ (e = 116 /\ c = 9).

(** The characters of a string and their bytes.  Escaped code points are those the
    library calls valid, other than U+0000. *)
Inductive Chars : list N -> list N -> Prop :=
| Ch_nil : Chars [] []
| Ch_plain c t v : 32 <= c -> c <> 34 -> c <> 92 -> Chars t v -> Chars (c :: t) (c :: v)
| Ch_esc e c t v : escape e c -> Chars t v -> Chars (92 :: e :: t) (c :: v)
| Ch_uni h1 h2 h3 h4 d1 d2 d3 d4 cp t v : hexval h1 d1 -> hexval h2 d2 -> hexval h3 d3 -> hexval h4 d4 ->
    cp = ((d1 * 16 + d2) * 16 + d3) * 16 + d4 -> cp <> 0 -> code_cp cp -> Chars t v ->
    Chars (92 :: 117 :: h1 :: h2 :: h3 :: h4 :: t) (utf8_enc cp ++ v).

(** A node for the number [q]: an integer, or a decimal with as few places as possible. *)
Definition number (q : Q) (v : json) : Prop :=
  match v with
  | JInt z => (q == inject_Z z)%Q
  | JDec d => (q == ratio (num d) (nd d))%Q /\ nd d <> 0%nat /\ (num d mod 10 <> 0)%Z
  | _ => False
  end.

Definition digits (ds : list N) : Prop := ds <> [] /\ Forall (fun d => d < 10) ds.
Definition digit_text (ds : list N) : list N := map (fun d => 48 + d) ds.
Definition minus (neg : bool) : list N := if neg then [45] else [].

(** Numbers without exponent that fit the library's decimals. *)
Inductive Num : list N -> json -> Prop :=
| N_int (neg : bool) ws v : digits ws -> fits ((if neg then -1 else 1) * Z.of_N (value 10 ws))%Z ->
    number (text_ratio neg ws []) v -> Num (minus neg ++ digit_text ws) v
| N_frac (neg : bool) ws fs v : digits ws -> digits fs -> (length fs <= 255)%nat -> fits (Z.of_N (value 10 fs)) ->
    fits ((if neg then -1 else 1) * Z.of_N (value 10 (ws ++ fs)))%Z ->
    number (text_ratio neg ws fs) v -> Num (minus neg ++ digit_text ws ++ 46 :: digit_text fs) v.

(** The members of an object in the order of the text: of equal keys the last counts,
    at the place of the first. *)
Definition last_of (k : list N) (kvs : list (list N * json)) : option json :=
  option_map snd (find (fun kv => if list_eq_dec N.eq_dec (fst kv) k then true else false) (rev kvs)).
Definition firsts (ks : list (list N)) : list (list N) := rev (nodup (list_eq_dec N.eq_dec) (rev ks)).
Definition merged (kvs l : list (list N * json)) : Prop :=
  map fst l = firsts (map fst kvs) /\ Forall (fun kv => last_of (fst kv) kvs = Some (snd kv)) l.

(** [Val], and lists of elements and of members: no white space in front. *)
Inductive Val : list N -> json -> Prop :=
| V_null : Val [110; 117; 108; 108] JNull
| V_true : Val [116; 114; 117; 101] (JBool true)
| V_false : Val [102; 97; 108; 115; 101] (JBool false)
| V_num t v : Num t v -> Val t v
| V_str t s : Chars t s -> Val (34 :: t ++ [34]) (JStr s)
| V_arr0 w : Ign w -> Val (91 :: w ++ [93]) (JArr [])
| V_arr w t l : Ign w -> Elems t l -> Val (91 :: w ++ t ++ [93]) (JArr l)
| V_obj0 w : Ign w -> Val (123 :: w ++ [125]) (JObj [])
| V_obj w t kvs l : Ign w -> Members t kvs -> merged kvs l -> (dups = false -> NoDup (map fst kvs)) -> Val (123 :: w ++ t ++ [125]) (JObj l)
with Elems : list N -> list json -> Prop :=
| E_one t v w : Val t v -> Ign w -> Elems (t ++ w) [v]
| E_more t v w w' ts l : Val t v -> Ign w -> Ign w' -> Elems ts l -> Elems (t ++ w ++ 44 :: w' ++ ts) (v :: l)
with Members : list N -> list (list N * json) -> Prop :=
| M_one kt k w w' t v w2 : Chars kt k -> k <> [] -> Ign w -> Ign w' -> Val t v -> Ign w2 ->
    Members ((34 :: kt ++ [34]) ++ w ++ 58 :: w' ++ t ++ w2) [(k, v)]
| M_more kt k w w' t v w2 w3 ts l : Chars kt k -> k <> [] -> Ign w -> Ign w' -> Val t v -> Ign w2 -> Ign w3 -> Members ts l ->
    Members ((34 :: kt ++ [34]) ++ w ++ 58 :: w' ++ t ++ w2 ++ 44 :: w3 ++ ts) ((k, v) :: l).

(** A document: an object or an array. *)
Definition Doc (t : list N) (v : json) : Prop :=
  exists w1 t' w2, t = w1 ++ t' ++ w2 /\ Ign w1 /\ Ign w2 /\ Val t' v /\ match v with JObj _ | JArr _ => True | _ => False end.
End Grammar.

Scheme Val_ind3 := Induction for Val Sort Prop
  with Elems_ind3 := Induction for Elems Sort Prop
  with Members_ind3 := Induction for Members Sort Prop.
Combined Scheme Val_mutind from Val_ind3, Elems_ind3, Members_ind3.

(** What is written so that it can be read back: numbers that JavaScript keeps, decimals
    among them with at most 15 places; strings of code points other than U+0000, those
    beyond U+FFFF only if written as they are; distinct keys that are not empty and need
    no escape. *)
Definition safe_int (z : Z) : Prop := (- (2 ^ 53 - 1) <= z <= 2 ^ 53 - 1)%Z.
Definition safe_dec (d : dec) : Prop :=
  fits (num d) /\ (nd d <= 15)%nat /\ (Z.abs (num d) <= (2 ^ 53 - 1) * 10 ^ Z.of_nat (nd d))%Z.
Definition safe_char (raw : bool) (cp : N) : Prop := code_cp cp /\ cp <> 0 /\ (raw = true \/ cp <= 0xFFFF).
Definition safe_key (k : list N) : Prop := k <> [] /\ Forall (fun c => 32 <= c /\ c <> 34 /\ c <> 92) k.

Inductive writable (raw : bool) : json -> Prop :=
| W_null : writable raw JNull
| W_bool b : writable raw (JBool b)
| W_int z : safe_int z -> writable raw (JInt z)
| W_dec d : safe_dec d -> writable raw (JDec d)
| W_str cps : Forall (safe_char raw) cps -> writable raw (JStr (utf8_text cps))
| W_arr l : Forall (writable raw) l -> writable raw (JArr l)
| W_obj l : Forall (fun kv => safe_key (fst kv)) l -> NoDup (map fst l) -> Forall (fun kv => writable raw (snd kv)) l -> writable raw (JObj l).

(** The same tree up to the representation of decimal numbers. *)
Inductive same : json -> json -> Prop :=
| S_null : same JNull JNull
| S_bool b : same (JBool b) (JBool b)
| S_int z : same (JInt z) (JInt z)
| S_str s : same (JStr s) (JStr s)
| S_dec d v : number (ratio (num d) (nd d)) v -> same (JDec d) v
| S_arr l l' : Forall2 same l l' -> same (JArr l) (JArr l')
| S_obj l l' : Forall2 (fun kv kv' => fst kv = fst kv' /\ same (snd kv) (snd kv')) l l' -> same (JObj l) (JObj l').

(** A tree as the library's own functions build it: C strings, distinct keys that are not
    empty, decimals with places. *)
Inductive proper : json -> Prop :=
| P_null : proper JNull
| P_bool b : proper (JBool b)
| P_int z : proper (JInt z)
| P_dec d : nd d <> 0%nat -> proper (JDec d)
| P_str s : no_nul s -> proper (JStr s)
| P_arr l : Forall proper l -> proper (JArr l)
| P_obj l : Forall (fun kv => fst kv <> [] /\ no_nul (fst kv)) l -> NoDup (map fst l) -> Forall (fun kv => proper (snd kv)) l -> proper (JObj l).

(** Model of the callbacks the typed containers are made with: base/hash/m_hash_func.c,
    base/sort/m_sort_compar.c, the string comparisons of base/data/m_str.c and the choice
    made by M_hash_strvp_create, base/hash/m_hash_strvp.c.

    A pointer is a number, 0 is NULL.  [mem] gives the bytes of the string (or of the
    wrapped binary value) found at a pointer; it does not change, since keys in a table are
    private copies.  strcmp and strcasecmp are those of the C standard and POSIX in the C
    locale. *)
From Verif Require Import Base.Lib Glob.Model MemFn.Model.
Local Open Scope N_scope.

(** ** Hash functions *)

(** [hv << k] of an M_uint32 *)
Definition shl32 (x k : N) : N := N.shiftl x k mod 2 ^ 32.
(** m_hash_func.c:36-38 *)
Definition fnv_step (hv b : N) : N :=
  let hv := N.lxor hv b in
  (hv + (shl32 hv 1 + shl32 hv 4 + shl32 hv 7 + shl32 hv 8 + shl32 hv 24)) mod 2 ^ 32.
(** M_hash_func_hash_FNV1a, m_hash_func.c:29-42 *)
Fixpoint fnv1a (data : list N) (hv : N) : N :=
  match data with [] => hv | b :: data' => fnv1a data' (fnv_step hv b) end.
(** M_hash_func_hash_FNV1a_casecmp, m_hash_func.c:44-57 *)
Fixpoint fnv1a_casecmp (data : list N) (hv : N) : N :=
  match data with [] => hv | b :: data' => fnv1a_casecmp data' (fnv_step hv (chr_tolower b)) end.

(** The bytes of a 64 bit number in memory (little endian). *)
Fixpoint le_bytes (n : nat) (v : N) : list N :=
  match n with O => [] | S n' => v mod 256 :: le_bytes n' (v / 256) end.
(** M_hash_func_hash_vp, m_hash_func.c:69-72: the bytes of the pointer itself *)
Definition hash_vp (seed p : N) : N := fnv1a (le_bytes 8 p) seed.

Section Mem.
Variable mem : N -> list N.
(** M_str_safe *)
Definition str_safe (p : N) : list N := if p =? 0 then [] else mem p.
(** M_hash_func_hash_str, m_hash_func.c:59-62; M_str_len(NULL) is 0 *)
Definition hash_str (seed p : N) : N := fnv1a (str_safe p) seed.
(** M_hash_func_hash_str_casecmp, m_hash_func.c:64-67 *)
Definition hash_str_casecmp (seed p : N) : N := fnv1a_casecmp (str_safe p) seed.

(** ** Comparisons *)

(** strcmp: bytes as unsigned char; the end counts as 0, below all others *)
Fixpoint strcmp (a b : list N) : Z :=
  match a, b with
  | [], [] => 0%Z
  | [], _ :: _ => (-1)%Z
  | _ :: _, [] => 1%Z
  | x :: a', y :: b' => if x =? y then strcmp a' b' else if x <? y then (-1)%Z else 1%Z
  end.
(** strcasecmp: the same after tolower *)
Definition strcasecmp (a b : list N) : Z := strcmp (map chr_tolower a) (map chr_tolower b).
(** M_str_cmpsort, m_str.c:719-724 *)
Definition str_cmpsort (p q : N) : Z := if p =? q then 0%Z else strcmp (str_safe p) (str_safe q).
(** M_str_casecmpsort, m_str.c:742-747 *)
Definition str_casecmpsort (p q : N) : Z := if p =? q then 0%Z else strcasecmp (str_safe p) (str_safe q).
(** M_sort_compar_str and _desc, m_sort_compar.c:30-39; the arguments are what the
    pointers handed over point at *)
Definition compar_str (p q : N) : Z := str_cmpsort p q.
Definition compar_str_desc (p q : N) : Z := compar_str q p.
(** m_sort_compar.c:41-50 *)
Definition compar_str_casecmp (p q : N) : Z := str_casecmpsort p q.
Definition compar_str_casecmp_desc (p q : N) : Z := compar_str_casecmp q p.

(** M_sort_compar_binwraped, m_sort_compar.c:80-102: [mem] holds the data behind the
    length; the length in front takes part in the comparison. *)
Definition wrapped (p : N) : list N := le_bytes 8 (N.of_nat (length (mem p))) ++ mem p.
Definition compar_binwraped (p q : N) : Z := if p =? q then 0%Z else mem_cmpsort (wrapped p) (wrapped q).
End Mem.

Section Nums.
Variable num : N -> N.
(** M_sort_compar_u64, m_sort_compar.c:54-76; [num] is the number at a pointer *)
Definition compar_u64 (p q : N) : Z :=
  if num p =? num q then 0%Z else if num p <? num q then (-1)%Z else 1%Z.
Definition compar_u64_desc (p q : N) : Z := compar_u64 q p.
(** M_hash_func_hash_u64, m_hash_func.c:74-77 *)
Definition hash_u64 (seed p : N) : N := fnv1a (le_bytes 8 (num p)) seed.
End Nums.

(** M_sort_compar_vp, m_sort_compar.c:106-133 *)
Definition compar_vp (p q : N) : Z := if p <? q then (-1)%Z else if q <? p then 1%Z else 0%Z.
Definition compar_vp_desc (p q : N) : Z := compar_vp q p.

(** ** M_hash_strvp_create, m_hash_strvp.c:46-77; M_hash_stridx, M_hash_strbin and
    M_hash_stru64 choose in the same way *)
Inductive keycase := AsIs | Upper | Lower.
Record strflags := { casecmp : bool; kordered : bool; sortasc : bool; sortdesc : bool; kcase : keycase }.
Definition key_equality (mem : N -> list N) (f : strflags) : N -> N -> Z :=
  let eq := if casecmp f then compar_str_casecmp mem else compar_str mem in
  if kordered f then
    let eq := if sortasc f then (if casecmp f then compar_str_casecmp mem else compar_str mem) else eq in
    if sortdesc f then (if casecmp f then compar_str_casecmp_desc mem else compar_str_desc mem) else eq
  else eq.
Definition key_hash (mem : N -> list N) (f : strflags) : N -> N -> N :=
  if casecmp f then hash_str_casecmp mem else hash_str mem.
(** M_chr_toupper, base/data/m_chr.c:120-123 *)
Definition chr_toupper (c : N) : N := if (97 <=? c) && (c <=? 122) then c - 32 else c.
(** What M_strdup, M_strdup_upper and M_strdup_lower make of the text. *)
Definition dup_text (k : keycase) (s : list N) : list N :=
  match k with AsIs => s | Upper => map chr_toupper s | Lower => map chr_tolower s end.

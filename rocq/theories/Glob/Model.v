(** Model of base/data/m_str_patmatch.c (M_str_pattern_match and its
    case-insensitive variant).

    Pattern and string are their contents without terminator; a position in
    one is the rest of it from there on ([pat_start == pat_len] is the empty
    rest).  Reads inside a bracket expression are bounds checked.  NULL
    arguments are not modelled. *)
From Verif Require Import Base.Lib.
Local Open Scope N_scope.

(** M_chr_tolower: base/data/m_chr.c:125-130 *)
Definition chr_tolower (c : N) : N := if (65 <=? c) && (c <=? 90) then c + 32 else c.

(** [char] is signed. *)
Definition sc (c : N) : Z := if c <? 128 then Z.of_N c else (Z.of_N c - 256)%Z.

(** Lines 47-66 from index [i] on, [pat] being the rest there; [bang] is
    [pat[0] == '!']. *)
Fixpoint range_close (pat : list N) (bang : bool) (i : nat) (escaped : bool) : option nat :=
  match pat with
  | [] => None
  | c :: pat' =>
    if c =? 92 then range_close pat' bang (S i) (negb escaped)
    else if c =? 93 then
      if negb ((i =? 0)%nat || ((i =? 1)%nat && bang)) && negb escaped then Some i
      else range_close pat' bang (S i) false
    else range_close pat' bang (S i) false
  end.

(** [] ? * \ may be escaped: lines 99 and 126. *)
Definition is_esc (c : N) : bool := (c =? 91) || (c =? 93) || (c =? 63) || (c =? 42) || (c =? 92).

(** Lines 164 and 200 *)
Definition char_eq (casecmp : bool) (x c : N) : bool :=
  if casecmp then chr_tolower x =? chr_tolower c else x =? c.

(** The loop of lines 121-171 over [q], the pattern after '[' or '[!'; [rb]
    is the index of the closing bracket, [n] the number of turns left.
    [SHit]: line 130 and the like; [SErr]: return M_FALSE whatever not_pat is;
    [SMiss]: the loop ended. *)
Inductive setres := SHit | SMiss | SErr.
Fixpoint set_loop (casecmp : bool) (q : list N) (x : N) (i rb n : nat) : res setres :=
  match n with
  | O => Ok SMiss
  | S n' =>
    do c2 <- rd q i;
    if c2 =? 92 then
      do c3 <- rd q (S i);
      if is_esc c3 then (if x =? c3 then Ok SHit else set_loop casecmp q x (S i) rb n')
      else Ok SErr
    else if c2 =? 45 then
      if (i =? 0)%nat || (i =? rb - 1)%nat then
        if x =? 45 then Ok SHit else set_loop casecmp q x (S i) rb n'
      else
      do a <- rd q (i - 1);
      do b <- rd q (S i);
      if (sc a <? sc x)%Z && (sc x <? sc b)%Z then Ok SHit else set_loop casecmp q x (S i) rb n'
    else if c2 =? 93 then
      if (i =? 0)%nat then (if x =? c2 then Ok SHit else set_loop casecmp q x (S i) rb n')
      else Ok SErr
    else if char_eq casecmp x c2 then Ok SHit else set_loop casecmp q x (S i) rb n'
  end.

(** pattern_matches, lines 70-208.  Each recursive call is on a shorter rest
    of the pattern; [fuel] bounds the depth. *)
Fixpoint pm (fuel : nat) (casecmp : bool) (p s : list N) : res bool :=
  match fuel with
  | O => Fuel
  | S f =>
    match p with
    | [] => Ok (match s with [] => true | _ => false end)
    | c :: p' =>
      if c =? 92 then
        match p' with
        | [] => Ok false
        | c2 :: p2 =>
          if is_esc c2 then
            match s with
            | [] => Ok false
            | x :: s' => if x =? c2 then pm f casecmp p2 s' else Ok false
            end
          else Ok false
        end
      else if c =? 91 then
        match s with
        | [] => Ok false
        | x :: s' =>
          let bang := match p' with c1 :: _ => c1 =? 33 | [] => false end in
          match range_close p' bang 0 false with
          | None => Ok false
          | Some k =>
            let q := if bang then skipn 1 p' else p' in
            let rb := if bang then (k - 1)%nat else k in
            do r <- set_loop casecmp q x 0 rb rb;
            match r with
            | SErr => Ok false
            | SHit => if bang then Ok false else pm f casecmp (skipn (rb + 1) q) s'
            | SMiss => if bang then pm f casecmp (skipn (rb + 1) q) s' else Ok false
            end
          end
        end
      else if c =? 93 then Ok false
      else if c =? 63 then
        match s with [] => Ok false | _ :: s' => pm f casecmp p' s' end
      else if c =? 42 then
        match p' with
        | [] => Ok true
        | _ =>
          (fix star (s : list N) : res bool :=
             do b <- pm f casecmp p' s;
             if b : bool then Ok true else match s with [] => Ok false | _ :: s' => star s' end) s
        end
      else
        match s with
        | [] => Ok false
        | x :: s' => if char_eq casecmp x c then pm f casecmp p' s' else Ok false
        end
    end
  end.

(** M_str_pattern_match and M_str_case_pattern_match, lines 215-223 *)
Definition pattern_match (casecmp : bool) (p s : list N) : res bool := pm (S (length p)) casecmp p s.

(** What the serialisation of a dictionary has to give back, and when. *)
From Verif Require Import Base.Lib.
Local Open Scope N_scope.

Definition white (c : N) : Prop := c = 32 \/ 9 <= c <= 13.

(** The four special characters: ASCII, not NUL, and told apart from each other except
    that quote and escape may be the same. *)
Definition specials_ok (delim kv_delim quote escape : N) : Prop :=
  (0 < delim < 128 /\ 0 < kv_delim < 128 /\ 0 < quote < 128 /\ 0 < escape < 128) /\
  delim <> kv_delim /\ delim <> quote /\ delim <> escape /\ kv_delim <> quote /\ kv_delim <> escape.

(** Reading with TRIM_WHITESPACE needs visible characters around the values; writing with
    LF_TO_CRLF needs TRIM_WHITESPACE on reading if the pairs are separated by LF. *)
Definition modes_ok (delim kv_delim quote : N) (crlf trim : bool) : Prop :=
  (trim = true -> ~ white kv_delim /\ ~ white quote) /\
  (crlf = true -> kv_delim <> 10 /\ (delim = 10 -> trim = true)).

(** Keys are written as they are, so they must not contain a special character. *)
Definition key_ok (delim kv_delim quote : N) (trim : bool) (k : list N) : Prop :=
  k <> [] /\ Forall (fun c => c <> 0 /\ c <> delim /\ c <> kv_delim /\ c <> quote) k /\
  (trim = true -> ~ white (hd 0 k) /\ ~ white (last k 0)).

(** A value may be any string, or NULL; the two exceptions are refuted in Props.v. *)
Definition val_ok (quote escape : N) (always : bool) (v : option (list N)) : Prop :=
  match v with
  | None => always = false
  | Some v => Forall (fun c => c <> 0) v /\ (quote <> escape -> v = [] \/ last v 0 <> escape)
  end.

(** Pieces put together again. *)
Fixpoint joined (delim : N) (l : list (list N)) : list N :=
  match l with [] => [] | [x] => x | x :: l' => x ++ delim :: joined delim l' end.

(** Quotes that open or close: with a separate escape character those not directly behind
    one, otherwise all of them (a doubled quote closes and opens again). *)
Fixpoint quotes (quote escape : N) (prev : N) (s : list N) : nat :=
  match s with
  | [] => 0
  | c :: s' => (if (c =? quote) && ((quote =? escape) || negb (prev =? escape)) then 1 else 0) + quotes quote escape c s'
  end.
(** A text ends outside quotes. *)
Definition outside (delim quote escape : N) (s : list N) : Prop := Nat.even (quotes quote escape delim s) = true.
(** Every delimiter outside quotes has been cut at, and no other one. *)
Definition cut_right (delim quote escape : N) (l : list (list N)) : Prop :=
  (forall piece p r, In piece l -> piece = p ++ delim :: r -> ~ outside delim quote escape p) /\
  (forall piece, In piece (removelast l) -> outside delim quote escape piece).

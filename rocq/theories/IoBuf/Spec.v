(** What is seen of a buffer layer from outside, told from a record of a run
    alone: which bytes went where, which soft events are still queued, and who is
    waiting for what. *)
From Verif Require Import Base.Lib IoBuf.Model.
From Verif Require Bithacks.Spec.
Local Open Scope N_scope.

Definition record := list (op * list obs).
Definition all (tr : record) : list obs := concat (map snd tr).

(** Bytes read from the layer below, and handed to the reader above *)
Definition taken (tr : record) : list N :=
  concat (map (fun o => match o with FromBelow _ (Some l) => l | _ => [] end) (all tr)).
Definition delivered (tr : record) : list N :=
  concat (map (fun o => match o with ReadRet _ (Some l) => l | _ => [] end) (all tr)).
(** Bytes the writer above was told are written, and bytes the layer below took *)
Definition accepted (tr : record) : list N :=
  concat (map (fun o => match o with WriteRet bs (Some n) => firstn (N.to_nat n) bs | _ => [] end) (all tr)).
Definition sent (tr : record) : list N :=
  concat (map (fun o => match o with ToBelow _ (Some l) => l | _ => [] end) (all tr)).

(** A soft event of the layer for itself is still queued *)
Definition same_ev (a b : ev) : bool := match a, b with RD, RD | WR, WR => true | _, _ => false end.
Definition adds (e : ev) (o : obs) : bool := match o with SoftAdd f => same_ev e f | _ => false end.
Definition is_soft (e : ev) (o : op) : bool :=
  match o, e with EvRead s _, RD => s | EvWrite s _, WR => s | _, _ => false end.
Definition queued (e : ev) (tr : record) : bool :=
  fold_left (fun q (x : op * list obs) => existsb (adds e) (snd x) || (q && negb (is_soft e (fst x)))) tr false.

(** The reader (writer) above was told that it would have to wait, by would-block or
    by fewer bytes than it asked for (io/m_io.c:483, 670), and no event for it has
    been passed on since *)
Definition told_read (w : bool) (o : obs) : bool :=
  match o with
  | ReadRet n None => true
  | ReadRet n (Some l) => lenN l <? n
  | Propagate RD => false
  | _ => w
  end.
Definition waits_read (tr : record) : bool := fold_left told_read (all tr) false.
Definition told_write (w : bool) (o : obs) : bool :=
  match o with
  | WriteRet bs None => true
  | WriteRet bs (Some n) => n <? lenN bs
  | Propagate WR => false
  | _ => w
  end.
Definition waits_write (tr : record) : bool := fold_left told_write (all tr) false.

(** The last read of the layer below filled all the room it was given: there may be
    more, and the layer below, which tells only once, will not tell of it again *)
Definition more_below (tr : record) : bool :=
  fold_left (fun m o => match o with FromBelow n (Some l) => n <=? lenN l | FromBelow _ None => false | _ => m end) (all tr) false.
(** The layer below took less than it was given at the last write: it will tell when
    there is room again *)
Definition below_full (tr : record) : bool :=
  fold_left (fun m o => match o with ToBelow bs (Some l) => lenN l <? lenN bs | ToBelow _ None => true | _ => m end) (all tr) false.

(** Callers write no more bytes at once than an object can have, and ask for some *)
Definition sane_op (o : op) : Prop :=
  match o with AppWrite bs _ => 0 < lenN bs < 2 ^ 63 | AppRead n _ => 0 < n | _ => True end.
(** A layer that is new or has just been reset, after whatever it did before *)
Definition fresh (mr mw : N) (h : handle) : Prop :=
  h = add_buffer mr mw \/ exists os h0 tr, Forall sane_op os /\ run (add_buffer mr mw) os = Ok (h0, tr) /\ step h0 Reset = Ok (h, []).
(** The record of a run of such a layer with no reset in it.  A read buffer of more
    than 2^62 bytes cannot be had. *)
Definition runs (mr mw : N) (os : list op) (h : handle) (tr : record) : Prop :=
  mr <= 2 ^ 62 /\ mw <= 2 ^ 63 /\ Forall (fun o => sane_op o /\ o <> Reset) os /\
  exists h0, fresh mr mw h0 /\ run h0 os = Ok (h, tr).

(** The most a read buffer holds: the limit asked for, rounded up to a power of two,
    but never less than 16 KB *)
Definition read_cap (mr cap : N) : Prop := exists p, Bithacks.Spec.least_pow2_ge mr p /\ cap = N.max 16384 p.
(** No read event is processed while that many bytes wait for the reader *)
Definition never_full (cap : N) (tr : record) : Prop :=
  forall tr1 s r t tr2, tr = tr1 ++ (EvRead s r, t) :: tr2 -> lenN (taken tr1) < lenN (delivered tr1) + cap.
(** Data that may be waiting below is not forgotten: a soft event that will fetch it is
    queued, or the reader has bytes to read and reading any of them queues one *)
Definition not_forgotten (h : handle) (tr : record) : Prop :=
  more_below tr = true -> queued RD tr = true \/
    (delivered tr <> taken tr /\ forall n r, 0 < n -> exists h' t, step h (AppRead n r) = Ok (h', t) /\ In (SoftAdd RD) t).

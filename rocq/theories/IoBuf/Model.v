(** Model of the buffer layer of an I/O object, io/m_io_buffer.c, with the sizes
    of the byte buffer below it, base/data/m_buf.c.

    The layer below is any layer that keeps the contract of M_io_layer_read and
    M_io_layer_write (io/m_io.c:412-448, 606-636): a read that succeeds brings at
    most the bytes that were offered room for, a write that succeeds takes at most
    what it was given; what it answers is part of the operation.  Every answer
    other than success is one case.

    Not modelled: critical errors clearing the queue of soft events
    (m_io.c:439-445), meta data (178, 212), allocation failure.  The I/O object is
    registered with an event loop, so a soft event that is added is queued
    (m_event.c:289-333).  The memory of M_buf is the subject of Buf/Model.v; here
    it is its contents and its sizes. *)
From Verif Require Import Base.Lib Bithacks.Model.
Local Open Scope N_scope.

Definition W : N := 2 ^ 64.
Definition lenN (l : list N) : N := N.of_nat (length l).

(** struct M_buf, m_buf.c:32-38: contents, data_size, data_consumed. *)
Record mbuf := MB { bd : list N; bsz : N; bcons : N }.
(** M_buf_create, m_buf.c:42-50. *)
Definition buf_create := MB [] 0 0.
(** M_buf_alloc_size, m_buf.c:115-125. *)
Definition alloc_size (b : mbuf) : N := if bsz b =? 0 then 1024 else bsz b.
(** M_buf_drop, m_buf.c:147-162; num is at most the length in both callers. *)
Definition buf_drop (b : mbuf) (n : N) : mbuf := MB (skipn (N.to_nat n) (bd b)) (bsz b) (bcons b + n).
(** M_buf_truncate to 0, m_buf.c:135-145. *)
Definition buf_clear (b : mbuf) : mbuf := MB [] (bsz b) (bcons b).

(** next_multiple_of_block_size, m_buf.c:240-257; the loop gets 65 rounds. *)
Fixpoint grow (fuel : nat) (needed curr n : N) : res N :=
  match fuel with
  | O => Fuel
  | S fuel => if needed <=? n then Ok n else
              let n := 2 * n mod W in if n <? curr then Ok 0 else grow fuel needed curr n
  end.
Definition next_multiple (needed curr : N) : res N := grow 65 needed curr (if curr =? 0 then 1024 else curr).

(** ensure_space, m_buf.c:259-286. *)
Definition ensure_space (b : mbuf) (add : N) : res mbuf :=
  let nl := (lenN (bd b) + add) mod W in
  if nl <? (bsz b + W - bcons b) mod W then Ok b else
  if bsz b <? nl then
    do n <- next_multiple nl (bsz b); Ok (if n =? 0 then MB (bd b) (bsz b) 0 else MB (bd b) n 0)
  else Ok (MB (bd b) (bsz b) 0).
(** The room M_buf_direct_write_start reports, m_buf.c:296. *)
Definition room (b : mbuf) : N := (bsz b + 2 * W - bcons b - lenN (bd b)) mod W.

(** struct M_io_handle, m_io_buffer.c:30-37. *)
Record handle := H { maxr : N; rb : mbuf; hitr : bool; maxw : N; wb : list N; hitw : bool }.
(** M_io_add_buffer, 272-295. *)
Definition add_buffer (max_read max_write : N) : handle :=
  H (if max_read =? 0 then 0 else round_up64 max_read) buf_create false
    (if max_write =? 0 then 0 else round_up64 max_write) [] false.

Inductive ev := RD | WR.
(** What the layer does, seen from outside: calls of the layer below with the room
    or the bytes offered and the answer, soft events added for itself, events
    passed on to the layer above, and the answers to the layer above ([None]:
    would block). *)
Inductive obs :=
  | FromBelow (room : N) (r : option (list N))
  | ToBelow (bs : list N) (r : option (list N))
  | SoftAdd (e : ev)
  | Propagate (e : ev)
  | ReadRet (n : N) (r : option (list N))
  | WriteRet (bs : list N) (r : option N).

(** M_io_layer_read of the layer below: at most [n] bytes. *)
Definition low_read (n : N) (r : option (list N)) : option (list N) :=
  match r with Some l => Some (firstn (N.to_nat n) l) | None => None end.
(** M_io_layer_write of the layer below: the part of the bytes it takes. *)
Definition low_write (bs : list N) (r : option N) : option (list N) :=
  match r with Some k => Some (firstn (N.to_nat k) bs) | None => None end.

(** The size M_io_buffer_process_read_cb aims at, lines 62-76. *)
Definition target (h : handle) : N :=
  let a := if hitr h then let a := round_up64 (alloc_size (rb h) + 1) in if maxr h <? a then maxr h else a
           else alloc_size (rb h) in
  if a <? 16384 then 16384 else a.

(** M_io_buffer_process_read_cb, lines 47-105. *)
Definition process_read (h : handle) (r : option (list N)) : res (handle * list obs) :=
  if maxr h =? 0 then Ok (h, [Propagate RD]) else
  let req := (target h + W - lenN (bd (rb h))) mod W in
  if req =? 0 then Ok (H (maxr h) (rb h) false (maxw h) (wb h) (hitw h), []) else
  do b <- ensure_space (rb h) req;
  let ans := low_read (room b) r in
  let got := match ans with Some l => l | None => [] end in
  let b' := MB (bd b ++ got) (bsz b) (bcons b) in
  let hit := req <=? lenN got in
  let consume := match ans with None => true | Some _ => false end || negb (lenN (bd b') =? lenN got) in
  Ok (H (maxr h) b' hit (maxw h) (wb h) (hitw h), FromBelow (room b) ans :: if consume then [] else [Propagate RD]).

(** M_io_buffer_process_write_cb, lines 107-137. *)
Definition process_write (h : handle) (r : option N) : handle * list obs :=
  if maxw h =? 0 then (h, [Propagate WR]) else
  match wb h with
  | [] => (h, [Propagate WR])
  | _ =>
    let ans := low_write (wb h) r in
    match ans with
    | Some (x :: l) =>
        let rest := skipn (length (x :: l)) (wb h) in
        if hitw h then (H (maxr h) (rb h) (hitr h) (maxw h) rest false, [ToBelow (wb h) ans; Propagate WR])
        else (H (maxr h) (rb h) (hitr h) (maxw h) rest false, [ToBelow (wb h) ans])
    | _ => (h, [ToBelow (wb h) ans])
    end
  end.

(** M_io_buffer_read_cb, lines 173-204. *)
Definition read_cb (h : handle) (n : N) (r : option (list N)) : handle * list obs :=
  if maxr h =? 0 then let ans := low_read n r in (h, [FromBelow n ans; ReadRet n ans]) else
  let len := if lenN (bd (rb h)) <? n then lenN (bd (rb h)) else n in
  if len =? 0 then (h, [ReadRet n None]) else
  (H (maxr h) (buf_drop (rb h) len) (hitr h) (maxw h) (wb h) (hitw h),
   (if hitr h then [SoftAdd RD] else []) ++ [ReadRet n (Some (firstn (N.to_nat len) (bd (rb h))))]).

(** M_io_buffer_write_cb, lines 207-237. *)
Definition write_cb (h : handle) (bs : list N) (r : option N) : handle * list obs :=
  if maxw h =? 0 then
    let ans := low_write bs r in (h, [ToBelow bs ans; WriteRet bs (match ans with Some l => Some (lenN l) | None => None end)])
  else
  let full := maxw h <=? (lenN (wb h) + lenN bs) mod W in
  let len := if full then (maxw h + W - lenN (wb h)) mod W else lenN bs in
  let hit := if full then true else hitw h in
  if len =? 0 then (H (maxr h) (rb h) (hitr h) (maxw h) (wb h) hit, [WriteRet bs None]) else
  (H (maxr h) (rb h) (hitr h) (maxw h) (wb h ++ firstn (N.to_nat len) bs) hit, [SoftAdd WR; WriteRet bs (Some len)]).

(** M_io_buffer_reset_cb, lines 240-247. *)
Definition reset_cb (h : handle) : handle := H (maxr h) (buf_clear (rb h)) false (maxw h) [] (hitw h).

(** M_io_buffer_process_cb, lines 140-163, and the calls from above; the flag tells
    whether an event is a soft event of this layer or comes from below. *)
Inductive op :=
  | EvRead (soft : bool) (r : option (list N))
  | EvWrite (soft : bool) (r : option N)
  | AppRead (n : N) (r : option (list N))
  | AppWrite (bs : list N) (r : option N)
  | Reset.
Definition step (h : handle) (o : op) : res (handle * list obs) :=
  match o with
  | EvRead _ r => process_read h r
  | EvWrite _ r => Ok (process_write h r)
  | AppRead n r => Ok (read_cb h n r)
  | AppWrite bs r => Ok (write_cb h bs r)
  | Reset => Ok (reset_cb h, [])
  end.
(** A run: the handle in the end and what was seen, operation by operation. *)
Fixpoint run (h : handle) (os : list op) : res (handle * list (op * list obs)) :=
  match os with
  | [] => Ok (h, [])
  | o :: os => do ' (h1, t) <- step h o; do ' (h2, tr) <- run h1 os; Ok (h2, (o, t) :: tr)
  end.

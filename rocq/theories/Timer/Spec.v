(** What one timer should do, seen from the calls made on it: when it may fire and how
    often.  Other timers do not matter. *)
From Verif Require Import Base.Lib Timer.Model.
Open Scope Z_scope.

(** A clock in whole milliseconds. *)
Definition msec (us : Z) : Z := us / 1000.

(** [s_due]: None if stopped, else the time before which it must not fire.  [s_off]:
    the absolute time of the next start, [s_end]: that of the end, zero if not set.
    [s_ok]: so far it has been used according to the rules below. *)
Record sp := mksp { s_ok : bool; s_iv : Z; s_lim : N; s_fired : N; s_due : option Z; s_mono : bool; s_off : tv; s_end : tv; s_exec : bool }.
Definition s_new : sp := mksp true 0 0 0 None false zero zero false.

Definition isset (x : tv) : bool := negb (fst x =? 0) || negb (snd x =? 0).
Definition unset (o : option tv) : tv := match o with Some x => x | None => zero end.
Definition stopped (a : sp) : bool := match s_due a with None => true | Some _ => false end.

(** Start for [iv] ms, or at the absolute time set.  Rule: not from its own callback
    with an absolute time. *)
Definition s_arm (us : Z) (w : tv) (iv : Z) (a : sp) : sp :=
  mksp (s_ok a && negb (s_exec a && isset (s_off a))) iv (s_lim a) 0
       (Some (msec us + (if isset (s_off a) then Z.max 0 (diff w (s_off a)) else iv))) (s_mono a) zero (s_end a) (s_exec a).
Definition s_stop (a : sp) : sp := mksp (s_ok a) (s_iv a) (s_lim a) (s_fired a) None (s_mono a) (s_off a) (s_end a) (s_exec a).
(** A rule has been broken. *)
Definition s_bad (a : sp) : sp := mksp false (s_iv a) (s_lim a) (s_fired a) (s_due a) (s_mono a) (s_off a) (s_end a) (s_exec a).

Definition sp_op (a : sp) (us : Z) (w : tv) (o : op) (r : Z) : sp :=
  match o with
  (* rule: a start must not fail *)
  | OStart iv => if r =? 1 then s_arm us w (Z.of_N iv) a else s_bad a
  | OReset iv => if r =? 1 then s_arm us w (if (iv =? 0)%N then s_iv a else Z.of_N iv) a else s_bad a
  | OStop | ORemove => s_stop a
  | OAdjust n =>
      let iv := Z.of_N n in
      if r =? 1 then
        match s_due a with
        | Some d => mksp (s_ok a) iv (s_lim a) 0 (Some (if iv <? d - msec us then msec us + iv else d)) (s_mono a) (s_off a) (s_end a) (s_exec a)
        | None => mksp (s_ok a) iv (s_lim a) 0 None (s_mono a) (s_off a) (s_end a) (s_exec a)
        end
      else a
  (* rule: the absolute start and the fire count are set while the timer is stopped *)
  | OSetStart x => if r =? 1 then mksp (s_ok a && stopped a) (s_iv a) (s_lim a) (s_fired a) (s_due a) (s_mono a) (unset x) (s_end a) (s_exec a) else a
  | OSetCount n => mksp (s_ok a && stopped a) (s_iv a) n (s_fired a) (s_due a) (s_mono a) (s_off a) (s_end a) (s_exec a)
  | OSetEnd x => if r =? 1 then mksp (s_ok a) (s_iv a) (s_lim a) (s_fired a) (s_due a) (s_mono a) (s_off a) (unset x) (s_exec a) else a
  | OSetMode m => mksp (s_ok a) (s_iv a) (s_lim a) (s_fired a) (s_due a) m (s_off a) (s_end a) (s_exec a)
  | OSetAuto _ | ORemaining | OStatus => a
  end.

Definition sp_step (id : nat) (a : sp) (e : event) : sp :=
  match e with
  | EOp us w j o r => if (j =? id)%nat then sp_op a us w o r else a
  | EFire _ _ j => if (j =? id)%nat then mksp (s_ok a) (s_iv a) (s_lim a) (s_fired a + 1) (s_due a) (s_mono a) (s_off a) (s_end a) true else a
  | EBack us j =>
      if (j =? id)%nat then
        mksp (s_ok a) (s_iv a) (s_lim a) (s_fired a)
             (match s_due a with
              | None => None
              | Some d => if negb (s_lim a =? 0)%N && (s_lim a <=? s_fired a)%N then None
                          else Some (if s_mono a then (if (s_fired a =? 0)%N then d else d + s_iv a) else msec us + s_iv a)
              end) (s_mono a) (s_off a) (s_end a) false
      else a
  | EExpire j => if (j =? id)%nat then s_stop a else a
  | EAdd _ | EUaf _ => a
  end.

Definition spec (id : nat) (tr : list event) : sp := fold_left (sp_step id) tr s_new.

(** The state of timer [id] allows it to fire now. *)
Definition may_fire (a : sp) (us : Z) (w : tv) : Prop :=
  (exists d, s_due a = Some d /\ d <= msec us) /\ (s_lim a = 0%N \/ (s_fired a < s_lim a)%N) /\ s_exec a = false /\
  (isset (s_end a) = true -> 0 < diff w (s_end a)).

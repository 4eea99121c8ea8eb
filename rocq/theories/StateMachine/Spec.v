(** What a state machine promises, in terms of the calls that can be observed:
    the state functions called and what they returned, the cleanup machines run
    and what they returned, and the resets made by the user.  Histories start
    when the machine starts and are kept newest first. *)
From Verif Require Import Base.Lib StateMachine.Model.
Local Open Scope N_scope.

Definition history := list (event + reason).

(** Where a machine stands: at a state that will be called next; in the cleanup
    phase, with its reason and the status it will return in the end; finished
    without cleanup. *)
Inductive place := At (id : N) | Cleaning (r : reason) (st : status) | Finished.

Definition settled (st : status) : bool := match st with S_WAIT | S_PAUSE => false | _ => true end.

Section Spec.
(** What the user set up: the flags, the ids in the order of insertion, the
    allowed next ids of each state, and which states have a cleanup machine. *)
Variables (f : flags) (ids : list N) (nexts : N -> option (list N)) (hasclean : N -> bool).

(** The default next state is the one inserted after *)
Fixpoint successor (l : list N) (a : N) : N :=
  match l with
  | [] => 0
  | x :: l' => if x =? a then hd 0 l' else successor l' a
  end.
Definition default_next (a : N) : N := if f_explicit_next f then 0 else successor ids a.

(** The states that PREV goes back to *)
Fixpoint stack (h : history) : list N :=
  match h with
  | inl (ECall a _ (S_NEXT | S_PAUSE) n) :: h' => a :: (if f_single_prev f then [] else stack h')
  | inl (ECall _ _ S_PREV _) :: h' => tl (stack h')
  | _ :: h' => stack h'
  | [] => []
  end.

(** The states reached by CONTINUE since the machine last advanced or waited *)
Fixpoint continued (h : history) : list N :=
  match h with
  | inl (ECall _ _ S_CONTINUE n) :: h' => n :: continued h'
  | inl (ECall _ _ S_PREV _) :: h' => continued h'
  | inl (ECall _ _ _ _) :: _ => []
  | _ :: h' => continued h'
  | [] => []
  end.

Definition permitted (a n : N) : Prop := match nexts a with Some l => In n l | None => True end.
Definition permittedb (a n : N) : bool := match nexts a with Some l => existsb (N.eqb n) l | None => true end.

(** Arriving at a state *)
Definition arrive (n : N) : place := if existsb (N.eqb n) ids then At n else Cleaning C_ERROR S_ERROR_BAD_ID.

(** Where the machine stands after a history *)
Definition done_place : place := if f_done_cleanup f then Cleaning C_DONE S_DONE else Finished.
Fixpoint after (h : history) : place :=
  match h with
  | [] => match ids with [] => Finished | a :: _ => At a end
  | inl (ECall a _ st n) :: h' =>
    match st with
    | S_WAIT => At a
    | S_NEXT | S_CONTINUE | S_PAUSE =>
      if n =? 0 then
        if f_linear_end f && negb (f_explicit_next f) then done_place else Cleaning C_ERROR S_ERROR_NO_NEXT
      else if negb (permittedb a n) then Cleaning C_ERROR S_ERROR_BAD_NEXT
      else if match st with S_CONTINUE => negb (f_continue_loop f) && existsb (N.eqb n) (continued h') | _ => false end
        then Cleaning C_ERROR S_ERROR_INF_CONT
      else if negb (f_self_call f) && (n =? a) then Cleaning C_ERROR S_ERROR_SELF_NEXT
      else arrive n
    | S_PREV => match stack h' with [] => Cleaning C_ERROR S_ERROR_BAD_ID | p :: _ => At p end
    | S_DONE => done_place
    | _ => Cleaning C_ERROR st
    end
  | inl (EClean _ _ _) :: h' => after h'
  | inr r :: h' =>
    match after h' with
    | Cleaning _ S_ERROR_BAD_ID => Cleaning C_ERROR S_ERROR_BAD_ID
    | _ => Cleaning r S_DONE
    end
  end.

(** The cleanup machines owed, latest first: one for every call that did not wait *)
Fixpoint due (h : history) : list N :=
  match h with
  | inl (ECall a _ st _) :: h' => if is_wait st || negb (hasclean a) then due h' else a :: due h'
  | _ :: h' => due h'
  | [] => []
  end.
Fixpoint dedup (seen l : list N) : list N :=
  match l with
  | [] => []
  | a :: l' => if existsb (N.eqb a) seen then dedup seen l' else a :: dedup (a :: seen) l'
  end.
Definition owed (h : history) : list N := if f_one_cleanup f then dedup [] (due h) else due h.

(** The cleanup machines that have been run to their end, oldest first *)
Fixpoint cleaned (h : history) : list N :=
  match h with
  | inl (EClean a _ st) :: h' => if settled st then cleaned h' ++ [a] else cleaned h'
  | _ :: h' => cleaned h'
  | [] => []
  end.

Definition reported (st : status) : bool :=
  match st with S_NEXT | S_PREV | S_CONTINUE | S_PAUSE | S_WAIT | S_DONE | S_ERROR_STATE => true | _ => false end.

(** Every event is the one that the place calls for *)
Inductive valid : history -> Prop :=
| valid_nil : valid []
| valid_call : forall h a st n, valid h -> after h = At a -> reported st = true -> valid (inl (ECall a (default_next a) st n) :: h)
| valid_clean : forall h a r st0 st, valid h -> after h = Cleaning r st0 -> hasclean a = true -> In a (due h) ->
    valid (inl (EClean a r st) :: h)
| valid_reset : forall h r, valid h -> valid (inr r :: h).

(** What a call to run that returned [st] may have left behind *)
Definition answer (h : history) (st : status) : Prop :=
  match st with
  | S_WAIT => (exists a n h', h = inl (ECall a (default_next a) S_WAIT n) :: h') \/ (exists a r h', h = inl (EClean a r S_WAIT) :: h')
  | S_PAUSE => (exists a n h', h = inl (ECall a (default_next a) S_PAUSE n) :: h') \/ (exists a r h', h = inl (EClean a r S_PAUSE) :: h')
  | _ => (after h = Finished /\ st = S_DONE) \/ (exists r, after h = Cleaning r st)
  end.

(** The cleanup law *)
Definition all_done (h : history) : Prop := forall a r st, In (inl (EClean a r st)) h -> st = S_DONE.
Definition cleanup_law (h : history) (st : status) : Prop :=
  if settled st then cleaned h = match after h with Finished => [] | _ => owed h end
  else exists rest, owed h = cleaned h ++ rest.
End Spec.

(** Using a machine: it is started, and then run again and reset by the user as
    long as it answers WAIT or PAUSE.  The user may do anything to the data
    between two calls. *)
Inductive session {D R} (rrun : R -> reason -> D -> res (status * R * D)) (rreset : R -> reason -> R) (m0 : machine D R) : history -> machine D R -> Prop :=
| session_start : m_running m0 = false -> session rrun rreset m0 [] m0
| session_run : forall h m fuel d st m' d' ev, session rrun rreset m0 h m -> run rrun fuel m d = Ok (st, m', d', ev) -> settled st = false ->
    session rrun rreset m0 (rev (map inl ev) ++ h) m'
| session_reset : forall h m r, session rrun rreset m0 h m -> m_running m = true -> r <> C_NONE ->
    session rrun rreset m0 (inr r :: h) (reset rreset m r).

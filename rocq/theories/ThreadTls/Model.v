(** Model of thread local storage, thread/m_thread_tls.c.

    Any number of threads, named by what M_thread_self() gives, which may be given
    again after a thread is gone.  What a function does under the global lock is one
    step and what it does after it on the thread's own table is another, so the steps
    of other threads come in between.  Tables of threads are objects on a heap: using
    one that was destroyed is [UB].

    Simplified: a table is the map M_hash_u64vp is proved to be (Hash, HashCb); key
    ids are numbers without bound (the code would need 2^64 keys); the enumeration
    order of purge_thread is one order.  Destructors do not call the storage
    functions themselves.  Not modelled: deinit (87-96), allocation failure. *)
From Verif Require Import Base.Lib.
Local Open Scope N_scope.

Definition key := N.
(** A pointer; 0 is NULL. *)
Definition val := N.
Definition thr := nat.

(** A thread's table: M_thread_tls_value, 54-57, by key; the first part tells if
    there is a destructor. *)
Definition store := list (key * (bool * val)).
Fixpoint get (s : store) (k : key) : option (bool * val) :=
  match s with
  | [] => None
  | (k', x) :: s' => if k =? k' then Some x else get s' k
  end.
(** M_hash_u64vp_remove and _insert on it; what the table calls
    M_thread_tls_destroy_thread_key (66-72) for is in [dtor]. *)
Definition del (s : store) (k : key) : store := filter (fun p => negb (k =? fst p)) s.
Definition put (s : store) (k : key) (x : bool * val) : store := (k, x) :: del s k.

(** What is seen: keys created (with a destructor or not), answers of setspecific and
    getspecific, destructor calls, and the end of a thread. *)
Inductive ev :=
  | ECreated (t : thr) (k : key) (d : bool)
  | ESet (t : thr) (k : key) (v : val) (r : bool)
  | EGet (t : thr) (k : key) (v : val)
  | EDtor (t : thr) (k : key) (v : val)
  | EEnd (t : thr).

(** Where a thread is: in none of the functions; in key_create before the lock (151);
    in setspecific after the unlock (178); in getspecific after it (202); in
    purge_thread with keys left to remove (134-136). *)
Inductive pc :=
  | Idle
  | Creating (k : key) (d : bool)
  | Setting (k : key) (v : val) (d : bool) (a : nat)
  | Getting (k : key) (a : nat)
  | Purging (a : nat) (ks : list key).

(** M_thread_tls_key_id, _keys, _storepool (47-50), the tables, the next address. *)
Record sys := Sys { cnt : N; keys : list (key * bool); pool : thr -> option nat; heap : nat -> option store; nxt : nat; at_ : thr -> pc }.
(** M_thread_tls_init, 78-83. *)
Definition init : sys := Sys 0 [] (fun _ => None) (fun _ => None) 0 (fun _ => Idle).

Definition set {A} (f : nat -> A) (i : nat) (x : A) : nat -> A := fun j => if Nat.eqb j i then x else f j.
Fixpoint dget (l : list (key * bool)) (k : key) : option bool :=
  match l with
  | [] => None
  | (k', d) :: l' => if k =? k' then Some d else dget l' k
  end.

(** M_thread_tls_destroy_thread_key, 66-72, for the value at a key if there is one. *)
Definition dtor (t : thr) (k : key) (o : option (bool * val)) : list ev :=
  match o with Some (true, v) => [EDtor t k v] | _ => [] end.

(** What a thread that is in no function does next. *)
Inductive call := Create (d : bool) | Set_ (k : key) (v : val) | Get (k : key) | End.

(** The start of each function, to the unlock (key_create: to the lock). *)
Definition enter (s : sys) (t : thr) (c : call) : sys * list ev :=
  match c with
  | Create d => (* M_thread_tls_key_create, 145-150 *)
      (Sys (cnt s + 1) (keys s) (pool s) (heap s) (nxt s) (set (at_ s) t (Creating (cnt s + 1) d)), [])
  | Set_ k v => (* M_thread_tls_setspecific, 158-178 *)
      match dget (keys s) k with
      | None => (s, [ESet t k v false])
      | Some d =>
        match pool s t with
        | Some a => (Sys (cnt s) (keys s) (pool s) (heap s) (nxt s) (set (at_ s) t (Setting k v d a)), [])
        | None => let a := nxt s in
            (Sys (cnt s) (keys s) (set (pool s) t (Some a)) (set (heap s) a (Some [])) (S a) (set (at_ s) t (Setting k v d a)), [])
        end
      end
  | Get k => (* M_thread_tls_getspecific, 194-205 *)
      match pool s t with
      | None => (s, [EGet t k 0])
      | Some a => (Sys (cnt s) (keys s) (pool s) (heap s) (nxt s) (set (at_ s) t (Getting k a)), [])
      end
  | End => (* M_thread_tls_purge_thread, 101-129; the keys are read after the unlock, but from the thread's own table *)
      match pool s t with
      | None => (s, [EEnd t])
      | Some a => (Sys (cnt s) (keys s) (pool s) (heap s) (nxt s)
                    (set (at_ s) t (Purging a (match heap s a with Some st => map fst st | None => [] end))), [])
      end
  end.

(** The next step of a thread that is in a function. *)
Definition go (s : sys) (t : thr) : res (sys * list ev) :=
  match at_ s t with
  | Idle => Ok (s, [])
  | Creating k d => (* 151-155 *)
      Ok (Sys (cnt s) ((k, d) :: keys s) (pool s) (heap s) (nxt s) (set (at_ s) t Idle), [ECreated t k d])
  | Setting k v d a => (* 180-191: NULL removes what is there, and then is inserted like any value *)
      match heap s a with
      | None => UB
      | Some st =>
        let '(st1, e1) := if v =? 0 then (del st k, dtor t k (get st k)) else (st, []) in
        Ok (Sys (cnt s) (keys s) (pool s) (set (heap s) a (Some (put st1 k (d, v)))) (nxt s) (set (at_ s) t Idle),
            e1 ++ dtor t k (get st1 k) ++ [ESet t k v true])
      end
  | Getting k a => (* 207-211 *)
      match heap s a with
      | None => UB
      | Some st => Ok (Sys (cnt s) (keys s) (pool s) (heap s) (nxt s) (set (at_ s) t Idle),
                       [EGet t k (match get st k with Some (_, v) => v | None => 0 end)])
      end
  | Purging a (k :: ks) => (* 133-136 *)
      match heap s a with
      | None => UB
      | Some st => Ok (Sys (cnt s) (keys s) (pool s) (set (heap s) a (Some (del st k))) (nxt s) (set (at_ s) t (Purging a ks)), dtor t k (get st k))
      end
  | Purging a [] => (* 140-142; M_thread_tls_destroy_store, 61-64, destroys what is left in the table *)
      match heap s a with
      | None => UB
      | Some st => Ok (Sys (cnt s) (keys s) (set (pool s) t None) (set (heap s) a None) (nxt s) (set (at_ s) t Idle),
                       flat_map (fun p => dtor t (fst p) (Some (snd p))) st ++ [EEnd t])
      end
  end.

(** One step of a thread; the call is looked at only if it is in no function. *)
Definition step (s : sys) (t : thr) (c : call) : res (sys * list ev) :=
  match at_ s t with
  | Idle => Ok (enter s t c)
  | _ => go s t
  end.
Fixpoint run (s : sys) (l : list (thr * call)) : res (sys * list ev) :=
  match l with
  | [] => Ok (s, [])
  | (t, c) :: l' => do '(s1, e1) <- step s t c; do '(s2, e2) <- run s1 l'; Ok (s2, e1 ++ e2)
  end.

(** C110-C111: thread local storage. *)
From Verif Require Import Base.Lib.
From Verif Require Import ThreadTls.Model ThreadTls.Spec ThreadTls.Proofs ThreadTls.Proofs2 ThreadTls.Proofs3.
Local Open Scope N_scope.

Lemma run_init l : exists s tr, run init l = Ok (s, tr) /\ InvH s /\ InvT s tr.
Proof.
  destruct inv_init as (K & H & T). destruct (run_inv l K H T) as (s & tr & E & _ & H1 & T1). eauto.
Qed.
Lemma run_good l s tr : run init l = Ok (s, tr) -> InvH s /\ InvT s tr.
Proof. intros E. destruct (run_init l) as (s1 & tr1 & E1 & X). rewrite E in E1. now injection E1 as <- <-. Qed.

(** C110. However the threads run: no table is used after it was destroyed, and what
    a thread reads at a key is what the same thread stored there last since it began,
    NULL if nothing. *)
Theorem tls_value : forall l, exists s tr, run init l = Ok (s, tr) /\
  forall p t k v q, tr = p ++ EGet t k v :: q -> v = value_of p t k.
Proof.
  intros l. destruct (run_init l) as (s & tr & E & H & T). exists s, tr. split; auto.
  intros p t k v q X. exact (t_good T _ _ _ X).
Qed.
Print Assumptions tls_value.

(** C110. Storing succeeds for the keys handed out so far and for no others; a key
    handed out is not 0 and was not handed out before. *)
Theorem tls_keys : forall l s tr, run init l = Ok (s, tr) ->
  (forall p t k v r q, tr = p ++ ESet t k v r :: q -> (r = true <-> exists d, created p k d)) /\
  (forall p t k d q, tr = p ++ ECreated t k d :: q -> k <> 0 /\ ~ exists d', created p k d').
Proof.
  intros l s tr E. destruct (run_good _ _ _ E) as [_ T]. split; intros.
  - apply (t_good T _ _ _ H).
  - exact (t_good T _ _ _ H).
Qed.
Print Assumptions tls_keys.

Definition T1 : thr := 1%nat.
Definition T2 : thr := 2%nat.
(** Two threads with one key; the first one's id is used again after its end. The
    second thread stores while the first is between its two steps. *)
Definition ex_run : list (thr * call) :=
  [(T1, Create true); (T1, End); (T1, Set_ 1 7); (T2, Set_ 1 8); (T2, End); (T1, End); (T2, Get 1); (T1, Get 1); (T1, End); (T2, Get 1);
   (T1, Get 1); (T1, Set_ 2 5); (T1, End); (T1, End); (T1, End); (T1, Get 1); (T2, Set_ 1 9); (T2, Get 1); (T2, Get 1); (T2, Get 1)].
Example ex_tls : exists s, run init ex_run = Ok (s,
  [ECreated T1 1 true; ESet T2 1 8 true; ESet T1 1 7 true; EGet T1 1 7; EGet T2 1 8;
   EGet T1 1 7; EDtor T1 1 7; EEnd T1; EGet T1 1 0; EDtor T2 1 8; ESet T2 1 9 true; EGet T2 1 9]).
Proof. eexists. vm_compute. reflexivity. Qed.

(** C111. At a key with a destructor, each value stored is destroyed before the next
    one is stored or the thread ends, what is destroyed is what is stored, and a
    stored value that is not yet destroyed is what the thread reads; each store is
    paid by one destructor call, all of them when the thread has ended. No
    destructor is called for a key made without one. *)
Theorem tls_destroy_partial : forall l s tr, run init l = Ok (s, tr) ->
  (forall t k, created tr k true -> exists h, life t k None tr = Some h /\
     forall v, n_set tr t k v = (n_dtor tr t k v + if match h with Some w => N.eqb w v | None => false end then 1 else 0)%nat) /\
  (forall p t q k v, tr = p ++ EEnd t :: q -> created tr k true -> n_set p t k v = n_dtor p t k v) /\
  (forall p t k v q, tr = p ++ EDtor t k v :: q -> created p k true).
Proof.
  intros l s tr E. destruct (run_good _ _ _ E) as [H T].
  assert (KEY : forall k, created tr k true -> forall t, exists h, life t k None tr = Some h).
  { intros k C t. exists (kept (ent s t k)). apply (t_life T).
    destruct inv_init as (K0 & H0 & T0). destruct (run_inv l K0 H0 T0) as (s2 & tr2 & E2 & K2 & _).
    rewrite E in E2. injection E2 as <- <-. apply (k_keys K2) in C. cbn in C. congruence. }
  split; [|split].
  - intros t k C. destruct (KEY k C t) as [h L]. exists h. split; auto. intros v. exact (@life_count t k v tr None h L).
  - intros p t q k v X C. destruct (KEY k C t) as [h L]. rewrite X, life_app in L.
    destruct (life t k None p) as [h1|] eqn:L1; [|discriminate]. cbn in L. rewrite Nat.eqb_refl in L.
    destruct h1; [discriminate|]. pose proof (@life_count t k v p None None L1) as Y. cbn in Y. lia.
  - intros p t k v q X. exact (t_good T _ _ _ X).
Qed.
Print Assumptions tls_destroy_partial.
Example ex_destroy : exists s tr, run init ex_run = Ok (s, tr) /\ created tr 1 true /\
  life T1 1 None tr = Some None /\ life T2 1 None tr = Some (Some 9) /\ n_dtor tr T1 1 7 = 1%nat.
Proof.
  destruct ex_tls as [s E]. exists s. eexists. split; [exact E|]. split; [exists T1; now left|]. repeat split.
Qed.

(** C111, NULL: clearing a key destroys the value and then stores NULL like any
    other value: the destructor is called with NULL when the thread ends. *)
Theorem tls_null_refuted : exists s tr,
  run init [(T1, Create true); (T1, End); (T1, Set_ 1 7); (T1, End); (T1, Set_ 1 0); (T1, End); (T1, End); (T1, End); (T1, End)] = Ok (s, tr) /\
  tr = [ECreated T1 1 true; ESet T1 1 7 true; EDtor T1 1 7; ESet T1 1 0 true; EDtor T1 1 0; EEnd T1].
Proof. eexists; eexists. split; [vm_compute; reflexivity|reflexivity]. Qed.
Print Assumptions tls_null_refuted.

(** C111, the same pointer: storing the pointer that is stored destroys it, hands it
    out afterwards and destroys it again at the end. *)
Theorem tls_same_refuted : exists s tr,
  run init [(T1, Create true); (T1, End); (T1, Set_ 1 7); (T1, End); (T1, Set_ 1 7); (T1, End); (T1, Get 1); (T1, End); (T1, End); (T1, End); (T1, End)] = Ok (s, tr) /\
  tr = [ECreated T1 1 true; ESet T1 1 7 true; EDtor T1 1 7; ESet T1 1 7 true; EGet T1 1 7; EDtor T1 1 7; EEnd T1].
Proof. eexists; eexists. split; [vm_compute; reflexivity|reflexivity]. Qed.
Print Assumptions tls_same_refuted.

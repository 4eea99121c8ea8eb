(** C21: base/data/m_str_patmatch.c. *)
From Verif Require Import Base.Lib Glob.Model Glob.Spec Glob.Proofs.
Local Open Scope N_scope.

(** Every pattern written from well-formed syntax matches exactly its
    language.  Partial: escaped ']' and '\' inside brackets are excluded (see
    the refutations), also ranges that are not ASCII or not increasing, and
    ranges in the case-insensitive variant. *)
Theorem glob_match_partial : forall nocase ts s, Forall (wf_tok nocase) ts -> Forall (fun c => c < 256) s ->
  exists b, pattern_match nocase (show ts) s = Ok b /\ (b = true <-> lang nocase ts s).
Proof. intros nocase ts s F Hs. apply pm_ok; auto. Qed.

(** Every pattern, well-formed or not: the call returns, in bounds. *)
Theorem glob_match_total : forall nocase p s, exists b, pattern_match nocase p s = Ok b.
Proof. intros nocase p s. apply pm_total. lia. Qed.

(** [\]a] does not match "a". *)
Theorem glob_escaped_bracket_refuted : exists ts s, lang false ts s /\ pattern_match false (show ts) s = Ok false.
Proof.
  exists [TSet false [IEsc 93; IChar 97]], [97]. split; [|reflexivity].
  apply l_in; [|apply l_nil]. apply Exists_cons_tl, Exists_cons_hd. reflexivity.
Qed.
(** [\\] matches "]". *)
Theorem glob_escaped_backslash_refuted : exists ts s, ~ lang false ts s /\ pattern_match false (show ts) s = Ok true.
Proof.
  exists [TSet false [IEsc 92]], [93]. split; [|reflexivity].
  intros X. inversion X as [| | | | |? ? ? ? E _|]; subst. inversion E as [? ? M|? ? M]; subst; [discriminate M|inversion M].
Qed.
(** Without regard to case, [a-c] matches "A" and "C" but not "B". *)
Theorem glob_case_range_refuted :
  pattern_match true (show [TSet false [IRange 97 99]]) [65] = Ok true /\
  pattern_match true (show [TSet false [IRange 97 99]]) [67] = Ok true /\
  pattern_match true (show [TSet false [IRange 97 99]]) [66] = Ok false.
Proof. repeat split. Qed.

(** "[!]a-c-]*\?" and three strings. *)
Example glob_example :
  let ts := [TSet true [IChar 93; IRange 97 99; IChar 45]; TStar; TEsc 63] in
  show ts = [91;33;93;97;45;99;45;93;42;92;63] /\ Forall (wf_tok false) ts /\
  pattern_match false (show ts) [120;121;63] = Ok true /\
  pattern_match false (show ts) [98;121;63] = Ok false /\
  pattern_match false (show ts) [120;121;122] = Ok false.
Proof.
  cbn zeta. split; [reflexivity|]. split.
  - apply Forall_cons; [|apply Forall_cons; [exact I|apply Forall_cons; [|constructor]]].
    + split; [discriminate|]. exists [IChar 93], [IRange 97 99], [IChar 45]. split; [reflexivity|].
      split; [auto|]. split; [auto|]. split; [|discriminate]. repeat constructor; discriminate.
    + cbn. auto.
  - repeat split.
Qed.

Print Assumptions glob_match_partial.
Print Assumptions glob_match_total.
Print Assumptions glob_escaped_bracket_refuted.
Print Assumptions glob_escaped_backslash_refuted.
Print Assumptions glob_case_range_refuted.

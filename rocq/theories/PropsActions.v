(** C47, C48: action names and the default action. *)
From Verif Require Import Prelude GoStrings Yaml Heap ActionNames Overlay SpecActions SpecOverlay SpecQuery ProofActions Examples ExamplesHeap.

(** *** C47: action names *)
(** [spells s w]: [s] is the word [w] in any letter case. *)
Theorem C47_accepted_actions (s : list N) :
  (decode_action s = Ok AMerge <-> spells s "merge") /\ (decode_action s = Ok AReplace <-> spells s "replace") /\
  (decode_action s = Ok ADelete <-> spells s "delete") /\ (decode_action s = Ok ACombine <-> spells s "combine") /\
  (~ spells s "merge" /\ ~ spells s "replace" /\ ~ spells s "delete" /\ ~ spells s "combine" ->
   decode_action s = Err EInvalidAction) /\
  decode_action s <> Ok AInvalid.
Proof.
  repeat split; try (rewrite decode_action_iff; intuition congruence).
  intros (A & B & C & D). apply decode_action_error. intros a. rewrite decode_action_iff. tauto.
Qed.

Theorem C47_printed_names (a : action) (s : list N) :
  decode_action s = Ok a ->
  In (action_string a) (map lit ["merge"; "replace"; "delete"; "combine"]%string) /\
  Forall2 lowers s (action_string a) /\ decode_action (action_string a) = Ok a.
Proof.
  intros H. apply decode_action_iff in H as [[-> S]|[[-> S]|[[-> S]|[-> S]]]]; (split; [cbn; auto|]);
    (split; [exact S|vm_compute; reflexivity]).
Qed.

Theorem C47_missing_actions (s : list N) :
  (decode_missing s = MIgnore <-> spells s "ignore") /\ (decode_missing s = MInject <-> spells s "inject") /\
  (decode_missing s = MDefault <-> ~ spells s "ignore" /\ ~ spells s "inject").
Proof. split; [|split]; rewrite decode_missing_iff; intuition congruence. Qed.

Example C47_applies : spells (lit "MeRgE") "merge" /\ decode_action (lit "merged") = Err EInvalidAction.
Proof.
  split; [|vm_compute; reflexivity].
  apply (lower_spells (lit "MeRgE") "merge"); [apply word_merge|vm_compute; reflexivity].
Qed.

(** *** C48: an omitted action means merge *)
(** [decode_defaults name query a] is the (name, action) an overlay ends up
    with; [AInvalid] is an omitted action. *)
Theorem C48_omitted_action_is_merge name query fuel sed dflt o node h :
  let omitted := snd (decode_defaults name query AInvalid) in
  let given := snd (decode_defaults name query AMerge) in
  outcome (apply fuel sed dflt (with_action omitted o) node h) =
  outcome (apply fuel sed dflt (with_action given o) node h) /\
  outcome (apply fuel sed dflt (with_action omitted o) node h) =
  outcome (apply fuel sed dflt (with_action AMerge o) node h).
Proof.
  assert (M : merges (snd (decode_defaults name query AInvalid)) /\ snd (decode_defaults name query AMerge) = AMerge).
  { unfold decode_defaults, merges. destruct name; cbn; auto. }
  destruct M as [M E]. rewrite E. cbv zeta.
  pose proof (apply_merges fuel sed dflt o node h _ AMerge M (or_intror eq_refl)) as A.
  destruct (apply fuel sed dflt (with_action (snd (decode_defaults name query AInvalid)) o) node h) as [[h1 o1] r1].
  rewrite A. split; reflexivity.
Qed.
(** Printing a given action is not affected by the defaulting. *)
Theorem C48_given_action_kept name query a : a <> AInvalid -> snd (decode_defaults name query a) = a.
Proof. destruct name; [done|]. by destruct a. Qed.

(** Named or not, the omitted action merges (x into metadata.name); delete, given, does something else. *)
Example C48_applies :
  let run a := outcome (apply 20 no_sed [] (with_action a (ex_overlay ADelete q_name ex_x)) ex_doc ex_heap) in
  snd (decode_defaults [] (lit "q") AInvalid) <> snd (decode_defaults (lit "n") (lit "q") AInvalid) /\
  run (snd (decode_defaults [] (lit "q") AInvalid)) = run (snd (decode_defaults (lit "n") (lit "q") AInvalid)) /\
  run (snd (decode_defaults [] (lit "q") AInvalid)) = run AMerge /\ run AMerge <> run ADelete.
Proof. cbv zeta. split_and!; try (vm_compute; reflexivity); vm_compute; discriminate. Qed.

Print Assumptions C47_accepted_actions.
Print Assumptions C47_printed_names.
Print Assumptions C47_missing_actions.
Print Assumptions C48_omitted_action_is_merge.
Print Assumptions C48_given_action_kept.

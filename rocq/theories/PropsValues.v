(** C45: values files. *)
From Verif Require Import Prelude GoStrings Format Yaml MergeTree SpecMerge Values SpecValues ProofValues Examples Deciders.

(** Values files combine by deep merging each over the previous ones. *)
Theorem C45_values_merge_in_order : forall sed d body rest bodies,
  values_doc d body -> Forall2 values_doc rest bodies ->
  exists r rb, get_values sed (d :: rest) = Ok (Some r) /\ t_content r = Some [rb] /\
    abs rb = fold_left deep_merge (map abs bodies) (abs body).
Proof.
  intros sed d body rest bodies (Hk & Hc & Hs & Hp) HF.
  destruct (values_fold sed rest d body bodies Hk Hc (simple_well_paired _ Hs) HF) as (r & rb & Hm & _ & Hrc & Ha).
  exists r, rb. split_and!; [|done|done]. unfold get_values. by rewrite Hm.
Qed.

Lemma last_scalar_wins : forall first bodies ks tag text before last after,
  first :: bodies = before ++ last :: after ->
  vget ks last = Some (VScalar tag text) -> distinct_keys ks last ->
  Forall (fun b => silent ks b /\ distinct_keys ks b) after ->
  vget ks (fold_left deep_merge bodies first) = Some (VScalar tag text).
Proof.
  intros first bodies ks tag text [|b before] last after Heq Hg Hd Ha; simpl in Heq; injection Heq as -> ->.
  - by rewrite fold_silent.
  - rewrite fold_left_app. simpl. rewrite fold_silent by done. by apply vget_scalar.
Qed.

Lemma single_definition_kept : forall first bodies ks v before only after,
  first :: bodies = before ++ only :: after ->
  vget ks only = Some v -> distinct_keys ks only ->
  Forall (fun b => silent ks b /\ distinct_keys ks b) before ->
  Forall (fun b => silent ks b /\ distinct_keys ks b) after ->
  vget ks (fold_left deep_merge bodies first) = Some v.
Proof.
  intros first bodies ks v [|b before] only after Heq Hg Hd Hb Ha; simpl in Heq; injection Heq as -> ->.
  - by rewrite fold_silent.
  - rewrite fold_left_app. simpl. rewrite fold_silent by done. apply vget_new; [done|done|].
    apply Forall_cons in Hb as [[Hs _] Hb]. rewrite fold_silent by done. by apply silent_vget.
Qed.

Lemma values_result sed docs bodies r :
  Forall2 values_doc docs bodies -> get_values sed docs = Ok (Some r) ->
  exists first others rb, map abs bodies = first :: others /\ t_content r = Some [rb] /\
    abs rb = fold_left deep_merge others first.
Proof.
  intros HF Hg. destruct HF as [|d b rest bodies Hd HF]; [done|].
  destruct (C45_values_merge_in_order sed d b rest bodies Hd HF) as (r' & rb & Hr & Hc & Ha).
  assert (r' = r) as -> by congruence. exists (abs b), (map abs bodies), rb. done.
Qed.

(** The last scalar definition of a path wins: [f] defines it as a scalar and no
    later file mentions it. *)
Theorem C45_last_scalar_wins : forall sed docs before f after r ks tag text,
  Forall2 values_doc docs (before ++ f :: after) ->
  vget ks (abs f) = Some (VScalar tag text) -> distinct_keys ks (abs f) ->
  Forall (fun b => silent ks (abs b) /\ distinct_keys ks (abs b)) after ->
  get_values sed docs = Ok (Some r) ->
  exists rb, t_content r = Some [rb] /\ vget ks (abs rb) = Some (VScalar tag text).
Proof.
  intros sed docs before f after r ks tag text HF Hg Hd Ha Hr.
  destruct (values_result sed docs _ r HF Hr) as (first & others & rb & Hm & Hc & Hab).
  exists rb. split; [done|]. rewrite Hab. rewrite map_app in Hm. simpl in Hm.
  eapply last_scalar_wins; [by symmetry|done|done|]. by apply Forall_map.
Qed.

(** A path defined by one file only keeps that file's definition, whatever it is. *)
Theorem C45_single_definition_kept : forall sed docs before f after r ks v,
  Forall2 values_doc docs (before ++ f :: after) ->
  vget ks (abs f) = Some v -> distinct_keys ks (abs f) ->
  Forall (fun b => silent ks (abs b) /\ distinct_keys ks (abs b)) (before ++ after) ->
  get_values sed docs = Ok (Some r) ->
  exists rb, t_content r = Some [rb] /\ vget ks (abs rb) = Some v.
Proof.
  intros sed docs before f after r ks v HF Hg Hd Ha Hr.
  destruct (values_result sed docs _ r HF Hr) as (first & others & rb & Hm & Hc & Hab).
  exists rb. split; [done|]. rewrite Hab. rewrite map_app in Hm. simpl in Hm. apply Forall_app in Ha as [Hb Ha].
  eapply single_definition_kept; [by symmetry|done|done| |]; by apply Forall_map.
Qed.

(** Three values files: {a: {b: 1}, c: [x]}, {a: {b: 2, d: 3}}, {e: 5}. *)
Definition v1 := mp [sc "a"; mp [sc "b"; num "1"]; sc "c"; sq [sc "x"]].
Definition v2 := mp [sc "a"; mp [sc "b"; num "2"; sc "d"; num "3"]].
Definition v3 := mp [sc "e"; num "5"].
Example C45_example :
  values_doc (doc v1) v1 /\ Forall2 values_doc [doc v2; doc v3] [v2; v3] /\
  silent [lit "a"; lit "b"] (abs v3) /\ distinct_keys [lit "a"; lit "b"] (abs v2) /\
  vget [lit "a"; lit "b"] (fold_left deep_merge [abs v2; abs v3] (abs v1)) = Some (VScalar (lit "!!int") (lit "2")) /\
  vget [lit "c"] (fold_left deep_merge [abs v2; abs v3] (abs v1)) = Some (VSeq (lit "!!seq") [VScalar (lit "!!str") (lit "x")]).
Proof.
  split_and!.
  - split_and!; [done|done|apply simple_ex; reflexivity|apply plain_ex; reflexivity].
  - repeat (apply Forall2_cons; split); [..|apply Forall2_nil]; try done; 
    (split_and!; [done|done|apply simple_ex; reflexivity|apply plain_ex; reflexivity]).
  - by vm_compute.
  - split.
    + apply NoDup_singleton.
    + simpl. split; [|done]. apply NoDup_cons; split; [|apply NoDup_singleton]. intros ?%elem_of_list_singleton. done.
  - by vm_compute.
  - by vm_compute.
Qed.

Print Assumptions C45_values_merge_in_order.
Print Assumptions C45_last_scalar_wins.
Print Assumptions C45_single_definition_kept.

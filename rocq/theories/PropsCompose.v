(** Property C82: merging acts entry by entry, and two merges can be done as one. *)
From Verif Require Import Prelude Format SpecFormat Yaml MergeTree SpecMerge SpecCompose
  ProofMerge ProofMergeMap ProofMergeAbs ProofMergeIdem ProofMergeProps ProofCompose Deciders Examples.

(** A mapping can be cut anywhere between two entries: merging it, and merging the two parts
    one after the other, give the same node or the same failure (texts, comments, positions
    and all). *)
Theorem C82_entry_by_entry : forall sed o i i1 i2 ps qs,
  i_kind i = KMapping -> i_kind i1 = KMapping -> i_kind i2 = KMapping -> is_paired ps ->
  merge_node sed o [T i (Some (ps ++ qs))] = merge_node sed o [T i1 (Some ps); T i2 (Some qs)].
Proof.
  intros sed o i i1 i2 ps qs K K1 K2 P. rewrite merge_node_two, !merge_node_one, !merge_map_eq, merge_pairs_app by done.
  destruct (merge_pairs sed ps o); cbn [rbind]; try done. by rewrite merge_node_one, merge_map_eq.
Qed.
Print Assumptions C82_entry_by_entry.

Example C82_entry_by_entry_ex :
  let ps := [sc "kind"; sc "Service"] in let qs := [sc "ports"; sq [num "443"]; sc "kind"; sc "%v!"] in
  is_paired ps /\ exists o', merge_node no_sed ex_o [mp (ps ++ qs)] = Ok o' /\
  lookup_key (lit "kind") (children o') = Some (sc "Service!").
Proof. split; [apply evenb_sound; reflexivity|]. eexists. split; reflexivity. Qed.

(** Two marker-free overlay values, the second never putting a mapping or a sequence where
    the first one has something of another kind, can be merged with each other first: for
    every node the value is the one got by merging them one after the other. *)
Theorem C82_overlays_compose : forall sed o m n,
  simple_value m -> plain m -> unique_keys (abs m) ->
  simple_value n -> plain n -> unique_keys (abs n) ->
  follows (abs m) (abs n) -> well_paired o ->
  exists mn o1 o2, merge_node sed m [n] = Ok mn /\
    merge_node sed o [m; n] = Ok o1 /\ merge_node sed o [mn] = Ok o2 /\ abs o1 = abs o2.
Proof.
  intros sed o m n Sm Pm Um Sn Pn Un Fo W.
  destruct (deep_merge_ok sed m n Sn Pn (simple_well_paired m Sm)) as (mn & E & A). exists mn.
  destruct (deep_merge_ok sed o m Sm Pm W) as (x & E1 & A1).
  assert (Wx : well_paired x). { rewrite merge_node_one in E1. exact (merge_well_paired sed m (simple_well_paired m Sm) o [] x W E1). }
  destruct (deep_merge_ok sed x n Sn Pn Wx) as (o1 & E2 & A2).
  assert (F : fine mn). { rewrite merge_node_one in E. refine (fine_merge sed n _ m [] mn _ E); by apply fine_both. }
  apply fine_both in F as [F1 F2]. destruct (deep_merge_ok sed o mn F1 F2 W) as (o2 & E3 & A3).
  exists o1, o2. split_and!; [done| |done|].
  - rewrite merge_node_two, E1. exact E2.
  - rewrite A2, A1, A3, A. by apply deep_merge_assoc.
Qed.
Print Assumptions C82_overlays_compose.

Example C82_overlays_compose_ex :
  let m := mp [sc "metadata"; mp [sc "labels"; mp [sc "tier"; sc "back"]]; sc "ports"; sq [num "22"]; sc "size"; mp [sc "x"; num "1"]] in
  (simple_value m /\ plain m /\ unique_keys (abs m)) /\
  (simple_value ex_n /\ plain ex_n /\ unique_keys (abs ex_n)) /\ follows (abs m) (abs ex_n) /\ well_paired ex_o.
Proof.
  cbn zeta. split_and!; try (apply simple_ex; reflexivity); try (apply plain_ex; reflexivity); try (apply well_paired_ex; reflexivity).
  1, 2: cbn; split_and!; try done; repeat (apply NoDup_cons; split; [apply (bool_decide_unpack _); vm_compute; exact I|]); constructor.
  cbn. apply follows_mapping. intros k v w Hv Hw. cbn in Hv, Hw.
  destruct Hv as [[= <- <-]|[[= <- <-]|[[= <- <-]|[]]]]; destruct Hw as [Hw|[Hw|[Hw|[]]]]; inversion Hw; clear Hw.
  - apply follows_mapping. intros k v w' Hv Hw. cbn in Hv, Hw.
    destruct Hv as [[= <- <-]|[]]; destruct Hw as [Hw|[Hw|[]]]; inversion Hw; clear Hw.
    apply follows_mapping. intros k v w'' Hv Hw. cbn in Hv, Hw.
    destruct Hv as [[= <- <-]|[]]; destruct Hw as [Hw|[]]; inversion Hw; apply follows_scalar.
  - apply follows_sequence.
Qed.

(** Refuted without that condition: a mapping over a scalar over a mapping. *)
Theorem C82_refuted_change_of_kind : exists o m n mn o1 o2,
  simple_value m /\ plain m /\ unique_keys (abs m) /\ simple_value n /\ plain n /\ unique_keys (abs n) /\ well_paired o /\
  merge_node no_sed m [n] = Ok mn /\ merge_node no_sed o [m; n] = Ok o1 /\ merge_node no_sed o [mn] = Ok o2 /\ abs o1 <> abs o2.
Proof.
  exists (mp [sc "a"; mp [sc "x"; num "1"]]), (mp [sc "a"; num "5"]), (mp [sc "a"; mp [sc "y"; num "2"]]). do 3 eexists.
  split_and!; try (apply simple_ex; reflexivity); try (apply plain_ex; reflexivity); try (apply well_paired_ex; reflexivity); try reflexivity.
  1, 2: cbn; split_and!; try done; repeat (apply NoDup_cons; split; [apply (bool_decide_unpack _); vm_compute; exact I|]); constructor.
  vm_compute. discriminate.
Qed.
Print Assumptions C82_refuted_change_of_kind.

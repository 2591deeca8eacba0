(** Properties C17-C19 (combine). *)
From Verif Require Import Prelude Format Yaml MergeTree Combine SpecCombine ProofCombine Examples.
Local Open Scope Z_scope.

(** ** C17  Combining integers adds them *)
Theorem C17_combine_adds : forall sed o n x y,
  t_kind o = KScalar -> t_kind n = KScalar -> t_tag o = lit "!!int" ->
  decimal (t_value o) x -> decimal (t_value n) y -> int64 x -> int64 y -> int64 (x + y) ->
  exists o', combine_node sed o n = (o', None) /\ decimal (t_value o') (x + y) /\ canonical (t_value o').
Proof. exact combine_int. Qed.
Print Assumptions C17_combine_adds.

Theorem C17_combine_rejects_non_integers : forall sed o n,
  t_kind o = KScalar -> t_kind n = KScalar -> t_tag o = lit "!!int" ->
  (~ exists x, decimal (t_value o) x /\ int64 x) \/ (~ exists y, decimal (t_value n) y /\ int64 y) ->
  exists o', combine_node sed o n = (o', Some EAtoi) /\ t_value o' = t_value o.
Proof. exact combine_int_error. Qed.
Print Assumptions C17_combine_rejects_non_integers.

Example C17_ex : decimal (lit "-12") (-12) /\ decimal (lit "+007") 7 /\ int64 (-12) /\ int64 7 /\ int64 (-5) /\
  t_value (fst (combine_node no_sed (num "-12") (num "+007"))) = lit "-5".
Proof.
  split; [apply (fun H => proj1 (proj1 (atoi_spec _ _) H)); vm_compute; reflexivity|].
  split; [apply (fun H => proj1 (proj1 (atoi_spec _ _) H)); vm_compute; reflexivity|].
  unfold int64. repeat split; try lia.
Qed.
(** YAML integers in other notations (0x1F has tag !!int) are rejected. *)
Example C17_error_ex : ~ exists x, decimal (lit "0x1F") x /\ int64 x.
Proof. intros (x & H). apply atoi_spec in H. vm_compute in H. discriminate. Qed.

(** Without the range condition on the sum the claim fails (wrap-around). *)
Theorem C17_combine_overflow_refuted : exists o n x y,
  t_kind o = KScalar /\ t_kind n = KScalar /\ t_tag o = lit "!!int" /\
  decimal (t_value o) x /\ decimal (t_value n) y /\ int64 x /\ int64 y /\
  exists o', combine_node no_sed o n = (o', None) /\ ~ decimal (t_value o') (x + y).
Proof.
  exists (num "9223372036854775807"), (num "1"), (2 ^ 63 - 1), 1.
  split; [reflexivity|]. split; [reflexivity|]. split; [reflexivity|].
  split; [apply (fun H => proj1 (proj1 (atoi_spec _ _) H)); vm_compute; reflexivity|].
  split; [apply (fun H => proj1 (proj1 (atoi_spec _ _) H)); vm_compute; reflexivity|].
  unfold int64. split; [lia|]. split; [lia|].
  exists (num "-9223372036854775808"). split; [vm_compute; reflexivity|]. intros H.
  inversion H as [s z Hn|s z Hn|s z Hn]; subst.
  - apply numeral_head in Hn as (c & r & Hc & Hr). vm_compute in Hc. injection Hc as <- _. lia.
  - pose proof (numeral_digits _ _ Hn) as Hd. vm_compute in Hd. injection Hd as Hd. lia.
Qed.
Print Assumptions C17_combine_overflow_refuted.

(** ** C18  Combining booleans is conjunction *)
Theorem C18_combine_booleans : forall sed o n x y,
  t_kind o = KScalar -> t_kind n = KScalar -> t_tag o = lit "!!bool" ->
  bool_text (t_value o) x -> bool_text (t_value n) y ->
  exists o', combine_node sed o n = (o', None) /\
    t_value o' = (if x && y then lit "true" else lit "false").
Proof. exact combine_bool. Qed.
Print Assumptions C18_combine_booleans.

Theorem C18_combine_rejects_non_booleans : forall sed o n,
  t_kind o = KScalar -> t_kind n = KScalar -> t_tag o = lit "!!bool" ->
  (~ exists x, bool_text (t_value o) x) \/ (~ exists y, bool_text (t_value n) y) ->
  exists o', combine_node sed o n = (o', Some EParseBool) /\ t_value o' = t_value o.
Proof. exact combine_bool_error. Qed.
Print Assumptions C18_combine_rejects_non_booleans.

Example C18_ex : bool_text (lit "True") true /\ bool_text (lit "f") false /\ ~ exists x, bool_text (lit "yes") x.
Proof.
  split; [apply parse_bool_spec; reflexivity|]. split; [apply parse_bool_spec; reflexivity|].
  intros [x H]. apply parse_bool_spec in H. vm_compute in H. discriminate.
Qed.

(** ** C19  Combine touches only the value and comments *)
Theorem C19_combine_text : forall sed o n,
  t_kind o = KScalar -> t_kind n = KScalar -> t_tag o <> lit "!!int" -> t_tag o <> lit "!!bool" ->
  exists o', combine_node sed o n = (o', None) /\ t_value o' = t_value o ++ t_value n.
Proof. exact combine_text. Qed.
Print Assumptions C19_combine_text.

Theorem C19_combine_non_scalar : forall sed o n,
  t_kind o <> KScalar \/ t_kind n <> KScalar -> combine_node sed o n = (o, Some ECombineOnlyScalars).
Proof. exact combine_not_scalar. Qed.
Print Assumptions C19_combine_non_scalar.

Theorem C19_combine_frame : forall sed o n,
  let o' := fst (combine_node sed o n) in
  t_kind o' = t_kind o /\ t_tag o' = t_tag o /\ i_style (t_info o') = i_style (t_info o) /\
  i_anchor (t_info o') = i_anchor (t_info o) /\ t_content o' = t_content o.
Proof. exact combine_frame. Qed.
Print Assumptions C19_combine_frame.

Example C19_ex : t_kind (sc "ab") = KScalar /\ t_tag (sc "ab") <> lit "!!int" /\ t_tag (sc "ab") <> lit "!!bool" /\
  t_kind (mp []) <> KScalar.
Proof. repeat split; discriminate. Qed.

(** Properties C09 and C10 (format markers): theorem statements only, with
    witnesses that their hypotheses are satisfiable. *)
From Verif Require Import Prelude GoStrings Format SpecFormat ProofFormat.

(** ** C09: marker substitution is simultaneous. *)

(** Every format string is a sequence of literal pieces and markers (so the
    theorem below, stated on pieces, covers every string). *)
Theorem C09_every_string_has_pieces : forall s : list N,
  exists ps, pieces_ok ps /\ src ps = s.
Proof. exact pieces_complete. Qed.
Print Assumptions C09_every_string_has_pieces.

(** Expanding a format string copies the literal text and replaces each marker,
    once, by the original text run through its command, whenever the original
    texts contain no marker and the expected text contains none. *)
Theorem C09_format_is_simultaneous : forall sed (v : fvals) ps,
  (forall m, ~ marker_in (fval v m)) ->
  pieces_ok ps ->
  ~ marker_in (expected sed (fval v) ps) ->
  format sed (src ps) v = expected sed (fval v) ps.
Proof. exact format_pieces. Qed.
Print Assumptions C09_format_is_simultaneous.

Definition no_sed : sed_engine := fun _ => None.

(** The hypotheses are met by "a%v-%k{s/x/y/}" on value "v1", key "kx". *)
Example C09_hypotheses_met :
  let v := mkFvals (lit "v1") [] [] [] (lit "kx") in
  let ps := [Text (lit "a"); Mark MValue None; Text (lit "-"); Mark MKey (Some (lit "s/x/y/"))] in
  (forall m, ~ marker_in (fval v m)) /\ pieces_ok ps /\ ~ marker_in (expected no_sed (fval v) ps)
  /\ src ps = lit "a%v-%k{s/x/y/}" /\ expected no_sed (fval v) ps = lit "av1-kx".
Proof.
  repeat split; try reflexivity;
    try (intros H; apply check_for_markers_spec in H; vm_compute in H; discriminate).
  - intros m H. apply check_for_markers_spec in H. destruct m; vm_compute in H; discriminate.
  - intros (c & b & H & _). vm_compute in H. discriminate.
  - intros H. vm_compute in H. apply elem_of_list_In in H. simpl in H. firstorder discriminate.
  - intros H. vm_compute in H. apply elem_of_list_In in H. simpl in H. firstorder discriminate.
Qed.

(** The unrestricted claim is false: with value "v", "%%v %v" becomes "v %v",
    not "%v v": the literal "%" and the inserted "v" form a text equal to the
    second marker, which is then replaced in its stead. *)
Theorem C09_format_is_simultaneous_refuted : exists (v : fvals) ps,
  (forall m, ~ marker_in (fval v m)) /\ pieces_ok ps /\
  format no_sed (src ps) v <> expected no_sed (fval v) ps.
Proof.
  exists (mkFvals (lit "v") [] [] [] []),
    [Text (lit "%"); Mark MValue None; Text (lit " "); Mark MValue None].
  split; [|split].
  - intros m H. apply check_for_markers_spec in H. destruct m; vm_compute in H; discriminate.
  - split; [|split; [exact I|split]].
    + intros H. apply check_for_markers_spec in H. vm_compute in H. discriminate.
    + intros (c & b & H & _). vm_compute in H. discriminate.
    + split; [|split; [exact I|split; [|exact I]]].
      * intros H. apply check_for_markers_spec in H. vm_compute in H. discriminate.
      * intros (c & b & H & _). vm_compute in H. discriminate.
  - vm_compute. discriminate.
Qed.
Print Assumptions C09_format_is_simultaneous_refuted.

(** Text without markers is copied verbatim whatever the originals are. *)
Theorem C09_plain_text_is_copied : forall sed s v, ~ marker_in s -> format sed s v = s.
Proof. exact format_no_marker. Qed.
Print Assumptions C09_plain_text_is_copied.

(** ** C10: "%v" keeps the original value — exactly when the value itself
    contains no marker. *)
Theorem C10_percent_v_keeps_value_iff : forall sed (v : fvals),
  format sed (lit "%v") v = fv_value v <-> ~ marker_in (fv_value v).
Proof.
  intros sed v. change (lit "%v") with (marker_text MValue). rewrite format_marker.
  exact (sanitize_value_id_iff (fv_value v)).
Qed.
Print Assumptions C10_percent_v_keeps_value_iff.

(** The same for every marker and its original text. *)
Theorem C10_marker_keeps_text_iff : forall sed m (v : fvals),
  format sed (marker_text m) v = fval v m <-> ~ marker_in (fval v m).
Proof. intros sed m v. rewrite format_marker. exact (sanitize_value_id_iff (fval v m)). Qed.
Print Assumptions C10_marker_keeps_text_iff.

Example C10_kept : ~ marker_in (lit "100% sure").
Proof. intros H. apply check_for_markers_spec in H. vm_compute in H. discriminate. Qed.

(** The unrestricted claim is false, e.g. for an Apache log format value. *)
Theorem C10_percent_v_keeps_value_refuted : exists v : fvals,
  format no_sed (lit "%v") v <> fv_value v.
Proof. exists (mkFvals (lit "%h %l %u %t") [] [] [] []). vm_compute. discriminate. Qed.
Print Assumptions C10_percent_v_keeps_value_refuted.

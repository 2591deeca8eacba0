(** Properties C01-C05, C07, C08, C11, C12 (merge part) and C49 (merge part):
    theorem statements, each followed by an example meeting its hypotheses. *)
From Verif Require Import Prelude GoStrings Format SpecFormat Yaml MergeTree Combine SpecMerge
  ProofMerge ProofMergeMap ProofMergeIdem ProofFormat ProofSanitize ProofComments ProofMergeProps Deciders Examples.

(** ** C01  Merging a mapping is a key-wise deep merge *)

(** On abstract values (type, text, children; see SpecMerge.v), merging any
    marker-free value made of mappings, sequences and scalars into any node
    succeeds and gives exactly the deep merge. *)
Theorem C01_merge_is_deep_merge : forall sed o n,
  simple_value n -> plain n -> well_paired o ->
  exists o', merge_node sed o [n] = Ok o' /\ abs o' = deep_merge (abs o) (abs n).
Proof. exact deep_merge_ok. Qed.
Print Assumptions C01_merge_is_deep_merge.

Example C01_merge_is_deep_merge_ex : simple_value ex_n /\ plain ex_n /\ well_paired ex_o.
Proof. split; [apply simple_ex|split; [apply plain_ex|apply well_paired_ex]]; reflexivity. Qed.

(** Key by key, on full nodes (values may contain markers): keys only in the
    original keep exactly their node; keys only in the overlay get a blanked
    copy; common keys get the merge of both nodes. *)
Theorem C01_mapping_merge_by_key : forall sed o n o',
  t_kind o = KMapping -> t_kind n = KMapping -> is_paired (children o) -> good_shape n ->
  (forall k, k ∈ keys (children n) -> ~ marker_in k) -> NoDup (keys (children n)) ->
  merge_node sed o [n] = Ok o' ->
  (forall k, k ∉ keys (children n) -> lookup_key k (children o') = lookup_key k (children o)) /\
  (forall k v, lookup_key k (children n) = Some v -> k ∉ keys (children o) ->
     exists v', lookup_key k (children o') = Some v' /\ blank_copy sed v v') /\
  (forall k v ov, lookup_key k (children n) = Some v -> lookup_key k (children o) = Some ov ->
     exists r, merge sed ov v [k] = Ok r /\ lookup_key k (children o') = Some r).
Proof. exact mapping_merge. Qed.
Print Assumptions C01_mapping_merge_by_key.

Example C01_mapping_merge_by_key_ex :
  t_kind ex_o = KMapping /\ t_kind ex_n = KMapping /\ is_paired (children ex_o) /\ good_shape ex_n /\
  (forall k, k ∈ keys (children ex_n) -> ~ marker_in k) /\ NoDup (keys (children ex_n)) /\
  exists o', merge_node no_sed ex_o [ex_n] = Ok o'.
Proof.
  split; [reflexivity|]. split; [reflexivity|]. split; [apply evenb_sound; reflexivity|].
  split; [apply good_shape_ex; reflexivity|]. split; [apply marker_free_list_ex; reflexivity|].
  split; [apply nodup_ex; reflexivity|]. eexists. reflexivity.
Qed.

(** ** C02  Merging never reorders or loses keys *)
Theorem C02_merge_key_order : forall sed o n o',
  t_kind o = KMapping -> t_kind n = KMapping -> is_paired (children o) ->
  (forall k, k ∈ keys (children n) -> ~ marker_in k) -> NoDup (keys (children n)) ->
  merge_node sed o [n] = Ok o' ->
  t_kind o' = KMapping /\ is_paired (children o') /\
  keys (children o') =
    keys (children o) ++ filter (fun k => k ∉ keys (children o)) (keys (children n)).
Proof. exact mapping_order. Qed.
Print Assumptions C02_merge_key_order.
(* hypotheses met: C01_mapping_merge_by_key_ex *)

(** Keys apiVersion, metadata, ports against metadata, ports, kind. *)
Example C02_applies :
  t_kind ex_o = KMapping /\ t_kind ex_n = KMapping /\ is_paired (children ex_o) /\
  (forall k, k ∈ keys (children ex_n) -> ~ marker_in k) /\ NoDup (keys (children ex_n)) /\
  exists o', merge_node no_sed ex_o [ex_n] = Ok o' /\ keys (children o') = map lit ["apiVersion"; "metadata"; "ports"; "kind"]%string.
Proof.
  split; [reflexivity|]. split; [reflexivity|]. split; [apply evenb_sound; reflexivity|].
  split; [apply marker_free_list_ex; reflexivity|]. split; [apply nodup_ex; reflexivity|]. eexists. split; [reflexivity|vm_compute; reflexivity].
Qed.

(** ** C03  Merging a sequence appends *)
Theorem C03_merge_sequence : forall sed o n,
  t_kind n = KSequence -> good_shape n ->
  exists o' added, merge_node sed o [n] = Ok o' /\ t_kind o' = KSequence /\
    Forall2 (blank_copy sed) (children n) added /\
    children o' = (if decide (t_kind o = KSequence) then children o else []) ++ added /\
    (t_kind o = KSequence -> t_tag o' = t_tag o) /\
    (t_kind o <> KSequence -> t_tag o' = lit "!!seq" /\ t_value o' = []).
Proof. exact sequence_merge. Qed.
Print Assumptions C03_merge_sequence.

Example C03_merge_sequence_ex :
  t_kind (sq [num "1"; mp [sc "a"; sc "%v"]]) = KSequence /\ good_shape (sq [num "1"; mp [sc "a"; sc "%v"]]).
Proof. split; [reflexivity|apply good_shape_ex; reflexivity]. Qed.

(** ** C04  Merging a scalar replaces value and type *)

(** [originals o k m] is the text marker [m] stands for. *)
Theorem C04_merge_scalar : forall sed o n ks,
  t_kind n = KScalar -> good_shape o -> length ks <= 1 ->
  exists o', merge sed o n ks = Ok o' /\ t_kind o' = KScalar /\ t_content o' = None /\
    t_tag o' = t_tag n /\
    forall ps, pieces_ok ps -> src ps = t_value n ->
      let orig := originals o (match ks with [] => [] | k :: _ => k end) in
      (forall m, ~ marker_in (orig m)) ->
      ~ marker_in (expected sed orig ps) -> t_value o' = expected sed orig ps.
Proof. exact scalar_merge. Qed.
Print Assumptions C04_merge_scalar.

Theorem C04_merge_scalar_without_markers : forall sed o n ks,
  t_kind n = KScalar -> ~ marker_in (t_value n) ->
  exists o', merge sed o n ks = Ok o' /\ t_kind o' = KScalar /\ t_tag o' = t_tag n /\ t_value o' = t_value n.
Proof. exact scalar_merge_plain. Qed.
Print Assumptions C04_merge_scalar_without_markers.

(** value "web" under key "name", overlay "%v-%k-2": result "web-name-2". *)
Example C04_merge_scalar_ex :
  let n := sc "%v-%k-2" in let ps := [Mark MValue None; Text (lit "-"); Mark MKey None; Text (lit "-2")] in
  let orig := originals (sc "web") (lit "name") in
  t_kind n = KScalar /\ good_shape (sc "web") /\ src ps = t_value n /\
  expected no_sed orig ps = lit "web-name-2" /\ ~ marker_in (expected no_sed orig ps) /\
  (forall m, ~ marker_in (orig m)) /\
  exists o', merge no_sed (sc "web") n [lit "name"] = Ok o' /\ t_value o' = lit "web-name-2".
Proof.
  cbv zeta. split; [reflexivity|]. split; [apply good_shape_ex; reflexivity|].
  split; [reflexivity|]. split; [reflexivity|]. split; [apply freeb_sound; reflexivity|].
  split; [intros []; apply freeb_sound; reflexivity|]. eexists. split; reflexivity.
Qed.

(** ** C05  Idempotence *)
Theorem C05_merge_idempotent : forall sed o n o',
  everywhere node_idem n -> well_paired o ->
  merge_node sed o [n] = Ok o' -> merge_node sed o' [n] = Ok o'.
Proof. exact idempotent_merge. Qed.
Print Assumptions C05_merge_idempotent.

Definition ex_idem : tree :=
  mp [sc "metadata"; mp [sc "labels"; mp [sc "tier"; sc "front"]; sc "name"; sc "api"]; sc "ports"; sc "none"].
Example C05_merge_idempotent_ex :
  everywhere node_idem ex_idem /\ well_paired ex_o /\
  exists o', merge_node no_sed ex_o [ex_idem] = Ok o' /\ o' <> ex_o.
Proof.
  split; [apply idem_ex; reflexivity|]. split; [apply well_paired_ex; reflexivity|].
  eexists. split; [reflexivity|]. vm_compute. discriminate.
Qed.

(** Sequences really break it. *)
Example C05_sequences_are_not_idempotent : exists o n o',
  merge_node no_sed o [n] = Ok o' /\ merge_node no_sed o' [n] <> Ok o'.
Proof. exists (sq [num "1"]), (sq [num "2"]). eexists. split; [reflexivity|]. vm_compute. discriminate. Qed.

(** ** C07  Merge succeeds unless the overlay contains an alias *)
Theorem C07_merge_total : forall sed n, everywhere no_alias_no_doc n ->
  forall o ks, exists o', merge sed o n ks = Ok o'.
Proof. exact merge_total. Qed.
Print Assumptions C07_merge_total.

(** With aliases the only failure is ErrMergeUnsupportedType; never a crash. *)
Theorem C07_merge_fails_only_with_unsupported_type : forall sed n, everywhere no_doc n ->
  forall o ks, match merge sed o n ks with
               | Ok _ => True | Err e => e = EMergeUnsupported | Panic | Fuel => False
               end.
Proof. exact merge_outcome. Qed.
Print Assumptions C07_merge_fails_only_with_unsupported_type.

Example C07_merge_total_ex : everywhere no_alias_no_doc ex_n.
Proof. apply no_alias_no_doc_ex. reflexivity. Qed.
Example C07_alias_fails :
  let al := T (mk KAlias [] (lit "x")) None in
  everywhere no_doc (mp [sc "a"; al]) /\
  merge no_sed (mp [sc "a"; num "1"]) (mp [sc "a"; al]) [] = Err EMergeUnsupported.
Proof.
  cbv zeta. split; [|reflexivity].
  apply (everywhereb_sound (fun t => negb (kind_eqb (t_kind t) KDocument))); [|reflexivity].
  intros t H E. rewrite E in H. discriminate.
Qed.

(** The document nodes excluded above do crash: merging documents when the
    target has an empty, non-nil content (what deleting the root leaves). *)
Theorem C07_merge_document_refuted : exists o n,
  simple_value (match children n with t :: _ => t | [] => n end) /\ merge_node no_sed o [n] = Panic.
Proof.
  exists (T (mk KDocument [] []) (Some [])), (doc (sc "x")).
  split; [apply simple_ex; reflexivity|reflexivity].
Qed.
Print Assumptions C07_merge_document_refuted.

(** ** C08  A marker key edits every entry *)
Theorem C08_marker_key_edits_every_entry : forall sed o n o' nk nv,
  t_kind o = KMapping -> t_kind n = KMapping -> children n = [nk; nv] ->
  t_value nk = lit "%k" -> pairs (children o) <> [] ->
  (forall k, k ∈ keys (children o) -> ~ marker_in k) ->
  merge_node sed o [n] = Ok o' ->
  keys (children o') = keys (children o) /\
  Forall2 (fun e e' => merge sed (snd e) nv [t_value (fst e)] = Ok (snd e'))
    (pairs (children o)) (pairs (children o')).
Proof. exact marker_key_merge. Qed.
Print Assumptions C08_marker_key_edits_every_entry.

(** The same for any overlay key that contains a marker: every entry stays in
    its place, the overlay's value is merged into its value, and its key becomes
    the overlay's key text, expanded with the value text the entry had before, its
    key and its key's comments (after the overlay key's comments have been
    merged into them). *)
Theorem C08_marker_key_exact : forall sed o n o' nk nv,
  t_kind o = KMapping -> t_kind n = KMapping -> children n = [nk; nv] ->
  marker_in (t_value nk) -> pairs (children o) <> [] ->
  merge_node sed o [n] = Ok o' ->
  Forall2 (fun e e' => merge sed (snd e) nv [t_value (fst e)] = Ok (snd e') /\
    exists i : info,
      comments_from_first (fun s => format sed s (texts (t_value (snd e)) (t_value (fst e)) (t_info (fst e)))) (t_info (fst e)) (t_info nk) i /\
      t_value (fst e') = format sed (t_value nk) (texts (t_value (snd e)) (t_value (fst e)) i))
    (pairs (children o)) (pairs (children o')).
Proof.
  intros sed o n o' nk nv Ho Hn Hc Hm Hne H. rewrite merge_node_one in H.
  exact (merge_marker_key_exact sed o n [] o' nk nv Ho Hn Hc Hm Hne H).
Qed.
Print Assumptions C08_marker_key_exact.

(** In particular, when the overlay key has no comment: the expected text of C09. *)
Theorem C08_marker_key_text : forall sed o n o' nk nv ps,
  t_kind o = KMapping -> t_kind n = KMapping -> children n = [nk; nv] ->
  no_comments nk -> marker_in (t_value nk) -> pieces_ok ps -> src ps = t_value nk -> pairs (children o) <> [] ->
  merge_node sed o [n] = Ok o' ->
  Forall2 (fun e e' =>
    let originals := fval (texts (t_value (snd e)) (t_value (fst e)) (t_info (fst e))) in
    (forall m, ~ marker_in (originals m)) -> ~ marker_in (expected sed originals ps) ->
    t_value (fst e') = expected sed originals ps)
    (pairs (children o)) (pairs (children o')).
Proof.
  intros sed o n o' nk nv ps Ho Hn Hc (C1 & C2 & C3) Hm Hps Hs Hne H. rewrite merge_node_one in H.
  pose proof (merge_marker_key_exact sed o n [] o' nk nv Ho Hn Hc Hm Hne H) as F.
  eapply Forall2_impl; [exact F|]. intros e e' (_ & i & CF & ->). cbv zeta. intros HO HE.
  assert (EI : texts (t_value (snd e)) (t_value (fst e)) i = texts (t_value (snd e)) (t_value (fst e)) (t_info (fst e))).
  { destruct CF as (_ & _ & CF). destruct (CF C1 C2) as (E1 & E2 & E3). unfold texts. rewrite E1, E2, (proj1 E3 C3). reflexivity. }
  rewrite EI, <- Hs. by apply format_pieces.
Qed.
Print Assumptions C08_marker_key_text.

Example C08_marker_key_text_ex :
  let o := mp [scc "a" "" "# x" ""; num "1"; sc "b"; num "2"] in let n := mp [sc "%v-%k%l"; sc "z"] in
  let ps := [Mark MValue None; Text (lit "-"); Mark MKey None; Mark MLine None] in
  pieces_ok ps /\ src ps = lit "%v-%k%l" /\
  merge_node no_sed o [n] = Ok (mp [scc "1-a x" "" "# x" ""; sc "z"; sc "2-b"; sc "z"]).
Proof.
  cbv zeta. split; [|split; reflexivity].
  repeat split; try (intros (c & b & Hc & _); vm_compute in Hc; discriminate).
  apply freeb_sound. reflexivity.
Qed.

Theorem C08_marker_key_succeeds : forall sed o n nk nv,
  t_kind n = KMapping -> children n = [nk; nv] -> everywhere no_alias_no_doc nv ->
  exists o', merge_node sed o [n] = Ok o'.
Proof. exact marker_key_total. Qed.
Print Assumptions C08_marker_key_succeeds.

Example C08_marker_key_ex :
  let o := mp [sc "a"; num "1"; sc "b"; num "2"] in let n := mp [sc "%k"; sc "%k=%v"] in
  pairs (children o) <> [] /\ (forall k, k ∈ keys (children o) -> ~ marker_in k) /\
  merge_node no_sed o [n] = Ok (mp [sc "a"; sc "a=1"; sc "b"; sc "b=2"]).
Proof. cbv zeta. split; [discriminate|]. split; [apply marker_free_list_ex; reflexivity|reflexivity]. Qed.

(** Without the non-emptiness hypothesis the claim fails: a bogus entry with an
    empty key is added to an empty mapping. *)
Theorem C08_marker_key_empty_map_refuted : exists o n nk nv,
  t_kind o = KMapping /\ t_kind n = KMapping /\ children n = [nk; nv] /\ t_value nk = lit "%k" /\
  keys (children o) = [] /\
  exists o', merge_node no_sed o [n] = Ok o' /\ keys (children o') <> keys (children o).
Proof.
  exists (mp []), (mp [sc "%k"; sc "x"]), (sc "%k"), (sc "x"). repeat split.
  eexists. split; [reflexivity|]. vm_compute. discriminate.
Qed.
Print Assumptions C08_marker_key_empty_map_refuted.

(** ** C11  No marker text leaks into new content *)
Theorem C11_added_entry_has_no_marker : forall sed o n o' k v,
  t_kind o = KMapping -> t_kind n = KMapping -> is_paired (children o) -> good_shape n ->
  (forall k, k ∈ keys (children n) -> ~ marker_in k) -> NoDup (keys (children n)) ->
  merge_node sed o [n] = Ok o' ->
  lookup_key k (children n) = Some v -> k ∉ keys (children o) ->
  everywhere (node_blanks_cleanly sed) v ->
  exists v', lookup_key k (children o') = Some v' /\ plain v'.
Proof. exact added_content_plain. Qed.
Print Assumptions C11_added_entry_has_no_marker.

Theorem C11_added_elements_have_no_marker : forall sed o n,
  t_kind n = KSequence -> good_shape n -> Forall (everywhere (node_blanks_cleanly sed)) (children n) ->
  exists o' added, merge_node sed o [n] = Ok o' /\ Forall plain added /\
    length added = length (children n) /\
    children o' = (if decide (t_kind o = KSequence) then children o else []) ++ added.
Proof. exact added_elements_plain. Qed.
Print Assumptions C11_added_elements_have_no_marker.

(** The side condition holds in particular for marker-free content, which is
    then copied verbatim. *)
Theorem C11_plain_content_added_verbatim : forall sed t, plain t ->
  everywhere (node_blanks_cleanly sed) t /\ add_node sed (sq []) [t] = sq [t].
Proof.
  intros sed t H. split; [exact (plain_blanks_cleanly sed t H)|].
  cbn. rewrite (blank_copy_of_plain sed t H). reflexivity.
Qed.
Print Assumptions C11_plain_content_added_verbatim.

Example C11_ex : forall sed, everywhere (node_blanks_cleanly sed) (sc "a%v") /\
  merge_node sed (sq []) [sq [sc "a%v"]] = Ok (sq [sc "a"]).
Proof.
  intros sed. split; [|reflexivity]. apply ProofMerge.everywhere_none.
  assert (H : forall s, check_for_markers s = false -> blanks_cleanly sed s).
  { intros s Hs. apply ProofMerge.check_markers_false in Hs. exists [Text s]. unfold expected, src.
    cbn [map concat piece_src piece_out pieces_ok]. rewrite app_nil_r. tauto. }
  split; [|split; [|split]]; try (apply H; reflexivity).
  exists [Text (lit "a"); Mark MValue None]. split; [|split].
  - split; [apply freeb_sound; reflexivity|]. split; [exact I|]. split; [|exact I].
    intros (c & b & Hc & _). discriminate.
  - reflexivity.
  - apply freeb_sound. reflexivity.
Qed.

(** In general a marker can leak: "%%vv" is added as "%v". *)
Theorem C11_markers_leak_refuted : exists n o',
  good_shape n /\ merge_node no_sed (sq []) [n] = Ok o' /\ ~ Forall plain (children o').
Proof.
  exists (sq [sc "%%vv"]). eexists. split; [apply good_shape_ex; reflexivity|]. split; [reflexivity|].
  intros H. apply Forall_cons in H as [H _]. apply ProofMerge.everywhere_root in H as [H _].
  apply H. apply marker_in_ex. reflexivity.
Qed.
Print Assumptions C11_markers_leak_refuted.

(** ** C12  Comments *)

(** What holds for merge (scalars and sequences), replace and combine: the
    overlay's comments are used from the first position where it has one, their
    markers standing for the original's text, comments and key. *)
Theorem C12_merge_scalar_comments : forall sed o n o',
  t_kind n = KScalar -> merge_node sed o [n] = Ok o' ->
  comments_from_first (fun s => format sed s (texts (t_value o) [] (t_info o))) (t_info o) (t_info n) (t_info o').
Proof. intros sed o n o' K H. rewrite merge_node_one in H. exact (merge_scalar_comments sed o n [] o' K H). Qed.
Print Assumptions C12_merge_scalar_comments.

(** The same for the value of a mapping entry, where %k stands for the key. *)
Theorem C12_merge_entry_comments : forall sed o n k o',
  t_kind n = KScalar -> merge sed o n [k] = Ok o' ->
  comments_from_first (fun s => format sed s (texts (t_value o) k (t_info o))) (t_info o) (t_info n) (t_info o').
Proof. intros sed o n k o' K H. exact (merge_scalar_comments sed o n [k] o' K H). Qed.
Print Assumptions C12_merge_entry_comments.

(** Sequences: a sequence has no text, so %v (and %k) stand for nothing unless
    the original sequence node carries a text. *)
Theorem C12_merge_sequence_comments : forall sed o n ks o',
  t_kind n = KSequence -> t_content n <> None -> merge sed o n ks = Ok o' ->
  let v := if decide (t_kind o = KSequence) then t_value o else [] in
  comments_from_first (fun s => format sed s (texts v v (t_info o))) (t_info o) (t_info n) (t_info o').
Proof. exact merge_array_comments. Qed.
Print Assumptions C12_merge_sequence_comments.

(** Mappings: the node's own comments are kept, whatever the overlay says. *)
Theorem C12_merge_mapping_comments : forall sed o n ks o',
  t_kind n = KMapping -> merge sed o n ks = Ok o' ->
  i_head (t_info o') = i_head (t_info o) /\ i_linec (t_info o') = i_linec (t_info o) /\ i_foot (t_info o') = i_foot (t_info o).
Proof. exact merge_map_comments. Qed.
Print Assumptions C12_merge_mapping_comments.

(** Keys: the comments of the overlay's key go to the original's key by the same
    rule; an entry whose key the overlay does not mention keeps key and value. *)
Theorem C12_merge_key_comments : forall sed o n ks o',
  t_kind o = KMapping -> t_kind n = KMapping -> is_paired (children o) -> NoDup (keys (children o)) ->
  (forall k, k ∈ keys (children n) -> ~ marker_in k) -> NoDup (keys (children n)) ->
  merge sed o n ks = Ok o' ->
  forall i kn ov, pairs (children o) !! i = Some (kn, ov) ->
  exists kn' ov', pairs (children o') !! i = Some (kn', ov') /\ t_value kn' = t_value kn /\
    (t_value kn ∉ keys (children n) -> kn' = kn /\ ov' = ov) /\
    forall nk nv, (nk, nv) ∈ pairs (children n) -> t_value nk = t_value kn ->
      comments_from_first (fun s => format sed s (texts (t_value ov) (t_value kn) (t_info kn))) (t_info kn) (t_info nk) (t_info kn').
Proof.
  intros sed o n ks o' Ho Hn Hp Hd Hm Hnd H i kn ov L.
  destruct (merge_mapping_entries sed o n ks o' Ho Hn Hp Hd Hm Hnd H i (kn, ov) L) as ([kn' ov'] & L' & V & U & M).
  exists kn', ov'. cbn [fst snd] in *. split; [exact L'|]. split; [exact V|]. split.
  - intros N. specialize (U N). injection U as -> ->. split; reflexivity.
  - intros nk nv Hin Heq. exact (proj1 (M nk nv Hin Heq)).
Qed.
Print Assumptions C12_merge_key_comments.

Example C12_key_ex :
  let o := mp [scc "a" "# h" "# l" ""; num "1"; sc "b"; num "2"] in let n := mp [scc "a" "" "# %k=%v%l" ""; num "5"] in
  is_paired (children o) /\ NoDup (keys (children o)) /\ (forall k, k ∈ keys (children n) -> ~ marker_in k) /\ NoDup (keys (children n)) /\
  merge no_sed o n [] = Ok (mp [scc "a" "# h" "# a=1 l" ""; num "5"; sc "b"; num "2"]).
Proof.
  cbv zeta. split; [by exists [(scc "a" "# h" "# l" "", num "1"); (sc "b", num "2")]|].
  split; [apply nodup_ex; reflexivity|]. split; [apply marker_free_list_ex; reflexivity|].
  split; [apply nodup_ex; reflexivity|reflexivity].
Qed.

Theorem C12_replace_comments : forall sed o n,
  comments_from_first (fun s => format sed s (texts (t_value o) [] (t_info o))) (t_info o) (t_info n)
    (t_info (replace_node sed o n)).
Proof. exact replace_comments. Qed.
Print Assumptions C12_replace_comments.

Theorem C12_combine_comments : forall sed o n,
  t_kind o = KScalar -> t_kind n = KScalar ->
  comments_from_first (fun s => format sed s (texts (t_value o) [] (t_info o))) (t_info o) (t_info n)
    (t_info (fst (combine_node sed o n))).
Proof. exact combine_comments. Qed.
Print Assumptions C12_combine_comments.

(** That implies the expected per-position rule when the overlay leaves no gap
    before an original comment. *)
Theorem C12_comments_kept_without_gap : forall fmt o n r,
  fmt [] = [] -> no_comment_gap o n -> comments_from_first fmt o n r -> comments_kept fmt o n r.
Proof. exact comments_no_gap. Qed.
Print Assumptions C12_comments_kept_without_gap.

Example C12_ex :
  let o := scc "x" "# h" "# l" "" in let n := scc "y" "" "# %l!" "" in
  no_comment_gap (t_info o) (t_info n) /\ comments_from_first (fun s => format no_sed s (texts (t_value o) [] (t_info o)))
    (t_info o) (t_info n) (t_info (replace_node no_sed o n)) /\
  i_linec (t_info (replace_node no_sed o n)) = lit "#  l!" /\
  i_head (t_info (replace_node no_sed o n)) = lit "# h".
Proof.
  cbv zeta. split; [split; cbn; [congruence|intros; reflexivity]|].
  split; [apply replace_comments|]. split; reflexivity.
Qed.

(** The rule itself is violated: an overlay with only a head comment erases the
    original's line comment (merge, replace and combine). *)
Theorem C12_comments_kept_refuted : exists o n : tree,
  i_linec (t_info o) <> [] /\ i_linec (t_info n) = [] /\
  (exists o', merge_node no_sed o [n] = Ok o' /\ i_linec (t_info o') = []) /\
  i_linec (t_info (replace_node no_sed o n)) = [] /\
  i_linec (t_info (fst (combine_node no_sed o n))) = [].
Proof.
  exists (scc "x" "" "# keep me" ""), (scc "y" "# new head" "" "").
  split; [discriminate|]. split; [reflexivity|]. split; [eexists; split; reflexivity|]. split; reflexivity.
Qed.
Print Assumptions C12_comments_kept_refuted.

(** ** C49 (merge)  Merging keeps every mapping paired *)
Theorem C49_merge_keeps_pairs : forall sed o ns o',
  well_paired o -> Forall well_paired ns -> merge_node sed o ns = Ok o' -> well_paired o'.
Proof. exact merge_node_well_paired. Qed.
Print Assumptions C49_merge_keeps_pairs.

Example C49_merge_ex : well_paired ex_o /\ Forall well_paired [ex_n; ex_idem] /\
  exists o', merge_node no_sed ex_o [ex_n; ex_idem] = Ok o'.
Proof.
  split; [apply well_paired_ex; reflexivity|]. split.
  - repeat (apply Forall_cons; split); try apply Forall_nil; try exact I; apply well_paired_ex; reflexivity.
  - eexists. reflexivity.
Qed.

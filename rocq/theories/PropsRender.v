(** C38-C40: rendering. *)
From Verif Require Import Prelude GoStrings Yaml SpecMerge Paths Render SpecRender ProofMerge ProofRender Examples Deciders.

(** C38.  The rendered text is a start marker (if the first document has
    content) followed by the encodings of exactly the documents with content,
    in order; the only failure is an encoder failure. *)
Theorem C38_exactly_live_documents : forall enc styles docs,
  let chosen := map (set_style (get_style (styles_from_config styles))) (live docs) in
  let start := match docs with d :: _ => if decide (children d = []) then [] else lit "---" ++ [10%N] | [] => [] end in
  match encodings enc 0 chosen with
  | Some text => encode_nodes enc styles docs = Ok (start ++ text)
  | None => encode_nodes enc styles docs = Err EEncode
  end.
Proof. intros enc styles docs chosen start. subst chosen start. rewrite encode_nodes_spec. by destruct (encodings _ _ _). Qed.

(** If all documents are empty nothing is written anywhere. *)
Theorem C38_empty_file_not_written : forall enc d cfg docs output w,
  live docs = [] -> (0 <= oc_indent cfg)%Z -> post_process enc d cfg docs output w = (w, Ok tt).
Proof.
  intros enc d cfg docs output w Hl Hi. unfold post_process. rewrite (proj2 (Z.ltb_ge _ _) Hi). rewrite encode_nodes_spec, Hl. simpl.
  destruct docs as [|n docs]; [done|]. destruct (decide (children n = [])) as [_|Hne]; [done|].
  exfalso. unfold live in Hl. simpl in Hl. by destruct (children n).
Qed.

(** Otherwise (documents encode to non-empty text) either an error is reported
    or the whole rendering is in the file / on standard output, and no other
    file is touched. *)
Theorem C38_written_whole : forall enc d cfg docs output w text,
  encode_nodes enc (oc_styles cfg) docs = Ok text -> text <> [] ->
  let '(w', r) := post_process enc d cfg docs output w in
  let name := output_file (oc_dir cfg) output in
  (r = Ok tt -> if oc_stdout cfg then w_stdout w' = w_stdout w ++ [text] /\ w_files w' = w_files w
                else file_content w' name = Some text) /\
  (forall other, other <> name -> file_content w' other = file_content w other).
Proof.
  intros enc d cfg docs output w text He Hne. unfold post_process.
  destruct (oc_indent cfg <? 0)%Z; [by split|]. rewrite He.
  destruct text as [|c text]; [done|]. set (txt := c :: text). set (name := output_file _ _).
  assert (Hfc : forall (w0 : world) so x o, o <> name -> file_content (mkWorld so ((name, x) :: w_files w0)) o = file_content w0 o).
  { intros w0 so x o Ho. unfold file_content. simpl. by destruct (seq_eqb_spec name o). }
  destruct (oc_stdout cfg).
  - destruct (stdout_ok d); (split; [done|done]).
  - destruct (can_open d name); [|split; done]. destruct (can_write d name); (split; [|intros; by apply Hfc]).
    + intros _. unfold file_content. simpl. by rewrite seq_eqb_refl.
    + done.
Qed.

Definition ex_enc (k : nat) (t : tree) : option (list N) :=
  Some ((if Nat.eqb k 0 then [] else lit "---" ++ [10%N]) ++ concat (map t_value (children t)) ++ [10%N]).
Example C38_example :
  encode_nodes ex_enc [] [doc (sc "a"); T (mk KDocument [] []) (Some []); doc (sc "b")]
    = Ok (lit "---" ++ [10%N] ++ lit "a" ++ [10%N] ++ lit "---" ++ [10%N] ++ lit "b" ++ [10%N]) /\
  live [T (mk KDocument [] []) None] = [].
Proof. split; by vm_compute. Qed.

(** C39.  Every node of a written document gets the same style; it has exactly
    the bits of the selected styles, provided none is selected twice; nothing
    but style changes. *)
Theorem C39_style_is_union : forall v t,
  good_shape t -> everywhere (fun u => t_kind u <> KZero) t -> NoDup (styles_from_config v) ->
  let t' := set_style (get_style (styles_from_config v)) t in
  but_style t t' /\
  everywhere (fun u => forall st, In st style_constants ->
     (has_style st (i_style (t_info u)) <-> In st (styles_from_config v))) t'.
Proof.
  intros v t Hg Hz Hnd t'. split; [apply set_style_but|].
  eapply everywhere_impl; [|by apply set_style_all]. intros u Hu st Hst. cbn beta in Hu. rewrite Hu.
  unfold get_style. rewrite fold_add_acc, N.add_0_l. unfold has_style.
  pose proof (sum_bits _ Hnd (styles_from_config_const v)) as Hb. split.
  - intros (k & -> & Hk). by apply Hb.
  - intros Hin. destruct (in_style_pow st Hst) as [k ->]. exists k. split; [done|]. by apply Hb.
Qed.

Example C39_example :
  styles_from_config [lit "[tagged,Flow]"] = [1; 32]%N /\ NoDup (styles_from_config [lit "[tagged,Flow]"]) /\
  good_shape (doc ex_o) /\ everywhere (fun u => t_kind u <> KZero) (doc ex_o).
Proof.
  split_and!; [by vm_compute| |apply good_shape_ex; reflexivity|].
  - assert (styles_from_config [lit "[tagged,Flow]"] = [1; 32]%N) as -> by by vm_compute.
    apply NoDup_cons; split; [|apply NoDup_singleton]. intros ?%elem_of_list_singleton. done.
  - apply (everywhereb_sound (fun t => negb (kind_eqb (t_kind t) KZero))); [|reflexivity].
    intros u Hu Hk. by rewrite Hk in Hu.
Qed.

(** Every spelling in the documentation selects its style, in any letter case. *)
Theorem C39_style_names :
  Forall (fun p => styles_from_config [lit (fst p)] = [snd p])
    [("normal", 64); ("n", 64); ("tagged", 1); ("tag", 1); ("t", 1);
     ("doubleQuoted", 2); ("doubleQuote", 2); ("double", 2); ("dq", 2);
     ("singleQuoted", 4); ("singleQuote", 4); ("single", 4); ("sq", 4);
     ("literal", 8); ("l", 8); ("folded", 16); ("fold", 16); ("fo", 16); ("FLOW", 32); ("fl", 32)]%string%N.
Proof. repeat (apply Forall_cons; split; [by vm_compute|]). constructor. Qed.

(** C39 fails when a style is given twice: tagged,tagged is double quoted. *)
Theorem C39_refuted_duplicate_style :
  get_style (styles_from_config [lit "tagged,tagged"]) = double_quoted_style.
Proof. by vm_compute. Qed.

(** C40.  Removing comments changes nothing but comments, and no node below the
    document node keeps one. *)
Theorem C40_comments_removed_below_root : forall t,
  but_comments t (remove_comments t) /\ Forall (everywhere no_comments) (children (remove_comments t)).
Proof. intros t. split; [apply remove_comments_but|apply remove_comments_below]. Qed.
(** ... so no comment is left if the document node itself had none. *)
Theorem C40_all_comments_removed : forall t, no_comments t -> everywhere no_comments (remove_comments t).
Proof.
  intros t Ht. pose proof (remove_comments_below t) as Hb. destruct t as [i [l|]]; cbn [remove_comments] in *.
  - rewrite everywhere_some. split; done.
  - rewrite everywhere_none. done.
Qed.
Example C40_example :
  let t := doc (mp [scc "k" "# h" "# l" "# f"; sc "v"]) in
  no_comments t /\ remove_comments t = doc (mp [sc "k"; sc "v"]).
Proof. split; [done|by vm_compute]. Qed.

(** C40 fails for the document node: a comment at the top of the file, separated
    from the content by an empty line, is attached to it and stays. *)
Theorem C40_refuted_document_comment :
  exists t, t_kind t = KDocument /\ i_head (t_info (remove_comments t)) = lit "# licence".
Proof. exists (T (mkInfo KDocument 0 [] [] [] (lit "# licence") [] [] 0 0) (Some [sc "v"])). done. Qed.

Print Assumptions C38_exactly_live_documents.
Print Assumptions C38_empty_file_not_written.
Print Assumptions C38_written_whole.
Print Assumptions C39_style_is_union.
Print Assumptions C40_comments_removed_below_root.
Print Assumptions C40_all_comments_removed.

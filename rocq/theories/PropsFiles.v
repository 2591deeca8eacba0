(** C32-C34: the list of input files. *)
From Verif Require Import Prelude GoStrings Paths SpecPaths ProofPaths Files SpecFiles ProofFiles.

(** C32.  Merging duplicates never fails; each path occurs once, at its first
    position; overlays and documents are concatenated in order; the output path
    is the last non-empty one.  (Name and loaded documents are the first
    entry's.) *)
Theorem C32_duplicates_merged {Ov Dc Nd} (y : list (entry Ov Dc Nd)) :
  exists y', merge_duplicates y = Ok y' /\
    map e_path y' = dedup [] (map e_path y) /\
    forall e, In e y' ->
      let group := entries_for (e_path e) y in
      e_overlays e = concat (map e_overlays group) /\
      e_documents e = concat (map e_documents group) /\
      e_output e = last_nonempty (map e_output group) /\
      exists first rest, group = first :: rest /\ e_name e = e_name first /\ e_nodes e = e_nodes first.
Proof.
  exists (fold_left step y []). split_and!.
  - apply merge_duplicates_eq.
  - apply fold_paths.
  - intros e He. by apply fold_content.
Qed.

(** What [dedup] means: no repetition, same elements, and each element comes
    after exactly the elements first seen before it. *)
Lemma dedup_subset seen l p : In p (dedup seen l) <-> In p l /\ ~ In p seen.
Proof.
  revert seen; induction l as [|x l IH]; intros seen; simpl; [tauto|].
  destruct (existsb (seq_eqb x) seen) eqn:Hx.
  - apply existsb_in in Hx. rewrite IH. split; [tauto|]. intros [[->|?] ?]; tauto.
  - apply existsb_notin in Hx. simpl. rewrite IH. simpl. split.
    + intros [->|[? ?]]; [split; [by left|done]|]. split; [by right|]. tauto.
    + intros [[->|?] ?]; [by left|]. destruct (decide (x = p)); [by left|]. right. tauto.
Qed.
Theorem C32_each_path_once {Ov Dc Nd} (y y' : list (entry Ov Dc Nd)) :
  merge_duplicates y = Ok y' -> NoDup (map e_path y') /\ forall p, In p (map e_path y') <-> In p (map e_path y).
Proof.
  intros Hm. destruct (C32_duplicates_merged y) as (y2 & Hm2 & Hp & _). assert (y2 = y') as -> by congruence.
  rewrite Hp. split.
  - generalize (@nil (list N)) as seen. generalize (map e_path y). clear. intros l.
    induction l as [|p l IH]; intros seen; simpl; [constructor|].
    destruct (existsb _ _); [apply IH|]. constructor; [|apply IH].
    intros Hin%elem_of_list_In. apply dedup_subset in Hin as [_ H]. apply H. by left.
  - intros p. rewrite dedup_subset. simpl. tauto.
Qed.

Definition ex_e (path out : string) (os : list nat) : entry nat nat nat := mkEntry _ _ _ [] os [] [] (lit path) (lit out).
Example C32_example :
  merge_duplicates [ex_e "/a" "" [1;2]%nat; ex_e "/b" "" [9]%nat; ex_e "/a" "o1" [3]%nat; ex_e "/a" "" [4]%nat]
  = Ok [ex_e "/a" "o1" [1;2;3;4]%nat; ex_e "/b" "" [9]%nat].
Proof. by vm_compute. Qed.

(** C33.  If no entry meets an error, expansion yields the entries that are not
    directories, in order, followed by the files of the directory entries in
    order, each with its directory's name, overlays, documents and output path.
    [located] only makes relative paths relative to the instructions file. *)
Theorem C33_directories_expanded {Ov Dc Nd} (f : fs) instdir (y : list (entry Ov Dc Nd)) :
  walks_files f instdir -> Forall (dash_is_stdin instdir) y ->
  let L := map (located instdir) y in
  Forall (expandable f) L ->
  exists F, forall fuel, (F <= fuel)%nat ->
    expand_directories fuel f instdir y =
    Ok (List.filter (fun e => negb (is_dir_entry f e)) L ++
        concat (map (files_of f) (List.filter (is_dir_entry f) L))).
Proof.
  intros Hw Hd L Hex. destruct (expand_ok f instdir y Hw [] []) as [F HF]; [done|done|constructor|].
  exists F. intros fuel Hf. specialize (HF fuel Hf). simpl in HF. rewrite app_nil_r in HF. exact HF.
Qed.

(** ... so no entry of the result is a directory. *)
Theorem C33_no_directory_left {Ov Dc Nd} (f : fs) instdir (y : list (entry Ov Dc Nd)) :
  walks_files f instdir -> Forall (dash_is_stdin instdir) y ->
  exists F, forall fuel y', (F <= fuel)%nat -> expand_directories fuel f instdir y = Ok y' ->
    forall e, In e y' -> is_dir_entry f e = false.
Proof.
  intros Hw Hd.
  destruct (all_expandable_dec f (map (located instdir) y)) as [Hex|Hex].
  - destruct (C33_directories_expanded f instdir y Hw Hd Hex) as [F HF]. exists F. intros fuel y' Hf Heq e He.
    rewrite (HF fuel Hf) in Heq. injection Heq as <-. apply in_app_iff in He as [He|He].
    + apply filter_In in He as [_ He]. by destruct (is_dir_entry f e).
    + apply in_concat in He as (l & Hl & He). apply in_map_iff in Hl as (d & <- & Hd').
      unfold files_of in He. destruct (fs_walk f (e_path d)) as [ps|] eqn:Hps; [|done].
      apply in_map_iff in He as (p & <- & Hp).
      apply filter_In in Hd' as [Hd' Hdir]. apply in_map_iff in Hd' as (d0 & <- & _).
      assert (e_path d0 <> lit "-") as Hnd.
      { intros Heq. unfold is_dir_entry, located in Hdir. rewrite Heq, seq_eqb_refl in Hdir.
        rewrite Heq, seq_eqb_refl in Hdir. done. }
      rewrite located_path in Hps by done. cbn [e_path with_path] in Hps.
      destruct (Hw _ _ _ Hps Hp) as (_ & _ & Hs).
      unfold is_dir_entry. cbn [e_path]. rewrite Hs. by rewrite andb_false_r.
  - destruct (expand_err f instdir y [] []) as (F & er & _ & HF); [done|done|].
    exists F. intros fuel y' Hf Heq. unfold expand_directories in Heq. specialize (HF fuel Hf). simpl in HF.
    rewrite app_nil_r in HF. congruence.
Qed.

(** An entry that cannot be expanded (missing file, unreadable directory, a
    directory with a file as output path) stops the run with an error. *)
Theorem C33_errors_reported {Ov Dc Nd} (f : fs) instdir (y : list (entry Ov Dc Nd)) :
  Forall (dash_is_stdin instdir) y -> ~ Forall (expandable f) (map (located instdir) y) ->
  exists F er, forall fuel, (F <= fuel)%nat -> expand_directories fuel f instdir y = Err er.
Proof.
  intros Hd Hex. destruct (expand_err f instdir y [] [] Hex Hd) as (F & er & _ & HF).
  exists F, er. intros fuel Hf. specialize (HF fuel Hf). simpl in HF. rewrite app_nil_r in HF. exact HF.
Qed.

(** A file system with a directory /w/d holding two YAML files. *)
Definition ex_fs : fs := mkFs
  (fun p => if seq_eqb p (lit "/w/d") then Some true
            else if existsb (seq_eqb p) [lit "/w/a.yaml"; lit "/w/d/x.yaml"; lit "/w/d/y.yml"] then Some false else None)
  (fun p => if seq_eqb p (lit "/w/d") then Some [lit "/w/d/x.yaml"; lit "/w/d/y.yml"] else None).
Example C33_example :
  walks_files ex_fs (lit "/w") /\
  Forall (dash_is_stdin (lit "/w")) [ex_e "d" "o" [7]%nat; ex_e "a.yaml" "" [8]%nat; ex_e "-" "" []] /\
  Forall (expandable ex_fs) (map (located (lit "/w")) [ex_e "d" "o" [7]%nat; ex_e "a.yaml" "" [8]%nat; ex_e "-" "" []]) /\
  expand_directories 10 ex_fs (lit "/w") [ex_e "d" "o" [7]%nat; ex_e "a.yaml" "" [8]%nat; ex_e "-" "" []]
  = Ok [ex_e "/w/a.yaml" "" [8]%nat; ex_e "-" "" []; ex_e "/w/d/x.yaml" "o" [7]%nat; ex_e "/w/d/y.yml" "o" [7]%nat].
Proof.
  split_and!; [| | |by vm_compute].
  - intros d ps p. unfold ex_fs, fs_walk. destruct (seq_eqb (resolve _ d) (lit "/w/d")); [|done].
    intros [= <-] [<-|[<-|[]]]; split_and!; by vm_compute.
  - repeat (apply Forall_cons; split); [right|right|left|]; by vm_compute.
  - repeat (apply Forall_cons; split); [right; right|right; left|left|]; try by vm_compute.
    split_and!; [by vm_compute..|]. eexists. by vm_compute.
Qed.

(** C34.  Expansion terminates (with a result or an error) on every list of
    entries, if walking a directory yields regular files only. *)
Theorem C34_expansion_terminates {Ov Dc Nd} (f : fs) instdir (y : list (entry Ov Dc Nd)) :
  walks_files f instdir -> Forall (dash_is_stdin instdir) y ->
  exists F, forall fuel, (F <= fuel)%nat -> expand_directories fuel f instdir y <> Fuel.
Proof.
  intros Hw Hd.
  destruct (all_expandable_dec f (map (located instdir) y)) as [Hex|Hex].
  - destruct (C33_directories_expanded f instdir y Hw Hd Hex) as [F HF]. exists F. intros fuel Hf. by rewrite HF.
  - destruct (C33_errors_reported f instdir y Hd Hex) as (F & er & HF). exists F. intros fuel Hf. by rewrite HF.
Qed.

(** A missing file: expansion ends, with an error. *)
Example C34_applies :
  let y := [ex_e "d" "o" [7]%nat; ex_e "gone.yaml" "" [8]%nat] in
  walks_files ex_fs (lit "/w") /\ Forall (dash_is_stdin (lit "/w")) y /\
  exists e, expand_directories 10 ex_fs (lit "/w") y = Err e.
Proof.
  cbv zeta. split; [exact (proj1 C33_example)|]. split; [|eexists; by vm_compute].
  repeat (apply Forall_cons; split); [right|right|]; by vm_compute.
Qed.

(** It does not terminate when the walk meets a symbolic link named *.yaml that
    points to a directory: os.Stat sees a directory, filepath.Walk sees a file,
    and the entry is replaced by itself for ever. *)
Definition link_fs : fs := mkFs (fun _ => Some true) (fun _ => Some [lit "/d/l.yaml"]).
Theorem C34_refuted_symlink :
  forall fuel, expand_directories fuel link_fs (lit "/d") [ex_e "/d" "" []] = Fuel.
Proof.
  assert (H : forall fuel, expand_loop fuel link_fs (lit "/d") [ex_e "/d/l.yaml" "" []] 0 = Fuel).
  { induction fuel as [|fuel IH]; [done|]. simpl. apply IH. }
  intros [|fuel]; [done|]. unfold expand_directories. simpl. apply H.
Qed.

Print Assumptions C32_duplicates_merged.
Print Assumptions C32_each_path_once.
Print Assumptions C33_directories_expanded.
Print Assumptions C33_no_directory_left.
Print Assumptions C33_errors_reported.
Print Assumptions C34_expansion_terminates.
Print Assumptions C34_refuted_symlink.

(** Where the entries are looked for (the [located] of C33): standard input and
    absolute paths as they are; a relative path below the directory of the
    instructions file.  Nothing else of the entry changes. *)
Theorem C33_where_files_are {Ov Dc Nd} instdir (e : entry Ov Dc Nd) :
  let e' := located instdir e in
  (e_path e = lit "-" \/ is_abs (e_path e) = true -> e' = e) /\
  (forall es, es <> [] -> Forall name_ok es -> e_path e = join_with [slash] es -> e_path e <> lit "-" ->
     e_path e' = descend (clean instdir) es) /\
  e_name e' = e_name e /\ e_overlays e' = e_overlays e /\ e_documents e' = e_documents e /\
  e_nodes e' = e_nodes e /\ e_output e' = e_output e.
Proof.
  cbv zeta. unfold located. destruct (seq_eqb_spec (e_path e) (lit "-")) as [E|E].
  - split; [done|]. split; [done|]. done.
  - unfold resolve. split; [|split; [|done]].
    + intros [H|H]; [done|]. rewrite H. by destruct e.
    + intros es N F Ee _. cbn [with_path e_path]. rewrite Ee. destruct (elems_plain es N F) as [-> _]. by apply join_outdir.
Qed.
Print Assumptions C33_where_files_are.
Example C33_where_example :
  e_path (located (lit "/conf") (mkEntry nat nat nat [] [] [] [] (lit "in/a.yaml") [])) = lit "/conf/in/a.yaml" /\
  e_path (located (lit "/conf") (mkEntry nat nat nat [] [] [] [] (lit "/in/a.yaml") [])) = lit "/in/a.yaml".
Proof. by vm_compute. Qed.

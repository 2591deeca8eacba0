(** C35-C37: the common prefix and the output locations. *)
From Verif Require Import Prelude GoStrings Paths SpecPaths ProofPaths.

(** The one case in which the tool's prefix is wrong for absolute paths: a
    single input file directly in the root directory. *)
Definition single_root_file (ps : list (list N)) : Prop := exists b, ps = [slash :: b] /\ ~ In slash b.

(** C35.  For clean input paths that share some directory, the prefix is the
    longest directory containing all of them. *)
Theorem C35_longest_common_directory ps :
  ps <> [] -> Forall file_path ps -> share_directory ps -> distinct_files ps -> ~ single_root_file ps ->
  let d := common_prefix slash ps in
  ends_in_slash d /\
  (forall p, In p ps -> exists r, r <> [] /\ p = d ++ r) /\
  (forall d', ends_in_slash d' -> (forall p, In p ps -> starts d' p) -> starts d' d).
Proof.
  intros Hne Hf Hs Hd Hr. destruct ps as [|p [|q ps]]; [done| |].
  - apply Forall_cons in Hf as [Hf _].
    destruct (common_prefix_single p) as (H1 & H2 & H3); [done|done| |].
    + destruct Hs as [d0 Hd0]. destruct (Hd0 p) as [r Hp]; [by left|].
      destruct (in_last_split slash p) as (a & b & Hab & Hb).
      { rewrite Hp, <- app_assoc. apply in_app_iff. right. simpl. auto. }
      exists a, b. split_and!; [|done|done]. intros ->. apply Hr. exists b. by rewrite Hab.
    + split_and!; [done| |].
      * by intros p' [<-|[]].
      * intros d' Hd' Hp'. apply H3; [done|]. apply Hp'. by left.
  - apply common_prefix_many; try done. simpl. lia.
Qed.

Example C35_example :
  common_prefix slash [lit "/w/in/a.yaml"; lit "/w/in/sub/b.yaml"; lit "/w/inner.yaml"] = lit "/w/" /\
  common_prefix slash [lit "/w/in/a.yaml"] = lit "/w/in/" /\
  Forall abs_file [lit "/w/in/a.yaml"; lit "/w/inner.yaml"] /\
  distinct_files [lit "/w/in/a.yaml"; lit "/w/inner.yaml"].
Proof.
  split_and!; [by vm_compute|by vm_compute| |].
  - assert (H : forall e, e <> [] -> e <> dot -> e <> dotdot -> existsb (ceq slash) e = false -> name_ok e).
    { intros e ? ? ? He. split_and!; try done. intros Hin.
      assert (existsb (ceq slash) e = true) by (apply existsb_exists; exists slash; split; [done|by vm_compute]). congruence. }
    apply Forall_cons; split; [|apply Forall_cons; split; [|done]].
    + exists [lit "w"; lit "in"; lit "a.yaml"]. split_and!; [done| |done].
      repeat (apply Forall_cons; split; [by apply H|]). done.
    + exists [lit "w"; lit "inner.yaml"]. split_and!; [done| |done].
      repeat (apply Forall_cons; split; [by apply H|]). done.
  - split.
    + apply NoDup_cons; split; [|apply NoDup_singleton]. intros ?%elem_of_list_singleton. done.
    + intros p q [<-|[<-|[]]] [<-|[<-|[]]] [r Hr]; done.
Qed.

(** C35 fails without a shared directory (relative inputs, as from
    [--path .]): the result need not be a prefix of the inputs, and it can cut
    one of them inside its first element's directory. *)
Theorem C35_refuted_relative :
  exists ps, Forall file_path ps /\ distinct_files ps /\
    common_prefix slash ps = lit "a/" /\ ~ starts (lit "a/") (lit "ab.yaml") /\ In (lit "ab.yaml") ps.
Proof.
  exists [lit "a/ab.yaml"; lit "ab.yaml"]. split_and!.
  - apply Forall_cons; split; [|apply Forall_cons; split; [|done]].
    + split; [by vm_compute|]. intros [r Hr]. apply (f_equal (@last N)) in Hr. by rewrite last_snoc in Hr.
    + split; [by vm_compute|]. intros [r Hr]. apply (f_equal (@last N)) in Hr. by rewrite last_snoc in Hr.
  - split.
    + apply NoDup_cons; split; [|apply NoDup_singleton]. intros ?%elem_of_list_singleton. done.
    + intros p q [<-|[<-|[]]] [<-|[<-|[]]] [r Hr]; done.
  - by vm_compute.
  - by intros [r Hr].
  - by right; left.
Qed.

(** C35 fails for a single file in the root directory: the prefix is "//". *)
Theorem C35_refuted_root : common_prefix slash [lit "/a.yaml"] = lit "//" /\ ~ starts (lit "//") (lit "/a.yaml").
Proof. split; [by vm_compute|]. by intros [r Hr]. Qed.

(** The paths that enter the prefix computation: all but standard input. *)
Definition named (files : list (list N * list N)) : list (list N) :=
  List.filter (fun p => negb (seq_eqb p (lit "-"))) (map fst files).

Definition prefix_ok (ps : list (list N)) : Prop :=
  Forall file_path ps /\ share_directory ps /\ distinct_files ps /\ ~ single_root_file ps.

(** C36.  Entries without an explicit output path: the output path is the
    input path below a directory common to all; so the directory structure is
    kept and different inputs have different outputs. *)
Lemma named_In files i p o : files !! i = Some (p, o) -> p <> lit "-" -> In p (named files).
Proof.
  intros Hi Hp. unfold named. apply filter_In. split.
  - apply in_map_iff. exists (p, o). split; [done|]. apply elem_of_list_In. by eapply elem_of_list_lookup_2.
  - by destruct (seq_eqb_spec p (lit "-")).
Qed.

Lemma set_output_lookup files i p out :
  files !! i = Some (p, out) ->
  set_output_paths files !! i = Some (output_path (common_prefix slash (named files)) p out).
Proof. intros Hi. unfold set_output_paths. rewrite list_lookup_fmap, Hi. done. Qed.

Theorem C36_structure_kept files :
  named files <> [] -> prefix_ok (named files) ->
  exists d, ends_in_slash d /\ forall i p,
    files !! i = Some (p, []) -> p <> lit "-" ->
    exists o, set_output_paths files !! i = Some o /\ o <> [] /\ p = d ++ o.
Proof.
  intros Hne (Hf & Hs & Hd & Hr).
  destruct (C35_longest_common_directory _ Hne Hf Hs Hd Hr) as (H1 & H2 & _).
  exists (common_prefix slash (named files)). split; [done|]. intros i p Hi Hp.
  rewrite (set_output_lookup _ _ _ _ Hi).
  destruct (H2 p (named_In _ _ _ _ Hi Hp)) as (r & Hr0 & Hpr).
  exists r. split_and!; [|done|done]. unfold output_path. f_equal. simpl.
  rewrite Hpr at 1. apply trim_prefix_app.
Qed.

Theorem C36_distinct_outputs files i j p q o o' :
  prefix_ok (named files) ->
  files !! i = Some (p, []) -> files !! j = Some (q, []) -> p <> lit "-" -> q <> lit "-" -> p <> q ->
  set_output_paths files !! i = Some o -> set_output_paths files !! j = Some o' -> o <> o'.
Proof.
  intros Hok Hi Hj Hp Hq Hpq Ho Ho'.
  assert (named files <> []) as Hne.
  { intros Hn. pose proof (named_In _ _ _ _ Hi Hp) as Hin. by rewrite Hn in Hin. }
  destruct (C36_structure_kept files Hne Hok) as (d & _ & H).
  destruct (H i p Hi Hp) as (r & Hr & _ & Hpr). destruct (H j q Hj Hq) as (s & Hs & _ & Hqs).
  congruence.
Qed.

(** For absolute inputs: they are also written to different files, whatever the
    output directory. *)
Lemma abs_prefix_ok ps : Forall abs_file ps -> distinct_files ps -> ~ single_root_file ps -> prefix_ok ps.
Proof.
  intros H ? ?. split_and!; try done; [|by apply abs_share].
  eapply Forall_impl; [exact H|]. apply abs_file_path.
Qed.

Lemma abs_output files i p o :
  Forall abs_file (named files) -> distinct_files (named files) -> ~ single_root_file (named files) ->
  files !! i = Some (p, []) -> p <> lit "-" -> set_output_paths files !! i = Some o ->
  exists es, es <> [] /\ Forall name_ok es /\ o = join_with [slash] es.
Proof.
  intros Ha Hd Hr Hi Hp Ho. pose proof (named_In _ _ _ _ Hi Hp) as Hin.
  assert (named files <> []) as Hne by (intros Hn; by rewrite Hn in Hin).
  destruct (C36_structure_kept files Hne (abs_prefix_ok _ Ha Hd Hr)) as (d & [a Hda] & H).
  destruct (H i p Hi Hp) as (r & Hr0 & Hrn & Hpr). assert (o = r) as -> by congruence.
  rewrite Forall_forall in Ha. destruct (Ha p) as (es & Hes & Hn & Hpe); [by apply elem_of_list_In|].
  subst d. rewrite <- app_assoc in Hpr. simpl in Hpr. rewrite Hpe in Hpr.
  destruct (abs_below es a r Hes Hn Hpr) as (es1 & es2 & -> & H2 & ->).
  exists es2. split_and!; [done| |done]. by apply Forall_app in Hn as [_ ?].
Qed.

Theorem C36_distinct_files files outdir i j p q o o' :
  Forall abs_file (named files) -> distinct_files (named files) -> ~ single_root_file (named files) ->
  files !! i = Some (p, []) -> files !! j = Some (q, []) -> p <> lit "-" -> q <> lit "-" -> p <> q ->
  set_output_paths files !! i = Some o -> set_output_paths files !! j = Some o' ->
  output_file outdir o <> output_file outdir o'.
Proof.
  intros Ha Hd Hr Hi Hj Hp Hq Hpq Ho Ho'.
  assert (o <> o') as Hne by (eapply (C36_distinct_outputs files i j p q); eauto using abs_prefix_ok).
  destruct (abs_output files i p o) as (es & He & Hn & ->); try done.
  destruct (abs_output files j q o') as (es' & He' & Hn' & ->); try done.
  unfold output_file. rewrite (proj1 (elems_plain es He Hn)), (proj1 (elems_plain es' He' Hn')).
  rewrite !join_outdir by done. intros Heq. apply descend_inj in Heq; [|done..]. by subst.
Qed.

Example C36_example :
  set_output_paths [(lit "/w/in/a.yaml", []); (lit "/w/in/sub/a.yaml", []); (lit "-", lit "stdin.yaml"); (lit "/w/b.yaml", lit "other")]
  = [lit "in/a.yaml"; lit "in/sub/a.yaml"; lit "stdin.yaml"; lit "other/b.yaml"].
Proof. by vm_compute. Qed.

(** C36 fails for relative inputs without a shared directory, as in
    [yot --path .] on the files a/ab.yaml and ab.yaml: both are written to
    ab.yaml. *)
Theorem C36_refuted_relative :
  exists p q, p <> q /\ file_path p /\ file_path q /\
    set_output_paths [(p, []); (q, [])] = [lit "ab.yaml"; lit "ab.yaml"].
Proof.
  exists (lit "a/ab.yaml"), (lit "ab.yaml"). split_and!; [done| | |by vm_compute].
  - split; [by vm_compute|]. intros [r Hr]. apply (f_equal (@last N)) in Hr. by rewrite last_snoc in Hr.
  - split; [by vm_compute|]. intros [r Hr]. apply (f_equal (@last N)) in Hr. by rewrite last_snoc in Hr.
Qed.

(** C37.  An entry without an explicit output path is written inside the output
    directory. *)
Theorem C37_inside_output_directory files outdir i p o :
  Forall abs_file (named files) -> distinct_files (named files) -> ~ single_root_file (named files) ->
  files !! i = Some (p, []) -> p <> lit "-" -> set_output_paths files !! i = Some o ->
  inside outdir (output_file outdir o).
Proof.
  intros Ha Hd Hr Hi Hp Ho. destruct (abs_output files i p o) as (es & He & Hn & ->); try done.
  unfold output_file. rewrite (proj1 (elems_plain es He Hn)), join_outdir by done. by exists es.
Qed.

Example C37_example :
  output_file (lit "./out//x") (lit "in/a.yaml") = lit "out/x/in/a.yaml" /\
  inside (lit "./out//x") (lit "out/x/in/a.yaml").
Proof.
  split; [by vm_compute|]. exists [lit "in"; lit "a.yaml"].
  assert (H : forall e, e <> [] -> e <> dot -> e <> dotdot -> existsb (ceq slash) e = false -> name_ok e).
  { intros e ? ? ? He. split_and!; try done. intros Hin.
    assert (existsb (ceq slash) e = true) by (apply existsb_exists; exists slash; split; [done|by vm_compute]). congruence. }
  split_and!; [done| |by vm_compute]. repeat (apply Forall_cons; split; [by apply H|]). done.
Qed.

(** C37 fails for a single input in the root directory, and for two spellings of
    the same file: the "output" is the absolute input path, so the source
    itself is overwritten. *)
Theorem C37_refuted_root outdir :
  map (output_file outdir) (set_output_paths [(lit "/a.yaml", [])]) = [lit "/a.yaml"].
Proof. by vm_compute. Qed.
Theorem C37_refuted_unclean outdir :
  map (output_file outdir) (set_output_paths [(lit "/x/a.yaml", []); (lit "/x//a.yaml", [])])
  = [lit "/x/a.yaml"; lit "/x//a.yaml"].
Proof. by vm_compute. Qed.

Print Assumptions C35_longest_common_directory.
Print Assumptions C36_structure_kept.
Print Assumptions C36_distinct_outputs.
Print Assumptions C36_distinct_files.
Print Assumptions C37_inside_output_directory.

(** ** C68  Explicit output paths *)
Lemma split_file_app a b : ~ In slash b -> split_file (a ++ slash :: b) = b.
Proof.
  intros H. unfold split_file, split_dir. rewrite up_to_last_app by done.
  rewrite (cons_middle slash a b), app_assoc, drop_app. done.
Qed.
Lemma split_file_plain b : ~ In slash b -> split_file b = b.
Proof. intros H. unfold split_file, split_dir. by rewrite (proj2 (up_to_last_None slash b) H). Qed.
Lemma split_file_cases o : (~ In slash o /\ split_file o = o) \/ exists a b, o = a ++ slash :: b /\ ~ In slash b /\ split_file o = b.
Proof.
  destruct (up_to_last slash o) as [w|] eqn:E.
  - destruct (up_to_last_Some _ _ _ E) as (a & b & _ & -> & N). right. exists a, b. split; [done|]. split; [done|]. by apply split_file_app.
  - apply up_to_last_None in E. left. split; [done|]. by apply split_file_plain.
Qed.
Lemma path_ext_nonempty o : path_ext o <> [] <-> looks_like_file o.
Proof.
  unfold path_ext. assert (I : In 46%N (split_file o) <-> looks_like_file o).
  { destruct (split_file_cases o) as [[N ->]|(a & b & -> & N & ->)].
    - split.
      + intros H. apply in_last_split in H as (x & y & -> & _). exists x, y. split; [done|]. intros H. apply N, in_or_app. right. by right.
      + intros (x & y & -> & _). apply in_or_app. right. by left.
    - split.
      + intros H. apply in_last_split in H as (x & y & -> & _). exists (a ++ slash :: x), y. split; [by rewrite <- app_assoc|].
        intros H. apply N, in_or_app. right. by right.
      + intros (x & y & E & Ny). assert (In 46%N b \/ In slash y) as [H|H]; [|done|done].
        clear -E. revert x E. induction a as [|c a IH]; intros [|d x] E; cbn [app] in E.
        * injection E as E _. discriminate.
        * injection E as -> ->. left. apply in_or_app. right. by left.
        * injection E as _ <-. right. apply in_or_app. right. by left.
        * injection E as _ E. by eapply IH. }
  rewrite <- I. destruct (up_to_last 46%N (split_file o)) as [w|] eqn:E.
  - destruct (up_to_last_Some _ _ _ E) as (a & b & -> & EQ & N). rewrite EQ. split; [intros _; apply in_or_app; right; by left|].
    intros _. rewrite app_length. cbn [length]. replace (length a + 1 - 1) with (length a) by lia. by rewrite drop_app.
  - apply up_to_last_None in E. split; [done|]. intros H. by destruct E.
Qed.
Lemma path_base_last b p : last_element b p -> path_base p = b.
Proof.
  intros [(N1 & N2 & N3 & N4) P]. unfold path_base.
  assert (T : forall q, q ++ b <> [] /\ rev (trim_left (ceq slash) (rev (q ++ b))) = q ++ b).
  { intros q. destruct (exists_last N1) as (b' & c & ->). split; [by destruct q|].
    rewrite app_assoc, rev_app_distr. cbn [rev app]. cbn [trim_left]. destruct (ceq_spec slash c) as [<-|].
    - destruct N4. apply in_or_app. right. by left.
    - cbn [rev]. by rewrite rev_involutive. }
  assert (B : forall q r, q ++ b = r -> split_file r = b -> match r with [] => dot | _ => match split_file (rev (trim_left (ceq slash) (rev r))) with [] => [slash] | b0 => b0 end end = b).
  { intros q r E S. destruct (T q) as [T1 T2]. rewrite E in *. rewrite T2, S. destruct r; [done|]. by destruct b. }
  destruct P as [->|[d ->]].
  - apply (B []); [done|]. by apply split_file_plain.
  - apply (B (d ++ [slash])); [by rewrite <- app_assoc|]. by apply split_file_app.
Qed.
Lemma set_output_explicit files i p o : files !! i = Some (p, o) -> o <> [] ->
  set_output_paths files !! i = Some (if seq_eqb (path_ext o) [] then path_join [o; path_base p] else o).
Proof.
  intros L N. unfold set_output_paths. rewrite list_lookup_fmap, L. cbn [fmap option_fmap option_map fst snd]. unfold output_path.
  destruct (seq_eqb_spec o []) as [E|_]; [done|]. done.
Qed.

(** An explicit output path that looks like a file is used as given, whatever
    the other files are. *)
Theorem C68_output_file_as_given files i p o :
  files !! i = Some (p, o) -> looks_like_file o -> set_output_paths files !! i = Some o.
Proof.
  intros L F. assert (N : o <> []) by (destruct F as (a & b & -> & _); by destruct a).
  rewrite (set_output_explicit _ _ _ _ L N). apply path_ext_nonempty in F. by destruct (seq_eqb_spec (path_ext o) []).
Qed.
Print Assumptions C68_output_file_as_given.

(** Otherwise it is a directory: the file goes into it under its own name. *)
Theorem C68_output_directory files i p o b :
  files !! i = Some (p, o) -> o <> [] -> ~ looks_like_file o -> last_element b p ->
  set_output_paths files !! i = Some (descend (clean o) [b]).
Proof.
  intros L N F B. rewrite (set_output_explicit _ _ _ _ L N). rewrite <- path_ext_nonempty in F.
  destruct (seq_eqb_spec (path_ext o) []) as [_|E]; [|done]. rewrite (path_base_last _ _ B). f_equal.
  apply (join_outdir o [b]); [done|]. apply Forall_singleton. apply B.
Qed.
Print Assumptions C68_output_directory.

(** An absolute output is written where it says, any other below the output
    directory. *)
Theorem C68_where_it_is_written outdir es :
  es <> [] -> Forall name_ok es ->
  output_file outdir (abs_path es) = abs_path es /\
  output_file outdir (join_with [slash] es) = descend (clean outdir) es.
Proof.
  intros N F. split.
  - unfold output_file, abs_path. destruct es as [|e es]; [done|]. reflexivity.
  - unfold output_file. destruct (elems_plain es N F) as [-> _]. by apply join_outdir.
Qed.
Print Assumptions C68_where_it_is_written.

(** The outputs of one file with a directory, one with a file name, one without. *)
Example C68_example :
  set_output_paths [(lit "/in/a.yaml", lit "out/dir"); (lit "/in/b.yaml", lit "x.y/c.yml"); (lit "/in/c.yaml", [])] =
    [lit "out/dir/a.yaml"; lit "x.y/c.yml"; lit "c.yaml"] /\
  last_element (lit "a.yaml") (lit "/in/a.yaml") /\ looks_like_file (lit "x.y/c.yml") /\ ~ looks_like_file (lit "x.y/dir").
Proof.
  split; [reflexivity|]. split; [|split].
  - split; [|right; by exists (lit "/in")]. unfold name_ok. cbn. split; [done|]. split; [done|]. split; [done|]. intuition discriminate.
  - exists (lit "x.y/c"), (lit "yml"). split; [reflexivity|]. cbn. intuition discriminate.
  - rewrite <- path_ext_nonempty. vm_compute. intros H. by apply H.
Qed.

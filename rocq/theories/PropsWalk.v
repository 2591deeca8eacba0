(** C55: the files a directory contributes; and C33/C34 on file systems. *)
From Verif Require Import Prelude GoStrings Paths SpecPaths ProofPaths Files SpecFiles ProofFiles Walk SpecWalk ProofWalk PropsFiles.

(** C55.  A directory contributes exactly the files below it whose names end in
    .yaml or .yml, at any depth (symbolic links are not followed), in dictionary
    order, provided everything below it can be examined. *)
Theorem C55_exact_files o d n : sane o -> os_lstat o d = Some KDir -> depth_below o d n ->
  (forall es, ~ broken_at o d es) ->
  exists ways, (forall fuel, (n < fuel)%nat -> get_file_names fuel o d = Ok (map (at_path d) ways)) /\
    increasing ways /\ (forall es, In es ways <-> yaml_at o d es).
Proof.
  intros Hs Hd Hn Hb.
  destruct (walk_ok o n Hs d KDir Hd Hn Hb) as (k & ess & Hk & Hw & Hinc & Hin).
  rewrite Hd in Hk. injection Hk as <-. exists ess. split_and!; [|done|].
  - intros fuel Hf. destruct fuel as [|fuel]; [lia|].
    destruct (walk_ok o fuel Hs d KDir Hd (depth_more _ _ _ fuel Hn ltac:(lia)) Hb) as (k & ess' & Hk & Hw' & Hinc' & Hin').
    rewrite Hd in Hk. injection Hk as <-. unfold get_file_names. rewrite Hd, Hw'. do 2 f_equal.
    apply increasing_unique; [done|done|]. intros es. by rewrite Hin, Hin'.
  - intros es. rewrite Hin. by apply collected_yaml.
Qed.

(** No file is contributed twice. *)
Theorem C55_no_file_twice o d n fuel l : sane o -> os_lstat o d = Some KDir -> depth_below o d n ->
  (forall es, ~ broken_at o d es) -> (n < fuel)%nat ->
  get_file_names fuel o d = Ok l -> NoDup l.
Proof.
  intros Hs Hd Hn Hb Hf Hl. destruct (C55_exact_files o d n Hs Hd Hn Hb) as (ways & Hw & Hinc & Hin).
  rewrite (Hw fuel Hf) in Hl. injection Hl as <-.
  assert (Hy : forall es, In es ways -> yaml_at o d es) by (intros; by apply Hin). clear Hin Hw.
  induction ways as [|x ways IH]; [constructor|]. destruct Hinc as [Hx Hinc]. simpl. constructor.
  - intros (y & Hxy & Hyin)%elem_of_list_In%in_map_iff.
    destruct (Hy x (or_introl eq_refl)) as (Hlx & (dx & nx & Hex & _) & _).
    destruct (Hy y (or_intror Hyin)) as (Hly & (dy & ny & Hey & _) & _).
    assert (x = y) as ->; [|by apply (way_lt_irrefl y), Hx].
    apply (descend_inj (clean d)); [by destruct dx; subst|by destruct dy; subst|by eapply listed_names|by eapply listed_names|].
    unfold at_path in Hxy. destruct x, y; [done|by destruct dx|by destruct dy|done].
  - apply IH; [done|]. intros; apply Hy; by right.
Qed.

(** Whatever cannot be examined below the directory makes the walk fail: files
    are never skipped silently. *)
Theorem C55_errors_reported o d n es : sane o -> os_lstat o d = Some KDir -> depth_below o d n -> broken_at o d es ->
  forall fuel, (n < fuel)%nat -> get_file_names fuel o d = Err EFs.
Proof.
  intros Hs Hd Hn Hb [|fuel] Hf; [lia|]. unfold get_file_names. rewrite Hd.
  apply (walk_err o fuel Hs d KDir es); [done|apply (depth_more _ _ n); [done|lia]|done].
Qed.

(** The directory of the instructions file is absolute (instructions.go:80-85);
    without an instructions file it is the empty string. *)
Definition base_dir (d : list N) : Prop := d = [] \/ is_abs d = true.
(** A link with the name of a YAML file leads to a file. *)
Definition yaml_links_ok (o : os) : Prop :=
  forall p, os_lstat o p = Some KLink -> yaml_ext p = true -> os_stat o p = Some false.

(** On such file systems the walks meet the hypotheses of C33 and C34 ... *)
Theorem C55_walks_files o depth instdir : sane o -> (forall d, depth_below o d depth) -> yaml_links_ok o -> base_dir instdir ->
  walks_files (fs_of (S depth) o) instdir.
Proof.
  intros Hs Hd Hlk Hbase q ps p Hps Hin. set (d := resolve instdir q) in *.
  assert (Hw : exists es, In es [es] /\ p = at_path d es /\ collected o d es).
  { unfold fs_of, fs_walk, get_file_names in Hps.
    destruct (os_lstat o d) as [k|] eqn:Hk; [|done].
    destruct (walk (S depth) o d k) as [l| | |] eqn:Hwk; try done. injection Hps as ->.
    destruct (walk_ok o depth Hs d k Hk (Hd d)) as (k' & ess & Hk' & Hw & _ & Hin').
    { intros es Hb. rewrite (walk_err o depth Hs d k es Hk (Hd d) Hb) in Hwk. done. }
    assert (k' = k) as -> by congruence. rewrite Hwk in Hw. injection Hw as ->.
    apply in_map_iff in Hin as (es & <- & Hes). exists es. split; [by left|]. split; [done|]. by apply Hin'. }
  destruct Hw as (es & _ & -> & Hl & He & Hf).
  split_and!.
  - intros Heq. rewrite Heq in He. done.
  - assert (Hda : instdir = [] /\ (clean d = d \/ d = []) \/ is_abs d = true).
    { unfold d, resolve. destruct (is_abs q) eqn:Hq; [by right|]. destruct Hbase as [->|Hb].
      - unfold path_join. destruct q as [|c q]; [left; split; [done|by right]|]. left. split; [done|]. left. simpl. apply clean_idem.
      - right. unfold path_join. cbn [List.filter]. destruct (seq_eqb_spec instdir []) as [->|]; [done|]. cbn [negb].
        assert (forall x, is_abs x = true -> is_abs (clean x) = true) as Hc.
        { intros x Hx. rewrite clean_render, Hx. done. }
        destruct (negb (seq_eqb q [])); cbn [join_with]; apply Hc; [|done]. by rewrite is_abs_app. }
    destruct Hda as [[-> Hc]|Ha].
    + unfold resolve. destruct (is_abs (at_path d es)); [done|].
      assert (at_path d es <> []) as Hne by (intros Heq; rewrite Heq in He; done).
      unfold path_join. cbn [List.filter]. destruct (seq_eqb_spec (at_path d es) []); [done|].
      cbn [seq_eqb negb join_with].
      destruct es as [|nm es]; [by destruct Hc as [?|Hc]|].
      pose proof (listed_names _ _ _ Hs Hl) as Hok. unfold at_path in *.
      destruct (decide (d = [])) as [->|Hdn].
      * change (descend (clean []) (nm :: es)) with (join_with [slash] (nm :: es)). by apply clean_plain.
      * rewrite <- clean_descend by done. apply clean_idem.
    + unfold resolve. enough (is_abs (at_path d es) = true) as -> by done.
      destruct es as [|nm es]; [done|]. pose proof (listed_names _ _ _ Hs Hl) as Hok. unfold at_path.
      assert (d <> []) as Hdn by (by destruct d).
      rewrite <- clean_descend by done. rewrite clean_render. rewrite is_abs_app by done. by rewrite Ha.
  - cbn [fs_of fs_stat]. destruct Hf as [Hf|Hf]; [by apply Hs|by apply Hlk].
Qed.

(** ... so expansion terminates there (C34), and its result is the one of C33. *)
Theorem C55_expansion_terminates {Ov Dc Nd} o depth instdir (y : list (entry Ov Dc Nd)) :
  sane o -> (forall d, depth_below o d depth) -> yaml_links_ok o -> base_dir instdir -> Forall (dash_is_stdin instdir) y ->
  exists F, forall fuel, (F <= fuel)%nat -> expand_directories fuel (fs_of (S depth) o) instdir y <> Fuel.
Proof. intros. apply C34_expansion_terminates; [by apply C55_walks_files|done]. Qed.

(** A path that is a symbolic link to a directory contributes nothing, and no
    error is reported: os.Stat says directory, filepath.Walk does not enter it. *)
Theorem C55_linked_directory_ignored {Ov Dc Nd} o depth instdir (e : entry Ov Dc Nd) :
  e_path e <> lit "-" -> path_ext (e_output e) = [] ->
  let p := resolve instdir (e_path e) in
  os_lstat o p = Some KLink -> os_stat o p = Some true -> yaml_ext p = false ->
  expand_directories 1 (fs_of depth o) instdir [e] = Ok [].
Proof.
  intros Hd Hout p Hl Hs He. unfold expand_directories. cbn [expand_loop lookup list_lookup].
  destruct (seq_eqb_spec (e_path e) (lit "-")); [done|]. cbn [with_path e_path e_output]. fold p.
  cbn [fs_of fs_stat fs_walk]. rewrite Hs, Hout. cbn [seq_eqb negb].
  unfold get_file_names. rewrite Hl. destruct depth; cbn [walk]; rewrite He; done.
Qed.

(** If its name ends in .yaml or .yml, the tool never stops (every such link, not
    just the one of C34_refuted_symlink). *)
Theorem C34_every_yaml_link_loops {Ov Dc Nd} o depth instdir (e : entry Ov Dc Nd) :
  e_path e <> lit "-" -> path_ext (e_output e) = [] -> resolve instdir (e_path e) = e_path e ->
  os_lstat o (e_path e) = Some KLink -> os_stat o (e_path e) = Some true -> yaml_ext (e_path e) = true ->
  forall fuel, expand_directories fuel (fs_of depth o) instdir [e] = Fuel.
Proof.
  intros Hd Hout Hr Hl Hs He fuel. unfold expand_directories.
  revert e Hd Hout Hr Hl Hs He. induction fuel as [|fuel IH]; intros e Hd Hout Hr Hl Hs He; [done|].
  cbn [expand_loop lookup list_lookup].
  destruct (seq_eqb_spec (e_path e) (lit "-")); [done|]. cbn [with_path e_path e_output].
  rewrite Hr. cbn [fs_of fs_stat fs_walk]. rewrite Hs, Hout. cbn [seq_eqb negb].
  unfold get_file_names. rewrite Hl.
  assert (walk depth o (e_path e) KLink = Ok [e_path e]) as -> by (destruct depth; simpl; by rewrite He).
  simpl. by apply IH.
Qed.

(** ** A file system: /w/d with two YAML files, a note and a subdirectory. *)
Definition ex_os : os :=
  let dirs := [(lit "/w/d", [lit "b.yml"; lit "sub"; lit "note.txt"; lit "a.yaml"]); (lit "/w/d/sub", [lit "z.yaml"; lit "l.yaml"])] in
  let files := map lit ["/w/d/a.yaml"; "/w/d/b.yml"; "/w/d/note.txt"; "/w/d/sub/z.yaml"]%string in
  let dir p := List.find (fun x => seq_eqb (fst x) p) dirs in
  mkOs (fun p => match dir p with Some _ => Some KDir | None =>
                   if existsb (seq_eqb p) files then Some KFile
                   else if seq_eqb p (lit "/w/d/sub/l.yaml") then Some KLink else None end)
       (fun p => match dir p with Some _ => Some true | None =>
                   if existsb (seq_eqb p) files then Some false
                   else if seq_eqb p (lit "/w/d/sub/l.yaml") then Some false else None end)
       (fun p => match dir p with Some x => Some (snd x) | None => None end).

Lemma ex_os_list p ns : os_list ex_os p = Some ns ->
  p = lit "/w/d" /\ ns = [lit "b.yml"; lit "sub"; lit "note.txt"; lit "a.yaml"] \/ p = lit "/w/d/sub" /\ ns = [lit "z.yaml"; lit "l.yaml"].
Proof.
  cbn [ex_os os_list List.find fst].
  destruct (seq_eqb_spec (lit "/w/d") p) as [<-|]; [intros [= <-]; by left|].
  destruct (seq_eqb_spec (lit "/w/d/sub") p) as [<-|]; [intros [= <-]; by right|]. done.
Qed.
Lemma name_ok_lit n : seq_eqb n [] || seq_eqb n dot || seq_eqb n dotdot || existsb (ceq slash) n = false -> name_ok n.
Proof.
  intros [[[H1 H2]%orb_false_iff H3]%orb_false_iff H4]%orb_false_iff.
  split_and!; [by intros ->|by intros ->|by intros ->|].
  intros Hin. assert (existsb (ceq slash) n = true); [|congruence]. apply existsb_exists. eauto using ceq_spec, N.eqb_refl.
Qed.
Lemma ex_os_sane : sane ex_os.
Proof.
  split_and!.
  - intros p ns [[_ ->]|[_ ->]]%ex_os_list; split.
    1,3: repeat (apply Forall_cons; split; [by apply name_ok_lit|]); by apply Forall_nil.
    all: apply (bool_decide_unpack _); by vm_compute.
  - intros p. cbn [ex_os os_lstat os_stat]. destruct (List.find _ _); [done|]. destruct (existsb _ _); [done|]. by destruct (seq_eqb _ _).
  - intros p. cbn [ex_os os_lstat os_stat]. destruct (List.find _ _); [done|]. destruct (existsb _ _); [done|]. by destruct (seq_eqb _ _).
Qed.
Lemma ex_os_depth d : depth_below ex_os d 2.
Proof.
  intros es Hes. destruct es as [|a [|b [|c es]]]; simpl; try lia. exfalso.
  apply listed_cons in Hes as (_ & (ns & Hl & Ha) & Hes); [|apply ex_os_sane].
  apply listed_cons in Hes as (_ & (ns2 & Hl2 & Hb) & Hes); [|apply ex_os_sane].
  apply listed_cons in Hes as (_ & (ns3 & Hl3 & Hc) & Hes); [|apply ex_os_sane].
  apply ex_os_list in Hl as [[-> ->]|[-> ->]]; simpl in Ha; repeat destruct Ha as [<-|Ha]; try done.
  all: vm_compute in Hl2; try discriminate Hl2.
Qed.
Lemma ex_os_whole es : ~ broken_at ex_os (lit "/w/d") es.
Proof.
  intros [Hl Hb]. pose proof ex_os_sane as Hs.
  destruct es as [|a es]; [destruct Hb as [Hb|[_ Hb]]; vm_compute in Hb; discriminate Hb|].
  pose proof Hl as Hl0. apply listed_cons in Hl as (_ & (ns & Hls & Ha) & Hl); [|done].
  vm_compute in Hls. injection Hls as <-.
  destruct es as [|b es].
  - simpl in Ha; repeat destruct Ha as [<-|Ha]; try done; destruct Hb as [Hb|[Hb0 Hb]]; vm_compute in Hb; try discriminate Hb; vm_compute in Hb0; discriminate Hb0.
  - apply listed_cons in Hl as (_ & (ns & Hls & Hb') & Hl); [|done].
    destruct es as [|c es].
    + simpl in Ha; repeat destruct Ha as [<-|Ha]; try done; vm_compute in Hls; try discriminate Hls.
      injection Hls as <-. simpl in Hb'; repeat destruct Hb' as [<-|Hb']; try done.
      all: destruct Hb as [Hb|[Hb0 Hb]]; vm_compute in Hb; try discriminate Hb; vm_compute in Hb0; discriminate Hb0.
    + apply ex_os_depth in Hl0. simpl in Hl0. lia.
Qed.
(** A link /w/l.yaml to a directory. *)
Example C34_every_yaml_link_loops_applies :
  let o := mkOs (fun p => if seq_eqb p (lit "/w/l.yaml") then Some KLink else None) (fun _ => Some true) (fun _ => None) in
  let e : entry nat nat nat := mkEntry _ _ _ [] [] [] [] (lit "/w/l.yaml") [] in
  e_path e <> lit "-" /\ path_ext (e_output e) = [] /\ resolve (lit "/w") (e_path e) = e_path e /\
  os_lstat o (e_path e) = Some KLink /\ os_stat o (e_path e) = Some true /\ yaml_ext (e_path e) = true.
Proof. cbv zeta. split_and!; [discriminate|by vm_compute..]. Qed.

Example C55_example :
  sane ex_os /\ os_lstat ex_os (lit "/w/d") = Some KDir /\ depth_below ex_os (lit "/w/d") 2 /\
  (forall es, ~ broken_at ex_os (lit "/w/d") es) /\ yaml_links_ok ex_os /\
  get_file_names 3 ex_os (lit "/w/d") = Ok (map lit ["/w/d/a.yaml"; "/w/d/b.yml"; "/w/d/sub/l.yaml"; "/w/d/sub/z.yaml"]%string).
Proof.
  split_and!; [apply ex_os_sane|done|apply ex_os_depth|apply ex_os_whole| |by vm_compute].
  intros p. cbn [ex_os os_lstat os_stat]. destruct (List.find _ _); [done|]. destruct (existsb _ _); [done|]. by destruct (seq_eqb _ _).
Qed.

(** /w/l is a link to a directory. *)
Definition link_os : os := mkOs (fun _ => Some KLink) (fun _ => Some true) (fun _ => None).
Example C55_linked_example :
  expand_directories 1 (fs_of 5 link_os) (lit "/w") [ex_e "l" "" [1]%nat] = Ok [] /\
  forall fuel, expand_directories fuel (fs_of 5 link_os) (lit "/w") [ex_e "/w/l.yaml" "" [1]%nat] = Fuel.
Proof. split; [by vm_compute|]. by apply C34_every_yaml_link_loops. Qed.

Print Assumptions C55_exact_files.
Print Assumptions C55_no_file_twice.
Print Assumptions C55_errors_reported.
Print Assumptions C55_walks_files.
Print Assumptions C55_expansion_terminates.
Print Assumptions C55_linked_directory_ignored.
Print Assumptions C34_every_yaml_link_loops.

(** C93: what no overlay selects is written as it was read. *)
From Verif Require Import Prelude GoStrings Format Yaml Heap ActionNames Overlay SpecMerge SpecHeap SpecReach SpecSame Queue Paths Files SpecFiles Slices Prepare SpecPrepare
  Render SpecRender SpecOutcome Pipeline Execute SpecExecute PropsDocs Decode SpecDecode Flags Template Whole SpecWhole PropsWhole SpecQuery SpecInject SpecMeaning PropsMeaning SpecRead PropsRead SpecTwoRuns PropsTwoRuns
  SpecFormat Builder SpecBuilder MergeTree Combine SpecElsewhere ProofMerge ProofMergeAbs ProofFormat ProofInject PropsInject ProofSeveral ProofSteps ProofCommute PropsCommute.

Section theorems.
Context (sed : sed_engine) (dflt : list N) (enc : nat -> tree -> option (list N)).
Local Notation succeeds := (succeeds sed dflt enc).
Local Notation asked := (asked sed).
Local Notation has_document := (has_document sed dflt).

Lemma remaining_in ps : forall earlier p, In p (remaining earlier ps) -> In p ps.
Proof.
  induction ps as [|q ps IH]; intros earlier p; cbn [remaining]; [done|]. destruct (existsb _ _); [intros H; right; by eapply IH|]. intros [<-|H]; [by left|right; by eapply IH].
Qed.
Lemma act_updates a v ps t t' : a <> ADelete -> t_act sed a v ps t = Ok t' -> exists ps' f, (forall p, In p ps' -> In p ps) /\ update_each ps' f t = Ok t'.
Proof. intros D. unfold t_act. destruct a; try done; intros E; eexists _, _; (split; [|exact E]); auto. intros p. apply remaining_in. Qed.
Lemma apply_cases o t t' : t_apply sed dflt o t = Ok t' ->
  (tqualifies (to_docqueries o) t = true -> match found (to_queries o) t with [] => injects dflt o = false | _ => to_action o <> ADelete end) ->
  t' = t \/ tqualifies (to_docqueries o) t = true /\ found (to_queries o) t <> [] /\ exists ps' f, (forall p, In p ps' -> In p (found (to_queries o) t)) /\ update_each ps' f t = Ok t'.
Proof.
  unfold t_apply. destruct (tqualifies _ _); [|intros [= <-]; by left]. intros E H. specialize (H eq_refl). destruct (found (to_queries o) t) as [|p ps] eqn:F.
  - rewrite H in E. injection E as <-. by left.
  - right. split; [done|]. split; [done|]. by apply act_updates in E.
Qed.

Lemma each_outside q ots : forall t u, leaves_alone sed dflt (covers q) ots t -> t_apply_each sed dflt ots t = Ok u ->
  seen_alone <$> node_at q u = seen_alone <$> node_at q t.
Proof.
  induction ots as [|o ots IH]; intros t u L E; cbn [t_apply_each leaves_alone] in *; [by injection E as <-|]. destruct L as [L1 L2].
  apply rbind_ok in E as (t' & E1 & E). rewrite (IH t' u (L2 t' E1) E).
  destruct (apply_cases o t t' E1) as [->|(Q & NE & ps' & f & I & U)]; [|done|].
  { intros Q. specialize (L1 Q). destruct (found _ _); tauto. }
  specialize (L1 Q). assert (X : outline <$> node_at q t' = outline <$> node_at q t); [|exact X].
  apply (update_each_apart f ps'); [done|]. intros p P. apply I in P. destruct (found _ _); [done|]. by apply L1.
Qed.

Lemma each_away q ots : forall t u, leaves_alone sed dflt (related q) ots t -> t_apply_each sed dflt ots t = Ok u -> node_at q u = node_at q t.
Proof.
  induction ots as [|o ots IH]; intros t u L E; cbn [t_apply_each leaves_alone] in *; [by injection E as <-|]. destruct L as [L1 L2].
  apply rbind_ok in E as (t' & E1 & E). rewrite (IH t' u (L2 t' E1) E).
  destruct (apply_cases o t t' E1) as [->|(Q & NE & ps' & f & I & U)]; [|done|].
  { intros Q. specialize (L1 Q). destruct (found _ _); tauto. }
  specialize (L1 Q). apply (update_each_other f ps'); [done|]. intros p P. apply I in P. destruct (found _ _); [done|].
  destruct L1 as [_ L1]. specialize (L1 p P). unfold related in L1. tauto.
Qed.

Lemma on_entry_paired k f : (forall v v', well_paired v -> f v = Ok (Some v') -> well_paired v') -> forall ts x, is_paired ts -> Forall well_paired ts ->
  on_entry k f ts = Ok x -> is_paired x /\ Forall well_paired x.
Proof.
  intros HF. induction ts as [|a|a v ts IH] using list_pair_ind; intros x P W; cbn [on_entry]; [intros E; injection E as <-; split; assumption|intros E; injection E as <-; split; assumption|].
  apply is_paired_tail in P. apply Forall_cons in W as [Wa W]. apply Forall_cons in W as [Wv W]. destruct (decide _).
  - intros E. apply rbind_ok in E as ([v'|] & E & [= <-]); [|split; assumption]. split; [by apply is_paired_cons|]. apply Forall_cons. split; [done|]. apply Forall_cons. split; [by eapply HF|done].
  - intros E. apply rbind_ok in E as (r & E & [= <-]). destruct (IH r P W E) as [P' W']. split; [by apply is_paired_cons|]. by repeat (apply Forall_cons; split).
Qed.
Lemma on_path_paired n f : (forall v v', well_paired v -> f v = Ok (Some v') -> well_paired v') -> forall t t', well_paired t -> on_path n f t = Ok (Some t') -> well_paired t'.
Proof.
  intros HF. induction n as [|k n IH]; intros t t' W; cbn [on_path]; [by apply HF|]. destruct t as [i [ts|]]; [|by intros [= <-]].
  destruct (kind_eqb_spec (i_kind i) KMapping) as [K|K]; [|by intros [= <-]]. intros E. apply rbind_ok in E as (x & E & [= <-]).
  apply well_paired_inv in W as [P W]. destruct (on_entry_paired k _ IH ts x (P K) W E) as [P' W']. by apply well_paired_node.
Qed.
Lemma replace_node_paired o v : well_paired v -> well_paired (replace_node sed o v).
Proof. destruct v as [i c]. unfold replace_node. cbn [t_info t_content]. by apply set_info_well_paired. Qed.
Lemma combine_node_paired o v t : well_paired o -> combine_node sed o v = (t, None) -> well_paired t.
Proof.
  destruct o as [i c]. unfold combine_node. cbn [t_info t_content]. intros W.
  assert (S : forall x, well_paired (T (set_value x (merge_comments sed i (t_info v) [])) c)) by (intros x; eapply set_info_well_paired; [|exact W]; cbn; apply merge_comments_kind).
  repeat match goal with |- context [if ?b then _ else _] => destruct b | |- context [match ?b with _ => _ end] => destruct b end; intros [= <-]; done.
Qed.
Lemma act_on_paired a v : well_paired v -> forall o o', well_paired o -> act_on sed a v o = Ok (Some o') -> well_paired o'.
Proof.
  intros V o o' W. destruct a; cbn [act_on].
  - intros E. apply rbind_ok in E as (r & E & [= <-]). exact (merge_well_paired sed v V o [] _ W E).
  - intros E. apply rbind_ok in E as (r & E & [= <-]). exact (merge_well_paired sed v V o [] _ W E).
  - intros [= <-]. by apply replace_node_paired.
  - done.
  - destruct (combine_node sed o v) as [t' [e|]] eqn:C; [done|]. intros [= <-]. by eapply combine_node_paired.
Qed.

Lemma key_found text names i root rest : i_kind i = KDocument ->
  found [key_query text names] (at_root i rest root) = match key_position names root with Some p => [0 :: p] | None => [] end.
Proof.
  intros K. unfold found, empty_doc, t_kind, at_root. cbn [t_info map concat key_query tq_find]. unfold t_kind. cbn [t_info]. rewrite K.
  change (children (T i (Some (root :: rest)))) with (root :: rest). cbn [kind_eqb andb]. cbn iota. by rewrite app_nil_r.
Qed.
(** Making the path exist and putting the value there: other paths are not affected. *)
Lemma inject_elsewhere text n v i root rest t' : i_kind i = KDocument -> n <> [] -> denotes text n -> Forall (fun k => ~ marker_in k) n -> well_paired v -> well_paired root ->
  t_inject sed [key_query text n] v (at_root i rest root) = Ok t' ->
  exists r', t' = at_root i rest r' /\ well_paired r' /\ forall m, diverge m n -> tree_at m r' = tree_at m root.
Proof.
  intros K NN D NM V W. destruct (merge_scaffold sed n NM root [i_value i] W) as (m1 & M & I).
  assert (W1 : well_paired m1).
  { assert (N : well_paired (nested n empty_scalar)); [|exact (merge_well_paired sed _ N root _ _ W M)]. clear.
    induction n as [|k n IH]; cbn [nested]; [apply well_paired_node; [discriminate|constructor]|]. unfold mapping_of, entry.
    apply well_paired_node; [intros _; apply is_paired_cons, is_paired_nil|]. repeat constructor; [apply well_paired_node; [discriminate|constructor]|exact IH]. }
  assert (SC : scaffolded sed [key_query text n] (at_root i rest root) = Ok (at_root i rest m1)).
  { assert (EM : merge sed (T i (Some (root :: rest))) (document_of (nested n empty_scalar)) [] = Ok (T i (Some (m1 :: rest)))).
    { unfold document_of. cbn [merge i_kind empty_info t_content map t_value t_info]. unfold t_value; cbn [t_info]. rewrite M. cbn [rbind].
      change (mkInfo KDocument 0 [] [] [] [] [] [] 0 0) with (empty_info KDocument []). by rewrite bare_comments. }
    unfold scaffolded. cbn [map key_query tq_text build_all]. rewrite (denotes_build _ _ D). cbn [rbind build_paths fold_left]. unfold at_root.
    exact EM. }
  unfold t_inject. rewrite SC. cbn [rbind]. rewrite (key_found text n i m1 rest K). destruct (key_position n m1) as [p|] eqn:KP.
  - change (remaining [] [0 :: p]) with [0 :: p]. cbn [update_each]. intros E. apply rbind_ok in E as (u & E & [= <-]).
    assert (OP : exists r', u = at_root i rest r' /\ on_path n (act_on sed AReplace v) m1 = Ok (Some r')).
    { assert (X : on_path n (act_on sed AReplace v) m1 = on_path n (fun o => let! x := Ok (replace_node sed o v) in Ok (Some x)) m1) by (by apply on_path_ext).
      rewrite X. rewrite (on_path_update (fun o => Ok (replace_node sed o v)) n m1 p KP). unfold at_root in E. cbn [update_at lookup list_lookup] in E.
      destruct (update_at p _ m1) as [r'| | |]; try done. cbn [rbind] in E |- *. injection E as <-. by exists r'. }
    destruct OP as (r' & -> & OP). exists r'. split; [done|]. split; [by eapply (on_path_paired n); [apply (act_on_paired AReplace v V)|exact W1|exact OP]|].
    intros m DM. rewrite (on_path_others n _ m1 r' m OP DM). by eapply injected_diverge.
  - cbn [remaining update_each]. intros [= <-]. exists m1. split; [done|]. split; [done|]. intros m DM. by eapply injected_diverge.
Qed.

Lemma apply_elsewhere m o i root rest t' : parts_ways dflt m o -> well_paired (to_value o) -> i_kind i = KDocument -> well_paired root -> t_apply sed dflt o (at_root i rest root) = Ok t' ->
  exists r', t' = at_root i rest r' /\ well_paired r' /\ tree_at m r' = tree_at m root.
Proof.
  intros (text & n & Q & D & IJ) V K W E. assert (n <> []) as NN by (destruct D as (c & a & b & p' & q' & _ & -> & _); by destruct c).
  unfold t_apply in E. destruct (tqualifies _ _); [|injection E as <-; by exists root]. rewrite Q, (key_found text n i root rest K) in E.
  destruct (key_position n root) as [p|] eqn:KP.
  - pose (o' := mkTOverlay (to_queries o) (to_value o) (to_action o) [] MIgnore (to_inject o)).
    assert (A : t_apply sed dflt o' (at_root i rest root) = Ok t').
    { unfold t_apply. cbn [o' tqualifies to_docqueries to_queries to_action to_value to_inject]. rewrite Q, (key_found text n i root rest K), KP. exact E. }
    assert (TA : taimed dflt o' n []) by (constructor; [by exists text|done|done|constructor]).
    rewrite (apply_on_path _ _ _ _ _ _ _ _ TA K) in A. cbn [o' tqualifies to_docqueries to_action to_value] in A.
    apply rbind_ok in A as (x & X & [= <-]). destruct n as [|k n]; [done|]. destruct (on_path_stays k n _ _ _ X) as [r' ->]. exists r'. split; [done|].
    split; [by eapply (on_path_paired (k :: n)); [apply (act_on_paired (to_action o) (to_value o) V)|exact W|exact X]|]. by eapply on_path_others.
  - destruct (injects dflt o); [|injection E as <-; by exists root]. destruct (IJ eq_refl) as [DN NM].
    assert (IP : inject_paths o = Some [key_query text n]).
    { unfold inject_paths. rewrite Q. cbn [map key_query tq_text build_all]. by rewrite (denotes_build _ _ DN). }
    rewrite IP in E. destruct (inject_elsewhere text n (to_value o) i root rest t' K NN DN NM V W E) as (r' & -> & W' & H). exists r'. auto.
Qed.
Lemma each_path m ots : Forall (parts_ways dflt m) ots -> Forall (fun o => well_paired (to_value o)) ots -> forall i root rest u, i_kind i = KDocument -> well_paired root -> t_apply_each sed dflt ots (at_root i rest root) = Ok u ->
  exists r', u = at_root i rest r' /\ tree_at m r' = tree_at m root.
Proof.
  induction 1 as [|o ots PW _ IH]; intros VS i root rest u K W E; cbn [t_apply_each] in E; [injection E as <-; by exists root|].
  apply Forall_cons in VS as [V VS]. apply rbind_ok in E as (t' & E1 & E). destruct (apply_elsewhere m o i root rest t' PW V K W E1) as (r & -> & W' & H).
  destruct (IH VS i r rest u K W' E) as (r' & -> & H'). exists r'. split; [done|]. by rewrite H'.
Qed.

Lemma has_document_paired c common y adhoc p j t ots : has_document c common y adhoc p j t ots -> well_paired t /\ Forall (fun o => well_paired (to_value o)) ots.
Proof.
  intros (ds & doc & depth & ro & _ & _ & -> & [[_ [W _]] _ _ V _] & _). split; [|eapply Forall_impl; [exact V|by intros ? []]].
  unfold as_processed. destruct (cl_uncomment _); [by apply ProofUncomment.uncomment_paired|done].
Qed.
(** What a run writes for a document. *)
Lemma written_trees c w : succeeds c w -> exists common y adhoc, asked c common y adhoc /\
  (let all := all_inputs (c_world c) (c_cl c) y in
   exists text, texts_written all text (oc_stdout (c_cfg c)) (oc_dir (c_cfg c)) (c_before c) w /\
     forall p, In p (map e_path all) -> exists us, document_count c p (length us) /\ encode_nodes enc (oc_styles (c_cfg c)) us = Ok (text p) /\
       forall j t ots, has_document c common y adhoc p j t ots -> exists u, us !! j = Some u /\ t_apply_each sed dflt ots t = Ok u).
Proof.
  intros S. destruct (run_texts sed dflt enc c w S) as (common & y & adhoc & A & text & W & T). exists common, y, adhoc. split; [exact A|].
  cbv zeta. exists text. split; [exact W|]. intros p P. destruct (T p P) as (ds & us & D & L & EN & ME).
  exists us. split; [by exists ds|]. split; [exact EN|]. intros j t ots HD. pose proof HD as (ds' & doc & depth & ro & D' & DJ & _).
  rewrite D in D'. injection D' as <-.
  assert (j < length us) as HL by (rewrite L; by eapply lookup_lt_Some). destruct (lookup_lt_is_Some_2 us j HL) as [u U]. exists u. split; [done|]. by eapply ME.
Qed.

(** C93.  After a run that succeeds: a node of a document that is neither selected nor below a
    selected node is written with the kind, tag, text, style, anchor, comments and number
    of children it was read with; and if no node below it is selected either, it is
    written as read, with everything below.  (Comments are left out with
    --remove-comments.  "Selected": by an overlay in force, when its turn comes; none of
    them may delete or inject.) *)
Theorem C93_nodes_not_selected_stay c w : succeeds c w -> exists common y adhoc, asked c common y adhoc /\
  (let all := all_inputs (c_world c) (c_cl c) y in
   exists text, texts_written all text (oc_stdout (c_cfg c)) (oc_dir (c_cfg c)) (c_before c) w /\
     forall p, In p (map e_path all) -> exists us, document_count c p (length us) /\ encode_nodes enc (oc_styles (c_cfg c)) us = Ok (text p) /\
       forall j t ots, has_document c common y adhoc p j t ots -> exists u, us !! j = Some u /\
         (forall q, leaves_alone sed dflt (covers q) ots t -> seen_alone <$> node_at q u = seen_alone <$> node_at q t) /\
         (forall q, leaves_alone sed dflt (related q) ots t -> node_at q u = node_at q t)).
Proof.
  intros S. destruct (written_trees c w S) as (common & y & adhoc & A & text & W & T). exists common, y, adhoc. split; [exact A|].
  cbv zeta. exists text. split; [exact W|]. intros p P. destruct (T p P) as (us & C & EN & H). exists us. split; [exact C|]. split; [exact EN|].
  intros j t ots HD. destruct (H j t ots HD) as (u & U & E). exists u. split; [exact U|]. split; intros q L; [by eapply each_outside|by eapply each_away].
Qed.

(** And if every overlay in force is about one path of keys, whatever its action, even if it
    injects: what is found under a path of keys that parts ways with all of them is
    written as it was read (and so is the rest of the document node). *)
Theorem C93_other_paths_stay c w : succeeds c w -> exists common y adhoc, asked c common y adhoc /\
  (let all := all_inputs (c_world c) (c_cl c) y in
   exists text, texts_written all text (oc_stdout (c_cfg c)) (oc_dir (c_cfg c)) (c_before c) w /\
     forall p, In p (map e_path all) -> exists us, document_count c p (length us) /\ encode_nodes enc (oc_styles (c_cfg c)) us = Ok (text p) /\
       forall j i top others ots m, has_document c common y adhoc p j (T i (Some (top :: others))) ots -> i_kind i = KDocument ->
         Forall (parts_ways dflt m) ots -> exists top', us !! j = Some (T i (Some (top' :: others))) /\ tree_at m top' = tree_at m top).
Proof.
  intros S. destruct (written_trees c w S) as (common & y & adhoc & A & text & W & T). exists common, y, adhoc. split; [exact A|].
  cbv zeta. exists text. split; [exact W|]. intros p P. destruct (T p P) as (us & C & EN & H). exists us. split; [exact C|]. split; [exact EN|].
  intros j i top others ots m HD K F. destruct (has_document_paired _ _ _ _ _ _ _ _ HD) as [WT VS].
  assert (well_paired top) as WP by (apply well_paired_inv in WT as [_ WT]; by apply Forall_cons in WT as [WT _]).
  destruct (H j _ ots HD) as (u & U & E). destruct (each_path m ots F VS i top others u K WP E) as (r' & -> & X). exists r'. split; [exact U|exact X].
Qed.
End theorems.

(** *** A run whose overlays replace [$.metadata.name] and then delete [$.metadata]: what is
    under [$.ports] is left alone. *)
From Verif Require Import Fine Overlay Examples ExamplesHeap ExamplesPipeline SpecRender SpecQuery ActionNames Finder ProofFinder Deciders Witness ProofMeaningKeys PropsDelete PropsReplace ProofExecuteProps PropsBuilder.
Definition e_names (s : list N) : option (list (list N)) :=
  if seq_eqb s (lit "$") then Some [lit "absent"] else if seq_eqb s (lit "$.metadata") then Some [lit "metadata"]
  else if seq_eqb s (lit "$.metadata.name") then Some [lit "metadata"; lit "name"] else None.
Definition e_compile (s : list N) : option (heap -> loc -> list loc) :=
  match e_names s with Some ns => Some (q_find (Finder.dotted s ns)) | None => None end.
Definition e_c : circumstances :=
  mkCircumstances unit unit w_engine (fun _ => None) (fun _ => None) e_compile w_to_int w_heap ex_zero r_s w_cl 10 go_grow 20 ex_disk ex_cfg (mkWorld [] []).
Definition e_ready := get_ready w_engine (fun _ => None) (fun _ => None) no_sed e_compile w_to_int w_heap ex_zero 10 go_grow r_s w_cl.
Definition e_os : list overlay := match e_ready with (_, Ok (os, _)) => os | _ => [] end.
Definition e_ots : list toverlay :=
  [ mkTOverlay [key_query (lit "$") [lit "absent"]] (mp [sc "k"; sc "v"]) AInvalid [] MDefault None;
    mkTOverlay [key_query (lit "$.metadata.name") [lit "metadata"; lit "name"]] (sc "x") AReplace [] MDefault None;
    mkTOverlay [key_query (lit "$.metadata") [lit "metadata"]] (T (mkInfo KZero 0 [] [] [] [] [] [] 0 0) None) ADelete [] MDefault None ].
Definition e_h1 : heap := fst e_ready.
Definition e_files : list yfile := match e_ready with (_, Ok (_, R)) => map to_file R | _ => [] end.
Definition e_moves : list move := [Worker 0 false; Worker 1 false; Producer 0; Producer 1; Closer; Main].
Fixpoint e_greedy (n : nat) s : list move :=
  match n with O => [] | Datatypes.S n =>
    (fix go ms := match ms with
      | [] => []
      | m :: r => match play (begin 20 no_sed []) tick (scan 20 e_files) peek (emit show ex_disk ex_cfg e_files) (map (file_work e_os) e_files) m s with
                  | Some s' => m :: e_greedy n s' | None => go r end end) e_moves end.
Definition e_schedule : list move := Eval vm_compute in e_greedy 200 (start (map (file_work e_os) e_files) (e_h1, e_os) (mkWorld [] [])).
Lemma e_finds : finds_reachable e_compile.
Proof.
  intros t f. unfold e_compile. destruct (e_names t) as [ns|]; [|done]. intros [= <-]. change (good_finder (dotted t ns)). apply ProofExecuteProps.dotted_good.
Qed.
Lemma e_is_ready : exists R, get_ready w_engine (fun _ => None) (fun _ => None) no_sed e_compile w_to_int w_heap ex_zero 10 go_grow r_s w_cl = (e_h1, Ok (e_os, R)) /\ map to_file R = e_files.
Proof.
  change (get_ready _ _ _ _ _ _ _ _ _ _ _ _) with e_ready. unfold e_h1, e_os, e_files.
  assert (X : match snd e_ready with Ok _ => true | _ => false end = true) by (vm_compute; reflexivity). revert X. generalize e_ready. intros [h [[os R]| | |]] X; [|discriminate X..].
  exists R. split; reflexivity.
Qed.
Lemma e_parts : Forall (parts_ways [] [lit "ports"]) e_ots.
Proof.
  assert (X : forall o text n, o = mkTOverlay [key_query text n] (to_value o) (to_action o) [] MDefault None -> diverge [lit "ports"] n -> parts_ways [] [lit "ports"] o).
  { intros o text n E D. exists text, n. split; [by rewrite E|]. split; [exact D|]. rewrite E. intros Y. vm_compute in Y. discriminate Y. }
  unfold e_ots. constructor; [|constructor; [|constructor; [|constructor]]]; (eapply X; [reflexivity|]).
  - exists [], (lit "ports"), (lit "absent"), [], []. split_and!; [reflexivity..|by vm_compute].
  - exists [], (lit "ports"), (lit "metadata"), [], [lit "name"]. split_and!; [reflexivity..|by vm_compute].
  - exists [], (lit "ports"), (lit "metadata"), [], []. split_and!; [reflexivity..|by vm_compute].
Qed.
Lemma e_tree : exists i0 top others, as_processed w_cl (erase w_tree) = T i0 (Some (top :: others)) /\ i_kind i0 = KDocument /\ tree_at [lit "ports"] top <> None /\
     tree_at [lit "metadata"] top <> None /\ match t_apply_each no_sed [] e_ots (T i0 (Some (top :: others))) with Ok u => found [key_query [] [lit "metadata"]] u = [] | _ => False end.
Proof.
  do 3 eexists. split; [vm_compute; reflexivity|]. split; [reflexivity|].
  split; [intros X; vm_compute in X; discriminate X|split; [intros X; vm_compute in X; discriminate X|vm_compute; reflexivity]].
Qed.
Example C93_applies : exists w common y i top others,
  succeeds no_sed [] show e_c w /\ asked no_sed e_c common y None /\ In (lit "/w/a.yaml") (map e_path (all_inputs r_s w_cl y)) /\ document_count e_c (lit "/w/a.yaml") 1 /\
  i_kind i = KDocument /\
  has_document no_sed [] e_c common y None (lit "/w/a.yaml") 0 (T i (Some (top :: others))) e_ots /\
  Forall (parts_ways [] [lit "ports"]) e_ots /\ tree_at [lit "ports"] top <> None /\
  tree_at [lit "metadata"] top <> None /\ match t_apply_each no_sed [] e_ots (T i (Some (top :: others))) with Ok u => found [key_query [] [lit "metadata"]] u = [] | _ => False end.
Proof.
  destruct e_is_ready as (R & HR & HF).
  assert (X : exists st, plays (begin 20 no_sed []) tick (scan 20 e_files) peek (emit show ex_disk ex_cfg e_files) (map (file_work e_os) e_files) e_schedule
      (start (map (file_work e_os) e_files) (e_h1, e_os) (mkWorld [] [])) = Some st /\ crashed st = false /\ main st = MReturn None).
  { destruct (plays _ _ _ _ _ _ _ _) as [st|] eqn:EP; [|by vm_compute in EP]. exists st. split; [done|]. vm_compute in EP. injection EP as <-. vm_compute. split_and!; reflexivity. }
  destruct X as (st & EP & C & M). apply plays_steps in EP as [n EX].
  assert (S : succeeds no_sed [] show e_c (outside st)).
  { split; [exact r_fresh|]. split; [exact e_finds|]. split; [exact r_paths|]. exists e_h1, e_os, R, n, st. split; [exact HR|].
    split; [change (c_before e_c) with (mkWorld [] []); rewrite HF; exact EX|]. split; [exact C|]. split; [exact M|reflexivity]. }
  destruct (read_instructions_file w_engine (fun _ => None) (fun _ => None) no_sed e_compile w_to_int w_heap r_s w_cl) as [i| | |] eqn:EI; [|by vm_compute in EI..].
  pose proof (instructions_read _ _ _ _ _ _ _ _ _ _ EI) as HI.
  destruct (plain_instructions ex_zero i) as [[common y]|] eqn:EY; [|vm_compute in EI; injection EI as <-; by vm_compute in EY].
  destruct e_tree as (i0 & top & others & TE & TK & TA & TD).
  exists (outside st), common, y, i0, top, others. split; [exact S|].
  split; [exists i; split; [exact HI|split; [by apply plain_stands_for|reflexivity]]|].
  split. { vm_compute in EI. injection EI as <-. vm_compute in EY. injection EY as <- <-. left. by vm_compute. }
  split. { exists [ex_doc]. split; by vm_compute. }
  split; [exact TK|]. split; [|split; [exact e_parts|split; [exact TA|exact TD]]].
  assert (K : forall q text ns, q_text q = text -> q_find q = q_find (Finder.dotted text ns) -> computes q (key_query text ns)).
  { intros q text ns E1 E2. destruct (dotted_computes text ns) as [_ X]. split; [done|]. by rewrite E2. }
  assert (MO : exists q1 q2 q3 v1 v2 v3, overlays_for (room_left go_grow common None) common None (all_inputs r_s w_cl y) (lit "/w/a.yaml") 0 =
    [mkOverlay [q1] v1 AInvalid [] MDefault None None; mkOverlay [q2] v2 AReplace [] MDefault None None; mkOverlay [q3] v3 ADelete [] MDefault None None] /\
    (q_text q1 = lit "$" /\ q_find q1 = q_find (Finder.dotted (lit "$") [lit "absent"])) /\
    (q_text q2 = lit "$.metadata.name" /\ q_find q2 = q_find (Finder.dotted (lit "$.metadata.name") [lit "metadata"; lit "name"])) /\
    (q_text q3 = lit "$.metadata" /\ q_find q3 = q_find (Finder.dotted (lit "$.metadata") [lit "metadata"])) /\
    vread 20 w_ro w_heap v1 = Some (mp [sc "k"; sc "v"]) /\ vread 20 w_ro w_heap v2 = Some (sc "x") /\
    vread 20 w_ro w_heap v3 = Some (T (mkInfo KZero 0 [] [] [] [] [] [] 0 0) None)).
  { vm_compute in EI. injection EI as <-. vm_compute in EY. injection EY as <- <-. do 6 eexists. split; [vm_compute; reflexivity|].
    split; [split; reflexivity|]. split; [split; reflexivity|]. split; [split; reflexivity|]. split; [|split]; vm_compute; reflexivity. }
  destruct MO as (q1 & q2 & q3 & v1 & v2 & v3 & MO & [T1 F1] & [T2 F2] & [T3 F3] & V1 & V2 & V3).
  exists [ex_doc], w_tree, 20, (fun x => w_ro x = true). split; [by vm_compute|]. split; [by vm_compute|]. split; [exact (eq_sym TE)|].
  change (c_grow e_c) with go_grow. change (c_world e_c) with r_s. change (c_cl e_c) with w_cl. change (c_heap e_c) with w_heap. rewrite MO. split.
  - constructor.
    + split; [apply (lread_own 20 _ _ _ w_tree_read), (bool_decide_unpack _); vm_compute; exact I|].
      split; [apply well_paired_ex|apply branching_ex]; vm_compute; reflexivity.
    + apply apart_between; [done|]. apply between_all. vm_compute. reflexivity.
    + apply Forall2_cons. split; [|apply Forall2_cons; split; [|apply Forall2_cons; split; [|constructor]]].
      * split; [repeat constructor; by apply K|]. split; [by apply vread_value|]. split; [reflexivity|]. split; [constructor|]. split; [reflexivity|exact I].
      * split; [repeat constructor; by apply K|]. split; [by apply vread_value|]. split; [reflexivity|]. split; [constructor|]. split; [reflexivity|exact I].
      * split; [repeat constructor; by apply K|]. split; [by apply vread_value|]. split; [reflexivity|]. split; [constructor|]. split; [reflexivity|exact I].
    + repeat (apply Forall_cons; split); try apply Forall_nil; try exact I; (split; [apply well_paired_ex|apply branching_ex]); vm_compute; reflexivity.
    + left. repeat constructor.
  - rewrite <- TE. apply all_plainlyb_sound. vm_compute. reflexivity.
Qed.

(** An overlay that injects, at a path that is absent, parts ways with [b]. *)
Example C93_injecting_applies :
  let o := mkTOverlay [key_query (lit "$.c.d") [lit "c"; lit "d"]] (sc "x") AReplace [] MInject None in
  let t := T (empty_info KDocument []) (Some [mp [sc "a"; sc "1"; sc "b"; sc "2"]]) in
  parts_ways [] [lit "b"] o /\ match t_apply no_sed [] o t with Ok u => found [key_query [] [lit "c"; lit "d"]] t = [] /\ found [key_query [] [lit "c"; lit "d"]] u <> [] | _ => False end.
Proof.
  cbv zeta. split.
  - do 2 eexists. split; [reflexivity|]. split.
    + exists [], (lit "b"), (lit "c"), [], [lit "d"]. split_and!; [reflexivity..|by vm_compute].
    + intros _. split; [|constructor; [apply freeb_sound; vm_compute; reflexivity|constructor; [apply freeb_sound; vm_compute; reflexivity|constructor]]].
      split; [constructor; [apply plainb_spec; vm_compute; reflexivity|constructor; [apply plainb_spec; vm_compute; reflexivity|constructor]]|left; reflexivity].
  - vm_compute. split; [reflexivity|discriminate].
Qed.
(** When [a] of a mapping is replaced, the mapping itself and the value of [b] are left alone. *)
Example C93_nodes_apply :
  let o := mkTOverlay [key_query (lit "$.a") [lit "a"]] (sc "x") AReplace [] MIgnore None in
  let t := T (empty_info KDocument []) (Some [mp [sc "a"; sc "1"; sc "b"; sc "2"]]) in
  leaves_alone no_sed [] (related [0; 3]) [o] t /\ leaves_alone no_sed [] (covers [0]) [o] t /\ node_at [0; 3] t = Some (sc "2") /\
  match t_apply no_sed [] o t with Ok u => node_at [0; 1] u = Some (sc "x") | _ => False end.
Proof.
  cbv zeta. split; [|split; [|split; vm_compute; reflexivity]].
  - split; [|intros t' _; exact I]. intros _. vm_compute. split; [discriminate|]. intros p [<-|[]] [[k X]|[k X]]; discriminate X.
  - split; [|intros t' _; exact I]. intros _. vm_compute. split; [discriminate|]. intros p [<-|[]] [k X]; discriminate X.
Qed.

Print Assumptions C93_nodes_not_selected_stay.
Print Assumptions C93_other_paths_stay.

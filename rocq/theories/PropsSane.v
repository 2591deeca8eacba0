(** C84: sane instructions never make the program crash. *)
From stdpp Require Import list_numbers.
From Verif Require ProofExecuteProps ProofPipeline ProofQuery ProofHeapMerge.
From Verif Require Import PropsLocal.
From Verif Require Import Prelude GoStrings Format Yaml Heap MergeTree HeapActions SpecMerge SpecHeap SpecDelete Builder ActionNames
  Overlay SpecOverlay SpecReach SpecActions SpecQuery ProofHeap ProofHeapActions ProofSound ProofForest ProofFuel ProofKeeps Queue Fine Pipeline SpecPipeline Render Execute SpecExecute SpecEnds ProofEnds
  PropsPipeline Config PropsConfig Decode Files Flags Template Whole SpecWhole Paths Main SpecMain PropsMain PropsEnds
  Finder ProofFinder Examples ExamplesHeap ExamplesPipeline Deciders Witness PropsDelete SpecSane ProofSane.

(** C84.  Applying the overlays of a file never panics: it succeeds, or fails with an
    error the user gets to see. *)
Theorem C84_no_file_panics sed dflt files os h : set_up files os h -> tidy files os h -> sane dflt files os h ->
  forall fuel i, snd (sequential fuel sed dflt files os h i) <> Panic.
Proof.
  intros SU TI SA fuel i. unfold sequential. destruct (files !! i) as [f|] eqn:F; [|done].
  destruct (file_safe sed dflt files os h f SU TI SA) as (E & m & r & X & N & NP); [apply elem_of_list_In; by eapply elem_of_list_lookup_2|].
  destruct (run_all (run_work fuel sed dflt) (file_work os f) (h, os)) as [m' r'] eqn:Y. cbn [snd]. intros ->.
  pose proof (run_more E (E + fuel) sed dflt _ _ _ _ ltac:(lia) X N) as A.
  pose proof (run_more fuel (E + fuel) sed dflt _ _ _ _ ltac:(lia) Y ltac:(done)) as B. rewrite A in B. by injection B as _ ->.
Qed.

(** A crash is never an accident of the schedule: if some schedule crashes, then one of the
    files panics when it is processed alone, or writing out the files in that order does. *)
Theorem C84_crash_is_genuine fuel sed dflt enc dk cfg files os h w0 n s : set_up files os h ->
  execution fuel sed dflt enc dk cfg files os h w0 n s -> crashed s = true ->
  (exists i f, files !! i = Some f /\ snd (sequential fuel sed dflt files os h i) = Panic) \/
  write_out fuel sed dflt enc dk cfg files os h (finished s) w0 = (outside s, Panic).
Proof.
  intros SU E C. pose proof (ProofExecuteProps.exec_inv _ _ _ _ _ _ _ _ _ _ SU n s E) as I.
  apply ProofPipeline.inv_crash in I as [(i & ws & q & W & R)|B]; [| |done].
  - left. apply ProofExecuteProps.works_lookup_inv in W as (f & F & ->). exists i, f. split; [done|]. unfold sequential. by rewrite F, R.
  - right. unfold ProofPipeline.rendered in B. by rewrite ProofExecuteProps.write_out_spec in B.
Qed.

(** No schedule crashes, if the indentation is not negative. *)
Theorem C84_no_schedule_crashes sed dflt files os h : set_up files os h -> tidy files os h -> sane dflt files os h ->
  exists enough, forall fuel, enough <= fuel -> forall enc dk cfg w0 n s, (0 <= oc_indent cfg)%Z ->
    execution fuel sed dflt enc dk cfg files os h w0 n s -> crashed s = false.
Proof.
  intros SU TI SA. destruct (C79_every_file_ends sed dflt files os h SU TI) as [E HE]. exists E. intros fuel L enc dk cfg w0 n s Z X.
  destruct (crashed s) eqn:C; [|done]. exfalso.
  destruct (C84_crash_is_genuine _ _ _ _ _ _ _ _ _ _ _ _ SU X C) as [(i & f & F & P)|P].
  - by apply (C84_no_file_panics sed dflt files os h SU TI SA fuel i).
  - destruct (C41_same_output_as_sequential _ _ _ _ _ _ _ _ _ _ n s SU X) as (_ & IN & _).
    revert P IN. generalize (outside s) as w1. generalize w0 as w. clear X C. induction (finished s) as [|i order IH]; intros w w1 P IN; cbn [write_out] in P; [discriminate|].
    destruct (IN i ltac:(left)) as (f & F & _). rewrite F in P. destruct (HE fuel L i) as (_ & _ & [ts D] & _). rewrite D in P.
    assert (NP : snd (post_process enc dk cfg ts (yf_output f) w) <> Panic).
    { unfold post_process. rewrite (proj2 (Z.ltb_ge _ _) Z). unfold encode_nodes.
      assert (EN : forall k j ts out, encode_loop enc (oc_styles cfg) k j ts out <> Panic).
      { clear. intros k j ts. revert k j. induction ts as [|t ts IH]; intros k j out; cbn [encode_loop]; [done|].
        destruct (children t); [apply IH|]. destruct (enc _ _); [apply IH|done]. }
      specialize (EN 0 0 ts []). destruct (encode_loop _ _ _ _ _ _) as [[|c text]|e| |]; try done. destruct (oc_stdout cfg); [by destruct (stdout_ok dk)|].
      destruct (can_open _ _); [|done]. by destruct (can_write _ _). }
    destruct (post_process enc dk cfg ts (yf_output f) w) as [w2 [[]| | |]]; try done. eapply IH; [exact P|]. intros j J. apply IN. by right.
Qed.

(** So every run can only end by returning, with an error or without: it can always go on
    until it has returned. *)
Theorem C84_always_returns sed dflt files os h : set_up files os h -> tidy files os h -> sane dflt files os h ->
  exists enough, forall fuel, enough <= fuel -> forall enc dk cfg w0 n s, (0 <= oc_indent cfg)%Z ->
    execution fuel sed dflt enc dk cfg files os h w0 n s ->
    exists n' s' r, n <= n' /\ execution fuel sed dflt enc dk cfg files os h w0 n' s' /\ crashed s' = false /\ main s' = MReturn r.
Proof.
  intros SU TI SA. destruct (C84_no_schedule_crashes sed dflt files os h SU TI SA) as [E1 H1]. destruct (C79_every_file_ends sed dflt files os h SU TI) as [E2 H2].
  exists (E1 + E2). intros fuel L enc dk cfg w0 n s Z X.
  destruct (C43_always_ends fuel sed dflt enc dk cfg files os h w0 n s SU) as (n' & s' & LE & X' & Y).
  - intros i. apply (H2 fuel ltac:(lia) i).
  - intros i. destruct (H2 fuel ltac:(lia) i) as (_ & _ & [ts D] & _). by rewrite D.
  - done.
  - pose proof (H1 fuel ltac:(lia) enc dk cfg w0 n' s' Z X') as C. destruct Y as [Y|[r Y]]; [congruence|]. by exists n', s', r.
Qed.

(** The process: status 2 (a Go panic) is only left for what happens before the run, while
    the settings and the input are read. *)
Theorem C84_process_status {F P : Type} (e : engine F P) builtin sprig sed compile to_int h0 z pfuel grow (s : surroundings) env cli config_at search cl number :
  (forall h1 v os files, boot e builtin sprig sed compile to_int h0 z pfuel grow s env cli config_at search cl = Ok (h1, v, os, files) ->
     set_up files os h1 /\ tidy files os h1 /\ sane (missing_setting env cli config_at search) files os h1) ->
  (0 <= number (indent_setting env cli config_at search))%Z ->
  exists enough, forall fuel, enough <= fuel -> forall enc dk w0 st w,
    process e builtin sprig sed compile to_int h0 z fuel pfuel grow s env cli config_at search cl number enc dk w0 st w ->
    boot e builtin sprig sed compile to_int h0 z pfuel grow s env cli config_at search cl <> Panic -> st = 0 \/ st = 1.
Proof.
  intros H Z.
  destruct (boot e builtin sprig sed compile to_int h0 z pfuel grow s env cli config_at search cl) as [[[[h1 v] os] files]|x| |] eqn:B.
  2-4: exists 0; intros fuel _ enc dk w0 st w PR NP; inversion PR; subst; try congruence; auto.
  destruct (H _ _ _ _ eq_refl) as (SU & TI & SA).
  destruct (C84_no_schedule_crashes sed (missing_setting env cli config_at search) files os h1 SU TI SA) as [E HE]. exists E. intros fuel L enc dk w0 st w PR NP.
  inversion PR as [x B'|B'|h2 v2 os2 files2 n s1 B' X C M|h2 v2 os2 files2 n s1 x B' X C M|h2 v2 os2 files2 n s1 B' X C]; subst; auto; [by rewrite B in B'|].
  rewrite B in B'. injection B' as <- <- <- <-. exfalso.
  destruct (boot_ok _ _ _ _ _ _ _ _ _ _ _ _ _ _ _ _ _ _ _ _ B) as (R & b & PF & V & _).
  rewrite (missing_get pfuel grow _ _ _ _ v V) in X. assert (Z1 : (0 <= oc_indent (out_of env number v))%Z) by (by rewrite (indent_get _ _ _ _ _ v V)).
  by rewrite (HE fuel L _ _ _ _ _ _ Z1 X) in C.
Qed.

(** *** Non-vacuity *)
(** The queries [$.a.b] find nodes below the document node, and, if they have a name,
    below its top. *)
Lemma dotted_below text names : below_document (dotted text names).
Proof.
  intros h t x [R ND] K X. apply Forall_cons in R as [R _]. destruct t as [l i c]. rewrite reads_eq in R. destruct R as [[al E] R].
  cbn [dotted q_find label] in X. unfold f_root in X. rewrite E in X. cbn [n_info n_content] in X. cbn [l_info] in K. rewrite K in X. cbn in X.
  destruct c as [[|u ts]|]; cbn in X; try (by destruct X). cbn [kids] in R. apply Forall_cons in R as [R _]. apply f_path_inside in X; [|done].
  intros ->. cbn [label] in X. rewrite flat_cons, locs_eq in ND. cbn [kids app] in ND. apply NoDup_cons in ND as [ND _]. apply ND.
  rewrite flat_cons, !elem_of_app. auto.
Qed.
Lemma dotted_below_top text k names : below_top (dotted text (k :: names)).
Proof.
  intros h t x [R ND] K X. apply Forall_cons in R as [R _]. destruct t as [l i c]. rewrite reads_eq in R. destruct R as [[al E] R].
  cbn [dotted q_find label] in X. unfold f_root in X. rewrite E in X. cbn [n_info n_content] in X. cbn [l_info] in K. rewrite K in X. cbn in X.
  destruct c as [[|u ts]|]; cbn in X; try (by destruct X). cbn [kids] in R. apply Forall_cons in R as [R _].
  assert (XU : x ∈ locs u /\ x <> label u).
  { assert (NU : NoDup (locs u)) by (rewrite flat_cons, locs_eq in ND; cbn [kids app] in ND; apply NoDup_cons in ND as [_ ND];
      rewrite flat_cons in ND; apply NoDup_app in ND as [ND _]; by apply NoDup_app in ND as [ND _]).
    clear -X R NU. destruct u as [l i c]. pose proof R as R0. rewrite reads_eq in R. destruct R as [[al E] R]. cbn [label] in *. rewrite E in X.
    cbn [n_info n_content] in X. destruct (kind_eqb _ _); [|destruct X]. destruct c as [ts|]; [|destruct X]. cbn [labels kids] in *.
    destruct (f_child h k (map label ts)) as [v|] eqn:F; [|destruct X]. apply f_child_in, in_map_iff in F as (w & <- & W). apply elem_of_list_In in W.
    rewrite Forall_forall in R. apply f_path_inside in X; [|by apply R]. rewrite locs_eq in *. cbn [kids] in *. apply NoDup_cons in NU as [NU _].
    assert (XF : x ∈ flat ts) by (apply elem_of_flat; by exists w). split; [apply elem_of_cons; by right|]. by intros ->. }
  destruct XU as [XU NE]. cbn [l_content kids map]. intros X2. apply elem_of_cons in X2 as [X2|X2]; [done|].
  rewrite flat_cons, locs_eq in ND. cbn [kids app] in ND. apply NoDup_cons in ND as [_ ND]. rewrite flat_cons in ND. apply NoDup_app in ND as [ND _].
  apply NoDup_app in ND as (_ & ND & _). apply (ND x XU). apply elem_of_list_In, in_map_iff in X2 as (w & <- & W). apply elem_of_flat. exists w.
  split; [by apply elem_of_list_In|apply label_locs].
Qed.
(** The two files of ExamplesPipeline.v, with an overlay that injects what it does not find
    (overlay 4), one that has conditions, one that deletes and one that fails. *)
Definition sane_os : list overlay :=
  [ mkOverlay [q_root] ex_val AMerge [[mkCondition [q_name] ex_x]; [mkCondition [q_root] ex_zero]] MDefault None None;
    ex_overlay AReplace q_name ex_x; ex_overlay ADelete q_metadata ex_x; ex_overlay ACombine q_root ex_x;
    mkOverlay [q_missing] ex_val AMerge [] MInject (Some [q_name]) None ].
Definition sane_a : yfile := mkFile [ex_doc] [0; 1; 2; 4; 2; 4] [mkDocument 0 [2]] (lit "a.yaml").
Definition sane_b : yfile := mkFile [two_doc] [4; 3] [] (lit "b.yaml").
Definition sane_files : list yfile := [sane_a; sane_b].
Lemma two_docs f docs : mapM (lread 20 two_heap) (yf_nodes f) = Some docs -> bool_decide (NoDup (flat docs)) = true ->
  forallb (fun d => everywhereb node_pairedb (erase d) && everywhereb node_branchingb (erase d)) docs = true -> tidy_file two_heap f.
Proof.
  intros E N P. exists docs. apply mapM_Some in E. split; [|split; [split|]].
  - clear -E. induction E as [|x y l k H _ IH]; [done|]. cbn. f_equal; [by apply lread_label in H|done].
  - clear -E. induction E as [|x y l k H _ IH]; constructor; [by eapply lread_reads|done].
  - by apply bool_decide_eq_true in N.
  - rewrite forallb_forall in P. rewrite Forall_forall. intros d D. apply elem_of_list_In, P, andb_true_iff in D as [A B].
    split; [by apply well_paired_ex|by apply branching_ex].
Qed.
Lemma two_value v t : vread 20 (fun _ => true) two_heap v = Some t -> everywhereb node_pairedb t = true -> everywhereb node_branchingb t = true ->
  exists d t, value_at d (reach two_heap v) two_heap v t /\ well_paired t /\ branching t.
Proof.
  intros V A B. exists 20, t. split; [eapply value_reach; by apply vread_value|]. split; [by apply well_paired_ex|by apply branching_ex].
Qed.
Lemma two_no_doc v : complete 30 two_heap v = true ->
  forallb (fun x => match two_heap !! x with Some n => negb (kind_eqb (i_kind (n_info n)) KDocument) | None => true end) (reach_list 30 two_heap v) = true ->
  forall x n, reach two_heap v x -> two_heap !! x = Some n -> i_kind (n_info n) <> KDocument.
Proof.
  intros C F x n R E K. apply (reach_in 30) in R; [|done]. rewrite forallb_forall in F. specialize (F x R). rewrite E, K in F. done.
Qed.
Lemma sane_set_up : set_up sane_files sane_os two_heap.
Proof.
  apply set_upb_sound; [by vm_compute|]. assert (G : forall t n, good_finder (dotted t n)) by (intros; split; [apply dotted_ok|apply ProofExecuteProps.dotted_blind]).
  assert (O : forall a t n v, good_queries (ex_overlay a (dotted t n) v)) by (intros; apply ex_overlay_good, G).
  unfold sane_os. constructor; [|constructor; [apply O|constructor; [apply O|constructor; [apply O|constructor; [|constructor]]]]].
  - constructor; [constructor; [apply G|constructor]|discriminate|].
    intros g c X C. cbn in X. destruct X as [<-|[<-|[]]]; destruct C as [<-|[]]; repeat constructor; apply ProofExecuteProps.dotted_blind.
  - constructor; [constructor; [apply G|constructor]| |by intros g c []]. intros ip [= <-]. constructor; [apply G|constructor].
Qed.
Lemma sane_tidy : tidy sane_files sane_os two_heap.
Proof.
  split.
  - constructor; [|constructor; [|constructor]]; (eapply two_docs; [by vm_compute|by vm_compute|by vm_compute]).
  - assert (VX : forall v, v = ex_val \/ v = ex_x -> exists d t, value_at d (reach two_heap v) two_heap v t /\ well_paired t /\ branching t).
    { intros v [->| ->]; (eapply two_value; [by vm_compute|by vm_compute|by vm_compute]). }
    assert (D : forall t n, Forall finds_inside [dotted t n]) by (intros; constructor; [apply dotted_inside|constructor]).
    assert (O : forall a t n, tidy_overlay two_heap (ex_overlay a (dotted t n) ex_x)).
    { intros a t n. constructor; [apply D|discriminate|apply VX; auto|by intros g c []]. }
    unfold sane_os. constructor; [|constructor; [apply O|constructor; [apply O|constructor; [apply O|constructor; [|constructor]]]]].
    + constructor; [apply D|discriminate|apply VX; auto|].
      intros g c G C. cbn in G. exists 20. destruct G as [<-|[<-|[]]]; destruct C as [<-|[]]; cbn [c_value];
        (eapply value_bounded, (vread_value 20 (fun _ => true)); by vm_compute).
    + constructor; [apply D| |apply VX; auto|by intros g c []]. intros ip [= <-]. apply D.
Qed.
Lemma sane_sane : sane [] sane_files sane_os two_heap.
Proof.
  split; [|split].
  - constructor; [|constructor; [|constructor]]; (intros d [<-|[]]; eexists; split; [by vm_compute|split; [done|discriminate]]).
  - assert (VX : forall v, v = ex_val \/ v = ex_x -> forall x n, reach two_heap v x -> two_heap !! x = Some n -> i_kind (n_info n) <> KDocument).
    { intros v [->| ->]; (apply two_no_doc; by vm_compute). }
    assert (D : forall t n, t <> [] -> sane_paths [dotted t n]).
    { intros t n T. split; [done|]. constructor; [split; [done|apply dotted_below]|constructor]. }
    assert (O : forall a t n, t <> [] -> sane_overlay two_heap (ex_overlay a (dotted t n) ex_x)).
    { intros a t n T. constructor; [by apply D|discriminate|apply VX; auto|by intros g c q []]. }
    unfold sane_os. constructor; [|constructor; [by apply O|constructor; [by apply O|constructor; [by apply O|constructor; [|constructor]]]]].
    + constructor; [by apply D|discriminate|apply VX; auto|].
      intros g c q G C. cbn in G. destruct G as [<-|[<-|[]]]; destruct C as [<-|[]]; (intros [<-|[]]; apply dotted_ok).
    + constructor; [by apply D| |apply VX; auto|by intros g c q []]. intros ip [= <-]. by apply D.
  - intros o o' q _ _ I A Q. cbn in I. destruct I as [<-|[<-|[<-|[<-|[<-|[]]]]]]; try discriminate A. destruct Q as [<-|[]]. apply dotted_below_top.
Qed.
Example C84_applies : set_up sane_files sane_os two_heap /\ tidy sane_files sane_os two_heap /\ sane [] sane_files sane_os two_heap /\
  snd (sequential 30 no_sed [] sane_files sane_os two_heap 0) = Ok tt /\
  snd (sequential 30 no_sed [] sane_files sane_os two_heap 1) = Err ECombineOnlyScalars /\
  fst (fst (sequential 30 no_sed [] sane_files sane_os two_heap 1)) <> two_heap.
Proof.
  split; [apply sane_set_up|]. split; [apply sane_tidy|]. split; [apply sane_sane|]. split; [by vm_compute|]. split; [by vm_compute|].
  intros X. apply (f_equal (fun h => length h)) in X. revert X. by vm_compute.
Qed.

(** *** Each condition is needed *)
Lemma missing_resolved dflt o : may_inject dflt o -> o_missing (resolve_missing dflt o) = MInject /\
  o_queries (resolve_missing dflt o) = o_queries o /\ o_value (resolve_missing dflt o) = o_value o /\ o_inject (resolve_missing dflt o) = o_inject o.
Proof.
  intros [M|[M D]]; unfold resolve_missing; rewrite M; [done|]. by rewrite (proj2 (ProofQuery.inject_spelled dflt) D).
Qed.
(** An overlay without queries that injects: a panic, on every document. *)
Theorem C84_refuted_no_query fuel sed dflt o node h : may_inject dflt o -> o_docqueries o = [] -> o_queries o = [] -> node < length h ->
  snd (apply fuel sed dflt o node h) = Panic.
Proof.
  intros M D Q N. destruct (lookup_lt_is_Some_2 h node N) as [n E]. destruct (missing_resolved dflt o M) as (A & B & C & _).
  unfold apply. rewrite D. cbn [h_check_queries ret]. unfold h_find, bind, get. rewrite E, Q.
  assert (Z : h_on_missing fuel sed (resolve_missing dflt o) node h = (h, Panic)); [|destruct (_ && _); cbn [map concat ret]; by rewrite Z].
  unfold h_on_missing, h_handle_inject. by rewrite A, B, Q.
Qed.
(** The same with a query that cannot be injected and an empty list of injectPath. *)
Theorem C84_refuted_no_inject_path fuel sed dflt o node h : may_inject dflt o -> o_docqueries o = [] -> o_inject o = Some [] ->
  build_all (map q_text (o_queries o)) = Err EInvalidPath -> h_find (o_queries o) node h = (h, Ok []) ->
  snd (apply fuel sed dflt o node h) = Panic.
Proof.
  intros M D I Q N. destruct (missing_resolved dflt o M) as (A & B & C & J).
  unfold apply. rewrite D. cbn [h_check_queries ret]. rewrite N.
  assert (Z : h_on_missing fuel sed (resolve_missing dflt o) node h = (h, Panic)); [|by rewrite Z].
  unfold h_on_missing, h_handle_inject. by rewrite A, B, Q, J, I.
Qed.
(** Injecting into a document whose top has been deleted: a panic. *)
Theorem C84_refuted_emptied_document sed dflt o node h i al : may_inject dflt o -> o_docqueries o = [] ->
  h !! node = Some (mkNode i al (Some [])) -> i_kind i = KDocument ->
  o_queries o <> [] -> Forall (fun q => q_text q <> []) (o_queries o) -> (exists ts, build_all (map q_text (o_queries o)) = Ok ts) ->
  exists enough, forall fuel, enough <= fuel -> snd (apply fuel sed dflt o node h) = Panic.
Proof.
  intros M D E K NE TX [ts EB]. destruct (missing_resolved dflt o M) as (A & B & C & J).
  assert (SC : Forall scaffold ts /\ ts <> []).
  { pose proof EB as EB'. apply build_all_scaffold in EB' as [X Y]; [split; [done|]|].
    - intros ->. rewrite map_length in Y. by destruct (o_queries o).
    - rewrite Forall_forall in TX. rewrite Forall_forall. intros p P. apply elem_of_list_In, in_map_iff in P as (q & <- & Q). by apply TX, elem_of_list_In. }
  destruct (build_paths_scaffold sed ts (proj2 SC) (proj1 SC)) as (y & EY & (yi & u & rest & -> & KY & _)). set (y := T yi (Some (u :: rest))) in *.
  exists (depth y). intros fuel LF. unfold apply. rewrite D. cbn [h_check_queries ret]. unfold h_find, bind, get. rewrite E. cbn [n_info n_content]. rewrite K. cbn [kind_eqb andb ret].
  enough (Z : snd (h_on_missing fuel sed (resolve_missing dflt o) node h) = Panic) by (by destruct (h_on_missing fuel sed (resolve_missing dflt o) node h)).
  unfold h_on_missing, h_handle_inject. rewrite A, B, C, EB. unfold h_inject. rewrite EB, EY.
  destruct (h_alloc_spec (fun l => length h <= l) y h ltac:(done)) as (ext & ly & EA & LY & VA).
  set (h1 := h ++ ext) in *. set (ro' := fun l => length h <= l /\ l < length h1). set (doc := L node i (Some [])).
  assert (N : node < length h) by (by eapply lookup_lt_Some).
  assert (O1 : own h1 [doc]).
  { split; [constructor; [|constructor]|].
    - unfold doc. rewrite reads_eq. split; [|constructor]. exists al. unfold h1. by rewrite lookup_app_l.
    - cbn. repeat constructor. by intros X%elem_of_nil. }
  assert (A1' : apart ro' h1 [doc]).
  { intros l [L1 L2]. split; [done|]. cbn. intros X. apply elem_of_list_singleton in X. lia. }
  destruct (ProofHeapMerge.h_merge_spec sed ro' (depth y) fuel h1 doc ly y [] LF O1 A1' (value_at_bound _ _ _ _ _ (VA _ (le_n _)))) as (h2 & r2 & doc2 & gs2 & M2 & _ & _ & E2).
  assert (EM : merge sed (erase doc) y [] = Panic) by (cbn [merge y]; by rewrite KY). rewrite EM in E2. cbn [agree] in E2. subst r2.
  rewrite (bind_ok _ _ _ _ _ EA). unfold bind at 1. unfold h_merge_node. cbn [loop]. unfold bind at 1.
  change (label doc) with node in M2. by rewrite M2.
Qed.
(** How a document gets there:  delete $  and then inject. *)
Example C84_applies_emptied :
  snd (sequential 30 no_sed [] [mkFile [ex_doc] [0; 1] [] (lit "a.yaml")] [ex_overlay ADelete q_root ex_x; mkOverlay [q_missing] ex_val AMerge [] MInject None None] two_heap 0) = Panic /\
  snd (sequential 30 no_sed [] [mkFile [ex_doc] [0; 1] [] (lit "a.yaml")] [ex_overlay ADelete q_root ex_x; mkOverlay [q_missing] ex_val AMerge [] MIgnore None None] two_heap 0) = Ok tt.
Proof. by vm_compute. Qed.
(** The other two. *)
Example C84_applies_no_query :
  snd (apply 20 no_sed (lit "Inject") (mkOverlay [] ex_val AMerge [] MDefault None None) ex_doc ex_heap) = Panic /\
  (let o := mkOverlay [dotted (lit "$..nothing") [lit "nothing"]] ex_val AMerge [] MInject (Some []) None in
   build_all (map q_text (o_queries o)) = Err EInvalidPath /\ h_find (o_queries o) ex_doc ex_heap = (ex_heap, Ok []) /\ snd (apply 20 no_sed [] o ex_doc ex_heap) = Panic).
Proof. by vm_compute. Qed.

Print Assumptions C84_no_file_panics.
Print Assumptions C84_crash_is_genuine.
Print Assumptions C84_no_schedule_crashes.
Print Assumptions C84_always_returns.
Print Assumptions C84_process_status.
Print Assumptions C84_refuted_no_query.
Print Assumptions C84_refuted_no_inject_path.
Print Assumptions C84_refuted_emptied_document.

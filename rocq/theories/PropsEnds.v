(** C79: every run on tidy input ends. *)
From stdpp Require Import list_numbers.
From Verif Require ProofExecuteProps.
From Verif Require Import Prelude GoStrings Format Yaml Heap MergeTree HeapActions SpecMerge SpecHeap SpecDelete Builder ActionNames
  Overlay SpecOverlay SpecReach SpecQuery ProofHeap ProofHeapActions ProofSound ProofForest ProofFuel ProofKeeps Queue Fine Pipeline SpecPipeline Render Execute SpecExecute SpecEnds ProofEnds
  PropsPipeline Config PropsConfig Decode Files Flags Template Whole SpecWhole Paths Main SpecMain PropsMain
  Finder ProofFinder Examples ExamplesHeap ExamplesPipeline Deciders Witness PropsDelete.

(** C79.  Applying the overlays of each file ends, and so does reading the documents to be
    written: from some budget on, the outcome is not "ran out of budget", it is the same
    for every larger budget, and the documents can be read (also those of a file whose
    overlays failed). *)
Theorem C79_every_file_ends sed dflt files os h : set_up files os h -> tidy files os h ->
  exists enough, forall fuel, enough <= fuel -> forall i,
    snd (sequential fuel sed dflt files os h i) <> Fuel /\
    sequential fuel sed dflt files os h i = sequential enough sed dflt files os h i /\
    (exists ts, documents_after fuel sed dflt files os h i = Ok ts) /\
    documents_after fuel sed dflt files os h i = documents_after enough sed dflt files os h i.
Proof.
  intros SU TI.
  assert (H : forall n, exists E, forall fuel, E <= fuel -> forall i, i < n ->
    snd (sequential fuel sed dflt files os h i) <> Fuel /\ sequential fuel sed dflt files os h i = sequential E sed dflt files os h i /\
    (exists ts, documents_after fuel sed dflt files os h i = Ok ts) /\ documents_after fuel sed dflt files os h i = documents_after E sed dflt files os h i).
  { induction n as [|n [E IH]]; [exists 0; intros; lia|].
    destruct (files !! n) as [f|] eqn:F.
    - destruct (file_ends sed dflt files os h f SU TI (proj1 (elem_of_list_In _ _) (elem_of_list_lookup_2 _ _ _ F))) as (E1 & m & r & ts & X).
      exists (E + E1). intros fuel L i I. destruct (decide (i = n)) as [->|NE].
      + assert (Y : forall f', E1 <= f' -> sequential f' sed dflt files os h n = (m, r) /\ documents_after f' sed dflt files os h n = Ok ts).
        { intros f' L'. destruct (X f' L') as (X1 & X2 & X3). unfold documents_after, sequential. rewrite F, X1. done. }
        destruct (Y fuel ltac:(lia)) as [-> ->]. destruct (Y (E + E1) ltac:(lia)) as [-> ->].
        split; [by apply (X E1 (le_n _))|]. split; [done|]. split; [by eexists|done].
      + destruct (IH fuel ltac:(lia) i ltac:(lia)) as (A & B & C & D). destruct (IH (E + E1) ltac:(lia) i ltac:(lia)) as (_ & B' & _ & D').
        rewrite B', D'. done.
    - exists E. intros fuel L i I. destruct (decide (i = n)) as [->|NE]; [|apply IH; lia].
      unfold documents_after, sequential. rewrite F. split; [done|]. split; [done|]. split; [by eexists|done]. }
  destruct (H (length files)) as [E HE]. exists E. intros fuel L i. destruct (decide (i < length files)) as [I|I]; [by apply HE|].
  assert (N : files !! i = None) by (apply lookup_ge_None_2; lia). unfold documents_after, sequential. rewrite N.
  split; [done|]. split; [done|]. split; [by eexists|done].
Qed.

(** Execute ends under every schedule: no execution is longer than a bound, and one that
    has not ended (Execute has returned, or a goroutine has panicked) can go on. *)
Theorem C79_every_schedule_ends sed dflt files os h : set_up files os h -> tidy files os h ->
  exists enough, forall fuel, enough <= fuel -> forall enc dk cfg w0, exists bound, forall n s,
    execution fuel sed dflt enc dk cfg files os h w0 n s ->
    n <= bound /\ (crashed s = true \/ (exists r, main s = MReturn r) \/ exists s', execution fuel sed dflt enc dk cfg files os h w0 (S n) s').
Proof.
  intros SU TI. destruct (C79_every_file_ends sed dflt files os h SU TI) as [E HE]. exists E. intros fuel L enc dk cfg w0.
  eexists. intros n s EX. split; [by apply (C43_bounded _ _ _ _ _ _ _ _ _ _ n s SU EX)|].
  destruct (crashed s) eqn:C; [by left|]. right.
  destruct (main s) as [k| |i sc| |r] eqn:M; [right|right|right|right|left; by exists r].
  all: apply (C43_never_stuck _ _ _ _ _ _ _ _ _ _ n s SU); try done; try (intros r; by rewrite M).
  all: intros i'; destruct (HE fuel L i') as (A & _ & [ts B] & _); rewrite ?B; done.
Qed.

(** A process whose input can be read and is tidy has an exit status. *)
Theorem C79_process_ends {F P : Type} (e : engine F P) builtin sprig sed compile to_int h0 z pfuel grow (s : surroundings) env cli config_at search cl number :
  boot e builtin sprig sed compile to_int h0 z pfuel grow s env cli config_at search cl <> Fuel ->
  (forall h1 v os files, boot e builtin sprig sed compile to_int h0 z pfuel grow s env cli config_at search cl = Ok (h1, v, os, files) ->
     set_up files os h1 /\ tidy files os h1) ->
  exists enough, forall fuel, enough <= fuel -> forall enc dk w0, exists st w,
    process e builtin sprig sed compile to_int h0 z fuel pfuel grow s env cli config_at search cl number enc dk w0 st w /\ st <= 2.
Proof.
  intros NF H.
  destruct (boot e builtin sprig sed compile to_int h0 z pfuel grow s env cli config_at search cl) as [[[[h1 v] os] files]|x| |] eqn:B.
  - destruct (H _ _ _ _ eq_refl) as [SU TI].
    destruct (C79_every_file_ends sed (missing_setting env cli config_at search) files os h1 SU TI) as [E HE]. exists E. intros fuel L enc dk w0.
    apply (C73_ends_with_a_status e builtin sprig sed compile to_int h0 z fuel pfuel grow s env cli config_at search cl number enc dk w0); [by rewrite B|].
    intros h2 v2 os2 files2 B2. rewrite B in B2. injection B2 as <- <- <- <-. split; [done|].
    intros i. destruct (HE fuel L i) as (A & _ & [ts X] & _). by rewrite X.
  - exists 0. intros fuel _ enc dk w0. exists 1, w0. split; [by eapply process_refused|lia].
  - exists 0. intros fuel _ enc dk w0. exists 2, w0. split; [by eapply process_panic|lia].
  - done.
Qed.

(** The assumption about values is needed: replacing by a value that contains itself
    (an alias inside the node it is the alias of:  value: &a [*a] ) never ends, whatever
    the budget (Go: stack overflow, which kills the process). *)
Theorem C79_refuted_self_containing_value fuel sed dflt o node h x rest :
  closed h -> o_docqueries o = [] -> o_action o = AReplace -> o_value o < length h -> contains_itself h (o_value o) ->
  node < length h -> ~ empty_document h node -> concat (map (fun q => q_find q h node) (o_queries o)) = x :: rest -> x < length h ->
  snd (apply fuel sed dflt o node h) = Fuel.
Proof.
  intros C DQ AC V CY N NE FO X. destruct (lookup_lt_is_Some_2 h node N) as [n En]. destruct (lookup_lt_is_Some_2 h x X) as [nx Ex].
  assert (FR : h_find (o_queries o) node h = (h, Ok (x :: rest))).
  { unfold h_find, bind, get. rewrite En. destruct (kind_eqb_spec (i_kind (n_info n)) KDocument) as [K|K]; cbn [andb].
    - destruct (n_content n) as [[|y l]|] eqn:EC; [exfalso; apply NE; exists n; eauto| |exfalso; apply NE; exists n; eauto].
      by rewrite FO.
    - by rewrite FO. }
  unfold apply. rewrite DQ. cbn [h_check_queries ret]. rewrite FR, AC.
  assert (Z : snd (h_do_action fuel sed AReplace (o_value o) node (x :: rest) h) = Fuel).
  { unfold h_do_action. cbn [loop h_act]. apply bind_fuel. unfold h_replace_node.
    assert (G : get x h = (h, Ok nx)) by (unfold get; by rewrite Ex). rewrite (bind_ok _ _ _ _ _ G).
    apply bind_fuel. destruct (copy_outcome h C fuel (o_value o) [] V) as [(e' & n' & _ & B)|Y]; [|by rewrite app_nil_r in Y].
    exfalso. by eapply cyclic_unbounded. }
  by destruct (h_do_action fuel sed AReplace (o_value o) node (x :: rest) h).
Qed.

(** *** Non-vacuity *)
Lemma value_reach d : forall ro h v t, value_at d ro h v t -> value_at d (reach h v) h v t.
Proof.
  assert (G : forall d ro h v t w, value_at d ro h v t -> reach h w v -> value_at d (reach h w) h v t); [|intros; eapply G; [done|constructor]].
  clear d. induction d as [|d IH]; intros ro h v t w V R; [done|]. destruct V as (_ & n & E & EI & A & C). split; [done|]. exists n. split; [done|]. split; [done|].
  split.
  - destruct (n_alias n) as [a|] eqn:EA; [|done]. destruct A as [t' A]. exists t'. eapply IH; [done|]. eapply reach_step; [done|done|by left].
  - destruct (n_content n) as [ls|] eqn:EC, (t_content t) as [ts|]; try done.
    assert (S : forall x, In x ls -> reach h w x) by (intros x X; eapply reach_step; [done|done|right; eauto]).
    clear -IH C S. induction C as [|x y ls ts H C IHc]; constructor.
    + eapply IH; [done|]. apply S. by left.
    + apply IHc. intros; apply S; by right.
Qed.
(** The two files of ExamplesPipeline.v; in the second one an element of the document is an
    alias of the sequence it is in:   a: &s [*s]  *)
Definition knot_heap : heap :=
  two_heap ++ [mkNode (mkInfo KAlias 0 [] (lit "s") [] [] [] [] 0 0) (Some (S (length two_heap))) None;
               mkNode (mkInfo KSequence 0 (lit "!!seq") [] (lit "s") [] [] [] 0 0) None (Some [length two_heap]);
               mkNode (mkInfo KScalar 0 (lit "!!str") (lit "a") [] [] [] [] 0 0) None None;
               mkNode (mkInfo KMapping 0 (lit "!!map") [] [] [] [] [] 0 0) None (Some [S (S (length two_heap)); S (length two_heap)]);
               mkNode (mkInfo KDocument 0 [] [] [] [] [] [] 0 0) None (Some [S (S (S (length two_heap)))])].
Definition knot_doc : loc := 4 + length two_heap.
Definition knot_file : yfile := mkFile [two_doc; knot_doc] [0; 3] [] (lit "b.yaml").
Definition knot_os : list overlay :=
  mkOverlay [q_root] ex_val AMerge [[mkCondition [q_name] ex_x]; [mkCondition [q_root] ex_zero]] MDefault None None :: tail two_os.
Definition knot_files : list yfile := [file_a; knot_file].
Lemma knot_low d x : d < length two_heap -> reach knot_heap d x -> x < length two_heap /\ reach two_heap d x.
Proof.
  intros D R. assert (CL : closed two_heap) by (apply closedb_sound; by vm_compute).
  induction R as [|y n z _ [L R] E P]; [split; [done|constructor]|]. unfold knot_heap in E. rewrite lookup_app_l in E by done.
  split; [by eapply CL|]. by eapply reach_step.
Qed.
Lemma knot_high x : reach knot_heap knot_doc x -> length two_heap <= x.
Proof.
  assert (B : length two_heap = ltac:(let v := eval vm_compute in (length two_heap) in exact v)) by reflexivity.
  induction 1 as [|y n z _ IH E P]; [unfold knot_doc; lia|]. unfold knot_heap in E. rewrite lookup_app_r in E by done.
  destruct (y - length two_heap) as [|[|[|[|[|k]]]]] eqn:Y; cbn in E; try discriminate; injection E as <-;
    (destruct P as [P|(ls & P & I)]; cbn [n_alias n_content] in P; [try discriminate P; injection P as <-; lia|try discriminate P; injection P as <-; cbn [In] in I; intuition lia]).
Qed.
Lemma knot_set_up : set_up knot_files knot_os knot_heap.
Proof.
  assert (Q : Forall good_queries knot_os).
  { unfold knot_os. constructor.
    - constructor; [constructor; [split; [apply dotted_ok|apply ProofExecuteProps.dotted_blind]|apply Forall_nil; exact I]|discriminate|].
      intros g c G C. cbn in G. destruct G as [<-|[<-|[]]]; destruct C as [<-|[]]; repeat constructor; apply ProofExecuteProps.dotted_blind.
    - pose proof two_good as X. unfold two_os in *. apply Forall_cons in X as [_ X]. exact X. }
  assert (SU : set_up [file_a; mkFile [two_doc] [0; 3] [] (lit "b.yaml")] knot_os two_heap) by (apply set_upb_sound; [by vm_compute|done]).
  set (file_b' := mkFile [two_doc] [0; 3] [] (lit "b.yaml")) in *.
  assert (DOC : forall i f d, knot_files !! i = Some f -> In d (yf_nodes f) ->
    (exists g, [file_a; file_b'] !! i = Some g /\ In d (yf_nodes g) /\ d < length two_heap) \/ (i = 1 /\ d = knot_doc)).
  { intros [|[|i]] f d F D; cbn in F; [injection F as <-; left; exists file_a|injection F as <-|discriminate].
    - split; [done|]. split; [done|]. eapply (su_docs _ _ _ SU); [by left|done].
    - destruct D as [<-|[<-|[]]]; [left|by right]. exists file_b'. split; [done|]. split; [by left|]. eapply (su_docs _ _ _ SU file_b'); [right; by left|by left]. }
  assert (VAL : forall o x, In o knot_os -> overlay_root o x -> x < length two_heap) by (intros; by eapply (su_values _ _ _ SU)).
  assert (IN : forall (l : list yfile) f, In f l -> exists i, l !! i = Some f) by (intros l f I; by apply elem_of_list_lookup, elem_of_list_In).
  constructor.
  - apply closedb_sound. by vm_compute.
  - intros f d F D. apply IN in F as [i F]. destruct (DOC i f d F D) as [(g & _ & _ & L)|[_ ->]]; unfold knot_heap; rewrite app_length; [lia|unfold knot_doc; cbn; lia].
  - intros o x O R. apply VAL in R; [|done]. unfold knot_heap. rewrite app_length. lia.
  - done.
  - intros f k F K. assert (X : In f knot_files) by done. cbn in F. destruct F as [<-|[<-|[]]].
    + apply (su_overlays _ _ _ SU file_a k); [by left|done].
    + apply (su_overlays _ _ _ SU file_b' k); [right; by left|done].
  - intros i j f g d e x F G NE D E RD RE. destruct (DOC i f d F D) as [(f' & F' & D' & L)|[-> ->]], (DOC j g e G E) as [(g' & G' & E' & L')|[-> ->]].
    + apply knot_low in RD as [_ RD]; [|done]. apply knot_low in RE as [_ RE]; [|done].
      by apply (su_apart _ _ _ SU i j f' g' d e x).
    + apply knot_low in RD as [RD _]; [|done]. apply knot_high in RE. lia.
    + apply knot_low in RE as [RE _]; [|done]. apply knot_high in RD. lia.
    + done.
  - intros f d o v x F D O V RD RV. apply knot_low in RV as [LV RV]; [|by eapply VAL]. apply IN in F as [i F].
    destruct (DOC i f d F D) as [(f' & F' & D' & L)|[_ ->]].
    + apply knot_low in RD as [_ RD]; [|done]. eapply (su_values_apart _ _ _ SU f' d o v x); try done. apply elem_of_list_In. by eapply elem_of_list_lookup_2.
    + apply knot_high in RD. lia.
Qed.
Lemma knot_docs f docs : mapM (lread 20 knot_heap) (yf_nodes f) = Some docs -> bool_decide (NoDup (flat docs)) = true ->
  forallb (fun d => everywhereb node_pairedb (erase d) && everywhereb node_branchingb (erase d)) docs = true -> tidy_file knot_heap f.
Proof.
  intros E N P. exists docs. apply mapM_Some in E. split; [|split; [split|]].
  - clear -E. induction E as [|x y l k H _ IH]; [done|]. cbn. f_equal; [by apply lread_label in H|done].
  - clear -E. induction E as [|x y l k H _ IH]; constructor; [by eapply lread_reads|done].
  - by apply bool_decide_eq_true in N.
  - rewrite forallb_forall in P. rewrite Forall_forall. intros d D. apply elem_of_list_In, P, andb_true_iff in D as [A B].
    split; [by apply well_paired_ex|by apply branching_ex].
Qed.
Lemma knot_value v t : vread 20 (fun _ => true) knot_heap v = Some t -> everywhereb node_pairedb t = true -> everywhereb node_branchingb t = true ->
  exists d t, value_at d (reach knot_heap v) knot_heap v t /\ well_paired t /\ branching t.
Proof.
  intros V A B. exists 20, t. split; [eapply value_reach; by apply vread_value|]. split; [by apply well_paired_ex|by apply branching_ex].
Qed.
Example C79_applies : set_up knot_files knot_os knot_heap /\ tidy knot_files knot_os knot_heap /\ contains_itself knot_heap knot_doc /\
  snd (sequential 20 no_sed [] knot_files knot_os knot_heap 0) = Ok tt /\ snd (sequential 20 no_sed [] knot_files knot_os knot_heap 1) = Err ECombineOnlyScalars.
Proof.
  split; [apply knot_set_up|]. split; [|split; [|by vm_compute]].
  - split.
    + constructor; [|constructor; [|constructor]].
      * eapply knot_docs; [by vm_compute|by vm_compute|by vm_compute].
      * eapply knot_docs; [by vm_compute|by vm_compute|by vm_compute].
    + assert (VX : forall v, v = ex_val \/ v = ex_x -> exists d t, value_at d (reach knot_heap v) knot_heap v t /\ well_paired t /\ branching t).
      { intros v [->| ->]; (eapply knot_value; [by vm_compute|by vm_compute|by vm_compute]). }
      constructor; [|repeat constructor; try (intros ip; discriminate); try (by intros g c []); try apply dotted_inside; apply VX; auto].
      constructor; [repeat constructor; apply dotted_inside|discriminate|apply VX; auto|].
      intros g c G C. cbn in G. exists 20. destruct G as [<-|[<-|[]]]; destruct C as [<-|[]]; cbn [c_value].
      * eapply value_bounded, (vread_value 20 (fun _ => true)). by vm_compute.
      * eapply value_bounded, (vread_value 20 (fun _ => true)). by vm_compute.
  - assert (R : forall a b n, knot_heap !! a = Some n -> points_to n b -> reach knot_heap a b) by (intros; eapply reach_step; [constructor|done|done]).
    set (b := length two_heap). exists (S b), b, (mkNode (mkInfo KSequence 0 (lit "!!seq") [] (lit "s") [] [] [] 0 0) None (Some [b])).
    split; [|split; [reflexivity|split; [right; eexists; split; [reflexivity|by left]|]]].
    + eapply reach_step; [eapply reach_step; [constructor|reflexivity|right; eexists; split; [reflexivity|by left]]|reflexivity|].
      right. eexists. split; [reflexivity|]. right. by left.
    + eapply R; [reflexivity|]. by left.
Qed.
(** The same sequence as the value of an overlay. *)
Example C79_applies_refuted :
  let o := mkOverlay [q_name] (1 + length two_heap) AReplace [] MDefault None None in
  closed knot_heap /\ contains_itself knot_heap (o_value o) /\ ~ empty_document knot_heap ex_doc /\
  concat (map (fun q => q_find q knot_heap ex_doc) (o_queries o)) <> [] /\
  forall fuel, snd (apply fuel no_sed [] o ex_doc knot_heap) = Fuel.
Proof.
  cbn zeta. assert (CL : closed knot_heap) by (apply closedb_sound; by vm_compute).
  assert (CI : contains_itself knot_heap (1 + length two_heap)).
  { set (b := length two_heap). exists (S b), b, (mkNode (mkInfo KSequence 0 (lit "!!seq") [] (lit "s") [] [] [] 0 0) None (Some [b])).
    split; [constructor|]. split; [reflexivity|]. split; [right; eexists; split; [reflexivity|by left]|].
    eapply reach_step; [constructor|reflexivity|by left]. }
  assert (NE : ~ empty_document knot_heap ex_doc).
  { intros (n & E & K & D). vm_compute in E. injection E as <-. cbn in D. by destruct D. }
  split; [done|]. split; [done|]. split; [done|]. split; [by vm_compute|]. intros fuel.
  eapply C79_refuted_self_containing_value; try done; by vm_compute; lia.
Qed.

Print Assumptions C79_every_file_ends.
Print Assumptions C79_every_schedule_ends.
Print Assumptions C79_process_ends.
Print Assumptions C79_refuted_self_containing_value.

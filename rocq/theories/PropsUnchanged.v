(** C92: what no overlay applies to passes through unchanged. *)
From Verif Require Import Prelude GoStrings Format Yaml Heap Overlay SpecMerge SpecHeap SpecReach SpecSame Queue Paths Files SpecFiles Slices Prepare SpecPrepare
  Render SpecRender SpecOutcome Pipeline Execute SpecExecute PropsDocs Decode SpecDecode Flags Template Whole SpecWhole PropsWhole SpecMeaning PropsMeaning SpecRead PropsRead SpecTwoRuns PropsTwoRuns.

Section theorems.
Context (sed : sed_engine) (dflt : list N) (enc : nat -> tree -> option (list N)).
Local Notation succeeds := (succeeds sed dflt enc).
Local Notation asked := (asked sed).
Local Notation idle := (idle dflt).
Local Notation left_alone := (left_alone dflt).

Lemma idle_apply t o : idle t o -> t_apply sed dflt o t = Ok t.
Proof. intros [Q|[F I]]; unfold t_apply; [by rewrite Q|]. destruct (tqualifies _ _); [|done]. by rewrite F, I. Qed.
Lemma idle_plainly t o : idle t o -> plainly o t.
Proof. intros [Q|[F _]] Q'; [congruence|]. rewrite F. by destruct (to_action o). Qed.
Lemma idle_all t os : Forall (idle t) os -> t_apply_each sed dflt os t = Ok t /\ all_plainly sed dflt os t.
Proof.
  induction 1 as [|o os I _ [IH1 IH2]]; [done|]. cbn [t_apply_each all_plainly]. rewrite (idle_apply t o I). split; [exact IH1|].
  split; [by apply idle_plainly|]. by intros t' [= <-].
Qed.

(** C92.  After a run that succeeds, a document for which every overlay in force is idle is
    written as it was read (without comments if --remove-comments is given), whatever
    happens to the other documents of its input, and to other inputs. *)
Theorem C92_idle_overlays_change_nothing c w : succeeds c w -> exists common y adhoc, asked c common y adhoc /\
  (let all := all_inputs (c_world c) (c_cl c) y in
   exists text, texts_written all text (oc_stdout (c_cfg c)) (oc_dir (c_cfg c)) (c_before c) w /\
     forall p, In p (map e_path all) -> exists ts, document_count c p (length ts) /\
       encode_nodes enc (oc_styles (c_cfg c)) ts = Ok (text p) /\
       forall j t, left_alone c common y adhoc p j t -> ts !! j = Some t).
Proof.
  intros S. destruct (run_texts sed dflt enc c w S) as (common & y & adhoc & A & text & W & T). exists common, y, adhoc. split; [exact A|].
  cbv zeta. exists text. split; [exact W|]. intros p P. destruct (T p P) as (ds & us & D & L & EN & ME).
  exists us. split; [by exists ds|]. split; [exact EN|]. intros j t (ds' & doc & depth & ro & ots & D' & DJ & E & SI & ID).
  rewrite D in D'. injection D' as <-. destruct (idle_all t ots ID) as [AE PL].
  assert (j < length us) as HL by (rewrite L; by eapply lookup_lt_Some). destruct (lookup_lt_is_Some_2 us j HL) as [u U].
  assert (HD : has_document sed dflt c common y adhoc p j t ots) by (exists ds, doc, depth, ro; split_and!; done).
  pose proof (ME j t u ots HD U). congruence.
Qed.

(** In particular, if no overlay has anything to do in an input, its text is the encoding of
    its documents as they were read. *)
Theorem C92_idle_inputs_pass_through c w : succeeds c w -> exists common y adhoc, asked c common y adhoc /\
  (let all := all_inputs (c_world c) (c_cl c) y in
   exists text, texts_written all text (oc_stdout (c_cfg c)) (oc_dir (c_cfg c)) (c_before c) w /\
     forall p ts, In p (map e_path all) -> document_count c p (length ts) ->
       (forall j t, ts !! j = Some t -> left_alone c common y adhoc p j t) ->
       encode_nodes enc (oc_styles (c_cfg c)) ts = Ok (text p)).
Proof.
  intros S. destruct (C92_idle_overlays_change_nothing c w S) as (common & y & adhoc & A & text & W & T). exists common, y, adhoc. split; [exact A|].
  cbv zeta. exists text. split; [exact W|]. intros p ts P (ds & D & L) H. destruct (T p P) as (us & (ds' & D' & L') & EN & ME).
  rewrite D in D'. injection D' as <-. assert (ts = us) as ->; [|exact EN].
  apply list_eq_same_length with (length ts); [congruence|done|]. intros j t u J HT HU. pose proof (ME j t (H j t HT)). congruence.
Qed.

(** An overlay with nothing to do is as good as absent: the others make of the document what
    they make of it without it. *)
Theorem C92_idle_overlay_may_be_left_out before o after t t' : t_apply_each sed dflt before t = Ok t' -> idle t' o ->
  t_apply_each sed dflt (before ++ o :: after) t = t_apply_each sed dflt (before ++ after) t.
Proof.
  revert t. induction before as [|b before IH]; intros t E I; cbn [app t_apply_each] in *; [injection E as ->; by rewrite (idle_apply t' o I)|].
  destruct (t_apply sed dflt b t) as [u| | |]; cbn [rbind] in *; [|done..]. by apply IH.
Qed.
End theorems.

(** *** The run of PropsRead.v, whose three queries now ask for what no document has. *)
From Verif Require Import Fine Overlay Examples ExamplesHeap ExamplesPipeline SpecRender SpecQuery ActionNames Finder ProofFinder Deciders Witness ProofMeaningKeys PropsDelete PropsReplace ProofExecuteProps.
Definition u_compile (s : list N) : option (heap -> loc -> list loc) :=
  match w_compile s with Some _ => Some (q_find (Finder.dotted s [lit "absent"])) | None => None end.
Definition u_c : circumstances :=
  mkCircumstances unit unit w_engine (fun _ => None) (fun _ => None) u_compile w_to_int w_heap ex_zero r_s w_cl 10 go_grow 20 ex_disk ex_cfg (mkWorld [] []).
Definition u_ready := get_ready w_engine (fun _ => None) (fun _ => None) no_sed u_compile w_to_int w_heap ex_zero 10 go_grow r_s w_cl.
Definition u_os : list overlay := match u_ready with (_, Ok (os, _)) => os | _ => [] end.
Definition u_ots : list toverlay :=
  [ mkTOverlay [key_query (lit "$") [lit "absent"]] (mp [sc "k"; sc "v"]) AInvalid [] MDefault None;
    mkTOverlay [key_query (lit "$.metadata.name") [lit "absent"]] (sc "x") AReplace [] MDefault None;
    mkTOverlay [key_query (lit "$.metadata") [lit "absent"]] (T (mkInfo KZero 0 [] [] [] [] [] [] 0 0) None) ADelete [] MDefault None ].
Definition u_h1 : heap := fst u_ready.
Definition u_files : list yfile := match u_ready with (_, Ok (_, R)) => map to_file R | _ => [] end.
Definition every_move : list move := [Worker 0 false; Worker 1 false; Producer 0; Producer 1; Closer; Main].
Fixpoint greedy (n : nat) s : list move :=
  match n with O => [] | Datatypes.S n =>
    (fix go ms := match ms with
      | [] => []
      | m :: r => match play (begin 20 no_sed []) tick (scan 20 u_files) peek (emit show ex_disk ex_cfg u_files) (map (file_work u_os) u_files) m s with
                  | Some s' => m :: greedy n s' | None => go r end end) every_move end.
Definition u_schedule : list move := Eval vm_compute in greedy 200 (start (map (file_work u_os) u_files) (u_h1, u_os) (mkWorld [] [])).
Lemma u_finds : finds_reachable u_compile.
Proof.
  intros t f. unfold u_compile. destruct (w_compile t); [|done]. intros [= <-]. change (good_finder (dotted t [lit "absent"])). apply ProofExecuteProps.dotted_good.
Qed.
Lemma u_is_ready : exists R, get_ready w_engine (fun _ => None) (fun _ => None) no_sed u_compile w_to_int w_heap ex_zero 10 go_grow r_s w_cl = (u_h1, Ok (u_os, R)) /\ map to_file R = u_files.
Proof.
  change (get_ready _ _ _ _ _ _ _ _ _ _ _ _) with u_ready. unfold u_h1, u_os, u_files.
  assert (X : match snd u_ready with Ok _ => true | _ => false end = true) by (vm_compute; reflexivity). revert X. generalize u_ready. intros [h [[os R]| | |]] X; [|discriminate X..].
  exists R. split; reflexivity.
Qed.
Example C92_applies : exists w common y t,
  succeeds no_sed [] show u_c w /\ match encode_nodes show [] [t] with Ok text => file_content w (lit "out/a.yaml") = Some text | _ => False end /\
  asked no_sed u_c common y None /\ In (lit "/w/a.yaml") (map e_path (all_inputs r_s w_cl y)) /\ document_count u_c (lit "/w/a.yaml") 1 /\
  length (overlays_for (room_left go_grow common None) common None (all_inputs r_s w_cl y) (lit "/w/a.yaml") 0) = 3 /\
  left_alone [] u_c common y None (lit "/w/a.yaml") 0 t /\ (t_content t <> None /\ t = as_processed w_cl (erase w_tree)).
Proof.
  destruct u_is_ready as (R & HR & HF).
  assert (X : exists st, plays (begin 20 no_sed []) tick (scan 20 u_files) peek (emit show ex_disk ex_cfg u_files) (map (file_work u_os) u_files) u_schedule
      (start (map (file_work u_os) u_files) (u_h1, u_os) (mkWorld [] [])) = Some st /\ crashed st = false /\ main st = MReturn None /\
      match encode_nodes show [] [as_processed w_cl (erase w_tree)] with Ok text => file_content (outside st) (lit "out/a.yaml") = Some text | _ => False end).
  { destruct (plays _ _ _ _ _ _ _ _) as [st|] eqn:EP; [|by vm_compute in EP]. exists st. split; [done|]. vm_compute in EP. injection EP as <-. vm_compute. split_and!; reflexivity. }
  destruct X as (st & EP & C & M & FC). apply plays_steps in EP as [n EX].
  assert (S : succeeds no_sed [] show u_c (outside st)).
  { split; [exact r_fresh|]. split; [exact u_finds|]. split; [exact r_paths|]. exists u_h1, u_os, R, n, st. split; [exact HR|].
    split; [change (c_before u_c) with (mkWorld [] []); rewrite HF; exact EX|]. split; [exact C|]. split; [exact M|reflexivity]. }
  destruct (read_instructions_file w_engine (fun _ => None) (fun _ => None) no_sed u_compile w_to_int w_heap r_s w_cl) as [i| | |] eqn:EI; [|by vm_compute in EI..].
  pose proof (instructions_read _ _ _ _ _ _ _ _ _ _ EI) as HI.
  destruct (plain_instructions ex_zero i) as [[common y]|] eqn:EY; [|vm_compute in EI; injection EI as <-; by vm_compute in EY].
  exists (outside st), common, y, (as_processed w_cl (erase w_tree)). split; [exact S|]. split; [exact FC|].
  split; [exists i; split; [exact HI|split; [by apply plain_stands_for|reflexivity]]|].
  split. { vm_compute in EI. injection EI as <-. vm_compute in EY. injection EY as <- <-. left. by vm_compute. }
  split. { exists [ex_doc]. split; by vm_compute. }
  assert (K : forall q text, q_text q = text -> q_find q = q_find (Finder.dotted text [lit "absent"]) -> computes q (key_query text [lit "absent"])).
  { intros q text E1 E2. destruct (dotted_computes text [lit "absent"]) as [_ X]. split; [done|]. by rewrite E2. }
  assert (MO : exists q1 q2 q3 v1 v2 v3, overlays_for (room_left go_grow common None) common None (all_inputs r_s w_cl y) (lit "/w/a.yaml") 0 =
    [mkOverlay [q1] v1 AInvalid [] MDefault None None; mkOverlay [q2] v2 AReplace [] MDefault None None; mkOverlay [q3] v3 ADelete [] MDefault None None] /\
    (q_text q1 = lit "$" /\ q_find q1 = q_find (Finder.dotted (lit "$") [lit "absent"])) /\
    (q_text q2 = lit "$.metadata.name" /\ q_find q2 = q_find (Finder.dotted (lit "$.metadata.name") [lit "absent"])) /\
    (q_text q3 = lit "$.metadata" /\ q_find q3 = q_find (Finder.dotted (lit "$.metadata") [lit "absent"])) /\
    vread 20 w_ro w_heap v1 = Some (mp [sc "k"; sc "v"]) /\ vread 20 w_ro w_heap v2 = Some (sc "x") /\
    vread 20 w_ro w_heap v3 = Some (T (mkInfo KZero 0 [] [] [] [] [] [] 0 0) None)).
  { vm_compute in EI. injection EI as <-. vm_compute in EY. injection EY as <- <-. do 6 eexists. split; [vm_compute; reflexivity|].
    split; [split; reflexivity|]. split; [split; reflexivity|]. split; [split; reflexivity|]. split; [|split]; vm_compute; reflexivity. }
  destruct MO as (q1 & q2 & q3 & v1 & v2 & v3 & MO & [T1 F1] & [T2 F2] & [T3 F3] & V1 & V2 & V3).
  split; [by rewrite MO|]. split; [|split; vm_compute; [discriminate|reflexivity]].
  exists [ex_doc], w_tree, 20, (fun x => w_ro x = true), u_ots. split; [by vm_compute|]. split; [by vm_compute|]. split; [done|].
  change (c_grow u_c) with go_grow. change (c_world u_c) with r_s. change (c_cl u_c) with w_cl. change (c_heap u_c) with w_heap. rewrite MO. split.
  - constructor.
    + split; [apply (lread_own 20 _ _ _ w_tree_read), (bool_decide_unpack _); vm_compute; exact I|].
      split; [apply well_paired_ex|apply branching_ex]; vm_compute; reflexivity.
    + apply apart_between; [done|]. apply between_all. vm_compute. reflexivity.
    + apply Forall2_cons. split; [|apply Forall2_cons; split; [|apply Forall2_cons; split; [|constructor]]].
      * split; [repeat constructor; by apply K|]. split; [by apply vread_value|]. split; [reflexivity|]. split; [constructor|]. split; [reflexivity|exact I].
      * split; [repeat constructor; by apply K|]. split; [by apply vread_value|]. split; [reflexivity|]. split; [constructor|]. split; [reflexivity|exact I].
      * split; [repeat constructor; by apply K|]. split; [by apply vread_value|]. split; [reflexivity|]. split; [constructor|]. split; [reflexivity|exact I].
    + repeat (apply Forall_cons; split); try apply Forall_nil; try exact I; (split; [apply well_paired_ex|apply branching_ex]); vm_compute; reflexivity.
    + left. repeat constructor.
  - repeat (apply Forall_cons; split); try apply Forall_nil; try exact I; right; split; vm_compute; reflexivity.
Qed.

Print Assumptions C92_idle_overlays_change_nothing.
Print Assumptions C92_idle_inputs_pass_through.
Print Assumptions C92_idle_overlay_may_be_left_out.

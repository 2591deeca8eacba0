(** C89: the text written for an input depends on its documents and on the overlays meant for
    it, and on nothing else. *)
From Verif Require Import Prelude GoStrings Format Yaml Heap Overlay SpecMerge SpecHeap SpecReach SpecSame Queue Paths Files SpecFiles Slices Prepare SpecPrepare
  Render SpecRender SpecOutcome Pipeline Execute SpecExecute PropsDocs Decode SpecDecode Flags Template Whole SpecWhole PropsWhole SpecMeaning PropsMeaning SpecRead PropsRead SpecTwoRuns.

Section theorems.
Context (sed : sed_engine) (dflt : list N) (enc : nat -> tree -> option (list N)).
Local Notation succeeds := (succeeds sed dflt enc).
Local Notation asked := (asked sed).
Local Notation has_document := (has_document sed dflt).

(** The texts of a run, and what they are the texts of. *)
Lemma run_texts c w : succeeds c w -> exists common y adhoc, asked c common y adhoc /\
  (exists text,
    texts_written (all_inputs (c_world c) (c_cl c) y) text (oc_stdout (c_cfg c)) (oc_dir (c_cfg c)) (c_before c) w /\
    forall p, In p (map e_path (all_inputs (c_world c) (c_cl c) y)) -> exists ds ts, documents (c_world c) p = Some ds /\ length ts = length ds /\
      encode_nodes enc (oc_styles (c_cfg c)) ts = Ok (text p) /\
      forall j t u ots, has_document c common y adhoc p j t ots -> ts !! j = Some u -> t_apply_each sed dflt ots t = Ok u).
Proof.
  intros (FN & FR & PU & h1 & os & R & n & st & G & E & C & M & <-).
  destruct (C87_files_hold_the_meaning (c_engine c) (c_builtin c) (c_sprig c) sed (c_compile c) (c_to_int c) (c_heap c) (c_zero c) (c_world c) (c_fuel c) dflt enc (c_disk c) (c_cfg c)
    (c_before c) (c_pfuel c) (c_grow c) (c_cl c) h1 os R n st FN FR PU G E C M) as (i & common & y & adhoc & HI & HS & HF & X).
  exists common, y, adhoc. split; [by exists i|]. destruct X as (text & T & W). exists text. split; [exact W|].
  intros p Hp. destruct (T p Hp) as (ds & ts & D & L & ME & EN). exists ds, ts. split; [exact D|]. split; [exact L|]. split; [exact EN|].
  intros j t u ots (ds' & doc & depth & ro & D' & J & -> & SI & PL) U. rewrite D in D'. injection D' as <-. exact (ME j doc u depth ro ots J U SI PL).
Qed.

(** C89.  Two successful runs, different in whatever may differ.  If an input of the first has
    as many documents as an input of the second, and the overlays meant for them make the
    same trees of them, then the two have the same text. *)
Theorem C89_same_trees_same_text c1 c2 w1 w2 : succeeds c1 w1 -> succeeds c2 w2 -> oc_styles (c_cfg c1) = oc_styles (c_cfg c2) ->
  exists common1 y1 adhoc1 common2 y2 adhoc2, asked c1 common1 y1 adhoc1 /\ asked c2 common2 y2 adhoc2 /\
  (let all1 := all_inputs (c_world c1) (c_cl c1) y1 in let all2 := all_inputs (c_world c2) (c_cl c2) y2 in
   exists text1 text2,
     texts_written all1 text1 (oc_stdout (c_cfg c1)) (oc_dir (c_cfg c1)) (c_before c1) w1 /\
     texts_written all2 text2 (oc_stdout (c_cfg c2)) (oc_dir (c_cfg c2)) (c_before c2) w2 /\
     forall p1 p2 n, In p1 (map e_path all1) -> In p2 (map e_path all2) -> document_count c1 p1 n -> document_count c2 p2 n ->
       (forall j, j < n -> exists t1 ots1 t2 ots2, has_document c1 common1 y1 adhoc1 p1 j t1 ots1 /\ has_document c2 common2 y2 adhoc2 p2 j t2 ots2 /\
          t_apply_each sed dflt ots1 t1 = t_apply_each sed dflt ots2 t2) ->
       text1 p1 = text2 p2).
Proof.
  intros S1 S2 ST. destruct (run_texts c1 w1 S1) as (co1 & y1 & a1 & A1 & X1). destruct (run_texts c2 w2 S2) as (co2 & y2 & a2 & A2 & X2).
  exists co1, y1, a1, co2, y2, a2. split; [done|]. split; [done|]. intros all1 all2. destruct X1 as (text1 & W1 & T1). destruct X2 as (text2 & W2 & T2).
  exists text1, text2. split; [done|]. split; [done|]. intros p1 p2 n I1 I2 (ds1 & D1 & L1) (ds2 & D2 & L2) H.
  destruct (T1 p1 I1) as (ds1' & ts1 & D1' & L1' & E1 & M1). destruct (T2 p2 I2) as (ds2' & ts2 & D2' & L2' & E2 & M2).
  rewrite D1 in D1'. injection D1' as <-. rewrite D2 in D2'. injection D2' as <-.
  assert (ts1 = ts2) as ->.
  { apply list_eq_same_length with n; [congruence|congruence|]. intros j u1 u2 J U1 U2. destruct (H j J) as (t1 & ots1 & t2 & ots2 & H1 & H2 & E).
    pose proof (M1 _ _ _ _ H1 U1). pose proof (M2 _ _ _ _ H2 U2). congruence. }
  rewrite ST, E2 in E1. by injection E1.
Qed.

(** In particular the text is the same if the documents are and the overlays mean the same:
    neither other inputs nor other overlays, neither the memory nor the schedule matter. *)
Theorem C89_result_is_local c1 c2 w1 w2 : succeeds c1 w1 -> succeeds c2 w2 -> oc_styles (c_cfg c1) = oc_styles (c_cfg c2) ->
  exists common1 y1 adhoc1 common2 y2 adhoc2, asked c1 common1 y1 adhoc1 /\ asked c2 common2 y2 adhoc2 /\
  (let all1 := all_inputs (c_world c1) (c_cl c1) y1 in let all2 := all_inputs (c_world c2) (c_cl c2) y2 in
   exists text1 text2,
     texts_written all1 text1 (oc_stdout (c_cfg c1)) (oc_dir (c_cfg c1)) (c_before c1) w1 /\
     texts_written all2 text2 (oc_stdout (c_cfg c2)) (oc_dir (c_cfg c2)) (c_before c2) w2 /\
     forall p1 p2 n, In p1 (map e_path all1) -> In p2 (map e_path all2) -> document_count c1 p1 n -> document_count c2 p2 n ->
       (forall j, j < n -> exists t ots, has_document c1 common1 y1 adhoc1 p1 j t ots /\ has_document c2 common2 y2 adhoc2 p2 j t ots) ->
       text1 p1 = text2 p2).
Proof.
  intros S1 S2 ST. destruct (C89_same_trees_same_text c1 c2 w1 w2 S1 S2 ST) as (co1 & y1 & a1 & co2 & y2 & a2 & A1 & A2 & X).
  exists co1, y1, a1, co2, y2, a2. split; [done|]. split; [done|]. intros all1 all2. destruct X as (text1 & text2 & W1 & W2 & T).
  exists text1, text2. split; [done|]. split; [done|]. intros p1 p2 n I1 I2 C1 C2 H. apply (T p1 p2 n I1 I2 C1 C2). intros j J.
  destruct (H j J) as (t & ots & H1 & H2). by exists t, ots, t, ots.
Qed.

(** Running again on what the first run made: the same text, if applying the overlays again
    changes nothing (C72 says when). *)
Theorem C89_running_again c1 c2 w1 w2 : succeeds c1 w1 -> succeeds c2 w2 -> oc_styles (c_cfg c1) = oc_styles (c_cfg c2) ->
  exists common1 y1 adhoc1 common2 y2 adhoc2, asked c1 common1 y1 adhoc1 /\ asked c2 common2 y2 adhoc2 /\
  (let all1 := all_inputs (c_world c1) (c_cl c1) y1 in let all2 := all_inputs (c_world c2) (c_cl c2) y2 in
   exists text1 text2,
     texts_written all1 text1 (oc_stdout (c_cfg c1)) (oc_dir (c_cfg c1)) (c_before c1) w1 /\
     texts_written all2 text2 (oc_stdout (c_cfg c2)) (oc_dir (c_cfg c2)) (c_before c2) w2 /\
     forall p1 p2 n, In p1 (map e_path all1) -> In p2 (map e_path all2) -> document_count c1 p1 n -> document_count c2 p2 n ->
       (forall j, j < n -> exists t ots made, has_document c1 common1 y1 adhoc1 p1 j t ots /\ t_apply_each sed dflt ots t = Ok made /\
          has_document c2 common2 y2 adhoc2 p2 j made ots /\ t_apply_each sed dflt (ots ++ ots) t = Ok made) ->
       text1 p1 = text2 p2).
Proof.
  intros S1 S2 ST. destruct (C89_same_trees_same_text c1 c2 w1 w2 S1 S2 ST) as (co1 & y1 & a1 & co2 & y2 & a2 & A1 & A2 & X).
  exists co1, y1, a1, co2, y2, a2. split; [done|]. split; [done|]. intros all1 all2. destruct X as (text1 & text2 & W1 & W2 & T).
  exists text1, text2. split; [done|]. split; [done|]. intros p1 p2 n I1 I2 C1 C2 H. apply (T p1 p2 n I1 I2 C1 C2). intros j J.
  destruct (H j J) as (t & ots & made & H1 & E & H2 & E2). exists t, ots, made, ots. split; [done|]. split; [done|]. rewrite E. symmetry.
  assert (AP : forall a b u, t_apply_each sed dflt (a ++ b) u = rbind (t_apply_each sed dflt a u) (t_apply_each sed dflt b)).
  { clear. induction a as [|o a IH]; intros b u; [done|]. cbn [app t_apply_each]. destruct (t_apply sed dflt o u); try done. apply IH. }
  rewrite AP, E in E2. done.
Qed.
End theorems.

(** *** Two runs of the example of PropsRead.v, with different schedules and leftovers. *)
From Verif Require Import Fine Overlay Examples ExamplesHeap ExamplesPipeline SpecRender.
Definition two_c (before : world) : circumstances :=
  mkCircumstances unit unit w_engine (fun _ => None) (fun _ => None) w_compile w_to_int w_heap ex_zero r_s w_cl 10 go_grow 20 ex_disk ex_cfg before.
Lemma two_ready : get_ready w_engine (fun _ => None) (fun _ => None) no_sed w_compile w_to_int w_heap ex_zero 10 go_grow r_s w_cl = w_ready.
Proof. vm_compute. reflexivity. Qed.
Lemma two_runs schedule before : In schedule [schedule_ab; schedule_ba] -> before = mkWorld [] [] \/ before = mkWorld [] [(lit "out/a.yaml", lit "old")] ->
  exists w, succeeds no_sed [] show (two_c before) w /\ file_content w (lit "out/a.yaml") <> None.
Proof.
  intros HS HB. destruct C67_applies as (R & _ & _ & HR & _ & _ & SU & _).
  assert (HF : map to_file R = [mkFile [ex_doc] [0; 1] [mkDocument 0 [2]] (lit "a.yaml"); mkFile [two_doc] [0] [] (lit "b.yaml")]).
  { assert (X : snd w_ready = Ok (w_os, R)) by (by rewrite HR). vm_compute in X. injection X as <-. by vm_compute. }
  assert (X : exists st, plays (begin 20 no_sed []) tick (scan 20 (map to_file R)) peek (emit show ex_disk ex_cfg (map to_file R)) (map (file_work w_os) (map to_file R)) schedule
      (start (map (file_work w_os) (map to_file R)) (w_h1, w_os) before) = Some st /\ crashed st = false /\ main st = MReturn None /\ file_content (outside st) (lit "out/a.yaml") <> None).
  { rewrite HF. destruct HS as [<-|[<-|[]]]; destruct HB as [->| ->];
      (destruct (plays _ _ _ _ _ _ _ _) as [st|] eqn:EP; [|by vm_compute in EP]; exists st; split; [done|]; vm_compute in EP; injection EP as <-; vm_compute; split_and!; done). }
  destruct X as (st & EP & C & M & FC). apply plays_steps in EP as [n EX].
  exists (outside st). split; [|done]. split; [exact r_fresh|]. split; [apply r_finds|]. split; [exact r_paths|].
  exists w_h1, w_os, R, n, st. split; [exact (eq_trans two_ready HR)|]. split; [exact EX|]. split; [exact C|]. split; [exact M|reflexivity].
Qed.

Example C89_applies : exists w1 w2 common y t,
  succeeds no_sed [] show (two_c (mkWorld [] [])) w1 /\ succeeds no_sed [] show (two_c (mkWorld [] [(lit "out/a.yaml", lit "old")])) w2 /\
  file_content w1 (lit "out/a.yaml") <> None /\
  (forall b, asked no_sed (two_c b) common y None /\
     In (lit "/w/a.yaml") (map e_path (all_inputs r_s w_cl y)) /\ document_count (two_c b) (lit "/w/a.yaml") 1 /\
     has_document no_sed [] (two_c b) common y None (lit "/w/a.yaml") 0 t w_ots).
Proof.
  destruct (two_runs schedule_ab (mkWorld [] [])) as (w1 & S1 & F1); [by left|by left|].
  destruct (two_runs schedule_ba (mkWorld [] [(lit "out/a.yaml", lit "old")])) as (w2 & S2 & F2); [by right; left|by right|].
  destruct C70_applies as (i & common & y & HI & HS & HD & IN & SI & PL & _).
  exists w1, w2, common, y, (as_processed w_cl (erase w_tree)). split; [done|]. split; [done|]. split; [done|]. intros b. split_and!.
  - exists i. split; [|split; [exact HS|done]]. unfold instructions_are in *. cbn [two_c c_cl w_cl cl_instructions lit] in *.
    destruct HI as (text & d & c & T & P & H & M). exists text, d, c. split; [exact T|]. split; [exact P|]. by split.
  - exact IN.
  - exists [ex_doc]. split; by vm_compute.
  - exists [label w_tree], w_tree, 20, (fun x => w_ro x = true). split; [by vm_compute|]. split; [done|]. split; [done|]. split; [|exact PL].
    change (c_grow (two_c b)) with go_grow. change (c_world (two_c b)) with r_s. change (c_cl (two_c b)) with w_cl. change (c_heap (two_c b)) with w_heap.
    change (all_inputs r_s w_cl y) with (all_inputs w_s w_cl y). exact SI.
Qed.

Print Assumptions C89_same_trees_same_text.
Print Assumptions C89_result_is_local.
Print Assumptions C89_running_again.

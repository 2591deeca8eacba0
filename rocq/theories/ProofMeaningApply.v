(** Applying whole overlays amounts to the tree function of SpecMeaning.v. *)
From stdpp Require Import sets.
From Verif Require Import Prelude GoStrings Format Yaml Heap MergeTree Combine HeapActions SpecMerge SpecHeap
  ProofHeap ProofHeapActions ProofHeapMerge SpecDelete ProofDelete Lexer Builder ProofBuilder ActionNames Overlay SpecOverlay ProofOverlay
  ProofMerge ProofMergeMap ProofMergeAbs ProofSound ProofSelected ProofBuilderPaths SpecReach SpecQuery ProofQuery ProofForest SpecMeaning
  ProofMeaning ProofAliasFree SpecWhole ProofFuel.
From Verif Require Import MergeTree.

(** The heap computation [m] edits the document (and may cut pieces off it) as [F] says. *)
Definition edits (m : heap * res unit) (h : heap) (doc : ltree) (gs : list ltree) (F : res tree) : Prop :=
  exists h' r doc' gs', m = (h', r) /\ trans h (doc :: gs) h' (doc' :: gs') /\ label doc' = label doc /\
    agree F r (erase doc') /\ (r = Ok tt -> sound (erase doc')).
Lemma edits_same h doc gs : own h (doc :: gs) -> sound (erase doc) -> edits (h, Ok tt) h doc gs (Ok (erase doc)).
Proof. intros O S. exists h, (Ok tt), doc, gs. split; [done|]. split; [apply trans_refl; apply O|]. done. Qed.
Lemma edits_bad h doc gs (r : res unit) F : own h (doc :: gs) -> (forall x, r <> Ok x) -> agree F r (erase doc) -> edits (h, r) h doc gs F.
Proof.
  intros O N A. exists h, r, doc, gs. split; [done|]. split; [apply trans_refl; apply O|]. split; [done|]. split; [done|].
  intros ->. by destruct (N tt).
Qed.

Lemma merge_performs sed ro d fuel v t h s : d <= fuel -> own h [s] -> apart ro h [s] -> value_at d ro h v t ->
  performs (h_merge_node fuel sed (label s) [v]) h s (merge sed (erase s) t []).
Proof.
  intros Fd Os As Vs. destruct (h_merge_spec sed ro d fuel h s v t [] Fd Os As Vs) as (h' & r & s' & g & M & T & L & E).
  exists h', r, s', g. split; [|done]. unfold h_merge_node. cbn [loop]. unfold bind. rewrite M.
  destruct r as [[]| | |]; reflexivity.
Qed.

Lemma act_meaning sed ro d a v t fuel h doc gs xs ps : d <= fuel -> tree_size (erase doc) <= fuel ->
  own h (doc :: gs) -> apart ro h (doc :: gs) -> value_at d ro h v t -> sound (erase doc) -> sound t ->
  map Some xs = map (fun p => place p doc) ps -> match a with AMerge | AInvalid => inside_out ps | _ => True end ->
  edits (h_do_action fuel sed a v (label doc) xs h) h doc gs (t_act sed a t ps (erase doc)).
Proof.
  intros Fd Fs O A V S St MX NN.
  assert (JV : forall h W h' W', own h W -> apart ro h W -> trans h W h' W' -> value_at d ro h v t -> value_at d ro h' v t)
    by (intros; by eapply value_at_trans).
  unfold h_do_action, edits. destruct a; cbn [h_act t_act].
  - apply (loop_positions ro (fun h => value_at d ro h v t) _ (fun o => merge sed o t [])); try done.
    + intros h0 s Os As Vs. by apply (merge_performs sed ro d).
    + intros a b Sa. exact (merge_sound sed t a [] b St Sa).
    + by apply inside_out_stay.
  - apply (loop_positions ro (fun h => value_at d ro h v t) _ (fun o => merge sed o t [])); try done.
    + intros h0 s Os As Vs. by apply (merge_performs sed ro d).
    + intros a b Sa. exact (merge_sound sed t a [] b St Sa).
    + by apply inside_out_stay.
  - destruct (loop_replace ro d fuel sed v t Fd St ps xs [] h doc gs O A V S (places_forall2 _ _ _ gs MX)) as (h' & doc' & gs' & M & T & L & U & S').
    exists h', (Ok tt), doc', gs'. split; [exact M|]. split; [done|]. split; [done|]. split; [|done]. rewrite U. done.
  - destruct (h_delete_all _ fuel Fs xs h doc (size_height doc) (own_head _ _ _ O) (shape_cuttable _ (proj1 S) (proj2 S)))
      as (h' & g & M & T). exists h', (Ok tt), (prune (mem xs) doc), (g ++ gs). split; [done|]. split.
    + exact (trans_frame_r h [doc] h' (prune (mem xs) doc :: g) gs O T).
    + split; [apply prune_label|]. split; [|intros _; by apply sound_prune]. split; [done|].
      apply prune_without. intros p s _ SP. eapply mem_among; [|exact MX|exact SP].
      eapply own_nodup. by eapply own_head.
  - apply (loop_positions ro (fun h => value_at d ro h v t) _
       (fun o => match combine_node sed o t with (t', None) => Ok t' | (_, Some e) => Err e end)); try done.
    + intros h0 s Os As Vs. by apply (combine_performs sed ro d).
    + intros a b Sa E. pose proof (combine_sound sed a t Sa) as X. destruct (combine_node sed a t) as [a' []]; [done|].
      injection E as <-. exact X.
    + apply always_stay. intros o t' So C. unfold combine_node. destruct So as [_ B].
      assert (K : t_kind o <> KScalar).
      { intros K. destruct o as [i [ts|]]; [|by apply C]. unfold children in C. cbn [t_content] in C. apply branching_inv in B as [B _].
        destruct (B C) as [E|[E|E]]; unfold t_kind in K; cbn [t_info] in K; congruence. }
      destruct (kind_eqb_spec (t_kind o) KScalar) as [E|_]; [done|]. cbn [negb orb]. discriminate.
Qed.

Lemma texts_same qs tqs : Forall2 computes qs tqs -> map q_text qs = map tq_text tqs.
Proof. induction 1 as [|q tq qs tqs [E _] _ IH]; [done|]. cbn [map]. by rewrite E, IH. Qed.

Lemma inject_meaning sed ip tip v ro d t : Forall2 computes ip tip -> sound t ->
  exists F, forall fuel, F <= fuel -> d <= fuel ->
  forall h doc gs, own h (doc :: gs) -> apart ro h (doc :: gs) -> value_at d ro h v t -> sound (erase doc) ->
  edits (h_inject fuel sed ip v (label doc) h) h doc gs (t_inject sed tip t (erase doc)).
Proof.
  intros CI St. unfold h_inject, t_inject, scaffolded. rewrite (texts_same _ _ CI).
  destruct (build_all_cases (map tq_text tip)) as [[ts EB]|EB]; rewrite EB.
  2: exists 0; intros fuel _ _ h doc gs O A V S; by apply edits_bad.
  pose proof (build_paths_no_fuel sed ts) as NF.
  destruct (build_paths sed ts) as [y|e| |] eqn:EY; [|..|done].
  2,3: exists 0; intros fuel _ _ h doc gs O A V S; by apply edits_bad.
  assert (Sy : sound y) by (eapply build_paths_sound; [|exact EY]; by eapply build_all_sound).
  exists (depth y). intros fuel F1 F2 h doc gs O A V S.
  destruct (h_alloc_spec (fun l => length h <= l) y h ltac:(done)) as (ext & ly & EA & LY & VA).
  set (h1 := h ++ ext) in *. set (ro' := fun l => length h <= l /\ l < length h1).
  assert (T0 : trans h (doc :: gs) h1 (doc :: gs)) by (apply trans_ext, O).
  assert (O1 := own_trans _ _ _ _ O T0). assert (A1 := apart_trans _ _ _ _ _ O T0 A).
  assert (V1 := value_at_trans _ _ _ _ _ _ _ _ T0 A V).
  assert (A1' : apart ro' h1 [doc]).
  { intros l [L1 L2]. split; [done|]. cbn. rewrite app_nil_r. intros X. destruct O as [R _]. apply Forall_cons in R as [R _].
    pose proof (reads_bound _ _ _ R X). lia. }
  pose proof (merge_performs sed ro' (depth y) fuel ly y h1 doc F1 (own_head _ _ _ O1) A1' (value_at_bound _ _ _ _ _ (VA _ (le_n _)))) as P.
  destruct (performs_forest _ _ _ _ _ O1 P) as (h2 & r2 & doc2 & gs2 & M2 & T2 & L2 & E2).
  assert (T02 := trans_trans _ _ _ _ _ _ O T0 T2).
  destruct (merge sed (erase doc) y []) as [t2|e| |] eqn:EM; cbn [agree rbind] in E2 |- *; [destruct E2 as [-> E2]|subst r2..].
  2,3,4: eexists h2, _, doc2, gs2; (split; [rewrite (bind_ok _ _ _ _ _ EA); unfold bind; rewrite M2; reflexivity|]); done.
  assert (S2 : sound (erase doc2)) by (rewrite E2; exact (merge_sound _ _ _ _ _ Sy S EM)).
  assert (O2 := own_trans _ _ _ _ O1 T2). assert (A2 := apart_trans _ _ _ _ _ O1 T2 A1).
  assert (V2 := value_at_trans _ _ _ _ _ _ _ _ T2 A1 V1).
  destruct (find_found ip tip h2 doc2 CI (own_head _ _ _ O2)) as (rs & FR & MX). rewrite E2 in MX.
  destruct (loop_replace ro d fuel sed v t F2 St (found tip t2) rs [] h2 doc2 gs2 O2 A2 V2 S2 (places_forall2 _ _ _ gs2 MX)) as (h3 & doc3 & gs3 & M3 & T3 & L3 & U3 & S3).
  exists h3, (Ok tt), doc3, gs3. split; [|split; [by eapply trans_trans|split; [congruence|split; [rewrite E2 in U3; rewrite U3; done|done]]]].
  rewrite (bind_ok _ _ _ _ _ EA). rewrite (bind_ok _ _ _ _ _ M2).
  rewrite L2 in FR. rewrite (bind_ok _ _ _ _ _ FR). exact M3.
Qed.

Lemma apply_meaning sed dflt o ot ro d h doc gs :
  own h (doc :: gs) -> apart ro h (doc :: gs) -> sound (erase doc) -> sound (to_value ot) ->
  means d ro h o ot -> without_values ot \/ alias_free h -> plainly ot (erase doc) ->
  exists F, forall fuel, F <= fuel ->
  exists h' o' r doc' gs', apply fuel sed dflt o (label doc) h = (h', o', r) /\ trans h (doc :: gs) h' (doc' :: gs') /\
    label doc' = label doc /\ agree (t_apply sed dflt ot (erase doc)) r (erase doc') /\ (r = Ok tt -> sound (erase doc')).
Proof.
  intros O A S St (MQ & MV & MA & MD & MM & MI) AF PL.
  destruct (inject_meaning sed (o_queries o) (to_queries ot) (o_value o) ro d (to_value ot) MQ St) as [F1 I1].
  assert (I2 : exists F2, forall ip tip, o_inject o = Some ip -> to_inject ot = Some tip -> forall fuel, F2 <= fuel -> d <= fuel ->
     forall h doc gs, own h (doc :: gs) -> apart ro h (doc :: gs) -> value_at d ro h (o_value o) (to_value ot) -> sound (erase doc) ->
     edits (h_inject fuel sed ip (o_value o) (label doc) h) h doc gs (t_inject sed tip (to_value ot) (erase doc))).
  { destruct (o_inject o) as [ip|], (to_inject ot) as [tip|]; try (by destruct MI); [|by exists 0].
    destruct (inject_meaning sed ip tip (o_value o) ro d (to_value ot) MI St) as [F2 I2]. exists F2. intros ? ? [= <-] [= <-]. exact I2. }
  destruct I2 as [F2 I2].
  exists (F1 + F2 + d + tree_size (erase doc)). intros fuel FL.
  pose proof (own_head _ _ _ O) as Od.
  assert (FIN : forall (o' : overlay) m, edits m h doc gs (t_apply sed dflt ot (erase doc)) ->
     exists h' o'' r doc' gs', (let (h3, r) := m in (h3, o', r)) = (h', o'', r) /\ trans h (doc :: gs) h' (doc' :: gs') /\
       label doc' = label doc /\ agree (t_apply sed dflt ot (erase doc)) r (erase doc') /\ (r = Ok tt -> sound (erase doc'))).
  { intros o' m (h' & r & doc' & gs' & -> & X). exists h', o', r, doc', gs'. done. }
  unfold apply. rewrite (check_meaning ro h d fuel doc (o_docqueries o) (to_docqueries ot) Od ltac:(lia) MD AF).
  unfold plainly in PL. unfold t_apply in FIN |- *. destruct (tqualifies (to_docqueries ot) (erase doc)).
  2:{ apply (FIN o (h, Ok tt)). by apply edits_same. }
  specialize (PL eq_refl). destruct (find_found _ _ _ _ MQ Od) as (xs & FX & MX). rewrite FX.
  destruct (found (to_queries ot) (erase doc)) as [|p ps] eqn:EF; destruct xs as [|x xs]; try discriminate.
  - apply FIN. unfold resolve_missing, h_on_missing, injects in *. rewrite MM.
    assert (HI : forall o', o_queries o' = o_queries o -> o_value o' = o_value o -> o_inject o' = o_inject o ->
      edits (h_handle_inject fuel sed o' (label doc) h) h doc gs
        (match inject_paths ot with Some ip => t_inject sed ip (to_value ot) (erase doc) | None => Ok (erase doc) end)).
    { intros o' Q1 Q2 Q3. unfold h_handle_inject. rewrite Q1, Q2, Q3, (texts_same _ _ MQ). unfold inject_paths in *.
      destruct (build_all_cases (map tq_text (to_queries ot))) as [[ts EB]|EB]; rewrite EB.
      - apply I1; try done; lia.
      - destruct (o_inject o) as [ip|] eqn:EI, (to_inject ot) as [tip|] eqn:ET; try (by destruct MI).
        + apply (I2 ip tip); try done; lia.
        + by apply edits_same. }
    destruct (to_missing ot).
    + destruct (equal_fold dflt (lit "inject")); cbn [o_missing]; [|rewrite MM]; [|by apply edits_same].
      by apply HI.
    + rewrite MM. by apply edits_same.
    + rewrite MM. by apply HI.
  - apply FIN. rewrite MA. apply (act_meaning sed ro d); try done; try lia.
Qed.

(** ** Lists of overlays *)
Lemma means_trans d ro h o ot W h' W' : trans h W h' W' -> apart ro h W -> means d ro h o ot -> means d ro h' o ot.
Proof.
  intros T A (MQ & MV & MA & MD & MM & MI). split; [done|]. split; [by eapply value_at_trans|]. split; [done|]. split; [|done].
  eapply Forall2_impl; [exact MD|]. intros g tg G. eapply Forall2_impl; [exact G|]. intros c tc (C & R & V). split; [done|]. split; [done|].
  assert (NV : no_value h' c <-> no_value h c). { unfold no_value. by rewrite (apart_frame _ _ _ _ _ _ T A R). }
  destruct (tc_value tc); [|by apply NV]. destruct V as [V N]. split; [by eapply value_at_trans|]. by rewrite NV.
Qed.
(** The meaning is always a result. *)
Lemma update_at_no_fuel p f : (forall t, f t <> Fuel) -> forall t, update_at p f t <> Fuel.
Proof.
  intros H. induction p as [|k p IH]; intros t; cbn [update_at]; [done|]. destruct t as [i [ts|]]; [|discriminate].
  destruct (ts !! k) as [c|]; [|discriminate]. specialize (IH c). by destruct (update_at p f c).
Qed.
Lemma update_each_no_fuel ps f : (forall t, f t <> Fuel) -> forall t, update_each ps f t <> Fuel.
Proof.
  intros H. induction ps as [|p ps IH]; intros t; cbn [update_each]; [done|].
  pose proof (update_at_no_fuel p f H t) as X. destruct (update_at p f t); cbn [rbind]; [apply IH|done..].
Qed.
Lemma t_apply_no_fuel sed dflt ot t : t_apply sed dflt ot t <> Fuel.
Proof.
  unfold t_apply. destruct (tqualifies _ _); [|discriminate]. destruct (found _ t) as [|p ps].
  - destruct (injects _ _); [|discriminate]. destruct (inject_paths ot) as [ip|]; [|discriminate].
    unfold t_inject. assert (X : scaffolded sed ip t <> Fuel).
    { unfold scaffolded. destruct (build_all_cases (map tq_text ip)) as [[ts ->]| ->]; [|discriminate].
      destruct (build_paths sed ts); try discriminate. apply merge_no_fuel. }
    destruct (scaffolded sed ip t); cbn [rbind]; [|done..]. by apply update_each_no_fuel.
  - destruct (to_action ot); cbn [t_act]; try discriminate; apply update_each_no_fuel; intros u; try discriminate; try apply merge_no_fuel.
    by destruct (combine_node sed u (to_value ot)) as [a' []].
Qed.
Lemma agree_not_fuel F r t : agree F r t -> F <> Fuel -> r <> Fuel.
Proof. destruct F; cbn [agree]; try done; try (intros -> _; discriminate). intros [-> _] _. discriminate. Qed.
Lemma each_meaning sed dflt ro d os ots : forall h doc gs,
  own h (doc :: gs) -> apart ro h (doc :: gs) -> sound (erase doc) ->
  Forall2 (means d ro h) os ots -> Forall (fun ot => sound (to_value ot)) ots ->
  Forall without_values ots \/ alias_free h -> all_plainly sed dflt ots (erase doc) ->
  exists F, forall fuel, F <= fuel -> edits (apply_each fuel sed dflt os (label doc) h) h doc gs (t_apply_each sed dflt ots (erase doc)).
Proof.
  revert ots. induction os as [|o os IH]; intros [|ot ots] h doc gs O A S ME SV AF PL; inversion ME as [|? ? ? ? M1 M2]; subst.
  { exists 0. intros fuel _. by apply edits_same. }
  destruct PL as [PL1 PL2]. apply Forall_cons in SV as [SV1 SV2].
  assert (AF1 : without_values ot \/ alias_free h) by (destruct AF as [F|]; [apply Forall_cons in F as [? _]; by left|by right]).
  destruct (apply_meaning sed dflt o ot ro d h doc gs O A S SV1 M1 AF1 PL1) as [F1 H1].
  (* the result of the first overlay does not depend on the budget *)
  destruct (H1 F1 (le_n _)) as (h1 & o1 & r1 & doc1 & gs1 & E1 & T1 & L1 & A1 & S1).
  pose proof (t_apply_no_fuel sed dflt ot (erase doc)) as NF. pose proof (agree_not_fuel _ _ _ A1 NF) as NR.
  assert (ALL : forall fuel, F1 <= fuel -> apply fuel sed dflt o (label doc) h = (h1, o1, r1)) by (intros; by eapply apply_more_fuel).
  destruct (t_apply sed dflt ot (erase doc)) as [t1|e| |] eqn:ET; cbn [agree] in A1; [destruct A1 as [-> A1]|subst r1..|done].
  2,3: exists F1; intros fuel FL; eexists h1, _, doc1, gs1; (split; [cbn [apply_each]; rewrite (ALL fuel FL); reflexivity|]);
    (split; [exact T1|]); (split; [exact L1|]); (split; [|discriminate]); cbn [t_apply_each]; rewrite ET; reflexivity.
  pose proof (own_trans _ _ _ _ O T1) as O1. pose proof (apart_trans _ _ _ _ _ O T1 A) as Ap1.
  destruct (IH ots h1 doc1 gs1) as [F2 H2].
  - done.
  - done.
  - by apply S1.
  - eapply Forall2_impl; [exact M2|]. intros ? ? X. by eapply means_trans.
  - done.
  - destruct AF as [F|AFh]; [apply Forall_cons in F as [_ ?]; by left|right].
    pose proof (apply_alias_free F1 sed dflt o (label doc) h AFh) as X. rewrite E1 in X. exact X.
  - rewrite A1. by apply PL2.
  - exists (F1 + F2). intros fuel FL. destruct (H2 fuel ltac:(lia)) as (h2 & r2 & doc2 & gs2 & E2 & T2 & L2 & A2 & S2).
    exists h2, r2, doc2, gs2. split; [cbn [apply_each]; rewrite (ALL fuel ltac:(lia)), <- L1; exact E2|].
    split; [by eapply trans_trans|]. split; [congruence|]. split; [|done]. cbn [t_apply_each]. rewrite ET. cbn [rbind]. by rewrite <- A1.
Qed.

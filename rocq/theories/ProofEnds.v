(** Runs on tidy input end. *)
From stdpp Require Import list_numbers.
From Verif Require Import Prelude GoStrings Format Yaml Heap MergeTree HeapActions SpecMerge SpecHeap SpecDelete Builder ActionNames
  Overlay SpecOverlay SpecReach SpecQuery ProofHeap ProofHeapActions ProofSound ProofForest ProofFuel ProofKeeps Queue SpecPipeline Fine Execute SpecExecute SpecEnds.

(** ** Comparing with a value that can be read to the end *)
Lemma equal_ends h : forall d fuel a b, d <= fuel -> bounded d h b -> snd (h_equal fuel a b h) <> Fuel.
Proof.
  induction d as [|d IH]; intros fuel a b L B; [destruct B|]. destruct fuel as [|fuel]; [lia|].
  destruct B as (nb & Eb & B). cbn [h_equal]. unfold bind, get. rewrite Eb. destruct (h !! a) as [na|]; [|discriminate].
  destruct (negb _); [discriminate|].
  match goal with |- context [match ?m h with _ => _ end] => set (al := m) end.
  assert (HA : snd (al h) <> Fuel).
  { unfold al. destruct (n_alias na) as [x|] eqn:Xa, (n_alias nb) as [y|] eqn:Xb; try discriminate.
    apply IH; [lia|]. apply B. by left. }
  assert (HR : fst (al h) = h).
  { unfold al. destruct (n_alias na), (n_alias nb); try reflexivity.
    match goal with |- fst (h_equal ?f ?x ?y h) = h => destruct (h_equal f x y h) as [h1 r1] eqn:E end.
    by apply reader_equal in E. }
  destruct (al h) as [h1 [e| | |]]; cbn [fst snd] in *; subst; try done. destruct (negb e); [discriminate|].
  assert (CB : forall x ls, n_content nb = Some ls -> In x ls -> bounded d h x).
  { intros x ls E I. apply B. right. eauto. }
  destruct (n_content na) as [la|], (n_content nb) as [lb|]; try discriminate.
  assert (CB' : forall x, In x lb -> bounded d h x) by eauto. clear CB al HA e.
  revert lb CB'. induction la as [|x la IHl]; intros [|y lb] CB'; try discriminate.
  unfold bind. pose proof (IH fuel x y ltac:(lia) (CB' y (or_introl eq_refl))) as N.
  destruct (h_equal fuel x y h) as [h1 r1] eqn:E. pose proof E as E'. apply reader_equal in E'. subst h1.
  destruct r1 as [[]| | |]; try done. apply IHl. intros z Z. apply CB'. by right.
Qed.
Lemma all_equal_ends h d fuel rs v : d <= fuel -> bounded d h v -> snd (h_all_equal fuel rs v h) <> Fuel.
Proof.
  intros L B. induction rs as [|x rs IH]; [discriminate|]. cbn [h_all_equal]. unfold bind.
  pose proof (equal_ends h d fuel x v L B) as N. destruct (h_equal fuel x v h) as [h1 r1] eqn:E.
  pose proof E as E'. apply reader_equal in E'. subst h1. by destruct r1 as [[]| | |].
Qed.
Lemma condition_ends h d fuel c node : d <= fuel -> bounded d h (c_value c) -> snd (h_condition fuel c node h) <> Fuel.
Proof.
  intros L B. unfold h_condition, bind. destruct (h_find (c_queries c) node h) as [h1 r1] eqn:E.
  pose proof E as E'. apply reader_find in E'. subst h1.
  assert (r1 <> Fuel).
  { unfold h_find, bind, get in E. destruct (h !! node); [|by injection E as <-]. destruct (_ && _); by injection E as <-. }
  destruct r1 as [[|x rs]| | |]; try done. unfold get. destruct (h !! c_value c); [|discriminate].
  destruct (node_is_zero _); [discriminate|]. by apply (all_equal_ends h d).
Qed.
Lemma check_ends h d fuel dq node : d <= fuel -> (forall g c, In g dq -> In c g -> bounded d h (c_value c)) ->
  snd (h_check_queries fuel dq node h) <> Fuel.
Proof.
  intros L B. unfold h_check_queries. destruct dq as [|g0 dq0]; [discriminate|].
  generalize dependent (g0 :: dq0). clear g0 dq0. intros dq B.
  induction dq as [|g dq IH]; [discriminate|]. cbn [h_check_any]. unfold bind at 1.
  assert (N : snd (h_check_query fuel g node h) <> Fuel).
  { assert (Bg : forall c, In c g -> bounded d h (c_value c)) by (intros; eapply B; [by left|done]). clear -L Bg.
    induction g as [|c g IH]; [discriminate|]. cbn [h_check_query]. unfold bind.
    pose proof (condition_ends h d fuel c node L (Bg c (or_introl eq_refl))) as N.
    destruct (h_condition fuel c node h) as [h1 r1] eqn:E. assert (h1 = h) as ->.
    { revert E. unfold h_condition. apply reader_bind; [apply reader_find|]. intros [|x rs]; [apply reader_ret|].
      apply reader_bind; [apply reader_get|]. intros v. destruct (node_is_zero v); [apply reader_ret|apply reader_all_equal]. }
    destruct r1 as [[]| | |]; try done. apply IH. intros; apply Bg; by right. }
  destruct (h_check_query fuel g node h) as [h1 r1] eqn:E. assert (h1 = h) as ->.
  { revert E. clear. revert h h1 r1. induction g as [|c g IHg]; [apply reader_ret|]. cbn [h_check_query].
    change (reader (do! ok := h_condition fuel c node in if ok then h_check_query fuel g node else ret false)).
    apply reader_bind; [|intros [|]; [intros ? ? ?; apply IHg|apply reader_ret]].
    unfold h_condition. apply reader_bind; [apply reader_find|]. intros [|x rs]; [apply reader_ret|].
    apply reader_bind; [apply reader_get|]. intros v. destruct (node_is_zero v); [apply reader_ret|apply reader_all_equal]. }
  destruct r1 as [[]| | |]; try done. apply IH. intros; eapply B; [by right|done].
Qed.

(** ** One overlay *)
Record fine (ro : loc -> Prop) (h : heap) (o : overlay) : Prop := mkFine {
  fi_queries : Forall finds_inside (o_queries o);
  fi_inject : forall ip, o_inject o = Some ip -> Forall finds_inside ip;
  fi_value : exists d t, value_at d ro h (o_value o) t /\ sound t;
  fi_conditions : forall g c, In g (o_docqueries o) -> In c g -> exists d t, value_at d ro h (c_value c) t }.

Lemma value_bounded ro h d : forall l t, value_at d ro h l t -> bounded d h l.
Proof.
  induction d as [|d IH]; intros l t V; [destruct V|]. destruct V as (_ & n & E & _ & A & C). exists n. split; [done|].
  intros x [X|(ls & X & I)]; rewrite X in *.
  - destruct A as [t' A]. by eapply IH.
  - destruct (t_content t) as [ts|]; [|done]. apply elem_of_list_In, elem_of_list_lookup in I as [i I].
    destruct (Forall2_lookup_l _ _ _ _ _ C I) as (y & _ & Y). by eapply IH.
Qed.
Lemma bounded_more h d : forall d' l, d <= d' -> bounded d h l -> bounded d' h l.
Proof.
  induction d as [|d IH]; intros d' l L B; [destruct B|]. destruct d' as [|d']; [lia|].
  destruct B as (n & E & B). exists n. split; [done|]. intros x X. apply IH; [lia|]. by apply B.
Qed.
Lemma conditions_bound ro h o : fine ro h o -> exists d, forall g c, In g (o_docqueries o) -> In c g -> bounded d h (c_value c).
Proof.
  intros [_ _ _ F]. revert F. generalize (o_docqueries o) as dq. induction dq as [|g dq IH]; intros F.
  - exists 0. intros ? ? [].
  - destruct IH as [d1 H1]; [intros; eapply F; [by right|done]|].
    assert (exists d2, forall c, In c g -> bounded d2 h (c_value c)) as [d2 H2].
    { assert (G : forall c, In c g -> exists d t, value_at d ro h (c_value c) t) by (intros; eapply F; [by left|done]).
      clear -G. induction g as [|c g IH]; [exists 0; intros ? []|]. destruct IH as [d1 H1]; [intros; apply G; by right|].
      destruct (G c (or_introl eq_refl)) as (d & t & V). exists (d + d1). intros c' [<-|I].
      - eapply bounded_more; [|by eapply value_bounded]. lia.
      - eapply bounded_more; [|by apply H1]. lia. }
    exists (d1 + d2). intros g' c [<-|G] C.
    + eapply bounded_more; [|by apply H2]. lia.
    + eapply bounded_more; [|by eapply H1]. lia.
Qed.

Lemma apply_ends sed dflt o ro h doc gs : own h (doc :: gs) -> apart ro h (doc :: gs) -> sound (erase doc) -> fine ro h o ->
  exists F h' o' r doc' gs', apply F sed dflt o (label doc) h = (h', o', r) /\ r <> Fuel /\
    trans h (doc :: gs) h' (doc' :: gs') /\ label doc' = label doc /\ (r = Ok tt -> sound (erase doc')) /\
    (o' = o \/ o' = resolve_missing dflt o).
Proof.
  intros O A S FI. pose proof FI as [FQ FJ (d & t & V & St) _]. destruct (conditions_bound _ _ _ FI) as [dc HC].
  assert (R : reads h doc) by (destruct O as [R _]; by apply Forall_cons in R as [R _]).
  destruct (inject_forest sed (o_queries o) (o_value o) ro d t FQ St) as [F1 I1].
  assert (FJ' : Forall finds_inside (default [] (o_inject o))) by (destruct (o_inject o); [by apply FJ|constructor]).
  destruct (inject_forest sed (default [] (o_inject o)) (o_value o) ro d t FJ' St) as [F2 I2].
  exists (F1 + F2 + dc + d + tree_size (erase doc)). set (fuel := _ + _ + _ + _ + _).
  pose proof (check_ends h dc fuel (o_docqueries o) (label doc) ltac:(unfold fuel; lia) HC) as NC.
  unfold apply. destruct (h_check_queries fuel (o_docqueries o) (label doc) h) as [h1 r1] eqn:E1.
  apply reader_check in E1. subst h1. cbn [snd] in NC.
  assert (K : forall (o' : overlay) (r : res unit), r <> Fuel -> o' = o \/ o' = resolve_missing dflt o ->
    exists h' o'' r' doc' gs', (h, o', r) = (h', o'', r') /\ r' <> Fuel /\ trans h (doc :: gs) h' (doc' :: gs') /\
    label doc' = label doc /\ (r' = Ok tt -> sound (erase doc')) /\ (o'' = o \/ o'' = resolve_missing dflt o)).
  { intros o' r N Ho. exists h, o', r, doc, gs. split; [done|]. split; [done|]. split; [apply trans_refl; apply O|]. done. }
  destruct r1 as [[]| | |]; try done; try (apply K; [discriminate|by left]).
  destruct (find_ok (o_queries o) h doc R) as [rs FR]. rewrite FR. destruct rs as [|x rs].
  - destruct (h_on_missing fuel sed (resolve_missing dflt o) (label doc) h) as [h3 r3] eqn:E3.
    enough (X : r3 <> Fuel /\ exists doc' gs', trans h (doc :: gs) h3 (doc' :: gs') /\ label doc' = label doc /\ (r3 = Ok tt -> sound (erase doc'))).
    { destruct X as (N & doc' & gs' & X). exists h3, (resolve_missing dflt o), r3, doc', gs'. split; [done|]. split; [done|].
      split; [apply X|]. split; [apply X|]. split; [apply X|]. by right. }
    set (o1 := resolve_missing dflt o) in *.
    assert (Q : o_queries o1 = o_queries o /\ o_value o1 = o_value o /\ o_inject o1 = o_inject o).
    { subst o1. unfold resolve_missing. destruct (o_missing o); try done. by destruct (equal_fold _ _). }
    destruct Q as (Q1 & Q2 & Q3). unfold h_on_missing in E3.
    assert (K' : forall r : res unit, r <> Fuel -> (h, r) = (h3, r3) -> r3 <> Fuel /\
      exists doc' gs', trans h (doc :: gs) h3 (doc' :: gs') /\ label doc' = label doc /\ (r3 = Ok tt -> sound (erase doc'))).
    { intros r N [= <- <-]. split; [done|]. exists doc, gs. split; [apply trans_refl; apply O|]. done. }
    destruct (o_missing o1); try (by eapply K', E3).
    unfold h_handle_inject in E3. rewrite Q1, Q2, Q3 in E3.
    destruct (build_all_cases (map q_text (o_queries o))) as [[ts EB]|EB]; rewrite EB in E3.
    + destruct (I1 fuel ltac:(unfold fuel; lia) ltac:(unfold fuel; lia) h doc gs O A V S) as (h4 & r4 & doc' & gs' & M & T & L & N & SS).
      rewrite M in E3. injection E3 as <- <-. split; [done|]. eauto.
    + destruct (o_inject o) as [ip|]; [|by eapply K', E3].
      destruct (I2 fuel ltac:(unfold fuel; lia) ltac:(unfold fuel; lia) h doc gs O A V S) as (h4 & r4 & doc' & gs' & M & T & L & N & SS).
      change (default [] (Some ip)) with ip in M. rewrite M in E3. injection E3 as <- <-. split; [done|]. eauto.
  - destruct (act_forest sed ro d (o_action o) (o_value o) t fuel h doc gs (x :: rs) ltac:(unfold fuel; lia) ltac:(unfold fuel; lia) O A V S St)
      as (h4 & r4 & doc' & gs' & M & T & L & N & SS).
    + exact (find_inside _ _ _ _ FQ R FR).
    + rewrite M. exists h4, o, r4, doc', gs'. split_and!; try done. by left.
Qed.

(** ** The workloads of a file *)
Lemma fine_trans ro h W h' W' o : trans h W h' W' -> apart ro h W -> fine ro h o -> fine ro h' o.
Proof.
  intros T A [Q I (d & t & V & S) C]. split; [done|done| |].
  - exists d, t. split; [by eapply value_at_trans|done].
  - intros g c G Ic. destruct (C g c G Ic) as (d' & t' & V'). exists d', t'. by eapply value_at_trans.
Qed.
Lemma fine_resolve ro h o dflt : fine ro h o -> fine ro h (resolve_missing dflt o).
Proof.
  intros F. unfold resolve_missing. destruct (o_missing o); try done. destruct (equal_fold _ _); [|done].
  destruct F as [Q I V C]. by split.
Qed.
Lemma own_drop h (d : ltree) g rest : own h ((d :: g) ++ rest) -> own h (d :: rest).
Proof.
  intros O. apply (own_app_l h (d :: rest) g). eapply own_perm; [|exact O]. cbn. by rewrite (Permutation_app_comm g rest).
Qed.
Lemma run_more fuel fuel' sed dflt ws : forall m m' r, fuel <= fuel' ->
  run_all (run_work fuel sed dflt) ws m = (m', r) -> r <> Fuel -> run_all (run_work fuel' sed dflt) ws m = (m', r).
Proof.
  induction ws as [|w ws IH]; intros m m' r L; [done|]. cbn [run_all]. unfold run_work.
  destruct (snd m !! w_overlay w) as [o|]; [|done]. destruct (apply fuel sed dflt o (w_node w) (fst m)) as [[h1 o1] r1] eqn:E.
  assert (r1 = Fuel \/ r1 <> Fuel) as [->|N] by (destruct r1; [by right..|by left]); [by intros [= <- <-]|].
  rewrite (apply_more_fuel fuel fuel' _ _ _ _ _ _ _ _ L E N). destruct r1; try done. by apply IH.
Qed.

Definition labelled (docs : list ltree) (nodes : list loc) : Prop := map label docs ≡ₚ nodes.
Lemma run_ends sed dflt ro nodes : forall ws h os docs,
  labelled docs nodes -> own h docs -> apart ro h docs -> Forall (fun d => sound (erase d)) docs -> Forall (fine ro h) os ->
  Forall (fun w => w_node w ∈ nodes) ws ->
  exists F h' os' r docs', run_all (run_work F sed dflt) ws (h, os) = ((h', os'), r) /\ r <> Fuel /\ labelled docs' nodes /\ own h' docs'.
Proof.
  induction ws as [|w ws IH]; intros h os docs LB O A S FO WS.
  { exists 0, h, os, (Ok tt), docs. done. }
  apply Forall_cons in WS as [W1 WS]. cbn [run_all].
  destruct (os !! w_overlay w) as [o|] eqn:EO.
  2:{ exists 0, h, os, Panic, docs. split; [|done]. unfold run_work. cbn [fst snd]. by rewrite EO. }
  assert (exists doc rest, label doc = w_node w /\ docs ≡ₚ doc :: rest) as (doc & rest & LD & PD).
  { unfold labelled in LB. rewrite <- LB in W1. apply elem_of_list_In, in_map_iff in W1 as (doc & LD & I). apply elem_of_list_In in I.
    destruct (elem_of_Permutation docs doc) as [X _]. destruct (X I) as [rest P]. exists doc, rest. done. }
  assert (O1 : own h (doc :: rest)) by (by eapply own_perm). assert (A1 : apart ro h (doc :: rest)) by (by eapply apart_perm).
  rewrite PD in S. apply Forall_cons in S as [S1 S2].
  assert (FO1 : fine ro h o) by (rewrite Forall_forall in FO; apply FO; by eapply elem_of_list_lookup_2).
  destruct (apply_ends sed dflt o ro h doc [] (own_head _ _ _ O1) (apart_head _ _ _ _ A1) S1 FO1) as (F1 & h1 & o1 & r1 & doc1 & g1 & E1 & N1 & T1 & L1 & SS1 & Ho).
  pose proof (trans_frame_r h [doc] h1 (doc1 :: g1) rest O1 T1) as T2. cbn [app] in T2.
  assert (O2 : own h1 (doc1 :: rest)) by (apply (own_drop _ _ g1); by eapply own_trans).
  assert (LB' : labelled (doc1 :: rest) nodes).
  { unfold labelled in *. rewrite <- LB, PD. cbn [map]. by rewrite L1. }
  assert (RW : forall F', F1 <= F' -> run_work F' sed dflt w (h, os) = ((h1, <[w_overlay w := o1]> os), r1)).
  { intros F' L. unfold run_work. cbn [fst snd]. rewrite EO, <- LD. by rewrite (apply_more_fuel F1 F' _ _ _ _ _ _ _ _ L E1 N1). }
  destruct r1 as [[]|e| |]; [| | |done].
  2,3: eexists F1, h1, _, _, (doc1 :: rest); split; [by rewrite RW by done|done].
  destruct (IH h1 (<[w_overlay w := o1]> os) (doc1 :: rest) LB' O2) as (F2 & h2 & os2 & r2 & docs2 & E2 & N2 & LB2 & O3).
  - pose proof (apart_trans _ _ _ _ _ O1 T2 A1) as X. intros l Hl. destruct (X l Hl) as [X1 X2]. split; [done|].
    intros Y. apply X2. rewrite flat_cons in *. rewrite flat_app. rewrite !elem_of_app in *. tauto.
  - apply Forall_cons. split; [by apply SS1|done].
  - assert (FT : Forall (fine ro h1) os).
    { eapply Forall_impl; [exact FO|]. intros x X. by eapply fine_trans. }
    apply Forall_insert; [done|]. assert (fine ro h1 o) by (by eapply fine_trans). destruct Ho as [->| ->]; [done|by apply fine_resolve].
  - done.
  - exists (F1 + F2), h2, os2, r2, docs2. split; [|done]. rewrite RW by lia. eapply run_more; [|exact E2|done]. lia.
Qed.

(** ** Reading the documents *)
Lemma snapshot_ends h t : forall fuel, tree_size (erase t) <= fuel -> reads h t -> snapshot fuel h (label t) = Ok (erase t).
Proof.
  induction t as [l i|l i ts IH] using ltree_ind'; intros [|fuel] L R; try (cbn in L; lia).
  - rewrite reads_eq in R. destruct R as [[al E] _]. cbn [snapshot label]. rewrite E. done.
  - rewrite reads_eq in R. destruct R as [[al E] R]. cbn [snapshot label]. rewrite E. cbn [n_content labels]. cbn [kids] in R.
    assert (X : (fix go (ls : list loc) : res (list tree) := match ls with [] => Ok []
       | x :: r => let! t := snapshot fuel h x in let! ts := go r in Ok (t :: ts) end) (map label ts) = Ok (map erase ts)).
    { assert (LL : forall t, In t ts -> tree_size (erase t) <= fuel).
      { intros t I. cbn [erase tree_size] in L. enough (tree_size (erase t) <= fold_right (fun t n => tree_size t + n) 0 (map erase ts)) by lia.
        clear -I. induction ts as [|u ts IHt]; [destruct I|]. cbn [map fold_right]. destruct I as [->|I]; [lia|]. specialize (IHt I). lia. }
      clear L E. induction ts as [|t ts IHt]; [done|]. cbn [map]. apply Forall_cons in IH as [IH1 IH2]. apply Forall_cons in R as [R1 R2].
      rewrite (IH1 fuel (LL t (or_introl eq_refl)) R1). cbn [rbind]. rewrite IHt; [done|done|done|]. intros; apply LL; by right. }
    rewrite X. done.
Qed.
Lemma snapshots_ends h docs nodes : Forall (reads h) docs -> (forall x, In x nodes -> In x (map label docs)) ->
  exists F ts, forall fuel, F <= fuel -> snapshots fuel h nodes = Ok ts.
Proof.
  intros R IN. induction nodes as [|x nodes IH]; [exists 0, []; done|].
  destruct IH as (F & ts & H); [intros; apply IN; by right|].
  destruct (proj1 (in_map_iff _ _ _) (IN x (or_introl eq_refl))) as (t & <- & I).
  rewrite Forall_forall in R. exists (F + tree_size (erase t)), (erase t :: ts). intros fuel L. cbn [snapshots].
  rewrite snapshot_ends; [|lia|apply R; by apply elem_of_list_In]. cbn [rbind]. rewrite H by lia. done.
Qed.

Lemma queue_nodes {Ov Nd} (index : Ov -> option (list Z)) os ds (nodes : list Nd) w : In w (queue index os ds nodes) -> In (w_node w) nodes.
Proof.
  unfold queue. generalize 0%Z. induction nodes as [|n nodes IH]; intros i; [intros []|]. cbn [queue_from]. rewrite !in_app_iff. intros [I|[I|I]].
  - left. clear IH. induction os as [|o os IHo]; [destruct I|]. cbn [queue_overlays_of] in I. destruct (check_document_index _ _ _); [|by apply IHo].
    destruct I as [<-|I]; [done|by apply IHo].
  - left. clear IH. induction ds as [|d ds IHd]; [destruct I|]. cbn [queue_documents] in I. destruct (Z.eqb _ _); [|by apply IHd].
    apply in_app_iff in I as [I|I]; [|by apply IHd]. clear -I. induction (d_overlays d) as [|o l IH]; [destruct I|].
    destruct I as [<-|I]; [done|by apply IH].
  - right. by eapply IH.
Qed.

(** ** From the reachable region to [fine] *)
Lemma bounded_value (ro : loc -> Prop) h d : forall v, bounded d h v -> (forall x, reach h v x -> ro x) -> exists t, value_at d ro h v t.
Proof.
  induction d as [|d IH]; intros v B R; [destruct B|]. destruct B as (n & E & B).
  assert (S : forall x, points_to n x -> exists t, value_at d ro h x t).
  { intros x P. apply IH; [by apply B|]. intros y Y. apply R. clear -P E Y.
    induction Y as [|y m z _ IH M P']; [eapply reach_step; [apply reach_refl|exact E|done]|by eapply reach_step]. }
  assert (C : exists c, match n_content n, c with None, None => True | Some ls, Some ts => Forall2 (value_at d ro h) ls ts | _, _ => False end).
  { destruct (n_content n) as [ls|] eqn:EC; [|by exists None].
    assert (S' : forall x, In x ls -> exists t, value_at d ro h x t) by (intros x X; apply S; right; eauto). clear -S'.
    enough (exists ts, Forall2 (value_at d ro h) ls ts) as [ts H] by (by exists (Some ts)).
    induction ls as [|x ls IH]; [by exists []|]. destruct IH as [ts H]; [intros; apply S'; by right|].
    destruct (S' x (or_introl eq_refl)) as [t T]. exists (t :: ts). by constructor. }
  destruct C as [c C]. exists (T (n_info n) c). split; [apply R, reach_refl|]. exists n. split; [done|]. split; [done|]. split; [|done].
  destruct (n_alias n) as [a|] eqn:EA; [|done]. apply S. by left.
Qed.
Lemma value_region (ro ro' : loc -> Prop) h d : (forall x, ro x -> ro' x) -> forall l t, value_at d ro h l t -> value_at d ro' h l t.
Proof.
  intros I. induction d as [|d IH]; intros l t V; [done|]. destruct V as (R & n & E & EI & A & C). split; [auto|]. exists n. split; [done|]. split; [done|].
  split; [destruct (n_alias n); [|done]; destruct A as [t' A]; eauto|]. destruct (n_content n), (t_content t); try done.
  eapply Forall2_impl; eauto.
Qed.

Definition values_region (os : list overlay) (h : heap) (x : loc) : Prop := exists o v, In o os /\ overlay_root o v /\ reach h v x.
Lemma tidy_fine os h : Forall (tidy_overlay h) os -> Forall (fine (values_region os h) h) os.
Proof.
  intros F. rewrite Forall_forall in *. intros o I. destruct (F o I) as [Q J (d & t & V & W & B) C]. apply elem_of_list_In in I. split; [done|done| |].
  - exists d, t. split; [|done]. eapply value_region; [|exact V]. intros x X. exists o, (o_value o). split; [done|]. split; [by left|done].
  - intros g c G Ic. destruct (C g c G Ic) as [d' D]. destruct (bounded_value (values_region os h) h d' (c_value c) D) as [t' V']; [|by exists d', t'].
    intros x X. exists o, (c_value c). split; [done|]. split; [right; eauto|done].
Qed.
Lemma reach_locs h t : reads h t -> forall x, x ∈ locs t -> reach h (label t) x.
Proof.
  induction t as [l i|l i ts IH] using ltree_ind'; intros R x X; rewrite locs_eq in X; cbn [kids] in X.
  - apply elem_of_cons in X as [->|X]; [constructor|by apply elem_of_nil in X].
  - apply elem_of_cons in X as [->|X]; [constructor|]. apply elem_of_flat in X as (u & U & X).
    rewrite reads_eq in R. destruct R as [[al E] R]. cbn [kids] in R. rewrite Forall_forall in R, IH.
    specialize (IH u U (R u U) x X). cbn [label].
    assert (P : points_to (mkNode i al (labels (Some ts))) (label u)).
    { right. exists (map label ts). split; [done|]. by apply in_map, elem_of_list_In. }
    clear X. induction IH as [|y m z _ IHr M P']; [eapply reach_step; [apply reach_refl|exact E|done]|by eapply reach_step].
Qed.

(** ** A file *)
Lemma file_ends sed dflt files os h f : set_up files os h -> tidy files os h -> In f files ->
  exists F m r ts, forall fuel, F <= fuel ->
    run_all (run_work fuel sed dflt) (file_work os f) (h, os) = (m, r) /\ r <> Fuel /\ snapshots fuel (fst m) (yf_nodes f) = Ok ts.
Proof.
  intros SU [TF TO] I. rewrite Forall_forall in TF. destruct (TF f (proj2 (elem_of_list_In _ _) I)) as (docs & LB & O & S).
  destruct (run_ends sed dflt (values_region os h) (yf_nodes f) (file_work os f) h os docs) as (F1 & h' & os' & r & docs' & E & N & LB' & O').
  - unfold labelled. by rewrite LB.
  - done.
  - intros l (o & v & Io & V & R). split.
    + destruct R as [|y n z _ E P]; [by eapply su_values|]. by eapply (su_closed _ _ _ SU).
    + intros X. apply elem_of_flat in X as (t & T & X). destruct O as [Or _]. rewrite Forall_forall in Or.
      eapply (su_values_apart _ _ _ SU f (label t) o v l); [done| |done|done| |done].
      * rewrite <- LB. by apply in_map, elem_of_list_In.
      * apply reach_locs; [by apply Or|done].
  - done.
  - by apply tidy_fine.
  - rewrite Forall_forall. intros w W. apply elem_of_list_In. apply elem_of_list_In in W. by eapply queue_nodes.
  - destruct O' as [R' _]. destruct (snapshots_ends h' docs' (yf_nodes f) R') as (F2 & ts & H2).
    { intros x X. apply elem_of_list_In. unfold labelled in LB'. rewrite LB'. by apply elem_of_list_In. }
    exists (F1 + F2), (h', os'), r, ts. intros fuel L. split; [eapply run_more; [|exact E|done]; lia|]. split; [done|].
    apply H2. lia.
Qed.

(** ** Values that contain themselves *)
Lemma bounded_reach h v w : reach h v w -> forall d, bounded d h v -> bounded d h w.
Proof.
  induction 1 as [|y n z _ IH E P]; intros d B; [done|]. specialize (IH d B). destruct d as [|d]; [destruct IH|].
  destruct IH as (n' & E' & B'). rewrite E in E'. injection E' as <-. apply (bounded_more h d); [lia|]. by apply B'.
Qed.
Lemma cyclic_unbounded h v : contains_itself h v -> forall d, ~ bounded d h v.
Proof.
  intros (w & x & n & R & E & P & RX) d B. apply (bounded_reach _ _ _ R) in B. clear R.
  induction d as [|d IH]; [destruct B|]. apply IH. destruct B as (n' & E' & B). rewrite E in E'. injection E' as <-.
  eapply bounded_reach; [exact RX|]. by apply B.
Qed.
Lemma bind_fuel {A B} (m : M A) (f : A -> M B) h : snd (m h) = Fuel -> snd (bind m f h) = Fuel.
Proof. unfold bind. by destruct (m h) as [h1 [| | |]]. Qed.
Lemma copy_outcome h : closed h -> forall fuel l e, l < length h ->
  (exists e' n, h_copy_fields fuel l (h ++ e) = (h ++ e', Ok n) /\ bounded fuel h l) \/ snd (h_copy_fields fuel l (h ++ e)) = Fuel.
Proof.
  intros C. induction fuel as [|fuel IH]; intros l e L; [by right|]. destruct (lookup_lt_is_Some_2 h l L) as [n E].
  cbn [h_copy_fields]. assert (G : get l (h ++ e) = (h ++ e, Ok n)) by (unfold get; by rewrite (lookup_app_l_Some h e l n E)).
  rewrite (bind_ok _ _ _ _ _ G).
  assert (HA : (exists e' a, match n_alias n with None => ret None | Some a => do! x := h_copy_fields fuel a in do! a' := alloc x in ret (Some a') end (h ++ e) = (h ++ e', Ok a) /\
      forall x, n_alias n = Some x -> bounded fuel h x) \/
      snd (match n_alias n with None => ret None | Some a => do! x := h_copy_fields fuel a in do! a' := alloc x in ret (Some a') end (h ++ e)) = Fuel).
  { destruct (n_alias n) as [a|] eqn:EA.
    - destruct (IH a e) as [(e' & x & X & B)|X]; [eapply C; [exact E|by left]| |].
      + left. exists (e' ++ [x]), (Some (length (h ++ e'))). split; [rewrite (bind_ok _ _ _ _ _ X); unfold bind, alloc; by rewrite <- app_assoc|]. by intros y [= <-].
      + right. by apply bind_fuel.
    - left. exists e, None. done. }
  destruct HA as [(e1 & a & HA & BA)|X]; [rewrite (bind_ok _ _ _ _ _ HA)|right; by apply bind_fuel].
  assert (HC : (exists e' c, match n_content n with None => ret None | Some ls => do! ls' := each (fun k => do! x := h_copy_fields fuel k in alloc x) ls in ret (Some ls') end (h ++ e1) = (h ++ e', Ok c) /\
      forall ls x, n_content n = Some ls -> In x ls -> bounded fuel h x) \/
      snd (match n_content n with None => ret None | Some ls => do! ls' := each (fun k => do! x := h_copy_fields fuel k in alloc x) ls in ret (Some ls') end (h ++ e1)) = Fuel).
  { destruct (n_content n) as [ls|] eqn:EC; [|left; exists e1, None; done].
    assert (IN : forall x, In x ls -> x < length h) by (intros x X; eapply C; [exact E|right; eauto]).
    assert (HE : (exists e' ls', each (fun k => do! x := h_copy_fields fuel k in alloc x) ls (h ++ e1) = (h ++ e', Ok ls') /\ forall x, In x ls -> bounded fuel h x) \/
       snd (each (fun k => do! x := h_copy_fields fuel k in alloc x) ls (h ++ e1)) = Fuel).
    { clear -IH IN. revert e1. induction ls as [|x ls IHl]; intros e1; [left; exists e1, []; split; [done|intros ? []]|]. cbn [each].
      destruct (IH x e1 (IN x (or_introl eq_refl))) as [(e2 & n' & X & B)|X].
      - assert (Y : (do! x0 := h_copy_fields fuel x in alloc x0) (h ++ e1) = (h ++ (e2 ++ [n']), Ok (length (h ++ e2)))).
        { rewrite (bind_ok _ _ _ _ _ X). unfold alloc. by rewrite <- app_assoc. }
        destruct (IHl (fun y Y => IN y (or_intror Y)) (e2 ++ [n'])) as [(e3 & ls' & Z & BZ)|Z].
        + left. exists e3, (length (h ++ e2) :: ls'). split; [rewrite (bind_ok _ _ _ _ _ Y); by rewrite (bind_ok _ _ _ _ _ Z)|].
          intros y [<-|I]; auto.
        + right. rewrite (bind_ok _ _ _ _ _ Y). by apply bind_fuel.
      - right. by apply bind_fuel, bind_fuel. }
    destruct HE as [(e2 & ls' & X & B)|X].
    - left. exists e2, (Some ls'). split; [by rewrite (bind_ok _ _ _ _ _ X)|]. intros l0 x [= <-]. apply B.
    - right. by apply bind_fuel. }
  destruct HC as [(e2 & c & HC & BC)|X]; [rewrite (bind_ok _ _ _ _ _ HC)|right; by apply bind_fuel].
  left. exists e2, (mkNode (n_info n) a c). split; [done|]. exists n. split; [done|]. intros x [X|(ls & X & I)]; eauto.
Qed.

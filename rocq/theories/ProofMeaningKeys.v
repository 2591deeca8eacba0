From stdpp Require Import sets.
From Verif Require Import Prelude GoStrings Format Yaml Heap MergeTree HeapActions SpecMerge SpecHeap
  ProofMerge ProofHeap ProofHeapActions Builder ActionNames Overlay SpecOverlay ProofOverlay Finder SpecInject ProofInject SpecMeaning ProofMeaning
  Execute ProofExecute SpecWhole ProofFuel ProofMeaningApply ProofAliasFree ProofSound.

Lemma key_index_lchild k ts : match lchild k ts with
  | Some s => exists j, key_index k (map erase ts) = Some j /\ ts !! j = Some s
  | None => key_index k (map erase ts) = None end.
Proof.
  induction ts as [|x|x y ts IH] using list_pair_ind; [done|done|]. cbn [lchild map key_index].
  assert (V : t_value (erase x) = i_value (l_info x)) by (unfold t_value; by rewrite erase_info). rewrite V.
  destruct (seq_eqb_spec (i_value (l_info x)) k) as [E|E], (decide (i_value (l_info x) = k)); try done; [by exists 1|].
  destruct (lchild k ts) as [s|].
  - destruct IH as (j & IH & L). exists (S (S j)). rewrite IH. done.
  - by rewrite IH.
Qed.
Lemma key_position_lpath names : forall t, match lpath names t with
  | Some s => exists p, key_position names (erase t) = Some p /\ sub_at p t = Some s
  | None => key_position names (erase t) = None end.
Proof.
  induction names as [|k r IH]; intros t; cbn [lpath key_position]; [by exists []|].
  unfold t_kind. rewrite erase_info, children_erase. pose proof (key_index_lchild k (kids (l_content t))) as X.
  destruct (kind_eqb_spec (i_kind (l_info t)) KMapping) as [->|NE].
  - destruct (lchild k (kids (l_content t))) as [v|].
    + destruct X as (j & -> & L). rewrite list_lookup_fmap, L. cbn [fmap option_fmap option_map]. specialize (IH v).
      destruct (lpath r v) as [s|].
      * destruct IH as (p & -> & SP). exists (j :: p). split; [done|]. cbn [sub_at]. by rewrite L.
      * by rewrite IH.
    + by rewrite X.
  - destruct (i_kind (l_info t)); done.
Qed.
Lemma dotted_computes text names : computes (Finder.dotted text names) (key_query text names).
Proof.
  split; [done|]. intros h doc O NE. assert (R : reads h doc) by (destruct O as [R _]; by inversion R).
  cbn [Finder.dotted q_find key_query tq_find]. destruct (reads_root _ _ R) as [al E]. unfold f_root. rewrite E. cbn [n_info n_content].
  unfold t_kind. rewrite erase_info, children_erase. unfold empty_doc, t_kind in NE. rewrite erase_info, children_erase in NE.
  pose proof (reads_kids _ _ R) as RK.
  destruct (kind_eqb_spec (i_kind (l_info doc)) KDocument) as [K|NK].
  - rewrite K. cbn [andb] in NE. destruct (l_content doc) as [[|c ts]|] eqn:C; try discriminate. cbn [labels kids map] in *.
    apply Forall_cons in RK as [Rc _]. rewrite (f_path_lpath h names c Rc). pose proof (key_position_lpath names c) as X.
    destruct (lpath names c) as [s|].
    + destruct X as (p & -> & SP). cbn [map]. rewrite place_sub. cbn [sub_at]. rewrite C. cbn [kids]. rewrite (SP : sub_at p c = _) || idtac.
      change ((c :: ts) !! 0) with (Some c). cbn beta iota. by rewrite SP.
    + by rewrite X.
  - rewrite (f_path_lpath h names doc R). pose proof (key_position_lpath names doc) as X.
    assert (EQ : (match i_kind (l_info doc) with
       | KDocument => match map erase (kids (l_content doc)) with [] => [] | c :: _ => match key_position names c with Some p => [0 :: p] | None => [] end end
       | _ => match key_position names (erase doc) with Some p => [p] | None => [] end end) =
       match key_position names (erase doc) with Some p => [p] | None => [] end) by (by destruct (i_kind (l_info doc))).
    rewrite EQ. destruct (lpath names doc) as [s|]; [|by rewrite X].
    destruct X as (p & -> & SP). cbn [map]. rewrite place_sub, SP. done.
Qed.

(** ** Any budget that suffices *)
Lemma apply_each_more_fuel f f' sed dflt os : forall node h h' r, f <= f' ->
  apply_each f sed dflt os node h = (h', r) -> r <> Fuel -> apply_each f' sed dflt os node h = (h', r).
Proof.
  induction os as [|o os IH]; intros node h h' r L; cbn [apply_each]; [done|].
  destruct (apply f sed dflt o node h) as [[h1 o1] r1] eqn:E. intros H N.
  assert (N1 : r1 <> Fuel). { intros ->. by injection H as <- <-. }
  rewrite (apply_more_fuel f f' _ _ _ _ _ _ _ _ L E N1). destruct r1; try done. by apply IH.
Qed.
(** What the encoder sees of a document is its tree. *)
Lemma snapshot_erase f h : forall t s, reads h t -> snapshot f h (label t) = Ok s -> s = erase t.
Proof.
  induction f as [|f IH]; intros t s R; [discriminate|]. destruct (reads_root _ _ R) as [al E]. cbn [snapshot]. rewrite E. cbn [n_content n_info].
  pose proof (reads_kids _ _ R) as RK. destruct t as [l i c]. cbn [label l_info l_content] in *.
  destruct c as [ts|]; cbn [labels kids] in *; [|by intros [= <-]].
  intros H. assert (X : forall us, (fix go (ls : list nat) : res (list tree) := match ls with [] => Ok []
      | x :: r => let! t := snapshot f h x in let! ts := go r in Ok (t :: ts) end) (map label ts) = Ok us -> us = map erase ts).
  { clear H E R. induction RK as [|t ts Rt _ IHts]; intros us; cbn [map]; [by intros [= <-]|].
    destruct (snapshot f h (label t)) as [u| | |] eqn:EU; cbn [rbind]; try discriminate.
    match goal with |- context [rbind ?m _] => destruct m as [us'| | |] eqn:ES end; cbn [rbind]; try discriminate.
    intros [= <-]. f_equal; [by apply IH|by apply IHts]. }
  match type of H with context [rbind ?m _] => destruct m as [us| | |] eqn:ES end; cbn [rbind] in H; try discriminate.
  injection H as <-. rewrite erase_eq. by rewrite (X us eq_refl).
Qed.

Lemma each_any_fuel sed dflt ro d os ots h doc fuel h' r :
  own h [doc] -> apart ro h [doc] -> sound (erase doc) ->
  Forall2 (means d ro h) os ots -> Forall (fun ot => sound (to_value ot)) ots ->
  Forall without_values ots \/ alias_free h -> all_plainly sed dflt ots (erase doc) ->
  apply_each fuel sed dflt os (label doc) h = (h', r) -> r <> Fuel ->
  exists doc' gs, trans h [doc] h' (doc' :: gs) /\ label doc' = label doc /\
    agree (t_apply_each sed dflt ots (erase doc)) r (erase doc') /\ (r = Ok tt -> sound (erase doc')).
Proof.
  intros O A S ME SV AF PL E N. destruct (each_meaning sed dflt ro d os ots h doc [] O A S ME SV AF PL) as [F H].
  destruct (H (F + fuel) ltac:(lia)) as (h2 & r2 & doc2 & gs & E2 & T & L & AG & SS).
  rewrite (apply_each_more_fuel fuel (F + fuel) sed dflt os _ _ _ _ ltac:(lia) E N) in E2. injection E2 as <- <-.
  exists doc2, gs. done.
Qed.

(** C06: overlays are read-only and never alias documents. *)
From Verif Require Import Prelude Yaml Heap ActionNames Overlay SpecReach ProofFinder ProofLocal Examples ExamplesHeap Finder.

(** However many overlays are applied to documents among [docs], every node
    that none of these documents could reach before (overlay values, condition
    values, other documents) is unchanged, and none of them can reach it now. *)
Theorem C06_edits_stay_inside_the_documents dflt docs h h' :
  history dflt docs h h' ->
  forall x, x < length h -> (forall d, In d docs -> ~ reach h d x) ->
    h' !! x = h !! x /\ forall d, In d docs -> ~ reach h' d x.
Proof. intros H. exact (proj2 (history_local _ _ _ _ H)). Qed.

(** For a whole separate document or overlay value rooted at [w]: it has the
    same nodes, all unchanged, and no edited document has come to share one. *)
Theorem C06_separate_values_stay_separate dflt docs h h' w :
  history dflt docs h h' ->
  (forall x, reach h w x -> x < length h /\ forall d, In d docs -> ~ reach h d x) ->
  forall x, (reach h' w x <-> reach h w x) /\
            (reach h w x -> h' !! x = h !! x /\ forall d, In d docs -> ~ reach h' d x).
Proof.
  intros H S. pose proof (history_local _ _ _ _ H) as [_ K].
  assert (KEEP : forall x, reach h w x -> h' !! x = h !! x /\ forall d, In d docs -> ~ reach h' d x).
  { intros x R. destruct (S x R) as [B N]. by apply K. }
  intros x. split; [|apply KEEP]. split.
  - induction 1 as [|y n z _ IH E P]; [constructor|]. destruct (KEEP y IH) as [KE _]. rewrite KE in E.
    eapply reach_step; eauto.
  - induction 1 as [|y n z R IH E P]; [constructor|]. destruct (KEEP y R) as [KE _].
    eapply reach_step; [exact IH| |exact P]. by rewrite KE.
Qed.

(** The heap stays free of dangling pointers, so the previous theorem applies
    again to later documents. *)
Theorem C06_no_dangling_pointers dflt docs h h' :
  history dflt docs h h' -> (forall d, In d docs -> d < length h) -> closed h -> closed h'.
Proof. exact (history_closed dflt docs h h'). Qed.

(** Non-vacuity: a history of three overlays on the example document, which the
    overlay value is separate from; the document does change. *)
Fixpoint reach_list (fuel : nat) (h : heap) (l : loc) : list loc :=
  match fuel with
  | O => []
  | S f => l :: match h !! l with
                | Some n => (match n_alias n with Some a => reach_list f h a | None => [] end) ++
                            (match n_content n with Some ls => concat (map (reach_list f h) ls) | None => [] end)
                | None => []
                end
  end.
Fixpoint complete (fuel : nat) (h : heap) (l : loc) : bool :=
  match fuel with
  | O => false
  | S f => match h !! l with
           | Some n => (match n_alias n with Some a => complete f h a | None => true end) &&
                       (match n_content n with Some ls => forallb (complete f h) ls | None => true end)
           | None => false
           end
  end.
Lemma complete_closed f h : forall l, complete f h l = true -> forall x n y, In x (reach_list f h l) ->
  h !! x = Some n -> points_to n y -> In y (reach_list f h l).
Proof.
  induction f as [|f IH]; intros l C; [discriminate|]. cbn [complete reach_list] in *.
  destruct (h !! l) as [nl|] eqn:E; [|discriminate]. apply andb_true_iff in C as [C1 C2].
  assert (HD : forall z, complete f h z = true -> In z (reach_list f h z)) by (destruct f; [discriminate|intros; by left]).
  intros x n y [<-|I] E' P.
  - rewrite E in E'. injection E' as <-. right. apply in_or_app. destruct P as [P|(ls & P & Q)]; rewrite P in *.
    + left. auto.
    + right. rewrite forallb_forall in C2. apply in_concat. eexists. split; [apply in_map, Q|]. auto.
  - right. apply in_app_or in I as [I|I]; apply in_or_app; [left|right].
    + destruct (n_alias nl); [|done]. eapply IH; eauto.
    + destruct (n_content nl) as [ls|]; [|done]. rewrite forallb_forall in C2.
      apply in_concat in I as (L & IL & I). apply in_map_iff in IL as (z & <- & Z). apply in_concat.
      eexists. split; [apply in_map, Z|]. eapply IH; eauto.
Qed.
Lemma reach_in f h l x : complete f h l = true -> reach h l x -> In x (reach_list f h l).
Proof.
  intros C. induction 1 as [|y n z _ IH E P]; [|by eapply complete_closed; eauto].
  destruct f; [discriminate|by left].
Qed.

Example C06_applies :
  exists h', history [] [ex_doc] ex_heap h' /\
    (forall x, reach ex_heap ex_val x -> x < length ex_heap /\ forall d, In d [ex_doc] -> ~ reach ex_heap d x) /\
    read 20 h' ex_doc <> read 20 ex_heap ex_doc /\ read 20 h' ex_val = read 20 ex_heap ex_val.
Proof.
  eexists. split; [|split; [|split]].
  - eapply (hist_apply _ _ _ 20 no_sed (ex_overlay AMerge q_root ex_val)); [by left| |discriminate|vm_compute; reflexivity|].
    { constructor; [apply dotted_ok|constructor]. }
    eapply (hist_apply _ _ _ 20 no_sed (ex_overlay AReplace q_name ex_x)); [by left| |discriminate|vm_compute; reflexivity|].
    { constructor; [apply dotted_ok|constructor]. }
    eapply (hist_apply _ _ _ 20 no_sed (ex_overlay ADelete q_metadata ex_x)); [by left| |discriminate|vm_compute; reflexivity|].
    { constructor; [apply dotted_ok|constructor]. }
    apply hist_none.
  - intros x R. apply (reach_in 20) in R; [|vm_compute; reflexivity].
    assert (F : forallb (fun x => Nat.ltb x (length ex_heap) && negb (existsb (Nat.eqb x) (reach_list 20 ex_heap ex_doc)))
      (reach_list 20 ex_heap ex_val) = true) by (vm_compute; reflexivity).
    rewrite forallb_forall in F. specialize (F x R). apply andb_true_iff in F as [F1 F2]. apply Nat.ltb_lt in F1.
    split; [done|]. intros d [<-|[]] RD. apply (reach_in 20) in RD; [|vm_compute; reflexivity].
    apply negb_true_iff, not_true_iff_false in F2. apply F2, existsb_exists. exists x. split; [done|apply Nat.eqb_refl].
  - vm_compute. discriminate.
  - vm_compute. reflexivity.
Qed.

Print Assumptions C06_edits_stay_inside_the_documents.
Print Assumptions C06_separate_values_stay_separate.
Print Assumptions C06_no_dangling_pointers.

(** C40 in memory: what --remove-comments does to the documents the program holds. *)
From Verif Require Import Prelude GoStrings Yaml Heap HeapComments SpecHeap SpecReach SpecMerge Render SpecRender ProofMerge ProofRender ProofHeap ProofUncomment Deciders
  Examples ExamplesHeap Witness.

(** The removal ends, and leaves every document of every file in place: it differs from
    before in comments only; no node below the document node has a comment; the
    document node keeps its fields; no other node (of an overlay value, say) changes. *)
Theorem C40_in_memory h files : own h (concat files) ->
  exists enough, forall fuel, enough <= fuel -> exists h' files',
    h_uncomment_all fuel (map (map label) files) h = (h', Ok tt) /\
    own h' (concat files') /\
    Forall2 (Forall2 (fun doc doc' => locs doc' = locs doc /\ but_comments (erase doc) (erase doc') /\ l_info doc' = l_info doc /\
       Forall (everywhere no_comments) (children (erase doc')))) files files' /\
    forall l, l ∉ flat (concat files) -> h' !! l = h !! l.
Proof.
  intros O. destruct (uncomment_all_ends files) as [k K]. exists k. intros fuel Hf.
  assert (RR : Forall (Forall (reads h)) files).
  { destruct O as [R _]. clear -R. induction files as [|ts files IH]; [constructor|]. cbn [concat] in R. apply Forall_app in R as [R1 R2]. constructor; [done|by apply IH]. }
  destruct (K fuel h h Hf (shape_refl h) RR) as [h' E]. exists h', (map (map l_uncomment) files). split; [done|].
  pose proof (uncomment_all_wipes _ _ _ _ E) as W.
  assert (INV : forall ns d, In ns (map (map label) files) -> In d ns -> exists doc, In doc (concat files) /\ label doc = d).
  { intros ns d I D. apply in_map_iff in I as (ts & <- & T). apply in_map_iff in D as (t & <- & D). exists t. split; [|done]. apply in_concat. eauto. }
  assert (BL : forall doc x, In doc (concat files) -> below h (label doc) x -> x ∈ flat (kids (l_content doc))).
  { intros doc x D B. eapply below_locs; [|done]. destruct O as [R _]. rewrite Forall_forall in R. apply R. by apply elem_of_list_In. }
  assert (SUB : forall doc, In doc (concat files) -> exists A B, flat (concat files) = A ++ locs doc ++ B).
  { intros doc D. apply in_split in D as (l1 & l2 & ->). rewrite flat_app, flat_cons. eauto. }
  split.
  - rewrite <- concat_map. apply (own_uncomment _ _ _ _ W O).
    + rewrite Forall_forall. intros doc D (ns & d & N1 & N2 & B). apply elem_of_list_In in D. destruct (INV ns d N1 N2) as (doc2 & D2 & <-).
      specialize (BL doc2 _ D2 B). destruct (decide (label doc2 = label doc)) as [EQ|NE].
      * destruct (SUB doc2 D2) as (A & C & F). destruct O as [_ ND]. rewrite F in ND. apply NoDup_app in ND as (_ & _ & ND). apply NoDup_app in ND as (ND & _).
        destruct doc2 as [l2 i2 c2]. rewrite locs_eq in ND. cbn [label l_content] in *. apply NoDup_cons in ND as [ND _]. by rewrite EQ in ND.
      * apply in_split in D as (l1 & l2 & S). destruct O as [_ ND]. rewrite S in ND, D2. rewrite flat_app, flat_cons in ND.
        assert (X : label doc ∈ locs doc2). { destruct doc2 as [l i c]. rewrite locs_eq. cbn [l_content] in BL. by right. }
        assert (Y : label doc ∈ locs doc) by (destruct doc as [l i c]; rewrite locs_eq; left).
        assert (Z : doc2 <> doc) by congruence. apply NoDup_app in ND as (_ & N3 & ND). apply NoDup_app in ND as (_ & N4 & _).
        apply in_app_or in D2 as [D2|[D2|D2]]; [|congruence|].
        -- apply (N3 (label doc)); [|apply elem_of_app; by left]. unfold flat. apply elem_of_list_In, in_concat. exists (locs doc2). split; [by apply in_map|by apply elem_of_list_In].
        -- apply (N4 (label doc) Y). unfold flat. apply elem_of_list_In, in_concat. exists (locs doc2). split; [by apply in_map|by apply elem_of_list_In].
    + intros doc x D B. apply in_concat in D as (ts & T & D). exists (map label ts), (label doc). split; [by apply in_map|]. split; [by apply in_map|done].
  - split.
    + clear. induction files as [|ts files IH]; [constructor|]. cbn [map]. constructor; [|done]. clear. induction ts as [|t ts IH]; [constructor|]. cbn [map]. constructor; [|done].
      split; [apply uncomment_locs|]. rewrite uncomment_erase. split; [apply remove_comments_but|]. split; [by destruct t|]. apply remove_comments_below.
    + intros l Hl. destruct W as [L W]. destruct (h !! l) as [n|] eqn:A.
      * destruct (W l n A) as [[X|[(ns & d & N1 & N2 & B) _]] _]; [done|]. destruct Hl. destruct (INV ns d N1 N2) as (doc & D & <-).
        destruct (SUB doc D) as (A1 & A2 & ->). apply elem_of_app. right. apply elem_of_app. left. specialize (BL doc l D B). destruct doc as [l0 i c]. rewrite locs_eq. by right.
      * apply lookup_ge_None. rewrite L. by apply lookup_ge_None.
Qed.
(** A file with two documents, and another file. *)
Definition u1 := put_tree (doc (mp [scc "k" "# h" "# l" "# f"; sc "v"])) ex_heap.
Definition u2 := put_tree (doc (sq [scc "a" "" "# x" ""])) (fst u1).
Definition u3 := put_tree (doc (scc "b" "" "" "# y")) (fst u2).
Definition u_tree (l : loc) : ltree := match lread 20 (fst u3) l with Some t => t | None => L 0 (mk KZero [] []) None end.
Definition u_files : list (list ltree) := [[u_tree (snd u1); u_tree (snd u2)]; [u_tree (snd u3)]].
Example C40_in_memory_applies : own (fst u3) (concat u_files) /\
  match h_uncomment_all 20 (map (map label) u_files) (fst u3) with
  | (h', Ok _) => map (lread 20 h') [snd u1; snd u2; snd u3] <> map (lread 20 (fst u3)) [snd u1; snd u2; snd u3] /\
      map (option_map erase) (map (lread 20 h') [snd u1; snd u2; snd u3]) = [Some (doc (mp [sc "k"; sc "v"])); Some (doc (sq [sc "a"])); Some (doc (sc "b"))]
  | _ => False
  end.
Proof.
  split.
  - split.
    + assert (X : forall l, lread 20 (fst u3) l = Some (u_tree l) -> reads (fst u3) (u_tree l)) by (intros l; apply lread_reads).
      change (concat u_files) with [u_tree (snd u1); u_tree (snd u2); u_tree (snd u3)].
      repeat (apply Forall_cons; split); try apply Forall_nil; try exact I; apply X; vm_compute; reflexivity.
    + apply (bool_decide_unpack _). vm_compute. exact I.
  - vm_compute. split; [discriminate|reflexivity].
Qed.
Print Assumptions C40_in_memory.

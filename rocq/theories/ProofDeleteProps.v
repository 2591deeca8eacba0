(** Further facts about deletion. *)
From Verif Require Import Prelude Yaml Heap HeapActions ActionNames Overlay SpecMerge SpecHeap ProofHeap ProofHeapActions
  SpecDelete ProofDelete SpecOverlay ProofOverlay ProofSelected ProofSound ProofForest.

(** Deletion only ever assigns Content. *)
Definition keeps_fields (h h' : heap) : Prop :=
  length h' = length h /\ forall x n, h !! x = Some n -> exists c, h' !! x = Some (mkNode (n_info n) (n_alias n) c).
Lemma keeps_refl h : keeps_fields h h.
Proof. split; [done|]. intros x [i a c] E. by exists c. Qed.
Lemma keeps_trans h1 h2 h3 : keeps_fields h1 h2 -> keeps_fields h2 h3 -> keeps_fields h1 h3.
Proof.
  intros [A B] [C D]. split; [congruence|]. intros x n E. destruct (B x n E) as [c E2].
  destruct (D x _ E2) as [c' E3]. by exists c'.
Qed.
Definition keeper {A} (m : M A) : Prop := forall h, keeps_fields h (fst (m h)).
Lemma keeper_bind {A B} (m : M A) (f : A -> M B) : keeper m -> (forall a, keeper (f a)) -> keeper (bind m f).
Proof.
  intros K F h. specialize (K h). unfold bind. destruct (m h) as [h1 [a|e| |]]; cbn in *; try done.
  eapply keeps_trans; [exact K|apply F].
Qed.
Lemma keeper_put_content l c : keeper (put_content l c).
Proof.
  intros h. unfold put_content, bind, get. destruct (h !! l) as [n|] eqn:E; [|apply keeps_refl]. cbn.
  split; [by rewrite insert_length|]. intros x m X. destruct (decide (x = l)) as [->|NE].
  - rewrite E in X. injection X as <-. exists c. apply list_lookup_insert. by eapply lookup_lt_Some.
  - rewrite list_lookup_insert_ne by congruence. destruct m as [i a c']. by exists c'.
Qed.
Lemma keeper_const {A} (r : res A) : keeper (fun h => (h, r)).
Proof. intros h. apply keeps_refl. Qed.
Lemma keeper_get l : keeper (get l).
Proof. intros h. apply keeps_refl. Qed.
Lemma keeper_delete fuel : forall pn c, keeper (h_delete fuel pn c).
Proof.
  induction fuel as [|f IH]; intros pn c; cbn [h_delete]; [apply keeper_const|].
  apply keeper_bind; [apply keeper_get|]. intros n. destruct (n_content n) as [content|]; [|apply keeper_const].
  generalize 0. generalize content at 2. intros cs. induction cs as [|x cs IHc]; intros i; cbn [h_scan]; [apply keeper_const|].
  destruct (Nat.eqb x c).
  - destruct (cut _ _ _); [apply keeper_put_content|apply keeper_const].
  - apply keeper_bind; [apply keeper_get|]. intros nc. apply keeper_bind; [|intros _; apply IHc].
    destruct (n_content nc); [apply IH|apply keeper_const].
Qed.
Lemma keeper_loop {A} (f : A -> M unit) l : (forall a, keeper (f a)) -> keeper (loop f l).
Proof. intros F. induction l; cbn [loop]; [apply keeper_const|]. apply keeper_bind; auto. Qed.

(** Nothing selected is left. *)
Lemma drop_pairs_hit {A} (hit : A -> bool) l : Nat.even (length l) = true -> forall x, In x (drop_pairs hit l) -> hit x = false.
Proof.
  induction l as [|x|x y l IH] using ProofMerge.list_ind2; intros E z Z; [destruct Z|discriminate|].
  cbn [drop_pairs] in Z. destruct (hit x || hit y) eqn:H; [by apply IH|].
  apply orb_false_iff in H as [H1 H2]. destruct Z as [<-|[<-|Z]]; auto.
Qed.
Lemma prune_kept p t : cuttable t -> forall x, x ∈ flat (kids (l_content (prune p t))) -> p x = false.
Proof.
  induction t as [l i|l i ts IH] using ltree_ind'; intros C x X; [inversion X|].
  apply cuttable_eq in C as [C1 C2]. cbn [kids] in *. cbn [prune l_content kids] in X.
  assert (SUB : forall u, u ∈ (if elements (i_kind i) then base.filter (fun t => p (label t) = false) (map (prune p) ts)
      else drop_pairs (fun t => p (label t)) (map (prune p) ts)) -> p (label u) = false /\ exists t, t ∈ ts /\ u = prune p t).
  { intros u U. assert (U' : u ∈ map (prune p) ts).
    { destruct (elements (i_kind i)); [by apply elem_of_list_filter in U as [_ U]|by eapply drop_pairs_sub]. }
    split.
    - destruct (elements (i_kind i)) eqn:E; [by apply elem_of_list_filter in U as [U _]|].
      destruct C1 as [C1|C1]; [congruence|]. apply elem_of_list_In in U.
      apply (drop_pairs_hit (fun t => p (label t)) (map (prune p) ts)); [by rewrite map_length|exact U].
    - apply elem_of_list_In, in_map_iff in U' as (t & <- & T). exists t. split; [by apply elem_of_list_In|done]. }
  apply elem_of_flat in X as (u & U & XU). destruct (SUB u U) as (H & t & T & ->).
  assert (Q : locs (prune p t) = label (prune p t) :: flat (kids (l_content (prune p t)))) by (destruct (prune p t); apply locs_eq).
  rewrite Q in XU. apply elem_of_cons in XU as [->|XU]; [done|].
  rewrite Forall_forall in IH. rewrite Forall_forall in C2. exact (IH t T (C2 t T) x XU).
Qed.

Lemma delete_again d fuel doc h : d <= fuel -> height_le d doc -> reads h doc -> forall sel,
  (forall x, In x sel -> x ∉ flat (kids (l_content doc))) -> loop (h_delete fuel (label doc)) sel h = (h, Ok tt).
Proof.
  intros F H R. induction sel as [|x sel IH]; intros N; [done|]. cbn [loop].
  rewrite (bind_ok _ _ _ _ _ (delete_absent d fuel h doc x F H R (N x (or_introl eq_refl)))).
  apply IH. intros; apply N; by right.
Qed.

(** Acting on nodes inside a document. *)
From Verif Require Import Prelude GoStrings Format Yaml Heap MergeTree Combine HeapActions SpecMerge SpecHeap
  ProofHeap ProofHeapActions ProofHeapMerge SpecDelete ProofDelete Builder ActionNames Overlay SpecOverlay.
From stdpp Require Import sets.

(** ** Subtrees *)
Lemma subtree_locs s t : subtree s t -> forall x, x ∈ locs s -> x ∈ locs t.
Proof.
  induction 1 as [|l i ts t I S IH]; [auto|]. intros x X. rewrite locs_eq. cbn [kids].
  apply elem_of_cons. right. apply elem_of_flat. exists t. split; [by apply elem_of_list_In|auto].
Qed.

Lemma subtree_of_loc x t : x ∈ locs t -> exists s, subtree s t /\ label s = x.
Proof.
  induction t as [l i|l i ts IH] using ltree_ind'; intros X; rewrite locs_eq in X; cbn [kids] in X.
  - exists (L l i None). split; [constructor|]. apply elem_of_cons in X as [->|X]; [done|]. inversion X.
  - apply elem_of_cons in X as [->|X]; [eexists; split; [apply st_here|done]|].
    apply elem_of_flat in X as (t & T & X). rewrite Forall_forall in IH.
    destruct (IH t T X) as (s & S & <-). exists s. split; [|done]. eapply st_below; [by apply elem_of_list_In|done].
Qed.

Lemma subtree_reads h s t : subtree s t -> reads h t -> reads h s.
Proof.
  induction 1 as [|l i ts t I S IH]; [auto|]. intros R. apply reads_eq in R as [_ R]. cbn [kids] in R.
  rewrite Forall_forall in R. apply IH, R. by apply elem_of_list_In.
Qed.

Lemma subtree_label_unique t : NoDup (locs t) -> forall s s', subtree s t -> subtree s' t -> label s = label s' -> s = s'.
Proof.
  induction t as [l i|l i ts IH] using ltree_ind'; intros ND s s' S S' E.
  - inversion S; inversion S'; congruence.
  - rewrite locs_eq in ND. cbn [kids] in ND. apply NoDup_cons in ND as [NI ND].
    assert (NR : forall u, subtree u (L l i (Some ts)) -> u = L l i (Some ts) \/ exists t, t ∈ ts /\ subtree u t).
    { intros u U. inversion U; subst; [by left|right]. exists t. split; [by apply elem_of_list_In|done]. }
    assert (NL : forall u t, t ∈ ts -> subtree u t -> label u <> l).
    { intros u t T U <-. apply NI, elem_of_flat. exists t. split; [done|].
      eapply subtree_locs; [exact U|apply label_locs]. }
    destruct (NR s S) as [->|(t & T & U)], (NR s' S') as [->|(t' & T' & U')]; [done| | |].
    + exfalso. symmetry in E. exact (NL _ _ T' U' E).
    + exfalso. exact (NL _ _ T U E).
    + assert (t = t').
      { destruct (elem_of_list_split _ _ T) as (a & b & ->).
        apply elem_of_app in T' as [T'|T']; [|apply elem_of_cons in T' as [->|T']; [done|]]; exfalso.
        - rewrite flat_app, flat_cons in ND. apply NoDup_app in ND as (_ & ND & _).
          apply (ND (label s)).
          + apply elem_of_flat. exists t'. split; [done|]. rewrite E. eapply subtree_locs; [exact U'|apply label_locs].
          + apply elem_of_app. left. eapply subtree_locs; [exact U|apply label_locs].
        - rewrite flat_app, flat_cons in ND. apply NoDup_app in ND as (_ & _ & ND). apply NoDup_app in ND as (_ & ND & _).
          apply (ND (label s)).
          + eapply subtree_locs; [exact U|apply label_locs].
          + apply elem_of_flat. exists t'. split; [done|]. rewrite E. eapply subtree_locs; [exact U'|apply label_locs]. }
      subst t'. rewrite Forall_forall in IH. apply (IH t T); auto.
      destruct (elem_of_list_split _ _ T) as (a & b & ->). rewrite flat_app, flat_cons in ND.
      apply NoDup_app in ND as (_ & _ & ND). by apply NoDup_app in ND as (? & _).
Qed.

(** ** Replacing a subtree *)
Lemma put_sub_absent x s' t : x ∉ locs t -> put_sub x s' t = t.
Proof.
  induction t as [l i|l i ts IH] using ltree_ind'; intros X; rewrite locs_eq in X; cbn [kids] in X;
    apply not_elem_of_cons in X as [X1 X2]; cbn [put_sub label].
  - destruct (Nat.eqb_spec l x); [congruence|done].
  - destruct (Nat.eqb_spec l x); [congruence|]. do 2 f_equal.
    rewrite <- (map_id ts) at 2. apply map_ext_in. intros t T. rewrite Forall_forall in IH. apply IH; [by apply elem_of_list_In|].
    intros H. apply X2, elem_of_flat. exists t. split; [by apply elem_of_list_In|done].
Qed.

Lemma map_put_sub_absent x s' ts : x ∉ flat ts -> map (put_sub x s') ts = ts.
Proof.
  intros X. rewrite <- (map_id ts) at 2. apply map_ext_in. intros t T. apply put_sub_absent.
  intros H. apply X, elem_of_flat. exists t. split; [by apply elem_of_list_In|done].
Qed.

Lemma put_sub_label s s' t : label s' = label s -> label (put_sub (label s) s' t) = label t.
Proof.
  intros E. destruct t as [l i [ts|]]; cbn [put_sub label]; destruct (Nat.eqb_spec l (label s)); cbn; congruence.
Qed.

(** An edit of a subtree is an edit of the document. *)
Lemma trans_inside h s h' s' gs t :
  subtree s t -> own h [t] -> trans h [s] h' (s' :: gs) -> label s' = label s ->
  trans h [t] h' (put_sub (label s) s' t :: gs).
Proof.
  intros S. revert gs. induction S as [|l i ts t I S IH]; intros gs O T E.
  - destruct s as [l i c]; cbn [put_sub label]. rewrite Nat.eqb_refl. destruct c; exact T.
  - apply elem_of_list_In in I. destruct (elem_of_list_split _ _ I) as (a & b & ->).
    pose proof (own_kids _ _ _ _ _ O) as [Ok NI]. rewrite app_nil_r in Ok, NI. cbn [kids] in Ok, NI.
    assert (LS : label s ∈ locs t) by (eapply subtree_locs; [exact S|apply label_locs]).
    assert (NL : l <> label s).
    { intros ->. apply NI. rewrite flat_app, flat_cons. set_solver. }
    destruct Ok as [Rk Nk]. rewrite flat_app, flat_cons in Nk.
    apply NoDup_app in Nk as (N1 & N2 & N3). apply NoDup_app in N3 as (N3 & N4 & N5).
    assert (Na : label s ∉ flat a) by (intros H; apply (N2 _ H); set_solver).
    assert (Nb : label s ∉ flat b) by (intros H; apply (N4 _ LS H)).
    cbn [put_sub label]. destruct (Nat.eqb_spec l (label s)); [congruence|].
    rewrite map_app, map_cons, !map_put_sub_absent by done.
    apply trans_lift; [exact O| |].
    + rewrite !map_app. cbn [map]. rewrite put_sub_label by done. reflexivity.
    + pose proof (act h a [t] b [] h' [put_sub (label s) s' t] gs) as Z. cbn [app] in Z. rewrite !app_nil_r in Z. rewrite app_nil_r.
      apply Z.
      * split; [exact Rk|]. rewrite flat_app, flat_cons. apply NoDup_app. split; [done|]. split; [done|].
        apply NoDup_app. done.
      * apply IH; [|exact T|exact E]. split; [|cbn; by rewrite app_nil_r].
        rewrite Forall_forall in Rk. constructor; [|constructor]. apply Rk. set_solver.
Qed.

(** ** Edits in a forest (the document and what was cut off it) *)
Lemma own_member h W t : own h W -> t ∈ W -> own h [t].
Proof.
  intros O T. destruct (elem_of_list_split _ _ T) as (a & b & ->). apply own_app_r in O. by apply own_head in O.
Qed.

Lemma own_subtree h s t : own h [t] -> subtree s t -> own h [s].
Proof.
  intros [R N] S. split.
  - constructor; [|constructor]. eapply subtree_reads; [exact S|]. by inversion R.
  - cbn in *. rewrite app_nil_r in *. clear R. induction S as [|l i ts t I S IH]; [done|].
    apply IH. rewrite locs_eq in N. cbn [kids] in N. apply NoDup_cons in N as [_ N].
    apply elem_of_list_In in I. destruct (elem_of_list_split _ _ I) as (a & b & ->).
    rewrite flat_app, flat_cons in N. apply NoDup_app in N as (_ & _ & N). by apply NoDup_app in N as (? & _).
Qed.

Lemma apart_member ro h W t : apart ro h W -> t ∈ W -> apart ro h [t].
Proof.
  intros A T l R. destruct (A l R) as [A1 A2]. split; [done|]. cbn. rewrite app_nil_r.
  intros H. apply A2, elem_of_flat. eauto.
Qed.
Lemma apart_subtree ro h s t : apart ro h [t] -> subtree s t -> apart ro h [s].
Proof.
  intros A S l R. destruct (A l R) as [A1 A2]. split; [done|]. cbn in *. rewrite app_nil_r in *.
  intros H. apply A2. eapply subtree_locs; eauto.
Qed.

Definition root_kept (W W' : list ltree) : Prop :=
  match W, W' with
  | t :: _, t' :: _ => label t' = label t
  | _, _ => False
  end.

(** Whatever a computation does to one subtree of a forest, it does to the
    forest. *)
Lemma forest_edit h W x :
  own h W -> x ∈ flat W ->
  exists s t, subtree s t /\ t ∈ W /\ label s = x /\ own h [s] /\
    forall h' s' gs, trans h [s] h' (s' :: gs) -> label s' = label s ->
      trans h W h' (map (put_sub x s') W ++ gs) /\ root_kept W (map (put_sub x s') W ++ gs).
Proof.
  intros O X. apply elem_of_flat in X as (t & T & X).
  destruct (subtree_of_loc x t X) as (s & S & E). exists s, t.
  pose proof (own_member _ _ _ O T) as Ot.
  split; [done|]. split; [done|]. split; [done|]. split; [eapply own_subtree; eauto|].
  intros h' s' gs TR L. subst x.
  pose proof (trans_inside _ _ _ _ _ _ S Ot TR L) as TT.
  destruct (elem_of_list_split _ _ T) as (a & b & ->).
  assert (NA : label s ∉ flat a /\ label s ∉ flat b).
  { destruct O as [_ N]. rewrite flat_app, flat_cons in N.
    apply NoDup_app in N as (N1 & N2 & N3). apply NoDup_app in N3 as (N3 & N4 & N5).
    split; intros H; [apply (N2 _ H); set_solver|exact (N4 _ X H)]. }
  destruct NA as [NA NB].
  rewrite map_app, map_cons, !map_put_sub_absent by done. split.
  - apply (trans_perm h ([t] ++ a ++ b) (a ++ t :: b) h' ((put_sub (label s) s' t :: gs) ++ a ++ b)).
    + cbn. rewrite Permutation_middle. done.
    + cbn. rewrite <- app_assoc. cbn. rewrite <- Permutation_middle. apply perm_skip.
      rewrite (Permutation_app_comm gs). rewrite <- app_assoc. done.
    + apply trans_frame_r; [|exact TT]. eapply own_perm; [|exact O]. cbn. symmetry. apply Permutation_middle.
  - destruct a as [|a0 a]; cbn; [by apply put_sub_label|done].
Qed.

(** Boolean versions of the specification predicates, used only to check the
    concrete examples. *)
From Verif Require Import Prelude Format SpecFormat ProofFormat Yaml SpecMerge ProofMerge ProofMergeMap ProofMergeAbs ProofMergeIdem.

Fixpoint everywhereb (p : tree -> bool) (t : tree) : bool :=
  p t && match t with T _ None => true | T _ (Some l) => forallb (everywhereb p) l end.

Lemma everywhereb_sound (p : tree -> bool) (P : tree -> Prop) t :
  (forall t, p t = true -> P t) -> everywhereb p t = true -> everywhere P t.
Proof.
  intros Hp. induction t as [i|i l IH] using tree_ind'; cbn [everywhereb]; intros H;
    apply andb_true_iff in H as [H1 H2].
  - rewrite everywhere_none. auto.
  - rewrite everywhere_some. split; [auto|]. rewrite forallb_forall in H2. rewrite Forall_forall in *.
    intros x Hx. apply IH; [exact Hx|]. apply H2. apply elem_of_list_In. exact Hx.
Qed.

Definition freeb (s : list N) : bool := negb (check_for_markers s).
Lemma freeb_sound s : freeb s = true -> ~ marker_in s.
Proof. unfold freeb. rewrite negb_true_iff. apply check_markers_false. Qed.

Definition node_plainb (t : tree) : bool :=
  freeb (i_value (t_info t)) && freeb (i_head (t_info t)) && freeb (i_linec (t_info t)) && freeb (i_foot (t_info t)).
Lemma node_plainb_sound t : node_plainb t = true -> node_plain t.
Proof.
  unfold node_plainb. rewrite !andb_true_iff. intros [[[A B] C] D]. unfold node_plain.
  auto using freeb_sound.
Qed.
Lemma plain_ex t : everywhereb node_plainb t = true -> plain t.
Proof. apply everywhereb_sound, node_plainb_sound. Qed.

Definition evenb (l : list tree) : bool := Nat.even (length l).
Lemma evenb_sound l : evenb l = true -> is_paired l.
Proof. apply is_paired_even. Qed.

Definition node_pairedb (t : tree) : bool := negb (kind_eqb (t_kind t) KMapping) || evenb (children t).
Lemma well_paired_ex t : everywhereb node_pairedb t = true -> well_paired t.
Proof.
  apply everywhereb_sound. intros x H Hk. unfold node_pairedb in H. rewrite Hk in H. apply evenb_sound. exact H.
Qed.

Definition noneb {A} (o : option A) : bool := match o with None => true | _ => false end.
Lemma noneb_sound {A} (o : option A) : noneb o = true -> o = None.
Proof. destruct o; [discriminate|reflexivity]. Qed.

Definition node_simpleb (t : tree) : bool :=
  match t_kind t with
  | KMapping => evenb (children t) | KSequence => true | KScalar => noneb (t_content t) | _ => false
  end.
Lemma simple_ex t : everywhereb node_simpleb t = true -> simple_value t.
Proof.
  apply everywhereb_sound. intros x H. unfold node_simpleb in H. unfold node_simple.
  destruct (t_kind x); try discriminate; auto using evenb_sound, noneb_sound.
Qed.

Definition node_shapeb (t : tree) : bool :=
  match t_kind t with KScalar | KZero => noneb (t_content t) | _ => true end.
Lemma good_shape_ex t : everywhereb node_shapeb t = true -> good_shape t.
Proof.
  apply everywhereb_sound. intros x H. unfold node_shapeb in H. unfold node_shape.
  destruct (t_kind x); auto using noneb_sound.
Qed.

Definition nodupb (l : list (list N)) : bool := bool_decide (NoDup l).
Definition no_commentsb (t : tree) : bool :=
  seq_eqb (i_head (t_info t)) [] && seq_eqb (i_linec (t_info t)) [] && seq_eqb (i_foot (t_info t)) [].
Definition node_idemb (t : tree) : bool :=
  no_commentsb t && node_plainb t &&
  match t_kind t with
  | KMapping => evenb (children t) && nodupb (keys (children t))
  | KScalar => noneb (t_content t) | _ => false
  end.
Lemma idem_ex t : everywhereb node_idemb t = true -> everywhere node_idem t.
Proof.
  apply everywhereb_sound. intros x H. unfold node_idemb in H. rewrite !andb_true_iff in H.
  destruct H as [[H1 H2] H3]. unfold node_idem. split; [|split].
  - unfold no_commentsb in H1. rewrite !andb_true_iff in H1. destruct H1 as [[A B] C]. unfold no_comments.
    destruct (seq_eqb_spec (i_head (t_info x)) []), (seq_eqb_spec (i_linec (t_info x)) []),
      (seq_eqb_spec (i_foot (t_info x)) []); auto; discriminate.
  - apply node_plainb_sound. exact H2.
  - destruct (t_kind x); try discriminate.
    + apply andb_true_iff in H3 as [A B]. split; [apply evenb_sound; exact A|].
      exact (bool_decide_eq_true_1 _ B).
    + apply noneb_sound. exact H3.
Qed.

Definition no_alias_no_docb (t : tree) : bool :=
  negb (kind_eqb (t_kind t) KAlias) && negb (kind_eqb (t_kind t) KDocument).
Lemma no_alias_no_doc_ex t : everywhereb no_alias_no_docb t = true -> everywhere no_alias_no_doc t.
Proof.
  apply everywhereb_sound. intros x H. unfold no_alias_no_docb in H. apply andb_true_iff in H as [A B].
  split; intros E; rewrite E in *; discriminate.
Qed.

Lemma marker_free_list_ex (l : list (list N)) :
  forallb freeb l = true -> forall k, k ∈ l -> ~ marker_in k.
Proof. rewrite forallb_forall. intros H k Hk. apply freeb_sound, H, elem_of_list_In, Hk. Qed.

Lemma nodup_ex l : nodupb l = true -> NoDup l.
Proof. exact (bool_decide_eq_true_1 _). Qed.

Lemma marker_in_ex s : check_for_markers s = true -> marker_in s.
Proof. apply check_for_markers_spec. Qed.

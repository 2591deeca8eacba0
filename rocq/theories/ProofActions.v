From Verif Require Import Prelude GoStrings Format Yaml Heap HeapActions ActionNames Overlay SpecActions SpecOverlay.

Lemma lower_char_spec c l : to_lower_char c = l -> lowers c l.
Proof.
  unfold to_lower_char, lowers, cased. destruct ((65 <=? c)%N && (c <=? 90)%N) eqn:E.
  - apply andb_true_iff in E as [A B]. apply N.leb_le in A, B. intros <-. left. right. split; [lia|done].
  - destruct (N.eqb_spec c 304) as [->|]; [auto|]. destruct (N.eqb_spec c 8490) as [->|]; [auto|]. auto.
Qed.
Lemma lower_char_back c l : lowers c l -> (97 <= l <= 122)%N -> to_lower_char c = l.
Proof.
  unfold to_lower_char, lowers, cased. intros [[->|[A ->]]|[[-> ->]|[-> ->]]] L; try reflexivity.
  - destruct ((65 <=? l)%N && (l <=? 90)%N) eqn:E; [apply andb_true_iff in E as [A B]; apply N.leb_le in A, B; lia|].
    destruct (N.eqb_spec l 304); [lia|]. destruct (N.eqb_spec l 8490); [lia|done].
  - assert (E : ((65 <=? c)%N && (c <=? 90)%N) = true) by (apply andb_true_iff; split; apply N.leb_le; lia). by rewrite E.
Qed.
Lemma lower_spells s w : Forall (fun l => 97 <= l <= 122)%N (lit w) -> (to_lower s = lit w <-> spells s w).
Proof.
  unfold spells, to_lower. intros F. split.
  - intros <-. clear F. induction s; constructor; auto using lower_char_spec.
  - intros H. induction H as [|c l s' w' C _ IH]; [done|]. inversion F; subst. cbn. f_equal; auto using lower_char_back.
Qed.

Lemma word_merge : Forall (fun l => 97 <= l <= 122)%N (lit "merge"). Proof. repeat (constructor; [split; vm_compute; discriminate|]). constructor. Qed.
Lemma word_replace : Forall (fun l => 97 <= l <= 122)%N (lit "replace"). Proof. repeat (constructor; [split; vm_compute; discriminate|]). constructor. Qed.
Lemma word_delete : Forall (fun l => 97 <= l <= 122)%N (lit "delete"). Proof. repeat (constructor; [split; vm_compute; discriminate|]). constructor. Qed.
Lemma word_combine : Forall (fun l => 97 <= l <= 122)%N (lit "combine"). Proof. repeat (constructor; [split; vm_compute; discriminate|]). constructor. Qed.
Lemma word_ignore : Forall (fun l => 97 <= l <= 122)%N (lit "ignore"). Proof. repeat (constructor; [split; vm_compute; discriminate|]). constructor. Qed.
Lemma word_inject : Forall (fun l => 97 <= l <= 122)%N (lit "inject"). Proof. repeat (constructor; [split; vm_compute; discriminate|]). constructor. Qed.

Lemma decode_action_spec s : 
  (spells s "merge" /\ decode_action s = Ok AMerge) \/ (spells s "replace" /\ decode_action s = Ok AReplace) \/
  (spells s "delete" /\ decode_action s = Ok ADelete) \/ (spells s "combine" /\ decode_action s = Ok ACombine) \/
  (~ spells s "merge" /\ ~ spells s "replace" /\ ~ spells s "delete" /\ ~ spells s "combine" /\
   decode_action s = Err EInvalidAction).
Proof.
  rewrite <- (lower_spells s "merge") by apply word_merge. rewrite <- (lower_spells s "replace") by apply word_replace.
  rewrite <- (lower_spells s "delete") by apply word_delete. rewrite <- (lower_spells s "combine") by apply word_combine.
  unfold decode_action, action_id.
  destruct (seq_eqb_spec (to_lower s) (lit "merge")); [tauto|].
  destruct (seq_eqb_spec (to_lower s) (lit "replace")); [tauto|].
  destruct (seq_eqb_spec (to_lower s) (lit "delete")); [tauto|].
  destruct (seq_eqb_spec (to_lower s) (lit "combine")); tauto.
Qed.

Lemma spells_disjoint s a b : spells s a -> spells s b ->
  Forall (fun l => 97 <= l <= 122)%N (lit a) -> Forall (fun l => 97 <= l <= 122)%N (lit b) -> lit a = lit b.
Proof. intros A B Fa Fb. apply lower_spells in A; [|done]. apply lower_spells in B; [|done]. congruence. Qed.

Lemma decode_action_iff s a : decode_action s = Ok a <->
  (a = AMerge /\ spells s "merge") \/ (a = AReplace /\ spells s "replace") \/
  (a = ADelete /\ spells s "delete") \/ (a = ACombine /\ spells s "combine").
Proof.
  assert (X : forall v w, spells s v -> spells s w ->
     Forall (fun l => 97 <= l <= 122)%N (lit v) -> Forall (fun l => 97 <= l <= 122)%N (lit w) -> lit v <> lit w -> False).
  { intros v w A B C D E. apply E. by eapply spells_disjoint. }
  pose proof word_merge. pose proof word_replace. pose proof word_delete. pose proof word_combine.
  destruct (decode_action_spec s) as [[S ->]|[[S ->]|[[S ->]|[[S ->]|(A & B & C & D & ->)]]]];
    (split; [intros [= <-]; tauto|]); intros [[-> S']|[[-> S']|[[-> S']|[-> S']]]]; try reflexivity; try tauto; exfalso;
    (eapply (X _ _ S S'); [assumption|assumption|vm_compute; discriminate]).
Qed.

Lemma decode_action_error s : (forall a, decode_action s <> Ok a) -> decode_action s = Err EInvalidAction.
Proof. intros H. destruct (decode_action_spec s) as [[_ E]|[[_ E]|[[_ E]|[[_ E]|(_ & _ & _ & _ & E)]]]]; auto; by apply H in E. Qed.

Lemma decode_missing_iff s m : decode_missing s = m <->
  (m = MIgnore /\ spells s "ignore") \/ (m = MInject /\ spells s "inject") \/
  (m = MDefault /\ ~ spells s "ignore" /\ ~ spells s "inject").
Proof.
  rewrite <- (lower_spells s "ignore") by apply word_ignore. rewrite <- (lower_spells s "inject") by apply word_inject.
  unfold decode_missing.
  destruct (seq_eqb_spec (to_lower s) (lit "ignore")) as [E|E]; [|destruct (seq_eqb_spec (to_lower s) (lit "inject")) as [E'|E']].
  - split; [intros <-; auto|]. intros [[-> _]|[[-> H]|[-> H]]]; [done|rewrite E in H; discriminate|tauto].
  - split; [intros <-; auto|]. intros [[-> H]|[[-> H]|[-> H]]]; [tauto|done|tauto].
  - split; [intros <-; auto|]. intros [[-> H]|[[-> H]|[-> H]]]; tauto.
Qed.

(** ** The zero action behaves as merge *)
Lemma act_invalid fuel sed v root n : h_act fuel sed AInvalid v root n = h_act fuel sed AMerge v root n.
Proof. reflexivity. Qed.

Definition merges (a : action) : Prop := a = AInvalid \/ a = AMerge.
Lemma apply_merges fuel sed dflt o node h a b : merges a -> merges b ->
  let '(h1, o1, r1) := apply fuel sed dflt (with_action a o) node h in
  apply fuel sed dflt (with_action b o) node h = (h1, with_action b o1, r1).
Proof.
  intros A B. unfold apply.
  assert (D : h_do_action fuel sed a (o_value o) node = h_do_action fuel sed b (o_value o) node).
  { destruct A as [->| ->], B as [->| ->]; reflexivity. }
  cbn [with_action o_docqueries o_queries o_action o_value].
  assert (R : resolve_missing dflt (with_action b o) = with_action b (resolve_missing dflt (with_action a o)) /\
    h_on_missing fuel sed (resolve_missing dflt (with_action b o)) node =
    h_on_missing fuel sed (resolve_missing dflt (with_action a o)) node).
  { unfold resolve_missing, with_action. cbn. destruct (o_missing o); cbn; auto.
    destruct (equal_fold _ _); auto. }
  destruct R as [R1 R2].
  assert (W : with_action b (with_action a o) = with_action b o) by reflexivity.
  destruct (h_check_queries fuel (o_docqueries o) node h) as [h1 [[]|e| |]]; try (by rewrite W).
  destruct (h_find (o_queries o) node h1) as [h2 [[|n ns]|e| |]]; try (by rewrite W).
  - rewrite R2. destruct (h_on_missing _ _ _ _ h2) as [h3 r3]. by rewrite R1.
  - rewrite D. destruct (h_do_action _ _ _ _ _ _ h2) as [h3 r3]. by rewrite W.
Qed.

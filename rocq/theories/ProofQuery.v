From Verif Require Import Prelude GoStrings Format Yaml Heap HeapActions ActionNames Overlay SpecReach SpecActions
  SpecOverlay SpecQuery ProofActions.
From Verif Require Import ProofLocal.

Lemma info_eqb_true a b : info_eqb a b = true <->
  i_kind a = i_kind b /\ i_tag a = i_tag b /\ i_value a = i_value b /\ i_anchor a = i_anchor b.
Proof.
  unfold info_eqb. rewrite !andb_true_iff.
  destruct (kind_eqb_spec (i_kind a) (i_kind b)), (seq_eqb_spec (i_tag a) (i_tag b)),
    (seq_eqb_spec (i_value a) (i_value b)), (seq_eqb_spec (i_anchor a) (i_anchor b)); intuition congruence.
Qed.

Lemma equal_spec h : closed h -> forall d fuel a b, d <= fuel -> a < length h -> bounded d h b ->
  exists e, h_equal fuel a b h = (h, Ok e) /\ (e = true <-> alike h a b).
Proof.
  intros C. induction d as [|d IH]; [intros ? ? ? _ _ []|]. intros [|fuel] a b L A B; [lia|].
  destruct B as (nb & Eb & B). destruct (lookup_lt_is_Some_2 h a A) as [na Ea].
  assert (INV : alike h a b -> info_eqb (n_info na) (n_info nb) = true /\
     alike_alias h (n_alias na) (n_alias nb) /\ alike_content h (n_content na) (n_content nb)).
  { intros X'. inversion X' as [a' b' na' nb' X Y K1 K2 K3 K4 K5 K6]; subst a' b'. rewrite Ea in X. rewrite Eb in Y. injection X as <-. injection Y as <-.
    rewrite info_eqb_true. tauto. }
  cbn [h_equal]. unfold bind, get. rewrite Ea, Eb.
  destruct (info_eqb (n_info na) (n_info nb)) eqn:EI; cbn [negb].
  2:{ exists false. split; [done|]. split; [done|]. intros AL. destruct (INV AL). discriminate. }
  assert (HA : exists e, match n_alias na with
      | None => match n_alias nb with None => ret true | _ => ret false end
      | Some x => match n_alias nb with Some y => h_equal fuel x y | None => ret false end end h = (h, Ok e) /\
      (e = true <-> alike_alias h (n_alias na) (n_alias nb))).
  { destruct (n_alias na) as [x|] eqn:Xa, (n_alias nb) as [y|] eqn:Xb.
    - destruct (IH fuel x y) as (e & E1 & E2); [lia| | |].
      + eapply C; [exact Ea|]. by left.
      + apply B. by left.
      + exists e. split; [done|]. rewrite E2. split; [by constructor|]. by inversion 1.
    - exists false. split; [done|]. split; [done|inversion 1].
    - exists false. split; [done|]. split; [done|inversion 1].
    - exists true. split; [done|]. split; [constructor|done]. }
  destruct HA as (ea & EA & HA).
  match goal with |- context [match ?m h with _ => _ end] => change (m h) with
    (match n_alias na with
      | None => match n_alias nb with None => ret true | _ => ret false end
      | Some x => match n_alias nb with Some y => h_equal fuel x y | None => ret false end end h) end.
  rewrite EA. destruct ea; cbn [negb].
  2:{ exists false. split; [done|]. split; [done|]. intros AL. destruct (INV AL) as (_ & X & _). by apply HA in X. }
  assert (AL : alike_alias h (n_alias na) (n_alias nb)) by by apply HA.
  assert (FIN : forall e, (e = true <-> alike_content h (n_content na) (n_content nb)) -> (e = true <-> alike h a b)).
  { intros e He. rewrite He. split.
    - intros X. apply info_eqb_true in EI as (I1 & I2 & I3 & I4). econstructor; eauto.
    - intros X. apply INV in X. tauto. }
  assert (CA : forall x ls, n_content na = Some ls -> In x ls -> x < length h).
  { intros x ls E I. eapply C; [exact Ea|]. right. eauto. }
  assert (CB : forall x ls, n_content nb = Some ls -> In x ls -> bounded d h x).
  { intros x ls E I. apply B. right. eauto. }
  destruct (n_content na) as [la|], (n_content nb) as [lb|].
  2,3: exists false; split; [done|]; apply FIN; (split; [done|inversion 1]).
  2:{ exists true. split; [done|]. apply FIN. split; [constructor|done]. }
  assert (GO : exists e, (fix go (la lb : list nat) : M bool := match la with
      | [] => match lb with [] => ret true | _ :: _ => ret false end
      | x :: la' => match lb with [] => ret false | y :: lb' =>
           do! e := h_equal fuel x y in if e then go la' lb' else ret false end end) la lb h = (h, Ok e) /\
      (e = true <-> alike_list h la lb)).
  { assert (CA' : forall x, In x la -> x < length h) by eauto.
    assert (CB' : forall x, In x lb -> bounded d h x) by eauto.
    clear FIN CA CB INV. revert lb CB'. induction la as [|x la IHl]; intros [|y lb] CB'.
    - exists true. split; [done|]. split; [constructor|done].
    - exists false. split; [done|]. split; [done|inversion 1].
    - exists false. split; [done|]. split; [done|inversion 1].
    - destruct (IH fuel x y) as (e & E1 & E2); [lia|apply CA'; by left|apply CB'; by left|].
      unfold bind. rewrite E1. destruct e.
      + destruct (IHl (fun x I => CA' x (or_intror I)) lb) as (e & F1 & F2); [intros; apply CB'; by right|].
        exists e. split; [exact F1|]. rewrite F2. split; [intros; constructor; tauto|]. by inversion 1.
      + exists false. split; [done|]. split; [done|]. inversion 1; subst. tauto. }
  destruct GO as (e & E1 & E2). exists e. split; [exact E1|]. apply FIN. rewrite E2.
  split; [by constructor|]. by inversion 1.
Qed.

Lemma all_equal_spec h d fuel v : closed h -> d <= fuel -> bounded d h v ->
  forall rs, (forall x, In x rs -> x < length h) ->
  exists e, h_all_equal fuel rs v h = (h, Ok e) /\ (e = true <-> forall x, In x rs -> alike h x v).
Proof.
  intros C L B. induction rs as [|r rs IH]; intros V; cbn [h_all_equal].
  - exists true. split; [done|]. split; [intros _ ? []|done].
  - destruct (equal_spec h C d fuel r v L (V r (or_introl eq_refl)) B) as (e & E1 & E2).
    unfold bind. rewrite E1. destruct e.
    + destruct IH as (e & F1 & F2); [intros; apply V; by right|]. exists e. split; [exact F1|]. rewrite F2.
      split; [intros H x [<-|I]; [by apply E2|auto]|]. intros H x I. apply H. by right.
    + exists false. split; [done|]. split; [done|]. intros H. apply E2, H. by left.
Qed.

Lemma find_result h qs node : node < length h ->
  exists rs, h_find qs node h = (h, Ok rs) /\ forall x, In x rs <-> finds h qs node x.
Proof.
  intros N. destruct (lookup_lt_is_Some_2 h node N) as [n E]. unfold h_find, bind, get. rewrite E.
  assert (EM : (kind_eqb (i_kind (n_info n)) KDocument && match n_content n with None | Some [] => true | _ => false end) = true
     <-> empty_document h node).
  { rewrite andb_true_iff. destruct (kind_eqb_spec (i_kind (n_info n)) KDocument).
    - split; [intros [_ X]; exists n; repeat split; auto; destruct (n_content n) as [[|]|]; auto; discriminate|].
      intros (n' & E' & _ & X). rewrite E in E'. injection E' as <-. split; [done|]. by destruct X as [-> | ->].
    - split; [intros [? _]; discriminate|]. intros (n' & E' & X & _). congruence. }
  destruct (kind_eqb _ _ && _) eqn:EE.
  - exists []. split; [done|]. intros x. split; [intros []|]. intros [NE _]. destruct NE. by apply EM.
  - eexists. split; [reflexivity|]. intros x. rewrite in_concat. split.
    + intros (l & L & X). apply in_map_iff in L as (q & <- & Q). split; [|eauto].
      intros H. apply EM in H. discriminate.
    + intros [_ (q & Q & X)]. eexists. split; [|exact X]. apply in_map_iff. eauto.
Qed.

Lemma zero_spec n : node_is_zero n = true <-> n = mkNode (mkInfo KZero 0 [] [] [] [] [] [] 0 0) None None.
Proof.
  split; [|by intros ->]. unfold node_is_zero. destruct n as [[k s t v a hd lc ft rw cl] al c]. cbn.
  rewrite !andb_true_iff. intros [[[[[[[[[[[H1 H2] H3] H4] H5] H6] H7] H8] H9] H10] H11] H12].
  destruct (kind_eqb_spec k KZero) as [->|]; [|discriminate]. apply N.eqb_eq in H2, H9, H10. subst.
  destruct t, v, a, hd, lc, ft, al, c; try discriminate. reflexivity.
Qed.

Lemma condition_spec h d fuel c node : closed h -> d <= fuel -> node < length h -> bounded d h (c_value c) ->
  (forall q x, In q (c_queries c) -> In x (q_find q h node) -> x < length h) ->
  exists e, h_condition fuel c node h = (h, Ok e) /\ (e = true <-> condition_met h node c).
Proof.
  intros C L N B V. destruct (find_result h (c_queries c) node N) as (rs & F & Hrs).
  unfold h_condition, bind at 1. rewrite F. destruct rs as [|r rs].
  - exists false. split; [done|]. split; [done|]. intros [[x X] _]. by apply Hrs in X.
  - assert (Bv := B). destruct d; [destruct B|]. destruct B as (v & Ev & _).
    unfold bind, get. rewrite Ev. assert (R : exists x, finds h (c_queries c) node x).
    { exists r. apply Hrs. by left. }
    destruct (node_is_zero v) eqn:Z.
    + exists true. split; [done|]. split; [|done]. intros _. split; [done|]. left.
      unfold no_value. rewrite Ev. f_equal. by apply zero_spec.
    + destruct (all_equal_spec h (S d) fuel (c_value c) C L Bv (r :: rs)) as (e & E1 & E2).
      { intros x X. apply Hrs in X as [_ (q & Q & X)]. eauto. }
      exists e. split; [exact E1|]. rewrite E2. unfold condition_met. split.
      * intros H. split; [done|]. right. intros x X. apply H. by apply Hrs.
      * intros [_ [NV|H]]; [|intros x X; apply H; by apply Hrs].
        unfold no_value in NV. rewrite Ev in NV. injection NV as ->. vm_compute in Z. discriminate.
Qed.

Lemma check_query_spec h d fuel node cs : closed h -> d <= fuel -> node < length h ->
  (forall c, In c cs -> bounded d h (c_value c) /\ forall q x, In q (c_queries c) -> In x (q_find q h node) -> x < length h) ->
  exists e, h_check_query fuel cs node h = (h, Ok e) /\ (e = true <-> forall c, In c cs -> condition_met h node c).
Proof.
  intros C L N. induction cs as [|c cs IH]; intros V; cbn [h_check_query].
  - exists true. split; [done|]. split; [intros _ ? []|done].
  - destruct (V c (or_introl eq_refl)) as [V1 V2].
    destruct (condition_spec h d fuel c node C L N V1 V2) as (e & E1 & E2). unfold bind. rewrite E1. destruct e.
    + destruct IH as (e & F1 & F2); [intros; apply V; by right|]. exists e. split; [exact F1|]. rewrite F2.
      split; [intros H x [<-|I]; [by apply E2|auto]|]. intros H x I. apply H. by right.
    + exists false. split; [done|]. split; [done|]. intros H. apply E2, H. by left.
Qed.

Lemma check_spec h d fuel node dq : closed h -> d <= fuel -> node < length h -> conditions_ok d h node dq ->
  exists e, h_check_queries fuel dq node h = (h, Ok e) /\ (e = true <-> qualifies h node dq).
Proof.
  intros C L N V.
  assert (A : exists e, h_check_any fuel dq node h = (h, Ok e) /\
     (e = true <-> exists g, In g dq /\ forall c, In c g -> condition_met h node c)).
  { induction dq as [|g dq IH]; cbn [h_check_any].
    - exists false. split; [done|]. split; [done|]. intros (g & [] & _).
    - destruct (check_query_spec h d fuel node g C L N) as (e & E1 & E2).
      { intros c I. apply (V g c); [by left|done]. }
      unfold bind. rewrite E1. destruct e.
      + exists true. split; [done|]. split; [|done]. intros _. exists g. split; [by left|]. by apply E2.
      + destruct IH as (e & F1 & F2). { intros g' c G I. apply (V g' c); [by right|done]. }
        exists e. split; [exact F1|]. rewrite F2. split; intros (g' & G & H).
        * exists g'. split; [by right|done].
        * destruct G as [<-|G]; [|eauto]. apply E2 in H. discriminate. }
  destruct A as (e & A1 & A2). unfold h_check_queries, qualifies. destruct dq as [|g dq].
  - exists true. split; [done|]. split; [by left|done].
  - exists e. split; [exact A1|]. rewrite A2. split; [by right|]. intros [?|?]; [discriminate|done].
Qed.

(** ** Apply *)
Lemma apply_disqualified h d fuel sed dflt o node : closed h -> d <= fuel -> node < length h ->
  conditions_ok d h node (o_docqueries o) -> ~ qualifies h node (o_docqueries o) ->
  apply fuel sed dflt o node h = (h, o, Ok tt).
Proof.
  intros C L N V Q. destruct (check_spec h d fuel node (o_docqueries o) C L N V) as (e & E1 & E2).
  unfold apply. rewrite E1. destruct e; [tauto|done].
Qed.
Lemma apply_qualified h d fuel sed dflt o node : closed h -> d <= fuel -> node < length h ->
  conditions_ok d h node (o_docqueries o) -> qualifies h node (o_docqueries o) ->
  outcome (apply fuel sed dflt o node h) = outcome (apply fuel sed dflt (with_docqueries [] o) node h).
Proof.
  intros C L N V Q. destruct (check_spec h d fuel node (o_docqueries o) C L N V) as (e & E1 & E2).
  unfold apply. rewrite E1. destruct e; [|by apply E2 in Q].
  cbn [with_docqueries o_docqueries o_queries o_action o_value h_check_queries ret].
  destruct (h_find (o_queries o) node h) as [h2 [[|n ns]|x| |]]; try reflexivity.
  - assert (R : h_on_missing fuel sed (resolve_missing dflt (with_docqueries [] o)) node =
                h_on_missing fuel sed (resolve_missing dflt o) node).
    { unfold resolve_missing, h_on_missing, with_docqueries. cbn. destruct (o_missing o) eqn:M; cbn; rewrite ?M; try done.
      destruct (equal_fold _ _); cbn; rewrite ?M; reflexivity. }
    rewrite R. by destruct (h_on_missing _ _ _ _ h2).
  - by destruct (h_do_action _ _ _ _ _ _ h2).
Qed.

Lemma fold_char_spec c l : (97 <= l <= 122)%N -> (fold_char c = l <-> cased c l).
Proof.
  intros L. unfold fold_char, cased. destruct ((65 <=? c)%N && (c <=? 90)%N) eqn:E.
  - apply andb_true_iff in E as [A B]. apply N.leb_le in A, B. split; [intros <-; right; split; [lia|done]|].
    intros [->|[_ ->]]; [lia|done].
  - split; [auto|]. intros [->|[[A B] ->]]; [done|]. apply N.leb_le in A, B. rewrite A, B in E. discriminate.
Qed.
Lemma inject_spelled s : equal_fold s (lit "inject") = true <-> Forall2 cased s (lit "inject").
Proof.
  unfold equal_fold. change (map fold_char (lit "inject")) with (lit "inject").
  destruct (seq_eqb_spec (map fold_char s) (lit "inject")) as [E|E].
  - split; [intros _|done]. revert E. pose proof word_inject as W. revert W. generalize (lit "inject"). intros w.
    revert s. induction w as [|l w IH]; intros [|c s] W E; try discriminate; [constructor|].
    inversion W; subst. cbn in E. injection E as E1 E2. constructor; [|auto]. by apply fold_char_spec.
  - split; [discriminate|]. intros H. destruct E. revert H. pose proof word_inject as W. revert W. generalize (lit "inject").
    intros w W H. induction H as [|c l s' w' X _ IH]; [done|]. inversion W; subst. cbn. f_equal; [by apply fold_char_spec|auto].
Qed.

Lemma apply_missing fuel sed dflt o node h m :
  o_missing (resolve_missing dflt o) = m \/ (o_missing (resolve_missing dflt o) = MDefault /\ m = MIgnore) ->
  outcome (apply fuel sed dflt o node h) = outcome (apply fuel sed dflt (with_missing m o) node h).
Proof.
  intros R. unfold apply. cbn [with_missing o_docqueries o_queries o_action o_value].
  destruct (h_check_queries fuel (o_docqueries o) node h) as [h1 [[]|e| |]]; try reflexivity.
  destruct (h_find (o_queries o) node h1) as [h2 [[|n ns]|e| |]]; try reflexivity.
  2:{ by destruct (h_do_action _ _ _ _ _ _ h2). }
  assert (X : h_on_missing fuel sed (resolve_missing dflt o) node =
              h_on_missing fuel sed (resolve_missing dflt (with_missing m o)) node).
  { assert (D : forall o1 o2, o_queries o1 = o_queries o2 -> o_value o1 = o_value o2 -> o_inject o1 = o_inject o2 ->
      (o_missing o1 = MInject <-> o_missing o2 = MInject) -> h_on_missing fuel sed o1 node = h_on_missing fuel sed o2 node).
    { intros o1 o2 A B D H. unfold h_on_missing, h_handle_inject. rewrite A, B, D.
      destruct (o_missing o1), (o_missing o2); try reflexivity; exfalso; intuition discriminate. }
    apply D.
    - unfold resolve_missing. cbn [with_missing o_missing]. destruct (o_missing o), m; try destruct (equal_fold _ _); reflexivity.
    - unfold resolve_missing. cbn [with_missing o_missing]. destruct (o_missing o), m; try destruct (equal_fold _ _); reflexivity.
    - unfold resolve_missing. cbn [with_missing o_missing]. destruct (o_missing o), m; try destruct (equal_fold _ _); reflexivity.
    - unfold resolve_missing in *. cbn [with_missing o_missing].
      destruct (o_missing o) eqn:M; [destruct (equal_fold dflt (lit "inject")) eqn:E|..];
      cbn [o_missing] in *; rewrite ?M in *; destruct R as [R|[R R']]; subst m; cbn [o_missing with_missing]; rewrite ?E; cbn [o_missing];
      try discriminate; try tauto; intuition discriminate. }
  rewrite X. by destruct (h_on_missing _ _ _ _ h2).
Qed.

Lemma apply_ignored h d fuel sed dflt o node : closed h -> d <= fuel -> node < length h ->
  conditions_ok d h node (o_docqueries o) ->
  (forall x, ~ finds h (o_queries o) node x) ->
  o_missing o = MIgnore \/ (o_missing o = MDefault /\ ~ Forall2 cased dflt (lit "inject")) ->
  apply fuel sed dflt o node h = (h, o, Ok tt).
Proof.
  intros C L N V NF R. destruct (check_spec h d fuel node (o_docqueries o) C L N V) as (e & E1 & E2).
  unfold apply. rewrite E1. destruct e; [|done].
  destruct (find_result h (o_queries o) node N) as ([|x rs] & F & Hrs).
  2:{ exfalso. apply (NF x). apply Hrs. by left. }
  rewrite F. unfold resolve_missing. destruct R as [R|[R D]]; rewrite R.
  - unfold h_on_missing. by rewrite R.
  - rewrite <- inject_spelled in D. destruct (equal_fold dflt (lit "inject")); [by destruct D|].
    unfold h_on_missing. by rewrite R.
Qed.

Lemma resolve_cases dflt o :
  resolve_missing dflt o = o \/
  (o_missing o = MDefault /\ equal_fold dflt (lit "inject") = true /\ resolve_missing dflt o = with_missing MInject o).
Proof.
  unfold resolve_missing. destruct (o_missing o); auto. destruct (equal_fold _ _); auto.
Qed.
Lemma after_cases dflt o o' : after dflt o o' -> o' = o \/ o' = resolve_missing dflt o.
Proof.
  induction 1 as [|o1 fuel sed node h h' o' r A IH E]; [auto|].
  assert (S : o' = o1 \/ o' = resolve_missing dflt o1).
  { unfold apply in E. destruct (h_check_queries _ _ _ _) as [h1 [[]|e| |]]; try (injection E as <- <- <-; auto; fail).
    destruct (h_find _ _ _) as [h2 [[|n ns]|e| |]]; try (injection E as <- <- <-; auto; fail).
    - destruct (h_on_missing _ _ _ _ _). injection E as <- <- <-. auto.
    - destruct (h_do_action _ _ _ _ _ _ _). injection E as <- <- <-. auto. }
  assert (I : resolve_missing dflt (resolve_missing dflt o) = resolve_missing dflt o).
  { destruct (resolve_cases dflt o) as [E1|(_ & _ & E1)]; rewrite E1; [exact E1|reflexivity]. }
  destruct IH as [->| ->], S as [->| ->]; rewrite ?I; auto.
Qed.
Lemma after_same dflt o o' fuel sed node h : after dflt o o' ->
  outcome (apply fuel sed dflt o' node h) = outcome (apply fuel sed dflt o node h).
Proof.
  intros A. apply after_cases in A as [->| ->]; [done|].
  destruct (resolve_cases dflt o) as [-> |(M & E & R)]; [done|].
  rewrite R. symmetry. apply apply_missing. left. by rewrite R.
Qed.

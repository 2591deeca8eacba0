(** Proofs about combine. *)
From Coq Require Import ZifyBool ZifyN.
From stdpp Require Import sets.
From Verif Require Import Prelude GoStrings Format Yaml MergeTree Combine SpecMerge SpecCombine ProofMerge.
Local Open Scope Z_scope.
Ltac Zify.zify_post_hook ::= Z.div_mod_to_equations.

Lemma digit_of d : 0 <= d < 10 -> digit (Z.to_N (48 + d)) = Some d.
Proof.
  intros H. unfold digit. assert (E : Z.of_N (Z.to_N (48 + d)) = 48 + d) by (rewrite Z2N.id; lia).
  replace (_ && _) with true by lia. rewrite E. f_equal. lia.
Qed.
Lemma digit_some c d : digit c = Some d -> 0 <= d < 10 /\ c = Z.to_N (48 + d).
Proof. unfold digit. destruct (_ && _) eqn:E; intros [= <-]; lia. Qed.

Lemma digits_app s acc d : 0 <= d < 10 ->
  digits acc (s ++ [Z.to_N (48 + d)]) = option_map (fun z => 10 * z + d) (digits acc s).
Proof.
  intros Hd. revert acc. induction s as [|c s IH]; intros acc.
  - cbn [app digits]. rewrite digit_of by exact Hd. reflexivity.
  - cbn [app digits]. destruct (digit c); [apply IH|reflexivity].
Qed.

Lemma numeral_nonempty s z : numeral s z -> s <> [].
Proof. intros [ |s' z' d' _ _]; [discriminate|]. destruct s'; discriminate. Qed.

Lemma numeral_digits s z : numeral s z -> digits 0 s = Some z.
Proof.
  induction 1 as [d Hd|s z d Hs IH Hd].
  - cbn [digits]. rewrite digit_of by exact Hd. f_equal.
  - rewrite digits_app by exact Hd. rewrite IH. reflexivity.
Qed.
Lemma digits_numeral s z : s <> [] -> digits 0 s = Some z -> numeral s z.
Proof.
  revert z. induction s as [|c s IH] using rev_ind; intros z Hne H; [congruence|].
  assert (Hc : exists d, digit c = Some d).
  { clear -H. revert H. generalize 0. induction s as [|x s IHs]; intros acc H.
    - cbn [app digits] in H. destruct (digit c); [eauto|discriminate].
    - cbn [app digits] in H. destruct (digit x); [eauto|discriminate]. }
  destruct Hc as [d Hc]. apply digit_some in Hc as [Hd ->]. rewrite digits_app in H by exact Hd.
  destruct (digits 0 s) as [z'|] eqn:E; [|discriminate]. injection H as <-.
  destruct s as [|x s].
  - cbn in E. injection E as <-. apply (numeral_one d Hd).
  - apply numeral_more; [|exact Hd]. apply IH; [discriminate|reflexivity].
Qed.

Lemma udecimal_spec s z : udecimal s = Some z <-> numeral s z.
Proof.
  unfold udecimal. split.
  - destruct s; [discriminate|]. apply digits_numeral. discriminate.
  - intros H. pose proof (numeral_nonempty _ _ H). destruct s; [congruence|]. apply numeral_digits. exact H.
Qed.

Lemma numeral_head s z : numeral s z -> exists c r, s = c :: r /\ (48 <= c <= 57)%N.
Proof.
  induction 1 as [d Hd|s z d Hs (c & r & -> & Hc) Hd].
  - eexists _, []. split; [reflexivity|]. lia.
  - exists c, (r ++ [Z.to_N (48 + d)]). split; [reflexivity|exact Hc].
Qed.

Lemma in_int_spec z : in_int z = true <-> int64 z.
Proof. unfold in_int, int64, min_int, max_int. lia. Qed.

Lemma atoi_spec s z : atoi s = Some z <-> decimal s z /\ int64 z.
Proof.
  unfold atoi. rewrite <- in_int_spec. split.
  - intros H.
    destruct s as [|c r]; [discriminate|].
    destruct (ceq_spec c (ch "-")) as [->|H1]; [|destruct (ceq_spec c (ch "+")) as [->|H2]].
    + destruct (udecimal r) as [x|] eqn:E; cbn [option_map] in H; [|discriminate].
      destruct (in_int (- x)) eqn:Ei; [|discriminate]. injection H as <-. split; [|exact Ei].
      apply decimal_minus. apply udecimal_spec. exact E.
    + destruct (udecimal r) as [x|] eqn:E; [|discriminate].
      destruct (in_int x) eqn:Ei; [|discriminate]. injection H as <-. split; [|exact Ei].
      apply decimal_plus. apply udecimal_spec. exact E.
    + destruct (udecimal (c :: r)) as [x|] eqn:E; [|discriminate].
      destruct (in_int x) eqn:Ei; [|discriminate]. injection H as <-. split; [|exact Ei].
      apply decimal_plain. apply udecimal_spec. exact E.
  - intros [Hd Hi]. destruct Hd as [s z H|s z H|s z H].
    + pose proof (numeral_head _ _ H) as (c & r & -> & Hc).
      destruct (ceq_spec c (ch "-")) as [->|_]; [vm_compute in Hc; destruct Hc as [Hc _]; congruence|].
      destruct (ceq_spec c (ch "+")) as [->|_]; [vm_compute in Hc; destruct Hc as [Hc _]; congruence|].
      apply udecimal_spec in H. rewrite H, Hi. reflexivity.
    + apply udecimal_spec in H. change (ceq (ch "+") (ch "-")) with false.
      change (ceq (ch "+") (ch "+")) with true. cbv iota. rewrite H. rewrite Hi. reflexivity.
    + apply udecimal_spec in H. change (ceq (ch "-") (ch "-")) with true.
      cbv iota. rewrite H. cbn [option_map]. rewrite Hi. reflexivity.
Qed.

(** Printing *)
Lemma print_digits_app f n acc : print_digits f n acc = print_digits f n [] ++ acc.
Proof.
  revert n acc. induction f as [|f IH]; intros n acc; [reflexivity|]. cbn [print_digits].
  destruct (n <? 10); [reflexivity|]. rewrite IH, (IH _ [_]). rewrite <- app_assoc. reflexivity.
Qed.

Lemma print_digits_numeral f n : 0 <= n < 2 ^ Z.of_nat f -> (0 < f)%nat -> numeral (print_digits f n []) n.
Proof.
  revert n. induction f as [|f IH]; intros n Hn Hf; [lia|]. cbn [print_digits].
  destruct (n <? 10) eqn:E.
  - replace (n mod 10) with n by (rewrite Z.mod_small; lia). apply numeral_one. lia.
  - rewrite print_digits_app. pose proof (Z.div_mod n 10 ltac:(lia)) as Hdm.
    rewrite Hdm at 3. apply numeral_more; [|apply Z.mod_pos_bound; lia].
    apply IH.
    + rewrite Nat2Z.inj_succ, Z.pow_succ_r in Hn by lia. split; [apply Z.div_pos; lia|].
      apply Z.div_lt_upper_bound; lia.
    + destruct f; [|lia]. cbn in Hn. lia.
Qed.

Lemma itoa_fuel_ok n : 0 <= n -> 0 <= n < 2 ^ Z.of_nat (itoa_fuel n).
Proof.
  intros Hn. split; [exact Hn|]. unfold itoa_fuel. rewrite Nat2Z.inj_succ, Z2Nat.id by apply Z.log2_nonneg.
  destruct (Z.eq_dec n 0) as [->|Hne]; [cbn; lia|]. apply Z.log2_spec. lia.
Qed.

Lemma itoa_decimal z : decimal (itoa z) z.
Proof.
  unfold itoa. destruct (z <? 0) eqn:E.
  - rewrite <- (Z.opp_involutive z) at 3. apply decimal_minus.
    apply print_digits_numeral; [apply itoa_fuel_ok; lia|unfold itoa_fuel; lia].
  - apply decimal_plain. apply print_digits_numeral; [apply itoa_fuel_ok; lia|unfold itoa_fuel; lia].
Qed.

Lemma print_digits_canonical f n : 0 < n < 2 ^ Z.of_nat f -> (0 < f)%nat ->
  exists d r, print_digits f n [] = d :: r /\ (49 <= d <= 57)%N.
Proof.
  revert n. induction f as [|f IH]; intros n Hn Hf; [lia|]. cbn [print_digits].
  destruct (n <? 10) eqn:E.
  - eexists _, []. split; [reflexivity|]. rewrite Z.mod_small by lia. lia.
  - rewrite print_digits_app.
    destruct (IH (n / 10)) as (d & r & -> & Hd).
    + rewrite Nat2Z.inj_succ, Z.pow_succ_r in Hn by lia. split; [apply Z.div_str_pos; lia|].
      apply Z.div_lt_upper_bound; lia.
    + destruct f; [|lia]. cbn in Hn. lia.
    + exists d, (r ++ [Z.to_N (48 + n mod 10)]). split; [reflexivity|exact Hd].
Qed.

Lemma itoa_canonical z : canonical (itoa z).
Proof.
  destruct (Z.eq_dec z 0) as [->|Hne]; [left; reflexivity|right].
  unfold itoa. destruct (z <? 0) eqn:E.
  - destruct (print_digits_canonical (itoa_fuel (- z)) (- z)) as (d & r & -> & Hd).
    + pose proof (itoa_fuel_ok (- z) ltac:(lia)). lia.
    + unfold itoa_fuel; lia.
    + exists d, r. right. auto.
  - destruct (print_digits_canonical (itoa_fuel z) z) as (d & r & -> & Hd).
    + pose proof (itoa_fuel_ok z ltac:(lia)). lia.
    + unfold itoa_fuel; lia.
    + exists d, r. left. auto.
Qed.

Lemma wrap_id z : int64 z -> wrap z = z.
Proof. unfold int64, wrap. intros H. rewrite Z.mod_small by lia. lia. Qed.

Lemma parse_bool_spec s b : parse_bool s = Some b <-> bool_text s b.
Proof.
  assert (He : forall l, existsb (seq_eqb s) l = true <-> s ∈ l).
  { intros l. rewrite existsb_exists, elem_of_list_In. split.
    - intros (x & Hx & E). destruct (seq_eqb_spec s x); [subst; exact Hx|discriminate].
    - intros H. exists s. split; [exact H|apply seq_eqb_refl]. }
  unfold parse_bool.
  destruct (existsb (seq_eqb s) [lit "1"; lit "t"; lit "T"; lit "TRUE"; lit "true"; lit "True"]) eqn:E1.
  - apply He in E1. assert (Ht : true_text s) by (unfold true_text; set_solver).
    destruct b; cbn.
    + tauto.
    + split; [discriminate|]. intros Hf. exfalso. unfold true_text, false_text in *.
      apply elem_of_list_In in Ht, Hf. simpl in Ht, Hf.
      repeat (destruct Ht as [<-|Ht]; [vm_compute in Hf; firstorder discriminate|]). exact Ht.
  - assert (Ht : ~ true_text s).
    { intros Ht. assert (H : s ∈ [lit "1"; lit "t"; lit "T"; lit "TRUE"; lit "true"; lit "True"])
        by (unfold true_text in Ht; set_solver). apply He in H. congruence. }
    destruct (existsb (seq_eqb s) [lit "0"; lit "f"; lit "F"; lit "FALSE"; lit "false"; lit "False"]) eqn:E2.
    + apply He in E2. assert (Hf : false_text s) by (unfold false_text; set_solver).
      destruct b; cbn; [split; [discriminate|contradiction]|tauto].
    + assert (Hf : ~ false_text s).
      { intros Hf. assert (H : s ∈ [lit "0"; lit "f"; lit "F"; lit "FALSE"; lit "false"; lit "False"])
          by (unfold false_text in Hf; set_solver). apply He in H. congruence. }
      destruct b; cbn; split; try discriminate; contradiction.
Qed.

(** ** CombineNode *)
Lemma combine_int sed o n x y :
  t_kind o = KScalar -> t_kind n = KScalar -> t_tag o = lit "!!int" ->
  decimal (t_value o) x -> decimal (t_value n) y -> int64 x -> int64 y -> int64 (x + y) ->
  exists o', combine_node sed o n = (o', None) /\ decimal (t_value o') (x + y) /\ canonical (t_value o').
Proof.
  intros Ho Hn Ht Hx Hy Ix Iy Ixy. unfold combine_node. rewrite Ho, Hn. cbn [kind_eqb negb orb].
  rewrite merge_comments_tag, merge_comments_value. unfold t_tag, t_value in *. rewrite Ht.
  replace (seq_eqb (lit "!!int") (lit "!!int")) with true by reflexivity.
  rewrite (proj2 (atoi_spec _ _) (conj Hx Ix)), (proj2 (atoi_spec _ _) (conj Hy Iy)).
  eexists. split; [reflexivity|]. cbn. rewrite wrap_id by exact Ixy.
  split; [apply itoa_decimal|apply itoa_canonical].
Qed.

Lemma combine_int_error sed o n :
  t_kind o = KScalar -> t_kind n = KScalar -> t_tag o = lit "!!int" ->
  (~ exists x, decimal (t_value o) x /\ int64 x) \/ (~ exists y, decimal (t_value n) y /\ int64 y) ->
  exists o', combine_node sed o n = (o', Some EAtoi) /\ t_value o' = t_value o.
Proof.
  intros Ho Hn Ht Hbad. unfold combine_node. rewrite Ho, Hn. cbn [kind_eqb negb orb].
  rewrite merge_comments_tag, merge_comments_value. unfold t_tag, t_value in *. rewrite Ht.
  replace (seq_eqb (lit "!!int") (lit "!!int")) with true by reflexivity.
  destruct (atoi (i_value (t_info o))) as [x|] eqn:E1; [destruct (atoi (i_value (t_info n))) as [y|] eqn:E2|].
  - apply atoi_spec in E1, E2. exfalso. destruct Hbad as [H|H]; apply H; eauto.
  - eexists. split; [reflexivity|]. cbn. apply merge_comments_value.
  - eexists. split; [reflexivity|]. cbn. apply merge_comments_value.
Qed.

Lemma combine_bool sed o n x y :
  t_kind o = KScalar -> t_kind n = KScalar -> t_tag o = lit "!!bool" ->
  bool_text (t_value o) x -> bool_text (t_value n) y ->
  exists o', combine_node sed o n = (o', None) /\
    t_value o' = (if x && y then lit "true" else lit "false").
Proof.
  intros Ho Hn Ht Hx Hy. unfold combine_node. rewrite Ho, Hn. cbn [kind_eqb negb orb].
  rewrite merge_comments_tag, merge_comments_value. unfold t_tag, t_value in *. rewrite Ht.
  replace (seq_eqb (lit "!!bool") (lit "!!int")) with false by reflexivity.
  replace (seq_eqb (lit "!!bool") (lit "!!bool")) with true by reflexivity.
  apply parse_bool_spec in Hx, Hy. rewrite Hx, Hy. eexists. split; reflexivity.
Qed.

Lemma combine_bool_error sed o n :
  t_kind o = KScalar -> t_kind n = KScalar -> t_tag o = lit "!!bool" ->
  (~ exists x, bool_text (t_value o) x) \/ (~ exists y, bool_text (t_value n) y) ->
  exists o', combine_node sed o n = (o', Some EParseBool) /\ t_value o' = t_value o.
Proof.
  intros Ho Hn Ht Hbad. unfold combine_node. rewrite Ho, Hn. cbn [kind_eqb negb orb].
  rewrite merge_comments_tag, merge_comments_value. unfold t_tag, t_value in *. rewrite Ht.
  replace (seq_eqb (lit "!!bool") (lit "!!int")) with false by reflexivity.
  replace (seq_eqb (lit "!!bool") (lit "!!bool")) with true by reflexivity.
  destruct (parse_bool (i_value (t_info o))) as [x|] eqn:E1; [destruct (parse_bool (i_value (t_info n))) as [y|] eqn:E2|].
  - apply parse_bool_spec in E1, E2. exfalso. destruct Hbad as [H|H]; apply H; eauto.
  - eexists. split; [reflexivity|]. cbn. apply merge_comments_value.
  - eexists. split; [reflexivity|]. cbn. apply merge_comments_value.
Qed.

Lemma combine_text sed o n :
  t_kind o = KScalar -> t_kind n = KScalar -> t_tag o <> lit "!!int" -> t_tag o <> lit "!!bool" ->
  exists o', combine_node sed o n = (o', None) /\ t_value o' = t_value o ++ t_value n.
Proof.
  intros Ho Hn H1 H2. unfold combine_node. rewrite Ho, Hn. cbn [kind_eqb negb orb].
  rewrite merge_comments_tag, merge_comments_value. unfold t_tag, t_value in *.
  destruct (seq_eqb_spec (i_tag (t_info o)) (lit "!!int")); [congruence|].
  destruct (seq_eqb_spec (i_tag (t_info o)) (lit "!!bool")); [congruence|].
  eexists. split; reflexivity.
Qed.

Lemma combine_not_scalar sed o n :
  t_kind o <> KScalar \/ t_kind n <> KScalar -> combine_node sed o n = (o, Some ECombineOnlyScalars).
Proof.
  intros H. unfold combine_node.
  destruct (kind_eqb_spec (t_kind o) KScalar), (kind_eqb_spec (t_kind n) KScalar); cbn; try reflexivity. tauto.
Qed.

Lemma combine_frame sed o n :
  let o' := fst (combine_node sed o n) in
  t_kind o' = t_kind o /\ t_tag o' = t_tag o /\ i_style (t_info o') = i_style (t_info o) /\
  i_anchor (t_info o') = i_anchor (t_info o) /\ t_content o' = t_content o.
Proof.
  assert (Hm : forall v, i_kind (set_value v (merge_comments sed (t_info o) (t_info n) [])) = i_kind (t_info o)
     /\ i_tag (set_value v (merge_comments sed (t_info o) (t_info n) [])) = i_tag (t_info o)
     /\ i_style (set_value v (merge_comments sed (t_info o) (t_info n) [])) = i_style (t_info o)
     /\ i_anchor (set_value v (merge_comments sed (t_info o) (t_info n) [])) = i_anchor (t_info o)).
  { intros v. cbn. rewrite merge_comments_kind, merge_comments_tag, merge_comments_style, merge_comments_anchor. auto. }
  assert (Hk : i_kind (merge_comments sed (t_info o) (t_info n) []) = i_kind (t_info o)
     /\ i_tag (merge_comments sed (t_info o) (t_info n) []) = i_tag (t_info o)
     /\ i_style (merge_comments sed (t_info o) (t_info n) []) = i_style (t_info o)
     /\ i_anchor (merge_comments sed (t_info o) (t_info n) []) = i_anchor (t_info o)).
  { rewrite merge_comments_kind, merge_comments_tag, merge_comments_style, merge_comments_anchor. auto. }
  unfold combine_node, t_kind, t_tag. cbv zeta.
  repeat case_match; cbn [fst t_info t_content]; try tauto;
    match goal with |- context [set_value ?v _] => specialize (Hm v); tauto end.
Qed.

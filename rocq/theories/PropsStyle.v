(** C74: --output-style reaches the encoder. *)
From Verif Require Import Prelude GoStrings Yaml Paths ProofPaths Render SpecRender Config PropsConfig Main SpecMain PropsMain SpecStyle ProofStyle.

(** *** Words *)
Lemma fields_from_space s acc : all_space s -> fields_from s acc = match acc with [] => [] | _ => [rev acc] end.
Proof.
  intros H. revert acc. induction H as [|c s C _ IH]; intros acc; cbn [fields_from]; [done|]. rewrite C. destruct acc; [by rewrite IH|]. by rewrite IH.
Qed.
Lemma fields_from_skip s r : all_space s -> fields_from (s ++ r) [] = fields_from r [].
Proof. induction 1 as [|c s C _ IH]; [done|]. cbn [app fields_from]. by rewrite C. Qed.
Lemma fields_from_word w : forall acc r, no_space w -> fields_from (w ++ r) acc = fields_from r (rev w ++ acc).
Proof.
  induction w as [|c w IH]; intros acc r H; [done|]. apply Forall_cons in H as [C H]. cbn [app fields_from rev]. rewrite C, IH by done. by rewrite <- app_assoc.
Qed.
Lemma words_fields s ws : words s ws -> fields s = ws.
Proof.
  unfold fields. induction 1 as [s A|s w A NW NE|s w c r ws A NW NE C _ IH].
  - by apply fields_from_space.
  - rewrite fields_from_skip by done. rewrite <- (app_nil_r w) at 1. rewrite fields_from_word by done. rewrite app_nil_r. cbn [fields_from].
    destruct (rev w) as [|x y] eqn:E; [apply (f_equal (@rev N)) in E; rewrite rev_involutive in E; done|]. by rewrite <- E, rev_involutive.
  - rewrite fields_from_skip by done. rewrite fields_from_word by done. rewrite app_nil_r. cbn [fields_from]. rewrite C.
    destruct (rev w) as [|x y] eqn:E; [apply (f_equal (@rev N)) in E; rewrite rev_involutive in E; done|]. by rewrite <- E, rev_involutive, IH.
Qed.

(** *** The text of the flag *)
Definition bracket (c : N) : bool := existsb (ceq c) (lit "[]").
Lemma trim_left_keep f s : Forall (fun c => f c = false) s -> trim_left f s = s.
Proof. destruct 1 as [|c s C _]; [done|]. cbn [trim_left]. by rewrite C. Qed.
Lemma trim_brackets body : Forall (fun c => bracket c = false) body -> trim_cutset (lit "[]") ([91%N] ++ body ++ [93%N]) = body.
Proof.
  intros H. unfold trim_cutset. fold bracket. change (trim_left (fun c => existsb (ceq c) (lit "[]"))) with (trim_left bracket).
  assert (E : trim_left bracket ([91%N] ++ body ++ [93%N]) = trim_left bracket (body ++ [93%N])) by done. rewrite E.
  destruct body as [|c body]; [by vm_compute|]. apply Forall_cons in H as [C H].
  assert (E2 : trim_left bracket ((c :: body) ++ [93%N]) = (c :: body) ++ [93%N]) by (cbn [app trim_left]; by rewrite C). rewrite E2.
  rewrite rev_app_distr. cbn [rev app]. assert (E3 : forall l, trim_left bracket (93%N :: l) = trim_left bracket l) by done. rewrite E3.
  rewrite trim_left_keep.
  - rewrite rev_app_distr. cbn [rev app]. by rewrite rev_involutive.
  - apply Forall_app. split; [by apply Forall_rev|by constructor].
Qed.

Definition first_name (x : N) : list N := match List.find (fun p => N.eqb (fst p) x) style_flag_map with Some (_, n :: _) => n | _ => [] end.
Definition a_style (x : N) : Prop := In x (map fst style_flag_map).
Lemma a_style_cases (Q : N -> Prop) : Q 64%N -> Q 1%N -> Q 2%N -> Q 4%N -> Q 8%N -> Q 16%N -> Q 32%N -> forall x, a_style x -> Q x.
Proof. intros; unfold a_style in *. repeat match goal with H : In _ _ |- _ => destruct H as [<-|H]; [done|] end. done. Qed.
Lemma name_facts x : a_style x -> style_of_name (to_lower (first_name x)) = [x] /\
  Forall (fun c => bracket c = false) (to_lower (first_name x)) /\ ~ In 44%N (to_lower (first_name x)) /\ no_space (first_name x).
Proof.
  revert x. apply a_style_cases; (split; [by vm_compute|]); (split; [apply Forall_forall; intros c C%elem_of_list_In; vm_compute in C; repeat (destruct C as [<-|C]; [by vm_compute|]); done|]);
    (split; [vm_compute; intros C; repeat (destruct C as [C|C]; [discriminate C|]); done|]);
    apply Forall_forall; intros c C%elem_of_list_In; vm_compute in C; repeat (destruct C as [<-|C]; [by vm_compute|]); done.
Qed.
Lemma lower_join l : to_lower (join_with [44%N] l) = join_with [44%N] (map to_lower l).
Proof. induction l as [|a [|b l] IH]; [done|done|]. cbn [join_with map] in *. unfold to_lower in *. rewrite !map_app. by rewrite IH. Qed.
Lemma join_all (Q : N -> Prop) l : Q 44%N -> Forall (Forall Q) l -> Forall Q (join_with [44%N] l).
Proof.
  intros H44. induction l as [|a [|b l] IH]; intros H; [constructor|by apply Forall_cons in H as [? _]|]. apply Forall_cons in H as [Ha H]. cbn [join_with] in *.
  apply Forall_app. split; [done|]. apply Forall_app. split; [by constructor|]. by apply IH.
Qed.
Lemma flag_text ss : Forall a_style ss -> styles_from_config (fields (style_flag_text ss)) = ss.
Proof.
  intros A. assert (N0 : no_space (style_flag_text ss)).
  { unfold style_flag_text. apply Forall_app. split; [by constructor|]. apply Forall_app. split; [|by constructor].
    apply join_all; [done|]. rewrite Forall_map. eapply Forall_impl; [exact A|]. intros x X. by apply name_facts in X as (_ & _ & _ & ?). }
  rewrite (words_fields _ [style_flag_text ss]) by (apply (words_last [] (style_flag_text ss)); [constructor|done|done]).
  unfold styles_from_config. cbn [map concat]. rewrite app_nil_r.
  assert (E : to_lower (style_flag_text ss) = [91%N] ++ join_with [44%N] (map (fun x => to_lower (first_name x)) ss) ++ [93%N]).
  { change (style_flag_text ss) with ([91%N] ++ join_with [44%N] (map first_name ss) ++ [93%N]).
    unfold to_lower at 1. rewrite !map_app. fold (to_lower (join_with [44%N] (map first_name ss))). rewrite lower_join, map_map. done. }
  rewrite E, trim_brackets.
  - destruct ss as [|x ss]; [by vm_compute|]. rewrite split_join; [|done|].
    + clear E N0. induction A as [|y l Y A IH]; [done|]. cbn [map concat]. rewrite (proj1 (name_facts _ Y)), IH. done.
    + rewrite Forall_map. eapply Forall_impl; [exact A|]. intros y Y. by apply name_facts in Y as (_ & _ & ? & _).
  - apply join_all; [done|]. rewrite Forall_map. eapply Forall_impl; [exact A|]. intros y Y. by apply name_facts in Y as (_ & ? & _).
Qed.
Lemma all_names_styles l ss : all_names l = Some ss -> Forall a_style ss.
Proof.
  revert ss; induction l as [|n l IH]; intros ss; cbn [all_names]; [intros [= <-]; constructor|].
  destruct (style_flag_name n) as [x|] eqn:E; [|done]. destruct (all_names l) as [xs|]; [|done]. intros [= <-]. constructor; [|by apply IH].
  unfold style_flag_name in E. destruct (List.find _ _) as [p|] eqn:Fp; [|done]. injection E as <-. apply find_some in Fp as [I _]. by apply in_map.
Qed.

(** C74.  The styles named with --output-style (in all its occurrences, in order) are the
    styles the documents are written with, whatever the configuration file says; without the
    flag and without a configuration file it is the normal style. *)
Theorem C74_style_flag_reaches_output env cli config_at search number cfg occurrences ss :
  styles_asked occurrences ss ->
  output_settings env cli config_at search number cfg ->
  (occurrences <> [] /\ cli (lit "output-style") = Some (style_flag_text ss) \/
   occurrences = [] /\ cli (lit "output-style") = None /\ forall f c, chosen_file env cli search = Some f -> config_at f = Some c -> entry c (lit "outputStyle") = None) ->
  styles_from_config (oc_styles cfg) = ss.
Proof.
  intros SF%style_flag_asked OS H. destruct OS as [_ _ W _]. rewrite <- (words_fields _ _ W). unfold style_setting, setting. destruct H as [[NE ->]|(-> & -> & H)].
  - apply flag_text. unfold style_flag in SF. destruct occurrences; [done|]. by eapply all_names_styles.
  - injection SF as <-. destruct (chosen_file env cli search) as [f|]; [|by vm_compute]. destruct (config_at f) as [c|] eqn:C; [|by vm_compute].
    rewrite (H f c eq_refl C). by vm_compute.
Qed.
Example C74_applies : styles_asked [lit "dq,Flow"; lit "TAG"] [2; 32; 1]%N /\ style_flag_text [2; 32; 1]%N = lit "[doubleQuoted,flow,tagged]".
Proof. split; [apply style_flag_asked|]; by vm_compute. Qed.

(** The flag takes exactly the lists of these names, separated by commas, each in any letter
    case: anything else is refused. *)
Theorem C74_what_the_flag_takes occurrences ss : style_flag occurrences = Some ss <-> styles_asked occurrences ss.
Proof. apply style_flag_asked. Qed.

(** Every spelling the help text lists is accepted, in any letter case ... *)
Theorem C74_names_accepted s n st :
  In (n, st) [("normal", 64); ("n", 64); ("tagged", 1); ("tag", 1); ("t", 1);
     ("doubleQuoted", 2); ("doubleQuote", 2); ("double", 2); ("dq", 2);
     ("singleQuoted", 4); ("single", 4); ("sq", 4);
     ("literal", 8); ("l", 8); ("folded", 16); ("fold", 16); ("fo", 16); ("flow", 32); ("fl", 32)]%string%N ->
  equal_fold s (lit n) = true -> style_flag_name s = Some st.
Proof.
  intros I E. unfold style_flag_name.
  assert (X : forall p : N * list (list N), existsb (fun m => equal_fold s m) (snd p) = existsb (fun m => equal_fold (lit n) m) (snd p)).
  { intros [a l]. cbn [snd]. induction l as [|m l IH]; [done|]. cbn [existsb]. rewrite IH. f_equal. unfold equal_fold in *. destruct (seq_eqb_spec (map fold_char s) (map fold_char (lit n))) as [->|]; done. }
  assert (Y : forall l : list (N * list (list N)), List.find (fun p => existsb (fun m => equal_fold s m) (snd p)) l = List.find (fun p => existsb (fun m => equal_fold (lit n) m) (snd p)) l).
  { induction l as [|p l IH]; [done|]. cbn [List.find]. by rewrite X, IH. }
  rewrite Y. repeat (destruct I as [I|I]; [injection I as <- <-; by vm_compute|]). destruct I.
Qed.
(** ... but not "singleQuote", which the documentation also lists: it is misspelt in the
    table of the flag.  The configuration file takes it, and ignores the misspelling. *)
Theorem C74_refuted_single_quote :
  style_flag_name (lit "singleQuote") = None /\ styles_from_config [lit "singleQuote"] = [4%N] /\
  style_flag_name (lit "singleQoute") = Some 4%N /\ styles_from_config [lit "singleQoute"] = [].
Proof. split_and!; by vm_compute. Qed.

Print Assumptions C74_style_flag_reaches_output.
Print Assumptions C74_what_the_flag_takes.
Print Assumptions C74_names_accepted.

(** The model of --output-style against its documentation. *)
From Verif Require Import Prelude GoStrings Yaml Paths ProofPaths Render Main SpecStyle.

Lemma fold_letter a b : fold_char a = fold_char b <-> same_letter a b.
Proof.
  unfold fold_char, same_letter.
  destruct (N.leb_spec 65 a), (N.leb_spec a 90), (N.leb_spec 65 b), (N.leb_spec b 90); cbn [andb]; lia.
Qed.
Lemma fold_same s t : equal_fold s t = true <-> Forall2 same_letter s t.
Proof.
  unfold equal_fold. destruct (seq_eqb_spec (map fold_char s) (map fold_char t)) as [E|E]; split; intros H; try done.
  - revert t E. clear H. induction s as [|a s IH]; intros [|b t] E; try done. injection E as E1 E2. constructor; [by apply fold_letter|by apply IH].
  - exfalso. apply E. induction H as [|a b s t H _ IH]; [done|]. cbn [map]. f_equal; [by apply fold_letter|]. apply IH. intros X. apply E. cbn [map]. f_equal; [by apply fold_letter|done].
Qed.
Lemma fold_both s t m : Forall2 same_letter s t -> equal_fold s m = equal_fold t m.
Proof.
  intros H. apply fold_same in H. unfold equal_fold in *. destruct (seq_eqb_spec (map fold_char s) (map fold_char t)) as [->|]; done.
Qed.
Lemma name_style s st : style_flag_name s = Some st <-> names_style s st.
Proof.
  split.
  - unfold style_flag_name. destruct (List.find _ _) as [p|] eqn:F; [|done]. intros [= <-]. apply find_some in F as [I E]. apply existsb_exists in E as (m & M & E).
    apply fold_same in E. unfold names_style. repeat (destruct I as [<-|I]; [repeat (destruct M as [<-|M]; [eexists; split; [|exact E]; repeat (first [left; reflexivity|right])|]); done|]). done.
  - intros (n & I & E).
    assert (Y : forall l : list (N * list (list N)), List.find (fun p => existsb (fun m => equal_fold s m) (snd p)) l = List.find (fun p => existsb (fun m => equal_fold (lit n) m) (snd p)) l).
    { induction l as [|p l IH]; [done|]. cbn [List.find]. rewrite IH. assert (X : existsb (fun m => equal_fold s m) (snd p) = existsb (fun m => equal_fold (lit n) m) (snd p)); [|by rewrite X].
      induction (snd p) as [|m r IHm]; [done|]. cbn [existsb]. by rewrite IHm, (fold_both _ _ m E). }
    unfold style_flag_name. rewrite Y. repeat (destruct I as [I|I]; [injection I as <- <-; by vm_compute|]). destruct I.
Qed.
Lemma names_styles l ss : all_names l = Some ss <-> Forall2 names_style l ss.
Proof.
  revert ss; induction l as [|n l IH]; intros ss; cbn [all_names].
  - split; [intros [= <-]; constructor|]. by inversion 1.
  - split.
    + destruct (style_flag_name n) as [x|] eqn:E; [|done]. destruct (all_names l) as [xs|] eqn:A; [|done]. intros [= <-]. constructor; [by apply name_style|by apply IH].
    + inversion 1 as [|? x ? xs X Y]; subst. apply name_style in X as ->. apply IH in Y as ->. done.
Qed.
Lemma commas s : comma_list s (split_on 44%N s).
Proof.
  induction s as [|c s IH]; [apply comma_one; by intros []|]. cbn [split_on]. unfold ceq. destruct (N.eqb_spec c 44) as [->|N].
  - apply (comma_more []); [by intros []|done].
  - destruct IH as [n N1|n r ns N1 IH].
    + constructor. intros [->|X]; done.
    + apply (comma_more (c :: n)); [|done]. intros [->|X]; done.
Qed.
Lemma commas_one s l : comma_list s l -> split_on 44%N s = l.
Proof.
  induction 1 as [n N|n r ns N _ IH]; [by apply split_on_plain|]. by rewrite split_on_app, IH, split_on_plain.
Qed.
Lemma style_flag_asked occurrences ss : style_flag occurrences = Some ss <-> styles_asked occurrences ss.
Proof.
  unfold style_flag, styles_asked. destruct occurrences as [|o os].
  - split; [intros [= <-]; by left|]. intros [[_ ->]|[N _]]; done.
  - rewrite names_styles. split.
    + intros F. right. split; [done|]. exists (map (split_on 44%N) (o :: os)). split; [|done]. clear F. induction (o :: os); constructor; [apply commas|done].
    + intros [[N _]|(_ & ls & C & F)]; [done|]. replace (map (split_on 44%N) (o :: os)) with ls; [done|]. clear F.
      induction C as [|a l xs ls C _ IH]; [done|]. cbn [map]. by rewrite (commas_one _ _ C), IH.
Qed.

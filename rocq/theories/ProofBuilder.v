From Verif Require Import Prelude GoStrings Format Yaml MergeTree Lexer Builder SpecBuilder.

Local Opaque stops.
Local Arguments ch _ : simpl never.

(** ** A recursive-descent reading of the lexer and builder *)
Definition sub (rest : list N) (last : lexeme_type) : lexer := mkLexer [] rest (Some SSubPath) [] last.

Fixpoint bracket_items (fuel : nat) (s : list N) : option nat :=
  match fuel with
  | O => None
  | S f =>
      let n := spaces s in
      match drop n s with
      | [] => None
      | q :: r =>
          match escaped_len q r with
          | Ok k =>
              match whitespaced (lit ",") (drop (S k) r) with
              | Some m =>
                  if peeked_ws (lit "'") (drop m (drop (S k) r)) || peeked_ws [34%N] (drop m (drop (S k) r))
                  then match bracket_items f (drop m (drop (S k) r)) with
                       | Some p => Some (n + (1 + (S k + (m + p))))
                       | None => None
                       end
                  else None
              | None => Some (n + (1 + S k))
              end
          | _ => None
          end
      end
  end.

Definition bracket_len (s : list N) : option nat :=
  match whitespaced (lit "[") s with
  | None => None
  | Some m =>
      match bracket_items (S (length (drop m s))) (drop m s) with
      | None => None
      | Some p =>
          match whitespaced (lit "]") (drop p (drop m s)) with
          | None => None
          | Some k => Some (m + (p + k))
          end
      end
  end.

Definition bracket_text (v : list N) : list N :=
  trim_space (trim_suffix (trim_prefix (trim_space v) (lit "[")) (lit "]")).

Definition bracket_start (s : list N) : bool := peeked_ws (lit "['") s || peeked_ws [ch "["; 34%N] s.

Fixpoint parse (fuel : nat) (first : bool) (s : list N) : res tree :=
  match fuel with
  | O => Fuel
  | S f =>
      match s with
      | [] => Ok b_identity
      | c :: r =>
          if ceq c (ch ")") then Err EInvalidPath
          else if ceq c (ch ".") then
            match name_len r with
            | O => Err EInvalidPath
            | n => let! t := parse f false (drop n r) in
                   Ok (b_map [b_key (unescape (unescape (take n r))); t])
            end
          else if bracket_start s then
            match bracket_len s with
            | None => Err EInvalidPath
            | Some n => let! t := parse f false (drop n s) in
                        Ok (b_map (concat (map (fun x => [b_key x; t]) (bracket_child_names (bracket_text (take n s))))))
            end
          else if first then
            match name_len s with
            | O => Err EInvalidPath
            | n => let! t := parse f false (drop n s) in Ok (b_map [b_key (unescape (take n s)); t])
            end
          else Err EInvalidPath
      end
  end.

(** ** White space and tokens *)
Lemma spaces_le s : spaces s <= length s.
Proof. induction s as [|c r IH]; simpl; [lia|]. destruct (is_space c); lia. Qed.

Lemma whitespaced_le ts s m : whitespaced ts s = Some m -> m <= length s.
Proof.
  revert s m; induction ts as [|t ts IH]; intros s m; simpl; [intros [= <-]; lia|].
  destruct (drop (spaces s) s) as [|c r] eqn:D; [discriminate|].
  destruct (ceq c t); [|discriminate].
  destruct (whitespaced ts r) as [k|] eqn:W; [|discriminate]. intros [= <-].
  apply IH in W. pose proof (f_equal length D) as L. rewrite drop_length in L. simpl in L. lia.
Qed.

Lemma whitespaced_cons_pos t ts s m : whitespaced (t :: ts) s = Some m -> 0 < m.
Proof.
  simpl. destruct (drop (spaces s) s) as [|c r]; [discriminate|].
  destruct (ceq c t); [|discriminate]. destruct (whitespaced ts r); [|discriminate]. intros [= <-]. lia.
Qed.

Lemma peeked_one t s :
  peeked_ws [t] s = true -> exists r, drop (spaces s) s = t :: r.
Proof.
  unfold peeked_ws. simpl. destruct (drop (spaces s) s) as [|c r]; [discriminate|].
  destruct (ceq_spec c t) as [->|]; [|discriminate]. eauto.
Qed.

Lemma peeked_two t u s :
  peeked_ws [t; u] s = true ->
  exists m, whitespaced [t] s = Some m /\ peeked_ws [u] (drop m s) = true.
Proof.
  unfold peeked_ws. simpl. destruct (drop (spaces s) s) as [|c r] eqn:D; [discriminate|].
  destruct (ceq c t); [|discriminate]. intros H. exists (spaces s + 1 + 0). split; [done|].
  replace (drop (spaces s + 1 + 0) s) with r.
  - destruct (drop (spaces r) r) as [|c2 r2] eqn:D2; [discriminate|]. destruct (ceq c2 u); [done|discriminate].
  - replace (spaces s + 1 + 0) with (spaces s + 1) by lia. rewrite <- drop_drop, D. reflexivity.
Qed.

Definition quote_ahead (s : list N) : Prop := exists q r, drop (spaces s) s = q :: r /\ is_quote q = true.

Lemma quote_ahead_peek s :
  peeked_ws (lit "'") s || peeked_ws [34%N] s = true -> quote_ahead s.
Proof.
  intros H. apply orb_true_iff in H as [H|H]; apply peeked_one in H as [r R]; eexists _, r; split; eauto.
Qed.

(** ** Brackets *)
Lemma advance_advance n m l : advance m (advance n l) = advance (n + m) l.
Proof. unfold advance; cbn. f_equal; [|by rewrite drop_drop]. rewrite <- app_assoc. f_equal. apply take_take_drop. Qed.

Lemma advance_rest n l : lx_rest (advance n l) = drop n (lx_rest l).
Proof. reflexivity. Qed.

Lemma escaped_len_le q s k : escaped_len q s = Ok k -> k < length s.
Proof.
  enough (forall n s k, length s <= n -> escaped_len q s = Ok k -> k < length s) by eauto.
  clear s k. induction n as [|n IH]; intros [|c r] k L H; cbn [escaped_len length] in *; try lia;
    try (destruct (is_quote q); discriminate).
  destruct (ceq c q); [injection H as <-; lia|].
  destruct (ceq c (ch "\")).
  - destruct r as [|c2 r2]; [simpl in H; discriminate H|].
    destruct (ceq c2 q || ceq c2 (ch "\")); [|discriminate H].
    destruct (escaped_len q r2) as [a|e| |] eqn:E; try discriminate. cbn in H. injection H as <-.
    apply IH in E; simpl in *; lia.
  - destruct (escaped_len q r) as [a|e| |] eqn:E; try discriminate. cbn in H. injection H as <-.
    apply IH in E; simpl in *; lia.
Qed.

Lemma escaped_len_safe q s :
  is_quote q = true -> (exists k, escaped_len q s = Ok k) \/ escaped_len q s = Err EInvalidPath.
Proof.
  intros Q. enough (forall n s, length s <= n -> (exists k, escaped_len q s = Ok k) \/ escaped_len q s = Err EInvalidPath) by eauto.
  clear s. induction n as [|n IH]; intros [|c r] L; cbn [escaped_len length] in *; try lia; rewrite ?Q; auto.
  destruct (ceq c q); [left; eauto|].
  destruct (ceq c (ch "\")).
  - destruct r as [|c2 r2]; [auto|]. destruct (ceq c2 q || ceq c2 (ch "\")); [|auto].
    destruct (IH r2) as [[k ->]| ->]; [simpl in *; lia| |]; cbn; eauto.
  - destruct (IH r) as [[k ->]| ->]; [simpl in *; lia| |]; cbn; eauto.
Qed.

Lemma bracket_loop_eq f l :
  quote_ahead (lx_rest l) -> length (lx_rest l) < f ->
  bracket_loop f l =
  Ok (match bracket_items f (lx_rest l) with Some m => Some (advance m l) | None => None end).
Proof.
  revert l; induction f as [|f IH]; intros l (q & r & D & Q) L; [lia|].
  cbn [bracket_loop bracket_items]. rewrite advance_rest, D.
  replace (lx_rest (advance 1 (advance (spaces (lx_rest l)) l))) with r
    by (rewrite !advance_rest, D; reflexivity).
  destruct (escaped_len_safe q r Q) as [[k E]|E]; rewrite E; [|reflexivity].
  rewrite !advance_rest, D. change (drop 1 (q :: r)) with r.
  destruct (whitespaced (lit ",") (drop (S k) r)) as [m|] eqn:W.
  - cbv zeta. rewrite !advance_rest, D. change (drop 1 (q :: r)) with r.
    destruct (peeked_ws (lit "'") (drop m (drop (S k) r)) || peeked_ws [34%N] (drop m (drop (S k) r))) eqn:P;
      [|reflexivity].
    rewrite IH.
    + rewrite !advance_rest, D. change (drop 1 (q :: r)) with r.
      destruct (bracket_items f (drop m (drop (S k) r))) as [p|]; [|reflexivity].
      rewrite !advance_advance. do 2 f_equal; try (f_equal; lia).
    + rewrite !advance_rest, D. apply quote_ahead_peek. exact P.
    + rewrite !advance_rest, D. change (drop 1 (q :: r)) with r. rewrite !drop_length.
      pose proof (f_equal length D) as LD. rewrite drop_length in LD. simpl in LD.
      pose proof (whitespaced_cons_pos _ _ _ _ W). lia.
  - rewrite !advance_advance. do 2 f_equal; try (f_equal; lia).
Qed.

Lemma bracket_start_spec s :
  bracket_start s = true ->
  exists m, whitespaced (lit "[") s = Some m /\ quote_ahead (drop m s).
Proof.
  unfold bracket_start. intros H. apply orb_true_iff in H as [H|H];
    apply peeked_two in H as (m & W & P); exists m; split; try exact W;
    apply quote_ahead_peek; apply orb_true_iff; [left|right]; exact P.
Qed.

Lemma handle_bracket_eq l :
  lx_items l = [] -> bracket_start (lx_rest l) = true ->
  handle_bracket l =
  match bracket_len (lx_rest l) with
  | Some n => Ok (mkLexer [] (drop n (lx_rest l)) (Some SSubPath) [mkLexeme LBracketChild (lx_val l ++ take n (lx_rest l))] LBracketChild)
  | None => Ok (mkLexer (lx_val l) (lx_rest l) None [mkLexeme LError []] (lx_last l))
  end \/
  exists l', handle_bracket l = Ok l' /\ bracket_len (lx_rest l) = None /\ lx_items l' = [mkLexeme LError []].
Proof.
  intros I B. destruct (bracket_start_spec _ B) as (m & W & Q).
  unfold handle_bracket, bracket_len. rewrite W.
  rewrite bracket_loop_eq; rewrite ?advance_rest; [|done|lia].
  cbn [rbind]. destruct (bracket_items _ _) as [p|].
  - rewrite !advance_rest. destruct (whitespaced (lit "]") _) as [k|].
    + left. rewrite !advance_advance. unfold emit, send, goto, advance. cbn. rewrite I. cbn.
      replace (m + p + k) with (m + (p + k)) by lia. reflexivity.
    + right. eexists. split; [|split; [reflexivity|]].
      * unfold errorf, send, advance. cbn. rewrite I. cbn. reflexivity.
      * reflexivity.
  - left. unfold errorf, send, goto. rewrite I. cbn. reflexivity.
Qed.

(** ** The lexer and the parser agree *)
Lemma name_len_le s : name_len s <= length s.
Proof. induction s as [|c r IH]; simpl; [lia|]. destruct (existsb (ceq c) stops); simpl; lia. Qed.

Lemma name_len_ok s : Forall (fun c => ~ special c) (take (name_len s) s).
Proof.
  induction s as [|c r IH]; simpl; [constructor|].
  destruct (existsb (ceq c) stops) eqn:E; [constructor|]. constructor; [|exact IH].
  intros S. rewrite <- not_true_iff_false in E. apply E. apply existsb_exists. exists c. split; [exact S|].
  apply N.eqb_refl.
Qed.

Lemma name_len_max n r :
  Forall (fun c => ~ special c) n -> (r = [] \/ exists c r', r = c :: r' /\ special c) -> name_len (n ++ r) = length n.
Proof.
  intros F R. induction F as [|c n S F IH]; simpl.
  - destruct R as [->|(c & r' & -> & S)]; [done|]. simpl. replace (existsb (ceq c) stops) with true; [done|].
    symmetry. apply existsb_exists. exists c. split; [exact S|apply N.eqb_refl].
  - replace (existsb (ceq c) stops) with false; [by rewrite IH|].
    symmetry. apply not_true_iff_false. intros E. apply existsb_exists in E as (x & X & E).
    apply N.eqb_eq in E. subst. contradiction.
Qed.

Lemma unescape_in b c s : In c (unescape_from b s) -> In c s.
Proof.
  revert b; induction s as [|x r IH]; intros b; cbn [unescape_from In]; [done|].
  destruct (ceq x (ch "\")).
  - destruct b; [intros [->|H]; eauto|intros H; eauto].
  - intros [->|H]; eauto.
Qed.

Lemma not_star n : Forall (fun c => ~ special c) n -> forall m, (forall c, In c m -> In c n) -> seq_eqb m (lit "*") = false.
Proof.
  intros F m I. destruct (seq_eqb_spec m (lit "*")) as [->|]; [|done]. exfalso.
  rewrite List.Forall_forall in F. apply (F (ch "*")); [apply I; left; reflexivity|].
  unfold special, lit. simpl. auto 20.
Qed.

Lemma np_eof f l : lx_items l = [] -> lx_state l = None -> new_path (S f) l = Ok b_identity.
Proof. intros I S. cbn [new_path next_lexeme]. rewrite I, S. reflexivity. Qed.

Lemma next_items f l i : lx_items l = [i] ->
  next_lexeme f l = Ok (i, mkLexer (lx_val l) (lx_rest l) (lx_state l) [] (lx_last l)).
Proof. intros I. destruct f; simpl; rewrite I; reflexivity. Qed.

Lemma handle_child_eq t l n :
  lx_items l = [] -> name_len (lx_rest l) = S n ->
  handle_child t l =
  Ok (mkLexer [] (drop (S n) (lx_rest l)) (Some SSubPath) [mkLexeme t (lx_val l ++ take (S n) (lx_rest l))] t).
Proof. intros I N. unfold handle_child. rewrite N. unfold emit, send, goto, advance. cbn [lx_items]. rewrite I. reflexivity. Qed.

Lemma np_parse f s last :
  new_path f (sub s last) = parse f (match last with LEOF => true | _ => false end) s.
Proof.
  revert s last; induction f as [|f IH]; intros s last; [reflexivity|].
  cbn [new_path parse].
  destruct s as [|c r]; [reflexivity|].
  change (next_lexeme 4 (sub (c :: r) last)) with
    (let! l' := lex_sub_path (sub (c :: r) last) in next_lexeme 3 l').
  unfold lex_sub_path. cbn [lx_rest sub].
  destruct (ceq c (ch ")")) eqn:C1; [reflexivity|].
  destruct (ceq_spec c (ch ".")) as [->|C2].
  { change (advance 1 (sub (ch "." :: r) last)) with (mkLexer [ch "."] r (Some SSubPath) [] last).
    destruct (name_len r) as [|n] eqn:NL.
    { unfold handle_child. cbn [lx_rest]. rewrite NL. reflexivity. }
    rewrite (handle_child_eq _ (mkLexer [ch "."] r (Some SSubPath) [] last) n eq_refl NL).
    cbn [rbind lx_rest lx_val]. remember (S n) as k eqn:K.
    erewrite next_items by reflexivity. cbn [rbind lm_typ lm_val lx_val lx_rest lx_state lx_items lx_last].
    replace (trim_prefix ([ch "."] ++ take k r) (lit ".")) with (take k r) by reflexivity.
    assert (F := name_len_ok r). rewrite NL in F.
    rewrite !(not_star _ F) by (intros x X; eauto using unescape_in).
    change (mkLexer [] (drop k r) (Some SSubPath) [] LDotChild) with (sub (drop k r) LDotChild).
    rewrite IH. subst k. destruct (parse f false (drop (S n) r)); reflexivity. }
  fold (bracket_start (c :: r)). destruct (bracket_start (c :: r)) eqn:BS.
  { destruct (handle_bracket_eq (sub (c :: r) last) eq_refl BS) as [H|(l' & H & N & I)].
    - rewrite H. cbn [sub lx_rest lx_val lx_last app]. destruct (bracket_len (c :: r)) as [n|]; [|reflexivity].
      cbn [rbind]. erewrite next_items by reflexivity.
      cbn [rbind lm_typ lm_val lx_val lx_rest lx_state lx_items lx_last].
      change (mkLexer [] (drop n (c :: r)) (Some SSubPath) [] LBracketChild) with (sub (drop n (c :: r)) LBracketChild).
      rewrite IH. unfold bracket_text. destruct (parse f false (drop n (c :: r))); reflexivity.
    - rewrite H. cbn [sub lx_rest] in N. rewrite N. cbn [rbind]. erewrite next_items by exact I. reflexivity. }
  destruct last; try reflexivity.
  destruct (name_len (c :: r)) as [|n] eqn:NL.
  { unfold handle_child. cbn [lx_rest sub]. rewrite NL. reflexivity. }
  rewrite (handle_child_eq _ (sub (c :: r) LEOF) n eq_refl NL).
  change (lx_last (sub (c :: r) LEOF)) with LEOF; cbn [rbind sub lx_rest lx_val lx_last app]. remember (S n) as k eqn:K.
  erewrite next_items by reflexivity. cbn [rbind lm_typ lm_val lx_val lx_rest lx_state lx_items lx_last].
  assert (F := name_len_ok (c :: r)). rewrite NL in F. rewrite (not_star _ F) by auto.
  change (mkLexer [] (drop k (c :: r)) (Some SSubPath) [] LUndottedChild) with (sub (drop k (c :: r)) LUndottedChild).
  rewrite IH. subst k. destruct (parse f false (drop (S n) (c :: r))); reflexivity.
Qed.

Lemma build_eq s :
  build s =
  match s with
  | [] => Ok b_identity
  | c :: r => if ceq c (ch "$") then let! t := parse (4 + length r) false r in Ok (b_doc t)
              else let! t := parse (4 + length r) true s in Ok (b_doc t)
  end.
Proof.
  unfold build. destruct s as [|c r]; [reflexivity|].
  change (4 + length (c :: r)) with (S (4 + length r)). cbn [new_path].
  assert (E : next_lexeme 4 (lex_new (c :: r)) =
              if ceq c (ch "$") then Ok (mkLexeme LRoot [c], sub r LRoot)
              else Ok (mkLexeme LRoot (lit "$"), sub (c :: r) LEOF)).
  { change (next_lexeme 4 (lex_new (c :: r))) with
      (let! l' := lex_path (lex_new (c :: r)) in next_lexeme 3 l').
    unfold lex_path. cbn [lx_rest lex_new]. destruct (ceq c (ch "$")); reflexivity. }
  rewrite E. destruct (ceq c (ch "$")); cbn [rbind lm_typ]; rewrite np_parse; reflexivity.
Qed.

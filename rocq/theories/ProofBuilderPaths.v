From Verif Require Import Prelude GoStrings Format Yaml MergeTree Lexer Builder SpecBuilder ProofBuilder.

Local Opaque stops.
Local Arguments ch _ : simpl never.

(** ** Termination and the error class *)
Lemma parse_safe f first s :
  length s < f -> (exists t, parse f first s = Ok t) \/ parse f first s = Err EInvalidPath.
Proof.
  revert first s; induction f as [|f IH]; intros first s L; [lia|].
  cbn [parse]. destruct s as [|c r]; [eauto|]. simpl in L.
  destruct (ceq c (ch ")")); [auto|]. destruct (ceq c (ch ".")).
  { destruct (name_len r) as [|n]; [auto|].
    destruct (IH false (drop (S n) r)) as [[t ->]| ->]; [rewrite drop_length; lia| |]; cbn; eauto. }
  destruct (bracket_start (c :: r)).
  { destruct (bracket_len (c :: r)) as [n|] eqn:B; [|auto].
    assert (0 < n).
    { unfold bracket_len in B. destruct (whitespaced (lit "[") (c :: r)) as [m|] eqn:W; [|discriminate].
      destruct (bracket_items _ _) as [p|]; [|discriminate].
      destruct (whitespaced (lit "]") _) as [k|] eqn:W2; [|discriminate].
      injection B as <-. apply whitespaced_cons_pos in W. lia. }
    destruct (IH false (drop n (c :: r))) as [[t ->]| ->]; [rewrite drop_length; simpl; lia| |]; cbn; eauto. }
  destruct first; [|auto].
  destruct (name_len (c :: r)) as [|n]; [auto|].
  destruct (IH false (drop (S n) (c :: r))) as [[t ->]| ->]; [rewrite drop_length; simpl; lia| |]; cbn; eauto.
Qed.

Lemma build_safe s : (exists t, build s = Ok t) \/ build s = Err EInvalidPath.
Proof.
  rewrite build_eq. destruct s as [|c r]; [eauto|].
  destruct (ceq c (ch "$")).
  - destruct (parse_safe (4 + length r) false r) as [[t ->]| ->]; [lia| |]; cbn; eauto.
  - destruct (parse_safe (4 + length r) true (c :: r)) as [[t ->]| ->]; [simpl; lia| |]; cbn; eauto.
Qed.

(** More fuel changes nothing. *)
Lemma parse_fuel f f' first s : length s < f -> length s < f' -> parse f first s = parse f' first s.
Proof.
  revert f' first s; induction f as [|f IH]; intros [|f'] first s L L'; try lia.
  cbn [parse]. destruct s as [|c r]; [done|]. simpl in L, L'.
  destruct (ceq c (ch ")")); [done|]. destruct (ceq c (ch ".")).
  { destruct (name_len r) as [|n]; [done|]. rewrite (IH f'); rewrite ?drop_length; try lia; done. }
  destruct (bracket_start (c :: r)).
  { destruct (bracket_len (c :: r)) as [n|] eqn:B; [|done].
    assert (0 < n).
    { unfold bracket_len in B. destruct (whitespaced (lit "[") (c :: r)) as [m|] eqn:W; [|discriminate].
      destruct (bracket_items _ _) as [p|]; [|discriminate].
      destruct (whitespaced (lit "]") _) as [k|] eqn:W2; [|discriminate].
      injection B as <-. apply whitespaced_cons_pos in W. lia. }
    rewrite (IH f'); rewrite ?drop_length; simpl; try lia; done. }
  destruct first; [|done].
  destruct (name_len (c :: r)) as [|n]; [done|].
  rewrite (IH f'); rewrite ?drop_length; simpl; try lia; done.
Qed.

Definition parse' (first : bool) (s : list N) : res tree := parse (S (length s)) first s.

Lemma parse_parse' f first s : length s < f -> parse f first s = parse' first s.
Proof. intros L. apply parse_fuel; lia. Qed.

Lemma build_parse' s :
  build s = match s with
            | [] => Ok b_identity
            | c :: r => let! t := (if ceq c (ch "$") then parse' false r else parse' true s) in Ok (b_doc t)
            end.
Proof.
  rewrite build_eq. destruct s as [|c r]; [done|].
  destruct (ceq c (ch "$")); rewrite parse_parse'; done || (simpl; lia).
Qed.

(** ** Names *)
Lemma unescape_plain b n : ~ In backslash n -> b = false -> unescape_from b n = n.
Proof.
  intros F ->. induction n as [|c n IH]; [done|]. cbn [unescape_from].
  destruct (ceq_spec c (ch "\")) as [->|]; [exfalso; apply F; left; done|].
  rewrite IH; [done|]. intros H; apply F; right; done.
Qed.

Definition stopped (r : list N) : Prop := r = [] \/ exists c r', r = c :: r' /\ special c.

Lemma special_dot : special (ch "."). Proof. unfold special; cbn; auto. Qed.
Lemma special_bracket : special (ch "["). Proof. unfold special; cbn; auto. Qed.

Lemma take_drop_name (n r : list N) : take (length n) (n ++ r) = n /\ drop (length n) (n ++ r) = r.
Proof. split; [apply take_app|apply drop_app]. Qed.

Lemma parse_dot first n r :
  plain_name n -> stopped r ->
  parse' first (ch "." :: n ++ r) =
  let! t := parse' false r in Ok (mapping_of (entry n t)).
Proof.
  intros [[NE NS] NB] S. unfold parse' at 1. cbn [parse].
  change (ceq (ch ".") (ch ")")) with false. change (ceq (ch ".") (ch ".")) with true. cbv iota.
  rewrite name_len_max by done. destruct (take_drop_name n r) as [T D].
  destruct n as [|c n]; [done|]. change (length (c :: n)) with (Datatypes.S (length n)) in *.
  cbv iota. rewrite D, T. rewrite parse_parse' by (simpl; rewrite app_length; lia).
  unfold unescape. rewrite !(unescape_plain false (c :: n) NB eq_refl). reflexivity.
Qed.

Lemma stopped_dotted names r : stopped r -> stopped (dotted names ++ r).
Proof.
  intros S. destruct names as [|n names]; [exact S|]. right. eexists _, _. split; [reflexivity|apply special_dot].
Qed.

Lemma parse_dotted first names r :
  Forall plain_name names -> stopped r ->
  parse' first (dotted names ++ r) =
  let! t := parse' (match names with [] => first | _ => false end) r in Ok (nested names t).
Proof.
  intros F S. revert first. induction F as [|n names P F IH]; intros first; cbn [dotted map concat nested app].
  - destruct (parse' first r); reflexivity.
  - change (ch "." :: n ++ concat (map (fun n0 => ch "." :: n0) names)) with ((ch "." :: n) ++ dotted names).
    rewrite <- app_assoc. cbn [app]. rewrite parse_dot; [|done|by apply stopped_dotted].
    rewrite IH. destruct names; cbn [rbind]; destruct (parse' false r); reflexivity.
Qed.

Lemma in_drop {A} (x : A) n l : In x (drop n l) -> In x l.
Proof. intros H. rewrite <- (take_drop n l). apply in_or_app. auto. Qed.

Lemma bracket_start_in s : bracket_start s = true -> exists r, drop (spaces s) s = ch "[" :: r.
Proof.
  intros H. destruct (bracket_start_spec s H) as (m & W & _).
  assert (P : peeked_ws [ch "["] s = true) by (unfold peeked_ws; change [ch "["] with (lit "["); rewrite W; done).
  by apply peeked_one in P.
Qed.

Lemma bracket_start_bare c r : ~ space_char c -> c <> ch "[" -> bracket_start (c :: r) = false.
Proof.
  intros NS NB. destruct (bracket_start (c :: r)) eqn:B; [|done]. exfalso.
  apply bracket_start_in in B as [r' B]. simpl in B.
  destruct (is_space c) eqn:E; [exact (NS E)|]. injection B as -> _. done.
Qed.

Lemma not_special_neq n c d : Forall (fun c => ~ special c) (c :: n) -> special d -> c <> d.
Proof. intros F S ->. inversion F; contradiction. Qed.

Lemma parse_bare n r :
  bare_name n -> stopped r ->
  parse' true (n ++ r) = let! t := parse' false r in Ok (mapping_of (entry n t)).
Proof.
  intros [[[NE NS] NB] FC] S. destruct n as [|c n]; [done|].
  destruct (FC c n eq_refl) as [_ SP].
  assert (C1 : ceq c (ch ")") = false).
  { apply N.eqb_neq. apply (not_special_neq _ _ _ NS). unfold special; cbn; auto. }
  assert (C2 : ceq c (ch ".") = false).
  { apply N.eqb_neq. apply (not_special_neq _ _ _ NS), special_dot. }
  assert (C3 : c <> ch "[") by (apply (not_special_neq _ _ _ NS), special_bracket).
  unfold parse' at 1. cbn [parse app]. rewrite C1, C2, bracket_start_bare by done.
  change (c :: n ++ r) with ((c :: n) ++ r). rewrite name_len_max by done.
  destruct (take_drop_name (c :: n) r) as [T D].
  change (length (c :: n)) with (Datatypes.S (length n)) in *.
  cbv iota. rewrite D, T. rewrite parse_parse' by (simpl; rewrite app_length; lia).
  unfold unescape. rewrite !(unescape_plain false (c :: n) NB eq_refl). reflexivity.
Qed.

Lemma joined_cons n names : joined (n :: names) = n ++ dotted names.
Proof.
  revert n; induction names as [|m names IH]; intros n; [symmetry; apply app_nil_r|].
  unfold joined in *. change (join_with [ch "."] (n :: m :: names)) with (n ++ [ch "."] ++ join_with [ch "."] (m :: names)). rewrite IH. reflexivity.
Qed.

(** ** Building after a dotted start *)
Lemma build_root names r :
  Forall plain_name names -> stopped r ->
  build (ch "$" :: dotted names ++ r) = let! t := parse' false r in Ok (document_of (nested names t)).
Proof.
  intros F S. rewrite build_parse'. change (ceq (ch "$") (ch "$")) with true. cbv iota.
  rewrite parse_dotted by done. destruct names; cbn [rbind]; destruct (parse' false r); reflexivity.
Qed.

Lemma build_dot n names r :
  Forall plain_name (n :: names) -> stopped r ->
  build (dotted (n :: names) ++ r) = let! t := parse' false r in Ok (document_of (nested (n :: names) t)).
Proof.
  intros F S. rewrite build_parse'. cbn [dotted map concat app].
  change (ceq (ch ".") (ch "$")) with false. cbv iota.
  change (ch "." :: (n ++ concat (map (fun n0 => ch "." :: n0) names)) ++ r) with (dotted (n :: names) ++ r).
  rewrite parse_dotted by done. cbn [rbind]. destruct (parse' false r); reflexivity.
Qed.

Lemma build_bare n names r :
  bare_name n -> Forall plain_name names -> stopped r ->
  build (joined (n :: names) ++ r) = let! t := parse' false r in Ok (document_of (nested (n :: names) t)).
Proof.
  intros B F S. rewrite joined_cons, <- app_assoc, build_parse'.
  destruct n as [|c n]; [destruct B as [[[]]]; done|]. cbn [app].
  replace (ceq c (ch "$")) with false by (symmetry; apply N.eqb_neq; apply (proj2 B c n eq_refl)).
  change (c :: n ++ dotted names ++ r) with ((c :: n) ++ dotted names ++ r).
  rewrite parse_bare; [|done|by apply stopped_dotted].
  rewrite parse_dotted by done. destruct names; cbn [rbind]; destruct (parse' false r); reflexivity.
Qed.

(** ** Expressions are rejected *)
Lemma parse_special first c r :
  special c -> c <> ch "." -> bracket_start (c :: r) = false -> parse' first (c :: r) = Err EInvalidPath.
Proof.
  intros S ND B. unfold parse'. cbn [parse]. destruct (ceq c (ch ")")); [done|].
  destruct (ceq_spec c (ch ".")) as [->|_]; [done|]. rewrite B. destruct first; [|done].
  cbn [name_len]. replace (existsb (ceq c) stops) with true; [done|].
  symmetry. apply existsb_exists. exists c. split; [exact S|apply N.eqb_refl].
Qed.

Lemma operator_special c : In c (lit ")&|=!><~*") -> special c /\ ~ space_char c /\ c <> ch "." /\ c <> ch "[".
Proof.
  cbn. intros H. unfold special, space_char. cbn.
  repeat destruct H as [<-|H]; try contradiction; (split; [auto 20|]); repeat split; discriminate.
Qed.

Lemma spaces_blanks w r : blanks w -> (forall c r', r = c :: r' -> ~ space_char c) -> spaces (w ++ r) = length w.
Proof.
  intros B R. induction B as [|c w S B IH]; simpl.
  - destruct r as [|c r]; [done|]. simpl. destruct (is_space c) eqn:E; [|done]. exfalso. exact (R c r eq_refl E).
  - unfold space_char in S. rewrite S, IH. done.
Qed.

Lemma expression_rejected first r : expression_tail r -> stopped r /\ parse' first r = Err EInvalidPath.
Proof.
  intros E. inversion E as [c r' I|  |c r' S|w r' B R]; subst.
  - destruct (operator_special c I) as (S & NS & ND & NB). split; [right; eauto|].
    apply parse_special; auto. by apply bracket_start_bare.
  - split; [right; eexists _, _; split; [done|apply special_dot]|reflexivity].
  - split; [right; eexists _, _; split; [done|apply special_dot]|].
    unfold parse'. cbn [parse]. change (ceq (ch ".") (ch ")")) with false. change (ceq (ch ".") (ch ".")) with true.
    cbv iota. cbn [name_len]. replace (existsb (ceq c) stops) with true; [done|].
    symmetry. apply existsb_exists. exists c. split; [exact S|apply N.eqb_refl].
  - split; [right; eexists _, _; split; [done|apply special_bracket]|].
    apply parse_special; [apply special_bracket|discriminate|].
    assert (P : forall q, (forall c r2, r' = c :: r2 -> c <> q) -> peeked_ws [ch "["; q] (ch "[" :: w ++ r') = false).
    { intros q NQ. unfold peeked_ws. cbn [whitespaced]. change (spaces (ch "[" :: w ++ r')) with 0. cbn [drop].
      change (ceq (ch "[") (ch "[")) with true. cbv iota.
      rewrite spaces_blanks, drop_app; [|done|intros c r2 H; apply (R c r2 H)].
      destruct r' as [|c r2]; [done|]. destruct (ceq_spec c q) as [->|]; [|done].
      exfalso. exact (NQ q r2 eq_refl eq_refl). }
    unfold bracket_start. change (lit "['") with [ch "["; ch "'"].
    rewrite !P; [done| |]; intros c r2 H; apply (R c r2 H).
Qed.

Lemma dotted_start_rejected p r : dotted_start p -> expression_tail r -> build (p ++ r) = Err EInvalidPath.
Proof.
  intros D E. inversion D as [names F|names F|n names B F]; subst.
  - destruct (expression_rejected false r E) as [S P]. cbn [app]. rewrite build_root, P by done. reflexivity.
  - destruct names as [|n names].
    + cbn [dotted map concat app]. rewrite build_parse'. destruct r as [|c r]; [inversion E|].
      destruct (expression_rejected true _ E) as [_ P].
      replace (ceq c (ch "$")) with false; [rewrite P; reflexivity|].
      symmetry. apply N.eqb_neq. inversion E as [? ? I| | |]; subst; try discriminate.
      intros ->. cbn in I. repeat destruct I as [I|I]; try discriminate; contradiction.
    + destruct (expression_rejected false r E) as [S P]. rewrite build_dot, P by done. reflexivity.
  - destruct (expression_rejected false r E) as [S P]. rewrite build_bare, P by done. reflexivity.
Qed.

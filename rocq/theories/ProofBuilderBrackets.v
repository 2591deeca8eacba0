From Verif Require Import Prelude GoStrings Format Yaml MergeTree Lexer Builder SpecBuilder ProofBuilder ProofBuilderPaths.

Local Opaque stops.
Local Arguments ch _ : simpl never.

(** ** Splitting at commas and rejoining *)
Definition prepend (x : list N) (ws : list (list N)) : list (list N) :=
  match ws with [] => [x] | w :: r => (x ++ w) :: r end.

Lemma split_nonnil sep s : split_on sep s <> [].
Proof. destruct s as [|c r]; simpl; [done|]. destruct (ceq c sep); [done|]. by destruct (split_on sep r). Qed.

Lemma split_cons sep c s : c <> sep -> split_on sep (c :: s) = prepend [c] (split_on sep s).
Proof.
  intros N. cbn [split_on]. destruct (ceq_spec c sep); [done|]. destruct (split_on sep s); reflexivity.
Qed.

Lemma prepend_prepend x y ws : prepend x (prepend y ws) = prepend (x ++ y) ws.
Proof. destruct ws; simpl; [done|]. by rewrite app_assoc. Qed.

Lemma prepend_nil ws : ws <> [] -> prepend [] ws = ws.
Proof. by destruct ws. Qed.

Lemma split_free sep s : ~ In sep s -> split_on sep s = [s].
Proof.
  induction s as [|c s IH]; intros F; [done|]. rewrite split_cons.
  - rewrite IH; [done|]. intros H; apply F; right; done.
  - intros ->. apply F; left; done.
Qed.

Lemma split_free_app sep s r : ~ In sep s -> split_on sep (s ++ r) = prepend s (split_on sep r).
Proof.
  induction s as [|c s IH]; intros F; cbn [app].
  - symmetry. apply prepend_nil, split_nonnil.
  - rewrite split_cons by (intros ->; apply F; left; done).
    rewrite IH by (intros H; apply F; right; done). rewrite prepend_prepend. done.
Qed.

Lemma split_sep sep s r : split_on sep (s ++ sep :: r) = split_on sep s ++ split_on sep r.
Proof.
  induction s as [|c s IH]; cbn [app split_on].
  - unfold ceq. rewrite N.eqb_refl. done.
  - destruct (ceq c sep); [by rewrite IH|]. rewrite IH.
    destruct (split_on sep s) eqn:E; [exfalso; exact (split_nonnil _ _ E)|]. done.
Qed.

(** ** Balance *)
Definition free (x : list N) : Prop :=
  ~ In backslash x /\ ~ In single_quote x /\ ~ In double_quote x.
Definition a_quote (q : N) : Prop := q = single_quote \/ q = double_quote.

Lemma free_cons c x : free (c :: x) -> c <> backslash /\ c <> single_quote /\ c <> double_quote /\ free x.
Proof.
  intros (A & B & C).
  split; [intros ->; apply A; by left|]. split; [intros ->; apply B; by left|].
  split; [intros ->; apply C; by left|].
  split; [intros H; apply A; by right|]. split; [intros H; apply B; by right|intros H; apply C; by right].
Qed.
Lemma free_app x y : free x -> free y -> free (x ++ y).
Proof. intros (A & B & C) (A' & B' & C'). repeat split; intros H; apply in_app_or in H as []; auto. Qed.

Lemma free_neq q c x : a_quote q -> free (c :: x) -> c <> q.
Proof. intros [->| ->] F; apply free_cons in F as (? & ? & ? & ?); done. Qed.

Definition unslashed (p : option N) : Prop := p <> Some backslash.

Lemma balanced_free_app b p q x r :
  a_quote q -> free x -> unslashed p ->
  exists p', unslashed p' /\ balanced_from b p q (x ++ r) = balanced_from b p' q r.
Proof.
  intros Q. revert p; induction x as [|c x IH]; intros p F U; [eauto|].
  assert (NQ := free_neq _ _ _ Q F). apply free_cons in F as (NB & _ & _ & F).
  cbn [app balanced_from]. destruct (ceq_spec c q); [done|].
  apply IH; [done|]. intros [= H]; done.
Qed.

Lemma balanced_free b p q x : a_quote q -> free x -> unslashed p -> balanced_from b p q x = b.
Proof.
  intros Q F U. rewrite <- (app_nil_r x).
  destruct (balanced_free_app b p q x [] Q F U) as (p' & _ & ->). done.
Qed.

Lemma balanced_quote b p q c r :
  a_quote q -> a_quote c -> unslashed p ->
  balanced_from b p q (c :: r) = balanced_from (if ceq c q then negb b else b) (Some c) q r.
Proof.
  intros Q C U. cbn [balanced_from]. destruct (ceq c q); [|done].
  destruct p as [p|]; [|done]. destruct (ceq_spec p (ch "\")) as [->|]; [|done]. exfalso. exact (U eq_refl).
Qed.

Lemma unslashed_quote q : a_quote q -> unslashed (Some q).
Proof. intros [->| ->]; discriminate. Qed.

(** Text in which every quote follows a backslash; [p] is the character before it. *)
Fixpoint hushed (p : option N) (x : list N) : Prop :=
  match x with
  | [] => True
  | c :: r => (a_quote c -> p = Some backslash) /\ hushed (Some c) r
  end.
Fixpoint final (p : option N) (x : list N) : option N :=
  match x with [] => p | c :: r => final (Some c) r end.
Lemma hushed_app x : forall p y, hushed p (x ++ y) <-> hushed p x /\ hushed (final p x) y.
Proof. induction x as [|c x IH]; intros p y; cbn [app hushed final]; [tauto|]. rewrite IH. tauto. Qed.
Lemma final_app x : forall p y, final p (x ++ y) = final (final p x) y.
Proof. induction x as [|c x IH]; intros p y; cbn [app final]; [done|]. apply IH. Qed.
Lemma hushed_start p p' x : unslashed p -> hushed p x -> hushed p' x.
Proof. destruct x as [|c x]; [done|]. intros U [H1 H2]. split; [|done]. intros Q. by specialize (H1 Q). Qed.
Lemma final_start p p' x : unslashed p -> unslashed (final p' x) -> unslashed (final p x).
Proof. by destruct x. Qed.
Lemma free_hushed x : forall p, free x -> unslashed p -> hushed p x /\ unslashed (final p x).
Proof.
  induction x as [|c x IH]; intros p F U; [done|]. apply free_cons in F as (NB & NS & ND & F). cbn [hushed final].
  assert (U' : unslashed (Some c)) by (intros [= ->]; done). destruct (IH (Some c) F U') as [H1 H2].
  split; [split; [|done]|done]. intros [->| ->]; done.
Qed.
Lemma balanced_hushed_app b q x : forall p r, a_quote q -> hushed p x ->
  balanced_from b p q (x ++ r) = balanced_from b (final p x) q r.
Proof.
  induction x as [|c x IH]; intros p r Q H; [done|]. destruct H as [H1 H2]. cbn [app balanced_from final].
  destruct (ceq_spec c q) as [->|]; [|by apply IH]. rewrite (H1 Q). change (ceq backslash (ch "\")) with true. cbv iota. by apply IH.
Qed.
Lemma balanced_hushed b p q x : a_quote q -> hushed p x -> balanced_from b p q x = b.
Proof. intros Q H. rewrite <- (app_nil_r x). by rewrite balanced_hushed_app. Qed.

(** A piece holding exactly one unescaped quote is unbalanced. *)
Lemma one_quote q x y : a_quote q -> hushed None x -> unslashed (final None x) -> hushed (Some q) y ->
  balanced (x ++ q :: y) (ch "'") && balanced (x ++ q :: y) 34%N = false.
Proof.
  intros Q X U Y.
  assert (B : forall k, a_quote k -> balanced (x ++ q :: y) k = negb (ceq q k)).
  { intros k K. unfold balanced. rewrite balanced_hushed_app by done.
    rewrite balanced_quote by done. rewrite balanced_hushed; [by destruct (ceq q k)|done|done]. }
  rewrite !B by (by left) || by right. destruct Q as [->| ->]; reflexivity.
Qed.

Lemma two_quotes q x m y : a_quote q -> free x -> hushed (Some q) m -> unslashed (final (Some q) m) -> free y ->
  balanced (x ++ q :: m ++ q :: y) (ch "'") && balanced (x ++ q :: m ++ q :: y) 34%N = true.
Proof.
  intros Q X M U Y. destruct (free_hushed x None X) as [X1 X2]; [discriminate|].
  destruct (free_hushed y (Some q) Y) as [Y1 _]; [by apply unslashed_quote|].
  assert (B : forall k, a_quote k -> balanced (x ++ q :: m ++ q :: y) k = true).
  { intros k K. unfold balanced. rewrite balanced_hushed_app by done. rewrite balanced_quote by done.
    rewrite balanced_hushed_app by done. rewrite balanced_quote by done.
    rewrite balanced_hushed; [by destruct (ceq q k)|done|done]. }
  rewrite !B by (by left) || by right. done.
Qed.

Lemma no_quote x : hushed None x -> balanced x (ch "'") && balanced x 34%N = true.
Proof.
  intros X. unfold balanced. rewrite !balanced_hushed; try done; [by right|by left].
Qed.

(** ** Rejoining one item *)
Lemma rejoin_open q n x y acc ps :
  a_quote q -> hushed None (x ++ n) -> unslashed (final None (x ++ n)) -> free y -> ~ In (ch ",") y -> acc <> [] ->
  rejoin acc (prepend x (split_on (ch ",") (n ++ q :: y)) ++ ps) =
  (acc ++ lit "," ++ x ++ n ++ q :: y) :: rejoin [] ps.
Proof.
  intros Q H U FY CY. revert x acc H U. induction n as [|c n IH]; intros x acc H U NE.
  - cbn [app]. rewrite app_nil_r in H, U. rewrite split_free.
    2:{ intros [E|I]; [|done]. destruct Q as [->| ->]; discriminate. }
    cbn [prepend app rejoin]. rewrite one_quote; [|done..|apply free_hushed; [done|by apply unslashed_quote]].
    destruct acc; [done|]. reflexivity.
  - cbn [app]. destruct (decide (c = ch ",")) as [->|NC].
    + cbn [split_on]. change (ceq (ch ",") (ch ",")) with true. cbv iota. cbn [prepend app rejoin].
      apply hushed_app in H as [HX [_ HN]]. rewrite final_app in U. cbn [final] in U.
      rewrite app_nil_r, no_quote by done. destruct acc as [|a acc]; [done|].
      rewrite <- (prepend_nil (split_on (ch ",") (n ++ q :: y))) by apply split_nonnil.
      rewrite IH; [| |cbn [app]|done].
      2:{ cbn [app]. eapply hushed_start; [|exact HN]. discriminate. }
      2:{ eapply final_start; [discriminate|exact U]. }
      cbn [app]. f_equal. change (lit ",") with [ch ","]. rewrite <- !app_assoc. reflexivity.
    + rewrite split_cons, prepend_prepend by done.
      rewrite IH; [|by rewrite <- app_assoc|by rewrite <- app_assoc|done].
      rewrite <- !app_assoc. reflexivity.
Qed.

Lemma rejoin_item q n w x y ps :
  a_quote q -> free w -> ~ In (ch ",") w -> hushed (Some q) (x ++ n) -> unslashed (final (Some q) (x ++ n)) -> free y -> ~ In (ch ",") y ->
  rejoin [] (prepend (w ++ q :: x) (split_on (ch ",") (n ++ q :: y)) ++ ps) =
  (w ++ q :: x ++ n ++ q :: y) :: rejoin [] ps.
Proof.
  intros Q FW CW H U FY CY. revert x H U. induction n as [|c n IH]; intros x H U.
  - cbn [app]. rewrite app_nil_r in H, U. rewrite split_free.
    2:{ intros [E|I]; [|done]. destruct Q as [->| ->]; discriminate. }
    cbn [prepend app rejoin]. rewrite <- app_assoc. cbn [app]. rewrite two_quotes by done. reflexivity.
  - cbn [app]. destruct (decide (c = ch ",")) as [->|NC].
    + cbn [split_on]. change (ceq (ch ",") (ch ",")) with true. cbv iota. cbn [prepend app rejoin].
      apply hushed_app in H as [HX [_ HN]]. rewrite final_app in U. cbn [final] in U.
      destruct (free_hushed w None FW) as [W1 W2]; [discriminate|].
      rewrite app_nil_r, one_quote by done.
      rewrite <- (prepend_nil (split_on (ch ",") (n ++ q :: y))) by apply split_nonnil.
      rewrite rejoin_open; [|done| | |done|done|by destruct w].
      * change (lit ",") with [ch ","]. rewrite <- !app_assoc. reflexivity.
      * cbn [app]. eapply hushed_start; [|exact HN]. discriminate.
      * cbn [app]. eapply final_start; [discriminate|exact U].
    + rewrite split_cons, prepend_prepend by done. rewrite <- app_assoc. cbn [app].
      rewrite IH; [|by rewrite <- app_assoc|by rewrite <- app_assoc].
      rewrite <- !app_assoc. reflexivity.
Qed.

(** ** Escaped names *)
Lemma escape_hushed q n : a_quote q -> (forall c, a_quote c -> In c n -> c = q) -> forall p, p <> Some backslash -> hushed p (escape q n).
Proof.
  intros Q. induction n as [|c n IH]; intros O p U; [done|]. cbn [escape].
  assert (O' : forall c, a_quote c -> In c n -> c = q) by (intros d D I; apply O; [done|by right]).
  assert (NQ : forall d, a_quote d -> d <> backslash) by (intros d [->| ->]; discriminate).
  destruct (N.eqb_spec c q) as [->|N1]; cbn [orb app hushed].
  { split; [intros K; exfalso; by apply (NQ _ K)|]. split; [done|]. apply IH; [done|]. intros [= E]. by apply (NQ q). }
  destruct (N.eqb_spec c backslash) as [->|N2]; cbn [app hushed].
  { split; [intros K; exfalso; by apply (NQ _ K)|]. split; [done|].
    destruct n as [|d n]; [done|]. (* what follows the second backslash *)
    cbn [escape] in *. specialize (IH O' None ltac:(discriminate)). destruct (N.eqb d q || N.eqb d backslash); cbn [app hushed] in *.
    - destruct IH as [_ IH]. split; [intros K; exfalso; by apply (NQ _ K)|done].
    - destruct IH as [_ IH]. split; [done|done]. }
  split; [|apply IH; [done|congruence]]. intros K. exfalso. apply N1, O; [done|by left].
Qed.
Lemma escape_cons_final q c n p : final p (escape q (c :: n)) = final (Some c) (escape q n).
Proof. cbn [escape]. destruct (N.eqb c q || N.eqb c backslash); reflexivity. Qed.
Lemma escape_final q n p : a_quote q -> p <> Some backslash -> (forall r, n <> r ++ [backslash]) -> unslashed (final p (escape q n)).
Proof.
  intros Q. revert p. induction n as [|c n IH]; intros p U L; [done|]. rewrite escape_cons_final. destruct n as [|d n].
  - cbn. intros [= ->]. by apply (L []).
  - assert (L' : forall r, d :: n <> r ++ [backslash]) by (intros r R; apply (L (c :: r)); by rewrite R).
    specialize (IH None ltac:(discriminate) L'). rewrite escape_cons_final in *. done.
Qed.
Lemma escape_comma q n : ~ In (ch ",") n -> q <> ch "," -> ~ In (ch ",") (escape q n).
Proof.
  intros F N. induction n as [|c n IH]; [done|]. cbn [escape]. intros H. apply in_app_or in H as [H|H].
  - destruct (_ || _); cbn in H; [destruct H as [H|[H|[]]]; [discriminate|]|destruct H as [H|[]]]; apply F; by left.
  - apply IH; [|done]. intros I. apply F. by right.
Qed.
Lemma unescape_escape q n : q <> backslash -> unescape (escape q n) = n.
Proof.
  intros N. unfold unescape. induction n as [|c n IH]; [done|]. cbn [escape].
  destruct (N.eqb_spec c q) as [->|N1]; cbn [orb app unescape_from].
  { change (ceq backslash (ch "\")) with true. cbv iota. destruct (ceq_spec q (ch "\")); [done|]. by rewrite IH. }
  destruct (N.eqb_spec c backslash) as [->|N2]; cbn [app unescape_from].
  { change (ceq backslash (ch "\")) with true. cbv iota. by rewrite IH. }
  destruct (ceq_spec c (ch "\")); [done|]. by rewrite IH.
Qed.

Lemma blanks_in w c : blanks w -> In c w -> is_space c = true.
Proof. intros B H. unfold blanks in B. rewrite List.Forall_forall in B. exact (B c H). Qed.

Lemma blanks_free w : blanks w -> free w /\ ~ In (ch ",") w.
Proof.
  intros B. repeat split; intros H; apply (blanks_in _ _ B) in H; discriminate.
Qed.

Lemma rejoin_text i ps :
  item_ok i ->
  rejoin [] (split_on (ch ",") (item_text i) ++ ps) = item_text i :: rejoin [] ps.
Proof.
  intros (BL & BT & FN & Q). destruct i as [w q n y]; cbn [it_lead it_trail it_name it_quote] in *.
  unfold item_text, quoted. cbn [it_lead it_trail it_name it_quote].
  destruct (blanks_free w BL) as [FW CW], (blanks_free y BT) as [FY CY].
  assert (CQ : ch "," <> q) by (destruct Q as [->| ->]; discriminate).
  rewrite <- app_comm_cons, <- app_assoc. cbn [app].
  rewrite (split_free_app _ w) by done. rewrite split_cons by done. rewrite prepend_prepend.
  destruct FN as [FO FL]. rewrite rejoin_item; [reflexivity|done|done|done| | |done|done]; cbn [app].
  - apply escape_hushed; [done|done|]. by apply unslashed_quote.
  - apply escape_final; [done| |done]. by apply unslashed_quote.
Qed.

Lemma rejoin_items items :
  Forall item_ok items -> items <> [] ->
  rejoin [] (split_on (ch ",") (join_with [ch ","] (map item_text items))) = map item_text items.
Proof.
  intros F NE. induction F as [|i items OK F IH]; [done|]. destruct items as [|j items].
  - cbn [map join_with]. rewrite <- (app_nil_r (split_on _ _)). rewrite rejoin_text by done. reflexivity.
  - cbn [map]. change (join_with [ch ","] (item_text i :: item_text j :: map item_text items))
      with (item_text i ++ ch "," :: join_with [ch ","] (map item_text (j :: items))).
    rewrite split_sep, rejoin_text by done. f_equal. apply IH. done.
Qed.

(** ** Trimming *)
Lemma trim_left_blanks w s : blanks w -> trim_left is_space (w ++ s) = trim_left is_space s.
Proof. intros B. induction B as [|c w S B IH]; [done|]. simpl. unfold space_char in S. by rewrite S. Qed.

Lemma trim_left_id c s : is_space c = false -> trim_left is_space (c :: s) = c :: s.
Proof. intros H. simpl. by rewrite H. Qed.

Lemma blanks_rev w : blanks w -> blanks (rev w).
Proof.
  unfold blanks. rewrite !List.Forall_forall. intros H x X. apply H. by apply in_rev.
Qed.

(** Text between two non-blank characters is what remains. *)
Lemma trim_space_core w w' c s d :
  blanks w -> blanks w' -> is_space c = false -> is_space d = false ->
  trim_space (w ++ (c :: s ++ [d]) ++ w') = c :: s ++ [d].
Proof.
  intros B B' C D. unfold trim_space. rewrite trim_left_blanks by done.
  cbn [app]. rewrite trim_left_id by done.
  change (c :: (s ++ [d]) ++ w') with ((c :: s ++ [d]) ++ w'). rewrite rev_app_distr.
  rewrite trim_left_blanks by (by apply blanks_rev).
  replace (rev (c :: s ++ [d])) with (d :: rev (c :: s)).
  - rewrite trim_left_id by done. cbn [rev]. rewrite !rev_app_distr, rev_involutive. reflexivity.
  - change (c :: s ++ [d]) with ((c :: s) ++ [d]). rewrite rev_app_distr. reflexivity.
Qed.

Lemma quote_not_space q : a_quote q -> is_space q = false.
Proof. intros [->| ->]; reflexivity. Qed.

Lemma trim_suffix_app s x : trim_suffix (s ++ x) x = s.
Proof.
  unfold trim_suffix, has_suffix. rewrite rev_app_distr.
  assert (H : forall a b, has_prefix a (a ++ b) = true).
  { induction a as [|c a IH]; intros b; simpl; [done|]. unfold ceq. rewrite N.eqb_refl. apply IH. }
  rewrite H, app_length. replace (length s + length x - length x) with (length s) by lia. apply take_app.
Qed.

Lemma unquote_text i : item_ok i -> unquote (item_text i) = it_name i.
Proof.
  intros (BL & BT & FN & Q). destruct i as [w q n y]; cbn [it_lead it_trail it_name it_quote] in *.
  unfold unquote, item_text, quoted. cbn [it_lead it_trail it_name it_quote].
  rewrite trim_space_core; [|done|done|by apply quote_not_space|by apply quote_not_space].
  assert (U : unescape (escape q n) = n) by (apply unescape_escape; by destruct Q as [->| ->]).
  destruct Q as [->| ->].
  - change (has_prefix (lit "'") (single_quote :: escape single_quote n ++ [single_quote])) with true. cbv iota.
    change (trim_prefix (single_quote :: escape single_quote n ++ [single_quote]) (lit "'")) with (escape single_quote n ++ [single_quote]).
    change (lit "'") with [single_quote]. rewrite trim_suffix_app. exact U.
  - change (has_prefix (lit "'") (double_quote :: escape double_quote n ++ [double_quote])) with false. cbv iota.
    change (trim_prefix (double_quote :: escape double_quote n ++ [double_quote]) [34%N]) with (escape double_quote n ++ [double_quote]).
    change [34%N] with [double_quote]. rewrite trim_suffix_app. exact U.
Qed.

(** Clearing the white space at both ends of the list. *)
Definition clear_lead (i : item) : item := mkItem [] (it_quote i) (it_name i) (it_trail i).
Definition clear_trail (i : item) : item := mkItem (it_lead i) (it_quote i) (it_name i) [].
Fixpoint clear_last (l : list item) : list item :=
  match l with [] => [] | [i] => [clear_trail i] | i :: r => i :: clear_last r end.
Definition last_trail (l : list item) : list N := match last l with Some i => it_trail i | None => [] end.
Definition items_text (l : list item) : list N := join_with [ch ","] (map item_text l).

Lemma items_text_cons i j l : items_text (i :: j :: l) = item_text i ++ ch "," :: items_text (j :: l).
Proof. reflexivity. Qed.

Lemma item_text_len i : 2 <= length (item_text i).
Proof. unfold item_text, quoted. rewrite !app_length. cbn [length]. rewrite app_length. cbn [length]. lia. Qed.

Lemma items_text_lead i l : items_text (i :: l) = it_lead i ++ items_text (clear_lead i :: l).
Proof.
  destruct l as [|j l].
  - reflexivity.
  - rewrite !items_text_cons. unfold item_text. cbn [clear_lead it_lead it_quote it_name it_trail].
    rewrite <- !app_assoc. reflexivity.
Qed.

Lemma items_text_trail l : l <> [] -> items_text l = items_text (clear_last l) ++ last_trail l.
Proof.
  induction l as [|i l IH]; intros NE; [done|]. destruct l as [|j l].
  - unfold items_text, item_text, last_trail. cbn. rewrite !app_nil_r, <- !app_assoc.
    cbn [app]. rewrite <- !app_assoc. reflexivity.
  - rewrite items_text_cons, IH by done.
    change (clear_last (i :: j :: l)) with (i :: clear_last (j :: l)).
    change (last_trail (i :: j :: l)) with (last_trail (j :: l)).
    destruct (clear_last (j :: l)) as [|k m] eqn:E; [destruct l; discriminate|].
    rewrite items_text_cons, <- app_assoc. reflexivity.
Qed.

Lemma clear_last_ok l : Forall item_ok l -> Forall item_ok (clear_last l) /\ map it_name (clear_last l) = map it_name l.
Proof.
  induction 1 as [|i l OK F [IH1 IH2]]; [split; constructor|]. destruct l as [|j l].
  - split; [|done]. constructor; [|constructor]. destruct OK as (A & B & C & D). repeat split; try done; try apply C. constructor.
  - split; [constructor; done|]. change (clear_last (i :: j :: l)) with (i :: clear_last (j :: l)).
    cbn [map] in *. by rewrite IH2.
Qed.

Lemma items_text_end l : Forall item_ok l -> l <> [] -> last_trail l = [] ->
  exists s q, items_text l = s ++ [q] /\ a_quote q.
Proof.
  intros F. induction F as [|i l (A & B & C & D) F IH]; intros NE LT; [done|]. destruct l as [|j l].
  - unfold items_text, item_text, quoted. cbn. unfold last_trail in LT. cbn in LT. rewrite LT.
    exists (it_lead i ++ it_quote i :: escape (it_quote i) (it_name i)), (it_quote i). split; [|done].
    rewrite app_nil_r, <- app_assoc. reflexivity.
  - rewrite items_text_cons. change (last_trail (i :: j :: l)) with (last_trail (j :: l)) in LT.
    destruct IH as (s & q & E & Q); [done|done|]. rewrite E.
    exists (item_text i ++ ch "," :: s), q. split; [|done]. rewrite <- app_assoc. reflexivity.
Qed.

Lemma last_trail_clear l : last_trail (clear_last l) = [].
Proof.
  induction l as [|i l IH]; [done|]. destruct l as [|j l]; [done|].
  change (clear_last (i :: j :: l)) with (i :: clear_last (j :: l)).
  destruct (clear_last (j :: l)) as [|k m] eqn:E; [destruct l; discriminate|]. exact IH.
Qed.

Lemma names_of_bracket l :
  Forall item_ok l -> l <> [] -> bracket_child_names (bracket_text (bracketed l)) = map it_name l.
Proof.
  intros F NE. unfold bracket_text, bracketed. fold (items_text l).
  replace (trim_space (ch "[" :: items_text l ++ [ch "]"])) with (ch "[" :: items_text l ++ [ch "]"]).
  2:{ symmetry. rewrite <- (app_nil_r (ch "[" :: items_text l ++ [ch "]"])) at 1.
      apply (trim_space_core [] [] (ch "[") (items_text l) (ch "]")); done || constructor. }
  change (trim_prefix (ch "[" :: items_text l ++ [ch "]"]) (lit "[")) with (items_text l ++ [ch "]"]).
  change (lit "]") with [ch "]"]. rewrite trim_suffix_app.
  destruct l as [|i l]; [done|].
  assert (OK : item_ok i) by (by inversion F).
  set (l' := clear_last (clear_lead i :: l)).
  assert (F0 : Forall item_ok (clear_lead i :: l)).
  { inversion F; subst. constructor; [|done]. destruct OK as (A & B & C & D). repeat split; try done; try apply C. constructor. }
  destruct (clear_last_ok _ F0) as [F' N'].
  assert (NE' : l' <> []) by (unfold l'; destruct l; done).
  destruct (items_text_end l' F' NE' (last_trail_clear _)) as (s & q & E & Q).
  assert (ST : exists q0 s0, items_text l' = q0 :: s0 /\ a_quote q0).
  { unfold l'. destruct OK as (_ & _ & _ & Q0). destruct l as [|j l].
    - exists (it_quote i). eexists. split; [reflexivity|done].
    - change (clear_last (clear_lead i :: j :: l)) with (clear_lead i :: clear_last (j :: l)).
      destruct (clear_last (j :: l)) as [|k m] eqn:E2; [destruct l; discriminate|].
      exists (it_quote i). eexists. split; [reflexivity|done]. }
  destruct ST as (q0 & s0 & E0 & Q0).
  assert (T : trim_space (items_text (i :: l)) = items_text l').
  { rewrite items_text_lead, (items_text_trail (clear_lead i :: l)) by done. fold l'.
    assert (exists s1, items_text l' = q0 :: s1 ++ [q]) as [s1 E1].
    { rewrite E in E0. destruct s as [|a s]; [|cbn in E0; injection E0 as -> <-; exists s; by rewrite E].
      cbn in E0. injection E0 as -> <-. exfalso.
      assert (L : length (items_text l') = 1) by (rewrite E; done).
      clear - L NE'. destruct l' as [|a l']; [done|]. destruct l' as [|b l'].
      - change (items_text [a]) with (item_text a) in L. pose proof (item_text_len a). lia.
      - rewrite items_text_cons, app_length in L. pose proof (item_text_len a). lia. }
    rewrite E1. apply trim_space_core.
    - apply OK.
    - clear - F0. assert (G : clear_lead i :: l <> []) by done. revert F0 G. generalize (clear_lead i :: l) as m.
      intros m F. induction F as [|a m OK F IH]; [done|]. intros _. destruct m as [|b m].
      + apply OK.
      + apply IH. done.
    - by apply quote_not_space.
    - by apply quote_not_space. }
  rewrite T. unfold bracket_child_names, items_text. rewrite rejoin_items by done.
  rewrite map_map. transitivity (map it_name l'); [|exact N'].
  change (Forall item_ok l') in F'. clear - F'. clearbody l'. induction F' as [|a m OK F IH]; [done|]. cbn [map]. rewrite unquote_text by done. f_equal. exact IH.
Qed.

(** ** Lexing a bracket *)
Lemma escaped_len_escape q n r : a_quote q -> escaped_len q (escape q n ++ q :: r) = Ok (length (escape q n)).
Proof.
  intros Q. assert (NB : q <> backslash) by (by destruct Q as [->| ->]). induction n as [|c n IH]; cbn [escape app escaped_len].
  - unfold ceq. rewrite N.eqb_refl. done.
  - destruct (N.eqb_spec c q) as [->|N1]; cbn [orb app escaped_len].
    { destruct (ceq_spec backslash q); [congruence|]. change (ceq backslash (ch "\")) with true. cbv iota.
      destruct (ceq_spec q q); [|done]. cbn [orb]. rewrite IH. done. }
    destruct (N.eqb_spec c backslash) as [->|N2]; cbn [app escaped_len].
    { destruct (ceq_spec backslash q); [congruence|]. change (ceq backslash (ch "\")) with true. cbv iota. cbn [orb].
      rewrite IH. done. }
    destruct (ceq_spec c q); [done|]. destruct (ceq_spec c (ch "\")); [done|]. rewrite IH. done.
Qed.

Lemma whitespaced_one t w r :
  blanks w -> is_space t = false -> whitespaced [t] (w ++ t :: r) = Some (length w + 1).
Proof.
  intros B T. cbn [whitespaced]. rewrite spaces_blanks; [|done|].
  - rewrite drop_app. unfold ceq. rewrite N.eqb_refl. f_equal. lia.
  - intros c r' [= -> ->] S. unfold space_char in S. congruence.
Qed.
Lemma whitespaced_other t u w r :
  blanks w -> is_space u = false -> u <> t -> whitespaced [t] (w ++ u :: r) = None.
Proof.
  intros B T N. cbn [whitespaced]. rewrite spaces_blanks; [|done|].
  - rewrite drop_app. destruct (ceq_spec u t); done.
  - intros c r' [= -> ->] S. unfold space_char in S. congruence.
Qed.

Lemma peek_item i s : item_ok i ->
  peeked_ws (lit "'") (item_text i ++ s) || peeked_ws [34%N] (item_text i ++ s) = true.
Proof.
  intros (BL & BT & FN & Q). unfold item_text, quoted. rewrite <- app_assoc, <- app_assoc. cbn [app].
  unfold peeked_ws. destruct Q as [->| ->].
  - change (lit "'") with [single_quote]. rewrite whitespaced_one by done. done.
  - change [34%N] with [double_quote]. rewrite whitespaced_one by done. apply orb_true_r.
Qed.

Lemma quoted_app q n s : quoted q n ++ s = q :: n ++ q :: s.
Proof. unfold quoted. cbn. rewrite <- app_assoc. reflexivity. Qed.

Lemma bracket_items_text l post f :
  Forall item_ok l -> l <> [] -> length l <= f ->
  exists m, bracket_items f (items_text l ++ ch "]" :: post) = Some m /\ m + length (last_trail l) = length (items_text l).
Proof.
  intros F. revert f. induction F as [|i l OK F IH]; intros f NE L; [done|].
  destruct f as [|f]; [simpl in L; lia|].
  assert (OK' := OK). destruct OK' as (BL & BT & FN & Q).
  set (tail := match l with [] => ch "]" :: post | _ => ch "," :: items_text l ++ ch "]" :: post end).
  assert (E : items_text (i :: l) ++ ch "]" :: post = it_lead i ++ it_quote i :: escape (it_quote i) (it_name i) ++ it_quote i :: it_trail i ++ tail).
  { unfold tail. destruct l as [|j l].
    - unfold items_text. cbn [map join_with]. unfold item_text. rewrite <- !app_assoc, quoted_app. reflexivity.
    - rewrite items_text_cons, <- app_assoc. unfold item_text. rewrite <- !app_assoc, quoted_app. reflexivity. }
  rewrite E. cbn [bracket_items].
  rewrite spaces_blanks; [|done|intros c r0 [= <- <-] S; unfold space_char in S; rewrite quote_not_space in S by done; done].
  rewrite drop_app, escaped_len_escape by done.
  replace (drop (S (length (escape (it_quote i) (it_name i)))) (escape (it_quote i) (it_name i) ++ it_quote i :: it_trail i ++ tail)) with (it_trail i ++ tail).
  2:{ symmetry. replace (S (length (escape (it_quote i) (it_name i)))) with (length (escape (it_quote i) (it_name i)) + 1) by lia. rewrite <- drop_drop, drop_app. done. }
  assert (LI : length (item_text i) = length (it_lead i) + (1 + (S (length (escape (it_quote i) (it_name i))) + length (it_trail i)))).
  { unfold item_text, quoted. rewrite !app_length. simpl. rewrite app_length. simpl. lia. }
  unfold tail. destruct l as [|j l].
  - change (lit ",") with [ch ","]. rewrite whitespaced_other by done. eexists. split; [reflexivity|].
    unfold last_trail, items_text. cbn [last map join_with]. lia.
  - change (lit ",") with [ch ","]. rewrite whitespaced_one by done.
    replace (drop (length (it_trail i) + 1) (it_trail i ++ ch "," :: items_text (j :: l) ++ ch "]" :: post))
      with (items_text (j :: l) ++ ch "]" :: post) by (rewrite <- drop_drop, drop_app; done).
    assert (P : peeked_ws (lit "'") (items_text (j :: l) ++ ch "]" :: post) || peeked_ws [34%N] (items_text (j :: l) ++ ch "]" :: post) = true).
    { inversion F; subst. destruct l as [|k l].
      - apply (peek_item j). done.
      - rewrite items_text_cons, <- app_assoc. apply (peek_item j). done. }
    rewrite P. destruct (IH f) as (m & -> & M); [done|simpl in *; lia|].
    eexists. split; [reflexivity|]. change (last_trail (i :: j :: l)) with (last_trail (j :: l)).
    rewrite items_text_cons, app_length. cbn [length]. lia.
Qed.

Lemma items_text_long l : length l <= length (items_text l).
Proof.
  induction l as [|i l IH]; [done|]. destruct l as [|j l].
  - change (items_text [i]) with (item_text i). pose proof (item_text_len i). simpl. lia.
  - rewrite items_text_cons, app_length. simpl length in *. lia.
Qed.

Lemma last_trail_blank l : Forall item_ok l -> blanks (last_trail l).
Proof.
  induction 1 as [|a m OK F IH]; [constructor|]. destruct m as [|b m]; [apply OK|apply IH].
Qed.

Lemma bracket_len_text l post :
  Forall item_ok l -> l <> [] -> bracket_len (bracketed l ++ post) = Some (length (bracketed l)).
Proof.
  intros F NE. unfold bracketed. fold (items_text l). rewrite <- app_comm_cons, <- app_assoc. cbn [app].
  unfold bracket_len. change (lit "[") with [ch "["].
  change (whitespaced [ch "["] (ch "[" :: items_text l ++ ch "]" :: post)) with (Some 1).
  cbn [drop]. rewrite !drop_0.
  destruct (bracket_items_text l post (S (length (items_text l ++ ch "]" :: post)))) as (m & E & M); [done|done| |].
  { rewrite app_length. pose proof (items_text_long l). lia. }
  rewrite E. rewrite items_text_trail by done. rewrite <- app_assoc.
  assert (LM : length (items_text (clear_last l)) = m).
  { pose proof (f_equal length (items_text_trail l NE)) as LL. rewrite app_length in LL. lia. }
  rewrite <- LM, drop_app. change (lit "]") with [ch "]"].
  rewrite whitespaced_one; [|by apply last_trail_blank|done].
  f_equal. cbn [length]. rewrite !app_length. cbn [length]. rewrite ?app_length. lia.
Qed.

Lemma parse_bracket first l r :
  Forall item_ok l -> l <> [] ->
  parse' first (bracketed l ++ r) = let! t := parse' false r in Ok (fan (map it_name l) t).
Proof.
  intros F NE. unfold parse' at 1.
  assert (B : bracket_start (bracketed l ++ r) = true).
  { unfold bracketed. fold (items_text l). rewrite <- app_comm_cons, <- app_assoc. cbn [app].
    destruct l as [|i l]; [done|]. assert (OK : item_ok i) by (by inversion F).
    pose proof (peek_item i (match l with [] => ch "]" :: r | _ => ch "," :: items_text l ++ ch "]" :: r end) OK) as P.
    assert (E : items_text (i :: l) ++ ch "]" :: r = item_text i ++ match l with [] => ch "]" :: r | _ => ch "," :: items_text l ++ ch "]" :: r end).
    { destruct l; [done|]. rewrite items_text_cons, <- app_assoc. reflexivity. }
    rewrite E. revert P. unfold bracket_start, peeked_ws.
    set (s := item_text i ++ _). cbn [whitespaced lit]. change (spaces (ch "[" :: s)) with 0. cbn [drop].
    change (ceq (ch "[") (N_of_ascii "[")) with true. change (ceq (ch "[") (ch "[")) with true. cbv iota.
    destruct (drop (spaces s) s) as [|c r']; [done|].
    destruct (ceq c (N_of_ascii "'")), (ceq c 34%N); done. }
  destruct (bracketed l ++ r) as [|c s] eqn:E; [unfold bracketed in E; discriminate|].
  cbn [parse]. assert (c = ch "[") by (unfold bracketed in E; cbn in E; congruence). subst c.
  change (ceq (ch "[") (ch ")")) with false. change (ceq (ch "[") (ch ".")) with false. cbv iota.
  rewrite B, <- E, bracket_len_text, drop_app, take_app, names_of_bracket by done.
  rewrite parse_parse'.
  - reflexivity.
  - rewrite <- E || idtac. rewrite app_length. unfold bracketed. cbn [length]. lia.
Qed.

(** ** Accepted texts are paths *)
Lemma take_S_drop {A} (l : list A) n x r : drop n l = x :: r -> take (n + 1) l = take n l ++ [x].
Proof. intros D. rewrite <- (take_take_drop l n 1), D. reflexivity. Qed.

Lemma take_add_drop {A} (l : list A) n m : take (n + m) l = take n l ++ take m (drop n l).
Proof. symmetry. apply take_take_drop. Qed.

Lemma spaces_take s : blanks (take (spaces s) s).
Proof. induction s as [|c s IH]; simpl; [constructor|]. destruct (is_space c) eqn:E; [constructor; done|constructor]. Qed.

Lemma whitespaced_one_inv t s m :
  whitespaced [t] s = Some m -> exists w, blanks w /\ take m s = w ++ [t].
Proof.
  cbn [whitespaced]. destruct (drop (spaces s) s) as [|c r] eqn:D; [discriminate|].
  destruct (ceq_spec c t) as [->|]; [|discriminate]. intros [= <-].
  exists (take (spaces s) s). split; [apply spaces_take|].
  replace (spaces s + 1 + 0) with (spaces s + 1) by lia. eapply take_S_drop, D.
Qed.

Lemma escaped_len_inv q s k :
  escaped_len q s = Ok k -> escaped_text q (take k s) /\ exists r, drop k s = q :: r.
Proof.
  enough (forall n s k, length s <= n -> escaped_len q s = Ok k -> escaped_text q (take k s) /\ exists r, drop k s = q :: r) by eauto.
  clear s k. induction n as [|n IH]; intros [|c r] k L H; cbn [escaped_len length] in *; try lia;
    try (destruct (is_quote q); discriminate).
  destruct (ceq_spec c q) as [->|NQ]; [injection H as <-; split; [constructor|eauto]|].
  destruct (ceq_spec c (ch "\")) as [->|NB].
  - destruct r as [|c2 r2]; [discriminate|].
    destruct (ceq_spec c2 q) as [->|N2].
    + cbn [orb] in H. destruct (escaped_len q r2) as [a|e| |] eqn:E; try discriminate. cbn in H. injection H as <-.
      apply IH in E as [E1 E2]; [|simpl in *; lia]. split; [|exact E2]. apply et_quote. exact E1.
    + destruct (ceq_spec c2 (ch "\")) as [->|]; [|discriminate H].
      cbn [orb] in H. destruct (escaped_len q r2) as [a|e| |] eqn:E; try discriminate. cbn in H. injection H as <-.
      apply IH in E as [E1 E2]; [|simpl in *; lia]. split; [|exact E2]. apply et_backslash. exact E1.
  - destruct (escaped_len q r) as [a|e| |] eqn:E; try discriminate. cbn in H. injection H as <-.
    apply IH in E as [E1 E2]; [|simpl in *; lia]. split; [|exact E2]. apply et_other; done.
Qed.

Lemma is_quote_spec q : is_quote q = true -> a_quote q.
Proof.
  unfold is_quote. intros H. apply orb_true_iff in H as [H|H]; apply N.eqb_eq in H; [left|right]; exact H.
Qed.

Lemma bracket_items_inv f s p : quote_ahead s -> bracket_items f s = Some p -> quoted_list (take p s).
Proof.
  revert s p; induction f as [|f IH]; intros s p (q & r & D & Q) H; [discriminate|].
  cbn [bracket_items] in H. rewrite D in H.
  destruct (escaped_len q r) as [k|e| |] eqn:E; try discriminate.
  apply escaped_len_inv in E as [ET [r' DR]].
  assert (TQ : take (1 + S k) (q :: r) = quoted q (take k r)).
  { unfold quoted. change (take (1 + S k) (q :: r)) with (q :: take (S k) r). f_equal.
    replace (S k) with (k + 1) by lia. eapply take_S_drop, DR. }
  assert (DQ : drop (1 + S k) (q :: r) = drop (S k) r) by reflexivity.
  destruct (whitespaced (lit ",") (drop (S k) r)) as [m|] eqn:W.
  - destruct (_ || _) eqn:P in H; [|discriminate].
    destruct (bracket_items f (drop m (drop (S k) r))) as [p'|] eqn:B; [|discriminate]. injection H as <-.
    apply IH in B; [|by apply quote_ahead_peek].
    apply whitespaced_one_inv in W as (w & BW & TW).
    rewrite take_add_drop, D. replace (S (S (k + (m + p')))) with ((1 + S k) + (m + p')) by lia.
    rewrite take_add_drop, TQ, DQ, take_add_drop, TW, <- app_assoc. cbn [app].
    apply ql_more; [apply spaces_take|by apply is_quote_spec|done|done|done].
  - injection H as <-. rewrite take_add_drop, D. change (S (S k)) with (1 + S k). rewrite TQ.
    apply ql_one; [apply spaces_take|by apply is_quote_spec|done].
Qed.

Lemma bracket_len_inv s n : bracket_start s = true -> bracket_len s = Some n -> segment (take n s).
Proof.
  intros B H. destruct (bracket_start_spec s B) as (m & W & Q). unfold bracket_len in H. rewrite W in H.
  destruct (bracket_items _ _) as [p|] eqn:I; [|discriminate].
  destruct (whitespaced (lit "]") _) as [k|] eqn:W2; [|discriminate]. injection H as <-.
  apply bracket_items_inv in I; [|done].
  apply whitespaced_one_inv in W as (w & BW & TW), W2 as (w' & BW' & TW').
  rewrite take_add_drop, TW, take_add_drop, TW', <- app_assoc. cbn [app].
  apply seg_bracket; done.
Qed.

Lemma name_ok_take s n : name_len s = S n -> name_ok (take (S n) s).
Proof.
  intros H. split.
  - destruct s; [discriminate|done].
  - rewrite <- H. apply name_len_ok.
Qed.

Lemma parse_inv f first s t : parse f first s = Ok t ->
  segments s \/ (first = true /\ exists n r, s = n ++ r /\ name_ok n /\ segments r).
Proof.
  revert first s t; induction f as [|f IH]; intros first s t H; [discriminate|].
  assert (IHF : forall s t, parse f false s = Ok t -> segments s).
  { intros s' t' H'. destruct (IH _ _ _ H') as [?|[? _]]; [done|discriminate]. }
  cbn [parse] in H. destruct s as [|c r]; [left; constructor|].
  destruct (ceq c (ch ")")); [discriminate|].
  destruct (ceq_spec c (ch ".")) as [->|_].
  { destruct (name_len r) as [|n] eqn:N; [discriminate|].
    destruct (parse f false (drop (S n) r)) as [u|e| |] eqn:P; try discriminate.
    left. rewrite <- (take_drop (S n) r). rewrite app_comm_cons. constructor; [|eauto].
    apply seg_dot. by apply name_ok_take. }
  destruct (bracket_start (c :: r)) eqn:B.
  { destruct (bracket_len (c :: r)) as [n|] eqn:N; [|discriminate].
    destruct (parse f false (drop n (c :: r))) as [u|e| |] eqn:P; try discriminate.
    left. rewrite <- (take_drop n (c :: r)). constructor; [by apply bracket_len_inv|eauto]. }
  destruct first; [|discriminate]. right. split; [done|].
  destruct (name_len (c :: r)) as [|n] eqn:N; [discriminate|].
  destruct (parse f false (drop (S n) (c :: r))) as [u|e| |] eqn:P; try discriminate.
  exists (take (S n) (c :: r)), (drop (S n) (c :: r)). split; [symmetry; apply take_drop|].
  split; [by apply name_ok_take|eauto].
Qed.

Lemma build_inv s t : build s = Ok t -> path_text s.
Proof.
  rewrite build_eq. destruct s as [|c r]; [constructor|].
  destruct (ceq_spec c (ch "$")) as [->|_].
  - destruct (parse _ false r) as [u|e| |] eqn:P; try discriminate. intros _.
    apply parse_inv in P as [P|[? _]]; [|discriminate]. by apply pt_root.
  - destruct (parse _ true (c :: r)) as [u|e| |] eqn:P; try discriminate. intros _.
    apply parse_inv in P as [P|(_ & n & r' & -> & NO & SG)]; [by apply pt_segments|by apply pt_bare].
Qed.

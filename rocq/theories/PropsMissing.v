(** C75: --default-on-missing-action decides for overlays that do not say. *)
From Verif Require Import Prelude GoStrings Yaml Heap ActionNames SpecActions ProofActions Overlay SpecOverlay ProofOverlay SpecQuery ProofQuery PropsQuery
  Decode SpecDecode ProofDecode Whole SpecWhole PropsWhole PropsDocs Config PropsConfig Main SpecMain PropsMain.

(** The flags ask for [w]: the last one that says something says [w], in any letter case. *)
Definition silent (h : heap) (s : surroundings) (t : list N) : Prop :=
  flag_empty h s t \/ exists c, flag_holds h s t c /\ is_null h c.
Definition flags_ask (h : heap) (s : surroundings) (vals : list (list N)) (w : string) : Prop :=
  exists pre t post c x, vals = pre ++ t :: post /\ flag_holds h s t c /\ is_text h c x /\ spells x w /\ Forall (silent h s) post.
(** The flag cannot be read: not YAML, or not a word. *)
Definition unreadable_flag (h : heap) (s : surroundings) (t : list N) : Prop :=
  sr_parse s t = None \/ exists c, flag_holds h s t c /\ ~ is_null h c /\ forall x, ~ is_text h c x.

Lemma holds_fun h s t c c' : flag_holds h s t c -> flag_holds h s t c' -> c = c'.
Proof. intros (d & n & r & E1 & E2 & E3) (d' & n' & r' & F1 & F2 & F3). rewrite E1 in F1. injection F1 as <-. rewrite E2 in F2. injection F2 as <-. congruence. Qed.
Lemma holds_not_empty h s t c : flag_holds h s t c -> ~ flag_empty h s t.
Proof. intros (d & n & r & E1 & E2 & E3) [F|(d' & F & G)]; [congruence|]. rewrite E1 in F. injection F as <-. by eapply G. Qed.
Lemma null_not_text h c x : is_null h c -> ~ is_text h c x.
Proof.
  intros (n & [N K] & T) (i & (n' & [N' K'] & <- & T') & _). apply T'. rewrite <- T. do 2 f_equal.
  destruct N as (a & A & [[K1 ->]|(K1 & b & B1 & B2)]), N' as (a' & A' & [[K2 ->]|(K2 & b' & B3 & B4)]); rewrite A in A'; injection A' as <-; try done.
  rewrite B1 in B3. injection B3 as <-. congruence.
Qed.
Lemma text_once h c x y : is_text h c x -> is_text h c y -> x = y.
Proof. exact (text_fun h c x y). Qed.
Lemma parsed h s t r : parse_flag h s t = r ->
  match r with None => sr_parse s t = None | Some None => flag_empty h s t | Some (Some c) => flag_holds h s t c end.
Proof.
  destruct r as [[c|]|]; intros E; [by eapply flag_some|by eapply flag_none|]. unfold parse_flag in E. by destruct (sr_parse s t) as [[d|]|].
Qed.
Lemma silent_not_text h s t c x : flag_holds h s t c -> is_text h c x -> ~ silent h s t.
Proof. intros H X [E|(c' & H' & N)]; [by eapply holds_not_empty|]. rewrite (holds_fun _ _ _ _ _ H' H) in N. by eapply null_not_text. Qed.
Lemma asked_cons h s v r w : silent h s v -> flags_ask h s (v :: r) w <-> flags_ask h s r w.
Proof.
  intros S. split.
  - intros ([|p pre] & t & post & c & x & E & H & X & P & F); injection E as -> ->; [by destruct (silent_not_text _ _ _ _ _ H X)|]. by exists pre, t, post, c, x.
  - intros (pre & t & post & c & x & -> & H & X & P & F). by exists (v :: pre), t, post, c, x.
Qed.
Lemma asked_text h s v r w c x : flag_holds h s v c -> is_text h c x ->
  flags_ask h s (v :: r) w <-> flags_ask h s r w \/ (Forall (silent h s) r /\ spells x w).
Proof.
  intros H X. split.
  - intros ([|p pre] & t & post & c' & x' & E & H' & X' & P & F); injection E as -> ->.
    + right. rewrite (holds_fun _ _ _ _ _ H' H) in X'. rewrite (text_once _ _ _ _ X X'). done.
    + left. by exists pre, t, post, c', x'.
  - intros [(pre & t & post & c' & x' & -> & H' & X' & P & F)|[F P]]; [by exists (v :: pre), t, post, c', x'|by exists [], v, r, c, x].
Qed.
Lemma spells_not x : spells x "inject" -> spells x "ignore" -> False.
Proof.
  intros A B. assert (E1 : decode_missing x = MInject) by (apply decode_missing_iff; tauto). assert (E2 : decode_missing x = MIgnore) by (apply decode_missing_iff; tauto).
  congruence.
Qed.
Lemma d_missing_cases h c : match d_missing h c with
  | Ok None => is_null h c
  | Ok (Some a) => means_missing h c a
  | Err _ => ~ is_null h c /\ forall x, ~ is_text h c x
  | _ => False end.
Proof.
  destruct (d_missing_spec h (fun _ => None) c) as ([S1 S2] & Nl & P). destruct (d_missing h c) as [[a|]| | |] eqn:E; try done.
  - by apply P.
  - by apply Nl.
  - assert (NN : ~ is_null h c) by (intros X; apply Nl in X; congruence). split; [done|]. intros x X.
    assert (Y : Err e = Ok (Some (decode_missing x))); [|done]. apply P. split; [done|]. exists x. split; [done|].
    destruct (proj1 (decode_missing_iff x _) eq_refl) as [[-> H]|[[-> H]|[-> H]]]; done.
Qed.

(** What the flags amount to, from a starting value [a]. *)
Lemma set_missings_spec h s vals : forall a,
  match set_missings h (parse_flag h s) a vals with
  | Ok m => (m = MInject <-> flags_ask h s vals "inject" \/ Forall (silent h s) vals /\ a = MInject) /\ (forall t, In t vals -> ~ unreadable_flag h s t)
  | Err _ => exists t, In t vals /\ unreadable_flag h s t
  | _ => False
  end.
Proof.
  induction vals as [|v r IH]; intros a; cbn [set_missings].
  - split; [|by intros t []]. split; [intros ->; right; split; [constructor|done]|]. intros [(pre & t & post & c & x & E & _)|[_ ->]]; [|done]. by destruct pre.
  - destruct (parse_flag h s v) as [[c|]|] eqn:P; apply parsed in P.
    + pose proof (d_missing_cases h c) as D. destruct (d_missing h c) as [[b|]| | |] eqn:Ed; try done; cbn [rbind].
      * specialize (IH b). destruct D as (x & X & D). destruct (set_missings _ _ b r) as [m|e| |]; try done.
        -- destruct IH as [I1 I2]. split.
           ++ rewrite I1, (asked_text _ _ _ _ _ _ _ P X). assert (B : b = MInject <-> spells x "inject").
              { destruct b; split; intros Y; try done; exfalso; [by apply D|by eapply spells_not]. }
              rewrite B. split; [tauto|]. intros [?|[F _]]; [tauto|]. exfalso. apply Forall_cons in F as [F _]. by eapply silent_not_text.
           ++ intros t [<-|I]; [|by apply I2]. intros [U|(c' & U1 & U2 & U3)]; [destruct P as (? & ? & ? & P & _); congruence|].
              rewrite (holds_fun _ _ _ _ _ U1 P) in U3. by eapply U3.
        -- destruct IH as (t & I & U). exists t. split; [by right|done].
      * specialize (IH a). assert (Sv : silent h s v) by (right; by exists c). destruct (set_missings _ _ a r) as [m|e| |]; try done.
        -- destruct IH as [I1 I2]. split.
           ++ rewrite I1, (asked_cons _ _ _ _ _ Sv), Forall_cons. tauto.
           ++ intros t [<-|I]; [|by apply I2]. intros [U|(c' & U1 & U2 & U3)]; [destruct P as (? & ? & ? & P & _); congruence|].
              rewrite (holds_fun _ _ _ _ _ U1 P) in U2. done.
        -- destruct IH as (t & I & U). exists t. split; [by right|done].
      * exists v. split; [by left|]. right. by exists c.
    + specialize (IH a). assert (Sv : silent h s v) by (by left). destruct (set_missings _ _ a r) as [m|e| |]; try done.
      * destruct IH as [I1 I2]. split.
        -- rewrite I1, (asked_cons _ _ _ _ _ Sv), Forall_cons. tauto.
        -- intros t [<-|I]; [|by apply I2]. intros [U|(c' & U1 & _)]; [|by eapply holds_not_empty].
           destruct P as [P|(d & P & _)]; congruence.
      * destruct IH as (t & I & U). exists t. split; [by right|done].
    + exists v. split; [by left|by left].
Qed.

Lemma missing_of env cli config_at search v : startup env cli config_at search = Ok v -> on_missing_of env v = missing_setting env cli config_at search.
Proof. intros E. apply (setting_get _ _ _ _ v _ _ _ E). vm_compute; tauto. Qed.

Section flag.
Context (h0 : heap) (s : surroundings) (env cli : list N -> option (list N)) (config_at : list N -> option (list (list N * list N))) (search : option (list N)).

(** C75.  An overlay without onMissing action of its own is applied as if it said "inject"
    if the last --default-on-missing-action that says something says so, and as if it said
    "ignore" for every other word; whatever the configuration file says. *)
Theorem C75_flag_decides vals m v fuel sed o node h :
  missing_flag h0 s vals = Ok m -> cli (lit "default-on-missing-action") = Some (missing_string m) ->
  startup env cli config_at search = Ok v -> o_missing o = MDefault ->
  (flags_ask h0 s vals "inject" ->
     outcome (apply fuel sed (on_missing_of env v) o node h) = outcome (apply fuel sed (on_missing_of env v) (with_missing MInject o) node h)) /\
  (~ flags_ask h0 s vals "inject" ->
     outcome (apply fuel sed (on_missing_of env v) o node h) = outcome (apply fuel sed (on_missing_of env v) (with_missing MIgnore o) node h)).
Proof.
  intros SM C V O. pose proof (C23_default_used_only_without_action fuel sed (on_missing_of env v) o node h O) as [D1 D2].
  assert (E : on_missing_of env v = missing_string m).
  { rewrite (missing_of env cli config_at search v V). unfold missing_setting, setting. by rewrite C. }
  assert (I : m = MInject <-> flags_ask h0 s vals "inject").
  { pose proof (set_missings_spec h0 s vals MIgnore) as X. unfold missing_flag in SM. rewrite SM in X. destruct X as [X _]. rewrite X. split; [intros [?|[_ ?]]; done|tauto]. }
  assert (F : Forall2 cased (on_missing_of env v) (lit "inject") <-> m = MInject).
  { rewrite E, <- inject_spelled. destruct m; vm_compute; by split. }
  rewrite <- I, <- F. done.
Qed.
(** Without the flag the configuration file decides, and without that: ignore. *)
Theorem C75_file_decides_without_flag v fuel sed o node h :
  cli (lit "default-on-missing-action") = None -> startup env cli config_at search = Ok v -> o_missing o = MDefault ->
  let asked := exists f c x, chosen_file env cli search = Some f /\ config_at f = Some c /\ entry c (lit "defaultOnMissingAction") = Some x /\
                 Forall2 cased x (lit "inject") in
  (asked -> outcome (apply fuel sed (on_missing_of env v) o node h) = outcome (apply fuel sed (on_missing_of env v) (with_missing MInject o) node h)) /\
  (~ asked -> outcome (apply fuel sed (on_missing_of env v) o node h) = outcome (apply fuel sed (on_missing_of env v) (with_missing MIgnore o) node h)).
Proof.
  intros C V O asked. pose proof (C23_default_used_only_without_action fuel sed (on_missing_of env v) o node h O) as [D1 D2].
  assert (E : on_missing_of env v = missing_setting env cli config_at search) by (by apply missing_of).
  unfold missing_setting, setting in E. rewrite C in E. split.
  - intros (f & c & x & F & Cf & X & I). apply D1. rewrite F, Cf, X in E. by rewrite E.
  - intros N. apply D2. intros I. rewrite E in I. destruct (chosen_file env cli search) as [f|] eqn:F; [|rewrite <- inject_spelled in I; vm_compute in I; done].
    destruct (config_at f) as [c|] eqn:Cf; [|rewrite <- inject_spelled in I; vm_compute in I; done]. destruct (entry c (lit "defaultOnMissingAction")) as [x|] eqn:X; [|rewrite <- inject_spelled in I; vm_compute in I; done].
    apply N. by exists f, c, x.
Qed.
(** A word that is no action is accepted by the flag (and means ignore): only a text that is
    not YAML, or no single word, is refused. *)
Theorem C75_unknown_words_accepted vals :
  (exists m, missing_flag h0 s vals = Ok m) <-> (forall t, In t vals -> ~ unreadable_flag h0 s t).
Proof.
  pose proof (set_missings_spec h0 s vals MIgnore) as X. unfold missing_flag. destruct (set_missings _ _ _ _) as [m|e| |]; try done.
  - destruct X as [_ X]. split; [done|]. intros _. by exists m.
  - destruct X as (t & I & U). split; [by intros [m ?]|]. intros Y. by destruct (Y t I).
Qed.
End flag.

(** --default-on-missing-action with the values "ignore", "INJECT", "" and "nothing". *)
Definition word_info (k : kind) (v : list N) : info := mkInfo k 0 (lit "!!str") v [] [] [] [] 0 0.
Definition flag_heap : heap :=
  [mkNode (word_info KScalar (lit "ignore")) None None; mkNode (word_info KDocument []) None (Some [0]);
   mkNode (word_info KScalar (lit "INJECT")) None None; mkNode (word_info KDocument []) None (Some [2]);
   mkNode (word_info KScalar (lit "nothing")) None None; mkNode (word_info KDocument []) None (Some [4])].
Definition flag_s : surroundings := mkSurroundings run_fs [] (fun _ => None) (fun _ => None)
  (fun t => if seq_eqb t (lit "ignore") then Some (Some 1) else if seq_eqb t (lit "INJECT") then Some (Some 3)
            else if seq_eqb t (lit "nothing") then Some (Some 5) else if seq_eqb t [] then Some None else None) (fun _ => None) None.
Example C75_applies :
  missing_flag flag_heap flag_s (map lit ["ignore"; "INJECT"; ""]%string) = Ok MInject /\
  flags_ask flag_heap flag_s (map lit ["ignore"; "INJECT"; ""]%string) "inject" /\
  missing_flag flag_heap flag_s (map lit ["INJECT"; "nothing"]%string) = Ok MDefault /\
  ~ flags_ask flag_heap flag_s (map lit ["INJECT"; "nothing"]%string) "inject" /\
  unreadable_flag flag_heap flag_s (lit "[").
Proof.
  assert (A : forall vals m, set_missings flag_heap (parse_flag flag_heap flag_s) MIgnore vals = Ok m -> (m = MInject <-> flags_ask flag_heap flag_s vals "inject")).
  { intros vals m E. pose proof (set_missings_spec flag_heap flag_s vals MIgnore) as X. rewrite E in X. destruct X as [X _]. rewrite X. split; [intros [?|[_ ?]]; done|tauto]. }
  split_and!; [by vm_compute|by apply (A _ MInject); vm_compute|by vm_compute|intros F; apply (A _ MDefault) in F; [done|by vm_compute]|by left].
Qed.

Print Assumptions C75_flag_decides.
Print Assumptions C75_file_decides_without_flag.
Print Assumptions C75_unknown_words_accepted.

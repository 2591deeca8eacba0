(** The decoder accepts exactly the format of SpecDecode.v. *)
From Verif Require Import Prelude GoStrings Yaml Heap ActionNames SpecActions ProofActions Overlay Queue Files Decode SpecDecode.

Section proofs.
Context (h : heap).
Notation is_null := (is_null h).
Notation sight_of := (sight_of h).

(** *** What is seen of a node *)
Lemma named_node_spec l n : named_node h l = Some n <-> node_of h l n.
Proof.
  unfold named_node, node_of. destruct (h !! l) as [n0|] eqn:E.
  - destruct (i_kind (n_info n0)) eqn:K; try (split; [intros [= <-]; exists n0; split; [done|left; split; congruence]|
      intros (n1 & [= <-] & [[_ ->]|[K' _]]); [done|congruence]]).
    destruct (n_alias n0) as [a|] eqn:A.
    + split.
      * intros H. exists n0. split; [done|]. right. split; [done|]. by exists a.
      * intros (n1 & [= <-] & [[K' _]|[_ (a' & Ha & Hn)]]); [congruence|]. by rewrite A in Ha; injection Ha as <-.
    + split; [done|]. intros (n1 & [= <-] & [[K' _]|[_ (a' & Ha & Hn)]]); congruence.
  - split; [done|]. by intros (n1 & ? & _).
Qed.
Lemma node_of_fun l n n' : node_of h l n -> node_of h l n' -> n = n'.
Proof. rewrite <- !named_node_spec. congruence. Qed.

Lemma sight_null l : sight_of l = SNull <-> is_null l.
Proof.
  unfold Decode.sight_of, SpecDecode.is_null, of_kind. destruct (named_node h l) as [n|] eqn:E.
  - apply named_node_spec in E as N. destruct (i_kind (n_info n)) eqn:K;
      try (split; [done|]; intros (n' & [N' K'] & T'); rewrite (node_of_fun _ _ _ N' N) in *; congruence).
    destruct (seq_eqb_spec (i_tag (n_info n)) (lit "!!null")) as [T|T]; split; try done.
    + intros _. by exists n.
    + intros (n' & [N' K'] & T'). by rewrite (node_of_fun _ _ _ N' N) in *.
  - split; [done|]. intros (n' & [N' K'] & T'). apply named_node_spec in N'. congruence.
Qed.
Lemma sight_text l i : sight_of l = SText i <-> is_scalar h l i.
Proof.
  unfold Decode.sight_of, is_scalar, of_kind. destruct (named_node h l) as [n|] eqn:E.
  - apply named_node_spec in E as N. destruct (i_kind (n_info n)) eqn:K;
      try (split; [done|]; intros (n' & [N' K'] & T'); rewrite (node_of_fun _ _ _ N' N) in *; congruence).
    destruct (seq_eqb_spec (i_tag (n_info n)) (lit "!!null")) as [T|T]; split; try done.
    + intros (n' & [N' K'] & <- & T'). by rewrite (node_of_fun _ _ _ N' N) in *.
    + intros [= <-]. by exists n.
    + intros (n' & [N' K'] & <- & T'). by rewrite (node_of_fun _ _ _ N' N) in *.
  - split; [done|]. intros (n' & [N' K'] & T'). apply named_node_spec in N'. congruence.
Qed.
Lemma sight_list l ls : sight_of l = SList ls <-> is_list h l ls.
Proof.
  unfold Decode.sight_of, is_list, of_kind, elements. destruct (named_node h l) as [n|] eqn:E.
  - apply named_node_spec in E as N. destruct (i_kind (n_info n)) eqn:K;
      try (split; [done|]; intros (n' & [N' K'] & T'); rewrite (node_of_fun _ _ _ N' N) in *; congruence).
    + split; [intros [= <-]; by exists n|]. intros (n' & [N' K'] & <-). by rewrite (node_of_fun _ _ _ N' N) in *.
    + destruct (seq_eqb _ _); split; try done; intros (n' & [N' K'] & T'); rewrite (node_of_fun _ _ _ N' N) in *; congruence.
  - split; [done|]. intros (n' & [N' K'] & T'). apply named_node_spec in N'. congruence.
Qed.
Lemma sight_map l kvs : sight_of l = SMap kvs <-> exists n, of_kind h KMapping l n /\ key_values (elements n) = kvs.
Proof.
  unfold Decode.sight_of, of_kind, elements. destruct (named_node h l) as [n|] eqn:E.
  - apply named_node_spec in E as N. destruct (i_kind (n_info n)) eqn:K;
      try (split; [done|]; intros (n' & [N' K'] & T'); rewrite (node_of_fun _ _ _ N' N) in *; congruence).
    + split; [intros [= <-]; by exists n|]. intros (n' & [N' K'] & <-). by rewrite (node_of_fun _ _ _ N' N) in *.
    + destruct (seq_eqb _ _); split; try done; intros (n' & [N' K'] & T'); rewrite (node_of_fun _ _ _ N' N) in *; congruence.
  - split; [done|]. intros (n' & [N' K'] & T'). apply named_node_spec in N'. congruence.
Qed.
Lemma null_dec l : is_null l \/ ~ is_null l.
Proof. rewrite <- sight_null. destruct (sight_of l); auto. Qed.
Lemma text_not_null l s : is_text h l s -> ~ is_null l.
Proof. intros (i & Hi & _) N. apply sight_text in Hi. apply sight_null in N. congruence. Qed.
Lemma text_fun l s s' : is_text h l s -> is_text h l s' -> s = s'.
Proof. intros (i & Hi & <-) (i' & Hi' & <-). apply sight_text in Hi, Hi'. congruence. Qed.
Lemma list_not_null l ls : is_list h l ls -> ~ is_null l.
Proof. intros Hi N. apply sight_list in Hi. apply sight_null in N. congruence. Qed.
Lemma list_fun l s s' : is_list h l s -> is_list h l s' -> s = s'.
Proof. rewrite <- !sight_list. congruence. Qed.

(** *** Correct decoders *)
(** Never a crash. *)
Definition settles {A} (r : res A) : Prop := r <> Panic /\ r <> Fuel.
(** [f] decodes what [P] describes, and leaves the field alone exactly on null. *)
Definition decodes {A} (f : decoder A) (P : loc -> A -> Prop) : Prop :=
  forall l, settles (f l) /\ (f l = Ok None <-> is_null l) /\ forall a, f l = Ok (Some a) <-> ~ is_null l /\ P l a.

Lemma settles_bind {A B} (r : res A) (k : A -> res B) : settles r -> (forall a, r = Ok a -> settles (k a)) -> settles (rbind r k).
Proof. intros [H1 H2] Hk. destruct r; simpl; try done. by apply Hk. Qed.
Lemma settles_ok {A} (a : A) : settles (Ok a).
Proof. by split. Qed.
Lemma settles_err {A} e : settles (@Err A e).
Proof. by split. Qed.
Lemma rbind_Ok {A B} (r : res A) (k : A -> res B) b : rbind r k = Ok b <-> exists a, r = Ok a /\ k a = Ok b.
Proof. destruct r; simpl; split; try done; try (by intros (? & ? & ?)); [eauto|]. by intros (? & [= <-] & ?). Qed.

Lemma d_string_spec : decodes (d_string h) (is_text h).
Proof.
  intros l. unfold d_string. pose proof (sight_null l) as N. pose proof (sight_text l) as X. destruct (sight_of l) eqn:E.
  - split_and!; [apply settles_ok|split; [by intros _; apply N|done]|]. intros a. split; [done|]. intros [Hn _]. by destruct Hn; apply N.
  - split_and!; [apply settles_ok|split; [done|]; intros Hn; by apply N in Hn|]. intros a. split.
    + intros [= <-]. split; [intros Hn; by apply N in Hn|]. exists i. split; [by apply X|done].
    + intros (_ & i' & Hi & <-). apply X in Hi. by injection Hi as ->.
  - split_and!; [apply settles_err|split; [done|]; intros Hn; by apply N in Hn|]. intros a. split; [done|]. intros (_ & i' & Hi & _). by apply X in Hi.
  - split_and!; [apply settles_err|split; [done|]; intros Hn; by apply N in Hn|]. intros a. split; [done|]. intros (_ & i' & Hi & _). by apply X in Hi.
  - split_and!; [apply settles_err|split; [done|]; intros Hn; by apply N in Hn|]. intros a. split; [done|]. intros (_ & i' & Hi & _). by apply X in Hi.
Qed.
Lemma d_int_spec to_int : decodes (d_int to_int h) (means_int h to_int).
Proof.
  intros l. unfold d_int. pose proof (sight_null l) as N. pose proof (sight_text l) as X. destruct (sight_of l) eqn:E.
  - split_and!; [apply settles_ok|split; [by intros _; apply N|done]|]. intros a. split; [done|]. intros [Hn _]. by destruct Hn; apply N.
  - assert (Y : forall z, means_int h to_int l z <-> to_int i = Some z).
    { intros z. split; [intros (i' & Hi & <-); apply X in Hi; by injection Hi as ->|]. intros Hz. exists i. split; [by apply X|done]. }
    assert (NN : ~ is_null l) by (intros Hn; by apply N in Hn).
    destruct (to_int i) as [z|] eqn:Z.
    + split_and!; [apply settles_ok|split; [done|]; intros Hn; by apply N in Hn|]. intros a. rewrite Y. split; [intros [= <-]|intros [_ [= <-]]]; done.
    + split_and!; [apply settles_err|split; [done|]; intros Hn; by apply N in Hn|]. intros a. rewrite Y. split; [done|]. by intros [_ ?].
  - split_and!; [apply settles_err|split; [done|]; intros Hn; by apply N in Hn|]. intros a. split; [done|]. intros (_ & i' & Hi & _). by apply X in Hi.
  - split_and!; [apply settles_err|split; [done|]; intros Hn; by apply N in Hn|]. intros a. split; [done|]. intros (_ & i' & Hi & _). by apply X in Hi.
  - split_and!; [apply settles_err|split; [done|]; intros Hn; by apply N in Hn|]. intros a. split; [done|]. intros (_ & i' & Hi & _). by apply X in Hi.
Qed.

(** *** Lists *)
Lemma d_elements_spec {A} (f : decoder A) P : decodes f P ->
  forall ls, settles (d_elements f ls) /\ forall xs, d_elements f ls = Ok xs <-> listed h P ls xs.
Proof.
  intros Hf. induction ls as [|l ls [IS IH]]; simpl.
  - split; [apply settles_ok|]. intros xs. split; [intros [= <-]; constructor|]. by inversion 1.
  - destruct (Hf l) as (Sf & Nf & Pf). split.
    + apply settles_bind; [done|]. intros x _. apply settles_bind; [done|]. intros; apply settles_ok.
    + intros xs. rewrite rbind_Ok. split.
      * intros (x & Hx & Hk). apply rbind_Ok in Hk as (ys & Hys & [= <-]). apply IH in Hys. destruct x as [a|].
        -- apply Pf in Hx as [? ?]. by constructor.
        -- apply Nf in Hx. by constructor.
      * inversion 1; subst.
        -- exists None. split; [by apply Nf|]. apply rbind_Ok. exists xs. split; [by apply IH|done].
        -- exists (Some x). split; [by apply Pf|]. apply rbind_Ok. exists xs0. split; [by apply IH|done].
Qed.
Lemma d_list_spec {A} (f : decoder A) P : decodes f P -> decodes (d_list h f) (list_of h P).
Proof.
  intros Hf l. unfold d_list. pose proof (sight_null l) as N. pose proof (sight_list l) as X. destruct (sight_of l) eqn:E.
  - split_and!; [apply settles_ok|split; [by intros _; apply N|done]|]. intros a. split; [done|]. intros [Hn _]. by destruct Hn; apply N.
  - split_and!; [apply settles_err|split; [done|]; intros Hn; by apply N in Hn|]. intros a. split; [done|]. intros (_ & i' & Hi & _). by apply X in Hi.
  - destruct (d_elements_spec f P Hf ls) as [S1 H1]. split_and!.
    + apply settles_bind; [done|]. intros; apply settles_ok.
    + rewrite rbind_Ok. split; [by intros (? & _ & ?)|]. intros Hn; by apply N in Hn.
    + intros a. rewrite rbind_Ok. split.
      * intros (xs & Hxs & [= <-]). split; [intros Hn; by apply N in Hn|]. exists ls. split; [by apply X|]. by apply H1.
      * intros (_ & ls' & Hl & Hp). apply X in Hl. injection Hl as <-. exists a. split; [by apply H1|done].
  - split_and!; [apply settles_err|split; [done|]; intros Hn; by apply N in Hn|]. intros a. split; [done|]. intros (_ & i' & Hi & _). by apply X in Hi.
  - split_and!; [apply settles_err|split; [done|]; intros Hn; by apply N in Hn|]. intros a. split; [done|]. intros (_ & i' & Hi & _). by apply X in Hi.
Qed.
Lemma d_pointers_spec {A} (f : decoder A) P : decodes f P -> decodes (d_list h (d_pointer h f)) (pointers_to h P).
Proof.
  intros Hf l.
  assert (HE : forall ls, settles (d_elements (d_pointer h f) ls) /\ forall xs, d_elements (d_pointer h f) ls = Ok xs <-> pointers h P ls xs).
  { induction ls as [|x ls [IS IH]]; cbn [d_elements].
    - split; [apply settles_ok|]. intros xs. unfold pointers. split; [by intros [= <-]; constructor|]. by intros ->%Forall2_nil_inv_l.
    - assert (HP : settles (d_pointer h f x) /\ d_pointer h f x <> Ok None /\ forall y, d_pointer h f x = Ok (Some y) <->
        is_null x /\ y = None \/ ~ is_null x /\ exists a, y = Some a /\ P x a).
      { unfold d_pointer. destruct (Hf x) as (Sf & Nf & Pf). pose proof (sight_null x) as N. destruct (null_dec x) as [Hn|Hn].
        - rewrite (proj2 N Hn). split_and!; [apply settles_ok|done|]. intros y. split; [intros [= <-]; by left|]. intros [[_ ->]|[? _]]; done.
        - assert (Hs : forall B (u v : B), match sight_of x with SNull => u | _ => v end = v).
          { intros. destruct (sight_of x) eqn:E; try done. by destruct Hn; apply N. }
          rewrite Hs. split_and!.
          + apply settles_bind; [done|]. intros; apply settles_ok.
          + rewrite rbind_Ok. by intros (? & _ & ?).
          + intros y. rewrite rbind_Ok. split.
            * intros ([a|] & Ha & [= <-]); [|by apply Nf in Ha]. apply Pf in Ha as [_ Ha]. right. split; [done|]. by exists a.
            * intros [[? _]|(_ & a & -> & Ha)]; [done|]. exists (Some a). split; [by apply Pf|done]. }
      destruct HP as (Sp & Np & Hp). split.
      + apply settles_bind; [done|]. intros; apply settles_bind; [done|]. intros; apply settles_ok.
      + intros xs. rewrite rbind_Ok. unfold pointers. split.
        * intros ([y|] & Hy & Hk); [|done]. apply rbind_Ok in Hk as (ys & Hys & [= <-]). constructor; [by apply Hp|by apply IH].
        * intros (y & ys & Hy & Hys & ->)%Forall2_cons_inv_l. exists (Some y). split; [by apply Hp|]. apply rbind_Ok. exists ys. split; [by apply IH|done]. }
  unfold d_list. pose proof (sight_null l) as N. pose proof (sight_list l) as X. destruct (sight_of l) eqn:E.
  - split_and!; [apply settles_ok|split; [by intros _; apply N|done]|]. intros a. split; [done|]. intros [Hn _]. by destruct Hn; apply N.
  - split_and!; [apply settles_err|split; [done|]; intros Hn; by apply N in Hn|]. intros a. split; [done|]. intros (_ & i' & Hi & _). by apply X in Hi.
  - destruct (HE ls) as [S1 H1]. split_and!.
    + apply settles_bind; [done|]. intros; apply settles_ok.
    + rewrite rbind_Ok. split; [by intros (? & _ & ?)|]. intros Hn; by apply N in Hn.
    + intros a. rewrite rbind_Ok. split.
      * intros (xs & Hxs & [= <-]). split; [intros Hn; by apply N in Hn|]. exists ls. split; [by apply X|]. by apply H1.
      * intros (_ & ls' & Hl & Hp). apply X in Hl. injection Hl as <-. exists a. split; [by apply H1|done].
  - split_and!; [apply settles_err|split; [done|]; intros Hn; by apply N in Hn|]. intros a. split; [done|]. intros (_ & i' & Hi & _). by apply X in Hi.
  - split_and!; [apply settles_err|split; [done|]; intros Hn; by apply N in Hn|]. intros a. split; [done|]. intros (_ & i' & Hi & _). by apply X in Hi.
Qed.

(** *** Records *)
Lemma key_values_lookup : forall ls i k v, key_values ls !! i = Some (k, v) <-> ls !! (2 * i) = Some k /\ ls !! (2 * i + 1) = Some v.
Proof.
  fix IH 1. intros ls i k v. destruct ls as [|a [|b ls]].
  - simpl. split; [done|]. by intros [? _].
  - simpl. split; [done|]. intros [_ H2]. replace (i + (i + 0) + 1) with (S (i + i)) in H2 by lia. done.
  - simpl. destruct i as [|i]; simpl.
    + split; [by intros [= <- <-]|]. by intros [[= <-] [= <-]].
    + rewrite IH. simpl. replace (i + S (i + 0)) with (S (i + (i + 0))) by lia. simpl.
      replace (i + (i + 0) + 1) with (S (i + (i + 0))) by lia. done.
Qed.
Lemma pair_at_kvs l n kvs i k v : of_kind h KMapping l n -> key_values (elements n) = kvs -> (pair_at h l i k v <-> kvs !! i = Some (k, v)).
Proof.
  intros [Hn Hk] <-. rewrite key_values_lookup. split.
  - intros (n' & [Hn' _] & ? & ?). by rewrite (node_of_fun _ _ _ Hn Hn').
  - intros [? ?]. by exists n.
Qed.

Definition hit (k : string) (kv : loc * loc) : bool :=
  match d_string h (fst kv) with Ok (Some s) => seq_eqb s (lit k) | _ => false end.
Lemma hit_spec k kv : hit k kv = true <-> is_text h (fst kv) (lit k).
Proof.
  unfold hit. destruct (d_string_spec (fst kv)) as (_ & _ & P). specialize (P). split.
  - destruct (d_string h (fst kv)) as [[s|]| | |] eqn:E; try done. destruct (seq_eqb_spec s (lit k)) as [->|]; [|done]. intros _. by apply P.
  - intros Ht. rewrite (proj2 (P (lit k))); [apply seq_eqb_refl|]. split; [by eapply text_not_null|done].
Qed.
Lemma key_texts_spec kvs : settles (key_texts h kvs) /\
  ((exists tbl, key_texts h kvs = Ok tbl) <-> forall i k v, kvs !! i = Some (k, v) -> is_null k \/ exists s, is_text h k s) /\
  forall tbl, key_texts h kvs = Ok tbl -> forall f, values_for f tbl = map snd (List.filter (hit f) kvs).
Proof.
  induction kvs as [|[k v] kvs (IS & IH & IV)]; cbn [key_texts].
  - split_and!; [apply settles_ok|split; [done|]; by eexists|]. by intros tbl [= <-].
  - destruct (d_string_spec k) as (Sk & Nk & Pk). split_and!.
    + apply settles_bind; [done|]. intros; apply settles_bind; [done|]. intros; apply settles_ok.
    + split.
      * intros (tbl & Ht). apply rbind_Ok in Ht as (x & Hx & Ht). apply rbind_Ok in Ht as (xs & Hxs & _).
        intros [|i] k' v' Hl; simpl in Hl.
        -- injection Hl as <- <-. destruct x as [s|]; [right; exists s; by apply Pk|left; by apply Nk].
        -- eapply IH; [by eexists|done].
      * intros Hall. destruct (proj2 IH) as [xs Hxs]. { intros i k' v' Hl. by apply (Hall (S i) k' v'). }
        destruct (Hall 0 k v eq_refl) as [Hn|[s Hs]].
        -- exists xs. apply rbind_Ok. exists None. split; [by apply Nk|]. apply rbind_Ok. by exists xs.
        -- exists ((s, v) :: xs). apply rbind_Ok. exists (Some s). split; [apply Pk; split; [by eapply text_not_null|done]|]. apply rbind_Ok. by exists xs.
    + intros tbl Ht f. apply rbind_Ok in Ht as (x & Hx & Ht). apply rbind_Ok in Ht as (xs & Hxs & [= <-]). specialize (IV xs Hxs f).
      cbn [List.filter]. unfold hit at 1. cbn [fst]. rewrite Hx. destruct x as [s|]; [|done]. unfold values_for in *. cbn [List.filter fst].
      destruct (seq_eqb s (lit f)); cbn [map snd]; by rewrite IV.
Qed.
Lemma filter_one {A} (p : A -> bool) l : length (List.filter p l) <= 1 <->
  (forall i j x y, l !! i = Some x -> l !! j = Some y -> p x = true -> p y = true -> i = j).
Proof.
  induction l as [|a l IH]; [split; [done|simpl; lia]|]. cbn [List.filter]. split.
  - intros Hl. destruct (p a) eqn:Pa.
    + simpl in Hl. assert (Hf : List.filter p l = []) by (destruct (List.filter p l); [done|simpl in Hl; lia]).
      assert (Hno : forall j y, l !! j = Some y -> p y = true -> False).
      { intros j y Hy Py. assert (In y (List.filter p l)); [|by rewrite Hf in *]. apply filter_In. split; [|done].
        apply elem_of_list_In. by eapply elem_of_list_lookup_2. }
      intros [|i] [|j] x y Hx Hy Px Py; simpl in *; try done; exfalso; eauto.
    + rewrite IH in Hl. intros [|i] [|j] x y Hx Hy Px Py; simpl in *; try congruence; try (injection Hx as <-; congruence); try (injection Hy as <-; congruence).
      f_equal. by eapply Hl.
  - intros Hu. assert (Hl : length (List.filter p l) <= 1).
    { apply IH. intros i j x y Hx Hy Px Py. specialize (Hu (S i) (S j) x y Hx Hy Px Py). congruence. }
    destruct (p a) eqn:Pa; [|done]. simpl. destruct (List.filter p l) as [|b r] eqn:E; [simpl; lia|]. exfalso.
    assert (In b (List.filter p l)) as Hb by (rewrite E; by left). apply filter_In in Hb as [Hb Pb].
    apply elem_of_list_In, elem_of_list_lookup in Hb as [j Hb]. by specialize (Hu 0 (S j) a b eq_refl Hb Pa Pb).
Qed.
Definition same_key (k1 k2 : loc) : Prop := exists n1 n2, h !! k1 = Some n1 /\ h !! k2 = Some n2 /\
  i_kind (n_info n1) = i_kind (n_info n2) /\ i_value (n_info n1) = i_value (n_info n2).
Lemma repeated_key_spec kvs : repeated_key h kvs = false <->
  forall i j x y, kvs !! i = Some x -> kvs !! j = Some y -> same_key (fst x) (fst y) -> i = j.
Proof.
  assert (EX : forall k r, existsb (fun kv => match h !! k, h !! fst kv with
                         | Some a, Some b => kind_eqb (i_kind (n_info a)) (i_kind (n_info b)) && seq_eqb (i_value (n_info a)) (i_value (n_info b))
                         | _, _ => false
                         end) r = false <-> forall j (y : loc * loc), r !! j = Some y -> ~ same_key k (fst y)).
  { intros k r. induction r as [|y r IH]; cbn [existsb]; [by split|]. rewrite orb_false_iff, IH. clear IH.
    assert (HH : (match h !! k, h !! fst y with Some a, Some b => kind_eqb (i_kind (n_info a)) (i_kind (n_info b)) && seq_eqb (i_value (n_info a)) (i_value (n_info b)) | _, _ => false end = false) <-> ~ same_key k (fst y)).
    { unfold same_key. destruct (h !! k) as [a|], (h !! fst y) as [b|].
      - rewrite andb_false_iff. destruct (kind_eqb_spec (i_kind (n_info a)) (i_kind (n_info b))) as [K|K], (seq_eqb_spec (i_value (n_info a)) (i_value (n_info b))) as [V|V].
        + split; [by intros [?|?]|]. intros HN. destruct HN. by exists a, b.
        + split; [|by right]. intros _ (n1 & n2 & [= <-] & [= <-] & ? & ?). done.
        + split; [|by left]. intros _ (n1 & n2 & [= <-] & [= <-] & ? & ?). done.
        + split; [|by left]. intros _ (n1 & n2 & [= <-] & [= <-] & ? & ?). done.
      - split; [|done]. intros _ (n1 & n2 & _ & ? & _). done.
      - split; [|done]. intros _ (n1 & n2 & ? & _). done.
      - split; [|done]. intros _ (n1 & n2 & ? & _). done. }
    rewrite HH. split.
    - intros [H1 H2] [|j] z Hz; simpl in Hz; [by injection Hz as <-|by eapply H2].
    - intros Hall. split; [by apply (Hall 0)|]. intros j z Hz. by apply (Hall (S j)). }
  assert (SY : forall a b, same_key a b -> same_key b a).
  { intros a b (n1 & n2 & ? & ? & ? & ?). exists n2, n1. by split_and!. }
  induction kvs as [|[k v] kvs IH]; cbn [repeated_key]; [by split|]. rewrite orb_false_iff, EX, IH. split.
  - intros [H1 H2] [|i] [|j] x y Hx Hy Hs; simpl in *; try done.
    + injection Hx as <-. exfalso. by eapply H1.
    + injection Hy as <-. exfalso. eapply H1; [exact Hx|]. by apply SY.
    + f_equal. by eapply H2.
  - intros Hall. split.
    + intros j y Hy Hs. by specialize (Hall 0 (S j) (k, v) y eq_refl Hy Hs).
    + intros i j x y Hx Hy Hs. specialize (Hall (S i) (S j) x y Hx Hy Hs). congruence.
Qed.

Lemma d_struct_spec fields l : settles (d_struct h fields l) /\ (d_struct h fields l = Ok None <-> is_null l) /\
  ((exists tbl, d_struct h fields l = Ok (Some tbl)) <-> record_like h fields l) /\
  forall tbl, d_struct h fields l = Ok (Some tbl) -> forall f, In f fields ->
     (length (values_for f tbl) <= 1) /\ forall v, In v (values_for f tbl) <-> has_key h l f v.
Proof.
  unfold d_struct. pose proof (sight_null l) as N. pose proof (sight_map l) as X.
  assert (XX : forall n, of_kind h KMapping l n -> sight_of l = SMap (key_values (elements n))) by (intros n Hn; apply X; by exists n).
  destruct (sight_of l) as [|i|ls|kvs|] eqn:E.
  { split_and!; [apply settles_ok|split; [by intros _; apply N|done]|split; [by intros [? ?]|]|done].
    intros ((n & Hn) & _). by apply XX in Hn. }
  { split_and!; [apply settles_err|split; [done|]; intros Hn; by apply N in Hn|split; [by intros [? ?]|]|done].
    intros ((n & Hn) & _). by apply XX in Hn. }
  { split_and!; [apply settles_err|split; [done|]; intros Hn; by apply N in Hn|split; [by intros [? ?]|]|done].
    intros ((n & Hn) & _). by apply XX in Hn. }
  2: { split_and!; [apply settles_err|split; [done|]; intros Hn; by apply N in Hn|split; [by intros [? ?]|]|done].
    intros ((n & Hn) & _). by apply XX in Hn. }
  destruct (proj1 (X kvs) eq_refl) as (n & Hn & Hkv).
  assert (PA : forall i k v, pair_at h l i k v <-> kvs !! i = Some (k, v)) by (intros; by eapply pair_at_kvs).
  destruct (key_texts_spec kvs) as (KS & KE & KV).
  assert (NN : is_null l -> False) by (intros Hnn; by apply N in Hnn).
  assert (R1 : repeated_key h kvs = false <-> (forall i j k1 v1 k2 v2 n1 n2, pair_at h l i k1 v1 -> pair_at h l j k2 v2 -> h !! k1 = Some n1 -> h !! k2 = Some n2 ->
     i_kind (n_info n1) = i_kind (n_info n2) -> i_value (n_info n1) = i_value (n_info n2) -> i = j)).
  { rewrite repeated_key_spec. split.
    - intros H i j k1 v1 k2 v2 n1 n2 P1 P2 Hk1 Hk2 Hk Hv. apply PA in P1, P2. eapply (H i j); [exact P1|exact P2|]. by exists n1, n2.
    - intros H i j [k1 v1] [k2 v2] P1 P2 (n1 & n2 & Hk1 & Hk2 & Hk & Hv). by eapply (H i j k1 v1 k2 v2 n1 n2); try apply PA. }
  assert (R2 : forall tbl, key_texts h kvs = Ok tbl -> existsb (fun k => Nat.ltb 1 (length (values_for k tbl))) fields = false <->
    forall f i j k1 v1 k2 v2, In f fields -> pair_at h l i k1 v1 -> pair_at h l j k2 v2 -> is_text h k1 (lit f) -> is_text h k2 (lit f) -> i = j).
  { intros tbl Ht. transitivity (forall f, In f fields -> length (values_for f tbl) <= 1).
    - clear. induction fields as [|f fields IH]; cbn [existsb]; [by split|]. rewrite orb_false_iff, IH, Nat.ltb_ge. split.
      + intros [? ?] g [<-|?]; auto.
      + intros H. split; [apply H; by left|]. intros g Hg. apply H. by right.
    - split.
      + intros H f i j k1 v1 k2 v2 Hf P1 P2 T1 T2. specialize (H f Hf). rewrite (KV tbl Ht), map_length in H. rewrite filter_one in H.
        apply PA in P1, P2. eapply (H i j (k1, v1) (k2, v2)); try done; by apply hit_spec.
      + intros H f Hf. rewrite (KV tbl Ht), map_length. apply filter_one. intros i j [k1 v1] [k2 v2] P1 P2 T1 T2. apply hit_spec in T1, T2.
        by eapply (H f i j k1 v1 k2 v2); try apply PA. }
  assert (R0 : forall tbl, key_texts h kvs = Ok tbl -> forall f v, In v (values_for f tbl) <-> has_key h l f v).
  { intros tbl Ht f v. rewrite (KV tbl Ht). split.
    - intros Hv. apply in_map_iff in Hv as ([k v'] & Hsv & Hi). simpl in Hsv. subst v'. apply filter_In in Hi as [Hi Hh].
      apply elem_of_list_In, elem_of_list_lookup in Hi as [i Hi]. exists i, k. split; [by apply PA|]. by apply hit_spec in Hh.
    - intros (i & k & Hp & Ht'). apply PA in Hp. apply in_map_iff. exists (k, v). split; [done|]. apply filter_In.
      split; [apply elem_of_list_In; by eapply elem_of_list_lookup_2|]. by apply hit_spec. }
  destruct (repeated_key h kvs) eqn:RK.
  { split_and!; [apply settles_err|split; [done|]; intros Hnn; by apply NN in Hnn|split; [by intros [? ?]|]|done].
    intros (_ & _ & H3 & _). by apply R1 in H3. }
  split_and!.
  - apply settles_bind; [done|]. intros tbl _. destruct (existsb _ _); [apply settles_err|apply settles_ok].
  - rewrite rbind_Ok. split; [|by intros Hnn; apply NN in Hnn]. intros (tbl & _ & H). by destruct (existsb _ _).
  - split.
    + intros (tbl & H). apply rbind_Ok in H as (tbl' & Ht & H). destruct (existsb _ _) eqn:EX; [done|]. injection H as ->.
      split_and!; [by exists n| |by apply R1|by eapply R2].
      intros i k v Hp. apply PA in Hp. by eapply (proj1 KE (ex_intro _ tbl Ht)).
    + intros (_ & H2 & _ & H4). destruct (proj2 KE) as [tbl Ht]. { intros i k v Hp. apply PA in Hp. by eapply H2. }
      exists tbl. apply rbind_Ok. exists tbl. split; [done|]. by rewrite (proj2 (R2 tbl Ht) H4).
  - intros tbl H f Hf. apply rbind_Ok in H as (tbl' & Ht & H). destruct (existsb _ _) eqn:EX; [done|]. injection H as ->.
    split; [|by apply R0]. rewrite (KV tbl Ht), map_length. apply filter_one. intros i j [k1 v1] [k2 v2] P1 P2 T1 T2.
    apply hit_spec in T1, T2. by eapply (proj1 (R2 tbl Ht) EX f i j k1 v1 k2 v2); try apply PA.
Qed.

(** A table of the fields of the record at [l]. *)
Definition tabled (fields : list string) (l : loc) (tbl : list (list N * loc)) : Prop :=
  forall f, In f fields -> (length (values_for f tbl) <= 1) /\ forall v, In v (values_for f tbl) <-> has_key h l f v.
Lemma values_for_cases fields l tbl f : tabled fields l tbl -> In f fields ->
  (values_for f tbl = [] /\ (forall v, ~ has_key h l f v)) \/ exists v, values_for f tbl = [v] /\ forall v', has_key h l f v' <-> v' = v.
Proof.
  intros Ht Hf. destruct (Ht f Hf) as [Hl Hv]. destruct (values_for f tbl) as [|v [|v' r]]; [left|right|simpl in Hl; lia].
  - split; [done|]. intros v Hk. by apply Hv in Hk.
  - exists v. split; [done|]. intros v'. rewrite <- Hv. simpl. split; [by intros [->|[]]|by left].
Qed.
Lemma d_field_spec {A} fields l tbl f (zero : A) d P : tabled fields l tbl -> In f fields -> decodes d P ->
  settles (d_field tbl f zero d) /\ forall a, d_field tbl f zero d = Ok a <-> field h P zero l f a.
Proof.
  intros Ht Hf Hd. unfold d_field, field. destruct (values_for_cases _ _ _ _ Ht Hf) as [[-> Hno]|(v & -> & Hv)].
  - split; [apply settles_ok|]. intros a. split; [intros [= <-]; by right|]. intros [(v & Hk & _)|[_ ->]]; [|done]. by apply Hno in Hk.
  - destruct (Hd v) as (S1 & N1 & P1). split; [apply settles_bind; [done|]; intros; apply settles_ok|].
    intros a. rewrite rbind_Ok. split.
    + intros (x & Hx & [= <-]). left. exists v. split; [by apply Hv|]. destruct x as [a|]; [right; by apply P1|left; split; [by apply N1|done]].
    + intros [(v' & Hk & Hc)|[Hno _]]; [|exfalso; apply (Hno v); by apply Hv]. apply Hv in Hk as ->. destruct Hc as [[Hn ->]|[Hn HP]].
      * exists None. split; [by apply N1|done].
      * exists (Some a). split; [by apply P1|done].
Qed.
Lemma d_nilfield_spec {A} fields l tbl f (d : decoder A) P : tabled fields l tbl -> In f fields -> decodes d P ->
  settles (d_nilfield tbl f d) /\ forall a, d_nilfield tbl f d = Ok a <-> optional h P l f a.
Proof.
  intros Ht Hf Hd. unfold d_nilfield, optional, field. destruct (values_for_cases _ _ _ _ Ht Hf) as [[-> Hno]|(v & -> & Hv)].
  - split; [apply settles_ok|]. intros a. split; [intros [= <-]; by right|]. intros [(v & Hk & _)|[_ ->]]; [|done]. by apply Hno in Hk.
  - destruct (Hd v) as (S1 & N1 & P1). split; [done|]. intros a. split.
    + intros Hx. left. exists v. split; [by apply Hv|]. destruct a as [a|]; [right|left; split; [by apply N1|done]].
      apply P1 in Hx as [? ?]. split; [done|]. by exists a.
    + intros [(v' & Hk & Hc)|[Hno _]]; [|exfalso; apply (Hno v); by apply Hv]. apply Hv in Hk as ->. destruct Hc as [[Hn ->]|(Hn & a' & -> & HP)].
      * by apply N1.
      * by apply P1.
Qed.
Lemma d_value_spec fields l tbl f : tabled fields l tbl -> In f fields ->
  settles (d_nilfield tbl f d_node) /\ forall a, d_nilfield tbl f d_node = Ok a <->
    (forall v, has_key h l f v -> a = Some v) /\ ((forall v, ~ has_key h l f v) -> a = None).
Proof.
  intros Ht Hf. unfold d_nilfield, d_node. destruct (values_for_cases _ _ _ _ Ht Hf) as [[-> Hno]|(v & -> & Hv)].
  - split; [apply settles_ok|]. intros a. split.
    + intros [= <-]. split; [|done]. intros v Hk. by apply Hno in Hk.
    + intros [_ H2]. by rewrite H2.
  - split; [apply settles_ok|]. intros a. split.
    + intros [= <-]. split; [by intros v' ->%Hv|]. intros Hno. destruct (Hno v). by apply Hv.
    + intros [H1 _]. rewrite (H1 v); [done|]. by apply Hv.
Qed.

(** *** The decoders of the program *)
Context (compile : list N -> option (heap -> loc -> list loc)) (to_int : info -> option Z).

(** A decoder that reads a string and interprets it. *)
Lemma decodes_text {A} (f : list N -> res A) P :
  (forall s, settles (f s)) -> (forall l s a, is_text h l s -> f s = Ok a <-> P l a) -> (forall l a, P l a -> exists s, is_text h l s) ->
  decodes (fun l => let! s := d_string h l in match s with None => Ok None | Some s => let! a := f s in Ok (Some a) end) P.
Proof.
  intros HS HP HT l. destruct (d_string_spec l) as (S1 & N1 & P1). split_and!.
  - apply settles_bind; [done|]. intros [s|] _; [|apply settles_ok]. apply settles_bind; [done|]. intros; apply settles_ok.
  - rewrite rbind_Ok. split.
    + intros ([s|] & Hs & Hk); [|by apply N1]. by apply rbind_Ok in Hk as (? & _ & ?).
    + intros Hn. exists None. split; [by apply N1|done].
  - intros a. rewrite rbind_Ok. split.
    + intros ([s|] & Hs & Hk); [|done]. apply rbind_Ok in Hk as (a' & Ha & [= <-]). apply P1 in Hs as [Hn Ht]. split; [done|]. by eapply HP.
    + intros [Hn Ha]. destruct (HT l a Ha) as [s Hs]. exists (Some s). split; [by apply P1|]. apply rbind_Ok. exists a. split; [by eapply HP|done].
Qed.
Lemma decodes_ext {A} (f g : decoder A) P Q : (forall l, f l = g l) -> (forall l a, P l a <-> Q l a) -> decodes f P -> decodes g Q.
Proof. intros Hfg HPQ Hf l. rewrite <- Hfg. destruct (Hf l) as (? & ? & H). split_and!; try done. intros a. by rewrite H, HPQ. Qed.

Lemma d_query_spec : decodes (d_query compile h) (means_query h compile).
Proof.
  eapply decodes_ext; [|done|apply (decodes_text (fun s => match compile s with Some f => Ok (mkQuery s f) | None => Err EDecode end))].
  - intros l. unfold d_query. destruct (d_string h l) as [[s|]| | |]; cbn [rbind]; try done. by destruct (compile s).
  - intros s. destruct (compile s); [apply settles_ok|apply settles_err].
  - intros l s [t f] Hs. unfold means_query. cbn [q_text q_find]. split.
    + destruct (compile s) as [g|] eqn:C; [|done]. intros [= <- <-]. by split.
    + intros [Ht Hc]. rewrite (text_fun _ _ _ Hs Ht), Hc. done.
  - intros l q [Ht _]. by eexists.
Qed.
Lemma d_queries_spec : decodes (d_queries compile h) (means_queries h compile).
Proof.
  intros l. unfold d_queries. destruct (sight_of l) as [|i|ls|kvs|] eqn:E.
  2: { assert (Hsc : is_scalar h l i) by (by apply sight_text). assert (Hn : ~ is_null l) by (rewrite <- sight_null; congruence).
       destruct (d_query_spec l) as (S1 & N1 & P1). split_and!.
       - apply settles_bind; [done|]. intros [q|] _; apply settles_ok.
       - rewrite rbind_Ok. split; [|done]. intros ([q|] & Hq & Hk); [done|]. by apply N1.
       - intros qs. rewrite rbind_Ok. split.
         + intros ([q|] & Hq & Hk); [|done]. injection Hk as <-. split; [done|]. left. exists q. split; [by apply P1|done].
         + intros [_ [(q & Hq & ->)|(ls & Hl & _)]].
           * exists (Some q). split; [by apply P1|done].
           * apply sight_list in Hl. congruence. }
  all: pose proof (d_list_spec _ _ d_query_spec l) as (S1 & N1 & P1); split_and!; [done|done|]; intros qs; rewrite P1; split;
    [intros [? ?]; split; [done|by right]|intros [? [(q & [(i & Hi & _) _] & _)|?]]; [apply sight_text in Hi; congruence|done]].
Qed.
Lemma d_action_spec : decodes (d_action h) (means_action h).
Proof.
  apply (decodes_text decode_action).
  - intros s. unfold decode_action. destruct (action_id _); (apply settles_ok || apply settles_err).
  - intros l s a Hs. rewrite decode_action_iff. unfold means_action. split.
    + intros [[-> H]|[[-> H]|[[-> H]|[-> H]]]]; exists s; eexists; by split_and!.
    + intros (s' & w & Hs' & Ha & Hw). rewrite (text_fun _ _ _ Hs Hs'). destruct a; simpl in Ha; try done; injection Ha as <-; tauto.
  - intros l a (s & w & Hs & _). by exists s.
Qed.
Lemma d_missing_spec : decodes (d_missing h) (means_missing h).
Proof.
  eapply decodes_ext; [|done|apply (decodes_text (fun s => Ok (decode_missing s)))].
  - intros l. unfold d_missing. by destruct (d_string h l) as [[s|]| | |].
  - intros s. apply settles_ok.
  - intros l s a Hs. split.
    + intros [= <-]. exists s. split; [done|]. destruct (proj1 (decode_missing_iff s _) eq_refl) as [[-> H]|[[-> H]|[-> H]]]; done.
    + intros (s' & Hs' & H). rewrite (text_fun _ _ _ Hs Hs'). f_equal. apply decode_missing_iff. destruct a; tauto.
  - intros l a (s & Hs & _). by exists s.
Qed.

(** A record decoder, given its body. *)
Lemma decodes_struct {A} fields (body : list (list N * loc) -> res A) (Q : loc -> A -> Prop) :
  (forall l tbl, tabled fields l tbl -> settles (body tbl) /\ forall a, body tbl = Ok a <-> Q l a) ->
  decodes (fun l => let! t := d_struct h fields l in match t with None => Ok None | Some tbl => let! a := body tbl in Ok (Some a) end)
          (fun l a => record_like h fields l /\ Q l a).
Proof.
  intros HB l. destruct (d_struct_spec fields l) as (S1 & N1 & R1 & T1). split_and!.
  - apply settles_bind; [done|]. intros [tbl|] Ht; [|apply settles_ok]. destruct (HB l tbl (T1 tbl Ht)) as [Sb _].
    apply settles_bind; [done|]. intros; apply settles_ok.
  - rewrite rbind_Ok. split.
    + intros ([tbl|] & Ht & Hk); [|by apply N1]. by apply rbind_Ok in Hk as (? & _ & ?).
    + intros Hn. exists None. split; [by apply N1|done].
  - intros a. rewrite rbind_Ok. split.
    + intros ([tbl|] & Ht & Hk); [|done]. apply rbind_Ok in Hk as (a' & Ha & [= <-]). split_and!.
      * intros Hn. apply N1 in Hn. congruence.
      * apply R1. by exists tbl.
      * by apply (HB l tbl (T1 tbl Ht)).
    + intros (Hn & Hr & Hq). destruct (proj2 R1 Hr) as [tbl Ht]. exists (Some tbl). split; [done|]. apply rbind_Ok. exists a.
      split; [by apply (HB l tbl (T1 tbl Ht))|done].
Qed.

(** One bind after the other. *)
Lemma bind_spec {A B} (r : res A) (Q : A -> Prop) (k : A -> res B) (R : A -> B -> Prop) :
  settles r /\ (forall a, r = Ok a <-> Q a) -> (forall a, settles (k a) /\ forall b, k a = Ok b <-> R a b) ->
  settles (rbind r k) /\ forall b, rbind r k = Ok b <-> exists a, Q a /\ R a b.
Proof.
  intros [S1 H1] Hk. split; [apply settles_bind; [done|]; intros a _; apply Hk|]. intros b. rewrite rbind_Ok. split.
  - intros (a & Ha & Hb). exists a. split; [by apply H1|by apply Hk].
  - intros (a & Ha & Hb). exists a. split; [by apply H1|by apply Hk].
Qed.
Lemma ok_spec {A} (x : A) : settles (Ok x) /\ forall a, Ok x = Ok a <-> a = x.
Proof. split; [apply settles_ok|]. intros a. split; [by intros [= <-]|by intros ->]. Qed.
Lemma spec_ext {A} (r : res A) (Q R : A -> Prop) : settles r /\ (forall a, r = Ok a <-> Q a) -> (forall a, Q a <-> R a) ->
  settles r /\ forall a, r = Ok a <-> R a.
Proof. intros [S1 H1] HQ. split; [done|]. intros a. by rewrite H1. Qed.

Ltac in_fields := simpl; repeat (first [left; reflexivity|right]).

Lemma d_condition_spec : decodes (d_condition compile h) (means_condition h compile).
Proof.
  eapply decodes_ext; [| |apply (decodes_struct ["query"; "value"]%string
    (fun tbl => let! q := d_field tbl "query" [] (d_queries compile h) in let! v := d_nilfield tbl "value" d_node in Ok (mkRawCondition q v))
    (fun l c => field h (means_queries h compile) [] l "query" (rc_query c) /\
       (forall v, has_key h l "value" v -> rc_value c = Some v) /\ ((forall v, ~ has_key h l "value" v) -> rc_value c = None)))].
  - intros l. unfold d_condition. destruct (d_struct h _ l) as [[tbl|]| | |]; cbn [rbind]; try done.
    destruct (d_field tbl _ _ _); cbn [rbind]; try done. by destruct (d_nilfield tbl _ _).
  - done.
  - intros l tbl Ht. eapply spec_ext.
    + eapply bind_spec; [eapply d_field_spec; [done|in_fields|apply d_queries_spec]|]. intros q.
      eapply bind_spec; [eapply d_value_spec; [done|in_fields]|]. intros v. apply ok_spec.
    + intros [q v]. simpl. split.
      * intros (q' & Hq & v' & Hv & [= -> ->]). done.
      * intros (Hq & Hv). by exists q; split; [done|]; exists v.
Qed.
Lemma d_docquery_spec : decodes (d_docquery compile h) (means_docquery h compile).
Proof.
  eapply decodes_ext; [| |apply (decodes_struct ["conditions"]%string
    (fun tbl => d_field tbl "conditions" [] (d_list h (d_pointer h (d_condition compile h))))
    (fun l cs => field h (pointers_to h (means_condition h compile)) [] l "conditions" cs))].
  - done.
  - done.
  - intros l tbl Ht. eapply d_field_spec; [done|in_fields|]. apply d_pointers_spec, d_condition_spec.
Qed.
Lemma d_onmissing_spec : decodes (d_onmissing compile h) (means_onmissing h compile).
Proof.
  eapply decodes_ext; [| |apply (decodes_struct ["action"; "injectPath"]%string
    (fun tbl => let! a := d_field tbl "action" MDefault (d_missing h) in let! p := d_nilfield tbl "injectPath" (d_queries compile h) in Ok (a, p))
    (fun l om => field h (means_missing h) MDefault l "action" (fst om) /\ optional h (means_queries h compile) l "injectPath" (snd om)))].
  - intros l. unfold d_onmissing. destruct (d_struct h _ l) as [[tbl|]| | |]; cbn [rbind]; try done.
    destruct (d_field tbl _ _ _); cbn [rbind]; try done. by destruct (d_nilfield tbl _ _).
  - done.
  - intros l tbl Ht. eapply spec_ext.
    + eapply bind_spec; [eapply d_field_spec; [done|in_fields|apply d_missing_spec]|]. intros a.
      eapply bind_spec; [eapply d_nilfield_spec; [done|in_fields|apply d_queries_spec]|]. intros v. apply ok_spec.
    + intros [q v]. simpl. split.
      * intros (q' & Hq & v' & Hv & [= -> ->]). done.
      * intros (Hq & Hv). by exists q; split; [done|]; exists v.
Qed.
Lemma d_overlay_spec : decodes (d_overlay compile to_int h) (means_overlay h compile to_int).
Proof.
  eapply decodes_ext; [| |apply (decodes_struct ["name"; "query"; "value"; "action"; "documentQuery"; "onMissing"; "documentIndex"]%string
    (fun tbl =>
      let! name := d_field tbl "name" [] (d_string h) in
      let! q := d_nilfield tbl "query" (d_queries compile h) in
      let! v := d_nilfield tbl "value" d_node in
      let! a := d_field tbl "action" AInvalid (d_action h) in
      let! dq := d_field tbl "documentQuery" [] (d_list h (d_pointer h (d_docquery compile h))) in
      let! om := d_field tbl "onMissing" (MDefault, None) (d_onmissing compile h) in
      let! ix := d_nilfield tbl "documentIndex" (d_list h (d_int to_int h)) in
      let na := decode_defaults name (queries_string (match q with Some qs => qs | None => [] end)) a in
      Ok (mkRawOverlay (fst na) q v (snd na) dq (fst om) (snd om) ix)))].
  - intros l. unfold d_overlay, overlay_fields. destruct (d_struct h _ l) as [[tbl|]| | |]; cbn [rbind]; try done.
    destruct (d_field tbl "name" _ _); cbn [rbind]; try done. destruct (d_nilfield tbl "query" _); cbn [rbind]; try done.
    destruct (d_nilfield tbl "value" _); cbn [rbind]; try done. destruct (d_field tbl "action" _ _); cbn [rbind]; try done.
    destruct (d_field tbl "documentQuery" _ _); cbn [rbind]; try done. destruct (d_field tbl "onMissing" _ _); cbn [rbind]; try done.
    by destruct (d_nilfield tbl "documentIndex" _).
  - intros l o. unfold means_overlay. apply iff_refl.
  - intros l tbl Ht. eapply spec_ext.
    + eapply bind_spec; [eapply d_field_spec; [done|in_fields|apply d_string_spec]|]. intros name.
      eapply bind_spec; [eapply d_nilfield_spec; [done|in_fields|apply d_queries_spec]|]. intros q.
      eapply bind_spec; [eapply d_value_spec; [done|in_fields]|]. intros v.
      eapply bind_spec; [eapply d_field_spec; [done|in_fields|apply d_action_spec]|]. intros a.
      eapply bind_spec; [eapply d_field_spec; [done|in_fields|apply d_pointers_spec, d_docquery_spec]|]. intros dq.
      eapply bind_spec; [eapply d_field_spec; [done|in_fields|apply d_onmissing_spec]|]. intros om.
      eapply bind_spec; [eapply d_nilfield_spec; [done|in_fields|apply d_list_spec, d_int_spec]|]. intros ix.
      apply ok_spec.
    + assert (DN : forall name qs a, fst (decode_defaults name qs a) = match name with [] => qs | _ => name end).
      { by intros [|]. }
      assert (DA : forall name qs a, snd (decode_defaults name qs a) = match name, a with _ :: _, AInvalid => AMerge | _, _ => a end).
      { intros [|] qs []; done. }
      intros o. split.
      * intros (name & Hname & q & Hq & v & [Hv1 Hv2] & a & Ha & dq & Hdq & [om ip] & Hom & ix & Hix & ->). cbn [ro_name ro_query ro_value ro_action ro_docqueries ro_missing ro_inject ro_index fst snd].
        split_and!; try done. exists name, a. rewrite DN, DA. done.
      * destruct o as [nm q v a dq om ip ix]. cbn [ro_name ro_query ro_value ro_action ro_docqueries ro_missing ro_inject ro_index].
        intros ((name & a' & Hname & Ha & -> & ->) & Hq & Hv1 & Hv2 & Hdq & Hom & Hix).
        exists name. split; [done|]. exists q. split; [done|]. exists v. split; [done|]. exists a'. split; [done|].
        exists dq. split; [done|]. exists (om, ip). split; [done|]. exists ix. split; [done|]. by rewrite DN, DA.
Qed.
Lemma d_overlay_list_spec : decodes (d_overlay_list compile to_int h) (pointers_to h (means_overlay h compile to_int)).
Proof. apply d_pointers_spec, d_overlay_spec. Qed.
Lemma d_document_spec : decodes (d_document compile to_int h) (means_document h compile to_int).
Proof.
  eapply decodes_ext; [| |apply (decodes_struct ["name"; "path"; "overlays"]%string
    (fun tbl =>
      let! _ := d_field tbl "name" [] (d_string h) in
      let! p := d_field tbl "path" 0%Z (d_int to_int h) in
      let! os := d_field tbl "overlays" [] (d_overlay_list compile to_int h) in
      Ok (mkDocument p os)))].
  - intros l. unfold d_document. destruct (d_struct h _ l) as [[tbl|]| | |]; cbn [rbind]; try done.
    destruct (d_field tbl "name" _ _); cbn [rbind]; try done. destruct (d_field tbl "path" _ _); cbn [rbind]; try done.
    by destruct (d_field tbl "overlays" _ _).
  - intros l o. unfold means_document. apply iff_refl.
  - intros l tbl Ht. eapply spec_ext.
    + eapply bind_spec; [eapply d_field_spec; [done|in_fields|apply d_string_spec]|]. intros name.
      eapply bind_spec; [eapply d_field_spec; [done|in_fields|apply d_int_spec]|]. intros p.
      eapply bind_spec; [eapply d_field_spec; [done|in_fields|apply d_overlay_list_spec]|]. intros os. apply ok_spec.
    + intros [p os]. cbn [Queue.d_path Queue.d_overlays]. split.
      * intros (name & Hn & p' & Hp & os' & Ho & [= -> ->]). split_and!; try done. by exists name.
      * intros ((name & Hn) & Hp & Ho). exists name. split; [done|]. exists p. split; [done|]. by exists os.
Qed.
Lemma d_file_spec : decodes (d_file compile to_int h) (means_file h compile to_int).
Proof.
  eapply decodes_ext; [| |apply (decodes_struct ["name"; "overlays"; "documents"; "path"; "outputPath"]%string
    (fun tbl =>
      let! name := d_field tbl "name" [] (d_string h) in
      let! os := d_field tbl "overlays" [] (d_overlay_list compile to_int h) in
      let! ds := d_field tbl "documents" [] (d_list h (d_pointer h (d_document compile to_int h))) in
      let! p := d_field tbl "path" [] (d_string h) in
      let! out := d_field tbl "outputPath" [] (d_string h) in
      Ok (mkEntry _ _ _ name os ds [] p out)))].
  - intros l. unfold d_file. destruct (d_struct h _ l) as [[tbl|]| | |]; cbn [rbind]; try done.
    destruct (d_field tbl "name" _ _); cbn [rbind]; try done. destruct (d_field tbl "overlays" _ _); cbn [rbind]; try done.
    destruct (d_field tbl "documents" _ _); cbn [rbind]; try done. destruct (d_field tbl "path" _ _); cbn [rbind]; try done.
    by destruct (d_field tbl "outputPath" _ _).
  - intros l o. unfold means_file. apply iff_refl.
  - intros l tbl Ht. eapply spec_ext.
    + eapply bind_spec; [eapply d_field_spec; [done|in_fields|apply d_string_spec]|]. intros name.
      eapply bind_spec; [eapply d_field_spec; [done|in_fields|apply d_overlay_list_spec]|]. intros os.
      eapply bind_spec; [eapply d_field_spec; [done|in_fields|apply d_pointers_spec, d_document_spec]|]. intros ds.
      eapply bind_spec; [eapply d_field_spec; [done|in_fields|apply d_string_spec]|]. intros p.
      eapply bind_spec; [eapply d_field_spec; [done|in_fields|apply d_string_spec]|]. intros out. apply ok_spec.
    + intros [name os ds ns p out]. cbn [e_name e_overlays e_documents e_nodes e_path e_output]. split.
      * intros (name' & ? & os' & ? & ds' & ? & p' & ? & out' & ? & [= -> -> -> -> -> ->]). by split_and!.
      * intros (? & ? & ? & ? & ? & ->). exists name. split; [done|]. exists os. split; [done|]. exists ds. split; [done|].
        exists p. split; [done|]. by exists out.
Qed.
Lemma d_instructions_spec : decodes (d_instructions compile to_int h) (fun l i =>
  record_like h ["commonOverlays"; "yamlFiles"]%string l /\
  field h (pointers_to h (means_overlay h compile to_int)) [] l "commonOverlays" (fst i) /\
  field h (pointers_to h (means_file h compile to_int)) [] l "yamlFiles" (snd i)).
Proof.
  eapply decodes_ext; [| |apply (decodes_struct ["commonOverlays"; "yamlFiles"]%string
    (fun tbl =>
      let! os := d_field tbl "commonOverlays" [] (d_overlay_list compile to_int h) in
      let! fs := d_field tbl "yamlFiles" [] (d_list h (d_pointer h (d_file compile to_int h))) in
      Ok (os, fs)))].
  - intros l. unfold d_instructions. destruct (d_struct h _ l) as [[tbl|]| | |]; cbn [rbind]; try done.
    destruct (d_field tbl "commonOverlays" _ _); cbn [rbind]; try done. by destruct (d_field tbl "yamlFiles" _ _).
  - intros l o. apply iff_refl.
  - intros l tbl Ht. eapply spec_ext.
    + eapply bind_spec; [eapply d_field_spec; [done|in_fields|apply d_overlay_list_spec]|]. intros os.
      eapply bind_spec; [eapply d_field_spec; [done|in_fields|apply d_pointers_spec, d_file_spec]|]. intros fs. apply ok_spec.
    + intros [os fs]. simpl. split.
      * intros (os' & ? & fs' & ? & [= -> ->]). done.
      * intros (? & ?). exists os. split; [done|]. by exists fs.
Qed.
End proofs.

(** Reading is indifferent to the way things are written; places in the file. *)
From Verif Require Import Prelude GoStrings Yaml Heap ActionNames SpecActions ProofActions Overlay Queue Files Decode SpecDecode ProofDecode.

Section proofs.
Context (h : heap) (compile : list N -> option (heap -> loc -> list loc)) (to_int : info -> option Z).
Notation alike := (alike h to_int).
Notation is_null := (is_null h).

(** Meanings exclude null. *)
Lemma record_not_null fs l : record_like h fs l -> ~ is_null l.
Proof. intros ((n & Hn & Hk) & _) (n' & [Hn' Hk'] & _). rewrite (node_of_fun _ _ _ _ Hn Hn') in *. congruence. Qed.
Lemma scalar_not_null l i : is_scalar h l i -> ~ is_null l.
Proof. intros Hi N. apply sight_text in Hi. apply sight_null in N. congruence. Qed.
Lemma scalar_fun l i i' : is_scalar h l i -> is_scalar h l i' -> i = i'.
Proof. rewrite <- !sight_text. congruence. Qed.
Lemma scalar_not_list l i ls : is_scalar h l i -> is_list h l ls -> False.
Proof. rewrite <- sight_text, <- sight_list. congruence. Qed.
Lemma has_key_fun fields l k v v' : record_like h fields l -> In k fields -> has_key h l k v -> has_key h l k v' -> v = v'.
Proof.
  intros (_ & _ & _ & Hu) Hk (i & kl & Hp & Ht) (j & kl' & Hp' & Ht'). pose proof (Hu k i j kl v kl' v' Hk Hp Hp' Ht Ht') as <-.
  destruct Hp as (n & [Hn _] & _ & H1). destruct Hp' as (n' & [Hn' _] & _ & H2). rewrite (node_of_fun _ _ _ _ Hn Hn') in *. congruence.
Qed.
(** The value of a field that is there. *)
Lemma field_at {A} fields P (zero : A) l k a v : record_like h fields l -> field h P zero l k a -> has_key h l k v -> In k fields ->
  is_null v \/ ~ is_null v /\ P v a.
Proof.
  intros Hr [(v' & Hv' & Hc)|[Hno _]] Hv Hk; [|by apply Hno in Hv].
  rewrite (has_key_fun _ _ _ _ _ Hr Hk Hv Hv'). destruct Hc as [[? _]|?]; auto.
Qed.

Definition respects {A} (s : schema) (P : loc -> A -> Prop) : Prop :=
  forall l l', alike s l l' -> (is_null l <-> is_null l') /\ forall a, P l a <-> P l' a.

Lemma alike_record fs l l' : alike (XRecord fs) l l' -> l = l' \/ is_null l /\ is_null l' \/
  record_like h (map fst fs) l /\ record_like h (map fst fs) l' /\ forall k s, In (k, s) fs ->
    (forall v, has_key h l k v -> exists v', has_key h l' k v' /\ alike s v v') /\
    (forall v', has_key h l' k v' -> exists v, has_key h l k v /\ alike s v v').
Proof.
  cbn [SpecDecode.alike]. intros [->|[Hn|(H1 & H2 & H3)]]; [by left|right; by left|right; right]. split_and!; try done.
  clear H1 H2. revert H3. induction fs as [|[k0 s0] fs IH]; [done|]. intros [Ha Hr] k s [[= <- <-]|Hi]; [done|]. by apply IH.
Qed.
Lemma respects_text : respects XText (is_text h).
Proof.
  intros l l' [->|[[H1 H2]|(t & H1 & H2)]]; [done|split; [tauto|]|split].
  - intros a. split; intros H; exfalso; eapply text_not_null; eauto.
  - split; intros N; exfalso; [eapply (text_not_null h l)|eapply (text_not_null h l')]; eauto.
  - intros a. split; intros H; [by rewrite (text_fun _ _ _ _ H H1)|by rewrite (text_fun _ _ _ _ H H2)].
Qed.
Lemma respects_via_text {A} (P : loc -> A -> Prop) : (forall l l' t, is_text h l t -> is_text h l' t -> forall a, P l a -> P l' a) ->
  (forall l a, P l a -> ~ is_null l) -> respects XText P.
Proof.
  intros HP HN l l' [->|[[H1 H2]|(t & H1 & H2)]]; [done|split; [tauto|]|split].
  - intros a. split; intros H; exfalso; eapply HN; eauto.
  - split; intros N; exfalso; [eapply (text_not_null h l)|eapply (text_not_null h l')]; eauto.
  - intros a. split; by eapply HP.
Qed.
Lemma respects_action : respects XText (means_action h).
Proof.
  apply respects_via_text.
  - intros l l' t H1 H2 a (s & w & Hs & Hw & Hp). exists t, w. split; [done|]. split; [done|]. by rewrite <- (text_fun _ _ _ _ Hs H1).
  - intros l a (s & w & Hs & _). by eapply text_not_null.
Qed.
Lemma respects_missing : respects XText (means_missing h).
Proof.
  apply respects_via_text.
  - intros l l' t H1 H2 a (s & Hs & Hp). exists t. split; [done|]. by rewrite <- (text_fun _ _ _ _ Hs H1).
  - intros l a (s & Hs & _). by eapply text_not_null.
Qed.
Lemma respects_query : respects XText (means_query h compile).
Proof.
  apply respects_via_text.
  - intros l l' t H1 H2 q [Hs Hc]. split; [|done]. by rewrite (text_fun _ _ _ _ Hs H1).
  - intros l a [Hs _]. by eapply text_not_null.
Qed.
Lemma respects_int : respects XInt (means_int h to_int).
Proof.
  intros l l' [->|[[H1 H2]|(i & i' & H1 & H2 & E)]]; [done|split; [tauto|]|split].
  - intros a. split; intros (i & Hi & _); exfalso; eapply scalar_not_null; eauto.
  - split; intros N; exfalso; eapply scalar_not_null; [exact H1|done|exact H2|done].
  - intros a. split; intros (j & Hj & Hz).
    + exists i'. split; [done|]. by rewrite <- E, <- (scalar_fun _ _ _ Hj H1).
    + exists i. split; [done|]. by rewrite E, <- (scalar_fun _ _ _ Hj H2).
Qed.
Lemma listed_respects {A} (R : loc -> loc -> Prop) (P : loc -> A -> Prop) : (forall l l', R l l' -> (is_null l <-> is_null l') /\ forall a, P l a <-> P l' a) ->
  forall ls ls', Forall2 R ls ls' -> forall xs, listed h P ls xs <-> listed h P ls' xs.
Proof.
  intros HR ls ls' F. induction F as [|l l' ls ls' Hl F IH]; [done|]. destruct (HR l l' Hl) as [Hn HP]. intros xs. split.
  - inversion 1; subst; [constructor; [tauto|by apply IH]|constructor; [tauto|by apply HP|by apply IH]].
  - inversion 1; subst; [constructor; [tauto|by apply IH]|constructor; [tauto|by apply HP|by apply IH]].
Qed.
Lemma pointers_respects {A} (R : loc -> loc -> Prop) (P : loc -> A -> Prop) : (forall l l', R l l' -> (is_null l <-> is_null l') /\ forall a, P l a <-> P l' a) ->
  forall ls ls', Forall2 R ls ls' -> forall xs, pointers h P ls xs <-> pointers h P ls' xs.
Proof.
  intros HR ls ls' F. unfold pointers. induction F as [|l l' ls ls' Hl F IH]; [done|]. destruct (HR l l' Hl) as [Hn HP]. intros xs. split.
  - intros (x & xs' & Hx & Hxs & ->)%Forall2_cons_inv_l. constructor; [|by apply IH]. destruct Hx as [[? ->]|(? & a & -> & Ha)]; [left; tauto|right].
    split; [tauto|]. exists a. split; [done|by apply HP].
  - intros (x & xs' & Hx & Hxs & ->)%Forall2_cons_inv_l. constructor; [|by apply IH]. destruct Hx as [[? ->]|(? & a & -> & Ha)]; [left; tauto|right].
    split; [tauto|]. exists a. split; [done|by apply HP].
Qed.
Lemma respects_list {A} s (P : loc -> A -> Prop) : respects s P -> respects (XList s) (list_of h P).
Proof.
  intros HR l l'. cbn [SpecDecode.alike]. intros [->|[[H1 H2]|(ls & ls' & H1 & H2 & F)]]; [done|split; [tauto|]|split].
  - intros a. split; intros (ls & Hl & _); exfalso; eapply list_not_null; eauto.
  - split; intros N; exfalso; eapply list_not_null; [exact H1|done|exact H2|done].
  - intros a. pose proof (listed_respects _ _ HR ls ls' F a) as X. split; intros (ls0 & Hl & Hx).
    + exists ls'. split; [done|]. apply X. by rewrite <- (list_fun _ _ _ _ Hl H1).
    + exists ls. split; [done|]. apply X. by rewrite <- (list_fun _ _ _ _ Hl H2).
Qed.
Lemma respects_pointers {A} s (P : loc -> A -> Prop) : respects s P -> respects (XList s) (pointers_to h P).
Proof.
  intros HR l l'. cbn [SpecDecode.alike]. intros [->|[[H1 H2]|(ls & ls' & H1 & H2 & F)]]; [done|split; [tauto|]|split].
  - intros a. split; intros (ls & Hl & _); exfalso; eapply list_not_null; eauto.
  - split; intros N; exfalso; eapply list_not_null; [exact H1|done|exact H2|done].
  - intros a. pose proof (pointers_respects _ _ HR ls ls' F a) as X. split; intros (ls0 & Hl & Hx).
    + exists ls'. split; [done|]. apply X. by rewrite <- (list_fun _ _ _ _ Hl H1).
    + exists ls. split; [done|]. apply X. by rewrite <- (list_fun _ _ _ _ Hl H2).
Qed.
Lemma queries_one l x t : is_text h l t -> is_list h x [l] -> forall qs, means_queries h compile l qs <-> means_queries h compile x qs.
Proof.
  intros Ht Hx qs. split.
  - intros [(q & Hq & ->)|(ls & Hl & _)].
    + right. exists [l]. split; [done|]. constructor; [by eapply text_not_null|done|constructor].
    + destruct Ht as (i & Hi & _). exfalso. by eapply scalar_not_list.
  - intros [(q & [(i & Hi & _) _] & _)|(ls & Hl & Hq)]; [exfalso; by eapply scalar_not_list|].
    rewrite (list_fun _ _ _ _ Hl Hx) in Hq. left. inversion Hq as [|? ? ? Hn _|? ? q ? _ Hm Hr]; subst.
    + exfalso. by eapply text_not_null.
    + inversion Hr; subst. by exists q.
Qed.
Lemma respects_queries : respects XQueries (means_queries h compile).
Proof.
  assert (RQ : forall a b, (is_null a /\ is_null b \/ exists t, is_text h a t /\ is_text h b t) -> (is_null a <-> is_null b) /\ forall q, means_query h compile a q <-> means_query h compile b q).
  { intros a b Hab. apply (respects_query a b). by right. }
  assert (TX : forall a b t, is_text h a t -> is_text h b t -> forall qs, means_queries h compile a qs -> means_queries h compile b qs).
  { intros a b t Ha Hb qs [(q & Hq & ->)|(ls & Hl & _)].
    - left. exists q. split; [|done]. eapply RQ; [|exact Hq]. right. eauto.
    - destruct Ha as (i & Hi & _). exfalso. by eapply scalar_not_list. }
  intros l l' [->|[H|[(x & t & H1 & H2 & H3)|[(x & t & H1 & H2 & H3)|(ls & ls' & H1 & H2 & F)]]]]; [done|..].
  - split; [by apply RQ|]. destruct H as [[H1 H2]|(t & H1 & H2)].
    + assert (X : forall a qs, is_null a -> means_queries h compile a qs -> False).
      { intros a qs Hn [(q & [Hq _] & _)|(ls & Hl & _)]; [by eapply text_not_null|by eapply list_not_null]. }
      intros qs. split; intros Hq; exfalso; [exact (X l qs H1 Hq)|exact (X l' qs H2 Hq)].
    + intros qs. split; [exact (TX _ _ _ H1 H2 qs)|exact (TX _ _ _ H2 H1 qs)].
  - split; [split; intros N; [by destruct (text_not_null _ _ _ H1)|by destruct (list_not_null _ _ _ H2)]|]. intros qs. rewrite <- (queries_one x l' t H3 H2). split; [exact (TX _ _ _ H1 H3 qs)|exact (TX _ _ _ H3 H1 qs)].
  - split; [split; intros N; [by destruct (list_not_null _ _ _ H2)|by destruct (text_not_null _ _ _ H1)]|]. intros qs. rewrite <- (queries_one x l t H3 H2). split; [exact (TX _ _ _ H3 H1 qs)|exact (TX _ _ _ H1 H3 qs)].
  - split; [split; intros N; exfalso; [by eapply (list_not_null h l)|by eapply (list_not_null h l')]|].
    pose proof (listed_respects _ _ RQ ls ls' F) as X.
    intros qs. split; (intros [(q & [(i & Hi & _) _] & _)|(ls0 & Hl & Hx)]; [exfalso; by eapply scalar_not_list|right]).
    + exists ls'. split; [done|]. apply X. by rewrite <- (list_fun _ _ _ _ Hl H1).
    + exists ls. split; [done|]. apply X. by rewrite <- (list_fun _ _ _ _ Hl H2).
Qed.
Lemma field_respects {A} (R : loc -> loc -> Prop) (P : loc -> A -> Prop) zero l l' k :
  (forall v v', R v v' -> (is_null v <-> is_null v') /\ forall a, P v a <-> P v' a) ->
  (forall v, has_key h l k v -> exists v', has_key h l' k v' /\ R v v') ->
  (forall v', has_key h l' k v' -> exists v, has_key h l k v /\ R v v') ->
  forall a, field h P zero l k a <-> field h P zero l' k a.
Proof.
  intros HR H1 H2 a. unfold field. split.
  - intros [(v & Hv & Hc)|[Hno ->]].
    + left. destruct (H1 v Hv) as (v' & Hv' & Hvv). destruct (HR _ _ Hvv) as [Hn HP]. exists v'. split; [done|]. rewrite <- HP. tauto.
    + right. split; [|done]. intros v' Hv'. destruct (H2 v' Hv') as (v & Hv & _). by eapply Hno.
  - intros [(v & Hv & Hc)|[Hno ->]].
    + left. destruct (H2 v Hv) as (v' & Hv' & Hvv). destruct (HR _ _ Hvv) as [Hn HP]. exists v'. split; [done|]. rewrite HP. tauto.
    + right. split; [|done]. intros v' Hv'. destruct (H1 v' Hv') as (v & Hv & _). by eapply Hno.
Qed.
Lemma respects_opt {A} s (P : loc -> A -> Prop) : respects s P -> respects s (fun v o => exists a, o = Some a /\ P v a).
Proof.
  intros H l l' Hl. destruct (H l l' Hl) as [Hn HP]. split; [done|]. intros o. split; intros (a & -> & Ha); exists a; (split; [done|by apply HP]).
Qed.
Lemma value_respects (l l' : loc) k (o : option loc) :
  (forall v, has_key h l k v -> exists v', has_key h l' k v' /\ alike XNode v v') ->
  (forall v', has_key h l' k v' -> exists v, has_key h l k v /\ alike XNode v v') ->
  (forall v, has_key h l k v -> o = Some v) /\ ((forall v, ~ has_key h l k v) -> o = None) ->
  (forall v, has_key h l' k v -> o = Some v) /\ ((forall v, ~ has_key h l' k v) -> o = None).
Proof.
  intros H1 H2 [A B]. split.
  - intros v' Hv'. destruct (H2 v' Hv') as (v & Hv & [->|[]]). by apply A.
  - intros Hno. apply B. intros v Hv. destruct (H1 v Hv) as (v' & Hv' & _). by eapply Hno.
Qed.

(** Alike, in either direction. *)
Definition both_ways (s : schema) (v v' : loc) : Prop := alike s v v' \/ alike s v' v.
Lemma both_respects {A} s (P : loc -> A -> Prop) : respects s P ->
  forall v v', both_ways s v v' -> (is_null v <-> is_null v') /\ forall a, P v a <-> P v' a.
Proof.
  intros HR v v' [H|H]; [by apply HR|]. destruct (HR _ _ H) as [Hn HP]. split; [by rewrite Hn|]. intros a. by rewrite HP.
Qed.
Definition fields_alike (fs : list (string * schema)) (l l' : loc) : Prop := forall k s, In (k, s) fs ->
  (forall v, has_key h l k v -> exists v', has_key h l' k v' /\ both_ways s v v') /\
  (forall v', has_key h l' k v' -> exists v, has_key h l k v /\ both_ways s v v').

(** A record meaning respects [alike] if it is made of fields that do. *)
Lemma respects_record {A} fs (P : loc -> A -> Prop) :
  (forall l a, P l a -> record_like h (map fst fs) l) ->
  (forall l l' a, record_like h (map fst fs) l' -> fields_alike fs l l' -> P l a -> P l' a) ->
  respects (XRecord fs) P.
Proof.
  intros HR H1 l l' Ha. apply alike_record in Ha as [->|[[N1 N2]|(R1 & R2 & Hf)]]; [done|split; [tauto|]|split].
  - intros a. split; intros Hp; exfalso; eapply record_not_null; eauto.
  - split; intros N; exfalso; eapply record_not_null; [exact R1|done|exact R2|done].
  - intros a. split; apply H1; try done; intros k s Hi; destruct (Hf k s Hi) as [Hx Hy]; split.
    + intros v Hv. destruct (Hx v Hv) as (v' & ? & ?). exists v'. split; [done|by left].
    + intros v Hv. destruct (Hy v Hv) as (v' & ? & ?). exists v'. split; [done|by left].
    + intros v Hv. destruct (Hy v Hv) as (v' & ? & ?). exists v'. split; [done|by right].
    + intros v Hv. destruct (Hx v Hv) as (v' & ? & ?). exists v'. split; [done|by right].
Qed.
Lemma field_moves {A} fs k s (P : loc -> A -> Prop) zero l l' a : fields_alike fs l l' -> In (k, s) fs -> respects s P ->
  field h P zero l k a -> field h P zero l' k a.
Proof. intros Hf Hi HR. destruct (Hf k s Hi) as [H1 H2]. by apply (field_respects (both_ways s) P zero l l' k (both_respects s P HR) H1 H2). Qed.
Lemma optional_moves {A} fs k s (P : loc -> A -> Prop) l l' a : fields_alike fs l l' -> In (k, s) fs -> respects s P ->
  optional h P l k a -> optional h P l' k a.
Proof. intros Hf Hi HR. eapply field_moves; [done|done|]. by apply respects_opt. Qed.
Lemma value_moves fs k l l' (o : option loc) : fields_alike fs l l' -> In (k, XNode) fs ->
  (forall v, has_key h l k v -> o = Some v) /\ ((forall v, ~ has_key h l k v) -> o = None) ->
  (forall v, has_key h l' k v -> o = Some v) /\ ((forall v, ~ has_key h l' k v) -> o = None).
Proof.
  intros Hf Hi [A B]. destruct (Hf k XNode Hi) as [H1 H2]. split.
  - intros v' Hv'. destruct (H2 v' Hv') as (v & Hv & [[->|[]]|[->|[]]]); by apply A.
  - intros Hno. apply B. intros v Hv. destruct (H1 v Hv) as (v' & Hv' & _). by eapply Hno.
Qed.

Ltac here := simpl; repeat (first [left; reflexivity|right]).
Lemma respects_condition : respects x_condition (means_condition h compile).
Proof.
  apply respects_record; [by intros l a (? & _)|]. intros l l' a Hr Hf (_ & Hq & Hv1 & Hv2). split; [done|]. split.
  - eapply field_moves; [exact Hf|here|apply respects_queries|done].
  - eapply value_moves; [exact Hf|here|done].
Qed.
Lemma respects_docquery : respects x_docquery (means_docquery h compile).
Proof.
  apply respects_record; [by intros l a (? & _)|]. intros l l' a Hr Hf (_ & Hq). split; [done|].
  eapply field_moves; [exact Hf|here|apply respects_pointers, respects_condition|done].
Qed.
Lemma respects_onmissing : respects x_onmissing (means_onmissing h compile).
Proof.
  apply respects_record; [by intros l a (? & _)|]. intros l l' a Hr Hf (_ & Ha & Hi). split; [done|]. split.
  - eapply field_moves; [exact Hf|here|apply respects_missing|done].
  - eapply optional_moves; [exact Hf|here|apply respects_queries|done].
Qed.
Lemma respects_overlay : respects x_overlay (means_overlay h compile to_int).
Proof.
  apply respects_record; [by intros l a (? & _)|]. intros l l' o Hr Hf (_ & (name & a & Hn & Ha & En & Ea) & Hq & Hv1 & Hv2 & Hd & Hm & Hx).
  assert (Hv : (forall v, has_key h l' "value" v -> ro_value o = Some v) /\ ((forall v, ~ has_key h l' "value" v) -> ro_value o = None)).
  { eapply value_moves; [exact Hf|here|done]. }
  split_and!; [done| | |apply Hv|apply Hv|..].
  - exists name, a. split_and!; try done.
    + eapply field_moves; [exact Hf|here|apply respects_text|done].
    + eapply field_moves; [exact Hf|here|apply respects_action|done].
  - eapply optional_moves; [exact Hf|here|apply respects_queries|done].
  - eapply field_moves; [exact Hf|here|apply respects_pointers, respects_docquery|done].
  - eapply field_moves; [exact Hf|here|apply respects_onmissing|done].
  - eapply optional_moves; [exact Hf|here|apply respects_list, respects_int|done].
Qed.
Lemma respects_document : respects x_document (means_document h compile to_int).
Proof.
  apply respects_record; [by intros l a (? & _)|]. intros l l' d Hr Hf (_ & (name & Hn) & Hp & Ho). split_and!; [done|exists name|..].
  - eapply field_moves; [exact Hf|here|apply respects_text|done].
  - eapply field_moves; [exact Hf|here|apply respects_int|done].
  - eapply field_moves; [exact Hf|here|apply respects_pointers, respects_overlay|done].
Qed.
Lemma respects_file : respects x_file (means_file h compile to_int).
Proof.
  apply respects_record; [by intros l a (? & _)|]. intros l l' d Hr Hf (_ & Hn & Ho & Hd & Hp & Hu & He). split_and!; try done.
  - eapply field_moves; [exact Hf|here|apply respects_text|done].
  - eapply field_moves; [exact Hf|here|apply respects_pointers, respects_overlay|done].
  - eapply field_moves; [exact Hf|here|apply respects_pointers, respects_document|done].
  - eapply field_moves; [exact Hf|here|apply respects_text|done].
  - eapply field_moves; [exact Hf|here|apply respects_text|done].
Qed.
Lemma respects_instructions : respects x_instructions (fun l i => record_like h ["commonOverlays"; "yamlFiles"]%string l /\
  field h (pointers_to h (means_overlay h compile to_int)) [] l "commonOverlays" (fst i) /\
  field h (pointers_to h (means_file h compile to_int)) [] l "yamlFiles" (snd i)).
Proof.
  apply respects_record; [by intros l a (? & _)|]. intros l l' d Hr Hf (_ & Ho & Hp). split_and!; try done.
  - eapply field_moves; [exact Hf|here|apply respects_pointers, respects_overlay|done].
  - eapply field_moves; [exact Hf|here|apply respects_pointers, respects_file|done].
Qed.

(** *** Places *)
Lemma pointers_item {A} (P : loc -> A -> Prop) l xs x : pointers_to h P l xs -> item_of h l x -> is_null x \/ exists a, P x a.
Proof.
  intros (ls & Hl & F) (ls' & Hl' & Hx). rewrite (list_fun _ _ _ _ Hl' Hl) in Hx. clear Hl Hl'. induction F as [|y b ls xs Hy F IH]; [done|].
  destruct Hx as [<-|Hx]; [|by apply IH]. destruct Hy as [[? _]|(_ & a & _ & ?)]; [by left|right; by exists a].
Qed.
Lemma field_item {A} fields (P : loc -> A -> Prop) l k xs v x : record_like h fields l ->
  field h (pointers_to h P) [] l k xs -> has_key h l k v -> item_of h v x -> In k fields -> is_null x \/ exists a, P x a.
Proof.
  intros Hr Hf Hv Hx Hk. destruct (field_at _ _ _ _ _ _ _ Hr Hf Hv Hk) as [Hn|[_ Hp]]; [|by eapply pointers_item].
  exfalso. destruct Hx as (ls & Hl & _). by eapply list_not_null.
Qed.
Lemma pair_not_null l i k v : pair_at h l i k v -> ~ is_null l.
Proof. intros (n & [Hn Hk] & _) (n' & [Hn' Hk'] & _). rewrite (node_of_fun _ _ _ _ Hn Hn') in *. congruence. Qed.
Lemma has_key_not_null l k v : has_key h l k v -> ~ is_null l.
Proof. intros (i & kl & Hp & _). by eapply pair_not_null. Qed.
Lemma overlay_at_means root i o : means_instructions h compile to_int root i -> overlay_at h root o -> is_null o \/ exists r, means_overlay h compile to_int o r.
Proof.
  intros Hm Ho. destruct Hm as [[Hn _]|(Hr & Hc & Hf)].
  { destruct Ho as [v o Hv _|v f w o Hv _ _ _|v f w d x o Hv _ _ _ _ _]; by destruct (has_key_not_null _ _ _ Hv). }
  destruct Ho as [v o Hv Ho|v f w o Hv Hfi Hw Ho|v f w d x o Hv Hfi Hw Hd Hx Ho].
  - exact (field_item _ _ _ _ _ _ _ Hr Hc Hv Ho ltac:(here)).
  - destruct (field_item _ _ _ _ _ _ _ Hr Hf Hv Hfi ltac:(here)) as [Hn|(e & Hre & _ & Hos & _)]; [by destruct (has_key_not_null _ _ _ Hw)|].
    exact (field_item _ _ _ _ _ _ _ Hre Hos Hw Ho ltac:(here)).
  - destruct (field_item _ _ _ _ _ _ _ Hr Hf Hv Hfi ltac:(here)) as [Hn|(e & Hre & _ & _ & Hds & _)]; [by destruct (has_key_not_null _ _ _ Hw)|].
    destruct (field_item _ _ _ _ _ _ _ Hre Hds Hw Hd ltac:(here)) as [Hn|(e' & Hre' & _ & _ & Hos)]; [by destruct (has_key_not_null _ _ _ Hx)|].
    exact (field_item _ _ _ _ _ _ _ Hre' Hos Hx Ho ltac:(here)).
Qed.
Lemma queries_texts v qs s : means_queries h compile v qs -> query_text_at h v s -> exists q, In q qs /\ q_text q = s /\ compile s = Some (q_find q).
Proof.
  intros Hm [Ht|(x & (ls' & Hl' & Hx) & Ht)].
  - destruct Hm as [(q & [Hq Hc] & ->)|(ls & Hl & _)].
    + exists q. rewrite (text_fun _ _ _ _ Ht Hq). split_and!; try done. by left.
    + destruct Ht as (i & Hi & _). exfalso. by eapply scalar_not_list.
  - destruct Hm as [(q & [(i & Hi & _) _] & _)|(ls & Hl & HL)]; [exfalso; by eapply scalar_not_list|].
    rewrite (list_fun _ _ _ _ Hl' Hl) in Hx. clear Hl Hl'. induction HL as [|y ls xs Hn HL IH|y ls q xs Hn [Hq Hc] HL IH]; [done|..].
    + destruct Hx as [<-|Hx]; [by destruct (text_not_null _ _ _ Ht)|by apply IH].
    + destruct Hx as [<-|Hx].
      * exists q. rewrite (text_fun _ _ _ _ Ht Hq). split_and!; try done. by left.
      * destruct (IH Hx) as (q' & ? & ?). exists q'. split; [by right|done].
Qed.
Lemma text_at_not_null v s : query_text_at h v s -> ~ is_null v.
Proof. intros [Ht|(x & (ls & Hl & _) & _)]; [by eapply text_not_null|by eapply list_not_null]. Qed.
Lemma query_of_compiles o r s : means_overlay h compile to_int o r -> query_of h o s -> compile s <> None.
Proof.
  intros (Hr & _ & Hq & _ & _ & Hd & Hm & _) [v s' Hv Ht|m v s' Hmk Hv Ht|v d w c x s' Hv Hdi Hw Hc Hx Ht].
  - destruct (field_at _ _ _ _ _ _ _ Hr Hq Hv ltac:(here)) as [Hn|(_ & qs & _ & Hqs)]; [by destruct (text_at_not_null _ _ Ht)|].
    destruct (queries_texts _ _ _ Hqs Ht) as (q & _ & _ & ->). done.
  - destruct (field_at _ _ _ _ _ _ _ Hr Hm Hmk ltac:(here)) as [Hn|(_ & Hr' & _ & Hi)]; [by destruct (has_key_not_null _ _ _ Hv)|].
    destruct (field_at _ _ _ _ _ _ _ Hr' Hi Hv ltac:(here)) as [Hn|(_ & qs & _ & Hqs)]; [by destruct (text_at_not_null _ _ Ht)|].
    destruct (queries_texts _ _ _ Hqs Ht) as (q & _ & _ & ->). done.
  - destruct (field_item _ _ _ _ _ _ _ Hr Hd Hv Hdi ltac:(here)) as [Hn|(cs & Hr' & Hcs)]; [by destruct (has_key_not_null _ _ _ Hw)|].
    destruct (field_item _ _ _ _ _ _ _ Hr' Hcs Hw Hc ltac:(here)) as [Hn|(rc & Hr2 & Hq2 & _)]; [by destruct (has_key_not_null _ _ _ Hx)|].
    destruct (field_at _ _ _ _ _ _ _ Hr2 Hq2 Hx ltac:(here)) as [Hn|(_ & Hqs)]; [by destruct (text_at_not_null _ _ Ht)|].
    destruct (queries_texts _ _ _ Hqs Ht) as (q & _ & _ & ->). done.
Qed.
Lemma action_of_spelled o r v : means_overlay h compile to_int o r -> has_key h o "action" v -> ~ is_null v ->
  exists s w, is_text h v s /\ In w ["merge"; "replace"; "delete"; "combine"]%string /\ spells s w.
Proof.
  intros (Hr & (name & a & _ & Ha & _) & _) Hv Hn. destruct (field_at _ _ _ _ _ _ _ Hr Ha Hv ltac:(here)) as [?|(_ & s & w & Hs & Hw & Hsp)]; [done|].
  exists s, w. split_and!; try done. destruct a; simpl in Hw; try done; injection Hw as <-; here.
Qed.
End proofs.

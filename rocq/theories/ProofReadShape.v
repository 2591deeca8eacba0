(** From what is read to the conditions of the theorems about Execute. *)
From Verif Require ProofEnds Deciders.
From Verif Require Import Prelude GoStrings Format Yaml Heap SpecMerge ProofMerge SpecHeap SpecDelete ActionNames Overlay SpecReach SpecSame SpecOverlay SpecQuery Queue PropsQueue Paths Files SpecFiles Slices Prepare SpecPrepare
  Pipeline SpecPipeline Execute SpecExecute SpecDocs PropsDocs Decode SpecDecode Flags Template HeapComments Whole SpecWhole ProofUncomment ProofWhole PropsWhole.
From Verif Require Import SpecEnds SpecSane SpecRead ProofRead.

Definition fine_node (n : hnode) : Prop :=
  (i_kind (n_info n) = KMapping -> Nat.even (length (nodes_below n)) = true) /\
  (nodes_below n <> [] -> i_kind (n_info n) = KDocument \/ i_kind (n_info n) = KSequence \/ i_kind (n_info n) = KMapping).

Lemma value_exists (ro : loc -> Prop) h d : forall v, bounded d h v -> (forall x, reach h v x -> ro x) -> (forall x n, reach h v x -> h !! x = Some n -> fine_node n) ->
  exists t, value_at d ro h v t /\ well_paired t /\ branching t.
Proof.
  induction d as [|d IH]; intros v B RO FI; [destruct B|]. destruct B as (n & E & B).
  assert (ST : forall x, points_to n x -> exists t, value_at d ro h x t /\ well_paired t /\ branching t).
  { intros x X. assert (RX : forall y, reach h x y -> reach h v y) by (intros y Y; eapply reach_trans'; [|exact Y]; econstructor; [constructor|exact E|exact X]).
    apply IH; [by apply B|auto|]. intros y m Y. apply FI. auto. }
  assert (AL : match n_alias n with None => True | Some a => exists t', value_at d ro h a t' end).
  { destruct (n_alias n) as [a|] eqn:A; [|done]. destruct (ST a ltac:(by left)) as (t & V & _). by exists t. }
  destruct (FI v n ltac:(constructor) E) as [FP FB]. unfold nodes_below in *. destruct (n_content n) as [ls|] eqn:C.
  - assert (TS : exists ts, Forall2 (value_at d ro h) ls ts /\ Forall well_paired ts /\ Forall branching ts).
    { assert (SL : forall x, In x ls -> points_to n x) by (intros x X; right; by exists ls). clear -ST SL. induction ls as [|l ls IHl]; [by exists []|].
      destruct (ST l (SL l ltac:(by left))) as (t & V & W & Bt). destruct IHl as (ts & F & Ws & Bs); [intros; apply SL; by right|].
      exists (t :: ts). split_and!; by constructor. }
    destruct TS as (ts & F & Ws & Bs). exists (T (n_info n) (Some ts)). split.
    + cbn [value_at]. split; [apply RO; constructor|]. exists n. split; [done|]. split; [done|]. split; [done|]. rewrite C. done.
    + pose proof (Forall2_length _ _ _ F) as LE. split; apply everywhere_some; (split; [|done]).
      * intros K. apply Deciders.evenb_sound. unfold Deciders.evenb. cbn [children t_content]. rewrite <- LE. apply FP. exact K.
      * intros NE. apply FB. intros ->. destruct ts; [done|discriminate].
  - exists (T (n_info n) None). split.
    + cbn [value_at]. split; [apply RO; constructor|]. exists n. split; [done|]. split; [done|]. split; [done|]. by rewrite C.
    + split; apply everywhere_none; [intros K; by exists []|by intros K; destruct K].
Qed.

Lemma bounded_shape h h' : same_shape h h' -> forall d l, bounded d h l -> bounded d h' l.
Proof.
  intros S. induction d as [|d IH]; intros l; cbn [bounded]; [done|]. intros (n & E & B). destruct (proj2 S l n E) as (n' & E' & A & C).
  exists n'. split; [done|]. intros x X. apply IH, B. unfold points_to in *. by rewrite A, C in X.
Qed.

Section shapes.
Context (compile : list N -> option (heap -> loc -> list loc)) (h0 : heap) (z : loc) (s : surroundings).
Hypothesis FN : fresh_nodes s h0 z.

Lemma zero_alone x : reach h0 z x -> x = z.
Proof. destruct (fn_zero _ _ _ FN) as (n & E & N). induction 1 as [|y m w R IH E' P']; [done|]. subst. rewrite E in E'. injection E' as <-. by destruct (N w). Qed.
Lemma in_text_range v : in_text h0 s v -> v < length h0.
Proof.
  intros (t & d & n & c & _ & E & X & R). assert (C : c < length h0) by (by eapply (fn_closed _ _ _ FN)).
  induction R as [|y m w R IH E' P']; [done|]. by eapply (fn_closed _ _ _ FN).
Qed.
Lemma in_text_apart v p ds d x : in_text h0 s v -> documents s p = Some ds -> In d ds -> reach h0 d x -> reach h0 v x -> False.
Proof.
  intros (t & l & n & c & Pa & E & X & R) D I RD RV. eapply (fn_texts_apart _ _ _ FN p ds d t l x); try done.
  eapply reach_trans'; [|exact RV]. eapply reach_trans'; [|exact R]. econstructor; [constructor|exact E|exact X].
Qed.

Lemma compiled_good : finds_reachable compile -> forall q, compiled compile q -> good_finder q.
Proof. intros G [t f] C. by apply G. Qed.
Lemma compiled_inside : finds_in_document compile -> forall q, compiled compile q -> finds_inside q.
Proof. intros G [t f] C. by apply G. Qed.

Lemma set_up_from os R : finds_reachable compile -> Forall (written compile h0 z s) os -> NoDup (map e_path R) ->
  (forall en, In en R -> documents s (e_path en) = Some (e_nodes en)) ->
  (forall en k, In en R -> In k (e_overlays en) \/ (exists d, In d (e_documents en) /\ In k (d_overlays d)) -> k < length os) ->
  set_up (map to_file R) os h0 /\ Forall (docs_apart h0) (map to_file R).
Proof.
  intros G W ND D K. rewrite Forall_forall in W.
  assert (FI : forall f, In f (map to_file R) -> exists en, In en R /\ f = to_file en) by (intros f (en & <- & I)%in_map_iff; by exists en).
  split; [|].
  - constructor.
    + apply (fn_closed _ _ _ FN).
    + intros f d (en & I & ->)%FI N. by eapply (fn_docs _ _ _ FN); [apply D|].
    + intros o x O X. destruct (wr_values _ _ _ _ _ (W o ltac:(by apply elem_of_list_In)) x X) as [->|T]; [|by apply in_text_range].
      destruct (fn_zero _ _ _ FN) as (n & E & _). by eapply lookup_lt_Some.
    + apply Forall_forall. intros o O. destruct (W o O) as [Q1 Q2 Q3 _]. constructor.
      * eapply Forall_impl; [exact Q1|]. by apply compiled_good.
      * intros ip E. eapply Forall_impl; [by apply Q2|]. by apply compiled_good.
      * intros g c Gi C. eapply Forall_impl; [by eapply Q3|]. intros q X. by apply compiled_good in X as [_ X].
    + intros f k (en & I & ->)%FI N. by eapply K.
    + intros i j f g d e x Fi Fj NE N1 N2 R1 R2. rewrite list_lookup_fmap in Fi, Fj. destruct (R !! i) as [a|] eqn:A; [|done]. destruct (R !! j) as [b|] eqn:B; [|done].
      injection Fi as <-. injection Fj as <-. eapply (fn_inputs_apart _ _ _ FN (e_path a) (e_path b)); [apply D| apply D| |exact N1|exact N2|exact R1|exact R2].
      * apply elem_of_list_In. by eapply elem_of_list_lookup_2.
      * apply elem_of_list_In. by eapply elem_of_list_lookup_2.
      * intros E. apply NE. rewrite NoDup_alt in ND. apply (ND i j (e_path a)); rewrite list_lookup_fmap; [by rewrite A|rewrite B; cbn; by rewrite E].
    + intros f d o v x (en & I & ->)%FI N O V R1 R2. destruct (wr_values _ _ _ _ _ (W o ltac:(by apply elem_of_list_In)) v V) as [->|T].
      * apply zero_alone in R2 as ->. by eapply (fn_zero_apart _ _ _ FN); [apply D| |].
      * by eapply in_text_apart; [|apply D| | |].
  - apply Forall_forall. intros f F1. apply elem_of_list_In, FI in F1 as (en & I & ->). intros i j d e x Di Ej NE. by eapply (fn_docs_apart _ _ _ FN); [apply D| | |].
Qed.

(** Trees, before comments are removed and after. *)
Hypothesis WF : well_formed s h0 z.
Lemma in_text_readable v : in_text h0 s v -> (exists d, bounded d h0 v) /\ (forall x n, reach h0 v x -> h0 !! x = Some n -> fine_node n) /\
  (forall x n, reach h0 v x -> h0 !! x = Some n -> i_kind (n_info n) <> KDocument).
Proof.
  intros (t & l & n & c & Pa & E & X & R). destruct (wf_texts _ _ _ WF t l Pa) as [[d B] P1 P2 P3].
  assert (RV : reach h0 l v) by (eapply reach_trans'; [|exact R]; econstructor; [constructor|exact E|exact X]).
  split; [exists d; by eapply ProofEnds.bounded_reach|]. split.
  - intros x m RX M. assert (RL : reach h0 l x) by (by eapply reach_trans'). split; [by eapply P1|by eapply P2].
  - intros x m RX M. eapply P3; [by eapply reach_trans'| |exact M]. intros ->. eapply (ProofEnds.cyclic_unbounded h0 l); [|exact B].
    exists l, c, n. split; [constructor|]. split; [done|]. split; [done|]. by eapply reach_trans'.
Qed.
Lemma zero_readable : bounded 1 h0 z /\ forall x n, reach h0 z x -> h0 !! x = Some n -> fine_node n /\ i_kind (n_info n) <> KDocument.
Proof.
  destruct (fn_zero _ _ _ FN) as (n & E & N). split; [exists n; split; [done|]; intros x X; by destruct (N x)|].
  intros x m ->%zero_alone M. destruct (wf_zero _ _ _ WF m M) as (C & A & K1 & K2). split; [|done]. split; [done|]. unfold nodes_below. rewrite C. done.
Qed.
Lemma root_readable o v : written compile h0 z s o -> overlay_root o v -> (exists d, bounded d h0 v) /\ (forall x n, reach h0 v x -> h0 !! x = Some n -> fine_node n) /\
  (forall x n, reach h0 v x -> h0 !! x = Some n -> i_kind (n_info n) <> KDocument).
Proof.
  intros W V. destruct (wr_values _ _ _ _ _ W v V) as [->|T]; [|by apply in_text_readable]. destruct zero_readable as [B H]. split; [eauto|]. split; intros x n X N; by eapply H.
Qed.

Lemma tidy_from os R h1 (unc : bool) : finds_in_document compile -> Forall (written compile h0 z s) os ->
  (forall en, In en R -> documents s (e_path en) = Some (e_nodes en)) -> set_up (map to_file R) os h0 -> Forall (docs_apart h0) (map to_file R) ->
  wiped (fun x => unc = true /\ exists f d, In f (map to_file R) /\ In d (yf_nodes f) /\ below h0 d x) h0 h1 ->
  tidy (map to_file R) os h1 /\ Forall (sane_file h1) (map to_file R) /\
  Forall (fun o => forall x n, reach h1 (o_value o) x -> h1 !! x = Some n -> i_kind (n_info n) <> KDocument) os.
Proof.
  intros G W D SU DA WP. rewrite Forall_forall in W. pose proof (wiped_shape _ _ _ WP) as SH. set (P' := fun x => _) in WP.
  assert (NP : forall o v x, In o os -> overlay_root o v -> reach h0 v x -> ~ P' x).
  { intros o v x O V X (_ & f & d & F1 & D1 & B). eapply (su_values_apart _ _ _ SU f d o v x); try done. by apply below_reach. }
  split; [split|split].
  - apply Forall_forall. intros f F1. apply elem_of_list_lookup in F1 as [k F1]. pose proof F1 as F2. rewrite list_lookup_fmap in F2. destruct (R !! k) as [en|] eqn:EN; [|done]. injection F2 as <-.
    assert (I : In en R) by (apply elem_of_list_In; by eapply elem_of_list_lookup_2). destruct (wf_docs _ _ _ WF _ _ (D en I)) as (docs & L & O & FA).
    destruct unc.
    + exists (map l_uncomment docs). split; [|split].
      * cbn [to_file yf_nodes]. rewrite <- L, map_map. apply map_ext. intros. apply uncomment_label.
      * apply (own_uncomment P' h0 h1 docs WP O).
        -- apply Forall_forall. intros doc DO (_ & f' & d' & F' & D' & B'). apply elem_of_list_lookup in DO as [j DO].
           assert (Lj : e_nodes en !! j = Some (label doc)) by (by rewrite <- L, list_lookup_fmap, DO).
           apply elem_of_list_In, elem_of_list_lookup in F' as [k' F']. apply elem_of_list_In, elem_of_list_lookup in D' as [j' D'].
           destruct (decide (k' = k)) as [->|NK].
           ++ rewrite F1 in F'. injection F' as <-. destruct (decide (j' = j)) as [->|NJ].
              ** cbn [to_file yf_nodes] in D'. rewrite Lj in D'. injection D' as <-. destruct O as [OR ND]. rewrite Forall_forall in OR.
                 pose proof (OR doc (elem_of_list_lookup_2 _ _ _ DO)) as R1. apply (below_locs _ _ _ R1) in B'.
                 apply elem_of_list_split_length in DO as (l1 & l2 & -> & _). unfold flat in ND. rewrite map_app, concat_app in ND. cbn [map concat] in ND.
                 apply NoDup_app in ND as (_ & _ & ND). apply NoDup_app in ND as (ND & _ & _). destruct doc as [l i c]. rewrite ProofHeap.locs_eq in ND. cbn [l_content label] in *.
                 by apply NoDup_cons in ND as [? _].
              ** apply below_reach in B'. rewrite Forall_forall in DA. eapply (DA (to_file en) (elem_of_list_lookup_2 _ _ _ F1) j' j); try done. constructor.
           ++ apply below_reach in B'. eapply (su_apart _ _ _ SU k' k f' (to_file en) d' (label doc)); try done; [| |constructor]; apply elem_of_list_In; by eapply elem_of_list_lookup_2.
        -- intros doc x DO B. split; [done|]. exists (to_file en), (label doc). split; [by apply in_map|]. split; [|done]. cbn [to_file yf_nodes]. rewrite <- L. by apply in_map.
      * apply Forall_map. eapply Forall_impl; [exact FA|]. intros doc (A & B & _). cbn. rewrite uncomment_erase. split; [by apply uncomment_paired|by apply uncomment_branching].
    + exists docs. split; [done|]. split; [|eapply Forall_impl; [exact FA|]; by intros doc (A & B & _)].
      destruct O as [OR ND]. split; [|done]. assert (EQ : forall l n, h0 !! l = Some n -> h1 !! l = Some n).
      { intros l n E. destruct WP as [_ WP]. destruct (WP l n E) as [[?|[[? _] _]] _]; done. }
      eapply Forall_impl; [exact OR|]. clear -EQ. induction x as [l i|l i ts IH] using ProofHeap.ltree_ind'; rewrite !ProofHeap.reads_eq; intros [[al A] B]; (split; [exists al; by apply EQ|]); [constructor|].
      cbn [kids] in *. rewrite Forall_forall in *. intros t T. apply IH; [done|by apply B].
  - apply Forall_forall. intros o O. pose proof (W o O) as WR. apply elem_of_list_In in O. constructor.
    + eapply Forall_impl; [apply (wr_queries _ _ _ _ _ WR)|]. by apply compiled_inside.
    + intros ip E. eapply Forall_impl; [by apply (wr_inject _ _ _ _ _ WR)|]. by apply compiled_inside.
    + destruct (root_readable o (o_value o) WR ltac:(by left)) as ([d B] & FI & _).
      destruct (value_exists (reach h1 (o_value o)) h0 d _ B ltac:(intros x X; by eapply reach_shape) FI) as (t & V & WB). exists d, t. split; [|done].
      eapply value_wiped; [exact WP| |exact V]. intros x. apply (NP o); [done|by left].
    + intros g c Gi C. destruct (root_readable o (c_value c) WR ltac:(right; eauto)) as ([d B] & _). exists d. by eapply bounded_shape.
  - apply Forall_forall. intros f F1. apply elem_of_list_In, in_map_iff in F1 as (en & <- & I). destruct (wf_docs _ _ _ WF _ _ (D en I)) as (docs & L & [OR _] & FA).
    intros d DI. cbn [to_file yf_nodes] in DI. rewrite <- L in DI. apply in_map_iff in DI as (doc & <- & DO). apply elem_of_list_In in DO. rewrite Forall_forall in OR, FA.
    pose proof (OR doc DO) as R1. destruct (FA doc DO) as (_ & _ & K & C). destruct doc as [l i c]. rewrite ProofHeap.reads_eq in R1. destruct R1 as [[al E] _]. cbn [label l_info l_content] in *.
    destruct WP as [_ WP]. assert (NC : (match c with Some ts => Some (map label ts) | None => None end) <> Some []) by (destruct c as [[|]|]; done).
    destruct (WP l _ E) as [[X|[_ X]] _]; eexists; (split; [exact X|]); split; done.
  - apply Forall_forall. intros o O x n X N. pose proof (W o O) as WR. apply elem_of_list_In in O. destruct (root_readable o (o_value o) WR ltac:(by left)) as (_ & _ & KD).
    assert (X0 : reach h0 (o_value o) x) by (eapply reach_shape; [by apply shape_sym|exact X]). destruct (shape_back _ _ _ _ SH N) as (n0 & N0 & _).
    destruct (proj2 WP x n0 N0) as [[Y|[Pw _]] _]; [|destruct (NP o (o_value o) x O ltac:(by left) X0 Pw)]. rewrite N in Y. injection Y as <-. by eapply KD.
Qed.
End shapes.

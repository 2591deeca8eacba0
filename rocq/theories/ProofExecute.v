From Verif Require Import Prelude GoStrings Format Yaml Heap Overlay SpecReach SpecSame ProofSame ProofGrows ProofLocal Queue Paths Render
  Pipeline SpecPipeline Execute SpecExecute.

Section view.
Context (fuel : nat) (sed : sed_engine) (dflt : list N) (files : list yfile) (os : list overlay) (h0 : heap).
Hypothesis setup : set_up files os h0.

Local Notation Run := (run_work fuel sed dflt).
Local Notation works := (map (file_work os) files).

(** [d] is a document of file [i]. *)
Definition doc_of (i : nat) (d : loc) : Prop := exists f, files !! i = Some f /\ In d (yf_nodes f).

Definition separate (h : heap) : Prop :=
  closed h /\ (forall i d, doc_of i d -> d < length h) /\
  forall i j d e x, doc_of i d -> doc_of j e -> i <> j -> reach h d x -> reach h e x -> False.

(** The overlay table during a run. *)
Definition table_ok (t : list overlay) : Prop :=
  length t = length os /\ forall k o o', t !! k = Some o -> os !! k = Some o' -> resolve_missing dflt o = resolve_missing dflt o'.

Definition view (i : nat) (m q : list hnode * list overlay) : Prop :=
  separate (fst m) /\ table_ok (snd m) /\ table_ok (snd q) /\
  exists R : nat -> nat -> Prop, same R (fst m) (fst q) /\ (forall d, doc_of i d -> R d d) /\ (forall k o, os !! k = Some o -> overlay_ok R o) /\
    forall a b, R a b -> forall j d, j <> i -> doc_of j d -> ~ reach (fst m) d a.

Lemma doc_in i d : doc_of i d -> exists f, In f files /\ In d (yf_nodes f).
Proof. intros (f & F & D). exists f. split; [|done]. apply elem_of_list_In. by eapply elem_of_list_lookup_2. Qed.

Lemma start_separate : separate h0.
Proof.
  split; [apply setup|]. split.
  - intros i d D. apply doc_in in D as (f & F & D). by eapply (su_docs _ _ _ setup).
  - intros i j d e x (f & F & D) (g & G & E) NE RD RE. by eapply (su_apart _ _ _ setup i j).
Qed.
Lemma reach_valid h d x : closed h -> d < length h -> reach h d x -> x < length h.
Proof. intros C D. induction 1 as [|y n z _ IH E P]; [done|]. by eapply C. Qed.

Lemma start_view i : view i (h0, os) (h0, os).
Proof.
  split; [apply start_separate|]. cbn [fst snd].
  assert (T : table_ok os) by (split; [done|]; intros; congruence).
  split; [done|]. split; [done|].
  set (root := fun r => doc_of i r \/ exists o, In o os /\ overlay_root o r).
  exists (fun a b => a = b /\ exists r, root r /\ reach h0 r a).
  assert (V : forall r, root r -> r < length h0).
  { intros r [D|(o & O & X)]; [by eapply start_separate|by eapply (su_values _ _ _ setup)]. }
  split; [|split; [|split]].
  - constructor.
    + intros a b b' [-> _] [<- _]. done.
    + intros a a' b [-> _] [-> _]. done.
    + intros a b [<- (r & RR & RA)]. assert (X : a < length h0) by (eapply reach_valid; eauto; apply setup).
      apply lookup_lt_is_Some in X as [n E]. exists n, n. split; [done|]. split; [done|]. split; [done|].
      assert (K : forall x, points_to n x -> exists r, root r /\ reach h0 r x).
      { intros x P. exists r. split; [done|]. by eapply reach_step. }
      split.
      * destruct (n_alias n) as [x|] eqn:EA; [|done]. cbn. split; [done|]. apply K. by left.
      * destruct (n_content n) as [ls|] eqn:EC; [|done]. cbn. apply Forall_Forall2_diag, Forall_forall. intros x X. split; [done|].
        apply K. right. exists ls. split; [done|]. by apply elem_of_list_In.
  - intros d D. split; [done|]. exists d. split; [by left|constructor].
  - intros k o O. assert (IO : In o os) by (apply elem_of_list_In; by eapply elem_of_list_lookup_2).
    pose proof (su_queries _ _ _ setup) as SQ. rewrite Forall_forall in SQ. destruct (SQ o (proj2 (elem_of_list_In _ _) IO)) as [Q1 Q2 Q3].
    constructor.
    + eapply Forall_impl; [exact Q1|]. by intros q [_ ?].
    + intros ip IP. eapply Forall_impl; [by apply Q2|]. by intros q [_ ?].
    + apply Forall_forall. intros g G. apply Forall_forall. intros c C. apply elem_of_list_In in G, C. split; [by eapply Q3|].
      split; [done|]. exists (c_value c). split; [|constructor]. right. exists o. split; [done|]. right. by exists g, c.
    + split; [done|]. exists (o_value o). split; [|constructor]. right. exists o. split; [done|by left].
  - intros a b [<- (r & [D|(o & O & X)] & RA)] j d NE DJ RD.
    + destruct start_separate as (_ & _ & S). by eapply (S j i d r a).
    + apply doc_in in DJ as (f & F & DJ). by eapply (su_values_apart _ _ _ setup f d o r a).
Qed.

(** What a workload of file [j] is. *)
Lemma work_in (j : nat) ws w : works !! j = Some ws -> In w ws -> doc_of j (w_node w) /\ w_overlay w < length os.
Proof.
  intros W I. rewrite list_lookup_fmap in W. destruct (files !! j) as [f|] eqn:F; [|discriminate]. injection W as <-.
  assert (FI : In f files) by (apply elem_of_list_In; by eapply elem_of_list_lookup_2).
  enough (X : In (w_node w) (yf_nodes f) /\ (In (w_overlay w) (yf_overlays f) \/ exists e, In e (yf_documents f) /\ In (w_overlay w) (d_overlays e))).
  { destruct X as [X Y]. split; [by exists f|]. by eapply (su_overlays _ _ _ setup). }
  unfold file_work, queue in I. revert I. generalize 0%Z. induction (yf_nodes f) as [|n ns IH]; intros z I; [destruct I|].
  cbn [queue_from] in I. apply in_app_or in I as [I|I]; [|apply in_app_or in I as [I|I]].
  - assert (X : w_node w = n /\ In (w_overlay w) (yf_overlays f)).
    { clear IH. revert I. induction (yf_overlays f) as [|o l IHl]; cbn [queue_overlays_of]; [done|].
      destruct (check_document_index _ _ _); [intros [<-|I]|intros I]; [split; [done|by left]|..]; destruct (IHl I); split; auto; by right. }
    destruct X as [-> X]. split; [by left|by left].
  - assert (X : w_node w = n /\ exists e, In e (yf_documents f) /\ In (w_overlay w) (d_overlays e)).
    { clear IH. revert I. induction (yf_documents f) as [|e l IHl]; cbn [queue_documents]; [done|].
      assert (Y : In w (queue_documents l n z) -> w_node w = n /\ exists e0, In e0 (e :: l) /\ In (w_overlay w) (d_overlays e0)).
      { intros I. destruct (IHl I) as (A & e0 & B & C). split; [done|]. exists e0. split; [by right|done]. }
      destruct (Z.eqb _ _); [|exact Y]. intros I. apply in_app_or in I as [I|I]; [|by apply Y].
      enough (Z : w_node w = n /\ In (w_overlay w) (d_overlays e)) by (destruct Z; split; [done|]; exists e; split; [by left|done]).
      clear Y IHl. revert I. induction (d_overlays e) as [|o k IHk]; cbn [queue_all_of]; [done|].
      intros [<-|I]; [split; [done|by left]|]. destruct (IHk I). split; [done|by right]. }
    destruct X as [Y X]. rewrite Y. split; [by left|by right].
  - destruct (IH _ I). split; [by right|done].
Qed.

Lemma apply_overlay o d h : let o' := snd (fst (apply fuel sed dflt o d h)) in o' = o \/ o' = resolve_missing dflt o.
Proof.
  unfold apply. destruct (h_check_queries _ _ _ _) as [h1 [[]|e| |]]; auto.
  destruct (h_find _ _ h1) as [h2 [[|x xs]|e| |]]; auto.
  - destruct (h_on_missing _ _ _ _ _); auto.
  - destruct (h_do_action _ _ _ _ _ _ _); auto.
Qed.
Lemma resolve_idem o : resolve_missing dflt (resolve_missing dflt o) = resolve_missing dflt o.
Proof.
  destruct o as [q v a dq [] ij ix]; unfold resolve_missing; cbn [o_missing]; try done.
  destruct (equal_fold dflt (lit "inject")) eqn:F; cbn [o_missing]; done.
Qed.

Lemma table_insert t k o o' : table_ok t -> t !! k = Some o -> o' = o \/ o' = resolve_missing dflt o -> table_ok (<[k:=o']> t).
Proof.
  intros [L T] K E. split; [by rewrite insert_length|]. intros k2 p p' P P'. destruct (decide (k = k2)) as [<-|NE].
  - rewrite list_lookup_insert in P by (by eapply lookup_lt_Some). injection P as <-. rewrite <- (T k o p' K P').
    destruct E as [->| ->]; [done|apply resolve_idem].
  - rewrite list_lookup_insert_ne in P by done. eauto.
Qed.

(** Everything about one application in the shared heap. *)
Lemma run_shape j ws w m m' r : works !! j = Some ws -> In w ws -> table_ok (snd m) -> Run w m = (m', r) ->
  exists o oo, snd m !! w_overlay w = Some o /\ os !! w_overlay w = Some oo /\ resolve_missing dflt o = resolve_missing dflt oo /\
    apply_m fuel sed dflt o (w_node w) (fst m) = (fst m', r) /\
    (exists o', apply fuel sed dflt o (w_node w) (fst m) = (fst m', o', r)) /\ table_ok (snd m') /\
    Forall finder_ok (o_queries o) /\ (forall ip, o_inject o = Some ip -> Forall finder_ok ip).
Proof.
  intros W I [TL T] E. destruct (work_in j ws w W I) as [D K]. pose proof K as K'. rewrite <- TL in K'.
  apply lookup_lt_is_Some in K as [oo OO]. apply lookup_lt_is_Some in K' as [o O].
  unfold run_work in E. rewrite O in E. pose proof (apply_overlay o (w_node w) (fst m)) as AO.
  unfold apply_m. destruct (apply fuel sed dflt o (w_node w) (fst m)) as [[h' o'] r'] eqn:EA. injection E as <- <-.
  exists o, oo. cbn [fst snd] in *. split; [done|]. split; [done|]. split; [eauto|]. rewrite EA. split; [done|]. split; [by exists o'|].
  split; [apply (table_insert (snd m) _ o); [by split|done|exact AO]|].
  assert (RE : resolve_missing dflt o = resolve_missing dflt oo) by eauto.
  destruct (resolve_fields dflt o) as (Q1 & _ & _ & _ & J1 & _). destruct (resolve_fields dflt oo) as (Q2 & _ & _ & _ & J2 & _).
  pose proof (su_queries _ _ _ setup) as SQ. rewrite Forall_forall in SQ.
  destruct (SQ oo (elem_of_list_lookup_2 _ _ _ OO)) as [G1 G2 _].
  rewrite <- Q1, RE, Q2. split; [eapply Forall_impl; [exact G1|]; by intros q [? _]|].
  intros ip IP. rewrite <- J1, RE, J2 in IP. eapply Forall_impl; [by apply G2|]. by intros q [? _].
Qed.

(** Editing one document leaves what another document reaches as it was. *)
Lemma reach_kept h h' e x : closed h -> e < length h -> (forall y, reach h e y -> h' !! y = h !! y) ->
  reach h' e x -> reach h e x.
Proof.
  intros C L U. induction 1 as [|y n z _ IH E P]; [constructor|]. rewrite U in E by done. by eapply reach_step.
Qed.

Lemma run_separate j ws w m m' r : works !! j = Some ws -> In w ws -> table_ok (snd m) -> separate (fst m) -> Run w m = (m', r) ->
  separate (fst m') /\ length (fst m) <= length (fst m') /\
  (forall x, x < length (fst m) -> (forall d, doc_of j d -> ~ reach (fst m) d x) ->
     fst m' !! x = fst m !! x /\ forall d, doc_of j d -> ~ reach (fst m') d x) /\
  (forall i d x, i <> j -> doc_of i d -> reach (fst m') d x -> reach (fst m) d x).
Proof.
  intros W I T (C & D & S) E. destruct (run_shape j ws w m m' r W I T E) as (o & oo & _ & _ & _ & _ & (o' & EA) & _ & FQ & FI).
  destruct (work_in j ws w W I) as [(f & F & DW) _].
  assert (H : history dflt (yf_nodes f) (fst m) (fst m')).
  { eapply hist_apply; [exact DW|exact FQ|exact FI|exact EA|constructor]. }
  destruct (history_local _ _ _ _ H) as [L U].
  assert (DF : forall d, In d (yf_nodes f) -> doc_of j d) by (intros d X; by exists f).
  assert (FD : forall d, doc_of j d -> In d (yf_nodes f)) by (intros d (f' & F' & X); congruence).
  pose proof (history_closed _ _ _ _ H (fun d X => D j d (DF d X)) C) as C'.
  assert (U' : forall x, x < length (fst m) -> (forall d, doc_of j d -> ~ reach (fst m) d x) ->
     fst m' !! x = fst m !! x /\ forall d, doc_of j d -> ~ reach (fst m') d x).
  { intros x X N. destruct (U x X (fun d ID => N d (DF d ID))) as [U1 U2]. split; [done|]. auto. }
  assert (K : forall i d x, i <> j -> doc_of i d -> reach (fst m') d x -> reach (fst m) d x).
  { intros i d x NE DI. apply reach_kept; [done|by eapply D|]. intros y RY. apply U'; [eapply reach_valid; eauto|].
    intros e DE RE. by eapply (S i j d e y). }
  split; [|done]. split; [done|]. split.
  - intros i d DI. specialize (D i d DI). lia.
  - assert (X : forall i d e x, i <> j -> doc_of i d -> doc_of j e -> reach (fst m') d x -> reach (fst m') e x -> False).
    { intros i d e x NE DI DE RD RE. pose proof (K i d x NE DI RD) as RD'.
      destruct (U' x) as [_ U2]; [exact (reach_valid _ d x C (D i d DI) RD')| |exact (U2 e DE RE)].
      intros e' DE' RE'. by eapply (S i j d e' x). }
    intros i k d e x DI DK NE RD RE. destruct (decide (i = j)) as [->|NI].
    + by eapply (X k e d x).
    + destruct (decide (k = j)) as [->|NK]; [by eapply (X i d e x)|].
      eapply (S i k d e x); eauto.
Qed.

Lemma view_own i ws w m q m' r : works !! i = Some ws -> In w ws -> view i m q -> Run w m = (m', r) ->
  exists q', Run w q = (q', r) /\ view i m' q'.
Proof.
  intros W I (S & TM & TQ & R & SA & DD & OK & N) E.
  destruct (run_separate i ws w m m' r W I TM S E) as (S' & L & U & K).
  destruct (run_shape i ws w m m' r W I TM E) as (o & oo & LO & LOO & RO & EA & _ & TM' & _).
  destruct (Run w q) as [q' rq] eqn:EQ.
  destruct (run_shape i ws w q q' rq W I TQ EQ) as (p & pp & LP & LPP & RP & EB & _ & TQ' & _).
  assert (pp = oo) as -> by congruence.
  destruct (work_in i ws w W I) as [DW _].
  assert (OKo : overlay_ok R o).
  { destruct (OK _ _ LOO) as [A1 A2 A3 A4].
    destruct (resolve_fields dflt o) as (Q1 & V1 & _ & D1 & J1 & _). destruct (resolve_fields dflt oo) as (Q2 & V2 & _ & D2 & J2 & _).
    rewrite RO in Q1, V1, D1, J1. constructor; congruence || (intros; eapply A2; congruence). }
  destruct (sim_apply fuel sed dflt R o p (w_node w) (w_node w) ltac:(congruence) OKo (DD _ DW) _ _ SA) as (R' & IR & FR & _ & _ & SA' & RR).
  rewrite EA, EB in SA', RR. cbn [fst snd] in SA', RR.
  assert (r = rq) as <-.
  { destruct r as [[]| | |], rq as [[]| | |]; cbn in RR; try done. by subst. }
  exists q'. split; [done|]. split; [done|]. split; [done|]. split; [done|]. exists R'. split; [done|].
  split; [auto|]. split.
  - intros k o2 O2. eapply overlay_ok_mono; eauto.
  - intros a b AB j d NE DJ RJ. apply (K j d a NE DJ) in RJ. destruct (FR a b AB) as [AB'|[GE _]]; [by eapply N|].
    destruct S as (C & D & _). apply reach_valid in RJ; [lia|done|by eapply D].
Qed.

Lemma view_other i j ws w m q m' r : i <> j -> works !! j = Some ws -> In w ws -> view i m q -> Run w m = (m', r) -> view i m' q.
Proof.
  intros NE W I (S & TM & TQ & R & SA & DD & OK & N) E.
  destruct (run_separate j ws w m m' r W I TM S E) as (S' & L & U & K).
  destruct (run_shape j ws w m m' r W I TM E) as (o & oo & LO & LOO & RO & EA & _ & TM' & _).
  split; [done|]. split; [done|]. split; [done|]. exists R.
  assert (UR : forall a b, R a b -> fst m' !! a = fst m !! a /\ forall d, doc_of j d -> ~ reach (fst m') d a).
  { intros a b AB. apply U.
    - destruct (same_node _ _ _ SA a b AB) as (n1 & _ & E1 & _). by eapply lookup_lt_Some.
    - intros d DJ. by eapply N. }
  split; [|split; [done|]; split; [done|]].
  - destruct SA as [A1 A2 A3]. constructor; [done|done|]. intros a b AB. destruct (UR a b AB) as [-> _]. auto.
  - intros a b AB k d NK DK. destruct (decide (k = j)) as [->|NKJ]; [by eapply UR|]. intros RK.
    eapply N; eauto.
Qed.

(** Corresponding nodes are written out alike. *)
Lemma snapshot_same R h1 h2 : same R h1 h2 -> forall f a b, R a b -> snapshot f h1 a = snapshot f h2 b.
Proof.
  intros S. induction f as [|f IH]; intros a b AB; [done|]. cbn [snapshot].
  destruct (same_node _ _ _ S a b AB) as (n1 & n2 & -> & -> & (-> & _ & C)).
  destruct (n_content n1) as [l1|], (n_content n2) as [l2|]; cbn in C; try done.
  assert (E : (fix go (ls : list loc) : res (list tree) :=
      match ls with [] => Ok [] | x :: r => let! t := snapshot f h1 x in let! ts := go r in Ok (t :: ts) end) l1 =
    (fix go (ls : list loc) : res (list tree) :=
      match ls with [] => Ok [] | x :: r => let! t := snapshot f h2 x in let! ts := go r in Ok (t :: ts) end) l2).
  { induction C as [|x y l1 l2 XY C IHC]; [done|]. rewrite (IH _ _ XY), IHC. done. }
  by rewrite E.
Qed.
Lemma view_snapshots i f F m q : view i m q -> files !! i = Some f -> snapshots F (fst m) (yf_nodes f) = snapshots F (fst q) (yf_nodes f).
Proof.
  intros (_ & _ & _ & R & SA & DD & _) FI.
  assert (D : forall d, In d (yf_nodes f) -> R d d) by (intros d ID; apply DD; by exists f).
  induction (yf_nodes f) as [|x l IH]; [done|]. cbn [snapshots].
  rewrite (snapshot_same _ _ _ SA F x x) by (apply D; by left). rewrite IH; [done|]. intros d ID. apply D. by right.
Qed.
End view.

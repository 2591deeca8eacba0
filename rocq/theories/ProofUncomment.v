From Verif Require Import Prelude Yaml Heap HeapComments SpecHeap SpecReach SpecMerge SpecDelete Render SpecRender ProofMerge ProofRender ProofHeap Overlay SpecQuery SpecSame Queue Execute SpecExecute SpecDocs SpecMeaning.

(** [x] is below [d]: a child of it, or below one of its children. *)
Inductive below (h : heap) (d x : loc) : Prop :=
  | below_child n ls : h !! d = Some n -> n_content n = Some ls -> In x ls -> below h d x
  | below_step n ls c : h !! d = Some n -> n_content n = Some ls -> In c ls -> below h c x -> below h d x.

(** Exactly the nodes in [P] lost their comments. *)
Definition wiped (P : loc -> Prop) (h h' : heap) : Prop :=
  length h' = length h /\ forall l n, h !! l = Some n ->
    (h' !! l = Some n \/ (P l /\ h' !! l = Some (clear_node n))) /\ (P l -> h' !! l = Some (clear_node n)).

Lemma clear_twice n : clear_node (clear_node n) = clear_node n.
Proof. done. Qed.
Lemma wiped_refl h : wiped (fun _ => False) h h.
Proof. split; [done|]. intros l n H. split; [by left|done]. Qed.
Lemma wiped_trans P Q h h1 h2 : wiped P h h1 -> wiped Q h1 h2 -> wiped (fun x => P x \/ Q x) h h2.
Proof.
  intros [L1 W1] [L2 W2]. split; [congruence|]. intros l n H. destruct (W1 l n H) as [A1 B1].
  destruct A1 as [A1|[PL A1]]; destruct (W2 l _ A1) as [A2 B2].
  - split.
    + destruct A2 as [A2|[QL A2]]; [by left|]. right. split; [by right|done].
    + intros [PL|QL]; [|by apply B2]. specialize (B1 PL). rewrite A1 in B1. injection B1 as B1. destruct A2 as [A2|[_ A2]]; rewrite A2; congruence.
  - split.
    + right. split; [by left|]. destruct A2 as [A2|[_ A2]]; rewrite A2; [done|by rewrite clear_twice].
    + intros _. destruct A2 as [A2|[_ A2]]; rewrite A2; [done|by rewrite clear_twice].
Qed.
Lemma wiped_iff P Q h h' : wiped P h h' -> (forall x, P x <-> Q x) -> wiped Q h h'.
Proof.
  intros [L W] X. split; [done|]. intros l n H. destruct (W l n H) as [A B]. split.
  - destruct A as [A|[PL A]]; [by left|right; split; [by apply X|done]].
  - intros QL. apply B. by apply X.
Qed.
Lemma wiped_put l n h : h !! l = Some n -> wiped (fun x => x = l) h (<[l := clear_node n]> h).
Proof.
  intros H. split; [apply insert_length|]. intros l' n' H'. destruct (decide (l' = l)) as [->|NE].
  - assert (n' = n) as -> by congruence. assert (<[l:=clear_node n]> h !! l = Some (clear_node n)) by (apply list_lookup_insert; by eapply lookup_lt_Some).
    split; [right; by split|done].
  - rewrite list_lookup_insert_ne by done. split; [by left|done].
Qed.

(** Alias pointers and Content stay. *)
Definition same_shape (h h' : heap) : Prop :=
  length h' = length h /\ forall l n, h !! l = Some n -> exists n', h' !! l = Some n' /\ n_alias n' = n_alias n /\ n_content n' = n_content n.
Lemma wiped_shape P h h' : wiped P h h' -> same_shape h h'.
Proof. intros [L W]. split; [done|]. intros l n H. destruct (W l n H) as [[A|[_ A]] _]; eauto. Qed.
Lemma shape_back h h' l n' : same_shape h h' -> h' !! l = Some n' -> exists n, h !! l = Some n /\ n_alias n' = n_alias n /\ n_content n' = n_content n.
Proof.
  intros [L W] H. assert (is_Some (h !! l)) as [n Hn]. { apply lookup_lt_is_Some. rewrite <- L. by eapply lookup_lt_Some. }
  destruct (W l n Hn) as (n2 & A & B & C). rewrite A in H. injection H as <-. eauto.
Qed.
Lemma shape_sym h h' : same_shape h h' -> same_shape h' h.
Proof. intros S. split; [by destruct S|]. intros l n H. destruct (shape_back _ _ _ _ S H) as (m & A & B & C). eauto. Qed.
Lemma below_shape h h' d x : same_shape h h' -> below h d x -> below h' d x.
Proof.
  intros S B. induction B as [d x n ls A C I|d x n ls c A C I B IH].
  - destruct S as [_ S]. destruct (S d n A) as (n' & A' & _ & C'). eapply below_child; [exact A'|by rewrite C'|done].
  - destruct S as [_ S]. destruct (S d n A) as (n' & A' & _ & C'). eapply below_step; [exact A'|by rewrite C'|done|done].
Qed.
Lemma reach_shape h h' d x : same_shape h h' -> reach h d x -> reach h' d x.
Proof.
  intros S B. induction B as [|y n z R IH A P]; [constructor|]. destruct S as [_ S]. destruct (S y n A) as (n' & A' & L' & C').
  econstructor; [exact IH|exact A'|]. unfold points_to in *. by rewrite L', C'.
Qed.
Lemma reach_trans' h x y z : reach h x y -> reach h y z -> reach h x z.
Proof. intros A B. induction B; [done|]. by econstructor. Qed.
Lemma below_reach h d x : below h d x -> reach h d x.
Proof.
  intros B. induction B as [d x n ls A C I|d x n ls c A C I B IH].
  - econstructor; [constructor|exact A|]. right. eauto.
  - eapply reach_trans'; [|exact IH]. econstructor; [constructor|exact A|]. right. eauto.
Qed.

Lemma uncomment_wipes fuel : forall d h h', h_uncomment fuel d h = (h', Ok tt) -> wiped (below h d) h h'.
Proof.
  induction fuel as [|f IH]; intros d h h'; cbn [h_uncomment]; [done|].
  unfold bind at 1, get at 1. destruct (h !! d) as [n|] eqn:Hd; [|done].
  destruct (n_content n) as [ls|] eqn:Hc.
  - assert (X : forall ls h h', loop (fun c => do! m := get c in do! _ := put c (clear_node m) in h_uncomment f c) ls h = (h', Ok tt) ->
      wiped (fun x => exists c, In c ls /\ (x = c \/ below h c x)) h h').
    { clear -IH. induction ls as [|c ls IL]; intros h h'; cbn [loop].
      - intros [= <-]. eapply wiped_iff; [apply wiped_refl|]. intros x. split; [done|]. by intros (c & [] & _).
      - unfold bind at 1. unfold bind at 1, get at 1. destruct (h !! c) as [m|] eqn:Hm; [|done]. unfold bind at 1, put at 1.
        set (h1 := <[c := clear_node m]> h). destruct (h_uncomment f c h1) as [h2 [[]| | |]] eqn:E; try done. intros E2.
        pose proof (wiped_put c m h Hm) as W1. fold h1 in W1. pose proof (IH _ _ _ E) as W2. pose proof (IL _ _ E2) as W3.
        pose proof (wiped_shape _ _ _ W1) as S1. pose proof (wiped_shape _ _ _ W2) as S2.
        eapply wiped_iff; [exact (wiped_trans _ _ _ _ _ W1 (wiped_trans _ _ _ _ _ W2 W3))|]. intros x. cbn. split.
        + intros [->|[B|(c' & I & [->|B])]].
          * exists c. split; [by left|by left].
          * exists c. split; [by left|]. right. eapply below_shape; [by apply shape_sym|done].
          * exists c'. split; [by right|by left].
          * exists c'. split; [by right|right]. eapply below_shape; [by apply shape_sym|]. eapply below_shape; [by apply shape_sym|done].
        + intros (c' & [<-|I] & [->|B]).
          * by left.
          * right. left. by eapply below_shape.
          * right. right. exists c'. split; [done|by left].
          * right. right. exists c'. split; [done|right]. eapply below_shape; [exact S2|]. by eapply below_shape. }
    intros E. eapply wiped_iff; [exact (X ls h h' E)|]. intros x. split.
    + intros (c & I & [->|B]); [by eapply below_child|by eapply below_step].
    + intros [n' ls' A C I|n' ls' c A C I B]; assert (n' = n) as -> by congruence; assert (ls' = ls) as -> by congruence; eauto.
  - intros [= <-]. eapply wiped_iff; [apply wiped_refl|]. intros x. split; [done|].
    intros [n' ls' A C I|n' ls' c A C I B]; assert (n' = n) as -> by congruence; congruence.
Qed.
Lemma uncomment_list fuel : forall nodes h h', loop (h_uncomment fuel) nodes h = (h', Ok tt) ->
  wiped (fun x => exists d, In d nodes /\ below h d x) h h'.
Proof.
  induction nodes as [|d nodes IH]; intros h h'; cbn [loop].
  - intros [= <-]. eapply wiped_iff; [apply wiped_refl|]. intros x. split; [done|]. by intros (c & [] & _).
  - unfold bind. destruct (h_uncomment fuel d h) as [h1 [[]| | |]] eqn:E; try done. intros E2.
    pose proof (uncomment_wipes _ _ _ _ E) as W1. pose proof (IH _ _ E2) as W2. pose proof (wiped_shape _ _ _ W1) as S1.
    eapply wiped_iff; [exact (wiped_trans _ _ _ _ _ W1 W2)|]. intros x. cbn. split.
    + intros [B|(d' & I & B)]; [exists d; by split; [left|]|]. exists d'. split; [by right|]. eapply below_shape; [by apply shape_sym|done].
    + intros (d' & [<-|I] & B); [by left|]. right. exists d'. split; [done|]. by eapply below_shape.
Qed.
Lemma uncomment_all_wipes fuel : forall files h h', h_uncomment_all fuel files h = (h', Ok tt) ->
  wiped (fun x => exists ns d, In ns files /\ In d ns /\ below h d x) h h'.
Proof.
  unfold h_uncomment_all. induction files as [|ns files IH]; intros h h'; cbn [loop].
  - intros [= <-]. eapply wiped_iff; [apply wiped_refl|]. intros x. split; [done|]. by intros (c & d & [] & _).
  - unfold bind. destruct (loop (h_uncomment fuel) ns h) as [h1 [[]| | |]] eqn:E; try done. intros E2.
    pose proof (uncomment_list _ _ _ _ E) as W1. pose proof (IH _ _ E2) as W2. pose proof (wiped_shape _ _ _ W1) as S1.
    eapply wiped_iff; [exact (wiped_trans _ _ _ _ _ W1 W2)|]. intros x. cbn. split.
    + intros [(d & I & B)|(ns' & d' & I & J & B)]; [exists ns, d; by split; [left|]|]. exists ns', d'. split; [by right|]. split; [done|]. eapply below_shape; [by apply shape_sym|done].
    + intros (ns' & d' & [<-|I] & J & B); [left; by exists d'|]. right. exists ns', d'. split; [done|]. split; [done|]. by eapply below_shape.
Qed.

(** *** What the rest of the program relies on is kept *)
Lemma closed_shape h h' : same_shape h h' -> closed h -> closed h'.
Proof.
  intros S C l n x H P. destruct (shape_back _ _ _ _ S H) as (m & A & B & D). destruct S as [-> _]. apply (C l m x A). unfold points_to in *. by rewrite <- B, <- D.
Qed.
Lemma set_up_shape files os h h' : same_shape h h' -> set_up files os h -> set_up files os h'.
Proof.
  intros S [C D V Q O A VA]. pose proof (shape_sym _ _ S) as S'. assert (L : length h' = length h) by apply S. constructor; try done.
  - by eapply closed_shape.
  - intros f d. rewrite L. apply D.
  - intros o x. rewrite L. apply V.
  - intros i j f g d e x Hi Hj NE Hd He R1 R2. eapply (A i j f g d e x); try done; by eapply reach_shape.
  - intros f d o v x Hf Hd Ho Hv R1 R2. eapply (VA f d o v x); try done; by eapply reach_shape.
Qed.
Lemma docs_apart_shape f h h' : same_shape h h' -> docs_apart h f -> docs_apart h' f.
Proof. intros S A i j d e x Hi Hj NE R1 R2. pose proof (shape_sym _ _ S) as S'. eapply (A i j d e x); try done; by eapply reach_shape. Qed.
Lemma alias_free_shape h h' : same_shape h h' -> alias_free h -> alias_free h'.
Proof. intros S A l n H. destruct (shape_back _ _ _ _ S H) as (m & Hm & -> & _). by eapply A. Qed.

(** *** Documents *)
Fixpoint l_wipe (t : ltree) : ltree := match t with L l i c => L l (set_comments [] [] [] i) (match c with None => None | Some ts => Some (map l_wipe ts) end) end.
Definition l_uncomment (t : ltree) : ltree := match t with L l i c => L l i (match c with None => None | Some ts => Some (map l_wipe ts) end) end.
Lemma wipe_label t : label (l_wipe t) = label t.
Proof. by destruct t. Qed.
Lemma uncomment_label t : label (l_uncomment t) = label t.
Proof. by destruct t. Qed.
Lemma wipe_locs t : locs (l_wipe t) = locs t.
Proof.
  induction t as [l i|l i ts IH] using ltree_ind'; [done|]. cbn [l_wipe locs]. f_equal. rewrite map_map. f_equal.
  induction IH as [|t ts E F IHl]; [done|]. cbn [map]. by rewrite E, IHl.
Qed.
Lemma uncomment_locs t : locs (l_uncomment t) = locs t.
Proof.
  destruct t as [l i [ts|]]; [|done]. cbn [l_uncomment locs]. f_equal. rewrite map_map. f_equal. apply map_ext. apply wipe_locs.
Qed.
Lemma wipe_erase t : erase (l_wipe t) = clear_comments (remove_comments (erase t)).
Proof.
  induction t as [l i|l i ts IH] using ltree_ind'; [done|]. cbn [l_wipe erase remove_comments clear_comments]. do 2 f_equal. rewrite !map_map.
  induction IH as [|t ts E F IHl]; [done|]. cbn [map]. by rewrite E, IHl.
Qed.
Lemma uncomment_erase t : erase (l_uncomment t) = remove_comments (erase t).
Proof. destruct t as [l i [ts|]]; [|done]. cbn [l_uncomment erase remove_comments]. do 2 f_equal. rewrite !map_map. apply map_ext. apply wipe_erase. Qed.

Lemma below_locs h t x : reads h t -> below h (label t) x -> x ∈ flat (kids (l_content t)).
Proof.
  induction t as [l i|l i ts IH] using ltree_ind'; rewrite reads_eq; cbn [label l_content kids labels]; intros [[al A] B] W.
  - destruct W as [n ls H C _|n ls c H C _ _]; rewrite A in H; injection H as <-; done.
  - assert (X : forall c, In c (map label ts) -> exists t, In t ts /\ label t = c) by (intros c I; apply in_map_iff in I as (t & ? & ?); eauto).
    rewrite Forall_forall in IH, B.
    destruct W as [n ls H C I|n ls c H C I W]; rewrite A in H; injection H as <-; cbn [n_content] in C; injection C as <-; destruct (X _ I) as (t & T & <-);
      apply elem_of_list_In in T; unfold flat; apply elem_of_list_In, in_concat; exists (locs t); (split; [by apply in_map, elem_of_list_In|]); apply elem_of_list_In.
    + destruct t as [? ? ?]. rewrite locs_eq. left.
    + specialize (IH t T (B t T) W). destruct t as [? ? ?]. rewrite locs_eq. by right.
Qed.
Lemma locs_below h t x : reads h t -> x ∈ flat (kids (l_content t)) -> below h (label t) x.
Proof.
  induction t as [l i|l i ts IH] using ltree_ind'; rewrite reads_eq; cbn [label l_content kids labels]; intros [[al A] B] W; [by apply elem_of_nil in W|].
  apply elem_of_list_In in W. unfold flat in W. apply in_concat in W as (ls & I & W). apply in_map_iff in I as (t & <- & T).
  rewrite Forall_forall in IH, B. apply elem_of_list_In in T. specialize (IH t T (B t T)). apply elem_of_list_In in W. destruct t as [lt it ct]. rewrite locs_eq in W.
  apply elem_of_cons in W as [->|W].
  - eapply below_child; [exact A|done|]. apply in_map_iff. exists (L lt it ct). split; [done|by apply elem_of_list_In].
  - eapply below_step; [exact A|done| |exact (IH W)]. apply in_map_iff. exists (L lt it ct). split; [done|by apply elem_of_list_In].
Qed.
Lemma reads_wipe P h h' t : wiped P h h' -> (forall x, x ∈ locs t -> P x) -> reads h t -> reads h' (l_wipe t).
Proof.
  intros [LE W]. induction t as [l i|l i ts IH] using ltree_ind'; intros HP; rewrite reads_eq; cbn [l_wipe]; rewrite reads_eq; cbn [kids labels]; intros [[al A] B].
  - split; [|constructor]. exists al. destruct (W l _ A) as [_ X]. rewrite X by (apply HP; rewrite locs_eq; left). done.
  - split.
    + exists al. destruct (W l _ A) as [_ X]. rewrite X by (apply HP; rewrite locs_eq; left). unfold clear_node. cbn. rewrite map_map. by rewrite (map_ext (fun x => label (l_wipe x)) label wipe_label).
    + rewrite Forall_forall in *. intros t T. apply elem_of_list_fmap in T as (u & -> & U). apply IH; [done| |by apply B].
      intros x X. apply HP. rewrite locs_eq. right. cbn [kids]. unfold flat. apply elem_of_list_In, in_concat. exists (locs u). split; [by apply in_map, elem_of_list_In|by apply elem_of_list_In].
Qed.
Lemma own_uncomment P h h' docs : wiped P h h' -> own h docs ->
  Forall (fun doc => ~ P (label doc)) docs -> (forall doc x, In doc docs -> below h (label doc) x -> P x) -> own h' (map l_uncomment docs).
Proof.
  intros WP [R ND] NP HP. split.
  - rewrite Forall_forall in *. intros t T. apply elem_of_list_fmap in T as (doc & -> & D).
    specialize (R doc D). specialize (NP doc D). apply elem_of_list_In in D. specialize (fun x => HP doc x D). pose proof R as R0.
    destruct doc as [l i c]. rewrite reads_eq in R. destruct R as [[al A] B]. cbn [l_uncomment label] in *. rewrite reads_eq. split.
    + exists al. destruct WP as [_ W]. destruct (W l _ A) as [[X|[X _]] _]; [|done]. rewrite X. destruct c as [ts|]; [|done]. cbn [labels]. rewrite map_map. by rewrite (map_ext (fun x => label (l_wipe x)) label wipe_label).
    + destruct c as [ts|]; cbn [kids] in *; [|constructor]. rewrite Forall_forall in *. intros t T. apply elem_of_list_fmap in T as (u & -> & U).
      eapply reads_wipe; [exact WP| |by apply B]. intros x X. apply HP. apply (locs_below h (L l i (Some ts))); [done|]. cbn [l_content kids].
      unfold flat. apply elem_of_list_In, in_concat. exists (locs u). split; [by apply in_map, elem_of_list_In|by apply elem_of_list_In].
  - unfold flat. rewrite map_map. erewrite map_ext; [exact ND|]. intros. apply uncomment_locs.
Qed.

(** *** Trees *)
Lemma paired_length l m : is_paired l -> length l = length m -> is_paired m.
Proof.
  intros [ps ->]. revert m. induction ps as [|p ps IH]; intros m E.
  - destruct m; [|done]. by exists [].
  - destruct m as [|a [|b m]]; try done. cbn in E. destruct (IH m) as [qs ->]; [by injection E|]. by exists ((a, b) :: qs).
Qed.
Lemma everywhere_but (f : info -> info) (Q : tree -> Prop) t u :
  (forall i j c e, f i = f j -> option_map length c = option_map length e -> Q (T i c) -> Q (T j e)) ->
  same_but f t u -> everywhere Q t -> everywhere Q u.
Proof.
  intros HQ. revert u. induction t as [i|i l IH] using tree_ind'; intros u B.
  - inversion B as [i' j E|]; subst. rewrite !everywhere_none. by apply HQ.
  - inversion B as [|i' j l' m E F]; subst. rewrite !everywhere_some. intros [H1 H2]. split.
    + eapply HQ; [exact E| |exact H1]. cbn. by rewrite (Forall2_length _ _ _ F).
    + clear -IH F H2. revert m F. induction IH as [|t l Ht _ IHl]; intros m F; inversion F; subst; [constructor|].
      apply Forall_cons in H2 as [H2 H3]. constructor; [by apply Ht|by apply IHl].
Qed.
Lemma uncomment_paired t : well_paired t -> well_paired (remove_comments t).
Proof.
  apply (everywhere_but (set_comments [] [] [])); [|apply remove_comments_but]. intros i j c e E L. unfold node_paired, t_kind, children. cbn.
  assert (i_kind i = i_kind j) as -> by (by destruct i, j; injection E). intros H K. specialize (H K). destruct c, e; try done. eapply paired_length; [done|]. by injection L.
Qed.
Lemma uncomment_branching t : branching t -> branching (remove_comments t).
Proof.
  apply (everywhere_but (set_comments [] [] [])); [|apply remove_comments_but]. intros i j c e E L. unfold node_branching, t_kind, children. cbn.
  assert (i_kind i = i_kind j) as -> by (by destruct i, j; injection E). intros H N. apply H. intros C. apply N. destruct c as [[|]|], e as [[|]|]; done.
Qed.

(** *** Values of overlays are not touched *)
Lemma value_wiped P h h' ro d : wiped P h h' -> forall l t, (forall x, reach h l x -> ~ P x) -> value_at d ro h l t -> value_at d ro h' l t.
Proof.
  intros [_ W]. induction d as [|d IH]; intros l t NP; cbn [value_at]; [done|]. intros [R (n & A & I & AL & C)]. split; [done|].
  destruct (W l n A) as [[A'|[PL _]] _]; [|destruct (NP l); [constructor|done]]. exists n. split; [done|]. split; [done|].
  assert (ST : forall x, points_to n x -> forall y, reach h x y -> ~ P y).
  { intros x X y Y. apply NP. eapply reach_trans'; [|exact Y]. econstructor; [constructor|exact A|exact X]. }
  split.
  - destruct (n_alias n) as [a|] eqn:EA; [|done]. destruct AL as [t' V]. exists t'. apply IH; [|done]. apply ST. by left.
  - destruct (n_content n) as [ls|] eqn:EC, (t_content t) as [ts|]; try done. assert (HS : Forall (fun x => forall y, reach h x y -> ~ P y) ls).
    { rewrite Forall_forall. intros x X. apply ST. right. exists ls. split; [done|by apply elem_of_list_In]. }
    clear -IH C HS. induction C as [|l t ls ts V C IHl]; [constructor|]. apply Forall_cons in HS as [H1 H2]. constructor; [by apply IH|by apply IHl].
Qed.
Lemma means_wiped P h h' ro d o ot : wiped P h h' -> (forall v x, overlay_root o v -> reach h v x -> ~ P x) -> means d ro h o ot -> means d ro h' o ot.
Proof.
  intros W NP (M1 & M2 & M3 & M4 & M5 & M6). split; [done|]. split.
  { eapply value_wiped; [exact W| |done]. intros x. apply NP. by left. }
  split; [done|]. split; [|done]. assert (HC : forall g c, In g (o_docqueries o) -> In c g -> forall x, reach h (c_value c) x -> ~ P x).
  { intros g c G C x. apply NP. right. eauto. }
  clear -W M4 HC. induction M4 as [|g tg gs tgs G M4 IH]; [constructor|]. constructor; [|apply IH; intros; eapply HC; [by right|done|done]].
  assert (HG : forall c, In c g -> forall x, reach h (c_value c) x -> ~ P x) by (intros; eapply HC; [by left|done|done]).
  clear -W G HG. induction G as [|c tc g tg C G IH]; [constructor|]. constructor; [|apply IH; intros; eapply HG; [by right|done]].
  specialize (HG c (or_introl eq_refl)). destruct C as (C1 & C2 & C3). split; [done|]. split; [done|].
  assert (NV : forall n, h !! c_value c = Some n -> h' !! c_value c = Some n).
  { intros n A. destruct W as [_ W]. destruct (W _ n A) as [[A'|[PL _]] _]; [done|]. destruct (HG (c_value c)); [constructor|done]. }
  destruct (tc_value tc) as [v|].
  - destruct C3 as [V N]. split; [by eapply value_wiped|]. intros X. apply N. unfold no_value in *.
    destruct d as [|d]; [done|]. cbn [value_at] in V. destruct V as [_ (n & A & _)]. rewrite (NV n A) in X. congruence.
  - unfold no_value in *. by apply NV.
Qed.

(** *** Fuel *)
Lemma shape_trans h h1 h2 : same_shape h h1 -> same_shape h1 h2 -> same_shape h h2.
Proof.
  intros [L1 W1] [L2 W2]. split; [congruence|]. intros l n H. destruct (W1 l n H) as (n1 & A1 & B1 & C1). destruct (W2 l n1 A1) as (n2 & A2 & B2 & C2).
  exists n2. split; [done|]. split; congruence.
Qed.
Lemma uncomment_ends t : exists k, forall fuel h0 h, k <= fuel -> same_shape h0 h -> reads h0 t -> exists h', h_uncomment fuel (label t) h = (h', Ok tt).
Proof.
  induction t as [l i|l i ts IH] using ltree_ind'.
  - exists 1. intros [|f] h0 h K S; [lia|]. rewrite reads_eq. intros [[al A] _]. cbn [h_uncomment label]. destruct S as [_ S]. destruct (S l _ A) as (n & A' & _ & C).
    unfold bind, get. rewrite A'. rewrite C. by exists h.
  - assert (X : exists k, forall fuel h0 h, k <= fuel -> same_shape h0 h -> Forall (reads h0) ts ->
      exists h', loop (fun c => do! m := get c in do! _ := put c (clear_node m) in h_uncomment fuel c) (map label ts) h = (h', Ok tt)).
    { induction IH as [|t ts [k1 Ht] _ [k2 IHl]].
      - exists 0. intros fuel h0 h _ _ _. by exists h.
      - exists (max k1 k2). intros fuel h0 h K S [R1 R2]%Forall_cons. cbn [map loop]. unfold bind at 1. unfold bind at 1, get at 1.
        assert (exists m, h !! label t = Some m) as [m M].
        { destruct t as [lt it ct]. rewrite reads_eq in R1. destruct R1 as [[al A] _]. destruct S as [_ S]. destruct (S lt _ A) as (n & A' & _). eauto. }
        rewrite M. unfold bind at 1, put at 1. set (h1 := <[label t := clear_node m]> h).
        assert (S1 : same_shape h0 h1). { eapply shape_trans; [exact S|]. eapply wiped_shape. by apply wiped_put. }
        destruct (Ht fuel h0 h1 ltac:(lia) S1 R1) as [h2 E]. rewrite E. apply (IHl fuel h0 h2); [lia| |done].
        eapply shape_trans; [exact S1|]. eapply wiped_shape. by eapply uncomment_wipes. }
    destruct X as [k X]. exists (Datatypes.S k). intros [|f] h0 h K S; [lia|]. rewrite reads_eq. intros [[al A] B]. cbn [h_uncomment label]. cbn [kids] in B.
    destruct S as [SL S]. destruct (S l _ A) as (n & A' & _ & C). unfold bind at 1, get at 1. rewrite A'. rewrite C. cbn [n_content labels].
    apply (X f h0 h); [lia|by split|done].
Qed.
Lemma uncomment_list_ends ts : exists k, forall fuel h0 h, k <= fuel -> same_shape h0 h -> Forall (reads h0) ts -> exists h', loop (h_uncomment fuel) (map label ts) h = (h', Ok tt).
Proof.
  induction ts as [|t ts [k2 IH]]; [by exists 0; eauto|]. destruct (uncomment_ends t) as [k1 Ht]. exists (max k1 k2). intros fuel h0 h K S [R1 R2]%Forall_cons. cbn [map loop].
  unfold bind. destruct (Ht fuel h0 h ltac:(lia) S R1) as [h1 E]. rewrite E. apply (IH fuel h0 h1); [lia| |done].
  eapply shape_trans; [exact S|]. eapply wiped_shape. by eapply uncomment_wipes.
Qed.
Lemma uncomment_all_ends tss : exists k, forall fuel h0 h, k <= fuel -> same_shape h0 h -> Forall (Forall (reads h0)) tss ->
  exists h', h_uncomment_all fuel (map (map label) tss) h = (h', Ok tt).
Proof.
  unfold h_uncomment_all. induction tss as [|ts tss [k2 IH]]; [by exists 0; eauto|]. destruct (uncomment_list_ends ts) as [k1 Ht]. exists (max k1 k2). intros fuel h0 h K S [R1 R2]%Forall_cons. cbn [map loop].
  unfold bind. destruct (Ht fuel h0 h ltac:(lia) S R1) as [h1 E]. rewrite E. apply (IH fuel h0 h1); [lia| |done].
  eapply shape_trans; [exact S|]. eapply wiped_shape. by eapply uncomment_list.
Qed.
Lemma shape_refl h : same_shape h h.
Proof. split; [done|]. intros l n H. eauto. Qed.

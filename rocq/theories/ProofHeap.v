(** Resource accounting on heaps: [trans] says how owned documents change. *)
From stdpp Require Import sets.
From Verif Require Import Prelude Yaml Heap SpecHeap.

Section ltree_ind.
  Context (P : ltree -> Prop).
  Context (Hnone : forall l i, P (L l i None)).
  Context (Hsome : forall l i ts, Forall P ts -> P (L l i (Some ts))).
  Fixpoint ltree_ind' (t : ltree) : P t :=
    match t with
    | L l i None => Hnone l i
    | L l i (Some ts) =>
        Hsome l i ts ((fix go (ts : list ltree) : Forall P ts :=
                      match ts with
                      | [] => @List.Forall_nil ltree P
                      | t :: r => @List.Forall_cons ltree P t r (ltree_ind' t) (go r)
                      end) ts)
    end.
End ltree_ind.

Definition labels (c : option (list ltree)) : option (list loc) :=
  match c with None => None | Some ts => Some (map label ts) end.

Lemma reads_eq h l i c :
  reads h (L l i c) <-> (exists al, h !! l = Some (mkNode i al (labels c))) /\ Forall (reads h) (kids c).
Proof.
  cbn [reads]. destruct c as [ts|]; cbn [kids labels].
  - assert (H : fold_right (fun t P => reads h t /\ P) True ts <-> Forall (reads h) ts).
    { induction ts as [|t ts IH]; cbn [fold_right]; [split; auto|]. rewrite Forall_cons, IH. reflexivity. }
    rewrite H. reflexivity.
  - split; intros [A _]; split; auto.
Qed.

Lemma locs_eq l i c : locs (L l i c) = l :: flat (kids c).
Proof. destruct c; reflexivity. Qed.
Lemma flat_cons t ts : flat (t :: ts) = locs t ++ flat ts.
Proof. reflexivity. Qed.
Lemma flat_app a b : flat (a ++ b) = flat a ++ flat b.
Proof. unfold flat. rewrite map_app, concat_app. reflexivity. Qed.
Lemma flat_perm a b : a ≡ₚ b -> flat a ≡ₚ flat b.
Proof.
  induction 1 as [|t a b _ IH|t u a|a b c _ IH1 _ IH2]; rewrite ?flat_cons.
  - reflexivity.
  - rewrite IH. reflexivity.
  - rewrite !(assoc_L (++)), (comm (++) (locs _) (locs _)). reflexivity.
  - rewrite IH1. exact IH2.
Qed.

Lemma label_locs t : label t ∈ locs t.
Proof. destruct t as [l i c]. rewrite locs_eq. apply elem_of_list_here. Qed.
Lemma elem_of_flat l ts : l ∈ flat ts <-> exists t, t ∈ ts /\ l ∈ locs t.
Proof.
  induction ts as [|u ts IH].
  - split; [intros H; inversion H|intros (t & H & _); inversion H].
  - rewrite flat_cons, elem_of_app, IH. split.
    + intros [H|(t & A & B)]; [exists u|exists t]; split; auto; [apply elem_of_list_here|apply elem_of_list_further; auto].
    + intros (t & A & B). apply elem_of_cons in A as [->|A]; [left; auto|right; exists t; auto].
Qed.

Lemma reads_frame h h' t :
  (forall l, l ∈ locs t -> h' !! l = h !! l) -> reads h t -> reads h' t.
Proof.
  induction t as [l i|l i ts IH] using ltree_ind'; intros F; rewrite !reads_eq; intros [[al A] B]; split.
  - exists al. rewrite F; [exact A|]. apply elem_of_list_here.
  - constructor.
  - exists al. rewrite F; [exact A|]. rewrite locs_eq. apply elem_of_list_here.
  - cbn [kids] in *. rewrite Forall_forall in *. intros t Ht. apply IH; auto.
    intros l' Hl. apply F. rewrite locs_eq. apply elem_of_list_further, elem_of_flat. eauto.
Qed.

Lemma reads_all_frame h h' ts :
  (forall l, l ∈ flat ts -> h' !! l = h !! l) -> Forall (reads h) ts -> Forall (reads h') ts.
Proof.
  intros F H. rewrite Forall_forall in *. intros t Ht. apply (reads_frame h); auto.
  intros l Hl. apply F, elem_of_flat. eauto.
Qed.

Lemma reads_bound h t l : reads h t -> l ∈ locs t -> l < length h.
Proof.
  induction t as [l0 i|l0 i ts IH] using ltree_ind'; rewrite reads_eq, locs_eq; intros [[al A] B] Hl;
    apply elem_of_cons in Hl as [->|Hl]; try (apply lookup_lt_is_Some; eauto; fail).
  - inversion Hl.
  - apply elem_of_flat in Hl as (t & Ht & Hl). rewrite Forall_forall in *. eapply IH; eauto.
Qed.
Lemma reads_all_bound h ts l : Forall (reads h) ts -> l ∈ flat ts -> l < length h.
Proof. intros H Hl. apply elem_of_flat in Hl as (t & Ht & Hl). rewrite Forall_forall in H. eauto using reads_bound. Qed.

(** How the owned documents [W] of heap [h] became the owned documents [W'] of
    [h']: nothing else of [h] changed, and every address of [W] still belongs
    to some document of [W']; new addresses are fresh. *)
Record trans (h : heap) (W : list ltree) (h' : heap) (W' : list ltree) : Prop := mkTrans {
  tr_len : length h <= length h';
  tr_frame : forall l, l < length h -> l ∉ flat W -> h' !! l = h !! l;
  tr_reads : Forall (reads h') W';
  tr_perm : exists fr, NoDup fr /\ Forall (fun l => length h <= l) fr /\ flat W' ≡ₚ flat W ++ fr }.

Lemma own_trans h W h' W' : own h W -> trans h W h' W' -> own h' W'.
Proof.
  intros [A B] [C D E (fr & F1 & F2 & F3)]. split; [exact E|]. rewrite F3. apply NoDup_app. split; [exact B|].
  split; [|exact F1]. intros l Hl Hf. rewrite Forall_forall in F2. apply F2 in Hf.
  eapply reads_all_bound in Hl; [|exact A]. lia.
Qed.

Lemma apart_trans ro h W h' W' : own h W -> trans h W h' W' -> apart ro h W -> apart ro h' W'.
Proof.
  intros [A B] [C D E (fr & F1 & F2 & F3)] H l Hl. destruct (H l Hl) as [H1 H2]. split; [lia|].
  rewrite F3, elem_of_app. intros [X|X]; [auto|]. rewrite Forall_forall in F2. apply F2 in X. lia.
Qed.

Lemma trans_refl h W : Forall (reads h) W -> trans h W h W.
Proof.
  intros H. split; auto. exists []. split; [constructor|]. split; [constructor|]. rewrite app_nil_r. reflexivity.
Qed.

Lemma trans_trans h W h1 W1 h2 W2 : own h W -> trans h W h1 W1 -> trans h1 W1 h2 W2 -> trans h W h2 W2.
Proof.
  intros [A B] [C1 D1 E1 (fr1 & F1 & G1 & P1)] [C2 D2 E2 (fr2 & F2 & G2 & P2)]. split.
  - lia.
  - intros l Hl Hn. rewrite D2; [apply D1; auto|lia|]. rewrite P1, elem_of_app. intros [X|X]; [auto|].
    rewrite Forall_forall in G1. apply G1 in X. lia.
  - exact E2.
  - exists (fr1 ++ fr2). split; [|split].
    + apply NoDup_app. split; [exact F1|]. split; [|exact F2]. intros l H1 H2.
      assert (l < length h1).
      { eapply reads_all_bound; [exact E1|]. rewrite P1. apply elem_of_app. auto. }
      rewrite Forall_forall in G2. apply G2 in H2. lia.
    + apply Forall_app. split; [exact G1|]. eapply Forall_impl; [exact G2|]. simpl. intros. lia.
    + rewrite P2, P1. rewrite (assoc_L (++)). reflexivity.
Qed.

Lemma trans_frame_r h W h' W' U : own h (W ++ U) -> trans h W h' W' -> trans h (W ++ U) h' (W' ++ U).
Proof.
  intros [A B] [C D E (fr & F & G & P)]. rewrite flat_app in B. apply NoDup_app in B as (B1 & B2 & B3).
  apply Forall_app in A as [A1 A2]. split.
  - exact C.
  - intros l Hl Hn. apply D; [exact Hl|]. intros X. apply Hn. rewrite flat_app. apply elem_of_app. auto.
  - apply Forall_app. split; [exact E|]. apply (reads_all_frame h); [|exact A2].
    intros l Hl. apply D; [eapply reads_all_bound; eauto|]. intros X. exact (B2 l X Hl).
  - exists fr. split; [exact F|]. split; [exact G|]. rewrite !flat_app, P. rewrite <- !(assoc_L (++)).
    f_equiv. apply (comm (++)).
Qed.

Lemma trans_perm h W V h' W' V' : W ≡ₚ V -> W' ≡ₚ V' -> trans h W h' W' -> trans h V h' V'.
Proof.
  intros HW HV [C D E (fr & F & G & P)]. split.
  - exact C.
  - intros l Hl Hn. apply D; [exact Hl|]. rewrite (flat_perm _ _ HW). exact Hn.
  - rewrite <- HV. exact E.
  - exists fr. split; [exact F|]. split; [exact G|].
    rewrite <- (flat_perm _ _ HW), <- (flat_perm _ _ HV). exact P.
Qed.

Lemma own_perm h W V : W ≡ₚ V -> own h W -> own h V.
Proof. intros H [A B]. split; [rewrite <- H; exact A|]. rewrite <- (flat_perm _ _ H). exact B. Qed.
Lemma apart_perm ro h W V : W ≡ₚ V -> apart ro h W -> apart ro h V.
Proof. intros H A l Hl. destruct (A l Hl) as [X Y]. split; [exact X|]. rewrite <- (flat_perm _ _ H). exact Y. Qed.

Lemma own_app_l h W U : own h (W ++ U) -> own h W.
Proof. intros [A B]. rewrite flat_app in B. apply NoDup_app in B as (B & _). apply Forall_app in A as [A _]. split; auto. Qed.
Lemma own_app_r h W U : own h (W ++ U) -> own h U.
Proof. intros [A B]. rewrite flat_app in B. apply NoDup_app in B as (_ & _ & B). apply Forall_app in A as [_ A]. split; auto. Qed.
Lemma apart_app_l ro h W U : apart ro h (W ++ U) -> apart ro h W.
Proof. intros H l Hl. destruct (H l Hl) as [A B]. split; [exact A|]. rewrite flat_app in B. intros X. apply B, elem_of_app. auto. Qed.
Lemma apart_app_r ro h W U : apart ro h (W ++ U) -> apart ro h U.
Proof. intros H l Hl. destruct (H l Hl) as [A B]. split; [exact A|]. rewrite flat_app in B. intros X. apply B, elem_of_app. auto. Qed.

Lemma own_kids h l i c W : own h (L l i c :: W) -> own h (kids c ++ W) /\ l ∉ flat (kids c ++ W).
Proof.
  intros [A B]. apply Forall_cons in A as [A1 A2]. apply reads_eq in A1 as [_ A1].
  rewrite flat_cons, locs_eq in B. cbn [app] in B. apply NoDup_cons in B as [B1 B2].
  split; [split|]; rewrite ?flat_app; auto. apply Forall_app. auto.
Qed.
Lemma apart_kids ro h l i c W : apart ro h (L l i c :: W) -> apart ro h (kids c ++ W).
Proof.
  intros H x Hx. destruct (H x Hx) as [A B]. split; [exact A|]. rewrite flat_cons, locs_eq in B. rewrite flat_app.
  intros X. apply B. right. exact X.
Qed.

(** Writing one node, possibly rearranging its children. *)
Lemma trans_write h l i c X i' al c' X' :
  own h (L l i c :: X) -> kids c ++ X ≡ₚ kids c' ++ X' ->
  trans h (L l i c :: X) (<[l := mkNode i' al (labels c')]> h) (L l i' c' :: X').
Proof.
  intros O P. pose proof O as [A B]. apply own_kids in O as [[O1 O2] O3].
  assert (Hl : l < length h).
  { eapply reads_all_bound; [exact A|]. rewrite flat_cons, locs_eq. apply elem_of_list_here. }
  assert (F : Forall (reads (<[l := mkNode i' al (labels c')]> h)) (kids c' ++ X')).
  { apply (reads_all_frame h).
    - intros x Hx. apply list_lookup_insert_ne. intros <-. apply O3. rewrite (flat_perm _ _ P). exact Hx.
    - rewrite <- P. exact O1. }
  apply Forall_app in F as [F1 F2]. split.
  - rewrite insert_length. lia.
  - intros x Hx Hn. apply list_lookup_insert_ne. intros <-. apply Hn. rewrite flat_cons, locs_eq. apply elem_of_list_here.
  - apply Forall_cons. split; [|exact F2]. apply reads_eq. split; [|exact F1]. exists al. apply list_lookup_insert. exact Hl.
  - exists []. split; [constructor|]. split; [constructor|]. rewrite app_nil_r, !flat_cons, !locs_eq. cbn [app].
    rewrite <- !flat_app. f_equiv. symmetry. apply flat_perm. exact P.
Qed.

Lemma trans_alloc h X i al c X' :
  Forall (reads h) X -> X ≡ₚ kids c ++ X' ->
  trans h X (h ++ [mkNode i al (labels c)]) (L (length h) i c :: X').
Proof.
  intros A P. assert (F : Forall (reads (h ++ [mkNode i al (labels c)])) (kids c ++ X')).
  { apply (reads_all_frame h); [|rewrite <- P; exact A].
    intros x Hx. apply lookup_app_l. eapply reads_all_bound; [exact A|]. rewrite (flat_perm _ _ P). exact Hx. }
  apply Forall_app in F as [F1 F2]. split.
  - rewrite app_length. lia.
  - intros x Hx _. apply lookup_app_l. exact Hx.
  - apply Forall_cons. split; [|exact F2]. apply reads_eq. split; [|exact F1]. exists al.
    apply list_lookup_middle. reflexivity.
  - exists [length h]. split; [apply NoDup_singleton|]. split; [constructor; [lia|constructor]|].
    rewrite flat_cons, locs_eq. cbn [app]. rewrite <- flat_app, <- (flat_perm _ _ P).
    rewrite (comm (++)). reflexivity.
Qed.

(** Allocating a node nobody owns (the copy of an alias target). *)
Lemma trans_leak h X n : Forall (reads h) X -> trans h X (h ++ [n]) X.
Proof.
  intros A. split.
  - rewrite app_length. lia.
  - intros x Hx _. apply lookup_app_l. exact Hx.
  - apply (reads_all_frame h); [|exact A]. intros x Hx. apply lookup_app_l. eapply reads_all_bound; eauto.
  - exists []. split; [constructor|]. split; [constructor|]. rewrite app_nil_r. reflexivity.
Qed.

(** Acting on the children only. *)
Lemma trans_lift h l i cs X h' cs' X' :
  own h (L l i (Some cs) :: X) -> map label cs' = map label cs ->
  trans h (cs ++ X) h' (cs' ++ X') ->
  trans h (L l i (Some cs) :: X) h' (L l i (Some cs') :: X').
Proof.
  intros O HL [C D E (fr & F & G & P)]. pose proof O as [A B]. apply own_kids in O as [[O1 O2] O3].
  cbn [kids] in *. apply Forall_cons in A as [A1 A2]. apply reads_eq in A1 as [[al A1] A3].
  apply Forall_app in E as [E1 E2]. split.
  - exact C.
  - intros x Hx Hn. apply D; [exact Hx|]. intros X1. apply Hn. rewrite flat_cons, locs_eq, flat_app in *.
    right. exact X1.
  - apply Forall_cons. split; [|exact E2]. apply reads_eq. split; [|exact E1]. exists al. cbn [labels]. rewrite HL.
    rewrite D; [exact A1|apply lookup_lt_is_Some; eauto|exact O3].
  - exists fr. split; [exact F|]. split; [exact G|]. rewrite !flat_cons, !locs_eq. cbn [app kids].
    rewrite <- !flat_app, P. rewrite <- ?flat_app. reflexivity.
Qed.

(** Read-only values survive. *)
Lemma value_at_frame (ro : loc -> Prop) h h' d : (forall l, ro l -> h' !! l = h !! l) ->
  forall l t, value_at d ro h l t -> value_at d ro h' l t.
Proof.
  intros F. induction d as [|d IH]; intros l t; cbn [value_at]; [auto|].
  intros (R & n & A & B & C & D). split; [exact R|]. exists n. rewrite F by exact R. split; [exact A|]. split; [exact B|].
  split.
  - destruct (n_alias n); [|exact I]. destruct C as [t' C]. exists t'. auto.
  - destruct (n_content n), (t_content t); auto. eapply Forall2_impl; [exact D|]. auto.
Qed.

Lemma apart_frame ro h W h' W' l : trans h W h' W' -> apart ro h W -> ro l -> h' !! l = h !! l.
Proof. intros T A R. destruct (A l R) as [X Y]. apply (tr_frame _ _ _ _ T); auto. Qed.

Lemma value_at_trans ro h W h' W' d l t :
  trans h W h' W' -> apart ro h W -> value_at d ro h l t -> value_at d ro h' l t.
Proof. intros T A. apply value_at_frame. intros x Hx. eapply apart_frame; eauto. Qed.

Lemma value_at_S d ro h : forall l t, value_at d ro h l t -> value_at (S d) ro h l t.
Proof.
  induction d as [|d IH]; intros l t H; [destruct H|].
  destruct H as (R & n & A & B & C & D). split; [exact R|]. exists n. split; [exact A|]. split; [exact B|]. split.
  - destruct (n_alias n); [|exact I]. destruct C as [t' C]. exists t'. apply IH. exact C.
  - destruct (n_content n), (t_content t); auto. eapply Forall2_impl; [exact D|]. intros ? ? X. apply IH. exact X.
Qed.
Lemma value_at_mono d d' ro h l t : d <= d' -> value_at d ro h l t -> value_at d' ro h l t.
Proof. induction 1 as [|d' _ IH]; [auto|]. intros H. apply value_at_S. auto. Qed.

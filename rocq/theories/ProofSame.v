(** Every action behaves the same on heaps that look the same. *)
From Verif Require Import Prelude GoStrings Format Yaml Heap MergeTree Combine HeapActions Builder ActionNames Overlay SpecSame.

Notation rel := (nat -> nat -> Prop) (only parsing).
Definition incl_rel (R R' : rel) : Prop := forall a b, R a b -> R' a b.
Lemma incl_refl (R : rel) : incl_rel R R. Proof. by intros a b. Qed.
Lemma incl_trans R1 R2 R3 : incl_rel R1 R2 -> incl_rel R2 R3 -> incl_rel R1 R3.
Proof. intros H1 H2 a b H. auto. Qed.
Global Hint Resolve incl_refl : core.

Definition res_rel {A B} (P : A -> B -> Prop) (x : res A) (y : res B) : Prop :=
  match x, y with
  | Ok a, Ok b => P a b
  | Err e, Err e' => e = e'
  | Panic, Panic => True
  | Fuel, Fuel => True
  | _, _ => False
  end.

Definition sim {A B} (R : rel) (m1 : M A) (m2 : M B) (Q : rel -> A -> B -> Prop) : Prop :=
  forall h1 h2, same R h1 h2 ->
  exists R', incl_rel R R' /\ (forall a b, R' a b -> R a b \/ (length h1 <= a /\ length h2 <= b)) /\
    length h1 <= length (fst (m1 h1)) /\ length h2 <= length (fst (m2 h2)) /\
    same R' (fst (m1 h1)) (fst (m2 h2)) /\ res_rel (Q R') (snd (m1 h1)) (snd (m2 h2)).

Definition T3 {A B} (_ : rel) (_ : A) (_ : B) : Prop := True.
Definition E3 {A} (_ : rel) (a b : A) : Prop := a = b.
Definition L3 (R : rel) (a b : loc) : Prop := R a b.
Definition LL3 (R : rel) (a b : list loc) : Prop := Forall2 R a b.
Definition OL3 (R : rel) (a b : option (list loc)) : Prop := opt_rel (Forall2 R) a b.

Lemma node_rel_mono (R R' : rel) n1 n2 : incl_rel R R' -> node_rel R n1 n2 -> node_rel R' n1 n2.
Proof.
  intros I (A & B & C). split; [done|]. split.
  - destruct (n_alias n1), (n_alias n2); cbn in *; auto.
  - destruct (n_content n1), (n_content n2); cbn in *; auto. eapply Forall2_impl; eauto.
Qed.

Lemma sim_now {A B} (R : rel) (x : res A) (y : res B) Q : res_rel (Q R) x y -> sim R (fun h => (h, x)) (fun h => (h, y)) Q.
Proof. intros H h1 h2 S. exists R. cbn. repeat (split; [auto|]). done. Qed.
Lemma sim_ret {A B} (R : rel) (a : A) (b : B) (Q : rel -> A -> B -> Prop) : Q R a b -> sim R (ret a) (ret b) Q.
Proof. intros H. by apply sim_now. Qed.
Lemma sim_fail {A B} (R : rel) e (Q : rel -> A -> B -> Prop) : sim R (fail e) (fail e) Q.
Proof. by apply sim_now. Qed.
Lemma sim_crash {A B} (R : rel) (Q : rel -> A -> B -> Prop) : sim R crash crash Q.
Proof. by apply sim_now. Qed.
Lemma sim_stuck {A B} (R : rel) (Q : rel -> A -> B -> Prop) : sim R stuck stuck Q.
Proof. by apply sim_now. Qed.

Lemma sim_bind {A B C D} (R : rel) (m1 : M A) (m2 : M B) (f : A -> M C) (g : B -> M D) P Q :
  sim R m1 m2 P -> (forall R' a b, incl_rel R R' -> P R' a b -> sim R' (f a) (g b) Q) -> sim R (bind m1 f) (bind m2 g) Q.
Proof.
  intros S K h1 h2 H. destruct (S h1 h2 H) as (R1 & I1 & F1 & G1 & G2 & S1 & P1). unfold bind.
  destruct (m1 h1) as [k1 r1], (m2 h2) as [k2 r2]. cbn [fst snd] in *.
  destruct r1 as [a|e| |], r2 as [b|e'| |]; cbn [res_rel] in P1; try done;
    try (exists R1; cbn; repeat (split; [done|]); done).
  destruct (K R1 a b I1 P1 k1 k2 S1) as (R2 & I2 & F2 & G3 & G4 & S2 & P2).
  exists R2. split; [by eapply incl_trans|]. split; [|split; [lia|]; split; [lia|]; done].
  intros x y XY. destruct (F2 x y XY) as [XY'|[? ?]]; [auto|]. right. lia.
Qed.
Lemma sim_bij {A B} (R : rel) (m1 : M A) (m2 : M B) Q :
  ((forall a b a' b', R a b -> R a' b' -> (a = a' <-> b = b')) -> sim R m1 m2 Q) -> sim R m1 m2 Q.
Proof.
  intros K h1 h2 H. apply K; [|done]. intros a b a' b' X Y. destruct H as [HF HI _].
  split; intros <-; eauto.
Qed.
Lemma sim_weaken {A B} (R : rel) (m1 : M A) (m2 : M B) (P Q : rel -> A -> B -> Prop) :
  (forall R' a b, incl_rel R R' -> P R' a b -> Q R' a b) -> sim R m1 m2 P -> sim R m1 m2 Q.
Proof.
  intros I S h1 h2 H. destruct (S h1 h2 H) as (R1 & I1 & F1 & G1 & G2 & S1 & P1). exists R1. repeat (split; [done|]).
  destruct (snd (m1 h1)), (snd (m2 h2)); cbn in *; auto.
Qed.

Lemma sim_get (R : rel) a b : R a b -> sim R (get a) (get b) node_rel.
Proof.
  intros H h1 h2 S. exists R. cbn [get fst snd]. repeat (split; [auto|]).
  destruct (same_node _ _ _ S a b H) as (n1 & n2 & E1 & E2 & N). rewrite E1, E2. exact N.
Qed.
Lemma sim_put (R : rel) a b n1 n2 : R a b -> node_rel R n1 n2 -> sim R (put a n1) (put b n2) T3.
Proof.
  intros H N h1 h2 S. exists R. cbn [put fst snd]. split; [auto|]. split; [auto|].
  rewrite !insert_length. split; [lia|]. split; [lia|]. split; [|done]. destruct S as [SF SI SN].
  constructor; [done|done|]. intros x y XY. destruct (decide (x = a)) as [->|NE].
  - assert (y = b) as -> by eauto. destruct (SN a b H) as (k1 & k2 & E1 & E2 & _).
    exists n1, n2. split; [|split; [|done]]; apply list_lookup_insert; by eapply lookup_lt_Some.
  - assert (y <> b) by (intros ->; eauto). rewrite !list_lookup_insert_ne by congruence. auto.
Qed.
Lemma sim_alloc (R : rel) n1 n2 : node_rel R n1 n2 -> sim R (alloc n1) (alloc n2) L3.
Proof.
  intros N h1 h2 S. set (R' := fun a b => R a b \/ (a = length h1 /\ b = length h2)). exists R'.
  assert (V : forall a b, R a b -> a < length h1 /\ b < length h2).
  { intros a b H. destruct (same_node _ _ _ S a b H) as (k1 & k2 & E1 & E2 & _). split; by eapply lookup_lt_Some. }
  assert (I : incl_rel R R') by (intros a b; by left).
  cbn [alloc fst snd]. split; [done|]. split; [intros a b [|[-> ->]]; [by left|right; lia]|].
  rewrite !app_length. split; [lia|]. split; [lia|]. split; [|by right].
  constructor.
  - intros a b b' [X|[-> ->]] [Y|[E ->]]; [exact (same_fun _ _ _ S _ _ _ X Y)|apply V in X; lia|apply V in Y; lia|done].
  - intros a a' b [X|[-> ->]] [Y|[-> E]]; [exact (same_inj _ _ _ S _ _ _ X Y)|apply V in X; lia|apply V in Y; lia|done].
  - intros a b [X|[-> ->]].
    + destruct (same_node _ _ _ S a b X) as (k1 & k2 & E1 & E2 & K). exists k1, k2.
      split; [by apply lookup_app_l_Some|]. split; [by apply lookup_app_l_Some|]. by eapply node_rel_mono.
    + exists n1, n2. rewrite !lookup_app_r, !Nat.sub_diag by lia. split; [done|]. split; [done|]. by eapply node_rel_mono.
Qed.
Lemma sim_put_info (R : rel) a b i : R a b -> sim R (put_info a i) (put_info b i) T3.
Proof.
  intros H. eapply sim_bind; [by apply sim_get|]. intros R' n1 n2 I (_ & A & C). apply sim_put; [auto|].
  split; [done|]. split; done.
Qed.
Lemma sim_put_content (R : rel) a b c c' : R a b -> opt_rel (Forall2 R) c c' -> sim R (put_content a c) (put_content b c') T3.
Proof.
  intros H HC. eapply sim_bind; [by apply sim_get|]. intros R' n1 n2 I (E & A & _). apply sim_put; [auto|].
  split; [done|]. split; [done|]. cbn. destruct c, c'; cbn in *; auto. eapply Forall2_impl; eauto.
Qed.
Lemma sim_loop (R : rel) (f g : loc -> M unit) l l' : Forall2 R l l' ->
  (forall R' a b, incl_rel R R' -> R' a b -> sim R' (f a) (g b) T3) -> sim R (loop f l) (loop g l') T3.
Proof.
  intros F. revert R l' F. induction l as [|a l IH]; intros R l' F K; inversion F as [|? b ? l2 X Y]; subst; cbn [loop]; [by apply sim_ret|].
  eapply sim_bind; [apply K; auto|]. intros R' _ _ I _. apply IH; [eapply Forall2_impl; eauto|].
  intros R2 x y I2 XY. apply K; [by eapply incl_trans|done].
Qed.
Lemma sim_each (R : rel) (f g : loc -> M loc) l l' : Forall2 R l l' ->
  (forall R' a b, incl_rel R R' -> R' a b -> sim R' (f a) (g b) L3) -> sim R (each f l) (each g l') LL3.
Proof.
  intros F. revert R l' F. induction l as [|a l IH]; intros R l' F K; inversion F as [|? b ? l2 X Y]; subst; cbn [each]; [apply sim_ret; constructor|].
  eapply sim_bind; [apply K; auto|]. intros R' x y I XY.
  eapply sim_bind; [apply IH; [eapply Forall2_impl; eauto|]|].
  { intros R2 u v I2 UV. apply K; [by eapply incl_trans|done]. }
  intros R2 xs ys I2 XS. apply sim_ret. constructor; [by apply I2|done].
Qed.

Ltac node H := destruct H as (?Hi & ?Ha & ?Hc).
Ltac sget := eapply sim_bind; [apply sim_get; eauto|intros ?R' ?n1 ?n2 ?I ?N].

Section actions.
Context (sed : sed_engine).

Lemma sim_comments (R : rel) o o' n n' v : R o o' -> R n n' -> sim R (h_merge_comments sed o n v) (h_merge_comments sed o' n' v) T3.
Proof.
  intros O N. unfold h_merge_comments. eapply sim_bind; [by apply sim_get|]. intros R1 a a' I1 (-> & _).
  eapply sim_bind; [apply sim_get; auto|]. intros R2 b b' I2 (-> & _). apply sim_put_info. auto.
Qed.
Lemma sim_scalar (R : rel) o o' n n' v : R o o' -> R n n' -> sim R (h_merge_scalar sed o n v) (h_merge_scalar sed o' n' v) T3.
Proof.
  intros O N. unfold h_merge_scalar. eapply sim_bind; [by apply sim_get|]. intros R1 a a' I1 (EA & _).
  eapply sim_bind; [apply sim_comments; auto|]. intros R2 _ _ I2 _.
  eapply sim_bind; [apply sim_get; auto|]. intros R3 b b' I3 (EB & AB & CB).
  eapply sim_bind; [apply sim_get; auto|]. intros R4 c c' I4 (EC & _). rewrite EA, EB, EC.
  destruct (kind_eqb _ _); [apply sim_put_info; auto|]. apply sim_put; [auto|]. split; [done|]. split; [|done]. cbn.
  destruct (n_alias b), (n_alias b'); cbn in *; auto.
Qed.
Lemma sim_copy_fields fuel : forall (R : rel) l l', R l l' -> sim R (h_copy_fields fuel l) (h_copy_fields fuel l') node_rel.
Proof.
  induction fuel as [|f IH]; intros R l l' H; cbn [h_copy_fields]; [apply sim_stuck|].
  eapply sim_bind; [by apply sim_get|]. intros R1 n n' I1 (EI & EA & EC).
  eapply (sim_bind _ _ _ _ _ (fun R => opt_rel R)).
  { destruct (n_alias n) as [a|], (n_alias n') as [a'|]; cbn in EA; try done; [|by apply sim_ret].
    eapply sim_bind; [by apply IH|]. intros R2 x x' I2 X. eapply sim_bind; [by apply sim_alloc|]. intros R3 y y' I3 Y. by apply sim_ret. }
  intros R2 al al' I2 AL. eapply (sim_bind _ _ _ _ _ OL3).
  { destruct (n_content n) as [ls|], (n_content n') as [ls'|]; cbn in EC; try done; [|by apply sim_ret].
    eapply sim_bind.
    - apply sim_each; [eapply Forall2_impl; eauto|]. intros R3 a b I3 AB. eapply sim_bind; [by apply IH|]. intros R4 x x' I4 X. by apply sim_alloc.
    - intros R3 xs ys I3 XS. by apply sim_ret. }
  intros R3 c c' I3 C. apply sim_ret. split; [done|]. cbn. split; [|done]. destruct al, al'; cbn in *; auto.
Qed.
Lemma sim_copy fuel (R : rel) l l' : R l l' -> sim R (h_copy fuel l) (h_copy fuel l') L3.
Proof. intros H. eapply sim_bind; [by apply sim_copy_fields|]. intros R1 x x' I X. by apply sim_alloc. Qed.

Lemma sim_sanitize fuel : forall (R : rel) l l', R l l' -> sim R (h_sanitize fuel sed l) (h_sanitize fuel sed l') T3.
Proof.
  induction fuel as [|f IH]; intros R l l' H; cbn [h_sanitize]; [apply sim_stuck|].
  eapply sim_bind; [by apply sim_get|]. intros R1 n n' I1 (EI & _ & EC). rewrite EI.
  eapply (sim_bind _ _ _ _ _ T3).
  { assert (X : sim R1 (match n_content n with None => ret tt | Some ls => loop (h_sanitize f sed) ls end)
        (match n_content n' with None => ret tt | Some ls => loop (h_sanitize f sed) ls end) T3).
    { destruct (n_content n) as [ls|], (n_content n') as [ls'|]; cbn in EC; try done; [|by apply sim_ret].
      apply sim_loop; [done|]. intros R2 a b I2 AB. by apply IH. }
    destruct (i_kind (n_info n')); try exact X; by apply sim_ret. }
  intros R2 _ _ I2 _. eapply sim_bind; [apply sim_get; auto|]. intros R3 k k' I3 (-> & _). apply sim_put_info. auto.
Qed.
Lemma append_slice_rel (R : rel) c c' l l' : opt_rel (Forall2 R) c c' -> Forall2 R l l' -> opt_rel (Forall2 R) (append_slice c l) (append_slice c' l').
Proof.
  intros C L. destruct c, c'; cbn in C; try done; unfold append_slice; destruct L; cbn; auto using Forall2_app.
Qed.
Lemma sim_add_node fuel (R : rel) o o' l l' : R o o' -> Forall2 R l l' -> sim R (h_add_node fuel sed o l) (h_add_node fuel sed o' l') T3.
Proof.
  intros H L. unfold h_add_node.
  eapply sim_bind; [apply sim_each; [exact L|]; intros R1 a b I AB; by apply sim_copy|]. intros R1 t t' I1 TT. unfold LL3 in TT.
  eapply sim_bind; [apply sim_loop; [exact TT|]; intros R2 a b I AB; by apply sim_sanitize|]. intros R2 _ _ I2 _.
  eapply sim_bind; [apply sim_get; auto|]. intros R3 n n' I3 (_ & _ & C). apply sim_put_content; [auto|].
  apply append_slice_rel; [done|]. eapply Forall2_impl; [exact TT|]. auto.
Qed.
Lemma sim_to_kind k tag (R : rel) o o' : R o o' -> sim R (h_to_kind k tag o) (h_to_kind k tag o') T3.
Proof.
  intros H. unfold h_to_kind. eapply sim_bind; [by apply sim_get|]. intros R1 n n' I1 (-> & A & _).
  destruct (kind_eqb _ _); [by apply sim_ret|]. apply sim_put; [auto|]. split; [done|]. split; [done|]. cbn. constructor.
Qed.
Lemma sim_array fuel (R : rel) o o' n n' : R o o' -> R n n' -> sim R (h_merge_array fuel sed o n) (h_merge_array fuel sed o' n') T3.
Proof.
  intros O N. unfold h_merge_array. eapply sim_bind; [by apply sim_to_kind|]. intros R1 _ _ I1 _.
  eapply sim_bind; [apply sim_get; auto|]. intros R2 a a' I2 (_ & _ & C).
  destruct (n_content a) as [l|], (n_content a') as [l'|]; cbn in C; try done; [|by apply sim_ret].
  eapply sim_bind; [apply sim_get; auto|]. intros R3 b b' I3 (-> & _).
  eapply sim_bind; [apply sim_comments; auto|]. intros R4 _ _ I4 _. apply sim_add_node; [auto|].
  eapply Forall2_impl; [exact C|]. auto.
Qed.
Lemma sim_entries (f g : loc -> list N -> M unit) (R : rel) nk nk' :
  (forall R' a b k, incl_rel R R' -> R' a b -> sim R' (f a k) (g b k) T3) ->
  forall n oc oc', length oc <= n -> forall R1, incl_rel R R1 -> R1 nk nk' -> Forall2 R1 oc oc' ->
  sim R1 (h_merge_entries sed f nk oc) (h_merge_entries sed g nk' oc') E3.
Proof.
  intros K. induction n as [|n IH]; intros oc oc' L R1 I1 NK F.
  { destruct oc; [|cbn in L; lia]. inversion F. by apply sim_ret. }
  inversion F as [|ok ok' oc1 oc1' K1 F1]; [by apply sim_ret|]; subst.
  inversion F1 as [|ov ov' oc2 oc2' V1 F2]; [by apply sim_ret|]; subst. cbn [h_merge_entries]. cbn in L.
  eapply sim_bind; [apply sim_get; auto|]. intros R2 a a' I2 (EA & _).
  eapply sim_bind; [apply sim_get; auto|]. intros R3 b b' I3 (EB & _). rewrite EA, EB.
  assert (I13 : incl_rel R1 R3) by (by eapply incl_trans).
  assert (REST : forall R4, incl_rel R3 R4 -> sim R4 (h_merge_entries sed f nk oc2) (h_merge_entries sed g nk' oc2') E3).
  { intros R4 I4. apply IH; [lia| | |].
    - intros x y H. auto.
    - auto.
    - eapply Forall2_impl; [exact F2|]. auto. }
  destruct (_ || _); [|by apply REST].
  eapply sim_bind; [apply sim_get; auto|]. intros R4 c c' I4 (EC & _). rewrite EC.
  eapply sim_bind; [apply sim_comments; auto|]. intros R5 _ _ I5 _.
  eapply sim_bind; [apply K; [intros x y H; auto|auto]|]. intros R6 _ _ I6 _.
  destruct (check_for_markers _); [|by apply sim_ret].
  eapply sim_bind; [apply sim_scalar; auto|]. intros R7 _ _ I7 _.
  eapply sim_bind; [apply REST; intros x y H; auto|]. intros R8 x y I8 _. by apply sim_ret.
Qed.
Lemma sim_pair fuel (f g : loc -> list N -> M unit) (R : rel) nk nk' nv nv' o o' :
  (forall R' a b k, incl_rel R R' -> R' a b -> sim R' (f a k) (g b k) T3) ->
  R nk nk' -> R nv nv' -> R o o' -> sim R (h_merge_pair fuel sed f nk nv o) (h_merge_pair fuel sed g nk' nv' o') T3.
Proof.
  intros K NK NV O. unfold h_merge_pair. eapply sim_bind; [by apply sim_to_kind|]. intros R1 _ _ I1 _.
  eapply sim_bind; [apply sim_get; auto|]. intros R2 a a' I2 (_ & _ & C).
  eapply (sim_bind _ _ _ _ _ E3).
  { destruct (n_content a) as [l|], (n_content a') as [l'|]; cbn in C; try done; [|by apply sim_ret].
    eapply (sim_entries f g R); [exact K|done|by eapply incl_trans|auto|done]. }
  intros R3 x y I3 ->. destruct y; [by apply sim_ret|]. apply sim_add_node; [auto|]. constructor; [auto|]. constructor; [auto|constructor].
Qed.
Lemma sim_pairs fuel (m m' : loc -> loc -> list N -> M unit) (R : rel) :
  (forall R' a b c d k, incl_rel R R' -> R' a b -> R' c d -> sim R' (m a c k) (m' b d k) T3) ->
  forall n ps ps', length ps <= n -> forall R1 o o', incl_rel R R1 -> R1 o o' -> Forall2 R1 ps ps' ->
  sim R1 (h_merge_pairs fuel sed m o ps) (h_merge_pairs fuel sed m' o' ps') T3.
Proof.
  intros K. induction n as [|n IH]; intros ps ps' L R1 o o' I1 O F.
  { destruct ps; [|cbn in L; lia]. inversion F. by apply sim_ret. }
  inversion F as [|nk nk' ps1 ps1' K1 F1]; [by apply sim_ret|]; subst.
  inversion F1 as [|nv nv' ps2 ps2' V1 F2]; [by apply sim_ret|]; subst. cbn [h_merge_pairs]. cbn in L.
  eapply sim_bind; [apply sim_pair; auto|].
  - intros R2 a b k I2 AB. apply K; [by eapply incl_trans|done|auto].
  - intros R2 _ _ I2 _. apply IH; [lia|by eapply incl_trans|auto|]. eapply Forall2_impl; [exact F2|]. auto.
Qed.
Lemma sim_merge fuel : forall (R : rel) o o' n n' ks, R o o' -> R n n' -> sim R (h_merge fuel sed o n ks) (h_merge fuel sed o' n' ks) T3.
Proof.
  induction fuel as [|f IH]; intros R o o' n n' ks O N; cbn [h_merge]; [apply sim_stuck|].
  eapply sim_bind; [by apply sim_get|]. intros R1 a a' I1 (-> & _ & C).
  destruct (i_kind (n_info a')).
  - eapply sim_bind; [apply sim_get; auto|]. intros R2 b b' I2 (-> & _). apply sim_put_info; auto.
  - eapply sim_bind; [apply sim_get; auto|]. intros R2 b b' I2 (EB & _ & CB).
    destruct (n_content b) as [oc|], (n_content b') as [oc'|]; cbn in CB; try done; [|by apply sim_ret].
    destruct (n_content a) as [nl|], (n_content a') as [nl'|]; cbn in C; try done; [|by apply sim_ret].
    rewrite EB. eapply sim_bind; [apply sim_comments; auto|]. intros R3 _ _ I3 _.
    destruct CB as [|o1 o1' oc oc' O1 CB]; [apply sim_crash|]. destruct C as [|n1 n1' nl nl' N1 C]; [apply sim_crash|]. apply IH; auto.
  - apply sim_array; auto.
  - destruct (n_content a) as [nl|], (n_content a') as [nl'|]; cbn in C; try done; [|by apply sim_ret].
    eapply (sim_pairs f _ _ R1); [|done|auto|auto|done]. intros R2 x y c d k I2 XY CD. apply IH; auto.
  - eapply sim_bind; [apply sim_scalar; auto|]. intros R2 _ _ I2 _.
    eapply sim_bind; [apply sim_get; auto|]. intros R3 b b' I3 (-> & _). apply sim_put_info; auto.
  - apply sim_fail.
Qed.
Lemma sim_merge_node fuel (R : rel) o o' ns ns' : R o o' -> Forall2 R ns ns' -> sim R (h_merge_node fuel sed o ns) (h_merge_node fuel sed o' ns') T3.
Proof. intros O N. apply sim_loop; [done|]. intros R1 a b I AB. apply sim_merge; auto. Qed.
Lemma sim_replace fuel (R : rel) o o' n n' : R o o' -> R n n' -> sim R (h_replace_node fuel sed o n) (h_replace_node fuel sed o' n') T3.
Proof.
  intros O N. unfold h_replace_node. eapply sim_bind; [by apply sim_get|]. intros R1 a a' I1 (EA & _).
  eapply sim_bind; [apply sim_copy_fields; auto|]. intros R2 c c' I2 NC.
  eapply sim_bind; [apply sim_put; [auto|exact NC]|]. intros R3 _ _ I3 _. destruct NC as (EC & _). rewrite EA, EC. apply sim_put_info. auto.
Qed.
Lemma sim_combine (R : rel) o o' n n' : R o o' -> R n n' -> sim R (h_combine_node sed o n) (h_combine_node sed o' n') T3.
Proof.
  intros O N. unfold h_combine_node. eapply sim_bind; [by apply sim_get|]. intros R1 a a' I1 (EA & _).
  eapply sim_bind; [apply sim_get; auto|]. intros R2 b b' I2 (EB & _). rewrite EA, EB.
  destruct (_ || _); [apply sim_fail|].
  eapply sim_bind; [apply sim_comments; auto|]. intros R3 _ _ I3 _.
  eapply sim_bind; [apply sim_get; auto|]. intros R4 c c' I4 (EC & _). rewrite EC.
  assert (O4 : R4 o o') by auto.
  repeat match goal with
  | |- sim _ (if ?b then _ else _) _ _ => destruct b
  | |- sim _ (match ?b with _ => _ end) _ _ => destruct b
  | |- sim _ (fail _) _ _ => apply sim_fail
  | |- sim _ (put_info _ _) _ _ => by apply sim_put_info
  end.
Qed.
End actions.

Lemma cut_rel (R : rel) k c c' i : Forall2 R c c' -> opt_rel (Forall2 R) (cut k c i) (cut k c' i).
Proof.
  intros F. unfold cut. rewrite (Forall2_length _ _ _ F). destruct (Nat.ltb _ _); [done|]. cbn.
  apply Forall2_app; [by apply Forall2_take|by apply Forall2_drop].
Qed.
Lemma sim_delete fuel : forall (R : rel) pn pn' c c', R pn pn' -> R c c' -> sim R (h_delete fuel pn c) (h_delete fuel pn' c') T3.
Proof.
  induction fuel as [|f IH]; intros R pn pn' c c' P C; cbn [h_delete]; [apply sim_stuck|].
  eapply sim_bind; [by apply sim_get|]. intros R1 a a' I1 (-> & _ & CO).
  destruct (n_content a) as [l|], (n_content a') as [l'|]; cbn in CO; try done; [|by apply sim_ret].
  assert (X : forall cs cs' i R2, incl_rel R1 R2 -> Forall2 R2 cs cs' ->
     sim R2 (h_scan (fun x => h_delete f x c) pn c (i_kind (n_info a')) l i cs)
       (h_scan (fun x => h_delete f x c') pn' c' (i_kind (n_info a')) l' i cs') T3); [|by apply X].
  induction cs as [|x cs IHc]; intros cs' i R2 I2 F; inversion F as [|? y ? cs2 XY F2]; subst; cbn [h_scan]; [by apply sim_ret|].
  assert (C2 : R2 c c') by auto. apply sim_bij. intros B.
  assert (E : Nat.eqb x c = Nat.eqb y c').
  { specialize (B x y c c' XY C2). destruct (Nat.eqb_spec x c), (Nat.eqb_spec y c'); tauto. }
  rewrite E. destruct (Nat.eqb y c').
  - pose proof (cut_rel R2 (i_kind (n_info a')) l l' i) as CR.
    assert (L2 : Forall2 R2 l l') by (eapply Forall2_impl; [exact CO|]; auto). specialize (CR L2).
    destruct (cut _ l i), (cut _ l' i); cbn in CR; try done; [|apply sim_crash]. apply sim_put_content; auto.
  - eapply sim_bind; [by apply sim_get|]. intros R3 b b' I3 (_ & _ & CB). eapply (sim_bind _ _ _ _ _ T3).
    + destruct (n_content b), (n_content b'); cbn in CB; try done; [|by apply sim_ret]. apply IH; auto.
    + intros R4 _ _ I4 _. apply IHc; [intros u v H; auto|]. eapply Forall2_impl; [exact F2|]. auto.
Qed.

Lemma sim_halloc t : forall (R : rel), sim R (h_alloc t) (h_alloc t) L3.
Proof.
  induction t as [i|i l IH] using tree_ind'; intros R; cbn [h_alloc].
  - apply sim_alloc. split; [done|]. done.
  - eapply (sim_bind _ _ _ _ _ LL3).
    + revert R. induction IH as [|t l Ht _ IHl]; intros R; [apply sim_ret; constructor|].
      eapply sim_bind; [apply Ht|]. intros R1 a b I1 AB. eapply sim_bind; [apply IHl|]. intros R2 x y I2 XY. apply sim_ret.
      constructor; [by apply I2|done].
    + intros R1 x y I1 XY. apply sim_alloc. split; [done|]. done.
Qed.

Lemma sim_find (R : rel) qs a b : Forall finder_blind qs -> R a b -> sim R (h_find qs a) (h_find qs b) LL3.
Proof.
  intros F H. unfold h_find. eapply sim_bind; [by apply sim_get|]. intros R1 n n' I1 (-> & _ & C).
  assert (E : match n_content n with None | Some [] => true | _ => false end = match n_content n' with None | Some [] => true | _ => false end).
  { destruct (n_content n) as [l|], (n_content n') as [l'|]; cbn in C; try done. by destruct C. }
  rewrite E. destruct (_ && _); [apply sim_ret; constructor|].
  intros h1 h2 S. exists R1. cbn [fst snd res_rel]. repeat (split; [auto|]). unfold LL3.
  induction F as [|q qs Q _ IH]; cbn [map concat]; [constructor|]. apply Forall2_app; [|done]. apply Q; auto.
Qed.

Lemma zero_rel (R : rel) n n' : node_rel R n n' -> node_is_zero n = node_is_zero n'.
Proof.
  intros (EI & A & C). unfold node_is_zero. rewrite EI.
  assert (match n_alias n with None => true | _ => false end = match n_alias n' with None => true | _ => false end) as ->
    by (destruct (n_alias n), (n_alias n'); done).
  assert (match n_content n with None => true | _ => false end = match n_content n' with None => true | _ => false end) as ->
    by (destruct (n_content n), (n_content n'); done).
  done.
Qed.

Lemma sim_equal fuel : forall (R : rel) a a' b b', R a a' -> R b b' -> sim R (h_equal fuel a b) (h_equal fuel a' b') E3.
Proof.
  induction fuel as [|f IH]; intros R a a' b b' A B; cbn [h_equal]; [apply sim_stuck|].
  eapply sim_bind; [by apply sim_get|]. intros R1 na na' I1 (EA & AA & CA).
  eapply sim_bind; [apply sim_get; auto|]. intros R2 nb nb' I2 (EB & AB & CB). rewrite EA, EB.
  destruct (negb _); [by apply sim_ret|]. eapply (sim_bind _ _ _ _ _ E3).
  { destruct (n_alias na), (n_alias na'); cbn in AA; try done; destruct (n_alias nb), (n_alias nb'); cbn in AB; try done; try by apply sim_ret.
    apply IH; auto. }
  intros R3 x y I3 ->. destruct (negb y); [by apply sim_ret|].
  destruct (n_content na) as [la|], (n_content na') as [la'|]; cbn in CA; try done;
    destruct (n_content nb) as [lb|], (n_content nb') as [lb'|]; cbn in CB; try done; try by apply sim_ret.
  assert (CA3 : Forall2 R3 la la') by (eapply Forall2_impl; [exact CA|]; auto).
  assert (CB3 : Forall2 R3 lb lb') by (eapply Forall2_impl; [exact CB|]; auto).
  clear CA CB I1 I2 I3 A B AA AB EA EB. revert R3 lb lb' CA3 CB3. revert la'.
  induction la as [|u la IHl]; intros la' R3 lb lb' CA CB; inversion CA; subst; inversion CB; subst; try by apply sim_ret.
  eapply sim_bind; [by apply IH|]. intros R4 p q I4 ->. destruct q; [|by apply sim_ret].
  apply IHl; eapply Forall2_impl; eauto.
Qed.
Lemma sim_all_equal fuel rs : forall (R : rel) rs' v v', Forall2 R rs rs' -> R v v' -> sim R (h_all_equal fuel rs v) (h_all_equal fuel rs' v') E3.
Proof.
  induction rs as [|r rs IH]; intros R rs' v v' F V; inversion F; subst; cbn [h_all_equal]; [by apply sim_ret|].
  eapply sim_bind; [by apply sim_equal|]. intros R1 p q I1 ->. destruct q; [|by apply sim_ret]. apply IH; [|auto]. eapply Forall2_impl; eauto.
Qed.

(** Conditions whose value nodes correspond to themselves. *)
Definition cond_ok (R : rel) (c : condition) : Prop := Forall finder_blind (c_queries c) /\ R (c_value c) (c_value c).
Lemma cond_ok_mono (R R' : rel) c : incl_rel R R' -> cond_ok R c -> cond_ok R' c.
Proof. intros I [A B]. split; auto. Qed.
Lemma sim_condition fuel (R : rel) c a b : cond_ok R c -> R a b -> sim R (h_condition fuel c a) (h_condition fuel c b) E3.
Proof.
  intros [Q V] H. unfold h_condition. eapply sim_bind; [by apply sim_find|]. intros R1 rs rs' I1 RS. unfold LL3 in RS.
  destruct RS as [|r r' rs rs' X RS]; [by apply sim_ret|]. eapply sim_bind; [apply sim_get; auto|]. intros R2 v v' I2 N.
  rewrite (zero_rel _ _ _ N). destruct (node_is_zero v'); [by apply sim_ret|]. apply sim_all_equal; [|auto].
  eapply Forall2_impl; [constructor; eauto|]. auto.
Qed.
Lemma sim_check_query fuel cs : forall (R : rel) a b, Forall (cond_ok R) cs -> R a b -> sim R (h_check_query fuel cs a) (h_check_query fuel cs b) E3.
Proof.
  induction cs as [|c cs IH]; intros R a b F H; cbn [h_check_query]; [by apply sim_ret|]. apply Forall_cons in F as [F1 F].
  eapply sim_bind; [by apply sim_condition|]. intros R1 p q I1 ->. destruct q; [|by apply sim_ret]. apply IH; [|auto].
  eapply Forall_impl; [exact F|]. intros c'. by apply cond_ok_mono.
Qed.
Lemma sim_check fuel dq (R : rel) a b : Forall (Forall (cond_ok R)) dq -> R a b -> sim R (h_check_queries fuel dq a) (h_check_queries fuel dq b) E3.
Proof.
  intros F H. assert (X : sim R (h_check_any fuel dq a) (h_check_any fuel dq b) E3); [|destruct dq; [by apply sim_ret|exact X]].
  revert R F H. induction dq as [|g dq IH]; intros R F H; cbn [h_check_any]; [by apply sim_ret|]. apply Forall_cons in F as [F1 F].
  eapply sim_bind; [by apply sim_check_query|]. intros R1 p q I1 ->. destruct q; [by apply sim_ret|]. apply IH; [|auto].
  eapply Forall_impl; [exact F|]. intros cs FC. eapply Forall_impl; [exact FC|]. intros c'. by apply cond_ok_mono.
Qed.

Lemma sim_act fuel sed a (R : rel) v v' r r' n n' : R v v' -> R r r' -> R n n' -> sim R (h_act fuel sed a v r n) (h_act fuel sed a v' r' n') T3.
Proof.
  intros V O N. destruct a; cbn [h_act]; [apply sim_merge_node|apply sim_merge_node|apply sim_replace|apply sim_delete|apply sim_combine]; auto.
Qed.
Lemma sim_inject fuel sed ip (R : rel) v v' a b : Forall finder_blind ip -> R v v' -> R a b -> sim R (h_inject fuel sed ip v a) (h_inject fuel sed ip v' b) T3.
Proof.
  intros F V H. unfold h_inject. destruct (build_all _) as [ts|e| |]; [|apply sim_fail|apply sim_crash|apply sim_stuck].
  destruct (build_paths sed ts) as [y|e| |]; [|apply sim_crash|apply sim_crash|apply sim_stuck].
  eapply sim_bind; [apply sim_halloc|]. intros R1 x x' I1 X.
  eapply sim_bind; [apply sim_merge_node; [auto|constructor; [exact X|constructor]]|]. intros R2 _ _ I2 _.
  eapply sim_bind; [apply sim_find; auto|]. intros R3 rs rs' I3 RS. apply sim_loop; [exact RS|].
  intros R4 p q I4 PQ. apply sim_replace; auto.
Qed.

(** What an overlay needs for its effect to be independent of addresses: blind
    finders, and values that correspond to themselves. *)
Record overlay_ok (R : rel) (o : overlay) : Prop := mkOverlayOk {
  ok_queries : Forall finder_blind (o_queries o);
  ok_inject : forall ip, o_inject o = Some ip -> Forall finder_blind ip;
  ok_docs : Forall (Forall (cond_ok R)) (o_docqueries o);
  ok_value : R (o_value o) (o_value o) }.
Lemma overlay_ok_mono (R R' : rel) o : incl_rel R R' -> overlay_ok R o -> overlay_ok R' o.
Proof.
  intros I [A B C D]. constructor; auto. eapply Forall_impl; [exact C|]. intros cs FC. eapply Forall_impl; [exact FC|]. intros c'. by apply cond_ok_mono.
Qed.

Definition apply_m (fuel : nat) (sed : sed_engine) (dflt : list N) (o : overlay) (node : loc) : M unit :=
  fun h => (fst (fst (apply fuel sed dflt o node h)), snd (apply fuel sed dflt o node h)).

(** Apply as a computation on the heap. *)
Lemma apply_m_eq fuel sed dflt o node h :
  apply_m fuel sed dflt o node h =
  (do! ok := h_check_queries fuel (o_docqueries o) node in
   if ok : bool then
     do! ns := h_find (o_queries o) node in
     match ns with
     | [] => h_on_missing fuel sed (resolve_missing dflt o) node
     | _ => h_do_action fuel sed (o_action o) (o_value o) node ns
     end
   else ret tt) h.
Proof.
  unfold apply_m, apply, bind. destruct (h_check_queries fuel (o_docqueries o) node h) as [h1 [[]|e| |]]; try done.
  destruct (h_find (o_queries o) node h1) as [h2 [[|x xs]|e| |]]; try done.
  - by destruct (h_on_missing fuel sed (resolve_missing dflt o) node h2).
  - by destruct (h_do_action fuel sed (o_action o) (o_value o) node (x :: xs) h2).
Qed.

Lemma resolve_fields dflt o : let o' := resolve_missing dflt o in
  o_queries o' = o_queries o /\ o_value o' = o_value o /\ o_action o' = o_action o /\ o_docqueries o' = o_docqueries o /\
  o_inject o' = o_inject o /\ o_index o' = o_index o.
Proof. unfold resolve_missing. destruct (o_missing o); try done. by destruct (equal_fold _ _). Qed.

Lemma sim_apply fuel sed dflt (R : rel) o1 o2 a b :
  resolve_missing dflt o1 = resolve_missing dflt o2 -> overlay_ok R o1 -> R a b ->
  sim R (apply_m fuel sed dflt o1 a) (apply_m fuel sed dflt o2 b) T3.
Proof.
  intros E OK H.
  destruct (resolve_fields dflt o1) as (Q1 & V1 & A1 & D1 & J1 & X1). destruct (resolve_fields dflt o2) as (Q2 & V2 & A2 & D2 & J2 & X2).
  rewrite <- E in Q2, V2, A2, D2, J2, X2.
  intros h1 h2 S. rewrite !apply_m_eq.
  rewrite <- D1, <- Q1, <- A1, <- V1, <- Q2, <- D2, <- V2, <- A2, <- E. rewrite D1, Q1, A1, V1.
  destruct OK as [OQ OI OD OV].
  revert h1 h2 S. change (sim R
    (do! ok := h_check_queries fuel (o_docqueries o1) a in
     if ok : bool then do! ns := h_find (o_queries o1) a in
       match ns with [] => h_on_missing fuel sed (resolve_missing dflt o1) a | _ => h_do_action fuel sed (o_action o1) (o_value o1) a ns end
     else ret tt)
    (do! ok := h_check_queries fuel (o_docqueries o1) b in
     if ok : bool then do! ns := h_find (o_queries o1) b in
       match ns with [] => h_on_missing fuel sed (resolve_missing dflt o1) b | _ => h_do_action fuel sed (o_action o1) (o_value o1) b ns end
     else ret tt) T3).
  eapply sim_bind; [by apply sim_check|]. intros R1 p q I1 ->. destruct q; [|by apply sim_ret].
  eapply sim_bind; [apply sim_find; auto|]. intros R2 ns ns' I2 NS. destruct NS as [|x x' ns ns' XX NS].
  - unfold h_on_missing. destruct (o_missing _); [by apply sim_ret|by apply sim_ret|].
    unfold h_handle_inject. rewrite Q1, V1, J1.
    assert (IA : R2 a b) by auto. assert (IV : R2 (o_value o1) (o_value o1)) by auto.
    destruct (build_all _) as [ts|[]| |]; try apply sim_fail; try apply sim_crash; try apply sim_stuck; [by apply sim_inject|].
    destruct (o_inject o1) as [ip|]; [|by apply sim_ret]. apply sim_inject; auto.
  - apply sim_loop; [by constructor|]. intros R3 y y' I3 Y. apply sim_act; auto.
Qed.

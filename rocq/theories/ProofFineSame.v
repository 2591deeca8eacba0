(** Every piece of code of Fine.v, run operation by operation on two memories that
    look the same, does corresponding things.  The nodes are of two kinds: those of
    the file at hand, which may be written, related by [R]; and those of overlay
    values, which are only read, related by [Rs]. *)
From Verif Require Import Prelude GoStrings Format Yaml Heap MergeTree Combine HeapActions Builder ActionNames Overlay SpecSame ProofSame Fine.

Section simulation.
(** The correspondence of the nodes that are only read; the table of overlays at
    the start and the default action. *)
Context (Rs : nat -> nat -> Prop) (os : list overlay) (dflt : list N).

Definition bij (R : nat -> nat -> Prop) : Prop := forall a b a' b', R a b -> R a' b' -> (a = a' <-> b = b').
(** What entry [k] of the table can be during the run. *)
Definition entry (k : nat) (o : overlay) : Prop := exists oo, os !! k = Some oo /\ resolve_missing dflt o = resolve_missing dflt oo.

Inductive psim {A B} (Q : (nat -> nat -> Prop) -> A -> B -> Prop) : (nat -> nat -> Prop) -> prog A -> prog B -> Prop :=
  | psim_done R x y : res_rel (Q R) x y -> psim Q R (Done x) (Done y)
  | psim_own (R : nat -> nat -> Prop) a b f g : R a b -> (forall n1 n2, node_rel R n1 n2 -> psim Q R (f n1) (g n2)) -> psim Q R (Get a f) (Get b g)
  | psim_shared (R : nat -> nat -> Prop) a b f g : Rs a b -> (forall n1 n2, node_rel Rs n1 n2 -> psim Q R (f n1) (g n2)) -> psim Q R (Get a f) (Get b g)
  | psim_put (R : nat -> nat -> Prop) a b n1 n2 p q : R a b -> node_rel R n1 n2 -> psim Q R p q -> psim Q R (Put a n1 p) (Put b n2 q)
  | psim_alloc (R : nat -> nat -> Prop) n1 n2 f g : node_rel R n1 n2 ->
      (forall (R' : nat -> nat -> Prop) a b, incl_rel R R' -> R' a b -> psim Q R' (f a) (g b)) -> psim Q R (Alloc n1 f) (Alloc n2 g)
  | psim_look (R : nat -> nat -> Prop) q a b f g : finder_blind q -> R a b ->
      (forall l l', Forall2 R l l' -> psim Q R (f l) (g l')) -> psim Q R (Look q a f) (Look q b g)
  | psim_bij R p q : (bij R -> psim Q R p q) -> psim Q R p q
  | psim_read (R : nat -> nat -> Prop) k f g : (forall o1 o2, entry k o1 -> entry k o2 -> psim Q R (f o1) (g o2)) -> psim Q R (Read k f) (Read k g)
  | psim_settle (R : nat -> nat -> Prop) k f g :
      (forall o, os !! k = Some o -> psim Q R (f (resolve_missing dflt o)) (g (resolve_missing dflt o))) ->
      psim Q R (Settle (equal_fold dflt (lit "inject")) k (Read k f)) (Settle (equal_fold dflt (lit "inject")) k (Read k g)).

Local Notation psm R p q Q := (psim Q R p q).
Definition any (R : nat -> nat -> Prop) (a b : nat) : Prop := R a b \/ Rs a b.
Lemma any_mono (R R' : nat -> nat -> Prop) a b : incl_rel R R' -> any R a b -> any R' a b.
Proof. intros I [H|H]; [left; auto|by right]. Qed.
Lemma any_own (R : nat -> nat -> Prop) a b : R a b -> any R a b.
Proof. by left. Qed.
Local Hint Extern 1 (any _ _ _) => (eapply any_mono; [eassumption|]) : core.
Local Hint Resolve any_own : core.

Lemma ps_ret {A B} (R : nat -> nat -> Prop) (a : A) (b : B) (Q : (nat -> nat -> Prop) -> A -> B -> Prop) : Q R a b -> psm R (pret a) (pret b) Q.
Proof. intros H. by constructor. Qed.
Lemma ps_fail {A B} (R : nat -> nat -> Prop) e (Q : (nat -> nat -> Prop) -> A -> B -> Prop) : psm R (pfail e) (pfail e) Q.
Proof. by constructor. Qed.
Lemma ps_crash {A B} (R : nat -> nat -> Prop) (Q : (nat -> nat -> Prop) -> A -> B -> Prop) : psm R pcrash pcrash Q.
Proof. by constructor. Qed.
Lemma ps_stuck {A B} (R : nat -> nat -> Prop) (Q : (nat -> nat -> Prop) -> A -> B -> Prop) : psm R pstuck pstuck Q.
Proof. by constructor. Qed.
Lemma ps_bind {A B C D} (R : nat -> nat -> Prop) (p : prog A) (q : prog B) (f : A -> prog C) (g : B -> prog D) P Q :
  psm R p q P -> (forall (R' : nat -> nat -> Prop) a b, incl_rel R R' -> P R' a b -> psm R' (f a) (g b) Q) -> psm R (pbind p f) (pbind q g) Q.
Proof.
  intros S. induction S as [R x y X|R a b k l AB _ IH|R a b k l AB _ IH|R a b n1 n2 p q AB N _ IH|R n1 n2 k l N _ IH|R u a b k l U AB _ IH|R p q _ IH|R k u v _ IH|R k u v _ IH]; intros K.
  - destruct x, y; cbn in X |- *; try done; [by apply K|subst; constructor|..]; by constructor.
  - apply psim_own; auto.
  - apply psim_shared; auto.
  - apply psim_put; auto.
  - apply psim_alloc; [done|]. intros R' a b I AB. apply IH; auto. intros R2 x y I2. apply K. by eapply incl_trans.
  - apply psim_look; auto.
  - apply psim_bij. auto.
  - apply psim_read; auto.
  - apply psim_settle; auto.
Qed.
Lemma ps_bij {A B} (R : nat -> nat -> Prop) (p : prog A) (q : prog B) Q : (bij R -> psm R p q Q) -> psm R p q Q.
Proof. apply psim_bij. Qed.
Lemma ps_get (R : nat -> nat -> Prop) a b : R a b -> psm R (pget a) (pget b) node_rel.
Proof. intros H. apply psim_own; [done|]. intros n1 n2 N. by constructor. Qed.
Lemma ps_get_any (R : nat -> nat -> Prop) a b : any R a b -> psm R (pget a) (pget b) (fun R => node_rel (any R)).
Proof.
  intros [H|H]; [apply psim_own|apply psim_shared]; try done; intros n1 n2 N; constructor; cbn; (eapply node_rel_mono; [|exact N]); intros x y; [by left|by right].
Qed.
Lemma ps_put (R : nat -> nat -> Prop) a b n1 n2 : R a b -> node_rel R n1 n2 -> psm R (pput a n1) (pput b n2) T3.
Proof. intros H N. apply psim_put; [done|done|]. by constructor. Qed.
Lemma ps_alloc (R : nat -> nat -> Prop) n1 n2 : node_rel R n1 n2 -> psm R (palloc n1) (palloc n2) L3.
Proof. intros N. apply psim_alloc; [done|]. intros R' a b I AB. by constructor. Qed.
Lemma ps_put_info (R : rel) a b i : R a b -> psm R (pput_info a i) (pput_info b i) T3.
Proof.
  intros H. eapply ps_bind; [by apply ps_get|]. intros R' n1 n2 I (_ & A & C). apply ps_put; [auto|].
  split; [done|]. split; done.
Qed.
Lemma ps_put_content (R : rel) a b c c' : R a b -> opt_rel (Forall2 R) c c' -> psm R (pput_content a c) (pput_content b c') T3.
Proof.
  intros H HC. eapply ps_bind; [by apply ps_get|]. intros R' n1 n2 I (E & A & _). apply ps_put; [auto|].
  split; [done|]. split; [done|]. cbn. destruct c, c'; cbn in *; auto. eapply Forall2_impl; eauto.
Qed.
Lemma ps_loop (R : rel) (f g : loc -> prog unit) l l' : Forall2 R l l' ->
  (forall R' a b, incl_rel R R' -> R' a b -> psm R' (f a) (g b) T3) -> psm R (ploop f l) (ploop g l') T3.
Proof.
  intros F. revert R l' F. induction l as [|a l IH]; intros R l' F K; inversion F as [|? b ? l2 X Y]; subst; cbn [ploop]; [by apply ps_ret|].
  eapply ps_bind; [apply K; auto|]. intros R' _ _ I _. apply IH; [eapply Forall2_impl; eauto|].
  intros R2 x y I2 XY. apply K; [by eapply incl_trans|done].
Qed.
Lemma ps_each (R : rel) (f g : loc -> prog loc) l l' : Forall2 R l l' ->
  (forall R' a b, incl_rel R R' -> R' a b -> psm R' (f a) (g b) L3) -> psm R (peach f l) (peach g l') LL3.
Proof.
  intros F. revert R l' F. induction l as [|a l IH]; intros R l' F K; inversion F as [|? b ? l2 X Y]; subst; cbn [peach]; [apply ps_ret; constructor|].
  eapply ps_bind; [apply K; auto|]. intros R' x y I XY.
  eapply ps_bind; [apply IH; [eapply Forall2_impl; eauto|]|].
  { intros R2 u v I2 UV. apply K; [by eapply incl_trans|done]. }
  intros R2 xs ys I2 XS. apply ps_ret. constructor; [by apply I2|done].
Qed.

Ltac node H := destruct H as (?Hi & ?Ha & ?Hc).
Ltac sget := eapply ps_bind; [apply ps_get; eauto|intros ?R' ?n1 ?n2 ?I ?N].

Lemma ps_loop_any (R : rel) (f g : loc -> prog unit) l l' : Forall2 (any R) l l' ->
  (forall R' a b, incl_rel R R' -> any R' a b -> psm R' (f a) (g b) T3) -> psm R (ploop f l) (ploop g l') T3.
Proof.
  intros F. revert R l' F. induction l as [|a l IH]; intros R l' F K; inversion F as [|? b ? l2 X Y]; subst; cbn [ploop]; [by apply ps_ret|].
  eapply ps_bind; [apply K; auto|]. intros R' _ _ I _. apply IH; [eapply Forall2_impl; [exact Y|]; auto|].
  intros R2 x y I2 XY. apply K; [by eapply incl_trans|done].
Qed.
Lemma ps_each_any (R : rel) (f g : loc -> prog loc) l l' : Forall2 (any R) l l' ->
  (forall R' a b, incl_rel R R' -> any R' a b -> psm R' (f a) (g b) L3) -> psm R (peach f l) (peach g l') LL3.
Proof.
  intros F. revert R l' F. induction l as [|a l IH]; intros R l' F K; inversion F as [|? b ? l2 X Y]; subst; cbn [peach]; [apply ps_ret; constructor|].
  eapply ps_bind; [apply K; auto|]. intros R' x y I XY.
  eapply ps_bind; [apply IH; [eapply Forall2_impl; [exact Y|]; auto|]|].
  { intros R2 u v I2 UV. apply K; [by eapply incl_trans|done]. }
  intros R2 xs ys I2 XS. apply ps_ret. constructor; [by apply I2|done].
Qed.

Section actions.
Context (sed : sed_engine).

Lemma ps_comments (R : rel) o o' n n' v : R o o' -> any R n n' -> psm R (p_merge_comments sed o n v) (p_merge_comments sed o' n' v) T3.
Proof.
  intros O N. unfold p_merge_comments. eapply ps_bind; [by apply ps_get|]. intros R1 a a' I1 (-> & _).
  eapply ps_bind; [apply ps_get_any; auto|]. intros R2 b b' I2 (-> & _). apply ps_put_info. auto.
Qed.
Lemma ps_scalar (R : rel) o o' n n' v : R o o' -> any R n n' -> psm R (p_merge_scalar sed o n v) (p_merge_scalar sed o' n' v) T3.
Proof.
  intros O N. unfold p_merge_scalar. eapply ps_bind; [by apply ps_get|]. intros R1 a a' I1 (EA & _).
  eapply ps_bind; [apply ps_comments; auto|]. intros R2 _ _ I2 _.
  eapply ps_bind; [apply ps_get; auto|]. intros R3 b b' I3 (EB & AB & CB).
  eapply ps_bind; [apply ps_get_any; auto|]. intros R4 c c' I4 (EC & _). rewrite EA, EB, EC.
  destruct (kind_eqb _ _); [apply ps_put_info; auto|]. apply ps_put; [auto|]. split; [done|]. split; [|done]. cbn.
  destruct (n_alias b), (n_alias b'); cbn in *; auto.
Qed.
Lemma ps_copy_fields fuel : forall (R : rel) l l', any R l l' -> psm R (p_copy_fields fuel l) (p_copy_fields fuel l') node_rel.
Proof.
  induction fuel as [|f IH]; intros R l l' H; cbn [p_copy_fields]; [apply ps_stuck|].
  eapply ps_bind; [by apply ps_get_any|]. intros R1 n n' I1 (EI & EA & EC).
  eapply (ps_bind _ _ _ _ _ (fun R => opt_rel R)).
  { destruct (n_alias n) as [a|], (n_alias n') as [a'|]; cbn in EA; try done; [|by apply ps_ret].
    eapply ps_bind; [by apply IH|]. intros R2 x x' I2 X. eapply ps_bind; [by apply ps_alloc|]. intros R3 y y' I3 Y. by apply ps_ret. }
  intros R2 al al' I2 AL. eapply (ps_bind _ _ _ _ _ OL3).
  { destruct (n_content n) as [ls|], (n_content n') as [ls'|]; cbn in EC; try done; [|by apply ps_ret].
    eapply ps_bind.
    - apply ps_each_any; [eapply Forall2_impl; [exact EC|]; auto|]. intros R3 a b I3 AB. eapply ps_bind; [by apply IH|]. intros R4 x x' I4 X. by apply ps_alloc.
    - intros R3 xs ys I3 XS. by apply ps_ret. }
  intros R3 c c' I3 C. apply ps_ret. split; [done|]. cbn. split; [|done]. destruct al, al'; cbn in *; auto.
Qed.
Lemma ps_copy fuel (R : rel) l l' : any R l l' -> psm R (p_copy fuel l) (p_copy fuel l') L3.
Proof. intros H. eapply ps_bind; [by apply ps_copy_fields|]. intros R1 x x' I X. by apply ps_alloc. Qed.

Lemma ps_sanitize fuel : forall (R : rel) l l', R l l' -> psm R (p_sanitize fuel sed l) (p_sanitize fuel sed l') T3.
Proof.
  induction fuel as [|f IH]; intros R l l' H; cbn [p_sanitize]; [apply ps_stuck|].
  eapply ps_bind; [by apply ps_get|]. intros R1 n n' I1 (EI & _ & EC). rewrite EI.
  eapply (ps_bind _ _ _ _ _ T3).
  { assert (X : psm R1 (match n_content n with None => pret tt | Some ls => ploop (p_sanitize f sed) ls end)
        (match n_content n' with None => pret tt | Some ls => ploop (p_sanitize f sed) ls end) T3).
    { destruct (n_content n) as [ls|], (n_content n') as [ls'|]; cbn in EC; try done; [|by apply ps_ret].
      apply ps_loop; [done|]. intros R2 a b I2 AB. by apply IH. }
    destruct (i_kind (n_info n')); try exact X; by apply ps_ret. }
  intros R2 _ _ I2 _. eapply ps_bind; [apply ps_get; auto|]. intros R3 k k' I3 (-> & _). apply ps_put_info. auto.
Qed.
Lemma ps_add_node fuel (R : rel) o o' l l' : R o o' -> Forall2 (any R) l l' -> psm R (p_add_node fuel sed o l) (p_add_node fuel sed o' l') T3.
Proof.
  intros H L. unfold p_add_node.
  eapply ps_bind; [apply ps_each_any; [exact L|]; intros R1 a b I AB; by apply ps_copy|]. intros R1 t t' I1 TT. unfold LL3 in TT.
  eapply ps_bind; [apply ps_loop; [exact TT|]; intros R2 a b I AB; by apply ps_sanitize|]. intros R2 _ _ I2 _.
  eapply ps_bind; [apply ps_get; auto|]. intros R3 n n' I3 (_ & _ & C). apply ps_put_content; [auto|].
  apply append_slice_rel; [done|]. eapply Forall2_impl; [exact TT|]. auto.
Qed.
Lemma ps_to_kind k tag (R : rel) o o' : R o o' -> psm R (p_to_kind k tag o) (p_to_kind k tag o') T3.
Proof.
  intros H. unfold p_to_kind. eapply ps_bind; [by apply ps_get|]. intros R1 n n' I1 (-> & A & _).
  destruct (kind_eqb _ _); [by apply ps_ret|]. apply ps_put; [auto|]. split; [done|]. split; [done|]. cbn. constructor.
Qed.
Lemma ps_array fuel (R : rel) o o' n n' : R o o' -> any R n n' -> psm R (p_merge_array fuel sed o n) (p_merge_array fuel sed o' n') T3.
Proof.
  intros O N. unfold p_merge_array. eapply ps_bind; [by apply ps_to_kind|]. intros R1 _ _ I1 _.
  eapply ps_bind; [apply ps_get_any; auto|]. intros R2 a a' I2 (_ & _ & C).
  destruct (n_content a) as [l|], (n_content a') as [l'|]; cbn in C; try done; [|by apply ps_ret].
  eapply ps_bind; [apply ps_get; auto|]. intros R3 b b' I3 (-> & _).
  eapply ps_bind; [apply ps_comments; auto|]. intros R4 _ _ I4 _. apply ps_add_node; [auto|].
  eapply Forall2_impl; [exact C|]. auto.
Qed.
Lemma ps_entries (f g : loc -> list N -> prog unit) (R : rel) nk nk' :
  (forall R' a b k, incl_rel R R' -> R' a b -> psm R' (f a k) (g b k) T3) ->
  forall n oc oc', length oc <= n -> forall R1, incl_rel R R1 -> any R1 nk nk' -> Forall2 R1 oc oc' ->
  psm R1 (p_merge_entries sed f nk oc) (p_merge_entries sed g nk' oc') E3.
Proof.
  intros K. induction n as [|n IH]; intros oc oc' L R1 I1 NK F.
  { destruct oc; [|cbn in L; lia]. inversion F. by apply ps_ret. }
  inversion F as [|ok ok' oc1 oc1' K1 F1]; [by apply ps_ret|]; subst.
  inversion F1 as [|ov ov' oc2 oc2' V1 F2]; [by apply ps_ret|]; subst. cbn [p_merge_entries]. cbn in L.
  eapply ps_bind; [apply ps_get_any; auto|]. intros R2 a a' I2 (EA & _).
  eapply ps_bind; [apply ps_get; auto|]. intros R3 b b' I3 (EB & _). rewrite EA, EB.
  assert (I13 : incl_rel R1 R3) by (by eapply incl_trans).
  assert (REST : forall R4, incl_rel R3 R4 -> psm R4 (p_merge_entries sed f nk oc2) (p_merge_entries sed g nk' oc2') E3).
  { intros R4 I4. apply IH; [lia| | |].
    - intros x y H. auto.
    - auto.
    - eapply Forall2_impl; [exact F2|]. auto. }
  destruct (_ || _); [|by apply REST].
  eapply ps_bind; [apply ps_get; auto|]. intros R4 c c' I4 (EC & _). rewrite EC.
  eapply ps_bind; [apply ps_comments; auto|]. intros R5 _ _ I5 _.
  eapply ps_bind; [apply K; [intros x y H; auto|auto]|]. intros R6 _ _ I6 _.
  destruct (check_for_markers _); [|by apply ps_ret].
  eapply ps_bind; [apply ps_scalar; auto|]. intros R7 _ _ I7 _.
  eapply ps_bind; [apply REST; intros x y H; auto|]. intros R8 x y I8 _. by apply ps_ret.
Qed.
Lemma ps_pair fuel (f g : loc -> list N -> prog unit) (R : rel) nk nk' nv nv' o o' :
  (forall R' a b k, incl_rel R R' -> R' a b -> psm R' (f a k) (g b k) T3) ->
  any R nk nk' -> any R nv nv' -> R o o' -> psm R (p_merge_pair fuel sed f nk nv o) (p_merge_pair fuel sed g nk' nv' o') T3.
Proof.
  intros K NK NV O. unfold p_merge_pair. eapply ps_bind; [by apply ps_to_kind|]. intros R1 _ _ I1 _.
  eapply ps_bind; [apply ps_get; auto|]. intros R2 a a' I2 (_ & _ & C).
  eapply (ps_bind _ _ _ _ _ E3).
  { destruct (n_content a) as [l|], (n_content a') as [l'|]; cbn in C; try done; [|by apply ps_ret].
    eapply (ps_entries f g R); [exact K|done|by eapply incl_trans|auto|done]. }
  intros R3 x y I3 ->. destruct y; [by apply ps_ret|]. apply ps_add_node; [auto|]. constructor; [auto|]. constructor; [auto|constructor].
Qed.
Lemma ps_pairs fuel (m m' : loc -> loc -> list N -> prog unit) (R : rel) :
  (forall R' a b c d k, incl_rel R R' -> R' a b -> any R' c d -> psm R' (m a c k) (m' b d k) T3) ->
  forall n ps ps', length ps <= n -> forall R1 o o', incl_rel R R1 -> R1 o o' -> Forall2 (any R1) ps ps' ->
  psm R1 (p_merge_pairs fuel sed m o ps) (p_merge_pairs fuel sed m' o' ps') T3.
Proof.
  intros K. induction n as [|n IH]; intros ps ps' L R1 o o' I1 O F.
  { destruct ps; [|cbn in L; lia]. inversion F. by apply ps_ret. }
  inversion F as [|nk nk' ps1 ps1' K1 F1]; [by apply ps_ret|]; subst.
  inversion F1 as [|nv nv' ps2 ps2' V1 F2]; [by apply ps_ret|]; subst. cbn [p_merge_pairs]. cbn in L.
  eapply ps_bind; [apply ps_pair; auto|].
  - intros R2 a b k I2 AB. apply K; [by eapply incl_trans|done|auto].
  - intros R2 _ _ I2 _. apply IH; [lia|by eapply incl_trans|auto|]. eapply Forall2_impl; [exact F2|]. auto.
Qed.
Lemma ps_merge fuel : forall (R : rel) o o' n n' ks, R o o' -> any R n n' -> psm R (p_merge fuel sed o n ks) (p_merge fuel sed o' n' ks) T3.
Proof.
  induction fuel as [|f IH]; intros R o o' n n' ks O N; cbn [p_merge]; [apply ps_stuck|].
  eapply ps_bind; [by apply ps_get_any|]. intros R1 a a' I1 (-> & _ & C).
  destruct (i_kind (n_info a')).
  - eapply ps_bind; [apply ps_get; auto|]. intros R2 b b' I2 (-> & _). apply ps_put_info; auto.
  - eapply ps_bind; [apply ps_get; auto|]. intros R2 b b' I2 (EB & _ & CB).
    destruct (n_content b) as [oc|], (n_content b') as [oc'|]; cbn in CB; try done; [|by apply ps_ret].
    destruct (n_content a) as [nl|], (n_content a') as [nl'|]; cbn in C; try done; [|by apply ps_ret].
    rewrite EB. eapply ps_bind; [apply ps_comments; auto|]. intros R3 _ _ I3 _.
    destruct CB as [|o1 o1' oc oc' O1 CB]; [apply ps_crash|]. destruct C as [|n1 n1' nl nl' N1 C]; [apply ps_crash|]. apply IH; auto.
  - apply ps_array; auto.
  - destruct (n_content a) as [nl|], (n_content a') as [nl'|]; cbn in C; try done; [|by apply ps_ret].
    eapply (ps_pairs f _ _ R1); [|done|auto|auto|done]. intros R2 x y c d k I2 XY CD. apply IH; auto.
  - eapply ps_bind; [apply ps_scalar; auto|]. intros R2 _ _ I2 _.
    eapply ps_bind; [apply ps_get; auto|]. intros R3 b b' I3 (-> & _). apply ps_put_info; auto.
  - apply ps_fail.
Qed.
Lemma ps_merge_node fuel (R : rel) o o' ns ns' : R o o' -> Forall2 (any R) ns ns' -> psm R (p_merge_node fuel sed o ns) (p_merge_node fuel sed o' ns') T3.
Proof. intros O N. apply ps_loop_any; [done|]. intros R1 a b I AB. apply ps_merge; auto. Qed.
Lemma ps_replace fuel (R : rel) o o' n n' : R o o' -> any R n n' -> psm R (p_replace_node fuel sed o n) (p_replace_node fuel sed o' n') T3.
Proof.
  intros O N. unfold p_replace_node. eapply ps_bind; [by apply ps_get|]. intros R1 a a' I1 (EA & _).
  eapply ps_bind; [apply ps_copy_fields; auto|]. intros R2 c c' I2 NC.
  eapply ps_bind; [apply ps_put; [auto|exact NC]|]. intros R3 _ _ I3 _. destruct NC as (EC & _). rewrite EA, EC. apply ps_put_info. auto.
Qed.
Lemma ps_combine (R : rel) o o' n n' : R o o' -> any R n n' -> psm R (p_combine_node sed o n) (p_combine_node sed o' n') T3.
Proof.
  intros O N. unfold p_combine_node. eapply ps_bind; [by apply ps_get|]. intros R1 a a' I1 (EA & _).
  eapply ps_bind; [apply ps_get_any; auto|]. intros R2 b b' I2 (EB & _). rewrite EA, EB.
  destruct (_ || _); [apply ps_fail|].
  eapply ps_bind; [apply ps_comments; auto|]. intros R3 _ _ I3 _.
  eapply ps_bind; [apply ps_get; auto|]. intros R4 c c' I4 (EC & _). rewrite EC.
  assert (O4 : R4 o o') by auto.
  repeat match goal with
  | |- psm _ (if ?b then _ else _) _ _ => destruct b
  | |- psm _ (match ?b with _ => _ end) _ _ => destruct b
  | |- psm _ (pfail _) _ _ => apply ps_fail
  | |- psm _ (pput_info _ _) _ _ => by apply ps_put_info
  end.
Qed.
End actions.

Lemma ps_delete fuel : forall (R : rel) pn pn' c c', R pn pn' -> R c c' -> psm R (p_delete fuel pn c) (p_delete fuel pn' c') T3.
Proof.
  induction fuel as [|f IH]; intros R pn pn' c c' P C; cbn [p_delete]; [apply ps_stuck|].
  eapply ps_bind; [by apply ps_get|]. intros R1 a a' I1 (-> & _ & CO).
  destruct (n_content a) as [l|], (n_content a') as [l'|]; cbn in CO; try done; [|by apply ps_ret].
  assert (X : forall cs cs' i R2, incl_rel R1 R2 -> Forall2 R2 cs cs' ->
     psm R2 (p_scan (fun x => p_delete f x c) pn c (i_kind (n_info a')) l i cs)
       (p_scan (fun x => p_delete f x c') pn' c' (i_kind (n_info a')) l' i cs') T3); [|by apply X].
  induction cs as [|x cs IHc]; intros cs' i R2 I2 F; inversion F as [|? y ? cs2 XY F2]; subst; cbn [p_scan]; [by apply ps_ret|].
  assert (C2 : R2 c c') by auto. apply ps_bij. intros B.
  assert (E : Nat.eqb x c = Nat.eqb y c').
  { specialize (B x y c c' XY C2). destruct (Nat.eqb_spec x c), (Nat.eqb_spec y c'); tauto. }
  rewrite E. destruct (Nat.eqb y c').
  - pose proof (cut_rel R2 (i_kind (n_info a')) l l' i) as CR.
    assert (L2 : Forall2 R2 l l') by (eapply Forall2_impl; [exact CO|]; auto). specialize (CR L2).
    destruct (cut _ l i), (cut _ l' i); cbn in CR; try done; [|apply ps_crash]. apply ps_put_content; auto.
  - eapply ps_bind; [by apply ps_get|]. intros R3 b b' I3 (_ & _ & CB). eapply (ps_bind _ _ _ _ _ T3).
    + destruct (n_content b), (n_content b'); cbn in CB; try done; [|by apply ps_ret]. apply IH; auto.
    + intros R4 _ _ I4 _. apply IHc; [intros u v H; auto|]. eapply Forall2_impl; [exact F2|]. auto.
Qed.

Lemma ps_halloc t : forall (R : rel), psm R (p_alloc t) (p_alloc t) L3.
Proof.
  induction t as [i|i l IH] using tree_ind'; intros R; cbn [p_alloc].
  - apply ps_alloc. split; [done|]. done.
  - eapply (ps_bind _ _ _ _ _ LL3).
    + revert R. induction IH as [|t l Ht _ IHl]; intros R; [apply ps_ret; constructor|].
      eapply ps_bind; [apply Ht|]. intros R1 a b I1 AB. eapply ps_bind; [apply IHl|]. intros R2 x y I2 XY. apply ps_ret.
      constructor; [by apply I2|done].
    + intros R1 x y I1 XY. apply ps_alloc. split; [done|]. done.
Qed.

Lemma ps_find (R : rel) qs a b : Forall finder_blind qs -> R a b -> psm R (p_find qs a) (p_find qs b) LL3.
Proof.
  intros F H. unfold p_find. eapply ps_bind; [by apply ps_get|]. intros R1 n n' I1 (-> & _ & C).
  assert (E : match n_content n with None | Some [] => true | _ => false end = match n_content n' with None | Some [] => true | _ => false end).
  { destruct (n_content n) as [l|], (n_content n') as [l'|]; cbn in C; try done. by destruct C. }
  rewrite E. destruct (_ && _); [apply ps_ret; constructor|].
  eapply (ps_bind _ _ _ _ _ (fun R => Forall2 (Forall2 R))).
  - assert (H1 : R1 a b) by auto. clear H C E n n' I1. induction F as [|q qs Q _ IH]; cbn [peach]; [apply ps_ret; constructor|].
    eapply (ps_bind _ _ _ _ _ (fun R l l' => R1 = R /\ Forall2 R l l')).
    + apply psim_look; [done|done|]. intros l l' L. by apply ps_ret.
    + intros R2 l l' _ [<- L]. eapply (ps_bind _ _ _ _ _ (fun R ls ls' => Forall2 (Forall2 R) ls ls')); [exact IH|].
      intros R3 ls ls' I3 LS. apply ps_ret. constructor; [|done]. eapply Forall2_impl; [exact L|]. auto.
  - intros R2 ls ls' I2 LS. apply ps_ret. unfold LL3. clear -LS. induction LS; cbn; [constructor|]. by apply Forall2_app.
Qed.

Lemma ps_equal fuel : forall (R : rel) a a' b b', any R a a' -> any R b b' -> psm R (p_equal fuel a b) (p_equal fuel a' b') E3.
Proof.
  induction fuel as [|f IH]; intros R a a' b b' A B; cbn [p_equal]; [apply ps_stuck|].
  eapply ps_bind; [by apply ps_get_any|]. intros R1 na na' I1 (EA & AA & CA).
  eapply ps_bind; [apply ps_get_any; auto|]. intros R2 nb nb' I2 (EB & AB & CB). rewrite EA, EB.
  destruct (negb _); [by apply ps_ret|]. eapply (ps_bind _ _ _ _ _ E3).
  { destruct (n_alias na), (n_alias na'); cbn in AA; try done; destruct (n_alias nb), (n_alias nb'); cbn in AB; try done; try by apply ps_ret.
    apply IH; auto. }
  intros R3 x y I3 ->. destruct (negb y); [by apply ps_ret|].
  destruct (n_content na) as [la|], (n_content na') as [la'|]; cbn in CA; try done;
    destruct (n_content nb) as [lb|], (n_content nb') as [lb'|]; cbn in CB; try done; try by apply ps_ret.
  assert (CA3 : Forall2 (any R3) la la') by (eapply Forall2_impl; [exact CA|]; auto).
  assert (CB3 : Forall2 (any R3) lb lb') by (eapply Forall2_impl; [exact CB|]; auto).
  clear CA CB I1 I2 I3 A B AA AB EA EB. revert R3 lb lb' CA3 CB3. revert la'.
  induction la as [|u la IHl]; intros la' R3 lb lb' CA CB; inversion CA; subst; inversion CB; subst; try by apply ps_ret.
  eapply ps_bind; [by apply IH|]. intros R4 p q I4 ->. destruct q; [|by apply ps_ret].
  apply IHl; eapply Forall2_impl; eauto.
Qed.
Lemma ps_all_equal fuel rs : forall (R : rel) rs' v v', Forall2 (any R) rs rs' -> any R v v' -> psm R (p_all_equal fuel rs v) (p_all_equal fuel rs' v') E3.
Proof.
  induction rs as [|r rs IH]; intros R rs' v v' F V; inversion F; subst; cbn [p_all_equal]; [by apply ps_ret|].
  eapply ps_bind; [by apply ps_equal|]. intros R1 p q I1 ->. destruct q; [|by apply ps_ret]. apply IH; [|auto]. eapply Forall2_impl; eauto.
Qed.

(** Conditions whose value nodes correspond to themselves. *)
Definition cond_fine (c : condition) : Prop := Forall finder_blind (c_queries c) /\ Rs (c_value c) (c_value c).
Lemma ps_condition fuel (R : rel) c a b : cond_fine c -> R a b -> psm R (p_condition fuel c a) (p_condition fuel c b) E3.
Proof.
  intros [Q V] H. unfold p_condition. eapply ps_bind; [by apply ps_find|]. intros R1 rs rs' I1 RS. unfold LL3 in RS.
  destruct RS as [|r r' rs rs' X RS]; [by apply ps_ret|]. eapply ps_bind; [apply ps_get_any; by right|]. intros R2 v v' I2 N.
  rewrite (zero_rel _ _ _ N). destruct (node_is_zero v'); [by apply ps_ret|]. apply ps_all_equal; [|by right].
  eapply Forall2_impl; [constructor; eauto|]. auto.
Qed.
Lemma ps_check_query fuel cs : forall (R : rel) a b, Forall cond_fine cs -> R a b -> psm R (p_check_query fuel cs a) (p_check_query fuel cs b) E3.
Proof.
  induction cs as [|c cs IH]; intros R a b F H; cbn [p_check_query]; [by apply ps_ret|]. apply Forall_cons in F as [F1 F].
  eapply ps_bind; [by apply ps_condition|]. intros R1 p q I1 ->. destruct q; [|by apply ps_ret]. apply IH; [done|auto].
Qed.
Lemma ps_check fuel dq (R : rel) a b : Forall (Forall cond_fine) dq -> R a b -> psm R (p_check_queries fuel dq a) (p_check_queries fuel dq b) E3.
Proof.
  intros F H. assert (X : psm R (p_check_any fuel dq a) (p_check_any fuel dq b) E3); [|destruct dq; [by apply ps_ret|exact X]].
  revert R F H. induction dq as [|g dq IH]; intros R F H; cbn [p_check_any]; [by apply ps_ret|]. apply Forall_cons in F as [F1 F].
  eapply ps_bind; [by apply ps_check_query|]. intros R1 p q I1 ->. destruct q; [by apply ps_ret|]. apply IH; [done|auto].
Qed.

Lemma ps_act fuel sed a (R : rel) v v' r r' n n' : any R v v' -> R r r' -> R n n' -> psm R (p_act fuel sed a v r n) (p_act fuel sed a v' r' n') T3.
Proof.
  intros V O N. destruct a; cbn [p_act]; [apply ps_merge_node|apply ps_merge_node|apply ps_replace|apply ps_delete|apply ps_combine]; auto.
Qed.
Lemma ps_inject fuel sed ip (R : rel) v v' a b : Forall finder_blind ip -> any R v v' -> R a b -> psm R (p_inject fuel sed ip v a) (p_inject fuel sed ip v' b) T3.
Proof.
  intros F V H. unfold p_inject. destruct (build_all _) as [ts|e| |]; [|apply ps_fail|apply ps_crash|apply ps_stuck].
  destruct (build_paths sed ts) as [y|e| |]; [|apply ps_crash|apply ps_crash|apply ps_stuck].
  eapply ps_bind; [apply ps_halloc|]. intros R1 x x' I1 X.
  eapply ps_bind; [apply ps_merge_node; [auto|constructor; [left; exact X|constructor]]|]. intros R2 _ _ I2 _.
  eapply ps_bind; [apply ps_find; auto|]. intros R3 rs rs' I3 RS. apply ps_loop; [exact RS|].
  intros R4 p q I4 PQ. apply ps_replace; auto.
Qed.

(** What an overlay needs for its effect to be independent of addresses: blind
    finders, and values that correspond to themselves. *)
Record overlay_fine (o : overlay) : Prop := mkOverlayFine {
  fine_queries : Forall finder_blind (o_queries o);
  fine_inject : forall ip, o_inject o = Some ip -> Forall finder_blind ip;
  fine_docs : Forall (Forall cond_fine) (o_docqueries o);
  fine_value : Rs (o_value o) (o_value o) }.

Lemma ps_apply fuel sed k (R : rel) a b : (forall o, os !! k = Some o -> overlay_fine o) -> R a b ->
  psm R (p_apply fuel sed dflt k a) (p_apply fuel sed dflt k b) T3.
Proof.
  intros OK H. unfold p_apply. apply psim_read. intros o1 o2 (oo & E & E1) (oo' & E' & E2).
  assert (oo' = oo) as -> by congruence. clear E'. destruct (OK oo E) as [OQ OI OD OV].
  destruct (resolve_fields dflt o1) as (Q1 & V1 & A1 & D1 & J1 & X1). destruct (resolve_fields dflt o2) as (Q2 & V2 & A2 & D2 & J2 & X2).
  destruct (resolve_fields dflt oo) as (Q & V & A & D & J & X). rewrite E1 in Q1, V1, A1, D1, J1. rewrite E2 in Q2, V2, A2, D2, J2.
  rewrite <- D1, <- D2, <- Q1, <- Q2, <- A1, <- A2, <- V1, <- V2, D, Q, A, V.
  eapply ps_bind; [by apply ps_check|]. intros R1 p q I1 ->. destruct q; [|by apply ps_ret].
  eapply ps_bind; [apply ps_find; auto|]. intros R2 ns ns' I2 NS. destruct NS as [|x x' ns ns' XX NS].
  - apply psim_settle. intros o O. assert (o = oo) as -> by congruence.
    destruct (o_missing _); [by apply ps_ret|by apply ps_ret|]. unfold p_handle_inject. rewrite Q, V, J.
    assert (IA : R2 a b) by auto. assert (IV : any R2 (o_value oo) (o_value oo)) by (by right).
    destruct (build_all _) as [ts|e| |]; [by apply ps_inject| |apply ps_crash|apply ps_stuck].
    destruct e; try apply ps_fail. destruct (o_inject oo) as [ip|]; [|by apply ps_ret]. apply ps_inject; auto.
  - apply ps_loop; [by constructor|]. intros R3 y y' I3 Y. apply ps_act; auto. by right.
Qed.
End simulation.

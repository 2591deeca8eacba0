(** The operations of different workers do not disturb each other: the hypotheses
    of ProofPipeline.v for the shared heap. *)
From Verif Require Import Prelude GoStrings Format Yaml Heap ActionNames Overlay SpecReach SpecSame ProofSame Fine ProofFine ProofFineSame
  Queue Paths Render Pipeline SpecPipeline ProofPipeline Execute SpecExecute ProofExecute.

(** Code that only reads nodes. *)
Inductive looking {A} : prog A -> Prop :=
  | looking_done r : looking (Done r)
  | looking_get l k : (forall n, looking (k n)) -> looking (Get l k).
Lemma looking_bind {A B} (p : prog A) (f : A -> prog B) : looking p -> (forall a, looking (f a)) -> looking (pbind p f).
Proof.
  intros P F. induction P as [[]|l k _ IH]; cbn; try constructor; auto.
Qed.
Lemma looking_snapshot f : forall l, looking (p_snapshot f l).
Proof.
  induction f as [|f IH]; intros l; cbn [p_snapshot]; [constructor|]. constructor. intros n. cbn. destruct (n_content n) as [ls|]; [|constructor].
  apply looking_bind; [|intros; constructor]. induction ls as [|x ls IHl]; [constructor|]. apply looking_bind; [apply IH|]. intros t.
  apply looking_bind; [apply IHl|]. intros. constructor.
Qed.
Lemma looking_snapshots f ls : looking (p_snapshots f ls).
Proof.
  induction ls as [|x ls IHl]; [constructor|]. apply looking_bind; [apply looking_snapshot|]. intros t.
  apply looking_bind; [apply IHl|]. intros. constructor.
Qed.
Lemma finish_snapshot f : forall l m, finish (p_snapshot f l) m = (m, snapshot f (fst m) l).
Proof.
  induction f as [|f IH]; intros l m; cbn [p_snapshot snapshot]; [done|]. cbn [pget pbind finish].
  destruct (fst m !! l) as [n|]; [|done]. cbn [pret pbind]. destruct (n_content n) as [ls|]; [|done]. rewrite finish_bind.
  assert (X : finish ((fix go (ls : list loc) : prog (list tree) :=
                       match ls with
                       | [] => pret []
                       | x :: r => do? t := p_snapshot f x in do? ts := go r in pret (t :: ts)
                       end) ls) m =
     (m, (fix go (ls : list loc) : res (list tree) :=
                            match ls with
                            | [] => Ok []
                            | x :: r => let! t := snapshot f (fst m) x in let! ts := go r in Ok (t :: ts)
                            end) ls)).
  { induction ls as [|x ls IHl]; [done|]. rewrite finish_bind, IH. destruct (snapshot f (fst m) x) as [t| | |]; try done.
    rewrite finish_bind, IHl. cbn [rbind]. by match goal with |- context [rbind ?e _] => destruct e end. }
  rewrite X. clear X. by match goal with |- context [rbind ?e _] => destruct e end.
Qed.
Lemma finish_snapshots f ls m : finish (p_snapshots f ls) m = (m, snapshots f (fst m) ls).
Proof.
  induction ls as [|x ls IHl]; [done|]. cbn [p_snapshots snapshots]. rewrite finish_bind, finish_snapshot.
  destruct (snapshot f (fst m) x) as [t| | |]; try done. rewrite finish_bind, IHl. by destruct (snapshots f (fst m) ls).
Qed.

(** Apply, operation by operation and uninterrupted, is Apply. *)
Lemma begin_finish fuel sed dflt w m : finish (begin fuel sed dflt w) m = run_work fuel sed dflt w m.
Proof.
  unfold begin, run_work. destruct m as [h t]. cbn [fst snd]. destruct (t !! w_overlay w) as [o|] eqn:E.
  - rewrite (finish_apply _ _ _ _ _ _ _ _ E). done.
  - unfold p_apply. cbn [finish snd]. by rewrite E.
Qed.
Lemma ps_snapshot Rs os dflt f : forall (R : rel) a b, R a b -> psim Rs os dflt E3 R (p_snapshot f a) (p_snapshot f b).
Proof.
  induction f as [|f IH]; intros R a b AB; cbn [p_snapshot]; [apply ps_stuck|].
  eapply ps_bind; [by apply ps_get|]. intros R1 n n' I1 (EN & _ & C). rewrite EN.
  destruct (n_content n) as [l|], (n_content n') as [l'|]; cbn in C; try done; [|by apply ps_ret].
  eapply (ps_bind _ _ _ _ _ _ _ _ E3); [|intros R2 x y I2 XY; apply ps_ret; unfold E3 in *; by subst].
  clear EN I1. revert R1 C. revert l'. induction l as [|x l IHl]; intros l' R1 C; inversion C; subst; [by apply ps_ret|].
  eapply ps_bind; [by apply IH|]. intros R2 t t' I2 ->. eapply ps_bind; [apply IHl; eapply Forall2_impl; eauto|]. intros R3 ts ts' I3 ->. by apply ps_ret.
Qed.
Lemma ps_snapshots Rs os dflt f l : forall (R : rel) l', Forall2 R l l' -> psim Rs os dflt E3 R (p_snapshots f l) (p_snapshots f l').
Proof.
  induction l as [|x l IHl]; intros R l' C; inversion C; subst; cbn [p_snapshots]; [by apply ps_ret|].
  eapply ps_bind; [by apply ps_snapshot|]. intros R2 t t' I2 ->. eapply ps_bind; [apply IHl; eapply Forall2_impl; eauto|]. intros R3 ts ts' I3 ->. by apply ps_ret.
Qed.

(** ** The table of overlays *)
Lemma resolve_set dflt o oo : resolve_missing dflt o = resolve_missing dflt oo -> o_missing (resolve_missing dflt oo) = MInject ->
  set_missing MInject o = resolve_missing dflt oo.
Proof.
  intros E M. destruct (resolve_fields dflt o) as (Q1 & V1 & A1 & D1 & J1 & X1). rewrite E in *.
  unfold set_missing. rewrite <- Q1, <- V1, <- A1, <- D1, <- J1, <- X1, <- M. by destruct (resolve_missing dflt oo).
Qed.
Lemma resolve_done dflt o : (o_missing o = MDefault -> equal_fold dflt (lit "inject") = false) -> resolve_missing dflt o = o.
Proof. unfold resolve_missing. destruct (o_missing o); try done. intros H. by rewrite H. Qed.
Lemma resolve_default dflt o : o_missing o = MDefault -> equal_fold dflt (lit "inject") = true -> resolve_missing dflt o = set_missing MInject o.
Proof. intros A B. unfold resolve_missing. by rewrite A, B. Qed.

Lemma write_lookup i t k o : t !! k = Some o ->
  write_missing i MInject t !! k = Some (if decide (i = k) then set_missing MInject o else o).
Proof.
  intros K. unfold write_missing. destruct (decide (i = k)) as [->|NE].
  - rewrite K. apply list_lookup_insert. by eapply lookup_lt_Some.
  - destruct (t !! i); [|done]. by rewrite list_lookup_insert_ne.
Qed.
Lemma write_length i a t : length (write_missing i a t) = length t.
Proof. unfold write_missing. destruct (t !! i); [|done]. by rewrite insert_length. Qed.

Section noninterference.
Context (fuel : nat) (sed : sed_engine) (dflt : list N) (files : list yfile) (os : list overlay) (h0 : heap).
Hypothesis setup : set_up files os h0.
Local Notation works := (map (file_work os) files).
Local Notation res := (resolve_missing dflt).
(** The table of overlays: every entry is the overlay it was, or is settled. *)
Definition tok (t : list overlay) : Prop :=
  length t = length os /\ (forall k o o', t !! k = Some o -> os !! k = Some o' -> resolve_missing dflt o = resolve_missing dflt o') /\
  (forall k o o', t !! k = Some o -> os !! k = Some o' -> o_missing o = MDefault -> o_missing o' = MDefault).

(** Who may write to a node: [0] nobody (nodes of overlay values), [S i] the worker of file [i]. *)
Local Notation owner := (nat -> nat -> Prop).
Record owned (g : owner) (h : list hnode) : Prop := mkOwned {
  ow_valid : forall a o, g a o -> a < length h;
  ow_fun : forall a o o', g a o -> g a o' -> o = o' }.

(** The shared memory [m] looks to file [i] like the memory [q] of a run of its own. *)
Record linked (g : owner) (i : nat) (m q : list hnode * list overlay) (R Rs : nat -> nat -> Prop) : Prop := mkLinked {
  li_own : same R (fst m) (fst q);
  li_shared : same Rs (fst m) (fst q);
  li_mine : forall a b, R a b -> g a (S i);
  li_theirs : forall a b, Rs a b -> g a 0;
  li_apart : forall a b a' b', R a b -> Rs a' b' -> b <> b';
  li_docs : forall d, doc_of files i d -> R d d;
  li_overlays : forall k o, os !! k = Some o -> overlay_fine Rs o;
  li_table : tok (snd m);
  li_table' : tok (snd q) }.

(** A step of the worker of file [i] leaves the others' nodes alone and settles
    entries of the table only. *)
Record benign (g g' : owner) (i : nat) (m m' : list hnode * list overlay) : Prop := mkBenign {
  be_more : forall a o, g a o -> g' a o;
  be_owned : owned g' (fst m');
  be_kept : forall a o, g a o -> o <> S i -> fst m' !! a = fst m !! a;
  be_table : tok (snd m) -> tok (snd m');
  be_settled : forall k o, tok (snd m) -> os !! k = Some o -> snd m !! k = Some (res o) -> snd m' !! k = Some (res o) }.

Lemma same_ext (R : nat -> nat -> Prop) (h h' q : list hnode) : (forall a b, R a b -> h' !! a = h !! a) -> same R h q -> same R h' q.
Proof. intros E [A B C]. constructor; [done|done|]. intros a b AB. rewrite (E a b AB). auto. Qed.
Lemma linked_kept g g' i j m m' q R Rs : benign g g' i m m' -> j <> i -> linked g j m q R Rs -> linked g' j m' q R Rs.
Proof.
  intros [B1 B2 B3 B4 B5] NE [L1 L2 L3 L4 L5 L6 L7 L8 L9]. constructor; eauto.
  - apply (same_ext R (fst m)); [|done]. intros a b AB. eapply B3; [by eapply L3|congruence].
  - apply (same_ext Rs (fst m)); [|done]. intros a b AB. eapply B3; [by eapply L4|congruence].
Qed.

Definition mid (g : owner) (i : nat) (m : list hnode * list overlay) (c : prog unit) (out : (list hnode * list overlay) * Prelude.res unit) (n : nat) : Prop :=
  owned g (fst m) /\ exists q d R Rs, linked g i m q R Rs /\ finish d q = out /\
  ((psim Rs os dflt T3 R c d /\ operations d q <= n) \/
   exists k oo f f', os !! k = Some oo /\ d = Settle (equal_fold dflt (lit "inject")) k (Read k f') /\
     psim Rs os dflt T3 R (f (res oo)) (f' (res oo)) /\
     ((c = Write k MInject (Read k f) /\ (o_missing (res oo) = MInject /\ o_missing oo = MDefault /\ equal_fold dflt (lit "inject") = true) /\ operations d q <= S n) \/
      (c = Read k f /\ snd m !! k = Some (res oo) /\ operations d q <= S (S n)))).
Definition fview (g : owner) (i : nat) (m q : list hnode * list overlay) : Prop := owned g (fst m) /\ exists R Rs, linked g i m q R Rs.
Definition see (g : owner) (i : nat) (m : list hnode * list overlay) (c : prog (list tree)) (p : Prelude.res (list tree)) (n : nat) : Prop :=
  owned g (fst m) /\ exists q d R Rs, linked g i m q R Rs /\ snd (finish d q) = p /\ psim Rs os dflt E3 R c d /\ looking c /\ operations d q <= n.

Lemma benign_kept g g' i m m' : benign g g' i m m' -> kept fview mid see g g' i m m'.
Proof.
  intros B j NE. assert (O := be_owned _ _ _ _ _ B). split; [|split].
  - intros q (_ & R & Rs & L). split; [done|]. exists R, Rs. by eapply linked_kept.
  - intros c out n (_ & q & d & R & Rs & L & E & ST). split; [done|]. exists q, d, R, Rs. split; [by eapply linked_kept|]. split; [done|].
    destruct ST as [ST|(k & oo & f & f' & OO & Ed & PS & [ST|(Ec & H & LE)])]; [by left| |]; right; exists k, oo, f, f'; split; try done; split; try done; split; try done; [by left|].
    right. split; [done|]. split; [|done]. eapply (be_settled _ _ _ _ _ B); eauto. apply L.
  - intros c p n (_ & q & d & R & Rs & L & ST). split; [done|]. exists q, d, R, Rs. split; [by eapply linked_kept|done].
Qed.

Lemma benign_same g i m : owned g (fst m) -> benign g g i m m.
Proof. intros O. by constructor. Qed.

Lemma tok_none t k : tok t -> t !! k = None -> os !! k = None.
Proof. intros (L & _) H. apply lookup_ge_None. rewrite <- L. by apply lookup_ge_None. Qed.
Lemma tok_some t k o : tok t -> t !! k = Some o -> exists oo, os !! k = Some oo /\ res o = res oo.
Proof.
  intros (L & T & _) H. assert (X : k < length os) by (rewrite <- L; by eapply lookup_lt_Some). apply lookup_lt_is_Some in X as [oo O]. exists oo. split; [done|eauto].
Qed.
Lemma tok_lookup t k oo : tok t -> os !! k = Some oo -> exists o, t !! k = Some o /\ res o = res oo.
Proof.
  intros (L & T & _) H. assert (X : k < length t) by (rewrite L; by eapply lookup_lt_Some). apply lookup_lt_is_Some in X as [o O]. exists o. split; [done|eauto].
Qed.
Lemma tok_write t k : tok t -> (forall o, os !! k = Some o -> o_missing (res o) = MInject) ->
  tok (write_missing k MInject t) /\
  (forall k2 o, os !! k2 = Some o -> t !! k2 = Some (res o) -> write_missing k MInject t !! k2 = Some (res o)) /\
  (forall o, os !! k = Some o -> write_missing k MInject t !! k = Some (res o)).
Proof.
  intros T M.
  assert (S : forall k2 o oo, t !! k2 = Some o -> os !! k2 = Some oo -> write_missing k MInject t !! k2 = Some (if decide (k = k2) then res oo else o)).
  { intros k2 o oo K KO. rewrite (write_lookup k t k2 o K). destruct (decide (k = k2)) as [<-|NE]; [|done]. f_equal. apply resolve_set; [|by apply M].
    destruct T as (_ & T & _). eauto. }
  split; [split; [|split]|split].
  - rewrite write_length. apply T.
  - intros k2 o o' K K'. destruct (tok_lookup _ _ _ T K') as (o2 & K2 & E2). rewrite (S _ _ _ K2 K') in K. injection K as <-.
    destruct (decide (k = k2)); [apply resolve_idem|done].
  - intros k2 o o' K K'. destruct (tok_lookup _ _ _ T K') as (o2 & K2 & E2). rewrite (S _ _ _ K2 K') in K. injection K as <-.
    destruct (decide (k = k2)) as [<-|NE]; [intros D; rewrite (M _ K') in D; done|]. destruct T as (_ & _ & T). eauto.
  - intros k2 o KO K. rewrite (S _ _ _ K KO). by destruct (decide (k = k2)).
  - intros o KO. destruct (tok_lookup _ _ _ T KO) as (o2 & K2 & E2). rewrite (S _ _ _ K2 KO). by destruct (decide (k = k)).
Qed.

(** The deciding read of onMissing, uninterrupted. *)
Lemma settle_finish k (f : overlay -> prog unit) q oo : tok (snd q) -> os !! k = Some oo ->
  exists t, tok t /\
    finish (Settle (equal_fold dflt (lit "inject")) k (Read k f)) q = finish (f (res oo)) (fst q, t) /\
    operations (Settle (equal_fold dflt (lit "inject")) k (Read k f)) q = S (S (S (operations (f (res oo)) (fst q, t)))).
Proof.
  intros T O. destruct (tok_lookup _ _ _ T O) as (o & K & E). cbn [finish operations]. rewrite !K.
  assert (D : res o = o -> exists t, tok t /\
    finish (f o) q = finish (f (res oo)) (fst q, t) /\
    S (S (S (operations (f o) q))) = S (S (S (operations (f (res oo)) (fst q, t))))).
  { intros D. exists (snd q). split; [done|]. rewrite <- E, D. by destruct q. }
  destruct (o_missing o) eqn:M.
  - destruct (equal_fold dflt (lit "inject")) eqn:F.
    + assert (MI : forall o2, os !! k = Some o2 -> o_missing (res o2) = MInject).
      { intros o2 O2. assert (o2 = oo) as -> by congruence. rewrite <- E, resolve_default by done. done. }
      destruct (tok_write _ _ T MI) as (T' & _ & S). exists (write_missing k MInject (snd q)). split; [done|]. cbn [snd]. by rewrite (S oo O).
    + apply D, resolve_done. done.
  - apply D, resolve_done. by rewrite M.
  - apply D, resolve_done. by rewrite M.
Qed.

Lemma same_put (R : nat -> nat -> Prop) (h1 h2 : list hnode) a b n1 n2 : same R h1 h2 -> R a b -> node_rel R n1 n2 -> same R (<[a:=n1]> h1) (<[b:=n2]> h2).
Proof.
  intros [A B C] AB N. constructor; [done|done|]. intros x y XY. destruct (decide (a = x)) as [->|NE].
  - assert (y = b) as -> by eauto. exists n1, n2. destruct (C x b AB) as (m1 & m2 & E1 & E2 & _).
    rewrite !list_lookup_insert by (by eapply lookup_lt_Some). done.
  - assert (b <> y) by (intros ->; apply NE; eauto). rewrite !list_lookup_insert_ne by done. auto.
Qed.
Lemma same_put_other (R : nat -> nat -> Prop) (h1 h2 : list hnode) a b n1 n2 : same R h1 h2 -> (forall x y, R x y -> a <> x /\ b <> y) ->
  same R (<[a:=n1]> h1) (<[b:=n2]> h2).
Proof.
  intros [A B C] N. constructor; [done|done|]. intros x y XY. destruct (N x y XY). rewrite !list_lookup_insert_ne by done. auto.
Qed.
Lemma same_grow (R : nat -> nat -> Prop) (h1 h2 : list hnode) n1 n2 : same R h1 h2 -> same R (h1 ++ [n1]) (h2 ++ [n2]).
Proof.
  intros [A B C]. constructor; [done|done|]. intros x y XY. destruct (C x y XY) as (m1 & m2 & E1 & E2 & N). exists m1, m2.
  split; [by apply lookup_app_l_Some|]. split; [by apply lookup_app_l_Some|done].
Qed.
Lemma same_new (R : nat -> nat -> Prop) (h1 h2 : list hnode) n1 n2 : same R h1 h2 -> node_rel R n1 n2 ->
  same (fun a b => R a b \/ (a = length h1 /\ b = length h2)) (h1 ++ [n1]) (h2 ++ [n2]).
Proof.
  intros S N. assert (LT : forall a b, R a b -> a < length h1 /\ b < length h2).
  { intros a b AB. destruct (same_node _ _ _ S a b AB) as (m1 & m2 & E1 & E2 & _). split; by eapply lookup_lt_Some. }
  set (R' := fun a b : nat => R a b \/ (a = length h1 /\ b = length h2)).
  assert (I : incl_rel R R') by (intros a b; by left).
  pose proof (same_grow R h1 h2 n1 n2 S) as G. constructor.
  - intros a b b' [A|[-> ->]] [B|[E ->]]; try done; [by eapply (same_fun _ _ _ S)|..].
    + apply LT in A as [A _]. lia.
    + apply LT in B as [B _]. lia.
  - intros a a' b [A|[-> ->]] [B|[-> E]]; try done; [by eapply (same_inj _ _ _ S)|..].
    + apply LT in A as [_ A]. lia.
    + apply LT in B as [_ B]. lia.
  - intros a b [A|[-> ->]].
    + destruct (same_node _ _ _ G a b A) as (m1 & m2 & E1 & E2 & NN). exists m1, m2. split; [done|]. split; [done|]. by eapply node_rel_mono.
    + exists n1, n2. rewrite !lookup_app_r, !Nat.sub_diag by lia. split; [done|]. split; [done|]. by eapply node_rel_mono.
Qed.

(** The next operation of a worker. *)
Lemma psim_tick Rs (R : nat -> nat -> Prop) (c d : prog unit) : psim Rs os dflt T3 R c d -> forall g i m q m' x,
  owned g (fst m) -> linked g i m q R Rs -> tick c m = (m', x) ->
  exists g', benign g g' i m m' /\
    match x with
    | inl c' => exists n', n' < operations d q /\ mid g' i m' c' (finish d q) n'
    | inr r => 0 < operations d q /\ exists q', finish d q = (q', r) /\ fview g' i m' q'
    end.
Proof.
  induction 1 as [R x y X|R a b f f' AB F _|R a b f f' AB F _|R a b n1 n2 p p' AB N P _|R n1 n2 f f' N F _|R u a b f f' U AB F _|R p p' P IH|R k f f' F _|R k f f' F _];
    intros g i m q m' z O L T.
  - (* result *)
    injection T as <- <-. exists g. split; [by apply benign_same|]. split; [cbn; lia|]. exists q. cbn [finish].
    assert (x = y) as ->. { destruct x as [[]| | |], y as [[]| | |]; cbn in X; try done. by subst. }
    split; [done|]. split; [done|]. by exists R, Rs.
  - (* read own node *)
    destruct (same_node _ _ _ (li_own _ _ _ _ _ _ L) a b AB) as (n1 & n2 & E1 & E2 & NR). cbn [tick] in T. rewrite E1 in T. injection T as <- <-.
    exists g. split; [by apply benign_same|]. cbn [finish operations]. rewrite E2. exists (operations (f' n2) q). split; [lia|].
    split; [done|]. exists q, (f' n2), R, Rs. split; [done|]. split; [done|]. left. split; [by apply F|done].
  - (* read shared node *)
    destruct (same_node _ _ _ (li_shared _ _ _ _ _ _ L) a b AB) as (n1 & n2 & E1 & E2 & NR). cbn [tick] in T. rewrite E1 in T. injection T as <- <-.
    exists g. split; [by apply benign_same|]. cbn [finish operations]. rewrite E2. exists (operations (f' n2) q). split; [lia|].
    split; [done|]. exists q, (f' n2), R, Rs. split; [done|]. split; [done|]. left. split; [by apply F|done].
  - (* write *)
    cbn [tick] in T. injection T as <- <-. pose proof (li_mine _ _ _ _ _ _ L a b AB) as MINE.
    assert (O' : owned g (<[a:=n1]> (fst m))).
    { destruct O as [O1 O2]. constructor; [|done]. intros x o G. rewrite insert_length. eauto. }
    exists g. split.
    { constructor; [done|exact O'| |done|done]. cbn [fst]. intros x o G NE. apply list_lookup_insert_ne. intros <-.
      apply NE. by eapply (ow_fun _ _ O). }
    cbn [finish operations]. exists (operations p' (<[b:=n2]> (fst q), snd q)). split; [lia|].
    split; [exact O'|]. exists (<[b:=n2]> (fst q), snd q), p', R, Rs. split; [|split; [done|left; split; [exact P|done]]].
    destruct L as [L1 L2 L3 L4 L5 L6 L7 L8 L9]. constructor; cbn [fst snd]; try done.
    + by apply same_put.
    + apply same_put_other; [done|]. intros x y XY. split; [|by eapply L5]. intros <-. by discriminate (ow_fun _ _ O a _ _ MINE (L4 _ _ XY)).
  - (* allocation *)
    cbn [tick] in T. injection T as <- <-.
    set (g' := fun a o => g a o \/ (a = length (fst m) /\ o = S i)).
    set (R' := fun a b : nat => R a b \/ (a = length (fst m) /\ b = length (fst q))).
    assert (O' : owned g' (fst m ++ [n1])).
    { destruct O as [O1 O2]. constructor.
      - intros x o [G|[-> _]]; rewrite app_length; cbn; [apply O1 in G|]; lia.
      - intros x o o' [G|[-> ->]] [G'|[E ->]]; try done; [by eapply O2|..]; [apply O1 in G|apply O1 in G']; lia. }
    exists g'. split.
    { constructor; [by left|exact O'| |done|done]. cbn [fst]. intros x o G NE. apply lookup_app_l. by eapply (ow_valid _ _ O). }
    cbn [finish operations]. exists (operations (f' (length (fst q))) (fst q ++ [n2], snd q)). split; [lia|].
    split; [exact O'|]. exists (fst q ++ [n2], snd q), (f' (length (fst q))), R', Rs. split; [|split; [done|left; split; [|done]]].
    + destruct L as [L1 L2 L3 L4 L5 L6 L7 L8 L9]. constructor; cbn [fst snd]; try done.
      * by apply same_new.
      * by apply same_grow.
      * intros a b [AB|[-> ->]]; [left; eauto|by right].
      * intros a b AB. left. eauto.
      * intros a b a' b' [AB|[-> ->]] AB'; [by eapply L5|]. destruct (same_node _ _ _ L2 a' b' AB') as (_ & m2 & _ & E2 & _).
        apply lookup_lt_Some in E2. lia.
      * intros d D. left. auto.
    + apply F; [intros a b; by left|by right].
  - (* path library *)
    cbn [tick] in T. injection T as <- <-. exists g. split; [by apply benign_same|]. cbn [finish operations].
    exists (operations (f' (q_find u (fst q) b)) q). split; [lia|]. split; [done|]. exists q, (f' (q_find u (fst q) b)), R, Rs. split; [done|]. split; [done|].
    left. split; [|done]. apply F. apply U; [apply L|done].
  - apply IH; try done. intros a b a' b' AB AB'. destruct (li_own _ _ _ _ _ _ L) as [A B _]. split; intros <-; eauto.
  - (* read overlay *)
    cbn [tick] in T. cbn [finish operations]. destruct (snd m !! k) as [o|] eqn:K.
    + injection T as <- <-. destruct (tok_some _ _ _ (li_table _ _ _ _ _ _ L) K) as (oo & OO & E1).
      destruct (tok_lookup _ _ _ (li_table' _ _ _ _ _ _ L) OO) as (o' & K' & E2). rewrite K'.
      exists g. split; [by apply benign_same|]. exists (operations (f' o') q). split; [lia|]. split; [done|]. exists q, (f' o'), R, Rs.
      split; [done|]. split; [done|]. left. split; [|done]. apply F; by exists oo.
    + injection T as <- <-. assert (K' : snd q !! k = None).
      { apply tok_none in K; [|apply L]. destruct (snd q !! k) as [o|] eqn:K2; [|done].
        destruct (tok_some _ _ _ (li_table' _ _ _ _ _ _ L) K2) as (oo & OO & _). congruence. }
      rewrite K'. exists g. split; [by apply benign_same|]. split; [lia|]. exists q. split; [done|]. split; [done|]. by exists R, Rs.
  - (* the test of onMissing *)
    pose proof (fun oo => settle_finish k f' q oo (li_table' _ _ _ _ _ _ L)) as SF.
    remember (equal_fold dflt (lit "inject")) as inj eqn:FI.
    assert (T2 : match snd m !! k with
      | Some o => (m, inl (match o_missing o with MDefault => if inj then Write k MInject (Read k f) else Read k f | _ => Read k f end))
      | None => (m, inr Panic) end = (m', z)) by exact T. clear T. rename T2 into T.
    destruct (snd m !! k) as [o|] eqn:K.
    + apply pair_equal_spec in T as [<- <-]. destruct (tok_some _ _ _ (li_table _ _ _ _ _ _ L) K) as (oo & OO & E1).
      exists g. split; [by apply benign_same|].
      destruct (SF oo OO) as (t & _ & _ & E3). set (d := Settle inj k (Read k f')) in *.
      assert (D : res o = o -> exists n', n' < operations d q /\ mid g i m (Read k f) (finish d q) n').
      { intros D. exists (pred (pred (operations d q))). rewrite E3. split; [lia|]. split; [done|]. exists q, d, R, Rs. split; [done|]. split; [done|]. right.
        exists k, oo, f, f'. split; [done|]. split; [by rewrite <- FI|]. split; [by apply F|]. right. split; [done|]. split; [|lia]. by rewrite K, <- E1, D. }
      destruct (o_missing o) eqn:M.
      * destruct inj; [|apply D, resolve_done; by rewrite <- FI].
        exists (pred (operations d q)). rewrite E3. split; [lia|]. split; [done|]. exists q, d, R, Rs. split; [done|]. split; [done|]. right.
        exists k, oo, f, f'. split; [done|]. split; [by rewrite <- FI|]. split; [by apply F|]. left. split; [done|]. split; [|lia].
        split; [|split; [|done]].
        -- rewrite <- E1, resolve_default by done. done.
        -- destruct (li_table _ _ _ _ _ _ L) as (_ & _ & TD). eauto.
      * apply D, resolve_done. by rewrite M.
      * apply D, resolve_done. by rewrite M.
    + apply pair_equal_spec in T as [<- <-]. assert (K' : snd q !! k = None).
      { apply tok_none in K; [|apply L]. destruct (snd q !! k) as [o|] eqn:K2; [|done].
        destruct (tok_some _ _ _ (li_table' _ _ _ _ _ _ L) K2) as (oo & OO & _). congruence. }
      cbn [finish operations]. rewrite K'. exists g. split; [by apply benign_same|]. split; [lia|]. exists q. split; [done|]. split; [done|]. by exists R, Rs.
Qed.

Lemma fine_tick g i m c out n m' x : mid g i m c out n -> tick c m = (m', x) ->
  exists g', kept fview mid see g g' i m m' /\
    match x with
    | inl c' => exists n', n' < n /\ mid g' i m' c' out n'
    | inr r => 0 < n /\ exists q', out = (q', r) /\ fview g' i m' q'
    end.
Proof.
  intros (O & q & d & R & Rs & L & <- & ST) T. destruct ST as [[P LE]|(k & oo & f & f' & OO & -> & PS & ST)].
  - destruct (psim_tick Rs R c d P g i m q m' x O L T) as (g' & B & X). exists g'. split; [by apply benign_kept|].
    destruct x as [c'|r]; [|destruct X as [X Y]; split; [lia|done]]. destruct X as (n' & LT & X). exists n'. split; [lia|done].
  - destruct (settle_finish k f' q oo (li_table' _ _ _ _ _ _ L) OO) as (t & TT & E1 & E2).
    destruct ST as [(-> & (MI & _) & LE)|(-> & ST & LE)].
    + (* the write *)
      cbn [tick] in T. injection T as <- <-.
      destruct (tok_write (snd m) k) as (T' & S1 & S2); [apply L|intros o2 O2; congruence|].
      exists g. split.
      { apply benign_kept. constructor; try done. intros k2 o _. apply S1. }
      exists (pred n). rewrite E2 in LE. split; [lia|]. split; [exact O|]. exists q, (Settle (equal_fold dflt (lit "inject")) k (Read k f')), R, Rs.
      split; [|split; [done|]].
      { destruct L as [L1 L2 L3 L4 L5 L6 L7 L8 L9]. by constructor. }
      right. exists k, oo, f, f'. split; [done|]. split; [done|]. split; [done|]. right. split; [done|]. split; [by apply S2|]. rewrite E2. lia.
    + (* the read *)
      cbn [tick] in T. rewrite ST in T. injection T as <- <-. exists g. split; [by apply benign_kept, benign_same|].
      rewrite E1. rewrite E2 in LE.
      exists (operations (f' (res oo)) (fst q, t)). split; [lia|]. split; [exact O|]. exists (fst q, t), (f' (res oo)), R, Rs.
      split; [|split; [done|left; split; [exact PS|done]]]. destruct L as [L1 L2 L3 L4 L5 L6 L7 L8 L9]. by constructor.
Qed.

Lemma fine_see_tick g i m c p n : see g i m c p n ->
  match peek c m with
  | inl c' => exists n', n' < n /\ see g i m c' p n'
  | inr p' => p' = p /\ 0 < n
  end.
Proof.
  intros (O & q & d & R & Rs & L & <- & P & LK & LE). unfold peek.
  assert (B : bij R).
  { intros a b a' b' AB AB'. destruct (li_own _ _ _ _ _ _ L) as [A1 B1 _]. split; intros <-; eauto. }
  revert LK LE. induction P as [R x y X|R a b f f' AB F _|R a b f f' AB F _|R a b n1 n2 p p' AB N P _|R n1 n2 f f' N F _|R u a b f f' U AB F _|R p p' P IH|R k f f' F _|R k f f' F _];
    intros LK LE.
  - cbn in *. split; [|lia]. destruct x, y; cbn in X; try done; unfold E3 in *; by subst.
  - destruct (same_node _ _ _ (li_own _ _ _ _ _ _ L) a b AB) as (n1 & n2 & E1 & E2 & NR). cbn [tick finish operations] in *. rewrite E1. rewrite E2 in *.
    cbn [snd]. exists (operations (f' n2) q). split; [lia|]. split; [done|]. exists q, (f' n2), R, Rs. split; [done|]. split; [done|]. split; [by apply F|].
    split; [|done]. by inversion LK.
  - destruct (same_node _ _ _ (li_shared _ _ _ _ _ _ L) a b AB) as (n1 & n2 & E1 & E2 & NR). cbn [tick finish operations] in *. rewrite E1. rewrite E2 in *.
    cbn [snd]. exists (operations (f' n2) q). split; [lia|]. split; [done|]. exists q, (f' n2), R, Rs. split; [done|]. split; [done|]. split; [by apply F|].
    split; [|done]. by inversion LK.
  - inversion LK.
  - inversion LK.
  - inversion LK.
  - by apply IH.
  - inversion LK.
  - inversion LK.
Qed.

Lemma fine_begin g i ws w m q : works !! i = Some ws -> In w ws -> fview g i m q ->
  mid g i m (begin fuel sed dflt w) (run_work fuel sed dflt w q) (operations (begin fuel sed dflt w) q).
Proof.
  intros W I (O & R & Rs & L). destruct (work_in files os h0 setup i ws w W I) as [D K].
  split; [done|]. exists q, (begin fuel sed dflt w), R, Rs. split; [done|]. split; [apply begin_finish|]. left. split; [|done].
  apply ps_apply; [apply L|by apply L].
Qed.
Lemma fine_see_begin g i m q : fview g i m q ->
  see g i m (scan fuel files i) (snd (finish (scan fuel files i) q)) (operations (scan fuel files i) q).
Proof.
  intros (O & R & Rs & L). split; [done|]. exists q, (scan fuel files i), R, Rs. split; [done|]. split; [done|]. unfold scan.
  destruct (files !! i) as [f|] eqn:F; [|split; [apply ps_crash|split; [constructor|done]]].
  split; [|split; [apply looking_snapshots|done]]. apply ps_snapshots. apply Forall_Forall2_diag, Forall_forall. intros d D. apply (li_docs _ _ _ _ _ _ L).
  exists f. split; [done|by apply elem_of_list_In].
Qed.

(** How a run starts. *)
Definition owner0 (a o : nat) : Prop :=
  match o with
  | 0 => exists v x, In v os /\ overlay_root v x /\ reach h0 x a
  | S i => exists d, doc_of files i d /\ reach h0 d a
  end.
Lemma owner0_valid a o : owner0 a o -> a < length h0.
Proof.
  destruct o as [|i].
  - intros (v & x & V & X & RX). eapply reach_valid; [apply setup| |exact RX]. by eapply (su_values _ _ _ setup).
  - intros (d & D & RD). eapply reach_valid; [apply setup| |exact RD]. by eapply (start_separate _ _ _ setup).
Qed.
Lemma owner0_owned : owned owner0 h0.
Proof.
  constructor; [apply owner0_valid|].
  assert (X : forall a i, owner0 a 0 -> owner0 a (S i) -> False).
  { intros a i (v & x & V & X & RX) (d & D & RD). apply doc_in in D as (f & F & D). by eapply (su_values_apart _ _ _ setup f d v x a). }
  intros a [|i] [|j] A B; try done.
  - destruct (X _ _ A B).
  - destruct (X _ _ B A).
  - destruct (decide (i = j)) as [->|NE]; [done|]. destruct A as (d & D & RD), B as (e & E & RE).
    destruct (start_separate _ _ _ setup) as (_ & _ & S). destruct (S i j d e a D E NE RD RE).
Qed.
Lemma owner0_same o : same (fun a b => a = b /\ owner0 a o) h0 h0.
Proof.
  constructor.
  - intros a b b' [-> _] [<- _]. done.
  - intros a a' b [-> _] [-> _]. done.
  - intros a b [<- A]. assert (X : a < length h0) by (by eapply owner0_valid).
    apply lookup_lt_is_Some in X as [n E]. exists n, n. split; [done|]. split; [done|]. split; [done|].
    assert (K : forall x, points_to n x -> owner0 x o).
    { intros x P. destruct o as [|i].
      - destruct A as (v & y & V & Y & RY). exists v, y. split; [done|]. split; [done|]. by eapply reach_step.
      - destruct A as (d & D & RD). exists d. split; [done|]. by eapply reach_step. }
    split.
    + destruct (n_alias n) as [x|] eqn:EA; [|done]. cbn. split; [done|]. apply K. by left.
    + destruct (n_content n) as [ls|] eqn:EC; [|done]. cbn. apply Forall_Forall2_diag, Forall_forall. intros x X. split; [done|].
      apply K. right. exists ls. split; [done|]. by apply elem_of_list_In.
Qed.
Lemma fine_init : exists g, forall i, i < length works -> fview g i (h0, os) (h0, os).
Proof.
  exists owner0. intros i _. split; [apply owner0_owned|]. exists (fun a b => a = b /\ owner0 a (S i)), (fun a b => a = b /\ owner0 a 0).
  assert (T : tok os) by (split; [done|]; split; intros; congruence).
  constructor; cbn [fst snd]; try done.
  - apply owner0_same.
  - apply owner0_same.
  - by intros a b [_ ?].
  - by intros a b [_ ?].
  - intros a b a' b' [-> A] [-> B] ->. by discriminate (ow_fun _ _ owner0_owned _ _ _ A B).
  - intros d D. split; [done|]. exists d. split; [done|constructor].
  - intros k o O. assert (IO : In o os) by (apply elem_of_list_In; by eapply elem_of_list_lookup_2).
    pose proof (su_queries _ _ _ setup) as SQ. rewrite Forall_forall in SQ. destruct (SQ o (proj2 (elem_of_list_In _ _) IO)) as [Q1 Q2 Q3].
    constructor.
    + eapply Forall_impl; [exact Q1|]. by intros q [_ ?].
    + intros ip IP. eapply Forall_impl; [by apply Q2|]. by intros q [_ ?].
    + apply Forall_forall. intros g G. apply Forall_forall. intros c C. apply elem_of_list_In in G, C. split; [by eapply Q3|].
      split; [done|]. exists o, (c_value c). split; [done|]. split; [|constructor]. right. by exists g, c.
    + split; [done|]. exists o, (o_value o). split; [done|]. split; [by left|constructor].
Qed.

Lemma fview_snapshots g i f F m q : fview g i m q -> files !! i = Some f -> snapshots F (fst m) (yf_nodes f) = snapshots F (fst q) (yf_nodes f).
Proof.
  intros (_ & R & Rs & L) FI. assert (D : forall d, In d (yf_nodes f) -> R d d) by (intros d ID; apply (li_docs _ _ _ _ _ _ L); by exists f).
  induction (yf_nodes f) as [|x l IH]; [done|]. cbn [snapshots].
  rewrite (snapshot_same _ _ _ (li_own _ _ _ _ _ _ L) F x x) by (apply D; by left). rewrite IH; [done|]. intros d ID. apply D. by right.
Qed.
End noninterference.

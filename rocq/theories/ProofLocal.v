(** Every action writes only nodes reachable from the node it is run on (or
    nodes it allocates itself), and never links an older node into it. *)
From Verif Require Import Prelude GoStrings Format Yaml Heap MergeTree Combine HeapActions Builder ActionNames Overlay
  SpecReach ProofGrows.

Section local.
Context (ro : loc -> Prop) (h0 : heap) (top : nat).
Hypothesis ro_old : forall l, ro l -> l < length h0 \/ top <= l.

Definition good (h : heap) : Prop :=
  length h0 <= length h /\ (forall l, ro l -> h !! l = h0 !! l) /\
  (forall l n, ~ ro l -> h !! l = Some n -> forall x, points_to n x -> ~ ro x).

Definition node_ok (n : hnode) : Prop := forall x, points_to n x -> ~ ro x.

(** [m] keeps [good], whatever its outcome, as long as the heap has at most [top]
    nodes; its result satisfies [Q]. *)
Definition safe {A} (m : M A) (Q : A -> Prop) : Prop :=
  forall h, length (fst (m h)) <= top -> good h -> good (fst (m h)) /\ forall a, snd (m h) = Ok a -> Q a.

Lemma safe_ret {A} (a : A) (Q : A -> Prop) : Q a -> safe (ret a) Q.
Proof. intros HQ h _ G. split; [exact G|]. by intros a' [= <-]. Qed.
Lemma safe_fail {A} e (Q : A -> Prop) : safe (fail e) Q.
Proof. intros h _ G. split; [exact G|]. discriminate. Qed.
Lemma safe_crash {A} (Q : A -> Prop) : safe crash Q.
Proof. intros h _ G. split; [exact G|]. discriminate. Qed.
Lemma safe_stuck {A} (Q : A -> Prop) : safe stuck Q.
Proof. intros h _ G. split; [exact G|]. discriminate. Qed.
Lemma safe_bind {A B} (m : M A) (f : A -> M B) P Q `{GR : !forall a, grows (f a)} :
  safe m P -> (forall a, P a -> safe (f a) Q) -> safe (bind m f) Q.
Proof.
  intros S K h LN G. specialize (S h). unfold bind in *. destruct (m h) as [h1 [a|e| |]]; cbn in *;
    try (destruct (S LN G); split; [done|discriminate]).
  assert (L1 : length h1 <= top) by (specialize (GR a h1); lia).
  destruct (S L1 G) as [G1 P1]. apply (K a (P1 a eq_refl) h1 LN G1).
Qed.
Ltac gr := intros; cbn beta; grow.
Ltac bnd := eapply safe_bind; [gr| |].
Ltac bndp P := eapply (safe_bind _ _ P); [gr| |].
Lemma safe_weaken {A} (m : M A) (P Q : A -> Prop) : (forall a, P a -> Q a) -> safe m P -> safe m Q.
Proof. intros I S h L G. destruct (S h L G). split; auto. Qed.

Lemma safe_get_any l : safe (get l) (fun _ => True).
Proof. intros h _ G. split; [exact G|auto]. Qed.
Lemma safe_get l : ~ ro l -> safe (get l) node_ok.
Proof.
  intros R h _ G. split; [exact G|]. intros n E. cbn in E. destruct (h !! l) eqn:El; [|discriminate].
  injection E as <-. destruct G as (_ & _ & G). exact (G l h1 R El).
Qed.
Lemma safe_put l n : ~ ro l -> node_ok n -> safe (put l n) (fun _ => True).
Proof.
  intros R NK h _ (G1 & G2 & G3). split; [|auto]. cbn. split; [by rewrite insert_length|]. split.
  - intros x X. rewrite list_lookup_insert_ne; [auto|]. intros ->. contradiction.
  - intros x n' X E. destruct (decide (x = l)) as [->|NE].
    + apply list_lookup_insert_Some in E as [(_ & <- & _)|[? _]]; [exact NK|congruence].
    + rewrite list_lookup_insert_ne in E by congruence. eauto.
Qed.
Lemma safe_alloc n : node_ok n -> safe (alloc n) (fun l => ~ ro l).
Proof.
  intros NK h LN (G1 & G2 & G3). cbn in *. rewrite app_length in LN. cbn in LN. split.
  - split; [rewrite app_length; lia|]. split.
    + intros x X. destruct (ro_old x X) as [Y|Y]; [rewrite lookup_app_l by lia; auto|].
      rewrite !lookup_ge_None_2; [done|lia|rewrite app_length; cbn; lia].
    + intros x n' X E. apply lookup_app_Some in E as [E|[L E]]; [eauto|].
      apply list_lookup_singleton_Some in E as [_ <-]. exact NK.
  - intros a [= <-] R. destruct (ro_old _ R); lia.
Qed.
Lemma safe_put_info l i : ~ ro l -> safe (put_info l i) (fun _ => True).
Proof.
  intros R. bndp (node_ok); [by apply safe_get|]. intros n NK. by apply safe_put.
Qed.
Lemma safe_put_content l c : ~ ro l -> (forall ls x, c = Some ls -> In x ls -> ~ ro x) ->
  safe (put_content l c) (fun _ => True).
Proof.
  intros R C. bndp (node_ok); [by apply safe_get|]. intros n N. apply safe_put; [done|].
  intros x [A|(ls & A & I)]; [apply N; by left|]. cbn in A. eapply C; eauto.
Qed.
Lemma safe_each {A B} (f : A -> M B) `{GR : !forall a, grows (f a)} (P : B -> Prop) l :
  (forall a, In a l -> safe (f a) P) -> safe (each f l) (fun bs => forall b, In b bs -> P b).
Proof.
  induction l as [|a l IH]; intros H; cbn [each]; [apply safe_ret; intros ? []|].
  bndp (P); [apply H; by left|]. intros b Pb.
  bnd; [apply IH; intros; apply H; by right|]. intros bs Pbs. apply safe_ret. intros ? [<-|]; auto.
Qed.
Lemma safe_loop {A} (f : A -> M unit) `{GR : !forall a, grows (f a)} l :
  (forall a, In a l -> safe (f a) (fun _ => True)) -> safe (loop f l) (fun _ => True).
Proof.
  induction l as [|a l IH]; intros H; cbn [loop]; [by apply safe_ret|].
  bnd; [apply H; by left|]. intros _ _. apply IH. intros; apply H; by right.
Qed.

Ltac lp := apply safe_loop; [gr|].
Ltac ec := apply (safe_each _ (fun l => ~ ro l)).
Definition ok_content (c : option (list loc)) : Prop := forall ls x, c = Some ls -> In x ls -> ~ ro x.
Lemma node_content n : node_ok n -> ok_content (n_content n).
Proof. intros N ls x E I. apply N. right. eauto. Qed.

Local Ltac step := first
  [ bnd; [first [eapply safe_get; eassumption | eapply safe_get_any]|intros ? ?]
  | apply safe_ret; exact I | apply safe_fail | apply safe_crash | apply safe_stuck ].

Lemma safe_comments sed o n vs : ~ ro o -> safe (h_merge_comments sed o n vs) (fun _ => True).
Proof. intros R. unfold h_merge_comments. do 2 step. by apply safe_put_info. Qed.

Lemma safe_scalar sed o n vs : ~ ro o -> safe (h_merge_scalar sed o n vs) (fun _ => True).
Proof.
  intros R. unfold h_merge_scalar. step. bnd; [by apply safe_comments|]. intros _ _. do 2 step.
  destruct (kind_eqb _ _); [by apply safe_put_info|]. apply safe_put; [done|].
  intros x [A|(ls & A & _)]; [|discriminate]. apply H0. by left.
Qed.

Lemma safe_copy_fields fuel : forall l, safe (h_copy_fields fuel l) node_ok.
Proof.
  induction fuel as [|f IH]; intros l; cbn [h_copy_fields]; [apply safe_stuck|]. step.
  bndp (fun al => forall x, al = Some x -> ~ ro x).
  { destruct (n_alias a); [|apply safe_ret; discriminate].
    bnd; [apply IH|]. intros x Nx. bnd; [by apply safe_alloc|]. intros a' R.
    apply safe_ret. by intros ? [= <-]. }
  intros al Al. bndp (ok_content).
  { destruct (n_content a); [|apply safe_ret; discriminate].
    bnd; [ec|].
    - intros k _. bnd; [apply IH|]. intros x Nx. by apply safe_alloc.
    - intros ls L. apply safe_ret. intros ? ? [= <-]. apply L. }
  intros c C. apply safe_ret. intros x [A|(ls & A & I)]; [by apply Al|]. eapply C; eauto.
Qed.
Lemma safe_copy fuel l : safe (h_copy fuel l) (fun l => ~ ro l).
Proof. bnd; [apply safe_copy_fields|]. intros x N. by apply safe_alloc. Qed.

Lemma safe_sanitize sed fuel : forall l, ~ ro l -> safe (h_sanitize fuel sed l) (fun _ => True).
Proof.
  induction fuel as [|f IH]; intros l R; cbn [h_sanitize]; [apply safe_stuck|]. step.
  bndp (fun _ : unit => True).
  - destruct (i_kind (n_info a)); try (by apply safe_ret);
      (destruct (n_content a) eqn:E; [|by apply safe_ret]; lp; intros x X; apply IH;
       eapply node_content; eauto).
  - intros _ _. step. by apply safe_put_info.
Qed.

Lemma safe_add_node fuel sed o nv : ~ ro o -> safe (h_add_node fuel sed o nv) (fun _ => True).
Proof.
  intros R. unfold h_add_node. bnd; [ec; intros; apply safe_copy|].
  intros temp HT. bnd; [lp; intros; apply safe_sanitize; auto|]. intros _ _. step.
  apply safe_put_content; [done|]. intros ls x E I.
  unfold append_slice in E. pose proof (node_content _ H) as C. destruct (n_content a) as [c|].
  - injection E as <-. apply in_app_or in I as [I|I]; [eapply C; eauto|auto].
  - destruct temp; [discriminate|]. injection E as <-. auto.
Qed.

Lemma safe_to_kind k tag o : ~ ro o -> safe (h_to_kind k tag o) (fun _ => True).
Proof.
  intros R. unfold h_to_kind. step. destruct (kind_eqb _ _); [by apply safe_ret|]. apply safe_put; [done|].
  intros x [A|(ls & A & I)]; [apply H; by left|]. cbn in A. injection A as <-. destruct I.
Qed.

Lemma safe_array fuel sed o n : ~ ro o -> safe (h_merge_array fuel sed o n) (fun _ => True).
Proof.
  intros R. unfold h_merge_array. bnd; [by apply safe_to_kind|]. intros _ _. step.
  destruct (n_content a); [|by apply safe_ret]. step.
  bnd; [by apply safe_comments|]. intros _ _. by apply safe_add_node.
Qed.

Lemma safe_entries sed f nk `{GR : !forall o k, grows (f o k)} : (forall ov key, ~ ro ov -> safe (f ov key) (fun _ => True)) ->
  forall n oc, length oc <= n -> (forall x, In x oc -> ~ ro x) -> safe (h_merge_entries sed f nk oc) (fun _ => True).
Proof.
  intros Hf. induction n as [|n IH]; intros oc L R.
  { destruct oc; [by apply safe_ret|cbn in L; lia]. }
  destruct oc as [|ok [|ov rest]]; [by apply safe_ret|by apply safe_ret|].
  assert (Rk : ~ ro ok) by (apply R; by left). assert (Rv : ~ ro ov) by (apply R; right; by left).
  assert (Rr : safe (h_merge_entries sed f nk rest) (fun _ => True)).
  { apply IH; [cbn in L; lia|]. intros; apply R; right; by right. }
  cbn [h_merge_entries]. do 2 step. destruct (_ || _); [|exact Rr]. step.
  bnd; [by apply safe_comments|]. intros _ _. bnd; [by apply Hf|]. intros _ _.
  destruct (check_for_markers _); [|by apply safe_ret].
  bnd; [by apply safe_scalar|]. intros _ _. bnd; [exact Rr|]. intros _ _. by apply safe_ret.
Qed.

Lemma safe_pair fuel sed f nk nv o `{GR : !forall o k, grows (f o k)} : (forall ov key, ~ ro ov -> safe (f ov key) (fun _ => True)) ->
  ~ ro o -> safe (h_merge_pair fuel sed f nk nv o) (fun _ => True).
Proof.
  intros Hf R. unfold h_merge_pair. bnd; [by apply safe_to_kind|]. intros _ _. step.
  bndp (fun _ : bool => True).
  - destruct (n_content a) eqn:E; [|by apply safe_ret]. eapply safe_entries; [typeclasses eauto|..]; [exact Hf|done|].
    intros x X. eapply node_content; eauto.
  - intros [] _; [by apply safe_ret|by apply safe_add_node].
Qed.

Lemma safe_pairs fuel sed m o `{GR : !forall o n k, grows (m o n k)} : (forall ov nv key, ~ ro ov -> safe (m ov nv key) (fun _ => True)) -> ~ ro o ->
  forall n ps, length ps <= n -> safe (h_merge_pairs fuel sed m o ps) (fun _ => True).
Proof.
  intros Hm R. induction n as [|n IH]; intros ps L.
  { destruct ps; [by apply safe_ret|cbn in L; lia]. }
  destruct ps as [|nk [|nv rest]]; [by apply safe_ret|by apply safe_ret|]. cbn [h_merge_pairs].
  bnd; [apply safe_pair; auto|]. intros _ _. apply IH. cbn in L. lia.
Qed.

Lemma safe_merge sed fuel : forall o n ks, ~ ro o -> safe (h_merge fuel sed o n ks) (fun _ => True).
Proof.
  induction fuel as [|f IH]; intros o n ks R; cbn [h_merge]; [apply safe_stuck|]. step.
  destruct (i_kind (n_info a)).
  - step. by apply safe_put_info.
  - step. destruct (n_content a0) as [oc|] eqn:E; [|by apply safe_ret].
    destruct (n_content a) as [nl|]; [|by apply safe_ret].
    bnd; [by apply safe_comments|]. intros _ _.
    destruct oc as [|o1 oc]; [apply safe_crash|]. destruct nl as [|n1 nl]; [apply safe_crash|].
    apply IH. eapply node_content; [eassumption|exact E|by left].
  - by apply safe_array.
  - destruct (n_content a); [|by apply safe_ret]. eapply safe_pairs; [gr|eauto..].
  - bnd; [by apply safe_scalar|]. intros _ _. step. by apply safe_put_info.
  - apply safe_fail.
Qed.
Lemma safe_merge_node sed fuel o ns : ~ ro o -> safe (h_merge_node fuel sed o ns) (fun _ => True).
Proof. intros R. lp. intros. by apply safe_merge. Qed.

Lemma safe_replace sed fuel o n : ~ ro o -> safe (h_replace_node fuel sed o n) (fun _ => True).
Proof.
  intros R. unfold h_replace_node. step. bnd; [apply safe_copy_fields|]. intros nc N.
  bnd; [by apply safe_put|]. intros _ _. by apply safe_put_info.
Qed.

Lemma safe_combine sed o n : ~ ro o -> safe (h_combine_node sed o n) (fun _ => True).
Proof.
  intros R. unfold h_combine_node. do 2 step. destruct (_ || _); [apply safe_fail|].
  bnd; [by apply safe_comments|]. intros _ _. step.
  repeat match goal with
  | |- safe (if ?b then _ else _) _ => destruct b
  | |- safe (match ?b with _ => _ end) _ => destruct b
  | |- safe (fail _) _ => apply safe_fail
  | |- safe (put_info _ _) _ => by apply safe_put_info
  end.
Qed.

Lemma safe_delete fuel : forall pn child, ~ ro pn -> safe (h_delete fuel pn child) (fun _ => True).
Proof.
  induction fuel as [|f IH]; intros pn child R; cbn [h_delete]; [apply safe_stuck|]. step.
  destruct (n_content a) as [content|] eqn:E; [|by apply safe_ret].
  assert (C : forall x, In x content -> ~ ro x) by (intros; eapply node_content; eauto).
  assert (S : forall cs i, (forall x, In x cs -> ~ ro x) -> safe (h_scan (fun c => h_delete f c child) pn child
     (i_kind (n_info a)) content i cs) (fun _ => True)); [|by apply S].
  induction cs as [|c cs IHc]; intros i Rc; cbn [h_scan]; [by apply safe_ret|].
  destruct (Nat.eqb c child).
  - destruct (cut _ content i) as [c'|] eqn:Ec; [|apply safe_crash]. apply safe_put_content; [done|].
    intros ls x [= <-] I. apply C. unfold cut in Ec. destruct (Nat.ltb _ _); [discriminate|]. injection Ec as <-.
    apply in_app_or in I as [I|I]; apply elem_of_list_In in I; apply elem_of_list_In.
    + rewrite <- (take_drop (i - (if (kind_eqb (i_kind (n_info a)) KSequence || kind_eqb (i_kind (n_info a)) KDocument)
        || Nat.even i then 0 else 1)) content). apply elem_of_app. by left.
    + eapply (elem_of_submseteq _ _ _ I). apply sublist_submseteq. apply sublist_drop.
  - step. bndp (fun _ : unit => True).
    + destruct (n_content a0); [|by apply safe_ret]. apply IH. apply Rc. by left.
    + intros _ _. apply IHc. intros; apply Rc; by right.
Qed.

Lemma safe_halloc : forall t, safe (h_alloc t) (fun l => ~ ro l).
Proof.
  intros t. induction t as [i|i l IH] using tree_ind'; cbn [h_alloc].
  - apply safe_alloc. intros x [A|(ls & A & _)]; discriminate.
  - bndp (fun ls => forall x, In x ls -> ~ ro x).
    + induction IH as [|t l It _ IH]; [apply safe_ret; intros ? []|].
      assert (GL : grows ((fix go (ts : list tree) : M (list nat) := match ts with [] => ret []
           | t :: r => do! l := h_alloc t in do! ls := go r in ret (l :: ls) end) l)) by (clear; induction l; grow).
      bnd; [exact It|]. intros a Ra. bnd; [exact IH|]. intros ls L.
      apply safe_ret. intros ? [<-|]; auto.
    + intros ls L. apply safe_alloc. intros x [A|(ls' & A & I)]; [discriminate|].
      cbn in A. injection A as <-. auto.
Qed.

Lemma reach_ok h l x : good h -> ~ ro l -> reach h l x -> ~ ro x.
Proof.
  intros G R. induction 1 as [|y n z _ IH E P]; [done|]. destruct G as (_ & _ & G). exact (G y n IH E z P).
Qed.

Lemma safe_find qs node : Forall finder_ok qs -> ~ ro node ->
  safe (h_find qs node) (fun rs => forall x, In x rs -> ~ ro x).
Proof.
  intros F R. unfold h_find.
  eapply safe_bind; [intros n; destruct (_ && _); [gr|intros h; done]|eapply safe_get; eassumption|intros ? ?].
  destruct (_ && _); [apply safe_ret; intros ? []|].
  intros h _ G. split; [exact G|]. cbn. intros rs [= <-] x X.
  apply in_concat in X as (l & L & X). apply in_map_iff in L as (q & <- & Q).
  rewrite Forall_forall in F. eapply reach_ok; [exact G|exact R|]. eapply F; [by apply elem_of_list_In|done].
Qed.

Lemma pure_bind {A B} (m : M A) (f : A -> M B) : (forall h, fst (m h) = h) -> (forall a h, fst (f a h) = h) ->
  forall h, fst (bind m f h) = h.
Proof. intros P Q h. unfold bind. specialize (P h). destruct (m h) as [h1 [a|e| |]]; cbn in *; subst; auto. Qed.
Lemma equal_pure fuel : forall a b h, fst (h_equal fuel a b h) = h.
Proof.
  induction fuel as [|f IH]; intros a b; cbn [h_equal]; [done|].
  apply pure_bind; [done|]. intros na. apply pure_bind; [done|]. intros nb.
  destruct (negb _); [done|]. apply pure_bind.
  - destruct (n_alias na), (n_alias nb); auto.
  - intros []; cbn [negb]; [|done].
    destruct (n_content na) as [la|], (n_content nb) as [lb|]; try done.
    revert lb. induction la as [|x la IHl]; intros [|y lb]; try done.
    apply pure_bind; [auto|]. intros []; [auto|done].
Qed.
Lemma safe_equal fuel a b : safe (h_equal fuel a b) (fun _ => True).
Proof. intros h _ G. rewrite equal_pure. auto. Qed.

Lemma safe_all_equal fuel rs v : safe (h_all_equal fuel rs v) (fun _ => True).
Proof.
  induction rs as [|r rs IH]; cbn [h_all_equal]; [by apply safe_ret|].
  bndp (fun _ : bool => True); [apply safe_equal|]. intros [] _; [apply IH|by apply safe_ret].
Qed.

Lemma find_pure qs node h : fst (h_find qs node h) = h.
Proof.
  unfold h_find, bind, get. destruct (h !! node); [|done]. destruct (_ && _); done.
Qed.
Lemma safe_condition fuel c node : safe (h_condition fuel c node) (fun _ => True).
Proof.
  bndp (fun _ : list loc => True).
  - intros h _ G. rewrite find_pure. auto.
  - intros [|r rs] _; [by apply safe_ret|]. bnd; [apply safe_get_any|intros v _].
    destruct (node_is_zero v); [by apply safe_ret|apply safe_all_equal].
Qed.
Lemma safe_check_query fuel cs node : safe (h_check_query fuel cs node) (fun _ => True).
Proof.
  induction cs as [|c cs IH]; cbn [h_check_query]; [by apply safe_ret|].
  bndp (fun _ : bool => True); [apply safe_condition|]. intros [] _; [apply IH|by apply safe_ret].
Qed.
Lemma safe_check fuel dq node : safe (h_check_queries fuel dq node) (fun _ => True).
Proof.
  assert (A : safe (h_check_any fuel dq node) (fun _ => True)).
  { induction dq as [|g dq IH]; cbn [h_check_any]; [by apply safe_ret|].
    bndp (fun _ : bool => True); [apply safe_check_query|]. intros [] _; [by apply safe_ret|apply IH]. }
  destruct dq; [by apply safe_ret|exact A].
Qed.

Lemma all_equal_pure fuel rs v : forall h, fst (h_all_equal fuel rs v h) = h.
Proof. induction rs as [|r rs IH]; cbn [h_all_equal]; [done|]. apply pure_bind; [apply equal_pure|]. intros []; [auto|done]. Qed.
Lemma condition_pure fuel c node : forall h, fst (h_condition fuel c node h) = h.
Proof.
  apply pure_bind; [apply find_pure|]. intros [|r rs]; [done|]. apply pure_bind; [done|]. intros v.
  destruct (node_is_zero v); [done|apply all_equal_pure].
Qed.
Lemma check_query_pure fuel c node : forall h, fst (h_check_query fuel c node h) = h.
Proof. induction c; cbn [h_check_query]; [done|]. apply pure_bind; [apply condition_pure|]. intros []; [auto|done]. Qed.
Lemma check_pure fuel dq node : forall h, fst (h_check_queries fuel dq node h) = h.
Proof.
  assert (A : forall h, fst (h_check_any fuel dq node h) = h).
  { induction dq as [|g dq IH]; cbn [h_check_any]; [done|]. apply pure_bind; [apply check_query_pure|]. intros []; [done|auto]. }
  destruct dq; [done|exact A].
Qed.

Lemma safe_inject fuel sed ip value node : Forall finder_ok ip -> ~ ro node ->
  safe (h_inject fuel sed ip value node) (fun _ => True).
Proof.
  intros F R. unfold h_inject. destruct (build_all _) as [ts|e| |]; try by apply safe_fail.
  2:{ apply safe_crash. } 2:{ apply safe_stuck. }
  destruct (build_paths sed ts) as [y|e| |]; try by apply safe_crash. 2:{ apply safe_stuck. }
  bnd; [apply safe_halloc|]. intros ly _. bnd; [by apply safe_merge_node|]. intros _ _.
  bnd; [by apply safe_find|]. intros rs Rs. lp. intros. apply safe_replace. auto.
Qed.

Lemma safe_act fuel sed a value root n : ~ ro root -> ~ ro n -> safe (h_act fuel sed a value root n) (fun _ => True).
Proof.
  intros R N. destruct a; cbn [h_act];
    [by apply safe_merge_node|by apply safe_merge_node|by apply safe_replace|by apply safe_delete|by apply safe_combine].
Qed.

Lemma safe_handle fuel sed o node : Forall finder_ok (o_queries o) ->
  (forall ip, o_inject o = Some ip -> Forall finder_ok ip) -> ~ ro node ->
  safe (h_handle_inject fuel sed o node) (fun _ => True).
Proof.
  intros Q I R. unfold h_handle_inject.
  destruct (build_all _) as [ts|[]| |]; try apply safe_fail; try apply safe_crash; try apply safe_stuck; [by apply safe_inject|].
  destruct (o_inject o); [|by apply safe_ret]. apply safe_inject; auto.
Qed.

Lemma find_pure' qs node h : forall h2 r, h_find qs node h = (h2, r) -> h2 = h.
Proof. intros h2 r E. pose proof (find_pure qs node h) as X. by rewrite E in X. Qed.

Lemma apply_good fuel sed dflt o node h : Forall finder_ok (o_queries o) ->
  (forall ip, o_inject o = Some ip -> Forall finder_ok ip) -> ~ ro node -> good h ->
  length (fst (fst (apply fuel sed dflt o node h))) <= top ->
  good (fst (fst (apply fuel sed dflt o node h))).
Proof.
  intros Q I R G. unfold apply. pose proof (safe_check fuel (o_docqueries o) node h) as G1.
  assert (PC : fst (h_check_queries fuel (o_docqueries o) node h) = h) by apply check_pure.
  destruct (h_check_queries fuel (o_docqueries o) node h) as [h1 [[]|e| |]]; cbn [fst snd] in G1, PC |- *; subst h1; auto.
  pose proof (safe_find (o_queries o) node Q R h) as G2.
  destruct (h_find (o_queries o) node h) as [h2 r2] eqn:EF. assert (h2 = h) as -> by (eapply find_pure'; eauto).
  destruct r2 as [[|n ns]|e| |]; cbn [fst snd] in G2 |- *; auto.
  - assert (S : safe (h_on_missing fuel sed (resolve_missing dflt o) node) (fun _ => True)).
    { unfold h_on_missing. destruct (o_missing _); [by apply safe_ret|by apply safe_ret|].
      apply safe_handle; [| |done]; unfold resolve_missing; destruct (o_missing o); auto;
        destruct (equal_fold _ _); auto. }
    intros L. specialize (S h). destruct (h_on_missing _ _ _ _ h) as [h3 r3]. cbn [fst snd] in *. by apply S.
  - intros L. assert (LH : length h <= top).
    { pose proof (grows_do_action fuel sed (o_action o) (o_value o) node (n :: ns) h) as GD.
      destruct (h_do_action _ _ _ _ _ _ h). cbn in *. lia. }
    destruct (G2 LH G) as [_ P2].
    assert (S : safe (loop (h_act fuel sed (o_action o) (o_value o) node) (n :: ns)) (fun _ => True)).
    { apply safe_loop; [gr|]. intros x X. apply safe_act; [done|]. exact (P2 _ eq_refl x X). }
    unfold h_do_action in *. specialize (S h). destruct (loop _ _ h). by apply S.
Qed.
End local.

(** ** The region nobody can reach from the document *)
Lemma reach_good h doc : good (fun l => l < length h /\ ~ reach h doc l) h h.
Proof.
  split; [lia|]. split; [done|]. intros l n NR E x P [X NX].
  assert (RL : ~ ~ reach h doc l).
  { intros N. apply NR. split; [by eapply lookup_lt_Some|exact N]. }
  apply RL. intros RL'. apply NX. eapply reach_step; eauto.
Qed.

Lemma apply_local fuel sed dflt o doc h h' o' r :
  Forall finder_ok (o_queries o) -> (forall ip, o_inject o = Some ip -> Forall finder_ok ip) ->
  apply fuel sed dflt o doc h = (h', o', r) ->
  length h <= length h' /\
  forall x, x < length h -> ~ reach h doc x -> h' !! x = h !! x /\ ~ reach h' doc x.
Proof.
  intros Q I E.
  pose proof (apply_good (fun l => l < length h /\ ~ reach h doc l) h (length h') (fun l H => or_introl (proj1 H)) fuel sed dflt o doc h Q I) as G.
  rewrite E in G. cbn in G.
  assert (N : ~ (doc < length h /\ ~ reach h doc doc)) by (intros [_ H]; apply H; constructor).
  specialize (G N (reach_good h doc) (le_n _)). destruct G as (G1 & G2 & G3). split; [done|].
  intros x X NR. split; [by apply G2|]. intros R.
  apply (reach_ok _ h h' doc x (conj G1 (conj G2 G3)) N R). auto.
Qed.

(** ** No dangling pointer appears *)
Lemma apply_closed fuel sed dflt o doc h h' o' r :
  Forall finder_ok (o_queries o) -> (forall ip, o_inject o = Some ip -> Forall finder_ok ip) ->
  doc < length h -> (forall l n x, h !! l = Some n -> points_to n x -> x < length h) ->
  apply fuel sed dflt o doc h = (h', o', r) ->
  forall l n x, h' !! l = Some n -> points_to n x -> x < length h'.
Proof.
  intros Q I D C E. pose proof (apply_grows fuel sed dflt o doc h) as GR. rewrite E in GR. cbn in GR.
  pose proof (apply_good (fun l => length h' <= l) h (length h') (fun l H => or_intror H) fuel sed dflt o doc h Q I) as G.
  rewrite E in G. cbn in G. destruct G as (_ & _ & G).
  - lia.
  - split; [lia|]. split; [done|]. intros l n _ L x P. specialize (C l n x L P). lia.
  - done.
  - intros l n x L P. enough (~ length h' <= x) by lia. eapply G; [|exact L|exact P].
    apply lookup_lt_Some in L. lia.
Qed.

(** ** Histories *)
Lemma history_good dflt docs h h' : history dflt docs h h' ->
  forall (ro : loc -> Prop) h0, (forall l, ro l -> l < length h0 \/ length h' <= l) -> (forall d, In d docs -> ~ ro d) ->
  good ro h0 h -> length h <= length h' /\ good ro h0 h'.
Proof.
  induction 1 as [h|h fuel sed o doc h1 o' r h2 ID Q I E H IH]; intros ro h0 RO ND G; [done|].
  pose proof (apply_grows fuel sed dflt o doc h) as GR. rewrite E in GR. cbn in GR.
  assert (L2 : length h1 <= length h2).
  { destruct (IH (fun _ => False) h1) as [L _]; [done|auto| |done]. split; [done|]. split; [done|auto]. }
  assert (G1 : good ro h0 h1).
  { pose proof (apply_good ro h0 (length h2) RO fuel sed dflt o doc h Q I (ND _ ID) G) as X. rewrite E in X. by apply X. }
  destruct (IH ro h0 RO ND G1). split; [lia|done].
Qed.

Lemma history_local dflt docs h h' : history dflt docs h h' ->
  length h <= length h' /\
  forall x, x < length h -> (forall d, In d docs -> ~ reach h d x) ->
    h' !! x = h !! x /\ forall d, In d docs -> ~ reach h' d x.
Proof.
  intros H. set (ro := fun l => l < length h /\ forall d, In d docs -> ~ reach h d l).
  assert (G0 : good ro h h).
  { split; [lia|]. split; [done|]. intros l n NR E x P [X NX]. apply NR. split; [by eapply lookup_lt_Some|].
    intros d D R. apply (NX d D). eapply reach_step; eauto. }
  assert (ND : forall d, In d docs -> ~ ro d) by (intros d D [_ N]; apply (N d D); constructor).
  destruct (history_good dflt docs h h' H ro h (fun l R => or_introl (proj1 R)) ND G0) as [L G].
  split; [done|]. intros x X NR. destruct G as (G1 & G2 & G3). split; [apply G2; by split|].
  intros d D R. apply (reach_ok ro h h' d x (conj G1 (conj G2 G3)) (ND d D) R). by split.
Qed.

Lemma history_closed dflt docs h h' : history dflt docs h h' -> (forall d, In d docs -> d < length h) ->
  closed h -> closed h'.
Proof.
  intros H D C. pose proof (history_local _ _ _ _ H) as [L _].
  destruct (history_good dflt docs h h' H (fun l => length h' <= l) h (fun l R => or_intror R)) as [_ (_ & _ & G)].
  - intros d I. specialize (D d I). lia.
  - split; [done|]. split; [done|]. intros l n _ E x P. specialize (C l n x E P). lia.
  - intros l n x E P. enough (~ length h' <= x) by lia. eapply G; [|exact E|exact P]. apply lookup_lt_Some in E. lia.
Qed.

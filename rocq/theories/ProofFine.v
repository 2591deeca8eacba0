(** Run without interruption, the sequences of operations of Fine.v do what the
    functions of HeapActions.v and Overlay.v do. *)
From Verif Require Import Prelude GoStrings Format Yaml Heap MergeTree Combine HeapActions Builder ActionNames Overlay Fine.

Definition lifts {A} (p : prog A) (m : M A) : Prop :=
  forall h t, finish p (h, t) = ((fst (m h), t), snd (m h)).

Lemma lifts_done {A} (r : res A) : lifts (Done r) (fun h => (h, r)).
Proof. by intros h t. Qed.
Lemma lifts_ret {A} (a : A) : lifts (pret a) (ret a).
Proof. by intros h t. Qed.
Lemma lifts_fail {A} e : lifts (A := A) (pfail e) (fail e).
Proof. by intros h t. Qed.
Lemma lifts_crash {A} : lifts (A := A) pcrash crash.
Proof. by intros h t. Qed.
Lemma lifts_stuck {A} : lifts (A := A) pstuck stuck.
Proof. by intros h t. Qed.
Lemma lifts_get l : lifts (pget l) (get l).
Proof. intros h t. unfold pget, get. cbn. by destruct (h !! l). Qed.
Lemma lifts_put l n : lifts (pput l n) (put l n).
Proof. by intros h t. Qed.
Lemma lifts_alloc n : lifts (palloc n) (alloc n).
Proof. by intros h t. Qed.

Lemma finish_bind {A B} (p : prog A) (f : A -> prog B) m :
  finish (pbind p f) m =
  match finish p m with
  | (m', Ok a) => finish (f a) m'
  | (m', Err e) => (m', Err e)
  | (m', Panic) => (m', Panic)
  | (m', Fuel) => (m', Fuel)
  end.
Proof.
  revert m. induction p as [[]|l k IH|l n k IH|n k IH|q l k IH|i k IH|b i k IH|i a k IH]; intros m; cbn; try done.
  - destruct (fst m !! l); [apply IH|done].
  - destruct (snd m !! i); [apply IH|done].
  - destruct (snd m !! i) as [o|]; [|done]. destruct (o_missing o); try apply IH. destruct b; apply IH.
Qed.
Lemma lifts_bind {A B} (p : prog A) (m : M A) (f : A -> prog B) (g : A -> M B) :
  lifts p m -> (forall a, lifts (f a) (g a)) -> lifts (pbind p f) (bind m g).
Proof.
  intros P F h t. rewrite finish_bind, P. unfold bind. destruct (m h) as [h' [a|e| |]]; cbn; try done. apply F.
Qed.
Lemma lifts_each {A B} (f : A -> prog B) (g : A -> M B) l : (forall a, lifts (f a) (g a)) -> lifts (peach f l) (each g l).
Proof.
  intros F. induction l as [|a l IH]; [apply lifts_ret|]. apply lifts_bind; [done|]. intros b. apply lifts_bind; [done|]. intros bs. apply lifts_ret.
Qed.
Lemma lifts_loop {A} (f : A -> prog unit) (g : A -> M unit) l : (forall a, lifts (f a) (g a)) -> lifts (ploop f l) (loop g l).
Proof. intros F. induction l as [|a l IH]; [apply lifts_ret|]. by apply lifts_bind. Qed.

Ltac lift1 :=
  match goal with
  | |- lifts (pret _) _ => apply lifts_ret
  | |- lifts (pfail _) _ => apply lifts_fail
  | |- lifts pcrash _ => apply lifts_crash
  | |- lifts pstuck _ => apply lifts_stuck
  | |- lifts (pget _) _ => apply lifts_get
  | |- lifts (pput _ _) _ => apply lifts_put
  | |- lifts (palloc _) _ => apply lifts_alloc
  | |- lifts (pbind _ _) _ => apply lifts_bind; [|intros ?]
  | |- lifts (peach _ _) _ => apply lifts_each; intros
  | |- lifts (ploop _ _) _ => apply lifts_loop; intros
  | H : lifts ?p _ |- lifts ?p _ => exact H
  | H : forall _, lifts (?f _) _ |- lifts (?f _) _ => apply H
  | H : forall _, lifts (?f _ ?x) _ |- lifts (?f _ ?x) _ => apply H
  | H : forall _, lifts (?f _ ?x _) _ |- lifts (?f _ ?x _) _ => apply H
  | H : forall _, lifts (?f _ _ _) _ |- lifts (?f _ _ _) _ => apply H
  | H : forall _ _, lifts (?f _ _) _ |- lifts (?f _ _) _ => apply H
  | H : forall _ _ _, lifts (?f _ _ _ _ _) _ |- lifts (?f _ _ _ _ _) _ => apply H
  | |- lifts (match ?x with _ => _ end) _ => destruct x
  | |- lifts (let x := _ in _) _ => cbv zeta
  end.
Ltac lift := repeat lift1.

Lemma lifts_put_info l i : lifts (pput_info l i) (put_info l i).
Proof. unfold pput_info, put_info. lift. Qed.
Lemma lifts_put_content l c : lifts (pput_content l c) (put_content l c).
Proof. unfold pput_content, put_content. lift. Qed.
Lemma lifts_comments sed o n v : lifts (p_merge_comments sed o n v) (h_merge_comments sed o n v).
Proof. unfold p_merge_comments, h_merge_comments. lift. apply lifts_put_info. Qed.
Ltac lift2 := repeat first
  [ match goal with
    | |- lifts (pput_info _ _) _ => apply lifts_put_info
    | |- lifts (pput_content _ _) _ => apply lifts_put_content
    | |- lifts (p_merge_comments _ _ _ _) _ => apply lifts_comments
    end | lift1 ].
Lemma lifts_scalar sed o n v : lifts (p_merge_scalar sed o n v) (h_merge_scalar sed o n v).
Proof. unfold p_merge_scalar, h_merge_scalar. lift2. Qed.
Lemma lifts_copy_fields f : forall l, lifts (p_copy_fields f l) (h_copy_fields f l).
Proof. induction f as [|f IH]; intros l; cbn [p_copy_fields h_copy_fields]; lift2. Qed.
Lemma lifts_copy f l : lifts (p_copy f l) (h_copy f l).
Proof. unfold p_copy, h_copy. apply lifts_bind; [apply lifts_copy_fields|]. intros. lift. Qed.
Lemma lifts_sanitize sed f : forall l, lifts (p_sanitize f sed l) (h_sanitize f sed l).
Proof. induction f as [|f IH]; intros l; cbn [p_sanitize h_sanitize]; lift2. Qed.
Lemma lifts_add_node f sed o l : lifts (p_add_node f sed o l) (h_add_node f sed o l).
Proof.
  unfold p_add_node, h_add_node. apply lifts_bind; [apply lifts_each; intros; apply lifts_copy|]. intros.
  apply lifts_bind; [apply lifts_loop; intros; apply lifts_sanitize|]. intros. lift2.
Qed.
Lemma lifts_to_kind k tag o : lifts (p_to_kind k tag o) (h_to_kind k tag o).
Proof. unfold p_to_kind, h_to_kind. lift2. Qed.
Ltac lift3 := repeat first
  [ match goal with
    | |- lifts (pput_info _ _) _ => apply lifts_put_info
    | |- lifts (pput_content _ _) _ => apply lifts_put_content
    | |- lifts (p_merge_comments _ _ _ _) _ => apply lifts_comments
    | |- lifts (p_merge_scalar _ _ _ _) _ => apply lifts_scalar
    | |- lifts (p_add_node _ _ _ _) _ => apply lifts_add_node
    | |- lifts (p_to_kind _ _ _) _ => apply lifts_to_kind
    end | lift1 ].
Lemma lifts_array f sed o n : lifts (p_merge_array f sed o n) (h_merge_array f sed o n).
Proof. unfold p_merge_array, h_merge_array. lift3. Qed.
Lemma lifts_entries sed (f : loc -> list N -> prog unit) (g : loc -> list N -> M unit) nk : (forall a k, lifts (f a k) (g a k)) ->
  forall oc, lifts (p_merge_entries sed f nk oc) (h_merge_entries sed g nk oc).
Proof.
  intros F oc. remember (length oc) as n eqn:L. assert (LE : length oc <= n) by lia. clear L. revert oc LE.
  induction n as [|n IH]; intros [|ok [|ov rest]] L; cbn [length] in L; try (cbn; apply lifts_ret); try lia.
  cbn [p_merge_entries h_merge_entries]. assert (R : lifts (p_merge_entries sed f nk rest) (h_merge_entries sed g nk rest)) by (apply IH; lia).
  lift3.
Qed.
Lemma lifts_pair fuel sed (f : loc -> list N -> prog unit) (g : loc -> list N -> M unit) nk nv o : (forall a k, lifts (f a k) (g a k)) ->
  lifts (p_merge_pair fuel sed f nk nv o) (h_merge_pair fuel sed g nk nv o).
Proof.
  intros F. unfold p_merge_pair, h_merge_pair. apply lifts_bind; [apply lifts_to_kind|]. intros. apply lifts_bind; [lift|]. intros.
  apply lifts_bind; [destruct (n_content _); [by apply lifts_entries|lift]|]. intros []; [lift|apply lifts_add_node].
Qed.
Lemma lifts_pairs fuel sed (m : loc -> loc -> list N -> prog unit) (m' : loc -> loc -> list N -> M unit) o : (forall a b k, lifts (m a b k) (m' a b k)) ->
  forall ps, lifts (p_merge_pairs fuel sed m o ps) (h_merge_pairs fuel sed m' o ps).
Proof.
  intros F oc. remember (length oc) as n eqn:L. assert (LE : length oc <= n) by lia. clear L. revert oc LE.
  induction n as [|n IH]; intros [|ok [|ov rest]] L; cbn [length] in L; try (cbn; apply lifts_ret); try lia.
  cbn [p_merge_pairs h_merge_pairs]. apply lifts_bind; [by apply lifts_pair|]. intros. apply IH. lia.
Qed.
Lemma lifts_merge sed f : forall o n ks, lifts (p_merge f sed o n ks) (h_merge f sed o n ks).
Proof.
  induction f as [|f IH]; intros o n ks; cbn [p_merge h_merge]; [lift|]. apply lifts_bind; [lift|]. intros nn. destruct (i_kind (n_info nn)).
  - lift3.
  - lift3.
  - apply lifts_array.
  - destruct (n_content nn); [|lift]. by apply lifts_pairs.
  - lift3.
  - lift3.
Qed.
Lemma lifts_merge_node f sed o ns : lifts (p_merge_node f sed o ns) (h_merge_node f sed o ns).
Proof. apply lifts_loop. intros. apply lifts_merge. Qed.
Lemma lifts_replace f sed o n : lifts (p_replace_node f sed o n) (h_replace_node f sed o n).
Proof.
  unfold p_replace_node, h_replace_node. apply lifts_bind; [lift|]. intros. apply lifts_bind; [apply lifts_copy_fields|]. intros. lift2.
Qed.
Lemma lifts_combine sed o n : lifts (p_combine_node sed o n) (h_combine_node sed o n).
Proof. unfold p_combine_node, h_combine_node. lift2. Qed.
Lemma lifts_scan (f : loc -> prog unit) (g : loc -> M unit) pn c k l : (forall a, lifts (f a) (g a)) ->
  forall cs i, lifts (p_scan f pn c k l i cs) (h_scan g pn c k l i cs).
Proof.
  intros F. induction cs as [|x cs IH]; intros i; cbn [p_scan h_scan]; [lift|]. destruct (Nat.eqb x c); [destruct (cut k l i); lift2|].
  apply lifts_bind; [lift|]. intros n. apply lifts_bind; [destruct (n_content n); [apply F|lift]|]. intros. apply IH.
Qed.
Lemma lifts_delete f : forall pn c, lifts (p_delete f pn c) (h_delete f pn c).
Proof.
  induction f as [|f IH]; intros pn c; cbn [p_delete h_delete]; [lift|]. apply lifts_bind; [lift|]. intros n. destruct (n_content n); [|lift].
  apply lifts_scan. intros. apply IH.
Qed.
Lemma lifts_find qs node : lifts (p_find qs node) (h_find qs node).
Proof.
  unfold p_find, h_find. apply lifts_bind; [lift|]. intros n. destruct (_ && _); [lift|].
  intros h t. cbn [fst snd]. rewrite finish_bind.
  assert (X : finish (peach (fun q => Look q node pret) qs) (h, t) = ((h, t), Ok (map (fun q => q_find q h node) qs))).
  { induction qs as [|q qs IH]; [done|]. cbn [peach map]. cbn. rewrite finish_bind, IH. done. }
  by rewrite X.
Qed.
Lemma lifts_equal f : forall a b, lifts (p_equal f a b) (h_equal f a b).
Proof.
  induction f as [|f IH]; intros a b; cbn [p_equal h_equal]; [lift|]. apply lifts_bind; [lift|]. intros na. apply lifts_bind; [lift|]. intros nb.
  destruct (negb _); [lift|]. apply lifts_bind; [destruct (n_alias na), (n_alias nb); lift|]. intros al. destruct (negb al); [lift|].
  destruct (n_content na) as [la|], (n_content nb) as [lb|]; try by lift. revert lb.
  induction la as [|x la IHl]; intros [|y lb]; try apply lifts_ret. apply lifts_bind; [apply IH|]. intros []; [apply IHl|lift].
Qed.
Lemma lifts_all_equal f v rs : lifts (p_all_equal f rs v) (h_all_equal f rs v).
Proof. induction rs as [|r rs IH]; cbn [p_all_equal h_all_equal]; [lift|]. apply lifts_bind; [apply lifts_equal|]. intros []; [apply IH|lift]. Qed.
Lemma lifts_condition f c node : lifts (p_condition f c node) (h_condition f c node).
Proof.
  unfold p_condition, h_condition. apply lifts_bind; [apply lifts_find|]. intros [|r rs]; [lift|]. apply lifts_bind; [lift|]. intros v.
  destruct (node_is_zero v); [lift|]. apply lifts_all_equal.
Qed.
Lemma lifts_check_query f node cs : lifts (p_check_query f cs node) (h_check_query f cs node).
Proof. induction cs as [|c cs IH]; cbn [p_check_query h_check_query]; [lift|]. apply lifts_bind; [apply lifts_condition|]. intros []; [apply IH|lift]. Qed.
Lemma lifts_check f dq node : lifts (p_check_queries f dq node) (h_check_queries f dq node).
Proof.
  assert (X : lifts (p_check_any f dq node) (h_check_any f dq node)); [|destruct dq; [apply lifts_ret|exact X]].
  induction dq as [|g dq IH]; cbn [p_check_any h_check_any]; [lift|]. apply lifts_bind; [apply lifts_check_query|]. intros []; [lift|apply IH].
Qed.
Lemma lifts_act f sed a v r n : lifts (p_act f sed a v r n) (h_act f sed a v r n).
Proof. destruct a; [apply lifts_merge_node|apply lifts_merge_node|apply lifts_replace|apply lifts_delete|apply lifts_combine]. Qed.
Lemma lifts_do_action f sed a v r ns : lifts (p_do_action f sed a v r ns) (h_do_action f sed a v r ns).
Proof. apply lifts_loop. intros. apply lifts_act. Qed.
Lemma lifts_halloc t : lifts (p_alloc t) (h_alloc t).
Proof.
  induction t as [i|i l IH] using tree_ind'; cbn [p_alloc h_alloc]; [lift|]. apply lifts_bind; [|intros; lift].
  induction IH as [|t l Ht _ IHl]; [lift|]. apply lifts_bind; [apply Ht|]. intros. apply lifts_bind; [apply IHl|]. intros. lift.
Qed.
Lemma lifts_inject f sed ip v node : lifts (p_inject f sed ip v node) (h_inject f sed ip v node).
Proof.
  unfold p_inject, h_inject. destruct (build_all _) as [ts|e| |]; try by lift. destruct (build_paths sed ts); try by lift.
  apply lifts_bind; [apply lifts_halloc|]. intros. apply lifts_bind; [apply lifts_merge_node|]. intros. apply lifts_bind; [apply lifts_find|]. intros.
  apply lifts_loop. intros. apply lifts_replace.
Qed.
Lemma lifts_handle_inject f sed o node : lifts (p_handle_inject f sed o node) (h_handle_inject f sed o node).
Proof.
  unfold p_handle_inject, h_handle_inject. destruct (build_all _) as [ts|e| |]; [apply lifts_inject| |apply lifts_crash|apply lifts_stuck].
  destruct e; try apply lifts_fail. destruct (o_inject o); [apply lifts_inject|apply lifts_ret].
Qed.

(** The whole of Apply. *)
Lemma finish_apply fuel sed dflt k node h t o : t !! k = Some o ->
  finish (p_apply fuel sed dflt k node) (h, t) =
  match apply fuel sed dflt o node h with (h', o', r) => ((h', <[k := o']> t), r) end.
Proof.
  intros K. unfold p_apply, apply. cbn [finish snd]. rewrite K, finish_bind, lifts_check.
  assert (SAME : <[k := o]> t = t) by (by apply list_insert_id).
  destruct (h_check_queries fuel (o_docqueries o) node h) as [h1 [[]|e| |]]; cbn [fst snd]; rewrite ?SAME; try done.
  rewrite finish_bind, lifts_find. destruct (h_find (o_queries o) node h1) as [h2 [[|x xs]|e| |]]; cbn [fst snd]; rewrite ?SAME; try done.
  - unfold p_on_missing. cbn [finish snd fst]. rewrite K. unfold resolve_missing, h_on_missing, write_missing.
    destruct (o_missing o) eqn:EM.
    + destruct (equal_fold dflt (lit "inject")).
      * rewrite K. cbn [snd fst]. rewrite list_lookup_insert by (by eapply lookup_lt_Some). cbn [o_missing set_missing].
        rewrite lifts_handle_inject. unfold set_missing. by destruct (h_handle_inject _ _ _ _ _).
      * rewrite EM. cbn. by rewrite SAME.
    + rewrite EM. cbn. by rewrite SAME.
    + rewrite EM, lifts_handle_inject. destruct (h_handle_inject _ _ _ _ _). cbn. by rewrite SAME.
  - rewrite lifts_do_action. destruct (h_do_action _ _ _ _ _ _ _). cbn. by rewrite SAME.
Qed.

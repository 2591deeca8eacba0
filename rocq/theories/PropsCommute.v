(** C71, C72: overlays at paths that part ways can be applied in any order, and again. *)
From Verif Require Import Prelude GoStrings Format SpecFormat ProofFormat Yaml Heap HeapActions Builder ActionNames Overlay SpecMerge SpecHeap SpecDelete SpecQuery
  SpecInject SpecOverlay ProofHeap ProofMerge ProofMergeMap ProofMergeAbs ProofMergeIdem ProofInject Finder ProofFinder SpecMeaning ProofMeaning ProofMeaningApply ProofMeaningKeys ProofSeveral
  SpecReach SpecSame SpecCommute ProofCommute Pipeline SpecWhole PropsReplace PropsInject PropsMeaning PropsSeveral Examples ExamplesHeap Witness Deciders PropsDelete.
From Verif Require Import MergeTree.

(** ** From the overlays of the program to functions on trees *)
Lemma aimed_condition d ro h c (looks : list (list (list N))) :
  Forall (fun q => exists text n, q = Finder.dotted text n /\ In n looks) (c_queries c) /\ ro (c_value c) /\
    (no_value h c \/ (~ no_value h c /\ exists v, value_at d ro h (c_value c) v)) ->
  exists tc, means_condition d ro h c tc /\ Forall (fun q => exists text n, q = key_query text n /\ In n looks) (tc_queries tc) /\ (no_value h c -> tc_value tc = None).
Proof.
  intros (Q & R & V). assert (X : exists tqs, Forall2 computes (c_queries c) tqs /\ Forall (fun q => exists text n, q = key_query text n /\ In n looks) tqs).
  { clear -Q. induction Q as [|q qs (text & n & -> & N) Q IH]; [exists []; split; constructor|]. destruct IH as (tqs & F & G).
    exists (key_query text n :: tqs). split; constructor; try done; [apply dotted_computes|by exists text, n]. }
  destruct X as (tqs & F & G). destruct V as [V|(V & v & VV)].
  - exists (mkTCondition tqs None). split; [|done]. split; [done|]. by split.
  - exists (mkTCondition tqs (Some v)). split; [|done]. split; [done|]. by split.
Qed.
Lemma aimed_means dflt d ro h x : aimed dflt d ro h x -> exists ot, means d ro h (ao_overlay x) ot /\ taimed dflt ot (ao_path x) (ao_looks x) /\
  to_value ot = ao_value x /\ to_action ot = o_action (ao_overlay x) /\ (Forall (Forall (no_value h)) (o_docqueries (ao_overlay x)) -> without_values ot).
Proof.
  intros [[text Q] NE (V & W & B) MI IJ L].
  assert (X : exists tdq, Forall2 (Forall2 (means_condition d ro h)) (o_docqueries (ao_overlay x)) tdq /\
    Forall (Forall (fun c => Forall (fun q => exists text n, q = key_query text n /\ In n (ao_looks x)) (tc_queries c))) tdq /\
    (Forall (Forall (no_value h)) (o_docqueries (ao_overlay x)) -> Forall (Forall (fun c => tc_value c = None)) tdq)).
  { clear -L. induction L as [|g dq G L IH]; [exists []; split; [constructor|split; [constructor|done]]|].
    assert (Y : exists tg, Forall2 (means_condition d ro h) g tg /\ Forall (fun c => Forall (fun q => exists text n, q = key_query text n /\ In n (ao_looks x)) (tc_queries c)) tg /\
      (Forall (no_value h) g -> Forall (fun c => tc_value c = None) tg)).
    { clear -G. induction G as [|c g C G IH]; [exists []; split; [constructor|split; [constructor|done]]|].
      destruct IH as (tg & F & K & N). destruct (aimed_condition _ _ _ _ _ C) as (tc & M & T & V). exists (tc :: tg).
      split; [by constructor|]. split; [by constructor|]. intros H. apply Forall_cons in H as [H1 H]. constructor; auto. }
    destruct IH as (tdq & F & K & N), Y as (tg & F' & K' & N'). exists (tg :: tdq). split; [by constructor|]. split; [by constructor|].
    intros H. apply Forall_cons in H as [H1 H]. constructor; auto. }
  destruct X as (tdq & F & K & N).
  exists (mkTOverlay [key_query text (ao_path x)] (ao_value x) (o_action (ao_overlay x)) tdq (o_missing (ao_overlay x)) None). split; [|split; [|done]].
  - split; [rewrite Q; constructor; [apply dotted_computes|constructor]|]. split; [done|]. split; [done|]. split; [done|]. split; [done|]. by rewrite IJ.
  - constructor; cbn [to_queries to_missing to_docqueries]; [by exists text|done| |done]. unfold injects. cbn [to_missing]. by destruct MI as [->|[-> ->]].
Qed.
(** An overlay with the function on trees it is. *)
Definition meaningful (dflt : list N) (d : nat) (ro : loc -> Prop) (h : heap) (z : aimed_overlay * toverlay) : Prop :=
  means d ro h (ao_overlay (fst z)) (snd z) /\ taimed dflt (snd z) (ao_path (fst z)) (ao_looks (fst z)) /\
  to_value (snd z) = ao_value (fst z) /\ to_action (snd z) = o_action (ao_overlay (fst z)) /\
  (Forall (Forall (no_value h)) (o_docqueries (ao_overlay (fst z))) -> without_values (snd z)).
Lemma aimed_all dflt d ro h xs : Forall (aimed dflt d ro h) xs -> exists zs, map fst zs = xs /\ Forall (meaningful dflt d ro h) zs.
Proof.
  induction 1 as [|x xs A F (zs & <- & IH)]; [by exists []|]. destruct (aimed_means _ _ _ _ _ A) as (ot & H). exists ((x, ot) :: zs). split; [done|]. by constructor.
Qed.
Definition as_aim (z : aimed_overlay * toverlay) : toverlay * (list (list N) * list (list (list N))) := (snd z, (ao_path (fst z), ao_looks (fst z))).
Lemma plainly_aimed dflt ot names looks i rest root : i_kind i = KDocument -> taimed dflt ot names looks -> plainly ot (at_root i rest root).
Proof.
  intros K [[text Q] NE IG _] _. rewrite Q.
  assert (F : found [key_query text names] (at_root i rest root) = match key_position names root with Some p => [0 :: p] | None => [] end).
  { unfold found, empty_doc, t_kind, at_root. cbn [t_info map concat key_query tq_find]. unfold t_kind. cbn [t_info]. rewrite K.
    change (children (T i (Some (root :: rest)))) with (root :: rest). cbn [kind_eqb andb]. cbn iota. by rewrite app_nil_r. }
  rewrite F. destruct (to_action ot); try done; by destruct (key_position names root).
Qed.
Lemma all_plainly_aimed sed dflt i rest ots (ns : list (list (list N) * list (list (list N)))) : i_kind i = KDocument ->
  Forall2 (fun ot n => taimed dflt ot (fst n) (snd n)) ots ns -> forall root, all_plainly sed dflt ots (at_root i rest root).
Proof.
  intros K F. induction F as [|ot n ots ns A F IH]; intros root; [done|]. cbn [all_plainly]. split; [by eapply plainly_aimed|].
  intros t' E. destruct (apply_form _ _ _ _ _ _ _ _ _ K A E) as (r' & -> & _). apply IH.
Qed.

(** ** The theorems *)
(** A document with a root and overlays aimed at key paths. *)
Definition aimed_at (dflt : list N) (d : nat) (ro : loc -> Prop) (h : heap) (doc : ltree) (xs : list aimed_overlay) : Prop :=
  proper h doc /\ apart ro h [doc] /\ i_kind (l_info doc) = KDocument /\ (exists root rest, l_content doc = Some (root :: rest)) /\
  Forall (aimed dflt d ro h) xs /\ no_alias_trouble h xs.
(** The run ended with success, the document having become the tree [t]. *)
Definition ends_with (h : heap) (doc : ltree) (t : tree) (out : heap * res unit) : Prop :=
  snd out = Ok tt /\ exists doc', label doc' = label doc /\ own (fst out) [doc'] /\ erase doc' = t.

Lemma aimed_understood sed dflt d ro h doc zs : aimed_at dflt d ro h doc (map fst zs) -> Forall (meaningful dflt d ro h) zs ->
  understood sed dflt d ro h doc (map ao_overlay (map fst zs)) (map snd zs).
Proof.
  intros (P & A & K & (root & rest & C) & AI & AL) F. constructor; [constructor; [done|done|..]|].
  - clear -F. induction F as [|z zs (M & _) F IH]; constructor; done.
  - clear -F AI. induction F as [|z zs (_ & _ & V & _) F IH]; [constructor|]. cbn [map] in AI. apply Forall_cons in AI as [[_ _ (_ & W) _ _ _] AI]. constructor; [by rewrite V|by apply IH].
  - destruct AL as [AL|AL]; [left|by right]. clear -F AL. induction F as [|z zs (_ & _ & _ & _ & N) F IH]; [constructor|]. cbn [map] in AL. apply Forall_cons in AL as [H AL]. constructor; auto.
  - rewrite (erase_document _ _ _ C). apply (all_plainly_aimed sed dflt _ _ _ (map (fun z => (ao_path (fst z), ao_looks (fst z))) zs) K).
    clear -F. induction F as [|z zs (_ & T & _) F IH]; constructor; done.
Qed.
Lemma reads_unique h t : forall u, reads h t -> reads h u -> label t = label u -> t = u.
Proof.
  induction t as [l i|l i ts IH] using ltree_ind'; intros [l' i' c'] R R' E; cbn [label] in E; subst l'; rewrite reads_eq in R, R'; destruct R as [[al H] K], R' as [[al' H'] K'];
    rewrite H in H'; injection H' as <- _ HC; destruct c' as [us|]; try done. f_equal. f_equal. cbn [labels kids] in *.
  injection HC as HC. clear H. revert us K' HC. induction IH as [|t ts Ht F IHF]; intros [|u us] K' HC; try done. cbn [map] in HC. injection HC as H1 H2.
  apply Forall_cons in K as [K1 K], K' as [K1' K']. f_equal; [by apply Ht|by apply IHF].
Qed.
Lemma run_ends sed dflt d ro h doc os ots : understood sed dflt d ro h doc os ots ->
  exists enough, forall fuel, enough <= fuel -> forall t,
    snd (apply_each fuel sed dflt os (label doc) h) <> Fuel /\
    (t_apply_each sed dflt ots (erase doc) = Ok t <-> ends_with h doc t (apply_each fuel sed dflt os (label doc) h)).
Proof.
  intros U. destruct (C69_overlays_are_functions_on_trees _ _ _ _ _ _ _ _ U) as [enough H]. exists enough. intros fuel Hf t.
  destruct (H fuel Hf) as (h' & r & doc' & E & L & O & _ & B). rewrite E. cbn [fst snd]. unfold ends_with. cbn [fst snd].
  destruct (t_apply_each sed dflt ots (erase doc)) as [t0|e| |]; [|subst r; split; [discriminate|split; [discriminate|intros [X _]; discriminate]]..|done].
  destruct B as [-> B]. split; [done|]. split.
  - intros [= ->]. split; [done|]. by exists doc'.
  - intros (_ & d2 & L2 & O2 & <-). f_equal. rewrite <- B.
    assert (R1 : reads h' doc') by (destruct O as [R _]; by inversion R). assert (R2 : reads h' d2) by (destruct O2 as [R _]; by inversion R).
    f_equal. eapply reads_unique; [done|done|congruence].
Qed.

Lemma tree_at_paired names : forall t old, well_paired t -> tree_at names t = Some old -> well_paired old.
Proof.
  induction names as [|k r IH]; intros t old W; cbn [tree_at]; [by intros [= <-]|]. destruct (t_kind t); try done. destruct (lookup_key k (children t)) as [v|] eqn:L; [|done].
  apply IH. destruct t as [i c]. apply well_paired_inv in W as [_ W]. destruct c as [ts|]; [|done]. change (children (T i (Some ts))) with ts in L. rewrite Forall_forall in W. apply W.
  by eapply lookup_key_elem.
Qed.
Lemma aimed_at_perm dflt d ro h doc xs xs' : Permutation xs xs' -> aimed_at dflt d ro h doc xs -> aimed_at dflt d ro h doc xs'.
Proof.
  intros P (H1 & H2 & H3 & H4 & H5 & H6). split; [done|]. split; [done|]. split; [done|]. split; [done|]. split; [by rewrite <- P|].
  destruct H6 as [H6|H6]; [left; by rewrite <- P|by right].
Qed.
Lemma independent_sym x y : independent_aims x y -> independent_aims y x.
Proof. intros (H1 & H2 & H3). split; [by apply diverge_sym|]. by split. Qed.


Lemma aims_ok dflt d ro h zs : Forall (meaningful dflt d ro h) zs ->
  map fst (map as_aim zs) = map snd zs /\ Forall (fun a => taimed dflt (fst a) (fst (snd a)) (snd (snd a))) (map as_aim zs) /\
  (all_pairs independent_aims (map fst zs) -> all_pairs tfree (map as_aim zs)).
Proof.
  induction 1 as [|z zs (_ & T & _) F IH]; [split; [done|split; [constructor|done]]|]. destruct IH as (I1 & I2 & I3). cbn [map]. split; [by rewrite I1|].
  split; [by constructor|]. intros [P1 P2]. split; [|by apply I3]. clear -P1. induction zs as [|y ys IH]; [constructor|]. cbn [map] in P1. apply Forall_cons in P1 as [(D & L1 & L2) P1].
  constructor; [|by apply IH]. split; split; cbn [as_aim fst snd]; [by apply diverge_sym|done|done|done].
Qed.
Lemma trees_any_order sed dflt d ro h i rest root zs zs' t : i_kind i = KDocument -> Forall (meaningful dflt d ro h) zs -> all_pairs independent_aims (map fst zs) -> Permutation zs zs' ->
  t_apply_each sed dflt (map snd zs) (at_root i rest root) = Ok t -> t_apply_each sed dflt (map snd zs') (at_root i rest root) = Ok t.
Proof.
  intros K F I P E. destruct (aims_ok _ _ _ _ _ F) as (E1 & E2 & E3). assert (F' : Forall (meaningful dflt d ro h) zs') by (by rewrite <- P).
  destruct (aims_ok _ _ _ _ _ F') as (E1' & _). rewrite <- E1'. rewrite <- E1 in E. eapply each_perm; [exact K| |exact E2|by apply E3|exact E]. by apply Permutation_map.
Qed.

(** *** C71: overlays at paths that part ways can be given in any order *)
Theorem C71_any_order sed dflt d ro h doc xs xs' : aimed_at dflt d ro h doc xs -> all_pairs independent_aims xs -> Permutation xs xs' ->
  exists enough, forall fuel, enough <= fuel -> forall t,
    snd (apply_each fuel sed dflt (map ao_overlay xs) (label doc) h) <> Fuel /\
    snd (apply_each fuel sed dflt (map ao_overlay xs') (label doc) h) <> Fuel /\
    (ends_with h doc t (apply_each fuel sed dflt (map ao_overlay xs) (label doc) h) <->
     ends_with h doc t (apply_each fuel sed dflt (map ao_overlay xs') (label doc) h)).
Proof.
  intros A I P. pose proof (aimed_at_perm _ _ _ _ _ _ _ P A) as A'. pose proof A as (_ & _ & K & (root & rest & C) & AI & _).
  destruct (aimed_all _ _ _ _ _ AI) as (zs & <- & F). destruct (Permutation_map_inv _ _ (Permutation_sym P)) as (zs' & -> & PZ). 
  assert (F' : Forall (meaningful dflt d ro h) zs') by (by rewrite <- PZ).
  destruct (run_ends _ _ _ _ _ _ _ _ (aimed_understood sed _ _ _ _ _ _ A F)) as [n1 H1]. destruct (run_ends _ _ _ _ _ _ _ _ (aimed_understood sed _ _ _ _ _ _ A' F')) as [n2 H2].
  exists (n1 + n2). intros fuel Hf t. destruct (H1 fuel ltac:(lia) t) as [N1 E1]. destruct (H2 fuel ltac:(lia) t) as [N2 E2]. split; [done|]. split; [done|].
  rewrite <- E1, <- E2. rewrite (erase_document _ _ _ C). split; eapply trees_any_order; try done.
  eapply all_pairs_perm; [apply independent_sym|exact P|done].
Qed.

(** Each path holds what its overlay alone would have put there. *)
Definition root_of (t : tree) : tree := match children t with c :: _ => c | [] => t end.
Theorem C71_each_path_by_itself sed dflt d ro h doc xs x : aimed_at dflt d ro h doc xs -> all_pairs independent_aims xs -> In x xs ->
  exists enough, forall fuel, enough <= fuel -> forall t,
    ends_with h doc t (apply_each fuel sed dflt (map ao_overlay xs) (label doc) h) ->
    exists u, ends_with h doc u (apply_each fuel sed dflt [ao_overlay x] (label doc) h) /\
      tree_at (ao_path x) (root_of t) = tree_at (ao_path x) (root_of u).
Proof.
  intros A I X. apply elem_of_list_In, elem_of_Permutation in X as [ys P].
  destruct (C71_any_order sed _ _ _ _ _ _ _ A I P) as [n0 H0]. pose proof (aimed_at_perm _ _ _ _ _ _ _ P A) as A'.
  assert (I' : all_pairs independent_aims (x :: ys)) by (eapply all_pairs_perm; [apply independent_sym|exact P|done]).
  assert (A1 : aimed_at dflt d ro h doc [x]).
  { destruct A' as (H1 & H2 & H3 & H4 & H5 & H6). split; [done|]. split; [done|]. split; [done|]. split; [done|]. split; [apply Forall_cons in H5 as [H5 _]; by constructor|].
    destruct H6 as [H6|]; [left|by right]. apply Forall_cons in H6 as [H6 _]. by constructor. }
  pose proof A' as (_ & _ & K & (root & rest & C) & AI & _). destruct (aimed_all _ _ _ _ _ AI) as ([|z zs] & EZ & F); [done|]. cbn [map] in EZ. injection EZ as Ez Ezs. subst x ys.
  pose proof F as F0. apply Forall_cons in F as [Fz F].
  destruct (run_ends _ _ _ _ _ _ _ _ (aimed_understood sed _ _ _ _ _ (z :: zs) A' F0)) as [n1 H1].
  destruct (run_ends _ _ _ _ _ _ _ _ (aimed_understood sed _ _ _ _ _ [z] A1 ltac:(by constructor))) as [n2 H2].
  exists (n0 + n1 + n2). intros fuel Hf t E. apply (proj2 (proj2 (H0 fuel ltac:(lia) t))) in E. apply (proj2 (H1 fuel ltac:(lia) t)) in E.
  cbn [map t_apply_each] in E. apply rbind_ok in E as (u & U & E). exists u. split.
  - apply (proj2 (H2 fuel ltac:(lia) u)). cbn [map t_apply_each]. by rewrite U.
  - clear -E U Fz F I' K C. rewrite (erase_document _ _ _ C) in U. destruct Fz as (_ & Tz & _). destruct (apply_form _ _ _ _ _ _ _ _ _ K Tz U) as (r & -> & _).
    change (root_of (at_root (l_info doc) (map erase rest) r)) with r. destruct I' as [I' _]. clear U. revert r E.
    induction F as [|y ys (_ & Ty & _) F IH]; intros r E; [by injection E as <-|]. cbn [map t_apply_each] in E. apply rbind_ok in E as (v & V & E).
    cbn [map] in I'. apply Forall_cons in I' as [(D & _) I']. destruct (apply_form _ _ _ _ _ _ _ _ _ K Ty V) as (r' & -> & O). rewrite (IH I' r' E). by apply O.
Qed.

(** *** C72: applying the same overlays again changes nothing *)
Theorem C72_again_changes_nothing sed dflt d ro h doc xs : aimed_at dflt d ro h doc xs -> all_pairs independent_aims xs ->
  Forall (fun x => settles x (root_of (erase doc))) xs ->
  exists enough, forall fuel, enough <= fuel -> forall t,
    ends_with h doc t (apply_each fuel sed dflt (map ao_overlay xs) (label doc) h) ->
    ends_with h doc t (apply_each fuel sed dflt (map ao_overlay (xs ++ xs)) (label doc) h).
Proof.
  intros A I S.
  assert (A2 : aimed_at dflt d ro h doc (xs ++ xs)).
  { destruct A as (H1 & H2 & H3 & H4 & H5 & H6). split; [done|]. split; [done|]. split; [done|]. split; [done|]. split; [by apply Forall_app|].
    destruct H6 as [H6|]; [left; by apply Forall_app|by right]. }
  pose proof A as (PR & _ & K & (root & rest & C) & AI & _). destruct (aimed_all _ _ _ _ _ AI) as (zs & <- & F). rewrite <- map_app in A2 |- *.
  destruct (run_ends _ _ _ _ _ _ _ _ (aimed_understood sed _ _ _ _ _ zs A F)) as [n1 H1].
  destruct (run_ends _ _ _ _ _ _ _ _ (aimed_understood sed _ _ _ _ _ (zs ++ zs) A2 ltac:(by apply Forall_app))) as [n2 H2].
  exists (n1 + n2). intros fuel Hf t E. apply (proj2 (H1 fuel ltac:(lia) t)) in E. apply (proj2 (H2 fuel ltac:(lia) t)). rewrite map_app, each_app, E. cbn [rbind].
  rewrite (erase_document _ _ _ C) in E, S. change (root_of (T (l_info doc) (Some (erase root :: map erase rest)))) with (erase root) in S.
  destruct (aims_ok _ _ _ _ _ F) as (E1 & E2 & E3). rewrite <- E1 in E |- *. eapply each_settles; [exact K|exact E2|by apply E3| | |exact E].
  - clear -S. induction zs as [|z zs IH]; [constructor|]. cbn [map] in S |- *. apply Forall_cons in S as [[_ S1] S]. constructor; [done|by apply IH].
  - pose proof (root_paired _ _ _ _ PR C) as W. clear -S F W. induction F as [|z zs (_ & _ & V & AC & _) F IH]; [constructor|]. cbn [map] in S |- *. apply Forall_cons in S as [[S1 _] S]. constructor; [|by apply IH].
    cbn [as_aim fst snd]. unfold tsettles. rewrite AC, V. destruct (o_action (ao_overlay (fst z))); try done; (split; [done|]; intros old; by apply tree_at_paired).
Qed.

(** *** Concrete cases *)
(** Set metadata.name to x if there is an apiVersion; merge x into metadata.labels.app; delete ports. *)
Definition q_of (s : string) (ns : list string) : query := Finder.dotted (lit s) (map lit ns).
Definition ex_aims : list aimed_overlay :=
  [ mkAimed (mkOverlay [q_of "$.metadata.name" ["metadata"; "name"]%string] ex_x AReplace [[mkCondition [q_of "$.apiVersion" ["apiVersion"]%string] ex_zero]] MDefault None None)
      (sc "x") [lit "metadata"; lit "name"] [[lit "apiVersion"]];
    mkAimed (mkOverlay [q_of "$.metadata.labels.app" ["metadata"; "labels"; "app"]%string] ex_x AMerge [] MIgnore None None)
      (sc "x") [lit "metadata"; lit "labels"; lit "app"] [];
    mkAimed (mkOverlay [q_of "$.ports" ["ports"]%string] ex_x ADelete [] MIgnore None None) (sc "x") [lit "ports"] [] ].
Lemma diverge_ex (c : list (list N)) a b p q : bool_decide (a = b) = false -> diverge (c ++ a :: p) (c ++ b :: q).
Proof. intros H. apply bool_decide_eq_false in H. by exists c, a, b, p, q. Qed.
Definition ex_end : res tree :=
  let '(h, r) := apply_each 40 no_sed [] (map ao_overlay ex_aims) ex_doc ex_heap in
  match r with Ok _ => match read 20 h ex_doc with Some t => Ok t | None => Panic end | Err e => Err e | Panic => Panic | Fuel => Fuel end.
Example C71_applies :
  aimed_at [] 20 ex_ro ex_heap ex_tree ex_aims /\ all_pairs independent_aims ex_aims /\ Permutation ex_aims (rev ex_aims) /\
  Forall (fun x => settles x (root_of (erase ex_tree))) ex_aims /\
  ex_end = Ok (doc (mp [sc "apiVersion"; sc "v1"; sc "metadata"; mp [sc "name"; sc "x"; sc "labels"; mp [sc "app"; sc "x"]]])).
Proof.
  assert (VX : value_at 20 ex_ro ex_heap ex_x (sc "x")) by (apply ex_value; vm_compute; reflexivity).
  assert (WB : well_paired (sc "x") /\ branching (sc "x")) by (split; [apply well_paired_ex|apply branching_ex]; vm_compute; reflexivity).
  split; [|split; [|split; [|split]]].
  - split; [|split; [exact (proj1 (proj2 (proj1 C16_applies)))|split; [vm_compute; reflexivity|split; [exists ex_root, []; vm_compute; reflexivity|split]]]].
    + split; [exact (proj1 (proj1 C16_applies))|]. split; [apply well_paired_ex|apply branching_ex]; vm_compute; reflexivity.
    + repeat (apply Forall_cons; split); [..|constructor]; (constructor; cbn [ao_overlay ao_path ao_looks ao_value o_queries o_missing o_inject o_docqueries];
        [eexists; reflexivity|discriminate|split; [exact VX|exact WB]| |reflexivity|]).
      * right. split; reflexivity.
      * apply Forall_cons. split; [|constructor]. apply Forall_cons. split; [|constructor]. split; [|split; [vm_compute; reflexivity|left; vm_compute; reflexivity]].
        cbn [c_queries]. apply Forall_cons. split; [|constructor]. exists (lit "$.apiVersion"), [lit "apiVersion"]. split; [reflexivity|by left].
      * by left.
      * constructor.
      * by left.
      * constructor.
    + right. apply alias_free_ex. vm_compute. reflexivity.
  - assert (D1 : diverge [lit "metadata"; lit "name"] [lit "metadata"; lit "labels"; lit "app"]) by (apply (diverge_ex [lit "metadata"]); vm_compute; reflexivity).
    assert (D2 : diverge [lit "metadata"; lit "name"] [lit "ports"]) by (apply (diverge_ex []); vm_compute; reflexivity).
    assert (D3 : diverge [lit "metadata"; lit "labels"; lit "app"] [lit "ports"]) by (apply (diverge_ex []); vm_compute; reflexivity).
    assert (L1 : diverge [lit "apiVersion"] [lit "metadata"; lit "labels"; lit "app"]) by (apply (diverge_ex []); vm_compute; reflexivity).
    assert (L2 : diverge [lit "apiVersion"] [lit "ports"]) by (apply (diverge_ex []); vm_compute; reflexivity).
    split; [|split; [|split; [constructor|exact Logic.I]]].
    + apply Forall_cons. split; [|apply Forall_cons; split; [|constructor]]; (split; [done|split; [by constructor|constructor]]).
    + apply Forall_cons. split; [|constructor]. split; [done|]. split; constructor.
  - apply Permutation_rev.
  - apply Forall_cons. split; [|apply Forall_cons; split; [|apply Forall_cons; split; [|constructor]]]; (split; [|]); cbn [ao_overlay o_action ao_looks ao_path ao_value].
    + split; [|split]; intros H; apply check_for_markers_spec in H; vm_compute in H; discriminate.
    + constructor; [|constructor]. apply (diverge_ex []); vm_compute; reflexivity.
    + apply idem_ex. vm_compute. reflexivity.
    + constructor.
    + vm_compute. lia.
    + constructor.
  - vm_compute. reflexivity.
Qed.

(** Applied twice, the overlays of C71_applies (which meet the hypotheses of C72) give the same document. *)
Example C72_applies :
  aimed_at [] 20 ex_ro ex_heap ex_tree ex_aims /\ all_pairs independent_aims ex_aims /\
  Forall (fun x => settles x (root_of (erase ex_tree))) ex_aims /\
  (let '(h, r) := apply_each 40 no_sed [] (map ao_overlay (ex_aims ++ ex_aims)) ex_doc ex_heap in
   match r with Ok _ => match read 20 h ex_doc with Some t => Ok t | None => Panic end | Err e => Err e | Panic => Panic | Fuel => Fuel end) = ex_end.
Proof.
  destruct C71_applies as (A & B & _ & C & _). split; [exact A|]. split; [exact B|]. split; [exact C|]. vm_compute. reflexivity.
Qed.

(** Where one path lies inside the other the order matters, and deleting a key that is
    there twice is not done in one go. *)
Definition two_orders (t : tree) (o1 o2 : toverlay) : res tree * res tree :=
  (t_apply_each no_sed [] [o1; o2] t, t_apply_each no_sed [] [o2; o1] t).
Theorem C71_nested_paths_refuted : exists t o1 o2 r1 r2, two_orders t o1 o2 = (Ok r1, Ok r2) /\ r1 <> r2.
Proof.
  exists (doc (mp [sc "a"; mp [sc "b"; sc "1"]])),
    (mkTOverlay [key_query (lit "a.b") [lit "a"; lit "b"]] (sc "2") AReplace [] MIgnore None),
    (mkTOverlay [key_query (lit "a") [lit "a"]] (mp [sc "b"; sc "3"]) AReplace [] MIgnore None). do 2 eexists. split; [vm_compute; reflexivity|vm_compute; discriminate].
Qed.
Theorem C72_double_key_refuted : exists t o r1 r2,
  t_apply_each no_sed [] [o] t = Ok r1 /\ t_apply_each no_sed [] [o; o] t = Ok r2 /\ r1 <> r2 /\ to_action o = ADelete.
Proof.
  exists (doc (mp [sc "a"; sc "1"; sc "a"; sc "2"])), (mkTOverlay [key_query (lit "a") [lit "a"]] (sc "") ADelete [] MIgnore None). do 2 eexists.
  split; [vm_compute; reflexivity|]. split; [vm_compute; reflexivity|]. split; [vm_compute; discriminate|reflexivity].
Qed.

Print Assumptions C71_any_order.
Print Assumptions C71_each_path_by_itself.
Print Assumptions C72_again_changes_nothing.

(** Overlays at key paths that part ways: each leaves the other's path alone, so they commute. *)
From Verif Require Import Prelude GoStrings Format SpecFormat ProofFormat Yaml Combine Builder ActionNames Overlay SpecMerge ProofMerge ProofMergeIdem SpecDelete SpecInject ProofInject SpecMeaning ProofMeaning ProofSeveral SpecCommute.
From Verif Require Import MergeTree.

(** ** Edits of one entry and along a path; [None] removes *)
Fixpoint on_entry (k : list N) (f : tree -> res (option tree)) (ts : list tree) : res (list tree) :=
  match ts with
  | a :: v :: r =>
      if decide (t_value a = k) then let! x := f v in Ok (match x with Some v' => a :: v' :: r | None => r end)
      else let! r' := on_entry k f r in Ok (a :: v :: r')
  | _ => Ok ts
  end.
Fixpoint on_path (names : list (list N)) (f : tree -> res (option tree)) (t : tree) : res (option tree) :=
  match names with
  | [] => f t
  | k :: r =>
      match t with
      | T i (Some ts) =>
          if kind_eqb (i_kind i) KMapping then let! ts' := on_entry k (on_path r f) ts in Ok (Some (T i (Some ts'))) else Ok (Some t)
      | _ => Ok (Some t)
      end
  end.

Lemma rbind_ok {A B} (m : res A) (f : A -> res B) y : (let! x := m in f x) = Ok y -> exists x, m = Ok x /\ f x = Ok y.
Proof. destruct m; try done. intros H. eauto. Qed.

Lemma on_entry_commute a b f g : a <> b -> forall ts x y, on_entry a f ts = Ok x -> on_entry b g x = Ok y ->
  exists z, on_entry b g ts = Ok z /\ on_entry a f z = Ok y.
Proof.
  intros NE. induction ts as [|u|u v ts IH] using list_pair_ind; intros x y; cbn [on_entry].
  - intros [= <-]. cbn [on_entry]. intros [= <-]. by exists [].
  - intros [= <-]. cbn [on_entry]. intros [= <-]. by exists [u].
  - destruct (decide (t_value u = a)) as [E|E].
    + intros H. apply rbind_ok in H as (o & Fv & [= <-]). destruct (decide (t_value u = b)) as [E'|E']; [congruence|].
      destruct o as [v'|].
      * cbn [on_entry]. rewrite (decide_False (P := t_value u = b)) by done. intros H. apply rbind_ok in H as (r & R & [= <-]). rewrite R. cbn [rbind].
        exists (u :: v :: r). split; [done|]. cbn [on_entry]. rewrite decide_True by done. by rewrite Fv.
      * intros R. rewrite R. cbn [rbind]. exists (u :: v :: y). split; [done|]. cbn [on_entry]. rewrite decide_True by done. by rewrite Fv.
    + intros H. apply rbind_ok in H as (r & R & [= <-]). cbn [on_entry]. destruct (decide (t_value u = b)) as [E'|E'].
      * intros H. apply rbind_ok in H as (o & Gv & [= <-]). rewrite Gv. cbn [rbind]. eexists. split; [done|]. destruct o as [v'|].
        -- cbn [on_entry]. rewrite decide_False by done. by rewrite R.
        -- done.
      * intros H. apply rbind_ok in H as (r' & R' & [= <-]). destruct (IH _ _ R R') as (z & -> & Z). cbn [rbind]. exists (u :: v :: z). split; [done|].
        cbn [on_entry]. rewrite decide_False by done. by rewrite Z.
Qed.
(** The same entry: edits of its value that commute. *)
Definition swaps (f g : tree -> res (option tree)) : Prop :=
  forall t x y, f t = Ok (Some x) -> g x = Ok y -> exists z, g t = Ok (Some z) /\ f z = Ok y.
Definition stays (f : tree -> res (option tree)) : Prop := forall t x, f t = Ok x -> exists t', x = Some t'.
Lemma on_entry_same k f g : stays f -> swaps f g -> forall ts x y, on_entry k f ts = Ok x -> on_entry k g x = Ok y ->
  exists z, on_entry k g ts = Ok z /\ on_entry k f z = Ok y.
Proof.
  intros SF SW. induction ts as [|u|u v ts IH] using list_pair_ind; intros x y; cbn [on_entry].
  - intros [= <-]. cbn [on_entry]. intros [= <-]. by exists [].
  - intros [= <-]. cbn [on_entry]. intros [= <-]. by exists [u].
  - destruct (decide (t_value u = k)) as [E|E].
    + intros H. apply rbind_ok in H as (o & Fv & [= <-]). destruct (SF _ _ Fv) as [v' ->]. cbn [on_entry]. rewrite decide_True by done.
      intros H. apply rbind_ok in H as (o & Gv & [= <-]). destruct (SW _ _ _ Fv Gv) as (z & Gz & Fz). rewrite Gz. cbn [rbind]. eexists. split; [done|].
      cbn [on_entry]. rewrite decide_True by done. by rewrite Fz.
    + intros H. apply rbind_ok in H as (r & R & [= <-]). cbn [on_entry]. rewrite decide_False by done.
      intros H. apply rbind_ok in H as (r' & R' & [= <-]). destruct (IH _ _ R R') as (z & -> & Z). cbn [rbind]. exists (u :: v :: z). split; [done|].
      cbn [on_entry]. rewrite decide_False by done. by rewrite Z.
Qed.
Lemma on_path_stays k r f : stays (on_path (k :: r) f).
Proof.
  intros [i [ts|]] x; cbn [on_path]; [|intros [= <-]; eauto]. destruct (kind_eqb _ _); [|intros [= <-]; eauto].
  intros H. apply rbind_ok in H as (ts' & _ & [= <-]). eauto.
Qed.
Lemma on_path_commute f g n : forall m, diverge n m -> swaps (on_path n f) (on_path m g).
Proof.
  induction n as [|k r IH]; intros m D; [by apply diverge_sym, diverge_nil in D|].
  destruct m as [|k' r']; [by apply diverge_nil in D|]. apply diverge_cons in D as (a & p & [= <- <-] & D).
  intros [i [ts|]] x y; cbn [on_path].
  - destruct (kind_eqb (i_kind i) KMapping) eqn:K.
    + intros H. apply rbind_ok in H as (ts1 & E1 & [= <-]). rewrite K. intros H. apply rbind_ok in H as (ts2 & E2 & [= <-]).
      assert (X : exists z, on_entry k' (on_path r' g) ts = Ok z /\ on_entry k (on_path r f) z = Ok ts2).
      { destruct D as [NE|[-> D]]; [by eapply on_entry_commute|]. eapply on_entry_same; try done; [|by apply IH].
        destruct r; [by apply diverge_sym, diverge_nil in D|apply on_path_stays]. }
      destruct X as (z & -> & Z). cbn [rbind]. eexists. split; [reflexivity|]. cbn [on_path]. rewrite K, Z. done.
    + intros [= <-]. rewrite K. intros [= <-]. eexists. split; [reflexivity|]. cbn [on_path]. by rewrite K.
  - intros [= <-] [= <-]. eexists. split; [reflexivity|]. done.
Qed.

(** ** What parts from the path stays *)
Lemma on_entry_other k f k' : k' <> k -> forall ts x, on_entry k f ts = Ok x -> lookup_key k' x = lookup_key k' ts.
Proof.
  intros NE. induction ts as [|u|u v ts IH] using list_pair_ind; intros x; cbn [on_entry]; [by intros [= <-]..|]. unfold lookup_key in *.
  destruct (decide (t_value u = k)) as [E|E].
  - intros H. apply rbind_ok in H as ([v'|] & _ & [= <-]); cbn [pairs lookup_pairs]; (destruct (decide (t_value u = k')); [congruence|done]).
  - intros H. apply rbind_ok in H as (r & R & [= <-]). cbn [pairs lookup_pairs]. destruct (decide (t_value u = k')); [done|]. by apply IH.
Qed.
Lemma on_entry_keeps k f : stays f -> forall ts x, on_entry k f ts = Ok x ->
  match lookup_key k ts with Some v => exists v', f v = Ok (Some v') /\ lookup_key k x = Some v' | None => lookup_key k x = None end.
Proof.
  intros SF. induction ts as [|u|u v ts IH] using list_pair_ind; intros x; cbn [on_entry]; [by intros [= <-]..|]. unfold lookup_key in *. cbn [pairs lookup_pairs].
  destruct (decide (t_value u = k)) as [E|E].
  - intros H. apply rbind_ok in H as (o & Fv & [= <-]). destruct (SF _ _ Fv) as [v' ->]. exists v'. split; [done|]. cbn [pairs lookup_pairs]. by rewrite decide_True.
  - intros H. apply rbind_ok in H as (r & R & [= <-]). cbn [pairs lookup_pairs]. rewrite decide_False by done. by apply IH.
Qed.
Lemma on_path_others n f : forall t t' p, on_path n f t = Ok (Some t') -> diverge p n -> tree_at p t' = tree_at p t.
Proof.
  induction n as [|k r IH]; intros [i c] t' p H D; [by apply diverge_nil in D|]. pose proof D as D0. apply diverge_cons in D as (a & q & -> & D).
  cbn [on_path] in H. destruct c as [ts|]; [|by injection H as <-]. destruct (kind_eqb_spec (i_kind i) KMapping) as [K|K]; [|by injection H as <-].
  apply rbind_ok in H as (ts' & E & [= <-]). cbn [tree_at]. unfold t_kind. cbn [t_info]. rewrite K. repeat change (children (T i (Some ?l))) with l.
  destruct D as [NE|[-> D]].
  - by rewrite (on_entry_other k _ a NE _ _ E).
  - assert (SF : stays (on_path r f)) by (destruct r; [by apply diverge_nil in D|apply on_path_stays]). pose proof (on_entry_keeps k _ SF _ _ E) as X.
    destruct (lookup_key k ts) as [v|]; [|by rewrite X]. destruct X as (v' & Fv & ->). by eapply IH.
Qed.

(** ** Meanings as edits along paths *)
Definition act_on (sed : sed_engine) (a : action) (v old : tree) : res (option tree) :=
  match a with
  | ADelete => Ok None
  | AReplace => Ok (Some (replace_node sed old v))
  | ACombine => match combine_node sed old v with (t', None) => Ok (Some t') | (_, Some e) => Err e end
  | AMerge | AInvalid => let! r := merge sed old v [] in Ok (Some r)
  end.
Lemma on_entry_absent k f ts : key_index k ts = None -> on_entry k f ts = Ok ts.
Proof.
  induction ts as [|u|u v ts IH] using list_pair_ind; cbn [on_entry key_index]; [done..|]. destruct (decide (t_value u = k)); [done|].
  destruct (key_index k ts); [done|]. intros _. by rewrite IH.
Qed.
Lemma on_entry_idle k f ts v : lookup_key k ts = Some v -> f v = Ok (Some v) -> on_entry k f ts = Ok ts.
Proof.
  unfold lookup_key. induction ts as [|u|u w ts IH] using list_pair_ind; cbn [on_entry pairs lookup_pairs]; [done..|]. destruct (decide (t_value u = k)).
  - intros [= ->] ->. done.
  - intros L F. by rewrite IH.
Qed.
Lemma on_path_absent n f : forall t, key_position n t = None -> on_path n f t = Ok (Some t).
Proof.
  induction n as [|k r IH]; intros [i c]; cbn [key_position on_path]; [done|]. unfold t_kind. cbn [t_info]. destruct c as [ts|]; [|done].
  destruct (kind_eqb_spec (i_kind i) KMapping) as [K|K]; [|done]. rewrite K. change (children (T i (Some ts))) with ts.
  pose proof (key_index_lookup k ts) as X. destruct (key_index k ts) as [j|] eqn:KI.
  - destruct X as (v & V & L). rewrite V. destruct (key_position r v) eqn:KP; [done|]. intros _. rewrite (on_entry_idle k _ ts v L) by (by apply IH). done.
  - intros _. by rewrite on_entry_absent.
Qed.
Lemma on_entry_update k (f : tree -> res tree) ts j v : key_index k ts = Some j -> ts !! j = Some v ->
  on_entry k (fun o => let! x := f o in Ok (Some x)) ts = (let! x := f v in Ok (<[j := x]> ts)).
Proof.
  revert j. induction ts as [|u|u w ts IH] using list_pair_ind; intros j; cbn [on_entry key_index]; [done..|]. destruct (decide (t_value u = k)).
  - intros [= <-] [= ->]. by destruct (f v).
  - destruct (key_index k ts) as [j'|]; [|done]. intros [= <-] V. cbn [lookup list_lookup] in V. rewrite (IH j' eq_refl V). by destruct (f v).
Qed.
Lemma on_entry_ext k f g ts : (forall v, lookup_key k ts = Some v -> f v = g v) -> on_entry k f ts = on_entry k g ts.
Proof.
  unfold lookup_key. induction ts as [|u|u w ts IH] using list_pair_ind; cbn [on_entry pairs lookup_pairs]; [done..|]. destruct (decide (t_value u = k)).
  - intros H. by rewrite H.
  - intros H. by rewrite IH.
Qed.
Lemma on_path_update (f : tree -> res tree) n : forall t p, key_position n t = Some p ->
  on_path n (fun o => let! x := f o in Ok (Some x)) t = (let! x := update_at p f t in Ok (Some x)).
Proof.
  induction n as [|k r IH]; intros [i c] p; cbn [key_position on_path]; [intros [= <-]; done|]. unfold t_kind. cbn [t_info]. destruct c as [ts|].
  - destruct (kind_eqb_spec (i_kind i) KMapping) as [K|K]; [|by destruct (i_kind i)]. rewrite K. change (children (T i (Some ts))) with ts.
    pose proof (key_index_lookup k ts) as X. destruct (key_index k ts) as [j|] eqn:KI; [|done]. destruct X as (v & V & L). rewrite V.
    destruct (key_position r v) as [q|] eqn:KP; [|done]. intros [= <-]. cbn [update_at]. rewrite V.
    rewrite (on_entry_ext k _ (fun o => let! x := update_at q f o in Ok (Some x))).
    + rewrite (on_entry_update k (update_at q f) ts j v KI V). by destruct (update_at q f v).
    + intros w. rewrite L. intros [= <-]. by apply IH.
  - change (children (T i None)) with (@nil tree). cbn [key_index]. by destruct (i_kind i).
Qed.

Lemma on_path_ext n f g : (forall v, f v = g v) -> forall t, on_path n f t = on_path n g t.
Proof.
  intros H. induction n as [|k r IH]; intros [i [ts|]]; cbn [on_path]; try done. destruct (kind_eqb _ _); [|done]. by rewrite (on_entry_ext k _ (on_path r g)).
Qed.

(** ** Deleting one entry *)
Fixpoint marks (gone : position -> bool) (k : nat) (ts : list tree) : list (bool * tree) :=
  match ts with [] => [] | c :: r => (gone [k], without (fun p => gone (k :: p)) c) :: marks gone (S k) r end.
Lemma without_eq gone i ts : without gone (T i (Some ts)) =
  T i (Some (map snd (if elements (i_kind i) then base.filter (fun m => fst m = false) (marks gone 0 ts) else drop_pairs fst (marks gone 0 ts)))).
Proof.
  cbn [without]. match goal with |- context [?g 0 ts] => assert (X : forall ts k, g k ts = marks gone k ts) end.
  { clear. induction ts as [|t ts IH]; intros k; [done|]. cbn [marks]. by rewrite <- IH. }
  by rewrite X.
Qed.
Lemma marks_none gone : (forall p, p <> [] -> gone p = false) -> forall ts k, Forall (fun t => forall g, (forall p, p <> [] -> g p = false) -> without g t = t) ts ->
  marks gone k ts = map (fun t => (false, t)) ts.
Proof.
  intros H. induction ts as [|t ts IH]; intros k F; [done|]. apply Forall_cons in F as [F1 F]. cbn [marks map]. rewrite H by done. rewrite IH by done.
  rewrite F1; [done|]. intros p P. by apply H.
Qed.
Lemma drop_none (ts : list tree) : map snd (drop_pairs fst (map (fun t => (false, t)) ts)) = ts.
Proof. induction ts as [|u|u v ts IH] using list_pair_ind; [done..|]. cbn [map drop_pairs fst snd orb]. by rewrite IH. Qed.
Lemma filter_none (ts : list tree) : map snd (base.filter (fun m : bool * tree => fst m = false) (map (fun t => (false, t)) ts)) = ts.
Proof. induction ts as [|u ts IH]; [done|]. cbn [map]. rewrite filter_cons_True by done. cbn [map snd]. by rewrite IH. Qed.
Lemma without_none t : forall g, (forall p, p <> [] -> g p = false) -> without g t = t.
Proof.
  induction t as [i|i ts IH] using tree_ind'; intros g H; [done|]. rewrite without_eq, (marks_none g H ts 0) by done.
  destruct (elements (i_kind i)); [by rewrite filter_none|by rewrite drop_none].
Qed.

Lemma drop_pairs_plain (ts : list tree) : drop_pairs fst (map (fun t => (false, t)) ts) = map (fun t => (false, t)) ts.
Proof. induction ts as [|u|u v ts IH] using list_pair_ind; [done..|]. cbn [map drop_pairs fst snd orb]. by rewrite IH. Qed.
Definition only (q : position) (p : position) : bool := bool_decide (p = q).
(** Deleting at the position [q] of one entry of a mapping, or below it. *)
Lemma marks_other (j : nat) q : forall ts k, (forall d, k + d = j -> length ts <= d) -> marks (only (j :: q)) k ts = map (fun t => (false, t)) ts.
Proof.
  induction ts as [|t ts IH]; intros k H; [done|]. cbn [marks map]. assert (NE : k <> j). { intros ->. specialize (H 0 (Nat.add_0_r j)). cbn [length] in H. lia. }
  rewrite IH. 2:{ intros d <-. specialize (H (S d) ltac:(lia)). cbn [length] in H. lia. }
  f_equal. unfold only at 1. rewrite bool_decide_eq_false_2 by congruence. f_equal. apply without_none. intros p _. unfold only. apply bool_decide_eq_false_2. congruence.
Qed.
Lemma marks_head j q : forall ts k, j < k -> marks (only (j :: q)) k ts = map (fun t => (false, t)) ts.
Proof. intros ts k H. apply marks_other. intros d E. lia. Qed.
Lemma without_head k0 q v : without (fun p => only (k0 :: q) (k0 :: p)) v = without (only q) v.
Proof.
  assert (X : forall t g g', (forall p, g p = g' p) -> without g t = without g' t).
  { clear. induction t as [i|i ts IH] using tree_ind'; intros g g' H; [done|]. rewrite !without_eq.
    assert (M : forall k, marks g k ts = marks g' k ts).
    { clear -IH H. induction IH as [|t ts Ht F IHF]; intros k; [done|]. cbn [marks]. rewrite H, IHF. do 2 f_equal. apply Ht. intros p. apply H. }
    by rewrite M. }
  apply X. intros p. unfold only. apply bool_decide_ext. split; congruence.
Qed.
Lemma marks_entry k q : forall ts j v b, key_index k ts = Some j -> ts !! j = Some v ->
  map snd (drop_pairs fst (marks (only (b + j :: q)) b ts)) =
  match q with [] => match on_entry k (fun _ => Ok None) ts with Ok x => x | _ => [] end
  | _ => <[j := without (only q) v]> ts end.
Proof.
  induction ts as [|u|u w ts IH] using list_pair_ind; intros j v b; cbn [key_index]; [done..|]. cbn [on_entry]. destruct (decide (t_value u = k)) as [E|E].
  - intros [= <-] [= ->]. cbn [marks drop_pairs fst]. rewrite (marks_head (b + 1) q ts) by lia.
    assert (N1 : only (b + 1 :: q) [b] = false) by (apply bool_decide_eq_false_2; intros [= X]; lia). rewrite N1. cbn [orb].
    rewrite (without_none u). 2:{ intros p _. apply bool_decide_eq_false_2. intros [= X]; lia. }
    replace (b + 1) with (S b) by lia. destruct q as [|c q].
    + assert (N2 : only [S b] [S b] = true) by (by apply bool_decide_eq_true_2). rewrite N2. cbn [rbind]. apply drop_none.
    + assert (N2 : only (S b :: c :: q) [S b] = false) by (by apply bool_decide_eq_false_2). rewrite N2. cbn [map snd]. rewrite drop_none.
      rewrite without_head. done.
  - destruct (key_index k ts) as [j'|] eqn:KI; [|done]. intros [= <-] V. cbn [lookup list_lookup] in V.
    cbn [marks drop_pairs fst].
    assert (NX : forall p, only (b + S (S j') :: q) (b :: p) = false) by (intros p; apply bool_decide_eq_false_2; intros [= X]; lia).
    assert (NY : forall p, only (b + S (S j') :: q) (S b :: p) = false) by (intros p; apply bool_decide_eq_false_2; intros [= X]; lia).
    rewrite NX, NY. cbn [orb map snd]. rewrite (without_none u), (without_none w) by done.
    replace (b + S (S j')) with (S (S b) + j') by lia. rewrite (IH j' v (S (S b)) eq_refl V).
    destruct q as [|c q]; [|done]. destruct (on_entry k _ ts) eqn:OE; try done; exfalso; revert OE; clear.
    all: induction ts as [|u|u w ts IH] using list_pair_ind; cbn [on_entry]; try done; destruct (decide _); try done; destruct (on_entry k _ ts); try done; by apply IH.
Qed.
Lemma on_path_delete n : forall t p, key_position n t = Some p -> n <> [] ->
  on_path n (fun _ => Ok None) t = Ok (Some (without (only p) t)).
Proof.
  induction n as [|k r IH]; intros [i c] p; cbn [key_position on_path]; [done|]. unfold t_kind. cbn [t_info]. destruct c as [ts|].
  - destruct (kind_eqb_spec (i_kind i) KMapping) as [K|K]; [|by destruct (i_kind i)]. rewrite K. change (children (T i (Some ts))) with ts.
    pose proof (key_index_lookup k ts) as X. destruct (key_index k ts) as [j|] eqn:KI; [|done]. destruct X as (v & V & L). rewrite V.
    destruct (key_position r v) as [q|] eqn:KP; [|done]. intros [= <-] _. rewrite without_eq, K. cbn [elements kind_eqb orb].
    pose proof (marks_entry k q ts j v 0 KI V) as M. rewrite Nat.add_0_l in M. rewrite M.
    destruct r as [|k' r'].
    + injection KP as <-. cbn [on_path]. destruct (on_entry k _ ts) eqn:OE; try done; exfalso; revert OE; clear.
      all: induction ts as [|u|u w ts IH] using list_pair_ind; cbn [on_entry]; try done; destruct (decide _); try done; destruct (on_entry k _ ts); try done; by apply IH.
    + destruct q as [|c q].
      { cbn [key_position] in KP. destruct (t_kind v); try done. destruct (key_index k' _); try done. destruct (children v !! _); try done. by destruct (key_position r' _). }
      rewrite (on_entry_ext k _ (fun o => let! x := (fun o => Ok (without (only (c :: q)) o)) o in Ok (Some x))).
      * rewrite (on_entry_update k _ ts j v KI V). done.
      * intros w. rewrite L. intros [= <-]. by rewrite (IH v (c :: q) KP).
  - change (children (T i None)) with (@nil tree). cbn [key_index]. by destruct (i_kind i).
Qed.

(** ** Overlays at one key path *)
Lemma without_ext t : forall g g', (forall p, g p = g' p) -> without g t = without g' t.
Proof.
  induction t as [i|i ts IH] using tree_ind'; intros g g' H; [done|]. rewrite !without_eq.
  assert (M : forall k, marks g k ts = marks g' k ts).
  { clear -IH H. induction IH as [|t ts Ht F IHF]; intros k; [done|]. cbn [marks]. rewrite H, IHF. do 2 f_equal. apply Ht. intros p. apply H. }
  by rewrite M.
Qed.
Lemma key_position_nonempty n t : n <> [] -> key_position n t <> Some [].
Proof.
  destruct n as [|k r]; [done|]. intros _. cbn [key_position]. destruct (t_kind t); try done. destruct (key_index _ _); try done. destruct (children t !! _); try done. by destruct (key_position r _).
Qed.
Definition at_root (i : info) (rest : list tree) (root : tree) : tree := T i (Some (root :: rest)).
Lemma without_root i rest p root : i_kind i = KDocument -> p <> [] -> without (among [0 :: p]) (at_root i rest root) = at_root i rest (without (only p) root).
Proof.
  intros K NE. rewrite (without_ext _ (among [0 :: p]) (only (0 :: p))). 2:{ intros q. unfold among. cbn [existsb]. apply orb_false_r. }
  unfold at_root. rewrite without_eq, K. cbn [elements kind_eqb orb marks]. rewrite (marks_head 0 p rest) by lia. rewrite without_head.
  rewrite filter_cons_True. 2:{ cbn [fst]. apply bool_decide_eq_false_2. intros [= <-]. done. }
  cbn [map snd]. by rewrite filter_none.
Qed.
Record taimed (dflt : list N) (ot : toverlay) (names : list (list N)) (looks : list (list (list N))) : Prop := mkTAimed {
  ta_queries : exists text, to_queries ot = [key_query text names];
  ta_below : names <> [];
  ta_ignores : injects dflt ot = false;
  ta_looks : Forall (Forall (fun c => Forall (fun q => exists text n, q = key_query text n /\ In n looks) (tc_queries c))) (to_docqueries ot) }.

Lemma apply_on_path sed dflt ot names looks i root rest : taimed dflt ot names looks -> i_kind i = KDocument ->
  t_apply sed dflt ot (at_root i rest root) =
  if tqualifies (to_docqueries ot) (at_root i rest root)
  then let! x := on_path names (act_on sed (to_action ot) (to_value ot)) root in Ok (at_root i rest (default root x)) else Ok (at_root i rest root).
Proof.
  intros [[text Q] NE IG _] K. unfold t_apply. destruct (tqualifies _ _); [|done]. rewrite Q.
  assert (F : found [key_query text names] (at_root i rest root) = match key_position names root with Some p => [0 :: p] | None => [] end).
  { unfold found, empty_doc, t_kind, at_root. cbn [t_info map concat key_query tq_find]. unfold t_kind. cbn [t_info]. rewrite K.
    change (children (T i (Some (root :: rest)))) with (root :: rest). cbn [kind_eqb andb]. cbn iota. by rewrite app_nil_r. }
  rewrite F. destruct (key_position names root) as [p|] eqn:KP.
  - assert (PN : p <> []) by (intros ->; by eapply key_position_nonempty).
    assert (UP : forall f, update_each [0 :: p] f (at_root i rest root) = (let! x := on_path names (fun o => let! x := f o in Ok (Some x)) root in Ok (at_root i rest (default root x)))).
    { intros f. cbn [update_each]. unfold at_root. rewrite (on_path_update f names root p KP). cbn [update_at lookup list_lookup]. by destruct (update_at p f root). }
    unfold t_act. change (remaining [] [0 :: p]) with [0 :: p]. destruct (to_action ot); rewrite ?UP.
    + done.
    + done.
    + rewrite (on_path_ext names _ (act_on sed AReplace (to_value ot))); done.
    + rewrite (on_path_ext names (act_on sed ADelete _) (fun _ => Ok None)) by done. rewrite (on_path_delete names root p KP NE). cbn [rbind from_option id]. by rewrite without_root.
    + rewrite (on_path_ext names _ (act_on sed ACombine (to_value ot))); [done|]. intros v. cbn [act_on]. by destruct (combine_node sed v (to_value ot)) as [t' [e|]].
  - rewrite (on_path_absent _ _ _ KP). cbn [rbind from_option id]. by rewrite IG.
Qed.

(** Document queries about key paths only depend on the nodes there. *)
Definition seen (names : list (list (list N))) (t : tree) : list tree := omap (fun n => tree_at n t) names.
Lemma tmet_seen i rest c ns : i_kind i = KDocument -> Forall2 (fun q n => exists text, q = key_query text n) (tc_queries c) ns -> forall root,
  tmet (at_root i rest root) c = match seen ns root with [] => false | vs => match tc_value c with None => true | Some v => forallb (fun s => same_look s v) vs end end.
Proof.
  intros K F root. unfold tmet.
  assert (X : exists ps, found (tc_queries c) (at_root i rest root) = map (cons 0) ps /\ Forall2 (fun p s => node_at p root = Some s) ps (seen ns root)).
  { unfold found, empty_doc, t_kind, at_root. cbn [t_info]. rewrite K. change (children (T i (Some (root :: rest)))) with (root :: rest). cbn [kind_eqb andb].
    induction F as [|q n qs ns' [text ->] F IH]; [exists []; split; [done|constructor]|]. destruct IH as (ps & IH & F2). cbn [map concat]. rewrite IH.
    change (tq_find (key_query text n) (T i (Some (root :: rest)))) with
      (match i_kind i with KDocument => match key_position n root with Some p => [0 :: p] | None => [] end | _ => match key_position n (T i (Some (root :: rest))) with Some p => [p] | None => [] end end).
    rewrite K. unfold seen. cbn [omap list_omap]. pose proof (position_tree_at n root) as X. destruct (key_position n root) as [p|].
    - destruct X as (s & N & ->). exists (p :: ps). split; [done|]. by constructor.
    - rewrite X. by exists ps. }
  destruct X as (ps & -> & F2). destruct F2 as [|p s ps ss P F2]; [done|]. cbn [map]. destruct (tc_value c) as [v|]; [|done]. cbn [forallb].
  change (node_at (0 :: p) (at_root i rest root)) with (node_at p root). rewrite P. f_equal. clear -F2.
  induction F2 as [|p s ps ss P F2 IH]; [done|]. cbn [map forallb]. change (node_at (0 :: p) (at_root i rest root)) with (node_at p root). by rewrite P, IH.
Qed.
Lemma qualifies_seen i rest dq looks root root' : i_kind i = KDocument ->
  Forall (Forall (fun c => Forall (fun q => exists text n, q = key_query text n /\ In n looks) (tc_queries c))) dq ->
  (forall n, In n looks -> tree_at n root' = tree_at n root) -> tqualifies dq (at_root i rest root') = tqualifies dq (at_root i rest root).
Proof.
  intros K F H. assert (C : forall c, Forall (fun q => exists text n, q = key_query text n /\ In n looks) (tc_queries c) -> tmet (at_root i rest root') c = tmet (at_root i rest root) c).
  { intros c Q. assert (X : exists ns, Forall2 (fun q n => exists text, q = key_query text n) (tc_queries c) ns /\ forall n, In n ns -> In n looks).
    { induction Q as [|q qs (text & n & -> & N) Q IH]; [by exists []|]. destruct IH as (ns & F2 & I). exists (n :: ns). split; [constructor; [by exists text|done]|].
      intros m [<-|M]; auto. }
    destruct X as (ns & F2 & I). rewrite !(tmet_seen i rest c ns K F2). assert (S : seen ns root' = seen ns root); [|by rewrite S].
    unfold seen. clear F2. induction ns as [|n ns IH]; [done|]. cbn [omap list_omap]. rewrite H by (apply I; by left). rewrite IH by (intros m M; apply I; by right). done. }
  assert (E : forall g, Forall (fun c => Forall (fun q => exists text n, q = key_query text n /\ In n looks) (tc_queries c)) g ->
     forallb (tmet (at_root i rest root')) g = forallb (tmet (at_root i rest root)) g).
  { intros g G. induction G as [|c g Hc G IH]; [done|]. cbn [forallb]. by rewrite C, IH. }
  destruct F as [|g dq G F]; [done|]. unfold tqualifies. cbn [existsb]. rewrite (E g G). f_equal. induction F as [|g' dq G' F IH]; [done|]. cbn [existsb]. by rewrite (E g' G'), IH.
Qed.

(** Two overlays that do not touch each other's paths. *)
Definition apart_from (n : list (list N)) (m : list (list N)) (looks : list (list (list N))) : Prop := diverge m n /\ Forall (fun l => diverge l n) looks.
Lemma apply_commute sed dflt o1 n1 l1 o2 n2 l2 i rest root t1 t2 : i_kind i = KDocument ->
  taimed dflt o1 n1 l1 -> taimed dflt o2 n2 l2 -> apart_from n1 n2 l2 -> apart_from n2 n1 l1 ->
  t_apply sed dflt o1 (at_root i rest root) = Ok t1 -> t_apply sed dflt o2 t1 = Ok t2 ->
  exists t1', t_apply sed dflt o2 (at_root i rest root) = Ok t1' /\ t_apply sed dflt o1 t1' = Ok t2.
Proof.
  intros K A1 A2 [D L2] [D' L1] E1 E2.
  assert (ST : forall o n l r u, taimed dflt o n l -> t_apply sed dflt o (at_root i rest r) = Ok u -> exists r', u = at_root i rest r' /\ (forall p, diverge p n -> tree_at p r' = tree_at p r)).
  { intros o n l r u A E. rewrite (apply_on_path _ _ _ _ _ _ _ _ A K) in E. destruct (tqualifies _ _); [|injection E as <-; eauto].
    apply rbind_ok in E as (x & X & [= <-]). destruct n as [|k n]; [by destruct A|]. destruct (on_path_stays k n _ _ _ X) as [r' ->]. exists r'. split; [done|].
    intros p P. by eapply on_path_others. }
  destruct (ST _ _ _ _ _ A1 E1) as (r1 & -> & O1). destruct (ST _ _ _ _ _ A2 E2) as (r2 & -> & O2).
  assert (Q2 : tqualifies (to_docqueries o2) (at_root i rest r1) = tqualifies (to_docqueries o2) (at_root i rest root)).
  { apply (qualifies_seen i rest _ l2); [done|by destruct A2|]. intros n N. apply O1. rewrite Forall_forall in L2. by apply L2, elem_of_list_In. }
  rewrite (apply_on_path _ _ _ _ _ _ _ _ A2 K) in E2. rewrite Q2 in E2. rewrite (apply_on_path _ _ _ _ _ _ _ _ A2 K).
  rewrite (apply_on_path _ _ _ _ _ _ _ _ A1 K) in E1.
  assert (Q1 : forall r, (forall p, diverge p n2 -> tree_at p r = tree_at p root) -> tqualifies (to_docqueries o1) (at_root i rest r) = tqualifies (to_docqueries o1) (at_root i rest root)).
  { intros r H. apply (qualifies_seen i rest _ l1); [done|by destruct A1|]. intros n N. apply H. rewrite Forall_forall in L1. by apply L1, elem_of_list_In. }
  destruct (tqualifies (to_docqueries o2) (at_root i rest root)).
  - apply rbind_ok in E2 as (x2 & X2 & [= E2]). destruct n2 as [|k2 n2]; [by destruct A2|]. destruct n1 as [|k1 n1]; [by destruct A1|].
    destruct (on_path_stays k2 n2 _ _ _ X2) as [y2 ->]. cbn in E2. subst y2.
    destruct (tqualifies (to_docqueries o1) (at_root i rest root)) eqn:QQ.
    + apply rbind_ok in E1 as (x1 & X1 & [= E1]). destruct (on_path_stays k1 n1 _ _ _ X1) as [y1 ->]. cbn in E1. subst y1.
      destruct (on_path_commute _ _ (k1 :: n1) (k2 :: n2) D' _ _ _ X1 X2) as (z & Z & ZZ). rewrite Z. cbn [rbind from_option id]. eexists. split; [reflexivity|].
      rewrite (apply_on_path _ _ _ _ _ _ _ _ A1 K), Q1. 2:{ intros p P. by eapply on_path_others. }
      rewrite ZZ. done.
    + injection E1 as <-. rewrite X2. cbn [rbind from_option id]. eexists. split; [reflexivity|].
      rewrite (apply_on_path _ _ _ _ _ _ _ _ A1 K), Q1. 2:{ intros p P. by eapply on_path_others. }
      done.
  - injection E2 as <-. eexists. split; [reflexivity|]. rewrite (apply_on_path _ _ _ _ _ _ _ _ A1 K). exact E1.
Qed.
Lemma apply_form sed dflt o n l i rest r u : i_kind i = KDocument -> taimed dflt o n l -> t_apply sed dflt o (at_root i rest r) = Ok u ->
  exists r', u = at_root i rest r' /\ (forall p, diverge p n -> tree_at p r' = tree_at p r).
Proof.
  intros K A E. rewrite (apply_on_path _ _ _ _ _ _ _ _ A K) in E. destruct (tqualifies _ _); [|injection E as <-; eauto].
  apply rbind_ok in E as (x & X & [= <-]). destruct n as [|k n]; [by destruct A|]. destruct (on_path_stays k n _ _ _ X) as [r' ->]. exists r'. split; [done|].
  intros p P. by eapply on_path_others.
Qed.

(** Lists of overlays, with their path and the paths they look at. *)
Notation aim := (toverlay * (list (list N) * list (list (list N))))%type (only parsing).
Definition tfree (x y : aim) : Prop := apart_from (fst (snd x)) (fst (snd y)) (snd (snd y)) /\ apart_from (fst (snd y)) (fst (snd x)) (snd (snd x)).
Lemma all_pairs_perm {A} (R : A -> A -> Prop) l l' : (forall x y, R x y -> R y x) -> Permutation l l' -> all_pairs R l -> all_pairs R l'.
Proof.
  intros S P. induction P as [|x l l' P IH|x y l|l l' l'' P IH P' IH']; cbn [all_pairs]; try tauto.
  - intros [F H]. split; [|auto]. by rewrite <- P.
  - intros [F1 [F2 H]]. apply Forall_cons in F1 as [F1 F3]. split; [|done]. apply Forall_cons. split; [by apply S|done].
Qed.
Lemma tfree_sym x y : tfree x y -> tfree y x.
Proof. intros [H1 H2]. by split. Qed.
Lemma each_perm sed dflt i rest xs xs' : i_kind i = KDocument -> Permutation xs xs' ->
  Forall (fun x : aim => taimed dflt (fst x) (fst (snd x)) (snd (snd x))) xs -> all_pairs tfree xs ->
  forall root t, t_apply_each sed dflt (map fst xs) (at_root i rest root) = Ok t -> t_apply_each sed dflt (map fst xs') (at_root i rest root) = Ok t.
Proof.
  intros K P. induction P as [|x l l' P IH|x y l|l l' l'' P IH P' IH']; intros A D root t.
  - done.
  - apply Forall_cons in A as [A1 A]. destruct D as [_ D]. cbn [map t_apply_each]. intros E. apply rbind_ok in E as (u & U & E).
    rewrite U. cbn [rbind]. destruct (apply_form _ _ _ _ _ _ _ _ _ K A1 U) as (r' & -> & _). by apply IH.
  - apply Forall_cons in A as [A1 A]. apply Forall_cons in A as [A2 A]. destruct D as [D _]. apply Forall_cons in D as [[D1 D2] _]. cbn [map t_apply_each].
    intros E. apply rbind_ok in E as (u & U & E). apply rbind_ok in E as (w & Wk & E).
    destruct (apply_commute _ _ _ _ _ _ _ _ _ _ _ _ _ K A1 A2 D1 D2 U Wk) as (u' & -> & W'). cbn [rbind]. by rewrite W'.
  - intros E. apply IH'; [by rewrite <- P|by eapply all_pairs_perm; [apply tfree_sym|..]|]. by apply IH.
Qed.

(** ** Applying again *)
Lemma once_cons k b q t : once (k :: b :: q) t = match lookup_key k (children t) with Some v => once (b :: q) v | None => True end.
Proof. reflexivity. Qed.
Lemma times_none k ts : times k ts = 0 -> lookup_key k ts = None.
Proof.
  unfold lookup_key. induction ts as [|u|u v ts IH] using list_pair_ind; cbn [times pairs lookup_pairs]; [done..|]. destruct (decide (t_value u = k)); [lia|]. intros H. apply IH. lia.
Qed.
Lemma times_other k f k' : k' <> k -> forall ts x, on_entry k f ts = Ok x -> times k' x = times k' ts.
Proof.
  intros NE. induction ts as [|u|u v ts IH] using list_pair_ind; intros x; cbn [on_entry]; [by intros [= <-]..|].
  destruct (decide (t_value u = k)) as [E|E].
  - intros H. apply rbind_ok in H as ([v'|] & _ & [= <-]); cbn [times]; (destruct (decide (t_value u = k')); [congruence|done]).
  - intros H. apply rbind_ok in H as (r & R & [= <-]). cbn [times]. by rewrite (IH r R).
Qed.
Lemma once_others n f : forall t t' p, on_path n f t = Ok (Some t') -> diverge p n -> once p t -> once p t'.
Proof.
  induction n as [|k r IH]; intros [i c] t' p H D; [by apply diverge_nil in D|]. apply diverge_cons in D as (a & q & -> & D).
  cbn [on_path] in H. destruct c as [ts|]; [|by injection H as <-]. destruct (kind_eqb_spec (i_kind i) KMapping) as [K|K]; [|by injection H as <-].
  apply rbind_ok in H as (ts' & E & [= <-]). destruct D as [NE|[-> D]].
  - cbn [once]. repeat change (children (T i (Some ?l))) with l. rewrite (on_entry_other k _ a NE _ _ E), (times_other k _ a NE _ _ E). done.
  - assert (SF : stays (on_path r f)) by (destruct r; [by apply diverge_nil in D|apply on_path_stays]). pose proof (on_entry_keeps k _ SF _ _ E) as X.
    destruct q as [|b q]; [by apply diverge_sym, diverge_nil in D|]. rewrite !once_cons. repeat change (children (T i (Some ?l))) with l.
    destruct (lookup_key k ts) as [v|]; [|by rewrite X]. destruct X as (v' & Fv & ->). by eapply IH.
Qed.
Lemma on_entry_gone k ts x : times k ts <= 1 -> on_entry k (fun _ => Ok None) ts = Ok x -> key_index k x = None.
Proof.
  assert (Z : forall ts, times k ts = 0 -> key_index k ts = None).
  { clear. induction ts as [|u|u v ts IH] using list_pair_ind; cbn [times key_index]; [done..|]. destruct (decide (t_value u = k)); [lia|]. intros H. rewrite IH by lia. done. }
  revert x. induction ts as [|u|u v ts IH] using list_pair_ind; intros x; cbn [on_entry times]; [by intros _ [= <-]..|]. destruct (decide (t_value u = k)) as [E|E].
  - cbn [rbind]. intros H [= <-]. apply Z. lia.
  - intros H H'. apply rbind_ok in H' as (r & R & [= <-]). cbn [key_index]. rewrite decide_False by done. by rewrite (IH r H R).
Qed.
Lemma on_entry_twice_at k f : stays f -> forall ts x, (forall v v', lookup_key k ts = Some v -> f v = Ok (Some v') -> f v' = Ok (Some v')) -> on_entry k f ts = Ok x -> on_entry k f x = Ok x.
Proof.
  intros SF ts x H E. pose proof (on_entry_keeps k f SF ts x E) as X. destruct (lookup_key k ts) as [v|] eqn:L.
  - destruct X as (v' & Fv & L'). eapply on_entry_idle; [done|]. by eapply H.
  - apply on_entry_absent. pose proof (key_index_lookup k x) as Y. destruct (key_index k x); [|done]. destruct Y as (? & _ & Y). congruence.
Qed.
Lemma on_path_twice n f : stays f -> forall t x, (forall v v', tree_at n t = Some v -> f v = Ok (Some v') -> f v' = Ok (Some v')) ->
  on_path n f t = Ok (Some x) -> on_path n f x = Ok (Some x).
Proof.
  intros SF. induction n as [|k r IH]; intros [i c] x H; [by apply H|]. cbn [on_path]. destruct c as [ts|]; [|intros [= <-]; done].
  destruct (kind_eqb_spec (i_kind i) KMapping) as [K|K]; cbn [rbind].
  - intros E. apply rbind_ok in E as (ts' & E & [= <-]). cbn [on_path]. rewrite K. cbn [kind_eqb].
    assert (SP : stays (on_path r f)) by (destruct r; [done|apply on_path_stays]).
    rewrite (on_entry_twice_at k _ SP ts ts'); [done| |done]. intros v v' L. apply IH. intros w w' TW. apply H. cbn [tree_at]. unfold t_kind. cbn [t_info]. rewrite K.
    change (children (T i (Some ts))) with ts. by rewrite L.
  - intros [= <-]. cbn [on_path]. by destruct (kind_eqb_spec (i_kind i) KMapping).
Qed.
Lemma on_path_delete_twice n : n <> [] -> forall t x, once n t -> on_path n (fun _ => Ok None) t = Ok (Some x) -> on_path n (fun _ => Ok None) x = Ok (Some x).
Proof.
  induction n as [|k r IH]; intros NE [i c] x O; [done|]. cbn [on_path]. destruct c as [ts|]; [|intros [= <-]; done].
  destruct (kind_eqb_spec (i_kind i) KMapping) as [K|K]; cbn [rbind].
  - intros E. apply rbind_ok in E as (ts' & E & [= <-]). cbn [on_path]. rewrite K. cbn [kind_eqb]. destruct r as [|k' r].
    + cbn [on_path] in *. cbn [once] in O. rewrite (on_entry_absent k _ ts'); [done|]. by eapply on_entry_gone.
    + rewrite (on_entry_twice_at k _ (on_path_stays k' r _) ts ts'); [done| |done]. intros v v' L. apply IH; [done|]. rewrite once_cons in O. change (children (T i (Some ts))) with ts in O. by rewrite L in O.
  - intros [= <-]. cbn [on_path]. by destruct (kind_eqb_spec (i_kind i) KMapping).
Qed.
Lemma merge_comments_twice sed o n : ~ marker_in (i_head n) -> ~ marker_in (i_linec n) -> ~ marker_in (i_foot n) -> forall o' vs vs',
  i_head o' = i_head (merge_comments sed o n vs) -> i_linec o' = i_linec (merge_comments sed o n vs) -> i_foot o' = i_foot (merge_comments sed o n vs) ->
  let r := merge_comments sed o' n vs' in i_head r = i_head o' /\ i_linec r = i_linec o' /\ i_foot r = i_foot o'.
Proof.
  intros H1 H2 H3 o' vs vs'. unfold merge_comments. rewrite !format_no_marker by done. cbn zeta.
  destruct (nonempty (i_head n)), (nonempty (i_linec n)), (nonempty (i_foot n)); cbn; intros E1 E2 E3; by rewrite ?E1, ?E2, ?E3.
Qed.
Lemma replace_twice sed o n : ~ marker_in (i_head (t_info n)) -> ~ marker_in (i_linec (t_info n)) -> ~ marker_in (i_foot (t_info n)) ->
  replace_node sed (replace_node sed o n) n = replace_node sed o n.
Proof.
  intros H1 H2 H3. unfold replace_node at 1 3. f_equal.
  destruct (merge_comments_twice sed (t_info o) (t_info n) H1 H2 H3 (t_info (replace_node sed o n)) [] []) as (E1 & E2 & E3); [done..|].
  cbn zeta in *. rewrite E1, E2, E3. done.
Qed.

Definition tsettles (ot : toverlay) (names : list (list N)) (root : tree) : Prop :=
  match to_action ot with
  | ADelete => once names root
  | AReplace => ~ marker_in (i_head (t_info (to_value ot))) /\ ~ marker_in (i_linec (t_info (to_value ot))) /\ ~ marker_in (i_foot (t_info (to_value ot)))
  | AMerge | AInvalid => everywhere node_idem (to_value ot) /\ (forall old, tree_at names root = Some old -> well_paired old)
  | ACombine => False
  end.
Lemma on_path_settles sed ot names root x : names <> [] -> tsettles ot names root ->
  on_path names (act_on sed (to_action ot) (to_value ot)) root = Ok (Some x) -> on_path names (act_on sed (to_action ot) (to_value ot)) x = Ok (Some x).
Proof.
  intros NE. unfold tsettles.
  assert (MG : everywhere node_idem (to_value ot) /\ (forall old, tree_at names root = Some old -> well_paired old) ->
    on_path names (fun old => let! r := merge sed old (to_value ot) [] in Ok (Some r)) root = Ok (Some x) ->
    on_path names (fun old => let! r := merge sed old (to_value ot) [] in Ok (Some r)) x = Ok (Some x)).
  { intros [ID W]. apply on_path_twice.
    - intros t y H. apply rbind_ok in H as (r & _ & [= <-]). eauto.
    - intros v v' TA H. apply rbind_ok in H as (r & R & [= <-]). rewrite (merge_idem sed _ ID v [] r (W v TA) R []). done. }
  destruct (to_action ot); cbn [act_on]; try done.
  - intros (H1 & H2 & H3). apply on_path_twice.
    + intros t y [= <-]. eauto.
    + intros v v' _. cbn [act_on]. intros E. assert (V : v' = replace_node sed v (to_value ot)) by congruence. rewrite V. by rewrite replace_twice.
  - intros O. by apply on_path_delete_twice.
Qed.
Lemma apply_settles sed dflt ot names looks i rest root t : i_kind i = KDocument -> taimed dflt ot names looks -> Forall (fun l => diverge l names) looks ->
  tsettles ot names root -> t_apply sed dflt ot (at_root i rest root) = Ok t -> t_apply sed dflt ot t = Ok t.
Proof.
  intros K A L S E. destruct (apply_form _ _ _ _ _ _ _ _ _ K A E) as (r' & -> & O).
  assert (Q : tqualifies (to_docqueries ot) (at_root i rest r') = tqualifies (to_docqueries ot) (at_root i rest root)).
  { apply (qualifies_seen i rest _ looks); [done|by destruct A|]. intros n N. apply O. rewrite Forall_forall in L. by apply L, elem_of_list_In. }
  rewrite (apply_on_path _ _ _ _ _ _ _ _ A K) in E. rewrite (apply_on_path _ _ _ _ _ _ _ _ A K). rewrite Q. destruct (tqualifies _ _); [|done]. apply rbind_ok in E as (x & X & [= E]).
  assert (NE : names <> []) by (by destruct A). destruct names as [|k n]; [done|]. destruct (on_path_stays k n _ _ _ X) as [y ->]. cbn in E. subst y.
  by rewrite (on_path_settles _ _ _ _ _ NE S X).
Qed.
Lemma tsettles_others sed dflt ot names o n l i rest root r' : i_kind i = KDocument -> taimed dflt o n l -> diverge names n ->
  t_apply sed dflt o (at_root i rest root) = Ok (at_root i rest r') -> tsettles ot names root -> tsettles ot names r'.
Proof.
  intros K A D E. destruct (apply_form _ _ _ _ _ _ _ _ _ K A E) as (r2 & [= <-] & O). unfold tsettles. destruct (to_action ot); try done.
  - by rewrite (O _ D).
  - by rewrite (O _ D).
  - rewrite (apply_on_path _ _ _ _ _ _ _ _ A K) in E. destruct (tqualifies _ _); [|injection E as <-; done]. apply rbind_ok in E as (x & X & [= E]).
    destruct n as [|k n]; [by destruct A|]. destruct (on_path_stays k n _ _ _ X) as [y ->]. cbn in E. subst y. by eapply once_others.
Qed.
Lemma each_app sed dflt a : forall b t, t_apply_each sed dflt (a ++ b) t = (let! u := t_apply_each sed dflt a t in t_apply_each sed dflt b u).
Proof. induction a as [|o a IH]; intros b t; [done|]. cbn [app t_apply_each]. destruct (t_apply sed dflt o t); cbn [rbind]; [apply IH|done..]. Qed.
Lemma each_settles sed dflt i rest xs : i_kind i = KDocument ->
  Forall (fun x : aim => taimed dflt (fst x) (fst (snd x)) (snd (snd x))) xs -> all_pairs tfree xs -> Forall (fun x : aim => Forall (fun l => diverge l (fst (snd x))) (snd (snd x))) xs ->
  forall root t, Forall (fun x : aim => tsettles (fst x) (fst (snd x)) root) xs -> t_apply_each sed dflt (map fst xs) (at_root i rest root) = Ok t -> t_apply_each sed dflt (map fst xs) t = Ok t.
Proof.
  intros K. induction xs as [|x xs IH]; intros A P L root t S E; [done|].
  assert (PM : Permutation (x :: xs) (xs ++ [x])) by apply Permutation_cons_append.
  pose proof (each_perm sed dflt i rest _ _ K PM A P root t E) as E'. rewrite map_app, each_app in E'. apply rbind_ok in E' as (u & U & E').
  cbn [map t_apply_each] in E, E' |- *. apply rbind_ok in E as (w & Wt & E). apply rbind_ok in E' as (t0 & E' & [= ->]).
  apply Forall_cons in A as [A1 A], L as [L1 L], S as [S1 S]. destruct P as [P1 P].
  destruct (apply_form _ _ _ _ _ _ _ _ _ K A1 Wt) as (rw & -> & _).
  (* the tree before the last application of [x] *)
  assert (FU : exists ru, u = at_root i rest ru /\ tsettles (fst x) (fst (snd x)) ru).
  { clear -K A P1 S1 U. revert root S1 U. induction xs as [|y xs IH]; intros root S1 U; [injection U as <-; eauto|].
    apply Forall_cons in A as [A1 A]. apply Forall_cons in P1 as [[_ P1] P2]. cbn [map t_apply_each] in U. apply rbind_ok in U as (v & V & U).
    destruct (apply_form _ _ _ _ _ _ _ _ _ K A1 V) as (rv & -> & _). apply (IH A P2 rv); [|done]. eapply tsettles_others; [exact K|exact A1| |exact V|done]. by destruct P1. }
  destruct FU as (ru & -> & SU). rewrite (apply_settles _ _ _ _ _ _ _ _ _ K A1 L1 SU E'). cbn [rbind]. eapply (IH A P L rw); [|done].
  clear -K A1 P1 S Wt. induction S as [|y xs Sy S IH]; [constructor|]. apply Forall_cons in P1 as [[P1 _] P2]. constructor; [|by apply IH].
  eapply tsettles_others; [exact K|exact A1| |exact Wt|done]. by destruct P1.
Qed.

From Verif Require Import Prelude GoStrings Paths SpecPaths.

Lemma has_prefix_app p s : has_prefix p (p ++ s) = true.
Proof. induction p as [|c p IH]; simpl; [done|]. by destruct (ceq_spec c c). Qed.

Lemma has_prefix_starts p s : has_prefix p s = true <-> starts p s.
Proof.
  split.
  - revert s; induction p as [|c p IH]; intros s; simpl; [by exists s|].
    destruct s as [|d s]; [done|]. destruct (ceq_spec c d) as [->|]; [|done]. simpl.
    intros [r ->]%IH. by exists r.
  - intros [r ->]. apply has_prefix_app.
Qed.

Lemma trim_prefix_app p s : trim_prefix (p ++ s) p = s.
Proof. unfold trim_prefix. rewrite has_prefix_app. by rewrite drop_app. Qed.

Lemma starts_trans a b c : starts a b -> starts b c -> starts a c.
Proof. intros [r ->] [s ->]. exists (r ++ s). by rewrite app_assoc. Qed.
Lemma starts_app a b : starts a (a ++ b).
Proof. by exists b. Qed.

Lemma common_starts v c : starts (common v c) v /\ starts (common v c) c.
Proof.
  revert c; induction v as [|x v IH]; intros [|y c]; simpl.
  1-3: split; by eexists.
  destruct (ceq_spec x y) as [->|]; [|split; by eexists].
  destruct (IH c) as [[r Hr] [s Hs]].
  split; [exists r|exists s]; simpl; congruence.
Qed.

Lemma common_greatest v c d : starts d v -> starts d c -> starts d (common v c).
Proof.
  revert v c; induction d as [|x d IH]; intros v c [r ->] [s ->]; simpl; [by eexists|].
  destruct (ceq_spec x x) as [_|]; [|done].
  destruct (IH (d ++ r) (d ++ s)) as [t Ht]; [by eexists..|]. exists t. simpl. by f_equal.
Qed.

Lemma fold_common_spec (g : list N -> list N) rest c :
  let m := fold_left (fun c v => common (g v) c) rest c in
  starts m c /\ (forall v, In v rest -> starts m (g v)) /\
  (forall d, starts d c -> (forall v, In v rest -> starts d (g v)) -> starts d m).
Proof.
  revert c; induction rest as [|v rest IH]; intros c; simpl.
  - split_and!; [by exists []; rewrite app_nil_r|done|done].
  - destruct (IH (common (g v) c)) as (H1 & H2 & H3).
    destruct (common_starts (g v) c) as [Hv Hc].
    split_and!.
    + by eapply starts_trans.
    + intros w [<-|Hw]; [by eapply starts_trans|auto].
    + intros d Hd Hw. apply H3; [|auto]. apply common_greatest; auto.
Qed.

Lemma up_to_last_None sep s : up_to_last sep s = None <-> ~ In sep s.
Proof.
  induction s as [|c s IH]; simpl; [naive_solver|].
  destruct (up_to_last sep s) as [w|].
  - split; [done|]. intros H. assert (~ In sep s) as Hn by (intros ?; apply H; by right). apply IH in Hn. done.
  - destruct (ceq_spec c sep) as [->|]; naive_solver.
Qed.

Lemma up_to_last_app sep a b : ~ In sep b -> up_to_last sep (a ++ sep :: b) = Some (a ++ [sep]).
Proof.
  intros Hb. induction a as [|c a IH]; simpl.
  - rewrite (proj2 (up_to_last_None sep b) Hb). by destruct (ceq_spec sep sep).
  - by rewrite IH.
Qed.

Lemma up_to_last_Some sep s w :
  up_to_last sep s = Some w -> exists a b, w = a ++ [sep] /\ s = a ++ sep :: b /\ ~ In sep b.
Proof.
  revert w; induction s as [|c s IH]; intros w; simpl; [done|].
  destruct (up_to_last sep s) as [u|] eqn:Hu.
  - intros [= <-]. destruct (IH u eq_refl) as (a & b & -> & -> & ?). by exists (c :: a), b.
  - destruct (ceq_spec c sep) as [->|]; [|done]. intros [= <-]. exists [], s.
    split_and!; try done. by apply up_to_last_None.
Qed.

Lemma in_last_split (x : N) s : In x s -> exists a b, s = a ++ x :: b /\ ~ In x b.
Proof.
  intros H. destruct (up_to_last x s) as [w|] eqn:Hw.
  - destruct (up_to_last_Some _ _ _ Hw) as (a & b & _ & -> & ?). by exists a, b.
  - by apply up_to_last_None in Hw.
Qed.

(** any prefix ending in the separator is within the last-separator cut *)
Lemma starts_cut d a b : ~ In slash b -> starts (d ++ [slash]) (a ++ slash :: b) -> starts (d ++ [slash]) (a ++ [slash]).
Proof.
  intros Hb [r Hr]. revert a Hr; induction d as [|c d IH]; intros a; simpl.
  - intros Hr. destruct a as [|c a]; simpl in *; [by exists []|]. injection Hr as Hc _. subst c.
    exists (a ++ [slash]). done.
  - destruct a as [|c' a]; simpl; intros Heq; injection Heq as Hc Hr; subst c.
    + exfalso. apply Hb. rewrite Hr. rewrite <- app_assoc. apply in_app_iff. right. simpl. auto.
    + destruct (IH a Hr) as [s Hs]. exists s. simpl. by f_equal.
Qed.

Lemma common_prefix_many ps :
  (2 <= length ps)%nat ->
  Forall file_path ps -> share_directory ps -> distinct_files ps ->
  let d := common_prefix slash ps in
  ends_in_slash d /\ (forall p, In p ps -> exists r, r <> [] /\ p = d ++ r) /\
  (forall d', ends_in_slash d' -> (forall p, In p ps -> starts d' p) -> starts d' d).
Proof.
  intros Hlen Hcl [d0 Hd0] [Hnd Hbel]. destruct ps as [|p [|q rest]]; simpl in Hlen; [lia|lia|].
  unfold common_prefix. set (tl := q :: rest).
  destruct (fold_common_spec (fun v => clean v ++ [slash]) tl (clean p ++ [slash])) as (Hp & Hv & Hg).
  set (c := fold_left _ tl _) in *.
  rewrite Forall_forall in Hcl.
  assert (Hcl' : forall v, In v (p :: tl) -> clean v = v) by (intros v ?; apply Hcl; by apply elem_of_list_In).
  assert (Hfl : forall v, In v (p :: tl) -> ~ ends_in_slash v) by (intros v ?; apply Hcl; by apply elem_of_list_In).
  assert (Hall : forall v, In v (p :: tl) -> starts c (v ++ [slash])).
  { intros v [<-|Hin]; [rewrite <- (Hcl' p) at 1; [done|by left]|].
    pose proof (Hv v Hin) as Hs. rewrite Hcl' in Hs; [done|by right]. }
  assert (Hgr : forall d', (forall v, In v (p :: tl) -> starts d' (v ++ [slash])) -> starts d' c).
  { intros d' Hd'. apply Hg.
    - rewrite Hcl' by (by left). apply Hd'. by left.
    - intros v Hin. rewrite Hcl' by (by right). apply Hd'. by right. }
  assert (Hd0c : starts (d0 ++ [slash]) c).
  { apply Hgr. intros v Hin. eapply starts_trans; [by apply Hd0|by eexists]. }
  assert (Hin : In slash c).
  { destruct Hd0c as [r ->]. rewrite <- app_assoc. apply in_app_iff. right. simpl. auto. }
  destruct (in_last_split _ _ Hin) as (a & b & Hab & Hb).
  assert (Hcut : cut_last slash c = a).
  { unfold cut_last. rewrite Hab, up_to_last_app by done.
    rewrite app_length. simpl. replace (length a + 1 - 1)%nat with (length a) by lia. by rewrite take_app. }
  change (p :: q :: rest) with (p :: tl) in *.
  assert (Hres : forall v, In v (p :: tl) -> starts (a ++ [slash]) (v ++ [slash])).
  { intros v Hin'. destruct (Hall v Hin') as [r Hr]. rewrite Hab in Hr.
    exists (b ++ r). rewrite Hr. by rewrite <- !app_assoc. }
  rewrite Hcut. split_and!.
  - by exists a.
  - (* strictly a prefix of every path *)
    intros v Hin'. destruct (Hres v Hin') as [r Hr].
    destruct (decide (r = [])) as [->|Hne].
    + rewrite app_nil_r in Hr. apply app_inj_tail in Hr as [-> _].
      exfalso.
      assert (exists w, In w (p :: tl) /\ w <> a) as (w & Hw & Hne).
      { destruct (decide (p = a)) as [->|]; [|by exists p; split; [left|]].
        exists q. split; [by right; left|]. intros ->. apply NoDup_cons in Hnd as [Hnd _]. apply Hnd. left. }
      destruct (Hres w Hw) as [r Hr].
      destruct (decide (r = [])) as [->|Hr0].
      { rewrite app_nil_r in Hr. apply app_inj_tail in Hr as [-> _]. done. }
      destruct (exists_last Hr0) as [r' [x ->]]. rewrite app_assoc in Hr.
      apply app_inj_tail in Hr as [-> _].
      apply (Hbel a ((a ++ [slash]) ++ r') Hin' Hw). exists r'. by rewrite <- app_assoc.
    + destruct (exists_last Hne) as [r' [x ->]]. rewrite app_assoc in Hr.
      pose proof Hr as Hr'. apply app_inj_tail in Hr' as [Hv' _].
      exists r'. split; [|done]. intros ->. rewrite app_nil_r in Hv'. subst v.
      apply (Hfl (a ++ [slash]) Hin'). by exists a.
  - intros d' [e ->] Hd'. apply starts_cut with (b := b); [done|]. rewrite <- Hab. apply Hgr.
    intros v Hin'. eapply starts_trans; [by apply Hd'|by eexists].
Qed.

(** Path elements. *)
Lemma split_on_nonempty sep s : split_on sep s <> [].
Proof. destruct s as [|c s]; simpl; [done|]. destruct (ceq c sep); [done|]. by destruct (split_on sep s). Qed.

Lemma split_on_app sep a b : split_on sep (a ++ sep :: b) = split_on sep a ++ split_on sep b.
Proof.
  induction a as [|c a IH]; simpl.
  - by destruct (ceq_spec sep sep).
  - destruct (ceq c sep); [by rewrite IH|]. rewrite IH.
    pose proof (split_on_nonempty sep a). by destruct (split_on sep a).
Qed.

Lemma split_on_plain sep e : ~ In sep e -> split_on sep e = [e].
Proof.
  induction e as [|c e IH]; simpl; [done|]. intros H.
  destruct (ceq_spec c sep) as [->|]; [exfalso; apply H; by left|].
  rewrite IH; [done|]. intros ?; apply H; by right.
Qed.

Lemma split_join sep es : es <> [] -> Forall (fun e => ~ In sep e) es -> split_on sep (join_with [sep] es) = es.
Proof.
  induction es as [|e es IH]; [done|]. intros _ [He Hes]%Forall_cons.
  destruct es as [|e' es]; [by apply split_on_plain|].
  change (join_with [sep] (e :: e' :: es)) with (e ++ sep :: join_with [sep] (e' :: es)).
  rewrite split_on_app, IH, split_on_plain; done.
Qed.

Lemma join_split sep s : join_with [sep] (split_on sep s) = s.
Proof.
  induction s as [|c s IH]; simpl; [done|].
  pose proof (split_on_nonempty sep s) as Hne.
  destruct (ceq_spec c sep) as [->|].
  - destruct (split_on sep s) as [|w ws]; [done|].
    change (join_with [sep] ([] :: w :: ws)) with ([] ++ [sep] ++ join_with [sep] (w :: ws)). by rewrite IH.
  - destruct (split_on sep s) as [|w ws]; [done|]. destruct ws; simpl in *; by rewrite <- IH.
Qed.

Lemma split_slash_free sep s : Forall (fun e => ~ In sep e) (split_on sep s).
Proof.
  induction s as [|c s IH]; simpl; [by apply Forall_singleton; intros []|].
  destruct (ceq_spec c sep) as [->|]; [apply Forall_cons; split; [by intros []|done]|].
  destruct (split_on sep s) as [|w ws]; [apply Forall_singleton; intros [?|[]]; congruence|].
  apply Forall_cons in IH as [Hw Hws]. constructor; [|done]. intros [?|?]; [congruence|done].
Qed.

Lemma join_app sep xs ys : xs <> [] -> ys <> [] ->
  join_with [sep] (xs ++ ys) = join_with [sep] xs ++ sep :: join_with [sep] ys.
Proof.
  induction xs as [|x xs IH]; [done|]. intros _ Hys. destruct xs as [|x' xs].
  - simpl. by destruct ys.
  - change ((x :: x' :: xs) ++ ys) with (x :: x' :: (xs ++ ys)).
    change (join_with [sep] (x :: x' :: (xs ++ ys))) with (x ++ sep :: join_with [sep] ((x' :: xs) ++ ys)).
    rewrite IH by done.
    change (join_with [sep] (x :: x' :: xs)) with (x ++ sep :: join_with [sep] (x' :: xs)).
    by rewrite <- app_assoc.
Qed.

Lemma join_nil_inv es : Forall (fun e => e <> []) es -> join_with [slash] es = [] -> es = [].
Proof. destruct es as [|[|c e] [|e' es]]; simpl; try done; intros [? _]%Forall_cons; done. Qed.

(** Elements that are neither empty nor ".". *)
Definition keep (e : list N) : bool := negb (seq_eqb e [] || seq_eqb e dot).

Lemma keep_spec e : keep e = true <-> e <> [] /\ e <> dot.
Proof.
  unfold keep. destruct (seq_eqb_spec e []), (seq_eqb_spec e dot); simpl; naive_solver.
Qed.

Lemma name_keep e : name_ok e -> keep e = true.
Proof. intros (?&?&?&?). by apply keep_spec. Qed.

Lemma clean_step_plain r acc e : name_ok e -> clean_step r acc e = e :: acc.
Proof.
  intros (H1&H2&H3&?). unfold clean_step.
  destruct (seq_eqb_spec e []); [done|]. destruct (seq_eqb_spec e dot); [done|].
  simpl. by destruct (seq_eqb_spec e dotdot).
Qed.
Lemma clean_fold_plain r es acc : Forall name_ok es -> fold_left (clean_step r) es acc = rev es ++ acc.
Proof.
  revert acc; induction es as [|e es IH]; intros acc; simpl; [done|]. intros [He Hes]%Forall_cons.
  rewrite clean_step_plain, IH by done. by rewrite <- app_assoc.
Qed.

(** The elements kept are kept elements. *)
Lemma clean_step_keep r acc e : Forall (fun e => keep e = true) acc ->
  Forall (fun e => keep e = true) (clean_step r acc e).
Proof.
  intros H. unfold clean_step. destruct (seq_eqb e [] || seq_eqb e dot) eqn:Hk; [done|].
  assert (keep e = true) by (unfold keep; by rewrite Hk).
  destruct (seq_eqb e dotdot).
  - destruct acc as [|top rest].
    + destruct r; [done|]. by constructor.
    + pose proof H as H00. apply Forall_cons in H as [? ?]. destruct (seq_eqb top dotdot); [by constructor|done].
  - by constructor.
Qed.
Lemma clean_fold_keep r es acc : Forall (fun e => keep e = true) acc ->
  Forall (fun e => keep e = true) (fold_left (clean_step r) es acc).
Proof. revert acc; induction es as [|e es IH]; intros acc H; simpl; [done|]. apply IH. by apply clean_step_keep. Qed.

Lemma clean_step_free r acc e : ~ In slash e -> Forall (fun e => ~ In slash e) acc ->
  Forall (fun e => ~ In slash e) (clean_step r acc e).
Proof.
  intros He H. unfold clean_step. destruct (_ || _); [done|]. destruct (seq_eqb e dotdot).
  - destruct acc as [|top rest]; [destruct r; by repeat constructor|].
    destruct (seq_eqb top dotdot); [by constructor|]. by apply Forall_cons in H as [_ ?].
  - by constructor.
Qed.
Lemma clean_fold_free r es acc : Forall (fun e => ~ In slash e) es -> Forall (fun e => ~ In slash e) acc ->
  Forall (fun e => ~ In slash e) (fold_left (clean_step r) es acc).
Proof.
  revert acc; induction es as [|e es IH]; intros acc; simpl; [done|]. intros [He Hes]%Forall_cons H.
  apply IH; [done|]. by apply clean_step_free.
Qed.

(** Cleaning in terms of elements. *)
Definition render (r : bool) (es : list (list N)) : list N :=
  if r then slash :: join_with [slash] es else match es with [] => dot | _ => join_with [slash] es end.
Definition elems (p : list N) : list (list N) := rev (fold_left (clean_step (is_abs p)) (split_on slash p) []).

Lemma elems_ok p : Forall (fun e => keep e = true /\ ~ In slash e) (elems p).
Proof.
  unfold elems. apply Forall_rev. apply Forall_and. split.
  - by apply clean_fold_keep.
  - apply clean_fold_free; [apply split_slash_free|done].
Qed.

Lemma clean_render p : clean p = render (is_abs p) (elems p).
Proof.
  unfold clean, render, elems. set (es := rev _).
  destruct (is_abs p); [done|].
  assert (Forall (fun e => keep e = true /\ ~ In slash e) es) as Hok.
  { unfold es. apply Forall_rev, Forall_and. split; [by apply clean_fold_keep|].
    apply clean_fold_free; [apply split_slash_free|done]. }
  destruct es as [|e es]; [done|].
  destruct (join_with [slash] (e :: es)) eqn:Hj; [|done].
  exfalso. apply Forall_cons in Hok as [[Hk _] _]. apply keep_spec in Hk as [Hk _].
  destruct e as [|c e]; [done|]. by destruct es.
Qed.

Lemma is_abs_app d x : d <> [] -> is_abs (d ++ x) = is_abs d.
Proof. by destruct d. Qed.

Lemma elems_descend d es : d <> [] -> Forall name_ok es ->
  elems (d ++ slash :: join_with [slash] es) = elems d ++ es.
Proof.
  intros Hd Hes. unfold elems. rewrite is_abs_app by done. rewrite split_on_app, fold_left_app.
  destruct es as [|e es].
  - simpl. by rewrite app_nil_r.
  - rewrite split_join; [|done|by eapply Forall_impl; [exact Hes|]; intros ? (?&?&?&?)].
    rewrite clean_fold_plain by done. by rewrite rev_app_distr, rev_involutive.
Qed.

Lemma elems_plain es : es <> [] -> Forall name_ok es ->
  is_abs (join_with [slash] es) = false /\ elems (join_with [slash] es) = es.
Proof.
  intros Hne Hes.
  assert (Ha : is_abs (join_with [slash] es) = false).
  { destruct es as [|[|c e] es]; [done|apply Forall_cons in Hes as [(?&?&?&?) _]; done|].
    apply Forall_cons in Hes as [(_&_&_&H) _].
    assert (c <> slash) by (intros ->; apply H; by left).
    destruct es; simpl; by destruct (ceq_spec c slash). }
  split; [done|]. unfold elems. rewrite Ha.
  rewrite split_join; [|done|by eapply Forall_impl; [exact Hes|]; intros ? (?&?&?&?)].
  rewrite clean_fold_plain by done. by rewrite app_nil_r, rev_involutive.
Qed.

Lemma join_dot E : Forall (fun e => keep e = true /\ ~ In slash e) E -> join_with [slash] E <> dot.
Proof.
  intros H Heq. destruct E as [|e E]; [done|]. apply Forall_cons in H as [[Hk Hf] HE].
  apply keep_spec in Hk as [Hk1 Hk2]. destruct E as [|e' E]; [done|].
  simpl in Heq. destruct e as [|c e]; [done|]. simpl in Heq. injection Heq as _ Heq.
  by destruct e.
Qed.
Lemma join_slash E : Forall (fun e => keep e = true /\ ~ In slash e) E -> join_with [slash] E <> [slash].
Proof.
  intros H Heq. destruct E as [|e E]; [done|]. apply Forall_cons in H as [[Hk Hf] HE].
  apply keep_spec in Hk as [Hk1 Hk2]. destruct e as [|c e]; [done|].
  assert (c = slash) by (destruct E; simpl in Heq; congruence). subst. apply Hf. by left.
Qed.

Lemma clean_descend d es : d <> [] -> es <> [] -> Forall name_ok es ->
  clean (d ++ slash :: join_with [slash] es) = descend (clean d) es.
Proof.
  intros Hd Hne Hes. rewrite !clean_render, is_abs_app, elems_descend by done.
  pose proof (elems_ok d) as Hok. set (E := elems d) in *.
  unfold descend. destruct es as [|e0 es0]; [done|]. set (es := e0 :: es0) in *. clearbody es.
  unfold render. destruct (is_abs d).
  - destruct (seq_eqb_spec (slash :: join_with [slash] E) dot); [done|].
    destruct (seq_eqb_spec (slash :: join_with [slash] E) [slash]) as [Heq|Hn].
    + injection Heq as Heq. assert (E = []) as ->.
      { apply join_nil_inv; [|done]. eapply Forall_impl; [exact Hok|]. intros x [[? ?]%keep_spec _]. done. }
      done.
    + destruct (decide (E = [])) as [->|HE]; [done|]. rewrite join_app by done. done.
  - destruct E as [|e E].
    + simpl app. destruct (seq_eqb_spec dot dot); [|done]. by destruct es.
    + destruct (seq_eqb_spec (join_with [slash] (e :: E)) dot) as [Heq|_]; [by apply join_dot in Heq|].
      destruct (seq_eqb_spec (join_with [slash] (e :: E)) [slash]) as [Heq|_]; [by apply join_slash in Heq|].
      rewrite <- join_app by done. done.
Qed.

Lemma clean_plain es : es <> [] -> Forall name_ok es -> clean (join_with [slash] es) = join_with [slash] es.
Proof.
  intros Hne Hes. rewrite clean_render. destruct (elems_plain es Hne Hes) as [-> ->]. unfold render. by destruct es.
Qed.

Lemma join_outdir d es : es <> [] -> Forall name_ok es ->
  path_join [d; join_with [slash] es] = descend (clean d) es.
Proof.
  intros Hne Hes. unfold path_join. cbn [List.filter].
  assert (join_with [slash] es <> []) as Hj.
  { intros ?%join_nil_inv; [done|]. eapply Forall_impl; [exact Hes|]. by intros ? (?&?&?&?). }
  destruct (seq_eqb_spec (join_with [slash] es) []); [done|].
  destruct (seq_eqb_spec d []) as [->|Hd]; cbn [negb].
  - simpl join_with at 1. rewrite clean_plain by done. unfold descend, clean. simpl. by destruct es.
  - cbn [join_with]. apply clean_descend; done.
Qed.

Lemma join_inj xs ys : xs <> [] -> ys <> [] -> Forall name_ok xs -> Forall name_ok ys ->
  join_with [slash] xs = join_with [slash] ys -> xs = ys.
Proof.
  intros Hx Hy HX HY Heq. apply (f_equal (split_on slash)) in Heq.
  rewrite !split_join in Heq; try done.
  - eapply Forall_impl; [exact HY|]; by intros ? (?&?&?&?).
  - eapply Forall_impl; [exact HX|]; by intros ? (?&?&?&?).
Qed.

Lemma descend_inj d xs ys : xs <> [] -> ys <> [] -> Forall name_ok xs -> Forall name_ok ys ->
  descend d xs = descend d ys -> xs = ys.
Proof.
  intros Hx Hy HX HY. unfold descend. destruct xs as [|x xs]; [done|]. destruct ys as [|y ys]; [done|].
  destruct (seq_eqb d dot); [by apply join_inj|]. destruct (seq_eqb d [slash]).
  - intros [= H]. by apply join_inj.
  - intros H. apply app_inv_head in H. injection H as H. by apply join_inj.
Qed.

(** The part of an absolute path below a directory. *)
Lemma abs_path_split es : es <> [] -> Forall name_ok es -> split_on slash (abs_path es) = [] :: es.
Proof.
  intros Hne Hes. assert (abs_path es = slash :: join_with [slash] es) as ->.
  { clear Hes. induction es as [|e es IH]; [done|]. destruct es as [|e' es].
    - unfold abs_path. simpl. by rewrite app_nil_r.
    - change (abs_path (e :: e' :: es)) with (slash :: e ++ abs_path (e' :: es)). rewrite IH by done. done. }
  simpl. rewrite split_join; [done|done|eapply Forall_impl; [exact Hes|]; by intros ? (?&?&?&?)].
Qed.

Lemma abs_below es a r : es <> [] -> Forall name_ok es -> abs_path es = a ++ slash :: r ->
  exists es1 es2, es = es1 ++ es2 /\ es2 <> [] /\ r = join_with [slash] es2.
Proof.
  intros Hne Hes Heq. pose proof (abs_path_split es Hne Hes) as Hs. rewrite Heq, split_on_app in Hs.
  pose proof (split_on_nonempty slash a) as Ha. pose proof (split_on_nonempty slash r).
  destruct (split_on slash a) as [|x xs]; [done|]. simpl in Hs. injection Hs as _ Hs.
  exists xs, (split_on slash r). split_and!; [done|done|by rewrite join_split].
Qed.

Lemma abs_file_path p : abs_file p -> file_path p.
Proof.
  intros (es & Hne & Hes & ->). split.
  - rewrite clean_render. unfold elems. rewrite abs_path_split by done.
    assert (is_abs (abs_path es) = true) as -> by (by destruct es).
    simpl. rewrite clean_fold_plain by done. rewrite app_nil_r, rev_involutive.
    rewrite <- (join_split slash (abs_path es)), abs_path_split by done. simpl. by destruct es.
  - intros [a Ha]. change (a ++ [slash]) with (a ++ slash :: []) in Ha.
    destruct (abs_below es a [] Hne Hes Ha) as (es1 & es2 & -> & H2 & Hj).
    apply Forall_app in Hes as [_ Hes]. destruct es2 as [|[|c e] es2]; [done| |by destruct es2].
    apply Forall_cons in Hes as [(?&_) _]. done.
Qed.

Lemma abs_share ps : Forall abs_file ps -> share_directory ps.
Proof.
  intros H. exists []. intros p Hp%elem_of_list_In. rewrite Forall_forall in H.
  destruct (H p Hp) as (es & Hne & _ & ->). destruct es as [|e es]; [done|]. by eexists.
Qed.

(** Cleaning a directory part of a clean path. *)
Lemma clean_step_len r acc e :
  (length (clean_step r acc e) <= length acc + (if keep e then 1 else 0))%nat /\
  (length (clean_step r acc e) = length acc + (if keep e then 1 else 0) ->
   clean_step r acc e = if keep e then e :: acc else acc)%nat.
Proof.
  unfold clean_step, keep. destruct (seq_eqb e [] || seq_eqb e dot); simpl; [split; [lia|done]|].
  destruct (seq_eqb e dotdot).
  - destruct acc as [|top rest]; [destruct r; simpl; split; try lia; done|].
    destruct (seq_eqb top dotdot); simpl; split; try lia; done.
  - simpl. split; [lia|done].
Qed.
Lemma clean_fold_len r es acc :
  (length (fold_left (clean_step r) es acc) <= length acc + length (List.filter keep es))%nat /\
  (length (fold_left (clean_step r) es acc) = length acc + length (List.filter keep es) ->
   fold_left (clean_step r) es acc = rev (List.filter keep es) ++ acc)%nat.
Proof.
  revert acc; induction es as [|e es IH]; intros acc; simpl; [split; [lia|done]|].
  destruct (IH (clean_step r acc e)) as [H1 H2]. destruct (clean_step_len r acc e) as [H3 H4].
  destruct (keep e); simpl in *; split.
  - lia.
  - intros H. rewrite H2 by lia. rewrite H4 by lia. by rewrite <- app_assoc.
  - lia.
  - intros H. rewrite H2 by lia. by rewrite H4 by lia.
Qed.

Lemma filter_keep_all es : Forall (fun e => keep e = true) es -> List.filter keep es = es.
Proof. induction 1 as [|e es He _ IH]; simpl; [done|]. by rewrite He, IH. Qed.

Lemma clean_dir a b : a <> [] -> b <> [] -> clean (a ++ slash :: b) = a ++ slash :: b -> clean (a ++ [slash]) = a.
Proof.
  intros Ha Hb Hc.
  assert (Hsp : exists pre E', split_on slash (a ++ slash :: b) = pre ++ E' /\
     pre = (if is_abs a then [[]] else []) /\ E' = elems (a ++ slash :: b)).
  { pose proof (elems_ok (a ++ slash :: b)) as Hok.
    rewrite clean_render, is_abs_app in Hc by done. unfold render in Hc.
    set (E := elems (a ++ slash :: b)) in *.
    assert (Hfree : Forall (fun e => ~ In slash e) E) by (eapply Forall_impl; [exact Hok|]; naive_solver).
    destruct (is_abs a) eqn:Habs.
    - destruct (decide (E = [])) as [HE|HE].
      + rewrite HE in Hc. simpl in Hc. destruct a as [|c [|c' a]]; simpl in Hc; [done| |]; congruence.
      + eexists [[]], E. split_and!; [|done|done]. rewrite <- Hc. simpl. by rewrite split_join.
    - destruct E as [|e E1] eqn:HE.
      + exfalso. unfold dot in Hc. simpl in Hc. destruct a as [|c [|]]; simpl in Hc; done.
      + eexists [], (e :: E1). split_and!; [|done|done]. rewrite <- Hc. exact (split_join slash (e :: E1) ltac:(done) Hfree). }
  destruct Hsp as (pre & E' & Hs & Hpre & HE').
  rewrite split_on_app in Hs.
  assert (HE2 : E' = rev (fold_left (clean_step (is_abs a)) (split_on slash a ++ split_on slash b) [])).
  { rewrite HE'. unfold elems. by rewrite is_abs_app, split_on_app by done. }
  pose proof (elems_ok (a ++ slash :: b)) as Hok. rewrite <- HE' in Hok.
  assert (HkE : List.filter keep E' = E').
  { apply filter_keep_all. eapply Forall_impl; [exact Hok|]. naive_solver. }
  assert (Hcount : length (List.filter keep (split_on slash a ++ split_on slash b)) = length E').
  { rewrite Hs, List.filter_app, HkE, Hpre. by destruct (is_abs a). }
  set (r := is_abs a) in *.
  pose proof (clean_fold_len r (split_on slash a) []) as [L1 L2].
  rewrite fold_left_app in HE2.
  pose proof (clean_fold_len r (split_on slash b) (fold_left (clean_step r) (split_on slash a) [])) as [L3 L4].
  rewrite HE2 in Hcount. rewrite rev_length in Hcount.
  rewrite List.filter_app, app_length in Hcount. simpl in L1, L2.
  assert (Hfold : fold_left (clean_step r) (split_on slash a) [] = rev (List.filter keep (split_on slash a))).
  { rewrite L2 by lia. by rewrite app_nil_r. }
  rewrite clean_render. unfold elems. rewrite is_abs_app by done. fold r.
  change (a ++ [slash]) with (a ++ slash :: []). rewrite split_on_app, fold_left_app, Hfold. simpl.
  change (clean_step r (rev (List.filter keep (split_on slash a))) []) with (rev (List.filter keep (split_on slash a))).
  rewrite rev_involutive.
  (* the elements of a are all kept, except the leading empty one of an absolute path *)
  pose proof (split_on_nonempty slash a) as Hna.
  assert (Ha' : split_on slash a = pre ++ List.filter keep (split_on slash a)).
  { destruct r.
    - subst pre. destruct (split_on slash a) as [|x xs]; [done|]. simpl in Hs. injection Hs as -> Hs.
      simpl. f_equal. symmetry. apply filter_keep_all. rewrite <- Hs in Hok. apply Forall_app in Hok as [Hok _].
      eapply Forall_impl; [exact Hok|]. naive_solver.
    - subst pre. simpl in *. symmetry. apply filter_keep_all. rewrite <- Hs in Hok. apply Forall_app in Hok as [Hok _].
      eapply Forall_impl; [exact Hok|]. naive_solver. }
  pose proof (join_split slash a) as Hj. unfold render. revert Ha'.
  generalize (List.filter keep (split_on slash a)). intros F Ha'. rewrite Ha' in Hj. clear -Ha Ha' Hna Hj Hpre.
  destruct r; subst pre; simpl in *.
  - destruct F as [|x xs]; [|done]. simpl in Hj. done.
  - destruct F as [|x xs]; [|done]. done.
Qed.

Lemma common_prefix_single p : file_path p -> share_directory [p] -> (exists a b, a <> [] /\ ~ In slash b /\ p = a ++ slash :: b) ->
  let d := common_prefix slash [p] in
  ends_in_slash d /\ (exists r, r <> [] /\ p = d ++ r) /\
  (forall d', ends_in_slash d' -> starts d' p -> starts d' d).
Proof.
  intros [Hc Hne] _ (a & b & Ha & Hb & Hp). unfold common_prefix, path_dir, split_dir. rewrite Hc, Hp, up_to_last_app by done.
  assert (b <> []) as Hbn by (intros ->; apply Hne; by exists a).
  rewrite (clean_dir a b) by (done || by rewrite <- Hp).
  split_and!.
  - by exists a.
  - exists b. split; [done|]. by rewrite <- app_assoc.
  - intros d' [e ->] Hs. by apply starts_cut with (b := b).
Qed.

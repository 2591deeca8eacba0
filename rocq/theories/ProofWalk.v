From Coq Require Import Sorting.Permutation.
From Verif Require Import Prelude GoStrings Paths SpecPaths ProofPaths Files Walk SpecWalk.

(** ** Cleaning is idempotent *)
Definition normal (r : bool) (acc : list (list N)) : Prop :=
  exists plain k, acc = plain ++ replicate k dotdot /\ Forall name_ok plain /\ (r = true -> k = 0%nat).

Lemma dotdot_not_ok : ~ name_ok dotdot.
Proof. intros (_ & _ & H & _). done. Qed.

Lemma clean_step_dd r acc : clean_step r acc dotdot =
  match acc with
  | top :: rest => if seq_eqb top dotdot then dotdot :: acc else rest
  | [] => if r then [] else [dotdot]
  end.
Proof. reflexivity. Qed.

Lemma clean_step_normal r acc e : ~ In slash e -> normal r acc -> normal r (clean_step r acc e).
Proof.
  intros Hs (plain & k & -> & Hp & Hr).
  destruct (decide (e = [])) as [->|He]; [by exists plain, k|].
  destruct (decide (e = dot)) as [->|Hd]; [by exists plain, k|].
  destruct (decide (e = dotdot)) as [->|Hdd].
  - rewrite clean_step_dd. destruct plain as [|p plain].
    + destruct k as [|k]; simpl.
      * destruct r; [by exists [], 0%nat|]. by exists [], 1%nat.
      * exists [], (S (S k)). split_and!; [done|done|]. intros Ht. by specialize (Hr Ht).
    + simpl. apply Forall_cons in Hp as [Hp1 Hp]. destruct (seq_eqb_spec p dotdot) as [->|]; [by apply dotdot_not_ok in Hp1|].
      by exists plain, k.
  - assert (name_ok e) as Hok by done. rewrite clean_step_plain by done.
    exists (e :: plain), k. split_and!; [done|by constructor|done].
Qed.
Lemma clean_fold_normal r es acc : Forall (fun e => ~ In slash e) es -> normal r acc -> normal r (fold_left (clean_step r) es acc).
Proof.
  revert acc; induction es as [|e es IH]; intros acc Hes Hn; [done|]. apply Forall_cons in Hes as [He Hes].
  simpl. apply IH; [done|]. by apply clean_step_normal.
Qed.
Lemma clean_fold_dd k acc : clean_step false acc dotdot = dotdot :: acc ->
  fold_left (clean_step false) (replicate k dotdot) acc = replicate k dotdot ++ acc.
Proof.
  revert acc; induction k as [|k IH]; intros acc H; [done|]. cbn [replicate fold_left]. rewrite H. rewrite IH.
  - clear. induction k; simpl; [done|]. by rewrite IHk.
  - by rewrite clean_step_dd.
Qed.
Lemma rev_dd k : rev (replicate k dotdot) = replicate k dotdot.
Proof.
  induction k as [|k IH]; [done|]. simpl. rewrite IH. clear. induction k as [|k IH]; [done|]. simpl. by rewrite IH.
Qed.
Lemma clean_fold_normal_fix r acc : normal r acc -> fold_left (clean_step r) (rev acc) [] = acc.
Proof.
  intros (plain & k & -> & Hp & Hr). rewrite rev_app_distr, fold_left_app.
  assert (fold_left (clean_step r) (rev (replicate k dotdot)) [] = replicate k dotdot) as ->.
  { rewrite rev_dd. destruct r; [by rewrite Hr|]. rewrite clean_fold_dd by done. apply app_nil_r. }
  rewrite clean_fold_plain by (by apply Forall_rev). by rewrite rev_involutive.
Qed.

Lemma is_abs_render r E : Forall (fun e => keep e = true /\ ~ In slash e) E -> is_abs (render r E) = r.
Proof.
  intros Hok. destruct r; [done|]. destruct E as [|e E]; [done|]. unfold render.
  apply Forall_cons in Hok as [[Hk Hf] _]. apply keep_spec in Hk as [Hk _].
  destruct e as [|c e]; [done|]. assert (c <> slash) by (intros ->; apply Hf; by left).
  destruct E; simpl; by destruct (ceq_spec c slash).
Qed.
Lemma elems_render r E : Forall (fun e => keep e = true /\ ~ In slash e) E -> normal r (rev E) -> elems (render r E) = E.
Proof.
  intros Hok Hn. unfold elems. rewrite is_abs_render by done.
  apply clean_fold_normal_fix in Hn. rewrite rev_involutive in Hn.
  assert (Hfree : Forall (fun e => ~ In slash e) E) by (eapply Forall_impl; [exact Hok|]; by intros ? [??]).
  unfold render. destruct r.
  - change (split_on slash (slash :: join_with [slash] E)) with ([] :: split_on slash (join_with [slash] E)).
    cbn [fold_left]. assert (clean_step true [] [] = []) as -> by done.
    destruct E as [|e E]; [done|]. rewrite split_join by done. rewrite Hn, rev_involutive. done.
  - destruct E as [|e E]; [done|]. rewrite split_join by done. rewrite Hn, rev_involutive. done.
Qed.
Lemma elems_normal p : normal (is_abs p) (rev (elems p)).
Proof. unfold elems. rewrite rev_involutive. apply clean_fold_normal; [apply split_slash_free|]. by exists [], 0%nat. Qed.
Lemma clean_idem p : clean (clean p) = clean p.
Proof.
  rewrite (clean_render p). rewrite (clean_render (render _ _)).
  rewrite is_abs_render by apply elems_ok. rewrite elems_render; [done|apply elems_ok|apply elems_normal].
Qed.

(** ** Paths below a directory *)
Lemma at_path_cons d n es : name_ok n -> Forall name_ok es ->
  at_path (descend (clean d) [n]) es = at_path d (n :: es).
Proof.
  intros Hn Hes. destruct es as [|e es]; [done|]. unfold at_path.
  assert (exists d', d' <> [] /\ clean d' = clean d) as (d' & Hd' & <-).
  { destruct d; [by exists dot|]. eexists; split; [|done]. done. }
  assert (descend (clean d') [n] = clean (d' ++ slash :: n)) as ->.
  { symmetry. apply (clean_descend d' [n]); [done|done|by constructor]. }
  rewrite clean_idem. rewrite <- (clean_descend (d' ++ slash :: n) (e :: es)); [|by destruct d'|done|done].
  rewrite <- (clean_descend d' (n :: e :: es)); [|done|done|by constructor].
  f_equal. rewrite <- app_assoc. done.
Qed.
Lemma join_name d n : name_ok n -> path_join [d; n] = descend (clean d) [n].
Proof. intros Hn. apply (join_outdir d [n]); [done|by constructor]. Qed.

Lemma listed_nil o d : listed o d [].
Proof. intros above n below H. by destruct above. Qed.
Lemma listed_prefix o d xs ys : listed o d (xs ++ ys) -> listed o d xs.
Proof. intros H above n below ->. apply (H above n (below ++ ys)). by rewrite <- app_assoc. Qed.
Lemma listed_names o d es : sane o -> listed o d es -> Forall name_ok es.
Proof.
  intros (Hs & _) H. apply Forall_forall. intros x Hx. apply elem_of_list_split in Hx as (l1 & l2 & ->).
  destruct (H l1 x l2 eq_refl) as (_ & ns & Hl & Hin). destruct (Hs _ _ Hl) as [Hok _].
  rewrite Forall_forall in Hok. apply Hok. by apply elem_of_list_In.
Qed.
Lemma listed_cons o d n es : sane o -> listed o d (n :: es) <->
  os_lstat o d = Some KDir /\ (exists ns, os_list o d = Some ns /\ In n ns) /\ listed o (descend (clean d) [n]) es.
Proof.
  intros Hsane. split.
  - intros H. destruct (H [] n es eq_refl) as (H1 & H2). split; [done|]. split; [done|].
    pose proof (listed_names _ _ _ Hsane H) as [Hn Hes]%Forall_cons.
    intros above m below ->. apply Forall_app in Hes as [Ha _].
    rewrite at_path_cons by done. by apply (H (n :: above) m below).
  - intros (H1 & (ns & Hl & Hin) & H). pose proof (listed_names _ _ _ Hsane H) as Hes.
    assert (name_ok n) as Hn.
    { destruct Hsane as (Hs & _). destruct (Hs _ _ Hl) as [Hok _]. rewrite Forall_forall in Hok. apply Hok. by apply elem_of_list_In. }
    intros above m below Heq. destruct above as [|a above].
    + simpl in Heq. injection Heq as <- <-. simpl. eauto.
    + simpl in Heq. injection Heq as <- ->. apply Forall_app in Hes as [Ha _].
      rewrite <- at_path_cons by done. by apply (H above m below).
Qed.

(** ** Sorting *)
Lemma str_leb_total a b : str_leb a b = true \/ str_leb b a = true.
Proof.
  revert b; induction a as [|x a IH]; intros [|y b]; simpl; auto.
  destruct (N.ltb_spec x y); [auto|]. destruct (N.ltb_spec y x); [auto|]. assert (x = y) as -> by lia.
  unfold ceq. rewrite N.eqb_refl. apply IH.
Qed.
Lemma str_leb_lt a b : str_leb a b = true -> a <> b -> name_lt a b.
Proof.
  revert b; induction a as [|x a IH]; intros [|y b]; simpl; try done; [by constructor|].
  destruct (N.ltb_spec x y); [by constructor|]. destruct (ceq_spec x y) as [->|]; [|done].
  intros Hl Hne. apply nl_same, IH; [done|congruence].
Qed.
Lemma name_lt_trans a b c : name_lt a b -> name_lt b c -> name_lt a c.
Proof.
  intros H; revert c; induction H as [c0 w|x y v w Hxy|x v w Hvw IH]; intros c Hc; inversion Hc; subst;
    try (by constructor); try (constructor; lia). constructor 3. by apply IH.
Qed.
Fixpoint ssorted (l : list (list N)) : Prop :=
  match l with [] => True | x :: r => (forall y, In y r -> name_lt x y) /\ ssorted r end.
Lemma insert_perm x l : Permutation (x :: l) (insert_sorted x l).
Proof.
  induction l as [|y l IH]; simpl; [done|]. destruct (str_leb x y); [done|].
  rewrite Permutation_swap. by rewrite IH.
Qed.
Lemma sort_perm l : Permutation l (sort_strings l).
Proof. induction l as [|x l IH]; simpl; [done|]. rewrite <- insert_perm. by rewrite <- IH. Qed.
Lemma insert_ssorted x l : ~ In x l -> ssorted l -> ssorted (insert_sorted x l).
Proof.
  induction l as [|y l IH]; simpl; [done|]. intros Hni [Hy Hl].
  destruct (str_leb x y) eqn:Hxy.
  - assert (name_lt x y) as Hlt by (apply str_leb_lt; [done|]; intros ->; apply Hni; by left).
    simpl. split; [|by split]. intros z [<-|Hz]; [done|]. eapply name_lt_trans; [done|by apply Hy].
  - assert (name_lt y x) as Hlt.
    { apply str_leb_lt; [destruct (str_leb_total x y); congruence|]. intros ->. apply Hni; by left. }
    simpl. split; [|apply IH; tauto]. intros z Hz.
    apply (Permutation_in _ (Permutation_sym (insert_perm x l))) in Hz as [<-|Hz]; [done|by apply Hy].
Qed.
Lemma sort_ssorted l : NoDup l -> ssorted (sort_strings l).
Proof.
  induction 1 as [|x l Hx Hnd IH]; simpl; [done|]. apply insert_ssorted; [|done].
  intros Hin. apply Hx. apply elem_of_list_In. eapply Permutation_in; [symmetry; apply sort_perm|done].
Qed.

(** ** The walk *)
Fixpoint each_of (w : list N -> kind -> res (list (list N))) (o : os) (p : list N) (ns : list (list N)) : res (list (list N)) :=
  match ns with
  | [] => Ok []
  | n :: r =>
      let q := path_join [p; n] in
      match os_lstat o q with
      | None => Err EFs
      | Some kq => let! here := w q kq in let! rest := each_of w o p r in Ok (here ++ rest)
      end
  end.
Lemma walk_S fuel o p : walk (S fuel) o p KDir =
  match os_list o p with None => Err EFs | Some ns => each_of (walk fuel o) o p (sort_strings ns) end.
Proof.
  simpl. destruct (os_list o p) as [ns|]; [|done]. generalize (sort_strings ns) as l.
  induction l as [|n l IH]; [done|]. simpl. by rewrite IH.
Qed.

(** What the walk collects below (or at) [p]. *)
Definition collected (o : os) (p : list N) (es : list (list N)) : Prop :=
  listed o p es /\ yaml_ext (at_path p es) = true /\
  (os_lstat o (at_path p es) = Some KFile \/ os_lstat o (at_path p es) = Some KLink).

Lemma in_way_cons (n : list N) ess es : In es (map (cons n) ess) <-> exists es', es = n :: es' /\ In es' ess.
Proof. rewrite in_map_iff. naive_solver. Qed.
Lemma increasing_app a b : increasing a -> increasing b -> (forall x y, In x a -> In y b -> way_lt x y) -> increasing (a ++ b).
Proof.
  induction a as [|x a IH]; simpl; [done|]. intros [Hx Ha] Hb Hab. split.
  - intros y [Hy|Hy]%in_app_iff; [by apply Hx|]. apply Hab; [by left|done].
  - apply IH; [done|done|]. intros ? ? ? ?. apply Hab; [by right|done].
Qed.
Lemma increasing_cons (n : list N) ess : increasing ess -> increasing (map (cons n) ess).
Proof.
  induction ess as [|x ess IH]; simpl; [done|]. intros [Hx H]. split; [|by apply IH].
  intros y (y' & -> & Hy)%in_way_cons. constructor 3. by apply Hx.
Qed.

Definition good (o : os) (w : list N -> kind -> res (list (list N))) (q : list N) : Prop :=
  exists kq ess, os_lstat o q = Some kq /\ w q kq = Ok (map (at_path q) ess) /\ increasing ess /\
    (forall es, In es ess <-> collected o q es).

Lemma each_good o w d ns : sane o -> Forall name_ok ns -> ssorted ns ->
  (forall n, In n ns -> good o w (descend (clean d) [n])) ->
  exists ess, each_of w o d ns = Ok (map (at_path d) ess) /\ increasing ess /\
    (forall es, In es ess <-> exists n es', es = n :: es' /\ In n ns /\ collected o (descend (clean d) [n]) es').
Proof.
  intros Hsane. induction ns as [|n ns IH]; intros Hok Hso Hg.
  - exists []. split; [done|]. split; [done|]. intros es. split; [done|]. by intros (? & ? & _ & [] & _).
  - apply Forall_cons in Hok as [Hn Hok]. destruct Hso as [Hlt Hso].
    destruct IH as (ess & He & Hinc & Hin); [done|done|intros; apply Hg; by right|].
    destruct (Hg n) as (kq & ess1 & Hk & Hw & Hinc1 & Hin1); [by left|].
    exists (map (cons n) ess1 ++ ess). split_and!.
    + cbn [each_of]. rewrite join_name by done. rewrite Hk, Hw, He. simpl. rewrite map_app, map_map. f_equal. f_equal.
      apply map_ext_in. intros es Hes. apply at_path_cons; [done|]. eapply listed_names; [done|]. by apply Hin1.
    + apply increasing_app; [by apply increasing_cons|done|].
      intros x y (x' & -> & _)%in_way_cons (m & y' & -> & Hm & _)%Hin. constructor 2. by apply Hlt.
    + intros es. rewrite in_app_iff, in_way_cons, Hin. split.
      * intros [(es' & -> & Hes')|(m & es' & -> & Hm & Hc)].
        -- exists n, es'. split_and!; [done|by left|]. by apply Hin1.
        -- exists m, es'. split_and!; [done|by right|done].
      * intros (m & es' & -> & [<-|Hm] & Hc).
        -- left. exists es'. split; [done|]. by apply Hin1.
        -- right. by exists m, es'.
Qed.

Lemma depth_step o d n m : sane o -> os_lstat o d = Some KDir -> (exists ns, os_list o d = Some ns /\ In m ns) ->
  depth_below o d (S n) -> depth_below o (descend (clean d) [m]) n.
Proof.
  intros Hs Hk Hl Hd es Hes. assert (listed o d (m :: es)) as H by (by apply listed_cons).
  apply Hd in H. simpl in H. lia.
Qed.

Lemma broken_cons o d n es : sane o -> broken_at o d (n :: es) <->
  os_lstat o d = Some KDir /\ (exists ns, os_list o d = Some ns /\ In n ns) /\ broken_at o (descend (clean d) [n]) es.
Proof.
  intros Hs. unfold broken_at. rewrite listed_cons by done. split.
  - intros ((H1 & H2 & H3) & H4). split_and!; try done.
    destruct H2 as (ns & Hl & Hin). destruct Hs as (Hs & Hs'). destruct (Hs _ _ Hl) as [Hok _].
    rewrite Forall_forall in Hok. rewrite at_path_cons; [done|apply Hok; by apply elem_of_list_In|]. by eapply listed_names.
  - intros (H1 & H2 & H3 & H4). split_and!; try done.
    destruct H2 as (ns & Hl & Hin). destruct (proj1 Hs _ _ Hl) as [Hok _].
    rewrite Forall_forall in Hok. rewrite <- at_path_cons; [done|apply Hok; by apply elem_of_list_In|]. by eapply listed_names.
Qed.

Lemma walk_ok o fuel : sane o -> forall p k, os_lstat o p = Some k -> depth_below o p fuel ->
  (forall es, ~ broken_at o p es) -> good o (walk (S fuel) o) p.
Proof.
  intros Hsane. induction fuel as [|fuel IH]; intros p k Hk Hd Hb.
  all: destruct k.
  all: try (exists KFile, (if yaml_ext p then [[]] else []); split_and!;
    [done|simpl; by destruct (yaml_ext p)|destruct (yaml_ext p); simpl; naive_solver|];
    intros es; split;
    [destruct (yaml_ext p) eqn:He; [|done]; intros [<-|[]]; split; [apply listed_nil|]; split; [done|by left]
    |intros (Hl & He & _); destruct es as [|n es];
      [simpl in He; rewrite He; by left|apply listed_cons in Hl as (? & _); [congruence|done]]]).
  all: try (exists KLink, (if yaml_ext p then [[]] else []); split_and!;
    [done|simpl; by destruct (yaml_ext p)|destruct (yaml_ext p); simpl; naive_solver|];
    intros es; split;
    [destruct (yaml_ext p) eqn:He; [|done]; intros [<-|[]]; split; [apply listed_nil|]; split; [done|by right]
    |intros (Hl & He & _); destruct es as [|n es];
      [simpl in He; rewrite He; by left|apply listed_cons in Hl as (? & _); [congruence|done]]]).
  - destruct (os_list o p) as [ns|] eqn:Hl.
    2:{ exfalso. apply (Hb []). split; [apply listed_nil|]. by right. }
    assert (ns = []) as ->.
    { destruct ns as [|n ns]; [done|]. exfalso. assert (listed o p [n]) as H.
      { apply listed_cons; [done|]. split_and!; [done| |apply listed_nil]. eexists; split; [done|by left]. }
      apply Hd in H. simpl in H. lia. }
    exists KDir, []. split_and!; [done| |done|].
    + rewrite walk_S, Hl. done.
    + intros es. split; [done|]. intros (Hls & _ & Hf). destruct es as [|n es]; [simpl in Hf; destruct Hf; congruence|].
      apply listed_cons in Hls as (_ & (ns & Hl' & Hin) & _); [|done]. rewrite Hl in Hl'. by injection Hl' as <-.
  - destruct (os_list o p) as [ns|] eqn:Hl.
    2:{ exfalso. apply (Hb []). split; [apply listed_nil|]. by right. }
    destruct (proj1 Hsane _ _ Hl) as [Hok Hnd].
    pose proof (sort_perm ns) as Hperm.
    assert (HIn : forall n, In n (sort_strings ns) <-> In n ns).
    { intros n. split; apply Permutation_in; [by symmetry|done]. }
    destruct (each_good o (walk (S fuel) o) p (sort_strings ns)) as (ess & He & Hinc & Hin); [done| | | |].
    + apply Forall_forall. intros x Hx. rewrite Forall_forall in Hok. apply Hok. apply elem_of_list_In, HIn. by apply elem_of_list_In.
    + by apply sort_ssorted.
    + intros n Hn%HIn. destruct (os_lstat o (descend (clean p) [n])) as [kq|] eqn:Hkq.
      * apply (IH _ kq); [done| |].
        -- apply depth_step; eauto.
        -- intros es Hes. apply (Hb (n :: es)). apply broken_cons; eauto.
      * exfalso. apply (Hb [n]). apply broken_cons; [done|]. split_and!; [done|eauto|]. split; [apply listed_nil|by left].
    + exists KDir, ess. split_and!; [done| |done|].
      * rewrite walk_S, Hl. done.
      * intros es. rewrite Hin. split.
        -- intros (n & es' & -> & Hn%HIn & Hc1 & Hc2 & Hc3).
           assert (name_ok n) by (rewrite Forall_forall in Hok; apply Hok; by apply elem_of_list_In).
           assert (Forall name_ok es') by (by eapply listed_names).
           unfold collected. rewrite <- at_path_cons by done. split; [|done].
           apply listed_cons; eauto.
        -- intros (Hls & Hye & Hf). destruct es as [|n es]; [simpl in Hf; destruct Hf; congruence|].
           pose proof (listed_names _ _ _ Hsane Hls) as [Hn Hes]%Forall_cons.
           apply listed_cons in Hls as (_ & (ns' & Hl' & Hin') & Hls); [|done].
           assert (ns' = ns) as -> by congruence.
           exists n, es. split_and!; [done|by apply HIn|]. unfold collected. rewrite at_path_cons by done. done.
Qed.

Lemma each_err o w d ns m : (forall n kq, In n ns -> os_lstat o (path_join [d; n]) = Some kq ->
     (exists l, w (path_join [d; n]) kq = Ok l) \/ w (path_join [d; n]) kq = Err EFs) ->
  In m ns -> (os_lstat o (path_join [d; m]) = None \/ exists kq, os_lstat o (path_join [d; m]) = Some kq /\ w (path_join [d; m]) kq = Err EFs) ->
  each_of w o d ns = Err EFs.
Proof.
  induction ns as [|n ns IH]; intros Hall Hm Hbad; [done|]. cbn [each_of].
  destruct (os_lstat o (path_join [d; n])) as [kq|] eqn:Hk; [|done].
  destruct (Hall n kq) as [[l Hl]|Hl]; [by left|done| |by rewrite Hl].
  rewrite Hl. cbn [rbind]. destruct Hm as [->|Hm].
  - exfalso. destruct Hbad as [?|(k' & Hk' & Hw)]; congruence.
  - rewrite IH; [done| |done|done]. intros; apply Hall; [by right|done].
Qed.
Lemma each_cases o w d ns : (forall n kq, In n ns -> os_lstat o (path_join [d; n]) = Some kq ->
     (exists l, w (path_join [d; n]) kq = Ok l) \/ w (path_join [d; n]) kq = Err EFs) ->
  (exists l, each_of w o d ns = Ok l) \/ each_of w o d ns = Err EFs.
Proof.
  induction ns as [|n ns IH]; intros Hall; [by left; exists []|]. cbn [each_of].
  destruct (os_lstat o (path_join [d; n])) as [kq|] eqn:Hk; [|by right].
  destruct (Hall n kq) as [[l Hl]|Hl]; [by left|done| |rewrite Hl; by right].
  rewrite Hl. cbn [rbind]. destruct IH as [[l' ->]| ->]; [intros; apply Hall; [by right|done]| |by right].
  left. eexists. done.
Qed.

Lemma walk_cases o fuel : sane o -> forall p k, os_lstat o p = Some k -> depth_below o p fuel ->
  (exists l, walk (S fuel) o p k = Ok l) \/ walk (S fuel) o p k = Err EFs.
Proof.
  intros Hsane. induction fuel as [|fuel IH]; intros p k Hk Hd; (destruct k; [left; eexists; done| |left; eexists; done]).
  all: rewrite walk_S; destruct (os_list o p) as [ns|] eqn:Hl; [|by right].
  - assert (ns = []) as ->; [|left; by exists []].
    destruct ns as [|n ns]; [done|]. exfalso. assert (listed o p [n]) as H.
    { apply listed_cons; [done|]. split_and!; [done| |apply listed_nil]. eexists; split; [done|by left]. }
    apply Hd in H. simpl in H. lia.
  - apply each_cases. intros n kq Hn Hkq.
    assert (In n ns) as Hn' by (eapply Permutation_in; [symmetry; apply sort_perm|done]).
    destruct (proj1 Hsane _ _ Hl) as [Hok _]. rewrite Forall_forall in Hok.
    apply IH; [done|]. rewrite join_name by (apply Hok; by apply elem_of_list_In).
    apply depth_step; eauto.
Qed.

Lemma walk_err o fuel : sane o -> forall p k es, os_lstat o p = Some k -> depth_below o p fuel ->
  broken_at o p es -> walk (S fuel) o p k = Err EFs.
Proof.
  intros Hsane. induction fuel as [|fuel IH]; intros p k es Hk Hd Hb.
  all: destruct es as [|n es].
  1,3: destruct Hb as [_ [H|[H1 H2]]]; cbn [at_path] in *; [congruence|]; rewrite Hk in H1; injection H1 as ->; by rewrite walk_S, H2.
  - destruct Hb as [H%Hd _]. simpl in H. lia.
  - apply broken_cons in Hb as (Hk' & (ns & Hl & Hin) & Hb); [|done].
    rewrite Hk in Hk'. injection Hk' as ->. rewrite walk_S, Hl.
    destruct (proj1 Hsane _ _ Hl) as [Hok _]. rewrite Forall_forall in Hok.
    assert (Hn : name_ok n) by (apply Hok; by apply elem_of_list_In).
    apply each_err with (m := n).
    + intros m kq Hm Hkq. assert (In m ns) as Hm' by (eapply Permutation_in; [symmetry; apply sort_perm|done]).
      apply walk_cases; [done|done|]. rewrite join_name by (apply Hok; by apply elem_of_list_In). apply depth_step; eauto.
    + eapply Permutation_in; [apply sort_perm|done].
    + rewrite join_name by done. destruct (os_lstat o (descend (clean p) [n])) as [kq|] eqn:Hkq; [|by left].
      right. exists kq. split; [done|]. apply (IH _ _ es); [done| |done]. apply depth_step; eauto.
Qed.

Lemma depth_more o p n m : depth_below o p n -> (n <= m)%nat -> depth_below o p m.
Proof. intros H Hle es Hes. specialize (H es Hes). lia. Qed.

(** ** The extension is that of the last name *)
Lemma at_path_last d dirs n : Forall name_ok (dirs ++ [n]) ->
  exists pre, at_path d (dirs ++ [n]) = pre ++ n /\ (pre = [] \/ ends_in_slash pre).
Proof.
  intros H. assert (exists pre, join_with [slash] (dirs ++ [n]) = pre ++ n /\ (pre = [] \/ ends_in_slash pre)) as (pre & Hj & Hpre).
  { destruct dirs as [|x dirs]; [exists []; split; [done|by left]|].
    exists (join_with [slash] (x :: dirs) ++ [slash]). split; [|right; by eexists].
    rewrite join_app by done. rewrite <- app_assoc. done. }
  unfold at_path. destruct (dirs ++ [n]) as [|x es] eqn:E; [by destruct dirs|]. rewrite <- E in *.
  assert (descend (clean d) (dirs ++ [n]) = (if seq_eqb (clean d) dot then [] else if seq_eqb (clean d) [slash] then [slash] else clean d ++ [slash]) ++ join_with [slash] (dirs ++ [n])) as ->.
  { unfold descend. rewrite E. destruct (seq_eqb _ dot); [done|]. destruct (seq_eqb _ _); [done|]. by rewrite <- app_assoc. }
  rewrite Hj. set (P := if seq_eqb (clean d) dot then _ else _).
  assert (P = [] \/ ends_in_slash P) as HP.
  { unfold P. destruct (seq_eqb _ dot); [by left|]. right. destruct (seq_eqb _ _); [by exists []|by eexists]. }
  exists (P ++ pre). split; [by rewrite app_assoc|].
  destruct Hpre as [->|[r ->]]; [by rewrite app_nil_r|]. right. exists (P ++ r). by rewrite app_assoc.
Qed.

Lemma split_file_last pre n : (pre = [] \/ ends_in_slash pre) -> ~ In slash n -> split_file (pre ++ n) = n.
Proof.
  intros Hpre Hn. unfold split_file, split_dir. destruct Hpre as [->|[r ->]].
  - simpl. rewrite (proj2 (up_to_last_None slash n)) by done. done.
  - rewrite <- app_assoc. simpl. rewrite up_to_last_app by done.
    change (r ++ slash :: n) with (r ++ [slash] ++ n). rewrite app_assoc. by rewrite drop_app.
Qed.

Lemma ext_suffix n w t : n = w ++ (46%N :: t) -> ~ In 46%N t -> ~ In slash n -> path_ext n = 46%N :: t.
Proof.
  intros -> Ht Hs. unfold path_ext. pose proof (split_file_last [] (w ++ 46%N :: t) (or_introl eq_refl) Hs) as Hsf.
  simpl in Hsf. rewrite Hsf. rewrite up_to_last_app by done.
  rewrite app_length. simpl. replace (length w + 1 - 1)%nat with (length w) by lia. by rewrite drop_app.
Qed.
Lemma ext_is_suffix n : exists w, n = w ++ path_ext n.
Proof.
  unfold path_ext, split_file. set (k := length _). clearbody k.
  destruct (up_to_last 46%N (drop k n)) as [d|]; [|exists n; by rewrite app_nil_r].
  exists (take (k + (length d - 1)) n). rewrite drop_drop. by rewrite take_drop.
Qed.

Lemma path_ext_last pre n : (pre = [] \/ ends_in_slash pre) -> ~ In slash n -> path_ext (pre ++ n) = path_ext n.
Proof.
  intros Hpre Hn. unfold path_ext. rewrite split_file_last by done.
  pose proof (split_file_last [] n (or_introl eq_refl) Hn) as H. simpl in H. by rewrite H.
Qed.

Lemma yaml_ext_name n : ~ In slash n -> yaml_ext n = true <-> yaml_name n.
Proof.
  intros Hn. unfold yaml_ext, yaml_name. split.
  - destruct (ext_is_suffix n) as [w Hw]. intros [H|H]%orb_true_iff.
    + destruct (seq_eqb_spec (path_ext n) (lit ".yaml")) as [He|]; [|done]. exists w. left. congruence.
    + destruct (seq_eqb_spec (path_ext n) (lit ".yml")) as [He|]; [|done]. exists w. right. congruence.
  - intros (w & [H|H]); apply orb_true_iff; [left|right].
    + rewrite (ext_suffix n w (lit "yaml") H); [done| |done]. simpl. intuition lia.
    + rewrite (ext_suffix n w (lit "yml") H); [done| |done]. simpl. intuition lia.
Qed.

Lemma yaml_ext_at d dirs n : Forall name_ok (dirs ++ [n]) -> yaml_ext (at_path d (dirs ++ [n])) = true <-> yaml_name n.
Proof.
  intros H. destruct (at_path_last d dirs n H) as (pre & -> & Hpre).
  assert (~ In slash n) as Hn. { apply Forall_app in H as [_ H]. by apply Forall_cons in H as [(_&_&_&?) _]. }
  unfold yaml_ext. rewrite path_ext_last by done. by apply yaml_ext_name.
Qed.

Lemma collected_yaml o d es : sane o -> os_lstat o d = Some KDir -> collected o d es <-> yaml_at o d es.
Proof.
  intros Hs Hd. unfold collected, yaml_at. split.
  - intros (Hl & He & Hf). split_and!; [done| |done].
    destruct es as [|n es _] using rev_ind; [simpl in Hf; destruct Hf; congruence|].
    exists es, n. split; [done|]. eapply yaml_ext_at; [by eapply listed_names|done].
  - intros (Hl & (dirs & n & -> & Hn) & Hf). split_and!; [done| |done].
    apply yaml_ext_at; [by eapply listed_names|done].
Qed.

Lemma name_lt_irrefl a : ~ name_lt a a.
Proof. induction a; intros H; inversion H; subst; [lia|by apply IHa]. Qed.
Lemma way_lt_irrefl a : ~ way_lt a a.
Proof. induction a; intros H; inversion H; subst; [by eapply name_lt_irrefl|by apply IHa]. Qed.
Lemma way_lt_trans a b c : way_lt a b -> way_lt b c -> way_lt a c.
Proof.
  intros H; revert c; induction H as [n w|m n v w Hmn|n v w Hvw IH]; intros c Hc; inversion Hc; subst;
    try (by constructor). 
  - apply wl_less. by eapply name_lt_trans.
  - apply wl_same. by apply IH.
Qed.
Lemma increasing_unique l l' : increasing l -> increasing l' -> (forall es, In es l <-> In es l') -> l = l'.
Proof.
  revert l'. induction l as [|x l IH]; intros l' Hl Hl' Heq.
  - destruct l' as [|y l']; [done|]. exfalso. apply (Heq y). by left.
  - destruct l' as [|y l']; [exfalso; apply (Heq x); by left|].
    destruct Hl as [Hx Hl], Hl' as [Hy Hl'].
    assert (x = y) as ->.
    { destruct (proj1 (Heq x) (or_introl eq_refl)) as [->|Hxin]; [done|].
      destruct (proj2 (Heq y) (or_introl eq_refl)) as [->|Hyin]; [done|].
      exfalso. apply (way_lt_irrefl x), way_lt_trans with y; [by apply Hx|by apply Hy]. }
    f_equal. apply IH; [done|done|]. intros es. split; intros Hes.
    + destruct (proj1 (Heq es) (or_intror Hes)) as [->|?]; [|done]. exfalso. by apply (way_lt_irrefl es), Hx.
    + destruct (proj2 (Heq es) (or_intror Hes)) as [->|?]; [|done]. exfalso. by apply (way_lt_irrefl es), Hy.
Qed.

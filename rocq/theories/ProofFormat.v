(** Proofs about the model of format.go. *)
From Verif Require Import Prelude GoStrings Format SpecFormat.

Lemma has_prefix_spec p s : has_prefix p s = true <-> exists r, s = p ++ r.
Proof.
  revert s; induction p as [|c p IH]; intros s; simpl.
  - split; [intros _; exists s; reflexivity | reflexivity].
  - destruct s as [|d s]; [split; [discriminate | intros [r Hr]; discriminate]|].
    destruct (ceq_spec c d) as [->|Hn]; simpl.
    + rewrite IH. split; intros [r Hr]; exists r; congruence.
    + split; [discriminate | intros [r Hr]; congruence].
Qed.

Lemma has_prefix_app p r : has_prefix p (p ++ r) = true.
Proof. apply has_prefix_spec; exists r; reflexivity. Qed.

Lemma contains_spec s sub : contains s sub = true <-> exists a b, s = a ++ sub ++ b.
Proof.
  induction s as [|c s IH]; simpl.
  - rewrite orb_false_r, has_prefix_spec. split.
    + intros [r Hr]. exists [], r. exact Hr.
    + intros (a & b & H). destruct a; [|discriminate]. exists b. exact H.
  - rewrite orb_true_iff, IH, has_prefix_spec. split.
    + intros [[r Hr]|(a & b & H)]; [exists [], r; exact Hr | exists (c :: a), b; simpl; congruence].
    + intros ([|x a] & b & H); [left; exists b; exact H | right; exists a, b; simpl in H; congruence].
Qed.

Lemma check_for_markers_spec s : check_for_markers s = true <-> marker_in s.
Proof.
  unfold check_for_markers, marker_in. rewrite existsb_exists. split.
  - intros (m & _ & H). apply contains_spec in H as (a & b & H). eauto.
  - intros (a & m & b & H). exists m. split.
    + destruct m; simpl; tauto.
    + apply contains_spec; eauto.
Qed.

Lemma marker_in_dec s : {marker_in s} + {~ marker_in s}.
Proof.
  destruct (check_for_markers s) eqn:E.
  - left. apply check_for_markers_spec; exact E.
  - right. intros H. apply check_for_markers_spec in H. congruence.
Qed.

(** [marker_in] decomposed along cons. *)
Lemma marker_in_cons c s :
  marker_in (c :: s) <-> (exists m b, c = pct /\ s = marker_letter m :: b) \/ marker_in s.
Proof.
  split.
  - intros ([|x a] & m & b & H); simpl in H.
    + left. exists m, b. split; congruence.
    + right. exists a, m, b. simpl. congruence.
  - intros [(m & b & -> & ->)|(a & m & b & ->)].
    + exists [], m, b. reflexivity.
    + exists (c :: a), m, b. reflexivity.
Qed.

Lemma not_marker_in_nil : ~ marker_in [].
Proof. intros ([|? ?] & m & b & H); discriminate. Qed.

Lemma marker_in_app_l a b : marker_in a -> marker_in (a ++ b).
Proof. intros (x & m & y & ->). exists x, m, (y ++ b). rewrite <- !app_assoc. reflexivity. Qed.
Lemma marker_in_app_r a b : marker_in b -> marker_in (a ++ b).
Proof. intros (x & m & y & ->). exists (a ++ x), m, y. rewrite <- !app_assoc. reflexivity. Qed.

Lemma marker_letter_not_pct m : marker_letter m <> pct.
Proof. destruct m; discriminate. Qed.

Lemma marker_of_spec c m : marker_of c = Some m <-> c = marker_letter m.
Proof.
  unfold marker_of. split.
  - intros H. apply find_some in H as [_ H]. destruct (ceq_spec c (marker_letter m)); congruence.
  - intros ->. destruct m; reflexivity.
Qed.

Lemma marker_of_none c : marker_of c = None <-> forall m, c <> marker_letter m.
Proof.
  destruct (marker_of c) as [m|] eqn:E.
  - split; [discriminate|]. intros H. apply marker_of_spec in E. exfalso. exact (H m E).
  - split; [|reflexivity]. intros _ m Hm. apply marker_of_spec in Hm. congruence.
Qed.

(** Removing the markers of a marker-free text does nothing. *)
Lemma replace_all_id s m new :
  ~ marker_in s -> replace_all_from 0 s (marker_text m) new = s.
Proof.
  induction s as [|c s IH]; intros Hn; [reflexivity|].
  cbn [replace_all_from].
  destruct (has_prefix (marker_text m) (c :: s)) eqn:E.
  - exfalso. apply Hn. apply has_prefix_spec in E as [r Hr]. exists [], m, r. exact Hr.
  - f_equal. apply IH. intros H. apply Hn. apply marker_in_cons. right; exact H.
Qed.

Lemma sanitize_value_id s : ~ marker_in s -> sanitize_value s = s.
Proof.
  intros Hn. unfold sanitize_value, markers, replace_all. cbn [fold_left].
  repeat (rewrite (replace_all_id s) by exact Hn). reflexivity.
Qed.

Lemma replace_all_length s old k :
  old <> [] -> length (replace_all_from k s old []) <= length s.
Proof.
  intros Ho. revert k; induction s as [|c s IH]; intros k; simpl; [lia|].
  destruct k as [|k].
  - destruct (has_prefix old (c :: s)); simpl; [specialize (IH (length old - 1))|specialize (IH 0)]; lia.
  - specialize (IH k). lia.
Qed.

Lemma replace_all_shrinks s m :
  contains s (marker_text m) = true ->
  length (replace_all_from 0 s (marker_text m) []) < length s.
Proof.
  induction s as [|c s IH]; intros Hc; [discriminate|].
  cbn [contains] in Hc. cbn [replace_all_from].
  destruct (has_prefix (marker_text m) (c :: s)) eqn:E.
  - cbn [app]. pose proof (replace_all_length s (marker_text m) (length (marker_text m) - 1) ltac:(discriminate)).
    simpl in *. lia.
  - rewrite orb_false_l in Hc. specialize (IH Hc). simpl in *. lia.
Qed.

Lemma sanitize_fold_length ms s :
  length (fold_left (fun acc m => replace_all acc (marker_text m) []) ms s) <= length s.
Proof.
  revert s; induction ms as [|m ms IH]; intros s; simpl; [lia|].
  specialize (IH (replace_all s (marker_text m) [])).
  pose proof (replace_all_length s (marker_text m) 0 ltac:(discriminate)). unfold replace_all in *. lia.
Qed.

Lemma sanitize_fold_shrinks ms s m :
  In m ms -> contains s (marker_text m) = true ->
  length (fold_left (fun acc m => replace_all acc (marker_text m) []) ms s) < length s.
Proof.
  revert s; induction ms as [|m' ms IH]; intros s Hin Hc; [destruct Hin|].
  cbn [fold_left].
  destruct (contains s (marker_text m')) eqn:E.
  - pose proof (replace_all_shrinks s m' E).
    pose proof (sanitize_fold_length ms (replace_all s (marker_text m') [])).
    unfold replace_all in *. lia.
  - assert (Hs : replace_all s (marker_text m') [] = s).
    { unfold replace_all. clear -E. induction s as [|c s IHs]; [reflexivity|].
      cbn [contains] in E. apply orb_false_iff in E as [E1 E2].
      cbn [replace_all_from]. rewrite E1. f_equal. apply IHs; exact E2. }
    rewrite Hs. destruct Hin as [->|Hin]; [congruence|]. apply IH; assumption.
Qed.

Lemma sanitize_value_id_iff s : sanitize_value s = s <-> ~ marker_in s.
Proof.
  split; [|apply sanitize_value_id].
  intros He Hm. destruct Hm as (a & m & b & ->).
  assert (Hc : contains (a ++ marker_text m ++ b) (marker_text m) = true)
    by (apply contains_spec; eauto).
  pose proof (sanitize_fold_shrinks markers _ m ltac:(destruct m; simpl; tauto) Hc) as Hl.
  unfold sanitize_value in He. rewrite He in Hl. lia.
Qed.

(** [find_all] *)
Lemma find_all_skip k s : find_all k s = find_all 0 (drop k s).
Proof.
  revert s; induction k as [|k IH]; intros s; [reflexivity|].
  destruct s as [|c s]; [reflexivity|]. cbn [find_all drop]. apply IH.
Qed.

Lemma match_at_text s m : match_at s = Some m -> exists r, s = m_text m ++ r.
Proof.
  unfold match_at. destruct s as [|p [|c r]]; [discriminate..|].
  destruct (ceq p pct); [|discriminate]. destruct (marker_of c) as [mk|]; [|discriminate].
  destruct r as [|b r']; [intros [= <-]; exists []; reflexivity|].
  destruct (ceq_spec b (ch "{")) as [->|_]; [|intros [= <-]; eexists; reflexivity].
  destruct (scan_command r') as [w|] eqn:E; intros [= <-]; [|eexists; reflexivity].
  assert (Hw : forall r w, scan_command r = Some w -> exists q, r = w ++ ch "}" :: q).
  { clear. induction r as [|x r IH]; intros w H; [discriminate|]. cbn [scan_command] in H.
    destruct (ceq_spec x (ch "}")) as [->|_]; [injection H as <-; exists r; reflexivity|].
    destruct (ceq x 10); [discriminate|].
    destruct (scan_command r) as [w'|]; [|discriminate]. injection H as <-.
    destruct (IH w' eq_refl) as [q ->]. exists q; reflexivity. }
  destruct (Hw _ _ E) as [q ->]. exists q. simpl. rewrite <- app_assoc. reflexivity.
Qed.

(** No match starts at a position where no marker starts. *)
Lemma match_at_none c s :
  (forall m b, ~ (c = pct /\ s = marker_letter m :: b)) -> match_at (c :: s) = None.
Proof.
  intros H. unfold match_at. destruct s as [|d s]; [reflexivity|].
  destruct (ceq_spec c pct) as [->|_]; [|reflexivity].
  destruct (marker_of d) as [m|] eqn:E; [|reflexivity].
  exfalso. apply marker_of_spec in E as ->. apply (H m s). auto.
Qed.

(** Literal text is skipped, if what follows does not complete a marker. *)
Definition no_letter_head (s : list N) : Prop := forall m b, s <> marker_letter m :: b.

Lemma find_all_text t s :
  ~ marker_in t -> no_letter_head s -> find_all 0 (t ++ s) = find_all 0 s.
Proof.
  intros Ht Hs. induction t as [|c t IH]; [reflexivity|].
  cbn [app find_all].
  rewrite match_at_none.
  - apply IH. intros H; apply Ht, marker_in_cons; right; exact H.
  - intros m b [-> He]. destruct t as [|d t]; simpl in He.
    + exact (Hs m b He).
    + apply Ht, marker_in_cons. left. exists m, t. split; [reflexivity|congruence].
Qed.

Lemma scan_command_ok c b :
  command_ok c -> scan_command (c ++ ch "}" :: b) = Some c.
Proof.
  intros [H1 H2]. induction c as [|x c IH]; [reflexivity|].
  apply not_elem_of_cons in H1 as [Hx1 Hc1]. apply not_elem_of_cons in H2 as [Hx2 Hc2].
  cbn [app scan_command]. destruct (ceq_spec x (ch "}")); [congruence|].
  destruct (ceq_spec x 10); [congruence|]. rewrite IH by assumption. reflexivity.
Qed.

Lemma scan_command_some s w :
  scan_command s = Some w -> command_ok w /\ exists b, s = w ++ [ch "}"] ++ b.
Proof.
  revert w; induction s as [|x s IH]; intros w H; [discriminate|]. cbn [scan_command] in H.
  destruct (ceq_spec x (ch "}")) as [->|Hx1].
  - injection H as <-. split; [split; apply not_elem_of_nil|]. exists s; reflexivity.
  - destruct (ceq_spec x 10) as [->|Hx2]; [discriminate|].
    destruct (scan_command s) as [w'|]; [|discriminate]. injection H as <-.
    destruct (IH w' eq_refl) as [[Ha Hb] [b ->]]. split.
    + split; apply not_elem_of_cons; auto.
    + exists b; reflexivity.
Qed.

Lemma marker_of_letter m : marker_of (marker_letter m) = Some m.
Proof. apply marker_of_spec; reflexivity. Qed.

(** A marker piece is matched as such. *)
Definition piece_cmd (c : option (list N)) : list N := match c with Some w => w | None => [] end.

Lemma match_at_mark m c r :
  pieces_ok (Mark m c :: r) ->
  match_at (piece_src (Mark m c) ++ src r)
  = Some (mkMatch (piece_src (Mark m c)) m (piece_cmd c)).
Proof.
  destruct c as [c|]; intros Hok.
  - destruct Hok as [Hc _]. cbn [piece_src marker_text app]. unfold match_at.
    cbn [ceq]. replace (ceq pct pct) with true by reflexivity. rewrite marker_of_letter.
    replace (ceq (ch "{") (ch "{")) with true by reflexivity.
    rewrite <- app_assoc. cbn [app]. rewrite scan_command_ok by exact Hc. reflexivity.
  - destruct Hok as [Hc _]. cbn [piece_src marker_text app piece_cmd]. unfold match_at.
    replace (ceq pct pct) with true by reflexivity. rewrite marker_of_letter.
    destruct (src r) as [|b r'] eqn:E; [reflexivity|].
    destruct (ceq_spec b (ch "{")) as [->|_]; [|reflexivity].
    destruct (scan_command r') as [w|] eqn:E2; [|reflexivity].
    exfalso. apply Hc. apply scan_command_some in E2 as [Hw [q ->]]. exists w, q. split; [reflexivity|exact Hw].
Qed.

Lemma no_letter_head_nil : no_letter_head [].
Proof. intros m b H; discriminate. Qed.
Lemma no_letter_head_pct s : no_letter_head (pct :: s).
Proof. intros m b H. apply (marker_letter_not_pct m). congruence. Qed.

Definition starts_ok (ps : list piece) : Prop :=
  match ps with Text _ :: _ => False | _ => True end.

Lemma starts_ok_head ps : starts_ok ps -> no_letter_head (src ps).
Proof.
  destruct ps as [|[t|m [c|]] ps]; simpl; intros H; try tauto.
  - apply no_letter_head_nil.
  - apply no_letter_head_pct.
  - apply no_letter_head_pct.
Qed.

Fixpoint piece_matches (ps : list piece) : list rmatch :=
  match ps with
  | [] => []
  | Text _ :: r => piece_matches r
  | Mark m c :: r => mkMatch (piece_src (Mark m c)) m (piece_cmd c) :: piece_matches r
  end.

Lemma pieces_ok_tail p ps : pieces_ok (p :: ps) -> pieces_ok ps.
Proof. destruct p as [t|m [c|]]; simpl; tauto. Qed.

Lemma src_cons p ps : src (p :: ps) = piece_src p ++ src ps.
Proof. reflexivity. Qed.

Lemma piece_src_mark_length m c : exists n, length (piece_src (Mark m c)) = S n.
Proof. destruct c; simpl; eauto. Qed.

Lemma find_all_src ps : pieces_ok ps -> find_all 0 (src ps) = piece_matches ps.
Proof.
  induction ps as [|p ps IH]; intros Hok; [reflexivity|].
  pose proof (pieces_ok_tail _ _ Hok) as Hok'.
  destruct p as [t|m c].
  - rewrite src_cons. cbn [piece_src piece_matches]. destruct Hok as (Ht & Hs & _).
    rewrite find_all_text; [auto|exact Ht|]. apply starts_ok_head. destruct ps as [|[?|? ?] ?]; simpl; tauto.
  - cbn [piece_matches]. rewrite <- IH by exact Hok'. rewrite src_cons.
    pose proof (match_at_mark m c ps Hok) as Hm.
    destruct (piece_src (Mark m c)) as [|x w] eqn:E; [destruct c; discriminate|].
    cbn [app find_all]. cbn [app] in Hm. rewrite Hm. f_equal.
    cbn [m_text]. rewrite find_all_skip. f_equal.
    cbn [length]. rewrite Nat.sub_succ, Nat.sub_0_r. apply drop_app.
Qed.

(** Replacing the first occurrence. *)
Lemma replace_first_at P m w rest new :
  ~ marker_in P ->
  replace_first (P ++ (marker_text m ++ w) ++ rest) (marker_text m ++ w) new = P ++ new ++ rest.
Proof.
  induction P as [|c P IH]; intros Hn.
  - cbn [app]. destruct (marker_text m ++ w) as [|x y] eqn:E; [discriminate|].
    cbn [app replace_first].
    assert (Hp : has_prefix (x :: y) (x :: y ++ rest) = true) by (apply (has_prefix_app (x :: y) rest)).
    rewrite Hp. f_equal. cbn [length drop]. apply drop_app.
  - cbn [app replace_first].
    destruct (has_prefix (marker_text m ++ w) (c :: P ++ (marker_text m ++ w) ++ rest)) eqn:E.
    + exfalso. apply has_prefix_spec in E as [r Hr]. cbn [marker_text app] in Hr.
      injection Hr as -> Hr. destruct P as [|d P].
      * cbn [app marker_text] in Hr. injection Hr as Hr _. exact (marker_letter_not_pct m (eq_sym Hr)).
      * cbn [app] in Hr. injection Hr as -> _. apply Hn, marker_in_cons. left. exists m, P. auto.
    + f_equal. apply IH. intros H; apply Hn, marker_in_cons; right; exact H.
Qed.

Lemma process_sed_spec sed c s : process_sed sed c s = after_command sed c s.
Proof.
  unfold process_sed, after_command. destruct (sed c) as [run|]; [|done]. destruct (run s) as [out [|]]; [done|].
  assert (P : forall s, trim_prefix s newline = without_first_newline s).
  { intros [|x r]; [done|]. unfold trim_prefix, newline. cbn [has_prefix length drop without_first_newline].
    destruct (ceq_spec 10%N x) as [<-|NE]; [done|]. cbn [andb]. destruct x as [|q]; [done|].
    repeat (destruct q as [q|q|]; try done). }
  rewrite P. f_equal. unfold trim_suffix, without_last_newline, has_suffix, newline. cbn [rev app].
  destruct (rev out) as [|x r] eqn:E; [by apply (f_equal (@rev N)) in E; rewrite rev_involutive in E; subst|].
  assert (O : out = rev r ++ [x]) by (apply (f_equal (@rev N)) in E; rewrite rev_involutive in E; done).
  pose proof (P (x :: r)) as Q. unfold trim_prefix, newline in Q. cbn [has_prefix] in *.
  destruct (ceq 10%N x && true) eqn:EE.
  - rewrite <- Q. cbn [length drop]. rewrite O, app_length. cbn [length]. replace (length (rev r) + 1 - 1)%nat with (length (rev r)) by lia.
    by rewrite take_app, ?drop_0.
  - rewrite <- Q, O. cbn [rev]. done.
Qed.
Lemma match_value_piece sed v m c :
  match_value sed v (mkMatch (piece_src (Mark m c)) m (piece_cmd c))
  = piece_out sed (fval v) (Mark m c).
Proof. destruct c as [[|x c]|]; [reflexivity| |reflexivity]. unfold match_value. cbn. apply process_sed_spec. Qed.

Lemma do_format_from sed v P ps :
  pieces_ok ps -> ~ marker_in (P ++ expected sed (fval v) ps) ->
  fold_left (fun acc m => replace_first acc (m_text m) (match_value sed v m))
            (piece_matches ps) (P ++ src ps) = P ++ expected sed (fval v) ps.
Proof.
  revert P; induction ps as [|p ps IH]; intros P Hok Hn; [reflexivity|].
  pose proof (pieces_ok_tail _ _ Hok) as Hok'.
  rewrite src_cons. unfold expected in *. cbn [map concat] in *. destruct p as [t|m c].
  - cbn [piece_matches piece_src piece_out] in *. rewrite !app_assoc in *.
    apply IH; assumption.
  - cbn [piece_matches fold_left]. rewrite match_value_piece. cbn [m_text].
    assert (Hs : exists w, piece_src (Mark m c) = marker_text m ++ w).
    { destruct c; simpl; eauto. }
    destruct Hs as [w Hs]. rewrite Hs. rewrite replace_first_at.
    + rewrite !app_assoc in *. apply IH; assumption.
    + intros H. apply Hn. apply marker_in_app_l. exact H.
Qed.

Lemma do_format_pieces sed v ps :
  pieces_ok ps -> ~ marker_in (expected sed (fval v) ps) ->
  do_format sed (src ps) v = expected sed (fval v) ps.
Proof.
  intros Hok Hn. unfold do_format. rewrite find_all_src by exact Hok.
  exact (do_format_from sed v [] ps Hok Hn).
Qed.

Lemma format_pieces sed v ps :
  (forall m, ~ marker_in (fval v m)) ->
  pieces_ok ps -> ~ marker_in (expected sed (fval v) ps) ->
  format sed (src ps) v = expected sed (fval v) ps.
Proof.
  intros Hv Hok Hn. unfold format.
  assert (He : sanitize_values v = v).
  { destruct v as [a b c d e]. unfold sanitize_values; simpl.
    rewrite (sanitize_value_id a (Hv MValue)), (sanitize_value_id b (Hv MLine)),
      (sanitize_value_id c (Hv MHead)), (sanitize_value_id d (Hv MFoot)),
      (sanitize_value_id e (Hv MKey)). reflexivity. }
  rewrite He. apply do_format_pieces; assumption.
Qed.

(** Every format string can be cut in exactly the specified way. *)
Lemma add_char_pieces c ps :
  pieces_ok ps -> no_letter_head (src ps) \/ c <> pct ->
  exists qs, pieces_ok qs /\ src qs = c :: src ps.
Proof.
  intros Hok Hc. destruct ps as [|[t|m cm] ps].
  - exists [Text [c]]. split; [|reflexivity]. simpl. split; [|tauto].
    intros H. apply marker_in_cons in H as [(m & b & _ & H)|H]; [discriminate|exact (not_marker_in_nil H)].
  - exists (Text (c :: t) :: ps). split; [|reflexivity]. simpl in *. destruct Hok as (Ht & Hs & Hok).
    split; [|tauto]. intros H. apply marker_in_cons in H as [(m & b & -> & ->)|H]; [|exact (Ht H)].
    destruct Hc as [Hc|Hc]; [|congruence]. exact (Hc m (b ++ src ps) eq_refl).
  - exists (Text [c] :: Mark m cm :: ps). split; [|reflexivity]. split; [|split; [exact I|exact Hok]].
    intros H. apply marker_in_cons in H as [(m' & b & _ & H)|H]; [discriminate|exact (not_marker_in_nil H)].
Qed.

Lemma pieces_complete s : exists ps, pieces_ok ps /\ src ps = s.
Proof.
  remember (length s) as n eqn:Hn. revert s Hn.
  induction (lt_wf n) as [n _ IH]. intros s ->.
  destruct s as [|c s]; [exists []; split; [exact I|reflexivity]|].
  destruct (match_at (c :: s)) as [m|] eqn:E.
  - (* a marker starts here *)
    unfold match_at in E. destruct s as [|d s]; [discriminate|].
    destruct (ceq_spec c pct) as [->|_]; [|discriminate].
    destruct (marker_of d) as [mk|] eqn:Ed; [|discriminate]. apply marker_of_spec in Ed as ->.
    assert (Hbare : (~ exists w b, s = [ch "{"] ++ w ++ [ch "}"] ++ b /\ command_ok w) ->
      exists ps, pieces_ok ps /\ src ps = pct :: marker_letter mk :: s).
    { intros Hno. destruct (IH (length s) ltac:(simpl; lia) s eq_refl) as (ps & Hok & Hs).
      exists (Mark mk None :: ps). split.
      - split; [rewrite Hs; exact Hno|exact Hok].
      - rewrite src_cons, Hs. reflexivity. }
    destruct s as [|b s']; [apply Hbare; intros (w & q & H & _); discriminate|].
    destruct (ceq_spec b (ch "{")) as [->|Hb];
      [|apply Hbare; intros (w & q & H & _); cbn [app] in H; injection H as H _; exact (Hb H)].
    destruct (scan_command s') as [w|] eqn:Ew.
    + apply scan_command_some in Ew as [Hw [q ->]].
      destruct (IH (length q) ltac:(simpl; rewrite !app_length; simpl; lia) q eq_refl) as (ps & Hok & Hs).
      exists (Mark mk (Some w) :: ps). split; [split; assumption|].
      rewrite src_cons, Hs. cbn [piece_src marker_text app]. rewrite <- !app_assoc. reflexivity.
    + apply Hbare. intros (w & q & H & Hw). cbn [app] in H. injection H as ->.
      rewrite scan_command_ok in Ew by exact Hw. discriminate.
  - destruct (IH (length s) ltac:(simpl; lia) s eq_refl) as (ps & Hok & Hs).
    destruct (add_char_pieces c ps Hok) as (qs & Hq & Hqs).
    + rewrite Hs. destruct (N.eq_dec c pct) as [->|Hne]; [|right; exact Hne].
      left. intros m b ->. unfold match_at in E.
      replace (ceq pct pct) with true in E by reflexivity. rewrite marker_of_letter in E.
      destruct b as [|x b]; [discriminate|]. destruct (ceq x (ch "{")); [|discriminate].
      destruct (scan_command b); discriminate.
    + exists qs. split; [exact Hq|]. rewrite Hqs, Hs. reflexivity.
Qed.

(** A marker-free string is left alone by [format], whatever the values. *)
Lemma format_no_marker sed s v : ~ marker_in s -> format sed s v = s.
Proof.
  intros Hn. unfold format, do_format.
  assert (H : find_all 0 s = []).
  { rewrite <- (app_nil_r s). rewrite find_all_text; [reflexivity|exact Hn|apply no_letter_head_nil]. }
  rewrite H. reflexivity.
Qed.

(** [format] of a lone marker is the sanitised original. *)
Lemma format_marker sed m v : format sed (marker_text m) v = sanitize_value (fval v m).
Proof.
  unfold format, do_format.
  assert (H : find_all 0 (marker_text m) = [mkMatch (marker_text m) m []]) by (destruct m; reflexivity).
  rewrite H. cbn [fold_left m_text].
  pose proof (replace_first_at [] m [] [] (match_value sed (sanitize_values v) (mkMatch (marker_text m) m []))
                not_marker_in_nil) as Hr.
  rewrite !app_nil_r in Hr. cbn [app] in Hr. rewrite Hr. destruct m; reflexivity.
Qed.

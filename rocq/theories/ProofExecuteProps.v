(** The theorems of ProofPipeline.v for the heap of ProofExecute.v. *)
From Verif Require Import Prelude GoStrings Format Yaml Heap Builder Overlay Finder SpecReach SpecSame ProofSame ProofFinder Queue Paths Render SpecRender
  ProofMerge Pipeline SpecPipeline ProofPipeline Fine Execute SpecExecute ProofExecute ProofFineExecute.
From stdpp Require Import list_numbers.

(** The dotted finder satisfies the assumptions on finders. *)
Lemma f_child_blind R h1 h2 k : same R h1 h2 -> forall l1 l2, Forall2 R l1 l2 -> opt_rel R (f_child h1 k l1) (f_child h2 k l2).
Proof.
  intros S l1. remember (length l1) as n eqn:L. assert (LE : length l1 <= n) by lia. clear L. revert l1 LE.
  induction n as [|n IH]; intros l1 LE l2 F.
  - destruct l1; [|cbn in LE; lia]. inversion F; subst. done.
  - inversion F as [|a b r1 r2 A F1]; subst; [done|]. inversion F1 as [|a' b' r1' r2' A' F2]; subst; [done|].
    cbn [f_child]. destruct (same_node _ _ _ S a b A) as (n1 & n2 & E1 & E2 & (I & _ & _)). rewrite E1, E2, I.
    destruct (seq_eqb _ _); [done|]. apply IH; [cbn in LE; lia|done].
Qed.
Lemma f_path_blind R h1 h2 names : same R h1 h2 -> forall a b, R a b -> Forall2 R (f_path h1 names a) (f_path h2 names b).
Proof.
  intros S. induction names as [|k r IH]; intros a b A; cbn [f_path];
    destruct (same_node _ _ _ S a b A) as (n1 & n2 & E1 & E2 & (I & _ & C)); rewrite E1, E2; [by repeat constructor|].
  rewrite I. destruct (kind_eqb _ _); [|constructor].
  destruct (n_content n1) as [l1|], (n_content n2) as [l2|]; try done. cbn in C.
  pose proof (f_child_blind R h1 h2 k S l1 l2 C) as F.
  destruct (f_child h1 k l1), (f_child h2 k l2); try done. by apply IH.
Qed.
Lemma dotted_blind text names : finder_blind (dotted text names).
Proof.
  intros R h1 h2 a b S A. cbn [q_find dotted]. unfold f_root.
  destruct (same_node _ _ _ S a b A) as (n1 & n2 & E1 & E2 & (I & _ & C)). rewrite E1, E2, I.
  destruct (kind_eqb _ _); [|by apply f_path_blind].
  destruct (n_content n1) as [[|c1 l1]|], (n_content n2) as [[|c2 l2]|]; try done; try (by inversion C); try constructor.
  inversion C; subst. by apply f_path_blind.
Qed.
Lemma dotted_good text names : good_finder (dotted text names).
Proof. split; [apply dotted_ok|apply dotted_blind]. Qed.

Section props.
Context (fuel : nat) (sed : sed_engine) (dflt : list N) (enc : nat -> tree -> option (list N)) (dk : disk) (cfg : out_config).
Context (files : list yfile) (os : list overlay) (h0 : heap) (w0 : world).
Hypothesis setup : set_up files os h0.

Local Notation Run := (run_work fuel sed dflt).
Local Notation Emit := (emit enc dk cfg files).
Definition collect (i : nat) (m : list hnode * list overlay) : res (list tree) := snd (finish (scan fuel files i) m).
Local Notation works := (map (file_work os) files).
Local Notation Seq := (sequential fuel sed dflt files os h0).
Definition cost (w : workload nat loc) (m : list hnode * list overlay) : nat := operations (begin fuel sed dflt w) m.
Definition reads (i : nat) (m : list hnode * list overlay) : nat := operations (scan fuel files i) m.
Local Notation View := (fview dflt files os).
Local Notation Mid := (mid dflt files os).
Local Notation See := (see dflt files os).
Local Notation Inv := (inv (Pages := res (list tree)) Emit Run collect cost reads works (h0, os) w0 View Mid See).
Local Notation execution := (execution fuel sed dflt enc dk cfg files os h0 w0).

Lemma exec_inv n s : execution n s -> Inv s.
Proof.
  apply reach_inv.
  - by apply fine_init.
  - intros. by eapply fine_begin.
  - intros. by eapply fine_tick.
  - intros. by apply fine_see_begin.
  - intros. by apply fine_see_tick.
Qed.
Lemma exec_bounded n s : execution n s -> n <= sum_of (budgets Run cost reads works (h0, os)) + 8.
Proof.
  apply run_bounded with (collect := collect) (view := View) (mid := Mid) (see := See).
  - by apply fine_init.
  - intros. by eapply fine_begin.
  - intros. by eapply fine_tick.
  - intros. by apply fine_see_begin.
  - intros. by apply fine_see_tick.
Qed.
Lemma works_lookup i f : files !! i = Some f -> works !! i = Some (file_work os f).
Proof. intros F. by rewrite list_lookup_fmap, F. Qed.
Lemma works_lookup_inv i ws : works !! i = Some ws -> exists f, files !! i = Some f /\ ws = file_work os f.
Proof. rewrite list_lookup_fmap. destruct (files !! i) as [f|]; [|discriminate]. intros [= <-]. by exists f. Qed.
Lemma alone_seq i : alone Run works (h0, os) i = Seq i.
Proof. unfold alone, sequential. rewrite list_lookup_fmap. by destruct (files !! i). Qed.

Lemma load_spec ws m : load Run cost ws m = work_operations fuel sed dflt ws m.
Proof. revert m. induction ws as [|w ws IH]; intros m; [done|]. cbn [load work_operations]. rewrite IH. done. Qed.
Lemma budgets_spec : sum_of (budgets Run cost reads works (h0, os)) =
  sum_list_with (fun i => file_operations fuel sed dflt files os h0 i + 7) (seq 0 (length files)).
Proof.
  unfold sum_of, budgets.
  assert (X : forall l k (F : nat -> list (workload nat loc) -> nat) (G : nat -> nat),
    (forall i ws, l !! i = Some ws -> F (k + i) ws = G (k + i)) ->
    sum_list_with (fun n => n) (imap (fun i => F (k + i)) l) = sum_list_with G (seq k (length l))).
  { induction l as [|ws l IH]; intros k F G H; [done|]. cbn [imap seq length sum_list_with].
    rewrite (H 0 ws eq_refl). replace (k + 0) with k by lia. f_equal.
    rewrite <- (IH (S k) F G); [|intros i ws' E; replace (S k + i) with (k + S i) by lia; by apply H].
    f_equal. apply imap_ext. intros i x _. cbn. f_equal. lia. }
  rewrite <- (map_length (file_work os) files). apply (X works 0 (fun i ws => load Run cost ws (h0, os) + 7 + pages Run reads works (h0, os) i)).
  intros i ws W. cbn [Nat.add]. apply works_lookup_inv in W as (f & F & ->). unfold file_operations. rewrite F, load_spec.
  unfold pages, final, reads. rewrite alone_seq. lia.
Qed.
Lemma collect_spec i m : collect i m = match files !! i with Some f => snapshots fuel (fst m) (yf_nodes f) | None => Panic end.
Proof. unfold collect, scan. destruct (files !! i); [|done]. by rewrite finish_snapshots. Qed.
Lemma write_out_spec order w : render_all (post Emit collect) (final Run works (h0, os)) order w = write_out fuel sed dflt enc dk cfg files os h0 order w.
Proof.
  revert w. induction order as [|i r IH]; intros w; [done|]. cbn [render_all write_out]. unfold final. rewrite alone_seq.
  unfold post at 1, emit, documents_after. rewrite collect_spec. destruct (files !! i) as [f|]; [|done].
  destruct (snapshots _ _ _) as [ts| | |]; try done.
  destruct (post_process _ _ _ _ _ _) as [w1 [[]| | |]]; try done; apply IH.
Qed.

Lemma post_cases ts out w : let '(w', r) := post_process enc dk cfg ts out w in
  r = Ok tt -> exists text, encode_nodes enc (oc_styles cfg) ts = Ok text /\
    ((text = [] /\ w' = w) \/
     (text <> [] /\ if oc_stdout cfg then w_stdout w' = w_stdout w ++ [text] /\ w_files w' = w_files w
       else w_files w' = (output_file (oc_dir cfg) out, text) :: w_files w /\
            w_stdout w' = w_stdout w ++ [output_file (oc_dir cfg) out ++ [10%N]])).
Proof.
  unfold post_process. destruct (oc_indent cfg <? 0)%Z; [done|]. destruct (encode_nodes _ _ _) as [[|c text]|e| |]; try done.
  - intros _. exists []. split; [done|by left].
  - destruct (oc_stdout cfg).
    + destruct (stdout_ok dk); [|done]. intros _. eexists. split; [done|]. right. done.
    + destruct (can_open dk _); [|done]. destruct (can_write dk _); [|done]. intros _. eexists. split; [done|]. right. done.
Qed.

Local Notation Planned := (planned fuel sed dflt enc cfg files os h0).
Local Notation Write := (write_out fuel sed dflt enc dk cfg files os h0).
Lemma text_planned i f : files !! i = Some f ->
  forall text, text_of fuel sed dflt enc cfg files os h0 i = [text] <-> Planned i (output_file (oc_dir cfg) (yf_output f)) text.
Proof.
  intros F text. unfold text_of, planned. split.
  - intros E. destruct (documents_after _ _ _ _ _ _ _) as [ts| | |] eqn:D; try discriminate.
    exists f, ts. destruct (encode_nodes _ _ _) as [[|c x]|e| |] eqn:EN; try discriminate. injection E as <-. done.
  - intros (f' & ts & F' & -> & -> & NE & _). by destruct text.
Qed.

Lemma file_content_cons w name text so : 
  file_content (mkWorld so ((name, text) :: w_files w)) name = Some text.
Proof. unfold file_content. cbn. by rewrite seq_eqb_refl. Qed.

Lemma write_out_files order : oc_stdout cfg = false -> forall w w', Write order w = (w', Ok tt) ->
  forall name,
    (exists i text, i ∈ order /\ Planned i name text /\ file_content w' name = Some text) \/
    ((forall i text, i ∈ order -> ~ Planned i name text) /\ file_content w' name = file_content w name).
Proof.
  intros OS. induction order as [|i r IH]; intros w w' E name; cbn [write_out] in E.
  - injection E as <-. right. split; [|done]. intros i t H. by apply not_elem_of_nil in H.
  - destruct (files !! i) as [f|] eqn:F; [|discriminate].
    destruct (documents_after _ _ _ _ _ _ _) as [ts| | |] eqn:D; try discriminate.
    pose proof (post_cases ts (yf_output f) w) as PC. destruct (post_process _ _ _ _ _ _) as [w1 [[]| | |]]; try discriminate.
    destruct (PC eq_refl) as (text & EN & PC'). clear PC. rewrite OS in PC'.
    destruct (IH w1 w' E name) as [(j & t & J & P & C)|[N C]].
    + left. exists j, t. split; [by constructor|done].
    + destruct PC' as [(-> & ->)|(NE & WF & _)].
      * right. split; [|done]. intros j t J P. apply elem_of_cons in J as [->|J]; [|by eapply N].
        destruct P as (f' & ts' & F' & D' & EN' & NE & _). rewrite D in D'. injection D' as <-. congruence.
      * destruct (seq_eqb_spec (output_file (oc_dir cfg) (yf_output f)) name) as [EQ|NEQ].
        -- left. exists i, text. split; [by constructor|]. split; [by exists f, ts|].
           rewrite C. unfold file_content. rewrite WF. cbn. by rewrite EQ, seq_eqb_refl.
        -- right. split.
           ++ intros j t J P. apply elem_of_cons in J as [->|J]; [|by eapply N].
              destruct P as (f' & ts' & F' & D' & EN' & _ & NM). rewrite F in F'. injection F' as <-. done.
           ++ rewrite C. unfold file_content. rewrite WF. cbn. destruct (seq_eqb_spec (output_file (oc_dir cfg) (yf_output f)) name); done.
Qed.

Lemma write_out_stdout order : oc_stdout cfg = true -> forall w w', Write order w = (w', Ok tt) ->
  w_files w' = w_files w /\ w_stdout w' = w_stdout w ++ concat (map (text_of fuel sed dflt enc cfg files os h0) order).
Proof.
  intros OS. induction order as [|i r IH]; intros w w' E; cbn [write_out] in E.
  - injection E as <-. cbn. by rewrite app_nil_r.
  - destruct (files !! i) as [f|] eqn:F; [|discriminate].
    cbn [map concat]. unfold text_of at 1.
    destruct (documents_after _ _ _ _ _ _ _) as [ts| | |] eqn:D; try discriminate.
    pose proof (post_cases ts (yf_output f) w) as PC. destruct (post_process _ _ _ _ _ _) as [w1 [[]| | |]]; try discriminate.
    destruct (PC eq_refl) as (text & EN & PC'). clear PC. rewrite OS in PC'. rewrite EN.
    destruct (IH w1 w' E) as [A B]. rewrite A, B.
    destruct PC' as [(-> & ->)|(NE & C1 & C2)]; [done|]. rewrite C1, C2. split; [done|]. destruct text; [done|]. by rewrite <- app_assoc.
Qed.
End props.

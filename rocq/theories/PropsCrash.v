(** Property C83: killed runs. *)
From Verif Require Import Prelude GoStrings Format Yaml Heap Overlay SpecReach SpecSame Queue Paths Render SpecRender
  Pipeline SpecPipeline ProofPipeline Fine Execute SpecExecute ProofExecute ProofFineExecute ProofExecuteProps Calls SpecCrash
  Examples ExamplesHeap ExamplesPipeline PropsPipeline.

Lemma content_cons w so name text other : file_content (mkWorld so ((name, text) :: w_files w)) other = if seq_eqb name other then Some text else file_content w other.
Proof. unfold file_content. cbn. by destruct (seq_eqb name other). Qed.

(** ** One file *)
Lemma writes_content name parts : forall acc w pre post,
  pre ++ post = map (CWrite name) parts -> file_content w name = Some acc ->
  (exists done todo, done ++ todo = concat parts /\ file_content (effects pre w) name = Some (acc ++ done)) /\
  (post = [] -> file_content (effects pre w) name = Some (acc ++ concat parts)) /\
  (forall other, other <> name -> file_content (effects pre w) other = file_content w other).
Proof.
  induction parts as [|p parts IH]; intros acc w pre post E A.
  - apply app_eq_nil in E as [-> ->]. change (effects [] w) with w. cbn [concat]. rewrite !app_nil_r. 
    split; [exists [], []|done].
    by rewrite (app_nil_r acc).
  - destruct pre as [|c pre].
    + change (effects [] w) with w. split; [exists [], (p ++ concat parts); by rewrite app_nil_r|]. split; [|done]. by intros ->.
    + cbn in E. injection E as -> E. cbn [effects fold_left]. change (fold_left (fun w c => effect c w) pre ?x) with (effects pre x).
      cbn [effect]. rewrite A. set (w1 := mkWorld _ _).
      assert (A1 : file_content w1 name = Some (acc ++ p)) by (unfold w1; by rewrite content_cons, seq_eqb_refl).
      destruct (IH (acc ++ p) w1 pre post E A1) as ((d & t & D & C) & F & O). split; [|split].
      * exists (p ++ d), t. cbn. rewrite <- D, <- !app_assoc. split; [done|]. by rewrite C, <- app_assoc.
      * intros X. rewrite (F X). cbn. by rewrite <- app_assoc.
      * intros other N0. rewrite (O other N0). unfold w1. rewrite content_cons. destruct (seq_eqb_spec name other); [congruence|done].
Qed.
Lemma effects_app a b w : effects (a ++ b) w = effects b (effects a w).
Proof. apply fold_left_app. Qed.
Lemma file_calls name shown parts ok w pre post :
  pre ++ post = COpen name :: CPrint shown :: map (CWrite name) parts ++ [CClose name ok] ->
  ((pre = [] /\ effects pre w = w) \/ exists done todo, done ++ todo = concat parts /\ file_content (effects pre w) name = Some done) /\
  (post = [] -> file_content (effects pre w) name = Some (concat parts)) /\
  (forall other, other <> name -> file_content (effects pre w) other = file_content w other).
Proof.
  intros E. destruct pre as [|c pre].
  { cbn in E. split; [by left|]. split; [|done]. intros ->. discriminate. }
  cbn in E. injection E as -> E. cbn [effects fold_left effect]. change (fold_left (fun w c => effect c w) ?p ?x) with (effects p x).
  set (w1 := mkWorld _ _). assert (A1 : file_content w1 name = Some []) by (unfold w1; by rewrite content_cons, seq_eqb_refl).
  assert (O1 : forall other, other <> name -> file_content w1 other = file_content w other).
  { intros other N0. unfold w1. rewrite content_cons. destruct (seq_eqb_spec name other); [congruence|done]. }
  destruct pre as [|c pre].
  { cbn in *. split; [right; exists [], (concat parts); by rewrite A1|]. split; [|done]. intros ->. discriminate. }
  cbn in E. injection E as -> E. cbn [effects fold_left effect]. change (fold_left (fun w c => effect c w) ?p ?x) with (effects p x).
  set (w2 := mkWorld _ _). assert (A2 : forall n, file_content w2 n = file_content w1 n) by done.
  destruct post as [|z post _] using rev_ind.
  - rewrite app_nil_r in E. subst pre. rewrite effects_app. cbn.
    destruct (writes_content name parts [] w2 (map (CWrite name) parts) [] (app_nil_r _) ltac:(by rewrite A2)) as (_ & F & O).
    specialize (F eq_refl). cbn in F. split; [right; exists (concat parts), []; by rewrite app_nil_r|]. split; [done|].
    intros other N0. rewrite (O other N0), A2. by apply O1.
  - rewrite app_assoc in E. apply app_inj_tail in E as [E ->].
    destruct (writes_content name parts [] w2 pre post E ltac:(by rewrite A2)) as (C & _ & O). cbn in C.
    split; [by right|]. split; [by intros [_ ?]%app_eq_nil|]. intros other N0. rewrite (O other N0), A2. by apply O1.
Qed.
Lemma prints_files parts : forall w pre post, pre ++ post = map CPrint parts -> w_files (effects pre w) = w_files w.
Proof.
  induction parts as [|p parts IH]; intros w pre post E.
  - by apply app_eq_nil in E as [-> ->].
  - destruct pre as [|c pre]; [done|]. cbn in E. injection E as -> E. cbn [effects fold_left effect]. change (fold_left (fun w c => effect c w) ?p ?x) with (effects p x).
    by rewrite (IH _ pre post E).
Qed.

(** The calls for one file, all of them or some, leave every other file alone, and the file
    itself as it was or with the beginning of its text. *)
Lemma some_calls enc cfg ts out pre post r w : performs enc cfg ts out (pre ++ post) r ->
  (forall name, file_content (effects pre w) name = file_content w name) \/
  exists text part rest, oc_stdout cfg = false /\ encode_nodes enc (oc_styles cfg) ts = Ok text /\ text <> [] /\ text = part ++ rest /\
    file_content (effects pre w) (output_file (oc_dir cfg) out) = Some part /\
    forall other, other <> output_file (oc_dir cfg) out -> file_content (effects pre w) other = file_content w other.
Proof.
  intros P. inversion P as [I E|e I X E|I X E|text parts I X T S C E|text parts rest I X T S C E|text I X T S E
    |text parts shown ok I X T S C name U E|text parts rest shown ok I X T S C name U E]; try symmetry in E.
  - apply app_eq_nil in E as [-> ->]. by left.
  - apply app_eq_nil in E as [-> ->]. by left.
  - apply app_eq_nil in E as [-> ->]. by left.
  - left. intros name. unfold file_content. by rewrite (prints_files parts w pre post E).
  - left. intros name. unfold file_content. by rewrite (prints_files parts w pre post E).
  - apply app_eq_nil in E as [-> ->]. by left.
  - destruct (file_calls name shown parts ok w pre post E) as ([[-> _]|(d & t & D & F)] & _ & O); [by left|].
    right. exists text, d, t. split_and!; try done. by rewrite D.
  - destruct (file_calls name shown parts ok w pre post E) as ([[-> _]|(d & t & D & F)] & _ & O); [by left|].
    right. exists text, d, (t ++ rest). split_and!; try done. by rewrite app_assoc, D.
Qed.

Section theorems.
Context (fuel : nat) (sed : sed_engine) (dflt : list N) (enc : nat -> tree -> option (list N)) (dk : disk) (cfg : out_config).
Context (files : list yfile) (os : list overlay) (h0 : heap) (w0 : world).
Local Notation execution := (execution fuel sed dflt enc dk cfg files os h0 w0).
Local Notation documents_after := (documents_after fuel sed dflt files os h0).
Local Notation write_out := (write_out fuel sed dflt enc dk cfg files os h0).
Local Notation planned := (planned fuel sed dflt enc cfg files os h0).
Local Notation left_by_kill := (left_by_kill enc cfg files).

Local Notation belongs := (fun name text => exists i, planned i name text).
Local Notation whole := (whole belongs).
Local Notation all_but_one := (all_but_one belongs).

Lemma write_out_any order : oc_stdout cfg = false -> forall w w' r, write_out order w = (w', r) ->
  all_but_one w w' /\ (r = Ok tt -> forall name, whole w w' name).
Proof.
  intros OS. induction order as [|i o IH]; intros w w' r E; cbn [SpecExecute.write_out] in E.
  { injection E as <- <-. split; [left|]; intros; by left. }
  destruct (files !! i) as [f|] eqn:F; [|injection E as <- <-; split; [left; intros; by left|done]].
  destruct (documents_after i) as [ts| | |] eqn:D; try (injection E as <- <-; split; [left; intros; by left|done]).
  unfold post_process in E. destruct (oc_indent cfg <? 0)%Z; [injection E as <- <-; split; [left; intros; by left|done]|].
  destruct (encode_nodes _ _ _) as [[|c text]|e| |] eqn:EN; try (injection E as <- <-; split; [left; intros; by left|done]); [by apply IH|].
  rewrite OS in E. set (name := output_file (oc_dir cfg) (yf_output f)) in *.
  assert (P : planned i name (c :: text)) by (by exists f, ts).
  destruct (can_open dk name); [|injection E as <- <-; split; [left; intros; by left|done]].
  destruct (can_write dk name).
  - cbn [w_stdout] in E. set (w1 := mkWorld _ _) in E. destruct (IH w1 w' r E) as [A B].
    assert (W1 : forall n x, whole w1 x n -> whole w x n).
    { intros n x [H|H]; [|by right]. unfold w1 in H. rewrite content_cons in H. destruct (seq_eqb_spec name n) as [<-|_]; [right; exists (c :: text); split; [by exists i|done]|by left]. }
    split.
    + destruct A as [A|(n & p & q & A1 & A2 & A4)]; [left; intros n; by apply W1|]. right. exists n, p, q. split_and!; try done.
      intros other N0. apply W1. by apply A4.
    + intros R n. apply W1. by apply B.
  - injection E as <- <-. split; [|done]. right. exists name, [], (c :: text). split_and!; [by exists i|..].
    + by rewrite content_cons, seq_eqb_refl.
    + intros other N0. left. rewrite content_cons. destruct (seq_eqb_spec name other); [congruence|done].
Qed.

(** In the middle of writing a file everything before has been written, and what is written
    are the documents of the sequential run. *)
Lemma post_state n s i r ts f : set_up files os h0 -> execution n s -> crashed s = false -> main s = MPost i r ->
  peek r (memory s) = inr (Ok ts) -> files !! i = Some f -> write_out (finished s) w0 = (outside s, Ok tt) /\ documents_after i = Ok ts.
Proof.
  intros SU E NC M P F. pose proof (exec_inv _ _ _ _ _ _ _ _ _ _ SU n s E) as I. unfold inv in I. rewrite NC in I. destruct I as (g & ns & b & L). split.
  - pose proof (l_render _ _ _ _ _ _ _ _ _ _ _ _ _ _ _ L) as R. unfold render_ok in R. rewrite M in R. unfold rendered in R. by rewrite write_out_spec in R.
  - pose proof (l_scan _ _ _ _ _ _ _ _ _ _ _ _ _ _ _ L) as SC. unfold scan_ok in SC. rewrite M in SC. apply fine_see_tick in SC. rewrite P in SC. destruct SC as [SC _].
    rewrite collect_spec, F in SC. unfold final in SC. rewrite alone_seq in SC. unfold SpecExecute.documents_after. by rewrite F, SC.
Qed.

(** C83.  Whenever the run is killed, at most one file is left with part of its text; every
    other one is as before the run or whole. *)
Theorem C83_killed_at_any_point n s w : set_up files os h0 -> execution n s -> left_by_kill s w -> oc_stdout cfg = false ->
  all_but_one w0 w.
Proof.
  intros SU E K OS. destruct K as [->|(i & r & f & ts & calls & more & res & NC & M & P & F & PE & ->)].
  - destruct (C41_same_output_as_sequential _ _ _ _ _ _ _ _ _ _ n s SU E) as (_ & _ & r & W). by apply (write_out_any _ OS _ _ _ W).
  - destruct (post_state n s i r ts f SU E NC M P F) as [W D]. destruct (write_out_any _ OS _ _ _ W) as [_ A]. specialize (A eq_refl).
    destruct (some_calls enc cfg ts (yf_output f) calls more res (outside s) PE) as [C|(text & part & rest & _ & EN & T & -> & C & O)].
    + left. intros name. unfold SpecCrash.whole. rewrite C. apply A.
    + right. exists (output_file (oc_dir cfg) (yf_output f)), part, rest. split; [exists i; by exists f, ts|]. split; [done|].
      intros other N0. unfold SpecCrash.whole. rewrite (O other N0). apply A.
Qed.

(** With output going to standard output no file changes at all. *)
Theorem C83_stdout_touches_no_file n s w : set_up files os h0 -> execution n s -> left_by_kill s w -> oc_stdout cfg = true ->
  forall name, file_content w name = file_content w0 name.
Proof.
  intros SU E K OS.
  assert (WO : forall order w w' r, write_out order w = (w', r) -> w_files w' = w_files w).
  { induction order as [|i o IH]; intros w1 w' r X; cbn [SpecExecute.write_out] in X; [by injection X as <- <-|].
    destruct (files !! i) as [f|]; [|by injection X as <- <-]. destruct (documents_after i) as [ts| | |]; try by injection X as <- <-.
    unfold post_process in X. destruct (oc_indent cfg <? 0)%Z; [by injection X as <- <-|].
    destruct (encode_nodes _ _ _) as [[|c text]|e| |]; try (by injection X as <- <-); [by apply IH in X|].
    rewrite OS in X. destruct (stdout_ok dk); [by apply IH in X|by injection X as <- <-]. }
  assert (WS : forall name, file_content (outside s) name = file_content w0 name).
  { destruct (C41_same_output_as_sequential _ _ _ _ _ _ _ _ _ _ n s SU E) as (_ & _ & r & W). intros name. unfold file_content. by rewrite (WO _ _ _ _ W). }
  destruct K as [->|(i & r & f & ts & calls & more & res & NC & M & P & F & PE & ->)]; [done|].
  destruct (some_calls enc cfg ts (yf_output f) calls more res (outside s) PE) as [C|(text & part & rest & OS' & _)]; [|congruence].
  intros name. by rewrite C.
Qed.

(** Locations that no file is rendered to (the inputs, say, with an output directory of
    their own) are as before the run. *)
Theorem C83_other_files_kept n s w name : set_up files os h0 -> execution n s -> left_by_kill s w ->
  (forall i text, ~ planned i name text) -> file_content w name = file_content w0 name.
Proof.
  intros SU E K N0. destruct (oc_stdout cfg) eqn:OS; [by eapply C83_stdout_touches_no_file|].
  destruct (C83_killed_at_any_point n s w SU E K OS) as [A|(nm & part & rest & (i & P) & _ & A)].
  - destruct (A name) as [H|(text & (i & P) & _)]; [done|by destruct (N0 i text)].
  - destruct (A name) as [H|(t & (j & P') & _)]; [intros ->; by eapply N0|done|by destruct (N0 j t)].
Qed.
End theorems.

(** C83.  A killed run can be repeated: if its inputs are still the same (by
    C83_other_files_kept they are, if no input is an output location) a second run that
    succeeds leaves every file as a first run does that is not killed. *)
Theorem C83_run_again fuel sed dflt enc dk dk' dk'' cfg files os h0 w0 n s w m t k u :
  set_up files os h0 -> oc_stdout cfg = false ->
  (forall i j name text text', planned fuel sed dflt enc cfg files os h0 i name text -> planned fuel sed dflt enc cfg files os h0 j name text' -> i = j) ->
  execution fuel sed dflt enc dk cfg files os h0 w0 n s -> left_by_kill enc cfg files s w ->
  execution fuel sed dflt enc dk' cfg files os h0 w m t -> crashed t = false -> main t = MReturn None ->
  execution fuel sed dflt enc dk'' cfg files os h0 w0 k u -> crashed u = false -> main u = MReturn None ->
  forall name, file_content (outside t) name = file_content (outside u) name.
Proof.
  intros SU OS U E K T T1 T2 X X1 X2 name.
  destruct (C51_exactly_the_planned_files _ _ _ _ _ _ _ _ _ _ m t SU T T1 T2 OS name) as (A1 & A2 & A3).
  destruct (C51_exactly_the_planned_files _ _ _ _ _ _ _ _ _ _ k u SU X X1 X2 OS name) as (B1 & B2 & B3).
  assert (DEC : (exists i text, planned fuel sed dflt enc cfg files os h0 i name text) \/ forall i text, ~ planned fuel sed dflt enc cfg files os h0 i name text).
  { destruct (C42_success_means_no_failure _ _ _ _ _ _ _ _ _ _ k u SU X X1 X2) as (_ & W & ALL).
    destruct (write_out_files _ _ _ _ _ _ _ _ _ _ OS _ _ W name) as [(i & t' & _ & P & _)|[N0 _]]; [left; by exists i, t'|].
    right. intros i t' P. apply (N0 i t'); [|done]. destruct P as (f & ts & F & _). apply ALL. by eapply lookup_lt_Some. }
  destruct DEC as [(i & text & P)|N0].
  - rewrite (A3 i text P), (B3 i text P); [done|..]; intros j t' P'; by eapply U.
  - rewrite A1, B1 by done. eapply C83_other_files_kept; [exact SU|exact E|exact K|exact N0].
Qed.

(** A run that is not killed: the calls for one file come to what the model of
    doPostProcessing used everywhere else (post_process) says. *)
Theorem C83_uninterrupted enc d cfg ts out w :
  let '(w', r) := post_process enc d cfg ts out w in r <> Fuel ->
  exists calls, performs enc cfg ts out calls r /\
    (forall name, file_content (effects calls w) name = file_content w' name) /\
    concat (w_stdout (effects calls w)) = concat (w_stdout w').
Proof.
  unfold post_process. destruct (Z.ltb_spec (oc_indent cfg) 0) as [L|L]; [intros _; exists []; split_and!; [by constructor|done|done]|].
  destruct (encode_nodes _ _ _) as [[|c text]|e| |] eqn:EN; try (by intros []).
  - intros _. exists []. split_and!; [by apply does_nothing|done|done].
  - destruct (oc_stdout cfg) eqn:OS.
    + destruct (stdout_ok d); intros _.
      * exists (map CPrint [c :: text]). split_and!; [|done|done]. apply (does_print _ _ _ _ (c :: text)); try done. cbn. by rewrite app_nil_r.
      * exists (map CPrint []). split_and!; [by apply (does_not_print _ _ _ _ (c :: text) [] (c :: text))|done|done].
    + set (name := output_file (oc_dir cfg) out). destruct (can_open d name).
      * destruct (can_write d name); intros _.
        -- exists (COpen name :: CPrint (name ++ [10%N]) :: map (CWrite name) [c :: text] ++ [CClose name true]). split_and!.
           ++ apply (does_write _ _ _ _ (c :: text)); try done; [cbn; by rewrite app_nil_r|]. exists []. by rewrite app_nil_r.
           ++ intros other. destruct (file_calls name (name ++ [10%N]) [c :: text] true w _ [] (app_nil_r _)) as (_ & A & B). cbn [w_files w_stdout].
              rewrite content_cons. destruct (seq_eqb_spec name other) as [<-|N0]; [rewrite (A eq_refl); cbn; by rewrite app_nil_r|by apply B].
           ++ done.
        -- exists (COpen name :: CPrint (name ++ [10%N]) :: map (CWrite name) [] ++ [CClose name true]). split_and!; [|done|done].
           apply (does_not_write _ _ _ _ (c :: text) [] (c :: text)); try done. exists []. by rewrite app_nil_r.
      * intros _. exists []. split_and!; [by apply (does_not_open _ _ _ _ (c :: text))|done|done].
  - intros _. exists []. split_and!; [by apply does_not_encode|done|done].
  - exfalso. revert EN. unfold encode_nodes.
    assert (H : forall l i k o, encode_loop enc (oc_styles cfg) i k l o <> Panic); [|apply H]. clear.
    induction l as [|x l IH]; intros i k o; cbn [encode_loop]; [done|]. destruct (children x); [done|]. by destruct (enc _ _).
Qed.
(** However the text is cut into parts, a file written without error holds all of it. *)
Theorem C83_parts_do_not_matter enc cfg ts out calls w :
  performs enc cfg ts out calls (Ok tt) -> oc_stdout cfg = false ->
  exists text, encode_nodes enc (oc_styles cfg) ts = Ok text /\
    (text <> [] -> file_content (effects calls w) (output_file (oc_dir cfg) out) = Some text) /\
    (forall other, text = [] \/ other <> output_file (oc_dir cfg) out -> file_content (effects calls w) other = file_content w other).
Proof.
  intros P OS. inversion P as [I E|e I X E|I X E|text parts I X T S C E|text parts rest I X T S C E|text I X T S E
    |text parts shown ok I X T S C name U E|text parts rest shown ok I X T S C name U E]; try congruence.
  - exists []. split_and!; done.
  - exists text. destruct (file_calls name shown parts ok w calls [] ltac:(by rewrite app_nil_r)) as (_ & F & O). specialize (F eq_refl). rewrite C in F. rewrite E.
    split_and!; [done|intros _; exact F|]. intros other [->|N0]; [done|by apply O].
Qed.

(** Refuted: the old content of an output file survives until the new one is complete.  In
    every run there is a moment, for each file written, at which a kill leaves it empty. *)
Theorem C83_refuted_old_text_kept fuel sed dflt enc dk cfg files os h0 w0 n s i r ts f name text :
  set_up files os h0 -> execution fuel sed dflt enc dk cfg files os h0 w0 n s ->
  crashed s = false -> main s = MPost i r -> peek r (memory s) = inr (Ok ts) -> files !! i = Some f ->
  planned fuel sed dflt enc cfg files os h0 i name text -> oc_stdout cfg = false -> (0 <= oc_indent cfg)%Z ->
  exists w, left_by_kill enc cfg files s w /\ file_content w name = Some [].
Proof.
  intros SU E NC M P F (f' & ts' & F' & D & EN & T & ->) OS IN. rewrite F in F'. injection F' as <-.
  destruct (post_state _ _ _ _ _ _ _ _ _ _ n s i r ts f SU E NC M P F) as [_ D']. rewrite D in D'. injection D' as <-.
  set (name := output_file (oc_dir cfg) (yf_output f)).
  exists (effects [COpen name] (outside s)). split; [|cbn; apply file_content_cons].
  right. exists i, r, f, ts', [COpen name], (CPrint (name ++ [10%N]) :: map (CWrite name) [text] ++ [CClose name true]), (Ok tt). split_and!; try done.
  apply (does_write _ _ _ _ text); try done; [cbn; by rewrite app_nil_r|]. exists []. by rewrite app_nil_r.
Qed.
(** Refuted: every failure of the system shows.  An error on closing the file (lost data on
    a full or remote disk) leaves the result a success. *)
Theorem C83_refuted_close_errors_reported enc cfg ts out text :
  (0 <= oc_indent cfg)%Z -> encode_nodes enc (oc_styles cfg) ts = Ok text -> text <> [] -> oc_stdout cfg = false ->
  exists calls name, CClose name false ∈ calls /\ performs enc cfg ts out calls (Ok tt).
Proof.
  intros. set (name := output_file (oc_dir cfg) out). exists (COpen name :: CPrint (name ++ [10%N]) :: map (CWrite name) [text] ++ [CClose name false]), name. split.
  - apply elem_of_list_In. cbn. auto.
  - apply (does_write _ _ _ _ text); try done; [cbn; by rewrite app_nil_r|]. exists []. by rewrite app_nil_r.
Qed.

(** Non-vacuity: a run over an output file that holds "old", killed after the file was opened,
    or after three letters were written. *)
Definition old_world : world := mkWorld [] [(lit "out/b.yaml", lit "old")].
Definition till_written (k : nat) : option exec_state :=
  plays (begin 20 no_sed []) tick (scan 20 [file_b]) peek (emit show ex_disk ex_cfg [file_b]) (map (file_work two_os) [file_b])
    ([Main; Main; Producer 0; Finish 0; Producer 0; Worker 0 false; Worker 0 false; Main] ++ repeat Main k)
    (start (map (file_work two_os) [file_b]) (two_heap, two_os) old_world).
Definition ready (s : exec_state) (text : list N) : bool :=
  negb (crashed s) && match main s with
  | MPost 0 r => match peek r (memory s) with
                 | inr (Ok ts) => match encode_nodes show [] ts with Ok t => seq_eqb t text | _ => false end
                 | _ => false
                 end
  | _ => false
  end.
Lemma three_calls name shown t w : file_content (effects [COpen name; CPrint shown; CWrite name t] w) name = Some t.
Proof.
  destruct (file_calls name shown [t] true w _ [] (app_nil_r _)) as (_ & F & _).
  specialize (F eq_refl). cbn [concat] in F. rewrite app_nil_r in F. exact F.
Qed.
Lemma one_call name w : file_content (effects [COpen name] w) name = Some [].
Proof. apply file_content_cons. Qed.
Lemma till_written_runs k s : till_written k = Some s ->
  exists n, execution 20 no_sed [] show ex_disk ex_cfg [file_b] two_os two_heap old_world n s.
Proof. unfold till_written. intros E. exact (plays_steps _ _ _ _ _ _ _ _ _ E). Qed.
Lemma ready_opened s text a b : ready s text = true -> text <> [] -> a ++ b = text -> let name := output_file (oc_dir ex_cfg) (yf_output file_b) in
  left_by_kill show ex_cfg [file_b] s (effects [COpen name] (outside s)) /\
  left_by_kill show ex_cfg [file_b] s (effects [COpen name; CPrint (name ++ [10%N]); CWrite name a] (outside s)).
Proof.
  intros C TN AB name. unfold ready in C. apply andb_true_iff in C as [NC C]. apply negb_true_iff in NC.
  destruct (main s) as [| |[|] r| |] eqn:M; try discriminate. destruct (peek r (memory s)) as [|[ts| | |]] eqn:P; try discriminate.
  destruct (encode_nodes show [] ts) as [t| | |] eqn:EN; try discriminate. destruct (seq_eqb_spec t text) as [->|]; [|discriminate].
  assert (K : forall pre post, pre ++ post = COpen name :: CPrint (name ++ [10%N]) :: map (CWrite name) [a; b] ++ [CClose name true] ->
    left_by_kill show ex_cfg [file_b] s (effects pre (outside s))).
  { intros pre post PP. right. exists 0, r, file_b, ts, pre, post, (Ok tt). repeat (split; [first [exact NC|exact M|exact P|reflexivity]|]). split; [|reflexivity]. rewrite PP.
    apply (does_write show ex_cfg ts (yf_output file_b) text); [done|exact EN|done|done|cbn; by rewrite app_nil_r|]. exists []. by rewrite app_nil_r. }
  split; [by apply (K [COpen name] (CPrint (name ++ [10%N]) :: map (CWrite name) [a; b] ++ [CClose name true]))|].
  by apply (K [COpen name; CPrint (name ++ [10%N]); CWrite name a] (map (CWrite name) [b] ++ [CClose name true])).
Qed.
Lemma till_ready : match till_written 17 with Some s => ready s (lit "---" ++ [10%N] ++ lit "doc abmetadataportskindService") | None => false end = true.
Proof. by vm_compute. Qed.
Lemma name_b : output_file (oc_dir ex_cfg) (yf_output file_b) = lit "out/b.yaml".
Proof. by vm_compute. Qed.
Example C83_applies : exists n s w1 w2,
  set_up [file_b] two_os two_heap /\
  execution 20 no_sed [] show ex_disk ex_cfg [file_b] two_os two_heap old_world n s /\
  left_by_kill show ex_cfg [file_b] s w1 /\ left_by_kill show ex_cfg [file_b] s w2 /\
  file_content old_world (lit "out/b.yaml") = Some (lit "old") /\
  file_content w1 (lit "out/b.yaml") = Some [] /\ file_content w2 (lit "out/b.yaml") = Some (lit "---").
Proof.
  pose proof till_ready as C. destruct (till_written 17) as [s|] eqn:E; [|discriminate C]. destruct (till_written_runs 17 s E) as [n X].
  apply (ready_opened s _ (lit "---") ([10%N] ++ lit "doc abmetadataportskindService")) in C as [K1 K2]; [|done|done].
  exists n, s. eexists _, _. split; [apply set_upb_sound; [by vm_compute|apply two_good]|]. split; [exact X|]. split; [exact K1|]. split; [exact K2|].
  rewrite name_b. split; [by vm_compute|]. split; [apply one_call|apply three_calls].
Qed.
Print Assumptions C83_killed_at_any_point.
Print Assumptions C83_stdout_touches_no_file.
Print Assumptions C83_other_files_kept.
Print Assumptions C83_run_again.
Print Assumptions C83_uninterrupted.
Print Assumptions C83_parts_do_not_matter.
Print Assumptions C83_refuted_old_text_kept.
Print Assumptions C83_refuted_close_errors_reported.

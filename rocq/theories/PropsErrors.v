(** C86: which error a failing run reports. *)
From Verif Require Import Prelude GoStrings Format Yaml Heap Overlay SpecReach SpecSame Queue Paths Render SpecRender
  Pipeline SpecPipeline Fine Execute SpecExecute PropsQueue PropsPipeline Examples ExamplesHeap ExamplesPipeline.

Section theorems.
Context (fuel : nat) (sed : sed_engine) (dflt : list N) (enc : nat -> tree -> option (list N)) (dk : disk) (cfg : out_config).
Context (files : list yfile) (os : list overlay) (h0 : heap) (w0 : world).
Local Notation execution := (execution fuel sed dflt enc dk cfg files os h0 w0).
Local Notation sequential := (sequential fuel sed dflt files os h0).
Local Notation write_out := (write_out fuel sed dflt enc dk cfg files os h0).
Local Notation run := (run_all (run_work fuel sed dflt)).

(** Processing file [f] on its own, applying overlay [k] to document number [d] is the first
    application that does not succeed: it gives the error [e], after all applications listed
    before it succeeded.  (The message names the file and [d], workstream.go:49.) *)
Definition first_failure (f : yfile) (done : list (workload nat loc)) (k : nat) (d : Z) (e : err) : Prop :=
  exists node rest o, file_work os f = done ++ mkWork k node d :: rest /\
    (0 <= d)%Z /\ yf_nodes f !! Z.to_nat d = Some node /\
    snd (run done (h0, os)) = Ok tt /\
    snd (fst (run done (h0, os))) !! k = Some o /\
    snd (apply fuel sed dflt o node (fst (fst (run done (h0, os))))) = Err e.

Lemma run_work_eq k node d m : run_work fuel sed dflt (mkWork k node d) m =
  match snd m !! k with
  | None => (m, Panic)
  | Some o => match apply fuel sed dflt o node (fst m) with (h, o', r) => ((h, <[k := o']> (snd m)), r) end
  end.
Proof. done. Qed.
Lemma run_fails ws : forall m e, snd (run ws m) = Err e -> exists pre w rest, ws = pre ++ w :: rest /\
  snd (run pre m) = Ok tt /\ snd (run_work fuel sed dflt w (fst (run pre m))) = Err e.
Proof.
  induction ws as [|w ws IH]; intros m e; cbn [run_all]; [done|]. destruct (run_work fuel sed dflt w m) as [m1 [[]|e1| |]] eqn:R; try done.
  - intros H. destruct (IH m1 e H) as (pre & x & rest & -> & A & B). exists (w :: pre), x, rest. cbn [run_all app]. by rewrite R.
  - cbn. intros [= ->]. exists [], w, ws. cbn. by rewrite R.
Qed.
Lemma run_ok_app pre : forall m w rest, snd (run pre m) = Ok tt -> snd (run (pre ++ w :: rest) m) =
  match snd (run_work fuel sed dflt w (fst (run pre m))) with Ok _ => snd (run (pre ++ w :: rest) m) | Err e => Err e | Panic => Panic | Fuel => Fuel end.
Proof.
  induction pre as [|x pre IH]; intros m w rest; cbn [run_all app].
  - intros _. cbn. by destruct (run_work fuel sed dflt w m) as [m1 [[]| | |]].
  - destruct (run_work fuel sed dflt x m) as [m1 [[]| | |]]; try done. apply IH.
Qed.

Lemma failure_located i f e : files !! i = Some f -> snd (sequential i) = Err e -> exists done k d, first_failure f done k d e.
Proof.
  intros F. unfold SpecExecute.sequential. rewrite F. intros H. apply run_fails in H as (pre & [k node d] & rest & W & A & B).
  exists pre, k, d. assert (I : In (mkWork k node d) (file_work os f)) by (rewrite W; apply in_or_app; right; by left).
  apply C21_document_selection in I as (D1 & D2 & _). rewrite run_work_eq in B.
  destruct (snd (fst (run pre (h0, os))) !! k) as [o|] eqn:O; [|discriminate B]. exists node, rest, o. split_and!; try done.
  destruct (apply fuel sed dflt o node _) as [[h' o'] r]. by cbn in *.
Qed.

(** C86.  The error Execute returns is an error of writing, or it is the first failure of one
    of the files: an overlay of this file applied to the document with this number, after
    everything listed before it for this file succeeded. *)
Theorem C86_error_is_a_first_failure n s e : set_up files os h0 -> execution n s -> crashed s = false -> main s = MReturn (Some e) ->
  (exists i f done k d, files !! i = Some f /\ first_failure f done k d e) \/ write_out (finished s) w0 = (outside s, Err e).
Proof.
  intros SU E NC M. destruct (C42_error_is_genuine _ _ _ _ _ _ _ _ _ _ n s e SU E NC M) as [(i & f & F & S)|W]; [left|by right].
  destruct (failure_located i f e F S) as (pre & k & d & L). eauto 10.
Qed.

(** There is only one such place in a file, so the place does not depend on the schedule. *)
Theorem C86_one_place_per_file f done k d e done' k' d' e' :
  first_failure f done k d e -> first_failure f done' k' d' e' -> done = done' /\ k = k' /\ d = d' /\ e = e'.
Proof.
  intros (node & rest & o & W & _ & _ & A & O & B) (node' & rest' & o' & W' & _ & _ & A' & O' & B').
  assert (R : snd (run_work fuel sed dflt (mkWork k node d) (fst (run done (h0, os)))) = Err e).
  { rewrite run_work_eq, O. destruct (apply fuel sed dflt o node _) as [[? ?] ?]. done. }
  assert (R' : snd (run_work fuel sed dflt (mkWork k' node' d') (fst (run done' (h0, os)))) = Err e').
  { rewrite run_work_eq, O'. destruct (apply fuel sed dflt o' node' _) as [[? ?] ?]. done. }
  rewrite W in W'. clear W O O' B B' o o'. revert W' A R A' R'. generalize (h0, os) as m. revert done'. induction done as [|x done IH]; intros [|x' done'] m W'; cbn [app run_all] in *.
  - injection W' as <- <- <- <-. intros _ R _ R'. rewrite R in R'. by injection R' as <-.
  - injection W' as <- W'. intros _ R. cbn [fst] in R. destruct (run_work fuel sed dflt _ m) as [m1 [[]| | |]]; try done.
  - injection W' as -> W'. intros A R _ R'. cbn [fst] in R'. destruct (run_work fuel sed dflt _ m) as [m1 [[]| | |]]; try done.
  - injection W' as <- W'. intros A R A' R'. destruct (run_work fuel sed dflt x m) as [m1 [[]| | |]]; try done.
    destruct (IH done' m1 W' A R A' R') as (-> & -> & -> & ->). done.
Qed.

(** If only one file fails and nothing goes wrong with writing, every schedule reports the same:
    the first failure of this file. *)
Theorem C86_the_only_failing_file n s i f done k d e r :
  set_up files os h0 -> files !! i = Some f -> first_failure f done k d e ->
  (forall j, j <> i -> snd (sequential j) = Ok tt) ->
  (forall order w w1 x, write_out order w <> (w1, Err x)) ->
  execution n s -> crashed s = false -> main s = MReturn r -> r = Some e.
Proof.
  intros SU F FF O NW E NC M. assert (S : snd (sequential i) = Err e).
  { destruct FF as (node & rest & o & W & _ & _ & A & O1 & B). unfold SpecExecute.sequential. rewrite F, W, run_ok_app by done.
    rewrite run_work_eq, O1. destruct (apply fuel sed dflt o node _) as [[? ?] ?]. cbn in *. by rewrite B. }
  destruct r as [e'|].
  - destruct (C42_error_is_genuine _ _ _ _ _ _ _ _ _ _ n s e' SU E NC M) as [(j & g & G & S')|W]; [|by destruct (NW _ _ _ _ W)].
    destruct (decide (j = i)) as [->|N]; [congruence|]. rewrite (O j N) in S'. done.
  - destruct (C42_success_means_no_failure _ _ _ _ _ _ _ _ _ _ n s SU E NC M) as [X _]. rewrite (X i) in S. done.
Qed.
End theorems.

(** File 1 of this run fails, file 0 does not. *)
Example C86_applies : set_up [file_a; bad_b] two_os two_heap /\
  (exists done k d e, first_failure 20 no_sed [] two_os two_heap bad_b done k d e) /\
  snd (sequential 20 no_sed [] [file_a; bad_b] two_os two_heap 0) = Ok tt.
Proof.
  split; [apply bad_set_up|]. split; [|by vm_compute].
  assert (X : exists e, snd (sequential 20 no_sed [] [file_a; bad_b] two_os two_heap 1) = Err e) by (eexists; vm_compute; reflexivity).
  destruct X as [e X]. destruct (failure_located 20 no_sed [] [file_a; bad_b] two_os two_heap 1 bad_b e eq_refl X) as (l & k & d & FF). eauto.
Qed.

Print Assumptions C86_error_is_a_first_failure.
Print Assumptions C86_one_place_per_file.
Print Assumptions C86_the_only_failing_file.

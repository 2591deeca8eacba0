From stdpp Require Import list_numbers.
From Verif Require Import Prelude Pipeline SpecPipeline.

Section proof.
Context {Mem Work Code Scan Pages World G : Type}.
Context (begin : Work -> Code) (tick : Code -> Mem -> Mem * (Code + res unit)).
Context (scan : nat -> Scan) (peek : Scan -> Mem -> Scan + Pages) (emit : nat -> Pages -> World -> World * res unit).
(** The same without interruption: one application, and reading the documents of a
    file; and how many operations that takes. *)
Context (run : Work -> Mem -> Mem * res unit) (collect : nat -> Mem -> Pages).
Context (cost : Work -> Mem -> nat) (reads : nat -> Mem -> nat).
Definition post (i : nat) (m : Mem) (w : World) : World * res unit := emit i (collect i m) w.
Context (files : list (list Work)) (m0 : Mem) (w0 : World).

(** [view g i m q]: as far as file [i] is concerned, the shared memory [m] is as
    good as [q], the memory of a run in which only file [i] is processed.
    [mid g i m c out n]: a worker that has [c] still to do on the memory [m] will
    reach the result and (as far as file [i] is concerned) the memory [out] in at
    most [n] operations.  [see]: the same for reading the documents.  [g] says who
    may write to which part of the memory. *)
Context (view : G -> nat -> Mem -> Mem -> Prop).
Context (mid : G -> nat -> Mem -> Code -> Mem * res unit -> nat -> Prop).
Context (see : G -> nat -> Mem -> Scan -> Pages -> nat -> Prop).
(** The step from [m] to [m'] leaves the other files alone. *)
Definition kept (g g' : G) (i : nat) (m m' : Mem) : Prop := forall j, j <> i ->
  (forall q, view g j m q -> view g' j m' q) /\
  (forall c out n, mid g j m c out n -> mid g' j m' c out n) /\
  (forall c out n, see g j m c out n -> see g' j m' c out n).
Hypothesis view_init : exists g, forall i, i < length files -> view g i m0 m0.
Hypothesis mid_begin : forall g i ws w m q, files !! i = Some ws -> In w ws -> view g i m q ->
  mid g i m (begin w) (run w q) (cost w q).
Hypothesis mid_tick : forall g i m c out n m' x, mid g i m c out n -> tick c m = (m', x) ->
  exists g', kept g g' i m m' /\
    match x with
    | inl c' => exists n', n' < n /\ mid g' i m' c' out n'
    | inr r => 0 < n /\ exists q', out = (q', r) /\ view g' i m' q'
    end.
Hypothesis see_begin : forall g i m q, view g i m q -> see g i m (scan i) (collect i q) (reads i q).
Hypothesis see_tick : forall g i m c p n, see g i m c p n ->
  match peek c m with
  | inl c' => exists n', n' < n /\ see g i m c' p n'
  | inr p' => p' = p /\ 0 < n
  end.

Local Notation st := (state Mem Work Code Scan World).
Local Notation Step := (step begin tick scan peek emit files).

(** The memory in which file [i] ends when it is processed alone. *)
Definition alone (i : nat) : Mem * res unit :=
  match files !! i with Some ws => run_all run ws m0 | None => (m0, Ok tt) end.
Definition final (i : nat) : Mem := fst (alone i).
Definition rendered (order : list nat) : World * res unit := render_all post final order w0.

Lemma run_all_snoc pre w m q : run_all run pre m = (q, Ok tt) ->
  run_all run (pre ++ [w]) m = match run w q with (q', Ok _) => (q', Ok tt) | x => x end.
Proof.
  revert m. induction pre as [|x pre IH]; intros m H; cbn [run_all app] in *.
  - injection H as ->. destruct (run w q) as [? [[]| | |]]; done.
  - destruct (run x m) as [m1 [[]| | |]]; try discriminate. by apply IH.
Qed.
Lemma run_all_app_fail pre w rest m q q' r : run_all run pre m = (q, Ok tt) -> run w q = (q', r) -> r <> Ok tt ->
  run_all run (pre ++ w :: rest) m = (q', r).
Proof.
  revert m. induction pre as [|x pre IH]; intros m H R N; cbn [run_all app] in *.
  - injection H as ->. rewrite R. by destruct r as [[]| | |].
  - destruct (run x m) as [m1 [[]| | |]]; try discriminate. by apply IH.
Qed.
Lemma render_all_snoc order i w q : render_all post final order w = (q, Ok tt) ->
  render_all post final (order ++ [i]) w = match post i (final i) q with (q', Ok _) => (q', Ok tt) | x => x end.
Proof.
  revert w. induction order as [|x pre IH]; intros m H; cbn [render_all app] in *.
  - injection H as ->. destruct (post i (final i) q) as [? [[]| | |]]; done.
  - destruct (post x (final x) m) as [m1 [[]| | |]]; try discriminate. by apply IH.
Qed.

(** The number of steps a worker takes for these workloads. *)
Fixpoint load (ws : list Work) (m : Mem) : nat :=
  match ws with [] => 0 | w :: r => S (cost w m) + load r (fst (run w m)) end.
Definition pages (i : nat) : nat := reads i (final i).
Definition unclosed (c : bool) : nat := if c then 0 else 1.

Definition worker_ok (g : G) (i : nat) (ws : list Work) (w : wstate Work Code) (m : Mem) (n : nat) : Prop :=
  match w with
  | WNew => view g i m m0 /\ n = load ws m0 + 7 + pages i
  | WRun todo c HIdle => exists pre q, ws = pre ++ todo /\ run_all run pre m0 = (q, Ok tt) /\ view g i m q /\ (c = true -> todo = []) /\
      n = load todo q + unclosed c + 5 + pages i
  | WRun todo c (HBusy p) => exists pre x q nb, ws = pre ++ x :: todo /\ run_all run pre m0 = (q, Ok tt) /\ mid g i m p (run x q) nb /\
      (c = true -> todo = []) /\ n = nb + load todo (fst (run x q)) + unclosed c + 5 + pages i
  | WSelect => exists q, run_all run ws m0 = (q, Ok tt) /\ view g i m q /\ n = 4 + pages i
  | WReturned None => exists q, run_all run ws m0 = (q, Ok tt) /\ view g i m q /\ n = 0
  | WReturned (Some e) => ((exists q, run_all run ws m0 = (q, Err e)) \/ e = ECanceled) /\ n = 0
  end.

(** A failure some overlay of some file really has. *)
Definition genuine (e : err) : Prop := exists i ws q, files !! i = Some ws /\ run_all run ws m0 = (q, Err e).

Definition current (m : mstate Scan) : list nat := match m with MPost i _ => [i] | _ => [] end.
Definition passed (s : st) : list nat := finished s ++ current (main s) ++ buffer s.

Definition main_ok (s : st) : Prop :=
  match main s with
  | MLaunch k => k <= length files /\ closer s = CNone /\ (forall i, k <= i -> i < length files -> workers s !! i = Some WNew) /\
      (forall i, i < k -> workers s !! i <> Some WNew)
  | MRecv | MPost _ _ => closer s <> CNone /\ (forall i, workers s !! i <> Some WNew)
  | MWait => closer s = CClosed /\ buffer s = [] /\ (forall i, workers s !! i <> Some WNew)
  | MReturn r => (forall i, workers s !! i <> Some WNew) /\ closer s <> CNone /\
      (r = None -> buffer s = [] /\ group_err s = None /\ Forall returned (workers s))
  end.
Definition render_ok (s : st) : Prop :=
  match main s with
  | MReturn (Some e) => (genuine e /\ group_err s <> None /\ Forall returned (workers s) /\ rendered (finished s) = (outside s, Ok tt)) \/ rendered (finished s) = (outside s, Err e)
  | _ => rendered (finished s) = (outside s, Ok tt)
  end.

(** [b]: the reads the main goroutine still has to do for the file it renders. *)
Definition scan_ok (g : G) (s : st) (b : nat) : Prop :=
  match main s with
  | MPost i r => see g i (memory s) r (collect i (final i)) b
  | _ => b = 0
  end.

Record live (g : G) (ns : list nat) (b : nat) (s : st) : Prop := {
  l_len : length (workers s) = length files;
  l_budget : length ns = length files;
  l_work : forall i ws, files !! i = Some ws -> exists w n, workers s !! i = Some w /\ ns !! i = Some n /\ worker_ok g i ws w (memory s) n;
  l_scan : scan_ok g s b;
  l_nodup : NoDup (passed s);
  l_passed : forall i, i ∈ passed s <-> workers s !! i = Some (WReturned None);
  l_err : (exists i e, workers s !! i = Some (WReturned (Some e))) <-> group_err s <> None;
  l_genuine : forall e, group_err s = Some e -> genuine e;
  l_cancel : cancelled s = true -> group_err s <> None \/ Forall returned (workers s);
  l_closer : closer s = CClosing \/ closer s = CClosed -> Forall returned (workers s);
  l_main : main_ok s;
  l_render : render_ok s }.

(** Some overlay of some file really panics. *)
Definition panics : Prop := exists i ws q, files !! i = Some ws /\ run_all run ws m0 = (q, Panic).
(** A crashed run: what it rendered before was complete, and some file panics when
    processed alone, or the rendering did. *)
Definition dead (s : st) : Prop :=
  NoDup (finished s) /\ (forall i, i ∈ finished s -> exists ws q, files !! i = Some ws /\ run_all run ws m0 = (q, Ok tt)) /\
  exists r, rendered (finished s) = (outside s, r) /\ (panics \/ r = Panic).

Definition inv (s : st) : Prop := if crashed s then dead s else exists g ns b, live g ns b s.

Definition budgets : list nat := imap (fun i ws => load ws m0 + 7 + pages i) files.
Lemma start_live : exists g, live g budgets 0 (start files m0 w0).
Proof.
  destruct view_init as [g VI]. exists g.
  constructor; cbn [start workers memory group_err cancelled closer main finished buffer outside].
  - by rewrite map_length.
  - unfold budgets. by rewrite imap_length.
  - intros i ws F. exists WNew, (load ws m0 + 7 + pages i). rewrite list_lookup_fmap, F. split; [done|].
    split; [unfold budgets; by rewrite list_lookup_imap, F|]. split; [|done]. apply VI. by eapply lookup_lt_Some.
  - done.
  - constructor.
  - intros i. split; [intros H; inversion H|]. rewrite list_lookup_fmap. by destruct (files !! i).
  - split; [|done]. intros (i & e & H). rewrite list_lookup_fmap in H. by destruct (files !! i).
  - done.
  - done.
  - intros [|]; done.
  - unfold main_ok. cbn. split; [lia|]. split; [done|]. split; [|lia]. intros i _ L. rewrite list_lookup_fmap.
    apply lookup_lt_is_Some in L as [x ->]. done.
  - unfold render_ok. cbn. done.
Qed.

Lemma not_in_passed_running g ns b s i w : live g ns b s -> workers s !! i = Some w -> w <> WReturned None -> i ∉ passed s.
Proof. intros L H N I. apply (l_passed _ _ _ _ L) in I. congruence. Qed.

Lemma workers_file g ns b s i w : live g ns b s -> workers s !! i = Some w ->
  exists ws n, files !! i = Some ws /\ ns !! i = Some n /\ worker_ok g i ws w (memory s) n.
Proof.
  intros L H. assert (X : i < length files) by (rewrite <- (l_len _ _ _ _ L); by eapply lookup_lt_Some).
  apply lookup_lt_is_Some in X as [ws F]. destruct (l_work _ _ _ _ L i ws F) as (w' & n & H' & N & K). exists ws, n. split; [done|]. split; [done|]. congruence.
Qed.
Lemma forall_returned_insert i r (l : list (wstate Work Code)) : Forall returned l -> Forall returned (<[i:=WReturned r]> l).
Proof. intros H. by apply Forall_insert. Qed.

(** Changing the state of one worker, when neither the old nor the new state is a
    return. *)
Definition running (w : wstate Work Code) : Prop := match w with WRun _ _ _ | WSelect => True | _ => False end.
Lemma not_all_returned (s : st) i w : workers s !! i = Some w -> running w -> ~ Forall returned (workers s).
Proof. intros H R F. rewrite Forall_lookup in F. specialize (F i w H). by destruct w. Qed.

Lemma insert_eq {A} (l : list A) i x y : l !! i = Some x -> <[i:=y]> l !! i = Some y.
Proof. intros H. apply list_lookup_insert. by eapply lookup_lt_Some. Qed.

Lemma kept_same g i m : kept g g i m m.
Proof. by intros j _. Qed.
Lemma worker_ok_kept g g' i m m' : kept g g' i m m' -> forall j ws w n, j <> i -> worker_ok g j ws w m n -> worker_ok g' j ws w m' n.
Proof.
  intros K j ws w n NE H. destruct (K j NE) as (KV & KM & _). destruct w as [|todo c [|p]| |[e|]]; cbn in *.
  - destruct H as [H E]. split; [by apply KV|done].
  - destruct H as (pre & q & A & B & C & D). exists pre, q. split; [done|]. split; [done|]. split; [by apply KV|done].
  - destruct H as (pre & x & q & nb & A & B & C & D). exists pre, x, q, nb. split; [done|]. split; [done|]. split; [by apply KM|done].
  - destruct H as (q & A & B & C). exists q. split; [done|]. split; [by apply KV|done].
  - done.
  - destruct H as (q & A & B & C). exists q. split; [done|]. split; [by apply KV|done].
Qed.
Lemma scan_kept g g' ns b (s : st) i w m : live g ns b s -> workers s !! i = Some w -> w <> WReturned None -> kept g g' i (memory s) m ->
  match main s with MPost j r => see g' j m r (collect j (final j)) b | _ => b = 0 end.
Proof.
  intros L W NR K. pose proof (l_scan _ _ _ _ L) as SC. unfold scan_ok in SC. destruct (main s) as [| |j r| |] eqn:M; try done.
  assert (NE : j <> i).
  { intros ->. assert (I : i ∈ passed s) by (unfold passed; rewrite M; cbn; apply elem_of_app; right; by left).
    apply (l_passed _ _ _ _ L) in I. congruence. }
  by apply (K j NE).
Qed.

Lemma set_worker_live g g' ns b s i ws w w' m n' :
  live g ns b s -> files !! i = Some ws -> workers s !! i = Some w -> running w -> running w' ->
  worker_ok g' i ws w' m n' -> kept g g' i (memory s) m ->
  live g' (<[i := n']> ns) b (set_worker i w' (set_memory m s)).
Proof.
  intros L F W R R' K O. pose proof (not_all_returned s i w W R) as NA. pose proof (insert_eq _ _ _ w' W) as IE.
  constructor; unfold passed, main_ok, render_ok; cbn [set_worker set_memory workers memory group_err cancelled closer main finished buffer outside].
  - rewrite insert_length. apply L.
  - rewrite insert_length. apply L.
  - intros j ws' F'. destruct (l_work _ _ _ _ L j ws' F') as (w2 & n2 & W2 & N2 & K2). destruct (decide (i = j)) as [<-|NE].
    + exists w', n'. split; [done|]. split; [by eapply insert_eq|]. congruence.
    + rewrite !list_lookup_insert_ne by done. exists w2, n2. split; [done|]. split; [done|]. eapply worker_ok_kept; eauto.
  - unfold scan_ok. cbn [main memory]. apply (scan_kept g g' ns b s i w m L W); [|done]. intros ->. done.
  - apply L.
  - intros j. rewrite <- (l_passed _ _ _ _ L j) at 1 || idtac. unfold passed. split.
    + intros I. apply (l_passed _ _ _ _ L) in I. destruct (decide (i = j)) as [<-|NE]; [|by rewrite list_lookup_insert_ne].
      rewrite W in I. injection I as ->. done.
    + intros H. apply (l_passed _ _ _ _ L). destruct (decide (i = j)) as [<-|NE]; [|by rewrite list_lookup_insert_ne in H].
      rewrite IE in H. injection H as ->. done.
  - rewrite <- (l_err _ _ _ _ L). split; intros (j & e & H); exists j, e; (destruct (decide (i = j)) as [<-|NE]; [|first [by rewrite list_lookup_insert_ne in H by done|by rewrite list_lookup_insert_ne by done]]).
    + rewrite IE in H. injection H as ->. done.
    + rewrite W in H. injection H as ->. done.
  - apply L.
  - intros C. destruct (l_cancel _ _ _ _ L C); [by left|done].
  - intros C. destruct (NA (l_closer _ _ _ _ L C)).
  - pose proof (l_main _ _ _ _ L) as LM. unfold main_ok in LM. destruct (main s) as [k| | | |r].
    + destruct LM as (A & B & C & D). split; [done|]. split; [done|]. split.
      * intros j J1 J2. rewrite list_lookup_insert_ne; [by apply C|]. intros <-. specialize (C i J1 J2). rewrite W in C. injection C as ->. done.
      * intros j J. destruct (decide (i = j)) as [<-|NE]; [|rewrite list_lookup_insert_ne by done; by apply D].
        rewrite IE. intros [= ->]. done.
    + destruct LM as (A & B). split; [done|]. intros j. destruct (decide (i = j)) as [<-|NE]; [|rewrite list_lookup_insert_ne by done; by apply B].
      rewrite IE. intros [= ->]. done.
    + destruct LM as (A & B). split; [done|]. intros j. destruct (decide (i = j)) as [<-|NE]; [|rewrite list_lookup_insert_ne by done; by apply B].
      rewrite IE. intros [= ->]. done.
    + destruct LM as (A & _). destruct (NA (l_closer _ _ _ _ L (or_intror A))).
    + destruct LM as (A & A' & B). split; [|split; [done|]].
      * intros j. destruct (decide (i = j)) as [<-|NE]; [|rewrite list_lookup_insert_ne by done; by apply A].
        rewrite IE. intros [= ->]. done.
      * intros E. destruct (B E) as (_ & _ & X). done.
  - pose proof (l_render _ _ _ _ L) as LR. unfold render_ok in LR. destruct (main s) as [| | | |[e|]]; try done.
    destruct LR as [(_ & _ & X & _)|LR]; [done|by right].
Qed.

(** A worker returns. *)
Lemma return_error_live g g' ns b s i ws w m e :
  live g ns b s -> files !! i = Some ws -> workers s !! i = Some w -> running w ->
  ((exists q, run_all run ws m0 = (q, Err e)) \/ (e = ECanceled /\ group_err s <> None)) ->
  kept g g' i (memory s) m ->
  live g' (<[i := 0]> ns) b (group_fail e (set_worker i (WReturned (Some e)) (set_memory m s))).
Proof.
  intros L F W R GE O. pose proof (not_all_returned s i w W R) as NA.
  pose proof (insert_eq _ _ _ (WReturned (Some e)) W) as IE.
  assert (X : exists gr c, gr <> None /\ (forall e', gr = Some e' -> genuine e') /\
     group_fail e (set_worker i (WReturned (Some e)) (set_memory m s)) =
     mkState m (<[i := WReturned (Some e)]> (workers s)) gr c (buffer s) (closer s) (main s) (outside s) (finished s) (crashed s)).
  { unfold group_fail, set_worker, set_memory. cbn [group_err]. destruct (group_err s) as [e0|] eqn:E0.
    - exists (Some e0), (cancelled s). split; [done|]. split; [|done]. intros e' [= <-]. by apply L.
    - exists (Some e), true. split; [done|]. split; [|done]. intros e' [= <-].
      destruct GE as [[q GE]|[_ GE]]; [|done]. exists i, ws, q. done. }
  destruct X as (gr & c & GN & GG & ->).
  constructor; unfold passed, main_ok, render_ok; cbn [workers memory group_err cancelled closer main finished buffer outside].
  - rewrite insert_length. apply L.
  - rewrite insert_length. apply L.
  - intros j ws' F'. destruct (l_work _ _ _ _ L j ws' F') as (w2 & n2 & W2 & N2 & K2). destruct (decide (i = j)) as [<-|NE].
    + exists (WReturned (Some e)), 0. split; [done|]. split; [by eapply insert_eq|]. cbn. assert (ws' = ws) as -> by congruence.
      split; [|done]. destruct GE as [|[? _]]; [by left|by right].
    + rewrite !list_lookup_insert_ne by done. exists w2, n2. split; [done|]. split; [done|]. eapply worker_ok_kept; eauto.
  - unfold scan_ok. cbn [main memory]. apply (scan_kept g g' ns b s i w m L W); [|done]. intros ->. done.
  - apply L.
  - intros j. unfold passed. split.
    + intros I. apply (l_passed _ _ _ _ L) in I. destruct (decide (i = j)) as [<-|NE]; [|by rewrite list_lookup_insert_ne].
      rewrite W in I. injection I as ->. done.
    + intros H. apply (l_passed _ _ _ _ L). destruct (decide (i = j)) as [<-|NE]; [|by rewrite list_lookup_insert_ne in H].
      rewrite IE in H. done.
  - split; [done|]. intros _. by exists i, e.
  - done.
  - intros _. by left.
  - intros C. destruct (NA (l_closer _ _ _ _ L C)).
  - pose proof (l_main _ _ _ _ L) as LM. unfold main_ok in LM. destruct (main s) as [k| | | |r].
    + destruct LM as (A & B & C & D). split; [done|]. split; [done|]. split.
      * intros j J1 J2. rewrite list_lookup_insert_ne; [by apply C|]. intros <-. specialize (C i J1 J2). rewrite W in C. injection C as ->. done.
      * intros j J. destruct (decide (i = j)) as [<-|NE]; [by rewrite IE|rewrite list_lookup_insert_ne by done; by apply D].
    + destruct LM as (A & B). split; [done|]. intros j. destruct (decide (i = j)) as [<-|NE]; [by rewrite IE|rewrite list_lookup_insert_ne by done; by apply B].
    + destruct LM as (A & B). split; [done|]. intros j. destruct (decide (i = j)) as [<-|NE]; [by rewrite IE|rewrite list_lookup_insert_ne by done; by apply B].
    + destruct LM as (A & _). destruct (NA (l_closer _ _ _ _ L (or_intror A))).
    + destruct LM as (A & A' & B). split; [|split; [done|]].
      * intros j. destruct (decide (i = j)) as [<-|NE]; [by rewrite IE|rewrite list_lookup_insert_ne by done; by apply A].
      * intros E. destruct (B E) as (_ & _ & X). done.
  - pose proof (l_render _ _ _ _ L) as LR. unfold render_ok in LR. destruct (main s) as [| | | |[e1|]]; try done.
    destruct LR as [(_ & _ & X & _)|LR]; [done|by right].
Qed.

Lemma live_dead g ns b s m w fin : live g ns b s -> (exists r, rendered fin = (w, r) /\ (panics \/ r = Panic)) -> NoDup fin -> (forall i, i ∈ fin -> i ∈ passed s) ->
  forall s', finished s' = fin -> outside s' = w -> memory s' = m -> dead s'.
Proof.
  intros L R N P s' <- <- <-. split; [done|]. split; [|done]. intros i I. apply P, (l_passed _ _ _ _ L) in I.
  destruct (workers_file _ _ _ s i _ L I) as (ws & n & F & _ & q & K & _). by exists ws, q.
Qed.
Lemma finished_nodup g ns b s : live g ns b s -> NoDup (finished s).
Proof. intros L. pose proof (l_nodup _ _ _ _ L) as N. unfold passed in N. by apply NoDup_app in N as [N _]. Qed.
Lemma finished_passed s i : i ∈ finished s -> i ∈ passed s.
Proof. intros I. unfold passed. apply elem_of_app. by left. Qed.
Lemma render_exists g ns b s : live g ns b s -> exists r, rendered (finished s) = (outside s, r).
Proof.
  intros L. pose proof (l_render _ _ _ _ L) as R. unfold render_ok in R. destruct (main s) as [| | | |[e|]]; eauto.
  destruct R as [(_ & _ & _ & R)|R]; eauto.
Qed.

Lemma group_fail_crashed e (s : st) : crashed (group_fail e s) = crashed s.
Proof. unfold group_fail. by destruct (group_err s). Qed.

(** ** What is left to do *)
Definition sum_of (ns : list nat) : nat := sum_list_with (fun n => n) ns.
Definition cm (c : cstate) : nat := match c with CNone => 0 | CWaiting => 2 | CClosing => 1 | CClosed => 0 end.
Definition mm (m : mstate Scan) : nat :=
  match m with MLaunch _ => 7 | MRecv => 3 | MPost _ _ => 4 | MWait => 2 | MReturn _ => 0 end.
Definition waiting (l : list nat) : nat := sum_list_with (fun i => 3 + pages i) l.
Definition measure (ns : list nat) (b : nat) (s : st) : nat :=
  1 + sum_of ns + waiting (buffer s) + cm (closer s) + mm (main s) + b.
Lemma sum_insert ns i n n' : ns !! i = Some n -> sum_of (<[i:=n']> ns) + n = sum_of ns + n'.
Proof.
  unfold sum_of. revert i. induction ns as [|x l IH]; intros [|i] H; try discriminate.
  - injection H as ->. change (<[0:=n']> (n :: l)) with (n' :: l). cbn [sum_list_with]. lia.
  - change (<[S i:=n']> (x :: l)) with (x :: <[i:=n']> l). cbn [sum_list_with]. specialize (IH i H). lia.
Qed.
Lemma waiting_app l l' : waiting (l ++ l') = waiting l + waiting l'.
Proof. unfold waiting. induction l; cbn in *; [done|]. lia. Qed.
Lemma waiting_one i : waiting [i] = 3 + pages i.
Proof. unfold waiting. cbn. lia. Qed.

Definition ahead (k : nat) (s : st) : Prop :=
  if crashed s then dead s else exists g ns b, live g ns b s /\ measure ns b s < k.

(** A step of worker [i] alone. *)
Lemma worker_ahead g g' ns b s i ws w w' m n n' :
  crashed s = false -> live g ns b s -> files !! i = Some ws -> workers s !! i = Some w -> running w -> running w' ->
  ns !! i = Some n -> n' < n -> worker_ok g' i ws w' m n' -> kept g g' i (memory s) m ->
  ahead (measure ns b s) (set_worker i w' (set_memory m s)).
Proof.
  intros CR L F W R R' N LT K O. unfold ahead. cbn [crashed set_worker set_memory]. rewrite CR. exists g', (<[i:=n']> ns), b.
  split; [by eapply set_worker_live|]. unfold measure. cbn [buffer closer main set_worker set_memory].
  pose proof (sum_insert ns i n n' N). lia.
Qed.
Lemma error_ahead g g' ns b s i ws w m e n :
  crashed s = false -> live g ns b s -> files !! i = Some ws -> workers s !! i = Some w -> running w ->
  ((exists q, run_all run ws m0 = (q, Err e)) \/ (e = ECanceled /\ group_err s <> None)) ->
  ns !! i = Some n -> 0 < n -> kept g g' i (memory s) m ->
  ahead (measure ns b s) (group_fail e (set_worker i (WReturned (Some e)) (set_memory m s))).
Proof.
  intros CR L F W R GE N LT O. unfold ahead. rewrite group_fail_crashed. cbn [crashed set_worker set_memory]. rewrite CR. exists g', (<[i:=0]> ns), b.
  split; [by eapply return_error_live|].
  assert (E : measure (<[i:=0]> ns) b (group_fail e (set_worker i (WReturned (Some e)) (set_memory m s))) = measure (<[i:=0]> ns) b s).
  { unfold measure, group_fail. cbn [set_worker set_memory group_err]. by destruct (group_err s). }
  rewrite E. unfold measure. pose proof (sum_insert ns i n 0 N). lia.
Qed.

Lemma step_ahead g ns b s s' : crashed s = false -> live g ns b s -> Step s s' -> ahead (measure ns b s) s'.
Proof.
  intros CR L X.
  destruct X as [s k work _ M F|s _ M|s i w todo _ W|s i h _ W|s i p p' todo c m _ W R|s i p todo c m _ W R|s i p todo c m e _ W R|s i p todo c m _ W R
    |s i _ W|s i _ W B|s i _ W C|s _ C A|s _ C|s i rest _ M B|s _ M B C|s i r r' _ M P|s i r p w _ M Q P|s i r p w e _ M Q P|s i r p w _ M Q P|s _ M A].
  - (* launch *)
    unfold ahead. cbn [crashed set_main set_worker]. rewrite CR.
    pose proof (l_main _ _ _ _ L) as LM. unfold main_ok in LM. rewrite M in LM. destruct LM as (A & B & C & D).
    assert (K : k < length files) by (by eapply lookup_lt_Some).
    pose proof (C k (le_n _) K) as W. pose proof (insert_eq _ _ _ (WRun work false HIdle) W) as IE.
    assert (NA : ~ Forall returned (workers s)) by (intros FA; rewrite Forall_lookup in FA; exact (FA k _ W)).
    destruct (l_work _ _ _ _ L k work F) as (w2 & n2 & W2 & N2 & K2). rewrite W in W2. injection W2 as <-. cbn in K2. destruct K2 as [V2 ->].
    exists g, (<[k := load work m0 + 6 + pages k]> ns), b. split.
    2:{ unfold measure. cbn [buffer closer main set_main set_worker]. rewrite M. cbn [mm].
        pose proof (sum_insert ns k _ (load work m0 + 6 + pages k) N2). lia. }
    constructor; unfold passed, main_ok, render_ok, scan_ok; cbn [set_main set_worker workers memory group_err cancelled closer main finished buffer outside].
    + rewrite insert_length. apply L.
    + rewrite insert_length. apply L.
    + intros j ws' F'. destruct (decide (k = j)) as [<-|NE].
      * exists (WRun work false HIdle), (load work m0 + 6 + pages k). split; [done|]. split; [by eapply insert_eq|].
        assert (ws' = work) as -> by congruence.
        exists [], m0. split; [done|]. split; [done|]. split; [done|]. split; [done|]. cbn. lia.
      * rewrite !list_lookup_insert_ne by done. by apply (l_work _ _ _ _ L).
    + pose proof (l_scan _ _ _ _ L) as SC. unfold scan_ok in SC. by rewrite M in SC.
    + pose proof (l_nodup _ _ _ _ L) as N. unfold passed in N. by rewrite M in N.
    + intros j. pose proof (l_passed _ _ _ _ L j) as PJ. unfold passed in PJ. rewrite M in PJ. rewrite PJ.
      destruct (decide (k = j)) as [<-|NE]; [rewrite IE, W; done|by rewrite list_lookup_insert_ne].
    + rewrite <- (l_err _ _ _ _ L). split; intros (j & e & H); exists j, e; (destruct (decide (k = j)) as [<-|NE]; [congruence|first [by rewrite list_lookup_insert_ne in H by done|by rewrite list_lookup_insert_ne by done]]).
    + apply L.
    + intros C'. destruct (l_cancel _ _ _ _ L C'); [by left|done].
    + intros C'. destruct (NA (l_closer _ _ _ _ L C')).
    + split; [lia|]. split; [done|]. split.
      * intros j J1 J2. rewrite list_lookup_insert_ne by lia. apply C; lia.
      * intros j J. destruct (decide (k = j)) as [<-|NE]; [by rewrite IE|]. rewrite list_lookup_insert_ne by done. apply D. lia.
    + pose proof (l_render _ _ _ _ L) as LR. unfold render_ok in LR. by rewrite M in LR.
  - (* launched *)
    unfold ahead. cbn [crashed set_main set_closer]. rewrite CR.
    pose proof (l_main _ _ _ _ L) as LM. unfold main_ok in LM. rewrite M in LM. destruct LM as (A & B & C & D).
    pose proof (l_nodup _ _ _ _ L) as N. pose proof (l_passed _ _ _ _ L) as PJ. pose proof (l_render _ _ _ _ L) as LR. pose proof (l_scan _ _ _ _ L) as SC.
    unfold passed in N, PJ. unfold render_ok in LR. unfold scan_ok in SC. rewrite M in N, PJ, LR, SC.
    exists g, ns, b. split.
    2:{ unfold measure. cbn [buffer closer main set_main set_closer cm mm]. rewrite M, B. cbn [cm mm]. lia. }
    constructor; unfold passed, main_ok, render_ok, scan_ok; cbn [set_main set_closer workers memory group_err cancelled closer main finished buffer outside]; try apply L; try done.
    + intros [|]; done.
    + split; [done|]. intros i H. destruct (decide (i < length files)) as [K|K]; [by apply (D i K)|].
      apply lookup_lt_Some in H. rewrite (l_len _ _ _ _ L) in H. lia.
  - (* handover *)
    destruct (workers_file _ _ _ s i _ L W) as (ws & n & F & N & pre & q & E & RA & V & _ & EN).
    change (ahead (measure ns b s) (set_worker i (WRun todo false (HBusy (begin w))) (set_memory (memory s) s))).
    eapply (worker_ahead g g) with (n := n) (n' := cost w q + load todo (fst (run w q)) + 1 + 5 + pages i); eauto; try done.
    + rewrite EN. cbn [load unclosed]. lia.
    + exists pre, w, q, (cost w q). split; [done|]. split; [done|]. split; [|done]. eapply mid_begin; eauto. rewrite E. apply in_or_app. right. by left.
  - (* close stream *)
    destruct (workers_file _ _ _ s i _ L W) as (ws & n & F & N & K). pose proof K as K0.
    change (ahead (measure ns b s) (set_worker i (WRun [] true h) (set_memory (memory s) s))).
    destruct h as [|p]; cbn in K.
    + destruct K as (pre & q & E & RA & V & _ & EN).
      eapply (worker_ahead g g) with (n := n) (n' := 5 + pages i); eauto; try done; [lia|].
      exists pre, q. done.
    + destruct K as (pre & x & q & nb & E & RA & V & _ & EN).
      eapply (worker_ahead g g) with (n := n) (n' := nb + 0 + 0 + 5 + pages i); eauto; try done; [lia|].
      exists pre, x, q, nb. done.
  - (* an operation *)
    destruct (workers_file _ _ _ s i _ L W) as (ws & n & F & N & pre & x & q & nb & E & RA & V & TC & EN).
    destruct (mid_tick _ _ _ _ _ _ _ _ V R) as (g' & KE & n' & LT & V').
    eapply (worker_ahead g g') with (n := n); eauto; try done.
    2:{ exists pre, x, q, n'. done. }
    lia.
  - (* apply *)
    destruct (workers_file _ _ _ s i _ L W) as (ws & n & F & N & pre & x & q & nb & E & RA & V & TC & EN).
    destruct (mid_tick _ _ _ _ _ _ _ _ V R) as (g' & KE & LT & q' & RR & V').
    eapply (worker_ahead g g') with (n := n); eauto; try done.
    2:{ exists (pre ++ [x]), q'. split; [by rewrite <- app_assoc|]. split; [by rewrite (run_all_snoc _ _ _ _ RA), RR|]. done. }
    rewrite EN, RR. cbn [fst]. lia.
  - (* apply error *)
    destruct (workers_file _ _ _ s i _ L W) as (ws & n & F & N & pre & x & q & nb & E & RA & V & TC & EN).
    destruct (mid_tick _ _ _ _ _ _ _ _ V R) as (g' & KE & LT & q' & RR & V').
    eapply (error_ahead g g') with (n := n); eauto; try done; [|lia].
    left. exists q'. rewrite E. eapply run_all_app_fail; eauto.
  - (* panic *)
    unfold ahead. cbn [crashed set_crashed]. apply (live_dead _ _ _ s m (outside s) (finished s) L); try done.
    + destruct (render_exists _ _ _ _ L) as [r RE]. exists r. split; [done|]. left.
      destruct (workers_file _ _ _ s i _ L W) as (ws & n & F & N & pre & x & q & nb & E & RA & V & TC & EN).
      destruct (mid_tick _ _ _ _ _ _ _ _ V R) as (g' & KE & LT & q' & RR & V').
      exists i, ws, q'. split; [done|]. rewrite E. by eapply run_all_app_fail.
    + by eapply finished_nodup.
    + apply finished_passed.
  - (* drained *)
    destruct (workers_file _ _ _ s i _ L W) as (ws & n & F & N & pre & q & E & RA & V & _ & EN). rewrite !app_nil_r in E. subst pre.
    change (ahead (measure ns b s) (set_worker i WSelect (set_memory (memory s) s))).
    eapply (worker_ahead g g) with (n := n) (n' := 4 + pages i); eauto; try done; [cbn in EN; lia|].
    by exists q.
  - (* send *)
    unfold ahead. cbn [crashed set_worker set_buffer]. rewrite CR.
    destruct (workers_file _ _ _ s i _ L W) as (ws & n & F & NN & q & RA & V & EN).
    pose proof (not_all_returned s i WSelect W Logic.I) as NA. pose proof (insert_eq _ _ _ (WReturned None) W) as IE.
    assert (NI : i ∉ passed s) by (eapply not_in_passed_running; eauto; done).
    assert (PP : finished s ++ current (main s) ++ buffer s ++ [i] = passed s ++ [i]) by (unfold passed; by rewrite <- !app_assoc).
    exists g, (<[i := 0]> ns), b. split.
    2:{ unfold measure. cbn [buffer closer main set_buffer set_worker]. rewrite waiting_app, waiting_one.
        pose proof (sum_insert ns i _ 0 NN). lia. }
    constructor; unfold passed, main_ok, render_ok, scan_ok; cbn [set_buffer set_worker workers memory group_err cancelled closer main finished buffer outside]; rewrite ?PP.
    + rewrite insert_length. apply L.
    + rewrite insert_length. apply L.
    + intros j ws' F'. destruct (decide (i = j)) as [<-|NE].
      * exists (WReturned None), 0. split; [done|]. split; [by eapply insert_eq|]. assert (ws' = ws) as -> by congruence. by exists q.
      * rewrite !list_lookup_insert_ne by done. by apply (l_work _ _ _ _ L).
    + apply L.
    + apply NoDup_app. split; [apply L|]. split; [|apply NoDup_singleton]. intros x X Y. apply elem_of_list_singleton in Y as ->. done.
    + intros j. rewrite elem_of_app, elem_of_list_singleton, (l_passed _ _ _ _ L j). destruct (decide (i = j)) as [<-|NE].
      * rewrite IE. split; [done|by right].
      * rewrite list_lookup_insert_ne by done. split; [by intros [|]|by left].
    + rewrite <- (l_err _ _ _ _ L). split; intros (j & e & H); exists j, e; (destruct (decide (i = j)) as [<-|NE]; [congruence|first [by rewrite list_lookup_insert_ne in H by done|by rewrite list_lookup_insert_ne by done]]).
    + apply L.
    + intros C'. destruct (l_cancel _ _ _ _ L C'); [by left|done].
    + intros C'. destruct (NA (l_closer _ _ _ _ L C')).
    + pose proof (l_main _ _ _ _ L) as LM. unfold main_ok in LM. destruct (main s) as [k| | | |r].
      * destruct LM as (A & B' & C & D). split; [done|]. split; [done|]. split.
        -- intros j J1 J2. rewrite list_lookup_insert_ne; [by apply C|]. intros <-. specialize (C i J1 J2). congruence.
        -- intros j J. destruct (decide (i = j)) as [<-|NE]; [by rewrite IE|rewrite list_lookup_insert_ne by done; by apply D].
      * destruct LM as (A & B'). split; [done|]. intros j. destruct (decide (i = j)) as [<-|NE]; [by rewrite IE|rewrite list_lookup_insert_ne by done; by apply B'].
      * destruct LM as (A & B'). split; [done|]. intros j. destruct (decide (i = j)) as [<-|NE]; [by rewrite IE|rewrite list_lookup_insert_ne by done; by apply B'].
      * destruct LM as (A & _). destruct (NA (l_closer _ _ _ _ L (or_intror A))).
      * destruct LM as (A & A' & B'). split; [|split; [done|]].
        -- intros j. destruct (decide (i = j)) as [<-|NE]; [by rewrite IE|rewrite list_lookup_insert_ne by done; by apply A].
        -- intros E. destruct (B' E) as (_ & _ & X). done.
    + pose proof (l_render _ _ _ _ L) as LR. unfold render_ok in LR. destruct (main s) as [| | | |[e1|]]; try done.
      destruct LR as [(_ & _ & X & _)|LR]; [done|by right].
  - (* give up *)
    destruct (workers_file _ _ _ s i _ L W) as (ws & n & F & N & q & RA & V & EN).
    change (set_worker i (WReturned (Some ECanceled)) s) with (set_worker i (WReturned (Some ECanceled)) (set_memory (memory s) s)).
    eapply (error_ahead g g) with (n := n); eauto; try done; [|lia]. right. split; [done|].
    destruct (l_cancel _ _ _ _ L C) as [|X]; [done|]. destruct (not_all_returned s i WSelect W Logic.I X).
  - (* waited *)
    unfold ahead. cbn [crashed set_closer set_cancelled]. rewrite CR.
    pose proof (l_main _ _ _ _ L) as LM. unfold main_ok in LM.
    exists g, ns, b. split.
    2:{ unfold measure. cbn [buffer closer main set_closer set_cancelled]. rewrite C. cbn [cm]. lia. }
    constructor; unfold passed, main_ok, render_ok; cbn [set_closer set_cancelled workers memory group_err cancelled closer main finished buffer outside]; try apply L; try done.
    + intros _. by right.
    + destruct (main s); try (destruct LM as (? & ? & ?) || destruct LM as (? & ?)); try done; try congruence.
  - (* close *)
    unfold ahead. cbn [crashed set_closer]. rewrite CR. pose proof (l_closer _ _ _ _ L (or_introl C)) as FA.
    pose proof (l_main _ _ _ _ L) as LM. unfold main_ok in LM.
    exists g, ns, b. split.
    2:{ unfold measure. cbn [buffer closer main set_closer]. rewrite C. cbn [cm]. lia. }
    constructor; unfold passed, main_ok, render_ok; cbn [set_closer workers memory group_err cancelled closer main finished buffer outside]; try apply L; try done.
    destruct (main s); try (destruct LM as (? & ? & ?) || destruct LM as (? & ?)); try done; try congruence.
  - (* recv *)
    unfold ahead. cbn [crashed set_main set_buffer]. rewrite CR.
    pose proof (l_main _ _ _ _ L) as LM. unfold main_ok in LM. rewrite M in LM.
    pose proof (l_nodup _ _ _ _ L) as N. pose proof (l_passed _ _ _ _ L) as PJ. pose proof (l_render _ _ _ _ L) as LR.
    pose proof (l_scan _ _ _ _ L) as SC. unfold scan_ok in SC. rewrite M in SC. subst b.
    unfold passed in N, PJ. unfold render_ok in LR. rewrite M, B in N, PJ. rewrite M in LR.
    assert (PI : workers s !! i = Some (WReturned None)).
    { apply PJ. apply elem_of_app. right. by left. }
    destruct (workers_file _ _ _ s i _ L PI) as (ws & n & F & NN & q & RA & V & EN).
    exists g, ns, (pages i). split.
    2:{ unfold measure. cbn [buffer closer main set_main set_buffer]. rewrite M, B. cbn [mm].
        change (i :: rest) with ([i] ++ rest). rewrite waiting_app, waiting_one. lia. }
    constructor; unfold passed, main_ok, render_ok, scan_ok; cbn [set_main set_buffer workers memory group_err cancelled closer main finished buffer outside]; try apply L; try done.
    assert (q = final i) as -> by (unfold final, alone; by rewrite F, RA).
    by apply see_begin.
  - (* recv closed *)
    unfold ahead. cbn [crashed set_main]. rewrite CR.
    pose proof (l_main _ _ _ _ L) as LM. unfold main_ok in LM. rewrite M in LM.
    pose proof (l_nodup _ _ _ _ L) as N. pose proof (l_passed _ _ _ _ L) as PJ. pose proof (l_render _ _ _ _ L) as LR.
    pose proof (l_scan _ _ _ _ L) as SC. unfold scan_ok in SC. rewrite M in SC.
    unfold passed in N, PJ. unfold render_ok in LR. rewrite M in N, PJ. rewrite M in LR.
    exists g, ns, b. split.
    2:{ unfold measure. cbn [buffer closer main set_main]. rewrite M. cbn [mm]. lia. }
    constructor; unfold passed, main_ok, render_ok, scan_ok; cbn [set_main workers memory group_err cancelled closer main finished buffer outside]; try apply L; try done.
    split; [done|]. split; [done|apply LM].
  - (* read *)
    unfold ahead. cbn [crashed set_main]. rewrite CR.
    pose proof (l_main _ _ _ _ L) as LM. unfold main_ok in LM. rewrite M in LM.
    pose proof (l_nodup _ _ _ _ L) as N. pose proof (l_passed _ _ _ _ L) as PJ. pose proof (l_render _ _ _ _ L) as LR.
    pose proof (l_scan _ _ _ _ L) as SC. unfold scan_ok in SC. rewrite M in SC.
    unfold passed in N, PJ. unfold render_ok in LR. rewrite M in N, PJ. rewrite M in LR.
    pose proof (see_tick _ _ _ _ _ _ SC) as SK. rewrite P in SK. destruct SK as (b' & LT & SK).
    exists g, ns, b'. split.
    2:{ unfold measure. cbn [buffer closer main set_main]. rewrite M. cbn [mm]. lia. }
    constructor; unfold passed, main_ok, render_ok, scan_ok; cbn [set_main workers memory group_err cancelled closer main finished buffer outside]; try apply L; try done.
  - (* post *)
    unfold ahead. cbn [crashed set_main set_rendered]. rewrite CR.
    pose proof (l_main _ _ _ _ L) as LM. unfold main_ok in LM. rewrite M in LM.
    pose proof (l_nodup _ _ _ _ L) as N. pose proof (l_passed _ _ _ _ L) as PJ. pose proof (l_render _ _ _ _ L) as LR.
    pose proof (l_scan _ _ _ _ L) as SC. unfold scan_ok in SC. rewrite M in SC.
    unfold passed in N, PJ. unfold render_ok in LR. rewrite M in N, PJ. rewrite M in LR. cbn [current] in *.
    pose proof (see_tick _ _ _ _ _ _ SC) as SK. rewrite Q in SK. destruct SK as [-> LT].
    exists g, ns, 0. split.
    2:{ unfold measure. cbn [buffer closer main set_main set_rendered]. rewrite M. cbn [mm]. lia. }
    constructor; unfold passed, main_ok, render_ok, scan_ok; cbn [set_main set_rendered workers memory group_err cancelled closer main finished buffer outside current app]; try apply L; try done.
    + by rewrite <- app_assoc.
    + intros j. rewrite <- app_assoc. apply PJ.
    + unfold rendered in *. rewrite (render_all_snoc _ _ _ _ LR). unfold post. by rewrite P.
  - (* post error *)
    unfold ahead. cbn [crashed set_main set_rendered]. rewrite CR.
    pose proof (l_main _ _ _ _ L) as LM. unfold main_ok in LM. rewrite M in LM.
    pose proof (l_nodup _ _ _ _ L) as N. pose proof (l_passed _ _ _ _ L) as PJ. pose proof (l_render _ _ _ _ L) as LR.
    pose proof (l_scan _ _ _ _ L) as SC. unfold scan_ok in SC. rewrite M in SC.
    unfold passed in N, PJ. unfold render_ok in LR. rewrite M in N, PJ. rewrite M in LR. cbn [current] in *.
    pose proof (see_tick _ _ _ _ _ _ SC) as SK. rewrite Q in SK. destruct SK as [-> LT].
    exists g, ns, 0. split.
    2:{ unfold measure. cbn [buffer closer main set_main set_rendered]. rewrite M. cbn [mm]. lia. }
    constructor; unfold passed, main_ok, render_ok, scan_ok; cbn [set_main set_rendered workers memory group_err cancelled closer main finished buffer outside current app]; try apply L; try done.
    + by rewrite <- app_assoc.
    + intros j. rewrite <- app_assoc. apply PJ.
    + split; [apply LM|]. split; [apply LM|done].
    + right. unfold rendered in *. rewrite (render_all_snoc _ _ _ _ LR). unfold post. by rewrite P.
  - (* post panic *)
    unfold ahead. cbn [crashed set_crashed].
    pose proof (l_nodup _ _ _ _ L) as N. pose proof (l_render _ _ _ _ L) as LR.
    pose proof (l_scan _ _ _ _ L) as SC. unfold scan_ok in SC. rewrite M in SC.
    unfold passed in N. unfold render_ok in LR. rewrite M in N. rewrite M in LR. cbn [current] in *.
    pose proof (see_tick _ _ _ _ _ _ SC) as SK. rewrite Q in SK. destruct SK as [-> LT].
    apply (live_dead _ _ _ s (memory s) w (finished s ++ [i]) L); try done.
    + exists Panic. split; [|by right]. unfold rendered in *. rewrite (render_all_snoc _ _ _ _ LR). unfold post. by rewrite P.
    + rewrite app_assoc in N. by apply NoDup_app in N as [N _].
    + intros j J. unfold passed. rewrite M. cbn. apply elem_of_app in J as [J|J]; apply elem_of_app; [by left|right].
      apply elem_of_list_singleton in J as ->. by left.
  - (* wait *)
    unfold ahead. cbn [crashed set_main set_cancelled]. rewrite CR.
    pose proof (l_main _ _ _ _ L) as LM. unfold main_ok in LM. rewrite M in LM. destruct LM as (C & B & NW).
    pose proof (l_nodup _ _ _ _ L) as N. pose proof (l_passed _ _ _ _ L) as PJ. pose proof (l_render _ _ _ _ L) as LR.
    pose proof (l_scan _ _ _ _ L) as SC. unfold scan_ok in SC. rewrite M in SC.
    unfold passed in N, PJ. unfold render_ok in LR. rewrite M in N, PJ. rewrite M in LR. cbn [current] in *.
    exists g, ns, b. split.
    2:{ unfold measure. cbn [buffer closer main set_main set_cancelled]. rewrite M. cbn [mm]. lia. }
    constructor; unfold passed, main_ok, render_ok, scan_ok; cbn [set_main set_cancelled workers memory group_err cancelled closer main finished buffer outside current app]; try apply L; try done.
    + intros _. by right.
    + split; [done|]. split; [congruence|done].
    + destruct (group_err s) as [e|] eqn:E; [|done]. left. split; [by apply L|]. done.
Qed.

Lemma step_inv s s' : inv s -> Step s s' -> inv s'.
Proof.
  intros I X. assert (CR : crashed s = false) by (destruct X; assumption).
  unfold inv in I. rewrite CR in I. destruct I as (g & ns & b & L). pose proof (step_ahead _ _ _ _ _ CR L X) as A.
  unfold ahead in A. unfold inv. destruct (crashed s'); [done|]. destruct A as (g' & ns' & b' & L' & _). by exists g', ns', b'.
Qed.
Lemma steps_inv n s s' : inv s -> steps begin tick scan peek emit files n s s' -> inv s'.
Proof. intros I X. induction X; [done|]. apply IHX. by eapply step_inv. Qed.
Lemma start_inv : inv (start files m0 w0).
Proof. destruct start_live as [g L]. unfold inv. cbn [start crashed]. by exists g, budgets, 0. Qed.
Lemma reach_inv n s : steps begin tick scan peek emit files n (start files m0 w0) s -> inv s.
Proof. apply steps_inv, start_inv. Qed.

(** ** Every run is finite *)
Lemma steps_bounded n g ns b s s' : crashed s = false -> live g ns b s -> steps begin tick scan peek emit files n s s' -> n <= measure ns b s.
Proof.
  intros CR L X. revert g ns b CR L. induction X as [s|n s s1 s2 A X IH]; intros g ns b CR L; [lia|].
  pose proof (step_ahead _ _ _ _ _ CR L A) as AH. unfold ahead in AH. destruct (crashed s1) eqn:C1.
  - inversion X as [|k s3 s4 s5 A']; subst; [unfold measure; lia|].
    assert (crashed s1 = false) by (destruct A'; assumption). congruence.
  - destruct AH as (g' & ns' & b' & L' & LT). specialize (IH _ _ _ eq_refl L'). lia.
Qed.
Lemma run_bounded n s : steps begin tick scan peek emit files n (start files m0 w0) s -> n <= sum_of budgets + 8.
Proof.
  intros X. destruct start_live as [g L]. pose proof (steps_bounded n _ _ _ (start files m0 w0) _ eq_refl L X) as H.
  unfold measure in H. cbn [start buffer closer main waiting sum_list_with cm mm] in H. lia.
Qed.

(** ** No deadlock *)
Definition stopped (s : st) : Prop := crashed s = true \/ exists r, main s = MReturn r.

Lemma progress s :
  (forall i q, alone i <> (q, Fuel)) -> (forall i w w', post i (final i) w <> (w', Fuel)) ->
  inv s -> ~ stopped s -> exists s', Step s s'.
Proof.
  intros NF NP I NS.
  destruct (crashed s) eqn:CR; [destruct NS; by left|].
  unfold inv in I. rewrite CR in I. destruct I as (g & ns & b & L).
  destruct (main s) as [k| |i p| |r] eqn:M.
  - pose proof (l_main _ _ _ _ L) as LM. unfold main_ok in LM. rewrite M in LM. destruct LM as (A & _).
    destruct (decide (k = length files)) as [->|NE]; [eexists; by apply step_launched|].
    assert (K : k < length files) by lia. apply lookup_lt_is_Some in K as [ws F]. eexists. by eapply step_launch.
  - (* MRecv *)
    destruct (buffer s) as [|i rest] eqn:B; [|eexists; by eapply step_recv].
    destruct (closer s) eqn:C.
    + pose proof (l_main _ _ _ _ L) as LM. unfold main_ok in LM. rewrite M in LM. destruct LM as (A & _). congruence.
    + (* some worker runs, or all have returned *)
      assert (DEC : Forall returned (workers s) \/ exists i w, workers s !! i = Some w /\ ~ returned w).
      { clear. induction (workers s) as [|w l IH]; [left; constructor|].
        destruct (match w with WReturned _ => true | _ => false end) eqn:E.
        - destruct IH as [IH|(i & x & H & N)]; [left; constructor; [destruct w; try discriminate; exact Logic.I|exact IH]|]. right. exists (S i), x. done.
        - right. exists 0, w. split; [done|]. destruct w; try discriminate; intros []. }
      destruct DEC as [A|(i & w & W & NR)]; [eexists; by apply step_waited|].
      destruct (workers_file _ _ _ s i w L W) as (ws & n & F & N & K).
      destruct w as [|todo c h| |r]; [..|done].
      * pose proof (l_main _ _ _ _ L) as LM. unfold main_ok in LM. rewrite M in LM. destruct LM as (_ & A). destruct (A i W).
      * destruct h as [|p].
        -- cbn in K. destruct K as (pre & q & E & RA & V & TC & EN). destruct todo as [|w todo].
           ++ destruct c; [eexists; by eapply step_drained|eexists; by eapply step_close_stream].
           ++ destruct c; [discriminate (TC eq_refl)|]. eexists. by eapply step_handover.
        -- cbn in K. destruct K as (pre & x & q & nb & E & RA & V & TC & EN).
           destruct (tick p (memory s)) as [m r] eqn:R.
           destruct r as [p'|[[]|e| |]].
           ++ eexists. by eapply step_work.
           ++ eexists. by eapply step_apply.
           ++ eexists. by eapply step_apply_error.
           ++ eexists. by eapply step_apply_panic.
           ++ destruct (mid_tick _ _ _ _ _ _ _ _ V R) as (g' & KE & LT & q' & RR & V').
              destruct (NF i q'). unfold alone. rewrite F, E. eapply run_all_app_fail; eauto.
      * assert (X : 0 < length files) by (apply lookup_lt_Some in F; lia).
        eexists. eapply step_send; eauto. rewrite B. cbn. lia.
    + eexists. by apply step_close.
    + eexists. by apply step_recv_closed.
  - destruct (peek p (memory s)) as [p'|pg] eqn:Q; [eexists; by eapply step_read|].
    destruct (emit i pg (outside s)) as [w r] eqn:P. destruct r as [[]|e| |].
    + eexists. by eapply step_post.
    + eexists. by eapply step_post_error.
    + eexists. by eapply step_post_panic.
    + pose proof (l_scan _ _ _ _ L) as SC. unfold scan_ok in SC. rewrite M in SC.
      pose proof (see_tick _ _ _ _ _ _ SC) as SK. rewrite Q in SK. destruct SK as [-> _]. destruct (NP _ _ _ P).
  - pose proof (l_main _ _ _ _ L) as LM. unfold main_ok in LM. rewrite M in LM. destruct LM as (C & B & _).
    eexists. apply step_wait; [done|done|]. apply (l_closer _ _ _ _ L). by right.
  - destruct NS. right. eauto.
Qed.

(** ** What a run has done when it stops *)
Lemma inv_world s : inv s ->
  NoDup (finished s) /\ (forall i, i ∈ finished s -> exists ws q, files !! i = Some ws /\ run_all run ws m0 = (q, Ok tt)) /\
  exists r, rendered (finished s) = (outside s, r).
Proof.
  unfold inv. destruct (crashed s); [intros (A & B & r & C & _); split; [done|]; split; [done|]; by exists r|].
  intros (g & ns & b & L). split; [by eapply finished_nodup|]. split; [|by eapply render_exists].
  intros i I. apply finished_passed, (l_passed _ _ _ _ L) in I. destruct (workers_file _ _ _ s i _ L I) as (ws & n & F & _ & q & K & _). by exists ws, q.
Qed.

Lemma inv_crash s : inv s -> crashed s = true -> panics \/ rendered (finished s) = (outside s, Panic).
Proof. unfold inv. intros I C. rewrite C in I. destruct I as (_ & _ & r & R & [P|P]); [by left|right]. by rewrite R, P. Qed.
Lemma inv_success s : inv s -> crashed s = false -> main s = MReturn None ->
  Permutation (finished s) (seq 0 (length files)) /\ rendered (finished s) = (outside s, Ok tt) /\
  forall i ws, files !! i = Some ws -> exists q, run_all run ws m0 = (q, Ok tt).
Proof.
  unfold inv. intros L C M. rewrite C in L. destruct L as (g & ns & b & L).
  pose proof (l_main _ _ _ _ L) as LM. unfold main_ok in LM. rewrite M in LM. destruct LM as (_ & _ & LM).
  destruct (LM eq_refl) as (B & GE & FA).
  assert (ALL : forall i ws, files !! i = Some ws -> workers s !! i = Some (WReturned None)).
  { intros i ws F. destruct (l_work _ _ _ _ L i ws F) as (w & n & W & _ & K). rewrite Forall_lookup in FA. specialize (FA i w W).
    destruct w as [| | |[e|]]; try done. destruct (proj1 (l_err _ _ _ _ L)); [by exists i, e|done]. }
  split; [|split].
  - pose proof (l_nodup _ _ _ _ L) as N. pose proof (l_passed _ _ _ _ L) as PJ. unfold passed in N, PJ. rewrite M, B in N, PJ. cbn [current] in N, PJ.
    rewrite !app_nil_r in N. apply NoDup_Permutation; [done| |].
    + apply NoDup_ListNoDup, seq_NoDup.
    + intros i. specialize (PJ i). rewrite !app_nil_r in PJ. rewrite PJ. split.
      * intros H. apply elem_of_list_In, in_seq. apply lookup_lt_Some in H. rewrite (l_len _ _ _ _ L) in H. lia.
      * intros H. apply elem_of_list_In, in_seq in H. assert (X : i < length files) by lia.
        apply lookup_lt_is_Some in X as [ws F]. by eapply ALL.
  - pose proof (l_render _ _ _ _ L) as LR. unfold render_ok in LR. by rewrite M in LR.
  - intros i ws F. destruct (workers_file _ _ _ s i _ L (ALL i ws F)) as (ws' & n & F' & _ & q & K & _). exists q. congruence.
Qed.

Lemma inv_failure s e : inv s -> crashed s = false -> main s = MReturn (Some e) ->
  (genuine e /\ rendered (finished s) = (outside s, Ok tt)) \/ rendered (finished s) = (outside s, Err e).
Proof.
  unfold inv. intros L C M. rewrite C in L. destruct L as (g & ns & b & L). pose proof (l_render _ _ _ _ L) as LR. unfold render_ok in LR. rewrite M in LR.
  destruct LR as [(A & _ & _ & B)|B]; [left|right]; done.
Qed.
End proof.

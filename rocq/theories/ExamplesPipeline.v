(** A concrete two-file run of Execute, driven by an explicit schedule. *)
From Verif Require Import Prelude GoStrings Format Yaml Heap Builder ActionNames Overlay SpecReach SpecSame Finder ProofFinder Queue Paths Render Pipeline
  Fine Execute SpecExecute ProofExecuteProps Examples ExamplesHeap PropsLocal.

(** A schedule: which goroutine acts next.  [Worker i true] prefers giving up
    over sending at the select.  [Finish i]: worker [i] acts until it is done with
    the overlay at hand; [Render]: main acts until the file at hand is written. *)
Inductive move := Main | Closer | Producer (i : nat) | Worker (i : nat) (give_up : bool) | Finish (i : nat) | Render.

Section play.
Context {Mem Work Code Scan Pages World : Type}.
Context (begin : Work -> Code) (tick : Code -> Mem -> Mem * (Code + res unit)).
Context (scan : nat -> Scan) (peek : Scan -> Mem -> Scan + Pages) (emit : nat -> Pages -> World -> World * res unit).
Context (files : list (list Work)).
Local Notation st := (state Mem Work Code Scan World).
Local Notation Step := (step begin tick scan peek emit files).
Local Notation Steps := (steps begin tick scan peek emit files).

Definition all_returned (s : st) : bool := forallb (fun w => match w with WReturned _ => true | _ => false end) (workers s).
Lemma all_returned_spec s : all_returned s = true -> Forall returned (workers s).
Proof.
  unfold all_returned. rewrite forallb_forall, Forall_forall. intros H x X. apply elem_of_list_In in X. specialize (H x X). by destruct x.
Qed.

Definition play_main (s : st) : option st :=
  match main s with
  | MLaunch k =>
      if Nat.eqb k (length files) then Some (set_main MRecv (set_closer CWaiting s))
      else match files !! k with Some work => Some (set_main (MLaunch (S k)) (set_worker k (WRun work false HIdle) s)) | None => None end
  | MRecv =>
      match buffer s with
      | i :: rest => Some (set_main (MPost i (scan i)) (set_buffer rest s))
      | [] => match closer s with CClosed => Some (set_main MWait s) | _ => None end
      end
  | MPost i r =>
      match peek r (memory s) with
      | inl r' => Some (set_main (MPost i r') s)
      | inr p =>
          match emit i p (outside s) with
          | (w, Ok tt) => Some (set_main MRecv (set_rendered w i s))
          | (w, Err e) => Some (set_main (MReturn (Some e)) (set_rendered w i s))
          | _ => None
          end
      end
  | MWait => if all_returned s then Some (set_main (MReturn (group_err s)) (set_cancelled s)) else None
  | MReturn _ => None
  end.
Definition play_worker (i : nat) (give_up : bool) (s : st) : option st :=
  match workers s !! i with
  | Some (WRun todo c (HBusy p)) =>
      match tick p (memory s) with
      | (m, inl p') => Some (set_worker i (WRun todo c (HBusy p')) (set_memory m s))
      | (m, inr (Ok tt)) => Some (set_worker i (WRun todo c HIdle) (set_memory m s))
      | (m, inr (Err e)) => Some (group_fail e (set_worker i (WReturned (Some e)) (set_memory m s)))
      | _ => None
      end
  | Some (WRun [] true HIdle) => Some (set_worker i WSelect s)
  | Some WSelect =>
      if give_up then if cancelled s then Some (group_fail ECanceled (set_worker i (WReturned (Some ECanceled)) s)) else None
      else if Nat.ltb (length (buffer s)) (length files) then Some (set_buffer (buffer s ++ [i]) (set_worker i (WReturned None) s)) else None
  | _ => None
  end.
Definition unless_crashed (f : st -> option st) (s : st) : option st := if crashed s then None else f s.
Fixpoint until (n : nat) (stop : st -> bool) (f : st -> option st) (s : st) : option st :=
  if stop s then Some s else
  match n with O => None | S n => match unless_crashed f s with Some s' => until n stop f s' | None => None end end.
Definition play (m : move) (s : st) : option st :=
  match m with
  | Main => unless_crashed play_main s
  | Closer =>
      unless_crashed (fun s => match closer s with
      | CWaiting => if all_returned s then Some (set_closer CClosing (set_cancelled s)) else None
      | CClosing => Some (set_closer CClosed s)
      | _ => None
      end) s
  | Producer i =>
      unless_crashed (fun s => match workers s !! i with
      | Some (WRun (w :: todo) false HIdle) => Some (set_worker i (WRun todo false (HBusy (begin w))) s)
      | Some (WRun [] false h) => Some (set_worker i (WRun [] true h) s)
      | _ => None
      end) s
  | Worker i give_up => unless_crashed (play_worker i give_up) s
  | Finish i => until 2000 (fun s => match workers s !! i with Some (WRun _ _ (HBusy _)) => false | _ => true end) (play_worker i false) s
  | Render => until 2000 (fun s => match main s with MPost _ _ => false | _ => true end) play_main s
  end.
Lemma play_main_step s s' : crashed s = false -> play_main s = Some s' -> Step s s'.
Proof.
  intros C. unfold play_main. destruct (main s) as [k| |i r| |r] eqn:M.
  - destruct (Nat.eqb_spec k (length files)) as [->|NE]; [intros [= <-]; by constructor|].
    destruct (files !! k) eqn:F; [|discriminate]. intros [= <-]. by eapply step_launch.
  - destruct (buffer s) as [|i rest] eqn:B.
    + destruct (closer s) eqn:K; try discriminate. intros [= <-]. by constructor.
    + intros [= <-]. by constructor.
  - destruct (peek r (memory s)) as [r'|p] eqn:Q; [intros [= <-]; by eapply step_read|].
    destruct (emit i p (outside s)) as [w [[]|e| |]] eqn:P; try discriminate; intros [= <-]; [by eapply step_post|by eapply step_post_error].
  - destruct (all_returned s) eqn:A; [|discriminate]. intros [= <-]. apply all_returned_spec in A. by constructor.
  - discriminate.
Qed.
Lemma play_worker_step i g s s' : crashed s = false -> play_worker i g s = Some s' -> Step s s'.
Proof.
  intros C. unfold play_worker.
  destruct (workers s !! i) as [[|[|x todo] [] [|p]| |]|] eqn:W; try discriminate;
    try (destruct (tick p (memory s)) as [m [p'|[[]|e| |]]] eqn:R; try discriminate; intros [= <-]; [by eapply step_work|by eapply step_apply|by eapply step_apply_error]).
  - intros [= <-]. by constructor.
  - destruct g.
    + destruct (cancelled s) eqn:K; [|discriminate]. intros [= <-]. by constructor.
    + destruct (Nat.ltb_spec (length (buffer s)) (length files)); [|discriminate]. intros [= <-]. by constructor.
Qed.
Lemma unless_steps f s s' : (forall s s', crashed s = false -> f s = Some s' -> Step s s') -> unless_crashed f s = Some s' -> Step s s'.
Proof. intros F. unfold unless_crashed. destruct (crashed s) eqn:C; [discriminate|]. by apply F. Qed.
Lemma until_steps n stop f s s' : (forall s s', crashed s = false -> f s = Some s' -> Step s s') -> until n stop f s = Some s' -> exists k, Steps k s s'.
Proof.
  intros F. revert s. induction n as [|n IH]; intros s; cbn [until]; destruct (stop s); try discriminate; try (intros [= <-]; exists 0; constructor).
  destruct (unless_crashed f s) as [s1|] eqn:G; [|discriminate]. intros U. destruct (IH s1 U) as [k K]. exists (S k). econstructor; [|exact K]. by eapply unless_steps.
Qed.
Lemma steps_trans n s1 s2 : Steps n s1 s2 -> forall k s3, Steps k s2 s3 -> Steps (n + k) s1 s3.
Proof. induction 1 as [s|n s sa sb A _ IH]; intros k s3 X; [exact X|]. econstructor; [exact A|by apply IH]. Qed.
Lemma play_steps m s s' : play m s = Some s' -> exists k, Steps k s s'.
Proof.
  assert (ONE : forall f, (forall s s', crashed s = false -> f s = Some s' -> Step s s') -> unless_crashed f s = Some s' -> exists k, Steps k s s').
  { intros f F G. exists 1. econstructor; [|constructor]. by eapply unless_steps. }
  destruct m as [| |i|i g|i|]; cbn [play].
  - apply ONE, play_main_step.
  - apply ONE. clear ONE s s'. intros s s' C. destruct (closer s) eqn:K; try discriminate.
    + destruct (all_returned s) eqn:A; [|discriminate]. intros [= <-]. apply all_returned_spec in A. by constructor.
    + intros [= <-]. by constructor.
  - apply ONE. clear ONE s s'. intros s s' C. destruct (workers s !! i) as [[|[|w todo] [] [|]| |]|] eqn:W; try discriminate; intros [= <-]; by econstructor.
  - apply ONE, play_worker_step.
  - apply until_steps, play_worker_step.
  - apply until_steps, play_main_step.
Qed.
Fixpoint plays (ms : list move) (s : st) : option st :=
  match ms with [] => Some s | m :: r => match play m s with Some s' => plays r s' | None => None end end.
Lemma plays_steps ms : forall s s', plays ms s = Some s' -> exists n, Steps n s s'.
Proof.
  induction ms as [|m r IH]; intros s s' E; cbn in *; [injection E as <-; exists 0; constructor|].
  destruct (play m s) as [s1|] eqn:P; [|discriminate]. destruct (play_steps _ _ _ P) as [k K]. destruct (IH _ _ E) as [n N].
  exists (k + n). by eapply steps_trans.
Qed.
End play.

(** Two files: the document of ExamplesHeap.v and  {a: b}; overlay 0 merges a
    value everywhere, overlay 1 replaces metadata.name, overlay 2 deletes
    metadata, overlay 3 fails (combine on a mapping). *)
Definition two1 := put_tree (doc (mp [sc "a"; sc "b"])) ex_heap.
Definition two_heap : heap := fst two1.
Definition two_doc : loc := snd two1.
Definition two_os : list overlay :=
  [ ex_overlay AMerge q_root ex_val; ex_overlay AReplace q_name ex_x; ex_overlay ADelete q_metadata ex_x;
    ex_overlay ACombine q_root ex_x ].
Definition file_a : yfile := mkFile [ex_doc] [0; 1] [mkDocument 0 [2]] (lit "a.yaml").
Definition file_b : yfile := mkFile [two_doc] [0] [] (lit "b.yaml").
Definition bad_b : yfile := mkFile [two_doc] [3] [] (lit "b.yaml").

Definition inb (x : loc) (l : list loc) : bool := existsb (Nat.eqb x) l.
Lemma inb_in x l : inb x l = true <-> In x l.
Proof.
  unfold inb. rewrite existsb_exists. split; [|intros; exists x; split; [done|apply Nat.eqb_refl]].
  intros (y & Y & E). apply Nat.eqb_eq in E. by subst.
Qed.
Definition disjointb (l1 l2 : list loc) : bool := forallb (fun x => negb (inb x l2)) l1.
Lemma disjointb_sound f h d e x : complete f h d = true -> complete f h e = true -> disjointb (reach_list f h d) (reach_list f h e) = true ->
  reach h d x -> reach h e x -> False.
Proof.
  intros CD CE D RD RE. apply (reach_in f) in RD; [|done]. apply (reach_in f) in RE; [|done].
  unfold disjointb in D. rewrite forallb_forall in D. specialize (D x RD). apply negb_true_iff, not_true_iff_false in D. apply D. by apply inb_in.
Qed.
Definition closedb (h : heap) : bool :=
  forallb (fun n => (match n_alias n with Some a => Nat.ltb a (length h) | None => true end) &&
                    (match n_content n with Some ls => forallb (fun x => Nat.ltb x (length h)) ls | None => true end)) h.
Lemma closedb_sound h : closedb h = true -> closed h.
Proof.
  unfold closedb. rewrite forallb_forall. intros H x n y X P. assert (I : In n h) by (apply elem_of_list_In; by eapply elem_of_list_lookup_2).
  specialize (H n I). apply andb_true_iff in H as [A B]. destruct P as [P|(ls & P & L)]; rewrite P in *.
  - by apply Nat.ltb_lt.
  - rewrite forallb_forall in B. by apply Nat.ltb_lt, B.
Qed.

Definition roots_of (os : list overlay) : list loc :=
  concat (map (fun o => o_value o :: concat (map (map c_value) (o_docqueries o))) os).
Lemma roots_of_spec os o x : In o os -> overlay_root o x -> In x (roots_of os).
Proof.
  intros O R. unfold roots_of. apply in_concat. eexists. split; [apply in_map, O|]. destruct R as [->|(g & c & G & C & ->)]; [by left|].
  right. apply in_concat. eexists. split; [apply in_map, G|]. by apply in_map.
Qed.
Fixpoint pairwiseb {A} (p : A -> A -> bool) (l : list A) : bool :=
  match l with [] => true | a :: r => forallb (p a) r && pairwiseb p r end.
Lemma pairwiseb_spec {A} (p : A -> A -> bool) l : pairwiseb p l = true -> forall i j a b, i < j -> l !! i = Some a -> l !! j = Some b -> p a b = true.
Proof.
  induction l as [|c l IH]; intros P i j a b L A1 B; [by rewrite lookup_nil in A1|]. cbn in P. apply andb_true_iff in P as [P1 P2].
  destruct j as [|j]; [lia|]. cbn in B. destruct i as [|i]; cbn in A1.
  - injection A1 as <-. rewrite forallb_forall in P1. apply P1, elem_of_list_In. by eapply elem_of_list_lookup_2.
  - apply (IH P2 i j); [lia|done|done].
Qed.
Definition set_upb (files : list yfile) (os : list overlay) (h : heap) : bool :=
  let rl := reach_list 30 h in
  closedb h &&
  forallb (fun f => forallb (fun d => Nat.ltb d (length h) && complete 30 h d) (yf_nodes f)) files &&
  forallb (fun x => Nat.ltb x (length h) && complete 30 h x) (roots_of os) &&
  forallb (fun f => forallb (fun k => Nat.ltb k (length os)) (yf_overlays f) &&
                    forallb (fun e => forallb (fun k => Nat.ltb k (length os)) (d_overlays e)) (yf_documents f)) files &&
  pairwiseb (fun f g => forallb (fun d => forallb (fun e => disjointb (rl d) (rl e)) (yf_nodes g)) (yf_nodes f)) files &&
  forallb (fun f => forallb (fun d => forallb (fun v => disjointb (rl d) (rl v)) (roots_of os)) (yf_nodes f)) files.
Lemma set_upb_sound files os h : set_upb files os h = true -> Forall good_queries os -> set_up files os h.
Proof.
  unfold set_upb. intros H Q. apply andb_true_iff in H as [H VA]. apply andb_true_iff in H as [H PW]. apply andb_true_iff in H as [H OV].
  apply andb_true_iff in H as [H VB]. apply andb_true_iff in H as [CL DB].
  assert (DOC : forall f d, In f files -> In d (yf_nodes f) -> d < length h /\ complete 30 h d = true).
  { intros f d F D. rewrite forallb_forall in DB. specialize (DB f F). rewrite forallb_forall in DB. specialize (DB d D).
    apply andb_true_iff in DB as [A B]. split; [by apply Nat.ltb_lt|done]. }
  assert (VAL : forall o x, In o os -> overlay_root o x -> In x (roots_of os) /\ x < length h /\ complete 30 h x = true).
  { intros o x O R. pose proof (roots_of_spec os o x O R) as I. rewrite forallb_forall in VB. specialize (VB x I).
    apply andb_true_iff in VB as [A B]. split; [done|]. split; [by apply Nat.ltb_lt|done]. }
  constructor.
  - by apply closedb_sound.
  - intros f d F D. by apply (DOC f d).
  - intros o x O R. by apply (VAL o x).
  - done.
  - intros f k F K. rewrite forallb_forall in OV. specialize (OV f F). apply andb_true_iff in OV as [A B]. rewrite !forallb_forall in *.
    destruct K as [K|(e & E & K)]; [by apply Nat.ltb_lt, A|]. specialize (B e E). rewrite forallb_forall in B. by apply Nat.ltb_lt, B.
  - assert (X : forall i j f g d e x, i < j -> files !! i = Some f -> files !! j = Some g ->
      In d (yf_nodes f) -> In e (yf_nodes g) -> reach h d x -> reach h e x -> False).
    { intros i j f g d e x L F G D E RD RE. pose proof (pairwiseb_spec _ _ PW i j f g L F G) as P. cbn beta in P.
      rewrite forallb_forall in P. specialize (P d D). rewrite forallb_forall in P. specialize (P e E).
      assert (FI : In f files) by (apply elem_of_list_In; by eapply elem_of_list_lookup_2).
      assert (GI : In g files) by (apply elem_of_list_In; by eapply elem_of_list_lookup_2).
      by eapply (disjointb_sound 30 h d e x); [apply (DOC f d)|apply (DOC g e)|..]. }
    intros i j f g d e x F G NE D E RD RE. destruct (Nat.lt_total i j) as [L|[->|L]]; [by eapply X|done|by eapply (X j i)].
  - intros f d o v x F D O V RD RV. destruct (VAL o v O V) as (VI & _ & CV). rewrite forallb_forall in VA. specialize (VA f F).
    rewrite forallb_forall in VA. specialize (VA d D). rewrite forallb_forall in VA. specialize (VA v VI).
    by eapply (disjointb_sound 30 h d v x); [apply (DOC f d)|..].
Qed.

Lemma ex_overlay_good a q v : good_finder q -> good_queries (ex_overlay a q v).
Proof. intros G. constructor; [by constructor|discriminate|intros g c []]. Qed.
Lemma two_good : Forall good_queries two_os.
Proof. repeat constructor; try discriminate; try (intros g c []); apply dotted_ok || apply dotted_blind. Qed.
Lemma two_set_up : set_up [file_a; file_b] two_os two_heap.
Proof. apply set_upb_sound; [by vm_compute|apply two_good]. Qed.
Lemma bad_set_up : set_up [file_a; bad_b] two_os two_heap.
Proof. apply set_upb_sound; [by vm_compute|apply two_good]. Qed.

Definition ex_disk : disk := mkDisk (fun _ => true) (fun _ => true) true.
Definition ex_cfg : out_config := mkOut false (lit "out") [] 2.
Definition show (k : nat) (t : tree) : option (list N) := Some (lit "doc " ++ concat (map t_value (concat (map children (children t))))).

(** Main starts both workers and the closer.  In the first schedule the two
    workers' operations on the first overlay, which is the same for both files,
    alternate for a while. *)
Definition turns (n : nat) : list move := concat (repeat [Worker 0 false; Worker 1 false] n).
Definition schedule_ab : list move :=
  [Main; Main; Main] ++
  [Producer 0; Producer 1] ++ turns 12 ++ [Finish 0; Finish 1; Producer 0; Worker 0 false; Producer 1; Worker 1 false; Worker 1 false;
   Main; Main; Worker 0 false; Render; Finish 0; Producer 0; Finish 0; Producer 0; Worker 0 false; Worker 0 false; Closer; Closer; Main; Render; Main; Main].
Definition schedule_ba : list move :=
  [Main; Main; Main] ++
  [Producer 0; Finish 0; Producer 0; Finish 0; Producer 0; Finish 0; Producer 0; Worker 0 false; Worker 0 false;
   Producer 1; Finish 1; Producer 1; Worker 1 false; Worker 1 false; Closer; Main; Render; Closer; Main; Render; Main; Main].
Section played.
Context (files : list yfile) (os : list overlay) (h : heap).
Definition play_all (ms : list move) : option exec_state :=
  plays (begin 20 no_sed []) tick (scan 20 files) peek (emit show ex_disk ex_cfg files) (map (file_work os) files) ms
    (start (map (file_work os) files) (h, os) (mkWorld [] [])).
Lemma play_all_execution ms s : play_all ms = Some s ->
  exists n, execution 20 no_sed [] show ex_disk ex_cfg files os h (mkWorld [] []) n s.
Proof. apply plays_steps. Qed.
End played.
Definition played (files : list yfile) (ms : list move) : option exec_state := play_all files two_os two_heap ms.
Lemma played_execution files ms s : played files ms = Some s ->
  exists n, execution 20 no_sed [] show ex_disk ex_cfg files two_os two_heap (mkWorld [] []) n s.
Proof. apply plays_steps. Qed.

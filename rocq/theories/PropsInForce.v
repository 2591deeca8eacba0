(** C90: which overlays are in force for an input of a run. *)
From stdpp Require Import list_numbers.
From Verif Require Import Prelude GoStrings Format Yaml Heap Overlay SpecMerge SpecHeap SpecReach SpecSame Queue PropsQueue Paths Files SpecFiles Slices SpecSlices Prepare SpecPrepare ProofPrepare
  Render SpecRender SpecOutcome Pipeline Execute SpecExecute PropsDocs Decode SpecDecode Flags Template Whole SpecWhole PropsWhole SpecMeaning PropsMeaning SpecRead PropsRead.

(** The input [q] is mentioned for the first time after [p] is. *)
Definition later (all : list file_entry) (p q : list N) : Prop :=
  exists i j, i < j /\ dedup [] (map e_path all) !! i = Some p /\ dedup [] (map e_path all) !! j = Some q.
(** The overlays an input would get with the own list [own]. *)
Definition with_own (own common : list overlay) (adhoc : option overlay) (all : list file_entry) (p : list N) (j : nat) : list overlay :=
  base.filter (wants o_index (Z.of_nat j)) (common ++ match adhoc with Some o => [o] | None => [] end ++ own) ++
  concat (map d_overlays (base.filter (fun e => d_path e = Z.of_nat j) (concat (map e_documents (entries_for p all))))).

Lemma own_at room (all : list file_entry) p k : dedup [] (map e_path all) !! k = Some p ->
  let owns := map (own_overlays all) (dedup [] (map e_path all)) in
  own_in_force room all p = if Nat.leb (length (own_overlays all p)) room
    then overwritten (own_overlays all p) (List.filter (fun l => Nat.leb (length l) room) (drop (S k) owns)) else own_overlays all p.
Proof.
  intros K owns. unfold own_in_force. destruct (list_find _ (dedup [] (map e_path all))) as [[k' q]|] eqn:L.
  - apply list_find_Some in L as (K' & -> & _). assert (k' = k) as -> by (eapply NoDup_lookup; [apply dedup_NoDup|exact K'|exact K]).
    assert (O : owns !! k = Some (own_overlays all p)) by (unfold owns; by rewrite list_lookup_fmap, K).
    unfold after_sharing. fold owns. rewrite list_lookup_imap, O. done.
  - apply list_find_None in L. rewrite Forall_forall in L. exfalso. apply (L p); [by eapply elem_of_list_lookup_2|done].
Qed.
Lemma not_named room (all : list file_entry) p : ~ In p (map e_path all) -> own_in_force room all p = [] /\ own_overlays all p = [].
Proof.
  intros NI. split.
  - unfold own_in_force. destruct (list_find _ _) as [[k q]|] eqn:L; [|done]. exfalso. apply list_find_Some in L as (K & -> & _). apply NI.
    apply elem_of_list_lookup_2, elem_of_list_In in K. exact (proj1 (dedup_In _ _) K).
  - unfold own_overlays, entries_for. induction all as [|e all IH]; [done|]. cbn [List.filter map] in *. destruct (seq_eqb_spec (e_path e) p) as [E|E].
    + exfalso. apply NI. by left.
    + apply IH. intros H. apply NI. by right.
Qed.
Lemma overwritten_nils {A} (own : list A) l : Forall (fun x => x = []) l -> overwritten own l = own.
Proof.
  intros H. unfold overwritten. assert (X : fold_left overwrite l own = own).
  { clear -H. induction H as [|x l -> H IH]; [done|]. cbn [fold_left]. unfold overwrite at 2. cbn [app length]. by rewrite drop_0. }
  rewrite X. by apply take_ge.
Qed.
Lemma in_drop_map (all : list file_entry) k l : In l (drop k (map (own_overlays all) (dedup [] (map e_path all)))) ->
  exists j q, k <= j /\ dedup [] (map e_path all) !! j = Some q /\ l = own_overlays all q.
Proof.
  intros H. apply elem_of_list_In, elem_of_list_lookup in H as [m H]. rewrite lookup_drop, list_lookup_fmap in H.
  destruct (dedup [] (map e_path all) !! (k + m)) as [q|] eqn:Q; [|done]. injection H as <-. exists (k + m), q. split; [lia|]. done.
Qed.

(** C90.  The overlays in force are those meant, unless the input has overlays of its own that
    fit into the room left and a later input has, too. *)
Theorem C90_meant_unless_overwritten room common adhoc all p j :
  own_overlays all p = [] \/ room < length (own_overlays all p) \/
  (forall q, later all p q -> own_overlays all q = [] \/ room < length (own_overlays all q)) ->
  overlays_for room common adhoc all p j = meant_overlays common adhoc all p j.
Proof.
  intros H. unfold overlays_for, meant_overlays. assert (own_in_force room all p = own_overlays all p) as ->; [|done].
  destruct (in_dec (List.list_eq_dec N.eq_dec) p (map e_path all)) as [I|NI]; [|destruct (not_named room all p NI) as [-> ->]; done].
  apply (proj2 (dedup_In _ _)), elem_of_list_In, elem_of_list_lookup in I as [k K]. rewrite (own_at room all p k K).
  destruct (Nat.leb_spec (length (own_overlays all p)) room) as [L|L]; [|done].
  destruct H as [->|[H|H]]; [unfold overwritten; cbn [length]; by rewrite take_0|lia|].
  apply overwritten_nils. apply Forall_forall. intros l Hl%elem_of_list_In. apply filter_In in Hl as [Hl Hf]. apply in_drop_map in Hl as (m & q & M & Q & ->).
  apply Nat.leb_le in Hf. destruct (H q) as [->|X]; [exists k, m; split; [lia|done]|done|lia].
Qed.
(** In particular if the runtime left no room (as without -q). *)
Theorem C90_meant_without_room grow common adhoc all p j :
  room_left grow common adhoc = 0 \/ adhoc = None ->
  overlays_for (room_left grow common adhoc) common adhoc all p j = meant_overlays common adhoc all p j.
Proof.
  intros H. assert (room_left grow common adhoc = 0) as -> by (destruct H as [?| ->]; done).
  apply C90_meant_unless_overwritten. destruct (own_overlays all p); [by left|]. right. left. cbn [length]. lia.
Qed.
(** A runtime that doubles leaves room for one overlay less than there are common ones: with
    -q, at least two common overlays are needed for anything to go wrong. *)
Theorem C90_room_of_a_doubling_runtime common o : room_left go_grow common (Some o) = length common - 1.
Proof. unfold room_left, go_grow. lia. Qed.
(** In any case as many overlays of its own are in force as were written for it, and each was
    written for it or for a later input. *)
Theorem C90_own_or_of_a_later_input room (all : list file_entry) p :
  length (own_in_force room all p) = length (own_overlays all p) /\
  forall o, In o (own_in_force room all p) -> In o (own_overlays all p) \/ exists q, later all p q /\ In o (own_overlays all q).
Proof.
  destruct (in_dec (List.list_eq_dec N.eq_dec) p (map e_path all)) as [I|NI]; [|destruct (not_named room all p NI) as [-> ->]; by split].
  apply (proj2 (dedup_In _ _)), elem_of_list_In, elem_of_list_lookup in I as [k K]. rewrite (own_at room all p k K).
  destruct (Nat.leb_spec (length (own_overlays all p)) room) as [L|L]; [|by split; [|left]]. unfold overwritten. set (ls := List.filter _ _).
  assert (X : forall ls (acc : list overlay), length acc <= length (fold_left overwrite ls acc) /\
    forall o, In o (fold_left overwrite ls acc) -> In o acc \/ exists l, In l ls /\ In o l).
  { clear. induction ls as [|l ls IH]; intros acc; [split; [done|by left]|]. cbn [fold_left]. destruct (IH (overwrite acc l)) as [I1 I2]. split.
    - etransitivity; [|exact I1]. unfold overwrite. rewrite app_length, drop_length. lia.
    - intros o Ho. destruct (I2 o Ho) as [H|(l' & H1 & H2)]; [|right; exists l'; split; [by right|done]].
      unfold overwrite in H. apply in_app_iff in H as [H|H]; [right; exists l; split; [by left|done]|left].
      rewrite <- (take_drop (length l) acc). apply in_app_iff. by right. }
  destruct (X ls (own_overlays all p)) as [X1 X2]. split; [rewrite take_length; lia|]. intros o Ho.
  destruct (X2 o) as [H|(l & H1 & H2)]; [rewrite <- (take_drop (length (own_overlays all p))); apply in_app_iff; by left|by left|].
  right. apply filter_In in H1 as [H1 _]. apply in_drop_map in H1 as (m & q & M & Q & ->). exists q. split; [|done]. exists k, m. split; [lia|done].
Qed.
(** What goes wrong: if two inputs have equally many overlays of their own, which fit, then the
    first is processed with those of the second (or of the last input like that). *)
Theorem C90_taken_over room (all : list file_entry) p q :
  later all p q -> length (own_overlays all p) = length (own_overlays all q) -> length (own_overlays all q) <= room ->
  (forall r, later all q r -> own_overlays all r = [] \/ room < length (own_overlays all r)) ->
  own_in_force room all p = own_overlays all q.
Proof.
  intros (i & m & IM & I & M) E L H. rewrite (own_at room all p i I). destruct (Nat.leb_spec (length (own_overlays all p)) room) as [_|]; [|lia].
  set (inputs := dedup [] (map e_path all)) in *. set (owns := map (own_overlays all) inputs).
  assert (D : drop (S i) owns = drop (S i) (take m owns) ++ own_overlays all q :: drop (S m) owns).
  { rewrite <- (take_drop_middle owns m (own_overlays all q)) at 1 by (unfold owns; by rewrite list_lookup_fmap, M).
    rewrite drop_app_le; [done|]. rewrite take_length. apply lookup_lt_Some in M. unfold owns. rewrite map_length. lia. }
  rewrite D, List.filter_app. cbn [List.filter]. rewrite (proj2 (Nat.leb_le _ _) L). unfold overwritten. rewrite fold_left_app. cbn [fold_left].
  set (pre := List.filter _ (drop (S i) (take m owns))).
  assert (TL : Forall (fun x : list overlay => x = []) (List.filter (fun l => Nat.leb (length l) room) (drop (S m) owns))).
  { apply Forall_forall. intros l Hl%elem_of_list_In. apply filter_In in Hl as [Hl Hf]. apply in_drop_map in Hl as (m' & r & M' & R & ->).
    apply Nat.leb_le in Hf. destruct (H r) as [->|X]; [exists m, m'; split; [lia|done]|done|lia]. }
  assert (N : forall acc : list overlay, fold_left overwrite (List.filter (fun l => Nat.leb (length l) room) (drop (S m) owns)) acc = acc).
  { induction TL as [|x l -> TL IH]; intros acc; [done|]. cbn [fold_left]. rewrite IH. unfold overwrite. cbn [app length]. by rewrite drop_0. }
  rewrite N. unfold overwrite at 1. rewrite E. apply take_app.
Qed.

(** *** In a run *)
Section runs.
Context {F P : Type} (e : engine F P) (builtin sprig : list N -> option F) (sed : sed_engine).
Context (compile : list N -> option (heap -> loc -> list loc)) (to_int : info -> option Z).
Context (h0 : heap) (z : loc) (s : surroundings).
Local Notation get_ready := (get_ready e builtin sprig sed compile to_int h0 z).
Local Notation instructions_are := (instructions_are e builtin sprig sed compile to_int h0 s).

(** What C87 says of a run, for the overlays [ov p j]. *)
Definition written_with (dflt : list N) enc cfg w0 (cl : command_line) (y : list file_entry) (ov : list N -> nat -> list overlay) (only : list N -> Prop) (w : world) : Prop :=
  exists text, (forall p, In p (map e_path (all_inputs s cl y)) -> only p -> exists ds ts,
       documents s p = Some ds /\ length ts = length ds /\
       (forall j doc t d ro ots, ds !! j = Some (label doc) -> ts !! j = Some t ->
          situated d ro h0 doc (ov p j) ots ->
          all_plainly sed dflt ots (as_processed cl (erase doc)) ->
          t_apply_each sed dflt ots (as_processed cl (erase doc)) = Ok t) /\
       encode_nodes enc (oc_styles cfg) ts = Ok (text p)) /\
     texts_written (all_inputs s cl y) text (oc_stdout cfg) (oc_dir cfg) w0 w.

(** A run without -q, or with one and at most one common overlay (and a runtime that doubles)
    writes every input with the overlays meant for it. *)
Theorem C90_written_as_meant fuel dflt enc dk cfg w0 pfuel grow cl h1 os R n st :
  fresh_nodes s h0 z -> finds_reachable compile -> paths_usable s cl ->
  get_ready pfuel grow s cl = (h1, Ok (os, R)) ->
  execution fuel sed dflt enc dk cfg (map to_file R) os h1 w0 n st -> crashed st = false -> main st = MReturn None ->
  exists i common y adhoc,
    instructions_are cl i /\ instructions_stand_for z i common y /\ flags_say compile h0 z s cl adhoc /\
    (adhoc = None \/ room_left grow common adhoc = 0 ->
     written_with dflt enc cfg w0 cl y (meant_overlays common adhoc (all_inputs s cl y)) (fun _ => True) (outside st)).
Proof.
  intros FN FR PU G E C M.
  destruct (C87_files_hold_the_meaning e builtin sprig sed compile to_int h0 z s fuel dflt enc dk cfg w0 pfuel grow cl h1 os R n st FN FR PU G E C M)
    as (i & common & y & adhoc & HI & HS & HF & text & T & W).
  exists i, common, y, adhoc. split; [done|]. split; [done|]. split; [done|]. intros RM. exists text. split; [|exact W]. intros p Hp _.
  destruct (T p Hp) as (ds & ts & D & L & ME & EN). exists ds, ts. split; [exact D|]. split; [exact L|]. split; [|exact EN].
  intros j doc t d ro ots J Tj SI. rewrite <- (C90_meant_without_room grow) in SI by tauto. exact (ME j doc t d ro ots J Tj SI).
Qed.
(** With room left, an input is written with the overlays of the last one that has as many of
    its own. *)
Theorem C90_written_with_anothers_overlays fuel dflt enc dk cfg w0 pfuel grow cl h1 os R n st :
  fresh_nodes s h0 z -> finds_reachable compile -> paths_usable s cl ->
  get_ready pfuel grow s cl = (h1, Ok (os, R)) ->
  execution fuel sed dflt enc dk cfg (map to_file R) os h1 w0 n st -> crashed st = false -> main st = MReturn None ->
  exists i common y adhoc,
    instructions_are cl i /\ instructions_stand_for z i common y /\ flags_say compile h0 z s cl adhoc /\
    let all := all_inputs s cl y in let room := room_left grow common adhoc in
    forall q, length (own_overlays all q) <= room -> (forall r, later all q r -> own_overlays all r = [] \/ room < length (own_overlays all r)) ->
    written_with dflt enc cfg w0 cl y (with_own (own_overlays all q) common adhoc all)
      (fun p => later all p q /\ length (own_overlays all p) = length (own_overlays all q)) (outside st).
Proof.
  intros FN FR PU G E C M.
  destruct (C87_files_hold_the_meaning e builtin sprig sed compile to_int h0 z s fuel dflt enc dk cfg w0 pfuel grow cl h1 os R n st FN FR PU G E C M)
    as (i & common & y & adhoc & HI & HS & HF & text & T & W).
  exists i, common, y, adhoc. split; [done|]. split; [done|]. split; [done|]. intros all room q Q1 Q2. exists text. split; [|exact W]. intros p Hp [P1 P2].
  destruct (T p Hp) as (ds & ts & D & L & ME & EN). exists ds, ts. split; [exact D|]. split; [exact L|]. split; [|exact EN].
  intros j doc t d ro ots J Tj SI. apply (ME j doc t d ro ots J Tj). unfold overlays_for. fold all room. by rewrite (C90_taken_over room all p q P1 P2 Q1 Q2).
Qed.
End runs.

(** *** A run in which this happens:  -i i.yaml -q '$' -x '{m: n}',  with two common overlays and
    one overlay each for a.yaml and b.yaml. *)
From Verif Require ProofExecuteProps.
From Verif Require Import SpecQuery SpecDelete ProofKeeps Finder ProofFinder Deciders Witness PropsDelete Examples ExamplesHeap ExamplesPipeline PropsLocal.
Definition f_instr : tree := doc (mp
  [sc "commonOverlays"; sq [mp [sc "query"; sc "$"; sc "value"; mp [sc "k"; sc "v"]]; mp [sc "query"; sc "$"; sc "value"; mp [sc "l"; sc "v"]]];
   sc "yamlFiles"; sq
     [mp [sc "path"; sc "a.yaml"; sc "overlays"; sq [mp [sc "query"; sc "$.metadata.name"; sc "value"; sc "x"; sc "action"; sc "replace"]]];
      mp [sc "path"; sc "b.yaml"; sc "overlays"; sq [mp [sc "query"; sc "$.metadata"; sc "action"; sc "delete"]]]]]).
Definition f_put1 := put_tree f_instr two_heap.
Definition f_put2 := put_tree (doc (sc "$")) (fst f_put1).
Definition f_put3 := put_tree (doc (mp [sc "m"; sc "n"])) (fst f_put2).
Definition f_heap : heap := Eval vm_compute in fst f_put3.
Definition f_doc : loc := Eval vm_compute in snd f_put1.
Definition f_q : loc := Eval vm_compute in snd f_put2.
Definition f_x : loc := Eval vm_compute in snd f_put3.
Definition f_s : surroundings := mkSurroundings run_fs (lit "/w") (sr_text w_s) (fun _ => None)
  (fun t => if seq_eqb t (lit "text") then Some (Some f_doc) else if seq_eqb t (lit "$") then Some (Some f_q) else if seq_eqb t (lit "{m: n}") then Some (Some f_x) else if seq_eqb t [] then Some None else None)
  (fun p => if seq_eqb p (lit "/w/a.yaml") then Some [ex_doc] else if seq_eqb p (lit "/w/b.yaml") then Some [two_doc] else None) None.
Definition f_cl : command_line := mkCommandLine (lit "i.yaml") [] None [lit "$"] [] (lit "{m: n}") false.
Definition f_prepared := prepare w_engine (fun _ => None) (fun _ => None) no_sed w_compile w_to_int f_heap ex_zero 10 go_grow f_s f_cl.
Definition f_os : list overlay := match f_prepared with Ok (os, _) => os | _ => [] end.
Definition f_schedule : list move :=
  [Main; Main; Main] ++
  [Producer 0; Finish 0; Producer 0; Finish 0; Producer 0; Finish 0; Producer 0; Finish 0; Producer 0; Worker 0 false; Worker 0 false;
   Producer 1; Finish 1; Producer 1; Finish 1; Producer 1; Finish 1; Producer 1; Finish 1; Producer 1; Worker 1 false; Worker 1 false; Closer; Main; Render; Closer; Main; Render; Main; Main].
Lemma f_docs p ds : documents f_s p = Some ds -> p = lit "/w/a.yaml" /\ ds = [ex_doc] \/ p = lit "/w/b.yaml" /\ ds = [two_doc].
Proof.
  unfold documents. cbn [f_s sr_stdin sr_docs]. destruct (seq_eqb p (lit "-")); [done|]. destruct (seq_eqb_spec p (lit "/w/a.yaml")) as [->|_]; [intros [= <-]; auto|].
  destruct (seq_eqb_spec p (lit "/w/b.yaml")) as [->|_]; [intros [= <-]; auto|done].
Qed.
Lemma f_texts t l : sr_parse f_s t = Some (Some l) -> In l [f_doc; f_q; f_x].
Proof. cbn [f_s sr_parse]. destruct (seq_eqb t (lit "text")); [intros [= <-]; cbn; tauto|]. destruct (seq_eqb t (lit "$")); [intros [= <-]; cbn; tauto|]. destruct (seq_eqb t (lit "{m: n}")); [intros [= <-]; cbn; tauto|]. by destruct (seq_eqb t []). Qed.
Lemma f_apart a b x : In a [ex_doc; two_doc] -> In b [ex_doc; two_doc; f_doc; f_q; f_x] -> a <> b -> reach f_heap a x -> reach f_heap b x -> False.
Proof.
  assert (C : forall a, In a [ex_doc; two_doc; f_doc; f_q; f_x] -> complete 30 f_heap a = true) by (intros y H; cbn [In] in H; repeat destruct H as [<-|H]; try done; by vm_compute).
  intros A B NE. apply (disjointb_sound 30 f_heap a b x); [apply C; cbn [In] in *; tauto|by apply C|].
  cbn [In] in A, B. destruct A as [<-|[<-|[]]]; repeat destruct B as [<-|B]; try done; by vm_compute.
Qed.
Lemma f_fresh : fresh_nodes f_s f_heap ex_zero.
Proof.
  assert (DI : forall p ds d, documents f_s p = Some ds -> In d ds -> In d [ex_doc; two_doc]) by (intros p ds d [[_ ->]|[_ ->]]%f_docs [<-|[]]; cbn; tauto).
  assert (NE : ex_doc <> two_doc) by (by vm_compute). constructor.
  - apply closedb_sound. by vm_compute.
  - eexists. split; [by vm_compute|]. intros x [X|(ls & X & _)]; discriminate X.
  - intros p ds d [[_ ->]|[_ ->]]%f_docs [<-|[]]; apply Nat.ltb_lt; by vm_compute.
  - intros t l H%f_texts. apply Nat.ltb_lt. cbn [In] in H. repeat destruct H as [<-|H]; try done; by vm_compute.
  - intros p q ds es d e x P Q PQ D E RD RE. pose proof (DI _ _ _ P D) as D'. pose proof (DI _ _ _ Q E) as E'. apply (f_apart d e x); try done; [cbn [In] in *; tauto|].
    apply f_docs in P as [[-> ->]|[-> ->]]; apply f_docs in Q as [[-> ->]|[-> ->]]; try done; destruct D as [<-|[]]; destruct E as [<-|[]]; auto.
  - intros p ds i j d e x [[_ ->]|[_ ->]]%f_docs I J N; destruct i as [|i], j as [|j]; cbn in I, J; try done; rewrite ?lookup_nil in *; done.
  - intros p ds d t l x P D T%f_texts RD RL. pose proof (DI _ _ _ P D) as D'. apply (f_apart d l x); try done; [cbn [In] in *; tauto|].
    intros ->. cbn [In] in D', T. destruct D' as [D'|[D'|[]]]; rewrite <- D' in T; vm_compute in T; intuition discriminate.
  - intros p ds d P D R. assert (X : ~ In ex_zero (reach_list 30 f_heap d)).
    { apply f_docs in P as [[_ ->]|[_ ->]]; destruct D as [<-|[]]; vm_compute; intuition discriminate. }
    apply X, reach_in; [|done]. apply f_docs in P as [[_ ->]|[_ ->]]; destruct D as [<-|[]]; by vm_compute.
Qed.
Example C90_applies : exists R n st i common y o,
  fresh_nodes f_s f_heap ex_zero /\ finds_reachable w_compile /\ paths_usable f_s f_cl /\
  get_ready w_engine (fun _ => None) (fun _ => None) no_sed w_compile w_to_int f_heap ex_zero 10 go_grow f_s f_cl = (f_heap, Ok (f_os, R)) /\
  execution 20 no_sed [] show ex_disk ex_cfg (map to_file R) f_os f_heap (mkWorld [] []) n st /\ crashed st = false /\ main st = MReturn None /\
  (* metadata is not there, although it was to be deleted from b.yaml only *)
  file_content (outside st) (lit "out/a.yaml") = Some (lit "---" ++ [10%N] ++ lit "doc apiVersionv1portskvlvmn") /\
  instructions_are w_engine (fun _ => None) (fun _ => None) no_sed w_compile w_to_int f_heap f_s f_cl i /\ instructions_stand_for ex_zero i common y /\
  flags_say w_compile f_heap ex_zero f_s f_cl (Some o) /\
  let all := all_inputs f_s f_cl y in
  map e_path all = [lit "/w/a.yaml"; lit "/w/b.yaml"] /\ later all (lit "/w/a.yaml") (lit "/w/b.yaml") /\
  length (own_overlays all (lit "/w/a.yaml")) = 1 /\ length (own_overlays all (lit "/w/b.yaml")) = 1 /\ room_left go_grow common (Some o) = 1 /\
  map o_action (meant_overlays common (Some o) all (lit "/w/a.yaml") 0) = [ActionNames.AInvalid; ActionNames.AInvalid; ActionNames.AInvalid; ActionNames.AReplace] /\
  map o_action (overlays_for 1 common (Some o) all (lit "/w/a.yaml") 0) = [ActionNames.AInvalid; ActionNames.AInvalid; ActionNames.AInvalid; ActionNames.ADelete].
Proof.
  assert (exists R, f_prepared = Ok (f_os, R)) as [R HR].
  { unfold f_os. destruct f_prepared as [[os R]| | |] eqn:E; [by exists R|by vm_compute in E..]. }
  assert (HF : map to_file R = [mkFile [ex_doc] [0; 1; 4; 3] [] (lit "a.yaml"); mkFile [two_doc] [0; 1; 4; 3] [] (lit "b.yaml")]).
  { vm_compute in HR. injection HR as <-. by vm_compute. }
  destruct (play_all (map to_file R) f_os f_heap f_schedule) as [st|] eqn:EP; [|rewrite HF in EP; by vm_compute in EP].
  destruct (play_all_execution _ _ _ _ _ EP) as [n X1].
  destruct (read_instructions_file w_engine (fun _ => None) (fun _ => None) no_sed w_compile w_to_int f_heap f_s f_cl) as [i| | |] eqn:EI; [|by vm_compute in EI..].
  pose proof (instructions_read _ _ _ _ _ _ _ _ _ _ EI) as HI.
  destruct (plain_instructions ex_zero i) as [[common y]|] eqn:EY; [|vm_compute in EI; injection EI as <-; by vm_compute in EY].
  destruct (read_flags w_compile f_heap (parse_flag f_heap f_s) (cl_queries f_cl) (cl_actions f_cl) (cl_value f_cl)) as [[fl|]| | |] eqn:E; try (by vm_compute in E).
  destruct (plain_flags ex_zero fl) as [o|] eqn:EO; [|vm_compute in E; injection E as <-; by vm_compute in EO].
  exists R, n, st, i, common, y, o. split; [exact f_fresh|]. split; [apply r_finds|]. split; [split; [done|]; split; [intros d ps p Hw; discriminate Hw|done]|].
  split; [unfold get_ready; fold f_prepared; rewrite HR; reflexivity|]. split; [exact X1|]. clear X1.
  assert (RR : crashed st = false /\ main st = MReturn None /\ file_content (outside st) (lit "out/a.yaml") = Some (lit "---" ++ [10%N] ++ lit "doc apiVersionv1portskvlvmn")).
  { rewrite HF in EP. vm_compute in EP. injection EP as <-. vm_compute. split_and!; done. }
  destruct RR as (R1 & R2 & R3). split; [exact R1|]. split; [exact R2|]. split; [exact R3|]. clear R1 R2 R3 EP st.
  split; [exact HI|]. split; [by apply plain_stands_for|]. split; [eapply flags_read; [exact E|]; by split|]. clear HI.
  vm_compute in EI. injection EI as <-. vm_compute in EY. injection EY as <- <-. vm_compute in E. injection E as <-. vm_compute in EO. injection EO as <-.
  split; [by vm_compute|]. split; [exists 0, 1; split; [exact Nat.lt_0_1|]; split; vm_compute; reflexivity|]. split; [vm_compute; reflexivity|]. split; [vm_compute; reflexivity|].
  split; [vm_compute; reflexivity|]. split; vm_compute; reflexivity.
Qed.

Print Assumptions C90_meant_unless_overwritten.
Print Assumptions C90_meant_without_room.
Print Assumptions C90_room_of_a_doubling_runtime.
Print Assumptions C90_own_or_of_a_later_input.
Print Assumptions C90_taken_over.
Print Assumptions C90_written_as_meant.
Print Assumptions C90_written_with_anothers_overlays.

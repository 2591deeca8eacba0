(** C88: what a successful run leaves behind. *)
From stdpp Require Import list_numbers.
From Coq Require Import Permutation.
From Verif Require Import Prelude GoStrings Paths SpecPaths PropsPaths Files SpecFiles Prepare SpecPrepare ProofPrepare Render SpecRender SpecOutcome.

Section outcome.
Context {Ov Dc Nd : Type} (all : list (entry Ov Dc Nd)).

Lemma place_input p o : place_of all p o -> In p (map e_path all).
Proof. intros (k & H & _). apply dedup_In. apply elem_of_list_In. by eapply elem_of_list_lookup_2. Qed.
Lemma place_unique p o o' : place_of all p o -> place_of all p o' -> o = o'.
Proof.
  intros (k & H & E) (k' & H' & E'). assert (k = k') as <- by (eapply (NoDup_lookup (dedup [] (map e_path all))); [apply dedup_NoDup|done|done]). congruence.
Qed.
Lemma place_exists p : In p (map e_path all) -> exists o, place_of all p o.
Proof.
  intros H%dedup_In%elem_of_list_In. apply elem_of_list_lookup in H as [k H]. unfold place_of.
  set (l := map _ (dedup [] (map e_path all))). assert (L : length (set_output_paths l) = length (dedup [] (map e_path all))).
  { unfold set_output_paths. rewrite map_length. unfold l. by rewrite map_length. }
  destruct (set_output_paths l !! k) as [o|] eqn:E; [by exists o, k|]. apply lookup_ge_None in E. apply lookup_lt_Some in H. lia.
Qed.
(** C88.  Every input has exactly one place. *)
Theorem C88_one_place p : (In p (map e_path all) <-> exists o, place_of all p o) /\ forall o o', place_of all p o -> place_of all p o' -> o = o'.
Proof. split; [|by apply place_unique]. split; [apply place_exists|]. intros [o H]. by eapply place_input. Qed.

(** It is the output path given last for the input, if that looks like a file; the file of
    the same name in it, if it does not. *)
Theorem C88_place_given p o g : place_of all p o -> g = last_nonempty (map e_output (entries_for p all)) -> g <> [] ->
  (looks_like_file g -> o = g) /\
  forall b, ~ looks_like_file g -> last_element b p -> o = descend (clean g) [b].
Proof.
  intros (k & H & E) -> N. set (g := last_nonempty _) in *. set (l := map _ (dedup [] (map e_path all))) in E.
  assert (L : l !! k = Some (p, g)) by (unfold l; by rewrite list_lookup_fmap, H). split.
  - intros F. pose proof (C68_output_file_as_given l k p g L F). congruence.
  - intros b F B. pose proof (C68_output_directory l k p g b L N F B). congruence.
Qed.
Lemma named_inputs_are f x : In x (named (map (fun q => (q, f q)) (dedup [] (map e_path all)))) <-> In x (map e_path all) /\ x <> lit "-".
Proof.
  unfold named. rewrite map_map, map_id, filter_In, dedup_In. destruct (seq_eqb_spec x (lit "-")) as [->|N]; cbn [negb]; split; intros [? ?]; done.
Qed.
Lemma named_NoDup f : NoDup (named (map (fun q => (q, f q)) (dedup [] (map e_path all)))).
Proof. unfold named. rewrite map_map, map_id. apply NoDup_ListNoDup, List.NoDup_filter, NoDup_ListNoDup, dedup_NoDup. Qed.
(** Two inputs without an output path have different places, if all inputs (but standard
    input) are absolute paths in normal form and none is a directory above another. *)
Theorem C88_places_differ dir p q o o' :
  let input x := In x (map e_path all) /\ x <> lit "-" in
  let free x := input x /\ last_nonempty (map e_output (entries_for x all)) = [] in
  (forall x, input x -> abs_file x) -> (forall x y, input x -> input y -> ~ below x y) ->
  free p -> free q -> p <> q -> place_of all p o -> place_of all q o' -> output_file dir o <> output_file dir o'.
Proof.
  intros input free HA HB [[Ip Np] Fp] [[Iq Nq] Fq] PQ (k & Hk & Ek) (k' & Hk' & Ek').
  set (g := fun q => last_nonempty (map e_output (entries_for q all))) in *. set (files := map _ (dedup [] (map e_path all))) in Ek, Ek'.
  eapply (C36_distinct_files files dir k k' p q o o'); try done.
  - apply Forall_forall. intros x X%elem_of_list_In. apply HA. by apply (named_inputs_are g) in X.
  - split; [apply (named_NoDup g)|]. intros x y X Y. apply HB; by apply (named_inputs_are g).
  - intros (b & B & _). assert (P1 : In p (named files)) by (by apply (named_inputs_are g)). assert (Q1 : In q (named files)) by (by apply (named_inputs_are g)).
    rewrite B in P1, Q1. destruct P1 as [<-|[]]. destruct Q1 as [<-|[]]. done.
  - unfold files. rewrite list_lookup_fmap, Hk. cbn. by rewrite Fp.
  - unfold files. rewrite list_lookup_fmap, Hk'. cbn. by rewrite Fq.
Qed.
(** ... and such a place is inside the output directory. *)
Theorem C88_place_inside dir p o :
  let input x := In x (map e_path all) /\ x <> lit "-" in
  (forall x, input x -> abs_file x) -> (forall x y, input x -> input y -> ~ below x y) ->
  (forall b, p = slash :: b -> In slash b) ->
  input p -> last_nonempty (map e_output (entries_for p all)) = [] -> place_of all p o -> inside dir (output_file dir o).
Proof.
  intros input HA HB HR [Ip Np] Fp (k & Hk & Ek).
  set (g := fun q => last_nonempty (map e_output (entries_for q all))) in *. set (files := map _ (dedup [] (map e_path all))) in Ek.
  eapply (C37_inside_output_directory files dir k p o); try done.
  - apply Forall_forall. intros x X%elem_of_list_In. apply HA. by apply (named_inputs_are g) in X.
  - split; [apply (named_NoDup g)|]. intros x y X Y. apply HB; by apply (named_inputs_are g).
  - intros (b & B & S). assert (P1 : In p (named files)) by (by apply (named_inputs_are g)). rewrite B in P1. destruct P1 as [<-|[]]. apply S. by apply HR.
  - unfold files. rewrite list_lookup_fmap, Hk. cbn. by rewrite Fp.
Qed.

(** *** What is written *)
Context (text : list N -> list N) (dir : list N).
Lemma content_cons w name x y : file_content (mkWorld (w_stdout w) ((x, y) :: w_files w)) name = if seq_eqb x name then Some y else file_content w name.
Proof. unfold file_content. cbn [w_files List.find fst snd]. by destruct (seq_eqb x name). Qed.
Lemma content_with w place t name : file_content (with_text false dir w place t) name =
  match t with [] => file_content w name | _ => if seq_eqb (output_file dir place) name then Some t else file_content w name end.
Proof. destruct t as [|c r]; [done|]. cbn [with_text]. unfold file_content. cbn [w_files List.find fst snd]. by destruct (seq_eqb _ name). Qed.
Lemma contents order places w0 name : Forall2 (place_of all) order places ->
  let w := with_texts false dir w0 (zip places (map text order)) in
  (exists p, In p order /\ goes_to all text dir name p /\ file_content w name = Some (text p)) \/
  (forall p, In p order -> ~ goes_to all text dir name p) /\ file_content w name = file_content w0 name.
Proof.
  intros H. revert w0. induction H as [|p o order places PO H IH]; intros w0; cbn [map zip zip_with with_texts]; [by right|].
  destruct (IH (with_text false dir w0 o (text p))) as [(q & Q1 & Q2 & Q3)|[N E]].
  - left. exists q. by split; [right|].
  - cbv zeta in E. rewrite E, content_with. destruct (text p) as [|c r] eqn:T.
    + right. split; [|done]. intros q [<-|Q]; [|by apply N]. intros (o' & _ & X & _). done.
    + destruct (seq_eqb_spec (output_file dir o) name) as [EQ|NE].
      * left. exists p. split; [by left|]. split; [|by rewrite T]. exists o. by rewrite T.
      * right. split; [|done]. intros q [<-|Q]; [|by apply N]. intros (o' & P' & _ & X). by rewrite (place_unique p o' o) in X.
Qed.
(** C88.  With output to files: a file that is the place of no input with a text is as it was;
    any other holds the whole text of an input whose place it is - of the input, if there is
    only one. *)
Theorem C88_files w0 w name : texts_written all text false dir w0 w ->
  ((forall p, ~ goes_to all text dir name p) -> file_content w name = file_content w0 name) /\
  ((exists p, goes_to all text dir name p) -> exists p, goes_to all text dir name p /\ file_content w name = Some (text p)) /\
  (forall p, goes_to all text dir name p -> (forall q, goes_to all text dir name q -> q = p) -> file_content w name = Some (text p)).
Proof.
  intros (order & places & PE & F2 & ->). pose proof (contents order places w0 name F2) as C. cbv zeta in C.
  assert (IN : forall p, goes_to all text dir name p -> In p order).
  { intros p (o & PO & _). eapply Permutation_in; [by symmetry|]. apply dedup_In. by eapply place_input. }
  split_and!.
  - intros N. destruct C as [(p & _ & G & _)|[_ E]]; [by destruct (N p)|done].
  - intros [p G]. destruct C as [(q & _ & G' & E)|[N _]]; [by exists q|]. exfalso. by apply (N p); [apply IN|].
  - intros p G U. destruct C as [(q & _ & G' & E)|[N _]]; [by rewrite <- (U q G')|]. exfalso. by apply (N p); [apply IN|].
Qed.
Definition nonempty (l : list (list N)) : list (list N) := List.filter (fun t => negb (seq_eqb t [])) l.
(** With output to standard output: the texts of the inputs, each once and whole, in some
    order; no file changes.  With output to files, the names of the files are printed. *)
Theorem C88_standard_output stdout w0 w : texts_written all text stdout dir w0 w ->
  (stdout = true -> w_files w = w_files w0) /\
  exists order, Permutation order (dedup [] (map e_path all)) /\
    (stdout = true -> w_stdout w = w_stdout w0 ++ nonempty (map text order)) /\
    (stdout = false -> exists names, w_stdout w = w_stdout w0 ++ map (fun n => n ++ lit "
") names /\
       Forall2 (fun p n => exists o, place_of all p o /\ n = output_file dir o) (List.filter (fun p => negb (seq_eqb (text p) [])) order) names).
Proof.
  intros (order & places & PE & F2 & ->). split.
  - intros ->. clear PE. revert w0. induction F2 as [|p o order places PO F IH]; intros w0; [done|]. cbn [map zip zip_with with_texts].
    etrans; [apply IH|]. by destruct (text p).
  - exists order. split; [done|]. clear PE. split.
    + intros ->. revert w0. induction F2 as [|p o order places PO F IH]; intros w0; cbn [map zip zip_with with_texts nonempty List.filter]; [by rewrite app_nil_r|].
      rewrite IH. destruct (text p) as [|c r]; [done|]. cbn [seq_eqb negb with_text w_stdout]. by rewrite <- app_assoc.
    + intros ->. revert w0. induction F2 as [|p o order places PO F IH]; intros w0; cbn [map zip zip_with with_texts List.filter].
      { exists []. by rewrite app_nil_r. }
      destruct (IH (with_text false dir w0 o (text p))) as (names & E & N). destruct (text p) as [|c r] eqn:T.
      * exists names. by split.
      * exists (output_file dir o :: names). cbn [seq_eqb negb]. split; [|constructor; [by exists o|done]]. rewrite E. cbn [with_text w_stdout map]. by rewrite <- app_assoc.
Qed.
End outcome.

(** Two inputs, one with an output path: the texts go to different files. *)
Definition o_all : list (entry nat nat nat) :=
  [mkEntry _ _ _ [] [] [] [] (lit "/w/d/a.yaml") []; mkEntry _ _ _ [] [] [] [] (lit "/w/b.yaml") (lit "sub"); mkEntry _ _ _ [] [] [] [] (lit "/w/d/a.yaml") []].
Definition o_text (p : list N) : list N := if seq_eqb p (lit "/w/d/a.yaml") then lit "A" else lit "B".
Example C88_example : exists w, texts_written o_all o_text false (lit "out") (mkWorld [] [(lit "out/x", lit "X")]) w /\
  file_content w (lit "out/d/a.yaml") = Some (lit "A") /\ file_content w (lit "out/sub/b.yaml") = Some (lit "B") /\ file_content w (lit "out/x") = Some (lit "X") /\
  goes_to o_all o_text (lit "out") (lit "out/d/a.yaml") (lit "/w/d/a.yaml") /\ (forall q, goes_to o_all o_text (lit "out") (lit "out/d/a.yaml") q -> q = lit "/w/d/a.yaml").
Proof.
  assert (PA : place_of o_all (lit "/w/d/a.yaml") (lit "d/a.yaml")) by (exists 0; split; by vm_compute).
  assert (PB : place_of o_all (lit "/w/b.yaml") (lit "sub/b.yaml")) by (exists 1; split; by vm_compute).
  eexists. split; [exists [lit "/w/b.yaml"; lit "/w/d/a.yaml"], [lit "sub/b.yaml"; lit "d/a.yaml"]; split; [|split; [by repeat constructor|reflexivity]]|].
  - change (dedup [] (map e_path o_all)) with [lit "/w/d/a.yaml"; lit "/w/b.yaml"]. apply perm_swap.
  - split; [by vm_compute|]. split; [by vm_compute|]. split; [by vm_compute|]. split.
    + exists (lit "d/a.yaml"). split; [done|]. by split; vm_compute.
    + intros q (o & Q & _ & E). pose proof (place_input _ _ _ Q) as I. cbn [o_all map e_path In] in I. destruct I as [<-|[<-|[<-|[]]]]; try done.
      rewrite (place_unique _ _ _ _ Q PB) in E. vm_compute in E. discriminate E.
Qed.

Print Assumptions C88_one_place.
Print Assumptions C88_place_given.
Print Assumptions C88_places_differ.
Print Assumptions C88_place_inside.
Print Assumptions C88_files.
Print Assumptions C88_standard_output.

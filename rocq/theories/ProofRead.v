(** Where the nodes and queries of the overlays come from. *)
From Verif Require Import Prelude GoStrings Format Yaml Heap ActionNames Overlay SpecReach SpecSame Queue PropsQueue Paths SpecPaths ProofPaths Files SpecFiles Slices SpecSlices Prepare SpecPrepare ProofPrepare PropsPrepare
  Pipeline SpecPipeline Execute SpecExecute SpecDocs PropsDocs Decode SpecDecode PropsDecode Flags Template Whole SpecWhole ProofUncomment ProofWhole PropsWhole.
From Verif Require Import SpecRead.
From Verif Require ProofDecode.

Section decoded.
Context (h : heap) (compile : list N -> option (heap -> loc -> list loc)) (to_int : info -> option Z).

Lemma node_of_reach l n : node_of h l n -> exists a, reach h l a /\ h !! a = Some n.
Proof.
  intros (n0 & E & [[_ ->]|(_ & a & A & E')]); [by exists l; split; [constructor|]|]. exists a. split; [|done].
  eapply reach_step; [constructor|exact E|by left].
Qed.
Lemma element_reach l n x : node_of h l n -> In x (SpecDecode.elements n) -> reach h l x.
Proof.
  intros (a & R & E)%node_of_reach I. eapply reach_step; [exact R|exact E|]. right. unfold SpecDecode.elements in I.
  destruct (n_content n) as [ls|]; [by exists ls|done].
Qed.
Lemma list_reach l ls x : is_list h l ls -> In x ls -> reach h l x.
Proof. intros (n & [N _] & <-). by apply element_reach. Qed.
Lemma key_reach l k v : has_key h l k v -> reach h l v.
Proof.
  intros (i & kl & (n & [N _] & _ & V) & _). eapply element_reach; [exact N|]. apply elem_of_list_In. by eapply elem_of_list_lookup_2.
Qed.
Lemma field_reach {A} (P : loc -> A -> Prop) zero l k a : field h P zero l k a -> a = zero \/ exists v, reach h l v /\ P v a.
Proof. intros [(v & K & [[_ ->]|[_ H]])|[_ ->]]; auto. right. exists v. split; [by eapply key_reach|done]. Qed.
Lemma optional_reach {A} (P : loc -> A -> Prop) l k a : optional h P l k (Some a) -> exists v, reach h l v /\ P v a.
Proof. intros [H|(v & R & b & [= <-] & H)]%field_reach; [done|eauto]. Qed.
Lemma pointers_reach {A} (P : loc -> A -> Prop) l xs a : pointers_to h P l xs -> In (Some a) xs -> exists v, reach h l v /\ P v a.
Proof.
  intros (ls & L & F) I. apply elem_of_list_In, elem_of_list_lookup in I as [i I]. destruct (Forall2_lookup_r _ _ _ _ _ F I) as (v & V & [[_ ?]|(_ & b & [= <-] & H)]); [done|].
  exists v. split; [|done]. eapply list_reach; [exact L|]. apply elem_of_list_In. by eapply elem_of_list_lookup_2.
Qed.
Lemma fpointers_reach {A} (P : loc -> A -> Prop) l k xs a : field h (pointers_to h P) [] l k xs -> In (Some a) xs -> exists v, reach h l v /\ P v a.
Proof.
  intros [->|(v & R & H)]%field_reach I; [done|]. destruct (pointers_reach _ _ _ _ H I) as (w & W & Q). exists w. split; [by eapply reach_trans'|done].
Qed.
Lemma listed_in {A} (P : loc -> A -> Prop) ls xs a : listed h P ls xs -> In a xs -> exists v, In v ls /\ P v a.
Proof.
  induction 1 as [|l ls xs _ H IH|l ls x xs _ Q H IH]; [done| |].
  - intros I. destruct (IH I) as (v & V & W). exists v. split; [by right|done].
  - intros [<-|I]; [exists l; split; [by left|done]|]. destruct (IH I) as (v & V & W). exists v. split; [by right|done].
Qed.
Lemma value_reach fields l k a v : record_like h fields l -> In k fields -> (forall v, has_key h l k v -> a = Some v) -> ((forall v, ~ has_key h l k v) -> a = None) ->
  a = Some v -> reach h l v.
Proof.
  intros R K H1 H2 ->. destruct (ProofDecode.d_struct_spec h fields l) as (_ & _ & X & Y). apply X in R as [tbl T]. specialize (Y tbl T).
  destruct (ProofDecode.values_for_cases h fields l tbl k Y K) as [[_ N]|(w & _ & W)].
  - by specialize (H2 N).
  - assert (has_key h l k w) as HW by (by apply W). pose proof (H1 w HW) as E. injection E as ->. by eapply key_reach.
Qed.

(** A query that was compiled. *)
Definition compiled (q : query) : Prop := compile (q_text q) = Some (q_find q).
Lemma queries_compiled l qs : means_queries h compile l qs -> Forall compiled qs.
Proof.
  intros [(q & [_ C] & ->)|(ls & _ & L)]; [by repeat constructor|]. apply Forall_forall. intros q Q%elem_of_list_In.
  destruct (listed_in _ _ _ _ L Q) as (v & _ & _ & C). done.
Qed.

(** What an overlay decoded from below [l] refers to. *)
Record raw_written (l : loc) (o : raw_overlay) : Prop := mkRawWritten {
  rw_value : forall v, ro_value o = Some v -> reach h l v;
  rw_query : forall qs, ro_query o = Some qs -> Forall compiled qs;
  rw_inject : forall qs, ro_inject o = Some qs -> Forall compiled qs;
  rw_condition : forall cs c, In (Some cs) (ro_docqueries o) -> In (Some c) cs -> Forall compiled (rc_query c) /\ forall v, rc_value c = Some v -> reach h l v }.
Lemma raw_written_up l l' o : reach h l l' -> raw_written l' o -> raw_written l o.
Proof.
  intros R [H1 H2 H3 H4]. constructor; try done.
  - intros v V. eapply reach_trans'; [exact R|auto].
  - intros cs c I C. destruct (H4 cs c I C) as [X Y]. split; [done|]. intros v V. eapply reach_trans'; [exact R|auto].
Qed.
Lemma overlay_written l o : means_overlay h compile to_int l o -> raw_written l o.
Proof.
  intros (R & _ & Q & V1 & V2 & D & M & _). constructor.
  - intros v V. eapply (value_reach _ l "value" (ro_value o)); try done. vm_compute; tauto.
  - intros qs E. rewrite E in Q. apply optional_reach in Q as (v & _ & Q). by eapply queries_compiled.
  - intros qs E. apply field_reach in M as [[= _ M]|(v & _ & _ & _ & M)]; [congruence|]. cbn [snd] in M. rewrite E in M.
    apply optional_reach in M as (w & _ & M). by eapply queries_compiled.
  - intros cs c I C. destruct (fpointers_reach _ _ _ _ _ D I) as (w & W & _ & DQ). destruct (fpointers_reach _ _ _ _ _ DQ C) as (u & U & RC & CQ & C1 & C2). split.
    + apply field_reach in CQ as [->|(x & _ & CQ)]; [constructor|by eapply queries_compiled].
    + intros v V. eapply reach_trans'; [exact W|]. eapply reach_trans'; [exact U|]. eapply (value_reach _ u "value" (rc_value c)); try done. vm_compute; tauto.
Qed.

(** All overlays of an instructions file. *)
Inductive overlay_in (i : raw_overlays * list (option raw_entry)) (o : raw_overlay) : Prop :=
  | in_common : In (Some o) (fst i) -> overlay_in i o
  | in_file e : In (Some e) (snd i) -> In (Some o) (e_overlays e) -> overlay_in i o
  | in_document e d : In (Some e) (snd i) -> In (Some d) (e_documents e) -> In (Some o) (d_overlays d) -> overlay_in i o.
Lemma instructions_written c i o : means_instructions h compile to_int c i -> overlay_in i o -> raw_written c o.
Proof.
  intros [[_ ->]|(_ & C & FS)] [O|e E O|e d E D O]; try done.
  - destruct (fpointers_reach _ _ _ _ _ C O) as (v & V & M). eapply raw_written_up; [exact V|by apply overlay_written].
  - destruct (fpointers_reach _ _ _ _ _ FS E) as (v & V & _ & _ & MO & _). destruct (fpointers_reach _ _ _ _ _ MO O) as (w & W & M).
    eapply raw_written_up; [exact V|]. eapply raw_written_up; [exact W|by apply overlay_written].
  - destruct (fpointers_reach _ _ _ _ _ FS E) as (v & V & _ & _ & _ & MD & _). destruct (fpointers_reach _ _ _ _ _ MD D) as (w & W & _ & _ & _ & MO).
    destruct (fpointers_reach _ _ _ _ _ MO O) as (x & X & M).
    eapply raw_written_up; [exact V|]. eapply raw_written_up; [exact W|]. eapply raw_written_up; [exact X|by apply overlay_written].
Qed.
End decoded.

Section read.
Context {F P : Type} (e : engine F P) (builtin sprig : list N -> option F) (sed : sed_engine).
Context (compile : list N -> option (heap -> loc -> list loc)) (to_int : info -> option Z).
Context (h0 : heap) (z : loc) (s : surroundings).

(** A node below the document node of a text. *)
Definition in_text (v : loc) : Prop :=
  exists t d n c, sr_parse s t = Some (Some d) /\ h0 !! d = Some n /\ points_to n c /\ reach h0 c v.
Record written (o : overlay) : Prop := mkWritten {
  wr_queries : Forall (compiled compile) (o_queries o);
  wr_inject : forall ip, o_inject o = Some ip -> Forall (compiled compile) ip;
  wr_conditions : forall g c, In g (o_docqueries o) -> In c g -> Forall (compiled compile) (c_queries c);
  wr_values : forall v, overlay_root o v -> v = z \/ in_text v }.

Lemma no_nil_in {A B} (R : A -> B -> Prop) l l' b : no_nil R l l' -> In b l' -> exists a, In (Some a) l /\ R a b.
Proof.
  intros N I. apply elem_of_list_In, elem_of_list_lookup in I as [k K]. destruct (Forall2_lookup_r _ _ _ _ _ N K) as (x & X & a & -> & R1).
  exists a. split; [|done]. apply elem_of_list_In. by eapply elem_of_list_lookup_2.
Qed.
Lemma is_written c o o' : (forall v, reach h0 c v -> in_text v) -> raw_written h0 compile c o -> overlay_is z o o' -> written o'.
Proof.
  intros T [H1 H2 H3 H4] [I1 I2 I3 I4 I5 I6 I7].
  assert (HC : forall g c0, In g (o_docqueries o') -> In c0 g -> exists cs c1, In (Some cs) (ro_docqueries o) /\ In (Some c1) cs /\ condition_is z c1 c0).
  { intros g c0 G C. destruct (no_nil_in _ _ _ _ I4 G) as (cs & CS & N). destruct (no_nil_in _ _ _ _ N C) as (c1 & C1 & CI). by exists cs, c1. }
  constructor.
  - destruct (ro_query o) as [qs|]; rewrite I1; [by apply H2|constructor].
  - intros ip. rewrite I6. apply H3.
  - intros g c0 G C. destruct (HC g c0 G C) as (cs & c1 & A & B & (-> & _)). by destruct (H4 cs c1 A B).
  - intros v [->|(g & c0 & G & C & ->)].
    + unfold value_is in I2. destruct (ro_value o) as [x|]; [|by left]. subst. right. auto.
    + destruct (HC g c0 G C) as (cs & c1 & A & B & (_ & V)). destruct (H4 cs c1 A B) as [_ X]. unfold value_is in V. destruct (rc_value c1) as [x|]; [|by left]. subst. right. auto.
Qed.
Lemma all_written cl i common y : instructions_are e builtin sprig sed compile to_int h0 s cl i -> instructions_stand_for z i common y ->
  Forall written (common ++ concat (map entry_overlays y)).
Proof.
  intros HI [SC SY].
  assert (W : forall o o', overlay_in i o -> overlay_is z o o' -> written o').
  { intros o o' O IS. unfold instructions_are in HI. destruct (cl_instructions cl) as [|x p]; [subst i; by destruct O|].
    destruct HI as (text & d & c & _ & Pa & (n & rest & HD & _ & HC) & M). eapply is_written; [|by eapply instructions_written|exact IS].
    intros v V. exists text, d, n, c. split; [done|]. split; [done|]. split; [|done]. right. exists (c :: rest). split; [done|by left]. }
  apply Forall_forall. intros o' O. apply elem_of_list_In, in_app_or in O as [O|O].
  - destruct (no_nil_in _ _ _ _ SC O) as (o & I & IS). eapply W; [by apply in_common|done].
  - apply in_concat in O as (l & L & O). apply in_map_iff in L as (en & <- & E). destruct (no_nil_in _ _ _ _ SY E) as (ra & RA & EI). destruct EI as [_ _ _ _ EO ED].
    unfold entry_overlays in O. apply in_app_or in O as [O|O].
    + destruct (no_nil_in _ _ _ _ EO O) as (o & I & IS). eapply W; [by eapply in_file|done].
    + apply in_concat in O as (l & L & O). apply in_map_iff in L as (dn & <- & D). destruct (no_nil_in _ _ _ _ ED D) as (rd & RD & _ & DO).
      destruct (no_nil_in _ _ _ _ DO O) as (o & I & IS). eapply W; [by eapply in_document|done].
Qed.
Lemma flags_written cl o : flags_say compile h0 z s cl (Some o) -> written o.
Proof.
  intros (_ & Q & _ & V & D & _ & I & _). constructor.
  - apply Forall_forall. intros q X. apply elem_of_list_lookup in X as [k X]. destruct (Forall2_lookup_r _ _ _ _ _ Q X) as (t & _ & c & _ & _ & C). done.
  - rewrite I. done.
  - rewrite D. done.
  - intros v [->|(g & c & G & _)]; [|by rewrite D in G]. destruct V as [(d & n & rest & Pa & H & C)|[_ ->]]; [|by left]. right.
    exists (cl_value cl), d, n, (o_value o). split; [done|]. split; [done|]. split; [|constructor]. right. exists (o_value o :: rest). split; [done|by left].
Qed.

Lemma join_abs a b : is_abs a = true -> is_abs (path_join [a; b]) = true.
Proof.
  intros A. unfold path_join. cbn [List.filter]. destruct (seq_eqb_spec a []) as [->|NE]; [done|]. cbn [negb].
  apply clean_abs. destruct (seq_eqb b []); cbn [negb join_with]; [done|]. by destruct a.
Qed.
Lemma resolve_abs base p : is_abs base = true -> resolve base p <> lit "-".
Proof.
  intros A E. assert (X : is_abs (resolve base p) = true) by (unfold resolve; destruct (is_abs p) eqn:B; [done|by apply join_abs]). rewrite E in X. done.
Qed.

(** What comes out of the preparation. *)
Lemma prepared_parts pfuel grow cl os R : prepare e builtin sprig sed compile to_int h0 z pfuel grow s cl = Ok (os, R) -> paths_usable s cl ->
  Forall written os /\ NoDup (map e_path R) /\ (forall en, In en R -> documents s (e_path en) = Some (e_nodes en)) /\
  forall en k, In en R -> In k (e_overlays en) \/ (exists d, In d (e_documents en) /\ In k (d_overlays d)) -> k < length os.
Proof.
  intros HP (CWD & Hwalk & DP). unfold prepare in HP.
  apply ProofDecode.rbind_Ok in HP as (fl & Hfl & HP). apply ProofDecode.rbind_Ok in HP as (i & Hi & HP).
  pose proof (instructions_read _ _ _ _ _ _ _ s cl i Hi) as HI.
  destruct (plain_instructions z i) as [[common y]|] eqn:Hpl; [|done].
  set (ad := match fl with None => Some None | Some f => match plain_flags z f with Some o => Some (Some o) | None => None end end) in HP.
  destruct ad as [adhoc|] eqn:Had; [|done]. apply ProofDecode.rbind_Ok in HP as (R' & HR & [= <- <-]).
  assert (FS : flags_say compile h0 z s cl adhoc).
  { eapply flags_read; [exact Hfl|]. subst ad. destruct fl as [f|]; [|by injection Had as <-]. destruct (plain_flags z f) as [o|]; [|done]. by injection Had as <-. }
  pose proof (plain_stands_for _ _ _ _ Hpl) as SF.
  set (nn := length common + length (concat (map entry_overlays y))) in *.
  set (os := common ++ concat (map entry_overlays y) ++ match adhoc with Some o => [o] | None => [] end) in *.
  set (w := mkInputs _ _ _ _ _) in HR. set (op := mkOptions _ _ _) in HR.
  set (base := match cl_instructions cl with [] => [] | p => path_dir (path_abs (sr_cwd s) p) end) in *.
  split.
  { unfold os. rewrite app_assoc. apply Forall_app. split; [by eapply all_written|]. destruct adhoc as [o|]; [|constructor]. constructor; [|constructor]. by eapply flags_written. }
  assert (DASH : forall p, p = lit "-" \/ resolve base p <> lit "-" \/ (cl_instructions cl = [])).
  { intros p. unfold base. destruct (cl_instructions cl) as [|x q] eqn:CI; [auto|]. right. left. apply resolve_abs, path_dir_abs.
    unfold path_abs. destruct (is_abs (x :: q)) eqn:IA; [by apply clean_abs|by apply join_abs]. }
  assert (REL : Forall2 (erel os) (number_entries (length common) y) y) by (by eapply (entries_rel os y common)).
  set (yn := match cl_instructions cl with [] => [] | _ => number_entries (length common) y end).
  set (cn := match cl_instructions cl with [] => [] | _ => seq 0 (length common) end).
  assert (SAY : instructions_say w op = Some (cn, yn)).
  { unfold instructions_say, cn, yn. cbn [op op_instructions w in_decode]. by destruct (cl_instructions cl). }
  assert (RELN : Forall2 (erel os) yn y /\ Forall2 (nrel os) cn common).
  { unfold yn, cn. unfold instructions_are in HI. destruct (cl_instructions cl).
    - subst i. injection Hpl as <- <-. by split.
    - split; [done|]. by eapply (nrel_seq os [] common). }
  destruct RELN as [REL' CR'].
  assert (BASE : base_of w op = base) by (unfold base_of, base; cbn [op op_instructions w in_cwd]; by destruct (cl_instructions cl)).
  assert (USE : usable w op).
  { split; [by rewrite BASE|]. intros common' y' Hs. rewrite SAY in Hs. injection Hs as <- <-. rewrite BASE. apply Forall_app. split.
    - unfold yn. destruct (cl_instructions cl) as [|x q] eqn:CI; [constructor|]. apply Forall_forall. intros en _. unfold dash_is_stdin.
      destruct (DASH (e_path en)) as [?|[?|?]]; auto; done.
    - unfold path_option. cbn [op op_path]. destruct (cl_path cl) as [|x q] eqn:Hq; [constructor|]. apply Forall_cons. split; [|constructor].
      unfold dash_is_stdin. cbn [e_path]. destruct (DASH (x :: q)) as [?|[?|CI]]; auto. unfold base. rewrite CI. by apply DP. }
  assert (NODES : Forall (fun e => e_nodes e = []) y).
  { rewrite Forall_forall. intros x Hx%elem_of_list_In. destruct SF as [_ SY]. destruct (no_nil_in _ _ _ _ SY Hx) as (a & Ha & EI). rewrite (ei_nodes _ _ _ EI).
    unfold instructions_are in HI. destruct (cl_instructions cl); [by subst i|]. destruct HI as (_ & _ & c & _ & _ & _ & Hm). by eapply file_without_nodes. }
  assert (OPT : Forall2 (erel os) (path_option op) (match cl_path cl with [] => [] | p => [mkEntry _ _ _ (lit "StdIn") [] [] [] p (if seq_eqb p (lit "-") then lit "stdin.yaml" else [])] end)).
  { unfold path_option. cbn [op op_path]. destruct (cl_path cl); repeat constructor. }
  assert (INP : Forall2 (erel os) (named_inputs w op yn) (all_inputs s cl y)).
  { unfold named_inputs, all_inputs. rewrite BASE. cbn [w in_fs]. apply Forall2_app; by apply expanded_rel. }
  assert (NN : forall en, In en (named_inputs w op yn) -> e_nodes en = []).
  { assert (ND : forall d l, Forall (fun x => e_nodes x = []) l -> forall en, In en (@expanded nat (document nat) loc (in_fs w) d l) -> e_nodes en = []).
    { intros d l FL en I. assert (FL' : Forall (fun x => e_nodes x = []) (map (located d) l)).
      { apply Forall_map. eapply Forall_impl; [exact FL|]. intros x X. cbn. unfold located. by destruct (seq_eqb _ _). }
      rewrite Forall_forall in FL'. unfold expanded in I. apply in_app_or in I as [I|I].
      - apply filter_In in I as [I _]. apply FL'. by apply elem_of_list_In.
      - apply in_concat in I as (l1 & L1 & I). apply in_map_iff in L1 as (x & <- & X). unfold files_of in I. destruct (fs_walk _ _); [|done].
        apply in_map_iff in I as (p & <- & _). done. }
    intros en I. unfold named_inputs in I. apply in_app_or in I as [I|I].
    - eapply ND; [|exact I]. clear -REL' NODES. induction REL' as [|a b l l' (_ & _ & _ & Hn & _) F' IH]; [constructor|]. apply Forall_cons in NODES as [Hb Hy]. constructor; [congruence|by apply IH].
    - eapply ND; [|exact I]. unfold path_option. destruct (op_path op); repeat constructor. }
  assert (IN : forall en, In en (named_inputs w op yn) -> exists en', erel os en en').
  { intros en I. apply elem_of_list_In, elem_of_list_lookup in I as [k K]. destruct (Forall2_lookup_l _ _ _ _ _ INP K) as (en' & _ & X). eauto. }
  destruct (C56_inputs_loaded_once pfuel grow w op R' USE HR) as (common' & y' & Hs & _ & Hin & ND & Hc).
  rewrite SAY in Hs. injection Hs as <- <-. split; [done|]. split.
  { intros en He. destruct (Hc en He) as (f & r & ds & EF & Hds & N & _). unfold documents_in in Hds. cbn [w in_stdin in_read] in Hds. unfold documents. rewrite Hds, N.
    rewrite NN; [done|]. assert (X : In f (entries_for (e_path en) (named_inputs w op yn))) by (rewrite EF; by left). unfold entries_for in X. by apply filter_In in X as [X _]. }
  intros en k He Hk. destruct Hk as [Hk|(d & D & Hk)].
  - destruct (C57_exact_overlays pfuel grow w op R' USE HR) as (common' & y' & Hs & X). rewrite SAY in Hs. injection Hs as <- <-.
    assert (I : In (e_overlays en) (map e_overlays R')) by (by apply in_map). rewrite X in I. apply in_map_iff in I as (own & E & I). rewrite <- E in Hk. apply in_app_or in Hk as [Hk|Hk].
    + unfold common_overlays in Hk. cbn [op op_overlay] in Hk. apply in_app_or in Hk as [Hk|Hk].
      * apply elem_of_list_In, elem_of_list_lookup in Hk as [j J]. destruct (Forall2_lookup_l _ _ _ _ _ CR' J) as (o & _ & O). by eapply lookup_lt_Some.
      * destruct adhoc as [o|]; [|done]. destruct Hk as [<-|[]]. unfold os. rewrite !app_length. cbn. unfold nn. lia.
    + assert (O : forall p j, In j (own_overlays (named_inputs w op yn) p) -> j < length os).
      { intros p j J. unfold own_overlays in J. apply in_concat in J as (l & L & J). apply in_map_iff in L as (x & <- & L). unfold entries_for in L. apply filter_In in L as [L _].
        destruct (IN x L) as (x' & _ & OV & _). apply elem_of_list_In, elem_of_list_lookup in J as [m M]. destruct (Forall2_lookup_l _ _ _ _ _ OV M) as (o & _ & Q). by eapply lookup_lt_Some. }
      assert (S : forall own0, In own0 (after_sharing (spare_room grow cn op) (map (own_overlays (named_inputs w op yn)) (map e_path R'))) -> forall j, In j own0 -> j < length os).
      { set (owns := map _ _). assert (OW : forall l, In l owns -> forall j, In j l -> j < length os).
        { intros l L j J. apply in_map_iff in L as (p & <- & _). by eapply O. }
        clearbody owns. clear -OW. intros own0 I. unfold after_sharing in I. apply elem_of_list_In, elem_of_lookup_imap in I as (m & own & -> & M).
        assert (IO : In own owns) by (apply elem_of_list_In; by eapply elem_of_list_lookup_2). destruct (Nat.leb _ _); [|by apply OW].
        set (later := List.filter _ _). assert (LA : forall l, In l later -> In l owns).
        { intros l L. apply filter_In in L as [L _]. apply elem_of_list_In, elem_of_list_lookup in L as [q Q]. rewrite lookup_drop in Q. apply elem_of_list_In. by eapply elem_of_list_lookup_2. }
        clearbody later. intros j J. unfold overwritten in J.
        assert (G : forall later own, (forall j, In j own -> j < length os) -> (forall l, In l later -> In l owns) -> forall j, In j (fold_left overwrite later own) -> j < length os).
        { clear -OW. induction later as [|l later IH]; intros own Z LA; [done|]. cbn [fold_left]. apply IH; [|intros; apply LA; by right].
          intros j J. unfold overwrite in J. apply in_app_or in J as [J|J]; [apply (OW l); [apply LA; by left|done]|].
          apply elem_of_list_In, elem_of_list_lookup in J as [q Q]. rewrite lookup_drop in Q. apply Z, elem_of_list_In. by eapply elem_of_list_lookup_2. }
        eapply (G later own); [by apply OW|done|]. apply elem_of_list_In. apply elem_of_list_In in J. eapply elem_of_take in J as (q & Q & _). by eapply elem_of_list_lookup_2. }
      by eapply S.
  - destruct (Hc en He) as (f & r & ds & EF & _ & _ & ED). rewrite ED in D. apply in_concat in D as (l & L & D). apply in_map_iff in L as (x & <- & L).
    assert (X : In x (entries_for (e_path en) (named_inputs w op yn))) by (rewrite EF; done). unfold entries_for in X. apply filter_In in X as [X _].
    destruct (IN x X) as (x' & _ & _ & DO & _). apply elem_of_list_In, elem_of_list_lookup in D as [m M]. destruct (Forall2_lookup_l _ _ _ _ _ DO M) as (d' & _ & _ & DR).
    apply elem_of_list_In, elem_of_list_lookup in Hk as [q Q]. destruct (Forall2_lookup_l _ _ _ _ _ DR Q) as (o & _ & OO). by eapply lookup_lt_Some.
Qed.
End read.

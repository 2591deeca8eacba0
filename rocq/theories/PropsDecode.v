(** C61-C65: the format of the instructions file and of the command line overlay. *)
From Verif Require Import Prelude GoStrings Yaml Heap ActionNames SpecActions Overlay Queue Paths Files SpecFiles
  Decode SpecDecode ProofDecode ProofAlike Flags DecideAlike HeapActions Examples ExamplesHeap.

Section theorems.
Context (compile : list N -> option (heap -> loc -> list loc)) (to_int : info -> option Z).
Implicit Types (h : heap) (i : raw_overlays * list (option raw_entry)).
Notation decode := (decode_instructions compile to_int).

(** The document node [l] with content [c] holds the instructions. *)
Definition holds_document h (l c : loc) : Prop :=
  exists n rest, h !! l = Some n /\ i_kind (n_info n) = KDocument /\ n_content n = Some (c :: rest).

Lemma decode_means h l c i : holds_document h l c -> (decode h (Some l) = Ok i <-> means_instructions h compile to_int c i).
Proof.
  intros (n & rest & Hl & Hk & Hc). unfold decode_instructions. rewrite Hl, Hk, Hc. destruct (d_instructions_spec h compile to_int c) as (S1 & N1 & P1).
  rewrite rbind_Ok. unfold means_instructions. split.
  - intros ([x|] & Hx & [= <-]); [right; by apply P1 in Hx as [_ ?]|left; split; [by apply N1|done]].
  - intros [[Hn ->]|Hm]; [exists None; split; [by apply N1|done]|]. exists (Some i). split; [|done]. apply P1. split; [|done]. by eapply record_not_null, Hm.
Qed.

(** C61.  Decoding accepts exactly the documents of the format and gives what they mean;
    every other document is refused with an error.  It never crashes. *)
Theorem C61_accepts_exactly_the_format h l c : holds_document h l c ->
  (forall i, decode h (Some l) = Ok i <-> means_instructions h compile to_int c i) /\
  ((forall i, ~ means_instructions h compile to_int c i) -> exists e, decode h (Some l) = Err e).
Proof.
  intros Hd. split; [intros i; by apply decode_means|]. intros Hno.
  assert (Hs : settles (decode h (Some l))).
  { pose proof Hd as (n & rest & Hl & Hk & Hc). unfold decode_instructions. rewrite Hl, Hk, Hc.
    destruct (d_instructions_spec h compile to_int c) as (S1 & _ & _). apply settles_bind; [done|]. intros; apply settles_ok. }
  destruct (decode h (Some l)) as [i|e| |] eqn:E; [|by exists e|by destruct Hs..]. exfalso. apply (Hno i). by eapply decode_means.
Qed.
(** A document means at most one thing. *)
Theorem C61_unambiguous h l c i i' : holds_document h l c ->
  means_instructions h compile to_int c i -> means_instructions h compile to_int c i' -> i = i'.
Proof. intros Hd H1 H2. apply (decode_means h l c i Hd) in H1. apply (decode_means h l c i' Hd) in H2. congruence. Qed.

(** C62.  One wrong action name or one malformed query, in any overlay of any list (a query
    also under onMissing or in a documentQuery), and the whole file is refused. *)
Theorem C62_wrong_action_refused h l c o v : holds_document h l c -> overlay_at h c o -> has_key h o "action" v -> ~ is_null h v ->
  (forall s w, is_text h v s -> In w ["merge"; "replace"; "delete"; "combine"]%string -> ~ spells s w) ->
  exists e, decode h (Some l) = Err e.
Proof.
  intros Hd Ho Hv Hn Hbad. apply (C61_accepts_exactly_the_format h l c Hd). intros i Hi.
  destruct (overlay_at_means h compile to_int c i o Hi Ho) as [Hno|(r & Hr)].
  - by destruct (has_key_not_null _ _ _ _ Hv).
  - destruct (action_of_spelled h compile to_int o r v Hr Hv Hn) as (s & w & Hs & Hw & Hsp). by eapply Hbad.
Qed.
Theorem C62_malformed_query_refused h l c o s : holds_document h l c -> overlay_at h c o -> query_of h o s -> compile s = None ->
  exists e, decode h (Some l) = Err e.
Proof.
  intros Hd Ho Hq Hc. apply (C61_accepts_exactly_the_format h l c Hd). intros i Hi.
  destruct (overlay_at_means h compile to_int c i o Hi Ho) as [Hno|(r & Hr)].
  - exfalso. destruct Hq as [v s Hv _|m v s Hv _ _|v d w cc x s Hv _ _ _ _ _]; by eapply has_key_not_null in Hv.
  - by eapply query_of_compiles.
Qed.

(** C63.  Only what is said in the fields matters: not the order of keys, not other
    keys, not comments, styles and positions, not whether an alias is used, not
    whether a single query stands alone or in a list of one.  (Overlay values are the
    same nodes.) *)
Theorem C63_ways_of_writing h l c l' c' i : holds_document h l c -> holds_document h l' c' -> alike h to_int x_instructions c c' ->
  decode h (Some l) = Ok i <-> decode h (Some l') = Ok i.
Proof.
  intros H1 H2 Ha. rewrite (decode_means h l c i H1), (decode_means h l' c' i H2). unfold means_instructions.
  destruct (respects_instructions h compile to_int c c' Ha) as [Hn HP]. specialize (HP i). tauto.
Qed.
(** The same for one overlay. *)
Theorem C63_one_overlay h l l' : alike h to_int x_overlay l l' ->
  forall o, d_overlay compile to_int h l = Ok (Some o) <-> d_overlay compile to_int h l' = Ok (Some o).
Proof.
  intros Ha o. destruct (d_overlay_spec h compile to_int l) as (_ & _ & P1). destruct (d_overlay_spec h compile to_int l') as (_ & _ & P2).
  destruct (respects_overlay h compile to_int l l' Ha) as [Hn HP]. rewrite P1, P2, HP. tauto.
Qed.
(** A lone query and a list of one query. *)
Theorem C63_single_query h l x s : is_text h x s -> is_list h l [x] -> d_queries compile h l = d_queries compile h x.
Proof.
  intros Hx Hl. destruct (d_queries_spec h compile l) as (Sl & Nl & Pl). destruct (d_queries_spec h compile x) as (Sx & Nx & Px).
  pose proof (queries_one h compile x l s Hx Hl) as Q. pose proof (text_not_null h x s Hx) as Nn. pose proof (list_not_null h l [x] Hl) as Nn'.
  unfold d_queries in *. assert (sight_of h l = SList [x]) as Hsl by (by apply sight_list). rewrite Hsl in *.
  destruct Hx as (i & Hi & Hv). assert (sight_of h x = SText i) as Hsx by (by apply sight_text). rewrite Hsx in *.
  unfold d_list. rewrite Hsl. cbn [d_elements]. unfold d_query, d_string. rewrite Hsx. cbn [rbind]. by destruct (compile (i_value i)).
Qed.

(** C64.  An overlay from the command line is the common overlay with the same queries,
    action and value written in the instructions file (except for the name, used in
    messages only, and except that an action that is omitted stays omitted; C48). *)
Theorem C64_flags_as_common_overlay h parse l o qs acts value q ls :
  means_overlay h compile to_int l o ->
  has_key h l "query" q -> is_list h q ls -> Forall2 (fun s c => parse s = Some (Some c) /\ ~ is_null h c) qs ls -> qs <> [] ->
  (acts = [] /\ (forall v, ~ has_key h l "action" v) \/
   exists s v, acts = [s] /\ parse s = Some (Some v) /\ ~ is_null h v /\ has_key h l "action" v) ->
  (parse value = Some None /\ (forall v, ~ has_key h l "value" v) \/ exists v, parse value = Some (Some v) /\ has_key h l "value" v) ->
  (forall k v, In k ["documentQuery"; "onMissing"; "documentIndex"]%string -> ~ has_key h l k v) ->
  exists found a, read_flags compile h parse qs acts value = Ok (Some (mkFlagOverlay (map Some found) (ro_value o) a)) /\
    ro_query o = Some found /\ (ro_action o = a \/ a = AInvalid /\ ro_action o = AMerge) /\
    ro_docqueries o = [] /\ ro_missing o = MDefault /\ ro_inject o = None /\ ro_index o = None.
Proof.
  intros (Hr & (name & a & _ & Ha & _ & Ea) & Hq & Hv1 & Hv2 & Hd & Hm & Hx) Hqk Hls F Hne Hact Hval Hno.
  destruct (field_at _ _ _ _ _ _ _ _ Hr Hq Hqk ltac:(simpl; tauto)) as [Hn|(_ & found & Eq & Hfound)]; [by destruct (list_not_null _ _ _ Hls)|].
  destruct Hfound as [(q' & [(i & Hi & _) _] & _)|(ls' & Hl' & HL)]; [exfalso; by eapply scalar_not_list|].
  rewrite (list_fun _ _ _ _ Hl' Hls) in HL. clear ls' Hl'.
  assert (SQ : set_queries compile h parse qs = Ok (map Some found) /\ length found = length qs).
  { clear -F HL. revert found HL. induction F as [|s c qs ls [Hp Hn] F IH]; intros found HL.
    - by inversion HL.
    - inversion HL as [|? ? ? Hnull _|? ? qq xs _ Hm HL']; subst; [done|]. destruct (IH xs HL') as [E1 E2]. simpl. rewrite E2. split; [|done].
      unfold set_query. rewrite Hp. destruct (d_query_spec h compile c) as (_ & _ & P). rewrite (proj2 (P qq)) by done. cbn [rbind]. by rewrite E1. }
  destruct SQ as [SQ HLen].
  assert (SA : set_actions h parse AInvalid acts = Ok a).
  { destruct Hact as [[-> Hna]|(s & v & -> & Hp & Hn & Hk)].
    - destruct Ha as [(v & Hk & _)|[_ ->]]; [by apply Hna in Hk|done].
    - destruct (field_at _ _ _ _ _ _ _ _ Hr Ha Hk ltac:(simpl; tauto)) as [?|[_ Hma]]; [done|]. cbn [set_actions]. rewrite Hp.
      destruct (d_action_spec h compile v) as (_ & _ & P). rewrite (proj2 (P a)) by done. done. }
  assert (SV : parse value = Some (ro_value o)).
  { destruct Hval as [[Hp Hnv]|(v & Hp & Hk)]; rewrite Hp; [by rewrite Hv2|by rewrite (Hv1 v Hk)]. }
  exists found, a. split_and!.
  - unfold read_flags. rewrite SQ. cbn [rbind]. rewrite SA. cbn [rbind]. rewrite SV. destruct found as [|x found]; [|done]. destruct qs; [done|discriminate HLen].
  - done.
  - rewrite Ea. destruct name; [by left|]. destruct a; auto.
  - destruct Hd as [(v & Hk & _)|[_ ?]]; [|done]. exfalso. eapply (Hno "documentQuery"%string v); [simpl; tauto|done].
  - destruct Hm as [(v & Hk & _)|[_ ?]]; [|congruence]. exfalso. eapply (Hno "onMissing"%string v); [simpl; tauto|done].
  - destruct Hm as [(v & Hk & _)|[_ ?]]; [|congruence]. exfalso. eapply (Hno "onMissing"%string v); [simpl; tauto|done].
  - destruct Hx as [(v & Hk & _)|[_ ?]]; [|done]. exfalso. eapply (Hno "documentIndex"%string v); [simpl; tauto|done].
Qed.
(** A flag that is not YAML, not a query or not an action is refused; without -q there is no
    overlay. *)
Theorem C64_bad_flags_refused h parse qs acts value :
  (exists s, In s qs /\ (parse s = None \/ exists c t, parse s = Some (Some c) /\ is_text h c t /\ compile t = None)) \/
  (exists s, In s acts /\ (parse s = None \/ exists c t, parse s = Some (Some c) /\ is_text h c t /\
     forall w, In w ["merge"; "replace"; "delete"; "combine"]%string -> ~ spells t w)) \/
  (qs <> [] /\ parse value = None) ->
  exists e, read_flags compile h parse qs acts value = Err e.
Proof.
  intros Hbad.
  assert (S1 : settles (set_queries compile h parse qs)).
  { clear -compile. induction qs as [|s qs IH]; [apply settles_ok|]. cbn [set_queries]. apply settles_bind; [|intros; apply settles_bind; [done|intros; apply settles_ok]].
    unfold set_query. destruct (parse s) as [[c|]|]; [|apply settles_ok|apply settles_err]. apply (d_query_spec h compile c). }
  assert (S2 : forall a, settles (set_actions h parse a acts)).
  { clear -compile. induction acts as [|s acts IH]; intros a; [apply settles_ok|]. cbn [set_actions]. destruct (parse s) as [[c|]|]; [|done|apply settles_err].
    apply settles_bind; [apply (d_action_spec h compile c)|done]. }
  assert (S3 : settles (read_flags compile h parse qs acts value)).
  { unfold read_flags. apply settles_bind; [done|]. intros q _. apply settles_bind; [done|]. intros a _. destruct q; [apply settles_ok|].
    destruct (parse value); [apply settles_ok|apply settles_err]. }
  destruct (read_flags compile h parse qs acts value) as [x|e| |] eqn:E; [|by exists e|by destruct S3..]. exfalso.
  unfold read_flags in E. apply rbind_Ok in E as (q & Eq & E). apply rbind_Ok in E as (a & Ea & E).
  destruct Hbad as [(s & Hs & Hbad)|[(s & Hs & Hbad)|[Hne Hp]]].
  - clear -Eq Hs Hbad. revert q Eq. induction qs as [|s0 qs IH]; intros q Eq; [done|]. cbn [set_queries] in Eq.
    apply rbind_Ok in Eq as (x & Ex & Eq). apply rbind_Ok in Eq as (xs & Exs & _). destruct Hs as [->|Hs]; [|by eapply IH].
    unfold set_query in Ex. destruct Hbad as [Hp|(c & t & Hp & Ht & Hc)]; rewrite Hp in Ex; [done|].
    destruct (d_query_spec h compile c) as (_ & N1 & P1). destruct x as [x|].
    + apply P1 in Ex as [_ [Hq Hq2]]. rewrite (text_fun _ _ _ _ Ht Hq) in Hc. congruence.
    + apply N1 in Ex. by eapply text_not_null.
  - clear -compile Ea Hs Hbad. revert Ea. generalize AInvalid. induction acts as [|s0 acts IH]; intros a0 Ea; [done|]. cbn [set_actions] in Ea.
    destruct Hs as [->|Hs].
    + destruct Hbad as [Hp|(c & t & Hp & Ht & Hc)]; rewrite Hp in Ea; [done|]. apply rbind_Ok in Ea as (x & Ex & _).
      destruct (d_action_spec h compile c) as (_ & N1 & P1). destruct x as [x|].
      * apply P1 in Ex as (_ & s' & w & Hs' & Hw & Hsp). rewrite <- (text_fun _ _ _ _ Ht Hs') in Hsp. apply (Hc w); [|done].
        destruct x; simpl in Hw; try done; injection Hw as <-; simpl; tauto.
      * apply N1 in Ex. by eapply text_not_null.
    + destruct (parse s0) as [[c|]|]; [|by eapply IH|done]. apply rbind_Ok in Ea as (x & _ & Ea). by eapply IH.
  - destruct qs as [|s qs]; [done|]. cbn [set_queries] in Eq. apply rbind_Ok in Eq as (x2 & _ & Eq). apply rbind_Ok in Eq as (xs & _ & [= <-]).
    by rewrite Hp in E.
Qed.
Theorem C64_no_query_no_overlay h parse acts value r : read_flags compile h parse [] acts value = Ok r -> r = None.
Proof. unfold read_flags. cbn [set_queries rbind]. intros E. apply rbind_Ok in E as (a & _ & [= <-]). done. Qed.
End theorems.

(** C65.  A null entry in yamlFiles ends the program: a crash when it is reached, unless the
    expansion of an earlier entry fails.  Without null entries it is as in C33. *)
Section nil.
Context {Ov Dc Nd : Type}.
Notation entry := (entry Ov Dc Nd).
Implicit Types (y : list (option entry)) (f : fs).

Theorem C65_null_entry_never_succeeds fuel f instdir y r : In None y -> expand_pointers fuel f instdir y 0 <> Ok r.
Proof.
  intros Hn. apply elem_of_list_In, elem_of_list_lookup in Hn as [j Hj].
  assert (X : forall fuel y i j, i <= j -> y !! j = Some None -> expand_pointers fuel f instdir y i <> Ok r); [|by apply (X _ _ _ j); [lia|]].
  clear. induction fuel as [|k IH]; intros y i j Hij Hj; cbn [expand_pointers].
  - destruct (y !! i) as [[e|]|] eqn:E; try done. apply lookup_ge_None in E. apply lookup_lt_Some in Hj. lia.
  - destruct (y !! i) as [[e|]|] eqn:E; try done; [|apply lookup_ge_None in E; apply lookup_lt_Some in Hj; lia].
    assert (i <> j) by (intros ->; congruence).
    destruct (seq_eqb _ _); [apply (IH _ _ j); [lia|done]|]. destruct (fs_stat _ _) as [[]|]; [| |done].
    + destruct (negb _); [done|]. destruct (fs_walk _ _) as [ps|]; [|done]. apply (IH _ _ (j - 1)); [lia|].
      pose proof (lookup_lt_Some _ _ _ Hj) as Hl. rewrite lookup_app_r by (rewrite take_length; lia).
      rewrite take_length, app_length, insert_length, lookup_drop. rewrite lookup_app_l by (rewrite insert_length; lia).
      rewrite list_lookup_insert_ne by lia. rewrite <- Hj. f_equal. lia.
    + apply (IH _ _ j); [lia|]. by rewrite list_lookup_insert_ne.
Qed.
Theorem C65_null_entry_crashes f instdir (pre : list entry) y fuel :
  Forall (fun e => expandable f (located instdir e) /\ dash_is_stdin instdir e) pre -> length pre <= fuel ->
  expand_pointers fuel f instdir (map Some pre ++ None :: y) 0 = Panic.
Proof.
  intros Hp Hl.
  assert (X : forall pre done fuel y, Forall (fun e => expandable f (located instdir e) /\ dash_is_stdin instdir e) pre -> length pre <= fuel ->
     expand_pointers fuel f instdir (done ++ map Some pre ++ None :: y) (length done) = Panic); [|by apply (X pre [])].
  clear. induction pre as [|e pre IH]; intros dn fuel y Hp Hl.
  - assert (E : (dn ++ map Some [] ++ None :: y) !! length dn = Some None) by (by rewrite lookup_app_r, Nat.sub_diag by lia).
    destruct fuel; cbn [expand_pointers]; by rewrite E.
  - destruct fuel as [|k]; [simpl in Hl; lia|]. apply Forall_cons in Hp as [[He Hds] Hp]. simpl in Hl.
    assert (E : (dn ++ map Some (e :: pre) ++ None :: y) !! length dn = Some (Some e)) by (by rewrite lookup_app_r, Nat.sub_diag by lia).
    assert (MV : forall z : option entry, (dn ++ z :: map Some pre ++ None :: y) = (dn ++ [z]) ++ map Some pre ++ None :: y) by (intros; by rewrite <- app_assoc).
    assert (LN : forall z : option entry, S (length dn) = length (dn ++ [z])) by (intros; rewrite app_length; simpl; lia).
    cbn [expand_pointers]. rewrite E. unfold located in He. destruct (seq_eqb_spec (e_path e) (lit "-")) as [Hd|Hd].
    + cbn [map app]. rewrite MV, (LN (Some e)). apply IH; [done|lia].
    + assert (INS : forall z, <[length dn := z]> (dn ++ map Some (e :: pre) ++ None :: y) = dn ++ z :: map Some pre ++ None :: y).
      { intros z. cbn [map app]. rewrite <- (Nat.add_0_r (length dn)), insert_app_r. done. }
      rewrite INS. set (e' := with_path _ e) in *. destruct He as [Hdash|[Hst|(Hst & Hext & ps & Hw)]].
      * exfalso. destruct Hds as [?|Hds]; [done|]. by apply Hds.
      * rewrite Hst. rewrite MV, (LN (Some e')). apply IH; [done|lia].
      * rewrite Hst, Hext, Hw. cbn [seq_eqb negb].
        assert (TK : forall tl, take (length dn) ((dn ++ Some e' :: map Some pre ++ None :: y) ++ tl) ++ drop (S (length dn)) ((dn ++ Some e' :: map Some pre ++ None :: y) ++ tl)
           = dn ++ map Some pre ++ None :: y ++ tl).
        { intros tl. rewrite <- !app_assoc. rewrite take_app. f_equal. cbn [app]. rewrite drop_app_ge by lia. replace (S (length dn) - length dn) with 1 by lia.
          simpl. by rewrite <- app_assoc. }
        rewrite TK. apply IH; [done|lia].
Qed.
(** Without null entries: the loop of C32-C34. *)
Theorem C65_no_null_entries fuel f instdir (y : list entry) :
  expand_pointers fuel f instdir (map Some y) 0 = let! r := expand_loop fuel f instdir y 0 in Ok (map Some r).
Proof.
  generalize 0 as i. revert y. induction fuel as [|k IH]; intros y i; cbn [expand_pointers expand_loop]; change (map Some y) with (Some <$> y);
    rewrite list_lookup_fmap; destruct (y !! i) as [e|] eqn:E; try done.
  cbn [fmap option_fmap option_map]. rewrite <- list_fmap_insert. change (Some <$> ?z) with (map Some z).
  destruct (seq_eqb _ _); [apply IH|]. destruct (fs_stat _ _) as [[]|]; [|apply IH|done]. destruct (negb _); [done|].
  destruct (fs_walk _ _) as [ps|]; [|done]. set (e' := with_path _ e). change (map (fun p => Some (sub_entry e' p)) ps) with (map (fun p => Some (sub_entry e' p)) ps).
  rewrite <- (map_map (sub_entry e') Some), <- map_app. rewrite firstn_map, skipn_map, <- map_app. apply IH.
Qed.
End nil.

(** *** Concrete cases *)
Definition nul : tree := T (mk KScalar (lit "!!null") (lit "null")) None.
Definition ex_compile : list N -> option (heap -> loc -> list loc) := fun s =>
  match s with 36%N :: _ => Some (fun _ l => [l]) | _ => None end.
Definition ex_to_int : info -> option Z := fun i => if seq_eqb (i_tag i) (lit "!!int") then Some 1%Z else None.
(** query: $.a / action: delete / onMissing: ...; and the same in another order, with the
    query in a list, a null name and a key that means nothing. *)
Definition overlay_1 := mp [sc "query"; sc "$.a"; sc "action"; sc "delete"; sc "onMissing"; mp [sc "action"; sc "inject"; sc "injectPath"; sc "$.b"]].
Definition overlay_2 := mp [sc "x"; num "3"; sc "onMissing"; mp [sc "injectPath"; sq [sc "$.b"]; sc "action"; sc "inject"];
  sc "action"; scc "delete" "# h" "" ""; sc "query"; sq [sc "$.a"]].
Definition instr_1 (o : tree) := doc (mp [sc "commonOverlays"; sq [o]; sc "yamlFiles"; sq [mp [sc "path"; sc "a.yaml"; sc "overlays"; sq [overlay_1]]]]).
Definition instr_2 := doc (mp [sc "z"; sc "z"; sc "yamlFiles"; sq [mp [sc "overlays"; sq [overlay_2]; sc "path"; sc "a.yaml"]]; sc "commonOverlays"; sq [overlay_2]]).
Definition bad_action := instr_1 (mp [sc "query"; sc "$.a"; sc "action"; sc "remove"]).
Definition bad_query := instr_1 (mp [sc "query"; sc "$.a"; sc "onMissing"; mp [sc "injectPath"; sq [sc "$.b"; sc "b"]]]).
Definition null_entry := doc (mp [sc "yamlFiles"; sq [mp [sc "path"; sc "a.yaml"]; nul]]).
Definition flag_like := doc (mp [sc "query"; sq [sc "$.a"; sc "$.b"]; sc "value"; num "3"; sc "action"; sc "replace"]).
Definition put_all (ts : list tree) : heap * list loc :=
  fold_left (fun hl t => let (h, l) := h_alloc t (fst hl) in (h, snd hl ++ [value_of 0 l])) ts ([], []).
Definition dec_all := put_all [instr_1 overlay_1; instr_2; bad_action; bad_query; null_entry; flag_like].
Definition dec_heap : heap := Eval vm_compute in fst dec_all.
Definition dec_docs : list loc := Eval vm_compute in snd dec_all.
Definition dec_doc (i : nat) : loc := nth i dec_docs 0.
Definition first_child (l : loc) : loc := match dec_heap !! l with Some n => match n_content n with Some (c :: _) => c | _ => 0 end | None => 0 end.
Definition dec_root (i : nat) : loc := first_child (dec_doc i).
(** Where a path of keys (K) and indices (I) leads. *)
Definition at_key (k : string) (l : loc) : loc := match d_struct dec_heap [k] l with Ok (Some t) => match values_for k t with v :: _ => v | [] => 0 end | _ => 0 end.
Definition at_index (i : nat) (l : loc) : loc := match sight_of dec_heap l with SList ls => nth i ls 0 | _ => 0 end.

Lemma key_from h k l t v : d_struct h [k] l = Ok (Some t) -> values_for k t = [v] -> has_key h l k v.
Proof.
  intros E H. destruct (d_struct_spec h [k] l) as (_ & _ & _ & X). apply (proj2 (X t E k (or_introl eq_refl))). rewrite H. by left.
Qed.
Ltac key := eapply key_from; [vm_compute; reflexivity|vm_compute; reflexivity].
Ltac item := eexists; split; [apply sight_list; vm_compute; reflexivity|vm_compute; tauto].
Ltac text := eexists; split; [apply sight_text; vm_compute; reflexivity|reflexivity].

Lemma dec_holds i : i < 6 -> holds_document dec_heap (dec_doc i) (dec_root i).
Proof. intros H. destruct i as [|[|[|[|[|[|]]]]]]; [..|lia]; vm_compute; eexists _, _; repeat split. Qed.
Example C61_applies : exists i, decode_instructions ex_compile ex_to_int dec_heap (Some (dec_doc 0)) = Ok i /\
  means_instructions dec_heap ex_compile ex_to_int (dec_root 0) i /\
  match i with ([Some o], [Some e]) => ro_action o = ADelete /\ ro_missing o = MInject /\ e_path e = lit "a.yaml" /\ length (e_overlays e) = 1 | _ => False end.
Proof.
  destruct (decode_instructions ex_compile ex_to_int dec_heap (Some (dec_doc 0))) as [i| | |] eqn:E; [|by vm_compute in E..].
  exists i. split; [done|]. split; [apply (decode_means _ _ _ _ _ _ (dec_holds 0 ltac:(lia))); done|]. vm_compute in E. injection E as <-. by vm_compute.
Qed.
Example C62_applies : let o := at_index 0 (at_key "commonOverlays" (dec_root 2)) in let v := at_key "action" o in
  overlay_at dec_heap (dec_root 2) o /\ has_key dec_heap o "action" v /\ ~ is_null dec_heap v /\ is_text dec_heap v (lit "remove").
Proof.
  cbv zeta. split_and!.
  - eapply at_common; [key|item].
  - key.
  - rewrite <- sight_null. by vm_compute.
  - text.
Qed.
Example C62_applies_query : let o := at_index 0 (at_key "commonOverlays" (dec_root 3)) in
  overlay_at dec_heap (dec_root 3) o /\ query_of dec_heap o (lit "b") /\ ex_compile (lit "b") = None.
Proof.
  cbv zeta. split_and!; [eapply at_common; [key|item]| |done].
  eapply inject_path; [key|key|]. right. exists (at_index 1 (at_key "injectPath" (at_key "onMissing" (at_index 0 (at_key "commonOverlays" (dec_root 3)))))).
  split; [item|text].
Qed.
Example C63_applies : alike dec_heap ex_to_int x_instructions (dec_root 0) (dec_root 1) /\ dec_root 0 <> dec_root 1 /\
  exists i, decode_instructions ex_compile ex_to_int dec_heap (Some (dec_doc 1)) = Ok i.
Proof. split; [apply alikeb_sound; by vm_compute|]. split; [by vm_compute|]. eexists. vm_compute. reflexivity. Qed.

Definition flag_root := dec_root 5.
Definition ex_parse (s : list N) : option (option loc) :=
  if seq_eqb s (lit "$.a") then Some (Some (at_index 0 (at_key "query" flag_root))) else
  if seq_eqb s (lit "$.b") then Some (Some (at_index 1 (at_key "query" flag_root))) else
  if seq_eqb s (lit "replace") then Some (Some (at_key "action" flag_root)) else
  if seq_eqb s (lit "3") then Some (Some (at_key "value" flag_root)) else None.
Lemma no_key h fields l t k v : d_struct h fields l = Ok (Some t) -> In k fields -> values_for k t = [] -> ~ has_key h l k v.
Proof. intros E Hk V H. destruct (d_struct_spec h fields l) as (_ & _ & _ & X). apply (proj2 (X t E k Hk)) in H. by rewrite V in H. Qed.
Example C64_applies : exists o q ls,
  means_overlay dec_heap ex_compile ex_to_int flag_root o /\ has_key dec_heap flag_root "query" q /\ is_list dec_heap q ls /\
  Forall2 (fun s c => ex_parse s = Some (Some c) /\ ~ is_null dec_heap c) [lit "$.a"; lit "$.b"] ls /\
  (exists v, ex_parse (lit "replace") = Some (Some v) /\ ~ is_null dec_heap v /\ has_key dec_heap flag_root "action" v) /\
  (exists v, ex_parse (lit "3") = Some (Some v) /\ has_key dec_heap flag_root "value" v) /\
  (forall k v, In k ["documentQuery"; "onMissing"; "documentIndex"]%string -> ~ has_key dec_heap flag_root k v) /\
  ro_action o = AReplace.
Proof.
  destruct (d_overlay ex_compile ex_to_int dec_heap flag_root) as [[o|]| | |] eqn:E; [|by vm_compute in E..].
  exists o, (at_key "query" flag_root), [at_index 0 (at_key "query" flag_root); at_index 1 (at_key "query" flag_root)].
  split_and!.
  - by apply (d_overlay_spec dec_heap ex_compile ex_to_int flag_root) in E as [_ ?].
  - key.
  - apply sight_list. by vm_compute.
  - repeat constructor; try (by vm_compute); rewrite <- sight_null; by vm_compute.
  - eexists. split; [by vm_compute|]. split; [rewrite <- sight_null; by vm_compute|key].
  - eexists. split; [by vm_compute|key].
  - intros k v Hk. eapply (no_key _ ["documentQuery"; "onMissing"; "documentIndex"]%string); [vm_compute; reflexivity|done|].
    destruct Hk as [<-|[<-|[<-|[]]]]; by vm_compute.
  - vm_compute in E. by injection E as <-.
Qed.
Example C64_applies_bad : exists e, read_flags ex_compile dec_heap ex_parse [lit "$.a"; lit "["] [] [] = Err e.
Proof. apply C64_bad_flags_refused. left. exists (lit "["). split; [simpl; tauto|]. left. by vm_compute. Qed.
(** -q "" is accepted, and leaves a query without a path behind. *)
Example C64_empty_query : read_flags ex_compile dec_heap (fun _ => Some None) [[]] [] [] = Ok (Some (mkFlagOverlay [None] None AInvalid)).
Proof. done. Qed.
Example C65_applies : exists i, decode_instructions ex_compile ex_to_int dec_heap (Some (dec_doc 4)) = Ok i /\ In None (snd i) /\
  expand_pointers 5 (mkFs (fun _ => Some false) (fun _ => None)) (lit "/w") (snd i) 0 = Panic.
Proof. eexists. split; [vm_compute; reflexivity|]. split; [simpl; tauto|by vm_compute]. Qed.

Print Assumptions C61_accepts_exactly_the_format.
Print Assumptions C61_unambiguous.
Print Assumptions C62_wrong_action_refused.
Print Assumptions C62_malformed_query_refused.
Print Assumptions C63_ways_of_writing.
Print Assumptions C64_flags_as_common_overlay.
Print Assumptions C64_bad_flags_refused.
Print Assumptions C65_null_entry_never_succeeds.
Print Assumptions C65_null_entry_crashes.
Print Assumptions C65_no_null_entries.

(** C66: templates in the instructions file. *)
From Verif Require Import Prelude GoStrings Format Yaml Heap MergeTree SpecMerge Values SpecValues PropsValues Template Examples Deciders.

Section theorems.
Context {F P : Type} (e : engine F P) (builtin sprig : list N -> option F).
Context (read_text : list N -> option (list N)) (first_doc : list N -> option tree) (sed : sed_engine).
Notation text_for := (instructions_text e builtin sprig read_text first_doc sed).

(** C66.  Without values files the instructions are the text of the file, whatever it
    looks like. *)
Theorem C66_no_values_no_template path text : read_text path = Some text -> text_for path None = Ok text.
Proof. intros H. unfold instructions_text. by rewrite H. Qed.

(** With values files the template is executed on the values, merged in the order of the
    command line (C45). *)
Theorem C66_rendered_with_merged_values path files d body rest bodies text t :
  (exists texts, Forall2 (fun f x => read_text f = Some x) files texts /\ Forall2 (fun x d => first_doc x = Some d) texts (d :: rest)) ->
  values_doc d body -> Forall2 values_doc rest bodies ->
  read_text path = Some text -> tp_syntax e text = Some t -> (forall n, In n (tp_calls e t) -> builtin n <> None) ->
  exists v b, t_content v = Some [b] /\ abs b = fold_left deep_merge (map abs bodies) (abs body) /\
    forall out, text_for path (Some files) = Ok out <-> tp_exec e (add_funcs sprig builtin) t (Some v) = Some out.
Proof.
  intros (texts & F1 & F2) Hd Hr Hp Ht Hc.
  destruct (C45_values_merge_in_order sed d body rest bodies Hd Hr) as (v & b & Hg & Hv & Ha).
  exists v, b. split; [done|]. split; [done|]. intros out. unfold instructions_text.
  assert (RV : read_values read_text first_doc files = Ok (d :: rest)).
  { clear -F1 F2. revert F2. generalize (d :: rest) as ds. induction F1 as [|f x files texts Hf F1 IH]; intros ds F2.
    - by inversion F2.
    - inversion F2 as [|? y ? ds' Hx F2']; subst. cbn [read_values]. rewrite Hf, Hx, (IH ds' F2'). done. }
  rewrite RV. cbn [rbind]. rewrite Hg. cbn [rbind]. rewrite Hp. unfold render_instructions, parse_files. rewrite Ht.
  assert (forallb (fun n => match builtin n with Some _ => true | None => false end) (tp_calls e t) = true) as ->.
  { apply forallb_forall. intros n Hn. specialize (Hc n Hn). by destruct (builtin n). }
  destruct (tp_exec _ _ _ _); split; intros H; try done; congruence.
Qed.

(** Sprig's functions cannot be used: a template that calls a function text/template does
    not define itself is refused, whatever the values. *)
Theorem C66_sprig_functions_refused path files text t n :
  read_text path = Some text -> tp_syntax e text = Some t -> In n (tp_calls e t) -> builtin n = None ->
  forall out, text_for path (Some files) <> Ok out.
Proof.
  intros Hp Ht Hn Hb out H. unfold instructions_text in H.
  destruct (read_values read_text first_doc files) as [ds| | |]; try done. cbn [rbind] in H.
  destruct (get_values sed ds) as [v| | |]; try done. cbn [rbind] in H. rewrite Hp in H. unfold render_instructions, parse_files in H. rewrite Ht in H.
  destruct (forallb _ _) eqn:E; [|done]. rewrite forallb_forall in E. specialize (E n Hn). by rewrite Hb in E.
Qed.

(** So if sprig redefines none of text/template's functions, it makes no difference at all.
    (Execution is assumed to depend only on the functions called.) *)
Theorem C66_sprig_makes_no_difference path files :
  (forall f g t v, (forall n, In n (tp_calls e t) -> f n = g n) -> tp_exec e f t v = tp_exec e g t v) ->
  (forall n, builtin n <> None -> sprig n = None) ->
  text_for path files = instructions_text e builtin (fun _ => None) read_text first_doc sed path files.
Proof.
  intros Hloc Hdis. unfold instructions_text. destruct files as [fs|]; [|done].
  destruct (read_values read_text first_doc fs) as [ds| | |]; try done. cbn [rbind].
  destruct (get_values sed ds) as [v| | |]; try done. cbn [rbind]. destruct (read_text path) as [text|]; [|done].
  unfold render_instructions. destruct (parse_files e builtin text) as [t|] eqn:E; [|done].
  rewrite (Hloc (add_funcs sprig builtin) (add_funcs (fun _ => None) builtin)); [done|].
  intros n Hn. unfold parse_files in E. destruct (tp_syntax e text) as [t'|]; [|done]. destruct (forallb _ _) eqn:A; [|done]. injection E as ->.
  rewrite forallb_forall in A. specialize (A n Hn). unfold add_funcs. destruct (builtin n) eqn:B; [|done]. rewrite Hdis by congruence. done.
Qed.
End theorems.

(** *** Concrete cases: a "template" is the list of the functions it calls; executing it
    counts those that are defined. *)
Definition toy : engine unit (list (list N)) :=
  mkEngine (fun text => Some [text]) (fun t => t)
    (fun f t _ => Some (map (fun n => match f n with Some _ => 49%N | None => 48%N end) t)).
Definition toy_builtin (n : list N) : option unit := if seq_eqb n (lit "len") then Some tt else None.
Definition toy_sprig (n : list N) : option unit := if seq_eqb n (lit "upper") then Some tt else None.
Definition toy_read (p : list N) : option (list N) :=
  if seq_eqb p (lit "i.yaml") then Some (lit "len") else if seq_eqb p (lit "j.yaml") then Some (lit "upper") else Some p.
Definition toy_values := doc (mp [sc "a"; num "1"]).
Example C66_applies :
  (exists text t, toy_read (lit "j.yaml") = Some text /\ tp_syntax toy text = Some t /\ In (lit "upper") (tp_calls toy t) /\
     toy_builtin (lit "upper") = None /\ toy_sprig (lit "upper") <> None) /\
  instructions_text toy toy_builtin toy_sprig toy_read (fun _ => Some toy_values) no_sed (lit "i.yaml") (Some [lit "v.yaml"; lit "w.yaml"]) = Ok (lit "1") /\
  (forall n, toy_builtin n <> None -> toy_sprig n = None) /\
  (forall f g t v, (forall n, In n (tp_calls toy t) -> f n = g n) -> tp_exec toy f t v = tp_exec toy g t v).
Proof.
  split_and!.
  - exists (lit "upper"), [lit "upper"]. split_and!; try done. by left.
  - by vm_compute.
  - intros n. unfold toy_builtin, toy_sprig. destruct (seq_eqb_spec n (lit "len")) as [->|]; done.
  - intros f g t v H. cbn. f_equal. apply map_ext_in. intros n Hn. by rewrite H.
Qed.
Example C66_applies_values : values_doc toy_values (mp [sc "a"; num "1"]).
Proof. split_and!; [done|done|apply simple_ex; reflexivity|apply plain_ex; reflexivity]. Qed.

Print Assumptions C66_no_values_no_template.
Print Assumptions C66_rendered_with_merged_values.
Print Assumptions C66_sprig_functions_refused.
Print Assumptions C66_sprig_makes_no_difference.

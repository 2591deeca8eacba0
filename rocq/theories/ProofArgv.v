(** Reading command lines. *)
From Verif Require Import Prelude GoStrings Format Yaml Heap ActionNames Overlay Combine SpecCombine ProofCombine Decode Flags Whole Render Config Main Argv SpecArgv.

(** The flags of the model are the documented ones. *)
Lemma documented_own : map described_flag documented = own_flags.
Proof. reflexivity. Qed.
Lemma given_values n us : given n us = values_of n us.
Proof.
  unfold values_of. induction us as [|[m v] us IH]; [done|]. cbn [given]. rewrite filter_cons. cbn [fst]. destruct (decide (m = lit n)); cbn [map snd]; by rewrite IH.
Qed.

(** What the proofs need to know of a flag. *)
Record proper_flag (f : flag) : Prop := mkProper {
  pf_name : exists c r, f_name f = c :: r /\ N.eqb c 45 = false /\ N.eqb c 61 = false;
  pf_noeq : Forall (fun c => N.eqb c 61 = false) (f_name f);
  pf_own : long_flag own_flags (f_name f) = Some f;
  pf_all : long_flag all_flags (f_name f) = Some f;
  pf_short : forall c, f_short f = Some c -> short_flag own_flags c = Some f /\ short_flag all_flags c = Some f /\ N.eqb c 45 = false /\ N.eqb c 61 = false /\ (c <? 128)%N = true }.
Lemma own_proper f : In f own_flags -> proper_flag f.
Proof.
  intros I. assert (X : Forall proper_flag own_flags); [|rewrite Forall_forall in X; by apply X, elem_of_list_In].
  clear. unfold own_flags. cbn [map]. repeat (apply Forall_cons; split); [..|constructor].
  all: constructor; [eexists _, _; split; [vm_compute; reflexivity|split; reflexivity]| |vm_compute; reflexivity|vm_compute; reflexivity|].
  all: try (apply Forall_forall; intros c H; apply elem_of_list_In in H; revert c H; apply List.Forall_forall; vm_compute; repeat (constructor; [reflexivity|]); constructor).
  all: intros c C; vm_compute in C; (discriminate || (injection C as <-; split_and!; vm_compute; reflexivity)).
Qed.
Lemma documented_flag p : In p documented -> In (described_flag p) own_flags.
Proof. intros I. rewrite <- documented_own. by apply in_map. Qed.
Lemma documented_name p : f_name (described_flag p) = lit (fst (fst p)).
Proof. by destruct p as [[n c] d]. Qed.

Lemma split_eq_name n v : Forall (fun c => N.eqb c 61 = false) n -> split_eq (n ++ 61%N :: v) = (n, Some v).
Proof. induction 1 as [|c n C F IH]; [done|]. cbn [app split_eq]. by rewrite C, IH. Qed.
Lemma split_eq_bare n : Forall (fun c => N.eqb c 61 = false) n -> split_eq n = (n, None).
Proof. induction 1 as [|c n C F IH]; [done|]. cbn [app split_eq]. by rewrite C, IH. Qed.
Lemma no_eq n : Forall (fun c => N.eqb c 61 = false) n -> existsb (N.eqb 61) n = false.
Proof. induction 1 as [|c n C F IH]; [done|]. cbn [existsb]. rewrite IH, N.eqb_sym, C. done. Qed.
Lemma has_eq n v : existsb (N.eqb 61) (n ++ 61%N :: v) = true.
Proof. rewrite existsb_app. cbn [existsb]. by rewrite orb_true_r. Qed.
Lemma not_dashes (a b c : N) (r : list N) : seq_eqb (a :: b :: c :: r) [45%N; 45%N] = false.
Proof. cbn. by rewrite !andb_false_r. Qed.

Section one.
Context (f : flag) (OWN : In f own_flags).
Let PF := own_proper f OWN.

Lemma strip_long_eq v argv : strip_flags ((lit "--" ++ f_name f ++ lit "=" ++ v) :: argv) = strip_flags argv.
Proof.
  destruct (pf_name f PF) as (c & r & N & _). cbn [strip_flags]. change (lit "--") with [45%N; 45%N]. change (lit "=") with [61%N].
  assert (T : takes_next ([45%N; 45%N] ++ f_name f ++ [61%N] ++ v) = false).
  { cbn [app takes_next]. cbn [existsb]. rewrite has_eq. by rewrite !orb_true_r, andb_false_r. }
  rewrite T. rewrite N. cbn [app]. rewrite not_dashes. reflexivity.
Qed.
Lemma parse_long_eq v argv : parse_args ((lit "--" ++ f_name f ++ lit "=" ++ v) :: argv) = more [(f_name f, v)] (parse_args argv).
Proof.
  destruct (pf_name f PF) as (c & r & N & C1 & C2). cbn [parse_args]. change (lit "--") with [45%N; 45%N]. change (lit "=") with [61%N]. cbn [app].
  pose proof (split_eq_name (f_name f) v (pf_noeq f PF)) as S. rewrite N in *. cbn [app] in *. rewrite C1, C2, S. cbn [orb]. rewrite <- N, (pf_all f PF). done.
Qed.
Lemma takes_long : takes_next (lit "--" ++ f_name f) = match f_bare f with None => true | Some _ => false end.
Proof.
  destruct (pf_name f PF) as (c & r & N & _). change (lit "--") with [45%N; 45%N]. cbn [app takes_next existsb]. rewrite (no_eq _ (pf_noeq f PF)), (pf_own f PF).
  by destruct (f_bare f).
Qed.
Lemma strip_long v argv : f_bare f = None -> strip_flags ((lit "--" ++ f_name f) :: v :: argv) = strip_flags argv.
Proof.
  intros B. destruct (pf_name f PF) as (c & r & N & _). cbn [strip_flags]. rewrite takes_long, B. rewrite N. change (lit "--") with [45%N; 45%N]. cbn [app].
  by rewrite not_dashes.
Qed.
Lemma parse_long v argv : f_bare f = None -> parse_args ((lit "--" ++ f_name f) :: v :: argv) = more [(f_name f, v)] (parse_args argv).
Proof.
  intros B. destruct (pf_name f PF) as (c & r & N & C1 & C2). cbn [parse_args]. change (lit "--") with [45%N; 45%N]. cbn [app].
  pose proof (split_eq_bare (f_name f) (pf_noeq f PF)) as S. rewrite N in *. rewrite C1, C2, S. cbn [orb]. by rewrite <- N, (pf_all f PF), B.
Qed.
Lemma strip_long_bare v argv : f_bare f = Some v -> strip_flags ((lit "--" ++ f_name f) :: argv) = strip_flags argv.
Proof.
  intros B. destruct (pf_name f PF) as (c & r & N & _). cbn [strip_flags]. rewrite takes_long, B. rewrite N. change (lit "--") with [45%N; 45%N]. cbn [app].
  by rewrite not_dashes.
Qed.
Lemma parse_long_bare v argv : f_bare f = Some v -> parse_args ((lit "--" ++ f_name f) :: argv) = more [(f_name f, v)] (parse_args argv).
Proof.
  intros B. destruct (pf_name f PF) as (c & r & N & C1 & C2). cbn [parse_args]. change (lit "--") with [45%N; 45%N]. cbn [app].
  pose proof (split_eq_bare (f_name f) (pf_noeq f PF)) as S. rewrite N in *. rewrite C1, C2, S. cbn [orb]. by rewrite <- N, (pf_all f PF), B.
Qed.

Context (c : N) (SH : f_short f = Some c).
Lemma letter_not_dash r : seq_eqb (45%N :: c :: r) [45%N; 45%N] = false.
Proof. destruct (pf_short f PF c SH) as (_ & _ & D & _). cbn. unfold ceq. rewrite D. done. Qed.
Lemma parse_letter_arg t argv : parse_args ((45%N :: c :: t) :: argv) =
  match parse_letters (c :: t) with
  | None => None
  | Some (us, None) => more us (parse_args argv)
  | Some (us, Some n) => match argv with x :: rest' => more (us ++ [(n, x)]) (parse_args rest') | [] => None end
  end.
Proof. destruct (pf_short f PF c SH) as (_ & _ & D & _). cbn [parse_args]. by rewrite D. Qed.
Lemma strip_letter_more x t argv : strip_flags ((45%N :: c :: x :: t) :: argv) = strip_flags argv.
Proof.
  destruct (pf_short f PF c SH) as (_ & _ & D & _). cbn [strip_flags]. rewrite letter_not_dash.
  assert (T : takes_next (45%N :: c :: x :: t) = false) by (cbn [takes_next]; rewrite D; by rewrite andb_false_r). by rewrite T.
Qed.
Lemma takes_letter : takes_next [45%N; c] = match f_bare f with None => true | Some _ => false end.
Proof.
  destruct (pf_short f PF c SH) as (S1 & _ & D & E & L). cbn [takes_next existsb]. rewrite D, L, S1, (N.eqb_sym 61 c), E. by destruct (f_bare f).
Qed.
Lemma letters_flag r : parse_letters (c :: r) =
  match r with
  | e :: x :: v =>
      if N.eqb e 61 then Some ([(f_name f, x :: v)], None)
      else match f_bare f with
           | Some d => match parse_letters r with Some (us, w) => Some ((f_name f, d) :: us, w) | None => None end
           | None => Some ([(f_name f, r)], None)
           end
  | _ =>
      match f_bare f with
      | Some d => match parse_letters r with Some (us, w) => Some ((f_name f, d) :: us, w) | None => None end
      | None => match r with [] => Some ([], Some (f_name f)) | _ => Some ([(f_name f, r)], None) end
      end
  end.
Proof. destruct (pf_short f PF c SH) as (_ & S2 & _). cbn [parse_letters]. rewrite S2. by destruct r as [|? [|? ?]]. Qed.
End one.

Lemma strip_writes f v a argv : In f own_flags -> writes f v a -> strip_flags (a ++ argv) = strip_flags argv.
Proof.
  intros I W. destruct W as [v|v B|v B|c v C N|c v C B|c v C B N E|c v C B]; cbn [app]; change (lit "-") with [45%N]; change (lit "=") with [61%N]; cbn [app].
  - by apply (strip_long_eq f I).
  - by apply (strip_long f I).
  - by apply (strip_long_bare f I v).
  - by apply (strip_letter_more f I).
  - cbn [strip_flags]. by rewrite (letter_not_dash f I c C), (takes_letter f I c C), B.
  - destruct v; [done|]. by apply (strip_letter_more f I).
  - cbn [strip_flags]. by rewrite (letter_not_dash f I c C), (takes_letter f I c C), B.
Qed.
Lemma parse_writes f v a argv : In f own_flags -> writes f v a -> parse_args (a ++ argv) = more [(f_name f, v)] (parse_args argv).
Proof.
  intros I W. destruct W as [v|v B|v B|c v C N|c v C B|c v C B N E|c v C B]; cbn [app]; change (lit "-") with [45%N]; change (lit "=") with [61%N]; cbn [app].
  - by apply (parse_long_eq f I).
  - by apply (parse_long f I).
  - by apply (parse_long_bare f I v).
  - rewrite (parse_letter_arg f I c C), (letters_flag f I c C). destruct v; [done|]. cbn. done.
  - rewrite (parse_letter_arg f I c C), (letters_flag f I c C), B. done.
  - rewrite (parse_letter_arg f I c C), (letters_flag f I c C), B. destruct v as [|x v]; [done|]. destruct v as [|y v]; [done|].
    destruct (N.eqb_spec x 61) as [->|]; [|done]. destruct E. by exists (y :: v).
  - rewrite (parse_letter_arg f I c C), (letters_flag f I c C), B. done.
Qed.

Lemma strip_written us a : written us a -> forall rest, strip_flags (a ++ rest) = strip_flags rest.
Proof.
  induction 1 as [|p v a us argv I W H IH]; intros rest; [done|]. rewrite <- app_assoc. rewrite (strip_writes _ _ _ _ (documented_flag _ I) W). apply IH.
Qed.
Lemma parse_written us a : written us a -> forall rest, parse_args (a ++ rest) = more us (parse_args rest).
Proof.
  induction 1 as [|p v a us argv I W H IH]; intros rest; [cbn; by destruct (parse_args rest)|].
  rewrite <- app_assoc. rewrite (parse_writes _ _ _ _ (documented_flag _ I) W), IH, documented_name. by destruct (parse_args rest).
Qed.

Lemma each_ok_spec {A} (f : list N -> option A) vals :
  match each_ok f vals with
  | Ok r => Forall (fun v => f v <> None) vals /\ r = match last vals with Some v => f v | None => None end
  | Err e => e = EDecode /\ exists v, In v vals /\ f v = None
  | _ => False
  end.
Proof.
  unfold each_ok. induction vals as [|v vals IH] using rev_ind; [split; [constructor|done]|].
  rewrite fold_left_app, last_snoc. cbn [fold_left]. destruct (fold_left _ vals _) as [r|e| |]; try done.
  - destruct IH as [F _]. cbn [rbind]. destruct (f v) as [a|] eqn:E.
    + split; [|done]. apply Forall_app. split; [done|]. constructor; [by rewrite E|constructor].
    + split; [done|]. exists v. split; [apply in_or_app; right; by left|done].
  - destruct IH as (-> & w & I & W). split; [done|]. exists w. split; [apply in_or_app; by left|done].
Qed.

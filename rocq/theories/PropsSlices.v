(** C31: every file's overlay list after preparation. *)
From Verif Require Import Prelude Slices SpecSlices ProofSlices.

(** The common list fills its array (as after decoding an instructions file
    without a command line overlay): every file gets the common overlays
    followed by its own, whatever the other files have and however the runtime
    grows arrays. *)
Theorem C31_common_then_own {A} grow (m m' : arrays A) common files out :
  valid m common -> Forall (valid m) files -> Forall (fun s => sl_arr s <> sl_arr common) files ->
  cap m common = sl_len common ->
  add_common grow m common files = (m', out) ->
  length out = length files /\
  forall i s t, files !! i = Some s -> out !! i = Some t -> contents m' t = contents m common ++ contents m s.
Proof.
  intros Hvc Hvf Hne Hcap Hadd. destruct (add_common_spec grow common files m m' out) as (Hl & _ & _ & Hres); try done.
  split; [done|]. intros i s t Hs Ht. apply (Hres i s t Hs Ht).
  destruct (decide (sl_len s = 0)%nat); [by left|right; left]. lia.
Qed.

(** With spare capacity (after a command line overlay was appended) the list is
    right for a file that has no overlays of its own, or more than fit, or that
    is the last one with overlays that fit. *)
Theorem C31_right_when_not_overwritten {A} grow (m m' : arrays A) common files out i s t :
  valid m common -> Forall (valid m) files -> Forall (fun s => sl_arr s <> sl_arr common) files ->
  add_common grow m common files = (m', out) ->
  files !! i = Some s -> out !! i = Some t ->
  (sl_len s = 0 \/ cap m common < sl_len common + sl_len s \/
   (forall j s', (i < j)%nat -> files !! j = Some s' -> sl_len s' = 0 \/ cap m common < sl_len common + sl_len s'))%nat ->
  contents m' t = contents m common ++ contents m s.
Proof.
  intros Hvc Hvf Hne Hadd Hs Ht Hc. destruct (add_common_spec grow common files m m' out) as (_ & _ & _ & Hres); try done.
  by apply (Hres i s t).
Qed.

(** The list of every file in every case: the common overlays, followed by the
    file's own ones if they do not fit into the spare capacity; if they do, its
    own ones with the overlays of all later files that fit written over them. *)
Theorem C31_exact_list {A} grow (m m' : arrays A) common files out i s t :
  valid m common -> Forall (valid m) files -> Forall (fun s => sl_arr s <> sl_arr common) files ->
  add_common grow m common files = (m', out) ->
  files !! i = Some s -> out !! i = Some t ->
  let fits (x : list (option A)) := Nat.leb (length x) (cap m common - sl_len common) in
  contents m' t = contents m common ++
    if fits (contents m s) then overwritten (contents m s) (List.filter fits (map (contents m) (drop (S i) files)))
    else contents m s.
Proof. intros Hvc Hvf Hne Hadd Hs Ht. exact (add_common_exact grow common files m m' out i s t Hvc Hvf Hne Hadd Hs Ht). Qed.

(** Overlays are numbers here: 1 and 2 common, 3 from the command line, 4 and 5
    belong to the two files. *)
Definition ex_arrays : arrays nat := [[Some 1; Some 2]; [Some 4]; [Some 5]]%nat.
Definition ex_common : slice := mkSlice 0 2.
Definition ex_files : list slice := [mkSlice 1 1; mkSlice 2 1].
Example C31_example :
  valid ex_arrays ex_common /\ Forall (valid ex_arrays) ex_files /\ cap ex_arrays ex_common = sl_len ex_common /\
  let (m, out) := add_common go_grow ex_arrays ex_common ex_files in
  map (contents m) out = [[Some 1; Some 2; Some 4]; [Some 1; Some 2; Some 5]]%nat.
Proof.
  split_and!; [eexists; split; [by vm_compute|simpl; lia]| |done|by vm_compute].
  repeat (apply Forall_cons; split); try done; eexists; (split; [by vm_compute|simpl; lia]).
Qed.

(** C31 fails with a command line overlay: two common overlays, one from the
    command line and two files with one overlay each.  The first file gets the
    second file's overlay instead of its own. *)
Theorem C31_refuted_command_line_overlay :
  let (m1, common) := add_adhoc go_grow ex_arrays ex_common 3%nat in
  let (m2, out) := add_common go_grow m1 common ex_files in
  map (contents m2) out = [[Some 1; Some 2; Some 3; Some 5]; [Some 1; Some 2; Some 3; Some 5]]%nat.
Proof. by vm_compute. Qed.

(** With room for two: a file with overlays [4; 6] followed by one with [5] ends
    up with [5; 6]; one with three overlays keeps them. *)
Example C31_exact_example :
  overwritten [Some 4; Some 6] [[Some 5]] = [Some 5; Some 6]%nat /\
  let m := [[Some 1; None; None]; [Some 4; Some 6]; [Some 5]; [Some 7; Some 8; Some 9]]%nat in
  let common := mkSlice 0 1 in let files := [mkSlice 1 2; mkSlice 2 1; mkSlice 3 3] in
  valid m common /\ Forall (valid m) files /\ Forall (fun s => sl_arr s <> sl_arr common) files /\
  let (m2, out) := add_common go_grow m common files in
  map (contents m2) out = [[Some 1; Some 5; Some 6]; [Some 1; Some 5]; [Some 1; Some 7; Some 8; Some 9]]%nat.
Proof.
  cbv zeta. split; [done|]. split; [eexists; split; [by vm_compute|simpl; lia]|]. split; [|split; [|by vm_compute]].
  - repeat (apply Forall_cons; split); try done; eexists; (split; [by vm_compute|simpl; lia]).
  - repeat (apply Forall_cons; split); try done.
Qed.

Print Assumptions C31_common_then_own.
Print Assumptions C31_right_when_not_overwritten.
Print Assumptions C31_exact_list.

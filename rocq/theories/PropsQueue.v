(** C21, C30: which overlays reach which document, in which order. *)
From Verif Require Import Prelude Queue.

Section queueprops.
Context {Ov Nd : Type} (index : Ov -> option (list Z)).

(** The overlay does not restrict its documents, or lists number [i]. *)
Definition wants (i : Z) (o : Ov) : Prop := index o = None \/ exists l, index o = Some l /\ In i l.
Global Instance wants_dec i o : Decision (wants i o).
Proof.
  unfold wants. destruct (index o) as [l|]; [|left; by left].
  destruct (in_dec Z.eq_dec i l) as [H|H]; [left; right; eauto|].
  right. intros [?|(l' & [= <-] & ?)]; done.
Defined.

Lemma check_wants o i : check_document_index index o i = true <-> wants i o.
Proof.
  unfold check_document_index, wants. destruct (index o) as [l|]; [|naive_solver].
  rewrite existsb_exists. split.
  - intros (x & Hx & He). apply Z.eqb_eq in He as ->. right. eauto.
  - intros [?|(l' & [= <-] & Hin)]; [done|]. exists i. split; [done|]. apply Z.eqb_refl.
Qed.

Lemma queue_overlays_filter os (n : Nd) i :
  queue_overlays_of index os n i = map (fun o => mkWork o n i) (base.filter (wants i) os).
Proof.
  induction os as [|o os IH]; simpl; [done|]. rewrite filter_cons.
  destruct (decide (wants i o)) as [H|H].
  - rewrite (proj2 (check_wants o i) H). simpl. by rewrite IH.
  - destruct (check_document_index index o i) eqn:Hc; [by apply check_wants in Hc|]. done.
Qed.

Lemma queue_documents_filter (ds : list (document Ov)) (n : Nd) i :
  queue_documents ds n i = map (fun o => mkWork o n i) (concat (map d_overlays (base.filter (fun d => d_path d = i) ds))).
Proof.
  induction ds as [|d ds IH]; simpl; [done|]. rewrite filter_cons.
  destruct (Z.eqb_spec (d_path d) i) as [He|He].
  - rewrite decide_True by done. simpl. rewrite map_app, IH. f_equal.
    induction (d_overlays d) as [|o os IHo]; simpl; [done|]. by rewrite IHo.
  - rewrite decide_False by done. done.
Qed.

(** C30.  The overlays applied to document number [i] of a file: the common ones
    and the file's own that want it, then those of the documents entries for
    it, each in listed order.  [numbered] pairs each document with its number. *)
Definition overlays_for (common own : list Ov) (ds : list (document Ov)) (i : Z) : list Ov :=
  base.filter (wants i) common ++ base.filter (wants i) own ++
  concat (map d_overlays (base.filter (fun d => d_path d = i) ds)).

Fixpoint numbered (i : Z) (nodes : list Nd) : list (Z * Nd) :=
  match nodes with [] => [] | n :: r => (i, n) :: numbered (i + 1) r end.

Theorem C30_documented_order common own ds (nodes : list Nd) :
  queue index (common ++ own) ds nodes =
  concat (map (fun p => map (fun o => mkWork o (snd p) (fst p)) (overlays_for common own ds (fst p))) (numbered 0 nodes)).
Proof.
  unfold queue. generalize 0%Z as i. induction nodes as [|n nodes IH]; intros i; simpl; [done|].
  rewrite IH, queue_overlays_filter, queue_documents_filter. unfold overlays_for.
  rewrite filter_app, !map_app. by rewrite <- !app_assoc.
Qed.

(** C21.  An overlay reaches document number [i] iff it is in the file's list (with
    the common ones) and has no documentIndex or lists [i], or it belongs to a
    documents entry for exactly that number. *)
Theorem C21_document_selection os (ds : list (document Ov)) (nodes : list Nd) o n i :
  In (mkWork o n i) (queue index os ds nodes) <->
  (0 <= i)%Z /\ nodes !! Z.to_nat i = Some n /\
  ((In o os /\ (index o = None \/ exists l, index o = Some l /\ In i l)) \/
   exists d, In d ds /\ d_path d = i /\ In o (d_overlays d)).
Proof.
  unfold queue.
  assert (H : forall k, In (mkWork o n i) (queue_from index k os ds nodes) <->
    (k <= i)%Z /\ nodes !! Z.to_nat (i - k) = Some n /\
    ((In o os /\ wants i o) \/ exists d, In d ds /\ d_path d = i /\ In o (d_overlays d))).
  { induction nodes as [|x nodes IH]; intros k; simpl.
    - split; [done|]. intros (_ & Hl & _). done.
    - rewrite !in_app_iff, IH, queue_overlays_filter, queue_documents_filter, !in_map_iff.
      split.
      + intros [(o' & [= <- <- <-] & Hin)|[(o' & [= <- <- <-] & Hin)|(Hk & Hl & Hc)]].
        * apply elem_of_list_In, elem_of_list_filter in Hin as [Hw Hin]. rewrite Z.sub_diag. simpl.
          split_and!; [lia|done|]. left. split; [by apply elem_of_list_In|done].
        * apply in_concat in Hin as (l & Hl & Hin). apply in_map_iff in Hl as (d & <- & Hd).
          apply elem_of_list_In, elem_of_list_filter in Hd as [Hp Hd]. rewrite Z.sub_diag. simpl.
          split_and!; [lia|done|]. right. exists d. split_and!; [by apply elem_of_list_In|done|done].
        * split_and!; [lia| |done]. replace (Z.to_nat (i - k)) with (S (Z.to_nat (i - (k + 1)))) by lia. done.
      + intros (Hk & Hl & Hc). destruct (decide (k = i)) as [->|Hne].
        * rewrite Z.sub_diag in Hl. simpl in Hl. injection Hl as ->.
          destruct Hc as [[Hin Hw]|(d & Hd & Hp & Hin)].
          -- left. exists o. split; [done|]. apply elem_of_list_In, elem_of_list_filter. split; [done|by apply elem_of_list_In].
          -- right. left. exists o. split; [done|]. apply in_concat. exists (d_overlays d). split; [|done].
             apply in_map. apply elem_of_list_In, elem_of_list_filter. split; [done|by apply elem_of_list_In].
        * right. right. split_and!; [lia| |done].
          replace (Z.to_nat (i - k)) with (S (Z.to_nat (i - (k + 1)))) in Hl by lia. done. }
  rewrite H, Z.sub_0_r. done.
Qed.
End queueprops.

(** Overlays are numbers; 1 has no documentIndex, 2 wants documents 1 and 5, 3 wants none. *)
Definition ex_index (o : nat) : option (list Z) :=
  match o with 2%nat => Some [1; 5]%Z | 3%nat => Some [] | _ => None end.
Example C30_example :
  queue ex_index ([1;2] ++ [3;4])%nat [mkDocument 1 [2;3]%nat; mkDocument 0 [9]%nat] ["x"; "y"]%string
  = [mkWork 1%nat "x"%string 0; mkWork 4%nat "x"%string 0; mkWork 9%nat "x"%string 0;
     mkWork 1%nat "y"%string 1; mkWork 2%nat "y"%string 1; mkWork 4%nat "y"%string 1; mkWork 2%nat "y"%string 1; mkWork 3%nat "y"%string 1]%Z.
Proof. by vm_compute. Qed.

(** Overlay 2 (documentIndex 1 and 5) reaches document 1 only; overlay 3 reaches it through the documents entry only. *)
Example C21_applies :
  let q := queue ex_index [1; 2; 3]%nat [mkDocument 1 [3]%nat] ["x"; "y"]%string in
  In (mkWork 2%nat "y"%string 1%Z) q /\ ~ In (mkWork 2%nat "x"%string 0%Z) q /\
  In (mkWork 3%nat "y"%string 1%Z) q /\ ~ In (mkWork 3%nat "x"%string 0%Z) q /\ In (mkWork 1%nat "x"%string 0%Z) q.
Proof. split_and!; try (intros H; vm_compute in H; intuition discriminate); vm_compute; tauto. Qed.

Print Assumptions C30_documented_order.
Print Assumptions C21_document_selection.

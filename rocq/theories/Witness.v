(** Computing documents with identities and values out of a concrete heap, for
    the examples. *)
From Verif Require Import Prelude Yaml Heap SpecHeap ProofHeap ProofHeapActions.

Fixpoint lread (fuel : nat) (h : heap) (l : loc) : option ltree :=
  match fuel, h !! l with
  | S f, Some n =>
      match n_content n with
      | None => Some (L l (n_info n) None)
      | Some ls => match mapM (lread f h) ls with Some ts => Some (L l (n_info n) (Some ts)) | None => None end
      end
  | _, _ => None
  end.
Lemma lread_label f h l t : lread f h l = Some t -> label t = l.
Proof.
  destruct f; [discriminate|]. cbn [lread]. destruct (h !! l) as [n|]; [|discriminate].
  destruct (n_content n); [|by intros [= <-]]. destruct (mapM _ _); [by intros [= <-]|discriminate].
Qed.
Lemma lread_reads f : forall h l t, lread f h l = Some t -> reads h t.
Proof.
  induction f as [|f IH]; intros h l t; [discriminate|]. cbn [lread]. destruct (h !! l) as [n|] eqn:E; [|discriminate].
  destruct n as [i al [ls|]]; cbn [n_content n_info].
  - destruct (mapM (lread f h) ls) as [ts|] eqn:ET; [|discriminate]. intros [= <-]. apply mapM_Some in ET.
    rewrite reads_eq. split.
    + exists al. rewrite E. do 2 f_equal. cbn [labels]. f_equal. clear -ET. induction ET as [|x y ls ts H _ IH]; [done|].
      cbn [map]. f_equal; [by apply lread_label in H|done].
    + cbn [kids]. clear -ET IH. induction ET; constructor; eauto.
  - intros [= <-]. rewrite reads_eq. split; [exists al; by rewrite E|constructor].
Qed.
Lemma lread_own f h l t : lread f h l = Some t -> NoDup (locs t) -> own h [t].
Proof.
  intros E N. split; [constructor; [by eapply lread_reads|constructor]|]. cbn. by rewrite app_nil_r.
Qed.

(** Values without aliases. *)
Fixpoint vread (fuel : nat) (ro : loc -> bool) (h : heap) (l : loc) : option tree :=
  match fuel, h !! l with
  | S f, Some n =>
      if ro l then
      match n_alias n with Some _ => None | None =>
      match n_content n with
      | None => Some (T (n_info n) None)
      | Some ls => match mapM (vread f ro h) ls with Some ts => Some (T (n_info n) (Some ts)) | None => None end
      end end else None
  | _, _ => None
  end.
Lemma vread_value f (ro : loc -> bool) h : forall l t, vread f ro h l = Some t -> value_at f (fun x => ro x = true) h l t.
Proof.
  induction f as [|f IH]; intros l t; [discriminate|]. cbn [vread value_at]. destruct (h !! l) as [n|] eqn:E; [|discriminate].
  destruct (ro l); [|discriminate]. destruct n as [i [a|] [ls|]]; try discriminate; cbn [n_content n_info].
  - destruct (mapM (vread f ro h) ls) as [ts|] eqn:ET; [|discriminate]. intros [= <-]. apply mapM_Some in ET.
    split; [done|]. eexists. split; [done|]. split; [done|]. split; [done|]. cbn. eapply Forall2_impl; [exact ET|]. intros; by apply IH.
  - intros [= <-]. split; [done|]. eexists. split; [done|]. done.
Qed.

(** A region given by a range of addresses. *)
Definition between (a b x : nat) : bool := Nat.leb a x && Nat.ltb x b.
Lemma apart_between a b h t : b <= length h -> (forall x, x ∈ locs t -> between a b x = false) ->
  apart (fun x => between a b x = true) h [t].
Proof.
  intros B N l Hl. split.
  - unfold between in Hl. apply andb_true_iff in Hl as [_ Hl]. apply Nat.ltb_lt in Hl. lia.
  - cbn. rewrite app_nil_r. intros X. apply N in X. congruence.
Qed.
Lemma between_all a b l : forallb (fun x => negb (between a b x)) l = true -> forall x, x ∈ l -> between a b x = false.
Proof. intros H x X. rewrite forallb_forall in H. apply elem_of_list_In, H in X. by apply negb_true_iff. Qed.

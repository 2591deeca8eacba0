(** C27: which characters are blanks. *)
From Verif Require Import Prelude GoStrings SpecBuilder SpecMain SpecSpace.

Lemma is_space_white c : is_space c = true <-> white_space c.
Proof.
  unfold is_space, white_space, ceq. rewrite existsb_exists. split.
  - intros (x & I & E). apply N.eqb_eq in E. subst x. cbn [In] in I. repeat destruct I as [<-|I]; try lia.
  - intros H. exists c. split; [|apply N.eqb_refl]. cbn [In].
    assert (X : (c = 9 \/ c = 10 \/ c = 11 \/ c = 12 \/ c = 13 \/ c = 32 \/ c = 133 \/ c = 160 \/ c = 5760 \/ c = 8192 \/ c = 8193 \/ c = 8194 \/ c = 8195 \/ c = 8196 \/ c = 8197 \/
      c = 8198 \/ c = 8199 \/ c = 8200 \/ c = 8201 \/ c = 8202 \/ c = 8232 \/ c = 8233 \/ c = 8239 \/ c = 8287 \/ c = 12288)%N) by lia.
    repeat destruct X as [->|X]; [tauto..|]. subst c. tauto.
Qed.
(** C27.  The blanks that may stand around the names in brackets, that an unquoted name may
    not start with, and that separate the words of a setting, are the white space
    characters. *)
Theorem C27_white_space :
  (forall c, space_char c <-> white_space c) /\ (forall s, blanks s <-> Forall white_space s) /\
  (forall s, all_space s <-> Forall white_space s) /\ (forall s, no_space s <-> Forall (fun c => ~ white_space c) s).
Proof.
  assert (F : forall s, Forall (fun c => is_space c = true) s <-> Forall white_space s).
  { intros s. apply Forall_iff. intros c. apply is_space_white. }
  split; [intros c; apply is_space_white|]. split; [exact F|]. split; [exact F|].
  intros s. apply Forall_iff. intros c. rewrite <- is_space_white. destruct (is_space c); split; done.
Qed.
Example C27_white_space_applies : white_space 10 /\ ~ white_space (ch "a") /\ blanks [32; 10; 9]%N.
Proof. split; [unfold white_space; lia|]. split; [intros X; apply is_space_white in X; vm_compute in X; discriminate X|]. apply C27_white_space. repeat constructor; unfold white_space; lia. Qed.

Print Assumptions C27_white_space.

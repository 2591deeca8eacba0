From Verif Require Import Prelude Yaml Heap Builder Overlay Finder SpecReach.

Lemma f_child_in h k ls v : f_child h k ls = Some v -> In v ls.
Proof.
  enough (H : forall n ls, length ls <= n -> f_child h k ls = Some v -> In v ls) by eauto.
  clear ls. induction n as [|n IH]; intros [|a [|b r]] L E; try discriminate; [cbn in L; lia|].
  cbn in E. assert (R : f_child h k r = Some v -> In v (a :: b :: r)).
  { intros H. right. right. apply (IH r); [cbn in L; lia|done]. }
  destruct (h !! a) as [na|]; [|auto]. destruct (seq_eqb _ _); [|auto]. injection E as ->. right. by left.
Qed.

Lemma reach_trans h x y z : reach h x y -> reach h y z -> reach h x z.
Proof. intros A. induction 1; [done|]. eapply reach_step; eauto. Qed.

Lemma f_path_reach h names : forall l x, In x (f_path h names l) -> reach h l x.
Proof.
  induction names as [|k r IH]; intros l x X; cbn in X; destruct (h !! l) as [n|] eqn:E; try (destruct X; fail).
  - destruct X as [<-|[]]. constructor.
  - destruct (kind_eqb _ _); [|destruct X]. destruct (n_content n) as [ls|] eqn:C; [|destruct X].
    destruct (f_child h k ls) as [v|] eqn:F; [|destruct X].
    eapply reach_trans; [|apply IH, X]. eapply reach_step; [constructor|exact E|].
    right. exists ls. split; [done|]. by eapply f_child_in.
Qed.

Lemma dotted_ok text names : finder_ok (dotted text names).
Proof.
  intros h l x X. cbn in X. destruct (f_root h l) as [r|] eqn:F; [|destruct X].
  eapply reach_trans; [|by eapply f_path_reach]. unfold f_root in F.
  destruct (h !! l) as [n|] eqn:E; [|discriminate]. destruct (kind_eqb _ _).
  - destruct (n_content n) as [[|c ls]|] eqn:C; try discriminate. injection F as <-.
    eapply reach_step; [constructor|exact E|]. right. exists (c :: ls). split; [done|by left].
  - injection F as <-. constructor.
Qed.

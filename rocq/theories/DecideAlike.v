(** A sufficient test for [alike], used to exhibit examples. *)
From Verif Require Import Prelude GoStrings Yaml Heap ActionNames SpecActions Overlay Queue Files Decode SpecDecode ProofDecode.

Section test.
Context (h : heap) (to_int : info -> option Z).

Definition one_alike (l l' : loc) : bool :=
  match sight_of h l, sight_of h l' with
  | SNull, SNull => true
  | SText i, SText i' => seq_eqb (i_value i) (i_value i')
  | _, _ => false
  end.
Fixpoint all2 {A} (f : A -> A -> bool) (l l' : list A) : bool :=
  match l, l' with [], [] => true | x :: r, x' :: r' => f x x' && all2 f r r' | _, _ => false end.
Fixpoint alikeb (s : schema) (l l' : loc) : bool :=
  Nat.eqb l l' ||
  match s with
  | XNode | XInt => false
  | XText => one_alike l l'
  | XQueries =>
      one_alike l l' ||
      match sight_of h l, sight_of h l' with
      | SList ls, SList ls' => all2 one_alike ls ls'
      | SList ls, SText _ => all2 one_alike ls [l']
      | SText _, SList ls => all2 one_alike [l] ls
      | _, _ => false
      end
  | XList s =>
      match sight_of h l, sight_of h l' with
      | SNull, SNull => true
      | SList ls, SList ls' => all2 (alikeb s) ls ls'
      | _, _ => false
      end
  | XRecord fs =>
      match d_struct h (map fst fs) l, d_struct h (map fst fs) l' with
      | Ok (Some t), Ok (Some t') =>
          (fix all (fs : list (string * schema)) : bool :=
             match fs with
             | [] => true
             | (k, s) :: r =>
                 match values_for k t, values_for k t' with
                 | [], [] => true
                 | [v], [v'] => alikeb s v v'
                 | _, _ => false
                 end && all r
             end) fs
      | _, _ => false
      end
  end.

Lemma text_of i l : sight_of h l = SText i -> is_text h l (i_value i).
Proof. intros H. exists i. split; [by apply sight_text|done]. Qed.
Lemma one_alike_sound l l' : one_alike l l' = true -> is_null h l /\ is_null h l' \/ exists t, is_text h l t /\ is_text h l' t.
Proof.
  unfold one_alike. destruct (sight_of h l) eqn:E; try done; destruct (sight_of h l') eqn:E'; try done.
  - left. split; by apply sight_null.
  - destruct (seq_eqb_spec (i_value i) (i_value i0)) as [Hi|]; [|done]. right. exists (i_value i). split; [by apply text_of|]. rewrite Hi. by apply text_of.
Qed.
Lemma one_alike_text i i' l l' : sight_of h l = SText i -> sight_of h l' = SText i' -> one_alike l l' = true ->
  is_text h l (i_value i) /\ is_text h l' (i_value i).
Proof.
  intros E E'. unfold one_alike. rewrite E, E'. destruct (seq_eqb_spec (i_value i) (i_value i')) as [Hi|]; [|done]. split; [by apply text_of|]. rewrite Hi. by apply text_of.
Qed.
Lemma all2_sound {A} (f : A -> A -> bool) (R : A -> A -> Prop) : (forall x y, f x y = true -> R x y) -> forall l l', all2 f l l' = true -> Forall2 R l l'.
Proof.
  intros HR. induction l as [|x l IH]; intros [|x' l']; cbn [all2]; try done. intros [H1 H2]%andb_true_iff. constructor; [by apply HR|by apply IH].
Qed.
Definition schema_all (P : schema -> Prop) (s : schema) : Prop :=
  match s with
  | XList s => P s
  | XRecord fs => (fix all (fs : list (string * schema)) : Prop := match fs with [] => True | (_, s) :: r => P s /\ all r end) fs
  | _ => True
  end.
Lemma schema_rect' (P : schema -> Prop) : (forall s, schema_all P s -> P s) -> forall s, P s.
Proof.
  intros H. fix IH 1. intros [| | | |s|fs]; apply H; cbn [schema_all]; try exact I; [apply IH|].
  induction fs as [|[k s] r IHr]; [exact I|]. split; [apply IH|exact IHr].
Qed.
Lemma alikeb_sound s : forall l l', alikeb s l l' = true -> alike h to_int s l l'.
Proof.
  induction s as [s IH] using schema_rect'. intros l l' H.
  assert (X : l = l' \/ match s with
  | XNode | XInt => false
  | XText => one_alike l l'
  | XQueries =>
      one_alike l l' ||
      match sight_of h l, sight_of h l' with
      | SList ls, SList ls' => all2 one_alike ls ls'
      | SList ls, SText _ => all2 one_alike ls [l']
      | SText _, SList ls => all2 one_alike [l] ls
      | _, _ => false
      end
  | XList s =>
      match sight_of h l, sight_of h l' with
      | SNull, SNull => true
      | SList ls, SList ls' => all2 (alikeb s) ls ls'
      | _, _ => false
      end
  | XRecord fs =>
      match d_struct h (map fst fs) l, d_struct h (map fst fs) l' with
      | Ok (Some t), Ok (Some t') =>
          (fix all (fs : list (string * schema)) : bool :=
             match fs with
             | [] => true
             | (k, s) :: r =>
                 match values_for k t, values_for k t' with
                 | [], [] => true
                 | [v], [v'] => alikeb s v v'
                 | _, _ => false
                 end && all r
             end) fs
      | _, _ => false
      end
  end = true).
  { destruct s; cbn [alikeb] in H; apply orb_true_iff in H as [H|H]; first [left; by apply Nat.eqb_eq|right; exact H]. }
  clear H. destruct X as [->|H]; [destruct s; by left|]. destruct s as [| | | |s|fs]; cbn [alike]; right; try done.
  - by apply one_alike_sound.
  - apply orb_true_iff in H as [H|H]; [left; by apply one_alike_sound|]. right.
    destruct (sight_of h l) eqn:E; try done; destruct (sight_of h l') eqn:E'; try done.
    + left. destruct ls as [|x [|? ?]]; cbn [all2] in H; try (by rewrite ?andb_false_r in H). rewrite andb_true_r in H.
      exists x, (i_value i). assert (T := text_of _ _ E). pose proof (one_alike_sound _ _ H) as [[N1 _]|(t & T1 & T2)].
      * exfalso. exact (text_not_null _ _ _ T N1).
      * rewrite <- (text_fun _ _ _ _ T T1) in T2. split_and!; try done. by apply sight_list.
    + right. left. destruct ls as [|x [|? ?]]; cbn [all2] in H; try (by rewrite ?andb_false_r in H). rewrite andb_true_r in H.
      exists x, (i_value i). assert (T := text_of _ _ E'). pose proof (one_alike_sound _ _ H) as [[_ N1]|(t & T1 & T2)].
      * exfalso. exact (text_not_null _ _ _ T N1).
      * rewrite <- (text_fun _ _ _ _ T T2) in T1. split_and!; try done. by apply sight_list.
    + right. right. exists ls, ls0. split_and!; try by apply sight_list. revert H. apply all2_sound, one_alike_sound.
  - destruct (sight_of h l) eqn:E; try done; destruct (sight_of h l') eqn:E'; try done.
    + left. split; by apply sight_null.
    + right. exists ls, ls0. split_and!; try by apply sight_list. revert H. apply all2_sound. exact IH.
  - destruct (d_struct h (map fst fs) l) as [[t|]| | |] eqn:E; try done. destruct (d_struct h (map fst fs) l') as [[t'|]| | |] eqn:E'; try done.
    destruct (d_struct_spec h (map fst fs) l) as (_ & _ & X1 & X2). destruct (d_struct_spec h (map fst fs) l') as (_ & _ & Y1 & Y2).
    right. split; [apply X1; by eexists|]. split; [apply Y1; by eexists|].
    assert (T1 : tabled h (map fst fs) l t) by (exact (X2 t E)). assert (T2 : tabled h (map fst fs) l' t') by (exact (Y2 t' E')).
    clear E E' X1 X2 Y1 Y2. cbn [schema_all] in IH.
    assert (Sub : forall k s, In (k, s) fs -> In k (map fst fs)) by (intros k s Hk; by apply (in_map fst) in Hk).
    revert T1 T2 Sub. generalize (map fst fs) as all. revert H IH. induction fs as [|[k s] r IHr]; intros H IH all T1 T2 Sub; [done|].
    apply andb_true_iff in H as [H1 H2]. destruct IH as [I1 I2]. split; [|eapply IHr; eauto; intros; eapply Sub; by right].
    assert (Hk : In k all) by (eapply Sub; by left).
    destruct (values_for_cases _ _ _ _ _ T1 Hk) as [[V1 K1]|(v & V1 & K1)], (values_for_cases _ _ _ _ _ T2 Hk) as [[V2 K2]|(v' & V2 & K2)];
      rewrite V1, V2 in H1; try done.
    + split; intros ? Hk'; [by apply K1 in Hk'|by apply K2 in Hk'].
    + split; intros ? Hk'; [apply K1 in Hk' as ->; exists v'; split; [by apply K2|by apply I1]|apply K2 in Hk' as ->; exists v; split; [by apply K1|by apply I1]].
Qed.
End test.

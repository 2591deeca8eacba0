From Verif Require Import Prelude GoStrings Yaml SpecMerge Render SpecRender ProofMerge Paths.

Lemma same_but_refl f t : same_but f t t.
Proof.
  induction t as [i|i l IH] using tree_ind'; constructor; [done|done|].
  induction IH; by constructor.
Qed.


Lemma same_but_clear t u : but_comments t u -> but_comments t (clear_comments u).
Proof. intros H. destruct H as [i j Hf|i j l m Hf HF]; constructor; try done; destruct i, j; by simpl in *. Qed.

Lemma remove_comments_but t : but_comments t (remove_comments t).
Proof.
  induction t as [i|i l IH] using tree_ind'; simpl; constructor; try done.
  induction IH as [|t l Ht _ IHl]; simpl; constructor; [|done]. by apply same_but_clear.
Qed.

Lemma remove_comments_below t : Forall (everywhere no_comments) (children (remove_comments t)).
Proof.
  induction t as [i|i l IH] using tree_ind'; [constructor|].
  unfold children. cbn [remove_comments t_content]. apply Forall_map.
  eapply Forall_impl; [exact IH|]. intros x Hx. destruct x as [j [m|]].
  - cbn [remove_comments clear_comments]. rewrite everywhere_some. split; [done|]. exact Hx.
  - cbn [remove_comments clear_comments]. rewrite everywhere_none. done.
Qed.

(** ** Style *)
Lemma set_style_but s t : but_style t (set_style s t).
Proof.
  induction t as [i|i l IH] using tree_ind'.
  - cbn [set_style]. destruct (i_kind i); constructor; done.
  - assert (HF : Forall2 but_style l (map (set_style s) l)).
    { induction IH; simpl; constructor; done. }
    cbn [set_style]. destruct (i_kind i); constructor; try done; clear; induction l; constructor; auto using same_but_refl.
Qed.

Lemma set_style_all s t : good_shape t -> everywhere (fun u => t_kind u <> KZero) t ->
  everywhere (fun u => i_style (t_info u) = s) (set_style s t).
Proof.
  intros Hg Hz. induction t as [i|i l IH] using tree_ind'.
  - rewrite everywhere_none in Hz. unfold t_kind in Hz. cbn [t_info] in Hz.
    cbn [set_style]. destruct (i_kind i); try done; rewrite everywhere_none; done.
  - unfold good_shape in *. rewrite everywhere_some in Hg, Hz. destruct Hg as [Hg1 Hg2], Hz as [Hz1 Hz2].
    assert (HF : Forall (everywhere (fun u => i_style (t_info u) = s)) (map (set_style s) l)).
    { clear Hg1 Hz1. induction IH as [|x l Hx _ IHl]; simpl; [constructor|].
      apply Forall_cons in Hg2 as [? ?]. apply Forall_cons in Hz2 as [? ?]. constructor; auto. }
    unfold node_shape, t_kind in *. cbn [t_info t_content] in *.
    cbn [set_style]. destruct (i_kind i); try done; rewrite everywhere_some; done.
Qed.

Lemma in_style_pow v : In v style_constants -> exists k, v = (2 ^ k)%N.
Proof. intros [<-|[<-|[<-|[<-|[<-|[<-|[<-|[]]]]]]]]; [exists 0%N|exists 1%N|exists 2%N|exists 3%N|exists 4%N|exists 5%N|exists 6%N]; done. Qed.

Lemma fold_add_acc l a : fold_left (fun s v => (s + v)%N) l a = (a + fold_right N.add 0 l)%N.
Proof. revert a; induction l as [|v l IH]; intros a; simpl; [lia|]. rewrite IH. lia. Qed.

Lemma sum_bits l : NoDup l -> Forall (fun v => In v style_constants) l ->
  forall k, N.testbit (fold_right N.add 0%N l) k = true <-> In (2 ^ k)%N l.
Proof.
  induction l as [|v l IH]; intros Hnd Hin k; cbn [fold_right In]; [rewrite N.bits_0; split; done|].
  apply NoDup_cons in Hnd as [Hn Hnd]. apply Forall_cons in Hin as [Hv Hin].
  destruct (in_style_pow v Hv) as [j ->]. specialize (IH Hnd Hin).
  assert (Hland : N.land (2 ^ j) (fold_right N.add 0%N l) = 0%N).
  { apply N.bits_inj. intros b. rewrite N.land_spec, N.bits_0, N.pow2_bits_eqb.
    destruct (N.eqb_spec j b) as [->|]; [|done]. simpl.
    destruct (N.testbit (fold_right N.add 0%N l) b) eqn:Hb; [|done].
    apply IH in Hb. exfalso. apply Hn. by apply elem_of_list_In. }
  rewrite N.add_nocarry_lxor by done. rewrite N.lxor_spec, N.pow2_bits_eqb.
  destruct (N.eqb_spec j k) as [->|Hne].
  - destruct (N.testbit (fold_right N.add 0%N l) k) eqn:Hb.
    + apply IH in Hb. exfalso. apply Hn. by apply elem_of_list_In.
    + simpl. split; [by left|done].
  - rewrite xorb_false_l, IH. split; [by right|]. intros [Heq|?]; [|done].
    apply N.pow_inj_r in Heq; [done|lia].
Qed.

Lemma style_of_name_const s : Forall (fun v => In v style_constants) (style_of_name s).
Proof.
  unfold style_of_name. repeat (destruct (existsb _ _); [apply Forall_singleton; simpl; tauto|]). constructor.
Qed.
Lemma styles_from_config_const v : Forall (fun v => In v style_constants) (styles_from_config v).
Proof.
  unfold styles_from_config. apply Forall_concat, Forall_map, Forall_true. intros ss.
  apply Forall_concat, Forall_map, Forall_true. intros s. apply style_of_name_const.
Qed.

(** ** Encoding *)
Section enc.
Context (enc : nat -> tree -> option (list N)).

Lemma encode_loop_spec styles nodes : forall i k out, (0 < i)%nat ->
  encode_loop enc styles i k nodes out =
  match encodings enc k (map (set_style (get_style (styles_from_config styles))) (live nodes)) with
  | Some s => Ok (out ++ s)
  | None => Err EEncode
  end.
Proof.
  induction nodes as [|n nodes IH]; intros i k out Hi; cbn [encode_loop live List.filter map encodings].
  - by rewrite app_nil_r.
  - fold (live nodes). destruct (children n) as [|x xs].
    + cbn [negb]. apply IH. lia.
    + cbn [negb map encodings]. destruct (Nat.eqb_spec i 0); [lia|].
      destruct (enc k _) as [s|]; [|done]. rewrite IH by lia.
      destruct (encodings enc (S k) _) as [t|]; [|done]. by rewrite app_assoc.
Qed.

Lemma encode_nodes_spec styles nodes :
  encode_nodes enc styles nodes =
  match encodings enc 0 (map (set_style (get_style (styles_from_config styles))) (live nodes)) with
  | Some s => Ok ((match nodes with n :: _ => if decide (children n = []) then [] else lit "---" ++ [10%N] | [] => [] end) ++ s)
  | None => Err EEncode
  end.
Proof.
  unfold encode_nodes. destruct nodes as [|n nodes]; [done|].
  cbn [encode_loop live List.filter]. fold (live nodes). destruct (children n) as [|x xs] eqn:Hn.
  - cbn [negb]. rewrite encode_loop_spec by lia. by rewrite decide_True.
  - cbn [negb map encodings]. rewrite decide_False by done.
    cbn [Nat.eqb]. destruct (enc 0 _) as [s|]; [|done]. rewrite encode_loop_spec by lia.
    destruct (encodings enc 1 _) as [t|]; [|done]. by rewrite app_assoc.
Qed.
End enc.

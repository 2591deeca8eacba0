(** Paths of steps as queries on trees. *)
From Verif Require Import Prelude Yaml Heap Builder Overlay Finder SpecInject SpecMeaning Steps.

(** The numbers of the children that hold a node's members: all of a sequence, every second
    one of a mapping (its values). *)
Definition held (t : tree) : list nat :=
  let n := length (children t) in
  match t_kind t with
  | KSequence => seq 0 n
  | KMapping => map (fun j => 2 * j + 1) (seq 0 (Nat.div2 n))
  | _ => []
  end.
(** The text at a path of keys. *)
Definition shows (names : list (list N)) (text : list N) (t : tree) : bool :=
  match key_position names t with
  | Some p => match node_at p t with Some v => kind_eqb (t_kind v) KScalar && bool_decide (t_value v = text) | None => false end
  | None => false
  end.
Fixpoint all_positions (t : tree) : list position :=
  match t with
  | T _ None => [[]]
  | T _ (Some ts) => [] :: (fix go (k : nat) (ts : list tree) : list position :=
                              match ts with [] => [] | c :: r => map (cons k) (all_positions c) ++ go (S k) r end) 0 ts
  end.
Definition t_step (s : step) (t : tree) : list position :=
  match s with
  | Name k => match t_kind t, key_index k (children t) with KMapping, Some j => [[j]] | _, _ => [] end
  | KeyOf k => match t_kind t, key_index k (children t) with KMapping, Some j => [[pred j]] | _, _ => [] end
  | Every => map (fun i => [i]) (held t)
  | Index z => match t_kind t with
               | KSequence => let n := length (children t) in
                   map (fun i => [i]) (List.filter (fun i => bool_decide (z = Z.of_nat i \/ z = Z.of_nat i - Z.of_nat n)%Z) (seq 0 n))
               | _ => [] end
  | Where names text => map (fun i => [i]) (List.filter (fun i => match children t !! i with Some c => shows names text c | None => false end) (held t))
  | Deep => all_positions t
  end.
Fixpoint t_steps (ss : list step) (t : tree) : list position :=
  match ss with
  | [] => [[]]
  | s :: r => concat (map (fun p => match node_at p t with Some c => map (app p) (t_steps r c) | None => [] end) (t_step s t))
  end.
Definition step_query (text : list N) (ss : list step) : tquery :=
  mkTQuery text (fun t =>
    match t_kind t, children t with
    | KDocument, c :: _ => map (cons 0) (t_steps ss c)
    | KDocument, [] => []
    | _, _ => t_steps ss t
    end).

(** No step is a recursive descent. *)
Definition shallow (ss : list step) : Prop := ~ In Deep ss.

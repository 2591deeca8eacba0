(** Model of internal/actions/combine.go on trees, with the strconv functions
    it uses (Go standard library, modelled from its documentation; int is
    64 bits wide). *)
From Verif Require Import Prelude GoStrings Format Yaml MergeTree.
Local Open Scope Z_scope.

Definition min_int : Z := - 2 ^ 63.
Definition max_int : Z := 2 ^ 63 - 1.
Definition in_int (z : Z) : bool := (min_int <=? z) && (z <=? max_int).

(** Two's complement wrap-around of Go's int addition. *)
(* combine.go:36  o + n *)
Definition wrap (z : Z) : Z := (z + 2 ^ 63) mod 2 ^ 64 - 2 ^ 63.

(** The value of a non-empty run of decimal digits. *)
(* part of strconv.Atoi (standard library), combine.go:26, 31 *)
Definition digit (c : N) : option Z :=
  if (48 <=? c)%N && (c <=? 57)%N then Some (Z.of_N c - 48) else None.
(* part of strconv.Atoi (standard library), combine.go:26, 31 *)
Fixpoint digits (acc : Z) (s : list N) : option Z :=
  match s with
  | [] => Some acc
  | c :: r => match digit c with Some d => digits (10 * acc + d) r | None => None end
  end.
(* part of strconv.Atoi (standard library), combine.go:26, 31 *)
Definition udecimal (s : list N) : option Z := match s with [] => None | _ => digits 0 s end.

(** strconv.Atoi: optional sign, decimal digits only, 64-bit range. *)
Definition atoi (s : list N) : option Z :=
  let v :=
    match s with
    | c :: r => if ceq c (ch "-") then option_map Z.opp (udecimal r)
                else if ceq c (ch "+") then udecimal r else udecimal s
    | [] => None
    end in
  match v with
  | Some z => if in_int z then Some z else None
  | None => None
  end.

(** strconv.Itoa.  [itoa_fuel] bounds the number of digits. *)
Fixpoint print_digits (fuel : nat) (n : Z) (acc : list N) : list N :=
  match fuel with
  | O => acc
  | S f => let d := Z.to_N (48 + n mod 10) in
           if n <? 10 then d :: acc else print_digits f (n / 10) (d :: acc)
  end.
Definition itoa_fuel (n : Z) : nat := S (Z.to_nat (Z.log2 n)).
Definition itoa (z : Z) : list N :=
  if z <? 0 then ch "-" :: print_digits (itoa_fuel (- z)) (- z) []
  else print_digits (itoa_fuel z) z [].

(** strconv.ParseBool *)
Definition parse_bool (s : list N) : option bool :=
  if existsb (seq_eqb s) [lit "1"; lit "t"; lit "T"; lit "TRUE"; lit "true"; lit "True"] then Some true
  else if existsb (seq_eqb s) [lit "0"; lit "f"; lit "F"; lit "FALSE"; lit "false"; lit "False"] then Some false
  else None.
(** strconv.FormatBool *)
Definition format_bool (b : bool) : list N := if b then lit "true" else lit "false".

(** combine.go:17-59  CombineNode.  The first component is the node left behind
    (the comments are already merged when a conversion fails), the second the
    error returned. *)
Definition combine_node (sed : sed_engine) (o n : tree) : tree * option err :=
  if negb (kind_eqb (t_kind o) KScalar) || negb (kind_eqb (t_kind n) KScalar)
  then (o, Some ECombineOnlyScalars)
  else
    let i := merge_comments sed (t_info o) (t_info n) [] in
    let keep := T i (t_content o) in
    let put v := T (set_value v i) (t_content o) in
    if seq_eqb (i_tag i) (lit "!!int") then
      match atoi (i_value i), atoi (t_value n) with
      | Some x, Some y => (put (itoa (wrap (x + y))), None)
      | _, _ => (keep, Some EAtoi)
      end
    else if seq_eqb (i_tag i) (lit "!!bool") then
      match parse_bool (i_value i), parse_bool (t_value n) with
      | Some x, Some y => (put (format_bool (x && y)), None)
      | _, _ => (keep, Some EParseBool)
      end
    else (put (i_value i ++ t_value n), None).

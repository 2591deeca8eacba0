(** Go's standard [strings] functions, on lists of code points, as used by the
    modelled code.  Written from their documentation; this file is part of the
    trusted base (it models the Go standard library, not /repo). *)
From Verif Require Import Prelude.

(** strings.HasPrefix(s, p) *)
(* used at lexer.go:161, 251, 304 and path.go:239 *)
Fixpoint has_prefix (p s : list N) : bool :=
  match p, s with
  | [], _ => true
  | c :: p', d :: s' => ceq c d && has_prefix p' s'
  | _ :: _, [] => false
  end.

(** strings.Contains(s, sub) *)
(* used at markers.go:31 *)
Fixpoint contains (s sub : list N) : bool :=
  has_prefix sub s ||
  match s with [] => false | _ :: r => contains r sub end.

(** strings.TrimPrefix(s, p) *)
(* used at merge.go:141-143, 173-175, format.go:117, instructions.go:132 and path.go:97, 111, 240, 242 *)
Definition trim_prefix (s p : list N) : list N :=
  if has_prefix p s then drop (length p) s else s.

(** strings.HasSuffix(s, p) *)
(* part of strings.TrimSuffix, used at format.go:116 *)
Definition has_suffix (p s : list N) : bool := has_prefix (rev p) (rev s).

(** strings.TrimSuffix(s, p) *)
(* used at format.go:116 and path.go:111, 240, 242 *)
Definition trim_suffix (s p : list N) : list N :=
  if has_suffix p s then take (length s - length p) s else s.

(** strings.Replace(s, old, new, 1), for non-empty [old]. *)
(* used at format.go:98 *)
Fixpoint replace_first (s old new : list N) : list N :=
  if has_prefix old s then new ++ drop (length old) s
  else match s with [] => [] | c :: r => c :: replace_first r old new end.

(** strings.ReplaceAll(s, old, new), for non-empty [old]: leftmost,
    non-overlapping occurrences.  [skip] counts characters of a matched
    occurrence still to be dropped. *)
(* part of strings.ReplaceAll, used at format.go:49 *)
Fixpoint replace_all_from (skip : nat) (s old new : list N) : list N :=
  match s with
  | [] => []
  | c :: r =>
      match skip with
      | S k => replace_all_from k r old new
      | O => if has_prefix old s
             then new ++ replace_all_from (length old - 1) r old new
             else c :: replace_all_from 0 r old new
      end
  end.
(* used at format.go:49 *)
Definition replace_all (s old new : list N) : list N := replace_all_from 0 s old new.

(** strings.Split(s, sep) for a one-character separator. *)
(* used at style.go:90 and path.go:208 *)
Fixpoint split_on (sep : N) (s : list N) : list (list N) :=
  match s with
  | [] => [[]]
  | c :: r =>
      if ceq c sep then [] :: split_on sep r
      else match split_on sep r with
           | [] => [[c]]
           | w :: ws => (c :: w) :: ws
           end
  end.

(** strings.Join(l, ",") *)
(* used at query.go:81 *)
Fixpoint join_with (sep : list N) (l : list (list N)) : list N :=
  match l with
  | [] => []
  | [w] => w
  | w :: ws => w ++ sep ++ join_with sep ws
  end.

(** unicode.IsSpace (the White_Space code points). *)
(* used through strings.TrimSpace at path.go:110, 112, 238 and at lexer.go:140-171 *)
Definition is_space (c : N) : bool :=
  existsb (ceq c)
    [9; 10; 11; 12; 13; 32; 133; 160; 5760; 8192; 8193; 8194; 8195; 8196; 8197;
     8198; 8199; 8200; 8201; 8202; 8232; 8233; 8239; 8287; 12288]%N.

(** strings.TrimSpace *)
(* part of strings.TrimSpace and strings.Trim, used at path.go:110 and style.go:90 *)
Fixpoint trim_left (f : N -> bool) (s : list N) : list N :=
  match s with
  | c :: r => if f c then trim_left f r else s
  | [] => []
  end.
(* used at path.go:110, 112, 238 *)
Definition trim_space (s : list N) : list N :=
  rev (trim_left is_space (rev (trim_left is_space s))).

(** strings.Trim(s, cutset) *)
(* used at style.go:90 *)
Definition trim_cutset (cut s : list N) : list N :=
  let f c := existsb (ceq c) cut in rev (trim_left f (rev (trim_left f s))).

(** strings.ToLower.  ASCII letters, and the two other code points whose lower
    case is an ASCII letter (U+0130 and the Kelvin sign).  Simplification: other
    code points are left alone; Go may map them to other non-ASCII code points,
    which no comparison with an ASCII word can tell. *)
(* part of strings.ToLower, used at action.go:54, 117 and style.go:90 *)
Definition to_lower_char (c : N) : N :=
  if (65 <=? c)%N && (c <=? 90)%N then (c + 32)%N
  else if N.eqb c 304 then 105%N else if N.eqb c 8490 then 107%N else c.
(* used at action.go:54, 117 and style.go:90 *)
Definition to_lower (s : list N) : list N := map to_lower_char s.

(** strings.EqualFold.  Simplification: ASCII folding only, which is exact when
    one side is an ASCII word without the letters k and s. *)
(* part of strings.EqualFold, used at onmissing.go:32 *)
Definition fold_char (c : N) : N := if (65 <=? c)%N && (c <=? 90)%N then (c + 32)%N else c.
(* used at onmissing.go:32 *)
Definition equal_fold (a b : list N) : bool := seq_eqb (map fold_char a) (map fold_char b).

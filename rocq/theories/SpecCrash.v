(** What a run leaves behind when it is killed. *)
From Verif Require Import Prelude GoStrings Format Yaml Heap Overlay Queue Paths Render SpecRender Fine Pipeline Execute SpecExecute Calls.

(** [left_by_kill s w]: the process is killed (or a goroutine panics) in state [s] of
    Execute, possibly in the middle of writing the file whose documents have just been
    read, after some of the calls for it; [w] is what is left. *)
Definition left_by_kill (enc : nat -> tree -> option (list N)) (cfg : out_config) (files : list yfile) (s : exec_state) (w : world) : Prop :=
  w = outside s \/
  exists i r f ts calls more res, crashed s = false /\ main s = MPost i r /\ peek r (memory s) = inr (Ok ts) /\ files !! i = Some f /\
    performs enc cfg ts (yf_output f) (calls ++ more) res /\ w = effects calls (outside s).

(** Given which texts belong where: a file is as it was, or holds a whole text that belongs
    there; and that is so of all files except perhaps one, which holds the beginning of a
    text that belongs there. *)
Definition whole (belongs : list N -> list N -> Prop) (w1 w : world) (name : list N) : Prop :=
  file_content w name = file_content w1 name \/ exists text, belongs name text /\ file_content w name = Some text.
Definition all_but_one (belongs : list N -> list N -> Prop) (w1 w : world) : Prop :=
  (forall name, whole belongs w1 w name) \/
  exists name part rest, belongs name (part ++ rest) /\ file_content w name = Some part /\
    forall other, other <> name -> whole belongs w1 w other.

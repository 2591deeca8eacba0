(** The format of an instructions file: what a YAML document has to look like to mean
    given instructions.  Nothing here computes; the decoder is in Decode.v. *)
From Verif Require Import Prelude GoStrings Yaml Heap ActionNames SpecActions Overlay Queue Files Decode.

Section format.
Context (h : heap).

(** The node at [l], or the one that the alias at [l] stands for. *)
Definition node_of (l : loc) (n : hnode) : Prop := exists n0, h !! l = Some n0 /\
  (i_kind (n_info n0) <> KAlias /\ n = n0 \/
   i_kind (n_info n0) = KAlias /\ exists a, n_alias n0 = Some a /\ h !! a = Some n).
Definition of_kind (k : kind) (l : loc) (n : hnode) : Prop := node_of l n /\ i_kind (n_info n) = k.
Definition elements (n : hnode) : list loc := match n_content n with Some ls => ls | None => [] end.

Definition is_null (l : loc) : Prop := exists n, of_kind KScalar l n /\ i_tag (n_info n) = lit "!!null".
Definition is_scalar (l : loc) (i : info) : Prop := exists n, of_kind KScalar l n /\ n_info n = i /\ i_tag i <> lit "!!null".
Definition is_text (l : loc) (s : list N) : Prop := exists i, is_scalar l i /\ i_value i = s.
Definition is_list (l : loc) (ls : list loc) : Prop := exists n, of_kind KSequence l n /\ elements n = ls.
(** Key number [i] of the mapping at [l], with its value. *)
Definition pair_at (l : loc) (i : nat) (k v : loc) : Prop := exists n, of_kind KMapping l n /\
  elements n !! (2 * i) = Some k /\ elements n !! (2 * i + 1) = Some v.
Definition has_key (l : loc) (k : string) (v : loc) : Prop := exists i kl, pair_at l i kl v /\ is_text kl (lit k).

(** A mapping that can be read as a record with the given fields: its keys are texts (or
    null); no key is written twice, and no field is given twice (two different keys can
    name the same field, one being an alias). *)
Definition record_like (fields : list string) (l : loc) : Prop :=
  (exists n, of_kind KMapping l n) /\
  (forall i k v, pair_at l i k v -> is_null k \/ exists s, is_text k s) /\
  (forall i j k1 v1 k2 v2 n1 n2, pair_at l i k1 v1 -> pair_at l j k2 v2 -> h !! k1 = Some n1 -> h !! k2 = Some n2 ->
     i_kind (n_info n1) = i_kind (n_info n2) -> i_value (n_info n1) = i_value (n_info n2) -> i = j) /\
  (forall f i j k1 v1 k2 v2, In f fields -> pair_at l i k1 v1 -> pair_at l j k2 v2 ->
     is_text k1 (lit f) -> is_text k2 (lit f) -> i = j).

(** Field [k] of the record at [l] means [a]: what is written there, or [zero] if nothing
    or null is. *)
Definition field {A} (P : loc -> A -> Prop) (zero : A) (l : loc) (k : string) (a : A) : Prop :=
  (exists v, has_key l k v /\ (is_null v /\ a = zero \/ ~ is_null v /\ P v a)) \/
  ((forall v, ~ has_key l k v) /\ a = zero).
(** The same for a field that is nil if not given. *)
Definition optional {A} (P : loc -> A -> Prop) : loc -> string -> option A -> Prop :=
  field (fun v o => exists a, o = Some a /\ P v a) None.

(** Elements meaning [xs] in order, nulls being left out. *)
Inductive listed {A} (P : loc -> A -> Prop) : list loc -> list A -> Prop :=
  | listed_nil : listed P [] []
  | listed_null l ls xs : is_null l -> listed P ls xs -> listed P (l :: ls) xs
  | listed_item l ls x xs : ~ is_null l -> P l x -> listed P ls xs -> listed P (l :: ls) (x :: xs).
(** Elements meaning [xs] in order, a null being a nil pointer. *)
Definition pointers {A} (P : loc -> A -> Prop) : list loc -> list (option A) -> Prop :=
  Forall2 (fun l x => is_null l /\ x = None \/ ~ is_null l /\ exists a, x = Some a /\ P l a).
Definition list_of {A} (P : loc -> A -> Prop) (l : loc) (xs : list A) : Prop := exists ls, is_list l ls /\ listed P ls xs.
Definition pointers_to {A} (P : loc -> A -> Prop) (l : loc) (xs : list (option A)) : Prop :=
  exists ls, is_list l ls /\ pointers P ls xs.

Context (compile : list N -> option (heap -> loc -> list loc)) (to_int : info -> option Z).

Definition means_int (l : loc) (z : Z) : Prop := exists i, is_scalar l i /\ to_int i = Some z.
Definition means_query (l : loc) (q : query) : Prop := is_text l (q_text q) /\ compile (q_text q) = Some (q_find q).
(** One query, or a list of them. *)
Definition means_queries (l : loc) (qs : list query) : Prop :=
  (exists q, means_query l q /\ qs = [q]) \/ list_of means_query l qs.

Definition action_word (a : action) : option string :=
  match a with AInvalid => None | AMerge => Some "merge"%string | AReplace => Some "replace"%string
             | ADelete => Some "delete"%string | ACombine => Some "combine"%string end.
Definition means_action (l : loc) (a : action) : Prop := exists s w, is_text l s /\ action_word a = Some w /\ spells s w.
Definition means_missing (l : loc) (a : missing_action) : Prop := exists s, is_text l s /\
  match a with
  | MIgnore => spells s "ignore"
  | MInject => spells s "inject"
  | MDefault => ~ spells s "ignore" /\ ~ spells s "inject"
  end.

Definition means_condition (l : loc) (c : raw_condition) : Prop :=
  record_like ["query"; "value"]%string l /\
  field means_queries [] l "query" (rc_query c) /\
  (forall v, has_key l "value" v -> rc_value c = Some v) /\
  ((forall v, ~ has_key l "value" v) -> rc_value c = None).
Definition means_docquery (l : loc) (cs : list (option raw_condition)) : Prop :=
  record_like ["conditions"]%string l /\
  field (pointers_to means_condition) [] l "conditions" cs.
Definition means_onmissing (l : loc) (om : missing_action * option (list query)) : Prop :=
  record_like ["action"; "injectPath"]%string l /\
  field means_missing MDefault l "action" (fst om) /\
  optional means_queries l "injectPath" (snd om).

(** An overlay.  Without a name it is called after its queries; without an action it has
    none (which is treated as merge, C48) or merge. *)
Definition means_overlay (l : loc) (o : raw_overlay) : Prop :=
  record_like ["name"; "query"; "value"; "action"; "documentQuery"; "onMissing"; "documentIndex"]%string l /\
  (exists name a, field is_text [] l "name" name /\ field means_action AInvalid l "action" a /\
     ro_name o = match name with
                 | [] => join_with (lit ",") (map q_text (match ro_query o with Some qs => qs | None => [] end))
                 | _ => name end /\
     ro_action o = match name, a with _ :: _, AInvalid => AMerge | _, _ => a end) /\
  optional means_queries l "query" (ro_query o) /\
  (forall v, has_key l "value" v -> ro_value o = Some v) /\
  ((forall v, ~ has_key l "value" v) -> ro_value o = None) /\
  field (pointers_to means_docquery) [] l "documentQuery" (ro_docqueries o) /\
  field means_onmissing (MDefault, None) l "onMissing" (ro_missing o, ro_inject o) /\
  optional (list_of means_int) l "documentIndex" (ro_index o).

Definition means_document (l : loc) (d : document (option raw_overlay)) : Prop :=
  record_like ["name"; "path"; "overlays"]%string l /\
  (exists name, field is_text [] l "name" name) /\
  field means_int 0%Z l "path" (d_path d) /\
  field (pointers_to means_overlay) [] l "overlays" (d_overlays d).
Definition means_file (l : loc) (e : raw_entry) : Prop :=
  record_like ["name"; "overlays"; "documents"; "path"; "outputPath"]%string l /\
  field is_text [] l "name" (e_name e) /\
  field (pointers_to means_overlay) [] l "overlays" (e_overlays e) /\
  field (pointers_to means_document) [] l "documents" (e_documents e) /\
  field is_text [] l "path" (e_path e) /\ field is_text [] l "outputPath" (e_output e) /\ e_nodes e = [].
(** A whole instructions file: null (nothing at all), or a record of two lists. *)
Definition means_instructions (l : loc) (i : raw_overlays * list (option raw_entry)) : Prop :=
  is_null l /\ i = ([], []) \/
  record_like ["commonOverlays"; "yamlFiles"]%string l /\
  field (pointers_to means_overlay) [] l "commonOverlays" (fst i) /\
  field (pointers_to means_file) [] l "yamlFiles" (snd i).

(** *** Places in an instructions file *)
Definition item_of (l x : loc) : Prop := exists ls, is_list l ls /\ In x ls.
(** The overlays written in the file: common ones, those of files and those of documents
    entries. *)
Inductive overlay_at (root : loc) : loc -> Prop :=
  | at_common v o : has_key root "commonOverlays" v -> item_of v o -> overlay_at root o
  | at_file v f w o : has_key root "yamlFiles" v -> item_of v f -> has_key f "overlays" w -> item_of w o -> overlay_at root o
  | at_document v f w d x o : has_key root "yamlFiles" v -> item_of v f -> has_key f "documents" w -> item_of w d ->
      has_key d "overlays" x -> item_of x o -> overlay_at root o.
(** The texts of queries at [v]: alone or in a list. *)
Definition query_text_at (v : loc) (s : list N) : Prop := is_text v s \/ exists x, item_of v x /\ is_text x s.
(** The texts of all queries of the overlay at [o]. *)
Inductive query_of (o : loc) : list N -> Prop :=
  | own_query v s : has_key o "query" v -> query_text_at v s -> query_of o s
  | inject_path m v s : has_key o "onMissing" m -> has_key m "injectPath" v -> query_text_at v s -> query_of o s
  | condition_query v d w c x s : has_key o "documentQuery" v -> item_of v d -> has_key d "conditions" w -> item_of w c ->
      has_key c "query" x -> query_text_at x s -> query_of o s.

(** *** Different ways to write the same *)
(** What is expected at a place: any node, a text, a number, queries, a list, a record. *)
Inductive schema := XNode | XText | XInt | XQueries | XList (s : schema) | XRecord (fields : list (string * schema)).

(** [l] and [l'] say the same, where [s] is expected: the same node; null; the same text
    or number, however it is written; a query alone or as a list of one; lists alike
    item by item; records with the same fields, in any order, with any other keys. *)
Fixpoint alike (s : schema) (l l' : loc) : Prop :=
  l = l' \/
  match s with
  | XNode => False
  | XText => is_null l /\ is_null l' \/ exists t, is_text l t /\ is_text l' t
  | XInt => is_null l /\ is_null l' \/ exists i i', is_scalar l i /\ is_scalar l' i' /\ to_int i = to_int i'
  | XQueries =>
      let one a b := is_null a /\ is_null b \/ exists t, is_text a t /\ is_text b t in
      one l l' \/
      (exists x t, is_text l t /\ is_list l' [x] /\ is_text x t) \/ (exists x t, is_text l' t /\ is_list l [x] /\ is_text x t) \/
      exists ls ls', is_list l ls /\ is_list l' ls' /\ Forall2 one ls ls'
  | XList s => is_null l /\ is_null l' \/ exists ls ls', is_list l ls /\ is_list l' ls' /\ Forall2 (alike s) ls ls'
  | XRecord fs =>
      is_null l /\ is_null l' \/
      record_like (map fst fs) l /\ record_like (map fst fs) l' /\
      (fix all (fs : list (string * schema)) : Prop :=
         match fs with
         | [] => True
         | (k, s) :: r =>
             ((forall v, has_key l k v -> exists v', has_key l' k v' /\ alike s v v') /\
              (forall v', has_key l' k v' -> exists v, has_key l k v /\ alike s v v')) /\ all r
         end) fs
  end.

Definition x_condition := XRecord [("query", XQueries); ("value", XNode)]%string.
Definition x_docquery := XRecord [("conditions", XList x_condition)]%string.
Definition x_onmissing := XRecord [("action", XText); ("injectPath", XQueries)]%string.
Definition x_overlay := XRecord [("name", XText); ("query", XQueries); ("value", XNode); ("action", XText);
  ("documentQuery", XList x_docquery); ("onMissing", x_onmissing); ("documentIndex", XList XInt)]%string.
Definition x_document := XRecord [("name", XText); ("path", XInt); ("overlays", XList x_overlay)]%string.
Definition x_file := XRecord [("name", XText); ("overlays", XList x_overlay); ("documents", XList x_document);
  ("path", XText); ("outputPath", XText)]%string.
Definition x_instructions := XRecord [("commonOverlays", XList x_overlay); ("yamlFiles", XList x_file)]%string.
End format.

(** Model of decoding the instructions file: the UnmarshalYAML methods and the struct
    tags of Instructions, YamlFile, Document, Overlay, OnMissing, DocumentQuery and
    Condition.

    yaml.v3's own part (external) is modelled as documented by its source: an alias
    stands for the node it names; a mapping is decoded into a struct by field
    names, unknown names being ignored and repeated names an error; a null leaves
    a field as it is, is dropped from a list of strings, numbers or queries, and is a
    nil pointer in a list of pointers; any scalar is accepted as a string; a
    yaml.Node takes the node itself.  Simplifications: merge keys ("<<") count as
    unknown names; a scalar is null iff its tag is "!!null"; which of several
    errors is reported is not modelled; the limit on expanding aliases is ignored;
    Overlay.Value, a copy of the node in the file, is identified with that node
    (values are only read). *)
From Verif Require Import Prelude GoStrings Yaml Heap ActionNames Overlay Queue Files.

(** What a decoder sees of a node. *)
(* external: yaml.v3 decode.go, decoder.unmarshal *)
Inductive sight :=
  | SNull
  | SText (i : info)
  | SList (ls : list loc)
  | SMap (kvs : list (loc * loc))
  | SOther.

(** Keys and values of a mapping alternate. *)
(* external: yaml.v3 decode.go, decoder.mappingStruct *)
Fixpoint key_values (ls : list loc) : list (loc * loc) :=
  match ls with k :: v :: r => (k, v) :: key_values r | _ => [] end.

(** yaml.v3 decode.go alias(): an alias is replaced by the node it names (which is never
    an alias itself). *)
Definition named_node (h : heap) (l : loc) : option hnode :=
  match h !! l with
  | Some n =>
      match i_kind (n_info n), n_alias n with
      | KAlias, Some a => h !! a
      | KAlias, None => None
      | _, _ => Some n
      end
  | None => None
  end.

Definition sight_of (h : heap) (l : loc) : sight :=
  match named_node h l with
  | None => SOther
  | Some n =>
      let ls := match n_content n with Some ls => ls | None => [] end in
      match i_kind (n_info n) with
      | KScalar => if seq_eqb (i_tag (n_info n)) (lit "!!null") then SNull else SText (n_info n)
      | KSequence => SList ls
      | KMapping => SMap (key_values ls)
      | _ => SOther
      end
  end.

(** A condition, overlay, ... as decoded.  Values omitted are None (the zero Node). *)
(* documentquery.go:16-19  type Condition *)
Record raw_condition := mkRawCondition { rc_query : list query; rc_value : option loc }.
(* overlay.go:16-24 with onmissing.go:25-28 *)
Record raw_overlay := mkRawOverlay {
  ro_name : list N; ro_query : option (list query); ro_value : option loc; ro_action : action;
  ro_docqueries : list (option (list (option raw_condition)));
  ro_missing : missing_action; ro_inject : option (list query); ro_index : option (list Z) }.
(** A list of pointers: None is a nil pointer. *)
Notation raw_overlays := (list (option raw_overlay)) (only parsing).
Notation raw_documents := (list (option (document (option raw_overlay)))) (only parsing).
Notation raw_entry := (entry (option raw_overlay) (option (document (option raw_overlay))) loc) (only parsing).

Section decode.
(** yamlpath.NewPath (external): the finder for the text of a query, if it is one *)
Context (compile : list N -> option (heap -> loc -> list loc)).
(** yaml.v3's decoding of a scalar into an int (external) *)
Context (to_int : info -> option Z).
Context (h : heap).

(** A decoder for a field of type A: [Ok None] leaves the field alone. *)
(* external: yaml.v3 decode.go *)
Definition decoder A := loc -> res (option A).

(* external: yaml.v3 decode.go, decoder.scalar into a string *)
Definition d_string : decoder (list N) := fun l =>
  match sight_of h l with SNull => Ok None | SText i => Ok (Some (i_value i)) | _ => Err EDecode end.
(* external: yaml.v3 decode.go, decoder.scalar into an int *)
Definition d_int : decoder Z := fun l =>
  match sight_of h l with
  | SNull => Ok None
  | SText i => match to_int i with Some z => Ok (Some z) | None => Err EDecode end
  | _ => Err EDecode
  end.
(* external: yaml.v3 decode.go, decoding into a yaml.Node *)
Definition d_node : decoder loc := fun l => Ok (Some l).
(* external: yaml.v3 decode.go, decoder.prepare *)
Definition d_pointer {A} (f : decoder A) : decoder (option A) := fun l =>
  match sight_of h l with SNull => Ok (Some None) | _ => let! x := f l in Ok (Some x) end.
(* external: yaml.v3 decode.go, decoder.sequence *)
Fixpoint d_elements {A} (f : decoder A) (ls : list loc) : res (list A) :=
  match ls with
  | [] => Ok []
  | l :: r => let! x := f l in let! xs := d_elements f r in Ok (match x with Some a => a :: xs | None => xs end)
  end.
(* external: yaml.v3 decode.go, decoder.sequence *)
Definition d_list {A} (f : decoder A) : decoder (list A) := fun l =>
  match sight_of h l with SNull => Ok None | SList ls => let! xs := d_elements f ls in Ok (Some xs) | _ => Err EDecode end.

(** yaml.v3 decode.go mapping(): a key node may not occur twice (kind and text) *)
Fixpoint repeated_key (kvs : list (loc * loc)) : bool :=
  match kvs with
  | [] => false
  | (k, _) :: r =>
      existsb (fun kv => match h !! k, h !! fst kv with
                         | Some a, Some b => kind_eqb (i_kind (n_info a)) (i_kind (n_info b)) && seq_eqb (i_value (n_info a)) (i_value (n_info b))
                         | _, _ => false
                         end) r || repeated_key r
  end.
(** yaml.v3 decode.go mappingStruct(): the texts of the keys (null keys are skipped) *)
Fixpoint key_texts (kvs : list (loc * loc)) : res (list (list N * loc)) :=
  match kvs with
  | [] => Ok []
  | (k, v) :: r =>
      let! x := d_string k in
      let! xs := key_texts r in
      Ok (match x with Some s => (s, v) :: xs | None => xs end)
  end.
Definition values_for (k : string) (tbl : list (list N * loc)) : list loc :=
  map snd (List.filter (fun e => seq_eqb (fst e) (lit k)) tbl).
(** A struct with fields [known]: the table of its keys *)
(* external: yaml.v3 decode.go, decoder.mappingStruct *)
Definition d_struct (known : list string) : decoder (list (list N * loc)) := fun l =>
  match sight_of h l with
  | SNull => Ok None
  | SMap kvs =>
      if repeated_key kvs then Err EDecode else
      let! tbl := key_texts kvs in
      if existsb (fun k => Nat.ltb 1 (length (values_for k tbl))) known then Err EDecode else Ok (Some tbl)
  | _ => Err EDecode
  end.
(* external: yaml.v3 decode.go, decoder.mappingStruct *)
Definition d_field {A} (tbl : list (list N * loc)) (k : string) (zero : A) (f : decoder A) : res A :=
  match values_for k tbl with
  | v :: _ => let! x := f v in Ok (match x with Some a => a | None => zero end)
  | [] => Ok zero
  end.
(** A field whose zero value is nil *)
(* external: yaml.v3 decode.go, decoder.mappingStruct *)
Definition d_nilfield {A} (tbl : list (list N * loc)) (k : string) (f : decoder A) : res (option A) :=
  match values_for k tbl with v :: _ => f v | [] => Ok None end.

(** query.go:21-37  Query.UnmarshalYAML *)
Definition d_query : decoder query := fun l =>
  let! s := d_string l in
  match s with
  | None => Ok None
  | Some s => match compile s with Some f => Ok (Some (mkQuery s f)) | None => Err EDecode end
  end.
(** query.go:49-69  Queries.UnmarshalYAML *)
Definition d_queries : decoder (list query) := fun l =>
  match sight_of h l with
  | SText _ => let! q := d_query l in Ok (match q with Some q => Some [q] | None => None end)
  | _ => d_list d_query l
  end.
(** query.go:71-82  Queries.String *)
Definition queries_string (qs : list query) : list N := join_with (lit ",") (map q_text qs).

(** action.go:47-71, 110-128 *)
Definition d_action : decoder action := fun l =>
  let! s := d_string l in
  match s with None => Ok None | Some s => let! a := decode_action s in Ok (Some a) end.
Definition d_missing : decoder missing_action := fun l =>
  let! s := d_string l in Ok (match s with Some s => Some (decode_missing s) | None => None end).

(** documentquery.go:16-19 *)
Definition d_condition : decoder raw_condition := fun l =>
  let! t := d_struct ["query"; "value"]%string l in
  match t with
  | None => Ok None
  | Some tbl =>
      let! q := d_field tbl "query" [] d_queries in
      let! v := d_nilfield tbl "value" d_node in
      Ok (Some (mkRawCondition q v))
  end.
(** documentquery.go:12-14 *)
Definition d_docquery : decoder (list (option raw_condition)) := fun l =>
  let! t := d_struct ["conditions"]%string l in
  match t with
  | None => Ok None
  | Some tbl => let! cs := d_field tbl "conditions" [] (d_list (d_pointer d_condition)) in Ok (Some cs)
  end.
(** onmissing.go:25-28 *)
Definition d_onmissing : decoder (missing_action * option (list query)) := fun l =>
  let! t := d_struct ["action"; "injectPath"]%string l in
  match t with
  | None => Ok None
  | Some tbl =>
      let! a := d_field tbl "action" MDefault d_missing in
      let! p := d_nilfield tbl "injectPath" d_queries in
      Ok (Some (a, p))
  end.

(** overlay.go:16-24, 83-98  Overlay.UnmarshalYAML *)
Definition overlay_fields : list string :=
  ["name"; "query"; "value"; "action"; "documentQuery"; "onMissing"; "documentIndex"]%string.
Definition d_overlay : decoder raw_overlay := fun l =>
  let! t := d_struct overlay_fields l in
  match t with
  | None => Ok None
  | Some tbl =>
      let! name := d_field tbl "name" [] d_string in
      let! q := d_nilfield tbl "query" d_queries in
      let! v := d_nilfield tbl "value" d_node in
      let! a := d_field tbl "action" AInvalid d_action in
      let! dq := d_field tbl "documentQuery" [] (d_list (d_pointer d_docquery)) in
      let! om := d_field tbl "onMissing" (MDefault, None) d_onmissing in
      let! ix := d_nilfield tbl "documentIndex" (d_list d_int) in
      let na := decode_defaults name (queries_string (match q with Some qs => qs | None => [] end)) a in
      Ok (Some (mkRawOverlay (fst na) q v (snd na) dq (fst om) (snd om) ix))
  end.
Definition d_overlay_list : decoder raw_overlays := d_list (d_pointer d_overlay).

(** instructions/document.go:9-13 (the name is used nowhere) *)
Definition d_document : decoder (document (option raw_overlay)) := fun l =>
  let! t := d_struct ["name"; "path"; "overlays"]%string l in
  match t with
  | None => Ok None
  | Some tbl =>
      let! _ := d_field tbl "name" [] d_string in
      let! p := d_field tbl "path" 0%Z d_int in
      let! os := d_field tbl "overlays" [] d_overlay_list in
      Ok (Some (mkDocument p os))
  end.
(** yamlfile.go:21-34.  Simplification: the key "nodes" (an untagged field, not meant for
    the file) is treated as unknown. *)
Definition d_file : decoder raw_entry := fun l =>
  let! t := d_struct ["name"; "overlays"; "documents"; "path"; "outputPath"]%string l in
  match t with
  | None => Ok None
  | Some tbl =>
      let! name := d_field tbl "name" [] d_string in
      let! os := d_field tbl "overlays" [] d_overlay_list in
      let! ds := d_field tbl "documents" [] (d_list (d_pointer d_document)) in
      let! p := d_field tbl "path" [] d_string in
      let! out := d_field tbl "outputPath" [] d_string in
      Ok (Some (mkEntry _ _ _ name os ds [] p out))
  end.
(** instructions.go:19-25 and yamlfile.go:59-64 (the rest of YamlFiles.UnmarshalYAML, which
    reads the files, is load_files of Prepare.v) *)
Definition d_instructions : decoder (raw_overlays * list (option raw_entry)) := fun l =>
  let! t := d_struct ["commonOverlays"; "yamlFiles"]%string l in
  match t with
  | None => Ok None
  | Some tbl =>
      let! os := d_field tbl "commonOverlays" [] d_overlay_list in
      let! fs := d_field tbl "yamlFiles" [] (d_list (d_pointer d_file)) in
      Ok (Some (os, fs))
  end.

(** instructions.go:104-107  decoding the first document of the stream ([None]: there is
    none, io.EOF) *)
Definition decode_instructions (doc : option loc) : res (raw_overlays * list (option raw_entry)) :=
  match doc with
  | None => Err EDecode
  | Some l =>
      match h !! l with
      | Some n =>
          match i_kind (n_info n), n_content n with
          | KDocument, Some (c :: _) =>
              let! x := d_instructions c in
              Ok (match x with Some x => x | None => ([], []) end)
          | _, _ => Err EDecode
          end
      | None => Panic
      end
  end.
End decode.

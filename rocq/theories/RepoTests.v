(** The project's own unit tests, run on the model.  These are tests on a few literals, kept
    to check that the model behaves as the code is known to; they are not properties.

    Modelled tests: internal/actions/{merge,replace,delete,combine,action}_test.go,
    internal/overlays/documentquery_internal_test.go,
    internal/instructions/{values,document}_internal_test.go.  The YAML texts are given as the
    nodes the external parser makes of them. *)
From Verif Require Import Prelude GoStrings Format Yaml Heap MergeTree HeapActions Combine Builder ActionNames Overlay Finder Steps Values Queue Examples ExamplesHeap.

(** actions_test.go:31-61  the test document; [data] leaves open what the tests change *)
Definition boolean (s : string) : tree := T (mk KScalar (lit "!!bool") (lit s)) None.
Definition port (n p proto target : tree) : tree := mp [sc "name"; n; sc "port"; p; sc "protocol"; proto; sc "targetPort"; target].
Definition udp : tree := port (sc "dns-udp") (num "53") (sc "UDP") (sc "dns-udp").
Definition tcp : tree := port (sc "dns-tcp") (num "53") (sc "TCP") (sc "dns-tcp").
Definition note : string := "# NOTE: this only works on 1.19.1+vmware.1+, but not prior
## This annotation will be ignored on other cloud providers".
Definition app_name : tree := sc "app.kubernetes.io/name".
Definition balancer : tree := scc "service.beta.kubernetes.io/aws-load-balancer-type" note "" "".
Definition annotations (v : tree) : list tree := [sc "annotations"; mp [balancer; v]].
Definition data (kind labels : list tree) (ann : list tree) (ports_key : tree) (ports : list tree) (b0 b1 : tree) : tree :=
  doc (mp ([sc "apiVersion"; sc "v1"] ++ kind ++
      [sc "metadata"; mp ([sc "name"; sc "bind-udp"; sc "namespace"; sc "tanzu-dns"; sc "labels"; mp labels] ++ ann);
       sc "spec"; mp [sc "selector"; mp [app_name; sc "external-dns"]; sc "type"; sc "LoadBalancer"; ports_key; sq ports;
                      scc "boolTest" "# add some fake boolean values for testing" "" ""; mp [sc "case0"; b0; sc "case1"; b1]]])).
Definition kind_service : list tree := [sc "kind"; sc "Service"].
Definition labels0 : list tree := [app_name; sc "external-dns"].
Definition no : tree := boolean "false".
Definition yes : tree := boolean "true".
Definition nlb : list tree := annotations (sc "nlb").
Definition data0 : tree := data kind_service labels0 nlb (sc "ports") [udp; tcp] no yes.

(** actions_test.go:82-136  the first node the query finds, given to the action *)
Definition act_on (a : action) (ss : list step) (value : tree) : option tree * res unit :=
  let '(h, d) := put_tree data0 [] in
  let '(h, v) := put_tree value h in
  match q_find (stepped [] ss) h d with
  | r :: _ => let (h', e) := h_act 30 no_sed a v d r h in (read 30 h' d, e)
  | [] => (None, Panic)
  end.
Definition names (l : list string) : list step := map (fun k => Name (lit k)) l.

(** merge_test.go:17-46 *)
Definition sshd : tree := port (sc "sequenceTest") (num "22") (sc "TCP") (sc "sshd").
Example merge_sequence : act_on AMerge (names ["spec"; "ports"]) (sq [sshd])
  = (Some (data kind_service labels0 nlb (sc "ports") [udp; tcp; sshd] no yes), Ok tt).
Proof. vm_compute. reflexivity. Qed.
(** merge_test.go:52-81 *)
Example merge_map : act_on AMerge (names ["metadata"; "labels"]) (mp [sc "foo"; sc "bar"; sc "bar"; sc "foo"; sc "potato"; sc "badayda"])
  = (Some (data kind_service (labels0 ++ [sc "foo"; sc "bar"; sc "bar"; sc "foo"; sc "potato"; sc "badayda"]) nlb (sc "ports") [udp; tcp] no yes), Ok tt).
Proof. vm_compute. reflexivity. Qed.
(** merge_test.go:87-116 *)
Definition potato : tree := scc "badayda" "" "# sometimes encountered in the northeast" "".
Example merge_map_line_comment : act_on AMerge (names ["metadata"; "labels"]) (mp [sc "foo"; sc "bar"; sc "bar"; sc "foo"; sc "potato"; potato])
  = (Some (data kind_service (labels0 ++ [sc "foo"; sc "bar"; sc "bar"; sc "foo"; sc "potato"; potato]) nlb (sc "ports") [udp; tcp] no yes), Ok tt).
Proof. vm_compute. reflexivity. Qed.
(** merge_test.go:122-148 (the value is double quoted: its style, and the document's own style stays) *)
Definition quoted (s l : string) : tree := T (mkInfo KScalar 2 (lit "!!str") (lit s) [] [] (lit l) [] 0 0) None.
Example merge_map_with_line_comment : act_on AMerge (names ["metadata"; "labels"]) (mp [app_name; quoted "%v" "# test"])
  = (Some (data kind_service [app_name; scc "external-dns" "" "# test" ""] nlb (sc "ports") [udp; tcp] no yes), Ok tt).
Proof. vm_compute. reflexivity. Qed.
(** merge_test.go:154-180 *)
Example merge_format_scalar : act_on AMerge (names ["kind"]) (sc "My%v")
  = (Some (data [sc "kind"; sc "MyService"] labels0 nlb (sc "ports") [udp; tcp] no yes), Ok tt).
Proof. vm_compute. reflexivity. Qed.
(** merge_test.go:186-212  spec.ports~ *)
Example merge_format_key : act_on AMerge (names ["spec"] ++ [KeyOf (lit "ports")]) (sc "s%v")
  = (Some (data kind_service labels0 nlb (sc "sports") [udp; tcp] no yes), Ok tt).
Proof. vm_compute. reflexivity. Qed.
(** merge_test.go:220-250 *)
Example merge_format_in_array :
  act_on AMerge (names ["spec"; "ports"] ++ [Index 0] ++ names ["name"])
    (T (mkInfo KScalar 2 (lit "!!str") (lit "%v-port") [] (lit "# head") (lit "# line") (lit "# foot") 0 0) None)
  = (Some (data kind_service labels0 nlb (sc "ports") [port (scc "dns-udp-port" "# head" "# line" "# foot") (num "53") (sc "UDP") (sc "dns-udp"); tcp] no yes), Ok tt).
Proof. vm_compute. reflexivity. Qed.

(** replace_test.go:16-45 *)
Example replace_scalar : act_on AReplace (names ["metadata"; "labels"; "app.kubernetes.io/name"]) (sc "rpk-dns")
  = (Some (data kind_service [app_name; sc "rpk-dns"] nlb (sc "ports") [udp; tcp] no yes), Ok tt).
Proof. vm_compute. reflexivity. Qed.
(** replace_test.go:52-81 *)
Example replace_in_array : act_on AReplace (names ["spec"; "ports"] ++ [Index 1] ++ names ["port"]) (num "953")
  = (Some (data kind_service labels0 nlb (sc "ports") [udp; port (sc "dns-tcp") (num "953") (sc "TCP") (sc "dns-tcp")] no yes), Ok tt).
Proof. vm_compute. reflexivity. Qed.
(** replace_test.go:88-130 *)
Definition fakes : list tree := [mp [sc "name"; sc "fake-data"; sc "port"; num "1"]; mp [sc "name"; sc "fake-data2"; sc "port"; num "2"]].
Example replace_array : act_on AReplace (names ["spec"; "ports"]) (sq fakes)
  = (Some (data kind_service labels0 nlb (sc "ports") fakes no yes), Ok tt).
Proof. vm_compute. reflexivity. Qed.

(** delete_test.go:16-44 *)
Example delete_scalar : act_on ADelete (names ["kind"]) (sc "")
  = (Some (data [] labels0 nlb (sc "ports") [udp; tcp] no yes), Ok tt).
Proof. vm_compute. reflexivity. Qed.
(** delete_test.go:50-75 *)
Example delete_map : act_on ADelete (names ["metadata"; "annotations"]) (sc "")
  = (Some (data kind_service labels0 [] (sc "ports") [udp; tcp] no yes), Ok tt).
Proof. vm_compute. reflexivity. Qed.
(** delete_test.go:81-108 *)
Example delete_element : act_on ADelete (names ["spec"; "ports"] ++ [Index 0]) (sc "")
  = (Some (data kind_service labels0 nlb (sc "ports") [tcp] no yes), Ok tt).
Proof. vm_compute. reflexivity. Qed.

(** combine_test.go:16-45 *)
Example combine_strings : act_on ACombine (names ["metadata"; "labels"; "app.kubernetes.io/name"]) (sc "es")
  = (Some (data kind_service [app_name; sc "external-dnses"] nlb (sc "ports") [udp; tcp] no yes), Ok tt).
Proof. vm_compute. reflexivity. Qed.
(** combine_test.go:52-81 *)
Example combine_integers : act_on ACombine (names ["spec"; "ports"] ++ [Index 1] ++ names ["port"]) (num "53")
  = (Some (data kind_service labels0 nlb (sc "ports") [udp; port (sc "dns-tcp") (num "106") (sc "TCP") (sc "dns-tcp")] no yes), Ok tt).
Proof. vm_compute. reflexivity. Qed.
(** combine_test.go:88-226 *)
Example combine_booleans :
  map (fun x => act_on ACombine (names ["spec"; "boolTest"; fst x]) (snd x)) [("case0", yes); ("case0", no); ("case1", yes); ("case1", no)]
  = map (fun b1 => (Some (data kind_service labels0 nlb (sc "ports") [udp; tcp] no b1), Ok tt)) [yes; yes; yes; no].
Proof. vm_compute. reflexivity. Qed.
(** combine_test.go:232-268 *)
Example combine_with_comments :
  act_on ACombine (names ["metadata"; "annotations"; "service.beta.kubernetes.io/aws-load-balancer-type"]) (scc "s" "# head" "#line" "# foot")
  = (Some (data kind_service labels0 (annotations (scc "nlbs" "# head" "#line" "# foot")) (sc "ports") [udp; tcp] no yes), Ok tt).
Proof. vm_compute. reflexivity. Qed.

(** action_test.go:13-57 *)
Example action_strings : map action_string [AMerge; ADelete; AReplace; ACombine; AInvalid] = map lit ["merge"; "delete"; "replace"; "combine"; ""].
Proof. reflexivity. Qed.
(** action_test.go:59-150 *)
Example action_unmarshal :
  map (fun s => decode_action (lit s)) ["merge"; "replace"; "delete"; "combine"; "potato"; ""]
  = [Ok AMerge; Ok AReplace; Ok ADelete; Ok ACombine; Err EInvalidAction; Err EInvalidAction].
Proof. vm_compute. reflexivity. Qed.

(** documentquery_internal_test.go:58-136 *)
Definition check (dq : heap -> heap * list (list condition)) : res bool :=
  let '(h, d) := put_tree data0 [] in let '(h, q) := dq h in snd (h_check_queries 30 q d h).
Definition kind_is (s : string) (h : heap) : heap * list (list condition) :=
  let '(h, v) := put_tree (sc s) h in (h, [[mkCondition [stepped (lit "kind") (names ["kind"])] v]]).
Example document_queries : [check (kind_is "Service"); check (fun h => (h, [])); check (kind_is "Potato")] = [Ok true; Ok true; Ok false].
Proof. vm_compute. reflexivity. Qed.

(** values_internal_test.go:14-109 (yaml.Marshal sorts the keys; here they are in the order of
    the node it starts from) *)
Definition defaults : tree := doc (mp [sc "too"; sc "bar"; sc "yoo"; sc "car"; sc "foo"; sc "you"]).
Definition on_premise : tree := doc (mp [sc "test"; sc "one"; sc "two"; sc "three"]).
Definition foods : tree :=
  sq [num "1"; mp [sc "cheese"; sc "burger"]; mp [sc "soup"; sq [sc "minestrone"; sc "chicken noodle"; sc "clam chowder"]]].
Definition potatoes : tree := mp [sc "bar"; mp [sc "potato"; mp [sc "badayda"; foods]]].
Definition site_a : tree := doc (mp [sc "foo"; potatoes; sc "zarf"; sc "oo"; sc "yoo"; sc "czar"]).
Definition site_b : tree := doc (mp [sc "foo"; sc "foo"; sc "values"; sq [num "1"; num "2"; num "3"]; sc "yoo"; sc "bar"]).
Example values_simple : get_values no_sed [defaults; on_premise]
  = Ok (Some (doc (mp [sc "too"; sc "bar"; sc "yoo"; sc "car"; sc "foo"; sc "you"; sc "test"; sc "one"; sc "two"; sc "three"]))).
Proof. vm_compute. reflexivity. Qed.
Example values_override : get_values no_sed [defaults; site_b]
  = Ok (Some (doc (mp [sc "too"; sc "bar"; sc "yoo"; sc "bar"; sc "foo"; sc "foo"; sc "values"; sq [num "1"; num "2"; num "3"]]))).
Proof. vm_compute. reflexivity. Qed.
Example values_several : get_values no_sed [defaults; on_premise; site_b; site_a]
  = Ok (Some (doc (mp [sc "too"; sc "bar"; sc "yoo"; sc "czar"; sc "foo"; potatoes; sc "test"; sc "one"; sc "two"; sc "three";
                       sc "values"; sq [num "1"; num "2"; num "3"]; sc "zarf"; sc "oo"]))).
Proof. vm_compute. reflexivity. Qed.

(** document_internal_test.go:13-72  a documents entry is used for the document with its index only *)
Example document_index :
  map (fun i => queue_documents [mkDocument 0%Z [tt]] tt i) [1; 0]%Z = [[]; [mkWork tt tt 0%Z]].
Proof. reflexivity. Qed.

(** Small concrete trees used to show that hypotheses are satisfiable. *)
From Verif Require Import Prelude Format Yaml.

Definition mk (k : kind) (tag v : list N) : info := mkInfo k 0 tag v [] [] [] [] 0 0.
(** A string scalar, an int scalar, a mapping, a sequence, a document. *)
Definition sc (s : string) : tree := T (mk KScalar (lit "!!str") (lit s)) None.
Definition num (s : string) : tree := T (mk KScalar (lit "!!int") (lit s)) None.
Definition mp (l : list tree) : tree := T (mk KMapping (lit "!!map") []) (Some l).
Definition sq (l : list tree) : tree := T (mk KSequence (lit "!!seq") []) (Some l).
Definition doc (t : tree) : tree := T (mk KDocument [] []) (Some [t]).
(** A string scalar with comments. *)
Definition scc (s h l f : string) : tree :=
  T (mkInfo KScalar 0 (lit "!!str") (lit s) [] (lit h) (lit l) (lit f) 0 0) None.

Definition no_sed : sed_engine := fun _ => None.

(** apiVersion: v1 / metadata: {name: web, labels: {app: web}} / ports: [80] *)
Definition ex_o : tree :=
  mp [sc "apiVersion"; sc "v1";
      sc "metadata"; mp [sc "name"; sc "web"; sc "labels"; mp [sc "app"; sc "web"]];
      sc "ports"; sq [num "80"]].
(** metadata: {labels: {tier: front}, name: api} / ports: [443] / kind: Service *)
Definition ex_n : tree :=
  mp [sc "metadata"; mp [sc "labels"; mp [sc "tier"; sc "front"]; sc "name"; sc "api"];
      sc "ports"; sq [num "443"];
      sc "kind"; sc "Service"].

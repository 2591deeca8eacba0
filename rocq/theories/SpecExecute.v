(** The assumption under which the workers do not interfere. *)
From Verif Require Import Prelude Yaml Heap Overlay SpecReach SpecSame Fine Queue Execute.

(** Every node an overlay refers to. *)
Definition overlay_root (o : overlay) (x : loc) : Prop :=
  x = o_value o \/ exists g c, In g (o_docqueries o) /\ In c g /\ x = c_value c.

(** The external path library: answers depend only on what is reachable from the
    start node, and are reachable from it. *)
Definition good_finder (q : query) : Prop := finder_ok q /\ finder_blind q.
Record good_queries (o : overlay) : Prop := mkGoodQueries {
  gq_queries : Forall good_finder (o_queries o);
  gq_inject : forall ip, o_inject o = Some ip -> Forall good_finder ip;
  gq_conditions : forall g c, In g (o_docqueries o) -> In c g -> Forall finder_blind (c_queries c) }.

(** How the decoder leaves the heap: no dangling pointers; the documents of
    different files share no node, and no document shares a node with the value
    of an overlay. *)
Record set_up (files : list yfile) (os : list overlay) (h : heap) : Prop := mkSetUp {
  su_closed : closed h;
  su_docs : forall f d, In f files -> In d (yf_nodes f) -> d < length h;
  su_values : forall o x, In o os -> overlay_root o x -> x < length h;
  su_queries : Forall good_queries os;
  su_overlays : forall f k, In f files ->
    In k (yf_overlays f) \/ (exists e, In e (yf_documents f) /\ In k (d_overlays e)) -> k < length os;
  su_apart : forall i j f g d e x, files !! i = Some f -> files !! j = Some g -> i <> j ->
    In d (yf_nodes f) -> In e (yf_nodes g) -> reach h d x -> reach h e x -> False;
  su_values_apart : forall f d o v x, In f files -> In d (yf_nodes f) -> In o os -> overlay_root o v ->
    reach h d x -> reach h v x -> False }.

(** *** What Execute should amount to *)
From Verif Require Import GoStrings Format Render Paths Pipeline SpecPipeline SpecRender.

Section execute.
Context (fuel : nat) (sed : sed_engine) (dflt : list N) (enc : nat -> tree -> option (list N)) (dk : disk) (cfg : out_config).
Context (files : list yfile) (os : list overlay) (h0 : heap) (w0 : world).

(** [execution n s]: some schedule leads in [n] steps from the start of Execute to [s]. *)
Definition execution (n : nat) (s : exec_state) : Prop :=
  steps (begin fuel sed dflt) tick (scan fuel files) peek (emit enc dk cfg files) (map (file_work os) files) n
    (start (map (file_work os) files) (h0, os) w0) s.

(** File [i] processed on its own, with nothing else running: its workloads in
    order on the memory Execute starts with. *)
Definition sequential (i : nat) : shared * res unit :=
  match files !! i with
  | Some f => run_all (run_work fuel sed dflt) (file_work os f) (h0, os)
  | None => ((h0, os), Ok tt)
  end.

(** The documents of file [i] after it was processed on its own. *)
Definition documents_after (i : nat) : res (list tree) :=
  match files !! i with
  | Some f => snapshots fuel (fst (fst (sequential i))) (yf_nodes f)
  | None => Ok []
  end.

(** How many operations on the shared memory that takes: the applications, each
    with its handover, and reading the documents. *)
Fixpoint work_operations (ws : list (workload nat loc)) (m : shared) : nat :=
  match ws with
  | [] => 0
  | w :: r => S (operations (begin fuel sed dflt w) m) + work_operations r (fst (run_work fuel sed dflt w m))
  end.
Definition file_operations (i : nat) : nat :=
  match files !! i with
  | Some f => work_operations (file_work os f) (h0, os) + operations (scan fuel files i) (fst (sequential i))
  | None => 0
  end.

(** Writing out [documents_after] for the files [order], one after the other. *)
Fixpoint write_out (order : list nat) (w : world) : world * res unit :=
  match order with
  | [] => (w, Ok tt)
  | i :: r =>
      match files !! i, documents_after i with
      | Some f, Ok ts =>
          match post_process enc dk cfg ts (yf_output f) w with
          | (w1, Ok _) => write_out r w1
          | (w1, bad) => (w1, bad)
          end
      | Some f, Err e => (w, Err e)
      | Some f, Fuel => (w, Fuel)
      | _, _ => (w, Panic)
      end
  end.

(** The non-empty text file [i] is rendered to, and where it belongs. *)
Definition planned (i : nat) (name text : list N) : Prop := exists f ts,
  files !! i = Some f /\ documents_after i = Ok ts /\ encode_nodes enc (oc_styles cfg) ts = Ok text /\ text <> [] /\
  name = output_file (oc_dir cfg) (yf_output f).
(** The same, or nothing if there is no text. *)
Definition text_of (i : nat) : list (list N) :=
  match documents_after i with
  | Ok ts => match encode_nodes enc (oc_styles cfg) ts with Ok [] => [] | Ok text => [text] | _ => [] end
  | _ => []
  end.
End execute.

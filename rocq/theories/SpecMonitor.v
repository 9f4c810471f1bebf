(** * SpecMonitor: when a check of the policy directory should report a change. *)
From Verif Require Import GoBase MonitorModel.

(** What a directory holds, as far as the monitor looks: a digest for each file. *)
Definition content := string -> option string.
Definition nothing : content := fun _ => None.
Definition same (a b : content) : Prop := forall f, a f = b f.
(** The content a successful look at the directory shows. *)
Definition shows (v : view) (c : content) : Prop :=
  exists paths, v_paths v = Some paths /\ paths <> [] /\
    (forall f, In f paths -> c f = v_sum v f /\ v_sum v f <> None) /\ (forall f, ~ In f paths -> c f = None).
(** A listing that works but shows no file, or a file that cannot be read: everything known is
    forgotten.  A listing that fails: nothing is. *)
Definition unreadable (v : view) : Prop :=
  v_paths v = Some [] \/ exists paths f, v_paths v = Some paths /\ In f paths /\ v_sum v f = None.
(** The content the monitor remembers after a history of looks, oldest first. *)
Inductive remembers : list view -> content -> Prop :=
| rm_start : remembers [] nothing
| rm_shows h v c c' : remembers h c' -> shows v c -> remembers (h ++ [v]) c
| rm_forget h v c' : remembers h c' -> unreadable v -> remembers (h ++ [v]) nothing
| rm_fail h v c : remembers h c -> v_paths v = None -> remembers (h ++ [v]) c.
(** The monitor's own record after the looks [h], starting from an empty record. *)
Definition look (pol : gomap string) (v : view) : gomap string := fst (calculate_checksum pol v).

(** The looks a history of monitor events contains: only batches that touch a YAML file look. *)
Definition looks {P} (es : list (mevent P)) : list view :=
  flat_map (fun e => match e with EFiles evs v _ _ => if existsb has_modified_yaml evs then [v] else [] | ETake => [] end) es.
(** [a] is obtained from [b] by leaving elements out. *)
Inductive subseq {A} : list A -> list A -> Prop :=
| ss_nil : subseq [] []
| ss_take x a b : subseq a b -> subseq (x :: a) (x :: b)
| ss_skip x a b : subseq a b -> subseq a (x :: b).

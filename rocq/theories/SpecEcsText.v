(** * SpecEcsText: the JSON value of an ECS document. *)
From Coq Require Import Permutation.
From Verif Require Import GoBase FlatRecord EngineModel EngineFlat EcsModel SpecJson.
Open Scope string_scope.

Section Value.
(** What becomes of a text that is not UTF-8: see SpecJson.clean. *)
Variable txt : string -> string.
Fixpoint value (v : eval) : json :=
  match v with
  | ENull => JNull
  | EStr s => JStr (txt s)
  | EInt z => JNum z
  | EBool b => JBool b
  | EList l => JArr (map value l)
  | EMap m => JObj (map (fun kv => (fst kv, value (snd kv))) m)
  end.
Definition when {A} (b : bool) (x : A) : list A := if b then [x] else [].
Definition some_text (name s : string) : list (string * json) := when (negb (seqb s "")) (name, JStr (txt s)).
Definition some_map (name : string) (o : option (gomap eval)) : list (string * json) :=
  match o with Some m => when (negb (Nat.eqb (length m) 0)) (name, value (EMap m)) | None => [] end.
Definition doc_value (d : ecsdoc) : json := JObj (
  [("@timestamp", JStr (txt (e_ts d)));
   ("agent", JObj (("type", JStr "SysFlow") :: some_text "version" (e_agent_version d)));
   ("ecs", JObj (some_text "version" (e_ecs_version d)));
   ("event", match e_event d with Some m => value (EMap m) | None => JNull end);
   ("host", value (EMap (e_host d)))] ++
  flat_map (fun nm => some_map (fst nm) (snd nm)) [("container", e_container d); ("orchestrator", e_orch d); ("pod", e_pod d)] ++
  when (negb (Nat.eqb (length (e_service d)) 0)) ("service", JArr (map (fun m => value (EMap m)) (e_service d))) ++
  flat_map (fun nm => some_map (fst nm) (snd nm))
    [("file", e_file d); ("sf_file_action", e_fileaction d); ("network", e_network d); ("source", e_source d); ("destination", e_destination d);
     ("process", e_process d); ("user", e_user d)] ++
  when (negb (Nat.eqb (length (e_tags d)) 0)) ("tags", JArr (map (fun s => JStr (txt s)) (e_tags d))))%list.
End Value.

(** The same value but for the order of members, at any depth. *)
Inductive upto : json -> json -> Prop :=
| up_refl v : upto v v
| up_arr l l' : Forall2 upto l l' -> upto (JArr l) (JArr l')
| up_obj l l1 l' : Permutation l l1 -> Forall2 (fun a b => fst a = fst b /\ upto (snd a) (snd b)) l1 l' -> upto (JObj l) (JObj l').

(** What a reader of a document gets: the value at a path of member names and positions. *)
Inductive key := KName (n : string) | KPos (i : nat).
Definition find_member (n : string) (l : list (string * json)) : option json :=
  match find (fun kv => String.eqb (fst kv) n) l with Some kv => Some (snd kv) | None => None end.
Fixpoint at_path (p : list key) (v : json) : option json :=
  match p with
  | [] => Some v
  | KName n :: p' => match v with JObj l => match find_member n l with Some v' => at_path p' v' | None => None end | _ => None end
  | KPos i :: p' => match v with JArr l => match nth_error l i with Some v' => at_path p' v' | None => None end | _ => None end
  end.
Definition leaf (v : json) : Prop := match v with JArr _ | JObj _ => False | _ => True end.
(** [reordered v v']: the same value, with the associations of its maps listed in another order. *)
Inductive reordered : eval -> eval -> Prop :=
| ro_refl v : reordered v v
| ro_list l l' : Forall2 reordered l l' -> reordered (EList l) (EList l')
| ro_map m m1 m' : Permutation m m1 -> Forall2 (fun a b => fst a = fst b /\ reordered (snd a) (snd b)) m1 m' -> reordered (EMap m) (EMap m').
Definition reordered_o (o o' : option (gomap eval)) : Prop :=
  match o, o' with Some m, Some m' => reordered (EMap m) (EMap m') | None, None => True | _, _ => False end.
Record reordered_doc (d d' : ecsdoc) : Prop := {
  rd_id : e_id d = e_id d'; rd_ts : e_ts d = e_ts d'; rd_av : e_agent_version d = e_agent_version d'; rd_ev : e_ecs_version d = e_ecs_version d';
  rd_host : reordered (EMap (e_host d)) (EMap (e_host d')); rd_service : Forall2 (fun m m' => reordered (EMap m) (EMap m')) (e_service d) (e_service d');
  rd_tags : e_tags d = e_tags d';
  rd_maps : Forall2 reordered_o
    [e_event d; e_container d; e_orch d; e_pod d; e_file d; e_fileaction d; e_network d; e_source d; e_destination d; e_process d; e_user d]
    [e_event d'; e_container d'; e_orch d'; e_pod d'; e_file d'; e_fileaction d'; e_network d'; e_source d'; e_destination d'; e_process d'; e_user d'] }.

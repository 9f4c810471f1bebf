(** * ReaderModel: core/cache/tables.go, core/processor/reader.go, core/processor/processor.go

    Entities are immutable values: the code stores pointers but never modifies an entity after it
    has been stored (reader.go:123-124 trims the process record before storing it).  Attributes
    that neither the tables nor the reader inspect are collapsed into one field [.._data]. *)
From Verif Require Import GoBase.

(** sfgo.OID (CreateTS, Hpid) and sfgo.FOID. *)
Definition oid := (Z * Z)%type.
Definition foid := string.
Definition oid_eqb (a b : oid) : bool := Z.eqb (fst a) (fst b) && Z.eqb (snd a) (snd b).

(** A nullable identifier as generated for Avro: nil pointer, union holding null, union holding a string. *)
Inductive idref := INil | INull | IStr (s : string).
Record container := mkCont { c_id : string; c_pod : idref; c_data : nat }.
Record pod := mkPod { pd_id : string; pd_data : nat }.
Record file := mkFile { f_oid : foid; f_cont : idref; f_data : nat }.
(** [p_poid] is None for a nil Poid and for a Poid not holding an OID. *)
Record process := mkProc { p_oid : oid; p_state : Z; p_poid : option oid; p_exe : string; p_args : string; p_cont : idref; p_data : nat }.
Definition header := nat.

(** sfgo.SFObjectState{CREATED,MODIFIED,REUP}: 0, 1, 2. *)
Definition CREATED : Z := 0.
Definition MODIFIED : Z := 1.
Definition REUP : Z := 2.

(** Go maps as association lists: the first entry of a key counts. *)
Section Map.
Context {K V : Type} (eqb : K -> K -> bool).
Fixpoint mget (k : K) (m : list (K * V)) : option V :=
  match m with [] => None | (k', v) :: m' => if eqb k' k then Some v else mget k m' end.
Definition mset (k : K) (v : V) (m : list (K * V)) : list (K * V) := (k, v) :: m.
End Map.

(** The slice of length REUP+1 held per process (tables.go:107). *)
Record slots := mkSlots { s_created : option process; s_modified : option process; s_reup : option process }.

(** tables.go:29-38 *)
Record tables := mkTables {
  t_cont : list (string * container);
  t_pod : list (string * pod);
  t_proc : list (oid * slots);
  t_file : list (foid * file);
  t_ptree : list (oid * list process) }.
(** tables.go:47-61 [new], [Reset] *)
Definition t_new : tables := mkTables [] [] [] [] [].
(** tables.go:63-83, 113-126 *)
Definition get_cont (id : string) (t : tables) : option container := mget seqb id (t_cont t).
Definition set_cont (id : string) (o : container) (t : tables) : tables :=
  mkTables (mset id o (t_cont t)) (t_pod t) (t_proc t) (t_file t) (t_ptree t).
Definition get_pod (id : string) (t : tables) : option pod := mget seqb id (t_pod t).
Definition set_pod (id : string) (o : pod) (t : tables) : tables :=
  mkTables (t_cont t) (mset id o (t_pod t)) (t_proc t) (t_file t) (t_ptree t).
Definition get_file (id : foid) (t : tables) : option file := mget seqb id (t_file t).
Definition set_file (id : foid) (o : file) (t : tables) : tables :=
  mkTables (t_cont t) (t_pod t) (t_proc t) (mset id o (t_file t)) (t_ptree t).
(** tables.go:86-98 [GetProc] *)
Definition get_proc (id : oid) (t : tables) : option process :=
  match mget oid_eqb id (t_proc t) with
  | None => None
  | Some p => match s_modified p with
              | Some v => Some v
              | None => match s_created p with
                        | Some v => Some v
                        | None => s_reup p
                        end
              end
  end.
(** p[o.State] = o: an index outside the slice panics. *)
Definition set_slot (o : process) (p : slots) : res slots :=
  if Z.eqb (p_state o) CREATED then Ok (mkSlots (Some o) (s_modified p) (s_reup p))
  else if Z.eqb (p_state o) MODIFIED then Ok (mkSlots (s_created p) (Some o) (s_reup p))
  else if Z.eqb (p_state o) REUP then Ok (mkSlots (s_created p) (s_modified p) (Some o))
  else Panic.
(** tables.go:101-111 [SetProc] *)
Definition set_proc (id : oid) (o : process) (t : tables) : res tables :=
  let p := match mget oid_eqb id (t_proc t) with Some p => p | None => mkSlots None None None end in
  let* p' := set_slot o p in
  Ok (mkTables (t_cont t) (t_pod t) (mset id p' (t_proc t)) (t_file t) (t_ptree t)).
(** tables.go:141-150 [getProcProv]; None: not finished within the fuel. *)
Fixpoint proc_prov (fuel : nat) (id : oid) (t : tables) : option (list process) :=
  match fuel with
  | 0 => None
  | S n => match get_proc id t with
           | None => Some []
           | Some p => match p_poid p with
                       | Some q => match proc_prov n q t with Some l => Some (p :: l) | None => None end
                       | None => Some [p]
                       end
           end
  end.
(** Enough fuel for every recursion that ends (theorem C29_terminates). *)
Definition prov_fuel (t : tables) : nat := S (length (t_proc t)).
(** tables.go:129-138 [GetPtree] *)
Definition get_ptree (id : oid) (t : tables) : res (tables * list process) :=
  match mget oid_eqb id (t_ptree t) with
  | Some l => Ok (t, l)
  | None => match proc_prov (prov_fuel t) id t with
            | None => NoFuel
            | Some l => Ok (mkTables (t_cont t) (t_pod t) (t_proc t) (t_file t) (mset id l (t_ptree t)), l)
            end
  end.

(** sfgo.SysFlow: its Rec union.  The last field of an event stands for all attributes not
    inspected here; NewFileOID is None when nil or not holding a FOID (reader.go:213-218). *)
Inductive rec :=
| RHeader (h : header) | RCont (c : container) | RPod (p : pod) | RK8s (n : nat)
| RProc (p : process) | RFile (f : file)
| RProcEvt (o : oid) (n : nat) | RNetFlow (o : oid) (n : nat)
| RFileFlow (o : oid) (f : foid) (n : nat) | RFileEvt (o : oid) (f : foid) (nf : option foid) (n : nat)
| RProcFlow (n : nat) | RNetEvt (n : nat) | ROther (n : nat).

(** plugins.CtxSysFlow *)
Record ctx := mkCtx {
  x_rec : rec; x_hdr : option header; x_pod : option pod; x_cont : option container;
  x_proc : option process; x_ptree : option (list process); x_file : option file; x_newfile : option file; x_k8s : option nat }.
(** The handler method called and its second argument. *)
Inductive call :=
| HHeader (h : option header) | HCont (c : option container) | HPod (p : option pod) | HK8s (n : option nat)
| HProc (p : option process) | HFile (f : option file)
| HProcEvt (o : oid) (n : nat) | HNetFlow (o : oid) (n : nat)
| HFileFlow (o : oid) (f : foid) (n : nat) | HFileEvt (o : oid) (f : foid) (nf : option foid) (n : nat).
Definition delivery := (ctx * call)%type.

(** reader.go:41-45 *)
Record reader := mkReader { r_hdr : option header; r_tab : tables }.
Definition reader_init : reader := mkReader None t_new.

(** reader.go:174-182 *)
Definition cont_of_proc (p : process) (t : tables) : option container :=
  match p_cont p with IStr s => get_cont s t | _ => None end.
(** reader.go:184-192 *)
Definition pod_of_cont (c : option container) (t : tables) : option pod :=
  match c with Some c => match c_pod c with IStr s => get_pod s t | _ => None end | None => None end.
(** reader.go:220-228: no nil check on ContainerId. *)
Definition cont_of_file (f : file) (t : tables) : res (option container) :=
  match f_cont f with INil => Panic | INull => Ok None | IStr s => Ok (get_cont s t) end.
(** reader.go:194-203 *)
Definition pod_cont_proc (o : oid) (t : tables) : res (tables * (option pod * option container * option process * option (list process))) :=
  match get_proc o t with
  | Some p => let* (t', l) := get_ptree o t in
              let c := cont_of_proc p t' in
              Ok (t', (pod_of_cont c t', c, Some p, Some l))
  | None => Ok (t, (None, None, None, None))
  end.
(** reader.go:205-218 *)
Definition opt_file (nf : option foid) (t : tables) : option file :=
  match nf with Some f => get_file f t | None => None end.

Definition trimmed (p : process) : process :=
  mkProc (p_oid p) (p_state p) (p_poid p) (trim_space (p_exe p)) (trim_space (p_args p)) (p_cont p) (p_data p).

(** reader.go:96-164: one iteration of Process.  [ent] is IsEntityEnabled. *)
Definition reader_step (ent : bool) (s : reader) (r : rec) : res (reader * list delivery) :=
  let hdr := r_hdr s in let t := r_tab s in
  let plain c := [(mkCtx r hdr None None None None None None None, c)] in
  match r with
  | RHeader h => Ok (mkReader (Some h) t_new, if ent then plain (HHeader (Some h)) else [])
  | RCont c => Ok (mkReader hdr (set_cont (c_id c) c t), if ent then plain (HCont (Some c)) else [])
  | RPod p => Ok (mkReader hdr (set_pod (pd_id p) p t), if ent then plain (HPod (Some p)) else [])
  | RK8s n => Ok (s, plain (HK8s (Some n)))
  | RProc p0 =>
      let p := trimmed p0 in
      let* t1 := set_proc (p_oid p) p t in
      if ent then
        let* (t2, l) := get_ptree (p_oid p) t1 in
        let c := cont_of_proc p t2 in
        Ok (mkReader hdr t2, [(mkCtx (RProc p) hdr (pod_of_cont c t2) c (Some p) (Some l) None None None, HProc (Some p))])
      else Ok (mkReader hdr t1, [])
  | RFile f =>
      let t1 := set_file (f_oid f) f t in
      if ent then
        let* c := cont_of_file f t1 in
        Ok (mkReader hdr t1, [(mkCtx r hdr (pod_of_cont c t1) c None None (Some f) None None, HFile (Some f))])
      else Ok (mkReader hdr t1, [])
  | RProcEvt o n =>
      let* (t1, (pd, c, p, l)) := pod_cont_proc o t in
      Ok (mkReader hdr t1, [(mkCtx r hdr pd c p l None None None, HProcEvt o n)])
  | RNetFlow o n =>
      let* (t1, (pd, c, p, l)) := pod_cont_proc o t in
      Ok (mkReader hdr t1, [(mkCtx r hdr pd c p l None None None, HNetFlow o n)])
  | RFileFlow o f n =>
      let* (t1, (pd, c, p, l)) := pod_cont_proc o t in
      Ok (mkReader hdr t1, [(mkCtx r hdr pd c p l (get_file f t1) None None, HFileFlow o f n)])
  | RFileEvt o f nf n =>
      let* (t1, (pd, c, p, l)) := pod_cont_proc o t in
      Ok (mkReader hdr t1, [(mkCtx r hdr pd c p l (get_file f t1) (opt_file nf t1) None, HFileEvt o f nf n)])
  | RProcFlow _ | RNetEvt _ | ROther _ => Ok (s, [])
  end.
(** reader.go:90-165: the loop over the input channel until it is closed. *)
Fixpoint reader_run (ent : bool) (s : reader) (rs : list rec) : res (reader * list delivery) :=
  match rs with
  | [] => Ok (s, [])
  | r :: rs' => let* (s1, d1) := reader_step ent s r in
                let* (s2, d2) := reader_run ent s1 rs' in Ok (s2, d1 ++ d2)
  end.

(** processor.go:107-148: one iteration of Process of the second kind of processor, which receives
    records with context.  It takes the entity from the context, not from the record. *)
Definition processor_step (ent : bool) (x : ctx) : option call :=
  match x_rec x with
  | RHeader _ => if ent then Some (HHeader (x_hdr x)) else None
  | RCont _ => if ent then Some (HCont (x_cont x)) else None
  | RPod _ => if ent then Some (HPod (x_pod x)) else None
  | RK8s _ => if ent then Some (HK8s (x_k8s x)) else None
  | RProc _ => if ent then Some (HProc (x_proc x)) else None
  | RFile _ => if ent then Some (HFile (x_file x)) else None
  | RProcEvt o n => Some (HProcEvt o n)
  | RNetFlow o n => Some (HNetFlow o n)
  | RFileFlow o f n => Some (HFileFlow o f n)
  | RFileEvt o f nf n => Some (HFileEvt o f nf n)
  | RProcFlow _ | RNetEvt _ | ROther _ => None
  end.
Definition processor_run (ent : bool) (xs : list ctx) : list delivery :=
  flat_map (fun x => match processor_step ent x with Some c => [(x, c)] | None => [] end) xs.

(** The table operations as a history (for C28 and C29). *)
Inductive top :=
| TCont (id : string) (o : container) | TPod (id : string) (o : pod)
| TProc (id : oid) (o : process) | TFile (id : foid) (o : file)
| TPtree (id : oid) | TReset.
Definition t_apply (t : tables) (o : top) : res tables :=
  match o with
  | TCont id o => Ok (set_cont id o t)
  | TPod id o => Ok (set_pod id o t)
  | TProc id o => set_proc id o t
  | TFile id o => Ok (set_file id o t)
  | TPtree id => let* (t', _) := get_ptree id t in Ok t'
  | TReset => Ok t_new
  end.
Fixpoint t_run (t : tables) (os : list top) : res tables :=
  match os with [] => Ok t | o :: os' => let* t' := t_apply t o in t_run t' os' end.

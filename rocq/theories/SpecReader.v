(** * SpecReader: which entities are in force after a history (no reference to the tables).

    [Latest f s o]: [o] is what the last element of [s] that concerns us (per [f]) says, None if
    there is none.  [Since rst h s]: [s] is the part of [h] after the last reset. *)
From Verif Require Import GoBase ReaderModel.

Definition Latest {A B} (f : A -> option B) (s : list A) (o : option B) : Prop :=
  (o = None /\ forall a, In a s -> f a = None) \/
  (exists s1 a s2, s = s1 ++ a :: s2 /\ f a = o /\ o <> None /\ forall x, In x s2 -> f x = None).
Definition Since {A} (rst : A -> Prop) (h s : list A) : Prop :=
  (forall a, In a s -> ~ rst a) /\ (h = s \/ exists h1 a, rst a /\ h = h1 ++ a :: s).

(** What an element of a history announces: entity kinds by identifier. *)
Record announces (A : Type) := mkAnn {
  a_cont : string -> A -> option container;
  a_pod : string -> A -> option pod;
  a_file : foid -> A -> option file;
  a_proc : oid -> Z -> A -> option process }.
Arguments a_cont {A}. Arguments a_pod {A}. Arguments a_file {A}. Arguments a_proc {A}.

Section InForce.
Context {A : Type} (an : announces A).
(** The process in force: the latest announced in state MODIFIED (1) if any, else in state CREATED (0) if
    any, else in state REUP (2) if any. *)
Definition ProcInForce (s : list A) (id : oid) (o : option process) : Prop :=
  exists m c r, Latest (a_proc an id 1%Z) s m /\ Latest (a_proc an id 0%Z) s c /\ Latest (a_proc an id 2%Z) s r /\
    match m, c, r with Some p, _, _ => o = Some p | None, Some p, _ => o = Some p | None, None, _ => o = r end.
(** The process, its parent, its grandparent, ... as long as they are known. *)
Inductive Ancestry (s : list A) : oid -> list process -> Prop :=
| An_unknown id : ProcInForce s id None -> Ancestry s id []
| An_root id p : ProcInForce s id (Some p) -> p_poid p = None -> Ancestry s id [p]
| An_parent id p q l : ProcInForce s id (Some p) -> p_poid p = Some q -> Ancestry s q l -> Ancestry s id (p :: l).
(** [q] is reached from [id] by going up one or more times. *)
Inductive Above (s : list A) : oid -> oid -> Prop :=
| Ab_parent id p q : ProcInForce s id (Some p) -> p_poid p = Some q -> Above s id q
| Ab_more id p q r : ProcInForce s id (Some p) -> p_poid p = Some q -> Above s q r -> Above s id r.
End InForce.

(** Histories of table operations. *)
Definition ann_top : announces top := mkAnn top
  (fun id o => match o with TCont id' c => if seqb id' id then Some c else None | _ => None end)
  (fun id o => match o with TPod id' c => if seqb id' id then Some c else None | _ => None end)
  (fun id o => match o with TFile id' c => if seqb id' id then Some c else None | _ => None end)
  (fun id st o => match o with TProc id' p => if oid_eqb id' id && Z.eqb (p_state p) st then Some p else None | _ => None end).
Definition is_reset (o : top) : Prop := o = TReset.

(** A process without the spaces around its executable and its arguments. *)
Definition tidied (p : process) : process :=
  {| p_oid := p_oid p; p_state := p_state p; p_poid := p_poid p; p_exe := trim_space (p_exe p); p_args := trim_space (p_args p);
     p_cont := p_cont p; p_data := p_data p |}.
(** Record streams: processes count with executable and arguments trimmed. *)
Definition ann_rec : announces rec := mkAnn rec
  (fun id o => match o with RCont c => if seqb (c_id c) id then Some c else None | _ => None end)
  (fun id o => match o with RPod c => if seqb (pd_id c) id then Some c else None | _ => None end)
  (fun id o => match o with RFile c => if seqb (f_oid c) id then Some c else None | _ => None end)
  (fun id st o => match o with RProc p => if oid_eqb (p_oid p) id && Z.eqb (p_state p) st then Some (tidied p) else None | _ => None end).
Definition is_header (r : rec) : Prop := exists h, r = RHeader h.

(** The container a reference denotes, the pod of an optional container. *)
Definition ContOf {A} (an : announces A) (s : list A) (ref : idref) (o : option container) : Prop :=
  match ref with IStr id => Latest (a_cont an id) s o | _ => o = None end.
Definition PodOf {A} (an : announces A) (s : list A) (c : option container) (o : option pod) : Prop :=
  match c with Some c => match c_pod c with IStr id => Latest (a_pod an id) s o | _ => o = None end | None => o = None end.
Definition FileOf {A} (an : announces A) (s : list A) (ref : option foid) (o : option file) : Prop :=
  match ref with Some id => Latest (a_file an id) s o | None => o = None end.

(** The process an event record is about, and the files it names. *)
Definition subject (r : rec) : option oid :=
  match r with RProcEvt o _ | RNetFlow o _ | RFileFlow o _ _ | RFileEvt o _ _ _ => Some o | _ => None end.
Definition file1 (r : rec) : option foid :=
  match r with RFileFlow _ f _ | RFileEvt _ f _ _ => Some f | _ => None end.
Definition file2 (r : rec) : option foid :=
  match r with RFileEvt _ _ nf _ => nf | _ => None end.

(** Records a handler gets to see. *)
Definition deliverable (ent : bool) (r : rec) : bool :=
  match r with
  | RProcEvt _ _ | RNetFlow _ _ | RFileFlow _ _ _ | RFileEvt _ _ _ _ | RK8s _ => true
  | RHeader _ | RCont _ | RPod _ | RProc _ | RFile _ => ent
  | _ => false
  end.
(** The handler method a record goes to and the value handed over. *)
Definition call_for (r : rec) (c : call) : Prop :=
  match r with
  | RHeader h => c = HHeader (Some h) | RCont x => c = HCont (Some x) | RPod x => c = HPod (Some x)
  | RK8s n => c = HK8s (Some n) | RProc p => c = HProc (Some p) | RFile f => c = HFile (Some f)
  | RProcEvt o n => c = HProcEvt o n | RNetFlow o n => c = HNetFlow o n
  | RFileFlow o f n => c = HFileFlow o f n | RFileEvt o f nf n => c = HFileEvt o f nf n
  | _ => False
  end.
Definition tidied_rec (r : rec) : rec := match r with RProc p => RProc (tidied p) | _ => r end.

(** The header in force: the last one of the stream. *)
Definition header_of (r : rec) : option header := match r with RHeader h => Some h | _ => None end.

(** A record that makes the reader look up the ancestry of [id], after [s]. *)
Definition asks (ent : bool) (s : list rec) (id : oid) (r : rec) : Prop :=
  (subject r = Some id /\ exists p, ProcInForce ann_rec s id (Some p)) \/
  (ent = true /\ exists p, r = RProc p /\ p_oid p = id).
(** What is known when [r], arriving after [s], looks up an ancestry: a process record counts itself. *)
Definition seen (s : list rec) (r : rec) : list rec := match r with RProc _ => s ++ [r] | _ => s end.
(** [s] ++ [r]: [r] asks for [id]; [l] is the ancestry of [id] at the first record of [s] ++ [r]
    that asked for it. *)
Definition FirstAncestry (ent : bool) (s : list rec) (r : rec) (id : oid) (l : list process) : Prop :=
  exists s1 r1 s2, s ++ [r] = s1 ++ r1 :: s2 /\ asks ent s1 id r1 /\
    (forall a x b, s1 = a ++ x :: b -> ~ asks ent a id x) /\ Ancestry ann_rec (seen s1 r1) id l.

(** The context an event record (about process [id]) must be delivered with: [h] is the stream
    before it, [s] the part since the last header.  The ancestry is the one found when it was first
    looked up since the last header (see C30_ancestry_refuted for what is missing). *)
Record EventCtx (ent : bool) (h s : list rec) (r : rec) (id : oid) (x : ctx) : Prop := {
  ec_rec : x_rec x = r;
  ec_hdr : Latest header_of h (x_hdr x);
  ec_proc : ProcInForce ann_rec s id (x_proc x);
  ec_cont : match x_proc x with Some p => ContOf ann_rec s (p_cont p) (x_cont x) | None => x_cont x = None end;
  ec_pod : PodOf ann_rec s (x_cont x) (x_pod x);
  ec_file : FileOf ann_rec s (file1 r) (x_file x);
  ec_newfile : FileOf ann_rec s (file2 r) (x_newfile x);
  ec_ptree : match x_proc x, x_ptree x with Some _, Some l => FirstAncestry ent s r id l | None, None => True | _, _ => False end }.
(** The context of a process record and of a file record, for handlers that ask for entities. *)
Record ProcessCtx (h s : list rec) (p : process) (x : ctx) : Prop := {
  pc_rec : x_rec x = RProc (tidied p);
  pc_hdr : Latest header_of h (x_hdr x);
  pc_proc : x_proc x = Some (tidied p);
  pc_cont : ContOf ann_rec s (p_cont p) (x_cont x);
  pc_pod : PodOf ann_rec s (x_cont x) (x_pod x);
  pc_files : x_file x = None /\ x_newfile x = None;
  pc_ptree : exists l, x_ptree x = Some l /\ FirstAncestry true s (RProc p) (p_oid p) l }.
Record FileCtx (h s : list rec) (f : file) (x : ctx) : Prop := {
  fc_rec : x_rec x = RFile f;
  fc_hdr : Latest header_of h (x_hdr x);
  fc_file : x_file x = Some f;
  fc_cont : ContOf ann_rec s (f_cont f) (x_cont x);
  fc_pod : PodOf ann_rec s (x_cont x) (x_pod x);
  fc_none : x_proc x = None /\ x_ptree x = None /\ x_newfile x = None }.
(** The other deliverable records come without entities. *)
Record PlainCtx (h : list rec) (r : rec) (x : ctx) : Prop := {
  pl_rec : x_rec x = r;
  pl_hdr : Latest header_of h (x_hdr x);
  pl_none : x_pod x = None /\ x_cont x = None /\ x_proc x = None /\ x_ptree x = None /\ x_file x = None /\ x_newfile x = None }.
(** How many deliveries a stream makes. *)
Definition count (ent : bool) (h : list rec) : nat := length (filter (deliverable ent) h).
(** Streams the reader gets through: states are states, container references of files are not nil
    pointers (only looked at with entities enabled), nobody is his own ancestor. *)
Record Sane (ent : bool) (rs : list rec) : Prop := {
  sn_state : forall p, In (RProc p) rs -> p_state p = 0%Z \/ p_state p = 1%Z \/ p_state p = 2%Z;
  sn_file : forall f, In (RFile f) rs -> ent = false \/ f_cont f <> INil;
  sn_acyclic : forall h r rest s q, rs = h ++ r :: rest -> Since is_header h s -> ~ Above ann_rec (seen s r) q q }.

(** * SpecDriver: vocabulary for the data sources. *)
From Verif Require Import GoBase PluginModel DriverModel NetModel.

Section S.
Context {R : Type}.
(** The records an action list sends, in order. *)
Definition sends (a : list (act R)) : list R := flat_map (fun x => match x with ASend r => [r] | _ => [] end) a.
Definition prefix {A} (x y : list A) : Prop := exists z, y = x ++ z.
(** The records of a file up to the first datum that cannot be read. *)
Inductive records_of : list (option R) -> list R -> Prop :=
| ro_end : records_of [] []
| ro_bad : forall l, records_of (None :: l) []
| ro_rec : forall r l rs, records_of l rs -> records_of (Some r :: l) (r :: rs).
Definition file_records (open : string -> file_res R) (f : string) (rs : list R) : Prop :=
  exists l, open f = FData l /\ records_of l rs.
(** The flag stays false once it is false. *)
Definition monotone (flag : nat -> bool) : Prop := forall n m, n <= m -> flag n = false -> flag m = false.
(** The driver's run as a stage of the network of NetModel: it sends its records to channel [c]
    and closes it if its run did. *)
Definition closes (a : list (act R)) : bool := existsb (fun x => match x with AClose => true | _ => false end) a.
Definition waits (a : list (act R)) : bool := existsb (fun x => match x with AWait => true | _ => false end) a.
Definition driver_stage {M St} (inj : R -> M) (c : nat) (st0 : St) (a : list (act R)) : @NetModel.stage M St :=
  mkG true (map (fun r => (Some c, inj r)) (sends a)) [] (if closes a then [c] else []) 0 false st0 (fun st _ => (st, [])) (fun _ => []).

(** Where a file driver reads: the path of its configuration, or else the one it is given; a file, or the entries of a
    directory that has some. *)
Inductive names_input : option conf -> string -> string -> Prop :=
| ni_conf c p path : mget "path" c = Some (VStr p) -> names_input (Some c) path p
| ni_default c path : (forall p, mget "path" c <> Some (VStr p)) -> names_input (Some c) path path
| ni_none path : names_input None path path.
Inductive inputs (stat : string -> stat_res) : string -> list string -> Prop :=
| in_file p : stat p = StFile -> inputs stat p [p]
| in_dir p es : stat p = StDir (Some es) -> es <> [] -> inputs stat p (map (fun e => p ++ "/" ++ e)%string es).
(** Where it writes: the first channel of the pipeline, or the channel its configuration names. *)
Inductive names_output (types : list string) (s : cache) (root : option chan) : option conf -> chan -> Prop :=
| no_root c : root = Some c -> names_output types s root None c
| no_conf cfg v s' c : mget "out" cfg = Some (VStr v) -> get_chan types s v = Ok (s', Some c) -> names_output types s root (Some cfg) c.

(** Byte [p] of the buffer after the messages [ms]: that of the last message longer than [p]. *)
Fixpoint latest (ms : list string) (p : nat) : option ascii :=
  match ms with
  | [] => None
  | m :: ms' => match latest ms' p with Some a => Some a | None => String.get p m end
  end.
Definition buffer_after (size : nat) (ms : list string) (b : string) : Prop :=
  slen b = size /\ forall p, p < size -> String.get p b = Some (match latest ms p with Some a => a | None => zero end).
(** [Delivers ms es rs]: with messages [ms] received so far on the current connection, the events
    [es] deliver the records [rs]: one for each message that fits, decoded from the buffer. *)
Inductive Delivers (eval : string -> R) (size : nat) : list string -> list sev -> list R -> Prop :=
| De_end : forall ms, Delivers eval size ms [] []
| De_conn : forall ms es rs, Delivers eval size [] es rs -> Delivers eval size ms (Connect :: es) rs
| De_msg : forall ms m b es rs, slen m <= size -> buffer_after size (ms ++ [m]) b ->
    Delivers eval size (ms ++ [m]) es rs -> Delivers eval size ms (Message m :: es) (eval b :: rs)
| De_big : forall ms m es rs, size < slen m -> Delivers eval size [] es rs -> Delivers eval size ms (Message m :: es) rs
| De_other : forall ms e es rs, e = AcceptFails \/ e = ReadFails \/ e = Stop -> Delivers eval size ms es rs -> Delivers eval size ms (e :: es) rs.
Definition messages (size : nat) (es : list sev) : list string :=
  flat_map (fun e => match e with Message m => if slen m <=? size then [m] else [] | _ => [] end) es.
End S.

(** What the receiver of the k-th send of an OpenTelemetry file run may see: the contents of the
    message at the moment it looks, i.e. in the memory in force at or after the send. *)
Section O.
Context {L : Type}.
(** [Sees h a i v]: starting with memory [h], the receiver of the i-th send of [a] can see [v]. *)
Fixpoint mems (h : list L) (a : list (oact L)) : list (list L) :=
  match a with [] => [h] | OMem h' :: a' => h :: mems h' a' | _ :: a' => mems h a' end.
Inductive Sees : list L -> list (oact L) -> nat -> L -> Prop :=
| Se_here : forall h p a m v, In m (mems h a) -> nth_error m p = Some v -> Sees h (OSend p :: a) 0 v
| Se_later : forall h p a i v, Sees h a i v -> Sees h (OSend p :: a) (S i) v
| Se_mem : forall h h' a i v, Sees h' a i v -> Sees h (OMem h' :: a) i v
| Se_close : forall h a i v, Sees h a i v -> Sees h (OClose :: a) i v
| Se_wait : forall h a i v, Sees h a i v -> Sees h (OWait :: a) i v.
(** A prompt receiver looks at the message before the next file is loaded. *)
Inductive SeesAtOnce : list L -> list (oact L) -> nat -> L -> Prop :=
| So_here : forall h p a v, nth_error h p = Some v -> SeesAtOnce h (OSend p :: a) 0 v
| So_later : forall h p a i v, SeesAtOnce h a i v -> SeesAtOnce h (OSend p :: a) (S i) v
| So_mem : forall h h' a i v, SeesAtOnce h' a i v -> SeesAtOnce h (OMem h' :: a) i v
| So_close : forall h a i v, SeesAtOnce h a i v -> SeesAtOnce h (OClose :: a) i v
| So_wait : forall h a i v, SeesAtOnce h a i v -> SeesAtOnce h (OWait :: a) i v.
Definition osends (a : list (oact L)) : list nat := flat_map (fun x => match x with OSend p => [p] | _ => [] end) a.
End O.

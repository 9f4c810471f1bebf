(** * RaceModel: goroutines that hash records through one package-level scratch buffer
    ([var byteInt64 []byte], core/exporter/encoders/ecs.go:163-201 and core/flattener/filter.go:32, 99-126).

    Every ECS exporter encodes in its own goroutine, every flattener hashes in the goroutine of its reader; all ECS encoders
    of a process share one buffer, all flatteners another.  Simplification: PutUint64 and h.Write are single steps (the
    compiler turns PutUint64 into one 8-byte store; tearing it would only add behaviours). *)
From Verif Require Import GoBase Predicates FlatRecord FieldTables FlattenModel EcsModel.

(** One call on the hash: h.Write([]byte(s)), or PutUint64(byteInt64, v); h.Write(byteInt64). *)
Inductive hop := HStr (s : string) | HInt (z : Z).

(** ecs.go:166-200, call by call. *)
Definition id_ops (X : sfgo_fns) (fr : flatrec) : list hop :=
  let i a := get_int (fr_slots fr) a SYSFLOW_SRC in
  let t := sget X "sf.type" fr in
  [HStr (sget X "sf.node.id" fr); HStr (sget X "sf.container.id" fr); HInt (i TS_INT); HInt (i TID_INT); HInt (i PROC_OID_CREATETS_INT); HInt (i OPFLAGS_INT)] ++
  (if seqb t "FF" || seqb t "FE" then [HStr (sget X "sf.file.oid" fr)]
   else if seqb t "NF" then [HInt (i FL_NETW_SIP_INT); HInt (i FL_NETW_SPORT_INT); HInt (i FL_NETW_DIP_INT); HInt (i FL_NETW_DPORT_INT); HInt (i FL_NETW_PROTO_INT)]
   else if seqb t "KE" then [HInt (i K8SE_ACTION_INT); HInt (i K8SE_KIND_INT); HStr (sget X "sf.ke.message" fr)]
   else []).
(** filter.go:99-125, call by call. *)
Definition sem_ops (fr : flatrec) : list hop :=
  let i a := get_int (fr_slots fr) a SYSFLOW_SRC in let s a := get_str (fr_slots fr) a SYSFLOW_SRC in
  let ty := i SF_REC_TYPE in
  [HStr (s PROC_EXE_STR); HStr (s PROC_EXEARGS_STR); HInt (i PROC_UID_INT); HInt (i PROC_GID_INT); HInt (i OPFLAGS_INT); HInt (i PROC_TTY_INT)] ++
  (if Z.eqb ty NET_FLOW then [HInt (i FL_NETW_SIP_INT); HInt (i FL_NETW_DIP_INT); HInt (i FL_NETW_DPORT_INT); HInt (i FL_NETW_PROTO_INT)] else []) ++
  (if Z.eqb ty FILE_FLOW || Z.eqb ty FILE_EVT then [HStr (s FILE_PATH_STR)] else []).

(** A goroutine: the records it has still to hash, the one it is hashing (calls left, whether the buffer has been filled for
    the first of them, bytes hashed so far), and the bytes that entered the hash of each record it has finished. *)
Record hasher := mkHasher { h_todo : list (list hop); h_cur : option (list hop * bool * string); h_done : list string }.
(** The next instruction of a goroutine, given the shared buffer. *)
Definition h_step (buf : string) (h : hasher) : string * hasher :=
  match h_cur h with
  | None => match h_todo h with
            | [] => (buf, h)
            | p :: ps => (buf, mkHasher ps (Some (p, false, "")) (h_done h))
            end
  | Some ([], _, acc) => (buf, mkHasher (h_todo h) None (h_done h ++ [acc]))
  | Some (HStr s :: l, _, acc) => (buf, mkHasher (h_todo h) (Some (l, false, (acc ++ s)%string)) (h_done h))
  | Some (HInt z :: l, false, acc) => (le64 z, mkHasher (h_todo h) (Some (HInt z :: l, true, acc)) (h_done h))
  | Some (HInt z :: l, true, acc) => (buf, mkHasher (h_todo h) (Some (l, false, (acc ++ buf)%string)) (h_done h))
  end.
(** All goroutines: the scheduler picks one at a time. *)
Fixpoint h_upd (hs : list hasher) (k : nat) (buf : string) : string * list hasher :=
  match hs, k with
  | [], _ => (buf, [])
  | h :: hs', 0 => let (b, h') := h_step buf h in (b, h' :: hs')
  | h :: hs', S k' => let (b, l) := h_upd hs' k' buf in (b, h :: l)
  end.
Fixpoint h_run (sched : list nat) (st : string * list hasher) : string * list hasher :=
  match sched with [] => st | k :: sched' => h_run sched' (h_upd (snd st) k (fst st)) end.
(** Goroutines about to hash these records; the buffer holds what the last use left. *)
Definition hashers (progs : list (list (list hop))) : list hasher := map (fun ps => mkHasher ps None []) progs.

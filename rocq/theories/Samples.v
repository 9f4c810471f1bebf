(** * Samples: concrete external functions and records for the non-vacuity examples. *)
From Verif Require Import GoBase Predicates FlatRecord FieldTables.

Definition X0 : sfgo_fns := mkSfgo
  (fun z => if Z.eqb z FILE_EVT then "FE" else if Z.eqb z PROC_EVT then "PE" else if Z.eqb z NET_FLOW then "NF"
            else if Z.eqb z FILE_FLOW then "FF" else if Z.eqb z K8S_EVT then "KE" else "")
  (fun z rt => if Z.eqb z 0 then [] else if Z.eqb z 3 then ["OPEN"; "WRITE"] else ["EXEC"])
  (fun z => if Z.eqb z 102 then "f" else "") (fun _ => false) (fun z => negb (Z.eqb z 0)) (fun _ => [])
  (fun z => format_int z) (fun _ => "DOCKER") (fun _ => "K8S_ADDED") (fun _ => "K8S_PODS")
  (fun s => s) (fun _ => None) (fun s => s) (fun s p => s)
  (fun re => if seqb re "(" then None else Some (fun s => if contains s re then re else "")).

Definition i0 (a : iattr) : Z :=
  match a with
  | SF_REC_TYPE => FILE_EVT | OPFLAGS_INT => 3%Z | PROC_OID_HPID_INT => 17%Z | PROC_UID_INT => 1000%Z
  | TS_INT => 55%Z | _ => 0%Z
  end.
Definition s0 (a : sattr) : string :=
  match a with PROC_EXE_STR => "/usr/bin/Bash" | PROC_EXEARGS_STR => "-c ls" | CONT_ID_STR => "abc" | _ => "" end.
Definition slot0 : slot := mkSlot SYSFLOW_SRC i0 s0 (fun _ => ANil).
Definition slot1 : slot := mkSlot PROCESS_SRC (fun _ => 9%Z) (fun _ => "other") (fun _ => ANil).

Definition proc0 : process :=
  mkProc 0 (mkOid 17 1) (Some (mkOid 3 1)) 1 "/usr/bin/Bash" "-c ls" 1000 "joe" 1000 "joe" false false None.
Definition proc1 : process :=
  mkProc 0 (mkOid 3 1) None 1 "/sbin/init" "" 501 "root" 0 "root" false false None.
Definition rec0 : flatrec := mkFlat [slot1; slot0] (Some [proc0; proc1]).

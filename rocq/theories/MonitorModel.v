(** * MonitorModel: core/policyengine/monitor/localpolicymonitor.go. *)
From Coq Require Import NArith.
From Verif Require Import GoBase PoolModel.

(** fsnotify operations are a bit mask. *)
Definition op_create : N := 1. Definition op_write : N := 2. Definition op_remove : N := 4.
Definition op_rename : N := 8. Definition op_chmod : N := 16.
Record fsevent := mkEv { e_op : N; e_name : string }.
(** localpolicymonitor.go:92-100 *)
Definition has_modified_yaml (e : fsevent) : bool :=
  (N.eqb (e_op e) op_create || N.eqb (e_op e) op_remove || N.eqb (e_op e) op_write || N.eqb (e_op e) op_rename)
  && (has_suffix (e_name e) ".yaml" || has_suffix (e_name e) ".yml").

(** What the monitor finds in the policy directory at one moment: the paths ioutils.ListFilePaths
    returns for ".yaml" (None: it fails) and the digest of each (None: it cannot be read). *)
Record view := mkView { v_paths : option (list string); v_sum : string -> option string }.

(** m[k] = v on a map whose size matters: any earlier entry for k is replaced. *)
Definition mput {V} (k : string) (v : V) (m : gomap V) : gomap V := (k, v) :: mdel k m.
(** localpolicymonitor.go:129-143: the loop; [None] is the return at line 133. *)
Fixpoint sum_loop (old : gomap string) (sum : string -> option string) (paths : list string)
    (changes : bool) (new : gomap string) : option (bool * gomap string) :=
  match paths with
  | [] => Some (changes, new)
  | p :: paths' =>
      match sum p with
      | None => None
      | Some cs =>
          let changes' := match mget p old with
                          | Some v => if seqb v cs then changes else true
                          | None => true
                          end in
          sum_loop old sum paths' changes' (mput p cs new)
      end
  end.
(** What a check returns: changes, err != nil, and whether the path list is non-nil and empty. *)
Record outcome := mkOut { o_changes : bool; o_err : bool; o_nofiles : bool }.
(** localpolicymonitor.go:118-150: the new p.policies and the result. *)
Definition calculate_checksum (old : gomap string) (v : view) : gomap string * outcome :=
  match v_paths v with
  | None => (old, mkOut false true false)
  | Some [] => ([], mkOut false true true)
  | Some paths =>
      match sum_loop old (v_sum v) paths false [] with
      | None => ([], mkOut false true false)
      | Some (changes, new) =>
          (new, mkOut (if Nat.eqb (length old) (length new) then changes else true) false false)
      end
  end.

Section M.
Context {P : Type}.
Record mstate := mkM { m_policies : gomap string; m_queue : list P }.

(** localpolicymonitor.go:209-231.  [paths]: the listing; [compiled]: what createInter yields. *)
Definition check_for_update (s : mstate) (paths : option (list string)) (compiled : option P) : mstate * bool :=
  match paths with
  | None => (s, true)
  | Some [] => (s, true)
  | Some _ =>
      match compiled with
      | None => (s, true)
      | Some pi => (if Nat.ltb (length (m_queue s)) mon_capacity then mkM (m_policies s) (m_queue s ++ [pi]) else s, false)
      end
  end.
(** localpolicymonitor.go:52-66: None when the constructor fails. *)
Definition new_monitor (paths : option (list string)) (compiled : option P) : option mstate :=
  let (s, err) := check_for_update (mkM [] []) paths compiled in if err then None else Some s.

(** What happens to the monitor: a batch of file events (the one received and those dequeued
    right after it) with what the directory shows to the check, then to the update and to the
    compiler (three moments, so three independent observations); or the engine taking an
    interpreter from the channel (policyengine.go:107, 146). *)
Inductive mevent :=
| EFiles (evs : list fsevent) (v : view) (paths : option (list string)) (compiled : option P)
| ETake.
(** localpolicymonitor.go:165-186, and the take.  Returns the interpreter taken, if any. *)
Definition mon_step (s : mstate) (e : mevent) : mstate * option P :=
  match e with
  | ETake => match m_queue s with [] => (s, None) | p :: q => (mkM (m_policies s) q, Some p) end
  | EFiles evs v paths compiled =>
      if existsb has_modified_yaml evs then
        let (pol, o) := calculate_checksum (m_policies s) v in
        let s1 := mkM pol (m_queue s) in
        if o_err o && o_nofiles o then (s1, None)
        else if o_changes o || o_err o then (fst (check_for_update s1 paths compiled), None)
        else (s1, None)
      else (s, None)
  end.
Fixpoint mon_run (s : mstate) (es : list mevent) : mstate * list P :=
  match es with
  | [] => (s, [])
  | e :: es' => let (s1, o) := mon_step s e in let (s2, t) := mon_run s1 es' in
                (s2, match o with Some p => p :: t | None => t end)
  end.
End M.
Arguments mstate : clear implicits.
Arguments mevent : clear implicits.

(** ** The two listings of the policy directory.
    The monitor lists dir/*.yaml (localpolicymonitor.go:119, 210: ioutils.ListFilePaths); the
    interpreter is compiled from dir/**/*.yaml and dir/**/*.yml (policyengine.go:177:
    ioutils.ListRecursiveFilePaths).  ioutils is in sf-apis, outside this repository: modelled by
    its documentation.  A directory: relative path and digest of every file below it. *)
Definition dir := list (string * string).
Fixpoint nested (p : string) : bool :=
  match p with EmptyString => false | String a p' => Ascii.eqb a "/"%char || nested p' end.
Definition list_file_paths (d : dir) (ext : string) : list string :=
  map fst (filter (fun f => negb (nested (fst f)) && has_suffix (fst f) ext) d).
Definition list_recursive (d : dir) (exts : list string) : list string :=
  map fst (filter (fun f => existsb (has_suffix (fst f)) exts) d).
Definition dir_view (d : dir) : view := mkView (Some (list_file_paths d ".yaml")) (fun f => mget f d).
(** The files the engine compiles, with their digests. *)
Definition loaded (d : dir) : list (string * string) := filter (fun f => existsb (has_suffix (fst f)) [".yaml"; ".yml"]) d.

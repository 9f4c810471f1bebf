(** * WatchModel: the policy directory over time, the watcher and the policy monitor
    (core/policyengine/monitor/localpolicymonitor.go:52-66, 74-90, 118-206, 209-231; policyengine.go:102-114).

    The directory changes at any moment; the monitor's goroutine looks at it at several moments: [calculateChecksum] lists
    the files and then opens one after the other, [CheckForPolicyUpdate] lists them again, and [createInter] lists and opens
    them once more.  Here each of these takes time, and what it finds is put together from the states the directory had
    meanwhile.

    Simplifications: a directory is a list of file names with digests of their contents (as in [MonitorModel.dir]), so the
    compiler is a function of names and digests; listings do not fail; the watcher reports every change of a watched directory
    by at least the events given with it and in order, and loses none (inotify). *)
From Verif Require Import GoBase PoolModel MonitorModel.

Section W.
Context {P : Type}.
Variable compile : dir -> option P.       (* createInter on the files found; None: an error *)

(** What the monitor's goroutine is doing, with the states of the directory since it began to look (oldest first). *)
Inductive phase :=
| PhIdle                                                    (* localpolicymonitor.go:162, waiting for events *)
| PhCheck (seen : list dir)                                 (* 175, in calculateChecksum *)
| PhList                                                    (* 210, about to list the files *)
| PhCompile (paths : list string) (seen : list dir).        (* 218, in createInter *)
Record wstate := mkW { w_dir : dir; w_watched : bool; w_pending : list fsevent; w_phase : phase; w_mon : mstate P }.
Inductive wact :=
| WChange (d : dir) (evs : list fsevent)    (* the directory becomes d; events evs if it is watched *)
| WWatch                                    (* 200: watcher.Add *)
| WBatch (n : nat)                          (* 168-173: n events are received *)
| WLook (k : nat) (pick : string -> nat)    (* 175-187: the listing is that of the k-th state seen, file f is read in the (pick f)-th *)
| WList                                     (* 210-216 *)
| WCompile (k : nat) (pick : string -> nat) (* 218-228, likewise *)
| WTake.                                    (* policyengine.go:107, 146: the engine takes an interpreter *)
(** What is observed: a look (undisturbed: the directory did not change during it), a compilation of what was found ([None]: a
    file listed could not be opened) and whether its result was queued, and an interpreter taken. *)
Inductive wlabel := LLook (undisturbed : bool) | LTried (found : option dir) (queued : bool) | LTook (p : P).

Definition at_ (seen : list dir) (d : dir) (k : nat) : dir := nth k seen d.
(** Names with digests, each file opened in the state picked for it. *)
Fixpoint opened (seen : list dir) (d : dir) (pick : string -> nat) (files : list string) : option dir :=
  match files with
  | [] => Some []
  | f :: fs => match mget f (at_ seen d (pick f)), opened seen d pick fs with
               | Some cs, Some l => Some ((f, cs) :: l)
               | _, _ => None
               end
  end.
Definition extend (ph : phase) (d : dir) : phase :=
  match ph with PhCheck seen => PhCheck (seen ++ [d]) | PhCompile paths seen => PhCompile paths (seen ++ [d]) | _ => ph end.
(** [None]: cannot happen now. *)
Definition w_step (s : wstate) (a : wact) : option (wstate * list wlabel) :=
  match a, w_phase s with
  | WChange d evs, _ => Some (mkW d (w_watched s) (if w_watched s then w_pending s ++ evs else w_pending s) (extend (w_phase s) d) (w_mon s), [])
  | WWatch, _ => Some (mkW (w_dir s) true (w_pending s) (w_phase s) (w_mon s), [])
  | WBatch n, PhIdle =>
      match firstn n (w_pending s) with
      | [] => None
      | evs => Some (mkW (w_dir s) (w_watched s) (skipn n (w_pending s)) (if existsb has_modified_yaml evs then PhCheck [w_dir s] else PhIdle) (w_mon s), [])
      end
  | WLook k pick, PhCheck seen =>
      let v := mkView (Some (list_file_paths (at_ seen (w_dir s) k) ".yaml")) (fun f => mget f (at_ seen (w_dir s) (pick f))) in
      let (pol, o) := calculate_checksum (m_policies (w_mon s)) v in
      let ph := if o_err o && o_nofiles o then PhIdle else if o_changes o || o_err o then PhList else PhIdle in
      Some (mkW (w_dir s) (w_watched s) (w_pending s) ph (mkM pol (m_queue (w_mon s))), [LLook (Nat.eqb (length seen) 1)])
  | WList, PhList =>
      match list_file_paths (w_dir s) ".yaml" with
      | [] => Some (mkW (w_dir s) (w_watched s) (w_pending s) PhIdle (w_mon s), [])
      | paths => Some (mkW (w_dir s) (w_watched s) (w_pending s) (PhCompile paths [w_dir s]) (w_mon s), [])
      end
  | WCompile k pick, PhCompile paths seen =>
      let found := opened seen (w_dir s) pick (list_recursive (at_ seen (w_dir s) k) [".yaml"; ".yml"]) in
      let compiled := match found with Some d => compile d | None => None end in
      let m' := fst (check_for_update (w_mon s) (Some paths) compiled) in
      Some (mkW (w_dir s) (w_watched s) (w_pending s) PhIdle m', [LTried found (Nat.ltb (length (m_queue (w_mon s))) (length (m_queue m')))])
  | WTake, _ =>
      match mon_step (w_mon s) ETake with
      | (m', Some p) => Some (mkW (w_dir s) (w_watched s) (w_pending s) (w_phase s) m', [LTook p])
      | _ => None
      end
  | _, _ => None
  end.
Fixpoint w_run (s : wstate) (acts : list wact) : option (wstate * list wlabel) :=
  match acts with
  | [] => Some (s, [])
  | a :: acts' => match w_step s a with
                  | Some (s1, l) => match w_run s1 acts' with Some (s2, l') => Some (s2, l ++ l') | None => None end
                  | None => None
                  end
  end.
(** policyengine.go:102-113: NewPolicyMonitor has compiled the directory [d0], Init has taken the result; StartMonitor follows. *)
Definition w_start (d0 : dir) : wstate := mkW d0 false [] PhIdle (mkM [] []).
End W.
Arguments wlabel : clear implicits.
Arguments wstate : clear implicits.

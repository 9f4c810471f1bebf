(** * StopModel: the monitor's goroutine between its events, and stopping it
    (core/policyengine/monitor/localpolicymonitor.go:74-90, 153-206; policyengine.go:221-234).

    What the goroutine does with the policy directory is MonitorModel and WatchModel; here it is one step, assumed to
    return.  The watcher's channel is the list of the events reported and not yet received. *)
From Verif Require Import GoBase MonitorModel.

(** localpolicymonitor.go:77: the number of times the channel is found empty, 10 ms of sleep each (86). *)
Definition poll_limit : nat := 1000.
Inductive phase :=
| Waiting                            (* 160, in the select *)
| Dequeuing (i count : nat)          (* 74-90: i times found empty, count modifications seen *)
| Checking                           (* 175-186 *)
| Gone                               (* 163 *)
| NotStarted.                        (* NewLocalPolicyMonitor without StartMonitor *)
(** The monitor; [m_stops]: callers of StopMonitor waiting for their send on the unbuffered [done] (204). *)
Record monst := mkMon { m_events : list fsevent; m_phase : phase; m_stops : nat }.
Inductive mact :=
| AEvent (e : fsevent)               (* the watcher reports an event *)
| AStop                              (* StopMonitor is called *)
| AReceive | ADequeue | APoll | AFinish | ADone
| AQuit                              (* 161-163: one StopMonitor returns *)
| AWatchErr.                         (* 189 *)
Definition modified (e : fsevent) : nat := if has_modified_yaml e then 1 else 0.
(** [None]: cannot happen now. *)
Definition m_step (s : monst) (a : mact) : option monst :=
  match a, m_phase s, m_events s with
  | AEvent e, ph, q => Some (mkMon (q ++ [e]) ph (m_stops s))
  | AStop, ph, q => Some (mkMon q ph (S (m_stops s)))
  | AReceive, Waiting, e :: q => Some (mkMon q (Dequeuing 0 (modified e)) (m_stops s))
  | ADequeue, Dequeuing i c, e :: q => if Nat.ltb i poll_limit then Some (mkMon q (Dequeuing i (c + modified e)) (m_stops s)) else None
  | APoll, Dequeuing i c, [] => if Nat.ltb i poll_limit then Some (mkMon [] (Dequeuing (S i) c) (m_stops s)) else None
  | AFinish, Dequeuing i c, q => if Nat.ltb i poll_limit then None else Some (mkMon q (if Nat.ltb 0 c then Checking else Waiting) (m_stops s))
  | ADone, Checking, q => Some (mkMon q Waiting (m_stops s))
  | AQuit, Waiting, q => match m_stops s with S n => Some (mkMon q Gone n) | O => None end
  | AWatchErr, Waiting, _ => Some s
  | _, _, _ => None
  end.
Fixpoint m_run (s : monst) (acts : list mact) : option monst :=
  match acts with
  | [] => Some s
  | a :: acts' => match m_step s a with Some s1 => m_run s1 acts' | None => None end
  end.

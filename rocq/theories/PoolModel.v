(** * PoolModel: the goroutines of the policy engine plugin
    (core/policyengine/policyengine.go:76-234, engine/interpreter.go:96-184).

    A state machine whose steps are the atomic actions of the plugin's main goroutine (running
    Process and then Cleanup, driver/pipeline/pipeline.go:291-294) and of the worker goroutines of
    every interpreter ever installed.  A schedule is a list of [choice]s; [fire] performs one.

    Simplifications: (1) one record's evaluation (interpreter.go:154-176) is one step, given by
    [proc]: the record to push downstream, or nothing.  A panic in a condition or action kills the
    process and is not modelled here (see Predicates/FlatRecord for the panics there are).
    (2) The input channel is its observable behaviour: any sequence of records, then closed; the
    downstream consumers may accept a send at any moment.  (3) [now.After(expiration)] may be true
    or false at any iteration.  (4) a worker channel of capacity c accepts a send iff it holds
    fewer than c records; with c = 0 there are no workers either, and no send ever succeeds. *)
From Verif Require Import GoBase.

Section Pool.
Context {P R : Type}.
Variable proc : P -> R -> option R.      (* interpreter.go:159-181 for one record *)
Variable conc : nat.                     (* config.Concurrency *)
Variable outCh : list nat.               (* s.outCh: the channels, identified by numbers *)

(** interpreter.go:145-184: where a worker goroutine is. *)
Inductive wst :=
| WIdle                       (* at the receive, line 148 *)
| WEval (r : R)               (* has received r *)
| WOut (r : R) (cs : list nat)(* in pi.out(r): still has to send r on these channels *)
| WExit                       (* saw the closed channel; before wg.Done() *)
| WGone.                      (* returned *)
(** An interpreter with its pool: policies, workerCh (contents, closed), wg counter, goroutines. *)
Record pool := mkPool { pl_pol : P; pl_buf : list R; pl_closed : bool; pl_wg : nat; pl_ws : list wst }.
(** interpreter.go:97-105 *)
Definition start_workers (p : P) : pool := mkPool p [] false conc (repeat WIdle conc).

(** policyengine.go:121-169 and 221-234: where the plugin's goroutine is. *)
Inductive mpc :=
| MRecv                       (* 136: receiving from the input *)
| MHave (r : R)               (* 137: has a record *)
| MStop (r : R) (p : P)       (* 149: took interpreter p, about to close the old worker channel *)
| MWait (r : R) (p : P)       (* 149: old channel closed, in wg.Wait() *)
| MSend (r : R)               (* 163: in workerCh <- r *)
| MBypass (r : R) (cs : list nat)   (* 138 *)
| MRet                        (* 166: loop left, wg.Done() of the pipeline not yet executed *)
| MClean                      (* 221: in Cleanup *)
| MCleanWait                  (* 224: worker channel closed, in wg.Wait() *)
| MClose (cs : list nat)      (* 227: still has to close these channels *)
| MEnd.

Record st := mkSt {
  s_main : mpc;
  s_pi : option nat;             (* s.pi: the current interpreter, an index into s_pools *)
  s_pools : list pool;           (* every interpreter whose workers were started, oldest first *)
  s_monq : option (list P);      (* the monitor's channel (None: no monitor configured) *)
  s_closed : list nat;           (* output channels closed so far *)
  s_panic : bool }.              (* a send on or a close of a closed channel happened *)

Inductive label :=
| LTake (r : R)               (* the plugin received r from its input *)
| LEof                        (* the plugin saw its input closed *)
| LSubmit (r : R)             (* r was queued for the current interpreter *)
| LEval (p : P) (r : R)       (* a worker evaluated r under the policies p *)
| LEmit (c : nat) (r : R)     (* r was sent on output channel c *)
| LPublish (p : P)            (* the monitor queued an interpreter with policies p *)
| LDrop (p : P)               (* the monitor's queue was full *)
| LSwap (p : P)               (* the interpreter with policies p became the current one *)
| LReturn                     (* Process returned: wg.Done() of the pipeline *)
| LCloseOut (c : nat)         (* output channel c was closed *)
| LPanic
| LTau.

Inductive choice :=
| CInput (i : option R)       (* what the input delivers: a record, or closed *)
| CExpired (b : bool)         (* now.After(expiration) *)
| CMain                       (* the main goroutine goes on *)
| CWorker (g w : nat)         (* worker w of interpreter g goes on *)
| CPublish (p : P).           (* the monitor publishes p *)

Definition set_main (s : st) (m : mpc) : st := mkSt m (s_pi s) (s_pools s) (s_monq s) (s_closed s) (s_panic s).
Definition set_pool (s : st) (g : nat) (p : pool) : st :=
  mkSt (s_main s) (s_pi s) (upd (s_pools s) g p) (s_monq s) (s_closed s) (s_panic s).
Definition crash (s : st) : st * label :=
  (mkSt (s_main s) (s_pi s) (s_pools s) (s_monq s) (s_closed s) true, LPanic).
Definition cur (s : st) : option (nat * pool) :=
  match s_pi s with
  | Some g => match nth_error (s_pools s) g with Some p => Some (g, p) | None => None end
  | None => None
  end.

(** close(pi.workerCh), interpreter.go:110 *)
Definition close_pool (p : pool) : pool := mkPool (pl_pol p) (pl_buf p) true (pl_wg p) (pl_ws p).

(** A send on output channel [c] (policyengine.go:209). *)
Definition send_out (s : st) (c : nat) (r : R) (s' : st) : st * label :=
  if existsb (Nat.eqb c) (s_closed s) then crash s else (s', LEmit c r).

Definition fire_main (s : st) (c : choice) : option (st * label) :=
  match s_main s, c with
  | MRecv, CInput (Some r) => Some (set_main s (MHave r), LTake r)
  | MRecv, CInput None => Some (set_main s MRet, LEof)
  | MHave r, CExpired b =>
      match s_pi s with
      | None => Some (set_main s (MBypass r outCh), LTau)             (* 137-140 *)
      | Some _ =>
          match s_monq s with                                        (* 141-156 *)
          | Some (p :: q) =>
              if b then Some (mkSt (MStop r p) (s_pi s) (s_pools s) (Some q) (s_closed s) (s_panic s), LTau)
              else Some (set_main s (MSend r), LTau)
          | _ => Some (set_main s (MSend r), LTau)
          end
      end
  | MStop r p, CMain =>                                              (* interpreter.go:110 *)
      match cur s with
      | Some (g, pl) => if pl_closed pl then Some (crash s)
                        else Some (set_main (set_pool s g (close_pool pl)) (MWait r p), LTau)
      | None => None
      end
  | MWait r p, CMain =>                                              (* interpreter.go:111; 150-151 *)
      match cur s with
      | Some (g, pl) =>
          match pl_wg pl with
          | 0 => Some (mkSt (MSend r) (Some (length (s_pools s))) (s_pools s ++ [start_workers p])
                         (s_monq s) (s_closed s) (s_panic s), LSwap p)
          | S _ => None
          end
      | None => None
      end
  | MSend r, CMain =>                                                (* interpreter.go:137 *)
      match cur s with
      | Some (g, pl) =>
          if pl_closed pl then Some (crash s)
          else if Nat.ltb (length (pl_buf pl)) conc then
            Some (set_main (set_pool s g (mkPool (pl_pol pl) (pl_buf pl ++ [r]) false (pl_wg pl) (pl_ws pl))) MRecv,
                  LSubmit r)
          else None
      | None => None
      end
  | MBypass r [], CMain => Some (set_main s MRecv, LTau)
  | MBypass r (c :: cs), CMain => Some (send_out s c r (set_main s (MBypass r cs)))
  | MRet, CMain => Some (set_main s MClean, LReturn)
  | MClean, CMain =>                                                 (* 223-225 *)
      match cur s with
      | Some (g, pl) => if pl_closed pl then Some (crash s)
                        else Some (set_main (set_pool s g (close_pool pl)) MCleanWait, LTau)
      | None => match s_pi s with None => Some (set_main s (MClose outCh), LTau) | Some _ => None end
      end
  | MCleanWait, CMain =>
      match cur s with
      | Some (g, pl) => match pl_wg pl with 0 => Some (set_main s (MClose outCh), LTau) | S _ => None end
      | None => None
      end
  | MClose [], CMain => Some (set_main s MEnd, LTau)
  | MClose (c :: cs), CMain =>                                       (* 226-230 *)
      if existsb (Nat.eqb c) (s_closed s) then Some (crash s)
      else Some (mkSt (MClose cs) (s_pi s) (s_pools s) (s_monq s) (c :: s_closed s) (s_panic s), LCloseOut c)
  | _, _ => None
  end.

Definition set_w (s : st) (g : nat) (pl : pool) (w : nat) (x : wst) : st :=
  set_pool s g (mkPool (pl_pol pl) (pl_buf pl) (pl_closed pl) (pl_wg pl) (upd (pl_ws pl) w x)).
(** interpreter.go:145-184 *)
Definition fire_worker (s : st) (g w : nat) : option (st * label) :=
  match nth_error (s_pools s) g with
  | None => None
  | Some pl =>
      match nth_error (pl_ws pl) w with
      | None => None
      | Some WIdle =>
          match pl_buf pl with
          | r :: b => Some (set_pool s g (mkPool (pl_pol pl) b (pl_closed pl) (pl_wg pl) (upd (pl_ws pl) w (WEval r))), LTau)
          | [] => if pl_closed pl then Some (set_w s g pl w WExit, LTau) else None
          end
      | Some (WEval r) =>
          let x := match proc (pl_pol pl) r with Some r' => WOut r' outCh | None => WIdle end in
          Some (set_w s g pl w x, LEval (pl_pol pl) r)
      | Some (WOut r []) => Some (set_w s g pl w WIdle, LTau)
      | Some (WOut r (c :: cs)) => Some (send_out s c r (set_w s g pl w (WOut r cs)))
      | Some WExit => Some (set_pool s g (mkPool (pl_pol pl) (pl_buf pl) (pl_closed pl) (Nat.pred (pl_wg pl)) (upd (pl_ws pl) w WGone)), LTau)
      | Some WGone => None
      end
  end.

Definition mon_capacity : nat := 10.           (* localpolicymonitor.go: make(chan, 10) *)
(** One atomic step; [None]: the chosen goroutine cannot move. *)
Definition fire (s : st) (c : choice) : option (st * label) :=
  if s_panic s then None else
  match c with
  | CWorker g w => fire_worker s g w
  | CPublish p =>
      match s_monq s with
      | None => None
      | Some q => if Nat.ltb (length q) mon_capacity
                  then Some (mkSt (s_main s) (s_pi s) (s_pools s) (Some (q ++ [p])) (s_closed s) (s_panic s), LPublish p)
                  else Some (s, LDrop p)
      end
  | _ => fire_main s c
  end.

(** policyengine.go:76-117 Init, when it succeeds: without policies (enrich mode), with policies
    and no monitor, or with a monitor whose first interpreter was taken. *)
Definition init_bypass : st := mkSt MRecv None [] None [] false.
Definition init_static (p : P) : st := mkSt MRecv (Some 0) [start_workers p] None [] false.
Definition init_monitor (p : P) (q : list P) : st := mkSt MRecv (Some 0) [start_workers p] (Some q) [] false.

(** A schedule; choices that cannot be performed are skipped. *)
Fixpoint run (s : st) (cs : list choice) : st * list label :=
  match cs with
  | [] => (s, [])
  | c :: cs' => match fire s c with
                | None => run s cs'
                | Some (s1, l) => let (s2, ls) := run s1 cs' in (s2, l :: ls)
                end
  end.
End Pool.
Arguments st : clear implicits.
Arguments pool : clear implicits.
Arguments label : clear implicits.
Arguments choice : clear implicits.
Arguments mpc : clear implicits.

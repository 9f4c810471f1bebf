(** * Properties C23-C25 and C51: the policy engine's worker pool, shutdown and hot swap. *)
From Verif Require Import GoBase PermTac Predicates EngineModel SpecEngine PoolModel SpecPool PoolFacts PoolFacts2 PoolFacts3 PoolFacts4.

(** C23.  Whatever the schedule, once the plugin has finished, the records evaluated are exactly
    the records received, each once (as multisets: several workers may reorder them), and what was
    sent on each output channel is exactly what those evaluations push. *)
Theorem C23_exactly_once :
  forall (P R : Type) (proc : P -> R -> option R) conc outCh, NoDup outCh ->
  forall p0 q s0 cs s tr, starts conc p0 q s0 -> run proc conc outCh s0 cs = (s, tr) -> finished s ->
  Permutation (taken tr) (map snd (evaluated tr)) /\ Permutation (accepted p0 tr) (evaluated tr) /\
  (forall c, In c outCh -> Permutation (emitted c tr) (due proc (evaluated tr))) /\ closed_outs tr = outCh /\ In LEof tr.
Proof. exact @pool_exactly_once. Qed.
Print Assumptions C23_exactly_once.
(** At every moment: nothing evaluated that was not queued, at most twice the configured
    concurrency queued or in evaluation, at most one more record in the plugin's hand; no panic. *)
Theorem C23_in_flight :
  forall (P R : Type) (proc : P -> R -> option R) conc outCh, NoDup outCh ->
  forall p0 q s0 cs s tr, starts conc p0 q s0 -> run proc conc outCh s0 cs = (s, tr) ->
  (exists rest, Permutation (accepted p0 tr) (evaluated tr ++ rest) /\ length rest <= 2 * conc) /\
  (exists hand, taken tr = map snd (accepted p0 tr) ++ hand /\ length hand <= 1) /\ ~ In LPanic tr.
Proof. exact @pool_in_flight. Qed.
Print Assumptions C23_in_flight.
(** With one worker the evaluations, and the sends on each output, are in the order of arrival. *)
Theorem C23_one_worker_in_order :
  forall (P R : Type) (proc : P -> R -> option R) conc outCh, NoDup outCh -> conc = 1 ->
  forall p0 q s0 cs s tr, starts conc p0 q s0 -> run proc conc outCh s0 cs = (s, tr) ->
  (exists rest, accepted p0 tr = evaluated tr ++ rest) /\
  (forall c, In c outCh -> exists rest, due proc (evaluated tr) = emitted c tr ++ rest).
Proof. exact @pool_order. Qed.
Print Assumptions C23_one_worker_in_order.
(** With the policy engine's own worker iteration: what leaves the plugin on each output is what
    the rules make of the records received. *)
Theorem C23_engine :
  forall (R : Type) applicable add_rule (ah : ahandler R) m conc outCh, NoDup outCh ->
  forall filters rules cs s tr,
  run (engine_proc applicable add_rule ah m) conc outCh (init_static conc (filters, rules)) cs = (s, tr) -> finished s ->
  forall c, In c outCh ->
  Permutation (emitted c tr) (flat_map (fun r => outs (snd (work applicable add_rule ah m filters rules r))) (taken tr)).
Proof. exact @pool_engine. Qed.
Print Assumptions C23_engine.

(** C24.  When an output channel is closed, the input has ended, every record received has been
    evaluated and everything due has been sent on every output; nothing is received, evaluated or
    sent afterwards, and no output is closed twice. *)
Theorem C24_close_after_drain :
  forall (P R : Type) (proc : P -> R -> option R) conc outCh, NoDup outCh ->
  forall p0 q s0 cs s tr, starts conc p0 q s0 -> run proc conc outCh s0 cs = (s, tr) ->
  forall tr1 c tr2, tr = tr1 ++ LCloseOut c :: tr2 ->
  In LEof tr1 /\ map snd (accepted p0 tr1) = taken tr1 /\ Permutation (accepted p0 tr1) (evaluated tr1) /\
  (forall k, In k outCh -> Permutation (emitted k tr1) (due proc (evaluated tr1))) /\
  taken tr2 = [] /\ evaluated tr2 = [] /\ (forall k, emitted k tr2 = []) /\ ~ In c (closed_outs tr1) /\ ~ In c (closed_outs tr2).
Proof. exact @pool_close. Qed.
Print Assumptions C24_close_after_drain.
(** The plugin never gets stuck: unless it has finished or waits for its input, one of its own
    goroutines can go on ... *)
Theorem C24_no_deadlock :
  forall (P R : Type) (proc : P -> R -> option R) conc outCh, NoDup outCh -> 0 < conc ->
  forall p0 q s0 cs s tr, starts conc p0 q s0 -> run proc conc outCh s0 cs = (s, tr) ->
  s_panic s = false /\
  (finished s \/ s_main s = MRecv \/ exists c s' l, goes_on c = true /\ fire proc conc outCh s c = Some (s', l)).
Proof. exact @pool_progress. Qed.
Print Assumptions C24_no_deadlock.
(** ... and cannot go on forever without new records or policies, *)
Theorem C24_no_livelock :
  forall (P R : Type) (proc : P -> R -> option R) conc outCh (s : st P R),
  exists n, forall cs s' tr, Forall (fun c => internal c = true) cs -> run proc conc outCh s cs = (s', tr) -> length tr <= n.
Proof. exact @pool_terminates. Qed.
Print Assumptions C24_no_livelock.
(** so that closing the input brings it to completion from wherever it is. *)
Theorem C24_completes :
  forall (P R : Type) (proc : P -> R -> option R) conc outCh, NoDup outCh -> 0 < conc ->
  forall p0 q s0 cs s tr, starts conc p0 q s0 -> run proc conc outCh s0 cs = (s, tr) ->
  exists cs' s' tr', Forall (fun c => internal c = true) cs' /\ run proc conc outCh s cs' = (s', tr') /\ finished s'.
Proof. exact @pool_completes. Qed.
Print Assumptions C24_completes.
(** Without policies (enrich mode), every record is forwarded unevaluated, in order. *)
Theorem C24_bypass :
  forall (P R : Type) (proc : P -> R -> option R) conc outCh, NoDup outCh ->
  forall cs s tr, run proc conc outCh init_bypass cs = (s, tr) ->
  (forall c, In c outCh -> exists rest, taken tr = emitted c tr ++ rest /\ length rest <= 1 /\ (In LReturn tr -> rest = [])) /\
  evaluated tr = [] /\ ~ In LPanic tr /\ (finished s -> closed_outs tr = outCh).
Proof. exact @pool_bypass. Qed.
Print Assumptions C24_bypass.

(** C25.  Policy sets are installed in the order published, without skipping one; when one is
    installed, everything accepted before has been evaluated under the policies then in force and
    sent; what is accepted after it is evaluated under the new ones (until the next is installed). *)
Theorem C25_swap :
  forall (P R : Type) (proc : P -> R -> option R) conc outCh, NoDup outCh ->
  forall p0 q s0 cs s tr, starts conc p0 q s0 -> run proc conc outCh s0 cs = (s, tr) ->
  (exists rest, q ++ published tr = installed tr ++ rest) /\
  forall tr1 p tr2, tr = tr1 ++ LSwap p :: tr2 ->
  Permutation (accepted p0 tr1) (evaluated tr1) /\
  (forall k, In k outCh -> Permutation (emitted k tr1) (due proc (evaluated tr1))) /\
  (exists rest, Permutation (accepted p tr2) (evaluated tr2 ++ rest) /\ (finished s -> rest = [])).
Proof. exact @pool_swap. Qed.
Print Assumptions C25_swap.

(** A run with two workers, two outputs and a swap: policy [p] pushes p+r unless r is odd. *)
Definition ex_proc (p r : nat) : option nat := if Nat.odd r then None else Some (p + r).
Definition ex_sched : list (choice nat nat) :=
  [CInput (Some 2); CExpired true; CMain; CInput (Some 3); CExpired true; CMain; CWorker 0 1; CWorker 0 0; CPublish 100;
   CInput (Some 4); CExpired true; CMain; CWorker 0 0; CMain; CWorker 0 1; CWorker 0 1; CWorker 0 0; CWorker 0 1; CWorker 0 1;
   CWorker 0 0; CMain; CWorker 0 1; CWorker 0 1; CMain; CMain; CInput (Some 6); CExpired false; CMain; CInput None; CMain; CMain; CMain]
  ++ [CWorker 1 0; CWorker 1 1; CWorker 1 1; CWorker 1 0; CWorker 1 0; CWorker 1 1; CWorker 1 1; CWorker 1 0; CWorker 1 1; CWorker 1 0;
      CWorker 1 0; CWorker 1 1; CWorker 1 1; CWorker 1 0; CMain; CMain; CMain; CMain].
Definition ex_run := run ex_proc 2 [7; 8] (init_monitor 2 0 []) ex_sched.
Example ex_finished : finished (fst ex_run).
Proof. vm_compute. reflexivity. Qed.
Example ex_observed :
  (taken (snd ex_run), evaluated (snd ex_run), emitted 7 (snd ex_run), closed_outs (snd ex_run), installed (snd ex_run))
  = ([2; 3; 4; 6], [(0, 3); (0, 2); (100, 6); (100, 4)], [2; 104; 106], [7; 8], [100]).
Proof. vm_compute. reflexivity. Qed.
Example ex_close_point : exists tr1 tr2, snd ex_run = tr1 ++ LCloseOut 8 :: tr2.
Proof. exists (removelast (removelast (snd ex_run))), [LTau]. vm_compute. reflexivity. Qed.

(** C51.  Any integer is accepted for the concurrency; with zero, the plugin hangs on its first
    record: it is never evaluated and the plugin never finishes. *)
Theorem C51_zero_concurrency_refuted :
  forall (P R : Type) (proc : P -> R -> option R) outCh p0 r cs s tr,
  run proc 0 outCh (init_static 0 p0) (CInput (Some r) :: cs) = (s, tr) ->
  ~ finished s /\ taken tr = [r] /\ evaluated tr = [] /\ (forall c, emitted c tr = []) /\ closed_outs tr = [].
Proof. exact @pool_zero. Qed.
Print Assumptions C51_zero_concurrency_refuted.
(** Naming the same channel twice as output crashes the plugin at shutdown. *)
Example ex_same_output_twice : In LPanic (snd (run ex_proc 1 [7; 7] (init_static 1 0)
  [CInput None; CMain; CMain; CWorker 0 0; CWorker 0 0; CMain; CMain; CMain])).
Proof. vm_compute. tauto. Qed.

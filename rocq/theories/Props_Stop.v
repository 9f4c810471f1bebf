(** * Property C122: when the monitor looks at changed policies, and how it is stopped. *)
From Coq Require Import Lia.
From Verif Require Import GoBase MonitorModel StopModel SpecStop StopFacts.
Local Open Scope nat_scope.

(** C122.  Between the first event and the look at the directory, the monitor finds the watcher's channel
    empty exactly 1000 times, sleeping 10 ms each time: at least ten seconds, whatever the configured
    interval.  It then looks exactly if one of the events received meanwhile is a change of a YAML file. *)
Theorem C122_check :
  forall s acts s', m_phase s = Waiting -> m_run s (AReceive :: acts ++ [AFinish]) = Some s' -> Forall inner acts ->
  length (filter is_poll acts) = 1000 /\
  exists seen, seen ++ m_events s' = m_events s ++ reported acts /\
    m_phase s' = if existsb has_modified_yaml seen then Checking else Waiting.
Proof. exact check_exact. Qed.
Print Assumptions C122_check.
(** At every one of these moments all events reported until then have been received. *)
Theorem C122_covers :
  forall s acts s', m_run s (acts ++ [APoll]) = Some s' -> m_events s' = [].
Proof.
  intros s acts s' E. rewrite m_run_app in E. destruct (m_run s acts) as [s1|]; [|discriminate]. cbn [m_run] in E.
  destruct (m_step s1 APoll) as [s2|] eqn:E2; [|discriminate]. injection E as <-. exact (proj2 (poll_empties _ _ E2)).
Qed.
Print Assumptions C122_covers.
(** Stopping a started monitor: if the directory is left alone from some moment on, then whatever the
    monitor does it can do only so much, and as long as StopMonitor has not returned it can do something;
    so StopMonitor returns.  One caller is let go, and the monitor is gone. *)
Theorem C122_stop_returns_partial :
  forall s, running (m_phase s) -> 0 < m_stops s -> exists n, forall acts s', Forall own acts -> m_run s acts = Some s' ->
  length acts <= n /\
  ((m_phase s' <> Gone /\ exists a s2, own a /\ m_step s' a = Some s2) \/ (m_phase s' = Gone /\ S (m_stops s') = m_stops s)).
Proof.
  intros s R S. exists (left_over s). intros acts s' F E. split; [exact (stops_soon _ _ _ F E)|].
  destruct (own_runs _ _ _ F R E) as [[A B]|[A B]]; [left|right; auto]. split; [exact (proj1 A)|]. apply never_stuck; [exact A|]. lia.
Qed.
Print Assumptions C122_stop_returns_partial.
(** That it always returns is false of the code: events that keep coming hold the monitor in the loop that
    empties the channel, where it neither notices that it is to stop nor looks at the policies, ... *)
Theorem C122_stop_returns_refuted :
  forall e k, exists count, m_run (mkMon [e] Waiting 0) (AReceive :: AStop :: concat (repeat [AEvent e; ADequeue] k)) = Some (mkMon [] (Dequeuing 0 count) 1).
Proof.
  intros e k. destruct (starved e 1 k 0 (modified e)) as (c & H); [apply Nat.lt_0_succ|]. exists c. exact H.
Qed.
Print Assumptions C122_stop_returns_refuted.
(** ... and nobody is let go by a monitor that has been stopped before or was never started. *)
Theorem C122_stop_again_refuted :
  forall s acts s', m_phase s = Gone \/ m_phase s = NotStarted -> m_run s acts = Some s' -> m_phase s' = m_phase s /\ m_stops s <= m_stops s' /\ filter is_quit acts = [].
Proof. intros s acts s' D E. exact (dead_stays acts s s' E D). Qed.
Print Assumptions C122_stop_again_refuted.
(** Non-vacuity: two events, the first not a change of a policy, then quiet; the look; a stop. *)
Definition ev_other : fsevent := mkEv op_chmod "p.yaml".
Definition ev_policy : fsevent := mkEv op_write "p.yaml".
Lemma polls_run n c st : forall k i, i + k <= n -> n <= poll_limit -> m_run (mkMon [] (Dequeuing i c) st) (repeat APoll k) = Some (mkMon [] (Dequeuing (i + k) c) st).
Proof.
  induction k as [|k IH]; intros i L N; [cbn [repeat m_run]; now rewrite Nat.add_0_r|]. cbn [repeat m_run m_step m_phase m_events m_stops].
  assert (LT : Nat.ltb i poll_limit = true) by (apply Nat.ltb_lt; lia). rewrite LT, IH by lia. do 3 f_equal. lia.
Qed.
Example C122_case : let acts := AEvent ev_policy :: ADequeue :: AStop :: repeat APoll 1000 in
  Forall inner acts /\ m_run (mkMon [ev_other] Waiting 0) (AReceive :: acts ++ [AFinish]) = Some (mkMon [] Checking 1) /\
  m_run (mkMon [ev_other] Waiting 0) ((AReceive :: acts ++ [AFinish]) ++ [ADone; AQuit]) = Some (mkMon [] Gone 0).
Proof.
  assert (R : forall k, k = poll_limit -> m_run (mkMon [ev_other] Waiting 0) (AReceive :: (AEvent ev_policy :: ADequeue :: AStop :: repeat APoll k) ++ [AFinish]) = Some (mkMon [] Checking 1)).
  { intros k K. change (m_run (mkMon [ev_policy] (Dequeuing 0 0) 0) (ADequeue :: AStop :: repeat APoll k ++ [AFinish]) = Some (mkMon [] Checking 1)).
    cbn [m_run m_step m_phase m_events m_stops]. change (Nat.ltb 0 poll_limit) with true. cbv iota. change (0 + modified ev_policy) with 1.
    assert (P := polls_run poll_limit 1 1 k 0). rewrite m_run_app. cbn [m_events m_phase m_stops]. rewrite P by lia. cbn [m_run m_step m_phase m_events m_stops].
    rewrite (proj2 (Nat.ltb_ge (0 + k) poll_limit)) by lia. reflexivity. }
  specialize (R 1000 eq_refl).
  split; [|split; [exact R|]].
  - constructor; [split; discriminate|]. constructor; [split; discriminate|]. constructor; [split; discriminate|].
    apply Forall_forall. intros a H. apply repeat_spec in H. subst a. split; discriminate.
  - rewrite m_run_app, R. reflexivity.
Qed.

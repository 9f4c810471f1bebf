(** * Property C41: pipelines shut down in cascade, without loss. *)
From Coq Require Import Lia.
From Verif Require Import GoBase NetModel SpecNet NetFacts NetFacts2 NetFacts3.

(** C41.  In a well-formed pipeline no execution sends on or closes a closed channel. *)
Theorem C41_no_crash :
  forall (M St : Type) (net : list (@stage M St)) cap, well_formed net ->
  forall r0 ls s, steps net cap (init net r0) ls s -> s_crash s = false.
Proof. intros M St net cap WF. exact (safe net cap WF). Qed.
Print Assumptions C41_no_crash.
(** There is no infinite execution, from any reachable state. *)
Theorem C41_terminates :
  forall (M St : Type) (net : list (@stage M St)) cap, well_formed net ->
  forall r0 ls s, steps net cap (init net r0) ls s -> Acc (fun s2 s1 => exists l, fire net cap s1 l = Some s2) s.
Proof. intros M St net cap WF. exact (terminates net cap WF). Qed.
Print Assumptions C41_terminates.
(** An execution that cannot continue has finished: every stage was cleaned up, Wait returned,
    every stage received all that was sent to it and performed exactly the effects for it. *)
Theorem C41_ends_complete :
  forall (M St : Type) (net : list (@stage M St)) cap, well_formed net -> 0 < cap ->
  forall r0 ls s, steps net cap (init net r0) ls s -> (forall l, fire net cap s l = None) ->
  all_exited net s /\ wait_returns net s /\ channels_faithful net s /\ forall i g, nth_error net i = Some g -> complete net s i g.
Proof. intros M St net cap WF C. exact (final net cap WF C). Qed.
Print Assumptions C41_ends_complete.
(** As soon as Wait returns: every stage has received everything that was and will be sent to it,
    and every stage that has an output or does not return early has performed all its effects. *)
Theorem C41_wait_complete :
  forall (M St : Type) (net : list (@stage M St)) cap, well_formed net ->
  forall r0 ls s, steps net cap (init net r0) ls s -> wait_returns net s ->
  channels_faithful net s /\
  forall i g, nth_error net i = Some g ->
    (forall c, input g = Some c -> c_closed (s_ch s c) = true /\ c_q (s_ch s c) = [] /\ r_recv (s_rt s i) = c_hist (s_ch s c)) /\
    (g_early g = false /\ g_driver g = false \/ g_outs g <> [] -> complete net s i g).
Proof. intros M St net cap WF. exact (at_wait net cap WF). Qed.
Print Assumptions C41_wait_complete.
(** End to end for driver, reader, engine, exporter: when Wait returns the exporter has received
    a permutation of what the engine's policies make of what the reader makes of the records, and
    has exported it. *)
Theorem C41_standard_pipeline :
  forall (M St : Type) cap (driver reader engine exporter : @stage M St) (f : M -> list eff) r0 ls s,
  let net := [driver; reader; engine; exporter] in
  g_driver driver = true -> g_outs driver = [0] ->
  g_driver reader = false -> sequential reader -> g_ins reader = [0] -> g_outs reader = [1] ->
  g_driver engine = false -> g_ins engine = [1] -> g_outs engine = [2] ->
  (forall st m, g_step engine st m = (st, f m)) -> (forall st, g_fin engine st = []) ->
  g_driver exporter = false -> sequential exporter -> g_ins exporter = [2] ->
  well_formed net ->
  steps net cap (init net r0) ls s -> wait_returns net s ->
  r_recv (s_rt s 1) = on 0 (g_feed driver) /\
  r_recv (s_rt s 2) = on 1 (all_effects reader (r_recv (s_rt s 1))) /\
  Permutation (r_recv (s_rt s 3)) (on 2 (flat_map f (r_recv (s_rt s 2)))) /\
  r_sent (s_rt s 3) = all_effects exporter (r_recv (s_rt s 3)).
Proof. intros M St. exact (@standard M St). Qed.
Print Assumptions C41_standard_pipeline.

(** Wait does not wait for Cleanup: in every pipeline some execution lets Wait return while a
    stage has not been cleaned up. *)
Theorem C41_wait_cleanup_refuted :
  forall (M St : Type) (net : list (@stage M St)) cap, well_formed net -> 0 < cap ->
  forall r0, (exists i g, nth_error net i = Some g /\ g_driver g = false) ->
  exists ls s, steps net cap (init net r0) ls s /\ wait_returns net s /\
    exists i g, nth_error net i = Some g /\ g_driver g = false /\ r_ctl (s_rt s i) <> Exited.
Proof. intros M St net cap WF C. exact (wait_before_cleanup net cap WF C). Qed.
Print Assumptions C41_wait_cleanup_refuted.
(** The policy engine as last stage: Wait may return before its last record has taken effect. *)
Theorem C41_wait_engine_last_refuted :
  forall (M St : Type) cap (driver engine : @stage M St) (m e : M) r0,
  let net := [driver; engine] in
  g_driver driver = true -> g_feed driver = [(Some 0, m)] -> g_outs driver = [0] ->
  g_driver engine = false -> g_early engine = true -> 0 < g_width engine -> g_ins engine = [0] -> g_outs engine = [] ->
  snd (g_step engine (g_init engine) m) = [(None, e)] -> (forall st, g_fin engine st = []) -> 0 < cap ->
  exists ls s, steps net cap (init net r0) ls s /\ s_crash s = false /\ wait_returns net s /\ r_sent (s_rt s 1) = [] /\ In [(None, e)] (r_infl (s_rt s 1)).
Proof. intros M St. exact (@early_last M St). Qed.
Print Assumptions C41_wait_engine_last_refuted.
(** A stage configured with no or several input channels makes Wait hang for ever. *)
Theorem C41_input_count_refuted :
  forall (M St : Type) (net : list (@stage M St)) cap r0 ls s i g,
  nth_error net i = Some g -> g_driver g = false -> (forall c, g_ins g <> [c]) ->
  steps net cap (init net r0) ls s -> ~ wait_returns net s.
Proof. intros M St. exact (@hangs M St). Qed.
Print Assumptions C41_input_count_refuted.
(** Two stages with a common output channel cannot both shut down: the second close crashes. *)
Theorem C41_shared_output_refuted :
  forall (M St : Type) (net : list (@stage M St)) cap r0 ls s i j g h c,
  nth_error net i = Some g -> nth_error net j = Some h -> i <> j -> In c (g_outs g) -> In c (g_outs h) ->
  steps net cap (init net r0) ls s -> s_crash s = false -> r_ctl (s_rt s i) = Exited -> r_ctl (s_rt s j) = Exited -> False.
Proof. intros M St. exact (@double_close M St). Qed.
Print Assumptions C41_shared_output_refuted.

(** The shipped pipeline with three records: the reader forwards, the engine drops record 2 and
    the exporter counts and reports. *)
Definition ex_driver : @stage nat nat := mkG true [(Some 0, 1); (Some 0, 2); (Some 0, 3)] [] [0] 0 false 0 (fun st _ => (st, [])) (fun _ => []).
Definition ex_reader : @stage nat nat := mkG false [] [0] [1] 1 false 0 (fun st m => (st, [(Some 1, m)])) (fun _ => []).
Definition ex_engine : @stage nat nat := mkG false [] [1] [2] 5 true 0 (fun st m => (st, if m =? 2 then [] else [(Some 2, 10 * m)])) (fun _ => []).
Definition ex_exporter : @stage nat nat := mkG false [] [2] [] 1 false 0 (fun st m => (S st, [(None, m)])) (fun st => [(None, st)]).
Definition ex_net := [ex_driver; ex_reader; ex_engine; ex_exporter].
Example ex_net_wf : well_formed ex_net.
Proof.
  assert (CASES : forall i g, nth_error ex_net i = Some g -> (i = 0 /\ g = ex_driver) \/ (i = 1 /\ g = ex_reader) \/ (i = 2 /\ g = ex_engine) \/ (i = 3 /\ g = ex_exporter)).
  { intros [|[|[|[|i]]]] g H; cbn in H; try (injection H as <-); auto 6. destruct i; discriminate. }
  constructor.
  - intros i g H D. apply CASES in H as [[-> ->]|[[-> ->]|[[-> ->]|[-> ->]]]]; cbn in *; eauto; discriminate.
  - intros i g H D. apply CASES in H as [[-> ->]|[[-> ->]|[[-> ->]|[-> ->]]]]; cbn in *; try lia; discriminate.
  - intros i g H. apply CASES in H as [[-> ->]|[[-> ->]|[[-> ->]|[-> ->]]]]; intros c m; cbn; intuition congruence.
  - intros i g st m H. apply CASES in H as [[-> ->]|[[-> ->]|[[-> ->]|[-> ->]]]]; intros c m'; cbn; try destruct (m =? 2); cbn; intuition congruence.
  - intros i g st H. apply CASES in H as [[-> ->]|[[-> ->]|[[-> ->]|[-> ->]]]]; intros c m; cbn; intuition congruence.
  - intros i g H. apply CASES in H as [[-> ->]|[[-> ->]|[[-> ->]|[-> ->]]]]; cbn; repeat constructor; cbn; tauto.
  - intros i j g h c H H'. apply CASES in H as [[-> ->]|[[-> ->]|[[-> ->]|[-> ->]]]]; apply CASES in H' as [[-> ->]|[[-> ->]|[[-> ->]|[-> ->]]]]; cbn; intuition lia.
  - intros i j g h c H H'. apply CASES in H as [[-> ->]|[[-> ->]|[[-> ->]|[-> ->]]]]; apply CASES in H' as [[-> ->]|[[-> ->]|[[-> ->]|[-> ->]]]]; cbn; congruence.
  - intros i g c H. apply CASES in H as [[-> ->]|[[-> ->]|[[-> ->]|[-> ->]]]]; cbn; try discriminate; intros [= <-].
    + exists 0, ex_driver. cbn. auto.
    + exists 1, ex_reader. cbn. auto.
    + exists 2, ex_engine. cbn. auto.
  - intros i g c H. apply CASES in H as [[-> ->]|[[-> ->]|[[-> ->]|[-> ->]]]]; cbn; try tauto; intros [<-|[]].
    + exists 1, ex_reader. cbn. auto.
    + exists 2, ex_engine. cbn. auto.
    + exists 3, ex_exporter. cbn. auto.
  - intros i j g h c H H'. apply CASES in H as [[-> ->]|[[-> ->]|[[-> ->]|[-> ->]]]]; apply CASES in H' as [[-> ->]|[[-> ->]|[[-> ->]|[-> ->]]]]; cbn; try discriminate; intros HH [= <-]; intuition lia.
Qed.
(** A run in which the engine's results overtake each other. *)
Fixpoint ex_run (s : @state nat nat) (ls : list label) : option (@state nat nat) :=
  match ls with [] => Some s | l :: ls' => match fire ex_net 2 s l with Some s' => ex_run s' ls' | None => None end end.
Definition ex_r0 : @rt nat nat := mkR 0 [] Exited true [] [].
Example ex_net_run :
  match ex_run (init ex_net ex_r0)
    [LEff 0 0; LEff 0 0; LRecv 1; LEff 0 0; LEff 1 0; LRecv 1; LEff 1 0; LRecv 2; LRecv 2; LRecv 1; LEff 1 0; LRecv 2; LEff 2 1; LRecv 3; LEff 3 0; LClose 0; LEnd 1; LReturn 1; LClose 1;
     LEnd 2; LReturn 2; LEff 2 0; LRecv 3; LEff 3 0; LClose 2; LClose 2; LClose 1; LClose 0; LEnd 3; LEff 3 0; LReturn 3; LClose 3] with
  | Some s => (r_sent (s_rt s 3), map (fun i => r_ctl (s_rt s i)) [0; 1; 2; 3], map (fun i => r_done (s_rt s i)) [1; 2; 3])
  | None => ([], [], [])
  end = ([(None, 30); (None, 10); (None, 2)], [Exited; Exited; Exited; Exited], [true; true; true]).
Proof. vm_compute. reflexivity. Qed.
(** The hypotheses of the refutations are met. *)
Example ex_hang : let net := [ex_driver; mkG false [] [0; 1] [] 1 false 0 (fun st m => (st, [(None, m)])) (fun _ => [])] in
  forall ls s, steps net 2 (init net ex_r0) ls s -> ~ wait_returns net s.
Proof. intros net ls s H. eapply (C41_input_count_refuted _ _ net 2 _ _ _ 1); eauto; try reflexivity. cbn. discriminate. Qed.
Example ex_engine_last :
  let driver := mkG true [(Some 0, 7)] [] [0] 0 false 0 (fun st _ => (st, [])) (fun _ => []) in
  let engine := mkG false [] [0] [] 5 true 0 (fun st m => (st, [(None, m)])) (fun _ => []) in
  exists ls s, steps [driver; engine] 2 (init [driver; engine] ex_r0) ls s /\ s_crash s = false /\ wait_returns [driver; engine] s /\ r_sent (s_rt s 1) = [] /\ In [(None, 7)] (r_infl (s_rt s 1)).
Proof. cbn zeta. eapply C41_wait_engine_last_refuted; try reflexivity; cbn; lia. Qed.

(** * Props_Kafka: the Kafka target and the producer it feeds (C106).

    A run of the target: the calls of Produce that Export makes, with their outcomes ([k_tried]: the texts handed over, [k_taken]:
    those the producer took), steps of the client in the background, and Cleanup.  [ks_arrived]: what the broker got. *)
From Verif Require Import GoBase ExportModel KafkaModel KafkaFacts.
From Coq Require Import Permutation Lia.
Import ListNotations.
Local Open Scope nat_scope.
Local Open Scope list_scope.

(** ** C106: what reaches the broker *)

(** Nothing is invented or delivered twice: what arrived is part of what the producer took, and what it took is what Export hands
    over of the items, except for those Produce refused - Export's result does not tell. *)
Theorem C106_from_exports : forall c tr s ds, kruns c tr s -> k_tried tr = k_texts ds ->
  (exists ok, k_taken tr = kafka_export ok 0 ds) /\ exists rest, Permutation (k_taken tr) (ks_arrived s ++ rest).
Proof.
  intros c tr s ds R E. split; [exact (taken_export tr ds E)|].
  destruct (kinv_arrived c tr s R) as [lost H]. exists (pend (ks_queue s) ++ lost). exact H.
Qed.

(** No record is refused as long as no more were handed over than the client's queue holds, however slow the broker. *)
Theorem C106_queue_holds : forall c tr s, kruns c tr s -> length (k_tried tr) <= k_q c -> k_taken tr = k_tried tr.
Proof. exact kinv_small. Qed.

(** As long as there is room for the reports - reports are not forwarded, or fewer were taken than the events channel holds - the client can
    empty its queue at any moment, everything still pending arriving; so if the queue holds anything at all, the next record can be taken. *)
Theorem C106_can_drain : forall c tr s, kruns c tr s -> ks_closed s = false ->
  (k_fwd c = true -> length (k_taken tr) <= k_e c) ->
  exists n s', kruns c (tr ++ repeat KTau n) s' /\ ks_closed s' = false /\ ks_queue s' = [] /\
    ks_arrived s' = ks_arrived s ++ flat_map (fun x => match snd x with KPending => [fst x] | _ => [] end) (ks_queue s) /\
    (0 < k_q c -> forall m, exists s'', kruns c (tr ++ repeat KTau n ++ [KTry m true]) s'').
Proof.
  intros c tr s R O H.
  destruct (k_drain c (ks_queue s) tr s R O eq_refl) as [n [s' [R' [O' [Q' A']]]]].
  { intros F. destruct (kinv_fwd c F _ _ R) as [I1 I2]. specialize (H F). lia. }
  exists n, s'. split; [exact R'|]. split; [exact O'|]. split; [exact Q'|]. split; [exact A'|].
  intros Q0 m. eexists. rewrite app_assoc. eapply kr_snoc; [exact R'|]. apply kt_take; [exact O'|].
  rewrite Q'. exact Q0.
Qed.

(** ** C106: the target does not go on forever

    "Records keep reaching the broker as long as it accepts them" does not hold: unless delivery reports are switched off, the producer never
    takes more records than its queue and its events channel hold together, whatever the broker does and however long one waits ... *)
Theorem C106_bounded_refuted : forall c, k_fwd c = true ->
  (forall tr s, kruns c tr s ->
     length (k_taken tr) <= k_q c + k_e c /\ length (ks_arrived s) <= k_q c + k_e c /\
     length (k_tried tr) - (k_q c + k_e c) <= length (k_tried tr) - length (k_taken tr)) /\
  (** ... so that once it has taken that many, every later record is refused, in all continuations ... *)
  (forall tr tr' s, kruns c (tr ++ tr') s -> length (k_taken tr) = k_q c + k_e c -> k_taken tr' = []).
Proof.
  intros c F. split.
  - intros tr s R. pose proof (kinv_bound c F tr s R) as B.
    destruct (kinv_arrived c tr s R) as [lost P]. apply Permutation_length in P. rewrite !app_length in P.
    split; [exact B|]. split; lia.
  - intros tr tr' s R L. pose proof (kinv_bound c F _ s R) as B. rewrite taken_app, app_length in B.
    destruct (k_taken tr') as [|x y]; [reflexivity|]. cbn [length] in B. lia.
Qed.

(** ... and this happens with a broker that gets everything the producer took: of any sequence of records, exactly the first ones arrive, and
    Export reported no error for the others. *)
Theorem C106_stops_refuted : forall c ms, k_fwd c = true -> 0 < k_q c ->
  exists tr s, kruns c tr s /\ ks_closed s = false /\ k_tried tr = ms /\ ks_arrived s = firstn (k_q c + k_e c) ms.
Proof.
  intros c ms F Q0.
  destruct (k_fill c F Q0 (firstn (k_q c + k_e c) ms)) as [tr [s [R [O [T1 [T2 [A P]]]]]]].
  { rewrite firstn_length. apply Nat.le_min_l. }
  destruct (Nat.le_gt_cases (length ms) (k_q c + k_e c)) as [L|L].
  - exists tr, s. split; [exact R|]. split; [exact O|]. split; [|exact A].
    rewrite T1. apply firstn_all2. exact L.
  - destruct (kinv_fwd c F _ _ R) as [I1 I2]. rewrite T2, firstn_length in I1.
    destruct (k_refuse_all c (skipn (k_q c + k_e c) ms) tr s R O) as [tr' [R' [T3 T4]]]; [lia|].
    exists (tr ++ tr'), s. split; [exact R'|]. split; [exact O|]. split; [|exact A].
    rewrite tried_app, T1, T3. apply firstn_skipn.
Qed.

(** ** C106: Cleanup *)

(** Nothing arrives after Cleanup. *)
Theorem C106_cleanup_last : forall c tr tr' s e, kruns c (tr ++ KDone e :: tr') s -> tr' = [].
Proof.
  intros c tr tr' s e R.
  destruct tr' as [|l tr'] using rev_ind; [reflexivity|]. exfalso. clear IHtr'.
  replace (tr ++ KDone e :: tr' ++ [l]) with ((tr ++ KDone e :: tr') ++ [l]) in R by (rewrite <- app_assoc; reflexivity).
  inversion R as [E|tr0 s0 l0 s1 R0 H0 E]; [destruct (tr ++ KDone e :: tr'); discriminate|].
  apply app_inj_tail in E. destruct E as [-> ->].
  eapply k_closed_stuck; [exact H0|]. eapply k_after_close; [exact R0|].
  apply in_or_app. right. left. reflexivity.
Qed.
(** When Flush found nothing outstanding, nothing the producer took is still pending: each record arrived or was given up. *)
Theorem C106_flushed : forall c tr s, kruns c tr s -> In (KDone true) tr ->
  ks_queue s = [] /\ (k_fwd c = true -> k_taken tr = []).
Proof.
  intros c tr s R H. destruct (k_early c tr s R H) as [E1 E2]. split; [exact E1|].
  intros F. destruct (kinv_fwd c F tr s R) as [I _]. rewrite E1, E2 in I.
  destruct (k_taken tr); [reflexivity|discriminate I].
Qed.
(** So with reports forwarded, a target that took any record always waits for the whole timeout. *)
Theorem C106_flush_refuted : forall c tr s e, kruns c tr s -> k_fwd c = true -> k_taken tr <> [] -> In (KDone e) tr -> e = false.
Proof.
  intros c tr s [|] R F T H; [|reflexivity]. exfalso. apply T. exact (proj2 (C106_flushed c tr s R H) F).
Qed.

(** ** C106: the end of the program *)

(** When the program has ended normally, every record was handed to the producer. *)
Theorem C106_exit_tried : forall c ms x, xruns c ms x -> x_exited x = true ->
  exists tr, kruns c tr (x_k x) /\ k_tried tr = ms.
Proof.
  intros c ms x R X. destruct (xinv c ms x R) as [tr [K [P E]]]. exists tr. split; [exact K|].
  destruct (E X) as [Ph|Ph]; rewrite Ph in P; exact (proj1 P).
Qed.
(** "... and has reached the broker, if the broker took everything" does not hold: Flush and Close run after the pipeline has stopped waiting for the
    exporter.  For all records that fit into the client's queue there is a normal end of the program at which none of them has left it. *)
Theorem C106_exit_refuted : forall c ms, length ms <= k_q c ->
  exists x, xruns c ms x /\ x_exited x = true /\ ks_arrived (x_k x) = [].
Proof. exact x_quick. Qed.
(** It does hold that a program which ended after Flush had returned early had delivered, or given up, all that was taken. *)
Theorem C106_exit_flushed : forall c ms x, xruns c ms x -> x_exited x = true -> ks_closed (x_k x) = true ->
  exists tr e, kruns c tr (x_k x) /\ k_tried tr = ms /\ In (KDone e) tr /\ (e = true -> ks_queue (x_k x) = []).
Proof.
  intros c ms x R X C. destruct (xinv c ms x R) as [tr [K [P E]]]. exists tr.
  destruct (E X) as [Ph|Ph]; rewrite Ph in P; destruct P as [P1 P2].
  - exfalso. assert (A : forall tr0 s, kruns c tr0 s -> ks_closed s = true -> exists e, In (KDone e) tr0).
    { intros tr0 s R0 C0. inversion R0 as [E0|tr1 s1 l s2 R1 S1 E0]; subst; [discriminate C0|].
      inversion S1; subst; try discriminate C0; try congruence.
      exists early. apply in_or_app. right. left. reflexivity. }
    destruct (A tr _ K C) as [e He]. exact (P2 e He).
  - destruct P2 as [e He]. exists e. split; [exact K|]. split; [exact P1|]. split; [exact He|].
    intros ->. exact (proj1 (C106_flushed c tr _ K He)).
Qed.

(** Cases: a queue of two and a channel of one; five records. *)
Definition kx : kclient := mkK 2 1 true.
Example C106_case_fwd : exists tr s, kruns kx tr s /\ ks_closed s = false /\ k_tried tr = ["a"; "b"; "c"; "d"; "e"]%string /\ ks_arrived s = ["a"; "b"; "c"]%string.
Proof. exact (C106_stops_refuted kx ["a"; "b"; "c"; "d"; "e"]%string eq_refl (Nat.lt_0_succ _)). Qed.
(** Two records are refused for good. *)
Example C106_case_full : exists tr s, kruns kx tr s /\ length (k_taken tr) = k_q kx + k_e kx.
Proof.
  destruct (k_fill kx eq_refl (Nat.lt_0_succ _) ["a"; "b"; "c"]%string (le_n _)) as [tr [s [R [_ [_ [T _]]]]]].
  exists tr, s. split; [exact R|]. rewrite T. reflexivity.
Qed.
(** A failed record, a refused one, and Cleanup with a record that is lost. *)
Definition ky : kclient := mkK 1 1 false.
Example C106_case_lost : exists tr s, kruns ky tr s /\ k_tried tr = ["a"; "b"; "c"]%string /\ k_taken tr = ["a"; "c"]%string /\ In (KDone false) tr /\
  ks_arrived s = [] /\ k_tried tr = k_texts [DBytes "a"; DObj None "" false; DBytes "b"; DBytes "c"]%string.
Proof.
  exists ([] ++ [KTry "a"%string true] ++ [KTry "b"%string false] ++ [KTau] ++ [KTau] ++ [KTry "c"%string true] ++ [KDone false]).
  eexists. split.
  - rewrite !app_assoc.
    eapply kr_snoc; [eapply kr_snoc; [eapply kr_snoc; [eapply kr_snoc; [eapply kr_snoc; [eapply kr_snoc; [apply kr_nil|]|]|]|]|]|].
    + apply kt_take; [reflexivity|cbn; lia].
    + apply kt_refuse; [reflexivity|cbn; lia].
    + apply (kt_fail _ _ [] "a"%string []); reflexivity.
    + apply (kt_report _ _ [] "a"%string KFailed []); [reflexivity|reflexivity|discriminate|discriminate].
    + apply kt_take; [reflexivity|cbn; lia].
    + apply kt_close; [reflexivity|discriminate].
  - repeat split; try reflexivity. do 5 right. left. reflexivity.
Qed.
(** A flush that finds nothing outstanding. *)
Example C106_case_flushed : exists tr s, kruns ky tr s /\ In (KDone true) tr /\ k_taken tr = ["a"]%string /\ ks_arrived s = ["a"]%string.
Proof.
  exists ([] ++ [KTry "a"%string true] ++ [KTau] ++ [KTau] ++ [KDone true]).
  eexists. split.
  - rewrite !app_assoc.
    eapply kr_snoc; [eapply kr_snoc; [eapply kr_snoc; [eapply kr_snoc; [apply kr_nil|]|]|]|].
    + apply kt_take; [reflexivity|cbn; lia].
    + apply (kt_arrive _ _ [] "a"%string []); reflexivity.
    + apply (kt_report _ _ [] "a"%string KArrived []); [reflexivity|reflexivity|discriminate|discriminate].
    + apply kt_close; [reflexivity|intros _; split; reflexivity].
  - repeat split; try reflexivity. do 3 right. left. reflexivity.
Qed.
(** Forwarded reports and Cleanup. *)
Example C106_case_timeout : exists tr s, kruns kx tr s /\ k_taken tr <> [] /\ In (KDone false) tr.
Proof.
  exists ([] ++ [KTry "a"%string true] ++ [KDone false]). eexists. split.
  - rewrite !app_assoc. eapply kr_snoc; [eapply kr_snoc; [apply kr_nil|]|].
    + apply kt_take; [reflexivity|cbn; lia].
    + apply kt_close; [reflexivity|discriminate].
  - split; [discriminate|right; left; reflexivity].
Qed.
(** A program that ends after a Flush that found nothing outstanding. *)
Example C106_case_exit : exists x, xruns ky ["a"]%string x /\ x_exited x = true /\ ks_closed (x_k x) = true /\ ks_arrived (x_k x) = ["a"]%string.
Proof.
  eexists. split.
  - eapply xr_step; [eapply xr_step; [eapply xr_step; [eapply xr_step; [eapply xr_step; [eapply xr_step; [apply xr_nil|]|]|]|]|]|].
    + eapply xs_export; [reflexivity|reflexivity|]. apply kt_take; [reflexivity|cbn; lia].
    + eapply xs_client; [reflexivity|]. apply (kt_arrive _ _ [] "a"%string []); reflexivity.
    + eapply xs_client; [reflexivity|]. apply (kt_report _ _ [] "a"%string KArrived []); [reflexivity|reflexivity|discriminate|discriminate].
    + apply xs_done; reflexivity.
    + eapply (xs_clean _ _ true); [reflexivity|reflexivity|]. apply kt_close; [reflexivity|intros _; split; reflexivity].
    + apply xs_exit; [reflexivity|right; reflexivity].
  - repeat split; reflexivity.
Qed.

Print Assumptions C106_from_exports.
Print Assumptions C106_queue_holds.
Print Assumptions C106_can_drain.
Print Assumptions C106_bounded_refuted.
Print Assumptions C106_stops_refuted.
Print Assumptions C106_cleanup_last.
Print Assumptions C106_flushed.
Print Assumptions C106_flush_refuted.
Print Assumptions C106_exit_tried.
Print Assumptions C106_exit_refuted.
Print Assumptions C106_exit_flushed.

(** * Property C111: health checks. *)
From Coq Require Import Lia.
From Verif Require Import GoBase ExportModel HealthModel SpecHealth.
From Verif Require StartModel.
Open Scope Z_scope.

Lemma checks_pass l : forall now, all_pass l -> checks now l = Some (now + total l, true).
Proof.
  induction l as [|[o|] l IH]; intros now A.
  - cbn. f_equal. f_equal. lia.
  - destruct (A o (or_introl eq_refl)) as (t & ->). cbn [checks]. rewrite IH; [|intros o' I; apply A; right; exact I]. unfold total. cbn [map fold_right duration]. f_equal. f_equal. lia.
  - cbn [checks]. rewrite IH; [|intros o' I; apply A; right; exact I]. unfold total. cbn [map fold_right duration]. reflexivity.
Qed.
Lemma checks_true l : forall now t, checks now l = Some (t, true) -> all_pass l.
Proof.
  induction l as [|[[u|u|]|] l IH]; intros now t E; cbn [checks] in E; try discriminate.
  - intros o [].
  - intros o [[= <-]|I]; [eauto|]. exact (IH _ _ E o I).
  - intros o [[=]|I]. exact (IH _ _ E o I).
Qed.
(** C111.  "passed" can be reported only if every stage that can be tested passes, all of them within the ten seconds, and then, unless they take
    exactly that long, nothing else is.  Something is always reported. *)
Theorem C111_passed : forall stages, says stages true <-> all_pass stages /\ total stages <= HealthChecksTimeout.
Proof.
  intros l. split.
  - intros H. inversion H as [t b E B|]; subst. pose proof (checks_true _ _ _ E) as A. rewrite (checks_pass l 0 A) in E. injection E as <-. split; [exact A|lia].
  - intros [A B]. apply sy_result with (0 + total l); [apply checks_pass, A|lia].
Qed.
Theorem C111_failed : forall stages, says stages false <-> ~ (all_pass stages /\ total stages < HealthChecksTimeout).
Proof.
  intros l. split.
  - intros H [A B]. inversion H as [t b E|T]; subst.
    + rewrite (checks_pass l 0 A) in E. discriminate.
    + specialize (T _ _ (checks_pass l 0 A)). lia.
  - intros N. destruct (checks 0 l) as [[t b]|] eqn:E.
    + destruct b.
      * pose proof (checks_true _ _ _ E) as A. apply sy_timeout. intros t' b' E'. rewrite (checks_pass l 0 A) in E'. injection E' as <- _.
        destruct (Z_lt_ge_dec (total l) HealthChecksTimeout) as [L|L]; [exfalso; auto|lia].
      * destruct (Z_le_gt_dec t HealthChecksTimeout) as [L|L]; [eapply sy_result; eauto|]. apply sy_timeout. intros t' b' E'. rewrite E in E'. injection E' as <- _. lia.
    + apply sy_timeout. intros t b E'. rewrite E in E'. discriminate.
Qed.
Theorem C111_reported : forall stages, exists b, says stages b.
Proof.
  intros l. destruct (checks 0 l) as [[t b]|] eqn:E.
  - destruct (Z_le_gt_dec t HealthChecksTimeout) as [L|L]; [exists b; eapply sy_result; eauto|exists false]. apply sy_timeout. intros t' b' E'. rewrite E in E'. injection E' as <- _. lia.
  - exists false. apply sy_timeout. intros t b E'. rewrite E in E'. discriminate.
Qed.
(** It does not say whether the exporter's target can be reached: with built-in stages the checks pass whatever the targets' state. *)
Theorem C111_target_refuted : forall ks reachable tr b, says (map (fun k => builtin_test k tr reachable) ks) b <-> b = true.
Proof.
  intros ks up tr b. set (l := map _ ks).
  assert (A : all_pass l /\ total l = 0).
  { subst l. induction ks as [|k ks [A T]]; [split; [intros o []|reflexivity]|]. split.
    - intros o [E|I]; [|exact (A o I)]. destruct k; try discriminate E. injection E as <-. exists 0. reflexivity.
    - unfold total in *. cbn [map fold_right]. rewrite T. destruct k; reflexivity. }
  destruct A as [A T]. destruct b.
  - split; [reflexivity|]. intros _. apply C111_passed. split; [exact A|]. rewrite T. unfold HealthChecksTimeout. lia.
  - split; [|discriminate]. intros H. apply C111_failed in H. exfalso. apply H. split; [exact A|]. rewrite T. unfold HealthChecksTimeout. lia.
Qed.
Print Assumptions C111_passed.
Print Assumptions C111_failed.
Print Assumptions C111_reported.
Print Assumptions C111_target_refuted.
Example C111_case : says [None; Some (Passes 3); Some (Passes 9000000000)] true /\ ~ says [None; Some (Passes 3); Some (Passes 9000000000)] false /\
  says [Some (Passes 3); Some Hangs; Some (Fails 1)] false /\ says [Some (Passes 10000000000)] true /\ says [Some (Passes 10000000000)] false.
Proof.
  assert (P : forall l, all_pass l <-> Forall (fun o => match o with Some (Passes _) | None => True | _ => False end) l).
  { intros l. rewrite Forall_forall. split; [intros A [o|] I; [destruct (A o I) as (t & ->); exact Logic.I|exact Logic.I]|]. intros A o I. specialize (A _ I). destruct o; [eauto|contradiction|contradiction]. }
  rewrite !C111_passed, !C111_failed, !P. repeat split; try (intros [A B]); repeat constructor; try (unfold total, HealthChecksTimeout; cbn; lia).
  - intros H. apply H. split; [repeat constructor|reflexivity].
  - inversion A as [|? ? _ A2]; subst. inversion A2; contradiction.
  - discriminate B.
Qed.

(** * NetFacts3: the shipped pipeline shape, and early return of a last stage. *)
From Coq Require Import Lia Permutation Bool.
From Verif Require Import GoBase NetModel SpecNet NetFacts NetFacts2.

Section F.
Context {M St : Type}.
Notation stage := (@stage M St).

Lemma on_perm c (a b : list (@eff M)) : Permutation a b -> Permutation (on c a) (on c b).
Proof. apply Permutation_flat_map. Qed.
Lemma handle_stateless (g : stage) f st ms : (forall st m, g_step g st m = (st, f m)) -> handle g st ms = (st, flat_map f ms).
Proof. intros H. induction ms as [|m ms IH]; cbn; auto. rewrite H, IH. reflexivity. Qed.

Lemma standard cap (driver reader engine exporter : stage) (f : M -> list eff) r0 ls s :
  let net := [driver; reader; engine; exporter] in
  g_driver driver = true -> g_outs driver = [0] ->
  g_driver reader = false -> sequential reader -> g_ins reader = [0] -> g_outs reader = [1] ->
  g_driver engine = false -> g_ins engine = [1] -> g_outs engine = [2] ->
  (forall st m, g_step engine st m = (st, f m)) -> (forall st, g_fin engine st = []) ->
  g_driver exporter = false -> sequential exporter -> g_ins exporter = [2] ->
  well_formed net ->
  steps net cap (init net r0) ls s -> wait_returns net s ->
  r_recv (s_rt s 1) = on 0 (g_feed driver) /\
  r_recv (s_rt s 2) = on 1 (all_effects reader (r_recv (s_rt s 1))) /\
  Permutation (r_recv (s_rt s 3)) (on 2 (flat_map f (r_recv (s_rt s 2)))) /\
  r_sent (s_rt s 3) = all_effects exporter (r_recv (s_rt s 3)).
Proof.
  intros net Dd Od Dr Sr Ir Or De Ie Oe Fe Ne Dx Sx Ix WF H W.
  destruct (at_wait net cap WF r0 ls s H W) as [F C].
  assert (K0 : nth_error net 0 = Some driver) by reflexivity. assert (K1 : nth_error net 1 = Some reader) by reflexivity.
  assert (K2 : nth_error net 2 = Some engine) by reflexivity. assert (K3 : nth_error net 3 = Some exporter) by reflexivity.
  assert (I1 : input reader = Some 0) by (unfold input; now rewrite Dr, Ir). assert (I2 : input engine = Some 1) by (unfold input; now rewrite De, Ie).
  assert (I3 : input exporter = Some 2) by (unfold input; now rewrite Dx, Ix).
  destruct (C 0 driver K0) as [_ C0]. destruct (C 1 reader K1) as [R1 C1]. destruct (C 2 engine K2) as [R2 C2]. destruct (C 3 exporter K3) as [R3 C3].
  assert (c0 : complete net s 0 driver) by (apply C0; right; rewrite Od; discriminate). assert (c1 : complete net s 1 reader) by (apply C1; right; rewrite Or; discriminate).
  assert (c2 : complete net s 2 engine) by (apply C2; right; rewrite Oe; discriminate).
  assert (c3 : complete net s 3 exporter).
  { apply C3. destruct Sx as [Sx|[_ Sx]]; [congruence|]. left. auto. }
  pose proof (F 0 driver 0 K0 ltac:(rewrite Od; cbn; auto)) as H0. pose proof (F 1 reader 1 K1 ltac:(rewrite Or; cbn; auto)) as H1. pose proof (F 2 engine 2 K2 ltac:(rewrite Oe; cbn; auto)) as H2.
  destruct (R1 0 I1) as (_ & _ & E1). destruct (R2 1 I2) as (_ & _ & E2). destruct (R3 2 I3) as (_ & _ & E3).
  destruct c0 as (_ & _ & _ & c0). destruct c1 as (_ & _ & _ & c1). destruct c2 as (_ & _ & c2 & _). destruct c3 as (_ & _ & _ & c3).
  split; [|split; [|split]].
  - rewrite E1, H0, c0 by (left; auto). unfold all_effects. now rewrite Dd.
  - rewrite E2, H1, c1 by auto. reflexivity.
  - rewrite E3, H2. apply on_perm. rewrite c2. unfold all_effects. rewrite De, (handle_stateless engine f) by auto. rewrite Ne, app_nil_r. reflexivity.
  - apply c3; auto.
Qed.

(** A stage that returns early and is the last one: Wait returns although its last record is
    still being handled. *)
Lemma early_last cap (driver engine : stage) (m e : M) r0 :
  let net := [driver; engine] in
  g_driver driver = true -> g_feed driver = [(Some 0, m)] -> g_outs driver = [0] ->
  g_driver engine = false -> g_early engine = true -> 0 < g_width engine -> g_ins engine = [0] -> g_outs engine = [] ->
  snd (g_step engine (g_init engine) m) = [(None, e)] -> (forall st, g_fin engine st = []) -> 0 < cap ->
  exists ls s, steps net cap (init net r0) ls s /\ s_crash s = false /\ wait_returns net s /\ r_sent (s_rt s 1) = [] /\ In [(None, e)] (r_infl (s_rt s 1)).
Proof.
  intros net Dd Fd Od De Ee We Ie Oe Se Ne Cap.
  destruct (g_step engine (g_init engine) m) as [st es] eqn:Es. cbn in Se. subst es.
  destruct driver as [a1 a2 a3 a4 a5 a6 a7 a8 a9]. destruct engine as [b1 b2 b3 b4 b5 b6 b7 b8 b9].
  cbn in Dd, Fd, Od, De, Ee, We, Ie, Oe, Es, Ne. subst. destruct cap as [|cap]; [lia|]. destruct b5 as [|w]; [lia|].
  exists [LEff 0 0; LRecv 1; LClose 0; LEnd 1; LReturn 1].
  eexists. split.
  { eapply St1; [cbn; reflexivity|]. eapply St1; [unfold fire; cbn; rewrite Es; reflexivity|]. eapply St1; [cbn; reflexivity|].
    eapply St1; [cbn; reflexivity|]. eapply St1; [cbn; reflexivity|]. apply St0. }
  cbn. split; auto. split; [|auto].
  intros i g Hg D. destruct i as [|[|i]]; cbn in Hg; [|reflexivity|destruct i; discriminate]. injection Hg as <-. discriminate.
Qed.
End F.

(** * OtelPipeFacts: the OpenTelemetry pipeline with the goroutines of its stages. *)
From Coq Require Import Lia Permutation.
From Verif Require DriverModel SpecDriver ExportFacts.
From Verif Require Import GoBase GoFacts Predicates SigmaModel EngineModel PoolModel SpecPool PoolFacts PoolFacts2 PoolFacts3 PoolFacts4 MonitorModel
  SpecMonitor InitModel SpecInit InitFacts LiveFacts ExportModel SpecExport ChainModel ChainFacts SpecRest RestFacts OtelPipe SpecOtelPipe.
Local Open Scope nat_scope.

Lemma o_end_no_input {P R} (pr : P -> R -> option R) cc oc (s : st P R) i : s_main s = MEnd -> fire pr cc oc s (CInput i) = None.
Proof. intros E. unfold fire, fire_main. rewrite E. now destruct (s_panic s). Qed.
Section O.
Context {R : Type}.
Variable ops : operations R.
Variables (pmatch : string -> string -> bool) (ord : srule -> list nat -> list (string * search)) (fuel : nat).
Variables (applicable : R -> rule R -> bool) (add : R -> rule R -> R) (ah : ahandler R).
Variable rd0 : ready R.
Variables (buffer xstart : Z).
Notation stg := (o_stage ops pmatch ord fuel applicable add ah rd0 buffer).
Notation act := (sact R host).
Notation sr := (srun stg).
Notation proc := (engine_proc applicable add ah (c_mode (rd_conf rd0))).
Notation conc := (Z.to_nat (c_concurrency (rd_conf rd0))).
Notation lrun := (live_run ops pmatch ord fuel proc conc [2] (rd_conf rd0)).
Notation lfire := (fire proc conc [2]).
Notation estep := (oeng_step ops pmatch ord fuel applicable add ah rd0).

Lemma o_src_run l0 acts y : sr 0 (OSrc l0) acts y ->
  exists done l, y = OSrc l /\ l0 = done ++ l /\ sent acts = SpecDriver.sends done /\ shut acts = SpecDriver.closes done /\ ~ In DriverModel.AWait done.
Proof.
  induction 1 as [|acts y a y' H IH Hs].
  - exists [], l0. cbn. auto 9.
  - destruct IH as (done & l & -> & -> & E1 & E2 & E3).
    inversion Hs as [l1 a1 l' D| |]; subst. inversion D as [r l2|l2]; subst.
    + exists (done ++ [DriverModel.ASend r]), l'. split; [reflexivity|]. split; [now rewrite <- app_assoc|].
      unfold SpecDriver.sends, SpecDriver.closes in *. rewrite sent_app, flat_map_app, E1, shut_app, existsb_app, E2, in_app_iff. cbn. rewrite !orb_false_r. repeat split. intros [?|[?|[]]]; [auto|discriminate].
    + exists (done ++ [DriverModel.AClose]), l'. split; [reflexivity|]. split; [now rewrite <- app_assoc|].
      unfold SpecDriver.sends, SpecDriver.closes in *. rewrite sent_app, flat_map_app, E1, shut_app, existsb_app, E2, in_app_iff. cbn. rewrite !app_nil_r. repeat split. intros [?|[?|[]]]; [auto|discriminate].
Qed.
Lemma o_run_snoc chs ch : forall s s1 t1 s2 ls, lrun s chs = (s1, t1) -> estep s1 ch = Some (s2, ls) -> lrun s (chs ++ [ch]) = (s2, t1 ++ ls).
Proof.
  induction chs as [|c chs IH]; intros s s1 t1 s2 ls; cbn [live_run List.app].
  - intros [= <- <-] E. unfold oeng_step in E. rewrite E. now rewrite app_nil_r.
  - destruct (live_step _ _ _ _ _ _ _ _ s c) as [[s' l]|]; eauto. destruct (lrun s' chs) as [s'' ls''] eqn:E. intros [= <- <-] Hb.
    rewrite (IH _ _ _ _ _ E Hb). now rewrite app_assoc.
Qed.
Lemma o_fire_label s ch s' l : lfire s ch = Some (s', l) ->
  match ch with
  | CInput (Some r) => l = LTake r
  | CInput None => l = LEof
  | CPublish _ => True
  | _ => (forall r, l <> LTake r) /\ l <> LEof
  end.
Proof.
  unfold fire. destruct (s_panic s); [discriminate|]. destruct ch as [i|b| |g w|p]; [| | | |auto].
  4:{ intros F. apply worker_main in F as (_ & _ & ? & _ & _ & _ & ?). auto. }
  all: unfold fire_main, send_out, crash; intros F; destruct (s_main s) as [|r|r p1|r p1|r|r [|k ks]| | | |[|k ks]|]; try discriminate;
    repeat match type of F with
    | context [match ?x with _ => _ end] => destruct x; try discriminate
    end; injection F as <- <-; try reflexivity; split; discriminate.
Qed.
Lemma o_emit_open s ch s' k r : lfire s ch = Some (s', LEmit k r) -> ~ In k (s_closed s).
Proof.
  unfold fire. destruct (s_panic s); [discriminate|].
  assert (Q : forall s0 : st (policies R) R, forall c0 r0 s1, send_out s0 c0 r0 s1 = (s', LEmit k r) -> ~ In k (s_closed s0)).
  { intros s0 c0 r0 s1. unfold send_out, crash. destruct (existsb (Nat.eqb c0) (s_closed s0)) eqn:E; [discriminate|]. intros [= _ <- _] Hi.
    assert (existsb (Nat.eqb c0) (s_closed s0) = true); [|congruence]. apply existsb_exists. exists c0. split; auto. apply Nat.eqb_refl. }
  destruct ch as [i|b| |g w|p].
  1-3: unfold fire_main, crash; intros F; destruct (s_main s) as [|r0|r0 p1|r0 p1|r0|r0 [|k0 ks]| | | |[|k0 ks]|]; try discriminate;
      try (injection F as F; exact (Q _ _ _ _ F));
      repeat match type of F with
      | context [match ?x with _ => _ end] => destruct x; try discriminate
      end.
  - unfold fire_worker. intros F. repeat match type of F with
      | context [match ?x with _ => _ end] => destruct x; try discriminate
      end. injection F as F. exact (Q _ _ _ _ F).
  - intros F. repeat match type of F with
      | context [match ?x with _ => _ end] => destruct x; try discriminate
      end.
Qed.
Definition o_pub (l : label (policies R) R) : Prop := match l with LPublish _ => True | _ => False end.
Lemma o_lstep_inv s ch s' ls : estep s ch = Some (s', ls) ->
  match ch with
  | LCh c => exists l, ls = [l] /\ lfire (fst s) c = Some (fst s', l) /\ forall p, c <> CPublish p
  | LFiles _ _ _ _ => Forall o_pub ls /\ s_main (fst s') = s_main (fst s) /\ s_closed (fst s') = s_closed (fst s) /\ s_panic (fst s') = false
  end.
Proof.
  unfold oeng_step, live_step. intros E. destruct ch as [c|evs v paths h].
  - assert (Q : match lfire (fst s) c with Some (s', l) => Some ((s', snd s), [l]) | None => None end = Some (s', ls) /\ forall p, c <> CPublish p).
    { destruct c; try discriminate; (split; [exact E|discriminate]). }
    destruct Q as [Q Np]. destruct (lfire (fst s) c) as [[s1 l]|]; [|discriminate]. injection Q as <- <-. exists l. auto.
  - destruct (s_panic (fst s)) eqn:Ep; [discriminate|]. destruct (s_monq (fst s)); [|discriminate]. destruct (create_interpreter _ _ _ _ h _); try discriminate.
    injection E as <- <-. cbn [fst s_main s_closed s_panic]. split; [|auto]. apply Forall_forall. intros y Hl. apply in_map_iff in Hl as (p & <- & _). exact I.
Qed.
Lemma o_pub_quiet ls : Forall o_pub ls -> taken ls = [] /\ emitted 2 ls = [] /\ closed_outs ls = [] /\ (forall l, In l ls -> exists p, l = LPublish p).
Proof.
  induction 1 as [|l ls H F (I1 & I2 & I3 & I4)]; [cbn; repeat split; intros ? []|]. destruct l; try destruct H. cbn. repeat split; auto.
  intros y [<-|Hl]; eauto.
Qed.
Lemma o_eng_run acts y : sr 1 (OEng (live_start rd0)) acts y ->
  exists s chs tr, y = OEng s /\ lrun (live_start rd0) chs = (s, tr) /\ taken tr = got acts /\ sent acts = emitted 2 tr /\
    (shut acts = true <-> In (LCloseOut 2) tr) /\ (eof acts = true <-> In LEof tr) /\ (In TPanic acts -> In LPanic tr) /\ batches chs = noted acts.
Proof.
  induction 1 as [|acts y a y' H IH Hs].
  - exists (live_start rd0), [], []. cbn. repeat split; auto; discriminate || tauto.
  - destruct IH as (s & chs & tr & -> & Hr & Ht & He & Hsh & Heof & Hp & Hb).
    inversion Hs as [|s1 ch s' ls E|]; subst. pose proof (o_lstep_inv _ _ _ _ E) as Q.
    exists s', (chs ++ [ch]), (tr ++ ls). split; [reflexivity|]. split; [exact (o_run_snoc _ _ _ _ _ _ _ Hr E)|].
    assert (B0 : batches [ch] = noted [oeng_act ch ls]).
    { destruct ch as [c|]; [|reflexivity]. destruct c as [[r|]| | | |]; try reflexivity;
        destruct Q as (l & -> & _); destruct l as [| | | |[|[|[|k]]] r0| | | | |[|[|[|k]]]| |]; reflexivity. }
    assert (K : taken ls = got [oeng_act ch ls] /\ sent [oeng_act ch ls] = emitted 2 ls /\ (shut [oeng_act ch ls] = true <-> In (LCloseOut 2) ls) /\
      (eof [oeng_act ch ls] = true <-> In LEof ls) /\ (TPanic = oeng_act ch ls -> In LPanic ls)).
    { destruct ch as [c|evs v paths h].
      - destruct Q as (l & -> & F & Np). pose proof (o_fire_label _ _ _ _ F) as L.
        destruct c as [[r|]|b| |g w|p]; cbn [oeng_act].
        1:{ subst l. cbn. repeat split; auto; try discriminate; intros [A|[]]; discriminate. }
        1:{ subst l. cbn. repeat split; auto; try discriminate; intros [A|[]]; discriminate. }
        1-3: destruct L as [L1 L2]; destruct l as [r| |r|p r|[|[|[|k]]] r|p|p|p| |[|[|[|k]]]| |]; try (now destruct (L1 r)); try congruence;
          cbn; repeat split; auto; try discriminate; intros [A|[]]; discriminate.
        destruct (Np p eq_refl).
      - destruct Q as (Fp & _). destruct (o_pub_quiet _ Fp) as (Q1 & Q2 & Q3 & Q4). rewrite Q1, Q2. cbn.
        repeat split; auto; try discriminate; intros Hi; apply Q4 in Hi as (? & ?); discriminate. }
    destruct K as (K1 & K3 & K4 & K5 & K6).
    rewrite taken_app, emitted_app, got_app, sent_app, shut_app, eof_app, noted_app, !in_app_iff, !orb_true_iff. unfold batches in *. rewrite flat_map_app.
    split; [f_equal; assumption|]. split; [f_equal; assumption|]. split; [tauto|]. split; [tauto|]. split; [|f_equal; assumption].
    intros [?|[A|[]]]; [auto|]. right. apply K6. auto.
Qed.
Lemma o_two : NoDup [2]. Proof. repeat constructor; cbn; tauto. Qed.
Lemma o_pool_starts : pool_start rd0 = init_bypass \/ exists p q, starts conc p q (pool_start rd0).
Proof.
  unfold pool_start. destruct (rd_pi rd0) as [p|]; [right|now left]. destruct (rd_mon rd0) as [m|].
  - exists p, (m_queue m). left. reflexivity.
  - exists p, []. right. auto.
Qed.
Lemma o_main_two (m : mpc (policies R) R) cl : main_ok [2] m cl -> cl = [] \/ cl = [2] /\ (m = MClose [] \/ m = MEnd).
Proof.
  destruct m as [| | | | | | | | |cs|]; cbn; intros H; auto; try contradiction.
  destruct H as (pre & E & ->). destruct pre as [|x [|y pre]]; cbn in E; [auto| |destruct pre; discriminate].
  injection E as <- <-. right. cbn. auto.
Qed.
Lemma o_eng_state chs s pol tr : lrun (live_start rd0) chs = ((s, pol), tr) ->
  s_panic s = false /\ ~ In LPanic tr /\ rev (closed_outs tr) = s_closed s /\ (s_closed s = [] \/ s_closed s = [2] /\ (s_main s = MClose [] \/ s_main s = MEnd)) /\
  (s_main s = MEnd -> s_closed s = [2]) /\
  (In LEof tr <-> ended (s_main s) = true) /\
  (0 < conc -> finished s \/ s_main s = MRecv \/ exists c s' l, goes_on c = true /\ lfire s c = Some (s', l)).
Proof.
  intros H. unfold live_start in H. destruct (live_projects _ _ _ _ _ _ _ _ _ _ _ _ _ _ H) as (cs & _ & _ & Hr & _).
  destruct o_pool_starts as [E|(p & q & St)].
  - rewrite E in Hr. pose proof (run_reach _ _ _ _ _ _ _ Hr) as Re. pose proof (binv_reach _ _ _ _ _ o_two Re) as [B1 B2 B3 B4 B5 BS B6 B7].
    pose proof (aux_reach _ _ _ _ _ _ aux_bypass Re) as [A1 A2 A3 A4].
    split; [assumption|]. split; [intros Hp; apply A4 in Hp; congruence|]. split; [assumption|].
    split; [|split; [intros Em; rewrite Em in B5; exact B5|split; [assumption|]]].
    + destruct (s_main s) eqn:Em; try contradiction; apply o_main_two in B5; (destruct B5 as [?|[? [?|?]]]; [now left|try discriminate; right; auto|try discriminate; right; auto]).
    + intros _. unfold finished, policies in *. destruct (s_main s) as [|r|r p|r p|r|r [|k ks]| | | |[|k ks]|] eqn:Em; try contradiction; auto; right; right.
      * exists (CExpired true). unfold fire. rewrite B4. unfold fire_main. rewrite Em, B1. eexists _, _. split; reflexivity.
      * exists CMain. unfold fire. rewrite B4. unfold fire_main. rewrite Em. eexists _, _. split; reflexivity.
      * exists CMain. unfold fire. rewrite B4. unfold fire_main. rewrite Em. destruct (send_out s k r _) as [s' l]. exists s', l. split; reflexivity.
      * exists CMain. unfold fire. rewrite B4. unfold fire_main. rewrite Em. eexists _, _. split; reflexivity.
      * exists CMain. unfold fire. rewrite B4. unfold fire_main. rewrite Em. unfold cur. rewrite B1. eexists _, _. split; reflexivity.
      * exists CMain. unfold fire. rewrite B4. unfold fire_main. rewrite Em. eexists _, _. split; reflexivity.
      * exists CMain. unfold fire. rewrite B4. unfold fire_main. rewrite Em. destruct (existsb _ _); [destruct (crash s) as [s' l]; exists s', l|eexists _, _]; split; reflexivity.
  - pose proof (run_reach _ _ _ _ _ _ _ Hr) as Re. pose proof (inv_reach _ _ _ _ _ _ _ _ o_two St Re) as I.
    pose proof (AXR _ _ _ _ _ _ _ _ St Re) as [A1 A2 A3 A4].
    pose proof (iv_panic _ _ _ _ _ _ _ I) as Px. pose proof (iv_main _ _ _ _ _ _ _ I) as Mx.
    split; [assumption|]. split; [intros Hp; apply A4 in Hp; congruence|]. split; [assumption|]. split; [exact (o_main_two _ _ Mx)|].
    split; [intros Em; rewrite Em in Mx; exact Mx|]. split; [assumption|].
    intros C. exact (proj2 (pool_progress _ _ _ o_two C _ _ _ _ _ _ St Hr)).
Qed.
Lemma o_eng_rest chs s pol tr : lrun (live_start rd0) chs = ((s, pol), tr) -> 0 < conc -> s_main s = MRecv ->
  idle proc conc [2] s \/ exists c s' l, goes_on c = true /\ lfire s c = Some (s', l).
Proof.
  intros H C Em. unfold live_start in H. destruct (live_projects _ _ _ _ _ _ _ _ _ _ _ _ _ _ H) as (cs & _ & _ & Hr & _).
  destruct o_pool_starts as [E|(p & q & St)].
  - rewrite E in Hr. left. exact (bypass_idle _ _ _ _ _ (binv_reach _ _ _ _ _ o_two (run_reach _ _ _ _ _ _ _ Hr)) Em).
  - exact (rest_or_go _ _ _ _ _ _ _ C (inv_reach _ _ _ _ _ _ _ _ o_two St (run_reach _ _ _ _ _ _ _ Hr)) Em).
Qed.
Lemma o_eng_ended chs s pol tr : lrun (live_start rd0) chs = ((s, pol), tr) -> s_main s = MEnd -> idle proc conc [2] s.
Proof.
  intros H Em. unfold live_start in H. destruct (live_projects _ _ _ _ _ _ _ _ _ _ _ _ _ _ H) as (cs & _ & _ & Hr & _).
  destruct o_pool_starts as [E|(p & q & St)].
  - rewrite E in Hr. exact (bypass_ended _ _ _ _ _ (binv_reach _ _ _ _ _ o_two (run_reach _ _ _ _ _ _ _ Hr)) Em).
  - exact (ended_idle _ _ _ _ _ _ _ (inv_reach _ _ _ _ _ _ _ _ o_two St (run_reach _ _ _ _ _ _ _ Hr)) Em).
Qed.
Lemma o_exp_run acts y : sr 2 (OExp (x_start xstart)) acts y ->
  exists x es, y = OExp x /\ x = x_run buffer xstart es /\ got acts = received es /\ sent acts = [] /\ shut acts = false /\ (eof acts = true <-> x_open x = false).
Proof.
  assert (RA : forall es (e : xevent R), x_open (x_run buffer xstart es) = true -> received (es ++ [e]) = received es ++ received [e]).
  { intros es e Ho. assert (N : ~ In XClose es).
    { intros Hi. apply (ExportFacts.batching buffer xstart es) in Hi. congruence. }
    clear Ho. induction es as [|[r a b|a b|] es IH]; cbn [List.app received]; [reflexivity| | |destruct N; now left].
    - rewrite IH; [reflexivity|]. intros Hi. apply N. now right.
    - apply IH. intros Hi. apply N. now right. }
  assert (RS : forall es (e : xevent R), x_step buffer (x_run buffer xstart es) e = x_run buffer xstart (es ++ [e])).
  { intros es e. unfold x_run. now rewrite fold_left_app. }
  induction 1 as [|acts y a y' H IH Hs].
  - exists (x_start xstart), []. cbn. repeat split; auto; discriminate.
  - destruct IH as (x & es & -> & -> & Eg & Es & Esh & Ee). inversion Hs as [| |x1 a1 x' D]; subst.
    rewrite got_app, sent_app, shut_app, eof_app, Eg, Es, Esh.
    inversion D as [x2 r now done Ho|x2 now done Ho|x2 Ho]; subst; rewrite RS.
    + eexists _, _. split; [reflexivity|]. split; [reflexivity|]. rewrite (RA _ _ Ho). split; [reflexivity|]. split; [reflexivity|]. split; [reflexivity|].
      destruct (ExportFacts.batching buffer xstart es) as [_ Q]. destruct (ExportFacts.batching buffer xstart (es ++ [XRec r now done])) as [_ Q'].
      rewrite orb_true_iff, Ee, Q, Q', in_app_iff. cbn. split; [intros [?|?]; [auto|discriminate]|]. intros [?|[?|[]]]; [auto|discriminate].
    + eexists _, _. split; [reflexivity|]. split; [reflexivity|]. rewrite (RA _ _ Ho). split; [reflexivity|]. split; [reflexivity|]. split; [reflexivity|].
      destruct (ExportFacts.batching buffer xstart es) as [_ Q]. destruct (ExportFacts.batching buffer xstart (es ++ [XTick now done])) as [_ Q'].
      rewrite orb_true_iff, Ee, Q, Q', in_app_iff. cbn. split; [intros [?|?]; [auto|discriminate]|]. intros [?|[?|[]]]; [auto|discriminate].
    + eexists _, _. split; [reflexivity|]. split; [reflexivity|]. rewrite (RA _ _ Ho). split; [reflexivity|]. split; [reflexivity|]. split; [reflexivity|].
      destruct (ExportFacts.batching buffer xstart (es ++ [XClose])) as [_ Q']. rewrite Q', in_app_iff. cbn. rewrite orb_true_r. split; auto.
Qed.

(** ** The pipeline *)
Variable cap : nat.
Variable acts0 : list (DriverModel.act R).
Variable rs : list R.
Hypothesis Hacts : o_source rs acts0.
Notation start := (cinit (o_start rd0 xstart acts0)).
Notation cr := (crun stg cap start).
Lemma o_src_part done l : acts0 = done ++ l -> exists rs', rs = SpecDriver.sends done ++ rs' /\
  (SpecDriver.closes done = true -> rs' = [] /\ (l = [] \/ l = [DriverModel.AWait])) /\
  (SpecDriver.closes done = false -> exists tl, l = map DriverModel.ASend rs' ++ tl /\ (tl = [] \/ exists tl', tl = DriverModel.AClose :: tl')).
Proof.
  unfold o_source in Hacts. revert rs acts0 Hacts. induction done as [|a done IH]; intros rs1 acts1 (tl & Ea & Ht) E.
  - exists rs1. cbn in E. subst. cbn. split; [reflexivity|]. split; [discriminate|]. intros _. exists tl. split; [reflexivity|].
    destruct Ht as [-> |[-> | -> ]]; eauto.
  - destruct rs1 as [|r rs1].
    + cbn in Ea. subst acts1. exists [].
      assert (Q : a = DriverModel.AClose /\ SpecDriver.sends done = @nil R /\ (l = [] \/ l = [DriverModel.AWait])).
      { destruct Ht as [-> |[-> | -> ]]; [discriminate| |]; injection E as <- E; (split; [reflexivity|]).
        - destruct done; [|discriminate]. cbn in E. auto.
        - destruct done as [|b done]; [auto|]. injection E as <- E. destruct done; [|discriminate]. cbn in E. auto. }
      destruct Q as (-> & SE & Hl). cbn. unfold SpecDriver.sends in SE. rewrite SE. split; [reflexivity|]. split; [auto|discriminate].
    + assert (Ha' : a = DriverModel.ASend r /\ map DriverModel.ASend rs1 ++ tl = done ++ l) by (subst acts1; cbn in E; injection E as <- E; auto).
      destruct Ha' as (-> & E2). destruct (IH rs1 _ (ex_intro _ tl (conj eq_refl Ht)) E2) as (rs' & -> & H1 & H2). exists rs'. split; [reflexivity|]. auto.
Qed.
Record osnap := mkOSnap {
  on_done : list (DriverModel.act R); on_l : list (DriverModel.act R); on_rs : list R;
  on_e : lstate (R := R); on_chs : list (lchoice R); on_tr : list (label (policies R) R);
  on_x : xstate R; on_es : list (xevent R) }.
Definition osnap_ok (tr : list (nat * act)) (s : cstate R (ostate R)) (k : osnap) : Prop :=
  let 'mkOSnap done l rs' e chs ltr x es := k in
  c_st s 0 = OSrc l /\ rs = SpecDriver.sends done ++ rs' /\
  (SpecDriver.closes done = true -> rs' = [] /\ (l = [] \/ l = [DriverModel.AWait])) /\
  (SpecDriver.closes done = false -> exists tl, l = map DriverModel.ASend rs' ++ tl /\ (tl = [] \/ exists tl', tl = DriverModel.AClose :: tl')) /\
  c_closed s 1 = SpecDriver.closes done /\
  c_st s 1 = OEng e /\ lrun (live_start rd0) chs = (e, ltr) /\ batches chs = noted (proj 1 tr) /\
  SpecDriver.sends done = taken ltr ++ c_ch s 1 /\
  (c_closed s 2 = true <-> In (LCloseOut 2) ltr) /\ (In LEof ltr -> c_ch s 1 = [] /\ c_closed s 1 = true) /\
  c_st s 2 = OExp x /\ x = x_run buffer xstart es /\ emitted 2 ltr = received es ++ c_ch s 2 /\
  (x_open x = false -> c_ch s 2 = [] /\ c_closed s 2 = true).
Lemma o_snapshot tr s : cr tr s -> c_crash s = false -> exists k, osnap_ok tr s k.
Proof.
  intros H C. destruct (chain_inv _ _ _ _ _ H C) as [I1 I2 I3 I4 I5].
  destruct (o_src_run _ _ _ (I1 0)) as (done & l & E0 & Ea & Es0 & Esh0 & Nw). destruct (o_src_part _ _ Ea) as (rs' & Ers & D1 & D2).
  destruct (o_eng_run _ _ (I1 1)) as (e & chs & ltr & E2 & Hl & Ht & He & Hsh & Heof & Hp & Hb).
  destruct (o_exp_run _ _ (I1 2)) as (x & es & E3 & Ex & Eg3 & Es3 & Esh3 & Ee3).
  pose proof (I2 0) as B0. pose proof (I2 1) as B1. pose proof (I3 0) as C0. pose proof (I3 1) as C1.
  pose proof (I4 0) as F0. pose proof (I4 1) as F1. cbn [Nat.add] in *.
  exists (mkOSnap done l rs' e chs ltr x es). cbn [osnap_ok].
  split; [assumption|]. split; [assumption|]. split; [assumption|]. split; [assumption|]. split; [congruence|].
  split; [assumption|]. split; [assumption|]. split; [assumption|]. split; [congruence|].
  split; [rewrite C1; exact Hsh|]. split; [intros Hi; apply F0, Heof, Hi|]. split; [assumption|]. split; [assumption|]. split; [congruence|].
  intros Ho. apply F1, Ee3, Ho.
Qed.
Lemma o_closed_two (ltr : list (label (policies R) R)) (st : list nat) : rev (closed_outs ltr) = st -> In (LCloseOut 2) ltr -> In 2 st.
Proof. intros <- H. apply -> in_rev. apply in_flat_map. exists (LCloseOut 2 : label (policies R) R). cbn. auto. Qed.
Lemma o_safe tr s : cr tr s -> c_crash s = false.
Proof.
  apply chain_safe. clear tr s. intros tr s i a x H C St. destruct (o_snapshot _ _ H C) as (k & K).
  destruct k as [done l rs' e chs ltr xx es].
  destruct K as (E0 & Ers & D1 & D2 & C1 & E2 & Hl & Hb & Ho & C3 & F2 & E3 & Ex & Hq & F3).
  inversion St as [l1 a1 l' D Ei|s1 ch s' ls D Ei|x1 a1 x' D Ei]; subst i; cbn [Nat.add].
  - rewrite E0 in *. match goal with Hx : OSrc _ = OSrc _ |- _ => injection Hx as -> end. rewrite C1.
    split; [inversion D; discriminate|]. intros Cl. destruct (D1 Cl) as [_ [-> | -> ]]; inversion D.
  - rewrite E2 in *. match goal with Hx : OEng _ = OEng _ |- _ => injection Hx as -> end.
    destruct e as [es0 pol]. destruct (o_eng_state _ _ _ _ Hl) as (Px & Np & Cx & Mx & _ & _).
    assert (Hl2 : exists s2 pol2, lrun (live_start rd0) (chs ++ [ch]) = ((s2, pol2), ltr ++ ls)).
    { destruct s' as [s2 pol2]. exists s2, pol2. exact (o_run_snoc _ _ _ _ _ _ _ Hl D). }
    destruct Hl2 as (s2 & pol2 & Hl2). destruct (o_eng_state _ _ _ _ Hl2) as (_ & Np2 & _).
    pose proof (o_lstep_inv _ _ _ _ D) as Q. split.
    + intros Ea1. apply Np2. apply in_or_app. right. destruct ch as [c|]; [|discriminate].
      destruct Q as (y & -> & F & _). destruct c as [[r|]|b| |g w|p]; try discriminate; destruct y as [| | | |[|[|[|k]]] r0| | | | |[|[|[|k]]]| |]; try discriminate; now left.
    + intros Cl. apply C3 in Cl. pose proof (o_closed_two _ _ Cx Cl) as In2.
      assert (Q2 : (exists r, ls = [LEmit 2 r]) \/ ls = [LCloseOut 2] -> False).
      { intros QQ. destruct ch as [c|].
        - destruct Q as (y & -> & F & _). cbn [fst] in F. destruct QQ as [(r & QQ)|QQ]; injection QQ as ->.
          + exact (o_emit_open _ _ _ _ _ F In2).
          + destruct (fire_close _ _ _ _ _ _ _ F) as (_ & _ & Hn). exact (Hn In2).
        - destruct Q as (Fp & _). destruct QQ as [(r & ->)| ->]; inversion Fp as [|? ? Hx]; destruct Hx. }
      split; [intros Ec|intros m Ec]; apply Q2; (destruct ch as [c|]; [|discriminate]); destruct Q as (y & -> & F & _);
        destruct c as [[r|]|b| |g w|p]; try discriminate; destruct y as [| | | |[|[|[|k]]] r0| | | | |[|[|[|k]]]| |]; try discriminate; eauto.
  - split; [inversion D; discriminate|]. intros _. split; [|intros m]; inversion D; discriminate.
Qed.

(** ** Rest, progress and termination *)
Definition o_resting (s : cstate R (ostate R)) : Prop :=
  (exists l, c_st s 0 = OSrc l /\ (l = [] \/ l = [DriverModel.AWait])) /\
  (exists e, c_st s 1 = OEng e /\ idle proc conc [2] (fst e) /\ (s_main (fst e) = MRecv /\ c_closed s 1 = false \/ s_main (fst e) = MEnd)) /\
  (exists x, c_st s 2 = OExp x /\ (x_open x = true -> c_closed s 2 = false)) /\
  c_ch s 1 = [] /\ c_ch s 2 = [].
Lemma o_rest_still s : o_resting s -> o_still stg cap s.
Proof.
  intros ((l & E0 & Hl) & (e & E2 & Id & He) & (x & E3 & Hx) & C2 & C3) ia s' [W1 W2] Hs.
  assert (A : exists i a y, ia = (i, a) /\ stg i (c_st s i) a y /\
    match a with TIn (Some m) => exists q, c_ch s i = m :: q | TIn None => c_closed s i = true | _ => True end).
  { inversion Hs; subst; try (do 3 eexists; repeat split; eauto; fail).
    do 3 eexists. split; [reflexivity|]. split; [eassumption|]. destruct H1 as [->|(_ & [->|(m & ->)])]; exact I. }
  destruct A as (i & a & y & -> & St & Q). cbn [snd] in W2.
  inversion St as [l1 a1 l' D Ei|s1 ch s2 ls D Ei|x1 a1 x' D Ei]; subst i.
  - rewrite E0 in *. match goal with Hx : OSrc _ = OSrc _ |- _ => injection Hx as -> end. destruct Hl as [-> | -> ]; inversion D.
  - rewrite E2 in *. match goal with Hx : OEng _ = OEng _ |- _ => injection Hx as -> end. subst a.
    pose proof D as D'. apply o_lstep_inv in D'. destruct ch as [c|evs v paths h]; [|now destruct (W2 h)].
    destruct D' as (l3 & El3 & F & Np).
    assert (NF : forall (o : option (st (policies R) R * label (policies R) R)) z, o = None -> o = Some z -> False) by (intros o z -> Z; discriminate Z).
    destruct c as [[r|]|b| |g w|p].
    + cbn [oeng_act] in Q. destruct Q as (q & Q). congruence.
    + cbn [oeng_act] in Q. destruct He as [[_ He]|He]; [congruence|]. exact (NF _ _ (o_end_no_input proc conc [2] (fst e) None He) F).
    + exact (NF _ _ (Id (CExpired b) eq_refl) F).
    + exact (NF _ _ (Id CMain eq_refl) F).
    + exact (NF _ _ (Id (CWorker g w) eq_refl) F).
    + discriminate.
  - rewrite E3 in *. match goal with Hx : OExp _ = OExp _ |- _ => injection Hx as -> end. inversion D; subst.
    + destruct Q as (q & Q). congruence.
    + now destruct W1.
    + rewrite Hx in Q by assumption. discriminate.
Qed.
Lemma o_eng_moves s e : c_crash s = false -> c_st s 1 = OEng e -> c_closed s 2 = false -> length (c_ch s 2) < cap ->
  forall c s' l, goes_on c = true -> lfire (fst e) c = Some (s', l) -> exists ia s2, o_working ia /\ cstep stg cap s ia s2.
Proof.
  intros C E Cl Ln c s' l G F.
  assert (Es : estep e (LCh c) = Some ((s', snd e), [l])).
  { unfold oeng_step, live_step. destruct c; try discriminate;
      (match goal with |- match ?t with _ => _ end = _ => replace t with (Some (s', l)) by (symmetry; exact F) end; reflexivity). }
  assert (St : stg 1 (c_st s 1) (oeng_act (LCh c) [l]) (OEng (s', snd e))).
  { rewrite E. constructor. exact Es. }
  assert (W : o_working (1, oeng_act (LCh c) [l])).
  { split; [discriminate|]. intros h. cbn [snd]. destruct c; try discriminate; destruct l as [| | | |[|[|[|k]]] r0| | | | |[|[|[|k]]]| |]; discriminate. }
  exists (1, oeng_act (LCh c) [l]).
  assert (Q : (exists m, oeng_act (LCh c) [l] = TOut m) \/ oeng_act (LCh c) [l] = TClose \/ oeng_act (LCh c) [l] = TPanic \/ oeng_act (LCh c) [l] = TStep None).
  { destruct c; try discriminate; destruct l as [| | | |[|[|[|k]]] r0| | | | |[|[|[|k]]]| |]; cbn; eauto. }
  destruct Q as [(m & Q)|[Q|[Q|Q]]]; rewrite Q in *; eexists; (split; [exact W|]).
  - eapply cs_out; eauto.
  - eapply cs_close; eauto.
  - eapply cs_crash; eauto.
  - eapply cs_step; eauto.
Qed.
Lemma o_rest_or_step tr s : 0 < cap -> 0 < conc -> cr tr s -> o_resting s \/ exists ia s2, o_working ia /\ cstep stg cap s ia s2.
Proof.
  intros Hcap Hconc H. pose proof (o_safe _ _ H) as C. destruct (o_snapshot _ _ H C) as (k & K).
  destruct k as [done l rs' [e pol] chs ltr x es].
  destruct K as (E0 & Ers & D1 & D2 & C1 & E2 & Hl & Hb & Ht & C3 & F2 & E3 & Exx & Hqx & F3).
  destruct (o_eng_state _ _ _ _ Hl) as (Px & Np & Cx & Mx & Mend & Eof & Pr).
  assert (W3 : forall i (a : act), i <> 2 -> (forall h, a <> TStep (Some h)) -> o_working (i, a)) by (intros i a Hi Ha; split; [congruence|exact Ha]).
  destruct (c_ch s 2) as [|r q3] eqn:Ech3.
  2:{ destruct (x_open x) eqn:Ho; [|destruct (F3 eq_refl); congruence].
      right. exists (2, TIn (Some r)). eexists. split; [split; discriminate|].
      eapply cs_in; [exact C| |exact Ech3]. rewrite E3. constructor. apply (ox_rec buffer x r 0%Z 0%Z Ho). }
  destruct (x_open x && c_closed s 2)%bool eqn:Eoc.
  1:{ apply andb_true_iff in Eoc as [Ho Ecl3]. right. exists (2, TIn None). eexists. split; [split; discriminate|]. eapply cs_eof; [exact C| |exact Ech3|exact Ecl3]. rewrite E3. constructor. apply (ox_close buffer x Ho). }
  assert (Hx3 : x_open x = true -> c_closed s 2 = false) by (intros Ho; rewrite Ho in Eoc; exact Eoc). clear Eoc.
  destruct (c_closed s 2) eqn:Ecl3.
  1:{ pose proof (proj1 C3 eq_refl) as G2. pose proof (o_closed_two _ _ Cx G2) as In2.
      destruct Mx as [Mx|[_ [Mx|Mx]]]; [rewrite Mx in In2; destruct In2| |].
      - right. assert (Es : estep (e, pol) (LCh CMain) = Some ((set_main e MEnd, pol), [LTau])).
        { unfold oeng_step, live_step, fire. cbn [fst snd]. unfold policies in *. rewrite Px. unfold fire_main. rewrite Mx. reflexivity. }
        exists (1, TStep None). eexists. split; [apply W3; discriminate|]. apply cs_step; [exact C|]. rewrite E2. exact (og_eng _ _ _ _ _ _ _ _ _ _ (LCh CMain) _ _ Es).
      - left. assert (Ie : In LEof ltr) by (apply Eof; rewrite Mx; reflexivity).
        destruct (F2 Ie) as [G3 G4]. rewrite C1 in G4. destruct (D1 G4) as [-> Hlw].
        split; [exists l; auto|]. split; [exists (e, pol); split; [assumption|]; split; [exact (o_eng_ended _ _ _ _ Hl Mx)|auto]|].
        split; [exists x; rewrite Ecl3; auto|auto]. }
  assert (Ln3 : length (c_ch s 2) < cap) by (rewrite Ech3; exact Hcap).
  assert (Mv : forall c s' lb, goes_on c = true -> lfire e c = Some (s', lb) -> exists ia s2, o_working ia /\ cstep stg cap s ia s2).
  { intros c s' lb G F. exact (o_eng_moves s (e, pol) C E2 Ecl3 Ln3 c s' lb G F). }
  destruct (Pr Hconc) as [Hfin|[Em|(c & s' & lb & G & F)]]; [| |right; eauto].
  { exfalso. apply Mend in Hfin. rewrite Hfin in Cx. assert (In (LCloseOut 2) ltr); [|rewrite <- C3 in *; congruence].
    assert (I2 : In 2 (closed_outs ltr)) by (apply in_rev; rewrite Cx; now left). apply in_flat_map in I2 as (y & Hy & I2).
    destruct y; cbn in I2; try tauto. destruct I2 as [->|[]]. exact Hy. }
  destruct (o_eng_rest _ _ _ _ Hl Hconc Em) as [Id|(c & s' & lb & G & F)]; [|right; eauto].
  assert (Rin : forall i, exists s', estep (e, pol) (LCh (CInput i)) = Some (s', [match i with Some r => LTake r | None => LEof end])).
  { intros i. unfold oeng_step, live_step, fire. cbn [fst snd]. unfold policies in *. rewrite Px. unfold fire_main. rewrite Em. destruct i; eauto. }
  destruct (c_ch s 1) as [|r q2] eqn:Ech2.
  2:{ destruct (Rin (Some r)) as (s' & Es).
      right. exists (1, TIn (Some r)). eexists. split; [apply W3; discriminate|]. eapply cs_in; [exact C| |exact Ech2]. rewrite E2.
      exact (og_eng _ _ _ _ _ _ _ _ _ _ _ _ _ Es). }
  destruct (c_closed s 1) eqn:Ecl2.
  1:{ destruct (Rin None) as (s' & Es).
      right. exists (1, TIn None). eexists. split; [apply W3; discriminate|]. eapply cs_eof; [exact C| |exact Ech2|exact Ecl2]. rewrite E2.
      exact (og_eng _ _ _ _ _ _ _ _ _ _ _ _ _ Es). }
  assert (Ln2 : length (c_ch s 1) < cap) by (rewrite Ech2; exact Hcap).
  symmetry in C1. destruct (D2 C1) as (tl & El & Htl). destruct rs' as [|r rs'].
  + cbn in El. subst l. destruct Htl as [-> |(tl' & ->)].
    * left. split; [exists []; auto|]. split; [exists (e, pol); rewrite Ecl2; auto|]. split; [exists x; rewrite Ecl3; auto|auto].
    * right. exists (0, TClose). eexists. split; [apply W3; discriminate|]. eapply cs_close; [exact C| |exact Ecl2]. rewrite E0. constructor. constructor.
  + right. exists (0, TOut r). cbn [map List.app] in El. subst l. eexists. split; [apply W3; discriminate|]. eapply cs_out; [exact C| |exact Ecl2|exact Ln2]. rewrite E0. apply og_src, os_send.
Qed.
Definition oA (s : cstate R (ostate R)) : nat := 2 * (match c_st s 0 with OSrc l => length l | _ => 0 end) + length (c_ch s 1).
Definition oC (s : cstate R (ostate R)) : nat := match c_st s 1 with OEng e => mu conc [2] (fst e) | _ => 0 end.
Definition oD (s : cstate R (ostate R)) : nat := 2 * length (c_ch s 2) + match c_st s 2 with OExp x => if x_open x then 1 else 0 | _ => 0 end.
Definition o_below (s' s : cstate R (ostate R)) : Prop := oA s' < oA s \/ oA s' = oA s /\ (oC s' < oC s \/ oC s' = oC s /\ oD s' < oD s).
Lemma o_below_wf : forall a c d s, oA s = a -> oC s = c -> oD s = d -> Acc o_below s.
Proof.
  induction a as [a IHa] using lt_wf_ind. induction c as [c IHc] using lt_wf_ind. induction d as [d IHd] using lt_wf_ind.
  intros s Ha Hc Hd. constructor. intros s' [H|[H1 [H|[H3 H]]]]; subst; [eapply IHa|eapply IHc|eapply IHd]; eauto.
Qed.
Lemma o_eng_mu e ch e' ls : estep e ch = Some (e', ls) -> (forall m, oeng_act ch ls <> TIn (Some m)) -> (forall h, oeng_act ch ls <> TStep (Some h)) ->
  mu conc [2] (fst e') < mu conc [2] (fst e).
Proof.
  intros D N1 N2. pose proof (o_lstep_inv _ _ _ _ D) as Q. destruct ch as [c|evs v paths h]; [|destruct (N2 h eq_refl)].
  destruct Q as (l & -> & F & Np). apply (mu_step proc conc [2] (fst e) c (fst e') l); [|exact F].
  destruct c as [[r|]|b| |g w|p]; try reflexivity; [destruct (N1 r eq_refl)|destruct (Np p eq_refl)].
Qed.
Lemma o_work_below s ia s' : o_working ia -> cstep stg cap s ia s' -> c_crash s' = true \/ o_below s' s.
Proof.
  intros [W1 W2] Hs. unfold o_below.
  inversion Hs as [i m q x C St Ch|i x C St Ch Cl|i m x C St Cl Len|i x C St Cl|i n x C St|i a x C St Hc]; subst; [right|right|right|right|right|left; reflexivity].
  all: inversion St as [l1 a1 l' D Ei E1 E2 E3|e ch e' ls D Ei E1 E2 E3|x1 a1 x' D Ei E1 E2 E3]; subst.
  all: try (unfold oA, oC, oD; cbn [Nat.add c_st c_ch c_closed set Nat.eqb]; rewrite <- ?E1; inversion D; subst; cbn [length]; rewrite ?app_length, ?Ch; cbn [length]; lia).
  all: try (assert (M : mu conc [2] (fst e') < mu conc [2] (fst e)) by (apply (o_eng_mu _ _ _ _ D); intros y; [congruence|intros Y; apply (W2 y); cbn [snd]; congruence])).
  all: try (right; split; [unfold oA; cbn; reflexivity|]; left; unfold oC; cbn; rewrite <- E1; exact M).
  - right. split; [reflexivity|]. right. split; [reflexivity|]. unfold oD. cbn [c_ch c_st set Nat.eqb]. rewrite Ch, <- E1. cbn [length].
    destruct (x_open x'), (x_open x1); lia.
  - right. split; [reflexivity|]. right. split; [reflexivity|]. unfold oD. cbn [c_ch c_st set Nat.eqb]. rewrite <- E1.
    inversion D as [| |y Ho]; subst. rewrite Ho. unfold x_step. rewrite Ho. cbn. lia.
  - inversion D; subst. destruct W1. reflexivity.
Qed.
Lemma o_terminates s : Acc (fun s2 s1 => exists ia, o_working ia /\ cstep stg cap s1 ia s2) s.
Proof.
  assert (A : Acc o_below s) by (eapply o_below_wf; reflexivity). induction A as [s _ IH]. constructor. intros s2 (ia & W & Hs).
  destruct (o_work_below _ _ _ W Hs) as [Cr|B]; [|exact (IH _ B)]. constructor. intros s3 (ib & _ & Hs3). inversion Hs3; congruence.
Qed.
Lemma o_comes_to_rest tr s : 0 < cap -> 0 < conc -> cr tr s -> exists tr' s', cr (tr ++ tr') s' /\ o_still stg cap s' /\ Forall o_working tr'.
Proof.
  intros H1 H2. revert tr. induction (o_terminates s) as [s _ IH]. intros tr H.
  destruct (o_rest_or_step tr s H1 H2 H) as [D|(ia & s2 & W & Hs)].
  - exists [], s. rewrite app_nil_r. split; [assumption|]. split; [exact (o_rest_still _ D)|constructor].
  - destruct (IH s2 (ex_intro _ ia (conj W Hs)) (tr ++ [ia]) (cr_snoc _ _ _ _ _ _ _ H Hs)) as (tr' & s' & H' & D & F).
    exists (ia :: tr'), s'. rewrite <- app_assoc in H'. auto.
Qed.
Lemma o_notes tr s : cr tr s -> o_shown tr = noted (proj 1 tr).
Proof.
  induction 1 as [|tr s [i a] s' H IH Hs]; [reflexivity|]. rewrite proj_app, noted_app, <- IH. unfold o_shown. rewrite flat_map_app. f_equal. rewrite proj_one. cbn [flat_map snd List.app].
  destruct (Nat.eqb_spec i 1) as [->|Hn]; [cbn; reflexivity|].
  assert (St : exists x, stg i (c_st s i) a x) by (inversion Hs; eauto). destruct St as [x St].
  inversion St as [l1 a1 l' D|e ch e' ls D|x1 a1 x' D]; subst; try congruence; inversion D; subst; reflexivity.
Qed.
(** Every moment. *)
Lemma o_moment tr s : cr tr s ->
  exists rs1 rs2 chs e pol ltr x es late, rs = rs1 ++ rs2 /\ lrun (live_start rd0) chs = ((e, pol), ltr) /\ taken ltr = rs1 /\
    emitted 2 ltr = (concat (x_batches x) ++ held x) ++ late /\ c_st s 2 = OExp x /\ x = x_run buffer xstart es /\ batches chs = o_shown tr /\
    (0 < cap -> 0 < conc -> o_still stg cap s -> rs2 = [] /\ late = [] /\ idle proc conc [2] e) /\
    (x_open x = false -> rs2 = [] /\ late = [] /\ held x = [] /\ idle proc conc [2] e).
Proof.
  intros H. pose proof (o_safe _ _ H) as C. destruct (o_snapshot _ _ H C) as (k & K).
  destruct k as [done l rs' [e pol] chs ltr x es].
  destruct K as (E0 & Ers & D1 & D2 & C1 & E2 & Hl & Hb & Ht & C3 & F2 & E3 & Exx & Hqx & F3).
  assert (Fin : forall e' chs' ltr', lrun (live_start rd0) chs' = ((e', pol), ltr') -> taken ltr' = taken ltr -> emitted 2 ltr' = emitted 2 ltr -> batches chs' = batches chs ->
    (0 < cap -> 0 < conc -> o_still stg cap s -> idle proc conc [2] e') -> (x_open x = false -> idle proc conc [2] e') ->
    exists rs1 rs2 chs e pol ltr x es late, rs = rs1 ++ rs2 /\ lrun (live_start rd0) chs = ((e, pol), ltr) /\ taken ltr = rs1 /\
      emitted 2 ltr = (concat (x_batches x) ++ held x) ++ late /\ c_st s 2 = OExp x /\ x = x_run buffer xstart es /\ batches chs = o_shown tr /\
      (0 < cap -> 0 < conc -> o_still stg cap s -> rs2 = [] /\ late = [] /\ idle proc conc [2] e) /\
      (x_open x = false -> rs2 = [] /\ late = [] /\ held x = [] /\ idle proc conc [2] e)).
  { intros e' chs' ltr' Hl' T1 T2 T3 I1 I2.
    exists (taken ltr), (c_ch s 1 ++ rs'), chs', e', pol, ltr', x, es, (c_ch s 2).
    split; [rewrite app_assoc, <- Ht; exact Ers|]. split; [exact Hl'|]. split; [exact T1|]. split.
    { rewrite T2, Hqx. f_equal. destruct (ExportFacts.batching buffer xstart es) as [B1 _]. rewrite <- Exx in B1. symmetry. exact B1. }
    split; [exact E3|]. split; [exact Exx|]. split; [rewrite T3; rewrite (o_notes _ _ H); exact Hb|]. split.
    - intros Hcap Hconc St. destruct (o_rest_or_step tr s Hcap Hconc H) as [Rs|(ia & s2 & W & Hs)]; [|destruct (St _ _ W Hs)].
      destruct Rs as ((l0 & E0' & Hl0) & _ & _ & K1 & K2). rewrite E0 in E0'. injection E0' as <-. rewrite K1, K2. split; [|auto].
      cbn. destruct (SpecDriver.closes done) eqn:Ec; [exact (proj1 (D1 eq_refl))|]. destruct (D2 eq_refl) as (tl & El & Htl).
      destruct rs' as [|r rs']; [reflexivity|]. subst l. destruct Hl0; discriminate.
    - intros Hx. destruct (F3 Hx) as [G1 G2]. apply C3 in G2.
      destruct (o_eng_state _ _ _ _ Hl) as (Px & Np & Cx & Mx & _ & Eof & _). pose proof (o_closed_two _ _ Cx G2) as In2.
      destruct Mx as [Mx|[_ Mx]]; [rewrite Mx in In2; destruct In2|].
      assert (Ie : In LEof ltr) by (apply Eof; destruct Mx as [-> | -> ]; reflexivity).
      destruct (F2 Ie) as [G3 G4]. rewrite C1 in G4. destruct (D1 G4) as [-> _]. rewrite G3, G1. unfold held. rewrite Hx. auto. }
  destruct (o_eng_state _ _ _ _ Hl) as (Px & Np & Cx & Mx & _ & Eof & _).
  assert (Dm : s_main e = MClose [] \/ s_main e <> MClose []) by (destruct (s_main e) as [| | | | | | | | |[|k ks]|]; auto; right; discriminate).
  destruct Dm as [Em|Nm].
  - assert (Es : estep (e, pol) (LCh CMain) = Some ((set_main e MEnd, pol), [LTau])).
    { unfold oeng_step, live_step, fire. cbn [fst snd]. unfold policies in *. rewrite Px. unfold fire_main. rewrite Em. reflexivity. }
    pose proof (o_run_snoc _ _ _ _ _ _ _ Hl Es) as Hl'.
    apply (Fin _ _ _ Hl'); [rewrite taken_app; cbn; now rewrite app_nil_r|rewrite emitted_app; cbn; now rewrite app_nil_r|unfold batches; rewrite flat_map_app; cbn; now rewrite app_nil_r| |];
      intros; exact (o_eng_ended _ _ _ _ Hl' eq_refl).
  - apply (Fin _ _ _ Hl); auto.
    + intros Hcap Hconc St. destruct (o_rest_or_step tr s Hcap Hconc H) as [Rs|(ia & s2 & W & Hs)]; [|destruct (St _ _ W Hs)].
      destruct Rs as (_ & (e0 & E2' & Id & _) & _). rewrite E2 in E2'. injection E2' as <-. exact Id.
    + intros Hx. destruct (F3 Hx) as [G1 G2]. apply C3 in G2. pose proof (o_closed_two _ _ Cx G2) as In2.
      destruct Mx as [Mx|[_ [Mx|Mx]]]; [rewrite Mx in In2; destruct In2|contradiction|]. exact (o_eng_ended _ _ _ _ Hl Mx).
Qed.
End O.

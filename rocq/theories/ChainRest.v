(** * ChainRest: the pipeline at an arbitrary moment, and at rest. *)
From Coq Require Import Lia Permutation.
From Verif Require ReaderModel SpecReader ReaderFacts2 DriverModel SpecDriver ExportFacts.
From Verif Require Import GoBase GoFacts Predicates FlatRecord SigmaModel EngineModel EngineFlat PoolModel SpecPool PoolFacts PoolFacts2 PoolFacts3 PoolFacts4 MonitorModel
  SpecMonitor InitModel SpecInit InitFacts LiveFacts FlattenModel ExportModel SpecExport AppModel SpecApp AppFacts ChainModel SpecChain ChainFacts SpecRest RestFacts.
Local Open Scope nat_scope.

Lemma nd_two : NoDup [2]. Proof. repeat constructor; cbn; tauto. Qed.
Lemma end_no_input {P R} (pr : P -> R -> option R) cc oc (s : st P R) i : s_main s = MEnd -> fire pr cc oc s (CInput i) = None.
Proof. intros E. unfold fire, fire_main. rewrite E. now destruct (s_panic s). Qed.
Section App.
Variable P : payloads.
Variables (clk : nat -> Z) (ipstr : Z -> string) (jsonsvcs : list service -> string) (hash : flatrec -> Z).
Variables (X : sfgo_fns) (Mp : gomap fieldmap) (pmatch : string -> string -> bool) (ord : srule -> list nat -> list (string * search)) (fuel : nat).
Variable ah : ahandler sfrec.
Variable rd0 : ready sfrec.
Variables (buffer xstart : Z) (cap : nat) (fconf : gomap string).
Variable acts0 : list (DriverModel.act ReaderModel.rec).
Variable rs : list ReaderModel.rec.
Hypothesis Hacts : source_of rs acts0.
Hypothesis Hsane : SpecReader.Sane false rs.
Notation stg := (app_stage P clk ipstr jsonsvcs hash X Mp pmatch ord fuel ah rd0 buffer).
Notation cr := (crun stg cap (cinit (app_start rd0 xstart fconf acts0))).
Notation proc := (engine_proc (sf_applicable X Mp) sf_add ah (c_mode (rd_conf rd0))).
Notation conc := (Z.to_nat (c_concurrency (rd_conf rd0))).
Notation lrun := (live_run (sf_ops X Mp) pmatch ord fuel proc conc [2] (rd_conf rd0)).

Definition resting (s : cstate msg dstate) : Prop :=
  (exists l, c_st s 0 = DDrv l /\ (l = [] \/ l = [DriverModel.AWait])) /\
  (exists pc rd f, c_st s 1 = DRead pc rd f /\ (pc = RIdle /\ c_closed s 1 = false \/ pc = REnd)) /\
  (exists e, c_st s 2 = DEng e /\ idle proc conc [2] (fst e) /\ (s_main (fst e) = MRecv /\ c_closed s 2 = false \/ s_main (fst e) = MEnd)) /\
  (exists x, c_st s 3 = DExp x /\ (x_open x = true -> c_closed s 3 = false)) /\
  c_ch s 1 = [] /\ c_ch s 2 = [] /\ c_ch s 3 = [].

Lemma eng_rest chs s pol tr : lrun (live_start rd0) chs = ((s, pol), tr) -> 0 < conc -> s_main s = MRecv ->
  idle proc conc [2] s \/ exists c s' l, goes_on c = true /\ fire proc conc [2] s c = Some (s', l).
Proof.
  intros H C Em. unfold live_start in H. destruct (live_projects _ _ _ _ _ _ _ _ _ _ _ _ _ _ H) as (cs & _ & _ & Hr & _).
  destruct (pool_starts rd0) as [E|(p & q & St)].
  - rewrite E in Hr. left. exact (bypass_idle _ _ _ _ _ (binv_reach _ _ _ _ _ nd_two (run_reach _ _ _ _ _ _ _ Hr)) Em).
  - exact (rest_or_go _ _ _ _ _ _ _ C (inv_reach _ _ _ _ _ _ _ _ nd_two St (run_reach _ _ _ _ _ _ _ Hr)) Em).
Qed.
Lemma eng_ended chs s pol tr : lrun (live_start rd0) chs = ((s, pol), tr) -> s_main s = MEnd -> idle proc conc [2] s.
Proof.
  intros H Em. unfold live_start in H. destruct (live_projects _ _ _ _ _ _ _ _ _ _ _ _ _ _ H) as (cs & _ & _ & Hr & _).
  destruct (pool_starts rd0) as [E|(p & q & St)].
  - rewrite E in Hr. exact (bypass_ended _ _ _ _ _ (binv_reach _ _ _ _ _ nd_two (run_reach _ _ _ _ _ _ _ Hr)) Em).
  - exact (ended_idle _ _ _ _ _ _ _ (inv_reach _ _ _ _ _ _ _ _ nd_two St (run_reach _ _ _ _ _ _ _ Hr)) Em).
Qed.
Lemma rest_still s : resting s -> still stg cap s.
Proof.
  intros ((l & E0 & Hl) & (pc & rd & f & E1 & Hpc) & (e & E2 & Id & He) & (x & E3 & Hx) & C1 & C2 & C3) ia s' [W1 W2] Hs.
  assert (A : exists i a y, ia = (i, a) /\ stg i (c_st s i) a y /\
    match a with TIn (Some m) => exists q, c_ch s i = m :: q | TIn None => c_closed s i = true | _ => True end).
  { inversion Hs; subst; try (do 3 eexists; repeat split; eauto; fail).
    do 3 eexists. split; [reflexivity|]. split; [eassumption|]. destruct H1 as [->|(_ & [->|(m & ->)])]; exact I. }
  destruct A as (i & a & y & -> & St & Q). cbn [snd] in W2.
  inversion St as [l1 a1 l' D Ei|pc1 rd1 f1 a1 pc' rd' f' D Ei|s1 ch s2 ls D Hfr Ei|x1 a1 x' D Ei]; subst i.
  - rewrite E0 in *. match goal with Hx : DDrv _ = DDrv _ |- _ => injection Hx as -> end. destruct Hl as [-> | -> ]; inversion D.
  - rewrite E1 in *. match goal with Hx : DRead _ _ _ = DRead _ _ _ |- _ => injection Hx as -> -> -> end.
    destruct Hpc as [[-> Hc]| -> ]; inversion D; subst; [destruct Q as (q & Q); congruence|congruence].
  - rewrite E2 in *. match goal with Hx : DEng _ = DEng _ |- _ => injection Hx as -> end. subst a.
    pose proof D as D'. eapply lstep_inv in D'. destruct ch as [c|evs v paths h]; [|now destruct (W2 h)].
    destruct D' as (l3 & El3 & F & Np).
    destruct c as [[r|]|b| |g w|p].
    + cbn [eng_act] in Q. destruct Q as (q & Q). congruence.
    + cbn [eng_act] in Q. destruct He as [[_ He]|He]; [congruence|]. assert (N := end_no_input proc conc [2] (fst e) None He). exact (eq_rect None (fun o => match o with None => True | Some _ => False end) I _ (eq_trans (eq_sym N) F)).
    + exact (eq_rect None (fun o => match o with None => True | Some _ => False end) I _ (eq_trans (eq_sym (Id (CExpired b) eq_refl)) F)).
    + exact (eq_rect None (fun o => match o with None => True | Some _ => False end) I _ (eq_trans (eq_sym (Id CMain eq_refl)) F)).
    + exact (eq_rect None (fun o => match o with None => True | Some _ => False end) I _ (eq_trans (eq_sym (Id (CWorker g w) eq_refl)) F)).
    + discriminate.
  - rewrite E3 in *. match goal with Hx : DExp _ = DExp _ |- _ => injection Hx as -> end. inversion D; subst.
    + destruct Q as (q & Q). congruence.
    + now destruct W1.
    + rewrite Hx in Q by assumption. discriminate.
Qed.
Lemma rest_or_step tr s : 0 < cap -> 0 < conc -> cr tr s -> resting s \/ exists ia s2, working ia /\ cstep stg cap s ia s2.
Proof.
  intros Hcap Hconc H. pose proof (app_safe _ _ _ _ _ _ _ _ _ _ _ _ _ _ cap fconf acts0 rs Hacts Hsane _ _ H) as C.
  destruct (snapshot _ _ _ _ _ _ _ _ _ _ _ _ _ _ cap fconf acts0 rs Hacts _ _ H C) as (k & K).
  destruct k as [done l rs' pc rd f rin ds [e pol] chs ltr x es].
  destruct K as (E0 & (Ea & Nw) & Ers & D1 & D2 & C1 & E1 & (q1 & Q1 & Q1') & Er & C2 & F1 & E2 & Hl & Hb & (out & q & Ht & Hq & Eo) & C3 & F2 & E3 & Exx & (qx & Hqx & Hqx') & F3).
  destruct (eng_state clk ipstr X Mp pmatch ord fuel ah rd0 buffer _ _ _ _ Hl) as (Px & Np & Cx & Mx & Mend & Eof & Pr).
  assert (W3 : forall i a, i <> 3 -> (forall h, a <> TStep (Some h)) -> working (i, a)) by (intros i a Hi Ha; split; [congruence|exact Ha]).
  (* the exporter *)
  destruct (c_ch s 3) as [|m q3] eqn:Ech3.
  2:{ destruct (x_open x) eqn:Ho; [|destruct (F3 eq_refl); congruence].
      destruct qx as [|r qx]; [discriminate|]. cbn in Hqx'. injection Hqx' as -> _. right. exists (3, TIn (Some (MOut r))). eexists. split; [split; discriminate|].
      eapply cs_in; [exact C| |exact Ech3]. rewrite E3. constructor. apply (xa_rec buffer x r 0%Z 0%Z Ho). }
  destruct (x_open x && c_closed s 3)%bool eqn:Eoc.
  1:{ apply andb_true_iff in Eoc as [Ho Ecl3]. right. exists (3, TIn None). eexists. split; [split; discriminate|]. eapply cs_eof; [exact C| |exact Ech3|exact Ecl3]. rewrite E3. constructor. apply (xa_close buffer x Ho). }
  assert (Hx3 : x_open x = true -> c_closed s 3 = false) by (intros Ho; rewrite Ho in Eoc; exact Eoc). clear Eoc.
  destruct (c_closed s 3) eqn:Ecl3.
  1:{ (* the engine has closed its output *)
      pose proof (proj1 C3 eq_refl) as G2. pose proof (closed_two _ _ Cx G2) as In2.
      destruct Mx as [Mx|[_ [Mx|Mx]]]; [rewrite Mx in In2; destruct In2| |].
      - right. assert (Es : eng_step X Mp pmatch ord fuel ah rd0 (e, pol) (LCh CMain) = Some ((set_main e MEnd, pol), [LTau])).
        { unfold eng_step, live_step, fire. cbn [fst snd]. unfold policies in *. rewrite Px. unfold fire_main. rewrite Mx. reflexivity. }
        exists (2, TStep None). eexists. split; [apply W3; discriminate|]. apply cs_step; [exact C|]. rewrite E2. exact (as_eng _ _ _ _ _ _ _ _ _ _ _ _ _ _ (LCh CMain) _ _ Es ltac:(discriminate)).
      - left. assert (Ie : In LEof ltr) by (apply Eof; rewrite Mx; reflexivity).
        destruct (F2 Ie) as [G3 G4]. rewrite C2 in G4. destruct pc; try discriminate. destruct (F1 I) as [G5 G6]. rewrite C1 in G6. destruct (D1 G6) as [-> Hlw].
        split; [exists l; auto|]. split; [exists REnd, rd, f; auto|]. split; [exists (e, pol); split; [assumption|]; split; [exact (eng_ended _ _ _ _ Hl Mx)|auto]|].
        split; [exists x; rewrite Ecl3; auto|auto]. }
  assert (Ln3 : length (c_ch s 3) < cap) by (rewrite Ech3; exact Hcap).
  assert (Mv : forall c s' lb, goes_on c = true -> fire proc conc [2] e c = Some (s', lb) -> exists ia s2, working ia /\ cstep stg cap s ia s2).
  { intros c s' lb G F. exact (eng_moves P clk ipstr jsonsvcs hash X Mp pmatch ord fuel ah rd0 buffer cap s (e, pol) C E2 Ecl3 Ln3 c s' lb G F). }
  destruct (Pr Hconc) as [Hfin|[Em|(c & s' & lb & G & F)]]; [| |right; eauto].
  { exfalso. apply Mend in Hfin. rewrite Hfin in Cx. assert (In (LCloseOut 2) ltr); [|rewrite <- C3 in *; congruence].
    assert (I2 : In 2 (closed_outs ltr)) by (apply in_rev; rewrite Cx; now left). apply in_flat_map in I2 as (y & Hy & I2).
    destruct y; cbn in I2; try tauto. destruct I2 as [->|[]]. exact Hy. }
  destruct (eng_rest _ _ _ _ Hl Hconc Em) as [Id|(c & s' & lb & G & F)]; [|right; eauto].
  assert (Rin : forall i, (forall r, i = Some r -> snd r = ctx_new) -> exists s', eng_step X Mp pmatch ord fuel ah rd0 (e, pol) (LCh (CInput i)) = Some (s', [match i with Some r => LTake r | None => LEof end])).
  { intros i _. unfold eng_step, live_step, fire. cbn [fst snd]. unfold policies in *. rewrite Px. unfold fire_main. rewrite Em. destruct i; eauto. }
  destruct (c_ch s 2) as [|m q2] eqn:Ech2.
  2:{ destruct q as [|fr q]; [discriminate|]. cbn in Hq. injection Hq as -> _. destruct (Rin (Some (fr, ctx_new))) as (s' & Es). { now intros r [= <-]. }
      right. exists (2, TIn (Some (MFlat fr))). eexists. split; [apply W3; discriminate|]. eapply cs_in; [exact C| |exact Ech2]. rewrite E2.
      exact (as_eng _ _ _ _ _ _ _ _ _ _ _ _ _ _ _ _ _ Es ltac:(now intros r [= <-])). }
  destruct (c_closed s 2) eqn:Ecl2.
  1:{ destruct (Rin None) as (s' & Es); [discriminate|].
      right. exists (2, TIn None). eexists. split; [apply W3; discriminate|]. eapply cs_eof; [exact C| |exact Ech2|exact Ecl2]. rewrite E2.
      exact (as_eng _ _ _ _ _ _ _ _ _ _ _ _ _ _ _ _ _ Es ltac:(discriminate)). }
  assert (Ln2 : length (c_ch s 2) < cap) by (rewrite Ech2; exact Hcap).
  destruct pc as [|r|[|fr lf]| |]; try discriminate.
  - destruct (c_ch s 1) as [|m q1'] eqn:Ech1.
    2:{ destruct q1 as [|r q1]; [discriminate|]. cbn in Q1'. injection Q1' as -> _. right. exists (1, TIn (Some (MRec r))). eexists. split; [apply W3; discriminate|].
        eapply cs_in; [exact C| |exact Ech1]. rewrite E1. constructor. constructor. }
    destruct (c_closed s 1) eqn:Ecl1.
    1:{ right. exists (1, TIn None). eexists. split; [apply W3; discriminate|]. eapply cs_eof; [exact C| |exact Ech1|exact Ecl1]. rewrite E1. constructor. constructor. }
    assert (Ln1 : length (c_ch s 1) < cap) by (rewrite Ech1; exact Hcap).
    symmetry in C1. pose proof (D2 C1) as El. destruct rs' as [|r rs'].
    + cbn in El. destruct El as [-> | -> ].
      * left. split; [exists []; auto|]. split; [exists RIdle, rd, f; rewrite Ecl1; auto|]. split; [exists (e, pol); rewrite Ecl2; auto|]. split; [exists x; rewrite Ecl3; auto|auto].
      * right. exists (0, TClose). eexists. split; [apply W3; discriminate|]. eapply cs_close; [exact C| |exact Ecl1]. rewrite E0. constructor. constructor.
    + right. exists (0, TOut (MRec r)). unfold complete in El. cbn [map List.app] in El. destruct El as [-> | -> ]; (eexists; split; [apply W3; discriminate|]; eapply cs_out; [exact C| |exact Ecl1|exact Ln1]; rewrite E0; apply as_drv; apply ds_send).
  - destruct (ReaderModel.reader_step false rd r) as [[rd' ds']| | |] eqn:Er1.
    1:{ right. exists (1, TStep None). eexists. split; [apply W3; discriminate|]. eapply cs_step; [exact C|]. rewrite E1. constructor. eapply ra_handle; [exact Er1|reflexivity]. }
    all: right; exists (1, TPanic); eexists; (split; [apply W3; discriminate|]); eapply cs_crash; [exact C|rewrite E1; constructor; constructor; congruence|now left].
  - right. exists (1, TStep None). eexists. split; [apply W3; discriminate|]. eapply cs_step; [exact C|]. rewrite E1. constructor. constructor.
  - right. exists (1, TOut (MFlat fr)). eexists. split; [apply W3; discriminate|]. eapply cs_out; [exact C| |exact Ecl2|exact Ln2]. rewrite E1. constructor. constructor.
  - right. exists (1, TClose). eexists. split; [apply W3; discriminate|]. eapply cs_close; [exact C| |exact Ecl2]. rewrite E1. constructor. constructor.
Qed.
Lemma comes_to_rest tr s : 0 < cap -> 0 < conc -> cr tr s -> exists tr' s', cr (tr ++ tr') s' /\ still stg cap s' /\ Forall working tr'.
Proof.
  intros H1 H2. revert tr. induction (app_terminates P clk ipstr jsonsvcs hash X Mp pmatch ord fuel ah rd0 buffer cap s) as [s _ IH]. intros tr H.
  destruct (rest_or_step tr s H1 H2 H) as [D|(ia & s2 & W & Hs)].
  - exists [], s. rewrite app_nil_r. split; [assumption|]. split; [exact (rest_still _ D)|constructor].
  - destruct (IH s2 (ex_intro _ ia (conj W Hs)) (tr ++ [ia]) (cr_snoc _ _ _ _ _ _ _ H Hs)) as (tr' & s' & H' & D & F).
    exists (ia :: tr'), s'. rewrite <- app_assoc in H'. auto.
Qed.
(** Every moment. *)
Lemma app_moment tr s : (forall n, (clk n <= clk (S n))%Z) -> cr tr s ->
  exists rs1 rs2 ds out1 out2 chs e pol ltr x es late, rs = rs1 ++ rs2 /\ Joined rs1 ds /\ Passed ipstr jsonsvcs hash fconf (events P ds) (out1 ++ out2) /\
    lrun (live_start rd0) chs = ((e, pol), ltr) /\ taken ltr = map (fun fr => (fr, ctx_new)) out1 /\
    emitted 2 ltr = (concat (x_batches x) ++ held x) ++ late /\ c_st s 3 = DExp x /\ x = x_run buffer xstart es /\ batches chs = noted (proj 2 tr) /\
    (0 < cap -> 0 < conc -> still stg cap s -> rs2 = [] /\ out2 = [] /\ late = [] /\ idle proc conc [2] e).
Proof.
  intros Mono H. pose proof (app_safe _ _ _ _ _ _ _ _ _ _ _ _ _ _ cap fconf acts0 rs Hacts Hsane _ _ H) as C.
  destruct (snapshot _ _ _ _ _ _ _ _ _ _ _ _ _ _ cap fconf acts0 rs Hacts _ _ H C) as (k & K).
  destruct k as [done l rs' pc rd f rin ds [e pol] chs ltr x es].
  destruct K as (E0 & (Ea & Nw) & Ers & D1 & D2 & C1 & E1 & (q1 & Q1 & Q1') & Er & C2 & F1 & E2 & Hl & Hb & (out & q & Ht & Hq & Eo) & C3 & F2 & E3 & Exx & (qx & Hqx & Hqx') & F3).
  exists rin, ((r_hand pc ++ q1) ++ rs'), ds, out, (q ++ r_pend pc), chs, e, pol, ltr, x, es, qx.
  split; [rewrite Ers, Q1, <- !app_assoc; reflexivity|]. split; [exact (joined_run _ _ _ Er)|]. split; [rewrite Eo; unfold f_conf; apply passed, Mono|].
  split; [exact Hl|]. split; [exact Ht|]. split.
  { rewrite Hqx. f_equal. destruct (ExportFacts.batching buffer xstart es) as [B1 _]. rewrite <- Exx in B1. symmetry. exact B1. }
  split; [exact E3|]. split; [exact Exx|]. split; [exact Hb|]. intros Hcap Hconc St.
  destruct (rest_or_step tr s Hcap Hconc H) as [R|(ia & s2 & W & Hs)]; [|destruct (St _ _ W Hs)].
  destruct R as ((l0 & E0' & Hl0) & (pc0 & rd1 & f0 & E1' & Hpc) & (e0 & E2' & Id & He) & _ & K1 & K2 & K3).
  rewrite E0 in E0'. injection E0' as <-. rewrite E1 in E1'. injection E1' as <- <- <-. rewrite E2 in E2'. injection E2' as <-. cbn [fst] in *.
  rewrite K1 in Q1'. destruct q1; [|discriminate]. rewrite K2 in Hq. destruct q; [|discriminate]. rewrite K3 in Hqx'. destruct qx; [|discriminate].
  assert (Hp : r_hand pc = [] /\ r_pend pc = []) by (destruct Hpc as [[-> _]| -> ]; auto). destruct Hp as [-> -> ]. split; [|auto].
  cbn. destruct (SpecDriver.closes done) eqn:Ec; [exact (proj1 (D1 eq_refl))|]. destruct (D2 eq_refl) as [El|El].
  - destruct Hl0 as [-> | -> ]; [now destruct rs'|]. destruct rs' as [|? [|? ?]]; discriminate.
  - destruct Hl0 as [-> | -> ]; destruct rs' as [|? [|? ?]]; discriminate.
Qed.
End App.

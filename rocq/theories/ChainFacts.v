(** * ChainFacts: the pipeline with the goroutines of its stages. *)
From Coq Require Import Lia Permutation.
From Verif Require ReaderModel SpecReader ReaderFacts2 DriverModel SpecDriver ExportFacts.
From Verif Require Import GoBase GoFacts Predicates FlatRecord SigmaModel EngineModel EngineFlat PoolModel SpecPool PoolFacts PoolFacts2 PoolFacts3 PoolFacts4 MonitorModel
  SpecMonitor InitModel SpecInit InitFacts LiveFacts FlattenModel ExportModel SpecExport AppModel SpecApp AppFacts ChainModel SpecChain.
Local Open Scope nat_scope.

(** ** Chains in general *)
Section Chain.
Context {M N S : Type}.
Variable stage : nat -> S -> sact M N -> S -> Prop.
Variable cap : nat.
Notation act := (sact M N).
Notation cstep := (cstep stage cap).
Notation crun := (crun stage cap).
Definition proj (i : nat) (tr : list (nat * act)) : list act := flat_map (fun ja => if Nat.eqb (fst ja) i then [snd ja] else []) tr.
Definition sent (l : list act) : list M := flat_map (fun a => match a with TOut m => [m] | _ => [] end) l.
Definition got (l : list act) : list M := flat_map (fun a => match a with TIn (Some m) => [m] | _ => [] end) l.
Definition noted (l : list act) : list N := flat_map (fun a => match a with TStep (Some n) => [n] | _ => [] end) l.
Definition shut (l : list act) : bool := existsb (fun a => match a with TClose => true | _ => false end) l.
Definition eof (l : list act) : bool := existsb (fun a => match a with TIn None => true | _ => false end) l.
Inductive srun (i : nat) (x0 : S) : list act -> S -> Prop :=
| sr_nil : srun i x0 [] x0
| sr_snoc : forall l x a x', srun i x0 l x -> stage i x a x' -> srun i x0 (l ++ [a]) x'.

Lemma proj_app i a b : proj i (a ++ b) = proj i a ++ proj i b. Proof. apply flat_map_app. Qed.
Lemma sent_app a b : sent (a ++ b) = sent a ++ sent b. Proof. apply flat_map_app. Qed.
Lemma got_app a b : got (a ++ b) = got a ++ got b. Proof. apply flat_map_app. Qed.
Lemma noted_app a b : noted (a ++ b) = noted a ++ noted b. Proof. apply flat_map_app. Qed.
Lemma shut_app a b : shut (a ++ b) = shut a || shut b. Proof. apply existsb_app. Qed.
Lemma eof_app a b : eof (a ++ b) = eof a || eof b. Proof. apply existsb_app. Qed.
Lemma proj_one i j a : proj i [(j, a)] = if Nat.eqb j i then [a] else [].
Proof. unfold proj. cbn. destruct (Nat.eqb j i); reflexivity. Qed.

Record cinv (x0 : nat -> S) tr s : Prop := mkCI {
  ci_run : forall i, srun i (x0 i) (proj i tr) (c_st s i);
  ci_buf : forall i, sent (proj i tr) = got (proj (i + 1) tr) ++ c_ch s (i + 1);
  ci_shut : forall i, c_closed s (i + 1) = shut (proj i tr);
  ci_eof : forall i, eof (proj (i + 1) tr) = true -> c_ch s (i + 1) = [] /\ c_closed s (i + 1) = true;
  ci_zero : c_ch s 0 = [] /\ c_closed s 0 = false }.
Lemma set_eq {A} (f : nat -> A) i a : set f i a i = a. Proof. unfold set. now rewrite Nat.eqb_refl. Qed.
Lemma set_ne {A} (f : nat -> A) i j a : i <> j -> set f i a j = f j. Proof. unfold set. intros H. now destruct (Nat.eqb_spec i j). Qed.
Lemma srun_snoc x0 tr (st : nat -> S) i a x : (forall j, srun j (x0 j) (proj j tr) (st j)) -> stage i (st i) a x ->
  forall j, srun j (x0 j) (proj j (tr ++ [(i, a)])) (set st i x j).
Proof.
  intros H Hs j. rewrite proj_app, proj_one. destruct (Nat.eqb_spec i j) as [<-|Hn].
  - rewrite set_eq. econstructor; eauto.
  - rewrite app_nil_r, set_ne by assumption. apply H.
Qed.
Lemma chain_inv x0 tr s : crun (cinit x0) tr s -> c_crash s = false -> cinv x0 tr s.
Proof.
  induction 1 as [|tr s [i a] s' H IH Hs]; intros C.
  - constructor; cbn; auto; try discriminate. intros i. constructor.
  - assert (C0 : c_crash s = false) by (inversion Hs; assumption). specialize (IH C0) as [I1 I2 I3 I4 I5].
    inversion Hs as [? m q x _ St Ch|? x _ St Ch Cl|? m x _ St Cl Len|? x _ St Cl|? n x _ St|? ? x _ St Hc]; subst; cbn [c_crash] in C; try discriminate.
    all: constructor; cbn [c_st c_ch c_closed]; [apply srun_snoc; assumption|..].
    + intros j. rewrite !proj_app, !proj_one. specialize (I2 j). destruct (Nat.eqb_spec i j) as [E1|N1], (Nat.eqb_spec i (j + 1)) as [E2|N2]; try lia.
      * rewrite set_ne by lia. rewrite sent_app, app_nil_r, I2. cbn. now rewrite app_nil_r.
      * subst i. rewrite set_eq, app_nil_r, got_app, I2, Ch. cbn. now rewrite <- app_assoc.
      * now rewrite set_ne, !app_nil_r by lia.
    + intros j. rewrite proj_app, proj_one, I3. destruct (Nat.eqb i j); rewrite ?app_nil_r; [|reflexivity]. rewrite shut_app. cbn. now rewrite orb_false_r.
    + intros j. rewrite proj_app, proj_one. destruct (Nat.eqb_spec i (j + 1)) as [->|N2].
      * rewrite eof_app. cbn. rewrite orb_false_r. intros E. destruct (I4 _ E) as [E1 _]. congruence.
      * rewrite app_nil_r, set_ne by lia. apply I4.
    + destruct I5 as [I5 I6]. split; [|assumption]. destruct i; [congruence|]. rewrite set_ne by lia. assumption.
    + intros j. rewrite !proj_app, !proj_one, sent_app, got_app. rewrite (I2 j). destruct (Nat.eqb i j), (Nat.eqb i (j + 1)); cbn; now rewrite ?app_nil_r.
    + intros j. rewrite proj_app, proj_one, shut_app, I3. destruct (Nat.eqb i j); cbn; now rewrite ?orb_false_r.
    + intros j. rewrite proj_app, proj_one, eof_app. destruct (Nat.eqb_spec i (j + 1)) as [->|N2]; [auto|]. cbn. rewrite orb_false_r. apply I4.
    + assumption.
    + intros j. rewrite !proj_app, !proj_one, sent_app, got_app. destruct (Nat.eqb_spec i j) as [<-|N1].
      * rewrite set_eq. rewrite (I2 i). destruct (Nat.eqb_spec i (i + 1)); [lia|]. cbn. now rewrite app_nil_r, app_assoc.
      * rewrite set_ne by lia. rewrite (I2 j). destruct (Nat.eqb i (j + 1)); cbn; now rewrite ?app_nil_r.
    + intros j. rewrite proj_app, proj_one, shut_app, I3. destruct (Nat.eqb i j); cbn; now rewrite ?orb_false_r.
    + intros j. rewrite proj_app, proj_one, eof_app. destruct (Nat.eqb_spec i j) as [<-|N1].
      * destruct (Nat.eqb_spec i (i + 1)); [lia|]. cbn. rewrite orb_false_r. intros E. destruct (I4 _ E) as [_ E2]. congruence.
      * rewrite set_ne by lia. destruct (Nat.eqb i (j + 1)); cbn; rewrite ?orb_false_r; apply I4.
    + rewrite set_ne by lia. assumption.
    + intros j. rewrite !proj_app, !proj_one, sent_app, got_app. rewrite (I2 j). destruct (Nat.eqb i j), (Nat.eqb i (j + 1)); cbn; now rewrite ?app_nil_r.
    + intros j. rewrite proj_app, proj_one, shut_app. destruct (Nat.eqb_spec i j) as [<-|N1].
      * rewrite set_eq. cbn. now rewrite orb_true_r.
      * rewrite set_ne by lia. cbn. now rewrite orb_false_r.
    + intros j E. assert (E' : eof (proj (j + 1) tr) = true).
      { rewrite proj_app, proj_one, eof_app in E. destruct (Nat.eqb i (j + 1)); cbn in E; now rewrite orb_false_r in E. }
      destruct (I4 _ E') as [E1 E2]. split; [assumption|]. destruct (Nat.eqb_spec (i + 1) (j + 1)) as [e|N1]; [rewrite e, set_eq; reflexivity|rewrite set_ne by lia; assumption].
    + rewrite set_ne by lia. assumption.
    + intros j. rewrite !proj_app, !proj_one, sent_app, got_app. rewrite (I2 j). destruct (Nat.eqb i j), (Nat.eqb i (j + 1)); cbn; now rewrite ?app_nil_r.
    + intros j. rewrite proj_app, proj_one, shut_app, I3. destruct (Nat.eqb i j); cbn; now rewrite ?orb_false_r.
    + intros j. rewrite proj_app, proj_one, eof_app. destruct (Nat.eqb i (j + 1)); cbn; rewrite ?orb_false_r; apply I4.
    + assumption.
Qed.
(** No crash, if no stage that ran with the channels intact can cause one. *)
Lemma chain_safe x0 : (forall tr s i a x, crun (cinit x0) tr s -> c_crash s = false -> stage i (c_st s i) a x ->
    a <> TPanic /\ (c_closed s (i + 1) = true -> a <> TClose /\ forall m, a <> TOut m)) ->
  forall tr s, crun (cinit x0) tr s -> c_crash s = false.
Proof.
  intros Safe tr s H. induction H as [|tr s ia s' H IH Hs]; [reflexivity|].
  inversion Hs as [ | | | | |i a x _ St Hc]; subst; try reflexivity. destruct (Safe _ _ _ _ _ H IH St) as [N1 N2].
  destruct Hc as [Hc|(Cl & [Hc|(m & Hc)])]; [contradiction| |]; destruct (N2 Cl) as [N3 N4]; [contradiction|now destruct (N4 m)].
Qed.
End Chain.

(** ** The stages *)
Section App.
Variable P : payloads.
Variables (clk : nat -> Z) (ipstr : Z -> string) (jsonsvcs : list service -> string) (hash : flatrec -> Z).
Variables (X : sfgo_fns) (Mp : gomap fieldmap) (pmatch : string -> string -> bool) (ord : srule -> list nat -> list (string * search)) (fuel : nat).
Variable ah : ahandler sfrec.
Variable rd0 : ready sfrec.
Variables (buffer xstart : Z).
Notation stg := (app_stage P clk ipstr jsonsvcs hash X Mp pmatch ord fuel ah rd0 buffer).
Notation hall := (handle_all clk ipstr jsonsvcs hash).
Notation act := (sact msg host).
Notation sr := (srun stg).

(** *** The source *)
Lemma drv_run l0 acts y : sr 0 (DDrv l0) acts y ->
  exists done l, y = DDrv l /\ l0 = done ++ l /\ sent acts = map MRec (SpecDriver.sends done) /\ shut acts = SpecDriver.closes done /\ ~ In DriverModel.AWait done.
Proof.
  induction 1 as [|acts y a y' H IH Hs].
  - exists [], l0. cbn. auto 9.
  - destruct IH as (done & l & -> & -> & E1 & E2 & E3).
    inversion Hs as [l1 a1 l' D| | |]; subst. inversion D as [r l2|l2]; subst.
    + exists (done ++ [DriverModel.ASend r]), l'. split; [reflexivity|]. split; [now rewrite <- app_assoc|].
      unfold SpecDriver.sends, SpecDriver.closes in *. rewrite sent_app, flat_map_app, map_app, E1, shut_app, existsb_app, E2, in_app_iff. cbn. rewrite !orb_false_r. repeat split. intros [?|[?|[]]]; [auto|discriminate].
    + exists (done ++ [DriverModel.AClose]), l'. split; [reflexivity|]. split; [now rewrite <- app_assoc|].
      unfold SpecDriver.sends, SpecDriver.closes in *. rewrite sent_app, flat_map_app, map_app, E1, shut_app, existsb_app, E2, in_app_iff. cbn. rewrite !app_nil_r. repeat split. intros [?|[?|[]]]; [auto|discriminate].
Qed.

(** *** The reader *)
Definition f_conf (conf : gomap string) : option (Z * fstate) := option_map (fun ttl => (ttl, f_new)) (filter_config conf).
Definition r_hand (pc : rpc) : list ReaderModel.rec := match pc with RGot r => [r] | _ => [] end.
Definition r_pend (pc : rpc) : list flatrec := match pc with RSend l => l | _ => [] end.
Lemma read_run conf acts y : sr 1 (DRead RIdle ReaderModel.reader_init (f_conf conf)) acts y ->
  exists pc rd f rs ds, y = DRead pc rd f /\ got acts = map MRec (rs ++ r_hand pc) /\ ReaderModel.reader_run false ReaderModel.reader_init rs = Ok (rd, ds) /\
    f = fl_filter (hall (mkFlt (f_conf conf) [[]]) (events P ds)) /\
    sent acts ++ map MFlat (r_pend pc) = map MFlat (concat (fl_out (hall (mkFlt (f_conf conf) [[]]) (events P ds)))) /\
    shut acts = match pc with REnd => true | _ => false end /\ eof acts = match pc with RClose | REnd => true | _ => false end.
Proof.
  induction 1 as [|acts y a y' H IH Hs].
  - exists RIdle, ReaderModel.reader_init, (f_conf conf), [], []. repeat split.
  - destruct IH as (pc & rd & f & rs & ds & -> & Eg & Er & Ef & Es & E1 & E2).
    inversion Hs as [|pc1 rd1 f1 a1 pc' rd' f' D| |]; subst.
    rewrite got_app, sent_app, shut_app, eof_app, E1, E2, Eg.
    inversion D as [r rd2 f2|rd2 f2|r rd2 f2 rd3 ds2 s Hstep Hf|r rd2 f2 Hn|fr l rd2 f2|rd2 f2|rd2 f2]; subst; cbn [r_hand r_pend] in *.
    + eexists (RGot r), _, _, rs, ds. split; [reflexivity|]. cbn. rewrite !app_nil_r, ?map_app in *. auto 9.
    + eexists RClose, _, _, rs, ds. split; [reflexivity|]. cbn. rewrite !app_nil_r in *. auto 9.
    + assert (Er2 : ReaderModel.reader_run false ReaderModel.reader_init (rs ++ [r]) = Ok (rd', ds ++ ds2)).
      { rewrite ReaderFacts2.reader_run_app, Er. cbn [rbind ReaderModel.reader_run]. rewrite Hstep. cbn [rbind]. now rewrite app_nil_r. }
      eexists (RSend _), _, _, (rs ++ [r]), (ds ++ ds2). split; [reflexivity|]. cbn [r_hand r_pend got sent shut eof flat_map existsb].
      rewrite events_app. destruct (hall_app clk ipstr jsonsvcs hash (f_conf conf) (events P ds) (events P ds2)) as [Q1 Q2]. rewrite Q1, Q2.
      rewrite !app_nil_r in *. split; [reflexivity|]. split; [assumption|]. split; [reflexivity|]. rewrite map_app, Es. auto.
    + eexists (RGot r), _, _, rs, ds. split; [reflexivity|]. cbn. rewrite !app_nil_r in *. auto 9.
    + eexists (RSend l), _, _, rs, ds. split; [reflexivity|]. cbn [r_hand r_pend got sent shut eof flat_map existsb].
      rewrite !app_nil_r in *. rewrite <- app_assoc. auto 9.
    + eexists RIdle, _, _, rs, ds. split; [reflexivity|]. cbn. rewrite !app_nil_r in *. auto 9.
    + eexists REnd, _, _, rs, ds. split; [reflexivity|]. cbn. rewrite !app_nil_r in *. auto 9.
Qed.

(** *** The engine *)
Notation proc := (engine_proc (sf_applicable X Mp) sf_add ah (c_mode (rd_conf rd0))).
Notation conc := (Z.to_nat (c_concurrency (rd_conf rd0))).
Notation lrun := (live_run (sf_ops X Mp) pmatch ord fuel proc conc [2] (rd_conf rd0)).
Notation lfire := (fire proc conc [2]).
Lemma live_run_snoc chs ch : forall s s1 t1 s2 ls, lrun s chs = (s1, t1) ->
  eng_step X Mp pmatch ord fuel ah rd0 s1 ch = Some (s2, ls) -> lrun s (chs ++ [ch]) = (s2, t1 ++ ls).
Proof.
  induction chs as [|c chs IH]; intros s s1 t1 s2 ls; cbn [live_run List.app].
  - intros [= <- <-] E. unfold eng_step in E. rewrite E. now rewrite app_nil_r.
  - destruct (live_step _ _ _ _ _ _ _ _ s c) as [[s' l]|]; eauto. destruct (lrun s' chs) as [s'' ls''] eqn:E. intros [= <- <-] Hb.
    rewrite (IH _ _ _ _ _ E Hb). now rewrite app_assoc.
Qed.
(** What a step of the plugin's goroutines tells, by who chose it. *)
Lemma fire_label s ch s' l : lfire s ch = Some (s', l) ->
  match ch with
  | CInput (Some r) => l = LTake r
  | CInput None => l = LEof
  | CPublish _ => True
  | _ => (forall r, l <> LTake r) /\ l <> LEof
  end.
Proof.
  unfold fire. destruct (s_panic s); [discriminate|]. destruct ch as [i|b| |g w|p]; [| | | |auto].
  4:{ intros F. apply worker_main in F as (_ & _ & ? & _ & _ & _ & ?). auto. }
  all: unfold fire_main, send_out, crash; intros F; destruct (s_main s) as [|r|r p1|r p1|r|r [|k ks]| | | |[|k ks]|]; try discriminate;
    repeat match type of F with
    | context [match ?x with _ => _ end] => destruct x; try discriminate
    end; injection F as <- <-; try reflexivity; split; discriminate.
Qed.
Lemma taken_pub (l : list (policies sfrec)) : taken (map (fun p => LPublish p : label (policies sfrec) sfrec) l) = [] /\
  emitted 2 (map (fun p => LPublish p : label (policies sfrec) sfrec) l) = [] /\ closed_outs (map (fun p => LPublish p : label (policies sfrec) sfrec) l) = [].
Proof. induction l as [|p l IH]; cbn; auto. Qed.
Lemma emit_two s ch s' k r : lfire s ch = Some (s', LEmit k r) -> ~ In k (s_closed s).
Proof.
  unfold fire. destruct (s_panic s); [discriminate|].
  assert (Q : forall s0 : st (policies sfrec) sfrec, forall c0 r0 s1, send_out s0 c0 r0 s1 = (s', LEmit k r) -> ~ In k (s_closed s0)).
  { intros s0 c0 r0 s1. unfold send_out, crash. destruct (existsb (Nat.eqb c0) (s_closed s0)) eqn:E; [discriminate|]. intros [= _ <- _] Hi.
    assert (existsb (Nat.eqb c0) (s_closed s0) = true); [|congruence]. apply existsb_exists. exists c0. split; auto. apply Nat.eqb_refl. }
  destruct ch as [i|b| |g w|p].
  1-3: unfold fire_main, crash; intros F; destruct (s_main s) as [|r0|r0 p1|r0 p1|r0|r0 [|k0 ks]| | | |[|k0 ks]|]; try discriminate;
      try (injection F as F; exact (Q _ _ _ _ F));
      repeat match type of F with
      | context [match ?x with _ => _ end] => destruct x; try discriminate
      end.
  - unfold fire_worker. intros F. repeat match type of F with
      | context [match ?x with _ => _ end] => destruct x; try discriminate
      end. injection F as F. exact (Q _ _ _ _ F).
  - intros F. repeat match type of F with
      | context [match ?x with _ => _ end] => destruct x; try discriminate
      end.
Qed.
Definition flats (l : list msg) : list flatrec := flat_map (fun m => match m with MFlat fr => [fr] | _ => [] end) l.
Definition from_pub (l : label (policies sfrec) sfrec) : Prop := match l with LPublish _ => True | _ => False end.
Lemma lstep_inv s ch s' ls : eng_step X Mp pmatch ord fuel ah rd0 s ch = Some (s', ls) ->
  match ch with
  | LCh c => exists l, ls = [l] /\ lfire (fst s) c = Some (fst s', l) /\ forall p, c <> CPublish p
  | LFiles _ _ _ _ => Forall from_pub ls /\ s_main (fst s') = s_main (fst s) /\ s_closed (fst s') = s_closed (fst s) /\ s_panic (fst s') = false
  end.
Proof.
  unfold eng_step, live_step. intros E. destruct ch as [c|evs v paths h].
  - assert (Q : match lfire (fst s) c with Some (s', l) => Some ((s', snd s), [l]) | None => None end = Some (s', ls) /\ forall p, c <> CPublish p).
    { destruct c; try discriminate; (split; [exact E|discriminate]). }
    destruct Q as [Q Np]. destruct (lfire (fst s) c) as [[s1 l]|]; [|discriminate]. injection Q as <- <-. exists l. auto.
  - destruct (s_panic (fst s)) eqn:Ep; [discriminate|]. destruct (s_monq (fst s)); [|discriminate]. destruct (create_interpreter _ _ _ _ h _); try discriminate.
    injection E as <- <-. cbn [fst s_main s_closed s_panic]. split; [|auto]. apply Forall_forall. intros y Hl. apply in_map_iff in Hl as (p & <- & _). exact I.
Qed.
Lemma pub_quiet ls : Forall from_pub ls -> taken ls = [] /\ emitted 2 ls = [] /\ closed_outs ls = [] /\ (forall l, In l ls -> exists p, l = LPublish p).
Proof.
  induction 1 as [|l ls H F (I1 & I2 & I3 & I4)]; [cbn; repeat split; intros ? []|]. destruct l; try destruct H. cbn. repeat split; auto.
  intros y [<-|Hl]; eauto.
Qed.
Lemma eng_run acts y : sr 2 (DEng (live_start rd0)) acts y ->
  exists s chs tr, y = DEng s /\ lrun (live_start rd0) chs = (s, tr) /\
    taken tr = map (fun fr => (fr, ctx_new)) (flats (got acts)) /\ got acts = map MFlat (flats (got acts)) /\
    sent acts = map MOut (emitted 2 tr) /\ (shut acts = true <-> In (LCloseOut 2) tr) /\ (eof acts = true <-> In LEof tr) /\ (In TPanic acts -> In LPanic tr) /\
    batches chs = noted acts.
Proof.
  induction 1 as [|acts y a y' H IH Hs].
  - exists (live_start rd0), [], []. cbn. repeat split; auto; discriminate || tauto.
  - destruct IH as (s & chs & tr & -> & Hr & Ht & Hg & He & Hsh & Heof & Hp & Hb).
    inversion Hs as [| |s1 ch s' ls E Hfr|]; subst. pose proof (lstep_inv _ _ _ _ E) as Q.
    exists s', (chs ++ [ch]), (tr ++ ls). split; [reflexivity|]. split; [exact (live_run_snoc _ _ _ _ _ _ _ Hr E)|].
    assert (B0 : batches [ch] = noted [eng_act ch ls]).
    { destruct ch as [c|]; [|reflexivity]. destruct c as [[r|]| | | |]; try reflexivity;
        destruct Q as (l & -> & _); destruct l as [| | | |[|[|[|k]]] r0| | | | |[|[|[|k]]]| |]; reflexivity. }
    assert (K : taken ls = map (fun fr => (fr, ctx_new)) (flats (got [eng_act ch ls])) /\ got [eng_act ch ls] = map MFlat (flats (got [eng_act ch ls])) /\
      sent [eng_act ch ls] = map MOut (emitted 2 ls) /\ (shut [eng_act ch ls] = true <-> In (LCloseOut 2) ls) /\
      (eof [eng_act ch ls] = true <-> In LEof ls) /\ (TPanic = eng_act ch ls -> In LPanic ls)).
    { destruct ch as [c|evs v paths h].
      - destruct Q as (l & -> & F & Np). pose proof (fire_label _ _ _ _ F) as L.
        destruct c as [[r|]|b| |g w|p]; cbn [eng_act].
        1:{ subst l. assert (Er : (fst r, ctx_new) = r) by (rewrite <- (Hfr r eq_refl); destruct r; reflexivity).
          cbn. rewrite Er. repeat split; auto; try discriminate; intros [A|[]]; discriminate. }
        1:{ subst l. cbn. repeat split; auto; try discriminate; intros [A|[]]; discriminate. }
        1-3: destruct L as [L1 L2]; destruct l as [r| |r|p r|[|[|[|k]]] r|p|p|p| |[|[|[|k]]]| |]; try (now destruct (L1 r)); try congruence;
          cbn; repeat split; auto; try discriminate; intros [A|[]]; discriminate.
        destruct (Np p eq_refl).
      - destruct Q as (Fp & _). destruct (pub_quiet _ Fp) as (Q1 & Q2 & Q3 & Q4). rewrite Q1, Q2. cbn.
        repeat split; auto; try discriminate; intros Hi; apply Q4 in Hi as (? & ?); discriminate. }
    destruct K as (K1 & K2 & K3 & K4 & K5 & K6).
    rewrite taken_app, emitted_app, got_app, sent_app, shut_app, eof_app, noted_app, !in_app_iff, !orb_true_iff. unfold batches in *. rewrite flat_map_app.
    unfold flats in *. rewrite flat_map_app, !map_app.
    split; [f_equal; assumption|]. split; [f_equal; assumption|]. split; [f_equal; assumption|]. split; [tauto|]. split; [tauto|]. split; [|f_equal; assumption].
    intros [?|[A|[]]]; [auto|]. right. apply K6. auto.
Qed.
Lemma two_nodup : NoDup [2]. Proof. repeat constructor; cbn; tauto. Qed.
Lemma pool_starts : pool_start rd0 = init_bypass \/ exists p q, starts conc p q (pool_start rd0).
Proof.
  unfold pool_start. destruct (rd_pi rd0) as [p|]; [right|now left]. destruct (rd_mon rd0) as [m|].
  - exists p, (m_queue m). left. reflexivity.
  - exists p, []. right. auto.
Qed.
Lemma main_two (m : mpc (policies sfrec) sfrec) cl : main_ok [2] m cl -> cl = [] \/ cl = [2] /\ (m = MClose [] \/ m = MEnd).
Proof.
  destruct m as [| | | | | | | | |cs|]; cbn; intros H; auto; try contradiction.
  destruct H as (pre & E & ->). destruct pre as [|x [|y pre]]; cbn in E; [auto| |destruct pre; discriminate].
  injection E as <- <-. right. cbn. auto.
Qed.
Lemma eng_state chs s pol tr : lrun (live_start rd0) chs = ((s, pol), tr) ->
  s_panic s = false /\ ~ In LPanic tr /\ rev (closed_outs tr) = s_closed s /\ (s_closed s = [] \/ s_closed s = [2] /\ (s_main s = MClose [] \/ s_main s = MEnd)) /\
  (s_main s = MEnd -> s_closed s = [2]) /\
  (In LEof tr <-> ended (s_main s) = true) /\
  (0 < conc -> finished s \/ s_main s = MRecv \/ exists c s' l, goes_on c = true /\ lfire s c = Some (s', l)).
Proof.
  intros H. unfold live_start in H. destruct (live_projects _ _ _ _ _ _ _ _ _ _ _ _ _ _ H) as (cs & _ & _ & Hr & _).
  destruct pool_starts as [E|(p & q & St)].
  - rewrite E in Hr. pose proof (run_reach _ _ _ _ _ _ _ Hr) as Re. pose proof (binv_reach _ _ _ _ _ two_nodup Re) as [B1 B2 B3 B4 B5 BS B6 B7].
    pose proof (aux_reach _ _ _ _ _ _ aux_bypass Re) as [A1 A2 A3 A4].
    split; [assumption|]. split; [intros Hp; apply A4 in Hp; congruence|]. split; [assumption|].
    split; [|split; [intros Em; rewrite Em in B5; exact B5|split; [assumption|]]].
    + destruct (s_main s) eqn:Em; try contradiction; apply main_two in B5; (destruct B5 as [?|[? [?|?]]]; [now left|try discriminate; right; auto|try discriminate; right; auto]).
    + intros _. unfold finished, policies in *. destruct (s_main s) as [|r|r p|r p|r|r [|k ks]| | | |[|k ks]|] eqn:Em; try contradiction; auto; right; right.
      * exists (CExpired true). unfold fire. rewrite B4. unfold fire_main. rewrite Em, B1. eexists _, _. split; reflexivity.
      * exists CMain. unfold fire. rewrite B4. unfold fire_main. rewrite Em. eexists _, _. split; reflexivity.
      * exists CMain. unfold fire. rewrite B4. unfold fire_main. rewrite Em. destruct (send_out s k r _) as [s' l]. exists s', l. split; reflexivity.
      * exists CMain. unfold fire. rewrite B4. unfold fire_main. rewrite Em. eexists _, _. split; reflexivity.
      * exists CMain. unfold fire. rewrite B4. unfold fire_main. rewrite Em. unfold cur. rewrite B1. eexists _, _. split; reflexivity.
      * exists CMain. unfold fire. rewrite B4. unfold fire_main. rewrite Em. eexists _, _. split; reflexivity.
      * exists CMain. unfold fire. rewrite B4. unfold fire_main. rewrite Em. destruct (existsb _ _); [destruct (crash s) as [s' l]; exists s', l|eexists _, _]; split; reflexivity.
  - pose proof (run_reach _ _ _ _ _ _ _ Hr) as Re. pose proof (inv_reach _ _ _ _ _ _ _ _ two_nodup St Re) as I.
    pose proof (AXR _ _ _ _ _ _ _ _ St Re) as [A1 A2 A3 A4].
    pose proof (iv_panic _ _ _ _ _ _ _ I) as Px. pose proof (iv_main _ _ _ _ _ _ _ I) as Mx.
    split; [assumption|]. split; [intros Hp; apply A4 in Hp; congruence|]. split; [assumption|]. split; [exact (main_two _ _ Mx)|].
    split; [intros Em; rewrite Em in Mx; exact Mx|]. split; [assumption|].
    intros C. exact (proj2 (pool_progress _ _ _ two_nodup C _ _ _ _ _ _ St Hr)).
Qed.

(** *** The exporter *)
Lemma exp_run acts y : sr 3 (DExp (x_start xstart)) acts y ->
  exists x es, y = DExp x /\ x = x_run buffer xstart es /\ got acts = map MOut (received es) /\ sent acts = [] /\ shut acts = false /\ (eof acts = true <-> x_open x = false).
Proof.
  assert (RA : forall es (e : xevent sfrec), x_open (x_run buffer xstart es) = true -> received (es ++ [e]) = received es ++ received [e]).
  { intros es e Ho. assert (N : ~ In XClose es).
    { intros Hi. apply (ExportFacts.batching buffer xstart es) in Hi. congruence. }
    clear Ho. induction es as [|[r a b|a b|] es IH]; cbn [List.app received]; [reflexivity| | |destruct N; now left].
    - rewrite IH; [reflexivity|]. intros Hi. apply N. now right.
    - apply IH. intros Hi. apply N. now right. }
  assert (RS : forall es (e : xevent sfrec), x_step buffer (x_run buffer xstart es) e = x_run buffer xstart (es ++ [e])).
  { intros es e. unfold x_run. now rewrite fold_left_app. }
  induction 1 as [|acts y a y' H IH Hs].
  - exists (x_start xstart), []. cbn. repeat split; auto; discriminate.
  - destruct IH as (x & es & -> & -> & Eg & Es & Esh & Ee). inversion Hs as [| | |x1 a1 x' D]; subst.
    rewrite got_app, sent_app, shut_app, eof_app, Eg, Es, Esh.
    inversion D as [x2 r now done Ho|x2 now done Ho|x2 Ho]; subst; rewrite RS.
    + eexists _, _. split; [reflexivity|]. split; [reflexivity|]. rewrite (RA _ _ Ho), map_app. split; [reflexivity|]. split; [reflexivity|]. split; [reflexivity|].
      destruct (ExportFacts.batching buffer xstart es) as [_ Q]. destruct (ExportFacts.batching buffer xstart (es ++ [XRec r now done])) as [_ Q'].
      rewrite orb_true_iff, Ee, Q, Q', in_app_iff. cbn. split; [intros [?|?]; [auto|discriminate]|]. intros [?|[?|[]]]; [auto|discriminate].
    + eexists _, _. split; [reflexivity|]. split; [reflexivity|]. rewrite (RA _ _ Ho), map_app. split; [reflexivity|]. split; [reflexivity|]. split; [reflexivity|].
      destruct (ExportFacts.batching buffer xstart es) as [_ Q]. destruct (ExportFacts.batching buffer xstart (es ++ [XTick now done])) as [_ Q'].
      rewrite orb_true_iff, Ee, Q, Q', in_app_iff. cbn. split; [intros [?|?]; [auto|discriminate]|]. intros [?|[?|[]]]; [auto|discriminate].
    + eexists _, _. split; [reflexivity|]. split; [reflexivity|]. rewrite (RA _ _ Ho), map_app. split; [reflexivity|]. split; [reflexivity|]. split; [reflexivity|].
      destruct (ExportFacts.batching buffer xstart (es ++ [XClose])) as [_ Q']. rewrite Q', in_app_iff. cbn. rewrite orb_true_r. split; auto.
Qed.

(** ** The pipeline *)
Variable cap : nat.
Variable fconf : gomap string.
Variable acts0 : list (DriverModel.act ReaderModel.rec).
Variable rs : list ReaderModel.rec.
Hypothesis Hacts : source_of rs acts0.
Hypothesis Hsane : SpecReader.Sane false rs.
Notation start := (cinit (app_start rd0 xstart fconf acts0)).
Notation cr := (crun stg cap start).
Lemma drv_part done l : acts0 = done ++ l -> exists rs', rs = SpecDriver.sends done ++ rs' /\
  (SpecDriver.closes done = true -> rs' = [] /\ (l = [] \/ l = [DriverModel.AWait])) /\
  (SpecDriver.closes done = false -> l = map DriverModel.ASend rs' \/ l = map DriverModel.ASend rs' ++ [DriverModel.AClose; DriverModel.AWait]).
Proof.
  clear Hsane. unfold source_of, complete in Hacts. revert rs acts0 Hacts. induction done as [|a done IH]; intros rs1 acts1 Ha E.
  - exists rs1. cbn in E. subst. cbn. split; [reflexivity|]. split; [discriminate|auto].
  - destruct rs1 as [|r rs1].
    + cbn in Ha. destruct Ha as [-> | -> ]; [discriminate|]. injection E as <- E. exists [].
      assert (SE : SpecDriver.sends done = @nil ReaderModel.rec /\ (l = [] \/ l = [DriverModel.AWait])).
      { destruct done as [|b done]; [auto|]. injection E as <- E. destruct done; [|discriminate]. cbn in E. auto. }
      destruct SE as [SE Hl]. cbn. unfold SpecDriver.sends in SE. rewrite SE. split; [reflexivity|]. split; [auto|discriminate].
    + assert (Ha' : a = DriverModel.ASend r /\ exists acts2, (acts2 = map DriverModel.ASend rs1 \/ acts2 = map DriverModel.ASend rs1 ++ [DriverModel.AClose; DriverModel.AWait]) /\ acts2 = done ++ l).
      { destruct Ha as [-> | -> ]; injection E as <- E; eauto. }
      destruct Ha' as (-> & acts2 & Ha2 & E2). destruct (IH _ _ Ha2 E2) as (rs' & -> & H1 & H2). exists rs'. split; [reflexivity|]. auto.
Qed.
Lemma sane_pre a b : SpecReader.Sane false (a ++ b) -> SpecReader.Sane false a.
Proof.
  clear. induction b as [|r b IH] using rev_ind; [now rewrite app_nil_r|]. rewrite app_assoc. intros H. apply IH. exact (ReaderFacts2.Sane_prefix _ _ _ H).
Qed.
Lemma map_inj_app {A B} (f : A -> B) (Hf : forall x y, f x = f y -> x = y) l l1 l2 : map f l = map f l1 ++ l2 -> exists l3, l = l1 ++ l3 /\ l2 = map f l3.
Proof.
  revert l. induction l1 as [|x l1 IH]; intros l H; [exists l; auto|]. destruct l as [|y l]; [discriminate|]. cbn in H. injection H as Hx H.
  apply Hf in Hx as ->. destruct (IH _ H) as (l3 & -> & ->). exists l3. auto.
Qed.
Lemma mrec_inj x y : MRec x = MRec y -> x = y. Proof. now intros [= ->]. Qed.
Lemma mflat_inj x y : MFlat x = MFlat y -> x = y. Proof. now intros [= ->]. Qed.
Lemma mout_inj x y : MOut x = MOut y -> x = y. Proof. now intros [= ->]. Qed.

(** What is known of a state without a crash. *)
Record snap := mkSnap {
  sn_done : list (DriverModel.act ReaderModel.rec); sn_l : list (DriverModel.act ReaderModel.rec); sn_rs : list ReaderModel.rec;
  sn_pc : rpc; sn_rd : ReaderModel.reader; sn_f : option (Z * fstate); sn_in : list ReaderModel.rec; sn_ds : list ReaderModel.delivery;
  sn_e : lstate (R := sfrec); sn_chs : list (lchoice sfrec); sn_tr : list (label (policies sfrec) sfrec);
  sn_x : xstate sfrec; sn_es : list (xevent sfrec) }.
Definition snap_ok (tr : list (nat * act)) (s : cstate msg dstate) (k : snap) : Prop :=
  let 'mkSnap done l rs' pc rd f rin ds e chs ltr x es := k in
  c_st s 0 = DDrv l /\ (acts0 = done ++ l /\ ~ In DriverModel.AWait done) /\ rs = SpecDriver.sends done ++ rs' /\
  (SpecDriver.closes done = true -> rs' = [] /\ (l = [] \/ l = [DriverModel.AWait])) /\
  (SpecDriver.closes done = false -> l = map DriverModel.ASend rs' \/ l = map DriverModel.ASend rs' ++ [DriverModel.AClose; DriverModel.AWait]) /\
  c_closed s 1 = SpecDriver.closes done /\
  c_st s 1 = DRead pc rd f /\ (exists q, SpecDriver.sends done = (rin ++ r_hand pc) ++ q /\ c_ch s 1 = map MRec q) /\
  ReaderModel.reader_run false ReaderModel.reader_init rin = Ok (rd, ds) /\
  c_closed s 2 = match pc with REnd => true | _ => false end /\
  (match pc with RClose | REnd => True | _ => False end -> c_ch s 1 = [] /\ c_closed s 1 = true) /\
  c_st s 2 = DEng e /\ lrun (live_start rd0) chs = (e, ltr) /\ batches chs = noted (proj 2 tr) /\
  (exists out q, taken ltr = map (fun fr => (fr, ctx_new)) out /\ c_ch s 2 = map MFlat q /\
     out ++ q ++ r_pend pc = concat (fl_out (hall (mkFlt (f_conf fconf) [[]]) (events P ds)))) /\
  (c_closed s 3 = true <-> In (LCloseOut 2) ltr) /\ (In LEof ltr -> c_ch s 2 = [] /\ c_closed s 2 = true) /\
  c_st s 3 = DExp x /\ x = x_run buffer xstart es /\ (exists q, emitted 2 ltr = received es ++ q /\ c_ch s 3 = map MOut q) /\
  (x_open x = false -> c_ch s 3 = [] /\ c_closed s 3 = true).
Lemma snapshot tr s : cr tr s -> c_crash s = false -> exists k, snap_ok tr s k.
Proof.
  intros H C. destruct (chain_inv _ _ _ _ _ H C) as [I1 I2 I3 I4 I5].
  destruct (drv_run _ _ _ (I1 0)) as (done & l & E0 & Ea & Es0 & Esh0 & Nw). destruct (drv_part _ _ Ea) as (rs' & Ers & D1 & D2).
  destruct (read_run _ _ _ (I1 1)) as (pc & rd & f & rin & ds & E1 & Eg1 & Er & Ef & Es1 & Esh1 & Ee1).
  destruct (eng_run _ _ (I1 2)) as (e & chs & ltr & E2 & Hl & Ht & Hg & He & Hsh & Heof & Hp & Hb).
  destruct (exp_run _ _ (I1 3)) as (x & es & E3 & Ex & Eg3 & Es3 & Esh3 & Ee3).
  pose proof (I2 0) as B0. pose proof (I2 1) as B1. pose proof (I2 2) as B2. pose proof (I3 0) as C0. pose proof (I3 1) as C1. pose proof (I3 2) as C2.
  pose proof (I4 0) as F0. pose proof (I4 1) as F1. pose proof (I4 2) as F2. cbn [Nat.add] in *.
  exists (mkSnap done l rs' pc rd f rin ds e chs ltr x es). cbn [snap_ok].
  split; [assumption|]. split; [auto|]. split; [assumption|]. split; [assumption|]. split; [assumption|]. split; [congruence|].
  split; [assumption|]. split. { rewrite Es0, Eg1 in B0. destruct (map_inj_app _ mrec_inj _ _ _ B0) as (q & Q1 & Q2). exists q. auto. }
  split; [assumption|]. split; [congruence|]. split. { intros Hpc. apply F0. rewrite Ee1. destruct pc; try destruct Hpc; reflexivity. }
  split; [assumption|]. split; [assumption|]. split; [assumption|]. split.
  { set (all := concat (fl_out (hall (mkFlt (f_conf fconf) [[]]) (events P ds)))) in *.
    rewrite B1, Hg, <- app_assoc in Es1. symmetry in Es1. destruct (map_inj_app _ mflat_inj _ _ _ Es1) as (q & Q1 & Q2).
    assert (Q3 : exists q1, c_ch s 2 = map MFlat q1 /\ q = q1 ++ r_pend pc).
    { clear - Q2. revert q Q2. generalize (c_ch s 2) as ch. induction ch as [|m ch IH]; intros q Q2; cbn in Q2.
      - exists []. split; [reflexivity|]. clear - Q2. revert q Q2. induction (r_pend pc) as [|y l IH]; intros [|z q] Q2; try discriminate; [reflexivity|].
        cbn in Q2. injection Q2 as -> Q2. cbn. f_equal. apply IH. exact Q2.
      - destruct q as [|z q]; [discriminate|]. cbn in Q2. injection Q2 as -> Q2. destruct (IH _ Q2) as (q1 & -> & ->). exists (z :: q1). auto. }
    destruct Q3 as (q1 & Q3 & ->). exists (flats (got (proj 2 tr))), q1. auto. }
  split. { rewrite C2. exact Hsh. }
  split. { intros Hi. apply F1. apply Heof. exact Hi. }
  split; [assumption|]. split; [assumption|]. split.
  { rewrite He, Eg3 in B2. destruct (map_inj_app _ mout_inj _ _ _ B2) as (q & Q1 & Q2). exists q. auto. }
  intros Ho. apply F2. apply Ee3. exact Ho.
Qed.
Lemma closed_two (ltr : list (label (policies sfrec) sfrec)) (st : list nat) : rev (closed_outs ltr) = st -> In (LCloseOut 2) ltr -> In 2 st.
Proof. intros <- H. apply -> in_rev. apply in_flat_map. exists (LCloseOut 2 : label (policies sfrec) sfrec). cbn. auto. Qed.
Lemma app_safe tr s : cr tr s -> c_crash s = false.
Proof.
  apply chain_safe. clear tr s. intros tr s i a x H C St. destruct (snapshot _ _ H C) as (k & K).
  destruct k as [done l rs' pc rd f rin ds e chs ltr xx es].
  destruct K as (E0 & Ea & Ers & D1 & D2 & C1 & E1 & (q1 & Q1 & Q1') & Er & C2 & F1 & E2 & Hl & Hb & Ho & C3 & F2 & E3 & Ex & Hq & F3).
  assert (Sn0 : SpecReader.Sane false (SpecDriver.sends done ++ rs')) by (rewrite <- Ers; exact Hsane). clear Ers Ea.
  inversion St as [l1 a1 l' D Ei|pc1 rd1 f1 a1 pc' rd' f' D Ei|s1 ch s' ls D Hfr Ei|x1 a1 x' D Ei]; subst i; cbn [Nat.add].
  - rewrite E0 in *. match goal with Hx : DDrv _ = DDrv _ |- _ => injection Hx as -> end. rewrite C1.
    split; [inversion D; discriminate|]. intros Cl. destruct (D1 Cl) as [_ [-> | -> ]]; inversion D.
  - rewrite E1 in *. match goal with Hx : DRead _ _ _ = DRead _ _ _ |- _ => injection Hx as -> -> -> end. rewrite C2. split.
    + intros ->. inversion D as [| | |r rd2 f2 Hn| | |]; subst. cbn [r_hand] in Q1.
      assert (Sn : SpecReader.Sane false (rin ++ [r])).
      { apply (sane_pre _ (q1 ++ rs')). rewrite app_assoc, <- Q1. exact Sn0. }
      destruct (ReaderFacts2.reader_total _ _ Sn) as (st & d & R). rewrite ReaderFacts2.reader_run_app, Er in R. cbn [rbind ReaderModel.reader_run] in R.
      match type of Hn with forall x, ?t <> _ => destruct t as [y| | |] eqn:Es end; try discriminate. exact (Hn y eq_refl).
    + intros Hpc. destruct pc; try discriminate. inversion D.
  - rewrite E2 in *. match goal with Hx : DEng _ = DEng _ |- _ => injection Hx as -> end.
    destruct e as [es0 pol]. destruct (eng_state _ _ _ _ Hl) as (Px & Np & Cx & Mx & _ & _).
    assert (Hl2 : exists s2 pol2, lrun (live_start rd0) (chs ++ [ch]) = ((s2, pol2), ltr ++ ls)).
    { destruct s' as [s2 pol2]. exists s2, pol2. exact (live_run_snoc _ _ _ _ _ _ _ Hl D). }
    destruct Hl2 as (s2 & pol2 & Hl2). destruct (eng_state _ _ _ _ Hl2) as (_ & Np2 & _).
    pose proof (lstep_inv _ _ _ _ D) as Q. split.
    + intros Ea1. apply Np2. apply in_or_app. right. destruct ch as [c|]; [|discriminate].
      destruct Q as (y & -> & F & _). destruct c as [[r|]|b| |g w|p]; try discriminate; destruct y as [| | | |[|[|[|k]]] r0| | | | |[|[|[|k]]]| |]; try discriminate; now left.
    + intros Cl. apply C3 in Cl. pose proof (closed_two _ _ Cx Cl) as In2.
      assert (Q2 : (exists r, ls = [LEmit 2 r]) \/ ls = [LCloseOut 2] -> False).
      { intros QQ. destruct ch as [c|].
        - destruct Q as (y & -> & F & _). cbn [fst] in F. destruct QQ as [(r & QQ)|QQ]; injection QQ as ->.
          + exact (emit_two _ _ _ _ _ F In2).
          + destruct (fire_close _ _ _ _ _ _ _ F) as (_ & _ & Hn). exact (Hn In2).
        - destruct Q as (Fp & _). destruct QQ as [(r & ->)| ->]; inversion Fp as [|? ? Hx]; destruct Hx. }
      split; [intros Ec|intros m Ec]; apply Q2; (destruct ch as [c|]; [|discriminate]); destruct Q as (y & -> & F & _);
        destruct c as [[r|]|b| |g w|p]; try discriminate; destruct y as [| | | |[|[|[|k]]] r0| | | | |[|[|[|k]]]| |]; try discriminate; eauto.
  - split; [inversion D; discriminate|]. intros _. split; [|intros m]; inversion D; discriminate.
Qed.
Lemma app_done tr s x : (forall n, (clk n <= clk (S n))%Z) -> cr tr s -> c_st s 3 = DExp x -> x_open x = false ->
  exists ds out chs e pol ltr es, Joined rs ds /\ Passed ipstr jsonsvcs hash fconf (events P ds) out /\
    lrun (live_start rd0) chs = ((e, pol), ltr) /\ finished e /\ taken ltr = map (fun fr => (fr, ctx_new)) out /\
    concat (x_batches x) = emitted 2 ltr /\ x = x_run buffer xstart es /\ batches chs = noted (proj 2 tr) /\
    (exists e', c_st s 2 = DEng e' /\ (s_main (fst e') = MClose [] \/ s_main (fst e') = MEnd)) /\ (exists rd f, c_st s 1 = DRead REnd rd f) /\
    c_st s 0 = DDrv [DriverModel.AWait].
Proof.
  intros Mono H Ex Hx. pose proof (app_safe _ _ H) as C. destruct (snapshot _ _ H C) as (k & K).
  destruct k as [done l rs' pc rd f rin ds [e pol] chs ltr xx es].
  destruct K as (E0 & (Ea & Nw) & Ers & D1 & D2 & C1 & E1 & (q1 & Q1 & Q1') & Er & C2 & F1 & E2 & Hl & Hb & (out & q & Ht & Hq & Eo) & C3 & F2 & E3 & Exx & (qx & Hqx & Hqx') & F3).
  rewrite E3 in Ex. injection Ex as ->. destruct (F3 Hx) as [G1 G2]. apply C3 in G2.
  destruct (eng_state _ _ _ _ Hl) as (Px & Np & Cx & Mx & _ & Eof & _). pose proof (closed_two _ _ Cx G2) as In2.
  destruct Mx as [Mx|[_ Mx]]; [rewrite Mx in In2; destruct In2|].
  assert (Ie : In LEof ltr) by (apply Eof; destruct Mx as [-> | -> ]; reflexivity).
  destruct (F2 Ie) as [G3 G4]. rewrite C2 in G4. destruct pc; try discriminate. destruct (F1 I) as [G5 G6]. rewrite C1 in G6. destruct (D1 G6) as [-> Hlw].
  rewrite G5 in Q1'. destruct q1; [|discriminate]. cbn [r_hand] in Q1. rewrite !app_nil_r in *. subst rin. rewrite <- Ers in Er.
  rewrite G3 in Hq. destruct q; [|discriminate]. cbn [r_pend] in Eo. rewrite !app_nil_r in Eo.
  rewrite G1 in Hqx'. destruct qx; [|discriminate]. rewrite app_nil_r in Hqx.
  assert (El : l = [DriverModel.AWait]).
  { destruct Hlw as [-> | -> ]; [|reflexivity]. exfalso. rewrite app_nil_r in Ea. subst done. destruct Hacts as [A|A]; rewrite A in *.
    - clear - G6. induction rs; [discriminate|auto].
    - apply Nw. unfold complete. rewrite in_app_iff. cbn. auto. }
  assert (Bt : concat (x_batches x) = emitted 2 ltr).
  { destruct (ExportFacts.batching buffer xstart es) as [B1 _]. rewrite <- Exx, Hx, app_nil_r in B1. congruence. }
  assert (Hfin : exists chs' e' ltr', lrun (live_start rd0) chs' = ((e', pol), ltr') /\ finished e' /\ taken ltr' = taken ltr /\ emitted 2 ltr' = emitted 2 ltr /\ batches chs' = batches chs).
  { destruct Mx as [Mx|Mx]; [|exists chs, e, ltr; auto].
    assert (Es : eng_step X Mp pmatch ord fuel ah rd0 (e, pol) (LCh CMain) = Some ((set_main e MEnd, pol), [LTau])).
    { unfold eng_step, live_step, fire. cbn [fst snd]. unfold policies in *. rewrite Px. unfold fire_main. rewrite Mx. reflexivity. }
    exists (chs ++ [LCh CMain]), (set_main e MEnd), (ltr ++ [LTau]). split; [exact (live_run_snoc _ _ _ _ _ _ _ Hl Es)|].
    split; [reflexivity|]. rewrite taken_app, emitted_app. cbn. rewrite !app_nil_r. unfold batches. rewrite flat_map_app. cbn. rewrite app_nil_r. auto. }
  destruct Hfin as (chs' & e' & ltr' & Hl' & Hfin & T1 & T2 & T3).
  exists ds, out, chs', e', pol, ltr', es. split; [exact (joined_run _ _ _ Er)|]. split; [rewrite Eo; unfold f_conf; apply passed, Mono|].
  split; [exact Hl'|]. split; [exact Hfin|]. split; [congruence|]. split; [congruence|]. split; [exact Exx|]. split; [congruence|].
  split; [exists (e, pol); auto|]. split; [eauto|]. congruence.
Qed.

(** ** Progress and termination *)
Lemma eng_moves s e : c_crash s = false -> c_st s 2 = DEng e -> c_closed s 3 = false -> length (c_ch s 3) < cap ->
  forall c s' l, goes_on c = true -> lfire (fst e) c = Some (s', l) -> exists ia s2, working ia /\ cstep stg cap s ia s2.
Proof.
  intros C E Cl Ln c s' l G F.
  assert (Es : eng_step X Mp pmatch ord fuel ah rd0 e (LCh c) = Some ((s', snd e), [l])).
  { unfold eng_step, live_step. destruct c; try discriminate;
      (match goal with |- match ?t with _ => _ end = _ => replace t with (Some (s', l)) by (symmetry; exact F) end; reflexivity). }
  assert (St : stg 2 (c_st s 2) (eng_act (LCh c) [l]) (DEng (s', snd e))).
  { rewrite E. constructor; [exact Es|]. intros r Er. injection Er as ->. discriminate. }
  assert (W : working (2, eng_act (LCh c) [l])).
  { split; [discriminate|]. intros h. cbn [snd]. destruct c; try discriminate; destruct l as [| | | |[|[|[|k]]] r0| | | | |[|[|[|k]]]| |]; discriminate. }
  exists (2, eng_act (LCh c) [l]).
  assert (Q : (exists m, eng_act (LCh c) [l] = TOut m) \/ eng_act (LCh c) [l] = TClose \/ eng_act (LCh c) [l] = TPanic \/ eng_act (LCh c) [l] = TStep None).
  { destruct c; try discriminate; destruct l as [| | | |[|[|[|k]]] r0| | | | |[|[|[|k]]]| |]; cbn; eauto. }
  destruct Q as [(m & Q)|[Q|[Q|Q]]]; rewrite Q in *; eexists; (split; [exact W|]).
  - eapply cs_out; eauto.
  - eapply cs_close; eauto.
  - eapply cs_crash; eauto.
  - eapply cs_step; eauto.
Qed.
Lemma app_progress tr s : 0 < cap -> 0 < conc -> acts0 = complete rs -> cr tr s ->
  all_done s \/ exists ia s2, working ia /\ cstep stg cap s ia s2.
Proof.
  intros Hcap Hconc Hfull H. pose proof (app_safe _ _ H) as C. destruct (snapshot _ _ H C) as (k & K).
  destruct k as [done l rs' pc rd f rin ds [e pol] chs ltr x es].
  destruct K as (E0 & (Ea & Nw) & Ers & D1 & D2 & C1 & E1 & (q1 & Q1 & Q1') & Er & C2 & F1 & E2 & Hl & Hb & (out & q & Ht & Hq & Eo) & C3 & F2 & E3 & Exx & (qx & Hqx & Hqx') & F3).
  destruct (eng_state _ _ _ _ Hl) as (Px & Np & Cx & Mx & Mend & Eof & Pr).
  assert (W3 : forall i a, i <> 3 -> (forall h, a <> TStep (Some h)) -> working (i, a)) by (intros i a Hi Ha; split; [congruence|exact Ha]).
  destruct (x_open x) eqn:Ho.
  2:{ destruct (F3 eq_refl) as [G1 G2]. pose proof (proj1 C3 G2) as G2'. pose proof (closed_two _ _ Cx G2') as In2.
      destruct Mx as [Mx|[_ [Mx|Mx]]]; [rewrite Mx in In2; destruct In2| |].
      - right. assert (Es : eng_step X Mp pmatch ord fuel ah rd0 (e, pol) (LCh CMain) = Some ((set_main e MEnd, pol), [LTau])).
        { unfold eng_step, live_step, fire. cbn [fst snd]. unfold policies in *. rewrite Px. unfold fire_main. rewrite Mx. reflexivity. }
        exists (2, TStep None). eexists. split; [apply W3; discriminate|]. apply cs_step; [exact C|]. rewrite E2. exact (as_eng _ _ _ _ _ _ _ _ _ _ _ _ _ _ (LCh CMain) _ _ Es ltac:(discriminate)).
      - left. assert (Ie : In LEof ltr) by (apply Eof; rewrite Mx; reflexivity).
        destruct (F2 Ie) as [G3 G4]. rewrite C2 in G4. destruct pc; try discriminate. destruct (F1 I) as [G5 G6]. rewrite C1 in G6. destruct (D1 G6) as [-> Hlw].
        split; [|split; [eauto|split; [exists (e, pol); auto|exists x; split; assumption]]].
        destruct Hlw as [-> | -> ]; [|assumption]. exfalso. rewrite app_nil_r in Ea. apply Nw. rewrite <- Ea, Hfull. unfold complete. rewrite in_app_iff. cbn. auto. }
  right. destruct (c_ch s 3) as [|m q3] eqn:Ech3.
  2:{ destruct qx as [|r qx]; [discriminate|]. cbn in Hqx'. injection Hqx' as -> _. exists (3, TIn (Some (MOut r))). eexists. split; [split; discriminate|].
      eapply cs_in; [exact C| |exact Ech3]. rewrite E3. constructor. apply (xa_rec buffer x r 0%Z 0%Z Ho). }
  destruct (c_closed s 3) eqn:Ecl3.
  1:{ exists (3, TIn None). eexists. split; [split; discriminate|]. eapply cs_eof; [exact C| |exact Ech3|exact Ecl3]. rewrite E3. constructor. apply (xa_close buffer x Ho). }
  assert (Ln3 : length (c_ch s 3) < cap) by (rewrite Ech3; exact Hcap).
  destruct (Pr Hconc) as [Hfin|[Em|(c & s' & lb & G & F)]].
  { exfalso. apply Mend in Hfin. rewrite Hfin in Cx. assert (In (LCloseOut 2) ltr); [|rewrite <- C3 in *; congruence].
    assert (I2 : In 2 (closed_outs ltr)) by (apply in_rev; rewrite Cx; now left). apply in_flat_map in I2 as (y & Hy & I2).
    destruct y; cbn in I2; try tauto. destruct I2 as [->|[]]. exact Hy. }
  2:{ exact (eng_moves s (e, pol) C E2 Ecl3 Ln3 c s' lb G F). }
  assert (Rin : forall i, (forall r, i = Some r -> snd r = ctx_new) -> exists s', eng_step X Mp pmatch ord fuel ah rd0 (e, pol) (LCh (CInput i)) = Some (s', [match i with Some r => LTake r | None => LEof end])).
  { intros i _. unfold eng_step, live_step, fire. cbn [fst snd]. unfold policies in *. rewrite Px. unfold fire_main. rewrite Em. destruct i; eauto. }
  destruct (c_ch s 2) as [|m q2] eqn:Ech2.
  2:{ destruct q as [|fr q]; [discriminate|]. cbn in Hq. injection Hq as -> _. destruct (Rin (Some (fr, ctx_new))) as (s' & Es). { now intros r [= <-]. }
      exists (2, TIn (Some (MFlat fr))). eexists. split; [apply W3; discriminate|]. eapply cs_in; [exact C| |exact Ech2]. rewrite E2.
      exact (as_eng _ _ _ _ _ _ _ _ _ _ _ _ _ _ _ _ _ Es ltac:(now intros r [= <-])). }
  destruct (c_closed s 2) eqn:Ecl2.
  1:{ destruct (Rin None) as (s' & Es); [discriminate|].
      exists (2, TIn None). eexists. split; [apply W3; discriminate|]. eapply cs_eof; [exact C| |exact Ech2|exact Ecl2]. rewrite E2.
      exact (as_eng _ _ _ _ _ _ _ _ _ _ _ _ _ _ _ _ _ Es ltac:(discriminate)). }
  assert (Ln2 : length (c_ch s 2) < cap) by (rewrite Ech2; exact Hcap).
  destruct pc as [|r|[|fr lf]| |]; try discriminate.
  - destruct (c_ch s 1) as [|m q1'] eqn:Ech1.
    2:{ destruct q1 as [|r q1]; [discriminate|]. cbn in Q1'. injection Q1' as -> _. exists (1, TIn (Some (MRec r))). eexists. split; [apply W3; discriminate|].
        eapply cs_in; [exact C| |exact Ech1]. rewrite E1. constructor. constructor. }
    destruct (c_closed s 1) eqn:Ecl1.
    1:{ exists (1, TIn None). eexists. split; [apply W3; discriminate|]. eapply cs_eof; [exact C| |exact Ech1|exact Ecl1]. rewrite E1. constructor. constructor. }
    assert (Ln1 : length (c_ch s 1) < cap) by (rewrite Ech1; exact Hcap).
    assert (El : l = map DriverModel.ASend rs' ++ [DriverModel.AClose; DriverModel.AWait]).
    { symmetry in C1. destruct (D2 C1) as [El|El]; [|exact El]. exfalso.
      assert (Q : SpecDriver.closes acts0 = true) by (rewrite Hfull; unfold SpecDriver.closes, complete; rewrite existsb_app; cbn; apply orb_true_r).
      rewrite Ea in Q. unfold SpecDriver.closes in *. rewrite existsb_app, C1, El in Q. cbn in Q. clear - Q. induction rs'; [discriminate|auto]. }
    destruct rs' as [|r rs'].
    + exists (0, TClose). eexists. split; [apply W3; discriminate|]. eapply cs_close; [exact C| |exact Ecl1]. rewrite E0, El. constructor. constructor.
    + exists (0, TOut (MRec r)). eexists. split; [apply W3; discriminate|]. eapply cs_out; [exact C| |exact Ecl1|exact Ln1]. rewrite E0, El. constructor. constructor.
  - destruct (ReaderModel.reader_step false rd r) as [[rd' ds']| | |] eqn:Er1.
    1:{ exists (1, TStep None). eexists. split; [apply W3; discriminate|]. eapply cs_step; [exact C|]. rewrite E1. constructor. eapply ra_handle; [exact Er1|reflexivity]. }
    all: exists (1, TPanic); eexists; (split; [apply W3; discriminate|]); eapply cs_crash; [exact C|rewrite E1; constructor; constructor; congruence|now left].
  - exists (1, TStep None). eexists. split; [apply W3; discriminate|]. eapply cs_step; [exact C|]. rewrite E1. constructor. constructor.
  - exists (1, TOut (MFlat fr)). eexists. split; [apply W3; discriminate|]. eapply cs_out; [exact C| |exact Ecl2|exact Ln2]. rewrite E1. constructor. constructor.
  - exists (1, TClose). eexists. split; [apply W3; discriminate|]. eapply cs_close; [exact C| |exact Ecl2]. rewrite E1. constructor. constructor.
Qed.

Definition mA (s : cstate msg dstate) : nat :=
  4 * (match c_st s 0 with DDrv l => length l | _ => 0 end) + 2 * length (c_ch s 1) + match c_st s 1 with DRead (RGot _) _ _ => 1 | _ => 0 end.
Definition mB (s : cstate msg dstate) : nat :=
  length (c_ch s 2) + match c_st s 1 with DRead (RSend l) _ _ => 3 + 2 * length l | DRead RIdle _ _ => 2 | DRead RClose _ _ => 1 | _ => 0 end.
Definition mC (s : cstate msg dstate) : nat := match c_st s 2 with DEng e => mu conc [2] (fst e) | _ => 0 end.
Definition mD (s : cstate msg dstate) : nat := 2 * length (c_ch s 3) + match c_st s 3 with DExp x => if x_open x then 1 else 0 | _ => 0 end.
Definition below (s' s : cstate msg dstate) : Prop :=
  mA s' < mA s \/ mA s' = mA s /\ (mB s' < mB s \/ mB s' = mB s /\ (mC s' < mC s \/ mC s' = mC s /\ mD s' < mD s)).
Lemma below_wf : forall a b c d s, mA s = a -> mB s = b -> mC s = c -> mD s = d -> Acc below s.
Proof.
  induction a as [a IHa] using lt_wf_ind. induction b as [b IHb] using lt_wf_ind. induction c as [c IHc] using lt_wf_ind. induction d as [d IHd] using lt_wf_ind.
  intros s Ha Hb Hc Hd. constructor. intros s' [H|[H1 [H|[H2 [H|[H3 H]]]]]]; subst.
  - eapply IHa; eauto.
  - eapply IHb; eauto.
  - eapply IHc; eauto.
  - eapply IHd; eauto.
Qed.
Lemma eng_mu e ch e' ls : eng_step X Mp pmatch ord fuel ah rd0 e ch = Some (e', ls) -> (forall m, eng_act ch ls <> TIn (Some m)) -> (forall h, eng_act ch ls <> TStep (Some h)) ->
  mu conc [2] (fst e') < mu conc [2] (fst e).
Proof.
  intros D N1 N2. pose proof (lstep_inv _ _ _ _ D) as Q. destruct ch as [c|evs v paths h]; [|destruct (N2 h eq_refl)].
  destruct Q as (l & -> & F & Np). apply (mu_step proc conc [2] (fst e) c (fst e') l); [|exact F].
  destruct c as [[r|]|b| |g w|p]; try reflexivity; [destruct (N1 (MFlat (fst r)) eq_refl)|destruct (Np p eq_refl)].
Qed.
Ltac crunch D Ch := inversion D; subst; cbn [length]; rewrite ?app_length, ?Ch; cbn [length]; lia.
Lemma work_below s ia s' : working ia -> cstep stg cap s ia s' -> c_crash s' = true \/ below s' s.
Proof.
  intros [W1 W2] Hs. unfold below.
  inversion Hs as [i m q x C St Ch|i x C St Ch Cl|i m x C St Cl Len|i x C St Cl|i n x C St|i a x C St Hc]; subst; [right|right|right|right|right|left; reflexivity].
  all: inversion St as [l1 a1 l' D Ei E1 E2 E3|pc1 rd1 f1 a1 pc' rd' f' D Ei E1 E2 E3|e ch e' ls D Hfr Ei E1 E2 E3|x1 a1 x' D Ei E1 E2 E3]; subst.
  all: try (unfold mA, mB, mC, mD; cbn [Nat.add c_st c_ch c_closed set Nat.eqb]; rewrite <- ?E1; inversion D; subst; cbn [length]; rewrite ?app_length, ?Ch; cbn [length]; lia).
  all: try (assert (M : mu conc [2] (fst e') < mu conc [2] (fst e)) by (apply (eng_mu _ _ _ _ D); intros y; [congruence|intros Y; apply (W2 y); cbn [snd]; congruence])).
  all: try (right; split; [unfold mA; cbn; reflexivity|]; right; split; [unfold mB; cbn; reflexivity|]; left; unfold mC; cbn; rewrite <- E1; exact M).
  - right. split; [reflexivity|]. right. split; [reflexivity|]. right. split; [reflexivity|]. unfold mD. cbn [c_ch c_st set Nat.eqb]. rewrite Ch, <- E1. cbn [length].
    destruct (x_open x'), (x_open x1); lia.
  - right. split; [reflexivity|]. right. split; [reflexivity|]. right. split; [reflexivity|]. unfold mD. cbn [c_ch c_st set Nat.eqb]. rewrite <- E1.
    inversion D as [| |y Ho]; subst. rewrite Ho. unfold x_step. rewrite Ho. cbn. lia.
  - inversion D; subst. destruct W1. reflexivity.
Qed.
Lemma app_terminates s : Acc (fun s2 s1 => exists ia, working ia /\ cstep stg cap s1 ia s2) s.
Proof.
  assert (A : Acc below s) by (eapply below_wf; reflexivity). induction A as [s _ IH]. constructor. intros s2 (ia & W & Hs).
  destruct (work_below _ _ _ W Hs) as [Cr|B]; [|exact (IH _ B)]. constructor. intros s3 (ib & _ & Hs3). inversion Hs3; congruence.
Qed.
Lemma shown_noted tr : shown tr = noted (map snd tr).
Proof. unfold shown, noted. induction tr as [|[i a] tr IH]; [reflexivity|]. cbn. now rewrite IH. Qed.
Lemma notes_proj tr s : cr tr s -> shown tr = noted (proj 2 tr).
Proof.
  rewrite shown_noted.
  induction 1 as [|tr s [i a] s' H IH Hs]; [reflexivity|]. rewrite map_app, proj_app, !noted_app, IH. f_equal. rewrite proj_one. cbn [map snd].
  destruct (Nat.eqb_spec i 2) as [->|Hn]; [reflexivity|].
  assert (St : exists x, stg i (c_st s i) a x) by (inversion Hs; eauto). destruct St as [x St].
  inversion St as [l1 a1 l' D|pc1 rd1 f1 a1 pc' rd' f' D|e ch e' ls D Hfr|x1 a1 x' D]; subst; try congruence; inversion D; subst; reflexivity.
Qed.
Lemma app_completes tr s : 0 < cap -> 0 < conc -> acts0 = complete rs -> cr tr s ->
  exists tr' s', cr (tr ++ tr') s' /\ all_done s' /\ Forall working tr'.
Proof.
  intros H1 H2 H3. revert tr. induction (app_terminates s) as [s _ IH]. intros tr H.
  destruct (app_progress tr s H1 H2 H3 H) as [D|(ia & s2 & W & Hs)].
  - exists [], s. rewrite app_nil_r. auto.
  - destruct (IH s2 (ex_intro _ ia (conj W Hs)) (tr ++ [ia]) (cr_snoc _ _ _ _ _ _ _ H Hs)) as (tr' & s' & H' & D & F).
    exists (ia :: tr'), s'. rewrite <- app_assoc in H'. auto.
Qed.
End App.

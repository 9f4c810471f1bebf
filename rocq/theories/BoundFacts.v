(** * BoundFacts: lemmas on what a running pipeline holds. *)
From Verif Require ReaderModel DriverModel SpecReader.
From Verif Require Import GoBase Predicates FlatRecord SigmaModel EngineModel EngineFlat PoolModel SpecPool PoolFacts PoolFacts2 PoolFacts3 PoolFacts4 MonitorModel InitModel LiveFacts
  FlattenModel ExportModel ExportFacts AppModel ChainModel SpecChain ChainFacts SpecRest SpecBound.
From Coq Require Import Lia.
Local Open Scope nat_scope.

(** ** The pool *)
Section Pool.
Context {P R : Type}.
Variables (proc : P -> R -> option R) (conc : nat) (outCh : list nat).
Lemma sum_le_len {A} (f : A -> nat) l : (forall x, f x <= 1) -> list_sum (map f l) <= length l.
Proof. intros H. induction l as [|x l IH]; [apply le_n|]. change (f x + list_sum (map f l) <= S (length l)). specialize (H x). lia. Qed.
Lemma dead_holds (pl : pool P R) : dead pl -> pool_holds pl = 0.
Proof.
  intros (_ & B & G). unfold pool_holds. rewrite B. cbn [length Nat.add].
  induction G as [|w ws Hw G IH]; [reflexivity|]. subst w. exact IH.
Qed.
Lemma sum_dead (f : pool P R -> nat) l : (forall pl, dead pl -> f pl = 0) -> Forall dead l -> list_sum (map f l) = 0.
Proof. intros H F. induction F as [|pl l D F IH]; [reflexivity|]. change (f pl + list_sum (map f l) = 0). rewrite (H _ D), IH. reflexivity. Qed.
Lemma dead_workers (pl : pool P R) : dead pl -> list_sum (map (fun w => match w with WGone => 0 | _ => 1 end) (pl_ws pl)) = 0.
Proof. intros (_ & _ & G). induction G as [|w ws Hw G IH]; [reflexivity|]. subst w. exact IH. Qed.
Lemma inv_bound p0 q0 s tr : inv proc conc outCh p0 q0 s tr -> engine_holds s <= 1 + 2 * conc /\ workers s <= conc.
Proof.
  intros I. destruct (iv_pools _ _ _ _ _ _ _ I) as (old & pl & E & _ & D & (WL & _ & WB & _) & _).
  unfold engine_holds, workers. rewrite E, !map_app, !list_sum_app.
  rewrite (sum_dead pool_holds old dead_holds D).
  rewrite (sum_dead (fun pl => list_sum (map (fun w => match w with WGone => 0 | _ => 1 end) (pl_ws pl))) old dead_workers D).
  
  assert (One : forall f : pool P R -> nat, list_sum (map f [pl]) = f pl) by (intros f; apply Nat.add_0_r).
  rewrite !One. cbn [Nat.add].
  assert (H1 : list_sum (map worker_holds (pl_ws pl)) <= conc) by (rewrite <- WL; apply sum_le_len; intros []; cbn; lia).
  assert (H2 : list_sum (map (fun w : @wst R => match w with WGone => 0 | _ => 1 end) (pl_ws pl)) <= conc) by (rewrite <- WL; apply sum_le_len; intros []; cbn; lia).
  unfold pool_holds. split; [|exact H2].
  assert (main_holds (s_main s) <= 1) by (destruct (s_main s); cbn; lia). lia.
Qed.
Lemma binv_bound s tr : binv outCh s tr -> engine_holds (P := P) (R := R) s <= 1 /\ workers s = 0.
Proof.
  intros [B1 B2 _ _ _ _ _ _]. unfold engine_holds, workers. rewrite B2. split; [|reflexivity].
  destruct (s_main s); cbn; lia.
Qed.
End Pool.

(** ** The channels *)
Section Chan.
Context {M N S : Type}.
Variable stage : nat -> S -> sact M N -> S -> Prop.
Variable cap : nat.
Lemma chan_bound x0 tr s : crun stage cap (cinit x0) tr s -> forall i, length (c_ch s i) <= cap.
Proof.
  intros H; induction H as [|tr s ia s' H IH St]; [intros i; apply Nat.le_0_l|].
  inversion St; subst; cbn [c_ch]; intros j; try apply IH.
  - unfold set. destruct (Nat.eqb_spec i j) as [->|Nj]; [|apply IH]. specialize (IH j).
    match goal with E : c_ch s j = _ :: _ |- _ => rewrite E in IH end. cbn [length] in IH. lia.
  - unfold set. destruct (Nat.eqb_spec (i + 1) j) as [<-|Nj]; [|apply IH]. rewrite app_length. cbn [length]. lia.
Qed.
End Chan.

(** ** The reader *)
Lemma step_one r rd rd' ds : ReaderModel.reader_step false rd r = Ok (rd', ds) -> length ds <= 1.
Proof.
  destruct r; cbn [ReaderModel.reader_step]; intros H; try (injection H as <- <-; cbn; lia).
  - destruct (ReaderModel.set_proc _ _ _); cbn [rbind] in H; try discriminate H. injection H as <- <-. cbn; lia.
  - destruct (ReaderModel.pod_cont_proc _ _) as [[t1 [[[pd c] p] l]]| | |]; cbn [rbind] in H; try discriminate H. injection H as <- <-. cbn; lia.
  - destruct (ReaderModel.pod_cont_proc _ _) as [[t1 [[[pd c] p] l]]| | |]; cbn [rbind] in H; try discriminate H. injection H as <- <-. cbn; lia.
  - destruct (ReaderModel.pod_cont_proc _ _) as [[t1 [[[pd c] p] l]]| | |]; cbn [rbind] in H; try discriminate H. injection H as <- <-. cbn; lia.
  - destruct (ReaderModel.pod_cont_proc _ _) as [[t1 [[[pd c] p] l]]| | |]; cbn [rbind] in H; try discriminate H. injection H as <- <-. cbn; lia.
Qed.
Lemma events_one P ds : length ds <= 1 -> length (events P ds) <= 1.
Proof.
  destruct ds as [|d [|e ds]]; cbn [length]; intros H; [cbn; lia| |lia].
  unfold events. cbn [flat_map]. rewrite app_nil_r. destruct (c_event _ _); cbn; lia.
Qed.
Lemma out_one clk ipstr jsonsvcs hash f l : length l <= 1 -> length (concat (fl_out (handle_all clk ipstr jsonsvcs hash (mkFlt f [[]]) l))) <= 1.
Proof.
  destruct l as [|[x e] [|y l]]; cbn [length]; intros H; [cbn; lia| |lia].
  unfold handle_all. cbn [fold_left]. unfold handle. cbn [snd fst fl_filter fl_out].
  assert (K : forall f' fr (b : bool), length (concat (fl_out (mkFlt f' (if b then [[]] else send_all fr [[]])))) <= 1) by (intros f' fr []; cbn; lia).
  destruct e; try exact (K f _ false); destruct f as [[ttl f]|]; try exact (K None _ false);
    destruct (test_and_add _ _ _ _) as [f' b]; apply K.
Qed.

(** ** The pipeline *)
Lemma nd_two : NoDup [2]. Proof. repeat constructor; cbn; tauto. Qed.
Section App.
Variable P : payloads.
Variables (clk : nat -> Z) (ipstr : Z -> string) (jsonsvcs : list service -> string) (hash : flatrec -> Z).
Variables (X : sfgo_fns) (Mp : gomap fieldmap) (pmatch : string -> string -> bool) (ord : srule -> list nat -> list (string * search)) (fuel : nat).
Variable ah : ahandler sfrec.
Variable rd0 : ready sfrec.
Variables (buffer xstart : Z) (cap : nat).
Notation stg := (app_stage P clk ipstr jsonsvcs hash X Mp pmatch ord fuel ah rd0 buffer).
Notation conc := (Z.to_nat (c_concurrency (rd_conf rd0))).

Lemma read_bound conf acts0 tr s : crun stg cap (cinit (app_start rd0 xstart conf acts0)) tr s ->
  exists pc rd f, c_st s 1 = DRead pc rd f /\ reader_holds pc <= 1.
Proof.
  intros H; induction H as [|tr s ia s' H IH St].
  - eexists _, _, _. split; [reflexivity|]. cbn; lia.
  - destruct IH as (pc & rd & f & E & B).
    assert (K : forall i a x, stg i (c_st s i) a x -> exists pc rd f, set (c_st s) i x 1 = DRead pc rd f /\ reader_holds pc <= 1).
    { intros i a x Hs. unfold set. destruct (Nat.eqb_spec i 1) as [->|Ni]; [|eauto 6].
      rewrite E in Hs. inversion Hs as [|pc0 rd1 f0 a0 pc' rd' f' D| |]; subst.
      eexists _, _, _. split; [reflexivity|].
      inversion D; subst; cbn [reader_holds] in *; try lia.
      - eapply out_one, events_one, step_one. eassumption.
      - cbn [length] in B. lia. }
    inversion St; subst; cbn [c_st]; eauto 6.
Qed.
Lemma held_bound es : length (held (x_run (R := sfrec) buffer xstart es)) <= Z.to_nat (buffer - 1).
Proof.
  destruct (run_good (R := sfrec) buffer xstart es) as [G _]. unfold held.
  destruct (x_open _); [|apply Nat.le_0_l]. destruct (G eq_refl) as [A B]. lia.
Qed.
Lemma flight_bound conf acts0 rs tr s : source_of rs acts0 -> SpecReader.Sane false rs -> app_run_to P clk ipstr jsonsvcs hash X Mp pmatch ord fuel ah rd0 buffer xstart cap conf acts0 tr s ->
  in_flight s <= 3 * cap + 1 + (1 + 2 * conc) + Z.to_nat (buffer - 1) /\
  exists e, c_st s 2 = DEng e /\ workers (fst e) <= conc.
Proof.
  intros A Sn H. unfold app_run_to in H.
  pose proof (chan_bound _ _ _ _ _ H) as Ch. destruct (read_bound _ _ _ _ H) as (pc & rd & f & E1 & B1).
  assert (Cr : c_crash s = false) by (eapply app_safe; eauto).
  edestruct (snapshot P clk ipstr jsonsvcs hash X Mp pmatch ord fuel ah rd0 buffer xstart cap conf acts0 rs A tr s H Cr) as (k & K).
  destruct k as [done l rs' pc' rd' f' rin ds e chs ltr x es]. cbn [snap_ok] in K.
  destruct K as (_ & _ & _ & _ & _ & _ & _ & _ & _ & _ & _ & E2 & Hl & _ & _ & _ & _ & E3 & Ex & _).
  assert (B2 : engine_holds (fst e) <= 1 + 2 * conc /\ workers (fst e) <= conc).
  { destruct e as [s0 pol]. unfold live_start in Hl.
    destruct (live_projects _ _ _ _ _ _ _ _ _ _ _ _ _ _ Hl) as (cs & _ & _ & Hr & _). cbn [fst].
    pose proof (run_reach _ _ _ _ _ _ _ Hr) as Re.
    destruct (pool_starts rd0) as [E|(p & q & St)].
    - rewrite E in Re. pose proof (binv_reach _ _ _ _ _ nd_two Re) as Bi. destruct (binv_bound (engine_proc (sf_applicable X Mp) sf_add ah (c_mode (rd_conf rd0))) _ _ _ Bi) as [b1 b2]. split; [exact (Nat.le_trans _ _ _ b1 (Nat.le_add_r 1 _))|]. exact (Nat.le_trans _ _ _ (Nat.eq_le_incl _ _ b2) (Nat.le_0_l _)).
    - exact (inv_bound _ _ _ _ _ _ _ (inv_reach _ _ _ _ _ _ _ _ nd_two St Re)). }
  destruct B2 as [B2 B3]. split; [|exists e; auto].
  unfold in_flight. rewrite E1, E2, E3. cbn [stage_holds]. rewrite Ex.
  pose proof (held_bound es). pose proof (Ch 1). pose proof (Ch 2). pose proof (Ch 3). lia.
Qed.
End App.

(** ** The reader's tables *)
Section Tables.
Import ReaderModel SpecReader ReaderFacts ReaderFacts2.
Lemma latest_in {A B} (f : A -> option B) s x : Latest f s (Some x) -> exists a, In a s /\ f a = Some x.
Proof. intros [[E _]|(s1 & a & s2 & -> & E & _ & _)]; [discriminate E|]. exists a. split; [apply in_elt|exact E]. Qed.
Lemma ann_proc id st r p : a_proc ann_rec id st r = Some p -> exists p0, r = RProc p0 /\ p_oid p0 = id.
Proof.
  destruct r; cbn; intros H; try discriminate H. destruct (oid_eqb (p_oid p0) id && _)%bool eqn:E; [|discriminate H].
  apply andb_prop in E as [E _]. apply oid_eqb_eq in E. eauto.
Qed.
Lemma known_iff rs rd ds s : Sane false rs -> reader_run false reader_init rs = Ok (rd, ds) -> Since is_header rs s ->
  forall id, get_proc id (r_tab rd) <> None <-> exists p, In (RProc p) s /\ p_oid p = id.
Proof.
  intros Sn R Si id. destruct (reader_inv _ _ _ _ R) as [[s' I] _].
  rewrite <- (Since_fun _ _ _ _ (ri_since _ _ _ _ I) Si). clear s Si.
  pose proof (ri_since _ _ _ _ I) as Si. pose proof (ri_agree _ _ _ _ I) as Ag.
  destruct (agree_proc ann_rec _ _ id Ag) as (m & c & r & Lm & Lc & Lr & E). split.
  - intros N. destruct m as [m|].
    + destruct (latest_in _ _ _ Lm) as (a & Ia & Fa). destruct (ann_proc _ _ _ _ Fa) as (p0 & -> & Ho). eauto.
    + destruct c as [c|].
      * destruct (latest_in _ _ _ Lc) as (a & Ia & Fa). destruct (ann_proc _ _ _ _ Fa) as (p0 & -> & Ho). eauto.
      * destruct r as [r|]; [|contradiction].
        destruct (latest_in _ _ _ Lr) as (a & Ia & Fa). destruct (ann_proc _ _ _ _ Fa) as (p0 & -> & Ho). eauto.
  - intros (p & Ip & Eo) N. rewrite N in E. destruct m; [discriminate E|]. destruct c; [discriminate E|]. subst r.
    assert (Q : forall st, Latest (a_proc ann_rec id st) s' None -> p_state p <> st).
    { intros st [[_ L]|(s1 & a & s2 & _ & _ & C & _)]; [|congruence]. specialize (L _ Ip). intros <-. cbn in L.
      rewrite <- Eo, oid_eqb_refl, Z.eqb_refl in L. discriminate L. }
    assert (Ir : In (RProc p) rs).
    { destruct Si as [_ [->|(h1 & a & _ & ->)]]; [exact Ip|]. apply in_or_app. right. right. exact Ip. }
    destruct (sn_state _ _ Sn _ Ir) as [H|[H|H]]; [exact (Q _ Lc H)|exact (Q _ Lm H)|exact (Q _ Lr H)].
Qed.
Definition procs_in (s : list rec) : list oid := flat_map (fun r => match r with RProc p => [p_oid p] | _ => [] end) s.
Lemma procs_len s : length (procs_in s) = length (List.filter (fun r => match r with RProc _ => true | _ => false end) s).
Proof. induction s as [|r s IH]; [reflexivity|]. unfold procs_in in *. destruct r; cbn; rewrite ?IH; reflexivity. Qed.
Lemma known_len rs rd ds s ids : Sane false rs -> reader_run false reader_init rs = Ok (rd, ds) -> Since is_header rs s ->
  knows (r_tab rd) ids -> length ids <= length (List.filter (fun r => match r with RProc _ => true | _ => false end) s).
Proof.
  intros Sn R Si [N K]. rewrite <- procs_len. apply NoDup_incl_length; [exact N|]. intros i Hi.
  destruct (proj1 (known_iff _ _ _ _ Sn R Si i) (K i Hi)) as (p & Ip & Eo).
  apply in_flat_map. exists (RProc p). split; [exact Ip|]. left. exact Eo.
Qed.
(** [n] processes without parents, and an event of each. *)
Definition many (n : nat) : list rec :=
  flat_map (fun k => [RProc (mkProc (Z.of_nat k, 0%Z) CREATED None "" "" INil 0); RProcEvt (Z.of_nat k, 0%Z) 0]) (seq 0 n).
Lemma many_proc n p : In (RProc p) (many n) -> p_poid p = None /\ p_state p = CREATED.
Proof.
  intros H. apply in_flat_map in H as (k & _ & [E|[E|[]]]); [|discriminate E]. injection E as <-. split; reflexivity.
Qed.
Lemma pif_poid s id p q : (forall p, In (RProc p) s -> p_poid p = None) -> ProcInForce ann_rec s id (Some p) -> p_poid p = Some q -> False.
Proof.
  intros H (m & c & r & Lm & Lc & Lr & E) Eq.
  assert (K : forall st, Latest (a_proc ann_rec id st) s (Some p) -> False).
  { intros st L. destruct (latest_in _ _ _ L) as (a & Ia & Fa). destruct a; try discriminate Fa. cbn in Fa.
    destruct (_ && _)%bool; [|discriminate Fa]. injection Fa as <-. cbn in Eq. rewrite (H _ Ia) in Eq. discriminate Eq. }
  destruct m as [m|]; [injection E as <-; exact (K _ Lm)|]. destruct c as [c|]; [injection E as <-; exact (K _ Lc)|]. subst r. exact (K _ Lr).
Qed.
Lemma many_sane n : Sane false (many n).
Proof.
  constructor.
  - intros p Hp. left. apply (many_proc _ _ Hp).
  - intros f _. left. reflexivity.
  - intros h r rest s q E Si Ab.
    assert (K : forall p, In (RProc p) (seen s r) -> p_poid p = None).
    { intros p Hp. apply (many_proc n). rewrite E.
      assert (Hs : forall x, In x s -> In x h).
      { intros x Hx. destruct Si as [_ [->|(h1 & a & _ & ->)]]; [exact Hx|]. apply in_or_app. right. right. exact Hx. }
      apply in_or_app. unfold seen in Hp. destruct r; try (left; apply Hs; exact Hp).
      apply in_app_or in Hp as [Hp|[Hp|[]]]; [left; apply Hs; exact Hp|]. right. left. exact Hp. }
    inversion Ab as [id p q0 Pf Eq|id p q0 r0 Pf Eq _]; exact (pif_poid _ _ _ _ K Pf Eq).
Qed.
Lemma many_known n : exists rd ds ids, reader_run false reader_init (many n) = Ok (rd, ds) /\ knows (r_tab rd) ids /\ length ids = n.
Proof.
  destruct (reader_total false (many n) (many_sane n)) as (rd & ds & R).
  exists rd, ds, (map (fun k => (Z.of_nat k, 0%Z)) (seq 0 n)). split; [exact R|].
  assert (Si : Since is_header (many n) (many n)).
  { split; [|left; reflexivity]. intros a Ha [hd ->]. apply in_flat_map in Ha as (k & _ & [E|[E|[]]]); discriminate E. }
  split; [|rewrite map_length, seq_length; reflexivity]. split.
  - apply FinFun.Injective_map_NoDup; [|apply seq_NoDup]. intros a b E. injection E as E. lia.
  - intros i Hi. apply in_map_iff in Hi as (k & <- & Hk).
    apply (known_iff _ _ _ _ (many_sane n) R Si). eexists. split.
    + apply in_flat_map. exists k. split; [exact Hk|]. left. reflexivity.
    + reflexivity.
Qed.
Lemma header_forgets rs h rd ds ids : reader_run false reader_init (rs ++ [RHeader h]) = Ok (rd, ds) -> knows (r_tab rd) ids -> ids = [].
Proof.
  intros R [_ K]. rewrite reader_run_app in R. destruct (reader_run false reader_init rs) as [[s1 d1]| | |]; cbn [rbind reader_run reader_step] in R; try discriminate R.
  injection R as <- <-. destruct ids as [|i ids]; [reflexivity|]. exfalso. apply (K i (or_introl eq_refl)). reflexivity.
Qed.
End Tables.

(** ** The OpenTelemetry pipeline *)
From Verif Require Import OtelPipe SpecOtelPipe OtelPipeFacts.
Section Otel.
Context {R : Type}.
Variable ops : operations R.
Variables (pmatch : string -> string -> bool) (ord : srule -> list nat -> list (string * search)) (fuel : nat).
Variables (applicable : R -> rule R -> bool) (add : R -> rule R -> R) (ah : ahandler R).
Variable rd0 : ready R.
Variables (buffer xstart : Z) (cap : nat).
Notation conc := (Z.to_nat (c_concurrency (rd_conf rd0))).
Lemma o_pool_starts : pool_start rd0 = init_bypass \/ exists p q, starts conc p q (pool_start rd0).
Proof.
  unfold pool_start. destruct (rd_pi rd0) as [p|]; [right|now left]. destruct (rd_mon rd0) as [m|].
  - exists p, (m_queue m). left. reflexivity.
  - exists p, []. right. auto.
Qed.
Lemma o_held_bound es : length (held (x_run (R := R) buffer xstart es)) <= Z.to_nat (buffer - 1).
Proof.
  destruct (run_good (R := R) buffer xstart es) as [G _]. unfold held.
  destruct (x_open _); [|apply Nat.le_0_l]. destruct (G eq_refl) as [A B]. lia.
Qed.
Lemma o_flight_bound acts0 rs tr s : o_source rs acts0 -> o_run_to ops pmatch ord fuel applicable add ah rd0 buffer xstart cap acts0 tr s ->
  o_in_flight s <= 2 * cap + (1 + 2 * conc) + Z.to_nat (buffer - 1) /\
  exists e, c_st s 1 = OEng e /\ workers (fst e) <= conc.
Proof.
  intros A H. pose proof (o_safe ops pmatch ord fuel applicable add ah rd0 buffer xstart cap acts0 rs A tr s H) as Cr.
  edestruct (o_snapshot ops pmatch ord fuel applicable add ah rd0 buffer xstart cap acts0 rs A tr s H Cr) as (k & K).
  destruct k as [done l rs' e chs ltr x es]. cbn [osnap_ok] in K.
  destruct K as (_ & _ & _ & _ & _ & E2 & Hl & _ & _ & _ & _ & E3 & Ex & _).
  pose proof (chan_bound _ _ _ _ _ H) as Ch.
  assert (B2 : engine_holds (fst e) <= 1 + 2 * conc /\ workers (fst e) <= conc).
  { destruct e as [s0 pol]. unfold live_start in Hl.
    destruct (live_projects _ _ _ _ _ _ _ _ _ _ _ _ _ _ Hl) as (cs & _ & _ & Hr & _). cbn [fst].
    pose proof (run_reach _ _ _ _ _ _ _ Hr) as Re.
    destruct o_pool_starts as [E|(p & q & St)].
    - rewrite E in Re. pose proof (binv_reach _ _ _ _ _ nd_two Re) as Bi.
      destruct (binv_bound (engine_proc applicable add ah (c_mode (rd_conf rd0))) _ _ _ Bi) as [b1 b2].
      split; [exact (Nat.le_trans _ _ _ b1 (Nat.le_add_r 1 _))|]. exact (Nat.le_trans _ _ _ (Nat.eq_le_incl _ _ b2) (Nat.le_0_l _)).
    - exact (inv_bound _ _ _ _ _ _ _ (inv_reach _ _ _ _ _ _ _ _ nd_two St Re)). }
  destruct B2 as [B2 B3]. split; [|exists e; auto].
  unfold o_in_flight. rewrite E2, E3. cbn [o_stage_holds]. rewrite Ex.
  pose proof (o_held_bound es). pose proof (Ch 1). pose proof (Ch 2). lia.
Qed.
End Otel.

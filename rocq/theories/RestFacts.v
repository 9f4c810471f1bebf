(** * RestFacts: the policy engine at an arbitrary moment, and at rest. *)
From Coq Require Import Lia Permutation.
From Verif Require Import GoBase GoFacts PermTac Predicates EngineModel SpecEngine PoolModel SpecPool PoolFacts PoolFacts2 PoolFacts3 PoolFacts4
  SigmaModel MonitorModel SpecMonitor InitModel SpecInit InitFacts LiveFacts SpecRest.
Local Open Scope nat_scope.

Section F.
Context {P R : Type}.
Variable proc : P -> R -> option R.
Variable conc : nat.
Variable outCh : list nat.
Notation fire := (fire proc conc outCh).
Notation run := (run proc conc outCh).
Implicit Types (s : st P R) (tr : list (label P R)).

Lemma due_app a b : due proc (a ++ b) = due proc a ++ due proc b. Proof. apply flat_map_app. Qed.
Lemma due_perm a b : Permutation a b -> Permutation (due proc a) (due proc b). Proof. apply Permutation_flat_map. Qed.

Lemma rest_pools p0 q s tr : 0 < conc -> inv proc conc outCh p0 q s tr -> idle proc conc outCh s ->
  mhand (s_main s) = [] /\ flat_map hpairs (s_pools s) = [] /\ forall c, flat_map (pend c) (s_pools s) = [].
Proof.
  intros HC I Id.
  assert (NP : forall c s' l, goes_on c = true -> fire s c = Some (s', l) -> False) by (intros c s' l G F; rewrite (Id c G) in F; discriminate).
  destruct (s_main s) as [| | | | | | | | | |] eqn:Em.
  11:{ assert (O : over (s_main s)) by (rewrite Em; exact Logic.I). destruct (inv_over _ _ _ _ _ _ _ I O) as [D _].
    split; [reflexivity|]. split; [exact (dead_flat _ _ _ dead_hpairs D)|intros c; exact (dead_flat _ _ _ (dead_pend c) D)]. }
  2-10: exfalso; destruct (progress proc conc outCh _ _ _ _ HC I) as (c & s' & l & G & F); [rewrite Em; discriminate|rewrite Em; discriminate|eauto].
  split; [reflexivity|].
  pose proof I as [IP _ _ _ _ _ IX]. destruct IP as (old & pl & Ep & Ei & F1 & (WL & WG & WB & WO) & C1 & _). rewrite Em in C1. cbn [closing] in C1.
  destruct WO as [[WO _]|WO]; [congruence|].
  assert (W : forall w x, nth_error (pl_ws pl) w = Some x -> x = WIdle /\ pl_buf pl = []).
  { intros w x Ew. pose proof (Id (CWorker (length old) w) eq_refl) as N. unfold PoolModel.fire in N. rewrite IX in N. unfold fire_worker in N.
    rewrite Ep, nth_last, Ew in N. assert (L : live x) by (rewrite Forall_forall in WO; apply WO; eapply nth_error_In; exact Ew).
    destruct x as [|r|r [|k ks]| |]; try discriminate; [|destruct L]. destruct (pl_buf pl); [auto|discriminate]. }
  assert (B : pl_buf pl = []).
  { destruct (pl_ws pl) as [|x ws] eqn:Ew; [cbn in WL; lia|]. apply (W 0 x). reflexivity. }
  assert (H : hpairs pl = [] /\ forall c, pend c pl = []).
  { unfold hpairs, pend. rewrite B, app_nil_r.
    assert (G : Forall (fun x => x = WIdle) (pl_ws pl)).
    { apply Forall_forall. intros x Hx. apply In_nth_error in Hx as (w & Hw). exact (proj1 (W _ _ Hw)). }
    clear - G. induction G as [|x ws -> G [I1 I2]]; [split; reflexivity|]. split; [exact I1|exact I2]. }
  destruct H as [H1 H2]. rewrite Ep. split; [|intros c]; rewrite flat_map_app; cbn [flat_map].
  - rewrite (dead_flat _ _ _ dead_hpairs F1), H1. reflexivity.
  - rewrite (dead_flat _ _ _ (dead_pend c) F1), H2. reflexivity.
Qed.
(** At every moment what has left on an output is part of what is due for the records queued; at
    rest it is all of it. *)
Lemma pool_moment : NoDup outCh -> forall p0 q s0 cs s tr, starts conc p0 q s0 -> run s0 cs = (s, tr) ->
  exists hand, taken tr = map snd (accepted p0 tr) ++ hand /\ length hand <= 1 /\ (0 < conc -> idle proc conc outCh s -> hand = []) /\
  forall c, In c outCh -> exists rest, Permutation (due proc (accepted p0 tr)) (emitted c tr ++ rest) /\ (0 < conc -> idle proc conc outCh s -> rest = []).
Proof.
  intros ND p0 q s0 cs s tr Hs Hr. apply run_reach in Hr. pose proof (inv_reach _ _ _ _ _ _ _ _ ND Hs Hr) as I.
  exists (mhand (s_main s)). split; [exact (iv_taken _ _ _ _ _ _ _ I)|]. split; [destruct (s_main s); cbn; lia|].
  split; [intros C Id; exact (proj1 (rest_pools _ _ _ _ C I Id))|].
  intros c Hc. exists (flat_map (pend c) (s_pools s) ++ due proc (flat_map hpairs (s_pools s))). split.
  - pose proof (iv_emit _ _ _ _ _ _ _ I c) as E. rewrite duec_due in E by assumption. rewrite (due_perm _ _ (iv_cons _ _ _ _ _ _ _ I)), due_app, E. now rewrite <- app_assoc.
  - intros C Id. destruct (rest_pools _ _ _ _ C I Id) as (_ & H1 & H2). rewrite H1, H2. reflexivity.
Qed.
(** Either at rest or able to go on. *)
Lemma rest_or_go p0 q s tr : 0 < conc -> inv proc conc outCh p0 q s tr -> s_main s = MRecv ->
  idle proc conc outCh s \/ exists c s' l, goes_on c = true /\ fire s c = Some (s', l).
Proof.
  intros HC I Em. pose proof I as [IP _ _ _ _ _ IX]. destruct IP as (old & pl & Ep & Ei & F1 & W1 & C1 & _). pose proof W1 as (WL & WG & WB & WO).
  destruct (pl_buf pl) as [|r b] eqn:Eb.
  - assert (D : (Forall (fun x => x = WIdle) (pl_ws pl)) \/ exists w x, nth_error (pl_ws pl) w = Some x /\ x <> WIdle).
    { clear. induction (pl_ws pl) as [|x ws IH]; [left; constructor|].
      assert (Dx : x = WIdle \/ x <> WIdle) by (destruct x; auto; right; discriminate).
      destruct Dx as [->|Dx]; [|right; exists 0, x; auto]. destruct IH as [IH|(w & y & Ew & Hy)]; [left; now constructor|right; exists (S w), y; auto]. }
    destruct D as [D|(w & x & Ew & Hx)].
    + left. intros c G. unfold PoolModel.fire. rewrite IX. destruct c as [i|e| |g w|p]; try discriminate; unfold fire_main; rewrite ?Em; try reflexivity.
      unfold fire_worker. rewrite Ep. destruct (nth_error (old ++ [pl]) g) as [pl'|] eqn:Eg; [|reflexivity].
      destruct (nth_error (pl_ws pl') w) as [x|] eqn:Ew; [|reflexivity].
      apply nth_error_In in Eg. apply in_app_or in Eg as [Eg|[<-|[]]].
      * rewrite Forall_forall in F1. destruct (F1 _ Eg) as (_ & _ & G1). rewrite Forall_forall in G1. rewrite (G1 x); [reflexivity|]. eapply nth_error_In; exact Ew.
      * rewrite Forall_forall in D. rewrite (D x) by (eapply nth_error_In; exact Ew). rewrite Eb, C1, Em. reflexivity.
    + right. destruct (worker_moves proc conc outCh p0 q s tr old pl I Ep W1) as (w' & s' & l & F).
      { exists w, x. split; [assumption|]. split; [|contradiction]. intros ->. rewrite C1, Em in WO. cbn in WO. destruct WO as [[WO _]|WO]; [discriminate|].
        rewrite Forall_forall in WO. exact (WO _ (nth_error_In _ _ Ew)). }
      exists (CWorker (length old) w'), s', l. auto.
  - right. destruct (pl_ws pl) as [|x ws] eqn:Ews; [cbn in WL; lia|].
    destruct (worker_moves proc conc outCh p0 q s tr old pl I Ep W1) as (w' & s' & l & F).
    { exists 0, x. rewrite Ews. split; [reflexivity|]. split; [|intros _; left; congruence]. intros ->. rewrite C1, Em in WO. cbn in WO. destruct WO as [[WO _]|WO]; [discriminate|].
      inversion WO as [|? ? Hl]. exact Hl. }
    exists (CWorker (length old) w'), s', l. auto.
Qed.
Lemma bypass_idle s tr : binv outCh s tr -> s_main s = MRecv -> idle proc conc outCh s.
Proof.
  intros [B1 B2 B3 B4 _ _ _ _] Em c G. unfold PoolModel.fire. rewrite B4. destruct c as [i|e| |g w|p]; try discriminate; unfold fire_main; rewrite ?Em; try reflexivity.
  unfold fire_worker. rewrite B2. destruct g; reflexivity.
Qed.
Lemma ended_idle p0 q s tr : inv proc conc outCh p0 q s tr -> s_main s = MEnd -> idle proc conc outCh s.
Proof.
  intros I Em. assert (O : over (s_main s)) by (rewrite Em; exact Logic.I). destruct (inv_over _ _ _ _ _ _ _ I O) as [D _].
  intros c G. unfold PoolModel.fire. destruct (s_panic s); [reflexivity|]. destruct c as [i|e| |g w|p]; try discriminate; unfold fire_main; rewrite ?Em; try reflexivity.
  unfold fire_worker. destruct (nth_error (s_pools s) g) as [pl|] eqn:Eg; [|reflexivity]. destruct (nth_error (pl_ws pl) w) as [x|] eqn:Ew; [|reflexivity].
  apply nth_error_In in Eg. rewrite Forall_forall in D. destruct (D _ Eg) as (_ & _ & G1). rewrite Forall_forall in G1.
  rewrite (G1 x); [reflexivity|]. eapply nth_error_In; exact Ew.
Qed.
Lemma bypass_ended s tr : binv outCh s tr -> s_main s = MEnd -> idle proc conc outCh s.
Proof.
  intros [B1 B2 B3 B4 _ _ _ _] Em c G. unfold PoolModel.fire. rewrite B4. destruct c as [i|e| |g w|p]; try discriminate; unfold fire_main; rewrite ?Em; try reflexivity.
  unfold fire_worker. rewrite B2. destruct g; reflexivity.
Qed.
Lemma bypass_moment : NoDup outCh -> forall cs s tr, run init_bypass cs = (s, tr) -> forall c, In c outCh ->
  exists rest, taken tr = emitted c tr ++ rest /\ length rest <= 1 /\ (idle proc conc outCh s -> rest = []).
Proof.
  intros ND cs s tr Hr c Hc. destruct (pool_bypass proc conc outCh ND cs s tr Hr) as [Q _]. destruct (Q c Hc) as (rest & E & L & _).
  exists rest. split; [exact E|]. split; [exact L|]. intros Id.
  apply run_reach in Hr. pose proof (binv_reach _ _ _ _ _ ND Hr) as [B1 B2 B3 B4 B5 BS B6 B7].
  specialize (B6 c). assert (H1 : count_occ Nat.eq_dec outCh c = 1) by (apply NoDup_count_occ'; auto). rewrite H1 in B6. cbn in B6. rewrite flat_single in B6.
  assert (Eb : bpend outCh c (s_main s) = []).
  { destruct (s_main s) as [|r|r p|r p|r|r l| | | |l|] eqn:Em; try reflexivity; try contradiction; exfalso.
    - pose proof (Id (CExpired true) eq_refl) as N. unfold PoolModel.fire, fire_main in N. rewrite B4, Em, B1 in N. discriminate.
    - pose proof (Id CMain eq_refl) as N. unfold PoolModel.fire, fire_main, send_out, crash in N. rewrite B4, Em in N. destruct l; discriminate. }
  rewrite Eb, app_nil_r in B6. rewrite E in B6. rewrite <- (app_nil_r (emitted c tr)) in B6 at 2. exact (app_inv_head _ _ _ B6).
Qed.
End F.

(** ** Under the policies *)
Section Gen.
Context {R E : Type}.
Variable ops : operations R.
Variable pmatch : string -> string -> bool.
Variable ord : srule -> list nat -> list (string * search).
Variable fuel : nat.
Variables (applicable : R -> rule R -> bool) (add : R -> rule R -> R) (ah : ahandler R) (m : mode).
Variable conf : gomap cval.
Variables (good : host -> Prop) (gov : host -> E -> Prop) (disp : E -> R -> list R -> Prop).
Notation create := (create_interpreter ops pmatch ord fuel).
Hypothesis Hgov : forall h p, good h -> create h (fst (create_config conf)) = Ok (Some p) ->
  exists e, gov h e /\ forall r, disp e r (outs (snd (work applicable add ah m (fst p) (snd p) r))).
Notation proc := (engine_proc applicable add ah m).

Lemma eras_moment h d outCh rd chs s pol tr :
  policies_in conf d -> monitor_is conf LocalType -> good h -> (forall h', In h' (batches chs) -> good h') -> NoDup outCh ->
  init ops pmatch ord fuel h conf = Ok (Some rd) ->
  live_run ops pmatch ord fuel proc (Z.to_nat (c_concurrency (rd_conf rd))) outCh (rd_conf rd) (live_start rd) chs = ((s, pol), tr) ->
  exists hs eras hand, subseq hs (batches chs) /\ taken tr = concat (map snd eras) ++ hand /\ length hand <= 1 /\
    Forall2 (fun h' era => gov h' (fst era)) (h :: hs) eras /\
    (0 < Z.to_nat (c_concurrency (rd_conf rd)) -> idle proc (Z.to_nat (c_concurrency (rd_conf rd))) outCh s -> hand = []) /\
    forall c, In c outCh -> exists oss rest,
      Forall2 (fun era os => Forall2 (disp (fst era)) (snd era) os) eras oss /\
      Permutation (concat (map (@concat R) oss)) (emitted c tr ++ rest) /\
      (0 < Z.to_nat (c_concurrency (rd_conf rd)) -> idle proc (Z.to_nat (c_concurrency (rd_conf rd))) outCh s -> rest = []).
Proof.
  intros Hd Hmon Hf Hfs ND Hi Hrun.
  apply (init_iff _ _ _ _ h conf d rd Hd) in Hi as (p0 & C0 & _ & [[Mn _]|(_ & _ & ->)]).
  { pose proof (word_option_fun _ _ _ _ _ _ _ monitor_fun Hmon Mn). discriminate. }
  unfold live_start in Hrun. cbn [pool_start rd_pi rd_mon rd_conf m_policies m_queue] in *.
  set (cf := fst (create_config conf)) in *. set (conc := Z.to_nat (c_concurrency cf)) in *.
  destruct (live_projects _ _ _ _ _ _ _ _ _ _ _ _ _ _ Hrun) as (cs & hs0 & ps & Hr & Hsub & Hcr & Hpub).
  assert (St : starts conc p0 [] (init_monitor conc p0 [] : st (policies R) R)) by (left; reflexivity).
  destruct (pool_moment _ _ _ ND _ _ _ _ _ _ St Hr) as (hand & Eh & Lh & Ih & Q).
  destruct (pool_swap _ _ _ ND _ _ _ _ _ _ St Hr) as [(rest0 & Epub) _]. cbn [app] in Epub.
  assert (Hh : exists hs, subseq hs (batches chs) /\ Forall2 (fun h p => create h cf = Ok (Some p)) hs (installed tr)).
  { rewrite <- Hpub, Epub in Hcr. apply Forall2_app_inv_r in Hcr as (l1 & l2 & F1 & _ & ->).
    exists l1. split; [eapply subseq_app_l; eassumption|assumption]. }
  destruct Hh as (hs & Hs2 & F).
  destruct (accepted_eras tr p0) as (rss & Lr & Ea).
  assert (F0 : Forall2 (fun h p => good h /\ create h cf = Ok (Some p)) (h :: hs) (p0 :: installed tr)).
  { constructor; [auto|].
    assert (G : forall x, In x hs -> good x).
    { intros x Hx. apply Hfs. clear - Hs2 Hx. induction Hs2; [destruct Hx| |right; auto]. destruct Hx as [->|Hx]; [now left|right; auto]. }
    clear - F G. induction F as [|x p hs ps Hx F IH]; constructor; [split; [apply G; now left|assumption]|]. apply IH. intros y Hy. apply G. now right. }
  set (ws := p0 :: installed tr) in *.
  assert (Lw : length rss = length ws) by exact Lr. clear Lr.
  assert (Sol : exists eras, map snd eras = rss /\
    Forall2 (fun h' era => gov h' (fst era)) (h :: hs) eras /\
    Forall2 (fun era os => Forall2 (disp (fst era)) (snd era) os) eras
      (map (fun pr => map (fun r => outs (snd (work applicable add ah m (fst (fst pr)) (snd (fst pr)) r))) (snd pr)) (combine ws rss))).
  { clear - F0 Lw Hgov. revert rss Lw. induction F0 as [|x p xs ps [Hx Hp] F0 IH]; intros rss Lw.
    - destruct rss; [|discriminate]. exists []. repeat split; constructor.
    - destruct rss as [|rs rss]; [discriminate|]. injection Lw as Lw. destruct (IH rss Lw) as (eras & E1 & E2 & E3).
      destruct (Hgov _ _ Hx Hp) as (e & Ge & D).
      exists ((e, rs) :: eras). cbn [map snd fst combine]. rewrite E1. split; [reflexivity|]. split.
      + constructor; assumption.
      + constructor; [|assumption]. cbn [fst snd]. clear - D. induction rs as [|r rs IH]; cbn; constructor; auto. }
  destruct Sol as (eras & E1 & E2 & E3). exists hs, eras, hand. split; [assumption|]. split; [|split; [assumption|split; [assumption|split; [assumption|]]]].
  - rewrite Eh, Ea, E1. f_equal. clear - Lw. revert rss Lw. induction ws as [|p ws IH]; intros rss Lw; destruct rss as [|rs rss]; try discriminate; [reflexivity|].
    injection Lw as Lw. cbn [combine map concat fst snd]. rewrite map_app, (IH rss Lw), map_map. cbn. now rewrite map_id.
  - intros c Hc. destruct (Q c Hc) as (rest & Pe & Ir). eexists _, rest. split; [exact E3|]. split; [|exact Ir].
    etransitivity; [|exact Pe].
    etransitivity; [|apply Permutation_refl'; symmetry; exact (due_engine applicable add ah m (accepted p0 tr))]. rewrite Ea.
    apply Permutation_refl'. clear. revert rss. induction ws as [|p ws IH]; intros rss; [reflexivity|]. destruct rss as [|rs rss]; [reflexivity|].
    cbn [combine map concat fst snd]. etransitivity; [|symmetry; apply flat_map_app]. etransitivity; [|apply f_equal; exact (IH rss)].
    apply (f_equal (fun z => app z _)).
    induction rs as [|r rs IHr]; cbn; [reflexivity|]. now rewrite IHr.
Qed.
Lemma static_moment h d outCh rd cs s tr :
  policies_in conf d -> monitor_is conf NoneType -> good h -> NoDup outCh ->
  init ops pmatch ord fuel h conf = Ok (Some rd) ->
  run proc (Z.to_nat (c_concurrency (rd_conf rd))) outCh (pool_start rd) cs = (s, tr) ->
  exists e, gov h e /\ forall c, In c outCh -> exists os rest, Forall2 (disp e) (taken tr) os /\ Permutation (concat os) (emitted c tr ++ rest) /\
    (0 < Z.to_nat (c_concurrency (rd_conf rd)) -> idle proc (Z.to_nat (c_concurrency (rd_conf rd))) outCh s -> rest = []).
Proof.
  intros Hd Hmon Hg ND Hi Hrun.
  apply (init_iff _ _ _ _ h conf d rd Hd) in Hi as (p & C & _ & [[_ ->]|(Ml & _ & _)]).
  2:{ pose proof (word_option_fun _ _ _ _ _ _ _ monitor_fun Hmon Ml). discriminate. }
  destruct (Hgov _ _ Hg C) as (e & Ge & D). exists e. split; [assumption|]. intros c Hch.
  cbn [pool_start rd_pi rd_mon rd_conf] in *. set (conc := Z.to_nat (c_concurrency (fst (create_config conf)))) in *.
  assert (St : starts conc p [] (init_static conc p : st (policies R) R)) by (right; auto).
  destruct (pool_moment _ _ _ ND _ _ _ _ _ _ St Hrun) as (hand & Eh & Lh & Ih & Q). destruct (Q c Hch) as (rest & Pe & Ir).
  set (f := fun r => outs (snd (work applicable add ah m (fst p) (snd p) r))).
  exists (map f (taken tr)), (rest ++ flat_map f hand). split; [|split].
  - generalize (taken tr). intros l. induction l as [|r l IH]; cbn; constructor; [apply D|assumption].
  - rewrite <- flat_map_concat_map. match goal with |- Permutation (flat_map f ?t) _ => replace t with (map snd (accepted p tr) ++ hand) by (symmetry; exact Eh) end.
    rewrite flat_map_app, app_assoc. apply Permutation_app_tail. etransitivity; [|exact Pe].
    etransitivity; [|apply Permutation_refl'; symmetry; exact (due_engine applicable add ah m (accepted p tr))].
    assert (Ac : accepted p tr = map (pair p) (map snd (accepted p tr))).
    { apply accepted_static. destruct (pool_swap _ _ _ ND _ _ _ _ _ _ St Hrun) as [(rest0 & Epub) _].
      assert (Hq : published tr = []).
      { apply run_reach in Hrun. clear - Hrun.
        assert (G : s_monq s = None /\ published tr = []); [|tauto].
        induction Hrun as [|s tr ch s' l H IH Hf]; [cbn; auto|]. destruct IH as [I1 I2]. rewrite published_app, I2. cbn [app].
        unfold fire in Hf. destruct (s_panic s); [discriminate|]. destruct ch as [i|b| |g w|p0].
        - unfold fire_main in Hf. destruct (s_main s) as [|r|r p0|r p0|r|r [|k ks]| | | |[|k ks]|]; try discriminate. destruct i; injection Hf as <- <-; auto.
        - unfold fire_main in Hf. destruct (s_main s) as [|r|r p0|r p0|r|r [|k ks]| | | |[|k ks]|]; try discriminate. rewrite I1 in Hf. destruct (s_pi s); injection Hf as <- <-; auto.
        - unfold fire_main, send_out, crash in Hf. destruct (s_main s) as [|r|r p0|r p0|r|r [|k ks]| | | |[|k ks]|]; try discriminate.
          all: repeat match type of Hf with
            | (match ?x with _ => _ end) = _ => destruct x; try discriminate
            | Some (if ?x then _ else _) = _ => destruct x
            end; injection Hf as <- <-; auto.
        - unfold fire_worker, send_out, crash in Hf.
          repeat match type of Hf with
            | (match ?x with _ => _ end) = _ => destruct x; try discriminate
            | Some (if ?x then _ else _) = _ => destruct x
            end; injection Hf as <- <-; auto.
        - rewrite I1 in Hf. discriminate. }
      assert (E0 : [] = installed tr ++ rest0) by (rewrite <- Hq; exact Epub). symmetry in E0. now apply app_eq_nil in E0 as [? _]. }
    rewrite Ac at 2. apply Permutation_refl'. clear. generalize (map snd (accepted p tr)). intros l. induction l as [|r l IH]; [reflexivity|]. cbn. now rewrite IH.
  - intros C1 Id. rewrite (Ih C1 Id), (Ir C1 Id). reflexivity.
Qed.
End Gen.

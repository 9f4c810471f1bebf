(** * PoolFacts: invariants of the policy engine's goroutines. *)
From Coq Require Import Lia.
From Verif Require Import GoBase PermTac PoolModel SpecPool.

Section F.
Context {P R : Type}.
Variable proc : P -> R -> option R.
Variable conc : nat.
Variable outCh : list nat.
Notation fire := (fire proc conc outCh).
Notation run := (run proc conc outCh).
Implicit Types (s : st P R) (tr : list (label P R)) (pl : pool P R).

Inductive reach (s0 : st P R) : st P R -> list (label P R) -> Prop :=
| re_init : reach s0 s0 []
| re_step s tr c s' l : reach s0 s tr -> fire s c = Some (s', l) -> reach s0 s' (tr ++ [l]).

Lemma reach_trans s0 s tr : reach s0 s tr -> forall s' tr', reach s s' tr' -> reach s0 s' (tr ++ tr').
Proof.
  intros H s' tr' H'. induction H' as [|s1 tr1 c s2 l H1 IH Hf]; [now rewrite app_nil_r|].
  rewrite app_assoc. eapply re_step; eauto.
Qed.
Lemma run_reach cs : forall s s' tr, run s cs = (s', tr) -> reach s s' tr.
Proof.
  induction cs as [|c cs IH]; intros s s' tr; cbn.
  - intros [= <- <-]. constructor.
  - destruct (fire s c) as [[s1 l]|] eqn:E; [|apply IH].
    destruct (run s1 cs) as [s2 ls] eqn:Er. intros [= <- <-].
    apply (reach_trans _ _ [l] (re_step _ _ [] _ _ _ (re_init _) E) _ _ (IH _ _ _ Er)).
Qed.
(** Any point of a trace is a reachable state about to take that step. *)
Lemma reach_at s0 s tr : reach s0 s tr -> forall tr1 l tr2, tr = tr1 ++ l :: tr2 ->
  exists s1 c s2, reach s0 s1 tr1 /\ fire s1 c = Some (s2, l) /\ reach s2 s tr2.
Proof.
  induction 1 as [|s tr c s' l0 H IH Hf]; intros tr1 l tr2 E.
  - destruct tr1; discriminate.
  - destruct (rev tr2) as [|x tr2'] eqn:Er.
    + apply (f_equal (@rev _)) in Er. rewrite rev_involutive in Er. subst tr2. cbn in E.
      apply app_inj_tail in E as [<- <-]. exists s, c, s'. split; auto. split; auto. constructor.
    + apply (f_equal (@rev _)) in Er. rewrite rev_involutive in Er. cbn in Er. subst tr2.
      rewrite app_comm_cons, app_assoc in E. apply app_inj_tail in E as [E <-].
      destruct (IH _ _ _ E) as (s1 & c1 & s2 & H1 & H2 & H3). exists s1, c1, s2. split; auto. split; auto. econstructor; eauto.
Qed.

(** ** Trace functions on concatenations *)
Lemma taken_app a b : taken (a ++ b) = taken a ++ @taken P R b.
Proof. apply flat_map_app. Qed.
Lemma evaluated_app a b : evaluated (a ++ b) = evaluated a ++ @evaluated P R b.
Proof. apply flat_map_app. Qed.
Lemma emitted_app c a b : emitted c (a ++ b) = emitted c a ++ @emitted P R c b.
Proof. apply flat_map_app. Qed.
Lemma published_app a b : published (a ++ b) = published a ++ @published P R b.
Proof. apply flat_map_app. Qed.
Lemma installed_app a b : installed (a ++ b) = installed a ++ @installed P R b.
Proof. apply flat_map_app. Qed.
Fixpoint inforce (p0 : P) (tr : list (label P R)) : P :=
  match tr with [] => p0 | LSwap p :: tr' => inforce p tr' | _ :: tr' => inforce p0 tr' end.
Lemma accepted_app p0 a b : accepted p0 (a ++ b) = accepted p0 a ++ accepted (inforce p0 a) b.
Proof. revert p0; induction a as [|l a IH]; intros; auto. destruct l; cbn; rewrite ?IH; auto. Qed.
Lemma inforce_app p0 a b : inforce p0 (a ++ b) = inforce (inforce p0 a) b.
Proof. revert p0; induction a as [|l a IH]; intros; auto. destruct l; cbn; rewrite ?IH; auto. Qed.

(** ** Pools *)
Definition whand (w : wst) : list R := match w with WEval r => [r] | _ => [] end.
Definition wpend (c : nat) (w : wst) : list R := match w with WOut r cs => repeat r (count_occ Nat.eq_dec cs c) | _ => [] end.
Definition hpairs pl : list (P * R) := map (pair (pl_pol pl)) (flat_map whand (pl_ws pl) ++ pl_buf pl).
Definition pend (c : nat) pl : list R := flat_map (wpend c) (pl_ws pl).
Definition alive (w : @wst R) : nat := match w with WGone => 0 | _ => 1 end.
Definition live (w : @wst R) : Prop := match w with WGone | WExit => False | _ => True end.
Definition dead pl : Prop := pl_closed pl = true /\ pl_buf pl = [] /\ Forall (fun w => w = WGone) (pl_ws pl).
Definition wf pl : Prop :=
  length (pl_ws pl) = conc /\ pl_wg pl = list_sum (map alive (pl_ws pl)) /\ length (pl_buf pl) <= conc /\
  ((pl_closed pl = true /\ pl_buf pl = []) \/ Forall live (pl_ws pl)).
Lemma list_sum_app' a b : list_sum (a ++ b) = list_sum a + list_sum b.
Proof. apply list_sum_app. Qed.
Lemma wf_start p : wf (start_workers conc p).
Proof.
  unfold wf; cbn. rewrite repeat_length. repeat split; auto; try lia.
  - induction conc; cbn; auto.
  - right. apply Forall_forall. intros w H. apply repeat_spec in H. subst. exact I.
Qed.
Lemma wf_dead pl : wf pl -> pl_closed pl = true -> pl_wg pl = 0 -> dead pl.
Proof.
  intros (L & W & B & H) C Z. rewrite W in Z.
  assert (G : Forall (fun w => w = WGone) (pl_ws pl)).
  { clear -Z. induction (pl_ws pl) as [|w ws IH]; [constructor|]. cbn in Z. unfold list_sum in *. constructor; [|apply IH; lia].
    destruct w; cbn in Z; try lia; auto. }
  split; auto. split; auto. destruct H as [[_ H]|H]; auto.
  destruct (pl_ws pl) as [|w ws] eqn:E.
  - cbn in L. destruct (pl_buf pl); cbn in B; auto; lia.
  - inversion G; inversion H; subst. contradiction.
Qed.
Lemma dead_hpairs pl : dead pl -> hpairs pl = [].
Proof.
  intros (_ & B & G). unfold hpairs. rewrite B, app_nil_r.
  replace (flat_map whand (pl_ws pl)) with (@nil R); auto.
  induction G; cbn; auto. subst; cbn; auto.
Qed.
Lemma dead_pend c pl : dead pl -> pend c pl = [].
Proof. intros (_ & B & G). unfold pend. induction G; cbn; auto. subst; cbn; auto. Qed.

(** ** The invariant *)
Definition mhand (m : mpc P R) : list R :=
  match m with MHave r | MStop r _ | MWait r _ | MSend r | MBypass r _ => [r] | _ => [] end.
Definition mnew (m : mpc P R) : list P := match m with MStop _ p | MWait _ p => [p] | _ => [] end.
Definition monq s : list P := match s_monq s with Some q => q | None => [] end.
(** the current pool's channel is closed exactly in these states *)
Definition closing (m : mpc P R) : bool := match m with MWait _ _ | MCleanWait | MClose _ | MEnd => true | _ => false end.
Definition over (m : mpc P R) : Prop := match m with MClose _ | MEnd => True | _ => False end.
Definition main_ok (m : mpc P R) (closed : list nat) : Prop :=
  match m with
  | MBypass _ _ => False
  | MClose cs => exists pre, outCh = pre ++ cs /\ closed = rev pre
  | MEnd => closed = rev outCh
  | _ => closed = []
  end.
Definition duec (c : nat) (evs : list (P * R)) : list R :=
  flat_map (fun pr => match proc (fst pr) (snd pr) with Some r => repeat r (count_occ Nat.eq_dec outCh c) | None => [] end) evs.

Record inv (p0 : P) (q0 : list P) s tr : Prop := mkInv {
  iv_pools : exists old pl, s_pools s = old ++ [pl] /\ s_pi s = Some (length old) /\ Forall dead old /\ wf pl /\
               pl_closed pl = closing (s_main s) /\ pl_pol pl = inforce p0 tr /\ (over (s_main s) -> dead pl) /\
               (conc = 1 -> accepted p0 tr = evaluated tr ++ hpairs pl /\ forall c, duec c (evaluated tr) = emitted c tr ++ pend c pl);
  iv_main : main_ok (s_main s) (s_closed s);
  iv_cons : Permutation (accepted p0 tr) (evaluated tr ++ flat_map hpairs (s_pools s));
  iv_emit : forall c, Permutation (duec c (evaluated tr)) (emitted c tr ++ flat_map (pend c) (s_pools s));
  iv_taken : taken tr = map snd (accepted p0 tr) ++ mhand (s_main s);
  iv_pub : q0 ++ published tr = installed tr ++ mnew (s_main s) ++ monq s;
  iv_panic : s_panic s = false }.

Lemma hpairs_start p : hpairs (start_workers conc p) = [].
Proof.
  unfold hpairs; cbn. rewrite app_nil_r.
  replace (flat_map whand (repeat WIdle conc)) with (@nil R); auto. induction conc; cbn; auto.
Qed.
Lemma pend_start c p : pend c (start_workers conc p) = [].
Proof. unfold pend; cbn. induction conc; cbn; auto. Qed.
Lemma inv_start p0 q0 s : starts conc p0 q0 s -> inv p0 q0 s [].
Proof.
  intros H.
  pose proof (hpairs_start p0) as HP. pose proof (fun c => pend_start c p0) as PP.
  assert (E : s_main s = MRecv /\ s_pi s = Some 0 /\ s_pools s = [start_workers conc p0] /\ s_closed s = [] /\ s_panic s = false /\ monq s = q0).
  { destruct H as [->|[-> ->]]; cbn; auto 7. }
  destruct E as (Em & Ep & Eq & Ec & Ex & Eo).
  constructor; rewrite ?Em, ?Ec, ?Eo; cbn; auto.
  - exists [], (start_workers conc p0). rewrite Eq, Ep. cbn [app length pl_closed start_workers over closing inforce pl_pol accepted evaluated flat_map].
    split; [auto|]. split; [auto|]. split; [constructor|]. split; [apply wf_start|].
    split; [auto|]. split; [auto|]. split; [contradiction|]. intros _. rewrite HP. split; [auto|].
    intros c. now rewrite PP.
  - rewrite Eq. cbn [flat_map]. rewrite HP. constructor.
  - intros c. rewrite Eq. cbn [flat_map]. rewrite PP. constructor.
  - now rewrite app_nil_r.
Qed.

Lemma upd_last {A} (old : list A) x y : upd (old ++ [x]) (length old) y = old ++ [y].
Proof. induction old; cbn; congruence. Qed.
Lemma nth_last {A} (old : list A) x : nth_error (old ++ [x]) (length old) = Some x.
Proof. induction old; cbn; auto. Qed.
Lemma duec_app c a b : duec c (a ++ b) = duec c a ++ duec c b.
Proof. apply flat_map_app. Qed.

(** A step of a worker of the current pool. *)
Lemma inv_pool p0 q0 s tr old pl pl' l :
  inv p0 q0 s tr -> s_pools s = old ++ [pl] -> s_pi s = Some (length old) ->
  accepted (inforce p0 tr) [l] = [] -> inforce (inforce p0 tr) [l] = inforce p0 tr ->
  taken [l] = [] -> published [l] = [] -> installed [l] = [] ->
  pl_pol pl' = pl_pol pl -> pl_closed pl' = pl_closed pl -> wf pl' -> (dead pl -> False) ->
  Permutation (hpairs pl) (evaluated [l] ++ hpairs pl') ->
  (forall c, Permutation (duec c (evaluated [l]) ++ pend c pl) (emitted c [l] ++ pend c pl')) ->
  (conc = 1 -> hpairs pl = evaluated [l] ++ hpairs pl' /\ (forall c, pend c pl ++ duec c (evaluated [l]) = emitted c [l] ++ pend c pl')) ->
  inv p0 q0 (set_pool s (length old) pl') (tr ++ [l]).
Proof.
  intros I Ep Ei Ea Ef Et Eu En Hpol Hcl Hwf Hd Hh Hp H1. destruct I as [IP IM IC IE IT IB IX].
  destruct IP as (old' & pl0 & E1 & E2 & F1 & W1 & C1 & P1 & O1 & N1).
  rewrite Ep in E1. apply app_inj_tail in E1 as [<- <-].
  constructor; cbn [s_pools s_pi s_main s_closed s_panic set_pool]; auto.
  - exists old, pl'. rewrite Ep, upd_last, Ei. split; [auto|]. split; [auto|]. split; [auto|]. split; [auto|].
    split; [congruence|]. split; [rewrite inforce_app, Ef; congruence|]. split; [intros Ho; destruct (Hd (O1 Ho))|].
    intros Hc. destruct (N1 Hc) as [N2 N3]. destruct (H1 Hc) as [H2 H3]. rewrite accepted_app, Ea, evaluated_app, N2, H2. split.
    + now rewrite !app_nil_r, <- app_assoc.
    + intros c. rewrite duec_app, emitted_app, N3, <- app_assoc, H3. now rewrite app_assoc.
  - rewrite accepted_app, evaluated_app, Ea, Ep, upd_last, flat_map_app. rewrite Ep, flat_map_app in IC. cbn [flat_map] in *.
    rewrite IC. rewrite !app_nil_r. rewrite Hh. perm.
  - intros c. specialize (IE c). rewrite duec_app, emitted_app, evaluated_app, Ep, upd_last, flat_map_app || rewrite evaluated_app, duec_app, emitted_app, Ep, upd_last, flat_map_app.
    rewrite Ep, flat_map_app in IE. cbn [flat_map] in *. rewrite IE.
    specialize (Hp c). rewrite !app_nil_r. apply (perm_frame (emitted c tr ++ flat_map (pend c) old) _ _ _ _ Hp); perm.
  - rewrite taken_app, accepted_app, Et, Ea, IT. now rewrite !app_nil_r.
  - rewrite published_app, installed_app, Eu, En. unfold monq in *. cbn. now rewrite !app_nil_r.
Qed.

Lemma inv_worker p0 q0 s tr g w s' l : NoDup outCh -> inv p0 q0 s tr -> fire_worker proc outCh s g w = Some (s', l) -> inv p0 q0 s' (tr ++ [l]).
Proof.
  intros ND I Hf. pose proof I as [IP IM IC IE IT IB IX].
  destruct IP as (old & pl & Ep & Ei & F1 & W1 & C1 & P1 & O1 & N1).
  unfold fire_worker in Hf. rewrite Ep in Hf.
  destruct (nth_error (old ++ [pl]) g) as [pl0|] eqn:Eg; [|discriminate].
  destruct (nth_error (pl_ws pl0) w) as [x|] eqn:Ew; [|discriminate].
  assert (Hx : x <> WGone) by (intros ->; discriminate).
  assert (G : g = length old /\ pl0 = pl).
  { destruct (Nat.lt_ge_cases g (length old)) as [L|L].
    - rewrite nth_error_app1 in Eg by auto. apply nth_error_In in Eg.
      rewrite Forall_forall in F1. destruct (F1 _ Eg) as (_ & _ & D). rewrite Forall_forall in D.
      apply nth_error_In in Ew. now apply D in Ew.
    - rewrite nth_error_app2 in Eg by auto. destruct (g - length old) as [|k] eqn:Ek.
      + cbn in Eg. injection Eg as <-. split; auto. lia.
      + destruct k; discriminate. }
  destruct G as [-> ->]. clear Eg.
  assert (Hd : dead pl -> False).
  { intros (_ & _ & D). rewrite Forall_forall in D. apply nth_error_In in Ew. now apply D in Ew. }
  assert (Ho : ~ over (s_main s)) by auto.
  assert (HC : s_closed s = []).
  { unfold main_ok in IM. destruct (s_main s); auto; cbn in Ho; tauto. }
  destruct (upd_split _ _ _ Ew) as (a & b & Ews & La & Eu).
  destruct W1 as (WL & WG & WB & WO).
  assert (HN : conc = 1 -> a = [] /\ b = []).
  { intros Hc. rewrite Ews, app_length in WL. cbn in WL. destruct a, b; cbn in WL; auto; lia. }
  assert (live_upd : forall y, live y -> Forall live (pl_ws pl) -> Forall live (a ++ y :: b)).
  { intros y Hy H. rewrite Ews in H. apply Forall_app in H as [Ha Hb]. inversion Hb; subst. apply Forall_app; auto. }
  assert (sum_upd : forall y, list_sum (map alive (a ++ y :: b)) = list_sum (map alive a) + (alive y + list_sum (map alive b))).
  { intros y. rewrite map_app, list_sum_app. reflexivity. }
  assert (len_upd : forall y, length (a ++ y :: b) = conc).
  { intros y. rewrite <- WL, Ews, !app_length. reflexivity. }
  assert (fm_upd : forall (f : wst -> list R) y, flat_map f (a ++ y :: b) = flat_map f a ++ f y ++ flat_map f b).
  { intros f y. now rewrite flat_map_app. }
  assert (map_pl : forall f : wst -> list R, flat_map f (pl_ws pl) = flat_map f a ++ f x ++ flat_map f b).
  { intros f. rewrite Ews. apply fm_upd. }
  rewrite Ews, sum_upd in WG.
  destruct x as [|r|r cs| |]; [| | | |congruence].
  - (* receive *)
    destruct (pl_buf pl) as [|r buf] eqn:Eb.
    + destruct (pl_closed pl) eqn:Ec; [|discriminate]. injection Hf as <- <-. unfold set_w.
      eapply inv_pool; eauto; cbn [pl_pol pl_closed evaluated flat_map emitted app]; auto.
      * unfold wf; cbn. rewrite Eu, len_upd, sum_upd, Eb. cbn in WG. cbn. repeat split; auto; lia.
      * unfold hpairs; cbn [pl_pol pl_ws pl_buf]. rewrite Eu, fm_upd, map_pl, Eb. cbn. reflexivity.
      * intros c. unfold pend. cbn [pl_ws]. rewrite Eu, fm_upd, map_pl. cbn. reflexivity.
      * intros Hc. destruct (HN Hc) as [-> ->]. unfold hpairs, pend; cbn [pl_pol pl_ws pl_buf]. rewrite Eu, Ews, Eb. cbn. auto.
    + injection Hf as <- <-.
      eapply inv_pool; eauto; cbn [pl_pol pl_closed evaluated flat_map emitted app]; auto.
      * unfold wf; cbn. rewrite Eu, len_upd, sum_upd. cbn in WG, WB. cbn. repeat split; auto; try lia.
        destruct WO as [[_ WO]|WO]; [discriminate|]. right. apply live_upd; cbn; auto.
      * unfold hpairs; cbn [pl_pol pl_ws pl_buf]. rewrite Eu, fm_upd, map_pl, Eb. apply Permutation_map. cbn. perm.
      * intros c. unfold pend. cbn [pl_ws]. rewrite Eu, fm_upd, map_pl. cbn. reflexivity.
      * intros Hc. destruct (HN Hc) as [-> ->]. unfold hpairs, pend; cbn [pl_pol pl_ws pl_buf]. rewrite Eu, Ews, Eb. cbn. auto.
  - (* evaluate *)
    injection Hf as <- <-. unfold set_w. set (y := match proc (pl_pol pl) r with Some r' => WOut r' outCh | None => WIdle end).
    assert (Y : alive y = 1 /\ live y /\ whand y = [] /\ forall c, wpend c y = duec c [(pl_pol pl, r)]).
    { subst y. unfold duec; cbn. destruct (proc (pl_pol pl) r); cbn; repeat split; auto. intros. now rewrite app_nil_r. }
    destruct Y as (Y1 & Y2 & Y3 & Y4).
    eapply inv_pool; eauto; cbn [pl_pol pl_closed evaluated flat_map emitted app]; auto.
    + unfold wf; cbn. rewrite Eu, len_upd, sum_upd, Y1. cbn in WG. repeat split; auto; try lia.
      destruct WO as [WO|WO]; [auto|]. right. apply live_upd; cbn; auto.
    + unfold hpairs; cbn [pl_pol pl_ws pl_buf]. rewrite Eu, fm_upd, map_pl, Y3, !map_app. cbn. perm.
    + intros c. unfold pend. cbn [pl_ws]. rewrite Eu, fm_upd, map_pl, Y4. cbn [wpend app]. perm.
    + intros Hc. destruct (HN Hc) as [-> ->]. unfold hpairs, pend; cbn [pl_pol pl_ws pl_buf]. rewrite Eu, Ews. split.
      * cbn [app flat_map]. rewrite Y3. reflexivity.
      * intros c. cbn [app flat_map]. rewrite Y4. cbn [whand wpend app]. now rewrite app_nil_r.
  - (* push *)
    destruct cs as [|c0 cs].
    + injection Hf as <- <-. unfold set_w.
      eapply inv_pool; eauto; cbn [pl_pol pl_closed evaluated flat_map emitted app]; auto.
      * unfold wf; cbn. rewrite Eu, len_upd, sum_upd. cbn in WG. cbn. repeat split; auto; try lia.
        destruct WO as [WO|WO]; [auto|]. right. apply live_upd; cbn; auto.
      * unfold hpairs; cbn [pl_pol pl_ws pl_buf]. rewrite Eu, fm_upd, map_pl. cbn. reflexivity.
      * intros c. unfold pend. cbn [pl_ws]. rewrite Eu, fm_upd, map_pl. cbn. reflexivity.
      * intros Hc. destruct (HN Hc) as [-> ->]. unfold hpairs, pend; cbn [pl_pol pl_ws pl_buf]. rewrite Eu, Ews. cbn. auto.
    + unfold send_out in Hf. rewrite HC in Hf. cbn [existsb] in Hf. injection Hf as <- <-. unfold set_w.
      assert (Hc0 : forall c, wpend c (WOut r (c0 :: cs)) = emitted c [@LEmit P R c0 r] ++ wpend c (WOut r cs)).
      { intros c. cbn. destruct (Nat.eq_dec c0 c) as [->|Hn]; [rewrite Nat.eqb_refl; auto|].
        destruct (Nat.eqb_spec c c0); [congruence|auto]. }
      eapply inv_pool; eauto; cbn [pl_pol pl_closed evaluated flat_map app]; auto.
      * unfold wf; cbn. rewrite Eu, len_upd, sum_upd. cbn in WG. cbn. repeat split; auto; try lia.
        destruct WO as [WO|WO]; [auto|]. right. apply live_upd; cbn; auto.
      * unfold hpairs; cbn [pl_pol pl_ws pl_buf]. rewrite Eu, fm_upd, map_pl. cbn. reflexivity.
      * intros c. unfold pend. cbn [pl_ws]. rewrite Eu, fm_upd, map_pl, Hc0. cbn [duec flat_map]. perm.
      * intros Hc. destruct (HN Hc) as [-> ->]. unfold hpairs, pend; cbn [pl_pol pl_ws pl_buf]. rewrite Eu, Ews. split; [reflexivity|].
        intros c. cbn [app flat_map]. rewrite Hc0. cbn [duec flat_map]. now rewrite !app_nil_r.
  - (* leave *)
    injection Hf as <- <-.
    assert (WO' : pl_closed pl = true /\ pl_buf pl = []).
    { destruct WO as [WO|WO]; auto. rewrite Ews in WO. apply Forall_app in WO as [_ WO]. inversion WO; subst. contradiction. }
    destruct WO' as [WO1 WO2].
    eapply inv_pool; eauto; cbn [pl_pol pl_closed evaluated flat_map emitted app]; auto.
    + unfold wf; cbn. rewrite Eu, len_upd, sum_upd. cbn in WG. cbn. repeat split; auto; try lia.
    + unfold hpairs; cbn [pl_pol pl_ws pl_buf]. rewrite Eu, fm_upd, map_pl. cbn. reflexivity.
    + intros c. unfold pend. cbn [pl_ws]. rewrite Eu, fm_upd, map_pl. cbn. reflexivity.
    + intros Hc. destruct (HN Hc) as [-> ->]. unfold hpairs, pend; cbn [pl_pol pl_ws pl_buf]. rewrite Eu, Ews. cbn. auto.
Qed.

(** A step of the main goroutine (or monitor) that leaves the pools alone. *)
Lemma inv_quiet p0 q0 s tr m' mq' cl' l :
  inv p0 q0 s tr ->
  accepted (inforce p0 tr) [l] = [] -> inforce (inforce p0 tr) [l] = inforce p0 tr ->
  evaluated [l] = [] -> (forall c, emitted c [l] = []) ->
  closing m' = closing (s_main s) -> (over m' -> over (s_main s)) -> main_ok m' cl' ->
  taken [l] ++ mhand (s_main s) = mhand m' -> (mhand (s_main s) = [] \/ taken [l] = []) ->
  mnew (s_main s) ++ monq s ++ published [l] = installed [l] ++ mnew m' ++ (match mq' with Some q => q | None => [] end) ->
  installed [l] = [] ->
  inv p0 q0 (mkSt m' (s_pi s) (s_pools s) mq' cl' false) (tr ++ [l]).
Proof.
  intros I Ea Ef Ee Em Hc Ho HM Ht Hh Hp Hi. destruct I as [IP IM IC IE IT IB IX].
  destruct IP as (old & pl & E1 & E2 & F1 & W1 & C1 & P1 & O1 & N1).
  constructor; cbn [s_pools s_pi s_main s_closed s_panic]; auto.
  - exists old, pl. split; [auto|]. split; [auto|]. split; [auto|]. split; [auto|]. split; [congruence|].
    split; [rewrite inforce_app, Ef; auto|]. split; [auto|]. intros X. destruct (N1 X) as [N2 N3].
    rewrite accepted_app, evaluated_app, Ea, Ee, !app_nil_r. split; auto. intros c. rewrite emitted_app, Em, app_nil_r. auto.
  - now rewrite accepted_app, evaluated_app, Ea, Ee, !app_nil_r.
  - intros c. now rewrite emitted_app, evaluated_app, Em, Ee, !app_nil_r.
  - rewrite taken_app, accepted_app, Ea, IT, app_nil_r, <- Ht. destruct Hh as [->| ->]; cbn; now rewrite ?app_nil_r.
  - rewrite published_app, installed_app, app_assoc, IB, Hi, app_nil_r. rewrite Hi in Hp. cbn [app] in Hp.
    unfold monq at 2. cbn [s_monq]. rewrite <- Hp. now rewrite <- !app_assoc.
Qed.

Lemma inv_main_step p0 q0 s tr c s' l : NoDup outCh -> inv p0 q0 s tr -> fire_main conc outCh s c = Some (s', l) -> inv p0 q0 s' (tr ++ [l]).
Proof.
  intros ND I Hf. pose proof I as [IP IM IC IE IT IB IX].
  destruct IP as (old & pl & Ep & Ei & F1 & W1 & C1 & P1 & O1 & N1).
  assert (Hcur : cur s = Some (length old, pl)) by (unfold cur; rewrite Ei, Ep, nth_last; auto).
  unfold fire_main in Hf. destruct (s_main s) as [|r|r p|r p|r|r cs| | | |cs|] eqn:Em.
  - destruct c as [[r|]| | | |]; try discriminate; injection Hf as <- <-; unfold set_main; rewrite IX; eapply inv_quiet; rewrite ?Em; eauto; cbn; try now rewrite ?app_nil_r.
  - destruct c as [|b| | |]; try discriminate. rewrite Ei in Hf.
    assert (HS : inv p0 q0 (set_main s (MSend r)) (tr ++ [LTau])).
    { unfold set_main. rewrite IX. eapply inv_quiet; rewrite ?Em; eauto; cbn. now rewrite ?app_nil_r. }
    destruct (s_monq s) as [[|p q]|] eqn:Eq; [injection Hf as <- <-; auto| |injection Hf as <- <-; auto].
    destruct b; [|injection Hf as <- <-; auto].
    injection Hf as <- <-. rewrite IX. rewrite <- Ei. eapply inv_quiet; rewrite ?Em; eauto; cbn. unfold monq. rewrite Eq. now rewrite app_nil_r.
  - destruct c; try discriminate. rewrite Hcur in Hf. rewrite C1 in Hf. cbn [closing] in Hf. injection Hf as <- <-.
    unfold set_main, set_pool. cbn [s_pi s_pools s_monq s_closed s_panic]. rewrite Ep, upd_last.
    assert (HD : hpairs (close_pool pl) = hpairs pl /\ forall c, pend c (close_pool pl) = pend c pl) by (split; reflexivity). destruct HD as [HD1 HD2].
    constructor; cbn [s_pools s_pi s_main s_closed s_panic]; auto.
    + exists old, (close_pool pl). split; [auto|]. split; [auto|]. split; [auto|]. split.
      { destruct W1 as (A1 & A2 & A3 & A4). unfold wf, close_pool; cbn. repeat split; auto. destruct A4 as [[A4 _]|A4]; auto. rewrite C1 in A4. discriminate. }
      split; [auto|]. split; [rewrite inforce_app; auto|]. split; [contradiction|].
      intros X. destruct (N1 X) as [N2 N3]. rewrite accepted_app, evaluated_app. cbn [accepted evaluated emitted flat_map]. rewrite !app_nil_r, HD1. split; auto. intros c. rewrite emitted_app. cbn [accepted evaluated emitted flat_map]. rewrite app_nil_r, HD2. auto.
    + rewrite accepted_app, evaluated_app. cbn [accepted evaluated emitted flat_map]. rewrite !app_nil_r. rewrite Ep in IC. rewrite flat_map_app in *. cbn [flat_map] in *. now rewrite HD1.
    + intros c. specialize (IE c). rewrite evaluated_app, emitted_app. cbn [evaluated emitted flat_map]. rewrite !app_nil_r. rewrite Ep in IE. rewrite flat_map_app in *. cbn [flat_map] in *. now rewrite HD2.
    + rewrite taken_app, accepted_app, IT. cbn. now rewrite !app_nil_r.
    + rewrite published_app, installed_app. cbn. now rewrite !app_nil_r.
  - destruct c; try discriminate. rewrite Hcur in Hf. destruct (pl_wg pl) eqn:Eg; [|discriminate]. injection Hf as <- <-.
    assert (D : dead pl) by (apply wf_dead; auto).
    constructor; cbn [s_pools s_pi s_main s_closed s_panic]; auto.
    + exists (old ++ [pl]), (start_workers conc p). rewrite Ep. split; [auto|]. split; [auto|]. split; [apply Forall_app; auto|]. split; [apply wf_start|].
      split; [auto|]. split; [rewrite inforce_app; auto|]. split; [contradiction|].
      intros X. destruct (N1 X) as [N2 N3]. rewrite accepted_app, evaluated_app, hpairs_start. cbn [accepted evaluated emitted flat_map]. rewrite !app_nil_r. rewrite dead_hpairs, app_nil_r in N2 by auto. split; auto.
      intros c. rewrite emitted_app, pend_start. cbn [accepted evaluated emitted flat_map]. rewrite !app_nil_r. rewrite N3, dead_pend, app_nil_r; auto.
    + rewrite accepted_app, evaluated_app, flat_map_app. cbn [flat_map]. rewrite hpairs_start. cbn [accepted evaluated emitted flat_map]. rewrite !app_nil_r. auto.
    + intros c. specialize (IE c). rewrite evaluated_app, emitted_app, flat_map_app. cbn [flat_map]. rewrite pend_start. cbn [evaluated emitted flat_map]. rewrite !app_nil_r. auto.
    + rewrite taken_app, accepted_app, IT. cbn. now rewrite !app_nil_r.
    + rewrite published_app, installed_app. cbn. rewrite app_nil_r, IB, <- app_assoc. reflexivity.
  - destruct c; try discriminate. rewrite Hcur, C1 in Hf. cbn [closing] in Hf.
    destruct (Nat.ltb_spec (length (pl_buf pl)) conc) as [Lt|]; [|discriminate]. injection Hf as <- <-.
    unfold set_main, set_pool. cbn [s_pi s_pools s_monq s_closed s_panic]. rewrite Ep, upd_last.
    set (pl' := mkPool (pl_pol pl) (pl_buf pl ++ [r]) false (pl_wg pl) (pl_ws pl)).
    assert (HD1 : hpairs pl' = hpairs pl ++ [(inforce p0 tr, r)]).
    { unfold hpairs, pl'; cbn. rewrite !map_app, <- app_assoc, P1. reflexivity. }
    assert (HD2 : forall c, pend c pl' = pend c pl) by reflexivity.
    constructor; cbn [s_pools s_pi s_main s_closed s_panic]; auto.
    + exists old, pl'. split; [auto|]. split; [auto|]. split; [auto|]. split.
      { destruct W1 as (A1 & A2 & A3 & A4). unfold wf, pl'; cbn. rewrite app_length; cbn. repeat split; auto; [lia|]. destruct A4 as [[A4 _]|A4]; auto. rewrite C1 in A4. discriminate. }
      split; [auto|]. split; [rewrite inforce_app; auto|]. split; [contradiction|].
      intros X. destruct (N1 X) as [N2 N3]. rewrite accepted_app, evaluated_app, HD1, N2. cbn [accepted evaluated emitted flat_map]. rewrite !app_nil_r, <- app_assoc. split; auto. intros c. rewrite emitted_app. cbn [accepted evaluated emitted flat_map]. rewrite app_nil_r, HD2. auto.
    + rewrite accepted_app, evaluated_app. cbn [accepted evaluated emitted flat_map]. rewrite !app_nil_r. rewrite Ep in IC. rewrite flat_map_app in *. cbn [flat_map] in *. rewrite HD1, IC. perm.
    + intros c. specialize (IE c). rewrite evaluated_app, emitted_app. cbn [evaluated emitted flat_map]. rewrite !app_nil_r. rewrite Ep in IE. rewrite flat_map_app in *. cbn [flat_map] in *. now rewrite HD2.
    + rewrite taken_app, accepted_app, IT, map_app. cbn. now rewrite !app_nil_r.
    + rewrite published_app, installed_app. cbn. now rewrite !app_nil_r.
  - destruct IM.
  - destruct c; try discriminate; injection Hf as <- <-; unfold set_main; rewrite IX; eapply inv_quiet; rewrite ?Em; eauto; cbn; now rewrite ?app_nil_r.
  - destruct c; try discriminate. rewrite Hcur in Hf. rewrite C1 in Hf. cbn [closing] in Hf. injection Hf as <- <-.
    unfold set_main, set_pool. cbn [s_pi s_pools s_monq s_closed s_panic]. rewrite Ep, upd_last.
    assert (HD : hpairs (close_pool pl) = hpairs pl /\ forall c, pend c (close_pool pl) = pend c pl) by (split; reflexivity). destruct HD as [HD1 HD2].
    constructor; cbn [s_pools s_pi s_main s_closed s_panic]; auto.
    + exists old, (close_pool pl). split; [auto|]. split; [auto|]. split; [auto|]. split.
      { destruct W1 as (A1 & A2 & A3 & A4). unfold wf, close_pool; cbn. repeat split; auto. destruct A4 as [[A4 _]|A4]; auto. rewrite C1 in A4. discriminate. }
      split; [auto|]. split; [rewrite inforce_app; auto|]. split; [contradiction|].
      intros X. destruct (N1 X) as [N2 N3]. rewrite accepted_app, evaluated_app. cbn [accepted evaluated emitted flat_map]. rewrite !app_nil_r, HD1. split; auto. intros c. rewrite emitted_app. cbn [accepted evaluated emitted flat_map]. rewrite app_nil_r, HD2. auto.
    + rewrite accepted_app, evaluated_app. cbn [accepted evaluated emitted flat_map]. rewrite !app_nil_r. rewrite Ep in IC. rewrite flat_map_app in *. cbn [flat_map] in *. now rewrite HD1.
    + intros c. specialize (IE c). rewrite evaluated_app, emitted_app. cbn [evaluated emitted flat_map]. rewrite !app_nil_r. rewrite Ep in IE. rewrite flat_map_app in *. cbn [flat_map] in *. now rewrite HD2.
    + rewrite taken_app, accepted_app, IT. cbn. now rewrite !app_nil_r.
    + rewrite published_app, installed_app. cbn. now rewrite !app_nil_r.
  - destruct c; try discriminate. rewrite Hcur in Hf. destruct (pl_wg pl) eqn:Eg; [|discriminate]. injection Hf as <- <-.
    assert (D : dead pl) by (apply wf_dead; auto).
    constructor; cbn [s_pools s_pi s_main s_closed s_panic set_main]; auto.
    + exists old, pl. split; [auto|]. split; [auto|]. split; [auto|]. split; [auto|]. split; [auto|].
      split; [rewrite inforce_app; auto|]. split; [auto|].
      intros X. destruct (N1 X) as [N2 N3]. rewrite accepted_app, evaluated_app. cbn [accepted evaluated emitted flat_map]. rewrite !app_nil_r. split; auto. intros c. rewrite emitted_app. cbn. rewrite app_nil_r. auto.
    + cbn. cbn in IM. exists []. auto.
    + rewrite accepted_app, evaluated_app. cbn [accepted evaluated emitted flat_map]. rewrite !app_nil_r. auto.
    + intros c. specialize (IE c). rewrite evaluated_app, emitted_app. cbn [evaluated emitted flat_map]. rewrite !app_nil_r. auto.
    + rewrite taken_app, accepted_app, IT. cbn. now rewrite !app_nil_r.
    + rewrite published_app, installed_app. cbn. now rewrite !app_nil_r.
  - destruct cs as [|c0 cs].
    + destruct c; try discriminate; injection Hf as <- <-; unfold set_main; rewrite IX; eapply inv_quiet; rewrite ?Em; eauto; cbn; rewrite ?app_nil_r; auto.
      destruct IM as (pre & E1 & E2). rewrite app_nil_r in E1. congruence.
    + destruct c; try discriminate. destruct IM as (pre & E1 & E2).
      destruct (existsb (Nat.eqb c0) (s_closed s)) eqn:Ex.
      { exfalso. apply existsb_exists in Ex as (x & Hx & Hq). apply Nat.eqb_eq in Hq. subst x. rewrite E2, <- in_rev in Hx.
        rewrite E1 in ND. apply NoDup_remove_2 in ND. apply ND, in_app_iff. auto. }
      injection Hf as <- <-. rewrite IX. eapply inv_quiet; rewrite ?Em; eauto; cbn; rewrite ?app_nil_r; auto.
      exists (pre ++ [c0]). rewrite <- app_assoc, rev_app_distr, E2. auto.
  - destruct c; discriminate.
Qed.

Lemma inv_step p0 q0 s tr c s' l : NoDup outCh -> inv p0 q0 s tr -> fire s c = Some (s', l) -> inv p0 q0 s' (tr ++ [l]).
Proof.
  intros ND I Hf. unfold PoolModel.fire in Hf. rewrite (iv_panic _ _ _ _ I) in Hf.
  destruct c as [i|b| |g w|p]; eauto using inv_main_step, inv_worker.
  destruct (s_monq s) as [q|] eqn:Eq; [|discriminate].
  destruct (Nat.ltb (length q) mon_capacity); injection Hf as <- <-.
  - replace (s_panic s) with false by (symmetry; exact (iv_panic _ _ _ _ I)) || idtac. eapply inv_quiet; eauto using iv_main. unfold monq. rewrite Eq. reflexivity.
  - destruct s as [m pi pls mq cl pn]. cbn [s_main s_pi s_pools s_monq s_closed s_panic] in *.
    pose proof (iv_panic _ _ _ _ I) as Ex. cbn in Ex. subst pn.
    eapply (inv_quiet _ _ _ _ m mq cl (LDrop p) I); auto.
    + apply (iv_main _ _ _ _ I).
    + unfold monq; cbn. now rewrite app_nil_r.
Qed.
Lemma inv_reach p0 q0 s0 s tr : NoDup outCh -> starts conc p0 q0 s0 -> reach s0 s tr -> inv p0 q0 s tr.
Proof. intros ND Hs. induction 1; eauto using inv_start, inv_step. Qed.
End F.

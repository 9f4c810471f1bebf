(** * PoolFacts3: progress, termination, bypass, and the statements used in Props_Pool. *)
From Coq Require Import Lia.
From Verif Require Import GoBase PermTac PoolModel SpecPool PoolFacts PoolFacts2.

Section F.
Context {P R : Type}.
Variable proc : P -> R -> option R.
Variable conc : nat.
Variable outCh : list nat.
Notation fire := (fire proc conc outCh).
Notation run := (run proc conc outCh).
Notation reach := (reach proc conc outCh).
Notation inv := (inv proc conc outCh).
Notation L := (length outCh).
Implicit Types (s : st P R) (tr : list (label P R)) (pl : pool P R).

(** ** Termination *)
Definition wmu (w : @wst R) : nat := match w with WGone => 0 | WExit => 1 | WIdle => 2 | WOut _ cs => 3 + length cs | WEval _ => 4 + L end.
Definition pmu pl : nat := (3 + L) * length (pl_buf pl) + list_sum (map wmu (pl_ws pl)).
Definition mmu (m : mpc P R) : nat :=
  match m with
  | MEnd => 0 | MClose cs => 1 + length cs | MCleanWait => 2 + L | MClean => 3 + L | MRet => 4 + L | MRecv => 5 + L
  | MBypass _ cs => 6 + L + length cs | MSend _ => 9 + 2 * L | MWait _ _ => 10 + 2 * L + 2 * conc | MStop _ _ => 11 + 2 * L + 2 * conc
  | MHave _ => 12 + 2 * L + 2 * conc
  end.
Definition mu s : nat := if s_panic s then 0 else 1 + mmu (s_main s) + list_sum (map pmu (s_pools s)).

Lemma sum_upd {A} (f : A -> nat) l i x y : nth_error l i = Some x -> list_sum (map f (upd l i y)) + f x = list_sum (map f l) + f y.
Proof.
  intros H. destruct (upd_split _ _ _ H) as (a & b & -> & _ & U). rewrite U, !map_app, !list_sum_app. cbn. unfold list_sum. lia.
Qed.
Lemma cur_nth s g pl : cur s = Some (g, pl) -> nth_error (s_pools s) g = Some pl.
Proof. unfold cur. destruct (s_pi s) as [n|]; [|discriminate]. destruct (nth_error _ n) eqn:E; [|discriminate]. now intros [= <- <-]. Qed.
Lemma mu_step s c s' l : internal c = true -> fire s c = Some (s', l) -> mu s' < mu s.
Proof.
  intros Hc Hf. unfold PoolModel.fire in Hf. destruct (s_panic s) eqn:Ex; [discriminate|].
  assert (CR : mu (fst (crash s)) < mu s) by (unfold mu; cbn; rewrite Ex; lia).
  assert (MM : forall m', mmu m' < mmu (s_main s) -> forall mq pi, mu (mkSt m' pi (s_pools s) mq (s_closed s) (s_panic s)) < mu s).
  { intros m' H mq pi. unfold mu; cbn [s_panic s_main s_pools]. rewrite Ex. lia. }
  destruct c as [i|b| |g w|p]; try discriminate.
  - destruct i; [discriminate|]. unfold fire_main in Hf. destruct (s_main s) as [|r|r p|r p|r|r [|c cs]| | | |[|c cs]|] eqn:Em; try discriminate.
    injection Hf as <- <-. apply MM. cbn; lia.
  - unfold fire_main in Hf. destruct (s_main s) as [|r|r p|r p|r|r [|c cs]| | | |[|c cs]|] eqn:Em; try discriminate.
    destruct b, (s_pi s) as [g|]; destruct (s_monq s) as [[|p q]|]; injection Hf as <- <-; apply MM; cbn; lia.
  - unfold fire_main in Hf. destruct (s_main s) as [|r|r p|r p|r|r [|c cs]| | | |[|c cs]|] eqn:Em; try discriminate.
    + destruct (cur s) as [[g pl]|] eqn:Ec; [|discriminate]. apply cur_nth in Ec. destruct (pl_closed pl); injection Hf as <- <-; [exact CR|].
      unfold mu, set_main, set_pool; cbn [s_panic s_main s_pools]. rewrite Ex, Em. pose proof (sum_upd pmu _ _ _ (close_pool pl) Ec) as HS.
      change (pmu (close_pool pl)) with (pmu pl) in HS. cbn [mmu]. lia.
    + destruct (cur s) as [[g pl]|] eqn:Ec; [|discriminate]. destruct (pl_wg pl); [|discriminate]. injection Hf as <- <-.
      unfold mu; cbn [s_panic s_main s_pools]. rewrite Ex, Em, map_app, list_sum_app. cbn [map list_sum mmu fold_right].
      assert (HS : pmu (start_workers conc p) = 2 * conc).
      { unfold pmu; cbn [pl_buf pl_ws start_workers length]. rewrite Nat.mul_0_r. cbn [Nat.add]. clear. induction conc as [|k IH]; [reflexivity|]. cbn [repeat map]. change (list_sum (wmu WIdle :: map wmu (repeat WIdle k))) with (2 + list_sum (map wmu (repeat WIdle k))). lia. }
      rewrite HS. lia.
    + destruct (cur s) as [[g pl]|] eqn:Ec; [|discriminate]. apply cur_nth in Ec. destruct (pl_closed pl); [injection Hf as <- <-; exact CR|].
      destruct (Nat.ltb _ _); [|discriminate]. injection Hf as <- <-.
      unfold mu, set_main, set_pool; cbn [s_panic s_main s_pools]. rewrite Ex, Em.
      set (pl' := mkPool _ _ _ _ _). pose proof (sum_upd pmu _ _ _ pl' Ec) as HS.
      assert (pmu pl' = pmu pl + (3 + L)) by (unfold pmu, pl'; cbn [pl_buf pl_ws]; rewrite app_length; cbn [length]; rewrite Nat.mul_add_distr_l; lia). cbn [mmu]. lia.
    + injection Hf as <- <-. apply MM; cbn; lia.
    + unfold send_out in Hf. destruct (existsb _ _); injection Hf as <- <-; [exact CR|apply MM; cbn; lia].
    + injection Hf as <- <-. apply MM; cbn; lia.
    + destruct (cur s) as [[g pl]|] eqn:Ec.
      * apply cur_nth in Ec. destruct (pl_closed pl); injection Hf as <- <-; [exact CR|].
        unfold mu, set_main, set_pool; cbn [s_panic s_main s_pools]. rewrite Ex, Em. pose proof (sum_upd pmu _ _ _ (close_pool pl) Ec) as HS.
        change (pmu (close_pool pl)) with (pmu pl) in HS. cbn [mmu]. lia.
      * destruct (s_pi s); [discriminate|]. injection Hf as <- <-. unfold set_main. unfold mu; cbn [s_panic s_main s_pools]. rewrite Ex, Em. cbn [mmu length]. lia.
    + destruct (cur s) as [[g pl]|] eqn:Ec; [|discriminate]. destruct (pl_wg pl); [|discriminate]. injection Hf as <- <-. apply MM; cbn; lia.
    + injection Hf as <- <-. apply MM; cbn; lia.
    + destruct (existsb _ _); injection Hf as <- <-; [exact CR|]. unfold mu; cbn [s_panic s_main s_pools]. rewrite Ex, Em. cbn [mmu length]. lia.
  - unfold fire_worker in Hf. destruct (nth_error (s_pools s) g) as [pl|] eqn:Eg; [|discriminate].
    destruct (nth_error (pl_ws pl) w) as [x|] eqn:Ew; [|discriminate].
    assert (WM : forall y buf' cl' wg', (3 + L) * length buf' + wmu y < (3 + L) * length (pl_buf pl) + wmu x ->
       mu (set_pool s g (mkPool (pl_pol pl) buf' cl' wg' (upd (pl_ws pl) w y))) < mu s).
    { intros y buf' cl' wg' H. unfold mu, set_pool; cbn [s_panic s_main s_pools]. rewrite Ex.
      set (pl' := mkPool _ _ _ _ _). pose proof (sum_upd pmu _ _ _ pl' Eg) as HS.
      pose proof (sum_upd wmu _ _ _ y Ew) as HW.
      assert (pmu pl' < pmu pl) by (unfold pmu, pl'; cbn [pl_buf pl_ws]; lia). lia. }
    destruct x as [|r|r [|c cs]| |]; try discriminate.
    + destruct (pl_buf pl) as [|r buf] eqn:Eb.
      * destruct (pl_closed pl); [|discriminate]. injection Hf as <- <-. unfold set_w. rewrite Eb. apply WM. cbn [wmu length]. lia.
      * injection Hf as <- <-. apply WM. cbn [length wmu]. rewrite Nat.mul_succ_r. lia.
    + injection Hf as <- <-. unfold set_w. apply WM. destruct (proc (pl_pol pl) r); cbn [wmu]; lia.
    + injection Hf as <- <-. unfold set_w. apply WM. cbn [wmu length]; lia.
    + unfold send_out in Hf. destruct (existsb _ _); injection Hf as <- <-; [exact CR|]. unfold set_w. apply WM. cbn [wmu length]; lia.
    + injection Hf as <- <-. apply WM. cbn [wmu length]; lia.
Qed.
Lemma run_bounded cs : forall s s' tr, Forall (fun c => internal c = true) cs -> run s cs = (s', tr) -> length tr + mu s' <= mu s.
Proof.
  induction cs as [|c cs IH]; intros s s' tr HI; cbn.
  - intros [= <- <-]. cbn; lia.
  - inversion HI; subst. destruct (fire s c) as [[s1 l]|] eqn:E; [|now apply IH].
    destruct (run s1 cs) as [s2 ls] eqn:Er. intros [= <- <-]. apply IH in Er; auto. apply mu_step in E; auto. cbn. lia.
Qed.

(** ** Progress *)
Lemma worker_moves p0 q0 s tr old pl : inv p0 q0 s tr -> s_pools s = old ++ [pl] -> wf conc pl ->
  (exists w x, nth_error (pl_ws pl) w = Some x /\ x <> WGone /\ (x = WIdle -> pl_buf pl <> [] \/ pl_closed pl = true)) ->
  exists w s' l, fire s (CWorker (length old) w) = Some (s', l).
Proof.
  intros I Ep W (w & x & Ew & Hx & Hi). exists w. unfold PoolModel.fire. rewrite (iv_panic _ _ _ _ _ _ _ I).
  unfold fire_worker. rewrite Ep, nth_last, Ew. destruct x as [|r|r [|c cs]| |]; try congruence; eauto.
  - destruct (pl_buf pl) eqn:Eb; eauto. destruct (Hi eq_refl) as [H|H]; [congruence|]. rewrite H. eauto.
  - unfold send_out. destruct (existsb _ _); unfold crash; eauto.
Qed.
Lemma alive_exists (ws : list (@wst R)) : list_sum (map alive ws) <> 0 -> exists w x, nth_error ws w = Some x /\ x <> WGone.
Proof.
  induction ws as [|x ws IH]; cbn; [congruence|]. intros H. destruct x.
  all: try (exists 0; eexists; cbn; split; [reflexivity|discriminate]).
  cbn in H. destruct (IH H) as (w & y & E & D). exists (S w), y. auto.
Qed.
Lemma progress p0 q0 s tr : 0 < conc -> inv p0 q0 s tr -> s_main s <> MEnd -> s_main s <> MRecv ->
  exists c s' l, goes_on c = true /\ fire s c = Some (s', l).
Proof.
  intros HC I NE NR. pose proof I as [IP IM IC IE IT IB IX].
  destruct IP as (old & pl & Ep & Ei & F1 & W1 & C1 & P1 & O1 & N1).
  assert (Hcur : cur s = Some (length old, pl)) by (unfold cur; rewrite Ei, Ep, nth_last; auto).
  assert (HM : forall c, match c with CWorker _ _ | CPublish _ => False | _ => True end -> fire s c = fire_main conc outCh s c).
  { intros c H. unfold PoolModel.fire. rewrite IX. destruct c; tauto. }
  assert (WW : forall w s' l, fire s (CWorker (length old) w) = Some (s', l) -> exists c s' l, goes_on c = true /\ fire s c = Some (s', l)).
  { intros w s' l H. exists (CWorker (length old) w), s', l. auto. }
  destruct (s_main s) as [|r|r p|r p|r|r cs| | | |cs|] eqn:Em; try congruence.
  - exists (CExpired false). unfold fire_main in HM. rewrite (HM (CExpired false)), Em, Ei by exact Logic.I. destruct (s_monq s) as [[|p q]|]; eauto.
  - exists CMain. rewrite (HM CMain) by exact Logic.I. unfold fire_main. rewrite Em, Hcur, C1. cbn. eauto.
  - destruct (pl_wg pl) eqn:Eg.
    + exists CMain. rewrite (HM CMain) by exact Logic.I. unfold fire_main. rewrite Em, Hcur, Eg. eauto.
    + destruct W1 as (WL & WG & WB & WO).
      destruct (alive_exists (pl_ws pl)) as (w & x & Ew & Hx); [rewrite <- WG, Eg; discriminate|].
      destruct (worker_moves p0 q0 s tr old pl I Ep) as (w' & s' & l & Hf); eauto. { repeat split; auto; congruence. }
      exists w, x. split; auto.
  - destruct (Nat.lt_ge_cases (length (pl_buf pl)) conc) as [Lt|Ge].
    + exists CMain. rewrite (HM CMain) by exact Logic.I. unfold fire_main. rewrite Em, Hcur, C1. cbn [closing].
      apply Nat.ltb_lt in Lt. rewrite Lt. eauto.
    + destruct W1 as (WL & WG & WB & WO).
      destruct (pl_ws pl) as [|x ws] eqn:Ews; [cbn in WL; lia|].
      assert (Hx : live x). { destruct WO as [[WO _]|WO]; [rewrite C1 in WO; discriminate|]. now inversion WO. }
      destruct (worker_moves p0 q0 s tr old pl I Ep) as (w' & s' & l & Hf); eauto.
      { unfold wf. rewrite Ews. repeat split; auto. }
      exists 0, x. rewrite Ews. cbn. split; auto. split; [intros ->; exact Hx|]. intros _. left. intros E0. rewrite E0 in Ge. cbn in Ge. lia.
  - destruct IM.
  - exists CMain. rewrite (HM CMain) by exact Logic.I. unfold fire_main. rewrite Em. eauto.
  - exists CMain. rewrite (HM CMain) by exact Logic.I. unfold fire_main. rewrite Em, Hcur, C1. cbn. eauto.
  - destruct (pl_wg pl) eqn:Eg.
    + exists CMain. rewrite (HM CMain) by exact Logic.I. unfold fire_main. rewrite Em, Hcur, Eg. eauto.
    + destruct W1 as (WL & WG & WB & WO).
      destruct (alive_exists (pl_ws pl)) as (w & x & Ew & Hx); [rewrite <- WG, Eg; discriminate|].
      destruct (worker_moves p0 q0 s tr old pl I Ep) as (w' & s' & l & Hf); eauto. { repeat split; auto; congruence. }
      exists w, x. split; auto.
  - exists CMain. rewrite (HM CMain) by exact Logic.I. unfold fire_main. rewrite Em. destruct cs; eauto. destruct (existsb _ _); unfold crash; eauto.
Qed.

(** ** Statements *)
Lemma AXR p0 q s0 s tr : starts conc p0 q s0 -> reach s0 s tr -> aux s tr.
Proof. intros Hs Hr. eapply aux_reach; eauto. eapply aux_start; eauto. Qed.
Lemma pool_exactly_once : NoDup outCh -> forall p0 q s0 cs s tr, starts conc p0 q s0 -> run s0 cs = (s, tr) -> finished s ->
  Permutation (taken tr) (map snd (evaluated tr)) /\ Permutation (accepted p0 tr) (evaluated tr) /\
  (forall c, In c outCh -> Permutation (emitted c tr) (due proc (evaluated tr))) /\ closed_outs tr = outCh /\ In LEof tr.
Proof.
  intros ND p0 q s0 cs s tr Hs Hr Hfin. apply run_reach in Hr. pose proof (inv_reach _ _ _ _ _ _ _ _ ND Hs Hr) as I.
  pose proof (AXR _ _ _ _ _ Hs Hr) as [A1 A2 A3 A4].
  assert (O : over (s_main s)) by (rewrite Hfin; exact Logic.I).
  destruct (inv_over _ _ _ _ _ _ _ I O) as [D Hh]. destruct (inv_drained _ _ _ _ _ _ _ ND I D) as [D1 D2].
  pose proof (iv_taken _ _ _ _ _ _ _ I) as T. rewrite Hh, app_nil_r in T.
  split. { rewrite T. now apply Permutation_map. }
  split; auto. split; auto. split.
  - pose proof (iv_main _ _ _ _ _ _ _ I) as M. rewrite Hfin in M. cbn in M. rewrite M in A2.
    apply (f_equal (@rev _)) in A2. now rewrite !rev_involutive in A2.
  - apply A1. now rewrite Hfin.
Qed.
Lemma pool_in_flight : NoDup outCh -> forall p0 q s0 cs s tr, starts conc p0 q s0 -> run s0 cs = (s, tr) ->
  (exists rest, Permutation (accepted p0 tr) (evaluated tr ++ rest) /\ length rest <= 2 * conc) /\
  (exists hand, taken tr = map snd (accepted p0 tr) ++ hand /\ length hand <= 1) /\ ~ In LPanic tr.
Proof.
  intros ND p0 q s0 cs s tr Hs Hr. apply run_reach in Hr. pose proof (inv_reach _ _ _ _ _ _ _ _ ND Hs Hr) as I.
  destruct (inv_flight _ _ _ _ _ _ _ I) as [H1 H2]. split; auto. split; auto.
  intros H. apply (ax_panic _ _ (AXR _ _ _ _ _ Hs Hr)) in H. rewrite (iv_panic _ _ _ _ _ _ _ I) in H. discriminate.
Qed.
Lemma pool_order : NoDup outCh -> conc = 1 -> forall p0 q s0 cs s tr, starts conc p0 q s0 -> run s0 cs = (s, tr) ->
  (exists rest, accepted p0 tr = evaluated tr ++ rest) /\
  (forall c, In c outCh -> exists rest, due proc (evaluated tr) = emitted c tr ++ rest).
Proof.
  intros ND HC p0 q s0 cs s tr Hs Hr. apply run_reach in Hr. pose proof (inv_reach _ _ _ _ _ _ _ _ ND Hs Hr) as I.
  destruct I as [IP _ _ _ _ _ _]. destruct IP as (old & pl & _ & _ & _ & _ & _ & _ & _ & N1). destruct (N1 HC) as [N2 N3].
  split; eauto. intros c Hc. specialize (N3 c). rewrite duec_due in N3 by auto. eauto.
Qed.
Lemma fire_close s c s' k : fire s c = Some (s', LCloseOut k) -> exists cs, s_main s = MClose (k :: cs) /\ ~ In k (s_closed s).
Proof.
  unfold PoolModel.fire. destruct (s_panic s); [discriminate|]. destruct c as [i|b| |g w|p].
  1-3: unfold fire_main; destruct (s_main s) as [|r|r p|r p|r|r [|c cs]| | | |[|c cs]|] eqn:Em; try discriminate; try (destruct i; discriminate).
  - destruct b, (s_pi s) as [g|]; destruct (s_monq s) as [[|p q]|]; discriminate.
  - destruct (cur s) as [[g pl]|]; [|discriminate]. destruct (pl_closed pl); discriminate.
  - destruct (cur s) as [[g pl]|]; [|discriminate]. destruct (pl_wg pl); discriminate.
  - destruct (cur s) as [[g pl]|]; [|discriminate]. destruct (pl_closed pl); [discriminate|]. destruct (Nat.ltb _ _); discriminate.
  - unfold send_out. destruct (existsb _ _); discriminate.
  - destruct (cur s) as [[g pl]|]; [destruct (pl_closed pl)|destruct (s_pi s)]; discriminate.
  - destruct (cur s) as [[g pl]|]; [|discriminate]. destruct (pl_wg pl); discriminate.
  - destruct (existsb (Nat.eqb c) (s_closed s)) eqn:E; [discriminate|]. intros [= <- <-]. exists cs. split; auto.
    intros H. assert (existsb (Nat.eqb c) (s_closed s) = true); [|congruence]. apply existsb_exists. exists c. split; auto. apply Nat.eqb_refl.
  - intros H. apply worker_main in H as (_ & _ & _ & _ & B & _). destruct (B k eq_refl).
  - destruct (s_monq s); [|discriminate]. destruct (Nat.ltb _ _); discriminate.
Qed.
Lemma fire_swap s c s' k : fire s c = Some (s', LSwap k) -> exists r g pl, s_main s = MWait r k /\ cur s = Some (g, pl) /\ pl_wg pl = 0.
Proof.
  unfold PoolModel.fire. destruct (s_panic s); [discriminate|]. destruct c as [i|b| |g w|p].
  1-3: unfold fire_main; destruct (s_main s) as [|r|r p|r p|r|r [|c cs]| | | |[|c cs]|] eqn:Em; try discriminate; try (destruct i; discriminate).
  - destruct b, (s_pi s) as [g|]; destruct (s_monq s) as [[|p q]|]; discriminate.
  - destruct (cur s) as [[g pl]|]; [|discriminate]. destruct (pl_closed pl); discriminate.
  - destruct (cur s) as [[g pl]|] eqn:Ec; [|discriminate]. destruct (pl_wg pl) eqn:Eg; [|discriminate]. intros [= <- <-]. exists r, g, pl. auto.
  - destruct (cur s) as [[g pl]|]; [|discriminate]. destruct (pl_closed pl); [discriminate|]. destruct (Nat.ltb _ _); discriminate.
  - unfold send_out. destruct (existsb _ _); discriminate.
  - destruct (cur s) as [[g pl]|]; [destruct (pl_closed pl)|destruct (s_pi s)]; discriminate.
  - destruct (cur s) as [[g pl]|]; [|discriminate]. destruct (pl_wg pl); discriminate.
  - destruct (existsb (Nat.eqb c) (s_closed s)) eqn:E; discriminate.
  - unfold fire_worker. destruct (nth_error _ g) as [pl|]; [|discriminate]. destruct (nth_error _ w) as [[|r|r [|c cs]| |]|]; try discriminate.
    + destruct (pl_buf pl); [destruct (pl_closed pl); [|discriminate]|]; intros [= <- <-].
    + unfold send_out. destruct (existsb _ _); discriminate.
  - destruct (s_monq s); [|discriminate]. destruct (Nat.ltb _ _); discriminate.
Qed.
Lemma pool_close : NoDup outCh -> forall p0 q s0 cs s tr, starts conc p0 q s0 -> run s0 cs = (s, tr) ->
  forall tr1 c tr2, tr = tr1 ++ LCloseOut c :: tr2 ->
  In LEof tr1 /\ map snd (accepted p0 tr1) = taken tr1 /\ Permutation (accepted p0 tr1) (evaluated tr1) /\
  (forall k, In k outCh -> Permutation (emitted k tr1) (due proc (evaluated tr1))) /\
  taken tr2 = [] /\ evaluated tr2 = [] /\ (forall k, emitted k tr2 = []) /\ ~ In c (closed_outs tr1) /\ ~ In c (closed_outs tr2).
Proof.
  intros ND p0 q s0 cs s tr Hs Hr tr1 c tr2 Etr. apply run_reach in Hr. pose proof (inv_reach _ _ _ _ _ _ _ _ ND Hs Hr) as I.
  destruct (reach_at _ _ _ _ _ _ Hr _ _ _ Etr) as (s1 & ch & s2 & Hr1 & Hf & Hr2).
  pose proof (inv_reach _ _ _ _ _ _ _ _ ND Hs Hr1) as I1. destruct (fire_close _ _ _ _ Hf) as (ks & Em & Hcl).
  assert (O : over (s_main s1)) by (rewrite Em; exact Logic.I).
  destruct (inv_over _ _ _ _ _ _ _ I1 O) as [D Hh]. destruct (inv_drained _ _ _ _ _ _ _ ND I1 D) as [D1 D2].
  pose proof (iv_taken _ _ _ _ _ _ _ I1) as T. rewrite Hh, app_nil_r in T.
  pose proof (AXR _ _ _ _ _ Hs Hr1) as [A1 A2 A3 A4].
  assert (Ev2 : forall tr2' s', reach s2 s' tr2' -> s_main s2 = MClose ks -> Forall dead (s_pools s2) ->
     over (s_main s') /\ Forall dead (s_pools s') /\ taken tr2' = [] /\ evaluated tr2' = [] /\ (forall k, emitted k tr2' = [])).
  { intros tr2' s' H Em2 D'. induction H as [|sa tra ca sb lb Ha IH Hfa].
    - rewrite Em2. cbn. auto 9.
    - destruct IH as (B1 & B2 & B3 & B4 & B5). rewrite taken_app, evaluated_app, B3, B4.
      assert (X : over (s_main sb) /\ Forall dead (s_pools sb) /\ taken [lb] = [] /\ evaluated [lb] = [] /\ (forall k, emitted k [lb] = [])).
      { clear -Hfa B1 B2. unfold PoolModel.fire in Hfa. destruct (s_panic sa); [discriminate|]. destruct ca as [i|b| |g w|p].
        1-3: unfold fire_main in Hfa; destruct (s_main sa) as [|r|r p|r p|r|r [|c cs]| | | |[|c cs]|] eqn:Em; try discriminate; try destruct B1.
        - injection Hfa as <- <-. cbn. auto 9.
        - unfold crash in Hfa. destruct (existsb _ _); injection Hfa as <- <-; cbn; rewrite ?Em; cbn; auto 9.
        - exfalso. unfold fire_worker in Hfa. destruct (nth_error _ g) as [pl|] eqn:Eg; [|discriminate]. destruct (nth_error _ w) as [x|] eqn:Ew; [|discriminate].
          apply nth_error_In in Eg. rewrite Forall_forall in B2. apply B2 in Eg as (_ & _ & G). rewrite Forall_forall in G. apply nth_error_In in Ew. apply G in Ew. subst. discriminate.
        - destruct (s_monq sa); [|discriminate]. destruct (Nat.ltb _ _); injection Hfa as <- <-; cbn; auto 9. }
      destruct X as (X1 & X2 & X3 & X4 & X5). rewrite X3, X4. split; auto. split; auto. split; auto. split; auto.
      intros k. rewrite emitted_app, B5, X5. auto. }
  assert (X2 : s_main s2 = MClose ks /\ s_pools s2 = s_pools s1).
  { clear -Hf Em. unfold PoolModel.fire in Hf. destruct (s_panic s1); [discriminate|]. destruct ch as [i|b| |g w|p].
    1-3: unfold fire_main in Hf; rewrite Em in Hf; try discriminate.
    - destruct (existsb _ _); [discriminate|]. injection Hf as <-. auto.
    - apply worker_main in Hf as (_ & _ & _ & _ & B & _). destruct (B c eq_refl).
    - destruct (s_monq s1); [|discriminate]. destruct (Nat.ltb _ _); discriminate. }
  destruct X2 as [X2 X3]. rewrite <- X3 in D. destruct (Ev2 _ _ Hr2 X2 D) as (_ & _ & B3 & B4 & B5).
  split. { apply A1. rewrite Em. auto. }
  split; auto. split; auto. split; auto. split; auto. split; auto. split; auto. split.
  - rewrite in_rev, A2. auto.
  - pose proof (AXR _ _ _ _ _ Hs Hr) as [_ Z2 _ _].
    pose proof (iv_main _ _ _ _ _ _ _ I) as M.
    assert (NDc : NoDup (closed_outs tr)).
    { rewrite <- (rev_involutive (closed_outs tr)), Z2. apply NoDup_rev. clear -M ND.
      unfold main_ok in M. destruct (s_main s); try (rewrite M; constructor); try contradiction.
      - destruct M as (pre & E & ->). rewrite E in ND. apply NoDup_rev. clear -ND. induction pre; [constructor|]. inversion ND; subst. constructor; auto. rewrite in_app_iff in *. tauto.
      - rewrite M. now apply NoDup_rev. }
    rewrite Etr in NDc. unfold closed_outs in *. rewrite flat_map_app in NDc. cbn in NDc. apply NoDup_remove_2 in NDc. rewrite in_app_iff in NDc. tauto.
Qed.
Lemma inv_prefix p0 q0 s tr : inv p0 q0 s tr -> exists rest, q0 ++ published tr = installed tr ++ rest.
Proof. intros I. rewrite (iv_pub _ _ _ _ _ _ _ I). eauto. Qed.
Lemma pool_swap : NoDup outCh -> forall p0 q s0 cs s tr, starts conc p0 q s0 -> run s0 cs = (s, tr) ->
  (exists rest, q ++ published tr = installed tr ++ rest) /\
  forall tr1 p tr2, tr = tr1 ++ LSwap p :: tr2 ->
  Permutation (accepted p0 tr1) (evaluated tr1) /\
  (forall k, In k outCh -> Permutation (emitted k tr1) (due proc (evaluated tr1))) /\
  (exists rest, Permutation (accepted p tr2) (evaluated tr2 ++ rest) /\ (finished s -> rest = [])).
Proof.
  intros ND p0 q s0 cs s tr Hs Hr. apply run_reach in Hr. pose proof (inv_reach _ _ _ _ _ _ _ _ ND Hs Hr) as I.
  split; [eapply inv_prefix; eauto|]. intros tr1 p tr2 Etr.
  destruct (reach_at _ _ _ _ _ _ Hr _ _ _ Etr) as (s1 & ch & s2 & Hr1 & Hf & Hr2).
  pose proof (inv_reach _ _ _ _ _ _ _ _ ND Hs Hr1) as I1. destruct (fire_swap _ _ _ _ Hf) as (r & g & pl & Em & Ec & Eg).
  assert (D : Forall dead (s_pools s1)).
  { pose proof I1 as [IP _ _ _ _ _ _]. destruct IP as (old & pl' & E1 & E2 & F1 & W1 & C1 & P1 & O1 & N1).
    unfold cur in Ec. rewrite E2, E1, nth_last in Ec. injection Ec as <- <-. rewrite E1. apply Forall_app. split; auto. constructor; auto.
    apply wf_dead with conc; auto. now rewrite C1, Em. }
  destruct (inv_drained _ _ _ _ _ _ _ ND I1 D) as [D1 D2]. split; auto. split; auto.
  pose proof (iv_cons _ _ _ _ _ _ _ I) as C. rewrite Etr, accepted_app, evaluated_app in C. cbn [accepted] in C.
  cbn [evaluated flat_map app] in C. fold (@evaluated P R tr2) in C. rewrite D1, <- app_assoc in C. apply Permutation_app_inv_l in C.
  exists (flat_map hpairs (s_pools s)). split; auto. intros Hfin. apply dead_flat; [apply dead_hpairs|].
  eapply inv_over; eauto. rewrite Hfin. exact Logic.I.
Qed.
Lemma pool_progress : NoDup outCh -> 0 < conc -> forall p0 q s0 cs s tr, starts conc p0 q s0 -> run s0 cs = (s, tr) ->
  s_panic s = false /\ (finished s \/ s_main s = MRecv \/ exists c s' l, goes_on c = true /\ fire s c = Some (s', l)).
Proof.
  intros ND HC p0 q s0 cs s tr Hs Hr. apply run_reach in Hr. pose proof (inv_reach _ _ _ _ _ _ _ _ ND Hs Hr) as I.
  split; [apply (iv_panic _ _ _ _ _ _ _ I)|].
  unfold finished. destruct (s_main s) eqn:Em; auto; right; right; eapply progress; eauto; congruence.
Qed.
Lemma pool_terminates : forall s, exists n, forall cs s' tr, Forall (fun c => internal c = true) cs -> run s cs = (s', tr) -> length tr <= n.
Proof. intros s. exists (mu s). intros cs s' tr HI Hr. apply run_bounded in Hr; auto. lia. Qed.
Lemma run_app a b : forall s s1 t1 s2 t2, run s a = (s1, t1) -> run s1 b = (s2, t2) -> run s (a ++ b) = (s2, t1 ++ t2).
Proof.
  induction a as [|c a IH]; intros s s1 t1 s2 t2; cbn.
  - intros [= <- <-]. auto.
  - destruct (fire s c) as [[s' l]|]; eauto. destruct (run s' a) as [s'' ls] eqn:E. intros [= <- <-] Hb. now rewrite (IH _ _ _ _ _ E Hb).
Qed.
(** From any reachable state the plugin can be driven to completion by its own steps and closing
    its input. *)
Lemma pool_completes : NoDup outCh -> 0 < conc -> forall p0 q s0 cs s tr, starts conc p0 q s0 -> run s0 cs = (s, tr) ->
  exists cs' s' tr', Forall (fun c => internal c = true) cs' /\ run s cs' = (s', tr') /\ finished s'.
Proof.
  intros ND HC p0 q s0 cs s tr Hs Hr. remember (mu s) as n eqn:En. revert cs s tr Hr En.
  induction n as [n IH] using lt_wf_ind. intros cs s tr Hr En.
  destruct (pool_progress ND HC _ _ _ _ _ _ Hs Hr) as [Px [Hfin|H]].
  - exists [], s, []. auto.
  - assert (X : exists c s1 l, internal c = true /\ fire s c = Some (s1, l)).
    { destruct H as [Em|(c & s1 & l & Hg & Hf)].
      - exists (CInput None). unfold PoolModel.fire. rewrite Px. unfold fire_main. rewrite Em. eauto.
      - exists c, s1, l. split; auto. destruct c; auto; discriminate. }
    destruct X as (c & s1 & l & Hi & Hf).
    assert (R1 : run s [c] = (s1, [l])) by (cbn; now rewrite Hf).
    destruct (IH (mu s1)) with (cs := cs ++ [c]) (s := s1) (tr := tr ++ [l]) as (cs' & s' & tr' & HF & Hr' & Hfin); auto.
    { subst n. eapply mu_step; eauto. } { eapply run_app; eauto. }
    exists (c :: cs'), s', (l :: tr'). split; [constructor; auto|]. split; auto. cbn. now rewrite Hf, Hr'.
Qed.

(** ** Bypass *)
Definition bpend (c : nat) (m : mpc P R) : list R :=
  match m with MHave r => repeat r (count_occ Nat.eq_dec outCh c) | MBypass r cs => repeat r (count_occ Nat.eq_dec cs c) | _ => [] end.
Record binv s tr : Prop := mkB {
  b_pi : s_pi s = None; b_pools : s_pools s = []; b_q : s_monq s = None; b_panic : s_panic s = false;
  b_main : match s_main s with
           | MStop _ _ | MWait _ _ | MSend _ | MCleanWait => False
           | m => main_ok outCh (match m with MBypass _ _ => MRecv | _ => m end) (s_closed s) end;
  b_suf : match s_main s with MBypass _ cs => exists pre, outCh = pre ++ cs | _ => True end;
  b_eq : forall c, flat_map (fun r => repeat r (count_occ Nat.eq_dec outCh c)) (taken tr) = emitted c tr ++ bpend c (s_main s);
  b_ev : evaluated tr = [] }.
Lemma binv_step s tr c s' l : NoDup outCh -> binv s tr -> fire s c = Some (s', l) -> binv s' (tr ++ [l]).
Proof.
  intros ND [B1 B2 B3 B4 B5 BS B6 B7] Hf. unfold PoolModel.fire in Hf. rewrite B4 in Hf.
  assert (TT : forall r, flat_map (fun r => repeat r (count_occ Nat.eq_dec outCh r)) [r] = repeat r (count_occ Nat.eq_dec outCh r)) by (intros; cbn; now rewrite app_nil_r).
  destruct c as [i|b| |g w|p].
  1-3: unfold fire_main in Hf; destruct (s_main s) as [|r|r p|r p|r|r [|k cs]| | | |[|k cs]|] eqn:Em; try discriminate; try contradiction.
  - destruct i as [r|]; injection Hf as <- <-; constructor; cbn; auto.
    + intros k. specialize (B6 k). cbn [bpend] in B6. rewrite taken_app, emitted_app, flat_map_app, B6. cbn. now rewrite !app_nil_r.
    + rewrite evaluated_app, B7. auto.
    + intros k. specialize (B6 k). cbn [bpend] in B6. rewrite taken_app, emitted_app, flat_map_app, B6. cbn. now rewrite !app_nil_r.
    + rewrite evaluated_app, B7. auto.
  - rewrite B1 in Hf. destruct b; injection Hf as <- <-; constructor; cbn; auto.
    1,4: exists []; reflexivity.
    1,3: intros k; specialize (B6 k); cbn [bpend] in B6; rewrite taken_app, emitted_app, flat_map_app, B6; cbn; now rewrite !app_nil_r.
    all: rewrite evaluated_app, B7; auto.
  - injection Hf as <- <-; constructor; cbn; auto.
    + intros k. specialize (B6 k). cbn [bpend count_occ repeat] in B6. rewrite taken_app, emitted_app, flat_map_app, B6. cbn. now rewrite !app_nil_r.
    + rewrite evaluated_app, B7. auto.
  - unfold send_out in Hf. cbn in B5. rewrite B5 in Hf. cbn in Hf. injection Hf as <- <-; constructor; cbn; auto.
    + destruct BS as (pre & E). exists (pre ++ [k]). now rewrite <- app_assoc.
    + intros j. specialize (B6 j). cbn [bpend count_occ] in B6. rewrite taken_app, emitted_app, flat_map_app, B6. cbn.
      destruct (Nat.eq_dec k j) as [->|Hn]; [rewrite Nat.eqb_refl|destruct (Nat.eqb_spec j k); [congruence|]]; cbn; now rewrite !app_nil_r, <- ?app_assoc.
    + rewrite evaluated_app, B7. auto.
  - injection Hf as <- <-; constructor; cbn; auto.
    + intros k. specialize (B6 k). cbn [bpend] in B6. rewrite taken_app, emitted_app, flat_map_app, B6. cbn. now rewrite !app_nil_r.
    + rewrite evaluated_app, B7. auto.
  - unfold cur in Hf. rewrite B1 in Hf. injection Hf as <- <-; constructor; cbn; auto.
    + exists []. auto.
    + intros k. specialize (B6 k). cbn [bpend] in B6. rewrite taken_app, emitted_app, flat_map_app, B6. cbn. now rewrite !app_nil_r.
    + rewrite evaluated_app, B7. auto.
  - injection Hf as <- <-; constructor; cbn; auto.
    + destruct B5 as (pre & E & ->). rewrite app_nil_r in E. congruence.
    + intros k. specialize (B6 k). cbn [bpend] in B6. rewrite taken_app, emitted_app, flat_map_app, B6. cbn. now rewrite !app_nil_r.
    + rewrite evaluated_app, B7. auto.
  - destruct B5 as (pre & E1 & E2). destruct (existsb (Nat.eqb k) (s_closed s)) eqn:Ex.
    { exfalso. apply existsb_exists in Ex as (x & Hx & Hq). apply Nat.eqb_eq in Hq. subst x. rewrite E2, <- in_rev in Hx.
      rewrite E1 in ND. apply NoDup_remove_2 in ND. apply ND, in_app_iff. auto. }
    injection Hf as <- <-; constructor; cbn; auto.
    + exists (pre ++ [k]). rewrite <- app_assoc, rev_app_distr, E2. auto.
    + intros j. specialize (B6 j). cbn [bpend] in B6. rewrite taken_app, emitted_app, flat_map_app, B6. cbn. now rewrite !app_nil_r.
    + rewrite evaluated_app, B7. auto.
  - unfold fire_worker in Hf. rewrite B2 in Hf. destruct g; discriminate.
  - rewrite B3 in Hf. discriminate.
Qed.
Lemma binv_reach s tr : NoDup outCh -> reach init_bypass s tr -> binv s tr.
Proof. intros ND. induction 1; eauto using binv_step. constructor; cbn; auto. Qed.
Lemma flat_single (l : list R) : flat_map (fun r => [r]) l = l.
Proof. induction l; cbn; congruence. Qed.
Lemma pool_bypass : NoDup outCh -> forall cs s tr, run init_bypass cs = (s, tr) ->
  (forall c, In c outCh -> exists rest, taken tr = emitted c tr ++ rest /\ length rest <= 1 /\ (In LReturn tr -> rest = [])) /\
  evaluated tr = [] /\ ~ In LPanic tr /\ (finished s -> closed_outs tr = outCh).
Proof.
  intros ND cs s tr Hr. apply run_reach in Hr. pose proof (binv_reach _ _ ND Hr) as [B1 B2 B3 B4 B5 BS B6 B7].
  pose proof (aux_reach _ _ _ _ _ _ aux_bypass Hr) as [A1 A2 A3 A4]. split; [|split; [auto|split]].
  - intros c Hc. specialize (B6 c). assert (H1 : count_occ Nat.eq_dec outCh c = 1) by (apply NoDup_count_occ'; auto). rewrite H1 in B6. cbn in B6.
    rewrite flat_single in B6. exists (bpend c (s_main s)). split; auto.
    assert (H2 : match s_main s with MBypass _ cs => count_occ Nat.eq_dec cs c <= 1 | _ => True end).
    { destruct (s_main s); auto. destruct BS as (pre & E). rewrite E, count_occ_app in H1. lia. }
    split.
    + destruct (s_main s); cbn; auto. * rewrite repeat_length. lia. * rewrite repeat_length. lia.
    + intros HR. apply A3 in HR as [HR _]. destruct (s_main s); auto; discriminate.
  - intros H. apply A4 in H. congruence.
  - intros Hfin. rewrite Hfin in B5. cbn in B5. rewrite B5 in A2. apply (f_equal (@rev _)) in A2. now rewrite !rev_involutive in A2.
Qed.
End F.
Section Z.
Context {P R : Type}.
Variable proc : P -> R -> option R.
Variable outCh : list nat.
Lemma pool_zero (p0 : P) (r : R) cs s tr :
  run proc 0 outCh (init_static 0 p0) (CInput (Some r) :: cs) = (s, tr) ->
  ~ finished s /\ taken tr = [r] /\ evaluated tr = [] /\ (forall c, emitted c tr = []) /\ closed_outs tr = [].
Proof.
  cbn [run]. change (fire proc 0 outCh (init_static 0 p0) (CInput (Some r))) with (Some (set_main (init_static 0 p0) (MHave r), @LTake P R r)).
  cbv beta iota. set (s1 := set_main _ _). destruct (run proc 0 outCh s1 cs) as [s2 ls] eqn:E. intros [= <- <-].
  apply run_reach in E.
  assert (G : (exists m, (m = MHave r \/ m = MSend r) /\ s2 = mkSt m (Some 0) [start_workers 0 p0] None [] false) /\
              taken ls = [] /\ evaluated ls = [] /\ (forall c, emitted c ls = []) /\ closed_outs ls = []).
  { subst s1. induction E as [|sa tra ca sb lb Ha IH Hf].
    - split; [|cbn; auto]. exists (MHave r). auto.
    - destruct IH as ((m & Hm & ->) & T & V & M & C). unfold fire in Hf. cbn in Hf.
      assert (X : sb = mkSt (MSend r) (Some 0) [start_workers 0 p0] None [] false /\ lb = LTau).
      { destruct ca as [i|b| |g w|p].
        - destruct Hm as [-> | ->]; discriminate.
        - destruct Hm as [-> | ->]; [|discriminate]. cbn in Hf. now injection Hf as <- <-.
        - destruct Hm as [-> | ->]; discriminate.
        - unfold fire_worker in Hf. cbn in Hf. destruct g as [|g]; cbn in Hf; [destruct w; discriminate|]. destruct g; discriminate.
        - discriminate. }
      destruct X as [-> ->]. split; [exists (MSend r); auto|].
      rewrite taken_app, evaluated_app, T, V. unfold closed_outs in *. rewrite flat_map_app, C. cbn. repeat split; auto.
      intros c. rewrite emitted_app, M. auto. }
  destruct G as ((m & Hm & ->) & T & V & M & C). split; [|cbn; fold (@taken P R ls); fold (@evaluated P R ls); rewrite T, V; auto].
  - unfold finished. cbn. destruct Hm as [-> | ->]; discriminate.
Qed.
End Z.

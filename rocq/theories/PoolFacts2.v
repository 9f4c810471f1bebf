(** * PoolFacts2: consequences of the invariant; progress and termination; bypass. *)
From Coq Require Import Lia.
From Verif Require Import GoBase PermTac PoolModel SpecPool PoolFacts.

Section F.
Context {P R : Type}.
Variable proc : P -> R -> option R.
Variable conc : nat.
Variable outCh : list nat.
Notation fire := (fire proc conc outCh).
Notation run := (run proc conc outCh).
Notation reach := (reach proc conc outCh).
Notation inv := (inv proc conc outCh).
Implicit Types (s : st P R) (tr : list (label P R)) (pl : pool P R).

Lemma duec_due c evs : NoDup outCh -> In c outCh -> duec proc outCh c evs = due proc evs.
Proof.
  intros ND Hc. unfold duec, due. apply flat_map_ext. intros [p r]. cbn. destruct (proc p r); auto.
  assert (H1 : count_occ Nat.eq_dec outCh c = 1) by (apply NoDup_count_occ'; auto). rewrite H1. reflexivity.
Qed.
Lemma hpairs_len pl : wf conc pl -> length (hpairs pl) <= 2 * conc.
Proof.
  intros (WL & _ & WB & _). unfold hpairs. rewrite map_length, app_length.
  assert (length (flat_map whand (pl_ws pl)) <= length (pl_ws pl)); [|lia].
  clear. induction (pl_ws pl) as [|w ws IH]; cbn; auto. rewrite app_length. destruct w; cbn; lia.
Qed.
Lemma dead_flat (A : Type) (f : pool P R -> list A) l : (forall pl, dead pl -> f pl = []) -> Forall dead l -> flat_map f l = [].
Proof. intros Hf. induction 1; cbn; auto. rewrite Hf by auto. auto. Qed.

(** At any moment *)
Lemma inv_flight p0 q0 s tr : inv p0 q0 s tr ->
  (exists rest, Permutation (accepted p0 tr) (evaluated tr ++ rest) /\ length rest <= 2 * conc) /\
  (exists hand, taken tr = map snd (accepted p0 tr) ++ hand /\ length hand <= 1).
Proof.
  intros I. destruct I as [IP IM IC IE IT IB IX]. destruct IP as (old & pl & E1 & E2 & F1 & W1 & _). split.
  - exists (hpairs pl). split; [|now apply hpairs_len].
    rewrite E1, flat_map_app in IC. rewrite (dead_flat _ _ _ dead_hpairs F1) in IC. cbn in IC. rewrite app_nil_r in IC. auto.
  - eexists. split; [eauto|]. destruct (s_main s); cbn; auto.
Qed.
(** When the current pool is dead *)
Lemma inv_drained p0 q0 s tr : NoDup outCh -> inv p0 q0 s tr -> Forall dead (s_pools s) ->
  Permutation (accepted p0 tr) (evaluated tr) /\
  (forall c, In c outCh -> Permutation (emitted c tr) (due proc (evaluated tr))).
Proof.
  intros ND I HD. destruct I as [IP IM IC IE IT IB IX]. split.
  - rewrite (dead_flat _ _ _ dead_hpairs HD), app_nil_r in IC. auto.
  - intros c Hc. specialize (IE c). rewrite (dead_flat _ _ _ (dead_pend c) HD), app_nil_r, duec_due in IE by auto. now symmetry.
Qed.
Lemma inv_over p0 q0 s tr : inv p0 q0 s tr -> over (s_main s) -> Forall dead (s_pools s) /\ mhand (s_main s) = [].
Proof.
  intros I O. destruct I as [IP IM IC IE IT IB IX]. destruct IP as (old & pl & E1 & E2 & F1 & W1 & C1 & P1 & O1 & N1).
  rewrite E1. split; [apply Forall_app; auto|]. destruct (s_main s); auto; destruct O.
Qed.

(** Input end *)
Definition ended (m : mpc P R) : bool := match m with MRet | MClean | MCleanWait | MClose _ | MEnd => true | _ => false end.
Record aux s tr : Prop := mkAux {
  ax_eof : In LEof tr <-> ended (s_main s) = true;
  ax_closed : rev (closed_outs tr) = s_closed s;
  ax_ret : In LReturn tr <-> (ended (s_main s) = true /\ s_main s <> MRet);
  ax_panic : In LPanic tr -> s_panic s = true }.
Lemma worker_main s g w s' l : fire_worker proc outCh s g w = Some (s', l) ->
  s_main s' = s_main s /\ s_closed s' = s_closed s /\ l <> LEof /\ l <> LReturn /\ (forall c, l <> LCloseOut c) /\ (l = LPanic -> s_panic s' = true) /\ (forall r, l <> LTake r).
Proof.
  unfold fire_worker. destruct (nth_error _ g) as [pl|]; [|discriminate]. destruct (nth_error _ w) as [[|r|r [|c cs]| |]|]; try discriminate.
  - destruct (pl_buf pl); [destruct (pl_closed pl); [|discriminate]|]; intros [= <- <-]; cbn; repeat split; auto; discriminate.
  - intros [= <- <-]; cbn; repeat split; auto; discriminate.
  - intros [= <- <-]; cbn; repeat split; auto; discriminate.
  - unfold send_out, crash. destruct (existsb _ _); intros [= <- <-]; cbn; repeat split; auto; discriminate.
  - intros [= <- <-]; cbn; repeat split; auto; discriminate.
Qed.
Lemma aux_step s tr c s' l : aux s tr -> s_panic s = false -> fire s c = Some (s', l) -> aux s' (tr ++ [l]).
Proof.
  intros [A1 A2 A3 A4] Px Hf. unfold PoolModel.fire in Hf. rewrite Px in Hf.
  assert (A4' : ~ In LPanic tr) by (intros H; apply A4 in H; congruence).
  assert (Q : forall m' mq' pls' pi' l', (l' = LEof -> False) -> (l' = LReturn -> False) -> (forall c, l' <> LCloseOut c) -> l' <> LPanic ->
     ended m' = ended (s_main s) -> (s_main s <> MRet) -> m' <> MRet -> aux (mkSt m' pi' pls' mq' (s_closed s) (s_panic s)) (tr ++ [l'])).
  { intros m' mq' pls' pi' l' B1 B2 B3 B4 B5 B6 B7. constructor; cbn [s_main s_closed s_panic].
    - rewrite in_app_iff; cbn. rewrite B5, A1. intuition.
    - unfold closed_outs. rewrite flat_map_app. fold (closed_outs tr). cbn. rewrite app_nil_r. destruct l'; cbn; rewrite ?app_nil_r; auto. destruct (B3 _ eq_refl).
    - rewrite in_app_iff; cbn. rewrite B5, A3. intuition.
    - rewrite in_app_iff; cbn. intuition congruence. }
  assert (CR : aux (mkSt (s_main s) (s_pi s) (s_pools s) (s_monq s) (s_closed s) true) (tr ++ [LPanic])).
  { constructor; cbn [s_main s_closed s_panic]; auto.
    - rewrite in_app_iff; cbn. rewrite A1. intuition discriminate.
    - unfold closed_outs. rewrite flat_map_app. fold (closed_outs tr). cbn. now rewrite app_nil_r.
    - rewrite in_app_iff; cbn. rewrite A3. intuition discriminate. }
  assert (W : forall g w, fire_worker proc outCh s g w = Some (s', l) -> aux s' (tr ++ [l])).
  { intros g w Hw. destruct (worker_main _ _ _ _ _ Hw) as (B1 & B2 & B3 & B4 & B5 & B6 & B7). constructor.
    - rewrite in_app_iff; cbn. rewrite B1, A1. intuition.
    - unfold closed_outs. rewrite flat_map_app. fold (closed_outs tr). cbn. rewrite app_nil_r, B2. destruct l; cbn; rewrite ?app_nil_r; auto. destruct (B5 _ eq_refl).
    - rewrite in_app_iff; cbn. rewrite B1, A3. intuition.
    - rewrite in_app_iff; cbn. intuition. }
  destruct c as [i|b| |g w|p]; eauto.
  1-3: unfold fire_main in Hf; destruct (s_main s) as [|r|r p|r p|r|r cs| | | |cs|] eqn:Em; try discriminate.
  - destruct i as [r|]; injection Hf as <- <-.
    + apply Q; try discriminate; auto.
    + constructor; cbn.
      * rewrite in_app_iff; cbn. tauto.
      * unfold closed_outs. rewrite flat_map_app. fold (closed_outs tr). cbn. now rewrite app_nil_r.
      * rewrite in_app_iff, A3. cbn. intuition discriminate.
      * rewrite in_app_iff; cbn. intuition discriminate.
  - destruct cs; discriminate.
  - destruct cs; discriminate.
  - destruct b, (s_pi s) as [g|]; [|..]; destruct (s_monq s) as [[|p q]|]; injection Hf as <- <-; apply Q; try discriminate; auto.
  - destruct cs; discriminate.
  - destruct cs; discriminate.
  - destruct (cur s) as [[g pl]|]; [|discriminate]. destruct (pl_closed pl); injection Hf as <- <-; [rewrite ?Em; apply CR|apply Q; try discriminate; auto].
  - destruct (cur s) as [[g pl]|]; [|discriminate]. destruct (pl_wg pl); [|discriminate]. injection Hf as <- <-. apply Q; try discriminate; auto.
  - destruct (cur s) as [[g pl]|]; [|discriminate]. destruct (pl_closed pl); [injection Hf as <- <-; rewrite ?Em; apply CR|].
    destruct (Nat.ltb _ _); [|discriminate]. injection Hf as <- <-. apply Q; try discriminate; auto.
  - destruct cs as [|c cs]; [injection Hf as <- <-; apply Q; try discriminate; auto|].
    unfold send_out, crash in Hf. destruct (existsb _ _); injection Hf as <- <-; [rewrite Em; apply CR|apply Q; try discriminate; auto].
  - injection Hf as <- <-. constructor; cbn.
    + rewrite in_app_iff, A1; cbn. intuition.
    + unfold closed_outs. rewrite flat_map_app. fold (closed_outs tr). cbn. now rewrite app_nil_r.
    + rewrite in_app_iff. cbn. intuition discriminate.
    + rewrite in_app_iff; cbn. intuition discriminate.
  - destruct (cur s) as [[g pl]|]; [|destruct (s_pi s); [discriminate|]].
    + destruct (pl_closed pl); injection Hf as <- <-; [rewrite ?Em; apply CR|apply Q; try discriminate; auto].
    + injection Hf as <- <-. apply Q; try discriminate; auto.
  - destruct (cur s) as [[g pl]|]; [|discriminate]. destruct (pl_wg pl); [|discriminate]. injection Hf as <- <-. apply Q; try discriminate; auto.
  - destruct cs as [|c cs]; [injection Hf as <- <-; apply Q; try discriminate; auto|].
    destruct (existsb _ _); injection Hf as <- <-; [rewrite ?Em; apply CR|]. constructor; cbn.
    + rewrite in_app_iff, A1; cbn. intuition discriminate.
    + unfold closed_outs. rewrite flat_map_app. fold (closed_outs tr). cbn. now rewrite rev_app_distr, A2.
    + rewrite in_app_iff, A3. cbn. intuition discriminate.
    + rewrite in_app_iff; cbn. intuition discriminate.
  - destruct (s_monq s) as [q|]; [|discriminate].
    assert (Q' : forall mq' l', (l' = LPublish p \/ l' = LDrop p) -> aux (mkSt (s_main s) (s_pi s) (s_pools s) mq' (s_closed s) (s_panic s)) (tr ++ [l'])).
    { intros mq' l' Hl. constructor; cbn [s_main s_closed s_panic].
      - rewrite in_app_iff; cbn. rewrite A1. destruct Hl as [-> | ->]; intuition discriminate.
      - unfold closed_outs. rewrite flat_map_app. fold (closed_outs tr). destruct Hl as [-> | ->]; cbn; now rewrite app_nil_r.
      - rewrite in_app_iff; cbn. rewrite A3. destruct Hl as [-> | ->]; intuition discriminate.
      - rewrite in_app_iff; cbn. destruct Hl as [-> | ->]; intuition discriminate. }
    destruct (Nat.ltb _ _); injection Hf as <- <-; [rewrite <- Px; apply Q'; auto|].
    destruct s as [m pi pls mq cl pn]. exact (Q' mq _ (or_intror eq_refl)).
Qed.
Lemma aux_reach s0 s tr : aux s0 [] -> reach s0 s tr -> aux s tr.
Proof.
  intros H0. induction 1; auto. eapply aux_step; eauto.
  destruct (s_panic s) eqn:E; auto. unfold PoolModel.fire in H1. rewrite E in H1. discriminate.
Qed.
Lemma aux_start p0 q0 s : starts conc p0 q0 s -> aux s [].
Proof. intros [->|[-> ->]]; constructor; cbn; intuition discriminate. Qed.
Lemma aux_bypass : aux init_bypass [].
Proof. constructor; cbn; intuition discriminate. Qed.
End F.

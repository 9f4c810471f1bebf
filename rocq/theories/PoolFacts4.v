(** * PoolFacts4: the plugin running the worker iteration of EngineModel. *)
From Coq Require Import Lia.
From Verif Require Import GoBase PermTac Predicates EngineModel SpecEngine EngineFacts PoolModel SpecPool PoolFacts PoolFacts2 PoolFacts3.

Section F.
Context {R : Type}.
Variable applicable : R -> rule R -> bool.
Variable add_rule : R -> rule R -> R.
Variable ah : ahandler R.
Variable m : mode.
Notation pset := (list (filter R) * list (rule R))%type.
(** One worker iteration as seen by the pool: the record pushed downstream, if any. *)
Definition engine_proc (p : pset) (r : R) : option R :=
  hd_error (outs (snd (work applicable add_rule ah m (fst p) (snd p) r))).

Lemma apply_rules_outs rules : forall r b, outs (snd (apply_rules applicable add_rule ah rules r b)) = [].
Proof.
  assert (A : forall names r, outs (snd (run_actions ah names r)) = []).
  { induction names as [|a names IH]; intros r; cbn; auto. destruct (find_action ah a) as [f|]; auto.
    destruct (f r) as [r1 e]. specialize (IH r1). destruct (run_actions ah names r1). cbn in *. auto. }
  induction rules as [|ru rules IH]; intros r b; cbn; auto.
  destruct (r_enabled ru && applicable r ru && c_eval (r_cond ru) r); auto.
  unfold handle_actions. specialize (A (r_actions ru) (add_rule r ru)). destruct (run_actions ah (r_actions ru) (add_rule r ru)) as [r2 es].
  specialize (IH r2 true). destruct (apply_rules applicable add_rule ah rules r2 true) as [[r3 mt] es']. cbn in *.
  unfold outs in *. rewrite flat_map_app, A, IH. auto.
Qed.
Lemma work_outs fs rules r : (length (outs (snd (work applicable add_rule ah m fs rules r))) <= 1)%nat.
Proof.
  unfold work. destruct (eval_filters fs r); cbn; auto.
  pose proof (apply_rules_outs rules r (match m with EnrichMode => true | AlertMode => false end)) as H.
  destruct (apply_rules _ _ _ rules r _) as [[r' mt] es]. cbn in *. destruct mt; cbn.
  - unfold outs in *. rewrite flat_map_app, H. cbn. lia.
  - rewrite H. cbn. lia.
Qed.
Lemma due_engine evs : due engine_proc evs = flat_map (fun pr => outs (snd (work applicable add_rule ah m (fst (fst pr)) (snd (fst pr)) (snd pr)))) evs.
Proof.
  unfold due. apply flat_map_ext. intros [[fs rules] r]. unfold engine_proc. cbn.
  pose proof (work_outs fs rules r) as H. destruct (outs _) as [|x [|y l]]; cbn in *; auto. lia.
Qed.
Lemma accepted_static (p0 : pset) (tr : list (label pset R)) : installed tr = [] -> accepted p0 tr = map (pair p0) (map snd (accepted p0 tr)).
Proof.
  induction tr as [|l tr IH]; cbn; auto. destruct l; cbn; auto; intros H; try discriminate; rewrite IH at 1; auto.
Qed.
Lemma Permutation_flat_map' {A B} (f : A -> list B) l l' : Permutation l l' -> Permutation (flat_map f l) (flat_map f l').
Proof. apply Permutation_flat_map. Qed.
Lemma pool_engine : forall conc outCh, NoDup outCh -> forall filters rules cs s tr,
  run engine_proc conc outCh (init_static conc (filters, rules)) cs = (s, tr) -> finished s ->
  forall c, In c outCh ->
  Permutation (emitted c tr) (flat_map (fun r => outs (snd (work applicable add_rule ah m filters rules r))) (taken tr)).
Proof.
  intros conc outCh ND filters rules cs s tr Hr Hfin c Hc.
  assert (Hs : starts conc (filters, rules) [] (init_static conc (filters, rules) : st pset R)) by (right; auto).
  destruct (pool_exactly_once _ _ _ ND _ _ _ _ _ _ Hs Hr Hfin) as (H1 & H2 & H3 & _).
  rewrite (H3 c Hc), due_engine.
  assert (Hq : published tr = []).
  { apply run_reach in Hr. clear -Hr.
    assert (G : s_monq s = None /\ published tr = []); [|tauto].
    induction Hr as [|s tr ch s' l H IH Hf]; [cbn; auto|]. destruct IH as [I1 I2]. rewrite published_app, I2. cbn [app].
    unfold fire in Hf. destruct (s_panic s); [discriminate|]. destruct ch as [i|b| |g w|p].
    - unfold fire_main in Hf. destruct (s_main s) as [|r|r p|r p|r|r [|k ks]| | | |[|k ks]|]; try discriminate. destruct i; injection Hf as <- <-; auto.
    - unfold fire_main in Hf. destruct (s_main s) as [|r|r p|r p|r|r [|k ks]| | | |[|k ks]|]; try discriminate. rewrite I1 in Hf. destruct (s_pi s); injection Hf as <- <-; auto.
    - unfold fire_main, send_out, crash in Hf. destruct (s_main s) as [|r|r p|r p|r|r [|k ks]| | | |[|k ks]|]; try discriminate.
      all: repeat match type of Hf with
        | (match ?x with _ => _ end) = _ => destruct x; try discriminate
        | Some (if ?x then _ else _) = _ => destruct x
        end; injection Hf as <- <-; auto.
    - unfold fire_worker, send_out, crash in Hf.
      repeat match type of Hf with
        | (match ?x with _ => _ end) = _ => destruct x; try discriminate
        | Some (if ?x then _ else _) = _ => destruct x
        end; injection Hf as <- <-; auto.
    - rewrite I1 in Hf. discriminate. }
  pose proof (inv_reach _ _ _ _ _ _ _ _ ND Hs (run_reach _ _ _ _ _ _ _ Hr)) as I. pose proof (iv_pub _ _ _ _ _ _ _ I) as B.
  rewrite Hq in B. cbn in B. symmetry in B. apply app_eq_nil in B as [B _].
  rewrite <- (Permutation_flat_map' _ _ _ H2). rewrite (accepted_static _ _ B).
  pose proof (iv_taken _ _ _ _ _ _ _ I) as T. rewrite Hfin in T. cbn in T. rewrite app_nil_r in T. rewrite <- T.
  generalize (taken tr). intros l. induction l as [|r l IH]; cbn [map flat_map]; auto. now apply Permutation_app_head.
Qed.
End F.

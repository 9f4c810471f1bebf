(** * Property C92: Sigma rules, from the rule files to what leaves the engine and the pipeline. *)
From Coq Require Import Lia Permutation.
From Verif Require ReaderModel SpecReader Props_Sigma.
From Verif Require Import GoBase GoFacts Predicates FlatRecord FieldTables Samples FalcoModel SpecFalco SpecFlat SigmaModel SpecSigma
  EngineModel EngineFlat SpecEngine SpecEngineFlat PoolModel SpecPool PoolFacts3 PoolFacts4 MonitorModel SpecMonitor InitModel SpecInit InitFacts LiveFacts
  FlattenModel SpecFlatten ExportModel SpecExport AppModel SpecApp AppFacts ChainModel SpecChain ChainFacts Props_Init Props_App Props_Chain.
Local Open Scope nat_scope.

Section S.
Variables (X : sfgo_fns) (M : gomap fieldmap) (pmatch : string -> string -> bool) (ord : srule -> list nat -> list (string * search)) (n : nat).
Variable (ah : ahandler sfrec).
(** The order in which a map of searches is walked may differ from one walk to the next. *)
Definition walks : Prop := forall r p, Permutation (ord r p) (sr_searches r).

(** C92.  The engine without a monitor: once it has finished, under every schedule and with any number
    of workers, each output channel received exactly what becomes of the records taken in, by the
    conditions of the Sigma rules under the policy directory, whatever actions are registered. *)
Theorem C92_rules_to_output :
  walks -> forall h conf d m outCh rd cs s tr,
  policies_in conf d -> language_is conf Sigma -> monitor_is conf NoneType -> mode_is conf m -> h_perf h = false -> NoDup outCh ->
  init (sf_ops X M) pmatch ord n h conf = Ok (Some rd) ->
  run (engine_proc (sf_applicable X M) sf_add ah m) (Z.to_nat (c_concurrency (rd_conf rd))) outCh (pool_start rd) cs = (s, tr) ->
  finished s ->
  exists maps rules, sigma_of h conf d (maps, rules) /\
  forall c, In c outCh ->
  exists os, Forall2 (s_disposed X M pmatch maps rules m) (taken tr) os /\ Permutation (emitted c tr) (concat os).
Proof.
  intros W h conf d m outCh rd cs s tr Hd Hl Hmon _ Hp ND Hi Hr Fi.
  destruct (static_gen (sf_ops X M) pmatch ord n (sf_applicable X M) sf_add ah m conf (fun h' => h_perf h' = false)
    (fun h' ms => sigma_of h' conf d ms) (fun ms => s_disposed X M pmatch (fst ms) (snd ms) m)
    (fun h' p Hh Hp => interpreter_sigma X M pmatch ord n W h' conf d ah m p Hd Hl Hh Hp) h d outCh rd cs s tr Hd Hmon Hp ND Hi Hr Fi) as ([maps rules] & G & Q).
  exists maps, rules. auto.
Qed.
(** With a monitored directory: eras, each governed by the Sigma rules some observation of the
    directory showed, in order. *)
Theorem C92_eras :
  walks -> forall h conf d m outCh rd chs s pol tr,
  policies_in conf d -> language_is conf Sigma -> monitor_is conf LocalType -> mode_is conf m -> h_perf h = false ->
  (forall h', In h' (batches chs) -> h_perf h' = false) -> NoDup outCh ->
  init (sf_ops X M) pmatch ord n h conf = Ok (Some rd) ->
  live_run (sf_ops X M) pmatch ord n (engine_proc (sf_applicable X M) sf_add ah m)
    (Z.to_nat (c_concurrency (rd_conf rd))) outCh (rd_conf rd) (live_start rd) chs = ((s, pol), tr) ->
  finished s ->
  exists hs eras, subseq hs (batches chs) /\ taken tr = concat (map snd eras) /\
    Forall2 (fun h' era => sigma_of h' conf d (fst era)) (h :: hs) eras /\
    forall c, In c outCh -> exists oss,
      Forall2 (fun era os => Forall2 (s_disposed X M pmatch (fst (fst era)) (snd (fst era)) m) (snd era) os) eras oss /\
      Permutation (emitted c tr) (concat (map (@concat sfrec) oss)).
Proof.
  intros W h conf d m outCh rd chs s pol tr Hd Hl Hmon _ Hp Hps ND Hi Hr Fi.
  exact (eras_gen (sf_ops X M) pmatch ord n (sf_applicable X M) sf_add ah m conf (fun h' => h_perf h' = false)
    (fun h' ms => sigma_of h' conf d ms) (fun ms => s_disposed X M pmatch (fst ms) (snd ms) m)
    (fun h' p Hh Hp => interpreter_sigma X M pmatch ord n W h' conf d ah m p Hd Hl Hh Hp) h d outCh rd chs s pol tr Hd Hmon Hp Hps ND Hi Hr Fi).
Qed.

(** The whole pipeline, as in C91. *)
Variables (P : payloads) (clk : nat -> Z) (ipstr : Z -> string) (jsonsvcs : list service -> string) (hash : flatrec -> Z).
Variables (buffer xstart : Z) (cap : nat).
Notation runs := (runs P clk ipstr jsonsvcs hash X M pmatch ord n ah buffer xstart cap).
Theorem C92_pipeline_monitored :
  walks -> forall h conf d m rd fconf rs acts tr s x,
  policies_in conf d -> language_is conf Sigma -> monitor_is conf LocalType -> mode_is conf m ->
  h_perf h = false -> (forall h', In h' (shown tr) -> h_perf h' = false) ->
  InitModel.init (sf_ops X M) pmatch ord n h conf = Ok (Some rd) ->
  (forall k, (clk k <= clk (S k))%Z) -> source_of rs acts -> SpecReader.Sane false rs ->
  runs rd fconf acts tr s -> exported s x ->
  exists ds out hs eras oss, Joined rs ds /\ Passed ipstr jsonsvcs hash fconf (events P ds) out /\
    subseq hs (shown tr) /\ map (fun fr => (fr, ctx_new)) out = concat (map snd eras) /\
    Forall2 (fun h' era => sigma_of h' conf d (fst era)) (h :: hs) eras /\
    Forall2 (fun era os => Forall2 (s_disposed X M pmatch (fst (fst era)) (snd (fst era)) m) (snd era) os) eras oss /\
    Permutation (concat (x_batches x)) (concat (map (@concat sfrec) oss)).
Proof.
  intros W h conf d m rd fconf rs acts tr s x Hd Hl Hmon Hm Hf Hfs Hi Mono A Sn H [Ex Ho].
  destruct (app_done _ _ _ _ _ _ _ _ _ _ _ _ _ _ cap fconf acts rs A Sn tr s x Mono H Ex Ho) as (ds & out & chs & e & pol & ltr & es & J & Pa & Lr & Fi & Tk & Bt & _ & Bs & _).
  rewrite <- (notes_proj _ _ _ _ _ _ _ _ _ _ _ _ _ _ cap fconf acts tr s H) in Bs.
  assert (Em : c_mode (rd_conf rd) = m).
  { destruct (proj1 (init_iff _ _ _ _ h conf d rd Hd) Hi) as (p & _ & _ & [[_ ->]|(_ & _ & ->)]); exact (mode_eq _ _ Hm). }
  rewrite Em in Lr. rewrite <- Bs in Hfs.
  destruct (C92_eras W h conf d m [2] rd chs e pol ltr Hd Hl Hmon Hm Hf Hfs nd2 Hi Lr Fi) as (hs & eras & S1 & T1 & F1 & C1).
  destruct (C1 2 (or_introl eq_refl)) as (oss & F2 & Pe). rewrite Bs in S1.
  exists ds, out, hs, eras, oss. rewrite Bt. rewrite Tk in T1. auto 10.
Qed.
Theorem C92_pipeline_static :
  walks -> forall h conf d m rd fconf rs acts tr s x,
  policies_in conf d -> language_is conf Sigma -> monitor_is conf NoneType -> mode_is conf m -> h_perf h = false ->
  InitModel.init (sf_ops X M) pmatch ord n h conf = Ok (Some rd) ->
  (forall k, (clk k <= clk (S k))%Z) -> source_of rs acts -> SpecReader.Sane false rs ->
  runs rd fconf acts tr s -> exported s x ->
  exists ds out maps rules os, Joined rs ds /\ Passed ipstr jsonsvcs hash fconf (events P ds) out /\
    sigma_of h conf d (maps, rules) /\
    Forall2 (fun fr o => s_disposed X M pmatch maps rules m (fr, ctx_new) o) out os /\
    Permutation (concat (x_batches x)) (concat os).
Proof.
  intros W h conf d m rd fconf rs acts tr s x Hd Hl Hmon Hm Hf Hi Mono A Sn H [Ex Ho].
  destruct (app_done _ _ _ _ _ _ _ _ _ _ _ _ _ _ cap fconf acts rs A Sn tr s x Mono H Ex Ho) as (ds & out & chs & e & pol & ltr & es & J & Pa & Lr & Fi & Tk & Bt & _).
  assert (Em : c_mode (rd_conf rd) = m).
  { destruct (proj1 (init_iff _ _ _ _ h conf d rd Hd) Hi) as (p & _ & _ & [[_ ->]|(_ & _ & ->)]); exact (mode_eq _ _ Hm). }
  rewrite Em in Lr. unfold live_start in Lr.
  destruct (live_projects _ _ _ _ _ _ _ _ _ _ _ _ _ _ Lr) as (cs & _ & _ & Hr & _).
  destruct (C92_rules_to_output W h conf d m [2] rd cs e ltr Hd Hl Hmon Hm Hf nd2 Hi Hr Fi) as (maps & rules & T & Q).
  destruct (Q 2 (or_introl eq_refl)) as (os & F2 & Pe). exists ds, out, maps, rules, os. rewrite Bt. repeat (split; [assumption|]). split; [|exact Pe].
  assert (F3 : Forall2 (s_disposed X M pmatch maps rules m) (map (fun fr => (fr, ctx_new)) out) os) by (rewrite <- Tk; exact F2).
  clear - F3. rename F3 into F2. revert os F2. induction out as [|fr out IH]; intros os F2; cbn [map] in F2; inversion F2 as [|? o ? os' D F']; subst; constructor; auto.
Qed.
End S.
Print Assumptions C92_rules_to_output.
Print Assumptions C92_eras.
Print Assumptions C92_pipeline_monitored.
Print Assumptions C92_pipeline_static.

(** A directory with one Sigma rule and a file that is not one; later the rule is gone. *)
Definition sx_host (r : option srule) : host :=
  mkHost (fun d => if seqb d "/pol" then Some ["a.yml"; "notes.yaml"] else None) (fun d => Some ["notes.yaml"])
    (fun _ => None) (fun _ => None) (fun p => if seqb p "a.yml" then Some r else Some None)
    (fun c => if seqb c "/map.yml" then Some Props_Sigma.ex_maps else None) true false.
Definition sx_conf (mon mode : string) : gomap cval :=
  [("policies", CStr "/pol"); ("language", CStr "sigma"); ("config", CStr "/map.yml"); ("monitor", CStr mon); ("mode", CStr mode); ("concurrency", CStr "1")].
Definition sx_init mon mode := init (sf_ops X0 mappers) Props_Sigma.ex_pmatch Props_Sigma.ex_ord 9 (sx_host (Some Props_Sigma.ex_rule)) (sx_conf mon mode).
Definition sx_live : list (lchoice sfrec) :=
  map LCh [CInput (Some (rec0, ctx_new)); CExpired true; CMain; CWorker 0 0; CWorker 0 0] ++
  [LFiles [mkEv op_write "notes.yaml"] (mkView (Some ["notes.yaml"]) (fun _ => Some "h2")) (Some ["notes.yaml"]) (sx_host None)] ++
  map LCh [CInput (Some (rec0, ctx_new)); CExpired true; CMain; CWorker 0 0; CWorker 0 0; CWorker 0 0; CWorker 0 0; CMain; CMain; CWorker 1 0; CWorker 1 0;
           CInput None; CMain; CMain; CWorker 1 0; CWorker 1 0; CMain; CMain; CMain].
Example C92_case :
  match sx_init "none" "alert", sx_init "local" "alert" with
  | Ok (Some rd), Ok (Some rd') =>
      (let (s, tr) := run (engine_proc (sf_applicable X0 mappers) sf_add ex_ah0 AlertMode) 1 [7] (pool_start rd) 
         [CInput (Some (rec0, ctx_new)); CExpired false; CMain; CWorker 0 0; CWorker 0 0; CWorker 0 0; CWorker 0 0; CInput None; CMain; CMain;
          CWorker 0 0; CWorker 0 0; CMain; CMain; CMain; CMain] in
       s_main s = MEnd /\ map (fun r => map (fun mt => (m_name mt, m_prio mt)) (ctx_getrules (snd r))) (emitted 7 tr) = [[("id1", PHigh); ("id1", PHigh)]]) /\
      (let '((s, _), tr) := live_run (sf_ops X0 mappers) Props_Sigma.ex_pmatch Props_Sigma.ex_ord 9
         (engine_proc (sf_applicable X0 mappers) sf_add ex_ah0 AlertMode) 1 [7] (rd_conf rd') (live_start rd') sx_live in
       s_main s = MEnd /\ length (taken tr) = 2 /\ length (installed tr) = 1 /\ map ex_names (emitted 7 tr) = [["id1"; "id1"]])
  | _, _ => False
  end.
Proof. vm_compute. repeat split; reflexivity. Qed.
Example C92_hypotheses_case :
  walks Props_Sigma.ex_ord /\ policies_in (sx_conf "local" "alert") "/pol" /\ language_is (sx_conf "local" "alert") Sigma /\
  monitor_is (sx_conf "local" "alert") LocalType /\ mode_is (sx_conf "local" "alert") AlertMode /\
  (forall h', In h' (batches sx_live) -> h_perf h' = false) /\
  sigma_of (sx_host (Some Props_Sigma.ex_rule)) (sx_conf "local" "alert") "/pol" (Props_Sigma.ex_maps, [Props_Sigma.ex_rule]) /\
  length (s_conditions [Props_Sigma.ex_rule]) = 3.
Proof.
  split; [exact Props_Sigma.C17_ord_case|]. split; [split; [reflexivity|discriminate]|].
  split; [left; exists "sigma"; split; [reflexivity|]; left; cbn; auto|].
  split; [left; exists "local"; split; [reflexivity|]; left; cbn; auto|].
  split; [left; exists "alert"; split; [reflexivity|]; left; cbn; auto|].
  split; [intros h' [<-|[]]; reflexivity|]. split; [|reflexivity].
  exists ["a.yml"; "notes.yaml"], "/map.yml". split; [reflexivity|]. split; [left; reflexivity|]. split; [reflexivity|].
  cbn [snd map]. change (readable [Some (Some Props_Sigma.ex_rule); Some None] [Props_Sigma.ex_rule]). repeat constructor.
Qed.

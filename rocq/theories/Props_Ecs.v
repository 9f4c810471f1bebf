(** * Props_Ecs: the ECS encoder (C37, C38, C66-C69). *)
From Coq Require Import Lia.
From Verif Require Import GoBase GoFacts Predicates SpecStrings FlatRecord FieldTables Samples FalcoModel SpecFalco SpecFlat EngineModel SpecEngine EngineFlat SpecEngineFlat EngineFacts2
  FlattenModel SpecFlatten EcsModel SpecEcs EcsFacts EcsFacts2 EcsFacts3.

(** ** C37: reason, severity and tags, on every record that is encoded ... *)
Theorem C37_policy_information X E version ecsversion fr ctx d : encode_ecs X E version ecsversion fr ctx = Ok d ->
  e_tags d = (ctx_gettags ctx ++ flat_map tag_texts (ctx_getrules ctx))%list /\
  match ctx_getrules ctx with
  | [] => forall m, e_event d = Some m -> mget "reason" m = None /\ mget "severity" m = None
  | rs => exists m, e_event d = Some m /\ mget "reason" m = Some (EStr (all_names rs)) /\ exists s, mget "severity" m = Some (EInt s) /\ severity_of rs s
  end.
Proof. exact (any_policy X E version ecsversion fr ctx d). Qed.
(** ... and from a Falco policy to the document: the reason names the declarations of the policy that fire on the
    event, in order. *)
Theorem C37_falco_end_to_end X E : (forall o, (0 <= op_bit E o)%Z) -> type_names X ->
  forall typ, map_str X mappers "sf.type" = Ok typ ->
  forall version ecsversion ipstr jsonsvcs x e n fs rules filters ah m,
  files_plain fs -> compile (sf_ops X mappers) n fs = Ok (Some (rules, filters)) -> benign ah ->
  (forall o d it, In (o, d) (rule_occs (occs [] fs)) -> In (OPrefilter it) (rd_opts d) -> clean_items it) ->
  let fr := flatten ipstr jsonsvcs x e in
  (forall od, In od (filter_occs (occs [] fs)) -> ~ filter_fires X mappers fr od) ->
  exists fired, selects (decl_fires X mappers typ fr) (rule_occs (occs [] fs)) fired /\
    (m = EnrichMode \/ fired <> [] ->
     exists r' d event, outs (snd (sf_work X mappers ah m filters rules (fr, ctx_new))) = [r'] /\
       encode_ecs X E version ecsversion (fst r') (snd r') = Ok d /\ e_event d = Some event /\
       mget "reason" event = match fired with [] => None | _ => Some (EStr (String.concat ", " (map (fun od => rd_name (snd od)) fired))) end).
Proof.
  intros B N typ T version ecsversion ipstr jsonsvcs x e n fs rules filters ah m P C Bn Cl fr NF.
  pose proof (falco_end_to_end X mappers typ T n fs rules filters ah m fr ctx_new P C Bn Cl) as H.
  destruct (sf_work X mappers ah m filters rules (fr, ctx_new)) as [r' es] eqn:W. destruct H as [_ H].
  destruct (H NF) as (fired & S & F & (new & Nw & Mk) & O & _).
  assert (Nm : map m_name (ctx_getrules (snd r')) = map m_name (ctx_getrules ctx_new) ++ map (fun od => rd_name (snd od)) fired).
  { rewrite Nw, map_app. f_equal. clear - Mk. induction Mk as [|[o d] mt l l' [Hn _] Mk IH]; [reflexivity|]. cbn [map snd]. now rewrite Hn, IH. } exists fired. split; [exact S|]. intros Em. exists r'.
  destruct (document X E ipstr jsonsvcs B N version ecsversion x e (snd r')) as (d & Ed & D & _). destruct (d_policy _ _ _ _ _ _ _ _ D) as (event & Ev & Pl).
  exists d, event. split; [exact (O Em)|]. rewrite F. split; [exact Ed|]. split; [exact Ev|].
  cbn [ctx_getrules ctx_new cx_rules map app] in Nm. destruct (ctx_getrules (snd r')) as [|r0 rs] eqn:G.
  - destruct fired; [exact (proj1 Pl)|discriminate Nm].
  - destruct fired as [|f0 fired]; [discriminate Nm|]. destruct Pl as (Pr & _). rewrite Pr. unfold all_names. rewrite Nm. reflexivity.
Qed.
Print Assumptions C37_policy_information.
Print Assumptions C37_falco_end_to_end.
Definition E0 : ecs_fns := mkEcsFns (fun o => match o with OpClone => 0 | OpExec => 1 | OpExit => 2 | OpSetuid => 3 | OpReadRecv => 8 | OpWriteSend => 9 | OpMkdir => 15 | OpRmdir => 16
  | OpLink => 17 | OpUnlink => 18 | OpSymlink => 19 | OpRename => 20 end)%Z 0 1 2 3 (fun _ => "tcp") (fun _ _ _ _ _ => "cid") (fun s n => format_int s) (fun s => s).
Definition m1 : rmeta := mkMeta "r1" "" [] [TagList ["a"; "b"]] PHigh.
Definition m2 : rmeta := mkMeta "r2" "" [] [TagStr "c"] PInformational.
Definition x1 : fctx := mkFCtx (Some (mkFHdr 4 "node" "10.0.0.1" "/mnt/f")) None (Some (mkFCont "c1" " web " "nginx" "i1" 0 true)) (Some proc0)
  (Some [proc0; proc1]) (Some (mkFFile 0 1 102 "AB" "/etc/passwd" None)) None.
Definition fr1 : flatrec := flatten (fun _ => "") (fun _ => "") x1 (EvFE (mkFE 5 17 32768 0)).
Example C37_case : exists d m, encode_ecs X0 E0 "v" "e" fr1 (ctx_addtags ["t"] (ctx_addrules [m2; m1] ctx_new)) = Ok d /\ e_event d = Some m /\
  mget "reason" m = Some (EStr "r2, r1") /\ mget "severity" m = Some (EInt 3) /\ e_tags d = ["t"; "c"; "a"; "b"] /\ mget "action" m = Some (EStr "directory-create").
Proof. eexists _, _. split; [vm_compute; reflexivity|]. repeat split. Qed.
Example E0_ok : (forall o, (0 <= op_bit E0 o)%Z) /\ type_names X0 /\ exists typ, map_str X0 mappers "sf.type" = Ok typ.
Proof. split; [intros []; cbn; lia|]. split; [repeat split|]. eexists. reflexivity. Qed.

(** ** C38: every combination of flags has exactly one classification, by the precedence of SpecEcs ... *)
Theorem C38_file_events E flags : (forall o, (0 <= op_bit E o)%Z) -> exists! c, let '(cat, ty, ac, tg) := c in file_class E flags cat ty ac tg.
Proof.
  intros B. exists (classify_fileevent E flags). split; [exact (classify_fe_ok E B flags)|]. intros [[[c t] a] g] H.
  pose proof (classify_fe_ok E B flags) as K. destruct (classify_fileevent E flags) as [[[c' t'] a'] g']. exact (file_class_fun E flags _ _ _ _ _ _ _ _ K H).
Qed.
Theorem C38_process_events E flags pid tid : (forall o, (0 <= op_bit E o)%Z) -> exists! c, process_class E flags pid tid c.
Proof. intros B. exists (classify_process E flags pid tid). split; [exact (classify_pe_ok E B flags pid tid)|]. intros c H. exact (process_class_fun E flags pid tid _ _ (classify_pe_ok E B flags pid tid) H). Qed.
Theorem C38_file_flows E flags rb ro wb wo : (forall o, (0 <= op_bit E o)%Z) -> exists! c, flow_class E flags rb ro wb wo (fst c) (snd c).
Proof. intros B. exists (classify_fileflow E flags rb ro wb wo). split; [exact (classify_ff_ok E B flags rb ro wb wo)|]. intros [t a] H.
  pose proof (flow_class_fun E flags rb ro wb wo _ _ _ _ (classify_ff_ok E B flags rb ro wb wo) H) as Q. destruct (classify_fileflow E flags rb ro wb wo). exact Q. Qed.
(** ... it is the one exported, for every event and context, and the event ends at its end time or, if that is zero,
    where it starts. *)
Theorem C38_exported X E version ecsversion ipstr jsonsvcs x e ctx d : (forall o, (0 <= op_bit E o)%Z) -> type_names X ->
  encode_ecs X E version ecsversion (flatten ipstr jsonsvcs x e) ctx = Ok d ->
  exists cat ty ac m, classified X E x e cat ty ac /\ e_event d = Some m /\ mget "category" m = Some (EStr cat) /\ mget "type" m = Some (EStr ty) /\ mget "action" m = Some (EStr ac) /\
    mget "start" m = Some (at_ns E (ev_ts e)) /\
    exists en, mget "end" m = Some (at_ns E en) /\ mget "duration" m = Some (EInt (wrap64 (en - ev_ts e))) /\ (ev_endts e = 0%Z -> en = ev_ts e) /\ (ev_endts e <> 0%Z -> en = ev_endts e).
Proof.
  intros B N H. destruct (document X E ipstr jsonsvcs B N version ecsversion x e ctx) as (d' & Ed & D & _). rewrite H in Ed. injection Ed as <-.
  destruct (d_event _ _ _ _ _ _ _ _ D) as (cat & ty & ac & m & C & Em & M). exists cat, ty, ac, m. split; [exact C|]. split; [exact Em|].
  rewrite !M by discriminate. repeat (split; [reflexivity|]). exists (ends e). repeat (split; [reflexivity|]).
  unfold ends. destruct (Z.eqb_spec (ev_endts e) 0); tauto.
Qed.
Print Assumptions C38_file_events.
Print Assumptions C38_process_events.
Print Assumptions C38_file_flows.
Print Assumptions C38_exported.
Example C38_case : file_class E0 (2^18 + 2^20) "file" "deletion" "file-delete" false /\ process_class E0 6 7 8 "thread-exit" /\ flow_class E0 768 10 0 0 0 "access" "file-access-read".
Proof. split; [|split]; [apply fc_unlink|apply pc_texit|apply ff_read]; unfold did, does; cbn; try discriminate; try lia; intuition lia. Qed.

(** ** C66: document identifiers.  Documents of different identifiers that are not in the index are all indexed ... *)
Theorem C66_distinct_indexed docs index : NoDup (map e_id docs) -> (forall d, In d docs -> mget (e_id d) index = None) ->
  forall d, In d docs -> mget (e_id d) (es_export index docs) = Some d.
Proof. exact (es_nodup docs index). Qed.
(** ... the identifier is a function of the node, container, time, thread, process start, flags and (by type) file, flow
    or Kubernetes message ([identity_of]): events equal in these have the same identifier, whatever else differs ... *)
Theorem C66_same_identity X E version ecsversion ipstr jsonsvcs x e ctx x' e' ctx' d d' : (forall o, (0 <= op_bit E o)%Z) -> type_names X ->
  encode_ecs X E version ecsversion (flatten ipstr jsonsvcs x e) ctx = Ok d -> encode_ecs X E version ecsversion (flatten ipstr jsonsvcs x' e') ctx' = Ok d' ->
  identity_of x e = identity_of x' e' -> e_id d = e_id d'.
Proof.
  intros B N H H' I. destruct (document X E ipstr jsonsvcs B N version ecsversion x e ctx) as (d0 & Ed & _ & Id). rewrite H in Ed. injection Ed as <-.
  destruct (document X E ipstr jsonsvcs B N version ecsversion x' e' ctx') as (d0 & Ed & _ & Id'). rewrite H' in Ed. injection Ed as <-.
  rewrite Id, Id'. unfold encode_id. rewrite !(id_bytes_of X ipstr jsonsvcs N), I. reflexivity.
Qed.
(** ... and with names of the same lengths, and unless the hash of the two happens to collide, only these have. *)
Theorem C66_distinguishes_partial X E version ecsversion ipstr jsonsvcs x e ctx x' e' ctx' d d' : (forall o, (0 <= op_bit E o)%Z) -> type_names X ->
  (let h := id_bytes X (flatten ipstr jsonsvcs x e) in let h' := id_bytes X (flatten ipstr jsonsvcs x' e') in x_hashhex X h = x_hashhex X h' -> h = h') ->
  let i := identity_of x e in let j := identity_of x' e' in
  (forall z, In z [n_ts i; n_tid i; n_created i; n_flags i; n_ts j; n_tid j; n_created j; n_flags j] -> in_int64 z = true) ->
  slen (n_node i) = slen (n_node j) -> slen (n_cont i) = slen (n_cont j) ->
  encode_ecs X E version ecsversion (flatten ipstr jsonsvcs x e) ctx = Ok d -> encode_ecs X E version ecsversion (flatten ipstr jsonsvcs x' e') ctx' = Ok d' ->
  e_id d = e_id d' -> i = j.
Proof.
  intros B N Inj i j R L1 L2 H H' Q. destruct (document X E ipstr jsonsvcs B N version ecsversion x e ctx) as (d0 & Ed & _ & Id). rewrite H in Ed. injection Ed as <-.
  destruct (document X E ipstr jsonsvcs B N version ecsversion x' e' ctx') as (d0 & Ed & _ & Id'). rewrite H' in Ed. injection Ed as <-.
  rewrite Id, Id' in Q. unfold encode_id in Q. apply Inj in Q. rewrite !(id_bytes_of X ipstr jsonsvcs N) in Q. exact (ident_inj i j R L1 L2 Q).
Qed.
(** Refuted: "no event is lost".  Of two events of the same identity the second never reaches the index: for instance
    two renames of a file by one thread in one tick, to different names. *)
Theorem C66_lost_refuted X E version ecsversion ipstr jsonsvcs x e ctx x' e' ctx' d d' index a b c : (forall o, (0 <= op_bit E o)%Z) -> type_names X ->
  encode_ecs X E version ecsversion (flatten ipstr jsonsvcs x e) ctx = Ok d -> encode_ecs X E version ecsversion (flatten ipstr jsonsvcs x' e') ctx' = Ok d' ->
  identity_of x e = identity_of x' e' -> d <> d' -> mget (e_id d) (es_export index a) = None ->
  mget (e_id d') (es_export index (a ++ d :: b ++ d' :: c)) <> Some d'.
Proof.
  intros B N H H' I D F Q. rewrite (es_first index a d (b ++ d' :: c)%list d' F) in Q by (symmetry; eapply (C66_same_identity X E); eauto). congruence.
Qed.
Print Assumptions C66_distinct_indexed.
Print Assumptions C66_same_identity.
Print Assumptions C66_distinguishes_partial.
Print Assumptions C66_lost_refuted.
Definition ren (to : string) : fctx := mkFCtx (Some (mkFHdr 4 "node" "10.0.0.1" "/mnt/f")) None None (Some proc0) (Some [proc0; proc1])
  (Some (mkFFile 0 1 102 "AB" "/tmp/a" None)) (Some (mkFFile 0 1 102 "CD" to None)).
Definition ren_e : fevent := EvFE (mkFE 5 17 (2^20) 0).
Example C66_case : identity_of (ren "/tmp/b") ren_e = identity_of (ren "/tmp/c") ren_e /\
  exists d d', encode_ecs X0 E0 "v" "e" (flatten (fun _ => "") (fun _ => "") (ren "/tmp/b") ren_e) ctx_new = Ok d /\
    encode_ecs X0 E0 "v" "e" (flatten (fun _ => "") (fun _ => "") (ren "/tmp/c") ren_e) ctx_new = Ok d' /\ d <> d' /\ mget (e_id d) (es_export [] []) = None.
Proof. split; [reflexivity|]. eexists _, _. split; [vm_compute; reflexivity|]. split; [vm_compute; reflexivity|]. split; [discriminate|reflexivity]. Qed.

(** ** C67: which records the encoder does not survive ... *)
Theorem C67_encodes_iff X E version ecsversion fr ctx :
  ((exists d, encode_ecs X E version ecsversion fr ctx = Ok d) <->
   (sget X "sf.type" fr <> "KE" -> sget X "sf.pod.id" fr <> "" ->
      get_int_array (fr_slots fr) POD_HOSTIP_ANY SYSFLOW_SRC <> None /\ get_int_array (fr_slots fr) POD_INTERNALIP_ANY SYSFLOW_SRC <> None /\ get_svc_array (fr_slots fr) POD_SERVICES_ANY SYSFLOW_SRC <> None) /\
   (sget X "sf.type" fr = "KE" -> fr_slots fr <> []) /\
   (ctx_getrules ctx <> [] -> In (sget X "sf.type" fr) ["NF"; "FF"; "FE"; "PE"; "KE"])) /\
  ((exists d, encode_ecs X E version ecsversion fr ctx = Ok d) \/ encode_ecs X E version ecsversion fr ctx = Panic).
Proof. exact (any_total X E version ecsversion fr ctx). Qed.
(** ... among them none of the flattener's. *)
Theorem C67_events X E version ecsversion ipstr jsonsvcs x e ctx : (forall o, (0 <= op_bit E o)%Z) -> type_names X ->
  exists d, encode_ecs X E version ecsversion (flatten ipstr jsonsvcs x e) ctx = Ok d.
Proof. intros B N. destruct (document X E ipstr jsonsvcs B N version ecsversion x e ctx) as (d & Ed & _). eauto. Qed.
Print Assumptions C67_encodes_iff.
Print Assumptions C67_events.
(** A record of another type on which a rule matched. *)
Example C67_case : encode_ecs X0 E0 "v" "e" (mkFlat [slot1] None) (ctx_addrules [m1] ctx_new) = Panic \/ In (sget X0 "sf.type" (mkFlat [slot1] None)) ["NF"; "FF"; "FE"; "PE"; "KE"].
Proof. vm_compute. auto 10. Qed.
Example C67_case2 : encode_ecs X0 E0 "v" "e" (mkFlat [] None) (ctx_addrules [m1] ctx_new) = Panic.
Proof. vm_compute. reflexivity. Qed.

(** ** C68: the document of an event says what SpecEcs.[describes] says of the event and its entities. *)
Theorem C68_document X E version ecsversion ipstr jsonsvcs x e ctx d : (forall o, (0 <= op_bit E o)%Z) -> type_names X ->
  encode_ecs X E version ecsversion (flatten ipstr jsonsvcs x e) ctx = Ok d -> describes X E version ecsversion x e ctx d.
Proof. intros B N H. destruct (document X E ipstr jsonsvcs B N version ecsversion x e ctx) as (d' & Ed & D & _). rewrite H in Ed. injection Ed as <-. exact D. Qed.
Print Assumptions C68_document.
Example C68_case : exists d m p, encode_ecs X0 E0 "v" "e" fr1 ctx_new = Ok d /\ e_container d = Some m /\ mget "name" m = Some (EStr "web") /\
  e_process d = Some p /\ mget "executable" p = Some (EStr (p_exe proc0)) /\ e_network d = None.
Proof. eexists _, _, _. split; [vm_compute; reflexivity|]. repeat split. Qed.

(** ** C69: event.kind is "alert" exactly when the alert flag of the record's context is set ... *)
Theorem C69_kind X E version ecsversion fr ctx d m : encode_ecs X E version ecsversion fr ctx = Ok d -> e_event d = Some m ->
  mget "kind" m = Some (EStr (if ctx_isalert ctx then "alert" else "event")).
Proof. exact (any_kind X E version ecsversion fr ctx d m). Qed.
(** ... which nothing sets: whatever rules match, and in alert mode too, a record that enters the engine without the
    flag is exported as a mere event, unless a user-defined action sets it. *)
Theorem C69_alerts_refuted X E version ecsversion ah mode filters rules fr ctx d m :
  (forall a f r, find_action ah a = Some f -> ctx_isalert (snd (fst (f r))) = ctx_isalert (snd r)) -> ctx_isalert ctx = false ->
  let r' := fst (sf_work X mappers ah mode filters rules (fr, ctx)) in
  encode_ecs X E version ecsversion (fst r') (snd r') = Ok d -> e_event d = Some m -> mget "kind" m = Some (EStr "event").
Proof.
  intros A C r' H Em. rewrite (any_kind _ _ _ _ _ _ d m H Em).
  replace (ctx_isalert (snd r')) with false; [reflexivity|]. symmetry. unfold r', sf_work.
  apply (work_inv (sf_applicable X mappers) sf_add ah (fun r => ctx_isalert (snd r) = false)); [intros r ru Hr; exact Hr| |exact C].
  intros a f r F Hr. exact (eq_trans (A a f r F) Hr).
Qed.
Print Assumptions C69_kind.
Print Assumptions C69_alerts_refuted.
Example C69_case : let r' := fst (sf_work X0 mappers (new_ahandler []) AlertMode [] [mkRule "r" "" c_true [] [] PCritical [] true] (fr1, ctx_new)) in
  map m_name (ctx_getrules (snd r')) = ["r"] /\ exists d m, encode_ecs X0 E0 "v" "e" (fst r') (snd r') = Ok d /\ e_event d = Some m /\
  mget "severity" m = Some (EInt 4) /\ mget "kind" m = Some (EStr "event").
Proof. split; [reflexivity|]. eexists _, _. split; [vm_compute; reflexivity|]. repeat split. Qed.

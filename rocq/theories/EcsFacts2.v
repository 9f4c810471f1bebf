(** * EcsFacts2: classification, policies, and the document of an event. *)
From Coq Require Import Lia.
From Verif Require Import GoBase GoFacts Predicates FlatRecord FieldTables EngineModel EngineFlat FlattenModel SpecFlatten FlattenFacts2 EcsModel SpecEcs EcsFacts.
Local Open Scope Z_scope.

(** ** Operations *)
Section Ops.
Variable E : ecs_fns.
Hypothesis bits : forall o, 0 <= op_bit E o.
Lemma has_op_bit flags o : has_op E flags o = Z.testbit flags (op_bit E o).
Proof.
  unfold has_op. rewrite Z.shiftl_1_l. specialize (bits o). set (k := op_bit E o) in *. clearbody k. apply Bool.eq_iff_eq_true. rewrite Z.eqb_eq. split; intros H.
  - assert (T : Z.testbit (Z.land flags (2 ^ k)) k = true) by (rewrite H, Z.pow2_bits_true; auto).
    rewrite Z.land_spec, Z.pow2_bits_true, Bool.andb_true_r in T; auto.
  - apply Z.bits_inj'. intros n Hn. rewrite Z.land_spec, Z.pow2_bits_eqb; auto. destruct (Z.eqb_spec k n) as [<- |N]; rewrite ?Bool.andb_false_r, ?Bool.andb_true_r; auto.
Qed.
Lemma has_op_does flags o : has_op E flags o = true <-> does E flags o.
Proof. rewrite has_op_bit. reflexivity. Qed.
Lemma has_op_not flags o : has_op E flags o = false <-> ~ does E flags o.
Proof. rewrite has_op_bit. unfold does. destruct (Z.testbit _ _); split; congruence. Qed.
Ltac ops := repeat match goal with
  | H : has_op E _ _ = true |- _ => rewrite has_op_does in H
  | H : has_op E _ _ = false |- _ => rewrite has_op_not in H end.
Ltac split_op := match goal with |- context [has_op E ?f ?o] => destruct (has_op E f o) eqn:? end.
Lemma classify_fe_ok flags : let '(cat, ty, ac, tg) := classify_fileevent E flags in file_class E flags cat ty ac tg.
Proof. unfold classify_fileevent. repeat (split_op; cbn [orb]); ops; try (constructor; auto; fail). Qed.
Lemma file_class_fun flags c t a g c' t' a' g' : file_class E flags c t a g -> file_class E flags c' t' a' g' -> (c, t, a, g) = (c', t', a', g').
Proof. intros H H'. destruct H; destruct H'; try reflexivity; tauto. Qed.
Lemma classify_pe_ok flags pid tid : process_class E flags pid tid (classify_process E flags pid tid).
Proof. unfold classify_process. repeat (split_op; cbn [orb]); ops; try destruct (Z.eqb_spec pid tid); try (constructor; auto; fail). Qed.
Lemma process_class_fun flags pid tid c c' : process_class E flags pid tid c -> process_class E flags pid tid c' -> c = c'.
Proof. intros H H'. destruct H; destruct H'; try reflexivity; tauto. Qed.
Lemma did_spec flags o b n : (has_op E flags o && (Z.ltb 0 b || Z.ltb 0 n))%bool = true <-> did E flags o b n.
Proof. rewrite Bool.andb_true_iff, has_op_does, Bool.orb_true_iff, !Z.ltb_lt. reflexivity. Qed.
Lemma classify_ff_ok flags rb ro wb wo : flow_class E flags rb ro wb wo (fst (classify_fileflow E flags rb ro wb wo)) (snd (classify_fileflow E flags rb ro wb wo)).
Proof.
  unfold classify_fileflow. cbn [fst snd].
  destruct (has_op E flags OpReadRecv && (Z.ltb 0 rb || Z.ltb 0 ro))%bool eqn:A; destruct (has_op E flags OpWriteSend && (Z.ltb 0 wb || Z.ltb 0 wo))%bool eqn:B;
    try (rewrite <- Bool.not_true_iff_false in A); try (rewrite <- Bool.not_true_iff_false in B); rewrite did_spec in A; rewrite did_spec in B; constructor; assumption.
Qed.
Lemma flow_class_fun flags rb ro wb wo t a t' a' : flow_class E flags rb ro wb wo t a -> flow_class E flags rb ro wb wo t' a' -> (t, a) = (t', a').
Proof. intros H H'. destruct H; destruct H'; try reflexivity; tauto. Qed.
End Ops.

(** ** Policies *)
Lemma extract_flat l : extract_tags l = flat_map (fun tg => match tg with TagStr s => [s] | TagList l => l end) l.
Proof. induction l as [|[s|m] l IH]; cbn; [reflexivity| |]; rewrite IH; reflexivity. Qed.
Lemma rank_ok p : Z.of_nat (prio_val p) = rank p.
Proof. destruct p; reflexivity. Qed.
Lemma info_fold rs : forall rn ts p, exists q,
  fold_left (fun acc r => let '(reasons, ts, p) := acc in ((reasons ++ [m_name r])%list, (ts ++ extract_tags (m_tags r))%list, max p (Z.of_nat (prio_val (m_prio r))))) rs (rn, ts, p)
    = ((rn ++ map m_name rs)%list, (ts ++ flat_map tag_texts rs)%list, q) /\
  p <= q /\ (forall r, In r rs -> rank (m_prio r) <= q) /\ (q = p \/ exists r, In r rs /\ rank (m_prio r) = q).
Proof.
  induction rs as [|r rs IH]; intros rn ts p; cbn [fold_left map flat_map].
  - exists p. rewrite !app_nil_r. split; [reflexivity|]. split; [lia|]. split; [intros r []|auto].
  - set (p1 := max p (Z.of_nat (prio_val (m_prio r)))). destruct (IH (rn ++ [m_name r])%list (ts ++ extract_tags (m_tags r))%list p1) as (q & -> & L & A & B).
    exists q. rewrite <- !app_assoc. cbn [app]. rewrite extract_flat. split; [reflexivity|].
    assert (P1 : (p1 = p \/ p1 = rank (m_prio r)) /\ p <= p1 /\ rank (m_prio r) <= p1).
    { rewrite <- rank_ok. unfold p1, max. destruct (Z.ltb_spec p (Z.of_nat (prio_val (m_prio r)))); lia. }
    split; [lia|]. split; [intros r' [<- |H]; [lia|auto]|].
    destruct B as [-> |(r' & H & <-)]; [|right; exists r'; cbn; auto]. destruct P1 as ([-> | ->] & _); [auto|]. right. exists r. cbn. auto.
Qed.
Lemma join_concat sep l : join sep l = String.concat sep l.
Proof. induction l as [|a [|b l] IH]; cbn [join String.concat]; [reflexivity|reflexivity|]. cbn [join] in IH. rewrite IH. reflexivity. Qed.
Lemma policy_ok ctx m : exists m' tags, add_policy ctx (Some m) = Ok (Some m', tags) /\ tags = (ctx_gettags ctx ++ flat_map tag_texts (ctx_getrules ctx))%list /\
  (forall k, k <> "reason" -> k <> "severity" -> mget k m' = mget k m) /\
  match ctx_getrules ctx with
  | [] => m' = m
  | rs => mget "reason" m' = Some (EStr (all_names rs)) /\ exists s, mget "severity" m' = Some (EInt s) /\ severity_of rs s
  end.
Proof.
  unfold add_policy. destruct (ctx_getrules ctx) as [|r rs] eqn:R.
  - exists m, (ctx_gettags ctx). cbn [flat_map]. rewrite app_nil_r. auto.
  - unfold policy_info. destruct (info_fold (r :: rs) [] (ctx_gettags ctx) (Z.of_nat (prio_val PLow))) as (q & -> & L & A & B).
    eexists _, _. split; [reflexivity|]. split; [reflexivity|]. split; [|split].
    + intros k N1 N2. rewrite !mget_mset_ne; auto.
    + rewrite mget_mset_ne by discriminate. rewrite mget_mset_eq. unfold all_names. rewrite join_concat. reflexivity.
    + exists q. rewrite mget_mset_eq. split; [reflexivity|]. split; [exact L|]. split; [exact A|exact B].
Qed.

(** ** The document *)
Section Doc.
Variables (X : sfgo_fns) (E : ecs_fns) (ipstr : Z -> string) (jsonsvcs : list service -> string).
Hypothesis bits : forall o, 0 <= op_bit E o.
Hypothesis names : type_names X.
Section Ev.
Variables (x : fctx) (e : fevent).
Notation fr := (flatten ipstr jsonsvcs x e).
Lemma flags_ok : get_int (fr_slots fr) OPFLAGS_INT SYSFLOW_SRC = ev_opflags e.
Proof.
  rewrite read_int. destruct e; cbn [writes_of]; unfold fill_entities; rewrite ?lasti_app;
  destruct x as [hd pd ct pr pt fi nf]; cbn [x_hdr x_pod x_cont x_proc x_ptree x_file x_newfile]; repeat skip1; reflexivity.
Qed.
Lemma action_ok : get_int (fr_slots fr) K8SE_ACTION_INT SYSFLOW_SRC = match e with EvK8s k => ke_action k | _ => 0 end.
Proof.
  rewrite read_int. destruct e; cbn [writes_of]; unfold fill_entities; rewrite ?lasti_app;
  destruct x as [hd pd ct pr pt fi nf]; cbn [x_hdr x_pod x_cont x_proc x_ptree x_file x_newfile]; repeat skip1; reflexivity.
Qed.
Lemma k8s_ok : exists ty, classify_k8s E fr = Ok ty /\ k8s_class E (wrap32 (match e with EvK8s k => ke_action k | _ => 0 end)) ty.
Proof.
  unfold classify_k8s. pose proof action_ok as A. destruct (fr_slots fr) as [|sl l] eqn:S; [discriminate S|].
  assert (Hs : sl_ints sl K8SE_ACTION_INT = match e with EvK8s k => ke_action k | _ => 0 end).
  { rewrite <- A. unfold flatten in S. cbn [fr_slots] in S. injection S as S <-. cbn [get_int]. replace (sl_src sl) with SYSFLOW_SRC; [reflexivity|]. rewrite <- S, fold_src. reflexivity. }
  rewrite Hs. eexists. split; [reflexivity|].
  set (a := wrap32 _). destruct (Z.eqb_spec a (k8s_added E)); [constructor; auto|]. destruct (Z.eqb_spec a (k8s_deleted E)); [constructor; auto|].
  destruct (Z.eqb_spec a (k8s_modified E)); [constructor; auto|]. destruct (Z.eqb_spec a (k8s_error E)); constructor; auto.
Qed.
Lemma mget_app (k : string) (a b : gomap eval) : mget k (a ++ b) = match mget k a with Some v => Some v | None => mget k b end.
Proof. induction a as [|(k', v) a IH]; cbn [app mget]; [reflexivity|]. destruct (seqb k k'); auto. Qed.
Lemma file_ok : encode_file X E fr = doc_file X E x e false.
Proof.
  unfold encode_file, doc_file. rewrite flags_ok, s_ftype, s_fpath, i_fd, i_pid, (has_op_bit E bits). cbv zeta.
  set (ty := if Z.testbit _ _ then _ else _). assert (T : ty = if Z.testbit (ev_opflags e) (op_bit E OpSymlink) then "symlink" else type_name (trim_bounding_quotes (x_filetype X (fz (thefile x e) ff_restype)))).
  { unfold ty. destruct (Z.testbit _ _); [reflexivity|]. unfold encode_filetype, type_name. cbn [find fst snd]. unfold seqb. rewrite !(String.eqb_sym _ (trim_bounding_quotes _)).
    repeat (destruct (String.eqb _ _); [reflexivity|]). reflexivity. }
  rewrite <- T. clearbody ty. unfold seqb, when. rewrite app_nil_r. destruct (String.eqb ty "dir"); [reflexivity|].
  f_equal. f_equal. match goal with |- (if ?b then _ else _) = _ => destruct b end; reflexivity.
Qed.
Lemma event_ok ctx cat ty ac k : mget k (encode_event X E fr ctx cat ty ac) = mget k (doc_event X E e cat ty ac (ctx_isalert ctx)) \/ (exists m, e = EvK8s m).
Proof.
  destruct names as (N1 & N2 & N3 & N4 & N5). unfold encode_event, doc_event. rewrite i_ts, i_endts, s_type, i_ret. unfold ends, at_ns, iso, t.
  destruct e; cbn [ev_type]; [eauto| | | |]; left; rewrite ?N1, ?N2, ?N3, ?N4, ?N5; reflexivity.
Qed.
End Ev.
Section Parts.
Variables (x : fctx) (e : fevent).
Notation fr := (flatten ipstr jsonsvcs x e).
Definition ke : bool := match e with EvK8s _ => true | _ => false end.
Lemma is_ke : seqb (sget X "sf.type" fr) "KE" = ke.
Proof. destruct names as (N1 & N2 & N3 & N4 & N5). rewrite s_type. unfold ke. destruct e; cbn [ev_type]; rewrite ?N1, ?N2, ?N3, ?N4, ?N5; reflexivity. Qed.
Lemma nonempty_not s : nonempty s = negb (seqb (trim_bounding_quotes s) "").
Proof. reflexivity. Qed.
Lemma container_ok : same (if ke then None else encode_container X fr)
  (match joined e (x_cont x) with Some c => if nonempty (fc_id c) then Some (doc_container X c) else None | None => None end).
Proof.
  unfold encode_container. rewrite s_cid, s_ctype, i_priv, s_cname, s_cimid, s_cim. unfold cs, cz, ke.
  destruct e; [exact I| | | |]; cbn [joined]; (destruct (x_cont x) as [c|]; [|exact I]); rewrite nonempty_not;
    (destruct (seqb (trim_bounding_quotes (fc_id c)) ""); [exact I|]); cbn [negb same]; unfold doc_container, t, when; rewrite nonempty_not;
    destruct (seqb (trim_bounding_quotes (fc_imageid c)) ""), (fc_priv c); intros k; reflexivity.
Qed.
Lemma user_ok : same (if ke then None else Some (encode_user X fr)) (match e with EvK8s _ => None | _ => Some (doc_user x e) end).
Proof.
  unfold encode_user, doc_user. rewrite s_group, s_user, i_gid, i_uid, !nonempty_not. unfold ke.
  destruct e; [exact I| | | |]; cbn [same]; unfold when, t; intros k; destruct (seqb (trim_bounding_quotes (prs x _ p_groupname)) ""), (seqb (trim_bounding_quotes (prs x _ p_username)) ""); reflexivity.
Qed.
Lemma process_ok : same (if ke then None else Some (encode_process X E fr)) (match e with EvK8s _ => None | _ => Some (doc_process E x e) end).
Proof.
  unfold encode_process, doc_process. rewrite s_exe, s_args, s_cmd, i_pid, i_cts, i_tid, s_pexe, s_pargs, s_pcmd, i_ppid, i_pcts. unfold ke.
  destruct e; [exact I| | | |]; cbn [same]; unfold t, at_ns, iso; intros k; reflexivity.
Qed.
Definition haspod : bool := match joined e (x_pod x) with Some p => nonempty (fp_id p) | None => false end.
Lemma haspod_ok : (negb ke && negb (seqb (sget X "sf.pod.id" fr) ""))%bool = haspod.
Proof. rewrite s_podid. unfold haspod, ke, ps. destruct e; cbn [joined negb andb]; [reflexivity| | | |]; (destruct (x_pod x) as [p|]; reflexivity). Qed.
Lemma pod_ok : (if haspod then let* (p, s) := encode_pod X E fr in Ok (Some p, s) else Ok (None, [])) =
  Ok (match joined e (x_pod x) with Some p => if nonempty (fp_id p) then Some (doc_pod X E p) else None | None => None end,
      match joined e (x_pod x) with Some p => if nonempty (fp_id p) then map (doc_service X) (fp_services p) else [] | None => [] end).
Proof.
  unfold encode_pod. rewrite a_host, a_int, a_svc, i_pts, s_podid, s_podname, s_podnode, s_podns, i_rst. unfold haspod, ps, pz. destruct (joined e (x_pod x)) as [p|]; [|reflexivity].
  destruct (nonempty (fp_id p)); [|reflexivity]. cbn [ip_strs rbind]. reflexivity.
Qed.
Lemma orch_ok : same (if ke then Some (k8s_orchestrator X E (sget X "sf.ke.message" fr)) else if haspod then Some (pod_orchestrator X fr) else None)
    (match e with
     | EvK8s k => let m := trim_bounding_quotes (ke_message k) in
         Some (doc_orchestrator (EStr (x_gjson X m "items.0.namespace")) (EStr (x_lower E (x_gjson X m "kind"))) (EStr (x_gjson X m "items.0.name")))
     | _ => match x_pod x with
            | Some p => if nonempty (fp_id p) then Some (doc_orchestrator (t (trim_space (fp_ns p))) (EStr "pod") (t (trim_space (fp_name p)))) else None
            | None => None end
     end).
Proof.
  unfold k8s_orchestrator, pod_orchestrator, orchestrator, doc_orchestrator. rewrite s_kmsg, s_podns, s_podname. unfold ke, haspod, ps.
  destruct e; cbn [joined]; [intros k0; reflexivity| | | |]; (destruct (x_pod x) as [p|]; [|exact I]); (destruct (nonempty (fp_id p)); [intros k0; reflexivity|exact I]).
Qed.
Lemma host_ok : same (Some (encode_host X fr)) (Some (doc_host x)).
Proof. unfold encode_host, doc_host. rewrite s_nodeid, s_nodeip. intros k. reflexivity. Qed.
End Parts.
Lemma same_refl l : same (Some l) (Some l).
Proof. intros k. reflexivity. Qed.
Theorem document version ecsversion x e ctx :
  exists d, encode_ecs X E version ecsversion (flatten ipstr jsonsvcs x e) ctx = Ok d /\ describes X E version ecsversion x e ctx d
            /\ e_id d = encode_id X (flatten ipstr jsonsvcs x e).
Proof.
  unfold encode_ecs. cbv zeta. rewrite is_ke, haspod_ok, pod_ok. cbn [rbind].
  destruct (k8s_ok x e) as (kty & K1 & K2).
  replace (if ke e then classify_k8s E (flatten ipstr jsonsvcs x e) else Ok "") with (Ok (if ke e then kty else "")) by (destruct (ke e); [rewrite K1|]; reflexivity). cbn [rbind].
  rewrite flags_ok, i_rb, i_ro, i_wb, i_wo, i_pid, i_tid, i_ts.
  destruct (classify_fileevent E (ev_opflags e)) as [[[fcat fty] fac] ftg] eqn:FE.
  pose proof (classify_fe_ok E bits (ev_opflags e)) as FC. rewrite FE in FC.
  destruct (encode_network X E (flatten ipstr jsonsvcs x e)) as [[net src] dst] eqn:NE.
  unfold encode_network in NE. rewrite i_rb, i_ro, i_wb, i_wo, s_sip, s_dip, i_sport, i_dport, i_proto in NE. injection NE as <- <- <-.
  pose proof names as (N1 & N2 & N3 & N4 & N5).
  assert (EV : exists cat ty ac m0, classified X E x e cat ty ac /\
    (if seqb (sget X "sf.type" (flatten ipstr jsonsvcs x e)) "NF" then Some (encode_event X E (flatten ipstr jsonsvcs x e) ctx "network" "connection" "network-connection-traffic")
     else if seqb (sget X "sf.type" (flatten ipstr jsonsvcs x e)) "FF" then Some (encode_event X E (flatten ipstr jsonsvcs x e) ctx "file"
         (fst (classify_fileflow E (ev_opflags e) (cnt e nf_rbytes fl_rbytes) (cnt e nf_rops fl_rops) (cnt e nf_wbytes fl_wbytes) (cnt e nf_wops fl_wops)))
         (snd (classify_fileflow E (ev_opflags e) (cnt e nf_rbytes fl_rbytes) (cnt e nf_rops fl_rops) (cnt e nf_wbytes fl_wbytes) (cnt e nf_wops fl_wops))))
     else if seqb (sget X "sf.type" (flatten ipstr jsonsvcs x e)) "FE" then Some (encode_event X E (flatten ipstr jsonsvcs x e) ctx fcat fty fac)
     else if seqb (sget X "sf.type" (flatten ipstr jsonsvcs x e)) "PE" then Some (encode_event X E (flatten ipstr jsonsvcs x e) ctx "process"
         (classify_process E (ev_opflags e) (prz x e (fun p => hpid (p_oid p))) (ev_tid e)) ("process-" ++ classify_process E (ev_opflags e) (prz x e (fun p => hpid (p_oid p))) (ev_tid e))%string)
     else if ke e then Some (mset "original" (EStr (sget X "sf.ke.message" (flatten ipstr jsonsvcs x e))) (encode_event X E (flatten ipstr jsonsvcs x e) ctx "orchestration" (if ke e then kty else "") (sget X "sf.ke.action" (flatten ipstr jsonsvcs x e))))
     else None) = Some m0 /\ forall k, mget k m0 = mget k (doc_event X E e cat ty ac (ctx_isalert ctx))).
  { rewrite s_type. destruct e as [k|n|n|n|n]; cbn [ev_type ke]; rewrite ?N1, ?N2, ?N3, ?N4, ?N5.
    - exists "orchestration", kty, (trim_bounding_quotes (x_k8saction X (ke_action k))). eexists. split; [constructor; exact K2|]. split; [reflexivity|].
      intros k0. rewrite s_kact, s_kmsg. unfold encode_event, doc_event. rewrite i_ts, i_endts, s_type, i_ret. cbn [ev_type]. rewrite N5. unfold ends, at_ns, iso, t.
      cbn [ev_ts ev_endts ev_type]. unfold mset. cbn [mget app seqb]. change (trim_bounding_quotes "KE") with "KE". change (seqb "KE" "PE" || seqb "KE" "FE")%bool with false. cbn [app].
      destruct (seqb k0 "original") eqn:Ko; [|reflexivity]. apply String.eqb_eq in Ko as ->. reflexivity.
    - eexists _, _, _, _. split; [apply cl_pe; apply (classify_pe_ok E bits)|]. split; [reflexivity|]. intros k0. destruct (event_ok x (EvPE n) ctx "process" (classify_process E (pe_opflags n) (prz x (EvPE n) (fun p => hpid (p_oid p))) (pe_tid n)) ("process-" ++ classify_process E (pe_opflags n) (prz x (EvPE n) (fun p => hpid (p_oid p))) (pe_tid n))%string k0) as [H|(m & [=])]. exact H.
    - eexists _, _, _, _. split; [apply cl_nf|]. split; [reflexivity|]. intros k0. destruct (event_ok x (EvNF n) ctx "network" "connection" "network-connection-traffic" k0) as [H|(m & [=])]. exact H.
    - eexists _, _, _, _. split; [apply cl_ff; apply (classify_ff_ok E bits)|]. split; [reflexivity|]. intros k0. match goal with |- mget k0 (encode_event X E _ ctx ?a ?b ?c) = _ => destruct (event_ok x (EvFF n) ctx a b c k0) as [H|(m & [=])] end. exact H.
    - eexists _, _, _, _. split; [apply cl_fe with (tg := ftg); exact FC|]. split; [reflexivity|]. intros k0. destruct (event_ok x (EvFE n) ctx fcat fty fac k0) as [H|(m & [=])]. exact H. }
  destruct EV as (cat & ty & ac & m0 & CL & -> & M0).
  destruct (policy_ok ctx m0) as (m' & tags & -> & -> & Pk & Pp). cbn [rbind]. eexists. split; [reflexivity|]. split; [|reflexivity].
  constructor; cbn [e_ts e_agent_version e_ecs_version e_host e_container e_user e_process e_orch e_pod e_service e_network e_source e_destination e_file e_fileaction e_event e_tags].
  - reflexivity.
  - auto.
  - apply host_ok.
  - apply container_ok.
  - apply user_ok.
  - apply process_ok.
  - apply orch_ok.
  - destruct (joined e (x_pod x)) as [p|]; [destruct (nonempty (fp_id p))|]; try exact I. apply same_refl.
  - reflexivity.
  - rewrite s_type. destruct e; cbn [ev_type]; rewrite ?N1, ?N2, ?N3, ?N4, ?N5; auto.
    split; [|split]; intros k0; reflexivity.
  - rewrite s_type. destruct e as [k0|n0|n0|n0|n0]; cbn [ev_type]; rewrite ?N1, ?N2, ?N3, ?N4, ?N5; auto.
    + split.
      * rewrite file_ok. apply same_refl.
      * change (same (file_action (wrap64 (fl_rbytes n0)) (wrap64 (fl_rops n0)) (wrap64 (fl_wbytes n0)) (wrap64 (fl_wops n0))) (doc_fileaction n0)).
        unfold file_action, doc_fileaction. destruct (_ || _)%bool; [apply same_refl|exact I].
    + split; [|reflexivity]. exists fcat, fty, fac, ftg. split; [exact FC|]. change (seqb (trim_bounding_quotes "FE") "FF") with false. change (seqb (trim_bounding_quotes "FE") "FE") with true. cbv iota.
      rewrite file_ok, s_fnew. destruct ftg; [|apply same_refl]. intros k0. rewrite mget_mset.
      unfold doc_file. cbv zeta. cbn [when]. rewrite app_nil_r. rewrite mget_app. set (m1 := _ :: _).
      destruct (seqb k0 "target_path") eqn:Kt.
      * apply String.eqb_eq in Kt as ->. replace (mget "target_path" m1) with (@None eval); [reflexivity|]. unfold m1. destruct (String.eqb _ "dir"); [reflexivity|]. unfold when. destruct (negb _); reflexivity.
      * destruct (mget k0 m1); [reflexivity|]. cbn [mget]. rewrite Kt. reflexivity.
  - exists cat, ty, ac, m'. split; [exact CL|]. split; [reflexivity|]. intros k0 R1 R2. rewrite Pk by auto. apply M0.
  - exists m'. split; [reflexivity|]. destruct (ctx_getrules ctx) as [|r rs]; [|exact Pp]. rewrite Pp, !M0. unfold doc_event. destruct e; split; reflexivity.
  - reflexivity.
Qed.
End Doc.

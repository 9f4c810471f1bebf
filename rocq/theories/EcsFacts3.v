(** * EcsFacts3: any record; document identifiers; alerts. *)
From Coq Require Import Lia.
From Verif Require Import GoBase GoFacts Predicates FlatRecord FieldTables EngineModel EngineFlat FlattenModel SpecFlatten FlattenFacts2 EcsModel SpecEcs EcsFacts EcsFacts2.

(** ** Any record *)
Section Any.
Variables (X : sfgo_fns) (E : ecs_fns) (version ecsversion : string) (fr : flatrec) (ctx : context rmeta).
Definition known (t : string) : Prop := In t ["NF"; "FF"; "FE"; "PE"; "KE"].
Definition pod_there : Prop :=
  get_int_array (fr_slots fr) POD_HOSTIP_ANY SYSFLOW_SRC <> None /\ get_int_array (fr_slots fr) POD_INTERNALIP_ANY SYSFLOW_SRC <> None /\ get_svc_array (fr_slots fr) POD_SERVICES_ANY SYSFLOW_SRC <> None.
Lemma iaget_host : iaget X "sf.pod.hostip+" fr = get_int_array (fr_slots fr) POD_HOSTIP_ANY SYSFLOW_SRC.
Proof. reflexivity. Qed.
Lemma iaget_int : iaget X "sf.pod.internalip+" fr = get_int_array (fr_slots fr) POD_INTERNALIP_ANY SYSFLOW_SRC.
Proof. reflexivity. Qed.
Lemma svget_svc : svget X "sf.pod.services+" fr = get_svc_array (fr_slots fr) POD_SERVICES_ANY SYSFLOW_SRC.
Proof. reflexivity. Qed.
Lemma pod_iff : (exists r, encode_pod X E fr = Ok r) /\ pod_there \/ encode_pod X E fr = Panic /\ ~ pod_there.
Proof.
  unfold encode_pod, pod_there. rewrite iaget_host, iaget_int, svget_svc.
  destruct (get_int_array (fr_slots fr) POD_HOSTIP_ANY SYSFLOW_SRC); [|right; split; [reflexivity|tauto]].
  destruct (get_int_array (fr_slots fr) POD_INTERNALIP_ANY SYSFLOW_SRC); [|right; split; [reflexivity|tauto]].
  destruct (get_svc_array (fr_slots fr) POD_SERVICES_ANY SYSFLOW_SRC); [|right; split; [reflexivity|tauto]].
  left. split; [eexists; reflexivity|]. repeat split; discriminate.
Qed.
Definition no_keys (m : gomap eval) : Prop := mget "reason" m = None /\ mget "severity" m = None /\ mget "kind" m = Some (EStr (if ctx_isalert ctx then "alert" else "event")).
Lemma event_keys c t a : no_keys (encode_event X E fr ctx c t a).
Proof. unfold no_keys, encode_event. cbv zeta. destruct (_ || _)%bool; split; [|split| |split]; reflexivity. Qed.
(** The event map before the policies are added, if any. *)
Lemma encode_cases : exists ev,
  (ev = None <-> ~ known (sget X "sf.type" fr)) /\ (forall m, ev = Some m -> no_keys m) /\
  let ok_pod := sget X "sf.type" fr <> "KE" -> sget X "sf.pod.id" fr <> "" -> pod_there in
  let ok_ke := sget X "sf.type" fr = "KE" -> fr_slots fr <> [] in
  match add_policy ctx ev with
  | Ok (m, tags) => (ok_pod /\ ok_ke -> exists d, encode_ecs X E version ecsversion fr ctx = Ok d /\ e_event d = m /\ e_tags d = tags)
  | _ => True end /\
  (~ (ok_pod /\ ok_ke) \/ add_policy ctx ev = Panic -> encode_ecs X E version ecsversion fr ctx = Panic).
Proof.
  unfold encode_ecs. cbv zeta. set (t := sget X "sf.type" fr).
  destruct (classify_fileevent E _) as [[[fcat fty] fac] ftg]. destruct (encode_network X E fr) as [[net src] dst].
  destruct (seqb t "KE") eqn:K.
  - apply String.eqb_eq in K. rewrite K in *. cbn [negb andb rbind].
    assert (C : (exists ty, classify_k8s E fr = Ok ty) /\ fr_slots fr <> [] \/ classify_k8s E fr = Panic /\ fr_slots fr = []).
    { unfold classify_k8s. destruct (fr_slots fr); [right; auto|left; split; [eauto|discriminate]]. }
    destruct C as [((ty & ->) & S)|(-> & S)]; cbn [rbind].
    + change (seqb "KE" "NF") with false. change (seqb "KE" "FF") with false. change (seqb "KE" "FE") with false. change (seqb "KE" "PE") with false. cbv iota.
      eexists. split; [|split; [|split]].
      4:{ intros [H|H]; [exfalso; apply H; split; [congruence|auto]|]. rewrite H. reflexivity. }
      * split; [discriminate|]. unfold known. intros H. exfalso. apply H. cbn. auto 10.
      * intros m [= <-]. unfold no_keys. rewrite !mget_mset_ne by discriminate. apply event_keys.
      * destruct (add_policy ctx _) as [[m tags]| | |]; auto. intros _. eexists. split; [reflexivity|]. auto.
    + eexists (Some [("kind", EStr (if ctx_isalert ctx then "alert" else "event"))]). split; [|split; [|split]].
      4:{ reflexivity. }
      * split; [discriminate|]. unfold known. intros H. exfalso. apply H. cbn. auto 10.
      * intros m [= <-]. split; [|split]; reflexivity.
      * destruct (add_policy ctx _) as [[m tags]| | |]; auto. intros (_ & H). exfalso. apply H; auto.
  - apply String.eqb_neq in K. cbn [negb andb].
    exists (if seqb t "NF" then Some (encode_event X E fr ctx "network" "connection" "network-connection-traffic")
     else if seqb t "FF" then Some (encode_event X E fr ctx "file"
         (fst (classify_fileflow E (get_int (fr_slots fr) OPFLAGS_INT SYSFLOW_SRC) (iget X "sf.flow.rbytes" fr) (iget X "sf.flow.rops" fr) (iget X "sf.flow.wbytes" fr) (iget X "sf.flow.wops" fr)))
         (snd (classify_fileflow E (get_int (fr_slots fr) OPFLAGS_INT SYSFLOW_SRC) (iget X "sf.flow.rbytes" fr) (iget X "sf.flow.rops" fr) (iget X "sf.flow.wbytes" fr) (iget X "sf.flow.wops" fr))))
     else if seqb t "FE" then Some (encode_event X E fr ctx fcat fty fac)
     else if seqb t "PE" then Some (encode_event X E fr ctx "process" (classify_process E (get_int (fr_slots fr) OPFLAGS_INT SYSFLOW_SRC) (iget X "sf.proc.pid" fr) (iget X "sf.proc.tid" fr))
        ("process-" ++ classify_process E (get_int (fr_slots fr) OPFLAGS_INT SYSFLOW_SRC) (iget X "sf.proc.pid" fr) (iget X "sf.proc.tid" fr))%string)
     else None).
    set (ev := if seqb t "NF" then _ else _). split; [|split].
    + unfold ev, known. unfold seqb.
      destruct (String.eqb_spec t "NF") as [->|]; [split; [discriminate|intros []; cbn; auto 10]|].
      destruct (String.eqb_spec t "FF") as [->|]; [split; [discriminate|intros []; cbn; auto 10]|].
      destruct (String.eqb_spec t "FE") as [->|]; [split; [discriminate|intros []; cbn; auto 10]|].
      destruct (String.eqb_spec t "PE") as [->|]; [split; [discriminate|intros []; cbn; auto 10]|].
      split; [|reflexivity]. intros _ [H|[H|[H|[H|[H|[]]]]]]; congruence.
    + unfold ev. intros m. repeat (destruct (seqb t _); [intros [= <-]; apply event_keys|]). discriminate.
    + clearbody ev. destruct (seqb (sget X "sf.pod.id" fr) "") eqn:P.
      * apply String.eqb_eq in P. cbn [negb rbind]. split.
        { destruct (add_policy ctx ev) as [[m tags]| | |]; auto. intros _. eexists. split; [reflexivity|]. auto. }
        { intros [H|H]; [exfalso; apply H; split; congruence|]. rewrite H. reflexivity. }
      * apply String.eqb_neq in P. cbn [negb]. destruct pod_iff as [((pp & ->) & PT)|(-> & PT)]; cbn [rbind].
        { destruct pp as [pp ss]. cbn [rbind]. split.
          - destruct (add_policy ctx ev) as [[m tags]| | |]; auto. intros _. eexists. split; [reflexivity|]. auto.
          - intros [H|H]; [exfalso; apply H; split; [auto|congruence]|]. rewrite H. reflexivity. }
        { split; [|reflexivity]. destruct (add_policy ctx ev) as [[m tags]| | |]; auto. intros (H & _). exfalso. apply PT, H; auto. }
Qed.
Theorem any_total :
  ((exists d, encode_ecs X E version ecsversion fr ctx = Ok d) <->
   (sget X "sf.type" fr <> "KE" -> sget X "sf.pod.id" fr <> "" -> pod_there) /\ (sget X "sf.type" fr = "KE" -> fr_slots fr <> []) /\
   (ctx_getrules ctx <> [] -> known (sget X "sf.type" fr))) /\
  ((exists d, encode_ecs X E version ecsversion fr ctx = Ok d) \/ encode_ecs X E version ecsversion fr ctx = Panic).
Proof.
  destruct encode_cases as (ev & N & _ & A & B). cbv zeta in A, B.
  assert (D : known (sget X "sf.type" fr) \/ ~ known (sget X "sf.type" fr)).
  { unfold known. destruct (in_dec string_dec (sget X "sf.type" fr) ["NF"; "FF"; "FE"; "PE"; "KE"]); auto. }
  assert (AP : match add_policy ctx ev with Ok _ => ctx_getrules ctx <> [] -> known (sget X "sf.type" fr) | Panic => ctx_getrules ctx <> [] /\ ~ known (sget X "sf.type" fr) | _ => False end).
  { unfold add_policy. destruct (ctx_getrules ctx) as [|r rs]; [congruence|]. destruct ev as [m|].
    - destruct (policy_info _ _) as [[? ?] ?]. intros _. destruct D as [D|D]; [exact D|]. apply N in D. discriminate D.
    - split; [discriminate|]. apply N. reflexivity. }
  assert (DEC : ((sget X "sf.type" fr <> "KE" -> sget X "sf.pod.id" fr <> "" -> pod_there) /\ (sget X "sf.type" fr = "KE" -> fr_slots fr <> [])) \/
               ~ ((sget X "sf.type" fr <> "KE" -> sget X "sf.pod.id" fr <> "" -> pod_there) /\ (sget X "sf.type" fr = "KE" -> fr_slots fr <> []))).
  { destruct (string_dec (sget X "sf.type" fr) "KE") as [K|K].
    - destruct (fr_slots fr); [right; intros (_ & H); apply H; auto|left; split; [congruence|discriminate]].
    - destruct (string_dec (sget X "sf.pod.id" fr) "") as [P|P]; [left; split; congruence|]. destruct pod_iff as [(_ & H)|(_ & H)]; [left; split; [auto|congruence]|right; intros (Q & _); auto]. }
  destruct (add_policy ctx ev) as [[m tags]| | |] eqn:AE; try contradiction.
  - destruct DEC as [G|G].
    + destruct (A G) as (d & Hd & _). split; [|left; eauto]. split; [intros _; tauto|eauto].
    + pose proof (B (or_introl G)) as P. rewrite P. split; [|auto]. split; [intros (d & [=])|tauto].
  - pose proof (B (or_intror eq_refl)) as P. rewrite P. split; [|auto]. split; [intros (d & [=])|intros (_ & _ & H); destruct AP as [AP1 AP2]; exfalso; auto].
Qed.
Theorem any_policy d : encode_ecs X E version ecsversion fr ctx = Ok d ->
  e_tags d = (ctx_gettags ctx ++ flat_map tag_texts (ctx_getrules ctx))%list /\
  match ctx_getrules ctx with
  | [] => forall m, e_event d = Some m -> mget "reason" m = None /\ mget "severity" m = None
  | rs => exists m, e_event d = Some m /\ mget "reason" m = Some (EStr (all_names rs)) /\ exists s, mget "severity" m = Some (EInt s) /\ severity_of rs s
  end.
Proof.
  intros Ed. destruct encode_cases as (ev & N & NK & A & B). cbv zeta in A, B.
  destruct any_total as ((T & _) & _). destruct (T (ex_intro _ d Ed)) as (T1 & T2 & T3).
  destruct ev as [m|].
  - destruct (policy_ok ctx m) as (m' & tags & AE & -> & _ & Pp). rewrite AE in A. destruct (A (conj T1 T2)) as (d' & Ed' & Ev & Tg). rewrite Ed in Ed'. injection Ed' as <-.
    split; [exact Tg|]. destruct (ctx_getrules ctx) as [|r rs]; [|exists m'; auto]. intros m1 H1. rewrite Ev in H1. injection H1 as <-. subst m'. destruct (NK m eq_refl) as (K1 & K2 & _). auto.
  - unfold add_policy in A. destruct (ctx_getrules ctx) as [|r rs].
    + destruct (A (conj T1 T2)) as (d' & Ed' & Ev & Tg). rewrite Ed in Ed'. injection Ed' as <-. cbn [flat_map]. rewrite app_nil_r. split; [exact Tg|]. intros m1 H1. congruence.
    + exfalso. apply N; [reflexivity|]. apply T3. discriminate.
Qed.
Theorem any_kind d m : encode_ecs X E version ecsversion fr ctx = Ok d -> e_event d = Some m -> mget "kind" m = Some (EStr (if ctx_isalert ctx then "alert" else "event")).
Proof.
  intros Ed Em. destruct encode_cases as (ev & N & NK & A & B). cbv zeta in A, B.
  destruct any_total as ((T & _) & _). destruct (T (ex_intro _ d Ed)) as (T1 & T2 & T3).
  destruct ev as [m0|].
  - destruct (policy_ok ctx m0) as (m' & tags & AE & -> & Pk & _). rewrite AE in A. destruct (A (conj T1 T2)) as (d' & Ed' & Ev & Tg). rewrite Ed in Ed'. injection Ed' as <-.
    rewrite Ev in Em. injection Em as <-. rewrite Pk by discriminate. apply (NK m0 eq_refl).
  - unfold add_policy in A. destruct (ctx_getrules ctx) as [|r rs].
    + destruct (A (conj T1 T2)) as (d' & Ed' & Ev & Tg). rewrite Ed in Ed'. injection Ed' as <-. congruence.
    + exfalso. apply N; [reflexivity|]. apply T3. discriminate.
Qed.
End Any.

(** ** Identifiers *)
Section Ids.
Variables (X : sfgo_fns) (ipstr : Z -> string) (jsonsvcs : list service -> string).
Hypothesis names : type_names X.
Definition ident_bytes (i : identity) : string :=
  (n_node i ++ n_cont i ++ le64 (n_ts i) ++ le64 (n_tid i) ++ le64 (n_created i) ++ le64 (n_flags i) ++ n_rest i)%string.
Lemma id_bytes_of x e : id_bytes X (flatten ipstr jsonsvcs x e) = ident_bytes (identity_of x e).
Proof.
  pose proof names as (N1 & N2 & N3 & N4 & N5).
  unfold id_bytes, ident_bytes, identity_of. cbv zeta. cbn [n_node n_cont n_ts n_tid n_created n_flags n_rest].
  rewrite s_nodeid, s_cid, flags_ok, s_type, s_foid, s_kmsg, action_ok.
  rewrite (attr_int ipstr jsonsvcs X x e TS_INT "sf.ts" (ev_ts e)) by (reflexivity || (apply (nth_error_In _ 3); reflexivity)).
  rewrite (attr_int ipstr jsonsvcs X x e TID_INT "sf.proc.tid" (ev_tid e)) by (reflexivity || (apply (nth_error_In _ 12); reflexivity)).
  rewrite (attr_int ipstr jsonsvcs X x e PROC_OID_CREATETS_INT "sf.proc.createts" (prz x e (fun p => createts (p_oid p)))) by (reflexivity || (apply (nth_error_In _ 15); reflexivity)).
  assert (NT : forall f a n, mget n mappers = Some (MInt SYSFLOW_SRC a) -> In (n, VInt (net e f)) (meaning X ipstr jsonsvcs x e) -> get_int (fr_slots (flatten ipstr jsonsvcs x e)) a SYSFLOW_SRC = net e f) by (intros; eapply attr_int; eauto).
  assert (SIP : get_int (fr_slots (flatten ipstr jsonsvcs x e)) FL_NETW_SIP_INT SYSFLOW_SRC = net e nf_sip).
  { rewrite read_int. destruct e; cbn [writes_of]; unfold fill_entities; rewrite ?lasti_app;
    destruct x as [hd pd ct pr pt fi nf]; cbn [x_hdr x_pod x_cont x_proc x_ptree x_file x_newfile]; repeat skip1; reflexivity. }
  assert (DIP : get_int (fr_slots (flatten ipstr jsonsvcs x e)) FL_NETW_DIP_INT SYSFLOW_SRC = net e nf_dip).
  { rewrite read_int. destruct e; cbn [writes_of]; unfold fill_entities; rewrite ?lasti_app;
    destruct x as [hd pd ct pr pt fi nf]; cbn [x_hdr x_pod x_cont x_proc x_ptree x_file x_newfile]; repeat skip1; reflexivity. }
  assert (KIND : get_int (fr_slots (flatten ipstr jsonsvcs x e)) K8SE_KIND_INT SYSFLOW_SRC = match e with EvK8s k => ke_kind k | _ => 0%Z end).
  { rewrite read_int. destruct e; cbn [writes_of]; unfold fill_entities; rewrite ?lasti_app;
    destruct x as [hd pd ct pr pt fi nf]; cbn [x_hdr x_pod x_cont x_proc x_ptree x_file x_newfile]; repeat skip1; reflexivity. }
  rewrite SIP, DIP, KIND.
  rewrite (NT nf_sport FL_NETW_SPORT_INT "sf.net.sport") by (reflexivity || (apply (nth_error_In _ 52); reflexivity)).
  rewrite (NT nf_dport FL_NETW_DPORT_INT "sf.net.dport") by (reflexivity || (apply (nth_error_In _ 53); reflexivity)).
  rewrite (NT nf_proto FL_NETW_PROTO_INT "sf.net.proto") by (reflexivity || (apply (nth_error_In _ 51); reflexivity)).
  destruct e; cbn [ev_type net]; rewrite ?N1, ?N2, ?N3, ?N4, ?N5; reflexivity.
Qed.
Lemma ident_inj i j : (forall z, In z [n_ts i; n_tid i; n_created i; n_flags i; n_ts j; n_tid j; n_created j; n_flags j] -> in_int64 z = true) ->
  slen (n_node i) = slen (n_node j) -> slen (n_cont i) = slen (n_cont j) -> ident_bytes i = ident_bytes j -> i = j.
Proof.
  intros I L1 L2 H. unfold ident_bytes in H. apply app_split in H as (A1 & H); [|exact L1]. apply app_split in H as (A2 & H); [|exact L2].
  assert (LE : forall a b, slen (le64 a) = slen (le64 b)) by (intros; unfold le64; rewrite !le_len; reflexivity).
  apply app_split in H as (A3 & H); [|apply LE]. apply app_split in H as (A4 & H); [|apply LE]. apply app_split in H as (A5 & H); [|apply LE]. apply app_split in H as (A6 & H); [|apply LE].
  apply le64_inj in A3; [|apply I; cbn; auto 10..]. apply le64_inj in A4; [|apply I; cbn; auto 10..]. apply le64_inj in A5; [|apply I; cbn; auto 10..]. apply le64_inj in A6; [|apply I; cbn; auto 10..].
  destruct i, j. cbn in *. congruence.
Qed.
End Ids.
(** The index: a document is there iff its identifier was free when it came. *)
Lemma es_keeps docs : forall ix id d, mget id ix = Some d -> mget id (es_export ix docs) = Some d.
Proof.
  induction docs as [|d0 docs IH]; intros ix id d H; [exact H|]. cbn [es_export fold_left]. apply IH. unfold es_create, mhas.
  destruct (mget (e_id d0) ix) eqn:G; [exact H|]. rewrite mget_mset. destruct (seqb id (e_id d0)) eqn:Q; [|exact H]. apply String.eqb_eq in Q. congruence.
Qed.
Lemma es_app ix a b : es_export ix (a ++ b) = es_export (es_export ix a) b.
Proof. unfold es_export. apply fold_left_app. Qed.
Lemma es_nodup docs : forall ix, NoDup (map e_id docs) -> (forall d, In d docs -> mget (e_id d) ix = None) ->
  forall d, In d docs -> mget (e_id d) (es_export ix docs) = Some d.
Proof.
  induction docs as [|d0 docs IH]; intros ix ND F d Hd; [contradiction|]. cbn [map] in ND. inversion ND as [|? ? ND1 ND2]; subst. cbn [es_export fold_left].
  assert (C : es_create ix (e_id d0) d0 = mset (e_id d0) d0 ix) by (unfold es_create, mhas; rewrite F by (left; reflexivity); reflexivity). rewrite C.
  destruct Hd as [<- |Hd].
  - apply es_keeps. apply mget_mset_eq.
  - apply IH; auto. intros d1 H1. rewrite mget_mset_ne; [apply F; right; exact H1|]. intros Q. apply ND1. rewrite <- Q. apply in_map, H1.
Qed.
Lemma es_first ix a d b d' : mget (e_id d) (es_export ix a) = None -> e_id d' = e_id d -> mget (e_id d') (es_export ix (a ++ d :: b)) = Some d.
Proof.
  intros N Q. rewrite es_app, Q. cbn [es_export fold_left]. apply es_keeps. unfold es_create, mhas. fold (es_export ix a). rewrite N. apply mget_mset_eq.
Qed.

(** ** Alerts *)
Section Alert.
Context {R : Type}.
Variables (applicable : R -> rule R -> bool) (add_rule : R -> rule R -> R) (ah : ahandler R) (P : R -> Prop).
Hypothesis Hadd : forall r ru, P r -> P (add_rule r ru).
Hypothesis Hact : forall a f r, find_action ah a = Some f -> P r -> P (fst (f r)).
Lemma run_actions_inv l : forall r, P r -> P (fst (run_actions ah l r)).
Proof.
  induction l as [|a l IH]; intros r H; [exact H|]. cbn [run_actions]. destruct (find_action ah a) as [f|] eqn:F; [|apply IH, H].
  pose proof (Hact a f r F H) as H1. destruct (f r) as [r1 b]. cbn [fst] in H1. specialize (IH r1 H1). destruct (run_actions ah l r1). exact IH.
Qed.
Lemma apply_rules_inv rules : forall r m, P r -> P (fst (fst (apply_rules applicable add_rule ah rules r m))).
Proof.
  induction rules as [|ru rules IH]; intros r m H; [exact H|]. cbn [apply_rules]. destruct (_ && _)%bool; [|apply IH, H].
  pose proof (run_actions_inv (r_actions ru) (add_rule r ru) (Hadd r ru H)) as H1. unfold handle_actions. destruct (run_actions ah (r_actions ru) (add_rule r ru)) as [r2 es]. cbn [fst] in H1.
  specialize (IH r2 true H1). destruct (apply_rules applicable add_rule ah rules r2 true) as [[r3 m3] es3]. exact IH.
Qed.
Lemma work_inv m filters rules r : P r -> P (fst (work applicable add_rule ah m filters rules r)).
Proof.
  intros H. unfold work. destruct (eval_filters filters r); [exact H|].
  pose proof (apply_rules_inv rules r (match m with EnrichMode => true | AlertMode => false end) H) as H1.
  destruct (apply_rules applicable add_rule ah rules r _) as [[r' b] es]. exact H1.
Qed.
End Alert.

(** * JsonFlat: the JSON encoder on the records the flattener makes. *)
From Coq Require Import Lia.
From Verif Require GoBase Predicates FlatRecord FieldTables JsonModel SpecJson JsonFacts6 JsonFacts7.
From Verif Require Import GoBase Predicates FlatRecord FieldTables EngineModel FlattenModel SpecFlatten FlattenFacts2.

Section S.
Variables (X : sfgo_fns) (ipstr : Z -> string) (jsonsvcs : list service -> string) (x : fctx) (e : fevent).
Let fr := flatten ipstr jsonsvcs x e.
Definition podof : option fpod := joined e (x_pod x).
Lemma hostip : get_int_array (fr_slots fr) POD_HOSTIP_ANY SYSFLOW_SRC = match podof with Some p => Some (fp_hostip p) | None => None end.
Proof.
  assert (E : map_attr X mappers "sf.pod.hostip+" fr = VIntArr (match podof with Some p => Some (fp_hostip p) | None => None end)) by (apply fields; cbn [meaning In]; tauto).
  assert (F : map_attr X mappers "sf.pod.hostip+" fr = VIntArr (get_int_array (fr_slots fr) POD_HOSTIP_ANY SYSFLOW_SRC)) by reflexivity. congruence.
Qed.
Lemma intip : get_int_array (fr_slots fr) POD_INTERNALIP_ANY SYSFLOW_SRC = match podof with Some p => Some (fp_internalip p) | None => None end.
Proof.
  assert (E : map_attr X mappers "sf.pod.internalip+" fr = VIntArr (match podof with Some p => Some (fp_internalip p) | None => None end)) by (apply fields; cbn [meaning In]; tauto).
  assert (F : map_attr X mappers "sf.pod.internalip+" fr = VIntArr (get_int_array (fr_slots fr) POD_INTERNALIP_ANY SYSFLOW_SRC)) by reflexivity. congruence.
Qed.
Lemma svcs : get_svc_array (fr_slots fr) POD_SERVICES_ANY SYSFLOW_SRC = match podof with Some p => Some (fp_services p) | None => None end.
Proof.
  assert (E : map_attr X mappers "sf.pod.services+" fr = VSvcArr (match podof with Some p => Some (fp_services p) | None => None end)) by (apply fields; cbn [meaning In]; tauto).
  assert (F : map_attr X mappers "sf.pod.services+" fr = VSvcArr (get_svc_array (fr_slots fr) POD_SERVICES_ANY SYSFLOW_SRC)) by reflexivity. congruence.
Qed.
Lemma rtype_is : SpecJson.rtype X fr = trim_bounding_quotes (x_rectype X (ev_type e)).
Proof.
  unfold SpecJson.rtype, SpecJson.reads_text.
  replace (map_attr X mappers "sf.type" fr) with (VStr (x_rectype X (ev_type e))) by (symmetry; apply fields; cbn [meaning In]; tauto). reflexivity.
Qed.
Lemma pod_section : SpecJson.has_section X fr SectPod = true <->
  trim_bounding_quotes (x_rectype X (ev_type e)) <> "KE" /\ exists p, podof = Some p /\ trim_bounding_quotes (fp_id p) <> "".
Proof.
  unfold SpecJson.has_section. rewrite rtype_is. unfold SpecJson.reads_text.
  replace (map_attr X mappers "sf.pod.id" fr) with (VStr (ps x e fp_id)) by (symmetry; apply fields; cbn [meaning In]; tauto).
  unfold ps. change (joined e (x_pod x)) with podof. destruct (seqb (trim_bounding_quotes (x_rectype X (ev_type e))) "KE") eqn:K.
  - split; [discriminate|]. apply String.eqb_eq in K. tauto.
  - apply String.eqb_neq in K. destruct podof as [p|].
    + destruct (seqb (trim_bounding_quotes (fp_id p)) "") eqn:P; cbn [negb].
      * apply String.eqb_eq in P. split; [discriminate|]. intros (_ & q & [= <-] & N). congruence.
      * apply String.eqb_neq in P. split; eauto.
    + change (seqb (trim_bounding_quotes "") "") with true. split; [discriminate|]. intros (_ & p & [=] & _).
Qed.
Context {R : Type}.
Variables (two : bool) (version : string) (ctx : context (rule R)).
Theorem flat_encodes : exists s, JsonModel.encode_json X two version fr ctx = Ok s.
Proof.
  apply JsonFacts7.encode_ok_iff. intros H. apply pod_section in H as (_ & p & P & _).
  unfold JsonFacts7.arrays_there. rewrite hostip, intip, svcs, P. repeat split; discriminate.
Qed.
Theorem flat_json vj s : SpecJson.jtext version vj -> JsonModel.encode_json X two version fr ctx = Ok s ->
  (forall z t, Forall SpecJson.plain_name (x_opflags X z t)) -> (forall z, Forall SpecJson.plain_name (x_openflags X z)) ->
  (forall z, trim_bounding_quotes (x_rectype X z) = "NF" <-> z = NET_FLOW) -> (forall z, trim_bounding_quotes (x_rectype X z) = "KE" <-> z = K8S_EVT) ->
  ((exists v, SpecJson.jtext s v) <->
   match e with
   | EvK8s _ => True
   | _ => x_ptree x <> None /\
          match x_pod x with
          | Some p => trim_bounding_quotes (fp_id p) = "" \/
                      (length (fp_hostip p) <= 1 /\ length (fp_internalip p) <= 1 /\ length (fp_services p) <= 1 /\ forall v, In v (fp_services p) -> length (s_clusterip v) <= 1)
          | None => True
          end
   end).
Proof.
  intros V E A B N K. rewrite (JsonFacts6.json_iff X two fr ctx (conj A B) N version vj s V E). unfold SpecJson.writable.
  rewrite rtype_is, pod_section, K, hostip, intip, svcs. unfold podof.
  assert (Kt : ev_type e = K8S_EVT <-> exists k, e = EvK8s k).
  { destruct e; cbn [ev_type]; split; intros H; try (eauto; fail); try discriminate H; try (destruct H as (k & [=])); eauto. }
  rewrite Kt. clear Kt. destruct e as [k|k|k|k|k]; cbn [joined fr_ptree] in *.
  1:{ split; [trivial|]. intros _. split; [intros Q; destruct Q; eauto|]. split; [intros (Q & _); destruct Q; eauto|]. auto. }
  all: assert (NK : ~ (exists k0, EvPE (mkPE 0 0 0 0) = EvK8s k0)) by (intros (k0 & [=])).
  all: unfold fr; cbn [flatten fr_ptree]; (split; [intros (P & Q & _)|intros (P & Q)]).
  all: try (split; [apply P; intros (k0 & [=])|destruct (x_pod x) as [p|]; [|exact I]]).
  all: try (destruct (string_dec (trim_bounding_quotes (fp_id p)) "") as [Z|Z]; [auto|right];
    destruct Q as ((l1 & [= <-] & L1) & (l2 & [= <-] & L2) & (l3 & [= <-] & L3) & L4); [split; [intros (k0 & [=])|eauto]|]; repeat split; eauto).
  all: split; [auto|]; split; [|auto].
  all: intros (_ & p & E1 & I1); rewrite E1 in *; destruct Q as [Q|(L1 & L2 & L3 & L4)]; [contradiction|].
  all: repeat split; try (eexists; split; [reflexivity|assumption]); intros l v [= <-]; apply L4.
Qed.
End S.

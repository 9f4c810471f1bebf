(** * LineFacts: the value of a flattened event's record is [event_value]. *)
From Coq Require Import Lia.
From Verif Require SpecJson JsonModel JsonFacts JsonFacts6 JsonFacts2 JsonFlat.
From Verif Require Import GoBase GoFacts Predicates FlatRecord FieldTables EngineModel FlattenModel SpecFlatten FlattenFacts2 SpecLine.
Import SpecJson (JBool, JNum, JStr, JArr, JObj).
Open Scope string_scope.
Lemma mget_member {V} n (v : V) m : mget n m = Some v -> In (n, v) m.
Proof.
  induction m as [|[k w] m IH]; cbn [mget]; [discriminate|]. destruct (seqb n k) eqn:E; [|intros H; right; auto].
  intros [= ->]. apply seqb_eq in E. subst. now left.
Qed.
Section L.
Variables (X : sfgo_fns) (ipstr : Z -> string) (jsonsvcs : list service -> string) (txt : string -> string) (two : bool) (x : fctx) (e : fevent).
Notation fr := (flatten ipstr jsonsvcs x e).
(** An attribute written as its plain value. *)
Definition plain (v : gval) : SpecJson.json :=
  match v with VStr s => SpecJson.text txt s | VInt z => SpecJson.JNum z | VInt32 z => SpecJson.JNum z | VBool b => SpecJson.JBool b | _ => SpecJson.JArr [] end.
Lemma attr_plain n v : mget n (SpecJson.special X txt two fr) = None -> mget n (meaning X ipstr jsonsvcs x e) = Some v ->
  SpecJson.attr_value X txt two fr n = plain v.
Proof. intros H I. unfold SpecJson.attr_value. rewrite H, (fields X ipstr jsonsvcs x e n v (mget_member _ _ _ I)). reflexivity. Qed.
Lemma attr_special n v : mget n (SpecJson.special X txt two fr) = Some v -> SpecJson.attr_value X txt two fr n = v.
Proof. intros H. unfold SpecJson.attr_value. now rewrite H. Qed.

(** The slots behind the attributes written otherwise. *)
Ltac slot := destruct e; cbn [writes_of]; unfold fill_entities; rewrite ?lasti_app, ?lasts_app;
  destruct x as [hd pd ct pr pt fi nf]; cbn [x_hdr x_pod x_cont x_proc x_ptree x_file x_newfile]; repeat skip1; try reflexivity.
Lemma s_opflags : SpecJson.ints fr OPFLAGS_INT = ev_opflags e.
Proof. unfold SpecJson.ints. rewrite read_int. slot. Qed.
Lemma s_openflags : SpecJson.ints fr FL_FILE_OPENFLAGS_INT = ffl e fl_openflags.
Proof. unfold SpecJson.ints. rewrite read_int. slot. Qed.
Lemma s_type : SpecJson.ints fr SF_REC_TYPE = ev_type e.
Proof. apply rec_type. Qed.
Lemma s_sip : SpecJson.ints fr FL_NETW_SIP_INT = net e nf_sip.
Proof. unfold SpecJson.ints. rewrite read_int. slot. Qed.
Lemma s_dip : SpecJson.ints fr FL_NETW_DIP_INT = net e nf_dip.
Proof. unfold SpecJson.ints. rewrite read_int. slot. Qed.
Lemma s_sport : SpecJson.ints fr FL_NETW_SPORT_INT = net e nf_sport.
Proof. unfold SpecJson.ints. rewrite read_int. slot. Qed.
Lemma s_dport : SpecJson.ints fr FL_NETW_DPORT_INT = net e nf_dport.
Proof. unfold SpecJson.ints. rewrite read_int. slot. Qed.
Lemma s_newpath : get_str (fr_slots fr) SEC_FILE_PATH_STR SYSFLOW_SRC = path (thenewfile x e).
Proof. rewrite read_str. slot. destruct nf; reflexivity. Qed.
Lemma s_tty : SpecJson.JBool (Z.eqb (SpecJson.ints fr PROC_TTY_INT) 1) = truth x e p_tty.
Proof. unfold SpecJson.ints. rewrite read_int. slot. all: destruct pr as [[? ? [?|] ? ? ? ? ? ? ? [] ? ?]|]; reflexivity. Qed.
Lemma s_entry : SpecJson.JBool (Z.eqb (SpecJson.ints fr PROC_ENTRY_INT) 1) = truth x e p_entry.
Proof. unfold SpecJson.ints. rewrite read_int. slot. all: destruct pr as [[? ? [?|] ? ? ? ? ? ? ? ? [] ?]|]; reflexivity. Qed.
Lemma anc : SpecJson.ancestors fr = forebears x e.
Proof. unfold SpecJson.ancestors, forebears, ancestors, flatten. cbn [fr_ptree]. destruct e; reflexivity. Qed.
Lemma par : SpecJson.parent fr = parent x e.
Proof. unfold SpecJson.parent. rewrite anc. unfold forebears, parent. destruct (ancestors x e) as [[|a [|b l]]|]; reflexivity. Qed.

Notation sect l := (map (fun ka => (fst ka, SpecJson.attr_value X txt two fr (snd ka))) l).
Ltac split_list := match goal with |- _ :: _ = _ :: _ => apply (f_equal2 (@cons _)); [|split_list] | |- [] = [] => reflexivity end.
Ltac norm := cbn [SpecJson.in_section SpecJson.top map fst snd]; cbn [append]; split_list; apply (f_equal (pair _)).
Ltac easy1 := match goal with |- SpecJson.attr_value _ _ _ _ ?n = _ => first [rewrite (attr_plain n _ eq_refl eq_refl) | rewrite (attr_special n _ eq_refl)] end;
  rewrite ?s_opflags, ?s_openflags, ?s_type, ?s_sip, ?s_dip, ?s_sport, ?s_dport, ?s_newpath, ?s_tty, ?s_entry, ?anc;
  unfold SpecJson.ptext, SpecJson.pnum, SpecJson.pbool; rewrite ?par; try reflexivity.
Lemma p_top : sect SpecJson.top = [("endts", JNum (ev_endts e)); ("opflags", JArr (map JStr (x_opflags X (wrap32 (ev_opflags e)) (x_rectype X (ev_type e)))));
         ("ret", JNum (ev_ret e)); ("ts", JNum (ev_ts e)); ("type", say txt (x_rectype X (ev_type e)))].
Proof. norm; easy1. Qed.
Ltac sec := unfold container_part, file_part, flow_part, meta_part, net_part, node_part, pod_part, parent_part, process_part; apply (f_equal JObj); norm; easy1.
Lemma p_cont : JObj (sect (SpecJson.in_section "sf.container." ["id"; "image"; "imageid"; "name"; "privileged"; "type"])) = container_part X txt x e.
Proof. sec. Qed.
Lemma p_file : JObj (sect (SpecJson.in_section "sf.file." ["directory"; "fd"; "is_open_read"; "is_open_write"; "name"; "newdirectory"; "newname"; "newoid";
      "newpath"; "newsymlink"; "oid"; "openflags"; "path"; "symlink"; "type"])) = file_part X txt x e.
Proof. sec. Qed.
Lemma p_flow : JObj (sect (SpecJson.in_section "sf.flow." ["rbytes"; "rops"; "wbytes"; "wops"])) = flow_part e.
Proof. sec. Qed.
Lemma p_k8s k : e = EvK8s k -> JObj (sect (SpecJson.in_section "sf.ke." ["action"; "kind"; "message"])) =
  JObj [("action", say txt (x_k8saction X (ke_action k))); ("kind", say txt (x_k8skind X (ke_kind k))); ("message", say txt (ke_message k))].
Proof. intros E. sec; rewrite E; reflexivity. Qed.
Lemma p_meta : JObj (sect (SpecJson.in_section "sf.meta." ["schema"; "tracename"])) = meta_part txt x.
Proof. sec. Qed.
Lemma p_net : JObj (sect (SpecJson.in_section "sf.net." ["dip"; "dport"; "ip"; "port"; "proto"; "sip"; "sport"])) = net_part X txt two e.
Proof. sec. Qed.
Lemma p_node : JObj (sect (SpecJson.in_section "sf.node." ["id"; "ip"])) = node_part txt x.
Proof. sec. Qed.
Lemma p_pod : JObj (sect [("hostip", "sf.pod.hostip+"); ("id", "sf.pod.id"); ("internalip", "sf.pod.internalip+"); ("name", "sf.pod.name");
      ("namespace", "sf.pod.namespace"); ("nodename", "sf.pod.nodename"); ("restartcnt", "sf.pod.restartcnt"); ("services", "sf.pod.services+"); ("ts", "sf.pod.ts")]) = pod_part txt x e.
Proof.
  sec. all: rewrite ?(JsonFlat.hostip X ipstr jsonsvcs x e), ?(JsonFlat.intip X ipstr jsonsvcs x e), ?(JsonFlat.svcs X ipstr jsonsvcs x e); unfold of_pod, JsonFlat.podof; destruct (joined e (x_pod x)); reflexivity.
Qed.
Lemma p_pproc : JObj (sect (SpecJson.in_section "sf.pproc." ["args"; "cmdline"; "createts"; "entry"; "exe"; "gid"; "group"; "name"; "oid"; "pid"; "tty"; "uid"; "user"])) = parent_part X txt x e.
Proof. sec. all: unfold parent_pid, parent_since, parent_id, plain, prz; destruct (joined e (x_proc x)); reflexivity. Qed.
Lemma p_proc : JObj (sect (SpecJson.in_section "sf.proc." ["acmdline"; "aexe"; "aname"; "apid"; "args"; "cmdline"; "createts"; "entry"; "exe"; "gid"; "group";
      "name"; "oid"; "pid"; "tid"; "tty"; "uid"; "user"])) = process_part X txt x e.
Proof. sec. Qed.

Lemma mf {A B} (f : A -> bool) (g : A -> B) a l : map g (List.filter f (a :: l)) = (when (f a) (g a) ++ map g (List.filter f l))%list.
Proof. cbn [List.filter]. destruct (f a); reflexivity. Qed.
Section H.
Hypothesis N : names_types X.
Lemma typed : SpecJson.rtype X fr = match e with EvK8s _ => "KE" | EvPE _ => "PE" | EvNF _ => "NF" | EvFF _ => "FF" | EvFE _ => "FE" end.
Proof. rewrite JsonFlat.rtype_is. apply N; destruct e; cbn; tauto. Qed.
Lemma ai n z : mget n (meaning X ipstr jsonsvcs x e) = Some (VInt z) -> SpecJson.reads_int X fr n = z.
Proof. intros H. unfold SpecJson.reads_int. rewrite (fields X ipstr jsonsvcs x e n _ (mget_member _ _ _ H)). reflexivity. Qed.
Lemma at_ n z : mget n (meaning X ipstr jsonsvcs x e) = Some (VStr z) -> SpecJson.reads_text X fr n = trim_bounding_quotes z.
Proof. intros H. unfold SpecJson.reads_text. rewrite (fields X ipstr jsonsvcs x e n _ (mget_member _ _ _ H)). reflexivity. Qed.
Lemma h_all s : SpecJson.has_section X fr s = match s with
  | SectCont => negb (seqb (trim_bounding_quotes (cs x e fc_id)) "") | SectFile => is_file e | SectFlow => is_flow e | SectK8sEvt => is_k8s e | SectMeta => true
  | SectNet => is_net e | SectNode => true | SectPod => negb (seqb (trim_bounding_quotes (ps x e fp_id)) "")
  | SectPProc => negb (is_k8s e) && negb (Z.eqb (parent_pid x e) 0) | SectProc => negb (is_k8s e) | SectNone => false end.
Proof.
  assert (PP : SpecJson.reads_int X fr "sf.pproc.pid" = parent_pid x e).
  { rewrite (ai "sf.pproc.pid" _ eq_refl). unfold prz, parent_pid, parent_id. destruct (joined e (x_proc x)); reflexivity. }
  pose proof (at_ "sf.container.id" _ eq_refl) as PC. pose proof (at_ "sf.pod.id" _ eq_refl) as PD.
  unfold SpecJson.has_section. rewrite typed, PP, PC, PD. clear PP PC PD.
  destruct e; destruct s; reflexivity.
Qed.
Lemma value_is (R : Type) vj (ctx : context (rule R)) : SpecJson.record_value X txt two vj fr ctx = event_value X txt two x e vj ctx.
Proof.
  unfold SpecJson.record_value, event_value. apply f_equal. rewrite p_top. cbn [app]. do 6 apply (f_equal (cons _)).
  unfold SpecJson.sections. rewrite !mf. cbn [fst snd]. rewrite !h_all. cbv iota. rewrite p_cont, p_file, p_flow, p_meta, p_net, p_node, p_pod, p_pproc, p_proc.
  assert (K8 : when (is_k8s e) ("k8s", JObj (sect (SpecJson.in_section "sf.ke." ["action"; "kind"; "message"]))) = when (is_k8s e) ("k8s", k8s_part X txt e)).
  { destruct (is_k8s e) eqn:B; [|reflexivity]. assert (H : exists k, e = EvK8s k) by (destruct e; [eauto|discriminate B..]). destruct H as [k E].
    cbn [when]. rewrite (p_k8s k E). unfold k8s_part. rewrite E. reflexivity. }
  rewrite K8. cbn [List.filter map]. rewrite <- !app_assoc. reflexivity.
Qed.
End H.
End L.

(** ** Which events are told *)
Section T.
Variables (X : sfgo_fns) (ipstr : Z -> string) (jsonsvcs : list service -> string) (two : bool) (x : fctx) (e : fevent).
Hypothesis N : names_types X.
Hypothesis A : forall z t, Forall SpecJson.plain_name (x_opflags X z t).
Hypothesis B : forall z, Forall SpecJson.plain_name (x_openflags X z).
Lemma name_nf z : trim_bounding_quotes (x_rectype X z) = "NF" <-> z = 5%Z.
Proof. rewrite (N z "NF") by (cbn; tauto). unfold type_names. cbn [In]. split; [intros [H|[H|[H|[H|[H|H]]]]]; try discriminate H; [congruence|destruct H]|intros ->; tauto]. Qed.
Lemma name_ke z : trim_bounding_quotes (x_rectype X z) = "KE" <-> z = 11%Z.
Proof. rewrite (N z "KE") by (cbn; tauto). unfold type_names. cbn [In]. split; [intros [H|[H|[H|[H|[H|H]]]]]; try discriminate H; [congruence|destruct H]|intros ->; tauto]. Qed.
Variables (R : Type) (version : string) (vj : SpecJson.json) (ctx : context (rule R)).
Lemma told_iff s : SpecJson.jtext version vj -> JsonModel.encode_json X two version (flatten ipstr jsonsvcs x e) ctx = Ok s -> ((exists v, SpecJson.jtext s v) <-> told x e).
Proof. intros V E. exact (JsonFlat.flat_json X ipstr jsonsvcs x e two version ctx vj s V E A B name_nf name_ke). Qed.
Lemma told_writable : SpecJson.jtext version vj -> told x e -> SpecJson.writable X (flatten ipstr jsonsvcs x e).
Proof.
  intros V T. destruct (JsonFlat.flat_encodes X ipstr jsonsvcs x e two version ctx) as [s E].
  apply (proj1 (JsonFacts6.json_iff X two (flatten ipstr jsonsvcs x e) ctx (conj A B) name_nf version vj s V E)). now apply (told_iff s V E).
Qed.
End T.

(** ** Reading members *)
Lemma mget_when {V} n k (v : V) b l : mget n (when b (k, v) ++ l)%list = if b then (if seqb n k then Some v else mget n l) else mget n l.
Proof. destruct b; reflexivity. Qed.
Section M.
Variables (X : sfgo_fns) (txt : string -> string) (two : bool) (x : fctx) (e : fevent) (R : Type) (vj : SpecJson.json) (ctx : context (rule R)).
Notation ev := (event_value X txt two x e vj ctx).
Ltac other := unfold event_value, member; cbn [app mget]; repeat match goal with |- context [seqb ?a ?b] => let c := eval vm_compute in (seqb a b) in change (seqb a b) with c; cbv iota end.
Ltac walk := repeat (rewrite mget_when; repeat match goal with |- context [seqb (String ?a ?b) (String ?c ?d)] => let r := eval vm_compute in (seqb (String a b) (String c d)) in change (seqb (String a b) (String c d)) with r end; cbv iota;
  match goal with |- context [if ?b then mget ?n ?l else mget ?n ?l] => replace (if b then mget n l else mget n l) with (mget n l) by (destruct b; reflexivity) | _ => idtac end; cbn [app]; try (cbn [mget]; repeat match goal with |- context [seqb (String ?a ?b) (String ?c ?d)] => let r := eval vm_compute in (seqb (String a b) (String c d)) in change (seqb (String a b) (String c d)) with r end; cbv iota)).
Lemma m_proc : is_k8s e = false -> member "proc" ev = Some (process_part X txt x e).
Proof. intros K. other. walk. rewrite K. reflexivity. Qed.
Lemma m_flow : is_flow e = true -> member "flow" ev = Some (flow_part e).
Proof. intros K. other. walk. rewrite K. reflexivity. Qed.
Lemma m_net : is_net e = true -> member "net" ev = Some (net_part X txt two e).
Proof. intros K. other. walk. rewrite K. reflexivity. Qed.
End M.
Section Apart.
Variables (X : sfgo_fns) (txt : string -> string) (two : bool) (R : Type) (vj : SpecJson.json).
Hypothesis N : names_types X.
Hypothesis C : forall s, SpecJson.clean s (txt s).
Lemma txt_ascii s t : s = t -> SpecJson.clean t t -> txt s = t.
Proof. intros -> H. exact (JsonFacts.clean_fun _ _ _ (C t) H). Qed.
Definition word_of (e : fevent) : string := match e with EvK8s _ => "KE" | EvPE _ => "PE" | EvNF _ => "NF" | EvFF _ => "FF" | EvFE _ => "FE" end.
Lemma says_type e : say txt (x_rectype X (ev_type e)) = JStr (word_of e).
Proof.
  unfold say. apply f_equal. apply txt_ascii; [apply N; destruct e; cbn; tauto|]. apply JsonFacts.clean_valid.
  assert (Q : forall a b, (0 <= a < 128)%Z -> (0 <= b < 128)%Z -> SpecJson.valid (SpecJson.utf8 a ++ SpecJson.utf8 b ++ "")).
  { intros a b Ha Hb. apply SpecJson.v_cons; [left; lia|]. apply SpecJson.v_cons; [left; lia|constructor]. }
  destruct e; [apply (Q 75%Z 69%Z)|apply (Q 80%Z 69%Z)|apply (Q 78%Z 70%Z)|apply (Q 70%Z 70%Z)|apply (Q 70%Z 69%Z)]; lia.
Qed.
Lemma apart x e (ctx : context (rule R)) x' e' (ctx' : context (rule R)) :
  event_value X txt two x e vj ctx = event_value X txt two x' e' vj ctx' ->
  word_of e = word_of e' /\ ev_ts e = ev_ts e' /\ ev_endts e = ev_endts e' /\ ev_ret e = ev_ret e' /\
  (is_k8s e = false -> process_part X txt x e = process_part X txt x' e') /\ (is_flow e = true -> flow_part e = flow_part e') /\ (is_net e = true -> net_part X txt two e = net_part X txt two e').
Proof.
  intros H.
  assert (M : forall n, member n (event_value X txt two x e vj ctx) = member n (event_value X txt two x' e' vj ctx')) by (intros n; now rewrite H).
  assert (T : Some (say txt (x_rectype X (ev_type e))) = Some (say txt (x_rectype X (ev_type e')))) by exact (M "type").
  rewrite !says_type in T. assert (W : word_of e = word_of e') by congruence. split; [exact W|].
  assert (T1 : Some (JNum (ev_ts e)) = Some (JNum (ev_ts e'))) by exact (M "ts"). assert (T2 : Some (JNum (ev_endts e)) = Some (JNum (ev_endts e'))) by exact (M "endts").
  assert (T3 : Some (JNum (ev_ret e)) = Some (JNum (ev_ret e'))) by exact (M "ret").
  split; [congruence|]. split; [congruence|]. split; [congruence|].
  assert (K : is_k8s e = is_k8s e' /\ is_flow e = is_flow e' /\ is_net e = is_net e') by (destruct e; destruct e'; cbn in W; try discriminate W; auto).
  destruct K as (K1 & K2 & K3).
  split; [|split]; intros Q.
  - pose proof (M "proc") as P. rewrite (m_proc X txt two x e R vj ctx Q), (m_proc X txt two x' e' R vj ctx') in P by congruence. congruence.
  - pose proof (M "flow") as P. rewrite (m_flow X txt two x e R vj ctx Q), (m_flow X txt two x' e' R vj ctx') in P by congruence. congruence.
  - pose proof (M "net") as P. rewrite (m_net X txt two x e R vj ctx Q), (m_net X txt two x' e' R vj ctx') in P by congruence. congruence.
Qed.
Lemma apart_proc x e x' e' : process_part X txt x e = process_part X txt x' e' ->
  prz x e (fun p => hpid (p_oid p)) = prz x' e' (fun p => hpid (p_oid p)) /\ prz x e (fun p => createts (p_oid p)) = prz x' e' (fun p => createts (p_oid p)) /\
  ev_tid e = ev_tid e' /\ prz x e p_uid = prz x' e' p_uid /\ prz x e p_gid = prz x' e' p_gid.
Proof.
  intros H. assert (M : forall n, member n (process_part X txt x e) = member n (process_part X txt x' e')) by (intros n; now rewrite H).
  assert (T1 : Some (JNum (prz x e (fun p => hpid (p_oid p)))) = Some (JNum (prz x' e' (fun p => hpid (p_oid p))))) by exact (M "pid").
  assert (T2 : Some (JNum (prz x e (fun p => createts (p_oid p)))) = Some (JNum (prz x' e' (fun p => createts (p_oid p))))) by exact (M "createts").
  assert (T3 : Some (JNum (ev_tid e)) = Some (JNum (ev_tid e'))) by exact (M "tid").
  assert (T4 : Some (JNum (prz x e p_uid)) = Some (JNum (prz x' e' p_uid))) by exact (M "uid").
  assert (T5 : Some (JNum (prz x e p_gid)) = Some (JNum (prz x' e' p_gid))) by exact (M "gid").
  repeat split; congruence.
Qed.
Lemma apart_net e e' : net_part X txt two e = net_part X txt two e' ->
  net e nf_sport = net e' nf_sport /\ net e nf_dport = net e' nf_dport /\ net e nf_proto = net e' nf_proto.
Proof.
  intros H. assert (M : forall n, member n (net_part X txt two e) = member n (net_part X txt two e')) by (intros n; now rewrite H).
  assert (T1 : Some (JNum (net e nf_sport)) = Some (JNum (net e' nf_sport))) by exact (M "sport").
  assert (T2 : Some (JNum (net e nf_dport)) = Some (JNum (net e' nf_dport))) by exact (M "dport").
  assert (T3 : Some (JNum (net e nf_proto)) = Some (JNum (net e' nf_proto))) by exact (M "proto").
  repeat split; congruence.
Qed.
Lemma apart_flow e e' : flow_part e = flow_part e' ->
  cnt e nf_rbytes fl_rbytes = cnt e' nf_rbytes fl_rbytes /\ cnt e nf_wbytes fl_wbytes = cnt e' nf_wbytes fl_wbytes /\
  cnt e nf_rops fl_rops = cnt e' nf_rops fl_rops /\ cnt e nf_wops fl_wops = cnt e' nf_wops fl_wops.
Proof. unfold flow_part. intros H. repeat split; congruence. Qed.
End Apart.

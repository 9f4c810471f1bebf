(** * ExportFacts2: the exporter's configuration. *)
From Coq Require Import Lia.
From Verif Require Import GoBase GoFacts EngineModel EngineFacts ExportModel SpecExport ExportFacts.
Open Scope Z_scope.

Lemma xstr_cases k c : match xstr k c with Some v => option_of c k v | None => no_option c k end.
Proof. unfold xstr, no_option, option_of. destruct (mget k c) as [[s|ks|]|]; auto; intros v; discriminate. Qed.
Lemma xstr_some k c v : option_of c k v <-> xstr k c = Some v.
Proof. unfold xstr, option_of. destruct (mget k c) as [[s|ks|]|]; split; intros H; try discriminate; injection H as <-; reflexivity. Qed.
Lemma xstr_none k c : no_option c k <-> xstr k c = None.
Proof.
  unfold no_option. split; intros H.
  - destruct (xstr k c) eqn:E; [|reflexivity]. exfalso. apply (H s), xstr_some, E.
  - intros v X. apply xstr_some in X. congruence.
Qed.
Lemma text_xdflt k d c : text_opt c k d (xdflt k d c).
Proof. unfold text_opt, xdflt. pose proof (xstr_cases k c). destruct (xstr k c); auto. Qed.
Lemma xint_num k d c z : xint k d c = Some z -> num_opt c k d z.
Proof.
  unfold xint, num_opt. pose proof (xstr_cases k c) as H. destruct (xstr k c) as [v|]; [|intros [= <-]; auto].
  rewrite atoi_spec. destruct (parse_int64 v) eqn:E; [intros [= <-]; eauto|discriminate].
Qed.
Lemma xint_fine k d c : num_fine c k <-> exists z, xint k d c = Some z.
Proof.
  unfold num_fine, xint. destruct (xstr k c) as [v|] eqn:E.
  - rewrite atoi_spec. split.
    + intros H. apply xstr_some in E. specialize (H v E). destruct (parse_int64 v); [eauto|congruence].
    + intros (z & H) w W. apply xstr_some in W. rewrite W in E. injection E as <-. destruct (parse_int64 w); [discriminate|discriminate].
  - split; [eauto|]. intros _ v H. apply xstr_some in H. congruence.
Qed.
Lemma word_parse {A} (c : xconf) k (words : list (string * A)) d (f : string -> A) :
  (forall w, In (w, f w) words \/ ((forall x, ~ In (w, x) words) /\ f w = d)) ->
  word_opt c k words d (match xstr k c with Some v => f v | None => d end).
Proof.
  intros H. unfold word_opt. destruct (xstr k c) as [v|] eqn:E.
  - destruct (H v) as [I|[N ->]].
    + left. exists v. split; [apply xstr_some, E|exact I].
    + right. split; [|reflexivity]. intros w x W. apply xstr_some in W. rewrite W in E. injection E as <-. apply N.
  - right. split; [|reflexivity]. intros w x W. apply xstr_some in W. congruence.
Qed.
Lemma word_parse_unique {A} (c : xconf) k (words : list (string * A)) d (f : string -> A) a :
  (forall w x, In (w, x) words -> f w = x) ->
  (forall w, In (w, f w) words \/ ((forall x, ~ In (w, x) words) /\ f w = d)) ->
  word_opt c k words d a -> a = match xstr k c with Some v => f v | None => d end.
Proof.
  intros F H [(w & O & I)|[N ->]].
  - apply xstr_some in O. rewrite O. symmetry. apply F, I.
  - destruct (xstr k c) as [v|] eqn:E; [|reflexivity]. destruct (H v) as [I|[_ <-]]; [|reflexivity].
    exfalso. apply xstr_some in E. apply (N _ _ E I).
Qed.
Ltac words := let w := fresh in intro w;
  repeat match goal with |- context[if seqb ?a ?b then _ else _] => destruct (String.eqb_spec a b) as [H|?]; [try subst; left; cbn; tauto|] end;
  right; split; [intros x; cbn; intros X; repeat destruct X as [X|X]; congruence|reflexivity].
Lemma transport_parse w : In (w, parse_transport w) transport_words \/ ((forall x, ~ In (w, x) transport_words) /\ parse_transport w = StdOutTransport).
Proof.
  unfold parse_transport, seqb, transport_words.
  destruct (String.eqb_spec "file" w) as [<-|?]; [left; cbn; tauto|].
  destruct (String.eqb_spec "syslog" w) as [<-|?]; [left; cbn; tauto|].
  destruct (String.eqb_spec "es" w) as [<-|?]; [left; cbn; tauto|].
  destruct (String.eqb_spec "kafka" w) as [<-|?]; [left; cbn; tauto|].
  destruct (String.eqb_spec "null" w) as [<-|?]; [left; cbn; tauto|].
  destruct (String.eqb_spec "terminal" w) as [<-|?]; [left; cbn; tauto|].
  right; split; [intros x X; cbn in X; repeat destruct X as [X|X]; congruence|reflexivity].
Qed.
Lemma transport_es w : parse_transport w = ESTransport <-> w = "es"%string.
Proof.
  split; [|intros ->; reflexivity]. destruct (transport_parse w) as [I|[_ E]]; [|rewrite E; discriminate]. intros E. rewrite E in I.
  cbn in I. repeat destruct I as [I|I]; try discriminate I; [injection I; congruence|destruct I].
Qed.
Lemma format_parse w : In (w, parse_format w) format_words \/ ((forall x, ~ In (w, x) format_words) /\ parse_format w = JSONFormat).
Proof.
  unfold parse_format, seqb, format_words.
  destruct (String.eqb_spec w "json") as [->|?]; [left; cbn; tauto|].
  destruct (String.eqb_spec w "ecs") as [->|?]; [left; cbn; tauto|].
  destruct (String.eqb_spec w "otel") as [->|?]; [left; cbn; tauto|].
  right; split; [intros x X; cbn in X; repeat destruct X as [X|X]; congruence|reflexivity].
Qed.
Lemma proto_parse w : In (w, parse_proto w) proto_words \/ ((forall x, ~ In (w, x) proto_words) /\ parse_proto w = TCPProto).
Proof.
  unfold parse_proto, seqb, proto_words.
  destruct (String.eqb_spec w "tcp") as [->|?]; [left; cbn; tauto|].
  destruct (String.eqb_spec w "tls") as [->|?]; [left; cbn; tauto|].
  destruct (String.eqb_spec w "udp") as [->|?]; [left; cbn; tauto|].
  right; split; [intros x X; cbn in X; repeat destruct X as [X|X]; congruence|reflexivity].
Qed.
Lemma kencoding_parse w : In (w, parse_kencoding w) kafka_words \/ ((forall x, ~ In (w, x) kafka_words) /\ parse_kencoding w = ProtoEncoding).
Proof.
  unfold parse_kencoding, seqb, kafka_words.
  destruct (String.eqb_spec "proto" w) as [<-|?]; [left; cbn; tauto|].
  destruct (String.eqb_spec "json" w) as [<-|?]; [left; cbn; tauto|].
  right; split; [intros x X; cbn in X; repeat destruct X as [X|X]; congruence|reflexivity].
Qed.
Lemma vencoding_parse w : In (w, parse_vencoding w) vault_words \/ ((forall x, ~ In (w, x) vault_words) /\ parse_vencoding w = NoneVault).
Proof.
  unfold parse_vencoding, seqb, vault_words.
  destruct (String.eqb_spec "none" w) as [<-|?]; [left; cbn; tauto|].
  destruct (String.eqb_spec "base64" w) as [<-|?]; [left; cbn; tauto|].
  right; split; [intros x X; cbn in X; repeat destruct X as [X|X]; congruence|reflexivity].
Qed.
Lemma vencoding_fun w x : In (w, x) vault_words -> parse_vencoding w = x.
Proof. cbn. intros X; repeat destruct X as [X|X]; try (injection X as <- <-; reflexivity); contradiction. Qed.
Definition vaultb (c : xconf) : bool := match xstr "vault.secrets" c with Some v => seqb v "true" | None => false end.
Lemma vaultb_on c : vaultb c = true <-> vault_on c.
Proof.
  unfold vaultb, vault_on. rewrite xstr_some. destruct (xstr "vault.secrets" c) as [v|]; [|split; discriminate].
  rewrite seqb_true. split; [intros ->; reflexivity|intros [= ->]; reflexivity].
Qed.
Lemma path_cases c p : path_of c p <-> p = xstr "vault.path" c.
Proof.
  unfold path_of. destruct p as [s|]; [rewrite xstr_some|rewrite xstr_none]; split; congruence.
Qed.
Definition venc (c : xconf) := match xstr "vault.encoding" c with Some e => parse_vencoding e | None => NoneVault end.
Definition trans (c : xconf) := match xstr "export" c with Some v => parse_transport v | None => StdOutTransport end.
Lemma trans_es c : trans c = ESTransport <-> option_of c "export" "es".
Proof.
  unfold trans. rewrite xstr_some. destruct (xstr "export" c) as [v|]; [|split; discriminate].
  rewrite transport_es. split; [intros ->; reflexivity|intros [= ->]; reflexivity].
Qed.
Lemma es_bool t : (match t with ESTransport => true | _ => false end) = true <-> t = ESTransport.
Proof. destruct t; split; congruence. Qed.
Lemma xcred_opt o k c v : xcred o k c (vaultb c) (venc c) (trans c) = Some v -> cred_opt o c (trans c) k v.
Proof.
  unfold xcred, cred_opt. destruct (xstr k c) as [w|] eqn:E; [intros [= ->]; left; apply xstr_some, E|].
  apply xstr_none in E. destruct (vaultb c && _) eqn:B; intros H; right; [left|right].
  - apply andb_prop in B as [B1 B2]. apply vaultb_on in B1. apply es_bool in B2. repeat split; try assumption.
    exists (xstr "vault.path" c), (venc c). repeat split; [apply path_cases; reflexivity| |exact H].
    apply (word_parse c _ _ _ _ vencoding_parse).
  - injection H as <-. repeat split; try assumption. intros [V T]. apply vaultb_on in V. rewrite V, T in B. discriminate.
Qed.
Lemma xcred_fine o k c : (vault_on c -> option_of c "export" "es" -> no_option c k -> forall p ve, path_of c p ->
     word_opt c "vault.encoding" vault_words NoneVault ve -> os_secret o p ve k <> None) <-> exists v, xcred o k c (vaultb c) (venc c) (trans c) = Some v.
Proof.
  unfold xcred. split.
  - intros H. destruct (xstr k c) as [w|] eqn:E; [eauto|]. destruct (vaultb c && _) eqn:B; [|eauto].
    apply andb_prop in B as [B1 B2]. apply vaultb_on in B1. apply es_bool in B2. apply trans_es in B2.
    specialize (H B1 B2 (proj2 (xstr_none k c) E) (xstr "vault.path" c) (venc c) (proj2 (path_cases _ _) eq_refl) (word_parse c _ _ _ _ vencoding_parse)).
    destruct (os_secret _ _ _ _); [eauto|congruence].
  - intros (v & H) V T N p ve P W. apply xstr_none in N. rewrite N in H. apply vaultb_on in V. apply trans_es in T. rewrite V, T in H. cbn [andb] in H.
    apply path_cases in P; subst p. rewrite (word_parse_unique c _ _ _ _ ve vencoding_fun vencoding_parse W). fold (venc c). congruence.
Qed.
Lemma xkafka_given c : kafka_given c <-> exists kt, xkafka c = Some kt.
Proof.
  unfold kafka_given, xkafka. split.
  - intros (ks & t & -> & I & T). apply xstr_some in T. rewrite T.
    replace (existsb _ ks) with true; [eauto|]. symmetry. apply existsb_exists. exists "bootstrap.servers"%string. split; [exact I|reflexivity].
  - intros (kt & H). destruct (mget "kafka.config" c) as [[|ks|]|]; try discriminate.
    destruct (existsb _ ks) eqn:X; [|discriminate]. destruct (xstr "kafka.topic" c) as [t|] eqn:T; [|discriminate].
    exists ks, t. apply existsb_exists in X as (k & I & Q). apply seqb_true in Q; subst. repeat split; try assumption. apply xstr_some, T.
Qed.
Lemma no_sep_comma a : has_byte ","%char a = false -> ~ exists x y, a = (x ++ "," ++ y)%string.
Proof.
  intros H (x & y & ->). revert H. induction x as [|b x IH]; cbn; [discriminate|]. destruct (Ascii.eqb _ _); [discriminate|exact IH].
Qed.
Lemma config_values o c cfg : create_xconfig o c = Some cfg -> configured o c cfg.
Proof.
  unfold create_xconfig. fold (vaultb c) (venc c) (trans c). destruct (vaultb c && negb _); [discriminate|].
  destruct (xint "buffer" 0 c) as [buffer|] eqn:B; cbn [obind]; [|discriminate].
  destruct (xint "syslog.port" 514 c) as [port|] eqn:P; cbn [obind]; [|discriminate].
  destruct (xcred o "es.username" c _ _ _) as [user|] eqn:U; cbn [obind]; [|discriminate].
  destruct (xcred o "es.password" c _ _ _) as [pw|] eqn:W; cbn [obind]; [|discriminate].
  destruct (xint "es.bulk.numWorkers" 0 c) as [nw|] eqn:N; cbn [obind]; [|discriminate].
  destruct (xint "es.bulk.flushBuffer" 5000000 c) as [fb|] eqn:F; cbn [obind]; [|discriminate].
  destruct (match xstr "es.bulk.flushTimeout" c with Some v => _ | None => _ end) as [ft|] eqn:T; cbn [obind]; [|discriminate].
  destruct (xkafka c) as [kt|] eqn:K; cbn [obind]; [|discriminate]. intros [= <-].
  unfold configured; cbn [xc_transport xc_format xc_buffer xc_vault xc_version xc_schema xc_ecs xc_build xc_cluster xc_path xc_proto xc_tag
    xc_source xc_host xc_port xc_addresses xc_index xc_user xc_password xc_workers xc_fbuffer xc_ftimeout xc_topic xc_kencoding].
  split; [apply (word_parse c _ _ _ _ transport_parse)|]. split; [apply (word_parse c _ _ _ _ format_parse)|].
  split; [apply xint_num, B|]. split; [apply vaultb_on|]. do 6 (split; [apply text_xdflt|]).
  split; [apply (word_parse c _ _ _ _ proto_parse)|]. do 3 (split; [apply text_xdflt|]). split; [apply xint_num, P|]. split.
  { destruct (xstr "es.addresses" c) as [v|] eqn:E; [left; exists v|right].
    - repeat split; [apply xstr_some, E|apply split_on_join|]. apply Forall_forall. intros x I. apply no_sep_comma. exact (split_on_no_sep _ _ _ I).
    - split; [apply xstr_none, E|reflexivity]. }
  split; [apply text_xdflt|]. split; [apply xcred_opt, U|]. split; [apply xcred_opt, W|]. split; [apply xint_num, N|]. split; [apply xint_num, F|].
  split.
  { unfold duration_opt. destruct (xstr "es.bulk.flushTimeout" c) as [v|] eqn:E; [left; exists v; split; [apply xstr_some, E|exact T]|right].
    injection T as <-. split; [apply xstr_none, E|reflexivity]. }
  unfold xkafka in K. destruct (mget "kafka.config" c) as [[|ks|]|]; try discriminate.
  destruct (existsb _ ks) eqn:X; [|discriminate]. destruct (xstr "kafka.topic" c) as [t|] eqn:Tp; [|discriminate]. injection K as <-. cbn [fst snd].
  split; [apply xstr_some, Tp|apply (word_parse c _ _ _ _ kencoding_parse)].
Qed.
Lemma config_accepted o c : (exists cfg, create_xconfig o c = Some cfg) <-> acceptable o c.
Proof.
  unfold acceptable. rewrite (xint_fine "buffer" 0 c), (xint_fine "syslog.port" 514 c), (xint_fine "es.bulk.numWorkers" 0 c), (xint_fine "es.bulk.flushBuffer" 5000000 c), xkafka_given.
  assert (Dur : (forall v, option_of c "es.bulk.flushTimeout" v -> os_duration o v <> None) <->
                exists ft, (match xstr "es.bulk.flushTimeout" c with Some v => os_duration o v | None => Some 30000000000 end) = Some ft).
  { destruct (xstr "es.bulk.flushTimeout" c) as [v|] eqn:E.
    - apply xstr_some in E. split; [intros H; specialize (H v E); destruct (os_duration o v); [eauto|congruence]|].
      intros (ft & H) w W. apply xstr_some in W, E. congruence.
    - split; [eauto|]. intros _ v W. apply xstr_some in W. congruence. }
  rewrite Dur.
  assert (Cred : (vault_on c -> option_of c "export" "es" -> forall k, In k ["es.username"; "es.password"]%string -> no_option c k ->
      forall p ve, path_of c p -> word_opt c "vault.encoding" vault_words NoneVault ve -> os_secret o p ve k <> None) <->
      (exists v, xcred o "es.username" c (vaultb c) (venc c) (trans c) = Some v) /\ (exists v, xcred o "es.password" c (vaultb c) (venc c) (trans c) = Some v)).
  { rewrite <- !xcred_fine. split.
    - intros H. split; intros V T; apply (H V T); cbn; auto.
    - intros [H1 H2] V T k [<-|[<-|[]]]; auto. }
  rewrite Cred.
  assert (Vault : (vault_on c -> forall p, path_of c p -> os_secrets o p = true) <-> vaultb c && negb (os_secrets o (xstr "vault.path" c)) = false).
  { split.
    - intros H. destruct (vaultb c) eqn:V; [|reflexivity]. cbn [andb]. rewrite (H (proj1 (vaultb_on c) V) (xstr "vault.path" c) (proj2 (path_cases _ _) eq_refl)). reflexivity.
    - intros H V p P. apply path_cases in P; subst p. apply vaultb_on in V. rewrite V in H. cbn [andb] in H. destruct (os_secrets o _); [reflexivity|discriminate]. }
  rewrite Vault. unfold create_xconfig. fold (vaultb c) (venc c) (trans c). split.
  - intros (cfg & H). destruct (vaultb c && negb _); [discriminate|].
    destruct (xint "buffer" 0 c) as [buffer|] eqn:B; cbn [obind] in H; [|discriminate].
    destruct (xint "syslog.port" 514 c) as [port|] eqn:P; cbn [obind] in H; [|discriminate].
    destruct (xcred o "es.username" c _ _ _) as [user|] eqn:U; cbn [obind] in H; [|discriminate].
    destruct (xcred o "es.password" c _ _ _) as [pw|] eqn:W; cbn [obind] in H; [|discriminate].
    destruct (xint "es.bulk.numWorkers" 0 c) as [nw|] eqn:N; cbn [obind] in H; [|discriminate].
    destruct (xint "es.bulk.flushBuffer" 5000000 c) as [fb|] eqn:F; cbn [obind] in H; [|discriminate].
    destruct (match xstr "es.bulk.flushTimeout" c with Some v => _ | None => _ end) as [ft|] eqn:T; cbn [obind] in H; [|discriminate].
    destruct (xkafka c) as [kt|] eqn:K; cbn [obind] in H; [|discriminate].
    repeat split; eauto.
  - intros (V & (b & B) & (p & P) & (nw & N) & (fb & F) & (ft & T) & ((u & U) & (pw & W)) & (kt & K)).
    rewrite V, B, P, U, W, N, F, T, K. cbn [obind]. eauto.
Qed.

(** ** Elastic: as a line-by-line transport *)
Definition es_data (d : edata) : edata := match es_text d with Some m => DBytes m | None => DObj None "" false end.
Lemma es_data_text d : syslog_text (es_data d) = es_text d.
Proof. unfold es_data. destruct (es_text d); reflexivity. Qed.
Lemma es_add_lines ok : forall ds i, es_add ok i ds = syslog_export ok i (map es_data ds).
Proof.
  induction ds as [|d ds IH]; intros i; [reflexivity|]. cbn [map syslog_export].
  destruct d as [s|[m|] p [|]]; cbn [es_add es_data es_text]; try reflexivity. rewrite IH. reflexivity.
Qed.
Lemma es_delivery {R} (enc : R -> option edata) ok i b : b <> [] -> delivery enc es_text ok i b (process (encode_all enc) (es_add ok) i b).
Proof.
  intros NE. unfold process. destruct (encode_all enc b) as [ds|] eqn:E.
  - right. pose proof (encode_all_some _ _ _ E) as F. destruct ds as [|d ds]; [inversion F; subst; congruence|]. rewrite es_add_lines.
    destruct (syslog_export ok i (map es_data (d :: ds))) as [out err] eqn:X.
    assert (F' : Forall2 (fun r d' => option_map es_data (enc r) = Some d') b (map es_data (d :: ds))).
    { clear - F. induction F as [|r d0 b l H F IH]; constructor; [rewrite H; reflexivity|exact IH]. }
    destruct (syslog_delivery _ ok b _ i out err F' X) as (b1 & b2 & -> & H1 & H2 & H3 & H4). exists out, err, b1, b2.
    split; [reflexivity|]. split; [reflexivity|]. split; [|split; [exact H2|split; [exact H3|]]].
    + clear - H1. induction H1 as [|r s b out (d & Ed & T) H1 IH]; constructor; [|exact IH].
      destruct (enc r) as [d'|]; [|discriminate]. cbn in Ed. injection Ed as <-. rewrite es_data_text in T. eauto.
    + intros He. destruct (H4 He) as (r & d' & b3 & -> & Ed & H5). destruct (enc r) as [d0|] eqn:E0; [|discriminate]. cbn in Ed. injection Ed as <-.
      rewrite es_data_text in H5. exists r, d0, b3. auto.
  - left. split; [apply encode_all_none, E|reflexivity].
Qed.
Lemma encode_skip_some {R} (enc : R -> option edata) rs :
  encode_skip enc rs = Some (flat_map (fun r => match enc r with Some d => [d] | None => [] end) rs).
Proof. induction rs as [|r rs IH]; [reflexivity|]. cbn [encode_skip flat_map]. rewrite IH. destruct (enc r); reflexivity. Qed.
Lemma kafka_all ok ds : (forall k, ok k = true) -> forall i, kafka_export ok i ds = flat_map (fun d => match d with DBytes s => [s] | _ => [] end) ds.
Proof. intros K. induction ds as [|[s|m p e] ds IH]; intros i; cbn [kafka_export flat_map]; rewrite ?K, ?IH; reflexivity. Qed.
Lemma skip_delivered {R} (enc : R -> option edata) ok : (forall k, ok k = true) -> forall bs i,
  delivered (process_all (encode_skip enc) (fun i ds => (kafka_export ok i ds, false)) i bs) =
  flat_map (fun r => match enc r with Some (DBytes s) => [s] | _ => [] end) (concat bs).
Proof.
  intros K. induction bs as [|b bs IH]; intros i; [reflexivity|]. cbn [process_all delivered flat_map concat]. fold (delivered (process_all (encode_skip enc) (fun i ds => (kafka_export ok i ds, false)) (i + length b) bs)).
  rewrite IH, flat_map_app. f_equal. unfold process. rewrite encode_skip_some.
  assert (Q : flat_map (fun r => match enc r with Some (DBytes s) => [s] | _ => [] end) b =
    flat_map (fun d => match d with DBytes s => [s] | _ => [] end) (flat_map (fun r => match enc r with Some d => [d] | None => [] end) b)).
  { clear. induction b as [|r b IH]; [reflexivity|]. cbn [flat_map]. rewrite flat_map_app, <- IH. destruct (enc r) as [[|]|]; reflexivity. }
  rewrite Q. set (l := flat_map (fun r => match enc r with Some d => [d] | None => [] end) b). clearbody l. destruct l as [|d ds]; [reflexivity|]. apply kafka_all, K.
Qed.
(** ** A tick flushes only when idle *)
Definition done_of {R} (e : xevent R) (d : Z) : Prop := match e with XRec _ _ b | XTick _ b => d = b | XClose => False end.
Lemma flush_last {R} buffer (s : xstate R) e d : x_batches (x_step buffer s e) <> x_batches s -> done_of e d -> x_last (x_step buffer s e) = d.
Proof.
  unfold x_step. destruct (x_open s); [|congruence]. destruct e as [r a b|a b|]; cbn [done_of]; [| |]; intros H D; try contradiction; subst.
  - destruct (Z.leb _ _); [reflexivity|]. cbn in H. congruence.
  - destruct (_ && _); [reflexivity|congruence].
Qed.
Lemma last_ge {R} buffer (es : list (xevent R)) : forall t s, x_last s <= t -> ordered t es -> x_last s <= x_last (fold_left (x_step buffer) es s).
Proof.
  induction es as [|e es IH]; intros t s L O; cbn [fold_left]; [lia|]. destruct e as [r a b|a b|]; cbn [ordered] in O.
  - destruct O as (O1 & O2 & O3). assert (Q : x_last s <= x_last (x_step buffer s (XRec r a b)) <= b).
    { unfold x_step. destruct (x_open s); [|lia]. cbn [x_counter]. destruct (Z.leb _ _); cbn; lia. }
    specialize (IH b (x_step buffer s (XRec r a b)) (proj2 Q) O3). lia.
  - destruct O as (O1 & O2 & O3). assert (Q : x_last s <= x_last (x_step buffer s (XTick a b)) <= b).
    { unfold x_step. destruct (x_open s); [|lia]. destruct (_ && _); cbn; lia. }
    specialize (IH b (x_step buffer s (XTick a b)) (proj2 Q) O3). lia.
  - assert (Q : x_last (x_step buffer s XClose) = x_last s) by (unfold x_step; destruct (x_open s); reflexivity).
    rewrite <- Q. apply (IH t); [lia|exact O].
Qed.
Lemma tick_idle {R} buffer (s : xstate R) a b : x_batches (x_step buffer s (XTick a b)) <> x_batches s -> x_last s + maxIdle < a.
Proof.
  unfold x_step. destruct (x_open s); [|congruence]. destruct (Z.ltb _ _) eqn:E; [|cbn; congruence]. intros _. apply Z.ltb_lt in E. lia.
Qed.
Lemma not_early {R} buffer start (es1 es2 : list (xevent R)) e d tick tdone :
  ordered start (es1 ++ [e] ++ es2 ++ [XTick tick tdone]) -> done_of e d ->
  x_batches (x_run buffer start (es1 ++ [e])) <> x_batches (x_run buffer start es1) ->
  x_batches (x_run buffer start (es1 ++ [e] ++ es2 ++ [XTick tick tdone])) <> x_batches (x_run buffer start (es1 ++ [e] ++ es2)) ->
  d + maxIdle < tick.
Proof.
  intros O D F1 F2. unfold x_run in *. repeat rewrite fold_left_app in F1. repeat rewrite fold_left_app in F2. cbn [fold_left] in F1, F2. set (s1 := fold_left (x_step buffer) es1 (x_start start)) in *.
  pose proof (flush_last _ _ _ _ F1 D) as L. apply tick_idle in F2.
  rewrite app_assoc in O. apply ordered_app in O as [O1 O2]. apply ordered_app in O2 as [O2 _].
  assert (Le : x_last (x_step buffer s1 e) <= clock start (es1 ++ [e])).
  { pose proof (last_le buffer (es1 ++ [e]) start (x_start start) (Z.le_refl start) O1) as Q. rewrite fold_left_app in Q. exact Q. }
  pose proof (last_ge buffer es2 _ _ Le O2). lia.
Qed.
Lemma not_early_start {R} buffer start (es : list (xevent R)) tick tdone :
  ordered start (es ++ [XTick tick tdone]) ->
  x_batches (x_run buffer start (es ++ [XTick tick tdone])) <> x_batches (x_run buffer start es) -> start + maxIdle < tick.
Proof.
  intros O F. unfold x_run in *. rewrite fold_left_app in F. cbn [fold_left] in F. apply tick_idle in F. apply ordered_app in O as [O _].
  pose proof (last_ge buffer es start (x_start start) (Z.le_refl _) O). cbn in H. lia.
Qed.

(** * JsonFacts6: what is not JSON.  A small automaton reads the text: it never fails on JSON, and it fails on a value
    left out after a colon and on two values side by side. *)
From Coq Require Import Lia ZifyBool.
From Verif Require Import GoBase GoFacts Predicates FlatRecord FieldTables JsonModel SpecJson JsonFacts JsonFacts2 JsonFacts3 JsonFacts4.
Open Scope string_scope.

Inductive ast := AStart | AColon | AVal | ALit | AStr | AEsc | ABad.
Definition fresh (st : ast) : bool := match st with AStart | AColon => true | _ => false end.
Definition is (c : ascii) (l : list ascii) : bool := existsb (Ascii.eqb c) l.
Definition astep (st : ast) (c : ascii) : ast :=
  match st with
  | ABad => ABad
  | AStr => if is c [""""%char] then AVal else if is c ["\"%char] then AEsc else AStr
  | AEsc => AStr
  | _ =>
      if is c [""""%char] then if fresh st then AStr else ABad
      else if is c ["["%char; "{"%char] then if fresh st then AStart else ABad
      else if is c ["]"%char; "}"%char] then match st with AColon => ABad | _ => AVal end
      else if is c [","%char] then match st with AColon => ABad | _ => AStart end
      else if is c [":"%char] then AColon
      else match st with AVal => ABad | _ => ALit end
  end.
Fixpoint arun (st : ast) (s : string) : ast := match s with EmptyString => st | String c s' => arun (astep st c) s' end.
Lemma arun_app s : forall st s', arun st (s ++ s') = arun (arun st s) s'.
Proof. induction s; intros; cbn; auto. Qed.
Lemma arun_bad s : arun ABad s = ABad.
Proof. induction s; cbn; auto. Qed.
Definition done (st : ast) : Prop := st = AVal \/ st = ALit.

Lemma astep_safe c : safe c -> astep AStr c = AStr.
Proof. intros [A B]. cbn [astep]. unfold is. cbn [existsb]. rewrite (proj2 (Ascii.eqb_neq _ _) A), (proj2 (Ascii.eqb_neq _ _) B). reflexivity. Qed.
Lemma utf8_run cp s : scalar cp -> cp <> 34%Z -> cp <> 92%Z -> arun AStr (utf8 cp ++ s) = arun AStr s.
Proof.
  intros S A B. unfold scalar in S. unfold utf8.
  destruct (Z.ltb_spec cp 128); [|destruct (Z.ltb_spec cp 2048); [|destruct (Z.ltb_spec cp 65536)]]; cbn [append arun];
    repeat (rewrite astep_safe; [|apply safe_byte; rewrite byte_chr; zdiv]); reflexivity.
Qed.
Lemma hex_safe c h : hexval c = Some h -> safe c.
Proof. intros E. split; intros ->; discriminate E. Qed.
Lemma jstr_run b t : jstr b t -> arun AStr b = AStr.
Proof.
  induction 1 as [|cp b t S L N1 N2 H IH|c cp b t I H IH|c1 c2 c3 c4 h1 h2 h3 h4 b t H1 H2 H3 H4 S H IH].
  - reflexivity.
  - rewrite utf8_run; auto.
  - cbn [arun]. cbn [astep is existsb Ascii.eqb Bool.eqb orb]. exact IH.
  - cbn [append arun]. change (astep (astep AStr "\") "u") with AStr. rewrite !astep_safe by (eapply hex_safe; eassumption). exact IH.
Qed.
Lemma num_run a st : all_num a = true -> fresh st = true \/ st = ALit -> a <> "" -> arun st a = ALit.
Proof.
  assert (D : forall c, numchar c = true -> astep AStart c = ALit /\ astep AColon c = ALit /\ astep ALit c = ALit).
  { intros [[|] [|] [|] [|] [|] [|] [|] [|]] E; vm_compute in E; try discriminate E; repeat split; reflexivity. }
  assert (G : forall a, all_num a = true -> arun ALit a = ALit).
  { induction a0 as [|c a0 IH]; cbn [all_num arun]; auto. intros E. apply andb_prop in E as [E1 E2]. destruct (D c E1) as (_ & _ & ->). auto. }
  intros H S N. destruct a as [|c a]; [congruence|]. cbn [all_num arun] in *. apply andb_prop in H as [E1 E2]. destruct (D c E1) as (D1 & D2 & D3).
  assert (astep st c = ALit) as ->; [|apply G, E2]. destruct S as [S| ->]; [|exact D3]. destruct st; try discriminate S; assumption.
Qed.
Lemma done_comma st : done st -> astep st "," = AStart.
Proof. intros [-> | ->]; reflexivity. Qed.
Lemma done_close st : done st -> astep st "}" = AVal /\ astep st "]" = AVal.
Proof. intros [-> | ->]; split; reflexivity. Qed.
Lemma json_run :
  (forall s v, jtext s v -> forall st, fresh st = true -> done (arun st s)) /\
  (forall s l, elements s l -> done (arun AStart s)) /\
  (forall s l, members s l -> done (arun AStart s)).
Proof.
  apply jtext_all.
  - intros [] F; try discriminate F; right; reflexivity.
  - intros [] F; try discriminate F; right; reflexivity.
  - intros [] F; try discriminate F; right; reflexivity.
  - intros z st F. right. destruct (num_shape z) as (c & s & E & N & A & _). rewrite E. apply num_run; [cbn; rewrite N, A; reflexivity|auto|discriminate].
  - intros b t H st F. cbn [append arun]. replace (astep st """") with AStr by (destruct st; try discriminate F; reflexivity). rewrite arun_app, (jstr_run b t H). left. reflexivity.
  - intros st F. left. destruct st; try discriminate F; reflexivity.
  - intros s l H IH st F. left. cbn [append arun]. replace (astep st "[") with AStart by (destruct st; try discriminate F; reflexivity). rewrite arun_app. cbn [arun]. apply done_close, IH.
  - intros st F. left. destruct st; try discriminate F; reflexivity.
  - intros s l H IH st F. left. cbn [append arun]. replace (astep st "{") with AStart by (destruct st; try discriminate F; reflexivity). rewrite arun_app. cbn [arun]. apply done_close, IH.
  - intros s v H IH. apply IH. reflexivity.
  - intros s v s' l H IH H' IH'. rewrite arun_app. cbn [append arun]. rewrite done_comma; [exact IH'|]. apply IH. reflexivity.
  - intros b k s v J H IH. cbn [append arun]. change (astep AStart """") with AStr. rewrite arun_app, (jstr_run b k J). cbn [arun append]. apply IH. reflexivity.
  - intros b k s v s' l J H IH H' IH'. cbn [append arun]. change (astep AStart """") with AStr. rewrite arun_app, (jstr_run b k J). cbn [arun append].
    change (astep (astep AStr """") ":") with AColon. rewrite arun_app. cbn [arun]. rewrite done_comma; [exact IH'|]. apply IH. reflexivity.
Qed.
Lemma json_not_bad s v : jtext s v -> arun AStart s <> ABad.
Proof. intros H. destruct (proj1 json_run s v H AStart eq_refl) as [-> | ->]; discriminate. Qed.

(** ** Values *)
Fixpoint clean_n (n : nat) (s : string) : string :=
  match n, s with
  | S n, String c s' =>
      let (r, w) := decode_rune s in
      if (Z.eqb r 65533 && Nat.eqb w 1)%bool then utf8 65533 ++ clean_n n s' else stake w s ++ clean_n n (sdrop w s)
  | _, _ => ""
  end.
Definition cleaned (s : string) : string := clean_n (slen s) s.
Lemma take_app (a b : string) : stake (slen a) (a ++ b) = a.
Proof. induction a; cbn; [destruct b; reflexivity|]. unfold slen in *. rewrite IHa. reflexivity. Qed.
Lemma drop_app (a b : string) : sdrop (slen a) (a ++ b) = b.
Proof. induction a; cbn; [reflexivity|]. exact IHa. Qed.
Lemma cleaned_ok : cleans cleaned.
Proof.
  assert (G : forall n s, slen s <= n -> clean s (clean_n n s)).
  { induction n as [|n IH]; intros s L; destruct s as [|c s]; try (cbn; constructor); [cbn in L; lia|].
    cbn [clean_n]. destruct (decode_rune (String c s)) as [r w] eqn:D. destruct (Z.eqb r 65533 && Nat.eqb w 1)%bool eqn:Q.
    - apply andb_prop in Q as [Q1 Q2]. apply Z.eqb_eq in Q1. apply Nat.eqb_eq in Q2. subst. constructor; [apply decode_bad, D|]. apply IH. cbn in L. unfold slen. lia.
    - destruct (decode_sound c s _ _ D) as (Sc & rest & E).
      { intros E. injection E as -> ->. discriminate Q. }
      rewrite E in *. pose proof (decode_utf8 r rest Sc) as D2. rewrite D2 in D. injection D as <-. rewrite take_app, drop_app. constructor; [exact Sc|]. apply IH.
      rewrite slen_app in L. destruct (utf8_cons r) as (x & u & U). rewrite U in L. unfold slen in *. cbn [String.length] in L. lia. }
  intros s. apply G. lia.
Qed.
Lemma some_txt s : exists t, jtext (w_string s) (JStr t).
Proof. destruct (clean_total s) as (t & C). exists t. apply jt_str, escape_ok, C. Qed.
Lemma w_string_run s st : fresh st = true -> done (arun st (w_string s)).
Proof. intros F. destruct (some_txt s) as (t & H). exact (proj1 json_run _ _ H st F). Qed.
Lemma jt_run s v st : jtext s v -> fresh st = true -> done (arun st s).
Proof. intros H F. exact (proj1 json_run _ _ H st F). Qed.
Lemma field_run n v : plain n = true -> arun AStart (w_field n v) = arun AColon v.
Proof.
  intros P. unfold w_field, dq. cbn [append arun]. change (astep AStart """") with AStr. rewrite arun_app, (jstr_run n n (jstr_plain n P)). reflexivity.
Qed.
Lemma list_run {A} (f : A -> string) l : (forall a, In a l -> forall st, fresh st = true -> done (arun st (f a))) -> arun AColon ("[" ++ comma_list f l ++ "]") = AVal.
Proof.
  intros H. cbn [append arun]. change (astep AColon "[") with AStart. rewrite arun_app. destruct l as [|a l]; [reflexivity|]. cbn [arun].
  apply done_close. revert a H. induction l as [|b l IH]; intros a H; cbn [comma_list]; [apply H; [left; reflexivity|reflexivity]|].
  rewrite arun_app. cbn [append arun]. rewrite done_comma; [|apply H; [left; reflexivity|reflexivity]]. apply (IH b). intros x Hx. apply H. right. exact Hx.
Qed.
(** The states a value may leave: a value has ended, there was none, or the text is no longer JSON. *)
Definition outs (st : ast) : Prop := st = AVal \/ st = ALit \/ st = AColon \/ st = ABad.
Lemma done_outs st : done st -> outs st.
Proof. intros [-> | ->]; unfold outs; auto. Qed.
Lemma ips_run l : forall st, st = AStart \/ st = AVal \/ st = ABad -> (st = AStart -> 2 <= length l -> arun st (map_ips_loop l) = ABad) /\ (st = AVal -> 1 <= length l -> arun st (map_ips_loop l) = ABad) /\
  (arun st (map_ips_loop l) = AStart /\ l = [] \/ arun st (map_ips_loop l) = AVal \/ arun st (map_ips_loop l) = ABad).
Proof.
  induction l as [|ip l IH]; intros st H; cbn [map_ips_loop length arun].
  - split; [intros; lia|]. split; [intros; lia|]. destruct H as [-> |[-> | ->]]; auto.
  - assert (V : forall r, arun AStart (dq ++ map_ip_str ip ++ dq ++ r) = arun AVal r).
    { intros r. unfold dq. cbn [append arun]. change (astep AStart """") with AStr. rewrite arun_app, map_ip_ok, (jstr_run _ _ (jstr_plain _ (quad_plain ip))). reflexivity. }
    assert (B : forall r, arun AVal (dq ++ map_ip_str ip ++ dq ++ r) = ABad).
    { intros r. unfold dq. cbn [append arun]. change (astep AVal """") with ABad. apply arun_bad. }
    destruct H as [-> |[-> | ->]].
    + rewrite V. destruct (IH AVal ltac:(auto)) as (_ & I2 & I3). split; [intros _ L; apply I2; [reflexivity|lia]|]. split; [discriminate|].
      destruct I3 as [[I3 ->]|I3]; [|auto]. discriminate I3.
    + rewrite B. split; [discriminate|]. split; auto.
    + rewrite arun_bad. split; [discriminate|]. split; [discriminate|]. auto.
Qed.
Lemma ip_array_run l : outs (arun AColon (map_ip_array l)) /\ arun AColon (map_ip_array l) <> AColon /\ (2 <= length l -> arun AColon (map_ip_array l) = ABad).
Proof.
  unfold map_ip_array. cbn [append arun]. change (astep AColon "[") with AStart. rewrite arun_app. destruct (ips_run l AStart ltac:(auto)) as (H1 & _ & H3).
  split; [|split].
  - destruct H3 as [[-> _]|[-> | ->]]; unfold outs; cbn; auto.
  - destruct H3 as [[-> _]|[-> | ->]]; cbn; discriminate.
  - intros L. rewrite H1 by auto. reflexivity.
Qed.
(** A sequence of members, one of which may be wrong. *)
Lemma after st : outs st -> (astep st "," = AStart \/ astep st "," = ABad) /\ (astep st "}" = AVal \/ astep st "}" = ABad) /\ (st = AColon \/ st = ABad -> astep st "," = ABad /\ astep st "}" = ABad).
Proof. intros [-> |[-> |[-> | ->]]]; cbn; intuition discriminate. Qed.
Lemma svc_run s st : st = AStart \/ st = ABad -> (arun st (map_svc s) = AVal \/ arun st (map_svc s) = ABad) /\ (2 <= length (s_clusterip s) -> arun st (map_svc s) = ABad).
Proof.
  intros [-> | ->]; [|rewrite arun_bad; auto]. unfold map_svc, map_port_list. rewrite arun_app. change (arun AStart "{") with AStart.
  rewrite !arun_app. rewrite (field_run "id") by reflexivity. cbn [arun]. rewrite (done_comma (arun AColon (w_string (s_id s)))) by (apply w_string_run; reflexivity).
  rewrite (field_run "name") by reflexivity. rewrite (done_comma (arun AColon (w_string (s_name s)))) by (apply w_string_run; reflexivity).
  rewrite (field_run "namespace") by reflexivity. rewrite (done_comma (arun AColon (w_string (s_namespace s)))) by (apply w_string_run; reflexivity).
  rewrite (field_run "clusterIP") by reflexivity. destruct (ip_array_run (s_clusterip s)) as (O & Nc & B). destruct (after _ O) as ([E|E] & _ & F).
  - rewrite E. rewrite field_run by reflexivity.
    rewrite list_run.
    2:{ intros p _ st F'. destruct (clean_total (p_proto p)) as (t & C). 
        apply (jt_run _ (JObj [("port", JNum (p_port p)); ("targetport", JNum (p_target p)); ("nodeport", JNum (p_node p)); ("proto", JStr t)])); [|exact F'].
        pose proof (obj_ok _ _ (cons_member "port" _ _ _ _ eq_refl (jt_num (p_port p)) (cons_member "targetport" _ _ _ _ eq_refl (jt_num (p_target p))
          (cons_member "nodeport" _ _ _ _ eq_refl (jt_num (p_node p)) (field_member "proto" _ _ eq_refl (jt_str _ _ (escape_ok _ _ C))))))) as H.
        rewrite !sapp_assoc in H. exact H. }
    split; [left; reflexivity|]. intros L. exfalso. rewrite (B L) in E. discriminate E.
  - rewrite E. rewrite arun_bad. split; auto.
Qed.
Lemma svcs_run l : forall st, st = AStart \/ st = AVal \/ st = ABad ->
  (arun st (map_svcs_loop l) = st /\ l = [] \/ arun st (map_svcs_loop l) = AVal \/ arun st (map_svcs_loop l) = ABad) /\
  (st = AVal -> 1 <= length l -> arun st (map_svcs_loop l) = ABad) /\
  (st = AStart -> 2 <= length l \/ (exists s, In s l /\ 2 <= length (s_clusterip s)) -> arun st (map_svcs_loop l) = ABad).
Proof.
  induction l as [|s l IH]; intros st H; cbn [map_svcs_loop length].
  - split; [left; auto|]. split; [intros; lia|]. intros _ [L|(s & [] & _)]. lia.
  - rewrite arun_app. assert (B : arun AVal (map_svc s) = ABad).
    { unfold map_svc. cbn [append arun]. change (astep AVal "{") with ABad. apply arun_bad. }
    destruct H as [-> |[-> | ->]].
    + destruct (svc_run s AStart ltac:(auto)) as ([E|E] & C).
      * rewrite E. destruct (IH AVal ltac:(auto)) as (I1 & I2 & _). split; [destruct I1 as [[I1 ->]|I1]; auto|]. split; [discriminate|].
        intros _ [L|(x & [<- |Hx] & L)].
        -- apply I2; [reflexivity|lia].
        -- exfalso. rewrite (C L) in E. discriminate E.
        -- apply I2; [reflexivity|]. destruct l; [contradiction|cbn; lia].
      * rewrite E, arun_bad. auto.
    + rewrite B, arun_bad. auto.
    + rewrite !arun_bad. auto.
Qed.
Lemma svc_array_run l : outs (arun AColon (map_svc_array l)) /\ arun AColon (map_svc_array l) <> AColon /\
  (2 <= length l \/ (exists s, In s l /\ 2 <= length (s_clusterip s)) -> arun AColon (map_svc_array l) = ABad).
Proof.
  unfold map_svc_array. cbn [append arun]. change (astep AColon "[") with AStart. rewrite arun_app. destruct (svcs_run l AStart ltac:(auto)) as (H1 & _ & H3).
  split; [|split].
  - destruct H1 as [[-> _]|[-> | ->]]; unfold outs; cbn; auto.
  - destruct H1 as [[-> _]|[-> | ->]]; cbn; discriminate.
  - intros L. rewrite H3 by auto. reflexivity.
Qed.
Definition names_plain (X : sfgo_fns) : Prop := (forall z t, Forall plain_name (x_opflags X z t)) /\ (forall z, Forall plain_name (x_openflags X z)).
Lemma names_run l : Forall plain_name l -> arun AColon (map_str_array l) = AVal.
Proof. intros F. apply list_run. intros s Hs st Fs. apply (jt_run _ (JStr s)); [|exact Fs]. rewrite Forall_forall in F. apply jt_str, F, Hs. Qed.
Lemma cached_run pt a : outs (arun AColon (cached_json pt a)) /\ (pt <> None -> done (arun AColon (cached_json pt a))).
Proof.
  destruct pt as [ps|]; [|split; [right; right; left; reflexivity|congruence]].
  assert (D : done (arun AColon (cached_json (Some ps) a))); [|split; [apply done_outs, D|intros _; exact D]].
  cbn [cached_json]. destruct a; try (left; apply list_run; intros p _ st F; first [apply w_string_run; exact F | apply (jt_run _ (JNum (hpid (p_oid p)))); [apply jt_num|exact F] | exact (jt_run _ _ st (map_cmdline_ok cleaned cleaned_ok p) F)]; fail).
  all: destruct ps as [|q [|p ps]].
  all: first [apply w_string_run; reflexivity | eapply jt_run; [apply jt_num|reflexivity] | eapply jt_run; [apply bool_ok|reflexivity] | eapply jt_run; [apply (map_cmdline_ok cleaned cleaned_ok)|reflexivity]].
Qed.
Lemma value_run X two e fr s : names_plain X -> map_json X two e fr = Ok s -> outs (arun AColon s).
Proof.
  intros (P1 & P2). unfold map_json.
  set (file_open := if Z.eqb (get_int (fr_slots fr) SF_REC_TYPE SYSFLOW_SRC) NET_FLOW then _ else _).
  set (generic := match run_fmap X (fe_map e) fr with VStr _ => _ | _ => _ end).
  assert (Ts : forall t, outs (arun AColon (tq t))) by (intros; apply done_outs, w_string_run; reflexivity).
  assert (Ti : forall z, outs (arun AColon (w_int z))) by (intros; apply done_outs; eapply jt_run; [apply jt_num|reflexivity]).
  assert (Tb : forall z, outs (arun AColon (w_bool z))) by (intros; apply done_outs; eapply jt_run; [apply bool_ok|reflexivity]).
  assert (Tf : file_open = Ok s -> outs (arun AColon s)).
  { unfold file_open. destruct (Z.eqb _ _); intros [= <-].
    - apply done_outs. eapply jt_run; [apply ip_pair_ok|reflexivity].
    - left. apply names_run, P2. }
  assert (Tg : generic = Ok s -> outs (arun AColon s)).
  { unfold generic. destruct (run_fmap X (fe_map e) fr) as [t| | | | |]; try discriminate. intros [= <-]. left. apply (list_run w_string [t]). intros a _ st F. apply w_string_run, F. }
  clearbody file_open generic.
  destruct (fe_index e) as [a|a|a| |] eqn:Ei; try (intros [= <-]; apply cached_run); destruct (fe_type e);
    try discriminate; try exact Tg; try (intros [= <-]; first [apply Ts|apply Ti|apply Tb]; fail);
    try (destruct (run_fmap X (fe_map e) fr); try discriminate; intros [= <-]; first [apply Ts|apply Ti|apply Tb]; fail).
  all: try (destruct (get_svc_array _ _ _) as [l|]; [|discriminate]; intros [= <-]; apply svc_array_run).
  all: destruct a; try exact Tg; try exact Tf.
  all: try (destruct two; [exact Tf|exact Tg]).
  all: try (intros [= <-]; left; apply names_run, P1).
  all: try (destruct (get_int_array _ _ _) as [l|]; [|discriminate]; intros [= <-]; apply ip_array_run).
  all: intros [= <-]; left.
  all: pose proof (list_run w_int [get_int (fr_slots fr) FL_NETW_SPORT_INT SYSFLOW_SRC; get_int (fr_slots fr) FL_NETW_DPORT_INT SYSFLOW_SRC] (fun z _ st F => jt_run _ _ st (jt_num z) F)) as Q; cbn [comma_list] in Q; rewrite !sapp_assoc in Q; exact Q.
Qed.

(** ** The record *)
Lemma ok_inj {A} (a b : A) : Ok a = Ok b -> b = a.
Proof. congruence. Qed.
Section Record.
Variables (X : sfgo_fns) (two : bool) (fr : flatrec) (i : jinfo).
Hypothesis NP : names_plain X.
Definition rst (st : jstate) : ast := arun AStart (js_out st).
Definition open_section (st : jstate) : Prop := js_state st <> None /\ js_existed st = true.
(** Where the automaton stands between two iterations. *)
Definition inv (st : jstate) : Prop := (open_section st /\ outs (rst st)) \/ (~ open_section st /\ (rst st = AStart \/ rst st = ABad)).
Definition agrees (st : jstate) : Prop := forall s, js_state st = Some s -> section_case i s = Some (js_existed st).
Definition named (f : string * fieldentry) : bool := (plain (attr_name (part 1 (fst f))) && plain (attr_name (part 2 (fst f))) )%bool.
Lemma all_named : forallb named field_values = true.
Proof. vm_compute. reflexivity. Qed.
Lemma attr_run n v st : plain n = true -> st = AStart \/ st = ABad -> arun st (dq ++ n ++ dq ++ ":" ++ v) = match st with ABad => ABad | _ => arun AColon v end.
Proof. intros P [-> | ->]; [apply (field_run n v P)|apply arun_bad]. Qed.
(** A bad value: nothing at all, or not JSON. *)
Definition bad_value (s : string) : Prop := arun AColon s = AColon \/ arun AColon s = ABad.
(** Once a bad value has been written. *)
Definition doomed (st : jstate) : Prop := rst st = ABad \/ (open_section st /\ rst st = AColon).
Lemma sect_plain sec : plain (sect_name sec) = true.
Proof. destruct sec; reflexivity. Qed.
Lemma begin_run sec s st : st = AStart \/ st = ABad -> arun st (section_begin sec ++ s) = arun st s \/ arun st (section_begin sec ++ s) = ABad /\ st = ABad.
Proof.
  intros [-> | ->]; [left|right; split; [apply arun_bad|reflexivity]]. unfold section_begin, dq. cbn [append arun]. change (astep AStart """") with AStr.
  rewrite !sapp_assoc, arun_app, (jstr_run _ _ (jstr_plain _ (sect_plain sec))). reflexivity.
Qed.
Lemma comma_run st : outs st -> arun st "," = AStart \/ arun st "," = ABad.
Proof. intros O. apply after, O. Qed.
Lemma step2_inv st f st' : named f = true -> num_sects (fst f) = 2 -> js_state st = None -> inv st -> field_step X two i fr st f = Ok st' ->
  js_state st' = None /\ inv st'.
Proof.
  intros Nm E2 Sn I. unfold named in Nm. apply andb_prop in Nm as [N1 N2]. unfold field_step. rewrite E2. cbn [Nat.eqb].
  unfold write_attribute. destruct (map_json X two (snd f) fr) as [v| | |] eqn:M; cbn [rbind]; try discriminate. intros E; apply ok_inj in E; subst st'. cbn [js_state].
  split; [exact Sn|]. right. unfold open_section. cbn [js_state js_existed]. split; [intros [A _]; congruence|].
  assert (R : rst st = AStart \/ rst st = ABad) by (destruct I as [[[A _] _]|[_ R]]; [congruence|exact R]).
  unfold rst in *. cbn [js_out]. rewrite arun_app. set (r := arun AStart (js_out st)) in *. rewrite (arun_app (dq ++ attr_name (part 1 (fst f)) ++ dq ++ ":" ++ v)).
  rewrite (attr_run _ _ r N1 R).
  destruct R as [-> | ->]; [apply comma_run, (value_run X two (snd f) fr v NP M)|right; reflexivity].
Qed.
Lemma in_state_eq st sec : in_state st sec = true -> st = Some sec.
Proof. unfold in_state. destruct st as [s|]; [|discriminate]. intros E. f_equal. apply internal_section_dec_bl, E. Qed.
Lemma step3_inv st f st' : named f = true -> num_sects (fst f) = 3 -> inv st -> agrees st -> field_step X two i fr st f = Ok st' ->
  inv st' /\ agrees st' /\ (doomed st -> doomed st') /\
  (section_case i (fe_section (snd f)) = Some true -> exists s, map_json X two (snd f) fr = Ok s /\ (bad_value s -> doomed st')).
Proof.
  intros Nm E3 I Ag. unfold named in Nm. apply andb_prop in Nm as [N1 N2]. unfold field_step. rewrite E3. cbn [Nat.eqb].
  destruct (section_case i (fe_section (snd f))) as [present|] eqn:Sc; [|intros [= <-]; split; [exact I|]; split; [exact Ag|]; split; [auto|discriminate]].
  destruct (in_state (js_state st) (fe_section (snd f))) eqn:Is.
  - apply in_state_eq in Is. assert (Ns : js_state st <> None) by congruence.
    pose proof (Ag _ Is) as Ex. rewrite Sc in Ex. injection Ex as Ex.
    destruct present; [|intros [= <-]; split; [exact I|]; split; [exact Ag|]; split; [auto|discriminate]].
    unfold write_attribute. destruct (map_json X two (snd f) fr) as [v| | |] eqn:M; cbn [rbind]; try discriminate. intros E; apply ok_inj in E.
    pose proof (value_run X two (snd f) fr v NP M) as O. symmetry in Ex.
    assert (Op0 : open_section st) by (split; auto).
    assert (Out : outs (rst st)) by (destruct I as [[_ Out]|[NO _]]; [exact Out|contradiction]).
    pose proof (comma_run _ Out) as R. set (r := arun (rst st) ",") in *.
    assert (Dr : doomed st -> r = ABad) by (intros [D|[_ D]]; unfold r; rewrite D; reflexivity).
    rename st' into st0. set (st' := mkJ (js_state st) (js_existed st) _) in E. subst st0.
    assert (Rs : rst st' = match r with ABad => ABad | _ => arun AColon v end).
    { unfold rst, st'. cbn [js_out]. rewrite arun_app. fold (rst st). rewrite (arun_app ","). fold r. apply attr_run; [exact N2|exact R]. }
    assert (Op : open_section st') by exact Op0.
    split; [left; split; [exact Op|]; rewrite Rs; destruct R as [-> | ->]; [exact O|unfold outs; auto]|]. split; [exact Ag|]. split.
    + intros D. left. rewrite Rs, (Dr D). reflexivity.
    + intros _. exists v. split; [reflexivity|]. intros B. unfold doomed. rewrite Rs. destruct R as [-> | ->]; [|auto]. destruct B as [B|B]; rewrite B; auto.
  - fold (closing st). 
    assert (R : (arun (rst st) (closing st) = AStart \/ arun (rst st) (closing st) = ABad) /\ (doomed st -> arun (rst st) (closing st) = ABad)).
    { unfold closing. destruct I as [[[Op1 Op2] Out]|[NO R]].
      - destruct (js_state st); [|congruence]. rewrite Op2. cbn [arun]. destruct (after _ Out) as (_ & [A|A] & B).
        + rewrite A. split; [left; reflexivity|]. intros [D|[_ D]]; rewrite D in A; discriminate A.
        + rewrite A. split; [right; reflexivity|]. reflexivity.
      - assert (C : (match js_state st with Some _ => if js_existed st then "}," else "" | None => "" end) = "").
        { destruct (js_state st) eqn:E1; [|reflexivity]. destruct (js_existed st) eqn:E2; [|reflexivity]. exfalso. apply NO. split; congruence. }
        rewrite C. cbn [arun]. split; [exact R|]. intros [D|[D _]]; [exact D|contradiction]. }
    destruct R as [R Dr]. set (r := arun (rst st) (closing st)) in *.
    destruct present.
    + unfold write_attribute. destruct (map_json X two (snd f) fr) as [v| | |] eqn:M; cbn [rbind]; try discriminate. intros E; apply ok_inj in E.
      pose proof (value_run X two (snd f) fr v NP M) as O.
      rename st' into st0. set (st' := mkJ (Some (fe_section (snd f))) true _) in E. subst st0.
      assert (Rs : rst st' = match r with ABad => ABad | _ => arun AColon v end).
      { unfold rst, st'. cbn [js_out]. rewrite arun_app. fold (rst st). rewrite arun_app. fold r. 
        destruct (begin_run (fe_section (snd f)) (dq ++ attr_name (part 2 (fst f)) ++ dq ++ ":" ++ v) r R) as [B|[B B']]; rewrite B; [apply attr_run; [exact N2|exact R]|rewrite B'; reflexivity]. }
      assert (Op : open_section st') by (split; [discriminate|reflexivity]).
      split; [left; split; [exact Op|]; rewrite Rs; destruct R as [-> | ->]; [exact O|unfold outs; auto]|].
      split; [intros s [= <-]; exact Sc|]. split.
      * intros D. left. rewrite Rs, (Dr D). reflexivity.
      * intros _. exists v. split; [reflexivity|]. intros B. unfold doomed. rewrite Rs. destruct R as [-> | ->]; [|auto]. destruct B as [B|B]; rewrite B; auto.
    + intros E; apply ok_inj in E. rename st' into st0. set (st' := mkJ (Some (fe_section (snd f))) false _) in E. subst st0.
      assert (Rs : rst st' = r) by (unfold rst, st'; cbn [js_out]; rewrite arun_app; reflexivity).
      split; [right; split; [intros [_ A]; discriminate A|rewrite Rs; exact R]|]. split; [intros s [= <-]; exact Sc|]. split; [|discriminate].
      intros D. left. rewrite Rs. exact (Dr D).
Qed.
Lemma loop2_inv l : forallb named l = true -> Forall (fun f => num_sects (fst f) = 2) l -> forall st st', js_state st = None -> inv st ->
  fields_loop X two i fr st l = Ok st' -> js_state st' = None /\ inv st'.
Proof.
  induction l as [|f l IH]; cbn [forallb fields_loop]; intros Nm F st st' Sn I; [intros [= <-]; auto|].
  apply andb_prop in Nm as [Nm Nm']. inversion F as [|x y F1 F2]; subst. destruct (field_step X two i fr st f) as [st1| | |] eqn:E; cbn [rbind]; try discriminate.
  destruct (step2_inv st f st1 Nm F1 Sn I E) as [A B]. apply IH; auto.
Qed.
Lemma loop3_inv l : forallb named l = true -> Forall (fun f => num_sects (fst f) = 3) l -> forall st st', inv st -> agrees st ->
  fields_loop X two i fr st l = Ok st' ->
  inv st' /\ (doomed st -> doomed st') /\
  (forall f, In f l -> section_case i (fe_section (snd f)) = Some true -> exists s, map_json X two (snd f) fr = Ok s /\ (bad_value s -> doomed st')).
Proof.
  induction l as [|f l IH]; cbn [forallb fields_loop]; intros Nm F st st' I Ag; [intros [= <-]; split; [auto|]; split; [auto|]; intros f []|].
  apply andb_prop in Nm as [Nm Nm']. inversion F as [|x y F1 F2]; subst. destruct (field_step X two i fr st f) as [st1| | |] eqn:E; cbn [rbind]; try discriminate.
  destruct (step3_inv st f st1 Nm F1 I Ag E) as (A & B & C & D). intros L. destruct (IH Nm' F2 st1 st' A B L) as (A' & C' & D').
  split; [exact A'|]. split; [auto|]. intros g [<- |Hg] Sc; [|apply D'; auto]. destruct (D Sc) as (s & Ms & Bs). exists s. split; [exact Ms|auto].
Qed.
End Record.

(** ** Exactly which records are JSON *)
Section Exact.
Variables (X : sfgo_fns) (two : bool) (fr : flatrec).
Context {R : Type}.
Variable ctx : context (rule R).
Hypothesis NP : names_plain X.
Lemma written_values version vj s : jtext version vj -> encode_json X two version fr ctx = Ok s ->
  forall name sec kas k n, In (sec, name, kas) sections -> has_section X fr sec = true -> In (k, n) kas ->
  exists v, map_json X two (snd (entry n)) fr = Ok v /\ (bad_value v -> forall j, ~ jtext s j).
Proof.
  intros V E name sec kas k n Hs Hp Hk. destruct (info_ok X fr) as (i & Ei & Ji & Jn & La). unfold encode_json in E. rewrite Ei in E. cbn [rbind] in E.
  rewrite loop_relevant, fields_are in E. set (st0 := mkJ None true _) in E.
  destruct (fields_loop X two i fr st0 (tops ++ _)) as [st2| | |] eqn:L; cbn [rbind] in E; try discriminate E.
  assert (exists st1, fields_loop X two i fr st0 tops = Ok st1 /\ fields_loop X two i fr st1 (flat_map (fun s0 => block_fields (snd s0)) sections) = Ok st2) as (st1 & L1 & L2).
  { clear -L. clearbody st0. revert st0 L. induction tops as [|f l IH]; intros st L; [exists st; split; [reflexivity|exact L]|]. cbn [List.app fields_loop] in *.
    destruct (field_step X two i fr st f) as [st'| | |]; cbn [rbind] in *; try discriminate L. apply IH, L. }
  assert (N1 : forallb named tops = true) by (vm_compute; reflexivity).
  assert (N2 : forallb named (flat_map (fun s0 => block_fields (snd s0)) sections) = true) by (vm_compute; reflexivity).
  assert (F1 : Forall (fun f : string * fieldentry => num_sects (fst f) = 2) tops) by (unfold tops, top; repeat constructor).
  assert (F2 : Forall (fun f : string * fieldentry => num_sects (fst f) = 3) (flat_map (fun s0 => block_fields (snd s0)) sections)).
  { rewrite Forall_forall. intros f Hf. apply in_flat_map in Hf as (b & Hb & Hf). pose proof (proj1 (Forall_forall _ _) sections_names b Hb) as (_ & _ & _ & Q & _).
    unfold block_fields in Hf. apply in_map_iff in Hf as (ka & <- & Hka). exact (proj1 (proj1 (Forall_forall _ _) Q ka Hka)). }
  assert (I0 : inv st0).
  { right. split; [intros [A _]; apply A; reflexivity|]. left. unfold rst, st0. cbn [js_out]. change ("{""version"":" ++ version ++ ",") with ("{" ++ w_field "version" (version ++ ",")).
    rewrite arun_app. change (arun AStart "{") with AStart. rewrite field_run by reflexivity. rewrite arun_app. cbn [arun]. apply done_comma. eapply jt_run; [exact V|reflexivity]. }
  destruct (loop2_inv X two fr i NP tops N1 F1 st0 st1 eq_refl I0 L1) as [Sn I1].
  destruct (loop3_inv X two fr i NP _ N2 F2 st1 st2 I1 ltac:(intros s0 E0; congruence) L2) as (I2 & _ & D).
  assert (Hin : In (entry n) (flat_map (fun s0 : block => block_fields (snd s0)) sections)).
  { apply in_flat_map. exists (sec, name, kas). split; [exact Hs|]. cbn [snd]. unfold block_fields. apply in_map_iff. exists (k, n). auto. }
  assert (Fs : fe_section (snd (entry n)) = sec).
  { pose proof (proj1 (Forall_forall _ _) sections_names _ Hs) as (_ & _ & _ & _ & Q). exact (proj1 (Forall_forall _ _) Q (k, n) Hk). }
  destruct (D (entry n) Hin) as (v & M & B); [rewrite Fs; apply Ji, Hp|]. exists v. split; [exact M|]. intros Bv j J.
  injection E as <-. apply (json_not_bad _ _ J). rewrite arun_app. destruct (B Bv) as [Z|[_ Z]]; unfold rst in Z; rewrite Z; [apply arun_bad|].
  cbn [append arun]. change (astep AColon "}") with ABad. apply arun_bad.
Qed.
Hypothesis NF : forall z, trim_bounding_quotes (x_rectype X z) = "NF" <-> z = NET_FLOW.
Lemma short_dec {A} (l : list A) : length l <= 1 \/ 2 <= length l.
Proof. lia. Qed.
Theorem json_iff version vj s : jtext version vj -> encode_json X two version fr ctx = Ok s -> ((exists v, jtext s v) <-> writable X fr).
Proof.
  intros V E. split.
  2:{ intros W. destruct (encode_value X cleaned two fr cleaned_ok W ctx version vj V) as (s' & E' & J). rewrite E in E'. injection E' as <-. eauto. }
  intros (j & J). destruct NP as [P1 P2]. split; [|split; [|split; [exact P1|split; [exact P2|exact NF]]]].
  - intros Nk Pt. destruct (written_values version vj s V E "proc" SectProc (in_section "sf.proc." ["acmdline"; "aexe"; "aname"; "apid"; "args"; "cmdline"; "createts"; "entry"; "exe"; "gid"; "group";
      "name"; "oid"; "pid"; "tid"; "tty"; "uid"; "user"]) "acmdline" "sf.proc.acmdline") as (v & M & B).
    + cbn; tauto.
    + unfold has_section. destruct (seqb (rtype X fr) "KE") eqn:K; [apply String.eqb_eq in K; contradiction|reflexivity].
    + left. reflexivity.
    + apply (B ltac:(left; revert M; change (snd (entry "sf.proc.acmdline")) with (mkEntry (MCached SYSFLOW_SRC ProcACmdLine) FIAids MapArrayStr SectProc ProcACmdLine);
        unfold map_json; cbn [fe_index fe_aux]; rewrite Pt; intros M; apply ok_inj in M; rewrite M; reflexivity) j J).
  - intros Hp.
    assert (G : forall k n, In (k, n) (snd (nth 7 sections (SectNone, "", []))) -> exists v, map_json X two (snd (entry n)) fr = Ok v /\ (bad_value v -> forall j, ~ jtext s j)).
    { intros k n Hk. apply (written_values version vj s V E "pod" SectPod (snd (nth 7 sections (SectNone, "", []))) k n); [cbn; tauto|exact Hp|exact Hk]. }
    destruct (G "hostip" "sf.pod.hostip+") as (v1 & M1 & B1); [cbn; tauto|].
    destruct (G "internalip" "sf.pod.internalip+") as (v2 & M2 & B2); [cbn; tauto|].
    destruct (G "services" "sf.pod.services+") as (v3 & M3 & B3); [cbn; tauto|]. clear G.
    change (snd (entry "sf.pod.hostip+")) with (mkEntry (MIntArray SYSFLOW_SRC POD_HOSTIP_ANY) (FIAny POD_HOSTIP_ANY) MapArrayInt SectPod PProcName) in M1.
    change (snd (entry "sf.pod.internalip+")) with (mkEntry (MIntArray SYSFLOW_SRC POD_INTERNALIP_ANY) (FIAny POD_INTERNALIP_ANY) MapArrayInt SectPod PProcName) in M2.
    change (snd (entry "sf.pod.services+")) with (mkEntry (MSvcArray SYSFLOW_SRC POD_SERVICES_ANY) (FIAny POD_SERVICES_ANY) MapArraySvc SectPod PProcName) in M3.
    unfold map_json in M1, M2, M3. cbn [fe_index fe_type] in M1, M2, M3.
    destruct (get_int_array (fr_slots fr) POD_HOSTIP_ANY SYSFLOW_SRC) as [l1|]; [|discriminate M1].
    destruct (get_int_array (fr_slots fr) POD_INTERNALIP_ANY SYSFLOW_SRC) as [l2|]; [|discriminate M2].
    destruct (get_svc_array (fr_slots fr) POD_SERVICES_ANY SYSFLOW_SRC) as [l3|]; [|discriminate M3].
    apply ok_inj in M1, M2, M3. subst v1 v2 v3.
    repeat split.
    + exists l1. split; [reflexivity|]. destruct (short_dec l1) as [L|L]; [exact L|]. exfalso. apply (B1 (or_intror (proj2 (proj2 (ip_array_run l1)) L)) j J).
    + exists l2. split; [reflexivity|]. destruct (short_dec l2) as [L|L]; [exact L|]. exfalso. apply (B2 (or_intror (proj2 (proj2 (ip_array_run l2)) L)) j J).
    + exists l3. split; [reflexivity|]. destruct (short_dec l3) as [L|L]; [exact L|]. exfalso. apply (B3 (or_intror (proj2 (proj2 (svc_array_run l3)) (or_introl L))) j J).
    + intros l x [= <-] Hx. destruct (short_dec (s_clusterip x)) as [L|L]; [exact L|]. exfalso.
      apply (B3 (or_intror (proj2 (proj2 (svc_array_run l3)) (or_intror (ex_intro _ x (conj Hx L))))) j J).
Qed.
End Exact.

(** * EcsTextFacts: the text of an ECS document is JSON for its value. *)
From Coq Require Import Lia Permutation ZifyBool.
From Verif Require Import GoBase GoFacts Predicates FlatRecord FieldTables EngineModel EngineFlat FlattenModel JsonModel SpecJson JsonFacts JsonFacts2 JsonFacts3 JsonFacts7 EcsModel EcsText SpecEcsText.
Open Scope string_scope.

(** ** Values *)
Lemma eval_ind2 (P : eval -> Prop) :
  P ENull -> (forall s, P (EStr s)) -> (forall z, P (EInt z)) -> (forall b, P (EBool b)) ->
  (forall l, Forall P l -> P (EList l)) -> (forall m, Forall (fun kv => P (snd kv)) m -> P (EMap m)) -> forall v, P v.
Proof.
  intros Hn Hs Hz Hb Hl Hm. fix IH 1. intros [|s|z|b|l|m]; [exact Hn|apply Hs|apply Hz|apply Hb|apply Hl|apply Hm].
  - induction l as [|v l IHl]; constructor; [exact (IH v)|exact IHl].
  - induction m as [|[k v] m IHm]; constructor; [exact (IH v)|exact IHm].
Qed.
Fixpoint nodupb (l : list string) : bool := match l with [] => true | x :: l' => negb (existsb (String.eqb x) l') && nodupb l' end.
Lemma nodupb_ok l : nodupb l = true -> NoDup l.
Proof.
  induction l as [|x l IH]; intros H; constructor; cbn [nodupb] in H; apply andb_prop in H as [H1 H2]; auto.
  intros I. apply negb_true_iff in H1. assert (E : existsb (String.eqb x) l = true); [|congruence].
  apply existsb_exists. exists x. split; [exact I|apply String.eqb_refl].
Qed.
Fixpoint wfb (v : eval) : bool :=
  match v with
  | EList l => forallb wfb l
  | EMap m => nodupb (map fst m) && forallb plain (map fst m) && forallb (fun kv => wfb (snd kv)) m
  | _ => true
  end.

Lemma plain_valid s : plain s = true -> valid s.
Proof.
  induction s as [|c s IH]; intros H; [constructor|]. cbn [plain] in H. apply andb_prop in H as [H1 H2].
  assert (B : (0 <= byte c < 128)%Z). { unfold plain_char in H1. lia. }
  replace (String c s) with (utf8 (byte c) ++ s); [apply v_cons; [unfold scalar; lia|auto]|].
  rewrite (utf8_single (byte c)) by lia. cbn [append]. f_equal. unfold chr, byte. rewrite Nat2Z.id. apply ascii_nat_embedding.
Qed.
Lemma plain_key k : plain k = true -> jstr (string_no_quotes k) k.
Proof. intros H. apply escape_ok, clean_valid, plain_valid, H. Qed.

Definition pair_ok (kv : string * string) (kj : string * json) : Prop := fst kv = fst kj /\ plain (fst kv) = true /\ jtext (snd kv) (snd kj).
Lemma members_ok l js : Forall2 pair_ok l js -> l <> [] -> members (comma_list member l) js.
Proof.
  induction 1 as [|[k s] [k' j] l js (E & Pk & J) F IH]; intros N; [congruence|]. cbn [fst snd] in *. subst k'.
  destruct F as [|b jb l js Hb F].
  - cbn [comma_list]. unfold member, w_string, dq. cbn [fst snd].
    replace (("""" ++ string_no_quotes k ++ """") ++ ":" ++ s) with ("""" ++ string_no_quotes k ++ """:" ++ s) by (rewrite !sapp_assoc; reflexivity).
    apply mb_one; [apply plain_key, Pk|exact J].
  - change (comma_list member ((k, s) :: b :: l)) with (member (k, s) ++ "," ++ comma_list member (b :: l)). unfold member at 1, w_string, dq. cbn [fst snd].
    replace ((("""" ++ string_no_quotes k ++ """") ++ ":" ++ s) ++ "," ++ comma_list member (b :: l))
      with ("""" ++ string_no_quotes k ++ """:" ++ s ++ "," ++ comma_list member (b :: l)) by (rewrite !sapp_assoc; reflexivity).
    apply mb_cons; [apply plain_key, Pk|exact J|]. apply IH. discriminate.
Qed.
Lemma object_ok l js : Forall2 pair_ok l js -> jtext (object l) (JObj js).
Proof.
  intros F. unfold object. destruct F as [|a b l js H F]; [apply jt_obj0|]. apply jt_obj, members_ok; [constructor; assumption|discriminate].
Qed.
Lemma insert_perm kv l : Permutation (insert_key kv l) (kv :: l).
Proof.
  induction l as [|kv' l IH]; [reflexivity|]. cbn [insert_key]. destruct (String.leb (fst kv) (fst kv')); [reflexivity|].
  rewrite IH. apply perm_swap.
Qed.
Lemma sort_perm l : Permutation (sort_keys l) l.
Proof. induction l as [|kv l IH]; [reflexivity|]. unfold sort_keys in *. cbn [fold_right]. rewrite insert_perm. constructor. exact IH. Qed.

Section Ok.
Variable txt : string -> string.
Hypothesis Hc : forall s, clean s (txt s).
Definition good (s : string) (v : json) : Prop := exists j, jtext s j /\ unique j /\ upto j v.
Lemma str_good s : good (w_string s) (JStr (txt s)).
Proof. exists (JStr (txt s)). split; [apply (w_string_ok txt Hc)|]. split; constructor. Qed.
Lemma goods (l : list string) vs : Forall2 good l vs -> exists js, Forall2 jtext l js /\ Forall unique js /\ Forall2 upto js vs.
Proof.
  induction 1 as [|s v l vs (j & J & U & Up) F (js & IH1 & IH2 & IH3)]; [exists []; repeat constructor|].
  exists (j :: js). repeat split; constructor; assumption.
Qed.
Definition gpair (kv : string * string) (kj : string * json) : Prop := fst kv = fst kj /\ plain (fst kv) = true /\ good (snd kv) (snd kj).
Lemma gpairs l vs : Forall2 gpair l vs -> exists js, Forall2 pair_ok l js /\ Forall (fun kv => unique (snd kv)) js /\ Forall2 (fun a b => fst a = fst b /\ upto (snd a) (snd b)) js vs.
Proof.
  induction 1 as [|[k s] [k' v] l vs (E & Pk & j & J & U & Up) F (js & IH1 & IH2 & IH3)]; [exists []; repeat constructor|].
  cbn [fst snd] in *. subst k'. exists ((k, j) :: js). split; [constructor; [repeat split; assumption|assumption]|]. split; constructor; auto.
Qed.
Lemma fst_of {B C} (l : list (string * B)) (l' : list (string * C)) (R : B -> C -> Prop) : Forall2 (fun a b => fst a = fst b /\ R (snd a) (snd b)) l l' -> map fst l = map fst l'.
Proof. induction 1 as [|a b l l' [E _] F IH]; [reflexivity|]. cbn [map]. rewrite E, IH. reflexivity. Qed.
(** An object whose members are written in any order. *)
Lemma object_good l l' vs : Permutation l' l -> Forall2 gpair l vs -> NoDup (map fst vs) -> good (object l') (JObj vs).
Proof.
  intros Pm F N. destruct (gpairs l vs F) as (js & F1 & F2 & F3).
  destruct (Permutation_Forall2 (Permutation_sym Pm) F1) as (js' & Pj & F1').
  exists (JObj js'). split; [apply object_ok, F1'|]. split.
  - constructor.
    + apply (Permutation_NoDup (l := map fst js)); [apply Permutation_map, Pj|]. rewrite (fst_of js vs upto F3). exact N.
    + apply Forall_forall. intros x Hx. rewrite Forall_forall in F2. apply F2. apply (Permutation_in _ (Permutation_sym Pj)), Hx.
  - apply up_obj with js; [apply Permutation_sym, Pj|exact F3].
Qed.
Lemma elements_of l js : Forall2 jtext l js -> l <> [] -> elements (comma_list (fun s => s) l) js.
Proof.
  induction 1 as [|s j l js J F IH]; intros N; [congruence|]. destruct F as [|s2 j2 l js J2 F]; cbn [comma_list]; [apply el_one, J|].
  apply el_cons; [exact J|]. apply IH. discriminate.
Qed.
Lemma array_good l vs : Forall2 good l vs -> good ("[" ++ comma_list (fun s => s) l ++ "]") (JArr vs).
Proof.
  intros F. destruct (goods l vs F) as (js & F1 & F2 & F3). exists (JArr js). split; [|split; [constructor; exact F2|apply up_arr, F3]].
  destruct F1 as [|s j l js J F1]; [apply jt_arr0|]. apply jt_arr, elements_of; [constructor; assumption|discriminate].
Qed.
Lemma marshal_good v : wfb v = true -> good (marshal v) (value txt v).
Proof.
  induction v as [|s|z|b|l IH|m IH] using eval_ind2; intros W.
  - exists JNull. split; [constructor|]. split; constructor.
  - apply str_good.
  - exists (JNum z). split; [constructor|]. split; constructor.
  - exists (JBool b). split; [apply bool_ok|]. split; constructor.
  - cbn [marshal value]. apply array_good. cbn [wfb] in W. induction l as [|v l IHl]; [constructor|].
    cbn [forallb] in W. apply andb_prop in W as [W1 W2]. inversion IH; subst. constructor; auto.
  - cbn [marshal value]. cbn [wfb] in W. apply andb_prop in W as [W W3]. apply andb_prop in W as [W1 W2].
    apply object_good with (l := map (fun kv => (fst kv, marshal (snd kv))) m).
    + apply sort_perm.
    + clear W1. induction m as [|[k v] m IHm]; [constructor|]. cbn [map fst snd forallb] in *.
      apply andb_prop in W2 as [W2 W2']. apply andb_prop in W3 as [W3 W3']. inversion IH; subst. constructor; [|auto]. split; [reflexivity|]. split; [exact W2|]. cbn [snd] in *. auto.
    + rewrite map_map. cbn [fst]. apply nodupb_ok, W1.
Qed.

(** ** Documents *)
Definition wfo (o : option (gomap eval)) : bool := match o with Some m => wfb (EMap m) | None => true end.
Definition wf_doc (d : ecsdoc) : bool :=
  wfo (e_event d) && wfb (EMap (e_host d)) && wfo (e_container d) && wfo (e_orch d) && wfo (e_pod d) && forallb (fun m => wfb (EMap m)) (e_service d) &&
  wfo (e_file d) && wfo (e_fileaction d) && wfo (e_network d) && wfo (e_source d) && wfo (e_destination d) && wfo (e_process d) && wfo (e_user d).

Lemma omit_str_good n s : plain n = true -> Forall2 gpair (omit_str n s) (some_text txt n s).
Proof.
  intros Pn. unfold omit_str, some_text, when. destruct (seqb s ""); cbn [negb]; constructor; [|constructor]. split; [reflexivity|]. split; [exact Pn|apply str_good].
Qed.
Lemma omit_map_good n o : plain n = true -> wfo o = true -> Forall2 gpair (omit_map n o) (some_map txt n o).
Proof.
  intros Pn W. destruct o as [[|kv m]|]; cbn [omit_map some_map]; [constructor| |constructor].
  cbn [length Nat.eqb negb when]. constructor; [|constructor]. split; [reflexivity|]. split; [exact Pn|]. apply (marshal_good (EMap (kv :: m)) W).
Qed.
Lemma one_good n s v : plain n = true -> good s v -> Forall2 gpair [(n, s)] [(n, v)].
Proof. intros Pn G. constructor; [|constructor]. split; [reflexivity|]. split; assumption. Qed.
Lemma list_good {A} n (f : A -> eval) (g : A -> json) l : plain n = true -> (forall a, In a l -> good (marshal (f a)) (g a)) ->
  Forall2 gpair (omit_list n (map f l)) (when (negb (Nat.eqb (length l) 0)) (n, JArr (map g l))).
Proof.
  intros Pn H. destruct l as [|a l]; [constructor|].
  change (Forall2 gpair [(n, marshal (EList (map f (a :: l))))] [(n, JArr (map g (a :: l)))]). apply one_good; [exact Pn|].
  cbn [marshal]. rewrite map_map. apply array_good. revert H. generalize (a :: l) as q. induction q as [|b q IH]; intros F; [constructor|].
  constructor; [apply F; left; reflexivity|]. apply IH. intros x Hx. apply F. right. exact Hx.
Qed.
Lemma pieces_nodup {A} (ps : list (string * list (string * A))) :
  NoDup (map fst ps) -> Forall (fun p => snd p = [] \/ exists v, snd p = [(fst p, v)]) ps -> NoDup (map fst (flat_map snd ps)).
Proof.
  induction ps as [|[n l] ps IH]; intros N F; [constructor|]. cbn [map fst] in N. inversion N as [|x y Ni N' E]; subst. inversion F as [|p q Fp Fq E]; subst.
  cbn [flat_map snd fst] in *. destruct Fp as [-> |(v & ->)]; [cbn [List.app]; apply IH; assumption|]. cbn [List.app map fst]. constructor; [|apply IH; assumption].
  intros I. apply Ni. clear - I Fq. induction ps as [|[m l] ps IH]; [destruct I|]. inversion Fq as [|p q Fp Fq' E]; subst. cbn [flat_map snd fst map] in *.
  rewrite map_app in I. apply in_app_or in I as [I|I]; [|right; auto]. destruct Fp as [-> |(w & ->)]; [destruct I|]. destruct I as [I|[]]. left. exact I.
Qed.
Lemma doc_good d : wf_doc d = true -> good (marshal_ecs d) (doc_value txt d).
Proof.
  intros W. unfold wf_doc in W. repeat (apply andb_prop in W as [W ?]).
  assert (Ty : txt "SysFlow" = "SysFlow").
  { apply (jstr_fun (string_no_quotes "SysFlow")); [apply escape_ok, Hc|apply plain_key; reflexivity]. }
  unfold marshal_ecs, doc_value. eapply object_good; [reflexivity| |].
  - apply Forall2_app.
    { repeat (constructor; [split; [reflexivity|]; split; [reflexivity|]; cbn [snd]|]); [..|constructor].
      - apply str_good.
      - apply object_good with (1 := Permutation_refl _).
        + apply (Forall2_app (l1 := [_]) (l1' := [_])); [|apply omit_str_good; reflexivity].
          apply one_good; [reflexivity|]. rewrite <- Ty at 2. apply str_good.
        + unfold some_text, when. destruct (seqb _ _); apply nodupb_ok; reflexivity.
      - apply object_good with (1 := Permutation_refl _); [apply omit_str_good; reflexivity|].
        unfold some_text, when. destruct (seqb _ _); apply nodupb_ok; reflexivity.
      - destruct (e_event d) as [m|]; [apply (marshal_good (EMap m)); assumption|]. exists JNull. split; [constructor|]. split; constructor.
      - apply (marshal_good (EMap (e_host d))); assumption. }
    cbn [flat_map fst snd]. rewrite ?app_nil_r. rewrite <- ?app_assoc.
    repeat (apply Forall2_app; [|]).
    all: try (apply omit_map_good; [reflexivity|assumption]).
    + apply list_good; [reflexivity|]. intros m Hm. apply (marshal_good (EMap m)). rewrite forallb_forall in *. auto.
    + apply list_good; [reflexivity|]. intros m Hm. apply str_good.
  - cbn [flat_map fst snd]. rewrite ?app_nil_r. rewrite <- ?app_assoc.
    match goal with |- NoDup (map fst ([(_, ?a); (_, ?b); (_, ?c); (_, ?e); (_, ?f)] ++ ?p1 ++ ?p2 ++ ?p3 ++ ?p4 ++ ?p5 ++ ?p6 ++ ?p7 ++ ?p8 ++ ?p9 ++ ?p10 ++ ?p11 ++ ?p12)) =>
      assert (N : NoDup (map fst (flat_map snd
       [("@timestamp", [("@timestamp", a)]); ("agent", [("agent", b)]); ("ecs", [("ecs", c)]); ("event", [("event", e)]); ("host", [("host", f)]);
        ("container", p1); ("orchestrator", p2); ("pod", p3); ("service", p4); ("file", p5); ("sf_file_action", p6); ("network", p7); ("source", p8);
        ("destination", p9); ("process", p10); ("user", p11); ("tags", p12)]))) end.
    + apply pieces_nodup; [apply nodupb_ok; reflexivity|].
      assert (Q : forall n o, some_map txt n o = [] \/ exists v, some_map txt n o = [(n, v)]).
      { intros n [[|x m]|]; [left; reflexivity|right; eexists; reflexivity|left; reflexivity]. }
      repeat (apply Forall_cons; [cbn [fst snd]; first [right; eexists; reflexivity|apply Q|unfold when; destruct (negb _); [right; eexists; reflexivity|left; reflexivity]]|]); apply Forall_nil.
    + cbn [flat_map snd] in N. rewrite app_nil_r in N. exact N.
Qed.
End Ok.

(** ** Documents the encoder makes *)
Ltac wff := repeat match goal with |- context [if ?b then _ else _] => destruct b end; reflexivity.
Section Enc.
Variables (X : sfgo_fns) (E : ecs_fns).
Lemma wf_event fr ctx c t a : wfb (EMap (encode_event X E fr ctx c t a)) = true.
Proof. unfold encode_event. wff. Qed.
Lemma wf_file fr : wfb (EMap (encode_file X E fr)) = true /\ wfb (EMap (mset "target_path" (EStr (sget X "sf.file.newpath" fr)) (encode_file X E fr))) = true.
Proof. unfold encode_file. split; wff. Qed.
Lemma wf_container fr : wfo (encode_container X fr) = true.
Proof. unfold encode_container. wff. Qed.
Lemma wf_user fr : wfb (EMap (encode_user X fr)) = true.
Proof. unfold encode_user. wff. Qed.
Lemma wf_services l : forallb (fun m => wfb (EMap m)) (map (encode_service X) l) = true.
Proof.
  induction l as [|s l IH]; [reflexivity|]. cbn [map forallb]. rewrite IH, andb_true_r. unfold encode_service.
  cbn [wfb map fst snd forallb]. rewrite !andb_true_r.
  assert (A : forallb wfb (map (fun ip => EStr (x_ipstr X (wrap32 ip))) (s_clusterip s)) = true) by (induction (s_clusterip s); [reflexivity|exact IHl0]).
  assert (B : forallb wfb (map encode_port (s_ports s)) = true) by (induction (s_ports s) as [|q r IHr]; [reflexivity|exact IHr]).
  rewrite A, B. reflexivity.
Qed.
Lemma wf_pod fr p sv : encode_pod X E fr = Ok (p, sv) -> wfb (EMap p) = true /\ forallb (fun m => wfb (EMap m)) sv = true.
Proof.
  unfold encode_pod, ip_strs. intros H. destruct (iaget X "sf.pod.hostip+" fr) as [l1|]; [|discriminate H]. cbn [rbind] in H.
  destruct (iaget X "sf.pod.internalip+" fr) as [l2|]; [|discriminate H]. cbn [rbind] in H.
  destruct (svget X "sf.pod.services+" fr) as [l3|]; [|discriminate H]. inversion H; subst. split; [|apply wf_services].
  assert (A : forall l, forallb wfb (map (fun ip => EStr (x_ipstr X (wrap32 ip))) l) = true) by (induction l; [reflexivity|assumption]).
  cbn [wfb map fst snd forallb]. rewrite !A. reflexivity.
Qed.
Lemma wf_policy ctx ev ev' tags : add_policy ctx ev = Ok (ev', tags) ->
  (forall m, ev = Some m -> wfb (EMap m) = true /\ ~ In "reason" (map fst m) /\ ~ In "severity" (map fst m)) -> wfo ev' = true.
Proof.
  unfold add_policy. intros H W. destruct (ctx_getrules ctx) as [|r rs].
  - inversion H; subst. destruct ev' as [m|]; [exact (proj1 (W m eq_refl))|reflexivity].
  - destruct ev as [m|]; [|discriminate H]. destruct (W m eq_refl) as (W1 & W2 & W3). clear W.
    destruct (policy_info _ _) as [[rea tg] p]. inversion H; subst. cbn [wfo]. unfold mset. cbn [wfb map fst snd] in *.
    apply andb_prop in W1 as [W1 W1c]. apply andb_prop in W1 as [W1a W1b].
    assert (NE : forall k, ~ In k (map fst m) -> existsb (String.eqb k) (map fst m) = false).
    { intros k Hk. destruct (existsb (String.eqb k) (map fst m)) eqn:Q; [|reflexivity]. apply existsb_exists in Q as (x & Hx & Ex). apply String.eqb_eq in Ex. subst. contradiction. }
    cbn [nodupb existsb forallb wfb snd]. rewrite (NE _ W2), (NE _ W3), W1a, W1b, W1c. reflexivity.
Qed.
Lemma wf_encoded version ecsversion fr ctx d : encode_ecs X E version ecsversion fr ctx = Ok d -> wf_doc d = true.
Proof.
  unfold encode_ecs. intros H.
  match type of H with rbind ?a _ = _ => destruct a as [[pod services]| | |] eqn:Ep; try discriminate H end.
  assert (Wp : wfo pod = true /\ forallb (fun m => wfb (EMap m)) services = true).
  { destruct (_ && _)%bool in Ep.
    - destruct (encode_pod X E fr) as [[p s]| | |] eqn:Eq; try discriminate Ep. cbn [rbind] in Ep. inversion Ep; subst. exact (wf_pod fr p services Eq).
    - inversion Ep; subst. split; reflexivity. }
  clear Ep. cbn [rbind] in H.
  match type of H with rbind ?a _ = _ => destruct a as [k8stype| | |]; try discriminate H end. cbn [rbind] in H.
  destruct (classify_fileevent E _) as [[[fcat ftype] faction] ftarget]. destruct (encode_network X E fr) as [[net src] dst] eqn:En.
  match type of H with rbind ?a _ = _ => destruct a as [[event tags]| | |] eqn:Ea; try discriminate H end. cbn [rbind] in H.
  assert (We : wfo event = true).
  { apply (wf_policy ctx _ event tags Ea). clear Ea H. intros m Hm.
    assert (G : forall c t a, ~ In "reason" (map fst (encode_event X E fr ctx c t a)) /\ ~ In "severity" (map fst (encode_event X E fr ctx c t a))).
    { intros c t a. unfold encode_event. split; intros I; repeat match type of I with context [if ?b then _ else _] => destruct b end; cbn in I; repeat destruct I as [I|I]; try discriminate I; exact I. }
    assert (G' : forall c t a, ~ In "original" (map fst (encode_event X E fr ctx c t a))).
    { intros c t a. unfold encode_event. intros I; repeat match type of I with context [if ?b then _ else _] => destruct b end; cbn in I; repeat destruct I as [I|I]; try discriminate I; exact I. }
    destruct (seqb _ "NF"); [inversion Hm; subst; split; [apply wf_event|apply G]|].
    destruct (seqb _ "FF"); [inversion Hm; subst; split; [apply wf_event|apply G]|].
    destruct (seqb _ "FE"); [inversion Hm; subst; split; [apply wf_event|apply G]|].
    destruct (seqb _ "PE"); [inversion Hm; subst; split; [apply wf_event|apply G]|].
    destruct (seqb _ "KE"); [|discriminate Hm]. inversion Hm; subst. clear Hm.
    set (e := encode_event X E fr ctx "orchestration" k8stype (sget X "sf.ke.action" fr)).
    assert (W := wf_event fr ctx "orchestration" k8stype (sget X "sf.ke.action" fr)). fold e in W.
    destruct (G "orchestration" k8stype (sget X "sf.ke.action" fr)) as [G1 G2]. fold e in G1, G2.
    assert (G3 := G' "orchestration" k8stype (sget X "sf.ke.action" fr)). fold e in G3.
    unfold mset. split; [|split; cbn [map fst]; intros [I|I]; try discriminate I; contradiction].
    cbn [wfb map fst snd nodupb forallb] in *. apply andb_prop in W as [W W3]. apply andb_prop in W as [W1 W2].
    rewrite W1, W2, W3. destruct (existsb (String.eqb "original") (map fst e)) eqn:Q; [|reflexivity].
    apply existsb_exists in Q as (x & Hx & Ex). apply String.eqb_eq in Ex. subst x. contradiction. }
  clear Ea. inversion H; subst. clear H. destruct Wp as [Wp Ws].
  unfold wf_doc. cbn [e_event e_host e_container e_orch e_pod e_service e_file e_fileaction e_network e_source e_destination e_process e_user].
  rewrite We, Wp, Ws.
  unfold encode_network in En. inversion En; subst. clear En.
  repeat (apply andb_true_intro; split); try reflexivity.
  - destruct (seqb _ "KE"); [reflexivity|apply wf_container].
  - destruct (seqb _ "KE"); [reflexivity|]. destruct (_ && _)%bool; reflexivity.
  - destruct (seqb _ "FF"); [apply wf_file|]. destruct (seqb _ "FE"); [|reflexivity]. destruct ftarget; apply wf_file.
  - destruct (seqb _ "FF"); [|reflexivity]. unfold file_action. wff.
  - destruct (seqb _ "NF"); reflexivity.
  - destruct (seqb _ "NF"); reflexivity.
  - destruct (seqb _ "NF"); reflexivity.
  - destruct (seqb _ "KE"); reflexivity.
  - destruct (seqb _ "KE"); [reflexivity|apply wf_user].
Qed.
End Enc.

(** ** Reading at a path *)
Lemma find_member_in n l v : NoDup (map fst l) -> find_member n l = Some v <-> In (n, v) l.
Proof.
  unfold find_member. induction l as [|[k w] l IH]; intros N; cbn [find fst].
  - split; [discriminate|intros []].
  - cbn [map fst] in N. inversion N as [|x y Ni N' Q]; subst. destruct (String.eqb_spec k n) as [-> |D].
    + cbn [snd]. split.
      * intros [= ->]. left. reflexivity.
      * intros [[= ->]|I]; [reflexivity|]. exfalso. apply Ni. exact (in_map fst _ _ I).
    + rewrite IH by exact N'. split; [intros J; right; exact J|]. intros J. destruct J as [J|J]; [congruence|exact J].
Qed.
Definition both (a b : option json) : Prop :=
  match a, b with Some x, Some y => unique x /\ upto x y | None, None => True | _, _ => False end.
Lemma member_both n l l' : unique (JObj l) -> upto (JObj l) (JObj l') -> both (find_member n l) (find_member n l').
Proof.
  intros U H. inversion U as [| | | | |l0 N F Q]; subst. inversion H as [v Q|a b F' Q|l0 l1 l0' Pm F2 Q Q']; subst.
  - destruct (find_member n l') as [v|] eqn:Fv; [|exact I]. split; [|constructor].
    rewrite Forall_forall in F. exact (F (n, v) (proj1 (find_member_in n l' v N) Fv)).
  - assert (N1 : NoDup (map fst l1)) by (apply (Permutation_NoDup (l := map fst l)); [apply Permutation_map, Pm|exact N]).
    assert (F1 : Forall (fun kv => unique (snd kv)) l1).
    { rewrite Forall_forall in *. intros x Hx. apply F, (Permutation_in _ (Permutation_sym Pm)), Hx. }
    assert (Ef : find_member n l = find_member n l1).
    { destruct (find_member n l) as [v|] eqn:A, (find_member n l1) as [w|] eqn:B; [| | |reflexivity].
      - apply (find_member_in n l v N) in A. apply (Permutation_in _ Pm) in A. apply (find_member_in n l1 v N1) in A. congruence.
      - apply (find_member_in n l v N) in A. apply (Permutation_in _ Pm) in A. apply (find_member_in n l1 v N1) in A. congruence.
      - apply (find_member_in n l1 w N1) in B. apply (Permutation_in _ (Permutation_sym Pm)) in B. apply (find_member_in n l w N) in B. congruence. }
    rewrite Ef. clear - F1 F2. unfold find_member. induction F2 as [|[k v] [k' w] l1 l' [E U] F2 IH]; [exact I|]. cbn [fst snd] in *. subst k'.
    cbn [find fst]. inversion F1; subst. destruct (String.eqb k n); [split; assumption|]. apply IH. assumption.
Qed.
Lemma nth_both i l l' : Forall unique l -> Forall2 upto l l' -> both (nth_error l i) (nth_error l' i).
Proof.
  intros F H. revert i. induction H as [|a b l l' U H IH]; intros [|i]; try exact I; cbn [nth_error]; inversion F; subst; [split; assumption|auto].
Qed.
Lemma path_both p : forall v v', unique v -> upto v v' -> both (at_path p v) (at_path p v').
Proof.
  induction p as [|[n|i] p IH]; intros v v' U H; cbn [at_path].
  - split; assumption.
  - destruct H as [v|l l' F|l l1 l' Pm F].
    + destruct v as [|b|z|t|l|l]; try exact I. pose proof (member_both n l l U (up_refl _)) as B. destruct (find_member n l); [|exact I]. apply IH; [exact (proj1 B)|constructor].
    + exact I.
    + pose proof (member_both n l l' U (up_obj l l1 l' Pm F)) as B. destruct (find_member n l), (find_member n l'); try contradiction; [|exact I]. destruct B; apply IH; assumption.
  - destruct H as [v|l l' F|l l1 l' Pm F].
    + destruct v as [|b|z|t|l|l]; try exact I. inversion U; subst. pose proof (nth_both i l l) as B.
      destruct (nth_error l i) as [w|] eqn:Q; [|exact I]. apply IH; [|constructor]. match goal with H : Forall unique l |- _ => rewrite Forall_forall in H; apply H end. eapply nth_error_In, Q.
    + inversion U; subst. pose proof (nth_both i l l' ltac:(assumption) F) as B. destruct (nth_error l i), (nth_error l' i); try contradiction; [|exact I]. destruct B; apply IH; assumption.
    + exact I.
Qed.
Lemma leaf_upto v v' : leaf v \/ leaf v' -> upto v v' -> v = v'.
Proof. intros L H. destruct H; [reflexivity| |]; destruct L as [[]|[]]. Qed.
Lemma path_leaf p v v' x : unique v -> upto v v' -> leaf x -> at_path p v = Some x <-> at_path p v' = Some x.
Proof.
  intros U H L. pose proof (path_both p v v' U H) as B. destruct (at_path p v) as [a|], (at_path p v') as [b|]; cbn [both] in B; try contradiction; [|split; discriminate].
  destruct B as [_ B]. split; intros [= ->]; f_equal; [symmetry|]; apply leaf_upto; auto.
Qed.

(** ** Lines *)
Lemma jtext_bytes_all :
  (forall s v, jtext s v -> forall c, In c (list_ascii_of_string s) -> (32 <= byte c)%Z) /\
  (forall s l, elements s l -> forall c, In c (list_ascii_of_string s) -> (32 <= byte c)%Z) /\
  (forall s l, members s l -> forall c, In c (list_ascii_of_string s) -> (32 <= byte c)%Z).
Proof.
  assert (G : forall l (c : ascii), In c l -> forallb (fun c => Z.leb 32 (byte c)) l = true -> (32 <= byte c)%Z).
  { intros l c I F. rewrite forallb_forall in F. specialize (F c I). lia. }
  apply jtext_all.
  1-3: intros c H; apply (G _ c H); reflexivity.
  - intros z c H. assert (Q : plain (format_int z) = true) by apply num_plain. revert H Q. generalize (format_int z) as s. induction s as [|a s IH]; intros H Q; [destruct H|]. cbn [plain] in Q. apply andb_prop in Q as [Q1 Q2]. destruct H as [<- |H]; [unfold plain_char in Q1; lia|auto].
  - intros b t J c H. rewrite !list_app in H. apply in_app_or in H as [H|H]; [apply (G _ c H); reflexivity|]. apply in_app_or in H as [H|H]; [exact (jstr_bytes b t J c H)|apply (G _ c H); reflexivity].
  - intros c H; apply (G _ c H); reflexivity.
  - intros s l J IH c H. rewrite !list_app in H. apply in_app_or in H as [H|H]; [apply (G _ c H); reflexivity|]. apply in_app_or in H as [H|H]; [auto|apply (G _ c H); reflexivity].
  - intros c H; apply (G _ c H); reflexivity.
  - intros s l J IH c H. rewrite !list_app in H. apply in_app_or in H as [H|H]; [apply (G _ c H); reflexivity|]. apply in_app_or in H as [H|H]; [auto|apply (G _ c H); reflexivity].
  - auto.
  - intros s v s' l J IH J' IH' c H. rewrite !list_app in H. apply in_app_or in H as [H|H]; [auto|]. apply in_app_or in H as [H|H]; [apply (G _ c H); reflexivity|auto].
  - intros b k s v J J' IH c H. rewrite !list_app in H. apply in_app_or in H as [H|H]; [apply (G _ c H); reflexivity|]. apply in_app_or in H as [H|H]; [exact (jstr_bytes b k J c H)|].
    apply in_app_or in H as [H|H]; [apply (G _ c H); reflexivity|auto].
  - intros b k s v s' l J J' IH J2 IH2 c H. rewrite !list_app in H. apply in_app_or in H as [H|H]; [apply (G _ c H); reflexivity|]. apply in_app_or in H as [H|H]; [exact (jstr_bytes b k J c H)|].
    apply in_app_or in H as [H|H]; [apply (G _ c H); reflexivity|]. apply in_app_or in H as [H|H]; [auto|]. apply in_app_or in H as [H|H]; [apply (G _ c H); reflexivity|auto].
Qed.
Lemma doc_bytes d s v : s = marshal_ecs d -> jtext s v -> forall c, In c (list_ascii_of_string s) -> (32 <= byte c)%Z.
Proof. intros _ J. exact (proj1 jtext_bytes_all s v J). Qed.

(** ** The order of a map does not matter *)
Lemma acmp_trans_lt a b c : Ascii.compare a b = Lt -> Ascii.compare b c = Lt -> Ascii.compare a c = Lt.
Proof. unfold Ascii.compare. rewrite !N.compare_lt_iff. lia. Qed.
Lemma leb_trans a : forall b c, String.leb a b = true -> String.leb b c = true -> String.leb a c = true.
Proof.
  unfold String.leb. induction a as [|x a IH]; intros [|y b] [|z c] H1 H2; cbn [String.compare] in *; try discriminate; try reflexivity.
  destruct (Ascii.compare x y) eqn:E1; [| |discriminate H1]; destruct (Ascii.compare y z) eqn:E2; try discriminate H2.
  - apply Ascii.compare_eq_iff in E1, E2. subst. assert (Q : Ascii.compare z z = Eq) by (unfold Ascii.compare; apply N.compare_refl). rewrite Q. eapply IH; eassumption.
  - apply Ascii.compare_eq_iff in E1. subst. rewrite E2. reflexivity.
  - apply Ascii.compare_eq_iff in E2. subst. rewrite E1. reflexivity.
  - rewrite (acmp_trans_lt _ _ _ E1 E2). reflexivity.
Qed.
Lemma insert_comm a b l : fst a <> fst b -> insert_key a (insert_key b l) = insert_key b (insert_key a l).
Proof.
  intros N.
  assert (T : forall x y : string * string, fst x <> fst y -> String.leb (fst x) (fst y) = negb (String.leb (fst y) (fst x))).
  { intros x y D. destruct (String.leb (fst x) (fst y)) eqn:E1, (String.leb (fst y) (fst x)) eqn:E2; try reflexivity.
    - exfalso. apply D, String.leb_antisym; assumption.
    - destruct (String.leb_total (fst x) (fst y)); congruence. }
  induction l as [|c l IH]; cbn [insert_key].
  - rewrite (T a b N). destruct (String.leb (fst b) (fst a)); reflexivity.
  - destruct (String.leb (fst b) (fst c)) eqn:Bc, (String.leb (fst a) (fst c)) eqn:Ac; cbn [insert_key]; rewrite ?Bc, ?Ac.
    + rewrite (T a b N). destruct (String.leb (fst b) (fst a)); reflexivity.
    + destruct (String.leb (fst a) (fst b)) eqn:Ab; [|reflexivity].
      rewrite (leb_trans _ _ _ Ab Bc) in Ac. discriminate.
    + destruct (String.leb (fst b) (fst a)) eqn:Ba; [|reflexivity].
      rewrite (leb_trans _ _ _ Ba Ac) in Bc. discriminate.
    + rewrite IH. reflexivity.
Qed.
Lemma sort_canonical l l' : Permutation l l' -> NoDup (map fst l) -> sort_keys l = sort_keys l'.
Proof.
  unfold sort_keys. induction 1 as [|a l l' Pm IH|a b l|l l1 l' P1 IH1 P2 IH2]; intros N; cbn [fold_right].
  - reflexivity.
  - cbn [map] in N. inversion N; subst. rewrite IH by assumption. reflexivity.
  - apply insert_comm. cbn [map] in N. inversion N as [|x y Ni N' Q]; subst. intros E. apply Ni. left. symmetry. exact E.
  - rewrite IH1 by exact N. apply IH2. apply (Permutation_NoDup (l := map fst l)); [apply Permutation_map, P1|exact N].
Qed.
Lemma wf_perm m m1 : Permutation m m1 -> wfb (EMap m) = true -> wfb (EMap m1) = true.
Proof.
  intros Pm W. cbn [wfb] in *. apply andb_prop in W as [W W3]. apply andb_prop in W as [W1 W2].
  assert (FB : forall {A} (f : A -> bool) l l', Permutation l l' -> forallb f l = true -> forallb f l' = true).
  { intros A f l l' Q F. rewrite forallb_forall in *. intros x Hx. apply F, (Permutation_in _ (Permutation_sym Q)), Hx. }
  rewrite (FB _ _ _ _ (Permutation_map fst Pm) W2), (FB _ _ _ _ Pm W3), andb_true_r, andb_true_r.
  assert (N : NoDup (map fst m1)) by (apply (Permutation_NoDup (l := map fst m)); [apply Permutation_map, Pm|apply nodupb_ok, W1]).
  clear - N. induction N as [|x l Ni N IH]; [reflexivity|]. cbn [nodupb]. rewrite IH, andb_true_r. apply negb_true_iff.
  destruct (existsb (String.eqb x) l) eqn:Q; [|reflexivity]. apply existsb_exists in Q as (y & Hy & Ey). apply String.eqb_eq in Ey. subst. contradiction.
Qed.
Lemma marshal_reordered v : forall v', wfb v = true -> reordered v v' -> marshal v = marshal v'.
Proof.
  induction v as [|s|z|b|l IH|m IH] using eval_ind2; intros v' W R.
  1-4: inversion R; reflexivity.
  - inversion R as [v E1 E2|l0 l' F E1 E2|]; subst; [reflexivity|]. cbn [marshal]. do 2 f_equal. f_equal. cbn [wfb] in W.
    clear R. revert W IH. induction F as [|a b l l' Hab F IHF]; intros W IH; [reflexivity|]. cbn [forallb map] in *. apply andb_prop in W as [W1 W2]. inversion IH; subst. f_equal; auto.
  - inversion R as [v E1 E2| |m0 m1 m' Pm F E1 E2]; subst; [reflexivity|]. cbn [marshal]. f_equal.
    assert (N : NoDup (map fst m)). { cbn [wfb] in W. apply andb_prop in W as [W _]. apply andb_prop in W as [W _]. apply nodupb_ok, W. }
    rewrite (sort_canonical _ (map (fun kv => (fst kv, marshal (snd kv))) m1)); [|apply Permutation_map, Pm|rewrite map_map; exact N].
    f_equal. apply (wf_perm m m1 Pm) in W.
    assert (IH1 : Forall (fun kv => forall v', wfb (snd kv) = true -> reordered (snd kv) v' -> marshal (snd kv) = marshal v') m1).
    { rewrite Forall_forall in *. intros x Hx. apply IH, (Permutation_in _ (Permutation_sym Pm)), Hx. }
    cbn [wfb] in W. apply andb_prop in W as [_ W]. clear - F W IH1.
    induction F as [|[k v] [k' v'] m1 m' [Ek R] F IHF]; [reflexivity|]. cbn [map forallb fst snd] in *. apply andb_prop in W as [W1 W2]. inversion IH1; subst. f_equal; [|auto]. f_equal. auto.
Qed.
Lemma reordered_len m m' : reordered (EMap m) (EMap m') -> length m = length m'.
Proof.
  intros R. inversion R as [| |m0 m1 m2 Pm F]; subst; [reflexivity|]. rewrite (Permutation_length Pm). clear - F. induction F; [reflexivity|]. cbn [length]. f_equal. assumption.
Qed.
Lemma omit_reordered n o o' : wfo o = true -> reordered_o o o' -> omit_map n o = omit_map n o'.
Proof.
  intros W R. destruct o as [m|], o' as [m'|]; try contradiction; [|reflexivity]. cbn [reordered_o] in R. pose proof (reordered_len m m' R) as L.
  destruct m as [|kv m], m' as [|kv' m']; try discriminate L; [reflexivity|]. cbn [omit_map]. cbn [wfo] in W. rewrite (marshal_reordered _ _ W R). reflexivity.
Qed.
Lemma doc_reordered d d' : wf_doc d = true -> reordered_doc d d' -> marshal_ecs d = marshal_ecs d'.
Proof.
  intros W [R1 R2 R3 R4 R5 R6 R7 R8]. unfold wf_doc in W. repeat (apply andb_prop in W as [W ?]).
  repeat match goal with H : Forall2 _ (_ :: _) (_ :: _) |- _ => inversion H; subst; clear H end.
  unfold marshal_ecs. rewrite R2, R3, R4, R7.
  repeat match goal with Hr : reordered_o ?o _, Hw : wfo ?o = true |- _ => match goal with |- context [omit_map ?n o] => rewrite (omit_reordered n _ _ Hw Hr); clear Hr end end.
  rewrite (marshal_reordered _ _ H10 R5).
  replace (match e_event d with Some m => marshal (EMap m) | None => "null" end) with (match e_event d' with Some m => marshal (EMap m) | None => "null" end).
  2: { destruct (e_event d), (e_event d'); try contradiction; [|reflexivity]. symmetry. apply marshal_reordered; assumption. }
  replace (omit_list "service" (map EMap (e_service d))) with (omit_list "service" (map EMap (e_service d'))); [reflexivity|].
  assert (Q : map marshal (map EMap (e_service d)) = map marshal (map EMap (e_service d'))).
  { match goal with H : forallb _ (e_service d) = true |- _ => revert H end. clear - R6. induction R6 as [|m m' l l' R F IH]; intros W; [reflexivity|].
    cbn [map forallb] in *. apply andb_prop in W as [W1 W2]. f_equal; [apply (marshal_reordered _ _ W1 R)|auto]. }
  destruct R6 as [|m m' l l' R F]; [reflexivity|]. cbn [map omit_list marshal] in *. rewrite Q. reflexivity.
Qed.

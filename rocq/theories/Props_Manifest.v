(** * Property C99: the configuration the plugins get. *)
From Coq Require Import Lia.
From Verif Require Import GoBase GoFacts PluginModel SpecPlugin PluginFacts ExportModel SpecExport ExportFacts2 ManifestModel SpecManifest.

Lemma text_of_mtext v : text_of v (mtext v). Proof. now destruct v. Qed.
Lemma env_value_spec k env : has_byte "="%char k = false -> variable k env (env_value k env).
Proof.
  intros Hk. induction env as [|e env IH]; cbn [env_value]; [right; split; [reflexivity|intros ? ? []]|].
  assert (Q : forall w, e = (k ++ "=" ++ w)%string <-> cut_at "="%char e = Some (k, w)).
  { intros w. rewrite cut_at_spec. split; [intros ->; auto|intros [-> _]; reflexivity]. }
  assert (Skip : (forall w, e <> (k ++ "=" ++ w)%string) -> variable k (e :: env) (env_value k env)).
  { intros N. destruct IH as [(e1 & e2 & E & F)|[E F]].
    - left. exists (e :: e1), e2. rewrite E at 1. split; [reflexivity|]. intros y w [<-|Hy]; [apply N|exact (F _ _ Hy)].
    - right. split; [exact E|]. intros y w [<-|Hy]; [apply N|exact (F _ _ Hy)]. }
  destruct (cut_at "="%char e) as [[n v]|] eqn:E.
  - destruct (seqb n k) eqn:En.
    + apply seqb_eq in En as ->. left. exists [], env. split; [|intros ? ? []]. cbn [List.app]. f_equal. now apply Q.
    + apply Skip. intros w Hw. apply Q in Hw. injection Hw as -> _. rewrite seqb_refl in En. discriminate.
  - apply Skip. intros w Hw. apply Q in Hw. discriminate.
Qed.
Lemma add_item_get k v c a : mget a (add_item k v c) = match mget ProcConfig c with Some _ => if seqb a k then Some (VStr (mtext v)) else mget a c | None => mget a c end.
Proof. unfold add_item. destruct (mget ProcConfig c); [apply mget_mset|reflexivity]. Qed.
Lemma set_manifest_at mf env p i : nth_error (set_manifest mf env p) i = option_map (fun c =>
  add_item "cluster.id" (MStr (env_value "CLUSTER_ID" env)) (add_item "buildnumber" (mf_build mf) (add_item "ecsversion" (mf_ecs mf)
    (add_item "jsonschemaversion" (mf_schema mf) (add_item "version" (mf_version mf) c))))) (nth_error p i).
Proof. unfold set_manifest, add_global. rewrite !map_map. revert i. induction p as [|c p IH]; intros [|i]; try reflexivity. apply IH. Qed.
Lemma item_proc k v c : seqb ProcConfig k = false -> mget ProcConfig (add_item k v c) = mget ProcConfig c.
Proof. intros H. rewrite add_item_get, H. now destruct (mget ProcConfig c). Qed.
Lemma manifest_at mf env c c' : c' = add_item "cluster.id" (MStr (env_value "CLUSTER_ID" env)) (add_item "buildnumber" (mf_build mf) (add_item "ecsversion" (mf_ecs mf)
    (add_item "jsonschemaversion" (mf_schema mf) (add_item "version" (mf_version mf) c)))) ->
  match mget ProcConfig c with
  | Some _ => as_built mf env c' /\ forall a, ~ In a reserved -> mget a c' = mget a c
  | None => forall a, mget a c' = mget a c
  end.
Proof.
  intros ->. destruct (mget ProcConfig c) as [q|] eqn:E.
  - assert (G : forall a k v d, mget ProcConfig d = Some q -> mget a (add_item k v d) = if seqb a k then Some (VStr (mtext v)) else mget a d) by (intros a k v d H; now rewrite add_item_get, H).
    assert (K : forall k v d, seqb ProcConfig k = false -> mget ProcConfig d = Some q -> mget ProcConfig (add_item k v d) = Some q) by (intros k v d H1 H2; now rewrite item_proc).
    split.
    + repeat split; (eexists; split; [rewrite !G by (repeat (apply K; [reflexivity|]); exact E); cbn; reflexivity|]); try apply text_of_mtext. apply env_value_spec. reflexivity.
    + intros a Na. rewrite !G by (repeat (apply K; [reflexivity|]); exact E).
      assert (N : forall k, In k reserved -> seqb a k = false) by (intros k Hk; apply seqb_neq; intros ->; exact (Na Hk)).
      rewrite !N by (cbn; tauto). reflexivity.
  - intros a. assert (G : forall k v d, mget ProcConfig d = None -> add_item k v d = d) by (intros k v d H; unfold add_item; now rewrite H).
    rewrite (G "version" _ c E), (G "jsonschemaversion" _ c E), (G "ecsversion" _ c E), (G "buildnumber" _ c E), (G "cluster.id" _ c E). reflexivity.
Qed.

(** C99.  Every processor of the pipeline is initialized with the version, the schema versions and the
    build number of the build and the cluster identifier of the environment variable CLUSTER_ID (its
    first entry; empty without one), whatever the pipeline file and other variables say; every other
    attribute is the one the environment sets for this processor, else the one of the file.  An entry
    without processor is left alone. *)
Theorem C99_configuration :
  forall mf env p, env_ok env -> exists p', prepare mf env p = Ok p' /\ length p' = length p /\
  forall i c, nth_error p i = Some c -> exists c', nth_error p' i = Some c' /\
  match mget "processor" c with
  | Some (VStr proc) => as_built mf env c' /\
      forall a, ~ In a reserved -> (exists v, env_sets env proc a v /\ mget a c' = Some (VStr v)) \/ ((forall v, ~ env_sets env proc a v) /\ mget a c' = mget a c)
  | Some _ => as_built mf env c' /\ forall a, ~ In a reserved -> mget a c' = mget a c
  | None => forall a, mget a c' = mget a c
  end.
Proof.
  intros mf env p Hok. destruct (env_overrides env p Hok) as (p1 & E & L & Q). exists (set_manifest mf env p1). unfold prepare. rewrite E. cbn [rbind].
  split; [reflexivity|]. split; [unfold set_manifest, add_global; rewrite !map_length; exact L|].
  intros i c Hi. change "processor" with ProcConfig. destruct (Q i c Hi) as (c1 & H1 & A). rewrite set_manifest_at, H1. cbn [option_map]. eexists. split; [reflexivity|].
  pose proof (manifest_at mf env c1 _ eq_refl) as B. pose proof (A ProcConfig) as Ap.
  destruct (mget ProcConfig c) as [[proc|l|]|] eqn:Ec.
  - assert (Hp : exists q, mget ProcConfig c1 = Some q) by (destruct Ap as [(v & _ & ->)|(_ & ->)]; eauto). destruct Hp as (q & Hq). rewrite Hq in B. destruct B as [B1 B2]. split; [exact B1|].
    intros a Na. rewrite (B2 a Na). exact (A a).
  - rewrite Ap in B. destruct B as [B1 B2]. split; [exact B1|]. intros a Na. rewrite (B2 a Na). exact (A a).
  - rewrite Ap in B. destruct B as [B1 B2]. split; [exact B1|]. intros a Na. rewrite (B2 a Na). exact (A a).
  - rewrite Ap in B. intros a. rewrite (B a). exact (A a).
Qed.
Print Assumptions C99_configuration.

(** The exporter therefore runs with the versions of its build, which is what its records carry. *)
Theorem C99_exporter_versions :
  forall mf env p p' i c c' x o cfg, env_ok env -> prepare mf env p = Ok p' -> nth_error p i = Some c -> nth_error p' i = Some c' ->
  mget "processor" c <> None -> same_texts c' x -> create_xconfig o x = Some cfg ->
  text_of (mf_version mf) (xc_version cfg) /\ text_of (mf_schema mf) (xc_schema cfg) /\ text_of (mf_ecs mf) (xc_ecs cfg) /\
  text_of (mf_build mf) (xc_build cfg) /\ variable "CLUSTER_ID" env (xc_cluster cfg).
Proof.
  intros mf env p p' i c c' x o cfg Hok Hp Hi Hi' Hn Hx Hc. change "processor" with ProcConfig in Hn.
  destruct (C99_configuration mf env p Hok) as (p2 & E & _ & Q). rewrite Hp in E. injection E as <-. destruct (Q i c Hi) as (c2 & H2 & B). change "processor" with ProcConfig in B. rewrite Hi' in H2. injection H2 as <-.
  assert (A : as_built mf env c') by (destruct (mget ProcConfig c) as [[]|]; [apply B|apply B|apply B|now destruct Hn]). clear B Q.
  pose proof (config_values _ _ _ Hc) as V. unfold configured in V. destruct V as (_ & _ & _ & _ & V1 & V2 & V3 & V4 & V5 & _).
  destruct A as (A1 & A2 & A3 & A4 & A5).
  assert (T : forall k d v (K : string -> Prop), (exists s, mget k c' = Some (VStr s) /\ K s) -> text_opt x k d v -> K v).
  { intros k d v K (s & Hs & Ks) [Ho|[Hno _]]; apply Hx in Hs.
    - unfold option_of in *. rewrite Ho in Hs. injection Hs as <-. exact Ks.
    - destruct (Hno _ Hs). }
  repeat split; eapply T; eassumption.
Qed.
Print Assumptions C99_exporter_versions.

(** Not every attribute can be set from the environment: none whose name has an upper case letter or
    an underscore, such as those of the bulk indexer. *)
Lemma smap_bytes f s a u v : smap f s = (u ++ String a v)%string -> exists u' b v', s = (u' ++ String b v')%string /\ f b = a.
Proof.
  revert u. induction s as [|b s IH]; intros u H; [destruct u; discriminate|]. destruct u as [|y u]; cbn in H; injection H as H1 H2; [exists "", b, s; auto|].
  destruct (IH u H2) as (u' & z & v' & -> & Hz). exists (String b u'), z, v'. auto.
Qed.
Lemma lower_reach b : (Nat.leb 65 (nat_of_ascii (lower_byte b)) && Nat.leb (nat_of_ascii (lower_byte b)) 90)%bool = false.
Proof. destruct b as [[] [] [] [] [] [] [] []]; reflexivity. Qed.
Theorem C99_any_attribute_refuted :
  forall mf env p p' i c c' proc u a v, env_ok env -> prepare mf env p = Ok p' -> nth_error p i = Some c -> nth_error p' i = Some c' ->
  mget "processor" c = Some (VStr proc) -> unreachable_byte a = true ->
  mget (u ++ String a v) c' = mget (u ++ String a v) c.
Proof.
  intros mf env p p' i c c' proc u a v Hok Hp Hi Hi' Hc Ha.
  destruct (C99_configuration mf env p Hok) as (p2 & E & _ & Q). rewrite Hp in E. injection E as <-. destruct (Q i c Hi) as (c2 & H2 & B). rewrite Hi' in H2. injection H2 as <-.
  rewrite Hc in B. destruct B as [_ B]. destruct (B (u ++ String a v)%string) as [(w & (e1 & name & e2 & _ & _ & (suffix & Hl & _ & Hd) & _) & _)|(_ & G)]; [| |exact G].
  - intros Hr. assert (Z : forall k, In k reserved -> k <> (u ++ String a v)%string).
    { intros k Hk Ek. assert (F : forallb (fun b => negb (unreachable_byte b)) (list_ascii_of_string k) = true) by (cbn in Hk; repeat (destruct Hk as [<-|Hk]; [reflexivity|]); destruct Hk).
      rewrite forallb_forall in F. assert (In a (list_ascii_of_string k)).
      { rewrite Ek. clear. induction u; cbn; auto. }
      specialize (F _ H). rewrite Ha in F. discriminate. }
    exact (Z _ Hr eq_refl).
  - exfalso. unfold dots in Hd. symmetry in Hd. destruct (smap_bytes _ _ _ _ _ Hd) as (u' & b & v' & Es & Eb).
    unfold unreachable_byte in Ha. apply orb_true_iff in Ha as [Ha|Ha].
    + destruct (Ascii.eqb b "_"%char) eqn:Ey; [subst a; discriminate Ha|]. subst a.
      assert (Hn : exists u2 n v2, name = (u2 ++ String n v2)%string /\ lower_byte n = b).
      { rewrite Es in Hl. apply (smap_bytes _ name b (proc ++ "_" ++ u') v'). rewrite !sapp_assoc. exact Hl. }
      destruct Hn as (u2 & n & v2 & _ & <-). rewrite lower_reach in Ha. discriminate.
    + apply Ascii.eqb_eq in Ha. subst a. destruct (Ascii.eqb b "_"%char) eqn:Ey; [discriminate|]. subst b. discriminate.
Qed.
Print Assumptions C99_any_attribute_refuted.

(** Non-vacuity: an exporter, the cluster variable, a variable that tries to set the cluster of the
    exporter alone, one for a settable attribute and one for the workers of the bulk indexer. *)
Definition mx_mf := mkManifest (MStr "0.6.0") (MInt 4) (MStr "1.7.0") (MStr "12").
Definition mx_env : list string := ["CLUSTER_ID=c1"; "EXPORTER_CLUSTER_ID=x"; "EXPORTER_FILE_PATH=/tmp/o=1"; "EXPORTER_ES_BULK_NUMWORKERS=4"; "CLUSTER_ID=c2"].
Definition mx_conf : conf := [("processor", VStr "exporter"); ("in", VStr "evt eventchan"); ("file.path", VStr "/a"); ("es.bulk.numWorkers", VStr "1"); ("version", VStr "9"); ("kafka.config", VOther); ("kafka.topic", VStr "t")]%string.
Definition mx_pipe : list conf := [[("handler", VStr "h")]; mx_conf]%string.
Definition mx_get (k : string) : option string :=
  match prepare mx_mf mx_env mx_pipe with Ok [_; c] => match mget k c with Some (VStr v) => Some v | _ => None end | _ => None end.
Example C99_case : env_ok mx_env /\ (exists p', prepare mx_mf mx_env mx_pipe = Ok p') /\
  map mx_get ["version"; "jsonschemaversion"; "ecsversion"; "buildnumber"; "cluster.id"; "file.path"; "es.bulk.numWorkers"; "es.bulk.numworkers"]
    = [Some "0.6.0"; Some "4"; Some "1.7.0"; Some "12"; Some "c1"; Some "/tmp/o=1"; Some "1"; Some "4"]%string /\
  (exists c0, option_map (fun l => nth_error l 0) (match prepare mx_mf mx_env mx_pipe with Ok l => Some l | _ => None end) = Some (Some c0) /\ c0 = [("handler", VStr "h")]%string) /\
  unreachable_byte "W"%char = true.
Proof.
  split; [intros e H; repeat (destruct H as [<-|H]; [reflexivity|]); destruct H|]. split; [eexists; vm_compute; reflexivity|].
  split; [vm_compute; reflexivity|]. split; [|reflexivity]. eexists. split; vm_compute; reflexivity.
Qed.
(** … and an exporter accepts the configuration it gets from there. *)
Definition to_x (c : conf) : xconf := map (fun kv => (fst kv, match snd kv with VStr s => XStr s | _ => XMap ["bootstrap.servers"%string] end)) c.
Lemma to_x_same c : same_texts c (to_x c).
Proof.
  intros k v. unfold option_of. induction c as [|[k' w] c IH]; [split; discriminate|]. cbn [to_x map fst snd]. change (map _ c) with (to_x c).
  cbn [mget]. destruct (seqb k' k) eqn:E; rewrite ?(seqb_sym k k'), ?E; [|exact IH]. destruct w; split; intros H; try discriminate; now injection H as ->.
Qed.
Example C99_exporter_case : forall o, exists p' c' cfg, prepare mx_mf mx_env mx_pipe = Ok p' /\ nth_error p' 1 = Some c' /\ same_texts c' (to_x c') /\
  create_xconfig o (to_x c') = Some cfg /\ xc_cluster cfg = "c1"%string /\ xc_schema cfg = "4"%string /\ xc_version cfg = "0.6.0"%string.
Proof.
  intros o. eexists. eexists. eexists. split; [vm_compute; reflexivity|]. split; [reflexivity|]. split; [apply to_x_same|].
  split; [vm_compute; reflexivity|]. repeat split.
Qed.

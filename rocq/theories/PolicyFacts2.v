(** * PolicyFacts2: more proofs about the flatrecord source. *)
From Coq Require Import Lia ZifyBool ZifyNat.
From Verif Require Import GoBase GoFacts Predicates SpecStrings FlatRecord SpecContext FieldTables PolicyFacts.

Lemma int_trichotomy :
  forall lt le gt ge eq,
  int_op OpLt = Some lt -> int_op OpLEq = Some le -> int_op OpGt = Some gt -> int_op OpGEq = Some ge ->
  int_op OpEq = Some eq ->
  forall l r,
    le l r = negb (gt l r) /\ ge l r = negb (lt l r) /\
    (lt l r = true /\ eq l r = false /\ gt l r = false \/
     lt l r = false /\ eq l r = true /\ gt l r = false \/
     lt l r = false /\ eq l r = false /\ gt l r = true).
Proof. intros lt le gt ge eq H1 H2 H3 H4 H5 l r. inversion H1; inversion H2; inversion H3; inversion H4; inversion H5. lia. Qed.

Lemma get_any_spec sl a src :
  (forall s, In s sl -> sl_src s <> src) /\ get_any sl a src = ANil \/
  exists pre s post, sl = pre ++ s :: post /\ (forall s', In s' pre -> sl_src s' <> src) /\
                     sl_src s = src /\ get_any sl a src = sl_anys s a.
Proof.
  induction sl as [|s sl IH]; simpl.
  - left; split; [tauto|reflexivity].
  - destruct (source_beq (sl_src s) src) eqn:E.
    + right. exists [], s, sl. apply internal_source_dec_bl in E. repeat split; auto; simpl; tauto.
    + assert (Hne : sl_src s <> src) by (intros H; apply internal_source_dec_lb in H; congruence).
      destruct IH as [[H1 H2]|(pre & s0 & post & H1 & H2 & H3 & H4)].
      * left; split; auto. intros s' [<-|H]; auto.
      * right. exists (s :: pre), s0, post. subst sl. split; [reflexivity|]. split; [|auto].
        intros s' [<-|H]; auto.
Qed.

Lemma parent_lookup :
  forall X src fr,
  (forall p0 p ps, fr_ptree fr = Some (p0 :: p :: ps) ->
     run_fmap X (MCached src PProcExe) fr = VStr (p_exe p) /\
     run_fmap X (MCached src PProcArgs) fr = VStr (p_exeargs p) /\
     run_fmap X (MCached src PProcUser) fr = VStr (p_username p) /\
     run_fmap X (MCached src PProcGroup) fr = VStr (p_groupname p) /\
     run_fmap X (MCached src PProcUID) fr = VInt32 (p_uid p) /\
     run_fmap X (MCached src PProcGID) fr = VInt32 (p_gid p) /\
     run_fmap X (MCached src PProcTTY) fr = VBool (p_tty p) /\
     run_fmap X (MCached src PProcEntry) fr = VBool (p_entry p)) /\
  (forall ps, fr_ptree fr = Some ps ->
     run_fmap X (MCached src ProcAExe) fr = VStr (join "," (map p_exe ps)) /\
     run_fmap X (MCached src ProcAPID) fr = VStr (join "," (map (fun p => format_int (hpid (p_oid p))) ps))) /\
  ((fr_ptree fr = None \/ fr_ptree fr = Some [] \/ exists p, fr_ptree fr = Some [p]) ->
     run_fmap X (MCached src PProcExe) fr = VStr "" /\ run_fmap X (MCached src PProcUser) fr = VStr "" /\
     run_fmap X (MCached src PProcUID) fr = VInt 0 /\ run_fmap X (MCached src PProcGID) fr = VInt 0).
Proof.
  intros X src fr. unfold run_fmap, get_cached. split; [|split].
  - intros p0 p ps ->. repeat split.
  - intros ps ->. repeat split.
  - intros [->|[->|[p ->]]]; repeat split.
Qed.

(** ** contexts *)
Section Ctx.
Context {Rule : Type}.
Lemma run_rules ops : forall c : context Rule, ctx_getrules (fold_left ctx_step ops c) = ctx_getrules c ++ rules_of ops.
Proof.
  induction ops as [|o ops IH]; intros c; cbn [fold_left rules_of]; [now rewrite app_nil_r|]. rewrite IH.
  destruct o as [l|l|t h|b|l]; cbn [ctx_step rules_of].
  - destruct (ctx_addrules_spec l c) as (-> & _). now rewrite app_assoc.
  - destruct (ctx_addtags_spec l c) as (H1 & -> & _). reflexivity.
  - destruct (ctx_sethashes_spec t h c) as (_ & _ & -> & _). reflexivity.
  - reflexivity.
  - reflexivity.
Qed.
Lemma run_tags ops : forall c : context Rule, ctx_gettags (fold_left ctx_step ops c) = tags_after (ctx_gettags c) ops.
Proof.
  induction ops as [|o ops IH]; intros c; cbn [fold_left tags_after]; [reflexivity|]. rewrite IH.
  destruct o as [l|l|t h|b|l]; cbn [ctx_step tags_after].
  - destruct (ctx_addrules_spec l c) as (_ & -> & _). reflexivity.
  - destruct (ctx_addtags_spec l c) as (-> & _). reflexivity.
  - destruct (ctx_sethashes_spec t h c) as (_ & _ & _ & ->). reflexivity.
  - reflexivity.
  - reflexivity.
Qed.
Lemma run_hash t ops : forall c : context Rule, ctx_gethash t (fold_left ctx_step ops c) =
  match ctx_gethash t c with Some h => Some h | None => first_hash t ops end.
Proof.
  induction ops as [|o ops IH]; intros c; cbn [fold_left first_hash]; [now destruct (ctx_gethash t c)|]. rewrite IH.
  destruct o as [l|l|t' h|b|l]; cbn [ctx_step first_hash].
  - destruct (ctx_addrules_spec l c) as (_ & _ & -> & _). reflexivity.
  - destruct (ctx_addtags_spec l c) as (_ & _ & -> & _). reflexivity.
  - destruct (ctx_sethashes_spec t' h c) as (H1 & H2 & _). destruct (hashtype_eqb t t') eqn:E.
    + assert (t = t') as <- by (destruct t, t'; simpl in E; congruence). rewrite H1. now destruct (ctx_gethash t c).
    + rewrite H2 by (intros ->; destruct t'; discriminate). reflexivity.
  - reflexivity.
  - reflexivity.
Qed.
Lemma run_alert ops : forall c : context Rule, ctx_isalert (fold_left ctx_step ops c) = alert_after (ctx_isalert c) ops.
Proof.
  induction ops as [|o ops IH]; intros c; cbn [fold_left alert_after]; [reflexivity|]. rewrite IH.
  destruct o as [l|l|t h|b|l]; cbn [ctx_step alert_after]; try reflexivity.
  f_equal. unfold ctx_sethashes, ctx_isalert. destruct (cx_hashes c) as [[p f]|]; reflexivity.
Qed.
Lemma ctx_run_spec (ops : list (ctx_op Rule)) :
  ctx_getrules (ctx_run ops) = rules_of ops /\
  ctx_gettags (ctx_run ops) = tags_of ops /\
  (forall t, ctx_gethash t (ctx_run ops) = first_hash t ops) /\
  ctx_isalert (ctx_run ops) = alert_after false ops.
Proof.
  unfold ctx_run. split; [|split; [|split]].
  - now rewrite run_rules.
  - now rewrite run_tags.
  - intros t. now rewrite run_hash.
  - now rewrite run_alert.
Qed.
End Ctx.

(** ** numeric and literal readings *)
Lemma parent_uid_numeric_zero X fr a :
  In a ["sf.pproc.uid"; "sf.pproc.gid"; "proc.puid"; "proc.pgid"] -> map_int X mappers a fr = 0%Z.
Proof.
  intros H. unfold map_int, map_attr.
  assert (E : exists c, mget a mappers = Some (MCached SYSFLOW_SRC c) /\ (c = PProcUID \/ c = PProcGID)
              /\ parse_int64 a = None).
  { simpl in H. repeat destruct H as [<-|H]; try destruct H; eexists; (split; [vm_compute; reflexivity|]);
      (split; [auto|reflexivity]). }
  destruct E as (c & -> & Hc & ->). unfold run_fmap, get_cached.
  destruct (fr_ptree fr) as [[|p0 [|p ps]]|]; destruct Hc; subst c; reflexivity.
Qed.

Lemma int_reading X fr attr src a : mget attr mappers = Some (MInt src a) ->
  map_int X mappers attr fr = get_int (fr_slots fr) a src.
Proof. intros H. unfold map_int, map_attr. rewrite H. reflexivity. Qed.

Lemma mget_In {A} k (m : gomap A) v : mget k m = Some v -> In k (map fst m).
Proof.
  induction m as [|[k' v'] m IH]; simpl; [discriminate|].
  destruct (seqb k k') eqn:E; [apply seqb_eq in E; auto|]. auto.
Qed.

Lemma mappers_not_numeric k : In k (map fst mappers) -> parse_int64 k = None.
Proof.
  assert (H : forallb (fun k => match parse_int64 k with None => true | Some _ => false end) (map fst mappers) = true)
    by (vm_compute; reflexivity).
  rewrite forallb_forall in H. intros Hk. specialize (H k Hk). destruct (parse_int64 k); congruence.
Qed.

Lemma int_literal_reading X fr z : in_int64 z = true -> map_int X mappers (format_int z) fr = z.
Proof.
  intros Hz. pose proof (parse_format_int z Hz) as Hp. unfold map_int, map_attr.
  destruct (mget (format_int z) mappers) eqn:E.
  - apply mget_In, mappers_not_numeric in E. congruence.
  - rewrite Hp. reflexivity.
Qed.

Lemma literal_reading X M lit fr m :
  mget lit M = None -> (forall a b, lit <> (a ++ "[" ++ b)%string) -> map_str X M lit = Ok m ->
  m fr = trim_bounding_quotes lit.
Proof.
  intros Hm Hn. unfold map_str, split_path.
  destruct (cut_at "["%char lit) as [[b p]|] eqn:E.
  - apply cut_at_spec in E as [E _]. exfalso. apply (Hn b p). exact E.
  - simpl. intros H; inversion H; subst m. unfold render, map_attr. rewrite Hm. reflexivity.
Qed.

Lemma bracket_literal X rest fr m : map_str X mappers ("[" ++ rest) = Ok m -> m fr = "".
Proof.
  unfold map_str, split_path. change (cut_at "["%char ("[" ++ rest)) with (Some ("", rest)). cbv beta iota.
  assert (E : mhas "" mappers = false) by (vm_compute; reflexivity). rewrite E.
  cbv beta iota delta [rbind]. intros H.
  apply (f_equal (fun r => match r with Ok f => f fr | _ => "" end)) in H. cbv beta iota in H. rewrite <- H.
  unfold render, map_attr.
  assert (E2 : mget "" mappers = None) by (vm_compute; reflexivity). rewrite E2. reflexivity.
Qed.

(** ** names and command lines *)
Lemma srev_nil s : srev s = "" -> s = "".
Proof. intros H. rewrite <- (srev_invol s), H. reflexivity. Qed.
Lemma slashes_app a b : slashes a -> slashes b -> slashes (a ++ b).
Proof. induction a as [|c a IH]; cbn; [auto|]. intros [H1 H2] Hb. auto. Qed.
Lemma slashes_rev s : slashes s -> slashes (srev s).
Proof. induction s as [|c s IH]; [auto|]. cbn [slashes]. intros [H1 H2]. rewrite srev_cons. apply slashes_app; cbn; auto. Qed.
Lemma slash_free_app a b : slash_free a -> slash_free b -> slash_free (a ++ b).
Proof. induction a as [|c a IH]; cbn; [auto|]. intros [H1 H2] Hb. auto. Qed.
Lemma slash_free_rev s : slash_free s -> slash_free (srev s).
Proof. induction s as [|c s IH]; [auto|]. cbn [slash_free]. intros [H1 H2]. rewrite srev_cons. apply slash_free_app; cbn; auto. Qed.
Lemma drop_slashes_form s : exists sl, slashes sl /\ s = (sl ++ drop_slashes s)%string /\
  match drop_slashes s with String a _ => a <> "/"%char | _ => True end.
Proof.
  induction s as [|c s (sl & H1 & H2 & H3)]; [exists ""; repeat split|]. cbn [drop_slashes].
  destruct (Ascii.eqb c "/") eqn:E.
  - apply Ascii.eqb_eq in E as ->. exists (String "/" sl). cbn. rewrite <- H2. auto.
  - apply Ascii.eqb_neq in E. exists "". cbn. auto.
Qed.
Lemma take_noslash_form s : exists r, s = (take_noslash s ++ r)%string /\ slash_free (take_noslash s) /\
  (r = "" \/ exists r', r = String "/" r').
Proof.
  induction s as [|c s (r & H1 & H2 & H3)]; [exists ""; cbn; auto|]. cbn [take_noslash].
  destruct (Ascii.eqb c "/") eqn:E.
  - apply Ascii.eqb_eq in E as ->. exists (String "/" s). cbn. eauto.
  - apply Ascii.eqb_neq in E. exists r. cbn. rewrite <- H1. auto.
Qed.
Lemma base_name_spec path : file_name path (base_name path).
Proof.
  unfold file_name, base_name. destruct path as [|c path']; [left; auto|]. right. remember (String c path') as path eqn:Ep.
  destruct (drop_slashes_form (srev path)) as (sl & Hs & E1 & H1).
  destruct (take_noslash_form (drop_slashes (srev path))) as (r & E2 & H2 & H3).
  destruct (take_noslash (drop_slashes (srev path))) as [|a t] eqn:Et.
  - left. assert (Ed : drop_slashes (srev path) = "").
    { destruct (drop_slashes (srev path)) as [|a d]; [reflexivity|]. cbn [take_noslash] in Et.
      apply Ascii.eqb_neq in H1. now rewrite H1 in Et. }
    split; [now subst path|]. split; [|reflexivity]. rewrite Ed, sapp_nil_r in E1. rewrite <- (srev_invol path), E1.
    now apply slashes_rev.
  - right. exists (srev r), (srev sl). rewrite <- (srev_invol path), E1, E2, !srev_concat, sapp_assoc.
    split; [reflexivity|]. split; [now apply slashes_rev|]. split.
    { intros H. apply srev_nil in H. discriminate. }
    split; [now apply slash_free_rev|]. destruct H3 as [->|(r' & ->)]; [now left|]. right. rewrite srev_cons. eauto.
Qed.
Lemma cmdline_spec p : command_line (p_exe p) (p_exeargs p) (cmdline p).
Proof.
  unfold command_line, cmdline. destruct (p_exeargs p) as [|c s]; [left; auto|]. right. split; [discriminate|reflexivity].
Qed.
Lemma names_lookup X src fr :
  (forall p0 p ps, fr_ptree fr = Some (p0 :: p :: ps) ->
     (exists n, run_fmap X (MCached src PProcName) fr = VStr n /\ file_name (p_exe p) n) /\
     (exists l, run_fmap X (MCached src PProcCmdLine) fr = VStr l /\ command_line (p_exe p) (p_exeargs p) l)) /\
  (forall ps, fr_ptree fr = Some ps ->
     (exists ns, run_fmap X (MCached src ProcAName) fr = VStr (join "," ns) /\ Forall2 (fun p n => file_name (p_exe p) n) ps ns) /\
     (exists ls, run_fmap X (MCached src ProcACmdLine) fr = VStr (join "," ls) /\
        Forall2 (fun p l => command_line (p_exe p) (p_exeargs p) l) ps ls)).
Proof.
  unfold run_fmap, get_cached. split.
  - intros p0 p ps ->. split; [exists (base_name (p_exe p))|exists (cmdline p)]; (split; [reflexivity|]).
    + apply base_name_spec.
    + apply cmdline_spec.
  - intros ps ->. split; [exists (map (fun p => base_name (p_exe p)) ps)|exists (map cmdline ps)]; (split; [reflexivity|]).
    + induction ps; cbn; constructor; auto using base_name_spec.
    + induction ps; cbn; constructor; auto using cmdline_spec.
Qed.

(** ** rendering of attributes *)
Lemma plain_render X M attr v fr m : mget attr M = Some v -> (forall a b, attr <> (a ++ "[" ++ b)%string) -> map_str X M attr = Ok m ->
  m fr = render X attr None (run_fmap X v fr).
Proof.
  intros Hm Hn. unfold map_str, split_path. destruct (cut_at "["%char attr) as [[b p]|] eqn:E.
  - apply cut_at_spec in E as [E _]. exfalso. apply (Hn b p). exact E.
  - simpl. intros H; inversion H; subst m. unfold map_attr. now rewrite Hm.
Qed.
Lemma attr_render X M attr v fr m : mget attr M = Some v -> (forall a b, attr <> (a ++ "[" ++ b)%string) -> map_str X M attr = Ok m ->
  let flag := attr = "sf.proc.tty" \/ attr = "sf.proc.entry" in
  (forall s, run_fmap X v fr = VStr s -> m fr = trim_bounding_quotes s) /\
  (forall z, run_fmap X v fr = VInt z -> ~ flag -> m fr = format_int z) /\
  (forall z, run_fmap X v fr = VInt z -> flag -> (z = 0%Z /\ m fr = "false") \/ (z <> 0%Z /\ m fr = "true")) /\
  (forall z, run_fmap X v fr = VInt32 z -> m fr = format_int z) /\
  (run_fmap X v fr = VBool true -> m fr = "true") /\ (run_fmap X v fr = VBool false -> m fr = "false").
Proof.
  intros Hm Hn Hs flag. rewrite (plain_render X M attr v fr m Hm Hn Hs).
  assert (F : seqb attr SF_PROC_TTY || seqb attr SF_PROC_ENTRY = true <-> flag).
  { unfold flag. rewrite orb_true_iff, !seqb_eq. reflexivity. }
  repeat split; try (intros s ->; reflexivity); try (intros ->; reflexivity).
  - intros z ->. intros NF. cbn [render]. destruct (seqb attr SF_PROC_TTY || seqb attr SF_PROC_ENTRY); [|reflexivity].
    exfalso. apply NF, F. reflexivity.
  - intros z ->. intros Hf. apply F in Hf. cbn [render]. rewrite Hf. destruct (Z.eqb_spec z 0); [left|right]; auto.
Qed.
Lemma path_render X M b v path fr s m : mget b M = Some v -> (forall x y, b <> (x ++ "[" ++ y)%string) ->
  run_fmap X v fr = VStr s -> s <> "" -> path <> "" -> map_str X M (b ++ "[" ++ path ++ "]") = Ok m ->
  m fr = x_gjson X s path.
Proof.
  intros Hm Hn Hv Hs Hp. unfold map_str, split_path.
  assert (E : cut_at "["%char (b ++ "[" ++ path ++ "]") = Some (b, (path ++ "]")%string)).
  { apply cut_at_spec. split; [reflexivity|]. apply cut_at_none. destruct (cut_at "["%char b) as [[x y]|] eqn:E; [|reflexivity].
    apply cut_at_spec in E as [E _]. exfalso. now apply (Hn x y). }
  rewrite E. assert (Hh : mhas b M = true) by (unfold mhas; now rewrite Hm). rewrite Hh.
  assert (Hl : stake (slen (path ++ "]") - 1) (path ++ "]") = path).
  { rewrite slen_app. change (slen "]") with 1. rewrite Nat.add_sub. now apply stake_app. }
  destruct (path ++ "]")%string as [|c q] eqn:Eq; [destruct path; discriminate|]. rewrite <- Eq in *. rewrite Hl.
  cbn [rbind]. intros [= <-]. unfold map_attr. rewrite Hm, Hv. cbn [render].
  assert (N : forall t, t <> "" -> negb (seqb t "") = true).
  { intros t Ht. apply negb_true_iff, not_true_is_false. intros Q. apply seqb_eq in Q. contradiction. }
  now rewrite (N s Hs), (N path Hp).
Qed.

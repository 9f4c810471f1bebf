(** * Props_OtelEdit: C118, what editing a policy changes for OpenTelemetry logs. *)
From Coq Require Import Permutation.
From Verif Require Import GoBase GoFacts Predicates FalcoModel SpecFalco SigmaModel EngineModel SpecEngine OtelModel SpecOtel OtelEngine SpecOtelEngine
  PoolModel SpecPool PoolFacts4 MonitorModel SpecMonitor GrammarModel GrammarParser LexerModel SpecLexer LexFast InitModel SpecInit InitFacts Props_Grammar Props_Init Props_OtelEngine
  SpecEdit EditFacts Props_Edit SpecOtelEdit OtelEditFacts.

Section P.
Variable F : Type.
Variable parse_float : string -> option F.
Variables deq dlt dle : F -> F -> bool.
Variable regcomp : string -> option (string -> string).
Variable enum : logs F -> rule (logs F) -> list string -> list string.
Variables (pmatch : string -> string -> bool) (ord : srule -> list nat -> list (string * search)) (n : nat).
Notation o_compared := (o_compared F parse_float deq dlt dle regcomp enum pmatch ord n).
Notation o_compared_runs := (o_compared_runs F parse_float deq dlt dle regcomp enum pmatch ord n).
Notation o_rule_added := (o_rule_added F parse_float deq dlt dle).
Notation o_filter_added := (o_filter_added F parse_float deq dlt dle).
Notation o_exchanged := (o_exchanged F parse_float deq dlt dle).
(** Two sets of policy files, each with one reading that never names the processor's own attributes,
    in a configuration that both start with; actions leave the logs alone. *)
Definition edited (h h' : host) (conf : gomap cval) (ah : ahandler (logs F)) (P P' : list (list decl)) : Prop :=
  exists d, policies_in conf d /\ language_is conf Falco /\ harmless F ah /\ faithful h d /\ faithful h' d /\ says h d P /\ says h' d P' /\ looks_away P /\ looks_away P'.
Lemma lifted h h' conf ah P P' (E : mode -> logs F -> o_verdict -> o_verdict -> Prop) : walked F enum -> edited h h' conf ah P P' ->
  (forall m r v v', gives F parse_float deq dlt dle (filter_occs (declared P)) (rule_occs (declared P)) m r v ->
     gives F parse_float deq dlt dle (filter_occs (declared P')) (rule_occs (declared P')) m r v' -> E m r v v') ->
  o_compared h h' conf ah E /\ o_compared_runs h h' conf ah E.
Proof.
  intros W (d & H1 & H2 & H3 & H4 & H5 & H6 & H7 & H8 & H9) HE.
  exact (lift F parse_float deq dlt dle regcomp enum W pmatch ord n h h' conf d ah P P' E H1 H2 H3 H4 H5 H6 H7 H8 H9 HE).
Qed.

(** C118.  For every log no engine has annotated, and for every pair of whole runs over the same such
    logs: a rule put anywhere into a file changes nothing but what the logs it fires on are told, and
    that by exactly its name at the rule's place; ... *)
Theorem C118_rule_added :
  walked F enum -> forall h h' conf ah P P' rd o, edited h h' conf ah P P' -> inserted (DRule rd) o P P' ->
  o_compared h h' conf ah (o_rule_added P o rd) /\ o_compared_runs h h' conf ah (o_rule_added P o rd).
Proof.
  intros W h h' conf ah P P' rd o He Hi. apply (lifted h h' conf ah P P'); try assumption.
  intros m r v v'. exact (rule_added_gives F parse_float deq dlt dle P P' rd o m r v v' Hi).
Qed.
(** ... a filter put anywhere into a file only takes away the logs it fires on; ... *)
Theorem C118_filter_added :
  walked F enum -> forall h h' conf ah P P' fd o, edited h h' conf ah P P' -> inserted (DFilter fd) o P P' ->
  o_compared h h' conf ah (o_filter_added P o fd) /\ o_compared_runs h h' conf ah (o_filter_added P o fd).
Proof.
  intros W h h' conf ah P P' rd o He Hi. apply (lifted h h' conf ah P P'); try assumption.
  intros m r v v'. exact (filter_added_gives F parse_float deq dlt dle P P' rd o m r v v' Hi).
Qed.
(** ... a disabled rule or filter, or a macro or list that nothing uses, changes nothing; ... *)
Theorem C118_idle :
  walked F enum -> forall h h' conf ah P P' x o, edited h h' conf ah P P' -> inserted x o P P' ->
  (exists w, off_word w /\ ((exists rd, x = DRule rd /\ first_such is_enabled_opt (rd_opts rd) (OEnabled w)) \/ (exists fd, x = DFilter fd /\ fd_enabled fd = Some w))) \/ unused x P ->
  o_compared h h' conf ah (o_no_effect F) /\ o_compared_runs h h' conf ah (o_no_effect F).
Proof.
  intros W h h' conf ah P P' x o He Hi Hor. apply (lifted h h' conf ah P P'); try assumption. intros m r v v' G G'.
  destruct Hor as [(w & Hoff & [(rd & -> & Hen)|(fd & -> & Hen)])|Hu].
  - destruct (rule_added_gives F parse_float deq dlt dle P P' rd o m r v v' Hi G G') as [(_ & -> & ->)|[(_ & _ & ->)|(_ & Hfi & _)]]; try reflexivity. destruct (proj1 Hfi). exists w. auto.
  - destruct (filter_added_gives F parse_float deq dlt dle P P' fd o m r v v' Hi G G') as [(_ & -> & ->)|[(_ & _ & ->)|(_ & Hfi & _)]]; try reflexivity. destruct (proj1 Hfi). exists w. auto.
  - exact (unused_gives F parse_float deq dlt dle P P' x o m r v v' Hu Hi G G').
Qed.
(** ... two neighbouring rules that change places only change the order in which logs are told of
    them, and any other two neighbours that define nothing may change places without effect; ... *)
Theorem C118_rules_exchanged :
  walked F enum -> forall h h' conf ah P P' dx ox dy oy, edited h h' conf ah P P' -> swapped (DRule dx) ox (DRule dy) oy P P' ->
  o_compared h h' conf ah (o_exchanged P ox dx oy dy) /\ o_compared_runs h h' conf ah (o_exchanged P ox dx oy dy).
Proof.
  intros W h h' conf ah P P' dx ox dy oy He Hi. apply (lifted h h' conf ah P P'); try assumption.
  intros m r v v'. exact (exchanged_gives F parse_float deq dlt dle P P' dx ox dy oy m r v v' Hi).
Qed.
Theorem C118_filters_exchanged :
  walked F enum -> forall h h' conf ah P P' x ox y oy, edited h h' conf ah P P' -> swapped x ox y oy P P' ->
  defines_nothing x -> defines_nothing y -> (forall rd, x <> DRule rd) \/ (forall rd, y <> DRule rd) ->
  o_compared h h' conf ah (o_no_effect F) /\ o_compared_runs h h' conf ah (o_no_effect F).
Proof.
  intros W h h' conf ah P P' x ox y oy He Hi Nx Ny Hor. apply (lifted h h' conf ah P P'); try assumption.
  intros m r v v'. exact (swap_filter_gives F parse_float deq dlt dle P P' x ox y oy m r v v' Nx Ny Hor Hi).
Qed.
(** ... and writing out macros in the condition of a rule or filter changes nothing. *)
Theorem C118_macro_inlined :
  walked F enum -> forall h h' conf ah P P' x o y, edited h h' conf ah P P' -> replaced x o y P P' -> inlined_in o x y ->
  o_compared h h' conf ah (o_no_effect F) /\ o_compared_runs h h' conf ah (o_no_effect F).
Proof.
  intros W h h' conf ah P P' x o y He Hi Hn. apply (lifted h h' conf ah P P'); try assumption.
  intros m r v v'. exact (inlined_gives F parse_float deq dlt dle P P' x o y m r v v' Hn Hi).
Qed.
End P.
Print Assumptions C118_rule_added.
Print Assumptions C118_filter_added.
Print Assumptions C118_idle.
Print Assumptions C118_rules_exchanged.
Print Assumptions C118_filters_exchanged.
Print Assumptions C118_macro_inlined.

(** The policies of C102, on logs. *)
Definition oe_conf := ex_conf "none" "alert" "1".
Definition oe_log : logs Z := mkLogs Z (Some [("sf.proc.name", AStr Z "Bash")]) [mkSL Z None [[("sf.opflags", AStr Z "EXEC")]]].
Definition oe_scope := mkSL Z None [[("sf.opflags", AStr Z "EXEC")]].
Definition oe_out (ns : list string) : list (logs Z) := [mkLogs Z (Some [("sf.proc.name", AStr Z "Bash")]) (oe_scope :: match ns with [] => [] | _ => [own Z ns []] end)].
Definition oe_told (m : mode) (t : string) (ds : list decl) : option (list (logs Z)) :=
  match create_interpreter lx_ops (fun _ _ => false) (fun _ _ => []) 9 (ed_host t ds) (fst (create_config oe_conf)) with
  | Ok (Some p) => Some (outs (snd (o_work Z (fun _ _ l => l) lx_ah m (fst p) (snd p) oe_log)))
  | _ => None
  end.
Definition ownb (d : decl) : bool := existsb (fun k => seqb k "sf.processor.rules" || seqb k "sf.processor.tags") (decl_operands d).
Lemma oe_edited t ds t' ds' : (faithful (ed_host t ds) "/pol" /\ says (ed_host t ds) "/pol" [ds]) -> (faithful (ed_host t' ds') "/pol" /\ says (ed_host t' ds') "/pol" [ds']) ->
  existsb ownb ds = false -> existsb ownb ds' = false ->
  edited Z (ed_host t ds) (ed_host t' ds') oe_conf lx_ah [ds] [ds'].
Proof.
  assert (L : forall l, existsb ownb l = false -> looks_away [l]).
  { intros l H ds0 d k [<-|[]] Hd Hk How. rewrite (proj2 (existsb_exists _ _)) in H; [discriminate|]. exists d. split; [exact Hd|].
    apply existsb_exists. exists k. split; [exact Hk|]. destruct How as [-> | ->]; rewrite seqb_refl; [reflexivity|apply Bool.orb_true_r]. }
  intros [H1 H2] [H3 H4] H5 H6. exists "/pol". split; [split; [reflexivity|discriminate]|]. split; [right; split; [intros s H; discriminate|reflexivity]|].
  split; [intros a f r H; discriminate|]. auto 10.
Qed.
Ltac oe := apply oe_edited; [ed|ed|reflexivity|reflexivity].
Example C118_rule_added_case : let ds := [ed_m; DRule ed_R] in let ds' := [ed_m; DRule ed_Q; DRule ed_R] in
  edited Z (ed_host ed_t0 ds) (ed_host ed_t1 ds') oe_conf lx_ah [ds] [ds'] /\
  inserted (DRule ed_Q) (mkOcc [] [ed_m] ds' (DRule ed_Q)) [ds] [ds'] /\ unseen Z oe_log /\ walked Z (fun _ _ l => l) /\
  oe_told AlertMode ed_t0 ds = Some (oe_out ["R"]) /\ oe_told AlertMode ed_t1 ds' = Some (oe_out ["Q"; "R"]).
Proof.
  cbv zeta. split; [oe|]. split; [apply (inserted_in _ _ [] [ed_m] [DRule ed_R] []); reflexivity|].
  split; [constructor; [intros s H; discriminate|constructor]|]. split; [intros r ru l; apply Permutation_refl|]. split; vm_compute; reflexivity.
Qed.
Example C118_filter_added_case : let ds := [ed_m; DRule ed_R] in let ds' := [ed_m; DFilter ed_F; DRule ed_R] in
  edited Z (ed_host ed_t0 ds) (ed_host ed_t2 ds') oe_conf lx_ah [ds] [ds'] /\
  inserted (DFilter ed_F) (mkOcc [] [ed_m] ds' (DFilter ed_F)) [ds] [ds'] /\ oe_told AlertMode ed_t2 ds' = Some [].
Proof. cbv zeta. split; [oe|]. split; [apply (inserted_in _ _ [] [ed_m] [DRule ed_R] []); reflexivity|]. vm_compute; reflexivity. Qed.
Example C118_idle_case : let ds := [ed_m; DRule ed_R] in let ds' := [ed_m; DRule ed_off; DRule ed_R] in
  edited Z (ed_host ed_t0 ds) (ed_host ed_t3 ds') oe_conf lx_ah [ds] [ds'] /\
  inserted (DRule ed_off) (mkOcc [] [ed_m] ds' (DRule ed_off)) [ds] [ds'] /\ oe_told AlertMode ed_t3 ds' = Some (oe_out ["R"]).
Proof. cbv zeta. split; [oe|]. split; [apply (inserted_in _ _ [] [ed_m] [DRule ed_R] []); reflexivity|]. vm_compute; reflexivity. Qed.
Example C118_rules_exchanged_case : let ds := [ed_m; DRule ed_Q; DRule ed_R] in let ds' := [ed_m; DRule ed_R; DRule ed_Q] in
  edited Z (ed_host ed_t1 ds) (ed_host ed_t5 ds') oe_conf lx_ah [ds] [ds'] /\
  swapped (DRule ed_Q) (mkOcc [] [ed_m] ds (DRule ed_Q)) (DRule ed_R) (mkOcc [] [ed_m; DRule ed_Q] ds (DRule ed_R)) [ds] [ds'] /\
  oe_told AlertMode ed_t5 ds' = Some (oe_out ["R"; "Q"]).
Proof. cbv zeta. split; [oe|]. split; [apply (swapped_in _ _ _ _ [] [ed_m] [] []); reflexivity|]. vm_compute; reflexivity. Qed.
Definition oe_t7 := "- macro: m condition: sf.proc.name = Bash - rule: R desc: d condition: m - filter: F condition: m".
Example C118_filters_exchanged_case : let ds := [ed_m; DFilter ed_F; DRule ed_R] in let ds' := [ed_m; DRule ed_R; DFilter ed_F] in
  edited Z (ed_host ed_t2 ds) (ed_host oe_t7 ds') oe_conf lx_ah [ds] [ds'] /\
  swapped (DFilter ed_F) (mkOcc [] [ed_m] ds (DFilter ed_F)) (DRule ed_R) (mkOcc [] [ed_m; DFilter ed_F] ds (DRule ed_R)) [ds] [ds'] /\
  defines_nothing (DFilter ed_F) /\ defines_nothing (DRule ed_R) /\ (forall rd, DFilter ed_F <> DRule rd) /\
  oe_told AlertMode oe_t7 ds' = Some [].
Proof.
  cbv zeta. split; [oe|]. split; [apply (swapped_in _ _ _ _ [] [ed_m] [] []); reflexivity|]. split; [exact I|]. split; [exact I|]. split; [discriminate|]. vm_compute; reflexivity.
Qed.
Example C118_macro_inlined_case : let ds := [ed_m; DRule ed_R] in let ds' := [ed_m; DRule ed_R'] in
  edited Z (ed_host ed_t0 ds) (ed_host ed_t6 ds') oe_conf lx_ah [ds] [ds'] /\
  replaced (DRule ed_R) (mkOcc [] [ed_m] ds (DRule ed_R)) (DRule ed_R') [ds] [ds'] /\
  inlined_in (mkOcc [] [ed_m] ds (DRule ed_R)) (DRule ed_R) (DRule ed_R') /\
  oe_told AlertMode ed_t6 ds' = Some (oe_out ["R"]).
Proof.
  cbv zeta. split; [oe|]. split; [apply (replaced_in _ _ _ [] [ed_m] [] []); reflexivity|]. split; [|vm_compute; reflexivity].
  apply ili_rule. apply ile_cons; [|constructor]. apply ilc_cons; [|constructor]. apply il_here. reflexivity.
Qed.

(** Refuted for policies that do name the processor's own attributes: a rule sees what earlier rules
    noted, so that putting a rule in may make another one fire that did not. *)
Definition or_1 := mkRuleDecl "r1" "d" [[TBin "sf.proc.name" BEq "Bash"]] [].
Definition or_2 := mkRuleDecl "r2" "d" [[TBin "sf.processor.rules" BContains "r1"]] [].
Definition or_t := "- rule: r2 desc: d condition: sf.processor.rules contains r1".
Definition or_t' := "- rule: r1 desc: d condition: sf.proc.name = Bash - rule: r2 desc: d condition: sf.processor.rules contains r1".
Lemma or_out r o v : o_tells Z r o v -> length o = match v with None => 0 | _ => 1 end /\ forall ns ts res, o = [mkLogs Z res (l_scopes Z r ++ [own Z ns ts])] -> v = Some ns.
Proof.
  intros H. split; [destruct H; reflexivity|]. intros ns ts res E. destruct H as [| |ns' ts' Hn]; [discriminate| |].
  - destruct r as [res' sc]. cbn [l_scopes] in E. assert (E' : sc = sc ++ [own Z ns ts]) by congruence. apply (f_equal (@length _)) in E'. rewrite app_length in E'. cbn in E'. exfalso. rewrite Nat.add_comm in E'. cbn in E'. exact (n_Sn _ E').
  - assert (E' : l_scopes Z r ++ [own Z ns' ts'] = l_scopes Z r ++ [own Z ns ts]) by congruence. apply app_inv_head in E'. injection E' as E1 E2. f_equal.
    clear - E1. revert ns E1. induction ns' as [|a l IH]; intros [|b l'] E; try discriminate; [reflexivity|]. injection E as -> E. f_equal. auto.
Qed.
Theorem C118_own_attributes_refuted :
  exists h h' P P' rd o, policies_in oe_conf "/pol" /\ language_is oe_conf Falco /\ harmless Z lx_ah /\ faithful h "/pol" /\ faithful h' "/pol" /\ says h "/pol" P /\ says h' "/pol" P' /\
  inserted (DRule rd) o P P' /\
  ~ o_compared Z (fun _ => None) Z.eqb Z.ltb Z.leb (fun _ => Some (fun s => s)) (fun _ _ l => l) (fun _ _ => false) (fun _ _ => []) 9 h h' oe_conf lx_ah
      (o_rule_added Z (fun _ => None) Z.eqb Z.ltb Z.leb P o rd).
Proof.
  exists (ed_host or_t [DRule or_2]), (ed_host or_t' [DRule or_1; DRule or_2]), [[DRule or_2]], [[DRule or_1; DRule or_2]], or_1, (mkOcc [] [] [DRule or_1; DRule or_2] (DRule or_1)).
  split; [split; [reflexivity|discriminate]|]. split; [right; split; [intros s H; discriminate|reflexivity]|]. split; [intros a f r H; discriminate|].
  assert (K : (faithful (ed_host or_t [DRule or_2]) "/pol" /\ says (ed_host or_t [DRule or_2]) "/pol" [[DRule or_2]])) by ed.
  assert (K' : (faithful (ed_host or_t' [DRule or_1; DRule or_2]) "/pol" /\ says (ed_host or_t' [DRule or_1; DRule or_2]) "/pol" [[DRule or_1; DRule or_2]])) by ed.
  split; [apply K|]. split; [apply K'|]. split; [apply K|]. split; [apply K'|].
  split; [apply (inserted_in _ _ [] [] [DRule or_2] []); reflexivity|].
  intros H.
  assert (V : oe_told AlertMode or_t [DRule or_2] = Some []) by (vm_compute; reflexivity).
  assert (V' : oe_told AlertMode or_t' [DRule or_1; DRule or_2] = Some (oe_out ["r1"; "r2"])) by (vm_compute; reflexivity).
  unfold oe_told in V, V'.
  destruct (create_interpreter _ _ _ _ (ed_host or_t [DRule or_2]) _) as [[p|]| | |] eqn:C; try discriminate V.
  destruct (create_interpreter _ _ _ _ (ed_host or_t' [DRule or_1; DRule or_2]) _) as [[p'|]| | |] eqn:C'; try discriminate V'.
  assert (Un : unseen Z oe_log) by (constructor; [intros s E; discriminate|constructor]).
  destruct (H p p' AlertMode C C' oe_log Un) as (v & v' & T1 & T2 & Q).
  assert (O1 : outs (snd (o_work Z (fun _ _ l => l) lx_ah AlertMode (fst p) (snd p) oe_log)) = []) by congruence.
  assert (O2 : outs (snd (o_work Z (fun _ _ l => l) lx_ah AlertMode (fst p') (snd p') oe_log)) = oe_out ["r1"; "r2"]) by congruence.
  rewrite O1 in T1. rewrite O2 in T2.
  pose proof (proj1 (or_out _ _ _ T1)) as E1. pose proof (proj2 (or_out _ _ _ T2) ["r1"; "r2"] [] _ eq_refl) as E2.
  destruct v as [ns|]; [discriminate E1|]. subst v'.
  destruct Q as [(_ & _ & E)|[(_ & _ & E)|(_ & _ & a & b & E & [E'|(_ & -> & -> & _)])]]; discriminate.
Qed.
Print Assumptions C118_own_attributes_refuted.

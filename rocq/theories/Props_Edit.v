(** * Props_Edit: C102, what editing a policy changes. *)
From Verif Require Import GoBase GoFacts Predicates FlatRecord SpecStrings FieldTables SpecContext Samples FalcoModel SpecFalco SpecFlat SigmaModel EngineModel EngineFlat SpecEngine SpecEngineFlat
  PoolModel SpecPool PoolFacts4 MonitorModel SpecMonitor GrammarModel GrammarParser SpecGrammar LexerModel SpecLexer LexFast InitModel SpecInit Props_Grammar Props_Init Props_Recover SpecEdit EditFacts.

(** C102.  Two sets of policy files, each with one reading, in a configuration that both start with;
    actions leave the records' data and rules alone.  For every record, and for every pair of whole
    runs over the same records:
    a rule put anywhere into a file changes nothing but what the records it fires on are told, and
    that by exactly one entry at the rule's place; ... *)
Theorem C102_rule_added :
  forall X M typ, map_str X M "sf.type" = Ok typ ->
  forall pmatch ord n h h' conf d ah D D' rd o,
  policies_in conf d -> language_is conf Falco -> benign ah -> faithful h d -> faithful h' d -> says h d D -> says h' d D' ->
  inserted (DRule rd) o D D' ->
  compared X M pmatch ord n h h' conf ah (rule_added X M typ D o rd) /\
  compared_runs X M pmatch ord n h h' conf ah (rule_added X M typ D o rd).
Proof.
  intros X M typ Ht pmatch ord n h h' conf d ah D D' rd o Hd Hl Hb Hf Hf' S S' Hi.
  apply (lift X M typ Ht pmatch ord n h h' conf d ah D D'); try assumption. intros m fr v v'. exact (rule_added_gives X M typ D D' rd o m fr v v' Hi).
Qed.
Print Assumptions C102_rule_added.
(** ... a filter put anywhere into a file only takes away the records it fires on; ... *)
Theorem C102_filter_added :
  forall X M typ, map_str X M "sf.type" = Ok typ ->
  forall pmatch ord n h h' conf d ah D D' fd o,
  policies_in conf d -> language_is conf Falco -> benign ah -> faithful h d -> faithful h' d -> says h d D -> says h' d D' ->
  inserted (DFilter fd) o D D' ->
  compared X M pmatch ord n h h' conf ah (filter_added X M D o fd) /\
  compared_runs X M pmatch ord n h h' conf ah (filter_added X M D o fd).
Proof.
  intros X M typ Ht pmatch ord n h h' conf d ah D D' rd o Hd Hl Hb Hf Hf' S S' Hi.
  apply (lift X M typ Ht pmatch ord n h h' conf d ah D D'); try assumption. intros m fr v v'. exact (filter_added_gives X M typ D D' rd o m fr v v' Hi).
Qed.
Print Assumptions C102_filter_added.
(** ... a disabled rule or filter changes nothing; ... *)
Theorem C102_disabled :
  forall X M typ, map_str X M "sf.type" = Ok typ ->
  forall pmatch ord n h h' conf d ah D D' x o w,
  policies_in conf d -> language_is conf Falco -> benign ah -> faithful h d -> faithful h' d -> says h d D -> says h' d D' ->
  inserted x o D D' ->
  ((exists rd, x = DRule rd /\ first_such is_enabled_opt (rd_opts rd) (OEnabled w)) \/ (exists fd, x = DFilter fd /\ fd_enabled fd = Some w)) -> off_word w ->
  compared X M pmatch ord n h h' conf ah no_effect /\ compared_runs X M pmatch ord n h h' conf ah no_effect.
Proof.
  intros X M typ Ht pmatch ord n h h' conf d ah D D' x o w Hd Hl Hb Hf Hf' S S' Hi Hw Hoff.
  apply (lift X M typ Ht pmatch ord n h h' conf d ah D D'); try assumption. intros m fr v v' G G'.
  destruct Hw as [(rd & -> & Hen)|(fd & -> & Hen)].
  - destruct (rule_added_gives X M typ D D' rd o m fr v v' Hi G G') as [(_ & -> & ->)|[(_ & _ & ->)|(_ & Hfi & _)]]; try reflexivity. destruct (proj1 Hfi). exists w. auto.
  - destruct (filter_added_gives X M typ D D' fd o m fr v v' Hi G G') as [(_ & -> & ->)|[(_ & _ & ->)|(_ & Hfi & _)]]; try reflexivity. destruct (proj1 Hfi). exists w. auto.
Qed.
Print Assumptions C102_disabled.
(** ... so does a macro or list that nothing uses, wherever it stands and whatever is in it; ... *)
Theorem C102_unused_definition :
  forall X M typ, map_str X M "sf.type" = Ok typ ->
  forall pmatch ord n h h' conf d ah D D' x o,
  policies_in conf d -> language_is conf Falco -> benign ah -> faithful h d -> faithful h' d -> says h d D -> says h' d D' ->
  inserted x o D D' -> unused x D ->
  compared X M pmatch ord n h h' conf ah no_effect /\ compared_runs X M pmatch ord n h h' conf ah no_effect.
Proof.
  intros X M typ Ht pmatch ord n h h' conf d ah D D' x o Hd Hl Hb Hf Hf' S S' Hi Hu.
  apply (lift X M typ Ht pmatch ord n h h' conf d ah D D'); try assumption. intros m fr v v'. exact (unused_gives X M typ D D' x o m fr v v' Hu Hi).
Qed.
Print Assumptions C102_unused_definition.
(** ... two neighbouring rules that change places only change the order in which records are told of
    them, and any other two neighbours that define nothing may change places without effect; ... *)
Theorem C102_rules_exchanged :
  forall X M typ, map_str X M "sf.type" = Ok typ ->
  forall pmatch ord n h h' conf d ah D D' dx ox dy oy,
  policies_in conf d -> language_is conf Falco -> benign ah -> faithful h d -> faithful h' d -> says h d D -> says h' d D' ->
  swapped (DRule dx) ox (DRule dy) oy D D' ->
  compared X M pmatch ord n h h' conf ah (exchanged X M typ D ox dx oy dy) /\
  compared_runs X M pmatch ord n h h' conf ah (exchanged X M typ D ox dx oy dy).
Proof.
  intros X M typ Ht pmatch ord n h h' conf d ah D D' dx ox dy oy Hd Hl Hb Hf Hf' S S' Hi.
  apply (lift X M typ Ht pmatch ord n h h' conf d ah D D'); try assumption. intros m fr v v'. exact (exchanged_gives X M typ D D' dx ox dy oy m fr v v' Hi).
Qed.
Print Assumptions C102_rules_exchanged.
Theorem C102_filters_exchanged :
  forall X M typ, map_str X M "sf.type" = Ok typ ->
  forall pmatch ord n h h' conf d ah D D' x ox y oy,
  policies_in conf d -> language_is conf Falco -> benign ah -> faithful h d -> faithful h' d -> says h d D -> says h' d D' ->
  swapped x ox y oy D D' -> defines_nothing x -> defines_nothing y -> (forall rd, x <> DRule rd) \/ (forall rd, y <> DRule rd) ->
  compared X M pmatch ord n h h' conf ah no_effect /\ compared_runs X M pmatch ord n h h' conf ah no_effect.
Proof.
  intros X M typ Ht pmatch ord n h h' conf d ah D D' x ox y oy Hd Hl Hb Hf Hf' S S' Hi Nx Ny Hor.
  apply (lift X M typ Ht pmatch ord n h h' conf d ah D D'); try assumption. intros m fr v v'. exact (swap_filter_gives X M typ D D' x ox y oy m fr v v' Nx Ny Hor Hi).
Qed.
Print Assumptions C102_filters_exchanged.
(** ... and writing out macros in the condition of a rule or filter changes nothing. *)
Theorem C102_macro_inlined :
  forall X M typ, map_str X M "sf.type" = Ok typ ->
  forall pmatch ord n h h' conf d ah D D' x o y,
  policies_in conf d -> language_is conf Falco -> benign ah -> faithful h d -> faithful h' d -> says h d D -> says h' d D' ->
  replaced x o y D D' -> inlined_in o x y ->
  compared X M pmatch ord n h h' conf ah no_effect /\ compared_runs X M pmatch ord n h h' conf ah no_effect.
Proof.
  intros X M typ Ht pmatch ord n h h' conf d ah D D' x o y Hd Hl Hb Hf Hf' S S' Hi Hn.
  apply (lift X M typ Ht pmatch ord n h h' conf d ah D D'); try assumption. intros m fr v v'. exact (inlined_gives X M typ D D' x o y m fr v v' Hn Hi).
Qed.
Print Assumptions C102_macro_inlined.
(** Alert mode tells a record what enrich mode tells it, except that records told nothing stay away. *)
Theorem C102_modes :
  forall X M typ, map_str X M "sf.type" = Ok typ ->
  forall pmatch ord n h conf d ah D p r,
  policies_in conf d -> language_is conf Falco -> benign ah -> faithful h d -> says h d D ->
  create_interpreter (sf_ops X M) pmatch ord n h (fst (create_config conf)) = Ok (Some p) ->
  told r (outs (snd (sf_work X M ah AlertMode (fst p) (snd p) r))) =
  match told r (outs (snd (sf_work X M ah EnrichMode (fst p) (snd p) r))) with Some [] => None | v => v end.
Proof. exact modes_told. Qed.
Print Assumptions C102_modes.

(** Examples: one file, edited in six ways. *)
Definition ed_m := DMacro "m" [[TBin "sf.proc.name" BEq "Bash"]] None.
Definition ed_rule n cond opts := mkRuleDecl n "d" cond opts.
Definition ed_R := ed_rule "R" [[TVar "m"]] [].
Definition ed_Q := ed_rule "Q" [[TVar "m"]] [].
Definition ed_off := ed_rule "Q" [[TVar "m"]] [OEnabled "false"].
Definition ed_R' := ed_rule "R" [[TParen [[TBin "sf.proc.name" BEq "Bash"]]]] [].
Definition ed_F := mkFilterDecl "F" [[TVar "m"]] None.
Definition ed_host (t : string) (ds : list decl) : host :=
  mkHost (fun d => if seqb d "/pol" then Some ["a.yaml"] else None) (fun d => Some ["a.yaml"]) (fun _ => Some t) (fun _ => Some (ds, false)) (fun _ => None) (fun _ => None) true false.
Definition ed_plain (d : decl) : bool := decl_plain d && match d with DRule r => negb (existsb (fun o => match o with OPrefilter _ => true | _ => false end) (rd_opts r)) | _ => true end.
Lemma ed_ok t ds : lex_fast t <> None -> TextFacts.closedb (toks t) = true -> parse_policy (toks t) = Some ds -> forallb ed_plain ds = true ->
  faithful (ed_host t ds) "/pol" /\ says (ed_host t ds) "/pol" [ds].
Proof.
  intros Hx Hc Hp Hpl.
  assert (L : lexes "" t (toks t)) by (apply toks_lexes; exact Hx).
  assert (C : forall ts, lexes "" t ts -> SpecGrammar.outputs_closed ts).
  { intros ts H. rewrite (C81_words_unique _ _ _ H L). apply TextFacts.closedb_sound. exact Hc. }
  assert (Rd : reads t ds) by (apply (C78_readings_decided_partial _ _ _ L (C _ L)); exact Hp).
  split.
  - split; [reflexivity|]. intros paths p _ _. split; [exact Rd|]. intros ds' d (s & Es & Hr) Hd. injection Es as <-.
    rewrite (C78_policy_one_reading_partial _ _ _ C Hr Rd) in Hd. rewrite forallb_forall in Hpl. specialize (Hpl d Hd). unfold ed_plain in Hpl. apply andb_prop in Hpl as [H1 H2].
    split; [exact H1|]. intros rd it -> Hin. rewrite (proj2 (existsb_exists _ _)) in H2; [discriminate|]. exists (OPrefilter it). auto.
  - split.
    + exists [Some t]. split; [exists ["a.yaml"]; split; reflexivity|]. constructor; [|constructor]. exists t. split; [reflexivity|exact Rd].
    + intros dss' (texts & (paths & Ep & ->) & F). injection Ep as <-. inversion F as [|? ds' ? ? H1 H2]; subst. inversion H2; subst.
      destruct H1 as (s & Es & Hr). injection Es as <-. f_equal. exact (C78_policy_one_reading_partial _ _ _ C Hr Rd).
Qed.
Definition ed_told (m : mode) (t : string) (ds : list decl) : option verdict :=
  match create_interpreter (sf_ops X0 mappers) (fun _ _ => false) (fun _ _ => []) 9 (ed_host t ds) (fst (create_config (ex_conf "none" "alert" "1"))) with
  | Ok (Some p) => Some (told (rec0, ctx_new) (outs (snd (sf_work X0 mappers ex_ah0 m (fst p) (snd p) (rec0, ctx_new)))))
  | _ => None
  end.
Definition ed_t0 := "- macro: m condition: sf.proc.name = Bash - rule: R desc: d condition: m".
Definition ed_t1 := "- macro: m condition: sf.proc.name = Bash - rule: Q desc: d condition: m - rule: R desc: d condition: m".
Definition ed_t2 := "- macro: m condition: sf.proc.name = Bash - filter: F condition: m - rule: R desc: d condition: m".
Definition ed_t3 := "- macro: m condition: sf.proc.name = Bash - rule: Q desc: d condition: m enabled: false - rule: R desc: d condition: m".
Definition ed_t4 := "- macro: m condition: sf.proc.name = Bash - list: n items: [m] - rule: R desc: d condition: m".
Definition ed_t5 := "- macro: m condition: sf.proc.name = Bash - rule: R desc: d condition: m - rule: Q desc: d condition: m".
Definition ed_t6 := "- macro: m condition: sf.proc.name = Bash - rule: R desc: d condition: (sf.proc.name = Bash)".
Ltac ed := apply ed_ok; [vm_compute; discriminate|vm_compute; reflexivity|vm_compute; reflexivity|reflexivity].
Definition ed_h0 := ed_host ed_t0 [ed_m; DRule ed_R].
Example C102_base_case : faithful ed_h0 "/pol" /\ says ed_h0 "/pol" [[ed_m; DRule ed_R]] /\ benign ex_ah0 /\
  policies_in (ex_conf "none" "alert" "1") "/pol" /\ language_is (ex_conf "none" "alert" "1") Falco /\
  ed_told AlertMode ed_t0 [ed_m; DRule ed_R] = Some (Some [("R", "d", PLow)]).
Proof.
  split; [|split]; [ed|ed|]. split; [intros a f r H; discriminate|]. split; [split; [reflexivity|discriminate]|].
  split; [right; split; [intros s H; discriminate|reflexivity]|]. vm_compute. reflexivity.
Qed.
Notation ed_occ pre ds x := (mkOcc (concat []) pre ds x).
Example C102_rule_added_case : let ds := [ed_m; DRule ed_Q; DRule ed_R] in
  faithful (ed_host ed_t1 ds) "/pol" /\ says (ed_host ed_t1 ds) "/pol" [ds] /\
  inserted (DRule ed_Q) (ed_occ [ed_m] ds (DRule ed_Q)) [[ed_m; DRule ed_R]] [ds] /\
  ed_told AlertMode ed_t1 ds = Some (Some [("Q", "d", PLow); ("R", "d", PLow)]).
Proof. cbv zeta. split; [|split]; [ed|ed|]. split; [|vm_compute; reflexivity]. apply (inserted_in _ _ [] [ed_m] [DRule ed_R] []). reflexivity. Qed.
Example C102_filter_added_case : let ds := [ed_m; DFilter ed_F; DRule ed_R] in
  faithful (ed_host ed_t2 ds) "/pol" /\ says (ed_host ed_t2 ds) "/pol" [ds] /\
  inserted (DFilter ed_F) (ed_occ [ed_m] ds (DFilter ed_F)) [[ed_m; DRule ed_R]] [ds] /\
  ed_told AlertMode ed_t2 ds = Some None.
Proof. cbv zeta. split; [|split]; [ed|ed|]. split; [|vm_compute; reflexivity]. apply (inserted_in _ _ [] [ed_m] [DRule ed_R] []). reflexivity. Qed.
Example C102_disabled_case : let ds := [ed_m; DRule ed_off; DRule ed_R] in
  faithful (ed_host ed_t3 ds) "/pol" /\ says (ed_host ed_t3 ds) "/pol" [ds] /\
  inserted (DRule ed_off) (ed_occ [ed_m] ds (DRule ed_off)) [[ed_m; DRule ed_R]] [ds] /\
  first_such is_enabled_opt (rd_opts ed_off) (OEnabled "false") /\ off_word "false" /\
  ed_told AlertMode ed_t3 ds = Some (Some [("R", "d", PLow)]).
Proof.
  cbv zeta. split; [|split]; [ed|ed|]. split; [apply (inserted_in _ _ [] [ed_m] [DRule ed_R] []); reflexivity|].
  split; [exists [], []; split; [reflexivity|]; split; [eexists; reflexivity|intros ? []]|]. split; [|vm_compute; reflexivity]. vm_compute. tauto.
Qed.
Example C102_unused_definition_case : let ds := [ed_m; DList "n" (mkItems ["m"] false); DRule ed_R] in
  faithful (ed_host ed_t4 ds) "/pol" /\ says (ed_host ed_t4 ds) "/pol" [ds] /\
  inserted (DList "n" (mkItems ["m"] false)) (ed_occ [ed_m] ds (DList "n" (mkItems ["m"] false))) [[ed_m; DRule ed_R]] [ds] /\
  unused (DList "n" (mkItems ["m"] false)) [[ed_m; DRule ed_R]] /\
  ed_told AlertMode ed_t4 ds = Some (Some [("R", "d", PLow)]).
Proof.
  cbv zeta. split; [|split]; [ed|ed|]. split; [apply (inserted_in _ _ [] [ed_m] [DRule ed_R] []); reflexivity|].
  split; [|vm_compute; reflexivity]. intros ds' d [<-|[]] [<-|[<-|[]]]; cbn; tauto.
Qed.
Example C102_rules_exchanged_case : let ds := [ed_m; DRule ed_Q; DRule ed_R] in let ds' := [ed_m; DRule ed_R; DRule ed_Q] in
  faithful (ed_host ed_t5 ds') "/pol" /\ says (ed_host ed_t5 ds') "/pol" [ds'] /\
  swapped (DRule ed_Q) (ed_occ [ed_m] ds (DRule ed_Q)) (DRule ed_R) (ed_occ [ed_m; DRule ed_Q] ds (DRule ed_R)) [ds] [ds'] /\
  ed_told AlertMode ed_t5 ds' = Some (Some [("R", "d", PLow); ("Q", "d", PLow)]).
Proof. cbv zeta. split; [|split]; [ed|ed|]. split; [|vm_compute; reflexivity]. apply (swapped_in _ _ _ _ [] [ed_m] [] []); reflexivity. Qed.
Example C102_filters_exchanged_case : let ds := [ed_m; DFilter ed_F; DRule ed_R] in let ds' := [ed_m; DRule ed_R; DFilter ed_F] in
  swapped (DFilter ed_F) (ed_occ [ed_m] ds (DFilter ed_F)) (DRule ed_R) (ed_occ [ed_m; DFilter ed_F] ds (DRule ed_R)) [ds] [ds'] /\
  defines_nothing (DFilter ed_F) /\ defines_nothing (DRule ed_R) /\ (forall rd, DFilter ed_F <> DRule rd).
Proof. cbv zeta. split; [apply (swapped_in _ _ _ _ [] [ed_m] [] []); reflexivity|]. split; [exact I|]. split; [exact I|]. discriminate. Qed.
Example C102_macro_inlined_case : let ds := [ed_m; DRule ed_R] in let ds' := [ed_m; DRule ed_R'] in
  faithful (ed_host ed_t6 ds') "/pol" /\ says (ed_host ed_t6 ds') "/pol" [ds'] /\
  replaced (DRule ed_R) (ed_occ [ed_m] ds (DRule ed_R)) (DRule ed_R') [ds] [ds'] /\
  inlined_in (ed_occ [ed_m] ds (DRule ed_R)) (DRule ed_R) (DRule ed_R') /\
  ed_told AlertMode ed_t6 ds' = Some (Some [("R", "d", PLow)]).
Proof.
  cbv zeta. split; [|split]; [ed|ed|]. split; [apply (replaced_in _ _ _ [] [ed_m] [] []); reflexivity|]. split; [|vm_compute; reflexivity].
  apply ili_rule. apply ile_cons; [|constructor]. apply ilc_cons; [|constructor]. apply il_here. reflexivity.
Qed.
Example C102_modes_case : ed_told EnrichMode "- rule: R desc: d condition: sf.proc.name = x" [DRule (ed_rule "R" [[TBin "sf.proc.name" BEq "x"]] [])] = Some (Some []) /\
  ed_told AlertMode "- rule: R desc: d condition: sf.proc.name = x" [DRule (ed_rule "R" [[TBin "sf.proc.name" BEq "x"]] [])] = Some None.
Proof. split; vm_compute; reflexivity. Qed.

(** * Props_SigmaEdit: C112, what editing Sigma rules changes. *)
From Coq Require Import Permutation.
From Verif Require Props_Sigma.
From Verif Require Import GoBase GoFacts Predicates FlatRecord FieldTables Samples FalcoModel SigmaModel SpecSigma EngineModel EngineFlat SpecEngine SpecEngineFlat
  PoolModel SpecPool PoolFacts4 MonitorModel SpecMonitor InitModel SpecInit SpecEdit SpecSigmaEdit SigmaEditFacts Props_Init Props_SigmaLive.

Section S.
Variables (X : sfgo_fns) (M : gomap fieldmap) (pmatch : string -> string -> bool) (ord : srule -> list nat -> list (string * search)) (n : nat).
Variable (ah : ahandler sfrec).
(** Two hosts that show the same configuration two sets of Sigma rules (and translations of names). *)
Definition shows_both (h h' : host) (conf : gomap cval) (ms ms' : gomap (list string) * list srule) : Prop :=
  walks ord /\ exists d, policies_in conf d /\ language_is conf Sigma /\ h_perf h = false /\ h_perf h' = false /\ sigma_of h conf d ms /\ sigma_of h' conf d ms'.
Notation effect h h' conf E := (compared X M pmatch ord n h h' conf ah E /\ compared_runs X M pmatch ord n h h' conf ah E).
Lemma shown_lift h h' conf ms ms' (E : mode -> flatrec -> verdict -> verdict -> Prop) : shows_both h h' conf ms ms' ->
  (forall m fr v v', s_gives X M pmatch ms m fr v -> s_gives X M pmatch ms' m fr v' -> E m fr v v') -> effect h h' conf E.
Proof. intros (W & d & H1 & H2 & H3 & H4 & H5 & H6) HE. exact (s_lift X M pmatch ord n h h' conf d ah ms ms' E W H1 H2 H3 H4 H5 H6 HE). Qed.

(** C112.  For every record, and for every pair of whole runs over the same records:
    a rule put anywhere among the others changes nothing but what the records that meet some of its
    conditions are told, and that by one entry for each condition met, at the rule's place; ... *)
Theorem C112_rule_added :
  forall h h' conf maps A r B, shows_both h h' conf (maps, A ++ B) (maps, A ++ r :: B) -> effect h h' conf (s_rule_added X M pmatch maps r).
Proof. intros h h' conf maps A r B H. exact (shown_lift _ _ _ _ _ _ H (fun m fr v v' => s_rule_added_gives X M pmatch maps A r B m fr v v')). Qed.
(** ... the same rules in another order (files renamed) only change the order in which records are told of them; ... *)
Theorem C112_rules_reordered :
  forall h h' conf maps rs rs', Permutation rs rs' -> shows_both h h' conf (maps, rs) (maps, rs') -> effect h h' conf told_reordered.
Proof. intros h h' conf maps rs rs' P H. exact (shown_lift _ _ _ _ _ _ H (fun m fr v v' => reordered_gives X M pmatch maps rs rs' m fr v v' P)). Qed.
(** ... rules that are replaced by rules that say the same change nothing; ... *)
Theorem C112_same_sense :
  forall h h' conf maps maps' rs rs', Forall2 (s_same_sense pmatch maps maps') rs rs' -> shows_both h h' conf (maps, rs) (maps', rs') -> effect h h' conf no_effect.
Proof. intros h h' conf maps maps' rs rs' F H. exact (shown_lift _ _ _ _ _ _ H (fun m fr v v' => same_sense_gives X M pmatch maps maps' rs rs' m fr v v' F)). Qed.
(** ... in particular: the searches of a rule may stand in any order, ... *)
Theorem C112_searches_reordered :
  forall h h' conf maps A r s B, NoDup (map fst (sr_searches r)) -> Permutation (sr_searches r) s ->
  shows_both h h' conf (maps, A ++ r :: B) (maps, A ++ with_searches r s :: B) -> effect h h' conf no_effect.
Proof.
  intros h h' conf maps A r s B ND P. apply C112_same_sense. apply replace_one. split; [reflexivity|]. split; [reflexivity|]. split; [reflexivity|]. cbn [with_searches sr_searches sr_conds].
  induction (sr_conds r); constructor; [intros Q; apply order_same; assumption|assumption].
Qed.
(** ... a search no condition of the rule refers to may be added, wherever it stands and whatever is in it, ... *)
Theorem C112_unused_search :
  forall h h' conf maps A r nm s a b B, sr_searches r = (a ++ b)%list -> Forall (passes_over pmatch nm) (sr_conds r) ->
  shows_both h h' conf (maps, A ++ r :: B) (maps, A ++ with_searches r (a ++ (nm, s) :: b)%list :: B) -> effect h h' conf no_effect.
Proof.
  intros h h' conf maps A r nm s a b B E F. apply C112_same_sense. apply replace_one. split; [reflexivity|]. split; [reflexivity|]. split; [reflexivity|]. cbn [with_searches sr_searches sr_conds].
  rewrite E. induction F; constructor; [intros Q; apply unused_same; assumption|assumption].
Qed.
(** ... "1 of" and "all of" may be spelled out with the names of the searches they are about, ... *)
Theorem C112_spelled_out :
  forall h h' conf maps A r c B, NoDup (map fst (sr_searches r)) -> Forall2 (spelled pmatch (map fst (sr_searches r))) (sr_conds r) c ->
  shows_both h h' conf (maps, A ++ r :: B) (maps, A ++ with_conds r c :: B) -> effect h h' conf no_effect.
Proof.
  intros h h' conf maps A r c B ND F. apply C112_same_sense. apply replace_one. split; [reflexivity|]. split; [reflexivity|]. split; [reflexivity|]. cbn [with_conds sr_searches sr_conds].
  induction F; constructor; [intros Q; apply spelled_same; assumption|assumption].
Qed.
(** ... and the translations of names that no rule uses may change. *)
Theorem C112_other_mappings :
  forall h h' conf maps maps' rs, (forall r f, In r rs -> field_of r f -> mget f maps = mget f maps') ->
  shows_both h h' conf (maps, rs) (maps', rs) -> effect h h' conf no_effect.
Proof.
  intros h h' conf maps maps' rs Hf. apply C112_same_sense. induction rs as [|r rs IH]; constructor.
  - split; [reflexivity|]. split; [reflexivity|]. split; [reflexivity|].
    induction (sr_conds r); constructor; [|assumption]. intros Q. apply fields_same. intros nm q em fm H1 H2 H3. apply (Hf r); [now left|]. exists nm, q, em, fm. auto.
  - apply IH. intros r' f Hr. apply Hf. now right.
Qed.
End S.
Print Assumptions C112_rule_added.
Print Assumptions C112_rules_reordered.
Print Assumptions C112_same_sense.
Print Assumptions C112_searches_reordered.
Print Assumptions C112_unused_search.
Print Assumptions C112_spelled_out.
Print Assumptions C112_other_mappings.

(** Examples: one directory, edited. *)
Definition sg_host (maps : gomap (list string)) (rs : list srule) : host :=
  let name i := String (Ascii.ascii_of_nat (97 + i)) ".yml" in
  mkHost (fun d => if seqb d "/pol" then Some (map name (seq 0 (length rs))) else None) (fun d => Some [])
    (fun _ => None) (fun _ => None) (fun p => Some (nth_error rs (match p with String a _ => Ascii.nat_of_ascii a - 97 | _ => 0 end)))
    (fun c => if seqb c "/map.yml" then Some maps else None) true false.
Definition sg_told (m : mode) (maps : gomap (list string)) (rs : list srule) : option verdict :=
  match create_interpreter (sf_ops X0 mappers) Props_Sigma.ex_pmatch Props_Sigma.ex_ord 9 (sg_host maps rs) (fst (create_config (sx_conf "none" "alert"))) with
  | Ok (Some p) => Some (told (rec0, ctx_new) (outs (snd (sf_work X0 mappers ex_ah0 m (fst p) (snd p) (rec0, ctx_new)))))
  | _ => None
  end.
Definition sg_r := Props_Sigma.ex_rule.
Definition sg_q := mkSRule "q" "e" "low" [] [SId "a"; SId "b"; SId "a"] [("a", mkSearch [] [[mkFM "sf.proc.exe" ["endswith"] ["bash"]]]); ("b", mkSearch ["x"] [])].
Lemma sg_shows ms ms' : length (snd ms) <= 2 -> length (snd ms') <= 2 ->
  shows_both Props_Sigma.ex_ord (sg_host (fst ms) (snd ms)) (sg_host (fst ms') (snd ms')) (sx_conf "none" "alert") ms ms'.
Proof.
  intros L L'. split; [exact Props_Sigma.C17_ord_case|]. exists "/pol". split; [split; [reflexivity|discriminate]|].
  split; [left; exists "sigma"; split; [reflexivity|]; left; cbn; auto|]. split; [reflexivity|]. split; [reflexivity|].
  assert (G : forall ms : gomap (list string) * list srule, length (snd ms) <= 2 -> sigma_of (sg_host (fst ms) (snd ms)) (sx_conf "none" "alert") "/pol" ms).
  { intros [mp rs] Hl. cbn [fst snd] in *. eexists _, "/map.yml". split; [reflexivity|]. split; [left; reflexivity|]. split; [reflexivity|].
    cbn [snd]. destruct rs as [|a [|b [|c rs]]]; [constructor|repeat constructor..|cbn [length] in Hl; exfalso; repeat apply le_S_n in Hl; inversion Hl]. }
  split; apply G; assumption.
Qed.
Example C112_rule_added_case :
  shows_both Props_Sigma.ex_ord (sg_host Props_Sigma.ex_maps [sg_r]) (sg_host Props_Sigma.ex_maps [sg_q; sg_r]) (sx_conf "none" "alert")
    (Props_Sigma.ex_maps, [] ++ [sg_r]) (Props_Sigma.ex_maps, [] ++ sg_q :: [sg_r]) /\
  sg_told AlertMode Props_Sigma.ex_maps [sg_r] = Some (Some [("id1", "d", PHigh); ("id1", "d", PHigh)]) /\
  sg_told AlertMode Props_Sigma.ex_maps [sg_q; sg_r] = Some (Some [("q", "e", PLow); ("q", "e", PLow); ("id1", "d", PHigh); ("id1", "d", PHigh)]).
Proof. split; [apply (sg_shows (_, [sg_r]) (_, [sg_q; sg_r])); repeat constructor|]. vm_compute. split; reflexivity. Qed.
Example C112_rules_reordered_case : Permutation [sg_q; sg_r] [sg_r; sg_q] /\
  sg_told AlertMode Props_Sigma.ex_maps [sg_r; sg_q] = Some (Some [("id1", "d", PHigh); ("id1", "d", PHigh); ("q", "e", PLow); ("q", "e", PLow)]).
Proof. split; [constructor|]. vm_compute. reflexivity. Qed.
Example C112_searches_case :
  NoDup (map fst (sr_searches sg_q)) /\ Permutation (sr_searches sg_q) (rev (sr_searches sg_q)) /\
  Forall (passes_over Props_Sigma.ex_pmatch "c") (sr_conds sg_q) /\
  Forall2 (spelled Props_Sigma.ex_pmatch (map fst (sr_searches sg_r))) (sr_conds sg_r)
    [SAnd [SAnd [SId "sel_img"; SId "sel_args"]; SNot (SId "filter"); SNot (SId "absent")]; SAnd (map SId ["sel_img"; "sel_args"; "kw"; "filter"]); SOr (map SId ["sel_img"; "sel_args"; "kw"; "filter"])] /\
  sg_told AlertMode Props_Sigma.ex_maps [with_searches sg_q (("c", mkSearch ["y"] []) :: rev (sr_searches sg_q))] = Some (Some [("q", "e", PLow); ("q", "e", PLow)]).
Proof.
  split; [repeat constructor; cbn; intuition discriminate|]. split; [apply Permutation_rev|]. split; [repeat constructor; discriminate|].
  split; [|vm_compute; reflexivity]. constructor; [|constructor; [constructor|constructor; [constructor|constructor]]].
  apply sp_and. apply spl_cons; [exact (sp_allp _ _ "sel*")|]. apply spl_cons; [constructor|]. apply spl_cons; [constructor|constructor].
Qed.
Example C112_other_mappings_case :
  (forall r f, In r [sg_q] -> field_of r f -> mget f Props_Sigma.ex_maps = mget f ([] : gomap (list string))) /\
  sg_told EnrichMode [] [sg_q] = Some (Some [("q", "e", PLow); ("q", "e", PLow)]).
Proof.
  split; [|vm_compute; reflexivity]. intros r f [<-|[]] (nm & s & em & fm & H1 & H2 & H3 & ->). cbn in H1. destruct H1 as [H1|[H1|[]]]; injection H1 as <- <-; cbn in H2; [|destruct H2].
  destruct H2 as [<-|[]]. destruct H3 as [<-|[]]. reflexivity.
Qed.

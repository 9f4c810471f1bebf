(** * Properties C17-C19, C49, C50: the Sigma policy compiler. *)
From Coq Require Import Permutation.
From Verif Require Import GoBase GoFacts Predicates SpecStrings FlatRecord FieldTables Samples
  FalcoModel SpecFalco SpecFlat FalcoFacts3 SigmaModel SpecSigma SigmaFacts.

(** The rule used in the examples. *)
Definition ex_maps : gomap (list string) := [("Image", ["sf.proc.exe"; "other"]); ("User", ["sf.proc.uid"])].
Definition ex_searches : gomap search :=
  [("sel_img", mkSearch [] [[mkFM "Image" ["endswith"] ["/zsh"; "/BASH"]]]);
   ("sel_args", mkSearch [] [[mkFM "sf.proc.args" ["windash"; "all"; "contains"] ["-C"; "ls"]]]);
   ("kw", mkSearch ["foo"] []);
   ("filter", mkSearch [] [[mkFM "User" ["lt"] ["500"]]])].
Definition ex_cond : sexpr := SAnd [SAllOfPattern "sel*"; SNot (SId "filter"); SNot (SId "absent")].
Definition ex_rule : srule := mkSRule "id1" "d" "HIGH" ["attack.t1"] [ex_cond; SAllOfThem; SOneOfThem] ex_searches.
Definition ex_pmatch (p n : string) : bool := has_prefix n (stake (slen p - 1) p).
Definition ex_ord (r : srule) (p : list nat) := if Nat.even (length p) then rev (sr_searches r) else sr_searches r.

(** C17.  The truth value of a compiled condition, whatever the orders in which the map of
    searches is iterated. *)
Theorem C17_condition_meaning :
  forall (R : Type) (ops : operations R) mappings pmatch rec A, smodels ops rec A ->
  forall searches enum, (forall p, Permutation (enum p) searches) ->
  forall e p c, visit_sexpr ops mappings pmatch searches enum p e = Ok c ->
  (c_eval c rec = true <-> cond_holds mappings pmatch A searches e).
Proof. exact @visit_sexpr_spec. Qed.
Print Assumptions C17_condition_meaning.
(** Whole compilation: the rules are those of the parsable files, in file and condition order,
    one per condition, each with its own attributes and meaning. *)
Theorem C17_compiled_rules :
  forall (R : Type) (ops : operations R) mappings pmatch ord,
  (forall r p, Permutation (ord r p) (sr_searches r)) -> forall fs rs,
  s_compile ops mappings pmatch ord fs = Ok (Some rs) ->
  exists srs, readable fs srs /\
    Forall2 (srule_of ops mappings pmatch) (concat (map (fun r => map (fun e => (r, e)) (sr_conds r)) srs)) rs.
Proof. exact @s_compile_spec. Qed.
Print Assumptions C17_compiled_rules.
(** An unreadable file, and only that, makes compilation fail as a whole. *)
Theorem C17_unreadable_file :
  forall (R : Type) (ops : operations R) mappings pmatch ord fs,
  s_compile ops mappings pmatch ord fs = Ok None <-> In None fs.
Proof. exact @s_compile_err. Qed.
Print Assumptions C17_unreadable_file.
(** Compilation succeeds when every search is usable. *)
Theorem C17_condition_compiles :
  forall (R : Type) (ops : operations R) mappings pmatch (P : string -> Prop),
  (forall l r op, P l -> P r -> exists c, op_compare ops l r op = Ok (c, false)) ->
  forall searches enum, (forall p, Permutation (enum p) searches) ->
  (forall n s, In (n, s) searches -> search_usable mappings P s) ->
  forall e p, exists c, visit_sexpr ops mappings pmatch searches enum p e = Ok c.
Proof. exact @visit_sexpr_total. Qed.
Print Assumptions C17_condition_compiles.
(** The flatrecord source meets the hypothesis of C17_condition_meaning. *)
Theorem C17_flatrecord_models : forall X M fr, smodels (flat_ops X M) fr (flat_satomic X M fr).
Proof. exact flat_smodels. Qed.
Print Assumptions C17_flatrecord_models.
Example C17_case :
  match s_compile (flat_ops X0 mappers) ex_maps ex_pmatch ex_ord [Some None; Some (Some ex_rule)] with
  | Ok (Some rs) => map (fun r => (r_name r, c_eval (r_cond r) rec0, r_prio r)) rs
                    = [("id1", true, PHigh); ("id1", false, PHigh); ("id1", true, PHigh)]
  | _ => False
  end.
Proof. vm_compute. reflexivity. Qed.
Example C17_ord_case : forall r p, Permutation (ex_ord r p) (sr_searches r).
Proof. intros r p. unfold ex_ord. destruct (Nat.even (length p)); [apply Permutation_sym, Permutation_rev|apply Permutation_refl]. Qed.
Example C17_usable_case : forall n s, In (n, s) ex_searches -> search_usable ex_maps (fun _ => True) s.
Proof.
  intros n s H em fm He Hf. assert (Hm : forall m, In m (fm_mods fm) -> m <> "base64Offset" /\ m <> "cidr").
  { simpl in H. destruct H as [H|[H|[H|[H|[]]]]]; inversion H; subst; simpl in He; repeat destruct He as [<-|He]; try contradiction;
      destruct Hf as [<-|[]]; intros m Hm; simpl in Hm; repeat destruct Hm as [<-|Hm]; try contradiction; split; discriminate. }
  split; [exact Hm|]. split; [|auto].
  simpl in H. destruct H as [H|[H|[H|[H|[]]]]]; inversion H; subst; simpl in He; repeat destruct He as [<-|He]; try contradiction;
      destruct Hf as [<-|[]]; vm_compute; discriminate.
Qed.

(** C18.  Field matchers and searches. *)
Theorem C18_field_matcher :
  forall (R : Type) (ops : operations R) mappings rec A, smodels ops rec A ->
  forall fm c, visit_fm ops mappings fm = Ok c -> (c_eval c rec = true <-> fm_holds mappings A fm).
Proof. intros R ops mappings. exact (@visit_fm_spec R ops mappings (fun _ _ => true)). Qed.
Print Assumptions C18_field_matcher.
Theorem C18_search :
  forall (R : Type) (ops : operations R) mappings rec A, smodels ops rec A ->
  forall s c, visit_search ops mappings s = Ok c -> (c_eval c rec = true <-> search_holds mappings A s).
Proof. intros R ops mappings. exact (@visit_search_spec R ops mappings (fun _ _ => true)). Qed.
Print Assumptions C18_search.
Example C18_case :
  let val fm := match visit_fm (flat_ops X0 mappers) ex_maps fm with Ok c => Some (c_eval c rec0) | _ => None end in
  val (mkFM "Image" ["startswith"; "endswith"] ["/usr"; "/usr/bin/bash"]) = Some true /\
  val (mkFM "Image" ["startswith"; "endswith"] ["/usr"]) = Some false /\
  val (mkFM "Image" ["all"; "contains"] ["USR"; "bin"]) = Some true /\
  val (mkFM "Image" [] ["/USR/bin/bash"]) = Some true /\
  val (mkFM "sf.proc.args" ["windash"; "contains"] ["-C"]) = Some true.
Proof. vm_compute. repeat split; reflexivity. Qed.

(** C19.  Transformations. *)
Theorem C19_windash :
  forall s, slen (windash s) = slen s /\
  forall i a, String.get i (windash s) = Some a <->
    exists b, String.get i s = Some b /\ (b = "-"%char /\ a = "/"%char \/ b <> "-"%char /\ a = b).
Proof. exact windash_spec. Qed.
Print Assumptions C19_windash.
Theorem C19_base64_round_trip : forall s, unbase64 (b64 s) = Some s.
Proof. exact unbase64_b64. Qed.
Print Assumptions C19_base64_round_trip.
(** The forms a modifier's flags produce, when the transformation returns. *)
Theorem C19_forms :
  forall m fls v w, mget m transformers_map = Some fls ->
  (forall t, In t fls -> exists ws, transform v t = Ok ws) ->
  ((exists t ws, In t fls /\ transform v t = Ok ws /\ In w ws) <-> form_of m v w).
Proof. exact forms_spec. Qed.
Print Assumptions C19_forms.
(** Refuted for base64Offset and cidr: a search using them is never compiled (the compiler
    panics), whatever the value. *)
Theorem C19_offset_refuted :
  forall (R : Type) (ops : operations R) mappings s em fm m,
  se_keywords s = [] -> In em (se_matchers s) -> In fm em -> In m (fm_mods fm) -> m = "base64Offset" \/ m = "cidr" ->
  fm_values fm <> [] -> forall c, visit_search ops mappings s <> Ok c.
Proof. exact @unsupported_never. Qed.
Print Assumptions C19_offset_refuted.
(** The name the Sigma language gives that modifier, base64offset, is ignored altogether. *)
Theorem C19_offset_name_refuted :
  forall (R : Type) (ops : operations R) mappings f mods vs,
  visit_fm ops mappings (mkFM f ("base64offset" :: mods) vs) = visit_fm ops mappings (mkFM f mods vs).
Proof. exact @base64offset_ignored. Qed.
Print Assumptions C19_offset_name_refuted.
(** Several flags at once: dashes are replaced before the encoding. *)
Theorem C19_combined_flags :
  forall v, transform v (fl_set WinDashFlag Base64Flag) = Ok [b64 (windash v)] /\ transform v (fl_set WinDashFlag NoFlags) = Ok [windash v] /\
  transform v (fl_set WinDashFlag Base64OffsetFlag) = Panic /\ transform v (fl_set CIDRFlag Base64Flag) = Panic.
Proof. exact combined_flags. Qed.
Print Assumptions C19_combined_flags.
(** Refuted: "modifiers of a field are chained", as the Sigma language prescribes.  The compiler tries
    each transformation on its own: with windash|base64 the encoding of the replaced text is never
    searched for, if there was a dash. *)
Theorem C19_chained_refuted :
  forall v, windash v <> v -> ~ form ["windash"; "base64"] v (b64 (windash v)).
Proof. exact not_chained. Qed.
Print Assumptions C19_chained_refuted.
Example C19_chained_case : windash "-C" <> "-C" /\ form ["windash"; "base64"] "-C" (b64 "-C").
Proof. split; [discriminate|]. left. exists "base64". split; [right; now left|constructor]. Qed.
Example C19_case :
  windash "a-b--c/" = "a/b//c/" /\ b64 "foobar" = "Zm9vYmFy" /\ b64 "fooba" = "Zm9vYmE=" /\ b64 "foob" = "Zm9vYg==" /\
  mget "windash" transformers_map = Some [NoFlags; WinDashFlag] /\
  visit_search (flat_ops X0 mappers) ex_maps (mkSearch [] [[mkFM "Image" ["base64Offset"] ["x"]]]) = Panic.
Proof. vm_compute. repeat split; reflexivity. Qed.

(** C49 (refuted).  The `re` modifier has no effect on compilation. *)
Theorem C49_re_modifier_refuted :
  forall (R : Type) (ops : operations R) mappings f mods vs, ~ In "re" mods ->
  visit_fm ops mappings (mkFM f ("re" :: mods) vs) = visit_fm ops mappings (mkFM f mods vs).
Proof. exact @re_ignored. Qed.
Print Assumptions C49_re_modifier_refuted.
(** The pattern matches the executable; the compiled matcher does not hold. *)
Example C49_case :
  (exists c, visit_fm (flat_ops X0 mappers) ex_maps (mkFM "Image" ["re"] ["bin"]) = Ok c /\ c_eval c rec0 = false) /\
  sa_re (flat_satomic X0 mappers rec0) "sf.proc.exe" "bin".
Proof.
  split; [eexists; split; [reflexivity|vm_compute; reflexivity]|].
  eexists. eexists. split; [vm_compute; reflexivity|]. split; [vm_compute; reflexivity|]. vm_compute. discriminate.
Qed.

(** C50 (refuted).  A list of maps is treated as one map holding all their entries. *)
Theorem C50_list_of_maps_refuted :
  forall (R : Type) (ops : operations R) mappings ms,
  visit_search ops mappings (mkSearch [] ms) = visit_search ops mappings (mkSearch [] [concat ms]).
Proof. exact @maps_conjoined. Qed.
Print Assumptions C50_list_of_maps_refuted.
(** The first map alone holds of the record, the list of maps does not. *)
Example C50_case :
  let val s := match visit_search (flat_ops X0 mappers) ex_maps s with Ok c => Some (c_eval c rec0) | _ => None end in
  let m1 := [mkFM "Image" ["contains"] ["bin"]] in let m2 := [mkFM "Image" ["contains"] ["nope"]] in
  val (mkSearch [] [m1]) = Some true /\ val (mkSearch [] [m1; m2]) = Some false.
Proof. vm_compute. split; reflexivity. Qed.

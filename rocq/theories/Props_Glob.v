(** * Property C117: which searches [1 of sel*] and [all of sel*] speak of. *)
From Coq Require Import Permutation.
From Verif Require Import GoBase GoFacts SpecWords WordFacts Predicates FieldTables Samples FalcoModel FalcoFacts3 SigmaModel SpecSigma SigmaFacts GlobModel SpecGlob GlobFacts Props_Sigma.
Local Open Scope string_scope.

(** C117.  A name is selected by a pattern exactly if it fits it in the sense of [SpecGlob], for every pattern and every name
    (if the pattern has classes, for names without slashes; see [C117_slash_case]). *)
Theorem C117_selected : forall p n, free_of "/" n \/ classless p -> (name_matches p n = true <-> glob p n).
Proof. exact name_matches_iff. Qed.
(** A selected name always fits the pattern. *)
Theorem C117_sound : forall p n, name_matches p n = true -> glob p n.
Proof. intros p n H. apply glob_sound. unfold name_matches in H. destruct (path_match p n) as [[]|]; (reflexivity || discriminate). Qed.
(** A text that is no pattern is an error, whatever the name, and selects nothing. *)
Theorem C117_no_pattern : forall p n, (path_match p n = None <-> forall l, ~ reads p l) /\ ((forall l, ~ reads p l) -> name_matches p n = false).
Proof.
  intros p n. split; [apply glob_error|]. intros H. apply (glob_error p n) in H. unfold name_matches. now rewrite H.
Qed.
(** What the usual patterns select: a plain word itself, a word followed by a star the names that begin with it,
    preceded by a star the names that end with it. *)
Lemma plain_cons c s : plain (String c s) -> (c <> "*"%char /\ c <> "?"%char /\ c <> "["%char /\ c <> "\"%char) /\ plain s.
Proof. intros H. split; [repeat split; eapply (H _); cbn; tauto|]. intros d Hd. exact (proj2 (H d Hd)). Qed.
Lemma plain_reads w p : plain w -> forall l, reads (w ++ p) l <-> exists l', reads p l' /\ l = (map Lit (list_ascii_of_string w) ++ l')%list.
Proof.
  induction w as [|c w IH]; intros P l; cbn [append list_ascii_of_string map List.app]; [split; [eauto|intros (l' & H & ->); exact H]|].
  apply plain_cons in P as [(N1 & N2 & N3 & N4) P]. split.
  - intros H. inversion H as [| | |c' p' l1 K1 K2 K3 K4 H6| | |]; subst; try congruence. apply IH in H6 as (l' & H' & ->); [|exact P]. eauto.
  - intros (l' & H' & ->). constructor; [assumption..|]. apply IH; eauto.
Qed.
Lemma plain_fits w l n : fits (map Lit (list_ascii_of_string w) ++ l)%list n <-> exists t, n = w ++ t /\ fits l t.
Proof.
  revert n. induction w as [|c w IH]; intros n; cbn [append list_ascii_of_string map List.app]; [split; [eauto|intros (t & -> & H); exact H]|]. split.
  - intros H. inversion H as [|i l' s t S1 F]; subst. inversion S1; subst. apply IH in F as (t' & -> & F). exists t'. auto.
  - intros (t & -> & F). change (String c (w ++ t)) with (String c "" ++ (w ++ t)). constructor; [constructor|]. apply IH. eauto.
Qed.
Lemma reads_nil_inv l : reads "" l -> l = [].
Proof. intros H. now inversion H. Qed.
Lemma reads_star_inv p l : reads (String "*" p) l -> exists l', reads p l' /\ l = Star :: l'.
Proof. intros H. inversion H; subst; [eauto|congruence]. Qed.
Lemma plain_word w : plain w -> forall l, reads w l <-> l = map Lit (list_ascii_of_string w).
Proof.
  intros P l. rewrite <- (sapp_nil_r w) at 1. rewrite (plain_reads w "" P). split.
  - intros (l' & H & ->). apply reads_nil_inv in H. subst. apply app_nil_r.
  - intros ->. exists []. split; [constructor|]. now rewrite app_nil_r.
Qed.
Theorem C117_usual : forall w n, plain w ->
  (name_matches w n = true <-> n = w) /\
  (name_matches (w ++ "*") n = true <-> exists t, n = w ++ t /\ free_of "/" t) /\
  (name_matches (String "*" w) n = true <-> exists t, n = t ++ w /\ free_of "/" t).
Proof.
  intros w n P. assert (Cw : classless w) by (apply P; cbn; tauto). repeat split.
  - intros H. apply C117_selected in H as (l & R & F); [|now right]. apply (plain_word w P) in R. subst. rewrite <- (app_nil_r (map _ _)) in F. apply plain_fits in F as (t & -> & F). inversion F. apply sapp_nil_r.
  - intros ->. apply C117_selected; [now right|]. exists (map Lit (list_ascii_of_string w)). split; [now apply plain_word|]. rewrite <- (app_nil_r (map _ _)). apply plain_fits. exists "". rewrite sapp_nil_r. split; [reflexivity|constructor].
  - intros H. apply C117_selected in H as (l & R & F); [|right; apply free_app; split; [exact Cw|split; [discriminate|exact Logic.I]]].
    apply (plain_reads w "*" P) in R as (l' & R & ->). apply reads_star_inv in R as (l2 & R & ->). apply reads_nil_inv in R. subst l2. apply plain_fits in F as (t & -> & F). apply fits_star in F as (u & v & -> & Fu & Fv).
    inversion Fv. exists u. rewrite sapp_nil_r. auto.
  - intros (t & -> & F). apply C117_selected; [right; apply free_app; split; [exact Cw|split; [discriminate|exact Logic.I]]|]. exists (map Lit (list_ascii_of_string w) ++ [Star])%list.
    split; [apply (plain_reads w "*" P); exists [Star]; split; [repeat constructor|reflexivity]|]. apply plain_fits. exists t. split; [reflexivity|]. apply fits_star. exists t, "". rewrite sapp_nil_r. split; [reflexivity|split; [exact F|constructor]].
  - intros H. apply C117_selected in H as (l & R & F); [|right; split; [discriminate|exact Cw]]. apply reads_star_inv in R as (l2 & R & ->). apply (plain_word w P) in R. subst. apply fits_star in F as (u & v & -> & Fu & Fv).
    rewrite <- (app_nil_r (map _ _)) in Fv. apply plain_fits in Fv as (t & -> & F). inversion F. exists u. rewrite sapp_nil_r. auto.
  - intros (t & -> & F). apply C117_selected; [right; split; [discriminate|exact Cw]|]. exists (Star :: map Lit (list_ascii_of_string w)). split; [constructor; now apply plain_word|].
    apply fits_star. exists t, w. split; [reflexivity|split; [exact F|]]. rewrite <- (app_nil_r (map _ _)). apply plain_fits. exists "". rewrite sapp_nil_r. split; [reflexivity|constructor].
Qed.
(** So a compiled [1 of p] holds of a record iff one of the searches whose names fit [p] holds, and [all of p] iff all of them do,
    in whatever order the searches are met.  In particular [all of p] always holds if no name fits. *)
Theorem C117_conditions : forall (R : Type) (ops : operations R) mappings rec A, smodels ops rec A ->
  forall searches enum, (forall i, Permutation (enum i) searches) -> forall p, classless p \/ (forall n s, In (n, s) searches -> free_of "/" n) ->
  (forall i c, visit_sexpr ops mappings name_matches searches enum i (SOneOfPattern p) = Ok c ->
    (c_eval c rec = true <-> exists n s, In (n, s) searches /\ glob p n /\ search_holds mappings A s)) /\
  (forall i c, visit_sexpr ops mappings name_matches searches enum i (SAllOfPattern p) = Ok c ->
    (c_eval c rec = true <-> forall n s, In (n, s) searches -> glob p n -> search_holds mappings A s)).
Proof.
  intros R ops mappings rec A M searches enum Pe p Cp.
  assert (Q : forall n s, In (n, s) searches -> (name_matches p n = true <-> glob p n)) by (intros n s Hi; apply C117_selected; destruct Cp as [Cp|Cp]; eauto).
  split; intros i c H; rewrite (C17_condition_meaning R ops mappings name_matches rec A M searches enum Pe _ i c H); cbn [cond_holds].
  - split; intros (n & s & Hi & Hn & Hs); exists n, s; (split; [exact Hi|split; [now apply (Q n s Hi)|exact Hs]]).
  - split; intros K n s Hi Hn; (apply (K n s Hi); now apply (Q n s Hi)).
Qed.
Print Assumptions C117_selected.
Print Assumptions C117_sound.
Print Assumptions C117_no_pattern.
Print Assumptions C117_usual.
Print Assumptions C117_conditions.

(** Cases: names selected by a pattern with stars, a class and an escape; a text that is no pattern; the rule of C17 with Go's matching. *)
Example C117_case : glob "s?l_*[a-f]*\*" "sel_1b22*" /\ ~ glob "s?l_*[a-f]*\*" "sel_1g22*" /\ (forall l, ~ reads "sel[a" l) /\ plain "selection_" /\ name_matches "sel*" "sel_img" = true.
Proof.
  split; [apply C117_sound; reflexivity|]. split; [intros H; apply C117_selected in H; [vm_compute in H; discriminate|left; cbn; repeat split; discriminate]|].
  split; [apply (C117_no_pattern "sel[a" "x"); reflexivity|]. split; [|reflexivity]. intros c H. cbn in H. repeat (destruct H as [<-|H]; [cbn; repeat split; discriminate|]). destruct H.
Qed.
(** With a class and a slash, Go's search stops at the first place the chunk fits and may miss a match. *)
Example C117_slash_case : glob "*[a/]*b" "a/b" /\ path_match "*[a/]*b" "a/b" = Some false.
Proof.
  split; [|reflexivity]. exists [Star; Class false [("a"%char, "a"%char); ("/"%char, "/"%char)]; Star; Lit "b"%char]. split.
  - constructor. change (reads (String "[" ("a/" ++ String "]" "*b")) (Class false [("a"%char, "a"%char); ("/"%char, "/"%char)] :: [Star; Lit "b"%char])). constructor.
    + change "a/" with ("a" ++ "/"). constructor; [|constructor]; constructor; constructor; discriminate.
    + intros u. discriminate.
    + constructor. constructor; [discriminate..|]. constructor.
  - apply fits_star. exists "a", "/b". split; [reflexivity|]. split; [cbn; split; [discriminate|exact Logic.I]|]. change "/b" with ("/" ++ "b"). constructor.
    + constructor. exists "/"%char, "/"%char. split; [right; left; reflexivity|auto].
    + apply fits_star. exists "", "b". split; [reflexivity|]. split; [exact Logic.I|]. change "b" with ("b" ++ ""). constructor; [constructor|constructor].
Qed.
Example C117_rule_case :
  match s_compile (FlatRecord.flat_ops X0 mappers) ex_maps name_matches ex_ord [Some None; Some (Some ex_rule)] with
  | Ok (Some rs) => map (fun r => c_eval (r_cond r) rec0) rs = [true; false; true]
  | _ => False
  end.
Proof. vm_compute. reflexivity. Qed.

(** * GrammarFacts4: trees depend on the words only. *)
From Verif Require Import GoBase FalcoModel GrammarModel GrammarParser GrammarFacts GrammarFacts2 SpecFalco SpecGrammar LexerModel SpecLexer.
From Coq Require Import Lia.

Notation SW := (Forall2 same_word).
Lemma sw_k t t' k : same_word t t' -> tk t = k -> tk t' = k.
Proof. intros [<- _]. auto. Qed.
Lemma sw_a t t' : same_word t t' -> is_atom (tk t) = true -> is_atom (tk t') = true.
Proof. intros [<- _]. auto. Qed.
Ltac sw :=
  repeat match goal with
  | H : SW (_ ++ _) _ |- _ => apply Forall2_app_inv_l in H; destruct H as (? & ? & ? & ? & ->)
  | H : SW (_ :: _) _ |- _ => inversion H; clear H; subst
  | H : SW [] _ |- _ => inversion H; clear H; subst
  end.
Ltac swk := try (eapply sw_k; eassumption); try (eapply sw_a; eassumption).
Ltac swx := repeat match goal with H : same_word ?t ?t' |- _ =>
  match goal with |- context [tx t] => rewrite (proj2 H) end end.
Lemma same_atoms ts l : g_atoms ts l -> forall ts', SW ts ts' -> g_atoms ts' l.
Proof. induction 1; intros ts' H'; sw; swx; constructor; swk; auto. Qed.
Lemma same_items ts it : g_items ts it -> forall ts', SW ts ts' -> g_items ts' it.
Proof. destruct 1; intros ts' H'; sw; constructor; swk; eauto using same_atoms. Qed.
Lemma same_arg ts a : g_arg ts a -> forall ts', SW ts ts' -> g_arg ts' a.
Proof. destruct 1; intros ts' H'; sw; swx; constructor; swk; eauto using same_items. Qed.
Lemma same_args ts l : g_args ts l -> forall ts', SW ts ts' -> g_args ts' l.
Proof. induction 1; intros us H'; sw; constructor; swk; eauto using same_arg. Qed.
Lemma same_expr :
  (forall ts t, g_term ts t -> forall ts', SW ts ts' -> g_term ts' t) /\
  (forall ts l, g_and ts l -> forall ts', SW ts ts' -> g_and ts' l) /\
  (forall ts e, g_expr ts e -> forall ts', SW ts ts' -> g_expr ts' e).
Proof.
  apply g_mut; intros; sw; swx; try (constructor; swk; eauto using same_args; fail).
  - constructor; swk. match goal with H : same_word o _ |- _ => now rewrite <- (proj1 H) end.
Qed.
Lemma same_text_g ts s ts' : g_text ts s -> SW ts ts' -> exists s', g_text ts' s' /\ same_text s s'.
Proof.
  destruct 1 as [ts Hne Hf]. intros H. exists (source_text ts'). split.
  - constructor.
    + destruct H; congruence.
    + clear Hne. induction H as [|t t' ts ts' Ht H IH]; [constructor|]. inversion_clear Hf. constructor; [|auto].
      now rewrite <- (proj2 Ht).
  - exists ts, ts'. auto.
Qed.
Lemma same_opt_refl o : match o with OOutput _ => False | _ => True end -> same_opt o o.
Proof. destruct o; cbn; tauto || auto. Qed.
Lemma same_opt_g ts o ts' : g_opt ts o -> SW ts ts' -> exists o', g_opt ts' o' /\ same_opt o o'.
Proof.
  destruct 1; intros H'; sw.
  - match goal with H : g_text _ _, H' : SW _ _ |- _ => destruct (same_text_g _ _ _ H H') as (s' & Hs & Hss) end.
    exists (OOutput s'). split; [constructor; swk; auto|exact Hss].
  - eexists. split; [apply g_actions; swk; eauto using same_items|reflexivity].
  - eexists. split; [apply g_priority; swk|]. swx. reflexivity.
  - eexists. split; [apply g_tags; swk; eauto using same_items|reflexivity].
  - eexists. split; [apply g_prefilter; swk; eauto using same_items|reflexivity].
  - eexists. split; [apply g_enabled; swk|]. swx. reflexivity.
  - eexists. split; [apply g_warn; swk|]. swx. reflexivity.
  - eexists. split; [apply g_skip; swk|]. swx. reflexivity.
Qed.
Lemma same_opts_g ts l : g_opts ts l -> forall ts', SW ts ts' -> exists l', g_opts ts' l' /\ Forall2 same_opt l l'.
Proof.
  induction 1 as [|ts o ts1 l Ho Hl IH]; intros ts' H'.
  - sw. exists []. split; constructor.
  - apply Forall2_app_inv_l in H' as (a & b & Ha & Hb & ->).
    destruct (same_opt_g _ _ _ Ho Ha) as (o' & Ho' & Hoo). destruct (IH _ Hb) as (l' & Hl' & Hll).
    exists (o' :: l'). split; constructor; auto.
Qed.
Lemma sw_or t t' k k' : same_word t t' -> tk t = k \/ tk t = k' -> tk t' = k \/ tk t' = k'.
Proof. intros [<- _]. auto. Qed.
Lemma same_decl_g ts d ts' : g_decl ts d -> SW ts ts' -> exists d', g_decl ts' d' /\ same_decl d d'.
Proof.
  pose proof (proj2 (proj2 same_expr)) as SE.
  destruct 1; intros H'.
  - sw. repeat match goal with H : g_text ?n _, H' : SW ?n _ |- _ =>
      destruct (same_text_g _ _ _ H H') as (? & ? & ?); clear H end.
    match goal with H : g_opts ?o _, H' : SW ?o _ |- _ => destruct (same_opts_g _ _ H _ H') as (? & ? & ?) end.
    eexists (DRule (mkRuleDecl _ _ _ _)). split.
    + eapply g_rule; swk; eauto.
    + cbn. repeat split; auto.
  - sw. eexists. split; [apply g_filter; swk; eauto using sw_or|]. swx. reflexivity.
  - sw. eexists. split; [apply g_filter_enabled; swk; eauto using sw_or|]. swx. reflexivity.
  - sw. eexists. split; [apply g_macro; swk; eauto|]. swx. reflexivity.
  - sw. eexists. split; [apply g_macro_append; swk; eauto|]. swx. reflexivity.
  - sw. eexists. split; [apply g_list; swk; eauto using same_items|]. swx. reflexivity.
  - sw. eexists. split; [apply g_req; swk|]. swx. reflexivity.
Qed.
Lemma same_defs_g ts ds : g_defs ts ds -> forall ts', SW ts ts' -> exists ds', g_defs ts' ds' /\ Forall2 same_decl ds ds'.
Proof.
  induction 1 as [|ts d ts1 ds Hd Hds IH]; intros ts' H'.
  - sw. exists []. split; constructor.
  - apply Forall2_app_inv_l in H' as (a & b & Ha & Hb & ->).
    destruct (same_decl_g _ _ _ Hd Ha) as (d' & Hd' & Hdd). destruct (IH _ Hb) as (l' & Hl' & Hll).
    exists (d' :: l'). split; constructor; auto.
Qed.
Lemma same_policy ts ds ts' : g_policy ts ds -> SW ts ts' -> exists ds', g_policy ts' ds' /\ Forall2 same_decl ds ds'.
Proof.
  intros [H Hne] H'. destruct (same_defs_g _ _ H _ H') as (ds' & Hd & HH). exists ds'. split; [|assumption].
  split; [assumption|]. destruct HH; congruence.
Qed.

(** * GrammarFacts3: operator precedence. *)
From Verif Require Import GoBase FalcoModel GrammarModel GrammarParser GrammarFacts SpecFalco SpecGrammar.
From Coq Require Import Lia.

Lemma g_and_app ts l a ts' l' : g_and ts l -> tk a = KAnd -> g_and ts' l' -> g_and (ts ++ a :: ts') (l ++ l').
Proof.
  intros H Ha H'. revert ts l H. fix IH 3. intros ts l [ts1 t Ht|ts1 t b ts2 l2 Ht Hb Hl].
  - now constructor.
  - rewrite <- app_assoc. cbn [app]. constructor; auto.
Qed.
Lemma g_expr_app ts e o ts' e' : g_expr ts e -> tk o = KOr -> g_expr ts' e' -> g_expr (ts ++ o :: ts') (e ++ e').
Proof.
  intros H Ha H'. revert ts e H. fix IH 3. intros ts e [ts1 t Ht|ts1 t b ts2 l2 Ht Hb Hl].
  - now constructor.
  - rewrite <- app_assoc. cbn [app]. constructor; auto.
Qed.
Lemma g_term_unique ts t t' : g_term ts t -> g_term ts t' -> t = t'.
Proof.
  intros H H'. assert (E : [[t]] = [[t']]) by (apply (g_expr_unique ts); now repeat constructor).
  now injection E.
Qed.

Section Prec.
Variable macros : string -> option expr.
Variable lists : string -> option (list string).
Variable A : atomic.
Notation TV := (tv macros lists A).
Notation EV := (ev macros lists A).
Notation CV := (cv macros lists A).
Notation H := (holds (test_value macros lists A)).

Lemma cv_app c c' v : CV (c ++ c') v <-> exists v1 v2, CV c v1 /\ CV c' v2 /\ v = v1 && v2.
Proof.
  revert v; induction c as [|t c IH]; intros v; cbn [app].
  - split; [intros Hc; exists true, v; repeat split; auto; constructor|].
    intros (v1 & v2 & H1 & H2 & ->). inversion H1. assumption.
  - split.
    + intros Hc. inversion Hc as [|? ? vt vc Ht Hr]; subst. apply IH in Hr as (v1 & v2 & H1 & H2 & ->).
      exists (vt && v1), v2. rewrite andb_assoc. repeat split; auto. now constructor.
    + intros (v1 & v2 & H1 & H2 & ->). inversion H1 as [|? ? vt vc Ht Hr]; subst.
      rewrite <- andb_assoc. constructor; [assumption|]. apply IH. eauto.
Qed.
Lemma ev_app c c' v : EV (c ++ c') v <-> exists v1 v2, EV c v1 /\ EV c' v2 /\ v = v1 || v2.
Proof.
  revert v; induction c as [|t c IH]; intros v; cbn [app].
  - split; [intros Hc; exists false, v; repeat split; auto; constructor|].
    intros (v1 & v2 & H1 & H2 & ->). inversion H1. assumption.
  - split.
    + intros Hc. inversion Hc as [|? ? vt vc Ht Hr]; subst. apply IH in Hr as (v1 & v2 & H1 & H2 & ->).
      exists (vt || v1), v2. rewrite orb_assoc. repeat split; auto. now constructor.
    + intros (v1 & v2 & H1 & H2 & ->). inversion H1 as [|? ? vt vc Ht Hr]; subst.
      rewrite <- orb_assoc. constructor; [assumption|]. apply IH. eauto.
Qed.
Lemma cv_one t v : CV [t] v <-> TV t v.
Proof.
  split.
  - intros Hc. inversion Hc as [|? ? vt vc Ht Hr]; subst. inversion Hr; subst. now rewrite andb_true_r.
  - intros Ht. rewrite <- (andb_true_r v). repeat constructor. assumption.
Qed.
Lemma ev_one t v : EV [t] v <-> CV t v.
Proof.
  split.
  - intros Hc. inversion Hc as [|? ? vt vc Ht Hr]; subst. inversion Hr; subst. now rewrite orb_false_r.
  - intros Ht. rewrite <- (orb_false_r v). repeat constructor. assumption.
Qed.

Variables lpar rpar nott andt ort : tok.
Hypothesis Hl : tk lpar = KLparen.
Hypothesis Hr : tk rpar = KRparen.
Hypothesis Hn : tk nott = KNot.
Hypothesis Ha : tk andt = KAnd.
Hypothesis Ho : tk ort = KOr.
Notation W := (write lpar rpar nott andt ort).

Definition reads_e ts f := exists e, g_expr ts e /\ forall v, EV e v <-> H f v.
Definition reads_a ts f := exists c, g_and ts c /\ forall v, CV c v <-> H f v.
Definition reads_t ts f := exists t, g_term ts t /\ forall v, TV t v <-> H f v.
Lemma reads_ta ts f : reads_t ts f -> reads_a ts f.
Proof. intros (t & Ht & E). exists [t]. split; [now constructor|]. intros v. rewrite cv_one. apply E. Qed.
Lemma reads_ae ts f : reads_a ts f -> reads_e ts f.
Proof. intros (t & Ht & E). exists [t]. split; [now constructor|]. intros v. rewrite ev_one. apply E. Qed.
Lemma reads_paren ts f : reads_e ts f -> reads_t (lpar :: ts ++ [rpar]) f.
Proof.
  intros (e & He & E). exists (TParen e). split; [now constructor|]. intros v. rewrite <- E.
  split; [intros Hv; now inversion Hv|now constructor].
Qed.
Lemma test_value_iff ts t v : g_term ts t -> (H (FTest ts) v <-> TV t v).
Proof.
  intros Ht. split.
  - intros Hv. inversion Hv as [? ? (t' & Ht' & Hv')| | |]; subst. now rewrite (g_term_unique _ _ _ Ht Ht').
  - intros Hv. constructor. now exists t.
Qed.
Lemma h_not_iff f v : H (FNot f) v <-> exists w, H f w /\ v = negb w.
Proof. split; [intros Hv; inversion Hv; subst; eauto|intros (w & Hw & ->); now constructor]. Qed.
Lemma h_and_iff f g v : H (FAnd f g) v <-> exists v1 v2, H f v1 /\ H g v2 /\ v = v1 && v2.
Proof. split; [intros Hv; inversion Hv; subst; eauto 6|intros (v1 & v2 & H1 & H2 & ->); now constructor]. Qed.
Lemma h_or_iff f g v : H (FOr f g) v <-> exists v1 v2, H f v1 /\ H g v2 /\ v = v1 || v2.
Proof. split; [intros Hv; inversion Hv; subst; eauto 6|intros (v1 & v2 & H1 & H2 & ->); now constructor]. Qed.

Lemma reads_and ts ts' f g : reads_a ts f -> reads_a ts' g -> reads_a (ts ++ andt :: ts') (FAnd f g).
Proof.
  intros (c & Hc & E) (c' & Hc' & E'). exists (c ++ c'). split; [now apply g_and_app|].
  intros v. rewrite cv_app, h_and_iff.
  split; intros (v1 & v2 & H1 & H2 & ->); exists v1, v2; rewrite ?E, ?E' in *; auto.
Qed.
Lemma reads_or ts ts' f g : reads_e ts f -> reads_e ts' g -> reads_e (ts ++ ort :: ts') (FOr f g).
Proof.
  intros (c & Hc & E) (c' & Hc' & E'). exists (c ++ c'). split; [now apply g_expr_app|].
  intros v. rewrite ev_app, h_or_iff.
  split; intros (v1 & v2 & H1 & H2 & ->); exists v1, v2; rewrite ?E, ?E' in *; auto.
Qed.

Lemma write_reads f : tests_ok f ->
  reads_e (W 0 f) f /\ reads_a (W 1 f) f /\ reads_t (W 2 f) f.
Proof.
  induction f as [ts|f IH|f IHf g IHg|f IHf g IHg]; intros Hok.
  - destruct Hok as (t & Ht & _). cbn [write].
    assert (R : reads_t ts (FTest ts)) by (exists t; split; [assumption|intros v; symmetry; now apply test_value_iff]).
    auto using reads_ta, reads_ae.
  - destruct (IH Hok) as (_ & _ & t & Ht & E). cbn [write].
    assert (R : reads_t (nott :: W 2 f) (FNot f)).
    { exists (TNot t). split; [now constructor|]. intros v. rewrite h_not_iff. split.
      - intros Hv. inversion Hv as [| |? w Hw| | | | |]; subst. exists w. split; [now apply E|reflexivity].
      - intros (w & Hw & ->). constructor. now apply E. }
    auto using reads_ta, reads_ae.
  - destruct Hok as [Hf Hg]. destruct (IHf Hf) as (_ & Rf & _), (IHg Hg) as (_ & Rg & _).
    cbn [write paren Nat.ltb Nat.leb].
    assert (R := reads_and _ _ _ _ Rf Rg). auto using reads_ae, reads_paren.
  - destruct Hok as [Hf Hg]. destruct (IHf Hf) as (Rf & _ & _), (IHg Hg) as (Rg & _ & _).
    cbn [write paren Nat.ltb Nat.leb].
    assert (R := reads_or _ _ _ _ Rf Rg). auto using reads_ta, reads_paren.
Qed.
Lemma write_precedence f : tests_ok f ->
  (exists e, g_expr (W 0 f) e) /\ forall e, g_expr (W 0 f) e -> forall v, EV e v <-> H f v.
Proof.
  intros Hok. destruct (write_reads f Hok) as ((e & He & E) & _). split; [eauto|].
  intros e' He'. now rewrite (g_expr_unique _ _ _ He' He).
Qed.
End Prec.

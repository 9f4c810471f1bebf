(** * EvalOtelFacts2: where evaluation with panics agrees with evaluation without, and where nothing panics. *)
From Coq Require Import Lia Permutation.
From Verif Require Import GoBase GoFacts Predicates PolicyFacts SpecStrings FalcoModel SpecFalco FalcoFacts FalcoFacts2 FalcoFacts3 SigmaModel SpecSigma
  EngineModel SpecEngine EngineFacts EngineFacts2 OtelModel SpecOtel OtelFacts OtelEngine InitModel SpecInit SpecOtelEngine OtelEngineFacts EvalModel SpecEval EvalFacts EvalOtel SpecEvalOtel EvalOtelFacts.

(** ** Runs of lists *)
Definition all_mono {A} (P Q : A -> res bool -> Prop) (f : forall a o, P a o -> Q a o) : forall l o, all_run P l o -> all_run Q l o :=
  fix go l o (H : all_run P l o) : all_run Q l o :=
    match H in all_run _ l o return all_run Q l o with
    | all_nil _ => all_nil Q
    | all_stop _ a l h => all_stop Q a l (f _ _ h)
    | all_crash _ a l h => all_crash Q a l (f _ _ h)
    | all_next _ a l o h h' => all_next Q a l o (f _ _ h) (go _ _ h')
    end.
Definition any_mono {A} (P Q : A -> res bool -> Prop) (f : forall a o, P a o -> Q a o) : forall l o, any_run P l o -> any_run Q l o :=
  fix go l o (H : any_run P l o) : any_run Q l o :=
    match H in any_run _ l o return any_run Q l o with
    | any_nil _ => any_nil Q
    | any_stop _ a l h => any_stop Q a l (f _ _ h)
    | any_crash _ a l h => any_crash Q a l (f _ _ h)
    | any_next _ a l o h h' => any_next Q a l o (f _ _ h) (go _ _ h')
    end.
Lemma all_calm {A} (run : A -> res bool -> Prop) l o : all_run run l o -> (forall a, In a l -> ~ run a Panic) -> o <> Panic.
Proof.
  induction 1 as [|a l H|a l H|a l o H _ IH]; intros N; try discriminate.
  - destruct (N a); [now left|assumption].
  - apply IH. intros b Hb. apply N. now right.
Qed.
Lemma any_calm {A} (run : A -> res bool -> Prop) l o : any_run run l o -> (forall a, In a l -> ~ run a Panic) -> o <> Panic.
Proof.
  induction 1 as [|a l H|a l H|a l o H _ IH]; intros N; try discriminate.
  - destruct (N a); [now left|assumption].
  - apply IH. intros b Hb. apply N. now right.
Qed.
(** A disjunction that yields a Boolean says whether some operand holds. *)
Lemma any_says {A} (run : A -> res bool -> Prop) (P : A -> Prop) l b : any_run run l (Ok b) ->
  (forall a b, In a l -> run a (Ok b) -> (b = true <-> P a)) -> (b = true <-> exists a, In a l /\ P a).
Proof.
  intros H. remember (Ok b) as o eqn:E. revert b E. induction H as [|a l H|a l H|a l o H _ IH]; intros b E HP.
  - injection E as <-. split; [discriminate|]. intros (a & [] & _).
  - injection E as <-. split; [|reflexivity]. intros _. exists a. split; [now left|]. apply (HP a true); [now left|assumption|reflexivity].
  - discriminate.
  - subst o. rewrite (IH b eq_refl); [|intros a' b' Hi; apply HP; now right].
    split; [intros (x & Hx & Px); exists x; split; [now right|assumption]|]. intros (x & [<-|Hx] & Px); [|eauto].
    pose proof (proj2 (HP a false (or_introl eq_refl) H) Px). discriminate.
Qed.

Section O.
Variable D : Type.
Variable parse_float : string -> option D.
Variables deq dlt dle : D -> D -> bool.
Notation logs := (logs D).
Notation test_run := (test_run D parse_float deq dlt dle).
Notation in_run := (in_run D parse_float deq dlt dle).
Notation t_run := (t_run D parse_float deq dlt dle).
Notation e_run := (e_run D parse_float deq dlt dle).
Notation atomic_of := (o_atomic D parse_float deq dlt dle).

Section Ind.
Variable macros : string -> option expr.
Variable lists : string -> option (list string).
Variable r : logs.
Notation run := (t_run macros lists r).
Variable P : term -> res bool -> Prop.
Notation both := (fun t o => run t o /\ P t o).
Hypothesis H1 : forall x e o, macros x = Some e -> any_run (all_run both) e o -> P (TVar x) o.
Hypothesis H2 : forall x, macros x = None -> P (TVar x) (Ok false).
Hypothesis H3 : forall t b, run t (Ok b) -> P t (Ok b) -> P (TNot t) (Ok (negb b)).
Hypothesis H4 : forall t, run t Panic -> P t Panic -> P (TNot t) Panic.
Hypothesis H5 : forall a o, exists_run D r a o -> P (TExists a) o.
Hypothesis H6 : forall l op x o, op <> BNeq -> test_run r l (op_of op) x o -> P (TBin l op x) o.
Hypothesis H7 : forall l x b, test_run r l OpEq x (Ok b) -> P (TBin l BNeq x) (Ok (negb b)).
Hypothesis H8 : forall l x, test_run r l OpEq x Panic -> P (TBin l BNeq x) Panic.
Hypothesis H9 : forall a args ys o, arg_items lists args ys -> in_run r a OpEq ys o -> P (TIn a args) o.
Hypothesis H10 : forall a args ys o, arg_items lists args ys -> in_run r a OpContains ys o -> P (TPmatch a args) o.
Hypothesis H11 : forall e o, any_run (all_run both) e o -> P (TParen e) o.
Fixpoint t_run_ind' (t : term) (o : res bool) (H : run t o) {struct H} : P t o :=
  match H in SpecEvalOtel.t_run _ _ _ _ _ _ _ _ t o return P t o with
  | rn_macro _ _ _ _ _ _ _ _ x e o E h => H1 x e o E (any_mono _ _ (all_mono _ _ (fun t o k => conj k (t_run_ind' t o k))) e o h)
  | rn_unresolved _ _ _ _ _ _ _ _ x E => H2 x E
  | rn_not _ _ _ _ _ _ _ _ t b h => H3 t b h (t_run_ind' t (Ok b) h)
  | rn_not_crash _ _ _ _ _ _ _ _ t h => H4 t h (t_run_ind' t Panic h)
  | rn_exists _ _ _ _ _ _ _ _ a o h => H5 a o h
  | rn_bin _ _ _ _ _ _ _ _ l op x o N h => H6 l op x o N h
  | rn_neq _ _ _ _ _ _ _ _ l x b h => H7 l x b h
  | rn_neq_crash _ _ _ _ _ _ _ _ l x h => H8 l x h
  | rn_in _ _ _ _ _ _ _ _ a args ys o A h => H9 a args ys o A h
  | rn_pmatch _ _ _ _ _ _ _ _ a args ys o A h => H10 a args ys o A h
  | rn_paren _ _ _ _ _ _ _ _ e o h => H11 e o (any_mono _ _ (all_mono _ _ (fun t o k => conj k (t_run_ind' t o k))) e o h)
  end.
End Ind.

(** ** Agreement with the truth values of C10 *)
Lemma test_says r k op x b : test_run r k op x (Ok b) -> (b = true <-> a_cmp (atomic_of r) k op x).
Proof. inversion 1; subst. cbn. unfold test. assumption. Qed.
Lemma in_says r k op ys b : in_run r k op ys (Ok b) -> (b = true <-> a_any (atomic_of r) k op ys).
Proof.
  inversion 1 as [|o Hr Ha]; subst. cbn. apply (any_says _ (fun x => test D parse_float deq dlt dle r k op x) ys b Ha). intros y b' _ T. exact (test_says r k op y b' T).
Qed.
Section Agree.
Variable macros : string -> option expr.
Variable lists : string -> option (list string).
Variable r : logs.
Notation run := (t_run macros lists r).
Notation A := (atomic_of r).
Definition agrees (t : term) (o : res bool) : Prop := forall b v, o = Ok b -> tv macros lists A t v -> v = b.
Lemma conj_agrees c o : all_run (fun t o => run t o /\ agrees t o) c o -> forall b v, o = Ok b -> cv macros lists A c v -> v = b.
Proof.
  induction 1 as [|t c [_ H]|t c [_ H]|t c o [_ H] _ IH]; intros b v E Hv; inversion Hv; subst.
  - congruence.
  - injection E as <-. match goal with X : tv _ _ _ t ?w |- _ => rewrite (H false w eq_refl X) end. reflexivity.
  - discriminate.
  - match goal with X : tv _ _ _ t ?w |- _ => rewrite (H true w eq_refl X) end. cbn. eauto.
Qed.
Lemma disj_agrees e o : any_run (all_run (fun t o => run t o /\ agrees t o)) e o -> forall b v, o = Ok b -> ev macros lists A e v -> v = b.
Proof.
  induction 1 as [|c e H|c e H|c e o H _ IH]; intros b v E Hv; inversion Hv; subst.
  - congruence.
  - injection E as <-. match goal with X : cv _ _ _ c ?w |- _ => rewrite (conj_agrees _ _ H true w eq_refl X) end. reflexivity.
  - discriminate.
  - match goal with X : cv _ _ _ c ?w |- _ => rewrite (conj_agrees _ _ H false w eq_refl X) end. cbn. eauto.
Qed.
Lemma term_agrees t o : run t o -> agrees t o.
Proof.
  apply (t_run_ind' macros lists r agrees); unfold agrees.
  - intros x e o' E H b v Eo Hv. inversion Hv as [y e' v' E' He| | | | | | |]; subst; [|congruence]. assert (e' = e) by congruence. subst e'. eapply disj_agrees; eauto.
  - intros x E b v Eo Hv. inversion Hv; subst; congruence.
  - intros t0 b0 _ IH b v Eo Hv. injection Eo as <-. inversion Hv; subst. f_equal. eauto.
  - discriminate.
  - intros a o' H b v -> Hv. inversion Hv; subst. inversion H; subst. eapply bool_iff_eq; eassumption.
  - intros l op x o' N H b v -> Hv. inversion Hv; subst. apply test_says in H. unfold cmp_holds in *. destruct op; try (eapply bool_iff_eq; eassumption). congruence.
  - intros l x b0 H b v Eo Hv. injection Eo as <-. inversion Hv as [| | | |l' op' x' v' Hc| | |]; subst. apply test_says in H. unfold cmp_holds in Hc.
    destruct v, b0; cbn; try reflexivity; exfalso; tauto || (destruct Hc, H; intuition congruence).
  - discriminate.
  - intros a args ys o' Ha H b v -> Hv. inversion Hv as [| | | | |a' args' ys' v' Ha' Hv'|a' args' ys' v' Ha' Hv'|]; subst. apply in_says in H. rewrite (arg_items_det_any lists _ _ _ Ha' Ha) in Hv'. eapply bool_iff_eq; eassumption.
  - intros a args ys o' Ha H b v -> Hv. inversion Hv as [| | | | |a' args' ys' v' Ha' Hv'|a' args' ys' v' Ha' Hv'|]; subst. apply in_says in H. rewrite (arg_items_det_any lists _ _ _ Ha' Ha) in Hv'. eapply bool_iff_eq; eassumption.
  - intros e o' H b v Eo Hv. inversion Hv; subst. eapply disj_agrees; eauto.
Qed.
Lemma expr_agrees e b v : e_run macros lists r e (Ok b) -> ev macros lists A e v -> v = b.
Proof.
  intros H Hv. unfold SpecEvalOtel.e_run in H. refine (disj_agrees e (Ok b) _ b v eq_refl Hv).
  revert H. apply any_mono. intros c o. apply all_mono. intros t o' Ht. split; [exact Ht|now apply term_agrees].
Qed.
End Agree.
End O.

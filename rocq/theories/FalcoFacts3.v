(** * FalcoFacts3: list literals, the flatrecord instance. *)
From Coq Require Import Lia.
From Verif Require Import GoBase GoFacts Predicates SpecStrings PolicyFacts FlatRecord FalcoModel SpecFalco SpecFlat FalcoFacts FalcoFacts2.

(** ** flatrecord *)
Section Flat.
Variable X : sfgo_fns.
Variable M : gomap fieldmap.

Lemma flat_models fr : models (flat_ops X M) fr (flat_atomic X M fr).
Proof.
  split; [|split].
  - intros a c H. destruct (fr_exists_spec X M a) as (c' & H1 & H2). simpl in H. rewrite H1 in H. inversion H; subst c'.
    destruct (H2 fr) as [K1 K2]. unfold c_eval in *. simpl.
    destruct (mget a M) as [k|] eqn:E; [apply K2; auto|apply K1; auto].
  - intros l r op c H. simpl in H |- *. destruct (is_str_op op) eqn:E.
    + assert (Hs : fr_compare X M l r op = fr_compare_str X M l r op) by (destruct op; simpl in *; congruence).
      pose proof H as H'. rewrite Hs in H. unfold fr_compare_str in H.
      destruct (str_op op) as [o|]; [|discriminate].
      destruct (map_str X M l) as [ml| | |] eqn:El; simpl in H; try discriminate.
      destruct (map_str X M r) as [mr| | |] eqn:Er; simpl in H; try discriminate.
      destruct (fr_compare_str_spec X M l r op ml mr E El Er) as (c' & H1 & H2).
      rewrite H1 in H'. inversion H'; subst c'. destruct (H2 fr) as [K _]. unfold c_eval in K. rewrite K. split.
      * intros Hr. exists ml, mr. auto.
      * intros (ml' & mr' & E1 & E2 & Hr). inversion E1; inversion E2; subst. auto.
    + destruct (fr_compare_int_spec X M l r op E) as (c' & H1 & H2). rewrite H1 in H. inversion H; subst c'.
      apply H2.
  - intros l ys op c H. simpl in H |- *. unfold fr_foldany in H.
    destruct (str_op op) as [o|] eqn:Eo; [|discriminate].
    destruct (map_str X M l) as [m| | |] eqn:El; simpl in H; try discriminate. inversion H; subst c; clear H.
    rewrite existsb_exists. split.
    + intros (v & Hv & Hc). exists m. split; auto. exists v; split; auto. apply (compare_str_rel op o); auto.
    + intros (m' & E1 & v & Hv & Hc). inversion E1; subst m'. exists v; split; auto. apply (compare_str_rel op o); auto.
Qed.

Lemma cut_at_last_bracket a b : cut_at "["%char a = Some (b, "") -> exists s, a = (s ++ "[")%string.
Proof. intros H. apply cut_at_spec in H as [H _]. exists b. rewrite H. reflexivity. Qed.

Lemma map_str_total a : operand_ok a -> exists m, map_str X M a = Ok m.
Proof.
  intros Ho. unfold map_str, split_path. destruct (cut_at "["%char a) as [[b p]|] eqn:E; [|eexists; reflexivity].
  destruct (mhas b M); [|eexists; reflexivity]. destruct p as [|c p]; [|eexists; reflexivity].
  apply cut_at_last_bracket in E as [s E]. exfalso. apply (Ho s); auto.
Qed.

Lemma flat_ops_total : ops_total (flat_ops X M) operand_ok.
Proof.
  split; [|split].
  - intros a _. destruct (fr_exists_spec X M a) as (c & H & _). exists c; auto.
  - intros l r op Hl Hr. destruct (map_str_total l Hl) as (ml & El). destruct (map_str_total r Hr) as (mr & Er).
    destruct (is_str_op op) eqn:E.
    + destruct (fr_compare_str_spec X M l r op ml mr E El Er) as (c & H & _). exists c; auto.
    + destruct (fr_compare_int_spec X M l r op E) as (c & H & _). exists c; auto.
  - intros l ys op Hl Hop. destruct (map_str_total l Hl) as (ml & El).
    simpl. unfold fr_foldany. rewrite El. destruct Hop; subst op; simpl; eexists; reflexivity.
Qed.
End Flat.

(** ** inequality *)
Lemma neq_complement {R} (ops : operations R) l r ceq cne :
  compile_bin ops l BEq r = Ok ceq -> compile_bin ops l BNeq r = Ok cne ->
  forall rec, c_eval cne rec = negb (c_eval ceq rec).
Proof. simpl. intros ->. simpl. intros H; inversion H. reflexivity. Qed.
Lemma not_complement {R} (ops : operations R) n M L t c c' :
  visit_term ops n M L t = Ok c -> visit_term ops (S n) M L (TNot t) = Ok c' ->
  forall rec, c_eval c' rec = negb (c_eval c rec).
Proof. simpl. intros ->. simpl. intros H; inversion H. reflexivity. Qed.

(** ** inline list literals *)
Lemma inline_ignored X M n Ms L l its fr c :
  visit_term (flat_ops X M) n Ms L (TIn l (map LItems its)) = Ok c -> c_eval c fr = false.
Proof.
  destruct n as [|n]; simpl; [discriminate|].
  assert (E : arg_atoms (map LItems its) = []) by (induction its; simpl; auto). rewrite E. simpl.
  unfold fr_foldany. simpl. destruct (map_str X M l) as [m| | |]; simpl; try discriminate.
  intros H; inversion H. reflexivity.
Qed.

(** ** cyclic definitions *)
Lemma cyclic_macro_diverges {R} (ops : operations R) (M : gomap expr) L x :
  mget x M = Some ([[TVar x]] : expr) -> forall n, visit_term ops n M L (TVar x) = NoFuel.
Proof.
  intros H. induction n as [|n IH]; [reflexivity|]. simpl. rewrite H. unfold visit_expr_with. simpl. rewrite IH. reflexivity.
Qed.
Lemma cyclic_list_diverges L x : mget x L = Some [x] -> forall n, reduce_list n L x = NoFuel.
Proof.
  intros H. induction n as [|n IH]; [reflexivity|]. simpl. rewrite H. simpl. rewrite IH. reflexivity.
Qed.

(** ** one condition, compiled *)
Lemma condition_meaning {R} (ops : operations R) M L e n c :
  expr_plain e = true -> (forall x m, mget x M = Some m -> expr_plain m = true) ->
  visit_expr ops n M L e = Ok c ->
  forall r A, models ops r A ->
    ev (fun x => mget x M) (fun x => mget x L) A e (c_eval c r) /\
    forall v, ev (fun x => mget x M) (fun x => mget x L) A e v -> v = c_eval c r.
Proof.
  intros He HM Hv r A Hmod.
  assert (K : ev (fun x => mget x M) (fun x => mget x L) A e (c_eval c r)).
  { unfold c_eval. eapply visit_expr_sound; eauto. }
  split; auto. intros v Hw.
  destruct (tv_det L (fun x => mget x M) (fun x => mget x L) (fun x => eq_refl) A) as (_ & Hd & _).
  eapply Hd; eauto.
Qed.
Lemma condition_compiles {R} (ops : operations R) P M L e :
  ops_total ops P -> (forall a, In a (expr_operands e) -> P a) ->
  (forall x m a, mget x M = Some m -> In a (expr_operands m) -> P a) ->
  acyclic (fun x => mget x M) expr_refs -> acyclic (fun x => mget x L) (fun l => l) ->
  exists n c, forall m, n <= m -> visit_expr ops m M L e = Ok c.
Proof.
  intros Ht He HP Hm Hl. apply (visit_expr_total ops M L (fun x => mget x M) (fun x => mget x L) (fun _ => eq_refl) (fun _ => eq_refl) P); auto.
Qed.
Lemma list_meaning L x n ys : reduce_list n L x = Ok ys ->
  expands (fun x => mget x L) x ys /\ forall zs, expands (fun x => mget x L) x zs -> zs = ys.
Proof.
  intros H. assert (K : expands (fun x => mget x L) x ys) by (apply (reduce_list_sound L (fun x => mget x L) (fun _ => eq_refl) n); auto).
  split; auto. intros zs Hz. eapply (expands_det L (fun x => mget x L) (fun _ => eq_refl)); eauto.
Qed.
Lemma list_terminates L : acyclic (fun x => mget x L) (fun l => l) ->
  forall x, exists n ys, forall m, n <= m -> reduce_list m L x = Ok ys.
Proof. intros H. apply (reduce_list_total L (fun x => mget x L)); auto. Qed.
Lemma alert_low : forall s, ci_alert s = true -> severity_priority s = PLow.
Proof. unfold ci_alert. intros s H. unfold severity_priority. apply seqb_eq in H. rewrite H. reflexivity. Qed.

(** * FalcoFacts: proofs about the Falco compiler. *)
From Coq Require Import Lia.
From Verif Require Import GoBase GoFacts Predicates PolicyFacts FalcoModel SpecFalco.

(** Induction on terms through the nested lists. *)
Section TermInd.
Variable P : term -> Prop.
Hypothesis Hvar : forall x, P (TVar x).
Hypothesis Hnot : forall t, P t -> P (TNot t).
Hypothesis Hex : forall a, P (TExists a).
Hypothesis Hbin : forall l op r, P (TBin l op r).
Hypothesis Hin : forall l args, P (TIn l args).
Hypothesis Hpm : forall l args, P (TPmatch l args).
Hypothesis Hpar : forall e, Forall (Forall P) e -> P (TParen e).
Fixpoint term_ind' (t : term) : P t :=
  match t with
  | TVar x => Hvar x
  | TNot t' => Hnot t' (term_ind' t')
  | TExists a => Hex a
  | TBin l op r => Hbin l op r
  | TIn l args => Hin l args
  | TPmatch l args => Hpm l args
  | TParen e => Hpar e
      ((fix go (e : list (list term)) : Forall (Forall P) e :=
          match e with
          | [] => Forall_nil _
          | c :: e' => Forall_cons c
              ((fix goc (c : list term) : Forall P c :=
                  match c with [] => Forall_nil _ | t :: c' => Forall_cons t (term_ind' t) (goc c') end) c)
              (go e')
          end) e)
  end.
End TermInd.

(** ** rmap *)
Lemma rmap_ok {A B} (f : A -> res B) l bs : rmap f l = Ok bs <-> Forall2 (fun a b => f a = Ok b) l bs.
Proof.
  revert bs; induction l as [|a l IH]; intros bs; simpl.
  - split; intros H; inversion H; subst; constructor.
  - split.
    + destruct (f a) as [b| | |] eqn:E; simpl; try discriminate.
      destruct (rmap f l) as [bs'| | |] eqn:E2; simpl; try discriminate.
      intros H; inversion H; subst. constructor; auto. apply IH; auto.
    + intros H; inversion H; subst. rewrite H2. simpl. apply IH in H4. rewrite H4. reflexivity.
Qed.
Lemma rmap_total {A B} (f : nat -> A -> res B) l :
  (forall a, In a l -> exists n b, forall m, n <= m -> f m a = Ok b) ->
  exists n bs, forall m, n <= m -> rmap (f m) l = Ok bs.
Proof.
  induction l as [|a l IH]; intros H; simpl.
  - exists 0, []. reflexivity.
  - destruct (H a (or_introl eq_refl)) as (n1 & b & H1).
    destruct IH as (n2 & bs & H2); [intros; apply H; right; auto|].
    exists (Nat.max n1 n2), (b :: bs). intros m Hm. rewrite H1, H2 by lia. reflexivity.
Qed.

(** ** lists *)
Scheme expands_mind := Minimality for expands Sort Prop
  with expands_all_mind := Minimality for expands_all Sort Prop.
Combined Scheme expands_both from expands_mind, expands_all_mind.

Lemma Forall2_concat_expands lists l yss :
  Forall2 (expands lists) l yss -> expands_all lists l (concat yss).
Proof. induction 1; simpl; [constructor|]. constructor; auto. Qed.

Section Lists.
Variable L : gomap (list string).
Variable lists : string -> option (list string).
Hypothesis HL : forall x, mget x L = lists x.

Lemma reduce_list_sound n x ys : reduce_list n L x = Ok ys -> expands lists x ys.
Proof.
  revert x ys; induction n as [|n IH]; intros x ys; simpl; [discriminate|].
  rewrite HL. destruct (lists x) as [l|] eqn:E.
  - destruct (rmap (reduce_list n L) l) as [yss| | |] eqn:E2; simpl; try discriminate.
    intros H; inversion H; subst. apply ex_list with l; auto.
    apply Forall2_concat_expands. apply rmap_ok in E2.
    clear -IH E2. induction E2; constructor; auto.
  - intros H; inversion H; subst. constructor; auto.
Qed.

Lemma reduce_list_complete :
  (forall x ys, expands lists x ys -> exists n, forall m, n <= m -> reduce_list m L x = Ok ys) /\
  (forall l ys, expands_all lists l ys -> exists n yss, concat yss = ys /\ forall m, n <= m -> rmap (reduce_list m L) l = Ok yss).
Proof.
  apply expands_both.
  - intros x Hx. exists 1. intros m Hm. destruct m as [|m]; [lia|]. simpl. rewrite HL, Hx. reflexivity.
  - intros x l ys Hx _ (n & yss & Hc & H). exists (S n). intros m Hm. destruct m as [|m]; [lia|].
    simpl. rewrite HL, Hx, H by lia. simpl. rewrite Hc. reflexivity.
  - exists 0, []. split; auto.
  - intros x l ys zs _ (n1 & H1) _ (n2 & yss & Hc & H2).
    exists (Nat.max n1 n2), (ys :: yss). split; [simpl; congruence|].
    intros m Hm. simpl. rewrite H1, H2 by lia. reflexivity.
Qed.

Lemma expands_det x ys zs : expands lists x ys -> expands lists x zs -> ys = zs.
Proof.
  intros H1 H2. apply reduce_list_complete in H1 as (n & H1). apply reduce_list_complete in H2 as (m & H2).
  specialize (H1 (Nat.max n m) ltac:(lia)). specialize (H2 (Nat.max n m) ltac:(lia)). congruence.
Qed.
Lemma expands_all_det l ys zs : expands_all lists l ys -> expands_all lists l zs -> ys = zs.
Proof.
  revert ys zs; induction l as [|x l IH]; intros ys zs H1 H2; inversion H1; inversion H2; subst; auto.
  f_equal; [eapply expands_det; eauto|auto].
Qed.
Lemma arg_items_det a ys zs : arg_items lists a ys -> arg_items lists a zs -> ys = zs.
Proof.
  revert ys zs; induction a as [|x a IH]; intros ys zs H1 H2; inversion H1; subst; inversion H2; subst; auto.
  - f_equal; [eapply expands_det; eauto|auto].
  - f_equal; [eapply expands_all_det; eauto|auto].
Qed.

Lemma atoms_sound n l ys : extract_list_from_atoms n L l = Ok ys -> expands_all lists l ys.
Proof.
  unfold extract_list_from_atoms. destruct (rmap (reduce_list n L) l) as [yss| | |] eqn:E; simpl; try discriminate.
  intros H; inversion H; subst. apply Forall2_concat_expands. apply rmap_ok in E.
  clear -E HL. induction E; constructor; auto. eapply reduce_list_sound; eauto.
Qed.

Lemma reduce_list_total : acyclic lists (fun l => l) ->
  forall x, exists n ys, forall m, n <= m -> reduce_list m L x = Ok ys.
Proof.
  intros [rank Hr].
  assert (K : forall k x, rank x < k -> exists n ys, forall m, n <= m -> reduce_list m L x = Ok ys).
  { induction k as [|k IH]; intros x Hk; [lia|].
    destruct (lists x) as [l|] eqn:E.
    - destruct (rmap_total (fun m => reduce_list m L) l) as (n & yss & H).
      + intros y Hy. destruct (lists y) as [ly|] eqn:Ey.
        * apply IH. specialize (Hr x l y E Hy). rewrite Ey in Hr. specialize (Hr ltac:(discriminate)). lia.
        * exists 1, [trim_bounding_quotes y]. intros m Hm. destruct m; [lia|]. simpl. rewrite HL, Ey. reflexivity.
      + exists (S n), (concat yss). intros m Hm. destruct m as [|m]; [lia|]. simpl.
        rewrite HL, E, H by lia. reflexivity.
    - exists 1, [trim_bounding_quotes x]. intros m Hm. destruct m; [lia|]. simpl. rewrite HL, E. reflexivity. }
  intros x. apply (K (S (rank x))). lia.
Qed.
Lemma atoms_total : acyclic lists (fun l => l) ->
  forall l, exists n ys, forall m, n <= m -> extract_list_from_atoms m L l = Ok ys.
Proof.
  intros Ha l. destruct (rmap_total (fun m => reduce_list m L) l) as (n & yss & H).
  - intros a _. apply reduce_list_total; auto.
  - exists n, (concat yss). intros m Hm. unfold extract_list_from_atoms. rewrite H by lia. reflexivity.
Qed.
End Lists.

Lemma arg_items_plain lists args ys : forallb arg_plain args = true ->
  expands_all lists (arg_atoms args) ys -> arg_items lists args ys.
Proof.
  revert ys; induction args as [|[s|it] args IH]; simpl; intros ys Hp H; try discriminate.
  - inversion H; subst; constructor.
  - inversion H; subst. constructor; auto.
Qed.

(** ** conditions *)
Section Cond.
Context {R : Type}.
Variable ops : operations R.
Variable M : gomap expr.
Variable L : gomap (list string).
Variable macros : string -> option expr.
Variable lists : string -> option (list string).
Hypothesis HM : forall x, mget x M = macros x.
Hypothesis HL : forall x, mget x L = lists x.

Lemma first_of_ok (x : res (criterion R * bool)) c : first_of x = Ok c -> x = Ok (c, false).
Proof. unfold first_of. destruct x as [[c' []]| | |]; simpl; intros H; inversion H; auto. Qed.

Lemma visit_expr_ok vt e c : visit_expr_with vt e = Ok c ->
  exists css, Forall2 (Forall2 (fun t k => vt t = Ok k)) e css /\ c = @c_any R (map c_all css).
Proof.
  unfold visit_expr_with. destruct (rmap _ e) as [ors| | |] eqn:E; simpl; try discriminate.
  intros H; inversion H; subst. apply rmap_ok in E. clear H.
  assert (K : exists css, Forall2 (Forall2 (fun t k => vt t = Ok k)) e css /\ ors = map c_all css).
  { induction E as [|conj o e ors Ho E IH]; [exists []; split; auto|].
    destruct (rmap vt conj) as [cs| | |] eqn:E2; simpl in Ho; try discriminate. inversion Ho; subst.
    apply rmap_ok in E2. destruct IH as (css & H1 & H2).
    exists (cs :: css). split; [constructor; auto|simpl; congruence]. }
  destruct K as (css & H1 & ->). exists css; auto.
Qed.

Lemma any_all_cons (cs : list (criterion R)) css r :
  c_any (map c_all (cs :: css)) r = c_all cs r || c_any (map c_all css) r.
Proof. rewrite !c_any_existsb. reflexivity. Qed.
Lemma all_cons (k : criterion R) cs r : c_all (k :: cs) r = k r && c_all cs r.
Proof. rewrite !c_all_forallb. reflexivity. Qed.

Lemma ev_of_css A r e css :
  Forall2 (Forall2 (fun t (k : criterion R) => tv macros lists A t (k r))) e css ->
  ev macros lists A e (c_any (map c_all css) r).
Proof.
  induction 1 as [|c cs e css Hc He IH]; [constructor|].
  rewrite any_all_cons. constructor; auto.
  clear -Hc. induction Hc as [|t k c cs Ht Hc IH]; [constructor|]. rewrite all_cons. constructor; auto.
Qed.

Lemma visit_term_sound r A (Hmod : models ops r A)
  (HMp : forall x e, macros x = Some e -> expr_plain e = true) :
  forall n t c, term_plain t = true -> visit_term ops n M L t = Ok c -> tv macros lists A t (c r).
Proof.
  destruct Hmod as (Hx & Hc & Hf).
  induction n as [|n IH]; intros t c Hp; [discriminate|].
  assert (HE : forall e k, expr_plain e = true -> visit_expr_with (visit_term ops n M L) e = Ok k -> ev macros lists A e (k r)).
  { intros e k Hpe He. apply visit_expr_ok in He as (css & H1 & ->). apply ev_of_css.
    unfold expr_plain in Hpe. clear -H1 Hpe IH. induction H1 as [|cj cs e css Hc He IHe]; constructor; simpl in Hpe;
      apply andb_true_iff in Hpe as [Hp1 Hp2]; auto.
    clear -Hc Hp1 IH. induction Hc; constructor; simpl in Hp1; apply andb_true_iff in Hp1 as [Ha Hb]; auto. }
  destruct t as [x|t|a|l op rr|l args|l args|e]; simpl in Hp |- *.
  - rewrite HM. destruct (macros x) as [e|] eqn:E.
    + intros H. eapply tv_macro; eauto.
    + intros H; inversion H; subst. constructor; auto.
  - destruct (visit_term ops n M L t) as [k| | |] eqn:E; simpl; try discriminate.
    intros H; inversion H; subst. unfold c_not, c_eval. constructor; auto.
  - intros H. apply first_of_ok in H. constructor. auto.
  - intros H. constructor. destruct op; simpl in H |- *; unfold cmp_holds; simpl;
      try (apply first_of_ok in H; eauto; fail).
    destruct (first_of (op_compare ops l rr OpEq)) as [k| | |] eqn:E; simpl in H; try discriminate.
    inversion H; subst. apply first_of_ok in E. unfold c_not, c_eval.
    rewrite <- (Hc _ _ _ _ E). destruct (k r); simpl; intuition congruence.
  - destruct (extract_list_from_atoms n L (arg_atoms args)) as [ys| | |] eqn:E; simpl; try discriminate.
    intros H. apply first_of_ok in H. apply (atoms_sound L lists HL) in E.
    apply tv_in with ys; [apply arg_items_plain; auto|eauto].
  - destruct (extract_list_from_atoms n L (arg_atoms args)) as [ys| | |] eqn:E; simpl; try discriminate.
    intros H. apply first_of_ok in H. apply (atoms_sound L lists HL) in E.
    apply tv_pmatch with ys; [apply arg_items_plain; auto|eauto].
  - intros H. constructor. auto.
Qed.

Lemma visit_expr_sound r A (Hmod : models ops r A)
  (HMp : forall x e, macros x = Some e -> expr_plain e = true) :
  forall n e c, expr_plain e = true -> visit_expr ops n M L e = Ok c -> ev macros lists A e (c r).
Proof.
  intros n e k Hpe He. apply visit_expr_ok in He as (css & H1 & ->). apply ev_of_css.
  pose proof (visit_term_sound r A Hmod HMp n) as IH.
  unfold expr_plain in Hpe. clear -H1 Hpe IH. induction H1 as [|cj cs e css Hc He IHe]; constructor; simpl in Hpe;
    apply andb_true_iff in Hpe as [Hp1 Hp2]; auto.
  clear -Hc Hp1 IH. induction Hc; constructor; simpl in Hp1; apply andb_true_iff in Hp1 as [Ha Hb]; auto.
Qed.

(** ** determinism of the specification *)
Scheme tv_mind := Minimality for tv Sort Prop
  with ev_mind := Minimality for ev Sort Prop
  with cv_mind := Minimality for cv Sort Prop.
Combined Scheme tv_ev_cv from tv_mind, ev_mind, cv_mind.

Lemma bool_iff_eq (u v : bool) (P : Prop) : (u = true <-> P) -> (v = true <-> P) -> u = v.
Proof. destruct u, v; intuition congruence. Qed.

Lemma tv_det A :
  (forall t v, tv macros lists A t v -> forall w, tv macros lists A t w -> v = w) /\
  (forall e v, ev macros lists A e v -> forall w, ev macros lists A e w -> v = w) /\
  (forall c v, cv macros lists A c v -> forall w, cv macros lists A c w -> v = w).
Proof.
  apply tv_ev_cv; intros.
  - inversion H2; subst; [|congruence]. assert (e0 = e) by congruence. subst; auto.
  - inversion H0; subst; congruence.
  - inversion H1; subst. f_equal; auto.
  - inversion H0; subst. eapply bool_iff_eq; eauto.
  - inversion H0; subst. eapply bool_iff_eq; eauto.
  - inversion H1; subst. assert (ys0 = ys) by (eapply arg_items_det; eauto). subst. eapply bool_iff_eq; eauto.
  - inversion H1; subst. assert (ys0 = ys) by (eapply arg_items_det; eauto). subst. eapply bool_iff_eq; eauto.
  - inversion H1; subst; auto.
  - inversion H; auto.
  - inversion H3; subst. f_equal; auto.
  - inversion H; auto.
  - inversion H3; subst. f_equal; auto.
Qed.

(** ** termination *)
Lemma visit_expr_with_total (vt : nat -> term -> res (criterion R)) e :
  Forall (Forall (fun t => exists n c, forall m, n <= m -> vt m t = Ok c)) e ->
  exists n c, forall m, n <= m -> visit_expr_with (vt m) e = Ok c.
Proof.
  intros H. unfold visit_expr_with.
  destruct (rmap_total (fun m conj => let* cs := rmap (vt m) conj in Ok (c_all cs)) e) as (n & ors & Hn).
  - intros cj Hcj. rewrite Forall_forall in H. specialize (H cj Hcj). rewrite Forall_forall in H.
    destruct (rmap_total vt cj H) as (n & cs & Hn). exists n, (c_all cs). intros m Hm. rewrite Hn by lia. reflexivity.
  - exists n, (c_any ors). intros m Hm. rewrite Hn by lia. reflexivity.
Qed.

Lemma first_of_total (x : res (criterion R * bool)) c : x = Ok (c, false) -> first_of x = Ok c.
Proof. intros ->. reflexivity. Qed.

Lemma expr_refs_in e cj t x : In cj e -> In t cj -> In x (term_refs t) -> In x (expr_refs e).
Proof.
  intros H1 H2 H3. unfold expr_refs. apply in_concat. eexists. split; [apply in_map; exact H1|].
  apply in_concat. eexists. split; [apply in_map; exact H2|exact H3].
Qed.

Lemma expr_operands_in e cj t x : In cj e -> In t cj -> In x (term_operands t) -> In x (expr_operands e).
Proof.
  intros H1 H2 H3. unfold expr_operands. apply in_concat. eexists. split; [apply in_map; exact H1|].
  apply in_concat. eexists. split; [apply in_map; exact H2|exact H3].
Qed.

Lemma visit_term_total P (Ht : ops_total ops P) (HP : forall x e a, macros x = Some e -> In a (expr_operands e) -> P a) (Hl : acyclic lists (fun l => l)) (rank : string -> nat)
  (Hr : forall x v y, macros x = Some v -> In y (expr_refs v) -> macros y <> None -> rank y < rank x) :
  forall k t, (forall x, In x (term_refs t) -> macros x <> None -> rank x < k) -> (forall a, In a (term_operands t) -> P a) ->
  exists n c, forall m, n <= m -> visit_term ops m M L t = Ok c.
Proof.
  destruct Ht as (Tx & Tc & Tf).
  induction k as [k IHk] using (well_founded_induction lt_wf).
  induction t as [x|t IHt|a|l op rr|l args|l args|e IHe] using term_ind'; intros Hk Ho.
  - destruct (macros x) as [e|] eqn:E.
    + assert (Hx : rank x < k) by (apply Hk; [left; auto|congruence]).
      destruct (visit_expr_with_total (fun m => visit_term ops m M L) e) as (n & c & H).
      * apply Forall_forall. intros cj Hcj. apply Forall_forall. intros t Hin.
        apply (IHk (rank x) Hx); [intros y Hy Hd; eapply Hr; eauto; eapply expr_refs_in; eauto|].
        intros a Ha. eapply HP; eauto. eapply expr_operands_in; eauto.
      * exists (S n), c. intros m Hm. destruct m as [|m]; [lia|]. simpl. rewrite HM, E. apply H; lia.
    + exists 1, c_false. intros m Hm. destruct m; [lia|]. simpl. rewrite HM, E. reflexivity.
  - destruct IHt as (n & c & H); [exact Hk|exact Ho|]. exists (S n), (c_not c). intros m Hm.
    destruct m as [|m]; [lia|]. simpl. rewrite H by lia. reflexivity.
  - destruct (Tx a ltac:(apply Ho; left; auto)) as (c & Hc). exists 1, c. intros m Hm. destruct m; [lia|]. simpl. apply first_of_total; auto.
  - assert (PL : P l) by (apply Ho; left; auto). assert (PR : P rr) by (apply Ho; right; left; auto).
    assert (exists c, compile_bin ops l op rr = Ok c) as (c & Hc).
    { destruct op; simpl;
      (destruct (Tc l rr OpLt PL PR) as (c1 & H1); destruct (Tc l rr OpLEq PL PR) as (c2 & H2);
       destruct (Tc l rr OpGt PL PR) as (c3 & H3); destruct (Tc l rr OpGEq PL PR) as (c4 & H4);
       destruct (Tc l rr OpEq PL PR) as (c5 & H5); destruct (Tc l rr OpContains PL PR) as (c6 & H6);
       destruct (Tc l rr OpIContains PL PR) as (c7 & H7); destruct (Tc l rr OpStartswith PL PR) as (c8 & H8);
       destruct (Tc l rr OpEndswith PL PR) as (c9 & H9));
      rewrite ?H1, ?H2, ?H3, ?H4, ?H5, ?H6, ?H7, ?H8, ?H9; simpl; eauto. }
    exists 1, c. intros m Hm. destruct m; [lia|]. exact Hc.
  - destruct (atoms_total L lists HL Hl (arg_atoms args)) as (n & ys & H).
    destruct (Tf l ys OpEq ltac:(apply Ho; left; auto) (or_introl eq_refl)) as (c & Hc).
    exists (S n), c. intros m Hm. destruct m as [|m]; [lia|]. simpl. rewrite H by lia. simpl. apply first_of_total; auto.
  - destruct (atoms_total L lists HL Hl (arg_atoms args)) as (n & ys & H).
    destruct (Tf l ys OpContains ltac:(apply Ho; left; auto) (or_intror eq_refl)) as (c & Hc).
    exists (S n), c. intros m Hm. destruct m as [|m]; [lia|]. simpl. rewrite H by lia. simpl. apply first_of_total; auto.
  - destruct (visit_expr_with_total (fun m => visit_term ops m M L) e) as (n & c & H).
    + rewrite Forall_forall in IHe |- *. intros cj Hcj. specialize (IHe cj Hcj).
      rewrite Forall_forall in IHe |- *. intros t Hin. apply IHe; auto.
      * intros x Hx. apply Hk. simpl. change (In x (expr_refs e)). eapply expr_refs_in; eauto.
      * intros x Hx. apply Ho. simpl. change (In x (expr_operands e)). eapply expr_operands_in; eauto.
    + exists (S n), c. intros m Hm. destruct m as [|m]; [lia|]. simpl. apply H; lia.
Qed.

Lemma visit_expr_total P (Ht : ops_total ops P) (HP : forall x e a, macros x = Some e -> In a (expr_operands e) -> P a)
  (Hl : acyclic lists (fun l => l)) (Hm : acyclic macros expr_refs) e (He : forall a, In a (expr_operands e) -> P a) :
  exists n c, forall m, n <= m -> visit_expr ops m M L e = Ok c.
Proof.
  destruct Hm as [rank Hr]. unfold visit_expr. apply (visit_expr_with_total (fun m => visit_term ops m M L)).
  apply Forall_forall. intros cj Hcj. apply Forall_forall. intros t Hin.
  apply (visit_term_total P Ht HP Hl rank Hr (S (list_max (map rank (term_refs t)))));
    [|intros a Ha; apply He; eapply expr_operands_in; eauto].
  intros x Hx _. apply Nat.lt_succ_r. apply (in_map rank) in Hx.
  assert (K : Forall (fun k => k <= list_max (map rank (term_refs t))) (map rank (term_refs t))) by (apply list_max_le; lia).
  rewrite Forall_forall in K. apply K. exact Hx.
Qed.
End Cond.

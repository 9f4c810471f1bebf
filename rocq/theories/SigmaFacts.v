(** * SigmaFacts: proofs about the Sigma compiler. *)
From Coq Require Import Lia NArith Permutation.
From Verif Require Import GoBase GoFacts Predicates PolicyFacts FalcoModel FalcoFacts FlatRecord SpecFlat FalcoFacts3 SigmaModel SpecSigma.

Lemma in_c_all {R} (cs : list (criterion R)) r : c_all cs r = true <-> forall c, In c cs -> c r = true.
Proof. rewrite c_all_forallb, forallb_forall. tauto. Qed.
Lemma in_c_any {R} (cs : list (criterion R)) r : c_any cs r = true <-> exists c, In c cs /\ c r = true.
Proof. rewrite c_any_existsb, existsb_exists. tauto. Qed.

Lemma rmap_in_l {A B} (f : A -> res B) l bs : rmap f l = Ok bs -> forall a, In a l -> exists b, In b bs /\ f a = Ok b.
Proof.
  rewrite rmap_ok. induction 1 as [|a b l bs H F IH]; intros x; [intros []|].
  intros [<-|Hx]; [exists b; split; [left|]; auto|]. destruct (IH x Hx) as (b' & H1 & H2). exists b'; split; [right|]; auto.
Qed.
Lemma rmap_in_r {A B} (f : A -> res B) l bs : rmap f l = Ok bs -> forall b, In b bs -> exists a, In a l /\ f a = Ok b.
Proof.
  rewrite rmap_ok. induction 1 as [|a b l bs H F IH]; intros x; [intros []|].
  intros [<-|Hx]; [exists a; split; [left|]; auto|]. destruct (IH x Hx) as (b' & H1 & H2). exists b'; split; [right|]; auto.
Qed.
Lemma rbind_ok {A B} (x : res A) (f : A -> res B) b : rbind x f = Ok b -> exists a, x = Ok a /\ f a = Ok b.
Proof. destruct x; simpl; try discriminate. eauto. Qed.

(** The universal reading of a compiled list of criteria. *)
Lemma c_all_rmap {R A} (f : A -> res (criterion R)) (P : A -> Prop) l cs r :
  rmap f l = Ok cs -> (forall a c, In a l -> f a = Ok c -> (c r = true <-> P a)) ->
  (c_all cs r = true <-> forall a, In a l -> P a).
Proof.
  intros H HP. rewrite in_c_all. split.
  - intros Hc a Ha. destruct (rmap_in_l _ _ _ H a Ha) as (c & H1 & H2). apply (HP a c); auto.
  - intros Ha c Hc. destruct (rmap_in_r _ _ _ H c Hc) as (a & H1 & H2). apply (HP a c); auto.
Qed.
Lemma c_any_rmap {R A} (f : A -> res (criterion R)) (P : A -> Prop) l cs r :
  rmap f l = Ok cs -> (forall a c, In a l -> f a = Ok c -> (c r = true <-> P a)) ->
  (c_any cs r = true <-> exists a, In a l /\ P a).
Proof.
  intros H HP. rewrite in_c_any. split.
  - intros (c & Hc & Hr). destruct (rmap_in_r _ _ _ H c Hc) as (a & H1 & H2). exists a; split; auto. apply (HP a c); auto.
  - intros (a & Ha & HPa). destruct (rmap_in_l _ _ _ H a Ha) as (c & H1 & H2). exists c; split; auto. apply (HP a c); auto.
Qed.

Section Sexpr.
Variable P : sexpr -> Prop.
Hypothesis Hid : forall n, P (SId n).
Hypothesis Hand : forall l, Forall P l -> P (SAnd l).
Hypothesis Hor : forall l, Forall P l -> P (SOr l).
Hypothesis Hnot : forall e, P e -> P (SNot e).
Hypothesis H1 : P SOneOfThem.
Hypothesis H2 : forall p, P (SOneOfPattern p).
Hypothesis H3 : P SAllOfThem.
Hypothesis H4 : forall p, P (SAllOfPattern p).
Hypothesis H5 : P SOther.
Fixpoint sexpr_ind' (e : sexpr) : P e :=
  match e with
  | SId n => Hid n
  | SAnd l => Hand l ((fix go (l : list sexpr) : Forall P l := match l with [] => Forall_nil P | e :: l' => Forall_cons e (sexpr_ind' e) (go l') end) l)
  | SOr l => Hor l ((fix go (l : list sexpr) : Forall P l := match l with [] => Forall_nil P | e :: l' => Forall_cons e (sexpr_ind' e) (go l') end) l)
  | SNot e => Hnot e (sexpr_ind' e)
  | SOneOfThem => H1 | SOneOfPattern p => H2 p | SAllOfThem => H3 | SAllOfPattern p => H4 p | SOther => H5
  end.
End Sexpr.

(** ** transformations *)
Lemma transform_none v : transform v NoFlags = Ok [v]. Proof. reflexivity. Qed.
Lemma transform_dash v : transform v WinDashFlag = Ok [windash v]. Proof. reflexivity. Qed.
Lemma transform_b64 v : transform v Base64Flag = Ok [b64 v]. Proof. reflexivity. Qed.
Lemma transform_off v : transform v Base64OffsetFlag = Panic. Proof. reflexivity. Qed.
Lemma transform_cidr v : transform v CIDRFlag = Panic. Proof. reflexivity. Qed.

Lemma transforming_get m : transforming m <-> mget m transformers_map <> None.
Proof.
  unfold transforming, transformers_map. simpl. split.
  - intros H. repeat destruct H as [<-|H]; simpl; congruence.
  - repeat match goal with |- context [seqb m ?k] =>
      let E := fresh "E" in destruct (seqb m k) eqn:E; [apply seqb_eq in E; subst m; tauto|] end.
    congruence.
Qed.

(** The forms produced under a modifier. *)
Lemma forms_spec m fls v w : mget m transformers_map = Some fls ->
  (forall t, In t fls -> exists ws, transform v t = Ok ws) ->
  ((exists t ws, In t fls /\ transform v t = Ok ws /\ In w ws) <-> form_of m v w).
Proof.
  unfold transformers_map. simpl. intros Hm Hok.
  assert (E : seqb m "base64" = true /\ fls = [Base64Flag] \/ seqb m "base64Offset" = true /\ fls = [Base64OffsetFlag]
    \/ In m ["utf16"; "utf16le"; "utf16be"; "wide"] /\ fls = [NoFlags]
    \/ seqb m "windash" = true /\ fls = [NoFlags; WinDashFlag] \/ seqb m "cidr" = true /\ fls = [CIDRFlag]).
  { repeat match type of Hm with context [seqb m ?k] =>
      let E := fresh "E" in destruct (seqb m k) eqn:E;
        [inversion Hm; subst; try apply seqb_eq in E; subst; simpl; tauto|] end. discriminate. }
  destruct E as [[E ->]|[[E ->]|[[E ->]|[[E ->]|[E ->]]]]].
  - apply seqb_eq in E; subst m. split.
    + intros (t & ws & [<-|[]] & H1 & H2). rewrite transform_b64 in H1. inversion H1; subst.
      destruct H2 as [<-|[]]. constructor.
    + intros H; inversion H; subst. exists Base64Flag, [b64 v]. repeat split; left; auto.
  - destruct (Hok Base64OffsetFlag (or_introl eq_refl)) as (ws & H). rewrite transform_off in H. discriminate.
  - split.
    + intros (t & ws & [<-|[]] & H1 & H2). rewrite transform_none in H1. inversion H1; subst.
      destruct H2 as [<-|[]]. simpl in E. repeat destruct E as [<-|E]; try contradiction; constructor.
    + intros H. exists NoFlags, [v]. split; [left; auto|]. split; auto.
      simpl in E. repeat destruct E as [<-|E]; try contradiction; inversion H; subst; left; auto.
  - apply seqb_eq in E; subst m. split.
    + intros (t & ws & [<-|[<-|[]]] & H1 & H2); [rewrite transform_none in H1|rewrite transform_dash in H1];
        inversion H1; subst; destruct H2 as [<-|[]]; constructor.
    + intros H; inversion H; subst; [exists NoFlags, [w]|exists WinDashFlag, [windash v]]; repeat split; simpl; auto.
  - destruct (Hok CIDRFlag (or_introl eq_refl)) as (ws & H). rewrite transform_cidr in H. discriminate.
Qed.

Section Comp.
Context {R : Type}.
Variable ops : operations R.
Variable mappings : gomap (list string).
Variable pmatch : string -> string -> bool.
Variable r : R.
Variable A : satomic.
Hypothesis HA : smodels ops r A.

Lemma comparator_mod_op m t v : is_comparator m = true ->
  exists op, mod_op m op /\ comparator_crit ops m t v = Some (first_of (op_compare ops t v op)) /\
             forall op', mod_op m op' -> op' = op.
Proof.
  unfold is_comparator, comparators_map. simpl.
  assert (D : forall o o', mod_op m o -> mod_op m o' -> o' = o) by (intros o o' H1 H2; inversion H1; subst; inversion H2; auto).
  repeat match goal with |- context [seqb m ?k] =>
      let E := fresh "E" in destruct (seqb m k) eqn:E;
        [apply seqb_eq in E; subst m; intros _; eexists; split; [constructor|]; split; [reflexivity|intros; eapply D; eauto; constructor]|] end.
  discriminate.
Qed.
Lemma mod_op_comparator m op : mod_op m op -> is_comparator m = true.
Proof. intros H; inversion H; reflexivity. Qed.

Lemma comparator_preds_spec mods t v cs :
  comparator_preds ops (fm_comparators mods) t v = Ok cs ->
  (c_all cs r = true <-> forall m op, In m mods -> mod_op m op -> sa_cmp A t op v).
Proof.
  revert cs; induction mods as [|m mods IH]; intros cs; simpl.
  - intros H; inversion H; subst. split; [intros _ m op []|reflexivity].
  - destruct (is_comparator m) eqn:E.
    + simpl. destruct (comparator_mod_op m t v E) as (op & Hop & -> & Hu). intros H.
      apply rbind_ok in H as (c & Hc & H). apply rbind_ok in H as (cs' & Hcs & H). inversion H; subst; clear H.
      apply first_of_ok in Hc. destruct HA as [Hcmp _]. specialize (Hcmp _ _ _ _ Hc). specialize (IH _ Hcs).
      rewrite all_cons, andb_true_iff, Hcmp, IH. split.
      * intros [H1 H2] m' op' [<-|Hm] Ho; [rewrite (Hu _ Ho); auto|eauto].
      * intros H. split; [apply (H m op); auto|]. intros; eapply H; eauto.
    + intros H. rewrite (IH _ H). split.
      * intros K m' op [<-|Hm] Ho; [apply mod_op_comparator in Ho; congruence|eauto].
      * intros K m' op Hm Ho. eapply K; eauto.
Qed.

Lemma visit_term_spec mods f v c :
  s_visit_term ops mappings (fm_comparators mods) f v = Ok c -> (c r = true <-> value_holds mappings A mods f v).
Proof.
  unfold s_visit_term. intros H. apply rbind_ok in H as (t & Ht & H). apply rbind_ok in H as (cs & Hcs & H).
  inversion H; subst; clear H.
  assert (T : target mappings f t /\ forall t', target mappings f t' -> t' = t).
  { unfold mapped_field in Ht. unfold target. destruct (mget f mappings) as [[|t0 l]|] eqn:E; try discriminate; inversion Ht; subst.
    - split; [left; eauto|]. intros t' [[l' H]|[H _]]; congruence.
    - split; [right; auto|]. intros t' [[l' H]|[_ H]]; congruence. }
  destruct T as [T Tu].
  destruct (fm_comparators mods) as [|m0 ms] eqn:E.
  - apply rbind_ok in Hcs as (c0 & Hc & H). inversion H; subst. apply first_of_ok in Hc.
    destruct HA as [Hcmp _]. specialize (Hcmp _ _ _ _ Hc).
    assert (N : forall m op, In m mods -> mod_op m op -> False).
    { intros m op Hm Ho. apply mod_op_comparator in Ho.
      assert (In m (fm_comparators mods)) by (apply filter_In; auto). rewrite E in H0. destruct H0. }
    rewrite all_cons, andb_true_iff. change (c_all [] r = true) with (true = true). rewrite Hcmp. split.
    + intros [K _]. exists t. split; auto. split; [right; auto|]. intros m op Hm Ho. exfalso; eauto.
    + intros (t' & Ht' & [(m & op & Hm & Ho)|K] & _); [exfalso; eauto|]. rewrite <- (Tu _ Ht'). auto.
  - change (comparator_preds ops (m0 :: ms) t v = Ok cs) in Hcs. rewrite <- E in Hcs.
    rewrite (comparator_preds_spec _ _ _ _ Hcs). split.
    + intros K. exists t. split; auto. split; auto. left.
      assert (Hin : In m0 (fm_comparators mods)) by (rewrite E; left; auto).
      apply filter_In in Hin as [Hin Hc]. destruct (comparator_mod_op m0 t v Hc) as (op & Hop & _). eauto.
    + intros (t' & Ht' & _ & K). rewrite <- (Tu _ Ht'). auto.
Qed.

Lemma fm_transformers_nil mods : fm_transformers mods = [] <-> forall m, In m mods -> ~ transforming m.
Proof.
  unfold fm_transformers. induction mods as [|m mods IH]; cbn [map concat].
  - split; [intros _ m []|auto].
  - destruct (mget m transformers_map) as [l|] eqn:E.
    + split.
      * intros H. apply app_eq_nil in H as [H0 H]. subst l. exfalso. revert E. unfold transformers_map. simpl.
        repeat match goal with |- context [seqb m ?k] => destruct (seqb m k); [discriminate|] end. discriminate.
      * intros H. exfalso. apply (H m); [left; auto|]. apply transforming_get. congruence.
    + cbn [app]. rewrite IH. split.
      * intros H m' [<-|Hm]; [rewrite transforming_get; congruence|auto].
      * intros H m' Hm. apply H; right; auto.
Qed.

Lemma in_fm_transformers t mods : In t (fm_transformers mods) <-> exists m l, In m mods /\ mget m transformers_map = Some l /\ In t l.
Proof.
  unfold fm_transformers. rewrite in_concat. split.
  - intros (l & Hl & Ht). apply in_map_iff in Hl as (m & Hm & Hin). destruct (mget m transformers_map) as [l'|] eqn:E; [|subst; destruct Ht].
    subst. eauto.
  - intros (m & l & Hin & Hm & Ht). exists l. split; auto. apply in_map_iff. exists m. rewrite Hm. auto.
Qed.

Lemma visit_value_spec fm v c :
  visit_value ops mappings (fm_transformers (fm_mods fm)) (fm_comparators (fm_mods fm)) (fm_field fm) v = Ok c ->
  (c r = true <-> fm_value_holds mappings A fm v).
Proof.
  unfold visit_value, fm_value_holds, form. set (mods := fm_mods fm). set (f := fm_field fm).
  destruct (fm_transformers mods) as [|t0 ts] eqn:E.
  - intros H. rewrite (visit_term_spec _ _ _ _ H).
    assert (N : forall m, In m mods -> ~ transforming m) by (apply fm_transformers_nil; auto). split.
    + intros K. exists v. split; auto.
    + intros (w & [(m & Hm & Hf)|[_ ->]] & K); auto.
      exfalso. apply (N m Hm). inversion Hf; subst; unfold transforming; simpl; tauto.
  - rewrite <- E. intros H. apply rbind_ok in H as (css & Hcss & H). inversion H; subst; clear H.
    assert (OK : forall t, In t (fm_transformers mods) -> exists ws cs, transform v t = Ok ws /\
              rmap (s_visit_term ops mappings (fm_comparators mods) f) ws = Ok cs /\ In cs css).
    { intros t Ht. destruct (rmap_in_l _ _ _ Hcss t Ht) as (cs & H1 & H2). apply rbind_ok in H2 as (ws & H2 & H3). eauto. }
    rewrite in_c_any. split.
    + intros (c & Hc & Hr). apply in_concat in Hc as (cs & Hcs & Hc).
      destruct (rmap_in_r _ _ _ Hcss cs Hcs) as (t & Ht & H2). apply rbind_ok in H2 as (ws & H2 & H3).
      destruct (rmap_in_r _ _ _ H3 c Hc) as (w & Hw & Hv). exists w. split; [|apply (visit_term_spec _ _ _ _ Hv); auto].
      left. apply in_fm_transformers in Ht as (m & l & Hm & Hl & Ht). exists m. split; auto.
      apply (forms_spec m l v w Hl); eauto.
      intros t' Ht'. destruct (OK t') as (ws' & cs' & K' & _); eauto. apply in_fm_transformers; eauto.
    + intros (w & [(m & Hm & Hf)|[N _]] & K).
      * assert (exists l, mget m transformers_map = Some l) as (l & Hl).
        { inversion Hf; subst; eexists; reflexivity. }
        apply (forms_spec m l v w Hl) in Hf.
        -- destruct Hf as (t & ws & Ht & H1 & H2).
           destruct (OK t) as (ws' & cs & H3 & H4 & H5); [apply in_fm_transformers; eauto|].
           assert (ws' = ws) by congruence. subst ws'.
           destruct (rmap_in_l _ _ _ H4 w H2) as (c & Hc & Hv). exists c. split; [apply in_concat; eauto|].
           apply (visit_term_spec _ _ _ _ Hv); auto.
        -- intros t' Ht'. destruct (OK t') as (ws' & cs' & K' & _); eauto. apply in_fm_transformers; eauto.
      * exfalso. apply fm_transformers_nil in N. congruence.
Qed.

Lemma fm_all_spec mods : fm_all mods = true <-> In "all" mods.
Proof.
  unfold fm_all. rewrite existsb_exists. split.
  - intros (x & Hx & H). apply seqb_eq in H. subst; auto.
  - intros H. exists "all". split; auto.
Qed.
Lemma visit_fm_spec fm c : visit_fm ops mappings fm = Ok c -> (c r = true <-> fm_holds mappings A fm).
Proof.
  unfold visit_fm, fm_holds. intros H. apply rbind_ok in H as (cs & Hcs & H). inversion H; subst; clear H.
  destruct (fm_all (fm_mods fm)) eqn:E.
  - apply fm_all_spec in E. rewrite (c_all_rmap _ (fm_value_holds mappings A fm) _ _ _ Hcs).
    + tauto.
    + intros; apply visit_value_spec; auto.
  - assert (N : ~ In "all" (fm_mods fm)) by (rewrite <- fm_all_spec; congruence).
    rewrite (c_any_rmap _ (fm_value_holds mappings A fm) _ _ _ Hcs).
    + tauto.
    + intros; apply visit_value_spec; auto.
Qed.
Lemma visit_search_spec s c : visit_search ops mappings s = Ok c -> (c r = true <-> search_holds mappings A s).
Proof.
  unfold visit_search, search_holds. destruct (se_keywords s) as [|k ks].
  - intros H. apply rbind_ok in H as (cs & Hcs & H). inversion H; subst; clear H.
    rewrite (c_all_rmap _ (fm_holds mappings A) _ _ _ Hcs).
    + split.
      * intros H. split; auto. intros em fm He Hf. apply H. apply in_concat. eauto.
      * intros [_ H] fm Hf. apply in_concat in Hf as (em & He & Hf). eauto.
    + intros; apply visit_fm_spec; auto.
  - intros H; inversion H; subst. split; [discriminate|intros [K _]; discriminate].
Qed.

Variable searches : gomap search.
Variable enum : list nat -> list (string * search).
Hypothesis Henum : forall p, Permutation (enum p) searches.

Lemma visit_sexpr_spec e : forall p c, visit_sexpr ops mappings pmatch searches enum p e = Ok c ->
  (c r = true <-> cond_holds mappings pmatch A searches e).
Proof.
  assert (Hin : forall p x, In x (enum p) <-> In x searches).
  { intros p x; split; apply Permutation_in; auto; apply Permutation_sym; auto. }
  induction e as [n|l IH|l IH|e IH| |pt| |pt|] using sexpr_ind'; intros p c; simpl.
  - destruct (mget n searches) as [s|] eqn:E.
    + intros H. rewrite (visit_search_spec _ _ H). split; [eauto|]. intros (s' & Hs & K). congruence.
    + intros H; inversion H; subst. split; [discriminate|]. intros (s' & Hs & K). discriminate.
  - intros H. apply rbind_ok in H as (cs & Hcs & H). inversion H; subst; clear H. revert cs Hcs. generalize 0.
    induction IH as [|e l He Hl IHl]; intros i cs Hcs.
    + inversion Hcs; subst. simpl. tauto.
    + apply rbind_ok in Hcs as (c & Hc & Hcs). apply rbind_ok in Hcs as (cs' & Hcs & H). inversion H; subst.
      rewrite all_cons, andb_true_iff, (He _ _ Hc), (IHl _ _ Hcs). simpl. tauto.
  - intros H. apply rbind_ok in H as (cs & Hcs & H). inversion H; subst; clear H. revert cs Hcs. generalize 0.
    induction IH as [|e l He Hl IHl]; intros i cs Hcs.
    + inversion Hcs; subst. simpl. split; [discriminate|tauto].
    + apply rbind_ok in Hcs as (c & Hc & Hcs). apply rbind_ok in Hcs as (cs' & Hcs & H). inversion H; subst.
      rewrite c_any_existsb. simpl existsb. rewrite <- c_any_existsb, orb_true_iff, (He _ _ Hc), (IHl _ _ Hcs). simpl. tauto.
  - intros H. apply rbind_ok in H as (c0 & Hc & H). inversion H; subst. rewrite <- (IH _ _ Hc).
    unfold c_not, c_eval. destruct (c0 r); simpl; split; congruence.
  - intros H. apply rbind_ok in H as (cs & Hcs & H). inversion H; subst; clear H.
    rewrite (c_any_rmap _ (fun ns => search_holds mappings A (snd ns)) _ _ _ Hcs) by (intros; apply visit_search_spec; auto).
    split.
    + intros ([n s] & Hns & K). exists n, s. rewrite <- (Hin p). auto.
    + intros (n & s & Hns & K). exists (n, s). rewrite Hin. auto.
  - intros H. apply rbind_ok in H as (cs & Hcs & H). inversion H; subst; clear H.
    rewrite (c_any_rmap _ (fun ns => search_holds mappings A (snd ns)) _ _ _ Hcs) by (intros; apply visit_search_spec; auto).
    split.
    + intros ([n s] & Hns & K). apply filter_In in Hns as [Hns Hp]. exists n, s. rewrite <- (Hin p). auto.
    + intros (n & s & Hns & Hp & K). exists (n, s). rewrite filter_In, Hin. auto.
  - intros H. apply rbind_ok in H as (cs & Hcs & H). inversion H; subst; clear H.
    rewrite (c_all_rmap _ (fun ns => search_holds mappings A (snd ns)) _ _ _ Hcs) by (intros; apply visit_search_spec; auto).
    split.
    + intros K n s Hns. apply (K (n, s)). rewrite Hin; auto.
    + intros K [n s] Hns. apply (K n s). rewrite <- (Hin p); auto.
  - intros H. apply rbind_ok in H as (cs & Hcs & H). inversion H; subst; clear H.
    rewrite (c_all_rmap _ (fun ns => search_holds mappings A (snd ns)) _ _ _ Hcs) by (intros; apply visit_search_spec; auto).
    split.
    + intros K n s Hns Hp. apply (K (n, s)). rewrite filter_In, Hin; auto.
    + intros K [n s] Hns. apply filter_In in Hns as [Hns Hp]. apply (K n s); auto. rewrite <- (Hin p); auto.
  - intros H; inversion H; subst. split; [discriminate|tauto].
Qed.
End Comp.

(** ** Totality *)
Section Total.
Context {R : Type}.
Variable ops : operations R.
Variable mappings : gomap (list string).
Variable pmatch : string -> string -> bool.
Variable P : string -> Prop.
Hypothesis Hops : forall l r op, P l -> P r -> exists c, op_compare ops l r op = Ok (c, false).

Lemma first_total x : (exists c : criterion R, x = Ok (c, false)) -> exists c, first_of x = Ok c.
Proof. intros [c ->]. simpl. eauto. Qed.
Lemma comparator_total cmps t v : (forall m, In m cmps -> is_comparator m = true) -> P t -> P v ->
  exists cs, comparator_preds ops cmps t v = Ok cs.
Proof.
  intros H Ht Hv. induction cmps as [|m cmps IH]; simpl; [eauto|].
  destruct (comparator_mod_op ops m t v (H m (or_introl eq_refl))) as (op & _ & -> & _).
  destruct (first_total _ (Hops t v op Ht Hv)) as (c & ->). simpl.
  destruct IH as (cs & ->); [intros; apply H; right; auto|]. simpl. eauto.
Qed.
Lemma visit_term_total mods f v : (forall t, target mappings f t -> P t) -> mget f mappings <> Some [] -> P v ->
  exists c, s_visit_term ops mappings (fm_comparators mods) f v = Ok c.
Proof.
  intros Ht Hm Hv. unfold s_visit_term, mapped_field.
  assert (exists t, (match mget f mappings with Some [] => Panic | Some (t :: _) => Ok t | None => Ok f end) = Ok t /\ P t) as (t & -> & HP).
  { unfold target in Ht. destruct (mget f mappings) as [[|t l]|]; [congruence| |].
    - exists t; split; auto. apply Ht. left; eauto.
    - exists f; split; auto. }
  simpl. destruct (fm_comparators mods) as [|m ms] eqn:E.
  - destruct (first_total _ (Hops t v OpIEq HP Hv)) as (c & ->). simpl. eauto.
  - destruct (comparator_total (m :: ms) t v) as (cs & ->); auto.
    + rewrite <- E. intros m' H. apply filter_In in H. tauto.
    + simpl. eauto.
Qed.
Lemma supported_transform m t v : transforming m -> m <> "base64Offset" -> m <> "cidr" ->
  forall l, mget m transformers_map = Some l -> In t l -> exists w, transform v t = Ok [w] /\ form_of m v w.
Proof.
  intros Hm N1 N2 l Hl Ht. unfold transforming in Hm. simpl in Hm.
  repeat destruct Hm as [<-|Hm]; try contradiction; try congruence;
    vm_compute in Hl; inversion Hl; subst l; simpl in Ht; repeat destruct Ht as [<-|Ht]; try contradiction;
    (eexists; split; [reflexivity|constructor]).
Qed.
Lemma rmap_tot {X Y} (f : X -> res Y) l : (forall x, In x l -> exists y, f x = Ok y) -> exists ys, rmap f l = Ok ys.
Proof.
  induction l as [|x l IH]; intros H; simpl; [eauto|].
  destruct (H x (or_introl eq_refl)) as (y & ->). simpl. destruct IH as (ys & ->); [intros; apply H; right; auto|]. simpl. eauto.
Qed.
Lemma visit_search_total s : search_usable mappings P s -> exists c, visit_search ops mappings s = Ok c.
Proof.
  intros H. unfold visit_search. destruct (se_keywords s); [|eauto].
  assert (exists cs, rmap (visit_fm ops mappings) (concat (se_matchers s)) = Ok cs) as (cs & ->); [|simpl; eauto].
  apply rmap_tot. intros fm Hfm. apply in_concat in Hfm as (em & He & Hf).
  destruct (H em fm He Hf) as (Hsup & Hmap & Ht & Hv). unfold visit_fm.
  match goal with |- exists y, (let* preds := rmap ?f ?l in _) = _ => assert (exists cs, rmap f l = Ok cs) as (cs & ->); [|simpl; eauto] end.
  apply rmap_tot. intros v Hin. unfold visit_value.
  destruct (fm_transformers (fm_mods fm)) as [|t0 ts] eqn:E.
  - apply visit_term_total; auto. apply (Hv v v Hin). right. split; auto. apply fm_transformers_nil; auto.
  - rewrite <- E.
    match goal with |- exists y, (let* preds := rmap ?f ?l in _) = _ => assert (exists cs, rmap f l = Ok cs) as (cs & ->); [|simpl; eauto] end.
    apply rmap_tot. intros t Hin'. apply in_fm_transformers in Hin' as (m & l & Hm & Hl & Htl).
    destruct (Hsup m Hm) as [N1 N2].
    destruct (supported_transform m t v) with (l := l) as (w & -> & Hw); auto.
    { apply transforming_get. congruence. }
    destruct (visit_term_total (fm_mods fm) (fm_field fm) w) as (c & Hc); auto.
    { apply (Hv v w Hin). left; eauto. }
    simpl. rewrite Hc. simpl. eauto.
Qed.
Variable searches : gomap search.
Variable enum : list nat -> list (string * search).
Hypothesis Henum : forall p, Permutation (enum p) searches.
Hypothesis Hs : forall n s, In (n, s) searches -> search_usable mappings P s.

Lemma mget_in {V} k (m : gomap V) v : mget k m = Some v -> In (k, v) m.
Proof.
  induction m as [|[k' v'] m IH]; simpl; [discriminate|]. destruct (seqb k k') eqn:E.
  - intros H; inversion H; subst. apply seqb_eq in E. subst. auto.
  - auto.
Qed.
Lemma enum_total p f : exists cs, rmap (fun ns => visit_search ops mappings (snd ns)) (List.filter f (enum p)) = Ok cs.
Proof.
  apply rmap_tot. intros [n s] H. apply filter_In in H as [H _]. apply visit_search_total. apply (Hs n).
  eapply Permutation_in; [apply Henum|]; eauto.
Qed.
Lemma visit_sexpr_total e : forall p, exists c, visit_sexpr ops mappings pmatch searches enum p e = Ok c.
Proof.
  assert (T : forall p, List.filter (fun _ : string * search => true) (enum p) = enum p).
  { intros p. induction (enum p); simpl; congruence. }
  induction e as [n|l IH|l IH|e IH| |pt| |pt|] using sexpr_ind'; intros p; simpl.
  - destruct (mget n searches) as [s|] eqn:E; [|eauto]. apply visit_search_total. apply (Hs n). apply mget_in; auto.
  - match goal with |- exists c, (let* cs := ?x in _) = _ => assert (exists cs, x = Ok cs) as (cs & ->); [|simpl; eauto] end.
    generalize 0. induction IH as [|e l He Hl IHl]; intros i; [eauto|].
    destruct (He (i :: p)) as (c & ->). simpl. destruct (IHl (S i)) as (cs & ->). simpl. eauto.
  - match goal with |- exists c, (let* cs := ?x in _) = _ => assert (exists cs, x = Ok cs) as (cs & ->); [|simpl; eauto] end.
    generalize 0. induction IH as [|e l He Hl IHl]; intros i; [eauto|].
    destruct (He (i :: p)) as (c & ->). simpl. destruct (IHl (S i)) as (cs & ->). simpl. eauto.
  - destruct (IH (0 :: p)) as (c & ->). simpl. eauto.
  - rewrite <- T. destruct (enum_total p (fun _ => true)) as (cs & ->). simpl; eauto.
  - destruct (enum_total p (fun ns => pmatch pt (fst ns))) as (cs & ->). simpl; eauto.
  - rewrite <- T. destruct (enum_total p (fun _ => true)) as (cs & ->). simpl; eauto.
  - destruct (enum_total p (fun ns => pmatch pt (fst ns))) as (cs & ->). simpl; eauto.
  - eauto.
Qed.
End Total.

(** ** whole compilation *)
Lemma level_spec s : level_is s (level_priority s).
Proof.
  unfold level_is, level_priority, level_words. simpl. set (w := to_lower s).
  repeat match goal with |- context [seqb w ?k] =>
    let E := fresh "E" in destruct (seqb w k) eqn:E; [apply seqb_eq in E; rewrite E; left; tauto|] end.
  right. split; auto. intros q H. repeat destruct H as [H|H]; auto;
    inversion H as [H']; rewrite <- H' in *; discriminate.
Qed.
Section Whole.
Context {R : Type}.
Variable ops : operations R.
Variable mappings : gomap (list string).
Variable pmatch : string -> string -> bool.
Variable ord : srule -> list nat -> list (string * search).

Lemma imap_f2 {X Y} (f : nat -> X -> res Y) (Q : X -> Y -> Prop) l : forall i bs, imap f i l = Ok bs ->
  (forall i a b, f i a = Ok b -> Q a b) -> Forall2 Q l bs.
Proof.
  induction l as [|a l IH]; simpl; intros i bs H HQ.
  - inversion H; constructor.
  - apply rbind_ok in H as (b & Hb & H). apply rbind_ok in H as (bs' & Hbs & H). inversion H; subst. constructor; eauto.
Qed.
Lemma compile_srule_spec (Hord : forall r p, Permutation (ord r p) (sr_searches r)) r rs :
  compile_srule ops mappings pmatch ord r = Ok rs ->
  Forall2 (srule_of ops mappings pmatch) (map (fun e => (r, e)) (sr_conds r)) rs.
Proof.
  unfold compile_srule. intros H.
  assert (F : Forall2 (fun e ru => srule_of ops mappings pmatch (r, e) ru) (sr_conds r) rs).
  { eapply imap_f2; [exact H|]. intros i e b Hb. apply rbind_ok in Hb as (c & Hc & Hb). inversion Hb; subst b.
    split; [reflexivity|]. split; [reflexivity|]. split; [reflexivity|]. split; [reflexivity|].
    split; [apply level_spec|]. split; [reflexivity|]. split; [reflexivity|].
    intros x A HA. simpl. eapply visit_sexpr_spec; eauto. }
  clear H. induction F; simpl; constructor; auto.
Qed.
Lemma s_compile_spec (Hord : forall r p, Permutation (ord r p) (sr_searches r)) fs rs :
  s_compile ops mappings pmatch ord fs = Ok (Some rs) ->
  exists srs, readable fs srs /\ Forall2 (srule_of ops mappings pmatch) (concat (map (fun r => map (fun e => (r, e)) (sr_conds r)) srs)) rs.
Proof.
  unfold s_compile. destruct (read_rules fs) as [srs|] eqn:E; [|discriminate]. intros H.
  apply rbind_ok in H as (rss & Hr & H). inversion H; subst. exists srs. split.
  - clear -E. revert srs E; induction fs as [|[[r|]|] fs IH]; simpl; intros srs E.
    + inversion E; constructor.
    + destruct (read_rules fs); [|discriminate]. inversion E; subst. constructor; auto.
    + constructor; auto.
    + discriminate.
  - apply rmap_ok in Hr. clear -Hr Hord. induction Hr as [|r rs' srs rss Hc F IH]; simpl; [constructor|].
    apply Forall2_app; auto. apply compile_srule_spec; auto.
Qed.
Lemma s_compile_err fs : s_compile ops mappings pmatch ord fs = Ok None <-> In None fs.
Proof.
  unfold s_compile. assert (E : read_rules fs = None <-> In None fs).
  { induction fs as [|[[r|]|] fs IH]; simpl.
    - split; [discriminate|tauto].
    - rewrite <- IH. destruct (read_rules fs); simpl; split; intros; try discriminate; try tauto. destruct H as [H|H]; discriminate.
    - rewrite IH. split; [auto|]. intros [H|H]; [discriminate|auto].
    - tauto. }
  rewrite <- E. destruct (read_rules fs); [|tauto].
  split; [|discriminate]. intros H. apply rbind_ok in H as (? & _ & H). discriminate.
Qed.
End Whole.

(** ** base64 *)
Lemma sextet_char n : n < 64 -> sextet (b64_char n) = Some n.
Proof.
  intros H. do 64 (destruct n as [|n]; [vm_compute; reflexivity|]). lia.
Qed.
Lemma sextet_pad : sextet "="%char = None.
Proof. reflexivity. Qed.

Fixpoint b64_ind3 (P : string -> Prop) (h0 : P "") (h1 : forall a, P (String a ""))
  (h2 : forall a b, P (String a (String b ""))) (h3 : forall a b c s, P s -> P (String a (String b (String c s)))) (s : string) : P s :=
  match s with
  | EmptyString => h0
  | String a EmptyString => h1 a
  | String a (String b EmptyString) => h2 a b
  | String a (String b (String c s')) => h3 a b c s' (b64_ind3 P h0 h1 h2 h3 s')
  end.

Lemma byte_split x : x < 256 -> x / 4 < 64 /\ x mod 4 * 16 < 64 /\ x mod 16 * 4 < 64 /\ x mod 64 < 64 /\ x / 16 < 16 /\ x / 64 < 4.
Proof.
  intros H. pose proof (Nat.div_mod x 4). pose proof (Nat.mod_upper_bound x 4).
  pose proof (Nat.div_mod x 16). pose proof (Nat.mod_upper_bound x 16).
  pose proof (Nat.div_mod x 64). pose proof (Nat.mod_upper_bound x 64). lia.
Qed.
Lemma quot_rem p q d : q < d -> (p * d + q) / d = p /\ (p * d + q) mod d = q.
Proof.
  intros H. split.
  - rewrite Nat.add_comm, Nat.div_add, Nat.div_small by lia. lia.
  - rewrite Nat.add_comm, Nat.mod_add, Nat.mod_small by lia. lia.
Qed.
Lemma rebuild x d : d <> 0 -> x / d * d + x mod d = x.
Proof. intros H. pose proof (Nat.div_mod x d H). lia. Qed.

Lemma b64_head a q : (nat_of_ascii a < 256) -> q < 16 ->
  ascii_of_nat (nat_of_ascii a / 4 * 4 + (nat_of_ascii a mod 4 * 16 + q) / 16) = a.
Proof.
  intros Ha Hq. destruct (quot_rem (nat_of_ascii a mod 4) q 16 Hq) as [-> _].
  rewrite rebuild by lia. apply ascii_nat_embedding.
Qed.
Lemma b64_mid b p q : (nat_of_ascii b < 256) -> q < 4 ->
  ascii_of_nat ((p * 16 + nat_of_ascii b / 16) mod 16 * 16 + (nat_of_ascii b mod 16 * 4 + q) / 4) = b.
Proof.
  intros Hb Hq. assert (Hb' : nat_of_ascii b / 16 < 16) by (apply byte_split; auto).
  destruct (quot_rem p _ 16 Hb') as [_ ->]. destruct (quot_rem (nat_of_ascii b mod 16) q 4 Hq) as [-> _].
  rewrite rebuild by lia. apply ascii_nat_embedding.
Qed.

Lemma unbase64_b64 s : unbase64 (b64 s) = Some s.
Proof.
  induction s as [|a|a b|a b c s IH] using b64_ind3; [reflexivity| | |].
  - pose proof (nat_ascii_bounded a) as Ba. destruct (byte_split _ Ba) as (A1 & A2 & _).
    unfold b64, unbase64. rewrite !sextet_char by lia. rewrite sextet_pad. cbv beta iota zeta.
    change (Ascii.eqb "=" "=" && Ascii.eqb "=" "=" && seqb "" "") with true. cbv iota.
    replace (nat_of_ascii a mod 4 * 16) with (nat_of_ascii a mod 4 * 16 + 0) by lia. rewrite b64_head by lia. reflexivity.
  - pose proof (nat_ascii_bounded a) as Ba. destruct (byte_split _ Ba) as (A1 & A2 & _).
    pose proof (nat_ascii_bounded b) as Bb. destruct (byte_split _ Bb) as (_ & _ & B3 & _ & B5 & _).
    pose proof (Nat.mod_upper_bound (nat_of_ascii a) 4).
    unfold b64, unbase64. rewrite !sextet_char by lia. rewrite sextet_pad. cbv beta iota zeta.
    change (Ascii.eqb "=" "=" && seqb "" "") with true. cbv iota.
    rewrite b64_head by lia.
    replace (nat_of_ascii b mod 16 * 4) with (nat_of_ascii b mod 16 * 4 + 0) by lia. rewrite b64_mid by lia. reflexivity.
  - pose proof (nat_ascii_bounded a) as Ba. destruct (byte_split _ Ba) as (A1 & A2 & _).
    pose proof (nat_ascii_bounded b) as Bb. destruct (byte_split _ Bb) as (_ & _ & B3 & _ & B5 & _).
    pose proof (nat_ascii_bounded c) as Bc. destruct (byte_split _ Bc) as (_ & _ & _ & C4 & _ & C6).
    pose proof (Nat.mod_upper_bound (nat_of_ascii a) 4). pose proof (Nat.mod_upper_bound (nat_of_ascii b) 16).
    change (b64 (String a (String b (String c s)))) with
      (String (b64_char (nat_of_ascii a / 4)) (String (b64_char (nat_of_ascii a mod 4 * 16 + nat_of_ascii b / 16))
        (String (b64_char (nat_of_ascii b mod 16 * 4 + nat_of_ascii c / 64)) (String (b64_char (nat_of_ascii c mod 64)) (b64 s))))).
    cbn [unbase64]. rewrite !sextet_char by lia. rewrite IH. cbv zeta.
    rewrite b64_head by lia. rewrite b64_mid by lia.
    destruct (quot_rem (nat_of_ascii b mod 16) _ 4 C6) as [_ ->].
    rewrite rebuild by lia. rewrite ascii_nat_embedding. reflexivity.
Qed.
Lemma b64_longer s : slen s < slen (b64 s) \/ s = "".
Proof.
  unfold slen. induction s as [|a|a b|a b c s IH] using b64_ind3; [now right|left; cbn; lia|left; cbn; lia|left].
  cbn [b64 String.length]. destruct IH as [IH| ->]; [lia|cbn; lia].
Qed.
Lemma combined_flags v : transform v (fl_set WinDashFlag Base64Flag) = Ok [b64 (windash v)] /\ transform v (fl_set WinDashFlag NoFlags) = Ok [windash v] /\
  transform v (fl_set WinDashFlag Base64OffsetFlag) = Panic /\ transform v (fl_set CIDRFlag Base64Flag) = Panic.
Proof. repeat split; reflexivity. Qed.
Lemma form_cases m v w : form_of m v w -> (m <> "base64" /\ (w = v \/ w = windash v)) \/ (m = "base64" /\ w = b64 v).
Proof. intros H. destruct H; try (left; split; [discriminate|auto]; fail). right; auto. Qed.

Lemma windash_spec s : slen (windash s) = slen s /\
  forall i a, String.get i (windash s) = Some a <->
    exists b, String.get i s = Some b /\ (b = "-"%char /\ a = "/"%char \/ b <> "-"%char /\ a = b).
Proof.
  split.
  - unfold windash, slen. induction s; simpl; congruence.
  - induction s as [|c s IH]; intros [|i] a; simpl.
    + split; [discriminate|intros (b & H & _); discriminate].
    + split; [discriminate|intros (b & H & _); discriminate].
    + destruct (Ascii.eqb_spec c "-"%char) as [->|N].
      * split; [intros H; inversion H; exists "-"%char; auto|]. intros (b & H & K). inversion H; subst b.
        destruct K as [[_ ->]|[K _]]; congruence.
      * split; [intros H; inversion H; subst; exists a; auto|]. intros (b & H & K). inversion H; subst b.
        destruct K as [[K _]|[_ ->]]; congruence.
    + apply IH.
Qed.
Lemma not_chained v : windash v <> v -> ~ form ["windash"; "base64"] v (b64 (windash v)).
Proof.
  intros N [(m & _ & H)|[H _]].
  - apply form_cases in H as [[_ H]|[_ H]].
    + assert (L : slen (b64 (windash v)) = slen v).
      { destruct H as [H|H]; rewrite H; [reflexivity|]. exact (proj1 (windash_spec v)). }
      destruct (b64_longer (windash v)) as [G|G]; [rewrite (proj1 (windash_spec v)), L in G; lia|].
      assert (L0 : slen v = 0) by (rewrite <- (proj1 (windash_spec v)), G; reflexivity).
      destruct v; [apply N; reflexivity|discriminate L0].
    + apply N. pose proof (f_equal unbase64 H) as K. rewrite !unbase64_b64 in K. congruence.
  - apply (H "base64"); [right; now left|now left].
Qed.

(** ** unsupported and ignored features *)
Lemma transform_any v t l : In t l -> (l = [Base64OffsetFlag] \/ l = [CIDRFlag]) -> transform v t = Panic.
Proof. intros H [-> | ->]; destruct H as [<-|[]]; reflexivity. Qed.
Lemma unsupported_never {R} (ops : operations R) mappings s em fm m :
  se_keywords s = [] -> In em (se_matchers s) -> In fm em -> In m (fm_mods fm) -> m = "base64Offset" \/ m = "cidr" ->
  fm_values fm <> [] -> forall c, visit_search ops mappings s <> Ok c.
Proof.
  intros Hk He Hf Hm Hu Hv c H. unfold visit_search in H. rewrite Hk in H.
  apply rbind_ok in H as (cs & Hcs & _).
  destruct (rmap_in_l _ _ _ Hcs fm) as (cf & _ & Hc); [apply in_concat; eauto|].
  unfold visit_fm in Hc. apply rbind_ok in Hc as (cvs & Hcv & _).
  destruct (fm_values fm) as [|v vs]; [congruence|].
  destruct (rmap_in_l _ _ _ Hcv v (or_introl eq_refl)) as (cv & _ & Hval).
  assert (exists t, In t (fm_transformers (fm_mods fm)) /\ transform v t = Panic) as (t & Ht & Hp).
  { destruct Hu; subst m; [exists Base64OffsetFlag|exists CIDRFlag]; (split; [apply in_fm_transformers|reflexivity]);
      eexists; eexists; (split; [exact Hm|]); split; [reflexivity|left; auto|reflexivity|left; auto]. }
  unfold visit_value in Hval. destruct (fm_transformers (fm_mods fm)) as [|t0 ts] eqn:E; [destruct Ht|]. rewrite <- E in *.
  apply rbind_ok in Hval as (css & Hcss & _). destruct (rmap_in_l _ _ _ Hcss t Ht) as (ct & _ & Hct).
  rewrite Hp in Hct. discriminate.
Qed.
Lemma re_ignored {R} (ops : operations R) mappings f mods vs :
  ~ In "re" mods -> visit_fm ops mappings (mkFM f ("re" :: mods) vs) = visit_fm ops mappings (mkFM f mods vs).
Proof. reflexivity. Qed.
Lemma base64offset_ignored {R} (ops : operations R) mappings f mods vs :
  visit_fm ops mappings (mkFM f ("base64offset" :: mods) vs) = visit_fm ops mappings (mkFM f mods vs).
Proof. reflexivity. Qed.
Lemma maps_conjoined {R} (ops : operations R) mappings ms :
  visit_search ops mappings (mkSearch [] ms) = visit_search ops mappings (mkSearch [] [concat ms]).
Proof. unfold visit_search. simpl. rewrite app_nil_r. reflexivity. Qed.

Lemma flat_smodels X M fr : smodels (flat_ops X M) fr (flat_satomic X M fr).
Proof.
  destruct (flat_models X M fr) as (_ & H & _). split; [exact H|].
  intros l re c Hc. simpl in Hc. unfold fr_regexp in Hc. simpl.
  destruct (x_regfind X re) as [find|] eqn:E; [|discriminate].
  destruct (map_str X M l) as [m| | |] eqn:El; try discriminate. inversion Hc; subst c. split.
  - intros K. exists find, m. repeat split; auto. intros K'. rewrite K' in K. discriminate.
  - intros (f' & m' & Hf & Hm & K). inversion Hf; inversion Hm; subst.
    apply negb_true_iff. destruct (seqb (f' (m' fr)) "") eqn:Eq; auto. apply seqb_eq in Eq. contradiction.
Qed.

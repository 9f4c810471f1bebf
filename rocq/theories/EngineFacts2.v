(** * EngineFacts2: the engine on flattened records, with Falco policies, end to end. *)
From Coq Require Import Lia.
From Verif Require Import GoBase GoFacts Predicates SpecStrings PolicyFacts PolicyFacts2 FlatRecord FalcoModel SpecFalco SpecFlat
  FalcoFacts FalcoFacts2 FalcoFacts3 EngineModel SpecEngine EngineFacts EngineFlat SpecEngineFlat.

(** Truth values are unique for arbitrary environments. *)
Lemma expands_det_any lists :
  (forall x ys, expands lists x ys -> forall zs, expands lists x zs -> ys = zs) /\
  (forall l ys, expands_all lists l ys -> forall zs, expands_all lists l zs -> ys = zs).
Proof.
  apply expands_both.
  - intros x H zs Hz. inversion Hz; subst; congruence.
  - intros x l ys H _ IH zs Hz. inversion Hz; subst; [congruence|]. assert (l0 = l) by congruence. subst. auto.
  - intros zs H; inversion H; auto.
  - intros x l ys zs _ IH1 _ IH2 ws H. inversion H; subst. f_equal; auto.
Qed.
Lemma arg_items_det_any lists a : forall ys zs, arg_items lists a ys -> arg_items lists a zs -> ys = zs.
Proof.
  destruct (expands_det_any lists) as [D1 D2].
  induction a as [|x a IH]; intros ys zs H1 H2; inversion H1; subst; inversion H2; subst; auto.
  - f_equal; eauto.
  - f_equal; eauto.
Qed.
Lemma ev_det_any macros lists A :
  (forall t v, tv macros lists A t v -> forall w, tv macros lists A t w -> v = w) /\
  (forall e v, ev macros lists A e v -> forall w, ev macros lists A e w -> v = w) /\
  (forall c v, cv macros lists A c v -> forall w, cv macros lists A c w -> v = w).
Proof.
  pose proof (arg_items_det_any lists) as D.
  apply tv_ev_cv; intros.
  - inversion H2; subst; [|congruence]. assert (e0 = e) by congruence. subst; auto.
  - inversion H0; subst; congruence.
  - inversion H1; subst. f_equal; auto.
  - inversion H0; subst. eapply bool_iff_eq; eauto.
  - inversion H0; subst. eapply bool_iff_eq; eauto.
  - inversion H1; subst. assert (ys0 = ys) by eauto. subst. eapply bool_iff_eq; eauto.
  - inversion H1; subst. assert (ys0 = ys) by eauto. subst. eapply bool_iff_eq; eauto.
  - inversion H1; subst; auto.
  - inversion H; auto.
  - inversion H3; subst. f_equal; auto.
  - inversion H; auto.
  - inversion H3; subst. f_equal; auto.
Qed.

Section F.
Variable X : sfgo_fns.
Variable M : gomap fieldmap.

Lemma sf_lift_ok x c : sf_lift x = Ok (c, false) -> exists c0, x = Ok (c0, false) /\ forall r, c r = c0 (fst r).
Proof. unfold sf_lift. destruct x as [[c0 e]| | |]; simpl; try discriminate. intros H; inversion H; subst. eauto. Qed.
Lemma sf_models r : models (sf_ops X M) r (flat_atomic X M (fst r)).
Proof.
  destruct (flat_models X M (fst r)) as (H1 & H2 & H3). split; [|split].
  - intros a c H. apply sf_lift_ok in H as (c0 & H & E). rewrite E. auto.
  - intros l rr op c H. apply sf_lift_ok in H as (c0 & H & E). rewrite E. auto.
  - intros l ys op c H. apply sf_lift_ok in H as (c0 & H & E). rewrite E. auto.
Qed.

Lemma rule_data od (ru : rule sfrec) : rule_of (sf_ops X M) od ru -> forall a b, fst a = fst b -> r_cond ru a = r_cond ru b.
Proof.
  destruct od as [o d]. intros H a b E. destruct H as (_ & _ & _ & _ & _ & _ & _ & _ & H).
  pose proof (H a _ (sf_models a)) as Ha. pose proof (H b _ (sf_models b)) as Hb. rewrite E in Ha.
  destruct (ev_det_any (oc_macros o) (oc_lists o) (flat_atomic X M (fst b))) as (_ & D & _). eapply D; eauto.
Qed.

Variable typ : flatrec -> string.
Hypothesis Htyp : map_str X M "sf.type" = Ok typ.

Lemma sf_applicable_spec r ru : sf_applicable X M r ru = true <-> r_prefilter ru = [] \/ In (typ (fst r)) (r_prefilter ru).
Proof.
  unfold sf_applicable. destruct (fr_applicable_spec X M (r_prefilter ru) (fst r) typ Htyp) as (b & -> & H). exact H.
Qed.

Lemma fires_decl od ru : rule_of (sf_ops X M) od ru ->
  (forall it, In (OPrefilter it) (rd_opts (snd od)) -> clean_items it) ->
  forall r, fires (sf_applicable X M) r ru <-> decl_fires X M typ (fst r) od.
Proof.
  destruct od as [o d]. intros (_ & _ & He & _ & _ & _ & Hp & _ & Hc) Hclean r. simpl in Hclean.
  unfold fires, decl_fires. rewrite sf_applicable_spec.
  assert (E : r_enabled ru = true <-> ~ (exists s, first_such is_enabled_opt (rd_opts d) (OEnabled s) /\ off_word s)).
  { rewrite <- He. destruct (r_enabled ru); split; congruence. }
  rewrite E.
  assert (P : (r_prefilter ru = [] \/ In (typ (fst r)) (r_prefilter ru)) <->
    ((forall it, ~ In (OPrefilter it) (rd_opts d)) \/
     exists it, first_such (fun o => exists it', o = OPrefilter it') (rd_opts d) (OPrefilter it) /\
       In (typ (fst r)) (map trim_bounding_quotes (it_atoms it)))).
  { destruct Hp as [P1 P2].
    assert (Dec : (forall it, ~ In (OPrefilter it) (rd_opts d)) \/
      exists it, first_such (fun o => exists it', o = OPrefilter it') (rd_opts d) (OPrefilter it)).
    { clear. induction (rd_opts d) as [|q l IH]; [left; intros it []|].
      assert (Q : (exists it, q = OPrefilter it) \/ (forall it, q <> OPrefilter it)) by (destruct q; [right|right|right|right|left|right|right|right]; try discriminate; eauto).
      destruct Q as [[it ->]|Q].
      - right. exists it. exists [], l. repeat split; eauto.
      - destruct IH as [IH|[it (pre & post & -> & H1 & H2)]].
        + left. intros it [H|H]; [apply (Q it); auto|apply (IH it); auto].
        + right. exists it, (q :: pre), post. repeat split; auto. intros o' [<-|Ho]; auto. intros [it' ->]. apply (Q it'); auto. }
    destruct Dec as [Dec|[it Hf]].
    - rewrite (P2 Dec). split; [intros _; left; auto|intros _; left; auto].
    - assert (Hin : In (OPrefilter it) (rd_opts d)).
      { destruct Hf as (pre & post & -> & _). apply in_app_iff. right; left; auto. }
      rewrite (P1 it Hf (Hclean it Hin)). split.
      + intros [K|K]; [|right; eauto]. exfalso. destruct (Hclean it Hin) as (_ & Hne & _). apply Hne.
        destruct (it_atoms it); [auto|discriminate].
      + intros [K|(it' & Hf' & K)]; [destruct (K it); auto|]. right.
        pose proof (first_such_unique _ _ _ _ Hf Hf') as Q. inversion Q; subst it'. auto. }
  rewrite P. pose proof (Hc r _ (sf_models r)) as Hv. unfold c_eval in Hv. split.
  - intros (A1 & A2 & A3). rewrite A3 in Hv. auto.
  - intros (A1 & A2 & A3). split; auto. split; auto.
    destruct (ev_det_any (oc_macros o) (oc_lists o) (flat_atomic X M (fst r))) as (_ & D & _). symmetry. eapply D; eauto.
Qed.
Lemma filter_decl od f : filter_of (sf_ops X M) od f ->
  forall r, (f_enabled f = true /\ f_cond f r = true) <-> filter_fires X M (fst r) od.
Proof.
  destruct od as [o d]. intros (_ & He & Hc) r. unfold filter_fires.
  assert (E : f_enabled f = true <-> ~ (exists s, fd_enabled d = Some s /\ off_word s)).
  { rewrite <- He. destruct (f_enabled f); split; congruence. }
  rewrite E. pose proof (Hc r _ (sf_models r)) as Hv. unfold c_eval in Hv. split.
  - intros (A1 & A2). rewrite A2 in Hv. auto.
  - intros (A1 & A2). split; auto.
    destruct (ev_det_any (oc_macros o) (oc_lists o) (flat_atomic X M (fst r))) as (_ & D & _). symmetry. eapply D; eauto.
Qed.

Lemma selects_transport {A B} (Q : A -> B -> Prop) (P : A -> Prop) (P' : B -> Prop) l l' s' :
  Forall2 Q l l' -> (forall a b, In a l -> Q a b -> (P' b <-> P a)) -> selects P' l' s' ->
  exists s, selects P l s /\ Forall2 Q s s'.
Proof.
  intros F. revert s'. induction F as [|a b l l' HQ F IH]; intros s' HP Hs.
  - inversion Hs; subst. exists []. split; constructor.
  - assert (Eab : P' b <-> P a) by (apply HP; [left; auto|auto]).
    inversion Hs as [|b' l0 s0 Pb S0|b' l0 s0 Pb S0]; subst.
    + destruct (IH s0) as (s & S1 & S2); auto. { intros; apply HP; auto; right; auto. }
      exists (a :: s). split; constructor; auto. apply Eab; auto.
    + destruct (IH s') as (s & S1 & S2); auto. { intros; apply HP; auto; right; auto. }
      exists s. split; auto. constructor; auto. rewrite <- Eab. auto.
Qed.

Lemma falco_end_to_end n fs rules filters ah m fr ctx :
  files_plain fs -> compile (sf_ops X M) n fs = Ok (Some (rules, filters)) -> benign ah ->
  (forall o d it, In (o, d) (rule_occs (occs [] fs)) -> In (OPrefilter it) (rd_opts d) -> clean_items it) ->
  let (r', es) := sf_work X M ah m filters rules (fr, ctx) in
  ((exists od, In od (filter_occs (occs [] fs)) /\ filter_fires X M fr od) -> r' = (fr, ctx) /\ es = []) /\
  ((forall od, In od (filter_occs (occs [] fs)) -> ~ filter_fires X M fr od) ->
   exists fired, selects (decl_fires X M typ fr) (rule_occs (occs [] fs)) fired /\
     fst r' = fr /\
     (exists new, ctx_getrules (snd r') = ctx_getrules ctx ++ new /\ Forall2 marked fired new) /\
     (m = EnrichMode \/ fired <> [] -> outs es = [r']) /\
     (m = AlertMode -> fired = [] -> es = [] /\ r' = (fr, ctx))).
Proof.
  intros Hp Hc Hb Hclean. destruct (compile_ok (sf_ops X M) n fs rules filters Hp Hc) as (_ & F1 & F2).
  unfold sf_work.
  assert (Hin : inert (fun a b : sfrec => fst a = fst b) (sf_applicable X M) sf_add ah rules).
  { split; [auto|]. split; [intros a b c -> ->; auto|]. split; [|split].
    - intros a b ru E Hr. split.
      + clear -F1 Hr E. induction F1; [destruct Hr|]. destruct Hr as [<-|Hr]; auto. eapply rule_data; eauto.
      + unfold sf_applicable. rewrite E. auto.
    - reflexivity.
    - intros a f r Hf. destruct (Hb a f r Hf); auto. }
  pose proof (work_get (sf_applicable X M) sf_add ah (fun r : sfrec => ctx_getrules (snd r)) meta) as G.
  assert (Hadd : forall (r : sfrec) ru, ctx_getrules (snd (sf_add r ru)) = ctx_getrules (snd r) ++ [meta ru]).
  { intros [? c] ru. unfold sf_add, ctx_getrules. simpl. destruct (cx_rules c); reflexivity. }
  specialize (G Hadd (fun a f r Hf => proj2 (Hb a f r Hf)) m filters rules (fr, ctx)).
  pose proof (work_kept (sf_applicable X M) sf_add ah (fun a b : sfrec => fst a = fst b) m filters rules (fr, ctx) Hin) as K.
  assert (D : forall f, In f filters -> f_enabled f = true -> f_cond f (fr, ctx) = true ->
     exists od, In od (filter_occs (occs [] fs)) /\ filter_fires X M fr od).
  { clear -F2. induction F2 as [|od f ods fl H F IH]; intros g Hg E1 E2; [destruct Hg|].
    destruct Hg as [<-|Hg].
    - exists od. split; [left; auto|]. apply (filter_decl od f H (fr, ctx)). auto.
    - destruct (IH g Hg E1 E2) as (od' & H1 & H2). exists od'. split; [right|]; auto. }
  assert (D' : forall od, In od (filter_occs (occs [] fs)) -> filter_fires X M fr od ->
     exists f, In f filters /\ f_enabled f = true /\ f_cond f (fr, ctx) = true).
  { clear -F2. induction F2 as [|od f ods fl H F IH]; intros g Hg E; [destruct Hg|].
    destruct Hg as [<-|Hg].
    - exists f. split; [left; auto|]. apply (filter_decl od f H (fr, ctx)). auto.
    - destruct (IH g Hg E) as (f' & H1 & H2). exists f'. split; [right|]; auto. }
  pose proof (work_dropped (sf_applicable X M) sf_add ah m filters rules (fr, ctx)) as Dr.
  destruct (work (sf_applicable X M) sf_add ah m filters rules (fr, ctx)) as [r' es]. split.
  - intros (od & H1 & H2). destruct (D' od H1 H2) as (f & H3 & H4 & H5). specialize (Dr f H3 H4 H5). inversion Dr; auto.
  - intros Hnf. destruct K as (fired & es0 & S1 & S2 & S3 & S4).
    { intros f H1 H2 H3. destruct (D f H1 H2 H3) as (od & H4 & H5). eapply Hnf; eauto. }
    destruct (selects_transport (rule_of (sf_ops X M)) (decl_fires X M typ fr) (fires (sf_applicable X M) (fr, ctx)) _ _ fired F1) as (fod & T1 & T2); auto.
    { intros [o d] ru Hod Hr. apply (fires_decl (o, d) ru Hr). intros it; apply (Hclean o d it Hod). }
    exists fod. split; auto. split; [auto|].
    destruct (blocks_annots ah fired es0 S2) as [B1 B2].
    assert (N : Forall2 marked fod (map meta fired)).
    { clear -T2. induction T2 as [|[o d] ru l l' H F IH]; simpl; constructor; auto.
      destruct H as (H1 & H2 & _ & H4 & H5 & H6 & _ & H8 & _). unfold marked. cbn [meta m_name m_desc m_prio m_actions m_tags]. auto 10. }
    assert (NE : fod = [] <-> fired = []) by (split; intros ->; inversion T2; auto).
    destruct S4 as [[Hm ->]|(Hm & Hfn & -> & ->)].
    + rewrite annots_app, B1 in G. simpl in G. rewrite app_nil_r in G. rewrite outs_app, B2.
      split; [exists (map meta fired); auto|]. split; [auto|].
      intros Hal Hn. exfalso. destruct Hm as [Hm|Hm]; [congruence|]. apply Hm. apply NE; auto.
    + apply NE in Hfn. subst fod. split; [exists []; rewrite app_nil_r; auto|]. split; [|auto].
      intros [K|K]; congruence.
Qed.
End F.

(** * MonitorFacts *)
From Coq Require Import Lia.
From Verif Require Import GoBase GoFacts PoolModel MonitorModel SpecMonitor.

Notation keys m := (map fst m).
Lemma mdel_keys {V} k (m : gomap V) : forall k', In k' (keys (mdel k m)) <-> In k' (keys m) /\ k' <> k.
Proof.
  intros k'. induction m as [|[a v] m IH]; cbn; [tauto|]. destruct (seqb k a) eqn:E.
  - apply String.eqb_eq in E. subst a. rewrite IH. intuition congruence.
  - apply String.eqb_neq in E. cbn. rewrite IH. intuition congruence.
Qed.
Lemma mdel_nodup {V} k (m : gomap V) : NoDup (keys m) -> NoDup (keys (mdel k m)).
Proof.
  induction m as [|[a v] m IH]; cbn; auto. intros H. inversion H; subst. destruct (seqb k a); auto.
  cbn. constructor; auto. rewrite mdel_keys. tauto.
Qed.
Lemma mput_nodup {V} k (v : V) m : NoDup (keys m) -> NoDup (keys (mput k v m)).
Proof. intros H. cbn. constructor; [rewrite mdel_keys; tauto|now apply mdel_nodup]. Qed.
Lemma mget_mput {V} k k' (v : V) m : mget k (mput k' v m) = if seqb k k' then Some v else mget k m.
Proof. unfold mput. cbn. destruct (seqb k k') eqn:E; auto. rewrite mget_mdel, E. auto. Qed.
Lemma mget_keys {V} k (m : gomap V) : In k (keys m) <-> mget k m <> None.
Proof.
  induction m as [|[a v] m IH]; cbn; [tauto|]. destruct (seqb k a) eqn:E.
  - apply String.eqb_eq in E. subst. intuition congruence.
  - apply String.eqb_neq in E. rewrite <- IH. intuition congruence.
Qed.

Lemma sum_loop_spec old sum : forall paths ch new ch' new', NoDup (keys new) ->
  sum_loop old sum paths ch new = Some (ch', new') ->
  NoDup (keys new') /\ (forall f, In f paths -> sum f <> None /\ mget f new' = sum f) /\
  (forall f, ~ In f paths -> mget f new' = mget f new) /\
  (ch' = true <-> ch = true \/ exists f, In f paths /\ mget f old <> sum f).
Proof.
  induction paths as [|p paths IH]; intros ch new ch' new' ND; cbn.
  - intros [= <- <-]. repeat split; auto; try tauto. intros [H|(f & [] & _)]; auto.
  - destruct (sum p) as [cs|] eqn:Es; [|discriminate]. intros H. apply IH in H; [|now apply mput_nodup].
    destruct H as (H1 & H2 & H3 & H4). split; auto. split; [|split].
    + intros f Hf. destruct (in_dec string_dec f paths) as [i|n]; [auto|].
      destruct Hf as [<-|Hf]; [|tauto]. rewrite Es. split; [discriminate|].
      rewrite H3 by auto. rewrite mget_mput. unfold seqb. now rewrite String.eqb_refl.
    + intros f Hf. rewrite H3, mget_mput by tauto. destruct (seqb f p) eqn:E; auto. apply String.eqb_eq in E. subst. tauto.
    + rewrite H4. destruct (mget p old) as [v|] eqn:Eo.
      * destruct (seqb v cs) eqn:Ev.
        -- apply String.eqb_eq in Ev. subst v. split; [intros [H|(f & Hf & Hn)]; eauto|]. intros [H|(f & [<-|Hf] & Hn)]; eauto. rewrite Eo, Es in Hn. congruence.
        -- apply String.eqb_neq in Ev. split; [intros _|auto]. right. exists p. split; auto. rewrite Eo, Es. congruence.
      * split; [intros _|auto]. right. exists p. split; auto. rewrite Eo, Es. discriminate.
Qed.
Lemma sum_loop_none old sum : forall paths ch new, sum_loop old sum paths ch new = None <-> exists f, In f paths /\ sum f = None.
Proof.
  induction paths as [|p paths IH]; intros ch new; cbn.
  - split; [discriminate|intros (f & [] & _)].
  - destruct (sum p) as [cs|] eqn:Es.
    + rewrite IH. split; [intros (f & Hf & Hn); eauto|]. intros (f & [<-|Hf] & Hn); [congruence|eauto].
    + split; eauto.
Qed.

Definition shape (v : view) : Prop := v_paths v = None \/ unreadable v \/ exists c, shows v c.
Lemma shape_total v : shape v.
Proof.
  unfold shape. destruct (v_paths v) as [[|p paths]|] eqn:E; auto.
  - right. left. left. auto.
  - destruct (sum_loop [] (v_sum v) (p :: paths) false []) as [[ch new]|] eqn:Es.
    + right. right. apply sum_loop_spec in Es; [|constructor]. destruct Es as (_ & H2 & H3 & _).
      exists (fun f => mget f new), (p :: paths). split; [auto|]. split; [discriminate|]. split.
      * intros f Hf. destruct (H2 f Hf). auto.
      * intros f Hf. now rewrite H3.
    + right. left. right. apply sum_loop_none in Es as (f & Hf & Hn). eauto.
Qed.

Lemma check_shows old v c : NoDup (keys old) -> shows v c ->
  let (new, o) := calculate_checksum old v in
  NoDup (keys new) /\ (forall f, mget f new = c f) /\ o_err o = false /\ o_nofiles o = false /\
  (o_changes o = true <-> exists f, mget f old <> c f).
Proof.
  intros ND (paths & Ep & Hne & Hin & Hout). unfold calculate_checksum. rewrite Ep. destruct paths as [|p0 paths0] eqn:Ept; [congruence|]. rewrite <- Ept in *. clear Ept.
  destruct (sum_loop old (v_sum v) paths false []) as [[ch new]|] eqn:Es.
  2:{ apply sum_loop_none in Es as (f & Hf & Hn). apply Hin in Hf. tauto. }
  apply sum_loop_spec in Es; [|constructor]. destruct Es as (N1 & H2 & H3 & H4).
  assert (Hc : forall f, mget f new = c f).
  { intros f. destruct (in_dec string_dec f paths) as [i|n].
    - destruct (H2 f i) as [_ ->]. symmetry. now apply Hin.
    - rewrite H3 by auto. now rewrite Hout. }
  cbn. split; [auto|]. split; [auto|]. split; [auto|]. split; [auto|].
  assert (H4' : ch = true <-> exists f, In f paths /\ mget f old <> c f).
  { rewrite H4. split.
    - intros [H|(f & Hf & Hn)]; [discriminate|]. exists f. split; auto. destruct (Hin f Hf) as [-> _]. auto.
    - intros (f & Hf & Hn). right. exists f. split; auto. destruct (Hin f Hf) as [<- _]. auto. }
  destruct (Nat.eqb_spec (length old) (length new)) as [El|El].
  - rewrite H4'. split; [intros (f & _ & Hn); eauto|]. intros (f & Hn).
    destruct ch; [now apply H4'|]. exfalso.
    assert (A : forall g, In g paths -> mget g old = c g).
    { intros g Hg. destruct (option_map id (mget g old)) eqn:Eg; destruct (mget g old) as [x|] eqn:Ex; destruct (c g) as [y|] eqn:Ey; auto.
      all: try (destruct (string_dec x y); [congruence|]). all: exfalso; assert (false = true) by (apply H4'; exists g; split; auto; congruence); discriminate. }
    assert (I1 : incl (keys new) (keys old)).
    { intros g Hg. apply mget_keys in Hg. rewrite Hc in Hg. apply mget_keys. destruct (in_dec string_dec g paths); [rewrite A; auto|]. rewrite Hout in Hg by auto. congruence. }
    assert (I2 : incl (keys old) (keys new)).
    { apply NoDup_length_incl; auto. rewrite !map_length. lia. }
    destruct (in_dec string_dec f paths) as [i|n]; [apply Hn, A; auto|]. apply Hn. rewrite (Hout f n).
    destruct (mget f old) eqn:Ef; auto. exfalso. assert (In f (keys old)) by (apply mget_keys; congruence). apply I2 in H.
    apply mget_keys in H. rewrite Hc, Hout in H; auto.
  - split; auto. intros _.
    destruct ch.
    + destruct H4' as [H4' _]. destruct (H4' eq_refl) as (f & _ & Hn). eauto.
    + (* sizes differ: some key of old is not in new *)
      assert (Hkey : ~ incl (keys old) (keys new) \/ ~ incl (keys new) (keys old)).
      { destruct (Nat.lt_ge_cases (length new) (length old)).
        - left. intros Hi. apply NoDup_incl_length in Hi; auto. rewrite !map_length in Hi. lia.
        - right. intros Hi. apply NoDup_incl_length in Hi; auto. rewrite !map_length in Hi. lia. }
      assert (X : forall (a b : list string), ~ incl a b -> exists f, In f a /\ ~ In f b).
      { clear. induction a as [|x a IH]; intros b H; [destruct H; intros ? []|].
        destruct (in_dec string_dec x b) as [i|n]; [|exists x; cbn; auto].
        destruct (IH b) as (f & F1 & F2). { intros Hi. apply H. intros y [<-|Hy]; auto. } exists f. cbn. auto. }
      destruct Hkey as [Hk|Hk]; apply X in Hk as (f & F1 & F2); exists f; rewrite mget_keys in F1, F2; rewrite Hc in *; destruct (mget f old), (c f); try congruence; exfalso; apply F2; congruence.
Qed.
Lemma check_unreadable old v : unreadable v -> exists o, calculate_checksum old v = ([], o) /\ o_changes o = false /\ o_err o = true /\ (o_nofiles o = true <-> v_paths v = Some []).
Proof.
  intros H. unfold calculate_checksum. destruct H as [->|(paths & f & Ep & Hf & Hn)].
  - eexists. split; [reflexivity|]. cbn. tauto.
  - rewrite Ep. destruct paths as [|p paths']; [destruct Hf|].
    destruct (sum_loop old (v_sum v) (p :: paths') false []) as [[ch new]|] eqn:Es.
    + exfalso. assert (sum_loop old (v_sum v) (p :: paths') false [] = None) by (apply sum_loop_none; eauto). congruence.
    + eexists. split; [reflexivity|]. cbn. intuition discriminate.
Qed.
Lemma check_fail old v : v_paths v = None -> calculate_checksum old v = (old, mkOut false true false).
Proof. unfold calculate_checksum. now intros ->. Qed.

Lemma shows_det v c c' : shows v c -> shows v c' -> same c c'.
Proof.
  intros (p1 & E1 & _ & A1 & B1) (p2 & E2 & _ & A2 & B2) f. rewrite E1 in E2. injection E2 as <-.
  destruct (in_dec string_dec f p1) as [i|n]; [destruct (A1 f i), (A2 f i); congruence|]. rewrite B1, B2; auto.
Qed.
Definition rec_of (h : list view) : gomap string := fold_left look h [].
Lemma rec_snoc h v : rec_of (h ++ [v]) = look (rec_of h) v.
Proof. unfold rec_of. now rewrite fold_left_app. Qed.
Lemma rec_nodup h : NoDup (keys (rec_of h)).
Proof.
  induction h as [|v h IH] using rev_ind; [constructor|]. rewrite rec_snoc. unfold look.
  destruct (shape_total v) as [H|[H|(c & H)]].
  - now rewrite check_fail.
  - destruct (check_unreadable (rec_of h) v H) as (o & -> & _). constructor.
  - pose proof (check_shows _ _ _ IH H) as X. destruct (calculate_checksum (rec_of h) v). apply X.
Qed.
Lemma remembers_rec h c : remembers h c -> forall f, mget f (rec_of h) = c f.
Proof.
  induction 1 as [|h v c c' H IH Hs|h v c' H IH Hu|h v c H IH Hf]; intros f; auto; rewrite rec_snoc; unfold look.
  - pose proof (check_shows _ _ _ (rec_nodup h) Hs) as X. destruct (calculate_checksum (rec_of h) v). now apply X.
  - destruct (check_unreadable (rec_of h) v Hu) as (o & -> & _). auto.
  - rewrite check_fail; auto.
Qed.
Lemma remembers_total h : exists c, remembers h c.
Proof.
  induction h as [|v h [c IH]] using rev_ind; [eexists; constructor|].
  destruct (shape_total v) as [H|[H|(c' & H)]]; [exists c; now apply rm_fail|exists nothing; eapply rm_forget; eauto|exists c'; eapply rm_shows; eauto].
Qed.

Lemma change_exact h c v c' : remembers h c -> shows v c' ->
  let o := snd (calculate_checksum (rec_of h) v) in
  o_err o = false /\ (o_changes o = true <-> exists f, c f <> c' f) /\ (o_changes o = false <-> same c c').
Proof.
  intros Hr Hs. pose proof (check_shows _ _ _ (rec_nodup h) Hs) as X. destruct (calculate_checksum (rec_of h) v) as [new o]. cbn.
  destruct X as (_ & _ & X1 & _ & X2). split; auto.
  assert (X3 : o_changes o = true <-> exists f, c f <> c' f).
  { rewrite X2. split; intros (f & Hf); exists f; rewrite <- (remembers_rec _ _ Hr f) in *; auto. }
  split; auto. split.
  - intros Hn f. destruct (c f) as [x|] eqn:Ex; destruct (c' f) as [y|] eqn:Ey; auto; [destruct (string_dec x y); [congruence|]|..].
    all: exfalso; assert (o_changes o = true) by (apply X3; exists f; congruence); congruence.
  - intros Hn. destruct (o_changes o) eqn:E; auto. destruct X3 as [X3 _]. destruct (X3 eq_refl) as (f & Hf). destruct Hf. apply Hn.
Qed.
Lemma change_error h v : (forall c, ~ shows v c) -> let o := snd (calculate_checksum (rec_of h) v) in o_err o = true /\ o_changes o = false.
Proof.
  intros Hn. destruct (shape_total v) as [H|[H|(c & H)]].
  - rewrite check_fail; auto.
  - destruct (check_unreadable (rec_of h) v H) as (o & -> & H1 & H2 & _). auto.
  - destruct (Hn c H).
Qed.

Lemma subseq_skips {A} (b : list A) : subseq [] b.
Proof. induction b; constructor; auto. Qed.
Lemma subseq_app_r {A} (a b l : list A) : subseq a b -> subseq a (b ++ l).
Proof. induction 1; cbn; try constructor; auto. apply subseq_skips. Qed.
Lemma subseq_snoc {A} (a b : list A) x : subseq a b -> subseq (a ++ [x]) (b ++ [x]).
Proof. induction 1; cbn; constructor; auto. constructor. Qed.
(** ** Publication *)
Section P.
Context {P : Type}.
Implicit Types (s : mstate P) (es : list (mevent P)).
Lemma run_snoc s es e : mon_run s (es ++ [e]) =
  (let (s1, t) := mon_run s es in let (s2, o) := mon_step s1 e in (s2, t ++ match o with Some p => [p] | None => [] end)).
Proof.
  revert s. induction es as [|e0 es IH]; intros s; cbn.
  - destruct (mon_step s e) as [s1 [p|]]; auto.
  - destruct (mon_step s e0) as [s1 o0]. rewrite IH. destruct (mon_run s1 es) as [s2 t]. destruct (mon_step s2 e) as [s3 o]. destruct o0; auto.
Qed.
Definition start (p0 : P) : mstate P := mkM [] [p0].
Lemma check_queue s paths compiled : m_policies (fst (check_for_update s paths compiled)) = m_policies s /\
  (m_queue (fst (check_for_update s paths compiled)) = m_queue s \/ exists p, compiled = Some p /\ m_queue (fst (check_for_update s paths compiled)) = m_queue s ++ [p] /\ length (m_queue s) < mon_capacity).
Proof.
  unfold check_for_update. destruct paths as [[|x paths]|]; cbn [fst]; auto. destruct compiled as [p|]; cbn [fst]; auto.
  destruct (Nat.ltb_spec (length (m_queue s)) mon_capacity) as [Hl|Hl]; cbn [fst m_policies m_queue]; split; auto. right. exists p. auto.
Qed.
Lemma mon_policies p0 es s t : mon_run (start p0) es = (s, t) -> m_policies s = rec_of (looks es).
Proof.
  revert s t. induction es as [|e es IH] using rev_ind; intros s t; [intros [= <- <-]; auto|]. rewrite run_snoc.
  destruct (mon_run (start p0) es) as [s1 t1] eqn:E. specialize (IH _ _ eq_refl). unfold looks. rewrite flat_map_app. fold (looks es).
  destruct e as [evs v paths compiled|]; cbn.
  - destruct (existsb has_modified_yaml evs).
    + destruct (calculate_checksum (m_policies s1) v) as [pol o] eqn:Ec. cbn [flat_map app]. rewrite rec_snoc. unfold look. rewrite <- IH, Ec.
      destruct (o_err o && o_nofiles o); [intros [= <- <-]; auto|]. destruct (o_changes o || o_err o); intros [= <- <-]; auto.
      apply (check_queue (mkM pol (m_queue s1))).
    + intros [= <- <-]. cbn. now rewrite app_nil_r.
  - rewrite app_nil_r. destruct (m_queue s1); intros [= <- <-]; auto.
Qed.
Lemma mon_capacity_ok p0 es s t : mon_run (start p0) es = (s, t) -> length (m_queue s) <= mon_capacity.
Proof.
  revert s t. induction es as [|e es IH] using rev_ind; intros s t; [intros [= <- <-]; cbn; unfold mon_capacity; lia|]. rewrite run_snoc.
  destruct (mon_run (start p0) es) as [s1 t1] eqn:E. specialize (IH _ _ eq_refl). destruct e as [evs v paths compiled|]; cbn.
  - destruct (existsb has_modified_yaml evs); [|intros [= <- <-]; auto].
    destruct (calculate_checksum (m_policies s1) v) as [pol o] eqn:Ec.
    destruct (o_err o && o_nofiles o); [intros [= <- <-]; auto|]. destruct (o_changes o || o_err o); intros [= <- <-]; auto.
    destruct (check_queue (mkM pol (m_queue s1)) paths compiled) as [_ [H|(p & _ & H & Hl)]]; rewrite H; cbn in *; auto. rewrite app_length; cbn; lia.
  - destruct (m_queue s1) eqn:Eq; intros [= <- <-]; cbn in *; rewrite ?Eq; cbn; lia.
Qed.
(** The order: what was taken and what is queued, together, is what was published. *)
Lemma mon_order p0 es s t : mon_run (start p0) es = (s, t) ->
  exists ps, t ++ m_queue s = p0 :: ps /\ subseq ps (flat_map (fun e => match e with EFiles _ _ _ (Some p) => [p] | _ => [] end) es).
Proof.
  revert s t. induction es as [|e es IH] using rev_ind; intros s t; [intros [= <- <-]; exists []; split; [auto|constructor]|]. rewrite run_snoc.
  destruct (mon_run (start p0) es) as [s1 t1] eqn:E. destruct (IH _ _ eq_refl) as (ps & H1 & H2). rewrite flat_map_app.
  assert (W : forall l, subseq ps (flat_map (fun e => match e with EFiles _ _ _ (Some p) => [p] | _ => [] end) es ++ l)).
  { intros l. apply subseq_app_r; auto. }
  destruct e as [evs v paths compiled|]; cbn.
  - destruct (existsb has_modified_yaml evs); [|intros [= <- <-]; exists ps; rewrite app_nil_r; auto].
    destruct (calculate_checksum (m_policies s1) v) as [pol o] eqn:Ec.
    destruct (o_err o && o_nofiles o); [intros [= <- <-]; exists ps; rewrite app_nil_r; auto|]. destruct (o_changes o || o_err o); intros [= <- <-]; [|exists ps; rewrite app_nil_r; auto].
    destruct (check_queue (mkM pol (m_queue s1)) paths compiled) as [_ [H|(p & -> & H & Hl)]]; rewrite H, app_nil_r; cbn.
    + exists ps; auto.
    + exists (ps ++ [p]). rewrite app_assoc, H1. split; auto. apply subseq_snoc; auto.
  - destruct (m_queue s1) eqn:Eq; intros [= <- <-]; exists ps; cbn; rewrite ?app_nil_r; auto.
    + rewrite Eq. rewrite app_nil_r in H1. rewrite app_nil_r. auto.
    + rewrite <- app_assoc. auto.
Qed.
(** When a batch publishes. *)
Lemma mon_publishes p0 es s t c evs v paths compiled :
  mon_run (start p0) es = (s, t) -> remembers (looks es) c ->
  forall s' o, mon_step s (EFiles evs v paths compiled) = (s', o) ->
  o = None /\
  (m_queue s' = m_queue s \/ exists p, m_queue s' = m_queue s ++ [p]) /\
  forall p, m_queue s' = m_queue s ++ [p] <->
    (existsb has_modified_yaml evs = true /\ v_paths v <> Some [] /\ (forall c', shows v c' -> ~ same c c') /\
     paths <> None /\ paths <> Some [] /\ compiled = Some p /\ length (m_queue s) < mon_capacity).
Proof.
  intros Hr Hc s' o. pose proof (mon_policies _ _ _ _ Hr) as Hp. unfold mon_step.
  assert (NQ : forall (q : list P) p, q <> q ++ [p]).
  { intros q p H. apply (f_equal (@length P)) in H. rewrite app_length in H. cbn in H. lia. }
  destruct (existsb has_modified_yaml evs) eqn:Ey.
  2:{ intros [= <- <-]. split; auto. split; auto. intros p. split; [intros H; destruct (NQ _ _ H)|intros (H & _); discriminate]. }
  rewrite Hp. destruct (calculate_checksum (rec_of (looks es)) v) as [pol oc] eqn:Ec.
  assert (CH : (o_err oc && o_nofiles oc = true <-> v_paths v = Some []) /\
               (o_err oc && o_nofiles oc = false -> (o_changes oc || o_err oc = true <-> forall c', shows v c' -> ~ same c c'))).
  { destruct (shape_total v) as [H|[H|(c' & H)]].
    - rewrite (check_fail _ _ H) in Ec. injection Ec as <- <-. cbn. rewrite H. split; [intuition discriminate|]. intros _. split; auto.
      intros _ c' (ps & Ep & _). congruence.
    - destruct (check_unreadable (rec_of (looks es)) v H) as (o' & Ec' & H1 & H2 & H3). rewrite Ec' in Ec. injection Ec as <- <-.
      rewrite H1, H2. cbn. split; auto. intros _. split; auto. intros _ c' (ps & Ep & Hne & Hi & _).
      destruct H as [H|(ps' & f & Ep' & Hf & Hn)]; [congruence|]. rewrite Ep in Ep'. injection Ep' as <-. apply Hi in Hf. tauto.
    - pose proof (check_shows _ _ _ (rec_nodup (looks es)) H) as X. pose proof (change_exact _ _ _ _ Hc H) as Y. rewrite Ec in X, Y. cbn in Y.
      destruct X as (_ & _ & X1 & X2 & _). destruct Y as (Y1 & Y2 & Y3). rewrite X1, X2. cbn. split.
      + split; [discriminate|]. destruct H as (ps & Ep & Hne & _). congruence.
      + intros _. rewrite orb_false_r. split.
        * intros Ht c'' Hs'' Hs. apply Y2 in Ht as (f & Hf). apply Hf. rewrite (Hs f). symmetry. apply (shows_det _ _ _ H Hs'').
        * intros Hn. destruct (o_changes oc) eqn:Eo; auto. exfalso. apply (Hn c' H). now apply Y3. }
  destruct CH as [CH1 CH2].
  destruct (o_err oc && o_nofiles oc) eqn:E1.
  { intros [= <- <-]. cbn. split; auto. split; auto. intros p. split; [intros H; destruct (NQ _ _ H)|]. intros (_ & H & _). destruct H. now apply CH1. }
  specialize (CH2 eq_refl). destruct (o_changes oc || o_err oc) eqn:E2.
  2:{ intros [= <- <-]. cbn. split; auto. split; auto. intros p. split; [intros H; destruct (NQ _ _ H)|]. intros (_ & _ & H & _). apply CH2 in H. discriminate. }
  intros [= <- <-]. split; auto.
  assert (NE : v_paths v <> Some []) by (intros H; apply CH1 in H; congruence). destruct CH2 as [CH2 _]. specialize (CH2 eq_refl).
  unfold check_for_update. cbn [m_queue m_policies].
  destruct paths as [[|x paths]|]; cbn [fst m_queue].
  - split; auto. intros p. split; [intros H; destruct (NQ _ _ H)|]. intros (_ & _ & _ & _ & H & _). congruence.
  - destruct compiled as [p|]; cbn [fst m_queue].
    + destruct (Nat.ltb_spec (length (m_queue s)) mon_capacity); cbn [m_queue].
      * split; eauto. intros p'. split.
        -- intros H0. apply app_inv_head in H0. injection H0 as <-. repeat split; auto; discriminate.
        -- intros (_ & _ & _ & _ & _ & [= <-] & _). auto.
      * split; auto. intros p'. split; [intros H0; destruct (NQ _ _ H0)|]. intros (_ & _ & _ & _ & _ & _ & Hl). lia.
    + split; auto. intros p'. split; [intros H0; destruct (NQ _ _ H0)|]. intros (_ & _ & _ & _ & _ & Hl & _). discriminate.
  - split; auto. intros p. split; [intros H; destruct (NQ _ _ H)|]. intros (_ & _ & _ & H & _). congruence.
Qed.
(** A policy set compiled while the queue was full is not offered again. *)
Lemma mon_lost p0 es s t evs v paths c : mon_run (start p0) es = (s, t) -> shows v c -> existsb has_modified_yaml evs = true ->
  length (m_queue s) = mon_capacity ->
  forall later, Forall (fun e => match e with ETake => True | EFiles _ v' _ _ => v' = v end) later ->
  forall p s' t', mon_run (fst (mon_step s (EFiles evs v paths (Some p)))) later = (s', t') -> t' ++ m_queue s' = m_queue s.
Proof.
  intros Hr Hs Hy Hfull later Hl p s' t' Hlat.
  assert (Q : forall r, mon_step s (EFiles evs v paths (Some p)) = r -> m_queue (fst r) = m_queue s /\ NoDup (keys (m_policies (fst r))) /\ forall f, mget f (m_policies (fst r)) = c f).
  { intros r <-. pose proof (mon_policies _ _ _ _ Hr) as Hp. unfold mon_step. rewrite Hy, Hp.
    pose proof (check_shows _ _ _ (rec_nodup (looks es)) Hs) as X. destruct (calculate_checksum (rec_of (looks es)) v) as [pol o].
    destruct X as (XN & X0 & X1 & X2 & _). rewrite X1, X2. cbn [andb]. destruct (o_changes o || false); cbn [fst m_queue m_policies]; auto.
    destruct (check_queue (mkM pol (m_queue s)) paths (Some p)) as [C1 [C2|(p' & _ & _ & C2)]].
    - rewrite C1, C2. auto.
    - cbn in C2. lia. }
  destruct (mon_step s (EFiles evs v paths (Some p))) as [s1 o1]. destruct (Q _ eq_refl) as (Q1 & QN & Q2). cbn [fst] in *. clear Q.
  rewrite <- Q1. clear Q1 Hr Hfull s t es. revert s1 s' t' QN Q2 Hlat.
  induction Hl as [|e later He Hl IH]; intros s1 s' t' QN Q2; cbn [mon_run]; unfold mon_step.
  - intros [= <- <-]. auto.
  - destruct e as [evs' v' paths' compiled'|].
    + subst v'. destruct (existsb has_modified_yaml evs').
      2:{ destruct (mon_run s1 later) as [s2 t2] eqn:E. intros [= <- <-]. eapply IH; eauto. }
      pose proof (check_shows _ _ _ QN Hs) as X. destruct (calculate_checksum (m_policies s1) v) as [pol o]. destruct X as (P0 & P1 & P2 & P4 & P3).
      assert (P5 : o_changes o = false).
      { destruct (o_changes o); auto. destruct P3 as [P3 _]. destruct (P3 eq_refl) as (f & Hf). destruct Hf. apply Q2. }
      rewrite P2, P5. cbn [andb orb].
      destruct (mon_run (mkM pol (m_queue s1)) later) as [s2 t2] eqn:E. intros [= <- <-]. apply (IH (mkM pol (m_queue s1))); auto.
    + destruct (m_queue s1) as [|q qs] eqn:Eq.
      * destruct (mon_run s1 later) as [s2 t2] eqn:E. intros [= <- <-]. rewrite <- Eq. eapply IH; eauto.
      * destruct (mon_run (mkM (m_policies s1) qs) later) as [s2 t2] eqn:E. intros [= <- <-]. cbn. f_equal. change qs with (m_queue (mkM (m_policies s1) qs)). eapply IH; eauto.
Qed.
End P.

(** ** Files the engine loads but the monitor does not look at *)
Lemma list_drop d1 d2 f a b ext : (nested f = true \/ has_suffix f ext = false) ->
  list_file_paths (d1 ++ (f, a) :: d2) ext = list_file_paths (d1 ++ (f, b) :: d2) ext /\ ~ In f (list_file_paths (d1 ++ (f, a) :: d2) ext).
Proof.
  intros H. assert (E : negb (nested f) && has_suffix f ext = false) by (destruct H as [->|H]; [auto|rewrite H; apply andb_false_r]).
  assert (F : forall x, list_file_paths (d1 ++ (f, x) :: d2) ext = list_file_paths (d1 ++ d2) ext).
  { intros x. unfold list_file_paths. rewrite !filter_app. cbn [filter fst]. rewrite E. reflexivity. }
  split; [now rewrite !F|]. rewrite F. unfold list_file_paths. rewrite in_map_iff. intros ([g y] & <- & Hg). apply filter_In in Hg as [_ Hg]. cbn in *. congruence.
Qed.
Lemma mget_swap (d1 d2 : dir) f a b g : g <> f -> mget g (d1 ++ (f, a) :: d2) = mget g (d1 ++ (f, b) :: d2).
Proof.
  intros H. induction d1 as [|[k v] d1 IH]; cbn.
  - destruct (seqb g f) eqn:E; auto. apply String.eqb_eq in E. congruence.
  - destruct (seqb g k); auto.
Qed.
Lemma list_in_dir d ext f : In f (list_file_paths d ext) -> mget f d <> None.
Proof.
  unfold list_file_paths. rewrite in_map_iff. intros ([g y] & <- & Hg). apply filter_In in Hg as [Hg _]. cbn.
  apply mget_keys. apply in_map_iff. exists (g, y). auto.
Qed.
Lemma dir_shows d : list_file_paths d ".yaml" <> [] -> exists c, shows (dir_view d) c /\ forall f, c f = if in_dec string_dec f (list_file_paths d ".yaml") then mget f d else None.
Proof.
  intros H. eexists. split; [|reflexivity]. exists (list_file_paths d ".yaml"). split; [reflexivity|]. split; [auto|]. cbn. split.
  - intros f Hf. destruct (in_dec _ _ _); [|tauto]. split; auto. now apply list_in_dir in Hf.
  - intros f Hf. destruct (in_dec _ _ _); [tauto|auto].
Qed.
Lemma unmonitored h d1 d2 f a b : a <> b -> (has_suffix f ".yaml" = true \/ has_suffix f ".yml" = true) ->
  (nested f = true \/ has_suffix f ".yaml" = false) ->
  list_file_paths (d1 ++ (f, a) :: d2) ".yaml" <> [] ->
  loaded (d1 ++ (f, a) :: d2) <> loaded (d1 ++ (f, b) :: d2) /\
  let o := snd (calculate_checksum (rec_of (h ++ [dir_view (d1 ++ (f, a) :: d2)])) (dir_view (d1 ++ (f, b) :: d2))) in
  o_changes o = false /\ o_err o = false.
Proof.
  intros Hab Hext Hun Hne. split.
  - unfold loaded. rewrite !filter_app. cbn [filter fst existsb].
    replace (has_suffix f ".yaml" || (has_suffix f ".yml" || false)) with true by (destruct Hext as [->| ->]; rewrite ?orb_true_r; auto).
    intros H. apply app_inv_head in H. congruence.
  - destruct (list_drop d1 d2 f a b ".yaml" Hun) as [L1 L2].
    destruct (dir_shows _ Hne) as (c & S1 & C1). assert (Hne' : list_file_paths (d1 ++ (f, b) :: d2) ".yaml" <> []) by congruence.
    destruct (dir_shows _ Hne') as (c' & S2 & C2). destruct (remembers_total h) as [c0 Hc0].
    destruct (change_exact _ _ _ _ (rm_shows _ _ _ _ Hc0 S1) S2) as (X1 & X2 & X3). split; auto. apply X3.
    intros g. rewrite C1, C2, L1. rewrite L1 in L2. destruct (in_dec _ _ _); auto. apply mget_swap. congruence.
Qed.
Lemma modified_yaml e : has_modified_yaml e = true <->
  In (e_op e) [1; 4; 2; 8]%N /\ (has_suffix (e_name e) ".yaml" = true \/ has_suffix (e_name e) ".yml" = true).
Proof.
  unfold has_modified_yaml. rewrite andb_true_iff, !orb_true_iff, !N.eqb_eq. cbn. intuition.
Qed.

(** * GrammarFacts2: declarations and policies. *)
From Verif Require Import GoBase FalcoModel GrammarModel GrammarParser GrammarFacts SpecFalco SpecGrammar.
From Coq Require Import Lia.

Lemma spelled_reserved t : spelled t ->
  reserved_text (tx t) = match tk t with
    | KDesc | KCond | KActions | KOutput | KPriority | KTags | KPrefilter | KEnabled | KWarn | KSkip | KAppend => true
    | _ => false end.
Proof.
  intros H. destruct (reserved_text (tx t)) eqn:E.
  - unfold reserved_text in E. apply existsb_exists in E as (w & Hw & E).
    apply String.eqb_eq in E.
    assert (G : forall k, word_of k = Some w -> tk t = k) by (intros k Hk; now apply (H k w)).
    cbn [In] in Hw.
    repeat (destruct Hw as [<-|Hw];
      [first [now rewrite (G KDesc eq_refl)|now rewrite (G KCond eq_refl)|now rewrite (G KActions eq_refl)
        |now rewrite (G KOutput eq_refl)|now rewrite (G KPriority eq_refl)|now rewrite (G KTags eq_refl)
        |now rewrite (G KPrefilter eq_refl)|now rewrite (G KEnabled eq_refl)|now rewrite (G KWarn eq_refl)
        |now rewrite (G KSkip eq_refl)|now rewrite (G KAppend eq_refl)]|]).
    destruct Hw.
  - assert (G : forall k w, word_of k = Some w -> reserved_text w = true -> tk t <> k).
    { intros k w Hk Hr Ht. apply (H k w Hk) in Ht. rewrite Ht in E. congruence. }
    destruct (tk t) eqn:Ek; try reflexivity; exfalso;
      (eapply G; [| |reflexivity]; [reflexivity|reflexivity]).
Qed.
Lemma reserved_kind t k w : spelled t -> word_of k = Some w -> tk t = k -> reserved_text (tx t) = reserved_text w.
Proof. intros H Hk Ht. apply (H k w Hk) in Ht. now rewrite Ht. Qed.

(** ** Texts *)
Lemma p_run_app ok a b :
  Forall (fun t => reserved_text (tx t) = false /\ ok (tk t) = true) a ->
  match b with [] => True | t :: _ => negb (reserved_text (tx t)) && ok (tk t) = false end ->
  p_run ok (a ++ b) = (a, b).
Proof.
  induction 1 as [|t a [H1 H2] Ha IH]; intros Hb.
  - cbn [app]. destruct b as [|t b]; [reflexivity|]. cbn [p_run]. now rewrite Hb.
  - cbn [app p_run]. rewrite H1, H2. cbn [negb andb]. now rewrite (IH Hb).
Qed.
Lemma p_run_sound ok ts a b : p_run ok ts = (a, b) ->
  ts = a ++ b /\ Forall (fun t => reserved_text (tx t) = false) a.
Proof.
  revert a b; induction ts as [|t ts IH]; intros a b H; cbn [p_run] in H.
  - injection H as <- <-. split; [reflexivity|constructor].
  - destruct (negb (reserved_text (tx t)) && ok (tk t)) eqn:E.
    + destruct (p_run ok ts) as [a' b'] eqn:Er. injection H as <- <-. destruct (IH _ _ eq_refl) as [-> Hf].
      split; [reflexivity|]. constructor; [|assumption]. apply andb_prop in E as [E _]. now destruct (reserved_text (tx t)).
    + injection H as <- <-. split; [reflexivity|constructor].
Qed.
Lemma p_text_sound ok ts s rest : p_text ok ts = Some (s, rest) -> exists us, g_text us s /\ ts = us ++ rest.
Proof.
  unfold p_text. destruct (p_run ok ts) as [[|t a] b] eqn:E; [discriminate|]. intros [= <- <-].
  destruct (p_run_sound _ _ _ _ E) as [-> Hf]. exists (t :: a). split; [|reflexivity].
  now constructor.
Qed.
Lemma p_text_complete ok ts s rest : g_text ts s -> Forall (fun t => ok (tk t) = true) ts ->
  match rest with [] => True | t :: _ => negb (reserved_text (tx t)) && ok (tk t) = false end ->
  p_text ok (ts ++ rest) = Some (s, rest).
Proof.
  destruct 1 as [ts Hne Hf]. intros Hok Hr. unfold p_text.
  rewrite p_run_app; [|rewrite Forall_forall in *; auto|assumption].
  destruct ts; [congruence|reflexivity].
Qed.

(** ** Suffixes *)
Lemma closed_tail a ts : outputs_closed (a ++ ts) -> outputs_closed ts.
Proof. intros H a' o b1 d b2 -> Ho Hd. apply (H (a ++ a') o b1 d b2); auto. now rewrite app_assoc. Qed.
Lemma closed_cons t ts : outputs_closed (t :: ts) -> outputs_closed ts.
Proof. apply (closed_tail [t]). Qed.

Lemma output_no_decl o d ts rest : outputs_closed (o :: d :: ts ++ rest) -> tk o = KOutput -> tk d = KDef ->
  spelled d -> Forall (fun t => reserved_text (tx t) = false) ts -> Forall (fun t => not_decl (tk t) = true) ts.
Proof.
  intros Hc Ho Hd Hs Hf. apply Forall_forall. intros t Ht. unfold not_decl.
  destruct (kind_beq (tk t) KDecl) eqn:E; [|reflexivity]. exfalso. apply kb_true in E.
  apply in_split in Ht as (b1 & b2 & ->).
  destruct (Hc [] o (d :: b1) t (b2 ++ rest)) as (u & Hu & Hr); auto.
  { cbn [app]. now rewrite <- app_assoc. }
  destruct Hu as [<-|Hu].
  - rewrite (spelled_reserved _ Hs), Hd in Hr. discriminate.
  - rewrite Forall_forall in Hf. rewrite Hf in Hr; [discriminate|]. apply in_or_app. now left.
Qed.

(** ** Options *)
Definition at_decl (k : kind) : bool := kind_beq k KDecl.
Lemma at_decl_head rest : head at_decl rest -> match rest with [] => True | t :: _ => tk t = KDecl end.
Proof. destruct rest; cbn; [auto|]. apply kb_true. Qed.
Lemma g_opt_head ts o : g_opt ts o -> exists t d ts', ts = t :: d :: ts' /\ is_opt (tk t) = true /\ tk d = KDef.
Proof. destruct 1 as [o d ts s Ho|o d ts it Ho|o d s Ho|o d ts it Ho|o d ts it Ho|o d a Ho|o d a Ho|o d a Ho];
  do 3 eexists; (split; [reflexivity|]); rewrite Ho; auto. Qed.
Lemma g_opts_head ts l : g_opts ts l -> ts = [] \/ exists t ts', ts = t :: ts' /\ is_opt (tk t) = true.
Proof.
  destruct 1 as [|ts o ts' l Ho Hl]; [now left|right]. destruct (g_opt_head _ _ Ho) as (t & d & u & -> & Ht & _).
  exists t, (d :: u ++ ts'). auto.
Qed.
Lemma opt_stops ok t : is_opt (tk t) = true -> spelled t -> negb (reserved_text (tx t)) && ok (tk t) = false.
Proof. intros H Hs. rewrite (spelled_reserved _ Hs). destruct (tk t); try discriminate H; reflexivity. Qed.

Lemma p_opt_complete ts x : g_opt ts x -> forall rest,
  Forall spelled (ts ++ rest) -> outputs_closed (ts ++ rest) ->
  head (fun k => is_opt k || at_decl k) rest ->
  match ts with o :: d :: ts' => tk d = KDef /\ p_opt (tk o) (ts' ++ rest) = Some (x, rest) | _ => False end.
Proof.
  destruct 1 as [o d ts s Ho Hd Ht|o d ts it Ho Hd Hi|o d s Ho Hd Hs|o d ts it Ho Hd Hi|o d ts it Ho Hd Hi
    |o d a Ho Hd Ha|o d a Ho Hd Ha|o d a Ho Hd Ha]; intros rest Hsp Hc Hh; (split; [assumption|]); rewrite Ho;
    cbn [p_opt].
  - rewrite (p_text_complete _ _ s); auto.
    + destruct Ht. cbn [app] in *. inversion_clear Hsp as [|? ? _ Hsp']. inversion_clear Hsp' as [|? ? Hd' _].
      eapply output_no_decl; eauto.
    + destruct rest as [|t rest]; [exact I|]. cbn [head] in Hh. apply orb_prop in Hh as [Hh|Hh].
      * apply opt_stops; [assumption|]. rewrite Forall_forall in Hsp. apply Hsp. apply in_or_app. right. now left.
      * apply kb_true in Hh. unfold not_decl. rewrite Hh. cbn. now rewrite andb_false_r.
  - now rewrite (p_items_complete _ _ Hi).
  - cbn [p_sev app]. now rewrite Hs.
  - now rewrite (p_items_complete _ _ Hi).
  - now rewrite (p_items_complete _ _ Hi).
  - cbn [p_atom app]. now rewrite Ha.
  - cbn [p_atom app]. now rewrite Ha.
  - cbn [p_atom app]. now rewrite Ha.
Qed.
Lemma p_opts_complete ts l : g_opts ts l -> forall n rest, length ts < n ->
  Forall spelled (ts ++ rest) -> outputs_closed (ts ++ rest) -> head at_decl rest ->
  p_opts n (ts ++ rest) = Some (l, rest).
Proof.
  induction 1 as [|ts o ts' l Ho Hl IH]; intros n rest Hn Hsp Hc Hh.
  - destruct n as [|n]; [lia|]. cbn [p_opts app]. destruct rest as [|t rest]; [reflexivity|].
    apply kb_true in Hh. now rewrite Hh.
  - rewrite <- app_assoc in *.
    pose proof (p_opt_complete _ _ Ho (ts' ++ rest) Hsp Hc) as Hp.
    assert (Hh' : head (fun k => is_opt k || at_decl k) (ts' ++ rest)).
    { destruct (g_opts_head _ _ Hl) as [->|(t & u & -> & Ht)].
      - cbn [app]. eapply head_weaken; [|exact Hh]. cbn. intros k ->. apply orb_true_r.
      - cbn. now rewrite Ht. }
    specialize (Hp Hh'). destruct (g_opt_head _ _ Ho) as (t & d & u & E & Ht & Hd). rewrite E in *.
    destruct Hp as [_ Hp]. destruct n as [|n]; [lia|]. cbn [app p_opts]. rewrite Ht, Hd. cbn [kind_beq].
    rewrite Hp. cbn [app length] in Hn. rewrite IH; auto.
    + lia || (cbn in Hn; rewrite app_length in Hn; lia).
    + apply Forall_app in Hsp as [_ Hsp]. exact Hsp.
    + now apply closed_tail in Hc.
Qed.
Lemma p_atom_sound ts s rest : p_atom ts = Some (s, rest) -> exists a, is_atom (tk a) = true /\ s = tx a /\ ts = a :: rest.
Proof.
  destruct ts as [|a ts]; [discriminate|]. cbn [p_atom]. destruct (is_atom (tk a)) eqn:E; [|discriminate].
  intros [= <- <-]. now exists a.
Qed.
Lemma p_sev_sound ts s rest : p_sev ts = Some (s, rest) -> exists a, tk a = KSeverity /\ s = tx a /\ ts = a :: rest.
Proof.
  destruct ts as [|a ts]; [discriminate|]. cbn [p_sev]. destruct (kind_beq (tk a) KSeverity) eqn:E; [|discriminate].
  apply kb_true in E. intros [= <- <-]. now exists a.
Qed.
Lemma omap_some {A B} (f : A -> B) x b rest : omap f x = Some (b, rest) -> exists a, x = Some (a, rest) /\ b = f a.
Proof. destruct x as [[a r]|]; [|discriminate]. cbn. intros [= <- <-]. eauto. Qed.
Lemma p_opt_sound o d ts x rest : tk d = KDef -> p_opt (tk o) ts = Some (x, rest) ->
  exists us, g_opt (o :: d :: us) x /\ ts = us ++ rest.
Proof.
  intros Hd H. destruct (tk o) eqn:Ho; try discriminate H; cbn [p_opt] in H; apply omap_some in H as (a & H & ->);
    first [ destruct (p_text_sound _ _ _ _ H) as (us & Hu & ->); exists us; split; [now constructor|reflexivity]
          | destruct (p_items_sound _ _ _ H) as (us & Hu & ->); exists us; split; [now constructor|reflexivity]
          | destruct (p_atom_sound _ _ _ H) as (t & Ht & -> & ->); exists [t]; split; [now constructor|reflexivity]
          | destruct (p_sev_sound _ _ _ H) as (t & Ht & -> & ->); exists [t]; split; [now constructor|reflexivity] ].
Qed.
Lemma p_opts_sound n : forall ts l rest, p_opts n ts = Some (l, rest) -> exists us, g_opts us l /\ ts = us ++ rest.
Proof.
  induction n as [|n IH]; intros ts l rest H; [discriminate|]. cbn [p_opts] in H.
  destruct ts as [|o ts1]; [injection H as <- <-; exists []; split; [constructor|reflexivity]|].
  destruct (is_opt (tk o)); [|injection H as <- <-; exists []; split; [constructor|reflexivity]].
  destruct ts1 as [|d ts2]; [discriminate|]. destruct (kind_beq (tk d) KDef) eqn:Hd; [|discriminate].
  apply kb_true in Hd.
  destruct (p_opt (tk o) ts2) as [[x r]|] eqn:E; [|discriminate].
  destruct (p_opts n r) as [[l' r']|] eqn:E'; [|discriminate]. injection H as <- <-.
  destruct (p_opt_sound _ _ _ _ _ Hd E) as (us & Hu & ->). destruct (IH _ _ _ E') as (us' & Hu' & ->).
  exists ((o :: d :: us) ++ us'). split; [now constructor|]. cbn [app]. now rewrite app_assoc.
Qed.

(** ** Declarations *)
Lemma expect_sound k ts r : expect k ts = Some r -> exists t, tk t = k /\ ts = t :: r.
Proof.
  destruct ts as [|t ts]; [discriminate|]. cbn [expect]. destruct (kind_beq (tk t) k) eqn:E; [|discriminate].
  apply kb_true in E. intros [= <-]. now exists t.
Qed.
Lemma expect_def_sound k ts r : expect_def k ts = Some r -> exists t d, tk t = k /\ tk d = KDef /\ ts = t :: d :: r.
Proof.
  unfold expect_def. destruct (expect k ts) as [r1|] eqn:E; [|discriminate]. intros H.
  apply expect_sound in E as (t & Ht & ->). apply expect_sound in H as (d & Hd & ->). now exists t, d.
Qed.
Lemma expect_def_complete k t d r : tk t = k -> tk d = KDef -> expect_def k (t :: d :: r) = Some r.
Proof. intros <- Hd. unfold expect_def, expect. rewrite kb_refl, Hd. reflexivity. Qed.
Lemma p_cond_complete c d ce e rest : tk c = KCond -> tk d = KDef -> g_expr ce e -> head stop_e rest ->
  p_cond (c :: d :: ce ++ rest) = Some (e, rest).
Proof.
  intros Hc Hd He Hr. unfold p_cond. rewrite expect_def_complete by assumption.
  apply (proj2 (proj2 p_expr_complete)); auto. unfold fuel_of. rewrite app_length. lia.
Qed.
Lemma p_cond_sound ts e rest : p_cond ts = Some (e, rest) ->
  exists c d ce, tk c = KCond /\ tk d = KDef /\ g_expr ce e /\ ts = c :: d :: ce ++ rest.
Proof.
  unfold p_cond. destruct (expect_def KCond ts) as [r|] eqn:E; [|discriminate]. intros H.
  apply expect_def_sound in E as (c & d & Hc & Hd & ->).
  destruct (proj2 (proj2 (p_expr_sound _)) _ _ _ H) as (us & Hu & ->). now exists c, d, us.
Qed.
Lemma p_last_none k rest : k <> KDecl -> head at_decl rest -> p_last k rest = Some (None, rest).
Proof.
  intros Hk. destruct rest as [|t rest]; [reflexivity|]. cbn [head p_last]. intros H. apply kb_true in H.
  rewrite H. destruct (kind_beq KDecl k) eqn:E; [|reflexivity]. apply kb_true in E. congruence.
Qed.
Lemma p_last_some k t d a rest : tk t = k -> tk d = KDef -> is_atom (tk a) = true ->
  p_last k (t :: d :: a :: rest) = Some (Some (tx a), rest).
Proof.
  intros <- Hd Ha. cbn [p_last]. rewrite kb_refl, expect_def_complete by auto. cbn [p_atom]. now rewrite Ha.
Qed.
Lemma p_last_sound k ts x rest : p_last k ts = Some (x, rest) ->
  (x = None /\ ts = rest) \/
  exists t d a, tk t = k /\ tk d = KDef /\ is_atom (tk a) = true /\ x = Some (tx a) /\ ts = [t; d; a] ++ rest.
Proof.
  destruct ts as [|t ts]; [intros [= <- <-]; now left|]. cbn [p_last].
  destruct (kind_beq (tk t) k).
  - destruct (expect_def k (t :: ts)) as [r|] eqn:E; [|discriminate]. intros H.
    apply omap_some in H as (s & H & ->). apply expect_def_sound in E as (t' & d & Ht & Hd & E).
    destruct (p_atom_sound _ _ _ H) as (a & Ha & -> & ->). right. exists t', d, a. repeat split; auto.
  - intros [= <- <-]. now left.
Qed.
Lemma at_decl_stop rest : head at_decl rest -> head stop_e rest.
Proof. apply head_weaken. intros k H. apply kb_true in H. now rewrite H. Qed.

Lemma p_decl_complete ts d : g_decl ts d -> forall rest,
  Forall spelled (ts ++ rest) -> outputs_closed (ts ++ rest) -> head at_decl rest ->
  p_decl (ts ++ rest) = Some (d, rest).
Proof.
  destruct 1 as [k r d1 n name d d2 n' desc c d3 ce e os opts Hk Hr H1 Hn Hd H2 Hn' Hc H3 He Ho
    |k f d1 x c d2 ce e Hk Hf H1 Hx Hc H2 He
    |k f d1 x c d2 ce e en d3 a Hk Hf H1 Hx Hc H2 He Hen H3 Ha
    |k m d1 x c d2 ce e Hk Hm H1 Hx Hc H2 He
    |k m d1 x c d2 ce e ap d3 a Hk Hm H1 Hx Hc H2 He Hap H3 Ha
    |k l d1 x i d2 ts it Hk Hl H1 Hx Hi H2 Hit
    |k q d1 a Hk Hq H1 Ha]; intros rest Hsp Hcl Hh; cbn [app p_decl].
  - rewrite Hk, H1, Hr; cbn [kind_beq negb].
    assert (R : forall t, In t [d; c] -> reserved_text (tx t) = true).
    { intros t Ht. assert (Hs : spelled t).
      { rewrite Forall_forall in Hsp. apply Hsp. cbn in Ht.
        apply in_or_app; left. do 3 right. apply in_or_app. right.
        destruct Ht as [<-|[<-|[]]]; [now left|]. do 2 right. apply in_or_app. right. now left. }
      rewrite (spelled_reserved _ Hs). cbn in Ht. destruct Ht as [<-|[<-|[]]]; [now rewrite Hd|now rewrite Hc]. }
    rewrite <- app_assoc. cbn [app].
    rewrite (p_text_complete all_kinds _ _ _ Hn); [|rewrite Forall_forall; auto|rewrite R by (left; auto); reflexivity].
    rewrite expect_def_complete by assumption. rewrite <- app_assoc. cbn [app].
    rewrite (p_text_complete all_kinds _ _ _ Hn'); [|rewrite Forall_forall; auto|rewrite R by (right; left; auto); reflexivity].
    rewrite <- app_assoc. rewrite (p_cond_complete c d3 ce e (os ++ rest)); auto.
    + rewrite (p_opts_complete _ _ Ho); auto.
      * rewrite app_length. lia.
      * rewrite Forall_forall in *. intros t Ht. apply Hsp. apply in_app_or in Ht.
        apply in_or_app. destruct Ht as [Ht|Ht]; [left|now right].
        do 3 right. apply in_or_app. right. do 2 right. apply in_or_app. right. do 2 right.
        apply in_or_app. now right.
      * apply (closed_tail (k :: r :: d1 :: n ++ d :: d2 :: n' ++ c :: d3 :: ce)).
        cbn [app] in *. repeat (rewrite <- app_assoc in *; cbn [app] in * ). assumption.
    + destruct (g_opts_head _ _ Ho) as [->|(t & u & -> & Ht)]; [now apply at_decl_stop|].
      cbn. destruct (tk t); try discriminate Ht; reflexivity.
  - rewrite Hk, H1; cbn [kind_beq negb]. rewrite Hx; cbn [kind_beq negb].
    rewrite (p_cond_complete c d2 ce e rest); auto using at_decl_stop.
    destruct Hf as [-> | ->]; cbn [kind_beq]; (rewrite p_last_none by (auto; discriminate)); reflexivity.
  - rewrite Hk, H1; cbn [kind_beq negb]. rewrite Hx; cbn [kind_beq negb]. rewrite <- app_assoc. cbn [app].
    rewrite (p_cond_complete c d2 ce e (en :: d3 :: a :: rest)); auto; [|cbn; now rewrite Hen].
    destruct Hf as [-> | ->]; cbn [kind_beq]; (rewrite p_last_some by auto); reflexivity.
  - rewrite Hk, H1; cbn [kind_beq negb]. rewrite Hx, Hm; cbn [kind_beq negb].
    rewrite (p_cond_complete c d2 ce e rest); auto using at_decl_stop.
    rewrite p_last_none by (auto; discriminate). reflexivity.
  - rewrite Hk, H1; cbn [kind_beq negb]. rewrite Hx, Hm; cbn [kind_beq negb]. rewrite <- app_assoc. cbn [app].
    rewrite (p_cond_complete c d2 ce e (ap :: d3 :: a :: rest)); auto; [|cbn; now rewrite Hap].
    rewrite p_last_some by auto. reflexivity.
  - rewrite Hk, H1; cbn [kind_beq negb]. rewrite Hx, Hl; cbn [kind_beq negb].
    rewrite expect_def_complete by auto. now rewrite (p_items_complete _ _ Hit).
  - rewrite Hk, H1, Hq; cbn [kind_beq negb p_atom]. now rewrite Ha.
Qed.

Lemma p_decl_sound ts d rest : p_decl ts = Some (d, rest) -> exists us, g_decl us d /\ ts = us ++ rest.
Proof.
  unfold p_decl. destruct ts as [|k [|t [|d1 r]]]; try discriminate.
  { destruct (negb (kind_beq (tk k) KDecl)); discriminate. }
  destruct (kind_beq (tk k) KDecl) eqn:Hk; [|discriminate]. apply kb_true in Hk.
  destruct (kind_beq (tk d1) KDef) eqn:H1; [|discriminate]. apply kb_true in H1. cbn [negb].
  destruct (tk t) eqn:Ht; try discriminate.
  - (* rule *)
    destruct (p_text all_kinds r) as [[name r1]|] eqn:E1; [|discriminate].
    destruct (expect_def KDesc r1) as [r2|] eqn:E2; [|discriminate].
    destruct (p_text all_kinds r2) as [[desc r3]|] eqn:E3; [|discriminate].
    destruct (p_cond r3) as [[e r4]|] eqn:E4; [|discriminate].
    destruct (p_opts (S (length r4)) r4) as [[os r5]|] eqn:E5; [|discriminate].
    intros [= <- <-].
    apply p_text_sound in E1 as (n & Hn & ->). apply expect_def_sound in E2 as (dd & d2 & Hd & H2 & ->).
    apply p_text_sound in E3 as (n' & Hn' & ->). apply p_cond_sound in E4 as (c & d3 & ce & Hc & H3 & He & ->).
    apply p_opts_sound in E5 as (us & Hu & ->).
    exists (k :: t :: d1 :: n ++ dd :: d2 :: n' ++ c :: d3 :: ce ++ us). split; [now constructor|].
    cbn [app]. repeat (rewrite <- app_assoc; cbn [app]). reflexivity.
  - (* filter *)
    destruct r as [|x r1]; [discriminate|]. destruct (kind_beq (tk x) KId) eqn:Hx; [|discriminate].
    apply kb_true in Hx. cbn [negb]. destruct (p_cond r1) as [[e r2]|] eqn:E; [|discriminate]. cbn [kind_beq].
    intros H. apply omap_some in H as (en & H & ->). apply p_cond_sound in E as (c & d2 & ce & Hc & H2 & He & ->).
    apply p_last_sound in H as [[-> ->]|(te & d3 & a & Hen & H3 & Ha & -> & ->)].
    + exists (k :: t :: d1 :: x :: c :: d2 :: ce). split; [constructor; auto|reflexivity].
    + exists (k :: t :: d1 :: x :: c :: d2 :: ce ++ [te; d3; a]). split; [constructor; auto|].
      cbn [app]. now rewrite <- app_assoc.
  - (* drop *)
    destruct r as [|x r1]; [discriminate|]. destruct (kind_beq (tk x) KId) eqn:Hx; [|discriminate].
    apply kb_true in Hx. cbn [negb]. destruct (p_cond r1) as [[e r2]|] eqn:E; [|discriminate]. cbn [kind_beq].
    intros H. apply omap_some in H as (en & H & ->). apply p_cond_sound in E as (c & d2 & ce & Hc & H2 & He & ->).
    apply p_last_sound in H as [[-> ->]|(te & d3 & a & Hen & H3 & Ha & -> & ->)].
    + exists (k :: t :: d1 :: x :: c :: d2 :: ce). split; [constructor; auto|reflexivity].
    + exists (k :: t :: d1 :: x :: c :: d2 :: ce ++ [te; d3; a]). split; [constructor; auto|].
      cbn [app]. now rewrite <- app_assoc.
  - (* macro *)
    destruct r as [|x r1]; [discriminate|]. destruct (kind_beq (tk x) KId) eqn:Hx; [|discriminate].
    apply kb_true in Hx. cbn [negb]. destruct (p_cond r1) as [[e r2]|] eqn:E; [|discriminate]. cbn [kind_beq].
    intros H. apply omap_some in H as (en & H & ->). apply p_cond_sound in E as (c & d2 & ce & Hc & H2 & He & ->).
    apply p_last_sound in H as [[-> ->]|(te & d3 & a & Hen & H3 & Ha & -> & ->)].
    + exists (k :: t :: d1 :: x :: c :: d2 :: ce). split; [constructor; auto|reflexivity].
    + exists (k :: t :: d1 :: x :: c :: d2 :: ce ++ [te; d3; a]). split; [constructor; auto|].
      cbn [app]. now rewrite <- app_assoc.
  - (* list *)
    destruct r as [|x r1]; [discriminate|]. destruct (kind_beq (tk x) KId) eqn:Hx; [|discriminate].
    apply kb_true in Hx. cbn [negb]. destruct (expect_def KItems r1) as [r2|] eqn:E; [|discriminate].
    intros H. apply omap_some in H as (it & H & ->). apply expect_def_sound in E as (i & d2 & Hi & H2 & ->).
    apply p_items_sound in H as (us & Hu & ->).
    exists (k :: t :: d1 :: x :: i :: d2 :: us). split; [constructor; auto|reflexivity].
  - (* required engine version *)
    intros H. apply omap_some in H as (a & H & ->). apply p_atom_sound in H as (x & Hx & -> & ->).
    exists [k; t; d1; x]. split; [constructor; auto|reflexivity].
Qed.

(** ** Policies *)
Lemma g_decl_head ts d : g_decl ts d -> exists k ts', ts = k :: ts' /\ tk k = KDecl.
Proof. destruct 1; eauto. Qed.
Lemma g_defs_head ts ds : g_defs ts ds -> head at_decl ts.
Proof.
  destruct 1 as [|ts d ts' ds Hd _]; [exact I|]. destruct (g_decl_head _ _ Hd) as (k & u & -> & Hk).
  cbn. now rewrite Hk.
Qed.
Lemma p_defs_complete ts ds : g_defs ts ds -> forall n, length ts < n ->
  Forall spelled ts -> outputs_closed ts -> p_defs n ts = Some ds.
Proof.
  induction 1 as [|ts d ts' ds Hd Hds IH]; intros n Hn Hsp Hc; (destruct n as [|n]; [lia|]); [reflexivity|].
  cbn [p_defs]. rewrite (p_decl_complete _ _ Hd) by (auto; eapply g_defs_head; eassumption).
  rewrite app_length in Hn. destruct (g_decl_head _ _ Hd) as (k & u & E & _).
  rewrite IH; [rewrite E; reflexivity| |now apply Forall_app in Hsp|now apply closed_tail in Hc].
  rewrite E in Hn. cbn in Hn. lia.
Qed.
Lemma p_defs_sound n : forall ts ds, p_defs n ts = Some ds -> g_defs ts ds.
Proof.
  induction n as [|n IH]; intros ts ds H; [discriminate|]. cbn [p_defs] in H.
  destruct ts as [|t ts]; [injection H as <-; constructor|].
  destruct (p_decl (t :: ts)) as [[d rest]|] eqn:E; [|discriminate].
  destruct (p_defs n rest) as [l|] eqn:E'; [|discriminate]. injection H as <-.
  apply p_decl_sound in E as (us & Hu & ->). constructor; [assumption|]. now apply IH.
Qed.
Lemma parse_policy_sound ts ds : parse_policy ts = Some ds -> g_policy ts ds.
Proof.
  unfold parse_policy, g_policy. destruct (p_defs (S (length ts)) ts) as [[|d l]|] eqn:E; try discriminate.
  intros [= <-]. split; [now apply p_defs_sound in E|discriminate].
Qed.
Lemma parse_policy_complete ts ds : Forall spelled ts -> outputs_closed ts -> g_policy ts ds -> parse_policy ts = Some ds.
Proof.
  intros Hs Hc [Hd Hne]. unfold parse_policy. rewrite (p_defs_complete _ _ Hd); auto.
  destruct ds; [congruence|reflexivity].
Qed.
Lemma g_policy_unique ts ds ds' : Forall spelled ts -> outputs_closed ts -> g_policy ts ds -> g_policy ts ds' -> ds = ds'.
Proof.
  intros Hs Hc H H'. apply parse_policy_complete in H, H'; auto. rewrite H in H'. now injection H'.
Qed.

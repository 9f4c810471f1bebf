(** * SigmaEditFacts: how edits of Sigma rules change what records are told. *)
From Coq Require Import Lia Permutation.
From Verif Require Import GoBase GoFacts Predicates FlatRecord FalcoModel SpecFalco SpecFlat SigmaModel SpecSigma SigmaFacts EngineModel EngineFlat SpecEngine SpecEngineFlat
  EngineFacts2 PoolModel SpecPool PoolFacts4 MonitorModel SpecMonitor SpecLexer InitModel SpecInit InitFacts LiveFacts SpecEdit EditFacts SpecSigmaEdit Props_SigmaLive.
Local Open Scope list_scope.

Lemma level_fun s p q : level_is s p -> level_is s q -> p = q.
Proof.
  unfold level_is, level_words. cbn [In]. generalize (to_lower s). intros w.
  intros [H|[N ->]] [H'|[N' ->]]; [|exfalso; eapply N'; exact H|exfalso; eapply N; exact H'|reflexivity].
  repeat match goal with H : _ \/ _ |- _ => destruct H as [H|H] end; try contradiction;
    assert (E1 : fst (w, p) = w) by reflexivity; rewrite <- H in E1; cbn [fst] in E1;
    assert (E2 : fst (w, q) = w) by reflexivity; rewrite <- H' in E2; cbn [fst] in E2; try congruence.
Qed.
Lemma readable_fun a : forall b c, readable a b -> readable a c -> b = c.
Proof. induction a as [|x a IH]; intros b c H H'; inversion H; subst; inversion H'; subst; try reflexivity; try discriminate; try congruence; f_equal; auto. Qed.
Lemma sigma_fun h conf d a b : sigma_of h conf d a -> sigma_of h conf d b -> a = b.
Proof.
  destruct a as [ma ra], b as [mb rb]. intros (p & c & H1 & H2 & H3 & H4) (p' & c' & H1' & H2' & H3' & H4'). cbn [fst snd] in *.
  assert (p = p') by congruence. assert (c = c') by exact (text_option_fun _ _ _ _ _ H2 H2'). subst.
  assert (ma = mb) by congruence. subst. rewrite (readable_fun _ _ _ H4 H4'). reflexivity.
Qed.

Section V.
Variable X : sfgo_fns.
Variable M : gomap fieldmap.
Variable pmatch : string -> string -> bool.
Definition s_told (re : srule * sexpr) : string * string * priority := (sr_id (fst re), sr_desc (fst re), level_priority (sr_level (fst re))).
Lemma s_info re mt : s_marked re mt -> info mt = s_told re.
Proof.
  intros (H1 & H2 & _ & H3 & _). unfold info, s_told. rewrite H1, H2. f_equal. exact (level_fun _ _ _ H3 (level_spec _)).
Qed.
Notation holds maps fr := (fun re : srule * sexpr => cond_holds maps pmatch (flat_satomic X M fr) (sr_searches (fst re)) (snd re)).
Definition s_said (m : mode) (l : list (string * string * priority)) : verdict := match m, l with AlertMode, [] => None | _, _ => Some l end.
Definition s_gives (ms : gomap (list string) * list srule) (m : mode) (fr : flatrec) (v : verdict) : Prop :=
  exists fired, selects (holds (fst ms) fr) (s_conditions (snd ms)) fired /\ v = s_said m (map s_told fired).
Lemma s_disposed_gives ms m r o : s_disposed X M pmatch (fst ms) (snd ms) m r o ->
  s_gives ms m (fst r) (told r o) /\ length o <= 1 /\ forall q, In q o -> fst q = fst r.
Proof.
  intros [[[] _]|(_ & fired & new & Hs & Hm & C)].
  assert (En : map info new = map s_told fired).
  { clear - Hm. induction Hm as [|x b l l' H _ IH]; [reflexivity|]. cbn [map]. rewrite IH, (s_info _ _ H). reflexivity. }
  destruct C as [(-> & -> & ->)|(Hm' & r' & -> & E1 & E2)].
  - split; [exists []; split; [exact Hs|reflexivity]|]. split; [cbn; lia|intros q []].
  - split; [|split; [cbn; lia|intros q [<-|[]]; exact E1]]. exists fired. split; [exact Hs|].
    unfold told. rewrite E2, skipn_app, skipn_all, Nat.sub_diag. cbn [skipn app]. rewrite En. unfold s_said. destruct Hm' as [-> |Hn]; [reflexivity|].
    destruct fired; [contradiction|]. cbn [map]. now destruct m.
Qed.

Lemma s_lift ord n h h' conf d ah ms ms' (E : mode -> flatrec -> verdict -> verdict -> Prop) :
  walks ord -> policies_in conf d -> language_is conf Sigma -> h_perf h = false -> h_perf h' = false -> sigma_of h conf d ms -> sigma_of h' conf d ms' ->
  (forall m fr v v', s_gives ms m fr v -> s_gives ms' m fr v' -> E m fr v v') ->
  compared X M pmatch ord n h h' conf ah E /\ compared_runs X M pmatch ord n h h' conf ah E.
Proof.
  intros W Hd Hl Hf Hf' Sg Sg' HE. split.
  - intros p p' m C C' r.
    destruct (interpreter_sigma X M pmatch ord n W h conf d ah m p Hd Hl Hf C) as (a & S1 & D1).
    destruct (interpreter_sigma X M pmatch ord n W h' conf d ah m p' Hd Hl Hf' C') as (b & S2 & D2).
    rewrite (sigma_fun _ _ _ _ _ S1 Sg) in D1. rewrite (sigma_fun _ _ _ _ _ S2 Sg') in D2.
    apply HE; [exact (proj1 (s_disposed_gives _ _ _ _ (D1 r)))|exact (proj1 (s_disposed_gives _ _ _ _ (D2 r)))].
  - intros m outCh rd rd' cs cs' s s' tr tr' Hmon Hm ND I1 I2 R1 Fn1 R2 Fn2 Et c Hc.
    destruct (C92_rules_to_output X M pmatch ord n ah W h conf d m outCh rd cs s tr Hd Hl Hmon Hm Hf ND I1 R1 Fn1) as (ma & ra & S1 & D1).
    destruct (C92_rules_to_output X M pmatch ord n ah W h' conf d m outCh rd' cs' s' tr' Hd Hl Hmon Hm Hf' ND I2 R2 Fn2) as (mb & rb & S2 & D2).
    pose proof (sigma_fun _ _ _ _ _ S1 Sg) as E1. pose proof (sigma_fun _ _ _ _ _ S2 Sg') as E2. subst ms ms'.
    destruct (D1 c Hc) as (os & G1 & P1). destruct (D2 c Hc) as (os' & G2 & P2). rewrite <- Et in G2.
    assert (Z : exists l, map (fun x => fst x) l = taken tr /\ map (fun x => fst (snd x)) l = os /\ map (fun x => snd (snd x)) l = os' /\
      forall r o o', In (r, (o, o')) l -> s_disposed X M pmatch ma ra m r o /\ s_disposed X M pmatch mb rb m r o').
    { clear - G1 G2. revert os' G2. induction G1 as [|r o rs os H _ IH]; intros os' G2; inversion G2 as [|? o' ? os2 H1 H2]; subst.
      - exists []. repeat split; intros; contradiction.
      - destruct (IH _ H2) as (l & E1 & E2 & E3 & E4). exists ((r, (o, o')) :: l). cbn [map fst snd]. rewrite E1, E2, E3. repeat split; try (destruct H0 as [E|H0]; [injection E as <- <- <-; assumption|apply (E4 _ _ _ H0)]). }
    destruct Z as (l & E1 & E2 & E3 & E4). exists l. rewrite E2, E3. split; [exact E1|]. split; [exact P1|]. split; [exact P2|].
    intros r o o' Hin. destruct (E4 _ _ _ Hin) as [X1 X2].
    destruct (s_disposed_gives (ma, ra) _ _ _ X1) as (G & L & A). destruct (s_disposed_gives (mb, rb) _ _ _ X2) as (G' & L' & A').
    split; [exact L|]. split; [exact L'|]. split; [intros q [Hq|Hq]; auto|]. exact (HE _ _ _ _ G G').
Qed.

(** ** Effects *)
Lemma s_conditions_app a b : s_conditions (a ++ b) = s_conditions a ++ s_conditions b.
Proof. unfold s_conditions. rewrite map_app, concat_app. reflexivity. Qed.
Lemma sel_same {A B} (F : A -> Prop) (g : A -> B) l s s' : selects F l s -> selects F l s' -> map g s = map g s'.
Proof. intros H. revert s'. induction H; intros s' H'; inversion H'; subst; cbn [map]; try reflexivity; try contradiction; [f_equal; auto|auto]. Qed.
Lemma sel_of_rule maps fr r es : forall s, selects (holds maps fr) (map (fun e => (r, e)) es) s ->
  exists held, selects (s_holds X M pmatch maps fr r) es held /\ s = map (fun e => (r, e)) held.
Proof.
  induction es as [|e es IH]; intros s H; cbn [map] in H; inversion H as [|? ? l' Hh Hr|? ? l' Hh Hr]; subst.
  - exists []. split; [constructor|reflexivity].
  - destruct (IH _ Hr) as (held & H1 & ->). exists (e :: held). split; [constructor; assumption|reflexivity].
  - destruct (IH _ Hr) as (held & H1 & ->). exists held. split; [apply sel_skip; assumption|reflexivity].
Qed.
Lemma sel_none {A} (F : A -> Prop) l : selects F l [] -> forall a, In a l -> ~ F a.
Proof. induction l as [|x l IH]; intros H a Ha; [destruct Ha|]. inversion H as [| |? ? ? Hn Hr]; subst. destruct Ha as [<-|Ha]; auto. Qed.
Lemma s_rule_added_gives maps A r B m fr v v' : s_gives (maps, A ++ B) m fr v -> s_gives (maps, A ++ r :: B) m fr v' -> s_rule_added X M pmatch maps r m fr v v'.
Proof.
  intros (f & Hs & ->) (f' & Hs' & ->). cbn [fst snd] in *.
  rewrite s_conditions_app in Hs, Hs'. change (s_conditions (r :: B)) with (s_conditions ([r] ++ B)) in Hs'. rewrite s_conditions_app in Hs'.
  apply sel_app in Hs as (fa & fb & -> & Ha & Hb). apply sel_app in Hs' as (fa' & fc & -> & Ha' & Hc). apply sel_app in Hc as (fr' & fb' & -> & Hr & Hb').
  unfold s_conditions in Hr. cbn [map concat] in Hr. rewrite app_nil_r in Hr. apply sel_of_rule in Hr as (held & Hh & ->).
  rewrite !map_app, (sel_same _ s_told _ _ _ Ha' Ha), (sel_same _ s_told _ _ _ Hb' Hb).
  destruct held as [|e held].
  - left. split; [exact (sel_none _ _ Hh)|]. reflexivity.
  - right. exists (e :: held), (level_priority (sr_level r)), (map s_told fa), (map s_told fb). split; [exact Hh|]. split; [discriminate|]. split; [apply level_spec|].
    assert (Er : map s_told (map (fun e => (r, e)) (e :: held)) = repeat (sr_id r, sr_desc r, level_priority (sr_level r)) (length (e :: held))).
    { rewrite map_map. generalize (e :: held). intros l. induction l as [|x l IH]; [reflexivity|]. cbn [map length repeat]. rewrite IH. reflexivity. }
    rewrite Er. split.
    + cbn [length repeat]. unfold s_said. destruct m; [reflexivity|]. destruct (map s_told fa); reflexivity.
    + unfold s_said. destruct m; [left; reflexivity|]. destruct (map s_told fa) eqn:Q1; [|left; reflexivity]. destruct (map s_told fb) eqn:Q2; [|left; reflexivity]. right. auto.
Qed.
Lemma sel_perm {A} (F : A -> Prop) l l' : Permutation l l' -> forall s s', selects F l s -> selects F l' s' -> Permutation s s'.
Proof.
  assert (U : forall l s s', selects F l s -> selects F l s' -> s = s').
  { intros k s s' H1 H2. pose proof (sel_same _ (fun x => x) _ _ _ H1 H2) as E. now rewrite !map_id in E. }
  assert (Tot : forall l l', Permutation l l' -> forall s, selects F l s -> exists s', selects F l' s').
  { assert (D : forall l s, selects F l s -> forall a, In a l -> F a \/ ~ F a).
    { induction 1; intros y Hy; [destruct Hy|destruct Hy as [<-|Hy]; auto|destruct Hy as [<-|Hy]; auto]. }
    assert (K : forall l, (forall a, In a l -> F a \/ ~ F a) -> exists s, selects F l s).
    { intros q. induction q as [|a k IH]; intros H; [exists []; constructor|]. destruct IH as (s & Hs); [intros b Hb; apply H; now right|].
      destruct (H a (or_introl eq_refl)); [exists (a :: s); now constructor|exists s; now apply sel_skip]. }
    intros k k' P s Hs. apply K. intros a Ha. apply (D k s Hs). apply (Permutation_in _ (Permutation_sym P)), Ha. }
  induction 1 as [|x l l' P IH|x y l|l l1 l2 P1 IH1 P2 IH2]; intros s s' H H'.
  - inversion H; subst; inversion H'; subst. constructor.
  - inversion H; subst; inversion H'; subst; try tauto; [constructor|]; auto.
  - inversion H as [|? ? t ? Ht|? ? t ? Ht]; subst; inversion Ht; subst; inversion H' as [|? ? t' ? Ht'|? ? t' ? Ht']; subst; inversion Ht'; subst; try tauto;
      match goal with H1 : selects F l ?a, H2 : selects F l ?b |- _ => try (rewrite (U _ _ _ H1 H2)) end; [apply perm_swap|apply Permutation_refl..].
  - destruct (Tot _ _ P1 _ H) as (u & Hu). exact (Permutation_trans (IH1 _ _ H Hu) (IH2 _ _ Hu H')).
Qed.
Lemma conditions_perm a b : Permutation a b -> Permutation (s_conditions a) (s_conditions b).
Proof.
  intros P. unfold s_conditions. induction P as [|x l l' P IH|x y l|l l1 l2 P1 IH1 P2 IH2]; cbn [map concat].
  - constructor.
  - apply Permutation_app_head, IH.
  - rewrite !app_assoc. apply Permutation_app_tail, Permutation_app_comm.
  - eapply Permutation_trans; eassumption.
Qed.
Lemma reordered_gives maps a b m fr v v' : Permutation a b -> s_gives (maps, a) m fr v -> s_gives (maps, b) m fr v' -> told_reordered m fr v v'.
Proof.
  intros P (f & Hs & ->) (f' & Hs' & ->). cbn [fst snd] in *.
  pose proof (Permutation_map s_told (sel_perm _ _ _ (conditions_perm _ _ P) _ _ Hs Hs')) as Q. unfold s_said, told_reordered.
  destruct m; [exact Q|]. destruct (map s_told f) eqn:E1.
  - apply Permutation_nil in Q. rewrite Q. exact I.
  - destruct (map s_told f') eqn:E2; [apply Permutation_sym, Permutation_nil in Q; discriminate|exact Q].
Qed.
Lemma same_sense_gives maps maps' rs rs' m fr v v' : Forall2 (s_same_sense pmatch maps maps') rs rs' ->
  s_gives (maps, rs) m fr v -> s_gives (maps', rs') m fr v' -> no_effect m fr v v'.
Proof.
  intros F (f & Hs & ->) (f' & Hs' & ->). cbn [fst snd] in *. unfold no_effect.
  assert (E : map s_told f' = map s_told f); [|rewrite E; reflexivity].
  revert f f' Hs Hs'. induction F as [|x y rs rs' (H1 & H2 & H3 & H4) _ IH]; intros f f' Hs Hs'.
  - inversion Hs; subst; inversion Hs'; subst. reflexivity.
  - change (s_conditions (x :: rs)) with (s_conditions ([x] ++ rs)) in Hs. change (s_conditions (y :: rs')) with (s_conditions ([y] ++ rs')) in Hs'.
    rewrite s_conditions_app in Hs, Hs'. apply sel_app in Hs as (fx & fb & -> & Hx & Hb). apply sel_app in Hs' as (fy & fb' & -> & Hy & Hb').
    rewrite !map_app, (IH _ _ Hb Hb'). f_equal. unfold s_conditions in Hx, Hy. cbn [map concat] in Hx, Hy. rewrite app_nil_r in Hx, Hy.
    apply sel_of_rule in Hx as (hx & Sx & ->). apply sel_of_rule in Hy as (hy & Sy & ->). rewrite !map_map. unfold s_told. cbn [fst]. rewrite H1, H2, H3.
    clear - H4 Sx Sy. revert hx hy Sx Sy. induction H4 as [|e e' es es' H _ IH]; intros hx hy Sx Sy; inversion Sx; subst; inversion Sy; subst; cbn [map]; try reflexivity.
    + f_equal. auto.
    + exfalso. match goal with N : ~ s_holds _ _ _ _ _ _ _ |- _ => apply N end. apply (H (flat_satomic X M fr)). assumption.
    + exfalso. match goal with N : ~ s_holds _ _ _ _ _ _ _ |- _ => apply N end. apply (H (flat_satomic X M fr)). assumption.
    + auto.
Qed.
End V.

(** ** Rules that say the same *)
Fixpoint sexpr_ind' (P : sexpr -> Prop) (h1 : forall n, P (SId n)) (h2 : forall l, Forall P l -> P (SAnd l)) (h3 : forall l, Forall P l -> P (SOr l))
  (h4 : forall e, P e -> P (SNot e)) (h5 : P SOneOfThem) (h6 : forall p, P (SOneOfPattern p)) (h7 : P SAllOfThem) (h8 : forall p, P (SAllOfPattern p)) (h9 : P SOther) (e : sexpr) : P e :=
  let F := fix F l : Forall P l := match l with [] => Forall_nil P | e :: l' => Forall_cons e (sexpr_ind' P h1 h2 h3 h4 h5 h6 h7 h8 h9 e) (F l') end in
  match e with
  | SId n => h1 n | SAnd l => h2 l (F l) | SOr l => h3 l (F l) | SNot e => h4 e (sexpr_ind' P h1 h2 h3 h4 h5 h6 h7 h8 h9 e)
  | SOneOfThem => h5 | SOneOfPattern p => h6 p | SAllOfThem => h7 | SAllOfPattern p => h8 p | SOther => h9
  end.
Section C.
Variable maps : gomap (list string).
Variable pmatch : string -> string -> bool.
Variable A : satomic.
Notation cond := (cond_holds maps pmatch A).
(** A search map is looked up like a list of pairs with distinct names. *)
Lemma mget_in {V} (l : gomap V) n v : NoDup (map fst l) -> (In (n, v) l <-> mget n l = Some v).
Proof.
  induction l as [|[k w] l IH]; intros ND; [split; [intros []|discriminate]|]. cbn [map fst] in ND. inversion ND as [|? ? Nn ND']; subst. cbn [mget].
  destruct (seqb n k) eqn:E.
  - apply seqb_eq in E. subst k. split; [intros [H|H]|intros H; left; congruence].
    + congruence.
    + exfalso. apply Nn. change n with (fst (n, v)). apply in_map, H.
  - rewrite <- (IH ND'). split; [intros [H|H]; [|exact H]|intros H; now right]. exfalso. assert (n = k) by congruence. subst. rewrite seqb_refl in E. discriminate.
Qed.
Lemma mget_none {V} (l : gomap V) n : mget n l = None -> ~ In n (map fst l).
Proof.
  induction l as [|[k w] l IH]; intros E H; [destruct H|]. cbn [mget] in E. destruct (seqb n k) eqn:Q; [discriminate|].
  destruct H as [H|H]; [cbn [fst] in H; subst; rewrite seqb_refl in Q; discriminate|exact (IH E H)].
Qed.
Lemma order_same s s' e : NoDup (map fst s) -> Permutation s s' -> (cond s e <-> cond s' e).
Proof.
  intros ND P. assert (ND' : NoDup (map fst s')) by (eapply Permutation_NoDup; [apply Permutation_map, P|exact ND]).
  assert (I : forall n q, In (n, q) s <-> In (n, q) s') by (intros; split; apply Permutation_in; [|apply Permutation_sym]; exact P).
  assert (G : forall n q, mget n s = Some q <-> mget n s' = Some q) by (intros; rewrite <- !mget_in by assumption; apply I).
  induction e as [n|l H|l H|e H| | | | |] using sexpr_ind'; cbn [cond_holds].
  - split; intros (q & H1 & H2); exists q; (split; [apply G, H1|exact H2]).
  - induction H as [|e l He _ IH]; cbn [fold_right]; [tauto|rewrite He, IH; tauto].
  - induction H as [|e l He _ IH]; cbn [fold_right]; [tauto|rewrite He, IH; tauto].
  - tauto.
  - split; intros (n & q & H1 & H2); exists n, q; (split; [apply I, H1|exact H2]).
  - split; intros (n & q & H1 & H2); exists n, q; (split; [apply I, H1|exact H2]).
  - split; intros H n q Hn; apply (H n q), I, Hn.
  - split; intros H n q Hn; apply (H n q), I, Hn.
  - tauto.
Qed.
Lemma unused_same a n s b e : passes_over pmatch n e -> (cond (a ++ b) e <-> cond (a ++ (n, s) :: b) e).
Proof.
  assert (G : forall x, x <> n -> mget x (a ++ (n, s) :: b) = mget x (a ++ b)).
  { intros x Hx. induction a as [|[k w] l IH]; cbn [mget app].
    - destruct (seqb x n) eqn:Q; [apply seqb_eq in Q; contradiction|reflexivity].
    - destruct (seqb x k); [reflexivity|exact IH]. }
  assert (I : forall x q, In (x, q) (a ++ (n, s) :: b) <-> (x, q) = (n, s) \/ In (x, q) (a ++ b)).
  { intros x q. rewrite !in_app_iff. cbn [In]. split; intuition. }
  induction e as [x|l H|l H|e H| |p| |p|] using sexpr_ind'; cbn [cond_holds passes_over]; intros Hp.
  - rewrite (G x Hp). tauto.
  - induction H as [|e l He _ IH]; cbn [fold_right] in *; [tauto|]. destruct Hp as [Hp1 Hp2]. rewrite (He Hp1), (IH Hp2). tauto.
  - induction H as [|e l He _ IH]; cbn [fold_right] in *; [tauto|]. destruct Hp as [Hp1 Hp2]. rewrite (He Hp1), (IH Hp2). tauto.
  - rewrite (H Hp). tauto.
  - destruct Hp.
  - split.
    + intros (x & q & H1 & H2). exists x, q. split; [apply I; now right|exact H2].
    + intros (x & q & H1 & H2 & H3). apply I in H1 as [H1|H1]; [exfalso; congruence|]. exists x, q. auto.
  - destruct Hp.
  - split; intros H x q Hx Hm.
    + apply I in Hx as [Hx|Hx]; [exfalso; congruence|]. exact (H x q Hx Hm).
    + apply (H x q); [apply I; now right|exact Hm].
  - tauto.
Qed.
Scheme spelled_mind := Minimality for spelled Sort Prop
with spelled_all_mind := Minimality for spelled_all Sort Prop.
Combined Scheme spelled_both from spelled_mind, spelled_all_mind.
Lemma spelled_same s : NoDup (map fst s) ->
  (forall e e', spelled pmatch (map fst s) e e' -> (cond s e <-> cond s e')) /\
  (forall l l', spelled_all pmatch (map fst s) l l' -> (cond s (SAnd l) <-> cond s (SAnd l')) /\ (cond s (SOr l) <-> cond s (SOr l'))).
Proof.
  intros ND.
  assert (One : forall f : string -> bool, cond s (SOr (map SId (List.filter f (map fst s)))) <-> exists n q, In (n, q) s /\ f n = true /\ search_holds maps A q).
  { intros f. cbn [cond_holds]. transitivity (exists n, In n (List.filter f (map fst s)) /\ cond s (SId n)).
    - generalize (List.filter f (map fst s)). intros l. induction l as [|n l IH]; cbn [map fold_right]; [split; [tauto|intros (? & [] & _)]|].
      rewrite IH. split.
      + intros [H|(x & H1 & H2)]; [exists n|exists x]; (split; [|assumption]); [now left|now right].
      + intros (x & [<-|H1] & H2); [now left|right; exists x; auto].
    - cbn [cond_holds]. split.
      + intros (n & H1 & q & H2 & H3). apply filter_In in H1 as [_ H1]. exists n, q. split; [apply mget_in; assumption|auto].
      + intros (n & q & H1 & H2 & H3). exists n. split; [apply filter_In; split; [change n with (fst (n, q)); apply in_map, H1|exact H2]|]. exists q. split; [apply mget_in; assumption|exact H3]. }
  assert (All : forall f : string -> bool, cond s (SAnd (map SId (List.filter f (map fst s)))) <-> forall n q, In (n, q) s -> f n = true -> search_holds maps A q).
  { intros f. cbn [cond_holds]. transitivity (forall n, In n (List.filter f (map fst s)) -> cond s (SId n)).
    - generalize (List.filter f (map fst s)). intros l. induction l as [|n l IH]; cbn [map fold_right]; [split; [intros _ n []|tauto]|].
      rewrite IH. split.
      + intros [H1 H2] x [<-|Hx]; auto.
      + intros H. split; [apply H; now left|intros x Hx; apply H; now right].
    - cbn [cond_holds]. split.
      + intros H n q H1 H2. destruct (H n) as (q' & H3 & H4); [apply filter_In; split; [change n with (fst (n, q)); apply in_map, H1|exact H2]|].
        apply mget_in in H1; [|exact ND]. assert (q' = q) by congruence. now subst.
      + intros H n Hn. apply filter_In in Hn as [H1 H2]. apply in_map_iff in H1 as ([n' q] & E & H1). cbn [fst] in E. subst n'. exists q. split; [apply mget_in; assumption|exact (H n q H1 H2)]. }
  assert (Ft : forall l : list string, List.filter (fun _ => true) l = l) by (intros l; induction l as [|x l IH]; cbn [List.filter]; [reflexivity|now rewrite IH]).
  apply spelled_both.
  - tauto.
  - intros l l' _ [H _]. exact H.
  - intros l l' _ [_ H]. exact H.
  - intros e e' _ H. cbn [cond_holds]. now rewrite H.
  - rewrite <- (Ft (map fst s)), (One (fun _ => true)). cbn [cond_holds]. split; [intros (n & q & H1 & H2)|intros (n & q & H1 & _ & H2)]; exists n, q; auto.
  - rewrite <- (Ft (map fst s)), (All (fun _ => true)). cbn [cond_holds]. split; [intros H n q H1 _|intros H n q H1]; exact (H n q H1) || exact (H n q H1 eq_refl).
  - intros p. rewrite (One (pmatch p)). reflexivity.
  - intros p. rewrite (All (pmatch p)). reflexivity.
  - split; reflexivity.
  - intros e e' l l' _ H _ [H1 H2]. cbn [cond_holds fold_right] in *. rewrite H. split; [rewrite H1|rewrite H2]; tauto.
Qed.
End C.
Section F.
Variables maps maps' : gomap (list string).
Variable pmatch : string -> string -> bool.
Variable A : satomic.
Lemma fields_same (s : gomap search) e : (forall n q em fm, In (n, q) s -> In em (se_matchers q) -> In fm em -> mget (fm_field fm) maps = mget (fm_field fm) maps') ->
  (cond_holds maps pmatch A s e <-> cond_holds maps' pmatch A s e).
Proof.
  intros Hf.
  assert (S : forall n q, In (n, q) s -> (search_holds maps A q <-> search_holds maps' A q)).
  { intros n q Hq.
    assert (F : forall em fm, In em (se_matchers q) -> In fm em -> (fm_holds maps A fm <-> fm_holds maps' A fm)).
    { intros em fm H1 H2. pose proof (Hf n q em fm Hq H1 H2) as E.
      assert (V : forall v, fm_value_holds maps A fm v <-> fm_value_holds maps' A fm v).
      { intros v. unfold fm_value_holds, value_holds, target. rewrite E. reflexivity. }
      unfold fm_holds. split; intros [K1 K2]; (split; [intros Ha v Hv; apply V, K1; assumption|intros Ha; destruct (K2 Ha) as (v & Hv & Hw); exists v; split; [exact Hv|apply V, Hw]]). }
    unfold search_holds. split; intros [K1 K2]; (split; [exact K1|intros em fm H1 H2; apply (F em fm H1 H2), (K2 em fm H1 H2)]). }
  assert (In' : forall n q, mget n s = Some q -> In (n, q) s).
  { clear. induction s as [|[k w] l IH]; intros n q E; [discriminate|]. cbn [mget] in E. destruct (seqb n k) eqn:Q; [apply seqb_eq in Q; left; congruence|right; exact (IH _ _ E)]. }
  induction e as [n|l H|l H|e H| |p| |p|] using sexpr_ind'; cbn [cond_holds].
  - split; intros (q & H1 & H2); exists q; (split; [exact H1|apply (S n q (In' _ _ H1)), H2]).
  - induction H as [|e l He _ IH]; cbn [fold_right]; [tauto|rewrite He, IH; tauto].
  - induction H as [|e l He _ IH]; cbn [fold_right]; [tauto|rewrite He, IH; tauto].
  - tauto.
  - split; intros (n & q & H1 & H2); exists n, q; (split; [exact H1|apply (S n q H1), H2]).
  - split; intros (n & q & H1 & H2 & H3); exists n, q; (split; [exact H1|split; [exact H2|apply (S n q H1), H3]]).
  - split; intros H n q H1; apply (S n q H1), (H n q H1).
  - split; intros H n q H1 H2; apply (S n q H1), (H n q H1 H2).
  - tauto.
Qed.
End F.
Lemma same_refl pm maps x : s_same_sense pm maps maps x x.
Proof. repeat split; auto. induction (sr_conds x); constructor; [reflexivity|assumption]. Qed.
Lemma replace_one pm maps A x y B : s_same_sense pm maps maps x y -> Forall2 (s_same_sense pm maps maps) (A ++ x :: B) (A ++ y :: B).
Proof.
  intros H. apply Forall2_app; [|constructor; [exact H|]].
  - induction A; constructor; [apply same_refl|assumption].
  - induction B; constructor; [apply same_refl|assumption].
Qed.

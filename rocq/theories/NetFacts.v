(** * NetFacts: invariants of a network of stages. *)
From Coq Require Import Lia Permutation Bool.
From Verif Require Import GoBase PermTac NetModel SpecNet.

Section F.
Context {M St : Type}.
Notation stage := (@stage M St).
Notation eff := (@eff M).
Notation rt := (@rt M St).
Notation state := (@state M St).
Variable net : list stage.
Variable cap : nat.
Notation fire := (fire net cap).
Notation steps := (steps net cap).

Lemma handle_app (g : stage) st a b : handle g st (a ++ b) =
  let '(s1, e1) := handle g st a in let '(s2, e2) := handle g s1 b in (s2, e1 ++ e2).
Proof.
  revert st. induction a as [|m a IH]; intros st; cbn.
  - destruct (handle g st b); reflexivity.
  - destruct (g_step g st m) as [s1 e1]. rewrite IH. destruct (handle g s1 a) as [s2 e2]. destruct (handle g s2 b) as [s3 e3]. now rewrite app_assoc.
Qed.
Lemma on_app c (a b : list eff) : on c (a ++ b) = on c a ++ on c b.
Proof. unfold on. apply flat_map_app. Qed.
Lemma concat_infl1 (es : list eff) : concat (infl1 es) = es.
Proof. destruct es; cbn; auto. now rewrite app_nil_r. Qed.
Lemma infl1_len (es : list eff) : length (infl1 es) <= 1.
Proof. destruct es; cbn; lia. Qed.
Lemma pop_spec (l : list (list eff)) k e l' : pop l k = Some (e, l') ->
  exists a es b, l = a ++ (e :: es) :: b /\ l' = a ++ infl1 es ++ b.
Proof.
  unfold pop. destruct (nth_error l k) as [[|e0 es]|] eqn:E; try discriminate. intros [= -> <-].
  exists (firstn k l), es, (skipn (S k) l). split; auto. 
  rewrite <- (firstn_skipn k l) at 1. f_equal. revert l E. induction k as [|k IH]; intros [|x l]; cbn; try discriminate.
  - now intros [= ->].
  - intros E. now rewrite IH.
Qed.
Lemma fset_same {A} (f : nat -> A) i x : fset f i x i = x.
Proof. unfold fset. now rewrite Nat.eqb_refl. Qed.
Lemma fset_other {A} (f : nat -> A) i x j : j <> i -> fset f i x j = f j.
Proof. unfold fset. intros H. apply Nat.eqb_neq in H. now rewrite H. Qed.

Definition owed (g : stage) (r : rt) : list eff :=
  if g_driver g then g_feed g
  else snd (handle g (g_init g) (r_recv r)) ++ match r_ctl r with Running => [] | _ => g_fin g (r_st r) end.
Record sinv (ch : nat -> cst) (g : stage) (r : rt) : Prop := {
  i_drv : g_driver g = true -> r_recv r = [] /\ r_ctl r <> Running /\ r_ctl r <> Ending;
  i_st : r_st r = fst (handle g (g_init g) (r_recv r));
  i_owed : Permutation (r_sent r ++ concat (r_infl r)) (owed g r);
  i_seq : sequential g -> length (r_infl r) <= 1 /\ r_sent r ++ concat (r_infl r) = owed g r;
  i_in : forall c, input g = Some c -> c_hist (ch c) = r_recv r ++ c_q (ch c);
  i_out : forall c, In c (g_outs g) -> c_hist (ch c) = on c (r_sent r);
  i_eof : forall c, input g = Some c -> r_ctl r <> Running -> c_closed (ch c) = true /\ c_q (ch c) = [];
  i_close : match r_ctl r with
            | Closing todo => exists cl, g_outs g = cl ++ todo /\ (forall c, In c cl -> c_closed (ch c) = true) /\
                                (forall c, In c todo -> c_closed (ch c) = false) /\ (cl <> [] -> r_infl r = [])
            | Exited => (forall c, In c (g_outs g) -> c_closed (ch c) = true) /\ r_infl r = []
            | _ => forall c, In c (g_outs g) -> c_closed (ch c) = false
            end;
  i_done : r_done r = (g_driver g || match r_ctl r with Closing _ | Exited => true | _ => false end);
  i_late : g_driver g = false -> g_early g = false -> match r_ctl r with Closing _ => r_infl r = [] | _ => True end;
  i_infl : forall es, In es (r_infl r) -> es <> [] /\ targets_in (g_outs g) es }.
Definition inv (s : state) : Prop := s_crash s = false /\ forall i g, nth_error net i = Some g -> sinv (s_ch s) g (s_rt s i).

Lemma frame ch ch' g r :
  (forall c, In c (g_outs g) -> c_closed (ch' c) = c_closed (ch c) /\ c_hist (ch' c) = c_hist (ch c)) ->
  (forall c, input g = Some c -> exists t, c_q (ch' c) = c_q (ch c) ++ t /\ c_hist (ch' c) = c_hist (ch c) ++ t /\
     (c_closed (ch c) = true -> c_closed (ch' c) = true /\ t = [])) ->
  sinv ch g r -> sinv ch' g r.
Proof.
  intros Ho Hi [D S O Q In_ Out Eof Cl Dn La Fl]. constructor; auto.
  - intros c Hc. destruct (Hi c Hc) as (t & -> & -> & _). rewrite (In_ c Hc). now rewrite app_assoc.
  - intros c Hc. destruct (Ho c Hc) as [_ ->]. auto.
  - intros c Hc Hr. destruct (Hi c Hc) as (t & -> & _ & Ht). destruct (Eof c Hc Hr) as [A B]. destruct (Ht A) as [A' ->]. rewrite B. auto.
  - assert (Cc : forall c, In c (g_outs g) -> c_closed (ch' c) = c_closed (ch c)) by (intros c Hc; destruct (Ho c Hc); auto).
    destruct (r_ctl r) as [| |todo|]; [intros c Hc; rewrite Cc; auto|intros c Hc; rewrite Cc; auto| |].
    + destruct Cl as (cl & E & A & B & C). exists cl. split; auto. split; [|split; auto]; intros c Hc; rewrite Cc; auto; rewrite E; apply in_or_app; auto.
    + destruct Cl as [A B]. split; auto. intros c Hc. rewrite Cc; auto.
Qed.

Hypothesis WF : well_formed net.
Lemma input_good i g : nth_error net i = Some g -> g_driver g = false -> exists c, input g = Some c.
Proof. intros H D. destruct (wf_input _ WF i g H D) as (c & E). exists c. unfold input. now rewrite D, E. Qed.
Lemma input_driver (g : stage) c : input g = Some c -> g_driver g = false.
Proof. unfold input. destruct (g_driver g); [discriminate|auto]. Qed.

Lemma inv_init r0 : inv (init net r0).
Proof.
  split; [reflexivity|]. intros i g Hg. cbn. rewrite Hg. unfold start. destruct (g_driver g) eqn:D.
  - assert (H0 : input g = None) by (unfold input; now rewrite D).
    constructor; cbn; auto; try congruence.
    + split; auto. split; discriminate.
    + unfold owed. rewrite D, concat_infl1. auto.
    + intros _. unfold owed. rewrite D, concat_infl1. split; auto. apply infl1_len.
    + exists []. split; auto. split; [intros c []|]. split; auto. congruence.
    + now rewrite D.
    + unfold infl1. pose proof (wf_feed _ WF i g Hg) as T. destruct (g_feed g); cbn; [tauto|]. intros es [<-|[]]. split; [discriminate|auto].
  - destruct (wf_input _ WF i g Hg D) as (c & E). rewrite E.
    constructor; cbn; auto; try congruence.
    + unfold owed. rewrite D. cbn. auto.
    + unfold owed. rewrite D. cbn. split; [lia|auto].
    + rewrite D. auto.
    + intros es [].
Qed.

Ltac fs := repeat first [rewrite fset_same | rewrite fset_other by congruence].
Lemma inv_step s l s' : inv s -> fire s l = Some s' -> inv s'.
Proof.
  intros [Cr I] H. unfold NetModel.fire in H. rewrite Cr in H.
  assert (OTH : forall i ch r, (forall j h, nth_error net j = Some h -> j <> i -> sinv ch h (s_rt s j)) -> (forall g, nth_error net i = Some g -> sinv ch g r) ->
     forall j h, nth_error net j = Some h -> sinv ch h (fset (s_rt s) i r j)).
  { intros i ch r A B j h Hj. destruct (Nat.eq_dec j i) as [->|N]; fs; auto. }
  destruct l as [i|i k|i|i|i]; destruct (nth_error net i) as [g|] eqn:Hg; try discriminate; pose proof (I i g Hg) as [D S O Q In_ Out Eof Cl Dn La Fl].
  - (* Recv *)
    destruct (r_ctl (s_rt s i)) eqn:Ec; try discriminate. destruct (input g) as [c|] eqn:Ei; try discriminate. clear In_ Eof; pose proof (i_in _ _ _ (I i g Hg)) as In_; pose proof (i_eof _ _ _ (I i g Hg)) as Eof.
    destruct (c_q (s_ch s c)) as [|m q] eqn:Eq; try discriminate. destruct (length _ <? _) eqn:El; try discriminate. apply Nat.ltb_lt in El.
    destruct (g_step g (r_st (s_rt s i)) m) as [st es] eqn:Es. injection H as <-.
    assert (Dg := input_driver _ _ Ei).
    assert (CL : forall c', c_closed (fset (s_ch s) c (mkC q (c_closed (s_ch s c)) (c_hist (s_ch s c))) c') = c_closed (s_ch s c')
              /\ c_hist (fset (s_ch s) c (mkC q (c_closed (s_ch s c)) (c_hist (s_ch s c))) c') = c_hist (s_ch s c')).
    { intros c'. destruct (Nat.eq_dec c' c) as [->|N]; fs; auto. }
    split; [exact Cr|]. cbn [s_ch s_rt set_rt set_ch]. apply OTH.
    + intros j h Hj N. apply frame with (ch := s_ch s); auto. intros c' Hc'. exists []. rewrite !app_nil_r.
      assert (c' <> c) by (intros ->; apply N; eapply wf_reader; eauto). fs. auto.
    + intros g' Hg'; rewrite Hg in Hg'; injection Hg' as <-. assert (HA : handle g (g_init g) (r_recv (s_rt s i) ++ [m]) = (st, snd (handle g (g_init g) (r_recv (s_rt s i))) ++ es)).
      { rewrite handle_app. rewrite S in Es. destruct (handle g (g_init g) (r_recv (s_rt s i))) as [s1 e1]. cbn in *. rewrite Es. now rewrite app_nil_r. }
      unfold owed in O, Q. rewrite Dg, Ec, app_nil_r in O. rewrite Dg, Ec, app_nil_r in Q.
      constructor; cbn [r_recv r_ctl r_st r_infl r_sent r_done]; auto; try congruence.
      * now rewrite HA.
      * unfold owed. rewrite Dg. cbn [r_recv r_ctl]. rewrite HA, app_nil_r. cbn [snd]. rewrite concat_app, concat_infl1, app_assoc. now apply Permutation_app_tail.
      * intros Sq. unfold owed. rewrite Dg. cbn [r_recv r_ctl]. rewrite HA, app_nil_r. cbn [snd]. rewrite concat_app, concat_infl1, app_assoc.
        destruct (Q Sq) as [Q1 ->]. split; auto. rewrite app_length. destruct Sq as [Sq|[W _]]; [congruence|]. pose proof (infl1_len es). lia.
      * intros c' Hc'. assert (c' = c) by congruence. subst c'. fs. cbn [c_hist c_q]. rewrite (In_ c Ei), Eq, <- app_assoc. reflexivity.
      * intros c' Hc'. destruct (CL c') as [_ ->]. auto.
      * intros c' Hc'. destruct (CL c') as [-> _]. auto.
      * intros l Hl. apply in_app_or in Hl as [Hl|Hl]; auto. pose proof (wf_step _ WF i g (r_st (s_rt s i)) m Hg) as T. rewrite Es in T. cbn in T.
        unfold infl1 in Hl. destruct es; [destruct Hl|]. destruct Hl as [<-|[]]. split; [discriminate|auto].
  - (* Eff *)
    destruct (pop (r_infl (s_rt s i)) k) as [[[oc m] infl]|] eqn:Ep; try discriminate. apply pop_spec in Ep as (a & es & b & E1 & E2).
    assert (HF : forall l, In l infl -> l <> [] /\ targets_in (g_outs g) l).
    { intros l Hl. subst infl. apply in_app_or in Hl as [Hl|Hl]; [apply Fl; rewrite E1; apply in_or_app; auto|].
      apply in_app_or in Hl as [Hl|Hl]; [|apply Fl; rewrite E1; apply in_or_app; cbn; auto].
      unfold infl1 in Hl. destruct es as [|e es]; [destruct Hl|]. destruct Hl as [<-|[]]. split; [discriminate|].
      destruct (Fl ((oc, m) :: e :: es)) as [_ T]; [rewrite E1; apply in_or_app; cbn; auto|]. intros c' m' Hc'. apply (T c' m'). right. exact Hc'. }
    assert (HP : Permutation ((r_sent (s_rt s i) ++ [(oc, m)]) ++ concat infl) (r_sent (s_rt s i) ++ concat (r_infl (s_rt s i)))).
    { rewrite E1, E2, !concat_app, concat_infl1. cbn [concat]. rewrite <- app_assoc. apply Permutation_app_head. cbn.
      rewrite (Permutation_middle (concat a)). reflexivity. }
    assert (HQ : sequential g -> length infl <= 1 /\ (r_sent (s_rt s i) ++ [(oc, m)]) ++ concat infl = r_sent (s_rt s i) ++ concat (r_infl (s_rt s i))).
    { intros Sq. destruct (Q Sq) as [Q1 _]. rewrite E1 in Q1. rewrite app_length in Q1. cbn in Q1. assert (a = [] /\ b = []) as [-> ->] by (destruct a, b; cbn in Q1; auto; lia).
      cbn in E1, E2. rewrite app_nil_r in E2. subst infl. rewrite E1. split; [apply infl1_len|]. rewrite concat_infl1. cbn. rewrite app_nil_r, <- app_assoc. reflexivity. }
    assert (NE : r_infl (s_rt s i) <> []) by (rewrite E1; destruct a; discriminate).
    assert (TOC : forall c, oc = Some c -> In c (g_outs g)).
    { intros c ->. destruct (Fl ((Some c, m) :: es)) as [_ T]; [rewrite E1; apply in_or_app; cbn; auto|]. apply (T c m). left. auto. }
    assert (NC : forall c, In c (g_outs g) -> c_closed (s_ch s c) = false).
    { intros c Hc. destruct (r_ctl (s_rt s i)) as [| |todo|]; auto.
      - destruct Cl as (cl & Eo & _ & B & C). destruct cl; [|destruct NE; apply C; discriminate]. apply B. cbn in Eo. now rewrite <- Eo.
      - destruct Cl. congruence. }
    destruct oc as [c|].
    + assert (Hc := TOC c eq_refl). rewrite (NC c Hc) in H. destruct (length (c_q _) <? cap) eqn:Eq; try discriminate. injection H as <-.
      split; [exact Cr|]. cbn [s_ch s_rt set_rt set_ch]. 
      assert (CC : forall c', c_closed (fset (s_ch s) c (mkC (c_q (s_ch s c) ++ [m]) false (c_hist (s_ch s c) ++ [m])) c') = c_closed (s_ch s c')).
      { intros c'. destruct (Nat.eq_dec c' c) as [->|N]; fs; auto. cbn. now rewrite NC. }
      apply OTH.
      * intros j h Hj N. apply frame with (ch := s_ch s); auto.
        -- intros c' Hc'. assert (c' <> c) by (intros ->; apply N; eapply wf_writer; eauto). fs. auto.
        -- intros c' Hc'. destruct (Nat.eq_dec c' c) as [->|Nc]; fs.
           ++ exists [m]. cbn. split; auto. split; auto. rewrite NC by auto. discriminate.
           ++ exists []. rewrite !app_nil_r. auto.
      * intros g' Hg'; rewrite Hg in Hg'; injection Hg' as <-. constructor; cbn [r_recv r_ctl r_st r_infl r_sent r_done]; auto.
        -- rewrite HP. exact O.
        -- intros Sq. destruct (HQ Sq) as [A B]. split; auto. rewrite B. apply Q; auto.
        -- intros c' Hc'. assert (c' <> c). { intros ->. pose proof (wf_order _ WF i i g g c Hg Hg Hc Hc'). lia. } fs. auto.
        -- intros c' Hc'. rewrite on_app, <- Out by auto. destruct (Nat.eq_dec c' c) as [->|Nc]; fs; cbn.
           ++ now rewrite Nat.eqb_refl.
           ++ destruct (Nat.eqb_spec c c'); [congruence|]. now rewrite app_nil_r.
        -- intros c' Hc' Hr. assert (c' <> c). { intros ->. pose proof (wf_order _ WF i i g g c Hg Hg Hc Hc'). lia. } fs. auto.
        -- destruct (r_ctl (s_rt s i)) as [| |todo|]; [intros c' Hc'; rewrite CC; auto|intros c' Hc'; rewrite CC; auto| |].
           ++ destruct Cl as (cl & Eo & A & B & C). exists cl. split; auto. split; [intros c' Hc'; rewrite CC; auto|]. split; [intros c' Hc'; rewrite CC; auto|]. intros Hcl. destruct NE; auto.
           ++ destruct Cl; congruence.
        -- intros D1 D2. specialize (La D1 D2). destruct (r_ctl (s_rt s i)); auto. congruence.
    + injection H as <-. split; [exact Cr|]. cbn [s_ch s_rt set_rt]. apply OTH; auto.
      intros g' Hg'; rewrite Hg in Hg'; injection Hg' as <-. constructor; cbn [r_recv r_ctl r_st r_infl r_sent r_done]; auto.
      * rewrite HP. exact O.
      * intros Sq. destruct (HQ Sq) as [A B]. split; auto. rewrite B. apply Q; auto.
      * intros c' Hc'. rewrite on_app, <- Out by auto. cbn. now rewrite app_nil_r.
      * destruct (r_ctl (s_rt s i)) as [| |todo|]; auto.
        -- destruct Cl as (cl & Eo & A & B & C). exists cl. repeat (split; auto). intros Hcl. destruct NE; auto.
        -- destruct Cl; congruence.
      * intros D1 D2. specialize (La D1 D2). destruct (r_ctl (s_rt s i)); auto. congruence.
  - (* End *)
    destruct (r_ctl (s_rt s i)) eqn:Ec; try discriminate. destruct (input g) as [c|] eqn:Ei; try discriminate. clear In_ Eof; pose proof (i_in _ _ _ (I i g Hg)) as In_; pose proof (i_eof _ _ _ (I i g Hg)) as Eof. assert (Dg := input_driver _ _ Ei).
    destruct (c_closed (s_ch s c)) eqn:Ecl; try discriminate. destruct (c_q (s_ch s c)) eqn:Eq; try discriminate.
    destruct (_ || _) eqn:Ee; try discriminate. injection H as <-. split; [exact Cr|]. cbn [s_ch s_rt set_rt]. apply OTH; auto.
    unfold owed in O, Q. rewrite Dg, Ec, app_nil_r in O. rewrite Dg, Ec, app_nil_r in Q.
    intros g' Hg'; rewrite Hg in Hg'; injection Hg' as <-. constructor; cbn [r_recv r_ctl r_st r_infl r_sent r_done]; auto; try congruence.
    + unfold owed. rewrite Dg. cbn [r_recv r_ctl r_st]. rewrite concat_app, concat_infl1, app_assoc. now apply Permutation_app_tail.
    + intros Sq. unfold owed. rewrite Dg. cbn [r_recv r_ctl r_st]. rewrite concat_app, concat_infl1, app_assoc. destruct (Q Sq) as [Q1 ->]. split; auto.
      destruct Sq as [Sq|[_ W]]; [congruence|]. rewrite W in Ee. cbn in Ee. apply Nat.eqb_eq in Ee. rewrite app_length, Ee. apply infl1_len.
    + intros c' Hc' _. assert (c' = c) by congruence. subst. auto.
    + intros l Hl. apply in_app_or in Hl as [Hl|Hl]; auto. pose proof (wf_fin _ WF i g (r_st (s_rt s i)) Hg) as T.
      unfold infl1 in Hl. destruct (g_fin g _); [destruct Hl|]. destruct Hl as [<-|[]]. split; [discriminate|auto].
  - (* Return *)
    destruct (r_ctl (s_rt s i)) eqn:Ec; try discriminate.
    destruct (_ || _) eqn:Ee; try discriminate. injection H as <-. split; [exact Cr|]. cbn [s_ch s_rt set_rt]. apply OTH; auto.
    unfold owed in O, Q. rewrite Ec in O, Q.
    intros g' Hg'; rewrite Hg in Hg'; injection Hg' as <-. constructor; cbn [r_recv r_ctl r_st r_infl r_sent r_done]; auto.
    + intros Dg. destruct (D Dg) as (_ & _ & X). congruence.
    + intros c Hc _. apply Eof; auto. congruence.
    + exists []. split; auto. split; [intros c []|]. split; auto. congruence.
    + now rewrite orb_true_r.
    + intros _ E. rewrite E in Ee. cbn in Ee. apply Nat.eqb_eq in Ee. now destruct (r_infl (s_rt s i)).
  - (* Close *)
    destruct (r_ctl (s_rt s i)) as [| |todo|] eqn:Ec; try discriminate. destruct Cl as (cl & Eo & A & B & C). destruct todo as [|c todo].
    + destruct (r_infl (s_rt s i)) eqn:Ef; try discriminate. injection H as <-. split; [exact Cr|]. cbn [s_ch s_rt set_rt]. apply OTH; auto.
      rewrite app_nil_r in Eo. unfold owed in O, Q. rewrite Ec in O, Q.
      intros g' Hg'; rewrite Hg in Hg'; injection Hg' as <-. constructor; cbn [r_recv r_ctl r_st r_infl r_sent r_done]; auto.
      * intros Dg. destruct (D Dg) as (X & _). split; auto. split; discriminate.
      * intros c Hc _. apply Eof; auto. congruence.
      * split; auto. intros c Hc. apply A. now rewrite <- Eo.
    + destruct (r_infl (s_rt s i)) eqn:Ef; try discriminate. rewrite (B c) in H by (cbn; auto). injection H as <-.
      assert (Hc : In c (g_outs g)) by (rewrite Eo; apply in_or_app; cbn; auto).
      split; [exact Cr|]. cbn [s_ch s_rt set_rt set_ch]. apply OTH.
      * intros j h Hj N. apply frame with (ch := s_ch s); auto.
        -- intros c' Hc'. assert (c' <> c) by (intros ->; apply N; eapply wf_writer; eauto). fs. auto.
        -- intros c' Hc'. exists []. rewrite !app_nil_r. destruct (Nat.eq_dec c' c) as [->|Nc]; fs; auto.
      * unfold owed in O, Q. rewrite Ec in O, Q. assert (ND := wf_nodup _ WF i g Hg). rewrite Eo in ND.
        intros g' Hg'; rewrite Hg in Hg'; injection Hg' as <-. constructor; cbn [r_recv r_ctl r_st r_infl r_sent r_done]; auto.
        -- intros Dg. destruct (D Dg) as (X & _). split; auto. split; discriminate.
        -- intros c' Hc'. destruct (Nat.eq_dec c' c) as [->|Nc]; fs; cbn [c_hist c_q c_closed]; auto.
        -- intros c' Hc'. destruct (Nat.eq_dec c' c) as [->|Nc]; fs; cbn [c_hist c_q c_closed]; auto.
        -- intros c' Hc' _. destruct (Eof c' Hc'); [congruence|]. destruct (Nat.eq_dec c' c) as [->|Nc]; fs; cbn [c_hist c_q c_closed]; auto.
        -- exists (cl ++ [c]). split; [rewrite <- app_assoc; exact Eo|]. split; [|split; auto].
           ++ intros c' Hc'. apply in_app_or in Hc' as [Hc'|[<-|[]]]; fs; auto. destruct (Nat.eq_dec c' c) as [->|Nc]; fs; cbn [c_hist c_q c_closed]; auto.
           ++ intros c' Hc'. apply NoDup_remove_2 in ND. assert (c' <> c) by (intros ->; apply ND; apply in_or_app; auto). fs. apply B. cbn. auto.
Qed.
Lemma inv_steps s ls s' : inv s -> steps s ls s' -> inv s'.
Proof. intros I H. induction H; auto. apply IHsteps. eapply inv_step; eauto. Qed.
Lemma reach_inv r0 ls s : steps (init net r0) ls s -> inv s.
Proof. apply inv_steps, inv_init. Qed.
End F.

(** * NetFacts2: termination, progress, completeness at Wait; what fails without the hypotheses. *)
From Coq Require Import Lia Permutation Bool Wf_nat.
From Verif Require Import GoBase NetModel SpecNet NetFacts.

(** ** Lexicographic order on lists of equal length *)
Fixpoint lexlt (a b : list nat) : Prop :=
  match a, b with
  | x :: a', y :: b' => (x < y /\ length a' = length b') \/ (x = y /\ lexlt a' b')
  | _, _ => False
  end.
Lemma lexlt_len a : forall b, lexlt a b -> length a = length b.
Proof. induction a as [|x a IH]; intros [|y b]; cbn; try tauto. intros [[_ H]|[_ H]]; f_equal; auto. Qed.
Lemma lex_wf : well_founded lexlt.
Proof.
  assert (H : forall n b, length b = n -> Acc lexlt b).
  { induction n as [|n IH]; intros [|y b]; cbn; try discriminate.
    - intros _. constructor. intros [|]; cbn; tauto.
    - intros [= L]. revert b L. induction y as [y IHy] using (well_founded_induction lt_wf). intros b L. 
      assert (A := IH b L). revert L. induction A as [b _ IHb]. intros L.
      constructor. intros [|x a]; cbn; [tauto|]. intros [[Hx Hl]|[-> Hl]].
      + apply IHy; auto. congruence.
      + apply IHb; auto. apply lexlt_len in Hl. congruence. }
  intros b. eapply H; eauto.
Qed.
Lemma lex_app_tail a : forall b t u, lexlt a b -> length t = length u -> lexlt (a ++ t) (b ++ u).
Proof.
  induction a as [|x a IH]; intros [|y b] t u; cbn; try tauto. intros [[H L]|[-> H]] E.
  - left. split; auto. rewrite !app_length. congruence.
  - right. auto.
Qed.
Lemma lex_app_head p : forall a b, lexlt a b -> lexlt (p ++ a) (p ++ b).
Proof. induction p; cbn; auto. Qed.
Lemma lex_vec (f g : nat -> list nat) n i : i < n -> (forall j, length (f j) = length (g j)) -> (forall j, j < i -> f j = g j) -> lexlt (f i) (g i) ->
  lexlt (flat_map f (seq 0 n)) (flat_map g (seq 0 n)).
Proof.
  intros Hi L E H. assert (n = i + S (n - i - 1)) as -> by lia. rewrite seq_app, !flat_map_app. cbn [seq flat_map].
  assert (flat_map f (seq 0 i) = flat_map g (seq 0 i)) as ->.
  { assert (X : forall l, (forall j, In j l -> j < i) -> flat_map f l = flat_map g l).
    { induction l as [|x l IH]; cbn; auto. intros Hl. rewrite E, IH; auto. }
    apply X. intros j Hj. apply in_seq in Hj. lia. }
  apply lex_app_head. cbn [plus]. apply lex_app_tail; auto.
  generalize (seq (S i) (n - i - 1)). induction l; cbn; auto. rewrite !app_length. auto.
Qed.

Section F.
Context {M St : Type}.
Notation stage := (@stage M St).
Notation eff := (@eff M).
Notation rt := (@rt M St).
Notation state := (@state M St).
Variable net : list stage.
Variable cap : nat.
Notation fire := (fire net cap).
Notation steps := (steps net cap).

Definition rank (r : rt) (g : stage) : nat :=
  match r_ctl r with Running => 3 + length (g_outs g) | Ending => 2 + length (g_outs g) | Closing t => 1 + length t | Exited => 0 end.
Definition triple (s : state) (i : nat) : list nat :=
  match nth_error net i with
  | Some g => [rank (s_rt s i) g; match input g with Some c => length (c_q (s_ch s c)) | None => 0 end; length (concat (r_infl (s_rt s i)))]
  | None => [0; 0; 0]
  end.
Definition vec (s : state) : list nat := flat_map (triple s) (seq 0 (length net)).
Lemma triple_len s i : length (triple s i) = 3.
Proof. unfold triple. destruct (nth_error net i); auto. Qed.

Hypothesis WF : well_formed net.
Ltac fs := repeat first [rewrite fset_same | rewrite fset_other by congruence].
Definition idx (l : label) : nat := match l with LRecv i | LEff i _ | LEnd i | LReturn i | LClose i => i end.
Lemma step_dec s l s' : inv net s -> fire s l = Some s' -> lexlt (vec s') (vec s).
Proof.
  intros [Cr I] H.
  assert (IX : exists g, nth_error net (idx l) = Some g).
  { unfold NetModel.fire in H. rewrite Cr in H. destruct l; cbn; destruct (nth_error net i); eauto; discriminate. }
  destruct IX as [g Hg]. apply lex_vec with (i := idx l).
  - apply nth_error_Some. congruence.
  - intros j. now rewrite !triple_len.
  - intros j Hj. unfold triple. destruct (nth_error net j) as [h|] eqn:Hh; auto.
    assert (X : s_rt s' j = s_rt s j /\ forall c, input h = Some c -> c_q (s_ch s' c) = c_q (s_ch s c)).
    { unfold NetModel.fire in H. rewrite Cr in H. destruct l as [i|i k|i|i|i]; cbn [idx] in *; rewrite Hg in H.
      - destruct (r_ctl (s_rt s i)); try discriminate. destruct (input g) as [c|] eqn:Ei; try discriminate. destruct (c_q (s_ch s c)) as [|m q]; try discriminate.
        destruct (_ <? _); try discriminate. destruct (g_step _ _ _). injection H as <-. cbn [s_rt s_ch set_rt set_ch]. rewrite fset_other by lia. split; auto.
        intros c' Hc'. assert (c' <> c). { intros ->. assert (i = j) by (eapply wf_reader; eauto). lia. } fs. auto.
      - destruct (pop _ _) as [[[oc m] infl]|] eqn:Ep; try discriminate. apply pop_spec in Ep as (a & es & b & E1 & E2). destruct oc as [c|].
        + destruct (i_infl _ _ _ (I i g Hg) ((Some c, m) :: es)) as [_ T]; [rewrite E1; apply in_or_app; cbn; auto|]. assert (Hc : In c (g_outs g)) by (apply (T c m); left; auto).
          destruct (c_closed _).
          * injection H as <-. cbn. auto.
          * destruct (_ <? _); try discriminate. injection H as <-. cbn [s_rt s_ch set_rt set_ch]. rewrite fset_other by lia. split; auto.
            intros c' Hc'. assert (c' <> c). { intros ->. assert (i < j) by (eapply wf_order; eauto). lia. } fs. auto.
        + injection H as <-. cbn [s_rt s_ch set_rt set_ch]. rewrite fset_other by lia. auto.
      - destruct (r_ctl (s_rt s i)); try discriminate. destruct (input g); try discriminate. destruct (c_closed _); try discriminate. destruct (c_q _); try discriminate.
        destruct (_ || _); try discriminate. injection H as <-. cbn [s_rt s_ch set_rt set_ch]. rewrite fset_other by lia. auto.
      - destruct (r_ctl (s_rt s i)); try discriminate.
        destruct (_ || _); try discriminate. injection H as <-. cbn [s_rt s_ch set_rt set_ch]. rewrite fset_other by lia. auto.
      - destruct (r_ctl (s_rt s i)) as [| |[|c t]|]; try discriminate; destruct (r_infl _); try discriminate.
        + injection H as <-. cbn [s_rt s_ch set_rt set_ch]. rewrite fset_other by lia. auto.
        + destruct (c_closed _); injection H as <-; cbn [s_rt s_ch set_rt set_ch crashed]; [auto|]. rewrite fset_other by lia. split; auto.
          intros c' _. destruct (Nat.eq_dec c' c) as [->|N]; fs; auto. }
    destruct X as [-> X]. destruct (input h) as [c|]; auto. now rewrite X.
  - unfold triple. rewrite Hg. destruct (inv_step _ _ WF s l s' (conj Cr I) H) as [Cr' _]. 
    unfold NetModel.fire in H. rewrite Cr in H. destruct l as [i|i k|i|i|i]; cbn [idx] in *; rewrite Hg in H.
    + destruct (r_ctl (s_rt s i)) eqn:Ec; try discriminate. destruct (input g) as [c|] eqn:Ei; try discriminate. destruct (c_q (s_ch s c)) as [|m q] eqn:Eq; try discriminate.
      destruct (_ <? _); try discriminate. destruct (g_step _ _ _). injection H as <-. cbn [s_rt s_ch set_rt set_ch]. fs. unfold rank. cbn [r_ctl c_q]. rewrite Ec. try rewrite Eq. cbn. right. split; auto. 
    + destruct (pop _ _) as [[[oc m] infl]|] eqn:Ep; try discriminate. apply pop_spec in Ep as (a & es & b & E1 & E2).
      assert (LT : length (concat infl) < length (concat (r_infl (s_rt s i)))).
      { rewrite E1, E2, !concat_app, concat_infl1. cbn. rewrite !app_length. cbn. rewrite app_length. lia. }
      destruct oc as [c|].
      * destruct (i_infl _ _ _ (I i g Hg) ((Some c, m) :: es)) as [_ T]; [rewrite E1; apply in_or_app; cbn; auto|]. assert (Hc : In c (g_outs g)) by (apply (T c m); left; auto).
        destruct (c_closed _); [injection H as <-; discriminate|]. destruct (_ <? _); try discriminate. injection H as <-. cbn [s_rt s_ch set_rt set_ch]. fs. unfold rank. cbn [r_ctl r_infl lexlt].
        right. split; auto. right. split; [|left; auto]. destruct (input g) as [c'|] eqn:Ei; auto. assert (c' <> c). { intros ->. assert (i < i) by (eapply wf_order; eauto). lia. } fs. auto.
      * injection H as <-. cbn [s_rt s_ch set_rt set_ch]. fs. unfold rank. cbn [r_ctl r_infl lexlt]. auto 8.
    + destruct (r_ctl (s_rt s i)) eqn:Ec; try discriminate. destruct (input g); try discriminate. destruct (c_closed _); try discriminate. destruct (c_q _); try discriminate.
      destruct (_ || _); try discriminate. injection H as <-. cbn [s_rt s_ch set_rt set_ch]. fs. unfold rank. rewrite Ec. cbn. auto.
    + destruct (r_ctl (s_rt s i)) eqn:Ec; try discriminate.
      destruct (_ || _); try discriminate. injection H as <-. cbn [s_rt s_ch set_rt set_ch]. fs. unfold rank. rewrite Ec. cbn. auto.
    + destruct (r_ctl (s_rt s i)) as [| |[|c t]|] eqn:Ec; try discriminate; destruct (r_infl _); try discriminate.
      * injection H as <-. cbn [s_rt s_ch set_rt set_ch]. fs. unfold rank. rewrite Ec. cbn. auto.
      * destruct (c_closed _); injection H as <-; [discriminate|]. cbn [s_rt s_ch set_rt set_ch]. fs. unfold rank. rewrite Ec. cbn. auto.
Qed.
(** No infinite execution. *)
Lemma terminates r0 ls s : steps (init net r0) ls s -> Acc (fun s2 s1 => exists l, fire s1 l = Some s2) s.
Proof.
  intros H. apply (reach_inv _ _ WF) in H. revert H.
  assert (A := lex_wf (vec s)). remember (vec s) as v eqn:Ev. revert s Ev.
  induction A as [v _ IH]. intros s -> I. constructor. intros s' [l Hl].
  eapply IH; [eapply step_dec; eauto|reflexivity|eapply inv_step; eauto].
Qed.

Definition all_exited (s : state) : Prop := forall i g, nth_error net i = Some g -> r_ctl (s_rt s i) = Exited.
Hypothesis CAP : 0 < cap.
(** A stage that is not exited, when nothing can move, waits for a full channel or an empty open one. *)
Lemma blocked s i g : inv net s -> (forall l, fire s l = None) -> nth_error net i = Some g -> r_ctl (s_rt s i) <> Exited ->
  (exists c, In c (g_outs g) /\ c_closed (s_ch s c) = false /\ c_q (s_ch s c) <> []) \/
  (exists c, input g = Some c /\ c_q (s_ch s c) = [] /\ c_closed (s_ch s c) = false).
Proof.
  intros [Cr I] N Hg Hx. pose proof (I i g Hg) as [D S O Q In_ Out Eof Cl Dn La Fl].
  destruct (r_infl (s_rt s i)) as [|es infl] eqn:Ef.
  - right. destruct (r_ctl (s_rt s i)) as [| |todo|] eqn:Ec.
    + assert (Dg : g_driver g = false) by (destruct (g_driver g); auto; destruct D as (_ & X & _); congruence).
      destruct (input_good _ WF _ _ Hg Dg) as (c & Ei). exists c. split; auto.
      destruct (c_q (s_ch s c)) as [|m q] eqn:Eq.
      * split; auto. destruct (c_closed (s_ch s c)) eqn:Ecl; auto. specialize (N (LEnd i)). unfold NetModel.fire in N. rewrite Cr, Hg, Ec, Ei, Ecl, Eq, Ef in N. cbn in N. rewrite orb_true_r in N. discriminate.
      * specialize (N (LRecv i)). unfold NetModel.fire in N. rewrite Cr, Hg, Ec, Ei, Eq, Ef in N. cbn in N. assert (W := wf_width _ WF i g Hg Dg). destruct (g_width g); [lia|]. cbn in N. destruct (g_step _ _ _). discriminate.
    + specialize (N (LReturn i)). unfold NetModel.fire in N. rewrite Cr, Hg, Ec, Ef in N. cbn in N. rewrite orb_true_r in N. discriminate.
    + specialize (N (LClose i)). unfold NetModel.fire in N. rewrite Cr, Hg, Ec, Ef in N. destruct todo; [discriminate|]. destruct (c_closed _); discriminate.
    + congruence.
  - left. destruct (Fl es) as [Ne T]; [cbn; auto|]. destruct es as [|[oc m] es]; [congruence|].
    specialize (N (LEff i 0)). unfold NetModel.fire in N. rewrite Cr, Hg, Ef in N. cbn in N. destruct oc as [c|]; [|discriminate].
    exists c. split; [apply (T c m); cbn; auto|]. destruct (c_closed (s_ch s c)); [discriminate|]. split; auto. intros E. rewrite E in N. cbn in N. destruct cap; [lia|]. discriminate.
Qed.
Lemma progress s : inv net s -> (forall l, fire s l = None) -> all_exited s.
Proof.
  intros I N.
  assert (EX : forall j h, nth_error net j = Some h -> r_ctl (s_rt s j) = Exited \/ r_ctl (s_rt s j) <> Exited).
  { intros j h _. destruct (r_ctl (s_rt s j)); auto; right; discriminate. }
  assert (NF : forall d i g, length net - i <= d -> nth_error net i = Some g -> 
      ~ (exists c, In c (g_outs g) /\ c_closed (s_ch s c) = false /\ c_q (s_ch s c) <> [])).
  { induction d as [|d IH]; intros i g Hd Hg (c & Hc & Ho & Hq).
    - assert (i < length net) by (apply nth_error_Some; congruence). lia.
    - destruct (wf_read _ WF i g c Hg Hc) as (j & h & Hh & Hin). assert (i < j) by (eapply wf_order; eauto).
      assert (j < length net) by (apply nth_error_Some; congruence).
      destruct (EX j h Hh) as [E|E].
      + destruct (i_eof _ _ _ (proj2 I j h Hh) c Hin); congruence.
      + destruct (blocked s j h I N Hh E) as [B|(c' & Hin' & Hq' & _)]; [apply (IH j h); auto; lia|congruence]. }
  assert (NE : forall d i g, i < d -> nth_error net i = Some g -> r_ctl (s_rt s i) = Exited).
  { induction d as [|d IH]; intros i g Hd Hg; [lia|]. destruct (EX i g Hg) as [E|E]; auto. exfalso.
    destruct (blocked s i g I N Hg E) as [B|(c & Hin & Hq & Ho)]; [eapply NF; eauto|].
    destruct (wf_written _ WF i g c Hg Hin) as (j & h & Hh & Hc). assert (j < i) by (eapply wf_order; eauto).
    assert (Ej : r_ctl (s_rt s j) = Exited) by (eapply IH; eauto; lia). pose proof (i_close _ _ _ (proj2 I j h Hh)) as C. rewrite Ej in C. destruct C as [C _].
    rewrite C in Ho; auto. discriminate. }
  intros i g Hg. eapply NE; eauto.
Qed.

Lemma owed_all g (r : rt) : r_ctl r <> Running -> r_st r = fst (handle g (g_init g) (r_recv r)) -> owed g r = all_effects g (r_recv r).
Proof.
  intros H E. unfold owed, all_effects. destruct (g_driver g); auto. destruct (handle g (g_init g) (r_recv r)) as [st es]. cbn in *. subst.
  destruct (r_ctl r); auto. congruence.
Qed.
Lemma complete_of s i g : inv net s -> nth_error net i = Some g -> r_ctl (s_rt s i) <> Running -> r_infl (s_rt s i) = [] -> complete net s i g.
Proof.
  intros [Cr I] Hg Hr Hf. pose proof (I i g Hg) as [D S O Q In_ Out Eof Cl Dn La Fl]. rewrite Hf in O, Q. cbn in O, Q. rewrite app_nil_r in O, Q.
  rewrite owed_all in O, Q by auto. split; [|split; [auto|split; [auto|intros Sq; apply Q; auto]]].
  intros c Hc. destruct (Eof c Hc Hr) as [A B]. rewrite (In_ c Hc), B, app_nil_r. auto.
Qed.
Lemma faithful s : inv net s -> channels_faithful net s.
Proof. intros [_ I] i g c Hg Hc. apply (i_out _ _ _ (I i g Hg) c Hc). Qed.

Lemma safe r0 ls s : steps (init net r0) ls s -> s_crash s = false.
Proof. intros H. apply (reach_inv _ _ WF) in H. apply H. Qed.
Lemma final r0 ls s : steps (init net r0) ls s -> (forall l, fire s l = None) ->
  all_exited s /\ wait_returns net s /\ channels_faithful net s /\ forall i g, nth_error net i = Some g -> complete net s i g.
Proof.
  intros H N. apply (reach_inv _ _ WF) in H. assert (A := progress s H N). split; auto.
  split; [|split; [apply faithful; auto|]].
  - intros i g Hg D. pose proof (i_done _ _ _ (proj2 H i g Hg)) as E. rewrite (A i g Hg) in E. now rewrite orb_true_r in E.
  - intros i g Hg. apply complete_of; auto; rewrite (A i g Hg) || idtac; [discriminate|].
    pose proof (i_close _ _ _ (proj2 H i g Hg)) as E. rewrite (A i g Hg) in E. apply E.
Qed.
Lemma at_wait r0 ls s : steps (init net r0) ls s -> wait_returns net s -> channels_faithful net s /\
  forall i g, nth_error net i = Some g ->
    (forall c, input g = Some c -> c_closed (s_ch s c) = true /\ c_q (s_ch s c) = [] /\ r_recv (s_rt s i) = c_hist (s_ch s c)) /\
    (g_early g = false /\ g_driver g = false \/ g_outs g <> [] -> complete net s i g).
Proof.
  intros H W. apply (reach_inv _ _ WF) in H. split; [apply faithful; auto|]. intros i g Hg.
  assert (NR : forall j h, nth_error net j = Some h -> g_driver h = false -> match r_ctl (s_rt s j) with Closing _ | Exited => True | _ => False end).
  { intros j h Hh D. pose proof (i_done _ _ _ (proj2 H j h Hh)) as E. rewrite (W j h Hh D), D in E. cbn in E. destruct (r_ctl (s_rt s j)); auto; discriminate. }
  pose proof (proj2 H i g Hg) as [D S O Q In_ Out Eof Cl Dn La Fl].
  assert (NRi : r_ctl (s_rt s i) <> Running).
  { destruct (g_driver g) eqn:Dg; [apply D; auto|]. specialize (NR i g Hg Dg). intros E. now rewrite E in NR. }
  split.
  - intros c Hc. destruct (Eof c Hc NRi) as [A B]. rewrite (In_ c Hc), B, app_nil_r. auto.
  - intros HH. apply complete_of; auto. destruct HH as [[E Dg]|Ho].
    + specialize (La Dg E). specialize (NR i g Hg Dg). destruct (r_ctl (s_rt s i)); try tauto.
    + destruct (g_outs g) as [|c cs] eqn:Eo; [congruence|]. assert (Hc : In c (g_outs g)) by (rewrite Eo; cbn; auto).
      destruct (wf_read _ WF i g c Hg Hc) as (j & h & Hh & Hin).
      assert (Cc : c_closed (s_ch s c) = true).
      { destruct (i_eof _ _ _ (proj2 H j h Hh) c Hin) as [A _]; auto. specialize (NR j h Hh (input_driver _ _ Hin)). intros E. now rewrite E in NR. }
      assert (Hc' : In c (c :: cs)) by (cbn; auto).
      destruct (r_ctl (s_rt s i)) as [| |todo|].
      * congruence.
      * specialize (Cl c Hc'). congruence.
      * destruct Cl as (cl & E & A & B & C). destruct cl as [|x cl]; [|apply C; discriminate]. cbn in E. rewrite <- E in B. specialize (B c Hc'). congruence.
      * apply Cl.
Qed.
(** Wait does not wait for Cleanup. *)
Lemma step_exits s l s' : inv net s -> fire s l = Some s' -> wait_returns net s' -> ~ wait_returns net s -> exists i g, nth_error net i = Some g /\ g_driver g = false /\ r_ctl (s_rt s' i) <> Exited.
Proof.
  intros [Cr I] H W' W. destruct l as [i|i k|i|i|i]; unfold NetModel.fire in H; rewrite Cr in H; destruct (nth_error net i) as [g|] eqn:Hg; try discriminate.
  4:{ destruct (r_ctl (s_rt s i)) eqn:Ec; try discriminate. destruct (_ || _); try discriminate. injection H as <-. exists i, g.
      split; auto. split. { destruct (g_driver g) eqn:Dg; auto. destruct (i_drv _ _ _ (I i g Hg) Dg) as (_ & _ & X). congruence. }
      cbn [s_rt set_rt]. fs. discriminate. }
  all: exfalso; apply W; intros j h Hh D; specialize (W' j h Hh D).
  all: assert (SAME : forall (s0 : state) (r : rt), r_done r = r_done (s_rt s0 i) -> True -> r_done (fset (s_rt s0) i r j) = r_done (s_rt s0 j)) by
      (intros s0 r Er _; destruct (Nat.eq_dec j i) as [->|Nj]; fs; auto).
  - destruct (r_ctl (s_rt s i)); try discriminate. destruct (input g) as [c|]; try discriminate. destruct (c_q (s_ch s c)); try discriminate.
    destruct (_ <? _); try discriminate. destruct (g_step _ _ _). injection H as <-. cbn [s_rt set_rt set_ch] in W'. rewrite SAME in W'; auto.
  - destruct (pop _ _) as [[[oc m] infl]|]; try discriminate. destruct oc as [c|]; [destruct (c_closed _); [|destruct (_ <? _); try discriminate]|]; injection H as <-; cbn [s_rt set_rt set_ch crashed] in W'; auto; rewrite SAME in W'; auto.
  - destruct (r_ctl (s_rt s i)); try discriminate. destruct (input g); try discriminate. destruct (c_closed _); try discriminate. destruct (c_q _); try discriminate.
    destruct (_ || _); try discriminate. injection H as <-. cbn [s_rt set_rt set_ch] in W'. rewrite SAME in W'; auto.
  - destruct (r_ctl (s_rt s i)) as [| |[|c t]|]; try discriminate; destruct (r_infl _); try discriminate.
    + injection H as <-. cbn [s_rt set_rt set_ch] in W'. rewrite SAME in W'; auto.
    + destruct (c_closed _); injection H as <-; cbn [s_rt set_rt set_ch crashed] in W'; auto. rewrite SAME in W'; auto.
Qed.
Lemma wait_dec s : wait_returns net s \/ ~ wait_returns net s.
Proof.
  assert (X : forall n, (forall i g, i < n -> nth_error net i = Some g -> g_driver g = false -> r_done (s_rt s i) = true) \/ ~ (forall i g, i < n -> nth_error net i = Some g -> g_driver g = false -> r_done (s_rt s i) = true)).
  { induction n as [|n IH]; [left; intros; lia|]. destruct IH as [IH|IH]; [|right; intros H; apply IH; intros i g Hi; apply H; lia].
    destruct (nth_error net n) as [g|] eqn:Hg; [destruct (g_driver g) eqn:Dg|].
    - left. intros i h Hi Hh D. assert (i < n \/ i = n) as [?| ->] by lia; eauto. congruence.
    - destruct (r_done (s_rt s n)) eqn:E.
      + left. intros i h Hi Hh D. assert (i < n \/ i = n) as [?| ->] by lia; eauto.
      + right. intros H. rewrite (H n g) in E; auto. discriminate.
    - left. intros i h Hi Hh D. assert (i < n \/ i = n) as [?| ->] by lia; eauto. congruence. }
  destruct (X (length net)) as [H|H].
  - left. intros i g Hg. apply H; auto. apply nth_error_Some. congruence.
  - right. intros W. apply H. intros i g _. apply W.
Qed.
Lemma steps_app s a s1 b s2 : steps s a s1 -> steps s1 b s2 -> steps s (a ++ b) s2.
Proof. induction 1; cbn; auto. intros. econstructor; eauto. Qed.
Lemma can_finish s : inv net s -> exists ls s', steps s ls s' /\ (forall l, fire s' l = None).
Proof.
  intros I. assert (A := lex_wf (vec s)). remember (vec s) as v eqn:Ev. revert s Ev I. induction A as [v _ IH]. intros s -> I.
  assert (D : (exists l s1, fire s l = Some s1) \/ forall l, fire s l = None).
  { set (f := fun l : label => match fire s l with Some _ => true | None => false end).
    assert (X : forall n, (exists i, i < n /\ (f (LRecv i) || f (LEnd i) || f (LReturn i) || f (LClose i) || existsb (fun k => f (LEff i k)) (seq 0 (length (r_infl (s_rt s i))))) = true)
        \/ forall i, i < n -> (f (LRecv i) || f (LEnd i) || f (LReturn i) || f (LClose i) || existsb (fun k => f (LEff i k)) (seq 0 (length (r_infl (s_rt s i))))) = false).
    { induction n as [|n [(i & Hi & E)|H]]; [right; intros; lia|left; exists i; split; auto|].
      destruct (f (LRecv n) || f (LEnd n) || f (LReturn n) || f (LClose n) || existsb (fun k => f (LEff n k)) (seq 0 (length (r_infl (s_rt s n))))) eqn:E.
      - left. exists n. split; auto.
      - right. intros i Hi. assert (i < n \/ i = n) as [?| ->] by lia; auto. }
    assert (F : forall l, f l = true -> exists l s1, fire s l = Some s1).
    { intros l. unfold f. destruct (fire s l) eqn:E; [eauto|discriminate]. }
    destruct (X (length net)) as [(i & Hi & E)|H].
    - left. repeat (apply orb_true_iff in E as [E|E]; eauto). apply existsb_exists in E as (k & _ & E). eauto.
    - right. intros l. destruct (fire s l) as [s1|] eqn:E; auto. exfalso.
      assert (FL : f l = true) by (unfold f; now rewrite E).
      assert (Hi : idx l < length net).
      { unfold NetModel.fire in E. destruct (s_crash s); [discriminate|]. apply nth_error_Some. destruct l; cbn; destruct (nth_error net i); discriminate. }
      specialize (H (idx l) Hi). repeat (apply orb_false_iff in H as [H ?]). destruct l as [i|i k|i|i|i]; cbn [idx] in *; try congruence.
      assert (Hk : k < length (r_infl (s_rt s i))).
      { unfold NetModel.fire in E. destruct (s_crash s); [discriminate|]. destruct (nth_error net i); [|discriminate]. unfold pop in E. apply nth_error_Some. destruct (nth_error (r_infl (s_rt s i)) k); discriminate. }
      assert (existsb (fun k => f (LEff i k)) (seq 0 (length (r_infl (s_rt s i)))) = true).
      { apply existsb_exists. exists k. split; auto. apply in_seq. lia. }
      congruence. }
  destruct D as [(l & s1 & E)|N].
  - destruct (IH (vec s1) (step_dec _ _ _ I E) s1 eq_refl (inv_step _ _ WF _ _ _ I E)) as (ls & s' & Hs & N). exists (l :: ls), s'. split; auto. econstructor; eauto.
  - exists [], s. split; auto. constructor.
Qed.
Lemma wait_before_cleanup r0 : (exists i g, nth_error net i = Some g /\ g_driver g = false) ->
  exists ls s, steps (init net r0) ls s /\ wait_returns net s /\ exists i g, nth_error net i = Some g /\ g_driver g = false /\ r_ctl (s_rt s i) <> Exited.
Proof.
  intros (i0 & g0 & Hg0 & D0). destruct (can_finish (init net r0) (inv_init _ WF r0)) as (ls & s & Hs & N).
  assert (W : wait_returns net s) by (eapply final; eauto).
  assert (W0 : ~ wait_returns net (init net r0)).
  { intros W0. specialize (W0 i0 g0 Hg0 D0). cbn in W0. rewrite Hg0 in W0. unfold start in W0. rewrite D0 in W0. destruct (g_ins g0) as [|c [|]]; discriminate. }
  revert W0. assert (I0 := inv_init net WF r0). 
  assert (X : forall s0 ls s, steps s0 ls s -> inv net s0 -> wait_returns net s -> ~ wait_returns net s0 -> 
     exists ls' s', steps s0 ls' s' /\ wait_returns net s' /\ exists i g, nth_error net i = Some g /\ g_driver g = false /\ r_ctl (s_rt s' i) <> Exited).
  { clear -WF CAP. intros s0 ls s H. induction H as [s|s l s1 ls s2 Hf Hs IH]; intros I W W0; [tauto|]. destruct (wait_dec s1) as [W1|W1].
    - exists [l], s1. split; [econstructor; eauto; constructor|]. split; auto. eapply step_exits; eauto.
    - destruct (IH (inv_step _ _ WF _ _ _ I Hf) W W1) as (ls' & s' & A & B & C). exists (l :: ls'), s'. split; auto. econstructor; eauto. }
  intros W0. eapply X; eauto.
Qed.
End F.

(** ** What fails without the hypotheses *)
Section R.
Context {M St : Type}.
Notation stage := (@stage M St).
Notation state := (@state M St).
Variable net : list stage.
Variable cap : nat.
Ltac fs := repeat first [rewrite fset_same | rewrite fset_other by congruence].

(** A stage with no or several input channels never calls Done: Wait never returns. *)
Lemma hangs r0 ls s i g : nth_error net i = Some g -> g_driver g = false -> (forall c, g_ins g <> [c]) ->
  steps net cap (init net r0) ls s -> ~ wait_returns net s.
Proof.
  intros Hg D Hi H W. specialize (W i g Hg D).
  assert (X : forall s0 ls s, steps net cap s0 ls s -> r_done (s_rt s0 i) = false /\ r_ctl (s_rt s0 i) <> Running /\ r_ctl (s_rt s0 i) <> Ending -> r_done (s_rt s i) = false).
  { clear -Hg. intros s0 ls s H. induction H as [s|s l s1 ls s2 Hf Hs IH]; intros (A & B & C); auto. apply IH. clear IH Hs.
    unfold fire in Hf. destruct (s_crash s); try discriminate. destruct l as [j|j k|j|j|j]; destruct (nth_error net j) as [h|] eqn:Hh; try discriminate.
    - destruct (r_ctl (s_rt s j)) eqn:Ec; try discriminate. destruct (input h) as [c|]; try discriminate. destruct (c_q (s_ch s c)); try discriminate.
      destruct (_ <? _); try discriminate. destruct (g_step _ _ _). injection Hf as <-. cbn [s_rt set_rt set_ch]. destruct (Nat.eq_dec i j) as [->|N]; fs; auto; congruence.
    - destruct (pop _ _) as [[[oc m] infl]|]; try discriminate. destruct oc as [c|]; [destruct (c_closed _); [|destruct (_ <? _); try discriminate]|]; injection Hf as <-; cbn [s_rt set_rt set_ch crashed]; auto; destruct (Nat.eq_dec i j) as [->|N]; fs; auto.
    - destruct (r_ctl (s_rt s j)) eqn:Ec; try discriminate. destruct (input h); try discriminate. destruct (c_closed _); try discriminate. destruct (c_q _); try discriminate.
      destruct (_ || _); try discriminate. injection Hf as <-. cbn [s_rt set_rt set_ch]. destruct (Nat.eq_dec i j) as [->|N]; fs; auto; congruence.
    - destruct (r_ctl (s_rt s j)) eqn:Ec; try discriminate. destruct (_ || _); try discriminate. injection Hf as <-. cbn [s_rt set_rt set_ch]. destruct (Nat.eq_dec i j) as [->|N]; fs; auto; congruence.
    - destruct (r_ctl (s_rt s j)) as [| |[|c t]|] eqn:Ec; try discriminate; destruct (r_infl _); try discriminate.
      + injection Hf as <-. cbn [s_rt set_rt set_ch]. destruct (Nat.eq_dec i j) as [->|N]; fs; cbn; auto. repeat split; auto; discriminate.
      + destruct (c_closed _); injection Hf as <-; cbn [s_rt set_rt set_ch crashed]; auto. destruct (Nat.eq_dec i j) as [->|N]; fs; cbn; auto. repeat split; auto; discriminate. }
  rewrite (X _ _ _ H) in W; [discriminate|]. cbn. rewrite Hg. unfold start. rewrite D. destruct (g_ins g) as [|c [|c' l]] eqn:E; cbn; repeat split; auto; try discriminate; destruct (Hi c); auto.
Qed.
(** Two stages with a common output channel never both finish: the second close crashes. *)
Definition closed_by (c : nat) (g : stage) (s : state) (i : nat) : Prop :=
  In c (g_outs g) /\ match r_ctl (s_rt s i) with Closing t => ~ In c t | Exited => True | _ => False end.
Lemma double_close r0 ls s i j g h c : nth_error net i = Some g -> nth_error net j = Some h -> i <> j -> In c (g_outs g) -> In c (g_outs h) ->
  steps net cap (init net r0) ls s -> s_crash s = false -> r_ctl (s_rt s i) = Exited -> r_ctl (s_rt s j) = Exited -> False.
Proof.
  intros Hg Hh Nij Hc Hc' H.
  set (K := fun s : state => s_crash s = false -> 
     (forall k f, nth_error net k = Some f -> closed_by c f s k -> c_closed (s_ch s c) = true) /\ ~ (closed_by c g s i /\ closed_by c h s j)).
  assert (X : forall s0 ls s, steps net cap s0 ls s -> K s0 -> K s).
  { clear -Hg Hh Nij. intros s0 ls s H. induction H as [s|s l s1 ls s2 Hf Hs IH]; auto. intros A. apply IH. clear IH Hs. intros Cr1.
    unfold fire in Hf. destruct (s_crash s) eqn:Cr; try discriminate. destruct (A Cr) as [A1 A2]. clear A.
    assert (KEEP : forall s1 : state, (forall k f, nth_error net k = Some f -> closed_by c f s1 k -> closed_by c f s k) -> (c_closed (s_ch s c) = true -> c_closed (s_ch s1 c) = true) ->
       (forall k f, nth_error net k = Some f -> closed_by c f s1 k -> c_closed (s_ch s1 c) = true) /\ ~ (closed_by c g s1 i /\ closed_by c h s1 j)).
    { intros s' B C. split; [intros k f Hk Hf'; apply C; eapply A1; eauto|]. intros [B1 B2]. apply A2. split; apply B; auto. }
    destruct l as [n|n k|n|n|n]; destruct (nth_error net n) as [f|] eqn:Hn; try discriminate.
    - destruct (r_ctl (s_rt s n)) eqn:Ec; try discriminate. destruct (input f) as [ci|]; try discriminate. destruct (c_q (s_ch s ci)); try discriminate.
      destruct (_ <? _); try discriminate. destruct (g_step _ _ _). injection Hf as <-. apply KEEP.
      + intros k f' Hk. unfold closed_by. cbn [s_rt set_rt set_ch]. destruct (Nat.eq_dec k n) as [->|N]; fs; cbn; tauto.
      + cbn [s_ch set_rt set_ch]. destruct (Nat.eq_dec c ci) as [->|N]; fs; auto.
    - destruct (pop _ _) as [[[oc m] infl]|]; try discriminate.
      assert (RT : forall s' : state, s_rt s' = fset (s_rt s) n (mkR (r_st (s_rt s n)) infl (r_ctl (s_rt s n)) (r_done (s_rt s n)) (r_recv (s_rt s n)) (r_sent (s_rt s n) ++ [(oc, m)])) ->
         forall k f, nth_error net k = Some f -> closed_by c f s' k -> closed_by c f s k).
      { intros s' E k' f' Hk'. unfold closed_by. rewrite E. destruct (Nat.eq_dec k' n) as [->|N]; fs; auto. }
      destruct oc as [co|]; [destruct (c_closed _) eqn:Eco; [|destruct (_ <? _); try discriminate]|]; injection Hf as <-; [discriminate| |]; (apply KEEP; [apply RT; reflexivity|]).
      + cbn [s_ch set_rt set_ch]. destruct (Nat.eq_dec c co) as [->|N]; fs; auto; congruence.
      + auto.
    - destruct (r_ctl (s_rt s n)) eqn:Ec; try discriminate. destruct (input f); try discriminate. destruct (c_closed _); try discriminate. destruct (c_q _); try discriminate.
      destruct (_ || _); try discriminate. injection Hf as <-. apply KEEP; auto.
      intros k f' Hk. unfold closed_by. cbn [s_rt set_rt set_ch]. destruct (Nat.eq_dec k n) as [->|N]; fs; cbn; tauto.
    - destruct (r_ctl (s_rt s n)) eqn:Ec; try discriminate. destruct (_ || _); try discriminate. injection Hf as <-. apply KEEP; auto.
      intros k f' Hk. unfold closed_by. cbn [s_rt set_rt set_ch]. destruct (Nat.eq_dec k n) as [->|N]; fs; cbn; try tauto. intros [B1 B2]. assert (f' = f) by congruence. subst. tauto.
    - destruct (r_ctl (s_rt s n)) as [| |[|c0 t]|] eqn:Ec; try discriminate; destruct (r_infl _); try discriminate.
      + injection Hf as <-. apply KEEP; auto. intros k f' Hk. unfold closed_by. cbn [s_rt set_rt set_ch]. destruct (Nat.eq_dec k n) as [->|N]; fs; cbn; auto. rewrite Ec. cbn. tauto.
      + destruct (c_closed (s_ch s c0)) eqn:Eco; injection Hf as <-; [discriminate|]. destruct (Nat.eq_dec c0 c) as [->|N0].
        * (* c itself is closed now: nobody had closed it *)
          split; [intros; cbn [s_ch set_rt set_ch]; fs; reflexivity|]. 
          assert (NC : forall k f', nth_error net k = Some f' -> ~ closed_by c f' s k) by (intros k f' Hk B; rewrite (A1 k f' Hk B) in Eco; discriminate).
          intros [B1 B2]. unfold closed_by in B1, B2. cbn [s_rt set_rt set_ch] in B1, B2.
          destruct (Nat.eq_dec i n) as [->|Ni].
          -- rewrite fset_other in B2 by congruence. apply (NC j h Hh B2).
          -- rewrite fset_other in B1 by congruence. apply (NC i g Hg B1).
        * apply KEEP.
          -- intros k f' Hk. unfold closed_by. cbn [s_rt set_rt set_ch]. destruct (Nat.eq_dec k n) as [->|N]; fs; auto. rewrite Ec. cbn. intros [B1 B2]. split; auto. intros [?|?]; auto.
          -- cbn [s_ch set_rt set_ch]. fs. auto. }
  assert (K0 : K (init net r0)).
  { intros _. assert (NC : forall k f, nth_error net k = Some f -> ~ closed_by c f (init net r0) k).
    { intros k f Hk. unfold closed_by. cbn. rewrite Hk. unfold start. destruct (g_driver f); cbn; [tauto|]. destruct (g_ins f) as [|x [|]]; cbn; tauto. }
    split; [intros k f Hk B; destruct (NC k f Hk B)|]. intros [B _]. apply (NC i g Hg B). }
  intros Cr E1 E2. destruct (X _ _ _ H K0 Cr) as [_ B]. apply B. unfold closed_by. rewrite E1, E2. auto.
Qed.
End R.

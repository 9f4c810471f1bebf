(** * KafkaFacts: lemmas on the Kafka target with its producer. *)
From Verif Require Import GoBase ExportModel KafkaModel.
From Coq Require Import Permutation Lia.
Import ListNotations.
Local Open Scope nat_scope.
Local Open Scope list_scope.

Lemma tried_app : forall a b, k_tried (a ++ b) = k_tried a ++ k_tried b.
Proof. intros a b; apply flat_map_app. Qed.
Lemma taken_app : forall a b, k_taken (a ++ b) = k_taken a ++ k_taken b.
Proof. intros a b; apply flat_map_app. Qed.

Definition pend (q : list (string * kstatus)) : list string :=
  flat_map (fun x => match snd x with KPending => [fst x] | _ => [] end) q.
Lemma pend_app : forall a b, pend (a ++ b) = pend a ++ pend b.
Proof. intros a b; apply flat_map_app. Qed.

Section Inv.
Variable c : kclient.

Lemma kinv_queue : forall tr s, kruns c tr s ->
  length (ks_queue s) <= k_q c /\ length (ks_queue s) <= length (k_taken tr).
Proof.
  intros tr s R; induction R as [|tr s l s' R [IH1 IH2] H]; [split; apply Nat.le_0_l|].
  rewrite taken_app, app_length.
  inversion H as [m Ho Hq|m Ho Hq|a m b Ho Hq|a m b Ho Hq|a m st b Ho Hq Hp Hr|early Ho He]; subst; cbn [ks_queue k_taken flat_map length app];
    try (apply (f_equal (@length _)) in Hq); rewrite ?app_length in *; cbn [length] in *; lia.
Qed.

Lemma kinv_fwd : k_fwd c = true -> forall tr s, kruns c tr s ->
  length (ks_queue s) + ks_reports s = length (k_taken tr) /\ ks_reports s <= k_e c.
Proof.
  intros F tr s R; induction R as [|tr s l s' R [IH1 IH2] H]; [split; [reflexivity|apply Nat.le_0_l]|].
  rewrite taken_app, app_length.
  inversion H as [m Ho Hq|m Ho Hq|a m b Ho Hq|a m b Ho Hq|a m st b Ho Hq Hp Hr|early Ho He]; subst; cbn [ks_queue ks_reports k_taken flat_map length app];
    try rewrite F; try (apply (f_equal (@length _)) in Hq); rewrite ?app_length in *; cbn [length] in *; try lia.
  specialize (Hr F). lia.
Qed.

Lemma kinv_bound : k_fwd c = true -> forall tr s, kruns c tr s -> length (k_taken tr) <= k_q c + k_e c.
Proof.
  intros F tr s R. destruct (kinv_queue _ _ R), (kinv_fwd F _ _ R). lia.
Qed.

Lemma kinv_arrived : forall tr s, kruns c tr s ->
  exists lost, Permutation (k_taken tr) (ks_arrived s ++ pend (ks_queue s) ++ lost).
Proof.
  intros tr s R; induction R as [|tr s l s' R [lost IH] H]; [exists []; apply Permutation_refl|].
  rewrite taken_app.
  inversion H as [m Ho Hq|m Ho Hq|a m b Ho Hq|a m b Ho Hq|a m st b Ho Hq Hp Hr|early Ho He]; subst; cbn [ks_queue ks_arrived k_taken flat_map app];
    rewrite ?app_nil_r.
  - exists lost. rewrite pend_app. cbn [pend flat_map snd fst app].
    rewrite IH. rewrite <- !app_assoc. apply Permutation_app_head, Permutation_app_head.
    symmetry. apply Permutation_cons_append.
  - exists lost. exact IH.
  - exists lost. rewrite IH, Hq. rewrite !pend_app. cbn [pend flat_map snd fst app].
    rewrite <- !app_assoc. apply Permutation_app_head. cbn [app].
    symmetry. apply Permutation_middle.
  - exists (m :: lost). rewrite IH, Hq. rewrite !pend_app. cbn [pend flat_map snd fst app].
    rewrite <- !app_assoc. apply Permutation_app_head, Permutation_app_head. cbn [app].
    apply Permutation_middle.
  - exists lost. rewrite IH, Hq. rewrite !pend_app. cbn [pend flat_map snd fst app].
    destruct st; [contradiction| |]; apply Permutation_refl.
  - exists lost. exact IH.
Qed.

Lemma kinv_small : forall tr s, kruns c tr s -> length (k_tried tr) <= k_q c -> k_taken tr = k_tried tr.
Proof.
  intros tr s R; induction R as [|tr s l s' R IH H]; intros L; [reflexivity|].
  rewrite tried_app, app_length in L. rewrite taken_app, tried_app.
  rewrite IH by lia. f_equal.
  destruct (kinv_queue _ _ R) as [_ Hl]. rewrite IH in Hl by lia.
  inversion H as [m Ho Hq|m Ho Hq|a m b Ho Hq|a m b Ho Hq|a m st b Ho Hq Hp Hr|early Ho He]; subst; try reflexivity.
  cbn [k_tried flat_map length app] in L. lia.
Qed.

(** What Produce took is a subsequence of what was tried, with the outcomes given by the trace. *)
Fixpoint outcomes (tr : list klabel) : list bool :=
  match tr with [] => [] | KTry _ ok :: t => ok :: outcomes t | _ :: t => outcomes t end.
Lemma taken_select : forall tr, k_taken tr = map fst (filter (fun x => snd x) (combine (k_tried tr) (outcomes tr))).
Proof.
  induction tr as [|l tr IH]; [reflexivity|]. destruct l as [m [|]| |e]; cbn [k_taken k_tried flat_map outcomes app combine filter snd map fst].
  - f_equal. exact IH.
  - exact IH.
  - exact IH.
  - exact IH.
Qed.
Lemma outcomes_len : forall tr, length (outcomes tr) = length (k_tried tr).
Proof. induction tr as [|[m ok| |e] tr IH]; cbn [k_tried flat_map outcomes app length]; [reflexivity|f_equal; exact IH|exact IH|exact IH]. Qed.

Lemma select_export : forall ds bs, length bs = length (k_texts ds) ->
  exists ok, forall f i, (forall j, i <= j -> f j = ok (j - i)) ->
    kafka_export f i ds = map fst (filter (fun x => snd x) (combine (k_texts ds) bs)).
Proof.
  induction ds as [|d ds IH]; intros bs L.
  - exists (fun _ => true). intros; reflexivity.
  - destruct d as [s|a b e].
    + destruct bs as [|b bs]; [discriminate L|].
      destruct (IH bs) as [ok H]; [cbn [k_texts flat_map app length] in L; injection L as L; exact L|].
      exists (fun n => match n with 0 => b | S n => ok n end).
      intros f i Hf. cbn [kafka_export k_texts flat_map app combine filter snd].
      rewrite (Hf i (le_n i)), Nat.sub_diag.
      assert (Hn : kafka_export f (S i) ds = map fst (filter (fun x => snd x) (combine (k_texts ds) bs))).
      { apply H. intros j Hj. rewrite Hf by lia. replace (j - i) with (S (j - S i)) by lia. reflexivity. }
      destruct b; [cbn [map fst]; f_equal; exact Hn|exact Hn].
    + destruct (IH bs) as [ok H]; [exact L|].
      exists (fun n => match n with 0 => true | S n => ok n end).
      intros f i Hf. cbn [kafka_export]. apply H. intros j Hj. rewrite Hf by lia.
      replace (j - i) with (S (j - S i)) by lia. reflexivity.
Qed.
Lemma taken_export : forall tr ds, k_tried tr = k_texts ds -> exists ok, k_taken tr = kafka_export ok 0 ds.
Proof.
  intros tr ds E. destruct (select_export ds (outcomes tr)) as [ok H].
  - rewrite outcomes_len, E. reflexivity.
  - exists ok. rewrite taken_select, E. symmetry. apply H. intros j _. rewrite Nat.sub_0_r. reflexivity.
Qed.

(** Steps of the client alone. *)
Definition taus (n : nat) : list klabel := repeat KTau n.
Lemma taken_taus : forall n, k_taken (taus n) = [].
Proof. induction n; [reflexivity|exact IHn]. Qed.
Lemma tried_taus : forall n, k_tried (taus n) = [].
Proof. induction n; [reflexivity|exact IHn]. Qed.
Lemma taus_snoc : forall n, taus n ++ [KTau] = taus (S n).
Proof. intros n. symmetry. apply repeat_cons. Qed.

(** With room for the reports the client can empty its queue, everything pending arriving. *)
Lemma k_drain : forall q tr s, kruns c tr s -> ks_closed s = false -> ks_queue s = q ->
  (k_fwd c = true -> ks_reports s + length q <= k_e c) ->
  exists n s', kruns c (tr ++ taus n) s' /\ ks_closed s' = false /\ ks_queue s' = [] /\ ks_arrived s' = ks_arrived s ++ pend q.
Proof.
  induction q as [|[m st] q IH]; intros tr s R Ho Hq Hr.
  - exists 0, s. rewrite !app_nil_r. split; [exact R|]. split; [exact Ho|]. split; [exact Hq|reflexivity].
  - assert (P : exists n s1, kruns c (tr ++ taus n) s1 /\ ks_closed s1 = false /\ ks_queue s1 = q /\
        ks_arrived s1 = ks_arrived s ++ pend [(m, st)] /\ (k_fwd c = true -> ks_reports s1 = S (ks_reports s))).
    { cbn [length] in Hr. destruct st.
      - pose proof (kt_arrive c s [] m q Ho Hq) as S1. cbn [app] in S1.
        pose proof (kr_snoc c _ _ _ _ R S1) as R1.
        pose proof (kt_report c (mkKS ((m, KArrived) :: q) (ks_reports s) (ks_arrived s ++ [m]) false) [] m KArrived q eq_refl eq_refl) as S2.
        assert (S2' := S2 ltac:(discriminate) ltac:(cbn [ks_reports]; intro F; specialize (Hr F); lia)).
        pose proof (kr_snoc c _ _ _ _ R1 S2') as R2. rewrite <- app_assoc in R2.
        eexists 2, _. split; [exact R2|]. split; [reflexivity|]. split; [reflexivity|]. split; [reflexivity|].
        intros F. cbn [ks_reports]. rewrite F. reflexivity.
      - assert (S2 : kstep c s KTau (mkKS ([] ++ q) (if k_fwd c then S (ks_reports s) else ks_reports s) (ks_arrived s) false)).
        { apply (kt_report c s [] m KArrived q Ho Hq); [discriminate|]. intro F; specialize (Hr F); lia. }
        pose proof (kr_snoc c _ _ _ _ R S2) as R2.
        eexists 1, _. split; [exact R2|]. split; [reflexivity|]. split; [reflexivity|].
        split; [cbn [ks_arrived pend flat_map snd app]; rewrite app_nil_r; reflexivity|].
        intros F. cbn [ks_reports]. rewrite F. reflexivity.
      - assert (S2 : kstep c s KTau (mkKS ([] ++ q) (if k_fwd c then S (ks_reports s) else ks_reports s) (ks_arrived s) false)).
        { apply (kt_report c s [] m KFailed q Ho Hq); [discriminate|]. intro F; specialize (Hr F); lia. }
        pose proof (kr_snoc c _ _ _ _ R S2) as R2.
        eexists 1, _. split; [exact R2|]. split; [reflexivity|]. split; [reflexivity|].
        split; [cbn [ks_arrived pend flat_map snd app]; rewrite app_nil_r; reflexivity|].
        intros F. cbn [ks_reports]. rewrite F. reflexivity. }
    destruct P as [n [s1 [R1 [O1 [Q1 [A1 F1]]]]]].
    destruct (IH _ _ R1 O1 Q1) as [k [s2 [R2 [O2 [Q2 A2]]]]].
    { intros F. rewrite (F1 F). specialize (Hr F). cbn [length] in Hr. lia. }
    exists (n + k), s2. unfold taus in *. rewrite repeat_app, app_assoc.
    split; [exact R2|]. split; [exact O2|]. split; [exact Q2|].
    rewrite A2, A1, <- app_assoc, <- pend_app. reflexivity.
Qed.

(** Flush *)
Lemma k_after_close : forall tr s, kruns c tr s -> forall e, In (KDone e) tr -> ks_closed s = true.
Proof.
  intros tr s R; induction R as [|tr s l s' R IH H]; intros e Hin; [destruct Hin|].
  apply in_app_or in Hin. destruct Hin as [Hin|[Hin|[]]].
  - specialize (IH _ Hin). inversion H; subst; congruence.
  - subst l. inversion H; subst; reflexivity.
Qed.
Lemma k_closed_stuck : forall s l s', kstep c s l s' -> ks_closed s = true -> False.
Proof. intros s l s' H Hc; inversion H; congruence. Qed.

Lemma k_early : forall tr s, kruns c tr s -> In (KDone true) tr ->
  ks_queue s = [] /\ ks_reports s = 0.
Proof.
  intros tr s R; induction R as [|tr s l s' R IH H]; intros Hin; [destruct Hin|].
  apply in_app_or in Hin. destruct Hin as [Hin|[Hin|[]]].
  - exfalso. eapply k_closed_stuck; [exact H|]. eapply k_after_close; [exact R|exact Hin].
  - subst l. inversion H as [| | | | |early Ho He]; subst. cbn [ks_queue ks_reports]. apply He. reflexivity.
Qed.

(** The best run: every record the producer can take arrives. *)
Lemma k_fill_step : k_fwd c = true -> forall tr s m, kruns c tr s -> ks_closed s = false ->
  length (k_taken tr) < k_q c + k_e c -> pend (ks_queue s) = [] -> 0 < k_q c ->
  exists n s', kruns c (tr ++ taus n ++ [KTry m true; KTau]) s' /\ ks_closed s' = false /\
    ks_arrived s' = ks_arrived s ++ [m] /\ pend (ks_queue s') = [].
Proof.
  intros F tr s m R Ho L Hp Hq0.
  destruct (kinv_fwd F _ _ R) as [I1 I2]. destruct (kinv_queue _ _ R) as [I3 _].
  (* make room *)
  assert (P : exists n s1, kruns c (tr ++ taus n) s1 /\ ks_closed s1 = false /\ length (ks_queue s1) < k_q c /\
     ks_arrived s1 = ks_arrived s /\ pend (ks_queue s1) = []).
  { destruct (Nat.lt_ge_cases (length (ks_queue s)) (k_q c)) as [Hl|Hl].
    - exists 0, s. rewrite app_nil_r. auto.
    - destruct (ks_queue s) as [|[m0 st] q] eqn:Eq; [cbn [length] in Hl; lia|].
      assert (S2 : kstep c s KTau (mkKS ([] ++ q) (if k_fwd c then S (ks_reports s) else ks_reports s) (ks_arrived s) false)).
      { apply (kt_report c s [] m0 st q Ho Eq).
        - intros ->. cbn [pend flat_map snd app fst] in Hp. discriminate Hp.
        - intros _. lia. }
      eexists 1, _. split; [exact (kr_snoc c _ _ _ _ R S2)|]. split; [reflexivity|].
      cbn [ks_queue app ks_arrived length] in *. split; [lia|]. split; [reflexivity|].
      unfold pend in *. cbn [flat_map snd] in Hp. apply app_eq_nil in Hp. apply Hp. }
  destruct P as [n [s1 [R1 [O1 [L1 [A1 P1]]]]]].
  pose proof (kr_snoc c _ _ _ _ R1 (kt_take c s1 m O1 L1)) as R2.
  pose proof (kr_snoc c _ _ _ _ R2 (kt_arrive c (mkKS (ks_queue s1 ++ [(m, KPending)]) (ks_reports s1) (ks_arrived s1) false) (ks_queue s1) m [] eq_refl eq_refl)) as R3.
  rewrite <- !app_assoc in R3. cbn [app] in R3.
  eexists n, _. split; [exact R3|]. split; [reflexivity|]. cbn [ks_arrived ks_queue].
  rewrite A1. split; [reflexivity|]. rewrite pend_app, P1. reflexivity.
Qed.

Lemma k_fill : k_fwd c = true -> 0 < k_q c -> forall ms, length ms <= k_q c + k_e c ->
  exists tr s, kruns c tr s /\ ks_closed s = false /\ k_tried tr = ms /\ k_taken tr = ms /\ ks_arrived s = ms /\ pend (ks_queue s) = [].
Proof.
  intros F Q0. induction ms as [|m ms IH] using rev_ind; intros L.
  - exists [], k_init. split; [constructor|]. split; [reflexivity|]. split; [reflexivity|]. split; [reflexivity|]. split; reflexivity.
  - rewrite app_length in L; cbn [length] in L.
    destruct IH as [tr [s [R [O [T1 [T2 [A P]]]]]]]; [lia|].
    destruct (k_fill_step F tr s m R O) as [n [s' [R' [O' [A' P']]]]]; [rewrite T2; lia|exact P|exact Q0|].
    exists (tr ++ taus n ++ [KTry m true; KTau]), s'.
    split; [exact R'|]. split; [exact O'|].
    rewrite !tried_app, !taken_app, tried_taus, taken_taus, T1, T2.
    split; [reflexivity|]. split; [reflexivity|]. split; [rewrite A', A; reflexivity|exact P'].
Qed.

Lemma k_refuse_all : forall ms tr s, kruns c tr s -> ks_closed s = false -> k_q c <= length (ks_queue s) ->
  exists tr', kruns c (tr ++ tr') s /\ k_tried tr' = ms /\ k_taken tr' = [].
Proof.
  induction ms as [|m ms IH]; intros tr s R O L.
  - exists []. rewrite app_nil_r. auto.
  - pose proof (kr_snoc c _ _ _ _ R (kt_refuse c s m O L)) as R1.
    destruct (IH _ _ R1 O L) as [tr' [R2 [T1 T2]]]. rewrite <- app_assoc in R2.
    exists ([KTry m false] ++ tr'). split; [exact R2|]. rewrite tried_app, taken_app, T1, T2. split; reflexivity.
Qed.
End Inv.

(** ** The end of the program *)
Section Exit.
Variable c : kclient.
Variable ms : list string.

Definition phase_inv (p : kphase) (tr : list klabel) : Prop :=
  match p with
  | PExport rest => k_tried tr ++ rest = ms /\ forall e, ~ In (KDone e) tr
  | PDone => k_tried tr = ms /\ forall e, ~ In (KDone e) tr
  | PClean => k_tried tr = ms /\ exists e, In (KDone e) tr
  end.
Lemma xinv : forall x, xruns c ms x -> exists tr, kruns c tr (x_k x) /\ phase_inv (x_phase x) tr /\
  (x_exited x = true -> x_phase x = PDone \/ x_phase x = PClean).
Proof.
  intros x R; induction R as [|x x' R [tr [K [P E]]] H].
  - exists []. split; [constructor|]. split; [|discriminate]. split; [reflexivity|intros e []].
  - inversion H as [m rest ok k' O Ph S|k' O S|O Ph|e k' O Ph S|O Ph]; subst.
    + rewrite Ph in P. destruct P as [P1 P2].
      exists (tr ++ [KTry m ok]). split; [exact (kr_snoc c _ _ _ _ K S)|]. split; [|discriminate].
      cbn [x_phase]. split; [rewrite tried_app, <- app_assoc; exact P1|].
      intros e Hin. apply in_app_or in Hin. destruct Hin as [Hin|[Hin|[]]]; [exact (P2 e Hin)|discriminate Hin].
    + exists (tr ++ [KTau]). split; [exact (kr_snoc c _ _ _ _ K S)|]. split; [|discriminate].
      cbn [x_phase]. assert (T : k_tried (tr ++ [KTau]) = k_tried tr) by (rewrite tried_app; apply app_nil_r).
      assert (D : forall e, In (KDone e) (tr ++ [KTau]) <-> In (KDone e) tr).
      { intros e. split; [intros Hin; apply in_app_or in Hin; destruct Hin as [Hin|[Hin|[]]]; [exact Hin|discriminate Hin]|intros Hin; apply in_or_app; left; exact Hin]. }
      destruct (x_phase x); unfold phase_inv in *; rewrite T; destruct P as [P1 P2].
      * split; [exact P1|]. intros e Hin. apply (P2 e), D, Hin.
      * split; [exact P1|]. intros e Hin. apply (P2 e), D, Hin.
      * split; [exact P1|]. destruct P2 as [e He]. exists e. apply D, He.
    + rewrite Ph in P. destruct P as [P1 P2]. exists tr. split; [exact K|]. split; [|discriminate].
      cbn [x_phase]. split; [rewrite app_nil_r in P1; exact P1|exact P2].
    + rewrite Ph in P. destruct P as [P1 P2]. exists (tr ++ [KDone e]).
      split; [exact (kr_snoc c _ _ _ _ K S)|]. split; [|discriminate].
      cbn [x_phase]. split; [rewrite tried_app; cbn [k_tried flat_map]; rewrite app_nil_r; exact P1|].
      exists e. apply in_or_app. right. left. reflexivity.
    + exists tr. split; [exact K|]. split; [exact P|]. intros _. exact Ph.
Qed.

Lemma x_quick : length ms <= k_q c -> exists x, xruns c ms x /\ x_exited x = true /\ ks_arrived (x_k x) = [].
Proof.
  intros L.
  assert (H : forall rest done, ms = done ++ rest -> length (done ++ rest) <= k_q c ->
    forall k, xruns c ms (mkX k (PExport rest) false) -> ks_closed k = false -> length (ks_queue k) = length done -> ks_arrived k = [] ->
    exists k', xruns c ms (mkX k' (PExport []) false) /\ ks_arrived k' = []).
  { induction rest as [|m rest IH]; intros dn E Ln k R O Lq A; [exists k; auto|].
    rewrite app_length in Ln. cbn [length] in Ln.
    pose proof (kt_take c k m O ltac:(lia)) as S1.
    eapply (IH (dn ++ [m])).
    - rewrite <- app_assoc. exact E.
    - rewrite !app_length. cbn [length]. lia.
    - eapply xr_step; [exact R|]. eapply xs_export; [reflexivity|reflexivity|exact S1].
    - reflexivity.
    - cbn [ks_queue]. rewrite !app_length, Lq. reflexivity.
    - exact A. }
  destruct (H ms [] eq_refl L k_init (xr_nil c ms) eq_refl eq_refl eq_refl) as [k' [R A]].
  exists (mkX k' PDone true). split; [|split; [reflexivity|exact A]].
  eapply xr_step; [eapply xr_step; [exact R|apply xs_done; reflexivity]|].
  apply (xs_exit c (mkX k' PDone false)); [reflexivity|left; reflexivity].
Qed.
End Exit.

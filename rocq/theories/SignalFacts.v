(** * SignalFacts: invariants of SignalModel. *)
From Coq Require Import Lia.
From Verif Require Import GoBase SignalModel SpecSignal.
Local Open Scope nat_scope.

Section F.
Context {R : Type}.
Notation dstate := (dstate R).
Notation sys := (sys R).
Variable kinds : list (kind R).
Notation step := (step kinds).
Notation steps := (steps kinds).

Lemma upd_len (l : list dstate) i d : length (upd l i d) = length l.
Proof. revert i. induction l as [|x l IH]; intros [|i]; cbn; auto. Qed.
Lemma upd_same (l : list dstate) i d x : nth_error l i = Some x -> nth_error (upd l i d) i = Some d.
Proof. revert i. induction l as [|y l IH]; intros [|i]; cbn; try discriminate; auto. Qed.
Lemma upd_other (l : list dstate) i j d : i <> j -> nth_error (upd l i d) j = nth_error l j.
Proof. revert i j. induction l as [|y l IH]; intros [|i] [|j] N; cbn; auto; try contradiction. Qed.

Lemma steps_app s tr1 s1 tr2 s2 : steps s tr1 s1 -> steps s1 tr2 s2 -> steps s (tr1 ++ tr2) s2.
Proof. intros A B. induction B as [|tr s3 l s4 B IH ST]; [rewrite app_nil_r; exact A|]. rewrite app_assoc. econstructor; eauto. Qed.
Lemma steps_one s l s' : step s l s' -> steps s [l] s'.
Proof. intros H. apply (sp_snoc kinds s [] s l s'); [constructor|exact H]. Qed.

(** Drivers stay of their kind. *)
Definition fits (k : kind R) (d : dstate) : Prop :=
  match k, d with
  | _, DNew => True
  | KFile _, FPoll _ | KFile _, FSend _ _ | KFile _, DDone false => True
  | KSocket, SPoll | KSocket, SAccept | KSocket, SInner _ | KSocket, SRead _ | KSocket, SSend _ _ | KSocket, DDone false => True
  | KKafka, KRead | KKafka, KSend _ | KKafka, DDone true => True
  | _, _ => False
  end.
Lemma fits_step b k d o d' : fits k d -> dstep b d o d' -> fits k d'.
Proof. intros F H. destruct H; destruct k; cbn in *; auto. Qed.
Lemma fits_cleanup k d : fits k d -> fits k (d_cleanup d).
Proof. destruct k, d; cbn; auto. Qed.
Lemma fits_start k : fits k (d_start k).
Proof. destruct k; exact I. Qed.

(** How far main has started the drivers. *)
Definition begun (s : sys) (j : nat) : Prop :=
  match s_main s with MInit i | MStart i | MRun i => j < i | MAwait => True | _ => False end.
Record inv (s : sys) : Prop := {
  i_boot : s_main s = MBoot \/ s_main s = MSpawn -> s_hdl s = HNone;
  i_len : length (s_drv s) = length kinds;
  i_fit : forall i k d, nth_error kinds i = Some k -> nth_error (s_drv s) i = Some d -> fits k d;
  i_bound : forall i, s_main s = MInit i \/ s_main s = MStart i \/ s_main s = MRun i -> i < length kinds;
  i_begun : forall j, begun s j -> nth_error (s_drv s) j <> Some DNew
}.
(** Load has loaded all drivers. *)
Definition all_loaded (s : sys) : Prop := match s_main s with MInit _ | MStart _ | MRun _ | MAwait => s_loaded s = length kinds | _ => True end.
Lemma inv0 : inv (sys0 kinds).
Proof.
  split; cbn; auto.
  - now rewrite map_length.
  - intros i k d _ H. apply nth_error_In, in_map_iff in H. destruct H as (_ & <- & _). destruct k; exact I.
  - intros i [H|[H|H]]; discriminate.
Qed.
Lemma fit_upd s i0 d0 d0' : inv s -> nth_error (s_drv s) i0 = Some d0 -> (forall k, nth_error kinds i0 = Some k -> fits k d0 -> fits k d0') ->
  forall i k d, nth_error kinds i = Some k -> nth_error (upd (s_drv s) i0 d0') i = Some d -> fits k d.
Proof.
  intros I N F i k d K D. destruct (Nat.eq_dec i0 i) as [->|NE].
  - rewrite (upd_same _ _ _ _ N) in D. assert (d = d0') as -> by congruence. apply F; auto. exact (i_fit s I i k d0 K N).
  - rewrite upd_other in D by assumption. exact (i_fit s I i k d K D).
Qed.
Lemma new_upd (l : list dstate) i0 d0 d0' j : nth_error l i0 = Some d0 -> d0' <> DNew -> (j <> i0 -> nth_error l j <> Some DNew) -> nth_error (upd l i0 d0') j <> Some DNew.
Proof.
  intros N D H. destruct (Nat.eq_dec i0 j) as [->|NE]; [rewrite (upd_same _ _ _ _ N); congruence|]. rewrite upd_other by assumption. apply H. congruence.
Qed.
Lemma dstep_old b (d : dstate) o d' : dstep b d o d' -> d <> DNew /\ d' <> DNew.
Proof. destruct 1; split; discriminate. Qed.
Ltac simple_case :=
  try (split; cbn; auto; unfold begun in *; cbn in *;
       repeat match goal with H : s_main _ = _ |- _ => rewrite H in * end;
       first [assumption | intros [X|X]; discriminate | intros X; match goal with IB : _ -> s_hdl _ = HNone |- _ => specialize (IB X); congruence end
             | intros ? [X|[X|X]]; discriminate | intros ? [] | auto]; fail).
Lemma inv_step s l s' : inv s -> step s l s' -> inv s'.
Proof.
  intros I ST. destruct I as [IB IL IF IO IN].
  assert (I : inv s) by (split; assumption).
  destruct ST; cbn [s_main s_hdl s_pl s_loaded s_running s_drv] in *; simple_case.
  - split; cbn [s_main s_hdl s_pl s_loaded s_running s_drv]; auto; [intros X; specialize (IB X); congruence|now rewrite upd_len| |].
    + eapply fit_upd; eauto. intros k _. apply fits_cleanup.
    + intros i0 B. specialize (IN i0 B). destruct (Nat.eq_dec j i0) as [->|NE].
      * rewrite (upd_same _ _ _ _ H2). destruct d; cbn; congruence.
      * now rewrite upd_other by assumption.
  - split; cbn [s_main s_hdl s_pl s_loaded s_running s_drv]; auto; [intros [X|X]; discriminate| |].
    + intros i [X|[X|X]]; try discriminate. injection X as <-. exact H1.
    + unfold begun; cbn. intros j X. lia.
  - split; cbn [s_main s_hdl s_pl s_loaded s_running s_drv]; auto; [intros [X|X]; discriminate| |].
    + intros j [X|[X|X]]; try discriminate. injection X as <-. apply IO. auto.
    + unfold begun in *; cbn; rewrite H in IN. exact IN.
  - split; cbn [s_main s_hdl s_pl s_loaded s_running s_drv]; auto; [intros [X|X]; discriminate| |].
    + intros j [X|[X|X]]; try discriminate. injection X as <-. apply IO. auto.
    + unfold begun in *; cbn; rewrite H in IN. exact IN.
  - assert (LT : i < length (s_drv s)) by (rewrite IL; apply IO; auto).
    destruct (nth_error (s_drv s) i) as [d0|] eqn:D0; [|apply nth_error_None in D0; lia].
    split; cbn [s_main s_hdl s_pl s_loaded s_running s_drv].
    + destruct (_ =? _); intros [X|X]; discriminate.
    + now rewrite upd_len.
    + eapply fit_upd; eauto. intros k' K' _. assert (k' = k) as -> by congruence. apply fits_start.
    + destruct (Nat.eqb_spec (S i) (length kinds)) as [E|E]; intros j [X|[X|X]]; try discriminate. injection X as <-. rewrite IL in LT. lia.
    + unfold begun in *; cbn [s_main]. rewrite H in IN. intros j B. apply (new_upd _ _ d0 _ _ D0).
      * destruct k; discriminate.
      * intros NE. destruct (Nat.eqb_spec (S i) (length kinds)) as [E|E].
        -- destruct (Nat.lt_ge_cases j i) as [L|L]; [apply IN; exact L|]. intros X.
           assert (X' : nth_error (s_drv s) j <> None) by (rewrite X; discriminate). apply nth_error_Some in X'. lia.
        -- apply IN. lia.
  - split; cbn [s_main s_hdl s_pl s_loaded s_running s_drv]; auto; [now rewrite upd_len| |].
    + eapply fit_upd; eauto. intros k _ F. eapply fits_step; eauto.
    + intros j B. apply (new_upd _ _ d _ _ H0); [apply (dstep_old _ _ _ _ H1)|]. intros _. apply IN. exact B.
Qed.
Lemma inv_steps s tr s' : inv s -> steps s tr s' -> inv s'.
Proof. intros I H. induction H; auto. eapply inv_step; eauto. Qed.
Lemma inv_reach tr s : steps (sys0 kinds) tr s -> inv s.
Proof. apply inv_steps, inv0. Qed.

Lemma loaded_step s l s' : all_loaded s -> step s l s' -> all_loaded s'.
Proof.
  intros L ST. unfold all_loaded in *. destruct ST; cbn [s_main s_loaded] in *; auto; rewrite H in L; auto.
  destruct (Nat.eqb _ _); exact L.
Qed.
Lemma loaded_reach tr s : steps (sys0 kinds) tr s -> all_loaded s.
Proof. intros H. induction H; [exact Logic.I|]. eapply loaded_step; eauto. Qed.

(** ** After the stop has been carried out *)
Definition settled (s : sys) : Prop := (s_main s = MAwait \/ over s) /\ carried_out s /\ s_running s = false.
Lemma settled_step s l s' : settled s -> step s l s' -> settled s'.
Proof.
  intros (M & C & F) ST. unfold carried_out in C. destruct M as [M|[z M]].
  - destruct ST; cbn in *; try congruence; try (rewrite H0 in C; contradiction);
      try (destruct H as [H|H]; congruence); unfold settled, carried_out, over; cbn; eauto 7.
    + rewrite H1 in C. contradiction.
    + split; eauto. split; auto. destruct err; auto.
  - destruct ST; cbn in *; try congruence; try (exfalso; eapply H; eassumption); try (exfalso; eapply H0; eassumption). destruct H as [H|H]; congruence.
Qed.
Lemma settled_steps s tr s' : settled s -> steps s tr s' -> settled s'.
Proof. intros I H. induction H; auto. eapply settled_step; eauto. Qed.
(** A file or socket driver has at most the record in its hands, or the one it is reading, still to send. *)
Definition pending (d : option dstate) : nat := match d with Some (FSend _ _) | Some (SSend _ _) | Some (SRead false) => 1 | _ => 0 end.
Lemma sent_app i (a b : list (lab R)) : sent_by i (a ++ b) = (sent_by i a ++ sent_by i b)%list.
Proof. apply flat_map_app. Qed.
Lemma pending_step s l s' i k0 : inv s -> settled s -> nth_error kinds i = Some k0 -> k0 <> KKafka -> step s l s' ->
  length (sent_by i [l]) + pending (nth_error (s_drv s') i) <= pending (nth_error (s_drv s) i).
Proof.
  intros I (_ & _ & F) K NK ST.
  assert (TRIV : forall l' : lab R, (forall o, l' <> LDrv i o) -> sent_by i [l'] = []).
  { intros l' N. destruct l' as [| | |j [r|]]; auto. cbn. destruct (Nat.eqb_spec i j) as [->|]; auto. exfalso. eapply N; reflexivity. }
  destruct ST; cbn [s_drv]; try (rewrite TRIV by (intros; discriminate); cbn [length]; lia).
  - rewrite TRIV by (intros; discriminate). cbn [length]. destruct (Nat.eq_dec j i) as [->|NE]; [|rewrite upd_other by assumption; lia].
    rewrite (upd_same _ _ _ _ H2), H2. destruct d as [| | | | |?|[|]|? ?| | |?]; cbn; lia.
  - rewrite TRIV by (intros; discriminate). cbn [length]. destruct (Nat.eq_dec i0 i) as [->|NE]; [|rewrite upd_other by assumption; lia].
    destruct (nth_error (s_drv s) i) as [d0|] eqn:D0.
    + rewrite (upd_same _ _ _ _ D0). destruct k; cbn; lia.
    + assert (nth_error (upd (s_drv s) i (d_start k)) i = None) as ->; [|cbn; lia]. apply nth_error_None. rewrite upd_len. apply nth_error_None. exact D0.
  - destruct (Nat.eq_dec i0 i) as [->|NE].
    + rewrite (upd_same _ _ _ _ H0), H0. rewrite F in H1. pose proof (i_fit _ I _ _ _ K H0) as FT.
      destruct k0 as [data| |]; [| |congruence];
      inversion H1; subst; cbn in *; try discriminate; try contradiction; try lia; try (rewrite Nat.eqb_refl; cbn; lia); repeat (destruct c; cbn; try lia).
    + rewrite upd_other by assumption. rewrite TRIV by congruence. cbn [length]. lia.
Qed.
Lemma pending_less s tr s' i k0 : inv s -> settled s -> nth_error kinds i = Some k0 -> k0 <> KKafka -> steps s tr s' ->
  length (sent_by i tr) + pending (nth_error (s_drv s') i) <= pending (nth_error (s_drv s) i).
Proof.
  intros I ST K NK H.
  induction H as [|tr s1 l s2 H IH X]; [cbn; lia|]. rewrite sent_app, app_length.
  pose proof (pending_step s1 l s2 i k0 (inv_steps _ _ _ I H) (settled_steps _ _ _ ST H) K NK X). lia.
Qed.
Lemma pending_steps s tr s' i k0 : inv s -> settled s -> nth_error kinds i = Some k0 -> k0 <> KKafka -> steps s tr s' ->
  length (sent_by i tr) + pending (nth_error (s_drv s') i) <= 1.
Proof.
  intros I ST K NK H. pose proof (pending_less s tr s' i k0 I ST K NK H).
  assert (pending (nth_error (s_drv s) i) <= 1) by (destruct (nth_error (s_drv s) i) as [[| | | | |?|[|]|? ?| | |?]|]; cbn; lia). lia.
Qed.
(** What a socket driver hands over after that is the record it holds. *)
Lemma held_step s l s' i : inv s -> settled s -> nth_error kinds i = Some KSocket -> step s l s' -> forall r,
  (sent_by i [l] = [r] -> exists c, nth_error (s_drv s) i = Some (SSend r c)) /\
  ((exists c, nth_error (s_drv s') i = Some (SSend r c)) -> pending (nth_error (s_drv s) i) = 1 /\ ((exists c, nth_error (s_drv s) i = Some (SSend r c)) \/ nth_error (s_drv s) i = Some (SRead false))).
Proof.
  intros I (_ & _ & F) K ST r.
  assert (TRIV : forall l' : lab R, (forall o, l' <> LDrv i o) -> sent_by i [l'] = []).
  { intros l' N. destruct l' as [| | |j [r0|]]; auto. cbn. destruct (Nat.eqb_spec i j) as [->|]; auto. exfalso. eapply N; reflexivity. }
  assert (SAME : (exists c, nth_error (s_drv s) i = Some (SSend r c)) -> pending (nth_error (s_drv s) i) = 1 /\ ((exists c, nth_error (s_drv s) i = Some (SSend r c)) \/ nth_error (s_drv s) i = Some (SRead false))).
  { intros [c E]. rewrite E. cbn. eauto. }
  destruct ST; cbn [s_drv]; try (rewrite TRIV by (intros; discriminate)); try (split; [discriminate|exact SAME]).
  - split; [discriminate|]. destruct (Nat.eq_dec j i) as [->|NE]; [|rewrite upd_other by assumption; exact SAME].
    rewrite (upd_same _ _ _ _ H2), H2. intros [c E]. destruct d; cbn in E; try discriminate. injection E as -> _. cbn. eauto.
  - split; [discriminate|]. destruct (Nat.eq_dec i0 i) as [->|NE]; [|rewrite upd_other by assumption; exact SAME].
    destruct (nth_error (s_drv s) i) as [d0|] eqn:D0.
    + rewrite (upd_same _ _ _ _ D0). intros [c E]. destruct k; discriminate.
    + assert (X : nth_error (upd (s_drv s) i (d_start k)) i = None) by (apply nth_error_None; rewrite upd_len; now apply nth_error_None). rewrite X. intros [c E]. discriminate.
  - destruct (Nat.eq_dec i0 i) as [->|NE].
    + rewrite (upd_same _ _ _ _ H0), H0. rewrite F in H1. pose proof (i_fit _ I _ _ _ K H0) as FT.
      inversion H1; subst; cbn in FT; try discriminate; try contradiction; cbn [sent_by flat_map]; try rewrite Nat.eqb_refl;
        (split; [|intros [? E]; try discriminate]); try discriminate.
      * injection E as -> <-. cbn. auto.
      * intros E. cbn in E. injection E as ->. eauto.
    + rewrite upd_other by assumption. rewrite TRIV by congruence. split; [discriminate|exact SAME].
Qed.
Lemma held_steps s tr s' i : inv s -> settled s -> nth_error kinds i = Some KSocket -> nth_error (s_drv s) i <> Some (SRead false) -> steps s tr s' ->
  forall r, In r (sent_by i tr) \/ (exists c, nth_error (s_drv s') i = Some (SSend r c)) -> exists c, nth_error (s_drv s) i = Some (SSend r c).
Proof.
  intros I ST K NR H. assert (P : nth_error (s_drv s') i <> Some (SRead false) /\ forall r, In r (sent_by i tr) \/ (exists c, nth_error (s_drv s') i = Some (SSend r c)) -> exists c, nth_error (s_drv s) i = Some (SSend r c)).
  { induction H as [|tr s1 l s2 H IH X].
    - split; [exact NR|]. intros r [[]|E]; exact E.
    - destruct IH as [NR1 IH]. pose proof (inv_steps _ _ _ I H) as I1. pose proof (settled_steps _ _ _ ST H) as ST1.
      pose proof (held_step s1 l s2 i I1 ST1 K X) as HS. split.
      + pose proof ST1 as (_ & _ & F). clear HS IH H.
        assert (U : forall j d0 d, nth_error (s_drv s1) j = Some d0 -> (j = i -> d <> SRead false) -> nth_error (upd (s_drv s1) j d) i <> Some (SRead false)).
        { intros j d0 d E N. destruct (Nat.eq_dec j i) as [->|NE]; [rewrite (upd_same _ _ _ _ E); intros [= ->]; now apply N|rewrite upd_other by assumption; exact NR1]. }
        destruct X; cbn [s_drv] in *; auto.
        * eapply U; eauto. intros ->. destruct d; cbn; congruence.
        * destruct (nth_error (s_drv s1) i0) as [d0|] eqn:D0; [eapply U; eauto; intros ->; destruct k; discriminate|].
          destruct (Nat.eq_dec i0 i) as [->|NE]; [|now rewrite upd_other].
          assert (E : nth_error (upd (s_drv s1) i (d_start k)) i = None) by (apply nth_error_None; rewrite upd_len; now apply nth_error_None). rewrite E. discriminate.
        * eapply U; eauto. intros ->. rewrite F in *. match goal with D : dstep false _ _ _ |- _ => inversion D; subst; discriminate end.
      + intros r [IN|E].
        * rewrite sent_app in IN. apply in_app_or in IN. destruct IN as [IN|IN]; [apply IH; auto|].
          apply IH. right. apply (HS r). destruct l as [| | |j [r0|]]; try contradiction IN. cbn in IN |- *. destruct (Nat.eqb i j); cbn in IN |- *; [|contradiction].
          destruct IN as [->|[]]. reflexivity.
        * apply (proj2 (HS r)) in E. destruct E as [_ [E|E]]; [apply IH; auto|contradiction]. }
  apply P.
Qed.
(** The signal goroutine itself ends no driver. *)
Lemma handler_ends s s' i err : step s LHandler s' -> (nth_error (s_drv s') i = Some (DDone err) <-> nth_error (s_drv s) i = Some (DDone err)).
Proof.
  intros ST. inversion ST; subst; cbn [s_drv]; try reflexivity. destruct (Nat.eq_dec j i) as [->|NE]; [|now rewrite upd_other].
  rewrite (upd_same _ _ _ _ H2), H2. destruct d; cbn; split; intros X; congruence.
Qed.
Lemma drv_step s i d o d' : (forall z, s_main s <> MExit z) -> nth_error (s_drv s) i = Some d -> dstep (s_running s) d o d' ->
  exists s', step s (LDrv i o) s' /\ nth_error (s_drv s') i = Some d' /\ s_main s' = s_main s /\ s_running s' = s_running s.
Proof. intros M N D. eexists. split; [eapply st_drv; eauto|]. cbn. split; [eapply upd_same; eauto|auto]. Qed.
(** A Kafka driver goes on whatever the flag says. *)
Lemma kafka_goes_on s i l : (forall z, s_main s <> MExit z) -> nth_error (s_drv s) i = Some KRead ->
  exists tr s', steps s tr s' /\ Forall (only i) tr /\ sent_by i tr = l /\ nth_error (s_drv s') i = Some KRead.
Proof.
  intros NX D. assert (Q : forall l s, (forall z, s_main s <> MExit z) -> nth_error (s_drv s) i = Some (KSend l) ->
    exists tr s', steps s tr s' /\ Forall (only i) tr /\ sent_by i tr = l /\ nth_error (s_drv s') i = Some KRead).
  { clear. induction l as [|r l IH]; intros s NX D.
    - destruct (drv_step s i _ None KRead NX D) as (s1 & S1 & N1 & _); [constructor|].
      exists [LDrv i None], s1. split; [now apply steps_one|]. split; [repeat constructor; eexists; reflexivity|]. auto.
    - destruct (drv_step s i _ (Some r) (KSend l) NX D) as (s1 & S1 & N1 & M1 & _); [constructor|].
      destruct (IH s1 ltac:(rewrite M1; exact NX) N1) as (tr & s2 & A & B & C & E).
      exists ([LDrv i (Some r)] ++ tr)%list, s2. split; [apply (steps_app _ _ s1); auto; now apply steps_one|].
      split; [apply Forall_app; split; [repeat constructor; eexists; reflexivity|exact B]|]. split; [|exact E].
      rewrite sent_app, C. cbn. now rewrite Nat.eqb_refl. }
  destruct (drv_step s i _ None (KSend l) NX D) as (s1 & S1 & N1 & M1 & _); [constructor|].
  destruct (Q l s1 ltac:(rewrite M1; exact NX) N1) as (tr & s2 & A & B & C & E).
  exists ([LDrv i None] ++ tr)%list, s2. split; [apply (steps_app _ _ s1); auto; now apply steps_one|].
  split; [apply Forall_app; split; [repeat constructor; eexists; reflexivity|exact B]|]. split; [|exact E]. rewrite sent_app, C. reflexivity.
Qed.
Lemma file_ends s i data : inv s -> s_main s = MAwait -> s_running s = false -> nth_error kinds i = Some (KFile data) ->
  exists tr s', steps s tr s' /\ Forall (only i) tr /\ length tr <= 2 /\ nth_error (s_drv s') i = Some (DDone false).
Proof.
  intros I M F K. assert (L : i < length (s_drv s)) by (rewrite (i_len _ I); apply nth_error_Some; congruence).
  destruct (nth_error (s_drv s) i) as [d|] eqn:D; [|apply nth_error_None in D; lia].
  assert (NX : forall z, s_main s <> MExit z) by (intros z; rewrite M; discriminate).
  pose proof (i_fit _ I _ _ _ K D) as FT. assert (ND : d <> DNew) by (intros ->; apply (i_begun _ I i); auto; unfold begun; rewrite M; exact Logic.I).
  destruct d as [|l|r l| | | | | | | |[|]]; cbn in FT; try contradiction.
  - destruct (drv_step s i _ None (DDone false) NX D) as (s1 & S1 & N1 & _); [rewrite F; constructor; reflexivity|].
    exists [LDrv i None], s1. split; [now apply steps_one|]. split; [repeat constructor; eexists; reflexivity|]. cbn. auto.
  - destruct (drv_step s i _ (Some r) (FPoll l) NX D) as (s1 & S1 & N1 & M1 & R1); [constructor|].
    assert (NX1 : forall z, s_main s1 <> MExit z) by (intros z; rewrite M1, M; discriminate).
    destruct (drv_step s1 i _ None (DDone false) NX1 N1) as (s2 & S2 & N2 & _); [rewrite R1, F; constructor; reflexivity|].
    exists [LDrv i (Some r); LDrv i None], s2. split; [apply (steps_app _ [LDrv i (Some r)] s1); now apply steps_one|].
    split; [repeat constructor; eexists; reflexivity|]. cbn. auto.
  - exists [], s. split; [constructor|]. split; [constructor|]. cbn. auto.
Qed.
(** A socket driver that is not waiting for a connection ends too, once its connection has been closed. *)
Lemma socket_ends s i : inv s -> s_main s = MAwait -> s_running s = false -> nth_error kinds i = Some KSocket ->
  nth_error (s_drv s) i <> Some SAccept ->
  exists tr s', steps s tr s' /\ Forall (only i) tr /\ length tr <= 3 /\ nth_error (s_drv s') i = Some (DDone false).
Proof.
  intros I M F K NA. assert (L : i < length (s_drv s)) by (rewrite (i_len _ I); apply nth_error_Some; congruence).
  destruct (nth_error (s_drv s) i) as [d|] eqn:D; [|apply nth_error_None in D; lia].
  assert (NX : forall z, s_main s <> MExit z) by (intros z; rewrite M; discriminate).
  pose proof (i_fit _ I _ _ _ K D) as FT. assert (ND : d <> DNew) by (intros ->; apply (i_begun _ I i); auto; unfold begun; rewrite M; exact Logic.I).
  assert (P : forall s, (forall z, s_main s <> MExit z) -> s_running s = false -> nth_error (s_drv s) i = Some SPoll ->
    exists tr s', steps s tr s' /\ Forall (only i) tr /\ length tr <= 1 /\ nth_error (s_drv s') i = Some (DDone false)).
  { intros t NT FT' DT. destruct (drv_step t i _ None (DDone false) NT DT) as (s1 & S1 & N1 & _); [rewrite FT'; constructor; reflexivity|].
    exists [LDrv i None], s1. split; [now apply steps_one|]. split; [repeat constructor; eexists; reflexivity|]. cbn. auto. }
  assert (Q : forall s c, (forall z, s_main s <> MExit z) -> s_running s = false -> nth_error (s_drv s) i = Some (SInner c) ->
    exists tr s', steps s tr s' /\ Forall (only i) tr /\ length tr <= 2 /\ nth_error (s_drv s') i = Some (DDone false)).
  { intros t c NT FT' DT. destruct (drv_step t i _ None SPoll NT DT) as (s1 & S1 & N1 & M1 & R1); [rewrite FT'; constructor; reflexivity|].
    destruct (P s1 ltac:(rewrite M1; exact NT) ltac:(congruence) N1) as (tr & s2 & A & B & C & E).
    exists ([LDrv i None] ++ tr)%list, s2. split; [apply (steps_app _ _ s1); auto; now apply steps_one|]. split; [apply Forall_app; split; [repeat constructor; eexists; reflexivity|exact B]|].
    rewrite app_length. cbn. split; [lia|exact E]. }
  destruct d as [|l|r l| | |c|c|r c| | |[|]]; cbn in FT; try contradiction.
  - destruct (P s NX F D) as (tr & s2 & A & B & C & E). exists tr, s2. repeat split; auto.
  - destruct (Q s c NX F D) as (tr & s2 & A & B & C & E). exists tr, s2. repeat split; auto.
  - destruct (drv_step s i _ None SPoll NX D) as (s1 & S1 & N1 & M1 & R1); [constructor|].
    destruct (P s1 ltac:(rewrite M1; exact NX) ltac:(congruence) N1) as (tr & s2 & A & B & C & E).
    exists ([LDrv i None] ++ tr)%list, s2. split; [apply (steps_app _ _ s1); auto; now apply steps_one|]. split; [apply Forall_app; split; [repeat constructor; eexists; reflexivity|exact B]|].
    rewrite app_length. cbn. split; [lia|exact E].
  - destruct (drv_step s i _ (Some r) (SInner c) NX D) as (s1 & S1 & N1 & M1 & R1); [constructor|].
    destruct (Q s1 c ltac:(rewrite M1; exact NX) ltac:(congruence) N1) as (tr & s2 & A & B & C & E).
    exists ([LDrv i (Some r)] ++ tr)%list, s2. split; [apply (steps_app _ _ s1); auto; now apply steps_one|]. split; [apply Forall_app; split; [repeat constructor; eexists; reflexivity|exact B]|].
    rewrite app_length. cbn. split; [lia|exact E].
  - exists [], s. split; [constructor|]. split; [constructor|]. cbn. auto.
Qed.

(** The drivers cleaned up after the stop do not wait for their peers. *)
Definition cleaned_up (s : sys) (i : nat) : Prop := match s_hdl s with HClean j _ => i < j | HDone => True | _ => False end.
Definition closed_inv (s : sys) : Prop :=
  settled s /\ (forall j n, s_hdl s = HClean j n -> n = length kinds) /\
  forall i, i < length kinds -> cleaned_up s i -> nth_error (s_drv s) i <> Some (SRead false).
Lemma closed_step s l s' : inv s -> closed_inv s -> step s l s' -> closed_inv s'.
Proof.
  intros I (ST & NN & NR) X. split; [eapply settled_step; eauto|]. destruct ST as (M & C & F). unfold carried_out in C.
  assert (NX : s_main s = MAwait \/ s' = s).
  { destruct M as [M|[z M]]; auto. right. destruct X; cbn in *; try congruence; try (exfalso; eapply H; eassumption); try (exfalso; eapply H0; eassumption). destruct H as [H|H]; congruence. }
  destruct NX as [NX| ->]; [|auto].
  destruct X; cbn [s_main s_hdl s_drv] in *; unfold cleaned_up in *; cbn [s_hdl s_drv] in *; try congruence; try (rewrite H0 in C; contradiction); try (rewrite H1 in C; contradiction);
    try (destruct H as [H|H]; congruence); auto.
  - split; [intros j0 n0 [= <- <-]; eauto|]. intros i L B. destruct (Nat.eq_dec j i) as [->|NE].
    + rewrite (upd_same _ _ _ _ H2). destruct d; cbn; try discriminate.
    + rewrite upd_other by assumption. apply NR; auto. rewrite H0. lia.
  - split; [discriminate|]. intros i L _. apply NR; auto. rewrite H0. pose proof (NN _ _ H0). lia.
  - split; [exact NN|]. intros i0 L B. destruct (Nat.eq_dec i i0) as [->|NE]; [|rewrite upd_other by assumption; auto].
    rewrite (upd_same _ _ _ _ H0). rewrite F in H1. inversion H1; subst; try discriminate.
Qed.
Lemma closed_steps s tr s' : inv s -> closed_inv s -> steps s tr s' -> closed_inv s'.
Proof.
  intros I C H. induction H as [|tr s1 l s2 H IH X]; auto.
  apply (closed_step s1 l s2); auto. eapply inv_steps; eauto.
Qed.

(** ** Later signals *)
Lemma received_step s l s' : inv s -> received s -> step s l s' -> received s' /\ (no_signal l = false -> s' = s).
Proof.
  intros I C ST. unfold received in *.
  destruct ST; cbn [s_main s_hdl no_signal] in *; try (split; [|discriminate]); try (rewrite H0 in C; contradiction); try exact C; try exact Logic.I.
  - rewrite (i_boot _ I) in C by auto. contradiction.
  - rewrite H1 in C. contradiction.
  - auto.
  - rewrite (i_boot _ I) in C by auto. contradiction.
Qed.
Lemma later_signals s tr s' : inv s -> received s -> steps s tr s' -> received s' /\ steps s (List.filter no_signal tr) s'.
Proof.
  intros I C H. induction H as [|tr s1 l s2 H IH X]; [split; [exact C|constructor]|].
  destruct IH as [C1 IH]. destruct (received_step s1 l s2 (inv_steps _ _ _ I H) C1 X) as [C2 E]. split; [exact C2|].
  rewrite filter_app. cbn [List.filter]. destruct (no_signal l) eqn:NS; [econstructor; eauto|]. rewrite app_nil_r, E by auto. exact IH.
Qed.

(** ** A stop that comes too early *)
Definition undone (s : sys) : Prop := carried_out s /\ (starting s \/ over s \/ ((exists i, s_main s = MRun i) \/ s_main s = MAwait) /\ s_running s = true).
Lemma undone_step s l s' : undone s -> step s l s' -> undone s'.
Proof.
  intros (C & M) ST. unfold carried_out in C.
  assert (NH : s_hdl s <> HNone /\ s_hdl s <> HSpawned /\ s_hdl s <> HWait /\ s_hdl s <> HGot /\ s_hdl s <> HShut) by (repeat split; intros E; rewrite E in C; contradiction).
  destruct NH as (N1 & N2 & N3 & N4 & N5).
  destruct M as [M|[[z M]|[[[i0 M]|M] F]]]; unfold starting in M;
  destruct ST; cbn [s_main s_hdl s_running] in *; try contradiction; try congruence; try (exfalso; eapply H; eassumption); try (exfalso; eapply H0; eassumption);
    try (destruct H as [H|H]; congruence); try (rewrite H in M; contradiction); unfold undone, carried_out, starting, over; cbn [s_main s_hdl s_running];
    (split; [try assumption; try exact Logic.I|]); try (left; assumption);
    try (right; left; eauto; fail); try (right; right; eauto; fail); try (left; exact Logic.I).
  destruct (_ =? _); [right; right; auto|left; exact Logic.I].
Qed.
Lemma undone_steps s tr s' : undone s -> steps s tr s' -> undone s'.
Proof. intros I H. induction H; auto. eapply undone_step; eauto. Qed.

(** ** Without signals *)
Definition quiet (s : sys) : Prop :=
  ~ received s /\ match s_main s with MRun _ | MAwait => s_running s = true | _ => True end.
Lemma quiet_step s l s' : no_signal l = true -> quiet s -> step s l s' -> quiet s'.
Proof.
  intros NS (C & M) ST. unfold received in C.
  destruct ST; cbn in *; try discriminate; unfold quiet, received; cbn; try (rewrite H0 in C; exfalso; apply C; exact Logic.I); auto.
  rewrite H in M. split; [exact C|]. destruct (length kinds) as [|m]; [auto|destruct (Nat.eqb i m); auto].
Qed.
Lemma quiet_steps tr s s' : forallb no_signal tr = true -> quiet s -> steps s tr s' -> quiet s'.
Proof.
  intros NS Q H. induction H as [|tr s1 l s2 H IH X]; auto. rewrite forallb_app in NS. apply andb_true_iff in NS. destruct NS as [A B]. cbn in B. rewrite andb_true_r in B.
  apply (quiet_step s1 l s2); auto.
Qed.
End F.

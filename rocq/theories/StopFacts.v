(** * StopFacts *)
From Coq Require Import Lia.
From Verif Require Import GoBase GoFacts MonitorModel StopModel SpecStop.
Local Open Scope nat_scope.
Lemma m_run_app : forall a s b, m_run s (a ++ b) = match m_run s a with Some s1 => m_run s1 b | None => None end.
Proof. induction a as [|x a IH]; intros s b; [reflexivity|]. cbn [List.app m_run]. destruct (m_step s x); [apply IH|reflexivity]. Qed.
Lemma modified_pos e : 0 < modified e <-> has_modified_yaml e = true.
Proof. unfold modified. destruct (has_modified_yaml e); split; auto; try discriminate; lia. Qed.
(** While the channel is emptied. *)
Lemma emptying : forall acts q i c n s', m_run (mkMon q (Dequeuing i c) n) acts = Some s' -> Forall inner acts ->
  exists c' n' seen, m_phase s' = Dequeuing (i + length (filter is_poll acts)) c' /\ s' = mkMon (m_events s') (m_phase s') n' /\
    seen ++ m_events s' = q ++ reported acts /\ (0 < c' <-> 0 < c \/ existsb has_modified_yaml seen = true).
Proof.
  induction acts as [|a acts IH]; intros q i c n s' E F.
  - cbn in E. injection E as <-. exists c, n, []. cbn. rewrite Nat.add_0_r, app_nil_r. repeat split; auto. intros [H|H]; [exact H|discriminate].
  - inversion F as [|x y [N1 N2] F']; subst. cbn [m_run] in E.
    destruct a; try (cbn in E; discriminate); try (exfalso; auto; fail).
    + cbn [m_step m_phase m_events m_stops] in E. destruct (IH _ _ _ _ _ E F') as (c' & n' & seen & P & S & R & C). exists c', n', seen.
      cbn [filter is_poll length]. repeat split; auto; try tauto. rewrite R. cbn [reported flat_map]. rewrite <- app_assoc. reflexivity.
    + cbn [m_step m_phase m_events m_stops] in E. destruct (IH _ _ _ _ _ E F') as (c' & n' & seen & P & S & R & C). exists c', n', seen. cbn [filter is_poll length]. repeat split; auto; tauto.
    + cbn [m_step m_phase m_events m_stops] in E. destruct q as [|e q]; [discriminate|]. destruct (Nat.ltb i poll_limit); [|discriminate].
      destruct (IH _ _ _ _ _ E F') as (c' & n' & seen & P & S & R & C). exists c', n', (e :: seen). cbn [filter is_poll length]. split; [exact P|]. split; [exact S|].
      split; [cbn [List.app]; rewrite R; reflexivity|]. rewrite C. cbn [existsb]. rewrite orb_true_iff, <- modified_pos. split; intros; [destruct H as [H|H]; [destruct (Nat.lt_ge_cases 0 c); [tauto|right; left; lia]|tauto]|].
      destruct H as [H|[H|H]]; [left; lia|left; lia|right; exact H].
    + cbn [m_step m_phase m_events m_stops] in E. destruct q as [|e q]; [|discriminate]. destruct (Nat.ltb i poll_limit); [|discriminate].
      destruct (IH _ _ _ _ _ E F') as (c' & n' & seen & P & S & R & C). exists c', n', seen. cbn [filter is_poll length]. split; [rewrite P; f_equal; lia|]. auto.
Qed.
Lemma polls_bounded : forall acts q i c n s', m_run (mkMon q (Dequeuing i c) n) acts = Some s' -> Forall inner acts -> i <= poll_limit ->
  i + length (filter is_poll acts) <= poll_limit.
Proof.
  induction acts as [|a acts IH]; intros q i c n s' E F L; [cbn; lia|].
  inversion F as [|x y [N1 N2] F']; subst. cbn [m_run] in E.
  destruct a; try (cbn in E; discriminate); try (exfalso; auto; fail); cbn [m_step m_phase m_events m_stops] in E.
  - exact (IH _ _ _ _ _ E F' L).
  - exact (IH _ _ _ _ _ E F' L).
  - destruct q as [|e q]; [discriminate|]. destruct (Nat.ltb i poll_limit); [|discriminate]. exact (IH _ _ _ _ _ E F' L).
  - destruct q as [|e q]; [|discriminate]. destruct (Nat.ltb i poll_limit) eqn:LT; [|discriminate]. apply Nat.ltb_lt in LT.
    cbn [filter is_poll length]. pose proof (IH _ _ _ _ _ E F' LT). lia.
Qed.
Lemma check_exact s acts s' : m_phase s = Waiting -> m_run s (AReceive :: acts ++ [AFinish]) = Some s' -> Forall inner acts ->
  length (filter is_poll acts) = poll_limit /\
  exists seen, seen ++ m_events s' = m_events s ++ reported acts /\
    m_phase s' = if existsb has_modified_yaml seen then Checking else Waiting.
Proof.
  intros P E F. destruct s as [q ph n]. cbn [m_phase m_events] in *. subst ph. cbn [m_run m_step m_phase m_events m_stops] in E. destruct q as [|e q]; [discriminate|].
  rewrite m_run_app in E. destruct (m_run (mkMon q (Dequeuing 0 (modified e)) n) acts) as [s1|] eqn:E1; [|discriminate].
  destruct (emptying _ _ _ _ _ _ E1 F) as (c' & n' & seen & P1 & S1 & R & C). pose proof (polls_bounded _ _ _ _ _ _ E1 F (Nat.le_0_l _)) as B.
  cbn [m_run] in E. destruct s1 as [q1 ph1 n1]. cbn [m_phase m_events] in *. subst ph1. cbn [m_step m_phase m_events m_stops] in E.
  destruct (Nat.ltb (0 + length (filter is_poll acts)) poll_limit) eqn:LT; [discriminate|]. apply Nat.ltb_ge in LT. injection E as <-. cbn [m_phase m_events]. split; [lia|].
  exists (e :: seen). split; [cbn [List.app]; rewrite R; reflexivity|]. cbn [existsb]. rewrite modified_pos in C.
  destruct (has_modified_yaml e || existsb has_modified_yaml seen) eqn:X.
  - apply orb_true_iff in X. apply C in X. destruct c'; [lia|reflexivity].
  - apply orb_false_iff in X as [X1 X2]. destruct c'; [reflexivity|]. assert (0 < S c') as H by lia. apply C in H. destruct H; congruence.
Qed.
(** Nothing reported before the last poll is left over. *)
Lemma poll_empties s s' : m_step s APoll = Some s' -> m_events s = [] /\ m_events s' = [].
Proof. destruct s as [q ph n]. destruct ph, q; try discriminate. cbn [m_step m_phase m_events m_stops]. destruct (Nat.ltb i poll_limit); [|discriminate]. intros [= <-]. auto. Qed.

(** ** Stopping *)
(** What the monitor can still do by itself. *)
Definition left_over (s : monst) : nat :=
  match m_phase s with
  | Waiting => 1 | Dequeuing i _ => (poll_limit - i) + 3 | Checking => 2 | Gone | NotStarted => 0
  end + length (m_events s) * (poll_limit + 5).
Lemma own_decreases s a s' : own a -> m_step s a = Some s' -> left_over s' < left_over s.
Proof.
  intros O E. destruct s as [q ph n]. unfold left_over.
  destruct a; try destruct O; destruct ph; cbn [m_step m_phase m_events m_stops] in E; try discriminate.
  - destruct q as [|e q]; [discriminate|]. injection E as <-. cbn [m_phase m_events length]. lia.
  - destruct q as [|e q]; [discriminate|]. destruct (Nat.ltb i poll_limit); [|discriminate]. injection E as <-. cbn [m_phase m_events length]. lia.
  - destruct q as [|e q]; [|discriminate]. destruct (Nat.ltb i poll_limit) eqn:LT; [|discriminate]. apply Nat.ltb_lt in LT. injection E as <-. cbn [m_phase m_events length]. lia.
  - destruct (Nat.ltb i poll_limit) eqn:LT; [discriminate|]. injection E as <-. cbn [m_phase m_events]. destruct (Nat.ltb 0 count); lia.
  - injection E as <-. cbn [m_phase m_events]. lia.
  - destruct n; [discriminate|]. injection E as <-. cbn [m_phase m_events]. lia.
Qed.
Lemma stops_soon s : forall acts s', Forall own acts -> m_run s acts = Some s' -> length acts <= left_over s.
Proof.
  intros acts. revert s. induction acts as [|a acts IH]; intros s s' F E; [cbn; lia|]. inversion F; subst. cbn [m_run] in E. destruct (m_step s a) as [s1|] eqn:E1; [|discriminate].
  pose proof (own_decreases _ _ _ H1 E1). pose proof (IH _ _ H2 E). cbn [length]. lia.
Qed.
Lemma never_stuck s : running (m_phase s) -> 0 < m_stops s -> exists a s', own a /\ m_step s a = Some s'.
Proof.
  intros [R1 R2] S. destruct s as [q ph n]. cbn [m_phase m_stops] in *. destruct ph; try contradiction.
  - exists AQuit. destruct n; [lia|]. eexists. split; [exact I|reflexivity].
  - destruct (Nat.ltb i poll_limit) eqn:LT.
    + destruct q as [|e q]; [exists APoll|exists ADequeue]; eexists; (split; [exact I|]); cbn [m_step m_phase m_events]; rewrite LT; reflexivity.
    + exists AFinish. eexists. split; [exact I|]. cbn [m_step m_phase m_events]. rewrite LT. reflexivity.
  - exists ADone. eexists. split; [exact I|reflexivity].
Qed.
Lemma stops_kept s a s' : m_step s a = Some s' -> own a -> m_phase s' <> Gone -> m_stops s' = m_stops s /\ (running (m_phase s) -> running (m_phase s')).
Proof.
  destruct s as [q ph n]. intros E O N. destruct a; try destruct O; destruct ph; cbn [m_step m_phase m_events m_stops] in E; try discriminate; try (destruct q as [|e q]; try discriminate); try (destruct (Nat.ltb i poll_limit); try discriminate);
    try (injection E as <-; cbn [m_phase m_stops] in *; split; [reflexivity|]; intros [A B]; split; try destruct (Nat.ltb 0 count); congruence).
  - destruct n; [discriminate|]. injection E as <-. cbn in N. congruence.
  - destruct n; [discriminate|]. injection E as <-. cbn in N. congruence.
Qed.
(** Once the goroutine is gone, or if it never ran, nobody else is let go. *)
Lemma dead_stays : forall acts s s', m_run s acts = Some s' -> m_phase s = Gone \/ m_phase s = NotStarted -> m_phase s' = m_phase s /\ m_stops s <= m_stops s' /\ filter is_quit acts = [].
Proof.
  induction acts as [|a acts IH]; intros s s' E D; cbn [m_run] in E; [injection E as <-; auto|].
  destruct s as [q ph n]. cbn [m_phase m_stops] in *.
  destruct a; cbn [m_step m_phase m_events m_stops] in E; try (destruct D; subst ph; discriminate).
  - destruct (IH _ _ E D) as (A & B & C). cbn in *. auto.
  - destruct (IH _ _ E D) as (A & B & C). cbn in *. repeat split; auto; lia.
Qed.
(** Events that are there whenever the monitor looks keep it from ever getting on. *)
Lemma starved e n : forall k i c, i < poll_limit -> exists c', m_run (mkMon [] (Dequeuing i c) n) (concat (repeat [AEvent e; ADequeue] k)) = Some (mkMon [] (Dequeuing i c') n).
Proof.
  induction k as [|k IH]; intros i c L; [exists c; reflexivity|]. cbn [repeat concat List.app m_run m_step m_phase m_events m_stops]. apply Nat.ltb_lt in L as L'. rewrite L'.
  destruct (IH i (c + modified e) L) as (c' & H). exists c'. exact H.
Qed.
Lemma own_runs : forall acts s s', Forall own acts -> running (m_phase s) -> m_run s acts = Some s' ->
  (running (m_phase s') /\ m_stops s' = m_stops s) \/ (m_phase s' = Gone /\ S (m_stops s') = m_stops s).
Proof.
  induction acts as [|a acts IH]; intros s s' F R E; cbn [m_run] in E; [injection E as <-; auto|].
  inversion F as [|x y O F']; subst. destruct (m_step s a) as [s1|] eqn:E1; [|discriminate].
  assert (D : m_phase s1 = Gone \/ m_phase s1 <> Gone) by (destruct (m_phase s1); [right|right|right|left|right]; congruence).
  destruct D as [D|D].
  - right. assert (A : acts = []).
    { destruct acts as [|b acts]; [reflexivity|]. exfalso. cbn [m_run] in E. destruct s1 as [q1 ph1 n1]. cbn [m_phase] in D. subst ph1.
      inversion F' as [|x y Ob _]; subst. destruct b; try destruct Ob; cbn in E; discriminate. }
    subst acts. cbn [m_run] in E. injection E as <-. split; [exact D|].
    destruct s as [q ph n]. destruct a; try destruct O; destruct ph; cbn [m_step m_phase m_events m_stops] in E1; try discriminate;
      try (destruct q as [|e q]; try discriminate); try (destruct (Nat.ltb i poll_limit); try discriminate);
      try (destruct n; [discriminate|]; injection E1 as <-; reflexivity); injection E1 as <-; cbn [m_phase] in D; try discriminate; destruct (Nat.ltb 0 count); discriminate.
  - destruct (stops_kept _ _ _ E1 O D) as [K1 K2]. destruct (IH _ _ F' (K2 R) E) as [[A B]|[A B]]; [left|right]; split; auto; congruence.
Qed.

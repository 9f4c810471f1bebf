(** * WatchFacts *)
From Coq Require Import Lia.
From Verif Require Import GoBase GoFacts PoolModel MonitorModel SpecMonitor MonitorFacts WatchModel SpecWatch.

(** ** Plain directories *)
Lemma filter_all {A} (f : A -> bool) l : (forall x, In x l -> f x = true) -> List.filter f l = l.
Proof. induction l as [|x l IH]; intros H; cbn; [reflexivity|]. rewrite H by now left. f_equal. apply IH. intros y Hy. apply H. now right. Qed.
Lemma plain_flat d : plain d -> list_file_paths d ".yaml" = map fst d.
Proof.
  intros [_ H]. unfold list_file_paths. rewrite filter_all; [reflexivity|]. intros [f c] Hf. destruct (H f (in_map fst _ _ Hf)) as [H1 H2]. cbn [fst]. now rewrite H1, H2.
Qed.
Lemma plain_rec d : plain d -> list_recursive d [".yaml"; ".yml"] = map fst d.
Proof.
  intros [_ H]. unfold list_recursive. rewrite filter_all; [reflexivity|]. intros [f c] Hf. destruct (H f (in_map fst _ _ Hf)) as [H1 H2]. cbn [fst existsb]. now rewrite H2.
Qed.
Lemma at_self d k : at_ [d] d k = d.
Proof. destruct k as [|[|k]]; reflexivity. Qed.
Lemma mget_in {V} (l : list (string * V)) f c : NoDup (map fst l) -> In (f, c) l -> mget f l = Some c.
Proof.
  induction l as [|[g x] l IH]; intros ND H; [destruct H|]. cbn [mget]. cbn [map fst] in ND. inversion ND as [|? ? N1 N2]; subst. destruct H as [E|H].
  - injection E as -> ->. now rewrite seqb_refl.
  - destruct (seqb f g) eqn:E; [|auto]. apply seqb_eq in E. subst g. destruct N1. exact (in_map fst _ _ H).
Qed.
Lemma opened_self d pick : NoDup (map fst d) -> opened [d] d pick (map fst d) = Some d.
Proof.
  intros ND. assert (K : forall l, incl l d -> opened [d] d pick (map fst l) = Some l).
  { induction l as [|[f c] l IH]; intros Hi; cbn [map fst opened]; [reflexivity|]. rewrite at_self, (mget_in d f c ND) by (apply Hi; now left). rewrite IH; [reflexivity|]. intros x Hx. apply Hi. now right. }
  apply K. intros x Hx. exact Hx.
Qed.
Lemma view_shows d k pick : plain d -> d <> [] ->
  shows (mkView (Some (list_file_paths (at_ [d] d k) ".yaml")) (fun f => mget f (at_ [d] d (pick f)))) (fun f => mget f d).
Proof.
  intros Hp Hd. exists (map fst d). cbn [v_paths v_sum]. rewrite at_self, (plain_flat d Hp). split; [reflexivity|]. split; [destruct d; [contradiction|discriminate]|]. split.
  - intros f Hf. rewrite at_self. split; [reflexivity|]. now apply mget_keys.
  - intros f Hf. destruct (mget f d) eqn:E; [|reflexivity]. destruct Hf. apply mget_keys. congruence.
Qed.
Definition has (pol : gomap string) (d : dir) : Prop := forall f, mget f pol = mget f d.
Lemma view_empty old : calculate_checksum old (mkView (Some []) (fun f => mget f (@nil (string * string)))) = ([], mkOut false true true).
Proof. reflexivity. Qed.

Lemma option_string_dec (a b : option string) : {a = b} + {a <> b}.
Proof. decide equality. apply string_dec. Qed.
Section W.
Context {P : Type}.
Variable compile : dir -> option P.
Notation step := (w_step compile).
Notation run := (w_run compile).
Definition yaml (s : wstate P) : Prop := existsb has_modified_yaml (w_pending s) = true.
Definition pol (s : wstate P) := m_policies (w_mon s).

Record inv (past : list dir) (s : wstate P) (lt : option dir) : Prop := mkInv {
  i_past : In (w_dir s) past;
  i_plain : Forall plain past;
  i_watched : w_watched s = true;
  i_nodup : NoDup (keys (pol s));
  i_known : (forall f, mget f (pol s) = None) \/ exists d, In d past /\ has (pol s) d;
  i_check : forall seen, w_phase s = PhCheck seen -> seen = [w_dir s] \/ 2 <= length seen;
  i_comp : forall paths seen, w_phase s = PhCompile paths seen -> paths <> [] /\ (seen = [w_dir s] \/ yaml s /\ (w_dir s <> [] -> ~ has (pol s) (w_dir s)));
  i_same : w_dir s <> [] -> has (pol s) (w_dir s) -> lt = Some (w_dir s) \/ w_phase s = PhList \/ exists paths seen, w_phase s = PhCompile paths seen;
  i_due : w_dir s = [] \/ yaml s \/ (exists seen, w_phase s = PhCheck seen) \/ w_phase s = PhList \/ (exists paths, w_phase s = PhCompile paths [w_dir s]) \/ lt = Some (w_dir s)
}.
Definition upd (lt : option dir) (tr : list (wlabel P)) : option dir := fold_left (fun x l => match l with LTried f _ => f | _ => x end) tr lt.

Lemma existsb_skip {A} (f : A -> bool) n l : existsb f l = true -> existsb f (firstn n l) = true \/ existsb f (skipn n l) = true.
Proof. intros H. rewrite <- (firstn_skipn n l), existsb_app in H. now apply orb_prop in H. Qed.
Lemma nonempty_some (d : dir) : d <> [] -> exists f, mget f d <> None.
Proof. destruct d as [|[f c] d]; intros H; [contradiction|]. exists f. cbn. now rewrite seqb_refl. Qed.
Lemma keep past s lt s' : inv past s lt -> w_dir s' = w_dir s -> w_watched s' = true -> w_phase s' = w_phase s -> w_pending s' = w_pending s -> pol s' = pol s -> inv past s' lt.
Proof. intros [? ? ? ? ? ? ? ? ?] E1 E2 E3 E4 E5. constructor; rewrite ?E1, ?E2, ?E3, ?E5; unfold yaml in *; rewrite ?E4; auto. Qed.

Lemma step_inv past s lt a s' tr : inv past s lt -> step s a = Some (s', tr) -> undisturbed tr ->
  (forall d evs, a = WChange d evs -> plain d /\ Forall (fun x => differ x d) past /\ existsb has_modified_yaml evs = true) ->
  inv (match a with WChange d _ => past ++ [d] | _ => past end) s' (upd lt tr).
Proof.
  intros H Hs Hu Ha. destruct a as [d evs| |n|k pick| |k pick|]; cbn [w_step] in Hs.
  - (* change *)
    destruct (Ha d evs eq_refl) as (Pd & Fd & Hy). destruct H as [I1 I2 I3 I4 I5 I6 I7 I8 I9]. rewrite I3 in Hs. injection Hs as <- <-. cbn [upd fold_left].
    assert (Y : existsb has_modified_yaml (w_pending s ++ evs) = true) by (rewrite existsb_app, Hy; apply orb_true_r).
    assert (N : ~ (d <> [] /\ has (pol s) d)).
    { intros [Hne Hh]. destruct I5 as [I5|(x & Hx & Hhx)].
      - destruct (nonempty_some d Hne) as (f & Hf). apply Hf. rewrite <- Hh. apply I5.
      - rewrite Forall_forall in Fd. destruct (Fd x Hx) as (f & Hf). apply Hf. rewrite <- Hh. symmetry. apply Hhx. }
    constructor; unfold pol, yaml; cbn [w_dir w_watched w_pending w_phase w_mon].
    + apply in_or_app. right. now left.
    + rewrite Forall_app. auto.
    + reflexivity.
    + exact I4.
    + destruct I5 as [I5|(x & Hx & Hhx)]; [auto|]. right. exists x. split; [apply in_or_app; now left|exact Hhx].
    + intros seen E. right. destruct (w_phase s) as [|seen0| |paths0 seen0] eqn:Eph; try discriminate. cbn [extend] in E. injection E as <-. rewrite app_length. cbn [length].
      destruct (I6 _ eq_refl) as [-> |L]; cbn [length]; lia.
    + intros paths seen E. destruct (w_phase s) as [|seen0| |paths0 seen0] eqn:Eph; try discriminate. cbn [extend] in E. injection E as <- <-. destruct (I7 _ _ eq_refl) as [Hp _]. split; [exact Hp|].
      right. split; [exact Y|]. intros Hne Hh. apply N. auto.
    + intros Hne Hh. destruct N. auto.
    + right. now left.
  - (* watch *) injection Hs as <- <-. apply (keep _ _ _ _ H); reflexivity.
  - (* batch *)
    destruct (w_phase s) eqn:Eph; try discriminate. destruct (firstn n (w_pending s)) as [|e evs] eqn:Ef; [discriminate|]. injection Hs as <- <-. cbn [upd fold_left].
    destruct H as [I1 I2 I3 I4 I5 I6 I7 I8 I9]. rewrite Eph in *.
    destruct (has_modified_yaml e || existsb has_modified_yaml evs) eqn:Ey; constructor; unfold pol, yaml in *; cbn [w_dir w_watched w_pending w_phase w_mon]; auto; try discriminate.
    + intros seen E. injection E as <-. now left.
    + intros Hne Hh. destruct (I8 Hne Hh) as [E|[E|(? & ? & E)]]; [auto|discriminate|discriminate].
    + right. right. left. eauto.
    + destruct I9 as [E|[E|[(? & E)|[E|[(? & E)|E]]]]]; try discriminate; try tauto.
      right. left. destruct (existsb_skip _ n _ E) as [Q|Q]; [rewrite Ef in Q; cbn [existsb] in Q; congruence|exact Q].
  - (* look *)
    destruct (w_phase s) as [|seen| |] eqn:Eph; try discriminate.
    destruct H as [I1 I2 I3 I4 I5 I6 I7 I8 I9]. rewrite Eph in *.
    assert (Es : seen = [w_dir s]).
    { destruct (I6 seen eq_refl) as [E|L]; [exact E|]. destruct (calculate_checksum _ _) as [pl o]. injection Hs as _ <-. exfalso. apply Hu. left. f_equal. apply Nat.eqb_neq. lia. }
    subst seen. assert (Pd : plain (w_dir s)) by (rewrite Forall_forall in I2; auto).
    destruct (w_dir s) as [|x0 d0] eqn:Ed.
    { rewrite at_self in Hs. cbn [list_file_paths List.filter map] in Hs. destruct (calculate_checksum _ _) as [pl o] eqn:Ec in Hs. cbn in Ec. injection Ec as <- <-. cbn [o_err o_nofiles andb] in Hs. injection Hs as <- <-.
      cbn [upd fold_left]. constructor; unfold pol, yaml in *; cbn [w_dir w_watched w_pending w_phase w_mon m_policies]; auto; try discriminate; try contradiction. constructor. }
    rewrite <- Ed in *. assert (Hne : w_dir s <> []) by (rewrite Ed; discriminate).
    pose proof (check_shows (pol s) _ _ I4 (view_shows (w_dir s) k pick Pd Hne)) as Hc. unfold pol in Hc.
    destruct (calculate_checksum (m_policies (w_mon s)) _) as [pl o]. destruct Hc as (N1 & G1 & E1 & E2 & Ch). rewrite E1, E2 in Hs. cbn [andb] in Hs. rewrite orb_false_r in Hs. injection Hs as <- <-.
    cbn [upd fold_left length Nat.eqb].
    assert (Hk : o_changes o = false -> has (m_policies (w_mon s)) (w_dir s)).
    { intros Eo f. destruct (option_string_dec (mget f (m_policies (w_mon s))) (mget f (w_dir s))) as [E|E]; [exact E|]. exfalso. assert (o_changes o = true) by (apply Ch; eauto). congruence. }
    constructor; unfold pol, yaml in *; cbn [w_dir w_watched w_pending w_phase w_mon m_policies]; auto.
    + right. exists (w_dir s). split; [exact I1|]. intros f. apply G1.
    + destruct (o_changes o); discriminate.
    + destruct (o_changes o); discriminate.
    + intros _ _. destruct (o_changes o) eqn:Eo; [auto|]. destruct (I8 Hne (Hk eq_refl)) as [E|[E|(? & ? & E)]]; [auto|discriminate|discriminate].
    + destruct (o_changes o) eqn:Eo; [tauto|]. destruct (I8 Hne (Hk eq_refl)) as [E|[E|(? & ? & E)]]; [tauto|discriminate|discriminate].
  - (* list *)
    destruct (w_phase s) as [| | |] eqn:Eph; try discriminate.
    destruct H as [I1 I2 I3 I4 I5 I6 I7 I8 I9]. rewrite Eph in *.
    assert (Pd : plain (w_dir s)) by (rewrite Forall_forall in I2; auto). rewrite (plain_flat _ Pd) in Hs.
    destruct (w_dir s) as [|x0 d0] eqn:Ed.
    { cbn [map] in Hs. injection Hs as <- <-. cbn [upd fold_left]. constructor; unfold pol, yaml in *; cbn [w_dir w_watched w_pending w_phase w_mon]; auto; try discriminate; try contradiction. }
    cbn [map] in Hs. injection Hs as <- <-. cbn [upd fold_left]. constructor; unfold pol, yaml in *; cbn [w_dir w_watched w_pending w_phase w_mon]; auto; try discriminate.
    + intros paths seen E. injection E as <- <-. split; [discriminate|now left].
    + intros _ _. right. right. eauto.
    + do 4 right. left. eauto.
  - (* compile *)
    destruct (w_phase s) as [| | |paths seen] eqn:Eph; try discriminate.
    destruct H as [I1 I2 I3 I4 I5 I6 I7 I8 I9]. rewrite Eph in *.
    assert (Pd : plain (w_dir s)) by (rewrite Forall_forall in I2; auto).
    set (found := opened seen (w_dir s) pick _) in Hs.
    assert (Em : m_policies (fst (check_for_update (w_mon s) (Some paths) match found with Some d => compile d | None => None end)) = m_policies (w_mon s)).
    { unfold check_for_update. destruct paths; [reflexivity|]. destruct (match found with Some d => compile d | None => None end); [|reflexivity]. cbn [fst]. match goal with |- context [if ?b then _ else _] => destruct b end; reflexivity. }
    cbv zeta in Hs. revert Em Hs. generalize (fst (check_for_update (w_mon s) (Some paths) match found with Some d => compile d | None => None end)). intros m' Em Hs.
    injection Hs as <- <-. cbn [upd fold_left].
    destruct (I7 _ _ eq_refl) as [Hp Hor].
    assert (Hf : seen = [w_dir s] -> found = Some (w_dir s)).
    { intros ->. unfold found. rewrite at_self, (plain_rec _ Pd). apply opened_self. apply Pd. }
    constructor; unfold pol, yaml in *; cbn [w_dir w_watched w_pending w_phase w_mon]; rewrite ?Em; auto; try discriminate.
    + intros Hne Hh. destruct Hor as [E|[_ Hn]]; [left; auto|]. destruct (Hn Hne Hh).
    + destruct Hor as [E|[Y _]]; [do 5 right; auto|auto].
  - (* take *)
    unfold mon_step in Hs. destruct (m_queue (w_mon s)) as [|p q]; [discriminate|]. injection Hs as <- <-. cbn [upd fold_left].
    apply (keep _ _ _ _ H); try reflexivity. exact (i_watched _ _ _ H).
Qed.

Lemma undisturbed_app (a b : list (wlabel P)) : undisturbed (a ++ b) -> undisturbed a /\ undisturbed b.
Proof. unfold undisturbed. intros H. split; intros Hi; apply H; apply in_or_app; auto. Qed.
Lemma run_inv acts : forall past s lt s' tr, inv past s lt -> run s acts = Some (s', tr) -> undisturbed tr -> reported acts ->
  Forall plain (changes acts) -> (forall d, In d past -> Forall (differ d) (changes acts)) -> never_back (changes acts) -> exists past', inv past' s' (upd lt tr).
Proof.
  induction acts as [|a acts IH]; intros past s lt s' tr H Hr Hu Hre Hp Hd Hn; cbn [w_run] in Hr.
  - injection Hr as <- <-. now exists past.
  - destruct (step s a) as [[s1 l]|] eqn:E; [|discriminate]. destruct (run s1 acts) as [[s2 l']|] eqn:E2; [|discriminate]. injection Hr as <- <-.
    apply undisturbed_app in Hu as [U1 U2]. unfold upd. rewrite fold_left_app.
    assert (Hre' : reported acts) by (intros d evs Hi; apply (Hre d evs); now right).
    change (changes (a :: acts)) with ((match a with WChange d _ => [d] | _ => [] end) ++ changes acts) in *.
    apply (IH (match a with WChange d _ => past ++ [d] | _ => past end) s1 _ s2 l'); try assumption.
    + apply (step_inv past s lt a s1 l H E U1). intros d evs ->. cbn [app] in Hp, Hd. inversion Hp; subst. split; [assumption|]. split.
      * rewrite Forall_forall. intros x Hx. specialize (Hd x Hx). now inversion Hd.
      * apply (Hre d evs). now left.
    + destruct a; cbn [app] in Hp; try assumption. now inversion Hp.
    + intros d0 Hd0. destruct a; cbn [app] in *; try (apply Hd; assumption). destruct Hn as [N1 N2]. apply in_app_or in Hd0 as [Hd0|[<-|[]]]; [|exact N1]. specialize (Hd d0 Hd0). now inversion Hd.
    + destruct a; cbn [app] in Hn; try assumption. apply Hn.
Qed.
Lemma start_inv d0 : plain d0 -> inv [d0] (mkW d0 true [] PhIdle (mkM [] [])) (Some d0).
Proof.
  intros Hp. constructor; unfold pol, yaml; cbn; auto; try discriminate.
  - constructor.
  - do 5 right. reflexivity.
Qed.
Lemma converges d0 acts s tr : plain d0 -> Forall plain (changes acts) -> never_back (d0 :: changes acts) -> reported acts ->
  run (w_start d0) (WWatch :: acts) = Some (s, tr) -> undisturbed tr -> at_rest s -> w_dir s <> [] -> last_tried d0 tr = Some (w_dir s).
Proof.
  intros P0 Pa [N1 N2] Hre Hr Hu [Hph Hpe] Hne. cbn [w_run w_step w_start w_dir w_watched w_pending w_phase w_mon] in Hr.
  destruct (run _ acts) as [[s2 l']|] eqn:E2; [|discriminate]. injection Hr as <- <-. cbn [app] in *.
  destruct (run_inv acts [d0] _ (Some d0) s2 l' (start_inv d0 P0) E2 Hu Hre Pa) as (past' & I).
  { intros d [<-|[]]. exact N1. } { exact N2. }
  destruct (i_due _ _ _ I) as [E|[E|[(? & E)|[E|[(? & E)|E]]]]]; unfold yaml in *; try congruence; exact E.
Qed.

(** ** What the engine works with *)
Definition lastp (p0 : P) (tr : list (wlabel P)) : P :=
  fold_left (fun x l => match l with LTried (Some d) true => match compile d with Some p => p | None => x end | _ => x end) tr p0.
Lemma last_dflt {A} (l : list A) x y : l <> [] -> last l x = last l y.
Proof. induction l as [|a l IH]; intros H; [contradiction|]. destruct l; [reflexivity|]. apply IH. discriminate. Qed.
Lemma step_queue s a s' tr p0 : step s a = Some (s', tr) -> forall x, last (m_queue (w_mon s)) x = p0 ->
  last (m_queue (w_mon s')) (in_force x tr) = lastp p0 tr.
Proof.
  intros Hs x Hx. destruct a as [d evs| |n|k pick| |k pick|]; cbn [w_step] in Hs.
  - injection Hs as <- <-. exact Hx.
  - injection Hs as <- <-. exact Hx.
  - destruct (w_phase s); try discriminate. destruct (firstn n (w_pending s)); [discriminate|]. injection Hs as <- <-. exact Hx.
  - destruct (w_phase s); try discriminate. destruct (calculate_checksum _ _) as [pl o]. injection Hs as <- <-. exact Hx.
  - destruct (w_phase s); try discriminate. destruct (list_file_paths _ _); injection Hs as <- <-; exact Hx.
  - destruct (w_phase s) as [| | |paths seen]; try discriminate. cbv zeta in Hs. set (found := opened seen (w_dir s) pick _) in Hs. clearbody found.
    remember (fst (check_for_update (w_mon s) (Some paths) match found with Some d => compile d | None => None end)) as m' eqn:Em.
    injection Hs as <- <-. cbn [w_mon in_force lastp fold_left]. unfold check_for_update in Em.
    assert (K : m' = w_mon s \/ exists d p, found = Some d /\ compile d = Some p /\ m_queue m' = m_queue (w_mon s) ++ [p]).
    { destruct paths; [left; exact Em|]. destruct found as [d|]; [|left; exact Em]. destruct (compile d) as [p|] eqn:Ec; [|left; exact Em]. cbn [fst] in Em.
      match type of Em with _ = (if ?b then _ else _) => destruct b end; [|left; exact Em]. right. exists d, p. subst m'. auto. }
    destruct K as [-> |(d & p & -> & Ec & Eq)].
    + rewrite Nat.ltb_irrefl. destruct found; exact Hx.
    + rewrite Eq, app_length. cbn [length]. assert (E : Nat.ltb (length (m_queue (w_mon s))) (length (m_queue (w_mon s)) + 1) = true) by (apply Nat.ltb_lt; lia).
      rewrite E, Ec. now rewrite last_last.
  - unfold mon_step in Hs. destruct (m_queue (w_mon s)) as [|p q]; [discriminate|]. injection Hs as <- <-. cbn [w_mon m_queue in_force lastp fold_left]. destruct q as [|p1 q]; [exact Hx|]. rewrite <- Hx. change (last (p :: p1 :: q) x) with (last (p1 :: q) x). apply last_dflt. discriminate.
Qed.
Lemma run_queue acts : forall s s' tr x p0, run s acts = Some (s', tr) -> last (m_queue (w_mon s)) x = p0 -> last (m_queue (w_mon s')) (in_force x tr) = lastp p0 tr.
Proof.
  induction acts as [|a acts IH]; intros s s' tr x p0 Hr Hx; cbn [w_run] in Hr.
  - injection Hr as <- <-. exact Hx.
  - destruct (step s a) as [[s1 l]|] eqn:E; [|discriminate]. destruct (run s1 acts) as [[s2 l']|] eqn:E2; [|discriminate]. injection Hr as <- <-.
    unfold in_force, lastp. rewrite !fold_left_app. apply (IH s1 s2 l' (in_force x l) (lastp p0 l) E2). exact (step_queue s a s1 l p0 E x Hx).
Qed.
Lemma tried_lastp p0 d0 tr : compile d0 = Some p0 -> room compile tr -> forall d p, last_tried d0 tr = Some d -> compile d = Some p -> lastp p0 tr = p.
Proof.
  intros H0. induction tr as [|l tr IH] using rev_ind; intros Hro d p Hl Hc.
  - cbn in *. congruence.
  - unfold last_tried, lastp in *. rewrite fold_left_app in *. cbn [fold_left] in *.
    assert (Hro' : room compile tr) by (intros x Hx; apply Hro; apply in_or_app; now left).
    destruct l as [u|f q|t]; [exact (IH Hro' d p Hl Hc)| |exact (IH Hro' d p Hl Hc)].
    subst f. destruct q; [now rewrite Hc|]. rewrite (Hro d) in Hc; [discriminate|]. apply in_or_app. right. now left.
Qed.
Lemma converges_in_force d0 acts s tr p0 p : plain d0 -> Forall plain (changes acts) -> never_back (d0 :: changes acts) -> reported acts ->
  run (w_start d0) (WWatch :: acts) = Some (s, tr) -> undisturbed tr -> at_rest s -> w_dir s <> [] ->
  compile d0 = Some p0 -> room compile tr -> compile (w_dir s) = Some p ->
  last (m_queue (w_mon s)) (in_force p0 tr) = p.
Proof.
  intros P0 Pa Hn Hre Hr Hu Ha Hne C0 Hro Cp. rewrite (run_queue _ _ _ _ p0 p0 Hr eq_refl).
  exact (tried_lastp p0 d0 tr C0 Hro (w_dir s) p (converges d0 acts s tr P0 Pa Hn Hre Hr Hu Ha Hne) Cp).
Qed.

(** ** The monitor comes to rest *)
Definition rank (ph : phase) : nat := match ph with PhIdle => 0 | PhCompile _ _ => 2 | PhList => 3 | PhCheck _ => 4 end.
Definition work_left (s : wstate P) : nat := 5 * length (w_pending s) + rank (w_phase s) + length (m_queue (w_mon s)).
Lemma step_less s a s' tr : own a -> step s a = Some (s', tr) -> work_left s' < work_left s.
Proof.
  intros Ho Hs. unfold work_left. destruct a as [d evs| |n|k pick| |k pick|]; try contradiction; cbn [w_step] in Hs.
  - destruct (w_phase s); try discriminate. destruct (firstn n (w_pending s)) as [|e evs] eqn:Ef; [discriminate|]. injection Hs as <- <-. cbn [w_pending w_phase w_mon rank].
    assert (L : length (w_pending s) = length (e :: evs) + length (skipn n (w_pending s))) by (rewrite <- Ef, <- app_length, firstn_skipn; reflexivity). cbn [length] in L.
    destruct (has_modified_yaml e || existsb has_modified_yaml evs); cbn [rank]; lia.
  - destruct (w_phase s); try discriminate. destruct (calculate_checksum _ _) as [pl o]. injection Hs as <- <-. cbn [w_pending w_phase w_mon rank m_queue].
    destruct (o_err o && o_nofiles o); [cbn [rank]; lia|]. destruct (o_changes o || o_err o); cbn [rank]; lia.
  - destruct (w_phase s); try discriminate. destruct (list_file_paths _ _); injection Hs as <- <-; cbn [w_pending w_phase w_mon rank]; lia.
  - destruct (w_phase s) as [| | |paths seen]; try discriminate. cbv zeta in Hs. set (comp := match opened _ _ _ _ with Some d => compile d | None => None end) in Hs.
    assert (L : length (m_queue (fst (check_for_update (w_mon s) (Some paths) comp))) <= length (m_queue (w_mon s)) + 1).
    { unfold check_for_update. destruct paths; [cbn; lia|]. destruct comp; [|cbn; lia]. cbn [fst]. match goal with |- context [if ?b then _ else _] => destruct b end; [|lia]. cbn [m_queue]. rewrite app_length. cbn. lia. }
    remember (fst (check_for_update (w_mon s) (Some paths) comp)) as m'. injection Hs as <- <-. cbn [w_pending w_phase w_mon rank]. lia.
  - unfold mon_step in Hs. destruct (m_queue (w_mon s)) as [|p q] eqn:Eq; [discriminate|]. injection Hs as <- <-. cbn [w_pending w_phase w_mon rank m_queue length]. lia.
Qed.
Lemma run_less acts : forall s s' tr, Forall own acts -> run s acts = Some (s', tr) -> length acts + work_left s' <= work_left s.
Proof.
  induction acts as [|a acts IH]; intros s s' tr Ho Hr; cbn [w_run] in Hr.
  - injection Hr as <- <-. cbn. lia.
  - destruct (step s a) as [[s1 l]|] eqn:E; [|discriminate]. destruct (run s1 acts) as [[s2 l']|] eqn:E2; [|discriminate]. injection Hr as <- <-. inversion Ho as [|? ? H1 H2]; subst.
    pose proof (step_less _ _ _ _ H1 E). pose proof (IH _ _ _ H2 E2). cbn [length]. lia.
Qed.
Lemma settles s : at_rest s /\ m_queue (w_mon s) = [] \/ exists a s' tr, own a /\ step s a = Some (s', tr).
Proof.
  assert (K : forall a, own a -> step s a = None \/ exists a s' tr, own a /\ step s a = Some (s', tr)).
  { intros a Ha. destruct (step s a) as [[s' tr]|] eqn:E; [right; exists a, s', tr; auto|now left]. }
  destruct (K WTake I) as [K1|K1]; [|auto]. destruct (K WList I) as [K2|K2]; [|auto]. destruct (K (WBatch 1) I) as [K3|K3]; [|auto].
  destruct (K (WLook 0 (fun _ => 0)) I) as [K4|K4]; [|auto]. destruct (K (WCompile 0 (fun _ => 0)) I) as [K5|K5]; [|auto]. left.
  cbn [w_step] in K2, K3, K4, K5. destruct (w_phase s) as [|seen| |paths seen] eqn:E.
  - split; [split; [exact E|]|].
    + destruct (w_pending s); [reflexivity|]. cbn [firstn] in K3. discriminate.
    + cbn [w_step] in K1. unfold mon_step in K1. destruct (m_queue (w_mon s)); [reflexivity|discriminate].
  - destruct (calculate_checksum _ _) in K4; discriminate.
  - destruct (list_file_paths _ _) in K2; discriminate.
  - discriminate.
Qed.

(** ** What goes wrong *)
Lemma asleep acts : forall s s' tr, no_change acts -> w_phase s = PhIdle -> w_pending s = [] -> run s acts = Some (s', tr) ->
  w_dir s' = w_dir s /\ w_phase s' = PhIdle /\ w_pending s' = [] /\ forall l, In l tr -> exists p, l = LTook p.
Proof.
  induction acts as [|a acts IH]; intros s s' tr Hn Hp Hq Hr; cbn [w_run] in Hr.
  - injection Hr as <- <-. repeat split; auto. intros l [].
  - destruct (step s a) as [[s1 l]|] eqn:E; [|discriminate]. destruct (run s1 acts) as [[s2 l']|] eqn:E2; [|discriminate]. injection Hr as <- <-.
    assert (Hn' : no_change acts) by (unfold no_change in *; destruct a; cbn in Hn; [discriminate|exact Hn..]).
    assert (K : w_dir s1 = w_dir s /\ w_phase s1 = PhIdle /\ w_pending s1 = [] /\ forall x, In x l -> exists p, x = LTook p).
    { destruct a as [d evs| |n|k pick| |k pick|]; cbn [w_step] in E; rewrite ?Hp, ?Hq in E; try discriminate.
      - injection E as <- <-. cbn. repeat split; auto. intros x [].
      - destruct n; discriminate.
      - unfold mon_step in E. destruct (m_queue (w_mon s)); [discriminate|]. injection E as <- <-. cbn. repeat split; auto. intros x [<-|[]]. eauto. }
    destruct K as (K1 & K2 & K3 & K4). destruct (IH s1 s2 l' Hn' K2 K3 E2) as (J1 & J2 & J3 & J4). split; [congruence|]. split; [exact J2|]. split; [exact J3|].
    intros x Hx. apply in_app_or in Hx as [Hx|Hx]; auto.
Qed.
Lemma took_keeps d0 (tr : list (wlabel P)) : (forall l, In l tr -> exists p, l = LTook p) -> last_tried d0 tr = Some d0.
Proof.
  unfold last_tried. generalize (Some d0). induction tr as [|l tr IH]; intros x H; [reflexivity|]. cbn [fold_left]. destruct (H l (or_introl eq_refl)) as (p & ->). apply IH. intros y Hy. apply H. now right.
Qed.
Lemma startup_window d0 d1 evs acts s tr : no_change acts -> run (w_start d0) (WChange d1 evs :: acts) = Some (s, tr) ->
  w_dir s = d1 /\ at_rest s /\ last_tried d0 tr = Some d0.
Proof.
  intros Hn Hr. cbn [w_run w_step w_start w_dir w_watched w_pending w_phase w_mon extend] in Hr. destruct (run _ acts) as [[s2 l']|] eqn:E2; [|discriminate]. injection Hr as <- <-. cbn [app].
  destruct (asleep acts _ _ _ Hn (eq_refl : w_phase (mkW d1 false [] PhIdle (mkM [] [])) = PhIdle) eq_refl E2) as (J1 & J2 & J3 & J4). split; [exact J1|]. split; [split; [exact J2|rewrite J3; reflexivity]|]. now apply took_keeps.
Qed.

(** One undisturbed look, one undisturbed compilation. *)
Lemma look_step s k pick : plain (w_dir s) -> w_dir s <> [] -> w_phase s = PhCheck [w_dir s] -> NoDup (keys (pol s)) ->
  exists pl, step s (WLook k pick) = Some (mkW (w_dir s) (w_watched s) (w_pending s) (if o_changes (snd (calculate_checksum (pol s) (dir_view (w_dir s)))) then PhList else PhIdle) (mkM pl (m_queue (w_mon s))), [LLook true]) /\
    NoDup (keys pl) /\ has pl (w_dir s) /\ (o_changes (snd (calculate_checksum (pol s) (dir_view (w_dir s)))) = true <-> exists f, mget f (pol s) <> mget f (w_dir s)).
Proof.
  intros Pd Hne Hph ND. cbn [w_step]. rewrite Hph, at_self.
  assert (Ev : forall g, (forall f, g f = mget f (w_dir s)) -> shows (mkView (Some (list_file_paths (w_dir s) ".yaml")) g) (fun f => mget f (w_dir s))).
  { intros g Hg. exists (map fst (w_dir s)). cbn [v_paths v_sum]. rewrite (plain_flat _ Pd). split; [reflexivity|]. split; [destruct (w_dir s); [contradiction|discriminate]|]. split.
    - intros f Hf. rewrite Hg. split; [reflexivity|]. now apply mget_keys.
    - intros f Hf. destruct (mget f (w_dir s)) eqn:E; [|reflexivity]. destruct Hf. apply mget_keys. congruence. }
  pose proof (check_shows (pol s) _ _ ND (Ev (fun f => mget f (at_ [w_dir s] (w_dir s) (pick f))) (fun f => f_equal (mget f) (at_self _ _)))) as H1.
  pose proof (check_shows (pol s) _ _ ND (Ev (fun f => mget f (w_dir s)) (fun f => eq_refl))) as H2. fold (dir_view (w_dir s)) in H2.
  unfold pol in *. destruct (calculate_checksum (m_policies (w_mon s)) (mkView _ _)) as [pl o]. destruct (calculate_checksum _ (dir_view (w_dir s))) as [pl2 o2]. cbn [snd].
  destruct H1 as (A1 & A2 & A3 & A4 & A5), H2 as (B1 & B2 & B3 & B4 & B5). exists pl. rewrite A3, A4. cbn [andb]. rewrite orb_false_r.
  assert (E : o_changes o = o_changes o2) by (apply Bool.eq_true_iff_eq; rewrite A5, B5; reflexivity).
  rewrite E. split; [reflexivity|]. split; [exact A1|]. split; [exact A2|]. exact B5.
Qed.
Lemma aba d0 A B evs : plain A -> plain B -> A <> [] -> B <> [] -> existsb has_modified_yaml evs = true ->
  let n := length evs in let w := fun _ : string => 0 in
  exists s tr, run (w_start d0) [WWatch; WChange A evs; WBatch n; WLook 0 w; WChange B evs; WList; WCompile 0 w; WChange A evs; WBatch (n + n); WLook 0 w] = Some (s, tr) /\
    undisturbed tr /\ at_rest s /\ w_dir s = A /\ last_tried d0 tr = Some B.
Proof.
  intros PA PB NA NB He n w.
  assert (Hev : exists e evs', evs = e :: evs') by (destruct evs; [discriminate|eauto]).
  cbn [w_run]. unfold w_start. cbn [w_step w_dir w_watched w_pending w_phase w_mon extend app].
  unfold n. rewrite firstn_all, skipn_all. destruct Hev as (e & evs' & Hev). rewrite Hev. rewrite <- Hev. rewrite He.
  set (s1 := mkW A true [] (PhCheck [A]) (mkM [] [])).
  destruct (look_step s1 0 w PA NA eq_refl) as (pl & E1 & N1 & H1 & C1); [constructor|]. 
  assert (Ech : o_changes (snd (calculate_checksum (pol s1) (dir_view (w_dir s1)))) = true).
  { apply C1. destruct (nonempty_some A NA) as (f & Hf). exists f. cbn. congruence. }
  rewrite Ech in E1. cbn [w_step] in E1. rewrite E1. clear E1. cbn [s1 w_dir w_watched w_pending w_phase w_mon m_queue extend app].
  rewrite (plain_flat B PB). assert (Hb : exists b bs, map fst B = b :: bs) by (destruct B as [|[b c] B']; [contradiction|cbn; eauto]). destruct Hb as (b & bs & Hb). rewrite Hb.
  cbn [w_dir w_watched w_pending w_phase w_mon m_queue extend app]. rewrite at_self, (plain_rec B PB). cbv zeta. match goal with |- context [opened [B] B ?w' ?l] => replace (opened [B] B w' l) with (Some B) by (symmetry; exact (opened_self B w' (proj1 PB))) end.
  set (m' := fst (check_for_update (mkM pl []) (Some (b :: bs)) (compile B))).
  assert (Em : m_policies m' = pl). { unfold m', check_for_update. destruct (compile B); [|reflexivity]. reflexivity. }
  cbn [w_dir w_watched w_pending w_phase w_mon m_queue extend app].
  rewrite <- app_length, firstn_all, skipn_all. rewrite Hev. cbn [app]. change (e :: evs' ++ e :: evs') with ((e :: evs') ++ (e :: evs')). rewrite <- Hev. rewrite existsb_app, He. cbn [orb].
  set (s2 := mkW A true [] (PhCheck [A]) m').
  destruct (look_step s2 0 w PA NA eq_refl) as (pl2 & E2 & N2 & H2 & C2); [unfold pol; cbn [s2 w_mon]; now rewrite Em|].
  assert (Ech2 : o_changes (snd (calculate_checksum (pol s2) (dir_view (w_dir s2)))) = false).
  { clear Ech C1. destruct (o_changes (snd (calculate_checksum (pol s2) (dir_view (w_dir s2))))); [|reflexivity]. destruct (proj1 C2 eq_refl) as (f & Hf). destruct Hf. unfold pol. cbn [s2 w_mon w_dir]. rewrite Em. apply H1. }
  rewrite Ech2 in E2. cbn [w_step] in E2. rewrite E2. clear E2.
  eexists. eexists. split; [reflexivity|]. cbn [app s2 w_dir w_watched w_pending w_phase w_mon]. split; [|split; [split; reflexivity|split; reflexivity]].
  intros [E|[E|[E|[]]]]; discriminate.
Qed.
End W.

(** ** The monitor's steps are those of [MonitorModel]: takes that fall between a look and the compilation come first. *)
Section R.
Context {P : Type}.
Variable compile : dir -> option P.
Lemma mon_run_snoc (es : list (mevent P)) : forall m e, let (m1, t1) := mon_run m es in let (m2, o) := mon_step m1 e in
  mon_run m (es ++ [e]) = (m2, t1 ++ match o with Some p => [p] | None => [] end).
Proof.
  induction es as [|e0 es IH]; intros m e; cbn [mon_run app].
  - destruct (mon_step m e) as [m2 [p|]]; reflexivity.
  - destruct (mon_step m e0) as [m1 o1]. specialize (IH m1 e). destruct (mon_run m1 es) as [m2 t2]. destruct (mon_step m2 e) as [m3 o3]. rewrite IH. destruct o1; reflexivity.
Qed.
Definition linked (ph : phase) (m0 m : mstate P) : Prop :=
  match ph with
  | PhIdle | PhCheck _ => m0 = m
  | PhList | PhCompile _ _ => exists v, let (pol, o) := calculate_checksum (m_policies m0) v in
      m = mkM pol (m_queue m0) /\ (o_err o && o_nofiles o = false) /\ (o_changes o || o_err o = true)
  end.
Definition yev : list fsevent := [mkEv op_write ".yaml"].
Lemma linked_extend ph d m0 m : linked ph m0 m -> linked (extend ph d) m0 m.
Proof. destruct ph; exact (fun H => H). Qed.
Variable ms : mstate P.
Lemma refines acts : forall s s' tr es t m0, w_run compile s acts = Some (s', tr) -> mon_run ms es = (m0, t) -> linked (w_phase s) m0 (w_mon s) ->
  exists es' m0', mon_run ms es' = (m0', t ++ takes tr) /\ linked (w_phase s') m0' (w_mon s').
Proof.
  induction acts as [|a acts IH]; intros s s' tr es t m0 Hr He Hl; cbn [w_run] in Hr.
  - injection Hr as <- <-. exists es, m0. cbn. rewrite app_nil_r. auto.
  - destruct (w_step compile s a) as [[s1 l]|] eqn:E; [|discriminate]. destruct (w_run compile s1 acts) as [[s2 l']|] eqn:E2; [|discriminate]. injection Hr as <- <-.
    assert (K : exists es1 m1, mon_run ms es1 = (m1, t ++ takes l) /\ linked (w_phase s1) m1 (w_mon s1)).
    { destruct a as [d evs| |n|k pick| |k pick|]; cbn [w_step] in E.
      - injection E as <- <-. exists es, m0. cbn [takes flat_map w_phase w_mon]. rewrite app_nil_r. split; [exact He|]. now apply linked_extend.
      - injection E as <- <-. exists es, m0. cbn [takes flat_map w_phase w_mon]. rewrite app_nil_r. auto.
      - destruct (w_phase s); try discriminate. destruct (firstn n (w_pending s)) as [|e evs]; [discriminate|]. injection E as <- <-. exists es, m0. cbn [takes flat_map w_phase w_mon]. rewrite app_nil_r. split; [exact He|].
        destruct (has_modified_yaml e || existsb has_modified_yaml evs); exact Hl.
      - destruct (w_phase s) as [|seen| |]; try discriminate. cbn [linked] in Hl. subst m0.
        set (v := mkView _ _) in E. pose proof (mon_run_snoc es ms (EFiles yev v None None)) as Hm. rewrite He in Hm. cbn [mon_step] in Hm. replace (existsb has_modified_yaml yev) with true in Hm by reflexivity.
        destruct (calculate_checksum (m_policies (w_mon s)) v) as [pl o] eqn:Ec. injection E as <- <-. cbn [takes flat_map w_phase w_mon].
        destruct (o_err o && o_nofiles o) eqn:E1.
        + exists (es ++ [EFiles yev v None None]), (mkM pl (m_queue (w_mon s))). split; [exact Hm|reflexivity].
        + destruct (o_changes o || o_err o) eqn:E3.
          * exists es, (w_mon s). rewrite app_nil_r. split; [exact He|]. exists v. rewrite Ec. auto.
          * exists (es ++ [EFiles yev v None None]), (mkM pl (m_queue (w_mon s))). split; [exact Hm|reflexivity].
      - destruct (w_phase s) as [| | |]; try discriminate. destruct (list_file_paths (w_dir s) ".yaml") as [|f fs] eqn:Ef.
        + injection E as <- <-. destruct Hl as (v & Hl). destruct (calculate_checksum (m_policies m0) v) as [pl o] eqn:Ec. destruct Hl as (Hm & H1 & H2).
          pose proof (mon_run_snoc es ms (EFiles yev v (Some []) None)) as Hs. rewrite He in Hs. cbn [mon_step] in Hs. replace (existsb has_modified_yaml yev) with true in Hs by reflexivity. rewrite Ec, H1, H2 in Hs. cbn [check_for_update fst] in Hs.
          eexists. eexists. split; [exact Hs|]. cbn [w_phase w_mon linked]. auto.
        + injection E as <- <-. exists es, m0. cbn [takes flat_map w_phase w_mon]. rewrite app_nil_r. split; [exact He|]. exact Hl.
      - destruct (w_phase s) as [| | |paths seen]; try discriminate. cbv zeta in E. set (comp := match opened _ _ _ _ with Some d => compile d | None => None end) in E.
        remember (fst (check_for_update (w_mon s) (Some paths) comp)) as m' eqn:Em'. injection E as <- <-. destruct Hl as (v & Hl). destruct (calculate_checksum (m_policies m0) v) as [pl o] eqn:Ec. destruct Hl as (Hm & H1 & H2).
        pose proof (mon_run_snoc es ms (EFiles yev v (Some paths) comp)) as Hs. rewrite He in Hs. cbn [mon_step] in Hs. replace (existsb has_modified_yaml yev) with true in Hs by reflexivity. rewrite Ec, H1, H2 in Hs. rewrite <- Hm, <- Em' in Hs.
        eexists. eexists. split; [exact Hs|]. reflexivity.
      - pose proof (mon_run_snoc es ms ETake) as Hs. rewrite He in Hs. cbn [mon_step] in Hs, E.
        assert (Eq : m_queue m0 = m_queue (w_mon s)).
        { unfold linked in Hl. destruct (w_phase s); try (now subst); destruct Hl as (v & Hl); destruct (calculate_checksum (m_policies m0) v); destruct Hl as (Hl & _); rewrite Hl; reflexivity. }
        rewrite Eq in Hs. destruct (m_queue (w_mon s)) as [|p q] eqn:Eqq; [discriminate|]. injection E as <- <-. cbn [takes flat_map app w_phase w_mon]. eexists. eexists. split; [exact Hs|].
        unfold linked in *. destruct (w_phase s); try (now subst); destruct Hl as (v & Hl); exists v; cbn [m_policies m_queue]; destruct (calculate_checksum (m_policies m0) v); destruct Hl as (Hl & Hl2); rewrite Hl; auto. }
    destruct K as (es1 & m1 & K1 & K2). destruct (IH s1 s2 l' es1 _ m1 E2 K1 K2) as (es' & m0' & J1 & J2). exists es', m0'. split; [|exact J2]. rewrite J1. unfold takes. rewrite flat_map_app, app_assoc. reflexivity.
Qed.
End R.
Lemma refines_start {P} (compile : dir -> option P) d0 p0 acts s tr : w_run compile (w_start d0) acts = Some (s, tr) -> w_phase s = PhIdle ->
  exists es, mon_run (mkM [] [p0]) es = (w_mon s, p0 :: takes tr).
Proof.
  intros Hr Hp. destruct (refines compile (mkM [] [p0]) acts _ _ _ [ETake] [p0] (mkM [] []) Hr eq_refl eq_refl) as (es & m0 & J1 & J2). rewrite Hp in J2. cbn in J2. subst m0. exists es. exact J1.
Qed.

Lemma reported_b acts : forallb (fun a => match a with WChange _ e => existsb has_modified_yaml e | _ => true end) acts = true -> reported acts.
Proof. intros H d evs Hi. rewrite forallb_forall in H. exact (H _ Hi). Qed.
Lemma undisturbed_b {P} (tr : list (wlabel P)) : forallb (fun l => match l with LLook b => b | _ => true end) tr = true -> undisturbed tr.
Proof. intros H Hi. rewrite forallb_forall in H. discriminate (H _ Hi). Qed.
Lemma room_b {P} (compile : dir -> option P) (tr : list (wlabel P)) :
  forallb (fun l => match l with LTried (Some d) false => match compile d with Some _ => false | None => true end | _ => true end) tr = true -> room compile tr.
Proof. intros H d Hi. rewrite forallb_forall in H. specialize (H _ Hi). cbn in H. destruct (compile d); [discriminate|reflexivity]. Qed.

(** * ReaderFacts: proofs about the tables and the reader. *)
From Coq Require Import Lia.
From Verif Require Import GoBase ReaderModel SpecReader.

Lemma snoc_inv {A} (s : list A) r a x b : s ++ [r] = a ++ x :: b ->
  (b = [] /\ a = s /\ x = r) \/ exists b', b = b' ++ [r] /\ s = a ++ x :: b'.
Proof.
  intros H. destruct b as [|y b] using rev_ind.
  - left. apply app_inj_tail in H as [-> ->]. auto.
  - right. clear IHb. exists b. rewrite app_comm_cons, app_assoc in H. apply app_inj_tail in H as [-> ->]. auto.
Qed.
Lemma oid_eqb_eq a b : oid_eqb a b = true <-> a = b.
Proof.
  unfold oid_eqb. rewrite andb_true_iff, !Z.eqb_eq. destruct a, b; cbn. split; [intros [-> ->]; auto|intros [=]; auto].
Qed.
Lemma oid_eqb_refl a : oid_eqb a a = true.
Proof. now apply oid_eqb_eq. Qed.

(** ** Latest and Since *)
Lemma Latest_nil {A B} (f : A -> option B) : Latest f [] None.
Proof. left. split; auto. intros ? []. Qed.
Lemma Latest_snoc {A B} (f : A -> option B) s a o :
  Latest f s o -> Latest f (s ++ [a]) (match f a with Some b => Some b | None => o end).
Proof.
  intros H. destruct (f a) as [b|] eqn:E.
  - right. exists s, a, []. repeat split; auto. discriminate. intros ? [].
  - destruct H as [[-> H]|(s1 & x & s2 & -> & Hx & Hn & H)].
    + left. split; auto. intros y [Hy|[<-|[]]]%in_app_or; auto.
    + right. exists s1, x, (s2 ++ [a]). rewrite <- app_assoc. repeat split; auto.
      intros y [Hy|[<-|[]]]%in_app_or; auto.
Qed.
Lemma Latest_fun {A B} (f : A -> option B) s : forall o o', Latest f s o -> Latest f s o' -> o = o'.
Proof.
  intros o o' [[-> H]|(s1 & x & s2 & E & Hx & Hn & H)] [[-> H']|(s1' & x' & s2' & E' & Hx' & Hn' & H')]; auto.
  - exfalso. apply Hn'. rewrite <- Hx'. apply H. rewrite E'. apply in_elt.
  - exfalso. apply Hn. rewrite <- Hx. apply H'. rewrite E. apply in_elt.
  - subst s. revert s1' E'. induction s1 as [|y s1 IH]; intros [|z s1'] E'; cbn in E'.
    + injection E' as <- <-. congruence.
    + injection E' as <- ->. exfalso. apply Hn'. rewrite <- Hx'. apply H, in_elt.
    + injection E' as <- <-. exfalso. apply Hn. rewrite <- Hx. apply H', in_elt.
    + injection E' as <- E'. eauto.
Qed.
Lemma Since_nil {A} (rst : A -> Prop) : Since rst [] [].
Proof. split; auto. Qed.
Lemma Since_snoc {A} (rst : A -> Prop) h s a : Since rst h s -> ~ rst a -> Since rst (h ++ [a]) (s ++ [a]).
Proof.
  intros [H1 H2] Ha. split.
  - intros x [Hx|[<-|[]]]%in_app_or; auto.
  - destruct H2 as [->|(h1 & b & Hb & ->)]; auto. right. exists h1, b. split; auto. now rewrite <- app_assoc.
Qed.
Lemma Since_reset {A} (rst : A -> Prop) h a : rst a -> Since rst (h ++ [a]) [].
Proof. intros Ha. split. intros ? []. right. exists h, a. auto. Qed.
Lemma Since_fun {A} (rst : A -> Prop) h : forall s s', Since rst h s -> Since rst h s' -> s = s'.
Proof.
  induction h as [|x h IH] using rev_ind; intros s s' [H1 H2] [H1' H2'].
  - destruct H2 as [<-|(h1 & b & Hb & E)], H2' as [<-|(h1' & b' & Hb' & E')]; auto; exfalso; eapply app_cons_not_nil; eauto.
  - destruct s as [|y s _] using rev_ind; (destruct s' as [|y' s' _] using rev_ind); auto.
    + exfalso. destruct H2 as [E|(h1 & b & Hb & E)]; [now apply app_eq_nil in E as [_ ?]|]. apply app_inj_tail in E as [_ <-].
      assert (Hy : x = y') by (destruct H2' as [E|(h2 & c & Hc & E)]; [apply app_inj_tail in E; tauto|rewrite app_comm_cons, app_assoc in E; apply app_inj_tail in E; tauto]).
      subst y'. apply (H1' x); auto. apply in_elt.
    + exfalso. destruct H2' as [E|(h1 & b & Hb & E)]; [now apply app_eq_nil in E as [_ ?]|]. apply app_inj_tail in E as [_ <-].
      assert (Hy : x = y) by (destruct H2 as [E|(h2 & c & Hc & E)]; [apply app_inj_tail in E; tauto|rewrite app_comm_cons, app_assoc in E; apply app_inj_tail in E; tauto]).
      subst y. apply (H1 x); auto. apply in_elt.
    + assert (P : forall s y, (forall a, In a (s ++ [y]) -> ~ rst a) -> h ++ [x] = s ++ [y] \/ (exists h1 a, rst a /\ h ++ [x] = h1 ++ a :: s ++ [y]) -> x = y /\ Since rst h s).
      { clear. intros s y H1 H2. assert (Hi : forall a, In a s -> ~ rst a) by (intros a Ha; apply H1, in_or_app; auto).
        destruct H2 as [E|(h1 & a & Ha & E)].
        - apply app_inj_tail in E as [-> ->]. split; auto. split; auto.
        - rewrite app_comm_cons, app_assoc in E. apply app_inj_tail in E as [-> ->]. split; auto. split; eauto. }
      destruct (P _ _ H1 H2) as [-> Hs], (P _ _ H1' H2') as [-> Hs']. f_equal. auto.
Qed.
Lemma Since_total {A} (rst : A -> Prop) (dec : forall a, rst a \/ ~ rst a) h : exists s, Since rst h s.
Proof.
  induction h as [|x h [s IH]] using rev_ind. { exists []. apply Since_nil. }
  destruct (dec x). { exists []. now apply Since_reset. } exists (s ++ [x]). now apply Since_snoc.
Qed.

(** ** Tables agree with what is in force *)
Definition slots_of (id : oid) (t : tables) : slots :=
  match mget oid_eqb id (t_proc t) with Some p => p | None => mkSlots None None None end.
Section Agree.
Context {A : Type} (an : announces A).
Record Agree (s : list A) (t : tables) : Prop := {
  ag_cont : forall id, Latest (a_cont an id) s (get_cont id t);
  ag_pod : forall id, Latest (a_pod an id) s (get_pod id t);
  ag_file : forall id, Latest (a_file an id) s (get_file id t);
  ag_mod : forall id, Latest (a_proc an id MODIFIED) s (s_modified (slots_of id t));
  ag_cre : forall id, Latest (a_proc an id CREATED) s (s_created (slots_of id t));
  ag_reu : forall id, Latest (a_proc an id REUP) s (s_reup (slots_of id t)) }.
Lemma Agree_nil : Agree [] t_new.
Proof. constructor; intros; apply Latest_nil. Qed.

Lemma PIF_fun s id o o' : ProcInForce an s id o -> ProcInForce an s id o' -> o = o'.
Proof.
  intros (m & c & r & Hm & Hc & Hr & Ho) (m' & c' & r' & Hm' & Hc' & Hr' & Ho').
  rewrite (Latest_fun _ _ _ _ Hm' Hm), (Latest_fun _ _ _ _ Hc' Hc), (Latest_fun _ _ _ _ Hr' Hr) in Ho'.
  destruct m, c; congruence.
Qed.
Lemma agree_proc s t id : Agree s t -> ProcInForce an s id (get_proc id t).
Proof.
  intros H. exists (s_modified (slots_of id t)), (s_created (slots_of id t)), (s_reup (slots_of id t)).
  split; [apply H|]. split; [apply H|]. split; [apply H|].
  unfold get_proc, slots_of. destruct (mget oid_eqb id (t_proc t)) as [[c m r]|]; cbn; [|reflexivity].
  destruct m, c; reflexivity.
Qed.
Lemma agree_proc_iff s t id o : Agree s t -> (ProcInForce an s id o <-> o = get_proc id t).
Proof. intros H. split; [|intros ->; now apply agree_proc]. intros Ho. eapply PIF_fun; eauto. now apply agree_proc. Qed.

(** An element that announces nothing. *)
Definition quiet (a : A) : Prop :=
  (forall id, a_cont an id a = None) /\ (forall id, a_pod an id a = None) /\ (forall id, a_file an id a = None) /\
  forall id st, a_proc an id st a = None.
(** The tables up to the ancestry cache. *)
Definition same_tab (t t' : tables) : Prop :=
  t_cont t' = t_cont t /\ t_pod t' = t_pod t /\ t_proc t' = t_proc t /\ t_file t' = t_file t.
Lemma Agree_same s t t' : Agree s t -> same_tab t t' -> Agree s t'.
Proof.
  intros H (E1 & E2 & E3 & E4). constructor; intros id; unfold get_cont, get_pod, get_file, slots_of;
  rewrite ?E1, ?E2, ?E3, ?E4; apply H.
Qed.
Lemma Latest_quiet {B} (f : A -> option B) s a o : f a = None -> Latest f s o -> Latest f (s ++ [a]) o.
Proof. intros E H. apply (Latest_snoc f s a) in H. now rewrite E in H. Qed.
Lemma Agree_quiet s t a : Agree s t -> quiet a -> Agree (s ++ [a]) t.
Proof. intros H (Q1 & Q2 & Q3 & Q4). constructor; intros id; apply Latest_quiet; auto; apply H. Qed.
Lemma Agree_cont s t a id c :
  Agree s t -> (forall id', a_cont an id' a = if seqb id id' then Some c else None) ->
  (forall i, a_pod an i a = None) -> (forall i, a_file an i a = None) -> (forall i st, a_proc an i st a = None) ->
  Agree (s ++ [a]) (set_cont id c t).
Proof.
  intros H Ha Q1 Q2 Q3. constructor; intros i; try (apply Latest_quiet; auto; apply H).
  pose proof (Latest_snoc _ s a _ (ag_cont _ _ H i)) as L. rewrite Ha in L.
  unfold get_cont, set_cont, mset. cbn [t_cont mget]. destruct (seqb id i); exact L.
Qed.
Lemma Agree_pod s t a id c :
  Agree s t -> (forall id', a_pod an id' a = if seqb id id' then Some c else None) ->
  (forall i, a_cont an i a = None) -> (forall i, a_file an i a = None) -> (forall i st, a_proc an i st a = None) ->
  Agree (s ++ [a]) (set_pod id c t).
Proof.
  intros H Ha Q1 Q2 Q3. constructor; intros i; try (apply Latest_quiet; auto; apply H).
  pose proof (Latest_snoc _ s a _ (ag_pod _ _ H i)) as L. rewrite Ha in L.
  unfold get_pod, set_pod, mset. cbn [t_pod mget]. destruct (seqb id i); exact L.
Qed.
Lemma Agree_file s t a id c :
  Agree s t -> (forall id', a_file an id' a = if seqb id id' then Some c else None) ->
  (forall i, a_cont an i a = None) -> (forall i, a_pod an i a = None) -> (forall i st, a_proc an i st a = None) ->
  Agree (s ++ [a]) (set_file id c t).
Proof.
  intros H Ha Q1 Q2 Q3. constructor; intros i; try (apply Latest_quiet; auto; apply H).
  pose proof (Latest_snoc _ s a _ (ag_file _ _ H i)) as L. rewrite Ha in L.
  unfold get_file, set_file, mset. cbn [t_file mget]. destruct (seqb id i); exact L.
Qed.
Lemma Agree_proc s t t' a id p :
  Agree s t -> set_proc id p t = Ok t' ->
  (forall id' st, a_proc an id' st a = if oid_eqb id id' && Z.eqb (p_state p) st then Some p else None) ->
  (forall i, a_cont an i a = None) -> (forall i, a_pod an i a = None) -> (forall i, a_file an i a = None) ->
  Agree (s ++ [a]) t'.
Proof.
  intros H E Ha Q1 Q2 Q3. unfold set_proc in E. fold (slots_of id t) in E.
  destruct (set_slot p (slots_of id t)) as [sl| | |] eqn:Es; cbn [rbind] in E; try discriminate. injection E as <-.
  assert (S : forall i, slots_of i (mkTables (t_cont t) (t_pod t) (mset id sl (t_proc t)) (t_file t) (t_ptree t)) = if oid_eqb id i then sl else slots_of i t).
  { intros i. unfold slots_of, mset. cbn [t_proc mget]. destruct (oid_eqb id i); reflexivity. }
  constructor; intros i; try (apply Latest_quiet; auto; apply H); rewrite S.
  all: [> pose proof (Latest_snoc _ s a _ (ag_mod _ _ H i)) as L | pose proof (Latest_snoc _ s a _ (ag_cre _ _ H i)) as L | pose proof (Latest_snoc _ s a _ (ag_reu _ _ H i)) as L ]; rewrite Ha in L.
  all: destruct (oid_eqb id i) eqn:Ei; cbn [andb] in L; [apply oid_eqb_eq in Ei; subst i|exact L].
  all: unfold set_slot in Es; unfold MODIFIED, CREATED, REUP in *.
  all: destruct (Z.eqb_spec (p_state p) 0) as [e|]; [try rewrite e in L; cbn in L; injection Es as <-; exact L|].
  all: destruct (Z.eqb_spec (p_state p) 1) as [e|]; [try rewrite e in L; cbn in L; injection Es as <-; exact L|].
  all: destruct (Z.eqb_spec (p_state p) 2) as [e|]; [try rewrite e in L; cbn in L; injection Es as <-; exact L|discriminate].
Qed.

(** ** Ancestry *)
Lemma prov_sound s t : Agree s t -> forall n id l, proc_prov n id t = Some l -> Ancestry an s id l.
Proof.
  intros H. induction n as [|n IH]; intros id l E; [discriminate|]. cbn [proc_prov] in E.
  pose proof (agree_proc _ _ id H) as P. destruct (get_proc id t) as [p|]; [|injection E as <-; now constructor].
  destruct (p_poid p) as [q|] eqn:Eq; [|injection E as <-; now constructor].
  destruct (proc_prov n q t) eqn:E'; [|discriminate]. injection E as <-. eapply An_parent; eauto.
Qed.
Lemma prov_complete s t : Agree s t -> forall id l, Ancestry an s id l -> exists n, proc_prov n id t = Some l.
Proof.
  intros H id l A0. induction A0 as [id P|id p P E|id p q l P E _ [n IH]];
  apply (agree_proc_iff _ _ _ _ H) in P.
  - exists 1. cbn. now rewrite <- P.
  - exists 1. cbn. now rewrite <- P, E.
  - exists (S n). cbn [proc_prov]. now rewrite <- P, E, IH.
Qed.
Lemma prov_mono t : forall n m id l, n <= m -> proc_prov n id t = Some l -> proc_prov m id t = Some l.
Proof.
  induction n as [|n IH]; intros [|m] id l Hm E; try discriminate; [lia|]. cbn [proc_prov] in *.
  destruct (get_proc id t) as [p|]; auto. destruct (p_poid p) as [q|]; auto.
  destruct (proc_prov n q t) as [l'|] eqn:E'; [|discriminate]. rewrite (IH m q l'); auto. lia.
Qed.
Lemma Ancestry_fun s t : Agree s t -> forall id l l', Ancestry an s id l -> Ancestry an s id l' -> l = l'.
Proof.
  intros H id l l' H1 H2. destruct (prov_complete _ _ H _ _ H1) as [n1 E1], (prov_complete _ _ H _ _ H2) as [n2 E2].
  apply (prov_mono t _ (n1 + n2)) in E1; [|lia]. apply (prov_mono t _ (n1 + n2)) in E2; [|lia]. congruence.
Qed.

Definition next (t : tables) (id : oid) : option oid := match get_proc id t with Some p => p_poid p | None => None end.
Fixpoint path (t : tables) (id : oid) (l : list oid) : Prop :=
  match l with [] => True | x :: l' => x = id /\ exists y, next t id = Some y /\ path t y l' end.
Lemma none_path t : forall n id, proc_prov n id t = None -> exists l, length l = n /\ path t id l.
Proof.
  induction n as [|n IH]; intros id E. { exists []. cbn. auto. } cbn [proc_prov] in E.
  destruct (get_proc id t) as [p|] eqn:Ep; [|discriminate]. destruct (p_poid p) as [q|] eqn:Eq; [|discriminate].
  destruct (proc_prov n q t) eqn:E'; [discriminate|]. destruct (IH q E') as (l & Hl & P).
  exists (id :: l). cbn. split; [lia|]. split; auto. exists q. unfold next. rewrite Ep. auto.
Qed.
Lemma next_above s t id q : Agree s t -> next t id = Some q -> Above an s id q.
Proof.
  intros H E. unfold next in E. destruct (get_proc id t) as [p|] eqn:Ep; [|discriminate].
  apply (Ab_parent an s id p q); auto. rewrite <- Ep. now apply agree_proc.
Qed.
Lemma above_next s t id q r : Agree s t -> next t id = Some q -> Above an s q r -> Above an s id r.
Proof.
  intros H E Hr. unfold next in E. destruct (get_proc id t) as [p|] eqn:Ep; [|discriminate].
  apply (Ab_more an s id p q r); auto. rewrite <- Ep. now apply agree_proc.
Qed.
Lemma path_split s t : Agree s t -> forall l1 id x l2, path t id (l1 ++ x :: l2) ->
  (id = x /\ l1 = [] \/ Above an s id x) /\ path t x (x :: l2).
Proof.
  intros H. induction l1 as [|y l1 IH]; intros id x l2 P; cbn [app path] in P.
  - destruct P as [-> P]. cbn. auto.
  - destruct P as [-> (z & E & P)]. destruct (IH _ _ _ P) as [[[-> ->]|Hz] P']; split; auto; right.
    + now apply next_above with t.
    + now apply above_next with t z.
Qed.
Lemma path_known t : forall l id, path t id l -> incl l (map fst (t_proc t)).
Proof.
  induction l as [|x l IH]; intros id P z Hz; [destruct Hz|]. cbn in P. destruct P as [-> (y & E & P)].
  destruct Hz as [<-|Hz]; [|eapply IH; eauto].
  unfold next, get_proc in E. destruct (mget oid_eqb id (t_proc t)) as [sl|] eqn:Em; [|discriminate].
  clear -Em. induction (t_proc t) as [|[k v] m IH]; [discriminate|]. cbn in Em |- *.
  destruct (oid_eqb k id) eqn:Ek; [left; now apply oid_eqb_eq|right; auto].
Qed.
Lemma not_nodup (l : list oid) : ~ NoDup l -> exists l1 x l2 l3, l = l1 ++ x :: l2 ++ x :: l3.
Proof.
  induction l as [|x l IH]; intros H. { exfalso. apply H. constructor. }
  destruct (in_dec (fun a b : oid => match oid_eqb a b as c return (oid_eqb a b = c -> _) with true => fun e => left (proj1 (oid_eqb_eq a b) e) | false => fun e => right (fun e' => Bool.diff_false_true (eq_trans (eq_sym e) (proj2 (oid_eqb_eq a b) e'))) end eq_refl) x l) as [Hi|Hn].
  - apply in_split in Hi as (l2 & l3 & ->). exists [], x, l2, l3. reflexivity.
  - destruct IH as (l1 & y & l2 & l3 & ->); [intros Hd; apply H; now constructor|]. exists (x :: l1), y, l2, l3. reflexivity.
Qed.
Lemma prov_cycle s t id : Agree s t -> proc_prov (prov_fuel t) id t = None ->
  exists q, (q = id \/ Above an s id q) /\ Above an s q q.
Proof.
  intros H E. destruct (none_path _ _ _ E) as (l & Hl & P).
  assert (Hd : ~ NoDup l).
  { intros Hd. pose proof (NoDup_incl_length Hd (path_known _ _ _ P)) as Hle. unfold prov_fuel in Hl. rewrite map_length in Hle. lia. }
  destruct (not_nodup _ Hd) as (l1 & x & l2 & l3 & ->).
  destruct (path_split _ _ H _ _ _ _ P) as [Hx P']. exists x. split. { destruct Hx as [[-> _]|]; auto. }
  change (path t x ((x :: l2) ++ x :: l3)) in P'. destruct (path_split _ _ H _ _ _ _ P') as [[[_ Hf]|]]; [discriminate|auto].
Qed.
(** Along a cycle the recursion never ends. *)
Lemma above_ancestry s t id q : Agree s t -> Above an s id q -> forall l, Ancestry an s id l ->
  exists l', Ancestry an s q l' /\ length l' < length l.
Proof.
  intros H Hq. induction Hq as [id p q P E|id p q r P E _ IH]; intros l Hl; inversion Hl; subst;
  match goal with H1 : ProcInForce _ _ _ ?o |- _ => pose proof (PIF_fun _ _ _ _ P H1) as X end; try discriminate; try (injection X as <-); try congruence.
  - match goal with H1 : p_poid p = Some ?q', H2 : Ancestry _ _ ?q' ?l |- _ => assert (q' = q) by congruence; subst q'; exists l; split; auto; cbn; lia end.
  - match goal with H1 : p_poid p = Some ?q', H2 : Ancestry _ _ ?q' ?l |- _ => assert (q' = q) by congruence; subst q'; destruct (IH _ H2) as (l' & Hl' & Hlt); exists l'; split; auto; cbn; lia end.
Qed.
Lemma cycle_none s t id q : Agree s t -> (q = id \/ Above an s id q) -> Above an s q q -> forall n, proc_prov n id t = None.
Proof.
  intros H Hq Hc n. destruct (proc_prov n id t) as [l|] eqn:E; auto. exfalso.
  apply (prov_sound _ _ H) in E.
  assert (Hl : exists l, Ancestry an s q l).
  { destruct Hq as [->|Hq]; eauto. destruct (above_ancestry _ _ _ _ H Hq _ E) as (l' & ? & _). eauto. }
  destruct Hl as [l0 Hl]. clear E Hq. revert l0 Hl. induction l0 as [l0 IH] using (well_founded_induction (Wf_nat.well_founded_ltof _ (@length process))).
  intros Hl. destruct (above_ancestry _ _ _ _ H Hc _ Hl) as (l' & Hl' & Hlt). apply (IH l'); auto.
Qed.
Lemma fuel_enough s t id l : Agree s t -> (Ancestry an s id l <-> proc_prov (prov_fuel t) id t = Some l).
Proof.
  intros H. split; [|now apply prov_sound]. intros Hl.
  destruct (proc_prov (prov_fuel t) id t) as [l'|] eqn:E.
  - f_equal. eapply Ancestry_fun; eauto. eapply prov_sound; eauto.
  - exfalso. destruct (prov_cycle _ _ _ H E) as (q & Hq & Hc). destruct (prov_complete _ _ H _ _ Hl) as [n En].
    rewrite (cycle_none _ _ _ _ H Hq Hc n) in En. discriminate.
Qed.
End Agree.

(** * ReaderFacts2: histories of table operations, and the reader. *)
From Coq Require Import Lia.
From Verif Require Import GoBase ReaderModel SpecReader ReaderFacts.

Lemma get_ptree_ok id t t' l : get_ptree id t = Ok (t', l) ->
  same_tab t t' /\ mget oid_eqb id (t_ptree t') = Some l /\
  (forall i, i <> id -> mget oid_eqb i (t_ptree t') = mget oid_eqb i (t_ptree t)) /\
  (mget oid_eqb id (t_ptree t) = Some l \/ mget oid_eqb id (t_ptree t) = None /\ proc_prov (prov_fuel t) id t = Some l).
Proof.
  unfold get_ptree. destruct (mget oid_eqb id (t_ptree t)) as [l0|] eqn:E.
  - intros [= <- <-]. repeat split; auto.
  - destruct (proc_prov (prov_fuel t) id t) as [l0|] eqn:E'; [|discriminate]. intros [= <- <-].
    repeat split; auto; unfold mset; cbn [t_ptree mget].
    + now rewrite oid_eqb_refl.
    + intros i Hi. destruct (oid_eqb id i) eqn:Ei; auto. apply oid_eqb_eq in Ei. congruence.
Qed.
Lemma get_ptree_res id t : (exists t' l, get_ptree id t = Ok (t', l)) \/ get_ptree id t = NoFuel.
Proof. unfold get_ptree. destruct (mget oid_eqb id (t_ptree t)); eauto. destruct (proc_prov _ _ _); eauto. Qed.

(** ** Tables *)
Lemma t_run_app os : forall t os', t_run t (os ++ os') = let* t' := t_run t os in t_run t' os'.
Proof. induction os as [|o os IH]; intros t os'; cbn; auto. destruct (t_apply t o); cbn; auto. Qed.
Record TInv (s : list top) (t : tables) : Prop := {
  ti_agree : Agree ann_top s t;
  ti_memo : forall id, match mget oid_eqb id (t_ptree t) with
    | Some l => exists s1 s2, s = s1 ++ TPtree id :: s2 /\ ~ In (TPtree id) s1 /\ Ancestry ann_top s1 id l
    | None => ~ In (TPtree id) s end }.
Lemma TInv_memo_quiet s t t' o : TInv s t -> t_ptree t' = t_ptree t -> (forall id, o <> TPtree id) ->
  forall id, match mget oid_eqb id (t_ptree t') with
    | Some l => exists s1 s2, s ++ [o] = s1 ++ TPtree id :: s2 /\ ~ In (TPtree id) s1 /\ Ancestry ann_top s1 id l
    | None => ~ In (TPtree id) (s ++ [o]) end.
Proof.
  intros H E Ho id. rewrite E. pose proof (ti_memo _ _ H id) as M. destruct (mget oid_eqb id (t_ptree t)) as [l|].
  - destruct M as (s1 & s2 & -> & M1 & M2). exists s1, (s2 ++ [o]). rewrite <- app_assoc. auto.
  - intros [Hi|[Hi|[]]]%in_app_or; auto. now apply (Ho id).
Qed.
Lemma t_step os s t o t' : Since is_reset os s -> TInv s t -> t_apply t o = Ok t' ->
  exists s', Since is_reset (os ++ [o]) s' /\ TInv s' t'.
Proof.
  intros Hs H E. destruct o as [id c|id c|id p|id f|id|]; cbn [t_apply] in E.
  6:{ injection E as <-. exists []. split; [now apply Since_reset|]. constructor. apply Agree_nil. intros id; cbn. auto. }
  - injection E as <-. exists (s ++ [TCont id c]). split; [apply Since_snoc; [auto|discriminate]|]. constructor.
    + apply (Agree_cont ann_top); try reflexivity. apply H.
    + apply (TInv_memo_quiet s t); auto. discriminate.
  - injection E as <-. exists (s ++ [TPod id c]). split; [apply Since_snoc; [auto|discriminate]|]. constructor.
    + apply (Agree_pod ann_top); try reflexivity. apply H.
    + apply (TInv_memo_quiet s t); auto. discriminate.
  - exists (s ++ [TProc id p]). split; [apply Since_snoc; [auto|discriminate]|]. constructor.
    + eapply (Agree_proc ann_top); try reflexivity; [apply H|exact E].
    + apply (TInv_memo_quiet s t); auto; [|discriminate].
      unfold set_proc in E. destruct (set_slot _ _); cbn in E; try discriminate. now injection E as <-.
  - injection E as <-. exists (s ++ [TFile id f]). split; [apply Since_snoc; [auto|discriminate]|]. constructor.
    + apply (Agree_file ann_top); try reflexivity. apply H.
    + apply (TInv_memo_quiet s t); auto. discriminate.
  - destruct (get_ptree id t) as [[t1 l]| | |] eqn:Eg; cbn in E; try discriminate. injection E as <-.
    destruct (get_ptree_ok _ _ _ _ Eg) as (Hsame & Hm & Ho & Hl).
    exists (s ++ [TPtree id]). split; [apply Since_snoc; [auto|discriminate]|]. constructor.
    + eapply Agree_same; [|exact Hsame]. apply Agree_quiet; [apply H|]. repeat split.
    + intros i. destruct (oid_eqb id i) eqn:Ei.
      * apply oid_eqb_eq in Ei. subst i. rewrite Hm. destruct Hl as [Hl|[Hl Hp]].
        -- pose proof (ti_memo _ _ H id) as M. rewrite Hl in M. destruct M as (s1 & s2 & -> & M1 & M2).
           exists s1, (s2 ++ [TPtree id]). rewrite <- app_assoc. auto.
        -- pose proof (ti_memo _ _ H id) as M. rewrite Hl in M. exists s, []. repeat split; auto.
           eapply prov_sound; [apply H|exact Hp].
      * rewrite Ho by (intros ->; rewrite oid_eqb_refl in Ei; discriminate).
        pose proof (ti_memo _ _ H i) as M. destruct (mget oid_eqb i (t_ptree t)) as [l'|].
        -- destruct M as (s1 & s2 & -> & M1 & M2). exists s1, (s2 ++ [TPtree id]). rewrite <- app_assoc. auto.
        -- intros [Hi|[Hi|[]]]%in_app_or; auto. injection Hi as ->. rewrite oid_eqb_refl in Ei. discriminate.
Qed.
Lemma is_reset_dec o : is_reset o \/ ~ is_reset o.
Proof. unfold is_reset. destruct o; auto; right; discriminate. Qed.
Lemma t_inv os : forall t, t_run t_new os = Ok t -> exists s, Since is_reset os s /\ TInv s t.
Proof.
  induction os as [|o os IH] using rev_ind; intros t E.
  - injection E as <-. exists []. split; [apply Since_nil|]. constructor. apply Agree_nil. intros id. cbn. auto.
  - rewrite t_run_app in E. destruct (t_run t_new os) as [t1| | |]; cbn in E; try discriminate.
    destruct (IH t1 eq_refl) as (s & Hs & H). destruct (t_apply t1 o) as [t2| | |] eqn:Eo; cbn in E; try discriminate.
    injection E as <-. eapply t_step; eauto.
Qed.
Lemma t_inv_s os s t : t_run t_new os = Ok t -> Since is_reset os s -> TInv s t.
Proof. intros E Hs. destruct (t_inv _ _ E) as (s' & Hs' & H). now rewrite (Since_fun _ _ _ _ Hs Hs'). Qed.

Lemma tables_spec os s t : t_run t_new os = Ok t -> Since is_reset os s -> forall id oi fi,
  Latest (a_cont ann_top id) s (get_cont id t) /\ Latest (a_pod ann_top id) s (get_pod id t) /\
  Latest (a_file ann_top fi) s (get_file fi t) /\ ProcInForce ann_top s oi (get_proc oi t).
Proof.
  intros E Hs id oi fi. pose proof (ti_agree _ _ (t_inv_s _ _ _ E Hs)) as H.
  split; [apply H|]. split; [apply H|]. split; [apply H|]. now apply agree_proc.
Qed.
Lemma tables_total os :
  (forall id, ~ In (TPtree id) os) ->
  (forall id p, In (TProc id p) os -> p_state p = CREATED \/ p_state p = MODIFIED \/ p_state p = REUP) ->
  exists t, t_run t_new os = Ok t.
Proof.
  generalize t_new. induction os as [|o os IH]; intros t H1 H2; cbn; eauto.
  assert (Ht : exists t', t_apply t o = Ok t').
  { destruct o as [| |id p| |id|]; cbn; eauto; [|destruct (H1 id); cbn; auto].
    destruct (H2 id p) as [e|[e|e]]; [cbn; auto|..]; unfold set_proc, set_slot; rewrite e; cbn; eauto. }
  destruct Ht as [t' ->]. cbn. apply IH.
  - intros id Hi. apply (H1 id). now right.
  - intros id p Hi. apply (H2 id). now right.
Qed.
Lemma ptree_lookup os s t id t' l : t_run t_new os = Ok t -> Since is_reset os s -> get_ptree id t = Ok (t', l) ->
  exists s1 s2, s ++ [TPtree id] = s1 ++ TPtree id :: s2 /\ ~ In (TPtree id) s1 /\ Ancestry ann_top s1 id l.
Proof.
  intros E Hs Eg. pose proof (t_inv_s _ _ _ E Hs) as H. destruct (get_ptree_ok _ _ _ _ Eg) as (_ & _ & _ & [Hl|[Hl Hp]]);
  pose proof (ti_memo _ _ H id) as M; rewrite Hl in M.
  - destruct M as (s1 & s2 & -> & M1 & M2). exists s1, (s2 ++ [TPtree id]). rewrite <- app_assoc. auto.
  - exists s, []. repeat split; auto. eapply prov_sound; [apply H|exact Hp].
Qed.
Lemma ptree_current os s t id l : t_run t_new os = Ok t -> Since is_reset os s -> ~ In (TPtree id) s ->
  (Ancestry ann_top s id l <-> exists t', get_ptree id t = Ok (t', l)).
Proof.
  intros E Hs Hn. pose proof (t_inv_s _ _ _ E Hs) as H. rewrite (fuel_enough _ _ _ _ _ (ti_agree _ _ H)).
  unfold get_ptree. pose proof (ti_memo _ _ H id) as M. destruct (mget oid_eqb id (t_ptree t)) as [l0|].
  - destruct M as (s1 & s2 & -> & _). destruct Hn. apply in_elt.
  - destruct (proc_prov (prov_fuel t) id t) as [l0|]; split; [intros [= ->]; eauto|intros [t' [= _ ->]]; auto|discriminate|intros [? ?]; discriminate].
Qed.
Lemma ptree_diverges os s t id : t_run t_new os = Ok t -> Since is_reset os s -> ~ In (TPtree id) s ->
  (get_ptree id t = NoFuel <-> exists q, (q = id \/ Above ann_top s id q) /\ Above ann_top s q q) /\
  (get_ptree id t = NoFuel -> forall n, proc_prov n id t = None).
Proof.
  intros E Hs Hn. pose proof (t_inv_s _ _ _ E Hs) as H. pose proof (ti_agree _ _ H) as Ha.
  assert (X : get_ptree id t = NoFuel <-> proc_prov (prov_fuel t) id t = None).
  { unfold get_ptree. pose proof (ti_memo _ _ H id) as M. destruct (mget oid_eqb id (t_ptree t)) as [l0|].
    - destruct M as (s1 & s2 & -> & _). destruct Hn. apply in_elt.
    - destruct (proc_prov (prov_fuel t) id t); split; congruence. }
  rewrite X. split; [split|].
  - now apply prov_cycle.
  - intros (q & Hq & Hc). eapply cycle_none; eauto.
  - intros Ep n. destruct (prov_cycle _ _ _ _ Ha Ep) as (q & Hq & Hc). eapply cycle_none; eauto.
Qed.

(** ** The reader *)
Lemma reader_run_app ent rs : forall s rs', reader_run ent s (rs ++ rs') =
  let* (s1, d1) := reader_run ent s rs in let* (s2, d2) := reader_run ent s1 rs' in Ok (s2, d1 ++ d2).
Proof.
  induction rs as [|r rs IH]; intros s rs'; cbn.
  - destruct (reader_run ent s rs') as [[]| | |]; reflexivity.
  - destruct (reader_step ent s r) as [[s1 d1]| | |]; cbn; auto. rewrite IH.
    destruct (reader_run ent s1 rs) as [[s2 d2]| | |]; cbn; auto.
    destruct (reader_run ent s2 rs') as [[s3 d3]| | |]; cbn; auto. now rewrite app_assoc.
Qed.

Definition Memo (ent : bool) (s : list rec) (t : tables) : Prop :=
  forall id, match mget oid_eqb id (t_ptree t) with
    | Some l => exists s1 r1 s2, s = s1 ++ r1 :: s2 /\ asks ent s1 id r1 /\
        (forall a x b, s1 = a ++ x :: b -> ~ asks ent a id x) /\ Ancestry ann_rec (seen s1 r1) id l
    | None => forall a x b, s = a ++ x :: b -> ~ asks ent a id x end.
Lemma Memo_quiet ent s t t' r : Memo ent s t -> t_ptree t' = t_ptree t -> (forall id, ~ asks ent s id r) -> Memo ent (s ++ [r]) t'.
Proof.
  intros H E Hr id. rewrite E. specialize (H id). destruct (mget oid_eqb id (t_ptree t)) as [l|].
  - destruct H as (s1 & r1 & s2 & -> & H). exists s1, r1, (s2 ++ [r]). rewrite <- app_assoc. auto.
  - intros a x b [(_ & -> & ->)|(b' & _ & ->)]%snoc_inv; auto. apply (H a x b'); auto.
Qed.
Lemma Memo_ask ent s t t1 t2 r o l :
  Memo ent s t -> Agree ann_rec (seen s r) t1 -> t_ptree t1 = t_ptree t -> get_ptree o t1 = Ok (t2, l) ->
  (forall id, asks ent s id r <-> id = o) -> Memo ent (s ++ [r]) t2 /\ FirstAncestry ent s r o l.
Proof.
  intros H Ha E Eg Hr. destruct (get_ptree_ok _ _ _ _ Eg) as (_ & Hm & Ho & Hl). rewrite E in *.
  assert (Hf : FirstAncestry ent s r o l).
  { pose proof (H o) as M. destruct Hl as [Hl|[Hl Hp]]; rewrite Hl in M.
    - destruct M as (s1 & r1 & s2 & -> & M). exists s1, r1, (s2 ++ [r]). rewrite <- app_assoc. auto.
    - exists s, r, []. split; [reflexivity|]. split; [now apply Hr|]. split; [exact M|]. eapply prov_sound; eauto. }
  split; auto. intros id. destruct (oid_eqb o id) eqn:Ei.
  - apply oid_eqb_eq in Ei. subst id. rewrite Hm. destruct Hf as (s1 & r1 & s2 & Hf). exists s1, r1, s2. exact Hf.
  - assert (Hne : id <> o) by (intros ->; rewrite oid_eqb_refl in Ei; discriminate). rewrite Ho by auto.
    specialize (H id). destruct (mget oid_eqb id (t_ptree t)) as [l0|].
    + destruct H as (s1 & r1 & s2 & -> & H). exists s1, r1, (s2 ++ [r]). rewrite <- app_assoc. auto.
    + intros a x b [(_ & -> & ->)|(b' & _ & ->)]%snoc_inv; [rewrite Hr; auto|]. apply (H a x b'); auto.
Qed.

Record RInv (ent : bool) (h s : list rec) (st : reader) : Prop := {
  ri_since : Since is_header h s;
  ri_hdr : Latest header_of h (r_hdr st);
  ri_agree : Agree ann_rec s (r_tab st);
  ri_memo : Memo ent s (r_tab st) }.
Lemma RInv_init ent : RInv ent [] [] reader_init.
Proof. constructor. apply Since_nil. apply Latest_nil. apply Agree_nil. intros id. cbn. intros [|] x b; discriminate. Qed.

(** The delivery a record makes, by kind. *)
Definition Delivered (ent : bool) (h s : list rec) (r : rec) (d : list delivery) : Prop :=
  if deliverable ent r then exists x c, d = [(x, c)] /\ x_rec x = tidied_rec r /\ call_for (tidied_rec r) c /\
    match r with
    | RProcEvt id _ | RNetFlow id _ | RFileFlow id _ _ | RFileEvt id _ _ _ => EventCtx ent h s r id x
    | RProc p => ProcessCtx h s p x
    | RFile f => FileCtx h s f x
    | _ => PlainCtx h r x
    end
  else d = [].

Lemma hdr_quiet h r o : (forall x, r <> RHeader x) -> Latest header_of h o -> Latest header_of (h ++ [r]) o.
Proof. intros H L. apply (Latest_snoc _ _ r) in L. destruct r; auto. now destruct (H h0). Qed.
Lemma not_header r : (forall x, r <> RHeader x) -> ~ is_header r.
Proof. intros H [x ->]. now apply (H x). Qed.
Lemma event_quiet r id : subject r = Some id -> quiet ann_rec r.
Proof. destruct r; try discriminate; repeat split. Qed.
Lemma event_asks ent s r id : subject r = Some id -> forall i, asks ent s i r <-> i = id /\ exists p, ProcInForce ann_rec s id (Some p).
Proof.
  intros E i. split.
  - intros [[E' P]|[_ (p & -> & _)]]; [|discriminate]. rewrite E in E'. injection E' as ->. auto.
  - intros [-> P]. left. auto.
Qed.
Lemma event_seen s r id : subject r = Some id -> seen s r = s.
Proof. destruct r; try discriminate; reflexivity. Qed.

Lemma pcp ent h s st r id t1 pd c p l :
  RInv ent h s st -> subject r = Some id -> pod_cont_proc id (r_tab st) = Ok (t1, (pd, c, p, l)) ->
  RInv ent (h ++ [r]) (s ++ [r]) (mkReader (r_hdr st) t1) /\ Agree ann_rec s t1 /\
  ProcInForce ann_rec s id p /\
  match p with Some p => ContOf ann_rec s (p_cont p) c | None => c = None end /\ PodOf ann_rec s c pd /\
  match p, l with Some _, Some l => FirstAncestry ent s r id l | None, None => True | _, _ => False end.
Proof.
  intros H Hs E. unfold pod_cont_proc in E. pose proof (agree_proc _ _ _ id (ri_agree _ _ _ _ H)) as P.
  assert (Hnh : forall x, r <> RHeader x) by (intros x ->; discriminate).
  destruct (get_proc id (r_tab st)) as [p0|].
  - destruct (get_ptree id (r_tab st)) as [[t2 l0]| | |] eqn:Eg; cbn in E; try discriminate. injection E as <- <- <- <- <-.
    destruct (get_ptree_ok _ _ _ _ Eg) as (Hsame & _).
    assert (Ha : Agree ann_rec s t2) by (eapply Agree_same; [apply H|auto]).
    destruct (Memo_ask ent s (r_tab st) (r_tab st) t2 r id l0) as [Hm Hf]; auto; try apply H.
    { rewrite (event_seen _ _ _ Hs). apply H. }
    { intros i. rewrite (event_asks _ _ _ _ Hs). split; [tauto|]. intros ->. eauto. }
    split; [constructor; cbn|].
    + apply Since_snoc; [apply H|now apply not_header].
    + apply hdr_quiet; [auto|apply H].
    + apply Agree_quiet; auto. eapply event_quiet; eauto.
    + exact Hm.
    + split; [exact Ha|]. split; [exact P|]. split.
      { unfold ContOf, cont_of_proc. destruct (p_cont p0); auto. apply Ha. }
      split; [|exact Hf]. unfold PodOf, pod_of_cont. destruct (cont_of_proc p0 t2) as [c0|]; auto. destruct (c_pod c0); auto. apply Ha.
  - injection E as <- <- <- <- <-. split; [constructor; cbn|].
    + apply Since_snoc; [apply H|now apply not_header].
    + apply hdr_quiet; [auto|apply H].
    + apply Agree_quiet; [apply H|]. eapply event_quiet; eauto.
    + apply (Memo_quiet ent s (r_tab st)); auto; [apply H|]. intros i. rewrite (event_asks _ _ _ _ Hs).
      intros [_ [p Hp]]. pose proof (PIF_fun _ _ _ _ _ P Hp). discriminate.
    + split; [apply H|]. split; [exact P|]. cbn. auto.
Qed.

Lemma plain_ctx ent h s st r : RInv ent h s st -> PlainCtx h r (mkCtx r (r_hdr st) None None None None None None None).
Proof. intros H. constructor; cbn; auto. apply H. repeat split. Qed.

Lemma noask ent s r id : subject r = None -> (forall p, r <> RProc p) -> ~ asks ent s id r.
Proof. intros H1 H2 [[E _]|[_ (p & E & _)]]; [congruence|]. now apply (H2 p). Qed.

Lemma reader_step_inv ent h s st r st' d : RInv ent h s st -> reader_step ent st r = Ok (st', d) ->
  (exists s', RInv ent (h ++ [r]) s' st') /\ Delivered ent h s r d.
Proof.
  intros H E. pose proof (plain_ctx ent h s st r H) as Hp. destruct st as [hdr t]. cbn [r_hdr r_tab] in *.
  assert (Q : forall t', subject r = None -> (forall p, r <> RProc p) -> (forall x, r <> RHeader x) -> t_ptree t' = t_ptree t -> Agree ann_rec (s ++ [r]) t' ->
     exists s', RInv ent (h ++ [r]) s' (mkReader hdr t')).
  { intros t' Hs Hq Hh Ht Ha. exists (s ++ [r]). constructor; cbn; auto.
    - apply Since_snoc; [apply H|now apply not_header].
    - apply hdr_quiet; [auto|]. apply H.
    - apply (Memo_quiet ent s t); auto; [apply H|]. intros id. now apply noask. }
  destruct r as [x|c|p|n|p|f|o n|o n|o f n|o f nf n|n|n|n]; cbn [reader_step r_tab r_hdr] in E; cbv zeta in E.
  - injection E as <- <-. split.
    + exists []. constructor; cbn.
      * apply Since_reset. now exists x.
      * exact (Latest_snoc header_of h (RHeader x) _ (ri_hdr _ _ _ _ H)).
      * apply Agree_nil.
      * intros id. cbn. intros [|] y b; discriminate.
    + unfold Delivered, deliverable. destruct ent; auto. eexists _, _. repeat split; auto. apply Hp.
  - injection E as <- <-. split.
    + apply Q; try reflexivity; try discriminate. apply (Agree_cont ann_rec); try reflexivity. apply H.
    + unfold Delivered, deliverable. destruct ent; auto. eexists _, _. repeat split; auto. apply Hp.
  - injection E as <- <-. split.
    + apply Q; try reflexivity; try discriminate. apply (Agree_pod ann_rec); try reflexivity. apply H.
    + unfold Delivered, deliverable. destruct ent; auto. eexists _, _. repeat split; auto. apply Hp.
  - injection E as <- <-. split.
    + apply Q; try reflexivity; try discriminate. apply Agree_quiet; [apply H|]. repeat split.
    + unfold Delivered, deliverable. eexists _, _. repeat split; auto. apply Hp.
  - cbv zeta in E. change (p_oid (trimmed p)) with (p_oid p) in E.
    destruct (set_proc (p_oid p) (trimmed p) t) as [t1| | |] eqn:Es; cbn [rbind] in E; try discriminate.
    assert (Ha : Agree ann_rec (s ++ [RProc p]) t1).
    { apply (Agree_proc ann_rec s t t1 (RProc p) (p_oid p) (trimmed p)); auto. apply H. }
    assert (Ht : t_ptree t1 = t_ptree t).
    { unfold set_proc in Es. destruct (set_slot _ _); cbn in Es; try discriminate. now injection Es as <-. }
    destruct ent.
    + change (p_oid (trimmed p)) with (p_oid p) in E. destruct (get_ptree (p_oid p) t1) as [[t2 l]| | |] eqn:Eg; cbn [rbind] in E; try discriminate. injection E as <- <-.
      destruct (get_ptree_ok _ _ _ _ Eg) as (Hsame & _).
      assert (Ha2 : Agree ann_rec (s ++ [RProc p]) t2) by (eapply Agree_same; eauto).
      destruct (Memo_ask true s t t1 t2 (RProc p) (p_oid p) l) as [Hm Hf]; auto; [apply H| |].
      { intros i. split; [intros [[X _]|[_ (p' & X & <-)]]; [discriminate|now injection X as <-]|]. intros ->. right. eauto. }
      split.
      * exists (s ++ [RProc p]). constructor; cbn; auto.
        -- apply Since_snoc; [apply H|]. apply not_header. discriminate.
        -- apply hdr_quiet; [discriminate|]. apply H.
      * unfold Delivered, deliverable. eexists _, _. split; [reflexivity|]. split; [reflexivity|]. split; [reflexivity|].
        assert (Hl : forall B (f : rec -> option B) o, f (RProc p) = None -> Latest f (s ++ [RProc p]) o -> Latest f s o).
        { clear. intros B f o E L. destruct L as [[-> L]|(s1 & a & s2 & Es & Ea & Hn & L)].
          - left. split; auto. intros a Ha. apply L, in_or_app. auto.
          - apply snoc_inv in Es as [(-> & -> & ->)|(b' & -> & ->)]; [congruence|]. right. exists s1, a, b'. repeat split; auto.
            intros x Hx. apply L, in_or_app. auto. }
        constructor; cbn; auto.
        -- apply H.
        -- unfold ContOf, cont_of_proc; cbn [p_cont trimmed]. destruct (p_cont p); auto. apply Hl; [reflexivity|]. apply Ha2.
        -- unfold PodOf, pod_of_cont. destruct (cont_of_proc (trimmed p) t2) as [c0|]; auto. destruct (c_pod c0); auto. apply Hl; [reflexivity|]. apply Ha2.
        -- eauto.
    + injection E as <- <-. split; [|reflexivity]. exists (s ++ [RProc p]). constructor; cbn; auto.
      * apply Since_snoc; [apply H|]. apply not_header. discriminate.
      * apply hdr_quiet; [discriminate|]. apply H.
      * apply (Memo_quiet false s t); auto; [apply H|]. intros id [[X _]|[X _]]; discriminate.
  - assert (Ha : Agree ann_rec (s ++ [RFile f]) (set_file (f_oid f) f t)).
    { apply (Agree_file ann_rec); try reflexivity. apply H. }
    destruct ent.
    + destruct (cont_of_file f (set_file (f_oid f) f t)) as [c| | |] eqn:Ec; cbn [rbind] in E; try discriminate. injection E as <- <-.
      split; [apply Q; auto; discriminate|]. unfold Delivered, deliverable. eexists _, _. split; [reflexivity|]. split; [reflexivity|]. split; [reflexivity|].
      constructor; cbn; auto.
      * apply H.
      * unfold cont_of_file in Ec. unfold ContOf. destruct (f_cont f); try discriminate; injection Ec as <-; auto. apply H.
      * unfold PodOf, pod_of_cont. destruct c as [c0|]; auto. destruct (c_pod c0); auto. apply H.
    + injection E as <- <-. split; [|reflexivity]. apply Q; auto; discriminate.
  - destruct (pod_cont_proc o t) as [[t1 [[[pd c] pr] l]]| | |] eqn:Ep; cbn [rbind] in E; try discriminate. injection E as <- <-.
    destruct (pcp _ _ _ _ (RProcEvt o n) o _ _ _ _ _ H eq_refl Ep) as (Hi & Ha & H1 & H2 & H3 & H4). split; [eauto|].
    eexists _, _. split; [reflexivity|]. split; [reflexivity|]. split; [reflexivity|]. constructor; cbn; auto. apply H.
  - destruct (pod_cont_proc o t) as [[t1 [[[pd c] pr] l]]| | |] eqn:Ep; cbn [rbind] in E; try discriminate. injection E as <- <-.
    destruct (pcp _ _ _ _ (RNetFlow o n) o _ _ _ _ _ H eq_refl Ep) as (Hi & Ha & H1 & H2 & H3 & H4). split; [eauto|].
    eexists _, _. split; [reflexivity|]. split; [reflexivity|]. split; [reflexivity|]. constructor; cbn; auto. apply H.
  - destruct (pod_cont_proc o t) as [[t1 [[[pd c] pr] l]]| | |] eqn:Ep; cbn [rbind] in E; try discriminate. injection E as <- <-.
    destruct (pcp _ _ _ _ (RFileFlow o f n) o _ _ _ _ _ H eq_refl Ep) as (Hi & Ha & H1 & H2 & H3 & H4). split; [eauto|].
    eexists _, _. split; [reflexivity|]. split; [reflexivity|]. split; [reflexivity|]. constructor; cbn; auto; try apply H; apply Ha.
  - destruct (pod_cont_proc o t) as [[t1 [[[pd c] pr] l]]| | |] eqn:Ep; cbn [rbind] in E; try discriminate. injection E as <- <-.
    destruct (pcp _ _ _ _ (RFileEvt o f nf n) o _ _ _ _ _ H eq_refl Ep) as (Hi & Ha & H1 & H2 & H3 & H4). split; [eauto|].
    eexists _, _. split; [reflexivity|]. split; [reflexivity|]. split; [reflexivity|]. constructor; cbn; auto; try apply H; try apply Ha.
    destruct nf; cbn; auto. apply Ha.
  - injection E as <- <-. split; [|reflexivity]. apply Q; try reflexivity; try discriminate. apply Agree_quiet; [apply H|]. repeat split.
  - injection E as <- <-. split; [|reflexivity]. apply Q; try reflexivity; try discriminate. apply Agree_quiet; [apply H|]. repeat split.
  - injection E as <- <-. split; [|reflexivity]. apply Q; try reflexivity; try discriminate. apply Agree_quiet; [apply H|]. repeat split.
Qed.
Lemma delivered_length ent h s r d : Delivered ent h s r d -> length d = if deliverable ent r then 1 else 0.
Proof. unfold Delivered. destruct (deliverable ent r); [intros (x & c & -> & _)|intros ->]; reflexivity. Qed.

Lemma reader_inv ent rs : forall st ds, reader_run ent reader_init rs = Ok (st, ds) ->
  (exists s, RInv ent rs s st) /\
  map (fun d => x_rec (fst d)) ds = map tidied_rec (filter (deliverable ent) rs) /\
  Forall (fun d => call_for (x_rec (fst d)) (snd d)) ds.
Proof.
  induction rs as [|r rs IH] using rev_ind; intros st ds E.
  - injection E as <- <-. split; [|split; [reflexivity|constructor]]. exists []. apply RInv_init.
  - rewrite reader_run_app in E. destruct (reader_run ent reader_init rs) as [[s1 d1]| | |] eqn:E1; cbn [rbind] in E; try discriminate.
    destruct (IH _ _ eq_refl) as [[s Hi] [Ho Hc]]. cbn [reader_run] in E.
    destruct (reader_step ent s1 r) as [[s2 d2]| | |] eqn:E2; cbn [rbind] in E; try discriminate. injection E as <- <-.
    destruct (reader_step_inv _ _ _ _ _ _ _ Hi E2) as [Hi' Hd]. split; [exact Hi'|]. rewrite app_nil_r, filter_app, !map_app. rewrite <- Ho. unfold Delivered in Hd. cbn [filter].
    destruct (deliverable ent r).
    + destruct Hd as (x & c & -> & Hx & Hcall & _). cbn. rewrite Hx. split; [reflexivity|]. apply Forall_app. split; auto. constructor; auto. cbn. now rewrite Hx.
    + subst d2. split; [reflexivity|]. now rewrite app_nil_r.
Qed.
Lemma reader_nth ent h r rest st ds s : reader_run ent reader_init (h ++ r :: rest) = Ok (st, ds) -> Since is_header h s ->
  deliverable ent r = true -> exists x c, nth_error ds (count ent h) = Some (x, c) /\ Delivered ent h s r [(x, c)].
Proof.
  intros E Hs Hd. rewrite reader_run_app in E. destruct (reader_run ent reader_init h) as [[s1 d1]| | |] eqn:E1; cbn [rbind] in E; try discriminate.
  destruct (reader_inv _ _ _ _ E1) as [[s' Hi] [Ho _]]. pose proof (Since_fun _ _ _ _ Hs (ri_since _ _ _ _ Hi)) as <-.
  cbn [reader_run] in E. destruct (reader_step ent s1 r) as [[s2 d2]| | |] eqn:E2; cbn [rbind] in E; try discriminate.
  destruct (reader_run ent s2 rest) as [[s3 d3]| | |]; cbn [rbind] in E; try discriminate. injection E as <- <-.
  destruct (reader_step_inv _ _ _ _ _ _ _ Hi E2) as [_ HD]. pose proof HD as HD'. unfold Delivered in HD'. rewrite Hd in HD'. destruct HD' as (x & c & -> & _).
  exists x, c. split; auto. assert (Hl : length d1 = count ent h) by (unfold count; apply (f_equal (@length rec)) in Ho; now rewrite !map_length in Ho).
  rewrite nth_error_app2, Hl, Nat.sub_diag by lia. reflexivity.
Qed.

(** ** No crash on sane streams *)
Lemma ptree_sane (s : list rec) t id : Agree ann_rec s t -> (forall q, ~ Above ann_rec s q q) -> exists t' l, get_ptree id t = Ok (t', l).
Proof.
  intros Ha Hc. destruct (get_ptree_res id t) as [|E]; auto. exfalso. unfold get_ptree in E. destruct (mget oid_eqb id (t_ptree t)); [discriminate|].
  destruct (proc_prov (prov_fuel t) id t) eqn:Ep; [discriminate|]. destruct (prov_cycle _ _ _ _ Ha Ep) as (q & _ & Hq). now apply (Hc q).
Qed.
Lemma pcp_sane s t id : Agree ann_rec s t -> (forall q, ~ Above ann_rec s q q) -> exists t' pd c p l, pod_cont_proc id t = Ok (t', (pd, c, p, l)).
Proof.
  intros Ha Hc. unfold pod_cont_proc. destruct (get_proc id t); [|eauto 10].
  destruct (ptree_sane s t id Ha Hc) as (t' & l & ->). cbn. eauto 10.
Qed.
Lemma step_sane ent h s st r :
  RInv ent h s st -> (forall p, r = RProc p -> p_state p = CREATED \/ p_state p = MODIFIED \/ p_state p = REUP) ->
  (forall f, r = RFile f -> ent = false \/ f_cont f <> INil) -> (forall q, ~ Above ann_rec (seen s r) q q) ->
  exists st' d, reader_step ent st r = Ok (st', d).
Proof.
  intros H H1 H2 H3. pose proof (ri_agree _ _ _ _ H) as Ha. destruct st as [hdr t]; cbn [r_tab] in Ha.
  destruct r as [x|c|p|n|p|f|o n|o n|o f n|o f nf n|n|n|n]; cbn [reader_step r_hdr r_tab seen] in *; eauto.
  - assert (Es : exists t1, set_proc (p_oid p) (trimmed p) t = Ok t1).
    { unfold set_proc, set_slot. cbn [trimmed p_state]. destruct (H1 p eq_refl) as [->|[->| ->]]; cbn; eauto. }
    destruct Es as [t1 Es]. cbv zeta. change (p_oid (trimmed p)) with (p_oid p). rewrite Es. cbn [rbind]. destruct ent; eauto. change (p_oid (trimmed p)) with (p_oid p).
    assert (Ha1 : Agree ann_rec (s ++ [RProc p]) t1).
    { apply (Agree_proc ann_rec s t t1 (RProc p) (p_oid p) (trimmed p)); auto. }
    destruct (ptree_sane _ _ (p_oid p) Ha1 H3) as (t' & l & ->). cbn. eauto.
  - destruct ent; eauto. unfold cont_of_file. destruct (H2 f eq_refl) as [|Hf]; [discriminate|]. destruct (f_cont f); try congruence; cbn; eauto.
  - destruct (pcp_sane _ _ o Ha H3) as (t' & pd & c & p & l & ->). cbn. eauto.
  - destruct (pcp_sane _ _ o Ha H3) as (t' & pd & c & p & l & ->). cbn. eauto.
  - destruct (pcp_sane _ _ o Ha H3) as (t' & pd & c & p & l & ->). cbn. eauto.
  - destruct (pcp_sane _ _ o Ha H3) as (t' & pd & c & p & l & ->). cbn. eauto.
Qed.
Lemma Sane_prefix ent h r : Sane ent (h ++ [r]) -> Sane ent h.
Proof.
  intros [H1 H2 H3]. constructor.
  - intros p Hp. apply H1, in_or_app. auto.
  - intros f Hf. apply H2, in_or_app. auto.
  - intros h' r' rest s q ->. apply (H3 h' r' (rest ++ [r]) s q). now rewrite <- app_assoc.
Qed.
Lemma reader_total ent rs : Sane ent rs -> exists st ds, reader_run ent reader_init rs = Ok (st, ds).
Proof.
  induction rs as [|r rs IH] using rev_ind; intros H; [cbn; eauto|]. destruct (IH (Sane_prefix _ _ _ H)) as (st & ds & E).
  rewrite reader_run_app, E. cbn [rbind reader_run]. destruct (reader_inv _ _ _ _ E) as [[s Hi] _].
  destruct (step_sane ent rs s st r Hi) as (st' & d & E').
  - intros p ->. apply H, in_elt.
  - intros f ->. apply H, in_elt.
  - intros q. apply (sn_acyclic _ _ H rs r [] s q); auto. apply Hi.
  - rewrite E'. cbn. eauto.
Qed.

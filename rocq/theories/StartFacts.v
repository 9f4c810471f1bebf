(** * StartFacts: proofs about loading. *)
From Coq Require Import Lia.
From Verif Require Import GoBase GoFacts PluginModel SpecPlugin PluginFacts StartModel SpecStart.
Local Open Scope nat_scope.

(** ** First mentions *)
Notation mention := (string * string * bool)%type.
Definition mid (m : mention) : string := fst (fst m).
Section V.
Variable b : variant.
Definition makes (m : mention) (t : gtype) : Prop := carries b (snd (fst m)) t /\ (snd (fst m) = "flattenerchan" -> snd m = true).
Definition first (L : list mention) (id : string) (t : gtype) : Prop :=
  exists l1 m l2, L = l1 ++ m :: l2 /\ mid m = id /\ (forall m', In m' l1 -> mid m' <> id) /\ makes m t.
Lemma carries_fun ty t t' : carries b ty t -> carries b ty t' -> t = t'.
Proof. intros [[A B]|[[A B]|[[A B]|[[A B]|[A B]]]]] [[C D]|[[C D]|[[C D]|[[C D]|[C D]]]]]; subst; try discriminate; reflexivity. Qed.
Lemma in_split_first (L : list mention) id : (exists m, In m L /\ mid m = id) -> exists l1 m l2, L = l1 ++ m :: l2 /\ mid m = id /\ forall m', In m' l1 -> mid m' <> id.
Proof.
  induction L as [|m L IH]; intros (m0 & Hi & E); [destruct Hi|].
  destruct (string_dec (mid m) id) as [D|D].
  - exists [], m, L. split; [reflexivity|]. split; [assumption|]. intros m' [].
  - destruct Hi as [->|Hi]; [contradiction|]. destruct IH as (l1 & m1 & l2 & -> & E1 & H); [eauto|].
    exists (m :: l1), m1, l2. split; [reflexivity|]. split; [assumption|]. intros m' [<-|H']; auto.
Qed.
Lemma split_unique (l1 : list mention) m l2 l1' m' l2' id : l1 ++ m :: l2 = l1' ++ m' :: l2' -> mid m = id -> mid m' = id ->
  (forall x, In x l1 -> mid x <> id) -> (forall x, In x l1' -> mid x <> id) -> l1 = l1' /\ m = m' /\ l2 = l2'.
Proof.
  revert l1'. induction l1 as [|x l1 IH]; intros [|x' l1'] E Em Em' H H'; cbn in E; injection E as E1 E2.
  - auto.
  - destruct (H' x' (or_introl eq_refl)). congruence.
  - destruct (H x (or_introl eq_refl)). congruence.
  - destruct (IH l1' E2 Em Em') as (A & B & C); [intros y Hy; apply H; now right|intros y Hy; apply H'; now right|]. subst. auto.
Qed.
Lemma first_fun L id t t' : first L id t -> first L id t' -> t = t'.
Proof.
  intros (l1 & m & l2 & -> & E & H & C & _) (l1' & m' & l2' & E2 & E' & H' & C' & _).
  destruct (split_unique _ _ _ _ _ _ id E2 E E' H H') as (_ & <- & _). exact (carries_fun _ _ _ C C').
Qed.
Lemma first_in L id t : first L id t -> exists m, In m L /\ mid m = id.
Proof. intros (l1 & m & l2 & -> & E & _). exists m. split; [apply in_elt|assumption]. Qed.
Lemma first_app L1 L2 id t : first (L1 ++ L2) id t <-> first L1 id t \/ ((forall m, In m L1 -> mid m <> id) /\ first L2 id t).
Proof.
  split.
  - intros (l1 & m & l2 & E & Em & H & C).
    destruct (in_dec string_dec id (map mid L1)) as [I|I].
    + left. apply in_map_iff in I as (m0 & E0 & I). destruct (in_split_first L1 id) as (a & m1 & c & -> & E1 & H1); [eauto|].
      rewrite <- app_assoc in E. cbn in E. destruct (split_unique _ _ _ _ _ _ id (eq_sym E) Em E1 H H1) as (-> & -> & _).
      exists a, m1, c. auto.
    + right. assert (N : forall m, In m L1 -> mid m <> id) by (intros m0 H0 E0; apply I, in_map_iff; eauto). split; [exact N|].
      clear I. revert l1 E H. induction L1 as [|x L1 IH]; intros l1 E H; cbn in E; [exists l1, m, l2; auto|].
      destruct l1 as [|y l1]; cbn in E; injection E as -> E; [destruct (N m (or_introl eq_refl) Em)|].
      apply (IH (fun m' H' => N m' (or_intror H')) l1 E). intros m' H'. apply H. now right.
  - intros [(l1 & m & l2 & -> & Em & H & C)|(N & l1 & m & l2 & -> & Em & H & C)].
    + exists l1, m, (l2 ++ L2). rewrite <- app_assoc. auto.
    + exists (L1 ++ l1), m, l2. rewrite <- app_assoc. split; [reflexivity|]. split; [assumption|]. split; [|assumption].
      intros m' H'. apply in_app_or in H' as [H'|H']; auto.
Qed.
Lemma first_one m id t : first [m] id t <-> mid m = id /\ makes m t.
Proof.
  split.
  - intros (l1 & m' & l2 & E & Em & H & C). destruct l1 as [|x l1]; [injection E as -> _; auto|]. destruct l1; discriminate.
  - intros [E C]. exists [], m, []. split; [reflexivity|]. split; [assumption|]. split; [intros m' []|assumption].
Qed.
(** A mention that cannot be made stays unmade. *)
Lemma first_dead L m rest t : (forall m', In m' L -> mid m' <> mid m) -> (forall t, ~ makes m t) -> ~ first (L ++ m :: rest) (mid m) t.
Proof.
  intros N D F. apply first_app in F as [F|[_ F]]; [destruct (first_in _ _ _ F) as (m' & Hi & E); exact (N m' Hi E)|].
  change (m :: rest) with ([m] ++ rest) in F. apply first_app in F as [F|[Nn _]]; [apply first_one in F as [_ F]; exact (D t F)|].
  apply (Nn m (or_introl eq_refl)). reflexivity.
Qed.

(** ** The mentions of a pipeline, with whether a reader or processor has started *)
Definition hh (k : pkind) : bool := match k with KReader | KProcessor => true | _ => false end.
Lemma hh_iff k : hh k = true <-> has_handler k.
Proof. unfold has_handler. destruct k; cbn; split; intros; auto; try discriminate; destruct H; discriminate. Qed.
Definition stage_mentions (s : bool) (d : wiring) : list mention := map (fun m => (m, s)) (wi_ins d ++ wi_outs d).
Fixpoint flag (s : bool) (ds : list wiring) : list mention :=
  match ds with
  | [] => []
  | d :: ds' => let s1 := (s || hh (wi_kind d))%bool in stage_mentions s1 d ++ flag s1 ds'
  end.
Definition after (s : bool) (ds : list wiring) : bool := (s || existsb (fun d => hh (wi_kind d)) ds)%bool.
Lemma flag_app s a c : flag s (a ++ c) = flag s a ++ flag (after s a) c.
Proof.
  revert s. induction a as [|d a IH]; intros s; cbn [flag app]; [unfold after; cbn; rewrite orb_false_r; reflexivity|].
  rewrite IH, app_assoc. unfold after. cbn [existsb]. rewrite orb_assoc. reflexivity.
Qed.
Lemma flag_ids s ds : map fst (flag s ds) = all_mentions ds.
Proof.
  revert s. induction ds as [|d ds IH]; intros s; [reflexivity|]. cbn [flag all_mentions flat_map]. rewrite map_app, IH. f_equal.
  unfold stage_mentions. rewrite map_map, map_id. reflexivity.
Qed.
Lemma not_mentioned s ds l1 s1 id : (forall ty', ~ In (id, ty') (all_mentions ds ++ l1)) <->
  (forall m, In m (flag s ds ++ map (fun m => (m, s1)) l1) -> mid m <> id).
Proof.
  assert (E : all_mentions ds ++ l1 = map fst (flag s ds ++ map (fun m => (m, s1)) l1)).
  { rewrite map_app, (flag_ids s ds), map_map. cbn. rewrite map_id. reflexivity. }
  rewrite E. split.
  - intros H [[i ty] f] Hm Ei. apply (H ty), in_map_iff. exists (i, ty, f). cbn in *. unfold mid in Ei; cbn in Ei. subst. auto.
  - intros H ty' Hi. apply in_map_iff in Hi as ([[i ty] f] & [= -> ->] & Hm). exact (H _ Hm eq_refl).
Qed.
Lemma channel_first ds id t : channel_type b ds id t <-> first (flag false ds) id t.
Proof.
  split.
  - intros (ds1 & d & ds2 & l1 & ty & l2 & -> & E & N & C & F).
    rewrite flag_app. cbn [flag]. set (s1 := (after false ds1 || hh (wi_kind d))%bool). unfold stage_mentions. rewrite E.
    rewrite map_app. cbn [map]. exists (flag false ds1 ++ map (fun m => (m, s1)) l1), (id, ty, s1), (map (fun m => (m, s1)) l2 ++ flag s1 ds2).
    split; [rewrite <- !app_assoc; reflexivity|]. split; [reflexivity|]. split; [apply not_mentioned, N|]. split; [exact C|].
    cbn. intros Ef. destruct (F Ef) as (d' & Hd & Hk). apply hh_iff in Hk. unfold s1, after. cbn [orb].
    apply in_app_or in Hd as [Hd|[<-|[]]]; apply orb_true_iff; [left; apply existsb_exists; eauto|right; assumption].
  - enough (G : forall ds s, first (flag s ds) id t -> exists ds1 d ds2 l1 ty l2, ds = ds1 ++ d :: ds2 /\ wi_ins d ++ wi_outs d = l1 ++ (id, ty) :: l2 /\
      (forall ty', ~ In (id, ty') (all_mentions ds1 ++ l1)) /\ carries b ty t /\ (ty = "flattenerchan" -> s = true \/ exists d', In d' (ds1 ++ [d]) /\ has_handler (wi_kind d'))).
    { intros H. destruct (G ds false H) as (ds1 & d & ds2 & l1 & ty & l2 & E1 & E2 & N & C & F). exists ds1, d, ds2, l1, ty, l2.
      repeat (split; [assumption|]). intros Ef. destruct (F Ef) as [?|?]; [discriminate|assumption]. }
    clear ds. intros ds. induction ds as [|d ds IH]; intros s H; [destruct (first_in _ _ _ H) as (? & [] & _)|].
    cbn [flag] in H. set (s1 := (s || hh (wi_kind d))%bool) in *. apply first_app in H as [(l1 & m & l2 & E & Em & N & C)|[N H]].
    + unfold stage_mentions in E. apply map_eq_app in E as (k1 & k2 & Ek & E1 & E2). destruct k2 as [|[i ty] k2]; [discriminate|].
      injection E2 as <- E2. unfold mid in Em; cbn in Em. subst i. exists [], d, ds, k1, ty, k2. split; [reflexivity|]. split; [assumption|].
      split. { cbn [all_mentions flat_map app]. intros ty' Hi. subst l1. apply (N (id, ty', s1)); [apply in_map_iff; eauto|reflexivity]. }
      split; [apply C|]. intros Ef. destruct C as [_ C]. cbn in C. specialize (C Ef). unfold s1 in C. apply orb_true_iff in C as [C|C]; [auto|].
      right. exists d. split; [now left|apply hh_iff, C].
    + destruct (IH s1 H) as (ds1 & d1 & ds2 & l1 & ty & l2 & -> & E2 & N2 & C & F). exists (d :: ds1), d1, ds2, l1, ty, l2.
      split; [reflexivity|]. split; [assumption|]. split.
      { cbn [all_mentions flat_map]. intros ty' Hi. rewrite <- app_assoc in Hi. apply in_app_or in Hi as [Hi|Hi]; [|exact (N2 ty' Hi)].
        apply (N (id, ty', s1)); [unfold stage_mentions; apply in_map_iff; eauto|reflexivity]. }
      split; [assumption|]. intros Ef. destruct (F Ef) as [Q|(d' & Hd & Hk)].
      * unfold s1 in Q. apply orb_true_iff in Q as [Q|Q]; [auto|]. right. exists d. split; [now left|apply hh_iff, Q].
      * right. exists d'. split; [now right|assumption].
Qed.
End V.

(** ** Loading *)
Section L.
Variable b : variant.
Variable plibs : string -> libfile plib.
Variable hlibs : string -> libfile hlib.
Variable h_init : hkind -> conf -> bool.
Variable p_init : pkind -> conf -> bool.
Variable h_accepts p_accepts p_reads : nat -> gtype -> bool.
Notation load := (load_all b plibs hlibs h_init p_init h_accepts p_accepts 0).
Notation tagl := tag_list.

Definition types_of (s : bool) : gomap cfac := add_all (builtin_types b ++ (if s then [("flattenerchan", CFactory GFlat)] else [])) [].
Lemma types_spec s ty : match mget ty (types_of s) with
  | Some (CFactory t) => carries b ty t /\ (ty = "flattenerchan" -> s = true)
  | Some CJunk => False
  | None => forall t, ~ (carries b ty t /\ (ty = "flattenerchan" -> s = true))
  end.
Proof.
  clear plibs hlibs h_init p_init h_accepts p_accepts p_reads. unfold carries, types_of.
  destruct (string_dec ty "sysflowchan") as [->|N1]; [destruct b, s; cbn; (split; [auto 10|intros X; discriminate X])|].
  destruct (string_dec ty "ctxchan") as [->|N2]; [destruct b, s; cbn; (split; [auto 10|intros X; discriminate X])|].
  destruct (string_dec ty "eventchan") as [->|N3]; [destruct b, s; cbn; (split; [auto 10|intros X; discriminate X])|].
  destruct (string_dec ty "otelchan") as [->|N4]; [destruct b, s; cbn; (split; [auto 10|intros X; discriminate X])|].
  destruct (string_dec ty "flattenerchan") as [->|N5]; [destruct b, s; cbn; (split; [auto 10|reflexivity]) || (intros t [_ X]; discriminate (X eq_refl))|].
  assert (E : mget ty (add_all (builtin_types b ++ (if s then [("flattenerchan", CFactory GFlat)] else [])) []) = None).
  { unfold add_all. apply seqb_neq in N1, N2, N3, N4, N5. destruct s; cbn [builtin_types app fold_left fst snd];
      rewrite !mget_mset_ne by (intros ->; rewrite seqb_refl in *; discriminate); reflexivity. }
  rewrite E. intros t [H _]. intuition congruence.
Qed.
Definition chans_ok (L : list mention) (m : gomap tchan) : Prop :=
  forall id, match mget id m with Some ch => first b L id (tc_type ch) | None => forall x, In x L -> mid x <> id end.
Definition cache_ok (s : bool) (L : list mention) (c : pcache) : Prop :=
  pc_procs c = add_all builtin_procs [] /\ pc_types c = types_of s /\ chans_ok L (pc_chans c).

Lemma get_tchan_ok s L c req id ty : cache_ok s L c -> asks req id ty ->
  (exists c' ch, get_tchan c req = Ok (c', Some ch) /\ cache_ok s (L ++ [(id, ty, s)]) c' /\ first b (L ++ [(id, ty, s)]) id (tc_type ch)) \/
  (exists c', get_tchan c req = Ok (c', None) /\ forall rest t, ~ first b (L ++ (id, ty, s) :: rest) id t).
Proof.
  intros (P & T & C) A. apply asks_fields in A. unfold get_tchan. rewrite A. pose proof (C id) as Ci.
  destruct (mget id (pc_chans c)) as [ch|] eqn:M.
  - left. exists c, ch. split; [reflexivity|]. split; [|apply first_app; auto]. repeat split; auto.
    intros i. specialize (C i). destruct (mget i (pc_chans c)) as [ch'|] eqn:M'; [apply first_app; auto|].
    intros x Hx. apply in_app_or in Hx as [Hx|[<-|[]]]; auto. unfold mid; cbn. intros ->. congruence.
  - rewrite T. pose proof (types_spec s ty) as Ty. destruct (mget ty (types_of s)) as [[t|]|]; [|contradiction|].
    + left. eexists _, _. split; [reflexivity|]. cbn [pc_procs pc_types pc_chans tc_type].
      assert (F : first b (L ++ [(id, ty, s)]) id t) by (apply first_app; right; split; [exact Ci|apply first_one; split; [reflexivity|exact Ty]]).
      split; [|exact F]. repeat split; auto. intros i. cbn [pc_chans]. destruct (string_dec i id) as [->|N].
      * rewrite mget_mset_eq. exact F.
      * rewrite mget_mset_ne by auto. specialize (C i). destruct (mget i (pc_chans c)) as [ch'|]; [apply first_app; auto|].
        intros x Hx. apply in_app_or in Hx as [Hx|[<-|[]]]; auto.
    + right. eexists. split; [reflexivity|]. intros rest t. apply (first_dead b L (id, ty, s) rest t); [exact Ci|]. intros t0 H. exact (Ty t0 H).
Qed.
Lemma tag_list_ok s : forall l ms L c, cache_ok s L c -> Forall2 (fun r m => exists req, r = VStr req /\ asks req (fst m) (snd m)) l ms ->
  let M := map (fun m => (m, s)) ms in
  (exists c' chs, tagl c l = Ok (c', Some chs) /\ cache_ok s (L ++ M) c' /\ Forall2 (fun m ch => first b (L ++ M) (fst m) (tc_type ch)) ms chs) \/
  (exists c', tagl c l = Ok (c', None) /\ exists m, In m ms /\ forall rest t, ~ first b (L ++ M ++ rest) (fst m) t).
Proof.
  induction l as [|r l IH]; intros ms L c K F; inversion F as [|r' [id ty] l' ms' (req & -> & A) F']; subst; cbn zeta.
  - left. exists c, []. cbn [map]. rewrite app_nil_r. split; [reflexivity|]. split; [assumption|constructor].
  - cbn [tagl fst snd] in *. destruct (get_tchan_ok s L c req id ty K A) as [(c1 & ch & E & K1 & F1)|(c1 & E & D)]; rewrite E; cbn [rbind].
    + destruct (IH ms' _ c1 K1 F') as [(c2 & chs & E2 & K2 & F2)|(c2 & E2 & m & Hm & D2)]; rewrite E2; cbn [rbind option_map map].
      * left. exists c2, (ch :: chs). rewrite <- app_assoc in K2, F2. cbn in K2, F2. split; [reflexivity|]. split; [exact K2|].
        constructor; [|exact F2]. cbn. change ((id, ty, s) :: map (fun m => (m, s)) ms') with ([(id, ty, s)] ++ map (fun m => (m, s)) ms').
        rewrite app_assoc. apply first_app. left. exact F1.
      * right. exists c2. split; [reflexivity|]. exists m. split; [now right|]. intros rest t. specialize (D2 rest t). rewrite <- app_assoc in D2. exact D2.
    + right. exists c1. split; [reflexivity|]. exists (id, ty). split; [now left|]. intros rest t. cbn. apply D.
Qed.

Definition hcm : gomap hfac := [("flattener", HFactory HFlattener)].
Definition world_ok (s : bool) (L : list mention) (w : world) : Prop :=
  w_pc w = Some 0 /\ w_hc w = (if s then Some hcm else None) /\ exists c, w_caches w = [c] /\ cache_ok s L c.
Lemma init_ok w s L kind c d : world_ok s L w -> wi_kind d = kind -> (forall n, kind <> KUser n) -> settings_ok p_init c d ->
  exists w' h, init_stage hlibs h_init p_init w kind c = Ok (w', h, true) /\ world_ok (s || hh kind) L w' /\
    (has_handler kind -> option_map hobj_kind h = Some HFlattener).
Proof.
  intros (Hp & Hh & cc & Hc & K) <- NU S. unfold settings_ok in S. destruct (wi_kind d) eqn:Ek; cbn [init_stage hh].
  3,4: exists w, None; rewrite S, orb_false_r; split; [reflexivity|]; split; [split; [assumption|]; split; [assumption|]; eauto|]; intros [|]; discriminate.
  3: destruct (NU n eq_refl).
  1,2: rewrite orb_true_r; unfold get_handler, hc_instance; rewrite Hh, Hp; destruct s; cbn [rbind]; rewrite S; cbn [mget hcm seqb];
    (eexists _, (Some (HNew _ HFlattener)); split; [reflexivity|]; split; [|reflexivity]);
    [split; [assumption|split; [assumption|eauto]]|].
  1,2: split; [exact Hp|]; split; [reflexivity|]; cbn [w_caches set_cache]; rewrite Hc; cbn; eexists; split; [reflexivity|];
    destruct K as (P & T & C); split; [exact P|]; split; [|exact C]; cbn [reg_types pc_types]; rewrite T; unfold types_of, add_all; rewrite fold_left_app; reflexivity.
Qed.

Definition fits (T : list mention) (d : wiring) (g : started) : Prop :=
  st_kind g = wi_kind d /\ Forall2 (fun m ch => first b T (fst m) (tc_type ch)) (wi_ins d) (st_ins g) /\
  Forall2 (fun m ch => first b T (fst m) (tc_type ch) /\ gives b (wi_kind d) (tc_type ch)) (wi_outs d) (st_outs g).
Definition dead (T : list mention) (d : wiring) : Prop := exists m, In m (wi_ins d ++ wi_outs d) /\ forall t, ~ first b T (fst m) t.
Definition misfit (T : list mention) (d : wiring) : Prop := exists m t, In m (wi_outs d) /\ first b T (fst m) t /\ ~ gives b (wi_kind d) t.
Lemma kind_builtin c d : says c d -> exists name, mget ProcConfig c = Some (VStr name) /\ names_kind name (wi_kind d).
Proof. intros ((name & H & N) & _). eauto. Qed.
Lemma builtin_found name k : names_kind name k -> mget name (add_all builtin_procs []) = Some (PFactory k).
Proof. intros [[-> ->]|[[-> ->]|[[-> ->]|[-> ->]]]]; reflexivity. Qed.
Lemma accepts_gives k h t : (forall n, k <> KUser n) -> (has_handler k -> option_map hobj_kind h = Some HFlattener) ->
  accepts b h_accepts p_accepts k h t = true <-> gives b k t.
Proof.
  intros NU H. unfold accepts, gives. change (match b with VFlat => GEvent | VOtel => GLogs end) with (record_type b). destruct k.
  1,2: rewrite H by (unfold has_handler; auto); destruct (gtype_eq_dec t GFlat); split; congruence.
  - destruct (gtype_eq_dec t (record_type b)); split; congruence.
  - tauto.
  - destruct (NU n eq_refl).
Qed.
Lemma reads_takes k t : (forall n, k <> KUser n) -> reads_type b p_reads k t = true <-> takes b k t.
Proof.
  intros NU. unfold reads_type, takes. change (match b with VFlat => GEvent | VOtel => GLogs end) with (record_type b). change (match b with VFlat => GFlat | VOtel => GLogs end) with (engine_input b).
  destruct k; try (destruct (gtype_eq_dec _ _); split; congruence). destruct (NU n eq_refl).
Qed.
Lemma names_user name k n : names_kind name k -> k <> KUser n.
Proof. clear. unfold names_kind. intuition congruence. Qed.
Lemma tags_ok s L w v ms : world_ok s L w -> mentions v ms ->
  let M := map (fun m => (m, s)) ms in
  (exists w' chs, tag_tchans 0 w v = Ok (w', Some chs) /\ world_ok s (L ++ M) w' /\ Forall2 (fun m ch => first b (L ++ M) (fst m) (tc_type ch)) ms chs) \/
  (exists w', tag_tchans 0 w v = Ok (w', None) /\ exists m, In m ms /\ forall rest t, ~ first b (L ++ M ++ rest) (fst m) t).
Proof.
  intros (Hp & Hh & c & Hc & K) Hm. cbn zeta. unfold tag_tchans. rewrite Hc. cbn [nth_error]. change (match v with VStr req => [VStr req] | VList l => l | VOther => [] end) with (requests v).
  destruct (tag_list_ok s (requests v) ms L c K Hm) as [(c1 & chs & E & K1 & F)|(c1 & E & D)]; rewrite E; cbn [rbind].
  - left. eexists _, chs. split; [reflexivity|]. split; [|exact F]. split; [exact Hp|]. split; [exact Hh|]. exists c1. split; [|exact K1].
    cbn [set_cache w_caches]. rewrite Hc. reflexivity.
  - right. eexists. split; [reflexivity|exact D].
Qed.
Lemma first_more T rest m ch : first b T (fst m) (tc_type ch) -> first b (T ++ rest) (fst (m : string * string)) (tc_type (ch : tchan)).
Proof. intros H. apply first_app. auto. Qed.
Lemma first_all L' rest ms chs : Forall2 (fun m ch => first b L' (fst (m : string * string)) (tc_type ch)) ms chs ->
  Forall2 (fun m ch => first b (L' ++ rest) (fst m) (tc_type ch)) ms chs.
Proof. induction 1; constructor; [apply first_app; auto|assumption]. Qed.
Lemma first_gives L' rest k h ms outs : (forall n, k <> KUser n) -> (has_handler k -> option_map hobj_kind h = Some HFlattener) ->
  Forall2 (fun m ch => first b L' (fst (m : string * string)) (tc_type ch)) ms outs -> forallb (fun ch => accepts b h_accepts p_accepts k h (tc_type ch)) outs = true ->
  Forall2 (fun m ch => first b (L' ++ rest) (fst m) (tc_type ch) /\ gives b k (tc_type ch)) ms outs.
Proof.
  intros NU Hf F. induction F as [|m x ms chs H F IH]; intros Fa; constructor; cbn [forallb] in Fa; apply andb_true_iff in Fa as [Fa Fb].
  - split; [apply first_app; auto|exact (proj1 (accepts_gives _ _ _ NU Hf) Fa)].
  - exact (IH Fb).
Qed.
Lemma load_ok dir : forall p ds s L w, world_ok s L w -> Forall2 says p ds -> Forall2 (settings_ok p_init) p ds ->
  let T := L ++ flag s ds in
  (exists w' sgs, load dir w p = Ok (w', sgs, false) /\ Forall2 (fits T) ds sgs) \/
  (exists w' sgs, load dir w p = Ok (w', sgs, true) /\ exists d, In d ds /\ dead T d) \/
  (load dir w p = Panic /\ exists d, In d ds /\ misfit T d).
Proof.
  induction p as [|c p IH]; intros ds s L w W S O; inversion S as [|c' d p' ds' Sd S']; subst; cbn zeta.
  - left. exists w, []. split; [reflexivity|constructor].
  - inversion O as [|? ? ? ? Od O']; subst. destruct (kind_builtin _ _ Sd) as (name & En & Nk).
    assert (NU : forall n, wi_kind d <> KUser n) by (intros n; exact (names_user _ _ n Nk)).
    cbn [load_all]. rewrite En. destruct W as (Hp & Hh & cc & Hc & K).
    unfold get_processor. rewrite Hc. cbn [nth_error]. destruct K as (Kp & K'). rewrite Kp, (builtin_found _ _ Nk). cbn [rbind].
    assert (W : world_ok s L w) by (split; [assumption|]; split; [assumption|]; exists cc; split; [assumption|]; split; assumption).
    destruct (init_ok w s L (wi_kind d) c d W eq_refl NU Od) as (w2 & h & Ei & W2 & Hf). rewrite Ei. cbn [rbind].
    destruct Sd as (_ & (v & Ev & Mv) & Mo). change "in" with InChanConfig in Ev. change "out" with OutChanConfig in Mo. rewrite Ev. cbn [flag]. set (s1 := (s || hh (wi_kind d))%bool) in *.
    unfold stage_mentions. rewrite map_app. set (MI := map (fun m => (m, s1)) (wi_ins d)). set (MO := map (fun m => (m, s1)) (wi_outs d)).
    destruct (tags_ok s1 L w2 v _ W2 Mv) as [(w3 & ins & E3 & W3 & F3)|(w3 & E3 & m & Hm & D)]; rewrite E3; cbn [rbind].
    2:{ right. left. exists w3, []. split; [reflexivity|]. exists d. split; [now left|]. exists m. split; [apply in_or_app; auto|].
        intros t. specialize (D (MO ++ flag s1 ds') t). fold MI in D. rewrite <- app_assoc. exact D. }
    fold MI in W3, F3.
    assert (TO : (exists w4 outs, (match mget OutChanConfig c with None => Ok (w3, Some []) | Some o => tag_tchans 0 w3 o end) = Ok (w4, Some outs) /\
                    world_ok s1 ((L ++ MI) ++ MO) w4 /\ Forall2 (fun m ch => first b ((L ++ MI) ++ MO) (fst m) (tc_type ch)) (wi_outs d) outs) \/
                 (exists w4, (match mget OutChanConfig c with None => Ok (w3, Some []) | Some o => tag_tchans 0 w3 o end) = Ok (w4, None) /\
                    exists m, In m (wi_outs d) /\ forall rest t, ~ first b ((L ++ MI) ++ MO ++ rest) (fst m) t)).
    { destruct (mget OutChanConfig c) as [o|]; [exact (tags_ok s1 (L ++ MI) w3 o _ W3 Mo)|].
      left. exists w3, []. unfold MO. rewrite Mo. cbn [map]. rewrite app_nil_r. split; [reflexivity|]. split; [exact W3|constructor]. }
    destruct TO as [(w4 & outs & E4 & W4 & F4)|(w4 & E4 & m & Hm & D)]; rewrite E4; cbn [rbind].
    2:{ right. left. exists w4, []. split; [reflexivity|]. exists d. split; [now left|]. exists m. split; [apply in_or_app; auto|].
        intros t. specialize (D (flag s1 ds') t). rewrite <- !app_assoc in D. rewrite <- !app_assoc. exact D. }
    assert (ET : L ++ (MI ++ MO) ++ flag s1 ds' = ((L ++ MI) ++ MO) ++ flag s1 ds') by (rewrite !app_assoc; reflexivity).
    rewrite ET. set (T := ((L ++ MI) ++ MO) ++ flag s1 ds').
    destruct (forallb (fun ch => accepts b h_accepts p_accepts (wi_kind d) h (tc_type ch)) outs) eqn:Fa.
    2:{ right. right. split; [reflexivity|]. exists d. split; [now left|].
        assert (Q : exists ch, In ch outs /\ ~ gives b (wi_kind d) (tc_type ch)).
        { clear - Fa NU Hf. induction outs as [|ch outs IH]; [discriminate|]. cbn [forallb] in Fa.
          destruct (accepts b h_accepts p_accepts (wi_kind d) h (tc_type ch)) eqn:A; [|exists ch; split; [now left|]].
          - destruct (IH Fa) as (x & Hx & N). exists x. split; [now right|assumption].
          - intros G. apply (accepts_gives (wi_kind d) h _ NU Hf) in G. congruence. }
        destruct Q as (ch & Hch & N). clear - F4 Hch N.
        assert (Q : exists m, In m (wi_outs d) /\ first b ((L ++ MI) ++ MO) (fst m) (tc_type ch)).
        { clear N. revert F4. generalize ((L ++ MI) ++ MO). intros L'. generalize (wi_outs d). intros ms F4. induction F4 as [|m x ms chs H F IH]; [destruct Hch|].
          destruct Hch as [->|Hch]; [exists m; split; [now left|assumption]|]. destruct (IH Hch) as (m' & ? & ?). exists m'. split; [now right|assumption]. }
        destruct Q as (m & Hm & Fm). exists m, (tc_type ch). split; [assumption|]. split; [apply first_app; auto|assumption]. }
    assert (FT : fits T d (mkStarted (wi_kind d) h ins outs)).
    { split; [reflexivity|]. cbn [st_ins st_outs]. split.
      - unfold T. rewrite <- app_assoc. apply first_all. exact F3.
      - unfold T. exact (first_gives _ _ _ h _ _ NU Hf F4 Fa). }
    destruct (IH ds' s1 _ w4 W4 S' O') as [(w5 & sgs & E5 & F5)|[(w5 & sgs & E5 & d' & Hd & D)|(E5 & d' & Hd & D)]]; fold T in F5 || fold T in D; rewrite E5; cbn [rbind].
    + left. exists w5, (mkStarted (wi_kind d) h ins outs :: sgs). split; [reflexivity|]. constructor; assumption.
    + right. left. eexists _, _. split; [reflexivity|]. exists d'. split; [now right|assumption].
    + right. right. split; [reflexivity|]. exists d'. split; [now right|assumption].
Qed.
Lemma fresh_ok : world_ok false [] (new_pipeline b fresh_world).
Proof.
  split; [reflexivity|]. split; [reflexivity|]. eexists. split; [reflexivity|]. split; [reflexivity|]. split; [unfold types_of; rewrite app_nil_r; reflexivity|].
  intros id. cbn. intros x [].
Qed.
End L.

(** ** Handlers *)
Section H.
Variable hlibs : string -> libfile hlib.
Lemma add_all_get {A} (l : list (string * A)) m name : mget name (add_all l m) = match mget name (rev l) with Some v => Some v | None => mget name m end.
Proof.
  unfold add_all. revert m. induction l as [|[k v] l IH]; intros m; [reflexivity|]. cbn [fold_left fst snd rev]. rewrite IH, mget_mset.
  assert (G : forall (a : list (string * A)) c, mget name (a ++ c) = match mget name a with Some v => Some v | None => mget name c end).
  { induction a as [|[k' v'] a IHa]; intros c; [reflexivity|]. cbn [app mget]. destruct (seqb name k'); auto. }
  rewrite G. cbn [mget]. destruct (mget name (rev l)); [reflexivity|]. destruct (seqb name k); reflexivity.
Qed.
Lemma last_get {A} (l : list (string * A)) name v : mget name (rev l) = Some v <-> last_said l name v.
Proof.
  unfold last_said. induction l as [|[k a] l IH] using rev_ind.
  - split; [discriminate|]. intros (l1 & l2 & E & _). destruct l1; discriminate.
  - rewrite rev_app_distr. cbn [rev app mget]. destruct (seqb name k) eqn:E.
    + apply seqb_eq in E. subst k. split.
      * intros [= ->]. exists l, []. split; [reflexivity|]. intros a' [].
      * intros (l1 & l2 & E & N). destruct l2 as [|x l2] using rev_ind; [apply app_inj_tail in E as [_ E]; congruence|]. clear IHl2.
        rewrite app_comm_cons, app_assoc in E. apply app_inj_tail in E as [_ <-]. destruct (N a). apply in_or_app. right. now left.
    + rewrite IH. split; intros (l1 & l2 & E' & N).
      * exists l1, (l2 ++ [(k, a)]). subst. split; [rewrite <- app_assoc; reflexivity|]. intros a' Hi. apply in_app_or in Hi as [Hi|[Hi|[]]]; [exact (N a' Hi)|].
        injection Hi as -> _. rewrite seqb_refl in E. discriminate.
      * destruct l2 as [|x l2] using rev_ind; [apply app_inj_tail in E' as [_ E']; injection E' as -> _; rewrite seqb_refl in E; discriminate|]. clear IHl2.
        rewrite app_comm_cons, app_assoc in E'. apply app_inj_tail in E' as [-> _]. exists l1, l2. split; [reflexivity|]. intros a' Hi. apply (N a'), in_or_app. auto.
Qed.
Lemma last_none {A} (l : list (string * A)) name : mget name (rev l) = None <-> forall v, ~ In (name, v) l.
Proof.
  split.
  - intros H v Hi. apply in_rev in Hi. induction (rev l) as [|[k a] r IH]; [destruct Hi|]. cbn [mget] in H. destruct (seqb name k) eqn:E; [discriminate|].
    destruct Hi as [[= -> ->]|Hi]; [rewrite seqb_refl in E; discriminate|auto].
  - intros H. destruct (mget name (rev l)) eqn:E; [|reflexivity]. apply last_get in E as (l1 & l2 & -> & _). destruct (H a). apply in_elt.
Qed.
(** The invariant: the handler cache holds what has been registered. *)
Definition hw_ok (prev : list (option hobj)) (w : world) : Prop :=
  (exists k, w_pc w = Some k) /\ w_made w = length (List.filter is_new prev) /\
  match w_hc w with Some m => forall name, mget name m = mget name (rev (known hlibs prev)) | None => prev = [] end.
Lemma known_app a c : known hlibs (a ++ c) = known hlibs a ++ flat_map (registers hlibs) c.
Proof. unfold known. rewrite flat_map_app. reflexivity. Qed.
Lemma get_handler_ok prev w c : hw_ok prev w ->
  (get_handler hlibs w c = Panic /\ exists name, mget "handler" c = Some (VStr name) /\ last_said (known hlibs prev) name HJunk) \/
  (exists w' o, get_handler hlibs w c = Ok (w', o) /\ answers hlibs prev c o /\ hw_ok (prev ++ [o]) w').
Proof.
  intros ((k & Hk) & Hm & Hh). unfold get_handler.
  assert (HI : exists w1 m, hc_instance w = Ok (w1, m) /\ w_pc w1 = Some k /\ w_made w1 = w_made w /\ w_hc w1 = Some m /\ forall name, mget name m = mget name (rev (known hlibs prev))).
  { unfold hc_instance. destruct (w_hc w) as [m|] eqn:E.
    - exists w, m. auto.
    - subst prev. rewrite Hk. eexists _, _. split; [reflexivity|]. cbn. auto 6. }
  destruct HI as (w1 & m & -> & Hk1 & Hm1 & Hh1 & Hg). cbn [rbind].
  assert (NO : forall o, o = None -> hw_ok (prev ++ [o]) w1).
  { intros o ->. split; [eauto|]. split; [rewrite filter_app; cbn; rewrite app_nil_r; congruence|]. rewrite Hh1. intros name. rewrite Hg, known_app. cbn [flat_map registers]. rewrite !app_nil_r. reflexivity. }
  destruct (mget "handler" c) as [[name|l|]|] eqn:Ec.
  2,3,4: right; eexists _, None; split; [reflexivity|]; split; [|apply NO; reflexivity]; intros name E'; congruence.
  rewrite Hg. destruct (mget name (rev (known hlibs prev))) as [[kd|]|] eqn:El.
  - right. eexists _, _. split; [reflexivity|]. split.
    + cbn [answers]. split; [congruence|]. exists name. split; [assumption|]. apply last_get, El.
    + split; [cbn; eauto|]. split; [cbn [w_made]; rewrite filter_app, app_length; cbn; lia|]. cbn [w_hc]. rewrite Hh1. intros n'. rewrite Hg, known_app. cbn [flat_map registers]. rewrite app_nil_r. reflexivity.
  - left. split; [reflexivity|]. exists name. split; [reflexivity|]. apply last_get, El.
  - pose proof (proj1 (last_none _ _) El) as El'. clear El. rename El' into El. right. destruct (mget "handlerlibpath" c) as [[path|l|]|] eqn:Ep.
    2,3,4: eexists _, None; split; [reflexivity|]; split; [|apply NO; reflexivity]; intros name' E'; assert (name' = name) as -> by congruence; split; [exact El|]; congruence.
    unfold load_handler. destruct (hlibs (path ++ "/" ++ name ++ ".so")%string) as [| |l] eqn:Eh.
    1,2: eexists _, None; split; [reflexivity|]; split; [|apply NO; reflexivity]; intros name' E'; assert (name' = name) as -> by congruence; split; [exact El|];
      intros path' l E''; assert (path' = path) as -> by congruence; congruence.
    eexists _, _. split; [reflexivity|]. split.
    + cbn [answers]. exists name, path, l. repeat split; auto.
    + rewrite Hk1. split; [cbn; eauto|]. split; [cbn [w_made set_cache]; rewrite filter_app, app_length; cbn; lia|]. cbn [w_hc]. intros n'. rewrite add_all_get, Hg, known_app.
      cbn [flat_map registers]. rewrite Eh, app_nil_r, rev_app_distr.
      assert (G : forall (a : list (string * hfac)) c, mget n' (a ++ c) = match mget n' a with Some v => Some v | None => mget n' c end).
      { induction a as [|[k' v'] a IHa]; intros c'; [reflexivity|]. cbn [app mget]. destruct (seqb n' k'); auto. }
      rewrite G. reflexivity.
Qed.
Lemma get_handlers_ok : forall cs prev w, hw_ok prev w ->
  (get_handlers hlibs w cs = Panic /\ exists prev' c name, In c cs /\ mget "handler" c = Some (VStr name) /\ last_said (known hlibs (prev ++ prev')) name HJunk) \/
  (exists w' os, get_handlers hlibs w cs = Ok (w', os) /\ length os = length cs /\
    forall i c o, nth_error cs i = Some c -> nth_error os i = Some o -> answers hlibs (prev ++ firstn i os) c o).
Proof.
  induction cs as [|c cs IH]; intros prev w W.
  - right. exists w, []. split; [reflexivity|]. split; [reflexivity|]. intros [|i]; discriminate.
  - cbn [get_handlers]. destruct (get_handler_ok prev w c W) as [(E & name & Hn & Hl)|(w1 & o & E & A & W1)]; rewrite E; cbn [rbind].
    + left. split; [reflexivity|]. exists [], c, name. rewrite app_nil_r. split; [now left|]. auto.
    + destruct (IH _ w1 W1) as [(E2 & prev' & c' & name & Hi & Hn & Hl)|(w2 & os & E2 & Le & An)]; rewrite E2; cbn [rbind].
      * left. split; [reflexivity|]. exists (o :: prev'), c', name. rewrite <- app_assoc in Hl. split; [now right|]. auto.
      * right. exists w2, (o :: os). split; [reflexivity|]. split; [cbn; congruence|]. intros [|i] c' o' Hc Ho; cbn in Hc, Ho.
        -- injection Hc as <-. injection Ho as <-. cbn [firstn]. rewrite app_nil_r. exact A.
        -- specialize (An i c' o' Hc Ho). rewrite <- app_assoc in An. exact An.
Qed.
Lemma fresh_hw b : hw_ok [] (new_pipeline b fresh_world).
Proof. split; [cbn; eauto|]. split; reflexivity. Qed.
Lemma resolution b cs w os : get_handlers hlibs (new_pipeline b fresh_world) cs = Ok (w, os) ->
  length os = length cs /\ forall i c o, nth_error cs i = Some c -> nth_error os i = Some o -> answers hlibs (firstn i os) c o.
Proof.
  intros E. destruct (get_handlers_ok cs [] _ (fresh_hw b)) as [[E' _]|(w' & os' & E' & Le & A)]; [congruence|].
  rewrite E in E'. injection E' as <- <-. split; [exact Le|exact A].
Qed.
Lemma no_crash b cs : (forall file l name f, hlibs file = LGood l -> In (name, f) (hl_handlers l) -> f <> HJunk) ->
  get_handlers hlibs (new_pipeline b fresh_world) cs <> Panic.
Proof.
  intros N E. destruct (get_handlers_ok cs [] _ (fresh_hw b)) as [[_ (prev & c & name & _ & _ & l1 & l2 & El & _)]|(w' & os' & E' & _)]; [|congruence].
  assert (Hi : In (name, HJunk) (known hlibs ([] ++ prev))) by (rewrite El; apply in_elt).
  destruct Hi as [Hi|Hi]; [discriminate|]. apply in_flat_map in Hi as (o & _ & Hi). unfold registers in Hi.
  destruct o as [[n k|file k]|]; try destruct Hi. destruct (hlibs file) as [| |l] eqn:El2; try destruct Hi. exact (N file l name HJunk El2 Hi eq_refl).
Qed.
Lemma new_count : forall os i, nth_error os i <> None -> forall n k, nth_error os i = Some (Some (HNew n k)) ->
  forall j, i < j -> length (List.filter is_new (firstn i os)) < length (List.filter is_new (firstn j os)).
Proof.
  induction os as [|o os IH]; intros [|i] H n k E j Hj; try discriminate.
  - cbn in E. injection E as ->. destruct j; [lia|]. cbn. lia.
  - destruct j as [|j]; [lia|]. cbn [nth_error] in *. cbn [firstn List.filter]. specialize (IH i H n k E j ltac:(lia)). destruct (is_new o); cbn; lia.
Qed.
Lemma own_handler_lt b cs w os i j h : get_handlers hlibs (new_pipeline b fresh_world) cs = Ok (w, os) -> i < j ->
  nth_error os i = Some (Some h) -> nth_error os j = Some (Some h) ->
  exists c name path l, nth_error cs j = Some c /\ mget "handler" c = Some (VStr name) /\ mget "handlerlibpath" c = Some (VStr path) /\
    h = HLib (path ++ "/" ++ name ++ ".so")%string (hl_kind l) /\ hlibs (path ++ "/" ++ name ++ ".so")%string = LGood l /\ forall f, ~ In (name, f) (hl_handlers l).
Proof.
  intros E L Hi Hj. destruct (resolution _ _ _ _ E) as [Le A].
  assert (Ci : exists c, nth_error cs i = Some c).
  { destruct (nth_error cs i) eqn:N; [eauto|]. apply nth_error_None in N. assert (i < length os) by (apply nth_error_Some; congruence). lia. }
  assert (Cj : exists c, nth_error cs j = Some c).
  { destruct (nth_error cs j) eqn:N; [eauto|]. apply nth_error_None in N. assert (j < length os) by (apply nth_error_Some; congruence). lia. }
  destruct Ci as [ci Ci], Cj as [cj Cj]. pose proof (A _ _ _ Ci Hi) as Ai. pose proof (A _ _ _ Cj Hj) as Aj. destruct h as [n k|file k].
  - destruct Ai as [Ai _], Aj as [Aj _]. pose proof (new_count os i ltac:(congruence) n k Hi j L). lia.
  - destruct Aj as (name & path & l & Hn & Nk & Hp & -> & Hl & ->). exists cj, name, path, l. repeat (split; [assumption || reflexivity|]).
    intros f Hf. apply (Nk f). right. apply in_flat_map. exists (Some (HLib (path ++ "/" ++ name ++ ".so")%string (hl_kind l))). split.
    + clear - Hi L. revert i j Hi L. induction os as [|o os IH]; intros [|i] [|j] Hi L; try discriminate; try lia.
      * cbn in Hi. injection Hi as ->. now left.
      * right. apply (IH i j Hi). lia.
    + cbn [registers]. rewrite Hl. exact Hf.
Qed.
End H.

(** ** The whole pipeline *)
Section Loads.
Variable b : variant.
Variable plibs : string -> libfile plib.
Variable hlibs : string -> libfile hlib.
Variable h_init : hkind -> conf -> bool.
Variable p_init : pkind -> conf -> bool.
Variable h_accepts p_accepts p_reads : nat -> gtype -> bool.
Notation load := (load_all b plibs hlibs h_init p_init h_accepts p_accepts 0).
Notation w0 := (new_pipeline b fresh_world).
Lemma says_builtin p ds : Forall2 says p ds -> forall d, In d ds -> forall n, wi_kind d <> KUser n.
Proof.
  induction 1 as [|c d p ds H F IH]; intros d' Hd n; [destruct Hd|]. destruct Hd as [<-|Hd]; [|auto].
  destruct H as ((name & _ & N) & _). exact (names_user _ _ n N).
Qed.
Lemma f2_len {A B} (R : A -> B -> Prop) l l' : Forall2 R l l' -> length l = length l'.
Proof. induction 1; cbn; congruence. Qed.
Lemma f2_in {A B} (R : A -> B -> Prop) l l' x : Forall2 R l l' -> In x l -> exists y, In y l' /\ R x y.
Proof. induction 1 as [|a c l l' H F IH]; intros Hx; [destruct Hx|]. destruct Hx as [<-|Hx]; [exists c; split; [now left|assumption]|]. destruct (IH Hx) as (y & ? & ?). exists y. split; [now right|assumption]. Qed.
Lemma f2_in_r {A B} (R : A -> B -> Prop) l l' y : Forall2 R l l' -> In y l' -> exists x, In x l /\ R x y.
Proof. induction 1 as [|a c l l' H F IH]; intros Hx; [destruct Hx|]. destruct Hx as [<-|Hx]; [exists a; split; [now left|assumption]|]. destruct (IH Hx) as (x & ? & ?). exists x. split; [now right|assumption]. Qed.
Lemma load_cases dir p ds : Forall2 says p ds -> Forall2 (settings_ok p_init) p ds ->
  let T := flag false ds in
  (exists w' sgs, load dir w0 p = Ok (w', sgs, false) /\ Forall2 (fits b T) ds sgs) \/
  (exists w' sgs, load dir w0 p = Ok (w', sgs, true) /\ exists d, In d ds /\ dead b T d) \/
  (load dir w0 p = Panic /\ exists d, In d ds /\ misfit b T d).
Proof. intros S O. exact (load_ok b plibs hlibs h_init p_init h_accepts p_accepts dir p ds false [] w0 (fresh_ok b) S O). Qed.
Lemma fits_started T ds sgs : Forall2 (fits b T) ds sgs -> T = flag false ds -> Forall2 (starts_as b ds) ds sgs.
Proof.
  intros F E. assert (G : forall l l', Forall2 (fits b T) l l' -> Forall2 (starts_as b ds) l l'); [|exact (G _ _ F)].
  clear F. subst T. induction 1 as [|d g l l' (H1 & H2 & H3) F IH]; constructor; [|assumption]. split; [assumption|]. split.
  - clear - H2. induction H2; constructor; [apply channel_first|]; assumption.
  - clear - H3. induction H3 as [|m ch ms chs [H _] F IH]; constructor; [apply channel_first|]; assumption.
Qed.
Lemma loads_iff dir p ds : Forall2 says p ds -> Forall2 (settings_ok p_init) p ds ->
  (exists w sgs, load dir w0 p = Ok (w, sgs, false) /\ forall g, In g sgs -> crashes b p_reads g = false) <-> well_wired b ds.
Proof.
  intros S O. pose proof (load_cases dir p ds S O) as C. cbn zeta in C. pose proof (says_builtin p ds S) as NU. split.
  - intros (w & sgs & E & NC). destruct C as [(w' & sgs' & E' & F)|[(w' & sgs' & E' & _)|(E' & _)]]; try congruence.
    rewrite E in E'. injection E' as <- <-. intros d Hd. destruct (f2_in _ _ _ _ F Hd) as (g & Hg & Kg & Fi & Fo). split.
    + intros id ty Hm. destruct (f2_in _ _ _ _ Fi Hm) as (ch & Hch & Fc). exists (tc_type ch). split; [apply channel_first; exact Fc|].
      intros L. specialize (NC g Hg). unfold crashes in NC. assert (Le := f2_len _ _ _ Fi). rewrite L in Le.
      destruct (st_ins g) as [|x [|]]; try discriminate. destruct Hch as [->|[]]. apply negb_false_iff in NC. rewrite Kg in NC. exact (proj1 (reads_takes b p_reads _ _ (NU d Hd)) NC).
    + intros id ty Hm. destruct (f2_in _ _ _ _ Fo Hm) as (ch & Hch & Fc & G). exists (tc_type ch). split; [apply channel_first; exact Fc|exact G].
  - intros W. destruct C as [(w' & sgs' & E' & F)|[(w' & sgs' & E' & d & Hd & m & Hm & D)|(E' & d & Hd & m & t & Hm & Ft & G)]].
    + exists w', sgs'. split; [exact E'|]. intros g Hg. destruct (f2_in_r _ _ _ _ F Hg) as (d & Hd & Kg & Fi & Fo). unfold crashes.
      destruct (st_ins g) as [|ch [|]] eqn:Ei; try reflexivity. apply negb_false_iff. rewrite Kg. apply (reads_takes b p_reads _ _ (NU d Hd)).
      inversion Fi as [|[id ty] ch' ms chs Hf Ff Em]; subst. inversion Ff; subst. destruct (W d Hd) as [Wi _].
      destruct (Wi id ty) as (t & Ht & Tk); [rewrite <- Em; now left|]. apply channel_first in Ht. rewrite (first_fun b _ _ _ _ Hf Ht). apply Tk. rewrite <- Em. reflexivity.
    + exfalso. destruct m as [id ty]. destruct (W d Hd) as [Wi Wo]. apply in_app_or in Hm as [Hm|Hm].
      * destruct (Wi id ty Hm) as (t & Ht & _). apply channel_first in Ht. exact (D t Ht).
      * destruct (Wo id ty Hm) as (t & Ht & _). apply channel_first in Ht. exact (D t Ht).
    + exfalso. destruct m as [id ty]. destruct (W d Hd) as [_ Wo]. destruct (Wo id ty Hm) as (t' & Ht & G'). apply channel_first in Ht.
      rewrite (first_fun b _ _ _ _ Ft Ht) in G. exact (G G').
Qed.
Lemma started_as dir p ds w sgs : Forall2 says p ds -> Forall2 (settings_ok p_init) p ds -> load dir w0 p = Ok (w, sgs, false) -> Forall2 (starts_as b ds) ds sgs.
Proof.
  intros S O E. destruct (load_cases dir p ds S O) as [(w' & sgs' & E' & F)|[(w' & sgs' & E' & _)|(E' & _)]]; try congruence.
  rewrite E in E'. injection E' as <- <-. exact (fits_started _ _ _ F eq_refl).
Qed.
Lemma crash_only dir p ds : Forall2 says p ds -> Forall2 (settings_ok p_init) p ds ->
  load dir w0 p = Panic -> exists d id ty t, In d ds /\ In (id, ty) (wi_outs d) /\ channel_type b ds id t /\ ~ gives b (wi_kind d) t.
Proof.
  intros S O E. destruct (load_cases dir p ds S O) as [(w' & sgs' & E' & F)|[(w' & sgs' & E' & _)|(_ & d & Hd & [id ty] & t & Hm & Hf & G)]]; try congruence.
  exists d, id, ty, t. split; [assumption|]. split; [assumption|]. split; [apply channel_first; exact Hf|assumption].
Qed.
End Loads.

Lemma set_cache_nth k f w c : nth_error (w_caches w) k = Some c -> nth_error (w_caches (set_cache k f w)) k = Some (f c).
Proof.
  unfold set_cache; cbn [w_caches]. generalize (w_caches w) as l. intros l H.
  assert (G : forall l s, nth_error l k = Some c -> nth_error (map (fun ic : nat * pcache => if Nat.eqb (fst ic) (s + k) then f (snd ic) else snd ic) (combine (seq s (length l)) l)) k = Some (f c)).
  { clear. induction k as [|k IH]; intros [|x l] s H; try discriminate; cbn [length seq combine map nth_error] in *.
    - injection H as ->. cbn. rewrite Nat.add_0_r, Nat.eqb_refl. reflexivity.
    - replace (s + S k) with (S s + k) by lia. exact (IH l (S s) H). }
  exact (G l 0 H).
Qed.
Lemma set_cache_other k j f w : j <> k -> nth_error (w_caches (set_cache k f w)) j = nth_error (w_caches w) j.
Proof.
  unfold set_cache; cbn [w_caches]. generalize (w_caches w) as l. intros l N.
  assert (G : forall l s j, s + j <> k -> nth_error (map (fun ic : nat * pcache => if Nat.eqb (fst ic) k then f (snd ic) else snd ic) (combine (seq s (length l)) l)) j = nth_error l j).
  { clear. induction l as [|x l IH]; intros s j N; destruct j as [|j]; try reflexivity; cbn [length seq combine map nth_error].
    - cbn. destruct (Nat.eqb s k) eqn:E; [apply Nat.eqb_eq in E; lia|reflexivity].
    - apply IH. lia. }
  exact (G l 0 j N).
Qed.
Lemma set_cache_len k f w : length (w_caches (set_cache k f w)) = length (w_caches w).
Proof. unfold set_cache; cbn [w_caches]. rewrite map_length, combine_length, seq_length. lia. Qed.

(** ** A later pipeline of the same process *)
Section Second.
Variable b : variant.
Variable plibs : string -> libfile plib.
Variable hlibs : string -> libfile hlib.
Variable h_init : hkind -> conf -> bool.
Variable p_init : pkind -> conf -> bool.
Variable h_accepts p_accepts p_reads : nat -> gtype -> bool.
Hypothesis NP : forall file l, plibs file <> LGood l.
Hypothesis NH : forall file l, hlibs file <> LGood l.
Definition no_flat (c : pcache) : Prop := (forall ty, mget ty (pc_types c) <> Some (CFactory GFlat)) /\ forall id ch, mget id (pc_chans c) = Some ch -> tc_type ch <> GFlat.
Definition second_ok (k : nat) (w : world) : Prop := (w_hc w = None -> exists j, w_pc w = Some j /\ j <> k) /\ exists c, nth_error (w_caches w) k = Some c /\ no_flat c.
Lemma tag_list_flat : forall l c c' o, no_flat c -> tag_list c l = Ok (c', o) -> no_flat c' /\ forall chs ch, o = Some chs -> In ch chs -> tc_type ch <> GFlat.
Proof.
  induction l as [|r l IH]; intros c c' o N E; cbn [tag_list] in E.
  - injection E as <- <-. split; [assumption|]. intros chs ch [= <-] [].
  - destruct r as [req| |]; try discriminate. unfold get_tchan in E. destruct (fields req) as [|id [|ty [|]]]; try discriminate.
    2:{ cbn [rbind] in E. injection E as <- <-. split; [assumption|discriminate]. }
    destruct (mget id (pc_chans c)) as [ch|] eqn:M; cbn [rbind] in E.
    + destruct (tag_list c l) as [[c2 o2]| | |] eqn:E2; try discriminate. cbn [rbind] in E. injection E as <- <-. destruct (IH _ _ _ N E2) as [N2 H2].
      split; [assumption|]. intros chs ch' Eo Hc. destruct o2 as [chs2|]; [|discriminate]. injection Eo as <-. destruct Hc as [<-|Hc]; [exact (proj2 N id ch M)|exact (H2 _ _ eq_refl Hc)].
    + destruct (mget ty (pc_types c)) as [[t|]|] eqn:Mt; cbn [rbind] in E; try discriminate.
      2:{ injection E as <- <-. split; [assumption|discriminate]. }
      set (ch := mkTChan (pc_next c) t) in *. set (c1 := mkPC (pc_procs c) (pc_types c) (mset id ch (pc_chans c)) (S (pc_next c))) in *.
      assert (Nt : t <> GFlat) by (intros ->; exact (proj1 N ty Mt)).
      assert (N1 : no_flat c1).
      { split; [exact (proj1 N)|]. intros id' ch'. unfold c1; cbn [pc_chans]. rewrite mget_mset. destruct (seqb id' id); [intros [= <-]; exact Nt|exact (proj2 N id' ch')]. }
      destruct (tag_list c1 l) as [[c2 o2]| | |] eqn:E2; try discriminate. cbn [rbind] in E. injection E as <- <-. destruct (IH _ _ _ N1 E2) as [N2 H2].
      split; [assumption|]. intros chs ch' Eo Hc. destruct o2 as [chs2|]; [|discriminate]. injection Eo as <-. destruct Hc as [<-|Hc]; [exact Nt|exact (H2 _ _ eq_refl Hc)].
Qed.
Lemma tags_flat k w v w' o : second_ok k w -> tag_tchans k w v = Ok (w', o) -> second_ok k w' /\ forall chs ch, o = Some chs -> In ch chs -> tc_type ch <> GFlat.
Proof.
  intros (Hm & c & Hc & N) E. unfold tag_tchans in E. rewrite Hc in E.
  destruct (tag_list c _) as [[c1 o1]| | |] eqn:E1; try discriminate. cbn [rbind] in E. injection E as <- <-. destruct (tag_list_flat _ _ _ _ N E1) as [N1 H1].
  split; [|exact H1]. split; [exact Hm|]. exists c1. split; [|exact N1]. exact (set_cache_nth k (fun _ => c1) w c Hc).
Qed.
Lemma get_handler_second k w c w' o : second_ok k w -> get_handler hlibs w c = Ok (w', o) -> second_ok k w'.
Proof.
  intros (Hm & c0 & Hc & N) E. unfold get_handler in E.
  destruct (hc_instance w) as [[w1 m]| | |] eqn:E1; try discriminate. cbn [rbind] in E.
  assert (W : second_ok k w1 /\ w_hc w1 = Some m).
  { unfold hc_instance in E1. destruct (w_hc w) as [m0|] eqn:Eh.
    - injection E1 as <- <-. split; [|exact Eh]. split; [congruence|eauto].
    - destruct (Hm eq_refl) as (j & Hj & Nj). rewrite Hj in E1. injection E1 as <- <-. split; [|reflexivity]. split; [discriminate|].
      exists c0. split; [|exact N]. change (nth_error (w_caches (set_cache j (reg_types [("flattenerchan", CFactory GFlat)]) w)) k = Some c0). rewrite set_cache_other by congruence. exact Hc. }
  clear Hm Hc N E1. destruct W as [W Hm].
  destruct (mget "handler" c) as [[name| |]|]; try (injection E as <- <-; exact W).
  destruct (mget name m) as [[kd|]|]; try discriminate.
  - injection E as <- <-. destruct W as (W1 & c1 & Hc1 & N1). split; [cbn [w_hc w_pc]; exact W1|]. exists c1. split; assumption.
  - destruct (mget "handlerlibpath" c) as [[path| |]|]; try (injection E as <- <-; exact W).
    unfold load_handler in E. destruct (hlibs (path ++ "/" ++ name ++ ".so")%string) as [| |l] eqn:El; [| |destruct (NH _ _ El)]; injection E as <- <-; exact W.
Qed.
Lemma load_second dir : forall p k w w' sgs err, second_ok k w -> load_all b plibs hlibs h_init p_init h_accepts p_accepts k dir w p = Ok (w', sgs, err) ->
  forall g ch, In g sgs -> In ch (st_ins g ++ st_outs g) -> tc_type ch <> GFlat.
Proof.
  induction p as [|c p IH]; intros k w w' sgs err W E g ch Hg Hc; cbn [load_all] in E; [injection E as <- <- <-; destruct Hg|].
  destruct (mget ProcConfig c) as [[name| |]|]; try (injection E as <- <- <-; destruct Hg; fail).
  destruct (get_processor plibs k w dir name) as [[w1 ok]| | |] eqn:E1; try discriminate. cbn [rbind] in E.
  assert (W1 : w1 = w).
  { unfold get_processor in E1. destruct (nth_error (w_caches w) k) as [c0|]; [destruct (mget name (pc_procs c0)) as [[|]|]|]; try discriminate; try (injection E1 as <- _; reflexivity);
    (destruct (plibs (dir ++ "/" ++ name ++ ".so")%string) as [| |l] eqn:El; [| |destruct (NP _ _ El)]; injection E1 as <- _; reflexivity). }
  subst w1. destruct ok as [kind|]; [|injection E as <- <- <-; destruct Hg].
  destruct (init_stage hlibs h_init p_init w kind c) as [[[w2 h] good]| | |] eqn:E2; try discriminate. cbn [rbind] in E.
  assert (W2 : second_ok k w2).
  { unfold init_stage in E2. destruct kind; try (injection E2 as <- _ _; exact W);
      (destruct (get_handler hlibs w c) as [[w3 o]| | |] eqn:E3; try discriminate; cbn [rbind] in E2; pose proof (get_handler_second _ _ _ _ _ W E3) as W3; destruct o; injection E2 as <- _ _; exact W3). }
  destruct good; [|injection E as <- <- <-; destruct Hg].
  destruct (mget InChanConfig c) as [v|]; [|injection E as <- <- <-; destruct Hg].
  destruct (tag_tchans k w2 v) as [[w3 oi]| | |] eqn:E3; try discriminate. cbn [rbind] in E. destruct (tags_flat _ _ _ _ _ W2 E3) as [W3 F3].
  destruct oi as [ins|]; [|injection E as <- <- <-; destruct Hg].
  destruct (match mget OutChanConfig c with None => Ok (w3, Some []) | Some o => tag_tchans k w3 o end) as [[w4 oo]| | |] eqn:E4; try discriminate. cbn [rbind] in E.
  assert (F4 : second_ok k w4 /\ forall chs ch, oo = Some chs -> In ch chs -> tc_type ch <> GFlat).
  { destruct (mget OutChanConfig c) as [o|]; [exact (tags_flat _ _ _ _ _ W3 E4)|]. injection E4 as <- <-. split; [exact W3|]. intros chs ch' [= <-] []. }
  destruct F4 as [W4 F4]. destruct oo as [outs|]; [|injection E as <- <- <-; destruct Hg].
  destruct (forallb _ outs); [|discriminate].
  destruct (load_all b plibs hlibs h_init p_init h_accepts p_accepts k dir w4 p) as [[[w5 sgs'] err']| | |] eqn:E5; try discriminate. cbn [rbind] in E. injection E as <- <- <-.
  destruct Hg as [<-|Hg]; [|exact (IH _ _ _ _ _ W4 E5 g ch Hg Hc)]. cbn [st_ins st_outs] in Hc. apply in_app_or in Hc as [Hc|Hc]; [exact (F3 _ _ eq_refl Hc)|exact (F4 _ _ eq_refl Hc)].
Qed.
Lemma new_second w j : w_pc w = Some j -> j < length (w_caches w) -> second_ok (length (w_caches w)) (new_pipeline b w).
Proof.
  intros H L. split; [intros _; cbn [new_pipeline w_pc]; rewrite H; exists j; split; [reflexivity|lia]|]. eexists. cbn [new_pipeline w_caches]. split; [rewrite nth_error_app2, Nat.sub_diag by lia; reflexivity|].
  split; [|cbn; discriminate]. cbn [pc_types]. intros ty. pose proof (types_spec b false ty) as Ty. unfold types_of in Ty. rewrite app_nil_r in Ty. intros E. rewrite E in Ty.
  destruct Ty as [C F]. unfold carries in C. destruct C as [[-> C]|[[-> C]|[[-> C]|[[-> C]|[-> C]]]]]; try discriminate.
  - destruct b; discriminate.
Qed.
End Second.

(** ** What loading leaves alone, and the processors *)
Lemma mget_app {V} k (x y : gomap V) : mget k (x ++ y) = match mget k x with Some v => Some v | None => mget k y end.
Proof. induction x as [|[k' v] x IH]; [reflexivity|]. cbn [List.app mget]. destruct (seqb k k'); [reflexivity|exact IH]. Qed.
Section Keep.
Variable b : variant.
Variable plibs : string -> libfile plib.
Variable hlibs : string -> libfile hlib.
Variable h_init : hkind -> conf -> bool.
Variable p_init : pkind -> conf -> bool.
Variable h_accepts p_accepts : nat -> gtype -> bool.
Definition procs (k : nat) (w : world) : option (gomap pfac) := option_map pc_procs (nth_error (w_caches w) k).
Definition keeps (w w' : world) : Prop := w_pc w' = w_pc w /\ length (w_caches w') = length (w_caches w).
Lemma keeps_refl w : keeps w w. Proof. split; reflexivity. Qed.
Lemma keeps_trans w1 w2 w3 : keeps w1 w2 -> keeps w2 w3 -> keeps w1 w3.
Proof. intros [A1 A2] [B1 B2]. split; congruence. Qed.
Lemma keeps_set k f w : keeps w (set_cache k f w).
Proof. split; [reflexivity|apply set_cache_len]. Qed.
Lemma procs_set j k f w : (forall c, nth_error (w_caches w) k = Some c -> pc_procs (f c) = pc_procs c) -> procs j (set_cache k f w) = procs j w.
Proof.
  intros H. unfold procs. destruct (Nat.eq_dec j k) as [->|N]; [|now rewrite set_cache_other].
  destruct (nth_error (w_caches w) k) as [c|] eqn:E.
  - rewrite (set_cache_nth _ _ _ _ E). cbn. f_equal. exact (H c eq_refl).
  - apply nth_error_None in E. rewrite <- (set_cache_len k f w) in E. apply nth_error_None in E. now rewrite E.
Qed.
Lemma handler_keeps w c w' o : get_handler hlibs w c = Ok (w', o) -> keeps w w' /\ forall j, procs j w' = procs j w.
Proof.
  intros E. unfold get_handler in E. destruct (hc_instance w) as [[w1 m]| | |] eqn:E1; try discriminate. cbn [rbind] in E.
  assert (K : keeps w w1 /\ forall j, procs j w1 = procs j w).
  { unfold hc_instance in E1. destruct (w_hc w); [injection E1 as <- _; split; [apply keeps_refl|reflexivity]|].
    destruct (w_pc w) as [k|] eqn:Ek; [|discriminate]. injection E1 as <- _. split.
    - split; [reflexivity|exact (set_cache_len k _ w)].
    - intros j. exact (procs_set j k (reg_types [("flattenerchan", CFactory GFlat)]) w (fun _ _ => eq_refl)). }
  clear E1. destruct K as [K1 K2].
  destruct (mget "handler" c) as [[name| |]|]; try (injection E as <- _; split; [exact K1|exact K2]).
  destruct (mget name m) as [[kd|]|]; try discriminate; [injection E as <- _; split; [exact K1|exact K2]|].
  destruct (mget "handlerlibpath" c) as [[path| |]|]; try (injection E as <- _; split; [exact K1|exact K2]).
  unfold load_handler in E. destruct (hlibs _) as [| |l]; try (injection E as <- _; split; [exact K1|exact K2]).
  destruct (w_pc w1) as [k|] eqn:Ek; injection E as <- _; [|split; [exact K1|exact K2]]. split.
  - apply (keeps_trans _ w1 _ K1). split; [cbn [w_pc set_cache]; congruence|exact (set_cache_len k _ w1)].
  - intros j. rewrite <- K2. exact (procs_set j k (reg_types (hl_types l)) w1 (fun _ _ => eq_refl)).
Qed.
Lemma init_keeps w p c w' h g : init_stage hlibs h_init p_init w p c = Ok (w', h, g) -> keeps w w' /\ forall j, procs j w' = procs j w.
Proof.
  intros E. unfold init_stage in E. destruct p; try (injection E as <- _ _; split; [apply keeps_refl|reflexivity]);
    (destruct (get_handler hlibs w c) as [[w1 o]| | |] eqn:E1; try discriminate; cbn [rbind] in E; destruct o; injection E as <- _ _; exact (handler_keeps _ _ _ _ E1)).
Qed.
Lemma tag_procs : forall l c c' o, tag_list c l = Ok (c', o) -> pc_procs c' = pc_procs c.
Proof.
  induction l as [|r l IH]; intros c c' o E; cbn [tag_list] in E; [injection E as <- _; reflexivity|].
  destruct r as [req| |]; try discriminate. destruct (get_tchan c req) as [[c1 o1]| | |] eqn:E1; try discriminate. cbn [rbind] in E.
  assert (P : pc_procs c1 = pc_procs c).
  { unfold get_tchan in E1. destruct (fields req) as [|id [|ty [|]]]; try discriminate; [|injection E1 as <- _; reflexivity].
    destruct (mget id (pc_chans c)); [injection E1 as <- _; reflexivity|]. destruct (mget ty (pc_types c)) as [[t|]|]; try discriminate; injection E1 as <- _; reflexivity. }
  destruct o1 as [ch|]; [|injection E as <- _; exact P]. destruct (tag_list c1 l) as [[c2 o2]| | |] eqn:E2; try discriminate. cbn [rbind] in E. injection E as <- _.
  rewrite (IH _ _ _ E2). exact P.
Qed.
Lemma tags_keep k w v w' o : tag_tchans k w v = Ok (w', o) -> keeps w w' /\ forall j, procs j w' = procs j w.
Proof.
  intros E. unfold tag_tchans in E. destruct (nth_error (w_caches w) k) as [c|] eqn:Ec; [|discriminate].
  destruct (tag_list c _) as [[c1 o1]| | |] eqn:E1; try discriminate. cbn [rbind] in E. injection E as <- _. split; [apply keeps_set|].
  intros j. apply procs_set. intros c' Hc. rewrite Ec in Hc. injection Hc as <-. exact (tag_procs _ _ _ _ E1).
Qed.
Lemma proc_keeps k w dir name w' o : get_processor plibs k w dir name = Ok (w', o) -> keeps w w'.
Proof.
  intros E. unfold get_processor in E. destruct (match nth_error (w_caches w) k with Some c => mget name (pc_procs c) | None => None end) as [[p|]|]; try discriminate.
  - injection E as <- _. apply keeps_refl.
  - destruct (plibs _) as [| |l]; try (injection E as <- _; apply keeps_refl).
    destruct (match nth_error (w_caches (set_cache k (reg_plib l) w)) k with Some c => mget name (pc_procs c) | None => None end) as [[p|]|]; try discriminate; injection E as <- _; apply keeps_set.
Qed.
(** The one walk through load_all: what is kept, and the kinds of the stages. *)
Lemma load_walk k dir : forall p w w' sgs err reg m, load_all b plibs hlibs h_init p_init h_accepts p_accepts k dir w p = Ok (w', sgs, err) ->
  procs k w = Some m -> (forall name, mget name m = mget name (rev reg)) ->
  keeps w w' /\ exists names, Forall2 (fun c name => mget ProcConfig c = Some (VStr name)) (firstn (length sgs) p) names /\ resolves plibs dir reg names (map st_kind sgs).
Proof.
  induction p as [|c p IH]; intros w w' sgs err reg m E Hm Hr; cbn [load_all] in E.
  - injection E as <- <- _. split; [apply keeps_refl|]. exists []. split; constructor.
  - assert (Stop : forall w1, keeps w w1 -> w1 = w' -> sgs = [] -> keeps w w' /\ exists names, Forall2 (fun c name => mget ProcConfig c = Some (VStr name)) (firstn (length sgs) (c :: p)) names /\ resolves plibs dir reg names (map st_kind sgs)).
    { intros w1 K -> ->. split; [exact K|]. exists []. split; constructor. }
    destruct (mget ProcConfig c) as [[name| |]|] eqn:Ep; try (injection E as E1 E2 _; apply (Stop w); [apply keeps_refl|exact E1|auto]).
    destruct (get_processor plibs k w dir name) as [[w1 ok]| | |] eqn:E1; try discriminate. cbn [rbind] in E.
    pose proof (proc_keeps _ _ _ _ _ _ E1) as K1.
    destruct ok as [kind|]; [|injection E as E2 E3 _; apply (Stop w1); auto].
    destruct (init_stage hlibs h_init p_init w1 kind c) as [[[w2 h] good]| | |] eqn:E2; try discriminate. cbn [rbind] in E.
    destruct (init_keeps _ _ _ _ _ _ E2) as [K2 P2]. pose proof (keeps_trans _ _ _ K1 K2) as K2'.
    destruct good; [|injection E as E3 E4 _; apply (Stop w2); auto].
    destruct (mget InChanConfig c) as [v|]; [|injection E as E3 E4 _; apply (Stop w2); auto].
    destruct (tag_tchans k w2 v) as [[w3 oi]| | |] eqn:E3; try discriminate. cbn [rbind] in E.
    destruct (tags_keep _ _ _ _ _ E3) as [K3 P3]. pose proof (keeps_trans _ _ _ K2' K3) as K3'.
    destruct oi as [ins|]; [|injection E as E4 E5 _; apply (Stop w3); auto].
    destruct (match mget OutChanConfig c with None => Ok (w3, Some []) | Some o => tag_tchans k w3 o end) as [[w4 oo]| | |] eqn:E4; try discriminate. cbn [rbind] in E.
    assert (K4 : keeps w3 w4 /\ forall j, procs j w4 = procs j w3) by (destruct (mget OutChanConfig c); [exact (tags_keep _ _ _ _ _ E4)|injection E4 as <- _; split; [apply keeps_refl|reflexivity]]).
    destruct K4 as [K4 P4]. pose proof (keeps_trans _ _ _ K3' K4) as K4'.
    destruct oo as [outs|]; [|injection E as E5 E6 _; apply (Stop w4); auto].
    destruct (forallb _ outs); [|discriminate].
    destruct (load_all b plibs hlibs h_init p_init h_accepts p_accepts k dir w4 p) as [[[w5 sgs'] err']| | |] eqn:E5; try discriminate. cbn [rbind] in E. injection E as <- <- _.
    assert (Pw : procs k w4 = procs k w1) by (rewrite P4, P3, P2; reflexivity).
    unfold procs in Hm. destruct (nth_error (w_caches w) k) as [c0|] eqn:Ec; [|discriminate]. cbn in Hm. injection Hm as Hm.
    unfold get_processor in E1. rewrite Ec, Hm, Hr in E1. cbn [length firstn map st_kind].
    destruct (mget name (rev reg)) as [[p0|]|] eqn:El; try discriminate.
    + injection E1 as <- <-. assert (Pm : procs k w4 = Some m) by (rewrite Pw; unfold procs; rewrite Ec; cbn; now rewrite Hm).
      destruct (IH w4 w5 sgs' err' reg m E5 Pm Hr) as [K5 (names & F & R)]. split; [exact (keeps_trans _ _ _ K4' K5)|].
      exists (name :: names). split; [constructor; assumption|]. apply R_known; [apply last_get; exact El|exact R].
    + destruct (plibs (dir ++ "/" ++ name ++ ".so")%string) as [| |l] eqn:Elib; try discriminate.
      rewrite (set_cache_nth _ _ _ _ Ec) in E1. cbn [reg_plib pc_procs] in E1. rewrite Hm, add_all_get, Hr, El in E1.
      destruct (mget name (rev (pl_procs l))) as [[p0|]|] eqn:Ell; try discriminate. injection E1 as <- <-.
      assert (Pm : procs k w4 = Some (add_all (pl_procs l) m)) by (rewrite Pw; unfold procs; rewrite (set_cache_nth _ _ _ _ Ec); cbn; now rewrite Hm).
      assert (Hr2 : forall n, mget n (add_all (pl_procs l) m) = mget n (rev (reg ++ pl_procs l))).
      { intros n. rewrite add_all_get, rev_app_distr, mget_app, Hr. reflexivity. }
      destruct (IH w4 w5 sgs' err' _ _ E5 Pm Hr2) as [K5 (names & F & R)]. split; [exact (keeps_trans _ _ _ K4' K5)|].
      exists (name :: names). split; [constructor; assumption|]. exact (R_library _ _ reg name l p0 names _ (proj1 (last_none _ _) El) Elib (proj1 (last_get _ _ _) Ell) R).
Qed.
Lemma new_procs w : procs (length (w_caches w)) (new_pipeline b w) = Some (add_all builtin_procs []).
Proof. unfold procs, new_pipeline; cbn [w_caches]. rewrite nth_error_app2, Nat.sub_diag by lia. reflexivity. Qed.
Lemma resolution_procs dir w p w' sgs err : load_all b plibs hlibs h_init p_init h_accepts p_accepts (length (w_caches w)) dir (new_pipeline b w) p = Ok (w', sgs, err) ->
  keeps (new_pipeline b w) w' /\ exists names, Forall2 (fun c name => mget ProcConfig c = Some (VStr name)) (firstn (length sgs) p) names /\ resolves plibs dir own_processors names (map st_kind sgs).
Proof.
  intros E. apply (load_walk _ _ _ _ _ _ _ _ _ E (new_procs w)). intros name. rewrite add_all_get. cbn [mget]. change builtin_procs with own_processors. destruct (mget name (rev own_processors)); reflexivity.
Qed.
Lemma after_pc n w : after_loads b plibs hlibs h_init p_init h_accepts p_accepts n w -> length (w_caches w) = n /\ w_pc w = (match n with 0 => None | S _ => Some 0 end).
Proof.
  induction 1 as [|n w dir p w' sgs err A [IH1 IH2] E]; [split; reflexivity|]. rewrite <- IH1 in E.
  destruct (resolution_procs _ _ _ _ _ _ E) as [[K1 K2] _]. rewrite K1, K2. cbn [new_pipeline w_caches w_pc]. rewrite app_length, IH1, IH2. cbn [length]. split; [lia|].
  destruct n; reflexivity.
Qed.
(** An entry without a processor's name ends the loading: what comes after it is not looked at. *)
Lemma load_cut k dir : forall p w c q, (forall name, mget ProcConfig c <> Some (VStr name)) ->
  load_all b plibs hlibs h_init p_init h_accepts p_accepts k dir w (p ++ c :: q) = load_all b plibs hlibs h_init p_init h_accepts p_accepts k dir w p.
Proof.
  induction p as [|c0 p IH]; intros w c q N.
  - cbn [List.app load_all]. destruct (mget ProcConfig c) as [[name| |]|]; try reflexivity. now destruct (N name).
  - cbn [List.app load_all]. destruct (mget ProcConfig c0) as [[name| |]|]; try reflexivity.
    destruct (get_processor plibs k w dir name) as [[w1 [kind|]]| | |]; try reflexivity. cbn [rbind].
    destruct (init_stage hlibs h_init p_init w1 kind c0) as [[[w2 h] []]| | |]; try reflexivity. cbn [rbind].
    destruct (mget InChanConfig c0) as [v|]; try reflexivity.
    destruct (tag_tchans k w2 v) as [[w3 [ins|]]| | |]; try reflexivity. cbn [rbind].
    destruct (match mget OutChanConfig c0 with None => Ok (w3, Some []) | Some o => tag_tchans k w3 o end) as [[w4 [outs|]]| | |]; try reflexivity. cbn [rbind].
    destruct (forallb _ outs); [|reflexivity]. now rewrite IH.
Qed.
End Keep.

(** A stage whose processor and channel types come from a library. *)
Lemma library_types b plibs hlibs h_init p_init h_accepts p_accepts n w dir c q w' sgs err name l u ri i tyi ti ro o tyo to :
  after_loads b plibs hlibs h_init p_init h_accepts p_accepts n w ->
  mget "processor" c = Some (VStr name) -> (forall f, ~ In (name, f) own_processors) ->
  plibs (dir ++ "/" ++ name ++ ".so")%string = LGood l -> last_said (pl_procs l) name (PFactory (KUser u)) ->
  p_init (KUser u) c = true -> mget "in" c = Some (VStr ri) -> asks ri i tyi -> mget "out" c = Some (VStr ro) -> asks ro o tyo -> i <> o ->
  last_said (builtin_types b ++ pl_types l) tyi (CFactory ti) -> last_said (builtin_types b ++ pl_types l) tyo (CFactory to) -> p_accepts u to = true ->
  load_all b plibs hlibs h_init p_init h_accepts p_accepts n dir (new_pipeline b w) (c :: q) = Ok (w', sgs, err) ->
  exists sgs', sgs = mkStarted (KUser u) None [mkTChan 0 ti] [mkTChan 1 to] :: sgs'.
Proof.
  intros A Hc Ho Hl Hp Hi Hin Ai Hout Ao N Ti To Acc E. destruct (after_pc _ _ _ _ _ _ _ _ _ A) as [L _]. subst n.
  apply last_get in Hp. apply last_get in Ti. apply last_get in To. apply asks_fields in Ai. apply asks_fields in Ao.
  assert (Ec : nth_error (w_caches (new_pipeline b w)) (length (w_caches w)) = Some (mkPC (add_all builtin_procs []) (add_all (builtin_types b) []) [] 0)).
  { cbn [new_pipeline w_caches]. rewrite nth_error_app2, Nat.sub_diag by lia. reflexivity. }
  set (w0 := new_pipeline b w) in *. clearbody w0. set (k := length (w_caches w)) in *. clearbody k.
  assert (Mt : forall ty, mget ty (add_all (pl_types l) (add_all (builtin_types b) [])) = mget ty (rev (builtin_types b ++ pl_types l))).
  { intros ty. rewrite !add_all_get, rev_app_distr, mget_app. destruct (mget ty (rev (pl_types l))); [reflexivity|]. destruct (mget ty (rev (builtin_types b))); reflexivity. }
  cbn [load_all] in E. change ProcConfig with "processor" in E. rewrite Hc in E. unfold get_processor in E. rewrite Ec in E. cbn [pc_procs] in E.
  rewrite add_all_get in E. change builtin_procs with own_processors in E. rewrite (proj2 (last_none _ _) Ho) in E. cbn [mget] in E.
  rewrite Hl in E. pose proof (set_cache_nth k (reg_plib l) w0 _ Ec) as E1. rewrite E1 in E. cbn [reg_plib pc_procs] in E. rewrite add_all_get, Hp in E. cbn [rbind] in E.
  unfold init_stage in E. cbn [rbind] in E. rewrite Hi in E. change InChanConfig with "in" in E. rewrite Hin in E.
  set (w1 := set_cache k (reg_plib l) w0) in *. clearbody w1.
  unfold tag_tchans in E. rewrite E1 in E. cbn [tag_list] in E. unfold get_tchan in E. rewrite Ai in E. cbn [reg_plib pc_chans pc_types pc_procs pc_next mget] in E.
  rewrite Mt, Ti in E. cbn [rbind option_map] in E. change OutChanConfig with "out" in E. rewrite Hout in E.
  match type of E with context [set_cache k ?f w1] => pose proof (set_cache_nth k f w1 _ E1) as E2; set (w2 := set_cache k f w1) in *; clearbody w2 end.
  rewrite E2 in E. cbn [tag_list rbind] in E. try unfold get_tchan in E. rewrite Ao in E. cbn [pc_chans pc_types pc_procs pc_next mset mget] in E.
  rewrite (proj2 (seqb_neq o i)) in E by congruence. rewrite Mt, To in E. cbn [rbind option_map forallb tc_type] in E.
  unfold accepts in E. cbn in E. rewrite Acc in E. cbn [andb] in E.
  match type of E with context [load_all ?a1 ?a2 ?a3 ?a4 ?a5 ?a6 ?a7 ?a8 ?a9 ?a10 q] => destruct (load_all a1 a2 a3 a4 a5 a6 a7 a8 a9 a10 q) as [[[w5 s5] e5]| | |]; try discriminate end.
  cbn [rbind] in E. injection E as _ <- _. eexists. reflexivity.
Qed.
(** The same for the handler's library, in the first pipeline of a process. *)
Lemma handler_types b plibs hlibs h_init p_init h_accepts p_accepts dir c q w' sgs err k name path l ri i tyi ti ro o tyo to :
  mget "processor" c = Some (VStr name) -> names_kind name k -> has_handler k -> forall hn u,
  mget "handler" c = Some (VStr hn) -> hn <> "flattener" -> mget "handlerlibpath" c = Some (VStr path) ->
  hlibs (path ++ "/" ++ hn ++ ".so")%string = LGood l -> hl_kind l = HUser u -> h_init (HUser u) c = true ->
  mget "in" c = Some (VStr ri) -> asks ri i tyi -> mget "out" c = Some (VStr ro) -> asks ro o tyo -> i <> o ->
  last_said (builtin_types b ++ ("flattenerchan", CFactory GFlat) :: hl_types l) tyi (CFactory ti) ->
  last_said (builtin_types b ++ ("flattenerchan", CFactory GFlat) :: hl_types l) tyo (CFactory to) -> h_accepts u to = true ->
  load_all b plibs hlibs h_init p_init h_accepts p_accepts 0 dir (new_pipeline b fresh_world) (c :: q) = Ok (w', sgs, err) ->
  exists sgs', sgs = mkStarted k (Some (HLib (path ++ "/" ++ hn ++ ".so") (HUser u))) [mkTChan 0 ti] [mkTChan 1 to] :: sgs'.
Proof.
  intros Hc Hk Hh hn u Hhn Nf Hpa Hl Hku Hi Hin Ai Hout Ao N Ti To Acc E.
  apply last_get in Ti. apply last_get in To. apply asks_fields in Ai. apply asks_fields in Ao.
  assert (Mt : forall ty, mget ty (add_all (hl_types l) (add_all [("flattenerchan", CFactory GFlat)] (add_all (builtin_types b) []))) = mget ty (rev (builtin_types b ++ ("flattenerchan", CFactory GFlat) :: hl_types l))).
  { intros ty. rewrite !add_all_get, rev_app_distr. cbn [rev]. rewrite !mget_app. cbn [List.app mget]. destruct (mget ty (rev (hl_types l))); [reflexivity|]. destruct (seqb ty "flattenerchan"); [reflexivity|]. destruct (mget ty (rev (builtin_types b))); reflexivity. }
  cbn [load_all] in E. change ProcConfig with "processor" in E. rewrite Hc in E. change (new_pipeline b fresh_world) with (mkW (Some 0) None [mkPC (add_all builtin_procs []) (add_all (builtin_types b) []) [] 0] 0) in E.
  unfold get_processor in E. cbn [w_caches nth_error pc_procs] in E.
  assert (Gk : mget name (add_all builtin_procs []) = Some (PFactory k)).
  { destruct Hk as [[-> ->]|[[-> ->]|[[-> ->]|[-> ->]]]]; reflexivity. }
  rewrite Gk in E. cbn [rbind] in E.
  assert (Ns : seqb hn "flattener" = false) by (apply seqb_neq; exact Nf).
  assert (Ei : init_stage hlibs h_init p_init (mkW (Some 0) None [mkPC (add_all builtin_procs []) (add_all (builtin_types b) []) [] 0] 0) k c =
    Ok (mkW (Some 0) (Some (add_all (hl_handlers l) [("flattener", HFactory HFlattener)]))
          [mkPC (add_all builtin_procs []) (add_all (hl_types l) (add_all [("flattenerchan", CFactory GFlat)] (add_all (builtin_types b) []))) [] 0] 0,
        Some (HLib (path ++ "/" ++ hn ++ ".so") (HUser u)), true)).
  { unfold init_stage, get_handler, hc_instance, load_handler. cbn [w_hc w_pc rbind]. rewrite Hhn. cbn [mget]. rewrite Ns, Hpa, Hl. cbn [w_pc set_cache rbind hobj_kind].
    rewrite Hku. cbn [hobj_kind]. destruct Hh as [->| ->]; rewrite Hi; reflexivity. }
  rewrite Ei in E. clear Ei. cbn [rbind] in E. change InChanConfig with "in" in E. rewrite Hin in E. unfold tag_tchans in E. cbn [w_caches nth_error tag_list] in E.
  unfold get_tchan in E. rewrite Ai in E. cbn [pc_chans pc_types pc_procs pc_next mget] in E. rewrite Mt, Ti in E. cbn [rbind option_map] in E.
  change OutChanConfig with "out" in E. rewrite Hout in E. cbn [set_cache w_caches length seq combine map fst snd Nat.eqb nth_error tag_list rbind] in E. try unfold get_tchan in E.
  rewrite Ao in E. cbn [pc_chans pc_types pc_procs pc_next mset mget] in E. rewrite (proj2 (seqb_neq o i)) in E by congruence. rewrite Mt, To in E. cbn [rbind option_map forallb tc_type] in E.
  assert (Ea : accepts b h_accepts p_accepts k (Some (HLib (path ++ "/" ++ hn ++ ".so") (HUser u))) to = true) by (destruct Hh as [->| ->]; exact Acc).
  rewrite Ea in E. cbn [andb] in E.
  match type of E with context [load_all ?a1 ?a2 ?a3 ?a4 ?a5 ?a6 ?a7 ?a8 ?a9 ?a10 q] => destruct (load_all a1 a2 a3 a4 a5 a6 a7 a8 a9 a10 q) as [[[w5 s5] e5]| | |]; try discriminate end.
  cbn [rbind] in E. injection E as _ <- _. eexists. reflexivity.
Qed.

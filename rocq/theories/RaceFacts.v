From Coq Require Import Lia.
From Verif Require Import GoBase GoFacts Predicates FlatRecord FieldTables EngineModel EngineFlat FlattenModel SpecFlatten FlattenFacts FlattenFacts2 EcsModel SpecEcs EcsFacts EcsFacts2 EcsFacts3 RaceModel SpecRace.

Lemma fed_app a b : fed (a ++ b)%list = (fed a ++ fed b)%string.
Proof. induction a as [|[s|z] a IH]; cbn [List.app fed]; [reflexivity|rewrite IH, sapp_assoc; reflexivity|rewrite IH, sapp_assoc; reflexivity]. Qed.
Lemma id_fed X fr : fed (id_ops X fr) = id_bytes X fr.
Proof.
  unfold id_ops, id_bytes. cbv zeta. rewrite fed_app. cbn [fed]. rewrite ?sapp_assoc, sapp_nil_l || rewrite ?sapp_assoc. cbn [append].
  repeat f_equal. destruct (_ || _); [cbn [fed]; rewrite ?sapp_nil_r; reflexivity|]. destruct (seqb _ "NF"); [cbn [fed]; rewrite ?sapp_nil_r; reflexivity|].
  destruct (seqb _ "KE"); cbn [fed]; rewrite ?sapp_nil_r; reflexivity.
Qed.
Lemma sem_fed fr : fed (sem_ops fr) = sem_bytes fr.
Proof.
  unfold sem_ops, sem_bytes. cbv zeta. rewrite !fed_app. cbn [fed]. rewrite ?sapp_assoc. cbn [append].
  repeat f_equal; [destruct (Z.eqb _ NET_FLOW)|destruct (_ || _)]; cbn [fed]; rewrite ?sapp_nil_r; reflexivity.
Qed.

Lemma h_run_app a b st : h_run (a ++ b)%list st = h_run b (h_run a st).
Proof. revert st. induction a as [|k a IH]; intros st; cbn [List.app h_run]; [reflexivity|apply IH]. Qed.
Lemma upd_spec hs : forall k buf, h_upd hs k buf =
  match nth_error hs k with
  | None => (buf, hs)
  | Some h => (fst (h_step buf h), firstn k hs ++ snd (h_step buf h) :: skipn (S k) hs)%list
  end.
Proof.
  induction hs as [|h hs IH]; intros [|k] buf; cbn [h_upd nth_error firstn skipn List.app]; try reflexivity.
  - destruct (h_step buf h). reflexivity.
  - rewrite IH. destruct (nth_error hs k) as [h'|]; reflexivity.
Qed.
(** A relation between programs and goroutines that survives a step. *)
Lemma f2_step {A B} (R R' : A -> B -> Prop) : forall k l m a y,
  Forall2 R l m -> nth_error m k = Some a ->
  (forall p, R p a -> R' p y) ->
  (forall j p b, j <> k -> nth_error m j = Some b -> R p b -> R' p b) ->
  Forall2 R' l (firstn k m ++ y :: skipn (S k) m)%list.
Proof.
  induction k as [|k IH]; intros l m a y F N Hy Ho.
  - destruct F as [|p b l m P F]; [discriminate|]. cbn in N. injection N as ->. cbn [firstn skipn List.app]. constructor; [apply Hy, P|].
    assert (Q : forall j p b, nth_error m j = Some b -> R p b -> R' p b) by (intros j q b Nb Rb; apply (Ho (S j) q b); [discriminate|exact Nb|exact Rb]).
    clear - F Q. induction F as [|p b l m P F IH]; constructor.
    + apply (Q 0 p b eq_refl P).
    + apply IH. intros j q c N. apply (Q (S j) q c N).
  - destruct F as [|p b l m P F]; [discriminate|]. cbn in N. cbn [firstn skipn List.app]. constructor.
    + apply (Ho 0 p b); [discriminate|reflexivity|exact P].
    + apply (IH l m a y F N Hy). intros j q c J Nc. apply (Ho (S j) q c); [congruence|exact Nc].
Qed.

(** ** By turns *)
Definition right (buf : string) (p : list (list hop)) (h : hasher) : Prop :=
  match h_cur h with
  | None => map fed p = (h_done h ++ map fed (h_todo h))%list
  | Some (l, b, acc) => map fed p = (h_done h ++ (acc ++ fed l)%string :: map fed (h_todo h))%list /\
                        (b = true -> exists z l', l = HInt z :: l' /\ buf = le64 z)
  end.
Lemma right_step buf p h : right buf p h -> right (fst (h_step buf h)) p (snd (h_step buf h)).
Proof.
  destruct h as [todo cur done]. unfold right, h_step; cbn [h_cur h_todo h_done].
  destruct cur as [[[l b] acc]|].
  - intros [Q F]. destruct l as [|[s|z] l]; cbn [fed] in Q.
    + cbn [fst snd h_cur h_todo h_done]. rewrite Q, sapp_nil_r, <- app_assoc. reflexivity.
    + cbn [fst snd h_cur h_todo h_done]. split; [rewrite Q, sapp_assoc; reflexivity|discriminate].
    + destruct b; cbn [fst snd h_cur h_todo h_done].
      * destruct (F eq_refl) as (z' & l' & [= <- <-] & ->). split; [rewrite Q, sapp_assoc; reflexivity|discriminate].
      * split; [exact Q|]. intros _. eauto.
  - intros Q. destruct todo as [|q todo]; cbn [fst snd h_cur h_todo h_done]; [exact Q|]. split; [exact Q|discriminate].
Qed.
Lemma step_idle buf h : h_cur h = None -> fst (h_step buf h) = buf.
Proof. destruct h as [todo cur done]. cbn. intros ->. destruct todo; reflexivity. Qed.
Lemma turns_right sched : forall st progs, Forall2 (right (fst st)) progs (snd st) -> by_turns sched st ->
  Forall2 (right (fst (h_run sched st))) progs (snd (h_run sched st)).
Proof.
  induction sched as [|k sched IH]; intros [buf hs] progs F T; [exact F|]. cbn [h_run fst snd] in *. apply IH.
  - rewrite upd_spec. destruct (nth_error hs k) as [h|] eqn:N; [|exact F]. cbn [fst snd].
    apply (f2_step (right buf) _ k progs hs h _ F N); [intros p; apply right_step|].
    intros j p b J Nb Rb. assert (OB : one_busy hs) by exact (T [] (k :: sched) eq_refl).
    destruct (h_cur h) as [c|] eqn:Ch; [|rewrite (step_idle buf h Ch); exact Rb].
    unfold right in *. destruct (h_cur b) as [[[l f] acc]|] eqn:Cb; [|exact Rb].
    exfalso. apply J. apply (OB j k b h Nb N); unfold busy; congruence.
  - intros a b ->. apply (T (k :: a) b). reflexivity.
Qed.
Lemma right_start buf progs : Forall2 (right buf) progs (hashers progs).
Proof. unfold hashers. induction progs as [|p progs IH]; constructor; [reflexivity|exact IH]. Qed.

(** ** Any schedule *)
Definition anynum (zs : list Z) (buf : string) : Prop := exists z, In z zs /\ buf = le64 z.
Definition blur (zs : list Z) (buf : string) (p : list (list hop)) (h : hasher) : Prop :=
  (forall q z, In q p -> In z (numbers q) -> In z zs) /\
  exists d d', Forall2 (blurred zs) d d' /\ h_done h = map fed d' /\
  match h_cur h with
  | None => p = (d ++ h_todo h)%list
  | Some (l, b, acc) => exists a a', blurred zs a a' /\ acc = fed a' /\ p = (d ++ (a ++ l)%list :: h_todo h)%list /\
                        (b = true -> exists z l', l = HInt z :: l' /\ anynum zs buf)
  end.
Lemma blurred_app zs a a' b b' : blurred zs a a' -> blurred zs b b' -> blurred zs (a ++ b) (a' ++ b').
Proof. intros H K. induction H; cbn [List.app]; [exact K|constructor; exact IHblurred|constructor; assumption]. Qed.
Lemma numbers_app a b : numbers (a ++ b)%list = (numbers a ++ numbers b)%list.
Proof. induction a as [|[s|z] a IH]; cbn [List.app numbers]; [reflexivity|exact IH|rewrite IH; reflexivity]. Qed.
Lemma f2_snoc {A B} (R : A -> B -> Prop) l m a b : Forall2 R l m -> R a b -> Forall2 R (l ++ [a])%list (m ++ [b])%list.
Proof. intros F H. induction F; cbn [List.app]; repeat constructor; assumption. Qed.
Lemma blur_step zs buf p h : blur zs buf p h ->
  blur zs (fst (h_step buf h)) p (snd (h_step buf h)) /\ (fst (h_step buf h) = buf \/ anynum zs (fst (h_step buf h))).
Proof.
  destruct h as [todo cur done]. unfold blur, h_step; cbn [h_cur h_todo h_done]. intros [Z (d & d' & F & D & C)].
  destruct cur as [[[l b] acc]|].
  - destruct C as (a & a' & A & -> & P & G). destruct l as [|[s|z] l].
    + cbn [fst snd h_cur h_todo h_done]. split; [|left; reflexivity]. split; [exact Z|]. exists (d ++ [a])%list, (d' ++ [a'])%list.
      split; [apply f2_snoc; assumption|]. split; [rewrite map_app, D; reflexivity|]. rewrite P, app_nil_r, <- app_assoc. reflexivity.
    + cbn [fst snd h_cur h_todo h_done]. split; [|left; reflexivity]. split; [exact Z|]. exists d, d'. split; [exact F|]. split; [exact D|].
      exists (a ++ [HStr s])%list, (a' ++ [HStr s])%list. split; [apply blurred_app; [exact A|repeat constructor]|].
      split; [rewrite fed_app; cbn [fed]; rewrite sapp_nil_r; reflexivity|]. split; [rewrite P, <- app_assoc; reflexivity|discriminate].
    + destruct b; cbn [fst snd h_cur h_todo h_done].
      * destruct (G eq_refl) as (z' & l' & [= <- <-] & (zb & Zb & ->)). split; [|left; reflexivity]. split; [exact Z|]. exists d, d'. split; [exact F|]. split; [exact D|].
        exists (a ++ [HInt z])%list, (a' ++ [HInt zb])%list. split; [apply blurred_app; [exact A|constructor; [exact Zb|constructor]]|].
        split; [rewrite fed_app; cbn [fed]; rewrite sapp_nil_r; reflexivity|]. split; [rewrite P, <- app_assoc; reflexivity|discriminate].
      * assert (Q : anynum zs (le64 z)).
        { exists z. split; [|reflexivity]. apply (Z (a ++ HInt z :: l)%list); [rewrite P; apply in_or_app; right; left; reflexivity|].
          rewrite numbers_app. apply in_or_app. right. left. reflexivity. }
        split; [|right; exact Q]. split; [exact Z|]. exists d, d'. split; [exact F|]. split; [exact D|].
        exists a, a'. split; [exact A|]. split; [reflexivity|]. split; [exact P|]. intros _. eauto.
  - destruct todo as [|q todo]; cbn [fst snd h_cur h_todo h_done].
    + split; [|left; reflexivity]. split; [exact Z|]. exists d, d'. auto.
    + split; [|left; reflexivity]. split; [exact Z|]. exists d, d'. split; [exact F|]. split; [exact D|]. exists [], []. split; [constructor|].
      split; [reflexivity|]. split; [exact C|discriminate].
Qed.
Lemma any_blur zs sched : forall st progs, Forall2 (blur zs (fst st)) progs (snd st) ->
  Forall2 (blur zs (fst (h_run sched st))) progs (snd (h_run sched st)).
Proof.
  induction sched as [|k sched IH]; intros [buf hs] progs F; [exact F|]. cbn [h_run fst snd] in *. apply IH.
  rewrite upd_spec. destruct (nth_error hs k) as [h|] eqn:N; [|exact F]. cbn [fst snd].
  assert (Q : exists p, blur zs buf p h).
  { clear - F N. revert k N. induction F as [|p b l m P F IH]; intros [|k] N; try discriminate; [injection N as ->; eauto|eauto]. }
  destruct Q as [p0 Q]. destruct (blur_step zs buf p0 h Q) as [_ Qb].
  apply (f2_step (blur zs buf) _ k progs hs h _ F N); [intros p Hp; apply (blur_step zs buf p h Hp)|].
  intros j p b _ _ (Z & d & d' & Fd & D & C). split; [exact Z|]. exists d, d'. split; [exact Fd|]. split; [exact D|].
  destruct (h_cur b) as [[[l f] acc]|]; [|exact C]. destruct C as (a & a' & A & E & P & G). exists a, a'. split; [exact A|]. split; [exact E|]. split; [exact P|].
  intros Ht. destruct (G Ht) as (z & l' & El & Ga). exists z, l'. split; [exact El|]. destruct Qb as [-> |Qb]; assumption.
Qed.
Lemma blur_start buf progs : Forall2 (blur (flat_map numbers (concat progs)) buf) progs (hashers progs).
Proof.
  assert (Q : forall zs, (forall p q z, In p progs -> In q p -> In z (numbers q) -> In z zs) -> Forall2 (blur zs buf) progs (hashers progs)).
  { intros zs. unfold hashers. induction progs as [|p progs IH]; intros Z; constructor.
    - split; [intros q z Hq Hz; exact (Z p q z (or_introl eq_refl) Hq Hz)|]. exists [], []. split; [constructor|]. split; reflexivity.
    - apply IH. intros p' q z Hp. apply Z. right. exact Hp. }
  apply Q. intros p q z Hp Hq Hz. apply in_flat_map. exists q. split; [apply in_concat; eauto|exact Hz].
Qed.

(** ** A goroutine that keeps running finishes *)
Fixpoint cost (l : list hop) : nat := match l with [] => 1 | HStr _ :: l' => S (cost l') | HInt _ :: l' => S (S (cost l')) end.
Definition left_of (h : hasher) : nat :=
  match h_cur h with
  | None => 0
  | Some (HInt _ :: l, true, _) => S (cost l)
  | Some (l, _, _) => cost l
  end + list_sum (map (fun p => S (cost p)) (h_todo h)).
Lemma step_left buf h : left_of (snd (h_step buf h)) = pred (left_of h).
Proof.
  destruct h as [todo cur done]. unfold left_of, h_step; cbn [h_cur h_todo h_done].
  destruct cur as [[[[|[s|z] l] b] acc]|]; cbn [snd h_cur h_todo h_done]; try reflexivity.
  - destruct l as [|[s'|z'] l]; reflexivity.
  - destruct b; cbn [snd h_cur h_todo h_done]; [|reflexivity]. destruct l as [|[s'|z'] l]; reflexivity.
  - destruct todo as [|[|[s'|z'] q] todo]; reflexivity.
Qed.
Lemma cost_pos l : 0 < cost l.
Proof. induction l as [|[s|z] l IH]; cbn; lia. Qed.
Lemma left_finished h : left_of h = 0 -> finished h.
Proof.
  destruct h as [todo cur done]. unfold left_of, finished; cbn [h_cur h_todo]. intros H.
  destruct cur as [[[[|[s|z] l] b] acc]|]; [cbn in H; lia|cbn in H; lia|destruct b; cbn in H; lia|].
  destruct todo as [|q todo]; [auto|]. cbn in H. lia.
Qed.
Lemma upd_nth hs : forall j k buf, nth_error (snd (h_upd hs j buf)) k =
  if Nat.eq_dec j k then option_map (fun h => snd (h_step buf h)) (nth_error hs k) else nth_error hs k.
Proof.
  induction hs as [|h hs IH]; intros [|j] [|k] buf; try reflexivity; try (cbn [h_upd snd nth_error option_map]; destruct (Nat.eq_dec _ _); reflexivity).
  - cbn [h_upd]. destruct (h_step buf h) eqn:E. cbn. rewrite E. reflexivity.
  - cbn [h_upd]. destruct (h_step buf h). reflexivity.
  - cbn [h_upd]. destruct (h_upd hs j buf). reflexivity.
  - cbn [h_upd]. specialize (IH j k buf). destruct (h_upd hs j buf). cbn [snd nth_error] in *. rewrite IH.
    destruct (Nat.eq_dec j k), (Nat.eq_dec (S j) (S k)); try reflexivity; lia.
Qed.
Lemma left_run sched : forall st k h, nth_error (snd st) k = Some h ->
  exists h', nth_error (snd (h_run sched st)) k = Some h' /\ left_of h' = left_of h - count_occ Nat.eq_dec sched k.
Proof.
  induction sched as [|j sched IH]; intros [buf hs] k h N; [exists h; split; [exact N|cbn; lia]|]. cbn [h_run fst snd] in *.
  assert (Q : exists h1, nth_error (snd (h_upd hs j buf)) k = Some h1 /\ left_of h1 = left_of h - (if Nat.eq_dec j k then 1 else 0)).
  { rewrite upd_nth, N. destruct (Nat.eq_dec j k); [|exists h; split; [reflexivity|lia]]. eexists. split; [reflexivity|]. rewrite step_left. lia. }
  destruct Q as (h1 & N1 & L1). destruct (IH (h_upd hs j buf) k h1 N1) as (h2 & N2 & L2). exists h2. split; [exact N2|].
  rewrite L2, L1. cbn [count_occ]. destruct (Nat.eq_dec j k); lia.
Qed.
Lemma idle_run sched : forall st j h, finished h -> nth_error (snd st) j = Some h -> nth_error (snd (h_run sched st)) j = Some h.
Proof.
  induction sched as [|k sched IH]; intros [buf hs] j h F N; [exact N|]. cbn [h_run fst snd] in *. apply IH; [exact F|]. rewrite upd_nth, N.
  destruct (Nat.eq_dec k j); [|reflexivity]. cbn [option_map]. f_equal. destruct h as [todo cur done], F as [F1 F2]. cbn in F1, F2. subst. reflexivity.
Qed.
Lemma alone_turns sched buf progs k : (forall j l, j <> k -> nth_error progs j = Some l -> l = []) -> by_turns sched (buf, hashers progs).
Proof.
  intros A a b _ i j h h' Ni Nj Bi Bj.
  assert (Q : forall i h, nth_error (snd (h_run a (buf, hashers progs))) i = Some h -> busy h -> i = k).
  { clear - A. intros i h N B. destruct (Nat.eq_dec i k) as [E|E]; [exact E|]. exfalso.
    destruct (nth_error progs i) as [l|] eqn:L.
    - pose proof (A i l E L) as ->. assert (I : nth_error (snd (buf, hashers progs)) i = Some (mkHasher [] None [])) by (cbn [snd]; unfold hashers; rewrite nth_error_map, L; reflexivity).
      apply (idle_run a) in I; [|split; reflexivity]. rewrite I in N. injection N as <-. apply B. reflexivity.
    - pose proof (turns_right [] (buf, hashers progs) progs (right_start buf progs)) as _. assert (Ln : length (snd (h_run a (buf, hashers progs))) = length progs).
      { assert (G : forall s st, length (snd (h_run s st)) = length (snd st)).
        { induction s as [|q s IH]; intros st; cbn [h_run]; [reflexivity|]. rewrite IH. destruct st as [b0 hs]. cbn [fst snd]. clear. revert q. induction hs as [|y hs IH]; intros [|q]; cbn [h_upd]; try reflexivity.
          - destruct (h_step b0 y). reflexivity.
          - specialize (IH q). destruct (h_upd hs q b0). cbn in *. lia. }
        rewrite G. cbn [snd]. unfold hashers. apply map_length. }
      apply nth_error_None in L. assert (nth_error (snd (h_run a (buf, hashers progs))) i <> None) by congruence. apply nth_error_Some in H. lia. }
  rewrite (Q i h Ni Bi), (Q j h' Nj Bj). reflexivity.
Qed.
Lemma f2_nth {A B} (R : A -> B -> Prop) l m : Forall2 R l m -> forall k a, nth_error l k = Some a -> exists b, nth_error m k = Some b /\ R a b.
Proof. intros F. induction F as [|x y l m H F IH]; intros [|k] a N; try discriminate; [injection N as ->; exists y; split; [reflexivity|exact H]|apply (IH k a N)]. Qed.
Lemma right_done buf p h : right buf p h -> (exists rest, map fed p = (h_done h ++ rest)%list) /\ (finished h -> h_done h = map fed p).
Proof.
  unfold right, finished. destruct (h_cur h) as [[[l b] acc]|].
  - intros [Q _]. split; [eauto|]. intros [_ H]. discriminate.
  - intros Q. split; [eauto|]. intros [T _]. rewrite Q, T. cbn [map]. rewrite app_nil_r. reflexivity.
Qed.

(** Two process events that differ in their times; two processes that differ in their user. *)
Section Pe.
Variables (X : sfgo_fns) (ipstr : Z -> string) (jsonsvcs : list service -> string).
Lemma pe_sem x n : let m := semantics_of x (EvPE n) in
  sem_ops (flatten ipstr jsonsvcs x (EvPE n)) = [HStr (sm_exe m); HStr (sm_args m); HInt (sm_uid m); HInt (sm_gid m); HInt (sm_flags m); HInt (sm_tty m)].
Proof.
  cbv zeta. unfold sem_ops. cbv zeta beta. set (e := EvPE n).
  rewrite (rec_type ipstr jsonsvcs).
  rewrite (attr_str ipstr jsonsvcs X x e PROC_EXE_STR "sf.proc.exe" (prs x e exe)); [|reflexivity|unfold meaning; cbn [In]; tauto].
  rewrite (attr_str ipstr jsonsvcs X x e PROC_EXEARGS_STR "sf.proc.args" (prs x e args)); [|reflexivity|unfold meaning; cbn [In]; tauto].
  rewrite (attr_int ipstr jsonsvcs X x e PROC_UID_INT "sf.proc.uid" (prz x e p_uid)); [|reflexivity|unfold meaning; cbn [In]; tauto].
  rewrite (attr_int ipstr jsonsvcs X x e PROC_GID_INT "sf.proc.gid" (prz x e p_gid)); [|reflexivity|unfold meaning; cbn [In]; tauto].
  rewrite (attr_int ipstr jsonsvcs X x e PROC_TTY_INT "sf.proc.tty" (prz x e (fun p => b2z (p_tty p)))); [|reflexivity|unfold meaning; cbn [In]; tauto].
  rewrite (flags_ok ipstr jsonsvcs). reflexivity.
Qed.
Hypothesis names : type_names X.
Lemma pe_ops x n : id_ops X (flatten ipstr jsonsvcs x (EvPE n)) =
  [HStr (trim_bounding_quotes (hs x fh_exporter)); HStr (trim_bounding_quotes (cs x (EvPE n) fc_id)); HInt (pe_ts n); HInt (pe_tid n);
   HInt (prz x (EvPE n) (fun p => createts (p_oid p))); HInt (pe_opflags n)].
Proof.
  destruct names as (N1 & _). unfold id_ops. cbv zeta. rewrite s_nodeid, s_cid, (flags_ok ipstr jsonsvcs), s_type. cbn [ev_type]. rewrite N1.
  rewrite (attr_int ipstr jsonsvcs X x (EvPE n) TS_INT "sf.ts" (ev_ts (EvPE n))) by (reflexivity || (apply (nth_error_In _ 3); reflexivity)).
  rewrite (attr_int ipstr jsonsvcs X x (EvPE n) TID_INT "sf.proc.tid" (ev_tid (EvPE n))) by (reflexivity || (apply (nth_error_In _ 12); reflexivity)).
  rewrite (attr_int ipstr jsonsvcs X x (EvPE n) PROC_OID_CREATETS_INT "sf.proc.createts" (prz x (EvPE n) (fun p => createts (p_oid p)))) by (reflexivity || (apply (nth_error_In _ 15); reflexivity)).
  reflexivity.
Qed.
End Pe.
(** Two goroutines hash the same two records; the first feeds its second record with the third value of the first record. *)
Definition race_sched : list nat := (repeat 0 12 ++ [1;1;1;0;0;0;0;1;0;1] ++ repeat 0 7 ++ repeat 1 19)%list.
Lemma race a b t1 t2 c d e buf :
  let p t := [HStr a; HStr b; HInt t; HInt c; HInt d; HInt e] in
  h_run race_sched (buf, hashers [[p t1; p t2]; [p t1; p t2]]) =
  (le64 e, [mkHasher [] None [fed (p t1); fed (p t1)]; mkHasher [] None [fed (p t1); fed (p t2)]]).
Proof.
  intros p. assert (F : forall t, fed (p t) = (((((("" ++ a) ++ b) ++ le64 t) ++ le64 c) ++ le64 d) ++ le64 e)%string).
  { intros t. unfold p. cbn [fed]. rewrite sapp_nil_r, !sapp_assoc. reflexivity. }
  rewrite !F. clear F. subst p. unfold race_sched, hashers. cbn [repeat List.app map].
  cbv -[append le64]. reflexivity.
Qed.

Lemma by_turns_gen {A} (f : A -> list hop) (g : A -> string) (recs : list (list A)) buf sched k frs : (forall a, fed (f a) = g a) ->
  nth_error recs k = Some frs -> by_turns sched (buf, hashers (map (map f) recs)) ->
  exists h, nth_error (snd (h_run sched (buf, hashers (map (map f) recs)))) k = Some h /\
    (exists rest, map g frs = (h_done h ++ rest)%list) /\ (finished h -> h_done h = map g frs).
Proof.
  intros G N T. pose proof (turns_right sched (buf, hashers (map (map f) recs)) (map (map f) recs) (right_start buf _) T) as F.
  destruct (f2_nth _ _ _ F k (map f frs)) as (h & Nh & R); [rewrite nth_error_map, N; reflexivity|].
  exists h. split; [exact Nh|]. apply right_done in R. rewrite map_map in R. rewrite (map_ext _ _ G) in R. exact R.
Qed.
Lemma alone_progs {A} (f : A -> list hop) (recs : list (list A)) k : (forall j l, j <> k -> nth_error recs j = Some l -> l = []) ->
  forall j l, j <> k -> nth_error (map (map f) recs) j = Some l -> l = [].
Proof. intros H j l J N. rewrite nth_error_map in N. destruct (nth_error recs j) as [m|] eqn:M; [|discriminate]. rewrite (H j m J M) in N. injection N as <-. reflexivity. Qed.
Lemma by_turns_ids X (recs : list (list flatrec)) buf sched k frs : nth_error recs k = Some frs ->
  by_turns sched (buf, hashers (map (map (id_ops X)) recs)) ->
  exists h, nth_error (snd (h_run sched (buf, hashers (map (map (id_ops X)) recs)))) k = Some h /\
    (exists rest, map (encode_id X) frs = (map (x_hashhex X) (h_done h) ++ rest)%list) /\
    (finished h -> map (x_hashhex X) (h_done h) = map (encode_id X) frs).
Proof.
  intros N T. destruct (by_turns_gen (id_ops X) (id_bytes X) recs buf sched k frs (id_fed X) N T) as (h & Nh & (rest & P) & F).
  assert (Q : map (encode_id X) frs = map (x_hashhex X) (map (id_bytes X) frs)) by (rewrite map_map; reflexivity).
  exists h. split; [exact Nh|]. split; [exists (map (x_hashhex X) rest); rewrite Q, P, map_app; reflexivity|]. intros K. rewrite Q, (F K). reflexivity.
Qed.
Lemma one_encoder X (recs : list (list flatrec)) buf sched k frs : nth_error recs k = Some frs ->
  (forall j l, j <> k -> nth_error recs j = Some l -> l = []) ->
  exists h, nth_error (snd (h_run sched (buf, hashers (map (map (id_ops X)) recs)))) k = Some h /\
    (exists rest, map (encode_id X) frs = (map (x_hashhex X) (h_done h) ++ rest)%list) /\
    (finished h -> map (x_hashhex X) (h_done h) = map (encode_id X) frs).
Proof. intros N A. apply by_turns_ids; [exact N|]. apply (alone_turns _ _ _ k), alone_progs, A. Qed.
Lemma one_flattener (recs : list (list flatrec)) buf sched k frs : nth_error recs k = Some frs ->
  (forall j l, j <> k -> nth_error recs j = Some l -> l = []) ->
  exists h, nth_error (snd (h_run sched (buf, hashers (map (map sem_ops) recs)))) k = Some h /\
    (exists rest, map sem_bytes frs = (h_done h ++ rest)%list) /\ (finished h -> h_done h = map sem_bytes frs).
Proof. intros N A. apply by_turns_gen; [exact sem_fed|exact N|]. apply (alone_turns _ _ _ k), alone_progs, A. Qed.
Lemma finishes X (recs : list (list flatrec)) buf k frs : nth_error recs k = Some frs ->
  exists n, forall sched, n <= count_occ Nat.eq_dec sched k ->
  exists h, nth_error (snd (h_run sched (buf, hashers (map (map (id_ops X)) recs)))) k = Some h /\ finished h.
Proof.
  intros N. set (h0 := mkHasher (map (id_ops X) frs) None []). exists (left_of h0). intros sched C.
  destruct (left_run sched (buf, hashers (map (map (id_ops X)) recs)) k h0) as (h & Nh & L).
  - cbn [snd]. unfold hashers. rewrite !nth_error_map, N. reflexivity.
  - exists h. split; [exact Nh|]. apply left_finished. lia.
Qed.
Lemma f2_map_l {A B C} (R : B -> C -> Prop) (f : A -> B) l m : Forall2 R (map f l) m -> Forall2 (fun a c => R (f a) c) l m.
Proof. revert m. induction l as [|a l IH]; intros m F; cbn [map] in F; remember (_ : list B) as q eqn:E in F; destruct F; try discriminate; constructor; injection E as -> ->; auto. Qed.
Lemma blurred_ids X (recs : list (list flatrec)) buf sched k frs h : nth_error recs k = Some frs ->
  nth_error (snd (h_run sched (buf, hashers (map (map (id_ops X)) recs)))) k = Some h ->
  exists done rest calls, frs = (done ++ rest)%list /\ h_done h = map fed calls /\
    Forall2 (fun fr c => blurred (flat_map numbers (map (id_ops X) (concat recs))) (id_ops X fr) c) done calls.
Proof.
  intros N Nh. pose proof (any_blur _ sched (buf, hashers (map (map (id_ops X)) recs)) _ (blur_start buf (map (map (id_ops X)) recs))) as F.
  destruct (f2_nth _ _ _ F k (map (id_ops X) frs)) as (h' & Nh' & B); [rewrite nth_error_map, N; reflexivity|].
  rewrite Nh in Nh'. injection Nh' as <-. destruct B as (_ & d & d' & Fd & D & C).
  assert (S : exists rest, map (id_ops X) frs = (d ++ rest)%list) by (destruct (h_cur h) as [[[l b] acc]|]; [destruct C as (a & a' & _ & _ & P & _)|]; eauto).
  destruct S as (rest & S).
  apply map_eq_app in S. destruct S as (u & v & -> & <- & <-). exists u, v, d'. split; [reflexivity|]. split; [exact D|]. apply f2_map_l. rewrite concat_map. exact Fd.
Qed.
Lemma race_ids X ipstr jsonsvcs x n t : type_names X -> in_int64 (pe_ts n) = true -> in_int64 t = true -> pe_ts n <> t ->
  let e1 := flatten ipstr jsonsvcs x (EvPE n) in let e2 := flatten ipstr jsonsvcs x (EvPE (mkPE t (pe_tid n) (pe_opflags n) (pe_ret n))) in
  id_bytes X e1 <> id_bytes X e2 /\
  forall buf, exists sched h h', snd (h_run sched (buf, hashers (map (map (id_ops X)) [[e1; e2]; [e1; e2]]))) = [h; h'] /\ finished h /\ finished h' /\
    map (x_hashhex X) (h_done h) = [encode_id X e1; encode_id X e1] /\
    forall A (d1 d2 : A), fold_left (fun ix p => es_create ix (fst p) (snd p)) (combine (map (x_hashhex X) (h_done h)) [d1; d2]) [] = [(encode_id X e1, d1)].
Proof.
  intros N I1 I2 D e1 e2. pose proof (pe_ops X ipstr jsonsvcs N x n) as P1.
  pose proof (pe_ops X ipstr jsonsvcs N x (mkPE t (pe_tid n) (pe_opflags n) (pe_ret n))) as P2.
  assert (C : cs x (EvPE (mkPE t (pe_tid n) (pe_opflags n) (pe_ret n))) fc_id = cs x (EvPE n) fc_id) by reflexivity.
  assert (C' : prz x (EvPE (mkPE t (pe_tid n) (pe_opflags n) (pe_ret n))) (fun p => createts (p_oid p)) = prz x (EvPE n) (fun p => createts (p_oid p))) by reflexivity.
  rewrite C, C' in P2. clear C C'. cbn [pe_ts pe_tid pe_opflags] in P2. fold e1 in P1. fold e2 in P2. clearbody e1 e2.
  revert P1 P2. generalize (trim_bounding_quotes (hs x fh_exporter)) (trim_bounding_quotes (cs x (EvPE n) fc_id)) (prz x (EvPE n) (fun p => createts (p_oid p))) (pe_tid n) (pe_opflags n).
  intros a b c d f P1 P2. split.
  - rewrite <- !id_fed, P1, P2. cbn [fed]. intros E. apply app_split in E; [|reflexivity]. destruct E as [_ E]. apply app_split in E; [|reflexivity]. destruct E as [_ E].
    apply app_split in E; [|reflexivity]. destruct E as [E _]. apply D, le64_inj; assumption.
  - intros buf. eexists race_sched, _, _. split.
    + cbn [map]. rewrite P1, P2, (race a b (pe_ts n) t d c f buf). reflexivity.
    + split; [split; reflexivity|]. split; [split; reflexivity|]. rewrite <- P1, id_fed. cbn [h_done map]. split; [reflexivity|]. intros A d1 d2.
      cbn [combine fold_left fst snd]. fold (encode_id X e1). unfold es_create. cbn [mhas mget mset existsb fst]. unfold mset, mhas, mget. cbn. rewrite ?seqb_refl. reflexivity.
Qed.
Lemma race_filter (X : sfgo_fns) ipstr jsonsvcs x x' n n' : let m := semantics_of x (EvPE n) in let m' := semantics_of x' (EvPE n') in
  int64s m -> int64s m' ->
  sm_uid m <> sm_uid m' -> sm_exe m = sm_exe m' -> sm_args m = sm_args m' -> sm_gid m = sm_gid m' -> sm_flags m = sm_flags m' -> sm_tty m = sm_tty m' ->
  let e1 := flatten ipstr jsonsvcs x (EvPE n) in let e2 := flatten ipstr jsonsvcs x' (EvPE n') in
  sem_bytes e1 <> sem_bytes e2 /\
  forall buf, exists sched h h', snd (h_run sched (buf, hashers (map (map sem_ops) [[e1; e2]; [e1; e2]]))) = [h; h'] /\ finished h /\ finished h' /\
    forall (H : string -> Z) ttl now, (0 < ttl)%Z ->
    exists s, f_run (fun _ => now) ttl f_new (map (fun b => Some (H b)) (h_done h)) = (s, [Some (H (sem_bytes e1), false, now); Some (H (sem_bytes e1), true, now)]).
Proof.
  intros m m' I1 I2 D E1 E2 E3 E4 E5 e1 e2. pose proof (pe_sem X ipstr jsonsvcs x n) as P1. pose proof (pe_sem X ipstr jsonsvcs x' n') as P2.
  cbv zeta in P1, P2. fold m in P1. fold m' in P2. fold e1 in P1. fold e2 in P2. rewrite <- E1, <- E2, <- E3, <- E4, <- E5 in P2.
  destruct I1 as (I1 & _), I2 as (I2 & _). clearbody e1 e2 m m'. split.
  - rewrite <- !sem_fed, P1, P2. cbn [fed]. intros E. apply app_split in E; [|reflexivity]. destruct E as [_ E]. apply app_split in E; [|reflexivity]. destruct E as [_ E].
    apply app_split in E; [|reflexivity]. destruct E as [E _]. apply D, le64_inj; assumption.
  - intros buf. eexists race_sched, _, _. split.
    + cbn [map]. rewrite P1, P2, (race (sm_exe m) (sm_args m) (sm_uid m) (sm_uid m') (sm_gid m) (sm_flags m) (sm_tty m) buf). reflexivity.
    + split; [split; reflexivity|]. split; [split; reflexivity|]. rewrite <- P1, sem_fed. cbn [h_done map]. intros H ttl now T.
      eexists. cbn [f_run]. unfold test_and_add, f_new, f_add. cbn [f_q f_m f_n evict zget zset zdel List.filter List.app].
      rewrite Z.sub_diag. replace (Z.ltb 0 ttl) with true by (symmetry; apply Z.ltb_lt; exact T). cbn [f_q f_m f_n zget fst snd]. rewrite ?Z.eqb_refl. unfold zset. cbn [zget zdel List.filter]. rewrite ?Z.eqb_refl. reflexivity.
Qed.

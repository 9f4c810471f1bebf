(** * CrashFacts *)
From Coq Require Import Lia Permutation.
From Verif Require DriverModel ExportFacts.
From Verif Require Import GoBase GoFacts Predicates SigmaModel EngineModel PoolModel PoolFacts4 MonitorModel InitModel ExportModel ChainModel ChainFacts OtelPipe SpecOtelPipe OtelPipeFacts CrashModel SpecCrash.
Local Open Scope nat_scope.

Section K.
Context {R : Type}.
Variable ops : operations R.
Variables (pmatch : string -> string -> bool) (ord : srule -> list nat -> list (string * search)) (fuel : nat).
Variables (applicable : R -> rule R -> bool) (add : R -> rule R -> R) (ah : ahandler R).
Variables (buffer xstart : Z) (cap : nat) (conf : gomap cval).
Variable parse : string -> option (list R).
Notation lived := (lived ops pmatch ord fuel applicable add ah buffer xstart cap conf parse).
Notation lives := (lives ops pmatch ord fuel applicable add ah buffer xstart cap conf parse).

Lemma lives_le topic c ls : lives topic c ls -> c <= length topic.
Proof. induction 1 as [|c ls l H IH Hf (L1 & _ & _ & _ & L2)]; lia. Qed.
Lemma lives_cover topic c ls : lives topic c ls -> forall i, i < c -> exists l, In l ls /\ was_read l i.
Proof.
  induction 1 as [|c ls l H IH Hf (L1 & _ & _ & _ & L2)]; intros i Hi; [lia|].
  destruct (Nat.lt_ge_cases i c) as [Hc|Hc].
  - destruct (IH i Hc) as (l' & Hl & Hr). exists l'. split; [apply in_or_app; now left|exact Hr].
  - exists l. split; [apply in_or_app; right; now left|]. unfold was_read. lia.
Qed.
Lemma lives_split topic c ls : lives topic c ls -> forall a b, ls = a ++ b -> exists c', c' <= c /\ lives topic c' a /\ Forall (fun l => c' <= l_from l) b.
Proof.
  induction 1 as [|c ls l H IH Hf (L1 & Li & Lr & La & L2)]; intros a b E.
  - symmetry in E. apply app_eq_nil in E as [-> ->]. exists 0. split; [lia|]. split; [constructor|constructor].
  - destruct (rev b) as [|y b'] eqn:Eb.
    + assert (b = []) by (rewrite <- (rev_involutive b), Eb; reflexivity). subst b. rewrite app_nil_r in E. subst a. exists (l_next l). split; [lia|]. split; [|constructor].
      apply (lv_more _ _ _ _ _ _ _ _ _ _ _ _ topic c ls l H Hf). unfold CrashModel.lived. auto.
    + assert (Eb' : b = rev b' ++ [y]) by (rewrite <- (rev_involutive b), Eb; reflexivity). rewrite Eb', app_assoc in E. apply app_inj_tail in E as [E ->].
      destruct (IH a (rev b') E) as (c' & Hc & Ha & Fa). exists c'. split; [lia|]. split; [exact Ha|]. rewrite Eb'. apply Forall_app. split; [exact Fa|]. constructor; [lia|constructor].
Qed.
Lemma lives_one topic c ls l : lives topic c ls -> In l ls -> lived topic l.
Proof. induction 1 as [|c ls l0 H IH Hf L]; intros Hi; [destruct Hi|]. apply in_app_or in Hi as [Hi|[<-|[]]]; auto. Qed.

(** The driver's actions. *)
Lemma sends_app a m : (forall m', In m' a -> parse m' <> None) -> sends parse (a ++ m) = sends parse a ++ sends parse m.
Proof.
  unfold sends. induction a as [|x a IH]; intros H; [reflexivity|]. cbn [app map DriverModel.kloop].
  destruct (parse x) as [rs|] eqn:E; [|destruct (H x (or_introl eq_refl) E)]. specialize (IH (fun m' Hm => H m' (or_intror Hm))).
  destruct (DriverModel.kloop parse (map DriverModel.KMsg (a ++ m))) as [u o]. destruct (DriverModel.kloop parse (map DriverModel.KMsg a)) as [v p]. cbn [fst] in *. rewrite IH. now rewrite app_assoc.
Qed.
Lemma sends_good a : (forall m', In m' a -> parse m' <> None) -> sends parse a = map DriverModel.ASend (logs_of parse a).
Proof.
  unfold sends. induction a as [|x a IH]; intros H; [reflexivity|]. cbn [map DriverModel.kloop logs_of flat_map].
  destruct (parse x) as [rs|] eqn:E; [|destruct (H x (or_introl eq_refl) E)]. specialize (IH (fun m' Hm => H m' (or_intror Hm))).
  destruct (DriverModel.kloop parse (map DriverModel.KMsg a)) as [v p]. cbn [fst] in *. rewrite IH, map_app. reflexivity.
Qed.
(** What the driver sends is the logs of the messages read: a message that is not one of logs is the last. *)
Lemma sends_source ms : (forall ms' m, ms = ms' ++ [m] -> forall m', In m' ms' -> parse m' <> None) -> o_source (logs_of parse ms) (sends parse ms).
Proof.
  intros H. destruct (rev ms) as [|m r] eqn:E.
  - assert (ms = []) by (rewrite <- (rev_involutive ms), E; reflexivity). subst ms. exists []. split; [reflexivity|now left].
  - assert (Em : ms = rev r ++ [m]) by (rewrite <- (rev_involutive ms), E; reflexivity). rewrite Em. pose proof (H _ _ Em) as Hg. rewrite (sends_app _ _ Hg), (sends_good _ Hg).
    unfold logs_of. rewrite flat_map_app. fold (logs_of parse (rev r)). unfold sends. cbn [map DriverModel.kloop flat_map]. destruct (parse m) as [rs|]; cbn [fst].
    + exists []. rewrite !app_nil_r, map_app. auto.
    + exists [DriverModel.AClose]. rewrite !app_nil_r. auto.
Qed.
Lemma lived_source topic l : lived topic l -> o_source (logs_of parse (messages topic l)) (sends parse (messages topic l)).
Proof. intros (_ & _ & _ & A & _). apply sends_source. intros ms' m E. exact (proj1 (A ms' m E)). Qed.

(** A message that is not one of logs. *)
Lemma nth_firstn_skipn {A} (t : list A) a k i : i < k -> nth_error (firstn k (skipn a t)) i = nth_error t (a + i).
Proof.
  revert t k i. induction a as [|a IH]; intros t k i Hi.
  - cbn [skipn Nat.add]. revert k i Hi. induction t as [|x t IHt]; intros [|k] [|i] Hi; try lia; cbn; try reflexivity. apply IHt. lia.
  - destruct t as [|x t]; [cbn; rewrite firstn_nil; destruct i; reflexivity|]. cbn [skipn Nat.add nth_error]. now apply IH.
Qed.
Lemma bad_stops topic l k m : lived topic l -> nth_error topic k = Some m -> parse m = None -> l_from l <= k -> l_from l + l_read l <= S k.
Proof.
  intros (L1 & _ & _ & A & _) Hk Hb Hf. destruct (Nat.le_gt_cases (l_from l + l_read l) (S k)) as [H|H]; [exact H|]. exfalso.
  assert (Hl : length (messages topic l) = l_read l) by (unfold messages; rewrite firstn_length, skipn_length; lia).
  destruct (rev (messages topic l)) as [|y r] eqn:E.
  { assert (E' : messages topic l = []) by (rewrite <- (rev_involutive (messages topic l)), E; reflexivity). rewrite E' in Hl. cbn in Hl. lia. }
  assert (Em : messages topic l = rev r ++ [y]) by (rewrite <- (rev_involutive (messages topic l)), E; reflexivity).
  destruct (A _ _ Em) as [Hg _]. apply (Hg m); [|exact Hb]. apply nth_error_In with (n := k - l_from l).
  assert (Hn : nth_error (messages topic l) (k - l_from l) = Some m).
  { unfold messages. rewrite nth_firstn_skipn by lia. rewrite <- Hk. f_equal. lia. }
  rewrite Em in Hn, Hl. rewrite app_length in Hl. cbn [length] in Hl. rewrite nth_error_app1 in Hn by lia. exact Hn.
Qed.
Lemma stuck_at_bad topic c ls k m : lives topic c ls -> nth_error topic k = Some m -> parse m = None -> Forall (fun l => l_next l <= k) ls ->
  c <= k /\ Forall (fun l => l_from l + l_read l <= S k) ls.
Proof.
  intros H Hk Hb. induction H as [|c ls l H IH Hf L]; intros F; [split; [lia|constructor]|].
  apply Forall_app in F as [F1 F2]. inversion F2 as [|? ? F3 _]; subst. destruct (IH F1) as [Hc Fl]. split; [exact F3|]. apply Forall_app. split; [exact Fl|].
  constructor; [|constructor]. apply (bad_stops topic l k m L Hk Hb). lia.
Qed.

(** Lives that read one message and end before anything is done with it. *)
Definition idle_life (h : host) (rd : ready R) (topic : list string) (c : nat) : life R :=
  mkLife c 1 (S c) h rd [] (cinit (o_start rd xstart (sends parse (firstn 1 (skipn c topic))))).
Lemma idle_lived h rd topic c : InitModel.init ops pmatch ord fuel h conf = Ok (Some rd) -> c < length topic -> lived topic (idle_life h rd topic c) /\ exports (idle_life h rd topic c) = [].
Proof.
  intros Hi Hc. split; [|reflexivity]. unfold CrashModel.lived, messages. cbn [idle_life l_from l_read l_next l_host l_ready l_trace l_end]. split; [lia|]. split; [exact Hi|]. split; [apply cr_nil|].
  split; [|lia]. intros ms' m E.
  assert (Hm : ms' = []).
  { apply (f_equal (@length string)) in E. rewrite firstn_length, app_length in E. cbn [length] in E. destruct ms'; [reflexivity|cbn [length] in E; lia]. }
  subst ms'. cbn [app] in E. split; [intros m' []|]. eexists. split; [reflexivity|]. rewrite E. constructor.
Qed.
Lemma all_lost h rd topic : InitModel.init ops pmatch ord fuel h conf = Ok (Some rd) -> forall c, c <= length topic ->
  exists ls, lives topic c ls /\ Forall (fun l => exports l = []) ls /\ length ls = c.
Proof.
  intros Hi. induction c as [|c IH]; intros Hc; [exists []; split; [constructor|]; split; [constructor|reflexivity]|].
  destruct IH as (ls & L & F & N); [lia|]. destruct (idle_lived h rd topic c Hi) as [L1 L2]; [lia|]. exists (ls ++ [idle_life h rd topic c]). split.
  - exact (lv_more _ _ _ _ _ _ _ _ _ _ _ _ topic c ls (idle_life h rd topic c) L eq_refl L1).
  - split; [apply Forall_app; split; [exact F|constructor; [exact L2|constructor]]|]. rewrite app_length, N. cbn. lia.
Qed.
Lemma one_lost h rd topic c ls : InitModel.init ops pmatch ord fuel h conf = Ok (Some rd) -> lives topic c ls -> c < length topic ->
  exists l, lives topic (S c) (ls ++ [l]) /\ was_read l c /\ exports l = [].
Proof.
  intros Hi H Hc. destruct (idle_lived h rd topic c Hi Hc) as [L1 L2]. exists (idle_life h rd topic c). split; [exact (lv_more _ _ _ _ _ _ _ _ _ _ _ _ topic c ls (idle_life h rd topic c) H eq_refl L1)|].
  split; [|exact L2]. unfold was_read. cbn. lia.
Qed.
(** The same life again and again. *)
Lemma same_again topic l : lived topic l -> l_from l = 0 -> l_next l = 0 -> forall n, lives topic 0 (repeat l n).
Proof.
  intros L Hf Hn. assert (Q : forall n, repeat l (S n) = repeat l n ++ [l]) by (induction n as [|n IH]; [reflexivity|cbn [repeat app] in *; now rewrite <- IH]).
  induction n as [|n IH]; [constructor|]. rewrite Q. rewrite <- Hn. apply (lv_more _ _ _ _ _ _ _ _ _ _ _ _ topic 0); [exact IH|exact Hf|exact L].
Qed.

Lemma lives_det topic ls : forall c c', lives topic c ls -> lives topic c' ls -> c = c'.
Proof.
  intros c c' H H'. inversion H as [E1 E2|c1 ls1 l1 L1 F1 V1 E1 E2]; inversion H' as [E3 E4|c2 ls2 l2 L2 F2 V2 E3 E4]; subst; try reflexivity.
  - destruct ls2; discriminate.
  - destruct ls1; discriminate.
  - apply app_inj_tail in E4 as [_ ->]. reflexivity.
Qed.
Lemma never_again topic c ls later : forall c', lives topic c ls -> lives topic c' (ls ++ later) -> Forall (fun l => c <= l_from l) later.
Proof. intros c' H H'. destruct (lives_split topic c' _ H' ls later eq_refl) as (c2 & _ & H2 & F). now rewrite (lives_det topic ls c c2 H H2). Qed.
Lemma src_suffix rd acts tr s : o_run_to ops pmatch ord fuel applicable add ah rd buffer xstart cap acts tr s -> c_crash s = false ->
  exists done l, c_st s 0 = OSrc l /\ acts = done ++ l.
Proof.
  intros H C. destruct (chain_inv _ _ _ _ _ H C) as [I1 _ _ _ _]. destruct (o_src_run _ _ _ _ _ _ _ _ _ _ _ _ (I1 0)) as (done & l & E0 & Ea & _). exists done, l. auto.
Qed.
(** When the pipeline is at rest the driver has sent everything. *)
Lemma at_rest_sent rd rs acts tr s : 0 < cap -> 0 < Z.to_nat (c_concurrency (rd_conf rd)) -> o_source rs acts -> ~ In DriverModel.AWait acts ->
  o_run_to ops pmatch ord fuel applicable add ah rd buffer xstart cap acts tr s ->
  o_still (o_stage ops pmatch ord fuel applicable add ah rd buffer) cap s -> c_st s 0 = OSrc [].
Proof.
  intros Hc Hn A Na H St. destruct (o_rest_or_step ops pmatch ord fuel applicable add ah rd buffer xstart cap acts rs A tr s Hc Hn H) as [Rt|(ia & s2 & W & Hs)]; [|destruct (St _ _ W Hs)].
  destruct Rt as ((l & E0 & [-> | -> ]) & _); [exact E0|]. pose proof (o_safe _ _ _ _ _ _ _ _ _ _ _ _ _ A tr s H) as C.
  destruct (src_suffix rd acts tr s H C) as (done & l & E1 & Ea). rewrite E0 in E1. injection E1 as <-. destruct Na. rewrite Ea. apply in_or_app. right. now left.
Qed.
End K.

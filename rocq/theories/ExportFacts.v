(** * ExportFacts: proofs about the exporter. *)
From Coq Require Import Lia Permutation.
From Verif Require Import GoBase GoFacts EngineModel EngineFacts MonitorModel ExportModel SpecExport.
Open Scope Z_scope.

(** ** Batching *)
Section Loop.
Context {R : Type}.
Implicit Types (s : xstate R) (es : list (xevent R)).
Definition xgood (buffer : Z) s : Prop :=
  (x_open s = true -> x_counter s = Z.of_nat (length (x_recs s)) /\ (x_counter s < Z.max 1 buffer)) /\
  Forall (fun b => (1 <= length b)%nat /\ Z.of_nat (length b) <= Z.max 1 buffer) (x_batches s).
Definition xseen s : list R := concat (x_batches s) ++ (if x_open s then x_recs s else []).

Lemma step_good buffer s e : xgood buffer s -> xgood buffer (x_step buffer s e).
Proof.
  intros [G B]. unfold x_step. destruct (x_open s) eqn:O; [|split; [rewrite O; discriminate|exact B]].
  destruct (G eq_refl) as [C L]. destruct e as [r a b|a b|].
  - unfold x_flush; cbn [x_counter x_recs x_open x_batches]. destruct (Z.leb_spec buffer (x_counter s + 1)) as [H|H].
    + split; cbn [x_counter x_recs x_open x_batches].
      * intros _; cbn; lia.
      * apply Forall_app; split; [exact B|]. constructor; [|constructor]. rewrite app_length; cbn [length]. lia.
    + split; cbn [x_counter x_recs x_open x_batches]; [|exact B]. intros _. rewrite app_length; cbn [length]. lia.
  - destruct (_ && _) eqn:T; [|split; auto]. apply andb_prop in T as [_ T]. apply Z.ltb_lt in T.
    unfold x_flush. split; cbn [x_counter x_recs x_open x_batches]; [intros _; cbn; lia|].
    apply Forall_app; split; [exact B|]. constructor; [|constructor]. lia.
  - split; cbn [x_counter x_recs x_open x_batches]; [discriminate|].
    destruct (Z.ltb_spec 0 (x_counter s)); [|exact B]. apply Forall_app; split; [exact B|]. constructor; [|constructor]. lia.
Qed.
Lemma start_good buffer t : xgood buffer (x_start t).
Proof. split; cbn; [lia|constructor]. Qed.
Lemma run_good_from buffer es : forall s, xgood buffer s -> xgood buffer (fold_left (x_step buffer) es s).
Proof. induction es as [|e es IH]; intros s G; cbn [fold_left]; auto using step_good. Qed.
Lemma run_good buffer t es : xgood buffer (x_run buffer t es).
Proof. apply run_good_from, start_good. Qed.

Lemma closed_run buffer es : forall s, x_open s = false -> fold_left (x_step buffer) es s = s.
Proof. induction es as [|e es IH]; intros s O; cbn [fold_left]; [reflexivity|]. unfold x_step at 2. rewrite O. apply IH, O. Qed.
Lemma step_batches_tick buffer s a b : xgood buffer s -> xseen (x_step buffer s (XTick a b)) = xseen s.
Proof.
  intros G. unfold x_step. destruct (x_open s) eqn:O; [|reflexivity]. destruct (_ && _); [|reflexivity].
  unfold xseen, x_flush; cbn [x_open x_batches x_recs]. rewrite O, concat_app; cbn [concat]. rewrite !app_nil_r. reflexivity.
Qed.
Lemma step_batches_rec buffer s r a b : x_open s = true -> xseen (x_step buffer s (XRec r a b)) = xseen s ++ [r] /\ x_open (x_step buffer s (XRec r a b)) = true.
Proof.
  intros O. unfold x_step. rewrite O. unfold x_flush. cbn [x_counter x_recs x_open x_batches].
  destruct (Z.leb _ _); unfold xseen; cbn [x_open x_batches x_recs]; rewrite O; [rewrite concat_app; cbn [concat]|]; rewrite ?app_nil_r, ?app_assoc; auto.
Qed.
Lemma step_batches_close buffer s : xgood buffer s -> x_open s = true ->
  concat (x_batches (x_step buffer s XClose)) = xseen s /\ x_open (x_step buffer s XClose) = false.
Proof.
  intros [G _] O. destruct (G O) as [C _]. unfold x_step. rewrite O. cbn [x_open x_batches]. split; [|reflexivity].
  unfold xseen. rewrite O. destruct (Z.ltb_spec 0 (x_counter s)).
  - rewrite concat_app; cbn [concat]. rewrite app_nil_r. reflexivity.
  - destruct (x_recs s); [rewrite app_nil_r; reflexivity|cbn [length] in C; lia].
Qed.
Lemma tick_open buffer s a b : x_open (x_step buffer s (XTick a b)) = x_open s.
Proof. unfold x_step. destruct (x_open s) eqn:O; [|exact O]. destruct (_ && _); exact O. Qed.
Lemma run_seen buffer es : forall s, xgood buffer s -> x_open s = true ->
  let s' := fold_left (x_step buffer) es s in
  xseen s' = xseen s ++ received es /\ (x_open s' = false <-> In XClose es).
Proof.
  induction es as [|e es IH]; intros s G O; cbn [fold_left received].
  - rewrite app_nil_r, O. split; [reflexivity|split; [discriminate|contradiction]].
  - pose proof (step_good buffer s e G) as G'. destruct e as [r a b|a b|]; cbn [In].
    + destruct (step_batches_rec buffer s r a b O) as [E O'].
      destruct (IH _ G' O') as [E' I]. rewrite E', E. rewrite <- app_assoc. split; [reflexivity|].
      rewrite I. split; [auto|intros [H|H]; [discriminate|exact H]].
    + assert (O' : x_open (x_step buffer s (XTick a b)) = true) by (rewrite tick_open; exact O).
      destruct (IH _ G' O') as [E' I]. rewrite E', step_batches_tick by exact G. split; [reflexivity|].
      rewrite I. split; [auto|intros [H|H]; [discriminate|exact H]].
    + destruct (step_batches_close buffer s G O) as [E O']. rewrite closed_run by exact O'.
      unfold xseen at 1. rewrite O', E, !app_nil_r. tauto.
Qed.
Lemma batching buffer t es : let s := x_run buffer t es in
  concat (x_batches s) ++ (if x_open s then x_recs s else []) = received es /\
  (x_open s = false <-> In XClose es).
Proof. exact (run_seen buffer es (x_start t) (start_good buffer t) eq_refl). Qed.

(** ** Idle flush *)
Lemma total_grows buffer s e : (length (concat (x_batches s)) <= length (concat (x_batches (x_step buffer s e))))%nat.
Proof.
  unfold x_step, x_flush. destruct (x_open s); [|lia]. destruct e as [r a b|a b|]; cbn [x_counter x_recs x_batches].
  - destruct (Z.leb _ _); cbn [x_batches]; rewrite ?concat_app, ?app_length; lia.
  - destruct (_ && _); cbn [x_batches]; rewrite ?concat_app, ?app_length; lia.
  - destruct (Z.ltb _ _); rewrite ?concat_app, ?app_length; lia.
Qed.
Lemma total_grows_run buffer es : forall s, (length (concat (x_batches s)) <= length (concat (x_batches (fold_left (x_step buffer) es s))))%nat.
Proof. induction es as [|e es IH]; intros s; cbn [fold_left]; [lia|]. pose proof (total_grows buffer s e). specialize (IH (x_step buffer s e)). lia. Qed.
(** Either everything seen up to [n] records has been handed over, or nothing was since [L]. *)
Definition waiting (n : nat) (L : Z) s : Prop :=
  (n <= length (concat (x_batches s)))%nat \/ (x_last s = L /\ 0 < x_counter s /\ x_open s = true).
Lemma waiting_step buffer n L s e : xgood buffer s -> (n <= length (xseen s))%nat -> x_open s = true -> e <> XClose ->
  waiting n L s -> waiting n L (x_step buffer s e).
Proof.
  intros G N O E [H|[H1 [H2 H3]]]; [left; pose proof (total_grows buffer s e); lia|].
  unfold xseen in N. rewrite O, app_length in N. unfold x_step. rewrite O. destruct e as [r a b|a b|]; [| |congruence].
  - unfold x_flush; cbn [x_counter x_recs x_open x_batches]. destruct (Z.leb _ _).
    + left; cbn [x_batches]. rewrite concat_app, app_length; cbn [concat]. rewrite app_nil_r, app_length. lia.
    + right; cbn [x_last x_counter x_open]. repeat split; try assumption; lia.
  - destruct (_ && _); [|right; auto]. left. unfold x_flush; cbn [x_batches]. rewrite concat_app, app_length; cbn [concat].
    rewrite app_nil_r. lia.
Qed.
Lemma received_app es1 es2 : ~ In XClose es1 -> received (es1 ++ es2) = received es1 ++ received es2.
Proof.
  induction es1 as [|e es1 IH]; intros H; cbn [app received]; [reflexivity|]. cbn [In] in H.
  destruct e; cbn [received]; rewrite ?IH by tauto; try reflexivity. tauto.
Qed.
Lemma seen_grows buffer s e : xgood buffer s -> (length (xseen s) <= length (xseen (x_step buffer s e)))%nat.
Proof.
  intros G. destruct (x_open s) eqn:O; [|unfold x_step; rewrite O; lia]. destruct e as [r a b|a b|].
  - destruct (step_batches_rec buffer s r a b O) as [E _]. rewrite E, app_length. lia.
  - rewrite step_batches_tick by exact G. lia.
  - destruct (step_batches_close buffer s G O) as [E O']. unfold xseen at 2. rewrite O', E, app_nil_r. lia.
Qed.
Lemma waiting_run buffer n L es : forall s, xgood buffer s -> (n <= length (xseen s))%nat -> x_open s = true -> ~ In XClose es ->
  waiting n L s -> waiting n L (fold_left (x_step buffer) es s).
Proof.
  induction es as [|e es IH]; intros s G N O E W; cbn [fold_left]; [exact W|]. cbn [In] in E.
  apply IH.
  - apply step_good, G.
  - pose proof (seen_grows buffer s e G). lia.
  - destruct e as [r a b|a b|]; [apply (step_batches_rec buffer s r a b O)|rewrite tick_open; exact O|tauto].
  - tauto.
  - apply waiting_step; auto; tauto.
Qed.
(** The last flush is not after the clock. *)
Fixpoint clock (t : Z) es : Z :=
  match es with [] => t | XRec _ _ b :: es' | XTick _ b :: es' => clock b es' | XClose :: es' => clock t es' end.
Lemma last_le buffer es : forall t s, x_last s <= t -> ordered t es ->
  x_last (fold_left (x_step buffer) es s) <= clock t es.
Proof.
  induction es as [|e es IH]; intros t s L H; cbn [fold_left clock]; [exact L|].
  destruct e as [r a b|a b|]; cbn [ordered] in H.
  - destruct H as [H1 [H2 H3]]. apply IH; [|exact H3]. unfold x_step, x_flush. destruct (x_open s); [|lia].
    cbn [x_counter x_recs x_batches]. destruct (Z.leb _ _); cbn [x_last]; lia.
  - destruct H as [H1 [H2 H3]]. apply IH; [|exact H3]. unfold x_step, x_flush. destruct (x_open s); [|lia].
    destruct (_ && _); cbn [x_last]; lia.
  - apply IH; [|exact H]. unfold x_step. destruct (x_open s); cbn [x_last]; exact L.
Qed.
Lemma ordered_app t es1 es2 : ordered t (es1 ++ es2) -> ordered t es1 /\ ordered (clock t es1) es2.
Proof.
  revert t; induction es1 as [|e es1 IH]; intros t; cbn [app ordered clock]; [auto|].
  destruct e; intros H; [destruct H as [H1 [H2 H3]]; apply IH in H3 as [? ?]; auto ..|apply IH, H].
Qed.
Lemma idle buffer t es1 r now don es2 tick tdone :
  let es := es1 ++ [XRec r now don] ++ es2 ++ [XTick tick tdone] in
  ordered t es -> ~ In XClose es -> now + maxIdle < tick ->
  nth_error (concat (x_batches (x_run buffer t es))) (length (received es1)) = Some r.
Proof.
  intros es Ord NC Late. set (n := S (length (received es1))).
  assert (NC1 : ~ In XClose es1) by (intros H; apply NC; unfold es; apply in_or_app; auto).
  assert (NC2 : ~ In XClose es2) by (intros H; apply NC; unfold es; rewrite !in_app_iff; auto).
  destruct (batching buffer t es) as [Seen _].
  assert (Rec : received es = received es1 ++ r :: received es2).
  { unfold es. rewrite received_app by exact NC1. f_equal. cbn [app received]. f_equal.
    rewrite received_app by exact NC2. cbn [received]. apply app_nil_r. }
  assert (N : (n <= length (concat (x_batches (x_run buffer t es))))%nat).
  2:{ rewrite Rec in Seen. set (C := concat (x_batches (x_run buffer t es))) in *.
      assert (E : nth_error (received es1 ++ r :: received es2) (length (received es1)) = Some r)
        by (rewrite nth_error_app2, Nat.sub_diag by lia; reflexivity).
      rewrite <- Seen in E. rewrite nth_error_app1 in E; [exact E|unfold n in N; lia]. }
  set (s1 := x_run buffer t es1).
  assert (G1 : xgood buffer s1) by apply run_good.
  destruct (batching buffer t es1) as [Seen1 Open1]. fold s1 in Seen1, Open1.
  assert (O1 : x_open s1 = true) by (destruct (x_open s1); [reflexivity|exfalso; apply NC1, Open1; reflexivity]).
  set (s2 := x_step buffer s1 (XRec r now don)).
  destruct (step_batches_rec buffer s1 r now don O1) as [Seen2 O2]. fold s2 in Seen2, O2.
  assert (G2 : xgood buffer s2) by (apply step_good, G1).
  assert (N2 : (n <= length (xseen s2))%nat).
  { rewrite Seen2. unfold xseen. rewrite Seen1, app_length. cbn [length]. unfold n. lia. }
  set (s3 := fold_left (x_step buffer) es2 s2).
  assert (RunE : x_run buffer t es = x_step buffer s3 (XTick tick tdone)).
  { unfold es, x_run. rewrite fold_left_app. cbn [app fold_left]. rewrite fold_left_app. reflexivity. }
  unfold es in Ord. apply ordered_app in Ord as [Ord1 Ord2]. cbn [app ordered] in Ord2. destruct Ord2 as [T1 [T2 Ord2]].
  apply ordered_app in Ord2 as [Ord2 Ord3].
  pose proof (last_le buffer es1 t (x_start t) (Z.le_refl t) Ord1) as L1. fold (x_run buffer t es1) in L1. fold s1 in L1.
  assert (W2 : waiting n (x_last s1) s2).
  { unfold s2, x_step. rewrite O1. unfold x_flush; cbn [x_counter x_recs x_open x_batches].
    destruct (proj1 G1 O1) as [C1 _].
    destruct (Z.leb _ _).
    - left; cbn [x_batches]. rewrite concat_app, app_length; cbn [concat]. rewrite app_nil_r, app_length; cbn [length].
      rewrite O1 in Seen1. apply (f_equal (@length R)) in Seen1. rewrite app_length in Seen1. unfold n. lia.
    - right; cbn [x_last x_counter x_open]. repeat split; lia. }
  pose proof (waiting_run buffer n (x_last s1) es2 s2 G2 N2 O2 NC2 W2) as [W|[W1 [W2' W3]]].
  - fold s3 in W. rewrite RunE. pose proof (total_grows buffer s3 (XTick tick tdone)). lia.
  - fold s3 in W1, W2', W3. rewrite RunE. unfold x_step. rewrite W3, W1. replace (Z.ltb maxIdle (tick - x_last s1)) with true by (symmetry; apply Z.ltb_lt; lia).
    replace (Z.ltb 0 (x_counter s3)) with true by (symmetry; apply Z.ltb_lt; lia). cbn [andb]. unfold x_flush; cbn [x_batches].
    rewrite concat_app; cbn [concat]. rewrite app_nil_r.
    assert (S3 : (n <= length (xseen s3))%nat).
    { unfold s3. clear -G2 N2. revert N2 G2. generalize s2. induction es2 as [|e es2 IH]; intros s N G; cbn [fold_left]; [exact N|].
      apply IH; [pose proof (seen_grows buffer s e G); lia|apply step_good, G]. }
    unfold xseen in S3. rewrite W3 in S3. exact S3.
Qed.
End Loop.

(** ** Delivery *)
Lemma encode_all_none {R} (enc : R -> option edata) b : encode_all enc b = None <-> exists r, In r b /\ enc r = None.
Proof.
  induction b as [|r b IH]; cbn [encode_all In]; [split; [discriminate|intros (?&[]&_)]|].
  destruct (enc r) as [d|] eqn:E.
  - destruct (encode_all enc b) as [ds|].
    + split; [discriminate|]. intros (x & [->|I] & H); [congruence|]. exfalso. assert (X : Some ds = None) by (apply IH; eauto). discriminate.
    + split; [intros _; destruct (proj1 IH eq_refl) as (x & I & H); eauto|reflexivity].
  - split; [eauto|reflexivity].
Qed.
Lemma encode_all_some {R} (enc : R -> option edata) b : forall ds, encode_all enc b = Some ds -> Forall2 (fun r d => enc r = Some d) b ds.
Proof.
  induction b as [|r b IH]; intros ds; cbn [encode_all]; [intros [= <-]; constructor|].
  destruct (enc r) as [d|] eqn:E; [|discriminate]. destruct (encode_all enc b) as [ds'|]; [|discriminate]. intros [= <-]. constructor; auto.
Qed.
Lemma syslog_delivery {R} (enc : R -> option edata) ok : forall b ds i out err,
  Forall2 (fun r d => enc r = Some d) b ds -> syslog_export ok i ds = (out, err) ->
  exists b1 b2, b = b1 ++ b2 /\
    Forall2 (fun r s => exists d, enc r = Some d /\ syslog_text d = Some s) b1 out /\
    (forall k, (k < length b1)%nat -> ok (i + k)%nat = true) /\
    (err = false -> b2 = []) /\
    (err = true -> exists r d b3, b2 = r :: b3 /\ enc r = Some d /\ (ok (i + length b1)%nat = false \/ syslog_text d = None)).
Proof.
  induction b as [|r b IH]; intros ds i out err F H; inversion F; subst; cbn [syslog_export] in H.
  - injection H as <- <-. exists [], []. repeat split; try constructor; try discriminate. intros k K; cbn in K; lia.
  - fold (syslog_text y) in H. destruct (syslog_text y) as [s|] eqn:T.
    + destruct (ok i) eqn:K.
      * destruct (syslog_export ok (S i) l') as [out' err'] eqn:X. injection H as <- <-.
        destruct (IH _ _ _ _ H4 X) as (b1 & b2 & -> & F1 & K1 & E1 & E2). exists (r :: b1), b2. split; [reflexivity|].
        split; [constructor; eauto|]. split.
        { intros [|k] Hk; [rewrite Nat.add_0_r; exact K|]. cbn [length] in Hk. rewrite <- Nat.add_succ_comm. apply K1. lia. }
        split; [exact E1|]. intros E. destruct (E2 E) as (r' & d' & b3 & -> & E3 & E4). exists r', d', b3. repeat split; auto.
        cbn [length]. rewrite <- Nat.add_succ_comm. exact E4.
      * injection H as <- <-. exists [], (r :: b). split; [reflexivity|]. split; [constructor|]. split; [intros k Hk; cbn in Hk; lia|].
        split; [discriminate|]. intros _. exists r, y, b. cbn [length]. rewrite Nat.add_0_r. auto.
    + injection H as <- <-. exists [], (r :: b). split; [reflexivity|]. split; [constructor|]. split; [intros k Hk; cbn in Hk; lia|].
      split; [discriminate|]. intros _. exists r, y, b. auto.
Qed.
Lemma process_delivery {R} (enc : R -> option edata) ok i b : b <> [] ->
  delivery enc syslog_text ok i b (process (encode_all enc) (syslog_export ok) i b).
Proof.
  intros NE. unfold process. destruct (encode_all enc b) as [ds|] eqn:E.
  - right. pose proof (encode_all_some _ _ _ E) as F. destruct ds as [|d ds]; [inversion F; subst; congruence|].
    destruct (syslog_export ok i (d :: ds)) as [out err] eqn:X.
    destruct (syslog_delivery enc ok b (d :: ds) i out err F X) as (b1 & b2 & H). exists out, err, b1, b2. tauto.
  - left. split; [apply encode_all_none, E|reflexivity].
Qed.
Lemma process_all_nth {R Out} (encode : list R -> option (list edata)) (export : nat -> list edata -> Out * bool) : forall bs i n b,
  nth_error bs n = Some b -> nth_error (process_all encode export i bs) n = Some (process encode export (i + length (concat (firstn n bs))) b).
Proof.
  induction bs as [|b0 bs IH]; intros i [|n] b; cbn [nth_error process_all firstn concat]; try discriminate.
  - intros [= ->]. rewrite Nat.add_0_r. reflexivity.
  - intros H. rewrite (IH _ _ _ H), app_length, Nat.add_assoc. reflexivity.
Qed.
Lemma process_all_length {R Out} (encode : list R -> option (list edata)) (export : nat -> list edata -> Out * bool) : forall bs i,
  length (process_all encode export i bs) = length bs.
Proof. induction bs; intros; cbn; auto. Qed.
Lemma sublist_app {A} (a a' b b' : list A) : sublist a b -> sublist a' b' -> sublist (a ++ a') (b ++ b').
Proof. intros H H'. induction H; cbn [app]; try constructor; auto. Qed.
Lemma sublist_nil {A} (b : list A) : sublist [] b.
Proof. induction b; constructor; auto. Qed.
Lemma sublist_refl {A} (b : list A) : sublist b b.
Proof. induction b; constructor; auto. Qed.
Definition rec_text {R} (enc : R -> option edata) (r : R) : option string :=
  match enc r with Some d => syslog_text d | None => None end.
Lemma forall2_texts {R} (enc : R -> option edata) b out :
  Forall2 (fun r s => exists d, enc r = Some d /\ syslog_text d = Some s) b out -> map Some out = map (rec_text enc) b.
Proof.
  intros F; induction F as [|r s b out (d & E & T) F IH]; [reflexivity|]. cbn [map]. rewrite IH. f_equal. unfold rec_text. rewrite E, T. reflexivity.
Qed.
Lemma delivered_sublist {R} (enc : R -> option edata) ok : forall bs i, Forall (fun b => b <> []) bs ->
  sublist (map Some (delivered (process_all (encode_all enc) (syslog_export ok) i bs))) (map (rec_text enc) (concat bs)).
Proof.
  induction bs as [|b bs IH]; intros i F; cbn [process_all concat delivered flat_map]; [constructor|].
  inversion F; subst. rewrite !map_app. apply sublist_app; [|apply IH; assumption].
  destruct (process_delivery enc ok i b H1) as [(_ & ->)|(out & err & b1 & b2 & -> & -> & F1 & _)].
  - apply sublist_nil.
  - rewrite (forall2_texts _ _ _ F1), map_app, <- (app_nil_r (map (rec_text enc) b1)) at 1. apply sublist_app; [apply sublist_refl|apply sublist_nil].
Qed.

(** ** The text file *)
Lemma slen_concat_app (a b : list string) : String.concat "" (a ++ b) = (String.concat "" a ++ String.concat "" b)%string.
Proof.
  induction a as [|x a IH]; [reflexivity|]. destruct a as [|y a].
  - cbn [app]. destruct b; cbn [String.concat]; [rewrite sapp_nil_r; reflexivity|reflexivity].
  - cbn [app String.concat] in *. rewrite IH. cbn [append]. rewrite sapp_assoc. reflexivity.
Qed.
Lemma concat_cons x (l : list string) : String.concat "" (x :: l) = (x ++ String.concat "" l)%string.
Proof. destruct l; cbn [String.concat]; [rewrite sapp_nil_r|]; reflexivity. Qed.
Lemma file_export_ok w wn : forall ds i, (forall k, (i <= k)%nat -> w k = WOk) -> (forall k, (i <= k)%nat -> wn k = WOk) ->
  file_export w wn i ds = (lines ds, false).
Proof.
  induction ds as [|d ds IH]; intros i W N; cbn [file_export]; [reflexivity|].
  rewrite (W i), (N i), (IH (S i)) by (try lia; intros k K; (apply W || apply N); lia).
  unfold lines; cbn [map]. rewrite concat_cons. f_equal. destruct d as [s|[m|] p e]; unfold line; cbn [append]; rewrite ?sapp_assoc; reflexivity.
Qed.
Lemma file_after_ok {R} (enc : R -> option edata) w wn : (forall k, w k = WOk) -> (forall k, wn k = WOk) ->
  forall bs i ds c, Forall (fun b => b <> []) bs -> encode_all enc (concat bs) = Some ds ->
  file_after c (process_all (encode_all enc) (file_export w wn) i bs) = (c ++ lines ds)%string.
Proof.
  intros W N. induction bs as [|b bs IH]; intros i ds c F H; cbn [process_all concat] in *.
  - injection H as <-. unfold file_after; cbn. rewrite sapp_nil_r. reflexivity.
  - inversion F; subst.
    assert (App : forall b c, encode_all enc (b ++ c) = match encode_all enc b, encode_all enc c with Some x, Some y => Some (x ++ y) | _, _ => None end).
    { clear. induction b as [|r b IH]; intros c; cbn [app encode_all]; [destruct (encode_all enc c); reflexivity|].
      destruct (enc r); [|reflexivity]. rewrite IH. destruct (encode_all enc b), (encode_all enc c); reflexivity. }
    rewrite App in H. destruct (encode_all enc b) as [d1|] eqn:E1; [|discriminate]. destruct (encode_all enc (concat bs)) as [d2|] eqn:E2; [|discriminate].
    injection H as <-. unfold file_after. cbn [fold_left]. unfold process. rewrite E1.
    pose proof (encode_all_some _ _ _ E1) as F1. destruct d1 as [|d d1]; [inversion F1; subst; congruence|].
    rewrite file_export_ok by auto. fold (file_after (c ++ lines (d :: d1)) (process_all (encode_all enc) (file_export w wn) (i + length b) bs)).
    rewrite (IH _ d2 _ H3 eq_refl). unfold lines. rewrite map_app, slen_concat_app, sapp_assoc. reflexivity.
Qed.
Definition body (d : edata) : string := match d with DBytes s => s | DObj (Some m) _ _ => m | DObj None p _ => p end.
Lemma split_noline : forall s t, (forall a b, s <> (a ++ nl ++ b)%string) ->
  split_on (ascii_of_nat 10) (s ++ nl ++ t) = s :: split_on (ascii_of_nat 10) t.
Proof.
  induction s as [|a s IH]; intros t H.
  - reflexivity.
  - cbn [append split_on]. destruct (Ascii.eqb_spec a (ascii_of_nat 10)) as [->|NE].
    + exfalso. apply (H "" s)%string. reflexivity.
    + rewrite IH; [reflexivity|]. intros x y E. apply (H (String a x) y). cbn. rewrite E. reflexivity.
Qed.
Lemma lines_split ds : Forall one_line ds -> split_on (ascii_of_nat 10) (lines ds) = map body ds ++ [""%string].
Proof.
  induction ds as [|d ds IH]; intros F; [reflexivity|]. inversion F; subst. unfold lines; cbn [map]. rewrite concat_cons. fold (lines ds).
  unfold line at 1. fold (body d). rewrite sapp_assoc, split_noline by assumption. rewrite IH by assumption. reflexivity.
Qed.
(** What the terminal shows. *)
Lemma terminal_lines ds : terminal_export ds = lines ds.
Proof.
  induction ds as [|d ds IH]; [reflexivity|]. cbn [terminal_export]. unfold lines; cbn [map]. rewrite concat_cons. fold (lines ds). rewrite IH.
  unfold line. rewrite sapp_assoc. reflexivity.
Qed.

(** ** Kafka, Elastic *)
Lemma kafka_items ok : forall ds i, kafka_export ok i ds =
  flat_map (fun kd => match snd kd with DBytes s => if ok (fst kd) then [s] else [] | DObj _ _ _ => [] end) (combine (seq i (length ds)) ds).
Proof.
  induction ds as [|d ds IH]; intros i; cbn [kafka_export length seq combine flat_map fst snd]; [reflexivity|].
  destruct d as [s|m p e]; [destruct (ok i)|]; rewrite IH; reflexivity.
Qed.
Lemma es_bytes_nothing add i s ds : es_add add i (DBytes s :: ds) = ([], true).
Proof. reflexivity. Qed.

(** ** Sets *)
Lemma seqb_true a b : seqb a b = true <-> a = b.
Proof. apply String.eqb_eq. Qed.
Lemma contains_in s v : set_contains s v = true <-> In v s.
Proof.
  unfold set_contains. rewrite existsb_exists. split; [intros (x & I & E)|intros I].
  - apply seqb_true in E; subst; exact I.
  - exists v. split; [exact I|apply seqb_true; reflexivity].
Qed.
Lemma add_in w s v : In v (set_add w s) <-> w = v \/ In v s.
Proof.
  unfold set_add. destruct (existsb (seqb w) s) eqn:E; cbn [In]; [|reflexivity].
  apply (proj1 (contains_in s w)) in E. split; [auto|]. intros [<-|H]; auto.
Qed.
Lemma remove_in w s v : In v (set_remove w s) <-> w <> v /\ In v s.
Proof.
  unfold set_remove. rewrite filter_In. split; intros [A B].
  - split; [|exact A]. intros ->. rewrite (proj2 (seqb_true v v) eq_refl) in B. discriminate.
  - split; [exact B|]. destruct (seqb v w) eqn:E; [apply seqb_true in E; congruence|reflexivity].
Qed.
Lemma set_member ops : forall v, In v (fold_right (fun o s => set_apply s o) set_new ops) <-> member ops v.
Proof.
  induction ops as [|[w|w] ops IH]; intros v; cbn [fold_right set_apply member].
  - reflexivity.
  - rewrite add_in, IH. reflexivity.
  - rewrite remove_in, IH. reflexivity.
Qed.
Lemma set_nodup ops : NoDup (fold_right (fun o s => set_apply s o) set_new ops).
Proof.
  induction ops as [|[w|w] ops IH]; cbn [fold_right set_apply]; [constructor| |].
  - unfold set_add. destruct (existsb _ _) eqn:E; [exact IH|]. constructor; [|exact IH]. intros I. apply contains_in in I. unfold set_contains in I. congruence.
  - apply NoDup_filter, IH.
Qed.
Lemma subset_forall order l : set_subset order l = true <-> forall v, In v order -> In v l.
Proof.
  induction order as [|k order IH]; cbn [set_subset In]; [tauto|]. destruct (set_contains l k) eqn:E.
  - apply contains_in in E. rewrite IH. split; [intros H v [<-|I]; auto|auto].
  - split; [discriminate|]. intros H. specialize (H k (or_introl eq_refl)). apply contains_in in H. congruence.
Qed.

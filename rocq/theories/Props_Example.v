(** * Property C110: the plugins shipped as examples. *)
From Coq Require Import Lia.
From Verif Require Import GoBase GoFacts FlatRecord EngineModel EngineFlat SpecEngineFlat.
From Verif Require StartModel Props_App.
From Verif Require Import ReaderModel SpecReader ReaderFacts ReaderFacts2 ReaderFacts3 Props_Reader ExampleModel SpecExample.
Open Scope list_scope.

Lemma hist_split rs : forall pre i h r, nth_error (with_history pre rs) i = Some (h, r) -> exists rest, pre ++ rs = h ++ r :: rest.
Proof.
  induction rs as [|r0 rs IH]; intros pre [|i] h r E; try discriminate; cbn [with_history nth_error] in E.
  - injection E as <- <-. eauto.
  - destruct (IH _ _ _ _ E) as (rest & Q). rewrite <- app_assoc in Q. exists rest. exact Q.
Qed.
Lemma deliv_pos rs : forall pre i h r, nth_error (filter (fun hr => deliverable false (snd hr)) (with_history pre rs)) i = Some (h, r) ->
  deliverable false r = true /\ exists rest, pre ++ rs = h ++ r :: rest /\ count false h = count false pre + i.
Proof.
  induction rs as [|r0 rs IH]; intros pre i h r E; [destruct i; discriminate|]. cbn [with_history filter snd] in E.
  destruct (deliverable false r0) eqn:D.
  - destruct i as [|i]; cbn [nth_error] in E.
    + injection E as <- <-. split; [exact D|]. exists rs. split; [reflexivity|lia].
    + destruct (IH _ _ _ _ E) as (Dr & rest & Q & C). split; [exact Dr|]. rewrite <- app_assoc in Q. exists rest. split; [exact Q|].
      rewrite C. unfold count. rewrite filter_app, app_length. cbn [filter]. rewrite D. cbn [length]. lia.
  - destruct (IH _ _ _ _ E) as (Dr & rest & Q & C). split; [exact Dr|]. rewrite <- app_assoc in Q. exists rest. split; [exact Q|].
    rewrite C. unfold count. rewrite filter_app, app_length. cbn [filter]. rewrite D. cbn [length]. lia.
Qed.
Lemma hist_snd rs : forall pre, map snd (with_history pre rs) = rs.
Proof. induction rs as [|r rs IH]; intros pre; [reflexivity|]. cbn [with_history map snd]. rewrite IH. reflexivity. Qed.
Lemma filter_snd (f : rec -> bool) l : map snd (filter (fun hr : list rec * rec => f (snd hr)) l) = filter f (map snd l).
Proof. induction l as [|a l IH]; [reflexivity|]. cbn [filter map]. destruct (f (snd a)); cbn [map]; rewrite IH; reflexivity. Qed.
Lemma event_deliv r : is_event r = true -> deliverable false r = true.
Proof. destruct r; cbn; auto; discriminate. Qed.
Lemma filter_filter {A} (f g : A -> bool) l : (forall a, f a = true -> g a = true) -> filter f (filter g l) = filter f l.
Proof. intros H. induction l as [|a l IH]; [reflexivity|]. cbn [filter]. destruct (g a) eqn:G; cbn [filter]; destruct (f a) eqn:F; rewrite ?IH; try reflexivity. rewrite (H a F) in G. discriminate. Qed.
(** Deliveries, paired with the records of the stream and what came before them. *)
Lemma paired rs st ds : reader_run false reader_init rs = Ok (st, ds) ->
  Forall2 (fun hr d => call_for (snd hr) (snd d) /\ forall s id, Since is_header (fst hr) s -> subject (snd hr) = Some id -> ProcInForce ann_rec s id (x_proc (fst d)))
    (filter (fun hr => deliverable false (snd hr)) (with_history [] rs)) ds.
Proof.
  intros E. destruct (C30_order false rs st ds E) as [O C].
  assert (O' : map (fun d => x_rec (fst d)) ds = map snd (filter (fun hr => deliverable false (snd hr)) (with_history [] rs))).
  { rewrite O, filter_snd, hist_snd. clear. induction rs as [|r rs IH]; [reflexivity|]. cbn [filter]. destruct (deliverable false r) eqn:D; [|exact IH]. cbn [map]. rewrite IH. f_equal. destruct r; try reflexivity; discriminate. }
  assert (P : forall i h r d, nth_error (filter (fun hr => deliverable false (snd hr)) (with_history [] rs)) i = Some (h, r) -> nth_error ds i = Some d ->
    forall s id, Since is_header h s -> subject r = Some id -> ProcInForce ann_rec s id (x_proc (fst d))).
  { intros i h r d N Nd s id Hs Hid. destruct (deliv_pos rs [] i h r N) as (_ & rest & Q & Cn). cbn [app] in Q. cbn in Cn. subst rs.
    destruct (C30_event false h r rest st ds s id E Hs Hid) as (x & c & Nx & Ec). rewrite Cn in Nx. rewrite Nx in Nd. injection Nd as <-. exact (ec_proc _ _ _ _ _ _ Ec). }
  clear O E. revert ds C O' P. generalize (filter (fun hr => deliverable false (snd hr)) (with_history [] rs)). induction l as [|hr l IH]; intros [|d ds] C O P; try discriminate; [constructor|].
  inversion C as [|? ? C1 C2]; subst. cbn [map] in O. injection O as O1 O2. constructor.
  - split; [rewrite <- O1; exact C1|]. intros s id Hs Hid. destruct hr as [h r]. exact (P 0 h r d eq_refl eq_refl s id Hs Hid).
  - apply IH; [exact C2|exact O2|]. intros i h r d0 N Nd. exact (P (S i) h r d0 N Nd).
Qed.
Lemma hdr_dec r : is_header r \/ ~ is_header r.
Proof. destruct r; try (right; intros (? & ?); discriminate). left. eexists. reflexivity. Qed.
Section Printer.
Variable num : rec -> Z.
Notation prints := (reader_printer (fun c => num (rec_of c))).
(** C110.  On streams the reader gets through in which the process of every event is known, a reader with the printer logs exactly one line for each
    event, in order, with the executable of the process in force. *)
Theorem C110_printer_partial : forall rs, Sane false rs -> Forall (fun hr => known (fst hr) (snd hr)) (events_of rs) ->
  exists lines, prints rs = Ok lines /\ Forall2 (fun hr l => line_for num (fst hr) (snd hr) l) (events_of rs) lines.
Proof.
  intros rs Sn K. destruct (C56_total_partial false rs Sn) as (st & ds & E). unfold reader_printer, printer_entities. rewrite E. cbn [rbind].
  pose proof (paired rs st ds E) as F. clear E Sn st. unfold events_of in *.
  assert (G : filter (fun hr => is_event (snd hr)) (with_history [] rs) = filter (fun hr => is_event (snd hr)) (filter (fun hr => deliverable false (snd hr)) (with_history [] rs))).
  { symmetry. apply filter_filter. intros a. apply event_deliv. }
  rewrite G in *. clear G. revert K F. generalize (filter (fun hr => deliverable false (snd hr)) (with_history [] rs)). intros l K F.
  induction F as [|[h r] [x c] l ds [C P] F IH]; [exists []; split; [reflexivity|constructor]|]. cbn [fst snd filter] in *.
  destruct (is_event r) eqn:V.
  - inversion K as [|? ? Kn K2]; subst. destruct (IH K2) as (lines & El & Fl). cbn [fst snd] in Kn. destruct Kn as (s & id & p & Hs & Hid & Hp).
    pose proof (P s id Hs Hid) as Px. pose proof (PIF_fun ann_rec _ _ _ _ Px Hp) as Xp.
    assert (exists k, kind_of r = Some k) as (k & Ek) by (unfold is_event in V; destruct (kind_of r); [eauto|discriminate]).
    exists ((k ++ " " ++ p_exe p ++ ", " ++ format_int (num r))%string :: lines). split.
    + cbn [print_all]. rewrite El.
      assert (Pr : printer (fun c => num (rec_of c)) (x, c) = Ok [(k ++ " " ++ p_exe p ++ ", " ++ format_int (num r))%string]).
      { unfold printer. cbn [fst snd]. rewrite Xp. destruct r; cbn in Ek; try discriminate; injection Ek as <-; cbn [call_for] in C; subst c; reflexivity. }
      rewrite Pr. reflexivity.
    + constructor; [|exact Fl]. exists s, id, p, k. auto.
  - destruct (IH K) as (lines & El & Fl). exists lines. split; [|exact Fl]. cbn [print_all]. rewrite El.
    assert (Pr : printer (fun c => num (rec_of c)) (x, c) = Ok []) by (destruct r; cbn in V, C; try discriminate; try contradiction; subst c; reflexivity).
    rewrite Pr. reflexivity.
Qed.
(** On every other stream the reader gets through, it crashes: the first event of an unknown process does it. *)
Theorem C110_printer_refuted : forall rs, Sane false rs -> ~ Forall (fun hr => known (fst hr) (snd hr)) (events_of rs) -> prints rs = Panic.
Proof.
  intros rs Sn K. destruct (C56_total_partial false rs Sn) as (st & ds & E). unfold reader_printer, printer_entities. rewrite E. cbn [rbind].
  pose proof (paired rs st ds E) as F. clear E Sn st. unfold events_of in *.
  assert (G : filter (fun hr => is_event (snd hr)) (with_history [] rs) = filter (fun hr => is_event (snd hr)) (filter (fun hr => deliverable false (snd hr)) (with_history [] rs))).
  { symmetry. apply filter_filter. intros a. apply event_deliv. }
  rewrite G in *. clear G. revert K F. generalize (filter (fun hr => deliverable false (snd hr)) (with_history [] rs)). intros l K F.
  induction F as [|[h r] [x c] l ds [C P] F IH]; [exfalso; apply K; constructor|]. cbn [fst snd filter] in *. cbn [print_all].
  destruct (is_event r) eqn:V.
  - destruct (x_proc x) as [p|] eqn:Ex.
    + assert (Kn : known h r).
      { destruct (Since_total is_header hdr_dec h) as (s & Hs).
        assert (exists id, subject r = Some id) as (id & Hid) by (destruct r; cbn in V |- *; eauto; discriminate).
        exists s, id, p. split; [exact Hs|]. split; [exact Hid|]. exact (P s id Hs Hid). }
      assert (Pr : exists l0, printer (fun c => num (rec_of c)) (x, c) = Ok l0) by (unfold printer; cbn [fst snd]; rewrite Ex; destruct c; eauto).
      destruct Pr as (l0 & ->). cbn [rbind]. rewrite IH; [reflexivity|]. intros K2. apply K. constructor; [exact Kn|exact K2].
    + assert (Pr : printer (fun c => num (rec_of c)) (x, c) = Panic).
      { unfold printer. cbn [fst snd]. rewrite Ex. destruct r; cbn in V; try discriminate; cbn [call_for] in C; subst c; reflexivity. }
      rewrite Pr. reflexivity.
  - assert (Pr : printer (fun c => num (rec_of c)) (x, c) = Ok []) by (destruct r; cbn in V, C; try discriminate; try contradiction; subst c; reflexivity).
    rewrite Pr. cbn [rbind]. rewrite (IH K). reflexivity.
Qed.
End Printer.
(** The example processor crashes on any channel a factory of the program makes, and on two channels of its own kind when it alone is waited for. *)
Theorem C110_processor_refuted : (forall t n chs wg, example_process (CPtr t n :: chs) wg = Panic) /\
  (forall n m, example_process [CVal StartModel.GFlat n; CVal StartModel.GFlat m] 1 = Panic).
Proof. split; reflexivity. Qed.
(** The example action adds one tag with the time and changes nothing else. *)
Theorem C110_action : forall t r, let r' := fst (now_action t r) in
  snd (now_action t r) = true /\ fst r' = fst r /\ ctx_getrules (snd r') = ctx_getrules (snd r) /\ ctx_isalert (snd r') = ctx_isalert (snd r) /\
  ctx_gettags (snd r') = ctx_gettags (snd r) ++ [("now_in_nanos:" ++ format_int t)%string].
Proof. intros t [fr c]. repeat split; reflexivity. Qed.
Print Assumptions C110_printer_partial.
Print Assumptions C110_printer_refuted.
Print Assumptions C110_processor_refuted.
Print Assumptions C110_action.
Definition xp : process := mkProc (7, 8)%Z CREATED None " /bin/ls " "" INull 0.
Definition xs : list rec := [RHeader 0; RProc xp; RK8s 3; RNetFlow (7, 8)%Z 1; RFileEvt (7, 8)%Z "f" None 2].
Example C110_case : reader_printer (fun c => match rec_of c with RNetFlow _ n | RFileEvt _ _ _ n => Z.of_nat n | _ => 0%Z end) xs = Ok ["NetworkFlow /bin/ls, 1"; "FileEvt /bin/ls, 2"]%string /\
  reader_printer (fun _ => 0%Z) [RHeader 0; RNetFlow (7, 8)%Z 1] = Panic.
Proof. split; reflexivity. Qed.
Example C110_hypotheses_case : Sane false xs /\ Forall (fun hr => known (fst hr) (snd hr)) (events_of xs).
Proof.
  split.
  - apply Props_App.orphans_sane. intros p I. cbn in I. repeat destruct I as [I|I]; try discriminate; try contradiction. injection I as <-. split; reflexivity.
  - assert (S : forall h r rest, xs = h ++ r :: rest -> forall id, subject r = Some id -> id = (7, 8)%Z -> In (RProc xp) h -> (exists t, h = RHeader 0 :: t /\ forall q, ~ In (RHeader q) t) -> known h r).
    { intros h r rest E id Hid -> _ (t & -> & Nt). exists t, (7, 8)%Z, (trimmed xp).
      assert (Hs : Since is_header (RHeader 0 :: t) t) by (split; [intros a I (q & ->); exact (Nt q I)|right; exists [], (RHeader 0); split; [exists 0; reflexivity|reflexivity]]).
      split; [exact Hs|]. split; [exact Hid|].
      assert (R : exists st ds, reader_run false reader_init xs = Ok (st, ds) /\ forall x c, In (x, c) ds -> is_event (x_rec x) = true -> x_proc x = Some (trimmed xp)).
      { eexists _, _. split; [reflexivity|]. intros x c I. cbn in I. repeat destruct I as [I|I]; try contradiction; injection I as <- <-; intros V; try discriminate; reflexivity. }
      destruct R as (st & ds & R & A). rewrite E in R. destruct (C30_event false _ r rest st ds t _ R Hs Hid) as (x & c & N & Ec). rewrite <- (A x c (nth_error_In _ _ N)); [exact (ec_proc _ _ _ _ _ _ Ec)|].
      rewrite (ec_rec _ _ _ _ _ _ Ec). destruct r; try discriminate; reflexivity. }
    repeat constructor; cbn [fst snd]; (eapply S with (id := (7, 8)%Z); [reflexivity|reflexivity|reflexivity|cbn; auto|eexists; split; [reflexivity|]; cbn; intros q I; repeat destruct I as [I|I]; try discriminate; contradiction]).
Qed.
Example C110_action_case : benign (mkAH [] [("now"%string, now_action 5)]) .
Proof.
  intros a f r. unfold find_action. cbn [ah_builtin ah_user GoBase.mget]. destruct (seqb a "now"); [|discriminate]. intros [= <-]. exact (conj (proj1 (proj2 (C110_action 5 r))) (proj1 (proj2 (proj2 (C110_action 5 r))))).
Qed.

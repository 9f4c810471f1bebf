(** * C113: stop signals. *)
From Coq Require Import Lia.
From Verif Require Import GoBase SignalModel SpecSignal SignalFacts.
Local Open Scope nat_scope.

(** C113.  A signal received while all drivers are running stops the program: once the flag has been cleared it stays so, under every
    schedule and whatever further signals come, and a file driver hands over at most the one record it has in its hands. *)
Theorem C113_stop_holds :
  forall (R : Type) (kinds : list (kind R)) tr s s1 tr2 s2,
  steps kinds (sys0 kinds) tr s -> s_main s = MAwait -> s_hdl s = HShut -> step kinds s LHandler s1 -> steps kinds s1 tr2 s2 ->
  s_running s2 = false /\ forall i data, nth_error kinds i = Some (KFile data) -> length (sent_by i tr2) <= 1.
Proof.
  intros R kinds tr s s1 tr2 s2 H M HS ST H2. pose proof (inv_reach kinds _ _ H) as I.
  assert (S1 : settled s1) by (inversion ST; subst; try congruence; unfold settled, carried_out; cbn; auto).
  split; [apply (settled_steps kinds _ _ _ S1 H2)|]. intros i data K.
  pose proof (pending_steps kinds s1 tr2 s2 i (KFile data) (inv_step kinds _ _ _ I ST) S1 K ltac:(discriminate) H2). lia.
Qed.
Print Assumptions C113_stop_holds.

(** And nothing keeps it from ending: the goroutine that received the signal is never blocked; a file driver ends after at most two
    steps of its own, and so does, once the goroutine is through, a socket driver unless it is waiting for a connection (C73). *)
Theorem C113_stop_proceeds :
  forall (R : Type) (kinds : list (kind R)) tr s,
  steps kinds (sys0 kinds) tr s -> ~ over s -> received s -> s_hdl s = HDone \/ exists s', step kinds s LHandler s'.
Proof.
  intros R kinds tr s H NO RC.
  assert (NX : forall z, s_main s <> MExit z) by (intros z E; apply NO; exists z; exact E).
  unfold received in RC. destruct (s_hdl s) as [| | | | |j n|] eqn:E; try contradiction; auto; right.
  - destruct (s_pl s) eqn:P; eexists; [eapply st_pl; eauto|eapply st_nil; eauto].
  - eexists. eapply st_flag; eauto.
  - destruct (Nat.lt_ge_cases j n) as [L|L]; [|eexists; eapply st_over; eauto].
    assert (B : forall tr s, steps kinds (sys0 kinds) tr s -> s_loaded s <= length kinds /\ forall j n, s_hdl s = HClean j n -> n <= length kinds).
    { clear. intros tr s H. induction H as [|tr s1 l s2 H IH ST]; [cbn; split; [lia|discriminate]|]. destruct IH as [A B].
      destruct ST; cbn [s_loaded s_hdl] in *; auto; try (split; [auto|]; intros ? ? X; try discriminate X; try (injection X as <- <-); eauto; fail). }
    pose proof (proj2 (B tr s H) j n E). pose proof (i_len _ _ (inv_reach kinds _ _ H)).
    destruct (nth_error (s_drv s) j) as [d|] eqn:D; [|apply nth_error_None in D; lia]. eexists. eapply st_clean; eauto.
Qed.
Print Assumptions C113_stop_proceeds.
Theorem C113_drivers_end :
  forall (R : Type) (kinds : list (kind R)) tr s s1 tr2 s2 i,
  steps kinds (sys0 kinds) tr s -> s_main s = MAwait -> s_hdl s = HShut -> step kinds s LHandler s1 -> steps kinds s1 tr2 s2 -> ~ over s2 ->
  (exists data, nth_error kinds i = Some (KFile data)) \/
  (nth_error kinds i = Some KSocket /\ s_hdl s2 = HDone /\ nth_error (s_drv s2) i <> Some SAccept) ->
  nth_error (s_drv s2) i <> Some (SRead false) /\
  exists tr3 s3, steps kinds s2 tr3 s3 /\ Forall (only i) tr3 /\ length tr3 <= 3 /\ nth_error (s_drv s3) i = Some (DDone false).
Proof.
  intros R kinds tr s s1 tr2 s2 i H M HS ST H2 NO K.
  pose proof (inv_reach kinds _ _ H) as I. pose proof (inv_step kinds _ _ _ I ST) as I1. pose proof (inv_steps kinds _ _ _ I1 H2) as I2.
  pose proof (loaded_reach kinds _ _ H) as LD. unfold all_loaded in LD. rewrite M in LD.
  assert (C1 : closed_inv kinds s1).
  { inversion ST; subst; try congruence. unfold closed_inv, settled, carried_out, cleaned_up; cbn. rewrite LD. repeat split; auto; [congruence|]. intros j _ X. lia. }
  pose proof (closed_steps kinds _ _ _ I1 C1 H2) as ((MM & _ & F) & _ & CL). destruct MM as [MM|MM]; [|contradiction].
  destruct K as [[data K]|(K & HD & NA)].
  - split.
    + intros E. pose proof (i_fit _ _ I2 _ _ _ K E) as X. exact X.
    + destruct (file_ends kinds s2 i data I2 MM F K) as (tr3 & s3 & A & B & C & D). exists tr3, s3. repeat split; auto.
  - split.
    + apply CL; [apply nth_error_Some; congruence|]. unfold cleaned_up. rewrite HD. exact Logic.I.
    + destruct (socket_ends kinds s2 i I2 MM F K NA) as (tr3 & s3 & A & B & C & D). exists tr3, s3. auto.
Qed.
Print Assumptions C113_drivers_end.

(** A socket driver too hands over at most one record more; when the goroutine is through, none but the one it holds. *)
Theorem C113_socket_stops :
  forall (R : Type) (kinds : list (kind R)) tr s s1 tr2 s2 i,
  steps kinds (sys0 kinds) tr s -> s_main s = MAwait -> s_hdl s = HShut -> step kinds s LHandler s1 -> steps kinds s1 tr2 s2 -> nth_error kinds i = Some KSocket ->
  length (sent_by i tr2) <= 1 /\
  (s_hdl s2 = HDone -> forall tr3 s3, steps kinds s2 tr3 s3 ->
   length (sent_by i tr3) <= 1 /\ forall r, In r (sent_by i tr3) -> exists c, nth_error (s_drv s2) i = Some (SSend r c)).
Proof.
  intros R kinds tr s s1 tr2 s2 i H M HS ST H2 K.
  pose proof (inv_reach kinds _ _ H) as I. pose proof (inv_step kinds _ _ _ I ST) as I1. pose proof (inv_steps kinds _ _ _ I1 H2) as I2.
  pose proof (loaded_reach kinds _ _ H) as LD. unfold all_loaded in LD. rewrite M in LD.
  assert (C1 : closed_inv kinds s1).
  { inversion ST; subst; try congruence. unfold closed_inv, settled, carried_out, cleaned_up; cbn. rewrite LD. repeat split; auto; [congruence|]. intros j _ X. lia. }
  pose proof (closed_steps kinds _ _ _ I1 C1 H2) as (S2 & _ & CL). destruct C1 as (S1 & _).
  split; [pose proof (pending_steps kinds s1 tr2 s2 i KSocket I1 S1 K ltac:(discriminate) H2); lia|]. intros HD tr3 s3 H3.
  split; [pose proof (pending_steps kinds s2 tr3 s3 i KSocket I2 S2 K ltac:(discriminate) H3); lia|].
  intros r IN. eapply (held_steps kinds s2 tr3 s3 i I2 S2 K); eauto. apply CL; [apply nth_error_Some; congruence|]. unfold cleaned_up. rewrite HD. exact Logic.I.
Qed.
Print Assumptions C113_socket_stops.
(** The goroutine that received the signal only asks: it ends no driver itself (each ends, and closes its channel, in its own loop). *)
Theorem C113_asks : forall (R : Type) (kinds : list (kind R)) s s' i err,
  step kinds s LHandler s' -> (nth_error (s_drv s') i = Some (DDone err) <-> nth_error (s_drv s) i = Some (DDone err)).
Proof. intros R kinds. exact (handler_ends kinds). Qed.
Print Assumptions C113_asks.
(** A Kafka driver never looks: in whatever state the stop is, it hands over every message that comes, and waits for the next. *)
Theorem C113_kafka_refuted : forall (R : Type) (kinds : list (kind R)) s i l,
  ~ over s -> nth_error (s_drv s) i = Some KRead ->
  exists tr s', steps kinds s tr s' /\ Forall (only i) tr /\ sent_by i tr = l /\ nth_error (s_drv s') i = Some KRead.
Proof. intros R kinds s i l NO. apply (kafka_goes_on kinds). intros z E. apply NO. exists z. exact E. Qed.
Print Assumptions C113_kafka_refuted.

(** The exit status: 143 from a signal that comes before the program asks for signals; from the end of the last driver 0, or 1 if it failed. *)
Theorem C113_exit_status : forall (R : Type) (kinds : list (kind R)) s l s' z, step kinds s l s' -> ~ over s -> s_main s' = MExit z ->
  (l = LSignal -> s_main s = MBoot /\ z = 143%Z) /\
  (s_main s = MAwait -> exists err, nth_error (s_drv s) (length kinds - 1) = Some (DDone err) /\ z = if err then 1%Z else 0%Z).
Proof.
  intros R kinds s l s' z ST NO E. assert (NX : forall z, s_main s <> MExit z) by (intros y X; apply NO; exists y; exact X).
  destruct ST; cbn [s_main] in E; try (now destruct (NX _ E)); try discriminate E; try (destruct (Nat.eqb _ _); discriminate E);
    (split; [intros X; try discriminate X|intros X; try congruence]); try (destruct H; congruence); auto.
  - injection E as <-. auto.
  - injection E as <-. eauto.
Qed.
Print Assumptions C113_exit_status.

(** Without a signal no driver of the running program ever reads a cleared flag. *)
Theorem C113_no_signal :
  forall (R : Type) (kinds : list (kind R)) tr s,
  steps kinds (sys0 kinds) tr s -> forallb no_signal tr = true -> s_main s = MAwait -> s_running s = true.
Proof.
  intros R kinds tr s H NS M. assert (Q : quiet (sys0 kinds)) by (split; cbn; auto).
  destruct (quiet_steps kinds tr _ _ NS Q H) as [_ X]. rewrite M in X. exact X.
Qed.
Print Assumptions C113_no_signal.

(** Only one signal is ever received: after that the program runs as it would have run without the later ones.  So if the first did not
    end it (below, and C73), no interrupt or termination signal can. *)
Theorem C113_second_signal_refuted :
  forall (R : Type) (kinds : list (kind R)) tr s tr2 s2,
  steps kinds (sys0 kinds) tr s -> received s -> steps kinds s tr2 s2 -> steps kinds s (List.filter no_signal tr2) s2.
Proof. intros R kinds tr s tr2 s2 H RC H2. apply (later_signals kinds s tr2 s2 (inv_reach kinds _ _ H) RC H2). Qed.
Print Assumptions C113_second_signal_refuted.

(** A stop carried out while the program is starting is undone: when all drivers run the flag is set, and stays set. *)
Theorem C113_early_signal_refuted :
  forall (R : Type) (kinds : list (kind R)) s tr2 s2,
  carried_out s -> starting s -> steps kinds s tr2 s2 -> s_main s2 = MAwait -> s_running s2 = true.
Proof.
  intros R kinds s tr2 s2 C ST H M. assert (U : undone s) by (split; auto).
  destruct (undone_steps kinds _ _ _ U H) as (_ & [X|[[z X]|[_ X]]]); auto; [unfold starting in X; rewrite M in X; contradiction|congruence].
Qed.
Print Assumptions C113_early_signal_refuted.

(** ** Such runs exist, for every input *)
Ltac walk := lazymatch goal with |- steps _ _ [] _ => constructor | |- steps _ _ (_ ++ _)%list _ => eapply sp_snoc; [walk|] end.
Section Ex.
Context {R : Type}.
Variable data : list R.
Let kinds := [KFile data].
Lemma go s tr s1 l s2 : steps kinds s tr s1 -> step kinds s1 l s2 -> steps kinds s (tr ++ [l]) s2.
Proof. apply sp_snoc. Qed.
Lemma read_all (rest : list R) h p n : exists tr, steps kinds (mkSys MAwait h p n true [FPoll rest]) tr (mkSys MAwait h p n true [DDone false]) /\
  sent_by 0 tr = rest /\ forallb no_signal tr = true.
Proof.
  induction rest as [|r rest (tr & A & B & C)].
  - exists [LDrv 0 None]. split; [|split; reflexivity]. apply steps_one. apply (st_drv kinds (mkSys MAwait h p n true [FPoll []]) 0 (FPoll []) None (DDone false)); [discriminate|reflexivity|constructor].
  - exists ([LDrv 0 None] ++ [LDrv 0 (Some r)] ++ tr)%list. split; [|split; [rewrite !sent_app, B; reflexivity|cbn; exact C]].
    eapply steps_app; [|eapply steps_app; [|exact A]]; apply steps_one.
    + apply (st_drv kinds (mkSys MAwait h p n true [FPoll (r :: rest)]) 0 (FPoll (r :: rest)) None (FSend r rest)); [discriminate|reflexivity|constructor; reflexivity].
    + apply (st_drv kinds (mkSys MAwait h p n true [FSend r rest]) 0 (FSend r rest) (Some r) (FPoll rest)); [discriminate|reflexivity|constructor].
Qed.
(** From the end of Load on, with the goroutine in any state. *)
Lemma start_all h b : exists tr, steps kinds (mkSys MLoad h true 0 b [DNew]) tr (mkSys (MExit 0) h true 1 true [DDone false]) /\ sent_by 0 tr = data.
Proof.
  destruct (read_all data h true 1) as (tr & A & B & _).
  exists ([LMain; LMain; LMain; LMain; LMain] ++ tr ++ [LMain])%list. split; [|rewrite !sent_app, B; cbn; now rewrite app_nil_r].
  eapply steps_app; [|eapply sp_snoc; [exact A|]].
  - apply (steps_app kinds _ [LMain; LMain; LMain; LMain] (mkSys (MRun 0) h true 1 true [DNew])).
    + change [LMain; LMain; LMain; LMain] with (((([] ++ [@LMain R]) ++ [LMain]) ++ [LMain]) ++ [LMain])%list.
      eapply sp_snoc; [eapply sp_snoc; [eapply sp_snoc; [eapply sp_snoc; [constructor|]|]|]|].
      * apply st_load; [reflexivity|cbn; lia].
      * apply st_loaded; [reflexivity|reflexivity|cbn; lia].
      * apply (st_init kinds (mkSys (MInit 0) h true 1 b [DNew]) 0). reflexivity.
      * apply (st_start kinds (mkSys (MStart 0) h true 1 b [DNew]) 0). reflexivity.
    + apply steps_one. apply (st_run kinds (mkSys (MRun 0) h true 1 true [DNew]) 0 (KFile data)); reflexivity.
  - apply (st_end kinds (mkSys MAwait h true 1 true [DDone false]) false); reflexivity.
Qed.
End Ex.

(** A signal during Load is received and carried out, and yet all of the input is processed as if it had not come. *)
Theorem C113_early_runs_refuted :
  forall (R : Type) (data : list R), exists tr1 s tr2,
  steps [KFile data] (sys0 [KFile data]) tr1 s /\ In LSignal tr1 /\ carried_out s /\ starting s /\
  exists s2, steps [KFile data] s tr2 s2 /\ s_main s2 = MExit 0 /\ sent_by 0 tr2 = data.
Proof.
  intros R data. destruct (start_all data HDone false) as (tr2 & A & B).
  exists ((((((((([] ++ [LMain]) ++ [LMain]) ++ [LHandler]) ++ [LMain]) ++ [LSignal]) ++ [LHandler]) ++ [LHandler]) ++ [LHandler]))%list,
    (mkSys MLoad HDone true 0 false [DNew]), tr2.
  split; [|split; [cbn; auto 9|split; [exact Logic.I|split; [exact Logic.I|eexists; split; [exact A|split; [reflexivity|exact B]]]]]].
  walk.
  - cbn; lazymatch goal with |- step ?k ?s _ _ => apply (st_notify k s) end. reflexivity.
  - cbn; lazymatch goal with |- step ?k ?s _ _ => apply (st_spawn k s) end. reflexivity.
  - cbn; lazymatch goal with |- step ?k ?s _ _ => apply (st_wait k s) end; [discriminate|reflexivity].
  - cbn; lazymatch goal with |- step ?k ?s _ _ => apply (st_new k s) end. reflexivity.
  - cbn; lazymatch goal with |- step ?k ?s _ _ => apply (st_take k s) end; [discriminate|discriminate|reflexivity].
  - cbn; lazymatch goal with |- step ?k ?s _ _ => apply (st_pl k s) end; [discriminate|reflexivity|reflexivity].
  - cbn; lazymatch goal with |- step ?k ?s _ _ => apply (st_flag k s) end; [discriminate|reflexivity].
  - cbn; lazymatch goal with |- step ?k ?s _ _ => apply (st_over k s 0 0) end; [discriminate|reflexivity|lia].
Qed.
Print Assumptions C113_early_runs_refuted.
(** A signal that comes before the goroutine waits for it is not even received. *)
Theorem C113_dropped_refuted :
  forall (R : Type) (data : list R), exists tr s,
  steps [KFile data] (sys0 [KFile data]) (LMain :: LSignal :: tr) s /\ ~ received s /\ s_main s = MExit 0 /\ sent_by 0 tr = data.
Proof.
  intros R data. destruct (start_all data HSpawned false) as (tr2 & A & B).
  exists ([LMain; LMain] ++ tr2)%list, (mkSys (MExit 0) HSpawned true 1 true [DDone false]).
  split; [|split; [intros []|split; [reflexivity|exact B]]].
  change (LMain :: LSignal :: [LMain; LMain] ++ tr2)%list with ((((([] ++ [LMain]) ++ [LSignal]) ++ [LMain]) ++ [LMain]) ++ tr2)%list.
  eapply steps_app; [|exact A]. walk.
  - cbn; lazymatch goal with |- step ?k ?s _ _ => apply (st_notify k s) end. reflexivity.
  - cbn; lazymatch goal with |- step ?k ?s _ _ => apply (st_drop k s) end; [discriminate|discriminate|discriminate].
  - cbn; lazymatch goal with |- step ?k ?s _ _ => apply (st_spawn k s) end. reflexivity.
  - cbn; lazymatch goal with |- step ?k ?s _ _ => apply (st_new k s) end. reflexivity.
Qed.
Print Assumptions C113_dropped_refuted.

(** A run that meets the hypotheses of C113_stop_holds and C113_drivers_end: the signal comes while the file driver holds a record; it is still
    sent, the next one is not. *)
Example ex_stop : exists tr s s1,
  steps [KFile [7; 8]] (sys0 [KFile [7; 8]]) tr s /\ s_main s = MAwait /\ s_hdl s = HShut /\ step [KFile [7; 8]] s LHandler s1 /\
  exists tr2 s2, steps [KFile [7; 8]] s1 tr2 s2 /\ ~ over s2 /\ sent_by 0 tr2 = [7] /\ s_drv s2 = [DDone false].
Proof.
  exists ((((((((((((([] ++ [LMain]) ++ [LMain]) ++ [LHandler]) ++ [LMain]) ++ [LMain]) ++ [LMain]) ++ [LMain]) ++ [LMain]) ++ [LMain]) ++ [LDrv 0 None]) ++ [LSignal]) ++ [LHandler]))%list,
    (mkSys MAwait HShut true 1 true [FSend 7 [8]]), (mkSys MAwait (HClean 0 1) true 1 false [FSend 7 [8]]).
  split; [|split; [reflexivity|split; [reflexivity|split; [apply st_flag; [discriminate|reflexivity]|]]]].
  - walk.
    + cbn; lazymatch goal with |- step ?k ?s _ _ => apply (st_notify k s) end. reflexivity.
    + cbn; lazymatch goal with |- step ?k ?s _ _ => apply (st_spawn k s) end. reflexivity.
    + cbn; lazymatch goal with |- step ?k ?s _ _ => apply (st_wait k s) end; [discriminate|reflexivity].
    + cbn; lazymatch goal with |- step ?k ?s _ _ => apply (st_new k s) end. reflexivity.
    + cbn; lazymatch goal with |- step ?k ?s _ _ => apply (st_load k s) end; [reflexivity|cbn; lia].
    + cbn; lazymatch goal with |- step ?k ?s _ _ => apply (st_loaded k s) end; [reflexivity|reflexivity|cbn; lia].
    + cbn; lazymatch goal with |- step ?k ?s _ _ => apply (st_init k s 0) end. reflexivity.
    + cbn; lazymatch goal with |- step ?k ?s _ _ => apply (st_start k s 0) end. reflexivity.
    + cbn; lazymatch goal with |- step ?k ?s _ _ => apply (st_run k s 0 (KFile [7; 8])) end; reflexivity.
    + cbn; lazymatch goal with |- step ?k ?s _ _ => eapply (st_drv k s 0 (FPoll [7; 8]) None (FSend 7 [8])) end; [discriminate|reflexivity|constructor; reflexivity].
    + cbn; lazymatch goal with |- step ?k ?s _ _ => apply (st_take k s) end; [discriminate|discriminate|reflexivity].
    + cbn; lazymatch goal with |- step ?k ?s _ _ => apply (st_pl k s) end; [discriminate|reflexivity|reflexivity].
  - exists (([] ++ [LDrv 0 (Some 7)]) ++ [LDrv 0 None])%list, (mkSys MAwait (HClean 0 1) true 1 false [DDone false]).
    split; [|split; [intros [z X]; discriminate|split; reflexivity]].
    walk.
    + cbn; lazymatch goal with |- step ?k ?s _ _ => eapply (st_drv k s 0 (FSend 7 [8]) (Some 7) (FPoll [8])) end; [discriminate|reflexivity|constructor].
    + cbn; lazymatch goal with |- step ?k ?s _ _ => eapply (st_drv k s 0 (FPoll [8]) None (DDone false)) end; [discriminate|reflexivity|apply ds_stop; reflexivity].
Qed.

(** And ones that meet those of C113_socket_stops and C113_kafka_refuted: the socket driver is reading when the flag is cleared, gets its
    message, is cleaned up with it in its hands, sends it and ends; the Kafka driver hands over two messages after the stop. *)
Example ex_socket_stop : exists tr s s1,
  steps [KSocket] (sys0 [KSocket (R := nat)]) tr s /\ s_main s = MAwait /\ s_hdl s = HShut /\ step [KSocket] s LHandler s1 /\
  exists tr2 s2, steps [KSocket] s1 tr2 s2 /\ s_hdl s2 = HDone /\ sent_by 0 tr2 = [] /\
  exists tr3 s3, steps [KSocket] s2 tr3 s3 /\ sent_by 0 tr3 = [9] /\ s_drv s3 = [DDone false].
Proof.
  exists (((((((((((((([] ++ [LMain]) ++ [LMain]) ++ [LHandler]) ++ [LMain]) ++ [LMain]) ++ [LMain]) ++ [LMain]) ++ [LMain]) ++ [LMain]) ++ [LDrv 0 None]) ++ [LDrv 0 None]) ++ [LDrv 0 None]) ++ [LSignal]) ++ [LHandler])%list,
    (mkSys MAwait HShut true 1 true [SRead false]), (mkSys MAwait (HClean 0 1) true 1 false [SRead false]).
  split; [|split; [reflexivity|split; [reflexivity|split; [apply st_flag; [discriminate|reflexivity]|]]]].
  - walk.
    + cbn; lazymatch goal with |- step ?k ?s _ _ => apply (st_notify k s) end. reflexivity.
    + cbn; lazymatch goal with |- step ?k ?s _ _ => apply (st_spawn k s) end. reflexivity.
    + cbn; lazymatch goal with |- step ?k ?s _ _ => apply (st_wait k s) end; [discriminate|reflexivity].
    + cbn; lazymatch goal with |- step ?k ?s _ _ => apply (st_new k s) end. reflexivity.
    + cbn; lazymatch goal with |- step ?k ?s _ _ => apply (st_load k s) end; [reflexivity|cbn; lia].
    + cbn; lazymatch goal with |- step ?k ?s _ _ => apply (st_loaded k s) end; [reflexivity|reflexivity|cbn; lia].
    + cbn; lazymatch goal with |- step ?k ?s _ _ => apply (st_init k s 0) end. reflexivity.
    + cbn; lazymatch goal with |- step ?k ?s _ _ => apply (st_start k s 0) end. reflexivity.
    + cbn; lazymatch goal with |- step ?k ?s _ _ => apply (st_run k s 0 KSocket) end; reflexivity.
    + cbn; lazymatch goal with |- step ?k ?s _ _ => eapply (st_drv k s 0 SPoll None SAccept) end; [discriminate|reflexivity|constructor; reflexivity].
    + cbn; lazymatch goal with |- step ?k ?s _ _ => eapply (st_drv k s 0 SAccept None (SInner false)) end; [discriminate|reflexivity|constructor; reflexivity].
    + cbn; lazymatch goal with |- step ?k ?s _ _ => eapply (st_drv k s 0 (SInner false) None (SRead false)) end; [discriminate|reflexivity|constructor; reflexivity].
    + cbn; lazymatch goal with |- step ?k ?s _ _ => apply (st_take k s) end; [discriminate|discriminate|reflexivity].
    + cbn; lazymatch goal with |- step ?k ?s _ _ => apply (st_pl k s) end; [discriminate|reflexivity|reflexivity].
  - exists ((([] ++ [LDrv 0 None]) ++ [LHandler]) ++ [LHandler])%list, (mkSys MAwait HDone true 1 false [SSend 9 true]).
    split; [|split; [reflexivity|split; [reflexivity|]]].
    + walk.
      * cbn; lazymatch goal with |- step ?k ?s _ _ => eapply (st_drv k s 0 (SRead false) None (SSend 9 false)) end; [discriminate|reflexivity|constructor].
      * cbn; lazymatch goal with |- step ?k ?s _ _ => apply (st_clean k s 0 1 (SSend 9 false)) end; [discriminate|reflexivity|lia|reflexivity].
      * cbn; lazymatch goal with |- step ?k ?s _ _ => apply (st_over k s 1 1) end; [discriminate|reflexivity|lia].
    + exists ((([] ++ [LDrv 0 (Some 9)]) ++ [LDrv 0 None]) ++ [LDrv 0 None])%list, (mkSys MAwait HDone true 1 false [DDone false]).
      split; [|split; reflexivity]. walk.
      * cbn; lazymatch goal with |- step ?k ?s _ _ => eapply (st_drv k s 0 (SSend 9 true) (Some 9) (SInner true)) end; [discriminate|reflexivity|constructor].
      * cbn; lazymatch goal with |- step ?k ?s _ _ => eapply (st_drv k s 0 (SInner true) None SPoll) end; [discriminate|reflexivity|constructor; reflexivity].
      * cbn; lazymatch goal with |- step ?k ?s _ _ => eapply (st_drv k s 0 SPoll None (DDone false)) end; [discriminate|reflexivity|apply ss_stop; reflexivity].
Qed.
Example ex_kafka_goes_on : exists tr s', steps [KKafka] (mkSys MAwait HDone true 1 false [KRead]) tr s' /\ sent_by 0 tr = [1; 2].
Proof.
  destruct (C113_kafka_refuted nat [KKafka] (mkSys MAwait HDone true 1 false [KRead]) 0 [1; 2]) as (tr & s' & A & _ & B & _); [intros [z X]; discriminate|reflexivity|eauto].
Qed.

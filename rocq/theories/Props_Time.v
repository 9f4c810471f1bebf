(** * Property C109: the time stamps of ECS documents. *)
From Coq Require Import Lia ZifyBool.
From Verif Require Import GoBase GoFacts Predicates FlatRecord Samples EngineModel EngineFlat FlattenModel SpecFlatten JsonModel SpecJson JsonFacts EcsModel SpecEcs EcsFacts2
  TimeModel SpecTime TimeFacts TimeFacts2 EcsText SpecEcsText EcsTextFacts Props_Ecs Props_EcsText.
Open Scope Z_scope.

(** C109.  The calendar of SpecTime: every day, before or after 1970, has exactly one date, and every date of the calendar is that of a day. *)
Theorem C109_calendar : (forall n, exists! t, is_date n t) /\ (forall t, valid_date t <-> exists n, is_date n t).
Proof.
  split.
  - intros n. exists (civil n). split; [apply civil_is_date|]. intros t H. destruct (is_date_no _ _ H) as [V E]. destruct (civil_ok n) as [V' E']. apply dayno_inj; congruence.
  - intros t. rewrite valid_spec. split.
    + intros V. exists (dayno t). destruct (civil_ok (dayno t)) as [V' E]. rewrite <- (dayno_inj _ _ V' V E) at 2. apply civil_is_date.
    + intros (n & H). exact (proj1 (is_date_no _ _ H)).
Qed.
(** The text made of any 64 bit number of nanoseconds is an RFC 3339 time stamp, and the time it says is that one and no other, to the nanosecond. *)
Theorem C109_timestamp : forall ts, in_int64 ts = true -> forall ts', says (to_iso_time_str ts) ts' <-> ts' = ts.
Proof.
  intros ts B. assert (S : says (to_iso_time_str ts) ts) by (apply time_says; unfold in_int64, int64_min, int64_max in B; lia).
  intros ts'. split; [intros S'; exact (says_fun _ _ _ S' S)|intros ->; exact S].
Qed.
(** Different times have different time stamps. *)
Theorem C109_injective : forall ts ts', in_int64 ts = true -> in_int64 ts' = true -> to_iso_time_str ts = to_iso_time_str ts' -> ts = ts'.
Proof. intros ts ts' B B' E. apply (C109_timestamp ts' B'). rewrite <- E. apply (C109_timestamp ts B). reflexivity. Qed.
(** As texts they sort like the times, to the second. *)
Theorem C109_order : forall ts ts', in_int64 ts = true -> in_int64 ts' = true -> ts / 1000000000 < ts' / 1000000000 ->
  String.compare (to_iso_time_str ts) (to_iso_time_str ts') = Lt.
Proof. intros ts ts' B B'. unfold in_int64, int64_min, int64_max in *. apply time_order; lia. Qed.

Lemma dec_ascii s : forall acc z, decimal acc s = Some z -> valid s.
Proof.
  induction s as [|c s IH]; intros acc z D; [constructor|]. cbn [decimal] in D. destruct (digit_value c) as [v|] eqn:V; [|discriminate].
  assert (B : (nat_of_ascii c <= 57)%nat) by (unfold digit_value in V; destruct (Z.leb_spec 48 (Z.of_nat (nat_of_ascii c))), (Z.leb_spec (Z.of_nat (nat_of_ascii c)) 57); try discriminate; lia).
  replace (String c s) with (utf8 (Z.of_nat (nat_of_ascii c)) ++ s)%string; [apply v_cons; [unfold scalar; lia|exact (IH _ _ D)]|].
  unfold utf8. destruct (Z.ltb_spec (Z.of_nat (nat_of_ascii c)) 128); [|lia]. unfold chr. rewrite Nat2Z.id, ascii_nat_embedding. reflexivity.
Qed.
Lemma valid_app a b : valid a -> valid b -> valid (a ++ b).
Proof. induction 1 as [|cp s H V IH]; intros W; [exact W|]. rewrite sapp_assoc. constructor; auto. Qed.
Lemma valid_ch c : (nat_of_ascii c < 128)%nat -> valid (String c "").
Proof.
  intros B. replace (String c "") with (utf8 (Z.of_nat (nat_of_ascii c)) ++ "")%string; [apply v_cons; [unfold scalar; lia|constructor]|].
  unfold utf8. destruct (Z.ltb_spec (Z.of_nat (nat_of_ascii c)) 128); [|lia]. unfold chr. rewrite Nat2Z.id, ascii_nat_embedding. reflexivity.
Qed.
Lemma says_valid s ts : says s ts -> valid s.
Proof.
  intros (sy & sm & sd & sh & si & ss & sf & y & m & d & h & i & sec & ns & day & -> & [_ N1] & [_ N2] & [_ N3] & [_ N4] & [_ N5] & [_ N6] & Nf & _).
  assert (Vf : valid sf) by (destruct Nf as [|u k z [_ N] _]; [constructor|apply valid_app; [apply valid_ch; cbn; lia|exact (dec_ascii _ _ _ N)]]).
  repeat (apply valid_app; [first [exact Vf|eapply dec_ascii; eassumption|apply valid_ch; cbn; lia]|]). apply valid_ch; cbn; lia.
Qed.
Lemma member_get txt k (m : gomap eval) : find_member k (map (fun kv => (fst kv, value txt (snd kv))) m) = option_map (value txt) (mget k m).
Proof.
  induction m as [|[k' v] m IH]; [reflexivity|]. unfold find_member in *. cbn [map find fst snd mget]. unfold seqb. rewrite String.eqb_sym. destruct (String.eqb k k'); [reflexivity|exact IH].
Qed.
Lemma fm_app k a b : find_member k (a ++ b)%list = match find_member k a with Some v => Some v | None => find_member k b end.
Proof. unfold find_member. induction a as [|kv a IH]; [reflexivity|]. cbn [app find]. destruct (String.eqb (fst kv) k); [reflexivity|exact IH]. Qed.
Lemma fm_none txt k n o : n <> k -> find_member k (some_map txt n o) = None.
Proof. intros N. unfold some_map, when, find_member. destruct o as [m|]; [|reflexivity]. destruct (negb _); [|reflexivity]. cbn [find fst]. apply String.eqb_neq in N. rewrite N. reflexivity. Qed.
Section Doc.
Variables (X : sfgo_fns) (E : ecs_fns) (ipstr : Z -> string) (jsonsvcs : list service -> string) (version ecsversion : string).
Hypotheses (Bits : forall o, 0 <= op_bit E o) (Names : type_names X) (Time : forall s ns, x_time E s ns = go_time s ns).
(** In the JSON text of the document of an event, @timestamp and event.start say the event's time, event.end when it ended, to the nanosecond;
    process.start, when the process of the event is known, when that was created. *)
Theorem C109_document : forall x e ctx d v, encode_ecs X E version ecsversion (flatten ipstr jsonsvcs x e) ctx = Ok d -> jtext (marshal_ecs d) v ->
  (in_int64 (ev_ts e) = true -> exists s, at_path [KName "@timestamp"] v = Some (JStr s) /\ at_path [KName "event"; KName "start"] v = Some (JStr s) /\
     forall ts, says s ts <-> ts = ev_ts e) /\
  (in_int64 (ends e) = true -> exists s, at_path [KName "event"; KName "end"] v = Some (JStr s) /\ forall ts, says s ts <-> ts = ends e) /\
  (forall p, (forall k, e <> EvK8s k) -> x_proc x = Some p -> in_int64 (createts (p_oid p)) = true ->
     exists s, at_path [KName "process"; KName "start"] v = Some (JStr s) /\ forall ts, says s ts <-> ts = createts (p_oid p)).
Proof.
  intros x e ctx d v Ed J. destruct (document X E ipstr jsonsvcs Bits Names version ecsversion x e ctx) as (d' & Ed' & D & _). rewrite Ed in Ed'. injection Ed' as <-.
  pose proof (C108_read X E version ecsversion _ ctx d JsonFacts6.cleaned v JsonFacts6.cleaned_ok Ed J) as R.
  assert (A : forall ts, in_int64 ts = true -> at_ns E ts = EStr (to_iso_time_str ts) /\ JsonFacts6.cleaned (to_iso_time_str ts) = to_iso_time_str ts).
  { intros ts B. split; [unfold at_ns; rewrite Time; reflexivity|].
    apply (clean_fun (to_iso_time_str ts)); [apply JsonFacts6.cleaned_ok|apply clean_valid, (says_valid _ ts), (C109_timestamp ts B); reflexivity]. }
  destruct (d_event _ _ _ _ _ _ _ _ D) as (cat & ty & ac & m & _ & Em & Gm).
  assert (Ev : forall k t0, k <> "reason"%string -> k <> "severity"%string -> mget k (doc_event X E e cat ty ac (ctx_isalert ctx)) = Some (at_ns E t0) -> in_int64 t0 = true ->
     at_path [KName "event"; KName k] v = Some (JStr (to_iso_time_str t0))).
  { intros k t0 N1 N2 G B. apply R; [exact I|]. unfold doc_value. cbn [at_path app find_member find fst snd String.eqb Ascii.eqb Bool.eqb]. rewrite Em. cbn [value].
    rewrite member_get, Gm, G by assumption. cbn [option_map]. destruct (A t0 B) as [-> Q]. cbn [value at_path]. rewrite Q. reflexivity. }
  split; [|split].
  - intros B. destruct (A (ev_ts e) B) as [A1 A2]. exists (to_iso_time_str (ev_ts e)). split; [|split; [|exact (C109_timestamp _ B)]].
    + apply R; [exact I|]. unfold doc_value. cbn [at_path app find_member find fst snd String.eqb Ascii.eqb Bool.eqb]. pose proof (d_ts _ _ _ _ _ _ _ _ D) as T. rewrite A1 in T. injection T as ->. rewrite A2. reflexivity.
    + apply Ev; [discriminate|discriminate|reflexivity|exact B].
  - intros B. exists (to_iso_time_str (ends e)). split; [|exact (C109_timestamp _ B)]. apply Ev; [discriminate|discriminate|reflexivity|exact B].
  - intros p Nk Hp B. exists (to_iso_time_str (createts (p_oid p))). split; [|exact (C109_timestamp _ B)].
    destruct (A _ B) as [A1 A2]. apply R; [exact I|].
    pose proof (d_process _ _ _ _ _ _ _ _ D) as S. assert (S' : same (e_process d) (Some (doc_process E x e))) by (destruct e; try exact S; exfalso; eapply Nk; reflexivity). clear S.
    unfold same in S'. destruct (e_process d) as [pm|] eqn:Ep; [|contradiction].
    assert (G : mget "start" pm = Some (EStr (to_iso_time_str (createts (p_oid p))))).
    { rewrite S'. unfold doc_process. cbn [mget seqb String.eqb Ascii.eqb Bool.eqb]. f_equal. rewrite <- A1. f_equal. unfold prz. rewrite Hp. destruct e; try reflexivity. exfalso; eapply Nk; reflexivity. }
    assert (F : find_member "process" (match doc_value JsonFacts6.cleaned d with JObj l => l | _ => [] end) = Some (value JsonFacts6.cleaned (EMap pm))).
    { unfold doc_value. rewrite Ep. assert (Np : pm <> []) by (intros ->; discriminate). destruct pm as [|kv pm]; [congruence|].
      cbn [flat_map fst snd]. rewrite !fm_app. rewrite !fm_none by discriminate. cbn [find_member].
      assert (W : forall b y, find_member "process" (when b ("service"%string, y)) = None) by (intros [] ?; reflexivity). rewrite W. reflexivity. }
    destruct (doc_value JsonFacts6.cleaned d) as [| | | | |l]; try discriminate. cbn [at_path]. rewrite F. cbn [value]. rewrite member_get, G. cbn [option_map value]. rewrite A2. reflexivity.
Qed.
End Doc.
Print Assumptions C109_calendar.
Print Assumptions C109_timestamp.
Print Assumptions C109_injective.
Print Assumptions C109_order.
Print Assumptions C109_document.
Example C109_case : map to_iso_time_str [0; 951826029120000000; -1; 1609459199000000005; 4107542400000000000; int64_min; int64_max] =
  ["1970-01-01T00:00:00Z"; "2000-02-29T12:07:09.12Z"; "1969-12-31T23:59:59.999999999Z"; "2020-12-31T23:59:59.000000005Z"; "2100-03-01T00:00:00Z";
   "1677-09-21T00:12:43.145224192Z"; "2262-04-11T23:47:16.854775807Z"]%string.
Proof. vm_compute. reflexivity. Qed.
(** Within a second the order of the texts is not that of the times. *)
Example C109_same_second_case : String.compare (to_iso_time_str 500000000) (to_iso_time_str 0) = Lt /\ String.compare (to_iso_time_str 510000000) (to_iso_time_str 500000000) = Lt.
Proof. vm_compute. split; reflexivity. Qed.
Definition E1 : ecs_fns := mkEcsFns (op_bit E0) (k8s_added E0) (k8s_modified E0) (k8s_deleted E0) (k8s_error E0) (x_proto E0) (x_cid E0) go_time (x_lower E0).
Example C109_document_case : (forall o, 0 <= op_bit E1 o) /\ (forall s ns, x_time E1 s ns = go_time s ns) /\ exists d, encode_ecs X0 E1 "v" "e" fr1 ctx_new = Ok d /\ e_ts d = "1970-01-01T00:00:00.000000005Z"%string.
Proof. split; [exact (proj1 E0_ok)|]. split; [reflexivity|]. eexists. split; vm_compute; reflexivity. Qed.

(** * JsonFacts7: when a record is not written at all, and bytes of escaped strings. *)
From Coq Require Import Lia ZifyBool.
From Verif Require Import GoBase GoFacts Predicates FlatRecord FieldTables JsonModel SpecJson JsonFacts JsonFacts2 JsonFacts3 JsonFacts4 JsonFacts6.
Open Scope string_scope.

Lemma utf8_bytes cp : (32 <= cp)%Z -> scalar cp -> forall c, In c (list_ascii_of_string (utf8 cp)) -> (32 <= byte c)%Z.
Proof.
  intros L S c H. destruct (Z_lt_le_dec cp 128) as [L'|L'].
  - rewrite (utf8_single cp L') in H. destruct H as [<- |[]]. rewrite byte_chr; lia.
  - pose proof (utf8_high cp L' S c H). lia.
Qed.
Lemma list_app a b : list_ascii_of_string (a ++ b) = (list_ascii_of_string a ++ list_ascii_of_string b)%list.
Proof. induction a; cbn; [reflexivity|]. f_equal. exact IHa. Qed.
Lemma jstr_bytes b t : jstr b t -> forall c, In c (list_ascii_of_string b) -> (32 <= byte c)%Z.
Proof.
  induction 1 as [|cp b t S L N1 N2 H IH|c cp b t I H IH|c1 c2 c3 c4 h1 h2 h3 h4 b t H1 H2 H3 H4 S H IH]; intros c' Hc.
  - contradiction.
  - rewrite list_app in Hc. apply in_app_or in Hc as [Hc|Hc]; [exact (utf8_bytes cp L S c' Hc)|auto].
  - cbn [list_ascii_of_string In] in Hc. destruct Hc as [<- |[<- |Hc]]; [vm_compute; discriminate| |auto].
    cbn [short_escapes In] in I. repeat destruct I as [I|I]; try (injection I as <- _; vm_compute; discriminate). contradiction.
  - assert (Hx : forall x h, hexval x = Some h -> (32 <= byte x)%Z).
    { intros x h E. unfold hexval in E. fold (byte x) in E. destruct ((48 <=? byte x)%Z && (byte x <=? 57)%Z)%bool eqn:A; [lia|]. destruct ((65 <=? byte x)%Z && (byte x <=? 70)%Z)%bool eqn:B; [lia|].
      destruct ((97 <=? byte x)%Z && (byte x <=? 102)%Z)%bool eqn:C; [lia|discriminate]. }
    cbn [append list_ascii_of_string In] in Hc. destruct Hc as [<- |[<- |[<- |[<- |[<- |[<- |Hc]]]]]]; try (vm_compute; discriminate); eauto.
Qed.

Section Panics.
Variables (X : sfgo_fns) (two : bool) (fr : flatrec).
Definition okf (f : string * fieldentry) : Prop := exists s, map_json X two (snd f) fr = Ok s.
Definition arrays_there : Prop :=
  get_int_array (fr_slots fr) POD_HOSTIP_ANY SYSFLOW_SRC <> None /\ get_int_array (fr_slots fr) POD_INTERNALIP_ANY SYSFLOW_SRC <> None /\ get_svc_array (fr_slots fr) POD_SERVICES_ANY SYSFLOW_SRC <> None.
Ltac okt := match goal with |- okf (entry ?n) => unfold okf; let e := eval vm_compute in (snd (entry n)) in change (snd (entry n)) with e; cbn [map_json fe_map fe_index fe_type fe_section fe_aux run_fmap] end;
  try (eexists; reflexivity); try (destruct two; try destruct (Z.eqb _ _); eexists; reflexivity); try (destruct (Z.eqb _ _); eexists; reflexivity).
Lemma okf_tops : Forall okf tops.
Proof. unfold tops, top. cbn [map snd]. repeat apply Forall_cons; try apply Forall_nil; okt. Qed.
Lemma okf_sect sec name kas : In (sec, name, kas) sections -> (sec = SectPod -> arrays_there) -> Forall okf (block_fields kas).
Proof.
  intros I H. unfold block_fields. cbn [sections In] in I.
  repeat destruct I as [I|I]; try contradiction; injection I as <- <- <-; cbn [in_section map snd append].
  1-7, 9-10: repeat apply Forall_cons; try apply Forall_nil; okt.
  destruct (H eq_refl) as (H1 & H2 & H3). repeat apply Forall_cons; try apply Forall_nil; okt.
  - destruct (get_int_array (fr_slots fr) POD_HOSTIP_ANY SYSFLOW_SRC); [eauto|congruence].
  - destruct (get_int_array (fr_slots fr) POD_INTERNALIP_ANY SYSFLOW_SRC); [eauto|congruence].
  - destruct (get_svc_array (fr_slots fr) POD_SERVICES_ANY SYSFLOW_SRC); [eauto|congruence].
Qed.
Lemma step_ok i st f : (num_sects (fst f) = 2 \/ section_case i (fe_section (snd f)) = Some true -> okf f) -> exists st', field_step X two i fr st f = Ok st'.
Proof.
  intros H. unfold field_step, write_attribute. destruct (Nat.eqb (num_sects (fst f)) 2) eqn:E2.
  - apply Nat.eqb_eq in E2. destruct (H (or_introl E2)) as (s & ->). cbn [rbind]. eauto.
  - destruct (Nat.eqb (num_sects (fst f)) 3); [|eauto]. destruct (section_case i (fe_section (snd f))) as [[|]|]; [| |eauto].
    + destruct (H (or_intror eq_refl)) as (s & ->). cbn [rbind]. destruct (in_state (js_state st) (fe_section (snd f))); eauto.
    + destruct (in_state (js_state st) (fe_section (snd f))); eauto.
Qed.
Lemma loop_ok i l : Forall (fun f => num_sects (fst f) = 2 \/ section_case i (fe_section (snd f)) = Some true -> okf f) l -> forall st, exists st', fields_loop X two i fr st l = Ok st'.
Proof.
  induction 1 as [|f l Hf Hl IH]; intros st; [cbn; eauto|]. cbn [fields_loop]. destruct (step_ok i st f Hf) as (st' & ->). cbn [rbind]. apply IH.
Qed.
Lemma step_or_panic i st f : (exists st', field_step X two i fr st f = Ok st') \/ field_step X two i fr st f = Panic.
Proof.
  assert (M : (exists s, map_json X two (snd f) fr = Ok s) \/ map_json X two (snd f) fr = Panic).
  { unfold map_json. destruct (fe_index (snd f)); destruct (fe_type (snd f)); try (left; eexists; reflexivity); try (right; reflexivity);
      try (destruct (run_fmap X (fe_map (snd f)) fr); try (left; eexists; reflexivity); right; reflexivity);
      try (destruct (get_svc_array _ _ _); [left; eexists; reflexivity|right; reflexivity]);
      destruct a; try (destruct two); try (destruct (Z.eqb _ _)); try (left; eexists; reflexivity); try (destruct (get_int_array _ _ _)); try (left; eexists; reflexivity); try (right; reflexivity);
      destruct (run_fmap X (fe_map (snd f)) fr); try (left; eexists; reflexivity); right; reflexivity. }
  unfold field_step, write_attribute. destruct M as [(s & ->)| ->]; cbn [rbind];
    destruct (Nat.eqb (num_sects (fst f)) 2); eauto; destruct (Nat.eqb (num_sects (fst f)) 3); eauto; destruct (section_case i (fe_section (snd f))) as [[|]|]; eauto;
    destruct (in_state (js_state st) (fe_section (snd f))); eauto.
Qed.
Lemma loop_or_panic i l : forall st, (exists st', fields_loop X two i fr st l = Ok st') \/ fields_loop X two i fr st l = Panic.
Proof.
  induction l as [|f l IH]; intros st; cbn [fields_loop]; [eauto|]. destruct (step_or_panic i st f) as [(st' & ->)| ->]; cbn [rbind]; auto.
Qed.
Context {R : Type}.
Variable ctx : context (rule R).
Lemma encode_or_panic version : (exists s, encode_json X two version fr ctx = Ok s) \/ encode_json X two version fr ctx = Panic.
Proof.
  unfold encode_json. destruct (info_ok X fr) as (i & -> & _). cbn [rbind]. destruct (loop_or_panic i field_values (mkJ None true ("{""version"":" ++ version ++ ","))) as [(st' & ->)| ->]; cbn [rbind]; eauto.
Qed.
Theorem encode_ok_iff version : (exists s, encode_json X two version fr ctx = Ok s) <-> (has_section X fr SectPod = true -> arrays_there).
Proof.
  unfold encode_json. destruct (info_ok X fr) as (i & -> & Ji & _ & _). cbn [rbind]. rewrite loop_relevant, fields_are. split.
  - intros (s & E) Hp. destruct (fields_loop X two i fr _ _) as [st'| | |] eqn:L; cbn [rbind] in E; try discriminate E. clear E.
    assert (G : forall l st st', fields_loop X two i fr st l = Ok st' -> forall f, In f l -> num_sects (fst f) = 3 -> section_case i (fe_section (snd f)) = Some true -> okf f).
    { clear. induction l as [|g l IH]; intros st st' E f Hf N C; [contradiction|]. cbn [fields_loop] in E. destruct Hf as [<- |Hf].
      - unfold okf. unfold field_step in E. rewrite N, C in E. cbn [Nat.eqb] in E. unfold write_attribute in E. destruct (map_json X two (snd g) fr); eauto; cbn [rbind] in E; destruct (in_state _ _); discriminate E.
      - destruct (field_step X two i fr st g) as [st1| | |]; cbn [rbind] in E; try discriminate E. exact (IH st1 st' E f Hf N C). }
    assert (G2 : forall n, In n ["sf.pod.hostip+"; "sf.pod.internalip+"; "sf.pod.services+"] -> okf (entry n)).
    { intros n Hn. apply (G _ _ _ L).
      - apply in_or_app. right. apply in_flat_map. exists (nth 7 sections (SectNone, "", [])). split; [apply nth_In; cbn; lia|]. unfold block_fields. apply in_map_iff.
        cbn [nth sections snd]. cbn [In] in Hn. destruct Hn as [<- |[<- |[<- |[]]]]; [exists ("hostip", "sf.pod.hostip+")|exists ("internalip", "sf.pod.internalip+")|exists ("services", "sf.pod.services+")]; cbn; intuition.
      - destruct Hn as [<- |[<- |[<- |[]]]]; reflexivity.
      - replace (fe_section (snd (entry n))) with SectPod by (destruct Hn as [<- |[<- |[<- |[]]]]; reflexivity). apply Ji, Hp. }
    unfold arrays_there. repeat split; intros N.
    + destruct (G2 "sf.pod.hostip+") as (s0 & M); [cbn; tauto|].
      change (snd (entry "sf.pod.hostip+")) with (mkEntry (MIntArray SYSFLOW_SRC POD_HOSTIP_ANY) (FIAny POD_HOSTIP_ANY) MapArrayInt SectPod PProcName) in M. unfold map_json in M. cbn [fe_index fe_type] in M. rewrite N in M. discriminate M.
    + destruct (G2 "sf.pod.internalip+") as (s0 & M); [cbn; tauto|].
      change (snd (entry "sf.pod.internalip+")) with (mkEntry (MIntArray SYSFLOW_SRC POD_INTERNALIP_ANY) (FIAny POD_INTERNALIP_ANY) MapArrayInt SectPod PProcName) in M. unfold map_json in M. cbn [fe_index fe_type] in M. rewrite N in M. discriminate M.
    + destruct (G2 "sf.pod.services+") as (s0 & M); [cbn; tauto|].
      change (snd (entry "sf.pod.services+")) with (mkEntry (MSvcArray SYSFLOW_SRC POD_SERVICES_ANY) (FIAny POD_SERVICES_ANY) MapArraySvc SectPod PProcName) in M. unfold map_json in M. cbn [fe_index fe_type] in M. rewrite N in M. discriminate M.
  - intros H. edestruct loop_ok as (st' & ->).
    2:{ cbn [rbind]. eauto. }
    apply Forall_app. split; [eapply Forall_impl; [|exact okf_tops]; auto|]. rewrite Forall_forall. intros f Hf. apply in_flat_map in Hf as (b & Hb & Hf).
    intros Hor. pose proof (proj1 (Forall_forall _ _) sections_names b Hb) as (_ & _ & _ & Q4 & Q5).
    pose proof Hf as Hf0. unfold block_fields in Hf0. apply in_map_iff in Hf0 as (ka & <- & Hka).
    destruct Hor as [N2|C]; [pose proof (proj1 (Forall_forall _ _) Q4 ka Hka) as (N3 & _); change (fst (entry (snd ka))) with (snd ka) in N2; congruence|].
    destruct b as [[sec name] kas]. pose proof (proj1 (Forall_forall _ _) Q5 ka Hka) as Fs. unfold in_sec in Fs. cbn [fst snd] in *. rewrite Fs in C.
    refine (proj1 (Forall_forall _ _) (okf_sect sec name kas Hb _) _ Hf). intros ->. apply H, Ji, C.
Qed.
End Panics.

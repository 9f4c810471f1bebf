(** * JsonFacts4: the object as a whole. *)
From Coq Require Import Lia ZifyBool.
From Verif Require Import GoBase GoFacts Predicates FlatRecord FieldTables JsonModel SpecJson JsonFacts JsonFacts2 JsonFacts3.
Open Scope string_scope.

Definition relevant (f : string * fieldentry) : bool :=
  Nat.eqb (num_sects (fst f)) 2 || (Nat.eqb (num_sects (fst f)) 3 && negb (section_beq (fe_section (snd f)) SectNone)).
Lemma fields_are : List.filter relevant field_values = (tops ++ flat_map (fun s => block_fields (snd s)) sections)%list.
Proof. vm_compute. reflexivity. Qed.

Section Loop.
Variables (X : sfgo_fns) (txt : string -> string) (two : bool) (fr : flatrec).
Hypothesis TX : cleans txt.
Hypothesis W : writable X fr.
Variable i : jinfo.
Hypothesis Ji : forall s, section_case i s = Some true <-> has_section X fr s = true.
Hypothesis Jn : forall s, has_section X fr s = false -> section_case i s = None \/ section_case i s = Some false.

Lemma loop_relevant l : forall st, fields_loop X two i fr st l = fields_loop X two i fr st (List.filter relevant l).
Proof.
  induction l as [|f l IH]; intros st; [reflexivity|]. cbn [List.filter fields_loop]. destruct (relevant f) eqn:R.
  - cbn [fields_loop]. destruct (field_step X two i fr st f); cbn [rbind]; auto.
  - assert (E : field_step X two i fr st f = Ok st).
    { unfold field_step. unfold relevant in R. destruct (Nat.eqb (num_sects (fst f)) 2); [discriminate|]. destruct (Nat.eqb (num_sects (fst f)) 3); [|reflexivity].
      destruct (fe_section (snd f)); try discriminate R. unfold section_case. destruct (seqb (j_type i) "KE"); reflexivity. }
    rewrite E. cbn [rbind]. apply IH.
Qed.
Lemma loop_app l l' : forall st st1, fields_loop X two i fr st l = Ok st1 -> fields_loop X two i fr st (l ++ l') = fields_loop X two i fr st1 l'.
Proof.
  induction l as [|f l IH]; intros st st1 H; cbn [List.app fields_loop] in *; [injection H as ->; reflexivity|].
  destruct (field_step X two i fr st f); cbn [rbind] in *; try discriminate. apply IH, H.
Qed.
Definition closing (st : jstate) : string := match js_state st with Some _ => if js_existed st then "}," else "" | None => "" end.
(** What has been written, once the open section is closed, is a list of members and a comma. *)
Definition holds (st : jstate) (ms : list (string * json)) : Prop := exists s, members s ms /\ js_out st ++ closing st = "{" ++ s ++ ",".
Definition good_name (j : nat) (ka : string * string) : Prop :=
  num_sects (snd ka) = j /\ attr_name (part (j - 1) (snd ka)) = fst ka /\ plain (fst ka) = true.
Definition vals (kas : list (string * string)) : list (string * json) := map (fun ka => (fst ka, attr_value X txt two fr (snd ka))) kas.
Lemma tops_loop kas : Forall (good_name 2) kas -> Forall (written X txt two fr) (block_fields kas) ->
  forall st ms, js_state st = None -> holds st ms ->
  exists st', fields_loop X two i fr st (block_fields kas) = Ok st' /\ js_state st' = None /\ js_existed st' = js_existed st /\ holds st' (ms ++ vals kas).
Proof.
  induction kas as [|[k n] kas IH]; intros G Wr st ms N H.
  - exists st. cbn. rewrite app_nil_r. auto.
  - inversion G as [|x l0 (G1 & G2 & G3) G']. inversion Wr as [|x1 l1 (s & M & T) Wr']. subst. cbn [block_fields map snd fst] in *. fold (block_fields kas) in *.
    cbn [fields_loop]. unfold field_step at 1. change (fst (entry n)) with n in *. rewrite G1. cbn [Nat.eqb]. unfold write_attribute. change (fst (entry n)) with n. rewrite M. cbn [rbind].
    set (st1 := mkJ (js_state st) (js_existed st) _). destruct H as (s0 & H1 & H2).
    assert (H' : holds st1 (ms ++ [(k, attr_value X txt two fr n)])%list).
    { exists (s0 ++ "," ++ w_field k s). split; [apply members_app; [exact H1|apply field_member; auto]|]. unfold st1, closing. cbn [js_state js_existed js_out]. rewrite N.
      unfold closing in H2. rewrite N, sapp_nil_r in H2. rewrite H2, sapp_nil_r. change (2 - 1) with 1 in G2. rewrite G2. unfold w_field. rewrite !sapp_assoc. reflexivity. }
    destruct (IH G' Wr' st1 _ ltac:(exact N) H') as (st' & L & A & B & C). exists st'. split; [exact L|]. split; [exact A|]. split; [exact B|].
    rewrite <- app_assoc in C. exact C.
Qed.
(** Within a section. *)
Lemma section_eqb sec : section_beq sec sec = true.
Proof. destruct sec; reflexivity. Qed.
Definition in_sec (sec : section) (ka : string * string) : Prop := fe_section (snd (entry (snd ka))) = sec.
Lemma inner_loop sec kas : section_case i sec = Some true -> Forall (good_name 3) kas -> Forall (in_sec sec) kas -> Forall (written X txt two fr) (block_fields kas) ->
  forall st s0 ms, js_state st = Some sec -> js_existed st = true -> members s0 ms ->
  exists tl, members (s0 ++ tl) (ms ++ vals kas) /\ fields_loop X two i fr st (block_fields kas) = Ok (mkJ (Some sec) true (js_out st ++ tl)).
Proof.
  intros C. induction kas as [|[k n] kas IH]; intros G S Wr st s0 ms N E M0.
  - exists "". cbn. rewrite app_nil_r, !sapp_nil_r. split; [exact M0|]. destruct st; cbn in *; subst; reflexivity.
  - inversion G as [|x l0 (G1 & G2 & G3) G']. inversion S as [|x2 l2 S1 S']. inversion Wr as [|x1 l1 (s & M & T) Wr']. subst. cbn [block_fields map snd fst] in *. fold (block_fields kas) in *.
    unfold in_sec in *. cbn [snd fst] in S1.
    cbn [fields_loop]. unfold field_step at 1. change (fst (entry n)) with n in *. rewrite G1. cbn [Nat.eqb]. cbn [snd] in *. rewrite S1, C. unfold in_state. rewrite N, section_eqb.
    unfold write_attribute. change (fst (entry n)) with n. rewrite M. cbn [rbind].
    change (3 - 1) with 2 in G2. rewrite G2.
    set (st1 := mkJ (Some sec) (js_existed st) _).
    destruct (IH G' S' Wr' st1 (s0 ++ "," ++ w_field k s) (ms ++ [(k, attr_value X txt two fr n)])%list eq_refl E) as (tl & M1 & L1).
    { apply members_app; [exact M0|apply field_member; auto]. }
    exists (("," ++ w_field k s) ++ tl). rewrite <- app_assoc in M1. rewrite !sapp_assoc in M1. rewrite !sapp_assoc. split; [exact M1|].
    rewrite L1. cbn [js_out st1]. unfold w_field. rewrite !sapp_assoc. reflexivity.
Qed.
Lemma block_present sec name kas : section_case i sec = Some true -> name = sect_name sec -> plain name = true -> kas <> [] ->
  Forall (good_name 3) kas -> Forall (in_sec sec) kas -> Forall (written X txt two fr) (block_fields kas) ->
  forall st ms, js_state st <> Some sec -> holds st ms ->
  exists st', fields_loop X two i fr st (block_fields kas) = Ok st' /\ js_state st' = Some sec /\ js_existed st' = true /\ holds st' (ms ++ [(name, JObj (vals kas))]).
Proof.
  intros C Nm Pn Ne G S Wr st ms N H. destruct kas as [|[k n] kas]; [congruence|]. clear Ne.
  inversion G as [|x l0 (G1 & G2 & G3) G']. inversion S as [|x2 l2 S1 S']. inversion Wr as [|x1 l1 (s & M & T) Wr']. subst x l0 x2 l2 x1 l1. cbn [block_fields map snd fst] in *. fold (block_fields kas) in *.
  unfold in_sec in *. cbn [snd fst] in S1.
  cbn [fields_loop]. unfold field_step at 1. change (fst (entry n)) with n in *. rewrite G1. cbn [Nat.eqb]. cbn [snd] in *. rewrite S1, C. change (3 - 1) with 2 in G2.
  replace (in_state (js_state st) sec) with false.
  2:{ unfold in_state. destruct (js_state st) as [s'|]; [|reflexivity]. symmetry. destruct (section_beq s' sec) eqn:Q; [|reflexivity]. exfalso. apply N. f_equal. apply internal_section_dec_bl, Q. }
  unfold write_attribute. change (fst (entry n)) with n. rewrite M. cbn [rbind]. rewrite G2. fold (closing st).
  set (st1 := mkJ (Some sec) true _).
  destruct (inner_loop sec kas C G' S' Wr' st1 (w_field k s) [(k, attr_value X txt two fr n)] eq_refl eq_refl ltac:(apply field_member; auto)) as (tl & M1 & L1).
  eexists. split; [exact L1|]. split; [reflexivity|]. split; [reflexivity|].
  destruct H as (s0 & H1 & H2). exists (s0 ++ "," ++ w_field name ("{" ++ (w_field k s ++ tl) ++ "}")). split.
  - apply members_app; [exact H1|]. apply field_member; [exact Pn|]. apply jt_obj. exact M1.
  - unfold closing. cbn [js_state js_existed js_out]. unfold st1 at 1. cbn [js_out]. unfold w_field, section_begin. rewrite <- Nm.
    rewrite <- (sapp_assoc (js_out st) (closing st)). rewrite H2. rewrite !sapp_assoc. reflexivity.
Qed.
Lemma absent_in sec kas : section_case i sec = Some false -> Forall (good_name 3) kas -> Forall (in_sec sec) kas ->
  forall st, js_state st = Some sec -> fields_loop X two i fr st (block_fields kas) = Ok st.
Proof.
  intros C. induction kas as [|[k n] kas IH]; intros G S st N; [reflexivity|].
  inversion G as [|x l0 (G1 & G2 & G3) G']. inversion S as [|x2 l2 S1 S']. subst x l0 x2 l2. cbn [block_fields map snd fst] in *. fold (block_fields kas) in *. unfold in_sec in *. cbn [snd fst] in S1.
  cbn [fields_loop]. unfold field_step at 1. change (fst (entry n)) with n in *. rewrite G1. cbn [Nat.eqb]. cbn [snd] in *. rewrite S1, C. unfold in_state. rewrite N, section_eqb. cbn [rbind]. apply IH; auto.
Qed.
Lemma block_absent sec kas : section_case i sec = Some false -> kas <> [] -> Forall (good_name 3) kas -> Forall (in_sec sec) kas ->
  forall st ms, js_state st <> Some sec -> holds st ms ->
  exists st', fields_loop X two i fr st (block_fields kas) = Ok st' /\ js_state st' = Some sec /\ js_existed st' = false /\ holds st' ms.
Proof.
  intros C Ne G S st ms N H. destruct kas as [|[k n] kas]; [congruence|]. clear Ne.
  inversion G as [|x l0 (G1 & G2 & G3) G']. inversion S as [|x2 l2 S1 S']. subst x l0 x2 l2. cbn [block_fields map snd fst] in *. fold (block_fields kas) in *. unfold in_sec in *. cbn [snd fst] in S1.
  cbn [fields_loop]. unfold field_step at 1. change (fst (entry n)) with n in *. rewrite G1. cbn [Nat.eqb]. cbn [snd] in *. rewrite S1, C.
  replace (in_state (js_state st) sec) with false.
  2:{ unfold in_state. destruct (js_state st) as [s'|]; [|reflexivity]. symmetry. destruct (section_beq s' sec) eqn:Q; [|reflexivity]. exfalso. apply N. f_equal. apply internal_section_dec_bl, Q. }
  cbn [rbind]. fold (closing st). eexists. split; [apply (absent_in sec); auto|]. split; [reflexivity|]. split; [reflexivity|].
  destruct H as (s0 & H1 & H2). exists s0. split; [exact H1|]. unfold closing at 1. cbn [js_state js_existed js_out]. rewrite sapp_nil_r. exact H2.
Qed.
Lemma block_none sec kas : section_case i sec = None -> Forall (good_name 3) kas -> Forall (in_sec sec) kas -> forall st, fields_loop X two i fr st (block_fields kas) = Ok st.
Proof.
  intros C. induction kas as [|[k n] kas IH]; intros G S st; [reflexivity|].
  inversion G as [|x l0 (G1 & G2 & G3) G']. inversion S as [|x2 l2 S1 S']. subst x l0 x2 l2. cbn [block_fields map snd fst] in *. fold (block_fields kas) in *. unfold in_sec in *. cbn [snd fst] in S1.
  cbn [fields_loop]. unfold field_step at 1. change (fst (entry n)) with n in *. rewrite G1. cbn [Nat.eqb]. cbn [snd] in *. rewrite S1, C. cbn [rbind]. apply IH; auto.
Qed.
Definition block := (section * string * list (string * string))%type.
Definition good_block (b : block) : Prop :=
  snd (fst b) = sect_name (fst (fst b)) /\ plain (snd (fst b)) = true /\ snd b <> [] /\ Forall (good_name 3) (snd b) /\ Forall (in_sec (fst (fst b))) (snd b) /\
  (has_section X fr (fst (fst b)) = true -> Forall (written X txt two fr) (block_fields (snd b))).
Definition sect_vals (bs : list block) : list (string * json) :=
  map (fun b => (snd (fst b), JObj (vals (snd b)))) (List.filter (fun b => has_section X fr (fst (fst b))) bs).
Definition last_case (bs : list block) (d : option bool) : option bool :=
  fold_left (fun d b => match section_case i (fst (fst b)) with None => d | Some p => Some p end) bs d.
Definition same_case (d : option bool) (st : jstate) : Prop :=
  match d with Some p => js_existed st = p /\ js_state st <> None | None => True end.
Lemma blocks_loop bs : Forall good_block bs -> NoDup (map (fun b => fst (fst b)) bs) ->
  forall st ms d, (forall s, js_state st = Some s -> ~ In s (map (fun b => fst (fst b)) bs)) -> holds st ms -> same_case d st ->
  exists st', fields_loop X two i fr st (flat_map (fun b => block_fields (snd b)) bs) = Ok st' /\ holds st' (ms ++ sect_vals bs) /\ same_case (last_case bs d) st'.
Proof.
  induction bs as [|b bs IH]; intros G D st ms d N H SC.
  - exists st. cbn. rewrite app_nil_r. auto.
  - inversion G as [|x l0 (G1 & G2 & G3 & G4 & G5 & G6) G']. inversion D as [|y l1 D1 D']. subst x l0 y l1. cbn [map] in N.
    assert (N0 : js_state st <> Some (fst (fst b))) by (intros E; exact (N _ E (or_introl eq_refl))).
    cbn [flat_map]. unfold sect_vals, last_case. cbn [List.filter fold_left].
    destruct (has_section X fr (fst (fst b))) eqn:Hs.
    + rewrite (proj2 (Ji _) Hs).
      destruct (block_present _ _ _ (proj2 (Ji _) Hs) G1 G2 G3 G4 G5 (G6 eq_refl) st ms N0 H) as (st1 & L1 & A & B & C).
      destruct (IH G' D' st1 _ (Some true) ltac:(intros s E; rewrite A in E; injection E as <-; exact D1) C) as (st' & L & P & Q); [cbn; split; [exact B|congruence]|].
      exists st'. split; [rewrite (loop_app _ _ _ _ L1); exact L|]. split; [|exact Q]. rewrite <- app_assoc in P. exact P.
    + destruct (Jn _ Hs) as [Cn|Cf].
      * rewrite Cn. destruct (IH G' D' st ms d ltac:(intros s E I; exact (N _ E (or_intror I))) H SC) as (st' & L & P & Q).
        exists st'. split; [rewrite (loop_app _ _ _ _ (block_none _ _ Cn G4 G5 st)); exact L|]. auto.
      * rewrite Cf. destruct (block_absent _ _ Cf G3 G4 G5 st ms N0 H) as (st1 & L1 & A & B & C).
        destruct (IH G' D' st1 _ (Some false) ltac:(intros s E; rewrite A in E; injection E as <-; exact D1) C) as (st' & L & P & Q); [cbn; split; [exact B|congruence]|].
        exists st'. split; [rewrite (loop_app _ _ _ _ L1); exact L|]. auto.
Qed.
End Loop.

(** ** The whole record *)
Lemma top_names : Forall (good_name 2) top.
Proof. unfold top. repeat apply Forall_cons; try apply Forall_nil; (repeat split; vm_compute; reflexivity). Qed.
Lemma sections_names : Forall (fun b : block => snd (fst b) = sect_name (fst (fst b)) /\ plain (snd (fst b)) = true /\ snd b <> [] /\ Forall (good_name 3) (snd b) /\ Forall (in_sec (fst (fst b))) (snd b)) sections.
Proof.
  unfold sections. repeat apply Forall_cons; try apply Forall_nil; cbn [fst snd in_section map append];
    (split; [reflexivity|]); (split; [reflexivity|]); (split; [discriminate|]); split;
    repeat apply Forall_cons; try apply Forall_nil; (repeat split; vm_compute; reflexivity).
Qed.
Lemma sections_nodup : NoDup (map (fun b : block => fst (fst b)) sections).
Proof. vm_compute. repeat constructor; cbn; intuition discriminate. Qed.

Section Whole.
Variables (X : sfgo_fns) (txt : string -> string) (two : bool) (fr : flatrec).
Hypothesis TX : cleans txt.
Hypothesis W : writable X fr.
Lemma info_ok : exists i, info X fr = Ok i /\ (forall s, section_case i s = Some true <-> has_section X fr s = true) /\
  (forall s, has_section X fr s = false -> section_case i s = None \/ section_case i s = Some false) /\
  last_case i sections None = Some true.
Proof.
  assert (T : forall n m, mget n mappers = Some m -> split_path mappers n = Ok (n, None) -> map_str X mappers n = Ok (fun fr0 => render X n None (run_fmap X m fr0))).
  { intros n m E Sp. unfold map_str. rewrite Sp. cbn [rbind]. unfold map_attr. rewrite E. reflexivity. }
  unfold info. rewrite (T "sf.type" (MRecType SYSFLOW_SRC) eq_refl eq_refl), (T "sf.container.id" (MStr SYSFLOW_SRC CONT_ID_STR) eq_refl eq_refl),
    (T "sf.pod.id" (MStr SYSFLOW_SRC POD_ID_STR) eq_refl eq_refl). cbn [rbind]. eexists. split; [reflexivity|].
  assert (R : forall n m, mget n mappers = Some m -> reads_text X fr n = match run_fmap X m fr with VStr s => trim_bounding_quotes s | _ => "" end).
  { intros n m E. unfold reads_text, map_attr. rewrite E. reflexivity. }
  assert (P : reads_int X fr "sf.pproc.pid" = map_int X mappers "sf.pproc.pid" fr).
  { unfold reads_int, map_int. reflexivity. }
  assert (H : forall s, has_section X fr s = match section_case (mkInfo (render X "sf.type" None (run_fmap X (MRecType SYSFLOW_SRC) fr)) (negb (Z.eqb (map_int X mappers "sf.pproc.pid" fr) 0))
      (negb (seqb (render X "sf.container.id" None (run_fmap X (MStr SYSFLOW_SRC CONT_ID_STR) fr)) "")) (negb (seqb (render X "sf.pod.id" None (run_fmap X (MStr SYSFLOW_SRC POD_ID_STR) fr)) ""))) s
      with Some b => b | None => false end).
  { intros s. unfold has_section, rtype. rewrite (R "sf.type" (MRecType SYSFLOW_SRC) eq_refl), (R "sf.container.id" (MStr SYSFLOW_SRC CONT_ID_STR) eq_refl),
    (R "sf.pod.id" (MStr SYSFLOW_SRC POD_ID_STR) eq_refl), P. cbn [run_fmap render]. unfold section_case. cbn [j_type j_pproc j_cont j_pod].
    destruct (seqb (trim_bounding_quotes (x_rectype X (get_int (fr_slots fr) SF_REC_TYPE SYSFLOW_SRC))) "KE"); destruct s; reflexivity. }
  split; [|split].
  - intros s. rewrite H. destruct (section_case _ s) as [[|]|]; split; congruence.
  - intros s. rewrite H. destruct (section_case _ s) as [[|]|]; intros E; try discriminate; auto.
  - unfold last_case, section_case. cbn [j_type j_pproc j_cont j_pod sections fold_left fst].
    destruct (seqb (render X "sf.type" None (run_fmap X (MRecType SYSFLOW_SRC) fr)) "KE"); reflexivity.
Qed.
Context {R : Type}.
Variable ctx : context (rule R).
Lemma rule_ok (r : rule R) : jtext (policy_json r) (rule_value txt r).
Proof.
  unfold policy_json, rule_value. replace (rank (r_prio r)) with (Z.of_nat (prio_val (r_prio r))) by (destruct (r_prio r); reflexivity).
  pose proof (obj_ok _ _ (cons_member "id" _ _ _ _ eq_refl (w_string_ok txt TX (r_name r)) (cons_member "desc" _ _ _ _ eq_refl (w_string_ok txt TX (r_desc r))
    (field_member "priority" _ _ eq_refl (jt_num (Z.of_nat (prio_val (r_prio r)))))))) as H.
  rewrite !sapp_assoc in H. unfold w_int. exact H.
Qed.
Theorem encode_value version vj : jtext version vj ->
  exists s, encode_json X two version fr ctx = Ok s /\ jtext s (record_value X txt two vj fr ctx).
Proof.
  intros V. destruct info_ok as (i & Ei & Ji & Jn & La). unfold encode_json. rewrite Ei. cbn [rbind]. rewrite loop_relevant, fields_are.
  set (st0 := mkJ None true _).
  assert (H0 : holds st0 [("version", vj)]).
  { exists (w_field "version" version). split; [apply field_member; [reflexivity|exact V]|]. unfold st0, closing, w_field. cbn [js_state js_out]. rewrite sapp_nil_r. reflexivity. }
  destruct (tops_loop X txt two fr i top top_names (top_written X txt two fr TX W) st0 _ eq_refl H0) as (st1 & L1 & N1 & X1 & H1).
  destruct (blocks_loop X txt two fr i Ji Jn sections) with (st := st1) (ms := ([("version", vj)] ++ vals X txt two fr top)%list) (d := @None bool) as (st2 & L2 & H2 & C2).
  - rewrite Forall_forall. intros b Hb. pose proof (proj1 (Forall_forall _ _) sections_names b Hb) as (Q1 & Q2 & Q3 & Q4 & Q5). repeat split; auto.
    intros Hs. destruct b as [[sec name] kas]. apply (sect_written X txt two fr TX W) with (sec := sec) (name := name); auto.
    destruct W as (W1 & _). intros Nk. specialize (W1 Nk). destruct (fr_ptree fr) as [ps|]; [eauto|congruence].
  - exact sections_nodup.
  - intros s E. congruence.
  - exact H1.
  - exact I.
  - change tops with (block_fields top). rewrite (loop_app X two fr i _ _ _ _ L1). cbn [fields_loop]. rewrite L2. cbn [rbind]. eexists. split; [reflexivity|].
    rewrite La in C2. cbn [same_case] in C2. destruct C2 as [Ex Ns]. destruct H2 as (s2 & M2 & E2). unfold closing in E2. destruct (js_state st2) as [lastsec|]; [|congruence]. rewrite Ex in E2.
    assert (E3 : js_out st2 ++ "}" = "{" ++ s2).
    { apply (app_cancel_r _ _ ","). rewrite !sapp_assoc. exact E2. }
    assert (A1 : forall s ms, members s ms -> members (s ++ policies_json (ctx_getrules ctx))
        (ms ++ match ctx_getrules ctx with [] => [] | rs => [("policies", JArr (map (rule_value txt) rs))] end)%list).
    { intros s ms M. unfold policies_json. destruct (ctx_getrules ctx) as [|r rs]; [rewrite app_nil_r, sapp_nil_r; exact M|].
      apply members_app; [exact M|]. apply (field_member "policies"); [reflexivity|]. apply array_list. intros x _. apply rule_ok. }
    assert (A2 : forall s ms, members s ms -> members (s ++ tags_json (ctx_gettags ctx) (rule_tags (ctx_getrules ctx)))
        (ms ++ match all_tags ctx with [] => [] | ts => [("tags", JArr (map (fun t => JStr (txt t)) ts))] end)%list).
    { intros s ms M. unfold tags_json, all_tags. change (flat_map (fun r : rule R => flat_map (fun t => match t with TagStr s0 => [s0] | TagList l => l end) (r_tags r)) (ctx_getrules ctx)) with (rule_tags (ctx_getrules ctx)).
      destruct (ctx_gettags ctx ++ rule_tags (ctx_getrules ctx))%list as [|t ts]; [rewrite app_nil_r, sapp_nil_r; exact M|].
      apply members_app; [exact M|]. apply (field_member "tags"); [reflexivity|]. apply array_list. intros x _. apply w_string_ok, TX. }
    rewrite <- (sapp_assoc (js_out st2)). rewrite E3. pose proof (A2 _ _ (A1 _ _ M2)) as M. apply jt_obj in M. rewrite !sapp_assoc in M. rewrite !sapp_assoc. unfold record_value.
    rewrite <- !app_assoc in M. exact M.
Qed.
End Whole.

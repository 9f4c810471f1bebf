(** * GrammarFacts: the parser of GrammarParser decides the grammar of GrammarModel. *)
From Verif Require Import GoBase FalcoModel GrammarModel GrammarParser.
From Coq Require Import Lia.

Lemma kb_true k k' : kind_beq k k' = true -> k = k'.
Proof. apply internal_kind_dec_bl. Qed.
Lemma kb_refl k : kind_beq k k = true.
Proof. now apply internal_kind_dec_lb. Qed.
Lemma kb_false k k' : kind_beq k k' = false -> k <> k'.
Proof. intros H ->. rewrite kb_refl in H. discriminate. Qed.

(** [head P ts]: the first token, if any, satisfies [P]. *)
Definition head (P : kind -> bool) (ts : list tok) : Prop :=
  match ts with [] => True | t :: _ => P (tk t) = true end.

(** ** Bracketed lists *)
Lemma p_list_complete ts xs : g_atoms ts xs -> forall c rest,
  (tk c = KRbrack -> p_list (ts ++ c :: rest) = Some (mkItems xs false, rest)) /\
  (forall r, tk c = KListsep -> tk r = KRbrack -> p_list (ts ++ c :: r :: rest) = Some (mkItems xs true, rest)).
Proof.
  induction 1 as [a Ha|a s ts l Ha Hs Hts IH]; intros c rest; split.
  - intros Hc. cbn [p_list app]. now rewrite Ha, Hc.
  - intros r Hc Hr. cbn [p_list app]. now rewrite Ha, Hc, Hr.
  - intros Hc. cbn [app]. destruct ts as [|t ts']; [inversion Hts|].
    cbn [p_list app]. rewrite Ha, Hs.
    assert (Hat : is_atom (tk t) = true) by (inversion Hts; assumption).
    destruct (kind_beq (tk t) KRbrack) eqn:E; [apply kb_true in E; rewrite E in Hat; discriminate|].
    destruct (IH c rest) as [IH1 _]. cbn [app p_list] in IH1. rewrite (IH1 Hc). reflexivity.
  - intros r Hc Hr. cbn [app]. destruct ts as [|t ts']; [inversion Hts|].
    cbn [p_list app]. rewrite Ha, Hs.
    assert (Hat : is_atom (tk t) = true) by (inversion Hts; assumption).
    destruct (kind_beq (tk t) KRbrack) eqn:E; [apply kb_true in E; rewrite E in Hat; discriminate|].
    destruct (IH c rest) as [_ IH2]. cbn [app p_list] in IH2. rewrite (IH2 r Hc Hr). reflexivity.
Qed.
Lemma g_atoms_head ts xs : g_atoms ts xs -> exists t ts', ts = t :: ts' /\ is_atom (tk t) = true.
Proof. destruct 1; eauto. Qed.
Lemma p_items_complete ts it : g_items ts it -> forall rest, p_items (ts ++ rest) = Some (it, rest).
Proof.
  destruct 1 as [l r Hl Hr|l c r Hl Hc Hr|l ts xs r Hl Hts Hr|l ts xs c r Hl Hts Hc Hr]; intros rest;
    cbn [p_items app].
  - now rewrite Hl, Hr.
  - now rewrite Hl, Hc, Hr.
  - rewrite Hl; cbn [kind_beq]. destruct (g_atoms_head _ _ Hts) as (t & ts' & -> & Ha).
    destruct (p_list_complete _ _ Hts r rest) as [H1 _].
    replace (((t :: ts') ++ [r]) ++ rest) with ((t :: ts') ++ r :: rest) by (now rewrite <- app_assoc).
    specialize (H1 Hr). cbn [app] in *. destruct (tk t); try discriminate Ha; exact H1.
  - rewrite Hl; cbn [kind_beq]. destruct (g_atoms_head _ _ Hts) as (t & ts' & -> & Ha).
    destruct (p_list_complete _ _ Hts c rest) as [_ H1].
    replace (((t :: ts') ++ [c; r]) ++ rest) with ((t :: ts') ++ c :: r :: rest) by (now rewrite <- app_assoc).
    specialize (H1 r Hc Hr). cbn [app] in *. destruct (tk t); try discriminate Ha; exact H1.
Qed.
Lemma p_list_sound n : forall ts it rest, length ts <= n -> p_list ts = Some (it, rest) ->
  exists us, g_atoms us (it_atoms it) /\
   ((it_trail it = false /\ exists r, tk r = KRbrack /\ ts = us ++ r :: rest) \/
    (it_trail it = true /\ exists c r, tk c = KListsep /\ tk r = KRbrack /\ ts = us ++ c :: r :: rest)).
Proof.
  induction n as [|n IH]; intros ts it rest Hn H.
  { destruct ts; [discriminate|cbn in Hn; lia]. }
  destruct ts as [|a ts1]; [discriminate|]. cbn [p_list] in H.
  destruct (is_atom (tk a)) eqn:Ha; [|discriminate].
  destruct ts1 as [|c ts2]; [discriminate|].
  destruct (tk c) eqn:Hc; try discriminate.
  - injection H as <- <-. exists [a]. split; [now constructor|]. left. split; [reflexivity|]. now exists c.
  - destruct ts2 as [|r ts3]; [discriminate|].
    destruct (kind_beq (tk r) KRbrack) eqn:Hr.
    + injection H as <- <-. apply kb_true in Hr. exists [a]. split; [now constructor|]. right. split; [reflexivity|].
      now exists c, r.
    + destruct (p_list (r :: ts3)) as [[it' rest']|] eqn:E; [|discriminate].
      injection H as <- <-.
      assert (Hn' : length (r :: ts3) <= n) by (cbn in Hn |- *; lia). destruct (IH _ _ _ Hn' E) as (us & Hus & Hd).
      exists (a :: c :: us). split; [now constructor|]. cbn [it_atoms it_trail].
      destruct Hd as [(E1 & r' & Hr' & E2)|(E1 & c' & r' & Hc' & Hr' & E2)]; rewrite E2.
      * left. split; [assumption|]. now exists r'.
      * right. split; [assumption|]. now exists c', r'.
Qed.
Lemma p_items_sound ts it rest : p_items ts = Some (it, rest) -> exists us, g_items us it /\ ts = us ++ rest.
Proof.
  destruct ts as [|l ts1]; [discriminate|]. cbn [p_items].
  destruct (kind_beq (tk l) KLbrack) eqn:Hl; [|discriminate]. apply kb_true in Hl.
  destruct ts1 as [|r ts2]; [discriminate|].
  destruct (kind_beq (tk r) KRbrack) eqn:Hr.
  { apply kb_true in Hr. rewrite Hr. intros [= <- <-]. exists [l; r]. split; [now constructor|reflexivity]. }
  destruct (kind_beq (tk r) KListsep) eqn:Hs.
  { apply kb_true in Hs. rewrite Hs. destruct ts2 as [|r' ts3]; [discriminate|].
    destruct (kind_beq (tk r') KRbrack) eqn:Hr'; [|discriminate]. apply kb_true in Hr'.
    intros [= <- <-]. exists [l; r; r']. split; [now constructor|reflexivity]. }
  intros H.
  assert (H' : p_list (r :: ts2) = Some (it, rest)) by (destruct (tk r); try exact H; discriminate).
  destruct it as [xs tr].
  destruct (p_list_sound _ _ _ _ (Nat.le_refl _) H') as (us & Hus & [(E1 & r' & Hr' & E2)|(E1 & c' & r' & Hc' & Hr' & E2)]);
    cbn [it_atoms it_trail] in *; subst tr; rewrite E2.
  - exists (l :: us ++ [r']). split; [now constructor|]. cbn [app]. now rewrite <- app_assoc.
  - exists (l :: us ++ [c'; r']). split; [now constructor|]. cbn [app]. now rewrite <- app_assoc.
Qed.

(** ** Arguments of in and pmatch *)
Lemma g_items_head ts it : g_items ts it -> exists t ts', ts = t :: ts' /\ tk t = KLbrack.
Proof. destruct 1; eauto. Qed.
Lemma p_arg_complete ts a : g_arg ts a -> forall rest, p_arg (ts ++ rest) = Some (a, rest).
Proof.
  destruct 1 as [a Ha|ts it Hit]; intros rest.
  - cbn [p_arg app]. now rewrite Ha.
  - destruct (g_items_head _ _ Hit) as (t & ts' & -> & Ht).
    pose proof (p_items_complete _ _ Hit rest) as H. cbn [app p_arg] in *. rewrite H. now rewrite Ht.
Qed.
Lemma p_arg_sound ts a rest : p_arg ts = Some (a, rest) -> exists us, g_arg us a /\ ts = us ++ rest.
Proof.
  destruct ts as [|t ts1]; [discriminate|]. cbn [p_arg].
  destruct (is_atom (tk t)) eqn:Ha.
  - intros [= <- <-]. exists [t]. split; [now constructor|reflexivity].
  - destruct (p_items (t :: ts1)) as [[it r]|] eqn:E; [|discriminate].
    intros [= <- <-]. destruct (p_items_sound _ _ _ E) as (us & Hus & ->).
    exists us. split; [now constructor|reflexivity].
Qed.
Lemma g_arg_len ts a : g_arg ts a -> 1 <= length ts.
Proof. destruct 1 as [|ts it []]; cbn; lia. Qed.
Lemma p_args_complete ts l : g_args ts l -> forall n rest, length ts <= n ->
  head (fun k => negb (kind_beq k KListsep)) rest -> p_args n (ts ++ rest) = Some (l, rest).
Proof.
  induction 1 as [ts a Ha|ts a c ts' l Ha Hc Hl IH]; intros n rest Hn Hr.
  - pose proof (g_arg_len _ _ Ha). destruct n as [|n]; [lia|]. cbn [p_args].
    rewrite (p_arg_complete _ _ Ha). destruct rest as [|t rest]; [reflexivity|].
    cbn [head] in Hr. now destruct (kind_beq (tk t) KListsep).
  - pose proof (g_arg_len _ _ Ha). rewrite app_length in Hn; cbn in Hn. destruct n as [|n]; [lia|]. cbn [p_args].
    rewrite <- app_assoc, (p_arg_complete _ _ Ha). cbn [app]. rewrite Hc; cbn [kind_beq].
    rewrite IH; [reflexivity|lia|assumption].
Qed.
Lemma p_args_sound n : forall ts l rest, p_args n ts = Some (l, rest) -> exists us, g_args us l /\ ts = us ++ rest.
Proof.
  induction n as [|n IH]; intros ts l rest H; [discriminate|]. cbn [p_args] in H.
  destruct (p_arg ts) as [[a [|c r]]|] eqn:E; [| |discriminate].
  - injection H as <- <-. destruct (p_arg_sound _ _ _ E) as (us & Hu & ->). exists us. split; [now constructor|reflexivity].
  - destruct (p_arg_sound _ _ _ E) as (us & Hu & ->).
    destruct (kind_beq (tk c) KListsep) eqn:Hc.
    + destruct (p_args n r) as [[l' r']|] eqn:E'; [|discriminate]. injection H as <- <-.
      destruct (IH _ _ _ E') as (us' & Hu' & ->). apply kb_true in Hc.
      exists (us ++ c :: us'). split; [now constructor|]. now rewrite <- app_assoc.
    + injection H as <- <-. exists us. split; [now constructor|reflexivity].
Qed.

(** ** Terms and expressions *)
Scheme g_term_m := Induction for g_term Sort Prop
  with g_and_m := Induction for g_and Sort Prop
  with g_expr_m := Induction for g_expr Sort Prop.
Combined Scheme g_mut from g_term_m, g_and_m, g_expr_m.

Definition stop_t (k : kind) : bool := negb (is_op k).
Definition stop_a (k : kind) : bool := negb (is_op k) && negb (kind_beq k KAnd).
Definition stop_e (k : kind) : bool := negb (is_op k) && negb (kind_beq k KAnd) && negb (kind_beq k KOr).
Lemma head_weaken (P Q : kind -> bool) ts : (forall k, P k = true -> Q k = true) -> head P ts -> head Q ts.
Proof. destruct ts; cbn; auto. Qed.
Lemma stop_et k : stop_e k = true -> stop_t k = true.
Proof. unfold stop_e, stop_t. now destruct (is_op k). Qed.
Lemma stop_at k : stop_a k = true -> stop_t k = true.
Proof. unfold stop_a, stop_t. now destruct (is_op k). Qed.
Lemma stop_ea k : stop_e k = true -> stop_a k = true.
Proof. unfold stop_e, stop_a. now destruct (is_op k), (kind_beq k KAnd). Qed.

Lemma p_expr_complete :
  (forall ts t, g_term ts t -> forall n rest, 3 * length ts + 1 <= n -> head stop_t rest ->
     p_term n (ts ++ rest) = Some (t, rest)) /\
  (forall ts l, g_and ts l -> forall n rest, 3 * length ts + 2 <= n -> head stop_a rest ->
     p_and n (ts ++ rest) = Some (l, rest)) /\
  (forall ts e, g_expr ts e -> forall n rest, 3 * length ts + 3 <= n -> head stop_e rest ->
     p_expr n (ts ++ rest) = Some (e, rest)).
Proof.
  apply g_mut.
  - intros t Ht n rest Hn Hr. destruct n as [|n]; [lia|]. cbn [p_term app]. rewrite Ht. cbn [kind_beq].
    destruct rest as [|o rest]; [reflexivity|]. cbn [head] in Hr. unfold stop_t in Hr.
    now destruct (is_op (tk o)).
  - intros m ts t Hm Hts IH n rest Hn Hr. cbn in Hn. destruct n as [|n]; [lia|]. cbn [p_term app]. rewrite Hm.
    rewrite IH; [reflexivity|lia|assumption].
  - intros a o Ha Ho n rest Hn Hr. destruct n as [|n]; [lia|]. cbn [p_term app]. rewrite Ho. cbn [is_op].
    unfold p_test. rewrite Ho. destruct (tk a); try discriminate Ha; reflexivity.
  - intros a o op b Ha Ho Hb n rest Hn Hr. destruct n as [|n]; [lia|]. cbn [p_term app].
    assert (Ht : p_test a o (b :: rest) = Some (TBin (tx a) op (tx b), rest)).
    { unfold p_test. rewrite Hb. destruct (tk o); try discriminate Ho; cbn [binop_of] in *; injection Ho as <-; reflexivity. }
    rewrite Ht. replace (is_op (tk o)) with true by (destruct (tk o); try discriminate Ho; reflexivity).
    destruct (tk a); try discriminate Ha; reflexivity.
  - intros a o l ts args r Ha Ho Hl Hts Hr n rest Hn Hrest. destruct n as [|n]; [lia|]. cbn [p_term app].
    rewrite <- app_assoc; cbn [app].
    assert (Ht : p_test a o (l :: ts ++ r :: rest) = Some (TIn (tx a) args, rest)).
    { unfold p_test. rewrite Ho, Hl. cbn [kind_beq].
      rewrite (p_args_complete _ _ Hts); [now rewrite Hr|rewrite app_length; lia|cbn; now rewrite Hr]. }
    rewrite Ht, Ho. cbn [is_op]. destruct (tk a); try discriminate Ha; reflexivity.
  - intros a o l ts args r Ha Ho Hl Hts Hr n rest Hn Hrest. destruct n as [|n]; [lia|]. cbn [p_term app].
    rewrite <- app_assoc; cbn [app].
    assert (Ht : p_test a o (l :: ts ++ r :: rest) = Some (TPmatch (tx a) args, rest)).
    { unfold p_test. rewrite Ho, Hl. cbn [kind_beq].
      rewrite (p_args_complete _ _ Hts); [now rewrite Hr|rewrite app_length; lia|cbn; now rewrite Hr]. }
    rewrite Ht, Ho. cbn [is_op]. destruct (tk a); try discriminate Ha; reflexivity.
  - intros l ts e r Hl Hts IH Hr n rest Hn Hrest. cbn in Hn. rewrite app_length in Hn. cbn in Hn.
    destruct n as [|n]; [lia|]. cbn [p_term app]. rewrite Hl, <- app_assoc; cbn [app].
    rewrite IH; [now rewrite Hr|lia|cbn; unfold stop_e; rewrite Hr; reflexivity].
  - intros ts t Hts IH n rest Hn Hr. destruct n as [|n]; [lia|]. cbn [p_and].
    rewrite IH; [|lia|eapply head_weaken; [apply stop_at|eassumption]].
    destruct rest as [|a rest]; [reflexivity|]. cbn in Hr. unfold stop_a in Hr.
    apply andb_prop in Hr as [_ Hr]. now destruct (kind_beq (tk a) KAnd).
  - intros ts t a ts' l Hts IH Ha Hl IHl n rest Hn Hr. rewrite app_length in Hn. cbn in Hn.
    destruct n as [|n]; [lia|]. cbn [p_and]. rewrite <- app_assoc; cbn [app].
    rewrite IH; [|lia|cbn; unfold stop_t; rewrite Ha; reflexivity]. rewrite Ha. cbn [kind_beq].
    rewrite IHl; [reflexivity|lia|assumption].
  - intros ts c Hts IH n rest Hn Hr. destruct n as [|n]; [lia|]. cbn [p_expr].
    rewrite IH; [|lia|eapply head_weaken; [apply stop_ea|eassumption]].
    destruct rest as [|a rest]; [reflexivity|]. cbn in Hr. unfold stop_e in Hr.
    apply andb_prop in Hr as [_ Hr]. now destruct (kind_beq (tk a) KOr).
  - intros ts c o ts' e Hts IH Ho He IHe n rest Hn Hr. rewrite app_length in Hn. cbn in Hn.
    destruct n as [|n]; [lia|]. cbn [p_expr]. rewrite <- app_assoc; cbn [app].
    rewrite IH; [|lia|cbn; unfold stop_a; rewrite Ho; reflexivity]. rewrite Ho. cbn [kind_beq].
    rewrite IHe; [reflexivity|lia|assumption].
Qed.

Lemma p_test_sound a o ts t rest : is_atom (tk a) = true -> p_test a o ts = Some (t, rest) ->
  exists us, g_term (a :: o :: us) t /\ ts = us ++ rest.
Proof.
  intros Ha H. unfold p_test in H.
  destruct (kind_beq (tk o) KExists) eqn:E1.
  { apply kb_true in E1. rewrite E1 in H. injection H as <- <-. exists []. split; [now constructor|reflexivity]. }
  destruct (kind_beq (tk o) KIn || kind_beq (tk o) KPmatch) eqn:E2.
  - assert (H' : match ts with
      | l :: ts1 =>
          if kind_beq (tk l) KLparen then
            match p_args (length ts1) ts1 with
            | Some (args, r :: rest) =>
                if kind_beq (tk r) KRparen
                then Some ((if kind_beq (tk o) KIn then TIn else TPmatch) (tx a) args, rest) else None
            | _ => None
            end
          else None
      | [] => None
      end = Some (t, rest)) by (destruct (tk o); try discriminate E2; exact H).
    clear H. destruct ts as [|l ts1]; [discriminate|].
    destruct (kind_beq (tk l) KLparen) eqn:Hl; [|discriminate]. apply kb_true in Hl.
    destruct (p_args (length ts1) ts1) as [[args [|r rest1]]|] eqn:E; try discriminate.
    destruct (kind_beq (tk r) KRparen) eqn:Hr; [|discriminate]. apply kb_true in Hr.
    destruct (p_args_sound _ _ _ _ E) as (us & Hus & ->).
    injection H' as <- <-. exists (l :: us ++ [r]). split.
    + destruct (kind_beq (tk o) KIn) eqn:Eo.
      * apply kb_true in Eo. now constructor.
      * apply orb_prop in E2 as [E2|E2]; [discriminate|]. apply kb_true in E2. now constructor.
    + cbn [app]. now rewrite <- app_assoc.
  - assert (H' : match binop_of (tk o), ts with
         | Some op, b :: rest => if is_atom (tk b) then Some (TBin (tx a) op (tx b), rest) else None
         | _, _ => None
         end = Some (t, rest)) by (destruct (tk o); try discriminate E2; try discriminate E1; exact H).
    destruct (binop_of (tk o)) as [op|] eqn:Eo; [|discriminate].
    destruct ts as [|b ts1]; [discriminate|]. destruct (is_atom (tk b)) eqn:Hb; [|discriminate].
    injection H' as <- <-. exists [b]. split; [now constructor|reflexivity].
Qed.
Lemma p_expr_sound n :
  (forall ts t rest, p_term n ts = Some (t, rest) -> exists us, g_term us t /\ ts = us ++ rest) /\
  (forall ts l rest, p_and n ts = Some (l, rest) -> exists us, g_and us l /\ ts = us ++ rest) /\
  (forall ts e rest, p_expr n ts = Some (e, rest) -> exists us, g_expr us e /\ ts = us ++ rest).
Proof.
  induction n as [|n (IHt & IHa & IHe)]; [repeat split; intros; discriminate|]. repeat split.
  - intros ts t rest H. cbn [p_term] in H. destruct ts as [|t0 ts1]; [discriminate|].
    destruct (kind_beq (tk t0) KNot) eqn:E1.
    { apply kb_true in E1. rewrite E1 in H. destruct (p_term n ts1) as [[u r]|] eqn:E; [|discriminate].
      injection H as <- <-. destruct (IHt _ _ _ E) as (us & Hu & ->). exists (t0 :: us). split; [now constructor|reflexivity]. }
    destruct (kind_beq (tk t0) KLparen) eqn:E2.
    { apply kb_true in E2. rewrite E2 in H. destruct (p_expr n ts1) as [[e [|r rest1]]|] eqn:E; try discriminate.
      destruct (kind_beq (tk r) KRparen) eqn:Hr; [|discriminate]. apply kb_true in Hr.
      injection H as <- <-. destruct (IHe _ _ _ E) as (us & Hu & ->). exists (t0 :: us ++ [r]).
      split; [now constructor|]. cbn [app]. now rewrite <- app_assoc. }
    set (var := if kind_beq (tk t0) KId then Some (TVar (tx t0), ts1) else None) in H.
    assert (H' : match ts1 with
              | o :: ts2 => if is_op (tk o) then (if is_atom (tk t0) then p_test t0 o ts2 else None) else var
              | [] => var
              end = Some (t, rest)).
    { unfold var in *. destruct (tk t0); try discriminate E1; try discriminate E2; exact H. }
    clear H.
    assert (Hv : var = Some (t, rest) -> exists us, g_term us t /\ t0 :: ts1 = us ++ rest).
    { unfold var. destruct (kind_beq (tk t0) KId) eqn:E3; [|discriminate]. apply kb_true in E3.
      intros [= <- <-]. exists [t0]. split; [now constructor|reflexivity]. }
    destruct ts1 as [|o ts2]; [exact (Hv H')|].
    destruct (is_op (tk o)); [|exact (Hv H')].
    destruct (is_atom (tk t0)) eqn:Ha; [|discriminate].
    destruct (p_test_sound _ _ _ _ _ Ha H') as (us & Hu & ->). exists (t0 :: o :: us). split; [assumption|reflexivity].
  - intros ts l rest H. cbn [p_and] in H. destruct (p_term n ts) as [[t [|a r]]|] eqn:E; [| |discriminate].
    + injection H as <- <-. destruct (IHt _ _ _ E) as (us & Hu & ->). exists us. split; [now constructor|reflexivity].
    + destruct (IHt _ _ _ E) as (us & Hu & ->). destruct (kind_beq (tk a) KAnd) eqn:Ea.
      * destruct (p_and n r) as [[l' r']|] eqn:E'; [|discriminate]. injection H as <- <-.
        destruct (IHa _ _ _ E') as (us' & Hu' & ->). apply kb_true in Ea. exists (us ++ a :: us').
        split; [now constructor|now rewrite <- app_assoc].
      * injection H as <- <-. exists us. split; [now constructor|reflexivity].
  - intros ts l rest H. cbn [p_expr] in H. destruct (p_and n ts) as [[t [|a r]]|] eqn:E; [| |discriminate].
    + injection H as <- <-. destruct (IHa _ _ _ E) as (us & Hu & ->). exists us. split; [now constructor|reflexivity].
    + destruct (IHa _ _ _ E) as (us & Hu & ->). destruct (kind_beq (tk a) KOr) eqn:Ea.
      * destruct (p_expr n r) as [[l' r']|] eqn:E'; [|discriminate]. injection H as <- <-.
        destruct (IHe _ _ _ E') as (us' & Hu' & ->). apply kb_true in Ea. exists (us ++ a :: us').
        split; [now constructor|now rewrite <- app_assoc].
      * injection H as <- <-. exists us. split; [now constructor|reflexivity].
Qed.

(** The parser decides the grammar of conditions. *)
Lemma parse_expr_iff ts e : parse_expr ts = Some e <-> g_expr ts e.
Proof.
  unfold parse_expr. split.
  - destruct (p_expr (fuel_of ts) ts) as [[e' [|]]|] eqn:E; try discriminate. intros [= <-].
    destruct (proj2 (proj2 (p_expr_sound _)) _ _ _ E) as (us & Hu & ->). now rewrite app_nil_r.
  - intros H. pose proof (proj2 (proj2 p_expr_complete) _ _ H (fuel_of ts) []) as H1.
    rewrite app_nil_r in H1. rewrite H1; [reflexivity|unfold fuel_of; lia|exact I].
Qed.
Lemma g_expr_unique ts e e' : g_expr ts e -> g_expr ts e' -> e = e'.
Proof. intros H H'. apply parse_expr_iff in H, H'. rewrite H in H'. now injection H'. Qed.

(** * PolicyFacts: proofs about predicates, operators and flatrecord operations. *)
From Coq Require Import Lia ZifyBool ZifyNat.
From Verif Require Import GoBase GoFacts Predicates SpecStrings FlatRecord.

Section Pred.
Context {R : Type}.
Lemma c_all_acc (cs : list (criterion R)) acc r :
  fold_left c_and cs acc r = acc r && forallb (fun c => c r) cs.
Proof.
  revert acc; induction cs as [|c cs IH]; intros acc; simpl; [rewrite andb_true_r; reflexivity|].
  rewrite IH. unfold c_and, c_eval. rewrite andb_assoc. reflexivity.
Qed.
Lemma c_all_forallb (cs : list (criterion R)) r : c_all cs r = forallb (fun c => c r) cs.
Proof. unfold c_all. rewrite c_all_acc. reflexivity. Qed.
Lemma c_any_acc (cs : list (criterion R)) acc r :
  fold_left c_or cs acc r = acc r || existsb (fun c => c r) cs.
Proof.
  revert acc; induction cs as [|c cs IH]; intros acc; simpl; [rewrite orb_false_r; reflexivity|].
  rewrite IH. unfold c_or, c_eval. rewrite orb_assoc. reflexivity.
Qed.
Lemma c_any_existsb (cs : list (criterion R)) r : c_any cs r = existsb (fun c => c r) cs.
Proof. unfold c_any. rewrite c_any_acc. reflexivity. Qed.

Lemma criteria_algebra (c d : criterion R) (cs : list (criterion R)) (r : R) :
  (c_eval (c_and c d) r = true <-> c_eval c r = true /\ c_eval d r = true) /\
  (c_eval (c_or c d) r = true <-> c_eval c r = true \/ c_eval d r = true) /\
  (c_eval (c_not c) r = true <-> ~ c_eval c r = true) /\
  (c_eval (c_all cs) r = true <-> Forall (fun k => c_eval k r = true) cs) /\
  (c_eval (c_any cs) r = true <-> Exists (fun k => c_eval k r = true) cs) /\
  c_eval c_true r = true /\ c_eval c_false r = false.
Proof.
  unfold c_eval. split; [|split; [|split; [|split; [|split; [|split]]]]].
  - unfold c_and, c_eval. apply andb_true_iff.
  - unfold c_or, c_eval. apply orb_true_iff.
  - unfold c_not, c_eval. destruct (c r); simpl; split; congruence.
  - rewrite c_all_forallb, forallb_forall, Forall_forall. tauto.
  - rewrite c_any_existsb, existsb_exists, Exists_exists. tauto.
  - reflexivity.
  - reflexivity.
Qed.
End Pred.

(** ** ASCII case folding *)
Lemma lower_byte_ci a b : lower_byte a = lower_byte b <-> ci_byte a b.
Proof.
  split.
  - unfold ci_byte, lower_byte.
    pose proof (ascii_nat_embedding a) as Ha. pose proof (ascii_nat_embedding b) as Hb.
    pose proof (nat_ascii_bounded a) as Ba. pose proof (nat_ascii_bounded b) as Bb.
    destruct (Nat.leb 65 (nat_of_ascii a) && Nat.leb (nat_of_ascii a) 90) eqn:Ea;
    destruct (Nat.leb 65 (nat_of_ascii b) && Nat.leb (nat_of_ascii b) 90) eqn:Eb; intros H.
    + left. apply (f_equal nat_of_ascii) in H. rewrite !nat_ascii_embedding in H by lia.
      rewrite <- Ha, <- Hb. f_equal. lia.
    + right; left. exists (nat_of_ascii a). split; [lia|]. split; congruence.
    + right; right. exists (nat_of_ascii b). split; [lia|]. split; congruence.
    + left; exact H.
  - assert (L : forall n, 65 <= n <= 90 -> lower_byte (ascii_of_nat n) = lower_byte (ascii_of_nat (n + 32))).
    { intros n Hn. unfold lower_byte. rewrite !nat_ascii_embedding by lia.
      replace (Nat.leb 65 n && Nat.leb n 90) with true by lia.
      replace (Nat.leb 65 (n + 32) && Nat.leb (n + 32) 90) with false by lia. reflexivity. }
    intros [->|[(n & Hn & -> & ->)|(n & Hn & -> & ->)]]; [reflexivity|auto|symmetry; auto].
Qed.

Lemma to_lower_ci s t : to_lower s = to_lower t <-> ci s t.
Proof.
  revert t; induction s as [|a s IH]; intros [|b t]; unfold to_lower in *; simpl; split; intros H;
    try discriminate; try (inversion H; fail); try constructor; try reflexivity.
  - apply lower_byte_ci. inversion H; auto.
  - apply IH. inversion H; auto.
  - inversion H; subst. f_equal; [apply lower_byte_ci; auto|apply IH; auto].
Qed.

Lemma to_lower_app a b : to_lower (a ++ b) = (to_lower a ++ to_lower b)%string.
Proof. unfold to_lower; induction a; simpl; congruence. Qed.
Lemma slen_to_lower s : slen (to_lower s) = slen s.
Proof. unfold slen, to_lower; induction s; simpl; congruence. Qed.
Lemma to_lower_split s a b : to_lower s = (a ++ b)%string ->
  exists s1 s2, s = (s1 ++ s2)%string /\ to_lower s1 = a /\ to_lower s2 = b.
Proof.
  intros H. exists (stake (slen a) s), (sdrop (slen a) s).
  rewrite stake_sdrop. split; [reflexivity|].
  rewrite <- (stake_sdrop (slen a) s), to_lower_app in H.
  assert (L : slen (to_lower (stake (slen a) s)) = slen a).
  { rewrite slen_to_lower. apply slen_stake.
    apply (f_equal slen) in H. rewrite <- to_lower_app, stake_sdrop, slen_to_lower, slen_app in H. lia. }
  pose proof (stake_app (slen a) _ (to_lower (sdrop (slen a) s)) L) as H1.
  rewrite H, (stake_app (slen a) a b eq_refl) in H1.
  pose proof (sdrop_app (slen a) _ (to_lower (sdrop (slen a) s)) L) as H2.
  rewrite H, (sdrop_app (slen a) a b eq_refl) in H2. auto.
Qed.

Lemma str_op_rel op o : str_op op = Some o -> forall l r, o l r = true <-> str_rel op l r.
Proof.
  intros H l r. destruct op; simpl in H; inversion H; subst o; clear H; simpl str_rel.
  - apply seqb_eq.
  - unfold equal_fold. rewrite seqb_eq. apply to_lower_ci.
  - apply contains_iff.
  - rewrite contains_iff. split.
    + intros (a & b & H). destruct (to_lower_split _ _ _ H) as (s1 & s2 & -> & H1 & H2).
      destruct (to_lower_split _ _ _ H2) as (s3 & s4 & -> & H3 & H4).
      exists s1, s3, s4. split; [reflexivity|]. apply to_lower_ci. auto.
    + intros (a & m & b & -> & Hc). apply to_lower_ci in Hc.
      exists (to_lower a), (to_lower b). rewrite !to_lower_app, Hc. reflexivity.
  - apply has_prefix_iff.
  - rewrite has_prefix_iff. split.
    + intros (b & H). destruct (to_lower_split _ _ _ H) as (s1 & s2 & -> & H1 & H2).
      exists s1, s2. split; [reflexivity|]. apply to_lower_ci. auto.
    + intros (m & b & -> & Hc). apply to_lower_ci in Hc.
      exists (to_lower b). rewrite to_lower_app, Hc. reflexivity.
  - apply has_suffix_iff.
  - rewrite has_suffix_iff. split.
    + intros (a & H). destruct (to_lower_split _ _ _ H) as (s1 & s2 & -> & H1 & H2).
      exists s1, s2. split; [reflexivity|]. apply to_lower_ci. auto.
    + intros (a & m & -> & Hc). apply to_lower_ci in Hc.
      exists (to_lower a). rewrite to_lower_app, Hc. reflexivity.
Qed.

Lemma str_op_defined op : is_str_op op = true <-> exists o, str_op op = Some o.
Proof. destruct op; simpl; split; intros H; eauto; try discriminate; destruct H; discriminate. Qed.

Lemma int_op_rel op o : int_op op = Some o -> forall l r, o l r = true <-> int_rel op l r.
Proof.
  intros H l r. destruct op; simpl in H; inversion H; subst o; simpl int_rel; lia.
Qed.
Lemma int_op_defined op : is_int_op op = true <-> exists o, int_op op = Some o.
Proof. destruct op; simpl; split; intros H; eauto; try discriminate; destruct H; discriminate. Qed.

(** ** slices *)
Lemma slice_eq_loop_spec {T} (eqb : T -> T -> bool) (Heq : forall a b, eqb a b = true <-> a = b) l :
  forall pre r, length r = length l -> slice_eq_loop eqb (length pre) l (pre ++ r) = true <-> l = r.
Proof.
  induction l as [|a l IH]; intros pre r Hl; simpl.
  - destruct r; [tauto|discriminate].
  - destruct r as [|b r]; [discriminate|].
    rewrite nth_error_app2, Nat.sub_diag by lia. simpl.
    destruct (eqb a b) eqn:E.
    + apply Heq in E; subst b.
      replace (pre ++ a :: r) with ((pre ++ [a]) ++ r) by (rewrite <- app_assoc; reflexivity).
      replace (S (length pre)) with (length (pre ++ [a])) by (rewrite app_length; simpl; lia).
      rewrite IH by (simpl in Hl; lia). split; intros H; [congruence|inversion H; auto].
    + split; [discriminate|]. intros H; inversion H; subst.
      assert (eqb b b = true) by (apply Heq; reflexivity). congruence.
Qed.
Lemma slice_op_rel {T} (eqb : T -> T -> bool) (Heq : forall a b, eqb a b = true <-> a = b) o :
  slice_op eqb OpEq = Some o -> forall l r, o l r = true <-> l = r.
Proof.
  intros H l r; inversion H; subst o. destruct (Nat.eqb_spec (length l) (length r)) as [E|E].
  - apply (slice_eq_loop_spec eqb Heq l [] r). auto.
  - split; [discriminate|intros ->; congruence].
Qed.

(** ** components *)
Lemma comma_free_has s : comma_free s <-> has_byte ","%char s = false.
Proof.
  induction s as [|a s IH]; simpl; [tauto|].
  rewrite orb_false_iff, IH. destruct (Ascii.eqb_spec a ","%char); intuition congruence.
Qed.

Lemma component_split s x : component s x <-> In x (split_on ","%char s).
Proof.
  split.
  - intros (l & Hne & Hf & -> & Hin). rewrite split_join; auto.
    intros y Hy. apply comma_free_has. rewrite Forall_forall in Hf; auto.
  - intros H. exists (split_on ","%char s). repeat split.
    + apply split_on_nonempty.
    + apply Forall_forall. intros y Hy. apply comma_free_has. eapply split_on_no_sep; eauto.
    + symmetry; apply split_on_join.
    + exact H.
Qed.

Lemma component_comma_free s x : comma_free s -> (component s x <-> x = s).
Proof.
  intros H. rewrite component_split, split_on_none by (apply comma_free_has; auto).
  simpl; intuition.
Qed.

Lemma compare_str_rel op o l r : str_op op = Some o ->
  compare_str l r o = true <-> exists a b, component l a /\ component r b /\ str_rel op a b.
Proof.
  intros Ho. unfold compare_str. rewrite existsb_exists. split.
  - intros (a & Ha & H). apply existsb_exists in H as (b & Hb & H).
    exists a, b. rewrite !component_split. repeat split; auto. eapply str_op_rel; eauto.
  - intros (a & b & Ha & Hb & H). apply component_split in Ha, Hb.
    exists a; split; auto. apply existsb_exists. exists b; split; auto. eapply str_op_rel; eauto.
Qed.

Lemma compare_str_plain op o l r : str_op op = Some o -> comma_free l -> comma_free r ->
  compare_str l r o = true <-> str_rel op l r.
Proof.
  intros Ho Hl Hr. rewrite (compare_str_rel _ _ _ _ Ho). split.
  - intros (a & b & Ha & Hb & H). apply component_comma_free in Ha, Hb; subst; auto.
  - intros H. exists l, r. rewrite !component_comma_free; auto.
Qed.

(** ** flatrecord operations *)
Section Flat.
Variable X : sfgo_fns.
Variable M : gomap fieldmap.

Lemma fr_compare_str_spec l r op ml mr :
  is_str_op op = true -> map_str X M l = Ok ml -> map_str X M r = Ok mr ->
  exists c, fr_compare X M l r op = Ok (c, false) /\
  forall fr,
    (c_eval c fr = true <-> exists a b, component (ml fr) a /\ component (mr fr) b /\ str_rel op a b) /\
    (comma_free (ml fr) -> comma_free (mr fr) -> (c_eval c fr = true <-> str_rel op (ml fr) (mr fr))).
Proof.
  intros Hop Hl Hr. destruct (proj1 (str_op_defined op) Hop) as [o Ho].
  exists (fun fr => compare_str (ml fr) (mr fr) o). split.
  - assert (E : fr_compare X M l r op = fr_compare_str X M l r op) by (destruct op; simpl in *; congruence).
    rewrite E. unfold fr_compare_str. rewrite Ho, Hl, Hr. reflexivity.
  - intros fr. unfold c_eval. split.
    + apply compare_str_rel; auto.
    + apply compare_str_plain; auto.
Qed.

Lemma fr_compare_int_spec l r op :
  is_str_op op = false ->
  exists c, fr_compare X M l r op = Ok (c, false) /\
  forall fr, c_eval c fr = true <-> int_rel op (map_int X M l fr) (map_int X M r fr).
Proof.
  intros Hop.
  assert (Hi : is_int_op op = true) by (destruct op; simpl in *; congruence).
  destruct (proj1 (int_op_defined op) Hi) as [o Ho].
  exists (fun fr => o (map_int X M l fr) (map_int X M r fr)). split.
  - assert (E : fr_compare X M l r op = fr_compare_int X M l r op) by (destruct op; simpl in *; congruence).
    rewrite E. unfold fr_compare_int. rewrite Ho. reflexivity.
  - intros fr. unfold c_eval. apply int_op_rel; auto.
Qed.

Lemma fr_fold_spec attr l op m :
  is_str_op op = true -> map_str X M attr = Ok m ->
  exists ca cl, fr_foldany X M attr l op = Ok (ca, false) /\ fr_foldall X M attr l op = Ok (cl, false) /\
  forall fr,
    let matches v := exists a b, component (m fr) a /\ component v b /\ str_rel op a b in
    (c_eval ca fr = true <-> exists v, In v l /\ matches v) /\
    (c_eval cl fr = true <-> forall v, In v l -> matches v).
Proof.
  intros Hop Hm. destruct (proj1 (str_op_defined op) Hop) as [o Ho].
  unfold fr_foldany, fr_foldall. rewrite Ho, Hm. unfold rbind.
  eexists _, _. split; [reflexivity|]. split; [reflexivity|].
  intros fr. cbv zeta. unfold c_eval. split.
  - rewrite existsb_exists. split; intros (v & Hv & H); exists v; split; auto;
      apply (compare_str_rel op o); auto.
  - rewrite forallb_forall. split; intros H v Hv; apply (compare_str_rel op o); auto; apply H; auto.
Qed.

Lemma fr_exists_spec attr :
  exists c, fr_exists X M attr = Ok (c, false) /\
  forall fr,
    (mget attr M = None -> (c_eval c fr = true <-> attr <> "")) /\
    (forall k, mget attr M = Some k ->
       (c_eval c fr = true <->
        match run_fmap X k fr with
        | VStr s => s <> ""
        | VInt z | VInt32 z => z <> 0%Z
        | VBool b => b = true
        | VIntArr o => o <> None
        | VSvcArr o => o <> None
        end)).
Proof.
  eexists; split; [reflexivity|]. intros fr. unfold c_eval, map_attr. split.
  - intros ->. simpl. rewrite negb_true_iff. apply seqb_neq.
  - intros k ->. destruct (run_fmap X k fr); simpl; rewrite ?negb_true_iff, ?negb_involutive.
    + apply seqb_neq.
    + apply Z.eqb_neq.
    + apply Z.eqb_neq.
    + destruct b; simpl; split; congruence.
    + destruct o; simpl; split; congruence.
    + destruct o; simpl; split; congruence.
Qed.

Lemma fr_regexp_spec attr re m :
  map_str X M attr = Ok m ->
  match x_regfind X re with
  | Some find => exists c, fr_regexp X M attr re = Ok (c, false) /\
                 forall fr, c_eval c fr = true <-> find (m fr) <> ""
  | None => exists c, fr_regexp X M attr re = Ok (c, true) /\ forall fr, c_eval c fr = false
  end.
Proof.
  intros Hm. unfold fr_regexp. destruct (x_regfind X re) as [find|].
  - rewrite Hm. eexists; split; [reflexivity|]. intros fr; unfold c_eval.
    rewrite negb_true_iff. apply seqb_neq.
  - eexists; split; [reflexivity|]. reflexivity.
Qed.

Lemma fr_applicable_spec pf fr m :
  map_str X M "sf.type" = Ok m ->
  exists b, fr_applicable X M pf fr = Ok b /\ (b = true <-> pf = [] \/ In (m fr) pf).
Proof.
  intros Hm. unfold fr_applicable. destruct pf as [|p pf].
  - exists true; split; [reflexivity|]. tauto.
  - rewrite Hm. eexists; split; [reflexivity|]. rewrite existsb_exists. split.
    + intros (x & Hx & H). apply seqb_eq in H; subst. auto.
    + intros [H|H]; [discriminate|]. exists (m fr); split; auto. apply seqb_refl.
Qed.
End Flat.

Lemma get_int_spec sl a src :
  (forall s, In s sl -> sl_src s <> src) /\ get_int sl a src = 0%Z \/
  exists pre s post, sl = pre ++ s :: post /\ (forall s', In s' pre -> sl_src s' <> src) /\
                     sl_src s = src /\ get_int sl a src = sl_ints s a.
Proof.
  induction sl as [|s sl IH]; simpl.
  - left; split; [tauto|reflexivity].
  - destruct (source_beq (sl_src s) src) eqn:E.
    + right. exists [], s, sl. apply internal_source_dec_bl in E. repeat split; auto; simpl; tauto.
    + assert (Hne : sl_src s <> src) by (intros H; apply internal_source_dec_lb in H; congruence).
      destruct IH as [[H1 H2]|(pre & s0 & post & H1 & H2 & H3 & H4)].
      * left; split; auto. intros s' [<-|H]; auto.
      * right. exists (s :: pre), s0, post. subst sl. split; [reflexivity|]. split; [|auto].
        intros s' [<-|H]; auto.
Qed.
Lemma get_str_spec sl a src :
  (forall s, In s sl -> sl_src s <> src) /\ get_str sl a src = "" \/
  exists pre s post, sl = pre ++ s :: post /\ (forall s', In s' pre -> sl_src s' <> src) /\
                     sl_src s = src /\ get_str sl a src = sl_strs s a.
Proof.
  induction sl as [|s sl IH]; simpl.
  - left; split; [tauto|reflexivity].
  - destruct (source_beq (sl_src s) src) eqn:E.
    + right. exists [], s, sl. apply internal_source_dec_bl in E. repeat split; auto; simpl; tauto.
    + assert (Hne : sl_src s <> src) by (intros H; apply internal_source_dec_lb in H; congruence).
      destruct IH as [[H1 H2]|(pre & s0 & post & H1 & H2 & H3 & H4)].
      * left; split; auto. intros s' [<-|H]; auto.
      * right. exists (s :: pre), s0, post. subst sl. split; [reflexivity|]. split; [|auto].
        intros s' [<-|H]; auto.
Qed.

(** ** context *)
Section Ctx.
Context {Rule : Type}.
Implicit Types c : context Rule.
Lemma fold_snoc {A} (l acc : list A) : fold_left (fun acc r => acc ++ [r]) l acc = acc ++ l.
Proof. revert acc; induction l as [|x l IH]; intros acc; simpl; [rewrite app_nil_r; auto|]. rewrite IH, <- app_assoc. reflexivity. Qed.
Lemma ctx_addrules_spec rs c :
  ctx_getrules (ctx_addrules rs c) = ctx_getrules c ++ rs /\
  ctx_gettags (ctx_addrules rs c) = ctx_gettags c /\
  (forall t, ctx_gethash t (ctx_addrules rs c) = ctx_gethash t c) /\
  ctx_isalert (ctx_addrules rs c) = ctx_isalert c.
Proof. unfold ctx_getrules, ctx_addrules. simpl. rewrite fold_snoc. auto. Qed.
Lemma ctx_addtags_spec ts c :
  ctx_gettags (ctx_addtags ts c) = ctx_gettags c ++ ts /\
  ctx_getrules (ctx_addtags ts c) = ctx_getrules c /\
  (forall t, ctx_gethash t (ctx_addtags ts c) = ctx_gethash t c) /\
  ctx_isalert (ctx_addtags ts c) = ctx_isalert c.
Proof. unfold ctx_gettags, ctx_addtags. simpl. rewrite fold_snoc. auto. Qed.
Lemma ctx_sethashes_spec t h c :
  ctx_gethash t (ctx_sethashes t h c) = Some (match ctx_gethash t c with Some h0 => h0 | None => h end) /\
  (forall t', t' <> t -> ctx_gethash t' (ctx_sethashes t h c) = ctx_gethash t' c) /\
  ctx_getrules (ctx_sethashes t h c) = ctx_getrules c /\
  ctx_gettags (ctx_sethashes t h c) = ctx_gettags c.
Proof.
  unfold ctx_gethash, ctx_sethashes, ctx_getrules, ctx_gettags.
  destruct (cx_hashes c) as [[p f]|]; destruct t; simpl; repeat split;
    try (destruct p; reflexivity); try (destruct f; reflexivity);
    intros [] Hne; try congruence; reflexivity.
Qed.
End Ctx.

(** * WordFacts: lemmas for C115. *)
From Coq Require Import Lia.
From Coq Require Import DecimalString Decimal.
From Coq Require DecimalPos DecimalZ.
From Verif Require Import GoBase GoFacts SpecWhite WhiteFacts SpecWords.
Local Open Scope string_scope.

(** ** White space *)
Lemma starts_rev s a : starts_with (srev s) a <-> ends_with s a.
Proof.
  split; intros (t & H).
  - exists (srev t). rewrite <- (srev_invol s), H. apply srev_cons.
  - exists (srev t). rewrite H. apply srev_snoc.
Qed.
Lemma ends_rev s a : ends_with (srev s) a <-> starts_with s a.
Proof. rewrite <- (srev_invol s) at 2. symmetry. apply starts_rev. Qed.
Lemma left_blank b r : blank b -> trim_left (b ++ r) = trim_left r.
Proof. induction 1 as [|w s W _ IH]; [reflexivity|]. rewrite sapp_assoc, trim_left_eq, (skip_white _ _ W). exact IH. Qed.
Lemma back_blank b r : blank b -> trim_back (srev b ++ r) = trim_back r.
Proof.
  intros H. revert r. induction H as [|w s W _ IH]; intros r; [reflexivity|]. rewrite srev_concat, sapp_assoc, IH, trim_back_eq, (back_white _ _ W). reflexivity.
Qed.
Lemma left_stop t : (forall w u, t = w ++ u -> ~ white w) -> trim_left t = t.
Proof. intros H. apply skip_none in H. now rewrite trim_left_eq, H. Qed.
Lemma back_stop t : (forall w u, t = u ++ w -> ~ white w) -> trim_back (srev t) = srev t.
Proof. intros H. apply back_none in H. now rewrite trim_back_eq, H. Qed.
Lemma blank_starts c : blank c -> forall a c', c = String a c' -> cont a = false.
Proof. intros [|w s W _] a c' E; [discriminate|]. destruct (white_bytes w W) as (x & y & -> & C & _). cbn in E. injection E as -> _. exact C. Qed.
Lemma trimmed_fun s t : trimmed s t -> trim_space s = t.
Proof.
  intros (b & c & -> & B & C & N & M). unfold trim_space. rewrite (left_blank _ _ B).
  destruct (string_dec t "") as [-> |Nt].
  - cbn [append]. rewrite <- (sapp_nil_r c), (left_blank c "" C). reflexivity.
  - assert (E : trim_left (t ++ c) = t ++ c).
    { rewrite trim_left_eq, skip_app; [reflexivity|exact Nt|now apply skip_none|exact (blank_starts c C)]. }
    rewrite E, srev_concat, (back_blank _ _ C), (back_stop _ M). apply srev_invol.
Qed.
Lemma trim_left_spec n : forall s, slen s <= n -> exists b, s = b ++ trim_left s /\ blank b /\ (forall w u, trim_left s = w ++ u -> ~ white w).
Proof.
  induction n as [|n IH]; intros s L; rewrite trim_left_eq; destruct (skip_space s) as [r|] eqn:E.
  1,3: pose proof E as E'; apply white_skip in E' as (w & W & ->); destruct (white_bytes w W) as (x & y & -> & _); rewrite slen_app in L; unfold slen in L; cbn in L.
  - lia.
  - destruct (IH r) as (b & Eb & B & N); [unfold slen; lia|]. exists (String x y ++ b). split; [rewrite sapp_assoc; congruence|]. split; [now constructor|exact N].
  - exists "". split; [reflexivity|]. split; [constructor|]. now apply skip_none.
  - exists "". split; [reflexivity|]. split; [constructor|]. now apply skip_none.
Qed.
Lemma blank_app s t : blank s -> blank t -> blank (s ++ t).
Proof. induction 1 as [|w s W _ IH]; intros Bt; [exact Bt|]. rewrite sapp_assoc. constructor; auto. Qed.
Lemma trim_back_spec n : forall s, slen s <= n -> exists c, s = srev (trim_back (srev s)) ++ c /\ blank c /\ (forall w u, srev (trim_back (srev s)) = u ++ w -> ~ white w).
Proof.
  induction n as [|n IH]; intros s L; rewrite trim_back_eq; destruct (skip_back (srev s)) as [r|] eqn:E.
  1,3: pose proof E as E'; apply white_back in E' as (w & W & Es); destruct (white_bytes w W) as (x & y & Ew & _);
    assert (Q : s = srev r ++ w) by (rewrite <- (srev_invol s), Es, srev_concat, srev_invol; reflexivity); rewrite Q, slen_app in L; subst w; unfold slen in L; cbn in L.
  - lia.
  - destruct (IH (srev r)) as (c & Ec & C & N); [unfold slen; lia|]. rewrite srev_invol in Ec, N. exists (c ++ String x y).
    split; [rewrite <- sapp_assoc; congruence|]. split; [|exact N]. apply blank_app; [exact C|]. rewrite <- (sapp_nil_r (String x y)). constructor; [exact W|constructor].
  - exists "". rewrite srev_invol, sapp_nil_r. split; [reflexivity|]. split; [constructor|]. now apply back_none.
  - exists "". rewrite srev_invol, sapp_nil_r. split; [reflexivity|]. split; [constructor|]. now apply back_none.
Qed.
Lemma trimmed_ok s : trimmed s (trim_space s).
Proof.
  unfold trim_space. destruct (trim_left_spec _ s (le_n _)) as (b & E & B & N). set (u := trim_left s) in *.
  destruct (trim_back_spec _ u (le_n _)) as (c & F & C & M). set (v := srev (trim_back (srev u))) in *.
  exists b, c. split; [rewrite <- F; exact E|]. split; [exact B|]. split; [exact C|]. split; [|exact M].
  intros w x Hw. apply (N w (x ++ c)). rewrite F, Hw. now rewrite sapp_assoc.
Qed.

(** ** Quotes *)
Lemma quote_iff a : is_quote a = true <-> quote a.
Proof.
  unfold quote. destruct a as [[] [] [] [] [] [] [] []]; vm_compute;
    (split; [intros H; try discriminate H; tauto | intros H; repeat (destruct H as [H|H]; [discriminate H || reflexivity|]); destruct H]).
Qed.
Lemma slast_iff s a : slast s = Some a <-> ends_with s a.
Proof.
  split; [intros H; apply slast_some in H as (t & ->); exists t; reflexivity|]. intros (t & ->). apply slast_snoc.
Qed.
Lemma unquoted_ok s : unquoted s (trim_bounding_quotes s).
Proof.
  assert (K : forall u, exists after, u = (match slast u with Some a => if is_quote a then stake (slen u - 1) u else u | None => u end) ++ after /\
    (after = "" /\ (forall a, ends_with (match slast u with Some a => if is_quote a then stake (slen u - 1) u else u | None => u end) a -> ~ quote a) \/ exists q, quote q /\ after = String q "")).
  { intros u. destruct (slast u) as [a|] eqn:L.
    - destruct (is_quote a) eqn:Q.
      + apply slast_some in L as (t & ->). rewrite slen_app. cbn [slen String.length]. replace (slen t + 1 - 1) with (slen t) by (unfold slen; lia). rewrite stake_app by reflexivity.
        exists (String a ""). split; [reflexivity|]. right. exists a. split; [now apply quote_iff|reflexivity].
      + exists "". split; [now rewrite sapp_nil_r|]. left. split; [reflexivity|]. intros b H Hq. apply slast_iff in H. apply quote_iff in Hq. congruence.
    - exists "". split; [now rewrite sapp_nil_r|]. left. split; [reflexivity|]. intros b H _. apply slast_iff in H. congruence. }
  unfold trim_bounding_quotes. destruct s as [|a s].
  - destruct (K "") as (c & E & A). exists "", c. split; [exact E|]. split; [|exact A]. left. split; [reflexivity|]. intros b (t & H). discriminate.
  - destruct (is_quote a) eqn:Q.
    + destruct (K s) as (c & E & A). exists (String a ""), c. split; [cbn [append]; f_equal; exact E|]. split; [|exact A]. right. exists a. split; [now apply quote_iff|reflexivity].
    + destruct (K (String a s)) as (c & E & A). exists "", c. split; [exact E|]. split; [|exact A]. left. split; [reflexivity|].
      intros b (t & H) Hq. assert (b = a) by congruence. subst. apply quote_iff in Hq. congruence.
Qed.
Lemma snoc_inj s a t b : s ++ String a "" = t ++ String b "" -> s = t /\ a = b.
Proof.
  intros H. assert (L : slast (s ++ String a "") = slast (t ++ String b "")) by (now rewrite H). rewrite !slast_snoc in L. injection L as ->.
  split; [|reflexivity]. now apply sapp_inv_tail in H.
Qed.
Lemma unquoted_fun s t t' : unquoted s t -> unquoted s t' -> t = t'.
Proof.
  intros (b & c & E & B & C) (b' & c' & E' & B' & C').
  assert (Eb : b = b').
  { destruct B as [[-> N]|(q & Q & ->)], B' as [[-> N']|(q' & Q' & ->)].
    - reflexivity.
    - exfalso. exact (N q' (ex_intro _ _ E') Q').
    - exfalso. exact (N' q (ex_intro _ _ E) Q).
    - rewrite E in E'. cbn [append] in E'. injection E' as -> _. reflexivity. }
  subst b'. rewrite E in E'. apply sapp_inv_head in E'.
  destruct C as [[-> N]|(q & Q & ->)], C' as [[-> N']|(q' & Q' & ->)]; rewrite ?sapp_nil_r in E'.
  - exact E'.
  - exfalso. exact (N q' (ex_intro _ t' E') Q').
  - exfalso. exact (N' q (ex_intro _ t (eq_sym E')) Q).
  - exact (proj1 (snoc_inj _ _ _ _ E')).
Qed.

(** ** Letters *)
Lemma big_range i a : String.get i "ABCDEFGHIJKLMNOPQRSTUVWXYZ" = Some a -> i < 26.
Proof. intros H. do 26 (destruct i as [|i]; [lia|]). discriminate. Qed.
Lemma small_fun a b c : small_letter a b -> small_letter a c -> b = c.
Proof.
  intros [(i & H & H')|[N ->]] [(j & J & J')|[N' ->]].
  - pose proof (big_range i a H). pose proof (big_range j a J). assert (i = j); [|congruence].
    do 26 (destruct i as [|i]; [do 26 (destruct j as [|j]; [cbn in *; congruence|]); lia|]). lia.
  - destruct (N' i H).
  - destruct (N j J).
  - reflexivity.
Qed.
Lemma small_nat m : 65 <= m -> m <= 90 -> exists i, String.get i "ABCDEFGHIJKLMNOPQRSTUVWXYZ" = Some (ascii_of_nat m) /\ String.get i "abcdefghijklmnopqrstuvwxyz" = Some (ascii_of_nat (m + 32)).
Proof. intros E1 E2. exists (m - 65). do 91 (destruct m as [|m]; [try (exfalso; lia); split; reflexivity|]). lia. Qed.
Lemma digit_nat_get m : 48 <= m -> m <= 57 -> String.get (m - 48) "0123456789" = Some (ascii_of_nat m).
Proof. intros E1 E2. do 58 (destruct m as [|m]; [try (exfalso; lia); reflexivity|]). lia. Qed.
Lemma small_ok a : small_letter a (lower_byte a).
Proof.
  unfold lower_byte. destruct (Nat.leb 65 (nat_of_ascii a) && Nat.leb (nat_of_ascii a) 90) eqn:E.
  - left. apply Bool.andb_true_iff in E as [E1 E2]. apply Nat.leb_le in E1, E2. destruct (small_nat _ E1 E2) as (i & H1 & H2). rewrite ascii_nat_embedding in H1. exists i. auto.
  - right. split; [|reflexivity]. intros i H. pose proof (big_range i a H).
    do 26 (destruct i as [|i]; [cbn in H; injection H as <-; discriminate E|]). lia.
Qed.
Lemma in_small_ok s : in_small s (to_lower s).
Proof. unfold to_lower. induction s as [|a s IH]; cbn; constructor; [apply small_ok|exact IH]. Qed.
Lemma in_small_fun s t : in_small s t -> forall t', in_small s t' -> t = t'.
Proof.
  intros H. induction H as [|a b s t L H IH]; intros t' H'; inversion H' as [|a' b' s' u L' H'']; subst; [reflexivity|].
  rewrite (small_fun _ _ _ L L'), (IH _ H''). reflexivity.
Qed.

(** ** Numbers *)
Lemma digit_iff a d : digit_val a = Some (Z.of_nat d) <-> digit d a.
Proof.
  unfold digit. split.
  - unfold digit_val. destruct (Nat.leb 48 (nat_of_ascii a) && Nat.leb (nat_of_ascii a) 57) eqn:E; [|discriminate].
    intros H. injection H as H. apply Nat2Z.inj in H. subst d. apply Bool.andb_true_iff in E as [E1 E2]. apply Nat.leb_le in E1, E2.
    pose proof (digit_nat_get _ E1 E2) as H. rewrite ascii_nat_embedding in H. exact H.
  - intros H. do 10 (destruct d as [|d]; [cbn in H; injection H as <-; reflexivity|]). destruct d; discriminate.
Qed.
Lemma digit_nat a z : digit_val a = Some z -> exists d, z = Z.of_nat d.
Proof. unfold digit_val. destruct (Nat.leb 48 (nat_of_ascii a) && Nat.leb (nat_of_ascii a) 57); [|discriminate]. intros H. injection H as <-. eauto. Qed.
Lemma parse_snoc s a : forall acc, parse_digits acc (s ++ String a "") =
  match parse_digits acc s with Some v => match digit_val a with Some d => Some (v * 10 + d)%Z | None => None end | None => None end.
Proof. induction s as [|b s IH]; intros acc; cbn; [reflexivity|]. destruct (digit_val b); [apply IH|reflexivity]. Qed.
Lemma srev_ind (Q : string -> Prop) : Q "" -> (forall s a, Q s -> Q (s ++ String a "")) -> forall s, Q s.
Proof.
  intros H0 H1 s. rewrite <- (srev_invol s). induction (srev s) as [|a u IH]; [exact H0|]. rewrite srev_cons. apply H1, IH.
Qed.
Lemma numeral_iff s : forall n, parse_nonempty s = Some n <-> numeral s n.
Proof.
  assert (A : forall s n, numeral s n -> s <> "" /\ parse_digits 0 s = Some n).
  { intros s0 n H. induction H as [d a D|s0 n d a H [IH1 IH2] D].
    - split; [discriminate|]. cbn. apply digit_iff in D. now rewrite D.
    - split; [destruct s0; discriminate|]. rewrite parse_snoc, IH2. apply digit_iff in D. rewrite D. f_equal. lia. }
  assert (B : forall s n, s <> "" -> parse_digits 0 s = Some n -> numeral s n).
  { intros s0. induction s0 as [|s0 a IH] using srev_ind; intros n Ne H; [now destruct Ne|]. rewrite parse_snoc in H.
    destruct (parse_digits 0 s0) as [v|] eqn:P; [|discriminate]. destruct (digit_val a) as [z|] eqn:D; [|discriminate].
    destruct (digit_nat _ _ D) as (d & ->). apply digit_iff in D. injection H as <-. destruct s0 as [|b s0].
    - cbn in P. injection P as <-. apply nu_one. exact D.
    - replace (v * 10 + Z.of_nat d)%Z with (10 * v + Z.of_nat d)%Z by lia. apply nu_more; [|exact D]. apply IH; [discriminate|reflexivity]. }
  intros n. unfold parse_nonempty. split.
  - intros H. destruct s as [|a s]; [discriminate|]. apply B; [discriminate|exact H].
  - intros H. destruct (A _ _ H) as [Ne P]. destruct s; [now destruct Ne|exact P].
Qed.
Lemma numeral_first s n a t : numeral s n -> s = String a t -> exists d, digit d a.
Proof.
  intros H. revert a t. induction H as [d b D|s n d b H IH D]; intros a t E.
  - injection E as -> _. eauto.
  - destruct s as [|c s]; [inversion H; match goal with X : _ = "" |- _ => destruct s; discriminate X end|]. injection E as -> _. exact (IH _ _ eq_refl).
Qed.
Lemma numeral_nonneg s n : numeral s n -> (0 <= n)%Z.
Proof. induction 1; lia. Qed.
Lemma integer_iff s z : parse_int64 s = Some z <-> for_integer s z.
Proof.
  unfold parse_int64, for_integer.
  assert (R : forall v, in_int64 v = true <-> (- 2 ^ 63 <= v < 2 ^ 63)%Z).
  { intros v. unfold in_int64, int64_min, int64_max. rewrite Bool.andb_true_iff, !Z.leb_le. change (2 ^ 63)%Z with 9223372036854775808%Z. lia. }
  assert (G : forall o, (match o with Some v => if in_int64 v then Some v else None | None => None end) = Some z <-> o = Some z /\ (- 2 ^ 63 <= z < 2 ^ 63)%Z).
  { intros [v|]; [|split; [discriminate|intros [H _]; discriminate]]. rewrite <- R. destruct (in_int64 v) eqn:E; split.
    - intros H. split; [exact H|]. congruence.
    - intros [H _]. exact H.
    - discriminate.
    - intros [H H']. congruence. }
  rewrite G. clear G R.
  assert (Sg : forall c u n, c = "+"%char \/ c = "-"%char -> ~ numeral (String c u) n).
  { intros c u n Hc H. destruct (numeral_first _ _ _ _ H eq_refl) as (d & D). unfold digit in D.
    do 10 (destruct d as [|d]; [cbn in D; destruct Hc; subst; discriminate|]). destruct d; discriminate. }
  split.
  - intros [H Rg]. split; [exact Rg|].
    assert (D : (exists u, s = String "-" u /\ option_map Z.opp (parse_nonempty u) = Some z) \/ (exists u, s = String "+" u /\ parse_nonempty u = Some z) \/ parse_nonempty s = Some z).
    { destruct s as [|a s]; [right; right; exact H|]. destruct a as [[] [] [] [] [] [] [] []]; try (right; right; exact H); [right; left|left]; exists s; split; (reflexivity || exact H). }
    destruct D as [(u & -> & D)|[(u & -> & D)|D]].
    + destruct (parse_nonempty u) as [n|] eqn:P; [|discriminate]. cbn in D. injection D as <-. apply numeral_iff in P. exists u, n. auto.
    + apply numeral_iff in D. exists u, z. auto.
    + apply numeral_iff in D. exists s, z. auto.
  - intros (Rg & u & n & N & H). split; [|exact Rg]. destruct H as [[-> ->]|[[-> ->]|[-> ->]]].
    + assert (P : parse_nonempty u = Some n) by now apply numeral_iff. destruct u as [|a u]; [exact P|].
      destruct a as [[] [] [] [] [] [] [] []]; try exact P; exfalso; eapply Sg; [|exact N| |exact N]; auto.
    + apply numeral_iff in N. exact N.
    + apply numeral_iff in N. rewrite N. reflexivity.
Qed.
Lemma numeral_fun s n n' : numeral s n -> numeral s n' -> n = n'.
Proof. intros H H'. apply numeral_iff in H, H'. congruence. Qed.
Lemma in_int64_range v : in_int64 v = true <-> (- 2 ^ 63 <= v < 2 ^ 63)%Z.
Proof. unfold in_int64, int64_min, int64_max. rewrite Bool.andb_true_iff, !Z.leb_le. change (2 ^ 63)%Z with 9223372036854775808%Z. lia. Qed.

(** Written numbers *)
Lemma uint_numeral u : u <> Decimal.Nil -> numeral (NilEmpty.string_of_uint u) (uint_val 0 u).
Proof.
  intros N. apply numeral_iff. unfold parse_nonempty. destruct (string_of_uint_nonempty _ N) as (a & s & E). rewrite E, <- E. apply parse_digits_uint.
Qed.
Lemma pos_no_zero p t : NilEmpty.string_of_uint (Pos.to_uint p) = String "0" t -> t = "".
Proof.
  intros H. pose proof (DecimalPos.Unsigned.to_of (Pos.to_uint p)) as T. rewrite DecimalPos.Unsigned.of_to in T. cbn [N.to_uint] in T.
  destruct (Pos.to_uint p) as [|u|u|u|u|u|u|u|u|u|u] eqn:Ep; try discriminate H.
  unfold Decimal.unorm in T. cbn [Decimal.nzhead] in T.
  assert (Hz : forall v w, Decimal.nzhead v <> Decimal.D0 w) by (intros v w; induction v; cbn; (exact IHv || discriminate)).
  destruct (Decimal.nzhead u) eqn:Ez; try discriminate T; [|destruct (Hz _ _ Ez)].
  injection T as ->. cbn in H. congruence.
Qed.
Lemma usual_ok z : usual z (format_int z).
Proof.
  unfold usual, format_int. destruct z as [|p|p]; cbn [Z.to_int NilZero.string_of_int Z.ltb Z.compare Z.abs].
  - exists "0". split; [exact (nu_one 0 "0" eq_refl)|]. split; [|reflexivity]. intros t H. congruence.
  - pose proof (DecimalPos.Unsigned.to_uint_nonnil p) as N. rewrite (nilzero_uint _ N). exists (NilEmpty.string_of_uint (Pos.to_uint p)).
    split; [|split; [intros t; apply pos_no_zero|reflexivity]]. pose proof (uint_numeral _ N) as H. rewrite uint_val_of_uint, DecimalPos.Unsigned.of_to in H. exact H.
  - pose proof (DecimalPos.Unsigned.to_uint_nonnil p) as N. rewrite (nilzero_uint _ N). exists (NilEmpty.string_of_uint (Pos.to_uint p)).
    split; [|split; [intros t; apply pos_no_zero|reflexivity]]. pose proof (uint_numeral _ N) as H. rewrite uint_val_of_uint, DecimalPos.Unsigned.of_to in H. exact H.
Qed.

(** ** Lists of texts *)
Lemma join_glued sep l : l <> [] -> glued sep l (join sep l).
Proof.
  induction l as [|x l IH]; intros N; [now destruct N|]. destruct l as [|y l]; [apply gl_one|].
  change (join sep (x :: y :: l)) with (x ++ sep ++ join sep (y :: l)). apply gl_more, IH. discriminate.
Qed.
Lemma glued_fun sep l s : glued sep l s -> l <> [] /\ s = join sep l.
Proof.
  induction 1 as [x|x l s H [N ->]]; [split; [discriminate|reflexivity]|]. split; [discriminate|]. destruct l as [|y l]; [now destruct N|reflexivity].
Qed.
Lemma free_iff c s : free_of c s <-> has_byte c s = false.
Proof.
  induction s as [|a s IH]; cbn; [tauto|]. rewrite Bool.orb_false_iff, IH. split; intros [H1 H2]; (split; [|exact H2]).
  - now apply Ascii.eqb_neq.
  - now apply Ascii.eqb_neq in H1.
Qed.
Lemma split_iff c s l : split_on c s = l <-> Forall (free_of c) l /\ glued (String c "") l s.
Proof.
  split.
  - intros <-. split; [apply Forall_forall; intros x Hx; apply free_iff; exact (split_on_no_sep c s x Hx)|].
    rewrite <- (split_on_join c s) at 2. apply join_glued, split_on_nonempty.
  - intros [F G]. destruct (glued_fun _ _ _ G) as [N ->]. apply split_join; [exact N|]. intros x Hx. apply free_iff. rewrite Forall_forall in F. exact (F x Hx).
Qed.

(** * GoFacts: lemmas about the GoBase definitions (proofs only, no model). *)
From Coq Require Import Lia ZifyBool ZifyNat.
From Coq Require Import Decimal DecimalString DecimalZ DecimalFacts.
From Verif Require Import GoBase.

Lemma seqb_eq s t : seqb s t = true <-> s = t.
Proof. apply String.eqb_eq. Qed.
Lemma seqb_refl s : seqb s s = true.
Proof. apply String.eqb_refl. Qed.
Lemma seqb_neq s t : seqb s t = false <-> s <> t.
Proof. apply String.eqb_neq. Qed.
Lemma seqb_sym s t : seqb s t = seqb t s.
Proof. apply String.eqb_sym. Qed.

Lemma sapp_nil_r s : (s ++ "")%string = s.
Proof. induction s; simpl; congruence. Qed.
Lemma sapp_assoc a b c : ((a ++ b) ++ c)%string = (a ++ b ++ c)%string.
Proof. induction a; simpl; congruence. Qed.
Lemma slen_app a b : slen (a ++ b) = slen a + slen b.
Proof. unfold slen; induction a; simpl; congruence. Qed.
Lemma sapp_inv_head a b c : (a ++ b)%string = (a ++ c)%string -> b = c.
Proof. induction a; simpl; intros H; [exact H|inversion H; auto]. Qed.
Lemma sapp_inv_tail a b c : (a ++ c)%string = (b ++ c)%string -> a = b.
Proof.
  revert b; induction a as [|x a IH]; intros b H.
  - destruct b; [reflexivity|].
    apply (f_equal slen) in H. rewrite !slen_app in H. unfold slen in H; simpl in H; lia.
  - destruct b as [|y b].
    + apply (f_equal slen) in H. rewrite !slen_app in H. unfold slen in H; simpl in H; lia.
    + simpl in H. inversion H; subst. f_equal; auto.
Qed.

Lemma has_prefix_iff s p : has_prefix s p = true <-> exists t, s = (p ++ t)%string.
Proof.
  revert s; induction p as [|a p IH]; intros s; simpl.
  - destruct s; split; eauto.
  - destruct s as [|b s]; simpl.
    + split; [discriminate|intros [t H]; discriminate].
    + rewrite andb_true_iff, Ascii.eqb_eq, IH. split.
      * intros [-> [t ->]]. eauto.
      * intros [t H]. inversion H; subst; eauto.
Qed.

Lemma sdrop_app n a b : slen a = n -> sdrop n (a ++ b) = b.
Proof. revert a; induction n; intros [|x a]; unfold slen; simpl; intros H; try discriminate; auto. Qed.
Lemma stake_app n a b : slen a = n -> stake n (a ++ b) = a.
Proof. revert a; induction n; intros [|x a]; unfold slen; simpl; intros H; try discriminate; auto. f_equal; auto. Qed.
Lemma stake_sdrop n s : (stake n s ++ sdrop n s)%string = s.
Proof. revert s; induction n; intros [|a s]; simpl; congruence. Qed.
Lemma slen_stake n s : n <= slen s -> slen (stake n s) = n.
Proof. revert s; induction n; intros [|a s]; unfold slen in *; simpl; intros; auto; try lia. rewrite IHn; lia. Qed.

Lemma has_suffix_iff s p : has_suffix s p = true <-> exists t, s = (t ++ p)%string.
Proof.
  unfold has_suffix. rewrite andb_true_iff, Nat.leb_le, seqb_eq. split.
  - intros [Hl He]. exists (stake (slen s - slen p) s).
    rewrite <- He at 2. symmetry; apply stake_sdrop.
  - intros [t ->]. rewrite slen_app. split; [lia|].
    apply sdrop_app. lia.
Qed.

Lemma contains_iff s sub : contains s sub = true <-> exists a b, s = (a ++ sub ++ b)%string.
Proof.
  induction s as [|x s IH]; cbn [contains]; rewrite orb_true_iff, has_prefix_iff.
  - split.
    + intros [[t H]|H]; [exists ""; eauto|discriminate].
    + intros (a & b & H). left. destruct a; [simpl in H; eauto|discriminate].
  - rewrite IH. split.
    + intros [[t H]|(a & b & H)]; [exists ""; eauto|].
      exists (String x a), b. simpl; congruence.
    + intros (a & b & H). destruct a as [|y a]; simpl in H; [left; eauto|].
      inversion H; subst. right; eauto.
Qed.

(** ** split / join *)
Fixpoint has_byte (c : ascii) (s : string) : bool :=
  match s with EmptyString => false | String a s' => Ascii.eqb a c || has_byte c s' end.

Lemma split_on_nonempty c s : split_on c s <> [].
Proof. destruct s; simpl; [discriminate|]. destruct (Ascii.eqb _ _); [discriminate|]. destruct (split_on c s); discriminate. Qed.

Lemma split_on_join c s : join (String c "") (split_on c s) = s.
Proof.
  induction s as [|a s IH]; simpl; [reflexivity|].
  destruct (Ascii.eqb_spec a c) as [->|Hne].
  - pose proof (split_on_nonempty c s). destruct (split_on c s) eqn:E; [congruence|].
    simpl. simpl in IH. rewrite IH. reflexivity.
  - pose proof (split_on_nonempty c s). destruct (split_on c s) as [|h t] eqn:E; [congruence|].
    destruct t; simpl in *; congruence.
Qed.

Lemma split_on_no_sep c s x : In x (split_on c s) -> has_byte c x = false.
Proof.
  revert x; induction s as [|a s IH]; simpl; intros x.
  - intros [<-|[]]. reflexivity.
  - destruct (Ascii.eqb a c) eqn:E.
    + intros [<-|H]; [reflexivity|auto].
    + pose proof (split_on_nonempty c s). destruct (split_on c s) as [|h t] eqn:E2; [congruence|].
      intros [<-|H1]; simpl.
      * rewrite E. simpl. apply IH. left; auto.
      * apply IH. right; auto.
Qed.

Lemma split_on_none c s : has_byte c s = false -> split_on c s = [s].
Proof.
  induction s as [|a s IH]; simpl; [reflexivity|].
  rewrite orb_false_iff. intros [-> H]. rewrite (IH H). reflexivity.
Qed.

Lemma split_on_app c a s : has_byte c a = false ->
  split_on c (a ++ String c s) = a :: split_on c s.
Proof.
  induction a as [|x a IH]; simpl; intros H.
  - rewrite Ascii.eqb_refl. reflexivity.
  - apply orb_false_iff in H as [-> H]. rewrite (IH H). reflexivity.
Qed.

Lemma split_join c l : l <> [] -> (forall x, In x l -> has_byte c x = false) ->
  split_on c (join (String c "") l) = l.
Proof.
  induction l as [|x l IH]; intros Hne H; [congruence|].
  destruct l as [|y l].
  - simpl. apply split_on_none. apply H; left; auto.
  - change (join (String c "") (x :: y :: l)) with (x ++ String c (join (String c "") (y :: l)))%string.
    rewrite split_on_app by (apply H; left; auto).
    rewrite IH; [reflexivity|discriminate|]. intros z Hz; apply H; right; auto.
Qed.

Lemma cut_at_spec c s b a : cut_at c s = Some (b, a) <->
  s = (b ++ String c a)%string /\ has_byte c b = false.
Proof.
  revert b; induction s as [|x s IH]; intros b; simpl.
  - split; [discriminate|]. intros [H _]; destruct b; discriminate.
  - destruct (Ascii.eqb_spec x c) as [->|Hne].
    + split.
      * intros H; inversion H; subst. auto.
      * intros [H1 H2]. destruct b as [|y b]; simpl in *; [inversion H1; subst; auto|].
        inversion H1; subst. rewrite Ascii.eqb_refl in H2. discriminate.
    + destruct (cut_at c s) as [[b' a']|] eqn:E.
      * split.
        -- intros H; inversion H; subst. destruct (proj1 (IH b') eq_refl) as [-> Hb].
           simpl. split; [reflexivity|]. rewrite Hb. apply orb_false_iff; split; auto.
           destruct (Ascii.eqb_spec x c); congruence.
        -- intros [H1 H2]. destruct b as [|y b]; simpl in *; [inversion H1; congruence|].
           inversion H1; subst. apply orb_false_iff in H2 as [_ H2].
           destruct (IH b) as [_ Hb]. specialize (Hb (conj eq_refl H2)). inversion Hb; subst; reflexivity.
      * split; [discriminate|]. intros [H1 H2].
        destruct b as [|y b]; simpl in *; [inversion H1; congruence|].
        inversion H1; subst. apply orb_false_iff in H2 as [_ H2].
        destruct (IH b) as [_ Hb]. specialize (Hb (conj eq_refl H2)). discriminate.
Qed.

Lemma cut_at_none c s : cut_at c s = None <-> has_byte c s = false.
Proof.
  induction s as [|x s IH]; simpl; [tauto|].
  destruct (Ascii.eqb x c); simpl; [split; discriminate|].
  destruct (cut_at c s) as [[b a]|]; rewrite <- IH; split; try discriminate; auto.
Qed.

(** ** reversal, trimming *)
Lemma srev_app_spec s acc : srev_app s acc = (srev s ++ acc)%string.
Proof.
  unfold srev. revert acc; induction s as [|a s IH]; intros acc; simpl; [reflexivity|].
  rewrite IH, (IH (String a "")), sapp_assoc. reflexivity.
Qed.
Lemma srev_cons a s : srev (String a s) = (srev s ++ String a "")%string.
Proof. unfold srev at 1. simpl. apply srev_app_spec. Qed.
Lemma srev_snoc s a : srev (s ++ String a "") = String a (srev s).
Proof. induction s as [|x s IH]; simpl; [reflexivity|]. rewrite !srev_cons, IH. reflexivity. Qed.
Lemma srev_invol s : srev (srev s) = s.
Proof. induction s as [|a s IH]; [reflexivity|]. rewrite srev_cons, srev_snoc, IH. reflexivity. Qed.
Lemma srev_concat a b : srev (a ++ b) = (srev b ++ srev a)%string.
Proof. induction a as [|x a IH]; simpl; [symmetry; apply sapp_nil_r|]. rewrite !srev_cons, IH, sapp_assoc. reflexivity. Qed.
Lemma slen_srev s : slen (srev s) = slen s.
Proof. induction s as [|a s IH]; [reflexivity|]. rewrite srev_cons, slen_app, IH. unfold slen; simpl. lia. Qed.

Lemma slast_snoc s a : slast (s ++ String a "") = Some a.
Proof. unfold slast. rewrite srev_snoc. reflexivity. Qed.
Lemma slast_none s : slast s = None -> s = "".
Proof.
  unfold slast. destruct (srev s) eqn:E; [|discriminate]. intros _.
  apply (f_equal srev) in E. rewrite srev_invol in E. exact E.
Qed.
Lemma slast_some s a : slast s = Some a -> exists s', s = (s' ++ String a "")%string.
Proof.
  unfold slast. destruct (srev s) as [|b t] eqn:E; [discriminate|]. intros H; inversion H; subst.
  exists (srev t). apply (f_equal srev) in E. rewrite srev_invol, srev_cons in E. exact E.
Qed.

(** A string neither starting nor ending with a quote is unchanged. *)
Definition no_bounding_quote (s : string) : Prop :=
  match s with String a _ => is_quote a = false | _ => True end /\
  match slast s with Some a => is_quote a = false | None => True end.

Lemma trim_bounding_quotes_id s : no_bounding_quote s -> trim_bounding_quotes s = s.
Proof.
  intros [H1 H2]. unfold trim_bounding_quotes.
  destruct s as [|a s]; [reflexivity|]. rewrite H1.
  destruct (slast (String a s)); [rewrite H2|]; reflexivity.
Qed.

Lemma trim_bounding_quotes_quoted q1 q2 s : is_quote q1 = true -> is_quote q2 = true ->
  trim_bounding_quotes (String q1 (s ++ String q2 "")) = s.
Proof.
  intros H1 H2. unfold trim_bounding_quotes. rewrite H1, slast_snoc, H2, slen_app.
  apply stake_app. unfold slen; simpl; lia.
Qed.

(** ** numbers *)
Lemma parse_digits_app a s acc v : parse_digits acc s = Some v ->
  parse_digits acc (s ++ String a "") = match digit_val a with Some d => Some (v * 10 + d)%Z | None => None end.
Proof.
  revert acc; induction s as [|x s IH]; simpl; intros acc H.
  - inversion H; subst. destruct (digit_val a); reflexivity.
  - destruct (digit_val x); [|discriminate]. apply IH; auto.
Qed.


Fixpoint uint_val (acc : Z) (u : Decimal.uint) : Z :=
  match u with
  | Nil => acc
  | D0 u => uint_val (acc * 10) u
  | D1 u => uint_val (acc * 10 + 1) u
  | D2 u => uint_val (acc * 10 + 2) u
  | D3 u => uint_val (acc * 10 + 3) u
  | D4 u => uint_val (acc * 10 + 4) u
  | D5 u => uint_val (acc * 10 + 5) u
  | D6 u => uint_val (acc * 10 + 6) u
  | D7 u => uint_val (acc * 10 + 7) u
  | D8 u => uint_val (acc * 10 + 8) u
  | D9 u => uint_val (acc * 10 + 9) u
  end%Z.

Lemma parse_digits_uint u acc : parse_digits acc (NilEmpty.string_of_uint u) = Some (uint_val acc u).
Proof.
  revert acc; induction u; intros acc; simpl NilEmpty.string_of_uint; cbn [parse_digits uint_val];
    try reflexivity; try apply IHu.
  change (digit_val "0"%char) with (Some 0%Z). cbv iota. rewrite Z.add_0_r. apply IHu.
Qed.

Lemma uint_val_acc u : forall p, Z.pos (Pos.of_uint_acc u p) = uint_val (Z.pos p) u.
Proof.
  induction u; intros p; cbn [Pos.of_uint_acc uint_val]; try reflexivity; rewrite IHu; f_equal; lia.
Qed.

Lemma uint_val_of_uint u : uint_val 0 u = Z.of_N (Pos.of_uint u).
Proof.
  induction u; cbn [uint_val Pos.of_uint]; try reflexivity;
    try (rewrite <- IHu; f_equal; lia);
    cbn [Z.of_N]; rewrite uint_val_acc; f_equal.
Qed.

Lemma string_of_uint_nonempty u : u <> Nil -> exists a s, NilEmpty.string_of_uint u = String a s.
Proof. destruct u; [congruence|..]; simpl; eauto. Qed.

Lemma nilzero_uint u : u <> Nil -> NilZero.string_of_uint u = NilEmpty.string_of_uint u.
Proof. destruct u; [congruence|..]; reflexivity. Qed.

Lemma to_uint_nonnil z : match Z.to_int z with Pos u => u <> Nil | Neg u => u <> Nil end.
Proof.
  destruct z; simpl; try discriminate; apply DecimalPos.Unsigned.to_uint_nonnil.
Qed.

Lemma first_digit_not_sign u a s : NilEmpty.string_of_uint u = String a s ->
  a <> "-"%char /\ a <> "+"%char.
Proof. destruct u; simpl; intros H; inversion H; split; discriminate. Qed.

Lemma parse_format_int z : in_int64 z = true -> parse_int64 (format_int z) = Some z.
Proof.
  intros Hr. unfold format_int, parse_int64.
  pose proof (to_uint_nonnil z) as Hn. pose proof (DecimalZ.of_to z) as Hz.
  destruct (Z.to_int z) as [u|u]; cbn [NilZero.string_of_int].
  - rewrite (nilzero_uint _ Hn). destruct (string_of_uint_nonempty _ Hn) as (a & s & E).
    assert (Hp : parse_nonempty (NilEmpty.string_of_uint u) = Some z).
    { unfold parse_nonempty. rewrite E, <- E, parse_digits_uint, uint_val_of_uint. f_equal. exact Hz. }
    destruct (first_digit_not_sign _ _ _ E) as [H1 H2].
    rewrite E in *.
    assert (Hgoal : match String a s with
                    | String "-"%char s' => option_map Z.opp (parse_nonempty s')
                    | String "+"%char s' => parse_nonempty s'
                    | _ => parse_nonempty (String a s) end = parse_nonempty (String a s)).
    { destruct a as [[] [] [] [] [] [] [] []]; try reflexivity; congruence. }
    cbv zeta. rewrite Hgoal, Hp, Hr. reflexivity.
  - rewrite (nilzero_uint _ Hn). destruct (string_of_uint_nonempty _ Hn) as (a & s & E).
    assert (Hp : option_map Z.opp (parse_nonempty (NilEmpty.string_of_uint u)) = Some z).
    { unfold parse_nonempty. rewrite E, <- E, parse_digits_uint, uint_val_of_uint. cbn [option_map]. f_equal. exact Hz. }
    cbv zeta. rewrite Hp, Hr. reflexivity.
Qed.

Lemma wrap64_id z : in_int64 z = true -> wrap64 z = z.
Proof.
  unfold in_int64, wrap64, int64_min, int64_max. rewrite andb_true_iff, !Z.leb_le. intros [H1 H2].
  rewrite Z.mod_small; lia.
Qed.
Lemma wrap64_range z : in_int64 (wrap64 z) = true.
Proof.
  unfold in_int64, wrap64, int64_min, int64_max. rewrite andb_true_iff, !Z.leb_le.
  pose proof (Z.mod_pos_bound (z + 9223372036854775808) 18446744073709551616 ltac:(lia)). lia.
Qed.

(** ** maps *)
Lemma mget_mset_eq {V} k (v : V) m : mget k (mset k v m) = Some v.
Proof. unfold mset; simpl. rewrite seqb_refl. reflexivity. Qed.
Lemma mget_mset_ne {V} k k' (v : V) m : k <> k' -> mget k (mset k' v m) = mget k m.
Proof. intros H. unfold mset; simpl. apply seqb_neq in H. rewrite H. reflexivity. Qed.
Lemma mget_mset {V} k k' (v : V) m : mget k (mset k' v m) = if seqb k k' then Some v else mget k m.
Proof. reflexivity. Qed.
Lemma mget_mdel {V} k k' (m : gomap V) : mget k (mdel k' m) = if seqb k k' then None else mget k m.
Proof.
  induction m as [|[k0 v0] m IH]; simpl.
  - destruct (seqb k k'); reflexivity.
  - destruct (seqb k' k0) eqn:E1; simpl.
    + apply seqb_eq in E1; subst k0. rewrite IH. destruct (seqb k k'); reflexivity.
    + rewrite IH. destruct (seqb k k0) eqn:E2; [|reflexivity].
      apply seqb_eq in E2; subst k0. rewrite seqb_sym, E1. reflexivity.
Qed.

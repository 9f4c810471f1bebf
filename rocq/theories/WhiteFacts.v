(** * WhiteFacts: white space (strings.TrimSpace, strings.Fields). *)
From Coq Require Import Lia NArith.
From Verif Require Import GoBase GoFacts SpecWhite.
Local Open Scope string_scope.

(** The rest of a text after the white space character it begins with. *)
Definition skip_space (s : string) : option string :=
  match s with
  | EmptyString => None
  | String a s1 =>
      if is_space a then Some s1 else
      match s1 with
      | EmptyString => None
      | String b s2 =>
          if is_space2 a b then Some s2 else
          match s2 with
          | EmptyString => None
          | String c s3 => if is_space3 a b c then Some s3 else None
          end
      end
  end.
Definition skip_back (s : string) : option string :=
  match s with
  | EmptyString => None
  | String c s1 =>
      if is_space c then Some s1 else
      match s1 with
      | EmptyString => None
      | String b s2 =>
          if is_space2 b c then Some s2 else
          match s2 with
          | EmptyString => None
          | String a s3 => if is_space3 a b c then Some s3 else None
          end
      end
  end.
Lemma trim_left_eq s : trim_left s = match skip_space s with Some r => trim_left r | None => s end.
Proof.
  destruct s as [|a [|b [|c s]]]; cbn [trim_left skip_space]; [reflexivity| | |];
    repeat match goal with |- context [if ?x then _ else _] => destruct x; try reflexivity end.
Qed.
Lemma trim_back_eq s : trim_back s = match skip_back s with Some r => trim_back r | None => s end.
Proof.
  destruct s as [|a [|b [|c s]]]; cbn [trim_back skip_back]; [reflexivity| | |];
    repeat match goal with |- context [if ?x then _ else _] => destruct x; try reflexivity end.
Qed.

(** The white space characters, written out. *)
Lemma byte_is a k : nat_of_ascii a = k -> a = ascii_of_nat k.
Proof. intros <-. symmetry. apply ascii_nat_embedding. Qed.
Ltac wh k := exists k; split; [cbn; tauto|reflexivity].
Lemma space1_white a : is_space a = true -> white (String a "").
Proof.
  unfold is_space. intros H. apply orb_true_iff in H as [H|H].
  - apply Nat.eqb_eq, byte_is in H. subst. wh 32%N.
  - apply andb_true_iff in H as [H1 H2]. apply Nat.leb_le in H1. apply Nat.leb_le in H2.
    assert (Q : nat_of_ascii a = 9 \/ nat_of_ascii a = 10 \/ nat_of_ascii a = 11 \/ nat_of_ascii a = 12 \/ nat_of_ascii a = 13) by lia.
    destruct Q as [Q|[Q|[Q|[Q|Q]]]]; apply byte_is in Q; subst; [wh 9%N|wh 10%N|wh 11%N|wh 12%N|wh 13%N].
Qed.
Lemma space2_white a b : is_space2 a b = true -> white (String a (String b "")).
Proof.
  unfold is_space2. cbv zeta. rewrite andb_true_iff, orb_true_iff, !Nat.eqb_eq. intros [A [B|B]]; apply byte_is in A; apply byte_is in B; subst; [wh 133%N|wh 160%N].
Qed.
Lemma space3_white a b c : is_space3 a b c = true -> white (String a (String b (String c ""))).
Proof.
  unfold is_space3. cbv zeta. rewrite !orb_true_iff, !andb_true_iff, !orb_true_iff, !andb_true_iff, !Nat.eqb_eq, !Nat.leb_le.
  intros [[[[[A B] C]|[[A B] C]]|[[A B] C]]|[[A B] C]]; apply byte_is in A; apply byte_is in B.
  - apply byte_is in C. subst. wh 5760%N.
  - assert (Q : (nat_of_ascii c = 128 \/ nat_of_ascii c = 129 \/ nat_of_ascii c = 130 \/ nat_of_ascii c = 131 \/ nat_of_ascii c = 132 \/ nat_of_ascii c = 133) \/
      (nat_of_ascii c = 134 \/ nat_of_ascii c = 135 \/ nat_of_ascii c = 136 \/ nat_of_ascii c = 137 \/ nat_of_ascii c = 138) \/
      (nat_of_ascii c = 168 \/ nat_of_ascii c = 169 \/ nat_of_ascii c = 175)) by lia. clear C.
    destruct Q as [[Q|[Q|[Q|[Q|[Q|Q]]]]]|[[Q|[Q|[Q|[Q|Q]]]]|[Q|[Q|Q]]]]; apply byte_is in Q; subst;
      [wh 8192%N|wh 8193%N|wh 8194%N|wh 8195%N|wh 8196%N|wh 8197%N|wh 8198%N|wh 8199%N|wh 8200%N|wh 8201%N|wh 8202%N|wh 8232%N|wh 8233%N|wh 8239%N].
  - apply byte_is in C. subst. wh 8287%N.
  - apply byte_is in C. subst. wh 12288%N.
Qed.
Ltac each_white H := destruct H as (n & H & ->); cbn [In white_space] in H; repeat (destruct H as [<-|H]; [|]); [..|destruct H].
(** The text begins with white space. *)
Lemma skip_white w r : white w -> skip_space (w ++ r) = Some r.
Proof. intros H. each_white H; reflexivity. Qed.
Lemma white_skip s r : skip_space s = Some r -> exists w, white w /\ s = w ++ r.
Proof.
  destruct s as [|a s]; cbn [skip_space]; [discriminate|]. destruct (is_space a) eqn:E1.
  { intros [= <-]. exists (String a ""). split; [now apply space1_white|reflexivity]. }
  destruct s as [|b s]; [discriminate|]. destruct (is_space2 a b) eqn:E2.
  { intros [= <-]. exists (String a (String b "")). split; [now apply space2_white|reflexivity]. }
  destruct s as [|c s]; [discriminate|]. destruct (is_space3 a b c) eqn:E3; [|discriminate].
  intros [= <-]. exists (String a (String b (String c ""))). split; [now apply space3_white|reflexivity].
Qed.
Lemma skip_none s : skip_space s = None <-> forall w u, s = w ++ u -> ~ white w.
Proof.
  split.
  - intros H w u -> W. rewrite (skip_white _ _ W) in H. discriminate.
  - intros H. destruct (skip_space s) as [r|] eqn:E; [|reflexivity]. apply white_skip in E as (w & W & ->). destruct (H w r eq_refl W).
Qed.
(** ... or ends with it. *)
Lemma back_white w r : white w -> skip_back (srev w ++ r) = Some r.
Proof. intros H. each_white H; reflexivity. Qed.
Lemma white_back s r : skip_back s = Some r -> exists w, white w /\ s = srev w ++ r.
Proof.
  destruct s as [|a s]; cbn [skip_back]; [discriminate|]. destruct (is_space a) eqn:E1.
  { intros [= <-]. exists (String a ""). split; [now apply space1_white|reflexivity]. }
  destruct s as [|b s]; [discriminate|]. destruct (is_space2 b a) eqn:E2.
  { intros [= <-]. exists (String b (String a "")). split; [now apply space2_white|reflexivity]. }
  destruct s as [|c s]; [discriminate|]. destruct (is_space3 c b a) eqn:E3; [|discriminate].
  intros [= <-]. exists (String c (String b (String a ""))). split; [now apply space3_white|reflexivity].
Qed.
Lemma back_none s : skip_back (srev s) = None <-> forall w u, s = u ++ w -> ~ white w.
Proof.
  split.
  - intros H w u -> W. rewrite srev_concat, (back_white _ _ W) in H. discriminate.
  - intros H. destruct (skip_back (srev s)) as [r|] eqn:E; [|reflexivity]. apply white_back in E as (w & W & E).
    assert (Es : s = srev r ++ w) by (rewrite <- (srev_invol s), E, srev_concat, srev_invol; reflexivity). destruct (H w _ Es W).
Qed.

(** White space characters begin where a character begins. *)
Definition cont (a : ascii) : bool := let n := nat_of_ascii a in Nat.leb 128 n && Nat.ltb n 192.
Fixpoint conts (s : string) : bool := match s with EmptyString => true | String a s' => cont a && conts s' end.
Lemma white_bytes w : white w -> exists a w', w = String a w' /\ cont a = false /\ conts w' = true.
Proof. intros H. each_white H; eexists _, _; (split; [reflexivity|split; reflexivity]). Qed.
Lemma app_compare : forall x u y v : string, x ++ u = y ++ v -> (exists z, y = x ++ z) \/ exists a z, x = y ++ String a z /\ v = String a z ++ u.
Proof.
  induction x as [|a x IH]; intros u y v H; [left; exists y; reflexivity|]. destruct y as [|b y]; [right; exists a, x; auto|].
  cbn in H. injection H as -> H. destruct (IH _ _ _ H) as [(z & ->)|(c & z & -> & ->)]; [left; exists z; reflexivity|right; exists c, z; auto].
Qed.
(** A text that does not begin with white space still does not with more text after it that begins with a character. *)
Lemma skip_app t c : t <> "" -> skip_space t = None -> (forall a c', c = String a c' -> cont a = false) -> skip_space (t ++ c) = None.
Proof.
  intros Ht Hn Hc. destruct (skip_space (t ++ c)) as [r|] eqn:E; [|reflexivity]. exfalso. apply white_skip in E as (w & W & E).
  destruct (white_bytes w W) as (a & w' & -> & Ca & Cw). destruct t as [|b t]; [congruence|]. cbn in E. injection E as -> E.
  symmetry in E. apply app_compare in E as [(z & ->)|(d & z & -> & E)].
  - change (String a (w' ++ z)) with (String a w' ++ z) in Hn. rewrite (skip_white (String a w') z W) in Hn. discriminate.
  - specialize (Hc d _ E). assert (Q : conts (t ++ String d z) = true -> cont d = true).
    { clear. induction t as [|x t IH]; cbn [append conts]; intros H; apply andb_true_iff in H as [H1 H2]; auto. }
    rewrite (Q Cw) in Hc. discriminate.
Qed.


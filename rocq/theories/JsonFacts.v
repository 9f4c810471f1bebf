(** * JsonFacts: UTF-8 decoding and string escaping. *)
From Coq Require Import Lia ZifyBool.
From Verif Require Import GoBase GoFacts Predicates FlatRecord FieldTables JsonModel SpecJson.
Local Open Scope Z_scope.

Ltac zdiv := Z.to_euclidean_division_equations; lia.

(** ** Bytes *)
Lemma byte_range c : 0 <= byte c < 256.
Proof. unfold byte. pose proof (nat_ascii_bounded c). lia. Qed.
Lemma chr_byte c : chr (byte c) = c.
Proof. unfold chr, byte. rewrite Nat2Z.id. apply ascii_nat_embedding. Qed.
Lemma byte_chr z : 0 <= z < 256 -> byte (chr z) = z.
Proof. intros H. unfold chr, byte. rewrite nat_ascii_embedding; lia. Qed.
Lemma byte_inj a b : byte a = byte b -> a = b.
Proof. intros H. rewrite <- (chr_byte a), <- (chr_byte b), H. reflexivity. Qed.

(** ** Decoding what was encoded *)
Lemma decode_utf8 cp r : scalar cp -> decode_rune (utf8 cp ++ r) = (cp, slen (utf8 cp)).
Proof.
  unfold scalar, utf8. intros H. destruct (Z.ltb_spec cp 128) as [L1|L1].
  - cbn [append decode_rune slen String.length]. unfold in_range. rewrite byte_chr by lia.
    replace (0 <=? cp) with true by lia. replace (cp <=? 127) with true by lia. reflexivity.
  - destruct (Z.ltb_spec cp 2048) as [L2|L2].
    + cbn [append decode_rune slen String.length]. unfold in_range. rewrite !byte_chr by zdiv.
      replace ((0 <=? 192 + cp / 64) && (192 + cp / 64 <=? 127)) with false by zdiv.
      replace ((194 <=? 192 + cp / 64) && (192 + cp / 64 <=? 223)) with true by zdiv.
      replace ((128 <=? 128 + cp mod 64) && (128 + cp mod 64 <=? 191)) with true by zdiv. f_equal. zdiv.
    + destruct (Z.ltb_spec cp 65536) as [L3|L3].
      * cbn [append decode_rune slen String.length]. unfold in_range.
        assert (E : exists a b c, cp / 4096 = a /\ cp / 64 mod 64 = b /\ cp mod 64 = c /\ cp = a * 4096 + b * 64 + c /\ 0 <= b < 64 /\ 0 <= c < 64 /\ 0 <= a < 16).
        { exists (cp / 4096), (cp / 64 mod 64), (cp mod 64). repeat split; try zdiv. }
        destruct E as (a & b & c & -> & -> & -> & E & Hb & Hc & Ha). rewrite !byte_chr by lia.
        replace ((0 <=? 224 + a) && (224 + a <=? 127)) with false by lia.
        replace ((194 <=? 224 + a) && (224 + a <=? 223)) with false by lia.
        replace ((224 <=? 224 + a) && (224 + a <=? 239)) with true by lia.
        replace (((if 224 + a =? 224 then 160 else 128) <=? 128 + b) && (128 + b <=? (if 224 + a =? 237 then 159 else 191)) && ((128 <=? 128 + c) && (128 + c <=? 191))) with true.
        { f_equal. lia. }
        destruct (Z.eqb_spec (224 + a) 224), (Z.eqb_spec (224 + a) 237); lia.
      * cbn [append decode_rune slen String.length]. unfold in_range.
        assert (E : exists a b c d, cp / 262144 = a /\ cp / 4096 mod 64 = b /\ cp / 64 mod 64 = c /\ cp mod 64 = d /\ cp = a * 262144 + b * 4096 + c * 64 + d /\
                   0 <= b < 64 /\ 0 <= c < 64 /\ 0 <= d < 64 /\ 0 <= a < 5).
        { exists (cp / 262144), (cp / 4096 mod 64), (cp / 64 mod 64), (cp mod 64). repeat split; try zdiv. }
        destruct E as (a & b & c & d & -> & -> & -> & -> & E & Hb & Hc & Hd & Ha). rewrite !byte_chr by lia.
        replace ((0 <=? 240 + a) && (240 + a <=? 127)) with false by lia.
        replace ((194 <=? 240 + a) && (240 + a <=? 223)) with false by lia.
        replace ((224 <=? 240 + a) && (240 + a <=? 239)) with false by lia.
        replace ((240 <=? 240 + a) && (240 + a <=? 244)) with true by lia.
        replace (((if 240 + a =? 240 then 144 else 128) <=? 128 + b) && (128 + b <=? (if 240 + a =? 244 then 143 else 191)) && ((128 <=? 128 + c) && (128 + c <=? 191)) && ((128 <=? 128 + d) && (128 + d <=? 191))) with true.
        { f_equal. lia. }
        destruct (Z.eqb_spec (240 + a) 240), (Z.eqb_spec (240 + a) 244); lia.
Qed.
(** Whatever decodes was encoded. *)
Lemma decode_sound c s r w : decode_rune (String c s) = (r, w) -> (r, w) <> rune_error ->
  scalar r /\ exists rest, String c s = (utf8 r ++ rest)%string.
Proof.
  unfold decode_rune. pose proof (byte_range c) as Bc. destruct (in_range 0 127 c) eqn:R1.
  { intros [= <- <-] _. unfold in_range in R1. split; [unfold scalar; lia|]. exists s. unfold utf8.
    replace (byte c <? 128) with true by lia. rewrite chr_byte. reflexivity. }
  destruct (in_range 194 223 c) eqn:R2.
  { destruct s as [|c1 s]; [intros [= <- <-] H; exfalso; apply H; reflexivity|]. pose proof (byte_range c1).
    destruct (in_range 128 191 c1) eqn:Q1; [|intros [= <- <-] H0; exfalso; apply H0; reflexivity].
    intros [= <- <-] _. unfold in_range in *. split; [unfold scalar; lia|]. exists s. unfold utf8.
    set (r := (byte c - 192) * 64 + (byte c1 - 128)). replace (r <? 128) with false by lia. replace (r <? 2048) with true by lia.
    replace (192 + r / 64) with (byte c) by (unfold r; zdiv). replace (128 + r mod 64) with (byte c1) by (unfold r; zdiv).
    rewrite !chr_byte. reflexivity. }
  destruct (in_range 224 239 c) eqn:R3.
  { destruct s as [|c1 [|c2 s]]; try (intros [= <- <-] H0; exfalso; apply H0; reflexivity). pose proof (byte_range c1). pose proof (byte_range c2).
    destruct (in_range (if byte c =? 224 then 160 else 128) (if byte c =? 237 then 159 else 191) c1 && in_range 128 191 c2) eqn:Q1; [|intros [= <- <-] H1; exfalso; apply H1; reflexivity].
    intros [= <- <-] _. unfold in_range in *.
    assert (Q : 128 <= byte c1 <= 191 /\ 128 <= byte c2 <= 191 /\ (byte c = 224 -> 160 <= byte c1) /\ (byte c = 237 -> byte c1 <= 159)).
    { destruct (Z.eqb_spec (byte c) 224), (Z.eqb_spec (byte c) 237); lia. }
    set (r := ((byte c - 224) * 64 + (byte c1 - 128)) * 64 + (byte c2 - 128)).
    split; [unfold scalar, r; lia|]. exists s. unfold utf8.
    replace (r <? 128) with false by lia. replace (r <? 2048) with false by lia. replace (r <? 65536) with true by lia.
    replace (224 + r / 4096) with (byte c) by (unfold r; zdiv). replace (128 + r / 64 mod 64) with (byte c1) by (unfold r; zdiv).
    replace (128 + r mod 64) with (byte c2) by (unfold r; zdiv). rewrite !chr_byte. reflexivity. }
  destruct (in_range 240 244 c) eqn:R4; [|intros [= <- <-] H0; exfalso; apply H0; reflexivity].
  destruct s as [|c1 [|c2 [|c3 s]]]; try (intros [= <- <-] H0; exfalso; apply H0; reflexivity).
  pose proof (byte_range c1). pose proof (byte_range c2). pose proof (byte_range c3).
  destruct (in_range (if byte c =? 240 then 144 else 128) (if byte c =? 244 then 143 else 191) c1 && in_range 128 191 c2 && in_range 128 191 c3) eqn:Q1;
    [|intros [= <- <-] H2; exfalso; apply H2; reflexivity].
  intros [= <- <-] _. unfold in_range in *.
  assert (Q : 128 <= byte c1 <= 191 /\ 128 <= byte c2 <= 191 /\ 128 <= byte c3 <= 191 /\ (byte c = 240 -> 144 <= byte c1) /\ (byte c = 244 -> byte c1 <= 143)).
  { destruct (Z.eqb_spec (byte c) 240), (Z.eqb_spec (byte c) 244); lia. }
  set (r := (((byte c - 240) * 64 + (byte c1 - 128)) * 64 + (byte c2 - 128)) * 64 + (byte c3 - 128)).
  split; [unfold scalar, r; lia|]. exists s. unfold utf8.
  replace (r <? 128) with false by lia. replace (r <? 2048) with false by lia. replace (r <? 65536) with false by lia.
  replace (240 + r / 262144) with (byte c) by (unfold r; zdiv). replace (128 + r / 4096 mod 64) with (byte c1) by (unfold r; zdiv).
  replace (128 + r / 64 mod 64) with (byte c2) by (unfold r; zdiv). replace (128 + r mod 64) with (byte c3) by (unfold r; zdiv). rewrite !chr_byte. reflexivity.
Qed.
Lemma utf8_len1 cp : scalar cp -> slen (utf8 cp) = 1%nat -> cp < 128.
Proof. unfold utf8, scalar. intros S. destruct (Z.ltb_spec cp 128); [auto|]. destruct (cp <? 2048); [discriminate|]. destruct (cp <? 65536); discriminate. Qed.
Lemma decode_bad c s : decode_rune (String c s) = rune_error <-> forall cp r, scalar cp -> String c s <> (utf8 cp ++ r)%string.
Proof.
  split.
  - intros D cp r S E. rewrite E, (decode_utf8 cp r S) in D. injection D as D1 D2. pose proof (utf8_len1 cp S D2). lia.
  - intros H. destruct (decode_rune (String c s)) as [r w] eqn:D. destruct (Z.eq_dec r 65533) as [->|Nr].
    + destruct (Nat.eq_dec w 1) as [->|Nw]; [reflexivity|]. exfalso. destruct (decode_sound c s _ _ D) as (S & rest & E); [unfold rune_error; congruence|]. exact (H _ _ S E).
    + exfalso. destruct (decode_sound c s _ _ D) as (S & rest & E); [unfold rune_error; congruence|]. exact (H _ _ S E).
Qed.
Lemma app_cancel (a b c : string) : (a ++ b = a ++ c)%string -> b = c.
Proof. induction a as [|x a IH]; cbn; [auto|]. intros [= E]. auto. Qed.
Lemma utf8_cancel cp cp' r r' : scalar cp -> scalar cp' -> (utf8 cp ++ r = utf8 cp' ++ r')%string -> cp = cp' /\ r = r'.
Proof.
  intros S S' E. pose proof (decode_utf8 cp r S) as D. rewrite E, (decode_utf8 cp' r' S') in D. injection D as -> _. split; [reflexivity|].
  exact (app_cancel _ _ _ E).
Qed.
Lemma utf8_cons cp : exists c u, utf8 cp = String c u.
Proof. unfold utf8. destruct (cp <? 128); [eauto|]. destruct (cp <? 2048); [eauto|]. destruct (cp <? 65536); eauto. Qed.
Lemma clean_fun s t t' : clean s t -> clean s t' -> t = t'.
Proof.
  intros H. revert t'. induction H as [|cp s t S H IH|c s t B H IH]; intros t' H'.
  - inversion H' as [|cp s0 t0 S0 H0 E1|]; [reflexivity|]. destruct (utf8_cons cp) as (c & u & E). rewrite E in E1. discriminate.
  - inversion H' as [E1|cp' s0 t0 S0 H0 E1|c s0 t0 B H0 E1].
    + destruct (utf8_cons cp) as (c & u & E). rewrite E in E1. discriminate.
    + destruct (utf8_cancel _ _ _ _ S0 S E1) as [-> ->]. rewrite (IH _ H0). reflexivity.
    + exfalso. exact (B cp s S E1).
  - inversion H' as [|cp' s0 t0 S0 H0 E1|c' s0 t0 B' H0 E1]; subst.
    + exfalso. exact (B cp' s0 S0 (eq_sym E1)).
    + rewrite (IH _ H0). reflexivity.
Qed.
Lemma clean_total s : exists t, clean s t.
Proof.
  assert (G : forall n s, (slen s <= n)%nat -> exists t, clean s t).
  { induction n as [|n IH]; intros s0 L; destruct s0 as [|c s0]; try (exists ""%string; constructor); [cbn in L; lia|].
    destruct (decode_rune (String c s0)) as [r w] eqn:D. destruct (Z.eq_dec r 65533) as [->|Nr]; [destruct (Nat.eq_dec w 1) as [->|Nw]|].
    - destruct (IH s0) as (t & T); [cbn in L; unfold slen in *; lia|]. exists (utf8 65533 ++ t)%string. constructor; [|exact T]. apply decode_bad, D.
    - destruct (decode_sound c s0 _ _ D) as (S & rest & E); [unfold rune_error; congruence|]. destruct (IH rest) as (t & T).
      + apply (f_equal slen) in E. rewrite slen_app in E. destruct (utf8_cons 65533) as (a & u & U). rewrite U in E. unfold slen in *. cbn [String.length] in *. lia.
      + rewrite E. eexists. apply cl_cp; [exact S|exact T].
    - destruct (decode_sound c s0 _ _ D) as (S & rest & E); [unfold rune_error; congruence|]. destruct (IH rest) as (t & T).
      + apply (f_equal slen) in E. rewrite slen_app in E. destruct (utf8_cons r) as (a & u & U). rewrite U in E. unfold slen in *. cbn [String.length] in *. lia.
      + rewrite E. eexists. apply cl_cp; [exact S|exact T]. }
  exact (G (slen s) s (Nat.le_refl _)).
Qed.
Lemma clean_valid s : valid s -> clean s s.
Proof. induction 1; constructor; auto. Qed.

(** ** Escaping *)
Lemma esc_copy u : forall s, esc_loop (slen u) 0 (u ++ s) = (u ++ esc_loop 0 0 s)%string.
Proof. induction u as [|c u IH]; intros s; [reflexivity|]. cbn [slen String.length append esc_loop]. fold (slen u). rewrite IH. reflexivity. Qed.
Lemma esc_drop u : forall s, esc_loop 0 (slen u) (u ++ s) = esc_loop 0 0 s.
Proof. induction u as [|c u IH]; intros s; [reflexivity|]. cbn [slen String.length append esc_loop]. fold (slen u). apply IH. Qed.
Lemma utf8_single cp : cp < 128 -> utf8 cp = String (chr cp) "".
Proof. intros H. unfold utf8. replace (cp <? 128) with true by lia. reflexivity. Qed.
Lemma utf8_big cp : scalar cp -> 128 <= cp -> exists c u, utf8 cp = String c u /\ 128 <= byte c.
Proof.
  intros S H. unfold scalar in S. unfold utf8. replace (cp <? 128) with false by lia. destruct (Z.ltb_spec cp 2048); [|destruct (Z.ltb_spec cp 65536)]; do 2 eexists; (split; [reflexivity|]);
    rewrite byte_chr; zdiv.
Qed.
Lemma hexchar_val n : 0 <= n < 16 -> hexval (hexchar n) = Some n.
Proof.
  intros H. assert (N : In (Z.to_nat n) (seq 0 16)) by (apply in_seq; lia). rewrite <- (Z2Nat.id n) by lia.
  generalize dependent (Z.to_nat n). clear. intros k N. cbn in N. repeat destruct N as [<-|N]; try reflexivity. contradiction.
Qed.
Lemma esc_ascii_ok c b t : byte c < 128 -> plain_byte c = false -> jstr b t -> jstr (esc_ascii c ++ b) (utf8 (byte c) ++ t).
Proof.
  intros L P H. pose proof (byte_range c) as Bc. unfold esc_ascii.
  destruct (Z.eqb_spec (byte c) 9) as [E|?]; [rewrite E; cbn [append]; apply js_short; [cbn; tauto|exact H]|].
  destruct (Z.eqb_spec (byte c) 13) as [E|?]; [rewrite E; cbn [append]; apply js_short; [cbn; tauto|exact H]|].
  destruct (Z.eqb_spec (byte c) 10) as [E|?]; [rewrite E; cbn [append]; apply js_short; [cbn; tauto|exact H]|].
  destruct (Ascii.eqb_spec c "\"%char) as [->|?]; [cbn [append]; apply (js_short "\" 92); [cbn; tauto|exact H]|].
  destruct (Ascii.eqb_spec c """"%char) as [->|?]; [cbn [append]; apply (js_short """" 34); [cbn; tauto|exact H]|].
  replace (byte c) with (((0 * 16 + 0) * 16 + byte c / 16) * 16 + byte c mod 16) at 3 by zdiv.
  apply (js_hex "0" "0" (hexchar (byte c / 16)) (hexchar (byte c mod 16)) 0 0 (byte c / 16) (byte c mod 16) b t); try reflexivity; try (apply hexchar_val; zdiv); [|exact H].
  unfold scalar. zdiv.
Qed.
Lemma plain_byte_spec c : byte c < 128 -> plain_byte c = true -> 32 <= byte c /\ byte c <> 34 /\ byte c <> 92.
Proof.
  unfold plain_byte. intros L H. apply andb_prop in H as [H1 H2]. split; [lia|]. split; intros E.
  - assert (c = """"%char) by (apply byte_inj; exact E). subst. discriminate.
  - assert (c = "\"%char) by (apply byte_inj; exact E). subst. discriminate.
Qed.
Lemma escape_ok s t : clean s t -> jstr (string_no_quotes s) t.
Proof.
  unfold string_no_quotes. induction 1 as [|cp s t S H IH|c s t B H IH]; [constructor| |].
  - destruct (Z_lt_le_dec cp 128) as [L|L].
    + assert (R : 0 <= cp < 256) by (unfold scalar in S; lia). rewrite (utf8_single cp L). cbn [append esc_loop]. rewrite byte_chr by exact R.
      replace (cp <? 128) with true by lia. destruct (plain_byte (chr cp)) eqn:P.
      * apply plain_byte_spec in P; rewrite byte_chr in * by exact R; try lia. pose proof (js_char cp (esc_loop 0 0 s) t S ltac:(lia) ltac:(lia) ltac:(lia) IH) as J.
        rewrite (utf8_single cp L) in J. exact J.
      * replace (String (chr cp) t) with (utf8 (byte (chr cp)) ++ t)%string by (rewrite byte_chr by exact R; rewrite (utf8_single cp L); reflexivity).
        apply esc_ascii_ok; [rewrite byte_chr by exact R; lia|exact P|exact IH].
    + pose proof (decode_utf8 cp s S) as D. destruct (utf8_big cp S L) as (c & u & U & Hc). rewrite U in *. cbn [append esc_loop] in *.
      replace (byte c <? 128) with false by lia. rewrite D. unfold slen; cbn [String.length].
      replace ((cp =? 65533) && Nat.eqb (Datatypes.S (String.length u)) 1) with false.
      2:{ destruct u; [|symmetry; apply andb_false_r]. exfalso. assert (slen (utf8 cp) = 1%nat) as E1 by (rewrite U; reflexivity). pose proof (utf8_len1 cp S E1). lia. }
      destruct ((cp =? 8232) || (cp =? 8233)) eqn:J.
      * cbn [Nat.sub]. rewrite Nat.sub_0_r. fold (slen u). rewrite esc_drop. replace (String c (u ++ t)) with (utf8 cp ++ t)%string by (rewrite U; reflexivity).
        assert (Cp : cp = ((2 * 16 + 0) * 16 + 2) * 16 + Z.land cp 15 /\ 0 <= Z.land cp 15 < 16).
        { apply orb_prop in J as [J|J]; apply Z.eqb_eq in J; subst; vm_compute; repeat split; discriminate. }
        destruct Cp as [Cp Rg]. rewrite Cp at 2.
        apply (js_hex "2" "0" "2" (hexchar (Z.land cp 15)) 2 0 2 (Z.land cp 15)); try reflexivity; [apply hexchar_val, Rg|rewrite <- Cp; exact S|exact IH].
      * cbn [Nat.sub]. rewrite Nat.sub_0_r. fold (slen u). rewrite esc_copy.
        pose proof (js_char cp (esc_loop 0 0 s) t S ltac:(lia) ltac:(lia) ltac:(lia) IH) as Q. rewrite U in Q. exact Q.
  - assert (L : 128 <= byte c).
    { destruct (Z_lt_le_dec (byte c) 128) as [L|L]; [|exact L]. exfalso. apply (B (byte c) s); [pose proof (byte_range c); unfold scalar; lia|].
      rewrite (utf8_single _ L), chr_byte. reflexivity. }
    cbn [esc_loop]. replace (byte c <? 128) with false by lia. rewrite (proj2 (decode_bad c s) B). unfold rune_error. cbn [Z.eqb Nat.eqb andb].
    change 65533 with ((((15 * 16 + 15) * 16 + 15) * 16 + 13)) at 2.
    apply (js_hex "f" "f" "f" "d" 15 15 15 13); try reflexivity; [unfold scalar; lia|exact IH].
Qed.

(** * Property C115: how the texts in policies, records and configurations are read. *)
From Coq Require Import Lia.
From Verif Require Import GoBase GoFacts SpecStrings PolicyFacts SpecWords WordFacts.
Local Open Scope string_scope.

(** C115.  The elementary readings of texts that the other properties speak of are the ones of [SpecWords], for every text.
    A text stands for a number exactly if it is made of digits, with or without a sign, and the number has 64 bits. *)
Theorem C115_integer : forall s z, parse_int64 s = Some z <-> for_integer s z.
Proof. exact integer_iff. Qed.
(** Numbers are written without leading zeros, and what is written is read back. *)
Theorem C115_written : forall z, usual z (format_int z) /\ ((- 2 ^ 63 <= z < 2 ^ 63)%Z -> for_integer (format_int z) z).
Proof. intros z. split; [apply usual_ok|]. intros H. apply integer_iff, parse_format_int, in_int64_range, H. Qed.
(** Six words for each truth value, no others. *)
Theorem C115_truth : forall s, (parse_bool s = Some true <-> In s ["1"; "t"; "T"; "TRUE"; "true"; "True"]) /\
  (parse_bool s = Some false <-> In s ["0"; "f"; "F"; "FALSE"; "false"; "False"]) /\
  (forall b, In (format_bool b) ["true"; "false"] /\ parse_bool (format_bool b) = Some b).
Proof.
  intros s. unfold parse_bool.
  assert (A : forall l, existsb (seqb s) l = true <-> In s l).
  { intros l. rewrite existsb_exists. split; [intros (x & Hx & E); apply seqb_eq in E; now subst|]. intros H. exists s. split; [exact H|apply seqb_refl]. }
  pose proof (A ["1"; "t"; "T"; "TRUE"; "true"; "True"]) as A1. pose proof (A ["0"; "f"; "F"; "FALSE"; "false"; "False"]) as A2.
  split; [|split].
  - rewrite <- A1. destruct (existsb (seqb s) ["1"; "t"; "T"; "TRUE"; "true"; "True"]); [tauto|]. destruct (existsb (seqb s) ["0"; "f"; "F"; "FALSE"; "false"; "False"]); split; discriminate.
  - rewrite <- A2. destruct (existsb (seqb s) ["1"; "t"; "T"; "TRUE"; "true"; "True"]) eqn:E.
    + split; [discriminate|]. intros H. apply A2 in H. apply (proj1 (A _)) in E. exfalso. cbn in E, H. intuition (subst; discriminate).
    + destruct (existsb (seqb s) ["0"; "f"; "F"; "FALSE"; "false"; "False"]); split; (reflexivity || discriminate).
  - intros []; cbn; auto.
Qed.
(** The white space around a text, and only that, is taken away. *)
Theorem C115_trimmed : forall s t, trim_space s = t <-> trimmed s t.
Proof. intros s t. split; [intros <-; apply trimmed_ok|]. apply trimmed_fun. Qed.
(** One quote at the beginning and one at the end are taken away. *)
Theorem C115_unquoted : forall s t, trim_bounding_quotes s = t <-> unquoted s t.
Proof. intros s t. split; [intros <-; apply unquoted_ok|]. intros H. exact (unquoted_fun s _ _ (unquoted_ok s) H). Qed.
(** Capital letters (of ASCII) become small ones, everything else stays; texts are equal up to case iff their small forms are. *)
Theorem C115_small : forall s t, (to_lower s = t <-> in_small s t) /\ (equal_fold s t = true <-> ci s t).
Proof.
  intros s t. split; [split; [intros <-; apply in_small_ok|intros H; exact (in_small_fun s _ (in_small_ok s) _ H)]|]. unfold equal_fold. rewrite seqb_eq. apply to_lower_ci.
Qed.
(** Splitting gives the pieces between the separators; joining puts the separator between the pieces. *)
Theorem C115_lists : forall c s l, (split_on c s = l <-> Forall (free_of c) l /\ glued (String c "") l s) /\
  (forall sep t, glued sep l t <-> l <> [] /\ join sep l = t) /\ (forall sep, join sep [] = "").
Proof.
  intros c s l. split; [apply split_iff|]. split; [|reflexivity]. intros sep t. split.
  - intros H. destruct (glued_fun _ _ _ H) as [N ->]. auto.
  - intros [N <-]. now apply join_glued.
Qed.
(** The first occurrence of a character cuts a text in two. *)
Theorem C115_cut : forall c s, (forall b a, cut_at c s = Some (b, a) <-> free_of c b /\ s = b ++ String c a) /\ (cut_at c s = None <-> free_of c s).
Proof.
  intros c s. split; [|rewrite cut_at_none, free_iff; tauto]. intros b a. rewrite cut_at_spec, free_iff. tauto.
Qed.
(** Prefixes, suffixes, parts. *)
Theorem C115_parts : forall s p, (has_prefix s p = true <-> exists t, s = p ++ t) /\ (has_suffix s p = true <-> exists t, s = t ++ p) /\
  (contains s p = true <-> exists a b, s = a ++ p ++ b) /\ (seqb s p = true <-> s = p).
Proof. intros s p. split; [apply has_prefix_iff|]. split; [apply has_suffix_iff|]. split; [apply contains_iff|apply seqb_eq]. Qed.
(** Maps: setting and deleting a key affects this key only. *)
Theorem C115_maps : forall (V : Type) k k' (v : V) m,
  mget k (mset k v m) = Some v /\ (k <> k' -> mget k (mset k' v m) = mget k m) /\ mget k (mdel k m) = None /\ (k <> k' -> mget k (mdel k' m) = mget k m) /\
  mhas k m = match mget k m with Some _ => true | None => false end /\ mget k (@nil (string * V)) = None.
Proof.
  intros V k k' v m. split; [apply mget_mset_eq|]. split; [apply mget_mset_ne|]. rewrite !mget_mdel, seqb_refl. split; [reflexivity|].
  split; [|split; reflexivity]. intros N. apply seqb_neq in N. now rewrite N.
Qed.
(** Conversions to 64 and 32 bits keep the number modulo the range. *)
Theorem C115_wrapped : forall z, ((- 2 ^ 63 <= wrap64 z < 2 ^ 63) /\ (exists k, wrap64 z = z + k * 2 ^ 64) /\ (- 2 ^ 31 <= wrap32 z < 2 ^ 31) /\ (exists k, wrap32 z = z + k * 2 ^ 32))%Z.
Proof.
  intros z. unfold wrap64, wrap32. change (2 ^ 63)%Z with 9223372036854775808%Z. change (2 ^ 64)%Z with 18446744073709551616%Z. change (2 ^ 31)%Z with 2147483648%Z. change (2 ^ 32)%Z with 4294967296%Z.
  pose proof (Z.mod_pos_bound (z + 9223372036854775808) 18446744073709551616 ltac:(lia)). pose proof (Z.mod_pos_bound (z + 2147483648) 4294967296 ltac:(lia)).
  split; [lia|]. split; [exists (- ((z + 9223372036854775808) / 18446744073709551616))%Z; rewrite Z.mod_eq by lia; lia|]. split; [lia|].
  exists (- ((z + 2147483648) / 4294967296))%Z. rewrite Z.mod_eq by lia. lia.
Qed.
Print Assumptions C115_integer.
Print Assumptions C115_written.
Print Assumptions C115_truth.
Print Assumptions C115_trimmed.
Print Assumptions C115_unquoted.
Print Assumptions C115_small.
Print Assumptions C115_lists.
Print Assumptions C115_cut.
Print Assumptions C115_parts.
Print Assumptions C115_maps.
Print Assumptions C115_wrapped.

(** A no-break space and an ideographic one go, a zero-width one stays. *)
Example C115_spaces : let z := SpecWhite.utf8 in trimmed (z 160 ++ z 12288 ++ " a" ++ z 160 ++ "b" ++ z 8195 ++ z 10)%N ("a" ++ z 160 ++ "b")%N /\
  trimmed (z 8203)%N (z 8203)%N.
Proof. cbv zeta. split; apply C115_trimmed; vm_compute; reflexivity. Qed.
(** Cases: a number at the edge and one beyond it; quotes of both kinds. *)
Example C115_case : for_integer "-9223372036854775808" (- 2 ^ 63) /\ (forall z, ~ for_integer "9223372036854775808" z) /\ (forall z, ~ for_integer "-" z) /\
  for_integer "+007" 7 /\ trimmed "	 a b " "a b" /\ unquoted """'a'" "'a" /\ in_small "A-Z" "a-z".
Proof.
  split; [apply C115_integer; vm_compute; reflexivity|]. split; [intros z H; apply C115_integer in H; vm_compute in H; discriminate|].
  split; [intros z H; apply C115_integer in H; vm_compute in H; discriminate|]. split; [apply C115_integer; vm_compute; reflexivity|].
  split; [apply C115_trimmed; vm_compute; reflexivity|]. split; [apply C115_unquoted; vm_compute; reflexivity|]. apply C115_small. vm_compute. reflexivity.
Qed.

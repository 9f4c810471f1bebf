(** * TimeFacts2: digits, and what time stamps say. *)
From Coq Require Import Lia ZifyBool.
From Verif Require Import GoBase GoFacts TimeModel SpecTime TimeFacts.
Open Scope Z_scope.

Lemma pow10_succ n : 10 ^ Z.of_nat (S n) = 10 * 10 ^ Z.of_nat n.
Proof. rewrite Nat2Z.inj_succ, Z.pow_succ_r by lia. reflexivity. Qed.
Lemma digit_char v : 0 <= v <= 9 -> digit_value (ascii_of_nat (Z.to_nat (48 + v))) = Some v.
Proof.
  intros B. unfold digit_value. rewrite nat_ascii_embedding by lia. rewrite Z2Nat.id by lia.
  destruct (Z.leb_spec 48 (48 + v)), (Z.leb_spec (48 + v) 57); try lia. cbn [andb]. f_equal. lia.
Qed.
Lemma digit_range c v : digit_value c = Some v -> 0 <= v <= 9.
Proof. unfold digit_value. destruct (Z.leb_spec 48 (Z.of_nat (nat_of_ascii c))), (Z.leb_spec (Z.of_nat (nat_of_ascii c)) 57); cbn [andb]; try discriminate. intros [= <-]. lia. Qed.
Lemma decimal_app s : forall acc t, decimal acc (s ++ t) = match decimal acc s with Some a => decimal a t | None => None end.
Proof. induction s as [|c s IH]; intros acc t; [reflexivity|]. cbn [append decimal]. destruct (digit_value c); [apply IH|reflexivity]. Qed.
Lemma digits_ok w : forall z, 0 <= z < 10 ^ Z.of_nat w -> number w (digits w z) z.
Proof.
  induction w as [|w IH]; intros z B.
  - change (10 ^ Z.of_nat 0) with 1 in B. assert (z = 0) by lia. subst z. split; reflexivity.
  - rewrite pow10_succ in B. destruct (IH (z / 10)) as [L D].
    { split; [apply Z.div_pos; lia|]. apply Z.div_lt_upper_bound; lia. }
    assert (M : 0 <= z mod 10 <= 9) by (pose proof (Z.mod_pos_bound z 10 ltac:(lia)); lia).
    cbn [digits]. split; [rewrite slen_app, L; cbn; lia|]. rewrite decimal_app, D. cbn [decimal]. rewrite (digit_char _ M). f_equal. pose proof (Z.div_mod z 10 ltac:(lia)). lia.
Qed.
Lemma trim_ok s : forall acc z, decimal acc s = Some z -> exists z', decimal acc (trim_zeros s) = Some z' /\ (slen (trim_zeros s) <= slen s)%nat /\
  z = z' * 10 ^ Z.of_nat (slen s - slen (trim_zeros s)).
Proof.
  unfold slen in *.   induction s as [|c s IH]; intros acc z D; cbn [trim_zeros].
  - exists z. split; [exact D|]. split; [lia|]. cbn. lia.
  - cbn [decimal] in D. destruct (digit_value c) as [v|] eqn:V; [|discriminate]. destruct (IH _ _ D) as (z' & D' & L & Ez). destruct (trim_zeros s) as [|c' t] eqn:T.
    + cbn [decimal] in D'. assert (Q : z' = 10 * acc + v) by congruence. subst z'. clear D'. cbn [slen String.length] in Ez. rewrite Nat.sub_0_r in Ez. destruct (Ascii.eqb_spec c "0"%char) as [-> |N].
      * exists acc. split; [reflexivity|]. split; [cbn; lia|]. cbn [String.length]. rewrite Nat.sub_0_r, pow10_succ. cbv in V. injection V as <-. rewrite Ez. ring.
      * exists (10 * acc + v). split; [cbn [decimal]; rewrite V; reflexivity|]. split; [cbn; lia|]. cbn [String.length]. rewrite Nat.sub_succ, Nat.sub_0_r. exact Ez.
    + exists z'. split; [cbn [decimal] in *; rewrite V; exact D'|]. split; [cbn [String.length] in *; lia|]. cbn [String.length] in *. rewrite Nat.sub_succ. exact Ez.
Qed.
Lemma nano_ok ns : 0 <= ns < 1000000000 -> fraction (format_nano ns) ns.
Proof.
  intros B. destruct (digits_ok 9 ns B) as [L D]. destruct (trim_ok _ _ _ D) as (z' & D' & L' & Ez). rewrite L in L', Ez. unfold format_nano. destruct (trim_zeros (digits 9 ns)) as [|c t] eqn:T.
  - cbn [decimal] in D'. injection D' as <-. rewrite Z.mul_0_l in Ez. subst ns. constructor.
  - set (u := String c t) in *. assert (Lu : (0 < slen u)%nat) by (cbn; lia).
    replace ns with (z' * 10 ^ (9 - Z.of_nat (slen u))); [|rewrite Ez at 1; f_equal; f_equal; lia]. apply fr_some; [split; [reflexivity|exact D']|lia].
Qed.
Lemma unix_ok ts : go_unix (Z.quot ts 1000000000) (Z.rem ts 1000000000) = (ts / 1000000000, ts mod 1000000000).
Proof.
  set (b := 1000000000). assert (Hb : 0 < b) by (unfold b; lia). unfold go_unix. fold b.
  pose proof (Z.quot_rem' ts b) as Q. pose proof (Z.rem_bound_abs ts b ltac:(lia)) as R. rewrite (Z.abs_eq b) in R by lia.
  pose proof (Z.div_mod ts b ltac:(lia)) as D. pose proof (Z.mod_pos_bound ts b Hb) as M.
  assert (Q0 : Z.quot (Z.rem ts b) b = 0) by (apply Z.quot_small_iff; lia).
  destruct (Z.ltb_spec (Z.rem ts b) 0) as [N|N]; cbn [orb].
  - rewrite Q0, Z.mul_0_l, Z.sub_0_r, Z.add_0_r. destruct (Z.ltb_spec (Z.rem ts b) 0); [|lia].
    assert (U : ts / b = Z.quot ts b - 1) by (symmetry; apply Z.div_unique with (Z.rem ts b + b); lia).
    rewrite U in D. rewrite U. f_equal. lia.
  - destruct (Z.leb_spec b (Z.rem ts b)) as [K|K]; [lia|].
    assert (U : ts / b = Z.quot ts b) by (symmetry; apply Z.div_unique with (Z.rem ts b); lia).
    rewrite U in D. rewrite U. f_equal. lia.
Qed.
(** The years of 64 bit nanoseconds. *)
Lemma year_range day : - 106752 <= day <= 106751 -> let '(y, m, d) := civil day in 1677 <= y <= 2262.
Proof.
  intros B. destruct (civil_ok day) as [V E]. pose proof (vdate_year _ V) as Y. destruct (civil day) as [[y m] d]. cbn [dayno] in E.
  assert (S1 : ystart 1677 <= 612410) by (apply Z.leb_le; reflexivity). assert (S2 : 825914 <= ystart 2263) by (apply Z.leb_le; reflexivity). pose proof (ystart_next y) as N.
  split.
  - destruct (Z_le_gt_dec 1677 y) as [L|L]; [exact L|]. pose proof (ystart_mono (y + 1) 1677 ltac:(lia)). lia.
  - destruct (Z_le_gt_dec y 2262) as [L|L]; [exact L|]. pose proof (ystart_mono 2263 y ltac:(lia)). lia.
Qed.
Lemma day_range ts : - 2 ^ 63 <= ts < 2 ^ 63 -> - 106752 <= ts / 1000000000 / 86400 <= 106751.
Proof. intros B. rewrite Z.div_div by lia. split; [apply Z.div_le_lower_bound; lia|]. apply Z.lt_succ_r, Z.div_lt_upper_bound; lia. Qed.
Lemma time_says ts : - 2 ^ 63 <= ts < 2 ^ 63 -> says (to_iso_time_str ts) ts.
Proof.
  intros B. unfold to_iso_time_str, go_time. rewrite unix_ok. set (sec := ts / 1000000000). set (ns := ts mod 1000000000).
  assert (Hn : 0 <= ns < 1000000000) by (apply Z.mod_pos_bound; lia).
  set (day := sec / 86400). set (r := sec mod 86400). assert (Hr : 0 <= r < 86400) by (apply Z.mod_pos_bound; lia).
  pose proof (year_range day (day_range ts B)) as Y. destruct (civil_ok day) as [V _]. pose proof (civil_is_date day) as D. destruct (civil day) as [[y m] d]. destruct V as [Vm Vd].
  pose proof (mlen_bounds (is_leap y) m) as Lm.
  assert (H1 : 0 <= r / 3600 < 24) by (split; [apply Z.div_pos; lia|apply Z.div_lt_upper_bound; lia]).
  assert (M1 : 0 <= r mod 3600 < 3600) by (apply Z.mod_pos_bound; lia).
  assert (H2 : 0 <= r mod 3600 / 60 < 60) by (split; [apply Z.div_pos; lia|apply Z.div_lt_upper_bound; lia]).
  assert (H3 : 0 <= r mod 60 < 60) by (apply Z.mod_pos_bound; lia).
  exists (digits 4 y), (digits 2 m), (digits 2 d), (digits 2 (r / 3600)), (digits 2 (r mod 3600 / 60)), (digits 2 (r mod 60)), (format_nano ns), y, m, d, (r / 3600), (r mod 3600 / 60), (r mod 60), ns, day.
  split; [reflexivity|]. split; [apply digits_ok; cbn; lia|]. do 5 (split; [apply digits_ok; cbn; lia|]). split; [apply nano_ok; exact Hn|]. split; [exact D|]. repeat (split; [lia|]).
  pose proof (Z.div_mod ts 1000000000 ltac:(lia)) as T. fold sec ns in T. pose proof (Z.div_mod sec 86400 ltac:(lia)) as S. fold day r in S.
  pose proof (Z.div_mod r 3600 ltac:(lia)) as R1. pose proof (Z.div_mod (r mod 3600) 60 ltac:(lia)) as R2.
  assert (R3 : r mod 3600 mod 60 = r mod 60) by (clear; symmetry; apply Znumtheory.Zmod_div_mod; [lia|lia|exists 60; reflexivity]).
  rewrite R3 in R2. lia.
Qed.

(** ** Reading *)
Lemma app_split a : forall b x y, slen a = slen b -> (a ++ x = b ++ y)%string -> a = b /\ x = y.
Proof.
  induction a as [|c a IH]; intros [|c' b] x y L E; try discriminate; [auto|]. cbn [append] in E. injection E as -> E. destruct (IH b x y) as [-> ->]; auto.
Qed.
Lemma app_split_r a b x y : slen x = slen y -> (a ++ x = b ++ y)%string -> a = b /\ x = y.
Proof.
  intros L E. apply app_split; [|exact E]. apply (f_equal slen) in E. rewrite !slen_app in E. lia.
Qed.
Lemma number_fun w s z w' z' : number w s z -> number w' s z' -> z = z'.
Proof. intros [_ A] [_ B]. congruence. Qed.
Lemma fraction_fun s z z' : fraction s z -> fraction s z' -> z = z'.
Proof.
  intros F G. inversion F as [E1 E2|u k v N B E1 E2]; inversion G as [E3 E4|u' k' v' N' B' E3 E4]; subst; try discriminate; [reflexivity|].
  injection E3 as ->. destruct N as [L D], N' as [L' D']. subst k k'. congruence.
Qed.
Lemma says_fun s ts ts' : says s ts -> says s ts' -> ts = ts'.
Proof.
  intros (sy & sm & sd & sh & si & ss & sf & y & m & d & h & i & sec & ns & day & E & Ny & Nm & Nd & Nh & Ni & Ns & Nf & D & _ & _ & _ & ->)
         (sy' & sm' & sd' & sh' & si' & ss' & sf' & y' & m' & d' & h' & i' & sec' & ns' & day' & E' & Ny' & Nm' & Nd' & Nh' & Ni' & Ns' & Nf' & D' & _ & _ & _ & ->).
  rewrite E in E'. clear E.
  apply app_split in E' as [<- E']; [|rewrite (proj1 Ny), (proj1 Ny'); reflexivity]. injection E' as E'.
  apply app_split in E' as [<- E']; [|rewrite (proj1 Nm), (proj1 Nm'); reflexivity]. injection E' as E'.
  apply app_split in E' as [<- E']; [|rewrite (proj1 Nd), (proj1 Nd'); reflexivity]. injection E' as E'.
  apply app_split in E' as [<- E']; [|rewrite (proj1 Nh), (proj1 Nh'); reflexivity]. injection E' as E'.
  apply app_split in E' as [<- E']; [|rewrite (proj1 Ni), (proj1 Ni'); reflexivity]. injection E' as E'.
  apply app_split in E' as [<- E']; [|rewrite (proj1 Ns), (proj1 Ns'); reflexivity].
  apply app_split_r in E' as [<- _]; [|reflexivity].
  rewrite <- (number_fun _ _ _ _ _ Ny Ny'), <- (number_fun _ _ _ _ _ Nm Nm'), <- (number_fun _ _ _ _ _ Nd Nd') in D'.
  rewrite (number_fun _ _ _ _ _ Nh Nh'), (number_fun _ _ _ _ _ Ni Ni'), (number_fun _ _ _ _ _ Ns Ns'), (fraction_fun _ _ _ Nf Nf').
  destruct (is_date_no _ _ D) as [_ Q]. destruct (is_date_no _ _ D') as [_ Q']. assert (day = day') by congruence. subst. reflexivity.
Qed.
(** ** Order *)
Lemma cmp_app a : forall b x y, slen a = slen b -> String.compare (a ++ x) (b ++ y) = match String.compare a b with Eq => String.compare x y | c => c end.
Proof.
  induction a as [|c a IH]; intros [|c' b] x y L; try discriminate; [reflexivity|]. cbn [append String.compare]. destruct (Ascii.compare c c'); [apply IH; injection L; auto|reflexivity|reflexivity].
Qed.
Lemma cmp_refl a : String.compare a a = Eq.
Proof. induction a as [|c a IH]; [reflexivity|]. cbn [String.compare]. unfold Ascii.compare. rewrite N.compare_refl. exact IH. Qed.
Lemma decimal_bounds s : forall acc z, decimal acc s = Some z -> acc * 10 ^ Z.of_nat (slen s) <= z < (acc + 1) * 10 ^ Z.of_nat (slen s).
Proof.
  unfold slen in *.   induction s as [|c s IH]; intros acc z D.
  - injection D as <-. cbn. lia.
  - cbn [decimal] in D. destruct (digit_value c) as [v|] eqn:V; [|discriminate]. apply digit_range in V. apply IH in D. cbn [String.length]. rewrite pow10_succ.
    pose proof (Z.pow_pos_nonneg 10 (Z.of_nat (slen s)) ltac:(lia) ltac:(lia)). nia.
Qed.
Lemma decimal_cmp s : forall s' acc z z', slen s = slen s' -> decimal acc s = Some z -> decimal acc s' = Some z' -> z < z' -> String.compare s s' = Lt.
Proof.
  induction s as [|c s IH]; intros [|c' s'] acc z z' L D D' Q; try discriminate; [injection D as <-; injection D' as <-; lia|].
  cbn [decimal] in D, D'. destruct (digit_value c) as [v|] eqn:V; [|discriminate]. destruct (digit_value c') as [v'|] eqn:V'; [|discriminate]. injection L as L.
  pose proof (decimal_bounds _ _ _ D) as B. pose proof (decimal_bounds _ _ _ D') as B'. rewrite L in B. pose proof (Z.pow_pos_nonneg 10 (Z.of_nat (slen s')) ltac:(lia) ltac:(lia)) as P.
  assert (VV : v <= v') by nia. clear B B' P.
  assert (C : v = Z.of_nat (nat_of_ascii c) - 48 /\ v' = Z.of_nat (nat_of_ascii c') - 48).
  { unfold digit_value in V, V'. destruct (_ && _) in V; [|discriminate]. destruct (_ && _) in V'; [|discriminate]. injection V as <-. injection V' as <-. auto. }
  cbn [String.compare]. unfold Ascii.compare. unfold nat_of_ascii in C. destruct (N.compare_spec (N_of_ascii c) (N_of_ascii c')) as [E|E|E].
  - assert (v = v') by (rewrite (proj1 C), (proj2 C), E; reflexivity). subst v'. apply (IH s' (10 * acc + v) z z' L); auto.
  - reflexivity.
  - lia.
Qed.
Lemma number_cmp w s s' z z' : number w s z -> number w s' z' -> z < z' -> String.compare s s' = Lt.
Proof. intros [L D] [L' D']. apply decimal_cmp with 0; congruence. Qed.
Lemma dayno_lt t t' : vdate t -> vdate t' -> dayno t < dayno t' -> let '(y, m, d) := t in let '(y', m', d') := t' in y < y' \/ (y = y' /\ (m < m' \/ (m = m' /\ d < d'))).
Proof.
  intros V V' E. pose proof (vdate_year t V) as Y. pose proof (vdate_year t' V') as Y'. destruct t as [[y m] d], t' as [[y' m'] d']. cbn [dayno] in E. destruct V as [Bm Bd], V' as [Bm' Bd'].
  destruct (Z.lt_trichotomy y y') as [L|[<- |L]]; [auto| |].
  - right. split; [reflexivity|]. destruct (Z.lt_trichotomy m m') as [L|[<- |L]]; [auto| |].
    + right. split; [reflexivity|]. lia.
    + pose proof (mstart_mono (is_leap y) (m' + 1) m ltac:(lia) ltac:(lia)) as M. rewrite mstart_next in M by lia. lia.
  - pose proof (ystart_mono (y' + 1) y ltac:(lia)) as M. rewrite ystart_next in M. lia.
Qed.
Lemma digits_cmp w a b x y : 0 <= a < 10 ^ Z.of_nat w -> 0 <= b < 10 ^ Z.of_nat w -> (a < b \/ a = b /\ String.compare x y = Lt) -> String.compare (digits w a ++ x) (digits w b ++ y) = Lt.
Proof.
  intros A B H. destruct (digits_ok w a A) as [L D]. destruct (digits_ok w b B) as [L' D']. rewrite cmp_app by congruence. destruct H as [H|[<- H]].
  - rewrite (number_cmp w _ _ a b); [reflexivity|split; auto|split; auto|exact H].
  - rewrite cmp_refl. exact H.
Qed.
Lemma sep_cmp c x y : String.compare x y = Lt -> String.compare (String c "" ++ x) (String c "" ++ y) = Lt.
Proof. intros H. cbn [append String.compare]. unfold Ascii.compare. rewrite N.compare_refl. exact H. Qed.
Lemma time_order ts ts' : - 2 ^ 63 <= ts < 2 ^ 63 -> - 2 ^ 63 <= ts' < 2 ^ 63 -> ts / 1000000000 < ts' / 1000000000 ->
  String.compare (to_iso_time_str ts) (to_iso_time_str ts') = Lt.
Proof.
  intros B B' Q. unfold to_iso_time_str, go_time. rewrite !unix_ok. generalize (format_nano (ts mod 1000000000) ++ "Z")%string (format_nano (ts' mod 1000000000) ++ "Z")%string. intros fa fb.
  pose proof (day_range ts B) as R. pose proof (day_range ts' B') as R'. revert Q R R'. generalize (ts / 1000000000) (ts' / 1000000000). clear. intros a b Q R R'.
  pose proof (year_range _ R) as Y. pose proof (year_range _ R') as Y'. destruct (civil_ok (a / 86400)) as [V E]. destruct (civil_ok (b / 86400)) as [V' E'].
  assert (O : a / 86400 < b / 86400 \/ a / 86400 = b / 86400 /\ a mod 86400 < b mod 86400).
  { pose proof (Z.div_le_mono a b 86400 ltac:(lia) ltac:(lia)). destruct (Z.eq_dec (a / 86400) (b / 86400)) as [Eq|N]; [right|left; lia]. split; [exact Eq|].
    pose proof (Z.div_mod a 86400 ltac:(lia)). pose proof (Z.div_mod b 86400 ltac:(lia)). lia. }
  pose proof (Z.mod_pos_bound a 86400 ltac:(lia)) as Ma. pose proof (Z.mod_pos_bound b 86400 ltac:(lia)) as Mb. revert Ma Mb O. generalize (a mod 86400) (b mod 86400). intros ra rb Ma Mb O.
  assert (Bounds : forall r, 0 <= r < 86400 -> 0 <= r / 3600 < 24 /\ 0 <= r mod 3600 < 3600 /\ 0 <= r mod 3600 / 60 < 60 /\ 0 <= r mod 60 < 60).
  { intros r Hr. repeat split; try (apply Z.mod_pos_bound; lia); try (apply Z.div_pos; [|lia]); try (apply Z.div_lt_upper_bound; [lia|]); try lia; pose proof (Z.mod_pos_bound r 3600 ltac:(lia)); lia. }
  destruct (Bounds ra Ma) as (Ha & Xa & Ia & Sa). destruct (Bounds rb Mb) as (Hb & Xb & Ib & Sb).
  destruct O as [O|[O Or]].
  - rewrite <- E, <- E' in O. pose proof (dayno_lt _ _ V V' O) as G. destruct (civil (a / 86400)) as [[y m] d], (civil (b / 86400)) as [[y' m'] d']. destruct V as [Vm Vd], V' as [Vm' Vd'].
    pose proof (mlen_bounds (is_leap y) m). pose proof (mlen_bounds (is_leap y') m').
    apply digits_cmp; [cbn; lia|cbn; lia|]. destruct G as [G|[G1 G]]; [left; exact G|right; split; [exact G1|]]. apply sep_cmp.
    apply digits_cmp; [cbn; lia|cbn; lia|]. destruct G as [G|[G2 G]]; [left; exact G|right; split; [exact G2|]]. apply sep_cmp.
    apply digits_cmp; [cbn; lia|cbn; lia|]. left. exact G.
  - rewrite <- O. destruct (civil (a / 86400)) as [[y m] d]. destruct V as [Vm Vd]. pose proof (mlen_bounds (is_leap y) m).
    apply digits_cmp; [cbn; lia|cbn; lia|]. right. split; [reflexivity|]. apply sep_cmp.
    apply digits_cmp; [cbn; lia|cbn; lia|]. right. split; [reflexivity|]. apply sep_cmp.
    apply digits_cmp; [cbn; lia|cbn; lia|]. right. split; [reflexivity|]. apply sep_cmp.
    assert (T : forall r, 0 <= r -> r = 3600 * (r / 3600) + 60 * (r mod 3600 / 60) + r mod 60).
    { intros r Hr. pose proof (Z.div_mod r 3600 ltac:(lia)) as R1. pose proof (Z.div_mod (r mod 3600) 60 ltac:(lia)) as R2.
      assert (R3 : r mod 3600 mod 60 = r mod 60) by (clear; symmetry; apply Znumtheory.Zmod_div_mod; [lia|lia|exists 60; reflexivity]). rewrite R3 in R2. lia. }
    pose proof (T ra ltac:(lia)) as Ta. pose proof (T rb ltac:(lia)) as Tb.
    assert (G : ra / 3600 < rb / 3600 \/ ra / 3600 = rb / 3600 /\ (ra mod 3600 / 60 < rb mod 3600 / 60 \/ ra mod 3600 / 60 = rb mod 3600 / 60 /\ ra mod 60 < rb mod 60)) by lia.
    apply digits_cmp; [cbn; lia|cbn; lia|]. destruct G as [G|[G1 G]]; [left; exact G|right; split; [exact G1|]]. apply sep_cmp.
    apply digits_cmp; [cbn; lia|cbn; lia|]. destruct G as [G|[G2 G]]; [left; exact G|right; split; [exact G2|]]. apply sep_cmp.
    apply digits_cmp; [cbn; lia|cbn; lia|]. left. exact G.
Qed.

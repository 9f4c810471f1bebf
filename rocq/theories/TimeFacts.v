(** * TimeFacts: the calendar arithmetic of package time is the Gregorian calendar; time stamps say their time. *)
From Coq Require Import Lia ZifyBool.
From Verif Require Import GoBase GoFacts TimeModel SpecTime.
Open Scope Z_scope.

Ltac ediv := Z.to_euclidean_division_equations; lia.
(** ** Years *)
Definition ystart (y : Z) : Z := 365 * (y - 1) + (y - 1) / 4 - (y - 1) / 100 + (y - 1) / 400.
Definition ylen (y : Z) : Z := if is_leap y then 366 else 365.
Lemma ystart_next y : ystart (y + 1) = ystart y + ylen y.
Proof.
  unfold ystart, ylen, is_leap. replace (y + 1 - 1) with y by lia.
  assert (A : forall k, 0 < k -> y / k = (y - 1) / k + (if y mod k =? 0 then 1 else 0)).
  { intros k Hk. pose proof (Z.div_mod y k ltac:(lia)) as Q. pose proof (Z.mod_pos_bound y k Hk) as R. destruct (Z.eqb_spec (y mod k) 0) as [E|E].
    - assert ((y - 1) / k = y / k - 1); [|lia]. symmetry. apply Z.div_unique with (k - 1); [lia|]. rewrite Z.mul_sub_distr_l. lia.
    - assert ((y - 1) / k = y / k); [|lia]. symmetry. apply Z.div_unique with (y mod k - 1); lia. }
  rewrite (A 4), (A 100), (A 400) by lia.
  assert (B : y mod 400 = 0 -> y mod 100 = 0) by (intros; ediv). assert (C : y mod 100 = 0 -> y mod 4 = 0) by (intros; ediv).
  destruct (Z.eqb_spec (y mod 4) 0), (Z.eqb_spec (y mod 100) 0), (Z.eqb_spec (y mod 400) 0); cbn [andb orb negb]; lia.
Qed.
Lemma ylen_bounds y : 365 <= ylen y <= 366.
Proof. unfold ylen. destruct (is_leap y); lia. Qed.
Lemma ystart_mono a b : a <= b -> ystart a <= ystart b.
Proof.
  intros H. rewrite <- (Zplus_minus a b). remember (b - a) as k eqn:E. assert (0 <= k) by lia. clear E H. revert k H0. apply natlike_ind; [rewrite Z.add_0_r; lia|].
  intros k Hk IH. replace (a + Z.succ k) with (a + k + 1) by lia. rewrite ystart_next. pose proof (ylen_bounds (a + k)). lia.
Qed.
Lemma year_unique d y y' a a' : d = ystart y + a -> 0 <= a < ylen y -> d = ystart y' + a' -> 0 <= a' < ylen y' -> y = y' /\ a = a'.
Proof.
  intros E B E' B'. assert (y = y'); [|subst; lia].
  destruct (Z.lt_trichotomy y y') as [L|[L|L]]; [|exact L|].
  - pose proof (ystart_mono (y + 1) y' ltac:(lia)) as M. rewrite ystart_next in M. lia.
  - pose proof (ystart_mono (y' + 1) y ltac:(lia)) as M. rewrite ystart_next in M. lia.
Qed.
Lemma year_yday_ok d : let (y, a) := year_yday d in d = ystart y + a /\ 0 <= a < ylen y.
Proof.
  unfold year_yday. set (q := d / 146097). set (r := d - 146097 * q).
  assert (Hr : 0 <= r < 146097) by (unfold r, q; ediv).
  set (c := r / 36524 - r / 36524 / 4). set (r2 := r - 36524 * c).
  assert (Hc : 0 <= c <= 3 /\ 0 <= r2 <= 36524 /\ (r2 = 36524 -> c = 3)) by (unfold r2, c; ediv).
  set (b := r2 / 1461). set (r3 := r2 - 1461 * b).
  assert (Hb : 0 <= b <= 24 /\ 0 <= r3 <= 1460 /\ (b = 24 -> r3 <= 1460) /\ (b = 24 -> r3 = 1460 -> c = 3)) by (unfold r3, b; ediv).
  set (a := r3 / 365 - r3 / 365 / 4). set (yd := r3 - 365 * a).
  assert (Ha : 0 <= a <= 3 /\ 0 <= yd <= 365 /\ (yd = 365 -> a = 3 /\ r3 = 1460)) by (unfold yd, a; ediv).
  assert (Ed : d = 146097 * q + 36524 * c + 1461 * b + 365 * a + yd) by (unfold yd, r3, r2, r; lia).
  set (y := 400 * q + 100 * c + 4 * b + a + 1).
  assert (D4 : (y - 1) / 4 = 100 * q + 25 * c + b) by (symmetry; apply Z.div_unique with a; unfold y; lia).
  assert (D100 : (y - 1) / 100 = 4 * q + c) by (symmetry; apply Z.div_unique with (4 * b + a); unfold y; lia).
  assert (D400 : (y - 1) / 400 = q) by (symmetry; apply Z.div_unique with (100 * c + 4 * b + a); unfold y; lia).
  split.
  - unfold ystart. rewrite D4, D100, D400. unfold y. lia.
  - split; [lia|]. unfold ylen, is_leap.
    assert (M4 : y mod 4 = 0 <-> a = 3).
    { split; intros H.
      - assert (Q : y mod 4 = if a =? 3 then 0 else a + 1); [|destruct (Z.eqb_spec a 3); lia]. symmetry. destruct (Z.eqb_spec a 3); [apply Z.mod_unique with (100 * q + 25 * c + b + 1)|apply Z.mod_unique with (100 * q + 25 * c + b)]; unfold y; lia.
      - symmetry. apply Z.mod_unique with (100 * q + 25 * c + b + 1); unfold y; lia. }
    assert (M100 : y mod 100 = 0 <-> a = 3 /\ b = 24).
    { split; intros H.
      - assert (Q : y mod 100 = if 4 * b + a =? 99 then 0 else 4 * b + a + 1); [|destruct (Z.eqb_spec (4 * b + a) 99); lia]. symmetry. destruct (Z.eqb_spec (4 * b + a) 99); [apply Z.mod_unique with (4 * q + c + 1)|apply Z.mod_unique with (4 * q + c)]; unfold y; lia.
      - symmetry. apply Z.mod_unique with (4 * q + c + 1); unfold y; lia. }
    assert (M400 : c = 3 -> a = 3 -> b = 24 -> y mod 400 = 0) by (intros; symmetry; apply Z.mod_unique with (q + 1); unfold y; lia).
    destruct (Z.eqb_spec (y mod 4) 0) as [E4|E4], (Z.eqb_spec (y mod 100) 0) as [E100|E100], (Z.eqb_spec (y mod 400) 0) as [E400|E400]; cbn [andb orb negb]; try lia.
Qed.
Lemma year_yday_eq d y a : d = ystart y + a -> 0 <= a < ylen y -> year_yday d = (y, a).
Proof. intros E B. pose proof (year_yday_ok d) as H. destruct (year_yday d) as [y' a']. destruct H as [E' B']. destruct (year_unique d y y' a a') as [-> ->]; auto. Qed.

(** ** Months *)
Definition mlen (leap : bool) (m : Z) : Z := if m =? 2 then (if leap then 29 else 28) else if existsb (Z.eqb m) [4; 6; 9; 11] then 30 else 31.
Definition mstart (leap : bool) (m : Z) : Z := days_before (m - 1) + (if leap && (2 <? m) then 1 else 0).
Definition yd_len (leap : bool) : Z := if leap then 366 else 365.
(** By going through the days of a year. *)
Lemma months_checked : forallb (fun leap => forallb (fun k => let a := Z.of_nat k in let '(m, d) := month_day leap a in
     (yd_len leap <=? a) || ((1 <=? m) && (m <=? 12) && (1 <=? d) && (d <=? mlen leap m) && (a =? mstart leap m + d - 1))) (seq 0 366)) [true; false] = true.
Proof. vm_compute. reflexivity. Qed.
Lemma starts_checked : forallb (fun leap => forallb (fun k => let m := Z.of_nat k in
     (m =? 12) || (mstart leap (m + 1) =? mstart leap m + mlen leap m)) (seq 1 12)) [true; false] = true.
Proof. vm_compute. reflexivity. Qed.
Lemma month_day_ok leap a : 0 <= a < yd_len leap -> let '(m, d) := month_day leap a in 1 <= m <= 12 /\ 1 <= d <= mlen leap m /\ a = mstart leap m + d - 1.
Proof.
  intros B. pose proof months_checked as H. rewrite forallb_forall in H. specialize (H leap ltac:(destruct leap; cbn; auto)). rewrite forallb_forall in H.
  specialize (H (Z.to_nat a)). rewrite Z2Nat.id in H by lia. cbv zeta in H. destruct (month_day leap a) as [m d].
  assert (In (Z.to_nat a) (seq 0 366)) by (apply in_seq; unfold yd_len in B; destruct leap; lia). specialize (H H0). lia.
Qed.
Lemma mstart_next leap m : 1 <= m < 12 -> mstart leap (m + 1) = mstart leap m + mlen leap m.
Proof.
  intros B. pose proof starts_checked as H. rewrite forallb_forall in H. specialize (H leap ltac:(destruct leap; cbn; auto)). rewrite forallb_forall in H.
  specialize (H (Z.to_nat m) ltac:(apply in_seq; lia)). cbv zeta in H. rewrite Z2Nat.id in H by lia. apply orb_true_iff in H as [H|H]; apply Z.eqb_eq in H; lia.
Qed.
Lemma mlen_bounds leap m : 28 <= mlen leap m <= 31.
Proof. unfold mlen. destruct (m =? 2), leap; try destruct (existsb _ _); lia. Qed.
Lemma mstart_mono leap a b : 1 <= a <= b -> b <= 12 -> mstart leap a <= mstart leap b.
Proof.
  intros H. rewrite <- (Zplus_minus a b). remember (b - a) as k eqn:E. assert (0 <= k) by lia. clear E. destruct H as [H _]. revert k H0. apply (natlike_ind (fun k => a + k <= 12 -> mstart leap a <= mstart leap (a + k))); [rewrite Z.add_0_r; lia|].
  intros k Hk IH L. replace (a + Z.succ k) with (a + k + 1) by lia. rewrite mstart_next by lia. pose proof (mlen_bounds leap (a + k)). lia.
Qed.
Lemma month_unique leap a m d m' d' : a = mstart leap m + d - 1 -> 1 <= m <= 12 -> 1 <= d <= mlen leap m ->
  a = mstart leap m' + d' - 1 -> 1 <= m' <= 12 -> 1 <= d' <= mlen leap m' -> m = m' /\ d = d'.
Proof.
  intros E Bm Bd E' Bm' Bd'. assert (m = m'); [|subst; lia].
  destruct (Z.lt_trichotomy m m') as [L|[L|L]]; [|exact L|].
  - pose proof (mstart_mono leap (m + 1) m' ltac:(lia) ltac:(lia)) as M. rewrite mstart_next in M by lia. lia.
  - pose proof (mstart_mono leap (m' + 1) m ltac:(lia) ltac:(lia)) as M. rewrite mstart_next in M by lia. lia.
Qed.
Lemma year_end leap : mstart leap 12 + mlen leap 12 = yd_len leap.
Proof. destruct leap; reflexivity. Qed.

(** ** Days *)
Definition dayno (t : date) : Z := let '(y, m, d) := t in ystart y + mstart (is_leap y) m + d - 1 - 719162.
Definition vdate (t : date) : Prop := let '(y, m, d) := t in 1 <= m <= 12 /\ 1 <= d <= mlen (is_leap y) m.
Lemma ylen_yd y : ylen y = yd_len (is_leap y).
Proof. reflexivity. Qed.
Lemma civil_ok n : vdate (civil n) /\ dayno (civil n) = n.
Proof.
  unfold civil. pose proof (year_yday_ok (n + 719162)) as H. destruct (year_yday (n + 719162)) as [y a]. destruct H as [E B]. rewrite ylen_yd in B.
  pose proof (month_day_ok (is_leap y) a B) as M. destruct (month_day (is_leap y) a) as [m d]. destruct M as (M1 & M2 & M3). split; [split; assumption|]. cbn [dayno]. lia.
Qed.
Lemma vdate_year t : vdate t -> let '(y, m, d) := t in 0 <= mstart (is_leap y) m + d - 1 < ylen y.
Proof.
  destruct t as [[y m] d]. intros [Bm Bd]. set (l := is_leap y) in *.
  pose proof (mstart_mono l 1 m ltac:(lia) ltac:(lia)) as M. assert (mstart l 1 = 0) by (destruct l; reflexivity).
  destruct (Z.eq_dec m 12) as [-> |N].
  - pose proof (year_end l) as Q. rewrite ylen_yd. fold l. lia.
  - pose proof (mstart_mono l (m + 1) 12 ltac:(lia) ltac:(lia)) as M'. rewrite mstart_next in M' by lia. pose proof (year_end l) as Q. pose proof (mlen_bounds l 12). rewrite ylen_yd. fold l. lia.
Qed.
Lemma dayno_inj t t' : vdate t -> vdate t' -> dayno t = dayno t' -> t = t'.
Proof.
  intros V V' E. pose proof (vdate_year t V) as Y. pose proof (vdate_year t' V') as Y'. destruct t as [[y m] d], t' as [[y' m'] d']. cbn [dayno] in E.
  destruct (year_unique (ystart y + (mstart (is_leap y) m + d - 1)) y y' (mstart (is_leap y) m + d - 1) (mstart (is_leap y') m' + d' - 1)) as [-> E2]; try lia.
  destruct V as [Bm Bd], V' as [Bm' Bd']. destruct (month_unique (is_leap y') _ m d m' d' eq_refl Bm Bd E2 Bm' Bd') as [-> ->]. reflexivity.
Qed.
Lemma leap_spec y : leap_year y <-> is_leap y = true.
Proof.
  unfold leap_year, is_leap. rewrite <- !Z.mod_divide by lia.
  assert (B : y mod 400 = 0 -> y mod 100 = 0) by (intros; ediv). assert (C : y mod 100 = 0 -> y mod 4 = 0) by (intros; ediv).
  generalize dependent (y mod 4). generalize dependent (y mod 100). generalize dependent (y mod 400). intros u v B w C.
  destruct (Z.eqb_spec w 0), (Z.eqb_spec v 0), (Z.eqb_spec u 0); cbn [andb orb negb]; split; intros; try reflexivity; try discriminate; lia.
Qed.
Lemma length_spec y m n : month_length y m n <-> 1 <= m <= 12 /\ n = mlen (is_leap y) m.
Proof.
  unfold month_length. split.
  - intros [[I ->]|[[I ->]|[-> H]]].
    + cbn [In] in I. repeat destruct I as [<- |I]; try contradiction; split; try lia; reflexivity.
    + cbn [In] in I. repeat destruct I as [<- |I]; try contradiction; split; try lia; reflexivity.
    + split; [lia|]. cbn [mlen Z.eqb]. destruct H as [[L ->]|[L ->]]; rewrite leap_spec in L; destruct (is_leap y); try congruence; reflexivity.
  - intros [B ->]. assert (I : In m [1; 2; 3; 4; 5; 6; 7; 8; 9; 10; 11; 12]).
    { replace m with (Z.of_nat (Z.to_nat m)) by lia. assert (J : In (Z.to_nat m) (seq 1 12)) by (apply in_seq; lia). apply (in_map Z.of_nat) in J. exact J. }
    cbn [In] in I. repeat destruct I as [<- |I]; try contradiction; try (left; split; [cbn; tauto|reflexivity]); try (right; left; split; [cbn; tauto|reflexivity]).
    right. right. split; [reflexivity|]. destruct (is_leap y) eqn:L; [left|right]; rewrite leap_spec; split; try reflexivity; congruence.
Qed.
Lemma valid_spec t : valid_date t <-> vdate t.
Proof.
  destruct t as [[y m] d]. unfold valid_date, vdate. split.
  - intros (n & L & B). apply length_spec in L as [Bm ->]. auto.
  - intros [Bm Bd]. exists (mlen (is_leap y) m). split; [apply length_spec; auto|exact Bd].
Qed.
Lemma tomorrow_no t t' : tomorrow t t' -> vdate t /\ vdate t' /\ dayno t' = dayno t + 1.
Proof.
  intros H. destruct H as [y m d n L B|y m n L B|y].
  - apply length_spec in L as [Bm ->]. cbn [vdate dayno]. lia.
  - apply length_spec in L as [Bm ->]. cbn [vdate dayno]. pose proof (mlen_bounds (is_leap y) m). pose proof (mlen_bounds (is_leap y) (m + 1)). rewrite mstart_next by lia. lia.
  - cbn [vdate dayno]. assert (mlen (is_leap y) 12 = 31) by reflexivity. assert (mlen (is_leap (y + 1)) 1 = 31) by reflexivity.
    rewrite ystart_next, ylen_yd, <- year_end. assert (mstart (is_leap (y + 1)) 1 = 0) by (destruct (is_leap (y + 1)); reflexivity). lia.
Qed.
Lemma tomorrow_total t : vdate t -> exists t', tomorrow t t'.
Proof.
  destruct t as [[y m] d]. intros [Bm Bd]. assert (L : month_length y m (mlen (is_leap y) m)) by (apply length_spec; auto).
  destruct (Z.eq_dec d (mlen (is_leap y) m)) as [-> |N].
  - destruct (Z.eq_dec m 12) as [-> |N]; [|eexists; apply tm_month; [exact L|lia]]. eexists. exact (tm_year y).
  - eexists. apply tm_day with (1 := L). lia.
Qed.
Lemma civil_next n : tomorrow (civil n) (civil (n + 1)).
Proof.
  destruct (civil_ok n) as [V E]. destruct (tomorrow_total _ V) as (t' & T). destruct (tomorrow_no _ _ T) as (_ & V' & E').
  destruct (civil_ok (n + 1)) as [V2 E2]. rewrite (dayno_inj (civil (n + 1)) t' V2 V'); [exact T|]. lia.
Qed.
Lemma civil_is_date n : is_date n (civil n).
Proof.
  assert (Z0 : civil 0 = (1970, 1, 1)) by reflexivity.
  destruct (Z_le_gt_dec 0 n) as [L|L].
  - revert n L. apply natlike_ind; [rewrite Z0; constructor|]. intros k Hk IH. apply id_next with (civil k); [exact IH|apply civil_next].
  - assert (G : forall k, 0 <= k -> is_date (- k) (civil (- k))).
    { apply natlike_ind; [change (- 0) with 0; rewrite Z0; constructor|]. intros k Hk IH. apply id_prev with (civil (- k)).
      - replace (- Z.succ k + 1) with (- k) by lia. exact IH.
      - pose proof (civil_next (- Z.succ k)) as N. replace (- Z.succ k + 1) with (- k) in N by lia. exact N. }
    specialize (G (- n) ltac:(lia)). rewrite Z.opp_involutive in G. exact G.
Qed.
Lemma is_date_no n t : is_date n t -> vdate t /\ dayno t = n.
Proof.
  induction 1 as [|n t t' H [V E] T|n t t' H [V E] T].
  - split; [cbn; lia|reflexivity].
  - destruct (tomorrow_no t t' T) as (_ & V' & E'). split; [exact V'|lia].
  - destruct (tomorrow_no t t' T) as (V0 & _ & E'). split; [exact V0|lia].
Qed.

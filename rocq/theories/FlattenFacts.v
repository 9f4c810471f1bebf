(** * FlattenFacts: the rate filter. *)
From Verif Require Import GoBase GoFacts Predicates FlatRecord EngineModel FlattenModel SpecFlatten.
From Coq Require Import Sorted Permutation Lia.
Local Open Scope Z_scope.

Lemma zget_zdel : forall k j m, zget k (zdel j m) = if Z.eqb j k then None else zget k m.
Proof.
  intros k j m; unfold zdel; induction m as [|[a v] m IH]; cbn [List.filter zget fst].
  - destruct (Z.eqb j k); reflexivity.
  - destruct (Z.eqb_spec a j) as [->|Ha]; cbn [negb zget].
    + rewrite IH. destruct (Z.eqb_spec j k); reflexivity.
    + rewrite IH. destruct (Z.eqb_spec a k) as [->|]; [|reflexivity].
      destruct (Z.eqb_spec j k) as [->|]; [congruence|reflexivity].
Qed.
Lemma zget_zset : forall k j v m, zget k (zset j v m) = if Z.eqb j k then Some v else zget k m.
Proof. intros; unfold zset; cbn [zget]. rewrite zget_zdel. destruct (Z.eqb j k); reflexivity. Qed.

Definition keyin (k : Z) (l : list (Z * Z)) : bool := existsb (fun p => Z.eqb (fst p) k) l.
Lemma keyin_true : forall k l, keyin k l = true <-> In k (map fst l).
Proof.
  intros k l; unfold keyin; rewrite existsb_exists, in_map_iff. split.
  - intros [p [H E]]; apply Z.eqb_eq in E; exists p; auto.
  - intros [p [E H]]; exists p; split; [auto|]. now apply Z.eqb_eq.
Qed.

Section Filter.
Variable clk : nat -> Z.
Variable ttl : Z.
Hypothesis mono : forall n, clk n <= clk (S n).
Lemma mono_le : forall a b, (a <= b)%nat -> clk a <= clk b.
Proof. intros a b H; induction H; [lia|]. specialize (mono m); lia. Qed.

Lemma evict_spec : forall q m n, StronglySorted (fun a b => snd a <= snd b) q ->
  exists d, q = (d ++ f_q (evict clk ttl q m n))%list /\
    (n <= f_n (evict clk ttl q m n))%nat /\
    (forall h t, In (h, t) d -> exists r, (r < f_n (evict clk ttl q m n))%nat /\ ttl <= clk r - t) /\
    (forall h t, In (h, t) (f_q (evict clk ttl q m n)) -> (n < f_n (evict clk ttl q m n))%nat /\ clk (f_n (evict clk ttl q m n) - 1) - t < ttl) /\
    (forall k, zget k (f_m (evict clk ttl q m n)) = if keyin k d then None else zget k m).
Proof.
  induction q as [|[h t] q IH]; intros m n S; cbn [evict].
  - exists []; cbn; repeat split; auto; try (intros ? ? []); lia.
  - destruct (Z.ltb_spec (clk n - t) ttl) as [L|L].
    + exists []; cbn [f_q f_n f_m app].
      split; [auto|]. split; [lia|]. split; [intros ? ? []|]. split; [|auto].
      intros k u H. split; [lia|].
      cbn [Init.Nat.sub Nat.sub]. rewrite Nat.sub_0_r.
      apply StronglySorted_inv in S; destruct S as [_ F]. rewrite Forall_forall in F.
      destruct H as [E|H]; [injection E; intros; subst; lia|]. specialize (F _ H); cbn in F; lia.
    + apply StronglySorted_inv in S; destruct S as [S _].
      destruct (IH (zdel h m) (Datatypes.S n) S) as (d & E & Hn & Hd & Hq & Hm).
      exists ((h, t) :: d); cbn [app]. rewrite <- E. split; [auto|]. split; [lia|]. split; [|split].
      * intros h' t' [X|X]; [injection X; intros; subst|eauto].
        exists n; split; lia.
      * intros k u H. apply Hq in H. lia.
      * intros k; rewrite Hm, zget_zdel. unfold keyin; cbn [existsb fst].
        destruct (Z.eqb h k), (existsb (fun p => Z.eqb (fst p) k) d); reflexivity.
Qed.

Lemma f_run_app : forall a s b, f_run clk ttl s (a ++ b) =
  let (s1, t1) := f_run clk ttl s a in let (s2, t2) := f_run clk ttl s1 b in (s2, (t1 ++ t2)%list).
Proof.
  induction a as [|o a IH]; intros s b; cbn [f_run app].
  - destruct (f_run clk ttl s b); reflexivity.
  - destruct o as [h|].
    + destruct (test_and_add clk ttl h s) as [s1 v]. rewrite IH.
      destruct (f_run clk ttl s1 a) as [s2 t2]. destruct (f_run clk ttl s2 b); reflexivity.
    + rewrite IH. destruct (f_run clk ttl s a) as [s2 t2]. destruct (f_run clk ttl s2 b); reflexivity.
Qed.

Definition sorted (q : list (Z * Z)) := StronglySorted (fun a b => snd a <= snd b) q.
Record Inv (s : fstate) (tr : list entry) : Prop := mkInv {
  i_sort : sorted (f_q s);
  i_nodup : NoDup (map fst (f_q s));
  i_keys : forall k, zget k (f_m s) <> None <-> In k (map fst (f_q s));
  i_q : forall h t, In (h, t) (f_q s) -> exists i, happened tr i h false t /\ zget h (f_m s) = Some (occurrences h (skipn i tr)) /\
          (forall j t', (i < j)%nat -> ~ happened tr j h false t');
  i_tr : forall i h t, happened tr i h false t -> In (h, t) (f_q s) \/ exists r, (r < f_n s)%nat /\ ttl <= clk r - t;
  i_t : forall h t, In (h, t) (f_q s) -> exists r, (r < f_n s)%nat /\ t = clk r;
  i_v : forall j h b t, happened tr j h b t -> (b = true <-> recent_repeat ttl tr j h t)
}.

Lemma occ_app : forall h a b, occurrences h (a ++ b) = occurrences h a + occurrences h b.
Proof. intros h a b; induction a as [|[[[h' v] t]|] a IH]; cbn [occurrences app]; lia. Qed.
Lemma hap_len : forall tr i h b t, happened tr i h b t -> (i < length tr)%nat.
Proof. intros tr i h b t H; apply nth_error_Some; unfold happened in H; congruence. Qed.
Lemma hap_app : forall tr e i h b t, happened (tr ++ [e]) i h b t <-> happened tr i h b t \/ (i = length tr /\ e = Some (h, b, t)).
Proof.
  intros; unfold happened. destruct (Nat.lt_ge_cases i (length tr)) as [L|L].
  - rewrite nth_error_app1 by lia. split; [auto|]. intros [H|[-> _]]; [auto|lia].
  - rewrite nth_error_app2 by lia. split.
    + intros H. right. destruct (i - length tr)%nat eqn:E; cbn in H; [split; [lia|congruence]|].
      destruct n; cbn in H; discriminate.
    + intros [H|[-> ->]].
      * assert (i < length tr)%nat by (apply nth_error_Some; congruence). lia.
      * rewrite Nat.sub_diag. reflexivity.
Qed.
Lemma skipn_app_le : forall A (l : list A) i m, (i <= length l)%nat -> skipn i (l ++ m) = (skipn i l ++ m)%list.
Proof. intros. rewrite skipn_app. replace (i - length l)%nat with 0%nat by lia. reflexivity. Qed.
Lemma rr_app : forall tr e j h t, (j <= length tr)%nat -> recent_repeat ttl (tr ++ [e]) j h t <-> recent_repeat ttl tr j h t.
Proof.
  intros tr e j h t L; split; intros (i & t' & Lt & H & D); exists i, t'; split; auto; split; auto.
  - apply hap_app in H; destruct H as [H|[-> _]]; [auto|lia].
  - apply hap_app; auto.
Qed.

(** Facts shared by a query: the state after eviction. *)
Lemma evict_inv : forall s tr, Inv s tr ->
  let s1 := evict clk ttl (f_q s) (f_m s) (f_n s) in
  Inv s1 tr /\ (f_n s <= f_n s1)%nat /\
  (forall h t, In (h, t) (f_q s1) -> (f_n s < f_n s1)%nat /\ clk (f_n s1 - 1) - t < ttl).
Proof.
  intros s tr I s1. destruct (evict_spec (f_q s) (f_m s) (f_n s) (i_sort _ _ I)) as (d & E & Hn & Hd & Hq & Hm).
  fold s1 in E, Hn, Hd, Hq, Hm. pose proof (i_nodup _ _ I) as ND. pose proof (i_sort _ _ I) as SS.
  rewrite E in ND. rewrite E in SS. rewrite map_app in ND.
  assert (Hdis : forall k, In k (map fst (f_q s1)) -> keyin k d = false).
  { intros k Hk. destruct (keyin k d) eqn:K; [|reflexivity]. apply keyin_true in K.
    exfalso. clear - ND K Hk. induction (map fst d) as [|x l IH]; [destruct K|].
    cbn in ND. apply NoDup_cons_iff in ND. destruct ND as [N ND]. destruct K as [->|K]; [|auto].
    apply N. apply in_or_app; auto. }
  split; [|split; [auto|]].
  - constructor.
    + clear - SS. induction d as [|x d IH]; [exact SS|]. cbn in SS. apply StronglySorted_inv in SS. tauto.
    + clear - ND. induction (map fst d) as [|x l IH]; [exact ND|]. cbn in ND. apply NoDup_cons_iff in ND. tauto.
    + intros k. rewrite Hm. split.
      * intros Z. destruct (keyin k d) eqn:K; [congruence|]. apply (i_keys _ _ I) in Z. rewrite E, map_app in Z.
        apply in_app_or in Z. destruct Z as [Z|Z]; [|auto]. apply keyin_true in Z; congruence.
      * intros Z. rewrite (Hdis _ Z). apply (i_keys _ _ I). rewrite E, map_app. apply in_or_app; auto.
    + intros h t H. destruct (i_q _ _ I h t) as (i & A & B & C); [rewrite E; apply in_or_app; auto|].
      exists i; split; [auto|split; [|auto]]. rewrite Hm, Hdis; [auto|]. apply in_map_iff; exists (h, t); auto.
    + intros i h t H. destruct (i_tr _ _ I i h t H) as [X|(r & L & X)].
      * rewrite E in X; apply in_app_or in X; destruct X as [X|X]; [right; eauto|auto].
      * right; exists r; split; [lia|auto].
    + intros h t H. destruct (i_t _ _ I h t) as (r & L & X); [rewrite E; apply in_or_app; auto|]. exists r; split; [lia|auto].
    + exact (i_v _ _ I).
  - intros h t H; apply Hq in H; auto.
Qed.

Lemma sorted_snoc : forall q x, sorted q -> (forall y, In y q -> snd y <= snd x) -> sorted (q ++ [x]).
Proof.
  induction q as [|a q IH]; intros x S H; cbn [app].
  - repeat constructor.
  - apply StronglySorted_inv in S; destruct S as [S F]. constructor.
    + apply IH; [auto|]. intros; apply H; right; auto.
    + apply Forall_app; split; [auto|]. constructor; [apply H; left; auto|constructor].
Qed.

Lemma step_inv : forall s tr h s2 b, Inv s tr -> test_and_add clk ttl h s = (s2, b) ->
  Inv s2 (tr ++ [Some (h, b, clk (f_n s2 - 1))]).
Proof.
  intros s tr h s2 b I0 T. unfold test_and_add in T. cbv zeta in T.
  destruct (evict_inv s tr I0) as (I & Hn & Hq). cbv zeta in I, Hn, Hq.
  set (s1 := evict clk ttl (f_q s) (f_m s) (f_n s)) in *. clearbody s1. injection T as <- <-.
  unfold f_add. destruct (zget h (f_m s1)) as [v|] eqn:Z.
  - (* suppressed *)
    assert (K : In h (map fst (f_q s1))) by (apply (i_keys _ _ I); congruence).
    apply in_map_iff in K; destruct K as [[h' t0] [E K]]; cbn in E; subst h'.
    destruct (i_q _ _ I h t0 K) as (i0 & A0 & B0 & C0).
    destruct (Hq _ _ K) as [Hn1 Halive].
    constructor; cbn [f_q f_m f_n].
    + apply (i_sort _ _ I).
    + apply (i_nodup _ _ I).
    + intros k. rewrite zget_zset. destruct (Z.eqb_spec h k) as [->|].
      * split; [intros _|congruence]. apply in_map_iff; exists (k, t0); auto.
      * apply (i_keys _ _ I).
    + intros k t H. destruct (i_q _ _ I k t H) as (i & A & B & C). exists i.
      split; [apply hap_app; auto|]. split.
      * rewrite skipn_app_le by (apply hap_len in A; lia). rewrite occ_app, zget_zset. cbn [occurrences].
        destruct (Z.eqb_spec h k) as [->|]; [|rewrite B; f_equal; lia].
        rewrite B in Z; injection Z as <-. f_equal; lia.
      * intros j t' L Hj. apply hap_app in Hj; destruct Hj as [Hj|[_ Hj]]; [eapply C; eauto|discriminate].
    + intros i k t H. apply hap_app in H; destruct H as [H|[_ H]]; [|discriminate]. apply (i_tr _ _ I i k t H).
    + apply (i_t _ _ I).
    + intros j k b t H. apply hap_app in H. destruct H as [H|[-> H]].
      * rewrite rr_app by (apply hap_len in H; lia). apply (i_v _ _ I j k b t H).
      * injection H as -> <- <-. split; [intros _|reflexivity]. apply rr_app; [lia|].
        exists i0, t0. split; [apply hap_len in A0; lia|]. split; [exact A0|exact Halive].
  - (* let through *)
    assert (K : ~ In h (map fst (f_q s1))) by (intros X; apply (i_keys _ _ I) in X; congruence).
    constructor; cbn [f_q f_m f_n].
    + apply sorted_snoc; [apply (i_sort _ _ I)|]. intros [h' t'] H. destruct (i_t _ _ I _ _ H) as (r & L & ->). cbn [snd]. apply mono_le; lia.
    + rewrite map_app. cbn [map fst].
      assert (NoDup (h :: map fst (f_q s1))) by (constructor; [auto|apply (i_nodup _ _ I)]).
      eapply Permutation_NoDup; [|eassumption]. apply Permutation_cons_append.
    + intros k. rewrite zget_zset, map_app, in_app_iff. cbn [map fst In]. destruct (Z.eqb_spec h k) as [->|].
      * split; [auto|congruence].
      * rewrite (i_keys _ _ I k). split; [auto|]. intros [X|[X|[]]]; [auto|congruence].
    + intros k t H. apply in_app_or in H. destruct H as [H|[H|[]]].
      * destruct (i_q _ _ I k t H) as (i & A & B & C). exists i.
        assert (h <> k). { intros ->. apply K. apply in_map_iff; exists (k, t); auto. }
        split; [apply hap_app; auto|]. split.
        -- rewrite skipn_app_le by (apply hap_len in A; lia). rewrite occ_app, zget_zset. cbn [occurrences].
           destruct (Z.eqb_spec h k); [congruence|]. rewrite B; f_equal; lia.
        -- intros j t' L Hj. apply hap_app in Hj; destruct Hj as [Hj|[_ Hj]]; [eapply C; eauto|congruence].
      * injection H as <- <-. exists (length tr). cbn [Nat.sub]. rewrite Nat.sub_0_r. split; [apply hap_app; auto|].
        split.
        -- rewrite skipn_app_le by lia. rewrite skipn_all. cbn [app occurrences]. rewrite zget_zset, Z.eqb_refl. reflexivity.
        -- intros j t' L Hj. apply hap_len in Hj. rewrite app_length in Hj; cbn in Hj; lia.
    + intros i k t H. apply hap_app in H; destruct H as [H|[_ H]].
      * destruct (i_tr _ _ I i k t H) as [X|(r & L & X)]; [left; apply in_or_app; auto|right; exists r; split; [lia|auto]].
      * left. apply in_or_app; right. injection H as -> <-. cbn [Nat.sub]. rewrite Nat.sub_0_r. left; reflexivity.
    + intros k t H. apply in_app_or in H. destruct H as [H|[H|[]]].
      * destruct (i_t _ _ I k t H) as (r & L & X); exists r; split; [lia|auto].
      * injection H as <- <-. exists (f_n s1); split; [lia|reflexivity].
    + cbn [Nat.sub]. rewrite Nat.sub_0_r. intros j k b t H. apply hap_app in H. destruct H as [H|[-> H]].
      * rewrite rr_app by (apply hap_len in H; lia). apply (i_v _ _ I j k b t H).
      * injection H as -> <- <-. split; [discriminate|]. intros H; exfalso. rewrite rr_app in H by lia.
        destruct H as (i & t' & L & Hi & D). destruct (i_tr _ _ I i k t' Hi) as [X|(r & Lr & X)].
        -- apply K. apply in_map_iff; exists (k, t'); auto.
        -- assert (clk r <= clk (f_n s1)) by (apply mono_le; lia). lia.
Qed.

Lemma none_inv : forall s tr, Inv s tr -> Inv s (tr ++ [None]).
Proof.
  intros s tr I; constructor.
  - apply (i_sort _ _ I). - apply (i_nodup _ _ I). - apply (i_keys _ _ I).
  - intros h t H. destruct (i_q _ _ I h t H) as (i & A & B & C). exists i. split; [apply hap_app; auto|split].
    + rewrite skipn_app_le by (apply hap_len in A; lia). rewrite occ_app; cbn [occurrences]. rewrite B; f_equal; lia.
    + intros j t' L Hj. apply hap_app in Hj; destruct Hj as [Hj|[_ Hj]]; [eapply C; eauto|discriminate].
  - intros i h t H. apply hap_app in H; destruct H as [H|[_ H]]; [|discriminate]. apply (i_tr _ _ I i h t H).
  - apply (i_t _ _ I).
  - intros j k b t H. apply hap_app in H. destruct H as [H|[_ H]]; [|discriminate].
    rewrite rr_app by (apply hap_len in H; lia). apply (i_v _ _ I j k b t H).
Qed.

Lemma inv_init : Inv f_new [].
Proof.
  constructor; cbn; try constructor; try tauto; try (intros; tauto).
  all: intros; try (unfold happened in *; destruct i; discriminate).
  all: intros; try (unfold happened in *; destruct j; discriminate).
Qed.

Lemma run_inv : forall hs s tr, f_run clk ttl f_new hs = (s, tr) -> Inv s tr.
Proof.
  induction hs as [|o hs IH] using rev_ind; intros s tr H.
  - injection H as <- <-. apply inv_init.
  - rewrite f_run_app in H. destruct (f_run clk ttl f_new hs) as [s0 t0]. specialize (IH _ _ eq_refl).
    cbn [f_run] in H. destruct o as [h|].
    + destruct (test_and_add clk ttl h s0) as [s1 b] eqn:T. injection H as <- <-. eapply step_inv; eauto.
    + injection H as <- <-. apply none_inv; auto.
Qed.

Lemma run_hashes : forall hs s s' tr, f_run clk ttl s hs = (s', tr) -> map hash_of tr = hs.
Proof.
  induction hs as [|o hs IH]; intros s s' tr H; cbn [f_run] in H.
  - injection H as <- <-; reflexivity.
  - destruct o as [h|].
    + destruct (test_and_add clk ttl h s) as [s1 b]. destruct (f_run clk ttl s1 hs) as [s2 t2] eqn:E.
      injection H as <- <-. cbn. f_equal. eauto.
    + destruct (f_run clk ttl s hs) as [s2 t2] eqn:E. injection H as <- <-. cbn. f_equal; eauto.
Qed.

(** ** Theorems *)
Lemma suppress : forall hs s tr, f_run clk ttl f_new hs = (s, tr) ->
  map hash_of tr = hs /\
  forall j h b t, happened tr j h b t -> (b = true <-> recent_repeat ttl tr j h t).
Proof. intros hs s tr H; split; [eapply run_hashes; eauto|]. apply (i_v _ _ (run_inv _ _ _ H)). Qed.

Lemma count_correct : forall hs s tr h, f_run clk ttl f_new hs = (s, tr) ->
  let now := clk (f_n (evict clk ttl (f_q s) (f_m s) (f_n s)) - 1) in
  (exists i t, happened tr i h false t /\ now - t < ttl /\ f_count clk ttl h s = occurrences h (skipn i tr) /\
               forall j t', (i < j)%nat -> ~ happened tr j h false t') \/
  (f_count clk ttl h s = 0 /\ forall i t, happened tr i h false t -> ttl <= now - t).
Proof.
  intros hs s tr h H now. pose proof (run_inv _ _ _ H) as I. destruct (evict_inv s tr I) as (I1 & Hn & Hq).
  cbv zeta in *. unfold f_count; cbv zeta. set (s1 := evict clk ttl (f_q s) (f_m s) (f_n s)) in *.
  destruct (zget h (f_m s1)) as [c|] eqn:Z.
  - assert (K : In h (map fst (f_q s1))) by (apply (i_keys _ _ I1); congruence).
    apply in_map_iff in K; destruct K as [[h' t0] [E K]]; cbn in E; subst h'.
    destruct (i_q _ _ I1 h t0 K) as (i & A & B & C). left. exists i, t0. split; [auto|]. split; [apply (Hq _ _ K)|].
    split; [congruence|auto].
  - right; split; [reflexivity|]. intros i t Hi. destruct (i_tr _ _ I1 i h t Hi) as [X|(r & L & X)].
    + exfalso. apply (proj2 (i_keys _ _ I1 h)); [|auto]. apply in_map_iff; exists (h, t); auto.
    + subst now. assert (clk r <= clk (f_n s1 - 1)) by (apply mono_le; lia). lia.
Qed.

(** Memory: what is retained after a call. *)
Lemma retained : forall hs s tr h s' b, f_run clk ttl f_new hs = (s, tr) -> test_and_add clk ttl h s = (s', b) ->
  NoDup (map fst (f_q s')) /\ (forall k, zget k (f_m s') <> None <-> In k (map fst (f_q s'))) /\
  (0 < ttl -> forall k t, In (k, t) (f_q s') -> clk (f_n s) - t < ttl).
Proof.
  intros hs s tr h s' b H T. pose proof (run_inv _ _ _ H) as I. pose proof (step_inv _ _ _ _ _ I T) as I2.
  split; [apply (i_nodup _ _ I2)|]. split; [apply (i_keys _ _ I2)|]. intros P k t Hk.
  unfold test_and_add in T; cbv zeta in T. destruct (evict_inv s tr I) as (I1 & Hn & Hq). cbv zeta in *.
  set (s1 := evict clk ttl (f_q s) (f_m s) (f_n s)) in *. injection T as <- <-. unfold f_add in Hk.
  assert (Old : forall k t, In (k, t) (f_q s1) -> clk (f_n s) - t < ttl).
  { intros k0 t0 H0. destruct (Hq _ _ H0). assert (clk (f_n s) <= clk (f_n s1 - 1)) by (apply mono_le; lia). lia. }
  destruct (zget h (f_m s1)); cbn [f_q] in Hk; [eauto|].
  apply in_app_or in Hk. destruct Hk as [Hk|[Hk|[]]]; [eauto|]. injection Hk as <- <-.
  assert (clk (f_n s) <= clk (f_n s1)) by (apply mono_le; lia). lia.
Qed.
End Filter.

(** * OtelFacts *)
From Coq Require Import Lia Permutation.
From Verif Require Import GoBase GoFacts PermTac Predicates SpecStrings PolicyFacts OtelModel SpecOtel.

Lemma rbind_okb {A B} (x : res A) (f : A -> res B) b : rbind x f = Ok b -> exists a, x = Ok a /\ f a = Ok b.
Proof. destruct x; cbn; try discriminate. eauto. Qed.

Lemma str_ltb_slt a : forall b, str_ltb a b = true <-> slt a b.
Proof.
  induction a as [|x a IH]; intros [|y b]; cbn [str_ltb].
  - split; [discriminate|intros H; inversion H].
  - split; [constructor|auto].
  - split; [discriminate|intros H; inversion H].
  - destruct (Nat.ltb_spec (nat_of_ascii x) (nat_of_ascii y)) as [L|L].
    + split; auto. intros _. now constructor.
    + destruct (Ascii.eqb_spec x y) as [->|N].
      * rewrite IH. split; [now constructor|]. intros H. inversion H; subst; auto. lia.
      * split; [discriminate|]. intros H. inversion H; subst; [lia|congruence].
Qed.
Lemma nat_of_ascii_inj x y : nat_of_ascii x = nat_of_ascii y -> x = y.
Proof. intros H. rewrite <- (ascii_nat_embedding x), <- (ascii_nat_embedding y). now f_equal. Qed.
Lemma str_leb_spec a : forall b, negb (str_ltb b a) = true <-> (slt a b \/ a = b).
Proof.
  intros b. rewrite Bool.negb_true_iff. split.
  - revert b. induction a as [|x a IH]; intros [|y b]; cbn [str_ltb]; auto; [left; constructor|discriminate|].
    destruct (Nat.ltb_spec (nat_of_ascii y) (nat_of_ascii x)) as [L|L]; [discriminate|]. destruct (Ascii.eqb_spec y x) as [->|N].
    + intros H. destruct (IH _ H) as [K| ->]; [left; now constructor|auto].
    + intros _. left. constructor. assert (nat_of_ascii x <> nat_of_ascii y) by (intros E; apply N; symmetry; now apply nat_of_ascii_inj). lia.
  - intros H. destruct (str_ltb b a) eqn:E; auto. apply str_ltb_slt in E. exfalso.
    assert (T : forall x y, slt x y -> slt y x -> False).
    { clear. induction 1; intros K; inversion K; subst; auto; lia. }
    destruct H as [H| ->]; [eapply T; eauto|eapply (T b); eauto].
Qed.
Lemma do_string_spec s r op : do_string s r op = true <-> string_rel op s r.
Proof.
  destruct op; cbn [do_string string_rel].
  - exact (str_op_rel OpEq _ eq_refl s r).
  - exact (str_op_rel OpIEq _ eq_refl s r).
  - exact (str_op_rel OpContains _ eq_refl s r).
  - exact (str_op_rel OpIContains _ eq_refl s r).
  - exact (str_op_rel OpStartswith _ eq_refl s r).
  - exact (str_op_rel OpIStartswith _ eq_refl s r).
  - exact (str_op_rel OpEndswith _ eq_refl s r).
  - exact (str_op_rel OpIEndswith _ eq_refl s r).
  - apply str_ltb_slt.
  - apply str_leb_spec.
  - apply str_ltb_slt.
  - rewrite str_leb_spec. intuition.
Qed.

Section F.
Variable D : Type.
Variable parse_float : string -> option D.
Variables deq dlt dle : D -> D -> bool.
Notation any := (any D).
Notation kvs := (kvs D).
Notation compare_helper := (compare_helper D parse_float deq dlt dle).
Notation cmp_value := (cmp_value D parse_float deq dlt dle).
Notation any_rel := (any_rel D parse_float deq dlt dle).
Notation decides := (decides D).
Notation crashes := (crashes D).
Notation leaf := (leaf D).

Lemma any_elem_spec r op l : any_elem r op l = true <-> exists s, In (EStr s) l /\ string_rel op s r.
Proof.
  induction l as [|e l IH]; cbn; [split; [discriminate|intros (s & [] & _)]|]. destruct e as [s|n].
  - pose proof (do_string_spec s r op) as P. destruct (do_string s r op).
    + split; auto. intros _. exists s. split; auto. now apply P.
    + rewrite IH. split; [intros (s' & A & B); eauto|]. intros (s' & [[= ->]|A] & B); eauto. apply P in B. discriminate.
  - rewrite IH. split; intros (s' & A & B); [eauto|]. destruct A as [A|A]; [discriminate|eauto].
Qed.
Lemma last_elem_snoc l e : last_elem (l ++ [e]) = Some e.
Proof. unfold last_elem. rewrite app_length, nth_error_app2; cbn; [|lia]. now replace (length l + 1 - 1 - length l) with 0 by lia. Qed.
Lemma elem_is_seqb r e : elem_is seqb r e = true <-> e = EStr r.
Proof. destruct e as [s|n]; cbn; [|split; discriminate]. rewrite seqb_eq. split; congruence. Qed.
Lemma elem_is_fold r e : elem_is equal_fold r e = true <-> exists s, e = EStr s /\ ci s r.
Proof.
  destruct e as [s|n]; cbn; [|split; [discriminate|intros (s & E & _); discriminate]].
  unfold equal_fold. rewrite seqb_eq, to_lower_ci. split; [eauto|]. intros (s' & [= ->] & H). auto.
Qed.
Lemma snoc_cases {A} (l : list A) : l = [] \/ exists l' a, l = l' ++ [a].
Proof. induction l as [|x l [->|(l' & a & ->)]]; auto; right; [exists [], x|exists (x :: l'), a]; auto. Qed.
Lemma snoc_inj {A} (l l' : list A) a b : l ++ [a] = l' ++ [b] -> l = l' /\ a = b.
Proof. apply app_inj_tail. Qed.
(** The decision on a leaf. *)
Lemma leaf_spec k r op v : leaf v -> exists x, cmp_value k r op v = Some x /\
  (x = Panic <-> crashes op v) /\ (forall b, x = Ok b -> (b = true <-> any_rel op v r)) /\ (x = Panic \/ exists b, x = Ok b).
Proof.
  assert (OK : forall b (P : Prop), (b = true <-> P) -> ((Ok b = Panic <-> False) /\ (forall b0, Ok b = Ok b0 -> (b0 = true <-> P)) /\ (Ok b = Panic \/ exists b0, Ok b = Ok b0))).
  { intros b P H. split; [split; [discriminate|tauto]|]. split; [intros b0 [= <-]; auto|eauto]. }
  assert (PA : forall (C P : Prop), C -> ((@Panic bool = Panic <-> C) /\ (forall b0, Panic = Ok b0 -> (b0 = true <-> P)) /\ (@Panic bool = Panic \/ exists b0, @Panic bool = Ok b0))).
  { intros C P H. split; [tauto|]. split; [discriminate|auto]. }
  destruct v as [s|a|b|s|d|z|[l|]| |]; cbn [leaf]; try tauto; intros _; cbn [cmp_value]; eexists; (split; [reflexivity|]); cbn [crashes any_rel].
  - apply OK. apply do_string_spec.
  - destruct a as [l|].
    + destruct op; cbn [do_array].
      1,2,9-12: destruct l; apply OK; split; [discriminate|tauto|discriminate|tauto].
      * assert (X := any_elem_spec r OpContains l). destruct l; apply OK; exact X.
      * assert (X := any_elem_spec r OpIContains l). destruct l; apply OK; exact X.
      * destruct l as [|e l]; [apply PA; exact Logic.I|]. apply OK. rewrite elem_is_seqb. split; [intros ->; eauto|]. intros (l' & [= -> _]). auto.
      * destruct l as [|e l]; [apply PA; exact Logic.I|]. apply OK. rewrite elem_is_fold. split; [intros (s & -> & H); eauto|]. intros (s & l' & [= -> _] & H). eauto.
      * destruct (snoc_cases l) as [->|(l' & e & ->)]; [apply PA; exact Logic.I|]. rewrite last_elem_snoc.
        assert (X : elem_is seqb r e = true <-> exists l'0, l' ++ [e] = l'0 ++ [EStr r]).
        { rewrite elem_is_seqb. split; [intros ->; eauto|]. intros (l2 & E). apply snoc_inj in E. tauto. }
        destruct l'; cbn [app]; apply OK; exact X.
      * destruct (snoc_cases l) as [->|(l' & e & ->)]; [apply PA; exact Logic.I|]. rewrite last_elem_snoc.
        assert (X : elem_is equal_fold r e = true <-> exists s l'0, l' ++ [e] = l'0 ++ [EStr s] /\ ci s r).
        { rewrite elem_is_fold. split; [intros (s & -> & H); eauto|]. intros (s & l2 & E & H). apply snoc_inj in E. exists s. tauto. }
        destruct l'; cbn [app]; apply OK; exact X.
    + destruct op; cbn [do_array]; try (apply PA; exact Logic.I); apply OK; split; try discriminate; tauto.
  - apply OK. unfold do_bool. pose proof (seqb_eq r "False") as E. destruct (seqb r "False"); cbn.
    + assert (r = "False") by tauto. destruct op; cbn; try (split; [discriminate|]; intros [[H0|H0] _]; discriminate); destruct b; cbn; intuition congruence.
    + assert (r <> "False") by (intros X; apply E in X; discriminate). destruct op; cbn; try (split; [discriminate|]; intros [[H0|H0] _]; discriminate); destruct b; cbn; intuition congruence.
  - apply OK. destruct op; cbn [do_bytes]; try (split; [discriminate|tauto]).
    + exact (str_op_rel OpEq _ eq_refl s r).
    + exact (str_op_rel OpIEq _ eq_refl s r).
    + exact (str_op_rel OpContains _ eq_refl s r).
    + exact (str_op_rel OpStartswith _ eq_refl s r).
    + exact (str_op_rel OpEndswith _ eq_refl s r).
  - apply OK. unfold do_double. destruct (parse_float (trim_space r)) as [x|].
    + split; [intros H; exists x; split; auto; destruct op; auto|]. intros (y & [= <-] & H). destruct op; auto.
    + split; [discriminate|]. intros (y & E & _). discriminate.
  - apply OK. unfold do_int. destruct (parse_int64 (trim_space r)) as [x|].
    + split.
      * intros H. exists x. split; auto. destruct op; try discriminate.
        -- exact (proj1 (int_op_rel OpEq _ eq_refl z x) H).
        -- exact (proj1 (int_op_rel OpLt _ eq_refl z x) H).
        -- exact (proj1 (int_op_rel OpLEq _ eq_refl z x) H).
        -- exact (proj1 (int_op_rel OpGt _ eq_refl z x) H).
        -- exact (proj1 (int_op_rel OpGEq _ eq_refl z x) H).
      * intros (y & [= <-] & H). destruct op; try (destruct H; fail).
        -- exact (proj2 (int_op_rel OpEq _ eq_refl z x) H).
        -- exact (proj2 (int_op_rel OpLt _ eq_refl z x) H).
        -- exact (proj2 (int_op_rel OpLEq _ eq_refl z x) H).
        -- exact (proj2 (int_op_rel OpGt _ eq_refl z x) H).
        -- exact (proj2 (int_op_rel OpGEq _ eq_refl z x) H).
    + split; [discriminate|]. intros (y & E & _). discriminate.
  - apply PA. exact Logic.I.
  - apply PA. exact Logic.I.
Qed.
Lemma cmp_nested k r op l : cmp_value k r op (AKv D (Some l)) = Some (compare_helper k r op l).
Proof. cbn. f_equal. induction l as [|[k' v] l IH]; cbn; auto. destruct (seqb k' k); auto. destruct (cmp_value k r op v); auto. Qed.
Fixpoint asize (v : any) : nat :=
  match v with AKv _ (Some l) => S ((fix f (l : kvs) := match l with [] => 0 | (_, v) :: l' => S (asize v) + f l' end) l) | _ => 0 end.
Fixpoint lsize (l : kvs) : nat := match l with [] => 0 | (_, v) :: l' => S (asize v) + lsize l' end.
Lemma asize_kv l : asize (AKv D (Some l)) = S (lsize l).
Proof. cbn. f_equal. Qed.
Lemma decide_spec k r op : forall n l, lsize l <= n -> exists x, compare_helper k r op l = x /\
  ((exists v, decides k l v /\ cmp_value k r op v = Some x /\ leaf v) \/ ((forall v, ~ decides k l v) /\ x = Ok false)).
Proof.
  induction n as [|n IH]; intros l Hn.
  - destruct l as [|[k' v] l]; cbn in Hn; [|lia]. exists (Ok false). split; auto. right. split; auto. intros v H. inversion H.
  - destruct l as [|[k' v] l].
    + exists (Ok false). split; auto. right. split; auto. intros v H. inversion H.
    + cbn in Hn. cbn [OtelModel.compare_helper]. destruct (seqb k' k) eqn:Ek.
      * apply seqb_eq in Ek. subst k'.
        assert (C : leaf v \/ v = AUnset D \/ exists l', v = AKv D (Some l')) by (destruct v as [s|a|b|s|d|z|[l'|]| |]; cbn; eauto).
        destruct C as [L|[->|(l' & ->)]].
        -- destruct (leaf_spec k r op v L) as (x & E & _). rewrite E. exists x. split; auto. left. exists v. split; [now constructor|auto].
        -- cbn [OtelModel.cmp_value]. destruct (IH l) as (x & E & S); [lia|]. exists x. split; auto. destruct S as [(w & A & B & C)|(A & B)].
           ++ left. exists w. split; auto. now constructor.
           ++ right. split; auto. intros w H. inversion H; subst; [congruence|eapply A; eauto|cbn in *; tauto].
        -- rewrite cmp_nested. rewrite asize_kv in Hn. destruct (IH l') as (x & E & S); [lia|]. exists x. split; auto. destruct S as [(w & A & B & C)|(A & B)].
           ++ left. exists w. split; auto. now constructor.
           ++ right. split; auto. intros w H. inversion H; subst; [congruence|cbn in *; tauto|eapply A; eauto].
      * apply seqb_neq in Ek. destruct (IH l) as (x & E & S); [lia|]. exists x. split; auto. destruct S as [(w & A & B & C)|(A & B)].
        -- left. exists w. split; auto. now constructor.
        -- right. split; auto. intros w H. inversion H; subst; try congruence. eapply A; eauto.
Qed.
Lemma decides_leaf k l v : decides k l v -> leaf v.
Proof. induction 1; auto. Qed.
Lemma decides_fun k l v : decides k l v -> forall w, decides k l w -> v = w.
Proof.
  induction 1; intros x Hx; inversion Hx; subst; auto; try congruence; cbn in *; try tauto.
Qed.
Lemma helper_spec k r op l :
  (compare_helper k r op l = Panic <-> exists v, decides k l v /\ crashes op v) /\
  (forall b, compare_helper k r op l = Ok b -> (b = true <-> exists v, decides k l v /\ any_rel op v r)) /\
  (compare_helper k r op l = Panic \/ exists b, compare_helper k r op l = Ok b).
Proof.
  destruct (decide_spec k r op (lsize l) l (le_n _)) as (x & -> & [(v & A & B & C)|(A & ->)]).
  - destruct (leaf_spec k r op v C) as (y & E & P & Q & R). rewrite E in B. injection B as ->. split; [|split; auto].
    + rewrite P. split; [eauto|]. intros (w & Hw & K). now rewrite (decides_fun _ _ _ A _ Hw).
    + intros b Hb. rewrite (Q b Hb). split; [eauto|]. intros (w & Hw & K). now rewrite (decides_fun _ _ _ A _ Hw).
  - split; [split; [discriminate|intros (v & H & _); destruct (A v H)]|]. split; [|eauto]. intros b [= <-]. split; [discriminate|]. intros (v & H & _). destruct (A v H).
Qed.
Lemma all_attrs_spec r : all_attrs D r = match l_resource _ r with None => Panic | Some a => Ok (attributes D a (l_scopes _ r)) end.
Proof.
  unfold all_attrs. destruct (l_resource D r) as [a|]; auto. f_equal. unfold attributes. generalize (l_scopes D r). intros l. revert a.
  induction l as [|x l IH]; intros a; cbn; [now rewrite app_nil_r|]. rewrite IH. unfold sl_attrs. now rewrite !app_assoc.
Qed.
Lemma compare_spec lattr rattr op r a : l_resource _ r = Some a ->
  let o := o_compare D parse_float deq dlt dle lattr rattr op r in let l := attributes D a (l_scopes _ r) in
  (o = Panic <-> exists v, decides lattr l v /\ crashes op v) /\
  (forall b, o = Ok b -> (b = true <-> exists v, decides lattr l v /\ any_rel op v rattr)) /\
  (o = Panic \/ exists b, o = Ok b).
Proof. intros E. unfold o_compare. rewrite all_attrs_spec, E. cbn. apply helper_spec. Qed.
Lemma exists_spec attr r a : l_resource _ r = Some a ->
  exists b, o_exists D attr r = Ok b /\ (b = true <-> exists v, In (attr, v) (attributes D a (l_scopes _ r))).
Proof.
  intros E. unfold o_exists. rewrite all_attrs_spec, E. cbn. eexists. split; [reflexivity|]. rewrite existsb_exists. split.
  - intros ([k v] & H & S). apply seqb_eq in S. cbn in S. subst. eauto.
  - intros (v & H). exists (attr, v). split; auto. apply seqb_refl.
Qed.
Lemma first_skip k k' v l (w : any) : k' <> k -> first_value D k ((k', v) :: l) w <-> first_value D k l w.
Proof.
  intros N. split.
  - intros ([|[k0 v0] pre] & post & E & H); cbn in E; inversion E; [congruence|]. subst. exists pre, post. split; auto. intros x Hx. apply (H x). now right.
  - intros (pre & post & -> & H). exists ((k', v) :: pre), post. split; auto. intros x [E|Hx]; [congruence|]. now apply (H x).
Qed.
Lemma first_here k v l (w : any) : first_value D k ((k, v) :: l) w <-> w = v.
Proof.
  split.
  - intros ([|[k0 v0] pre] & post & E & H); cbn in E; inversion E; [auto|]. subst. destruct (H v0). now left.
  - intros ->. exists [], l. split; auto.
Qed.
Lemma first_none k (w : any) : ~ first_value D k [] w.
Proof. intros ([|] & post & E & _); discriminate. Qed.
Lemma regexp_spec find attr r a : l_resource _ r = Some a ->
  let o := o_regexp D find attr r in let l := attributes D a (l_scopes _ r) in
  (o = Panic <-> first_value D attr l (ANil D)) /\
  (forall b, o = Ok b -> (b = true <-> exists s, first_value D attr l (AStr D s) /\ find s <> "")) /\
  (o = Panic \/ exists b, o = Ok b).
Proof.
  intros E. unfold o_regexp. rewrite all_attrs_spec, E. cbn. generalize (attributes D a (l_scopes D r)). intros l. clear E r a.
  induction l as [|[k v] l IH]; cbn.
  - split; [split; [discriminate|intros H; now apply first_none in H]|]. split; [|eauto]. intros b [= <-]. split; [discriminate|]. intros (s & H & _). now apply first_none in H.
  - destruct (seqb k attr) eqn:Ek.
    + apply seqb_eq in Ek. subst k. rewrite first_here.
      destruct v; (split; [split; [try discriminate; auto|try discriminate; auto]|]); (split; [|eauto]); intros bb; try discriminate; intros [= <-]; split; try discriminate.
      all: try (intros (s' & H & K); apply first_here in H; try discriminate; injection H as ->; apply negb_true_iff; now apply seqb_neq).
      intros H. apply negb_true_iff, seqb_neq in H. eexists. split; [apply first_here; reflexivity|exact H].
    + apply seqb_neq in Ek. rewrite (first_skip attr k v l _ Ek). destruct IH as (P & Q & R). split; [exact P|]. split; [|exact R].
      intros b Hb. rewrite (Q b Hb). split; intros (s & H & K); exists s; split; auto; now apply (first_skip attr k v l _ Ek).
Qed.
Lemma foldany_spec attr l op r a : l_resource _ r = Some a -> 
  (forall v, decides attr (attributes D a (l_scopes _ r)) v -> ~ crashes op v) ->
  exists b, o_foldany D parse_float deq dlt dle attr l op r = Ok b /\ (b = true <-> exists x v, In x l /\ decides attr (attributes D a (l_scopes _ r)) v /\ any_rel op v x).
Proof.
  intros E NP. unfold o_foldany. rewrite all_attrs_spec, E. cbn. induction l as [|x l (b & IH & Hb)]; cbn.
  - eexists. split; [reflexivity|]. split; [discriminate|]. intros (x & v & [] & _).
  - destruct (helper_spec attr x op (attributes D a (l_scopes D r))) as (P & Q & [R|(b1 & R)]); [apply P in R as (v & A & B); destruct (NP v A B)|].
    rewrite R. cbn. specialize (Q b1 R). destruct b1.
    + exists true. split; auto. split; auto. intros _. destruct Q as [Q _]. destruct (Q eq_refl) as (v & A & B). eauto 6.
    + exists b. split; auto. rewrite Hb. split; intros (y & v & A & B & C); [eauto 6|]. destruct A as [<-|A]; [|eauto 6]. destruct Q as [_ Q]. discriminate Q. eauto.
Qed.
Lemma foldall_spec attr l op r a : l_resource _ r = Some a -> 
  (forall v, decides attr (attributes D a (l_scopes _ r)) v -> ~ crashes op v) ->
  exists b, o_foldall D parse_float deq dlt dle attr l op r = Ok b /\ (b = true <-> forall x, In x l -> exists v, decides attr (attributes D a (l_scopes _ r)) v /\ any_rel op v x).
Proof.
  intros E NP. unfold o_foldall. rewrite all_attrs_spec, E. cbn. induction l as [|x l (b & IH & Hb)]; cbn.
  - eexists. split; [reflexivity|]. split; auto. intros _ x [].
  - destruct (helper_spec attr x op (attributes D a (l_scopes D r))) as (P & Q & [R|(b1 & R)]); [apply P in R as (v & A & B); destruct (NP v A B)|].
    rewrite R. cbn. specialize (Q b1 R). destruct b1.
    + exists b. split; auto. rewrite Hb. split; [intros H y [<-|Hy]; [tauto|auto]|auto].
    + exists false. split; auto. split; [discriminate|]. intros H. apply Q. auto.
Qed.
Lemma bool_words b r : says r b -> r <> "False" -> b = false -> exists op, op = OpEq /\
  (forall k, compare_helper k r op [(k, ABool D false)] = Ok false) /\ (forall k, compare_helper k r op [(k, ABool D true)] = Ok true).
Proof.
  intros H N ->. exists OpEq. split; auto. apply seqb_neq in N. split; intros k; cbn; rewrite seqb_refl; cbn; unfold do_bool; rewrite N; reflexivity.
Qed.
Lemma bool_partial b v k r : (says r b /\ (b = true \/ r = "False")) ->
  compare_helper k r OpEq [(k, ABool D v)] = Ok (Bool.eqb v b).
Proof.
  intros [H C]. cbn. rewrite seqb_refl. cbn. unfold do_bool. destruct C as [->| ->].
  - assert (seqb r "False" = false) as ->; [|reflexivity]. apply seqb_neq. intros ->. vm_compute in H. discriminate.
  - vm_compute in H. injection H as <-. reflexivity.
Qed.

(** ** Annotation *)
Lemma push_str_spec p k l q s : push_str D (p ++ (k, AArr D (Some l)) :: q) (length p) s = Ok (p ++ (k, AArr D (Some (l ++ [EStr s]))) :: q).
Proof. 
  unfold push_str. rewrite nth_error_app2 by lia. rewrite Nat.sub_diag. cbn [nth_error]. f_equal.
  induction p as [|x p IH]; cbn; auto. f_equal. auto.
Qed.
Lemma push_all_spec p k q ss : forall l, push_all D (p ++ (k, AArr D (Some l)) :: q) (length p) ss = Ok (p ++ (k, AArr D (Some (l ++ map EStr ss))) :: q).
Proof.
  induction ss as [|s ss IH]; intros l; cbn [push_all map]; [now rewrite app_nil_r|]. rewrite push_str_spec. cbn [rbind]. rewrite IH. now rewrite <- app_assoc.
Qed.
Notation arr := (arr D).
Lemma annotate_new enum rules : annotate D enum rules [] = Ok [(RULES, arr (map fst rules)); (TAGS, arr (enum (tag_set rules)))].
Proof.
  unfold annotate, get_attr. cbn -[push_all tag_set RULES TAGS]. 
  replace (seqb RULES TAGS) with false by reflexivity. cbn -[push_all tag_set RULES TAGS].
  pose proof (push_all_spec [] RULES [(TAGS, AArr D (Some []))] (map fst rules) []) as X; cbn [app length] in X; rewrite X; clear X. cbn -[push_all tag_set RULES TAGS].
  pose proof (push_all_spec [(RULES, AArr D (Some (map EStr (map fst rules))))] TAGS [] (enum (tag_set rules)) []) as X; cbn [app length] in X; rewrite X; clear X. reflexivity.
Qed.
Lemma annotate_again enum rules rs ts : annotate D enum rules [(RULES, arr rs); (TAGS, arr ts)] = Ok [(RULES, arr (rs ++ map fst rules)); (TAGS, arr (ts ++ enum (tag_set rules)))].
Proof.
  unfold annotate, get_attr. cbn -[push_all tag_set RULES TAGS arr]. 
  replace (seqb RULES RULES) with true by reflexivity. cbn -[push_all tag_set RULES TAGS arr]. replace (seqb RULES TAGS) with false by reflexivity. cbn -[push_all tag_set RULES TAGS arr].
  replace (seqb TAGS TAGS) with true by reflexivity. cbn -[push_all tag_set RULES TAGS arr].
  unfold arr at 1. pose proof (push_all_spec [] RULES [(TAGS, arr ts)] (map fst rules) (map EStr rs)) as X; cbn [app length] in X; rewrite X; clear X. cbn -[push_all tag_set RULES TAGS arr].
  unfold arr at 1. pose proof (push_all_spec [(RULES, AArr D (Some (map EStr rs ++ map EStr (map fst rules))))] TAGS [] (enum (tag_set rules)) (map EStr ts)) as X; cbn [app length] in X; rewrite X; clear X.
  unfold arr. now rewrite !map_app.
Qed.
Lemma in_scope_foreign f l r : Forall (foreign D) l -> in_scope D f (l ++ r) = rbind (in_scope D f r) (fun r' => Ok (l ++ r')).
Proof.
  induction 1 as [|sl l H HF IH]; cbn; [destruct (in_scope D f r); reflexivity|]. rewrite IH.
  assert (X : rbind (rbind (in_scope D f r) (fun r' => Ok (l ++ r'))) (fun l1 => Ok (sl :: l1)) = rbind (in_scope D f r) (fun r' => Ok (sl :: l ++ r'))) by (destruct (in_scope D f r); reflexivity).
  destruct (sl_scope D sl) as [s|] eqn:E; auto. destruct (seqb (sc_name D s) SCOPE) eqn:Es; auto. apply seqb_eq in Es. destruct (H s E Es).
Qed.
Notation own := (own D).
Notation annotations := (annotations D).
Lemma own_model rs ts : mkSL D (Some (mkScope D SCOPE [(RULES, arr rs); (TAGS, arr ts)])) [] = own rs ts.
Proof. reflexivity. Qed.
Lemma annotations_more h : forall res scopes rs ts, Forall (foreign D) scopes ->
  annotations h (mkLogs D res (scopes ++ [own rs ts])) = Ok (mkLogs D res (scopes ++ [own (rs ++ names h) (ts ++ tags h)])).
Proof.
  induction h as [|[e rules] h IH]; intros res scopes rs ts F; cbn [annotations names tags flat_map]; [now rewrite !app_nil_r|].
  unfold o_addrules at 1. cbn [l_scopes l_resource]. rewrite in_scope_foreign by auto. rewrite <- (own_model rs ts). cbn [in_scope sl_scope sc_name sc_attrs].
  replace (seqb SCOPE SCOPE) with true by reflexivity. rewrite annotate_again. cbn [rbind sl_records]. rewrite (own_model (rs ++ map fst rules) (ts ++ e (tag_set rules))).
  rewrite IH by auto. cbn [fst snd]. now rewrite !app_assoc.
Qed.
Lemma annotations_spec h res scopes : Forall (foreign D) scopes -> h <> [] ->
  annotations h (mkLogs D res scopes) = Ok (mkLogs D res (scopes ++ [own (names h) (tags h)])).
Proof.
  destruct h as [|[e rules] h]; [congruence|]. intros F _. cbn [annotations]. unfold o_addrules at 1. cbn [l_scopes l_resource].
  rewrite <- (app_nil_r scopes) at 1. rewrite in_scope_foreign by auto. cbn [in_scope]. rewrite annotate_new. cbn [rbind].
  rewrite (own_model (map fst rules) (e (tag_set rules))). rewrite annotations_more by auto. reflexivity.
Qed.
Lemma tag_set_spec rules t : In t (tag_set rules) <-> exists r tg, In r rules /\ In tg (snd r) /\ In t (tag_strings tg).
Proof.
  unfold tag_set. rewrite nodup_In, in_flat_map. split.
  - intros (r & Hr & H). apply in_flat_map in H as (tg & A & B). eauto.
  - intros (r & tg & A & B & C). exists r. split; auto. apply in_flat_map. eauto.
Qed.
Lemma tag_set_nodup rules : NoDup (tag_set rules).
Proof. apply NoDup_nodup. Qed.
Lemma get_attr_spec attrs key a i : get_attr D attrs key = (a, i) -> (exists v, nth_error a i = Some (key, v)) /\ (a = attrs \/ a = attrs ++ [(key, AArr D (Some []))]).
Proof.
  unfold get_attr. assert (K : forall j, (match nth_error attrs j with Some (k, _) => seqb k key | None => false end) = true -> exists v, nth_error attrs j = Some (key, v)).
  { intros j. destruct (nth_error attrs j) as [[k v]|]; [|discriminate]. intros E. apply seqb_eq in E. subst. eauto. }
  destruct (_ && _) eqn:E1; [intros [= <- <-]; apply andb_prop in E1 as [_ E1]; auto|].
  destruct ((0 <? _) && _) eqn:E2; [intros [= <- <-]; apply andb_prop in E2 as [_ E2]; auto|].
  intros [= <- <-]. split; auto. rewrite nth_error_app2 by lia. rewrite Nat.sub_diag. cbn. eauto.
Qed.
Lemma filter_upd {A} (p : A -> bool) l : forall i x y, nth_error l i = Some x -> p x = false -> p y = false -> List.filter p (upd l i y) = List.filter p l.
Proof. induction l as [|a l IH]; intros [|i] x y; cbn; try discriminate; [intros [= ->] -> ->; auto|]. intros H Hx Hy. rewrite (IH _ x); auto. Qed.
Lemma push_all_filter key ss : (key = RULES \/ key = TAGS) -> forall attrs i a, (exists v, nth_error attrs i = Some (key, v)) -> push_all D attrs i ss = Ok a ->
  others D a = others D attrs /\ forall j k v, nth_error attrs j = Some (k, v) -> exists v', nth_error a j = Some (k, v').
Proof.
  intros Hk. 
  assert (PF : forall v, negb (seqb key RULES) && negb (seqb key TAGS) = false /\ v = v :> any) by (intros v; split; auto; destruct Hk as [-> | ->]; reflexivity).
  induction ss as [|s ss IH]; intros attrs i a (v & Hv); cbn [push_all].
  - intros [= <-]. split; auto. eauto.
  - intros H. apply rbind_okb in H as (a1 & E & H). unfold push_str in E. rewrite Hv in E. destruct v as [|[l|]| | | | | | |]; try discriminate. injection E as <-.
    destruct (IH (upd attrs i (key, AArr D (Some (l ++ [EStr s])))) i a) as [A B]; auto.
    { exists (AArr D (Some (l ++ [EStr s]))). assert (i < length attrs) by (apply nth_error_Some; congruence). revert H0. clear. revert i. induction attrs as [|x attrs IH]; intros [|i]; cbn; try lia; auto. intros L. apply IH. lia. }
    split.
    + rewrite A. unfold others. eapply filter_upd; [exact Hv| |]; cbn [fst]; apply PF; exact (AUnset D).
    + intros j k w Hj. destruct (Nat.eq_dec i j) as [<-|N].
      * rewrite Hv in Hj. injection Hj as <- <-. apply (B i key (AArr D (Some (l ++ [EStr s])))).
        assert (L : i < length attrs) by (apply nth_error_Some; congruence). revert L. clear. revert i. induction attrs as [|x attrs IH]; intros [|i]; cbn; try lia; auto. intros L. apply IH. lia.
      * apply (B j k w). rewrite <- Hj. revert N. clear. revert i j. induction attrs as [|x attrs IH]; intros [|i] [|j]; cbn; auto; try congruence. 
Qed.
Lemma others_app a b : others D (a ++ b) = others D a ++ others D b.
Proof. apply filter_app. Qed.
Lemma annotate_others enum rules attrs a : annotate D enum rules attrs = Ok a -> others D a = others D attrs.
Proof.
  unfold annotate. destruct (get_attr D attrs RULES) as [a1 ir] eqn:E1. destruct (get_attr D a1 TAGS) as [a2 it] eqn:E2.
  apply get_attr_spec in E1 as ((v1 & V1) & C1). apply get_attr_spec in E2 as ((v2 & V2) & C2). intros H. apply rbind_okb in H as (a3 & P1 & P2).
  assert (O1 : others D a1 = others D attrs) by (destruct C1 as [-> | ->]; auto; rewrite others_app; cbn; now rewrite app_nil_r).
  assert (O2 : others D a2 = others D a1) by (destruct C2 as [-> | ->]; auto; rewrite others_app; cbn; now rewrite app_nil_r).
  assert (V1' : exists v, nth_error a2 ir = Some (RULES, v)) by (exists v1; destruct C2 as [-> | ->]; auto; rewrite nth_error_app1; auto; apply nth_error_Some; congruence).
  destruct (push_all_filter RULES _ (or_introl eq_refl) _ _ _ V1' P1) as [A B].
  destruct (push_all_filter TAGS _ (or_intror eq_refl) _ _ _ (B _ _ _ V2) P2) as [A' _]. congruence.
Qed.
(** On any log: whatever happens, the rest of the log is untouched. *)
Lemma addrules_frame enum rules r r' : o_addrules D enum rules r = Ok r' ->
  l_resource _ r' = l_resource _ r /\
  exists pre sl post, (l_scopes _ r' = pre ++ sl :: post) /\ Forall (foreign D) pre /\
    ((l_scopes _ r = pre /\ post = [] /\ sl_records _ sl = []) \/
     exists sl0 s0, l_scopes _ r = pre ++ sl0 :: post /\ sl_scope _ sl0 = Some s0 /\ sc_name _ s0 = SCOPE /\ sl_records _ sl = sl_records _ sl0 /\
       forall s, sl_scope _ sl = Some s -> others D (sc_attrs _ s) = others D (sc_attrs _ s0)) /\
    exists s, sl_scope _ sl = Some s /\ sc_name _ s = SCOPE.
Proof.
  unfold o_addrules. intros H. apply rbind_okb in H as (l & E & [= <-]). cbn [l_resource l_scopes]. split; auto.
  revert l E. generalize (l_scopes D r). induction l as [|sl l IH]; intros l' E; cbn [in_scope] in E.
  - apply rbind_okb in E as (a & _ & [= <-]). exists [], (mkSL D (Some (mkScope D SCOPE a)) []), []. split; auto. split; auto. split; [left; auto|]. cbn. eauto.
  - assert (REC : (forall s, sl_scope D sl = Some s -> sc_name D s <> SCOPE) -> rbind (in_scope D (annotate D enum rules) l) (fun l1 => Ok (sl :: l1)) = Ok l' ->
       exists pre sl' post, l' = pre ++ sl' :: post /\ Forall (foreign D) pre /\
       ((sl :: l = pre /\ post = [] /\ sl_records _ sl' = []) \/ exists sl0 s0, sl :: l = pre ++ sl0 :: post /\ sl_scope _ sl0 = Some s0 /\ sc_name _ s0 = SCOPE /\ sl_records _ sl' = sl_records _ sl0 /\
         forall s, sl_scope _ sl' = Some s -> others D (sc_attrs _ s) = others D (sc_attrs _ s0)) /\
       exists s, sl_scope _ sl' = Some s /\ sc_name _ s = SCOPE).
    { intros Fr H. apply rbind_okb in H as (l1 & H1 & [= <-]). destruct (IH l1 H1) as (pre & sl' & post & -> & F & C & S).
      exists (sl :: pre), sl', post. split; auto. split; [constructor; auto|]. split; auto. destruct C as [(-> & -> & C)|(sl0 & s0 & -> & C)]; [left; auto|right]. exists sl0, s0. auto. }
    destruct (sl_scope D sl) as [s|] eqn:Es; [|apply REC; auto; discriminate]. destruct (seqb (sc_name D s) SCOPE) eqn:En.
    + apply rbind_okb in E as (a & Ea & [= <-]). exists [], (mkSL D (Some (mkScope D (sc_name D s) a)) (sl_records D sl)), l. split; auto. split; auto. apply seqb_eq in En.
      split; [right; exists sl, s; repeat (split; auto); cbn; intros s1 [= <-]; eapply annotate_others; eauto|]. cbn. eauto.
    + apply seqb_neq in En. apply REC; auto. intros s' [= <-]. auto.
Qed.
End F.

(** * JsonFacts5: no name occurs twice in an object. *)
From Coq Require Import Lia ZifyBool.
From Verif Require Import GoBase GoFacts Predicates FlatRecord FieldTables JsonModel SpecJson JsonFacts JsonFacts2 JsonFacts3 JsonFacts4.
Open Scope string_scope.
Lemma unique_arr {A} (g : A -> json) l : (forall a, unique (g a)) -> unique (JArr (map g l)).
Proof. intros H. constructor. rewrite Forall_forall. intros j Hj. apply in_map_iff in Hj as (a & <- & _). apply H. Qed.
Fixpoint nodupb (l : list string) : bool := match l with [] => true | a :: l' => negb (existsb (String.eqb a) l') && nodupb l' end.
Lemma nodupb_ok l : nodupb l = true -> NoDup l.
Proof.
  induction l as [|a l IH]; cbn; intros H; constructor.
  - apply andb_prop in H as [H _]. intros I. assert (E : existsb (String.eqb a) l = true) by (apply existsb_exists; exists a; split; [exact I|apply String.eqb_refl]). rewrite E in H. discriminate.
  - apply IH. apply andb_prop in H as [_ H]. exact H.
Qed.
Lemma unique_obj l : nodupb (map fst l) = true -> Forall (fun kv : string * json => unique (snd kv)) l -> unique (JObj l).
Proof. intros A B. constructor; [apply nodupb_ok, A|exact B]. Qed.
Ltac un := repeat (apply Forall_cons; [cbn [snd]|]); try apply Forall_nil; try apply un_str; try apply un_num; try apply un_bool.
Section U.
Variables (X : sfgo_fns) (txt : string -> string) (two : bool) (fr : flatrec).
Lemma port_unique p : unique (port_value txt p).
Proof. apply unique_obj; [reflexivity|un]. Qed.
Lemma addresses_unique l : unique (addresses l).
Proof. apply unique_arr. constructor. Qed.
Lemma service_unique s : unique (service_value txt s).
Proof. apply unique_obj; [reflexivity|]. un; [apply (addresses_unique)|]. apply unique_arr, port_unique. Qed.
Lemma special_unique : Forall (fun kv => unique (snd kv)) (special X txt two fr).
Proof.
  unfold special. repeat (apply Forall_cons; [cbn [snd]|]); try apply Forall_nil.
  all: unfold ptext, pnum, pbool, text; try destruct (parent fr); try (constructor; fail); try apply addresses_unique; try (apply unique_arr, service_unique); try (apply unique_arr; intros; constructor; fail).
  all: try destruct two; try apply addresses_unique; constructor; un.
Qed.
Lemma attr_unique n : unique (attr_value X txt two fr n).
Proof.
  unfold attr_value. destruct (mget n (special X txt two fr)) as [v|] eqn:E.
  - pose proof special_unique as F. induction (special X txt two fr) as [|[k j] l IH]; [discriminate|]. inversion F as [|x y F1 F2]; subst. cbn [mget] in E.
    destruct (seqb n k); [injection E as <-; exact F1|apply IH; auto].
  - destruct (map_attr X mappers n fr); unfold text; constructor; constructor.
Qed.
Lemma vals_unique kas : nodupb (map fst kas) = true -> unique (JObj (vals X txt two fr kas)).
Proof.
  intros H. apply unique_obj.
  - unfold vals. rewrite map_map. exact H.
  - rewrite Forall_forall. intros kv I. unfold vals in I. apply in_map_iff in I as (ka & <- & _). apply attr_unique.
Qed.
Context {R : Type}.
Lemma nodup_filter {A} (f : A -> string) (P : A -> bool) l : forall h t, NoDup (h ++ map f l ++ t) -> NoDup (h ++ map f (List.filter P l) ++ t).
Proof.
  induction l as [|a l IH]; intros h t H; [exact H|]. cbn [map List.filter List.app] in *. destruct (P a).
  - cbn [map List.app]. specialize (IH (h ++ [f a])%list t). rewrite <- !app_assoc in IH. cbn [List.app] in IH. apply IH, H.
  - apply IH. apply NoDup_remove_1 in H. exact H.
Qed.
Theorem record_unique vj (ctx : context (rule R)) : unique vj -> unique (record_value X txt two vj fr ctx).
Proof.
  intros V. unfold record_value. fold (vals X txt two fr top). constructor.
  - rewrite !map_app. unfold vals at 1. rewrite !map_map. cbn [fst map].
    set (P := fun s : section * string * list (string * string) => has_section X fr (fst (fst s))).
    assert (T : NoDup ((["version"] ++ map fst top) ++ map (fun b : block => snd (fst b)) (List.filter P sections) ++ ["policies"; "tags"])).
    { apply nodup_filter. apply nodupb_ok. vm_compute. reflexivity. }
    rewrite app_assoc in T. set (L := ((["version"] ++ map fst top) ++ map (fun b : block => snd (fst b)) (List.filter P sections))%list) in T.
    assert (T1 : NoDup (L ++ ["tags"])) by exact (NoDup_remove_1 L ["tags"] "policies" T).
    assert (T2 : NoDup (L ++ ["policies"])).
    { rewrite <- (app_nil_r (L ++ ["policies"])). apply (NoDup_remove_1 _ [] "tags"). rewrite <- app_assoc. exact T. }
    assert (T3 : NoDup L) by (rewrite <- (app_nil_r L); exact (NoDup_remove_1 L [] "tags" T1)).
    rewrite !app_assoc. fold L.
    destruct (ctx_getrules ctx) as [|r rs], (all_tags ctx) as [|t ts]; cbn [map fst]; rewrite ?app_nil_r; auto. rewrite <- app_assoc. exact T.
  - apply Forall_app. split; [repeat constructor; exact V|]. apply Forall_app. split; [|apply Forall_app; split; [|apply Forall_app; split]].
    + rewrite Forall_forall. intros kv I. unfold vals in I. apply in_map_iff in I as (ka & <- & _). apply attr_unique.
    + rewrite Forall_forall. intros kv I. apply in_map_iff in I as (b & <- & I). apply filter_In in I as [I _]. apply (vals_unique (snd b)).
      assert (F : Forall (fun b : block => nodupb (map fst (snd b)) = true) sections) by (unfold sections; repeat constructor).
      exact (proj1 (Forall_forall _ _) F b I).
    + destruct (ctx_getrules ctx) as [|r rs]; constructor; [|constructor]. cbn [snd]. apply (unique_arr (rule_value txt) (r :: rs)). intros q. apply unique_obj; [reflexivity|un].
    + destruct (all_tags ctx) as [|t ts]; constructor; [|constructor]. cbn [snd]. apply (unique_arr (fun t => JStr (txt t)) (t :: ts)). intros q. constructor.
Qed.
End U.

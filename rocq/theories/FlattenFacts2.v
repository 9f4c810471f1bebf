(** * FlattenFacts2: output, attribute meanings, semantic hash, aliases, configuration. *)
From Verif Require Import GoBase GoFacts Predicates FlatRecord FieldTables EngineModel EngineFacts FlattenModel SpecFlatten FlattenFacts.
From Coq Require Import Lia.

(** ** Attribute meanings *)
Lemma wrap64_0 : wrap64 0 = 0%Z. Proof. reflexivity. Qed.
Lemma wrap64_idem : forall z, wrap64 (wrap64 z) = wrap64 z.
Proof.
  intros z; unfold wrap64. set (M := 18446744073709551616%Z). set (H := 9223372036854775808%Z).
  replace (((z + H) mod M - H + H))%Z with ((z + H) mod M)%Z by lia.
  rewrite Z.mod_mod by (subst M; lia). reflexivity.
Qed.

(** The last assignment to a slot. *)
Fixpoint lasti (a : iattr) (l : list wr) : option Z :=
  match l with
  | [] => None
  | WI b z :: l' => match lasti a l' with Some r => Some r | None => if iattr_beq b a then Some z else None end
  | _ :: l' => lasti a l'
  end.
Fixpoint lasts (a : sattr) (l : list wr) : option string :=
  match l with
  | [] => None
  | WS b z :: l' => match lasts a l' with Some r => Some r | None => if sattr_beq b a then Some z else None end
  | _ :: l' => lasts a l'
  end.
Fixpoint lasta (a : aattr) (l : list wr) : option anyval :=
  match l with
  | [] => None
  | WA b z :: l' => match lasta a l' with Some r => Some r | None => if aattr_beq b a then Some z else None end
  | _ :: l' => lasta a l'
  end.
Definition over {A} (o d : option A) : option A := match o with Some r => Some r | None => d end.
Definition get {A} (d : A) (o : option A) : A := match o with Some r => r | None => d end.
Lemma lasti_app : forall a l m, lasti a (l ++ m) = over (lasti a m) (lasti a l).
Proof. induction l as [|[]]; intros; cbn [lasti app]; rewrite ?IHl; unfold over; try (destruct (lasti a m); reflexivity); auto. Qed.
Lemma lasts_app : forall a l m, lasts a (l ++ m) = over (lasts a m) (lasts a l).
Proof. induction l as [|[]]; intros; cbn [lasts app]; rewrite ?IHl; unfold over; try (destruct (lasts a m); reflexivity); auto. Qed.
Lemma lasta_app : forall a l m, lasta a (l ++ m) = over (lasta a m) (lasta a l).
Proof. induction l as [|[]]; intros; cbn [lasta app]; rewrite ?IHl; unfold over; try (destruct (lasta a m); reflexivity); auto. Qed.
Lemma fold_src : forall l sl, sl_src (fold_left write l sl) = sl_src sl.
Proof. induction l as [|[] l IH]; intros; cbn [fold_left]; rewrite ?IH; reflexivity. Qed.
Lemma fold_ints : forall a l sl, sl_ints (fold_left write l sl) a = get (sl_ints sl a) (lasti a l).
Proof.
  induction l as [|[] l IH]; intros; cbn [fold_left lasti]; rewrite ?IH; try reflexivity.
  destruct (lasti a l); [reflexivity|]. cbn. destruct (iattr_beq a0 a); reflexivity.
Qed.
Lemma fold_strs : forall a l sl, sl_strs (fold_left write l sl) a = get (sl_strs sl a) (lasts a l).
Proof.
  induction l as [|[] l IH]; intros; cbn [fold_left lasts]; rewrite ?IH; try reflexivity.
  destruct (lasts a l); [reflexivity|]. cbn. destruct (sattr_beq a0 a); reflexivity.
Qed.
Lemma fold_anys : forall a l sl, sl_anys (fold_left write l sl) a = get (sl_anys sl a) (lasta a l).
Proof.
  induction l as [|[] l IH]; intros; cbn [fold_left lasta]; rewrite ?IH; try reflexivity.
  destruct (lasta a l); [reflexivity|]. cbn. destruct (aattr_beq a0 a); reflexivity.
Qed.

Ltac none o := match type of o with
  | option process => destruct o as [[? ? [?|] ? ? ? ? ? ? ? ? ? ?]|]; reflexivity
  | _ => destruct o; reflexivity end.
Ltac skip1 := match goal with
  | |- context [lasti ?a (?f ?o)] => replace (lasti a (f o)) with (@None Z) by none o
  | |- context [lasts ?a (?f ?o)] => replace (lasts a (f o)) with (@None string) by none o
  | |- context [lasta ?a (?f ?o)] => replace (lasta a (f o)) with (@None anyval) by none o
  end.

Section Meaning.
Variable X : sfgo_fns.
Variables (ipstr : Z -> string) (jsonsvcs : list service -> string).
Variables (x : fctx) (e : fevent).
Notation W := (writes_of ipstr jsonsvcs x e).
Lemma read_int : forall a, get_int (fr_slots (flatten ipstr jsonsvcs x e)) a SYSFLOW_SRC = get 0%Z (lasti a W).
Proof. intros; unfold flatten; cbn [fr_slots get_int]. rewrite fold_src. cbn [sl_src new_flat source_beq]. apply fold_ints. Qed.
Lemma read_str : forall a, get_str (fr_slots (flatten ipstr jsonsvcs x e)) a SYSFLOW_SRC = get "" (lasts a W).
Proof. intros; unfold flatten; cbn [fr_slots get_str]. rewrite fold_src. cbn [sl_src new_flat source_beq]. apply fold_strs. Qed.
Lemma read_any : forall a, get_any (fr_slots (flatten ipstr jsonsvcs x e)) a SYSFLOW_SRC = get ANil (lasta a W).
Proof. intros; unfold flatten; cbn [fr_slots get_any]. rewrite fold_src. cbn [sl_src new_flat source_beq]. apply fold_anys. Qed.

Definition means (p : string * gval) : Prop := map_attr X mappers (fst p) (flatten ipstr jsonsvcs x e) = snd p.

Ltac mean := unfold means; cbn [fst snd]; unfold map_attr;
  match goal with |- context [mget ?k mappers] => let v := eval vm_compute in (mget k mappers) in change (mget k mappers) with v end; cbv iota beta.
Lemma digit_ok : forall n, n < 16 -> digit16 n = hexdigit n.
Proof. intros n H. do 16 (destruct n as [|n]; [reflexivity|]). lia. Qed.
Lemma hex_ok : forall s, hextext s = hex s.
Proof.
  induction s as [|a s IH]; [reflexivity|]. cbn [hextext hex].
  rewrite IH, !digit_ok; [reflexivity|apply Nat.mod_upper_bound; discriminate|].
  apply Nat.div_lt_upper_bound; [discriminate|]. exact (nat_ascii_bounded a).
Qed.
Lemma path_ok s : path_of X s = fst (parse_sym_path X s).
Proof. unfold path_of, parse_sym_path. destruct (x_symscan X s) as [[]|]; reflexivity. Qed.
Lemma link_ok s : link_of X s = snd (parse_sym_path X s).
Proof. unfold link_of, parse_sym_path. destruct (x_symscan X s) as [[]|]; reflexivity. Qed.
Lemma meaning_ok : Forall means (meaning X ipstr jsonsvcs x e).
Proof.
  unfold meaning.
  assert (HE : forall o, fs o (fun f => hextext (ff_oid f)) = fs o (fun f => hex (ff_oid f))) by (intros [f|]; [apply hex_ok|reflexivity]).
  rewrite !HE, ?path_ok, ?link_ok. clear HE.
  repeat (apply Forall_cons; [mean; shelve|]). apply Forall_nil.
  Unshelve.
  all: cbn [run_fmap fold_left map]; unfold get_int_array, get_svc_array.
  all: rewrite ?read_int, ?read_str, ?read_any.
  all: destruct e; cbn [writes_of]; unfold fill_entities; rewrite ?lasti_app, ?lasts_app, ?lasta_app.
  all: try reflexivity.
  all: destruct x as [hd pd ct pr pt fi nf]; cbn [x_hdr x_pod x_cont x_proc x_ptree x_file x_newfile].
  all: try (destruct pt as [[|? [|? ?]]|]; reflexivity).
  all: try (destruct hd; reflexivity).
  all: repeat skip1.
  all: try reflexivity.
  all: try (destruct hd; reflexivity).
  all: try (destruct ct; reflexivity).
  all: try (destruct pd; reflexivity).
  all: try (destruct pr; reflexivity).
  all: try (destruct fi; reflexivity).
  all: try (destruct nf; reflexivity).
  all: try (destruct pr as [[? ? [?|] ? ? ? ? ? ? ? ? ? ?]|]; reflexivity).
  all: unfold cnt; match goal with |- VInt (wrap64 (wrap64 (0 + ?a) + ?b)) = VInt (wrap64 ?c) => change a with c; change b with 0%Z end;
    rewrite Z.add_0_r, wrap64_idem; reflexivity.
Qed.
End Meaning.

Lemma meaning_names : forall X i j x e, map fst (meaning X i j x e) = map fst exported_entries.
Proof. reflexivity. Qed.
Lemma fields : forall X i j x e name v, In (name, v) (meaning X i j x e) -> map_attr X mappers name (flatten i j x e) = v.
Proof. intros X i j x e name v H. pose proof (meaning_ok X i j x e) as F. rewrite Forall_forall in F. exact (F _ H). Qed.

Lemma unnamed : forall i j x e,
  (forall a z, In (a, z) (unnamed_numbers x e) -> get_int (fr_slots (flatten i j x e)) a SYSFLOW_SRC = z) /\
  (forall a s, In (a, s) (unnamed_texts x e) -> get_str (fr_slots (flatten i j x e)) a SYSFLOW_SRC = s) /\
  fr_ptree (flatten i j x e) = ancestors x e.
Proof.
  intros i j [h pd c p t f nf] e. split; [|split].
  - assert (F : Forall (fun q => get_int (fr_slots (flatten i j (mkFCtx h pd c p t f nf) e)) (fst q) SYSFLOW_SRC = snd q) (unnamed_numbers (mkFCtx h pd c p t f nf) e)).
    { destruct e, h, pd, c, p as [[]|], f, nf; repeat constructor; try (destruct p_poid); reflexivity. }
    rewrite Forall_forall in F. intros a z H. exact (F _ H).
  - assert (F : Forall (fun q => get_str (fr_slots (flatten i j (mkFCtx h pd c p t f nf) e)) (fst q) SYSFLOW_SRC = snd q) (unnamed_texts (mkFCtx h pd c p t f nf) e)).
    { destruct e, h, pd, c, p as [[]|], f, nf; repeat constructor; try (destruct p_poid); reflexivity. }
    rewrite Forall_forall in F. intros a z H. exact (F _ H).
  - destruct e; reflexivity.
Qed.
(** ** Aliases *)
Lemma alias_ok : forall X p fr, In p aliases -> map_attr X mappers (fst p) fr = map_attr X mappers (snd p) fr.
Proof.
  intros X p fr H. assert (F : Forall (fun p => mget (fst p) mappers = mget (snd p) mappers /\ mget (snd p) mappers <> None) aliases).
  { let l := eval vm_compute in aliases in change aliases with l. repeat (apply Forall_cons; [split; [vm_compute; reflexivity|vm_compute; discriminate]|]). apply Forall_nil. }
  rewrite Forall_forall in F. destruct (F _ H) as [E N]. unfold map_attr. rewrite E. destruct (mget (snd p) mappers); [reflexivity|congruence].
Qed.
Lemma alias_wrong : forall X p fr, In p misdirected -> map_attr X mappers (fst p) fr = map_attr X mappers (snd p) fr.
Proof.
  intros X p fr H. unfold misdirected in H. cbn [In] in H. repeat destruct H as [<-|H]; try reflexivity. destruct H.
Qed.
Lemma alias_missing : forall X n fr, In n unsupported -> map_attr X mappers n fr = VStr n.
Proof.
  intros X p fr H. unfold unsupported in H. cbn [In] in H. repeat destruct H as [<-|H]; try reflexivity. destruct H.
Qed.

(** ** Output *)
Section Out.
Variable clk : nat -> Z.
Variables (ipstr : Z -> string) (jsonsvcs : list service -> string).
Variable hash : flatrec -> Z.
Variable ttl : Z.
Notation flat := (fun xe : fctx * fevent => flatten ipstr jsonsvcs (fst xe) (snd xe)).
Notation consults := (consults ipstr jsonsvcs hash).
Lemma send_repeat : forall fr acc n, send_all fr (repeat acc n) = repeat (acc ++ [fr]) n.
Proof. intros fr acc n; unfold send_all. induction n; cbn; [reflexivity|]. f_equal; auto. Qed.
Lemma handle_all_run : forall l s acc n s' tr, f_run clk ttl s (map consults l) = (s', tr) ->
  handle_all clk ipstr jsonsvcs hash (mkFlt (Some (ttl, s)) (repeat acc n)) l =
  mkFlt (Some (ttl, s')) (repeat (acc ++ kept (map flat l) tr) n).
Proof.
  unfold handle_all. induction l as [|xe l IH]; intros s acc n s' tr H.
  - injection H as <- <-. cbn. rewrite app_nil_r. reflexivity.
  - destruct xe as [x ev]. cbn [map f_run fold_left] in *. unfold SpecFlatten.consults at 1 in H. unfold handle at 2. cbn [fl_filter fl_out fst snd] in *.
    destruct ev as [k|k|k|k|k].
    { destruct (f_run clk ttl s (map consults l)) as [s2 t2] eqn:R; injection H as <- <-.
      rewrite send_repeat, (IH _ _ _ _ _ R), <- app_assoc. reflexivity. }
    all: match type of H with context [test_and_add ?c ?t ?h ?z] => destruct (test_and_add c t h z) as [s1 b] eqn:T end;
      destruct (f_run clk ttl s1 (map consults l)) as [s2 t2] eqn:R; injection H as <- <-; destruct b;
      [rewrite (IH _ _ _ _ _ R); reflexivity|
       rewrite send_repeat, (IH _ _ _ _ _ R), <- app_assoc; reflexivity].
Qed.
Lemma handle_all_off : forall l acc n,
  handle_all clk ipstr jsonsvcs hash (mkFlt None (repeat acc n)) l = mkFlt None (repeat (acc ++ map flat l) n).
Proof.
  unfold handle_all. induction l as [|xe l IH]; intros acc n; cbn [map fold_left].
  - rewrite app_nil_r; reflexivity.
  - unfold handle at 2. cbn [fl_filter fl_out]. destruct xe as [x ev]; cbn [fst snd]; destruct ev; rewrite send_repeat, IH, <- app_assoc; reflexivity.
Qed.
End Out.

(** ** Semantic hash *)
Section Hash.
Variables (ipstr : Z -> string) (jsonsvcs : list service -> string).
Definition bytes_of (m : semantics) : string :=
  (sm_exe m ++ sm_args m ++ le64 (sm_uid m) ++ le64 (sm_gid m) ++ le64 (sm_flags m) ++ le64 (sm_tty m) ++
   (match sm_net m with Some (a, b, c, d) => le64 a ++ le64 b ++ le64 c ++ le64 d | None => "" end) ++
   (match sm_path m with Some p => p | None => "" end))%string.
Lemma attr_int : forall X x e a n v, mget n mappers = Some (MInt SYSFLOW_SRC a) -> In (n, VInt v) (meaning X ipstr jsonsvcs x e) ->
  get_int (fr_slots (flatten ipstr jsonsvcs x e)) a SYSFLOW_SRC = v.
Proof. intros X x e a n v M H. apply fields in H. unfold map_attr in H. rewrite M in H. cbn [run_fmap] in H. injection H as H. exact H. Qed.
Lemma attr_str : forall X x e a n v, mget n mappers = Some (MStr SYSFLOW_SRC a) -> In (n, VStr v) (meaning X ipstr jsonsvcs x e) ->
  get_str (fr_slots (flatten ipstr jsonsvcs x e)) a SYSFLOW_SRC = v.
Proof. intros X x e a n v M H. apply fields in H. unfold map_attr in H. rewrite M in H. cbn [run_fmap] in H. injection H as H. exact H. Qed.
Lemma rec_type : forall x e, get_int (fr_slots (flatten ipstr jsonsvcs x e)) SF_REC_TYPE SYSFLOW_SRC = ev_type e.
Proof.
  intros x e. rewrite read_int. destruct e; cbn [writes_of]; unfold fill_entities; rewrite ?lasti_app;
  destruct x as [hd pd ct pr pt fi nf]; cbn [x_hdr x_pod x_cont x_proc x_ptree x_file x_newfile];
  repeat skip1; reflexivity.
Qed.
Lemma file_path : forall x e, get_str (fr_slots (flatten ipstr jsonsvcs x e)) FILE_PATH_STR SYSFLOW_SRC = fs (thefile x e) (fun f => trim_space (ff_path f)).
Proof.
  intros x e. rewrite read_str. destruct e; cbn [writes_of]; unfold fill_entities; rewrite ?lasts_app;
  destruct x as [hd pd ct pr pt fi nf]; cbn [x_hdr x_pod x_cont x_proc x_ptree x_file x_newfile];
  repeat skip1; try reflexivity; destruct fi; reflexivity.
Qed.
Lemma sem_bytes_of : forall (X : sfgo_fns) x e, sem_bytes (flatten ipstr jsonsvcs x e) = bytes_of (semantics_of x e).
Proof.
  intros X x e. unfold sem_bytes, bytes_of. cbv zeta beta.
  assert (M : forall n v, In (n, v) (meaning X ipstr jsonsvcs x e) -> In (n, v) (meaning X ipstr jsonsvcs x e)) by auto.
  rewrite rec_type, file_path.
  rewrite (attr_str X x e PROC_EXE_STR "sf.proc.exe" (prs x e exe)); [|reflexivity|unfold meaning; cbn [In]; tauto].
  rewrite (attr_str X x e PROC_EXEARGS_STR "sf.proc.args" (prs x e args)); [|reflexivity|unfold meaning; cbn [In]; tauto].
  rewrite (attr_int X x e PROC_UID_INT "sf.proc.uid" (prz x e p_uid)); [|reflexivity|unfold meaning; cbn [In]; tauto].
  rewrite (attr_int X x e PROC_GID_INT "sf.proc.gid" (prz x e p_gid)); [|reflexivity|unfold meaning; cbn [In]; tauto].
  rewrite (attr_int X x e PROC_TTY_INT "sf.proc.tty" (prz x e (fun p => b2z (p_tty p)))); [|reflexivity|unfold meaning; cbn [In]; tauto].
  rewrite read_int. replace (get 0%Z (lasti OPFLAGS_INT (writes_of ipstr jsonsvcs x e))) with (ev_opflags e).
  2:{ destruct e; cbn [writes_of]; unfold fill_entities; rewrite ?lasti_app; try reflexivity.
      destruct x as [hd pd ct pr pt fi nf]; cbn [x_hdr]; repeat skip1; reflexivity. }
  unfold semantics_of; cbn [sm_exe sm_args sm_uid sm_gid sm_flags sm_tty sm_net sm_path].
  destruct e; cbn [ev_type]; try reflexivity.
  change (Z.eqb NET_FLOW NET_FLOW) with true. change (Z.eqb NET_FLOW FILE_FLOW || Z.eqb NET_FLOW FILE_EVT) with false. cbv iota.
  rewrite (attr_int X x (EvNF e) FL_NETW_DPORT_INT "sf.net.dport" (nf_dport e)); [|reflexivity|unfold meaning; cbn [In]; tauto].
  rewrite (attr_int X x (EvNF e) FL_NETW_PROTO_INT "sf.net.proto" (nf_proto e)); [|reflexivity|unfold meaning; cbn [In]; tauto].
  rewrite !read_int. cbn [writes_of]. rewrite !lasti_app. reflexivity.
Qed.
End Hash.

Lemma app_split : forall a b c d, slen a = slen c -> (a ++ b)%string = (c ++ d)%string -> a = c /\ b = d.
Proof.
  unfold slen. induction a as [|x a IH]; intros b [|y c] d L H; cbn in *; try discriminate; [auto|].
  injection L as L. injection H as -> H. destruct (IH _ _ _ L H) as [-> ->]. auto.
Qed.
Lemma le_len : forall k z, slen (le_bytes k z) = k.
Proof. unfold slen. induction k; intros; cbn; [reflexivity|]. f_equal; apply IHk. Qed.
Lemma le_inj : forall k a b, (0 <= a)%Z -> (0 <= b)%Z -> (a < 256 ^ Z.of_nat k)%Z -> (b < 256 ^ Z.of_nat k)%Z -> le_bytes k a = le_bytes k b -> a = b.
Proof.
  induction k as [|k IH]; intros a b A B La Lb H.
  - cbn in La, Lb. lia.
  - cbn [le_bytes] in H. injection H as H1 H2.
    rewrite Nat2Z.inj_succ, Z.pow_succ_r in La, Lb by lia.
    assert (Ha := Z.mod_pos_bound a 256 ltac:(lia)). assert (Hb := Z.mod_pos_bound b 256 ltac:(lia)).
    assert (E1 : (a mod 256 = b mod 256)%Z).
    { apply (f_equal nat_of_ascii) in H1. rewrite !nat_ascii_embedding in H1 by lia. lia. }
    assert (E2 : (a / 256 = b / 256)%Z).
    { apply IH; auto.
      - apply Z.div_pos; lia. - apply Z.div_pos; lia.
      - apply Z.div_lt_upper_bound; lia. - apply Z.div_lt_upper_bound; lia. }
    rewrite (Z.div_mod a 256), (Z.div_mod b 256), E1, E2 by lia. reflexivity.
Qed.
Lemma le64_inj : forall a b, in_int64 a = true -> in_int64 b = true -> le64 a = le64 b -> a = b.
Proof.
  intros a b A B H. apply le_inj in H; try apply Z.mod_pos_bound; try lia.
  unfold in_int64, int64_min, int64_max in *. rewrite andb_true_iff, !Z.leb_le in A, B.
  assert (D := Z.mod_pos_bound a 18446744073709551616 ltac:(lia)).
  assert (Ea := Z.div_mod a 18446744073709551616 ltac:(lia)). assert (Eb := Z.div_mod b 18446744073709551616 ltac:(lia)). lia.
Qed.
Lemma bytes_inj : forall m n, int64s m -> int64s n -> same_shape m n ->
  slen (sm_exe m) = slen (sm_exe n) -> slen (sm_args m) = slen (sm_args n) -> bytes_of m = bytes_of n -> m = n.
Proof.
  intros [e1 a1 u1 g1 f1 t1 n1 p1] [e2 a2 u2 g2 f2 t2 n2 p2] (U1 & G1 & F1 & T1 & N1) (U2 & G2 & F2 & T2 & N2) [S1 S2] L1 L2 H.
  cbn [sm_exe sm_args sm_uid sm_gid sm_flags sm_tty sm_net sm_path] in *. unfold bytes_of in H. cbn [sm_exe sm_args sm_uid sm_gid sm_flags sm_tty sm_net sm_path] in H.
  apply app_split in H; [|auto]. destruct H as [-> H].
  apply app_split in H; [|auto]. destruct H as [-> H].
  assert (L : forall z w, slen (le64 z) = slen (le64 w)) by (intros; unfold le64; rewrite !le_len; reflexivity).
  apply app_split in H; [|auto]. destruct H as [E H]. apply le64_inj in E; [subst|auto|auto].
  apply app_split in H; [|auto]. destruct H as [E H]. apply le64_inj in E; [subst|auto|auto].
  apply app_split in H; [|auto]. destruct H as [E H]. apply le64_inj in E; [subst|auto|auto].
  apply app_split in H; [|auto]. destruct H as [E H]. apply le64_inj in E; [subst|auto|auto].
  assert (P : forall x y : option string, (x = None <-> y = None) -> (match x with Some p => p | None => "" end) = (match y with Some p => p | None => "" end) -> x = y).
  { intros [x|] [y|] I E; [congruence| | |auto]; exfalso; [assert (Some x = None) by tauto|assert (Some y = None) by tauto]; discriminate. }
  destruct n1 as [[[[w1 x1] y1] z1]|], n2 as [[[[w2 x2] y2] z2]|].
  - rewrite !sapp_assoc in H.
    destruct N1 as (?&?&?&?), N2 as (?&?&?&?).
    apply app_split in H; [|auto]. destruct H as [E H]. apply le64_inj in E; [subst|auto|auto].
    apply app_split in H; [|auto]. destruct H as [E H]. apply le64_inj in E; [subst|auto|auto].
    apply app_split in H; [|auto]. destruct H as [E H]. apply le64_inj in E; [subst|auto|auto].
    apply app_split in H; [|auto]. destruct H as [E H]. apply le64_inj in E; [subst|auto|auto].
    f_equal. apply P; auto.
  - exfalso. destruct S1 as [_ S1]. specialize (S1 eq_refl). discriminate.
  - exfalso. destruct S1 as [S1 _]. specialize (S1 eq_refl). discriminate.
  - f_equal. apply P; auto.
Qed.

(** ** Configuration *)
Lemma config_ok : forall conf,
  (filter_config conf <> None <-> mget "filter.enabled" conf = Some "on") /\
  (forall ttl, filter_config conf = Some ttl ->
    match mget "filter.maxage" conf with
    | None => ttl = 86400000000000%Z
    | Some v => match parse_int64 v with
                | None => ttl = 86400000000000%Z
                | Some d => ttl = wrap64 (d * 1000000000) /\ (-9223372036 <= d <= 9223372036 -> ttl = d * 1000000000)%Z
                end
    end).
Proof.
  intros conf. unfold filter_config.
  assert (Son : forall v, (if seqb "off" v then false else if seqb "on" v then true else false) = seqb "on" v).
  { intros v. destruct (seqb "off" v) eqn:E; [|destruct (seqb "on" v); reflexivity].
    apply String.eqb_eq in E; subst v. reflexivity. }
  split.
  - destruct (mget "filter.enabled" conf) as [v|].
    + rewrite Son. destruct (seqb "on" v) eqn:E.
      * apply String.eqb_eq in E; subst v. split; [auto|discriminate].
      * split; [congruence|]. intros H; injection H as ->. discriminate.
    + split; [congruence|discriminate].
  - intros ttl H. destruct (match mget "filter.enabled" conf with Some v => _ | None => false end); [|discriminate].
    injection H as H. destruct (mget "filter.maxage" conf) as [v|]; [|auto].
    rewrite atoi_spec in H. destruct (parse_int64 v) as [d|].
    + split; [auto|]. intros D. rewrite <- H. apply wrap64_id. unfold in_int64, int64_min, int64_max. rewrite andb_true_iff, !Z.leb_le. lia.
    + auto.
Qed.
Lemma nonpositive_ttl : forall clk ttl hs s tr, (forall n, (clk n <= clk (S n))%Z) -> (ttl <= 0)%Z -> f_run clk ttl f_new hs = (s, tr) ->
  forall j h b t, happened tr j h b t -> b = false.
Proof.
  intros clk ttl hs s tr M T. revert s tr. induction hs as [|o hs IH] using rev_ind; intros s tr H j h b t Hj.
  - injection H as <- <-. unfold happened in Hj; destruct j; discriminate.
  - rewrite f_run_app in H. destruct (f_run clk ttl f_new hs) as [s0 t0] eqn:R. specialize (IH _ _ eq_refl).
    cbn [f_run] in H. destruct o as [k|].
    + destruct (test_and_add clk ttl k s0) as [s1 v] eqn:E. injection H as <- <-.
      apply (hap_app clk M) in Hj. destruct Hj as [Hj|[_ Hj]]; [eauto|]. injection Hj as <- <- <-.
      pose proof (run_inv clk ttl M _ _ _ R) as I. destruct (evict_inv clk ttl M s0 t0 I) as (I1 & Hn & Hq). cbv zeta in *.
      unfold test_and_add in E; cbv zeta in E. set (s2 := evict clk ttl (f_q s0) (f_m s0) (f_n s0)) in *. injection E as _ <-.
      destruct (zget k (f_m s2)) eqn:Z; [|reflexivity]. exfalso.
      assert (K : In k (map fst (f_q s2))) by (apply (i_keys _ _ _ _ I1); congruence).
      apply in_map_iff in K; destruct K as [[k' t'] [_ K]]. destruct (Hq _ _ K) as [L A].
      destruct (evict_spec clk ttl M (f_q s0) (f_m s0) (f_n s0) (i_sort _ _ _ _ I)) as (d & D & _).
      fold s2 in D. assert (K0 : In (k', t') (f_q s0)) by (rewrite D; apply in_or_app; auto).
      destruct (i_t _ _ _ _ I _ _ K0) as (r & Lr & ->).
      assert (clk r <= clk (f_n s2 - 1)%nat)%Z by (apply (mono_le clk M); lia). lia.
    + injection H as <- <-. apply (hap_app clk M) in Hj. destruct Hj as [Hj|[_ Hj]]; [eauto|discriminate].
Qed.

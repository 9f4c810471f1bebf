(** * JsonFacts3: every attribute is written as its value. *)
From Coq Require Import Lia ZifyBool.
From Verif Require Import GoBase GoFacts Predicates FlatRecord FieldTables JsonModel SpecJson JsonFacts JsonFacts2.
Open Scope string_scope.

(** ** Composition *)
Lemma jstr_app b t b' t' : jstr b t -> jstr b' t' -> jstr (b ++ b') (t ++ t').
Proof.
  induction 1 as [|cp b t S L N1 N2 H IH|c cp b t I H IH|c1 c2 c3 c4 h1 h2 h3 h4 b t H1 H2 H3 H4 S H IH]; intros H'; rewrite ?sapp_assoc.
  - exact H'.
  - apply js_char; auto.
  - cbn [append]. rewrite ?sapp_assoc. apply js_short; auto.
  - cbn [append]. rewrite ?sapp_assoc. apply (js_hex c1 c2 c3 c4 h1 h2 h3 h4); auto.
Qed.
Definition plain_char (c : ascii) : bool := (Z.leb 32 (byte c) && Z.ltb (byte c) 128 && negb (Z.eqb (byte c) 34) && negb (Z.eqb (byte c) 92))%bool.
Fixpoint plain (s : string) : bool := match s with EmptyString => true | String c s' => (plain_char c && plain s')%bool end.
Lemma jstr_plain s : plain s = true -> jstr s s.
Proof.
  induction s as [|c s IH]; cbn [plain]; intros H; [constructor|]. apply andb_prop in H as [H1 H2]. unfold plain_char in H1.
  pose proof (byte_range c). pose proof (js_char (byte c) s s) as J. rewrite (utf8_single (byte c)) in J by lia. rewrite chr_byte in J.
  apply J; auto; unfold scalar; lia.
Qed.
Lemma num_plain z : plain (format_int z) = true.
Proof.
  assert (D : forall c, numchar c = true -> plain_char c = true).
  { intros [[|] [|] [|] [|] [|] [|] [|] [|]] E; vm_compute in E; try discriminate E; reflexivity. }
  assert (G : forall s, all_num s = true -> plain s = true).
  { induction s as [|c s IH]; cbn; auto. intros E. apply andb_prop in E as [E1 E2]. rewrite (D c E1), (IH E2). reflexivity. }
  destruct (num_shape z) as (c & s & E & N & A & _). rewrite E. apply G. cbn. rewrite N, A. reflexivity.
Qed.
Lemma plain_app a b : plain (a ++ b) = (plain a && plain b)%bool.
Proof. induction a as [|c a IH]; cbn; [reflexivity|]. rewrite IH. apply andb_assoc. Qed.
Lemma members_app s l s' l' : members s l -> members s' l' -> members (s ++ "," ++ s') (l ++ l').
Proof.
  intros H. revert s' l'. induction H as [b k s v J T|b k s v s0 l J T M IH]; intros s' l' H'.
  - cbn [List.app]. replace (("""" ++ b ++ """:" ++ s) ++ "," ++ s') with ("""" ++ b ++ """:" ++ s ++ "," ++ s') by (rewrite !sapp_assoc; reflexivity). constructor; auto.
  - cbn [List.app]. replace (("""" ++ b ++ """:" ++ s ++ "," ++ s0) ++ "," ++ s') with ("""" ++ b ++ """:" ++ s ++ "," ++ (s0 ++ "," ++ s')) by (rewrite !sapp_assoc; reflexivity).
    constructor; auto.
Qed.
Lemma elements_list {A} (f : A -> string) (g : A -> json) l : l <> [] -> (forall a, In a l -> jtext (f a) (g a)) -> elements (comma_list f l) (map g l).
Proof.
  induction l as [|a l IH]; [congruence|]. intros _ H. destruct l as [|b l]; [constructor; apply H; left; reflexivity|].
  cbn [comma_list map]. apply el_cons; [apply H; left; reflexivity|]. apply IH; [discriminate|]. intros x Hx. apply H. right. exact Hx.
Qed.
Lemma array_list {A} (f : A -> string) (g : A -> json) l : (forall a, In a l -> jtext (f a) (g a)) -> jtext ("[" ++ comma_list f l ++ "]") (JArr (map g l)).
Proof. intros H. destruct l as [|a l]; [apply jt_arr0|]. apply jt_arr, elements_list; [discriminate|exact H]. Qed.
Lemma field_member n v j : plain n = true -> jtext v j -> members (w_field n v) [(n, j)].
Proof. intros P H. unfold w_field, dq. change (""":" ++ v)%string with ("""" ++ ":" ++ v). apply (mb_one n n v j); [apply jstr_plain, P|exact H]. Qed.

(** ** Texts *)
Definition cleans (txt : string -> string) : Prop := forall s, clean s (txt s).
Section Texts.
Variable txt : string -> string.
Hypothesis TX : cleans txt.
Lemma w_string_ok s : jtext (w_string s) (JStr (txt s)).
Proof. unfold w_string, dq. apply jt_str, escape_ok, TX. Qed.
Lemma tq_ok s : jtext (tq s) (text txt s).
Proof. apply w_string_ok. Qed.
(** No encoded scalar value runs over an ASCII character. *)
Lemma utf8_high cp : (128 <= cp)%Z -> scalar cp -> forall c, In c (list_ascii_of_string (utf8 cp)) -> (128 <= byte c)%Z.
Proof.
  intros L S c. unfold scalar in S. unfold utf8. destruct (Z.ltb_spec cp 128); [lia|]. destruct (Z.ltb_spec cp 2048); [|destruct (Z.ltb_spec cp 65536)]; cbn [list_ascii_of_string In];
    intros H'; repeat destruct H' as [<-|H']; try contradiction; rewrite byte_chr; zdiv.
Qed.
Lemma high_prefix u : (forall c, In c (list_ascii_of_string u) -> (128 <= byte c)%Z) -> forall r s c b, (byte c < 128)%Z -> u ++ r = s ++ String c b -> exists r', s = u ++ r'.
Proof.
  induction u as [|x u IH]; intros H r s c b L E; [exists s; reflexivity|].
  destruct s as [|y s]; cbn in E; injection E as -> E.
  - exfalso. specialize (H c (or_introl eq_refl)). lia.
  - destruct (IH (fun c' I => H c' (or_intror I)) r s c b L E) as (r' & ->). exists r'. reflexivity.
Qed.
Lemma clean_join s t c b tb : clean s t -> (byte c < 128)%Z -> clean (String c b) (String c tb) -> clean (s ++ String c b) (t ++ String c tb).
Proof.
  intros H L H'. induction H as [|cp s t S H IH|x s t B H IH].
  - exact H'.
  - rewrite !sapp_assoc. constructor; auto.
  - rewrite !sapp_assoc. change ((String x s) ++ String c b)%string with (String x (s ++ String c b)). constructor; [|exact IH].
    intros cp r S E. assert (Hx : (128 <= byte x)%Z).
    { destruct (Z_lt_le_dec (byte x) 128) as [L'|L']; [|exact L']. exfalso. apply (B (byte x) s); [pose proof (byte_range x); unfold scalar; lia|]. rewrite (utf8_single _ L'), chr_byte. reflexivity. }
    destruct (Z_lt_le_dec cp 128) as [Lc|Lc].
    + rewrite (utf8_single cp Lc) in E. cbn in E. injection E as -> _. unfold scalar in S. rewrite byte_chr in Hx; lia.
    + symmetry in E. change (String x (s ++ String c b)) with (String x s ++ String c b) in E.
      destruct (high_prefix (utf8 cp) (utf8_high cp Lc S) r (String x s) c b L E) as (r' & E'). exact (B cp r' S E').
Qed.
Lemma clean_space b tb : clean b tb -> clean (String " " b) (String " " tb).
Proof. intros H. change (String " " b) with (utf8 32 ++ b). change (String " " tb) with (utf8 32 ++ tb). constructor; [unfold scalar; lia|exact H]. Qed.
Lemma jstr_space b t : jstr b t -> jstr (" " ++ b) (" " ++ t).
Proof. intros H. change " " with (utf8 32). constructor; try lia; [unfold scalar; lia|exact H]. Qed.
Lemma map_cmdline_ok p : jtext (map_cmdline p) (JStr (txt (cmd p))).
Proof.
  unfold map_cmdline, cmd, dq. generalize (trim_bounding_quotes (p_exe p)) as e. generalize (trim_bounding_quotes (p_exeargs p)) as a0. intros a0 e.
  destruct a0 as [|c a0]; [|set (a := String c a0)].
  - cbn [slen String.length Nat.ltb Nat.leb seqb String.eqb]. rewrite !sapp_nil_r. cbn [append]. apply (jt_str (string_no_quotes e)). apply escape_ok, TX.
  - change (Nat.ltb 0 (slen a)) with true. cbn iota. change (seqb a "") with false. cbn iota. replace (string_no_quotes e ++ (" " ++ string_no_quotes a) ++ """") with ((string_no_quotes e ++ " " ++ string_no_quotes a) ++ """") by (rewrite !sapp_assoc; reflexivity).
    apply (jt_str _ (txt (e ++ " " ++ a))). rewrite (clean_fun _ _ (txt e ++ String " " (txt a)) (TX (e ++ " " ++ a))).
    + apply jstr_app; [apply escape_ok, TX|]. apply jstr_space, escape_ok, TX.
    + apply clean_join; [apply TX|reflexivity|]. apply clean_space, TX.
Qed.

(** ** Addresses and services *)
Lemma ip_part_ok ip k : (0 <= k)%Z -> ip_part ip k = format_int (ip / 2 ^ k mod 256).
Proof. intros H. unfold ip_part, w_int. rewrite Z.shiftr_div_pow2 by exact H. change 255%Z with (Z.ones 8). rewrite Z.land_ones by lia. reflexivity. Qed.
Lemma map_ip_ok ip : map_ip_str ip = quad ip.
Proof. unfold map_ip_str, quad. rewrite !ip_part_ok by lia. rewrite Z.pow_0_r, Z.div_1_r. reflexivity. Qed.
Lemma quad_plain ip : plain (quad ip) = true.
Proof. unfold quad. rewrite !plain_app, !num_plain. reflexivity. Qed.
Lemma ip_ok ip : jtext (dq ++ map_ip_str ip ++ dq) (JStr (quad ip)).
Proof. rewrite map_ip_ok. apply jt_str, jstr_plain, quad_plain. Qed.
Lemma ip_array_ok l : length l <= 1 -> jtext (map_ip_array l) (addresses l).
Proof.
  intros H. unfold map_ip_array, addresses. destruct l as [|ip [|ip' l]]; cbn [length] in H; [apply jt_arr0| |lia].
  cbn [map_ips_loop map]. rewrite sapp_nil_r. apply jt_arr. constructor. apply ip_ok.
Qed.
Lemma ip_pair_ok a b : jtext ("[" ++ dq ++ map_ip_str a ++ dq ++ "," ++ dq ++ map_ip_str b ++ dq ++ "]") (addresses [a; b]).
Proof.
  pose proof (array_list (fun ip => dq ++ map_ip_str ip ++ dq) (fun ip => JStr (quad ip)) [a; b] (fun x _ => ip_ok x)) as H.
  cbn [comma_list] in H. rewrite !sapp_assoc in H. exact H.
Qed.
Lemma obj_ok s l : members s l -> jtext ("{" ++ s ++ "}") (JObj l).
Proof. apply jt_obj. Qed.
Lemma cons_member n v j s l : plain n = true -> jtext v j -> members s l -> members (w_field n v ++ "," ++ s) ((n, j) :: l).
Proof. intros P V M. change ((n, j) :: l) with ([(n, j)] ++ l)%list. apply members_app; [apply field_member; auto|exact M]. Qed.
Lemma port_ok p : jtext (map_port p) (port_value txt p).
Proof.
  unfold map_port, port_value.
  pose proof (obj_ok _ _ (cons_member "port" _ _ _ _ eq_refl (jt_num (p_port p)) (cons_member "targetport" _ _ _ _ eq_refl (jt_num (p_target p))
    (cons_member "nodeport" _ _ _ _ eq_refl (jt_num (p_node p)) (field_member "proto" _ _ eq_refl (w_string_ok (p_proto p))))))) as H.
  rewrite !sapp_assoc in H. unfold w_int. exact H.
Qed.
Lemma svc_ok s : length (s_clusterip s) <= 1 -> jtext (map_svc s) (service_value txt s).
Proof.
  intros L. unfold map_svc, service_value, map_port_list.
  pose proof (obj_ok _ _ (cons_member "id" _ _ _ _ eq_refl (w_string_ok (s_id s)) (cons_member "name" _ _ _ _ eq_refl (w_string_ok (s_name s))
    (cons_member "namespace" _ _ _ _ eq_refl (w_string_ok (s_namespace s)) (cons_member "clusterIP" _ _ _ _ eq_refl (ip_array_ok _ L)
    (field_member "ports" _ _ eq_refl (array_list map_port (port_value txt) (s_ports s) (fun p _ => port_ok p)))))))) as H.
  rewrite !sapp_assoc in H. exact H.
Qed.
Lemma svc_array_ok l : length l <= 1 -> (forall s, In s l -> length (s_clusterip s) <= 1) -> jtext (map_svc_array l) (JArr (map (service_value txt) l)).
Proof.
  intros H L. unfold map_svc_array. destruct l as [|s [|s' l]]; cbn [length] in H; [apply jt_arr0| |lia].
  cbn [map_svcs_loop map]. rewrite sapp_nil_r. apply jt_arr. constructor. apply svc_ok, L. left. reflexivity.
Qed.
Lemma str_array_ok l : Forall plain_name l -> jtext (map_str_array l) (JArr (map JStr l)).
Proof.
  intros F. unfold map_str_array. apply (array_list (fun s => dq ++ s ++ dq) JStr). intros s Hs. rewrite Forall_forall in F. apply jt_str, F, Hs.
Qed.
Lemma bool_ok b : jtext (w_bool b) (JBool b).
Proof. destruct b; constructor. Qed.
End Texts.

(** ** The attributes of the tables *)
Definition dflt : fieldentry := mkEntry (MRet SYSFLOW_SRC) FIAids MapIntVal SectNone PProcName.
Definition entry (n : string) : string * fieldentry := (n, match mget n exported_entries with Some e => e | None => dflt end).
Definition tops := map (fun ka => entry (snd ka)) top.
Definition block_fields (l : list (string * string)) := map (fun ka => entry (snd ka)) l.

Section Attributes.
Variables (X : sfgo_fns) (txt : string -> string) (two : bool) (fr : flatrec).
Hypothesis TX : cleans txt.
Hypothesis W : writable X fr.
Lemma attr_of n : attr_value X txt two fr n =
  match mget n (special X txt two fr) with
  | Some v => v
  | None => match mget n mappers with
            | Some m => match run_fmap X m fr with VStr s => text txt s | VInt z => JNum z | VInt32 z => JNum z | VBool b => JBool b | _ => JArr [] end
            | None => JStr (txt (trim_bounding_quotes n))
            end
  end.
Proof. unfold attr_value, map_attr. destruct (mget n (special X txt two fr)); [reflexivity|]. destruct (mget n mappers); reflexivity. Qed.
Definition written (f : string * fieldentry) : Prop := exists s, map_json X two (snd f) fr = Ok s /\ jtext s (attr_value X txt two fr (fst f)).
Ltac open :=
  match goal with |- written (entry ?n) =>
    unfold written; cbn [entry fst]; rewrite (attr_of n);
    let e := eval vm_compute in (snd (entry n)) in change (snd (entry n)) with e;
    let m := eval vm_compute in (mget n mappers) in change (mget n mappers) with m;
    cbv [special mget seqb String.eqb Ascii.eqb Bool.eqb];
    cbn [map_json fe_map fe_index fe_type fe_section fe_aux run_fmap]
  end.
Ltac plain_field := open; first [ eexists; split; [reflexivity|]; first [apply tq_ok; exact TX | apply jt_num | apply bool_ok] | idtac ].
Lemma top_written : Forall written tops.
Proof.
  destruct W as (_ & _ & W3 & _).
  unfold tops, top. cbn [map snd]. repeat apply Forall_cons; try apply Forall_nil; try (plain_field; fail).
  all: open. all: eexists; split; [reflexivity|]. all: try apply jt_num. all: try (apply tq_ok; exact TX).
  apply str_array_ok, W3.
Qed.
Hypothesis PT : rtype X fr <> "KE" -> exists ps, fr_ptree fr = Some ps.
Lemma parent_ok (ps : list process) : fr_ptree fr = Some ps -> parent fr = match ps with _ :: p :: _ => Some p | _ => None end.
Proof. intros E. unfold parent, ancestors. rewrite E. destruct ps as [|a [|b l]]; reflexivity. Qed.
Lemma rtype_nf : (rtype X fr = "NF" <-> ints fr SF_REC_TYPE = NET_FLOW).
Proof. destruct W as (_ & _ & _ & _ & W5). rewrite <- W5. unfold rtype, reads_text, map_attr. let m := eval vm_compute in (mget "sf.type" mappers) in change (mget "sf.type" mappers) with m. reflexivity. Qed.
Lemma sect_written sec name kas : In (sec, name, kas) sections -> has_section X fr sec = true -> Forall written (block_fields kas).
Proof.
  intros I H. unfold block_fields. cbn [sections In] in I.
  repeat destruct I as [I|I]; try contradiction; injection I as <- <- <-; cbn [in_section map snd append].
  - (* container *) repeat apply Forall_cons; try apply Forall_nil; plain_field.
  - (* file *)
    assert (Ne : Z.eqb (ints fr SF_REC_TYPE) NET_FLOW = false).
    { apply Z.eqb_neq. intros E. apply rtype_nf in E. unfold has_section in H. rewrite E in H. discriminate H. }
    repeat apply Forall_cons; try apply Forall_nil; try (plain_field; fail). open.
    unfold ints in Ne. rewrite Ne. eexists; split; [reflexivity|]. apply str_array_ok. destruct W as (_ & _ & _ & W4 & _). apply W4.
  - (* flow *) repeat apply Forall_cons; try apply Forall_nil; plain_field.
  - (* k8s *) repeat apply Forall_cons; try apply Forall_nil; plain_field.
  - (* meta *) repeat apply Forall_cons; try apply Forall_nil; plain_field.
  - (* net *)
    assert (Nf : Z.eqb (ints fr SF_REC_TYPE) NET_FLOW = true).
    { apply Z.eqb_eq. apply rtype_nf. unfold has_section in H. destruct (seqb (rtype X fr) "KE"); [discriminate H|]. apply String.eqb_eq, H. }
    repeat apply Forall_cons; try apply Forall_nil; try (plain_field; fail); open; unfold ints in Nf.
    + destruct two; [rewrite Nf|]; (eexists; split; [reflexivity|]).
      * apply ip_pair_ok.
      * apply jt_arr. constructor. apply w_string_ok, TX.
    + eexists; split; [reflexivity|]. pose proof (array_list w_int JNum [ints fr FL_NETW_SPORT_INT; ints fr FL_NETW_DPORT_INT] (fun z _ => jt_num z)) as Q. cbn [comma_list map] in Q. rewrite !sapp_assoc in Q. exact Q.
  - (* node *) repeat apply Forall_cons; try apply Forall_nil; plain_field.
  - (* pod *)
    destruct W as (_ & W2 & _). destruct (W2 H) as ((l1 & E1 & L1) & (l2 & E2 & L2) & (l3 & E3 & L3) & W3).
    repeat apply Forall_cons; try apply Forall_nil; try (plain_field; fail); open.
    + rewrite E1. eexists; split; [reflexivity|]. apply ip_array_ok, L1.
    + rewrite E2. eexists; split; [reflexivity|]. apply ip_array_ok, L2.
    + rewrite E3. eexists; split; [reflexivity|]. apply svc_array_ok; [exact TX|exact L3|]. intros s Hs. exact (W3 l3 s E3 Hs).
  - (* pproc *)
    destruct PT as (ps & E); [intros E; unfold has_section in H; rewrite E in H; discriminate H|].
    repeat apply Forall_cons; try apply Forall_nil; try (plain_field; fail); open; unfold ptext, pnum, pbool; rewrite (parent_ok ps E), E;
      (eexists; split; [reflexivity|]); cbn [cached_json]; destruct ps as [|q [|p ps]];
      first [apply tq_ok; exact TX | apply jt_num | apply bool_ok | apply w_string_ok; exact TX | apply map_cmdline_ok; exact TX].
  - (* proc *)
    destruct PT as (ps & E); [intros E; unfold has_section in H; rewrite E in H; discriminate H|].
    repeat apply Forall_cons; try apply Forall_nil; try (plain_field; fail); open; unfold ancestors; rewrite E;
      (eexists; split; [reflexivity|]); cbn [cached_json];
      first [apply (array_list map_cmdline (fun p => JStr (txt (cmd p)))); intros; apply map_cmdline_ok; exact TX
            |apply (array_list (fun p => tq (p_exe p)) (fun p => text txt (p_exe p))); intros; apply tq_ok; exact TX
            |apply (array_list (fun p => tq (base_name (p_exe p))) (fun p => text txt (base_name (p_exe p)))); intros; apply tq_ok; exact TX
            |apply (array_list (fun p => w_int (hpid (p_oid p))) (fun p => JNum (hpid (p_oid p)))); intros; apply jt_num].
Qed.
End Attributes.

(** * WriteFacts: a written policy has one reading, the policy. *)
From Coq Require Import Lia.
From Verif Require Import GoBase GoFacts FalcoModel GrammarModel SpecGrammar LexerModel LexerFacts SpecLexer LexerFacts2 LexerFacts3 LexerFacts5 GrammarFacts5 GrammarFacts6 TextFacts LexerFacts4 GrammarFacts4 SpecWrite.
Local Open Scope string_scope.
Local Open Scope list_scope.

(** ** Characters *)
Lemma alnum_iff c : letter_or_digit c -> alnum c = true.
Proof.
  unfold letter_or_digit, byte_in, alnum, in_range. intros H.
  rewrite !orb_true_iff, !andb_true_iff, !Nat.leb_le. cbn [nat_of_ascii]. destruct H as [H|[H|H]]; [left; left|left; right|right]; exact H.
Qed.
Lemma each_sall (P : ascii -> Prop) (p : ascii -> bool) s : (forall c, P c -> p c = true) -> each P s -> sall p s = true.
Proof.
  intros I. induction s as [|c s IH]; intros H; [reflexivity|]. cbn. rewrite (I c (H "" c s eq_refl)). apply IH.
  intros u d v E. apply (H (String c u) d v). now rewrite E.
Qed.
Lemma name_chars_like w : name_chars w -> name_like w.
Proof.
  intros (c & s & -> & Hc & Hs). cbn. split.
  - unfold id_head. destruct Hc as [Hc| ->]; [rewrite (alnum_iff _ Hc)|]; reflexivity.
  - refine (each_sall _ _ _ _ Hs). intros d [Hd|Hd]; unfold id_tail; [rewrite (alnum_iff _ Hd); reflexivity|].
    repeat (destruct Hd as [<-|Hd]; [reflexivity|]). destruct Hd.
Qed.
Lemma path_path_like w : path w -> path_like w.
Proof.
  intros (c & s & -> & Hc & Hs & Hx). split.
  - split.
    + unfold path_head. destruct Hc as [Hc|[->| ->]]; [rewrite (alnum_iff _ Hc)| |]; reflexivity.
    + refine (each_sall _ _ _ _ Hs). intros d [Hd|Hd]; unfold path_tail; [rewrite (alnum_iff _ Hd); reflexivity|].
      repeat (destruct Hd as [<-|Hd]; [reflexivity|]). destruct Hd.
  - destruct Hx as [->|[->|(a & b & Hx)]]; [left; reflexivity|right; left; reflexivity|right; right; eauto].
Qed.
Lemma eol_iff c : is_eol c = true <-> line_end c.
Proof. unfold is_eol, line_end, chr. rewrite orb_true_iff, !Ascii.eqb_eq. reflexivity. Qed.
Lemma not_eol c : ~ line_end c -> is_eol c = false.
Proof. intros H. destruct (is_eol c) eqn:E; [apply eol_iff in E; contradiction|reflexivity]. Qed.
Lemma quoted_quotable w : quoted w -> exists q body, quotable q body /\ w = String q (body ++ String q "")%string.
Proof.
  intros (q & c & body & Hq & -> & Hc & He). exists q, (String c body). split; [|reflexivity]. split; [exact Hq|]. split.
  - cbn [starts]. destruct (He "" c body eq_refl) as [_ He1]. unfold plain_first. rewrite (not_eol _ He1).
    assert (N : forall n, In n [34; 39; 92]%nat -> Ascii.eqb c (chr n) = false).
    { intros n Hn. apply Ascii.eqb_neq. intros ->. apply Hc. apply in_map. exact Hn. }
    unfold dquote, squote, backslash. rewrite !N by (cbn; tauto). reflexivity.
  - refine (each_sall _ _ _ _ He). intros d [Hd He2]. unfold plain_char. rewrite (not_eol _ He2). apply Ascii.eqb_neq in Hd. rewrite Hd. reflexivity.
Qed.
Lemma space_gap g : space g -> gap g.
Proof.
  induction 1 as [|n s Hn H IH|x c s Hx Hc H IH]; [constructor| |].
  - constructor; [|exact IH]. repeat (destruct Hn as [<-|Hn]; [reflexivity|]). destruct Hn.
  - constructor; [|now apply eol_iff|exact IH]. clear H IH s Hc c. induction x as [|c x IH]; [reflexivity|]. cbn. rewrite (not_eol c (Hx "" c x eq_refl)). apply IH.
    intros u d v E. apply (Hx (String c u) d v). now rewrite E.
Qed.

(** ** Words *)
Lemma word_in_all k w : word_of k = Some w -> In w fields_of_rule \/ In w other_words \/ In w signs \/ w = "-".
Proof. destruct k; cbn; intros [= <-]; tauto. Qed.
Lemma name_start_not_sign w : name_chars w -> ~ In w signs /\ w <> "-"%string.
Proof.
  intros (c & s & -> & Hc & _). assert (N : forall d, In d ["<"; ">"; "="; "!"; "["; "]"; "("; ")"; ","; "-"]%char -> c <> d).
  { intros d Hd ->. assert (alnum d || Ascii.eqb d "_" = true) by (destruct Hc as [Hc| ->]; [rewrite (alnum_iff _ Hc)|]; reflexivity).
    repeat (destruct Hd as [<-|Hd]; [discriminate|]). destruct Hd. }
  split.
  - intros H. repeat (destruct H as [H|H]; [injection H as H _; symmetry in H; revert H; apply N; cbn; tauto|]). destruct H.
  - intros H. injection H as H _. revert H. apply N. cbn; tauto.
Qed.
Lemma name_KId w : name w -> word KId w.
Proof.
  intros (Hn & Hf & Ho & Hs). destruct (name_start_not_sign _ Hn) as [Hg Hd]. apply name_word; [now apply name_chars_like| |exact Hs].
  intros k Hk. apply word_in_all in Hk. tauto.
Qed.
Definition known_kind (w : string) (k : kind) : Prop := word k w.
Ltac plain := apply plain_word; [reflexivity|apply classify_spec; vm_compute; reflexivity].
Lemma fixed_words w : In w fields_of_rule \/ In w other_words \/ In w signs \/ w = "-" \/ w = ":" -> exists k, word k w.
Proof.
  intros [H|[H|[H|[->| ->]]]]; [| | |eexists; plain|eexists; plain];
    (repeat (destruct H as [<-|H]; [eexists; plain|]); destruct H).
Qed.
Lemma severity_word_kind w : severity w -> word KSeverity w.
Proof.
  intros H. assert (F : first_rule rules w KSeverity) by (apply severity_first; exact H). destruct w as [|c s].
  - cbn in H. repeat (destruct H as [H|H]; [discriminate|]). destruct H.
  - apply plain_word; [|exact F]. unfold severity in H. unfold to_lower in H. cbn [smap] in H.
    assert (L : exists d, In d ["h"; "m"; "l"; "e"; "a"; "c"; "w"; "n"; "i"; "d"]%char /\ lower_byte c = d).
    { repeat (destruct H as [H|H]; [injection H as H _; eexists; split; [|symmetry; exact H]; cbn; tauto|]). destruct H. }
    destruct L as (d & Hd & L). clear - Hd L. revert Hd. rewrite <- L. clear. destruct c as [[] [] [] [] [] [] [] []]; try (intros _; reflexivity);
    cbn; intros H; repeat (destruct H as [H|H]; [discriminate|]); destruct H.
Qed.
(** The kind of a value is that of an atom. *)
Lemma value_kind w : value w -> exists k, word k w /\ is_atom k = true.
Proof.
  intros [H|[H|[H|[H|[->| ->]]]]].
  - exists KId. split; [now apply name_KId|reflexivity].
  - exists KPath. split; [apply path_word; now apply path_path_like|reflexivity].
  - destruct (quoted_quotable _ H) as (q & body & Hq & ->). exists KString. split; [now apply quoted_word|reflexivity].
  - destruct H as (x & y & -> & Hx & Hy). exists KTag. split; [apply tag_word; now apply name_chars_like|reflexivity].
  - exists KLt. split; [plain|reflexivity].
  - exists KGt. split; [plain|reflexivity].
Qed.
Lemma free_word w : free w -> exists k, word k w.
Proof.
  intros [H|[H|[H|H]]]; [destruct (value_kind _ H) as (k & Hk & _); eauto|exists KSeverity; now apply severity_word_kind|apply fixed_words; tauto|apply fixed_words; tauto].
Qed.
Lemma word_rule k w : word k w -> first_rule rules w k.
Proof. intros [(_ & H & _) _]. rewrite stake_all in H. exact H. Qed.
(** Not a field's name, not '-', not "output". *)
Lemma reserved_in s : reserved_text s = true <-> In s fields_of_rule.
Proof.
  unfold reserved_text. rewrite existsb_exists. split.
  - intros (x & Hx & E). apply seqb_eq in E as ->. cbn in *. tauto.
  - intros H. exists s. split; [cbn in *; tauto|apply seqb_refl].
Qed.
Definition quiet (w : string) : Prop := ~ In w fields_of_rule /\ w <> "-"%string.
Lemma value_quiet w : value w -> quiet w.
Proof.
  intros H. destruct H as [H|[H|[H|[H|[->| ->]]]]].
  - destruct H as (Hn & Hf & _). split; [exact Hf|]. now apply name_start_not_sign.
  - pose proof (word_rule _ _ (path_word _ (path_path_like _ H))) as F. split.
    + intros Hi. repeat (destruct Hi as [<-|Hi]; [apply classify_spec in F; vm_compute in F; discriminate|]). destruct Hi.
    + intros ->. apply classify_spec in F; vm_compute in F; discriminate.
  - destruct (quoted_quotable _ H) as (q & body & Hq & ->). pose proof (word_rule _ _ (quoted_word _ _ Hq)) as F. split.
    + intros Hi. repeat (destruct Hi as [Hi|Hi]; [rewrite <- Hi in F; apply classify_spec in F; vm_compute in F; discriminate|]). destruct Hi.
    + intros Hi. rewrite Hi in F. apply classify_spec in F; vm_compute in F; discriminate.
  - destruct H as (x & y & -> & Hx & Hy). pose proof (word_rule _ _ (tag_word _ _ (name_chars_like _ Hx) (name_chars_like _ Hy))) as F. split.
    + intros Hi. repeat (destruct Hi as [Hi|Hi]; [rewrite <- Hi in F; apply classify_spec in F; vm_compute in F; discriminate|]). destruct Hi.
    + intros Hi. rewrite Hi in F. apply classify_spec in F; vm_compute in F; discriminate.
  - split; [cbn; intros Hi; repeat (destruct Hi as [Hi|Hi]; [discriminate|]); destruct Hi|discriminate].
  - split; [cbn; intros Hi; repeat (destruct Hi as [Hi|Hi]; [discriminate|]); destruct Hi|discriminate].
Qed.
Lemma severity_quiet w : severity w -> quiet w.
Proof.
  intros H. pose proof (word_rule _ _ (severity_word_kind _ H)) as F. split.
  - intros Hi. repeat (destruct Hi as [<-|Hi]; [apply classify_spec in F; vm_compute in F; discriminate|]). destruct Hi.
  - intros ->. apply classify_spec in F; vm_compute in F; discriminate.
Qed.
Lemma fixed_quiet w : In w other_words \/ In w signs \/ w = ":"%string -> quiet w.
Proof.
  intros [H|[H| ->]]; [| |split; [cbn; intros Hi; repeat (destruct Hi as [Hi|Hi]; [discriminate|]); destruct Hi|discriminate]];
  (repeat (destruct H as [<-|H]; [split; [cbn; intros Hi; repeat (destruct Hi as [Hi|Hi]; [discriminate|]); destruct Hi|discriminate]|]); destruct H).
Qed.
Lemma free_quiet w : free w -> quiet w.
Proof. intros [H|[H|[H|H]]]; [now apply value_quiet|now apply severity_quiet|apply fixed_quiet; tauto|apply fixed_quiet; tauto]. Qed.

(** ** Tokens with given words *)
Definition kinded (t : tok) : Prop := first_rule rules (tx t) (tk t).
Definition good (t : tok) : Prop := kinded t /\ space (hid t) /\ hid t <> ""%string.
Definition tw (ts : list tok) (ws : list string) : Prop := map tx ts = ws /\ Forall good ts.
Lemma tw_nil ts : tw ts [] -> ts = [].
Proof. intros [H _]. now apply map_eq_nil in H. Qed.
Lemma tw_cons ts w ws : tw ts (w :: ws) -> exists t ts', ts = t :: ts' /\ tx t = w /\ good t /\ tw ts' ws.
Proof. intros [H F]. destruct ts as [|t ts]; [discriminate|]. injection H as H1 H2. inversion F; subst. exists t, ts. repeat split; auto; apply H3. Qed.
Lemma tw_app ts a b : tw ts (a ++ b) -> exists ta tb, ts = ta ++ tb /\ tw ta a /\ tw tb b.
Proof.
  revert ts. induction a as [|w a IH]; intros ts H.
  - exists [], ts. split; [reflexivity|]. split; [split; [reflexivity|constructor]|exact H].
  - cbn [List.app] in H. apply tw_cons in H as (t & ts' & -> & <- & G & H). destruct (IH _ H) as (ta & tb & -> & [A1 A2] & B).
    exists (t :: ta), tb. split; [reflexivity|]. split; [split; [cbn; now rewrite A1|constructor; assumption]|exact B].
Qed.
Lemma kind_is t k : kinded t -> word k (tx t) -> tk t = k.
Proof. intros H W. exact (first_rule_fun _ _ _ _ H (word_rule _ _ W)). Qed.
Lemma kind_word t k w : kinded t -> tx t = w -> word_of k = Some w -> tk t = k.
Proof. intros H E W. apply (first_rule_spelled _ _ H k w W). exact E. Qed.
Lemma kind_colon t : kinded t -> tx t = ":"%string -> tk t = KDef.
Proof. intros H E. apply kind_is; [exact H|rewrite E; plain]. Qed.
Lemma kind_value t : kinded t -> value (tx t) -> is_atom (tk t) = true.
Proof. intros H V. destruct (value_kind _ V) as (k & W & A). now rewrite (kind_is _ _ H W). Qed.
Lemma kind_op t op : kinded t -> tx t = op_word op -> binop_of (tk t) = Some op.
Proof.
  intros H E. assert (K : exists k, word_of k = Some (op_word op) /\ binop_of k = Some op).
  { destruct op; [exists KLt|exists KLe|exists KGt|exists KGe|exists KEq|exists KNeq|exists KContains|exists KIContains|exists KStartswith|exists KEndswith]; split; reflexivity. }
  destruct K as (k & W & B). now rewrite (kind_word _ _ _ H E W).
Qed.
Ltac kw := first [eapply kind_word; [eassumption|eassumption|reflexivity] | eapply kind_colon; eassumption].

(** ** Lists *)
Lemma atoms_read : forall l ts, l <> [] -> Forall value l -> tw ts (sep_by "," (map (fun a => [a]) l)) -> g_atoms ts l.
Proof.
  induction l as [|a [|b l] IH]; intros ts N F H; [congruence| |].
  - cbn in H. apply tw_cons in H as (t & ts' & -> & <- & G & H). apply tw_nil in H as ->. inversion F; subst. constructor. apply kind_value; [apply G|assumption].
  - change (tw ts (a :: "," :: sep_by "," (map (fun a => [a]) (b :: l)))%list) in H.
    apply tw_cons in H as (t & ts' & -> & <- & G & H). apply tw_cons in H as (c & ts2 & -> & Ec & Gc & H). inversion F; subst.
    destruct G as [G _], Gc as [Gc _]. constructor; [now apply kind_value|kw|]. apply IH; [discriminate|assumption|exact H].
Qed.
Lemma items_read it ts : items_fine it -> tw ts (items_words it) -> g_items ts it.
Proof.
  intros F H. unfold items_words in H. apply tw_cons in H as (l & ts1 & -> & El & [Gl _] & H). apply tw_app in H as (ta & tb & -> & Ha & H).
  destruct it as [atoms trail]. cbn [it_atoms it_trail] in *. unfold items_fine in F; cbn [it_atoms] in F.
  destruct trail; cbn [List.app] in H.
  - apply tw_cons in H as (c & ts2 & -> & Ec & [Gc _] & H). apply tw_cons in H as (r & ts3 & -> & Er & [Gr _] & H). apply tw_nil in H as ->.
    destruct atoms as [|a atoms].
    + apply tw_nil in Ha as ->. apply g_items_sep; kw.
    + apply g_items_atoms_sep; [kw| |kw|kw]. apply atoms_read; [discriminate|assumption|exact Ha].
  - apply tw_cons in H as (r & ts3 & -> & Er & [Gr _] & H). apply tw_nil in H as ->. destruct atoms as [|a atoms].
    + apply tw_nil in Ha as ->. apply g_items_empty; kw.
    + apply g_items_atoms; [kw| |kw]. apply atoms_read; [discriminate|assumption|exact Ha].
Qed.
Lemma sep_cons2 sep x y l : sep_by sep (x :: y :: l) = x ++ sep :: sep_by sep (y :: l). Proof. reflexivity. Qed.
Lemma args_read : forall args ts, args <> [] -> Forall arg_fine args -> tw ts (sep_by "," (map arg_words args)) -> g_args ts args.
Proof.
  assert (One : forall a ts, arg_fine a -> tw ts (arg_words a) -> g_arg ts a).
  { intros [s|it] ts F H; cbn in *.
    - apply tw_cons in H as (t & ts' & -> & <- & [G _] & H). apply tw_nil in H as ->. constructor. now apply kind_value.
    - constructor. now apply items_read. }
  induction args as [|a [|b args] IH]; intros ts N F H; [congruence| |].
  - cbn in H. constructor. inversion F; subst. now apply One.
  - cbn [map] in H. rewrite sep_cons2 in H. apply tw_app in H as (ta & tb & -> & Ha & H). apply tw_cons in H as (c & ts2 & -> & Ec & [Gc _] & H). inversion F; subst.
    constructor; [now apply One|kw|]. apply IH; [discriminate|assumption|exact H].
Qed.
(** ** Conditions *)
Fixpoint tsize (t : term) : nat :=
  match t with TNot t => S (tsize t) | TParen e => S (list_sum (map (fun c => S (list_sum (map tsize c))) e)) | _ => 1 end.
Lemma and_read (c : list term) : (forall t ts, In t c -> tw ts (term_words t) -> g_term ts t) -> c <> [] ->
  forall ts, tw ts (sep_by "and" (map term_words c)) -> g_and ts c.
Proof.
  induction c as [|t [|u c] IH]; intros R N ts H; [congruence| |].
  - constructor. apply R; [now left|exact H].
  - cbn [map] in H. rewrite sep_cons2 in H. apply tw_app in H as (ta & tb & -> & Ha & H). apply tw_cons in H as (a & ts2 & -> & Ea & [Ga _] & H).
    constructor; [apply R; [now left|exact Ha]|kw|]. apply IH; [intros; apply R; [now right|assumption]|discriminate|exact H].
Qed.
Lemma or_read (e : expr) : (forall c t ts, In c e -> In t c -> tw ts (term_words t) -> g_term ts t) -> e <> [] -> (forall c, In c e -> c <> []) ->
  forall ts, tw ts (expr_words e) -> g_expr ts e.
Proof.
  unfold expr_words. induction e as [|c [|c' e] IH]; intros R N Nc ts H; [congruence| |].
  - constructor. apply and_read; [intros t ts' Ht; apply (R c); [now left|exact Ht]|apply Nc; now left|exact H].
  - cbn [map] in H. rewrite sep_cons2 in H. apply tw_app in H as (ta & tb & -> & Ha & H). apply tw_cons in H as (a & ts2 & -> & Ea & [Ga _] & H).
    constructor; [apply and_read; [intros t ts' Ht; apply (R c); [now left|exact Ht]|apply Nc; now left|exact Ha]|kw|].
    apply IH; [intros x t ts' Hx; apply (R x); now right|discriminate|intros x Hx; apply Nc; now right|exact H].
Qed.
Lemma paren_size (e : expr) c t : In c e -> In t c -> tsize t < tsize (TParen e).
Proof.
  intros Hc Ht. cbn [tsize].
  assert (L1 : forall l : list (list term), In c l -> list_sum (map tsize c) < list_sum (map (fun c => Datatypes.S (list_sum (map tsize c))) l)).
  { induction l as [|c0 l IHl]; intros Hl; [destruct Hl|]. unfold list_sum in *. cbn [map fold_right]. destruct Hl as [->|Hl]; [lia|]. specialize (IHl Hl). lia. }
  assert (L2 : forall l, In t l -> tsize t <= list_sum (map tsize l)).
  { induction l as [|c0 l IHl]; intros Hl; [destruct Hl|]. unfold list_sum in *. cbn [map fold_right]. destruct Hl as [->|Hl]; [lia|]. specialize (IHl Hl). lia. }
  specialize (L1 _ Hc). specialize (L2 _ Ht). lia.
Qed.
Lemma term_read n : forall t ts, tsize t < n -> term_fine t -> tw ts (term_words t) -> g_term ts t.
Proof.
  induction n as [|n IH]; intros t ts S F H; [lia|]. destruct F as [x Hx|t F|a Ha|a op b Ha Hb|a args Ha Na Fa|a args Ha Na Fa|e Ne Fe]; cbn [term_words tsize] in *.
  - apply tw_cons in H as (t & ts' & -> & <- & [G _] & H). apply tw_nil in H as ->. constructor. apply kind_is; [exact G|now apply name_KId].
  - apply tw_cons in H as (w & ts' & -> & E & [G _] & H). constructor; [kw|]. apply IH; [lia|exact F|exact H].
  - apply tw_cons in H as (w & ts' & -> & <- & [G _] & H). apply tw_cons in H as (o & ts2 & -> & Eo & [Go _] & H). apply tw_nil in H as ->.
    constructor; [now apply kind_value|kw].
  - apply tw_cons in H as (w & ts' & -> & <- & [G _] & H). apply tw_cons in H as (o & ts2 & -> & Eo & [Go _] & H). apply tw_cons in H as (w2 & ts3 & -> & <- & [G2 _] & H). apply tw_nil in H as ->.
    constructor; [now apply kind_value|now apply kind_op|now apply kind_value].
  - apply tw_cons in H as (w & ts' & -> & <- & [G _] & H). apply tw_cons in H as (o & ts2 & -> & Eo & [Go _] & H). apply tw_cons in H as (l & ts3 & -> & El & [Gl _] & H).
    apply tw_app in H as (ta & tb & -> & Hargs & H). apply tw_cons in H as (r & ts4 & -> & Er & [Gr _] & H). apply tw_nil in H as ->.
    apply g_in; [now apply kind_value|kw|kw|now apply args_read|kw].
  - apply tw_cons in H as (w & ts' & -> & <- & [G _] & H). apply tw_cons in H as (o & ts2 & -> & Eo & [Go _] & H). apply tw_cons in H as (l & ts3 & -> & El & [Gl _] & H).
    apply tw_app in H as (ta & tb & -> & Hargs & H). apply tw_cons in H as (r & ts4 & -> & Er & [Gr _] & H). apply tw_nil in H as ->.
    apply g_pmatch; [now apply kind_value|kw|kw|now apply args_read|kw].
  - apply tw_cons in H as (l & ts3 & -> & El & [Gl _] & H). apply tw_app in H as (ta & tb & -> & Hargs & H). apply tw_cons in H as (r & ts4 & -> & Er & [Gr _] & H). apply tw_nil in H as ->.
    apply g_paren; [kw| |kw]. apply or_read; [|exact Ne|intros c Hc; apply (Fe c Hc)|exact Hargs].
    intros c t ts Hc Ht Hw. apply IH; [|apply (Fe c Hc); exact Ht|exact Hw].
    pose proof (paren_size e c t Hc Ht) as Z. cbn [tsize] in Z. lia.
Qed.
Lemma expr_read e ts : expr_fine e -> tw ts (expr_words e) -> g_expr ts e.
Proof.
  intros [N F] H. apply or_read; [|exact N|intros c Hc; apply (F c Hc)|exact H].
  intros c t ts' Hc Ht Hw. apply (term_read (S (tsize t))); [lia|apply (F c Hc); exact Ht|exact Hw].
Qed.
(** ** Free text *)
Lemma text_read : forall ws ts, text_fine ws -> tw ts ws -> exists s, g_text ts s /\ words_text ws s.
Proof.
  intros ws ts [(w & ws' & -> & _) F] H. exists (source_text ts). split.
  - constructor; [destruct ts; [destruct H; discriminate|discriminate]|]. destruct H as [E _]. apply Forall_forall. intros t Ht.
    assert (Hw : In (tx t) (w :: ws')) by (rewrite <- E; now apply in_map). rewrite Forall_forall in F. destruct (free_quiet _ (F _ Hw)) as [Q _].
    destruct (reserved_text (tx t)) eqn:R; [apply reserved_in in R; contradiction|reflexivity].
  - clear F. revert ts w H. induction ws' as [|w2 ws IH]; intros ts w H; apply tw_cons in H as (t & ts' & -> & <- & G & H).
    + apply tw_nil in H as ->. cbn. rewrite sapp_nil_r. constructor.
    + pose proof (IH _ _ H) as T. apply tw_cons in H as (t2 & ts2 & -> & E2 & (K2 & S2 & N2) & H). cbn [source_text source_tail fold_right] in *.
      fold (source_tail ts2) in *. apply wt_more; [exact S2|exact N2|exact T].
Qed.
Lemma opt_read o ts : opt_fine o -> tw ts (opt_words o) -> exists o', g_opt ts o' /\ opt_says o o'.
Proof.
  intros F H. destruct o as [ws|it|s|it|it|s|s|s]; cbn [opt_words opt_fine opt_says] in *;
    apply tw_cons in H as (k & ts1 & -> & Ek & [Gk _] & H); apply tw_cons in H as (c & ts2 & -> & Ec & [Gc _] & H).
  1: { destruct (text_read _ _ F H) as (s & G & T). exists (OOutput s). split; [constructor; [kw|kw|exact G]|eauto]. }
  1,3,4: eexists; split; [|reflexivity]; constructor; [kw|kw|now apply items_read].
  1: { apply tw_cons in H as (v & ts3 & -> & <- & [Gv _] & H). apply tw_nil in H as ->. eexists; split; [|reflexivity]. constructor; [kw|kw|].
       apply kind_is; [exact Gv|now apply severity_word_kind]. }
  all: apply tw_cons in H as (v & ts3 & -> & <- & [Gv _] & H); apply tw_nil in H as ->; eexists; (split; [|reflexivity]); constructor; [kw|kw|apply kind_value; [exact Gv|apply F]].
Qed.
Lemma opts_read : forall os ts, Forall opt_fine os -> tw ts (List.concat (map opt_words os)) -> exists os', g_opts ts os' /\ Forall2 opt_says os os'.
Proof.
  induction os as [|o os IH]; intros ts F H; cbn [map List.concat] in H.
  - apply tw_nil in H as ->. exists []. split; constructor.
  - apply tw_app in H as (ta & tb & -> & Ha & Hb). inversion F; subst. destruct (opt_read _ _ H1 Ha) as (o' & G & S). destruct (IH _ H2 Hb) as (os' & Gs & Ss).
    exists (o' :: os'). split; constructor; assumption.
Qed.
Lemma decl_read d k ts ws : decl_fine d -> decl_words d = "-"%string :: ws -> kinded k -> tx k = "-"%string -> tw ts ws -> exists d', g_decl (k :: ts) d' /\ decl_says d d'.
Proof.
  intros F E Gk Ek H. destruct d as [nm desc e opts|kw0 x e en|x e ap|x it|v]; cbn [decl_words decl_fine decl_says] in *; injection E as <-;
    apply tw_cons in H as (r & ts1 & -> & Er & [Gr _] & H); apply tw_cons in H as (c & ts2 & -> & Ec & [Gc _] & H).
  - destruct F as (F1 & F2 & [F3 _] & F4 & _).
    apply tw_app in H as (tn & ts3 & -> & Hn & H). apply tw_cons in H as (d & ts4 & -> & Ed & [Gd _] & H). apply tw_cons in H as (c2 & ts5 & -> & Ec2 & [Gc2 _] & H).
    apply tw_app in H as (td & ts6 & -> & Hd & H). apply tw_cons in H as (co & ts7 & -> & Eco & [Gco _] & H). apply tw_cons in H as (c3 & ts8 & -> & Ec3 & [Gc3 _] & H).
    apply tw_app in H as (te & ts9 & -> & He & H).
    destruct (text_read _ _ F1 Hn) as (n & Gn & Tn). destruct (text_read _ _ F2 Hd) as (s & Gs & Ts). destruct (opts_read _ _ F4 H) as (os & Go & To).
    exists (DRule (mkRuleDecl n s e os)). split; [|exists n, s, os; auto].
    apply g_rule; first [kw|exact Gn|exact Gs|now apply expr_read|exact Go].
  - destruct F as (F0 & F1 & [F3 _] & F4). apply tw_cons in H as (v & ts3 & -> & <- & [Gv _] & H).
    apply tw_cons in H as (co & ts7 & -> & Eco & [Gco _] & H). apply tw_cons in H as (c3 & ts8 & -> & Ec3 & [Gc3 _] & H). apply tw_app in H as (te & ts9 & -> & He & H).
    assert (Kr : tk r = KDrop \/ tk r = KFilter) by (destruct F0 as [<-|[<-|[]]]; [right; kw|left; kw]).
    assert (Kv : tk v = KId) by (apply kind_is; [exact Gv|now apply name_KId]).
    destruct en as [a|].
    + apply tw_cons in H as (en & tsa & -> & Een & [Gen _] & H). apply tw_cons in H as (c4 & tsb & -> & Ec4 & [Gc4 _] & H). apply tw_cons in H as (v2 & tsc & -> & <- & [Gv2 _] & H). apply tw_nil in H as ->.
      eexists. split; [|reflexivity]. apply g_filter_enabled; first [kw|exact Kr|exact Kv|now apply expr_read|apply kind_value; [exact Gv2|apply F4]].
    + apply tw_nil in H as ->. rewrite app_nil_r. eexists. split; [|reflexivity]. apply g_filter; first [kw|exact Kr|exact Kv|now apply expr_read].
  - destruct F as (F1 & [F3 _] & F4). apply tw_cons in H as (v & ts3 & -> & <- & [Gv _] & H).
    apply tw_cons in H as (co & ts7 & -> & Eco & [Gco _] & H). apply tw_cons in H as (c3 & ts8 & -> & Ec3 & [Gc3 _] & H). apply tw_app in H as (te & ts9 & -> & He & H).
    assert (Kv : tk v = KId) by (apply kind_is; [exact Gv|now apply name_KId]).
    destruct ap as [a|].
    + apply tw_cons in H as (en & tsa & -> & Een & [Gen _] & H). apply tw_cons in H as (c4 & tsb & -> & Ec4 & [Gc4 _] & H). apply tw_cons in H as (v2 & tsc & -> & <- & [Gv2 _] & H). apply tw_nil in H as ->.
      eexists. split; [|reflexivity]. apply g_macro_append; first [kw|exact Kv|now apply expr_read|apply kind_value; [exact Gv2|apply F4]].
    + apply tw_nil in H as ->. rewrite app_nil_r. eexists. split; [|reflexivity]. apply g_macro; first [kw|exact Kv|now apply expr_read].
  - destruct F as (F1 & F2). apply tw_cons in H as (v & ts3 & -> & <- & [Gv _] & H). apply tw_cons in H as (i & ts4 & -> & Ei & [Gi _] & H). apply tw_cons in H as (c2 & ts5 & -> & Ec2 & [Gc2 _] & H).
    assert (Kv : tk v = KId) by (apply kind_is; [exact Gv|now apply name_KId]).
    eexists. split; [|reflexivity]. apply g_list; first [kw|exact Kv|now apply items_read].
  - apply tw_cons in H as (v2 & tsc & -> & <- & [Gv2 _] & H). apply tw_nil in H as ->.
    eexists. split; [|reflexivity]. apply g_req; first [kw|apply kind_value; [exact Gv2|apply F]].
Qed.

(** ** All words *)
Lemma free_sep (P : string -> Prop) sep l : P sep -> (forall x, In x l -> Forall P x) -> Forall P (sep_by sep l).
Proof.
  intros Hs. induction l as [|x [|y l] IH]; intros H; [constructor|apply H; now left|]. rewrite sep_cons2. apply Forall_app. split; [apply H; now left|].
  constructor; [exact Hs|]. apply IH. intros z Hz. apply H. now right.
Qed.
Ltac fixed := right; right; first [left; cbn; tauto|right; cbn; tauto].
Lemma free_items it : items_fine it -> Forall free (items_words it).
Proof.
  intros F. unfold items_words. constructor; [fixed|]. apply Forall_app. split.
  - apply free_sep; [fixed|]. intros x Hx. apply in_map_iff in Hx as (a & <- & Ha). constructor; [|constructor]. left. unfold items_fine in F. rewrite Forall_forall in F. now apply F.
  - apply Forall_app. split; [destruct (it_trail it); repeat constructor; fixed|]. repeat constructor; fixed.
Qed.
Lemma free_args args : Forall arg_fine args -> Forall free (sep_by "," (map arg_words args)).
Proof.
  intros F. apply free_sep; [fixed|]. intros x Hx. apply in_map_iff in Hx as (a & <- & Ha). rewrite Forall_forall in F. specialize (F _ Ha). destruct a as [s|it]; cbn in *.
  - constructor; [now left|constructor].
  - now apply free_items.
Qed.
Lemma free_or e : (forall c t, In c e -> In t c -> Forall free (term_words t)) -> Forall free (expr_words e).
Proof.
  intros H. unfold expr_words. apply free_sep; [fixed|]. intros x Hx. apply in_map_iff in Hx as (c & <- & Hc). apply free_sep; [fixed|].
  intros y Hy. apply in_map_iff in Hy as (t & <- & Ht). exact (H c t Hc Ht).
Qed.
Lemma free_term_n n : forall t, tsize t < n -> term_fine t -> Forall free (term_words t).
Proof.
  induction n as [|n IH]; intros t S F; [lia|]. destruct F as [x Hx|t F|a Ha|a op b Ha Hb|a args Ha Na Fa|a args Ha Na Fa|e Ne Fe]; cbn [term_words].
  - constructor; [left; left; exact Hx|constructor].
  - constructor; [fixed|]. apply IH; [cbn [tsize] in S; lia|exact F].
  - constructor; [now left|]. constructor; [fixed|constructor].
  - constructor; [now left|]. constructor; [destruct op; fixed|]. constructor; [now left|constructor].
  - constructor; [now left|]. constructor; [fixed|]. constructor; [fixed|]. apply Forall_app. split; [now apply free_args|]. constructor; [fixed|constructor].
  - constructor; [now left|]. constructor; [fixed|]. constructor; [fixed|]. apply Forall_app. split; [now apply free_args|]. constructor; [fixed|constructor].
  - constructor; [fixed|]. apply Forall_app. split; [|constructor; [fixed|constructor]].
    apply free_or. intros c t Hc Ht. apply IH; [pose proof (paren_size e c t Hc Ht); lia|exact (proj2 (Fe c Hc) t Ht)].
Qed.
Lemma free_term t : term_fine t -> Forall free (term_words t).
Proof. apply (free_term_n (S (tsize t))). lia. Qed.
Lemma free_expr e : expr_fine e -> Forall free (expr_words e).
Proof. intros [_ F]. apply free_or. intros c t Hc Ht. apply free_term. exact (proj2 (F c Hc) t Ht). Qed.
Lemma free_no_colon w : free w -> w <> ":"%string.
Proof.
  intros H E. subst w. assert (K : forall k, word k ":" -> k = KDef).
  { intros k Hk. apply word_rule in Hk. apply classify_spec in Hk. vm_compute in Hk. now injection Hk as <-. }
  destruct H as [H|[H|[H|H]]].
  - destruct (value_kind _ H) as (k & Hk & A). apply K in Hk as ->. discriminate.
  - apply severity_word_kind in H. apply K in H. discriminate.
  - cbn in H. repeat (destruct H as [H|H]; [discriminate|]). destruct H.
  - cbn in H. repeat (destruct H as [H|H]; [discriminate|]). destruct H.
Qed.
Lemma name_after w : name w -> after_colon w.
Proof.
  intros ((c & s & -> & Hc & _) & _) s' [= -> _]. assert (alnum ">" || Ascii.eqb ">" "_" = true) by (destruct Hc as [Hc|Hc]; [now rewrite (alnum_iff _ Hc)|discriminate]). discriminate.
Qed.
Lemma severity_after w : severity w -> after_colon w.
Proof. intros H s ->. unfold severity, to_lower in H. cbn in H. repeat (destruct H as [H|H]; [discriminate|]). destruct H. Qed.

(** ** From a written text to its tokens *)
Fixpoint colon_ok (ws : list string) : Prop :=
  match ws with w :: ((w' :: _) as ws') => (w = ":"%string -> after_colon w') /\ colon_ok ws' | _ => True end.
Lemma colon_app a b : (forall w, In w a -> w <> ":"%string) -> colon_ok b -> colon_ok (a ++ b).
Proof.
  induction a as [|w a IH]; intros H B; [exact B|]. cbn [List.app]. destruct (a ++ b) as [|w' r] eqn:E; [exact I|]. cbn [colon_ok]. split.
  - intros ->. now destruct (H ":"%string (or_introl eq_refl)).
  - change (colon_ok (w' :: r)). apply IH; [intros x Hx; apply H; now right|exact B].
Qed.
Lemma colon_free a b : Forall free a -> colon_ok b -> colon_ok (a ++ b).
Proof. intros F. apply colon_app. intros w Hw. rewrite Forall_forall in F. apply free_no_colon. now apply F. Qed.
Lemma after_starts w : after_colon w -> starts (Ascii.eqb ">") w = false.
Proof. intros H. destruct w as [|c s]; [reflexivity|]. cbn [starts]. apply Ascii.eqb_neq. intros <-. exact (H s eq_refl). Qed.
Lemma pieces first ws s : written first ws s -> Forall (fun w => exists k, word k w) ws -> colon_ok ws ->
  exists l last, map pc_word l = ws /\ Forall (fun p => space (pc_gap p) /\ word (pc_kind p) (pc_word p)) l /\ separated l /\ gap last /\ s = render l last /\
    Forall (fun p => pc_gap p <> ""%string) (if first then tl l else l).
Proof.
  intros H. induction H as [first g Hg|first g w ws s Hg Hf H IH]; intros F C.
  - exists [], g. repeat split; auto; [now apply space_gap|destruct first; constructor].
  - inversion F as [|? ? (k & Hk) F']; subst. assert (C' : colon_ok ws) by (destruct ws; [exact I|apply C]).
    destruct (IH F' C') as (l & last & E & P & S & G & R & N). exists (mkPiece g k w :: l), last. subst s.
    split; [cbn; now rewrite E|]. split; [constructor; [split; assumption|exact P]|]. split; [|split; [exact G|]].
    + destruct l as [|q l]; [exact I|]. inversion N; subst. inversion P; subst. cbn [separated]. split; [assumption|]. split; [|exact S].
      cbn [pc_word]. intros ->. apply after_starts. cbn [map] in C. now apply C.
    + split; [reflexivity|]. destruct first; [cbn [tl]; exact N|]. constructor; [cbn; destruct Hf; [discriminate|assumption]|exact N].
Qed.
Lemma tokens w ws s : written_as (w :: ws) s -> Forall (fun w => exists k, word k w) (w :: ws) -> colon_ok (w :: ws) ->
  exists t ts, lexes "" s (t :: ts) /\ tx t = w /\ kinded t /\ tw ts ws.
Proof.
  intros H F C. destruct (pieces _ _ _ H F C) as (l & last & E & P & S & G & R & N). destruct l as [|p l]; [discriminate|]. injection E as E1 E2. cbn [tl] in N.
  exists (piece_tok p), (map piece_tok l). split; [|split; [exact E1|]].
  - rewrite R. apply (laid_out_lexes (p :: l) last); [|exact G]. split; [|exact S]. eapply Forall_impl; [|exact P]. intros q [Q1 Q2]. split; [now apply space_gap|exact Q2].
  - inversion P as [|? ? [_ P1] P2]; subst. split; [exact (word_rule _ _ P1)|]. split; [rewrite map_map; reflexivity|].
    apply Forall_forall. intros t Ht. apply in_map_iff in Ht as (q & <- & Hq). rewrite Forall_forall in P2, N. destruct (P2 _ Hq) as [Q1 Q2]. repeat split; [exact (word_rule _ _ Q2)|exact Q1|exact (N _ Hq)].
Qed.
Lemma tokens_all ws s : written_as ws s -> Forall (fun w => exists k, word k w) ws -> colon_ok ws -> forall ts, lexes "" s ts -> map tx ts = ws /\ Forall kinded ts.
Proof.
  intros H F C ts L. destruct ws as [|w ws].
  - inversion H; subst. pose proof (laid_out_lexes [] s (conj (Forall_nil _) I) (space_gap _ H0)) as L'. rewrite (lexes_fun _ _ _ _ L L'). split; [reflexivity|constructor].
  - destruct (tokens _ _ _ H F C) as (t & ts' & L' & E & K & T1 & T2). rewrite (lexes_fun _ _ _ _ L L'). cbn. rewrite E, T1. split; [reflexivity|]. constructor; [exact K|].
    eapply Forall_impl; [|exact T2]. intros u U. apply U.
Qed.
Lemma free_words ws : Forall free ws -> Forall (fun w => exists k, word k w) ws.
Proof. apply Forall_impl. exact free_word. Qed.
Lemma condition_written e s : expr_fine e -> written_as (expr_words e) s -> forall e', cond_reads s e' <-> e' = e.
Proof.
  intros F W. pose proof (free_expr _ F) as A. assert (R : cond_reads s e).
  { destruct (expr_words e) as [|w ws] eqn:E.
    - exfalso. destruct F as [N F]. destruct e as [|c e]; [now apply N|]. destruct (F c (or_introl eq_refl)) as [Nc Ft]. destruct c as [|t c]; [now apply Nc|].
      unfold expr_words in E. cbn [map] in E. assert (Nt : term_words t <> []) by (destruct t; discriminate).
      destruct (map (fun c => sep_by "and" (map term_words c)) e) as [|e1 e2]; cbn [map] in E.
      + destruct (map term_words c) as [|t1 t2]; [cbn in E; contradiction|]. rewrite sep_cons2 in E. apply app_eq_nil in E as [_ E]. discriminate.
      + rewrite sep_cons2 in E. apply app_eq_nil in E as [_ E]. discriminate.
    - assert (C : colon_ok (w :: ws)) by (rewrite <- (app_nil_r (w :: ws)); apply colon_free; [exact A|exact I]).
      destruct (tokens _ _ _ W (free_words _ A) C) as (t & ts & L & Et & K & T). exists (t :: ts). split; [exact L|].
      (* the first token's hidden text does not matter *)
      pose (t' := mkTok (tk t) (tx t) " ").
      assert (T' : tw (t' :: ts) (w :: ws)).
      { destruct T as [T1 T2]. split; [cbn; now rewrite Et, T1|]. constructor; [|exact T2]. split; [exact K|]. split; [apply (s_blank 32); [cbn; tauto|constructor]|discriminate]. }
      rewrite <- E in T'. apply (expr_read e _ F) in T'. refine (proj2 (proj2 same_expr) _ _ T' _ _). constructor; [split; reflexivity|]. clear. induction ts; constructor; [split; reflexivity|assumption]. }
  intros e'. split; [intros H; exact (cond_reads_unique _ _ _ H R)|intros ->; exact R].
Qed.

(** ** Policies *)
Lemma in_fields_dec w : {In w fields_of_rule} + {~ In w fields_of_rule}.
Proof. apply in_dec. apply string_dec. Qed.
Fixpoint wscan (opened : bool) (ws : list string) : option bool :=
  match ws with
  | [] => Some opened
  | w :: ws' => if seqb w "output" then wscan true ws' else if in_fields_dec w then wscan false ws'
                else if seqb w "-" then (if opened then None else wscan false ws') else wscan opened ws'
  end.
Lemma wscan_app a b : forall o, wscan o (a ++ b) = match wscan o a with Some o' => wscan o' b | None => None end.
Proof.
  induction a as [|w a IH]; intros o; [reflexivity|]. cbn [List.app wscan]. destruct (seqb w "output"); [apply IH|]. destruct (in_fields_dec w); [apply IH|].
  destruct (seqb w "-"); [destruct o; [reflexivity|apply IH]|apply IH].
Qed.
Lemma wscan_quiet a : forall o, Forall quiet a -> wscan o a = Some o.
Proof.
  induction a as [|w a IH]; intros o F; [reflexivity|]. inversion F as [|? ? [Q1 Q2] F']; subst. cbn [wscan].
  destruct (seqb w "output") eqn:E; [apply seqb_eq in E as ->; exfalso; apply Q1; cbn; tauto|]. destruct (in_fields_dec w); [contradiction|].
  destruct (seqb w "-") eqn:E2; [apply seqb_eq in E2; contradiction|]. now apply IH.
Qed.
Lemma wscan_free a o : Forall free a -> wscan o a = Some o.
Proof. intros F. apply wscan_quiet. eapply Forall_impl; [|exact F]. exact free_quiet. Qed.
Lemma wscan_sound ws o a b1 b2 : wscan o ws <> None -> ws = a ++ "output"%string :: b1 ++ "-"%string :: b2 -> exists w, In w b1 /\ In w fields_of_rule.
Proof.
  intros H ->. rewrite wscan_app in H. destruct (wscan o a) as [o'|]; [|congruence]. cbn [wscan] in H. change (seqb "output" "output") with true in H. cbn iota in H.
  clear a o o'. induction b1 as [|w b1 IH]; cbn [List.app wscan] in H.
  - change (seqb "-" "output") with false in H. cbn iota in H. destruct (in_fields_dec "-") as [i|n]; [cbn in i; repeat (destruct i as [i|i]; [discriminate|]); destruct i|]. now cbn in H.
  - destruct (in_fields_dec w) as [i|n]; [exists w; split; [now left|exact i]|]. destruct (seqb w "output") eqn:E; [apply seqb_eq in E as ->; exfalso; apply n; cbn; tauto|].
    destruct (seqb w "-") eqn:E2; [congruence|]. destruct (IH H) as (w' & Hw & Hi). exists w'. split; [now right|exact Hi].
Qed.
Lemma wscan_field w ws o : In w fields_of_rule -> w <> "output"%string -> wscan o (w :: ":"%string :: ws) = wscan false ws.
Proof.
  intros H N. cbn [wscan]. destruct (seqb w "output") eqn:E; [apply seqb_eq in E; contradiction|]. destruct (in_fields_dec w); [|contradiction].
  change (seqb ":" "output") with false. cbn iota. destruct (in_fields_dec ":") as [i0|n]; [cbn in i0; repeat (destruct i0 as [i0|i0]; [discriminate|]); destruct i0|]. reflexivity.
Qed.
Lemma wscan_plain w ws o : In w other_words \/ In w signs \/ w = ":"%string -> wscan o (w :: ws) = wscan o ws.
Proof.
  intros H. change (w :: ws) with ([w] ++ ws). rewrite wscan_app, wscan_quiet; [reflexivity|]. constructor; [|constructor]. now apply fixed_quiet.
Qed.
Ltac notin := let H := fresh in intros H; cbn in H; repeat (destruct H as [H|H]; [discriminate|]); destruct H.
Lemma wscan_opt o opt : opt_fine opt -> wscan o (opt_words opt) = Some (match opt with WOutput _ => true | _ => false end).
Proof.
  intros F. destruct opt; cbn [opt_words opt_fine] in *;
    try (rewrite wscan_field; [|cbn; tauto|discriminate]); try (apply wscan_free; now apply free_items).
  - cbn [wscan]. change (seqb "output" "output") with true. cbn iota. change (seqb ":" "output") with false. cbn iota.
    destruct (in_fields_dec ":") as [i|n]; [exfalso; revert i; notin|]. change (seqb ":" "-") with false. cbn iota. apply wscan_free. apply F.
  - apply wscan_free. constructor; [right; now left|constructor].
  - apply wscan_free. constructor; [left; apply F|constructor].
  - apply wscan_free. constructor; [left; apply F|constructor].
  - apply wscan_free. constructor; [left; apply F|constructor].
Qed.
Lemma wscan_opts : forall opts o, Forall opt_fine opts -> outputs_followed opts -> wscan o (List.concat (map opt_words opts)) = Some (match opts with [] => o | _ => false end).
Proof.
  induction opts as [|x opts IH]; intros o F N; [reflexivity|]. inversion F; subst. cbn [map List.concat]. rewrite wscan_app, wscan_opt by assumption.
  assert (N' : outputs_followed opts) by (intros a ws E; apply (N (x :: a) ws); now rewrite E). rewrite IH by assumption.
  destruct opts; [|reflexivity]. destruct x; try reflexivity. now destruct (N [] ws).
Qed.
Lemma wscan_dash ws : wscan false ("-"%string :: ws) = wscan false ws.
Proof. cbn [wscan]. change (seqb "-" "output") with false. cbn iota. destruct (in_fields_dec "-") as [i|n]; reflexivity. Qed.
Lemma wscan_decl d : decl_fine d -> wscan false (decl_words d) = Some false.
Proof.
  intros F. destruct d as [nm desc e opts|kw0 x e en|x e ap|x it|v]; cbn [decl_words decl_fine] in *; rewrite wscan_dash.
  - destruct F as (F1 & F2 & [F3 _] & F4 & F5). rewrite wscan_plain by (cbn; tauto). rewrite wscan_plain by tauto. rewrite wscan_app, (wscan_free nm) by apply F1.
    rewrite wscan_field; [|cbn; tauto|discriminate]. rewrite wscan_app, (wscan_free desc) by apply F2. rewrite wscan_field; [|cbn; tauto|discriminate].
    rewrite wscan_app, wscan_free by (now apply free_expr). rewrite wscan_opts by assumption. now destruct opts.
  - destruct F as (F0 & F1 & [F3 _] & F4). rewrite wscan_plain by (destruct F0 as [<-|[<-|[]]]; cbn; tauto). rewrite wscan_plain by tauto.
    change (x :: ?r) with ([x] ++ r). rewrite wscan_app, wscan_free by (constructor; [left; left; exact F1|constructor]). rewrite wscan_field; [|cbn; tauto|discriminate].
    rewrite wscan_app, wscan_free by (now apply free_expr). destruct en as [a|]; [|reflexivity]. rewrite wscan_field; [|cbn; tauto|discriminate]. apply wscan_free. constructor; [left; apply F4|constructor].
  - destruct F as (F1 & [F3 _] & F4). rewrite wscan_plain by (cbn; tauto). rewrite wscan_plain by tauto.
    change (x :: ?r) with ([x] ++ r). rewrite wscan_app, wscan_free by (constructor; [left; left; exact F1|constructor]). rewrite wscan_field; [|cbn; tauto|discriminate].
    rewrite wscan_app, wscan_free by (now apply free_expr). destruct ap as [a|]; [|reflexivity]. rewrite wscan_field; [|cbn; tauto|discriminate]. apply wscan_free. constructor; [left; apply F4|constructor].
  - destruct F as (F1 & F2). rewrite wscan_plain by (cbn; tauto). rewrite wscan_plain by tauto.
    change (x :: ?r) with ([x] ++ r). rewrite wscan_app, wscan_free by (constructor; [left; left; exact F1|constructor]). rewrite wscan_plain by (cbn; tauto). rewrite wscan_plain by tauto.
    apply wscan_free. now apply free_items.
  - rewrite wscan_plain by (cbn; tauto). rewrite wscan_plain by tauto. apply wscan_free. constructor; [left; apply F|constructor].
Qed.
Lemma wscan_policy p : Forall decl_fine p -> wscan false (policy_words p) = Some false.
Proof.
  unfold policy_words. induction 1 as [|d p F Fp IH]; [reflexivity|]. cbn [map List.concat]. rewrite wscan_app, wscan_decl by assumption. exact IH.
Qed.
Lemma closed_written ts p : Forall decl_fine p -> map tx ts = policy_words p -> Forall kinded ts -> outputs_closed ts.
Proof.
  intros F E K a o b1 d b2 -> Ho Hd. rewrite Forall_forall in K.
  assert (Eo : tx o = "output"%string) by (apply (first_rule_spelled _ _ (K o ltac:(apply in_or_app; right; now left)) KOutput "output" eq_refl); exact Ho).
  assert (Ed : tx d = "-"%string) by (apply (first_rule_spelled _ _ (K d ltac:(apply in_or_app; right; right; apply in_or_app; right; now left)) KDecl "-" eq_refl); exact Hd).
  rewrite map_app in E. cbn [map] in E. rewrite map_app in E. cbn [map] in E. rewrite Eo, Ed in E.
  destruct (wscan_sound (policy_words p) false (map tx a) (map tx b1) (map tx b2)) as (w & Hw & Hi); [rewrite wscan_policy by exact F; discriminate|symmetry; exact E|].
  apply in_map_iff in Hw as (t & <- & Ht). exists t. split; [exact Ht|]. now apply reserved_in.
Qed.
(** Words and colons of a policy. *)
Definition anyw (w : string) : Prop := exists k, word k w.
Lemma any_fixed w : In w fields_of_rule \/ In w other_words \/ In w signs \/ w = "-"%string \/ w = ":"%string -> anyw w.
Proof. apply fixed_words. Qed.
Ltac anyfixed := apply any_fixed; cbn; tauto.
Lemma any_opt o : opt_fine o -> Forall anyw (opt_words o).
Proof.
  intros F. destruct o; cbn [opt_words opt_fine] in *; (constructor; [anyfixed|]); (constructor; [anyfixed|]); try (apply free_words; now apply free_items).
  - apply free_words. apply F.
  - apply free_words. constructor; [right; now left|constructor].
  - apply free_words. constructor; [left; apply F|constructor].
  - apply free_words. constructor; [left; apply F|constructor].
  - apply free_words. constructor; [left; apply F|constructor].
Qed.
Lemma any_flag k a : In k fields_of_rule -> flag_fine a -> Forall anyw [k; ":"%string; a].
Proof. intros H F. constructor; [apply any_fixed; tauto|]. constructor; [anyfixed|]. apply free_words. constructor; [left; apply F|constructor]. Qed.
Lemma any_decl d : decl_fine d -> Forall anyw (decl_words d).
Proof.
  intros F. destruct d as [nm desc e opts|kw0 x e en|x e ap|x it|v]; cbn [decl_words decl_fine] in *; (constructor; [anyfixed|]).
  - destruct F as (F1 & F2 & [F3 _] & F4 & F5). constructor; [anyfixed|]. constructor; [anyfixed|]. apply Forall_app. split; [apply free_words; apply F1|].
    constructor; [anyfixed|]. constructor; [anyfixed|]. apply Forall_app. split; [apply free_words; apply F2|]. constructor; [anyfixed|]. constructor; [anyfixed|].
    apply Forall_app. split; [apply free_words; now apply free_expr|]. clear F5. induction F4; [constructor|]. cbn. apply Forall_app. split; [now apply any_opt|assumption].
  - destruct F as (F0 & F1 & [F3 _] & F4). constructor; [destruct F0 as [<-|[<-|[]]]; anyfixed|]. constructor; [anyfixed|]. constructor; [apply free_word; left; left; exact F1|].
    constructor; [anyfixed|]. constructor; [anyfixed|]. apply Forall_app. split; [apply free_words; now apply free_expr|]. destruct en; [|constructor]. apply any_flag; [cbn; tauto|exact F4].
  - destruct F as (F1 & [F3 _] & F4). constructor; [anyfixed|]. constructor; [anyfixed|]. constructor; [apply free_word; left; left; exact F1|].
    constructor; [anyfixed|]. constructor; [anyfixed|]. apply Forall_app. split; [apply free_words; now apply free_expr|]. destruct ap; [|constructor]. apply any_flag; [cbn; tauto|exact F4].
  - destruct F as (F1 & F2). constructor; [anyfixed|]. constructor; [anyfixed|]. constructor; [apply free_word; left; left; exact F1|]. constructor; [anyfixed|]. constructor; [anyfixed|].
    apply free_words. now apply free_items.
  - constructor; [anyfixed|]. constructor; [anyfixed|]. apply free_words. constructor; [left; apply F|constructor].
Qed.
(** [colon_ok] of what follows a ':'. *)
Definition begins_ok (ws : list string) : Prop := forall w ws', ws = w :: ws' -> after_colon w.
Lemma colon_colon w ws : w <> ":"%string -> begins_ok ws -> colon_ok ws -> colon_ok (w :: ":"%string :: ws).
Proof.
  intros N B C. cbn [colon_ok]. split; [congruence|]. destruct ws as [|v ws]; [exact I|]. split; [intros _; exact (B _ _ eq_refl)|exact C].
Qed.
Lemma colon_skip w ws : w <> ":"%string -> colon_ok ws -> colon_ok (w :: ws).
Proof. intros N C. apply (colon_app [w] ws); [intros x [<-|[]]; exact N|exact C]. Qed.
Lemma begins_app a b : a <> [] -> begins_ok a -> begins_ok (a ++ b).
Proof. intros N B w ws E. destruct a as [|x a]; [congruence|]. injection E as -> _. exact (B _ _ eq_refl). Qed.
Lemma colon_only ws : Forall free ws -> colon_ok ws.
Proof. intros F. rewrite <- (app_nil_r ws). apply colon_free; [exact F|exact I]. Qed.
Lemma begins_text ws : text_fine ws -> ws <> [] /\ begins_ok ws.
Proof. intros [(w & ws' & -> & A) _]. split; [discriminate|]. intros v vs [= <- _]. exact A. Qed.
Lemma begins_items it : begins_ok (items_words it).
Proof. intros w ws [= <- _] s. discriminate. Qed.
Lemma begins_one w : after_colon w -> begins_ok [w].
Proof. intros A v vs [= <- _]. exact A. Qed.
Lemma expr_nonempty e : expr_fine e -> expr_words e <> [].
Proof.
  intros [N F] E. destruct e as [|c e]; [now apply N|]. destruct (F c (or_introl eq_refl)) as [Nc _]. destruct c as [|t c]; [now apply Nc|].
  unfold expr_words in E. cbn [map] in E. assert (Nt : term_words t <> []) by (destruct t; discriminate).
  destruct (map (fun c => sep_by "and" (map term_words c)) e) as [|e1 e2]; cbn [map] in E.
  - destruct (map term_words c) as [|t1 t2]; [cbn in E; contradiction|]. rewrite sep_cons2 in E. apply app_eq_nil in E as [_ E]. discriminate.
  - rewrite sep_cons2 in E. apply app_eq_nil in E as [_ E]. discriminate.
Qed.
Lemma colon_opt o r : opt_fine o -> colon_ok r -> colon_ok (opt_words o ++ r).
Proof.
  intros F C.
  assert (G : forall k vs, k <> ":"%string -> Forall free vs -> vs <> [] -> begins_ok vs -> colon_ok ((k :: ":"%string :: vs) ++ r)).
  { intros k vs N Fv Nv Bv. cbn [List.app]. apply colon_colon; [exact N|apply begins_app; assumption|apply colon_free; assumption]. }
  destruct o; cbn [opt_words opt_fine] in *; apply G; try discriminate; try (now apply free_items); try apply begins_items.
  - apply F. - apply begins_text; exact F. - apply begins_text; exact F.
  - constructor; [right; now left|constructor]. - apply begins_one. now apply severity_after.
  - constructor; [left; apply F|constructor]. - apply begins_one. apply F.
  - constructor; [left; apply F|constructor]. - apply begins_one. apply F.
  - constructor; [left; apply F|constructor]. - apply begins_one. apply F.
Qed.
Lemma colon_decl d r : decl_fine d -> colon_ok r -> colon_ok (decl_words d ++ r).
Proof.
  intros F C. destruct d as [nm desc e opts|kw0 x e en|x e ap|x it|v]; cbn [decl_words decl_fine] in *; cbn [List.app]; (apply colon_skip; [discriminate|]).
  - destruct F as (F1 & F2 & [F3 B3] & F4 & F5). destruct (begins_text _ F1) as [N1 B1]. destruct (begins_text _ F2) as [N2 B2].
    rewrite <- !app_assoc. cbn [List.app]. apply colon_colon; [discriminate|now apply begins_app|]. apply colon_free; [apply F1|].
    rewrite <- !app_assoc. cbn [List.app]. apply colon_colon; [discriminate|now apply begins_app|]. apply colon_free; [apply F2|].
    rewrite <- !app_assoc. apply colon_colon; [discriminate|apply begins_app; [now apply expr_nonempty|exact B3]|]. apply colon_free; [now apply free_expr|].
    clear F5. induction F4; [exact C|]. cbn [map List.concat]. rewrite <- app_assoc. apply colon_opt; assumption.
  - destruct F as (F0 & F1 & [F3 B3] & F4).
    assert (Nx : x <> ":"%string) by (apply free_no_colon; left; left; exact F1).
    apply colon_colon; [destruct F0 as [<-|[<-|[]]]; discriminate|intros w ws [= <- _]; now apply name_after|]. apply colon_skip; [exact Nx|].
    rewrite <- app_assoc. apply colon_colon; [discriminate|apply begins_app; [now apply expr_nonempty|exact B3]|]. apply colon_free; [now apply free_expr|].
    destruct en as [a|]; [|exact C]. apply (colon_opt (WEnabled a)); assumption.
  - destruct F as (F1 & [F3 B3] & F4).
    assert (Nx : x <> ":"%string) by (apply free_no_colon; left; left; exact F1).
    apply colon_colon; [discriminate|intros w ws [= <- _]; now apply name_after|]. apply colon_skip; [exact Nx|].
    rewrite <- app_assoc. apply colon_colon; [discriminate|apply begins_app; [now apply expr_nonempty|exact B3]|]. apply colon_free; [now apply free_expr|].
    destruct ap as [a|]; [|exact C]. cbn [List.app]. apply colon_colon; [discriminate|intros w ws [= <- _]; apply F4|]. apply colon_skip; [apply free_no_colon; left; apply F4|exact C].
  - destruct F as (F1 & F2). assert (Nx : x <> ":"%string) by (apply free_no_colon; left; left; exact F1).
    apply colon_colon; [discriminate|intros w ws [= <- _]; now apply name_after|]. apply colon_skip; [exact Nx|].
    change (items_words it ++ r) with (items_words it ++ r). apply colon_colon; [discriminate|apply begins_app; [discriminate|apply begins_items]|]. apply colon_free; [now apply free_items|exact C].
  - apply colon_colon; [discriminate|intros w ws [= <- _]; apply F|]. apply colon_skip; [apply free_no_colon; left; apply F|exact C].
Qed.
Lemma policy_ok p : Forall decl_fine p -> Forall anyw (policy_words p) /\ colon_ok (policy_words p).
Proof.
  unfold policy_words. induction 1 as [|d p F Fp [IH1 IH2]]; [split; [constructor|exact I]|]. cbn [map List.concat]. split.
  - apply Forall_app. split; [now apply any_decl|exact IH1].
  - apply colon_decl; assumption.
Qed.
Lemma decl_dash d : exists ws, decl_words d = "-"%string :: ws.
Proof. destruct d; eexists; reflexivity. Qed.
Lemma defs_read : forall p ts, Forall decl_fine p -> tw ts (policy_words p) -> exists ds, g_defs ts ds /\ Forall2 decl_says p ds.
Proof.
  unfold policy_words. induction p as [|d p IH]; intros ts F H.
  - apply tw_nil in H as ->. exists []. split; constructor.
  - inversion F as [|? ? H1 H2]; subst. cbn [map List.concat] in H. apply tw_app in H as (ta & tb & -> & Ha & Hb). destruct (decl_dash d) as (ws & E). rewrite E in Ha.
    apply tw_cons in Ha as (k & ta' & -> & Ek & [Gk _] & Ha). destruct (decl_read d k ta' ws H1 E Gk Ek Ha) as (d' & G & S).
    destruct (IH tb H2 Hb) as (ds & Gs & Ss). exists (d' :: ds). split; constructor; assumption.
Qed.
Lemma policy_written p s : p <> [] -> Forall decl_fine p -> written_as (policy_words p) s -> exists ds, Forall2 decl_says p ds /\ forall ds', reads s ds' <-> ds' = ds.
Proof.
  intros N F W. destruct (policy_ok p F) as [A C].
  assert (R : exists ds, reads s ds /\ Forall2 decl_says p ds).
  { destruct p as [|d p]; [congruence|]. destruct (decl_dash d) as (ws & E). unfold policy_words in *. cbn [map List.concat] in *. rewrite E in *. cbn [List.app] in *.
    destruct (tokens _ _ _ W A C) as (t & ts & L & Et & K & T). apply tw_app in T as (ta & tb & -> & Ha & Hb). inversion F as [|? ? H1 H2]; subst.
    destruct (decl_read d t ta ws H1 E K Et Ha) as (d' & G & S). destruct (defs_read p tb H2 Hb) as (ds & Gs & Ss).
    exists (d' :: ds). split; [|constructor; assumption]. exists (t :: ta ++ tb). split; [exact L|]. split; [|discriminate]. exact (g_defs_cons (t :: ta) d' tb ds G Gs). }
  destruct R as (ds & R & S). exists ds. split; [exact S|]. intros ds'. split; [|intros ->; exact R].
  intros R'. apply (reads_unique s); [|exact R'|exact R]. intros ts L. destruct (tokens_all _ _ W A C ts L) as [E K]. exact (closed_written ts p F E K).
Qed.

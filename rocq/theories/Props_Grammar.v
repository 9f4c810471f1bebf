(** * Properties C78-C84: from the text of a Falco policy to its declarations. *)
From Coq Require Import Lia.
From Verif Require Import GoBase GoFacts Predicates FlatRecord FieldTables Samples SpecStrings FalcoModel SpecFalco FalcoFacts FalcoFacts2
  FalcoFacts3 GrammarModel GrammarParser GrammarFacts SpecGrammar GrammarFacts2 GrammarFacts3 LexerModel LexerFacts SpecLexer LexerFacts2
  LexerFacts3 LexerFacts4 LexerFacts5 GrammarFacts4 GrammarFacts5 GrammarFacts6 TextFacts LexFast.
Local Open Scope string_scope.

(** C78.  A condition has at most one reading. *)
Theorem C78_condition_one_reading : forall s e e', cond_reads s e -> cond_reads s e' -> e = e'.
Proof. exact cond_reads_unique. Qed.
Print Assumptions C78_condition_one_reading.
(** A policy has at most one reading when the text of every [output] field is closed by another field
    before the next '-'. *)
Theorem C78_policy_one_reading_partial :
  forall s ds ds', (forall ts, lexes "" s ts -> outputs_closed ts) -> reads s ds -> reads s ds' -> ds = ds'.
Proof. exact reads_unique. Qed.
Print Assumptions C78_policy_one_reading_partial.
(** And that reading is computed by the reference parser. *)
Theorem C78_readings_decided_partial :
  forall s ts ds, lexes "" s ts -> outputs_closed ts -> (reads s ds <-> parse_policy ts = Some ds).
Proof. exact reads_decide. Qed.
Print Assumptions C78_readings_decided_partial.
(** Refuted in general: a rule ending with [output], followed by a list, has two readings; in one of
    them the list declaration is part of the output text and is not declared. *)
Theorem C78_absorbed_list_refuted :
  forall us vs name desc e opts s x it,
  g_decl us (DRule (mkRuleDecl name desc e (opts ++ [OOutput s])%list)) -> g_decl vs (DList x it) -> Forall spelled vs ->
  g_policy (us ++ vs)%list [DRule (mkRuleDecl name desc e (opts ++ [OOutput s])%list); DList x it] /\
  exists s', g_policy (us ++ vs)%list [DRule (mkRuleDecl name desc e (opts ++ [OOutput s'])%list)].
Proof. exact output_absorbs. Qed.
Print Assumptions C78_absorbed_list_refuted.

Definition the {A} (d : A) (o : option A) : A := match o with Some x => x | None => d end.
Definition toks (s : string) : list tok := the [] (lex_fast s).
Lemma toks_lexes s : lex_fast s <> None -> lexes "" s (toks s).
Proof. intros H. unfold toks. destruct (lex_fast s) eqn:E; [|congruence]. now apply lex_fast_iff. Qed.
Definition ex_amb := "- rule: r desc: d condition: c output: o - list: l items: [a]".
Lemma decl_of us d : g_policy us [d] -> g_decl us d.
Proof. intros [H _]. inversion H as [|a x b l Hx Hn]; subst. inversion Hn; subst. now rewrite app_nil_r. Qed.
Lemma absorbed_text src ts n name desc e s x it : lexes "" src ts ->
  g_policy (firstn n ts) [DRule (mkRuleDecl name desc e [OOutput s])] -> g_policy (skipn n ts) [DList x it] ->
  reads src [DRule (mkRuleDecl name desc e [OOutput s]); DList x it] /\
  exists s', reads src [DRule (mkRuleDecl name desc e [OOutput s'])].
Proof.
  intros L H1 H2.
  assert (F : Forall spelled (skipn n ts)).
  { rewrite Forall_forall. intros t Ht. pose proof (lexes_spelled _ _ _ L) as Q. rewrite Forall_forall in Q. apply Q.
    rewrite <- (firstn_skipn n ts). apply in_or_app. now right. }
  destruct (output_absorbs _ _ name desc e [] s _ _ (decl_of _ _ H1) (decl_of _ _ H2) F) as [A1 (s' & A2)].
  rewrite firstn_skipn in A1, A2. split; [|exists s']; exists ts; auto.
Qed.
Example C78_ambiguous :
  reads ex_amb [DRule (mkRuleDecl "r" "d" [[TVar "c"]] [OOutput "o"]); DList "l" (mkItems ["a"] false)] /\
  exists s', reads ex_amb [DRule (mkRuleDecl "r" "d" [[TVar "c"]] [OOutput s'])].
Proof.
  apply (absorbed_text _ (toks ex_amb) 13).
  - apply toks_lexes. vm_compute. discriminate.
  - apply parse_policy_sound. vm_compute. reflexivity.
  - apply parse_policy_sound. vm_compute. reflexivity.
Qed.
(** With [priority] after the output there is one reading. *)
Definition ex_closed := "- rule: r desc: d condition: c output: o priority: high - list: l items: [a]".
Example C78_one : (forall ts, lexes "" ex_closed ts -> outputs_closed ts) /\
  reads ex_closed [DRule (mkRuleDecl "r" "d" [[TVar "c"]] [OOutput "o"; OPriority "high"]); DList "l" (mkItems ["a"] false)].
Proof.
  assert (L : lexes "" ex_closed (toks ex_closed)) by (apply toks_lexes; vm_compute; discriminate).
  assert (C : outputs_closed (toks ex_closed)) by (apply closedb_sound; vm_compute; reflexivity).
  split.
  - intros ts H. now rewrite (lexes_fun _ _ _ _ H L).
  - apply (reads_decide _ _ _ L C). vm_compute. reflexivity.
Qed.

(** C79.  [not] binds tighter than [and], and [and] tighter than [or]: a text whose words are those of a
    formula, written with only the parentheses this precedence requires, has a reading, and every
    reading holds exactly when the formula does. *)
Theorem C79_precedence :
  forall macros lists A lpar rpar nott andt ort f s ts,
  tk lpar = KLparen -> tk rpar = KRparen -> tk nott = KNot -> tk andt = KAnd -> tk ort = KOr ->
  tests_ok f -> lexes "" s ts -> Forall2 same_word (write lpar rpar nott andt ort 0 f) ts ->
  (exists e, cond_reads s e) /\
  forall e, cond_reads s e -> forall v, ev macros lists A e v <-> holds (test_value macros lists A) f v.
Proof. exact precedence_text. Qed.
Print Assumptions C79_precedence.
(** The compiled criterion then holds of a record exactly when the formula does. *)
Theorem C79_compiled :
  forall (R : Type) (ops : operations R) M L lpar rpar nott andt ort f s ts e n c,
  tk lpar = KLparen -> tk rpar = KRparen -> tk nott = KNot -> tk andt = KAnd -> tk ort = KOr ->
  tests_ok f -> lexes "" s ts -> Forall2 same_word (write lpar rpar nott andt ort 0 f) ts ->
  cond_reads s e -> expr_plain e = true -> (forall x m, mget x M = Some m -> expr_plain m = true) ->
  visit_expr ops n M L e = Ok c ->
  forall r A, models ops r A -> forall v,
    c_eval c r = v <-> holds (test_value (fun x => mget x M) (fun x => mget x L) A) f v.
Proof. exact precedence_criterion. Qed.
Print Assumptions C79_compiled.

Definition T k x := mkTok k x "".
Definition ex_cond := "not a and b or (c or d = 'x y') and e".
Definition ex_form :=
  FOr (FAnd (FNot (FTest [T KId "a"])) (FTest [T KId "b"]))
      (FAnd (FOr (FTest [T KId "c"]) (FTest [T KId "d"; T KEq "="; T KString "'x y'"])) (FTest [T KId "e"])).
Example C79_case :
  tests_ok ex_form /\ lexes "" ex_cond (toks ex_cond) /\
  Forall2 same_word (write (T KLparen "(") (T KRparen ")") (T KNot "not") (T KAnd "and") (T KOr "or") 0 ex_form) (toks ex_cond) /\
  cond_reads ex_cond [[TNot (TVar "a"); TVar "b"]; [TParen [[TVar "c"]; [TBin "d" BEq "'x y'"]]; TVar "e"]].
Proof.
  assert (L : lexes "" ex_cond (toks ex_cond)) by (apply toks_lexes; vm_compute; discriminate).
  split; [|split; [exact L|split]].
  - repeat split; eexists; (split; [constructor; reflexivity|exact I]).
  - vm_compute. repeat (constructor; [split; reflexivity|]). constructor.
  - exists (toks ex_cond). split; [exact L|]. apply parse_expr_iff. vm_compute. reflexivity.
Qed.

(** C80.  Words separated by any white space and comments, and followed by any, are cut into exactly those words. *)
Theorem C80_words : forall l last, laid_out l -> gap last -> lexes "" (render l last) (map piece_tok l).
Proof. exact laid_out_lexes. Qed.
Print Assumptions C80_words.
(** The reading of a condition does not depend on the layout. *)
Theorem C80_condition_layout :
  forall l l' last last' e, laid_out l -> laid_out l' -> gap last -> gap last' ->
  Forall2 (fun p q => pc_kind p = pc_kind q /\ pc_word p = pc_word q) l l' ->
  cond_reads (render l last) e -> cond_reads (render l' last') e.
Proof. exact layout_cond. Qed.
Print Assumptions C80_condition_layout.
(** The readings of a policy do not depend on the layout, except for the layout inside names,
    descriptions and outputs. *)
Theorem C80_policy_layout :
  forall l l' last last' ds, laid_out l -> laid_out l' -> gap last -> gap last' ->
  Forall2 (fun p q => pc_kind p = pc_kind q /\ pc_word p = pc_word q) l l' ->
  reads (render l last) ds -> exists ds', reads (render l' last') ds' /\ Forall2 same_decl ds ds'.
Proof. exact layout_policy. Qed.
Print Assumptions C80_policy_layout.
(** Refuted without a separating space: a key directly followed by ':' and a value is one word, and a
    policy that begins this way has no reading. *)
Theorem C80_glued_word : forall x y, name_like x -> name_like y -> word KTag (x ++ ":" ++ y).
Proof. exact tag_word. Qed.
Print Assumptions C80_glued_word.
Theorem C80_glued_key_refuted :
  forall x y rest ds, name_like x -> name_like y -> ~ reads ("- " ++ x ++ ":" ++ y ++ " " ++ rest) ds.
Proof. exact glued_key. Qed.
Print Assumptions C80_glued_key_refuted.

Definition nl := String (chr 10) "".
Definition ex_pieces (g : string) :=
  [mkPiece g KDecl "-"; mkPiece " " KList "list"; mkPiece g KDef ":"; mkPiece g KId "l"; mkPiece " " KItems "items"; mkPiece g KDef ":";
   mkPiece (" # the items" ++ nl ++ "  ") KLbrack "["; mkPiece g KPath "/bin/sh"; mkPiece g KRbrack "]"].
Lemma wordb k w : run rules w 0 None = Some (slen w, k) -> odd_quote w = false ->
  starts (fun c => is_ws c || Ascii.eqb c "#") w = false -> w <> String dquote "" -> w <> String squote "" -> word k w.
Proof. intros H1 H2 H3 H4 H5. split; [apply munch_token_at; now rewrite <- run_munch|auto]. Qed.
Example C80_case : gap nl /\ laid_out (ex_pieces " ") /\ laid_out (ex_pieces nl) /\
  reads (render (ex_pieces nl) "") [DList "l" (mkItems ["/bin/sh"] false)] /\ name_like "rule" /\ name_like "x".
Proof.
  assert (G : gap nl) by (constructor; [reflexivity|constructor]).
  assert (G1 : gap " ") by (constructor; [reflexivity|constructor]).
  assert (G2 : gap (" # the items" ++ nl ++ "  ")).
  { apply (gap_ws " "); [reflexivity|]. apply (gap_comment " the items" (chr 10) "  "); [reflexivity|reflexivity|].
    apply gap_ws; [reflexivity|]. apply gap_ws; [reflexivity|constructor]. }
  assert (W : forall g, gap g -> g <> "" -> laid_out (ex_pieces g)).
  { intros g Hg Hne. split.
    - repeat (first [apply Forall_nil | apply Forall_cons; [split; [assumption|apply wordb; (vm_compute; reflexivity || discriminate)]|]]).
    - cbn. repeat split; auto; try discriminate. }
  split; [exact G|]. split; [now apply W|]. split; [now apply W|].
  split; [|repeat split].
  exists (toks (render (ex_pieces nl) "")). split; [apply toks_lexes; vm_compute; discriminate|].
  apply parse_policy_sound. vm_compute. reflexivity.
Qed.

(** C81.  Every text without odd quotes is cut into words, in one way, ... *)
Theorem C81_words_total : forall s, (forall m, odd_quote (sdrop m s) = false) -> exists ts, lexes "" s ts.
Proof. intros s H. exact (lexes_total (slen s) s "" (le_n _) H). Qed.
Print Assumptions C81_words_total.
Theorem C81_words_unique : forall s ts ts', lexes "" s ts -> lexes "" s ts' -> ts = ts'.
Proof. exact (lexes_fun ""). Qed.
Print Assumptions C81_words_unique.
(** ... and no character is lost: the words and what lies between them make up the text. *)
Theorem C81_nothing_lost : forall s ts, lexes "" s ts -> exists last, s = source ts ++ last.
Proof. exact (lexes_source ""). Qed.
Print Assumptions C81_nothing_lost.
(** The name, description and outputs of a rule are verbatim parts of the policy text. *)
Theorem C81_verbatim_texts :
  forall src ds rd s, reads src ds -> In (DRule rd) ds ->
  s = rd_name rd \/ s = rd_desc rd \/ In (OOutput s) (rd_opts rd) -> inside s src.
Proof. exact reads_texts. Qed.
Print Assumptions C81_verbatim_texts.
Definition ex_rule := "- rule: My  rule # 1" ++ nl ++ "- x desc: a -> b condition: c output: up (%y) priority: Low".
Example C81_case :
  reads ex_rule [DRule (mkRuleDecl ("My  rule # 1" ++ nl ++ "- x") "a -> b" [[TVar "c"]] [OOutput "up (%y)"; OPriority "Low"])] /\
  forall m, odd_quote (sdrop m "a = 'b c'") = false.
Proof.
  split.
  - exists (toks ex_rule). split; [apply toks_lexes; vm_compute; discriminate|]. apply parse_policy_sound. vm_compute. reflexivity.
  - intros m. do 10 (destruct m as [|m]; [reflexivity|]). reflexivity.
Qed.

(** C82.  Names, paths and quoted texts are single words, ... *)
Theorem C82_name : forall w, name_like w -> (forall k, word_of k <> Some w) -> ~ severity_word w -> word KId w.
Proof. exact name_word. Qed.
Print Assumptions C82_name.
Theorem C82_path : forall w, path_like w -> word KPath w.
Proof. exact path_word. Qed.
Print Assumptions C82_path.
(** ... and a quoted text is delivered to the comparison without its quotes and otherwise verbatim. *)
Theorem C82_quoted :
  forall q body, quotable q body ->
  word KString (String q (body ++ String q "")) /\ trim_bounding_quotes (String q (body ++ String q "")) = body.
Proof. intros q body H. split; [exact (quoted_word q body H)|]. destruct H as [H _]. exact (quoted_trim q body H). Qed.
Print Assumptions C82_quoted.
(** A quoted word is never empty, and nothing else is a quoted word. *)
Lemma string_form w : word KString w -> exists q body, quotable q body /\ w = String q (body ++ String q "").
Proof.
  intros [(_ & H & _) _]. assert (T : stake (slen w) w = w).
  { clear. unfold slen. induction w as [|c w IH]; [reflexivity|]. cbn. now rewrite IH. }
  rewrite T in H. clear T. apply first_rule_in in H. destruct H as (r & Hi & Hm). 
  the_rule Hi r_string.
  assert (Q : forall q, q = dquote \/ q = squote -> matches (r_quoted q) w -> exists body, quotable q body /\ w = String q (body ++ String q "")).
  { intros q Hq Hq'. unfold r_quoted in Hq'. apply m_seq_inv in Hq' as (u & v & -> & Hu & Hv). apply m_cls_inv in Hu as (c & -> & Hc). apply Ascii.eqb_eq in Hc as <-.
    apply m_seq_inv in Hv as (u & v' & -> & Hu & Hv). apply m_cls_inv in Hu as (f & -> & Hf).
    apply m_seq_inv in Hv as (body & z & -> & Hb & Hz). apply m_cls_inv in Hz as (c' & -> & Hc'). apply Ascii.eqb_eq in Hc' as <-.
    exists (String f body). split; [|reflexivity]. split; [exact Hq|]. split; [exact Hf|]. cbn [sall]. apply star_sall in Hb. rewrite Hb, andb_true_r.
    unfold plain_first in Hf. unfold plain_char. rewrite !andb_true_iff, !negb_true_iff in Hf. destruct Hf as (((F1 & F2) & F3) & F4).
    destruct Hq as [->| ->]; [rewrite F1|rewrite F2]; rewrite F4; reflexivity. }
  apply m_alt_inv in Hm as [Hm|Hm]; [destruct (Q dquote (or_introl eq_refl) Hm) as (body & B)|destruct (Q squote (or_intror eq_refl) Hm) as (body & B)]; eauto.
Qed.
(** Only such texts are: the quotes are equal, there is at least one character between them, none is the
    quote itself, a carriage return or a line feed, and the first is neither a quote nor a backslash. *)
Theorem C82_quoted_only :
  forall w, word KString w <-> exists q f body, w = String q (String f (body ++ String q "")) /\
    (q = """"%char \/ q = "'"%char) /\ ~ In f [""""%char; "'"%char; "\"%char; "010"%char; "013"%char] /\
    forall c, In c (list_ascii_of_string body) -> c <> q /\ c <> "010"%char /\ c <> "013"%char.
Proof.
  assert (FP : forall f, plain_first f = true <-> ~ In f [""""%char; "'"%char; "\"%char; "010"%char; "013"%char]).
  { intros f. unfold plain_first. rewrite !andb_true_iff, !negb_true_iff. unfold is_eol. rewrite ?orb_false_iff, !Ascii.eqb_neq. unfold dquote, squote, backslash. cbn [In].
    change (chr 34) with """"%char. change (chr 39) with "'"%char. change (chr 92) with "\"%char.
    split; [intros H K; repeat (destruct K as [K|K]; [subst; tauto|]); destruct K|]. intros H. repeat split; intros ->; apply H; auto 8. }
  assert (BP : forall q body, sall (plain_char q) body = true <-> forall c, In c (list_ascii_of_string body) -> c <> q /\ c <> "010"%char /\ c <> "013"%char).
  { intros q. induction body as [|c body IH]; [split; [intros _ c []|reflexivity]|]. cbn [sall list_ascii_of_string In]. rewrite andb_true_iff, IH. unfold plain_char, is_eol.
    rewrite andb_true_iff, !negb_true_iff, orb_false_iff, !Ascii.eqb_neq. split.
    - intros [H K] c' [<-|H']; [tauto|auto].
    - intros H. split; [|auto]. destruct (H c (or_introl eq_refl)) as (A & B & C). auto. }
  intros w. split.
  - intros H. apply string_form in H as (q & body & (Hq & Hf & Hb) & ->). destruct body as [|f body]; [discriminate|]. exists q, f, body. split; [reflexivity|].
    split; [exact Hq|]. split; [apply FP; exact Hf|]. apply BP. cbn [sall] in Hb. now apply andb_prop in Hb as [_ Hb].
  - intros (q & f & body & -> & Hq & Hf & Hb). apply (quoted_word q (String f body)). apply FP in Hf. apply BP in Hb. split; [exact Hq|]. split; [exact Hf|].
    cbn [sall]. rewrite Hb, andb_true_r. unfold plain_first in Hf. unfold plain_char. rewrite !andb_true_iff, !negb_true_iff in Hf. destruct Hf as (((F1 & F2) & F3) & F4).
    destruct Hq as [->| ->]; [change """"%char with dquote; rewrite F1|change "'"%char with squote; rewrite F2]; rewrite F4; reflexivity.
Qed.
Print Assumptions C82_quoted_only.
(** Refuted for unquoted severity words and keywords: no condition contains one, ... *)
Theorem C82_reserved_word_refuted :
  forall s e ts t, cond_reads s e -> lexes "" s ts -> In t ts -> ~ severity_word (tx t) /\ ~ In (tx t) not_in_cond.
Proof. exact cond_words. Qed.
Print Assumptions C82_reserved_word_refuted.
(** ... and for negative numbers: the sign is a word of its own, and no condition contains it. *)
Theorem C82_negative_refuted :
  forall s, token_at (String "-" s) 1 KDecl /\ In "-" not_in_cond.
Proof. intros s. split; [exact (minus_token s)|]. cbn. tauto. Qed.
Print Assumptions C82_negative_refuted.
(** A number is never classified as a number (it is a name). *)
Theorem C82_number_refuted : forall w, ~ first_rule rules w KNumber.
Proof. exact number_never. Qed.
Print Assumptions C82_number_refuted.
Example C82_case :
  word KId "sf.proc.exe" /\ word KId "8080" /\ word KPath "/usr/bin/*" /\ word KString "'a # ""b"" [1]'" /\
  severity_word "Critical" /\ severity_word "low" /\
  cond_reads "sf.proc.exe = 'critical'" [[TBin "sf.proc.exe" BEq "'critical'"]] /\
  (forall e, ~ cond_reads "sf.proc.exe = critical" e) /\ (forall e, ~ cond_reads "sf.ret = -1" e).
Proof.
  repeat match goal with |- _ /\ _ => split end.
  1-4: apply wordb; vm_compute; (reflexivity || discriminate).
  1-2: unfold severity_word; cbn; tauto.
  - exists (toks "sf.proc.exe = 'critical'"). split; [apply toks_lexes; vm_compute; discriminate|]. apply parse_expr_iff. vm_compute. reflexivity.
  - intros e H. assert (L : lexes "" "sf.proc.exe = critical" (toks "sf.proc.exe = critical")) by (apply toks_lexes; vm_compute; discriminate).
    apply (proj1 (cond_words _ _ _ (mkTok KSeverity "critical" " ") H L ltac:(vm_compute; tauto))). vm_compute. tauto.
  - intros e H. assert (L : lexes "" "sf.ret = -1" (toks "sf.ret = -1")) by (apply toks_lexes; vm_compute; discriminate).
    apply (proj2 (cond_words _ _ _ (mkTok KDecl "-" " ") H L ltac:(vm_compute; tauto))). vm_compute. tauto.
Qed.

(** C83.  From texts to rules: a successful compilation of policy files gives, for a reading of each
    text, one rule and one filter per declaration, with the meaning the declaration has in its scope. *)
Theorem C83_text_to_policy :
  forall (R : Type) (ops : operations R) n texts fs rules filters,
  Forall2 parsed texts fs ->
  (forall t ds d, In t texts -> text_reads t ds -> In d ds -> decl_plain d = true) ->
  compile ops n fs = Ok (Some (rules, filters)) ->
  exists dss, Forall2 text_reads texts dss /\
    Forall2 (rule_of ops) (rule_occs (occs [] (map (fun ds => Some (ds, false)) dss))) rules /\
    Forall2 (filter_of ops) (filter_occs (occs [] (map (fun ds => Some (ds, false)) dss))) filters.
Proof. exact text_to_policy. Qed.
Print Assumptions C83_text_to_policy.
(** A file that cannot be read, or has no reading, suppresses all rules and filters. *)
Theorem C83_no_reading_no_policy :
  forall (R : Type) (ops : operations R) n texts fs o t,
  Forall2 parsed texts fs -> In t texts -> (forall ds, ~ text_reads t ds) -> compile ops n fs = Ok o -> o = None.
Proof. exact unreadable_suppresses. Qed.
Print Assumptions C83_no_reading_no_policy.
(** When outputs are closed, the texts determine the rules and filters. *)
Theorem C83_determined_partial :
  forall (R : Type) (ops : operations R) n texts fs fs' x x',
  (forall s ts, In (Some s) texts -> lexes "" s ts -> outputs_closed ts) ->
  Forall2 parsed texts fs -> Forall2 parsed texts fs' ->
  compile ops n fs = Ok (Some x) -> compile ops n fs' = Ok (Some x') -> x = x'.
Proof. exact policy_determined. Qed.
Print Assumptions C83_determined_partial.
Definition ex_text := "- macro: sh condition: sf.proc.name in (shells)" ++ nl ++ "- list: shells items: [Bash, zsh]" ++ nl ++
  "- rule: Shell desc: 'a shell' condition: sh and not sf.opflags = EXIT # comment" ++ nl ++ " priority: high" ++ nl.
Definition ex_ds := [DMacro "sh" [[TIn "sf.proc.name" [LAtom "shells"]]] None; DList "shells" (mkItems ["Bash"; "zsh"] false);
  DRule (mkRuleDecl "Shell" "'a shell'" [[TVar "sh"; TNot (TBin "sf.opflags" BEq "EXIT")]] [OPriority "high"])].
Example C83_case : reads ex_text ex_ds /\ Forall2 parsed [Some ex_text] [Some (ex_ds, false)] /\
  (forall ts, lexes "" ex_text ts -> outputs_closed ts) /\
  (forall ds d, text_reads (Some ex_text) ds -> In d ds -> decl_plain d = true) /\
  match compile (flat_ops X0 mappers) 9 [Some (ex_ds, false)] with
  | Ok (Some ([r], [])) => r_name r = "Shell" /\ r_prio r = PHigh /\ c_eval (r_cond r) rec0 = true
  | _ => False
  end.
Proof.
  assert (L : lexes "" ex_text (toks ex_text)) by (apply toks_lexes; vm_compute; discriminate).
  assert (C : forall ts, lexes "" ex_text ts -> outputs_closed ts).
  { intros ts H. rewrite (lexes_fun _ _ _ _ H L). apply closedb_sound. vm_compute. reflexivity. }
  assert (Rd : reads ex_text ex_ds) by (apply (reads_decide _ _ _ L (C _ L)); vm_compute; reflexivity).
  split; [exact Rd|]. split; [constructor; [exact Rd|constructor]|]. split; [exact C|]. split.
  - intros ds d (s & [= <-] & H) Hd. rewrite (reads_unique _ _ _ C H Rd) in Hd.
    cbn in Hd. repeat destruct Hd as [<-|Hd]; try reflexivity. destruct Hd.
  - vm_compute. repeat split; reflexivity.
Qed.

(** C84 (refuted).  The [append] field of a macro has no effect: a macro defined with [append: true]
    replaces the earlier definition like any other. *)
Theorem C84_append_ignored_refuted :
  forall (R : Type) (ops : operations R) n fs,
  compile ops n (map (option_map (fun p => (map without_append (fst p), snd p))) fs) = compile ops n fs.
Proof. exact compile_append. Qed.
Print Assumptions C84_append_ignored_refuted.
Definition ex_append := "- macro: m condition: sf.opflags = EXEC - macro: m condition: or sf.opflags = CLONE append: true".
Definition ex_append2 := "- macro: m condition: sf.opflags = EXEC - macro: m condition: sf.opflags = CLONE append: true " ++
  "- rule: r desc: d condition: m".
Definition ex_append_ds := [DMacro "m" [[TBin "sf.opflags" BEq "EXEC"]] None; DMacro "m" [[TBin "sf.opflags" BEq "CLONE"]] (Some "true");
  DRule (mkRuleDecl "r" "d" [[TVar "m"]] [])].
Example C84_case : (forall ds, ~ reads ex_append ds) /\
  exists ds, reads ex_append2 ds /\ In (DMacro "m" [[TBin "sf.opflags" BEq "CLONE"]] (Some "true")) ds /\
  match compile (flat_ops X0 mappers) 9 [Some (ds, false)] with
  | Ok (Some ([r], [])) => c_eval (r_cond r) rec0 = false
  | _ => False
  end.
Proof.
  split.
  - intros ds H.
    assert (L : lexes "" ex_append (toks ex_append)) by (apply toks_lexes; vm_compute; discriminate).
    assert (C : outputs_closed (toks ex_append)) by (apply closedb_sound; vm_compute; reflexivity).
    assert (E : parse_policy (toks ex_append) = None) by (vm_compute; reflexivity).
    apply (reads_decide _ _ _ L C) in H. congruence.
  - exists ex_append_ds. split; [|split; vm_compute; [tauto|reflexivity]].
    exists (toks ex_append2). split; [apply toks_lexes; vm_compute; discriminate|]. apply parse_policy_sound. vm_compute. reflexivity.
Qed.

(** * GrammarFacts5: from texts to conditions; the absorbed declaration. *)
From Verif Require Import GoBase GoFacts Predicates SpecStrings FalcoModel SpecFalco FalcoFacts FalcoFacts2 FalcoFacts3 GrammarModel GrammarParser GrammarFacts GrammarFacts2 GrammarFacts3
  SpecGrammar LexerModel LexerFacts SpecLexer LexerFacts2 LexerFacts3 LexerFacts4 LexerFacts5 GrammarFacts4.
From Coq Require Import Lia.

Lemma cond_reads_unique s e e' : cond_reads s e -> cond_reads s e' -> e = e'.
Proof.
  intros (ts & Hl & He) (ts' & Hl' & He'). rewrite <- (lexes_fun _ _ _ _ Hl Hl') in He'. now apply (g_expr_unique ts).
Qed.
Lemma reads_unique s ds ds' : (forall ts, lexes "" s ts -> outputs_closed ts) -> reads s ds -> reads s ds' -> ds = ds'.
Proof.
  intros Hc (ts & Hl & H) (ts' & Hl' & H'). rewrite <- (lexes_fun _ _ _ _ Hl Hl') in H'.
  apply (g_policy_unique ts); auto. eapply lexes_spelled; eassumption.
Qed.
Lemma reads_decide s ts ds : lexes "" s ts -> outputs_closed ts -> (reads s ds <-> parse_policy ts = Some ds).
Proof.
  intros Hl Hc. split.
  - intros (ts' & Hl' & H). rewrite <- (lexes_fun _ _ _ _ Hl Hl') in H.
    apply parse_policy_complete; auto. eapply lexes_spelled; eassumption.
  - intros H. exists ts. split; [assumption|]. now apply parse_policy_sound.
Qed.

Lemma sw_sym a b : Forall2 same_word a b -> Forall2 same_word b a.
Proof. induction 1 as [|x y a b [H1 H2] _ IH]; constructor; auto. split; auto. Qed.
Lemma precedence_text macros lists A lpar rpar nott andt ort f s ts :
  tk lpar = KLparen -> tk rpar = KRparen -> tk nott = KNot -> tk andt = KAnd -> tk ort = KOr ->
  tests_ok f -> lexes "" s ts -> Forall2 same_word (write lpar rpar nott andt ort 0 f) ts ->
  (exists e, cond_reads s e) /\
  forall e, cond_reads s e -> forall v, ev macros lists A e v <-> holds (test_value macros lists A) f v.
Proof.
  intros H1 H2 H3 H4 H5 Hok Hl Hw.
  destruct (write_precedence macros lists A lpar rpar nott andt ort H1 H2 H3 H4 H5 f Hok) as [(e0 & He0) Hall].
  pose proof (proj2 (proj2 same_expr)) as SE. split.
  - exists e0, ts. split; [assumption|]. eapply SE; eassumption.
  - intros e (ts' & Hl' & He). rewrite <- (lexes_fun _ _ _ _ Hl Hl') in He. apply Hall.
    eapply SE; [exact He|]. now apply sw_sym.
Qed.
Lemma precedence_criterion (R : Type) (ops : operations R) M L lpar rpar nott andt ort f s ts e n c :
  tk lpar = KLparen -> tk rpar = KRparen -> tk nott = KNot -> tk andt = KAnd -> tk ort = KOr ->
  tests_ok f -> lexes "" s ts -> Forall2 same_word (write lpar rpar nott andt ort 0 f) ts ->
  cond_reads s e -> expr_plain e = true -> (forall x m, mget x M = Some m -> expr_plain m = true) ->
  visit_expr ops n M L e = Ok c ->
  forall r A, models ops r A -> forall v,
    c_eval c r = v <-> holds (test_value (fun x => mget x M) (fun x => mget x L) A) f v.
Proof.
  intros H1 H2 H3 H4 H5 Hok Hl Hw He Hp HM Hc r A HA v.
  destruct (precedence_text (fun x => mget x M) (fun x => mget x L) A _ _ _ _ _ f s ts H1 H2 H3 H4 H5 Hok Hl Hw) as [_ Hall].
  rewrite <- (Hall e He). destruct (condition_meaning ops M L e n c Hp HM Hc r A HA) as [E1 E2].
  split; [intros <-; exact E1|]. intros Hv. symmetry. now apply E2.
Qed.

(** ** An output as last field absorbs a following list or version declaration *)
Lemma g_opts_snoc os l s : g_opts os (l ++ [OOutput s]) ->
  exists os1 o d ts, os = os1 ++ o :: d :: ts /\ g_opts os1 l /\ tk o = KOutput /\ tk d = KDef /\ g_text ts s.
Proof.
  revert os; induction l as [|x l IH]; intros os H; cbn [app] in H.
  - inversion H as [|ts0 o ts' l' Ho Hn]; subst. inversion Hn; subst. inversion Ho as [oo dd tt ss Ho1 Hd1 Ht1| | | | | | |]; subst.
    exists [], oo, dd, tt. rewrite app_nil_r. repeat split; auto; constructor.
  - inversion H as [|ts0 o ts' l' Ho Hn]; subst. apply IH in Hn as (os1 & o & d & ts & -> & Hl & H1 & H2 & H3).
    exists (ts0 ++ os1), o, d, ts. rewrite <- app_assoc. repeat split; auto. now constructor.
Qed.
Lemma g_opts_app a l b l' : g_opts a l -> g_opts b l' -> g_opts (a ++ b) (l ++ l').
Proof. induction 1; intros H'; cbn [app]; [assumption|]. rewrite <- app_assoc. constructor; auto. Qed.
Lemma text_app a s b : g_text a s -> Forall (fun t => reserved_text (tx t) = false) b -> exists s', g_text (a ++ b) s'.
Proof.
  destruct 1 as [a Hne Hf]. intros Hb. exists (source_text (a ++ b)). constructor.
  - destruct a; [congruence|discriminate].
  - now apply Forall_app.
Qed.
Lemma absorbed us vs name desc e opts s d :
  g_decl us (DRule (mkRuleDecl name desc e (opts ++ [OOutput s]))) -> g_decl vs d ->
  Forall (fun t => reserved_text (tx t) = false) vs ->
  g_policy (us ++ vs) [DRule (mkRuleDecl name desc e (opts ++ [OOutput s])); d] /\
  exists s', g_policy (us ++ vs) [DRule (mkRuleDecl name desc e (opts ++ [OOutput s']))].
Proof.
  intros Hu Hv Hf. split.
  - split; [|discriminate]. constructor; [assumption|]. rewrite <- (app_nil_r vs). constructor; [assumption|constructor].
  - inversion Hu as [k r d1 n nm dd d2 n' ds c d3 ce ee os os' Hk Hr H1 Hn Hd H2 Hn' Hc H3 He Ho| | | | | |]; subst.
    apply g_opts_snoc in Ho as (os1 & o & df & ts & -> & Hos & Hout & Hdf & Ht).
    destruct (text_app _ _ _ Ht Hf) as (s' & Hs'). exists s'. split; [|discriminate].
    rewrite <- (app_nil_r (_ ++ vs)). constructor; [|constructor].
    replace ((k :: r :: d1 :: n ++ dd :: d2 :: n' ++ c :: d3 :: ce ++ os1 ++ o :: df :: ts) ++ vs)
      with (k :: r :: d1 :: n ++ dd :: d2 :: n' ++ c :: d3 :: ce ++ (os1 ++ o :: df :: ts ++ vs)).
    2:{ cbn [app]. repeat (rewrite <- app_assoc; cbn [app]). reflexivity. }
    apply g_rule; auto. apply g_opts_app; [assumption|].
    rewrite <- (app_nil_r (ts ++ vs)). change (g_opts ((o :: df :: ts ++ vs) ++ []) [OOutput s']).
    constructor; [now constructor|constructor].
Qed.
Lemma list_unreserved vs x it : g_decl vs (DList x it) -> Forall spelled vs ->
  Forall (fun t => reserved_text (tx t) = false) vs.
Proof.
  intros H Hs. inversion H as [| | | | |k l d1 x0 i d2 ts it0 Hk Hl H1 Hx Hi H2 Hit|]; subst.
  assert (G : forall ks it1, g_items ks it1 -> Forall (fun t => is_atom (tk t) = true \/ tk t = KListsep \/ tk t = KLbrack \/ tk t = KRbrack) ks).
  { clear. assert (GA : forall ks xs, g_atoms ks xs -> Forall (fun t => is_atom (tk t) = true \/ tk t = KListsep \/ tk t = KLbrack \/ tk t = KRbrack) ks).
    { induction 1; repeat (first [apply Forall_nil | apply Forall_cons; [solve [auto]|] | assumption]). }
    destruct 1; repeat (first [apply Forall_nil | apply Forall_cons; [solve [auto]|] | apply Forall_app; split | solve [eauto]]). }
  specialize (G _ _ Hit). rewrite Forall_forall in *. intros t Ht. pose proof (spelled_reserved _ (Hs _ Ht)) as E. rewrite E.
  cbn in Ht. destruct Ht as [<-|[<-|[<-|[<-|[<-|[<-|Ht]]]]]]; rewrite ?Hk, ?Hl, ?H1, ?Hx, ?Hi, ?H2; try reflexivity.
  destruct (G _ Ht) as [Ha|[->|[->| ->]]]; try reflexivity. destruct (tk t); try discriminate Ha; reflexivity.
Qed.
Lemma output_absorbs us vs name desc e opts s x it :
  g_decl us (DRule (mkRuleDecl name desc e (opts ++ [OOutput s]))) -> g_decl vs (DList x it) -> Forall spelled vs ->
  g_policy (us ++ vs) [DRule (mkRuleDecl name desc e (opts ++ [OOutput s])); DList x it] /\
  exists s', g_policy (us ++ vs) [DRule (mkRuleDecl name desc e (opts ++ [OOutput s']))].
Proof. intros Hu Hv Hs. apply absorbed; auto. eapply list_unreserved; eassumption. Qed.

(** ** Texts of declarations are parts of the source *)
Lemma text_inside ts us a b s : g_text us s -> ts = a ++ us ++ b -> inside s (source ts).
Proof. destruct 1 as [us Hne _]. intros ->. now apply source_text_inside. Qed.
Lemma opts_texts os l : g_opts os l -> forall s, In (OOutput s) l -> exists a us b, os = a ++ us ++ b /\ g_text us s.
Proof.
  induction 1 as [|ts o ts' l Ho Hl IH]; intros s Hs; [destruct Hs|]. destruct Hs as [->|Hs].
  - inversion Ho as [oo dd tt ss Ho1 Hd1 Ht1| | | | | | |]; subst. exists [oo; dd], tt, ts'. auto.
  - destruct (IH _ Hs) as (a & us & b & -> & Hu). exists (ts ++ a), us, b. now rewrite <- app_assoc.
Qed.
Lemma decl_texts ts rd : g_decl ts (DRule rd) -> forall s,
  s = rd_name rd \/ s = rd_desc rd \/ In (OOutput s) (rd_opts rd) -> exists a us b, ts = a ++ us ++ b /\ g_text us s.
Proof.
  intros H s Hs. inversion H as [k r d1 n nm dd d2 n' ds c d3 ce ee os os' Hk Hr H1 Hn Hd H2 Hn' Hc H3 He Ho| | | | | |]; subst.
  cbn [rd_name rd_desc rd_opts] in Hs. destruct Hs as [->|[->|Hs]].
  - exists [k; r; d1], n, (dd :: d2 :: n' ++ c :: d3 :: ce ++ os). auto.
  - exists (k :: r :: d1 :: n ++ [dd; d2]), n', (c :: d3 :: ce ++ os).
    split; [|assumption]. cbn [app]. now rewrite <- app_assoc.
  - destruct (opts_texts _ _ Ho _ Hs) as (a & us & b & -> & Hu).
    exists (k :: r :: d1 :: n ++ dd :: d2 :: n' ++ c :: d3 :: ce ++ a), us, b. split; [|assumption].
    cbn [app]. repeat (rewrite <- app_assoc; cbn [app]). reflexivity.
Qed.
Lemma defs_texts ts ds : g_defs ts ds -> forall rd, In (DRule rd) ds -> forall s,
  s = rd_name rd \/ s = rd_desc rd \/ In (OOutput s) (rd_opts rd) -> exists a us b, ts = a ++ us ++ b /\ g_text us s.
Proof.
  induction 1 as [|ts d ts' ds Hd Hds IH]; intros rd Hi s Hs; [destruct Hi|]. destruct Hi as [->|Hi].
  - destruct (decl_texts _ _ Hd _ Hs) as (a & us & b & -> & Hu). exists a, us, (b ++ ts').
    split; [|assumption]. now rewrite <- !app_assoc.
  - destruct (IH _ Hi _ Hs) as (a & us & b & -> & Hu). exists (ts ++ a), us, b. split; [|assumption]. now rewrite <- app_assoc.
Qed.
Lemma reads_texts src ds rd s : reads src ds -> In (DRule rd) ds ->
  s = rd_name rd \/ s = rd_desc rd \/ In (OOutput s) (rd_opts rd) -> inside s src.
Proof.
  intros (ts & Hl & Hd & _) Hi Hs. destruct (defs_texts _ _ Hd _ Hi _ Hs) as (a & us & b & E & Hu).
  pose proof (text_inside _ _ _ _ _ Hu E) as H. destruct (lexes_source _ _ _ Hl) as (last & El). cbn [append] in El.
  rewrite El. now apply inside_app.
Qed.

(** ** Layout *)
Lemma pieces_same l l' :
  Forall2 (fun p q => pc_kind p = pc_kind q /\ pc_word p = pc_word q) l l' -> Forall2 same_word (map piece_tok l) (map piece_tok l').
Proof. induction 1; cbn; constructor; auto. Qed.
Lemma layout_cond l l' last last' e : laid_out l -> laid_out l' -> gap last -> gap last' ->
  Forall2 (fun p q => pc_kind p = pc_kind q /\ pc_word p = pc_word q) l l' ->
  cond_reads (render l last) e -> cond_reads (render l' last') e.
Proof.
  intros H H' Hg Hg' Hs (ts & Hl & He). pose proof (laid_out_lexes _ _ H Hg) as L.
  rewrite (lexes_fun _ _ _ _ Hl L) in He. exists (map piece_tok l'). split; [now apply laid_out_lexes|].
  eapply (proj2 (proj2 same_expr)); [exact He|]. now apply pieces_same.
Qed.
Lemma layout_policy l l' last last' ds : laid_out l -> laid_out l' -> gap last -> gap last' ->
  Forall2 (fun p q => pc_kind p = pc_kind q /\ pc_word p = pc_word q) l l' ->
  reads (render l last) ds -> exists ds', reads (render l' last') ds' /\ Forall2 same_decl ds ds'.
Proof.
  intros H H' Hg Hg' Hs (ts & Hl & He). pose proof (laid_out_lexes _ _ H Hg) as L.
  rewrite (lexes_fun _ _ _ _ Hl L) in He.
  destruct (same_policy _ _ _ He (pieces_same _ _ Hs)) as (ds' & Hd & HH). exists ds'. split; [|assumption].
  exists (map piece_tok l'). split; [now apply laid_out_lexes|assumption].
Qed.

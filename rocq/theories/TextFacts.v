(** * TextFacts: compiling policy texts; macros with append. *)
From Verif Require Import GoBase GoFacts Predicates FalcoModel SpecFalco FalcoFacts FalcoFacts2 FalcoFacts3 GrammarModel GrammarParser GrammarFacts
  SpecGrammar GrammarFacts2 LexerModel LexerFacts SpecLexer LexerFacts2 LexerFacts3 LexerFacts4 LexerFacts5 GrammarFacts4 GrammarFacts5 GrammarFacts6.
From Coq Require Import Lia.
Local Open Scope string_scope.

Lemma parsed_good texts fs : Forall2 parsed texts fs -> Forall file_good fs ->
  exists dss, Forall2 text_reads texts dss /\ fs = map (fun ds => Some (ds, false)) dss.
Proof.
  induction 1 as [|t f texts fs H _ IH]; intros G.
  - exists []. split; [constructor|reflexivity].
  - inversion G as [|? ? (ds & ->) G']; subst. destruct (IH G') as (dss & H1 & ->). exists (ds :: dss). split; [|reflexivity].
    constructor; [|assumption]. destruct t as [s|]; [|destruct H]. exists s. split; [reflexivity|exact H].
Qed.
Lemma text_to_policy (R : Type) (ops : operations R) n texts fs rules filters :
  Forall2 parsed texts fs ->
  (forall t ds d, In t texts -> text_reads t ds -> In d ds -> decl_plain d = true) ->
  compile ops n fs = Ok (Some (rules, filters)) ->
  exists dss, Forall2 text_reads texts dss /\
    Forall2 (rule_of ops) (rule_occs (occs [] (map (fun ds => Some (ds, false)) dss))) rules /\
    Forall2 (filter_of ops) (filter_occs (occs [] (map (fun ds => Some (ds, false)) dss))) filters.
Proof.
  intros Hp Hpl Hc.
  assert (G : Forall file_good fs).
  { destruct (@compile_files_err R ops n fs _ _ Hc) as [_ H2].
    assert (D : forall g : file, file_good g \/ ~ file_good g).
    { intros [[ds [|]]|]; [right|left|right]; try (intros (x & E); discriminate E). now exists ds. }
    assert (DD : Forall file_good fs \/ ~ Forall file_good fs).
    { clear - D. induction fs as [|g fs [IH|IH]]; [left; constructor| |right; intros H; inversion H; auto].
      destruct (D g); [left; constructor; auto|right; intros H'; inversion H'; auto]. }
    destruct DD as [DD|DD]; [assumption|]. specialize (H2 DD). discriminate. }
  destruct (parsed_good _ _ Hp G) as (dss & H1 & ->). exists dss. split; [assumption|].
  assert (P : files_plain (map (fun ds => Some (ds, false)) dss)).
  { intros f d Hf Hd. apply in_map_iff in Hf as (ds & <- & Hds). cbn in Hd.
    clear - H1 Hpl Hds Hd. induction H1 as [|t ds0 texts dss Ht H1 IH]; [destruct Hds|].
    destruct Hds as [->|Hds]; [eapply Hpl; [left; reflexivity|exact Ht|exact Hd]|].
    apply IH; [|assumption]. intros t' ds' d' Hi. apply Hpl. now right. }
  exact (proj2 (compile_ok ops n _ rules filters P Hc)).
Qed.
Lemma unreadable_suppresses (R : Type) (ops : operations R) n texts fs o t :
  Forall2 parsed texts fs -> In t texts -> (forall ds, ~ text_reads t ds) -> compile ops n fs = Ok o -> o = None.
Proof.
  intros Hp Hi Hn Hc. apply (@compile_files_err R ops n fs _ _ Hc). intros G.
  destruct (parsed_good _ _ Hp G) as (dss & H1 & _). clear - H1 Hi Hn.
  induction H1 as [|t' ds texts dss Ht _ IH]; [destruct Hi|]. destruct Hi as [->|Hi]; [exact (Hn _ Ht)|auto].
Qed.
Lemma policy_determined (R : Type) (ops : operations R) n texts fs fs' x x' :
  (forall s ts, In (Some s) texts -> lexes "" s ts -> outputs_closed ts) ->
  Forall2 parsed texts fs -> Forall2 parsed texts fs' ->
  compile ops n fs = Ok (Some x) -> compile ops n fs' = Ok (Some x') -> x = x'.
Proof.
  intros Hc Hp Hp' H H'.
  assert (G : forall gs y, compile ops n gs = Ok (Some y) -> Forall file_good gs).
  { intros gs y Hy. destruct (@compile_files_err R ops n gs _ _ Hy) as [_ H2].
    assert (D : forall g : file, file_good g \/ ~ file_good g).
    { intros [[ds [|]]|]; [right|left|right]; try (intros (z & E); discriminate E). now exists ds. }
    assert (DD : Forall file_good gs \/ ~ Forall file_good gs).
    { clear - D. induction gs as [|g gs [IH|IH]]; [left; constructor| |right; intros Q; inversion Q; auto].
      destruct (D g); [left; constructor; auto|right; intros Q; inversion Q; auto]. }
    destruct DD as [DD|DD]; [assumption|]. specialize (H2 DD). discriminate. }
  destruct (parsed_good _ _ Hp (G _ _ H)) as (dss & H1 & ->).
  destruct (parsed_good _ _ Hp' (G _ _ H')) as (dss' & H1' & ->).
  assert (E : dss = dss').
  { clear - Hc H1 H1'. revert dss' H1'. induction H1 as [|t ds texts dss Ht _ IH]; intros dss' H1'; inversion H1' as [|? ds' ? dss2 Ht' H2]; subst; [reflexivity|].
    f_equal.
    - destruct Ht as (s & -> & Hr), Ht' as (s' & [= <-] & Hr'). apply (reads_unique s); auto. intros ts. apply Hc. now left.
    - apply IH; [|assumption]. intros s ts Hi. apply Hc. now right. }
  subst. rewrite H in H'. now injection H' as ->.
Qed.

(** ** append *)
Lemma policy_append (R : Type) (ops : operations R) n st d : policy_step ops n st (without_append d) = policy_step ops n st d.
Proof. now destruct d. Qed.
Lemma fold_append (R : Type) ds : forall st : cstate R, fold_left (@def_step R) (map without_append ds) st = fold_left (@def_step R) ds st.
Proof. induction ds as [|d ds IH]; intros st; cbn [map fold_left]; [reflexivity|]. rewrite IH. now destruct d. Qed.
Lemma walk_append (R : Type) (ops : operations R) n ds : forall st, policy_walk ops n st (map without_append ds) = policy_walk ops n st ds.
Proof.
  induction ds as [|d ds IH]; intros st; cbn [map policy_walk]; [reflexivity|]. rewrite policy_append.
  unfold rbind. destruct (policy_step ops n st d); auto.
Qed.
Lemma compile_append (R : Type) (ops : operations R) n fs :
  compile ops n (map (option_map (fun p => (map without_append (fst p), snd p))) fs) = compile ops n fs.
Proof.
  unfold compile. generalize (@cstate0 R). induction fs as [|f fs IH]; intros st; cbn [map compile_files]; [reflexivity|].
  assert (E : compile_file ops n st (option_map (fun p => (map without_append (fst p), snd p)) f) = compile_file ops n st f).
  { destruct f as [[ds b]|]; [|reflexivity]. cbn. rewrite fold_append, walk_append. reflexivity. }
  rewrite E. unfold rbind. destruct (compile_file ops n st f) as [[st' [|]]| | |]; auto.
Qed.

(** ** A key glued to its value *)
Lemma lexes_inv h s n k ts : token_at s n k -> lexes h s ts ->
  if hidden k then lexes (h ++ stake n s) (sdrop n s) ts
  else exists ts', ts = mkTok k (stake n s) h :: ts' /\ lexes "" (sdrop n s) ts'.
Proof.
  intros Ht Hl. inversion Hl as [h0|h0 s0 m k0 ts0 Eo Ht' Eh Hl'|h0 s0 m k0 ts0 Eo Ht' Eh Hl']; subst.
  - destruct Ht as [H _]. unfold slen in H. cbn in H. lia.
  - destruct (token_at_fun _ _ _ _ _ Ht Ht') as [-> ->]. now rewrite Eh.
  - destruct (token_at_fun _ _ _ _ _ Ht Ht') as [-> ->]. rewrite Eh. eauto.
Qed.
Lemma decl_key ts d : g_decl ts d -> exists a b ts', ts = a :: b :: ts' /\ tk b <> KTag.
Proof. destruct 1; do 3 eexists; (split; [reflexivity|]); try congruence; intuition congruence. Qed.
Lemma glued_key x y rest ds : name_like x -> name_like y -> ~ reads ("- " ++ x ++ ":" ++ y ++ " " ++ rest) ds.
Proof.
  intros Hx Hy (ts & Hl & Hd & Hne). cbn [append] in Hl.
  pose proof (tag_word x y Hx Hy) as Hw.
  apply (lexes_inv _ _ _ _ _ (minus_token _)) in Hl. cbn [hidden stake sdrop] in Hl. destruct Hl as (ts1 & -> & Hl).
  assert (Hs : starts is_ws ((x ++ ":" ++ y) ++ String " " rest) = false) by (eapply word_start; eassumption).
  pose proof (ws_token " " _ ltac:(discriminate) eq_refl Hs) as Ht. cbn [append] in Ht.
  assert (E : x ++ String ":" (y ++ String " " rest) = (x ++ ":" ++ y) ++ " " ++ rest).
  { rewrite <- (sapp_assoc x). reflexivity. }
  rewrite E in Hl. cbn [append] in Hl. apply (lexes_inv _ _ _ _ _ Ht) in Hl. cbn [hidden stake sdrop slen String.length] in Hl.
  assert (Ht2 : token_at ((x ++ ":" ++ y) ++ " " ++ rest) (slen (x ++ ":" ++ y)) KTag).
  { apply word_stable; auto; [constructor; [reflexivity|constructor]|discriminate|].
    intros Ex. destruct x; [destruct Hx|]. cbn [append] in Ex. injection Ex as _ Ex. now destruct x. }
  apply (lexes_inv _ _ _ _ _ Ht2) in Hl. cbn [hidden] in Hl. destruct Hl as (ts2 & -> & _).
  inversion Hd as [|us d us' ds' Hg _ E1]; subst.
  destruct (decl_key _ _ Hg) as (a & b & us2 & -> & Hb). cbn [app] in E1. injection E1 as _ E1 _. apply Hb. now rewrite E1.
Qed.

(** ** Deciding that outputs are closed *)
Fixpoint scan_closed (l : list tok) : bool :=
  match l with
  | [] => true
  | d :: l' => if kind_beq (tk d) KDecl then false else if reserved_text (tx d) then true else scan_closed l'
  end.
Fixpoint closedb (l : list tok) : bool :=
  match l with
  | [] => true
  | t :: l' => (if kind_beq (tk t) KOutput then scan_closed l' else true) && closedb l'
  end.
Lemma closedb_sound ts : closedb ts = true -> outputs_closed ts.
Proof.
  intros H a o b1 d b2 -> Ho Hd. induction a as [|t a IH]; cbn [app closedb] in H.
  - rewrite Ho in H. apply andb_prop in H as [H _]. change (scan_closed (b1 ++ d :: b2)%list = true) in H. clear Ho.
    induction b1 as [|t b1 IH]; cbn [app scan_closed] in H.
    + now rewrite Hd in H.
    + destruct (kind_beq (tk t) KDecl); [discriminate|]. destruct (reserved_text (tx t)) eqn:E.
      * exists t. split; [now left|assumption].
      * destruct (IH H) as (u & Hu & Hr). exists u. split; [now right|assumption].
  - apply andb_prop in H as [_ H]. auto.
Qed.

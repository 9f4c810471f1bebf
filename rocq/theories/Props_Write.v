(** * Property C100: what a policy written in the policy language says. *)
From Coq Require Import Lia.
From Verif Require Import GoBase GoFacts Predicates FlatRecord FieldTables Samples SpecStrings FalcoModel SpecFalco FalcoFacts FalcoFacts2
  FalcoFacts3 GrammarModel GrammarParser GrammarFacts SpecGrammar GrammarFacts2 GrammarFacts3 LexerModel LexerFacts SpecLexer LexerFacts2
  LexerFacts3 LexerFacts4 LexerFacts5 GrammarFacts4 GrammarFacts5 GrammarFacts6 TextFacts LexFast SpecWrite WriteFacts.
Local Open Scope string_scope.
Local Open Scope list_scope.

(** C100.  A condition written word by word, with any layout, reads as that condition and nothing else. *)
Theorem C100_condition :
  forall e s, expr_fine e -> written_as (expr_words e) s -> forall e', cond_reads s e' <-> e' = e.
Proof. exact condition_written. Qed.
Print Assumptions C100_condition.
(** A policy written word by word, each output followed by another field, has exactly one reading: its
    declarations, the free texts as they stand between their first and last word. *)
Theorem C100_policy :
  forall p s, p <> [] -> Forall decl_fine p -> written_as (policy_words p) s ->
  exists ds, Forall2 decl_says p ds /\ forall ds', reads s ds' <-> ds' = ds.
Proof. exact policy_written. Qed.
Print Assumptions C100_policy.
(** So do the files of a directory, and their compilation gives the rules and filters of those
    declarations, each with the meaning it has in its scope. *)
Definition wplain (d : wdecl) : Prop :=
  match d with WRule _ _ e _ | WFilter _ _ e _ | WMacro _ e _ => expr_plain e = true | _ => True end.
Lemma says_plain d d' : wplain d -> decl_says d d' -> decl_plain d' = true.
Proof. destruct d; cbn; intros H S; [destruct S as (? & ? & ? & _ & _ & _ & ->)|subst d'|subst d'|subst d'|subst d']; try reflexivity; exact H. Qed.
Theorem C100_compiled :
  forall (R : Type) (ops : operations R) n ps ss fs rules filters,
  Forall2 (fun p s => p <> [] /\ Forall decl_fine p /\ Forall wplain p /\ written_as (policy_words p) s) ps ss ->
  Forall2 parsed (map Some ss) fs -> compile ops n fs = Ok (Some (rules, filters)) ->
  exists dss, Forall2 (Forall2 decl_says) ps dss /\
    Forall2 (rule_of ops) (rule_occs (occs [] (map (fun ds => Some (ds, false)) dss))) rules /\
    Forall2 (filter_of ops) (filter_occs (occs [] (map (fun ds => Some (ds, false)) dss))) filters.
Proof.
  intros R ops n ps ss fs rules filters W P C.
  assert (One : forall p s, p <> [] /\ Forall decl_fine p /\ Forall wplain p /\ written_as (policy_words p) s -> forall ds, reads s ds -> Forall2 decl_says p ds /\ forall d, In d ds -> decl_plain d = true).
  { intros p s (N & F & Pl & Wr) ds Rd. destruct (policy_written p s N F Wr) as (ds0 & S & U). apply U in Rd as ->. split; [exact S|].
    clear - Pl S. induction S as [|d d' p ds S1 S IH]; intros x Hx; [destruct Hx|]. inversion Pl; subst. destruct Hx as [<-|Hx]; [eapply says_plain; eassumption|auto]. }
  assert (Pl : forall t ds d, In t (map Some ss) -> text_reads t ds -> In d ds -> decl_plain d = true).
  { intros t ds d Ht (s & -> & Rd) Hd. apply in_map_iff in Ht as (s' & [= ->] & Hs). clear P C fs. induction W as [|p s0 ps ss H W IH]; [destruct Hs|].
    destruct Hs as [->|Hs]; [exact (proj2 (One _ _ H _ Rd) d Hd)|exact (IH Hs)]. }
  destruct (text_to_policy R ops n _ fs rules filters P Pl C) as (dss & T & Q). exists dss. split; [|exact Q].
  clear - W T One. revert dss T. induction W as [|p s ps ss H W IH]; intros dss T; inversion T as [|? ds ? dss' T1 T2]; subst; constructor.
  - destruct T1 as (s' & [= <-] & Rd). exact (proj1 (One _ _ H _ Rd)).
  - exact (IH _ T2).
Qed.
Print Assumptions C100_compiled.

(** Non-vacuity: a policy with a list, a macro with all operators, a filter and a rule. *)
Definition nl := String (ascii_of_nat 10) "".
Definition wx_pol : list wdecl :=
  [ WReq "7"; WList "shells" (mkItems ["bash"; "'/bin/my sh'"] true);
    WMacro "m" [[TNot (TParen [[TVar "x"]; [TExists "sf.type"]])]; [TIn "sf.proc.exe" [LAtom "shells"; LItems (mkItems [] false)]; TPmatch "a" [LAtom "/etc/*"]]] (Some "true");
    WFilter "drop" "f" [[TBin "evt.dir" BEq "<"; TBin "sf.ret" BLe "5"]] (Some "false");
    WRule ["My"; "rule"; "in"; "("; "x"; ")"] ["critical"; "thing"] [[TVar "m"]] [WOutput ["a"; "k:v"; "and"]; WPriority "HIGH"; WTags (mkItems ["t:u"] false)] ].
Ltac ins := cbn; intuition discriminate.
Ltac chars := let u := fresh "u" in let c := fresh "c" in let v := fresh "v" in let E := fresh "E" in
  intros u c v E; repeat (destruct u as [|? u]; [injection E as <- <-; cbn; unfold letter_or_digit, byte_in; cbn; auto 10 with arith|injection E as <- E]); discriminate.
Lemma alnum_spec c : alnum c = true -> letter_or_digit c.
Proof. unfold alnum, in_range, letter_or_digit, byte_in. rewrite !orb_true_iff, !andb_true_iff, !Nat.leb_le. cbn [nat_of_ascii]. tauto. Qed.
Lemma sall_each (P : ascii -> Prop) p s : (forall c, p c = true -> P c) -> sall p s = true -> each P s.
Proof.
  intros I. induction s as [|x s IH]; intros H u c v E; [destruct u; discriminate|]. cbn in H. apply andb_prop in H as [H1 H2]. destruct u as [|y u]; injection E as -> E; [now apply I|].
  exact (IH H2 u c v E).
Qed.
Lemma name_chars_b c s : id_head c = true -> sall id_tail s = true -> name_chars (String c s).
Proof.
  intros H1 H2. exists c, s. split; [reflexivity|]. split.
  - unfold id_head in H1. apply orb_true_iff in H1 as [H1|H1]; [left; now apply alnum_spec|right; now apply Ascii.eqb_eq].
  - apply (sall_each _ id_tail); [|exact H2]. intros d Hd. unfold id_tail in Hd. rewrite !orb_true_iff, !Ascii.eqb_eq in Hd. cbn. destruct Hd as [[[[Hd| ->]| ->]| ->]| ->]; auto 10 using alnum_spec.
Qed.
Ltac isname := split; [apply name_chars_b; reflexivity|split; [ins|split; [ins|unfold severity; ins]]].
Ltac isval := first [left; isname | right; right; right; right; left; reflexivity].
Lemma tag_b x y : name_chars x -> name_chars y -> value (x ++ ":" ++ y)%string.
Proof. intros Hx Hy. right; right; right; left. exists x, y. auto. Qed.
Lemma wx_quoted : value "'/bin/my sh'".
Proof.
  right; right; left. exists (ascii_of_nat 39), "/"%char, "bin/my sh". split; [auto|]. split; [reflexivity|]. split; [ins|].
  apply (sall_each _ (fun c => negb (Ascii.eqb c (ascii_of_nat 39)) && negb (is_eol c))); [|reflexivity].
  intros c H. apply andb_prop in H as [H1 H2]. rewrite negb_true_iff in *. split; [now apply Ascii.eqb_neq|]. intros L. apply eol_iff in L. congruence.
Qed.
Lemma wx_path : value "/etc/*".
Proof.
  right; left. exists "/"%char, "etc/*". split; [reflexivity|]. split; [auto|]. split; [|auto]. apply (sall_each _ path_tail); [|reflexivity].
  intros d Hd. unfold path_tail in Hd. rewrite !orb_true_iff, !Ascii.eqb_eq in Hd. cbn. destruct Hd as [[[[[Hd| ->]| ->]| ->]| ->]| ->]; auto 10 using alnum_spec.
Qed.
Ltac noteq := let s := fresh in intros s; discriminate.
Ltac freew := first [left; isval | right; left; unfold severity; cbn; tauto | right; right; left; cbn; tauto | right; right; right; cbn; tauto | left; apply (tag_b "k" "v"); apply name_chars_b; reflexivity].
Ltac textf := split; [eexists _, _; split; [reflexivity|noteq]|repeat (constructor; [freew|]); constructor].
Ltac conj1 := intros c Hc; repeat (destruct Hc as [<-|Hc]; [split; [discriminate|]; intros t Ht; repeat (destruct Ht as [<-|Ht]; [|]); try destruct Ht|]); try destruct Hc.
Example C100_case : wx_pol <> [] /\ Forall decl_fine wx_pol /\ Forall wplain (firstn 2 wx_pol ++ skipn 3 wx_pol) /\
  written_as (policy_words [WList "l" (mkItems ["a"] false)])
    ("# c" ++ nl ++ "- list : l" ++ nl ++ "  items : [ a ] # last" ++ nl)%string.
Proof.
  split; [discriminate|]. split; [|split].
  - constructor; [split; [isval|noteq]|]. constructor; [split; [isname|repeat (constructor; [first [exact wx_quoted|isval]|]); constructor]|].
    constructor.
    { split; [isname|]. split; [|split; [isval|noteq]]. split; [|intros w ws [= <- _]; noteq]. split; [discriminate|]. conj1.
      - constructor. constructor; [discriminate|]. conj1; constructor; first [isname|isval].
      - constructor; [isval|discriminate|]. repeat (constructor; [first [isval|constructor]|]); constructor.
      - constructor; [isval|discriminate|]. repeat (constructor; [first [exact wx_path|isval]|]); constructor. }
    constructor.
    { split; [cbn; tauto|]. split; [isname|]. split; [|split; [isval|noteq]]. split; [|intros w ws [= <- _]; noteq]. split; [discriminate|]. conj1; constructor; isval. }
    constructor; [|constructor]. split; [textf|]. split; [textf|]. split; [split; [|intros w ws [= <- _]; noteq]; split; [discriminate|]; conj1; constructor; isname|]. split.
    + constructor; [textf|]. constructor; [unfold opt_fine, severity; cbn; tauto|]. constructor; [|constructor]. constructor; [apply (tag_b "t" "u"); apply name_chars_b; reflexivity|constructor].
    + intros a ws E. apply (f_equal (@rev _)) in E. rewrite rev_app_distr in E. discriminate.
  - repeat constructor.
  - assert (B : forall s, space s -> space (String " " s)) by (intros s Hs; apply (s_blank 32); [cbn; tauto|exact Hs]).
    assert (L : forall s, space s -> space (nl ++ s)%string) by (intros s Hs; apply (s_blank 10); [cbn; tauto|exact Hs]).
    assert (Cm : forall x s, sall (fun c => negb (is_eol c)) x = true -> space s -> space (String "#" (x ++ nl ++ s)%string)).
    { intros x s Hx Hs. apply (s_comment x (ascii_of_nat 10) s); [|left; reflexivity|exact Hs]. apply (sall_each _ (fun c => negb (is_eol c))); [|exact Hx].
      intros c Hc H. apply eol_iff in H. rewrite H in Hc. discriminate. }
    apply (w_word true ("# c" ++ nl)%string "-" _ _); [apply (Cm " c" ""); [reflexivity|constructor]|now left|].
    repeat (match goal with |- written false (?w :: _) (String " " ?r) => apply (w_word false " " w _ _); [apply B; constructor|right; discriminate|] end).
    apply (w_word false (nl ++ "  ")%string "items" _ _); [apply L; apply B; apply B; constructor|right; discriminate|].
    apply (w_word false " " ":" _ _); [apply B; constructor|right; discriminate|].
    apply (w_word false " " "[" _ _); [apply B; constructor|right; discriminate|].
    apply (w_word false " " "a" _ _); [apply B; constructor|right; discriminate|].
    apply (w_word false " " "]" _ _); [apply B; constructor|right; discriminate|].
    apply w_end. apply B. apply (Cm " last" ""); [reflexivity|constructor].
Qed.

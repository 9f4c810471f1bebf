(** * OperandFacts: the operands a policy text can contain. *)
From Coq Require Import Lia.
From Verif Require Import GoBase GoFacts Predicates FlatRecord FalcoModel SpecFalco SpecFlat FalcoFacts GrammarModel GrammarFacts LexerModel LexerFacts SpecLexer.
Local Open Scope string_scope.

(** Can a text matched by [r] be empty, can it end in [c]? *)
Fixpoint nullable (r : re) : bool :=
  match r with
  | RNone | RCls _ => false | REps | RStar _ => true
  | RSeq a b => nullable a && nullable b | RAlt a b => nullable a || nullable b
  end.
Fixpoint can_end (c : ascii) (r : re) : bool :=
  match r with
  | RNone | REps => false
  | RCls p => p c
  | RSeq a b => can_end c b || (nullable b && can_end c a)
  | RAlt a b => can_end c a || can_end c b
  | RStar a => can_end c a
  end.
Lemma nullable_empty r s : matches r s -> s = "" -> nullable r = true.
Proof.
  induction 1; intros E; cbn [nullable]; try reflexivity; try discriminate.
  - destruct s; [|discriminate]. cbn in E. now rewrite IHmatches1, IHmatches2.
  - rewrite IHmatches by assumption. reflexivity.
  - rewrite IHmatches by assumption. apply orb_true_r.
Qed.
Lemma app_last s t x c : s ++ t = x ++ String c "" -> (t = "" /\ s = x ++ String c "") \/ exists y, t = y ++ String c "".
Proof.
  revert x. induction s as [|a s IH]; intros x E; cbn in E.
  - right. eauto.
  - destruct x as [|b x]; cbn in E.
    + injection E as -> E. destruct s; [|discriminate]. destruct t; [|discriminate]. now left.
    + injection E as -> E. destruct (IH _ E) as [[-> ->]|K]; [left; split; reflexivity|now right].
Qed.
Lemma matches_end c r s : matches r s -> forall x, s = x ++ String c "" -> can_end c r = true.
Proof.
  induction 1; intros x E; cbn [can_end].
  - destruct x; discriminate.
  - destruct x as [|? [|]]; cbn in E; try discriminate. injection E as ->. assumption.
  - destruct (app_last _ _ _ _ E) as [[-> ->]|[y ->]].
    + rewrite (nullable_empty _ _ H0 eq_refl), (IHmatches1 _ eq_refl). apply orb_true_r.
    + now rewrite (IHmatches2 _ eq_refl).
  - now rewrite (IHmatches _ E).
  - rewrite (IHmatches _ E). apply orb_true_r.
  - destruct x; discriminate.
  - destruct (app_last _ _ _ _ E) as [[-> ->]|[y ->]]; [now apply (IHmatches1 x)|]. cbn [can_end] in IHmatches2. now apply (IHmatches2 y).
Qed.
Lemma first_rule_in l w k : first_rule l w k -> exists r, In (k, r) l /\ matches r w.
Proof. induction 1 as [|k' r l w k _ _ (r' & Hi & Hm)]; [eexists; split; [left; reflexivity|assumption]|exists r'; split; [now right|assumption]]. Qed.
Lemma rules_end : forallb (fun kr => negb (is_atom (fst kr)) || negb (can_end "[" (snd kr))) rules = true.
Proof. lazy. reflexivity. Qed.
Lemma atom_operand s n k : token_at s n k -> is_atom k = true -> operand_ok (stake n s).
Proof.
  intros (_ & H & _) Ha x E. apply first_rule_in in H as (r & Hi & Hm).
  pose proof (proj1 (forallb_forall _ _) rules_end _ Hi) as K. cbn [fst snd] in K. rewrite Ha in K. cbn [negb orb] in K.
  rewrite (matches_end _ _ _ Hm x E) in K. discriminate.
Qed.
Lemma lexed_operands h s ts : lexes h s ts -> Forall (fun t => is_atom (tk t) = true -> operand_ok (tx t)) ts.
Proof.
  induction 1; [constructor|assumption|]. constructor; [|assumption]. cbn. now apply atom_operand.
Qed.
(** Every operand of a condition is the text of an atom. *)
Definition fine (t : tok) : Prop := is_atom (tk t) = true -> operand_ok (tx t).
Definition all_ok (l : list string) : Prop := forall a, In a l -> operand_ok a.
Lemma g_operands :
  (forall ts t, g_term ts t -> Forall fine ts -> all_ok (term_operands t)) /\
  (forall ts l, g_and ts l -> Forall fine ts -> all_ok (concat (map term_operands l))) /\
  (forall ts e, g_expr ts e -> Forall fine ts -> all_ok (expr_operands e)).
Proof.
  unfold all_ok. apply g_mut; intros; cbn [term_operands expr_operands map concat In] in *;
    repeat match goal with
           | H : Forall fine (_ :: _) |- _ => let A := fresh "A" in let B := fresh "B" in inversion H as [|? ? A B]; subst; clear H
           | H : Forall fine (_ ++ _) |- _ => let A := fresh "A" in let B := fresh "B" in apply Forall_app in H as [A B]
           end.
  - contradiction.
  - auto.
  - destruct H0 as [<-|[]]. auto.
  - destruct H0 as [<-|[<-|[]]]; auto.
  - destruct H0 as [<-|[]]; auto.
  - destruct H0 as [<-|[]]; auto.
  - apply H; assumption.
  - rewrite app_nil_r in H1. auto.
  - apply in_app_iff in H2 as [H2|H2]; auto.
  - rewrite app_nil_r in H1. auto.
  - unfold expr_operands in *. cbn [map concat] in *. apply in_app_iff in H2 as [H2|H2]; auto.
Qed.
Lemma decl_all_ok ts d : g_decl ts d -> Forall fine ts -> all_ok (decl_operands d).
Proof.
  destruct g_operands as (_ & _ & G). unfold all_ok.
  intros H F. inversion H; subst; cbn [decl_operands rd_cond fd_cond In];
    repeat match goal with
           | H : Forall fine (_ :: _) |- _ => let A := fresh "A" in let B := fresh "B" in inversion H as [|? ? A B]; subst; clear H
           | H : Forall fine (_ ++ _) |- _ => let A := fresh "A" in let B := fresh "B" in apply Forall_app in H as [A B]
           end; try (intros ? []); try (eapply G; eassumption).
Qed.
Lemma defs_all_ok ts ds : g_defs ts ds -> Forall fine ts -> forall d, In d ds -> all_ok (decl_operands d).
Proof.
  induction 1 as [|ts d ts' ds Hd _ IH]; intros F d' Hi; [destruct Hi|]. apply Forall_app in F as [F1 F2].
  destruct Hi as [<-|Hi]; [eapply decl_all_ok; eassumption|auto].
Qed.
Lemma text_operands t ds d a : text_reads t ds -> In d ds -> In a (decl_operands d) -> operand_ok a.
Proof.
  intros (s & _ & ts & Hl & Hg & _) Hd Ha. eapply defs_all_ok; [exact Hg| |exact Hd|exact Ha]. exact (lexed_operands _ _ _ Hl).
Qed.
Lemma cond_operands s e a : cond_reads s e -> In a (expr_operands e) -> operand_ok a.
Proof. intros (ts & Hl & Hg) Ha. destruct g_operands as (_ & _ & G). eapply G; [exact Hg| |exact Ha]. exact (lexed_operands _ _ _ Hl). Qed.
Lemma texts_operands texts dss : Forall2 text_reads texts dss -> files_operands operand_ok (map (fun ds => Some (ds, false)) dss).
Proof.
  intros F f d a Hf Hd Ha. apply in_map_iff in Hf as (ds & <- & Hds). cbn [file_decls] in Hd.
  induction F as [|t ds0 texts dss Ht F IH]; [destruct Hds|]. destruct Hds as [->|Hds]; [eapply text_operands; eassumption|auto].
Qed.

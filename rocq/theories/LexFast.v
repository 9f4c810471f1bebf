(** * LexFast: a linear lexer for concrete texts, equal to [lex_all]. *)
From Verif Require Import GoBase GoFacts FalcoModel GrammarModel LexerModel LexerFacts.
From Coq Require Import Lia.
Local Open Scope string_scope.

Definition alive (kr : kind * re) : bool := match snd kr with RNone => false | _ => true end.
Fixpoint step_rules (c : ascii) (l : list (kind * re)) : list (kind * re) :=
  match l with
  | [] => []
  | (k, r) :: l' => match deriv c r with RNone => step_rules c l' | r' => (k, r') :: step_rules c l' end
  end.
Lemma classify_step c w l : classify l (String c w) = classify (step_rules c l) w.
Proof.
  induction l as [|[k r] l IH]; [reflexivity|]. cbn [classify step_rules accepts].
  assert (N : accepts RNone w = false).
  { apply not_true_is_false. intros H. apply accepts_spec in H. now apply m_none in H. }
  destruct (deriv c r) eqn:E; cbn [classify]; rewrite ?N, IH; reflexivity.
Qed.
(** [munch] for any rules. *)
Fixpoint munchl (l : list (kind * re)) (m : nat) (s : string) : option (nat * kind) :=
  match m with
  | O => None
  | S m' => match classify l (stake m s) with Some k => Some (m, k) | None => munchl l m' s end
  end.
Lemma munchl_rules m s : munchl rules m s = munch m s.
Proof. induction m as [|m IH]; [reflexivity|]. cbn [munchl munch]. now rewrite IH. Qed.
Fixpoint run (l : list (kind * re)) (s : string) (n : nat) (best : option (nat * kind)) : option (nat * kind) :=
  match s with
  | EmptyString => best
  | String c s' =>
      match step_rules c l with
      | [] => best
      | l' => run l' s' (S n) (match classify l' "" with Some k => Some (S n, k) | None => best end)
      end
  end.
Lemma munchl_step c l s m :
  munchl l (S m) (String c s) =
  match munchl (step_rules c l) m s with
  | Some (j, k) => Some (S j, k)
  | None => match classify (step_rules c l) "" with Some k => Some (1, k) | None => None end
  end.
Proof.
  induction m as [|m IH].
  - cbn [munchl stake]. rewrite classify_step. cbn. destruct s; reflexivity.
  - remember (S m) as m1. cbn [munchl]. rewrite IH. subst m1. cbn [munchl stake]. rewrite classify_step.
    destruct (classify (step_rules c l) (stake (S m) s)) eqn:E; cbn [stake] in E; rewrite E; reflexivity.
Qed.
Lemma munchl_nil m s : munchl [] m s = None.
Proof. induction m as [|m IH]; [reflexivity|]. cbn. exact IH. Qed.
Lemma run_spec s : forall l n best,
  run l s n best = match munchl l (slen s) s with Some (m, k) => Some (n + m, k) | None => best end.
Proof.
  induction s as [|c s IH]; intros l n best; [reflexivity|].
  change (slen (String c s)) with (S (slen s)). rewrite munchl_step. cbn [run].
  destruct (step_rules c l) as [|x l'] eqn:E.
  - rewrite munchl_nil. reflexivity.
  - rewrite IH. destruct (munchl (x :: l') (slen s) s) as [[m k]|].
    + now rewrite Nat.add_succ_r.
    + destruct (classify (x :: l') ""); [|reflexivity]. now rewrite Nat.add_1_r.
Qed.
Lemma run_munch s : run rules s 0 None = munch (slen s) s.
Proof. rewrite run_spec, munchl_rules. destruct (munch (slen s) s) as [[m k]|]; reflexivity. Qed.

Fixpoint lexf (n : nat) (h s : string) : option (list tok) :=
  match n with
  | O => None
  | S n' =>
      match s with
      | EmptyString => Some []
      | _ =>
          if odd_quote s then None else
          match run rules s 0 None with
          | Some (m, k) =>
              if hidden k then lexf n' (h ++ stake m s) (sdrop m s)
              else match lexf n' "" (sdrop m s) with
                   | Some ts => Some (mkTok k (stake m s) h :: ts)
                   | None => None
                   end
          | None => None
          end
      end
  end.
Definition lex_fast (s : string) : option (list tok) := lexf (S (slen s)) "" s.
Lemma lexf_lex n : forall h s, lexf n h s = lex n h s.
Proof.
  induction n as [|n IH]; intros h s; [reflexivity|]. destruct s as [|c s]; [reflexivity|].
  cbn [lexf lex]. rewrite run_munch. destruct (odd_quote (String c s)); [reflexivity|].
  destruct (munch (slen (String c s)) (String c s)) as [[m k]|]; [|reflexivity].
  destruct (hidden k); rewrite IH; reflexivity.
Qed.
Lemma lex_fast_all s : lex_fast s = lex_all s.
Proof. apply lexf_lex. Qed.
Lemma lex_fast_iff s ts : lex_fast s = Some ts <-> lexes "" s ts.
Proof. rewrite lex_fast_all. apply lex_all_iff. Qed.

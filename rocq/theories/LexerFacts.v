(** * LexerFacts: a matcher for the lexical rules, by derivatives. *)
From Verif Require Import GoBase GoFacts FalcoModel GrammarModel LexerModel.
From Coq Require Import Lia.
Local Open Scope string_scope.

Fixpoint nullable (r : re) : bool :=
  match r with
  | RNone | RCls _ => false
  | REps | RStar _ => true
  | RSeq a b => nullable a && nullable b
  | RAlt a b => nullable a || nullable b
  end.
Definition sseq (a b : re) : re :=
  match a with RNone => RNone | REps => b | _ => match b with RNone => RNone | _ => RSeq a b end end.
Definition salt (a b : re) : re :=
  match a with RNone => b | _ => match b with RNone => a | _ => RAlt a b end end.
Fixpoint deriv (c : ascii) (r : re) : re :=
  match r with
  | RNone | REps => RNone
  | RCls p => if p c then REps else RNone
  | RSeq a b => if nullable a then salt (sseq (deriv c a) b) (deriv c b) else sseq (deriv c a) b
  | RAlt a b => salt (deriv c a) (deriv c b)
  | RStar a => sseq (deriv c a) (RStar a)
  end.

Lemma m_none s : ~ matches RNone s.
Proof. intros H; inversion H. Qed.
Lemma m_eps_inv s : matches REps s <-> s = "".
Proof. split; [intros H; now inversion H|intros ->; constructor]. Qed.
Lemma m_seq_inv a b s : matches (RSeq a b) s <-> exists u v, s = u ++ v /\ matches a u /\ matches b v.
Proof.
  split; [intros H; inversion H; subst; eauto 6|]. intros (u & v & -> & Hu & Hv). now constructor.
Qed.
Lemma m_alt_inv a b s : matches (RAlt a b) s <-> matches a s \/ matches b s.
Proof. split; [intros H; inversion H; auto|]. intros [H|H]; [now apply m_alt_l|now apply m_alt_r]. Qed.
Lemma m_cls_inv p s : matches (RCls p) s <-> exists c, s = String c "" /\ p c = true.
Proof. split; [intros H; inversion H; eauto|]. intros (c & -> & H). now constructor. Qed.
Lemma sapp_empty u v : "" = u ++ v -> u = "" /\ v = "".
Proof. destruct u; [|discriminate]. auto. Qed.

Lemma sseq_spec a b s : matches (sseq a b) s <-> matches (RSeq a b) s.
Proof.
  assert (Hn : forall x, matches (RSeq x RNone) s <-> False).
  { intros x. rewrite m_seq_inv. split; [|tauto]. intros (u & v & _ & _ & H). now apply m_none in H. }
  unfold sseq. destruct a.
  - rewrite m_seq_inv. split; [intros H; now apply m_none in H|]. intros (u & v & _ & H & _). now apply m_none in H.
  - rewrite m_seq_inv. split.
    + intros H. exists "", s. repeat split; auto. constructor.
    + intros (u & v & -> & Hu & Hv). apply m_eps_inv in Hu as ->. exact Hv.
  - destruct b; try tauto. rewrite Hn. split; [apply m_none|tauto].
  - destruct b; try tauto. rewrite Hn. split; [apply m_none|tauto].
  - destruct b; try tauto. rewrite Hn. split; [apply m_none|tauto].
  - destruct b; try tauto. rewrite Hn. split; [apply m_none|tauto].
Qed.
Lemma salt_spec a b s : matches (salt a b) s <-> matches (RAlt a b) s.
Proof.
  rewrite m_alt_inv. pose proof (m_none s).
  unfold salt. destruct a; [tauto|..]; (destruct b; [tauto|..]); rewrite m_alt_inv; tauto.
Qed.
Lemma nullable_spec r : nullable r = true <-> matches r "".
Proof.
  induction r as [| |p|a IHa b IHb|a IHa b IHb|a IHa]; cbn [nullable].
  - split; [discriminate|]. intros H. now apply m_none in H.
  - split; [constructor|reflexivity].
  - rewrite m_cls_inv. split; [discriminate|]. intros (c & H & _). discriminate.
  - rewrite andb_true_iff, IHa, IHb, m_seq_inv. split.
    + intros [H1 H2]. exists "", "". auto.
    + intros (u & v & E & Hu & Hv). apply sapp_empty in E as [-> ->]. auto.
  - rewrite orb_true_iff, IHa, IHb, m_alt_inv. reflexivity.
  - split; [constructor|reflexivity].
Qed.
Lemma star_cons a c s : matches (RStar a) (String c s) ->
  exists u v, s = u ++ v /\ matches a (String c u) /\ matches (RStar a) v.
Proof.
  remember (RStar a) as r eqn:Er. remember (String c s) as w eqn:Ew.
  intros H. revert Er Ew. induction H as [| | | | | |a' s' t Hs _ Ht IH]; intros Er Ew; try discriminate.
  injection Er as ->. destruct s' as [|c' u].
  - cbn [append] in Ew. now apply IH.
  - cbn [append] in Ew. injection Ew as -> <-. exists u, t. auto.
Qed.
Lemma deriv_spec r : forall c s, matches (deriv c r) s <-> matches r (String c s).
Proof.
  induction r as [| |p|a IHa b IHb|a IHa b IHb|a IHa]; intros c s; cbn [deriv].
  - split; intros H; inversion H.
  - split; intros H; inversion H.
  - rewrite m_cls_inv. destruct (p c) eqn:E.
    + rewrite m_eps_inv. split; [intros ->; eauto|]. intros (c' & [= -> ->] & _). reflexivity.
    + split; [intros H; now apply m_none in H|]. intros (c' & [= -> ->] & H). congruence.
  - assert (Hs : matches (sseq (deriv c a) b) s <-> exists u v, s = u ++ v /\ matches a (String c u) /\ matches b v).
    { rewrite sseq_spec, m_seq_inv. split; intros (u & v & -> & Hu & Hv); exists u, v; rewrite IHa in *; auto. }
    assert (Hw : matches (RSeq a b) (String c s) <->
      (exists u v, s = u ++ v /\ matches a (String c u) /\ matches b v) \/ (matches a "" /\ matches b (String c s))).
    { rewrite m_seq_inv. split.
      - intros ([|c' u] & v & E & Hu & Hv); cbn [append] in E.
        + right. subst v. auto.
        + left. injection E as <- ->. eauto.
      - intros [(u & v & -> & Hu & Hv)|[Hu Hv]]; [exists (String c u), v; auto|exists "", (String c s); auto]. }
    rewrite Hw. destruct (nullable a) eqn:En.
    + apply nullable_spec in En. rewrite salt_spec, m_alt_inv, Hs, IHb. tauto.
    + rewrite Hs. split; [tauto|]. intros [H|[H _]]; [assumption|]. apply nullable_spec in H. congruence.
  - rewrite salt_spec, !m_alt_inv, IHa, IHb. reflexivity.
  - rewrite sseq_spec, m_seq_inv. split.
    + intros (u & v & -> & Hu & Hv). change (String c (u ++ v)) with (String c u ++ v).
      constructor; [now apply IHa|assumption].
    + intros H. apply star_cons in H as (u & v & -> & Hu & Hv). exists u, v. rewrite IHa. auto.
Qed.
Fixpoint accepts (r : re) (s : string) : bool :=
  match s with EmptyString => nullable r | String c s' => accepts (deriv c r) s' end.
Lemma accepts_spec s : forall r, accepts r s = true <-> matches r s.
Proof.
  induction s as [|c s IH]; intros r; cbn [accepts]; [apply nullable_spec|]. rewrite IH. apply deriv_spec.
Qed.
Lemma matches_dec r s : {matches r s} + {~ matches r s}.
Proof.
  destruct (accepts r s) eqn:E; [left; now apply accepts_spec|right].
  intros H. apply accepts_spec in H. congruence.
Defined.

(** ** First rule and longest match *)
Fixpoint classify (l : list (kind * re)) (w : string) : option kind :=
  match l with
  | [] => None
  | (k, r) :: l' => if accepts r w then Some k else classify l' w
  end.
Lemma classify_spec l w k : classify l w = Some k <-> first_rule l w k.
Proof.
  induction l as [|[k' r] l IH]; cbn [classify].
  - split; [discriminate|]. intros H; inversion H.
  - destruct (accepts r w) eqn:E.
    + apply accepts_spec in E. split.
      * intros [= <-]. now constructor.
      * intros H. inversion H; subst; [reflexivity|contradiction].
    + assert (N : ~ matches r w) by (intros H; apply accepts_spec in H; congruence).
      rewrite IH. split; [intros H; now constructor|]. intros H. inversion H; subst; [contradiction|assumption].
Qed.
Lemma first_rule_fun l w k k' : first_rule l w k -> first_rule l w k' -> k = k'.
Proof. rewrite <- !classify_spec. congruence. Qed.
Lemma first_rule_in l w k : first_rule l w k -> exists r, In (k, r) l /\ matches r w.
Proof. induction 1 as [k r l w H|k' r l w k _ _ (r' & Hi & Hm)]; [exists r|exists r']; cbn; auto. Qed.
Lemma first_rule_none l w : classify l w = None <-> forall k r, In (k, r) l -> ~ matches r w.
Proof.
  induction l as [|[k' r] l IH]; cbn [classify].
  - split; [intros _ k r []|reflexivity].
  - destruct (accepts r w) eqn:E.
    + apply accepts_spec in E. split; [discriminate|]. intros H. exfalso. apply (H k' r); [now left|assumption].
    + assert (N : ~ matches r w) by (intros H; apply accepts_spec in H; congruence).
      rewrite IH. split.
      * intros H k r' [[= <- <-]|Hi]; [assumption|]. now apply (H k).
      * intros H k r' Hi. apply (H k). now right.
Qed.

(** The longest prefix of length at most [m] that some rule matches. *)
Fixpoint munch (m : nat) (s : string) : option (nat * kind) :=
  match m with
  | O => None
  | S m' => match classify rules (stake m s) with Some k => Some (m, k) | None => munch m' s end
  end.
Lemma munch_spec m s n k : m <= slen s ->
  (munch m s = Some (n, k) <->
   0 < n <= m /\ first_rule rules (stake n s) k /\
   forall j k' r, n < j <= m -> In (k', r) rules -> ~ matches r (stake j s)).
Proof.
  induction m as [|m IH]; intros Hm; cbn [munch].
  - split; [discriminate|]. intros ([H1 H2] & _). lia.
  - destruct (classify rules (stake (S m) s)) as [k1|] eqn:E.
    + split.
      * intros [= <- <-]. split; [lia|]. split; [now apply classify_spec|]. intros j k' r Hj. lia.
      * intros (Hn & Hk & Hj). apply classify_spec in E. destruct (Nat.eq_dec n (S m)) as [->|Hne].
        -- now rewrite (first_rule_fun _ _ _ _ E Hk).
        -- exfalso. destruct (first_rule_in _ _ _ E) as (r & Hi & Hr). apply (Hj (S m) k1 r); auto. lia.
    + rewrite IH by lia. split.
      * intros (Hn & Hk & Hj). split; [lia|]. split; [assumption|]. intros j k' r Hj' Hi.
        destruct (Nat.eq_dec j (S m)) as [->|Hne]; [|apply (Hj j k'); auto; lia].
        pose proof (proj1 (first_rule_none _ _) E) as N. now apply (N k').
      * intros (Hn & Hk & Hj). destruct (Nat.eq_dec n (S m)) as [->|Hne].
        -- apply classify_spec in Hk. congruence.
        -- split; [lia|]. split; [assumption|]. intros j k' r Hj' Hi. apply (Hj j k'); auto. lia.
Qed.
Lemma munch_token_at s n k : munch (slen s) s = Some (n, k) <-> token_at s n k.
Proof. unfold token_at. now rewrite munch_spec. Qed.
Lemma token_at_fun s n k n' k' : token_at s n k -> token_at s n' k' -> n = n' /\ k = k'.
Proof. rewrite <- !munch_token_at. intros H H'. rewrite H in H'. now injection H' as -> ->. Qed.

(** Every input starts with a token. *)
Lemma token_at_total c s : exists n k, token_at (String c s) n k.
Proof.
  destruct (munch (slen (String c s)) (String c s)) as [[n k]|] eqn:E.
  - exists n, k. now apply munch_token_at.
  - exfalso. assert (H : forall m, munch m (String c s) = None -> 1 <= m -> classify rules (stake 1 (String c s)) = None).
    { induction m as [|m IH]; cbn [munch]; [lia|]. destruct (classify rules (stake (S m) (String c s))) eqn:E'; [discriminate|].
      intros Hm _. destruct m as [|m]; [assumption|]. apply IH; [assumption|lia]. }
    specialize (H _ E ltac:(cbn; lia)). cbn [stake] in H.
    pose proof (proj1 (first_rule_none _ _) H KAny (RCls (fun _ => true))) as N.
    apply N; [|now constructor]. unfold rules. repeat (first [left; reflexivity|right]).
Qed.

(** ** The lexer as a function *)
Fixpoint lex (n : nat) (h s : string) : option (list tok) :=
  match n with
  | O => None
  | S n' =>
      match s with
      | EmptyString => Some []
      | _ =>
          if odd_quote s then None else
          match munch (slen s) s with
          | Some (m, k) =>
              if hidden k then lex n' (h ++ stake m s) (sdrop m s)
              else match lex n' "" (sdrop m s) with
                   | Some ts => Some (mkTok k (stake m s) h :: ts)
                   | None => None
                   end
          | None => None
          end
      end
  end.
Definition lex_all (s : string) : option (list tok) := lex (S (slen s)) "" s.
Lemma slen_sdrop n s : slen (sdrop n s) = slen s - n.
Proof. revert s; induction n as [|n IH]; intros [|c s]; cbn; auto. Qed.
Lemma lex_sound n : forall h s ts, lex n h s = Some ts -> lexes h s ts.
Proof.
  induction n as [|n IH]; intros h s ts H; [discriminate|]. cbn [lex] in H.
  destruct s as [|c s]; [injection H as <-; constructor|].
  destruct (odd_quote (String c s)) eqn:Eo; [discriminate|].
  destruct (munch (slen (String c s)) (String c s)) as [[m k]|] eqn:Em; [|discriminate].
  apply munch_token_at in Em. destruct (hidden k) eqn:Eh.
  - apply IH in H. eapply lx_hidden; eauto.
  - destruct (lex n "" (sdrop m (String c s))) as [ts'|] eqn:E; [|discriminate]. injection H as <-.
    apply IH in E. eapply lx_visible; eauto.
Qed.
Lemma lex_complete h s ts : lexes h s ts -> forall n, slen s < n -> lex n h s = Some ts.
Proof.
  induction 1 as [h|h s m k ts Eo Ht Eh Hl IH|h s m k ts Eo Ht Eh Hl IH]; intros n Hn.
  - destruct n; [lia|reflexivity].
  - destruct n as [|n]; [lia|]. cbn [lex]. pose proof Ht as [Hm _].
    destruct s as [|c s]; [cbn in Hm; lia|]. rewrite Eo. apply munch_token_at in Ht. rewrite Ht, Eh.
    apply IH. rewrite slen_sdrop. lia.
  - destruct n as [|n]; [lia|]. cbn [lex]. pose proof Ht as [Hm _].
    destruct s as [|c s]; [cbn in Hm; lia|]. rewrite Eo. apply munch_token_at in Ht. rewrite Ht, Eh.
    rewrite IH; [reflexivity|]. rewrite slen_sdrop. lia.
Qed.
Lemma lex_all_iff s ts : lex_all s = Some ts <-> lexes "" s ts.
Proof. split; [apply lex_sound|]. intros H. apply (lex_complete _ _ _ H). lia. Qed.
Lemma lexes_fun h s ts ts' : lexes h s ts -> lexes h s ts' -> ts = ts'.
Proof.
  intros H H'. pose proof (lex_complete _ _ _ H (S (slen s)) ltac:(lia)) as E.
  rewrite (lex_complete _ _ _ H' (S (slen s)) ltac:(lia)) in E. now injection E.
Qed.

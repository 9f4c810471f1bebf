(** * LexerFacts3: layout. *)
From Verif Require Import GoBase GoFacts FalcoModel GrammarModel SpecFalco SpecGrammar LexerModel LexerFacts SpecLexer LexerFacts2.
From Coq Require Import Lia.
Local Open Scope string_scope.

(** ** Expressions without certain characters *)
Fixpoint avoids (bad : list ascii) (r : re) : bool :=
  match r with
  | RNone | REps => true
  | RCls p => forallb (fun c => negb (p c)) bad
  | RSeq a b | RAlt a b => avoids bad a && avoids bad b
  | RStar a => avoids bad a
  end.
Fixpoint sfree (bad : list ascii) (s : string) : bool :=
  match s with EmptyString => true | String c s' => negb (existsb (Ascii.eqb c) bad) && sfree bad s' end.
Lemma sfree_app bad a b : sfree bad (a ++ b) = sfree bad a && sfree bad b.
Proof. induction a as [|c a IH]; [reflexivity|]. cbn. rewrite IH. now rewrite andb_assoc. Qed.
Lemma avoids_free bad r s : matches r s -> avoids bad r = true -> sfree bad s = true.
Proof.
  induction 1 as [|p c Hc|a b s t Hs IHs Ht IHt|a b s Hs IH|a b s Hs IH|a|a s t Hs IHs Ht IHt]; cbn [avoids]; intros Ha;
    try reflexivity.
  - cbn [sfree]. rewrite andb_true_r, negb_true_iff. apply not_true_is_false. intros E.
    apply existsb_exists in E as (c' & Hi & E). apply Ascii.eqb_eq in E as <-.
    rewrite forallb_forall in Ha. specialize (Ha _ Hi). now rewrite Hc in Ha.
  - apply andb_prop in Ha as [H1 H2]. rewrite sfree_app, IHs, IHt; auto.
  - apply andb_prop in Ha as [H1 H2]. auto.
  - apply andb_prop in Ha as [H1 H2]. auto.
  - rewrite sfree_app, IHs, IHt; auto.
Qed.
Definition gapc : list ascii := [" "; chr 9; chr 10; chr 13; chr 12; "#"]%char.
Definition quotec : list ascii := [dquote; squote].
Definition gap_char (c : ascii) : bool := is_ws c || Ascii.eqb c "#".
Lemma gap_char_in c : gap_char c = true -> existsb (Ascii.eqb c) gapc = true.
Proof.
  unfold gap_char, is_ws, is_eol, gapc. cbn [existsb].
  destruct (Ascii.eqb c " "), (Ascii.eqb c (chr 9)), (Ascii.eqb c (chr 10)), (Ascii.eqb c (chr 13)), (Ascii.eqb c (chr 12)), (Ascii.eqb c "#");
    cbn; auto.
Qed.
(** Rules that can contain white space or '#', and rules that can contain quotes. *)
Definition special (k : kind) : bool :=
  match k with KDef | KString | KWs | KNl | KComment | KAny => true | _ => false end.
Lemma rules_avoid : forallb (fun kr => special (fst kr) || avoids gapc (snd kr)) rules = true.
Proof. vm_compute. reflexivity. Qed.
Lemma rules_noquote : forallb (fun kr => match fst kr with KString | KComment | KAny => true | _ => avoids quotec (snd kr) end) rules = true.
Proof. vm_compute. reflexivity. Qed.

(** ** What the special rules match *)
Lemma first_char r p s : matches (RSeq (RCls p) r) s -> exists c s', s = String c s' /\ p c = true.
Proof.
  rewrite m_seq_inv. intros (u & v & -> & Hu & _). apply m_cls_inv in Hu as (c & -> & Hc). cbn. eauto.
Qed.
Lemma avoid_one q p : p q = false -> avoids [q] (RCls p) = true.
Proof. intros H. cbn. now rewrite H. Qed.
Lemma quoted_form q s : In q quotec -> matches (r_quoted q) s ->
  exists body, s = String q (body ++ String q "") /\ sfree [q] body = true.
Proof.
  intros Hq. unfold r_quoted. rewrite m_seq_inv. intros (u & v & -> & Hu & Hv).
  apply m_cls_inv in Hu as (c & -> & Hc). apply Ascii.eqb_eq in Hc as <-.
  apply m_seq_inv in Hv as (u & v' & -> & Hu & Hv).
  apply m_seq_inv in Hv as (body & w & -> & Hb & Hw). apply m_cls_inv in Hw as (c' & -> & Hc').
  apply Ascii.eqb_eq in Hc' as <-. exists (u ++ body). split; [cbn; now rewrite sapp_assoc|].
  rewrite sfree_app. rewrite (avoids_free [q] _ _ Hu), (avoids_free [q] _ _ Hb); [reflexivity| |].
  - cbn. unfold plain_char. now rewrite Ascii.eqb_refl.
  - cbn. destruct Hq as [<-|[<-|[]]]; reflexivity.
Qed.
Lemma free_cut q x y x' y' : sfree [q] x = true -> sfree [q] x' = true ->
  x ++ String q y = x' ++ String q y' -> x = x' /\ y = y'.
Proof.
  revert x'; induction x as [|c x IH]; intros [|c' x'] H H' E; cbn in *.
  - now injection E.
  - injection E as <- E. rewrite Ascii.eqb_refl in H'. discriminate.
  - injection E as -> E. rewrite Ascii.eqb_refl in H. discriminate.
  - injection E as <- E. apply andb_prop in H as [_ H], H' as [_ H'].
    destruct (IH _ H H' E) as [-> ->]. auto.
Qed.
Lemma quoted_no_extension q w y : In q quotec -> matches (r_quoted q) w -> matches (r_quoted q) (w ++ y) -> y = "".
Proof.
  intros Hq H H'. apply quoted_form in H as (b & -> & Hb); [|assumption].
  apply quoted_form in H' as (b' & E & Hb'); [|assumption]. cbn [append] in E. injection E as E.
  rewrite sapp_assoc in E. cbn [append] in E. now apply free_cut in E as [_ E].
Qed.
Lemma quoted_start q w : matches (r_quoted q) w -> exists w', w = String q w'.
Proof. intros H. apply first_char in H as (c & s' & -> & Hc). apply Ascii.eqb_eq in Hc as ->. eauto. Qed.
Lemma string_no_extension w y : matches r_string w -> matches r_string (w ++ y) -> y = "".
Proof.
  unfold r_string. rewrite !m_alt_inv. intros [H|H] [H'|H'].
  - apply (quoted_no_extension dquote w y); auto. now left.
  - apply quoted_start in H as (w' & ->). apply quoted_start in H' as (w2 & E). discriminate.
  - apply quoted_start in H as (w' & ->). apply quoted_start in H' as (w2 & E). discriminate.
  - apply (quoted_no_extension squote w y); auto. right. now left.
Qed.
Lemma star_space s : matches (RStar (ch " ")) s -> sfree gapc s = true -> s = "".
Proof.
  remember (RStar (ch " ")) as r eqn:Er. intros H. revert Er.
  induction H as [| | | | | a|a s t Hs _ Ht IHt]; intros Er; try discriminate; [reflexivity|].
  injection Er as ->. apply m_cls_inv in Hs as (c & -> & Hc). apply Ascii.eqb_eq in Hc as <-. discriminate.
Qed.
Fixpoint spaces (s : string) : bool :=
  match s with EmptyString => true | String c s' => Ascii.eqb c " " && spaces s' end.
Lemma star_spaces s : matches (RStar (ch " ")) s -> spaces s = true.
Proof.
  remember (RStar (ch " ")) as r eqn:Er. intros H. revert Er.
  induction H as [| | | | | a|a s t Hs _ Ht IHt]; intros Er; try discriminate; [reflexivity|].
  injection Er as ->. apply m_cls_inv in Hs as (c & -> & Hc). apply Ascii.eqb_eq in Hc as <-.
  cbn. now apply IHt.
Qed.
Lemma def_form s : matches r_def s -> s = ":" \/ exists sp, spaces sp = true /\ s = String ":" (sp ++ ">").
Proof.
  unfold r_def. rewrite m_seq_inv. intros (u & v & -> & Hu & Hv).
  apply m_cls_inv in Hu as (c & -> & Hc). apply Ascii.eqb_eq in Hc as <-.
  apply m_alt_inv in Hv as [Hv|Hv].
  - apply m_seq_inv in Hv as (sp & w & -> & Hs & Hw). apply m_cls_inv in Hw as (c & -> & Hc).
    apply Ascii.eqb_eq in Hc as <-. right. exists sp. split; [now apply star_spaces|reflexivity].
  - apply m_eps_inv in Hv as ->. now left.
Qed.

Lemma spaces_free sp : spaces sp = true -> sfree [">"%char] sp = true.
Proof.
  induction sp as [|c sp IH]; [reflexivity|]. cbn [spaces sfree]. intros H. apply andb_prop in H as [Hc H].
  apply Ascii.eqb_eq in Hc as ->. cbn. now apply IH.
Qed.

(** ** Gaps *)
Lemma gap_start g : gap g -> g <> "" -> exists c g', g = String c g' /\ gap_char c = true.
Proof.
  destruct 1 as [|c s Hc _|x c s _ _ _]; intros Hne; [congruence|..].
  - exists c, s. unfold gap_char. now rewrite Hc.
  - eexists _, _. split; reflexivity.
Qed.
Lemma gap_no_arrow g rest sp y : gap g -> starts (fun c => is_ws c || Ascii.eqb ">" c) rest = false ->
  spaces sp = true -> g ++ rest = sp ++ String ">" y -> False.
Proof.
  intros Hg Hr. revert sp. induction Hg as [|c s Hc Hs IH|x c s Hx Hc Hs IH]; intros sp Hsp E.
  - cbn [append] in E. destruct sp as [|c sp]; cbn [append] in E; subst rest; cbn in Hr; [discriminate|].
    cbn in Hsp. apply andb_prop in Hsp as [Hc _]. apply Ascii.eqb_eq in Hc as ->. discriminate.
  - destruct sp as [|c' sp]; cbn [append] in E; injection E as -> E.
    + discriminate.
    + cbn in Hsp. apply andb_prop in Hsp as [_ Hsp]. now apply (IH sp).
  - destruct sp as [|c' sp]; cbn [append] in E; injection E as E; try discriminate.
    subst c'. discriminate.
Qed.

(** ** A word keeps its kind when a gap follows *)
Lemma word_nonempty k w : word k w -> exists c w', w = String c w'.
Proof. intros ((H & _) & _). destruct w; [cbn in H; lia|eauto]. Qed.
Lemma stake_S_app w g rest m : slen w < m <= slen (w ++ g ++ rest) -> g <> "" ->
  exists y, stake m (w ++ g ++ rest) = w ++ y /\ y <> "" /\ exists z, g ++ rest = y ++ z.
Proof.
  intros Hm Hg. rewrite stake_app_ge by lia. eexists. split; [reflexivity|]. split.
  - destruct g as [|c g]; [congruence|]. destruct (m - slen w) eqn:E; [lia|]. discriminate.
  - exists (sdrop (m - slen w) (g ++ rest)). symmetry. apply stake_sdrop.
Qed.
Lemma word_stable k w g rest : word k w -> gap g -> g <> "" ->
  (w = ":" -> starts (fun c => is_ws c || Ascii.eqb ">" c) rest = false) ->
  token_at (w ++ g ++ rest) (slen w) k.
Proof.
  intros Hw Hg Hne Hcol. pose proof Hw as ((Hn & Hk & Hmax) & Hodd & Hst & Hd & Hs).
  rewrite stake_all in Hk.
  split; [rewrite slen_app; lia|]. split; [now rewrite stake_app_exact|].
  intros m k' r Hm Hi Hmat. destruct (stake_S_app w g rest m Hm Hne) as (y & Ey & Hy & z & Ez).
  rewrite Ey in Hmat.
  destruct (gap_start g Hg Hne) as (c & g' & -> & Hc).
  assert (Ey' : exists y', y = String c y').
  { destruct y as [|c' y]; [congruence|]. cbn in Ez. injection Ez as <- _. eauto. }
  destruct Ey' as (y' & ->).
  assert (Hbad : sfree gapc (w ++ String c y') = false).
  { rewrite sfree_app. cbn [sfree]. rewrite (gap_char_in _ Hc). cbn. apply andb_false_r. }
  pose proof rules_avoid as Hav. rewrite forallb_forall in Hav. specialize (Hav _ Hi). cbn [fst snd] in Hav.
  apply orb_prop in Hav as [Hav|Hav].
  2:{ rewrite (avoids_free _ _ _ Hmat Hav) in Hbad. discriminate. }
  destruct (word_nonempty _ _ Hw) as (c0 & w' & ->). cbn [starts] in Hst.
  apply orb_false_iff in Hst as [Hst1 Hst2].
  destruct k'; try discriminate Hav.
  - (* DEF *)
    assert (r = r_def) as -> by (eapply rule_unique; [exact Hi|unfold rules; repeat (first [left; reflexivity|right])]).
    apply def_form in Hmat as [E|(sp & Hsp & E)].
    { cbn in E. injection E as -> E. destruct w'; discriminate. }
    cbn [append] in E. injection E as -> E.
    assert (Hw' : w' = "").
    { destruct w' as [|c1 w']; [reflexivity|exfalso].
      assert (Hc1 : c1 = " "%char).
      { destruct sp as [|c2 sp]; cbn [append] in E; injection E as E0 E; subst; [destruct w'; discriminate|].
        cbn in Hsp. apply andb_prop in Hsp as [Hsp _]. now apply Ascii.eqb_eq in Hsp. }
      subst c1. apply first_rule_in in Hk as (r & Hr & Hm').
      pose proof rules_avoid as Hav'. rewrite forallb_forall in Hav'. specialize (Hav' _ Hr). cbn [fst snd] in Hav'.
      apply orb_prop in Hav' as [Hav'|Hav'].
      2:{ now apply (avoids_free gapc) in Hm'. }
      destruct k; try discriminate Hav'.
      - assert (r = r_def) as -> by (eapply rule_unique; [exact Hr|unfold rules; repeat (first [left; reflexivity|right])]).
        apply def_form in Hm' as [Ew|(sp' & Hsp' & Ew)]; [discriminate|]. injection Ew as Ew.
        assert (E2 : sp' ++ String ">" (String c y') = sp ++ ">").
        { rewrite <- E. change (String " " w' ++ String c y') with ((String " " w') ++ String c y'). rewrite Ew.
          now rewrite sapp_assoc. }
        apply free_cut in E2 as [_ E2]; [discriminate|now apply spaces_free|now apply spaces_free].
      - assert (r = r_string) as -> by (eapply rule_unique; [exact Hr|unfold rules; repeat (first [left; reflexivity|right])]).
        apply m_alt_inv in Hm' as [Hm'|Hm']; apply quoted_start in Hm' as (x & Ex); discriminate.
      - assert (r = plus (RCls is_ws)) as -> by (eapply rule_unique; [exact Hr|unfold rules; repeat (first [left; reflexivity|right])]).
        apply first_char in Hm' as (x & s' & [= <- _] & Hx). discriminate.
      - assert (r = RSeq (opt (ch (chr 13))) (ch (chr 10))) as -> by (eapply rule_unique; [exact Hr|unfold rules; repeat (first [left; reflexivity|right])]).
        apply m_seq_inv in Hm' as (u & v & E3 & Hu & Hv). apply m_alt_inv in Hu as [Hu|Hu].
        + apply m_cls_inv in Hu as (x & -> & Hx). injection E3 as <- _. discriminate.
        + apply m_eps_inv in Hu as ->. apply m_cls_inv in Hv as (x & -> & Hx). injection E3 as <- _. discriminate.
      - assert (r = RSeq (ch "#") (RStar (RCls (fun c => negb (is_eol c))))) as -> by (eapply rule_unique; [exact Hr|unfold rules; repeat (first [left; reflexivity|right])]).
        apply first_char in Hm' as (x & s' & [= <- _] & Hx). discriminate.
      - assert (r = RCls (fun _ => true)) as -> by (eapply rule_unique; [exact Hr|unfold rules; repeat (first [left; reflexivity|right])]).
        apply m_cls_inv in Hm' as (x & Ex & _). discriminate. }
    subst w'. specialize (Hcol eq_refl). cbn [append] in E.
    apply (gap_no_arrow (String c g') rest sp z Hg Hcol Hsp).
    rewrite Ez, E. cbn. rewrite sapp_assoc. reflexivity.
  - (* STRING *)
    assert (r = r_string) as -> by (eapply rule_unique; [exact Hi|unfold rules; repeat (first [left; reflexivity|right])]).
    assert (Hq : c0 = dquote \/ c0 = squote).
    { apply m_alt_inv in Hmat as [H|H]; apply quoted_start in H as (x & Ex); cbn in Ex; injection Ex as -> _; auto. }
    apply first_rule_in in Hk as (r & Hr & Hm').
    pose proof rules_noquote as Hnq. rewrite forallb_forall in Hnq. specialize (Hnq _ Hr). cbn [fst snd] in Hnq.
    assert (Hb : avoids quotec r = true -> False).
    { intros Ha. apply (avoids_free _ _ _ Hm') in Ha. cbn in Ha. destruct Hq as [-> | ->]; discriminate. }
    destruct k; try (exfalso; exact (Hb Hnq)).
    + assert (r = r_string) as -> by (eapply rule_unique; [exact Hr|unfold rules; repeat (first [left; reflexivity|right])]).
      apply (string_no_extension _ (String c y')) in Hm'; [discriminate|assumption].
    + assert (r = RSeq (ch "#") (RStar (RCls (fun c => negb (is_eol c))))) as -> by (eapply rule_unique; [exact Hr|unfold rules; repeat (first [left; reflexivity|right])]).
      apply first_char in Hm' as (x & s' & [= <- _] & Hx). apply Ascii.eqb_eq in Hx as <-. destruct Hq; discriminate.
    + assert (r = RCls (fun _ => true)) as -> by (eapply rule_unique; [exact Hr|unfold rules; repeat (first [left; reflexivity|right])]).
      apply m_cls_inv in Hm' as (x & Ex & _). injection Ex as -> ->. destruct Hq as [-> | ->]; [now apply Hd|now apply Hs].
  - assert (r = plus (RCls is_ws)) as -> by (eapply rule_unique; [exact Hi|unfold rules; repeat (first [left; reflexivity|right])]).
    apply first_char in Hmat as (x & s' & E & Hx). injection E as <- _. congruence.
  - assert (r = RSeq (opt (ch (chr 13))) (ch (chr 10))) as -> by (eapply rule_unique; [exact Hi|unfold rules; repeat (first [left; reflexivity|right])]).
    apply m_seq_inv in Hmat as (u & v & E & Hu & Hv). apply m_alt_inv in Hu as [Hu|Hu].
    + apply m_cls_inv in Hu as (x & -> & Hx). injection E as <- _. apply Ascii.eqb_eq in Hx as <-. discriminate.
    + apply m_eps_inv in Hu as ->. apply m_cls_inv in Hv as (x & -> & Hx). injection E as <- _.
      apply Ascii.eqb_eq in Hx as <-. discriminate.
  - assert (r = RSeq (ch "#") (RStar (RCls (fun c => negb (is_eol c))))) as -> by (eapply rule_unique; [exact Hi|unfold rules; repeat (first [left; reflexivity|right])]).
    apply first_char in Hmat as (x & s' & E & Hx). injection E as <- _. rewrite Ascii.eqb_sym in Hx. congruence.
  - assert (r = RCls (fun _ => true)) as -> by (eapply rule_unique; [exact Hi|unfold rules; repeat (first [left; reflexivity|right])]).
    apply m_cls_inv in Hmat as (x & Ex & _). cbn in Ex. injection Ex as _ Ex. destruct w'; discriminate.
Qed.

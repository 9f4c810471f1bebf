(** * GlobFacts: path.Match is matching of patterns as in [SpecGlob]. *)
From Coq Require Import Lia.
From Verif Require Import GoBase GoFacts SpecWords WordFacts GlobModel SpecGlob.
Local Open Scope string_scope.

Lemma aeqb_t a b : Ascii.eqb a b = true -> a = b.
Proof. apply Ascii.eqb_eq. Qed.
Lemma aeqb_f a b : Ascii.eqb a b = false -> a <> b.
Proof. apply Ascii.eqb_neq. Qed.
Lemma aeqb_n a b : a <> b -> Ascii.eqb a b = false.
Proof. apply Ascii.eqb_neq. Qed.

(** ** Classes *)
Lemma get_esc_some chunk c rest : get_esc chunk = Some (c, rest) -> rest <> "" /\ exists t, class_char t c /\ chunk = t ++ rest.
Proof.
  unfold get_esc. destruct chunk as [|a r]; [discriminate|]. destruct (Ascii.eqb a dash_char) eqn:E1; cbn [orb]; [discriminate|].
  destruct (Ascii.eqb a close_char) eqn:E2; [discriminate|]. apply aeqb_f in E1, E2. destruct (Ascii.eqb a back_char) eqn:E3.
  - apply aeqb_t in E3. destruct r as [|d r]; [discriminate|]. destruct r as [|e r]; [discriminate|]. intros H. assert (d = c /\ String e r = rest) as [<- <-] by (split; congruence).
    split; [discriminate|]. exists (String "\" (String d "")). split; [constructor|]. now rewrite E3.
  - apply aeqb_f in E3. destruct r as [|e r]; [discriminate|]. intros H. assert (a = c /\ String e r = rest) as [<- <-] by (split; congruence).
    split; [discriminate|]. exists (String a ""). split; [now constructor|reflexivity].
Qed.
Lemma get_esc_ok t c rest : class_char t c -> rest <> "" -> get_esc (t ++ rest) = Some (c, rest).
Proof.
  intros H N. destruct rest as [|e r]; [congruence|]. destruct H as [c H1 H2 H3|c]; cbn [append get_esc].
  - now rewrite (aeqb_n _ _ H1), (aeqb_n _ _ H2), (aeqb_n _ _ H3).
  - reflexivity.
Qed.
Lemma cc_first t c : class_char t c -> exists a u, t = String a u /\ a <> "]"%char /\ a <> "-"%char.
Proof. intros [d H1 H2 H3|d]; [now exists d, ""|]. exists "\"%char, (String d ""). repeat split; discriminate. Qed.
Lemma range_first t r : range t r -> exists a u, t = String a u /\ a <> "]"%char.
Proof.
  intros [t' c H|t' c u d H _]; destruct (cc_first _ _ H) as (a & w & -> & N & _); [now exists a, w|]. now exists a, (w ++ "-" ++ u).
Qed.
Lemma ranges_first t rs : ranges t rs -> exists a u, t = String a u /\ a <> "]"%char.
Proof.
  intros [t' r H|t' r u l H _]; destruct (range_first _ _ H) as (a & w & -> & N); [now exists a, w|]. now exists a, (w ++ u).
Qed.
Lemma byte_le_iff a b : byte_le a b = true <-> nat_of_ascii a <= nat_of_ascii b.
Proof. apply Nat.leb_le. Qed.
Definition told (m : bool) (rs : list (ascii * ascii)) (r : ascii) (m' : bool) : Prop := m' = true <-> m = true \/ in_ranges rs r.
Lemma told_nil m r : told m [] r m.
Proof. unfold told, in_ranges. split; [auto|]. intros [H|(lo & hi & [] & _)]. exact H. Qed.
Lemma told_cons m lo hi rs r m' : told (m || (byte_le lo r && byte_le r hi)) rs r m' -> told m ((lo, hi) :: rs) r m'.
Proof.
  unfold told, in_ranges. intros ->. rewrite orb_true_iff, andb_true_iff, !byte_le_iff. split.
  - intros [[H|[H1 H2]]|(l & h & Hi & H)]; [auto|right; exists lo, hi; split; [left; reflexivity|lia]|right; exists l, h; split; [right; exact Hi|exact H]].
  - intros [H|(l & h & [Hi|Hi] & H)]; [auto|assert (lo = l /\ hi = h) as [<- <-] by (split; congruence); left; right; lia|right; exists l, h; auto].
Qed.
Lemma class_some : forall n chunk some r m m' rest, class_loop n chunk some r m = Some (m', rest) ->
  exists t rs, (ranges t rs \/ some = true /\ t = "" /\ rs = []) /\ chunk = t ++ String "]" rest.
Proof.
  induction n as [|n IH]; intros chunk some r m m' rest; cbn [class_loop]; [discriminate|]. destruct chunk as [|c ch]; [discriminate|].
  destruct (Ascii.eqb c close_char && some) eqn:E.
  - apply andb_true_iff in E as [E ->]. apply aeqb_t in E. intros H. assert (ch = rest) by congruence. subst. exists "", []. auto.
  - destruct (get_esc (String c ch)) as [[lo ch1]|] eqn:G; [|discriminate]. apply get_esc_some in G as (N & t & Ht & Ec).
    destruct ch1 as [|d ch2]; [discriminate|]. destruct (Ascii.eqb d dash_char) eqn:Ed.
    + apply aeqb_t in Ed. destruct (get_esc ch2) as [[hi ch3]|] eqn:G2; [|discriminate]. apply get_esc_some in G2 as (N2 & u & Hu & Eu).
      intros H. apply IH in H as (t' & rs & [Hr|(_ & -> & ->)] & Ex); rewrite Ec, Ed, Eu, Ex.
      * exists ((t ++ "-" ++ u) ++ t'), ((lo, hi) :: rs). split; [left; constructor; [now constructor|exact Hr]|]. rewrite !sapp_assoc. reflexivity.
      * exists (t ++ "-" ++ u), [(lo, hi)]. split; [left; constructor; now constructor|]. rewrite !sapp_assoc. reflexivity.
    + intros H. apply IH in H as (t' & rs & [Hr|(_ & -> & ->)] & Ex); rewrite Ec, Ex.
      * exists (t ++ t'), ((lo, lo) :: rs). split; [left; constructor; [now constructor|exact Hr]|]. rewrite !sapp_assoc. reflexivity.
      * exists t, [(lo, lo)]. split; [left; constructor; now constructor|]. reflexivity.
Qed.
Lemma sapp_ne t (a : ascii) u : t ++ String a u <> "".
Proof. destruct t; discriminate. Qed.
Lemma class_step t lo hi n some r m rest : range t (lo, hi) -> rest <> "" -> (forall u, rest <> String "-" u) ->
  class_loop (S n) (t ++ rest) some r m = class_loop n rest true r (m || (byte_le lo r && byte_le r hi)).
Proof.
  intros H N N'. destruct (range_first _ _ H) as (a & u & Et & Na). cbn [class_loop].
  assert (Ec : exists ch, t ++ rest = String a ch) by (rewrite Et; now exists (u ++ rest)). destruct Ec as (ch & Ec). rewrite Ec, (aeqb_n _ _ Na). cbn [andb]. rewrite <- Ec.
  inversion H as [t' c Hc E1 E2|t' c u' d Hc Hd E1 E2]; subst.
  - rewrite (get_esc_ok _ _ _ Hc N). destruct rest as [|d r']; [congruence|]. destruct (Ascii.eqb d dash_char) eqn:Ed; [|reflexivity]. apply aeqb_t in Ed. subst. edestruct N'; reflexivity.
  - rewrite sapp_assoc. cbn [append]. rewrite (get_esc_ok _ _ _ Hc) by discriminate. change (Ascii.eqb "-" dash_char) with true. cbv iota. rewrite (get_esc_ok _ _ _ Hd N). reflexivity.
Qed.
Lemma rest_dash t rs rest : ranges t rs -> forall u, t ++ String "]" rest <> String "-" u.
Proof.
  intros H u. assert (A : exists a w, t = String a w /\ a <> "-"%char).
  { destruct H as [t r Hr|t r u' l Hr _]; destruct Hr as [t c Hc|t c v d Hc _]; destruct (cc_first _ _ Hc) as (a & w & -> & _ & Na); cbn [append]; eauto. }
  destruct A as (a & w & -> & Na). cbn [append]. congruence.
Qed.
Lemma class_ok t rs : ranges t rs -> forall n some r m rest, slen t < n ->
  exists m', class_loop n (t ++ String "]" rest) some r m = Some (m', rest) /\ told m rs r m'.
Proof.
  assert (L : forall t r, range t r -> 0 < slen t) by (intros t' r H; destruct (range_first _ _ H) as (a & u & -> & _); cbn; lia).
  induction 1 as [t [lo hi] H|t [lo hi] u l H Hl IH]; intros n some r m rest Hn; pose proof (L _ _ H).
  - destruct n as [|[|n]]; [lia|lia|]. rewrite (class_step t lo hi) by (exact H || discriminate). cbn [class_loop]. change (Ascii.eqb "]" close_char && true) with true. cbv iota.
    eexists. split; [reflexivity|]. apply told_cons, told_nil.
  - unfold slen in *. fold slen in *. destruct n as [|n]; [lia|]. rewrite sapp_assoc, (class_step t lo hi) by (exact H || apply sapp_ne || exact (rest_dash _ _ _ Hl)).
    pose proof (slen_app t u) as E. unfold slen in *. destruct (IH n true r (m || (byte_le lo r && byte_le r hi)) rest ltac:(lia)) as (m' & E' & T). exists m'. split; [exact E'|]. now apply told_cons.
Qed.

(** ** Chunks: patterns without stars, where a star would be read as itself *)
Inductive creads : string -> list item -> Prop :=
| cr_end : creads "" []
| cr_any p l : creads p l -> creads (String "?" p) (Any :: l)
| cr_lit c p l : c <> "?"%char -> c <> "["%char -> c <> "\"%char -> creads p l -> creads (String c p) (Lit c :: l)
| cr_escaped c p l : creads p l -> creads (String "\" (String c p)) (Lit c :: l)
| cr_class t rs p l : ranges t rs -> (forall u, t <> String "^" u) -> creads p l -> creads (String "[" (t ++ String "]" p)) (Class false rs :: l)
| cr_negated t rs p l : ranges t rs -> creads p l -> creads (String "[" (String "^" (t ++ String "]" p))) (Class true rs :: l).

Definition starless (l : list item) : Prop := ~ In Star l.
Lemma creads_starless c l : creads c l -> starless l.
Proof. unfold starless. induction 1; cbn; intuition congruence. Qed.

(** What is left of [s] after a piece that the items fit. *)
Definition left_by (l : list item) (s r : option string) : Prop :=
  forall t, r = Some t <-> exists u v, s = Some u /\ u = v ++ t /\ fits l v.
Lemma left_nil s : left_by [] s s.
Proof.
  intros t. split; [intros ->; exists t, ""; split; [reflexivity|split; [reflexivity|constructor]]|]. intros (u & v & -> & -> & H). inversion H. subst. reflexivity.
Qed.
Lemma stands_one i s : i <> Star -> stands i s -> exists a, s = String a "".
Proof. intros N H. destruct H; [congruence| | | |]; eexists; reflexivity. Qed.
Lemma left_cons i l s s1 r : i <> Star -> (forall t, s1 = Some t <-> exists a, s = Some (String a t) /\ stands i (String a "")) ->
  left_by l s1 r -> left_by (i :: l) s r.
Proof.
  intros N H1 H2 t. rewrite (H2 t). split.
  - intros (u & v & Eu & -> & F). apply H1 in Eu as (a & -> & S1). exists (String a (v ++ t)), (String a v). split; [reflexivity|]. split; [reflexivity|].
    change (String a v) with (String a "" ++ v). constructor; assumption.
  - intros (u & v & -> & -> & F). inversion F as [|i' l' x y S1 F']. subst. destruct (stands_one _ _ N S1) as (a & ->). exists (y ++ t), y.
    split; [apply H1; exists a; split; [reflexivity|exact S1]|]. split; [reflexivity|exact F'].
Qed.
Lemma stands_any a : stands Any (String a "") <-> a <> "/"%char.
Proof. split; [intros H; inversion H; auto|now constructor]. Qed.
Lemma stands_lit c a : stands (Lit c) (String a "") <-> c = a.
Proof. split; [intros H; inversion H; auto|intros ->; constructor]. Qed.
Lemma stands_class neg rs a : stands (Class neg rs) (String a "") <-> (in_ranges rs a <-> neg = false).
Proof.
  split; [intros H; inversion H; subst; intuition congruence|]. intros H. destruct neg; [constructor; intros C; apply H in C; discriminate|constructor; now apply H].
Qed.
Lemma norm_empty (s : option string) t (Q : ascii -> Prop) :
  (exists a, (match s with Some EmptyString => None | _ => s end) = Some (String a t) /\ Q a) <-> (exists a, s = Some (String a t) /\ Q a).
Proof. destruct s as [[|b s']|]; cbn; split; intros (a & E & q); try discriminate; eauto. Qed.

Lemma chunk_ok c l : creads c l -> forall n s, slen c <= n -> exists r, match_chunk n c s = Some r /\ left_by l s r.
Proof.
  assert (K : forall i l s (s1 r : option string), i <> Star ->
     (forall t, s1 = Some t <-> exists a, (match s with Some EmptyString => None | _ => s end) = Some (String a t) /\ stands i (String a "")) -> left_by l s1 r -> left_by (i :: l) s r).
  { intros i l' s s1 r N H. apply left_cons; [exact N|]. intros t. rewrite H. apply norm_empty. }
  assert (KC : forall neg rs l s n c2 m, told false rs (match (match s with Some EmptyString => None | _ => s end) with Some (String a _) => a | _ => Ascii.zero end) m ->
     (forall s1, exists r, match_chunk n c2 s1 = Some r /\ left_by l s1 r) ->
     exists r, match_chunk n c2 (if Bool.eqb m neg then None else match (match s with Some EmptyString => None | _ => s end) with Some (String _ s') => Some s' | _ => None end) = Some r /\ left_by (Class neg rs :: l) s r).
  { intros neg rs l' s n c2 m T H. edestruct H as (r & E & L). exists r. split; [exact E|]. eapply K; [discriminate| |exact L].
    intros t. destruct s as [[|b s']|]; cbn; [| |].
    - split; [destruct m, neg; discriminate|]. intros (a & C & _). discriminate.
    - split.
      + intros C. exists b. destruct (Bool.eqb m neg) eqn:Em; [discriminate|]. assert (s' = t) by congruence. subst. split; [reflexivity|]. apply stands_class. cbn in T. destruct T as [T1 T2].
        destruct m, neg; cbn in Em; try discriminate; intuition congruence.
      + intros (a & C & S1). assert (b = a /\ s' = t) as [<- <-] by (split; congruence). apply stands_class in S1. cbn in T. destruct T as [T1 T2]. destruct m, neg; cbn; try reflexivity; exfalso; intuition congruence.
    - split; [destruct m, neg; discriminate|]. intros (a & C & _). discriminate. }
  induction 1 as [|p l H IH|c p l N1 N2 N3 H IH|c p l H IH|t rs p l Hr Nc H IH|t rs p l Hr H IH]; intros n s Hn.
  - exists s. split; [destruct n; reflexivity|apply left_nil].
  - destruct n as [|n]; [unfold slen in *; cbn in *; lia|]. cbn [match_chunk]. change (Ascii.eqb "?" open_char) with false. change (Ascii.eqb "?" any_char) with true. cbv beta iota zeta.
    edestruct (IH n) as (r & E & L); [unfold slen in *; cbn in *; lia|]. rewrite E. exists r. split; [reflexivity|]. eapply K; [discriminate| |exact L].
    intros t. destruct s as [[|b s']|]; cbn; [split; [discriminate|intros (a & C & _); discriminate]| |split; [discriminate|intros (a & C & _); discriminate]].
    destruct (Ascii.eqb b slash_char) eqn:Eb; [apply aeqb_t in Eb|apply aeqb_f in Eb]; split.
    + discriminate.
    + intros (a & C & S1). apply stands_any in S1. congruence.
    + intros C. exists b. split; [congruence|]. now apply stands_any.
    + intros (a & C & _). congruence.
  - destruct n as [|n]; [unfold slen in *; cbn in *; lia|]. cbn [match_chunk]. rewrite (aeqb_n _ _ N1), (aeqb_n _ _ N2), (aeqb_n _ _ N3). cbv beta iota zeta.
    edestruct (IH n) as (r & E & L); [unfold slen in *; cbn in *; lia|]. rewrite E. exists r. split; [reflexivity|]. eapply K; [discriminate| |exact L].
    intros t. destruct s as [[|b s']|]; cbn; [split; [discriminate|intros (a & C & _); discriminate]| |split; [discriminate|intros (a & C & _); discriminate]].
    destruct (Ascii.eqb c b) eqn:Eb; [apply aeqb_t in Eb|apply aeqb_f in Eb]; split.
    + intros C. exists b. split; [congruence|]. now apply stands_lit.
    + intros (a & C & _). congruence.
    + discriminate.
    + intros (a & C & S1). apply stands_lit in S1. congruence.
  - destruct n as [|n]; [unfold slen in *; cbn in *; lia|]. cbn [match_chunk]. change (Ascii.eqb "\" open_char) with false. change (Ascii.eqb "\" any_char) with false. change (Ascii.eqb "\" back_char) with true. cbv beta iota zeta.
    edestruct (IH n) as (r & E & L); [unfold slen in *; cbn in *; lia|]. rewrite E. exists r. split; [reflexivity|]. eapply K; [discriminate| |exact L].
    intros t. destruct s as [[|b s']|]; cbn; [split; [discriminate|intros (a & C & _); discriminate]| |split; [discriminate|intros (a & C & _); discriminate]].
    destruct (Ascii.eqb c b) eqn:Eb; [apply aeqb_t in Eb|apply aeqb_f in Eb]; split.
    + intros C. exists b. split; [congruence|]. now apply stands_lit.
    + intros (a & C & _). congruence.
    + discriminate.
    + intros (a & C & S1). apply stands_lit in S1. congruence.
  - destruct n as [|n]; [unfold slen in *; cbn in *; lia|]. cbn [match_chunk]. change (Ascii.eqb "[" open_char) with true. cbv beta iota zeta.
    assert (E0 : forall A (x y : A), (match t ++ String "]" p with String d ch => if Ascii.eqb d caret_char then (true, ch) else (false, t ++ String "]" p) | EmptyString => (false, t ++ String "]" p) end) = (false, t ++ String "]" p)).
    { intros A _ _. destruct (ranges_first _ _ Hr) as (a & u & -> & Na). cbn [append]. destruct (Ascii.eqb a caret_char) eqn:Ea; [|reflexivity]. apply aeqb_t in Ea. subst. edestruct Nc. reflexivity. }
    rewrite (E0 nat 0 0). edestruct (class_ok _ _ Hr) as (m & E & T); [|rewrite E].
    { pose proof (slen_app t (String "]" p)) as X. unfold slen in *. lia. }
    eapply KC; [exact T|]. intros s1. apply IH. pose proof (slen_app t (String "]" p)) as X. unfold slen in *. cbn in Hn, X. lia.
  - destruct n as [|n]; [unfold slen in *; cbn in *; lia|]. cbn [match_chunk]. change (Ascii.eqb "[" open_char) with true. change (Ascii.eqb "^" caret_char) with true. cbv beta iota zeta.
    edestruct (class_ok _ _ Hr) as (m & E & T); [|rewrite E].
    { pose proof (slen_app t (String "]" p)) as X. unfold slen in *. lia. }
    eapply KC; [exact T|]. intros s1. apply IH. pose proof (slen_app t (String "]" p)) as X. unfold slen in *. cbn in Hn, X. lia.
Qed.
Lemma chunk_some : forall n c s r, match_chunk n c s = Some r -> exists l, creads c l.
Proof.
  induction n as [|n IH]; intros c s r; destruct c as [|a c]; cbn [match_chunk]; try (intros; exists []; constructor); [discriminate|].
  destruct (Ascii.eqb a open_char) eqn:E1.
  - apply aeqb_t in E1. subst a. cbv zeta. destruct c as [|d c].
    + cbn. discriminate.
    + destruct (Ascii.eqb d caret_char) eqn:Ed.
      * apply aeqb_t in Ed. subst d. destruct (class_loop _ _ _ _ _) as [[m rest]|] eqn:C; [|discriminate]. apply class_some in C as (t & rs & [Hr|(K & _)] & Ec); [|discriminate].
        intros H. apply IH in H as (l & Hl). exists (Class true rs :: l). rewrite Ec. now constructor.
      * destruct (class_loop _ _ _ _ _) as [[m rest]|] eqn:C; [|discriminate]. apply class_some in C as (t & rs & [Hr|(K & _)] & Ec); [|discriminate].
        intros H. apply IH in H as (l & Hl). exists (Class false rs :: l). rewrite Ec. constructor; [exact Hr| |exact Hl].
        intros u ->. cbn [append] in Ec. apply aeqb_f in Ed. congruence.
  - apply aeqb_f in E1. destruct (Ascii.eqb a any_char) eqn:E2.
    + apply aeqb_t in E2. subst a. intros H. apply IH in H as (l & Hl). exists (Any :: l). now constructor.
    + apply aeqb_f in E2. destruct (Ascii.eqb a back_char) eqn:E3.
      * apply aeqb_t in E3. subst a. destruct c as [|d c]; [discriminate|]. intros H. apply IH in H as (l & Hl). exists (Lit d :: l). now constructor.
      * apply aeqb_f in E3. intros H. apply IH in H as (l & Hl). exists (Lit a :: l). now constructor.
Qed.

(** ** Cutting a pattern into chunks *)
Lemma scan_app : forall p inr, let '(a, b) := scan inr p in p = a ++ b.
Proof.
  intros p. remember (slen p) as n eqn:En. assert (Hn : slen p <= n) by lia. clear En. revert p Hn.
  induction n as [|n IH]; intros p Hn inr; (destruct p as [|c p]; [reflexivity|]); [unfold slen in Hn; cbn in Hn; lia|].
  unfold slen in Hn; cbn in Hn. cbn [scan]. destruct (Ascii.eqb c back_char).
  - destruct p as [|d p]; [reflexivity|]. specialize (IH p ltac:(unfold slen; cbn in Hn; lia) inr). destruct (scan inr p) as [a b]. cbn. now rewrite <- IH.
  - destruct (Ascii.eqb c star_char && negb inr); [reflexivity|]. match goal with |- context [scan ?i p] => specialize (IH p ltac:(unfold slen; lia) i); destruct (scan i p) as [a b] end. cbn. now rewrite <- IH.
Qed.
Lemma scan_cc t c rest : class_char t c -> scan true (t ++ rest) = let '(a, b) := scan true rest in (t ++ a, b).
Proof.
  intros [d H1 H2 H3|d]; cbn [append scan].
  - rewrite (aeqb_n _ _ H3), (aeqb_n _ _ H2). cbn [negb]. rewrite andb_false_r. destruct (Ascii.eqb d open_char); destruct (scan true rest); reflexivity.
  - change (Ascii.eqb "\" back_char) with true. cbv iota. destruct (scan true rest); reflexivity.
Qed.
Lemma scan_range t r rest : range t r -> scan true (t ++ rest) = let '(a, b) := scan true rest in (t ++ a, b).
Proof.
  intros [t' c H|t' c u d H H']; [exact (scan_cc _ _ _ H)|]. rewrite sapp_assoc, (scan_cc _ _ _ H). cbn [append]. replace (scan true (String "-" (u ++ rest))) with (let '(a, b) := scan true (u ++ rest) in (String "-" a, b)) by reflexivity.
  rewrite (scan_cc _ _ _ H'). destruct (scan true rest). now rewrite sapp_assoc.
Qed.
Lemma scan_ranges t rs rest : ranges t rs -> scan true (t ++ String "]" rest) = let '(a, b) := scan false rest in (t ++ String "]" a, b).
Proof.
  assert (E0 : scan true (String "]" rest) = let '(a, b) := scan false rest in (String "]" a, b)) by reflexivity.
  induction 1 as [t r H|t r u l H Hl IH].
  - rewrite (scan_range _ _ _ H), E0. now destruct (scan false rest).
  - rewrite sapp_assoc, (scan_range _ _ _ H), IH. destruct (scan false rest). now rewrite sapp_assoc.
Qed.
Lemma scan_class t rs rest : ranges t rs -> scan false (String "[" (t ++ String "]" rest)) = let '(a, b) := scan false rest in (String "[" (t ++ String "]" a), b).
Proof.
  intros H. replace (scan false (String "[" (t ++ String "]" rest))) with (let '(a, b) := scan true (t ++ String "]" rest) in (String "[" a, b)) by reflexivity.
  rewrite (scan_ranges _ _ _ H). now destruct (scan false rest).
Qed.
Lemma scan_negated t rs rest : ranges t rs -> scan false (String "[" (String "^" (t ++ String "]" rest))) = let '(a, b) := scan false rest in (String "[" (String "^" (t ++ String "]" a)), b).
Proof.
  intros H. replace (scan false (String "[" (String "^" (t ++ String "]" rest)))) with (let '(a, b) := scan true (t ++ String "]" rest) in (String "[" (String "^" a), b)).
  - rewrite (scan_ranges _ _ _ H). now destruct (scan false rest).
  - cbn [scan]. repeat match goal with |- context [Ascii.eqb ?x ?y] => let v := eval vm_compute in (Ascii.eqb x y) in change (Ascii.eqb x y) with v end. cbn [andb negb]. cbv iota. destruct (scan true (t ++ String "]" rest)). reflexivity.
Qed.
Lemma scan_lit c p : c <> "*"%char -> c <> "["%char -> c <> "\"%char -> scan false (String c p) = let '(a, b) := scan false p in (String c a, b).
Proof.
  intros H1 H2 H3. cbn [scan]. rewrite (aeqb_n _ _ H1), (aeqb_n _ _ H2), (aeqb_n _ _ H3). cbn [andb]. now destruct (Ascii.eqb c close_char).
Qed.
(** A pattern that can be read is cut into a chunk that can be read and a rest that can be read... *)
Lemma cut_ok p l : reads p l -> let '(a, b) := scan false p in exists la lb, creads a la /\ reads b lb /\ l = (la ++ lb)%list.
Proof.
  induction 1 as [|p l H IH|p l H IH|c p l N1 N2 N3 N4 H IH|c p l H IH|t rs p l Hr Nc H IH|t rs p l Hr H IH].
  - exists [], []. repeat split; constructor.
  - change (scan false (String "*" p)) with ("", String "*" p). exists [], (Star :: l). split; [constructor|]. split; [now constructor|reflexivity].
  - rewrite scan_lit by discriminate. destruct (scan false p) as [a b]. destruct IH as (la & lb & A & B & ->). exists (Any :: la), lb. split; [now constructor|]. split; [exact B|reflexivity].
  - rewrite scan_lit by assumption. destruct (scan false p) as [a b]. destruct IH as (la & lb & A & B & ->). exists (Lit c :: la), lb. split; [now constructor|]. split; [exact B|reflexivity].
  - cbn [scan]. change (Ascii.eqb "\" back_char) with true. cbv iota. destruct (scan false p) as [a b]. destruct IH as (la & lb & A & B & ->). exists (Lit c :: la), lb. split; [now constructor|]. split; [exact B|reflexivity].
  - rewrite (scan_class _ _ _ Hr). destruct (scan false p) as [a b]. destruct IH as (la & lb & A & B & ->). exists (Class false rs :: la), lb. split; [now constructor|]. split; [exact B|reflexivity].
  - rewrite (scan_negated _ _ _ Hr). destruct (scan false p) as [a b]. destruct IH as (la & lb & A & B & ->). exists (Class true rs :: la), lb. split; [now constructor|]. split; [exact B|reflexivity].
Qed.
(** ... and conversely. *)
Lemma cut_back a la : creads a la -> forall b lb, scan false (a ++ b) = (a, b) -> reads b lb -> reads (a ++ b) (la ++ lb)%list.
Proof.
  assert (Q : forall (f : string -> string) x (a b : string), (let '(y, z) := x in (f y, z)) = (f a, b) -> (forall y, f y = f a -> y = a) -> x = (a, b)).
  { intros f [y z] a0 b E K. assert (E1 : f y = f a0) by congruence. assert (z = b) by congruence. subst. now rewrite (K _ E1). }
  induction 1 as [|p l H IH|c p l N1 N2 N3 H IH|c p l H IH|t rs p l Hr Nc H IH|t rs p l Hr H IH]; intros b lb E R; cbn [append List.app] in *.
  - exact R.
  - rewrite scan_lit in E by discriminate. constructor. apply IH; [|exact R]. apply (Q (String "?")) in E; [exact E|congruence].
  - assert (N0 : c <> "*"%char) by (intros ->; cbn in E; congruence). rewrite scan_lit in E by assumption. constructor; [assumption..|]. apply IH; [|exact R]. apply (Q (String c)) in E; [exact E|congruence].
  - cbn [scan] in E. change (Ascii.eqb "\" back_char) with true in E. cbv iota in E. constructor. apply IH; [|exact R]. apply (Q (fun x => String "\" (String c x))) in E; [exact E|congruence].
  - rewrite sapp_assoc in *. cbn [append] in *. rewrite (scan_class _ _ _ Hr) in E. constructor; [exact Hr|exact Nc|]. apply IH; [|exact R]. apply (Q (fun x => String "[" (t ++ String "]" x))) in E; [exact E|].
    intros y K. assert (K' : t ++ String "]" y = t ++ String "]" p) by congruence. apply sapp_inv_head in K'. congruence.
  - rewrite sapp_assoc in *. cbn [append] in *. rewrite (scan_negated _ _ _ Hr) in E. constructor; [exact Hr|]. apply IH; [|exact R]. apply (Q (fun x => String "[" (String "^" (t ++ String "]" x)))) in E; [exact E|].
    intros y K. assert (K' : t ++ String "]" y = t ++ String "]" p) by congruence. apply sapp_inv_head in K'. congruence.
Qed.
(** The rest is empty or begins with a star; only an empty pattern, or one that begins with a star, has an empty chunk. *)
Lemma cut_rest : forall p inr, let '(a, b) := scan inr p in b = "" \/ exists q, b = String "*" q.
Proof.
  intros p. remember (slen p) as n eqn:En. assert (Hn : slen p <= n) by lia. clear En. revert p Hn.
  induction n as [|n IH]; intros p Hn inr; (destruct p as [|c p]; [now left|]); [unfold slen in Hn; cbn in Hn; lia|].
  unfold slen in Hn; cbn in Hn. cbn [scan]. destruct (Ascii.eqb c back_char).
  - destruct p as [|d p]; [now left|]. specialize (IH p ltac:(unfold slen; cbn in Hn; lia) inr). destruct (scan inr p) as [a b]. exact IH.
  - destruct (Ascii.eqb c star_char && negb inr) eqn:E; [right; apply andb_true_iff in E as [E _]; apply aeqb_t in E; subst; now exists p|].
    match goal with |- context [scan ?i p] => specialize (IH p ltac:(unfold slen; lia) i); destruct (scan i p) as [a b] end. exact IH.
Qed.
Lemma cut_empty p b : scan false p = ("", b) -> p = b.
Proof. intros E. pose proof (scan_app p false) as H. rewrite E in H. exact H. Qed.

(** ** Stars *)
Lemma free_app c s t : free_of c (s ++ t) <-> free_of c s /\ free_of c t.
Proof. induction s as [|a s IH]; cbn; [tauto|]. rewrite IH. tauto. Qed.
Lemma fits_app l1 l2 s : fits (l1 ++ l2)%list s <-> exists u v, s = u ++ v /\ fits l1 u /\ fits l2 v.
Proof.
  revert s. induction l1 as [|i l1 IH]; intros s; cbn [List.app].
  - split; [intros H; exists "", s; repeat split; [constructor|exact H]|]. intros (u & v & -> & H & H'). inversion H. exact H'.
  - split.
    + intros H. inversion H as [|i' l' x y S1 F]. subst. apply IH in F as (u & v & -> & F1 & F2). exists (x ++ u), v. split; [now rewrite sapp_assoc|]. split; [now constructor|exact F2].
    + intros (u & v & -> & H & H'). inversion H as [|i' l' x y S1 F]. subst. rewrite sapp_assoc. constructor; [exact S1|]. apply IH. eauto.
Qed.
Lemma fits_star l s : fits (Star :: l) s <-> exists u v, s = u ++ v /\ free_of "/" u /\ fits l v.
Proof.
  split; [intros H; inversion H as [|i l' x y S1 F]; subst; inversion S1; subst; eauto|]. intros (u & v & -> & H & F). constructor; [now constructor|exact F].
Qed.
Lemma fits_stars l s : fits (Star :: Star :: l) s <-> fits (Star :: l) s.
Proof.
  rewrite !fits_star. split.
  - intros (u & v & -> & H & F). apply fits_star in F as (u' & v' & -> & H' & F). exists (u ++ u'), v'. rewrite sapp_assoc, free_app. auto.
  - intros (u & v & -> & H & F). exists u, v. split; [reflexivity|]. split; [exact H|]. apply fits_star. exists "", v. split; [reflexivity|]. split; [exact Logic.I|exact F].
Qed.
Lemma fits_len l v : starless l -> fits l v -> slen v = length l.
Proof.
  intros N H. induction H as [|i l s t S1 F IH]; [reflexivity|]. destruct (stands_one i s) as (a & ->); [intros ->; apply N; now left|exact S1|].
  unfold slen in *. cbn. rewrite IH; [reflexivity|]. intros C. apply N. now right.
Qed.
Lemma drop_ok p l : reads p l -> exists l', reads (drop_stars p) l' /\
  (leading_star p = true -> forall s, fits l s <-> fits (Star :: l') s) /\ (leading_star p = false -> drop_stars p = p /\ l' = l) /\ (exists k, l = (k ++ l')%list).
Proof.
  induction 1 as [|p l H IH|p l H IH|c p l N1 N2 N3 N4 H IH|c p l H IH|t rs p l Hr Nc H IH|t rs p l Hr H IH].
  2: { destruct IH as (l' & R & A & B & k & Ek). exists l'. cbn [drop_stars leading_star]. change (Ascii.eqb "*" star_char) with true. cbv iota. split; [exact R|]. split; [|split; [discriminate|exists (Star :: k); now rewrite Ek]]. intros _ s.
       destruct (leading_star p) eqn:E; [|destruct (B eq_refl) as [_ ->]; reflexivity]. rewrite <- (fits_stars l'), (fits_star l), (fits_star (Star :: l')). split; intros (u & v & -> & Hu & F); exists u, v; (split; [reflexivity|split; [exact Hu|]]); now apply A. }
  all: eexists; cbn [drop_stars leading_star]; try (rewrite (aeqb_n _ _ N1)); repeat match goal with |- context [Ascii.eqb ?x ?y] => change (Ascii.eqb x y) with false end; cbv iota;
    (split; [econstructor; eassumption|split; [discriminate|split; [intros _; split; reflexivity|now exists []]]]).
Qed.
Lemma drop_back p : forall l', reads (drop_stars p) l' -> exists l, reads p l.
Proof.
  induction p as [|c p IH]; intros l' H; cbn [drop_stars] in H; [eauto|]. destruct (Ascii.eqb c star_char) eqn:E; [|eauto]. apply aeqb_t in E. subst. apply IH in H as (l & H). exists (Star :: l). now constructor.
Qed.
Lemma drop_lead p : leading_star (drop_stars p) = false.
Proof. induction p as [|c p IH]; [reflexivity|]. cbn [drop_stars]. destruct (Ascii.eqb c star_char) eqn:E; [exact IH|]. exact E. Qed.
Lemma drop_len p : slen (drop_stars p) <= slen p.
Proof. unfold slen. induction p as [|c p IH]; [auto|]. cbn [drop_stars]. destruct (Ascii.eqb c star_char); cbn in *; lia. Qed.

(** ** The search for a place after a star *)
Definition place (la : list item) (last : bool) (name x v t : string) : Prop :=
  free_of "/" x /\ name = x ++ v ++ t /\ fits la v /\ (last = true -> t = "").
Lemma chunk_at_ok chunk la name : creads chunk la -> exists r, chunk_at chunk name = Some r /\ left_by la (Some name) r.
Proof. intros H. apply (chunk_ok _ _ H). lia. Qed.
Lemma skip_ok chunk la last : creads chunk la -> forall name c, c <> "/"%char ->
  exists r, skip_loop chunk last (String c name) = Some r /\
    match r with
    | Some t => exists x v, place la last name x v t /\ forall x' v' t', place la last name x' v' t' -> slen x <= slen x'
    | None => forall x v t, ~ place la last name x v t
    end.
Proof.
  intros Hc name. induction name as [|c' name IH]; intros c Nc; unfold skip_loop; fold skip_loop; rewrite (aeqb_n _ _ Nc).
  - destruct (chunk_at_ok _ _ "" Hc) as (r & E & L). rewrite E. assert (Z : forall x v t, place la last "" x v t -> x = "" /\ r = Some t).
    { intros x v t (A & B & C & D). destruct x; [|discriminate]. cbn in B. split; [reflexivity|]. apply L. eauto. }
    destruct r as [t|].
    + destruct (proj1 (L t) eq_refl) as (u & v & Eu & Ev & F). assert (Ev' : "" = v ++ t) by congruence. clear Eu Ev u. assert (t = "") by (destruct v; [cbn in Ev'; congruence|discriminate]). subst t. rename Ev' into Ev.
      cbn [seqb String.eqb negb]. rewrite andb_false_r. eexists. split; [reflexivity|]. exists "", v. split; [split; [exact Logic.I|split; [exact Ev|split; [exact F|reflexivity]]]|]. intros; cbn; lia.
    + eexists. split; [reflexivity|]. intros x v t P. apply Z in P as [_ P]. discriminate.
  - destruct (chunk_at_ok _ _ (String c' name) Hc) as (r & E & L). rewrite E.
    assert (Go : (forall v t, ~ place la last (String c' name) "" v t) -> exists r,
       skip_loop chunk last (String c' name) = Some r /\
       match r with
       | Some t => exists x v, place la last (String c' name) x v t /\ forall x' v' t', place la last (String c' name) x' v' t' -> slen x <= slen x'
       | None => forall x v t, ~ place la last (String c' name) x v t
       end).
    { intros Z. destruct (Ascii.eqb c' slash_char) eqn:Ec'.
      - apply aeqb_t in Ec'. subst c'. exists None. split; [reflexivity|]. intros x v t P. destruct x as [|a x]; [exact (Z _ _ P)|]. destruct P as ((Na & _) & B & _). cbn in B. congruence.
      - apply aeqb_f in Ec'. destruct (IH c' Ec') as (r1 & E1 & H1). exists r1. split; [exact E1|]. destruct r1 as [t|].
        + destruct H1 as (x & v & (A & B & C & D) & M). exists (String c' x), v. split; [split; [split; [exact Ec'|exact A]|split; [cbn; now rewrite <- B|split; [exact C|exact D]]]|].
          intros x' v' t' P. destruct x' as [|a x']; [destruct (Z _ _ P)|]. destruct P as ((Na & A') & B' & C' & D'). cbn in B'. assert (Ex : name = x' ++ v' ++ t') by congruence.
          specialize (M x' v' t' (conj A' (conj Ex (conj C' D')))). unfold slen in *. cbn. lia.
        + intros x v t P. destruct x as [|a x]; [exact (Z _ _ P)|]. destruct P as ((Na & A') & B' & C' & D'). cbn in B'. assert (Ex : name = x ++ v ++ t) by congruence. exact (H1 x v t (conj A' (conj Ex (conj C' D')))). }
    destruct r as [t|].
    + destruct (last && negb (seqb t "")) eqn:El.
      * apply Go. intros v t' (_ & B & C & D). cbn in B. apply andb_true_iff in El as [El Et]. apply negb_true_iff, seqb_neq in Et. assert (Some t = Some t') by (apply L; eauto). specialize (D El). congruence.
      * exists (Some t). split; [reflexivity|]. destruct (proj1 (L t) eq_refl) as (u & v & Eu & Ev & F). exists "", v. split.
        -- split; [exact Logic.I|]. split; [cbn; congruence|]. split; [exact F|]. intros ->. cbn in El. apply negb_false_iff, seqb_eq in El. exact El.
        -- intros; cbn; lia.
    + apply Go. intros v t' (_ & B & C & D). cbn in B. assert (None = Some t') by (apply L; eauto). discriminate.
Qed.

(** ** Counting slashes *)
Fixpoint nsl (s : string) : nat := match s with EmptyString => 0 | String c s' => (if Ascii.eqb c slash_char then 1 else 0) + nsl s' end.
Lemma nsl_app s t : nsl (s ++ t) = nsl s + nsl t.
Proof. induction s as [|a s IH]; cbn; [reflexivity|]. rewrite IH. lia. Qed.
Lemma nsl_free s : nsl s = 0 <-> free_of "/" s.
Proof. induction s as [|a s IH]; cbn; [tauto|]. destruct (Ascii.eqb a slash_char) eqn:E; [apply aeqb_t in E|apply aeqb_f in E]; rewrite <- IH; split; [lia|tauto|intuition lia|intuition lia]. Qed.
Definition noclass (l : list item) : Prop := forall i, In i l -> match i with Class _ _ => False | _ => True end.
Lemma nsl_fixed l v : fits l v -> starless l -> noclass l -> forall v', fits l v' -> nsl v' = nsl v.
Proof.
  induction 1 as [|i l s t S1 F IH]; intros N C v' F'; inversion F' as [|i' l' s' t' S1' F1]; subst; [reflexivity|]. rewrite !nsl_app. rewrite (IH ltac:(intros K; apply N; now right) ltac:(intros j K; apply C; now right) _ F1).
  f_equal. specialize (C i (or_introl eq_refl)). destruct i as [| |c|neg rs].
  - destruct N. now left.
  - inversion S1; inversion S1'; subst. cbn. now rewrite !aeqb_n by assumption.
  - inversion S1; inversion S1'; subst. reflexivity.
  - destruct C.
Qed.
Lemma noclass_ok p l : reads p l -> classless p -> noclass l.
Proof.
  unfold classless, noclass. induction 1 as [|p l H IH|p l H IH|c p l N1 N2 N3 N4 H IH|c p l H IH|t rs p l Hr Nc H IH|t rs p l Hr H IH]; cbn [free_of]; intros F i Hi.
  - destruct Hi.
  - destruct Hi as [<-|Hi]; [exact Logic.I|]. apply IH; tauto.
  - destruct Hi as [<-|Hi]; [exact Logic.I|]. apply IH; tauto.
  - destruct Hi as [<-|Hi]; [exact Logic.I|]. apply IH; tauto.
  - destruct Hi as [<-|Hi]; [exact Logic.I|]. apply IH; tauto.
  - destruct F as [F _]. congruence.
  - destruct F as [F _]. congruence.
Qed.
Lemma split_same : forall (a b c d : string), a ++ b = c ++ d -> slen a <= slen c -> exists y, c = a ++ y /\ b = y ++ d.
Proof.
  unfold slen. induction a as [|x a IH]; intros b c d E H; [exists c; auto|]. destruct c as [|x' c]; [cbn in H; lia|]. cbn in E, H.
  assert (x = x') by congruence. assert (E' : a ++ b = c ++ d) by congruence. subst. destruct (IH _ _ _ E' ltac:(lia)) as (y & -> & ->). exists y. auto.
Qed.
(** If a chunk between two stars fits at two places, the first one leaves at least as much, and no slash more. *)
Lemma first_place la name x v t x' v' t' : starless la -> nsl name = 0 \/ noclass la ->
  place la false name x v t -> place la false name x' v' t' -> slen x <= slen x' -> exists y, t = y ++ t' /\ free_of "/" y.
Proof.
  intros Sl Cd (A & B & C & _) (A' & B' & C' & _) Hx. pose proof (fits_len _ _ Sl C) as L1. pose proof (fits_len _ _ Sl C') as L2.
  rewrite B in B'. destruct (split_same _ _ _ _ B' Hx) as (d & -> & E). assert (Hd : slen v <= slen (d ++ v')) by (rewrite slen_app; lia).
  rewrite <- sapp_assoc in E. destruct (split_same _ _ _ _ E Hd) as (y & Ey & Et). exists y. split; [exact Et|]. apply nsl_free.
  apply free_app in A' as [_ A']. apply nsl_free in A'. destruct Cd as [Cd|Cd].
  - rewrite B, !nsl_app, Et, nsl_app in Cd. lia.
  - pose proof (nsl_fixed _ _ C Sl Cd _ C') as K. apply (f_equal nsl) in Ey. rewrite !nsl_app in Ey. lia.
Qed.

(** ** The whole match *)
Lemma cut_shorter p : p <> "" -> let '(a, b) := scan false (drop_stars p) in b = "" \/ slen b < slen p.
Proof.
  intros N. pose proof (scan_app (drop_stars p) false) as A. pose proof (cut_rest (drop_stars p) false) as B. pose proof (drop_lead p) as D. pose proof (drop_len p) as L.
  destruct (scan false (drop_stars p)) as [a b]. destruct B as [B|(q & B)]; [now left|]. right. subst b. pose proof (slen_app a (String "*" q)) as X. rewrite <- A in X.
  destruct a as [|c a]; [cbn [append] in A; rewrite A in D; discriminate|]. change (slen (String c a)) with (S (slen a)) in X. lia.
Qed.
Lemma rest_ok : forall n p l, slen p <= n -> reads p l -> rest_valid n p = true.
Proof.
  induction n as [|n IH]; intros p l Hn R; (destruct p as [|c p]; [reflexivity|]); [unfold slen in Hn; cbn in Hn; lia|].
  cbn [rest_valid]. destruct (drop_ok _ _ R) as (l' & R' & _). pose proof (cut_ok _ _ R') as C. pose proof (cut_shorter (String c p) ltac:(discriminate)) as Sh.
  destruct (scan false (drop_stars (String c p))) as [a b]. destruct C as (la & lb & A & B & _). destruct (chunk_at_ok _ _ "" A) as (r & E & _). rewrite E. apply IH with lb; [|exact B].
  destruct Sh as [->|Sh]; [cbn; lia|lia].
Qed.
Lemma piece_back p a b lb la : scan false (drop_stars p) = (a, b) -> creads a la -> reads b lb -> exists l, reads p l.
Proof.
  intros E A B. pose proof (scan_app (drop_stars p) false) as X. rewrite E in X. rewrite X in E. pose proof (cut_back _ _ A _ _ E B) as R. rewrite <- X in R. exact (drop_back _ _ R).
Qed.
Lemma rest_back : forall n p, rest_valid n p = true -> exists l, reads p l.
Proof.
  induction n as [|n IH]; intros p; (destruct p as [|c p]; [intros; exists []; constructor|]); [discriminate|]. cbn [rest_valid]. destruct (scan false (drop_stars (String c p))) as [a b] eqn:E.
  destruct (chunk_at a "") as [r|] eqn:Ec; [|discriminate]. intros H. apply IH in H as (lb & B). apply chunk_some in Ec as (la & A). exact (piece_back _ _ _ _ _ E A B).
Qed.
Lemma match_some : forall n p name b, match_loop n p name = Some b -> exists l, reads p l.
Proof.
  induction n as [|n IH]; intros p name b; (destruct p as [|c p]; [intros; exists []; constructor|]); [discriminate|]. cbn [match_loop]. destruct (scan false (drop_stars (String c p))) as [a p'] eqn:E.
  destruct (leading_star (String c p) && seqb a "") eqn:Es.
  - apply andb_true_iff in Es as [_ Ea]. apply seqb_eq in Ea. subst a. intros _. pose proof (cut_empty _ _ E) as X. pose proof (cut_rest (drop_stars (String c p)) false) as Y. rewrite E in Y. pose proof (drop_lead (String c p)) as D.
    destruct Y as [->|(q & ->)]; [|rewrite X in D; discriminate]. apply drop_back with []. rewrite X. constructor.
  - destruct (chunk_at a name) as [r|] eqn:Ec; [|discriminate]. apply chunk_some in Ec as (la & A).
    assert (K : forall tried : option (option string), match tried with None => None | Some (Some t) => match_loop n p' t | Some None => if rest_valid n p' then Some false else None end = Some b -> exists l, reads (String c p) l).
    { intros [[t|]|]; [| |discriminate].
      - intros H. apply IH in H as (lb & B). exact (piece_back _ _ _ _ _ E A B).
      - destruct (rest_valid n p') eqn:Er; [|discriminate]. intros _. apply rest_back in Er as (lb & B). exact (piece_back _ _ _ _ _ E A B). }
    cbv zeta. apply K.
Qed.
Lemma fits_last l t : l = [] -> fits l t <-> t = "".
Proof. intros ->. split; [intros H; now inversion H|intros ->; constructor]. Qed.
Lemma match_ok : forall n p l name, slen p <= n -> reads p l ->
  exists b, match_loop n p name = Some b /\ (b = true -> fits l name) /\ (nsl name = 0 \/ noclass l -> fits l name -> b = true).
Proof.
  induction n as [|n IH]; intros p l name Hn R.
  { destruct p as [|c p]; [|unfold slen in Hn; cbn in Hn; lia]. inversion R; subst. exists (seqb name ""). split; [reflexivity|]. rewrite seqb_eq, fits_last by reflexivity. tauto. }
  destruct p as [|c p]. { inversion R; subst. exists (seqb name ""). split; [reflexivity|]. rewrite seqb_eq, fits_last by reflexivity. tauto. }
  cbn [match_loop]. destruct (drop_ok _ _ R) as (l' & R' & D1 & D2 & D3). pose proof (cut_ok _ _ R') as C. pose proof (cut_shorter (String c p) ltac:(discriminate)) as Sh. pose proof (drop_lead (String c p)) as Dl.
  pose proof (cut_rest (drop_stars (String c p)) false) as Cr.
  assert (Ncl : noclass l -> noclass l') by (destruct D3 as (k & ->); intros Nl i Hi; apply Nl, in_app_iff; now right).
  destruct (scan false (drop_stars (String c p))) as [a p'] eqn:E. destruct C as (la & lb & A & B & El). pose proof (creads_starless _ _ A) as Sl.
  destruct (leading_star (String c p) && seqb a "") eqn:Es.
  - apply andb_true_iff in Es as [Es Ea]. apply seqb_eq in Ea. subst a. pose proof (cut_empty _ _ E) as X. destruct Cr as [->|(q & ->)]; [|rewrite X in Dl; discriminate].
    inversion A. inversion B. subst. eexists. split; [reflexivity|]. rewrite (D1 Es), fits_star. pose proof (cut_at_none slash_char name) as Cn. rewrite <- free_iff in Cn.
    destruct (cut_at slash_char name) as [z|].
    + split; [discriminate|]. intros _ (u & v & -> & Fu & Fv). apply fits_last in Fv; [|reflexivity]. subst v. rewrite sapp_nil_r in Cn. destruct Cn as [_ Cn]. discriminate (Cn Fu).
    + split; [|reflexivity]. intros _. exists name, "". split; [now rewrite sapp_nil_r|]. split; [now apply Cn|constructor].
  - destruct (chunk_at_ok _ _ name A) as (r & Er & L). rewrite Er.
    assert (Hl : slen p' <= n) by (destruct Sh as [->|Sh]; [unfold slen; cbn; lia|lia]). pose proof (rest_ok _ _ _ Hl B) as Rv.
    assert (Lb : seqb p' "" = true -> lb = []) by (intros K; apply seqb_eq in K; subst p'; now inversion B).
    assert (Nb : noclass l' -> noclass lb) by (intros N i Hi; apply N; rewrite El; apply in_app_iff; now right).
    assert (Na : noclass l' -> noclass la) by (intros N i Hi; apply N; rewrite El; apply in_app_iff; now left).
    assert (Tail : forall s t, name = s ++ t -> (nsl name = 0 \/ noclass l) -> nsl t = 0 \/ noclass lb).
    { intros s t -> [K|K]; [left; rewrite nsl_app in K; lia|right; auto]. }
    destruct (leading_star (String c p)) eqn:Es'.
    + (* after a star *)
      set (tried := match r with Some t => if seqb t "" || negb (seqb p' "") then Some (Some t) else skip_loop a (seqb p' "") name | None => skip_loop a (seqb p' "") name end).
      assert (T : tried = skip_loop a (seqb p' "") (String "a" name)).
      { unfold tried. cbn [skip_loop]. change (Ascii.eqb "a" slash_char) with false. cbv iota. rewrite Er. destruct r as [t|]; [|reflexivity]. now destruct (seqb t ""), (seqb p' ""). }
      destruct (skip_ok a la (seqb p' "") A name "a" ltac:(discriminate)) as (r1 & E1 & H1). rewrite <- T in E1.
      assert (G : exists b, (match tried with None => None | Some (Some t) => match_loop n p' t | Some None => if rest_valid n p' then Some false else None end) = Some b /\ (b = true -> fits l name) /\ (nsl name = 0 \/ noclass l -> fits l name -> b = true)).
      { rewrite E1. pose proof (D1 eq_refl name) as Q. rewrite fits_star, El in Q. destruct r1 as [t|].
        - destruct H1 as (x & v & P & Min). pose proof P as (Px & Pn & Pf & Pl). destruct (IH p' lb t Hl B) as (b & Eb & S1 & S2). exists b. split; [exact Eb|]. split.
          + intros Hb. apply Q. exists x, (v ++ t). split; [exact Pn|]. split; [exact Px|]. apply fits_app. exists v, t. auto.
          + intros Cd F0. apply Q in F0 as (x' & w & En & Fx & F). apply fits_app in F as (v' & t' & -> & Fv & Ft). apply S2; [apply (Tail (x ++ v)); [now rewrite sapp_assoc|exact Cd]|].
            destruct (seqb p' "") eqn:Ep.
            * rewrite (Pl eq_refl). rewrite (Lb eq_refl) in *. apply fits_last in Ft; [|reflexivity]. constructor.
            * assert (P' : place la false name x' v' t') by (split; [exact Fx|split; [exact En|split; [exact Fv|discriminate]]]).
              destruct (first_place la name x v t x' v' t' Sl) as (y & -> & Fy); [destruct Cd as [Cd|Cd]; auto|exact P|exact P'|exact (Min _ _ _ P')|].
              destruct Cr as [->|(q & ->)]; [discriminate|]. inversion B as [|q' lq Bq| | | | |]; subst; [|congruence]. apply fits_star in Ft as (u & w & -> & Fu & Fw). apply fits_star. exists (y ++ u), w.
              split; [now rewrite sapp_assoc|]. split; [now apply free_app|exact Fw].
        - rewrite Rv. exists false. split; [reflexivity|]. split; [discriminate|]. intros Cd F0. apply Q in F0 as (x' & w & En & Fx & F). apply fits_app in F as (v' & t' & -> & Fv & Ft). exfalso. apply (H1 x' v' t').
          split; [exact Fx|]. split; [exact En|]. split; [exact Fv|]. intros K. rewrite (Lb K) in Ft. now apply fits_last in Ft. }
      destruct G as (b & G). exists b. unfold tried in G. destruct r as [t|]; exact G.
    + (* not after a star *)
      destruct (D2 eq_refl) as [_ El']. assert (El2 : l = (la ++ lb)%list) by congruence. rewrite El2.
      destruct r as [t|].
      * destruct (proj1 (L t) eq_refl) as (u & v & Eu & Ev & Fv). assert (u = name) by congruence. subst u. destruct (seqb t "" || negb (seqb p' "")) eqn:Et.
        -- destruct (IH p' lb t Hl B) as (b & Eb & S1 & S2). exists b. split; [exact Eb|]. split; [intros Hb; apply fits_app; exists v, t; auto|].
           intros Cd F. apply fits_app in F as (v' & t' & En & Fv' & Ft). apply S2; [apply (Tail v); [congruence|rewrite El2; exact Cd]|]. assert (Some t = Some t') by (apply L; exists name, v'; auto). congruence.
        -- rewrite Rv. exists false. split; [reflexivity|]. split; [discriminate|]. intros Cd F. apply fits_app in F as (v' & t' & En & Fv' & Ft). assert (Some t = Some t') by (apply L; exists name, v'; auto).
           apply orb_false_iff in Et as [Et1 Et2]. apply negb_false_iff in Et2. rewrite (Lb Et2) in Ft. apply fits_last in Ft; [|reflexivity]. apply seqb_neq in Et1. congruence.
      * rewrite Rv. exists false. split; [reflexivity|]. split; [discriminate|]. intros Cd F. apply fits_app in F as (v' & t' & En & Fv' & Ft). assert (None = Some t') by (apply L; exists name, v'; auto). discriminate.
Qed.

Lemma glob_sound p name : path_match p name = Some true -> glob p name.
Proof.
  intros H. destruct (match_some _ _ _ _ H) as (l & R). destruct (match_ok (slen p) p l name ltac:(lia) R) as (b & E & S1 & _). exists l. split; [exact R|]. apply S1. unfold path_match in H. congruence.
Qed.
Lemma glob_complete p name : free_of "/" name \/ classless p -> glob p name -> path_match p name = Some true.
Proof.
  intros C (l & R & F). destruct (match_ok (slen p) p l name ltac:(lia) R) as (b & E & _ & S2). unfold path_match. rewrite E. f_equal. apply S2; [|exact F].
  destruct C as [C|C]; [left; now apply nsl_free|right; exact (noclass_ok _ _ R C)].
Qed.
Lemma glob_error p name : path_match p name = None <-> forall l, ~ reads p l.
Proof.
  split.
  - intros H l R. destruct (match_ok (slen p) p l name ltac:(lia) R) as (b & E & _). unfold path_match in H. congruence.
  - intros H. destruct (path_match p name) as [b|] eqn:E; [|reflexivity]. apply match_some in E as (l & R). destruct (H l R).
Qed.
Lemma name_matches_iff p name : free_of "/" name \/ classless p -> (name_matches p name = true <-> glob p name).
Proof.
  intros C. unfold name_matches. split.
  - intros H. destruct (path_match p name) as [[]|] eqn:E; try discriminate. now apply glob_sound.
  - intros H. now rewrite (glob_complete _ _ C H).
Qed.

(** * ShareFacts: the receivers of a shared record. *)
From Coq Require Import Lia.
From Verif Require Import GoBase GoFacts JsonModel ShareModel SpecShare.
Local Open Scope nat_scope.

Lemma set_nth_length {A} (l : list A) i a : length (set_nth l i a) = length l.
Proof. revert i. induction l as [|b l IH]; intros [|i]; cbn; auto. Qed.
Lemma nth_set_nth {A} (l : list A) i j a d : i < length l -> nth j (set_nth l i a) d = if Nat.eqb j i then a else nth j l d.
Proof.
  revert i j. induction l as [|b l IH]; intros i j H; cbn in H; [lia|]. destruct i as [|i], j as [|j]; cbn; try reflexivity. apply IH. lia.
Qed.
Lemma put_length a p xs : p + length xs <= length a -> length (put a p xs) = length a.
Proof. intros H. unfold put. rewrite !app_length, firstn_length, skipn_length. lia. Qed.
Lemma nth_put a p xs q : p + length xs <= length a ->
  nth_error (put a p xs) q = if Nat.ltb q p then nth_error a q else if Nat.ltb q (p + length xs) then nth_error xs (q - p) else nth_error a q.
Proof.
  intros H. unfold put. assert (L : length (firstn p a) = p) by (rewrite firstn_length; lia).
  destruct (Nat.ltb_spec q p) as [C|C].
  - rewrite nth_error_app1 by lia. rewrite <- (firstn_skipn p a) at 2. rewrite nth_error_app1 by lia. reflexivity.
  - rewrite nth_error_app2 by lia. rewrite L. destruct (Nat.ltb_spec q (p + length xs)) as [C2|C2].
    + rewrite nth_error_app1 by lia. reflexivity.
    + rewrite nth_error_app2 by lia. rewrite <- (firstn_skipn (p + length xs) a) at 2. rewrite nth_error_app2; rewrite firstn_length; [f_equal; lia|lia].
Qed.
Lemma ext {A} (l l' : list A) : (forall p, nth_error l p = nth_error l' p) -> l = l'.
Proof.
  revert l'. induction l as [|a l IH]; intros [|b l'] H; [reflexivity|specialize (H 0); discriminate|specialize (H 0); discriminate|].
  f_equal; [specialize (H 0); cbn in H; congruence|]. apply IH. intros p. exact (H (S p)).
Qed.
Lemma firstn_ext {A} (l w : list A) n : n <= length l -> (forall p, p < n -> nth_error l p = nth_error w p) -> firstn n l = firstn n w.
Proof.
  revert l w. induction n as [|n IH]; intros l w Hl H; [reflexivity|].
  destruct l as [|a l]; [cbn in Hl; lia|]. pose proof (H 0 ltac:(lia)) as H0. destruct w as [|b w]; [discriminate|]. cbn in H0 |- *. injection H0 as <-.
  f_equal. apply IH; [cbn in Hl; lia|]. intros p Hp. exact (H (S p) ltac:(lia)).
Qed.

Section Enc.
Variable spare : nat -> nat.
Variable w : list string.
Definition holds (h : heap) (s : slice) : Prop :=
  valid h s /\ forall p, p < s_len s -> nth_error (nth (s_arr s) h []) p = nth_error w p.
Lemma append_holds h s xs : holds h s -> (forall q, q < length xs -> nth_error xs q = nth_error w (s_len s + q)) ->
  let (h', s') := append spare h s xs in
  holds h' s' /\ s_len s' = s_len s + length xs /\ forall s2, holds h s2 -> holds h' s2.
Proof.
  intros [[V1 V2] H] Hx. unfold append. destruct (Nat.leb_spec (s_len s + length xs) (length (nth (s_arr s) h []))) as [C|C].
  - assert (K : forall s2, holds h s2 -> holds (set_nth h (s_arr s) (put (nth (s_arr s) h []) (s_len s) xs)) s2).
    { intros s2 [[W1 W2] H2]. split; [split|].
      - rewrite set_nth_length. exact W1.
      - rewrite nth_set_nth by assumption. destruct (Nat.eqb_spec (s_arr s2) (s_arr s)) as [E|E]; [rewrite put_length by lia; rewrite <- E; assumption|assumption].
      - intros p Hp. rewrite nth_set_nth by assumption. destruct (Nat.eqb_spec (s_arr s2) (s_arr s)) as [E|E]; [|apply H2; assumption].
        rewrite nth_put by lia. rewrite E in H2. destruct (Nat.ltb_spec p (s_len s)) as [D|D]; [apply H; assumption|].
        destruct (Nat.ltb_spec p (s_len s + length xs)) as [D2|D2]; [|apply H2; assumption].
        rewrite Hx by lia. f_equal. lia. }
    split; [|split; [reflexivity|exact K]]. split; [split|].
    + cbn. rewrite set_nth_length. exact V1.
    + cbn. rewrite nth_set_nth by assumption. rewrite Nat.eqb_refl, put_length by lia. lia.
    + cbn. intros p Hp. rewrite nth_set_nth by assumption. rewrite Nat.eqb_refl, nth_put by lia.
      destruct (Nat.ltb_spec p (s_len s)) as [D|D]; [apply H; assumption|]. destruct (Nat.ltb_spec p (s_len s + length xs)) as [D2|D2]; [|lia].
      rewrite Hx by lia. f_equal. lia.
  - split; [split; [split|]|split; [reflexivity|]]; cbn [s_arr s_len].
    + rewrite app_length. cbn. lia.
    + rewrite app_nth2, Nat.sub_diag by lia. cbn. rewrite !app_length, firstn_length. lia.
    + intros p Hp. rewrite app_nth2, Nat.sub_diag by lia. cbn [nth].
      assert (L : length (firstn (s_len s) (nth (s_arr s) h [])) = s_len s) by (rewrite firstn_length; lia).
      destruct (Nat.ltb_spec p (s_len s)) as [D|D].
      * rewrite nth_error_app1 by lia. rewrite <- H by assumption. rewrite <- (firstn_skipn (s_len s) (nth (s_arr s) h [])) at 2. rewrite nth_error_app1 by lia. reflexivity.
      * rewrite nth_error_app2 by lia. rewrite L, nth_error_app1 by lia. rewrite Hx by lia. f_equal. lia.
    + intros s2 [[W1 W2] H2]. split; [split|].
      * rewrite app_length. lia.
      * rewrite app_nth1 by assumption. assumption.
      * intros p Hp. rewrite app_nth1 by assumption. apply H2. assumption.
Qed.
Lemma holds_contents h s : holds h s -> contents h s = firstn (s_len s) w.
Proof. intros [[_ V] H]. apply firstn_ext; assumption. Qed.
End Enc.

Lemma set_nth_forall {A} (P : A -> Prop) l i a : Forall P l -> P a -> Forall P (set_nth l i a).
Proof. intros F Pa. revert i. induction F as [|b l Pb F IH]; intros [|i]; cbn; auto. Qed.

Section System.
Variable spare : nat -> nat.
Variable h0 : heap.
Variable c : slice.
Variable R : list (list string).
Hypothesis Hc : valid h0 c.
Notation T := (contents h0 c).
Definition whole := (T ++ concat R)%list.
Definition agent_ok (h : heap) (a : agent) : Prop :=
  match a with
  | Enc None R' => R' = R
  | Enc (Some s) todo => holds whole h s /\ exists d, R = (d ++ todo)%list /\ s_len s = length T + length (concat d)
  | Eng xs => xs = []
  end.
Definition inv (st : state) : Prop := st_ctx st = c /\ holds whole (st_heap st) c /\ Forall (agent_ok (st_heap st)) (st_agents st).
Lemma len_T : length T = s_len c.
Proof. destruct Hc as [_ V]. unfold contents. rewrite firstn_length. lia. Qed.
Lemma start_holds : holds whole h0 c.
Proof.
  split; [exact Hc|]. intros p Hp. unfold whole. rewrite nth_error_app1 by (rewrite len_T; exact Hp). unfold contents.
  rewrite <- (firstn_skipn (s_len c) (nth (s_arr c) h0 [])) at 1. rewrite nth_error_app1; [reflexivity|].
  rewrite firstn_length. destruct Hc. lia.
Qed.
Lemma step_inv i st st' : inv st -> step spare i st = Some st' -> inv st'.
Proof.
  intros (E & HC & F) H. unfold step in H. destruct (nth_error (st_agents st) i) as [a|] eqn:N; [|discriminate].
  pose proof (proj1 (Forall_forall _ _) F a (nth_error_In _ _ N)) as Ha.
  destruct a as [[s|] [|r rs]|[|x xs]]; cbn in Ha; try discriminate H.
  - destruct Ha as [Hs (d & Ed & El)]. pose proof (append_holds spare whole (st_heap st) s r Hs) as K.
    destruct (append spare (st_heap st) s r) as [h' s'] eqn:Ea. injection H as <-.
    destruct K as (K1 & K2 & K3).
    { intros q Hq. unfold whole. rewrite nth_error_app2 by lia. rewrite Ed, concat_app. rewrite nth_error_app2 by lia. cbn [concat].
      rewrite nth_error_app1 by lia. f_equal. lia. }
    split; [exact E|]. split; [apply K3; exact HC|]. cbn [st_heap st_agents]. apply set_nth_forall.
    + eapply Forall_impl; [|exact F]. intros [[s2|] rem|ys]; cbn; auto. intros [G1 G2]. split; [apply K3; exact G1|exact G2].
    + cbn. split; [exact K1|]. exists (d ++ [r])%list. split; [rewrite Ed, <- app_assoc; reflexivity|].
      rewrite concat_app, app_length. cbn [concat]. rewrite app_nil_r. lia.
  - injection H as <-. split; [exact E|]. split; [exact HC|]. cbn [st_heap st_agents]. apply set_nth_forall; [exact F|]. cbn. rewrite E.
    split; [exact HC|]. exists []. split; [symmetry; exact Ha|]. rewrite len_T. cbn. lia.
  - injection H as <-. split; [exact E|]. split; [exact HC|]. cbn [st_heap st_agents]. apply set_nth_forall; [exact F|]. cbn. rewrite E.
    split; [exact HC|]. exists []. split; [symmetry; exact Ha|]. rewrite len_T. cbn. lia.
  - discriminate Ha.
Qed.
Lemma run_inv sch : forall st st', inv st -> run spare sch st = Some st' -> inv st'.
Proof.
  induction sch as [|i sch IH]; intros st st' I H; cbn in H; [congruence|].
  destruct (step spare i st) as [st1|] eqn:E; [|discriminate]. eapply IH; [|exact H]. eapply step_inv; eassumption.
Qed.
Lemma exporters_safe n sch st : run spare sch (mkState h0 c (exporters n R)) = Some st ->
  contents (st_heap st) (st_ctx st) = T /\
  forall i s, nth_error (st_agents st) i = Some (Enc (Some s) []) -> exported st i (T ++ concat R).
Proof.
  intros H. assert (I : inv st).
  { eapply run_inv; [|exact H]. split; [reflexivity|]. split; [exact start_holds|]. apply Forall_forall. intros a Ha. apply repeat_spec in Ha as ->. reflexivity. }
  destruct I as (E & HC & F). split.
  - rewrite E, (holds_contents _ _ _ HC). unfold whole. rewrite <- len_T, firstn_app, Nat.sub_diag, firstn_all. cbn. apply app_nil_r.
  - intros i s N. exists s. split; [exact N|]. pose proof (proj1 (Forall_forall _ _) F _ (nth_error_In _ _ N)) as [Hs (d & Ed & El)].
    rewrite (holds_contents _ _ _ Hs). rewrite app_nil_r in Ed. subst d. apply firstn_all2. unfold whole. rewrite app_length. lia.
Qed.
End System.

(** ** An engine among the receivers *)
Lemma put_one a p x : p < length a -> firstn (S p) (put a p [x]) = (firstn p a ++ [x])%list.
Proof.
  intros H. unfold put. assert (L : length (firstn p a) = p) by (rewrite firstn_length; lia).
  rewrite firstn_app, L. rewrite (firstn_all2 (firstn p a)) by lia. replace (S p - p) with 1 by lia. reflexivity.
Qed.
Lemma lost spare h c r x : valid h c -> roomy h c ->
  (exists st, run spare [0; 1; 0] (mkState h c [Enc None [[r]]; Eng [x]]) = Some st /\ all_done st /\
     contents (st_heap st) (st_ctx st) = (contents h c ++ [r])%list) /\
  (exists st, run spare [0; 0; 1] (mkState h c [Enc None [[r]]; Eng [x]]) = Some st /\ all_done st /\
     exported st 0 (contents h c ++ [x])).
Proof.
  intros [V1 V2] Hr. unfold roomy in Hr. set (a := nth (s_arr c) h []) in *.
  assert (Lb : Nat.leb (s_len c + 1) (length a) = true) by (apply Nat.leb_le; lia).
  set (b1 := put a (s_len c) [x]). set (b2 := put a (s_len c) [r]).
  assert (P1 : length b1 = length a) by (apply put_length; cbn; lia). assert (P2 : length b2 = length a) by (apply put_length; cbn; lia).
  assert (F1 : firstn (s_len c) b1 = firstn (s_len c) a).
  { apply firstn_ext; [lia|]. intros p Hp. unfold b1. rewrite nth_put by (cbn; lia). apply Nat.ltb_lt in Hp. rewrite Hp. reflexivity. }
  assert (F2 : firstn (s_len c) b2 = firstn (s_len c) a).
  { apply firstn_ext; [lia|]. intros p Hp. unfold b2. rewrite nth_put by (cbn; lia). apply Nat.ltb_lt in Hp. rewrite Hp. reflexivity. }
  assert (A : forall y h1 a1, s_arr c < length h1 -> nth (s_arr c) h1 [] = a1 -> length a1 = length a ->
    append spare h1 c [y] = (set_nth h1 (s_arr c) (put a1 (s_len c) [y]), mkSlice (s_arr c) (s_len c + 1))).
  { intros y h1 a1 L E1 E2. unfold append. rewrite E1, E2. cbn [length]. rewrite Lb. reflexivity. }
  split.
  - cbn [run step nth_error st_agents set_nth st_heap st_ctx]. rewrite (A x h a V1 eq_refl eq_refl). fold b1.
    cbn [run step nth_error st_agents set_nth st_heap st_ctx]. rewrite (A r (set_nth h (s_arr c) b1) b1).
    + eexists. split; [reflexivity|]. split.
      * intros z [<-|[<-|[]]]; [left; eexists; reflexivity|right; reflexivity].
      * unfold contents. cbn [st_heap st_ctx s_arr s_len]. rewrite nth_set_nth by (rewrite set_nth_length; exact V1). rewrite Nat.eqb_refl, Nat.add_1_r, put_one by lia. rewrite F1. reflexivity.
    + rewrite set_nth_length. exact V1.
    + rewrite nth_set_nth by exact V1. rewrite Nat.eqb_refl. reflexivity.
    + exact P1.
  - cbn [run step nth_error st_agents set_nth st_heap st_ctx]. rewrite (A r h a V1 eq_refl eq_refl). fold b2.
    cbn [run step nth_error st_agents set_nth st_heap st_ctx]. rewrite (A x (set_nth h (s_arr c) b2) b2).
    + eexists. split; [reflexivity|]. split.
      * intros z [<-|[<-|[]]]; [left; eexists; reflexivity|right; reflexivity].
      * eexists. split; [reflexivity|]. unfold contents. cbn [st_heap st_ctx s_arr s_len]. rewrite nth_set_nth by (rewrite set_nth_length; exact V1). rewrite Nat.eqb_refl, Nat.add_1_r, put_one by lia. rewrite F2. reflexivity.
    + rewrite set_nth_length. exact V1.
    + rewrite nth_set_nth by exact V1. rewrite Nat.eqb_refl. reflexivity.
    + exact P2.
Qed.

(** ** Without room in the array *)
Lemma nth_error_set_nth {A} (l : list A) i j a : nth_error (set_nth l i a) j = if Nat.eqb j i then match nth_error l i with Some _ => Some a | None => None end else nth_error l j.
Proof.
  revert i j. induction l as [|b l IH]; intros [|i] [|j]; cbn; try reflexivity.
  - destruct (Nat.eqb j i); reflexivity.
  - apply IH.
Qed.
Lemma put_nil a p : put a p [] = a.
Proof. unfold put. cbn. rewrite Nat.add_0_r. apply firstn_skipn. Qed.
Lemma firstn_put a p xs : p + length xs <= length a -> firstn (p + length xs) (put a p xs) = (firstn p a ++ xs)%list.
Proof.
  intros H. unfold put. assert (L : length (firstn p a) = p) by (rewrite firstn_length; lia).
  rewrite firstn_app, L. rewrite (firstn_all2 (firstn p a)) by lia. f_equal. replace (p + length xs - p) with (length xs) by lia.
  rewrite firstn_app, Nat.sub_diag, firstn_all. cbn. apply app_nil_r.
Qed.
(** An append to one of several slices; [own s t]: a slice that is in use besides. *)
Lemma append_owned spare h c s xs (other : slice -> Prop) : valid h s ->
  (s = c -> length (nth (s_arr c) h []) = s_len c) ->
  (forall t, other t -> valid h t /\ (s_arr t = s_arr s -> s = c /\ t = c)) -> valid h c -> (s <> c -> s_arr s <> s_arr c) ->
  let (h', s') := append spare h s xs in
  valid h' s' /\ contents h' s' = (contents h s ++ xs)%list /\
  (forall t, other t -> valid h' t /\ contents h' t = contents h t /\ (s_arr t = s_arr s' -> s' = c /\ t = c)) /\
  nth (s_arr c) h' [] = nth (s_arr c) h [] /\ valid h' c /\ (s' <> c -> s_arr s' <> s_arr c).
Proof.
  intros [V1 V2] Hf Ho [C1 C2] Hn. unfold append. destruct (Nat.leb_spec (s_len s + length xs) (length (nth (s_arr s) h []))) as [C|C].
  - destruct xs as [|x xs].
    + rewrite put_nil. assert (E : set_nth h (s_arr s) (nth (s_arr s) h []) = h).
      { clear. revert h. induction (s_arr s) as [|i IH]; intros [|a h]; cbn; try reflexivity. f_equal. apply IH. }
      rewrite E. cbn [length]. rewrite Nat.add_0_r. replace (mkSlice (s_arr s) (s_len s)) with s by (destruct s; reflexivity).
      split; [split; assumption|]. split; [symmetry; apply app_nil_r|]. split; [|split; [reflexivity|split; [split; assumption|assumption]]].
      intros t Ht. destruct (Ho t Ht) as [W1 W2]. auto.
    + assert (N : s <> c) by (intros ->; specialize (Hf eq_refl); cbn in C; lia). specialize (Hn N).
      assert (K : forall t, s_arr t <> s_arr s -> valid h t -> valid (set_nth h (s_arr s) (put (nth (s_arr s) h []) (s_len s) (x :: xs))) t /\
        contents (set_nth h (s_arr s) (put (nth (s_arr s) h []) (s_len s) (x :: xs))) t = contents h t).
      { intros t Ht [W1 W2]. unfold valid, contents. rewrite set_nth_length, nth_set_nth by assumption. destruct (Nat.eqb_spec (s_arr t) (s_arr s)); [contradiction|]. auto. }
      split; [|split; [|split; [|split; [|split]]]].
      * unfold valid. cbn [s_arr s_len]. rewrite set_nth_length, nth_set_nth, Nat.eqb_refl, put_length by assumption. split; assumption.
      * unfold contents. cbn [s_arr s_len]. rewrite nth_set_nth, Nat.eqb_refl by assumption. apply firstn_put. assumption.
      * intros t Ht. destruct (Ho t Ht) as [W1 W2]. assert (D : s_arr t <> s_arr s) by (intros D; apply W2 in D as [-> _]; contradiction).
        destruct (K t D W1) as [K1 K2]. split; [assumption|]. split; [assumption|]. cbn. intros D2. contradiction.
      * rewrite nth_set_nth by assumption. destruct (Nat.eqb_spec (s_arr c) (s_arr s)) as [D|D]; [congruence|reflexivity].
      * apply K; [congruence|split; assumption].
      * intros _. cbn. assumption.
  - split; [|split; [|split; [|split; [|split]]]].
    + unfold valid. cbn [s_arr s_len]. rewrite app_length, app_nth2, Nat.sub_diag by lia. cbn [nth length]. rewrite !app_length, firstn_length. lia.
    + unfold contents. cbn [s_arr s_len]. rewrite app_nth2, Nat.sub_diag by lia. cbn [nth].
      assert (L : length (firstn (s_len s) (nth (s_arr s) h [])) = s_len s) by (rewrite firstn_length; lia).
      rewrite firstn_app, L. rewrite (firstn_all2 (firstn (s_len s) (nth (s_arr s) h []))) by lia. f_equal.
      replace (s_len s + length xs - s_len s) with (length xs) by lia. rewrite firstn_app, Nat.sub_diag, firstn_all. cbn. apply app_nil_r.
    + intros t Ht. destruct (Ho t Ht) as [[W1 W2] _]. unfold valid, contents. rewrite app_length, app_nth1 by assumption.
      split; [split; [lia|assumption]|]. split; [reflexivity|]. cbn. intros D. lia.
    + rewrite app_nth1 by assumption. reflexivity.
    + unfold valid. rewrite app_length, app_nth1 by assumption. split; [lia|assumption].
    + intros _. cbn. lia.
Qed.
Section Full.
Variable spare : nat -> nat.
Variable h0 : heap.
Variable c : slice.
Variable R : list (list string).
Variable n : nat.
Variable xs : list string.
Hypothesis Hc : valid h0 c.
Hypothesis Hfull : ~ roomy h0 c.
Notation T := (contents h0 c).
(** The slices in use: the record's tags, and those of the exporters. *)
Definition owner (st : state) (k : nat) (s : slice) : Prop :=
  match k with 0 => s = st_ctx st | S i => exists todo, nth_error (st_agents st) i = Some (Enc (Some s) todo) end.
Record finv (st : state) : Prop := mkFinv {
  f_same : nth (s_arr c) (st_heap st) [] = nth (s_arr c) h0 [];
  f_valid : valid (st_heap st) c;
  f_own : forall k s, owner st k s -> valid (st_heap st) s /\ (s <> c -> s_arr s <> s_arr c);
  f_diff : forall j k s t, owner st j s -> owner st k t -> j <> k -> s_arr t = s_arr s -> s = c /\ t = c;
  f_eng : exists d rest, nth_error (st_agents st) n = Some (Eng rest) /\ xs = (d ++ rest)%list /\ contents (st_heap st) (st_ctx st) = (T ++ d)%list;
  f_enc : forall i a, nth_error (st_agents st) i = Some a -> i <> n -> exists s d todo, a = Enc (Some s) todo /\ R = (d ++ todo)%list /\ contents (st_heap st) s = (T ++ concat d)%list }.
Lemma full_len st : finv st -> length (nth (s_arr c) (st_heap st) []) = s_len c.
Proof. intros I. rewrite (f_same st I). destruct Hc as [_ V]. unfold roomy in Hfull. lia. Qed.
Lemma owner_set st h' c' i s' todo' k t :
  owner (mkState h' c' (set_nth (st_agents st) i (Enc (Some s') todo'))) k t -> k <> 0 -> (k = S i /\ t = s') \/ (k <> S i /\ owner st k t).
Proof.
  destruct k as [|j]; [contradiction|]. intros [todo H] _. cbn in H. rewrite nth_error_set_nth in H. destruct (Nat.eqb_spec j i) as [->|E].
  - left. destruct (nth_error (st_agents st) i); [|discriminate]. injection H as -> ->. auto.
  - right. split; [congruence|]. exists todo. exact H.
Qed.
Lemma fstep i st st' : finv st -> step spare i st = Some st' -> finv st'.
Proof.
  intros I H. pose proof (full_len st I) as L. destruct I as [I1 I2 I3 I4 I5 I6]. unfold step in H. destruct (nth_error (st_agents st) i) as [a|] eqn:N; [|discriminate].
  destruct a as [[s|] [|r rs]|[|x ys]]; try discriminate H.
  - assert (Ni : i <> n) by (intros ->; destruct I5 as (d & rest & E & _); congruence).
    destruct (I6 i _ N Ni) as (s1 & d & todo & E1 & E2 & E3). injection E1 as <- <-.
    assert (O : owner st (S i) s) by (exists (r :: rs); exact N). destruct (I3 _ _ O) as [Vs Ns].
    pose proof (append_owned spare (st_heap st) c s r (fun t => exists k, k <> S i /\ owner st k t) Vs (fun _ => L)) as K.
    destruct (append spare (st_heap st) s r) as [h' s'] eqn:Ea. injection H as <-.
    destruct K as (K1 & K2 & K3 & K4 & K5 & K6); [|exact I2|exact Ns|].
    { intros t (k & Nk & Ok). split; [apply (I3 k t Ok)|]. intros Ea'. exact (I4 (S i) k s t O Ok (fun X => Nk (eq_sym X)) Ea'). }
    assert (Oc : owner st 0 (st_ctx st)) by reflexivity.
    assert (Q : forall k t, owner (mkState h' (st_ctx st) (set_nth (st_agents st) i (Enc (Some s') rs))) k t -> (k = S i /\ t = s') \/ (k <> S i /\ owner st k t)).
    { intros [|k] t Ot; [right; split; [discriminate|exact Ot]|]. apply (owner_set st _ _ _ _ _ _ _ Ot). discriminate. }
    split; cbn [st_heap st_ctx st_agents].
    + rewrite K4. exact I1.
    + exact K5.
    + intros k t Ot. destruct (Q k t Ot) as [[-> ->]|[Nk Ok]]; [split; assumption|]. destruct (K3 t (ex_intro _ k (conj Nk Ok))) as (Z & _ & _). split; [exact Z|apply (I3 k t Ok)].
    + intros j k t u Oj Ok Njk E. destruct (Q j t Oj) as [[-> ->]|[Nj Oj']], (Q k u Ok) as [[-> ->]|[Nk Ok']].
      * contradiction.
      * destruct (K3 u (ex_intro _ k (conj Nk Ok'))) as (_ & _ & Z). exact (Z E).
      * destruct (K3 t (ex_intro _ j (conj Nj Oj'))) as (_ & _ & Z). destruct (Z (eq_sym E)). auto.
      * exact (I4 j k t u Oj' Ok' Njk E).
    + destruct I5 as (d' & rest & F1 & F2 & F3). exists d', rest. split; [|split; [exact F2|]].
      * rewrite nth_error_set_nth. destruct (Nat.eqb_spec n i); [congruence|exact F1].
      * destruct (K3 (st_ctx st) (ex_intro _ 0 (conj (O_S i) Oc))) as (_ & Z & _). rewrite Z. exact F3.
    + intros j b Hj Nj. rewrite nth_error_set_nth in Hj. destruct (Nat.eqb_spec j i) as [->|E].
      * rewrite N in Hj. injection Hj as <-. exists s', (d ++ [r])%list, rs. split; [reflexivity|]. split; [rewrite E2, <- app_assoc; reflexivity|].
        rewrite K2, E3, concat_app. cbn [concat]. rewrite app_nil_r, app_assoc. reflexivity.
      * destruct (I6 j b Hj Nj) as (t & d2 & todo2 & -> & F2 & F3). exists t, d2, todo2. split; [reflexivity|]. split; [exact F2|].
        destruct (K3 t (ex_intro _ (S j) (conj (fun X => E (eq_add_S _ _ X)) (ex_intro _ todo2 Hj)))) as (_ & Z & _). rewrite Z. exact F3.
  - exfalso. assert (Ni : i <> n) by (intros ->; destruct I5 as (d & rest & E & _); congruence). destruct (I6 i _ N Ni) as (? & ? & ? & E & _). discriminate.
  - exfalso. assert (Ni : i <> n) by (intros ->; destruct I5 as (d & rest & E & _); congruence). destruct (I6 i _ N Ni) as (? & ? & ? & E & _). discriminate.
  - assert (Ei : i = n). { destruct (Nat.eq_dec i n) as [E|E]; [exact E|]. destruct (I6 i _ N E) as (? & ? & ? & E1 & _). discriminate. } subst i.
    destruct I5 as (d & rest & E1 & E2 & E3). rewrite N in E1. injection E1 as <-.
    assert (O : owner st 0 (st_ctx st)) by reflexivity. destruct (I3 _ _ O) as [Vs Ns].
    pose proof (append_owned spare (st_heap st) c (st_ctx st) [x] (fun t => exists k, k <> 0 /\ owner st k t) Vs (fun _ => L)) as K.
    destruct (append spare (st_heap st) (st_ctx st) [x]) as [h' s'] eqn:Ea. injection H as <-.
    destruct K as (K1 & K2 & K3 & K4 & K5 & K6); [|exact I2|exact Ns|].
    { intros t (k & Nk & Ok). split; [apply (I3 k t Ok)|]. intros Ea'. exact (I4 0 k (st_ctx st) t O Ok (fun X => Nk (eq_sym X)) Ea'). }
    assert (Q : forall k t, owner (mkState h' s' (set_nth (st_agents st) n (Eng ys))) k t -> (k = 0 /\ t = s') \/ (k <> 0 /\ owner st k t)).
    { intros [|k] t Ot; [left; auto|]. right. split; [discriminate|]. destruct Ot as [todo Ot]. cbn in Ot. rewrite nth_error_set_nth in Ot.
      destruct (Nat.eqb_spec k n) as [->|E]; [rewrite N in Ot; discriminate|]. exists todo. exact Ot. }
    split; cbn [st_heap st_ctx st_agents].
    + rewrite K4. exact I1.
    + exact K5.
    + intros k t Ot. destruct (Q k t Ot) as [[-> ->]|[Nk Ok]]; [split; assumption|]. destruct (K3 t (ex_intro _ k (conj Nk Ok))) as (Z & _ & _). split; [exact Z|apply (I3 k t Ok)].
    + intros j k t u Oj Ok Njk E. destruct (Q j t Oj) as [[-> ->]|[Nj Oj']], (Q k u Ok) as [[-> ->]|[Nk Ok']].
      * contradiction.
      * destruct (K3 u (ex_intro _ k (conj Nk Ok'))) as (_ & _ & Z). exact (Z E).
      * destruct (K3 t (ex_intro _ j (conj Nj Oj'))) as (_ & _ & Z). destruct (Z (eq_sym E)). auto.
      * exact (I4 j k t u Oj' Ok' Njk E).
    + exists (d ++ [x])%list, ys. split; [rewrite nth_error_set_nth, Nat.eqb_refl, N; reflexivity|]. split; [rewrite E2, <- app_assoc; reflexivity|].
      rewrite K2, E3, app_assoc. reflexivity.
    + intros j b Hj Nj. rewrite nth_error_set_nth in Hj. destruct (Nat.eqb_spec j n) as [->|E]; [contradiction|].
      destruct (I6 j b Hj Nj) as (t & d2 & todo2 & -> & F2 & F3). exists t, d2, todo2. split; [reflexivity|]. split; [exact F2|].
      destruct (K3 t (ex_intro _ (S j) (conj (fun X => O_S j (eq_sym X)) (ex_intro _ todo2 Hj)))) as (_ & Z & _). rewrite Z. exact F3.
Qed.
Lemma frun sch : forall st st', finv st -> run spare sch st = Some st' -> finv st'.
Proof.
  induction sch as [|i sch IH]; intros st st' I H; cbn in H; [congruence|].
  destruct (step spare i st) as [st1|] eqn:E; [|discriminate]. eapply IH; [|exact H]. eapply fstep; eassumption.
Qed.
Lemma full_safe sch st : run spare sch (mkState h0 c (repeat (Enc (Some c) R) n ++ [Eng xs])) = Some st -> all_done st ->
  contents (st_heap st) (st_ctx st) = (T ++ xs)%list /\ forall i, i < n -> exported st i (T ++ concat R).
Proof.
  intros H D. assert (I : finv st).
  { eapply frun; [|exact H]. assert (A : forall i a, nth_error (repeat (Enc (Some c) R) n ++ [Eng xs])%list i = Some a -> (i = n /\ a = Eng xs) \/ (i <> n /\ a = Enc (Some c) R)).
    { intros i a Ha. destruct (Nat.ltb_spec i n) as [C|C].
      - right. rewrite nth_error_app1 in Ha by (rewrite repeat_length; exact C). apply nth_error_In, repeat_spec in Ha. split; [lia|exact Ha].
      - rewrite nth_error_app2, repeat_length in Ha by (rewrite repeat_length; exact C). destruct (i - n) as [|k] eqn:E; cbn in Ha; [|destruct k; discriminate].
        injection Ha as <-. left. split; [lia|reflexivity]. }
    assert (O : forall k s, owner (mkState h0 c (repeat (Enc (Some c) R) n ++ [Eng xs])) k s -> s = c).
    { intros [|k] s; [auto|]. intros [todo Ho]. destruct (A _ _ Ho) as [[_ E]|[_ E]]; congruence. }
    split; cbn [st_heap st_ctx st_agents]; auto.
    - intros k s Ho. rewrite (O k s Ho). split; [exact Hc|contradiction].
    - intros j k s t Hj Hk _ _. split; eauto.
    - exists [], xs. split; [rewrite nth_error_app2, repeat_length, Nat.sub_diag by (rewrite repeat_length; lia); reflexivity|]. split; [reflexivity|symmetry; apply app_nil_r].
    - intros i a Ha Ni. destruct (A i a Ha) as [[E _]|[_ ->]]; [contradiction|]. exists c, [], R. split; [reflexivity|]. split; [reflexivity|symmetry; apply app_nil_r]. }
  assert (Len : length (st_agents st) = n + 1).
  { clear - H. assert (G : forall sch st st', run spare sch st = Some st' -> length (st_agents st') = length (st_agents st)).
    { clear. induction sch as [|i sch IH]; intros st st' H; cbn in H; [congruence|]. destruct (step spare i st) as [st1|] eqn:E; [|discriminate].
      rewrite (IH _ _ H). unfold step in E. destruct (nth_error (st_agents st) i) as [[[s|] [|r rs]|[|x ys]]|]; try discriminate E;
        try (injection E as <-; cbn; apply set_nth_length).
      - destruct (append spare (st_heap st) s r). injection E as <-. cbn. apply set_nth_length.
      - destruct (append spare (st_heap st) (st_ctx st) [x]). injection E as <-. cbn. apply set_nth_length. }
    rewrite (G _ _ _ H). cbn. rewrite app_length, repeat_length. reflexivity. }
  split.
  - destruct (f_eng st I) as (d & rest & E1 & E2 & E3). destruct (D _ (nth_error_In _ _ E1)) as [(s & E)|E]; [discriminate|]. injection E as ->.
    rewrite app_nil_r in E2. subst d. exact E3.
  - intros i Hi. destruct (nth_error (st_agents st) i) as [a|] eqn:N; [|apply nth_error_None in N; lia].
    destruct (f_enc st I i a N) as (s & d & todo & -> & E2 & E3); [lia|]. destruct (D _ (nth_error_In _ _ N)) as [(s2 & E)|E]; [|discriminate].
    injection E as <- ->. rewrite app_nil_r in E2. subst d. exists s. split; [exact N|exact E3].
Qed.
End Full.

(** ** The JSON exporter *)
Local Open Scope string_scope.
Lemma app_assoc_s a b c : ((a ++ b) ++ c = a ++ (b ++ c))%string.
Proof. induction a as [|x a IH]; cbn; [reflexivity|]. rewrite IH. reflexivity. Qed.
Lemma app_nil_s a : a ++ "" = a.
Proof. induction a as [|x a IH]; cbn; [reflexivity|]. rewrite IH. reflexivity. Qed.
Lemma counted_app n i l l' : counted n i (l ++ l')%list = counted n i l ++ counted n (i + length l) l'.
Proof.
  revert i. induction l as [|t l IH]; intros i; [cbn [List.app counted length]; rewrite Nat.add_0_r; reflexivity|].
  cbn [List.app counted length]. rewrite IH, !app_assoc_s. replace (S i + length l) with (i + S (length l)) by lia. reflexivity.
Qed.
Lemma counted_all l : forall n i, n = i + length l -> counted n i l = comma_list w_string l.
Proof.
  induction l as [|t l IH]; intros n i H; [reflexivity|]. cbn [counted]. cbn [length] in H. rewrite (IH n (S i)) by lia.
  destruct l as [|t' l]; cbn [length] in H.
  - destruct (Nat.ltb_spec i (n - 1)); [lia|]. change (w_string t ++ "" = w_string t). apply app_nil_s.
  - destruct (Nat.ltb_spec i (n - 1)); [|lia]. reflexivity.
Qed.
Lemma tags_same ctags rtags : tags_text ctags ctags rtags = tags_json ctags rtags.
Proof.
  unfold tags_text, tags_json. rewrite <- app_assoc_s. 
  destruct (ctags ++ rtags)%list as [|t l] eqn:E.
  - apply app_eq_nil in E as [-> ->]. reflexivity.
  - rewrite <- E. assert (L : length rtags + length ctags = length (ctags ++ rtags)%list) by (rewrite app_length; lia).
    destruct (Nat.ltb_spec 0 (length rtags + length ctags)) as [C|C]; [|rewrite L, E in C; cbn in C; lia].
    rewrite <- (counted_all (ctags ++ rtags) (length rtags + length ctags) 0) by lia.
    rewrite counted_app. cbn [Nat.add]. rewrite !app_assoc_s. reflexivity.
Qed.
Lemma tags_grown ctags x : ctags <> [] -> tags_text ctags (ctags ++ [x]) [] = ",""tags"":[" ++ comma_list w_string ctags ++ w_string x ++ "]".
Proof.
  intros N. unfold tags_text. destruct (Nat.ltb_spec 0 (length (@nil string) + length ctags)) as [C|C]; [|destruct ctags; [contradiction|cbn in C; lia]].
  cbn [length Nat.add]. cbn [counted]. rewrite counted_app, (counted_all ctags) by reflexivity. cbn [counted].
  destruct (Nat.ltb_spec (0 + length ctags) (length ctags - 1)) as [D|D]; [lia|]. rewrite !app_assoc_s. reflexivity.
Qed.

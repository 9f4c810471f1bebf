(** * PluginFacts *)
From Coq Require Import Lia.
From Verif Require Import GoBase GoFacts SpecWhite WhiteFacts PluginModel SpecPlugin.

Lemma rbind_ok' {A B} (x : res A) (f : A -> res B) b : rbind x f = Ok b -> exists a, x = Ok a /\ f a = Ok b.
Proof. destruct x; cbn; try discriminate. eauto. Qed.

(** ** Environment *)
Lemma addresses_cut name proc attr : addresses name proc attr <-> exists k1, cut_at "_"%char (to_lower name) = Some (proc, k1) /\ attr = dots k1.
Proof.
  unfold addresses. split.
  - intros (sfx & E & H & ->). exists sfx. split; auto. apply cut_at_spec. rewrite E. cbn. auto.
  - intros (k1 & E & ->). apply cut_at_spec in E as [E H]. exists k1. cbn in *. auto.
Qed.
Lemma entry_split e : has_byte "="%char e = true -> exists name v, e = (name ++ "=" ++ v)%string /\ has_byte "="%char name = false /\ cut_at "="%char e = Some (name, v).
Proof.
  intros H. destruct (cut_at "="%char e) as [[n v]|] eqn:E.
  - apply cut_at_spec in E as E'. destruct E' as [E1 E2]. exists n, v. auto.
  - apply cut_at_none in E. congruence.
Qed.
Lemma entry_unique name v name' v' : (name ++ "=" ++ v)%string = (name' ++ "=" ++ v')%string -> has_byte "="%char name = false -> has_byte "="%char name' = false -> name = name' /\ v = v'.
Proof.
  intros E H H'. assert (A : cut_at "="%char (name ++ "=" ++ v) = Some (name, v)) by (apply cut_at_spec; auto).
  assert (B : cut_at "="%char (name' ++ "=" ++ v') = Some (name', v')) by (apply cut_at_spec; auto). rewrite E, B in A. injection A as <- <-. auto.
Qed.
Lemma env_entry_spec proc e m : has_byte "="%char e = true -> exists m', env_entry proc e m = Ok m' /\
  forall a, mget a m' = match mget a m' with Some w => Some w | None => None end /\
    ((exists name v, e = (name ++ "=" ++ v)%string /\ has_byte "="%char name = false /\ addresses name proc a /\ mget a m' = Some v) \/
     ((forall name v, e = (name ++ "=" ++ v)%string -> has_byte "="%char name = false -> ~ addresses name proc a) /\ mget a m' = mget a m)).
Proof.
  intros H. destruct (entry_split e H) as (name & v & E & Hn & Ec). unfold env_entry. rewrite Ec.
  assert (U : forall a, (forall k1, cut_at "_"%char (to_lower name) = Some (proc, k1) -> a <> dots k1) ->
              forall name' v', e = (name' ++ "=" ++ v')%string -> has_byte "="%char name' = false -> ~ addresses name' proc a).
  { intros a Ha name' v' E' H' Had. rewrite E in E'. apply entry_unique in E' as [<- <-]; auto. apply addresses_cut in Had as (k1 & Hk & ->). eapply Ha; eauto. }
  destruct (cut_at "_"%char (to_lower name)) as [[k0 k1]|] eqn:Ek.
  - destruct (seqb k0 proc) eqn:Es.
    + apply seqb_eq in Es. subst k0. eexists. split; [reflexivity|]. intros a. split; [destruct (mget a _); auto|]. rewrite mget_mset. destruct (seqb a (dots k1)) eqn:Ea.
      * apply seqb_eq in Ea. left. exists name, v. repeat split; auto. apply addresses_cut. eauto.
      * apply seqb_neq in Ea. right. split; auto. apply U. intros k [= ->]. auto.
    + apply seqb_neq in Es. eexists. split; [reflexivity|]. intros a. split; [destruct (mget a _); auto|]. right. split; auto. apply U. intros k [= -> ->]. congruence.
  - eexists. split; [reflexivity|]. intros a. split; [destruct (mget a _); auto|]. right. split; auto. apply U. discriminate.
Qed.
Lemma get_env_spec proc env : env_ok env -> forall m, exists m', get_env proc env m = Ok m' /\
  forall a, (exists v, env_sets env proc a v /\ mget a m' = Some v) \/ ((forall v, ~ env_sets env proc a v) /\ mget a m' = mget a m).
Proof.
  induction env as [|e env IH]; intros Hok m; cbn.
  - exists m. split; auto. intros a. right. split; auto. intros v (e1 & n & e2 & E & _). destruct e1; discriminate.
  - destruct (env_entry_spec proc e m) as (m1 & E1 & S1); [apply Hok; cbn; auto|].
    destruct (IH (fun e' H => Hok e' (or_intror H)) m1) as (m' & E2 & S2). exists m'. rewrite E1. cbn. split; auto. intros a.
    destruct (S2 a) as [(v & Hv & Hg)|(Hn & Hg)].
    + left. exists v. split; auto. destruct Hv as (e1 & n & e2 & -> & Hx). exists (e :: e1), n, e2. split; auto.
    + destruct (S1 a) as (_ & [(name & v & -> & Hnm & Had & Hg1)|(Hno & Hg1)]).
      * left. exists v. split; [|congruence]. exists [], name, env. split; auto. split; auto. split; auto.
        intros e' name' v' He' -> Hn' Had'. 
        (* an entry later in env addresses a: then env_sets holds for the last such entry *)
        assert (X : forall l, env_ok l -> (exists e' name' v', In e' l /\ e' = (name' ++ "=" ++ v')%string /\ has_byte "="%char name' = false /\ addresses name' proc a) -> exists v, env_sets l proc a v).
        { clear. induction l as [|e l IHl]; intros Hok (e' & n' & v' & Hin & E & Hn & Ha); [destruct Hin|].
          assert (D : (exists e' name' v', In e' l /\ e' = (name' ++ "=" ++ v')%string /\ has_byte "="%char name' = false /\ addresses name' proc a) \/
                      (forall e' name' v', In e' l -> e' = (name' ++ "=" ++ v')%string -> has_byte "="%char name' = false -> ~ addresses name' proc a)).
          { assert (Hok' : env_ok l) by (intros x Hx; apply Hok; cbn; auto). clear -Hok'. induction l as [|x l IH]; [right; intros ? ? ? []|].
            destruct (env_entry_spec proc x []) as (mx & _ & Sx); [apply Hok'; cbn; auto|].
            destruct (IH (fun e' H => Hok' e' (or_intror H))) as [(e' & n' & v' & Hin & R)|Hno].
            - left. exists e', n', v'. cbn. auto.
            - destruct (Sx a) as (_ & [(n & v & E & Hn & Ha & _)|(Hx & _)]).
              + left. exists x, n, v. cbn. auto.
              + right. intros e' n' v' [<-|Hin] E Hn; eauto. }
          destruct D as [D|D].
          - destruct (IHl (fun x H => Hok x (or_intror H)) D) as (v & e1 & n & e2 & -> & R). exists v, (e :: e1), n, e2. auto.
          - destruct Hin as [<-|Hin]; [|destruct (D _ _ _ Hin E Hn Ha)]. exists v', [], n', l. subst e. auto. }
        destruct (X env) as (w & Hw).
        { intros x Hx. apply Hok. cbn. auto. }
        { exists (name' ++ "=" ++ v')%string, name', v'. auto. }
        destruct (Hn w Hw).
      * right. split; [|congruence]. intros v (e1 & n & e2 & E & Hnn & Had & Hlast). destruct e1 as [|x e1]; cbn in E; injection E as -> ->.
        -- destruct (Hno n v eq_refl Hnn Had).
        -- apply (Hn v). exists e1, n, e2. auto.
Qed.
Lemma mget_override c m a : mget a (override c m) = match mget a m with Some v => Some (VStr v) | None => mget a c end.
Proof.
  induction m as [|[k v] m IH]; [reflexivity|]. cbn. destruct (seqb a k); auto.
Qed.
Lemma update_stage_spec env c : env_ok env -> exists c', update_stage env c = Ok c' /\
  forall a,
    match mget ProcConfig c with
    | Some (VStr proc) => (exists v, env_sets env proc a v /\ mget a c' = Some (VStr v)) \/ ((forall v, ~ env_sets env proc a v) /\ mget a c' = mget a c)
    | _ => mget a c' = mget a c
    end.
Proof.
  intros Hok. unfold update_stage. destruct (mget ProcConfig c) as [[proc| |]|]; eauto.
  destruct (get_env_spec proc env Hok []) as (m & -> & S). cbn. eexists. split; [reflexivity|]. intros a. rewrite mget_override.
  destruct (S a) as [(v & Hv & ->)|(Hn & ->)]; cbn; eauto.
Qed.
Lemma env_overrides env p : env_ok env -> exists p', update_config env p = Ok p' /\ length p' = length p /\
  forall i c, nth_error p i = Some c -> exists c', nth_error p' i = Some c' /\
  forall a,
    match mget ProcConfig c with
    | Some (VStr proc) => (exists v, env_sets env proc a v /\ mget a c' = Some (VStr v)) \/ ((forall v, ~ env_sets env proc a v) /\ mget a c' = mget a c)
    | _ => mget a c' = mget a c
    end.
Proof.
  intros Hok. induction p as [|c p (p' & E & L & IH)]; cbn.
  - exists []. split; auto. split; auto. intros [|i]; discriminate.
  - destruct (update_stage_spec env c Hok) as (c' & Ec & Sc). rewrite Ec, E. cbn. exists (c' :: p'). split; auto. split; [cbn; auto|].
    intros [|i] c0; cbn; [intros [= <-]; eauto|apply IH].
Qed.
Lemma env_panic env e p proc c : In e env -> has_byte "="%char e = false -> mget ProcConfig c = Some (VStr proc) -> In c p ->
  (exists k1, cut_at "_"%char (to_lower e) = Some (proc, k1)) -> update_config env p = Panic.
Proof.
  intros He Hn Hp Hc (k1 & Hk). 
  assert (T : forall pr x m, env_entry pr x m = Panic \/ exists m', env_entry pr x m = Ok m').
  { intros pr x m. unfold env_entry. destruct (cut_at "=" x) as [[n v]|]; cbn [fst snd]; repeat match goal with |- context [match ?x with _ => _ end] => destruct x end; eauto. }
  assert (TG : forall pr l m, get_env pr l m = Panic \/ exists m', get_env pr l m = Ok m').
  { intros pr l. induction l as [|x l IH]; intros m; cbn; eauto. destruct (T pr x m) as [->|(m' & ->)]; cbn; auto. }
  assert (G : forall m, get_env proc env m = Panic).
  { clear Hc. induction env as [|x env IH]; intros m; [destruct He|]. cbn. destruct He as [<-|He].
    - unfold env_entry. apply cut_at_none in Hn. rewrite Hn, Hk, seqb_refl. reflexivity.
    - destruct (T proc x m) as [->|(m' & ->)]; cbn; auto. }
  induction p as [|c0 p IH]; [destruct Hc|]. cbn.
  assert (TU : update_stage env c0 = Panic \/ exists c', update_stage env c0 = Ok c').
  { unfold update_stage. destruct (mget ProcConfig c0) as [[pr| |]|]; eauto. destruct (TG pr env []) as [->|(m' & ->)]; cbn; eauto. }
  destruct Hc as [<-|Hc].
  - unfold update_stage. rewrite Hp, G. reflexivity.
  - destruct TU as [->|(c' & ->)]; cbn; auto. rewrite IH; auto.
Qed.

(** ** Words *)
Lemma fields_eq s cur : fields_aux s cur =
  match skip_space s with
  | Some r => if seqb cur "" then fields r else cur :: fields r
  | None => match s with EmptyString => if seqb cur "" then [] else [cur] | String a s' => fields_aux s' (cur ++ String a "") end
  end.
Proof.
  unfold fields. destruct s as [|a [|b [|c s]]]; cbn [fields_aux skip_space]; [reflexivity| | |];
    repeat match goal with |- context [if ?x then _ else _] => match x with seqb _ _ => fail 1 | _ => destruct x; try reflexivity end end.
Qed.
Definition char_start (s : string) : Prop := forall a s', s = String a s' -> cont a = false.
Lemma blank_start s : (s = "" \/ exists b s', s = (b ++ s')%string /\ white b) -> char_start s.
Proof.
  intros [-> |(b & s' & -> & W)] a t E; [discriminate|]. destruct (white_bytes b W) as (x & w & -> & C & _). cbn in E. injection E as -> _. exact C.
Qed.
Lemma word_skip w : word w -> skip_space w = None.
Proof. intros [_ H]. apply skip_none. intros x u E. exact (H "" x u E). Qed.
Lemma word_tail a w : word (String a w) -> w = "" \/ word w.
Proof.
  intros [_ H]. destruct w as [|b w]; [now left|right]. split; [discriminate|]. intros u x v E. apply (H (String a u) x v). cbn. now rewrite E.
Qed.
Lemma fields_word w : word w -> forall s cur, char_start s -> fields_aux (w ++ s) cur = fields_aux s (cur ++ w).
Proof.
  induction w as [|a w IH]; intros H s cur Hs; [destruct H; congruence|].
  rewrite fields_eq, skip_app; [|discriminate|now apply word_skip|exact Hs]. cbn [String.append].
  apply word_tail in H as [-> |H]; [reflexivity|]. rewrite (IH H) by exact Hs. now rewrite sapp_assoc.
Qed.
Lemma fields_blank w s : w <> "" -> (s = "" \/ exists b s', s = (b ++ s')%string /\ white b) -> fields_aux s w = w :: fields s.
Proof.
  intros Hw H. assert (E : seqb w "" = false) by (apply seqb_neq; auto). destruct H as [-> |(b & s' & -> & Hb)].
  - unfold fields; cbn [fields_aux]. now rewrite E.
  - unfold fields at 1. rewrite !fields_eq, (skip_white _ _ Hb), E, seqb_refl. reflexivity.
Qed.
Lemma Words_fields s l : Words s l -> fields s = l.
Proof.
  induction 1 as [|b s l Hb _ IH|w s l Hw Hs _ IH]; [reflexivity| |].
  - unfold fields. rewrite fields_eq, (skip_white _ _ Hb), seqb_refl. exact IH.
  - unfold fields. rewrite (fields_word _ Hw) by now apply blank_start. cbn [String.append]. rewrite fields_blank; auto; [now rewrite IH|apply Hw].
Qed.
(** No white space begins in what has been read of the present word. *)
Definition inword (cur s : string) : Prop := forall u z, cur = (u ++ z)%string -> z <> "" -> skip_space (z ++ s) = None.
Lemma inword_word cur s : cur <> "" -> inword cur s -> word cur.
Proof.
  intros Hc H. split; [exact Hc|]. intros u x v E W. assert (Hx : (x ++ v)%string <> "").
  { destruct (white_bytes x W) as (a & w & -> & _). discriminate. }
  specialize (H u (x ++ v)%string E Hx). rewrite sapp_assoc, (skip_white _ _ W) in H. discriminate.
Qed.
Lemma slast_cases z : z <> "" -> exists z1 b, z = (z1 ++ String b "")%string.
Proof.
  induction z as [|a z IH]; [congruence|]. intros _. destruct z as [|b z]; [exists "", a; reflexivity|].
  destruct IH as (z1 & c & E); [discriminate|]. exists (String a z1), c. rewrite E. reflexivity.
Qed.
Lemma inword_snoc cur a s : inword cur (String a s) -> skip_space (String a s) = None -> inword (cur ++ String a "") s.
Proof.
  intros H N u z E Hz. destruct (slast_cases z Hz) as (z1 & b & ->).
  assert (K : cur = (u ++ z1)%string /\ a = b).
  { rewrite <- sapp_assoc in E. apply (f_equal srev) in E. rewrite !srev_snoc in E. injection E as -> E. split; [|reflexivity].
    rewrite <- (srev_invol cur), E. apply srev_invol. }
  destruct K as [-> ->]. rewrite sapp_assoc. cbn [String.append]. destruct z1 as [|c z1]; [exact N|]. apply (H u (String c z1)); [reflexivity|discriminate].
Qed.
Lemma fields_Words n : forall s cur, slen s <= n -> inword cur s -> Words (cur ++ s) (fields_aux s cur).
Proof.
  induction n as [|n IH]; intros s cur Hn Hc.
  - destruct s; [|unfold slen in Hn; cbn in Hn; lia]. cbn [fields_aux]. rewrite sapp_nil_r.
    destruct (seqb cur "") eqn:E; [apply seqb_eq in E; subst; constructor|]. apply seqb_neq in E.
    rewrite <- (sapp_nil_r cur) at 1. apply W_word; [now apply (inword_word _ _ E Hc)|now left|constructor].
  - rewrite fields_eq. destruct (skip_space s) as [r|] eqn:Es.
    + apply white_skip in Es as (w & W & ->). assert (Lr : slen r <= n).
      { destruct (white_bytes w W) as (x & w' & -> & _). rewrite slen_app in Hn. unfold slen in *. cbn in Hn. lia. }
      assert (Wr : Words (w ++ r) (fields r)).
      { apply W_blank; [exact W|]. apply (IH r "" Lr). intros u z E Hz. destruct u; [|discriminate]. cbn in E. congruence. }
      destruct (seqb cur "") eqn:E.
      * apply seqb_eq in E. subst. exact Wr.
      * apply seqb_neq in E. apply W_word; [now apply (inword_word _ _ E Hc)|right; eauto|exact Wr].
    + destruct s as [|a s].
      * rewrite sapp_nil_r. destruct (seqb cur "") eqn:E; [apply seqb_eq in E; subst; constructor|]. apply seqb_neq in E.
        rewrite <- (sapp_nil_r cur) at 1. apply W_word; [now apply (inword_word _ _ E Hc)|now left|constructor].
      * replace (cur ++ String a s)%string with ((cur ++ String a "") ++ s)%string by (rewrite sapp_assoc; reflexivity).
        apply IH; [unfold slen in *; cbn in Hn; lia|]. now apply inword_snoc.
Qed.
Lemma Words_iff s l : Words s l <-> fields s = l.
Proof. split; [apply Words_fields|]. intros <-. apply (fields_Words (slen s) s ""); [lia|]. intros u z E Hz. destruct u; [|discriminate]. cbn in E. congruence. Qed.
Lemma asks_fields r i t : asks r i t <-> fields r = [i; t].
Proof. apply Words_iff. Qed.
Lemma Words_total s : exists l, Words s l.
Proof. exists (fields s). now apply Words_iff. Qed.

(** ** Channels *)
Definition cinv (s : cache) : Prop :=
  (forall id c, mget id (ca_map s) = Some c -> ch_id c < ca_next s) /\
  (forall id id' c c', mget id (ca_map s) = Some c -> mget id' (ca_map s) = Some c' -> ch_id c = ch_id c' -> id = id').
Definition extends (s s' : cache) : Prop := forall id c, mget id (ca_map s) = Some c -> mget id (ca_map s') = Some c.
Lemma cinv_empty : cinv empty_cache.
Proof. split; cbn; discriminate. Qed.
Lemma get_chan_inv types s ch s' o : cinv s -> get_chan types s ch = Ok (s', o) ->
  cinv s' /\ extends s s' /\ forall c, o = Some c -> exists id ty, asks ch id ty /\ mget id (ca_map s') = Some c /\
    match mget id (ca_map s) with Some c0 => c = c0 | None => ch_type c = ty /\ In ty types end.
Proof.
  intros I. unfold get_chan. destruct (fields ch) as [|f0 [|f1 [|f2 fs]]] eqn:Ef; try discriminate.
  - destruct (mget f0 (ca_map s)) as [c0|] eqn:E0.
    + intros [= <- <-]. split; auto. split; [intros id c; auto|]. intros c [= <-]. exists f0, f1. rewrite E0, asks_fields. auto.
    + destruct (existsb (seqb f1) types) eqn:Et.
      * intros [= <- <-]. destruct I as [I1 I2]. split; [split|split].
        -- cbn [ca_map ca_next]. intros id c. rewrite mget_mset. destruct (seqb id f0); [intros [= <-]; cbn; lia|]. intros H. apply I1 in H. lia.
        -- cbn [ca_map ca_next]. intros id id' c c'. rewrite !mget_mset. destruct (seqb id f0) eqn:E1; destruct (seqb id' f0) eqn:E2.
           ++ apply seqb_eq in E1. apply seqb_eq in E2. congruence.
           ++ intros [= <-] H H'. cbn in H'. apply I1 in H. lia.
           ++ intros H [= <-] H'. cbn in H'. apply I1 in H. lia.
           ++ apply I2.
        -- intros id c H. cbn [ca_map]. rewrite mget_mset. destruct (seqb id f0) eqn:E1; auto. apply seqb_eq in E1. congruence.
        -- intros c [= <-]. exists f0, f1. cbn [ca_map]. rewrite mget_mset, seqb_refl, E0, asks_fields. repeat split; auto.
           apply existsb_exists in Et as (x & Hx & Hs). apply seqb_eq in Hs. now subst.
      * intros [= <- <-]. split; auto. split; [intros id c; auto|discriminate].
  - intros [= <- <-]. split; auto. split; [intros id c; auto|discriminate].
Qed.
Lemma extends_trans a b c : extends a b -> extends b c -> extends a c.
Proof. unfold extends. eauto. Qed.
Lemma get_chans_inv types reqs : forall s s' os, cinv s -> get_chans types s reqs = Ok (s', os) ->
  cinv s' /\ extends s s' /\ forall i r c, nth_error reqs i = Some r -> nth_error os i = Some (Some c) -> exists id ty, asks r id ty /\ mget id (ca_map s') = Some c.
Proof.
  induction reqs as [|r reqs IH]; intros s s' os I; cbn.
  - intros [= <- <-]. split; auto. split; [intros id c; auto|]. intros [|i]; discriminate.
  - intros H. apply rbind_ok' in H as ([s1 o] & E1 & H). apply rbind_ok' in H as ([s2 os'] & E2 & H). injection H as <- <-.
    destruct (get_chan_inv _ _ _ _ _ I E1) as (I1 & X1 & S1). destruct (IH _ _ _ I1 E2) as (I2 & X2 & S2).
    split; auto. split; [eapply extends_trans; eauto|]. intros [|i] r' c; cbn.
    + intros [= <-] [= ->]. destruct (S1 c eq_refl) as (id & ty & A & B & _). exists id, ty. auto.
    + apply S2.
Qed.
Lemma chans_consistent types reqs s os : get_chans types empty_cache reqs = Ok (s, os) ->
  forall i j r r' id ty id' ty' c c', nth_error reqs i = Some r -> nth_error reqs j = Some r' -> asks r id ty -> asks r' id' ty' ->
  nth_error os i = Some (Some c) -> nth_error os j = Some (Some c') -> (c = c' <-> id = id').
Proof.
  intros H i j r r' id ty id' ty' c c' Hi Hj A A' Oi Oj. destruct (get_chans_inv _ _ _ _ _ cinv_empty H) as ((I1 & I2) & _ & S).
  destruct (S i r c Hi Oi) as (a & t & Aa & Ma). destruct (S j r' c' Hj Oj) as (b & t' & Ab & Mb). rewrite asks_fields in A, A', Aa, Ab.
  rewrite A in Aa. injection Aa as <- <-. rewrite A' in Ab. injection Ab as <- <-. split; [intros ->|intros ->; congruence]. eapply I2; eauto.
Qed.
Lemma chans_kept types a b s1 o1 s2 o2 : get_chans types empty_cache a = Ok (s1, o1) -> get_chans types s1 b = Ok (s2, o2) ->
  forall id c, mget id (ca_map s1) = Some c -> mget id (ca_map s2) = Some c.
Proof.
  intros H1 H2. destruct (get_chans_inv _ _ _ _ _ cinv_empty H1) as (I1 & _). destruct (get_chans_inv _ _ _ _ _ I1 H2) as (_ & X & _). exact X.
Qed.
Lemma chans_type_ignored types ra rb id ta tb : asks ra id ta -> asks rb id tb -> In ta types ->
  exists s c, get_chans types empty_cache [ra; rb] = Ok (s, [Some c; Some c]) /\ ch_type c = ta.
Proof.
  intros A B H. apply asks_fields in A. apply asks_fields in B. cbn. unfold get_chan. rewrite A. cbn.
  assert (E : existsb (seqb ta) types = true) by (apply existsb_exists; exists ta; split; auto; apply seqb_refl). rewrite E. cbn.
  rewrite B. cbn. rewrite seqb_refl. eexists _, _. split; reflexivity.
Qed.
Lemma chans_panic types s r l : Words r l -> (get_chan types s r = Panic <-> length l < 2) /\ (2 < length l -> get_chan types s r = Ok (s, None)).
Proof.
  intros H. apply Words_iff in H. unfold get_chan. rewrite H. destruct l as [|a [|b [|c l]]]; cbn [length]; split; try split; auto; try lia; try discriminate.
  destruct (mget a (ca_map s)); [discriminate|]. destruct (existsb (seqb b) types); discriminate.
Qed.

(** ** Loading *)
Lemma chan_list_inv types l : forall s s' o, cinv s -> chan_list types s l = Ok (s', o) -> cinv s' /\ extends s s' /\
  forall cs, o = Some cs -> Forall2 (fun r c => exists req id ty, r = VStr req /\ asks req id ty /\ mget id (ca_map s') = Some c) l cs.
Proof.
  induction l as [|v l IH]; intros s s' o I; cbn.
  - intros [= <- <-]. split; auto. split; [intros id c; auto|]. intros cs [= <-]. constructor.
  - destruct v as [n| |]; try discriminate. intros H. apply rbind_ok' in H as ([s1 o1] & E1 & H).
    destruct (get_chan_inv _ _ _ _ _ I E1) as (I1 & X1 & S1). destruct o1 as [c|].
    + apply rbind_ok' in H as ([s2 o2] & E2 & H). injection H as <- <-. destruct (IH _ _ _ I1 E2) as (I2 & X2 & S2).
      split; auto. split; [eapply extends_trans; eauto|]. intros cs. destruct o2 as [cs2|]; [|discriminate]. intros [= <-]. constructor; auto.
      destruct (S1 c eq_refl) as (id & ty & A & B & _). exists n, id, ty. auto.
    + injection H as <- <-. split; auto. split; auto. discriminate.
Qed.
Lemma tag_chans_inv types v s s' o : cinv s -> tag_chans types s v = Ok (s', o) -> cinv s' /\ extends s s' /\
  forall cs, o = Some cs -> named (ca_map s') v cs.
Proof.
  intros I H. destruct v as [n|l|].
  - exact (chan_list_inv types [VStr n] s s' o I H).
  - exact (chan_list_inv types l s s' o I H).
  - cbn in H. injection H as <- <-. split; auto. split; [intros id c; auto|]. intros cs [= <-]. constructor.
Qed.
Lemma named_ext m m' v cs : (forall id c, mget id m = Some c -> mget id m' = Some c) -> named m v cs -> named m' v cs.
Proof. intros H. unfold named. induction 1; constructor; auto. destruct H0 as (r & id & ty & A & B & C). exists r, id, ty. auto. Qed.
Section L.
Variable types : list string.
Variable procs : string -> bool.
Variable init_ok : string -> conf -> bool.
Notation load := (load types procs init_ok).
Notation stage_of := (stage_of procs init_ok).
Lemma load_inv p : forall s s' sgs err, cinv s -> load s p = Ok (s', sgs, err) ->
  cinv s' /\ extends s s' /\ exists k, length sgs = k /\ Forall2 (stage_of (ca_map s')) (firstn k p) sgs /\
  (err = false -> k = length p \/ exists c, nth_error p k = Some c /\ forall n, mget ProcConfig c <> Some (VStr n)).
Proof.
  induction p as [|c p IH]; intros s s' sgs err I; cbn.
  - intros [= <- <- <-]. split; auto. split; [intros id x; auto|]. exists 0. split; auto. split; [constructor|auto].
  - assert (STOP : forall s0 e, cinv s0 -> extends s s0 -> (e = false -> forall n, mget ProcConfig c <> Some (VStr n)) -> Ok (s0, [], e) = Ok (s', sgs, err) ->
       cinv s' /\ extends s s' /\ exists k, length sgs = k /\ Forall2 (stage_of (ca_map s')) (firstn k (c :: p)) sgs /\
       (err = false -> k = S (length p) \/ exists c0, nth_error (c :: p) k = Some c0 /\ forall n, mget ProcConfig c0 <> Some (VStr n))).
    { intros s0 e Is Xs He [= <- <- <-]. split; auto. split; auto. exists 0. split; auto. split; [constructor|]. intros ->. right. exists c. split; auto. }
    destruct (mget ProcConfig c) as [[name| |]|] eqn:Ep.
    2-4: apply STOP; auto; [intros id x; auto|]; intros; discriminate.
    destruct (procs name) eqn:E1; [|apply STOP; auto; [intros id x; auto|discriminate]].
    destruct (init_ok name c) eqn:E2; [|apply STOP; auto; [intros id x; auto|discriminate]].
    destruct (mget InChanConfig c) as [v|] eqn:Ev; [|apply STOP; auto; [intros id x; auto|discriminate]].
    intros H. apply rbind_ok' in H as ([s1 oi] & Ei & H). destruct (tag_chans_inv _ _ _ _ _ I Ei) as (I1 & X1 & N1).
    destruct oi as [ins|]; [|revert H; apply STOP; auto; discriminate].
    apply rbind_ok' in H as ([s2 oo] & Eo & H).
    assert (O2 : cinv s2 /\ extends s1 s2 /\ forall cs, oo = Some cs -> match mget OutChanConfig c with Some w => named (ca_map s2) w cs | None => cs = [] end).
    { destruct (mget OutChanConfig c) as [w|].
      - destruct (tag_chans_inv _ _ _ _ _ I1 Eo) as (A & B & C). auto.
      - injection Eo as <- <-. split; auto. split; [intros id x; auto|]. now intros cs [= <-]. }
    destruct O2 as (I2 & X2 & N2). destruct oo as [outs|]; [|revert H; apply STOP; auto; [eapply extends_trans; eauto|discriminate]].
    apply rbind_ok' in H as ([[s3 sgs'] err'] & El & H). injection H as <- <- <-.
    destruct (IH _ _ _ _ I2 El) as (I3 & X3 & k & Hk & F & Herr). split; auto. split; [eapply extends_trans; [|eapply extends_trans]; eauto|].
    exists (S k). split; [cbn; auto|]. split.
    + cbn. constructor; auto. split; [auto|]. cbn [sg_proc sg_in sg_out]. split; auto. split; auto. split.
      * exists v. split; auto. eapply named_ext; [|apply N1; auto]. intros id x Hx. apply X3, X2, Hx.
      * specialize (N2 outs eq_refl). change "out" with OutChanConfig. destruct (mget OutChanConfig c); auto. eapply named_ext; [|exact N2]. intros id x Hx. apply X3, Hx.
    + intros He. destruct (Herr He) as [->|(c0 & Hn & Hc)]; [auto|]. right. exists c0. auto.
Qed.
Lemma load_ok p s sgs : load empty_cache p = Ok (s, sgs, false) -> (forall c, In c p -> exists n, mget ProcConfig c = Some (VStr n)) ->
  length sgs = length p /\ Forall2 (stage_of (ca_map s)) p sgs /\
  (forall id id' ch, mget id (ca_map s) = Some ch -> mget id' (ca_map s) = Some ch -> id = id').
Proof.
  intros H Ht. destruct (load_inv _ _ _ _ _ cinv_empty H) as ((I1 & I2) & _ & k & Hk & F & He).
  assert (k = length p).
  { destruct (He eq_refl) as [->|(c & Hc & Hn)]; auto. apply nth_error_In in Hc. destruct (Ht _ Hc) as (n & Hp). destruct (Hn n Hp). }
  subst k. rewrite H0, firstn_all in F. split; [auto|]. split; auto. intros id id' ch A B. eapply I2; eauto.
Qed.
(** A stage without processor tag silently ends the pipeline. *)
Lemma load_truncated c p s : (forall n, mget ProcConfig c <> Some (VStr n)) -> load s (c :: p) = Ok (s, [], false).
Proof. intros H. cbn. destruct (mget ProcConfig c) as [[n| |]|]; auto. destruct (H n eq_refl). Qed.
End L.

(** ** Requests that are not texts *)
Lemma chan_list_bad types x l2 : (forall n, x <> VStr n) -> forall l1 s s1 cs, chan_list types s l1 = Ok (s1, Some cs) ->
  chan_list types s (l1 ++ x :: l2) = Panic.
Proof.
  intros N. induction l1 as [|v l1 IH]; intros s s1 cs; cbn [chan_list List.app].
  - intros _. destruct x as [n|l|]; [now destruct (N n)|reflexivity|reflexivity].
  - destruct v as [n| |]; try discriminate. destruct (get_chan types s n) as [[s2 [c|]]| | |]; try discriminate. cbn [rbind].
    destruct (chan_list types s2 l1) as [[s3 [cs'|]]| | |] eqn:E; try discriminate. intros _. rewrite (IH _ _ _ E). reflexivity.
Qed.

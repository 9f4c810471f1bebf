(** * DriverFacts: proofs about the data sources. *)
From Coq Require Import Lia.
From Verif Require Import GoBase GoFacts PluginModel DriverModel NetModel SpecNet NetFacts NetFacts2 NetFacts3 SpecDriver.

Section F.
Context {R : Type}.
Implicit Types (a : list (act R)) (rs : list R) (open : string -> file_res R) (rss : list (list R)).
Lemma sends_map rs : sends (map ASend rs) = rs.
Proof. unfold sends. induction rs; cbn; congruence. Qed.
Lemma sends_app a b : sends (a ++ b) = sends a ++ sends b.
Proof. unfold sends. apply flat_map_app. Qed.

(** ** file driver *)
Lemma scan_all l rs : records_of l rs -> forall flag n, (forall k, flag k = true) -> fst (scan_file flag n l) = rs.
Proof.
  induction 1; intros flag n T; cbn; [reflexivity | rewrite T; reflexivity |].
  rewrite T. specialize (IHrecords_of flag (S n) T). destruct (scan_file flag (S n) l); cbn in *. congruence.
Qed.
Lemma records_of_exists (l : list (option R)) : exists rs, records_of l rs.
Proof. induction l as [|[r|] l [rs H]]; eexists; econstructor; eauto. Qed.
Lemma read_all open flag : (forall k, flag k = true) -> forall fs rss, Forall2 (file_records open) fs rss ->
  forall n, read_files flag open n fs = (concat rss, false).
Proof.
  intros T fs rss F. induction F as [|f rs fs rss [l [O H]] F IH]; intros n; cbn; [reflexivity|].
  rewrite O. pose proof (scan_all l rs H flag n T) as E. destruct (scan_file flag n l) as [x n1]. cbn in E. subst x.
  rewrite T, IH. reflexivity.
Qed.
Lemma read_fail open flag : (forall k, flag k = true) -> forall fs rss f fs', Forall2 (file_records open) fs rss ->
  open f = FOpenErr \/ open f = FReaderErr ->
  forall n, read_files flag open n (fs ++ f :: fs') = (concat rss, true).
Proof.
  intros T fs rss f fs' F B. induction F as [|f0 rs fs rss [l [O H]] F IH]; intros n; cbn.
  - destruct B as [-> | ->]; reflexivity.
  - rewrite O. pose proof (scan_all l rs H flag n T) as E. destruct (scan_file flag n l) as [x n1]. cbn in E. subst x.
    rewrite T, IH. reflexivity.
Qed.
Lemma run_all stat open flag path fs rss : (forall k, flag k = true) -> get_files stat path = Ok (Some fs) ->
  Forall2 (file_records open) fs rss -> run_path flag stat open path = (map ASend (concat rss) ++ [AClose; AWait], ORet).
Proof. intros T G F. unfold run_path. rewrite G, (read_all open flag T fs rss F 0). reflexivity. Qed.
Lemma run_fail stat open flag path fs rss f fs' : (forall k, flag k = true) -> get_files stat path = Ok (Some (fs ++ f :: fs')) ->
  Forall2 (file_records open) fs rss -> open f = FOpenErr \/ open f = FReaderErr ->
  run_path flag stat open path = (map ASend (concat rss), OErr).
Proof. intros T G F B. unfold run_path. rewrite G, (read_fail open flag T fs rss f fs' F B 0). reflexivity. Qed.

(** With a flag that may go down. *)
Lemma scan_stop flag : monotone flag -> forall (l : list (option R)) n rs rs1 n1, records_of l rs -> scan_file flag n l = (rs1, n1) ->
  n <= n1 /\ prefix rs1 rs /\ (rs1 = rs \/ flag n1 = false) /\ length rs1 <= n1 - n /\
  (forall k, flag k = false -> n + length rs1 <= k \/ rs1 = []).
Proof.
  intros M l n rs rs1 n1 RO. revert n rs1 n1. induction RO as [|l|r l rs RO IH]; intros n rs1 n1 E; cbn in E.
  - injection E as <- <-. repeat split; auto; first [exists []; reflexivity | cbn; lia].
  - assert (rs1 = [] /\ n1 = S n) as [-> ->] by (destruct (flag n); injection E as <- <-; auto).
    repeat split; auto; first [exists []; reflexivity | cbn; lia].
  - destruct (flag n) eqn:Fn.
    + destruct (scan_file flag (S n) l) as [x n'] eqn:E2. injection E as <- <-.
      destruct (IH _ _ _ E2) as (A & [z B] & C & D & K). repeat split.
      * lia.
      * exists z. cbn. congruence.
      * destruct C as [-> | C]; auto.
      * cbn. lia.
      * intros k Fk. left. destruct (K k Fk) as [?|?]; [cbn; lia|]. subst x. cbn.
        destruct (le_lt_dec (n + 1) k); [lia|]. assert (k <= n) by lia. rewrite (M k n H Fk) in Fn. discriminate.
    + injection E as <- <-. repeat split; auto; first [exists (r :: rs); reflexivity | right; eapply M; [|exact Fn]; lia | cbn; lia].
Qed.
Lemma read_stop flag open : monotone flag -> forall fs n rs e, read_files flag open n fs = (rs, e) ->
  prefix rs (fst (read_files (fun _ => true) open 0 fs)) /\
  (e = true -> rs = fst (read_files (fun _ => true) open 0 fs) /\ snd (read_files (fun _ => true) open 0 fs) = true) /\
  (forall k, flag k = false -> n + length rs <= k \/ rs = []).
Proof.
  intros M. 
  assert (T0 : forall fs n n', read_files (fun _ => true) open n fs = read_files (fun _ => true) open n' fs).
  { intros fs. induction fs as [|f fs IH]; intros n n'; cbn; [reflexivity|]. destruct (open f) as [| |l]; auto.
    destruct (records_of_exists l) as [rs RO].
    pose proof (scan_all l rs RO (fun _ => true) n (fun _ => eq_refl)) as E1.
    pose proof (scan_all l rs RO (fun _ => true) n' (fun _ => eq_refl)) as E2.
    destruct (scan_file (fun _ => true) n l) as [x m], (scan_file (fun _ => true) n' l) as [x' m']. cbn in E1, E2. subst x x'.
    rewrite (IH (S m) (S m')). reflexivity. }
  intros fs. induction fs as [|f fs IH]; intros n rs e E; cbn in E.
  - injection E as <- <-. repeat split; try discriminate; auto. exists []. reflexivity.
  - cbn [read_files]. destruct (open f) as [| |l] eqn:O.
    + injection E as <- <-. repeat split; auto. exists []. reflexivity.
    + injection E as <- <-. repeat split; auto. exists []. reflexivity.
    + destruct (records_of_exists l) as [rs0 RO].
      pose proof (scan_all l rs0 RO (fun _ => true) 0 (fun _ => eq_refl)) as E1.
      destruct (scan_file (fun _ => true) 0 l) as [x m]. cbn in E1. subst x. rewrite (T0 fs (S m) 0).
      destruct (scan_file flag n l) as [rs1 n1] eqn:SC. destruct (scan_stop flag M l n rs0 rs1 n1 RO SC) as (A & [z B] & C & D & K).
      destruct (flag n1) eqn:Fn.
      * destruct C as [-> | C]; [|congruence]. destruct (read_files flag open (S n1) fs) as [rs2 e2] eqn:RF. injection E as <- <-.
        destruct (IH _ _ _ RF) as ([z2 P] & Q & K2). destruct (read_files (fun _ => true) open 0 fs) as [full ef]. cbn in *.
        repeat split.
        -- exists z2. rewrite P. rewrite <- app_assoc. reflexivity.
        -- destruct (Q H) as [-> ->]. reflexivity.
        -- apply Q. exact H.
        -- intros k Fk. rewrite app_length. destruct (le_lt_dec (n + (length rs0 + length rs2)) k) as [?|LT]; [auto|].
           destruct (K2 k Fk) as [?| -> ].
           ++ lia.
           ++ cbn in LT. destruct (K k Fk) as [?| -> ]; [lia|]. right. reflexivity.
      * injection E as <- <-. destruct (read_files (fun _ => true) open 0 fs) as [full ef]. cbn. repeat split; try discriminate; auto.
        exists (z ++ full). rewrite B. rewrite <- app_assoc. reflexivity.
Qed.
Lemma run_stop flag stat open path a o : monotone flag -> run_path flag stat open path = (a, o) ->
  let '(a1, o1) := run_path (fun _ => true) stat open path in
  prefix (sends a) (sends a1) /\ (forall k, flag k = false -> length (sends a) <= k) /\
  ((o = ORet /\ a = map ASend (sends a) ++ [AClose; AWait]) \/ (o = OErr /\ a = a1 /\ o1 = OErr) \/ (o = OPanic /\ a = [] /\ a1 = [] /\ o1 = OPanic)).
Proof.
  intros M. unfold run_path. destruct (get_files stat path) as [[fs|]| | |].
  - destruct (read_files flag open 0 fs) as [rs e] eqn:RF. destruct (read_stop flag open M fs 0 rs e RF) as (P & Q & K).
    destruct (read_files (fun _ => true) open 0 fs) as [full ef]. cbn [fst snd] in *.
    intros E. assert (SA : sends a = rs).
    { destruct e; injection E as <- <-; [apply sends_map|rewrite sends_app, sends_map; apply app_nil_r]. }
    assert (K' : forall k, flag k = false -> length (sends a) <= k).
    { intros k Fk. rewrite SA. destruct (K k Fk) as [?| -> ]; [lia|cbn; lia]. }
    destruct e.
    + destruct (Q eq_refl) as [-> ->]. injection E as <- <-. split; [exists []; rewrite app_nil_r; reflexivity|]. auto 6.
    + injection E as Ea <-. assert (P' : prefix (sends a) (sends (if ef then map ASend full else map ASend full ++ [AClose; AWait]))).
      { rewrite SA. destruct ef; [rewrite sends_map|rewrite sends_app, sends_map, app_nil_r]; exact P. }
      rewrite SA in *. destruct ef; (split; [|split]); auto.
  - intros [= <- <-]. repeat split; auto; first [exists []; reflexivity | cbn; lia].
  - intros [= <- <-]. repeat split; auto; first [exists []; reflexivity | cbn; lia | auto 6].
  - intros [= <- <-]. repeat split; auto; first [exists []; reflexivity | cbn; lia | auto 6].
  - intros [= <- <-]. repeat split; auto; first [exists []; reflexivity | cbn; lia | auto 6].
Qed.

(** ** in the network *)
Lemma on_feed {M} (inj : R -> M) c rs : on c (map (fun r => (Some c, inj r)) rs) = map inj rs.
Proof. unfold on. induction rs; cbn; [reflexivity|]. rewrite Nat.eqb_refl. cbn. congruence. Qed.
Lemma delivered {M St} (inj : R -> M) (st0 : St) (rest : list (@NetModel.stage M St)) cap r0 ls s c a j g :
  closes a = true ->
  let net := driver_stage inj c st0 a :: rest in
  well_formed net -> steps net cap (init net r0) ls s -> wait_returns net s ->
  nth_error net j = Some g -> input g = Some c ->
  r_recv (s_rt s j) = map inj (sends a).
Proof.
  intros CL net WF ST W J I.
  destruct (at_wait net cap WF r0 ls s ST W) as [CF AW].
  destruct (AW j g J) as [RC _]. destruct (RC c I) as (_ & _ & ->).
  assert (N0 : nth_error net 0 = Some (driver_stage inj c st0 a)) by reflexivity.
  assert (C0 : In c (g_outs (driver_stage inj c st0 a))) by (cbn; rewrite CL; left; reflexivity).
  rewrite (CF 0 _ c N0 C0). destruct (AW 0 _ N0) as [_ CO].
  destruct CO as (_ & _ & _ & SQ); [right; cbn; rewrite CL; discriminate|].
  rewrite SQ; [|left; reflexivity]. cbn. apply on_feed.
Qed.
(** A driver that ends can leave all its records unread in the channel. *)
Lemma undelivered {M St} (inj : R -> M) (st0 : St) (g : @NetModel.stage M St) cap r0 c a :
  g_driver g = false -> length (sends a) <= cap ->
  let net := [driver_stage inj c st0 a; g] in
  exists ls s, steps net cap (init net r0) ls s /\ s_crash s = false /\
    r_infl (s_rt s 0) = [] /\ r_sent (s_rt s 0) = map (fun r => (Some c, inj r)) (sends a) /\ r_recv (s_rt s 1) = [] /\ r_done (s_rt s 1) = false.
Proof.
  intros GD LE net.
  assert (X : forall todo sent s, length (c_q (s_ch s c)) + length todo <= cap -> c_closed (s_ch s c) = false -> s_crash s = false ->
     r_infl (s_rt s 0) = infl1 (map (fun r => (Some c, inj r)) todo) -> r_sent (s_rt s 0) = sent ->
     exists ls s', steps net cap s ls s' /\ s_crash s' = false /\ r_infl (s_rt s' 0) = [] /\
       r_sent (s_rt s' 0) = sent ++ map (fun r => (Some c, inj r)) todo /\ s_rt s' 1 = s_rt s 1).
  { induction todo as [|r todo IH]; intros sent s LQ OP CR IN SE.
    - exists [], s. cbn in *. rewrite app_nil_r. repeat split; auto. constructor.
    - cbn in IN.
      pose (r1 := mkR (r_st (s_rt s 0)) (infl1 (map (fun r => (Some c, inj r)) todo)) (r_ctl (s_rt s 0)) (r_done (s_rt s 0)) (r_recv (s_rt s 0)) (r_sent (s_rt s 0) ++ [(Some c, inj r)])).
      pose (s1 := set_rt (set_ch s c (mkC (c_q (s_ch s c) ++ [inj r]) false (c_hist (s_ch s c) ++ [inj r]))) 0 r1).
      assert (F : fire net cap s (LEff 0 0) = Some s1).
      { unfold fire. rewrite CR. cbn [net nth_error]. rewrite IN. cbn [pop nth_error infl1]. rewrite OP.
        assert (LT : length (c_q (s_ch s c)) <? cap = true) by (apply Nat.ltb_lt; cbn in LQ; lia).
        rewrite LT. unfold s1, r1. cbn [firstn skipn app]. rewrite app_nil_r. reflexivity. }
      destruct (IH (sent ++ [(Some c, inj r)]) s1) as (ls & s' & ST & C1 & I1 & S1 & R1).
      + unfold s1, set_rt, set_ch, fset. cbn. rewrite Nat.eqb_refl. cbn. rewrite app_length. cbn in *. lia.
      + unfold s1, set_rt, set_ch, fset. cbn. rewrite Nat.eqb_refl. reflexivity.
      + exact CR.
      + reflexivity.
      + unfold s1, set_rt, set_ch, fset. cbn. rewrite SE. reflexivity.
      + exists (LEff 0 0 :: ls), s'. repeat split; auto.
        * econstructor; eauto.
        * rewrite S1, <- app_assoc. reflexivity. }
  destruct (X (sends a) [] (init net r0)) as (ls & s' & ST & C1 & I1 & S1 & R1).
  - cbn. lia.
  - reflexivity.
  - reflexivity.
  - reflexivity.
  - reflexivity.
  - exists ls, s'. rewrite S1, R1. repeat split; auto.
    + cbn. unfold start. rewrite GD. destruct (g_ins g) as [|? [|? ?]]; reflexivity.
    + cbn. unfold start. rewrite GD. destruct (g_ins g) as [|? [|? ?]]; reflexivity.
Qed.

(** ** socket driver *)
Section Str.
Variable eval : string -> R.
Variable size : nat.
Lemma zeros_len n : slen (zeros n) = n.
Proof. unfold slen. induction n; cbn; congruence. Qed.
Lemma zeros_get n : forall p, p < n -> String.get p (zeros n) = Some zero.
Proof. induction n; intros p H; [lia|]. destruct p; cbn; [reflexivity|]. apply IHn. lia. Qed.
Lemma buffer_zeros : buffer_after size [] (zeros size).
Proof. split; [apply zeros_len|]. intros p H. cbn. apply zeros_get. exact H. Qed.
Lemma sdrop_len n : forall s, slen (sdrop n s) = slen s - n.
Proof. unfold slen. induction n; intros [|x s]; cbn; auto. Qed.
Lemma get_app s t : forall p, String.get p (s ++ t) = if p <? slen s then String.get p s else String.get (p - slen s) t.
Proof.
  unfold slen. induction s as [|x s IH]; intros p; cbn [String.append String.length].
  - rewrite Nat.sub_0_r. reflexivity.
  - destruct p; [reflexivity|]. cbn [String.get]. rewrite IH. reflexivity.
Qed.
Lemma get_drop n : forall s p, String.get p (sdrop n s) = String.get (n + p) s.
Proof. induction n; intros [|x s] p; cbn; auto. Qed.
Lemma get_None s : forall p, slen s <= p -> String.get p s = None.
Proof. unfold slen. induction s; intros p H; cbn in *; [destruct p; reflexivity|]. destruct p; [lia|]. apply IHs. lia. Qed.
Lemma get_Some s : forall p, p < slen s -> exists x, String.get p s = Some x.
Proof. unfold slen. induction s; intros p H; cbn in *; [lia|]. destruct p; [eauto|]. apply IHs. lia. Qed.
Lemma latest_snoc ms m p : latest (ms ++ [m]) p = match String.get p m with Some x => Some x | None => latest ms p end.
Proof.
  induction ms as [|m0 ms IH]; cbn; [destruct (String.get p m); reflexivity|]. rewrite IH.
  destruct (String.get p m); reflexivity.
Qed.
Lemma buffer_overlay ms m b : slen m <= size -> buffer_after size ms b -> buffer_after size (ms ++ [m]) (overlay m b).
Proof.
  intros LM [LB GB]. unfold overlay. split.
  - rewrite slen_app, sdrop_len. lia.
  - intros p H. rewrite get_app, latest_snoc. destruct (p <? slen m) eqn:E.
    + apply Nat.ltb_lt in E. destruct (get_Some m p E) as [x ->]. reflexivity.
    + apply Nat.ltb_ge in E. rewrite get_drop. replace (slen m + (p - slen m)) with p by lia. rewrite (get_None m p E). apply GB. exact H.
Qed.
Definition conn_inv (s : sst) (ms : list string) : Prop := match s with Reading b => buffer_after size ms b | _ => True end.
Lemma delivers es : forall s ms s2 a, conn_inv s ms -> srun eval size s es = Some (s2, a) -> Delivers eval size ms es (sends a).
Proof.
  induction es as [|e es IH]; intros s ms s2 a INV E; cbn [srun] in E.
  - injection E as <- <-. constructor.
  - destruct (sstep eval size s e) as [[s1 a1]|] eqn:ST; [|discriminate].
    destruct (srun eval size s1 es) as [[s3 b]|] eqn:SR; [|discriminate]. injection E as <- <-. rewrite sends_app.
    destruct s as [[|]|buf|]; destruct e; cbn in ST; try discriminate.
    all: try (injection ST as <- <-).
    all: try (apply De_other; [tauto|]; cbn; eapply IH; [|exact SR]; exact I).
    + apply De_conn. eapply IH; [|exact SR]. exact buffer_zeros.
    + apply De_conn. eapply IH; [|exact SR]. exact I.
    + destruct (slen m <=? size) eqn:LE.
      * injection ST as <- <-. apply Nat.leb_le in LE. cbn [sends flat_map app].
        apply De_msg; [exact LE | apply buffer_overlay; assumption |]. eapply IH; [|exact SR]. apply buffer_overlay; assumption.
      * injection ST as <- <-. apply Nat.leb_gt in LE. apply De_big; [exact LE|]. cbn. eapply IH; [|exact SR]. exact I.
Qed.
Lemma delivers_det dec : (forall m rest, slen m <= size -> eval (m ++ rest)%string = dec m) ->
  forall es s s2 a, srun eval size s es = Some (s2, a) -> sends a = map dec (messages size es).
Proof.
  intros SD. induction es as [|e es IH]; intros s s2 a E; cbn [srun] in E.
  - injection E as <- <-. reflexivity.
  - destruct (sstep eval size s e) as [[s1 a1]|] eqn:ST; [|discriminate].
    destruct (srun eval size s1 es) as [[s3 b]|] eqn:SR; [|discriminate]. injection E as <- <-. rewrite sends_app, (IH _ _ _ SR).
    cbn [messages flat_map]. rewrite map_app. f_equal.
    destruct s as [[|]|buf|]; destruct e; cbn in ST; try discriminate; try (injection ST as <- <-; reflexivity).
    destruct (slen m <=? size) eqn:LE; injection ST as <- <-; [|reflexivity]. cbn. unfold overlay. rewrite SD; [reflexivity|]. apply Nat.leb_le. exact LE.
Qed.
(** close and wait exactly at the end. *)
Lemma ends es : forall s s2 a, s <> Finished -> srun eval size s es = Some (s2, a) ->
  (s2 = Finished /\ a = map ASend (sends a) ++ [AClose; AWait]) \/ (s2 <> Finished /\ a = map ASend (sends a)).
Proof.
  induction es as [|e es IH]; intros s s2 a NF E; cbn [srun] in E.
  - injection E as <- <-. right. split; [exact NF|reflexivity].
  - destruct (sstep eval size s e) as [[s1 a1]|] eqn:ST; [|discriminate].
    destruct (srun eval size s1 es) as [[s3 b]|] eqn:SR; [|discriminate]. injection E as <- <-.
    assert (FIN : forall es x y, srun eval size Finished es = Some (x, y) -> x = Finished /\ y = []).
    { clear. induction es as [|e es IH]; intros x y E; cbn in E; [injection E as <- <-; auto|].
      destruct e; try discriminate. destruct (srun eval size Finished es) as [[p q]|] eqn:Q; [|discriminate]. injection E as <- <-. destruct (IH _ _ eq_refl). subst. auto. }
    assert (CASE : (s1 = Finished /\ a1 = [AClose; AWait]) \/ (s1 <> Finished /\ a1 = map ASend (sends a1))).
    { destruct s as [[|]|buf|]; destruct e; cbn in ST; try discriminate; try (destruct (slen m <=? size)); injection ST as <- <-; cbn; auto; right; split; auto; discriminate. }
    destruct CASE as [[-> ->] | [N1 E1]].
    + destruct (FIN _ _ _ SR) as [-> ->]. left. split; reflexivity.
    + rewrite sends_app, map_app, E1. destruct (IH _ _ _ N1 SR) as [[-> E2]|[N2 E2]].
      * left. split; [reflexivity|]. rewrite E2 at 1. rewrite sends_map, app_assoc. reflexivity.
      * right. split; [exact N2|]. rewrite E2 at 1. rewrite sends_map. reflexivity.
Qed.
Lemma srun_app es1 : forall s es2, srun eval size s (es1 ++ es2) =
  match srun eval size s es1 with None => None | Some (s1, a) => match srun eval size s1 es2 with None => None | Some (s2, b) => Some (s2, a ++ b) end end.
Proof.
  induction es1 as [|e es1 IH]; intros s es2; cbn [srun app].
  - destruct (srun eval size s es2) as [[? ?]|]; reflexivity.
  - destruct (sstep eval size s e) as [[s1 a]|]; [|reflexivity]. rewrite IH.
    destruct (srun eval size s1 es1) as [[s3 b]|]; [|reflexivity].
    destruct (srun eval size s3 es2) as [[s4 c]|]; [|reflexivity]. rewrite app_assoc. reflexivity.
Qed.
Lemma accept_stuck es : (forall e, In e es -> e <> Connect /\ e <> AcceptFails) ->
  forall s2 a, srun eval size (Accepting false) es = Some (s2, a) -> s2 = Accepting false /\ a = [].
Proof.
  induction es as [|e es IH]; intros N s2 a E; cbn in E; [injection E as <- <-; auto|].
  destruct (N e (or_introl eq_refl)) as [N1 N2]. destruct e; try discriminate; try congruence.
  destruct (srun eval size (Accepting false) es) as [[p q]|] eqn:SR; [|discriminate]. injection E as <- <-.
  apply (IH (fun e H => N e (or_intror H)) _ _ eq_refl).
Qed.
End Str.

(** ** Kafka *)
Lemma kloop_all (parse : string -> option (list R)) ms rss :
  Forall2 (fun m rs => parse m = Some rs) ms rss -> forall es, kloop parse (map KMsg ms ++ es) = (map ASend (concat rss) ++ fst (kloop parse es), snd (kloop parse es)).
Proof.
  induction 1; intros es; cbn; [destruct (kloop parse es); reflexivity|]. rewrite H, IHForall2. rewrite map_app, app_assoc. reflexivity.
Qed.
Lemma kloop_end (parse : string -> option (list R)) es : forall a o, kloop parse es = (a, o) ->
  (o = OErr /\ a = map ASend (sends a) ++ [AClose]) \/ (o = OBlocked /\ a = map ASend (sends a)).
Proof.
  induction es as [|e es IH]; intros a o E; cbn in E; [injection E as <- <-; auto|].
  destruct e.
  - destruct (parse m) as [rs|]; [|injection E as <- <-; auto]. destruct (kloop parse es) as [b o'] eqn:K. injection E as <- <-.
    rewrite sends_app, sends_map, map_app. destruct (IH _ _ eq_refl) as [[-> E2]|[-> E2]].
    + left. split; auto. rewrite E2 at 1. rewrite app_assoc. reflexivity.
    + right. split; auto. rewrite E2 at 1. reflexivity.
  - injection E as <- <-. auto.
  - apply IH. exact E.
Qed.
Lemma kloop_stop (parse : string -> option (list R)) es1 : forall es2, kloop parse (es1 ++ KStop :: es2) = kloop parse (es1 ++ es2).
Proof. induction es1 as [|[m| |] es1 IH]; intros es2; cbn; auto. destruct (parse m); auto. rewrite IH. reflexivity. Qed.
End F.

(** ** OpenTelemetry files *)
Section OF.
Context {J L : Type}.
Variable decode : option L -> J -> L.
Lemma unmarshal_nil js : unmarshal decode [] js = map (decode None) js.
Proof. induction js; cbn; congruence. Qed.
Lemma unmarshal_nth js : forall h i j, nth_error js i = Some j ->
  nth_error (unmarshal decode h js) i = Some (decode (nth_error h i) j).
Proof.
  induction js as [|j0 js IH]; intros h i j E; [destruct i; discriminate|].
  destruct i; cbn in E.
  - injection E as ->. destruct h; reflexivity.
  - destruct h as [|l h]; cbn; rewrite (IH _ _ _ E); [destruct i; reflexivity|reflexivity].
Qed.
Lemma send_logs_all flag : (forall k, flag k = true) -> forall k n i, exists n', @send_logs L flag n i k = (map OSend (seq i k), n').
Proof.
  intros T. induction k; intros n i; cbn; [eauto|]. rewrite T. destruct (IHk (S n) (S i)) as [n' ->]. eauto.
Qed.
Lemma mems_sends (h : list L) l b : mems h (map OSend l ++ b) = mems h b.
Proof. induction l; cbn; auto. Qed.
Lemma sees_send (h : list L) : forall k i0 i v b, i < k -> Sees h (map OSend (seq i0 k) ++ b) i v <->
  exists m, In m (mems h b) /\ nth_error m (i0 + i) = Some v.
Proof.
  induction k; intros i0 i v b LT; [lia|]. cbn [seq map app]. destruct i.
  - rewrite Nat.add_0_r. split.
    + intros H. inversion H as [? ? ? ? ? HI HE | | | |]; subst. rewrite mems_sends in HI. eauto.
    + intros (m & I & E). econstructor; [rewrite mems_sends; exact I|exact E].
  - split.
    + intros H. inversion H as [|? ? ? ? ? HS| | |]; subst. apply IHk in HS; [|lia]. replace (i0 + S i) with (S i0 + i) by lia. exact HS.
    + intros H. constructor. apply IHk; [lia|]. replace (S i0 + i) with (i0 + S i) by lia. exact H.
Qed.
Lemma sees_skip (h : list L) : forall k i0 i v b, Sees h (map OSend (seq i0 k) ++ b) (k + i) v <-> Sees h b i v.
Proof.
  induction k; intros i0 i v b; [reflexivity|]. cbn [seq map app Nat.add]. split.
  - intros H. inversion H as [|? ? ? ? ? HS| | |]; subst. apply IHk in HS. exact HS.
  - intros H. constructor. apply IHk. exact H.
Qed.
Lemma soon_send (h : list L) : forall k i0 i v b, i < k -> SeesAtOnce h (map OSend (seq i0 k) ++ b) i v <-> nth_error h (i0 + i) = Some v.
Proof.
  induction k; intros i0 i v b LT; [lia|]. cbn [seq map app]. destruct i.
  - rewrite Nat.add_0_r. split; [intros H; inversion H; subst; assumption | intros H; constructor; exact H].
  - split.
    + intros H. inversion H as [|? ? ? ? ? HS| | |]; subst. apply IHk in HS; [|lia]. replace (i0 + S i) with (S i0 + i) by lia. exact HS.
    + intros H. constructor. apply IHk; [lia|]. replace (S i0 + i) with (i0 + S i) by lia. exact H.
Qed.
Lemma soon_skip (h : list L) : forall k i0 i v b, SeesAtOnce h (map OSend (seq i0 k) ++ b) (k + i) v <-> SeesAtOnce h b i v.
Proof.
  induction k; intros i0 i v b; [reflexivity|]. cbn [seq map app Nat.add]. split.
  - intros H. inversion H as [|? ? ? ? ? HS| | |]; subst. apply IHk in HS. exact HS.
  - intros H. constructor. apply IHk. exact H.
Qed.
Lemma osends_app (a b : list (oact L)) : osends (a ++ b) = osends a ++ osends b.
Proof. apply flat_map_app. Qed.
Lemma osends_map l : osends (map (@OSend L) l) = l.
Proof. unfold osends. induction l; cbn; congruence. Qed.

Lemma read_one flag open f js : (forall k, flag k = true) -> open f = OLogs js ->
  forall n h, read_logs decode flag open n h [f] = (OMem (unmarshal decode h js) :: map OSend (seq 0 (length js)), false).
Proof.
  intros T O n h. cbn. rewrite O. destruct (send_logs_all flag T (length js) n 0) as [n' ->]. rewrite T, app_nil_r. reflexivity.
Qed.
Lemma read_logs_all flag open : (forall k, flag k = true) -> forall fs jss, Forall2 (fun f js => open f = OLogs js) fs jss ->
  forall n h, exists a, read_logs decode flag open n h fs = (a, false) /\ length (osends a) = length (concat jss) /\
    ((forall l j, decode (Some l) j = decode None j) -> forall i j, nth_error (concat jss) i = Some j ->
       forall b, SeesAtOnce h (a ++ b) i (decode None j)).
Proof.
  intros T fs jss F. induction F as [|f js fs jss O F IH]; intros n h; cbn [read_logs].
  - exists []. repeat split; auto. intros _ [|i] j E; discriminate.
  - rewrite O. destruct (send_logs_all flag T (length js) n 0) as [n' ->]. rewrite T.
    destruct (IH (S n') (unmarshal decode h js)) as (a & -> & LA & SA). eexists. split; [reflexivity|]. split.
    + match goal with |- length (osends (?x :: ?y)) = _ => change (osends (x :: y)) with (osends y) end. cbn [concat].
      rewrite osends_app, osends_map, !app_length, seq_length, LA. reflexivity.
    + intros D i j E b. cbn [app]. constructor. cbn [concat] in E. rewrite <- app_assoc.
      destruct (le_lt_dec (length js) i) as [GE|LT].
      * rewrite nth_error_app2 in E by exact GE. replace i with (length js + (i - length js)) by lia. apply soon_skip. apply SA; assumption.
      * rewrite nth_error_app1 in E by exact LT. apply soon_send; [exact LT|]. cbn. rewrite (unmarshal_nth _ _ _ _ E).
        destruct (nth_error h i); [rewrite D|]; reflexivity.
Qed.
End OF.

(** ** choice of drivers *)
Lemma config_drivers_spec known ds l : config_drivers known ds = Some l ->
  l = flat_map (fun d => match mget DrivConfig d with Some (VStr n) => [n] | _ => [] end) ds /\ forall n, In n l -> known n = true.
Proof.
  revert l. induction ds as [|d ds IH]; intros l E; cbn in E; [injection E as <-; split; [reflexivity|intros n []]|].
  cbn [flat_map]. destruct (mget DrivConfig d) as [[n|v|]|]; try (apply IH; exact E).
  destruct (known n) eqn:KN; [|discriminate]. destruct (config_drivers known ds) as [l'|]; [|discriminate]. injection E as <-.
  destruct (IH _ eq_refl) as [-> K]. split; [reflexivity|]. intros m [<-|H]; auto.
Qed.
Lemma config_drivers_complete known ds :
  (forall n, In n (flat_map (fun d => match mget DrivConfig d with Some (VStr n) => [n] | _ => [] end) ds) -> known n = true) ->
  config_drivers known ds = Some (flat_map (fun d => match mget DrivConfig d with Some (VStr n) => [n] | _ => [] end) ds).
Proof.
  induction ds as [|d ds IH]; cbn; intros K; [reflexivity|].
  destruct (mget DrivConfig d) as [[n|v|]|]; try (apply IH; exact K).
  rewrite (K n (or_introl eq_refl)), IH; [reflexivity|]. intros m H. apply K. right. exact H.
Qed.
Lemma driver_config_first n ds : driver_config n ds = List.find (fun d => match mget DrivConfig d with Some (VStr m) => seqb m n | _ => false end) ds.
Proof. induction ds as [|d ds IH]; cbn; [reflexivity|]. destruct (mget DrivConfig d) as [[m|v|]|]; auto. destruct (seqb m n); auto. Qed.
Lemma driver_config_unique n ds d :
  In d ds -> mget DrivConfig d = Some (VStr n) ->
  (forall d', In d' ds -> mget DrivConfig d' = Some (VStr n) -> d' = d) -> driver_config n ds = Some d.
Proof.
  induction ds as [|d0 ds IH]; intros I M U; [destruct I|]. cbn.
  destruct (mget DrivConfig d0) as [[m|v|]|] eqn:M0.
  - destruct (seqb m n) eqn:E.
    + apply String.eqb_eq in E. subst m. f_equal. apply U; [left; reflexivity|exact M0].
    + destruct I as [->|I]; [rewrite M in M0; injection M0 as ->; unfold seqb in E; rewrite String.eqb_refl in E; discriminate|]. apply IH; auto. intros d' H. apply U. right. exact H.
  - destruct I as [->|I]; [congruence|]. apply IH; auto. intros d' H. apply U. right. exact H.
  - destruct I as [->|I]; [congruence|]. apply IH; auto. intros d' H. apply U. right. exact H.
  - destruct I as [->|I]; [congruence|]. apply IH; auto. intros d' H. apply U. right. exact H.
Qed.
Lemma init_all ds init_ok run_ok : forall names, (forall n, In n names -> init_ok n (driver_config n ds) = true) -> names <> [] ->
  init_drivers ds init_ok run_ok names =
    (map (fun n => mkStarted n (driver_config n ds) false) (removelast names) ++ [mkStarted (last names "") (driver_config (last names "") ds) true],
     negb (run_ok (last names "") (driver_config (last names "") ds))).
Proof.
  induction names as [|n names IH]; intros IO NE; [congruence|]. cbn [init_drivers]. rewrite (IO n (or_introl eq_refl)).
  destruct names as [|m names]; [reflexivity|]. rewrite IH; [|intros; apply IO; right; assumption|discriminate]. reflexivity.
Qed.
Lemma init_exit ds init_ok run_ok : forall names, names <> [] -> (snd (init_drivers ds init_ok run_ok names) = false <->
  (forall n, In n names -> init_ok n (driver_config n ds) = true) /\ run_ok (last names "") (driver_config (last names "") ds) = true).
Proof.
  induction names as [|n names IH]; intros NE; [congruence|]. cbn [init_drivers].
  destruct (init_ok n (driver_config n ds)) eqn:E.
  - destruct names as [|m names].
    + cbn. destruct (run_ok n (driver_config n ds)); cbn; split; try discriminate; try (intros [? ?]; congruence); auto.
      intros _. split; auto. intros ? [<-|[]]. exact E.
    + destruct (init_drivers ds init_ok run_ok (m :: names)) as [st e] eqn:ID. cbn [snd]. 
      assert (H : e = false <-> (forall n0, In n0 (m :: names) -> init_ok n0 (driver_config n0 ds) = true) /\ run_ok (last (m :: names) "") (driver_config (last (m :: names) "") ds) = true)
        by (apply IH; discriminate).
      rewrite H. change (last (n :: m :: names) "") with (last (m :: names) ""). split.
      * intros [A B]. split; [|exact B]. intros x [<-|I]; auto.
      * intros [A B]. split; [|exact B]. intros x I. apply A. right. exact I.
  - cbn. split; [discriminate|]. intros [A _]. rewrite (A n (or_introl eq_refl)) in E. discriminate.
Qed.
(** ** Kafka configuration *)
Lemma topic_list_spec l : forall ts, topic_list l = Ok ts <-> l = map KStr ts.
Proof.
  induction l as [|v l IH]; intros ts; cbn.
  - split; [intros [= <-]; reflexivity|]. destruct ts; [reflexivity|discriminate].
  - destruct v; cbn; try (split; [discriminate|destruct ts; discriminate]).
    destruct (topic_list l) as [ts0| | |]; cbn.
    + split.
      * intros [= <-]. cbn. f_equal. apply IH. reflexivity.
      * destruct ts as [|t ts]; [discriminate|]. intros [= -> E]. apply IH in E. congruence.
    + split; [discriminate|]. destruct ts as [|t ts]; [discriminate|]. intros [= -> E]. apply IH in E. discriminate.
    + split; [discriminate|]. destruct ts as [|t ts]; [discriminate|]. intros [= -> E]. apply IH in E. discriminate.
    + split; [discriminate|]. destruct ts as [|t ts]; [discriminate|]. intros [= -> E]. apply IH in E. discriminate.
Qed.
Lemma topic_list_total l : (exists ts, topic_list l = Ok ts) \/ topic_list l = Panic.
Proof. induction l as [|v l IH]; cbn; [eauto|]. destruct v; auto. destruct IH as [[ts ->]| ->]; cbn; eauto. Qed.

(** ** Names of inputs and outputs *)
Lemma input_named cfg path p : names_input cfg path p -> input_path cfg path = p.
Proof. intros H. destruct H as [c p path E|c path E|path]; unfold input_path, PathConfig; [rewrite E; reflexivity| |reflexivity]. destruct (mget "path" c) as [[q|l|]|] eqn:Q; try reflexivity. exfalso. exact (E q eq_refl). Qed.
Lemma inputs_named stat p fs : inputs stat p fs -> get_files stat p = Ok (Some fs).
Proof. intros H. destruct H as [p E|p es E N]; unfold get_files; rewrite E; [reflexivity|]. destruct es; [contradiction|reflexivity]. Qed.
Lemma output_named types s root cfg c : names_output types s root cfg c -> ch_type c = "sysflowchan" -> out_chan types s root cfg = Ok (Some c).
Proof.
  intros H T. assert (Q : seqb (ch_type c) sysflow_chan = true) by (rewrite T; reflexivity). destruct H as [c -> |cfg v s' c E G]; unfold out_chan, OutChanConfig; [|rewrite E, G]; cbn [rbind]; rewrite Q; reflexivity.
Qed.
Lemma output_other types s root cfg c : names_output types s root cfg c -> ch_type c <> "sysflowchan" -> out_chan types s root cfg = Panic.
Proof.
  intros H T. assert (Q : seqb (ch_type c) sysflow_chan = false) by (destruct (seqb (ch_type c) sysflow_chan) eqn:E; [apply String.eqb_eq in E; contradiction|reflexivity]).
  destruct H as [c -> |cfg v s' c E G]; unfold out_chan, OutChanConfig; [|rewrite E, G]; cbn [rbind]; rewrite Q; reflexivity.
Qed.
Lemma all_records (R : Type) types s root cfg flag stat (open : string -> file_res R) path c p fs rss :
  names_output types s root cfg c -> ch_type c = "sysflowchan" -> (forall k, flag k = true) ->
  names_input cfg path p -> inputs stat p fs -> Forall2 (file_records open) fs rss ->
  file_run types s root cfg flag stat open path = (Some c, map ASend (concat rss) ++ [AClose; AWait], ORet).
Proof.
  intros O OT T NI G F. unfold file_run. rewrite (output_named _ _ _ _ _ O OT), (input_named _ _ _ NI), (run_all stat open flag _ fs rss T (inputs_named _ _ _ G) F). reflexivity.
Qed.
Lemma failure_exact (R : Type) types s root cfg flag stat (open : string -> file_res R) path c p fs rss f fs' :
  names_output types s root cfg c -> ch_type c = "sysflowchan" -> (forall k, flag k = true) ->
  names_input cfg path p -> inputs stat p (fs ++ f :: fs') -> Forall2 (file_records open) fs rss ->
  open f = FOpenErr \/ open f = FReaderErr ->
  file_run types s root cfg flag stat open path = (Some c, map ASend (concat rss), OErr).
Proof.
  intros O OT T NI G F B. unfold file_run. rewrite (output_named _ _ _ _ _ O OT), (input_named _ _ _ NI), (run_fail stat open flag _ fs rss f fs' T (inputs_named _ _ _ G) F B). reflexivity.
Qed.
Lemma no_records (R : Type) types s root cfg flag stat (open : string -> file_res R) path c p :
  names_output types s root cfg c -> names_input cfg path p ->
  (ch_type c = "sysflowchan" -> stat p = StNotExist \/ stat p = StDir None \/ stat p = StDir (Some []) ->
   file_run types s root cfg flag stat open path = (Some c, [], OErr)) /\
  (ch_type c <> "sysflowchan" -> file_run types s root cfg flag stat open path = (None, [], OPanic)).
Proof.
  intros O NI. split.
  - intros OT B. unfold file_run. rewrite (output_named _ _ _ _ _ O OT), (input_named _ _ _ NI). unfold run_path, get_files. destruct B as [-> |[-> | -> ]]; reflexivity.
  - intros OT. unfold file_run. rewrite (output_other _ _ _ _ _ O OT). reflexivity.
Qed.
Lemma reconnect (R : Type) (eval : string -> R) size es b a bad es2 s2 a2 :
  srun eval size (Accepting true) es = Some (Reading b, a) ->
  bad = ReadFails \/ (exists m, bad = Message m /\ size < slen m) ->
  srun eval size (Accepting true) es2 = Some (s2, a2) ->
  srun eval size (Accepting true) (es ++ bad :: es2) = Some (s2, a ++ a2).
Proof.
  intros H B H2. rewrite srun_app, H. cbn [srun]. assert (E : sstep eval size (Reading b) bad = Some (Accepting true, [])).
  { destruct B as [-> |(m & -> & L)]; [reflexivity|]. cbn [sstep]. destruct (slen m <=? size) eqn:Q; [apply Nat.leb_le in Q; lia|reflexivity]. }
  rewrite E, H2. reflexivity.
Qed.

From Coq Require Import Lia Permutation.
From Verif Require Import GoBase GoFacts Predicates FlatRecord EngineModel EngineFlat EcsModel ElasticModel SpecElastic.

Lemma es_mget l : forall ix id, mget id (es_export ix l) = match mget id ix with Some d => Some d | None => find (fun d => seqb (e_id d) id) l end.
Proof.
  unfold es_export. induction l as [|d l IH]; intros ix id; cbn [fold_left find]; [destruct (mget id ix); reflexivity|]. rewrite IH. unfold es_create, mhas.
  destruct (seqb (e_id d) id) eqn:Q.
  - apply seqb_eq in Q. subst id. destruct (mget (e_id d) ix) as [d0|] eqn:G; [rewrite G; reflexivity|]. rewrite mget_mset_eq. reflexivity.
  - destruct (mget (e_id d) ix); [reflexivity|]. rewrite mget_mset_ne; [reflexivity|]. intros ->. rewrite seqb_refl in Q. discriminate.
Qed.
Lemma find_id l id d : find (fun d => seqb (e_id d) id) l = Some d -> In d l /\ e_id d = id.
Proof. intros H. apply find_some in H. destruct H as [H1 H2]. split; [exact H1|apply seqb_eq, H2]. Qed.
Lemma es_app ix a b : es_export ix (a ++ b) = es_export (es_export ix a) b.
Proof. apply fold_left_app. Qed.
Lemma batches_arrived ix bs lost ix' : es_batches ix bs lost ix' -> exists arrived, Permutation (concat bs) (arrived ++ lost) /\ ix' = es_export ix arrived.
Proof.
  intros H. induction H as [ix|ix b arr lost bs lost' ix' P H (arr' & P' & -> )]; [exists []; split; [constructor|reflexivity]|].
  exists (arr ++ arr')%list. split; [|rewrite es_app; reflexivity]. cbn [concat]. rewrite P, P', <- !app_assoc. apply Permutation_app_head.
  rewrite !app_assoc. apply Permutation_app_tail, Permutation_app_comm.
Qed.
Lemma find_nodup l d : NoDup (map e_id l) -> In d l -> find (fun x => seqb (e_id x) (e_id d)) l = Some d.
Proof.
  induction l as [|a l IH]; intros N H; [destruct H|]. cbn [find]. cbn [map] in N. apply NoDup_cons_iff in N. destruct N as [N1 N2]. destruct H as [-> |H]; [rewrite seqb_refl; reflexivity|].
  destruct (seqb (e_id a) (e_id d)) eqn:Q; [|apply IH; assumption]. apply seqb_eq in Q. exfalso. apply N1. rewrite Q. apply in_map, H.
Qed.
Lemma index_facts ix bs lost ix' : es_batches ix bs lost ix' ->
  only_from ix (concat bs) ix' /\
  (forall d, In d (concat bs) -> In d lost \/ represented ix (concat bs) ix' d) /\
  (NoDup (map e_id (concat bs)) -> forall d, In d (concat bs) -> mget (e_id d) ix = None -> In d lost \/ mget (e_id d) ix' = Some d).
Proof.
  intros H. destruct (batches_arrived _ _ _ _ H) as (arr & P & -> ).
  assert (S : forall d, In d arr -> In d (concat bs)) by (intros d Hd; apply (Permutation_in _ (Permutation_sym P)), in_or_app; left; exact Hd). split; [|split].
  - split; intros id d; rewrite es_mget; destruct (mget id ix); auto; try discriminate. intros F. apply find_id in F. destruct F as [F1 F2]. right. auto.
  - intros d Hd. apply (Permutation_in _ P), in_app_or in Hd. destruct Hd as [Hd|Hd]; [right|left; exact Hd]. unfold represented. rewrite es_mget.
    destruct (mget (e_id d) ix) as [d0|] eqn:G; [exists d0; auto|]. destruct (find (fun x => seqb (e_id x) (e_id d)) arr) as [d0|] eqn:F.
    + exists d0. apply find_id in F. destruct F as [F1 F2]. auto 6.
    + exfalso. apply (find_none _ _ F) in Hd. rewrite seqb_refl in Hd. discriminate.
  - intros N d Hd G. apply (Permutation_in _ P), in_app_or in Hd. destruct Hd as [Hd|Hd]; [right|left; exact Hd]. rewrite es_mget, G. apply find_nodup; [|exact Hd].
    rewrite P, map_app in N. clear - N. induction (map e_id arr) as [|a l IH]; [constructor|]. cbn in N. apply NoDup_cons_iff in N. destruct N as [N1 N2]. constructor; [intros Q; apply N1, in_or_app; auto|auto].
Qed.

From Verif Require Import FlattenModel SpecFlatten SpecEcs EcsFacts2 EcsFacts3.
Section Docs.
Variables (X : sfgo_fns) (E : ecs_fns) (version ecsversion : string) (ipstr : Z -> string) (jsonsvcs : list service -> string).
Hypotheses (B : forall o, (0 <= op_bit E o)%Z) (N : type_names X).
Lemma docs_concat bs : concat (map (ecs_docs X E version ecsversion) bs) = ecs_docs X E version ecsversion (concat bs).
Proof. unfold ecs_docs. induction bs as [|b bs IH]; [reflexivity|]. cbn [map concat]. rewrite IH, flat_map_app. reflexivity. Qed.
Lemma docs_all l recs : (forall r, In r recs -> exists xe, In xe l /\ fst r = flatten ipstr jsonsvcs (fst xe) (snd xe)) ->
  Forall2 (fun r d => exists xe, In xe l /\ fst r = flatten ipstr jsonsvcs (fst xe) (snd xe) /\ describes X E version ecsversion (fst xe) (snd xe) (snd r) d /\ e_id d = encode_id X (fst r))
    recs (ecs_docs X E version ecsversion recs).
Proof.
  induction recs as [|r recs IH]; intros H; [constructor|]. unfold ecs_docs. cbn [flat_map]. destruct (H r (or_introl eq_refl)) as (xe & Hx & Er).
  destruct (document X E ipstr jsonsvcs B N version ecsversion (fst xe) (snd xe) (snd r)) as (d & Ed & De & Id). rewrite Er, Ed. cbn [List.app].
  constructor; [|apply IH; intros r' Hr'; apply H; right; exact Hr']. exists xe. rewrite Er. auto.
Qed.
End Docs.

From Coq Require Import Permutation.
From Verif Require ReaderModel.
From Verif Require Import AppModel SpecApp AppFacts SpecInit.
Lemma eras_in X M ipstr jsonsvcs hash fconf l out typ m eras oss r : Passed ipstr jsonsvcs hash fconf l out ->
  map (fun fr => (fr, ctx_new)) out = concat (map snd eras) ->
  Forall2 (fun era os => Forall2 (disposed X M typ (fst era) m) (snd era) os) eras oss -> In r (concat (map (@concat sfrec) oss)) ->
  exists xe, In xe l /\ fst r = flatten ipstr jsonsvcs (fst xe) (snd xe).
Proof.
  intros Pa T1 F2 Hr. apply in_concat in Hr as (o & Ho & Hr). apply in_map_iff in Ho as (os & <- & Ho).
  assert (Q : exists e, In e eras /\ exists r0, In r0 (snd e) /\ fst r = fst r0).
  { clear - F2 Ho Hr. induction F2 as [|e os' eras oss D F2 IH]; [destruct Ho|]. destruct Ho as [->|Ho].
    - exists e. split; [now left|]. clear - D Hr. destruct e as [tx es]. cbn [fst snd] in D |- *. induction D as [|r0 o' l os Dd D IH]; [destruct Hr|]. cbn [concat] in Hr. apply in_app_or in Hr as [Hr|Hr].
      + exists r0. split; [now left|]. exact (disposed_in _ _ _ _ _ _ _ _ Dd Hr).
      + destruct (IH Hr) as (q & ? & ?). exists q. split; [now right|assumption].
    - destruct (IH Ho) as (q & ? & ?). exists q. split; [now right|assumption]. }
  destruct Q as (e & He & r0 & Hr0 & Er).
  assert (Hfr : In (fst r0) out).
  { assert (Hc' : In r0 (concat (map snd eras))) by (apply in_concat; exists (snd e); split; [apply in_map; exact He|exact Hr0]).
    rewrite <- T1 in Hc'. apply in_map_iff in Hc' as (fr & <- & Hf'). exact Hf'. }
  destruct (passed_in _ _ _ _ _ _ _ Pa Hfr) as (xe & Hx & Exe). exists xe. split; [exact Hx|]. rewrite Er. exact Exe.
Qed.
Lemma static_in X M ipstr jsonsvcs hash fconf l out typ m dss os r : Passed ipstr jsonsvcs hash fconf l out ->
  Forall2 (fun fr o => disposed X M typ dss m (fr, ctx_new) o) out os -> In r (concat os) ->
  exists xe, In xe l /\ fst r = flatten ipstr jsonsvcs (fst xe) (snd xe).
Proof.
  intros Pa Fo Hr. apply in_concat in Hr as (o & Ho & Hr).
  assert (Q : exists fr, In fr out /\ fst r = fr).
  { clear - Fo Ho Hr. induction Fo as [|fr o' out os Hd Fo IH]; [destruct Ho|]. destruct Ho as [->|Ho].
    - exists fr. split; [now left|]. exact (disposed_in _ _ _ _ _ _ _ _ Hd Hr).
    - destruct (IH Ho) as (f & ? & ?). exists f. split; [now right|assumption]. }
  destruct Q as (fr & Hfr & Er). destruct (passed_in _ _ _ _ _ _ _ Pa Hfr) as (xe & Hx & Exe). exists xe. split; [exact Hx|]. rewrite Er. exact Exe.
Qed.
Lemma all_arrive bs : forall ix, exists ix', es_batches ix bs [] ix'.
Proof.
  induction bs as [|b bs IH]; intros ix; [exists ix; constructor|]. destruct (IH (es_export ix b)) as (ix' & H). exists ix'.
  apply (es_batch ix b b [] bs [] ix'); [rewrite app_nil_r; apply Permutation_refl|exact H].
Qed.

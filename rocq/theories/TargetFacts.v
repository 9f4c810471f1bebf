(** * TargetFacts: what each target makes of the batches when every record has its text. *)
From Coq Require Import Lia.
From Verif Require Import GoBase GoFacts ExportModel SpecExport ExportFacts SpecApp AppFacts.
Local Open Scope nat_scope.

Section T.
Context {R : Type} (enc : R -> option edata).
Lemma texts_parts bs ls : Forall2 (fun r l => enc r = Some (DBytes l)) (concat bs) ls ->
  exists lss, ls = concat lss /\ Forall2 (Forall2 (fun r l => enc r = Some (DBytes l))) bs lss.
Proof.
  revert ls. induction bs as [|b bs IH]; intros ls H; cbn [concat] in H.
  - inversion H. exists []. split; [reflexivity|constructor].
  - apply Forall2_app_inv_l in H as (l1 & l2 & H1 & H2 & ->). destruct (IH _ H2) as (lss & -> & F). exists (l1 :: lss). split; [reflexivity|constructor; assumption].
Qed.
Lemma texts_encode b ls : Forall2 (fun r l => enc r = Some (DBytes l)) b ls -> encode_all enc b = Some (map DBytes ls).
Proof. induction 1 as [|r l b ls H _ IH]; [reflexivity|]. cbn [encode_all map]. rewrite H, IH. reflexivity. Qed.
Lemma process_texts {Out} (exp : nat -> list edata -> Out * bool) i b ls : b <> [] -> Forall2 (fun r l => enc r = Some (DBytes l)) b ls ->
  process (encode_all enc) exp i b = Some (exp i (map DBytes ls)).
Proof. intros Hb H. unfold process. rewrite (texts_encode _ _ H). destruct H; [contradiction|]. reflexivity. Qed.

Lemma syslog_take ok : forall ls i, sublist (fst (syslog_export ok i (map DBytes ls))) ls /\ ((forall k, ok k = true) -> fst (syslog_export ok i (map DBytes ls)) = ls).
Proof.
  induction ls as [|l ls IH]; intros i; cbn [map syslog_export]; [split; [constructor|reflexivity]|].
  destruct (IH (S i)) as [H1 H2]. destruct (ok i) eqn:E.
  - destruct (syslog_export ok (S i) (map DBytes ls)) as [out err]. cbn [fst] in *. split; [now constructor|]. intros K. f_equal. auto.
  - cbn [fst]. split; [apply sublist_nil|]. intros K. rewrite K in E. discriminate.
Qed.
Lemma kafka_take ok : forall ls i, sublist (kafka_export ok i (map DBytes ls)) ls /\ ((forall k, ok k = true) -> kafka_export ok i (map DBytes ls) = ls).
Proof.
  induction ls as [|l ls IH]; intros i; cbn [map kafka_export]; [split; [constructor|reflexivity]|].
  destruct (IH (S i)) as [H1 H2]. destruct (ok i) eqn:E.
  - split; [now constructor|]. intros K. f_equal. auto.
  - split; [now constructor|]. intros K. rewrite K in E. discriminate.
Qed.
Lemma all_taken (exp : nat -> list edata -> list string * bool) (K : Prop) :
  (forall ls i, sublist (fst (exp i (map DBytes ls))) ls /\ (K -> fst (exp i (map DBytes ls)) = ls)) ->
  forall bs ls i, Forall (fun b => b <> []) bs -> Forall2 (fun r l => enc r = Some (DBytes l)) (concat bs) ls ->
  sublist (delivered (process_all (encode_all enc) exp i bs)) ls /\ (K -> delivered (process_all (encode_all enc) exp i bs) = ls).
Proof.
  intros He. induction bs as [|b bs IH]; intros ls i Hb H; cbn [concat] in H.
  - inversion H. split; [constructor|reflexivity].
  - inversion Hb as [|? ? B1 B2]; subst. apply Forall2_app_inv_l in H as (l1 & l2 & H1 & H2 & ->).
    cbn [process_all delivered flat_map]. rewrite (process_texts exp i b l1 B1 H1).
    destruct (IH l2 (i + length b) B2 H2) as [I1 I2]. unfold delivered in I1, I2. destruct (He l1 i) as [E1 E2]. destruct (exp i (map DBytes l1)) as [out err]. cbn [fst] in *.
    split; [apply sublist_app; assumption|]. intros Hk. rewrite E2, I2 by assumption. reflexivity.
Qed.
(** The terminal. *)
Lemma terminal_text ls : terminal_export (map DBytes ls) = String.concat "" (map (fun l => (l ++ nl)%string) ls).
Proof. rewrite terminal_lines. unfold lines. rewrite map_map. reflexivity. Qed.
Lemma terminal_all : forall bs ls i c, Forall (fun b => b <> []) bs -> Forall2 (fun r l => enc r = Some (DBytes l)) (concat bs) ls ->
  file_after c (process_all (encode_all enc) (fun _ ds => (terminal_export ds, false)) i bs) = (c ++ String.concat "" (map (fun l => (l ++ nl)%string) ls))%string.
Proof.
  induction bs as [|b bs IH]; intros ls i c Hb H; cbn [concat] in H.
  - inversion H. cbn. now rewrite sapp_nil_r.
  - inversion Hb as [|? ? B1 B2]; subst. apply Forall2_app_inv_l in H as (l1 & l2 & H1 & H2 & ->).
    unfold file_after. cbn [process_all fold_left]. rewrite (process_texts (fun _ ds => (terminal_export ds, false)) i b l1 B1 H1). fold (file_after (c ++ terminal_export (map DBytes l1)) (process_all (encode_all enc) (fun _ ds => (terminal_export ds, false)) (i + length b) bs)).
    rewrite (IH l2 _ _ B2 H2), terminal_text, map_app, slen_concat_app, sapp_assoc. reflexivity.
Qed.
End T.

(** * PermTac: permutations of concatenations by reflection, and list updates. *)
From Coq Require Export Permutation.
From Verif Require Import GoBase.

Section Perm.
Context {A : Type}.
Definition den (env : list (list A)) (l : list nat) : list A := concat (map (fun i => nth i env []) l).
Lemma den_perm env l l' : Permutation l l' -> Permutation (den env l) (den env l').
Proof.
  unfold den. induction 1; cbn [map concat]; auto.
  - now apply Permutation_app_head.
  - rewrite !app_assoc. apply Permutation_app_tail, Permutation_app_comm.
  - etransitivity; eauto.
Qed.
Fixpoint ninsert (n : nat) (l : list nat) : list nat :=
  match l with [] => [n] | m :: l' => if Nat.leb n m then n :: l else m :: ninsert n l' end.
Fixpoint nsort (l : list nat) : list nat := match l with [] => [] | n :: l' => ninsert n (nsort l') end.
Lemma ninsert_perm n l : Permutation (n :: l) (ninsert n l).
Proof. induction l as [|m l IH]; cbn; auto. destruct (Nat.leb n m); auto. rewrite perm_swap. now constructor. Qed.
Lemma nsort_perm l : Permutation l (nsort l).
Proof. induction l as [|n l IH]; cbn; auto. rewrite <- ninsert_perm. now constructor. Qed.
Lemma den_sort env l l' : nsort l = nsort l' -> Permutation (den env l) (den env l').
Proof. intros H. apply den_perm. rewrite (nsort_perm l), (nsort_perm l'). now rewrite H. Qed.
Lemma perm_frame (D X Y U V : list A) : Permutation U V -> Permutation X (D ++ U) -> Permutation Y (D ++ V) -> Permutation X Y.
Proof. intros H H1 H2. rewrite H1, H2. now apply Permutation_app_head. Qed.
End Perm.

Ltac p_find x env := match env with
  | x :: _ => constr:(0)
  | _ :: ?env' => let n := p_find x env' in constr:(S n)
  end.
Ltac p_add x env := match env with
  | _ => let _ := p_find x env in constr:(env)
  | _ => constr:(x :: env)
  end.
Ltac p_atoms l env := match l with
  | ?a ++ ?b => let e := p_atoms a env in p_atoms b e
  | ?x :: nil => p_add l env
  | ?x :: ?b => let T := type of l in let s := constr:(x :: nil : T) in
                let s' := eval cbv beta in (x :: nil) in
                let e := p_add s' env in p_atoms b e
  | nil => constr:(env)
  | _ => p_add l env
  end.
Ltac p_quote l env := match l with
  | ?a ++ ?b => let x := p_quote a env in let y := p_quote b env in eval cbv [app] in (x ++ y)
  | ?x :: nil => let n := p_find l env in constr:(n :: nil)
  | ?x :: ?b => let s' := eval cbv beta in (x :: nil) in
                let n := p_find s' env in let y := p_quote b env in constr:(n :: y)
  | nil => constr:(@nil nat)
  | _ => let n := p_find l env in constr:(n :: nil)
  end.
(** Closes [Permutation X Y] when X and Y are the same pieces concatenated in different orders. *)
Ltac perm :=
  match goal with |- @Permutation ?A ?X ?Y =>
    let e0 := constr:(@nil (list A)) in
    let e1 := p_atoms X e0 in let env := p_atoms Y e1 in
    let qx := p_quote X env in let qy := p_quote Y env in
    let H := fresh in
    assert (H : Permutation (den env qx) (den env qy)) by (apply den_sort; vm_compute; reflexivity);
    unfold den in H; cbn [map nth concat] in H; repeat rewrite app_nil_r in H; repeat rewrite <- app_assoc in H; cbn [app] in H;
    repeat rewrite <- app_assoc; repeat rewrite app_nil_r; cbn [app]; exact H
  end.
(** From [H : Permutation U V], with [D] the pieces common to both sides of the goal. *)
Ltac perm_with H D := apply (perm_frame D _ _ _ _ H); perm.

(** ** Updating a list at an index *)
Lemma upd_split {A} (l : list A) i x : nth_error l i = Some x ->
  exists a b, l = a ++ x :: b /\ length a = i /\ forall y, upd l i y = a ++ y :: b.
Proof.
  revert i. induction l as [|z l IH]; intros [|i]; cbn; try discriminate.
  - intros [= ->]. exists [], l. auto.
  - intros H. destruct (IH _ H) as (a & b & E & L & U). exists (z :: a), b. cbn. subst l. rewrite L. repeat split; auto. intros. now rewrite U.
Qed.
Lemma upd_length {A} (l : list A) i x : length (upd l i x) = length l.
Proof. revert i; induction l; intros [|i]; cbn; auto. Qed.
Lemma upd_nth {A} (l : list A) i j x : nth_error (upd l i x) j = if Nat.eqb i j then (match nth_error l j with Some _ => Some x | None => None end) else nth_error l j.
Proof. revert i j; induction l; intros [|i] [|j]; cbn; auto. destruct (Nat.eqb i j); auto. Qed.

Example perm_demo (x y : nat) (a b c : list nat) : Permutation (a ++ x :: b ++ (y :: c)) ((c ++ b) ++ y :: a ++ [x] ++ []).
Proof. perm. Qed.

(** * JsonFacts2: a JSON reader complete for the grammar, so a text denotes at most one value. *)
From Coq Require Import Lia ZifyBool Decimal DecimalString.
From Verif Require Import GoBase GoFacts Predicates FlatRecord FieldTables JsonModel SpecJson JsonFacts.
Open Scope string_scope.

(** ** Strings *)
Definition short_val (c : ascii) : option Z := match find (fun p => Ascii.eqb c (fst p)) short_escapes with Some (_, z) => Some z | None => None end.
Fixpoint jscan (s : string) : option (string * string) :=
  match s with
  | EmptyString => None
  | String c s1 =>
      if Ascii.eqb c """"%char then Some ("", s1)
      else if Ascii.eqb c "\"%char then
        match s1 with
        | String e s2 =>
            if Ascii.eqb e "u"%char then
              match s2 with
              | String c1 (String c2 (String c3 (String c4 s3))) =>
                  match hexval c1, hexval c2, hexval c3, hexval c4, jscan s3 with
                  | Some h1, Some h2, Some h3, Some h4, Some (t, r) => Some (utf8 (((h1 * 16 + h2) * 16 + h3) * 16 + h4)%Z ++ t, r)
                  | _, _, _, _, _ => None
                  end
              | _ => None
              end
            else match short_val e, jscan s2 with Some z, Some (t, r) => Some (utf8 z ++ t, r) | _, _ => None end
        | _ => None
        end
      else match jscan s1 with Some (t, r) => Some (String c t, r) | None => None end
  end.
Definition safe (c : ascii) : Prop := c <> """"%char /\ c <> "\"%char.
Lemma jscan_safe c s : safe c -> jscan (String c s) = match jscan s with Some (t, r) => Some (String c t, r) | None => None end.
Proof. intros [A B]. cbn [jscan]. rewrite (proj2 (Ascii.eqb_neq _ _) A), (proj2 (Ascii.eqb_neq _ _) B). reflexivity. Qed.
Lemma safe_byte c : byte c <> 34%Z -> byte c <> 92%Z -> safe c.
Proof. intros A B. split; intros ->; [apply A|apply B]; reflexivity. Qed.
Lemma utf8_scan cp s t r : scalar cp -> cp <> 34%Z -> cp <> 92%Z -> jscan s = Some (t, r) -> jscan (utf8 cp ++ s) = Some (utf8 cp ++ t, r).
Proof.
  intros S A B H. unfold scalar in S. unfold utf8.
  destruct (Z.ltb_spec cp 128); [|destruct (Z.ltb_spec cp 2048); [|destruct (Z.ltb_spec cp 65536)]]; cbn [append];
    repeat (rewrite jscan_safe; [|apply safe_byte; rewrite byte_chr; zdiv]); rewrite H; reflexivity.
Qed.
Lemma short_ok c cp : In (c, cp) short_escapes -> short_val c = Some cp /\ Ascii.eqb c "u"%char = false.
Proof. cbn [short_escapes In]. intros H. repeat destruct H as [H|H]; try (injection H as <- <-; split; reflexivity). contradiction. Qed.
Lemma jscan_ok b t : jstr b t -> forall r, jscan (b ++ """" ++ r) = Some (t, r).
Proof.
  induction 1 as [|cp b t S L N1 N2 H IH|c cp b t I H IH|c1 c2 c3 c4 h1 h2 h3 h4 b t H1 H2 H3 H4 S H IH]; intros r.
  - reflexivity.
  - rewrite sapp_assoc. apply utf8_scan; auto.
  - destruct (short_ok c cp I) as [V U]. cbn [append jscan]. cbn [Ascii.eqb Bool.eqb]. rewrite U, V. cbn [append] in IH. rewrite IH. reflexivity.
  - cbn [append jscan]. cbn [Ascii.eqb Bool.eqb]. rewrite H1, H2, H3, H4. cbn [append] in IH. rewrite IH. reflexivity.
Qed.
Lemma app_cancel_r (a b c : string) : a ++ c = b ++ c -> a = b.
Proof.
  revert b. induction a as [|x a IH]; intros [|y b]; cbn; intros E; auto.
  - apply (f_equal slen) in E. cbn in E. fold (slen c) in E. rewrite slen_app in E. unfold slen in *. lia.
  - apply (f_equal slen) in E. cbn in E. fold (slen c) in E. rewrite slen_app in E. unfold slen in *. lia.
  - injection E as -> E. f_equal. apply IH, E.
Qed.
(** A string ends at its closing quote: no other reading is possible. *)
Lemma jstr_ends b t r b' t' r' : jstr b t -> jstr b' t' -> b ++ """" ++ r = b' ++ """" ++ r' -> b = b' /\ t = t' /\ r = r'.
Proof.
  intros H H' E. pose proof (jscan_ok b t H r) as A. rewrite E, (jscan_ok b' t' H' r') in A. injection A as -> ->. split; auto.
  exact (app_cancel_r _ _ _ E).
Qed.
Lemma jstr_fun b t t' : jstr b t -> jstr b t' -> t = t'.
Proof. intros H H'. destruct (jstr_ends b t "" b t' "" H H' eq_refl) as (_ & E & _). exact E. Qed.

(** ** Numbers *)
Definition numchar (c : ascii) : bool := Ascii.eqb c "-"%char || match digit_val c with Some _ => true | None => false end.
Fixpoint span_num (s : string) : string * string :=
  match s with
  | String c s' => if numchar c then let (a, b) := span_num s' in (String c a, b) else ("", s)
  | EmptyString => ("", "")
  end.
Fixpoint all_num (s : string) : bool := match s with EmptyString => true | String c s' => numchar c && all_num s' end.
Definition nonum (r : string) : Prop := match r with String c _ => numchar c = false | EmptyString => True end.
Lemma span_num_ok a r : all_num a = true -> nonum r -> span_num (a ++ r) = (a, r).
Proof.
  induction a as [|c a IH]; cbn [all_num append span_num]; intros A N.
  - destruct r as [|c r]; [reflexivity|]. cbn [span_num]. cbn in N. rewrite N. reflexivity.
  - apply andb_prop in A as [A1 A2]. rewrite A1, (IH A2 N). reflexivity.
Qed.
Lemma uint_num u : all_num (NilEmpty.string_of_uint u) = true.
Proof. induction u; cbn; auto. Qed.
Definition read_num (s : string) : option Z :=
  match s with
  | String c s' => if Ascii.eqb c "-"%char then option_map Z.opp (parse_digits 0 s') else parse_digits 0 s
  | EmptyString => None
  end.
(** Every number begins with a digit or a minus sign, and is read back. *)
Lemma num_shape z : exists c s, format_int z = String c s /\ numchar c = true /\ all_num s = true /\ read_num (format_int z) = Some z.
Proof.
  unfold format_int. destruct z as [|p|p].
  - exists "0"%char, "". repeat split.
  - cbn [Z.to_int NilZero.string_of_int NilZero.string_of_uint]. unfold NilZero.string_of_uint.
    pose proof (DecimalPos.Unsigned.to_uint_nonnil p) as Np. destruct (Pos.to_uint p) as [|u|u|u|u|u|u|u|u|u|u] eqn:E; [contradiction|..]; rewrite <- E.
    all: assert (V : parse_digits 0 (NilEmpty.string_of_uint (Pos.to_uint p)) = Some (Zpos p)).
    all: try (rewrite parse_digits_uint, uint_val_of_uint; f_equal; change (Z.of_int (Z.to_int (Zpos p)) = Zpos p); apply DecimalZ.of_to).
    all: rewrite E in *; do 2 eexists; (split; [reflexivity|]); (split; [reflexivity|]); (split; [apply uint_num|]); exact V.
  - cbn [Z.to_int NilZero.string_of_int]. unfold NilZero.string_of_uint.
    pose proof (DecimalPos.Unsigned.to_uint_nonnil p) as Np. 
    assert (V : parse_digits 0 (NilEmpty.string_of_uint (Pos.to_uint p)) = Some (Zpos p)).
    { rewrite parse_digits_uint, uint_val_of_uint. f_equal. change (Z.of_int (Z.to_int (Zpos p)) = Zpos p). apply DecimalZ.of_to. }
    exists "-"%char, (NilEmpty.string_of_uint (Pos.to_uint p)).
    destruct (Pos.to_uint p) as [|u|u|u|u|u|u|u|u|u|u] eqn:E; [contradiction|..]; rewrite <- E in *;
      (split; [reflexivity|]); (split; [reflexivity|]); (split; [apply uint_num|]); cbn [read_num]; cbn [Ascii.eqb Bool.eqb]; rewrite V; reflexivity.
Qed.

(** ** Values *)
Definition strip (p s : string) : option string := if prefix p s then Some (sdrop (slen p) s) else None.
Fixpoint pval (n : nat) (s : string) {struct n} : option (json * string) :=
  match n with
  | 0 => None
  | S n =>
      match s with
      | EmptyString => None
      | String c r =>
          if Ascii.eqb c "n"%char then match r with String "u" (String "l" (String "l" r')) => Some (JNull, r') | _ => None end
          else if Ascii.eqb c "t"%char then match r with String "r" (String "u" (String "e" r')) => Some (JBool true, r') | _ => None end
          else if Ascii.eqb c "f"%char then match r with String "a" (String "l" (String "s" (String "e" r'))) => Some (JBool false, r') | _ => None end
          else if Ascii.eqb c """"%char then match jscan r with Some (t, r') => Some (JStr t, r') | None => None end
          else if Ascii.eqb c "["%char then
            match r with
            | String e r' => if Ascii.eqb e "]"%char then Some (JArr [], r')
                             else match pelems n r with Some (l, r') => Some (JArr l, r') | None => None end
            | EmptyString => None
            end
          else if Ascii.eqb c "{"%char then
            match r with
            | String e r' => if Ascii.eqb e "}"%char then Some (JObj [], r')
                             else match pmembers n r with Some (l, r') => Some (JObj l, r') | None => None end
            | EmptyString => None
            end
          else if numchar c then
            let (a, r') := span_num s in match read_num a with Some z => Some (JNum z, r') | None => None end
          else None
      end
  end
with pelems (n : nat) (s : string) {struct n} : option (list json * string) :=
  match n with
  | 0 => None
  | S n =>
      match pval n s with
      | Some (v, String "]" r) => Some ([v], r)
      | Some (v, String "," r) => match pelems n r with Some (l, r') => Some (v :: l, r') | None => None end
      | _ => None
      end
  end
with pmembers (n : nat) (s : string) {struct n} : option (list (string * json) * string) :=
  match n with
  | 0 => None
  | S n =>
      match s with
      | String """" s1 =>
          match jscan s1 with
          | Some (k, String ":" s2) =>
              match pval n s2 with
              | Some (v, String "}" r) => Some ([(k, v)], r)
              | Some (v, String "," r) => match pmembers n r with Some (l, r') => Some ((k, v) :: l, r') | None => None end
              | _ => None
              end
          | _ => None
          end
      | _ => None
      end
  end.
Scheme jtext_mut := Induction for jtext Sort Prop
  with elements_mut := Induction for elements Sort Prop
  with members_mut := Induction for members Sort Prop.
Combined Scheme jtext_all from jtext_mut, elements_mut, members_mut.

Definition val_start (c : ascii) : bool := existsb (Ascii.eqb c) ["n"; "t"; "f"; """"; "["; "{"]%char || numchar c.
Lemma jtext_start s v : jtext s v -> exists c s', s = String c s' /\ val_start c = true.
Proof.
  intros H. destruct H; cbn [append]; try (do 2 eexists; split; [reflexivity|]; reflexivity).
  destruct (num_shape z) as (c & s & E & N & _). exists c, s. split; [exact E|]. unfold val_start. rewrite N. apply orb_true_r.
Qed.
Lemma elements_start s l : elements s l -> exists c s', s = String c s' /\ val_start c = true.
Proof. destruct 1 as [s v H|s v s' l H _]; destruct (jtext_start s v H) as (c & r & -> & V); cbn [append]; eauto. Qed.
Lemma arr_branch c : val_start c = true -> Ascii.eqb c "]"%char = false.
Proof. intros V. apply Ascii.eqb_neq. intros ->. discriminate V. Qed.
Lemma num_branch c : numchar c = true -> Ascii.eqb c "n"%char = false /\ Ascii.eqb c "t"%char = false /\ Ascii.eqb c "f"%char = false /\ Ascii.eqb c """"%char = false /\ Ascii.eqb c "["%char = false /\ Ascii.eqb c "{"%char = false.
Proof. intros H. repeat split; (destruct (Ascii.eqb_spec c _) as [->|]; [discriminate H|reflexivity]) || (apply Ascii.eqb_neq; intros ->; discriminate H). Qed.
Theorem parse_complete :
  (forall s v, jtext s v -> exists n0, forall n r, n0 <= n -> nonum r -> pval n (s ++ r) = Some (v, r)) /\
  (forall s l, elements s l -> exists n0, forall n r, n0 <= n -> pelems n (s ++ "]" ++ r) = Some (l, r)) /\
  (forall s l, members s l -> exists n0, forall n r, n0 <= n -> pmembers n (s ++ "}" ++ r) = Some (l, r)).
Proof.
  apply jtext_all.
  - exists 1. intros [|n] r L N; [lia|]. reflexivity.
  - exists 1. intros [|n] r L N; [lia|]. reflexivity.
  - exists 1. intros [|n] r L N; [lia|]. reflexivity.
  - intros z. exists 1. intros [|n] r L N; [lia|]. destruct (num_shape z) as (c & s & E & Nc & A & V).
    rewrite E in *. cbn [append pval]. destruct (num_branch c Nc) as (B0 & B1 & B2 & B3 & B4 & B5). rewrite B0, B1, B2, B3, B4, B5, Nc.
    pose proof (span_num_ok (String c s) r) as Sp. cbn [all_num append] in Sp. rewrite Sp; [|rewrite Nc, A; reflexivity|exact N]. rewrite V. reflexivity.
  - intros b t H. exists 1. intros [|n] r L N; [lia|]. cbn [append pval]. cbn [Ascii.eqb Bool.eqb]. rewrite !sapp_assoc. rewrite (jscan_ok b t H r). reflexivity.
  - exists 1. intros [|n] r L N; [lia|]. reflexivity.
  - intros s l H (n0 & IH). exists (S n0). intros [|n] r L N; [lia|]. rewrite !sapp_assoc. cbn [append pval]. cbn [Ascii.eqb Bool.eqb].
    specialize (IH n r ltac:(lia)). destruct (elements_start s l H) as (c & s' & -> & V). cbn [append] in *. rewrite (arr_branch c V). rewrite IH. reflexivity.
  - exists 1. intros [|n] r L N; [lia|]. reflexivity.
  - intros s l H (n0 & IH). exists (S n0). intros [|n] r L N; [lia|]. rewrite !sapp_assoc. cbn [append pval]. cbn [Ascii.eqb Bool.eqb].
    specialize (IH n r ltac:(lia)). destruct H; rewrite ?sapp_assoc in *; cbn [append] in *; rewrite IH; reflexivity.
  - intros s v H (n0 & IH). exists (S n0). intros [|n] r L; [lia|]. cbn [pelems]. rewrite IH by (try reflexivity; lia). reflexivity.
  - intros s v s' l H (n0 & IH) H' (n1 & IH'). exists (S (n0 + n1)). intros [|n] r L; [lia|]. cbn [pelems]. rewrite !sapp_assoc.
    rewrite IH by (try reflexivity; lia). cbn [append]. cbn [append] in IH'. rewrite IH' by lia. reflexivity.
  - intros b k s v J H (n0 & IH). exists (S n0). intros [|n] r L; [lia|]. cbn [append pmembers]. rewrite !sapp_assoc.
    pose proof (jscan_ok b k J (String ":" (s ++ "}" ++ r))) as Sc. cbn [append] in Sc |- *. rewrite Sc. cbn [append] in IH. rewrite IH by (try reflexivity; lia). reflexivity.
  - intros b k s v s' l J H (n0 & IH) H' (n1 & IH'). exists (S (n0 + n1)). intros [|n] r L; [lia|]. cbn [append pmembers]. rewrite !sapp_assoc.
    pose proof (jscan_ok b k J (String ":" (s ++ "," ++ s' ++ "}" ++ r))) as Sc. cbn [append] in Sc |- *. rewrite ?sapp_assoc. cbn [append]. rewrite Sc. rewrite IH by (try reflexivity; lia).
    cbn [append]. cbn [append] in IH'. rewrite IH' by lia. reflexivity.
Qed.
Lemma jtext_parse s v : jtext s v -> exists n0, forall n, n0 <= n -> pval n s = Some (v, "").
Proof. intros H. destruct (proj1 parse_complete s v H) as (n0 & P). exists n0. intros n L. specialize (P n "" L I). rewrite sapp_nil_r in P. exact P. Qed.
(** A text denotes at most one value. *)
Theorem jtext_fun s v v' : jtext s v -> jtext s v' -> v = v'.
Proof.
  intros H H'. destruct (jtext_parse s v H) as (n & P), (jtext_parse s v' H') as (n' & P').
  specialize (P (n + n') ltac:(lia)). specialize (P' (n + n') ltac:(lia)). congruence.
Qed.

(** * Comparison of strings, rationals and lists

    [Ord] instances of the Rust types used as data: [u32]/[N], [bool], [str] and [Vec<u8>]
    (bytewise lexicographic), [BigRational], [Vec<T>] (lexicographic). *)

From Coq Require Import String Ascii List Bool Arith NArith QArith Qcanon Lia.
Import ListNotations.
From Verif Require Import Base BaseProofs.
Open Scope list_scope.

(** Laws of a comparison function at one point, stable by lexicographic extension. *)
Definition laws_at {A} (f : A -> A -> comparison) (a : A) : Prop :=
  (forall b, f a b = Eq <-> a = b) /\
  (forall b, f b a = CompOpp (f a b)) /\
  (forall b c, f a b = Lt -> f b c <> Gt -> f a c = Lt).

Lemma laws_of {A} (f : A -> A -> comparison) :
  (forall a, laws_at f a) -> @CmpLaws A f.
Proof.
  intros H. split; unfold cmp.
  - intros a b. apply (H a).
  - intros a b. apply (H a).
  - intros a b c X Y. apply (H a) with b; auto. congruence.
Qed.

Lemma laws_at_cmp {A} {C : Cmp A} {L : CmpLaws A} a : laws_at cmp a.
Proof.
  repeat split.
  - apply cmp_eq.
  - apply cmp_eq.
  - intros b. apply cmp_opp.
  - intros b c X Y. destruct (cmp b c) eqn:E; try congruence.
    + apply cmp_eq in E. congruence.
    + eapply cmp_trans; eauto.
Qed.

(** Lexicographic combination. *)
Definition lex (c d : comparison) : comparison := match c with Eq => d | _ => c end.

Section ListCmp.
Context {A : Type}.
Variable f : A -> A -> comparison.

(** [Ord for Vec<T>] / [BTreeMap] / [str]: lexicographic. *)
Fixpoint list_cmp (l l' : list A) : comparison :=
  match l, l' with
  | [], [] => Eq
  | [], _ :: _ => Lt
  | _ :: _, [] => Gt
  | a :: l, a' :: l' => lex (f a a') (list_cmp l l')
  end.

Lemma list_laws l : Forall (laws_at f) l -> laws_at list_cmp l.
Proof.
  induction 1 as [|a l (E & O & T) _ (EL & OL & TL)].
  - split; [|split].
    + intros [|b l']; simpl; split; congruence.
    + intros [|b l']; reflexivity.
    + intros [|b l'] [|c l'']; simpl; congruence.
  - split; [intros b0; split|split].
    + destruct b0 as [|b l']; simpl; [discriminate|].
      destruct (f a b) eqn:F; simpl; try discriminate.
      intros H. apply EL in H. apply E in F. congruence.
    + intros <-. simpl. rewrite (proj2 (E a) eq_refl). simpl. now apply EL.
    + intros [|b l']; simpl; auto. rewrite O. destruct (f a b); simpl; auto.
    + intros [|b l'] [|c l'']; simpl; try congruence.
      destruct (f a b) eqn:F; simpl; try congruence.
      * apply E in F as <-. destruct (f a c) eqn:F'; simpl; try congruence. apply TL.
      * intros _. destruct (f b c) eqn:F'; simpl; try congruence.
        -- intros _. rewrite (T b c); auto; congruence.
        -- intros _. rewrite (T b c); auto; congruence.
Qed.
End ListCmp.

Section PairCmp.
Context {A B : Type}.
Variable f : A -> A -> comparison.
Variable g : B -> B -> comparison.
Definition pair_cmp (p p' : A * B) : comparison :=
  lex (f (fst p) (fst p')) (g (snd p) (snd p')).

Lemma pair_laws a b : laws_at f a -> laws_at g b -> laws_at pair_cmp (a, b).
Proof.
  intros (E & O & T) (E' & O' & T'). unfold pair_cmp. split; [intros b0; split|split].
  - destruct b0 as [a0 b0]; simpl. destruct (f a a0) eqn:F; simpl; try discriminate.
    intros H. apply E in F. apply E' in H. congruence.
  - intros <-. simpl. rewrite (proj2 (E a) eq_refl). simpl. now apply E'.
  - intros [a0 b0]; simpl. rewrite O. destruct (f a a0); simpl; auto.
  - intros [a0 b0] [a1 b1]; simpl.
    destruct (f a a0) eqn:F; simpl; try congruence.
    + apply E in F as <-. destruct (f a a1) eqn:F'; simpl; try congruence. apply T'.
    + intros _. destruct (f a0 a1) eqn:F'; simpl; try congruence; intros _;
        rewrite (T a0 a1); auto; congruence.
Qed.
End PairCmp.

Global Instance cmp_list {A} {C : Cmp A} : Cmp (list A) := list_cmp cmp.
Global Instance cmp_list_laws {A} {C : Cmp A} {L : CmpLaws A} : CmpLaws (list A).
Proof.
  apply laws_of. intros l. apply list_laws. apply Forall_forall. intros. apply laws_at_cmp.
Qed.

Global Instance cmp_bool : Cmp bool := fun a b =>
  match a, b with
  | false, true => Lt
  | true, false => Gt
  | _, _ => Eq
  end.
Global Instance cmp_bool_laws : CmpLaws bool.
Proof.
  apply laws_of. intros []; (split; [|split]).
  all: try (intros []; (reflexivity || (split; simpl; congruence))).
  all: intros [] []; simpl; congruence.
Qed.

Global Instance cmp_N : Cmp N := N.compare.
Global Instance cmp_N_laws : CmpLaws N.
Proof.
  split; unfold cmp, cmp_N; intros.
  - apply N.compare_eq_iff.
  - apply N.compare_antisym.
  - rewrite N.compare_lt_iff in *. lia.
Qed.

Global Instance cmp_Z : Cmp Z := Z.compare.
Global Instance cmp_Z_laws : CmpLaws Z.
Proof.
  split; unfold cmp, cmp_Z; intros.
  - apply Z.compare_eq_iff.
  - apply Z.compare_antisym.
  - rewrite Z.compare_lt_iff in *. lia.
Qed.

Global Instance cmp_ascii : Cmp ascii := fun a b => N.compare (N_of_ascii a) (N_of_ascii b).
Global Instance cmp_ascii_laws : CmpLaws ascii.
Proof.
  split; unfold cmp, cmp_ascii; intros.
  - rewrite N.compare_eq_iff. split; [|congruence].
    intros H. rewrite <- (ascii_N_embedding a), <- (ascii_N_embedding b). congruence.
  - apply N.compare_antisym.
  - rewrite N.compare_lt_iff in *. lia.
Qed.

Global Instance cmp_string : Cmp string := fun a b =>
  cmp (list_ascii_of_string a) (list_ascii_of_string b).
Lemma cmp_string_def (a b : string) :
  cmp a b = cmp (list_ascii_of_string a) (list_ascii_of_string b).
Proof. reflexivity. Qed.
Global Instance cmp_string_laws : CmpLaws string.
Proof.
  split; intros *; rewrite !cmp_string_def.
  - rewrite cmp_eq. split; [|congruence].
    intros H. rewrite <- (string_of_list_ascii_of_string a), <- (string_of_list_ascii_of_string b).
    congruence.
  - apply cmp_opp.
  - apply cmp_trans.
Qed.

Global Instance cmp_Qc : Cmp Qc := Qccompare.
Global Instance cmp_Qc_laws : CmpLaws Qc.
Proof.
  split; unfold cmp, cmp_Qc; intros.
  - symmetry. apply Qceq_alt.
  - unfold Qccompare. symmetry. apply Qcompare_antisym.
  - rewrite <- Qclt_alt in *. eapply Qclt_trans; eauto.
Qed.

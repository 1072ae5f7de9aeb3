(** * C116: a case and assumptions *)

From Coq Require Import String Ascii List Bool Arith NArith ZArith QArith Qcanon Lia.
Import ListNotations.
From Verif Require Import Base BaseProofs Orders PatternModel ValueModel LayoutModel NumberModel HydrateModel JsonModel TermModel
  AutomatonModel AbsSerdeModel LayoutSerdeModel LayoutSerdeExamples SerdeDocSpec SerdeDocProofs LayoutDocSpec LayoutDocProofs LayoutDocProperties AbsSerdeTotal LayoutDocTotal.
Open Scope list_scope.
Open Scope nat_scope.
Open Scope string_scope.
#[local] Existing Instance serde_terms.

(** A record whose field is given as a sequence and has a literal layout, with an entry that is ignored. *)
Definition record_doc : serde_value Qc :=
  variant_ldoc "Product" (text_map
    [("comment", SStr "ignored"); ("input", SU64 1); ("intro", SI64 0); ("extra_properties", SMap []); ("dataset", SSeq []);
     ("fields", SMap [(SStr "name", SSeq [SU64 1; text_map [("layout", put_term (TmIri "e:name")); ("input", SSeq [variant_ldoc "Var" (SU64 1)])]; SSeq []; SBool true])])]).
Definition record_read : layout term :=
  ProductL (Header 1 0 []) [(VLit (LText "name"), Field (Item 1 (VFormat (TmIri "e:name") [PVar 1] None) []) true)].
Example record_get : get_layout Some record_doc = Ok (record_read, []).
Proof. vm_compute. reflexivity. Qed.
Example record_ldoc : layout_ldoc Some record_doc record_read [].
Proof. apply C116_reads. exact record_get. Qed.

(** Refused: a field that does not say if it is required, a sequence of five values, a variable that is not a [u32]. *)
Definition format_doc : serde_value Qc := text_map [("layout", put_term (TmIri "e:name")); ("input", SSeq [])].
Example not_said : forall f, get_field (R := term) (text_map [("intro", SU64 1); ("value", format_doc); ("dataset", SSeq [])]) <> Ok f.
Proof.
  intros f E. apply C116_field in E as [(o & b & X & I & _)|(n & v & d & b & X & _)]; [|discriminate X].
  apply SerdeDocNested.text_map_inj in X as <-. cbn in I. intuition discriminate.
Qed.
Example too_long : forall f, get_field (R := term) (SSeq [SU64 1; format_doc; SSeq []; SBool true; SUnit]) <> Ok f.
Proof. intros f E. apply C116_field in E as [(o & b & X & _)|(n & v & d & b & X & _)]; discriminate X. Qed.
Example too_large : get_pattern (R := term) (variant_ldoc "Var" (SU64 (2 ^ 32) : serde_value Qc)) = Err tt.
Proof. vm_compute. reflexivity. Qed.
Example ignored : exists f, get_field (R := term) (text_map [("comment", SUnit); ("intro", SU64 1); ("value", format_doc); ("dataset", SSeq []); ("required", SBool true)]) = Ok f.
Proof. eexists. apply C116_ignores; [cbn; intuition discriminate|]. vm_compute. reflexivity. Qed.

(** The readers of the terms of LayoutSerdeExamples.v give a result or an error, so that what is not in the grammar is an error. *)
Ltac settle := repeat match goal with
  | |- settled (Ok _) => apply settled_ok
  | |- settled (Err tt) => apply settled_err
  | |- settled (bind _ _) => apply settled_bind; [|intros ? _]
  | |- settled (match ?x with _ => _ end) => destruct x
  end.
Lemma terms_resource : forall s : serde_value Qc, settled (get_resource (R := term) s).
Proof. intros s. cbn [get_resource serde_terms]. unfold get_term. settle; auto using t_string. Qed.
Lemma terms_dataset : forall s : serde_value Qc, settled (get_dataset (R := term) s).
Proof.
  apply t_vec. assert (P : forall s : serde_value Qc, settled (get_pat s)) by (intros s; unfold get_pat; settle; apply terms_resource).
  intros s. unfold get_quad. settle; apply P.
Qed.
Lemma terms_range : forall s : serde_value Qc, settled (get_range (R := term) s).
Proof. intros s. cbn [get_range serde_terms]. settle. Qed.
Example unknown_variant : forall l ex, ~ layout_ldoc (R := term) Some (variant_ldoc "Union" (SU64 1 : serde_value Qc)) l ex.
Proof. apply (C116_refuses Some terms_resource terms_dataset terms_range). vm_compute. reflexivity. Qed.

Print Assumptions C116_refuses.
Print Assumptions C116_reads.
Print Assumptions C116_field.
Print Assumptions C116_ignores.

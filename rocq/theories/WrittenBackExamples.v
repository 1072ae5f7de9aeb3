(** * C121: the record of WriteBackExamples.v is always written back *)

From Coq Require Import String List Bool Arith NArith ZArith Lia Permutation Qcanon.
Import ListNotations.
From Verif Require Import Base BaseProofs Orders PatternModel MatchingModel MatchingSpec MatchingProofs ValueModel LayoutModel LayoutSpec HydrateModel HydrateSpec
  HydrateProperties TermModel HydrateExamples DehydrateModel DehydrateSpec DehydrateFinish DehydrateProperties DehydrateExamples RoundTripSpec RoundTripProperties
  RoundTripExamples RegistryProperties OtherDataProperties RenameProperties OtherDataExamples DehydrateUnique DehydrateUniqueProperties DehydrateUniqueExamples
  WriteBackSpec WriteBackProperties WriteBackExamples AmbiguityProperties NormalLiterals WrittenBack.
From Verif Require TakenSpec TakenProperties ReorderExamples.
Open Scope list_scope.
Open Scope nat_scope.
Open Scope string_scope.

Lemma team_In r l : team_reg r = Some l -> In (r, l) team.
Proof. apply bt_get_In. Qed.
Ltac each_team H := apply team_In in H; unfold team in H; cbn [In] in H; repeat (destruct H as [[= <- <-]|H]); [..|destruct H].

Example team_apart : texts_apart team_reg.
Proof.
  intros ref pat h r ty H. apply team_In in H. unfold team in H. cbn [In] in H. repeat (destruct H as [[=]|H]); [subst ty|destruct H].
  split; [discriminate|vm_compute; reflexivity].
Qed.
Example team_normal : normal_names team_reg.
Proof.
  intros ref l lit lit' H N L. exfalso. each_team H; inversion N; subst; unfold prop, self in *; cbn in *;
    repeat match goal with
    | A : _ \/ _ |- _ => destruct A as [A|A]
    | A : False |- _ => destruct A
    | A : (_, _) = (_, _) |- _ => injection A as <- <-; cbn in *
    | A : PVar _ = PRes _ |- _ => discriminate A
    | A : Item _ _ _ = ?y |- _ => is_var y; subst y; cbn in *
    end.
Qed.
Example team_supported r l : team_reg r = Some l -> supported l.
Proof. intro H. each_team H; cbn; try exact Logic.I; eexists; try split; vm_compute; reflexivity. Qed.
Example team_no_sum : no_sum team_reg.
Proof. intros ref h vs H. apply team_In in H. unfold team in H. cbn [In] in H. repeat (destruct H as [[=]|H]). destruct H. Qed.

(** The identifiers and the numbers of a value, by computation. *)
Fixpoint good_ids (v : typed_value term) : bool :=
  match v with
  | TLit (TId i _) => is_iri i
  | TLit _ | TAlways _ => true
  | TVariant v _ _ => good_ids v
  | TMap m _ => forallb (fun kv => good_ids (snd kv)) m
  | TList l _ => forallb good_ids l
  end.
Lemma good_ids_valid v : good_ids v = true -> TakenSpec.ids_valid v.
Proof.
  intros N i H. revert N. induction H as [i ref|v ref j i H IH|m ref k v i Hin H IH|l ref v i Hin H IH]; cbn [good_ids]; intros N; auto.
  - rewrite forallb_forall in N. exact (IH (N _ Hin)).
  - rewrite forallb_forall in N. exact (IH (N _ Hin)).
Qed.
Fixpoint good_numbers (v : value) : bool :=
  match v with
  | VLit (LNum n) => match decimal_print n with Some _ => true | None => false end
  | VLit _ => true
  | VMap m => forallb (fun kv => good_numbers (snd kv)) m
  | VList l => forallb good_numbers l
  end.
Lemma good_numbers_print v n : good_numbers v = true -> part (VLit (LNum n)) v -> decimal_print n <> None.
Proof.
  intros N H. remember (VLit (LNum n)) as x eqn:E. revert N. induction H as [v|v k w m Hin H IH|v w l Hin H IH]; cbn [good_numbers]; intros N.
  - subst v. cbn [good_numbers] in N. now destruct (decimal_print n).
  - rewrite forallb_forall in N. exact (IH E (N _ Hin)).
  - rewrite forallb_forall in N. exact (IH E (N _ Hin)).
Qed.

(** C121 applies: whatever the order of the sets, the record is written, with quads of the dataset. *)
Example team_total order : (forall l, Permutation (order l) l) -> exists tv,
  hydrate (list_dataset team_data) team_reg 10 (iri "team") [iri "http://team"] = Ok tv /\
  exists enough, forall fuel, enough <= fuel -> exists ds vals f, dehydrate order team_reg fuel (into_untyped tv) (iri "team") default_options = Ok (ds, vals) /\
    renames_blanks f /\ (forall q, In q ds -> exists q0, In q0 team_data /\ normal_quad (rename_quad f q) q0) /\
    (length vals = 1 -> Forall2 normal_term (map f vals) [iri "http://team"]).
Proof.
  intro OP. destruct (hydrate (list_dataset team_data) team_reg 10 (iri "team") [iri "http://team"]) as [tv|e|w|] eqn:EH;
    [|vm_compute in EH; discriminate..].
  exists tv. split; [reflexivity|].
  assert (V : good_ids tv = true) by (vm_compute in EH; injection EH as <-; vm_compute; reflexivity).
  assert (N : good_numbers (into_untyped tv) = true) by (vm_compute in EH; injection EH as <-; vm_compute; reflexivity).
  assert (ND : is_decimal_type xsd_boolean = false) by (vm_compute; reflexivity).
  apply (C121_total_written team_reg ND integers_read_back team_plain team_sorted team_apart team_normal ReorderExamples.team_declared
    (TakenProperties.C120_no_sum _ team_no_sum) team_supported (fun _ => 0) 1 (fun _ => Nat.lt_0_1)
    ltac:(intros r h vs va H; exfalso; exact (team_no_sum r h vs H)) order OP default_options team_no_blank default_blank default_options_fresh
    (list_dataset team_data) (fun q => In q team_data) 10 (iri "team") [iri "http://team"] tv).
  - apply list_dataset_enumerates. unfold team_data. repeat constructor; simpl; intuition discriminate.
  - exact EH.
  - now apply good_ids_valid.
  - intros n. now apply good_numbers_print.
Qed.

Print Assumptions C121_total.
Print Assumptions C121_total_written.
Print Assumptions team_total.

(** * C120: examples *)

From Coq Require Import String List Bool Arith NArith ZArith Lia Permutation Qcanon.
Import ListNotations.
From Verif Require Import Base BaseProofs Orders PatternModel MatchingModel MatchingSpec MatchingProofs ValueModel LayoutModel LayoutSpec HydrateModel HydrateSpec
  HydrateProperties TermModel HydrateExamples DehydrateModel DehydrateSpec DehydrateProofs DehydrateFinish DehydrateProperties DehydrateExamples
  AcceptSpec AcceptProofs AcceptProperties TakenSpec TakenProofs TakenProperties.
Open Scope list_scope.
Open Scope nat_scope.
Open Scope string_scope.

(** The data of HydrateExamples.v: read, and written back. *)
Ltac declared :=
  repeat match goal with
  | H : False |- _ => destruct H
  | H : exists _, _ |- _ => destruct H as (? & H)
  | H : _ /\ _ |- _ => destruct H
  | H : _ \/ _ |- _ => destruct H
  | H : PVar _ = PVar _ |- _ => injection H as H
  | H : Some _ = Some _ |- _ => injection H as H
  | H : (_, _) = (_, _) |- _ => injection H as ? ?
  | H : PRes _ = PVar _ |- _ => discriminate H
  | H : None = Some _ |- _ => discriminate H
  | H : _ = ?y |- _ => is_var y; subst y
  | _ => progress (unfold item_undeclared, header_undeclared, var_of, qvar_of, pvar_of, no_header, prop, self in *)
  | _ => progress cbn in *
  end; try lia.
Example people_declared : declared_registry people_reg.
Proof.
  intros ref l x H U. apply bt_get_In in H. unfold people in H. cbn [In] in H.
  repeat (destruct H as [[= <- <-]|H]; [declared|]). destruct H.
Qed.
Example people_no_sum : no_sum people_reg.
Proof.
  intros ref h vs H. apply bt_get_In in H. unfold people in H. cbn [In] in H. repeat (destruct H as [[=]|H]). destruct H.
Qed.
Definition people_value : typed_value term :=
  match hydrate people_data people_reg 10 (iri "person") [iri "alice"] with Ok v => v | _ => TAlways vunit end.
Example people_read : hydrate people_data people_reg 10 (iri "person") [iri "alice"] = Ok people_value.
Proof. vm_compute. reflexivity. Qed.
Fixpoint no_ids (v : typed_value term) : bool :=
  match v with
  | TLit (TId _ _) => false
  | TLit _ | TAlways _ => true
  | TVariant v _ _ => no_ids v
  | TMap m _ => forallb (fun kv => no_ids (snd kv)) m
  | TList l _ => forallb no_ids l
  end.
Lemma no_ids_valid v : no_ids v = true -> ids_valid v.
Proof.
  intros N i H. exfalso. revert N. induction H as [i ref|v ref j i H IH|m ref k v i Hin H IH|l ref v i Hin H IH]; cbn [no_ids]; intros N.
  - discriminate.
  - auto.
  - rewrite forallb_forall in N. exact (IH (N _ Hin)).
  - rewrite forallb_forall in N. exact (IH (N _ Hin)).
Qed.
Example people_ids : ids_valid people_value.
Proof. apply no_ids_valid. vm_compute. reflexivity. Qed.
Example people_taken : Takes people_reg (iri "person") 1 (into_untyped people_value).
Proof.
  exact (C120_taken people_data _ people_enumerates people_reg people_sorted people_declared (C120_no_sum _ people_no_sum)
    10 None (iri "person") [iri "alice"] people_value people_read people_ids).
Qed.

(** Two variants that are told apart by the data but not by the value: the value that is read is refused. *)
Definition either : registry term := layouts_get [
  (iri "either", SumL (Header 1 1 []) [
     Variant "p" (Item 0 (VFormat (iri "string") [PVar 1] None) [Quad (PVar 0) (PRes (iri "p")) (PVar 1) None]);
     Variant "q" (Item 0 (VFormat (iri "string") [PVar 1] None) [Quad (PVar 0) (PRes (iri "q")) (PVar 1) None])]);
  (iri "string", DataL (KTextString None) no_header (PVar 0) (iri xsd_string))].
Theorem C120_sums_refuted : exists (reg : registry term) D tv,
  registry_sorted reg /\ declared_registry reg /\
  enumerates D (fun q => In q [Quad (iri "x") (iri "p") (text "a") None]) /\
  hydrate D reg 10 (iri "either") [iri "x"] = Ok tv /\ ids_valid tv /\
  dehydrate same reg 10 (into_untyped tv) (iri "either") default_options = Err DDataAmbiguity.
Proof.
  exists either, (list_dataset [Quad (iri "x") (iri "p") (text "a") None]). eexists. split; [|split; [|split; [|split; [|split]]]].
  - intros ref l H. apply bt_get_In in H. cbn in H. repeat (destruct H as [[= <- <-]|H]; [exact Logic.I|]). destruct H.
  - intros ref l x H U. apply bt_get_In in H. cbn [In] in H.
    repeat (destruct H as [[= <- <-]|H]; [declared|]). destruct H.
  - apply list_dataset_enumerates. no_dup.
  - vm_compute. reflexivity.
  - intros i H. inversion H; subst. match goal with H : id_of _ _ |- _ => inversion H end.
  - vm_compute. reflexivity.
Qed.

(** A sum whose variants exclude each other: a text or a number. *)
Definition kinds : registry term := layouts_get [
  (iri "kinds", SumL (Header 1 1 []) [
     Variant "p" (Item 0 (VFormat (iri "string") [PVar 1] None) [Quad (PVar 0) (PRes (iri "p")) (PVar 1) None]);
     Variant "q" (Item 0 (VFormat (iri "number") [PVar 1] None) [Quad (PVar 0) (PRes (iri "q")) (PVar 1) None])]);
  (iri "number", DataL KNumber no_header (PVar 0) (iri xsd_integer));
  (iri "string", DataL (KTextString None) no_header (PVar 0) (iri xsd_string))].
Lemma data_taken (reg : registry term) ref n v k h r dt : reg ref = Some (DataL k h r dt) -> Takes reg ref n v -> exists x, v = VLit x /\ of_kind k x.
Proof. intros E T. inversion T as [? ? ? E'|? ? ? l' E' SL N OV RK|? ? ? h' vs i va E' N]; subst; rewrite E in E'; try discriminate E'. injection E' as <-. exact RK. Qed.
Example kinds_decided : decided_sums kinds.
Proof.
  intros ref h vs i va v H N T j vb N' NE. apply bt_get_In in H. cbn [In] in H. destruct H as [H|[H|[H|[]]]]; try discriminate H. injection H as <- <- <-.
  destruct i as [|[|[|i]]]; try discriminate N; injection N as <-; destruct j as [|[|[|j]]]; try discriminate N'; try congruence; injection N' as <-;
    inversion T as [? ? ? _ T']; subst; eapply data_taken in T' as (x & -> & K); try reflexivity; cbn in K;
    (eapply VR_value, R_kind; [reflexivity|]); intros (y & [= <-] & K'); destruct x; contradiction.
Qed.
Example kinds_read : exists tv, hydrate (list_dataset [Quad (iri "x") (iri "q") (int "7") None]) kinds 10 (iri "kinds") [iri "x"] = Ok tv /\
  exists out, dehydrate same kinds 10 (into_untyped tv) (iri "kinds") default_options = Ok out.
Proof. eexists. split; [vm_compute; reflexivity|]. eexists. vm_compute. reflexivity. Qed.

Print Assumptions C120_taken.
Print Assumptions C120_not_refused.
Print Assumptions C120_no_sum.
Print Assumptions C120_public.
Print Assumptions C120_sums_refuted.

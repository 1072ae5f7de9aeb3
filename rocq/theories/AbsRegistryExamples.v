(** * The registry of a builder: a case of C76 *)

From Coq Require Import String Ascii List Bool Arith NArith Lia.
Import ListNotations.
From Verif Require Import Base BaseProofs Orders PatternModel ValueModel LayoutModel HydrateModel TermModel DehydrateModel
  CharModel CharSpec CharProofs RegexpModel RegexpSpec RegexpLang AbsModel AbsSpec AbsProofs AbsProperties AbsMeaning AbsExamples AbsRegistry.
Open Scope list_scope.
Open Scope nat_scope.
Open Scope string_scope.

Local Instance registry_iris : IriSyntax := spaceless.
Local Instance registry_external : AbsExternal := abs_external.

(** A set of identifiers that match [a]. *)
Definition tagged : alayout :=
  AUnordered ({| ah_base := None; ah_prefixes := []; ah_id := Some "http://e/tags"; ah_input := ["self"]; ah_intro := [];
    ah_dataset := []; ah_extra := [] |}) {| ai_intro := ["value"];
    ai_value := AFormatLayout (RefLayout (ALiteralL (AKId (Some (RSet (cs_char 97%N)))) header0 None));
    ai_dataset := []; ai_property := Some (AIri "http://e/tag") |}.

Example tagged_registry : exists b N, build_document tagged [] = (Ok (TmIri "http://e/tags"), b) /\
  forall fuel, N <= fuel -> exists m r d, builder_build (E := unit) fuel b = Ok m /\
    layouts_get m (TmIri "http://e/tags") = Some (UnorderedL (Header 1 0 []) (Item 1 (VFormat r [PVar 1] None)
      [Quad (PVar 0) (PRes (TmIri "http://e/tag")) (PVar 1) None])) /\
    layouts_get m r = Some (IdL (Header 1 0 []) (PVar 0) (Some d)) /\
    (forall w, chars w -> (recognizes d w <-> w = [97%N])).
Proof.
  assert (SG : sets_good (RSet (cs_char 97%N))) by (constructor; apply cs_char_good; vm_compute; auto).
  exists (snd (build_document tagged [])).
  destruct (C76_document (E := unit) term_context tagged (0, []) (TmIri "http://e/tags") (snd (build_with_context term_context tagged (0, []))))
    as [N H].
  - reflexivity.
  - constructor.
  - intros l' h res e I [->|(dt & ->)]; inversion I as [|? l1 ? N I1]; subst; inversion N as [| | | | |]; subst;
      cbn in *; unfold nested_ref in *; match goal with K : _ = _ |- _ => injection K as <- end;
      (inversion I1 as [|? l2 ? N2 I2]; subst; first [exact SG|inversion N2]).
  - intros ref p [].
  - exists N. split; [reflexivity|]. intros fuel L. destruct (H fuel L) as (m & Hm & _ & _).
    exists m, (TmBlank "0").
    destruct (C76_registry (E := unit) fuel (snd (build_document tagged [])) m) as [_ G].
    + vm_compute. repeat constructor.
    + exact Hm.
    + pose proof (G (TmIri "http://e/tags")) as G1. pose proof (G (TmBlank "0")) as G2.
      match type of G1 with match ?x with _ => _ end => let y := eval vm_compute in x in change x with y in G1 end.
      match type of G2 with match ?x with _ => _ end => let y := eval vm_compute in x in change x with y in G2 end.
      cbv beta iota in G1, G2. destruct G1 as (l1 & E1 & L1), G2 as (l2 & E2 & L2). cbn [layout_of] in L1, L2.
      destruct L2 as ([d|] & P & ->); [|contradiction]. subst l1. exists d. split; [exact Hm|]. split; [exact E1|]. split; [exact E2|].
      intros w C. cbn [compiled_pattern] in P. rewrite (P SG eq_refl w C).
      change (RSet [(97%N, 97%N)]) with (RSet (cs_char 97%N)). rewrite m_set_iff. split.
      * intros (c & -> & K). change [(97%N, 97%N)] with (cs_char 97%N) in K. apply cs_char_mem in K. now subst.
      * intros ->. exists 97%N. split; reflexivity.
Qed.

Print Assumptions C76_registry.
Print Assumptions C76_total.
Print Assumptions C76_unions.
Print Assumptions C76_document.

(** * Properties of the prelude (C82) *)

From Coq Require Import String Ascii List Bool Arith NArith ZArith QArith Qcanon.
Import ListNotations.
From Verif Require Import Base BaseProofs Orders PatternModel ValueModel LayoutModel HydrateModel TermModel NumberModel
  DehydrateModel JsonModel RegexpModel AbsModel AbsJsonModel AbsSerdeModel GenDataModel GenModel GenSpec
  CodeGenModel PreludeModel PreludeSpec PreludeProofs.
Open Scope list_scope.
Open Scope nat_scope.
Open Scope string_scope.

Section C82.
Context {TS : TextSyntax} {IS : IriSyntax} {AE : AbsExternal} {F : Type}.
Variables (ap : bool) (json_float : string -> option F) (from_f64 : F -> option Qc).

(** C82.  The prelude is built without panicking, and defines exactly the twelve presets, each at its
    IRI. *)
Theorem C82_prelude fuel : preset_syntax ->
  exists m, prelude_build ap json_float from_f64 fuel = Ok m /\ the_presets TmIri m.
Proof.
  intro S. unfold prelude_build. rewrite documents, (loop_terms ap json_float from_f64 S all_presets [] all_presets_NoDup).
  - cbn [bind]. destruct (builds TmIri (E := Empty_set) fuel all_presets [] [] ltac:(intros ? ? [])) as [m H].
    exists m. split; [exact H|]. refine (build_presets TmIri fuel m _ H).
    intros p q E. apply preset_iri_inj. congruence.
  - reflexivity.
Qed.

(** C82.  The layouts got from the prelude are those of the IRIs which the generator of Rust types
    ([PresetLayout::from_iri]) takes as presets. *)
Theorem C82_get fuel r o : preset_syntax -> prelude_get ap json_float from_f64 fuel r = Ok o ->
  forall l, o = Some l <->
    exists iri p, r = TmIri iri /\ preset_from_iri iri = Some p /\ l = layout_at TmIri (preset_layout p).
Proof.
  intros S H l. destruct (C82_prelude fuel S) as (m & E & P). unfold prelude_get in H. rewrite E in H. cbn [bind] in H.
  injection H as <-. rewrite (P r l). split.
  - intros (p & -> & ->). exists (preset_iri p), p. split; [reflexivity|]. split; [|reflexivity]. now apply from_iri_iff.
  - intros (iri & p & -> & Hp & ->). exists p. apply from_iri_iff in Hp as ->. auto.
Qed.

(** C82.  With any vocabulary and interpretation that tells the presets apart: the same layouts, with
    the resources of the IRIs.  Missing: the interpretations giving the same resource to two presets, see
    [C82_same_refuted]. *)
Theorem C82_build_with_partial {St R} {CR : Cmp R} {CL : CmpLaws R} (ctx : context St R) res fuel st :
  preset_syntax -> (forall i st, fst (c_iri ctx i st) = res i) -> presets_apart res ->
  exists m, prelude_build_with ap json_float from_f64 ctx fuel st = Ok m /\ the_presets res m.
Proof.
  intros S Hres T. unfold prelude_build_with. rewrite documents.
  destruct (loop_with ctx res Hres ap json_float from_f64 S T all_presets st [] all_presets_NoDup) as [st' E].
  - reflexivity.
  - unfold builder in E. rewrite E. cbn [bind snd]. destruct (builds res (E := Empty_set) fuel all_presets [] [] ltac:(intros ? ? [])) as [m H].
    exists m. split; [exact H|]. exact (build_presets res fuel m T H).
Qed.

(** C82.  The layouts of the presets whose Rust types implement the traits are those the
    implementations follow (C74, C75). *)
Theorem C82_types p t : preset_runtime p = Some t -> preset_layout p = type_layout t.
Proof. destruct p; intros [= <-]; reflexivity. Qed.
End C82.

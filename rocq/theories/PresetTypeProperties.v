(** * C81: the Rust types written for the preset layouts *)

From Coq Require Import String List Bool Arith.
Import ListNotations.
From Verif Require Import Base BaseProofs Orders PatternModel ValueModel LayoutModel HydrateModel TermModel GenDataModel GenModel GenSpec
  AttrModel AbsJsonModel CodeGenModel
  CodeGenSpec CodeGenProperties PreludeSpec PreludeProofs PreludeProperties.
Open Scope list_scope.
Open Scope string_scope.

(** How the types of the runtime are written in Rust, absolutely for those of a crate. *)
Definition int_name (i : int_type) : string :=
  match i with
  | U8 => "u8" | U16 => "u16" | U32 => "u32" | U64 => "u64"
  | I8 => "i8" | I16 => "i16" | I32 => "i32" | I64 => "i64"
  end.
Definition runtime_text (t : rust_type) (ty : rty) : Prop :=
  match t with
  | TyId => ty = RPath false true [("treeldr", NoArgs); ("rdf_types", NoArgs); ("Id", NoArgs)]
  | TyText => ty = RPath false false [("String", NoArgs)]
  | TyInt i => ty = RPath false false [(int_name i, NoArgs)]
  | TyDerived _ _ => False
  end.

Section Preset.
Context {TS : TextSyntax} {RS : RustSyntax} {R : Type} {IN : Interp R}.

(** The type written for a component with the layout of a preset is the text of the runtime type that
    follows this layout; for the two presets without one it is [bool] and [()]. *)
Theorem C81_preset (o : gen_options) (r : R) before p after : bt_wf o ->
  iris_of r = (before ++ preset_iri p :: after)%list ->
  (forall q, ~ In (preset_iri q) before) ->
  exists ty, layout_type o r = Ok ty /\
    ((exists t, type_layout t = preset_layout p /\ runtime_text t ty) \/
     (p = PsBoolean /\ ty = RPath false false [("bool", NoArgs)]) \/
     (p = PsUnit /\ ty = ROther "()")).
Proof.
  intros W E N. exists (preset_type p). split.
  - apply C81_type; [exact W|]. left. exists p. split; [|reflexivity]. exists before, (preset_iri p), after.
    split; [exact E|]. split; [now apply from_iri_iff|]. intros iri I.
    destruct (preset_from_iri iri) as [q|] eqn:P; [|reflexivity]. apply from_iri_iff in P as ->. now destruct (N q).
  - destruct p;
      [left; exists TyId|right; right|right; left|left; exists (TyInt U8)|left; exists (TyInt U16)|left; exists (TyInt U32)
      |left; exists (TyInt U64)|left; exists (TyInt I8)|left; exists (TyInt I16)|left; exists (TyInt I32)
      |left; exists (TyInt I64)|left; exists TyText]; split; reflexivity.
Qed.
End Preset.

(** A resource with two IRIs, the second of which is that of a preset. *)
Section Case.
#[local] Instance case_text : TextSyntax := {|
  blank_suffix _ := None; is_iri_ref _ := true; is_lang_tag _ := true; chars _ := [] |}.
Example preset_case {RS : RustSyntax} {IN : Interp bool} :
  iris_of true = ["https://example.org/#short"; "https://treeldr.org/prelude#i16"] ->
  layout_type [] true = Ok (RPath false false [("i16", NoArgs)]).
Proof.
  intros E. assert (N : forall q, ~ In (preset_iri q) ["https://example.org/#short"])
    by (intros q [H|[]]; destruct q; discriminate H).
  destruct (C81_preset [] true ["https://example.org/#short"] PsI16 [] ltac:(constructor) E N)
    as (ty & Ht & [(t & L & T)|[[P _]|[P _]]]); try discriminate.
  rewrite Ht. f_equal. destruct t as [| |i|l inner]; try discriminate; [|destruct T].
  destruct i; try discriminate. exact T.
Qed.
End Case.
Print Assumptions C81_preset.

(** * Examples for the prelude (C82) *)

From Coq Require Import String Ascii List Bool Arith NArith ZArith QArith Qcanon.
Import ListNotations.
From Verif Require Import Base BaseProofs Orders PatternModel ValueModel LayoutModel HydrateModel TermModel NumberModel
  DehydrateModel JsonModel RegexpModel AbsModel AbsJsonModel AbsSerdeModel GenDataModel GenModel GenSpec
  CodeGenModel PreludeModel PreludeSpec PreludeProofs PreludeProperties.
Open Scope list_scope.
Open Scope nat_scope.
Open Scope string_scope.

(** A syntax for which the IRIs of the prelude are references. *)
Local Instance sample_ts : TextSyntax := {|
  blank_suffix := fun s => match s with String "_" (String ":" s) => Some s | _ => None end;
  is_iri_ref := fun s => match iri_scheme s with Some _ => true | None => false end;
  is_lang_tag := fun _ => true;
  chars := fun s => map (fun c => N.of_nat (nat_of_ascii c)) (list_ascii_of_string s)
|}.
Local Instance sample_is : IriSyntax := fun _ => true.
Local Instance sample_ae : AbsExternal := {|
  iri_resolved := fun b r => b ++ r;
  decimal_type_of := fun _ => "";
  decimal_lexical_of := fun _ => ""
|}.

Example sample_syntax : preset_syntax.
Proof. intro p. destruct p; split; reflexivity. Qed.

Definition build_sample := prelude_build (F := unit) false (fun _ => None) (fun _ => None) 0.

(** The layout of [prelude#u8]; the other IRIs have no layout. *)
Example sample_u8 : exists m, build_sample = Ok m /\ length m = 12 /\
  layouts_get m (TmIri "https://treeldr.org/prelude#u8") =
    Some (DataL KNumber (Header 1 0 []) (PVar 0) (TmIri "http://www.w3.org/2001/XMLSchema#unsignedByte")) /\
  layouts_get m (TmIri "https://treeldr.org/prelude#u128") = None.
Proof. eexists. split; [vm_compute; reflexivity|]. repeat split. Qed.

(** An interpretation by the IRIs themselves. *)
Definition self_context : context nat string := {|
  c_iri := fun i n => (i, S n); c_literal := fun _ n => ("", n); c_anonymous := fun n => ("", n)
|}.
Example self_apart : (forall i st, fst (c_iri self_context i st) = i) /\ presets_apart (fun i : string => i).
Proof. split; [reflexivity|]. exact preset_iri_inj. Qed.
Example self_built : exists m,
  prelude_build_with (F := unit) false (fun _ => None) (fun _ => None) self_context 0 0 = Ok m /\
  the_presets (fun i => i) m.
Proof.
  exact (C82_build_with_partial false (fun _ => None) (fun _ => None) self_context (fun i => i) 0 0 sample_syntax
           (proj1 self_apart) (proj2 self_apart)).
Qed.

(** An interpretation for which all IRIs are the same resource: the second layout is a redefinition,
    and [Prelude::build_with] panics. *)
Definition one_context : context unit nat := {|
  c_iri := fun _ _ => (0, tt); c_literal := fun _ _ => (1, tt); c_anonymous := fun _ => (2, tt)
|}.
Theorem C82_same_refuted :
  exists w, prelude_build_with (F := unit) false (fun _ => None) (fun _ => None) one_context 0 tt = Panic w.
Proof. eexists. vm_compute. reflexivity. Qed.

(** The presets without type in the runtime. *)
Example untyped : preset_runtime PsBoolean = None /\ preset_runtime PsUnit = None.
Proof. split; reflexivity. Qed.

Print Assumptions C82_prelude.
Print Assumptions C82_get.
Print Assumptions C82_build_with_partial.
Print Assumptions C82_types.
Print Assumptions C82_same_refuted.

(** * Specification of the prelude *)

From Coq Require Import String Ascii List Bool Arith NArith.
Import ListNotations.
From Verif Require Import Base Orders PatternModel ValueModel LayoutModel HydrateModel GenDataModel GenModel GenSpec
  AbsJsonModel CodeGenModel.
Open Scope list_scope.
Open Scope nat_scope.
Open Scope string_scope.

Definition xsd_name (name : string) : string := "http://www.w3.org/2001/XMLSchema#" ++ name.

(** The twelve presets: their names, and the layouts they stand for (the resources are IRIs).  Each
    represents its only input; the literals by the datatype of the Rust type. *)
Definition preset_name (p : preset) : string :=
  match p with
  | PsId => "id" | PsUnit => "unit" | PsBoolean => "boolean" | PsString => "string"
  | PsU8 => "u8" | PsU16 => "u16" | PsU32 => "u32" | PsU64 => "u64"
  | PsI8 => "i8" | PsI16 => "i16" | PsI32 => "i32" | PsI64 => "i64"
  end.
Definition preset_datatype (p : preset) : string :=
  match p with
  | PsBoolean => "boolean" | PsString => "string"
  | PsU8 => "unsignedByte" | PsU16 => "unsignedShort" | PsU32 => "unsignedInt" | PsU64 => "unsignedLong"
  | PsI8 => "byte" | PsI16 => "short" | PsI32 => "int" | PsI64 => "long"
  | PsId | PsUnit => "" (* no datatype *)
  end.
Definition preset_layout (p : preset) : layout string :=
  let input := Header 1 0 [] in
  match p with
  | PsUnit => UnitL input (VLit LUnit)
  | PsId => IdL input (PVar 0) None
  | PsBoolean => DataL KBoolean input (PVar 0) (xsd_name (preset_datatype p))
  | PsString => DataL (KTextString None) input (PVar 0) (xsd_name (preset_datatype p))
  | _ => DataL KNumber input (PVar 0) (xsd_name (preset_datatype p))
  end.
Definition preset_iri (p : preset) : string := "https://treeldr.org/prelude#" ++ preset_name p.

(** The types of the runtime for which the library implements the traits. *)
Definition preset_runtime (p : preset) : option rust_type :=
  match p with
  | PsId => Some TyId
  | PsString => Some TyText
  | PsU8 => Some (TyInt U8) | PsU16 => Some (TyInt U16) | PsU32 => Some (TyInt U32) | PsU64 => Some (TyInt U64)
  | PsI8 => Some (TyInt I8) | PsI16 => Some (TyInt I16) | PsI32 => Some (TyInt I32) | PsI64 => Some (TyInt I64)
  | PsBoolean | PsUnit => None
  end.

(** The twelve layouts, each at the resource of its IRI, and nothing else. *)
Definition the_presets {R} {CR : Cmp R} (res : string -> R) (m : layouts R) : Prop :=
  forall r l, layouts_get m r = Some l <-> exists p, r = res (preset_iri p) /\ l = layout_at res (preset_layout p).

(** The IRIs of the presets and of their datatypes are IRI references (external crate [iref]). *)
Definition preset_syntax {TS : TextSyntax} : Prop :=
  forall p, is_iri_ref (preset_iri p) = true /\ is_iri_ref (xsd_name (preset_datatype p)) = true.

(** The IRIs of the presets have different resources. *)
Definition presets_apart {R} (res : string -> R) : Prop :=
  forall p q, res (preset_iri p) = res (preset_iri q) -> p = q.

(** * The prelude ([layouts/src/prelude.rs], [layouts/prelude/*.json])

    The documents are JSON values; reading their text ([serde_json::from_str]) is [json_serde] followed
    by the deserialization of layouts (AbsSerdeModel.v).  [OnceLock] is not modelled: [get] builds. *)

From Coq Require Import String Ascii List Bool Arith NArith ZArith QArith Qcanon.
Import ListNotations.
From Verif Require Import Base Orders PatternModel ValueModel LayoutModel HydrateModel TermModel NumberModel DehydrateModel
  JsonModel RegexpModel AbsModel AbsJsonModel AbsSerdeModel CodeGenModel.
Open Scope list_scope.
Open Scope nat_scope.
Open Scope string_scope.

(** [LAYOUTS] — layouts/src/prelude.rs 14-27, layouts/prelude/*.json. *)
Definition prelude_document (name type : string) (datatype : option string) : json :=
  JObj ([("id", JStr ("https://treeldr.org/prelude#" ++ name)); ("type", JStr type)] ++
        match datatype with
        | Some t => [("datatype", JStr ("http://www.w3.org/2001/XMLSchema#" ++ t))]
        | None => []
        end)%list.
Definition prelude_documents : list json :=
  [prelude_document "unit" "unit" None;
   prelude_document "boolean" "boolean" None;
   prelude_document "u8" "number" (Some "unsignedByte");
   prelude_document "u16" "number" (Some "unsignedShort");
   prelude_document "u32" "number" (Some "unsignedInt");
   prelude_document "u64" "number" (Some "unsignedLong");
   prelude_document "i8" "number" (Some "byte");
   prelude_document "i16" "number" (Some "short");
   prelude_document "i32" "number" (Some "int");
   prelude_document "i64" "number" (Some "long");
   prelude_document "string" "string" None;
   prelude_document "id" "id" None].

Section Prelude.
Context {TS : TextSyntax} {IS : IriSyntax} {AE : AbsExternal} {F : Type}.
Variables (arbitrary_precision : bool) (json_float : string -> option F) (from_f64 : F -> option Qc).

(** [serde_json::from_str(json).unwrap()] — layouts/src/prelude.rs 35, 53. *)
Definition prelude_read (j : json) : outcome Empty_set alayout :=
  match (let* s := json_serde arbitrary_precision json_float j in layout_deserialize from_f64 s) with
  | Ok l => Ok l
  | Err _ => Panic "prelude.rs 35: unwrap"
  | Panic w => Panic w
  | OutOfFuel => OutOfFuel
  end.

(** [.unwrap()] of the build of a layout — layouts/src/prelude.rs 36, 54-56. *)
Definition unwrap_build {A} (o : outcome build_error A) : outcome Empty_set A :=
  match o with
  | Ok a => Ok a
  | Err _ => Panic "prelude.rs 36: unwrap"
  | Panic w => Panic w
  | OutOfFuel => OutOfFuel
  end.

(** [Prelude::build] — layouts/src/prelude.rs 32-40. *)
Fixpoint prelude_builder (docs : list json) (b : @builder term) : outcome Empty_set (@builder term) :=
  match docs with
  | [] => Ok b
  | j :: docs' =>
      let* l := prelude_read j in
      let (o, b) := build_document l b in
      let* _ := unwrap_build o in
      prelude_builder docs' b
  end.
Definition prelude_build (fuel : nat) : outcome Empty_set (layouts term) :=
  let* b := prelude_builder prelude_documents [] in builder_build fuel b.

(** [Prelude::build_with] — layouts/src/prelude.rs 42-60: the vocabulary and the interpretation are
    the state of the context. *)
Section With.
Context {St R : Type} {CR : Cmp R} (ctx : context St R).
Fixpoint prelude_builder_with (docs : list json) (s : @bstate St R) : outcome Empty_set (@bstate St R) :=
  match docs with
  | [] => Ok s
  | j :: docs' =>
      let* l := prelude_read j in
      let (o, s) := build_with_context ctx l s in
      let* _ := unwrap_build o in
      prelude_builder_with docs' s
  end.
Definition prelude_build_with (fuel : nat) (st : St) : outcome Empty_set (layouts R) :=
  let* s := prelude_builder_with prelude_documents (st, []) in builder_build fuel (snd s).
End With.

(** [LayoutRegistry::get] of the prelude — layouts/src/prelude.rs 63-68. *)
Definition prelude_get (fuel : nat) (r : term) : outcome Empty_set (option (layout term)) :=
  let* m := prelude_build fuel in Ok (layouts_get m r).
End Prelude.

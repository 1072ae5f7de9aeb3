(** * Reading what is written in CBOR ([src/format/tree.rs], [layouts/src/value/de.rs], [serde_cbor]) *)

From Coq Require Import String List Bool Arith NArith ZArith Qcanon.
Import ListNotations.
From Verif Require Import Base ValueModel JsonModel CborModel.
Open Scope list_scope.

Section Read.
Context {F : Type}.
Variable to_f64 : Qc -> F.

(** What the visitor of [Value] — layouts/src/value/de.rs 12-121 — receives when [serde_cbor::from_reader] —
    src/format/tree.rs 72 — reads the text that [serde_cbor::to_writer] — src/format/tree.rs 99 — writes for a
    [serde_cbor::Value] (external; [Err] is the error of the reader).
    - Integers below [-2^63] are given to [visit_i128], and tagged items to [visit_newtype_struct], since the command line
      enables the feature "tags" of [serde_cbor] (Cargo.toml 65): the visitor has neither of them, and the
      default methods of [serde] fail.
    - The integers out of the range of CBOR, which [number_to_cbor] never makes, are refused by the writer.
    - The depth of the text is not limited here: see [value_laws] (CborReadSpec.v). *)
Fixpoint cbor_read (c : cbor) : outcome unit (serde_value F) :=
  match c with
  | CNull => Ok SUnit
  | CBool b => Ok (SBool b)
  | CInt z =>
      if (0 <=? z)%Z then if (z <? 2 ^ 64)%Z then Ok (SU64 z) else Err tt
      else if (- 2 ^ 63 <=? z)%Z then Ok (SI64 z) else Err tt
  | CFloat q => Ok (SF64 (to_f64 q))
  | CBytes s => Ok (SBytes s)
  | CText s => Ok (SStr s)
  | CArray l => let* l := traverse cbor_read l in Ok (SSeq l)
  | CMap m =>
      let* m := traverse (fun kv => let* k := cbor_read (fst kv) in
                                    let* v := cbor_read (snd kv) in Ok (k, v)) m in
      Ok (SMap m)
  | CTag _ _ => Err tt
  end.
End Read.

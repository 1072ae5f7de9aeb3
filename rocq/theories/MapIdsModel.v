(** * The identifiers of the errors of dehydration *)

From Coq Require Import String List Bool Arith.
Import ListNotations.
From Verif Require Import Base ValueModel TermModel DehydrateModel.

(** [Error::map_ids] — layouts/src/distill/de/mod.rs 57-80. *)
Definition map_ids {R S} (f : R -> S) (e : de_error R) : de_error S :=
  match e with
  | DIncompatibleLayout => DIncompatibleLayout
  | DInvalidInputCount expected found => DInvalidInputCount expected found
  | DUndeclaredVariable x => DUndeclaredVariable x
  | DDataAmbiguity => DDataAmbiguity
  | DTermAmbiguity a b => DTermAmbiguity a b
  | DLayoutNotFound r => DLayoutNotFound (f r)
  | DMissingRequiredKey r k m => DMissingRequiredKey (f r) k m
  end.

(** * Several values dehydrated with one generator

    [Options::with_generator] takes any generator, in particular a mutable reference to one that is used again
    afterwards: this is how layouts/examples/combine.rs builds one dataset from several documents. *)

From Coq Require Import String List.
Import ListNotations.
From Verif Require Import Base Orders PatternModel ValueModel LayoutModel HydrateModel TermModel DehydrateModel.
Open Scope list_scope.
Open Scope nat_scope.

Section Combine.
Context {Gn : Type} {X : Xsd} {IS : IriSyntax}.

(** [dehydrate] — layouts/src/distill/de/mod.rs 269-507, with the state in which it leaves the generator of its options
    (given by reference: [Options::with_generator], layouts/src/distill/de/mod.rs 163-176). *)
Definition dehydrate_next (order : list (quad res) -> list (quad res)) (reg : registry term) (fuel : nat)
  (v : value) (ref : term) (opts : options Gn)
  : outcome (de_error term) (list (quad term) * list term * Gn) :=
  let* l := ok_or (DLayoutNotFound ref) (reg ref) in
  let count := match input_count l with
               | Some n => n
               | None => match o_input_count opts with Some n => n | None => 1 end
               end in
  let inputs := map RInput (seq 0 count) in
  match dehydrate_with input_interpretation reg fuel v None ref inputs (DState (InputInterp [] 0) []) with
  | (Ok _, st) =>
      let* map := check_terms (ii_map (ds_interp st)) in
      let (dataset, ms) := map_list (map_quad opts) (map, o_generator opts) (order (ds_output st)) in
      let (values, ms) := map_list (map_resource opts) ms inputs in
      Ok (fold_left (fun d q => ds_insert q d) dataset [], values, snd ms)
  | (Err e, _) => Err e
  | (Panic w, _) => Panic w
  | (OutOfFuel, _) => OutOfFuel
  end.

(** A value, its layout and the names of its inputs ([Options::with_input_term_generator] — layouts/src/distill/de/mod.rs 151-161). *)
Record document : Type := Document {
  d_layout : term;
  d_value : value;
  d_input : nat -> term
}.

(** The documents are dehydrated one after the other with the same generator — layouts/examples/combine.rs 109-132, for any
    number of documents. *)
Fixpoint dehydrate_all (order : list (quad res) -> list (quad res)) (reg : registry term) (fuel : nat)
  (next : Gn -> term * Gn) (gn : Gn) (docs : list document)
  : outcome (de_error term) (list (list (quad term) * list term)) :=
  match docs with
  | [] => Ok []
  | d :: docs =>
      let* r := dehydrate_next order reg fuel (d_value d) (d_layout d) (Options None (d_input d) gn next) in
      let* rs := dehydrate_all order reg fuel next (snd r) docs in
      Ok (fst r :: rs)
  end.

(** [dataset.extend(..)] for each result — layouts/examples/combine.rs 120, 130. *)
Definition combined (rs : list (list (quad term) * list term)) : list (quad term) :=
  fold_left (fun d r => fold_left (fun d q => ds_insert q d) (fst r) d) rs [].
End Combine.

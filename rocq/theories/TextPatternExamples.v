(** * The patterns of the text layouts are not enforced (C20) *)

From Coq Require Import String List Bool Arith NArith Permutation Lia.
Import ListNotations.
From Verif Require Import Base BaseProofs Orders PatternModel MatchingModel MatchingSpec ValueModel LayoutModel HydrateModel TermModel HydrateExamples
  DehydrateModel DehydrateSpec DehydrateExamples CharModel CharSpec AutomatonModel AutomatonSpec RegexpModel RegexpExamples.
Open Scope list_scope.
Open Scope nat_scope.
Open Scope string_scope.

(** The words of the automaton of a layout. *)
Definition accepted (a : det_automaton nat) (w : list N) : Prop :=
  d_accepts range_has (Dfa (da_initial a) (da_final a) (da_transitions a)) w.
Definition layout_automaton (d : dfa nat (N * N)) : det_automaton nat :=
  DetAutomaton (d_initial d) (d_final d) (d_transitions d).

(** Whatever the pattern, every string is hydrated … *)
Theorem C20_hydrate_unchecked (D : dataset term) reg ref pat s fuel g :
  reg ref = Some (DataL (KTextString pat) no_header (PVar 0) (iri xsd_string)) ->
  hydrate_with D reg (S fuel) g ref [text s] = Ok (TLit (TText s ref)).
Proof. intro H. cbn [hydrate_with]. unfold hydrate_body. rewrite H. reflexivity. Qed.
(** … and every IRI … *)
Theorem C20_hydrate_id_unchecked (D : dataset term) reg ref pat s fuel g :
  reg ref = Some (IdL no_header (PVar 0) pat) ->
  hydrate_with D reg (S fuel) g ref [iri s] = Ok (TLit (TId s ref)).
Proof. intro H. cbn [hydrate_with]. unfold hydrate_body. rewrite H. reflexivity. Qed.
(** … and every string is dehydrated. *)
Theorem C20_dehydrate_unchecked order reg ref pat s fuel :
  (forall l, Permutation (order l) l) ->
  reg ref = Some (DataL (KTextString pat) no_header (PVar 0) (iri xsd_string)) ->
  dehydrate order reg (S fuel) (vtext s) ref default_options = Ok ([], [text s]).
Proof.
  intros P H. unfold dehydrate. rewrite H. cbn [ok_or bind input_count no_header h_input seq map dehydrate_with]. unfold dehydrate_body. rewrite H.
  assert (O : order [] = []) by (apply Permutation_nil, Permutation_sym, P).
  cbn. rewrite O. reflexivity.
Qed.

(** A layout with the pattern [a] hydrates and dehydrates "b". *)
Definition only_a : det_automaton nat := layout_automaton (compiled (lit "a")).
Definition a_reg : registry term := layouts_get [
  (iri "id", IdL no_header (PVar 0) (Some only_a));
  (iri "text", DataL (KTextString (Some only_a)) no_header (PVar 0) (iri xsd_string))].

Lemma only_a_spec w : accepted only_a w <-> accepts (compiled (lit "a")) w = true.
Proof. unfold accepted. cbn. symmetry. apply accepts_iff. Qed.

Theorem C20_pattern_refuted :
  accepted only_a (str "a") /\ ~ accepted only_a (str "b") /\
  hydrate (list_dataset []) a_reg 1 (iri "text") [text "b"] = Ok (TLit (TText "b" (iri "text"))) /\
  hydrate (list_dataset []) a_reg 1 (iri "id") [iri "b"] = Ok (TLit (TId "b" (iri "id"))) /\
  dehydrate same a_reg 1 (vtext "b") (iri "text") default_options = Ok ([], [text "b"]) /\
  dehydrate same a_reg 1 (vtext "b") (iri "id") default_options = Ok ([], [iri "b"]).
Proof.
  split; [apply only_a_spec; vm_compute; reflexivity|]. split; [rewrite only_a_spec; vm_compute; discriminate|]. repeat split; vm_compute; reflexivity.
Qed.

Print Assumptions C20_hydrate_unchecked.
Print Assumptions C20_hydrate_id_unchecked.
Print Assumptions C20_dehydrate_unchecked.
Print Assumptions C20_pattern_refuted.

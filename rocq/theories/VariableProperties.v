(** * C101: names of variables, and patterns as terms *)

From Coq Require Import String List Bool NArith.
Import ListNotations.
From Verif Require Import Base BaseProofs Orders PatternModel ValueModel LayoutModel HydrateModel TermModel DehydrateModel
  AbsModel AbsSpec AbsProofs AbsProperties PreludeProofs AbsJsonModel AttrModel VariableModel VariableSpec VariableProofs.
Open Scope list_scope.

Section Names.
Context {TS : TextSyntax}.

(** The names accepted are those of the grammar, and they are kept. *)
Theorem C101_names s n : variable_name_new s = Some n <-> n = s /\ name_word (chars s).
Proof. apply variable_name_new_spec. Qed.

(** They are the labels of N-Triples without dots. *)
Theorem C101_labels s : (exists n, variable_name_new s = Some n) <-> label_word (chars s) /\ ~ In dot (chars s).
Proof.
  rewrite <- name_label. split.
  - intros [n H]. now apply variable_name_new_spec in H.
  - intros H. exists s. now apply variable_name_new_spec.
Qed.

(** The macros read any pattern without panic exactly if the names of blank nodes are names of variables, and the
    pattern that makes them panic is the identifier of a blank node. *)
Theorem C101_derive_exact s :
  (exists w, parse_pattern s = Panic w) <-> exists name, blank_suffix s = Some name /\ ~ name_word (chars name).
Proof.
  unfold parse_pattern. destruct (blank_suffix s) as [n|] eqn:B.
  - destruct (variable_name_new n) as [m|] eqn:V; cbn [unwrap bind].
    + apply variable_name_new_spec in V as [_ V]. split; [intros [w H]; discriminate|]. intros (n' & H & N). injection H as <-. now contradiction N.
    + apply variable_name_new_none in V. split; [|eauto]. intros _. now exists n.
  - split; [|intros (n & H & _); discriminate]. intros [w H]. destruct (is_iri_ref s); discriminate.
Qed.

Context {IS : IriSyntax} {AE : AbsExternal}.

(** A term is a pattern that is this term, in the scopes where its IRIs are not abbreviations. *)
Theorem C101_term_partial t sc : valid_blank t -> (forall i, term_iri t i -> kept_iri sc i) ->
  pattern_to_term (pattern_from_term t) sc = Ok t.
Proof.
  assert (R : forall i, kept_iri sc i -> resolve i sc = Ok i).
  { intros i (scheme & suffix & A & N). apply (C54_absolute _ _ _ _ A). destruct (hm_get scheme (sc_prefixes sc)) as [p|] eqn:G; [|reflexivity].
    exfalso. now apply (N p), hm_get_In. }
  intros V K. destruct t as [i|b|[v [i|tag]]];
    cbn [valid_blank term_iri pattern_from_term pattern_to_term type_from_term rl_value rl_type resolve_type bind] in *.
  - now rewrite (R i (K i eq_refl)).
  - unfold blank_from_suffix. now rewrite V.
  - now rewrite (R i (K i eq_refl)).
  - reflexivity.
Qed.

(** Only a variable whose name is not the one of a blank node makes the conversion panic, and a pattern without variable
    is the term it is compiled to. *)
Theorem C101_panic p sc w : pattern_to_term p sc = Panic w ->
  exists name, p = AVar name /\ blank_suffix ("_:" ++ name) = None.
Proof.
  destruct p as [n|i|v ty]; cbn [pattern_to_term].
  - unfold blank_from_suffix. destruct (blank_suffix ("_:" ++ n)) as [b|] eqn:B; [discriminate|]. eauto.
  - intros H. exfalso. unfold resolve in H. destruct (iri_scheme i) eqn:S; [|destruct (sc_base sc); discriminate].
    destruct (hm_get s (sc_prefixes sc)) as [pre|]; [|discriminate]. apply scheme_absolute in S as [u A].
    apply absolute_scheme in A as [_ A]. rewrite A in H. cbn [unwrap bind] in H. destruct (is_iri _); discriminate.
  - intros H. exfalso. destruct ty as [i|tag]; [|discriminate]. cbn [resolve_type] in H. unfold resolve in H.
    destruct (iri_scheme i) eqn:S; [|destruct (sc_base sc); discriminate].
    destruct (hm_get s (sc_prefixes sc)) as [pre|]; [|discriminate]. apply scheme_absolute in S as [u A].
    apply absolute_scheme in A as [_ A]. rewrite A in H. cbn [unwrap bind] in H. destruct (is_iri _); discriminate.
Qed.

(** With the identifiers of N-Triples, with or without dots, the names accepted are those of blank nodes. *)
Theorem C101_total_partial s n sc : ntriples_blanks \/ dotless_blanks ->
  variable_name_new s = Some n -> pattern_to_term (AVar n) sc = Ok (TmBlank n).
Proof.
  intros L H. apply variable_name_new_spec in H as [-> H]. cbn [pattern_to_term]. unfold blank_from_suffix.
  assert (blank_suffix ("_:" ++ s) = Some s) as ->; [|reflexivity].
  destruct L as [L|L]; apply L; (split; [reflexivity|]); [now apply name_label|exact H].
Qed.

(** The macros never panic on patterns when there are no dots; with those of N-Triples, they panic exactly on the
    identifiers with a dot. *)
Theorem C101_derive_partial s : dotless_blanks -> forall w, parse_pattern s <> Panic w.
Proof.
  intros L w H. destruct (proj1 (C101_derive_exact s)) as (n & B & N); [now exists w|]. apply L in B as [_ B]. contradiction.
Qed.
Theorem C101_dots s : ntriples_blanks ->
  ((exists w, parse_pattern s = Panic w) <->
   exists name, s = ("_:" ++ name)%string /\ label_word (chars name) /\ In dot (chars name)).
Proof.
  intros L. rewrite C101_derive_exact. split.
  - intros (n & B & N). apply L in B as [-> B]. exists n. split; [reflexivity|]. split; [assumption|].
    destruct (in_dec N.eq_dec dot (chars n)) as [I|I]; [assumption|]. exfalso. apply N. now apply name_label.
  - intros (n & E & W & I). exists n. split; [now apply L|]. intros N. apply name_label in N. now apply N.
Qed.
End Names.

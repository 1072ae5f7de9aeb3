(** * Names of variables: witnesses, counter-examples and non-vacuity for C101 *)

From Coq Require Import String Ascii List Bool NArith.
Import ListNotations.
From Verif Require Import Base BaseProofs Orders PatternModel ValueModel LayoutModel HydrateModel TermModel DehydrateModel
  AbsModel AbsSpec AbsProofs AbsProperties AbsExamples AbsJsonModel AbsJsonExamples AttrModel AttrExamples
  VariableModel VariableSpec VariableProofs VariableProperties.
Open Scope list_scope.
Open Scope string_scope.

(** The syntax of the cases has no dots. *)
Lemma after_prefix s (f : string -> option string) name :
  (match s with String "_" (String ":" s') => f s' | _ => None end) = Some name <->
  exists s', s = "_:" ++ s' /\ f s' = Some name.
Proof.
  split.
  - destruct s as [|c [|c' s]]; [discriminate| |]; destruct c as [[] [] [] [] [] [] [] []]; try discriminate.
    destruct c' as [[] [] [] [] [] [] [] []]; try discriminate. intros H. now exists s.
  - intros (s' & -> & H). exact H.
Qed.
Example simple_dotless : @dotless_blanks simple_syntax.
Proof.
  intros s name. cbn [blank_suffix chars simple_syntax]. rewrite after_prefix. rewrite <- check_spec. split.
  - intros (s' & -> & H). destruct (check_variable_name _) eqn:E; [|discriminate]. injection H as <-. auto.
  - intros (-> & H). exists name. now rewrite H.
Qed.

(** The syntax of N-Triples, with dots. *)
Definition check_label (w : list N) : bool :=
  match w with
  | [] => false
  | c :: w' => (is_ascii_digit c || is_pn_char_u c) &&
      match rev w' with
      | [] => true
      | z :: m => is_pn_char z && forallb (fun x => is_pn_char x || (x =? dot)%N) m
      end
  end.
Lemma check_label_spec w : check_label w = true <-> label_word w.
Proof.
  unfold check_label, label_word. destruct w as [|c w]; [split; [discriminate|]|].
  - intros (c & _ & [H|(a & b & H & _)]); discriminate.
  - rewrite andb_true_iff, orb_true_iff, digit_spec, u_spec. split.
    + intros [H K]. exists c. split; [assumption|]. destruct (rev w) as [|z m] eqn:R.
      * left. f_equal. rewrite <- (rev_involutive w), R. reflexivity.
      * right. exists (rev m), z. rewrite <- (rev_involutive w), R. split; [reflexivity|].
        apply andb_true_iff in K as [Z F]. split; [|now apply char_spec]. rewrite forallb_forall in F.
        apply Forall_forall. intros x I. apply in_rev in I. apply F, orb_true_iff in I as [I|I]; [left; now apply char_spec|].
        right. now apply N.eqb_eq.
    + intros (c' & H & [E|(w' & z & E & F & Z)]); injection E as -> ->; (split; [assumption|]); [reflexivity|].
      rewrite rev_app_distr. cbn [rev app]. apply andb_true_iff. split; [now apply char_spec|]. apply forallb_forall.
      intros x I. apply in_rev in I. rewrite Forall_forall in F. apply orb_true_iff. apply F in I as [I| ->];
        [left; now apply char_spec|right; apply N.eqb_refl].
Qed.
Definition dotted_syntax : TextSyntax := {|
  blank_suffix s :=
    match s with
    | String "_" (String ":" s') =>
        if check_label (map N_of_ascii (list_ascii_of_string s')) then Some s' else None
    | _ => None
    end;
  is_iri_ref := @is_iri_ref simple_syntax;
  is_lang_tag := @is_lang_tag simple_syntax;
  chars := @chars simple_syntax
|}.
Example dotted_ntriples : @ntriples_blanks dotted_syntax.
Proof.
  intros s name. cbn [blank_suffix chars dotted_syntax simple_syntax]. rewrite after_prefix, <- check_label_spec. split.
  - intros (s' & -> & H). destruct (check_label _) eqn:E; [|discriminate]. injection H as <-. auto.
  - intros (-> & H). exists name. now rewrite H.
Qed.

(** *** Names *)
Example accepted_name : @variable_name_new simple_syntax "0_a-b:C" = Some "0_a-b:C".
Proof. vm_compute. reflexivity. Qed.
Example rejected_names : map (@variable_name_new simple_syntax) [""; "-a"; "a.b"; "a b"; "a?"; "_"] =
  [None; None; None; None; None; Some "_"].
Proof. vm_compute. reflexivity. Qed.

(** *** Macros *)
(** With the identifiers of N-Triples, an attribute with [_:a.b] makes the macros panic. *)
Theorem C101_derive_refuted : exists TS : TextSyntax, ntriples_blanks /\ exists s w, parse_pattern s = Panic w.
Proof.
  exists dotted_syntax. split; [exact dotted_ntriples|]. exists "_:a.b". eexists. vm_compute. reflexivity.
Qed.
Example undotted : @parse_pattern dotted_syntax "_:a_b" = Ok (AVar "a_b").
Proof. vm_compute. reflexivity. Qed.

(** *** Terms *)
#[local] Existing Instance abs_iris.
#[local] Existing Instance abs_external.
#[local] Existing Instance dotted_syntax.
Definition ex_scope : scope := {| sc_base := None; sc_prefixes := [("ex", "https://example.org/")]; sc_variables := []; sc_count := 0 |}.
(** The IRI [ex:a] of a term is taken for an abbreviation. *)
Theorem C101_term_refuted : exists t sc t', valid_blank t /\ pattern_to_term (pattern_from_term t) sc = Ok t' /\ t' <> t.
Proof.
  exists (TmIri "ex:a"), ex_scope, (TmIri "https://example.org/a"). split; [exact I|]. split; [vm_compute; reflexivity|discriminate].
Qed.
Example literal_kept :
  let t := TmLit (RdfLiteral "1" (TypeAny "https://www.w3.org/2001/XMLSchema#integer")) in
  valid_blank t /\ (forall i, term_iri t i -> kept_iri ex_scope i) /\ pattern_to_term (pattern_from_term t) ex_scope = Ok t.
Proof.
  cbn zeta. match goal with |- ?A /\ ?B /\ ?C => assert (A /\ B) as [V K] end.
  - split; [exact I|]. intros i ->. exists "https", "//www.w3.org/2001/XMLSchema#integer". split.
    + split; [reflexivity|]. intros n c H. do 5 (destruct n as [|n]; [injection H as <-; repeat split; discriminate|]). destruct n; discriminate.
    + intros p [[=]|[]].
  - split; [exact V|]. split; [exact K|]. now apply C101_term_partial.
Qed.
Example dotted_blank : valid_blank (TmBlank "a.b") /\ pattern_to_term (AVar "a.b") ex_scope = Ok (TmBlank "a.b").
Proof. split; vm_compute; reflexivity. Qed.
Example dotted_variable : pattern_to_term (AVar "0_a-b:C") ex_scope = Ok (TmBlank "0_a-b:C").
Proof. apply (C101_total_partial "0_a-b:C"); [left; exact dotted_ntriples|exact accepted_name]. Qed.
Example bad_variable : exists w, pattern_to_term (AVar "-") ex_scope = Panic w.
Proof. eexists. vm_compute. reflexivity. Qed.

Print Assumptions C101_names.
Print Assumptions C101_labels.
Print Assumptions C101_derive_exact.
Print Assumptions C101_derive_partial.
Print Assumptions C101_dots.
Print Assumptions C101_derive_refuted.
Print Assumptions C101_term_partial.
Print Assumptions C101_term_refuted.
Print Assumptions C101_panic.
Print Assumptions C101_total_partial.

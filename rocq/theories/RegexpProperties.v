(** * Properties of the regular expressions (C32, C39–C43, C66) *)

From Coq Require Import String List Bool Arith NArith Lia.
Import ListNotations.
From Verif Require Import Base BaseProofs Orders CharModel CharSpec CharProofs AutomatonModel AutomatonSpec RegexpModel RegexpSpec RegexpBuild
  RegexpParse RegexpLang RegexpRead RegexpCompile.
Open Scope list_scope.

(** ** C32 — compilation *)

(** The compilation ends, without panic. *)
Theorem C32_build_total e : sets_good e -> exists bound, forall fuel, bound <= fuel -> exists d, re_build fuel e = Ok d.
Proof. apply re_build_total. Qed.

(** Missing: the expressions that are not [compilable] (see [C32_build_refuted]). *)
Theorem C32_build_partial fuel e d : sets_good e -> compilable e = true -> re_build fuel e = Ok d ->
  forall w, chars w -> (d_accepts range_has d w <-> matches e w).
Proof.
  intros SG CO H w C. rewrite (re_build_accepts fuel e d SG H). now apply (build_nfa_correct e SG CO).
Qed.

(** The automaton of a sequence accepts the empty word, and only it unless its last item is an unbounded repetition. *)
Theorem C32_sequence_automaton fuel l d : sets_good (RSequence l) -> l <> [] -> re_build fuel (RSequence l) = Ok d ->
  d_accepts range_has d [] /\
  ((forall e min, last l RAny <> RRepeat e min None) -> forall w, d_accepts range_has d w -> w = []).
Proof.
  intros SG NE H. pose proof (re_build_accepts _ _ _ SG H) as A. destruct (build_nfa_seq l SG NE) as [E1 E2]. split; [now apply A|].
  intros EN w Hw. apply E2; [|now apply A]. destruct (last l RAny) as [| | |e min [m|]|]; try reflexivity. exfalso. now apply (EN e min).
Qed.

(** In particular the automaton of a string of two characters or more accepts only the empty word. *)
Theorem C32_string_automaton fuel s d : chars s -> 2 <= length s -> re_build fuel (re_from_str s) = Ok d ->
  forall w, d_accepts range_has d w <-> w = [].
Proof.
  intros C L H w. rewrite from_str_shape in H. destruct s as [|a [|b s]]; cbn [length] in L; [lia|lia|].
  assert (SG : sets_good (RSequence (map (fun c => RSet (cs_char c)) (a :: b :: s)))).
  { constructor. apply Forall_forall. intros e He. apply in_map_iff in He as (c & <- & Hc). constructor. apply cs_char_good.
    exact (proj1 (Forall_forall _ _) C c Hc). }
  destruct (C32_sequence_automaton fuel _ d SG ltac:(discriminate) H) as [A B]. split; [apply B|intros ->; exact A].
  intros e min. assert (K : forall l x d, exists c, last (map (fun c => RSet (cs_char c)) (x :: l)) d = RSet c).
  { clear. induction l as [|y l IH]; intros x d; [cbn; eauto|]. exact (IH y d). }
  destruct (K (b :: s) a RAny) as (c & E). rewrite E. discriminate.
Qed.

(** ** C39 — simplification *)

(** Missing: the expressions with a sequence that contains an expression without words (see [C39_simplified_refuted]). *)
Theorem C39_simplified_partial e : solid e -> forall w, matches (re_simplified e) w <-> matches e w.
Proof. apply simplified_lang. Qed.

(** For all expressions: no word is lost. *)
Theorem C39_simplified_keeps e w : matches e w -> matches (re_simplified e) w.
Proof. apply simplified_keeps. Qed.

(** ** C40 — singletons *)

Theorem C40_is_singleton e : sets_good e -> re_is_singleton e = true -> exists w, forall v, matches e v <-> v = w.
Proof. apply singleton_lang. Qed.

(** [as_singleton] never panics: it returns a word exactly when [is_singleton]. *)
Theorem C40_as_singleton_total e : sets_good e ->
  exists r, re_as_singleton e = Ok r /\ (r = None <-> re_is_singleton e = false).
Proof.
  intro SG. unfold re_as_singleton. destruct (re_is_singleton e) eqn:E.
  - destruct (build_singleton_ok e SG E) as (w & B & _). rewrite B. cbn [bind]. eexists. split; [reflexivity|]. split; discriminate.
  - eexists. split; [reflexivity|]. split; reflexivity.
Qed.

(** Missing: the expressions with a repetition other than [e{1}] (see [C40_as_singleton_refuted]). *)
Theorem C40_as_singleton_partial e w : sets_good e -> once e -> re_as_singleton e = Ok (Some w) -> forall v, matches e v <-> v = w.
Proof.
  intros SG O H. unfold re_as_singleton in H. destruct (re_is_singleton e) eqn:E; [|discriminate].
  destruct (build_singleton_ok e SG E) as (w' & B & W). rewrite B in H. cbn [bind app] in H. injection H as <-. now apply W.
Qed.

(** ** C41 — printing then parsing *)

(** Missing: the expressions that are not [printable] (see [C41_print_parse_refuted]). *)
Theorem C41_print_parse_partial e : sets_good e -> printable e ->
  exists e', re_parse (re_display e) = Ok e' /\ forall w, chars w -> (matches e' w <-> matches e w).
Proof. apply print_parse. Qed.

Theorem C41_from_str s w : matches (re_from_str s) w <-> w = s.
Proof. apply from_str_lang. Qed.
Theorem C41_from_str_parse s : re_parse (re_display (re_from_str s)) = Ok (re_from_str s).
Proof. apply from_str_parse. Qed.

(** ** C42 — operators *)

(** Missing: the patterns with an operator after two atoms or more of the same branch, and those with a character set without
    elements (see [C42_operators_refuted]). *)
Theorem C42_operators_partial l e : chars (pattern_text l) -> Forall tok_ok l -> Forall sets_inhabited l ->
  ops_ok (TGroup l) -> re_parse (pattern_text l) = Ok e ->
  forall w, chars w -> (matches e w <-> pattern_words l w).
Proof.
  intros C OK SI OO H w Cw. rewrite (parse_tokens l OK) in H. injection H as <-.
  assert (TC : Forall tok_chars l).
  { clear - C. unfold pattern_text in C. induction l as [|t l IH]; [constructor|]. cbn [flat_map] in C. apply chars_app in C as [C1 C2].
    constructor; [now apply text_chars|auto]. }
  destruct (tokens_lang l TC SI) as [_ L]. rewrite (L w Cw). unfold pattern_words. symmetry. now apply usual_reading.
Qed.

(** What a pattern means to the parser, wherever the operators are: an operator applies to all that precedes it in its branch.
    Missing: the character sets without elements. *)
Theorem C42_branch_partial l e : chars (pattern_text l) -> Forall tok_ok l -> Forall sets_inhabited l ->
  re_parse (pattern_text l) = Ok e ->
  forall w, chars w -> (matches e w <-> branch_words l w).
Proof.
  intros C OK SI H w Cw. rewrite (parse_tokens l OK) in H. injection H as <-.
  assert (TC : Forall tok_chars l).
  { clear - C. unfold pattern_text in C. induction l as [|t l IH]; [constructor|]. cbn [flat_map] in C. apply chars_app in C as [C1 C2].
    constructor; [now apply text_chars|auto]. }
  destruct (tokens_lang l TC SI) as [_ L]. exact (L w Cw).
Qed.

(** ** C43 — totality of the parser *)

Theorem C43_never_panics s : (exists e, re_parse s = Ok e) \/ (exists err, re_parse s = Err err).
Proof. apply parse_never_panics. Qed.

Theorem C43_accepts s : (exists e, re_parse s = Ok e) <-> well_formed s.
Proof.
  split.
  - intros (e & H). apply parse_well_formed in H as (l & OK & E & _). now exists l.
  - intros (l & OK & ->). eexists. now apply parse_tokens.
Qed.

(** ** C66 — character sets *)

(** [[...]] alone matches the characters of its items; [[^...]] those that are in none of them. *)
Theorem C66_character_set neg l : chars (tok_text (TSet neg l)) -> tok_ok (TSet neg l) ->
  exists e, re_parse (tok_text (TSet neg l)) = Ok e /\
    forall w, chars w -> (matches e w <-> exists c, w = [c] /\
      if neg then ~ (exists i, In i l /\ sitem_has i c) else exists i, In i l /\ sitem_has i c).
Proof.
  intros C OK. assert (E : tok_text (TSet neg l) = pattern_text [TSet neg l]) by (unfold pattern_text; cbn [flat_map]; now rewrite app_nil_r).
  rewrite E, parse_tokens; [|constructor; [exact OK|constructor]]. exists (RSet (charset_of neg l)). split; [reflexivity|].
  apply text_chars in C. inversion C as [| | | |? ? F|]; subst. destruct (charset_of_spec neg l F) as [_ M]. intros w Cw. rewrite m_set_iff. split.
  - intros (c & -> & H). exists c. split; [reflexivity|]. inversion Cw; subst. apply M in H as (d & [= <-] & _ & H); assumption.
  - intros (c & -> & H). inversion Cw; subst. exists c. split; [reflexivity|]. apply M; [assumption|]. exists c. auto.
Qed.

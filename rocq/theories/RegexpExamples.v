(** * Regular expressions: witnesses and counter-examples for C20, C32, C39–C43 and C66 *)

From Coq Require Import String Ascii List Bool Arith NArith Permutation Lia.
Import ListNotations.
From Verif Require Import Base BaseProofs Orders CharModel CharSpec CharProofs AutomatonModel AutomatonSpec RegexpModel RegexpSpec RegexpBuild
  RegexpParse RegexpLang RegexpRead RegexpCompile RegexpProperties.
Open Scope list_scope.
Open Scope nat_scope.

Definition str (s : string) : list N := map N_of_ascii (list_ascii_of_string s).
Definition lit (s : string) : regexp := RSet (flat_map cs_char (str s)).
Definition range (a b : string) : regexp :=
  match str a, str b with a :: _, b :: _ => RSet (cs_insert (a, b) []) | _, _ => RSet [] end.
Definition ok {E A} (a : A) (o : outcome E A) : A := match o with Ok x => x | _ => a end.
Definition compiled (e : regexp) : dfa nat (N * N) := ok (Dfa 0 [] []) (re_build 100 e).

(** Running a deterministic automaton. *)
Definition d_step (d : dfa nat (N * N)) (c : N) (q : nat) : list nat :=
  flat_map (fun x => if fst x =? q then flat_map (fun y => if in_range (fst y) c then [snd y] else []) (snd x) else []) (d_transitions d).
Fixpoint d_reach (d : dfa nat (N * N)) (w : list N) (q : nat) : list nat :=
  match w with [] => [q] | c :: w => flat_map (d_reach d w) (d_step d c q) end.
Definition accepts (d : dfa nat (N * N)) (w : list N) : bool :=
  existsb (fun q => existsb (Nat.eqb q) (d_final d)) (d_reach d w (d_initial d)).

Lemma d_step_iff d c q q' : In q' (d_step d c q) <-> exists l, d_edge d q l q' /\ range_has l c.
Proof.
  unfold d_step, d_edge, range_has. rewrite in_flat_map. split.
  - intros ([q0 ts] & H & K). cbn [fst snd] in K. destruct (Nat.eqb_spec q0 q) as [->|]; [|destruct K]. apply in_flat_map in K as ([l p] & K1 & K2).
    cbn [fst snd] in K2. destruct (in_range l c) eqn:E; [|destruct K2]. destruct K2 as [<-|[]]. exists l. split; [eauto|now apply in_range_iff].
  - intros (l & (ts & H & K) & E). exists (q, ts). split; [exact H|]. cbn [fst snd]. rewrite Nat.eqb_refl. apply in_flat_map. exists (l, q'). split; [exact K|].
    cbn [fst snd]. apply in_range_iff in E. rewrite E. now left.
Qed.
Lemma d_reach_iff d w : forall q q', In q' (d_reach d w q) <-> d_run range_has d q w q'.
Proof.
  induction w as [|c w IH]; intros q q'; cbn [d_reach].
  - split; [intros [<-|[]]; constructor|]. intro H. inversion H; subst. now left.
  - rewrite in_flat_map. split.
    + intros (p & H & K). apply d_step_iff in H as (l & E & M). eapply dr_char; [exact E|exact M|]. now apply IH.
    + intro H. inversion H as [|? l ? p ? ? E M R]; subst. exists p. split; [apply d_step_iff; eauto|]. now apply IH.
Qed.
Lemma accepts_iff d w : accepts d w = true <-> d_accepts range_has d w.
Proof.
  unfold accepts, d_accepts. rewrite existsb_exists. split.
  - intros (q & H & K). apply existsb_exists in K as (f & K1 & K2). apply Nat.eqb_eq in K2. subst. exists f. split; [exact K1|]. now apply d_reach_iff.
  - intros (f & H & K). exists f. split; [now apply d_reach_iff|]. apply existsb_exists. exists f. split; [exact H|apply Nat.eqb_refl].
Qed.

Ltac good := repeat first [constructor | split | (vm_compute; reflexivity) | (intro; vm_compute; congruence)].
Ltac allchars := repeat constructor; vm_compute; reflexivity.

(** ** C32 *)
Definition ex_union : regexp := RUnion [lit "a"; RRepeat (range "b" "d") 2 (Some 3); RRepeat (RUnion [lit "x"; RSequence []]) 0 None].

Lemma ex_union_good : sets_good ex_union.
Proof. repeat constructor; vm_compute; auto; discriminate. Qed.

Example C32_example : re_build 100 ex_union = Ok (compiled ex_union) /\ compilable ex_union = true /\
  (matches ex_union (str "bcd") <-> accepts (compiled ex_union) (str "bcd") = true) /\ accepts (compiled ex_union) (str "bcd") = true /\
  matches ex_union (str "xxx") /\ ~ matches ex_union (str "b") /\ ~ matches ex_union (str "bbbb").
Proof.
  assert (E : re_build 100 ex_union = Ok (compiled ex_union)) by (vm_compute; reflexivity).
  pose proof (C32_build_partial 100 ex_union _ ex_union_good eq_refl E) as T.
  assert (K : forall w, chars w -> (matches ex_union w <-> accepts (compiled ex_union) w = true)) by (intros w C; rewrite accepts_iff; symmetry; now apply T).
  split; [exact E|]. split; [reflexivity|]. split; [apply K; allchars|]. split; [vm_compute; reflexivity|]. split; [apply K; [allchars|vm_compute; reflexivity]|].
  split; intro H; [apply (proj1 (K (str "b") ltac:(allchars))) in H|apply (proj1 (K (str "bbbb") ltac:(allchars))) in H]; vm_compute in H; discriminate.
Qed.

(** The automaton of the expression made from the string "ab" accepts the empty word and not "ab". *)
Theorem C32_build_refuted : exists e d, sets_good e /\ re_build 100 e = Ok d /\
  (exists w, chars w /\ matches e w /\ ~ d_accepts range_has d w) /\
  (exists w, chars w /\ ~ matches e w /\ d_accepts range_has d w).
Proof.
  exists (re_from_str (str "ab")), (compiled (re_from_str (str "ab"))).
  assert (E : re_build 100 (re_from_str (str "ab")) = Ok (compiled (re_from_str (str "ab")))) by (vm_compute; reflexivity).
  split; [repeat constructor; vm_compute; auto; discriminate|]. split; [exact E|].
  pose proof (C32_string_automaton 100 (str "ab") _ ltac:(allchars) (le_n _) E) as A. split.
  - exists (str "ab"). split; [allchars|]. split; [now apply C41_from_str|]. rewrite A. discriminate.
  - exists []. split; [constructor|]. rewrite C41_from_str. split; [discriminate|]. now apply A.
Qed.

(** [a{2,1}] has no word but its automaton accepts "a"; so does that of [(a{2,})*]. *)
Theorem C32_repeat_refuted :
  (exists d, re_build 100 (RRepeat (lit "a") 2 (Some 1)) = Ok d /\ ~ matches (RRepeat (lit "a") 2 (Some 1)) (str "a") /\ d_accepts range_has d (str "a")) /\
  (exists d, re_build 100 (RRepeat (RRepeat (lit "a") 2 None) 0 None) = Ok d /\
     ~ matches (RRepeat (RRepeat (lit "a") 2 None) 0 None) (str "a") /\ d_accepts range_has d (str "a")).
Proof.
  split; eexists; (split; [vm_compute; reflexivity|]); (split; [|apply accepts_iff; vm_compute; reflexivity]); intro H; apply m_repeat_iff in H as (ws & E & F & A & B).
  - specialize (B 1 eq_refl). lia.
  - assert (L : forall w, matches (RRepeat (lit "a") 2 None) w -> 2 <= length w).
    { clear. intros w H. apply m_repeat_iff in H as (ws & -> & F & A & _).
      enough (length (concat ws) = length ws) by lia. clear A. induction F as [|w ws Hw F IH]; [reflexivity|]. apply m_set_iff in Hw as (c & -> & _). cbn. now rewrite IH. }
    destruct F as [|w ws Hw F]; [discriminate|]. apply L in Hw. apply (f_equal (@length N)) in E. cbn [concat] in E. rewrite app_length in E. cbn in E. lia.
Qed.

(** ** C39 *)
Definition ex_nested : regexp := RUnion [RSequence [lit "a"; RUnion [RSequence [lit "b"; RSequence []; lit "c"]]]].
Example C39_example : solid ex_nested /\ re_simplified ex_nested = RSequence [lit "a"; RSequence [lit "b"; lit "c"]] /\
  matches (re_simplified ex_nested) (str "abc") /\ matches ex_nested (str "abc").
Proof.
  assert (S : solid ex_nested) by (repeat constructor; discriminate). split; [exact S|]. split; [reflexivity|].
  assert (M : matches ex_nested (str "abc")).
  { econstructor; [now left|]. apply (m_seq_cons _ _ (str "a") (str "bc")); [now constructor|]. apply (m_seq_cons _ _ (str "bc") []); [|constructor].
    econstructor; [now left|]. apply (m_seq_cons _ _ (str "b") (str "c")); [now constructor|]. apply (m_seq_cons _ _ [] (str "c")); [constructor|].
    apply (m_seq_cons _ _ (str "c") []); [now constructor|constructor]. }
  split; [now apply (C39_simplified_partial _ S)|exact M].
Qed.

(** The empty set is dropped from the sequences: [a[]], that has no word, becomes [a]. *)
Theorem C39_simplified_refuted : exists e w, sets_good e /\ matches (re_simplified e) w /\ ~ matches e w.
Proof.
  exists (RSequence [lit "a"; RSet []]), (str "a"). split; [repeat constructor; vm_compute; auto; discriminate|]. split.
  - cbn. apply (m_seq_cons _ _ (str "a") []); [now constructor|constructor].
  - intro H. apply m_cons_iff in H as (u & v & _ & _ & H). apply m_cons_iff in H as (u' & v' & _ & H & _). apply m_set_iff in H as (c & _ & H). discriminate.
Qed.

(** ** C40 *)
Example C40_example : let e := RSequence [lit "a"; RUnion [lit "b"]; RRepeat (lit "c") 1 (Some 1)] in
  once e /\ re_as_singleton e = Ok (Some (str "abc")) /\ forall v, matches e v <-> v = str "abc".
Proof.
  cbn zeta. assert (O : once (RSequence [lit "a"; RUnion [lit "b"]; RRepeat (lit "c") 1 (Some 1)])) by (repeat constructor). split; [exact O|].
  split; [vm_compute; reflexivity|]. apply C40_as_singleton_partial; [repeat constructor; vm_compute; auto; discriminate|exact O|vm_compute; reflexivity].
Qed.
(** The count of the repetition is lost: the word of [a{2}] is said to be "a". *)
Theorem C40_as_singleton_refuted : exists e w, sets_good e /\ re_as_singleton e = Ok (Some w) /\ ~ (forall v, matches e v <-> v = w).
Proof.
  exists (RRepeat (lit "a") 2 (Some 2)), (str "a"). split; [repeat constructor; vm_compute; auto; discriminate|]. split; [vm_compute; reflexivity|].
  intro H. destruct (H (str "a")) as [_ H']. specialize (H' eq_refl). apply m_repeat_iff in H' as (ws & E & F & A & _).
  destruct F as [|w ws Hw F]; [cbn in A; lia|]. destruct F as [|w' ws Hw' F]; [cbn in A; lia|].
  apply m_set_iff in Hw as (c & -> & _). apply m_set_iff in Hw' as (c' & -> & _). discriminate.
Qed.

(** ** C41 *)
Definition ex_print : regexp :=
  RUnion [RSequence [range "a" "f"; RRepeat (RUnion [lit "x"; RSequence [lit "y"; lit "*"]]) 0 None];
          RRepeat (RSet (cs_complement (cs_insert (91, 94)%N []))) 1 None].
Example C41_example : printable ex_print /\ re_display ex_print = str "[a-f]((x|y\*)*)|([^\[-\^]+)" /\
  exists e', re_parse (re_display ex_print) = Ok e' /\ forall w, chars w -> (matches e' w <-> matches ex_print w).
Proof.
  assert (P : printable ex_print) by (repeat constructor; discriminate). split; [exact P|]. split; [vm_compute; reflexivity|].
  apply C41_print_parse_partial; [|exact P]. repeat constructor; vm_compute; auto; discriminate.
Qed.

(** [.] is printed "." and read as a full stop; [a{2,3}] is read as a text; the parentheses of [c(a|b)] are lost when the union is alone in
    a sequence; and the union of nothing is printed as the empty pattern, which matches the empty word. *)
Theorem C41_print_parse_refuted :
  (exists e e' w, sets_good e /\ e = RAny /\ re_parse (re_display e) = Ok e' /\ chars w /\ matches e w /\ ~ matches e' w) /\
  (exists e e' w, sets_good e /\ e = RRepeat (lit "a") 2 (Some 3) /\ re_parse (re_display e) = Ok e' /\ chars w /\ matches e w /\ ~ matches e' w) /\
  (exists e e' w, sets_good e /\ e = RSequence [lit "c"; RSequence [RUnion [lit "a"; lit "b"]]] /\ re_parse (re_display e) = Ok e' /\ chars w /\ matches e' w /\ ~ matches e w) /\
  (exists e e' w, sets_good e /\ e = RUnion [] /\ re_parse (re_display e) = Ok e' /\ chars w /\ matches e' w /\ ~ matches e w).
Proof.
  split; [|split; [|split]].
  - eexists RAny, (re_from_str (str ".")), (str "a"). split; [constructor|]. split; [reflexivity|]. split; [vm_compute; reflexivity|]. split; [allchars|].
    split; [now constructor|]. rewrite C41_from_str. discriminate.
  - eexists _, (re_from_str (str "a{2,3}")), (str "aa"). split; [|split; [reflexivity|]]; [repeat constructor; vm_compute; auto; discriminate|]. split; [vm_compute; reflexivity|]. split; [allchars|].
    split; [|rewrite C41_from_str; discriminate]. apply m_repeat_iff. exists [str "a"; str "a"]. split; [reflexivity|]. split; [repeat constructor|]. split; [cbn; lia|]. intros m [= <-]. cbn. lia.
  - eexists _, (RUnion [re_from_str (str "ca"); lit "b"]), (str "b"). split; [|split; [reflexivity|]]; [repeat constructor; vm_compute; auto; discriminate|]. split; [vm_compute; reflexivity|]. split; [allchars|].
    split; [eapply m_union; [right; now left|now constructor]|]. intro H. apply m_cons_iff in H as (u & v & E & H1 & H2). apply m_set_iff in H1 as (c & -> & H1).
    rewrite !m_seq_one in H2. apply m_union_iff in H2 as (e & He & H2). destruct He as [<-|[<-|[]]]; apply m_set_iff in H2 as (d & -> & _); discriminate.
  - eexists _, (RSequence []), []. split; [|split; [reflexivity|]]; [repeat constructor|]. split; [vm_compute; reflexivity|]. split; [constructor|]. split; [constructor|].
    intro H. now apply m_union_iff in H as (e & [] & _).
Qed.

(** ** C42 *)
Definition ex_toks : list tok :=
  [TSet true [IRange (Plain 97) (Plain 99); IOne (Esc 110)]; TOp OPlus; TChar 120; TGroup [TEscape 42; TOp OOptional; TBar; TChar 121; TOp OStar]].
Example C42_example : pattern_text ex_toks = str "[^a-c\n]+x(\*?|y*)" /\
  exists e, re_parse (pattern_text ex_toks) = Ok e /\ forall w, chars w -> (matches e w <-> pattern_words ex_toks w).
Proof.
  split; [vm_compute; reflexivity|].
  assert (OK : Forall tok_ok ex_toks) by (repeat constructor; discriminate).
  eexists. split; [now apply parse_tokens|]. apply C42_operators_partial; [allchars|exact OK| |repeat constructor|now apply parse_tokens].
  assert (C : sets_inhabited (TSet true [IRange (Plain 97) (Plain 99); IOne (Esc 110)])).
  { apply (in_set _ _ (str "d")). exists 100%N. split; [reflexivity|]. split; [reflexivity|]. intros (i & [<-|[<-|[]]] & H); cbv in H; [destruct H as [_ H]; now apply H|discriminate]. }
  repeat (constructor; [first [exact C|constructor]|]); [|constructor]. repeat constructor.
Qed.

(** The pattern [ab*] repeats "ab"; and [a[]] matches "a". *)
Theorem C42_operators_refuted :
  (exists l e w, chars (pattern_text l) /\ pattern_text l = str "ab*" /\ Forall tok_ok l /\ re_parse (pattern_text l) = Ok e /\
     chars w /\ pattern_words l w /\ ~ matches e w) /\
  (exists l e w, chars (pattern_text l) /\ pattern_text l = str "a[]" /\ Forall tok_ok l /\ re_parse (pattern_text l) = Ok e /\
     chars w /\ ~ pattern_words l w /\ matches e w).
Proof.
  split.
  - exists [TChar 97; TChar 98; TOp OStar], (RRepeat (re_from_str (str "ab")) 0 None), (str "a").
    split; [allchars|]. split; [reflexivity|]. split; [repeat constructor|]. split; [vm_compute; reflexivity|]. split; [allchars|]. split.
    + right. exists (str "a"), []. split; [reflexivity|]. split; [exists [], (str "a"); split; [reflexivity|]|exists []; split; [reflexivity|constructor]].
      split; [|reflexivity]. exists [], []. repeat split.
    + intro H. apply m_repeat_iff in H as (ws & E & F & _). destruct F as [|w ws Hw F]; [discriminate|]. apply C41_from_str in Hw. subst. discriminate.
  - exists [TChar 97; TSet false []], (RSequence [lit "a"]), (str "a").
    split; [allchars|]. split; [reflexivity|]. split; [repeat constructor; discriminate|]. split; [vm_compute; reflexivity|]. split; [allchars|]. split.
    + intros [[]|(u & v & _ & _ & (c & _ & _ & (i & [] & _)))].
    + apply m_seq_one. now constructor.
Qed.

(** [ab*|c] is read as [(ab)*|c]. *)
Example C42_branch_example : exists e, re_parse (str "ab*|c") = Ok e /\ matches e (str "abab") /\ matches e (str "c") /\ ~ matches e (str "abb").
Proof.
  set (l := [TChar 97; TChar 98; TOp OStar; TBar; TChar 99]).
  assert (OK : Forall tok_ok l) by (repeat constructor).
  eexists. split; [exact (parse_tokens l OK)|].
  assert (B := C42_branch_partial l _ ltac:(allchars) OK ltac:(repeat constructor) (parse_tokens l OK)).
  assert (AB : forall w, cat (cat eps (fun w => w = str "a")) (fun w => w = str "b") w <-> w = str "ab").
  { intro w. split; [intros (u & v & -> & (u' & v' & -> & -> & ->) & ->); reflexivity|]. intros ->. exists (str "a"), (str "b"). split; [reflexivity|]. split; [|reflexivity].
    exists [], (str "a"). repeat split. }
  split; [|split].
  - apply B; [allchars|]. left. right. exists [str "ab"; str "ab"]. split; [reflexivity|]. repeat constructor; now apply AB.
  - apply B; [allchars|]. right. exists [], (str "c"). repeat split.
  - intro M. apply B in M; [|allchars]. destruct M as [[[]|(ws & E & F)]|(u & v & E & -> & ->)]; [|discriminate].
    destruct F as [|w ws Hw F]; [discriminate|]. apply AB in Hw. subst w. injection E as E.
    destruct F as [|w ws Hw F]; [discriminate|]. apply AB in Hw. subst w. discriminate E.
Qed.

(** ** C43 *)
Example C43_example : well_formed (str "(a|[^\]x-z])*\(+") /\
  re_parse (str "(a") = Err MissingClosingParenthesis /\ re_parse (str "a)") = Err UnmatchedClosingParenthesis /\
  re_parse (str "a\") = Err IncompleteEscapeSequence /\ re_parse (str "[a-") = Err IncompleteCharacterSet /\ ~ well_formed (str "([)]").
Proof.
  split; [apply C43_accepts; eexists; vm_compute; reflexivity|]. split; [vm_compute; reflexivity|]. split; [vm_compute; reflexivity|].
  split; [vm_compute; reflexivity|]. split; [vm_compute; reflexivity|]. intro H. apply C43_accepts in H as (e & H). vm_compute in H. discriminate.
Qed.

(** ** C66 *)
Example C66_example : exists e, re_parse (str "[^a-cz]") = Ok e /\ matches e (str "d") /\ ~ matches e (str "b") /\ ~ matches e (str "z") /\ ~ matches e (str "de").
Proof.
  destruct (C66_character_set true [IRange (Plain 97) (Plain 99); IOne (Plain 122)]) as (e & E & H); [allchars|constructor; [|discriminate]|].
  { cbn. repeat split; discriminate. }
  exists e. split; [exact E|]. split; [|split; [|split]].
  - apply H; [allchars|]. exists 100%N. split; [reflexivity|]. intros (i & [<-|[<-|[]]] & K); cbv in K; [destruct K as [_ K]; now apply K|discriminate].
  - intro M. apply H in M as (c & [= <-] & M); [|allchars]. apply M. eexists. split; [now left|]. cbv. split; discriminate.
  - intro M. apply H in M as (c & [= <-] & M); [|allchars]. apply M. eexists. split; [right; now left|]. reflexivity.
  - intro M. apply H in M as (c & M & _); [|allchars]. discriminate.
Qed.

Print Assumptions C32_build_total.
Print Assumptions C32_build_partial.
Print Assumptions C32_sequence_automaton.
Print Assumptions C32_string_automaton.
Print Assumptions C32_build_refuted.
Print Assumptions C32_repeat_refuted.
Print Assumptions C39_simplified_partial.
Print Assumptions C39_simplified_refuted.
Print Assumptions C40_is_singleton.
Print Assumptions C40_as_singleton_total.
Print Assumptions C40_as_singleton_partial.
Print Assumptions C40_as_singleton_refuted.
Print Assumptions C41_print_parse_partial.
Print Assumptions C41_from_str.
Print Assumptions C41_from_str_parse.
Print Assumptions C41_print_parse_refuted.
Print Assumptions C42_operators_partial.
Print Assumptions C42_operators_refuted.
Print Assumptions C43_never_panics.
Print Assumptions C43_accepts.
Print Assumptions C66_character_set.

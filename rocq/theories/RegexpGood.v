(** * The sets of the regular expressions that are parsed

    The hypothesis of the theorems on compiled expressions (C32, C65, C76): the sets of a parsed expression are values
    of the type [RangeSet<char>]. *)

From Coq Require Import String List Bool Arith NArith Lia.
Import ListNotations.
From Verif Require Import Base BaseProofs Orders CharModel CharSpec CharProofs AutomatonModel RegexpModel RegexpSpec RegexpBuild.
Open Scope list_scope.
Open Scope nat_scope.

Lemma unescape_char c : is_char c = true -> is_char (unescape c) = true.
Proof.
  intro H. unfold unescape.
  repeat match goal with |- context [match ?x with _ => _ end] => destruct x end; first [reflexivity | exact H].
Qed.

Definition all_chars (s : list N) : Prop := Forall (fun c => is_char c = true) s.

Lemma insert_start_good start set : (forall c, start = Some c -> is_char c = true) -> cs_good set -> cs_good (insert_start start set).
Proof.
  intros H G. destruct start as [c|]; [|exact G]. cbn [insert_start]. apply cs_insert_good; cbn [fst snd]; auto.
Qed.

Lemma parse_charset_good : forall k s, length s <= k -> forall st negate start set set' s',
  all_chars s -> cs_good set -> (forall c, start = Some c -> is_char c = true) ->
  parse_charset st negate start set s = Ok (set', s') -> cs_good set' /\ all_chars s'.
Proof.
  induction k as [|k IH]; intros s L st negate start set set' s' C G S H.
  - destruct s; [discriminate H|cbn in L; lia].
  - destruct s as [|c s]; [discriminate H|]. cbn [parse_charset] in H. inversion C as [|? ? Cc Cs]; subst.
    cbn [length] in L.
    assert (ITEM : (if (c =? 93)%N then Ok (if negate then cs_complement (insert_start start set) else insert_start start set, s)
       else if (c =? 92)%N then match s with [] => Err IncompleteEscapeSequence
            | d :: s'' => parse_charset RangeDashOrStart negate (Some (unescape d)) (insert_start start set) s'' end
          else parse_charset RangeDashOrStart negate (Some c) (insert_start start set) s) = Ok (set', s') ->
       cs_good set' /\ all_chars s').
    { clear H. intro H. pose proof (insert_start_good start set S G) as G'. destruct (c =? 93)%N.
      - injection H as <- <-. split; [|exact Cs]. destruct negate; [apply gaps_good|]; exact G'.
      - destruct (c =? 92)%N.
        + destruct s as [|d s]; [discriminate H|]. inversion Cs as [|? ? Cd Cs']; subst. cbn [length] in L.
          eapply IH; [| | | |exact H]; [lia|exact Cs'|exact G'|]. intros x [= <-]. now apply unescape_char.
        + eapply IH; [| | | |exact H]; [lia|exact Cs|exact G'|]. intros x [= <-]. exact Cc. }
    destruct st.
    + destruct (c =? 94)%N; [|exact (ITEM H)]. eapply IH; [| | | |exact H]; [lia|exact Cs|exact G|exact S].
    + exact (ITEM H).
    + destruct (c =? 45)%N; [|exact (ITEM H)]. eapply IH; [| | | |exact H]; [lia|exact Cs|exact G|exact S].
    + destruct (c =? 92)%N.
      * destruct s as [|d s]; [discriminate H|]. inversion Cs as [|? ? Cd Cs']; subst. cbn [length] in L.
        destruct start as [a|]; [|discriminate H].
        eapply IH; [| | | |exact H]; [lia|exact Cs'| |discriminate]. apply cs_insert_good; cbn [fst snd]; auto using unescape_char.
      * destruct start as [a|]; [|discriminate H].
        eapply IH; [| | | |exact H]; [lia|exact Cs| |discriminate]. apply cs_insert_good; cbn [fst snd]; auto.
Qed.

Lemma re_push_good e f : sets_good e -> sets_good f -> sets_good (re_push e f).
Proof.
  intros G H. destruct e as [|s|l|e a b|l]; try (cbn [re_push]; constructor; auto; fail).
  - destruct l; [exact H|]. cbn [re_push]. constructor. inversion G; subst. apply Forall_app. auto.
  - destruct l; [exact H|]. cbn [re_push]. constructor; auto.
Qed.

Lemma re_simplified_good e : sets_good e -> sets_good (re_simplified e).
Proof.
  induction e as [|s|l IH|e a b IH|l IH] using regexp_ind'; intro G; cbn [re_simplified]; auto.
  - constructor. inversion G as [| |? G' | |]; subst. rewrite Forall_forall in *. intros x I. apply in_flat_map in I as (y & I & J).
    destruct (re_is_empty y); [destruct J|]. destruct J as [<-|[]]. auto.
  - inversion G; subst. constructor. auto.
  - inversion G as [| | |? G' |]; subst. rewrite Forall_forall in *.
    assert (K : sets_good (RUnion (map re_simplified l))).
    { constructor. apply Forall_forall. intros x I. apply in_map_iff in I as (y & <- & I). auto. }
    destruct l as [|e [|]]; [exact K| |exact K]. apply IH; [now left|]. apply G'. now left.
Qed.

Definition stack_good (st : parse_stack) : Prop := Forall (Forall sets_good) st.

Lemma update_last_good f st st' : (forall e, sets_good e -> sets_good (f e)) -> stack_good st ->
  update_last f st = Ok st' -> stack_good st'.
Proof.
  intros F G H. destruct st as [|[|cur opts] st]; try discriminate H. injection H as <-.
  inversion G as [|? ? G1 G2]; subst. inversion G1; subst. constructor; [constructor; auto|exact G2].
Qed.

Lemma parse_step_good st c s st' s' : stack_good st -> is_char c = true -> all_chars s ->
  parse_step st c s = Ok (st', s') -> stack_good st' /\ all_chars s'.
Proof.
  intros G C S. unfold parse_step.
  assert (E : sets_good re_empty) by (constructor; constructor).
  assert (UP : forall f (o : outcome parse_error parse_stack) st1 s1, (forall e, sets_good e -> sets_good (f e)) ->
     (let* st := update_last f st in Ok (st, s1)) = Ok (st', s') -> st1 = st -> all_chars s1 -> stack_good st' /\ all_chars s').
  { intros f _ st1 s1 F H _ S1. apply bind_Ok in H as (st2 & H & K). injection K as <- <-. split; [|exact S1].
    eapply update_last_good; eassumption. }
  repeat match goal with |- context [if (c =? ?n)%N then _ else _] => destruct (c =? n)%N end; intro H.
  - injection H as <- <-. split; [|exact S]. constructor; [|exact G]. constructor; auto.
  - destruct st as [|top st]; [discriminate H|]. inversion G as [|? ? G1 G2]; subst. destruct st as [|t2 st]; [discriminate H|].
    apply bind_Ok in H as (st2 & H & K). injection K as <- <-. split; [|exact S].
    eapply update_last_good; [|exact G2|exact H]. intros e Ge. apply re_push_good; [exact Ge|].
    apply (re_simplified_good (RUnion (rev top))). constructor. now apply Forall_rev.
  - destruct st as [|opts st]; [discriminate H|]. injection H as <- <-. split; [|exact S]. inversion G; subst.
    constructor; auto.
  - apply bind_Ok in H as ([set s1] & P & H).
    destruct (parse_charset_good (length s) s (le_n _) Start false None [] set s1 S (Logic.I : cs_good []) ltac:(discriminate) P) as [G1 S1].
    apply (UP _ (Ok st) st s1) in H; auto. intros e Ge. apply re_push_good; [exact Ge|now constructor].
  - destruct s as [|d s]; [discriminate H|]. cbn [parse_escaped_char bind] in H. inversion S as [|? ? Cd Ss]; subst.
    apply (UP _ (Ok st) st s) in H; auto. intros e Ge. apply re_push_good; [exact Ge|]. constructor. apply cs_char_good. now apply unescape_char.
  - apply (UP _ (Ok st) st s) in H; auto. intros e Ge. now constructor.
  - apply (UP _ (Ok st) st s) in H; auto. intros e Ge. now constructor.
  - apply (UP _ (Ok st) st s) in H; auto. intros e Ge. now constructor.
  - apply (UP _ (Ok st) st s) in H; auto. intros e Ge. apply re_push_good; [exact Ge|]. constructor. now apply cs_char_good.
Qed.

Lemma parse_loop_good fuel : forall st s st', stack_good st -> all_chars s -> parse_loop fuel st s = Ok st' -> stack_good st'.
Proof.
  induction fuel as [|fuel IH]; intros st s st' G S H; [discriminate H|]. cbn [parse_loop] in H.
  destruct s as [|c s]; [injection H as <-; exact G|]. inversion S as [|? ? Cc Cs]; subst.
  apply bind_Ok in H as ([st1 s1] & P & H). destruct (parse_step_good _ _ _ _ _ G Cc Cs P) as [G1 S1].
  exact (IH _ _ _ G1 S1 H).
Qed.

Theorem re_parse_good s e : all_chars s -> re_parse s = Ok e -> sets_good e.
Proof.
  intros S H. unfold re_parse in H. apply bind_Ok in H as (st & P & H).
  assert (G : stack_good st).
  { eapply parse_loop_good; [|exact S|exact P]. constructor; [|constructor]. constructor; [|constructor]. constructor. constructor. }
  destruct st as [|top [|? ?]]; try discriminate H. injection H as <-. inversion G; subst.
  apply (re_simplified_good (RUnion (rev top))). constructor. now apply Forall_rev.
Qed.

(** * C81: the identifier given by an IRI *)

From Coq Require Import String List Bool Arith NArith Lia.
Import ListNotations.
From Verif Require Import Base AbsJsonModel AttrModel CodeGenModel AbsJsonExamples CodeGenExamples.
Open Scope list_scope.

Section Ident.
Context {TS : TextSyntax} {RS : RustSyntax}.

(** The characters that separate words: white space, control characters and [_]. *)
Definition separator (c : N) : Prop := is_blank_char c = true \/ c = 95%N.

(** [words cs ws]: [ws] are the words of the text [cs], the longest parts without separator. *)
Inductive words : list N -> list (list N) -> Prop :=
| words_end : words [] []
| words_skip : forall c cs ws, separator c -> words cs ws -> words (c :: cs) ws
| words_word : forall w cs ws, w <> [] -> (forall c, In c w -> ~ separator c) ->
    match cs with [] => True | c :: _ => separator c end ->
    words cs ws -> words (w ++ cs) (w :: ws).

(** A word with its first letter in upper case. *)
Definition capitalized (w : list N) : string :=
  match w with
  | [] => EmptyString
  | c :: w' => upper_char c ++ String.concat "" (map char_text w')
  end%string.

(** The part of an IRI that names the layout: the fragment, or the last segment of the path. *)
Definition naming_part (iri part : string) : Prop :=
  iri_fragment iri = Some part \/ (iri_fragment iri = None /\ iri_last_segment iri = Some part).

Lemma separator_dec c : (is_blank_char c || N.eqb c 95)%bool = true <-> separator c.
Proof. unfold separator. rewrite orb_true_iff, N.eqb_eq. reflexivity. Qed.

Lemma separator_false c : ~ separator c -> (is_blank_char c || N.eqb c 95)%bool = false.
Proof. intros H. apply not_true_iff_false. now rewrite separator_dec. Qed.

Lemma concat_cons (s : string) l : String.concat "" (s :: l) = (s ++ String.concat "" l)%string.
Proof.
  destruct l as [|s' l]; [|reflexivity]. cbn [String.concat].
  induction s as [|c s IH]; [reflexivity|]. cbn [String.append]. now rewrite <- IH.
Qed.

Lemma append_assoc (a b c : string) : ((a ++ b) ++ c)%string = (a ++ (b ++ c))%string.
Proof. induction a as [|x a IH]; [reflexivity|]. cbn [String.append]. now rewrite IH. Qed.

Lemma pascal_rest w cs : (forall c, In c w -> ~ separator c) ->
  pascal false (w ++ cs) = (String.concat "" (map char_text w) ++ pascal false cs)%string.
Proof.
  induction w as [|c w IH]; intros H; [reflexivity|]. cbn [app pascal map].
  rewrite (separator_false c) by (apply H; now left). rewrite concat_cons, append_assoc, IH; [reflexivity|].
  intros x I. apply H. now right.
Qed.

Lemma pascal_up cs : match cs with [] => True | c :: _ => separator c end -> pascal false cs = pascal true cs.
Proof. destruct cs as [|c cs]; [reflexivity|]. intros H%separator_dec. cbn [pascal]. now rewrite H. Qed.

Lemma pascal_words cs ws : words cs ws -> pascal true cs = String.concat "" (map capitalized ws).
Proof.
  induction 1 as [|c cs ws S W IH|w cs ws N H S W IH]; [reflexivity| |].
  - cbn [pascal]. apply separator_dec in S. now rewrite S.
  - destruct w as [|c w]; [now contradiction N|]. cbn [app pascal map capitalized].
    rewrite (separator_false c) by (apply H; now left). rewrite concat_cons, append_assoc, pascal_rest.
    + now rewrite (pascal_up cs S), IH.
    + intros x I. apply H. now right.
Qed.

Lemma words_exist cs : exists ws, words cs ws.
Proof.
  remember (length cs) as n eqn:E. revert cs E. induction n as [n IH] using lt_wf_ind. intros cs ->.
  destruct cs as [|c cs]; [exists []; constructor|].
  destruct ((is_blank_char c || N.eqb c 95)%bool) eqn:S.
  - destruct (IH (length cs) ltac:(cbn [length]; lia) cs eq_refl) as [ws W]. exists ws.
    constructor; [now apply separator_dec|exact W].
  - assert (HS : forall cs : list N, exists w rest, cs = w ++ rest /\ (forall c, In c w -> ~ separator c) /\
        match rest with [] => True | c :: _ => separator c end).
    { clear. induction cs as [|x cs (w & rest & -> & H & R)]; [exists [], []; repeat split; intros ? []|].
      destruct ((is_blank_char x || N.eqb x 95)%bool) eqn:S.
      - exists [], (x :: w ++ rest). split; [reflexivity|]. split; [intros ? []|now apply separator_dec].
      - exists (x :: w), rest. split; [reflexivity|]. split; [|exact R]. intros y [<-|I]; [|now apply H].
        intros HX%separator_dec. congruence. }
    destruct (HS cs) as (w & rest & -> & H & R).
    destruct (IH (length rest) ltac:(cbn [length]; rewrite app_length; lia) rest eq_refl) as [ws W].
    exists ((c :: w) :: ws). change (c :: w ++ rest) with ((c :: w) ++ rest). apply words_word; try assumption.
    + discriminate.
    + intros y [<-|I]; [|now apply H]. intros HX%separator_dec. congruence.
Qed.

(** The identifier is the words of the fragment of the IRI, or of the last segment of its path when there
    is no fragment, each with its first letter in upper case; it must be an identifier of Rust. *)
Theorem C81_identifier iri id :
  ident_from_iri iri = Some id <->
  exists part ws, naming_part iri part /\ words (chars part) ws /\
    id = String.concat "" (map capitalized ws) /\ is_rust_ident id = true.
Proof.
  unfold ident_from_iri, naming_part.
  assert (P : forall part, parse_ident (pascal_case part) = Some id <->
    exists ws, words (chars part) ws /\ id = String.concat "" (map capitalized ws) /\ is_rust_ident id = true).
  { intros part. unfold parse_ident, pascal_case. split.
    - destruct (is_rust_ident (pascal true (chars part))) eqn:I; [|discriminate]. intros [= <-].
      destruct (words_exist (chars part)) as [ws W]. exists ws. split; [exact W|]. split; [now apply pascal_words|exact I].
    - intros (ws & W & E & I). rewrite (pascal_words _ _ W), <- E, I. reflexivity. }
  destruct (iri_fragment iri) as [f|].
  - rewrite P. split.
    + intros (ws & HW). exists f, ws. split; [now left|exact HW].
    + intros (part & ws & [[= <-]|[D _]] & HW); [eauto|discriminate].
  - destruct (iri_last_segment iri) as [s|].
    + rewrite P. split.
      * intros (ws & HW). exists s, ws. split; [now right|exact HW].
      * intros (part & ws & [D|[_ [= <-]]] & HW); [discriminate|eauto].
    + split; [discriminate|]. intros (part & ws & [D|[_ D]] & HW); discriminate.
Qed.
End Ident.

(** The words of [home_address], with the simple syntax of CodeGenExamples.v. *)
Section Case.
#[local] Existing Instance simple_syntax.
#[local] Existing Instance simple_rust.
Example home_words : words (chars "home_address") [chars "home"; chars "address"].
Proof.
  change (chars "home_address") with (chars "home" ++ (95%N :: (chars "address" ++ [])))%list.
  apply words_word; [discriminate| |now right|].
  - intros c I. repeat (destruct I as [<-|I]; [intros [H|H]; discriminate|]). destruct I.
  - apply words_skip; [now right|]. apply words_word; [discriminate| |exact I|apply words_end].
    intros c H. repeat (destruct H as [<-|H]; [intros [E|E]; discriminate|]). destruct H.
Qed.
Example home_ident : ident_from_iri "https://example.org/#home_address" = Some "HomeAddress"%string.
Proof.
  apply C81_identifier. exists "home_address"%string, [chars "home"; chars "address"].
  split; [now left|]. split; [exact home_words|]. split; reflexivity.
Qed.
End Case.
Print Assumptions C81_identifier.

(** * C72, C85: cases, refutations and assumptions *)

From Coq Require Import String Ascii List Bool Arith NArith ZArith QArith Qcanon Lia.
Import ListNotations.
From Verif Require Import Base BaseProofs Orders PatternModel ValueModel LayoutModel NumberModel HydrateModel
  JsonModel JsonSpec JsonProperties RegexpModel AbsModel AbsSpec AbsProofs AbsJsonModel AbsJsonSpec AbsJsonProofs
  AbsJsonExamples AbsSerdeModel AbsSerdeSpec AbsSerdeProofs AbsSerdeProperties.
Open Scope list_scope.
Open Scope nat_scope.
Open Scope string_scope.

(** A simplified syntax: blank node identifiers [_:x], IRIs with a colon. *)
Local Instance serde_syntax : TextSyntax := {|
  blank_suffix s :=
    match s with
    | String "_" (String ":" (String c s')) => Some (String c s')
    | _ => None
    end;
  is_iri_ref s :=
    match s with
    | String "_" _ => false
    | _ => has_colon s
    end;
  is_lang_tag s := negb (has_colon s);
  chars s := map N_of_ascii (list_ascii_of_string s)
|}.
Local Instance serde_print : TextPrint := fun l => string_of_list_ascii (map ascii_of_N l).
Local Instance serde_laws : TextLaws.
Proof.
  intros s name. cbn. destruct s as [|[[] [] [] [] [] [] [] []] s]; try discriminate. reflexivity.
Qed.

(** Floats: none is used below. *)
Definition no_float (_ : Qc) : unit := tt.
Definition no_number (_ : unit) : option Qc := None.
Definition no_text (_ : string) : option unit := None.
Definition one (_ : serde_value unit) : bool := false.

(** ** C72 *)

Definition record_layout : alayout :=
  AProduct
    (AHeader None [("e", "http://e.org/")] (Some "e:person") ["self"] [] [] [("e:age", ANumber 42)])
    [(VLit (LText "friends"),
      AField (AItem ["x"]
        (AFormat
          (RefLayout (AOrdered header0
             (ANode "head" "rest" ["value"] (AFormatLayout (RefIri "e:friend")) None)
             (AVar "self") (AIri (rdf "nil"))))
          [AVar "x"] None)
        [Quad (AVar "self") (AIri "e:friends") (AVar "x") None] None) false);
     (VLit (LText "name"),
      AField (AItem ["value"]
        (AFormatLayout (RefLayout
          (ALiteralL (AKTextString (Some (RUnion [RSet [(97, 97)%N]; RSet [(98, 98)%N]])) None) header0 None)))
        [] (Some (AIri "http://e.org/name"))) true)].

Lemma header0_plain : plain_header header0.
Proof.
  constructor; cbn; try (intros ? [=]); try (intros ? []); (split; [constructor|intros ? ? []]).
Qed.

Lemma record_plain : plain_layout no_float no_number record_layout.
Proof.
  intros l I. inversion I as [|? l1 ? N I1]; subst.
  - split.
    + cbn [plain_own record_layout]. split; [repeat constructor|].
      intros k f [[= <- <-]|[[= <- <-]|[]]]; (split; [split; [constructor|apply nu_lit; discriminate]|]); (split; [|split]).
      * split; [intros i [=]|]. split; [intros p [<-|[]]; reflexivity|]. split; [discriminate|intros g [=]].
      * intros q [<-|[]]. split; [reflexivity|]. split; [reflexivity|]. split; [reflexivity|]. intros g [=].
      * intros p [=].
      * intros i [=].
      * intros q [].
      * intros p [= <-]. reflexivity.
    + intros h [= <-]. constructor; cbn.
      * intros i [=].
      * split; [repeat constructor|]. intros n i [[= <- <-]|[]]. reflexivity.
      * intros i [= <-]. reflexivity.
      * intros q [].
      * split; [repeat constructor|]. intros i r [[= <- <-]|[]]. split; [reflexivity|]. cbn. lia.
  - inversion N as [? ? k f ? If Nf| | | | |]; subst. destruct If as [[= <- <-]|[[= <- <-]|[]]]; cbn in Nf; injection Nf as <-;
      (inversion I1 as [|? l2 ? N2 I2]; subst; [|inversion N2; subst; discriminate]).
    + split; [|intros h [= <-]; exact header0_plain]. repeat split; cbn; try reflexivity; try discriminate. intros ? [= <-]; reflexivity.
    + split; [|intros h [= <-]; exact header0_plain]. repeat split; cbn; try discriminate. intros e [= <-]. vm_compute. reflexivity.
Qed.
Example record_back : exists s, layout_serialize no_float one record_layout = Ok s /\ layout_deserialize no_number s = Ok record_layout.
Proof. exact (C72_roundtrip_partial no_float no_number one record_layout record_plain). Qed.

(** A literal with a language is read as a text without it. *)
Theorem C72_language_refuted : exists l l' s, layout_serialize no_float one l = Ok s /\
  layout_deserialize no_number s = Ok l' /\ l <> l'.
Proof.
  exists (ALiteralL (AKTextString None None) header0 (Some (ALiteral "chat" (ATypeLang "fr")))).
  do 2 eexists. split; [reflexivity|]. split; [vm_compute; reflexivity|]. discriminate.
Qed.
(** The default graph, given explicitly, is read as no graph. *)
Theorem C72_graph_refuted : exists l l' s, layout_serialize no_float one l = Ok s /\
  layout_deserialize no_number s = Ok l' /\ l <> l'.
Proof.
  exists (AUnordered header0 (AItem ["value"] (AFormat (RefIri "e:l") [AVar "value"] (Some None)) [] None)).
  do 2 eexists. split; [reflexivity|]. split; [vm_compute; reflexivity|]. discriminate.
Qed.
(** The constant 0 cannot be written: see C68. *)
Theorem C72_constant_refuted : exists l m, layout_serialize no_float one l = Panic m.
Proof.
  exists (AUnit header0 (VLit (LNum (Q2Qc 0)))). eexists. vm_compute. reflexivity.
Qed.
(** A regular expression is read as another: see C41. *)
Theorem C72_regexp_refuted : exists l s, layout_serialize no_float one l = Ok s /\
  layout_deserialize no_number s <> Ok l.
Proof.
  exists (ALiteralL (AKTextString (Some RAny) None) header0 None).
  eexists. split; [reflexivity|]. vm_compute. discriminate.
Qed.
(** What is written is not read by the JSON reader: an absent resource is written as [null]. *)
Theorem C72_json_refuted : exists l j s e, layout_serialize no_float one l = Ok s /\ json_serde false no_text j = Ok s /\
  layout_deserialize no_number s = Ok l /\ layout_from_json j = Err e.
Proof.
  exists (ALiteralL (AKId None) header0 None), (JObj [("type", JStr "id"); ("resource", JNull)]).
  do 2 eexists. repeat split; vm_compute; reflexivity.
Qed.

(** ** C85 *)

Lemma integers_alike j : (forall s, AbsJsonSpec.inside (JNum s) j -> s = "42") -> numbers_alike false no_text no_number j.
Proof. intros H s I. apply H in I. subst s. repeat split; try discriminate. Qed.
Ltac walk :=
  repeat match goal with
  | H : In _ (_ :: _) |- _ => destruct H as [H|H]; [try injection H as <- <-; try subst|]
  | H : In _ [] |- _ => destruct H
  | H : AbsJsonSpec.inside _ _ |- _ => inversion H; subst; clear H; try discriminate
  | H : JNum _ = JNum _ |- _ => injection H as ->
  end.
Lemma record_without : without_language record_layout.
Proof.
  intros l v tag I. inversion I as [|? l1 ? N I1]; subst.
  - intros [(h & [= <-] & q & [] & _)|(k & f & [[= <- <-]|[[= <- <-]|[]]] & Hp)]; cbn in Hp; rename Hp into H.
    + destruct H as [[[H|[]]|H]|[(q & [<-|[]] & H)|H]]; try discriminate. unfold quad_pattern in H. cbn in H. intuition discriminate.
    + destruct H as [[]|[(q & [] & _)|H]]; discriminate.
  - inversion N as [? ? k f ? If Nf| | | | |]; subst. destruct If as [[= <- <-]|[[= <- <-]|[]]]; cbn in Nf; injection Nf as <-;
      (inversion I1 as [|? l2 ? N2 I2]; subst; [|inversion N2; subst; discriminate]).
    + intros [(h & [= <-] & q & [] & _)|H]. cbn in H. destruct H as [H|[H|[[]|(ds & H & _)]]]; discriminate.
    + intros [(h & [= <-] & q & [] & _)|H]. discriminate.
Qed.
Example person_agrees : exists s, layout_from_json person = Ok record_layout /\ json_serde false no_text person = Ok s /\
  layout_deserialize no_number s = Ok record_layout.
Proof.
  assert (A : numbers_alike false no_text no_number person).
  { apply integers_alike. intros s I. unfold person, name_field, friends_field in I. walk. reflexivity. }
  eexists. split; [vm_compute; reflexivity|]. split; [vm_compute; reflexivity|].
  apply (C85_agree_partial no_number false no_text person record_layout); [vm_compute; reflexivity|exact record_without|exact A|vm_compute; reflexivity].
Qed.

(** The same document describes two layouts. *)
Theorem C85_language_refuted : exists j l l' s, layout_from_json j = Ok l /\ json_serde false no_text j = Ok s /\
  layout_deserialize no_number s = Ok l' /\ l <> l'.
Proof.
  exists (JObj [("type", JStr "string"); ("resource", JObj [("value", JStr "chat"); ("language", JStr "fr")])]).
  do 3 eexists. split; [vm_compute; reflexivity|]. split; [vm_compute; reflexivity|]. split; [vm_compute; reflexivity|]. discriminate.
Qed.
(** With [arbitrary_precision] a constant number becomes a map, and integers are refused. *)
Theorem C85_precision_refuted : exists j l l' s, layout_from_json j = Ok l /\ json_serde true no_text j = Ok s /\
  layout_deserialize no_number s = Ok l' /\ l <> l'.
Proof.
  exists (JObj [("type", JStr "unit"); ("const", JNum "5")]).
  do 3 eexists. split; [vm_compute; reflexivity|]. split; [vm_compute; reflexivity|]. split; [vm_compute; reflexivity|]. discriminate.
Qed.
Theorem C85_integer_refuted : exists j l s, layout_from_json j = Ok l /\ json_serde true no_text j = Ok s /\
  layout_deserialize no_number s = Err tt.
Proof.
  exists (JObj [("type", JStr "unit"); ("extra", JObj [("e:age", JNum "42")])]).
  do 2 eexists. repeat split; vm_compute; reflexivity.
Qed.
(** Serde reads documents that the JSON reader refuses. *)
Theorem C85_converse_refuted : exists j s l e, json_serde false no_text j = Ok s /\
  layout_deserialize no_number s = Ok l /\ layout_from_json j = Err e.
Proof.
  exists (JObj [("type", JStr "set"); ("item", JArr [JStr "x"; JBool true])]).
  do 3 eexists. repeat split; vm_compute; reflexivity.
Qed.

Print Assumptions C72_roundtrip_partial.
Print Assumptions C72_injective_partial.
Print Assumptions C72_language_refuted.
Print Assumptions C72_graph_refuted.
Print Assumptions C72_constant_refuted.
Print Assumptions C72_regexp_refuted.
Print Assumptions C72_json_refuted.
Print Assumptions C85_total.
Print Assumptions C85_agree_partial.
Print Assumptions C85_forgets.
Print Assumptions C85_language_refuted.
Print Assumptions C85_precision_refuted.
Print Assumptions C85_integer_refuted.
Print Assumptions C85_converse_refuted.

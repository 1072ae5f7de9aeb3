(** * C74: an interpretation, programs, cases, refutations and assumptions *)

From Coq Require Import String List Bool Arith ZArith QArith Qcanon Permutation Sorted Lia.
Import ListNotations.
From Verif Require Import Base BaseProofs Orders PatternModel MatchingModel MatchingSpec MatchingProofs ValueModel LayoutModel
  HydrateModel HydrateSpec TermModel GenDataModel GenModel GenSpec GenProperties.
Open Scope string_scope.
Open Scope list_scope.
Open Scope nat_scope.

(** Resources are strings; an interpretation lists their lexical representations. *)
Inductive lexical : Type := LexIri (s : string) | LexBlank (s : string) | LexLiteral (l : rdf_literal).
Definition lexicon : Type := list (string * lexical).

Definition pick {A} (f : lexical -> list A) (r : string) (t : lexicon) : list A :=
  flat_map (fun e : string * lexical => if eqb (fst e) r then f (snd e) else []) t.

#[local] Instance lexicon_runtime : Runtime string lexicon := {
  rt_iris t r := pick (fun l => match l with LexIri s => [s] | _ => [] end) r t;
  rt_blanks t r := pick (fun l => match l with LexBlank s => [s] | _ => [] end) r t;
  rt_literals t r := pick (fun l => match l with LexLiteral s => [s] | _ => [] end) r t;
  rt_assign_iri r s t := t ++ [(r, LexIri s)];
  rt_assign_blank r s t := t ++ [(r, LexBlank s)];
  rt_assign_literal r l t := t ++ [(r, LexLiteral l)]
}.

Fixpoint resource_of (iri : string) (t : lexicon) : option string :=
  match t with
  | [] => None
  | (r, LexIri s) :: t' => if eqb s iri then Some r else resource_of iri t'
  | _ :: t' => resource_of iri t'
  end.

(** (New resources are not used here.) *)
#[local] Instance lexicon_resolver : Resolver string lexicon := {
  rs_iri t iri := resource_of iri t;
  rs_interpret iri t := (iri, t ++ [(iri, LexIri iri)]);
  rs_new t := ("", t)
}.

#[local] Instance int_syntax : IntSyntax := {
  int_parse ty s :=
    match integer_parse s with
    | Some z => match ty with
                | U8 => if ((0 <=? z) && (z <? 256))%Z then Some z else None
                | _ => Some z
                end
    | None => None
    end
}.

Definition int_types : list int_type := [U8; U16; U32; U64; I8; I16; I32; I64].
#[local] Instance xsd_types : Xsd := {
  is_decimal_type dt := existsb (fun ty => eqb dt (int_datatype ty)) int_types;
  decimal_parse s := option_map Qc_of_Z (integer_parse s);
  decimal_print _ := None
}.

Lemma decimals : integers_are_decimals.
Proof.
  split; [intros []; reflexivity|]. intros ty s z H. cbn [int_parse int_syntax] in H. cbn [decimal_parse xsd_types].
  destruct (integer_parse s) as [z'|]; [|discriminate]. cbn [option_map]. unfold Qc_of_Z. f_equal. f_equal. f_equal.
  destruct ty; try congruence. destruct ((0 <=? z') && (z' <? 256))%Z; congruence.
Qed.

(** ** A program: a person with a name, possibly an age, a status and acquaintances *)

Definition one : header string := Header 1 0 [].
Definition property (p ty : string) : item_layout string :=
  Item 1 (VFormat ty [PVar 1] None) [Quad (PVar 0) (PRes p) (PVar 1) None].
Definition same (ty p o : string) : item_layout string :=
  Item 0 (VFormat ty [PVar 0] None) [Quad (PVar 0) (PRes p) (PRes o) None].
Definition key (s : string) : value := VLit (LText s).

Definition people : program := fun ty =>
  if eqb ty "t:Person" then
    Some (TyDerived (ProductL one
      [(key "age", Field (property "ex:age" "t:u8") false);
       (key "knows", Field (Item 0 (VFormat "t:Friends" [PVar 0] None) []) true);
       (key "name", Field (property "ex:name" "t:String") true);
       (key "status", Field (Item 0 (VFormat "t:Status" [PVar 0] None) []) true)]) PText)
  else if eqb ty "t:Friends" then Some (TyDerived (UnorderedL one (property "ex:knows" "t:Id")) PText)
  else if eqb ty "t:Status" then
    Some (TyDerived (SumL one [Variant "Active" (same "t:Unit" "ex:status" "ex:active");
                               Variant "Inactive" (same "t:Unit" "ex:status" "ex:inactive")]) PText)
  else if eqb ty "t:Unit" then Some (TyDerived (UnitL one vunit) PText)
  else if eqb ty "t:u8" then Some (TyInt U8)
  else if eqb ty "t:String" then Some TyText
  else if eqb ty "t:Id" then Some TyId
  else None.

Definition same_name (s : string) : string := s.
Definition layouts_of (types : program) : registry string :=
  fun ty => option_map (fun t => layout_at same_name (type_layout t)) (types ty).

Lemma layouts_describe types : describes types same_name (layouts_of types).
Proof. intros ty. reflexivity. Qed.

Definition iris (l : list string) : lexicon := map (fun s => (s, LexIri s)) l.
Definition typed (s dt : string) : lexical := LexLiteral (RdfLiteral s (TypeAny dt)).

Definition alice : lexicon :=
  iris ["ex:alice"; "ex:bob"; "ex:carol"; "ex:name"; "ex:age"; "ex:knows"; "ex:status"; "ex:active"; "ex:inactive";
        xsd_string; int_datatype U8] ++
  [("_:name", typed "Alice" xsd_string); ("_:age", typed "42" (int_datatype U8))].

Definition alice_data : list (quad string) :=
  [Quad "ex:alice" "ex:name" "_:name" None; Quad "ex:alice" "ex:age" "_:age" None;
   Quad "ex:alice" "ex:knows" "ex:carol" None; Quad "ex:alice" "ex:knows" "ex:bob" None;
   Quad "ex:alice" "ex:status" "ex:active" None].

Definition alice_value : rvalue :=
  RvRecord [("age", Some (RvInt 42)); ("knows", Some (RvVec [RvId (IdIri "ex:carol"); RvId (IdIri "ex:bob")]));
            ("name", Some (RvText "Alice")); ("status", Some (RvVariant 0 RvUnit))].

Example alice_read :
  deserialize alice (list_dataset alice_data) people 5 None "t:Person" ["ex:alice"] = Ok alice_value.
Proof. vm_compute. reflexivity. Qed.

Ltac programs H :=
  unfold people in H; cbn beta in H;
  repeat match type of H with
         | (if eqb ?a ?b then _ else _) = _ => destruct (eqb a b) in H
         | (if eqb ?a ?b then _ else _) <> _ => destruct (eqb a b) in H
         end.

Lemma people_fits : program_fits people.
Proof.
  intros ty l inner H. programs H; try discriminate; injection H as <- <-; cbn [fits].
  - split.
    + unfold bt_wf, keys. cbn [map fst]. repeat constructor.
    + intros kf H. repeat (destruct H as [<-|H]; [eexists; reflexivity|]). contradiction.
  - exact Logic.I.
  - intros v H. repeat (destruct H as [<-|H]; [reflexivity|]). contradiction.
  - exact Logic.I.
Qed.

Lemma alice_interpreted : interpreted alice people same_name.
Proof.
  split.
  - intros ty l inner iri H Hi. programs H; try discriminate; injection H as <- <-;
      cbn in Hi; repeat (destruct Hi as [<-|Hi]; [reflexivity|]); contradiction.
  - intros ty t dt H Hd. programs H; try discriminate; injection H as <-; cbn in Hd; try discriminate;
      injection Hd as <-; reflexivity.
Qed.

Lemma iris_no_literal l t r : rt_literals (iris l ++ t) r = rt_literals t r.
Proof.
  cbn [rt_literals lexicon_runtime]. unfold pick. rewrite flat_map_app. induction l as [|a l IH]; [reflexivity|].
  cbn [iris map flat_map fst snd]. now destruct (eqb a r).
Qed.

Lemma alice_plain : plain_literals alice.
Proof.
  intros r. unfold alice. rewrite iris_no_literal. cbn [rt_literals lexicon_runtime pick flat_map fst snd].
  destruct (eqb_spec "_:name" r) as [<-|]; [|destruct (eqb_spec "_:age" r) as [<-|]].
  - vm_compute. split; [repeat constructor; cbn; tauto|]. intros l [<-|[]]. eexists. reflexivity.
  - vm_compute. split; [repeat constructor; cbn; tauto|]. intros l [<-|[]]. eexists. reflexivity.
  - cbn. split; [constructor|intros l []].
Qed.

Lemma alice_no_blank : ~ mentions_blank alice_value.
Proof.
  intros H. unfold alice_value in H. inversion H as [|fs name v Hin Hv| | |]. subst. cbn [In] in Hin.
  destruct Hin as [E|[E|[E|[E|[]]]]]; injection E as _ <-; inversion Hv; subst.
  - match goal with H : In _ _, B : mentions_blank _ |- _ => destruct H as [<-|[<-|[]]]; inversion B end.
  - match goal with B : mentions_blank RvUnit |- _ => inversion B end.
Qed.

(** The hypotheses of C74 hold of this person. *)
Example alice_same :
  exists tv, hydrate_with (I := seen alice) (list_dataset alice_data) (layouts_of people) 5 None "t:Person" ["ex:alice"] = Ok tv
    /\ presents people same_name "t:Person" tv alice_value.
Proof.
  apply (C74_deserialize_sound_partial alice people same_name (layouts_of people) (list_dataset alice_data) 5 None
           "t:Person" ["ex:alice"] alice_value decimals people_fits (layouts_describe people) alice_interpreted alice_plain
           alice_read alice_no_blank).
Qed.

Lemma literals_in l r t : In l (rt_literals t r) -> exists r', In (r', LexLiteral l) t.
Proof.
  cbn [rt_literals lexicon_runtime]. unfold pick. intros H. apply in_flat_map in H as ([r' x] & Hx & H). cbn [fst snd] in H.
  destruct (eqb r' r); [|contradiction]. destruct x; cbn in H; try contradiction. destruct H as [->|[]]. eauto.
Qed.

(** The status is discriminated: no person is both active and inactive in these data. *)
Definition alice_holds : quad string -> Prop := fun q => In q alice_data.

Lemma alice_discriminated : discriminated people same_name alice_holds.
Proof.
  intros ty h vs inner g inputs s n m v w s1 s2 T HS Hn Hm S1 S2. programs T; try discriminate T. injection T as <- <- <-.
  assert (NO : forall u o g, alice_holds (Quad u "ex:status" o g) -> o = "ex:active").
  { intros u o g' Hin. cbn in Hin. repeat (destruct Hin as [E|Hin]; [try discriminate E|]); [|contradiction]. now injection E as _ <-. }
  assert (P : forall o s', solution alice_holds s (map (at_graph g) [Quad (PVar 0) (PRes "ex:status") (PRes o) None]) s' -> o = "ex:active").
  { intros o s' S. destruct (sol_quads _ _ _ _ S _ (or_introl eq_refl)) as ([u p o' g'] & Hq & I1 & I2 & I3 & _).
    cbn in I2, I3. destruct g; cbn in I2, I3; inversion I2; inversion I3; subst; eapply NO; eauto. }
  destruct n as [|[|[|n]]]; cbn in Hn; try discriminate; injection Hn as <-;
    destruct m as [|[|[|m]]]; cbn in Hm; try discriminate; injection Hm as <-; try reflexivity; exfalso.
  - apply P in S2. discriminate.
  - apply P in S1. discriminate.
Qed.

(** Without the status, the converse applies. *)
Definition quiet : program := fun ty =>
  if eqb ty "t:Status" then Some (TyDerived (UnitL one vunit) PText) else people ty.
Example quiet_read :
  exists v, deserialize alice (list_dataset alice_data) quiet 5 None "t:Person" ["ex:alice"] = Ok v.
Proof.
  assert (H : exists tv, hydrate_with (I := seen alice) (list_dataset alice_data) (layouts_of quiet) 5 None "t:Person" ["ex:alice"] = Ok tv)
    by (eexists; vm_compute; reflexivity).
  destruct H as [tv H].
  destruct (C74_deserialize_complete_partial alice quiet same_name (layouts_of quiet) (list_dataset alice_data) 5 None
           "t:Person" ["ex:alice"] tv decimals) as (v & Hv & _); eauto.
  - intros ty l inner T. unfold quiet in T. destruct (eqb ty "t:Status").
    + injection T as <- <-. exact Logic.I.
    + now apply people_fits in T.
  - apply layouts_describe.
  - split.
    + intros ty l inner iri T. unfold quiet in T. destruct (eqb ty "t:Status").
      * injection T as <- <-. intros [].
      * now apply (proj1 alice_interpreted ty l inner iri).
    + intros ty t dt T. unfold quiet in T. destruct (eqb ty "t:Status").
      * injection T as <-. discriminate.
      * now apply (proj2 alice_interpreted ty t dt).
  - intros ty h vs inner T. unfold quiet in T. destruct (eqb ty "t:Status") eqn:E; [discriminate|].
    unfold people in T. rewrite E in T. cbn beta in T.
    repeat match type of T with (if eqb ?a ?b then _ else _) = _ => destruct (eqb a b) in T end; discriminate.
  - intros ty t ity l r T Ht Hd Hl.
    apply literals_in in Hl as [r' Hl]. cbn in Hl.
    repeat (destruct Hl as [E|Hl]; [try discriminate E|]); [| |contradiction];
      injection E as _ <-; cbn [rl_type rl_value] in Hd |- *.
    all: unfold quiet, people in T;
      repeat match type of T with (if eqb ?a ?b then _ else _) = _ => destruct (eqb a b) in T end; try discriminate T;
      injection T as <-; cbn in Hd; try discriminate Hd;
      destruct Ht as [Ht|[? Ht]]; try discriminate Ht; injection Ht as <-; vm_compute; congruence.
Qed.

(** With the status too, since the dataset tells the variants apart. *)
Example alice_complete tv :
  hydrate_with (I := seen alice) (list_dataset alice_data) (layouts_of people) 5 None "t:Person" ["ex:alice"] = Ok tv ->
  presents people same_name "t:Person" tv alice_value.
Proof.
  intros H.
  destruct (C74_deserialize_enumerations_partial alice people same_name (layouts_of people) (list_dataset alice_data) alice_holds 5 None
           "t:Person" ["ex:alice"] tv decimals people_fits (layouts_describe people) alice_interpreted) as (v & Hv & P); eauto.
  - apply list_dataset_enumerates. unfold alice_data. repeat constructor; simpl; intuition discriminate.
  - exact alice_discriminated.
  - intros ty t ity l r T Ht Hd Hl.
    apply literals_in in Hl as [r' Hl]. cbn in Hl.
    repeat (destruct Hl as [E|Hl]; [try discriminate E|]); [| |contradiction];
      injection E as _ <-; cbn [rl_type rl_value] in Hd |- *.
    all: programs T; try discriminate T;
      injection T as <-; cbn in Hd; try discriminate Hd;
      destruct Ht as [Ht|[? Ht]]; try discriminate Ht; injection Ht as <-; vm_compute; congruence.
  - rewrite alice_read in Hv. now injection Hv as <-.
Qed.

(** ** Refutations: where the generated code and [hydrate] differ *)

(** The property of an optional field is not known to the interpretation: [hydrate] leaves the field absent, the
    generated code fails. *)
Definition bare : lexicon :=
  iris ["ex:alice"; "ex:bob"; "ex:carol"; "ex:name"; "ex:knows"; "ex:status"; "ex:active"; "ex:inactive";
        xsd_string; int_datatype U8] ++ [("_:name", typed "Alice" xsd_string)].
Definition bare_data : list (quad string) :=
  [Quad "ex:alice" "ex:name" "_:name" None; Quad "ex:alice" "ex:status" "ex:active" None].

Theorem C74_unknown_property_refuted :
  exists (i : lexicon) (types : program) (D : dataset string) ty inputs,
    program_fits types /\ describes types same_name (layouts_of types) /\ plain_literals i /\
    (exists tv, hydrate_with (I := seen i) D (layouts_of types) 5 None ty inputs = Ok tv) /\
    deserialize i D types 5 None ty inputs = Err MissingData.
Proof.
  exists bare, people, (list_dataset bare_data), "t:Person", ["ex:alice"].
  split; [exact people_fits|]. split; [apply layouts_describe|]. split.
  - intros r. unfold bare. rewrite iris_no_literal. cbn [rt_literals lexicon_runtime pick flat_map fst snd].
    destruct (eqb "_:name" r); cbn; (split; [repeat constructor; cbn; tauto|]); [|intros l []].
    intros l [<-|[]]. eexists. reflexivity.
  - split; [eexists|]; vm_compute; reflexivity.
Qed.

(** A variant whose content is not there: [hydrate] passes to the next variant, the generated code fails. *)
Definition either : program := fun ty =>
  if eqb ty "t:Either" then
    Some (TyDerived (SumL one [Variant "Name" (Item 0 (VFormat "t:Named" [PVar 0] None) []);
                               Variant "Age" (Item 0 (VFormat "t:Aged" [PVar 0] None) [])]) PText)
  else if eqb ty "t:Named" then
    Some (TyDerived (ProductL one [(key "name", Field (property "ex:name" "t:String") true)]) PText)
  else if eqb ty "t:Aged" then
    Some (TyDerived (ProductL one [(key "age", Field (property "ex:age" "t:u8") true)]) PText)
  else people ty.
Definition aged_data : list (quad string) := [Quad "ex:alice" "ex:age" "_:age" None].

Theorem C74_enumeration_refuted :
  exists (i : lexicon) (types : program) (D : dataset string) ty inputs,
    program_fits types /\ describes types same_name (layouts_of types) /\ plain_literals i /\
    interpreted i types same_name /\
    (exists tv, hydrate_with (I := seen i) D (layouts_of types) 5 None ty inputs = Ok tv) /\
    exists e, deserialize i D types 5 None ty inputs = Err e.
Proof.
  exists alice, either, (list_dataset aged_data), "t:Either", ["ex:alice"]. split; [|split; [|split; [|split; [|split]]]].
  - intros ty l inner H. unfold either in H.
    repeat match type of H with (if eqb ?a ?b then _ else _) = _ => destruct (eqb a b) in H end;
      try (now apply people_fits in H); injection H as <- <-; cbn [fits].
    + intros v H. repeat (destruct H as [<-|H]; [reflexivity|]). contradiction.
    + split; [repeat constructor|]. intros kf [<-|[]]. eexists. reflexivity.
    + split; [repeat constructor|]. intros kf [<-|[]]. eexists. reflexivity.
  - apply layouts_describe.
  - exact alice_plain.
  - split.
    + intros ty l inner iri H Hi. unfold either in H. destruct (eqb ty "t:Either"); [|destruct (eqb ty "t:Named"); [|destruct (eqb ty "t:Aged")]];
        [injection H as <- <-; cbn in Hi; intuition (subst; reflexivity)..|]. now apply (proj1 alice_interpreted ty l inner iri).
    + intros ty t dt H Hd. unfold either in H. destruct (eqb ty "t:Either"); [|destruct (eqb ty "t:Named"); [|destruct (eqb ty "t:Aged")]];
        [injection H as <-; discriminate..|]. now apply (proj2 alice_interpreted ty t dt).
  - eexists. vm_compute. reflexivity.
  - eexists. vm_compute. reflexivity.
Qed.

(** A blank node identifier is read by the type [rdf_types::Id], not by [hydrate], nor by a derived identifier. *)
Definition ids : program := fun ty =>
  if eqb ty "t:Id" then Some TyId
  else if eqb ty "t:Derived" then Some (TyDerived (IdL one (PVar 0) None) PText)
  else None.

Theorem C74_blank_refuted :
  exists (i : lexicon) (r b : string),
    deserialize i (list_dataset []) ids 2 None "t:Id" [r] = Ok (RvId (IdBlank b)) /\
    (exists w, hydrate_with (I := seen i) (list_dataset []) (layouts_of ids) 2 None "t:Id" [r] = Panic w) /\
    deserialize i (list_dataset []) ids 2 None "t:Derived" [r] = Err MissingId.
Proof.
  exists [("_:b", LexBlank "b")], "_:b", "b". split; [|split; [eexists|]]; vm_compute; reflexivity.
Qed.

(** An ill-formed literal is ignored by the derived integers (the next one is read), and makes [hydrate] panic. *)
Definition ages : program := fun ty =>
  if eqb ty "t:Age" then Some (TyDerived (DataL KNumber one (PVar 0) (int_datatype U8)) (PInt U8)) else None.

Theorem C74_invalid_literal_refuted :
  exists (i : lexicon) (r : string) z l,
    deserialize i (list_dataset []) ages 2 None "t:Age" [r] = Ok (RvInt z) /\
    In l (rt_literals i r) /\ rl_type l = TypeAny (int_datatype U8) /\ int_parse U8 (rl_value l) = None /\
    (exists w, hydrate_with (I := seen i) (list_dataset []) (layouts_of ages) 2 None "t:Age" [r] = Panic w).
Proof.
  exists [(int_datatype U8, LexIri (int_datatype U8)); ("_:b", typed "old" (int_datatype U8)); ("_:b", typed "7" (int_datatype U8))],
    "_:b", 7%Z, (RdfLiteral "old" (TypeAny (int_datatype U8))).
  split; [vm_compute; reflexivity|]. split; [now left|]. split; [reflexivity|]. split; [vm_compute; reflexivity|].
  eexists. vm_compute. reflexivity.
Qed.

(** Two literals of the datatype are ambiguous; a literal of another datatype is not read. *)
Example two_ages :
  deserialize ([("_:b", typed "6" (int_datatype U8)); ("_:b", typed "7" (int_datatype U8))] : lexicon)
    (list_dataset []) ages 2 None "t:Age" ["_:b"] = Err AmbiguousLiteralValue /\
  deserialize ([("_:b", typed "6" (int_datatype U16)); ("_:b", typed "7" (int_datatype U8))] : lexicon)
    (list_dataset []) ages 2 None "t:Age" ["_:b"] = Ok (RvInt 7).
Proof. split; rewrite C74_literals with (k := KNumber) (datatype := int_datatype U8) (p := PInt U8); vm_compute; reflexivity. Qed.

(** The Rust type, not the layout, decides how a literal is read: [#[tldr(number)] struct TestString(String)] (the type of
    the test treeldr-rs/tests/literal.rs) reads any literal of the datatype as a text, where [hydrate] reads a number. *)
Definition texts : program := fun ty =>
  if eqb ty "t:Number" then Some (TyDerived (DataL KNumber one (PVar 0) (int_datatype U8)) PText) else None.

Theorem C74_number_refuted :
  exists (i : lexicon) (r s : string),
    deserialize i (list_dataset []) texts 2 None "t:Number" [r] = Ok (RvText s) /\ decimal_parse s = None.
Proof. exists [("_:b", typed "old" (int_datatype U8))], "_:b", "old". split; vm_compute; reflexivity. Qed.

Print Assumptions C74_deserialize_sound_partial.
Print Assumptions C74_deserialize_complete_partial.
Print Assumptions C74_deserialize_enumerations_partial.
Print Assumptions C74_deserialize_means_partial.
Print Assumptions C74_literals.
Print Assumptions C74_unknown_property_refuted.
Print Assumptions C74_enumeration_refuted.
Print Assumptions C74_blank_refuted.
Print Assumptions C74_invalid_literal_refuted.
Print Assumptions C74_number_refuted.

(** * Dehydrate, then hydrate: a case of C30, and counter-examples out of its hypotheses *)

From Coq Require Import String List Bool Arith NArith ZArith Permutation Sorted QArith Qcanon Lia.
Import ListNotations.
From Verif Require Import Base BaseProofs Orders PatternModel MatchingModel MatchingSpec MatchingProofs ValueModel ValueProofs
  LayoutModel LayoutSpec HydrateModel HydrateSpec HydrateProperties TermModel HydrateExamples
  DehydrateModel DehydrateSpec DehydrateProofs DehydrateEmits DehydrateFinish DehydrateProperties DehydrateExamples
  RoundTripSpec RoundTripWrites RoundTripMeans RoundTripProperties.
Open Scope list_scope.
Open Scope nat_scope.
Open Scope string_scope.

(** ** The team of [DehydrateExamples.v] *)

Lemma team_In r l : team_reg r = Some l -> In (r, l) team.
Proof. apply bt_get_In. Qed.

Ltac team_cases H := apply team_In in H; unfold team in H; simpl in H;
  repeat (destruct H as [H|H]; [first [discriminate H|injection H as ? ?; subst]|]); try contradiction.

Lemma owns_id p : ~ Owns team_reg (iri "id") p.
Proof. inversion 1; match goal with H : team_reg _ = _ |- _ => vm_compute in H; discriminate H end. Qed.
Lemma owns_members p : Owns team_reg (iri "members") p -> p = iri "member".
Proof.
  inversion 1; match goal with H : team_reg _ = _ |- _ =>
    first [vm_compute in H; discriminate H|cbv [team_reg layouts_get] in H; vm_compute in H; injection H as ? ?; subst] end.
  destruct ps; [|discriminate]. now destruct H1 as [[]|].
Qed.

Example team_tree : tree_registry team_reg.
Proof.
  intros r l E. apply team_In in E. unfold team in E. simpl in E.
  repeat (destruct E as [E|E]; [injection E as _ <-|]); [..|contradiction].
  - apply (tl_record _ [] [(key "id", Own (iri "id")); (key "members", Own (iri "members"));
      (key "name", Link (iri "name") true (iri "string")); (key "todo", Link (iri "todo") false (iri "tasks"))]).
    + repeat constructor; vm_compute; reflexivity.
    + intros k c p _ _ [].
    + intros k c k' c' p H H' O O'. simpl in H, H'.
      repeat (destruct H as [H|H]; [injection H as <- <-|]); try contradiction;
      repeat (destruct H' as [H'|H']; [injection H' as <- <-|]); try contradiction; try reflexivity; exfalso;
      cbn [component_owns] in O, O';
      repeat match goal with
      | H : Owns _ (iri "id") _ |- _ => exact (owns_id _ H)
      | H : Owns _ (iri "members") _ |- _ => apply owns_members in H
      end; subst; discriminate.
    + intros k r' H. simpl in H. destruct H as [H|[H|[H|[H|[]]]]]; try discriminate; injection H as _ <-;
      [left; do 3 eexists; reflexivity|right; exact Logic.I].
  - apply tl_id.
  - apply (tl_set _ []). intros [].
  - apply (tl_record _ [(iri "type", iri "Person")] [(key "age", Link (iri "age") false (iri "number"));
      (key "name", Link (iri "name") true (iri "string"))]).
    + repeat constructor; vm_compute; reflexivity.
    + intros k c p H O I. destruct I as [<-|[]]. simpl in H. destruct H as [H|[H|[]]]; injection H as <- <-; discriminate O.
    + intros k c k' c' p H H' O O'. simpl in H, H'.
      repeat (destruct H as [H|H]; [injection H as <- <-|]); try contradiction;
      repeat (destruct H' as [H'|H']; [injection H' as <- <-|]); try contradiction; try reflexivity; exfalso;
      cbn [component_owns] in O, O'; subst; discriminate.
    + intros k r' H. simpl in H. destruct H as [H|[H|[]]]; discriminate.
  - apply (tl_list _ [] (iri "first") (iri "rest") "nil"); [discriminate|intros []|intros []].
  - apply (tl_tuple _ [] [(iri "left", iri "string"); (iri "right", iri "number")]).
    + repeat constructor; simpl; intuition discriminate.
    + intros p _ [].
  - apply (tl_data _ KNumber xsd_integer). vm_compute. reflexivity.
  - apply (tl_data _ (KTextString None) xsd_string). exact Logic.I.
Qed.

Lemma leaf_proper r v : leaf team_reg r -> Proper team_reg r v.
Proof. apply pr_leaf. Qed.

Ltac sorted_keys := repeat constructor; vm_compute; reflexivity.
Ltac fields :=
  let k := fresh "k" in let v := fresh "v" in let f := fresh "f" in let Hv := fresh "Hv" in let Hf := fresh "Hf" in
  intros k v f Hv Hf; simpl in Hv, Hf;
  repeat (destruct Hv as [Hv|Hv]; [injection Hv as <- <-|]); try contradiction;
  repeat (destruct Hf as [Hf|Hf]; [first [discriminate Hf|injection Hf as <-]|]); try contradiction;
  cbn [f_item it_value vf_layout prop self].

Example team_proper : Proper team_reg (iri "team") team_value.
Proof.
  eapply pr_record; [reflexivity|sorted_keys|]. fields.
  - apply pr_leaf. exact Logic.I.
  - eapply pr_set; [reflexivity| |intros []]. intros v Hv. cbn [it_value vf_layout prop].
    destruct Hv as [<-|[<-|[]]]; (eapply pr_record; [reflexivity|sorted_keys|]; fields; apply pr_leaf; exact Logic.I).
  - apply pr_leaf. exact Logic.I.
  - eapply pr_list; [reflexivity| |discriminate]. intros v Hv. apply pr_leaf. exact Logic.I.
Qed.

(** The only identifier. *)
Ltac member H := simpl in H;
  repeat (destruct H as [H|H]; [first [discriminate H|injection H; clear H; intros; subst]|]); try contradiction.
Ltac ids_step := match goal with
  | E : team_reg _ = Some _ |- _ => vm_compute in E; first [discriminate E|injection E; clear E; intros; subst]
  | E : In (_, field_of _) _ |- _ => member E
  | E : leaf team_reg _ |- _ => vm_compute in E; first [contradiction|clear E]
  | E : ~ leaf team_reg _ |- _ => first [exfalso; apply E; exact Logic.I|clear E]
  | E : Identifiers team_reg _ _ _ |- _ => inversion E; clear E; subst
  | E : IdentifiersE team_reg _ _ _ |- _ => inversion E; clear E; subst
  | E : IdentifiersL team_reg _ _ _ |- _ => simpl in E; inversion E; clear E; subst
  end.
Lemma team_identifiers ids : Identifiers team_reg (iri "team") team_value ids -> ids = ["http://team"].
Proof. unfold team_value. intro H. repeat ids_step; reflexivity. Qed.

Example team_distinct : distinct_identifiers team_reg (iri "team") team_value.
Proof. intros ids H. rewrite (team_identifiers _ H). repeat constructor. intros []. Qed.

Example team_not_terminators : not_terminators team_reg (iri "team") team_value.
Proof.
  intros ids i H Hi r ps first rest r' E. rewrite (team_identifiers _ H) in Hi. destruct Hi as [<-|[]].
  apply team_In in E. unfold team in E. simpl in E. unfold list_layout, cell in E.
  repeat (destruct E as [E|E]; [discriminate E|]). contradiction.
Qed.

Lemma default_blank : blank_identifiers default_options.
Proof.
  split; [intro i; simpl; eauto|]. intro n. rewrite default_generated. eauto.
Qed.

Lemma integers_read_back : decimals_read_back xsd_integers.
Proof. intros n s. apply decimal_parse_print. Qed.

Example team_enumerates : enumerates (list_dataset team_quads) (fun q => In q team_quads).
Proof. apply list_dataset_enumerates. unfold team_quads. repeat constructor; simpl; intuition discriminate. Qed.

(** C30 applies. *)
Example team_round_trip : exists tv N,
  (forall fuel, N <= fuel -> hydrate (list_dataset team_quads) team_reg fuel (iri "team") [iri "http://team"] = Ok tv) /\
  Same team_reg (iri "team") team_value (into_untyped tv).
Proof.
  exact (C30_round_trip_partial default_options team_reg same same_perm 10 team_value (iri "team") team_quads
    [iri "http://team"] (list_dataset team_quads) team_tree team_proper team_distinct team_not_terminators
    default_blank default_options_fresh integers_read_back dehydrate_team team_enumerates).
Qed.

(** Without sets: a pair of a list and of a number or a string, and a constant. *)
Definition pair_layouts : layouts term := [
  (iri "pair", SizedL no_header [prop "left" (iri "tasks"); prop "right" (iri "choice"); prop "end" (iri "unit")]);
  (iri "unit", UnitL (Header 1 0 [Quad (PVar 0) (PRes (iri "type")) (PRes (iri "End")) None]) (vtext "end"));
  (iri "choice", SumL no_header [Variant "n" (self (VFormat (iri "number") [PVar 0] None));
     Variant "s" (self (VFormat (iri "string") [PVar 0] None))]);
  (iri "tasks", OrderedL no_header
      (Item 1 (VFormat (iri "choice") [PVar 3] None)
        [Quad (PVar 1) (PRes (iri "first")) (PVar 3) None;
         Quad (PVar 1) (PRes (iri "rest")) (PVar 2) None]) (PVar 0) (PRes (iri "nil")));
  (iri "number", DataL KNumber no_header (PVar 0) (iri xsd_integer));
  (iri "string", DataL (KTextString None) no_header (PVar 0) (iri xsd_string))].
Definition pair_value : value := VList [VList [vtext "a"; vint 3]; vint 7; vtext "end"].

Example pair_round_trip : exists ds vals tv N,
  dehydrate same (layouts_get pair_layouts) 10 pair_value (iri "pair") default_options = Ok (ds, vals) /\ length ds = 8 /\
  (forall fuel, N <= fuel -> hydrate (list_dataset ds) (layouts_get pair_layouts) fuel (iri "pair") vals = Ok tv) /\
  into_untyped tv = pair_value.
Proof.
  destruct (dehydrate same (layouts_get pair_layouts) 10 pair_value (iri "pair") default_options) as [[ds vals]|e|w|] eqn:E;
    vm_compute in E; try discriminate.
  exists ds, vals.
  destruct (C30_round_trip_equal_partial default_options (layouts_get pair_layouts) same same_perm 10 pair_value (iri "pair") ds vals
    (list_dataset ds)) as (tv & N & H1 & H2).
  - intros r l H. apply bt_get_In in H. unfold pair_layouts in H. simpl in H.
    repeat (destruct H as [H|H]; [injection H as _ <-|]); [..|contradiction].
    + apply (tl_tuple _ [] [(iri "left", iri "tasks"); (iri "right", iri "choice"); (iri "end", iri "unit")]).
      * repeat constructor; simpl; intuition discriminate.
      * intros p _ [].
    + apply (tl_unit _ [(iri "type", iri "End")]).
    + apply (tl_choice _ [("n", iri "number"); ("s", iri "string")] [xsd_integer; xsd_string]).
      * constructor; [exists KNumber; split; vm_compute; reflexivity|].
        constructor; [exists (KTextString None); split; [vm_compute; reflexivity|exact Logic.I]|constructor].
      * repeat constructor; simpl; intuition discriminate.
    + apply (tl_list _ [] (iri "first") (iri "rest") "nil"); [discriminate|intros []|intros []].
    + apply (tl_data _ KNumber xsd_integer). vm_compute. reflexivity.
    + apply (tl_data _ (KTextString None) xsd_string). exact Logic.I.
  - intros r h it H. apply bt_get_In in H. unfold pair_layouts in H. simpl in H.
    repeat (destruct H as [H|H]; [discriminate H|]). contradiction.
  - eapply pr_tuple; [reflexivity|]. intros i it v Hi Hv.
    destruct i as [|[|[|i]]]; [| | |destruct i; discriminate Hi]; injection Hi as <-; injection Hv as <-.
    + eapply pr_list; [reflexivity| |discriminate]. intros v Hv. apply pr_leaf. reflexivity.
    + apply pr_leaf. reflexivity.
    + eapply pr_unit. reflexivity.
  - intros ids H. enough (ids = []) as -> by constructor. unfold pair_value in H.
    repeat match goal with
    | E : layouts_get pair_layouts _ = Some (tagged_layout _ _ ?vs), H : In _ ?vs |- _ =>
        destruct vs as [|[? [? ?]] ?]; [destruct H|vm_compute in E; discriminate E]
    | E : layouts_get pair_layouts _ = Some _ |- _ => vm_compute in E; first [discriminate E|injection E; clear E; intros; subst]
    | E : leaf _ _ |- _ => vm_compute in E; first [contradiction|clear E]
    | E : Identifiers _ _ _ _ |- _ => inversion E; clear E; subst
    | E : IdentifiersL _ _ _ _ |- _ => simpl in E; inversion E; clear E; subst
    end; reflexivity.
  - intros ids i H. enough (ids = []) as -> by intros []. unfold pair_value in H.
    repeat match goal with
    | E : layouts_get pair_layouts _ = Some (tagged_layout _ _ ?vs), H : In _ ?vs |- _ =>
        destruct vs as [|[? [? ?]] ?]; [destruct H|vm_compute in E; discriminate E]
    | E : layouts_get pair_layouts _ = Some _ |- _ => vm_compute in E; first [discriminate E|injection E; clear E; intros; subst]
    | E : leaf _ _ |- _ => vm_compute in E; first [contradiction|clear E]
    | E : Identifiers _ _ _ _ |- _ => inversion E; clear E; subst
    | E : IdentifiersL _ _ _ _ |- _ => simpl in E; inversion E; clear E; subst
    end; reflexivity.
  - exact default_blank.
  - exact default_options_fresh.
  - exact integers_read_back.
  - vm_compute. congruence.
  - injection E as <- _. apply list_dataset_enumerates. repeat constructor; simpl; intuition discriminate.
  - exists tv, N. split; [reflexivity|]. split; [|split; [exact H1|exact H2]]. injection E as <- _. reflexivity.
Qed.

(** A list of shapes: the choice is made by the type of the node. *)
Definition circle_fields : list (value * component) := [(key "radius", Link (iri "radius") true (iri "number"))].
Definition rectangle_fields : list (value * component) :=
  [(key "height", Link (iri "height") true (iri "number")); (key "width", Link (iri "width") true (iri "number"))].
Definition shape_kinds : list (string * (term * term)) :=
  [("circle", (iri "Circle", iri "circle")); ("rectangle", (iri "Rectangle", iri "rectangle"))].
Definition shape_layouts : layouts term := [
  (iri "drawing", list_layout [] (iri "first") (iri "rest") (TmIri "nil") (iri "shape"));
  (iri "shape", tagged_layout [] (iri "type") shape_kinds);
  (iri "circle", record_layout [] circle_fields);
  (iri "rectangle", record_layout [] rectangle_fields);
  (iri "number", DataL KNumber no_header (PVar 0) (iri xsd_integer))].
Definition shape_reg : registry term := layouts_get shape_layouts.
Definition a_circle (r : Z) : value := VMap [(key "radius", vint r)].
Definition a_rectangle (h w : Z) : value := VMap [(key "height", vint h); (key "width", vint w)].
Definition drawing : value := VList [a_circle 3; a_rectangle 1 2; a_circle 4].

(** The properties of a record whose components are linked. *)
Lemma record_owns reg r fs q : reg r = Some (record_layout [] fs) -> (forall k r', ~ In (k, Own r') fs) ->
  Owns reg r q -> exists k b r', In (k, Link q b r') fs.
Proof.
  intros E NO H. inversion H as [? ? ? ? E1|? ? ? ? E1 HI|? ? ? ? ? ? E1 HI|? ? ? ? ? ? ? E1 HI|? ? ? ? E1|? ? ? ? ? E1|? ? ? ? ? ? ? E1|? ? ? ? ? E1|? ? ? ? ? ? ? ? E1]; subst;
    try (unfold list_layout, tagged_layout, record_layout, tuple_layout, set_layout in *; congruence).
  - rewrite E in E1. injection E1 as Es _. apply (statements_inj []) in Es. subst. destruct HI.
  - rewrite E in E1. injection E1 as _ Ef. apply fields_inj in Ef. subst. elim (NO _ _ HI).
  - rewrite E in E1. injection E1 as _ Ef. apply fields_inj in Ef. subst. eauto.
Qed.

Example shape_tree : tree_registry shape_reg.
Proof.
  refine (layouts_get_all _ _ _). repeat apply Forall_cons; try apply Forall_nil; cbn [snd].
  - apply (tl_list _ [] (iri "first") (iri "rest") "nil"); [discriminate|intros []|intros []].
  - apply tl_tagged.
    + discriminate.
    + repeat constructor; simpl; intuition discriminate.
    + intros [].
    + intros n tag r q Hn H. split; [|intros []]. intros ->. destruct Hn as [[= _ _ <-]|[[= _ _ <-]|[]]].
      * apply (record_owns _ _ circle_fields) in H; [|reflexivity|intros k r' [F|[]]; discriminate].
        destruct H as (k & b & r' & [F|[]]). discriminate.
      * apply (record_owns _ _ rectangle_fields) in H; [|reflexivity|intros k r' [F|[F|[]]]; discriminate].
        destruct H as (k & b & r' & [F|[F|[]]]); discriminate.
    + intros n tag r [[= _ _ <-]|[[= _ _ <-]|[]]]; exact Logic.I.
  - apply tl_record.
    + repeat constructor.
    + intros k c p _ _ [].
    + intros k c k' c' p [[= <- <-]|[]] [[= <- <-]|[]] _ _. reflexivity.
    + intros k r' [F|[]]. discriminate.
  - apply tl_record.
    + sorted_keys.
    + intros k c p _ _ [].
    + intros k c k' c' p H H' O O'. destruct H as [[= <- <-]|[[= <- <-]|[]]], H' as [[= <- <-]|[[= <- <-]|[]]]; try reflexivity;
        exfalso; cbn [component_owns] in O, O'; subst; discriminate.
    + intros k r' [F|[F|[]]]; discriminate.
  - apply (tl_data _ KNumber xsd_integer). vm_compute. reflexivity.
Qed.

Example drawing_proper : Proper shape_reg (iri "drawing") drawing.
Proof.
  assert (C : forall r, Proper shape_reg (iri "shape") (a_circle r)).
  { intro r. eapply (pr_tagged _ _ [] (iri "type") shape_kinds "circle" (iri "Circle")); [reflexivity|now left| |].
    - eapply pr_record; [reflexivity|sorted_keys|]. fields. apply pr_leaf. exact Logic.I.
    - intros n tag r1 [[= <- <- <-]|[[= <- <- <-]|[]]] NE; [congruence|]. eapply (rf_key _ _ rectangle_fields); [reflexivity|]. simpl. intuition discriminate. }
  assert (R : forall h w, Proper shape_reg (iri "shape") (a_rectangle h w)).
  { intros h w. eapply (pr_tagged _ _ [] (iri "type") shape_kinds "rectangle" (iri "Rectangle")); [reflexivity|right; now left| |].
    - eapply pr_record; [reflexivity|sorted_keys|]. fields; apply pr_leaf; exact Logic.I.
    - intros n tag r1 [[= <- <- <-]|[[= <- <- <-]|[]]] NE; [|congruence]. eapply (rf_key _ _ circle_fields); [reflexivity|]. simpl. intuition discriminate. }
  eapply pr_list; [reflexivity| |discriminate]. intros v Hv. destruct Hv as [<-|[<-|[<-|[]]]]; [apply C|apply R|apply C].
Qed.

(** Without identifier layouts, there are no identifiers. *)
Scheme Identifiers_mind := Minimality for Identifiers Sort Prop
with IdentifiersE_mind := Minimality for IdentifiersE Sort Prop
with IdentifiersL_mind := Minimality for IdentifiersL Sort Prop.
Lemma nothing_identified reg : (forall r h p pat, reg r <> Some (IdL h p pat)) ->
  forall r v ids, Identifiers reg r v ids -> ids = [].
Proof.
  intro N. apply (Identifiers_mind reg (fun _ _ ids => ids = []) (fun _ _ ids => ids = []) (fun _ _ ids => ids = []));
    intros; subst; try reflexivity. exfalso. eapply N; eauto.
Qed.
Lemma shape_not_id r h p pat : shape_reg r <> Some (IdL h p pat).
Proof.
  intro H. apply bt_get_In in H. unfold shape_layouts, list_layout, cell, record_layout, tagged_layout in H. simpl in H.
  repeat (destruct H as [H|H]; [discriminate H|]). contradiction.
Qed.

Example drawing_round_trip : exists ds vals tv N,
  dehydrate same shape_reg 10 drawing (iri "drawing") default_options = Ok (ds, vals) /\ length ds = 13 /\
  (forall fuel, N <= fuel -> hydrate (list_dataset ds) shape_reg fuel (iri "drawing") vals = Ok tv) /\
  into_untyped tv = drawing.
Proof.
  destruct (dehydrate same shape_reg 10 drawing (iri "drawing") default_options) as [[ds vals]|e|w|] eqn:E;
    vm_compute in E; try discriminate.
  exists ds, vals.
  destruct (C30_round_trip_equal_partial default_options shape_reg same same_perm 10 drawing (iri "drawing") ds vals
    (list_dataset ds)) as (tv & N & H1 & H2).
  - exact shape_tree.
  - intros r h it H. apply bt_get_In in H. unfold shape_layouts in H. simpl in H.
    repeat (destruct H as [H|H]; [discriminate H|]). contradiction.
  - exact drawing_proper.
  - intros ids H. apply (nothing_identified _ shape_not_id) in H as ->. constructor.
  - intros ids i H. apply (nothing_identified _ shape_not_id) in H as ->. intros [].
  - exact default_blank.
  - exact default_options_fresh.
  - exact integers_read_back.
  - vm_compute. congruence.
  - injection E as <- _. apply list_dataset_enumerates. repeat constructor; simpl; intuition discriminate.
  - exists tv, N. split; [reflexivity|]. split; [|split; [exact H1|exact H2]]. injection E as <- _. reflexivity.
Qed.

(** ** Counter-examples to C30 in full *)

(** [v] is dehydrated with the layout [r], but hydration does not give it back. *)
Definition lost (reg : registry term) (r : term) (v : value) : Prop :=
  exists ds vals, dehydrate same reg 10 v r default_options = Ok (ds, vals) /\
    enumerates (list_dataset ds) (fun q => In q ds) /\
    forall fuel tv, hydrate (list_dataset ds) reg fuel r vals = Ok tv -> into_untyped tv <> v.

Lemma hydrate_result (D : dataset term) reg fuel r vals o :
  hydrate D reg fuel r vals = o -> o <> OutOfFuel ->
  forall fuel' tv, hydrate D reg fuel' r vals = Ok tv -> o = Ok tv.
Proof.
  unfold hydrate. intros H N fuel' tv H'. destruct (le_lt_dec fuel fuel') as [L|L].
  - subst o. rewrite (C11_fuel D reg fuel fuel' None r vals N L) in H'. exact H'.
  - rewrite (C11_fuel D reg fuel' fuel None r vals) in H; [congruence|rewrite H'; discriminate|lia].
Qed.

Ltac lose := eexists; eexists; split; [vm_compute; reflexivity|]; split;
  [apply list_dataset_enumerates; repeat constructor; simpl; intuition discriminate|];
  let fuel := fresh in let tv := fresh in let H := fresh in
  intros fuel tv H; eapply (hydrate_result _ _ 20) in H; [|vm_compute; reflexivity|discriminate];
  first [discriminate H|injection H as <-; vm_compute; discriminate].

Definition person_id : field term := Field (self (VFormat (iri "id") [PVar 0] None)) true.
Definition others : layouts term := [
  (iri "tags", UnorderedL no_header (prop "tag" (iri "string")));
  (iri "friends", UnorderedL no_header (prop "friend" (iri "person")));
  (iri "person", ProductL no_header [(key "id", person_id); (key "name", Field (prop "name" (iri "string")) false)]);
  (iri "guest", ProductL no_header [(key "id", Field (self (VFormat (iri "id") [PVar 0] None)) false);
     (key "name", Field (prop "name" (iri "string")) true)]);
  (iri "named", ProductL no_header [(key "id", person_id);
     (key "list", Field (self (VFormat (iri "tasks") [PVar 0] None)) true)]);
  (iri "outer", ProductL no_header [(key "x", Field (Item 1 (VFormat (iri "inner") [PVar 1] (Some (Some (PVar 0))))
     [Quad (PVar 0) (PRes (iri "x")) (PVar 1) None]) true)]);
  (iri "inner", ProductL no_header [(key "y", Field (prop "y" (iri "string")) true)]);
  (iri "tasks", OrderedL no_header
      (Item 1 (VFormat (iri "string") [PVar 3] None)
        [Quad (PVar 1) (PRes (iri "first")) (PVar 3) None;
         Quad (PVar 1) (PRes (iri "rest")) (PVar 2) None]) (PVar 0) (PRes (iri "nil")));
  (iri "id", IdL no_header (PVar 0) None);
  (iri "string", DataL (KTextString None) no_header (PVar 0) (iri xsd_string))].
Definition others_reg : registry term := layouts_get others.

(** C30 in full is false: the empty list. Nothing is written, and the node (a blank node) is not the end of the list. *)
Theorem C30_round_trip_refuted : exists reg r v, lost reg r v.
Proof. exists others_reg, (iri "tasks"), (VList []). lose. Qed.

(** A set of literals with a duplicate. *)
Theorem C30_duplicates_refuted : exists reg r v, tree_registry reg /\ lost reg r v.
Proof.
  exists (layouts_get [(iri "tags", UnorderedL no_header (prop "tag" (iri "string")));
    (iri "string", DataL (KTextString None) no_header (PVar 0) (iri xsd_string))]), (iri "tags"), (VList [vtext "a"; vtext "a"]).
  split; [|lose]. refine (layouts_get_all _ _ _). constructor; [|constructor; [|constructor]]; cbn [snd].
  - apply (tl_set _ []). intros [].
  - apply (tl_data _ (KTextString None) xsd_string). exact Logic.I.
Qed.

(** Two nodes with the same identifier. *)
Theorem C30_shared_identifier_refuted :
  lost others_reg (iri "friends") (VList [VMap [(key "id", vtext "i"); (key "name", vtext "a")]; VMap [(key "id", vtext "i")]]).
Proof. lose. Qed.

(** An optional identifier that is absent: hydration reaches a [todo!()] on the blank node. *)
Theorem C30_optional_identifier_refuted : lost others_reg (iri "guest") (VMap [(key "name", vtext "a")]).
Proof. lose. Qed.

(** A list whose first node is identified by the end of the lists. *)
Theorem C30_terminator_refuted :
  lost others_reg (iri "named") (VMap [(key "id", vtext "nil"); (key "list", VList [vtext "a"])]).
Proof. lose. Qed.

(** A component read in another graph: dehydration writes everything in the default graph. *)
Theorem C30_graph_refuted : lost others_reg (iri "outer") (VMap [(key "x", VMap [(key "y", vtext "a")])]).
Proof. lose. Qed.

(** A choice between two records, where the first has the first key of the second: what is written for the first
    before its failure stays, and the node has two values for this key. *)
Definition point_kinds : list (string * (term * term)) :=
  [("line", (iri "Line", iri "line")); ("plane", (iri "Plane", iri "plane"))].
Definition line_fields : list (value * component) := [(key "x", Link (iri "x") true (iri "length"))].
Definition plane_fields : list (value * component) :=
  [(key "x", Link (iri "x") true (iri "length")); (key "y", Link (iri "y") true (iri "length"))].
Definition length_fields : list (value * component) := [(key "metres", Link (iri "metres") true (iri "number"))].
Definition point_layouts : layouts term := [
  (iri "point", tagged_layout [] (iri "type") point_kinds);
  (iri "line", record_layout [] line_fields);
  (iri "plane", record_layout [] plane_fields);
  (iri "length", record_layout [] length_fields);
  (iri "number", DataL KNumber no_header (PVar 0) (iri xsd_integer))].
Definition metres (n : Z) : value := VMap [(key "metres", vint n)].
Theorem C30_choice_refuted : exists reg r v, tree_registry reg /\ lost reg r v.
Proof.
  exists (layouts_get point_layouts), (iri "point"), (VMap [(key "x", metres 1); (key "y", metres 2)]).
  split; [|lose]. refine (layouts_get_all _ _ _). repeat apply Forall_cons; try apply Forall_nil; cbn [snd].
  - apply tl_tagged.
    + discriminate.
    + repeat constructor; simpl; intuition discriminate.
    + intros [].
    + intros n tag r q Hn H. split; [|intros []]. intros ->. destruct Hn as [[= _ _ <-]|[[= _ _ <-]|[]]].
      * apply (record_owns _ _ line_fields) in H; [|reflexivity|intros k r' [F|[]]; discriminate].
        destruct H as (k & b & r' & [F|[]]). discriminate.
      * apply (record_owns _ _ plane_fields) in H; [|reflexivity|intros k r' [F|[F|[]]]; discriminate].
        destruct H as (k & b & r' & [F|[F|[]]]); discriminate.
    + intros n tag r [[= _ _ <-]|[[= _ _ <-]|[]]]; exact Logic.I.
  - apply tl_record.
    + repeat constructor.
    + intros k c p _ _ [].
    + intros k c k' c' p [[= <- <-]|[]] [[= <- <-]|[]] _ _. reflexivity.
    + intros k r' [F|[]]. discriminate.
  - apply tl_record.
    + sorted_keys.
    + intros k c p _ _ [].
    + intros k c k' c' p H H' O O'. destruct H as [[= <- <-]|[[= <- <-]|[]]], H' as [[= <- <-]|[[= <- <-]|[]]]; try reflexivity;
        exfalso; cbn [component_owns] in O, O'; subst; discriminate.
    + intros k r' [F|[F|[]]]; discriminate.
  - apply tl_record.
    + repeat constructor.
    + intros k c p _ _ [].
    + intros k c k' c' p [[= <- <-]|[]] [[= <- <-]|[]] _ _. reflexivity.
    + intros k r' [F|[]]. discriminate.
  - apply (tl_data _ KNumber xsd_integer). vm_compute. reflexivity.
Qed.

Print Assumptions C30_round_trip_partial.
Print Assumptions C30_round_trip_equal_partial.
Print Assumptions C30_round_trip_refuted.
Print Assumptions C30_choice_refuted.

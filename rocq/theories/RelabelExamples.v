(** * The names of layouts: witnesses and refutation (C110) *)

From Coq Require Import String List Bool Arith NArith ZArith Permutation Sorted QArith Qcanon Lia.
Import ListNotations.
From Verif Require Import Base BaseProofs Orders PatternModel MatchingModel MatchingSpec MatchingProofs ValueModel ValueProofs LayoutModel LayoutSpec
  HydrateModel HydrateSpec HydrateProofs HydrateSound HydrateDet HydrateComplete HydratePost HydrateProperties
  TermModel DehydrateModel DehydrateSpec DehydrateProofs DehydrateFinish HydrateExamples DehydrateExamples
  RelabelSpec RelabelProofs RelabelProperties.
Open Scope list_scope.
Open Scope nat_scope.
Open Scope string_scope.

(** ** Other names for the layouts of a registry *)
Section Relabel.
Variable f : term -> term.
Definition relabel_item (i : item_layout term) : item_layout term :=
  Item (it_intro i) (VFormat (f (vf_layout (it_value i))) (vf_input (it_value i)) (vf_graph (it_value i))) (it_dataset i).
Definition relabel (l : layout term) : layout term :=
  match l with
  | ProductL h fs => ProductL h (map (fun kf => (fst kf, Field (relabel_item (f_item (snd kf))) (f_required (snd kf)))) fs)
  | SumL h vs => SumL h (map (fun v => Variant (va_name v) (relabel_item (va_item v))) vs)
  | UnorderedL h i => UnorderedL h (relabel_item i)
  | OrderedL h i a b => OrderedL h (relabel_item i) a b
  | SizedL h l => SizedL h (map relabel_item l)
  | Never => Never
  | Always => Always
  | UnitL h c => UnitL h c
  | DataL k h r d => DataL k h r d
  | IdL h r p => IdL h r p
  end.
Definition relabelled (m : layouts term) : layouts term := map (fun rl => (f (fst rl), relabel (snd rl))) m.

Lemma relabel_renamed l : renamed_layout (fun r r' => r' = f r) l (relabel l).
Proof.
  assert (HI : forall i, renamed_item (fun r r' => r' = f r) i (relabel_item i)) by (intros [? [? ? ?] ?]; repeat split).
  destruct l as [| |h c|k h r d|h r p|h fs|h vs|h i|h i a b|h its]; cbn [relabel]; constructor; auto.
  - induction fs as [|[k q] fs IH]; cbn [map]; constructor; auto. split; [reflexivity|split; [apply HI|reflexivity]].
  - induction vs as [|v vs IH]; cbn [map]; constructor; auto. split; [reflexivity|apply HI].
  - induction its as [|i its IH]; cbn [map]; constructor; auto.
Qed.
Lemma relabelled_renamed m : (forall r r', f r = f r' -> r = r') -> renamed_registry (fun r r' => r' = f r) (layouts_get m) (layouts_get (relabelled m)).
Proof.
  intros INJ r r' ->. unfold layouts_get. induction m as [|[q l] m IH]; cbn [relabelled map fst snd bt_get]; [exact Logic.I|].
  destruct (eqb_spec r q) as [->|NE].
  - rewrite (proj2 (eqb_eq _ _) eq_refl). apply relabel_renamed.
  - destruct (eqb_spec (f r) (f q)) as [E|_]; [now apply INJ in E|]. exact IH.
Qed.
End Relabel.

(** All the layouts of the people renamed. *)
Definition other (r : term) : term := match r with TmIri s => TmIri (String.append "z" s) | r => r end.
Lemma other_injective r r' : other r = other r' -> r = r'.
Proof. destruct r, r'; cbn; try discriminate; congruence. Qed.
Definition people2 : layouts term := relabelled other people.
Definition people2_renamed := relabelled_renamed other people other_injective.

Example people2_sorted : registry_sorted (layouts_get people2).
Proof. refine (layouts_get_all fields_sorted _ _). unfold people2, people. repeat constructor; simpl; try (vm_compute; reflexivity). Qed.
Example people_sets : no_sum_in_sets people_reg (iri "person").
Proof.
  intros r h it r' _ _ _ h' vs E. apply bt_get_In in E. unfold people in E. simpl in E. repeat (destruct E as [E|E]; [discriminate E|]). contradiction.
Qed.

Example alice_renamed : exists v, hydrate people_data (layouts_get people2) 10 (iri "zperson") [iri "alice"] = Ok v /\
  into_untyped v = into_untyped alice_value.
Proof.
  pose proof (C110_hydrate_order_partial _ people_data _ _ _ 10 None (iri "person") (iri "zperson") [iri "alice"]
    people_enumerates people_sorted people2_sorted people2_renamed eq_refl people_sets) as K.
  pose proof hydrate_alice as E. unfold hydrate in *.
  change (layouts_get people) with people_reg in K. rewrite E in K.
  destruct (hydrate_with _ (layouts_get people2) _ _ _ _) as [v| | |]; try contradiction. exists v. auto.
Qed.

(** Two layouts can be merged, the relation is not the graph of a function: [short] and [long] are both [string]. *)
Definition merged (r r' : term) : Prop := (r = iri "pair" /\ r' = iri "pair") \/ (r' = iri "string" /\ (r = iri "short" \/ r = iri "long")).
Definition two : registry term := layouts_get [
  (iri "pair", ProductL no_header [(key "a", Field (prop "p" (iri "short")) true); (key "b", Field (prop "q" (iri "long")) true)]);
  (iri "short", DataL (KTextString None) no_header (PVar 0) (iri xsd_string));
  (iri "long", DataL (KTextString None) no_header (PVar 0) (iri xsd_string))].
Definition one_string : registry term := layouts_get [
  (iri "pair", ProductL no_header [(key "a", Field (prop "p" (iri "string")) true); (key "b", Field (prop "q" (iri "string")) true)]);
  (iri "string", DataL (KTextString None) no_header (PVar 0) (iri xsd_string))].
Example two_merged : renamed_registry merged two one_string.
Proof.
  intros r r' [[-> ->]|[-> [->| ->]]]; vm_compute; constructor.
  repeat (apply Forall2_cons || apply Forall2_nil); (split; [reflexivity|]); (split; [|reflexivity]); (split; [reflexivity|]); (split; [|reflexivity]); (split; [|split; reflexivity]);
  right; (split; [reflexivity|]); [now left|now right].
Qed.
Example two_write (v : value) (opts : options nat) order fuel (IS : IriSyntax) :
  renamed_outcome (renamed_de_error merged) eq (dehydrate order two fuel v (iri "pair") opts) (dehydrate order one_string fuel v (iri "pair") opts).
Proof. apply C110_dehydrate; [exact two_merged|]. now left. Qed.

(** ** The order of the items in full is refuted

    The items of a set are sorted as typed values, which contain the names of their layouts (layouts/src/distill/hy/mod.rs 434,
    layouts/src/value/mod.rs 572 and 621, [derive(Ord)]).  Two variants whose first entries have the same text are ordered by the name of the layout of this text. *)
Definition two_kinds (a b : string) : registry term := layouts_get [
  (iri "set", UnorderedL no_header (prop "item" (iri "sum")));
  (iri "sum", SumL no_header [Variant "red" (self (VFormat (iri "red") [PVar 0] None)); Variant "blue" (self (VFormat (iri "blue") [PVar 0] None))]);
  (iri "red", ProductL no_header [(key "name", Field (prop "red" (iri a)) true); (key "size", Field (prop "size" (iri "number")) true)]);
  (iri "blue", ProductL no_header [(key "name", Field (prop "blue" (iri b)) true); (key "size", Field (prop "size" (iri "number")) true)]);
  (iri a, DataL (KTextString None) no_header (PVar 0) (iri xsd_string));
  (iri b, DataL (KTextString None) no_header (PVar 0) (iri xsd_string));
  (iri "number", DataL KNumber no_header (PVar 0) (iri xsd_integer))].
Definition kind_quads : list (quad term) := [
  Quad (iri "s") (iri "item") (iri "x") None; Quad (iri "s") (iri "item") (iri "y") None;
  Quad (iri "x") (iri "red") (text "n") None; Quad (iri "x") (iri "size") (int "1") None;
  Quad (iri "y") (iri "blue") (text "n") None; Quad (iri "y") (iri "size") (int "2") None].
Definition swap (r r' : term) : Prop :=
  (r = iri "s1" /\ r' = iri "s2") \/ (r = iri "s2" /\ r' = iri "s1") \/ (r = r' /\ r <> iri "s1" /\ r <> iri "s2").

Lemma kinds_swapped : renamed_registry swap (two_kinds "s1" "s2") (two_kinds "s2" "s1").
Proof.
  intros r r' [[-> ->]|[[-> ->]|[<- [N1 N2]]]]; [vm_compute; constructor|vm_compute; constructor|].
  unfold two_kinds, layouts_get. cbn [bt_get].
  destruct (eqb_spec r (iri "s1")) as [E|_]; [contradiction|]. destruct (eqb_spec r (iri "s2")) as [E|_]; [contradiction|].
  assert (SM : forall s, s <> "s1" -> s <> "s2" -> swap (iri s) (iri s)) by (intros s H1 H2; right; right; unfold iri; repeat split; congruence).
  repeat match goal with |- context [eqb r ?x] => destruct (eqb r x) end; try exact Logic.I; constructor.
  - split; [reflexivity|split; [|reflexivity]]. split; [|split; reflexivity]. now apply SM.
  - repeat (apply Forall2_cons || apply Forall2_nil); (split; [reflexivity|]); (split; [reflexivity|]); (split; [|reflexivity]); (split; [now apply SM|split; reflexivity]).
  - repeat (apply Forall2_cons || apply Forall2_nil); (split; [reflexivity|]); (split; [|reflexivity]); (split; [reflexivity|]); (split; [|reflexivity]); (split; [|split; reflexivity]);
      [left; auto|now apply SM].
  - repeat (apply Forall2_cons || apply Forall2_nil); (split; [reflexivity|]); (split; [|reflexivity]); (split; [reflexivity|]); (split; [|reflexivity]); (split; [|split; reflexivity]);
      [right; left; auto|now apply SM].
Qed.

Theorem C110_order_refuted :
  exists (D : dataset term) G reg reg' N ref inputs v v' x y,
    enumerates D G /\ registry_sorted reg /\ registry_sorted reg' /\ renamed_registry N reg reg' /\ N ref ref /\
    (forall a b c, N a c -> N b c -> a = b) /\ (forall a b c, N c a -> N c b -> a = b) /\
    (forall fuel, 5 <= fuel -> hydrate D reg fuel ref inputs = Ok v /\ hydrate D reg' fuel ref inputs = Ok v') /\
    into_untyped v = VList [x; y] /\ into_untyped v' = VList [y; x] /\ x <> y.
Proof.
  set (rec n := VMap [(key "name", key "n"); (key "size", VLit (LNum (Q2Qc (inject_Z n))))]).
  eexists (list_dataset kind_quads), (fun q => In q kind_quads), (two_kinds "s1" "s2"), (two_kinds "s2" "s1"), swap, (iri "set"), [iri "s"], _, _, (rec 1%Z), (rec 2%Z).
  split; [|split; [|split; [|split; [|split; [|split; [|split; [|split]]]]]]].
  - apply list_dataset_enumerates. unfold kind_quads. no_dup.
  - refine (layouts_get_all fields_sorted _ _). repeat constructor; simpl; try (vm_compute; reflexivity).
  - refine (layouts_get_all fields_sorted _ _). repeat constructor; simpl; try (vm_compute; reflexivity).
  - exact kinds_swapped.
  - right; right. unfold iri. repeat split; congruence.
  - unfold swap. intros a b c H1 H2. intuition congruence.
  - unfold swap. intros a b c H1 H2. intuition congruence.
  - intros fuel L. split.
    + destruct (hydrate_fuel (list_dataset kind_quads) (two_kinds "s1" "s2") 5 fuel None (iri "set") [iri "s"] L) as [E|E].
      * vm_compute in E. discriminate.
      * unfold hydrate. rewrite <- E. vm_compute. reflexivity.
    + destruct (hydrate_fuel (list_dataset kind_quads) (two_kinds "s2" "s1") 5 fuel None (iri "set") [iri "s"] L) as [E|E].
      * vm_compute in E. discriminate.
      * unfold hydrate. rewrite <- E. vm_compute. reflexivity.
  - split; [vm_compute; reflexivity|split; [vm_compute; reflexivity|vm_compute; discriminate]].
Qed.

Print Assumptions C110_hydrate.
Print Assumptions C110_hydrate_order_partial.
Print Assumptions C110_dehydrate_with.
Print Assumptions C110_dehydrate.
Print Assumptions C110_order_refuted.

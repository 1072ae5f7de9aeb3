(** * The order of the patterns: witnesses and refutation (C107) *)

From Coq Require Import String List Bool Arith NArith ZArith Permutation Sorted QArith Qcanon Lia.
Import ListNotations.
From Verif Require Import Base BaseProofs Orders PatternModel MatchingModel MatchingSpec MatchingProofs ValueModel ValueProofs LayoutModel LayoutSpec
  HydrateModel HydrateSpec HydrateProofs HydrateSound HydrateDet HydrateComplete HydratePost HydrateProperties
  TermModel DehydrateModel DehydrateSpec DehydrateProofs DehydrateFinish HydrateExamples DehydrateExamples
  ReorderSpec ReorderProofs ReorderDehydrate ReorderProperties.
Open Scope list_scope.
Open Scope nat_scope.
Open Scope string_scope.

(** Every dataset of a layout written backwards, with each pattern twice. *)
Definition back (ps : list (qpat term)) : list (qpat term) := rev ps ++ ps.
Definition turn_header (h : header term) : header term := Header (h_input h) (h_intro h) (back (h_dataset h)).
Definition turn_item (i : item_layout term) : item_layout term := Item (it_intro i) (it_value i) (back (it_dataset i)).
Definition turn (l : layout term) : layout term :=
  match l with
  | Never => Never
  | Always => Always
  | UnitL h c => UnitL (turn_header h) c
  | DataL k h r d => DataL k (turn_header h) r d
  | IdL h r p => IdL (turn_header h) r p
  | ProductL h fs => ProductL (turn_header h) (map (fun kf => (fst kf, Field (turn_item (f_item (snd kf))) (f_required (snd kf)))) fs)
  | SumL h vs => SumL (turn_header h) (map (fun v => Variant (va_name v) (turn_item (va_item v))) vs)
  | UnorderedL h i => UnorderedL (turn_header h) (turn_item i)
  | OrderedL h i a b => OrderedL (turn_header h) (turn_item i) a b
  | SizedL h l => SizedL (turn_header h) (map turn_item l)
  end.
Definition turned (reg : registry term) : registry term := fun r => option_map turn (reg r).

Lemma back_same ps : same_patterns ps (back ps).
Proof. intros p. unfold back. rewrite in_app_iff, <- in_rev. tauto. Qed.

Lemma turn_reordered l : reordered l (turn l).
Proof.
  assert (forall h, reordered_header h (turn_header h)) as HH by (intros h; split; [|split]; auto; apply back_same).
  assert (forall i, reordered_item i (turn_item i)) as HI by (intros i; split; [|split]; auto; apply back_same).
  destruct l as [| |h c|k h r d|h r p|h fs|h vs|h i|h i a b|h its]; cbn [turn]; constructor; auto.
  - induction fs as [|[k f] fs IH]; cbn [map]; constructor; auto. split; [reflexivity|split; [apply HI|reflexivity]].
  - induction vs as [|v vs IH]; cbn [map]; constructor; auto. split; [reflexivity|apply HI].
  - induction its as [|i its IH]; cbn [map]; constructor; auto.
Qed.

Lemma turned_reordered reg : reordered_registry reg (turned reg).
Proof. intros r. unfold turned. destruct (reg r); cbn [option_map]; [apply turn_reordered|exact Logic.I]. Qed.

(** ** Hydration *)

Example people_no_sum : no_sum people_reg.
Proof.
  intros r h vs E. apply bt_get_In in E. unfold people in E. simpl in E. repeat (destruct E as [E|E]; [discriminate E|]). contradiction.
Qed.

Example alice_turned : hydrate people_data (turned people_reg) 10 (iri "person") [iri "alice"] = Ok alice_value.
Proof. vm_compute. reflexivity. Qed.

Example alice_any_order (reg' : registry term) : reordered_registry people_reg reg' ->
  exists N, forall fuel, N <= fuel -> hydrate_with people_data reg' fuel None (iri "person") [iri "alice"] = Ok alice_value.
Proof.
  intros RR. exact (C107_hydrates_no_sum _ _ _ _ _ _ _ _ _ people_enumerates people_sorted people_scoped people_no_sum RR hydrate_alice).
Qed.

Example alice_no_other fuel : forall e, hydrate_with people_data (turned people_reg) fuel None (iri "person") [iri "alice"] <> Err e.
Proof. exact (proj2 (C107_hydrates_partial _ _ _ _ _ fuel _ _ _ _ people_enumerates people_sorted (turned_reordered people_reg) hydrate_alice)). Qed.

Example alice_means : Means (fun q => In q people_quads) (turned people_reg) true None (iri "person") [iri "alice"] alice_value.
Proof. apply (proj1 (C107_means _ _ _ true None (iri "person") [iri "alice"] (turned_reordered people_reg))), alice_means. Qed.

(** ** Hydration in full is refuted

    The order of the patterns is the order of the items of a set, and the first item that fails decides.  In a sum an error goes to the next
    variant, a panic does not. *)
Definition pairs (ps : list (qpat term)) : registry term := layouts_get [
  (iri "sum", SumL no_header [Variant "set" (self (VFormat (iri "set") [PVar 0] None));
                              Variant "any" (self (VFormat (iri "any") [] None))]);
  (iri "set", UnorderedL no_header (Item 2 (VFormat (iri "pair") [PVar 1; PVar 2] None) ps));
  (iri "pair", ProductL (Header 2 0 []) [(key "a", Field (self (VFormat (iri "bool") [PVar 0] None)) true);
                                         (key "b", Field (self (VFormat (iri "bool") [PVar 1] None)) true)]);
  (iri "bool", DataL KBoolean no_header (PVar 0) (iri xsd_boolean));
  (iri "any", Always)].
Definition first_p : list (qpat term) :=
  [Quad (PVar 0) (PRes (iri "p")) (PVar 1) None; Quad (PVar 0) (PRes (iri "q")) (PVar 2) None].
Definition bool_term (s : string) : term := TmLit (RdfLiteral s (TypeAny xsd_boolean)).
Definition pair_quads : list (quad term) :=
  [Quad (iri "a") (iri "p") (bool_term "true") None; Quad (iri "a") (iri "p") (bool_term "maybe") None;
   Quad (iri "a") (iri "q") (bool_term "true") None; Quad (iri "a") (iri "q") (iri "b") None].

Theorem C107_sum_refuted :
  exists (D : dataset term) G reg reg' ref inputs v w,
    enumerates D G /\ registry_sorted reg /\ registry_scoped reg /\ reordered_registry reg reg' /\
    (forall fuel, 4 <= fuel -> hydrate D reg fuel ref inputs = Ok v) /\
    (forall fuel, 4 <= fuel -> hydrate D reg' fuel ref inputs = Panic w).
Proof.
  exists (list_dataset pair_quads), (fun q => In q pair_quads), (pairs first_p), (pairs (rev first_p)), (iri "sum"), [iri "a"],
    (TVariant (TAlways (VLit LUnit)) (iri "sum") 1), "hydrate_boolean_value: invalid lexical value".
  split; [|split; [|split; [|split; [|split]]]].
  - apply list_dataset_enumerates. unfold pair_quads. no_dup.
  - refine (layouts_get_all fields_sorted _ _). repeat constructor; simpl; try (vm_compute; reflexivity).
  - refine (layouts_get_all patterns_scoped _ _).
    repeat (apply Forall_cons; [|]); try apply Forall_nil; cbn -[Nat.add]; auto.
    all: try (split; [scope|]); try scope.
    + intros v I; simpl in I; repeat (destruct I as [<-|I]; [scope|]); contradiction.
    + intros k f I; simpl in I; repeat (destruct I as [I|I]; [injection I as <- <-; scope|]); contradiction.
  - intros r. unfold pairs, layouts_get. cbn [bt_get].
    assert (forall i : item_layout term, reordered_item i i) as HI by (intros i; repeat split; auto).
    assert (forall h : header term, reordered_header h h) as HH by (intros h; repeat split; auto).
    repeat match goal with |- context [eqb r ?x] => destruct (eqb r x) end; try exact Logic.I; constructor; auto.
    + repeat constructor; auto.
    + split; [reflexivity|split; [reflexivity|]]. intros p. cbn. tauto.
    + repeat constructor; auto.
  - intros fuel L.
    destruct (hydrate_fuel (list_dataset pair_quads) (pairs first_p) 4 fuel None (iri "sum") [iri "a"] L) as [E|E].
    + vm_compute in E. discriminate.
    + unfold hydrate. rewrite <- E. vm_compute. reflexivity.
  - intros fuel L.
    destruct (hydrate_fuel (list_dataset pair_quads) (pairs (rev first_p)) 4 fuel None (iri "sum") [iri "a"] L) as [E|E].
    + vm_compute in E. discriminate.
    + unfold hydrate. rewrite <- E. vm_compute. reflexivity.
Qed.

(** ** Dehydration *)

(** The order of the dataset of quads ([IndexedBTreeDataset]). *)
Definition res_quad_key (q : quad res) := (q_s q, (q_p q, (q_o q, q_g q))).
Definition in_order (l : list (quad res)) : list (quad res) :=
  map (fun k => Quad (fst k) (fst (snd k)) (fst (snd (snd k))) (snd (snd (snd k)))) (sort (map res_quad_key l)).
Lemma in_order_same l l' : Permutation l l' -> in_order l = in_order l'.
Proof. intros P. unfold in_order. f_equal. apply sort_perm_eq, Permutation_map, P. Qed.

Ltac declared :=
  repeat match goal with
  | H : False |- _ => destruct H
  | H : _ \/ _ |- _ => destruct H
  | H : _ /\ _ |- _ => destruct H
  | H : exists _, _ |- _ => destruct H
  | H : In _ _ |- _ => progress cbn in H
  | H : var_of _ _ |- _ => unfold var_of in H
  | H : qvar_of _ _ |- _ => progress (unfold qvar_of, pvar_of in H; cbn in H)
  | H : pvar_of _ = Some _ |- _ => unfold pvar_of in H; cbn in H
  | H : _ = _ |- _ => first [discriminate H | progress (injection H; clear H; intros; subst) | progress subst]
  end; cbn in *; try discriminate; try lia.

Example team_declared r l x : team_reg r = Some l -> ~ undeclared_in l x.
Proof.
  intros E. apply bt_get_In in E. unfold team in E. cbn [In] in E.
  repeat (destruct E as [E|E]; [injection E as <- <-; cbn; unfold header_undeclared, item_undeclared, no_header, prop, self; intros U|]); try contradiction.
  all: declared.
Qed.

Example team_turned :
  dehydrate in_order (turned team_reg) 10 team_value (iri "team") default_options =
  dehydrate in_order team_reg 10 team_value (iri "team") default_options /\
  exists out, dehydrate in_order team_reg 10 team_value (iri "team") default_options = Ok (out, [iri "http://team"]) /\ length out = 13.
Proof.
  split; [apply (C107_dehydrates in_order team_reg _ 10 team_value (iri "team") default_options in_order_same (turned_reordered _) team_declared)|].
  eexists. split; [vm_compute; reflexivity|reflexivity].
Qed.

(** With variables that are not declared the error depends on the order: the first of them is reported. *)
Definition stray (ps : list (qpat term)) : registry term := layouts_get [(iri "r", UnitL (Header 1 0 ps) (VLit LUnit))].
Definition strays : list (qpat term) := [Quad (PVar 7) (PRes (iri "p")) (PVar 0) None; Quad (PVar 8) (PRes (iri "p")) (PVar 0) None].
Theorem C107_undeclared_refuted : exists (reg reg' : registry term) v ref, reordered_registry reg reg' /\
  dehydrate in_order reg 2 v ref default_options <> dehydrate in_order reg' 2 v ref default_options.
Proof.
  exists (stray strays), (stray (rev strays)), (VLit LUnit), (iri "r"). split.
  - intros r. unfold stray, layouts_get. cbn [bt_get]. destruct (eqb r (iri "r")); [|exact Logic.I].
    constructor. split; [reflexivity|split; [reflexivity|]]. intros p. cbn. tauto.
  - vm_compute. discriminate.
Qed.

Print Assumptions C107_means.
Print Assumptions C107_hydrates_partial.
Print Assumptions C107_hydrates_no_sum.
Print Assumptions C107_dehydrates_with.
Print Assumptions C107_dehydrates.
Print Assumptions C107_sum_refuted.
Print Assumptions C107_undeclared_refuted.

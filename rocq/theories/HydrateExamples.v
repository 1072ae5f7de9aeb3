(** * Hydration: witnesses, counter-examples and non-vacuity for C09 to C19

    Resources are RDF terms with their trivial interpretation (TermModel.v), as in
    the function [hydrate]. *)

From Coq Require Import String List Bool Arith NArith ZArith Permutation Sorted QArith Qcanon Lia.
Import ListNotations.
From Verif Require Import Base BaseProofs Orders PatternModel MatchingModel MatchingSpec
  MatchingProofs ValueModel ValueProofs LayoutModel LayoutSpec HydrateModel HydrateSpec
  HydrateProofs HydrateSound HydrateDet HydrateComplete HydratePost HydrateProperties TermModel.
Open Scope list_scope.
Open Scope nat_scope.
Open Scope string_scope.

(** ** Helpers *)

Lemma layouts_get_all (P : layout term -> Prop) (m : layouts term) :
  Forall (fun rl => P (snd rl)) m -> forall ref l, layouts_get m ref = Some l -> P l.
Proof.
  intros F ref l H. apply bt_get_In in H. rewrite Forall_forall in F. apply (F _ H).
Qed.

Lemma the_solution_by_stream (D : dataset term) G g s ps s' :
  enumerates D G -> stream D (map (at_graph g) ps) s = [inr s'] -> the_solution G g s ps s'.
Proof.
  intros EN E. split.
  - eapply stream_sound; eauto. rewrite E. now left.
  - intros s'' S. eapply stream_complete in S; eauto; rewrite E in *.
    + destruct S as [[= <-]|[]]. reflexivity.
    + intros i [<-|[]] (w & C). discriminate.
Qed.

Lemma no_solution_by_stream (D : dataset term) G g s ps :
  enumerates D G -> stream D (map (at_graph g) ps) s = [] -> no_solution G g s ps.
Proof.
  intros EN E s'' S. eapply stream_complete in S; eauto; rewrite E in *; auto.
Qed.

Ltac no_dup := repeat constructor; simpl; intuition discriminate.
Ltac scope :=
  let x := fresh "x" in let p := fresh "p" in let V := fresh "V" in let Hp := fresh "Hp" in
  intros x (p & Hp & V); simpl in Hp;
  repeat (destruct Hp as [Hp|Hp]; [subst p|]); try contradiction;
  destruct V as [V|[V|[V|V]]]; simpl in V; unfold pvar_of in V; simpl in V;
  try discriminate; injection V as <-; simpl; lia.

Definition iri (s : string) : term := TmIri s.
Definition text (s : string) : term := TmLit (RdfLiteral s (TypeAny xsd_string)).
Definition int (s : string) : term := TmLit (RdfLiteral s (TypeAny xsd_integer)).
Definition key (s : string) : value := VLit (LText s).
Definition no_header : header term := Header 1 0 [].
Definition self : vformat term -> item_layout term := fun vf => Item 0 vf [].
(** The value of property [p]: [intro: x, dataset: [?0 p ?1], value: (layout, ?1)]. *)
Definition prop (p : string) (layout : term) : item_layout term :=
  Item 1 (VFormat layout [PVar 1] None) [Quad (PVar 0) (PRes (iri p)) (PVar 1) None].

(** ** A registry with nested records, sets and lists *)

Definition people : layouts term := [
  (iri "person", ProductL no_header [
      (key "age", Field (prop "age" (iri "number")) false);
      (key "friends", Field (self (VFormat (iri "friends") [PVar 0] None)) true);
      (key "name", Field (prop "name" (iri "string")) true);
      (key "todo", Field (prop "todo" (iri "tasks")) false)]);
  (iri "friends", UnorderedL no_header (prop "knows" (iri "friend")));
  (iri "friend", ProductL no_header [(key "name", Field (prop "name" (iri "string")) true)]);
  (iri "tasks", OrderedL no_header
      (Item 1 (VFormat (iri "string") [PVar 3] None)
        [Quad (PVar 1) (PRes (iri "first")) (PVar 3) None;
         Quad (PVar 1) (PRes (iri "rest")) (PVar 2) None]) (PVar 0) (PRes (iri "nil")));
  (iri "number", DataL KNumber no_header (PVar 0) (iri xsd_integer));
  (iri "string", DataL (KTextString None) no_header (PVar 0) (iri xsd_string))].

Definition people_reg : registry term := layouts_get people.

Definition people_quads : list (quad term) := [
  Quad (iri "alice") (iri "name") (text "Alice") None;
  Quad (iri "alice") (iri "age") (int "42") None;
  Quad (iri "alice") (iri "knows") (iri "charlie") None;
  Quad (iri "alice") (iri "knows") (iri "bob") None;
  Quad (iri "bob") (iri "name") (text "Bob") None;
  Quad (iri "charlie") (iri "name") (text "Charlie") None;
  Quad (iri "alice") (iri "todo") (TmBlank "l1") None;
  Quad (TmBlank "l1") (iri "first") (text "read") None;
  Quad (TmBlank "l1") (iri "rest") (TmBlank "l2") None;
  Quad (TmBlank "l2") (iri "first") (text "prove") None;
  Quad (TmBlank "l2") (iri "rest") (iri "nil") None;
  Quad (iri "alice") (iri "name") (text "Other graph") (Some (iri "g"))].

Definition people_data : dataset term := list_dataset people_quads.
Definition people_data' : dataset term := list_dataset (rev people_quads).

Example people_enumerates : enumerates people_data (fun q => In q people_quads).
Proof. apply list_dataset_enumerates. unfold people_quads. no_dup. Qed.

Example people_enumerates' : enumerates people_data' (fun q => In q people_quads).
Proof.
  intros p. destruct (list_dataset_enumerates (R := term) (rev people_quads)) with (p := p) as [A B].
  { simpl. no_dup. }
  split; auto. intros q. rewrite B, <- in_rev. reflexivity.
Qed.

Example people_sorted : registry_sorted people_reg.
Proof.
  refine (layouts_get_all fields_sorted _ _). unfold people.
  repeat constructor; simpl; try (vm_compute; reflexivity).
Qed.

Example people_scoped : registry_scoped people_reg.
Proof.
  refine (layouts_get_all patterns_scoped _ _). unfold people.
  repeat (apply Forall_cons; [|]); try apply Forall_nil; cbn -[Nat.add].
  all: try (split; [scope|]); try scope.
  all: intros k f I; simpl in I; repeat (destruct I as [I|I]; [injection I as <- <-; scope|]); contradiction.
Qed.

Example people_bound : registry_bound people_reg.
Proof.
  assert (forall x p, @fixes term 1 [] x \/ var_of [Quad (PVar 0) (PRes (iri p)) (PVar 1) None] x <-> x = 0 \/ x = 1) as P.
  { intros x p. split.
    - intros [[H|(q & [] & _)]|(q & [<-|[]] & V)]; [lia|].
      destruct V as [V|[V|[V|V]]]; simpl in V;
        unfold pvar_of in V; simpl in V; try discriminate; injection V as <-; auto.
    - intros [->| ->]; [left; left; lia|right].
      eexists. split; [now left|]. right; right; left. reflexivity. }
  refine (layouts_get_all variables_bound _ _). unfold people.
  repeat (apply Forall_cons; [|]); try apply Forall_nil; cbn -[Nat.add].
  - intros k f I; repeat (destruct I as [I|I]; [injection I as <- <-|]); try contradiction;
      (split; [intros x [H|[]]; injection H as <-|intros x H; discriminate H]);
      simpl; try (apply P; auto; fail).
    left; left; lia.
  - split; [intros x [H|[]]; injection H as <-; apply P; auto|intros x H; discriminate H].
  - intros k f I; repeat (destruct I as [I|I]; [injection I as <- <-|]); try contradiction;
      (split; [intros x [H|[]]; injection H as <-|intros x H; discriminate H]); apply P; auto.
  - split; [intros x [= <-]; left; lia|]. split; [discriminate|]. split.
    + split; [intros x [H|[]]; injection H as <-|intros x H; discriminate H].
      right; right. eexists. split; [now left|]. right; right; left. reflexivity.
    + eexists. split; [right; now left|]. right; right; left. reflexivity.
  - intros x [= <-]. left. lia.
  - intros x [= <-]. left. lia.
Qed.

Example people_closed : closed people_reg.
Proof.
  intros r l r' E. apply bt_get_In in E. unfold people in E. simpl in E.
  repeat (destruct E as [E|E]; [injection E as <- <-|]); try contradiction; intros U; inversion U; subst;
    try match goal with I : In _ _ |- _ => simpl in I;
      repeat (destruct I as [I|I]; [injection I as <- <-|]); try contradiction end;
    vm_compute; discriminate.
Qed.

Definition tstring (s : string) : typed_value term := TLit (TText s (iri "string")).
Definition alice_value : typed_value term :=
  TMap [(key "age", TLit (TNum (Qc_of_Z 42) (iri "number")));
        (key "friends", TList [TMap [(key "name", tstring "Bob")] (iri "friend");
                               TMap [(key "name", tstring "Charlie")] (iri "friend")] (iri "friends"));
        (key "name", tstring "Alice");
        (key "todo", TList [tstring "read"; tstring "prove"] (iri "tasks"))] (iri "person").

Example hydrate_alice : hydrate people_data people_reg 10 (iri "person") [iri "alice"] = Ok alice_value.
Proof. vm_compute. reflexivity. Qed.

Example hydrate_alice' : hydrate people_data' people_reg 10 (iri "person") [iri "alice"] = Ok alice_value.
Proof. vm_compute. reflexivity. Qed.

Example hydrate_in_graph :
  hydrate_with people_data people_reg 10 (Some (iri "g")) (iri "friend") [iri "alice"]
  = Ok (TMap [(key "name", tstring "Other graph")] (iri "friend")).
Proof. vm_compute. reflexivity. Qed.

Example hydrate_missing :
  hydrate people_data people_reg 10 (iri "friend") [iri "dan"]
  = Err (MissingData (FKey (iri "friend") (key "name"))).
Proof. vm_compute. reflexivity. Qed.

(** The semantics is inhabited (C09 and C10 apply to this dataset). *)
Example alice_means :
  Means (fun q => In q people_quads) people_reg true None (iri "person") [iri "alice"] alice_value.
Proof.
  apply means_no_sum.
  - intros ref h vs E. apply bt_get_In in E. unfold people in E. simpl in E.
    repeat (destruct E as [E|E]; [discriminate|]). contradiction.
  - eapply C09_hydration_sound with (D := people_data) (fuel := 10).
    + exact people_enumerates.
    + exact people_sorted.
    + vm_compute. reflexivity.
Qed.

Example alice_conforms : Conforms people_reg (iri "person") alice_value.
Proof.
  eapply C14_conforms with (D := people_data) (fuel := 10) (g := None) (inputs := [iri "alice"]).
  - exact people_enumerates.
  - exact people_sorted.
  - vm_compute. reflexivity.
Qed.

(** The hypotheses of [C18_no_panic_partial] on this registry. *)
Definition well_formed_term (t : term) : Prop :=
  match t with
  | TmLit (RdfLiteral v (TypeAny ty)) =>
      (ty = xsd_boolean -> exists b, boolean_lexical v b) /\
      (is_decimal_type ty = true -> exists n, decimal_parse v = Some n)
  | TmLit (RdfLiteral _ (TypeLang _)) => False
  | _ => True
  end.

Example people_no_panic fuel g ref w :
  hydrate_with people_data people_reg fuel g ref [iri "alice"] <> Panic w.
Proof.
  apply C18_no_panic_partial with (G := fun q => In q people_quads) (U := well_formed_term).
  - exact people_enumerates.
  - exact people_scoped.
  - exact people_bound.
  - intros q I. unfold people_quads in I. simpl in I.
    repeat (destruct I as [I|I]; [subst q; repeat split; try (intros C; discriminate C);
      try (eexists; vm_compute; reflexivity); try (intros ? C; injection C as <-; exact Logic.I);
      try (intros ? C; discriminate C)|]). contradiction.
  - repeat constructor.
  - refine (layouts_get_all (fun l => constants_in well_formed_term l /\ tame well_formed_term l) _ _).
    unfold people. repeat (apply Forall_cons; [|]); try apply Forall_nil; split; cbn -[Nat.add]; auto;
      unfold format_const, pattern_const.
    all: try (intros k f I; repeat (destruct I as [I|I]; [injection I as <- <-|]); try contradiction;
      intros p [<-|[]] r C; discriminate C).
    all: try (intros p [<-|[]] r C; discriminate C).
    all: try (intros r C; discriminate C).
    split; [intros r C; discriminate C|]. split; [intros r [= <-]; exact Logic.I|].
    intros p [<-|[]] r C; discriminate C.
  - intros r W. destruct r as [i|b|[v [ty|ty]]]; simpl in W.
    + split; [simpl; lia|]. intros l [].
    + split; [simpl; lia|]. intros l [].
    + split; [simpl; lia|]. intros l' [<-|[]]. exists ty. auto.
    + contradiction.
Qed.

Example people_terminates fuel g ref inputs :
  20 < fuel -> hydrate_with people_data people_reg fuel g ref inputs <> OutOfFuel.
Proof.
  intros L.
  set (depth := fun t => match t with TmIri "person" => 3 | TmIri "friends" => 2 | TmIri "friend" => 1
                         | TmIri "tasks" => 1 | _ => 0 end).
  apply C19_terminates_partial with (G := fun q => In q people_quads) (depth := depth) (K := 10).
  - exact people_enumerates.
  - intros r l r' E U. apply bt_get_In in E. unfold people in E. simpl in E.
    repeat (destruct E as [E|E]; [injection E as <- <-|]); try contradiction; inversion U; subst;
      try match goal with I : In _ _ |- _ => simpl in I;
        repeat (destruct I as [I|I]; [injection I as <- <-|]); try contradiction end;
      simpl; lia.
  - intros r h node hd tl E. apply bt_get_In in E. unfold people in E. simpl in E.
    repeat (destruct E as [E|E]; [try discriminate E|]); try contradiction.
    injection E as <- <- <- <- <-.
    exists (fun t => match t with TmBlank "l1" => 2 | TmBlank "l2" => 1 | _ => 0 end).
    split.
    + intros x. destruct x as [|b|]; try lia.
      destruct (String.eqb_spec b "l1") as [->|N1]; [lia|].
      destruct (String.eqb_spec b "l2") as [->|N2]; [lia|].
      match goal with |- ?a <= _ => assert (a <= 2); [|lia] end.
      repeat match goal with |- context [match ?x with _ => _ end] => destruct x; try lia end.
    + intros s Ls g0 head s' next S B. destruct S as [_ K Q _].
      simpl in Ls. destruct s as [|o [|]]; try discriminate Ls.
      destruct (Q (at_graph g0 (Quad (PVar 1) (PRes (iri "rest")) (PVar 2) None))) as (q & Gq & I1 & I2 & I3 & I4).
      { apply in_map. simpl. auto. }
      assert (binds s' 1 head) as Bh by (apply K; reflexivity).
      simpl in B. inversion I1; subst. inversion I2; subst. inversion I3; subst.
      unfold binds in *.
      assert (head = q_s q) as -> by congruence. assert (next = q_o q) as -> by congruence.
      unfold people_quads in Gq. simpl in Gq.
      repeat (destruct Gq as [Gq|Gq]; [subst q; simpl in *; try lia; try discriminate|]). contradiction.
  - assert (depth ref <= 3).
    { unfold depth. repeat match goal with |- context [match ?x with _ => _ end] => destruct x; try lia end. }
    lia.
Qed.

(** ** C10 in full is refuted

    A sum layout whose variant introduces a variable: the dataset has a meaning but
    hydration panics (the [intro] of the variant is applied to a substitution that is dropped,
    layouts/src/distill/hy/mod.rs 261-266). *)
Definition sum_intro_reg : registry term := layouts_get [
  (iri "sum", SumL no_header [Variant "v" (prop "p" (iri "id"))]);
  (iri "id", IdL no_header (PVar 0) None)].
Definition sum_intro_quads : list (quad term) := [Quad (iri "a") (iri "p") (iri "b") None].

Theorem C10_hydration_complete_refuted :
  exists (D : dataset term) G reg ref inputs v,
    enumerates D G /\ registry_sorted reg /\
    Means G reg true None ref inputs v /\
    forall fuel, hydrate D reg (S fuel) ref inputs = Panic "Substitution::set: undeclared variable".
Proof.
  assert (EN : enumerates (list_dataset sum_intro_quads) (fun q => In q sum_intro_quads)).
  { apply list_dataset_enumerates. unfold sum_intro_quads. no_dup. }
  exists (list_dataset sum_intro_quads), (fun q => In q sum_intro_quads), sum_intro_reg,
    (iri "sum"), [iri "a"], (TVariant (TLit (TId "b" (iri "id"))) (iri "sum") 0).
  split; [exact EN|]. split; [|split].
  - intros ref l E. apply bt_get_In in E. simpl in E. repeat (destruct E as [E|E]; [injection E as <- <-; exact I|]).
    contradiction.
  - eapply M_sum with (s := [Some (iri "a")]).
    + split; [vm_compute; reflexivity|]. simpl. congruence.
    + eapply the_solution_by_stream; [exact EN|]. vm_compute. reflexivity.
    + eapply O_here with (s' := [Some (iri "a"); Some (iri "b")]).
      * eapply the_solution_by_stream; [exact EN|]. vm_compute. reflexivity.
      * eapply VM with (inputs := [iri "b"]) (g' := None).
        -- split; [|reflexivity]. repeat constructor.
        -- eapply M_id with (s := [Some (iri "b")]) (r := iri "b").
           ++ split; [vm_compute; reflexivity|]. simpl. congruence.
           ++ eapply the_solution_by_stream; [exact EN|]. vm_compute. reflexivity.
           ++ constructor. reflexivity.
           ++ reflexivity.
      * constructor.
  - intros fuel. reflexivity.
Qed.

(** ** C11 in full is refuted

    Inside a sum an error of a variant is caught but a panic is not, and the first
    item of a set decides.  Same quads, two enumerations: a value or a panic. *)
Definition order_reg : registry term := layouts_get [
  (iri "sum", SumL no_header [Variant "set" (self (VFormat (iri "set") [PVar 0] None));
                              Variant "any" (self (VFormat (iri "any") [] None))]);
  (iri "set", UnorderedL no_header (prop "p" (iri "bool")));
  (iri "bool", DataL KBoolean no_header (PVar 0) (iri xsd_boolean));
  (iri "any", Always)].
Definition order_quads : list (quad term) :=
  [Quad (iri "a") (iri "p") (iri "b") None;
   Quad (iri "a") (iri "p") (TmLit (RdfLiteral "maybe" (TypeAny xsd_boolean))) None].

Theorem C11_same_quads_refuted :
  exists (D D' : dataset term) G reg ref inputs v w,
    enumerates D G /\ enumerates D' G /\ registry_sorted reg /\ registry_scoped reg /\
    (forall fuel, 3 <= fuel -> hydrate D reg fuel ref inputs = Ok v) /\
    (forall fuel, 3 <= fuel -> hydrate D' reg fuel ref inputs = Panic w).
Proof.
  exists (list_dataset order_quads), (list_dataset (rev order_quads)), (fun q => In q order_quads),
    order_reg, (iri "sum"), [iri "a"], (TVariant (TAlways (VLit LUnit)) (iri "sum") 1),
    "hydrate_boolean_value: invalid lexical value".
  split; [|split; [|split; [|split; [|split]]]].
  - apply list_dataset_enumerates. unfold order_quads. no_dup.
  - intros p. destruct (list_dataset_enumerates (R := term) (rev order_quads)) with (p := p) as [A B].
    { simpl. no_dup. }
    split; auto. intros q. rewrite B, <- in_rev. reflexivity.
  - intros ref l E. apply bt_get_In in E. simpl in E. repeat (destruct E as [E|E]; [injection E as <- <-; exact I|]).
    contradiction.
  - refine (layouts_get_all patterns_scoped _ _).
    repeat (apply Forall_cons; [|]); try apply Forall_nil; cbn -[Nat.add]; auto.
    all: try (split; [scope|]); try scope.
    intros v I; simpl in I; repeat (destruct I as [<-|I]; [scope|]); contradiction.
  - intros fuel L.
    destruct (hydrate_fuel (list_dataset order_quads) order_reg 3 fuel None (iri "sum") [iri "a"] L) as [E|E].
    + vm_compute in E. discriminate.
    + unfold hydrate. rewrite <- E. vm_compute. reflexivity.
  - intros fuel L.
    destruct (hydrate_fuel (list_dataset (rev order_quads)) order_reg 3 fuel None (iri "sum") [iri "a"] L) as [E|E].
    + vm_compute in E. discriminate.
    + unfold hydrate. rewrite <- E. vm_compute. reflexivity.
Qed.

(** ** C12: the input count of a literal layout ignores its field [input]

    (layouts/src/layout/mod.rs 164-173) *)
Theorem C12_literal_input_refuted :
  exists (reg : registry term) ref h c inputs,
    reg ref = Some (UnitL h c) /\ h_input h = 2 /\ length inputs = 2 /\
    forall D g fuel, hydrate_with D reg (S fuel) g ref inputs = Err (InvalidInputCount 1 2).
Proof.
  exists (layouts_get [(iri "u", UnitL (Header 2 0 []) (VLit LUnit))]), (iri "u"), (Header 2 0 []), (VLit LUnit),
    [iri "a"; iri "b"].
  repeat split.
Qed.

(** ** C13, C16 *)
Example dangling :
  hydrate people_data (layouts_get [(iri "friend", ProductL no_header
     [(key "name", Field (prop "name" (iri "oops")) true)])]) 10 (iri "friend") [iri "bob"]
  = Err (LayoutNotFound (iri "oops")).
Proof. vm_compute. reflexivity. Qed.

(** ** C17 in full is refuted: zero or two variants panic instead of returning an error *)
Definition two_variants_reg : registry term := layouts_get [
  (iri "sum", SumL no_header [Variant "a" (self (VFormat (iri "any") [] None));
                              Variant "b" (self (VFormat (iri "any") [] None))]);
  (iri "empty", SumL no_header [Variant "a" (self (VFormat (iri "never") [] None))]);
  (iri "never", Never);
  (iri "any", Always)].

Theorem C17_sum_refuted :
  exists (reg : registry term) ref ref' inputs,
    (exists h vs, reg ref = Some (SumL h vs)) /\ (exists h vs, reg ref' = Some (SumL h vs)) /\
    forall D fuel, hydrate D reg (S (S fuel)) ref inputs = Panic "hydrate: variant ambiguity" /\
                   hydrate D reg (S (S fuel)) ref' inputs = Panic "hydrate: no variant found".
Proof.
  exists two_variants_reg, (iri "sum"), (iri "empty"), [iri "a"].
  split; [eexists; eexists; vm_compute; reflexivity|].
  split; [eexists; eexists; vm_compute; reflexivity|]. intros D fuel. split; reflexivity.
Qed.

(** A sum that works. *)
Definition sum_reg : registry term := layouts_get [
  (iri "sum", SumL no_header [Variant "number" (self (VFormat (iri "number") [PVar 0] None));
                              Variant "string" (self (VFormat (iri "string") [PVar 0] None))]);
  (iri "number", DataL KNumber no_header (PVar 0) (iri xsd_integer));
  (iri "string", DataL (KTextString None) no_header (PVar 0) (iri xsd_string))].

Example sum_ok :
  hydrate (list_dataset []) sum_reg 5 (iri "sum") [text "hello"]
  = Ok (TVariant (tstring "hello") (iri "sum") 1).
Proof. vm_compute. reflexivity. Qed.

(** ** C18 in full is refuted: an identifier layout on a blank node panics. *)
Theorem C18_no_panic_refuted :
  exists (reg : registry term) ref inputs w,
    registry_sorted reg /\ registry_scoped reg /\ registry_bound reg /\
    forall D fuel, hydrate D reg (S fuel) ref inputs = Panic w.
Proof.
  exists (layouts_get [(iri "id", IdL no_header (PVar 0) None)]), (iri "id"), [TmBlank "b"],
    "hydrate: no IRI matching the layout".
  split; [|split; [|split]].
  - refine (layouts_get_all fields_sorted _ _). repeat constructor.
  - refine (layouts_get_all patterns_scoped _ _). apply Forall_cons; [|apply Forall_nil]. cbn -[Nat.add]. scope.
  - refine (layouts_get_all variables_bound _ _). apply Forall_cons; [|apply Forall_nil]. simpl.
    intros x [= <-]. left. lia.
  - intros D fuel. reflexivity.
Qed.

(** ** C19 in full is refuted: hydration does not terminate on a cyclic list. *)
Definition cycle_quads : list (quad term) :=
  [Quad (TmBlank "l") (iri "first") (text "a") None; Quad (TmBlank "l") (iri "rest") (TmBlank "l") None].

Theorem C19_terminates_refuted :
  exists (D : dataset term) G reg ref inputs,
    enumerates D G /\ registry_sorted reg /\ registry_scoped reg /\ registry_bound reg /\
    forall fuel, hydrate D reg fuel ref inputs = OutOfFuel.
Proof.
  exists (list_dataset cycle_quads), (fun q => In q cycle_quads), people_reg, (iri "tasks"), [TmBlank "l"].
  split; [apply list_dataset_enumerates; unfold cycle_quads; no_dup|].
  split; [exact people_sorted|]. split; [exact people_scoped|]. split; [exact people_bound|].
  intros [|fuel]; [reflexivity|]. unfold hydrate. cbn [hydrate_with].
  assert (forall f fuel, fuel <> 0 -> hydrate_nodes (list_dataset cycle_quads) (hydrate_with (list_dataset cycle_quads) people_reg fuel)
    f None (iri "tasks") [Some (TmBlank "l")]
      (Item 1 (VFormat (iri "string") [PVar 3] None)
        [Quad (PVar 1) (PRes (iri "first")) (PVar 3) None;
         Quad (PVar 1) (PRes (iri "rest")) (PVar 2) None]) (TmBlank "l") (iri "nil") = OutOfFuel) as H.
  { clear fuel. induction f as [|f IH]; intros [|fuel] NE; try congruence; [reflexivity|]. cbn [hydrate_nodes].
    change (eqb (TmBlank "l") (iri "nil")) with false. cbn iota.
    match goal with |- context [match_required ?D ?g ?p ?s ?f] =>
      let v := eval vm_compute in (match_required D g p s f) in
      change (match_required D g p s f) with v end.
    cbn [bind]. unfold hydrate_format.
    match goal with |- context [select_inputs ?i ?s] =>
      let v := eval vm_compute in (select_inputs (R := term) i s) in
      change (select_inputs (R := term) i s) with v end.
    match goal with |- context [select_graph ?g ?i ?s] =>
      let v := eval vm_compute in (select_graph (R := term) g i s) in
      change (select_graph (R := term) g i s) with v end.
    cbn [bind vf_layout it_value].
    match goal with |- context [hydrate_with ?D ?r (S fuel) ?g ?l ?i] =>
      change (hydrate_with D r (S fuel) g l i) with (Ok (E := hy_error term) (tstring "a")) end.
    cbn [bind unwrap sget nth_error length Nat.add].
    rewrite IH by discriminate. reflexivity. }
  destruct fuel as [|fuel]; [reflexivity|].
  specialize (H (S fuel) (S fuel) ltac:(discriminate)).
  match type of H with ?n = _ =>
    change (bind n (fun items => Ok (E := hy_error term) (TList items (iri "tasks"))) = OutOfFuel) end.
  rewrite H. reflexivity.
Qed.

Print Assumptions C09_hydration_sound.
Print Assumptions C10_hydration_complete_partial.
Print Assumptions C10_hydration_complete_refuted.
Print Assumptions C11_same_quads_partial.
Print Assumptions C11_same_quads_no_sum.
Print Assumptions C11_same_quads_refuted.
Print Assumptions C12_hydrate_arity.
Print Assumptions C13_layout_not_found.
Print Assumptions C13_closed.
Print Assumptions C14_conforms.
Print Assumptions C15_sets_sorted.
Print Assumptions C16_hydrate_never.
Print Assumptions C16_hydrate_always.
Print Assumptions C17_sum_partial.
Print Assumptions C17_sum_refuted.
Print Assumptions C18_panics_partial.
Print Assumptions C18_no_panic_partial.
Print Assumptions C18_no_panic_refuted.
Print Assumptions C19_link_order.
Print Assumptions C19_link_order_only.
Print Assumptions C19_terminates_partial.
Print Assumptions C19_terminates_refuted.

(** * C119: examples *)

From Coq Require Import String List Bool Arith NArith ZArith Qcanon.
Import ListNotations.
From Verif Require Import Base BaseProofs Orders PatternModel MatchingModel MatchingSpec ValueModel LayoutModel HydrateModel HydrateSpec
  TermModel HydrateExamples LayoutSpec DehydrateModel DehydrateSpec DehydrateProofs DehydrateFinish DehydrateProperties DehydrateExamples
  DehydrateUniqueExamples AcceptSpec AcceptProofs AcceptProperties.
Open Scope list_scope.
Open Scope nat_scope.
Open Scope string_scope.

(** The team of DehydrateExamples.v is taken... *)
Example team_taken : Takes team_reg (iri "team") 1 team_value.
Proof.
  destruct (dehydrate_with input_interpretation team_reg 10 team_value None (iri "team") [RInput 0] initial) as [o st'] eqn:E.
  assert (F : fst (dehydrate_with input_interpretation team_reg 10 team_value None (iri "team") [RInput 0] initial) = Ok tt) by (vm_compute; reflexivity).
  rewrite E in F. cbn in F. subst o.
  exact (C119_accepts input_interpretation team_reg team_sorted 10 team_value None (iri "team") [RInput 0] initial st' E).
Qed.

(** ... so no other call refuses it, whatever the inputs, the graph and the state. *)
Example team_never_refused fuel g r st e s :
  dehydrate_with input_interpretation team_reg fuel team_value g (iri "team") [r] st <> (Err e, s).
Proof.
  intros H. eapply C119_exclusive; [exact team_taken|]. exact (C119_refuses _ _ team_sorted _ _ _ _ _ _ _ _ H).
Qed.

(** A member without a name: refused, inside. *)
Definition nameless : value := VMap [
  (key "id", vtext "http://team");
  (key "members", VList [VMap [(key "age", vint 42)]]);
  (key "name", vtext "A")].
Example nameless_runs : dehydrate same team_reg 10 nameless (iri "team") default_options
  = Err (DMissingRequiredKey (iri "member") (key "name") [(key "age", vint 42)]).
Proof. vm_compute. reflexivity. Qed.
Example nameless_refused :
  Refuses team_reg (iri "team") 1 nameless (DMissingRequiredKey (iri "member") (key "name") [(key "age", vint 42)]).
Proof.
  destruct (proj2 (C119_public default_options team_reg team_sorted same same_perm 10 nameless (iri "team")) _ nameless_runs)
    as [[H _]|(l & E & [R|(_ & a & b & H)])]; try discriminate.
  injection E as <-. exact R.
Qed.
Example nameless_not_taken : ~ Takes team_reg (iri "team") 1 nameless.
Proof. intros T. exact (C119_exclusive _ _ _ _ _ T nameless_refused). Qed.

(** Two variants take the value: the sum does not. *)
Lemma sum_sorted vs : registry_sorted (sum_reg vs).
Proof.
  intros ref l H. unfold sum_reg, layouts_get in H.
  apply bt_get_In in H. cbn in H.
  repeat (destruct H as [[= <- <-]|H]; [try exact Logic.I; cbn; repeat constructor|]). destruct H.
Qed.
Example both_refused : Refuses (sum_reg [var "x" "string"; var "y" "id"]) (iri "sum") 1 (vtext "a") DDataAmbiguity.
Proof.
  destruct (proj2 (C119_public default_options _ (sum_sorted _) same same_perm 10 (vtext "a") (iri "sum")) _ sum_ambiguous)
    as [[H _]|(l & E & [R|(_ & a & b & H)])]; try discriminate.
  injection E as <-. exact R.
Qed.

(** The value is taken although the function fails: the same resource is given two IRIs. *)
Example two_ids_sorted : registry_sorted two_ids.
Proof.
  intros ref l H. apply bt_get_In in H. cbn in H. repeat (destruct H as [[= <- <-]|H]; [exact Logic.I|]). destruct H.
Qed.
Example two_ids_taken : Takes two_ids (iri "r") 1 (VList [vtext "a"; vtext "b"]).
Proof.
  destruct (dehydrate_with input_interpretation two_ids 10 (VList [vtext "a"; vtext "b"]) None (iri "r") [RInput 0] initial) as [o st'] eqn:H.
  assert (F : fst (dehydrate_with input_interpretation two_ids 10 (VList [vtext "a"; vtext "b"]) None (iri "r") [RInput 0] initial) = Ok tt)
    by (vm_compute; reflexivity).
  rewrite H in F. cbn in F. subst o.
  exact (C119_accepts _ _ two_ids_sorted 10 _ None (iri "r") [RInput 0] initial st' H).
Qed.

(** Without a finite derivation there is neither: the layout that is a choice between itself and nothing else, for which the
    code does not end. *)
Example loop_neither v : (forall ref n w, Takes loop_reg ref n w -> ref <> iri "loop") /\ forall e, ~ Refuses loop_reg (iri "loop") 1 v e.
Proof.
  assert (A : (forall ref n w, Takes loop_reg ref n w -> ref <> iri "loop") /\
    (forall d it w, Variant_takes loop_reg d it w -> vf_layout (it_value it) <> iri "loop") /\
    (forall d it w, Variant_refuses loop_reg d it w -> it <> va_item (var "x" "loop") \/ d = 0) /\
    (forall ref n w e, Refuses loop_reg ref n w e -> ref = iri "loop" -> n <> 1)).
  { assert (E : loop_reg (iri "loop") = Some (SumL no_header [var "x" "loop"])) by reflexivity.
    apply accept_ind.
    - intros ref n w H ->. rewrite E in H. discriminate.
    - intros ref n w l H SL _ _ _ _ _ _ _ ->. rewrite E in H. injection H as <-. destruct SL.
    - intros ref n w h vs i va H _ _ _ Hi _ T _ _ ->. rewrite E in H. injection H as <- <-.
      destruct i as [|[|i]]; try discriminate. injection Hi as <-. now apply T.
    - auto.
    - intros d it w x V L. destruct (Nat.eq_dec d 0) as [->|ND]; [now right|left]. intros ->. destruct V as [[[= <-]|[]]|[=]].
      apply ND. cbn in L. now destruct d.
    - intros d it w e R IH. left. intros ->. now apply IH.
    - intros ref n w H ->. rewrite E in H. discriminate.
    - intros ref n w l k H N NE -> ->. rewrite E in H. injection H as <-. cbn in N. congruence.
    - intros ref n w l H NK ->. rewrite E in H. injection H as <-. destruct NK. exact Logic.I.
    - intros ref n w l x H V L ->. rewrite E in H. injection H as <-. destruct V as [(h & [= <-] & p & [] & _)|[]].
    - intros ref n h fs m k f H _ _ _ ->. rewrite E in H. discriminate.
    - intros ref n w l d it u x H P V L ->. rewrite E in H. injection H as <-. inversion P.
    - intros ref n w l d it u e H P _ _ ->. rewrite E in H. injection H as <-. inversion P.
    - intros ref n w h vs va x H Hv V L ->. rewrite E in H. injection H as <- <-. destruct Hv as [<-|[]]. destruct V as (p & [] & _).
    - intros ref n w h vs H _ A ->. rewrite E in H. injection H as <- <-. destruct (A _ (or_introl eq_refl)) as [K|K]; [congruence|discriminate].
    - intros ref n w h vs i j va vb H NE Hi Hj _ _ _ _ ->. rewrite E in H. injection H as <- <-.
      destruct i as [|[|i]], j as [|[|j]]; try discriminate; congruence. }
  split; [apply A|]. intros e R. now apply (proj2 (proj2 (proj2 A)) _ _ _ _ R).
Qed.

Print Assumptions C119_accepts.
Print Assumptions C119_refuses.
Print Assumptions C119_exclusive.
Print Assumptions C119_decides.
Print Assumptions C119_same.
Print Assumptions C119_public.

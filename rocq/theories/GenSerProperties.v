(** * C75: what a generated serializer writes, the generated deserializer reads *)

From Coq Require Import String List Bool Arith ZArith QArith Qcanon Permutation Lia.
Import ListNotations.
From Verif Require Import Base BaseProofs Orders PatternModel MatchingModel MatchingSpec ValueModel LayoutModel
  HydrateModel TermModel GenDataModel GenDataSpec GenModel GenSpec GenSerModel GenSerSpec GenSerWrites GenSerReads GenSerProofs.
Open Scope list_scope.
Open Scope nat_scope.

Section C75.
Context {R I : Type} {CR : Cmp R} {LR : CmpLaws R} {RT : Runtime R I} {RS : Resolver R I}.
Context {IS : IntSyntax} {ISL : IntSyntaxLaws}.
Variable known : I -> R -> Prop.
Context {RL : ResolverLaws known}.
Variable types : program.
Variable res : string -> R.

(** C75 (what holds).  On a program whose types describe trees, each value of a type is serialized without an
    error.  From any dataset made of the quads written and of quads about other resources, and with any later
    state of the interpretation, the deserializer returns the value, up to the order of the items of the
    unordered lists.  Missing: the layouts out of the class, the empty ordered lists, the blank node
    identifiers in a derived [id] layout, the named graphs; see the refutations. *)
Theorem C75_roundtrip_partial i x ty v :
  tree_program types -> distinct_iris types res -> resolved types res i -> free_node known types res i x ->
  value_of types ty v ->
  exists n i' Q,
    (forall fuel g out, n <= fuel -> serialize types fuel ty v [x] g (i, out) = Ok (i', out ++ Q)) /\
    later known types res i' i' /\
    forall i2 other D, later known types res i' i2 -> elsewhere known i x other ->
      enumerates D (fun q => In q Q \/ other q) ->
      exists v', alike types ty v v' /\
        forall fuel, n <= fuel -> deserialize i2 D types fuel None ty [x] = Ok v'.
Proof.
  intros TP DI HR (HK & HU & HT) HV.
  destruct (proj1 (all_values known types res TP DI) ty v HV) as (n & HN).
  destruct (HN i x HR HK (fun _ => HU) HT) as (i' & Q & W & S & V).
  exists n, i', Q. split; [exact S|]. split.
  - split; [intros; apply same_names_refl|eapply w_iris, W].
  - intros i2 other D [LN LR'] EL EN. apply (V i2 (fun q => In q Q \/ other q) D); [|exact EN]. split.
    + auto.
    + intros q [Hq|Hq] _ Hn; [exact Hq|]. apply EL in Hq as [Hq _]. contradiction.
    + intros q p [Hq|Hq] [Es _] _; [exact Hq|]. apply EL in Hq as [_ Hq]. contradiction.
    + intros y Hy _. now apply LN.
    + intros y [-> _]. apply LN, W, HK.
    + exact LR'.
Qed.

(** C75 (what holds), without unordered lists: the same value. *)
Theorem C75_exact_partial i x ty v :
  tree_program types -> without_sets types -> distinct_iris types res -> resolved types res i ->
  free_node known types res i x -> value_of types ty v ->
  exists n i' Q,
    (forall fuel g out, n <= fuel -> serialize types fuel ty v [x] g (i, out) = Ok (i', out ++ Q)) /\
    forall i2 other D fuel, later known types res i' i2 -> elsewhere known i x other ->
      enumerates D (fun q => In q Q \/ other q) -> n <= fuel ->
      deserialize i2 D types fuel None ty [x] = Ok v.
Proof.
  intros TP WS DI HR HF HV. destruct (C75_roundtrip_partial i x ty v TP DI HR HF HV) as (n & i' & Q & S & _ & V).
  exists n, i', Q. split; [exact S|]. intros i2 other D fuel HL HE EN L.
  destruct (V i2 other D HL HE EN) as (v' & A & E). rewrite (proj1 (alike_eq types WS) _ _ _ A). now apply E.
Qed.

(** C75 (what holds), several values in one dataset: the second serialization does not disturb the first. *)
Theorem C75_two_values_partial i x1 x2 ty1 ty2 v1 v2 :
  tree_program types -> distinct_iris types res -> resolved types res i ->
  free_node known types res i x1 -> free_node known types res i x2 -> x1 <> x2 ->
  value_of types ty1 v1 -> value_of types ty2 v2 ->
  exists n i1 Q1 i2 Q2,
    (forall fuel g out, n <= fuel -> serialize types fuel ty1 v1 [x1] g (i, out) = Ok (i1, out ++ Q1)) /\
    (forall fuel g out, n <= fuel -> serialize types fuel ty2 v2 [x2] g (i1, out) = Ok (i2, out ++ Q2)) /\
    forall D, enumerates D (fun q => In q (Q1 ++ Q2)) ->
      exists v1' v2', alike types ty1 v1 v1' /\ alike types ty2 v2 v2' /\
        forall fuel, n <= fuel -> deserialize i2 D types fuel None ty1 [x1] = Ok v1' /\
          deserialize i2 D types fuel None ty2 [x2] = Ok v2'.
Proof.
  intros TP DI HR (HK1 & HU1 & HT1) (HK2 & HU2 & HT2) NE HV1 HV2.
  destruct (proj1 (all_values known types res TP DI) ty1 v1 HV1) as (n1 & HN1).
  destruct (proj1 (all_values known types res TP DI) ty2 v2 HV2) as (n2 & HN2).
  destruct (HN1 i x1 HR HK1 (fun _ => HU1) HT1) as (i1 & Q1 & W1 & S1 & V1).
  assert (HU2' : unnamed i1 x2).
  { destruct HU2 as (A & B & C). destruct (w_names _ _ _ _ _ _ _ _ W1 x2 HK2) as (A' & B' & C').
    - intros [Hx _]. congruence.
    - repeat split; congruence. }
  destruct (HN2 i1 x2) as (i2 & Q2 & W2 & S2 & V2); [eapply w_iris, W1|apply W1, HK2|intros _; exact HU2'|exact HT2|].
  exists (Nat.max n1 n2), i1, Q1, i2, Q2. split; [intros; apply S1; lia|]. split; [intros; apply S2; lia|].
  intros D EN.
  assert (V : View known types res (fun y s => at_node x1 (Owns types ty1) y s \/ at_node x2 (Owns types ty2) y s) i i2 (Q1 ++ Q2)
                i2 (fun q => In q (Q1 ++ Q2))).
  { split; auto; intros; try apply same_names_refl. eapply w_iris, W2. }
  assert (View known types res (at_node x1 (Owns types ty1)) i i1 Q1 i2 (fun q => In q (Q1 ++ Q2)) /\
    View known types res (at_node x2 (Owns types ty2)) i1 i2 Q2 i2 (fun q => In q (Q1 ++ Q2))) as [V1' V2'].
  { eapply View_seq; [exact DI|exact W1|exact W2| | | | | | |exact V].
    - intros y s. tauto.
    - intros y s [-> _]. exact HK2.
    - intros y s [].
    - intros y s [-> _] [H _]. contradiction.
    - intros y s _ [].
    - intros y s _ []. }
  destruct (V1 i2 _ D V1' EN) as (v1' & A1 & E1). destruct (V2 i2 _ D V2' EN) as (v2' & A2 & E2).
  exists v1', v2'. split; [exact A1|]. split; [exact A2|]. intros fuel L. split; [apply E1|apply E2]; lia.
Qed.
End C75.

(** * The data that no pattern of a layout mentions plays no role (C96) *)

From Coq Require Import String List Bool Arith NArith Permutation Lia.
Import ListNotations.
From Verif Require Import Base BaseProofs Orders PatternModel MatchingModel MatchingSpec ValueModel LayoutModel LayoutSpec HydrateModel HydrateSpec
  HydrateProofs HydrateProperties TermModel DehydrateModel DehydrateSpec DehydrateProofs DehydrateFinish DehydrateProperties
  RoundTripSpec RoundTripProperties RegistryProperties UndefinedProperties LocalProperties.
Open Scope list_scope.
Open Scope nat_scope.

(** ** Specification *)
Section Spec.
Context {R : Type}.

(** The pattern quads written in a layout. *)
Inductive pattern_of : layout R -> qpat R -> Prop :=
| po_unit h c p : In p (h_dataset h) -> pattern_of (UnitL h c) p
| po_data k h r d p : In p (h_dataset h) -> pattern_of (DataL k h r d) p
| po_id h r pat p : In p (h_dataset h) -> pattern_of (IdL h r pat) p
| po_product h fs p : In p (h_dataset h) -> pattern_of (ProductL h fs) p
| po_sum h vs p : In p (h_dataset h) -> pattern_of (SumL h vs) p
| po_unordered h it p : In p (h_dataset h) -> pattern_of (UnorderedL h it) p
| po_ordered h node hd tl p : In p (h_dataset h) -> pattern_of (OrderedL h node hd tl) p
| po_sized h its p : In p (h_dataset h) -> pattern_of (SizedL h its) p
| po_field h fs k f p : In (k, f) fs -> In p (it_dataset (f_item f)) -> pattern_of (ProductL h fs) p
| po_variant h vs va p : In va vs -> In p (it_dataset (va_item va)) -> pattern_of (SumL h vs) p
| po_item h it p : In p (it_dataset it) -> pattern_of (UnorderedL h it) p
| po_node h node hd tl p : In p (it_dataset node) -> pattern_of (OrderedL h node hd tl) p
| po_tuple h its it p : In it its -> In p (it_dataset it) -> pattern_of (SizedL h its) p.

(** The pattern [p] speaks of the quad [q]: subject, predicate and object are instances of those of the
    pattern, and so is the graph when the pattern names one. *)
Definition speaks_of (p : qpat R) (q : quad R) : Prop :=
  exists v : nat -> R,
    pinst (fun x r => v x = r) (q_s p) (q_s q) /\ pinst (fun x r => v x = r) (q_p p) (q_p q) /\ pinst (fun x r => v x = r) (q_o p) (q_o q) /\
    (forall g, q_g p = Some g -> exists r, q_g q = Some r /\ pinst (fun x r => v x = r) g r).

(** The quad [q] concerns the layout [ref]: a pattern of a layout reached from it speaks of [q]. *)
Definition concerns (reg : registry R) (ref : R) (q : quad R) : Prop :=
  exists r l p, reaches reg ref r /\ reg r = Some l /\ pattern_of l p /\ speaks_of p q.
End Spec.

Section Hydration.
Context {R : Type} {CR : Cmp R} {I : Interp R} {X : Xsd}.
Variables D D' : dataset R.

(** Both datasets give the same answers for these patterns. *)
Definition same_answers (ps : list (qpat R)) : Prop := forall p g, In p ps -> D (at_graph g p) = D' (at_graph g p).

Lemma stream_answers g ps : same_answers ps -> forall s, stream D (with_default_graph g ps) s = stream D' (with_default_graph g ps) s.
Proof.
  rewrite with_default_graph_at. induction ps as [|p ps IH]; intros H s; cbn [map stream]; [reflexivity|].
  rewrite <- (H p g (or_introl eq_refl)). apply flat_map_ext. intro q. destruct (with_quad s (at_graph g p) q) as [[s'|]| | |]; try reflexivity.
  apply IH. intros p' g' Hp. apply H. now right.
Qed.
Lemma unique_answers g ps s f : same_answers ps -> match_unique D g ps s f = match_unique D' g ps s f.
Proof. intro H. unfold match_unique. now rewrite (stream_answers g ps H). Qed.
Lemma required_answers g ps s f : same_answers ps -> match_required D g ps s f = match_required D' g ps s f.
Proof. intro H. unfold match_required. now rewrite (stream_answers g ps H). Qed.
Lemma header_answers g ref h inputs : same_answers (h_dataset h) -> match_header D g ref h inputs = match_header D' g ref h inputs.
Proof. apply required_answers. Qed.

Variable rec : option R -> R -> list R -> outcome (hy_error R) (typed_value R).

Lemma variants_answers g ref s vs : (forall va, In va vs -> same_answers (it_dataset (va_item va))) -> forall n sel,
  hydrate_variants D rec g ref s n vs sel = hydrate_variants D' rec g ref s n vs sel.
Proof.
  induction vs as [|va vs IH]; intros H n sel; cbn [hydrate_variants]; [reflexivity|].
  assert (IH' := IH (fun va I => H va (or_intror I))). rewrite (unique_answers g _ s _ (H va (or_introl eq_refl))).
  destruct (match_unique D' _ _ _ _) as [[s'|]| | |]; cbn [bind]; try reflexivity; [|apply IH'].
  destruct (hydrate_format rec _ _ _); try reflexivity; [|apply IH']. destruct sel; [reflexivity|apply IH'].
Qed.
Lemma fields_answers g ref s fs : (forall k f, In (k, f) fs -> same_answers (it_dataset (f_item f))) -> forall record,
  hydrate_fields D rec g ref s fs record = hydrate_fields D' rec g ref s fs record.
Proof.
  induction fs as [|[k f] fs IH]; intros H record; cbn [hydrate_fields]; [reflexivity|].
  assert (IH' := IH (fun k f I => H k f (or_intror I))). rewrite (unique_answers g _ _ _ (H k f (or_introl eq_refl))).
  destruct (match_unique D' _ _ _ _) as [[s'|]|e|w|]; cbn [bind]; try reflexivity.
  - destruct (hydrate_format rec g (it_value (f_item f)) s'); cbn [bind]; auto.
  - destruct (f_required f); auto.
Qed.
Lemma nodes_answers fuel g ref s node : same_answers (it_dataset node) -> forall head tail,
  hydrate_nodes D rec fuel g ref s node head tail = hydrate_nodes D' rec fuel g ref s node head tail.
Proof.
  intro H. induction fuel as [|fuel IH]; intros head tail; cbn [hydrate_nodes]; [reflexivity|]. destruct (eqb head tail); [reflexivity|].
  rewrite (required_answers g _ _ _ H). destruct (match_required D' _ _ _ _) as [s'|e|w|]; cbn [bind]; try reflexivity.
  destruct (hydrate_format rec g (it_value node) s'); cbn [bind]; try reflexivity.
  destruct (sget s' (length s + 1)); cbn [unwrap bind]; [|reflexivity]. now rewrite IH.
Qed.
Lemma tuple_answers g ref s its : (forall it, In it its -> same_answers (it_dataset it)) -> forall n,
  hydrate_tuple D rec g ref s n its = hydrate_tuple D' rec g ref s n its.
Proof.
  induction its as [|it its IH]; intros H n; cbn [hydrate_tuple]; [reflexivity|].
  assert (IH' := IH (fun it I => H it (or_intror I))). rewrite (required_answers g _ _ _ (H it (or_introl eq_refl))).
  destruct (match_required D' _ _ _ _) as [s'|e|w|]; cbn [bind]; try reflexivity.
  destruct (hydrate_format rec g (it_value it) s'); cbn [bind]; try reflexivity. now rewrite IH'.
Qed.

Lemma layout_answers fuel g ref l inputs : (forall p g, pattern_of l p -> D (at_graph g p) = D' (at_graph g p)) ->
  hydrate_layout D rec fuel g ref l inputs = hydrate_layout D' rec fuel g ref l inputs.
Proof.
  intro H. destruct l; cbn [hydrate_layout]; try reflexivity;
    (rewrite (header_answers g ref h inputs); [|intros p g' Hp; apply H; now constructor]);
    destruct (match_header D' g ref h inputs) as [s|e|w|]; cbn [bind]; try reflexivity.
  - rewrite (fields_answers g ref s fields); [reflexivity|]. intros k f IN p g' Hp. apply H. eapply po_field; eauto.
  - rewrite (variants_answers g ref s variants); [reflexivity|]. intros va IN p g' Hp. apply H. eapply po_variant; eauto.
  - rewrite (stream_answers g (it_dataset item)); [reflexivity|]. intros p g' Hp. apply H. now apply po_item.
  - destruct (into_resource (papply s head)); cbn [unwrap bind]; [|reflexivity]. destruct (into_resource (papply s tail)); cbn [unwrap bind]; [|reflexivity].
    rewrite (nodes_answers fuel g ref s node); [reflexivity|]. intros p g' Hp. apply H. now apply po_node.
  - rewrite (tuple_answers g ref s items); [reflexivity|]. intros it IN p g' Hp. apply H. eapply po_tuple; eauto.
Qed.
End Hydration.

Section Body.
Context {R : Type} {CR : Cmp R} {LR : CmpLaws R} {I : Interp R} {X : Xsd}.

(** C96 (answers).  The dataset is only asked for the patterns of the layouts reached. *)
Theorem C96_answers (D D' : dataset R) (reg : registry R) : forall fuel g ref inputs,
  (forall r l p g, reaches reg ref r -> reg r = Some l -> pattern_of l p -> D (at_graph g p) = D' (at_graph g p)) ->
  hydrate_with D reg fuel g ref inputs = hydrate_with D' reg fuel g ref inputs.
Proof.
  induction fuel as [|fuel IH]; intros g ref inputs A; [reflexivity|]. cbn [hydrate_with]. unfold hydrate_body.
  destruct (reg ref) as [l|] eqn:E; [|reflexivity]. cbn [ok_or bind].
  assert (H : hydrate_layout D (hydrate_with D reg fuel) fuel g ref l inputs = hydrate_layout D' (hydrate_with D' reg fuel) fuel g ref l inputs).
  { rewrite (layout_local D (hydrate_with D reg fuel) (hydrate_with D' reg fuel)).
    - apply layout_answers. intros p g' Hp. eapply A; eauto using reaches_refl.
    - intros r U g' ins. apply IH. intros r' l' p g'' RE. apply A. eapply reaches_step; eauto. }
  now rewrite H.
Qed.

Lemma agrees_speaks g (p : qpat R) q : agrees (at_graph g p) q -> speaks_of p q.
Proof.
  intros (v & S1 & S2 & S3 & S4). exists v. unfold at_graph in *. destruct p as [a b c [gp|]]; cbn [q_s q_p q_o q_g] in *.
  - repeat (split; [assumption|]). intros g0 [= <-]. inversion S4; subst. eauto.
  - repeat (split; [assumption|]). discriminate.
Qed.

(** C96.  Hydration gives the same result, whatever it is, when quads that do not concern the layout are removed from
    the dataset: [keep] selects what is left, in the order of the dataset. *)
Theorem C96_removed (D : dataset R) (reg : registry R) (keep : quad R -> bool) fuel g ref inputs :
  (forall p q, In q (D p) -> agrees p q) ->
  (forall p q, In q (D p) -> concerns reg ref q -> keep q = true) ->
  hydrate_with (fun p => filter keep (D p)) reg fuel g ref inputs = hydrate_with D reg fuel g ref inputs.
Proof.
  intros AG K. apply C96_answers. intros r l p g' RE E PO.
  assert (H : forall q, In q (D (at_graph g' p)) -> keep q = true).
  { intros q Hq. eapply K; [exact Hq|]. exists r, l, p. repeat (split; [assumption|]). eapply agrees_speaks, AG, Hq. }
  induction (D (at_graph g' p)) as [|q qs IH]; [reflexivity|]. cbn [filter]. rewrite (H q (or_introl eq_refl)). f_equal. apply IH.
  intros q' Hq. apply H. now right.
Qed.

Lemma enumerates_filter (D : dataset R) G keep : enumerates D G -> enumerates (fun p => filter keep (D p)) (fun q => G q /\ keep q = true).
Proof.
  intros EN p. destruct (EN p) as [ND HI]. split; [now apply NoDup_filter|]. intro q. rewrite filter_In, HI. tauto.
Qed.
Lemma enumerates_ext (D : dataset R) (G G' : quad R -> Prop) : (forall q, G q <-> G' q) -> enumerates D G -> enumerates D G'.
Proof. intros H EN p. destruct (EN p) as [ND HI]. split; [exact ND|]. intro q. now rewrite HI, H. Qed.

(** C96 (two datasets).  When two datasets have the same quads among those that concern the layout, they never give two different values, nor
    a value and an error (one may panic with sums, as for two enumerations of one dataset: C11) … *)
Theorem C96_agree (D D' : dataset R) (G G' : quad R -> Prop) (keep : quad R -> bool) (reg : registry R) fuel fuel' g ref inputs v :
  enumerates D G -> enumerates D' G' -> registry_sorted reg ->
  (forall q, concerns reg ref q -> keep q = true) -> (forall q, keep q = true -> (G q <-> G' q)) ->
  hydrate_with D reg fuel g ref inputs = Ok v ->
  (forall v', hydrate_with D' reg fuel' g ref inputs = Ok v' -> v' = v) /\
  (forall e, hydrate_with D' reg fuel' g ref inputs <> Err e).
Proof.
  intros EN EN' RS K SA H.
  rewrite <- (C96_removed D reg keep fuel g ref inputs) in H; [|intros p q Hq; now apply EN in Hq|eauto].
  rewrite <- (C96_removed D' reg keep fuel' g ref inputs); [|intros p q Hq; now apply EN' in Hq|eauto].
  apply (C11_same_quads_partial (fun p => filter keep (D p)) (fun p => filter keep (D' p)) (fun q => G q /\ keep q = true) reg fuel fuel' g ref inputs v);
    try assumption.
  - apply enumerates_filter, EN.
  - eapply enumerates_ext; [|eapply enumerates_filter, EN']. intro q. cbn beta. split; intros [A B]; (split; [apply SA; assumption|exact B]).
Qed.

(** … and without sums they give the same value. *)
Theorem C96_same_no_sum (D D' : dataset R) (G G' : quad R -> Prop) (keep : quad R -> bool) (reg : registry R) fuel g ref inputs v :
  enumerates D G -> enumerates D' G' -> registry_sorted reg -> registry_scoped reg -> no_sum reg ->
  (forall q, concerns reg ref q -> keep q = true) -> (forall q, keep q = true -> (G q <-> G' q)) ->
  hydrate_with D reg fuel g ref inputs = Ok v ->
  exists N, forall fuel', N <= fuel' -> hydrate_with D' reg fuel' g ref inputs = Ok v.
Proof.
  intros EN EN' RS SC NS K SA H.
  rewrite <- (C96_removed D reg keep fuel g ref inputs) in H; [|intros p q Hq; now apply EN in Hq|eauto].
  destruct (C11_same_quads_no_sum (fun p => filter keep (D p)) (fun p => filter keep (D' p)) (fun q => G q /\ keep q = true) reg fuel g ref inputs v) as [N HN];
    try assumption.
  - apply enumerates_filter, EN.
  - eapply enumerates_ext; [|eapply enumerates_filter, EN']. intro q. cbn beta. split; intros [A B]; (split; [apply SA; assumption|exact B]).
  - exists N. intros fuel' L. rewrite <- (C96_removed D' reg keep fuel' g ref inputs); [auto|intros p q Hq; now apply EN' in Hq|eauto].
Qed.

(** The usual case: the patterns have given predicates, and the other quads have other predicates. *)
Theorem C96_predicates (reg : registry R) (preds : list R) (D : dataset R) fuel g ref inputs :
  (forall r l p, reaches reg ref r -> reg r = Some l -> pattern_of l p -> exists pr, q_p p = PRes pr /\ In pr preds) ->
  (forall p q, In q (D p) -> agrees p q) ->
  hydrate_with (fun p => filter (fun q => existsb (eqb (q_p q)) preds) (D p)) reg fuel g ref inputs = hydrate_with D reg fuel g ref inputs.
Proof.
  intros P AG. apply C96_removed; [exact AG|]. intros _ q _ (r & l & p & RE & E & PO & v & _ & S2 & _).
  destruct (P _ _ _ RE E PO) as (pr & E2 & IN). rewrite E2 in S2. inversion S2; subst. apply existsb_exists. exists (q_p q). split; [exact IN|].
  now destruct (eqb_spec (q_p q) (q_p q)).
Qed.
End Body.

Lemma quad_dec (q q' : quad term) : {q = q'} + {q <> q'}.
Proof. decide equality; try apply cmp_eq_dec. Defined.

(** C30 among other data: what is dehydrated is read back in any dataset where the other quads do not concern the layout. *)
Theorem C30_round_trip_among_partial {Gn} {X : Xsd} {IS : IriSyntax} (opts : options Gn) reg order
    (order_perm : forall l, Permutation (order l) l) fuel v ref ds vals D (other : quad term -> Prop) :
  tree_registry reg ->
  Proper reg ref v -> distinct_identifiers reg ref v -> not_terminators reg ref v ->
  blank_identifiers opts -> fresh_identifiers opts -> decimals_read_back X ->
  dehydrate order reg fuel v ref opts = Ok (ds, vals) ->
  enumerates D (fun q => In q ds \/ other q) -> (forall q, other q -> ~ concerns reg ref q) ->
  exists tv N, (forall fuel', N <= fuel' -> hydrate D reg fuel' ref vals = Ok tv) /\
    Same reg ref v (into_untyped tv) /\ (no_sets reg -> into_untyped tv = v).
Proof.
  intros TR HP DI NT BI FI DR H EN OT. pose (keep := fun q => if in_dec quad_dec q ds then true else false).
  assert (KE : forall q, keep q = true <-> In q ds).
  { intro q. unfold keep. destruct (in_dec quad_dec q ds); split; intros; auto; discriminate. }
  destruct (C30_round_trip_partial opts reg order order_perm fuel v ref ds vals (fun p => filter keep (D p)) TR HP DI NT BI FI DR H) as (tv & N & HY & SA).
  { eapply enumerates_ext; [|eapply enumerates_filter, EN]. intro q. cbn beta. rewrite KE. tauto. }
  exists tv, N. split; [|split; [exact SA|]].
  - intros fuel' LE. specialize (HY fuel' LE). unfold hydrate in *. rewrite <- HY. symmetry. apply C96_removed.
    + intros p q Hq. now apply EN in Hq.
    + intros p q Hq C. apply KE. apply EN in Hq as [[Hq|Hq] _]; [exact Hq|]. elim (OT q Hq C).
  - intros NS. symmetry. eapply same_equal; eassumption.
Qed.

(** * The errors of hydration are true (C118) *)

From Coq Require Import String List Bool Arith NArith Permutation Sorted Lia Qcanon.
Import ListNotations.
From Verif Require Import Base BaseProofs Orders PatternModel MatchingModel MatchingSpec
  MatchingProofs ValueModel ValueProofs LayoutModel HydrateModel HydrateSpec HydrateProofs HydrateSound HydrateDet FaultSpec.
Open Scope list_scope.
Open Scope nat_scope.

Section Faults.
Context {R : Type} {CR : Cmp R} {LR : CmpLaws R} {IR : Interp R} {X : Xsd}.
Variable D : dataset R.
Variable G : quad R -> Prop.
Hypothesis EN : enumerates D G.
Variable reg : registry R.

Notation Wrong := (Wrong G reg).
Notation Asked := (Asked G reg).
Notation Component := (Component G reg).
Notation says := (says G).

(** ** Matching *)

Lemma required_says g ps s f e : match_required D g ps s f = Err e -> says g s ps f e.
Proof.
  rewrite match_required_unique. destruct (match_unique D g ps s f) as [[a|]|e'| |] eqn:E; cbn [bind]; try discriminate.
  - intros [= <-]. constructor. eauto using match_unique_None.
  - intros [= <-]. pose proof (match_unique_Err D G EN _ _ _ _ _ E) as S. unfold match_unique in E.
    destruct (stream_unique _) as [?|[]| |] eqn:U; cbn [for_fragment] in E; try discriminate; injection E as <-; [now constructor|].
    exfalso. clear -U. destruct (stream D (with_default_graph g ps) s) as [|[w|x] [|[w'|b] l]]; cbn in U; discriminate.
Qed.

Lemma unique_ambiguous g ps s f e : match_unique D g ps s f = Err e -> e = DataAmbiguity f.
Proof.
  unfold match_unique. destruct (stream D (with_default_graph g ps) s) as [|[w|x] [|[w'|b] l]]; cbn; congruence.
Qed.

(** ** Literals *)

Lemma literal_value_error k ref v ty e :
  hydrate_literal_value (R := R) k ref v ty = Err e ->
  k = KNumber /\ is_decimal_type ty = false /\ e = UnknownNumberDatatype ty.
Proof.
  destruct k; simpl; try discriminate.
  - unfold hydrate_boolean_value. destruct (eqb ty xsd_boolean); [|discriminate].
    destruct (boolean_parse v); discriminate.
  - unfold hydrate_number_value. destruct (is_decimal_type ty); [|intros [= <-]; auto].
    destruct (decimal_parse v); discriminate.
Qed.

Lemma literals_error k ref dt ls : forall sel e,
  hydrate_literals (R := R) k ref dt ls sel = Err e ->
  (sel = None /\ e = NoMatchingLiteral /\ Forall (other_type dt) ls) \/
  (k = KNumber /\ exists l ty, In l ls /\ has_type dt l ty /\ is_decimal_type ty = false /\ e = UnknownNumberDatatype ty).
Proof.
  induction ls as [|l ls IH]; intros sel e H; cbn [hydrate_literals] in H.
  - destruct sel as [t'|]; [discriminate|]. injection H as <-. auto.
  - destruct (rl_type l) as [ty|] eqn:T; [|discriminate].
    destruct (other_or_type dt l ty T) as [[B O]|[B O]]; rewrite B in H.
    + destruct (hydrate_literal_value k ref (rl_value l) ty) as [v|e'| |] eqn:V; try discriminate.
      * cbn [bind] in H. destruct sel; [discriminate|].
        apply IH in H as [[? _]|[-> (l' & ty' & I & HT & DT & ->)]]; [discriminate|].
        right. split; auto. exists l', ty'. repeat (split; auto). now right.
      * cbn [bind] in H. injection H as <-. apply literal_value_error in V as (-> & DT & ->).
        right. split; auto. exists l, ty. repeat (split; auto); now left || apply O.
    + apply IH in H as [(-> & -> & F)|[-> (l' & ty' & I & HT & DT & ->)]]; [left; auto|].
      right. split; auto. exists l', ty'. repeat (split; auto). now right.
Qed.

(** ** Loops *)

Variable rec : option R -> R -> list R -> hres (R := R) (typed_value R).
Definition fault (g : option R) (ref : R) (inputs : list R) (e : hy_error R) : Prop :=
  exists g' ref' inputs', Asked g ref inputs g' ref' inputs' /\ Wrong g' ref' inputs' e.
Hypothesis RE : forall g ref inputs e, rec g ref inputs = Err e -> fault g ref inputs e.

(** An error of the value of a format comes from the place it hands over to. *)
Lemma format_fault g vf s e : hydrate_format rec g vf s = Err e ->
  exists g' inputs', hands g s vf g' (vf_layout vf) inputs' /\ fault g' (vf_layout vf) inputs' e.
Proof.
  unfold hydrate_format. intros H.
  destruct (select_inputs (vf_input vf) s) as [inputs|e'| |] eqn:Hi; try discriminate.
  2:{ now apply select_inputs_Err in Hi. }
  cbn [bind] in H.
  destruct (select_graph g (vf_graph vf) s) as [g'|e'| |] eqn:Hg; try discriminate.
  2:{ now apply select_graph_Err in Hg. }
  cbn [bind] in H. exists g', inputs. split; [|auto]. split; [reflexivity|].
  split; [now apply select_inputs_Ok|now apply select_graph_Ok].
Qed.

Lemma fault_step g ref inputs g1 ref1 inputs1 e :
  Component g ref inputs g1 ref1 inputs1 -> fault g1 ref1 inputs1 e -> fault g ref inputs e.
Proof. intros C (g' & r' & i' & A & W). exists g', r', i'. split; [|exact W]. eapply As_step; eauto. Qed.

Lemma fault_here g ref inputs e : Wrong g ref inputs e -> fault g ref inputs e.
Proof. intros W. exists g, ref, inputs. split; [constructor|exact W]. Qed.

Lemma fields_fault g ref s fs inputs h0 fs0 : opened G reg g ref inputs (ProductL h0 fs0) s -> incl fs fs0 -> forall rec0 e,
  hydrate_fields D rec g ref s fs rec0 = Err e -> fault g ref inputs e.
Proof.
  intros O. induction fs as [|[k f] fs IH]; intros I rec0 e H; cbn [hydrate_fields] in H; [discriminate|].
  assert (I0 : In (k, f) fs0) by (apply I; now left). assert (I1 : incl fs fs0) by (intros x Hx; apply I; now right).
  destruct (match_unique D g (it_dataset (f_item f)) (sintro s (it_intro (f_item f))) (FKey ref k))
    as [[s'|]|e'| |] eqn:M; try discriminate; cbn [bind] in H.
  - eapply match_unique_Some in M; eauto.
    destruct (hydrate_format rec g (it_value (f_item f)) s') as [v|e'| |] eqn:V; try discriminate; cbn [bind] in H.
    + eauto.
    + injection H as <-. apply format_fault in V as (g' & i' & Hh & F). eapply fault_step; [|exact F].
      eapply Co_field; eauto.
  - eapply match_unique_None in M; eauto. destruct (f_required f) eqn:Q.
    + injection H as <-. apply fault_here. eapply W_required; eauto.
    + eauto.
  - injection H as <-. pose proof (unique_ambiguous _ _ _ _ _ M) as ->. eapply match_unique_Err in M; eauto.
    apply fault_here. eapply W_field; eauto.
Qed.

Lemma tuple_fault g ref s its inputs h0 its0 : opened G reg g ref inputs (SizedL h0 its0) s ->
  forall i, its = skipn i its0 -> forall e,
  hydrate_tuple D rec g ref s i its = Err e -> fault g ref inputs e.
Proof.
  intros O. induction its as [|it its IH]; intros i SK e H; cbn [hydrate_tuple] in H; [discriminate|].
  assert (NE : nth_error its0 i = Some it).
  { rewrite <- (firstn_skipn i its0). rewrite <- SK. assert (i <= length its0).
    { destruct (Nat.le_gt_cases i (length its0)); auto. rewrite skipn_all2 in SK by lia. discriminate. }
    rewrite nth_error_app2; rewrite firstn_length_le by lia; [|lia]. now rewrite Nat.sub_diag. }
  assert (S1 : its = skipn (1 + i) its0).
  { clear -SK. revert its0 SK. induction i as [|i IH]; intros [|x xs] SK; cbn in *; try discriminate; [now injection SK|]. now apply IH. }
  destruct (match_required D g (it_dataset it) (sintro s (it_intro it)) (FSizedListItem ref i))
    as [s'|e'| |] eqn:M; try discriminate; cbn [bind] in H.
  - eapply match_required_Ok in M; eauto.
    destruct (hydrate_format rec g (it_value it) s') as [v|e'| |] eqn:V; try discriminate; cbn [bind] in H.
    + destruct (hydrate_tuple D rec g ref s (S i) its) as [vs|e'| |] eqn:T; try discriminate. eapply IH; [exact S1|]. cbn [bind] in H. injection H as <-. exact T.
    + injection H as <-. apply format_fault in V as (g' & i' & Hh & F). eapply fault_step; [|exact F].
      eapply Co_sized; eauto. eapply nth_error_In; eauto.
  - injection H as <-. apply required_says in M. apply fault_here. eapply W_sized; eauto.
Qed.

Lemma items_fault g ref s it inputs h : opened G reg g ref inputs (UnorderedL h it) s -> forall ms e,
  (forall s', In (inr s') ms -> solution G (fresh s (it_intro it)) (map (at_graph g) (it_dataset it)) s') ->
  hydrate_items rec g (it_value it) ms = Err e -> fault g ref inputs e.
Proof.
  intros O. induction ms as [|[w|s'] ms IH]; intros e I H; cbn [hydrate_items] in H; try discriminate.
  destruct (hydrate_format rec g (it_value it) s') as [v|e'| |] eqn:V; try discriminate; cbn [bind] in H.
  - destruct (hydrate_items rec g (it_value it) ms) as [vs|e'| |] eqn:T; try discriminate. cbn [bind] in H. injection H as <-.
    apply IH; [|reflexivity]. intros s'' J. apply I. now right.
  - injection H as <-. apply format_fault in V as (g' & i' & Hh & F). eapply fault_step; [|exact F].
    eapply Co_item; eauto. apply I. now left.
Qed.

Lemma visited_last g s node tail head n s' next :
  Visited G g s node tail head n -> n <> tail -> the_solution G g (node_vars s node n) (it_dataset node) s' ->
  binds s' (length s + 1) next -> Visited G g s node tail head next.
Proof.
  induction 1 as [n|head s0 nx n NE TS B V IH]; intros N T Bn.
  - eapply Vis_next; eauto. constructor.
  - eapply Vis_next; eauto.
Qed.

Lemma nodes_fault g ref s node inputs h hd tl head0 tail :
  opened G reg g ref inputs (OrderedL h node hd tl) s -> pinst (binds s) hd head0 -> pinst (binds s) tl tail ->
  forall fuel head e, Visited G g s node tail head0 head ->
  hydrate_nodes D rec fuel g ref s node head tail = Err e -> fault g ref inputs e.
Proof.
  intros O P1 P2. induction fuel as [|fuel IH]; intros head e V H; cbn [hydrate_nodes] in H; [discriminate|].
  destruct (eqb_spec head tail) as [->|NE]; [discriminate|].
  destruct (match_required D g (it_dataset node) (sintro (spush s (Some head)) (1 + it_intro node))
              (FOrderedListNode ref head tail)) as [s'|e'| |] eqn:M; try discriminate; cbn [bind] in H.
  - eapply match_required_Ok in M; eauto.
    destruct (hydrate_format rec g (it_value node) s') as [v|e'| |] eqn:F; try discriminate; cbn [bind] in H.
    + destruct (sget s' (length s + 1)) as [h'|] eqn:Gh; [|discriminate]. cbn [unwrap bind] in H.
      destruct (hydrate_nodes D rec fuel g ref s node h' tail) as [vs|e'| |] eqn:T; try discriminate.
      cbn [bind] in H. injection H as <-. eapply IH; [|exact T].
      eapply visited_last; eauto. now apply sget_binds.
    + injection H as <-. apply format_fault in F as (g' & i' & Hh & F). eapply fault_step; [|exact F].
      eapply Co_node; eauto.
  - injection H as <-. apply required_says in M. apply fault_here. eapply W_node; eauto.
Qed.

Lemma variants_fault g ref s vs inputs h0 vs0 : opened G reg g ref inputs (SumL h0 vs0) s -> incl vs vs0 -> forall i sel e,
  hydrate_variants D rec g ref s i vs sel = Err e -> fault g ref inputs e.
Proof.
  intros O. induction vs as [|va vs IH]; intros I i sel e H; cbn [hydrate_variants] in H; [discriminate|].
  assert (I0 : In va vs0) by (apply I; now left). assert (I1 : incl vs vs0) by (intros x Hx; apply I; now right).
  destruct (match_unique D g (it_dataset (va_item va)) s (FVariant ref (va_name va)))
    as [[s'|]|e'| |] eqn:M; try discriminate; cbn [bind] in H.
  - destruct (hydrate_format rec g (it_value (va_item va)) s') as [v|e'| |] eqn:V; try discriminate.
    + destruct sel; [discriminate|]. eauto.
    + eauto.
  - eauto.
  - injection H as <-. pose proof (unique_ambiguous _ _ _ _ _ M) as ->.
    eapply (variant_match_Err D G EN _ _ _ _ _ (it_intro (va_item va))) in M.
    apply fault_here. eapply W_variant; eauto.
Qed.

Lemma layout_fault fuel g ref l inputs e : layout_for reg ref inputs l ->
  hydrate_layout D rec fuel g ref l inputs = Err e -> fault g ref inputs e.
Proof.
  intros LF H. destruct l; cbn [hydrate_layout] in H; try discriminate.
  { injection H as <-. apply fault_here, W_never, LF. }
  all: destruct (match_header D g ref h inputs) as [s|e'| |] eqn:Hs; try discriminate; cbn [bind] in H.
  all: try (injection H as <-; apply required_says in Hs; apply fault_here; eapply W_header; [exact LF|reflexivity|exact Hs]).
  all: try discriminate.
  all: apply (header_Ok D G EN) in Hs; pose proof (conj LF (ex_intro _ h (conj eq_refl Hs)) : opened G reg g ref inputs _ s) as O.
  - destruct (into_resource (papply s resource)) as [r|] eqn:Hr; [|discriminate].
    cbn [unwrap bind] in H. apply papply_pinst in Hr.
    destruct (hydrate_literals k ref datatype (literals_of r) None) as [t|e'| |] eqn:L; try discriminate.
    cbn [bind] in H. injection H as <-. apply fault_here.
    apply literals_error in L as [(_ & -> & F)|[-> (l & ty & I & HT & DT & ->)]].
    + eapply W_literal; eauto.
    + eapply W_number; eauto.
  - destruct (into_resource (papply s resource)) as [r|] eqn:Hr; [|discriminate].
    cbn [unwrap bind] in H. destruct (iris_of r) as [|i1 [|]]; discriminate.
  - destruct (hydrate_fields D rec g ref s fields []) as [m|e'| |] eqn:F; try discriminate.
    cbn [bind] in H. injection H as <-. eapply fields_fault; eauto. apply incl_refl.
  - destruct (hydrate_variants D rec g ref s 0 variants None) as [[[i v]|]|e'| |] eqn:F; try discriminate.
    cbn [bind] in H. injection H as <-. eapply variants_fault; eauto. apply incl_refl.
  - destruct (hydrate_items rec g (it_value item) (stream D (with_default_graph g (it_dataset item))
       (sintro s (it_intro item)))) as [m|e'| |] eqn:F; try discriminate.
    cbn [bind] in H. injection H as <-. eapply items_fault; eauto. intros s' I. rewrite with_default_graph_at in I.
    eapply stream_sound in I; eauto.
  - destruct (into_resource (papply s head)) as [hd|] eqn:Hh; [|discriminate].
    destruct (into_resource (papply s tail)) as [tl|] eqn:Ht; [|discriminate].
    cbn [unwrap bind] in H. apply papply_pinst in Hh, Ht.
    destruct (hydrate_nodes D rec fuel g ref s node hd tl) as [m|e'| |] eqn:F; try discriminate.
    cbn [bind] in H. injection H as <-. eapply nodes_fault; eauto. constructor.
  - destruct (hydrate_tuple D rec g ref s 0 items) as [m|e'| |] eqn:F; try discriminate.
    cbn [bind] in H. injection H as <-. eapply tuple_fault; [exact O| |exact F]. reflexivity.
Qed.

Lemma body_fault fuel g ref inputs e :
  hydrate_body D reg rec fuel g ref inputs = Err e -> fault g ref inputs e.
Proof.
  unfold hydrate_body. destruct (reg ref) as [l|] eqn:E; cbn [ok_or bind].
  2:{ intros [= <-]. now apply fault_here, W_undefined. }
  rewrite <- arity_input_count. destruct (arity l) as [n|] eqn:A.
  - destruct (Nat.eqb_spec n (length inputs)) as [L|L].
    + apply layout_fault. split; auto. intros n'. congruence.
    + intros [= <-]. apply fault_here. eapply W_arity; eauto.
  - apply layout_fault. split; auto. intros n'. congruence.
Qed.
End Faults.

Section FaultsRec.
Context {R : Type} {CR : Cmp R} {LR : CmpLaws R} {IR : Interp R} {X : Xsd}.

Theorem hydrate_fault (D : dataset R) G (reg : registry R) : enumerates D G ->
  forall fuel g ref inputs e, hydrate_with D reg fuel g ref inputs = Err e -> fault G reg g ref inputs e.
Proof.
  intros EN. induction fuel as [|fuel IH]; intros g ref inputs e; cbn [hydrate_with]; [discriminate|].
  intros H. eapply body_fault; eauto.
Qed.

(** ** Where there is a value, nothing is wrong *)
Variable G : quad R -> Prop.
Variable reg : registry R.

Lemma layout_for_fun ref inputs l l' : layout_for (R := R) reg ref inputs l -> layout_for reg ref inputs l' -> l' = l.
Proof. intros [A _] [B _]. congruence. Qed.

Lemma the_several g s ps s' : the_solution (R := R) G g s ps s' -> several_solutions G g s ps -> False.
Proof. intros [_ U] (a & b & N & A & B). apply N. rewrite (U a A), (U b B). reflexivity. Qed.

Lemma the_says g s ps s' f e : the_solution (R := R) G g s ps s' -> says G g s ps f e -> False.
Proof. intros T S. inversion S; subst; [eapply the_no_solution; eauto|eapply the_several; eauto]. Qed.

Lemma none_several g s ps : no_solution (R := R) G g s ps -> several_solutions G g s ps -> False.
Proof. intros N (a & _ & _ & A & _). exact (N a A). Qed.

Lemma fields_in strict g s fs m k f : Fields (R := R) G reg strict g s fs m -> In (k, f) fs ->
  (item_none G g s (f_item f) /\ f_required f = false) \/
  exists s' v, item_sol G g s (f_item f) s' /\ VMeans G reg strict g s' (it_value (f_item f)) v.
Proof.
  revert m. induction fs as [|[k0 f0] fs IH]; intros m F I; [destruct I|].
  inversion F; subst; destruct I as [[= <- <-]|I]; eauto 6.
Qed.

Lemma tuple_in strict g s its l it : Tuple (R := R) G reg strict g s its l -> In it its ->
  exists s' v, item_sol G g s it s' /\ VMeans G reg strict g s' (it_value it) v.
Proof.
  revert l. induction its as [|i0 its IH]; intros l F I; [destruct I|].
  inversion F; subst; destruct I as [<-|I]; eauto.
Qed.

Lemma items_in strict g vf sols vs s : Items (R := R) G reg strict g vf sols vs -> In s sols ->
  exists v, VMeans G reg strict g s vf v.
Proof.
  revert vs. induction sols as [|s0 sols IH]; intros vs F I; [destruct I|].
  inversion F; subst; destruct I as [<-|I]; eauto.
Qed.

Lemma binds_fun (s : subst R) i a b : binds s i a -> binds s i b -> a = b.
Proof. unfold binds. congruence. Qed.

Lemma nodes_at strict g s node tail head n : Visited (R := R) G g s node tail head n -> forall l,
  Nodes G reg strict g s node head tail l -> exists l', Nodes G reg strict g s node n tail l'.
Proof.
  induction 1 as [n|head s0 nx n NE TS B V IH]; intros l N; [eauto|].
  inversion N; subst; [contradiction|]. unfold node_vars in TS.
  match goal with T : the_solution _ _ _ _ ?s', B' : binds ?s' _ _ |- _ => rewrite (the_solution_fun _ _ _ _ _ _ T TS) in * end.
  match goal with B' : binds s0 _ ?x |- _ => assert (x = nx) as -> by (eapply binds_fun; eauto) end. eauto.
Qed.

Lemma node_at strict g s node tail head n l : Visited (R := R) G g s node tail head n -> n <> tail ->
  Nodes G reg strict g s node head tail l ->
  exists s' v, the_solution G g (node_vars s node n) (it_dataset node) s' /\ VMeans G reg strict g s' (it_value node) v.
Proof.
  intros V NE N. destruct (nodes_at _ _ _ _ _ _ _ V _ N) as (l' & N'). inversion N'; subst; [contradiction|]. unfold node_vars. eauto.
Qed.

Lemma novariant_in strict g s vs va : NoVariant (R := R) G reg strict g s vs -> In va vs -> Excluded G reg strict g s va.
Proof. induction 1; intros []; subst; auto. Qed.

Lemma one_in strict g s i vs j v va : One (R := R) G reg strict g s i vs j v -> In va vs ->
  item_several G g s (va_item va) -> False.
Proof.
  intros O I S. assert (EX : forall va', Excluded G reg strict g s va' -> item_several G g s (va_item va') -> False).
  { intros va' E S'. inversion E; subst; [eapply none_several; eauto|eapply the_several; eauto]. }
  induction O; destruct I as [<-|I].
  - eapply the_several; eauto.
  - eapply EX; [|exact S]. eapply novariant_in; eauto.
  - eapply EX; eauto.
  - auto.
Qed.

(** The value of a place that is opened. *)
Ltac open O M :=
  let LF := fresh "LF" in let h := fresh "h" in let HS := fresh "HS" in let OH := fresh "OH" in
  destruct O as (LF & h & OH & HS); cbn [own_header] in OH; injection OH as <-;
  inversion M; subst;
  match goal with LF' : layout_for _ _ _ _ |- _ =>
    let E := fresh in pose proof (layout_for_fun _ _ _ _ LF LF') as E; try discriminate E; injection E; clear E; intros; subst end;
  try match goal with HS' : header_sol _ _ _ _ ?s' |- _ =>
    match type of HS with header_sol _ _ _ _ ?s0 => tryif constr_eq s0 s' then fail else
      rewrite (the_solution_fun _ _ _ _ _ _ HS' HS) in * end end.

Lemma component_means strict g ref inputs v g' ref' inputs' :
  Means G reg strict g ref inputs v -> Component G reg g ref inputs g' ref' inputs' ->
  exists v', Means G reg strict g' ref' inputs' v'.
Proof.
  intros M C.
  assert (VM : forall g s vf w, VMeans G reg strict g s vf w -> hands g s vf g' ref' inputs' ->
                 exists v', Means G reg strict g' ref' inputs' v').
  { intros g0 s vf w V [-> P]. inversion V as [? ? ? i1 g1 ? P1 M1]; subst. destruct (passes_fun _ _ _ _ _ _ _ P P1) as [-> ->]. eauto. }
  destruct C as [h fs s k f s' O I S H|h it s s' O S H|h node hd tl s head tail n s' O P1 P2 V NE S H|h its s it s' O I S H].
  - open O M. destruct (fields_in _ _ _ _ _ _ _ ltac:(eassumption) I) as [[N _]|(s1 & w & S1 & V1)].
    + exfalso. exact (the_no_solution _ _ _ _ _ S N).
    + rewrite (the_solution_fun _ _ _ _ _ _ S S1) in *. eauto.
  - open O M. match goal with A : forall s', In s' ?sols <-> _, B : Items _ _ _ _ _ ?sols _ |- _ =>
      destruct (items_in _ _ _ _ _ s' B (proj2 (A s') S)) as (w & V1) end. eauto.
  - open O M.
    match goal with A : pinst (binds s) hd ?x |- _ => assert (x = head) as -> by (apply papply_pinst in A, P1; congruence) end.
    match goal with A : pinst (binds s) tl ?x |- _ => assert (x = tail) as -> by (apply papply_pinst in A, P2; congruence) end.
    destruct (node_at _ _ _ _ _ _ _ _ V NE ltac:(eassumption)) as (s1 & w & S1 & V1).
    rewrite (the_solution_fun _ _ _ _ _ _ S S1) in *. eauto.
  - open O M. destruct (tuple_in _ _ _ _ _ _ ltac:(eassumption) I) as (s1 & w & S1 & V1).
    rewrite (the_solution_fun _ _ _ _ _ _ S S1) in *. eauto.
Qed.

Lemma means_not_wrong strict g ref inputs v e : Means G reg strict g ref inputs v -> Wrong G reg g ref inputs e -> False.
Proof.
  intros M W.
  destruct W as [U|l n E A L|N|l h e LF OH S|h fs s k f O I Q N|h fs s k f O I S|h vs s va O I S|
    h node hd tl s head tail n e O P1 P2 V NE S|h its s i it e O I S|k h res dt s r O P F|h res dt s r l ty O P I T N].
  - inversion M; subst; match goal with LF : layout_for _ _ _ _ |- _ => destruct LF; congruence end.
  - inversion M; subst; match goal with LF : layout_for _ _ _ _ |- _ => destruct LF as [LF1 LF2]; rewrite E in LF1; injection LF1 as ->; exact (L (LF2 _ A)) end.
  - inversion M; subst; match goal with LF : layout_for _ _ _ _ |- _ => destruct LF; congruence end.
  - inversion M; subst; match goal with LF' : layout_for _ _ _ _ |- _ => pose proof (layout_for_fun _ _ _ _ LF LF') as <- end;
      cbn [own_header] in OH; try discriminate OH; injection OH as <-;
      match goal with HS : header_sol _ _ _ _ _ |- _ => exact (the_says _ _ _ _ _ _ HS S) end.
  - open O M. destruct (fields_in _ _ _ _ _ _ _ ltac:(eassumption) I) as [[_ Q']|(s1 & w & S1 & V1)]; [congruence|].
    exact (the_no_solution _ _ _ _ _ S1 N).
  - open O M. destruct (fields_in _ _ _ _ _ _ _ ltac:(eassumption) I) as [[N _]|(s1 & w & S1 & V1)];
      [exact (none_several _ _ _ N S)|exact (the_several _ _ _ _ S1 S)].
  - open O M. eapply one_in; eauto.
  - open O M.
    match goal with A : pinst (binds s) hd ?x |- _ => assert (x = head) as -> by (apply papply_pinst in A, P1; congruence) end.
    match goal with A : pinst (binds s) tl ?x |- _ => assert (x = tail) as -> by (apply papply_pinst in A, P2; congruence) end.
    destruct (node_at _ _ _ _ _ _ _ _ V NE ltac:(eassumption)) as (s1 & w & S1 & V1). exact (the_says _ _ _ _ _ _ S1 S).
  - open O M. apply nth_error_In in I. destruct (tuple_in _ _ _ _ _ _ ltac:(eassumption) I) as (s1 & w & S1 & V1). exact (the_says _ _ _ _ _ _ S1 S).
  - open O M.
    match goal with A : pinst (binds s) res ?x |- _ => assert (x = r) as -> by (apply papply_pinst in A, P; congruence) end.
    match goal with A : literals_of r = _, B : has_type _ _ _ |- _ => rewrite A in F; apply Forall_app in F as [_ F]; inversion F as [|? ? (ty' & T1 & T2)]; subst; destruct B as [B1 B2]; congruence end.
  - open O M.
    match goal with A : pinst (binds s) res ?x |- _ => assert (x = r) as -> by (apply papply_pinst in A, P; congruence) end.
    match goal with A : literals_of r = _ ++ ?l1 :: _, B : has_type _ ?l1 _, F1 : Forall _ ?pre, F2 : Forall _ ?post, DN : denotes _ _ _ _ _ |- _ =>
      rewrite A in I; apply in_app_iff in I as [I|[<-|I]] end.
    + match goal with F1 : Forall _ ?pre, I : In l ?pre |- _ => rewrite Forall_forall in F1; destruct (F1 _ I) as (ty' & T1 & T2); destruct T; congruence end.
    + match goal with B : has_type _ _ ?ty1, DN : denotes _ _ _ _ _ |- _ => inversion DN; subst; destruct T, B; congruence end.
    + match goal with F1 : Forall _ ?pre, I : In l ?pre |- _ => rewrite Forall_forall in F1; destruct (F1 _ I) as (ty' & T1 & T2); destruct T; congruence end.
Qed.

Lemma asked_means strict g ref inputs v g' ref' inputs' :
  Means G reg strict g ref inputs v -> Asked G reg g ref inputs g' ref' inputs' ->
  exists v', Means G reg strict g' ref' inputs' v'.
Proof.
  intros M A. revert v M. induction A as [g ref inputs|g ref inputs g1 ref1 inputs1 g2 ref2 inputs2 C A IH]; intros v M; [eauto|].
  destruct (component_means _ _ _ _ _ _ _ _ M C) as (v1 & M1). eauto.
Qed.
End FaultsRec.

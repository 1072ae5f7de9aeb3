(** * Serialization then deserialization with the generated code, on the class *)

From Coq Require Import String List Bool Arith ZArith QArith Qcanon Permutation Lia.
Import ListNotations.
From Verif Require Import Base BaseProofs Orders PatternModel MatchingModel MatchingSpec ValueModel LayoutModel
  HydrateModel TermModel GenDataModel GenDataSpec GenModel GenSpec GenProofs GenSerModel GenSerSpec GenSerWrites GenSerReads.
Open Scope list_scope.
Open Scope nat_scope.

Scheme value_of_min := Minimality for value_of Sort Prop
  with fields_value_min := Minimality for fields_value Sort Prop
  with items_value_min := Minimality for items_value Sort Prop.
Combined Scheme value_mutind from value_of_min, fields_value_min, items_value_min.

(** ** The conditions on the types *)
Section Shapes.
Variable types : program.
Hypothesis TP : tree_program types.

Lemma statements_inj ps ps' : statements ps = statements ps' -> ps = ps'.
Proof.
  revert ps'. induction ps as [|[p o] ps IH]; intros [|[p' o'] ps'] H; try discriminate; [reflexivity|].
  unfold statements in H. cbn [map fst snd] in H. injection H as -> -> H. f_equal. auto.
Qed.
Lemma fields_inj fs fs' : fields_of fs = fields_of fs' -> fs = fs'.
Proof.
  revert fs'. induction fs as [|[k c] fs IH]; intros [|[k' c'] fs'] H; try discriminate; [reflexivity|].
  cbn [fields_of map fst snd] in H. injection H as -> Hc H. f_equal; [|auto]. f_equal.
  destruct c, c'; cbn [field_of] in Hc; unfold same_node, linked in Hc; congruence.
Qed.
Lemma variants_inj cs cs' : variants_of cs = variants_of cs' -> cs = cs'.
Proof.
  revert cs'. induction cs as [|[k c] cs IH]; intros [|[k' c'] cs'] H; try discriminate; [reflexivity|].
  cbn [variants_of map fst snd] in H. injection H as -> Hc H. f_equal; [|auto]. f_equal.
  destruct c, c'; cbn [choice_item] in Hc; unfold same_node, linked, statements in Hc; cbn [map fst snd] in Hc; congruence.
Qed.
Lemma items_inj (its its' : list (string * string)) :
  map (fun pr => linked (fst pr) (snd pr)) its = map (fun pr => linked (fst pr) (snd pr)) its' -> its = its'.
Proof.
  revert its'. induction its as [|[k c] fs IH]; intros [|[k' c'] fs'] H; try discriminate; [reflexivity|].
  cbn [map fst snd] in H. unfold linked in H at 1 3. injection H as -> -> H. f_equal. auto.
Qed.

Lemma record_conditions ty ps fs inner : types ty = Some (TyDerived (record_layout ps fs) inner) ->
  NoDup (map fst fs) /\
  (forall k c p, In (k, c) fs -> component_owns types c (Some p) -> ~ In p (map fst ps)) /\
  (forall k c k' c' s, In (k, c) fs -> In (k', c') fs -> component_owns types c s -> component_owns types c' s -> k = k').
Proof.
  intro E. apply TP in E. inversion E as [| | | | | |ps' fs' inner' T1 T2 T3 [Es Ef]| | | |].
  apply statements_inj in Es. apply fields_inj in Ef. subst. auto.
Qed.
Lemma choice_conditions ty ps cs inner : types ty = Some (TyDerived (choice_layout ps cs) inner) ->
  (forall k c p, In (k, c) cs -> choice_owns types c (Some p) -> ~ In p (map fst ps)) /\
  (forall k p o ty, In (k, Tag p o ty) cs -> ~ Owns types ty (Some p)) /\
  (forall m n nc nc', nth_error cs m = Some nc -> nth_error cs n = Some nc' -> m <> n ->
     told_apart types (snd nc) (snd nc')).
Proof.
  intro E. apply TP in E. inversion E as [| | | | | | |ps' cs' inner' T1 T2 T3 [Es Ef]| | |].
  apply statements_inj in Es. apply variants_inj in Ef. subst. auto.
Qed.
Lemma tuple_conditions ty ps its inner : types ty = Some (TyDerived (tuple_layout ps its) inner) ->
  NoDup (map fst its) /\ (forall p, In p (map fst its) -> ~ In p (map fst ps)).
Proof.
  intro E. apply TP in E. inversion E as [| | | | | | | |ps' its' inner' T1 T2 [Es Ef]| |].
  apply statements_inj in Es. apply items_inj in Ef. subst. auto.
Qed.
Lemma set_conditions ty ps p ty' inner : types ty = Some (TyDerived (set_layout ps p ty') inner) -> ~ In p (map fst ps).
Proof.
  intro E. apply TP in E. inversion E as [| | | | | | | | |ps' p' ty0 inner' T1 [Es Ep Er]|].
  apply statements_inj in Es. subst. auto.
Qed.
Lemma list_conditions ty ps first rest nil ty' inner : types ty = Some (TyDerived (list_layout ps first rest nil ty') inner) ->
  first <> rest /\ ~ In first (map fst ps) /\ ~ In rest (map fst ps).
Proof.
  intro E. apply TP in E. inversion E as [| | | | | | | | | |ps' f' r' nil' ty0 inner' T1 T2 T3 [Es E1 E2 E3 E4]].
  apply statements_inj in Es. subst. eauto.
Qed.

(** The IRIs of the shapes. *)
Lemma statements_iris ps s : In s (map fst ps) \/ In s (map snd ps) <-> In s (flat_map quad_iris (statements ps)).
Proof.
  induction ps as [|[p o] ps IH]; [cbn; tauto|]. cbn in *. rewrite <- IH. tauto.
Qed.
Lemma link_iris p ty : In p (item_iris (linked p ty)).
Proof. now left. Qed.

Lemma prog_statement ty l inner ps s : types ty = Some (TyDerived l inner) ->
  incl (header_iris (about ps)) (layout_iris l) -> In s (map fst ps) \/ In s (map snd ps) -> program_iri types s.
Proof. intros E HI H. exists ty, l, inner. split; [exact E|]. apply HI. now apply statements_iris. Qed.

Definition has_header (l : layout string) (ps : list (string * string)) : Prop :=
  match l with
  | UnitL h _ | DataL _ h _ _ | IdL h _ _ | ProductL h _ | SumL h _ | UnorderedL h _ | OrderedL h _ _ _ | SizedL h _ =>
      h = about ps
  | _ => False
  end.
Lemma has_header_incl l ps : has_header l ps -> incl (header_iris (about ps)) (layout_iris l).
Proof. destruct l; cbn [has_header]; try contradiction; intros ->; intros s Hs; cbn [layout_iris]; auto using in_or_app. Qed.
Lemma header_prog ty l inner ps s : types ty = Some (TyDerived l inner) -> has_header l ps ->
  In s (map fst ps) \/ In s (map snd ps) -> program_iri types s.
Proof. intros E H. eapply prog_statement; [exact E|now apply has_header_incl]. Qed.

Lemma record_prog ty ps fs inner k p b ty' : types ty = Some (TyDerived (record_layout ps fs) inner) ->
  In (k, Link p b ty') fs -> program_iri types p.
Proof.
  intros E H. exists ty, (record_layout ps fs), inner. split; [exact E|]. cbn [layout_iris record_layout]. apply in_or_app. right.
  apply in_flat_map. exists (VLit (LText k), field_of (Link p b ty')). split; [|now left].
  apply in_map_iff. exists (k, Link p b ty'). auto.
Qed.
Lemma tag_prog ty ps cs inner k p o ty' : types ty = Some (TyDerived (choice_layout ps cs) inner) ->
  In (k, Tag p o ty') cs -> program_iri types p /\ program_iri types o.
Proof.
  intros E H. assert (T : forall s, s = p \/ s = o -> program_iri types s).
  { intros s Hs. exists ty, (choice_layout ps cs), inner. split; [exact E|]. cbn [layout_iris choice_layout]. apply in_or_app. right.
    apply in_flat_map. exists (Variant k (choice_item (Tag p o ty'))). split.
    - apply in_map_iff. exists (k, Tag p o ty'). auto.
    - destruct Hs as [-> | ->]; [now left|right; now left]. }
  auto.
Qed.
Lemma via_prog ty ps cs inner k p ty' : types ty = Some (TyDerived (choice_layout ps cs) inner) ->
  In (k, Via p ty') cs -> program_iri types p.
Proof.
  intros E H. exists ty, (choice_layout ps cs), inner. split; [exact E|]. cbn [layout_iris choice_layout]. apply in_or_app. right.
  apply in_flat_map. exists (Variant k (choice_item (Via p ty'))). split; [|now left].
  apply in_map_iff. exists (k, Via p ty'). auto.
Qed.
Lemma tuple_prog ty ps its inner p : types ty = Some (TyDerived (tuple_layout ps its) inner) ->
  In p (map fst its) -> program_iri types p.
Proof.
  intros E H. exists ty, (tuple_layout ps its), inner. split; [exact E|]. cbn [layout_iris tuple_layout]. apply in_or_app. right.
  apply in_map_iff in H as ([p' ty'] & <- & H). apply in_flat_map. exists (linked p' ty'). split; [|now left].
  apply in_map_iff. exists (p', ty'). auto.
Qed.
Lemma set_prog ty ps p ty' inner : types ty = Some (TyDerived (set_layout ps p ty') inner) -> program_iri types p.
Proof.
  intros E. exists ty, (set_layout ps p ty'), inner. split; [exact E|]. cbn [layout_iris set_layout]. apply in_or_app. right. now left.
Qed.
Lemma list_prog ty ps first rest nil ty' inner : types ty = Some (TyDerived (list_layout ps first rest nil ty') inner) ->
  program_iri types first /\ program_iri types rest /\ program_iri types nil.
Proof.
  intros E. assert (T : forall s, s = first \/ s = rest \/ s = nil -> program_iri types s).
  { intros s Hs. exists ty, (list_layout ps first rest nil ty'), inner. split; [exact E|]. cbn [layout_iris list_layout].
    apply in_or_app. right. cbn. intuition. }
  split; [|split]; apply T; auto.
Qed.
Lemma terminator_prog nil : terminator types nil -> program_iri types nil.
Proof. intros (ty & ps & first & rest & ty' & inner & E). now apply list_prog in E. Qed.

Lemma Owns_prog ty s p : Owns types ty s -> s = Some p -> program_iri types p.
Proof.
  induction 1 as [ | | |ty ps pat inner s E H|ty ps k d inner s E H|ty ps c inner q E H|ty ps fs inner q E H
    | |ty ps fs inner k q b ty' E H|ty ps cs inner q E H|ty ps cs inner k q o ty' E H| |ty ps cs inner k q ty' E H
    |ty ps its inner q E H|ty ps q ty' inner q' E H|ty ps first rest nil ty' inner q E H]; intros Eq; try discriminate Eq; auto.
  - subst s. destruct H as [H|H]; [discriminate|]. apply in_map_iff in H as (p' & [= ->] & H). eapply header_prog; [exact E|reflexivity|auto].
  - subst s. destruct H as [H|H]; [discriminate|]. apply in_map_iff in H as (p' & [= ->] & H). eapply header_prog; [exact E|reflexivity|auto].
  - injection Eq as <-. eapply header_prog; [exact E|reflexivity|auto].
  - injection Eq as <-. eapply header_prog; [exact E|reflexivity|auto].
  - injection Eq as <-. eapply record_prog; eassumption.
  - injection Eq as <-. eapply header_prog; [exact E|reflexivity|auto].
  - injection Eq as <-. exact (proj1 (tag_prog _ _ _ _ _ _ _ _ E H)).
  - injection Eq as <-. eapply via_prog; eassumption.
  - injection Eq as <-. destruct H; [eapply header_prog; [exact E|reflexivity|auto]|eapply tuple_prog; eassumption].
  - injection Eq as <-. destruct H as [H| ->]; [eapply header_prog; [exact E|reflexivity|auto]|eapply set_prog; eassumption].
  - injection Eq as <-. destruct H as [H|[-> | ->]]; [eapply header_prog; [exact E|reflexivity|auto]|destruct (list_prog _ _ _ _ _ _ _ E) as (A1 & A2 & _); assumption..].
Qed.
End Shapes.

Section RoundTrip.
Context {R I : Type} {CR : Cmp R} {CL : CmpLaws R} {RT : Runtime R I} {RS : Resolver R I}.
Context {IS : IntSyntax} {ISL : IntSyntaxLaws}.
Variable known : I -> R -> Prop.
Context {RL : ResolverLaws known}.
Variable types : program.
Variable res : string -> R.
Hypothesis TP : tree_program types.
Hypothesis DI : distinct_iris types res.

Notation prog := (program_iri types).
Notation resolved := (resolved types res).
Notation Wrote := (Wrote known types res).
Notation View := (View known types res).
Notation Owns := (Owns types).
Notation alike := (alike types).

Lemma prog_known i s : resolved i -> prog s -> known i (res s).
Proof. intros HR HP. eapply iri_known, HR, HP. Qed.

(** ** Steps of the serializer *)
Lemma ser_pattern_res i s : resolved i -> prog s -> ser_pattern (PRes s) i = (PRes (res s), i).
Proof. intros HR HP. cbn. now rewrite (interpret_iri (known := known) i s (res s)) by now apply HR. Qed.

Lemma ser_quads_statements i ps : resolved i -> (forall s, In s (map fst ps) \/ In s (map snd ps) -> prog s) ->
  ser_quads (statements ps) i = (facts (at_res res ps), i).
Proof.
  intros HR. induction ps as [|[p o] ps IH]; intros HP; [reflexivity|].
  cbn [statements map ser_quads fst snd]. unfold ser_quad. cbn [q_s q_p q_o q_g].
  change (ser_pattern (PVar 0) i) with (@PVar R 0, i). cbv beta iota.
  rewrite ser_pattern_res; [|exact HR|apply HP; left; now left]. cbv beta iota.
  rewrite ser_pattern_res; [|exact HR|apply HP; right; now left]. cbv beta iota.
  change (map _ ps) with (statements ps). rewrite IH; [reflexivity|]. intros s Hs. apply HP. cbn. tauto.
Qed.

Lemma mapM_facts x (ps : list (R * R)) env : nth_error env 0 = Some x ->
  mapM (env_quad env) (facts ps) = Ok (map (fun po => Quad x (fst po) (snd po) None) ps).
Proof.
  intros E. induction ps as [|[p o] ps IH]; [reflexivity|]. cbn [facts map mapM].
  unfold env_quad at 1. cbn [q_s q_p q_o q_g env_pattern]. rewrite E. cbn [unwrap bind].
  change (map _ ps) with (facts ps) at 1. rewrite IH. reflexivity.
Qed.

Lemma ser_scope_statements i out x ps : resolved i -> (forall s, In s (map fst ps) \/ In s (map snd ps) -> prog s) ->
  ser_scope [x] 0 (statements ps) (i, out) = Ok ([x], (i, out ++ said res x ps)).
Proof.
  intros HR HP. unfold ser_scope. cbn [ser_intro app]. rewrite ser_quads_statements by assumption.
  rewrite (mapM_facts x) by reflexivity. cbn [bind]. unfold at_res, said. rewrite map_map. reflexivity.
Qed.

Lemma ser_scope_link i out x b i1 p : resolved i1 -> prog p -> rs_new i = (b, i1) ->
  ser_scope [x] 1 (links p) (i, out) = Ok ([x; b], (i1, out ++ [Quad x (res p) b None])).
Proof.
  intros HR HP E. unfold ser_scope. cbn [ser_intro]. rewrite E. cbn [ser_quads links]. unfold ser_quad. cbn [q_s q_p q_o q_g].
  change (ser_pattern (PVar 0) i1) with (@PVar R 0, i1). cbv beta iota. rewrite ser_pattern_res by assumption.
  reflexivity.
Qed.

Lemma ser_scope_cell i out x h n b i1 first rest : resolved i1 -> prog first -> prog rest -> rs_new i = (b, i1) ->
  ser_scope [x; h; n] 1 (cell_quads first rest) (i, out) =
  Ok ([x; h; n; b], (i1, out ++ [Quad h (res first) b None; Quad h (res rest) n None])).
Proof.
  intros HR HP HP' E. unfold ser_scope. cbn [ser_intro]. rewrite E. cbn [ser_quads cell_quads]. unfold ser_quad. cbn [q_s q_p q_o q_g].
  change (ser_pattern (PVar 1) i1) with (@PVar R 1, i1). cbv beta iota. rewrite ser_pattern_res by assumption. cbv beta iota.
  change (ser_pattern (PVar 3) i1) with (@PVar R 3, i1). cbv beta iota.
  change (ser_pattern (PVar 1) i1) with (@PVar R 1, i1). cbv beta iota. rewrite ser_pattern_res by assumption.
  reflexivity.
Qed.

Lemma ser_format_at rec env g ty k v (st : I * list (quad R)) b : nth_error env k = Some b ->
  ser_format rec env g (VFormat ty [PVar k] None) v st = rec ty v [b] g st.
Proof.
  intros E. unfold ser_format. destruct st as [i out]. cbn [vf_input ser_patterns ser_pattern mapM env_pattern].
  rewrite E. reflexivity.
Qed.

Lemma de_format_at i2 rec ty k s (b : R) : sget s k = Some b ->
  de_format i2 rec None (VFormat ty [PVar k] None) s = rec None ty [b].
Proof.
  intros E. unfold de_format. cbn [vf_input vf_graph vf_layout interp_patterns map interp_pattern all_some option_map missing ok_or bind].
  unfold de_inputs. cbn [mapM]. unfold resolve, papply. rewrite E. reflexivity.
Qed.

Lemma serialize_derived fuel ty l inner v x g st : types ty = Some (TyDerived l inner) -> input_count l = Some 1 ->
  serialize types (S fuel) ty v [x] g st = ser_layout (serialize types fuel) l inner v [x] g st.
Proof. intros E C. cbn [serialize]. now rewrite E, C. Qed.

Lemma deserialize_derived i2 D fuel ty l inner x : types ty = Some (TyDerived l inner) -> input_count l = Some 1 ->
  deserialize i2 D types (S fuel) None ty [x] = de_layout i2 D (deserialize i2 D types fuel) fuel None l inner [x].
Proof. intros E C. cbn [deserialize]. now rewrite E, C. Qed.

Lemma de_header_about i2 D G x ps : enumerates D G -> resolved i2 ->
  (forall s, In s (map fst ps) \/ In s (map snd ps) -> prog s) -> (forall q, In q (said res x ps) -> G q) ->
  de_header i2 D None (about ps) [x] = Ok [Some x].
Proof.
  intros EN HR HP HG. unfold de_header. cbn [about h_dataset h_intro from_inputs map sintro repeat app].
  apply (read_statements i2 D G EN res).
  - intros p o H. split; apply HR, HP; [left; now apply (in_map fst) in H|right; now apply (in_map snd) in H].
  - intros p o H. apply HG. apply in_map_iff in H as ([p' o'] & [= <- <-] & H). apply in_map_iff. now exists (p', o').
Qed.

(** ** The claim *)
Definition RTn (n : nat) (ty : string) (v : rvalue) : Prop :=
  forall i x, resolved i -> known i x -> (Owns ty None -> unnamed i x) ->
    (forall nil, terminator types nil -> x <> res nil) ->
    exists i' Q, Wrote (at_node x (Owns ty)) none i i' Q /\
      (forall fuel g out, n <= fuel -> serialize types fuel ty v [x] g (i, out) = Ok (i', out ++ Q)) /\
      (forall i2 G D, View (at_node x (Owns ty)) i i' Q i2 G -> enumerates D G ->
         exists v', alike ty v v' /\
           forall fuel, n <= fuel -> deserialize i2 D types fuel None ty [x] = Ok v').

Lemma RTn_le n m ty v : RTn n ty v -> n <= m -> RTn m ty v.
Proof.
  intros H L i x H1 H2 H3 H4. destruct (H i x H1 H2 H3 H4) as (i' & Q & W & S & V). exists i', Q. split; [exact W|].
  split; [intros; apply S; lia|]. intros i2 G D HV EN. destruct (V i2 G D HV EN) as (v' & A & E). exists v'. split; [exact A|].
  intros; apply E; lia.
Qed.

(** A new node. *)
Lemma new_node i b i1 : resolved i -> rs_new i = (b, i1) ->
  resolved i1 /\ known i1 b /\ ~ known i b /\ unnamed i1 b /\ (forall nil, terminator types nil -> b <> res nil) /\
  (forall x, known i x -> known i1 x) /\ (forall x, same_names i i1 x).
Proof.
  intros HR E.
  assert (Kb := new_known (known := known) i). assert (Nb := new_unknown (known := known) i).
  assert (Nm := new_names (known := known) i). assert (Ni := new_iris (known := known) i).
  rewrite E in Kb, Nb, Nm, Ni. cbn [fst snd] in *.
  repeat split.
  - intros s Hs. rewrite Ni. now apply HR.
  - apply Kb. auto.
  - exact Nb.
  - destruct (unknown_unnamed (known := known) i b Nb) as (A & _). destruct (Nm b) as (A' & _). congruence.
  - destruct (unknown_unnamed (known := known) i b Nb) as (_ & A & _). destruct (Nm b) as (_ & A' & _). congruence.
  - destruct (unknown_unnamed (known := known) i b Nb) as (_ & _ & A). destruct (Nm b) as (_ & _ & A'). congruence.
  - intros nil T ->. apply Nb, prog_known; [exact HR|now apply terminator_prog].
  - intros y Hy. apply Kb. auto.
  - apply Nm.
  - apply Nm.
  - apply Nm.
Qed.

(** ** A part linked to the node *)
Definition shared (x : R) (p : string) (y : R) (p' : string) : Prop := y = x /\ p' = p.
Definition nothing (x : R) (s : option string) : Prop := False.

Lemma link_part n ty v i x p : RTn n ty v -> resolved i -> known i x -> prog p ->
  exists b i' Q, ~ known i b /\ known i' b /\ resolved i' /\
    Wrote (at_node x (eq (Some p))) none i i' Q /\ Wrote nothing (shared x p) i i' Q /\
    (forall q, In q Q -> q_s q = x -> q = Quad x (res p) b None) /\
    In (Quad x (res p) b None) Q /\
    (forall fuel g out, n <= fuel -> ser_part (serialize types fuel) [x] g (linked p ty) v (i, out) = Ok (i', out ++ Q)) /\
    (forall i2 G D, View nothing i i' Q i2 G -> enumerates D G ->
       exists v', alike ty v v' /\ forall fuel, n <= fuel -> deserialize i2 D types fuel None ty [b] = Ok v').
Proof.
  intros H HR HK HP. destruct (rs_new i) as [b i1] eqn:E.
  destruct (new_node i b i1 HR E) as (R1 & Kb & Nb & Ub & Tb & K1 & _).
  destruct (H i1 b R1 Kb (fun _ => Ub) Tb) as (i' & Q & W & S & V).
  assert (Nxb : x <> b) by (intros ->; contradiction).
  pose proof (Wrote_quad known types res x p b i1 R1 (K1 _ HK) HP) as Wq.
  pose proof (Wrote_shared known types res x p b i1 R1 (K1 _ HK) HP) as Ws.
  assert (W1 : Wrote (fun y s => at_node x (eq (Some p)) y s \/ at_node b (Owns ty) y s) none i1 i' ([Quad x (res p) b None] ++ Q)).
  { eapply Wrote_seq; [exact Wq|exact W| | | |].
    - intros y s. cbv beta. tauto.
    - intros y q. unfold none. tauto.
    - intros y s (-> & _). exact Kb.
    - intros y q []. }
  assert (W2 : Wrote (fun y s => at_node b (Owns ty) y s) (shared x p) i1 i' ([Quad x (res p) b None] ++ Q)).
  { eapply Wrote_seq; [exact Ws|exact W| | | |].
    - intros y s. cbv beta. tauto.
    - intros y q. unfold none, shared. tauto.
    - intros y s (-> & _). exact Kb.
    - intros y q []. }
  exists b, i', ([Quad x (res p) b None] ++ Q). split; [exact Nb|]. split; [apply W, Kb|].
  split; [eapply w_iris, W|]. split; [|split; [|split; [|split; [|split]]]].
  - eapply (Wrote_new known types res); [exact E|exact W1| | | |].
    + intros y s [H1|[-> _]]; auto.
    + intros y s [].
    + intros y s H1. split; [auto|]. now destruct H1 as [-> _].
    + intros y s [].
  - eapply (Wrote_new known types res); [exact E|exact W2| | | |].
    + intros y s [-> _]; auto.
    + intros y s H1. auto.
    + intros y s [].
    + intros y s H1. split; [auto|]. now destruct H1 as [-> _].
  - intros q [<-|Hq] Eq; [reflexivity|]. exfalso. apply (w_quads _ _ _ _ _ _ _ _ W) in Hq as (_ & [(p' & [[Hb _]|[]] & _)|[_ Hq]]).
    + congruence.
    + apply Hq. rewrite Eq. auto.
  - now left.
  - intros fuel g out L. unfold ser_part. cbn [linked it_intro it_dataset it_value].
    change [Quad (PVar 0) (PRes p) (PVar 1) None] with (links p). rewrite (ser_scope_link i out x b i1 p) by assumption.
    cbn [bind fst snd]. rewrite (ser_format_at _ _ _ _ _ _ _ b) by reflexivity. rewrite S by assumption. now rewrite <- app_assoc.
  - intros i2 G D HV EN. apply (V i2 G D); [|exact EN].
    assert (HV1 : View (at_node b (Owns ty)) i1 i' ([Quad x (res p) b None] ++ Q) i2 G).
    { eapply (View_new known types res); [exact E|exact W2| |exact HV]. intros y s [-> _]. auto. }
    eapply View_seq; [exact DI|exact Ws|exact W| | | | | | |exact HV1].
    + intros y s. cbn. tauto.
    + intros y s [-> _]. exact Kb.
    + intros y s [].
    + intros y s [].
    + intros y s [].
    + intros y q [-> _] [Hy _]. congruence.
Qed.

Lemma resolved_knows i s : resolved i -> prog s -> rs_iri i s = Some (res s).
Proof. auto. Qed.

(** What is read of a link. *)
Lemma link_read i i' Q i2 G x p b : View (at_node x (eq (Some p))) i i' Q i2 G ->
  (forall q, In q Q -> q_s q = x -> q = Quad x (res p) b None) -> In (Quad x (res p) b None) Q ->
  forall o, G (Quad x (res p) o None) <-> o = b.
Proof.
  intros HV HQ HI o. split.
  - intros HG. apply (v_own _ _ _ _ _ _ _ _ _ HV) with (p := p) in HG; [|split; reflexivity|reflexivity].
    apply HQ in HG; [|reflexivity]. congruence.
  - intros ->. eapply v_in; eassumption.
Qed.

(** ** Records *)
Definition comp_rt (n : nat) (c : component) (o : option rvalue) : Prop :=
  match c, o with
  | Own ty, Some v => RTn n ty v
  | Link _ _ ty, Some v => RTn n ty v
  | Link _ b _, None => b = false
  | _, _ => False
  end.
Definition comp_alike (c : component) (o o' : option rvalue) : Prop :=
  match c, o, o' with
  | Own ty, Some v, Some v' => alike ty v v'
  | Link _ _ ty, Some v, Some v' => alike ty v v'
  | Link _ b _, None, None => b = false
  | _, _, _ => False
  end.
Definition comp_write rec (x : R) g (c : component) (o : option rvalue) (st : I * list (quad R)) :=
  match o with
  | Some v => ser_part rec [x] g (f_item (field_of c)) v st
  | None => if f_required (field_of c) then Panic "not a program: absent required field" else Ok st
  end.
Definition comp_read (i2 : I) D rec (x : R) (c : component) : outcome de_error (option rvalue) :=
  let* o := de_unique i2 D None (it_dataset (f_item (field_of c))) (sintro [Some x] (it_intro (f_item (field_of c)))) in
  match o with
  | Some s' => let* v := de_format i2 rec None (it_value (f_item (field_of c))) s' in Ok (Some v)
  | None => Ok None
  end.

Definition component_prog (c : component) : Prop := match c with Own _ => True | Link p _ _ => prog p end.

Lemma comp_part n c o i x : comp_rt n c o -> resolved i -> known i x -> component_prog c ->
  (component_owns types c None -> unnamed i x) -> (forall nil, terminator types nil -> x <> res nil) ->
  exists i' Q, Wrote (at_node x (component_owns types c)) none i i' Q /\
    (forall fuel g out, n <= fuel -> comp_write (serialize types fuel) x g c o (i, out) = Ok (i', out ++ Q)) /\
    (forall i2 G D, View (at_node x (component_owns types c)) i i' Q i2 G -> enumerates D G ->
       exists o', comp_alike c o o' /\
         forall fuel, n <= fuel -> comp_read i2 D (deserialize i2 D types fuel) x c = Ok o').
Proof.
  intros H HR HK HP HU HT. destruct c as [ty|p b ty], o as [v|]; cbn [comp_rt component_owns component_prog] in *; try contradiction.
  - destruct (H i x HR HK HU HT) as (i' & Q & W & S & V). exists i', Q. split; [exact W|]. split.
    + intros fuel g out L. unfold comp_write, ser_part, ser_scope. cbn [field_of f_item same_node it_intro it_dataset it_value statements map ser_intro ser_quads mapM bind fst snd].
      rewrite (ser_format_at _ _ _ _ _ _ _ x) by reflexivity. rewrite app_nil_r. now apply S.
    + intros i2 G D HV EN. destruct (V i2 G D HV EN) as (v' & A & E). exists (Some v'). split; [exact A|].
      intros fuel L. unfold comp_read. cbn [field_of f_item same_node it_intro it_dataset it_value sintro repeat app].
      rewrite (read_tag i2 D G EN res [] x); [|intros ? ? []|intros ? ? []]. cbn [bind].
      rewrite (de_format_at _ _ _ _ _ x) by reflexivity. rewrite E by assumption. reflexivity.
  - destruct (link_part n ty v i x p H HR HK HP) as (y & i' & Q & Ny & Ky & R' & W & _ & HQ & HI & S & V).
    exists i', Q. split; [|split].
    + eapply Wrote_weaken; [exact W| | | | |].
      * intros z s [-> <-]. split; reflexivity.
      * intros z q [].
      * intros z q [[_ E]|[]]. injection E as ->. exact HP.
      * intros z s [-> _]. exact HK.
      * intros z s [].
    + exact S.
    + intros i2 G D HV EN.
      assert (HV1 : View (at_node x (eq (Some p))) i i' Q i2 G) by (eapply View_weaken; [|exact HV]; intros z s [-> <-]; split; reflexivity).
      destruct (V i2 G D) as (v' & A & E); [eapply View_weaken; [|exact HV1]; intros z s []|exact EN|].
      exists (Some v'). split; [exact A|]. intros fuel L. unfold comp_read. cbn [field_of f_item linked it_intro it_dataset it_value].
      change [Quad (PVar 0) (PRes p) (PVar 1) None] with (links p). cbn [sintro repeat app].
      destruct (read_link i2 D G EN res p x y) as [-> _]; [apply (v_iris _ _ _ _ _ _ _ _ _ HV), HP|now apply (link_read i i' Q i2)|].
      cbn [bind]. rewrite (de_format_at _ _ _ _ _ y) by reflexivity. rewrite E by assumption. reflexivity.
  - exists i, []. split; [|split].
    + eapply Wrote_weaken; [apply (Wrote_nil known types res i HR)| | | | |].
      * intros z s [].
      * intros z q [].
      * intros z q [[_ E]|[]]. injection E as ->. exact HP.
      * intros z s [-> _]. exact HK.
      * intros z s [].
    + intros fuel g out L. unfold comp_write. cbn [field_of f_required]. rewrite H. now rewrite app_nil_r.
    + intros i2 G D HV EN. exists None. split; [exact H|]. intros fuel L. unfold comp_read.
      cbn [field_of f_item linked it_intro it_dataset it_value].
      change [Quad (PVar 0) (PRes p) (PVar 1) None] with (links p). cbn [sintro repeat app].
      rewrite (read_no_link i2 D G EN res p x); [reflexivity|apply (v_iris _ _ _ _ _ _ _ _ _ HV), HP|].
      intros o HG. eapply (v_own _ _ _ _ _ _ _ _ _ HV) with (p := p) in HG; [exact HG|split; reflexivity|reflexivity].
Qed.

Definition field_rt n (kc : string * component) (ko : string * option rvalue) : Prop :=
  fst kc = fst ko /\ comp_rt n (snd kc) (snd ko).
Definition some_owns (fs : list (string * component)) (s : option string) : Prop :=
  exists k c, In (k, c) fs /\ component_owns types c s.

Lemma component_owns_prog c p : component_prog c -> component_owns types c (Some p) -> prog p.
Proof. destruct c; cbn; [intros _ H; eapply Owns_prog; [exact H|reflexivity]|congruence]. Qed.

Lemma fields_part n fs vs i x all : Forall2 (field_rt n) fs vs -> resolved i -> known i x ->
  NoDup (map fst fs) -> (forall k c, In (k, c) fs -> component_prog c) ->
  (forall k c k' c' s, In (k, c) fs -> In (k', c') fs -> component_owns types c s -> component_owns types c' s -> k = k') ->
  (some_owns fs None -> unnamed i x) -> (forall nil, terminator types nil -> x <> res nil) ->
  (forall k o, In (k, o) vs -> get_field k all = Some o) ->
  exists i' Q, Wrote (at_node x (some_owns fs)) none i i' Q /\
    (forall fuel g out, n <= fuel -> ser_fields (serialize types fuel) [x] g (fields_of fs) all (i, out) = Ok (i', out ++ Q)) /\
    (forall i2 G D, View (at_node x (some_owns fs)) i i' Q i2 G -> enumerates D G ->
       exists vs', alike_fields types fs vs vs' /\
         forall fuel, n <= fuel ->
           exists data, de_fields i2 D (deserialize i2 D types fuel) None [Some x] (fields_of fs) = Ok data /\
             unwrap_fields data = Ok vs').
Proof.
  intros F. revert i. induction F as [|[k c] [k' o] fs vs [Ek HC] F IH]; intros i HR HK ND HP HD HU HT HG.
  - exists i, []. split; [|split].
    + eapply Wrote_weaken; [apply (Wrote_nil known types res i HR)| | | | |]; try (intros ? ? []; fail).
      * intros y p [(_ & k & c & [] & _)|[]].
      * intros y s [-> _]. exact HK.
    + intros fuel g out _. cbn. now rewrite app_nil_r.
    + intros i2 G D _ _. exists []. split; [constructor|]. intros fuel _. exists []. split; reflexivity.
  - cbn [fst snd] in *. subst k'. cbn [map fst] in ND. inversion_clear ND as [|? ? NI ND'].
    assert (DJ : forall s, component_owns types c s -> some_owns fs s -> False).
    { intros s H (k' & c' & H' & H2). apply NI. assert (k = k') as ->; [|now apply (in_map fst) in H'].
      eapply (HD k c k' c' s); [now left|now right|exact H|exact H2]. }
    destruct (comp_part n c o i x HC HR HK) as (i1 & Q1 & W1 & S1 & V1).
    { eapply HP. now left. } { intros H. apply HU. exists k, c. split; [now left|exact H]. } { exact HT. }
    assert (K1 : known i1 x) by apply W1, HK.
    destruct (IH i1) as (i2 & Q2 & W2 & S2 & V2); auto.
    { eapply w_iris, W1. }
    { intros k' c' H. eapply HP. right. exact H. }
    { intros k1 c1 k2 c2 s H1 H2. apply HD; now right. }
    { intros H. assert (SN : same_names i i1 x).
      { eapply (w_names _ _ _ _ _ _ _ _ W1); [exact HK|]. intros [_ H']. eapply DJ; eassumption. }
      destruct HU as (A & B & C); [destruct H as (k' & c' & H' & H2); exists k', c'; split; [now right|exact H2]|].
      destruct SN as (A' & B' & C'). repeat split; congruence. }
    { intros k' o' H. apply HG. now right. }
    assert (EO : forall y s, at_node x (some_owns ((k, c) :: fs)) y s <->
                   at_node x (component_owns types c) y s \/ at_node x (some_owns fs) y s).
    { intros y s. split.
      - intros (-> & k' & c' & [[= <- <-]|H] & H'); [left; split; auto|right; split; [reflexivity|]; exists k', c'; auto].
      - intros [[-> H]|(-> & k' & c' & H & H')]; (split; [reflexivity|]); [exists k, c|exists k', c']; split; auto; [now left|now right]. }
    exists i2, (Q1 ++ Q2). split; [|split].
    + eapply Wrote_seq; [exact W1|exact W2|exact EO| | |].
      * intros y q. unfold none. tauto.
      * intros y s [-> _]. exact HK.
      * intros y s [].
    + intros fuel g out L. cbn [fields_of map ser_fields fst snd field_name]. cbn [unwrap bind].
      rewrite (HG k o) by now left. cbn [unwrap bind].
      specialize (S1 fuel g out L). unfold comp_write in S1. unfold sres, sstate in *. rewrite S1. cbn [bind]. change (map _ fs) with (fields_of fs). rewrite S2 by assumption. now rewrite app_assoc.
    + intros i3 G D HV EN.
      assert (View (at_node x (component_owns types c)) i i1 Q1 i3 G /\ View (at_node x (some_owns fs)) i1 i2 Q2 i3 G) as [HV1 HV2].
      { eapply View_seq; [exact DI|exact W1|exact W2|exact EO| | | | | |exact HV].
        - intros y s [-> _]. exact HK.
        - intros y s [].
        - intros y s [-> H] [_ H']. eapply DJ; eassumption.
        - intros y s _ [].
        - intros y s _ []. }
      destruct (V1 i3 G D HV1 EN) as (o' & A1 & E1). destruct (V2 i3 G D HV2 EN) as (vs' & A2 & E2).
      exists ((k, o') :: vs'). split.
      { destruct c, o, o'; cbn in A1; try contradiction; constructor; auto. }
      intros fuel L. destruct (E2 fuel L) as (data & ED & EU). exists ((k, (f_required (field_of c), o')) :: data). split.
      * cbn [fields_of map fst snd de_fields field_name unwrap bind].
        change (map _ fs) with (fields_of fs). rewrite ED.
        specialize (E1 fuel L). unfold comp_read in E1.
        destruct (de_unique i3 D None _ _) as [os| | |]; try discriminate E1. cbn [bind] in E1 |- *. rewrite E1. reflexivity.
      * cbn [unwrap_fields]. rewrite EU.
        destruct c, o, o'; cbn in A1; try contradiction; cbn [bind field_of f_required]; try reflexivity. rewrite A1. reflexivity.
Qed.

Lemma get_field_In vs : NoDup (map fst vs) -> forall k (o : option rvalue), In (k, o) vs -> get_field k vs = Some o.
Proof.
  unfold get_field. induction vs as [|[k' o'] vs IH]; intros ND k o H; [destruct H|]. cbn [map fst] in ND. inversion_clear ND as [|? ? NI ND'].
  cbn [find fst]. destruct (eqb_spec k' k) as [E|NE].
  - destruct H as [[= -> ->]|H]; [reflexivity|]. exfalso. apply NI. rewrite E. now apply (in_map fst) in H.
  - destruct H as [[= -> ->]|H]; [contradiction|]. now apply IH.
Qed.

Lemma Forall2_keys n fs vs : Forall2 (field_rt n) fs vs -> map fst vs = map fst fs.
Proof. induction 1 as [|? ? ? ? [E _] _ IH]; [reflexivity|]. cbn. congruence. Qed.

(** Header, then body. *)
Lemma with_header ps (S : option string -> Prop) own i i' x Q :
  resolved i -> known i x -> (forall s, In s (map fst ps) \/ In s (map snd ps) -> prog s) ->
  Wrote (at_node x S) none i i' Q ->
  (forall p, S (Some p) -> ~ In p (map fst ps)) ->
  (forall s, own s <-> states ps s \/ S s) ->
  Wrote (at_node x own) none i i' (said res x ps ++ Q) /\
  (forall i2 G, View (at_node x own) i i' (said res x ps ++ Q) i2 G ->
     (forall q, In q (said res x ps) -> G q) /\ View (at_node x S) i i' Q i2 G).
Proof.
  intros HR HK HP W HD EO. pose proof (Wrote_said known types res x ps i HR HK (fun p H => HP p (or_introl H))) as Wh.
  assert (EO' : forall y s, at_node x own y s <-> at_node x (states ps) y s \/ at_node x S y s).
  { intros y s. unfold at_node. rewrite EO. tauto. }
  split.
  - eapply Wrote_seq; [exact Wh|exact W|exact EO'| | |].
    + intros y q. unfold none. tauto.
    + intros y s [-> _]. exact HK.
    + intros y s [].
  - intros i2 G HV. split.
    + intros q Hq. eapply v_in; [exact HV|]. apply in_or_app. auto.
    + eapply View_seq; [exact DI|exact Wh|exact W|exact EO'| | | | | |exact HV].
      * intros y s [-> _]. exact HK.
      * intros y s [].
      * intros y s (-> & p & -> & H) [_ H']. eapply HD; eassumption.
      * intros y s _ [].
      * intros y s _ [].
Qed.

Lemma weaken_both (S own : option string -> Prop) i i' x Q : Wrote (at_node x S) none i i' Q -> known i x ->
  (forall s, S s -> own s) -> (forall p, own (Some p) -> prog p) ->
  Wrote (at_node x own) none i i' Q /\ (forall i2 G, View (at_node x own) i i' Q i2 G -> View (at_node x S) i i' Q i2 G).
Proof.
  intros W HK H HP. split.
  - eapply Wrote_weaken; [exact W| | | | |]; try (intros ? ? []; fail).
    + intros y s [-> H']. split; auto.
    + intros y p [[_ H']|[]]. auto.
    + intros y s [-> _]. exact HK.
  - intros i2 G HV. eapply View_weaken; [|exact HV]. intros y s [-> H']. split; auto.
Qed.

Lemma rt_record ty ps fs inner n vs : types ty = Some (TyDerived (record_layout ps fs) inner) ->
  Forall2 (field_rt n) fs vs -> RTn (S n) ty (RvRecord vs).
Proof.
  intros E F i x HR HK HU HT. destruct (record_conditions types TP _ _ _ _ E) as (ND & C1 & C2).
  assert (HP : forall s, In s (map fst ps) \/ In s (map snd ps) -> prog s) by (intros s; eapply header_prog; [exact E|reflexivity]).
  destruct (fields_part n fs vs i x vs F HR HK ND) as (i' & Q & W & S & V).
  { intros k [ty'|p b ty'] H; [exact Logic.I|]. eapply record_prog; eassumption. }
  { exact C2. }
  { intros (k & c & H & H'). apply HU. destruct c as [ty'|p b ty']; [|discriminate H'].
    eapply ow_own; eassumption. }
  { exact HT. }
  { apply get_field_In. now rewrite (Forall2_keys n fs vs F). }
  destruct (with_header ps (some_owns fs) (fun s => states ps s \/ some_owns fs s) i i' x Q HR HK HP W) as [Wh Vh].
  { intros p (k & c & H & H'). eapply C1; eassumption. } { tauto. }
  destruct (weaken_both _ (Owns ty) _ _ _ _ Wh HK) as [Ww Vw].
  { intros s [(p & -> & H)|(k & c & H & H')]; [eapply ow_record; eassumption|].
    destruct c as [ty'|p b ty']; cbn in H'; [eapply ow_own; eassumption|subst; eapply ow_link; eassumption]. }
  { intros p H. eapply Owns_prog; [exact H|reflexivity]. }
  exists i', (said res x ps ++ Q). split; [exact Ww|]. split.
  - intros fuel g out L. destruct fuel as [|fuel]; [lia|]. erewrite serialize_derived; [|exact E|reflexivity].
    cbn [ser_layout record_layout about h_intro h_dataset]. rewrite ser_scope_statements by assumption. cbn [bind fst snd].
    rewrite S by lia. now rewrite app_assoc.
  - intros i2 G D HV EN. destruct (Vh i2 G (Vw i2 G HV)) as [HH HB]. destruct (V i2 G D HB EN) as (vs' & A & EE).
    exists (RvRecord vs'). split; [eapply al_record; eassumption|]. intros fuel L. destruct fuel as [|fuel]; [lia|].
    erewrite deserialize_derived; [|exact E|reflexivity]. cbn [de_layout record_layout].
    rewrite (de_header_about i2 D G) by (auto; exact (v_iris _ _ _ _ _ _ _ _ _ HV)). cbn [bind].
    destruct (EE fuel) as (data & -> & EU); [lia|]. cbn [bind]. rewrite EU. reflexivity.
Qed.

(** ** Names *)
Lemma name_read i i' x Q i2 G (own : option string -> Prop) :
  View (at_node x own) i i' Q i2 G -> own None -> same_names i' i2 x.
Proof. intros HV H. eapply v_node; [exact HV|]. split; [reflexivity|exact H]. Qed.

Lemma id_written i x id : resolved i -> known i x -> unnamed i x -> id_value types id ->
  Wrote (at_node x (eq None)) none i (id_ser id i x) [] /\
  (forall i2, same_names (id_ser id i x) i2 x -> id_de i2 x = Ok id) /\
  (forall i2 s, id = IdIri s -> same_names (id_ser id i x) i2 x -> rt_iris i2 x = [s]).
Proof.
  intros HR HK (U1 & U2 & U3) HV. destruct id as [s|s]; cbn [id_ser].
  - split; [apply Wrote_iri; auto|]. split.
    + intros i2 (A & _ & _). unfold id_de. rewrite A, assign_iri_name by assumption. reflexivity.
    + intros i2 s' [= <-] (A & _ & _). now rewrite A, assign_iri_name.
  - split; [apply Wrote_blank; auto|]. split; [|intros ? ? [=]].
    intros i2 (A & B & _). unfold id_de. destruct (assign_blank_name (known := known) i x s U2) as [E1 E2].
    rewrite A, E2, U1, B, E1. reflexivity.
Qed.

Lemma rt_id ty id : types ty = Some TyId -> id_value types id -> RTn 1 ty (RvId id).
Proof.
  intros E HV i x HR HK HU HT. assert (ON : Owns ty None) by now apply ow_id.
  destruct (id_written i x id HR HK (HU ON) HV) as (W & RD & _).
  destruct (weaken_both _ (Owns ty) _ _ _ _ W HK) as [Ww Vw].
  { intros s <-. exact ON. } { intros p H. eapply Owns_prog; [exact H|reflexivity]. }
  exists (id_ser id i x), []. split; [exact Ww|]. split.
  - intros fuel g out L. destruct fuel as [|fuel]; [lia|]. cbn [serialize]. rewrite E. cbn [ser_runtime fst snd]. now rewrite app_nil_r.
  - intros i2 G D V EN. exists (RvId id). split; [apply al_refl|]. intros fuel L. destruct fuel as [|fuel]; [lia|].
    cbn [deserialize]. rewrite E. cbn [de_runtime]. rewrite RD; [reflexivity|]. first [exact (name_read _ _ _ _ _ _ _ HV ON)|exact (name_read _ _ _ _ _ _ _ V ON)].
Qed.

Lemma literal_written i x l : resolved i -> known i x -> unnamed i x ->
  Wrote (at_node x (eq None)) none i (rt_assign_literal x l i) [] /\
  (forall i2, same_names (rt_assign_literal x l i) i2 x -> rt_literals i2 x = [l]).
Proof.
  intros HR HK (U1 & U2 & U3). split; [apply Wrote_literal; auto|]. intros i2 (_ & _ & A).
  now rewrite A, assign_literal_name.
Qed.

Lemma rt_text ty s : types ty = Some TyText -> RTn 1 ty (RvText s).
Proof.
  intros E i x HR HK HU HT. assert (ON : Owns ty None) by now apply ow_text.
  destruct (literal_written i x (RdfLiteral s (TypeAny xsd_string)) HR HK (HU ON)) as (W & RD).
  destruct (weaken_both _ (Owns ty) _ _ _ _ W HK) as [Ww Vw].
  { intros s' <-. exact ON. } { intros p H. eapply Owns_prog; [exact H|reflexivity]. }
  eexists _, []. split; [exact Ww|]. split.
  - intros fuel g out L. destruct fuel as [|fuel]; [lia|]. cbn [serialize]. rewrite E. cbn [ser_runtime fst snd]. now rewrite app_nil_r.
  - intros i2 G D V EN. exists (RvText s). split; [apply al_refl|]. intros fuel L. destruct fuel as [|fuel]; [lia|].
    cbn [deserialize]. rewrite E. cbn [de_runtime]. unfold text_de. rewrite RD by (first [exact (name_read _ _ _ _ _ _ _ HV ON)|exact (name_read _ _ _ _ _ _ _ V ON)]).
    cbn [text_loop rl_type rl_value]. rewrite eqb_self. reflexivity.
Qed.

Lemma rt_int ty ity z : types ty = Some (TyInt ity) -> int_range ity z -> RTn 1 ty (RvInt z).
Proof.
  intros E HZ i x HR HK HU HT. assert (ON : Owns ty None) by (eapply ow_int; eassumption).
  destruct (literal_written i x (RdfLiteral (integer_print z) (TypeAny (int_datatype ity))) HR HK (HU ON)) as (W & RD).
  destruct (weaken_both _ (Owns ty) _ _ _ _ W HK) as [Ww Vw].
  { intros s' <-. exact ON. } { intros p H. eapply Owns_prog; [exact H|reflexivity]. }
  eexists _, []. split; [exact Ww|]. split.
  - intros fuel g out L. destruct fuel as [|fuel]; [lia|]. cbn [serialize]. rewrite E. cbn [ser_runtime fst snd]. now rewrite app_nil_r.
  - intros i2 G D V EN. exists (RvInt z). split; [apply al_refl|]. intros fuel L. destruct fuel as [|fuel]; [lia|].
    cbn [deserialize]. rewrite E. cbn [de_runtime]. unfold int_de. rewrite RD by (first [exact (name_read _ _ _ _ _ _ _ HV ON)|exact (name_read _ _ _ _ _ _ _ V ON)]).
    cbn [int_loop rl_type rl_value]. rewrite eqb_self, int_parse_print by assumption. reflexivity.
Qed.

Lemma rt_derived_id ty ps pat inner s : types ty = Some (TyDerived (id_layout ps pat) inner) -> ~ prog s ->
  RTn 1 ty (RvId (IdIri s)).
Proof.
  intros E NP i x HR HK HU HT. assert (ON : Owns ty None) by (eapply ow_derived_id; [exact E|auto]).
  assert (HP : forall s, In s (map fst ps) \/ In s (map snd ps) -> prog s) by (intros s'; eapply header_prog; [exact E|reflexivity]).
  destruct (id_written i x (IdIri s) HR HK (HU ON)) as (W & _ & RD); [intros s' [= <-]; exact NP|].
  destruct (with_header ps (eq None) (fun s => states ps s \/ None = s) i _ x [] HR HK HP W) as [Wh Vh].
  { intros p [=]. } { tauto. }
  destruct (weaken_both _ (Owns ty) _ _ _ _ Wh HK) as [Ww Vw].
  { intros s' [(p & -> & H)|<-]; [|exact ON]. eapply ow_derived_id; [exact E|right]. now apply in_map. }
  { intros p H. eapply Owns_prog; [exact H|reflexivity]. }
  eexists _, _. split; [exact Ww|]. split.
  - intros fuel g out L. destruct fuel as [|fuel]; [lia|]. erewrite serialize_derived; [|exact E|reflexivity].
    cbn [ser_layout id_layout about h_intro h_dataset]. rewrite ser_scope_statements by assumption.
    cbn [bind fst snd nth_error unwrap]. now rewrite app_nil_r.
  - intros i2 G D HV EN. destruct (Vh i2 G (Vw i2 G HV)) as [HH HB]. exists (RvId (IdIri s)). split; [apply al_refl|].
    intros fuel L. destruct fuel as [|fuel]; [lia|].
    erewrite deserialize_derived; [|exact E|reflexivity]. cbn [de_layout id_layout].
    rewrite (de_header_about i2 D G) by (auto; exact (v_iris _ _ _ _ _ _ _ _ _ HV)).
    cbn [bind interp_pattern missing ok_or resolve papply sget nth_error into_resource unwrap]. unfold de_id.
    rewrite (RD i2 s) by (try reflexivity; exact (name_read _ _ _ _ _ _ _ HV ON)). reflexivity.
Qed.

Lemma prim_text inner v : prim_value inner v ->
  exists text, literal_text inner v = Some text /\ from_rdf_literal inner text = Some v.
Proof.
  intros [b|ity z H|s].
  - destruct b; eexists; (split; [reflexivity|]); reflexivity.
  - exists (integer_print z). split; [reflexivity|]. cbn [from_rdf_literal]. now rewrite int_parse_print.
  - exists s. split; reflexivity.
Qed.

Lemma rt_data ty ps k datatype inner v : types ty = Some (TyDerived (data_layout ps k datatype) inner) -> prim_value inner v ->
  RTn 1 ty v.
Proof.
  intros E PV i x HR HK HU HT. assert (ON : Owns ty None) by (eapply ow_data; [exact E|auto]).
  assert (HP : forall s, In s (map fst ps) \/ In s (map snd ps) -> prog s) by (intros s'; eapply header_prog; [exact E|reflexivity]).
  destruct (prim_text inner v PV) as (text & ET & EF).
  destruct (literal_written i x (RdfLiteral text (TypeAny datatype)) HR HK (HU ON)) as (W & RD).
  destruct (with_header ps (eq None) (fun s => states ps s \/ None = s) i _ x [] HR HK HP W) as [Wh Vh].
  { intros p [=]. } { tauto. }
  destruct (weaken_both _ (Owns ty) _ _ _ _ Wh HK) as [Ww Vw].
  { intros s' [(p & -> & H)|<-]; [|exact ON]. eapply ow_data; [exact E|right]. now apply in_map. }
  { intros p H. eapply Owns_prog; [exact H|reflexivity]. }
  eexists _, _. split; [exact Ww|]. split.
  - intros fuel g out L. destruct fuel as [|fuel]; [lia|]. erewrite serialize_derived; [|exact E|reflexivity].
    cbn [ser_layout data_layout about h_intro h_dataset]. rewrite ser_scope_statements by assumption.
    cbn [bind fst snd]. rewrite ET. cbn [unwrap bind ser_target nth_error fst snd]. now rewrite app_nil_r.
  - intros i2 G D HV EN. destruct (Vh i2 G (Vw i2 G HV)) as [HH HB]. exists v. split; [apply al_refl|].
    intros fuel L. destruct fuel as [|fuel]; [lia|].
    erewrite deserialize_derived; [|exact E|reflexivity]. cbn [de_layout data_layout].
    rewrite (de_header_about i2 D G) by (auto; exact (v_iris _ _ _ _ _ _ _ _ _ HV)).
    cbn [bind interp_pattern missing ok_or resolve papply sget nth_error into_resource unwrap]. unfold de_data.
    rewrite (RD i2) by (first [exact (name_read _ _ _ _ _ _ _ HV ON)|exact (name_read _ _ _ _ _ _ _ V ON)]). cbn [de_literals literal_type_iri rl_type rl_value].
    rewrite eqb_self, EF. reflexivity.
Qed.

Lemma rt_unit ty ps c inner : types ty = Some (TyDerived (unit_layout ps c) inner) -> RTn 1 ty RvUnit.
Proof.
  intros E i x HR HK HU HT.
  assert (HP : forall s, In s (map fst ps) \/ In s (map snd ps) -> prog s) by (intros s'; eapply header_prog; [exact E|reflexivity]).
  pose proof (Wrote_said known types res x ps i HR HK (fun p H => HP p (or_introl H))) as Wh.
  destruct (weaken_both _ (Owns ty) _ _ _ _ Wh HK) as [Ww Vw].
  { intros s' (p & -> & H). eapply ow_unit; eassumption. }
  { intros p H. eapply Owns_prog; [exact H|reflexivity]. }
  eexists _, _. split; [exact Ww|]. split.
  - intros fuel g out L. destruct fuel as [|fuel]; [lia|]. erewrite serialize_derived; [|exact E|reflexivity].
    cbn [ser_layout unit_layout about h_intro h_dataset]. rewrite ser_scope_statements by assumption. reflexivity.
  - intros i2 G D HV EN. exists RvUnit. split; [apply al_refl|].
    intros fuel L. destruct fuel as [|fuel]; [lia|].
    erewrite deserialize_derived; [|exact E|reflexivity]. cbn [de_layout unit_layout].
    rewrite (de_header_about i2 D G); [reflexivity|exact EN|exact (v_iris _ _ _ _ _ _ _ _ _ HV)|exact HP|].
    eapply v_in, HV.
Qed.

(** ** Tuples *)
Lemma tuple_part n its vs i x : Forall2 (fun (pt : string * string) v => RTn n (snd pt) v) its vs -> resolved i -> known i x ->
  NoDup (map fst its) -> (forall p, In p (map fst its) -> prog p) ->
  exists i' Q, Wrote (at_node x (fun s => In s (map Some (map fst its)))) none i i' Q /\
    (forall fuel g out, n <= fuel ->
       ser_tuple (serialize types fuel) [x] g (map (fun pt => linked (fst pt) (snd pt)) its) vs (i, out) = Ok (i', out ++ Q)) /\
    (forall i2 G D, View (at_node x (fun s => In s (map Some (map fst its)))) i i' Q i2 G -> enumerates D G ->
       exists vs', alike_items types (map snd its) vs vs' /\
         forall fuel, n <= fuel ->
           de_tuple i2 D (deserialize i2 D types fuel) None [Some x] (map (fun pt => linked (fst pt) (snd pt)) its) = Ok vs').
Proof.
  intros F. revert i. induction F as [|[p ty] v its vs H F IH]; intros i HR HK ND HP.
  - exists i, []. split; [|split].
    + eapply Wrote_weaken; [apply (Wrote_nil known types res i HR)| | | | |]; try (intros ? ? []; fail).
      * intros y p [[_ []]|[]].
      * intros y s [-> _]. exact HK.
    + intros fuel g out _. cbn. now rewrite app_nil_r.
    + intros i2 G D _ _. exists []. split; [constructor|]. reflexivity.
  - cbn [fst snd map] in *. inversion_clear ND as [|? ? NI ND'].
    destruct (link_part n ty v i x p H HR HK) as (b & i1 & Q1 & _ & _ & R1 & W1 & _ & HQ & HI & S1 & V1); [apply HP; now left|].
    destruct (IH i1 R1) as (i2 & Q2 & W2 & S2 & V2); auto. { apply W1, HK. } { intros q Hq. apply HP. now right. }
    assert (EO : forall y s, at_node x (fun s => In s (Some p :: map Some (map fst its))) y s <->
                   at_node x (eq (Some p)) y s \/ at_node x (fun s => In s (map Some (map fst its))) y s).
    { intros y s. unfold at_node. cbn. tauto. }
    exists i2, (Q1 ++ Q2). split; [|split].
    + eapply Wrote_seq; [exact W1|exact W2|exact EO| | |].
      * intros y q. unfold none. tauto.
      * intros y s [-> _]. exact HK.
      * intros y s [].
    + intros fuel g out L. cbn [ser_tuple]. rewrite S1 by assumption. cbn [bind]. rewrite S2 by assumption. now rewrite app_assoc.
    + intros i3 G D HV EN.
      assert (View (at_node x (eq (Some p))) i i1 Q1 i3 G /\ View (at_node x (fun s => In s (map Some (map fst its)))) i1 i2 Q2 i3 G) as [HV1 HV2].
      { eapply View_seq; [exact DI|exact W1|exact W2|exact EO| | | | | |exact HV].
        - intros y s [-> _]. exact HK.
        - intros y s [].
        - intros y s [-> <-] [_ H']. apply NI. apply in_map_iff in H' as (q & [= ->] & H'). exact H'.
        - intros y s _ [].
        - intros y s _ []. }
      destruct (V1 i3 G D) as (v' & A1 & E1); [eapply View_weaken; [|exact HV1]; intros ? ? []|exact EN|].
      destruct (V2 i3 G D HV2 EN) as (vs' & A2 & E2).
      exists (v' :: vs'). split; [constructor; assumption|]. intros fuel L. cbn [de_tuple linked it_intro it_dataset it_value].
      change [Quad (PVar 0) (PRes p) (PVar 1) None] with (links p). cbn [sintro repeat app].
      destruct (read_link i3 D G EN res p x b) as [_ ->];
        [apply (v_iris _ _ _ _ _ _ _ _ _ HV), HP; now left|now apply (link_read i i1 Q1 i3)|].
      cbn [bind]. rewrite (de_format_at _ _ _ _ _ b) by reflexivity. rewrite E1 by assumption. cbn [bind].
      rewrite E2 by assumption. reflexivity.
Qed.

Lemma rt_tuple ty ps its inner n vs : types ty = Some (TyDerived (tuple_layout ps its) inner) ->
  Forall2 (RTn n) (map snd its) vs -> RTn (S n) ty (RvTuple vs).
Proof.
  intros E F i x HR HK HU HT. destruct (tuple_conditions types TP _ _ _ _ E) as (ND & C1).
  assert (HP : forall s, In s (map fst ps) \/ In s (map snd ps) -> prog s) by (intros s; eapply header_prog; [exact E|reflexivity]).
  destruct (tuple_part n its vs i x) as (i' & Q & W & S & V); auto.
  { clear - F. remember (map snd its) as tys. revert its Heqtys. induction F as [|ty v tys vs H F IH]; intros [|[p ty'] its] E; try discriminate; constructor.
    - cbn in E |- *. injection E as -> _. exact H.
    - apply IH. now injection E. }
  { intros p Hp. eapply tuple_prog; eassumption. }
  destruct (with_header ps _ (fun s => states ps s \/ In s (map Some (map fst its))) i i' x Q HR HK HP W) as [Wh Vh].
  { intros p H. apply in_map_iff in H as (q & [= ->] & H). auto. } { tauto. }
  destruct (weaken_both _ (Owns ty) _ _ _ _ Wh HK) as [Ww Vw].
  { intros s [(p & -> & H)|H]; [eapply ow_tuple; [eassumption|auto]|]. apply in_map_iff in H as (q & <- & H). eapply ow_tuple; [eassumption|auto]. }
  { intros p H. eapply Owns_prog; [exact H|reflexivity]. }
  exists i', (said res x ps ++ Q). split; [exact Ww|]. split.
  - intros fuel g out L. destruct fuel as [|fuel]; [lia|]. erewrite serialize_derived; [|exact E|reflexivity].
    cbn [ser_layout tuple_layout about h_intro h_dataset]. rewrite ser_scope_statements by assumption. cbn [bind fst snd].
    rewrite S by lia. now rewrite app_assoc.
  - intros i2 G D HV EN. destruct (Vh i2 G (Vw i2 G HV)) as [HH HB]. destruct (V i2 G D HB EN) as (vs' & A & EE).
    exists (RvTuple vs'). split; [eapply al_tuple; eassumption|]. intros fuel L. destruct fuel as [|fuel]; [lia|].
    erewrite deserialize_derived; [|exact E|reflexivity]. cbn [de_layout tuple_layout].
    rewrite (de_header_about i2 D G) by (auto; exact (v_iris _ _ _ _ _ _ _ _ _ HV)). cbn [bind].
    rewrite EE by lia. reflexivity.
Qed.

(** ** Enumerations *)
Definition choice_read (i2 : I) D rec (x : R) (c : choice) : outcome de_error (option rvalue) :=
  let* o := de_unique i2 D None (it_dataset (choice_item c)) (sintro [Some x] (it_intro (choice_item c))) in
  match o with
  | Some s' => let* v := de_format i2 rec None (it_value (choice_item c)) s' in Ok (Some v)
  | None => Ok None
  end.
Definition choice_prog (c : choice) : Prop := match c with Tag p o _ => prog p /\ prog o | Via p _ => prog p end.
Definition choice_ok (c : choice) : Prop := match c with Tag p _ ty => ~ Owns ty (Some p) | Via _ _ => True end.

Lemma choice_part n c v i x : RTn n (choice_type c) v -> resolved i -> known i x -> choice_prog c -> choice_ok c ->
  (choice_owns types c None -> unnamed i x) -> (forall nil, terminator types nil -> x <> res nil) ->
  exists i' Q, Wrote (at_node x (choice_owns types c)) none i i' Q /\
    (forall fuel g out, n <= fuel -> ser_part (serialize types fuel) [x] g (choice_item c) v (i, out) = Ok (i', out ++ Q)) /\
    (forall q, In q Q -> q_s q = x ->
       match c with Tag p o _ => q_p q = res p -> q_o q = res o | Via _ _ => True end) /\
    (forall i2 G D, View (at_node x (choice_owns types c)) i i' Q i2 G -> enumerates D G ->
       exists v', alike (choice_type c) v v' /\
         forall fuel, n <= fuel -> choice_read i2 D (deserialize i2 D types fuel) x c = Ok (Some v')).
Proof.
  intros H HR HK HP HC HU HT. destruct c as [p o ty|p ty]; cbn [choice_type choice_prog choice_ok] in *.
  - destruct HP as [HP HP']. destruct (H i x HR HK) as (i' & Q & W & S & V); auto. { intro O. apply HU. now right. }
    assert (HPs : forall s, In s (map fst [(p, o)]) \/ In s (map snd [(p, o)]) -> prog s).
    { cbn. intros s [[<-|[]]|[<-|[]]]; assumption. }
    destruct (with_header [(p, o)] (Owns ty) (choice_owns types (Tag p o ty)) i i' x Q HR HK HPs W) as [Wh Vh].
    { cbn. intros p' H' [<-|[]]. contradiction. }
    { intros s. cbn. split.
      - intros [->|H']; [left|now right]. exists p. cbn. auto.
      - intros [(p' & -> & Hp)|H']; [|auto]. cbn in Hp. destruct Hp as [<-|[]]. auto. }
    exists i', (said res x [(p, o)] ++ Q). split; [exact Wh|]. split; [|split].
    + intros fuel g out L. unfold ser_part. cbn [choice_item same_node it_intro it_dataset it_value].
      rewrite ser_scope_statements by assumption. cbn [bind fst snd]. rewrite (ser_format_at _ _ _ _ _ _ _ x) by reflexivity.
      rewrite S by assumption. now rewrite app_assoc.
    + intros q Hq Es Ep. apply in_app_or in Hq as [Hq|Hq].
      * destruct Hq as [<-|[]]. reflexivity.
      * exfalso. apply (w_quads _ _ _ _ _ _ _ _ W) in Hq as (_ & [(p' & [[_ Hp]|[]] & Ep')|[_ Hn]]).
        -- assert (p' = p) as ->. { apply DI; [|exact HP|congruence]. eapply Owns_prog; [exact Hp|reflexivity]. } contradiction.
        -- apply Hn. now rewrite Es.
    + intros i2 G D HV EN. destruct (Vh i2 G HV) as [HH HB]. destruct (V i2 G D HB EN) as (v' & A & EE).
      exists v'. split; [exact A|]. intros fuel L. unfold choice_read. cbn [choice_item same_node it_intro it_dataset it_value sintro repeat app].
      rewrite (read_tag i2 D G EN res).
      * cbn [bind]. rewrite (de_format_at _ _ _ _ _ x) by reflexivity. rewrite EE by assumption. reflexivity.
      * pose proof (v_iris _ _ _ _ _ _ _ _ _ HV) as HI. intros p' o' [[= <- <-]|[]]. split; now apply HI.
      * intros p' o' [[= <- <-]|[]]. apply HH. now left.
  - destruct (link_part n ty v i x p H HR HK HP) as (b & i1 & Q1 & _ & _ & R1 & W1 & _ & HQ & HI & S1 & V1).
    assert (EO : forall y s, at_node x (choice_owns types (Via p ty)) y s <-> at_node x (eq (Some p)) y s).
    { intros y s. unfold at_node. cbn. intuition. }
    exists i1, Q1. split; [|split; [|split; [intros; exact Logic.I|]]].
    + eapply Wrote_weaken; [exact W1| | | | |]; try (intros ? ? []; fail).
      * intros y s H'. now apply EO.
      * intros y q [H'|[]]. apply EO in H' as [_ [= <-]]. exact HP.
      * intros y s [-> _]. exact HK.
    + exact S1.
    + intros i2 G D HV EN. assert (HV' : View (at_node x (eq (Some p))) i i1 Q1 i2 G).
      { eapply View_weaken; [|exact HV]. intros y s. apply EO. }
      destruct (V1 i2 G D) as (v' & A1 & E1); [eapply View_weaken; [|exact HV]; intros ? ? []|exact EN|].
      exists v'. split; [exact A1|]. intros fuel L. unfold choice_read. cbn [choice_item linked it_intro it_dataset it_value sintro repeat app].
      change [Quad (PVar 0) (PRes p) (PVar 1) None] with (links p).
      destruct (read_link i2 D G EN res p x b) as [-> _];
        [apply (v_iris _ _ _ _ _ _ _ _ _ HV), HP|now apply (link_read i i1 Q1 i2)|].
      cbn [bind]. rewrite (de_format_at _ _ _ _ _ b) by reflexivity. rewrite E1 by assumption. reflexivity.
Qed.

(** The other variants are not read. *)
Lemma choice_unread i i' x Q c c' own i2 G D rec : Wrote (at_node x (choice_owns types c)) none i i' Q -> known i x ->
  (forall q, In q Q -> q_s q = x ->
     match c with Tag p o _ => q_p q = res p -> q_o q = res o | Via _ _ => True end) ->
  choice_prog c -> choice_prog c' -> told_apart types c' c ->
  View (at_node x own) i i' Q i2 G -> (forall s, choice_owns types c' s -> own s) -> enumerates D G ->
  choice_read i2 D rec x c' = Ok None.
Proof.
  intros W HK HQ HP HP' HA HV HO EN. pose proof (v_iris _ _ _ _ _ _ _ _ _ HV) as HI.
  assert (F : forall p o, choice_owns types c' (Some p) -> prog p -> G (Quad x (res p) o None) ->
    In (Quad x (res p) o None) Q /\ choice_owns types c (Some p)).
  { intros p o Hp HPp HG. assert (Hq : In (Quad x (res p) o None) Q).
    { apply (v_own _ _ _ _ _ _ _ _ _ HV) with (p := p) in HG; [exact HG| |reflexivity]. split; [reflexivity|auto]. }
    split; [exact Hq|]. pose proof (w_quads _ _ _ _ _ _ _ _ W _ Hq) as (_ & [(p' & [[_ Ho]|[]] & Ep)|[_ Hn]]).
    - cbn in Ep. assert (p' = p) as <-; [|exact Ho]. apply DI; [|exact HPp|congruence].
      eapply w_prog; [exact W|]. left. split; [reflexivity|exact Ho].
    - exfalso. apply Hn. exact HK. }
  destruct c' as [p' o' ty'|p' ty']; unfold choice_read; cbn [choice_item same_node linked it_intro it_dataset it_value sintro repeat app].
  - destruct HP' as [HP1 HP2]. rewrite (read_no_tag i2 D G EN res).
    + reflexivity.
    + intros p o [[= <- <-]|[]]. split; now apply HI.
    + intros HS. specialize (HS (res p') (res o') (or_introl eq_refl)).
      destruct (F p' (res o')) as [Hq Ho]; [now left|exact HP1|exact HS|].
      destruct c as [p o ty|p ty].
      * destruct HA as [HA1 HA2]. destruct Ho as [[= ->]|Ho]; [|contradiction].
        apply (HA1 eq_refl). apply DI; [exact HP2|apply HP|]. exact (HQ _ Hq eq_refl eq_refl).
      * cbn in Ho. injection Ho as ->. now apply HA.
  - change [Quad (PVar 0) (PRes p') (PVar 1) None] with (links p').
    rewrite (read_no_link i2 D G EN res); [reflexivity|apply HI, HP'|].
    intros o HG. destruct (F p' o) as [_ Ho]; [reflexivity|exact HP'|exact HG|]. now apply HA.
Qed.

Lemma variants_none i2 D rec x cs index result :
  (forall nc, In nc cs -> choice_read i2 D rec x (snd nc) = Ok None) ->
  de_variants i2 D rec None [Some x] index (variants_of cs) result = Ok result.
Proof.
  revert index. induction cs as [|[k c] cs IH]; intros index H; [reflexivity|].
  assert (HC := H _ (or_introl eq_refl)). unfold choice_read in HC. cbn [snd] in HC.
  cbn [variants_of map de_variants va_item fst snd].
  destruct (de_unique i2 D None (it_dataset (choice_item c)) (sintro [Some x] (it_intro (choice_item c)))) as [[s'|]| | |]; try discriminate.
  - cbn [bind] in HC. destruct (de_format i2 rec None (it_value (choice_item c)) s'); discriminate.
  - cbn [bind]. apply IH. intros nc Hn. apply H. now right.
Qed.

Lemma variants_one i2 D rec x cs k nc v index : nth_error cs k = Some nc -> choice_read i2 D rec x (snd nc) = Ok (Some v) ->
  (forall m nc', nth_error cs m = Some nc' -> m <> k -> choice_read i2 D rec x (snd nc') = Ok None) ->
  de_variants i2 D rec None [Some x] index (variants_of cs) None = Ok (Some (RvVariant (index + k) v)).
Proof.
  revert k index. induction cs as [|[name c] cs IH]; intros [|k] index E HC HN; try discriminate.
  - injection E as <-. unfold choice_read in HC. cbn [snd] in HC. cbn [variants_of map de_variants va_item fst snd].
    destruct (de_unique i2 D None (it_dataset (choice_item c)) (sintro [Some x] (it_intro (choice_item c)))) as [[s'|]| | |]; try discriminate.
    cbn [bind] in *. destruct (de_format i2 rec None (it_value (choice_item c)) s'); try discriminate.
    cbn [bind] in *. injection HC as ->. rewrite Nat.add_0_r. apply (variants_none i2 D rec x cs).
    intros nc Hn. apply In_nth_error in Hn as (m & Hm). apply (HN (S m)); [exact Hm|discriminate].
  - assert (H0 := HN 0 _ eq_refl (Nat.neq_0_succ k)). unfold choice_read in H0. cbn [snd] in H0.
    cbn [variants_of map de_variants va_item fst snd].
    destruct (de_unique i2 D None (it_dataset (choice_item c)) (sintro [Some x] (it_intro (choice_item c)))) as [[s'|]| | |]; try discriminate.
    + cbn [bind] in H0. destruct (de_format i2 rec None (it_value (choice_item c)) s'); discriminate.
    + cbn [bind]. replace (index + S k) with (S index + k) by lia. apply (IH k (S index)); [exact E|exact HC|].
      intros m nc' Hm Hk. apply (HN (S m)); [exact Hm|congruence].
Qed.

Definition some_choice (cs : list (string * choice)) (s : option string) : Prop :=
  exists k c, In (k, c) cs /\ choice_owns types c s.

Lemma rt_choice ty ps cs inner n k name c v : types ty = Some (TyDerived (choice_layout ps cs) inner) ->
  nth_error cs k = Some (name, c) -> RTn n (choice_type c) v -> RTn (S n) ty (RvVariant k v).
Proof.
  intros E EK H i x HR HK HU HT. destruct (choice_conditions types TP _ _ _ _ E) as (C1 & C2 & C3).
  assert (HP : forall s, In s (map fst ps) \/ In s (map snd ps) -> prog s) by (intros s; eapply header_prog; [exact E|reflexivity]).
  assert (Hin : In (name, c) cs) by (eapply nth_error_In; exact EK).
  assert (CP : forall name c, In (name, c) cs -> choice_prog c).
  { intros name' [p o ty'|p ty'] Hc; [eapply tag_prog; eassumption|eapply via_prog; eassumption]. }
  assert (CO : forall s, some_choice cs s -> Owns ty s).
  { intros s (name' & c' & Hc & Ho). destruct c' as [p o ty'|p ty']; cbn in Ho.
    - destruct Ho as [->|Ho]; [eapply ow_tag; eassumption|eapply ow_tagged; eassumption].
    - subst. eapply ow_via; eassumption. }
  destruct (choice_part n c v i x) as (i' & Q & W & S & HQ & V); auto.
  { eapply CP; exact Hin. }
  { destruct c as [p o ty'|p ty']; [eapply C2; exact Hin|exact Logic.I]. }
  { intro Ho. apply HU, CO. exists name, c. auto. }
  destruct (weaken_both _ (some_choice cs) _ _ _ _ W HK) as [Wc Vc].
  { intros s Hs. exists name, c. auto. }
  { intros p Hs. eapply Owns_prog; [apply CO, Hs|reflexivity]. }
  destruct (with_header ps (some_choice cs) (fun s => states ps s \/ some_choice cs s) i i' x Q HR HK HP Wc) as [Wh Vh].
  { intros p (k' & c' & H' & H''). eapply C1; eassumption. } { tauto. }
  destruct (weaken_both _ (Owns ty) _ _ _ _ Wh HK) as [Ww Vw].
  { intros s [(p & -> & H')|H']; [eapply ow_choice; eassumption|auto]. }
  { intros p H'. eapply Owns_prog; [exact H'|reflexivity]. }
  exists i', (said res x ps ++ Q). split; [exact Ww|]. split.
  - intros fuel g out L. destruct fuel as [|fuel]; [lia|]. erewrite serialize_derived; [|exact E|reflexivity].
    cbn [ser_layout choice_layout about h_intro h_dataset]. rewrite ser_scope_statements by assumption. cbn [bind fst snd].
    unfold variants_of. rewrite nth_error_map, EK. cbn [option_map unwrap bind va_item fst snd].
    rewrite S by lia. now rewrite app_assoc.
  - intros i2 G D HV EN. destruct (Vh i2 G (Vw i2 G HV)) as [HH HB]. destruct (V i2 G D (Vc i2 G HB) EN) as (v' & A & EE).
    exists (RvVariant k v'). split; [eapply al_choice; eassumption|]. intros fuel L. destruct fuel as [|fuel]; [lia|].
    erewrite deserialize_derived; [|exact E|reflexivity]. cbn [de_layout choice_layout].
    rewrite (de_header_about i2 D G) by (auto; exact (v_iris _ _ _ _ _ _ _ _ _ HV)). cbn [bind].
    rewrite (variants_one i2 D _ x cs k (name, c) v'); [reflexivity|exact EK|apply EE; lia|].
    intros m [name' c'] Hm Hk. cbn [snd].
    assert (Hin' : In (name', c') cs) by (eapply nth_error_In; exact Hm).
    eapply choice_unread; [exact W|exact HK|exact HQ|eapply CP; exact Hin|eapply CP; exact Hin'| |exact HB| |exact EN].
    + exact (C3 m k _ _ Hm EK Hk).
    + intros s Hs. exists name', c'. auto.
Qed.

(** ** Unordered lists *)
Lemma set_part n ty p vs i x : Forall (RTn n ty) vs -> resolved i -> known i x -> prog p ->
  exists i' Q bs, Wrote nothing (shared x p) i i' Q /\ NoDup bs /\ (forall b, In b bs -> known i' b /\ ~ known i b) /\
    (forall q, In q Q -> q_s q = x -> exists b, In b bs /\ q = Quad x (res p) b None) /\
    (forall b, In b bs -> In (Quad x (res p) b None) Q) /\
    (forall fuel g out, n <= fuel -> ser_items (serialize types fuel) [x] g (linked p ty) vs (i, out) = Ok (i', out ++ Q)) /\
    (forall i2 G D, View nothing i i' Q i2 G -> enumerates D G ->
       exists vs', alike_items types (map (fun _ => ty) vs) vs vs' /\
         Forall2 (fun b v => forall fuel, n <= fuel -> deserialize i2 D types fuel None ty [b] = Ok v) bs vs').
Proof.
  intros F HR HK HP. revert i HR HK. induction F as [|v vs H F IH]; intros i HR HK.
  - exists i, [], []. split; [|split; [constructor|split; [intros ? []|split; [intros ? []|split; [intros ? []|split]]]]].
    + eapply Wrote_weaken; [apply (Wrote_nil known types res i HR)| | | | |]; try (intros ? ? []; fail).
      * intros y q [[]|[_ ->]]. exact HP.
      * intros y s [-> _]. exact HK.
    + intros fuel g out _. cbn. now rewrite app_nil_r.
    + intros i2 G D _ _. exists []. split; constructor.
  - destruct (link_part n ty v i x p H HR HK HP) as (b & i1 & Q1 & Nb & Kb & R1 & _ & W1 & HQ & HI & S1 & V1).
    destruct (IH i1 R1) as (i2 & Q2 & bs & W2 & ND & HB & HQ2 & HI2 & S2 & V2). { apply W1, HK. }
    exists i2, (Q1 ++ Q2), (b :: bs). split; [|split; [|split; [|split; [|split; [|split]]]]].
    + eapply Wrote_seq; [exact W1|exact W2| | | |].
      * intros y s. unfold nothing. tauto.
      * intros y q. tauto.
      * intros y s [].
      * intros y s [-> _]. exact HK.
    + constructor; [|exact ND]. intro Hb. now apply HB in Hb as [_ Hb].
    + intros b' [<-|Hb]; [split; [apply W2, Kb|exact Nb]|]. apply HB in Hb as [Hb Hb']. split; [exact Hb|].
      intro Hk. apply Hb', W1, Hk.
    + intros q Hq Es. apply in_app_or in Hq as [Hq|Hq].
      * exists b. split; [now left|auto].
      * destruct (HQ2 q Hq Es) as (b' & Hb & ->). exists b'. split; [now right|reflexivity].
    + intros b' [<-|Hb]; apply in_or_app; auto.
    + intros fuel g out L. cbn [ser_items]. rewrite S1 by assumption. cbn [bind]. rewrite S2 by assumption. now rewrite app_assoc.
    + intros i3 G D HV EN. assert (View nothing i i1 Q1 i3 G /\ View nothing i1 i2 Q2 i3 G) as [HV1 HV2].
      { eapply View_seq; [exact DI|exact W1|exact W2| | | | | | |exact HV].
        - intros y s. unfold nothing. tauto.
        - intros y s [].
        - intros y s [-> _]. exact HK.
        - intros y s [].
        - intros y s [].
        - intros y s []. }
      destruct (V1 i3 G D HV1 EN) as (v' & A1 & E1). destruct (V2 i3 G D HV2 EN) as (vs' & A2 & E2).
      exists (v' :: vs'). split; constructor; assumption.
Qed.

Lemma items_read i2 D fuel ty x bs vs : Forall2 (fun b v => deserialize i2 D types fuel None ty [b] = Ok v) bs vs ->
  de_items i2 (deserialize i2 D types fuel) None (VFormat ty [PVar 1] None) (map (fun b => inr [Some x; Some b]) bs) = Ok vs.
Proof.
  induction 1 as [|b v bs vs H F IH]; [reflexivity|]. cbn [map de_items]. rewrite (de_format_at _ _ _ _ _ b) by reflexivity.
  rewrite H. cbn [bind]. rewrite IH. reflexivity.
Qed.

Lemma rt_set ty ps p ty' inner n vs : types ty = Some (TyDerived (set_layout ps p ty') inner) ->
  Forall (RTn n ty') vs -> RTn (S n) ty (RvVec vs).
Proof.
  intros E F i x HR HK HU HT. pose proof (set_conditions types TP _ _ _ _ _ E) as C1.
  pose proof (set_prog types _ _ _ _ _ E) as HPp.
  assert (HP : forall s, In s (map fst ps) \/ In s (map snd ps) -> prog s) by (intros s; eapply header_prog; [exact E|reflexivity]).
  destruct (set_part n ty' p vs i x F HR HK HPp) as (i' & Q & bs & W0 & ND & HB & HQ & HI & S & V).
  assert (W : Wrote (at_node x (eq (Some p))) none i i' Q).
  { eapply Wrote_weaken; [exact W0| | | | |]; try (intros ? ? []; fail).
    - intros y q [-> ->]. left. split; reflexivity.
    - intros y q [[_ [= <-]]|[]]. exact HPp.
    - intros y s [-> _]. exact HK. }
  destruct (with_header ps _ (fun s => states ps s \/ Some p = s) i i' x Q HR HK HP W) as [Wh Vh].
  { intros q [= <-]. exact C1. } { tauto. }
  destruct (weaken_both _ (Owns ty) _ _ _ _ Wh HK) as [Ww Vw].
  { intros s [(q & -> & H)|<-]; eapply ow_set; eauto. }
  { intros q H. eapply Owns_prog; [exact H|reflexivity]. }
  exists i', (said res x ps ++ Q). split; [exact Ww|]. split.
  - intros fuel g out L. destruct fuel as [|fuel]; [lia|]. erewrite serialize_derived; [|exact E|reflexivity].
    cbn [ser_layout set_layout about h_intro h_dataset]. rewrite ser_scope_statements by assumption. cbn [bind fst snd].
    rewrite S by lia. now rewrite app_assoc.
  - intros i2 G D HV EN. destruct (Vh i2 G (Vw i2 G HV)) as [HH HB2].
    destruct (V i2 G D) as (vs' & A & EE); [eapply View_weaken; [|exact HB2]; intros ? ? []|exact EN|].
    destruct (read_items i2 D G EN res p x bs) as (ps' & bs' & EP & HPm & ES).
    { apply (v_iris _ _ _ _ _ _ _ _ _ HV), HPp. } { exact ND. }
    { intros o. split.
      - intros HG. apply (v_own _ _ _ _ _ _ _ _ _ HB2) with (p := p) in HG; [|split; reflexivity|reflexivity].
        apply HQ in HG as (b & Hb & [= ->]); [exact Hb|reflexivity].
      - intros Ho. eapply v_in; [exact HB2|]. auto. }
    destruct (Permutation_Forall2 HPm EE) as (vs'' & HPv & EE').
    exists (RvVec vs''). split; [eapply al_set; eassumption|]. intros fuel L. destruct fuel as [|fuel]; [lia|].
    erewrite deserialize_derived; [|exact E|reflexivity]. cbn [de_layout set_layout].
    rewrite (de_header_about i2 D G) by (auto; exact (v_iris _ _ _ _ _ _ _ _ _ HV)). cbn [bind linked it_intro it_dataset it_value sintro repeat app].
    change [Quad (PVar 0) (PRes p) (PVar 1) None] with (links p). rewrite EP. cbn [missing ok_or bind]. rewrite ES.
    rewrite (items_read i2 D fuel ty' x bs' vs''); [reflexivity|].
    clear - EE' L. induction EE' as [|b v bs' vs'' Hb F IH]; constructor; [apply Hb; lia|exact IH].
Qed.

(** ** Ordered lists *)
Definition cell_owns (first rest : string) (s : option string) : Prop := s = Some first \/ s = Some rest.

Lemma cell_part n ty v i x h r first rest : RTn n ty v -> resolved i -> known i h -> prog first -> prog rest -> first <> rest ->
  exists b i' Q, resolved i' /\ Wrote (at_node h (cell_owns first rest)) none i i' Q /\
    (forall q, In q Q -> q_s q = h -> q = Quad h (res first) b None \/ q = Quad h (res rest) r None) /\
    In (Quad h (res first) b None) Q /\ In (Quad h (res rest) r None) Q /\
    (forall fuel g out, n <= fuel ->
       ser_part (serialize types fuel) [x; h; r] g (cell first rest ty) v (i, out) = Ok (i', out ++ Q)) /\
    (forall i2 G D, View (at_node h (cell_owns first rest)) i i' Q i2 G -> enumerates D G ->
       exists v', alike ty v v' /\ forall fuel, n <= fuel -> deserialize i2 D types fuel None ty [b] = Ok v').
Proof.
  intros H HR HK HP HP' NE. destruct (rs_new i) as [b i1] eqn:E.
  destruct (new_node i b i1 HR E) as (R1 & Kb & Nb & Ub & Tb & K1 & _).
  destruct (H i1 b R1 Kb (fun _ => Ub) Tb) as (i' & Q & W & S & V).
  assert (Nhb : h <> b) by (intros ->; contradiction).
  set (Qc := [Quad h (res first) b None; Quad h (res rest) r None]).
  assert (Wq : Wrote (at_node h (cell_owns first rest)) none i1 i1 Qc).
  { change Qc with ([Quad h (res first) b None] ++ [Quad h (res rest) r None]).
    eapply Wrote_seq; [apply (Wrote_quad known types res h first b i1); auto|apply (Wrote_quad known types res h rest r i1); auto| | | |].
    - intros y s. unfold at_node, cell_owns. intuition.
    - intros y q. unfold none. tauto.
    - intros y s [-> _]. auto.
    - intros y s []. }
  assert (W1 : Wrote (fun y s => at_node h (cell_owns first rest) y s \/ at_node b (Owns ty) y s) none i1 i' (Qc ++ Q)).
  { eapply Wrote_seq; [exact Wq|exact W| | | |].
    - intros y s. cbv beta. tauto.
    - intros y q. unfold none. tauto.
    - intros y s (-> & _). exact Kb.
    - intros y q []. }
  exists b, i', (Qc ++ Q). split; [eapply w_iris, W|]. split; [|split; [|split; [|split; [|split]]]].
  - eapply (Wrote_new known types res); [exact E|exact W1| | | |].
    + intros y s [H1|[-> _]]; auto.
    + intros y s [].
    + intros y s H1. split; [auto|]. now destruct H1 as [-> _].
    + intros y s [].
  - intros q Hq Eq. apply in_app_or in Hq as [[<-|[<-|[]]]|Hq]; auto. exfalso.
    apply (w_quads _ _ _ _ _ _ _ _ W) in Hq as (_ & [(p' & [[Hb _]|[]] & _)|[_ Hq]]).
    + congruence.
    + apply Hq. rewrite Eq. auto.
  - now left.
  - right. now left.
  - intros fuel g out L. unfold ser_part. cbn [cell it_intro it_dataset it_value].
    change [Quad (PVar 1) (PRes first) (PVar 3) None; Quad (PVar 1) (PRes rest) (PVar 2) None] with (cell_quads first rest).
    rewrite (ser_scope_cell i out x h r b i1 first rest) by assumption.
    cbn [bind fst snd]. rewrite (ser_format_at _ _ _ _ _ _ _ b) by reflexivity. rewrite S by assumption. now rewrite <- app_assoc.
  - intros i2 G D HV EN. apply (V i2 G D); [|exact EN].
    assert (HV1 : View (fun y s => at_node h (cell_owns first rest) y s \/ at_node b (Owns ty) y s) i1 i' (Qc ++ Q) i2 G).
    { eapply (View_new known types res); [exact E|exact W1| |exact HV]. intros y s [H1|[-> _]]; auto. }
    eapply View_seq; [exact DI|exact Wq|exact W| | | | | | |exact HV1].
    + intros y s. cbv beta. tauto.
    + intros y s [-> _]. exact Kb.
    + intros y s [].
    + intros y s [-> _] [Hy _]. congruence.
    + intros y s _ [].
    + intros y q _ [].
Qed.

Lemma cell_read i i' Q i2 G h first rest b r : View (at_node h (cell_owns first rest)) i i' Q i2 G ->
  prog first -> prog rest -> first <> rest ->
  (forall q, In q Q -> q_s q = h -> q = Quad h (res first) b None \/ q = Quad h (res rest) r None) ->
  In (Quad h (res first) b None) Q -> In (Quad h (res rest) r None) Q ->
  (forall o, G (Quad h (res first) o None) <-> o = b) /\ (forall o, G (Quad h (res rest) o None) <-> o = r).
Proof.
  intros HV HP HP' NE HQ H1 H2. split; intros o; split.
  - intros HG. apply (v_own _ _ _ _ _ _ _ _ _ HV) with (p := first) in HG; [|split; [reflexivity|now left]|reflexivity].
    apply HQ in HG as [HG|HG]; [congruence| |reflexivity]. exfalso. apply NE, DI; auto. congruence.
  - intros ->. eapply v_in; eassumption.
  - intros HG. apply (v_own _ _ _ _ _ _ _ _ _ HV) with (p := rest) in HG; [|split; [reflexivity|now right]|reflexivity].
    apply HQ in HG as [HG|HG]; [|congruence|reflexivity]. exfalso. apply NE, DI; auto. congruence.
  - intros ->. eapply v_in; eassumption.
Qed.

Lemma de_nodes_cell i2 D G rec fuel x h r b first rest nil ty v : enumerates D G -> resolved i2 -> prog first -> prog rest ->
  h <> res nil -> (forall o, G (Quad h (res first) o None) <-> o = b) -> (forall o, G (Quad h (res rest) o None) <-> o = r) ->
  rec None ty [b] = Ok v ->
  de_nodes i2 D rec (S fuel) None [Some x] (cell first rest ty) h (res nil) =
  let* vs := de_nodes i2 D rec fuel None [Some x] (cell first rest ty) r (res nil) in Ok (v :: vs).
Proof.
  intros EN HR HP HP' NE H1 H2 E. cbn [de_nodes]. destruct (eqb_spec h (res nil)) as [EQ|_]; [contradiction|].
  cbn [cell it_intro it_dataset it_value spush sintro repeat app length Nat.add].
  change [Quad (PVar 1) (PRes first) (PVar 3) None; Quad (PVar 1) (PRes rest) (PVar 2) None] with (cell_quads first rest).
  rewrite (read_cell i2 D G EN res first rest x h b r) by (auto; now apply HR).
  cbn [bind]. rewrite (de_format_at _ _ _ _ _ b) by reflexivity. rewrite E. cbn [bind]. reflexivity.
Qed.

Lemma nodes_part n ty x first rest nil vs i h : Forall (RTn n ty) vs -> vs <> [] -> resolved i -> known i h ->
  prog first -> prog rest -> terminator types nil -> first <> rest -> h <> res nil ->
  exists i' Q, Wrote (at_node h (cell_owns first rest)) none i i' Q /\
    (forall fuel g out, n <= fuel ->
       ser_nodes (serialize types fuel) [x] g (cell first rest ty) (PRes nil) vs h (i, out) = Ok (i', out ++ Q)) /\
    (forall i2 G D, View (at_node h (cell_owns first rest)) i i' Q i2 G -> enumerates D G ->
       exists vs', alike_items types (map (fun _ => ty) vs) vs vs' /\
         forall fuel fuel', n <= fuel -> length vs < fuel' ->
           de_nodes i2 D (deserialize i2 D types fuel) fuel' None [Some x] (cell first rest ty) h (res nil) = Ok vs').
Proof.
  intros F NV HR HK HP HP' HT NE NH. revert i h HR HK NH. induction F as [|v vs H F IH]; intros i h HR HK NH; [congruence|].
  destruct vs as [|v2 vs].
  - destruct (cell_part n ty v i x h (res nil) first rest H HR HK HP HP' NE) as (b & i1 & Q1 & R1 & W1 & HQ & HI & HI' & S1 & V1).
    exists i1, Q1. split; [exact W1|]. split.
    + intros fuel g out L. cbn [ser_nodes]. rewrite ser_pattern_res by (auto; now apply terminator_prog).
      cbn [env_pattern bind fst snd app]. rewrite S1 by assumption. reflexivity.
    + intros i2 G D HV EN. destruct (V1 i2 G D HV EN) as (v' & A1 & E1). exists [v']. split; [repeat constructor; exact A1|].
      destruct (cell_read i i1 Q1 i2 G h first rest b (res nil) HV HP HP' NE HQ HI HI') as [G1 G2].
      intros fuel fuel' L L'. destruct fuel' as [|[|fuel']]; cbn [length] in L'; try lia.
      rewrite (de_nodes_cell i2 D G _ _ x h (res nil) b first rest nil ty v') by (auto; exact (v_iris _ _ _ _ _ _ _ _ _ HV)).
      cbn [de_nodes]. destruct (eqb_spec (res nil) (res nil)) as [_|NN]; [reflexivity|congruence].
  - destruct (rs_new i) as [r i0] eqn:E.
    destruct (new_node i r i0 HR E) as (R0 & Kr & Nr & Ur & Tr & K0 & _).
    destruct (cell_part n ty v i0 x h r first rest H R0 (K0 _ HK) HP HP' NE) as (b & i1 & Q1 & R1 & W1 & HQ & HI & HI' & S1 & V1).
    destruct (IH ltac:(discriminate) i1 r R1) as (i2 & Q2 & W2 & S2 & V2). { apply W1, Kr. } { now apply Tr. }
    assert (Nhr : h <> r) by (intros ->; contradiction).
    assert (W : Wrote (fun y s => at_node h (cell_owns first rest) y s \/ at_node r (cell_owns first rest) y s) none i0 i2 (Q1 ++ Q2)).
    { eapply Wrote_seq; [exact W1|exact W2| | | |].
      - intros y s. cbv beta. tauto.
      - intros y q. unfold none. tauto.
      - intros y s (-> & _). exact Kr.
      - intros y q []. }
    exists i2, (Q1 ++ Q2). split; [|split].
    + eapply (Wrote_new known types res); [exact E|exact W| | | |].
      * intros y s [H1|[-> _]]; auto.
      * intros y s [].
      * intros y s H1. split; [auto|]. now destruct H1 as [-> _].
      * intros y s [].
    + intros fuel g out L. remember (v2 :: vs) as l eqn:El. cbn [ser_nodes]. rewrite El at 1. rewrite E. cbn [bind fst snd app].
      rewrite S1 by assumption. cbn [bind]. rewrite S2 by assumption. now rewrite app_assoc.
    + intros i3 G D HV EN.
      assert (HV0 : View (fun y s => at_node h (cell_owns first rest) y s \/ at_node r (cell_owns first rest) y s) i0 i2 (Q1 ++ Q2) i3 G).
      { eapply (View_new known types res); [exact E|exact W| |exact HV]. intros y s [H1|[-> _]]; auto. }
      assert (View (at_node h (cell_owns first rest)) i0 i1 Q1 i3 G /\ View (at_node r (cell_owns first rest)) i1 i2 Q2 i3 G) as [HV1 HV2].
      { eapply View_seq; [exact DI|exact W1|exact W2| | | | | | |exact HV0].
        - intros y s. cbv beta. tauto.
        - intros y s [-> _]. exact Kr.
        - intros y s [].
        - intros y s [-> _] [Hy _]. congruence.
        - intros y s _ [].
        - intros y s _ []. }
      destruct (V1 i3 G D HV1 EN) as (v' & A1 & E1). destruct (V2 i3 G D HV2 EN) as (vs' & A2 & E2).
      destruct (cell_read i0 i1 Q1 i3 G h first rest b r HV1 HP HP' NE HQ HI HI') as [G1 G2].
      exists (v' :: vs'). split; [cbn [map]; constructor; [exact A1|exact A2]|].
      intros fuel fuel' L L'. destruct fuel' as [|fuel']; [lia|].
      rewrite (de_nodes_cell i3 D G _ _ x h r b first rest nil ty v') by (auto; exact (v_iris _ _ _ _ _ _ _ _ _ HV)).
      rewrite E2 by (auto; cbn [length] in *; lia). reflexivity.
Qed.

Lemma rt_list ty ps first rest nil ty' inner n vs : types ty = Some (TyDerived (list_layout ps first rest nil ty') inner) ->
  Forall (RTn n ty') vs -> vs <> [] -> RTn (S (Nat.max n (S (length vs)))) ty (RvVec vs).
Proof.
  intros E F NV i x HR HK HU HT. destruct (list_conditions types TP _ _ _ _ _ _ _ E) as (NE & C1 & C2).
  destruct (list_prog types _ _ _ _ _ _ _ E) as (HP1 & HP2 & HP3).
  assert (HN : terminator types nil) by (repeat eexists; exact E).
  assert (HP : forall s, In s (map fst ps) \/ In s (map snd ps) -> prog s) by (intros s; eapply header_prog; [exact E|reflexivity]).
  destruct (nodes_part n ty' x first rest nil vs i x F NV HR HK HP1 HP2 HN NE (HT _ HN)) as (i' & Q & W & S & V).
  destruct (with_header ps _ (fun s => states ps s \/ cell_owns first rest s) i i' x Q HR HK HP W) as [Wh Vh].
  { intros q [[= ->]|[= ->]]; assumption. } { tauto. }
  destruct (weaken_both _ (Owns ty) _ _ _ _ Wh HK) as [Ww Vw].
  { intros s [(q & -> & H)|[-> | ->]]; eapply ow_list; eauto. }
  { intros q H. eapply Owns_prog; [exact H|reflexivity]. }
  exists i', (said res x ps ++ Q). split; [exact Ww|]. split.
  - intros fuel g out L. destruct fuel as [|fuel]; [lia|]. erewrite serialize_derived; [|exact E|reflexivity].
    cbn [ser_layout list_layout about h_intro h_dataset]. rewrite ser_scope_statements by assumption. cbn [bind fst snd].
    cbn [ser_pattern env_pattern nth_error unwrap bind].
    rewrite S by lia. now rewrite app_assoc.
  - intros i2 G D HV EN. destruct (Vh i2 G (Vw i2 G HV)) as [HH HB]. destruct (V i2 G D HB EN) as (vs' & A & EE).
    exists (RvVec vs'). split; [eapply al_list; eassumption|]. intros fuel L. destruct fuel as [|fuel]; [lia|].
    erewrite deserialize_derived; [|exact E|reflexivity]. cbn [de_layout list_layout].
    rewrite (de_header_about i2 D G) by (auto; exact (v_iris _ _ _ _ _ _ _ _ _ HV)). cbn [bind interp_pattern missing ok_or resolve papply sget nth_error].
    rewrite (v_iris _ _ _ _ _ _ _ _ _ HV nil HP3). cbn [option_map missing ok_or bind resolve papply sget nth_error into_resource unwrap].
    rewrite EE by lia. reflexivity.
Qed.

(** ** All the values *)
Lemma Forall2_field_le n m fs vs : Forall2 (field_rt n) fs vs -> n <= m -> Forall2 (field_rt m) fs vs.
Proof.
  intros F L. induction F as [|[k c] [k' o] fs vs [H1 H2] F IH]; constructor; [|exact IH]. split; [exact H1|].
  cbn [fst snd] in *. destruct c, o; cbn [comp_rt] in *; try assumption; eapply RTn_le; eassumption.
Qed.
Lemma Forall2_items_le n m tys vs : Forall2 (RTn n) tys vs -> n <= m -> Forall2 (RTn m) tys vs.
Proof. intros F L. induction F as [|ty v tys vs H F IH]; constructor; [eapply RTn_le; eassumption|exact IH]. Qed.
Lemma Forall2_same n ty vs : Forall2 (RTn n) (map (fun _ => ty) vs) vs -> Forall (RTn n ty) vs.
Proof.
  remember (map (fun _ => ty) vs) as tys eqn:E. intros F. revert E. induction F as [|ty' v tys vs H F IH]; intros E; constructor.
  - cbn in E. injection E as -> _. exact H.
  - apply IH. now injection E.
Qed.

Lemma all_values :
  (forall ty v, value_of types ty v -> exists n, RTn n ty v) /\
  (forall fs vs, fields_value types fs vs -> exists n, Forall2 (field_rt n) fs vs) /\
  (forall tys vs, items_value types tys vs -> exists n, Forall2 (RTn n) tys vs).
Proof.
  apply value_mutind.
  - intros ty id E H. exists 1. now apply rt_id.
  - intros ty s E. exists 1. now apply rt_text.
  - intros ty ity z E H. exists 1. eapply rt_int; eassumption.
  - intros ty ps pat inner s E H. exists 1. eapply rt_derived_id; eassumption.
  - intros ty ps k datatype inner v E H. exists 1. eapply rt_data; eassumption.
  - intros ty ps c inner E. exists 1. eapply rt_unit; eassumption.
  - intros ty ps fs inner vs E _ (n & F). exists (S n). eapply rt_record; eassumption.
  - intros ty ps cs inner k name c v E EK _ (n & H). exists (S n). eapply rt_choice; eassumption.
  - intros ty ps its inner vs E _ (n & F). exists (S n). eapply rt_tuple; eassumption.
  - intros ty ps p ty' inner vs E _ (n & F). exists (S n). eapply rt_set; [exact E|now apply Forall2_same].
  - intros ty ps first rest nil ty' inner vs E _ (n & F) NV. eexists. eapply rt_list; [exact E|apply Forall2_same; exact F|exact NV].
  - exists 0. constructor.
  - intros k ty v fs vs _ (n & H) _ (m & F). exists (Nat.max n m). constructor.
    + split; [reflexivity|]. eapply RTn_le; [exact H|lia].
    + eapply Forall2_field_le; [exact F|lia].
  - intros k p b ty v fs vs _ (n & H) _ (m & F). exists (Nat.max n m). constructor.
    + split; [reflexivity|]. eapply RTn_le; [exact H|lia].
    + eapply Forall2_field_le; [exact F|lia].
  - intros k p ty fs vs _ (m & F). exists m. constructor; [|exact F]. split; reflexivity.
  - exists 0. constructor.
  - intros ty v tys vs _ (n & H) _ (m & F). exists (Nat.max n m). constructor.
    + eapply RTn_le; [exact H|lia].
    + eapply Forall2_items_le; [exact F|lia].
Qed.

End RoundTrip.

(** ** Without unordered lists *)
Scheme alike_min := Minimality for alike Sort Prop
  with alike_fields_min := Minimality for alike_fields Sort Prop
  with alike_items_min := Minimality for alike_items Sort Prop.
Combined Scheme alike_mutind from alike_min, alike_fields_min, alike_items_min.

Lemma alike_eq types : without_sets types ->
  (forall ty v v', alike types ty v v' -> v = v') /\
  (forall fs vs vs', alike_fields types fs vs vs' -> vs = vs') /\
  (forall tys vs vs', alike_items types tys vs vs' -> vs = vs').
Proof.
  intros WS. apply alike_mutind; intros; subst; try reflexivity.
  exfalso. eapply WS. eassumption.
Qed.

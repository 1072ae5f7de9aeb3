(** * C121: layouts that can always write back what they read

    The ambiguity of C121 needs a boolean or a decimal read as a text, or written in a layout in a way that is not the normal one.
    A registry with neither never reports one: with the conditions of C120, what was read is written back without any error. *)

From Coq Require Import String List Bool Arith NArith Permutation Sorted Lia.
Import ListNotations.
From Verif Require Import Base BaseProofs Orders PatternModel MatchingModel MatchingSpec ValueModel LayoutModel LayoutSpec HydrateModel
  HydrateSpec HydrateProofs HydrateSound HydrateComplete HydrateProperties TermModel DehydrateModel DehydrateSpec DehydrateProofs DehydrateEmits DehydrateFinish
  DehydrateProperties RegistryProperties RoundTripSpec OtherDataProperties RenameProperties DehydrateUnique DehydrateUniqueProperties
  WriteBackSpec WriteBackProofs WriteBackProperties DehydrateOutcomes AmbiguityProperties.
From Verif Require TakenSpec TakenProperties.
Open Scope list_scope.
Open Scope nat_scope.

(** ** Conditions *)

(** The text layouts are not for the booleans, nor for the decimals. *)
Definition texts_apart {X : Xsd} (reg : registry term) : Prop := forall ref pat h r ty,
  reg ref = Some (DataL (KTextString pat) h r (TmIri ty)) -> ty <> xsd_boolean /\ is_decimal_type ty = false.

(** The term [t] is written in the layout, as the resource of a literal or as an input of another layout. *)
Inductive names : layout term -> term -> Prop :=
| n_data k h t dt : names (DataL k h (PRes t) dt) t
| n_field h fs k f t : In (k, f) fs -> In (PRes t) (vf_input (it_value (f_item f))) -> names (ProductL h fs) t
| n_variant h vs va t : In va vs -> In (PRes t) (vf_input (it_value (va_item va))) -> names (SumL h vs) t
| n_item h it t : In (PRes t) (vf_input (it_value it)) -> names (UnorderedL h it) t
| n_node h node hd tl t : In (PRes t) (vf_input (it_value node)) -> names (OrderedL h node hd tl) t
| n_head h node t tl : names (OrderedL h node (PRes t) tl) t
| n_tail h node hd t : names (OrderedL h node hd (PRes t)) t
| n_sized h its it t : In it its -> In (PRes t) (vf_input (it_value it)) -> names (SizedL h its) t.

(** The literals written in the layouts are written in the normal way. *)
Definition normal_names {X : Xsd} (reg : registry term) : Prop := forall ref l lit lit',
  reg ref = Some l -> names l (TmLit lit) -> normal_literal lit' lit -> lit' = lit.

(** ** The literals of a run *)
Section Run.
Context {X : Xsd} {IS : IriSyntax}.
Variable reg : registry term.
Notation ops := input_interpretation.
Notation state := (dstate res input_interp).
Notation M := (M (Q := term) (S := res) (I := input_interp)).

Definition named (r : res) : Prop := forall t, r = RTerm t -> exists ref l, reg ref = Some l /\ names l t.

Definition made (st : state) : Prop := forall r l, assigned st r (TmLit l) ->
  named r /\ exists ref k h rs dt v, reg ref = Some (DataL k h rs dt) /\ literal_form (type_iri RTerm (assigned st) dt) k v l.

Definition leads (st st' : state) : Prop := (forall r t, assigned st r t -> assigned st' r t) /\ (made st -> made st').

Lemma leads_refl st : leads st st.
Proof. split; auto. Qed.
Lemma leads_trans a b c : leads a b -> leads b c -> leads a c.
Proof. intros [A B] [C D]. split; auto. Qed.

Definition safe {A} (P : A -> Prop) (m : M A) : Prop := forall st, leads st (snd (m st)) /\ forall a, fst (m st) = Ok a -> P a.

Lemma s_ret {A} (P : A -> Prop) a : P a -> safe P (ret a).
Proof. intros H st. split; [apply leads_refl|]. intros a' [= <-]. exact H. Qed.
Lemma s_raise {A} (P : A -> Prop) e : safe P (raise (A := A) e).
Proof. intro st. split; [apply leads_refl|discriminate]. Qed.
Lemma s_diverge {A} (P : A -> Prop) : safe P (diverge (A := A)).
Proof. intro st. split; [apply leads_refl|discriminate]. Qed.
Lemma s_lift {A} (P : A -> Prop) (o : outcome _ A) : (forall a, o = Ok a -> P a) -> safe P (lift o).
Proof. intros H st. split; [apply leads_refl|exact H]. Qed.

Lemma s_bind {A B} (P : A -> Prop) (P' : B -> Prop) (m : M A) (k : A -> M B) :
  safe P m -> (forall a, P a -> safe P' (k a)) -> safe P' (bindM m k).
Proof.
  intros Hm Hk st. specialize (Hm st) as [L O]. unfold bindM.
  destruct (m st) as [[a|e|w|] st1] eqn:E; simpl in *; try (split; [exact L|discriminate]).
  destruct (Hk a (O a eq_refl) st1) as [L' O']. split; [eapply leads_trans; eassumption|exact O'].
Qed.

Lemma s_is_ok {A} (P : A -> Prop) (m : M A) : safe P m -> safe (fun _ => True) (is_ok m).
Proof.
  intros Hm st. specialize (Hm st) as [L _]. unfold is_ok. destruct (m st) as [[a|e|w|] st1]; (split; [exact L|auto]).
Qed.

Lemma s_new : safe named (new_resourceM ops).
Proof.
  intros [i o]. split; [split; auto|]. intros a [= <-] t. discriminate.
Qed.

Lemma s_new_resources n : safe (Forall named) (new_resources ops n).
Proof.
  induction n as [|n IH]; cbn [new_resources]; [apply s_ret; constructor|].
  eapply s_bind; [apply s_new|]. intros r Hr. eapply s_bind; [exact IH|]. intros rs Hrs. apply s_ret. now constructor.
Qed.

Definition known (e : env res) : Prop := Forall named (env_list e).

Lemma s_env_intro e n : known e -> safe known (env_intro ops e n).
Proof.
  intro K. eapply s_bind; [apply s_new_resources|]. intros rs Hrs. apply s_ret. unfold known, env_bind. simpl. apply Forall_app. now split.
Qed.

Lemma s_emit qs : safe (fun _ => True) (emit (Q := term) qs).
Proof. intros [i o]. split; [split; auto|auto]. Qed.

Lemma s_dataset e qs : safe (fun _ => True) (instantiate_dataset ops e qs).
Proof.
  induction qs as [|p qs IH]; cbn [instantiate_dataset]; [now apply s_ret|].
  apply s_bind with (P := fun _ => True); [apply s_lift; auto|]. intros q _.
  apply s_bind with (P := fun _ => True); [apply s_emit|]. intros _ _. exact IH.
Qed.

Lemma s_open e n qs : known e -> safe known (open ops e n qs).
Proof.
  intro K. eapply s_bind; [now apply s_env_intro|]. intros e' K'.
  apply s_bind with (P := fun _ => True); [apply s_dataset|]. intros _ _. now apply s_ret.
Qed.

Lemma inst_named e p r : known e -> (forall t, p = PRes t -> exists ref l, reg ref = Some l /\ names l t) ->
  inst RTerm (env_list e) p r -> named r.
Proof.
  intros K H I. destruct I as [t|x r E].
  - intros t' [= <-]. now apply H.
  - eapply Forall_forall; [exact K|]. eapply nth_error_In, E.
Qed.

Lemma s_pattern e p : known e -> (forall t, p = PRes t -> exists ref l, reg ref = Some l /\ names l t) ->
  safe named (lift (instantiate_pattern ops e p)).
Proof. intros K H. apply s_lift. intros r E. apply instantiate_pattern_Ok in E. eapply inst_named; eassumption. Qed.

Section Body.
Variable rec : value -> option res -> term -> list res -> M unit.
Hypothesis Hrec : forall v g ref inputs, Forall named inputs -> safe (fun _ => True) (rec v g ref inputs).

Lemma s_sub_value v g vf e : known e -> (forall t, In (PRes t) (vf_input vf) -> exists ref l, reg ref = Some l /\ names l t) ->
  safe (fun _ => True) (dehydrate_sub_value ops rec v g vf e).
Proof.
  intros K H. unfold dehydrate_sub_value. apply s_bind with (P := Forall named).
  - apply s_lift. intros rs E. apply instantiate_patterns_Ok in E. cbn [into ops input_interpretation] in E. revert H E.
    generalize (vf_input vf). intros ps H E. induction E as [|p r ps rs I E IH]; constructor.
    + eapply inst_named; [exact K| |exact I]. intros t ->. apply H. now left.
    + apply IH. intros t Ht. apply H. now right.
  - intros inputs Hi. apply s_bind with (P := fun _ => True).
    + destruct (vf_graph vf) as [[p|]|]; try now apply s_ret.
      apply s_bind with (P := fun _ => True); [apply s_lift; auto|]. intros r _. now apply s_ret.
    + intros g' _. now apply Hrec.
Qed.

Section At.
Variable ref : term.
Variable l : layout term.
Hypothesis Hl : reg ref = Some l.

Lemma s_variants v g e vs : known e -> (forall va t, In va vs -> In (PRes t) (vf_input (it_value (va_item va))) -> names l t) ->
  forall sel, safe (fun _ => True) (dehydrate_variants ops rec v g e vs sel).
Proof.
  intros K. induction vs as [|va vs IH]; intros H sel; cbn [dehydrate_variants]; [now apply s_ret|].
  eapply s_bind; [now apply s_env_intro|]. intros e' K'. apply s_bind with (P := fun _ => True); [apply s_lift; auto|]. intros d _.
  assert (H' : forall va' t, In va' vs -> In (PRes t) (vf_input (it_value (va_item va'))) -> names l t) by (intros va' t ?; apply H; now right).
  apply s_bind with (P := fun _ => True).
  - eapply s_is_ok, s_sub_value; [exact K'|]. intros t Ht. exists ref, l. split; [exact Hl|]. eapply H; [now left|exact Ht].
  - intros ok _. destruct ok; [|now apply IH]. destruct sel; [apply s_raise|now apply IH].
Qed.

Lemma s_entries g e fs m : known e -> (forall k f t, In (k, f) fs -> In (PRes t) (vf_input (it_value (f_item f))) -> names l t) ->
  safe (fun _ => True) (dehydrate_entries ops rec g e fs m).
Proof.
  intros K H. induction m as [|[k v] m IH]; cbn [dehydrate_entries]; [now apply s_ret|].
  destruct (bt_get k fs) as [f|] eqn:E; [|apply s_raise]. apply bt_get_In in E.
  eapply s_bind; [now apply s_open|]. intros e' K'. apply s_bind with (P := fun _ => True); [|intros _ _; exact IH].
  apply s_sub_value; [exact K'|]. intros t Ht. exists ref, l. split; [exact Hl|]. eapply H; eassumption.
Qed.

Lemma s_check m fs : safe (fun _ => True) (check_required ref m fs).
Proof.
  induction fs as [|[k f] fs IH]; cbn [check_required]; [now apply s_ret|]. destruct (_ && _); [apply s_raise|exact IH].
Qed.

Lemma s_items g e it vs : known e -> (forall t, In (PRes t) (vf_input (it_value it)) -> names l t) ->
  safe (fun _ => True) (dehydrate_items ops rec g e it vs).
Proof.
  intros K H. induction vs as [|v vs IH]; cbn [dehydrate_items]; [now apply s_ret|].
  eapply s_bind; [now apply s_open|]. intros e' K'. apply s_bind with (P := fun _ => True); [|intros _ _; exact IH].
  apply s_sub_value; [exact K'|]. intros t Ht. exists ref, l. split; [exact Hl|auto].
Qed.

Lemma s_nodes g e node tl vs : known e -> (forall t, In (PRes t) (vf_input (it_value node)) -> names l t) -> (forall t, tl = PRes t -> names l t) ->
  forall head, named head -> safe (fun _ => True) (dehydrate_nodes ops rec g e node tl head vs).
Proof.
  intros K H T. induction vs as [|v vs IH]; intros head N; cbn [dehydrate_nodes]; [now apply s_ret|].
  apply s_bind with (P := named).
  { destruct vs; [|apply s_new]. apply s_pattern; [exact K|]. intros t Ht. exists ref, l. split; [exact Hl|auto]. }
  intros rest N'. eapply s_bind.
  { apply s_open. unfold known, env_bind. simpl. apply Forall_app. split; [exact K|]. repeat constructor; assumption. }
  intros e' K'. apply s_bind with (P := fun _ => True); [|intros _ _; now apply IH].
  apply s_sub_value; [exact K'|]. intros t Ht. exists ref, l. split; [exact Hl|auto].
Qed.

Lemma s_tuple g e vs : known e -> forall its, (forall it t, In it its -> In (PRes t) (vf_input (it_value it)) -> names l t) ->
  safe (fun _ => True) (dehydrate_tuple ops rec g e its vs).
Proof.
  intros K. induction vs as [|v vs IH]; intros its H; destruct its as [|it its]; cbn [dehydrate_tuple]; try apply s_raise; [now apply s_ret|].
  eapply s_bind; [now apply s_open|]. intros e' K'. apply s_bind with (P := fun _ => True).
  - apply s_sub_value; [exact K'|]. intros t Ht. exists ref, l. split; [exact Hl|]. eapply H; [now left|exact Ht].
  - intros _ _. apply IH. intros it' t Hit. apply H. now right.
Qed.
End At.

Lemma s_literal ref k h rs dt v m r : reg ref = Some (DataL k h rs dt) -> dehydrate_literal ops k v (RTerm dt) = Some m -> named r ->
  safe (fun _ => True) (bindM m (fun lit => assign_literalM ops r lit)).
Proof.
  intros E D N st. split; [|auto]. unfold bindM. destruct (m st) as [o st1] eqn:EM.
  assert (st1 = st) as ->.
  { revert EM. destruct k, v; simpl in D; try discriminate; injection D as <-.
    - unfold dehydrate_boolean. destruct (existsb _ _); congruence.
    - unfold dehydrate_number. congruence.
    - unfold dehydrate_byte_string, panic. congruence.
    - unfold dehydrate_text_string. destruct (iris_in _ _ _); congruence. }
  destruct o as [lit|e|w|]; try apply leads_refl.
  destruct (literal_Ok k v dt m st lit st D EM) as [_ LF]. destruct st as [i o]. unfold leads, made, assigned in *.
  cbn [assign_literalM input_interpretation assign_literal ds_interp ii_map snd fst] in *.
  assert (G : forall r' t, In t (terms_of r' (ii_map i)) -> In t (terms_of r' (assign_term r (TmLit lit) (ii_map i)))).
  { intros r' t H. apply terms_of_assign. now right. }
  split; [exact G|]. intros MD r' l' H. apply terms_of_assign in H as [[-> [= ->]]|H].
  - split; [exact N|]. exists ref, k, h, rs, dt, v. split; [exact E|]. eapply literal_form_mono; [|exact LF]. intros ty [T|T]; [now left|right; now apply G].
  - destruct (MD _ _ H) as (N' & ref' & k' & h' & rs' & dt' & v' & E' & LF'). split; [exact N'|]. exists ref', k', h', rs', dt', v'.
    split; [exact E'|]. eapply literal_form_mono; [|exact LF']. intros ty [T|T]; [now left|right; now apply G].
Qed.

Lemma s_iri r s : safe (fun _ => True) (assign_iriM (Q := term) ops r s).
Proof.
  intros [i o]. split; [|auto]. unfold leads, made, assigned. cbn [assign_iriM input_interpretation assign_iri ds_interp ii_map snd fst].
  assert (G : forall r' t, In t (terms_of r' (ii_map i)) -> In t (terms_of r' (assign_term r (TmIri s) (ii_map i)))).
  { intros r' t H. apply terms_of_assign. now right. }
  split; [exact G|]. intros MD r' l' H. apply terms_of_assign in H as [[_ [=]]|H].
  destruct (MD _ _ H) as (N' & ref' & k' & h' & rs' & dt' & v' & E' & LF'). split; [exact N'|]. exists ref', k', h', rs', dt', v'.
  split; [exact E'|]. eapply literal_form_mono; [|exact LF']. intros ty [T|T]; [now left|right; now apply G].
Qed.

Lemma s_layout v g ref l inputs : reg ref = Some l -> Forall named inputs -> safe (fun _ => True) (dehydrate_layout ops rec v g ref l inputs).
Proof.
  intros Hl Hi. assert (K : known (Root inputs)) by exact Hi.
  destruct l as [| |h c|k h r dt|h r pat|h fs|h vs|h it|h node hd tl|h its]; cbn [dehydrate_layout].
  - apply s_raise.
  - now apply s_ret.
  - destruct (eqb v c); [|apply s_raise]. eapply s_bind; [now apply s_open|]. intros. now apply s_ret.
  - destruct v as [v|m|vs]; try apply s_raise. destruct (dehydrate_literal ops k v (into ops dt)) as [m|] eqn:E; [|apply s_raise].
    eapply s_bind; [now apply s_open|]. intros e K'. eapply s_bind.
    + apply s_pattern; [exact K'|]. intros t ->. eexists _, _. split; [exact Hl|constructor].
    + intros r' N. eapply s_literal; [exact Hl|exact E|exact N].
  - destruct v as [[| | | |s]|m|vs]; try apply s_raise. eapply s_bind; [now apply s_open|]. intros e K'.
    apply s_bind with (P := fun _ => True); [apply s_lift; auto|]. intros r' _. destruct (is_iri s); [apply s_iri|apply s_raise].
  - destruct v as [v|m|vs]; try apply s_raise. eapply s_bind; [now apply s_open|]. intros e K'.
    apply s_bind with (P := fun _ => True); [|intros _ _; apply s_check].
    eapply s_entries; [exact Hl|exact K'|]. intros. eapply n_field; eassumption.
  - eapply s_bind; [now apply s_open|]. intros e K'. apply s_bind with (P := fun _ => True).
    + eapply s_variants; [exact Hl|exact K'|]. intros. eapply n_variant; eassumption.
    + intros [d|] _; [apply s_emit|apply s_raise].
  - destruct v as [v|m|vs]; try apply s_raise. eapply s_bind; [now apply s_open|]. intros e K'.
    eapply s_items; [exact Hl|exact K'|]. intros. now apply n_item.
  - destruct v as [v|m|vs]; try apply s_raise. eapply s_bind; [now apply s_open|]. intros e K'.
    eapply s_bind; [apply s_pattern; [exact K'|]|].
    + intros t ->. eexists _, _. split; [exact Hl|apply n_head].
    + intros head N. eapply s_nodes; [exact Hl|exact K'| | |exact N]; [intros; now apply n_node|intros t ->; apply n_tail].
  - destruct v as [v|m|vs]; try apply s_raise. eapply s_bind; [now apply s_open|]. intros e K'.
    eapply s_tuple; [exact Hl|exact K'|]. intros. eapply n_sized; eassumption.
Qed.

Lemma s_body v g ref inputs : Forall named inputs -> safe (fun _ => True) (dehydrate_body ops reg rec v g ref inputs).
Proof.
  intro Hi. unfold dehydrate_body. destruct (reg ref) as [l|] eqn:Hl; [|apply s_raise].
  destruct (input_count l) as [n|]; [|now apply s_layout]. destruct (Nat.eqb _ _); [now apply s_layout|apply s_raise].
Qed.
End Body.

Theorem dehydrate_safe fuel : forall v g ref inputs, Forall named inputs -> safe (fun _ => True) (dehydrate_with ops reg fuel v g ref inputs).
Proof. induction fuel as [|fuel IH]; intros v g ref inputs Hi; [apply s_diverge|]. apply s_body; [exact IH|exact Hi]. Qed.
End Run.

(** ** No ambiguity *)
Section Ambiguity.
Context {X : Xsd} {IS : IriSyntax} {Gn : Type}.
Variable reg : registry term.
(** Two facts of the external crate [xsd_types]: [xsd:boolean] is not one of the datatypes of the numbers, and what is printed for a number
    is read as this number. *)
Hypothesis not_decimal : is_decimal_type xsd_boolean = false.
Hypothesis prints : decimals_read_back X.
Hypothesis plain : plain_registry reg.
Hypothesis sorted : registry_sorted reg.
Hypothesis apart : texts_apart reg.
Hypothesis normal : normal_names reg.
Variable order : list (quad res) -> list (quad res).
Hypothesis order_perm : forall l, Permutation (order l) l.
Variable opts : options Gn.

(** A literal of a run is the normal way to write its value. *)
Inductive normal_form : rdf_literal -> Prop :=
| nf_true : normal_form (RdfLiteral "true" (TypeAny xsd_boolean))
| nf_false : normal_form (RdfLiteral "false" (TypeAny xsd_boolean))
| nf_decimal n s ty : is_decimal_type ty = true -> decimal_print n = Some s -> normal_form (RdfLiteral s (TypeAny ty))
| nf_text s ty : ty <> xsd_boolean -> is_decimal_type ty = false -> normal_form (RdfLiteral s (TypeAny ty)).

Lemma normal_form_unique l1 l2 l : normal_form l1 -> normal_form l2 -> normal_literal l1 l -> normal_literal l2 l -> l1 = l2.
Proof.
  assert (P : forall n n' s s' v, decimal_print n = Some s -> decimal_print n' = Some s' -> decimal_parse v = Some n -> decimal_parse v = Some n' -> s = s') by congruence.
  intros F1 F2 N1 N2. inversion N1; subst; inversion N2; subst; try reflexivity; try congruence.
  all: try solve [exfalso; match goal with A : boolean_lexical _ true, B : boolean_lexical _ false |- _ => inversion A; subst; inversion B end].
  all: inversion F1; subst; inversion F2; subst; try reflexivity; try congruence.
  all: try solve [exfalso; match goal with A : boolean_lexical _ _ |- _ => inversion A end].
  all: repeat match goal with A : decimal_print _ = Some _ |- _ => pose proof (prints _ _ A); revert A end; intros; congruence.
Qed.

Lemma run_normal st G th r l : made reg st -> Inv G st th -> assigned st r (TmLit l) -> normal_form l.
Proof.
  intros MD IV A. destruct (MD _ _ A) as (_ & ref & k & h & rs & dt & v & E & LF). inversion LF; subst; try (econstructor; eassumption).
  assert (dt = TmIri ty) as ->.
  { match goal with T : type_iri _ _ _ _ |- _ => destruct T as [T|T]; [exact T|] end.
    apply (iv_asg _ _ _ IV) in H as [H _]. rewrite (iv_term _ _ _ IV) in H. inversion H. reflexivity. }
  destruct (apart _ _ _ _ _ E). now apply nf_text.
Qed.

Theorem C121_no_ambiguity D G fuel fuel' ref inputs tv a b :
  enumerates D G -> hydrate D reg fuel ref inputs = Ok tv ->
  dehydrate order reg fuel' (into_untyped tv) ref opts <> Err (DTermAmbiguity a b).
Proof.
  intros EN HY DE. pose proof (C121_ambiguity reg not_decimal plain sorted order opts D G fuel fuel' ref inputs tv a b EN HY DE) as TS.
  destruct (C09_hydration_sound D G reg fuel None ref inputs EN sorted) as [SND _]. apply SND in HY. clear SND.
  destruct (dehydrate_Err opts reg order fuel' (into_untyped tv) ref _ DE) as [[_ [=]]|[(l & st & El & RUN)|(l & st & a' & b' & El & RUN & [= <- <-] & NE & r & Hb & Ha)]].
  { pose proof (dehydrate_fine input_interpretation reg (fun _ => True) (fun _ => True)
      (fun e => forall a b, e <> DTermAmbiguity a b) (fun _ => True)) as F.
    specialize (F ltac:(auto) ltac:(auto) ltac:(auto) ltac:(discriminate) ltac:(discriminate) ltac:(discriminate)
      ltac:(discriminate) ltac:(discriminate) ltac:(discriminate) ltac:(auto)).
    specialize (F fuel' (into_untyped tv) None ref (map RInput (seq 0 (root_count opts l))) Logic.I Logic.I initial).
    rewrite RUN in F. now apply (F a b). }
  assert (MD : made reg st).
  { destruct (dehydrate_safe reg fuel' (into_untyped tv) None ref (map RInput (seq 0 (root_count opts l)))) with (st := initial) as [[_ L] _].
    - apply Forall_forall. intros x Hx. apply in_map_iff in Hx as (n & <- & _). intros t [=].
    - rewrite RUN in L. apply L. intros r' l' []. }
  set (count := root_count opts l) in *.
  assert (exists th, Inv G st th) as (th & IV).
  { destruct (Nat.eq_dec count (length inputs)) as [EC|NC].
    - destruct (with_step G reg plain sorted fuel' tv None ref (map RInput (seq 0 count)) initial st (start inputs) RUN) as (th & A & IV & _).
      + apply initial_inv. reflexivity.
      + apply inputs_below.
      + rewrite EC, start_inputs. exact HY.
      + exists th. exact IV.
    - exists (start inputs).
      assert (arity l = None) as AN.
      { destruct (arity l) as [n|] eqn:AL; [|reflexivity]. exfalso. apply NC. unfold count, root_count. rewrite <- arity_input_count, AL.
        destruct HY; match goal with H : layout_for _ _ _ _ |- _ => destruct H as [LF AR]; rewrite LF in El; injection El as <-; now rewrite (AR _ AL) end. }
      assert (l = Always) as ->.
      { destruct HY; match goal with H : layout_for _ _ _ _ |- _ => destruct H as [LF AR]; rewrite LF in El; injection El as <- end; try discriminate; reflexivity. }
      assert (st = initial) as ->.
      { destruct fuel'; cbn [dehydrate_with] in RUN; [discriminate|]. unfold dehydrate_body in RUN. rewrite El in RUN. cbn [input_count dehydrate_layout] in RUN.
        apply ret_Ok in RUN as [_ <-]. reflexivity. }
      apply initial_inv. reflexivity. }
  assert (exists la lb, a = TmLit la /\ b = TmLit lb) as (la & lb & -> & ->).
  { destruct TS as (l1 & l2 & _ & _ & [[-> ->]|[-> ->]]); eauto. }
  assert (NB : normal_term (TmLit lb) (th r)) by exact (proj1 (iv_asg _ _ _ IV _ _ Hb)).
  destruct Ha as [->|Ha].
  - rewrite (iv_term _ _ _ IV) in NB. destruct (MD _ _ Hb) as [N _]. destruct (N _ eq_refl) as (ref' & l' & E' & NM).
    apply NE. f_equal. inversion NB; subst; [reflexivity|]. symmetry. eapply normal; eassumption.
  - assert (NA : normal_term (TmLit la) (th r)) by exact (proj1 (iv_asg _ _ _ IV _ _ Ha)).
    pose proof (run_normal _ _ _ _ _ MD IV Ha) as FA. pose proof (run_normal _ _ _ _ _ MD IV Hb) as FB.
    assert (exists lt, th r = TmLit lt /\ normal_literal la lt) as (lt & ET & NA') by (inversion NA; subst; eexists; (split; [reflexivity|]); [constructor|assumption]).
    rewrite ET in NB. apply NE. f_equal. apply (normal_form_unique la lb lt FA FB NA'). inversion NB; subst; [constructor|assumption].
Qed.

(** With the conditions of C120: no error at all. *)
Hypothesis declared : TakenSpec.declared_registry reg.
Hypothesis decided : TakenSpec.decided_sums reg.

Theorem C121_written_back D G fuel fuel' ref inputs tv e :
  enumerates D G -> hydrate D reg fuel ref inputs = Ok tv -> TakenSpec.ids_valid tv ->
  dehydrate order reg fuel' (into_untyped tv) ref opts <> Err e.
Proof.
  intros EN HY V DE. destruct (TakenProperties.C120_public opts reg sorted declared decided order order_perm D G fuel fuel' ref inputs tv e EN HY V DE) as (a & b & ->).
  eapply C121_no_ambiguity; eauto.
Qed.
End Ambiguity.

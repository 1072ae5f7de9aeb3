(** * The names of the nodes play no role in hydration (C97) *)

From Coq Require Import String List Bool Arith NArith Permutation Lia.
Import ListNotations.
From Verif Require Import Base BaseProofs Orders PatternModel MatchingModel MatchingSpec ValueModel LayoutModel LayoutSpec HydrateModel HydrateSpec
  HydrateProofs HydrateProperties TermModel RegistryProperties UndefinedProperties OtherDataProperties.
Open Scope list_scope.
Open Scope nat_scope.

(** ** Specification *)
Section Spec.
Context {R : Type}.

(** The resource [r] is written in the pattern, in the pattern quad. *)
Definition names (p : pattern R) (r : R) : Prop := p = PRes r.
Definition quad_names (p : qpat R) (r : R) : Prop :=
  names (q_s p) r \/ names (q_p p) r \/ names (q_o p) r \/ q_g p = Some (PRes r).

(** The descriptions of sub-values of a layout. *)
Inductive format_of : layout R -> vformat R -> Prop :=
| fo_field h fs k f : In (k, f) fs -> format_of (ProductL h fs) (it_value (f_item f))
| fo_variant h vs va : In va vs -> format_of (SumL h vs) (it_value (va_item va))
| fo_item h it : format_of (UnorderedL h it) (it_value it)
| fo_node h node hd tl : format_of (OrderedL h node hd tl) (it_value node)
| fo_tuple h its it : In it its -> format_of (SizedL h its) (it_value it).

(** The resource [r] is written in a pattern of the layout [l].  (The references to layouts and datatypes do not count.) *)
Inductive mentions : layout R -> R -> Prop :=
| me_quad l p r : pattern_of l p -> quad_names p r -> mentions l r
| me_input l vf p r : format_of l vf -> In p (vf_input vf) -> names p r -> mentions l r
| me_graph l vf r : format_of l vf -> vf_graph vf = Some (Some (PRes r)) -> mentions l r
| me_data k h r d : mentions (DataL k h (PRes r) d) r
| me_id h r pat : mentions (IdL h (PRes r) pat) r
| me_head h node r tl : mentions (OrderedL h node (PRes r) tl) r
| me_tail h node hd r : mentions (OrderedL h node hd (PRes r)) r.

Definition rename_quad (f : R -> R) (q : quad R) : quad R := Quad (f (q_s q)) (f (q_p q)) (f (q_o q)) (option_map f (q_g q)).

(** The resources of an error are renamed, not its references to layouts. *)
Definition rename_fragment (f : R -> R) (x : fragment R) : fragment R :=
  match x with FOrderedListNode ref head tail => FOrderedListNode ref (f head) (f tail) | x => x end.
Definition rename_error (f : R -> R) (e : hy_error R) : hy_error R :=
  match e with
  | DataAmbiguity x => DataAmbiguity (rename_fragment f x)
  | MissingData x => MissingData (rename_fragment f x)
  | e => e
  end.
Definition rename_outcome (f : R -> R) {A} (o : outcome (hy_error R) A) : outcome (hy_error R) A :=
  match o with Err e => Err (rename_error f e) | Ok a => Ok a | Panic w => Panic w | OutOfFuel => OutOfFuel end.

(** A renaming of the resources, which keeps what they mean. *)
Record renaming {I : Interp R} (f h : R -> R) : Prop := {
  rn_back : forall r, h (f r) = r;
  rn_forth : forall r, f (h r) = r;
  rn_iris : forall r, iris_of (f r) = iris_of r;
  rn_literals : forall r, literals_of (f r) = literals_of r
}.

Definition rename_pattern (f : R -> R) (p : pattern R) : pattern R := match p with PRes r => PRes (f r) | PVar x => PVar x end.
Definition rename_qpat (f : R -> R) (p : qpat R) : qpat R :=
  Quad (rename_pattern f (q_s p)) (rename_pattern f (q_p p)) (rename_pattern f (q_o p)) (option_map (rename_pattern f) (q_g p)).

(** The dataset [D] after renaming: to a pattern, it gives the renamed answers to the pattern with the former names. *)
Definition rename_dataset (f h : R -> R) (D : dataset R) : dataset R := fun p => map (rename_quad f) (D (rename_qpat h p)).
End Spec.

Section Rename.
Context {R : Type} {CR : Cmp R} {LR : CmpLaws R} {I : Interp R} {X : Xsd}.
Variables f h : R -> R.
Hypothesis RN : renaming f h.
Variable D : dataset R.
Notation D' := (rename_dataset f h D).
Notation fsubst := (map (option_map f)).
Notation fixed ps := (forall p r, In p ps -> quad_names p r -> f r = r).

Lemma f_inj a b : f a = f b -> a = b.
Proof. intro E. rewrite <- (rn_back _ _ RN a), <- (rn_back _ _ RN b). now rewrite E. Qed.
Lemma f_eqb a b : eqb (f a) (f b) = eqb a b.
Proof. destruct (eqb_spec (f a) (f b)) as [E|N], (eqb_spec a b) as [E'|N']; try reflexivity; [now apply f_inj in E|congruence]. Qed.

Lemma pattern_fixed p : (forall r, names p r -> f r = r) -> rename_pattern f p = p.
Proof. intro H. destruct p as [r|x]; cbn [rename_pattern]; [now rewrite (H r eq_refl)|reflexivity]. Qed.
Lemma qpat_fixed p : (forall r, quad_names p r -> f r = r) -> rename_qpat f p = p.
Proof.
  intro H. destruct p as [a b c d]. unfold rename_qpat, quad_names in *. cbn [q_s q_p q_o q_g] in *. rewrite !pattern_fixed; auto.
  destruct d as [d|]; cbn [option_map]; [|reflexivity]. rewrite pattern_fixed; [reflexivity|]. intros r E. apply H. unfold names in E. subst. auto.
Qed.
Lemma qpat_back p : rename_qpat h (rename_qpat f p) = p.
Proof.
  assert (B : forall x, rename_pattern h (rename_pattern f x) = x) by (intros [r|x]; cbn [rename_pattern]; [now rewrite (rn_back _ _ RN)|reflexivity]).
  destruct p as [a b c [d|]]; unfold rename_qpat; cbn [q_s q_p q_o q_g option_map]; now rewrite !B.
Qed.

(** ** Substitutions *)
Lemma rename_sget s x : sget (fsubst s) x = option_map f (sget s x).
Proof. unfold sget. rewrite nth_error_map. destruct (nth_error s x); reflexivity. Qed.
Lemma rename_papply s p : rename_pattern f p = p -> papply (fsubst s) p = rename_pattern f (papply s p).
Proof. intro E. destruct p as [r|x]; cbn [papply]; [symmetry; exact E|]. rewrite rename_sget. destruct (sget s x); reflexivity. Qed.
Lemma rename_into p : into_resource (rename_pattern f p) = option_map f (into_resource p).
Proof. destruct p; reflexivity. Qed.
Lemma rename_sintro s n : sintro (fsubst s) n = fsubst (sintro s n).
Proof. unfold sintro. rewrite map_app. f_equal. induction n; cbn [repeat map option_map]; congruence. Qed.
Lemma rename_sset s x v : sset (fsubst s) x (Some (f v)) = option_map (fun os => (option_map f (fst os), fsubst (snd os))) (sset s x (Some v)).
Proof.
  revert x. induction s as [|o s IH]; intros [|x]; cbn [map sset option_map fst snd]; try reflexivity.
  rewrite IH. destruct (sset s x (Some v)) as [[old s']|]; reflexivity.
Qed.

Definition rename_found (o : outcome unit (option (subst R))) : outcome unit (option (subst R)) :=
  match o with Ok (Some s) => Ok (Some (fsubst s)) | o => o end.

Lemma rename_component p v s : with_component (rename_pattern f p) (f v) (fsubst s) = rename_found (with_component p v s).
Proof.
  destruct p as [r|x]; cbn [rename_pattern with_component rename_found]; [reflexivity|]. rewrite rename_sset.
  destruct (sset s x (Some v)) as [[[old|] s']|]; cbn [option_map fst snd]; try reflexivity.
  rewrite f_eqb. destruct (eqb old v); reflexivity.
Qed.
Lemma rename_and_then m k k' : (forall s, k' (fsubst s) = rename_found (k s)) -> and_then (rename_found m) k' = rename_found (and_then m k).
Proof. intro H. unfold and_then. destruct m as [[s|]| | |]; cbn [rename_found bind]; auto. Qed.
Lemma rename_with_quad s p q : with_quad (fsubst s) (rename_qpat f p) (rename_quad f q) = rename_found (with_quad s p q).
Proof.
  unfold with_quad. cbn [rename_qpat rename_quad q_s q_p q_o q_g]. rewrite rename_component. apply rename_and_then. intro s1.
  rewrite rename_component. apply rename_and_then. intro s2. rewrite rename_component. apply rename_and_then. intro s3.
  destruct (q_g p) as [[r|x]|]; cbn [option_map rename_pattern rename_found]; try reflexivity.
  destruct (q_g q) as [g|]; cbn [option_map unwrap bind rename_found]; [|reflexivity].
  exact (rename_component (PVar x) g s3).
Qed.

(** ** Matching *)
Definition rename_item (i : item R) : item R := match i with inl w => inl w | inr s => inr (fsubst s) end.

Lemma rename_stream ps : forall s, stream D' (map (rename_qpat f) ps) (fsubst s) = map rename_item (stream D ps s).
Proof.
  induction ps as [|p ps IH]; intro s; cbn [map stream rename_item]; [reflexivity|].
  change (rename_dataset f h D (rename_qpat f p)) with (map (rename_quad f) (D (rename_qpat h (rename_qpat f p)))). rewrite qpat_back. induction (D p) as [|q qs IHq]; cbn [map flat_map]; [reflexivity|].
  rewrite map_app, <- IHq. f_equal. rewrite rename_with_quad.
  destruct (with_quad s p q) as [[s'|]| | |]; cbn [rename_found]; try reflexivity. apply IH.
Qed.

Lemma rename_at_graph g p : (forall r, quad_names p r -> f r = r) -> at_graph (option_map f g) p = rename_qpat f (at_graph g p).
Proof.
  intro H. pose proof (qpat_fixed p H) as E. unfold at_graph. destruct p as [a b c [d|]]; cbn [q_s q_p q_o q_g] in *; [now rewrite E|].
  unfold rename_qpat in *. cbn [q_s q_p q_o q_g option_map] in *. injection E as E1 E2 E3. rewrite E1, E2, E3.
  destruct g; reflexivity.
Qed.
Lemma rename_matching g ps s : fixed ps -> stream D' (with_default_graph (option_map f g) ps) (fsubst s) = map rename_item (stream D (with_default_graph g ps) s).
Proof.
  intro H. rewrite !with_default_graph_at. rewrite <- rename_stream. f_equal. rewrite map_map. apply map_ext_in. intros p Hp.
  apply rename_at_graph. intros r. now apply H.
Qed.

Definition rename_both {A} (k : A -> A) (o : outcome (hy_error R) A) : outcome (hy_error R) A :=
  match o with Ok a => Ok (k a) | Err e => Err (rename_error f e) | Panic w => Panic w | OutOfFuel => OutOfFuel end.

Lemma rename_unique g ps s x : fixed ps ->
  match_unique D' (option_map f g) ps (fsubst s) (rename_fragment f x) = rename_both (option_map (fsubst)) (match_unique D g ps s x).
Proof.
  intro H. unfold match_unique. rewrite rename_matching; [|exact H].
  destruct (stream D (with_default_graph g ps) s) as [|[w|s1] [|[w'|s2] l]]; reflexivity.
Qed.
Lemma rename_required g ps s x : fixed ps ->
  match_required D' (option_map f g) ps (fsubst s) (rename_fragment f x) = rename_both (fsubst) (match_required D g ps s x).
Proof.
  intro H. unfold match_required. rewrite rename_matching; [|exact H].
  destruct (stream D (with_default_graph g ps) s) as [|[w|s1] [|[w'|s2] l]]; reflexivity.
Qed.
Lemma rename_header g ref hd inputs : fixed (h_dataset hd) ->
  match_header D' (option_map f g) ref hd (map f inputs) = rename_both (fsubst) (match_header D g ref hd inputs).
Proof.
  intro H. unfold match_header. rewrite <- (rename_required g _ _ (FDiscriminant ref) H). f_equal.
  rewrite <- rename_sintro. f_equal. unfold from_inputs. now rewrite !map_map.
Qed.

(** ** Sub-values *)
Variable rec rec' : option R -> R -> list R -> outcome (hy_error R) (typed_value R).
Hypothesis recs : forall g r inputs, rec' (option_map f g) r (map f inputs) = rename_outcome f (rec g r inputs).

Definition format_fixed (vf : vformat R) : Prop :=
  (forall p r, In p (vf_input vf) -> names p r -> f r = r) /\ (forall r, vf_graph vf = Some (Some (PRes r)) -> f r = r).

Lemma rename_inputs ps s : (forall p r, In p ps -> names p r -> f r = r) ->
  select_inputs ps (fsubst s) = rename_both (map f) (select_inputs ps s).
Proof.
  unfold select_inputs. induction ps as [|p ps IH]; intro H; cbn [mapM]; [reflexivity|].
  rewrite rename_papply; [|apply pattern_fixed; intros r; apply H; now left]. rewrite rename_into.
  destruct (into_resource (papply s p)) as [r|]; cbn [option_map unwrap bind]; [|reflexivity].
  rewrite IH; [|intros p' r' Hp; apply H; now right]. destruct (mapM (fun p => unwrap "select_inputs" (into_resource (papply s p))) ps); reflexivity.
Qed.
Lemma rename_graph g vg s : (forall r, vg = Some (Some (PRes r)) -> f r = r) ->
  select_graph (option_map f g) vg (fsubst s) = rename_both (option_map f) (select_graph g vg s).
Proof.
  intro H. destruct vg as [[p|]|]; cbn [select_graph rename_both option_map]; try reflexivity.
  rewrite rename_papply; [|apply pattern_fixed; intros r E; apply H; unfold names in E; now subst]. rewrite rename_into.
  destruct (into_resource (papply s p)); reflexivity.
Qed.
Lemma rename_format g vf s : format_fixed vf ->
  hydrate_format rec' (option_map f g) vf (fsubst s) = rename_outcome f (hydrate_format rec g vf s).
Proof.
  intros [H1 H2]. unfold hydrate_format. rewrite rename_inputs; [|exact H1].
  destruct (select_inputs (vf_input vf) s) as [ins|e|w|]; cbn [rename_both rename_outcome bind]; try reflexivity.
  rewrite rename_graph; [|exact H2]. destruct (select_graph g (vf_graph vf) s) as [g'|e|w|]; cbn [rename_both rename_outcome bind]; try reflexivity.
  apply recs.
Qed.

Lemma rename_variants g ref s vs : (forall va, In va vs -> fixed (it_dataset (va_item va)) /\ format_fixed (it_value (va_item va))) -> forall n sel,
  hydrate_variants D' rec' (option_map f g) ref (fsubst s) n vs sel = rename_outcome f (hydrate_variants D rec g ref s n vs sel).
Proof.
  induction vs as [|va vs IH]; intros H n sel; cbn [hydrate_variants]; [reflexivity|].
  assert (IH' := IH (fun va I => H va (or_intror I))). destruct (H va (or_introl eq_refl)) as [H1 H2].
  pose proof (rename_unique g _ s (FVariant ref (va_name va)) H1) as E1. cbn [rename_fragment] in E1. rewrite E1. clear E1.
  destruct (match_unique D g _ s (FVariant ref (va_name va))) as [[s'|]|e|w|]; cbn [rename_both option_map bind rename_outcome]; try reflexivity; [|apply IH'].
  rewrite (rename_format g _ s' H2). destruct (hydrate_format rec g (it_value (va_item va)) s'); cbn [rename_outcome]; try reflexivity; [|apply IH'].
  destruct sel; [reflexivity|apply IH'].
Qed.
Lemma rename_fields g ref s fs : (forall k fd, In (k, fd) fs -> fixed (it_dataset (f_item fd)) /\ format_fixed (it_value (f_item fd))) -> forall record,
  hydrate_fields D' rec' (option_map f g) ref (fsubst s) fs record = rename_outcome f (hydrate_fields D rec g ref s fs record).
Proof.
  induction fs as [|[k fd] fs IH]; intros H record; cbn [hydrate_fields]; [reflexivity|].
  assert (IH' := IH (fun k fd I => H k fd (or_intror I))). destruct (H k fd (or_introl eq_refl)) as [H1 H2].
  rewrite rename_sintro. pose proof (fun s => rename_unique g _ s (FKey ref k) H1) as E1. cbn [rename_fragment] in E1. rewrite E1. clear E1.
  destruct (match_unique D g _ _ (FKey ref k)) as [[s'|]|e|w|]; cbn [rename_both option_map bind rename_outcome]; try reflexivity.
  - rewrite (rename_format g _ s' H2). destruct (hydrate_format rec g (it_value (f_item fd)) s'); cbn [rename_outcome bind]; auto.
  - destruct (f_required fd); [reflexivity|apply IH'].
Qed.
Lemma rename_items g vf ms : format_fixed vf ->
  hydrate_items rec' (option_map f g) vf (map rename_item ms) = rename_outcome f (hydrate_items rec g vf ms).
Proof.
  intro H. induction ms as [|[w|s] ms IH]; cbn [map rename_item hydrate_items]; try reflexivity.
  rewrite (rename_format g vf s H). destruct (hydrate_format rec g vf s); cbn [rename_outcome bind]; try reflexivity.
  rewrite IH. destruct (hydrate_items rec g vf ms); reflexivity.
Qed.
Lemma rename_nodes fuel g ref s node : fixed (it_dataset node) -> format_fixed (it_value node) -> forall head tail,
  hydrate_nodes D' rec' fuel (option_map f g) ref (fsubst s) node (f head) (f tail) = rename_outcome f (hydrate_nodes D rec fuel g ref s node head tail).
Proof.
  intros H1 H2. induction fuel as [|fuel IH]; intros head tail; cbn [hydrate_nodes]; [reflexivity|]. rewrite f_eqb. destruct (eqb head tail); [reflexivity|].
  replace (spush (fsubst s) (Some (f head))) with (fsubst (spush s (Some head))) by (unfold spush; now rewrite map_app).
  rewrite rename_sintro. pose proof (fun s => rename_required g _ s (FOrderedListNode ref head tail) H1) as E1. cbn [rename_fragment] in E1. rewrite E1, map_length. clear E1.
  destruct (match_required D g _ _ (FOrderedListNode ref head tail)) as [s'|e|w|]; cbn [rename_both bind rename_outcome]; try reflexivity.
  rewrite (rename_format g _ s' H2). destruct (hydrate_format rec g (it_value node) s'); cbn [rename_outcome bind]; try reflexivity.
  rewrite rename_sget. destruct (sget s' (length s + 1)) as [next|]; cbn [option_map unwrap bind]; [|reflexivity].
  rewrite IH. destruct (hydrate_nodes D rec fuel g ref s node next tail); reflexivity.
Qed.
Lemma rename_tuple g ref s its : (forall it, In it its -> fixed (it_dataset it) /\ format_fixed (it_value it)) -> forall n,
  hydrate_tuple D' rec' (option_map f g) ref (fsubst s) n its = rename_outcome f (hydrate_tuple D rec g ref s n its).
Proof.
  induction its as [|it its IH]; intros H n; cbn [hydrate_tuple]; [reflexivity|].
  assert (IH' := IH (fun it I => H it (or_intror I))). destruct (H it (or_introl eq_refl)) as [H1 H2].
  rewrite rename_sintro. pose proof (fun s => rename_required g _ s (FSizedListItem ref n) H1) as E1. cbn [rename_fragment] in E1. rewrite E1. clear E1.
  destruct (match_required D g _ _ (FSizedListItem ref n)) as [s'|e|w|]; cbn [rename_both bind rename_outcome]; try reflexivity.
  rewrite (rename_format g _ s' H2). destruct (hydrate_format rec g (it_value it) s'); cbn [rename_outcome bind]; try reflexivity.
  rewrite IH'. destruct (hydrate_tuple D rec g ref s (S n) its); reflexivity.
Qed.
Lemma rename_literal_value k ref v ty : @hydrate_literal_value R _ k ref v ty = rename_outcome f (hydrate_literal_value k ref v ty).
Proof.
  destruct k; cbn [hydrate_literal_value]; unfold hydrate_boolean_value, hydrate_number_value, hydrate_byte_string_value, hydrate_text_string_value;
    try reflexivity.
  - destruct (eqb ty xsd_boolean); [|reflexivity]. destruct (boolean_parse v); reflexivity.
  - destruct (is_decimal_type ty); [|reflexivity]. destruct (decimal_parse v); reflexivity.
Qed.
Lemma rename_literals k ref d ls : forall sel, hydrate_literals k ref d ls sel = rename_outcome f (hydrate_literals k ref d ls sel).
Proof.
  induction ls as [|l ls IH]; intro sel; cbn [hydrate_literals]; [destruct sel; reflexivity|].
  destruct (rl_type l) as [i|]; [|reflexivity]. destruct (existsb (eqb i) (iris_of d)); [|apply IH].
  pose proof (rename_literal_value k ref (rl_value l) i) as E1.
  destruct (hydrate_literal_value k ref (rl_value l) i); cbn [rename_outcome bind] in *; try reflexivity; [|congruence].
  destruct sel; [reflexivity|apply IH].
Qed.

Lemma rename_layout fuel g ref l inputs : (forall r, mentions l r -> f r = r) ->
  hydrate_layout D' rec' fuel (option_map f g) ref l (map f inputs) = rename_outcome f (hydrate_layout D rec fuel g ref l inputs).
Proof.
  intro H.
  assert (FQ : forall p r, pattern_of l p -> quad_names p r -> f r = r) by (intros p r HP HN; apply H; eapply me_quad; eauto).
  assert (FF : forall vf, format_of l vf -> format_fixed vf).
  { intros vf HF. split; [intros p r HP HN; apply H; eapply me_input; eauto|intros r E; apply H; eapply me_graph; eauto]. }
  destruct l; cbn [hydrate_layout]; try reflexivity;
    (rewrite (rename_header g ref h0 inputs); [|intros p r Hp; apply FQ; now constructor]);
    destruct (match_header D g ref h0 inputs) as [s|e|w|]; cbn [rename_both rename_outcome bind]; try reflexivity.
  - rewrite rename_papply; [|apply pattern_fixed; intros r E; unfold names in E; subst; apply H; constructor]. rewrite rename_into.
    destruct (into_resource (papply s resource)) as [r|]; cbn [option_map unwrap bind]; [|reflexivity].
    rewrite (rn_literals _ _ RN). pose proof (rename_literals k ref datatype (literals_of r) None) as E1. destruct (hydrate_literals k ref datatype (literals_of r) None); cbn [rename_outcome bind] in *; congruence.
  - rewrite rename_papply; [|apply pattern_fixed; intros r E; unfold names in E; subst; apply H; constructor]. rewrite rename_into.
    destruct (into_resource (papply s resource)) as [r|]; cbn [option_map unwrap bind]; [|reflexivity].
    rewrite (rn_iris _ _ RN). destruct (iris_of r) as [|i [|]]; reflexivity.
  - rewrite (rename_fields g ref s fields).
    + destruct (hydrate_fields D rec g ref s fields []); reflexivity.
    + intros k fd IN. split; [intros p r Hp; apply FQ; eapply po_field; eauto|apply FF; econstructor; eauto].
  - rewrite (rename_variants g ref s variants).
    + destruct (hydrate_variants D rec g ref s 0 variants None) as [[[i v]|]|e|w|]; reflexivity.
    + intros va IN. split; [intros p r Hp; apply FQ; eapply po_variant; eauto|apply FF; now constructor].
  - rewrite rename_sintro, rename_matching; [|intros p r Hp; apply FQ; now apply po_item].
    rewrite (rename_items g (it_value item)); [|apply FF; constructor].
    destruct (hydrate_items rec g (it_value item) _); reflexivity.
  - rewrite !rename_papply; [|apply pattern_fixed; intros r E; unfold names in E; subst; apply H; constructor ..]. rewrite !rename_into.
    destruct (into_resource (papply s head)) as [hd|]; cbn [option_map unwrap bind]; [|reflexivity].
    destruct (into_resource (papply s tail)) as [tl|]; cbn [option_map unwrap bind]; [|reflexivity].
    rewrite (rename_nodes fuel g ref s node); [|intros p r Hp; apply FQ; now apply po_node|apply FF; constructor].
    destruct (hydrate_nodes D rec fuel g ref s node hd tl); reflexivity.
  - rewrite (rename_tuple g ref s items).
    + destruct (hydrate_tuple D rec g ref s 0 items); reflexivity.
    + intros it IN. split; [intros p r Hp; apply FQ; eapply po_tuple; eauto|apply FF; now constructor].
Qed.
End Rename.

Section Properties.
Context {R : Type} {CR : Cmp R} {LR : CmpLaws R} {I : Interp R} {X : Xsd}.

(** The renaming changes no resource written in the layouts. *)
Definition keeps_layouts (f : R -> R) (reg : registry R) : Prop := forall r l x, reg r = Some l -> mentions l x -> f x = x.

(** C97.  When the resources of the dataset are renamed, hydration from the renamed resources gives the same result: the same value,
    or the same error up to the names, whatever the layouts. *)
Theorem C97_renamed (f h : R -> R) (D : dataset R) (reg : registry R) : renaming f h -> keeps_layouts f reg -> forall fuel g ref inputs,
  hydrate_with (rename_dataset f h D) reg fuel (option_map f g) ref (map f inputs) = rename_outcome f (hydrate_with D reg fuel g ref inputs).
Proof.
  intros RN K. induction fuel as [|fuel IH]; intros g ref inputs; [reflexivity|]. cbn [hydrate_with]. unfold hydrate_body.
  destruct (reg ref) as [l|] eqn:E; [|reflexivity]. cbn [ok_or bind]. rewrite map_length.
  assert (H : hydrate_layout (rename_dataset f h D) (hydrate_with (rename_dataset f h D) reg fuel) fuel (option_map f g) ref l (map f inputs) =
    rename_outcome f (hydrate_layout D (hydrate_with D reg fuel) fuel g ref l inputs)).
  { apply rename_layout; [exact RN|exact IH|]. intros r. now apply (K ref). }
  rewrite H. destruct (input_count l) as [n|]; [|reflexivity]. destruct (Nat.eqb n (length inputs)); reflexivity.
Qed.

Lemma rename_enumerates f h (D : dataset R) (G : quad R -> Prop) : renaming f h -> enumerates D G ->
  enumerates (rename_dataset f h D) (fun q => G (rename_quad h q)).
Proof.
  intros RN EN p. destruct (EN (rename_qpat h p)) as [ND HI]. unfold rename_dataset.
  assert (BF : forall q, rename_quad h (rename_quad f q) = q).
  { intros [a b c [d|]]; unfold rename_quad; cbn [q_s q_p q_o q_g option_map]; now rewrite !(rn_back _ _ RN). }
  assert (FB : forall q, rename_quad f (rename_quad h q) = q).
  { intros [a b c [d|]]; unfold rename_quad; cbn [q_s q_p q_o q_g option_map]; now rewrite !(rn_forth _ _ RN). }
  split.
  - apply FinFun.Injective_map_NoDup; [|exact ND]. intros q q' E. rewrite <- (BF q), <- (BF q'). now rewrite E.
  - intro q. rewrite in_map_iff. transitivity (In (rename_quad h q) (D (rename_qpat h p))).
    { split; [intros (q' & <- & IN); now rewrite BF|intro IN; exists (rename_quad h q); auto]. }
    rewrite HI. apply and_iff_compat_l.
    assert (PI : forall (a b : R -> R) (v : nat -> R) x r, (forall r, b (a r) = r) -> pinst (fun y r => v y = r) x r ->
      pinst (fun y r => a (v y) = r) (rename_pattern a x) (a r)).
    { intros a b v x r AB HP. inversion HP; subst; cbn [rename_pattern]; constructor. reflexivity. }
    assert (PB : forall x, rename_pattern f (rename_pattern h x) = x).
    { intros [r|x]; cbn [rename_pattern]; [now rewrite (rn_forth _ _ RN)|reflexivity]. }
    split; intros (v & S1 & S2 & S3 & S4); destruct p as [a b c d], q as [a' b' c' d']; unfold rename_qpat, rename_quad in *; cbn [q_s q_p q_o q_g] in *.
    + exists (fun x => f (v x)).
      apply (PI f h) in S1; [|apply RN]. apply (PI f h) in S2; [|apply RN]. apply (PI f h) in S3; [|apply RN].
      rewrite PB, (rn_forth _ _ RN) in S1, S2, S3. repeat (split; [assumption|]).
      destruct d as [d|], d' as [d'|]; cbn [option_map] in S4; inversion S4 as [|? ? S5]; subst; constructor.
      apply (PI f h) in S5; [|apply RN]. now rewrite PB, (rn_forth _ _ RN) in S5.
    + exists (fun x => h (v x)).
      apply (PI h f) in S1; [|apply RN]. apply (PI h f) in S2; [|apply RN]. apply (PI h f) in S3; [|apply RN].
      repeat (split; [assumption|]).
      destruct d as [d|], d' as [d'|]; cbn [option_map q_g] in *; inversion S4 as [|? ? S5]; subst; constructor.
      apply (PI h f) in S5; [exact S5|apply RN].
Qed.

(** C97 (two datasets).  When a dataset is another one up to the names of its resources, they never give two different
    values, nor a value and an error (one may panic with sums, as for two enumerations of one dataset: C11) … *)
Theorem C97_agree (f h : R -> R) (D D' : dataset R) (G : quad R -> Prop) (reg : registry R) fuel fuel' g ref inputs v :
  renaming f h -> keeps_layouts f reg ->
  enumerates D G -> enumerates D' (fun q => G (rename_quad h q)) -> registry_sorted reg ->
  hydrate_with D reg fuel g ref inputs = Ok v ->
  (forall v', hydrate_with D' reg fuel' (option_map f g) ref (map f inputs) = Ok v' -> v' = v) /\
  (forall e, hydrate_with D' reg fuel' (option_map f g) ref (map f inputs) <> Err e).
Proof.
  intros RN K EN EN' RS H.
  apply (C11_same_quads_partial (rename_dataset f h D) D' (fun q => G (rename_quad h q)) reg fuel fuel' (option_map f g) ref (map f inputs) v); try assumption.
  - now apply rename_enumerates.
  - now rewrite (C97_renamed f h D reg RN K), H.
Qed.

(** … and without sums they give the same value. *)
Theorem C97_same_no_sum (f h : R -> R) (D D' : dataset R) (G : quad R -> Prop) (reg : registry R) fuel g ref inputs v :
  renaming f h -> keeps_layouts f reg ->
  enumerates D G -> enumerates D' (fun q => G (rename_quad h q)) -> registry_sorted reg -> registry_scoped reg -> no_sum reg ->
  hydrate_with D reg fuel g ref inputs = Ok v ->
  exists N, forall fuel', N <= fuel' -> hydrate_with D' reg fuel' (option_map f g) ref (map f inputs) = Ok v.
Proof.
  intros RN K EN EN' RS SC NS H.
  apply (C11_same_quads_no_sum (rename_dataset f h D) D' (fun q => G (rename_quad h q)) reg fuel); try assumption.
  - now apply rename_enumerates.
  - now rewrite (C97_renamed f h D reg RN K), H.
Qed.
End Properties.

(** ** The blank nodes *)

(** The renaming of the terms given by a renaming of the labels of the blank nodes. *)
Definition relabel (b : string -> string) (t : term) : term := match t with TmBlank i => TmBlank (b i) | t => t end.

Theorem C97_blank_nodes {X : Xsd} (b b' : string -> string) (D : dataset term) (reg : registry term) fuel ref inputs v :
  (forall i, b' (b i) = i) -> (forall i, b (b' i) = i) ->
  (forall r l i, reg r = Some l -> ~ mentions l (TmBlank i)) ->
  hydrate D reg fuel ref inputs = Ok v ->
  hydrate (rename_dataset (relabel b) (relabel b') D) reg fuel ref (map (relabel b) inputs) = Ok v.
Proof.
  intros B1 B2 M H. unfold hydrate in *. pose proof (C97_renamed (relabel b) (relabel b') D reg) as E.
  specialize (E ltac:(split; intros []; cbn [relabel iris_of literals_of interp_term]; congruence)).
  assert (K : keeps_layouts (relabel b) reg) by (intros r l [i|i|i] HR HM; [reflexivity|elim (M r l i HR HM)|reflexivity]).
  specialize (E K fuel None ref inputs). cbn [option_map] in E. now rewrite E, H.
Qed.

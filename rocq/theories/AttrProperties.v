(** * The attributes of the derive macros (C77, C78) *)

From Coq Require Import String Ascii List Bool Arith Lia Permutation.
Import ListNotations.
From Verif Require Import Base BaseProofs Orders PatternModel ValueModel LayoutModel RegexpModel AbsModel AbsJsonModel
  AttrModel AttrSpec AttrProofs.
Open Scope list_scope.
Open Scope nat_scope.

Section Attr.
Context {TS : TextSyntax}.

(** ** Well-formed attributes *)

Lemma set_type_attr_eq name g s r : type_item [TkIdent name; TkGroup g] s -> set_type_attr name g r = apply_type s r.
Proof.
  intros H. destruct r as [base prefixes kd input intro head tail dataset resource datatype].
  inversion H; subst; cbn [set_type_attr];
    repeat match goal with |- context [if String.eqb ?a ?b then _ else _] =>
      let e := eval compute in (String.eqb a b) in change (String.eqb a b) with e end; cbv iota beta;
    try (match goal with P : pattern_text _ _ |- _ => apply parse_pattern_spec in P end);
    try (match goal with P : separated binding_item _ _ |- _ => apply binding_list_spec in P as -> end);
    try (match goal with P : separated string_item _ _ |- _ => apply (parse_list_spec _ _ string_item_token) in P as -> end);
    try (match goal with P : separated quad_item _ _ |- _ => apply (parse_list_spec _ _ quad_item_token) in P as -> end);
    try reflexivity.
  all: unfold parse_compact_iri; cbn [parse_string string_token bind].
  all: match goal with E : is_iri_ref _ = true |- _ => now rewrite E | E : parse_pattern _ = _ |- _ => now rewrite E end.
Qed.

Lemma type_tokens_run ts l : separated type_item ts l -> forall r, type_tokens ts r = apply_all apply_type l r.
Proof.
  assert (forall ts s r, type_item ts s -> forall rest,
    type_tokens (ts ++ rest) r =
    let* r := apply_type s r in
    match rest with [] => Ok r | TkPunct "," :: ts2 => type_tokens ts2 r | t :: _ => Err (UnexpectedToken t) end) as K.
  { intros ts0 s r Hx rest.
    destruct (type_item_shape _ _ Hx) as [(name & k & -> & K & ->)|[(name & g & -> & K & W)|(name & -> & K & W & ->)]];
      cbn [type_tokens app]; rewrite K.
    - now rewrite set_kind_apply.
    - pose proof (proj2 (keyword_spec _ _) W) as ->. now rewrite (set_type_attr_eq _ _ _ _ Hx).
    - rewrite W. now destruct r. }
  intros S. induction S as [|ts x Hx|ts x ts' xs Hx Hxs IH]; intros r.
  - reflexivity.
  - rewrite <- (app_nil_r ts), (K _ _ _ Hx). reflexivity.
  - rewrite (K _ _ _ Hx). cbn [apply_all]. destruct (apply_type x r) as [r1|e|w|]; cbn [bind]; try reflexivity. apply IH.
Qed.

Lemma type_attributes_run attrs l : settings type_item attrs l ->
  forall r, type_attributes attrs r = apply_all apply_type l r.
Proof.
  intros S. induction S as [|a attrs l NE S IH|ts attrs l l' Hl S IH]; intros r; cbn [type_attributes].
  - reflexivity.
  - apply String.eqb_neq in NE as ->. apply IH.
  - change (at_path _) with "tldr"%string. change (at_tokens _) with (Some ts). rewrite String.eqb_refl.
    rewrite apply_all_app, (type_tokens_run _ _ Hl). destruct (apply_all apply_type l r); cbn [bind]; auto.
Qed.

Lemma set_comp_attr_eq name g s r : comp_item [TkIdent name; TkGroup g] s -> set_comp_attr name g r = apply_comp s r.
Proof.
  intros H. destruct r as [head rest intro property dataset input graph].
  inversion H; subst; cbn [set_comp_attr];
    repeat match goal with |- context [if String.eqb ?a ?b then _ else _] =>
      let e := eval compute in (String.eqb a b) in change (String.eqb a b) with e end; cbv iota beta;
    try (match goal with P : separated string_item _ _ |- _ => apply (parse_list_spec _ _ string_item_token) in P as -> end);
    try (match goal with P : separated pattern_item _ _ |- _ => apply (parse_list_spec _ _ pattern_item_token) in P as -> end);
    try (match goal with P : separated quad_item _ _ |- _ => apply (parse_list_spec _ _ quad_item_token) in P as -> end);
    try (match goal with P : graph_arg _ _ |- _ => apply graph_value_spec in P as -> end);
    reflexivity.
Qed.

Lemma comp_tokens_run ts l : separated comp_item ts l -> forall r, comp_tokens ts r = apply_all apply_comp l r.
Proof.
  assert (forall ts s r, comp_item ts s -> forall rest,
    comp_tokens (ts ++ rest) r =
    let* r := apply_comp s r in
    match rest with [] => Ok r | TkPunct "," :: ts2 => comp_tokens ts2 r | t :: _ => Err (UnexpectedToken t) end) as K.
  { intros ts0 s r Hx rest.
    destruct (comp_item_shape _ _ Hx) as [(y & p & -> & K & ->)|[(name & g & -> & W)|(name & -> & W & ->)]];
      cbn [comp_tokens app].
    - now rewrite (set_property_spec _ p).
    - pose proof (proj2 (keyword_spec _ _) W) as ->. now rewrite (set_comp_attr_eq _ _ _ _ Hx).
    - rewrite W. now destruct r. }
  intros S. induction S as [|ts x Hx|ts x ts' xs Hx Hxs IH]; intros r.
  - reflexivity.
  - rewrite <- (app_nil_r ts), (K _ _ _ Hx). reflexivity.
  - rewrite (K _ _ _ Hx). cbn [apply_all]. destruct (apply_comp x r) as [r1|e|w|]; cbn [bind]; try reflexivity. apply IH.
Qed.

Lemma comp_attributes_run attrs l : settings comp_item attrs l ->
  forall r, comp_attributes attrs r = apply_all apply_comp l r.
Proof.
  intros S. induction S as [|a attrs l NE S IH|ts attrs l l' Hl S IH]; intros r; cbn [comp_attributes].
  - reflexivity.
  - apply String.eqb_neq in NE as ->. apply IH.
  - change (at_path _) with "tldr"%string. change (at_tokens _) with (Some ts). rewrite String.eqb_refl.
    rewrite apply_all_app, (comp_tokens_run _ _ Hl). destruct (apply_all apply_comp l r); cbn [bind]; auto.
Qed.

(** Only a conflict is an error then. *)
Lemma replace_conflict {T} (eq : T -> T -> bool) o v e : replace eq o v = Err e -> e = ConflictingValue.
Proof. unfold replace. destruct o as [old|]; [|discriminate]. destruct (eq old v); congruence. Qed.

Lemma apply_conflict {S T} (f : S -> T -> pres T) : (forall s r e, f s r = Err e -> e = ConflictingValue) ->
  forall l r e, apply_all f l r = Err e -> e = ConflictingValue.
Proof.
  intros C. induction l as [|s l IH]; intros r e; cbn [apply_all]; [discriminate|].
  destruct (f s r) as [r'|e'|w|] eqn:E; cbn [bind]; intros H; try discriminate; [eauto|].
  apply C in E. congruence.
Qed.

Lemma type_conflict s r e : apply_type s r = Err e -> e = ConflictingValue.
Proof.
  destruct r, s; cbn [apply_type]; intros H; try discriminate;
    match type of H with (bind (replace ?q ?o ?v) _ = _) => destruct (replace q o v) eqn:E; cbn [bind] in H; try discriminate;
      apply replace_conflict in E; congruence end.
Qed.

Lemma comp_conflict s r e : apply_comp s r = Err e -> e = ConflictingValue.
Proof.
  destruct r, s; cbn [apply_comp]; intros H; try discriminate;
    match type of H with (bind (replace ?q ?o ?v) _ = _) => destruct (replace q o v) eqn:E; cbn [bind] in H; try discriminate;
      apply replace_conflict in E; congruence end.
Qed.

(** ** C77: what the attributes say *)

(** The attributes of a type are read exactly when they follow the grammar and do not contradict each
    other, and the result is what they say. *)
Theorem C77_type attrs r : type_attributes attrs type_attrs_default = Ok r <->
  exists l, settings type_item attrs l /\ type_settings l r.
Proof.
  rewrite type_attributes_spec. split; intros (l & S & A); exists l; (split; [exact S|]).
  - pose proof (apply_all_spec apply_type type_settings type_settings_unique apply_type_step l [] _ type_settings_default) as H.
    rewrite A in H. exact H.
  - pose proof (apply_all_spec apply_type type_settings type_settings_unique apply_type_step l [] _ type_settings_default) as H.
    destruct (apply_all apply_type l type_attrs_default) as [r'|e|w|]; [|now destruct (H r)|contradiction|contradiction].
    f_equal. eapply type_settings_unique; eassumption.
Qed.

(** Likewise for the fields, variants and items. *)
Theorem C77_component attrs r : comp_attributes attrs comp_attrs_default = Ok r <->
  exists l, settings comp_item attrs l /\ comp_settings l r.
Proof.
  rewrite comp_attributes_spec. split; intros (l & S & A); exists l; (split; [exact S|]).
  - pose proof (apply_all_spec apply_comp comp_settings comp_settings_unique apply_comp_step l [] _ comp_settings_default) as H.
    rewrite A in H. exact H.
  - pose proof (apply_all_spec apply_comp comp_settings comp_settings_unique apply_comp_step l [] _ comp_settings_default) as H.
    destruct (apply_all apply_comp l comp_attrs_default) as [r'|e|w|]; [|now destruct (H r)|contradiction|contradiction].
    f_equal. eapply comp_settings_unique; eassumption.
Qed.

(** Contradictory attributes are reported as such. *)
Theorem C77_type_conflict attrs l : settings type_item attrs l -> (forall r, ~ type_settings l r) ->
  type_attributes attrs type_attrs_default = Err ConflictingValue.
Proof.
  intros S C. rewrite (type_attributes_run _ _ S).
  pose proof (apply_all_spec apply_type type_settings type_settings_unique apply_type_step l [] _ type_settings_default) as H.
  destruct (apply_all apply_type l type_attrs_default) as [r'|e|w|] eqn:E; [now destruct (C r')| |contradiction|contradiction].
  now rewrite (apply_conflict _ type_conflict _ _ _ E).
Qed.

Theorem C77_component_conflict attrs l : settings comp_item attrs l -> (forall r, ~ comp_settings l r) ->
  comp_attributes attrs comp_attrs_default = Err ConflictingValue.
Proof.
  intros S C. rewrite (comp_attributes_run _ _ S).
  pose proof (apply_all_spec apply_comp comp_settings comp_settings_unique apply_comp_step l [] _ comp_settings_default) as H.
  destruct (apply_all apply_comp l comp_attrs_default) as [r'|e|w|] eqn:E; [now destruct (C r')| |contradiction|contradiction].
  now rewrite (apply_conflict _ comp_conflict _ _ _ E).
Qed.

(** Neither the order of the attributes, nor their repetition, nor their distribution matters (the
    prefixes excepted: the last binding counts). *)
Lemma slot_same {S V} (mk : V -> S) l l' o : (forall s, In s l <-> In s l') -> slot mk l o -> slot mk l' o.
Proof.
  intros E. destruct o as [v|]; cbn [slot].
  - intros [H H']. split; [now apply E|]. intros v' Hv. apply H'. now apply E.
  - intros H v' Hv. apply (H v'). now apply E.
Qed.

Theorem C77_type_order attrs attrs' l l' r :
  settings type_item attrs l -> settings type_item attrs' l' ->
  (forall s, In s l <-> In s l') -> all_bindings l = all_bindings l' ->
  type_attributes attrs type_attrs_default = Ok r -> type_attributes attrs' type_attrs_default = Ok r.
Proof.
  intros S S' E B H. rewrite (type_attributes_run _ _ S) in H.
  pose proof (apply_all_spec apply_type type_settings type_settings_unique apply_type_step l [] _ type_settings_default) as T.
  rewrite H in T. cbn [app] in T. apply C77_type. exists l'. split; [exact S'|].
  destruct T as (H1 & H2 & H3 & H4 & H5 & H6 & H7 & H8 & H9 & W & H10).
  repeat (split; [eauto using slot_same|]). intros name. now rewrite <- B.
Qed.

Theorem C77_component_order attrs attrs' l l' r :
  settings comp_item attrs l -> settings comp_item attrs' l' -> (forall s, In s l <-> In s l') ->
  comp_attributes attrs comp_attrs_default = Ok r -> comp_attributes attrs' comp_attrs_default = Ok r.
Proof.
  intros S S' E H. rewrite (comp_attributes_run _ _ S) in H.
  pose proof (apply_all_spec apply_comp comp_settings comp_settings_unique apply_comp_step l [] _ comp_settings_default) as T.
  rewrite H in T. cbn [app] in T. apply C77_component. exists l'. split; [exact S'|].
  destruct T as (H1 & H2 & H3 & H4 & H5 & H6 & H7).
  repeat (split; [eauto using slot_same|]). eauto using slot_same.
Qed.

(** ** C78: mistakes *)

(** A word that is not an attribute is reported when an argument follows it. *)
Theorem C78_unknown_argument_partial name g ts attrs r : ~ In name type_words ->
  type_attributes (Attr "tldr" (Some (TkIdent name :: TkGroup g :: ts)) :: attrs) r = Err (UnexpectedToken (TkGroup g)).
Proof.
  intros N. cbn [type_attributes at_path at_tokens type_tokens]. rewrite String.eqb_refl.
  assert (type_item [TkIdent name] SetNothing) as It by now constructor.
  destruct (type_item_shape _ _ It) as [(n' & k & E & K & ?)|[(n' & g' & E & K & W)|(n' & E & K & W & _)]];
    [discriminate|discriminate|]. injection E as <-. now rewrite K, W.
Qed.

Theorem C78_unknown_component_partial name g ts attrs r : ~ In name comp_words ->
  comp_attributes (Attr "tldr" (Some (TkIdent name :: TkGroup g :: ts)) :: attrs) r = Err (UnexpectedToken (TkGroup g)).
Proof.
  intros N. cbn [comp_attributes at_path at_tokens comp_tokens]. rewrite String.eqb_refl.
  assert (comp_item [TkIdent name] SetNoComp) as It by now constructor.
  destruct (comp_item_shape _ _ It) as [(y & p & E & K & ?)|[(n' & g' & E & W)|(n' & E & W & _)]];
    [discriminate|discriminate|]. injection E as <-. now rewrite W.
Qed.

(** The identifier of the layout of a type cannot be given: the attribute is never accepted. *)
Theorem C78_id_refuted s attrs r :
  forall r', type_attributes (Attr "tldr" (Some [TkIdent "id"; TkGroup [TkStr s]]) :: attrs) r <> Ok r'.
Proof.
  intros r'. cbn [type_attributes at_path at_tokens]. rewrite String.eqb_refl. cbn [type_tokens].
  change (kind_from_ident "id") with (Some KdId). cbv beta iota.
  destruct (set_kind KdId r) as [r1|e|w|]; cbn [bind]; discriminate.
Qed.

(** A misspelt word without argument is accepted and changes nothing. *)
Theorem C78_unknown_refuted name attrs r : ~ In name type_words ->
  type_attributes (Attr "tldr" (Some [TkIdent name]) :: attrs) r = type_attributes attrs r.
Proof.
  intros N. cbn [type_attributes at_path at_tokens]. rewrite String.eqb_refl.
  rewrite (type_tokens_run [TkIdent name] [SetNothing]) by (repeat constructor; exact N). now destruct r.
Qed.
End Attr.

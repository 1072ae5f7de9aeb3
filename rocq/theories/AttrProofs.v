(** * Proofs about the attributes of the derive macros *)

From Coq Require Import String Ascii List Bool Arith Lia.
Import ListNotations.
From Verif Require Import Base BaseProofs Orders PatternModel ValueModel LayoutModel RegexpModel AbsModel AbsJsonModel
  VariableModel VariableSpec VariableProofs AttrModel AttrSpec.
Open Scope list_scope.
Open Scope nat_scope.

(** ** Equalities *)

Lemma list_eqb_spec {A} (eq : A -> A -> bool) : (forall a b, eq a b = true <-> a = b) ->
  forall l l', list_eqb eq l l' = true <-> l = l'.
Proof.
  intros E. induction l as [|a l IH]; intros [|b l']; cbn [list_eqb]; try (split; congruence).
  rewrite andb_true_iff, E, IH. split; [intros [-> ->]; reflexivity|intros H; injection H as -> ->; auto].
Qed.

Lemma option_eqb_spec {A} (eq : A -> A -> bool) : (forall a b, eq a b = true <-> a = b) ->
  forall o o', option_eqb eq o o' = true <-> o = o'.
Proof. intros E [a|] [b|]; cbn [option_eqb]; rewrite ?E; split; congruence. Qed.

Lemma apattern_eqb_spec p p' : apattern_eqb p p' = true <-> p = p'.
Proof.
  destruct p as [x|i|v [t|t]], p' as [x'|i'|v' [t'|t']]; cbn [apattern_eqb alit_type_eqb];
    rewrite ?andb_true_iff, ?String.eqb_eq; split; try congruence; try (intros [H ?]; congruence);
    intros H; injection H as <-; subst; auto.
Qed.

Lemma aquad_eqb_spec q q' : aquad_eqb q q' = true <-> q = q'.
Proof.
  destruct q as [s p o g], q' as [s' p' o' g']. unfold aquad_eqb. cbn [q_s q_p q_o q_g].
  rewrite !andb_true_iff, !apattern_eqb_spec, (option_eqb_spec _ apattern_eqb_spec).
  split; [intros [[[-> ->] ->] ->]; reflexivity|intros H; injection H as -> -> -> ->; auto].
Qed.

Lemma agraph_eqb_spec g g' : agraph_eqb g g' = true <-> g = g'.
Proof. apply option_eqb_spec, option_eqb_spec, apattern_eqb_spec. Qed.

Lemma kind_eqb_spec k k' : kind_eqb k k' = true <-> k = k'.
Proof. destruct k, k'; cbn; split; congruence. Qed.

(** ** Commas *)

Lemma bind_iff {E A B} (m : outcome E A) (k : A -> outcome E B) b :
  bind m k = Ok b <-> exists a, m = Ok a /\ k a = Ok b.
Proof. split; [apply bind_Ok|intros (a & -> & H); exact H]. Qed.


Lemma after_comma {A} (a : pres A) (f : list token -> pres A) ts x :
  match ts with
  | [] => a
  | TkPunct "," :: ts2 => f ts2
  | t :: _ => Err (UnexpectedToken t)
  end = Ok x <->
  (ts = [] /\ a = Ok x) \/ (exists ts2, ts = TkPunct "," :: ts2 /\ f ts2 = Ok x).
Proof.
  split.
  - destruct ts as [|[n|c|s|s|g] ts2]; try discriminate; [now left|].
    destruct c as [[] [] [] [] [] [] [] []]; try discriminate. intros H. right. eauto.
  - intros [[-> H]|(ts2 & -> & H)]; exact H.
Qed.

Lemma separated_map {A} (item item' : list token -> A -> Prop) ts l :
  (forall ts x, item ts x -> item' ts x) -> separated item ts l -> separated item' ts l.
Proof. intros H S. induction S; [constructor|constructor|constructor]; auto. Qed.

Lemma parse_list_spec {T} (f : token -> pres T) (item : list token -> T -> Prop) :
  (forall ts v, item ts v <-> exists t, ts = [t] /\ f t = Ok v) ->
  forall ts l, parse_list f ts = Ok l <-> separated item ts l.
Proof.
  intros I ts. remember (length ts) as n eqn:N.
  revert ts N. induction n as [n IH] using lt_wf_ind. intros [|t ts1] N l.
  - cbn [parse_list]. split; [intros H; injection H as <-; constructor|].
    intros S. inversion S as [|ts x Hx|ts x ts' xs Hx]; subst; [reflexivity| |].
    + apply I in Hx as (t & E & _). discriminate.
    + apply I in Hx as (t & -> & _). discriminate.
  - cbn [parse_list]. split.
    + intros H. apply bind_Ok in H as (v & Hv & H).
      apply after_comma in H as [[-> H]|(ts2 & -> & H)].
      * injection H as <-. constructor. apply I. eauto.
      * apply bind_Ok in H as (vs & Hvs & H). injection H as <-.
        apply (Sep_next item [t] v). { apply I. eauto. }
        revert Hvs. apply (IH (length ts2)); [cbn in N; lia|reflexivity].
    + intros S. inversion S as [|ts x Hx|ts x ts' xs Hx Hxs E]; subst.
      * apply I in Hx as (t' & E & Hx). injection E as -> ->. rewrite Hx. reflexivity.
      * apply I in Hx as (t' & -> & Hx). injection E as -> <-. rewrite Hx. cbn [bind].
        apply (IH (length ts')) in Hxs as ->; [reflexivity|cbn; lia|reflexivity].
Qed.

Section Parse.
Context {TS : TextSyntax}.

Lemma string_token_spec t s : string_token t = Ok s <-> t = TkStr s.
Proof. destruct t; cbn; split; congruence. Qed.

Lemma parse_string_spec ts s : parse_string ts = Ok s <-> ts = [TkStr s].
Proof.
  destruct ts as [|t [|t' ts]]; cbn [parse_string]; try (split; discriminate).
  rewrite string_token_spec. split; congruence.
Qed.

Lemma parse_compact_iri_spec ts s : parse_compact_iri ts = Ok s <-> ts = [TkStr s] /\ is_iri_ref s = true.
Proof.
  unfold parse_compact_iri. etransitivity; [apply bind_iff|]. split.
  - intros (x & H & H'). apply parse_string_spec in H as ->. destruct (is_iri_ref x) eqn:E; [|discriminate].
    injection H' as <-. auto.
  - intros [-> E]. exists s. cbn. now rewrite E.
Qed.

Lemma parse_pattern_spec s p : parse_pattern s = Ok p <-> pattern_text s p.
Proof.
  unfold parse_pattern. split.
  - destruct (blank_suffix s) as [x|] eqn:B.
    { destruct (variable_name_new x) as [y|] eqn:V; [|discriminate]. apply variable_name_new_spec in V as [-> V].
      intros H; injection H as <-; now constructor. }
    destruct (is_iri_ref s) eqn:E; [|discriminate]. intros H; injection H as <-. now constructor.
  - intros H. destruct H as [s x B V|s B E]; rewrite B; [|now rewrite E].
    now rewrite (proj2 (variable_name_new_spec x x) (conj eq_refl V)).
Qed.

Lemma parse_pattern_string ts p :
  (let* s := parse_string ts in parse_pattern s) = Ok p <-> pattern_item ts p.
Proof.
  etransitivity; [apply bind_iff|]. split.
  - intros (s & H & H'). apply parse_string_spec in H. apply parse_pattern_spec in H'. exists s. auto.
  - intros (s & -> & H). exists s. split; [reflexivity|]. now apply parse_pattern_spec.
Qed.

Lemma pattern_token_spec t p : pattern_token t = Ok p <-> exists s, t = TkStr s /\ pattern_text s p.
Proof.
  unfold pattern_token. etransitivity; [apply bind_iff|]. split; intros (s & H & H'); exists s.
  - apply string_token_spec in H. now apply parse_pattern_spec in H'.
  - apply string_token_spec in H. now apply parse_pattern_spec in H'.
Qed.

Lemma string_item_token ts s : string_item ts s <-> exists t, ts = [t] /\ string_token t = Ok s.
Proof.
  unfold string_item. split.
  - intros ->. eexists. split; reflexivity.
  - intros (t & -> & H). apply string_token_spec in H as ->. reflexivity.
Qed.

Lemma pattern_item_token ts p : pattern_item ts p <-> exists t, ts = [t] /\ pattern_token t = Ok p.
Proof.
  unfold pattern_item. split.
  - intros (s & -> & H). eexists. split; [reflexivity|]. apply pattern_token_spec. eauto.
  - intros (t & -> & H). apply pattern_token_spec in H as (s & -> & H). eauto.
Qed.

Lemma missing_comma {A} (f : list token -> pres A) ts x :
  match ts with
  | [] => Err MissingToken
  | TkPunct "," :: ts2 => f ts2
  | t :: _ => Err (UnexpectedToken t)
  end = Ok x <-> (exists ts2, ts = TkPunct "," :: ts2 /\ f ts2 = Ok x).
Proof. etransitivity; [apply (after_comma (Err MissingToken))|]. split; [intros [[_ H]|H]; [discriminate|exact H]|now right]. Qed.

Lemma quad_item_token ts q : quad_item ts q <-> exists t, ts = [t] /\ quad_token t = Ok q.
Proof.
  split.
  - intros H. destruct H as [s p o s' p' o' Hs Hp Ho|s p o s' p' o' Hs Hp Ho|s p o g s' p' o' g' ig Hs Hp Ho Hg];
      eexists; (split; [reflexivity|]); cbn [quad_token pattern_token string_token bind];
      apply parse_pattern_spec in Hs as ->; apply parse_pattern_spec in Hp as ->;
      apply parse_pattern_spec in Ho as ->; try (apply parse_pattern_spec in Hg as ->); reflexivity.
  - intros (t & -> & H). destruct t as [n|c|s|s|g]; try discriminate. destruct g as [|t1 r1]; [discriminate|].
    cbn [quad_token] in H. apply bind_Ok in H as (s & Hs & H). apply pattern_token_spec in Hs as (s0 & -> & Hs).
    apply missing_comma in H as (ts2 & -> & H). destruct ts2 as [|t2 r2]; [discriminate|].
    apply bind_Ok in H as (p & Hp & H). apply pattern_token_spec in Hp as (p0 & -> & Hp).
    apply missing_comma in H as (ts3 & -> & H). destruct ts3 as [|t3 r3]; [discriminate|].
    apply bind_Ok in H as (o & Ho & H). apply pattern_token_spec in Ho as (o0 & -> & Ho).
    destruct r3 as [|[n|c|n|n|n] r3]; try discriminate.
    { injection H as <-. now constructor. }
    destruct c as [[] [] [] [] [] [] [] []]; try discriminate.
    destruct r3 as [|t4 r4]. { injection H as <-. now constructor. }
    apply bind_Ok in H as (g & Hg & H). apply pattern_token_spec in Hg as (g0 & -> & Hg).
    injection H as <-. now constructor.
Qed.

Lemma binding_list_spec ts : forall l, parse_binding_list ts = Ok l <-> separated binding_item ts l.
Proof.
  remember (length ts) as n eqn:N. revert ts N. induction n as [n IH] using lt_wf_ind.
  intros [|t ts1] N l.
  - cbn [parse_binding_list]. split; [intros H; injection H as <-; constructor|].
    intros S. inversion S as [|ts x Hx|ts x ts' xs Hx]; subst; [reflexivity|inversion Hx|].
    inversion Hx; subst. discriminate.
  - cbn [parse_binding_list]. split.
    + intros H. apply bind_Ok in H as (v & Hv & H). apply string_token_spec in Hv as ->.
      destruct ts1 as [|[n0|c|n0|n0|n0] ts1]; try discriminate.
      destruct c as [[] [] [] [] [] [] [] []]; try discriminate.
      destruct ts1 as [|t2 ts2]; [discriminate|]. apply bind_Ok in H as (s & Hs & H).
      apply string_token_spec in Hs as ->. destruct (is_iri_ref s) eqn:E; [|discriminate].
      apply after_comma in H as [[-> H]|(ts3 & -> & H)].
      * injection H as <-. constructor. now constructor.
      * apply bind_Ok in H as (vs & Hvs & H). injection H as <-.
        apply (Sep_next binding_item [TkStr v; TkPunct "="; TkStr s] (v, s)). { now constructor. }
        revert Hvs. apply (IH (length ts3)); [cbn in N; lia|reflexivity].
    + intros S. inversion S as [|ts x Hx|ts x ts' xs Hx Hxs E]; subst.
      * inversion Hx; subst. cbn [string_token bind]. match goal with E : is_iri_ref _ = true |- _ => now rewrite E end.
      * inversion Hx; subst. injection E as <- <-. cbn [string_token bind app]. match goal with E : is_iri_ref _ = true |- _ => rewrite E end.
        apply (IH (length ts')) in Hxs as ->; [reflexivity|cbn; lia|reflexivity].
Qed.

Lemma graph_value_spec ts g : parse_graph_value ts = Ok g <-> graph_arg ts g.
Proof.
  split.
  - destruct ts as [|t ts]; [discriminate|]. destruct t as [n|c|n|n|n]; try discriminate. cbn [parse_graph_value].
    destruct (String.eqb_spec n "_") as [->|_].
    { destruct ts; [|discriminate]. intros H; injection H as <-; constructor. }
    destruct (String.eqb_spec n "None") as [->|_].
    { destruct ts; [|discriminate]. intros H; injection H as <-; constructor. }
    destruct (String.eqb_spec n "Some") as [->|_]; [|discriminate].
    destruct ts as [|t ts]; [discriminate|]. destruct t as [n|c|n|n|[|t g0]]; try discriminate.
    intros H. apply bind_Ok in H as (p & Hp & H). apply pattern_token_spec in Hp as (s & -> & Hp).
    injection H as <-. now constructor.
  - intros H. destruct H as [| |s p ig ig' H]; [reflexivity|reflexivity|].
    cbn [parse_graph_value pattern_token string_token bind]. cbn. now apply parse_pattern_spec in H as ->.
Qed.

(** ** Settings of a type *)

(** The effect of a setting. *)
Definition apply_type (s : type_setting) (r : type_attrs) : pres type_attrs :=
  let 'TypeAttrs base prefixes kind input intro head tail dataset resource datatype := r in
  match s with
  | SetKind k =>
      let* kind := replace kind_eqb kind k in
      Ok (TypeAttrs base prefixes kind input intro head tail dataset resource datatype)
  | SetBase v =>
      let* base := replace String.eqb base v in
      Ok (TypeAttrs base prefixes kind input intro head tail dataset resource datatype)
  | SetPrefixes l =>
      Ok (TypeAttrs base (fold_left (fun m b => bt_insert (fst b) (snd b) m) l prefixes)
            kind input intro head tail dataset resource datatype)
  | SetHead v =>
      let* head := replace apattern_eqb head v in
      Ok (TypeAttrs base prefixes kind input intro head tail dataset resource datatype)
  | SetTail v =>
      let* tail := replace apattern_eqb tail v in
      Ok (TypeAttrs base prefixes kind input intro head tail dataset resource datatype)
  | SetResource v =>
      let* resource := replace apattern_eqb resource v in
      Ok (TypeAttrs base prefixes kind input intro head tail dataset resource datatype)
  | SetDatatype v =>
      let* datatype := replace String.eqb datatype v in
      Ok (TypeAttrs base prefixes kind input intro head tail dataset resource datatype)
  | SetInput v =>
      let* input := replace (list_eqb String.eqb) input v in
      Ok (TypeAttrs base prefixes kind input intro head tail dataset resource datatype)
  | SetIntro v =>
      let* intro := replace (list_eqb String.eqb) intro v in
      Ok (TypeAttrs base prefixes kind input intro head tail dataset resource datatype)
  | SetDataset v =>
      let* dataset := replace (list_eqb aquad_eqb) dataset v in
      Ok (TypeAttrs base prefixes kind input intro head tail dataset resource datatype)
  | SetNothing => Ok r
  end.

Fixpoint apply_all {S T} (f : S -> T -> pres T) (l : list S) (r : T) : pres T :=
  match l with
  | [] => Ok r
  | s :: l' => let* r := f s r in apply_all f l' r
  end.

Lemma apply_all_app {S T} (f : S -> T -> pres T) l l' : forall r,
  apply_all f (l ++ l') r = let* r := apply_all f l r in apply_all f l' r.
Proof.
  induction l as [|s l IH]; intros r; cbn [app apply_all]; [reflexivity|].
  destruct (f s r) as [r'|e|w|]; cbn [bind]; auto.
Qed.

Lemma kind_from_ident_spec name k : kind_from_ident name = Some k <-> kind_of name k.
Proof.
  unfold kind_from_ident, kind_names. cbn [hm_get].
  repeat match goal with |- context [String.eqb name ?s] => destruct (String.eqb_spec name s) as [->|?] end.
  all: destruct k; cbn [kind_of]; split; intros H; try discriminate; try reflexivity; try congruence.
Qed.

Lemma keyword_spec name l : is_keyword name l = true <-> In name l.
Proof.
  unfold is_keyword. rewrite existsb_exists. split.
  - intros (x & H & E). apply String.eqb_eq in E as ->. exact H.
  - intros H. exists name. split; [exact H|apply String.eqb_refl].
Qed.

(** An item and its argument. *)
Lemma set_type_attr_spec name g r r' : In name type_keywords ->
  (set_type_attr name g r = Ok r' <-> exists s, type_item [TkIdent name; TkGroup g] s /\ apply_type s r = Ok r').
Proof.
  destruct r as [base prefixes kd input intro head tail dataset resource datatype].
  intros K. unfold type_keywords in K. cbn [In] in K.
  destruct K as [<-|[<-|[<-|[<-|[<-|[<-|[<-|[<-|[<-|[]]]]]]]]]]; cbn [set_type_attr];
    repeat match goal with |- context [if String.eqb ?a ?b then _ else _] =>
      let e := eval compute in (String.eqb a b) in change (String.eqb a b) with e end; cbv iota beta.
  - (* base *) etransitivity; [apply bind_iff|]. split.
    + intros (v & Hv & H). apply parse_compact_iri_spec in Hv as [-> E]. exists (SetBase v). split; [now constructor|exact H].
    + intros (s & Hs & H). inversion Hs; subst. exists s0. split; [now apply parse_compact_iri_spec|exact H].
  - (* prefix *) etransitivity; [apply bind_iff|]. split.
    + intros (v & Hv & H). apply binding_list_spec in Hv. exists (SetPrefixes v). split; [now constructor|exact H].
    + intros (s & Hs & H). inversion Hs; subst. exists l. split; [now apply binding_list_spec|exact H].
  - (* head *) etransitivity; [apply bind_iff|]. split.
    + intros (x & Hx & H). apply bind_Ok in H as (v & Hv & H). apply parse_string_spec in Hx as ->. apply parse_pattern_spec in Hv.
      exists (SetHead v). split; [now constructor|exact H].
    + intros (s & Hs & H). inversion Hs; subst. exists s0. split; [now apply parse_string_spec|].
      match goal with P : pattern_text _ _ |- _ => apply parse_pattern_spec in P as -> end. exact H.
  - (* tail *) etransitivity; [apply bind_iff|]. split.
    + intros (x & Hx & H). apply bind_Ok in H as (v & Hv & H). apply parse_string_spec in Hx as ->. apply parse_pattern_spec in Hv.
      exists (SetTail v). split; [now constructor|exact H].
    + intros (s & Hs & H). inversion Hs; subst. exists s0. split; [now apply parse_string_spec|].
      match goal with P : pattern_text _ _ |- _ => apply parse_pattern_spec in P as -> end. exact H.
  - (* resource *) etransitivity; [apply bind_iff|]. split.
    + intros (x & Hx & H). apply bind_Ok in H as (v & Hv & H). apply parse_string_spec in Hx as ->. apply parse_pattern_spec in Hv.
      exists (SetResource v). split; [now constructor|exact H].
    + intros (s & Hs & H). inversion Hs; subst. exists s0. split; [now apply parse_string_spec|].
      match goal with P : pattern_text _ _ |- _ => apply parse_pattern_spec in P as -> end. exact H.
  - (* datatype *) etransitivity; [apply bind_iff|]. split.
    + intros (v & Hv & H). apply parse_compact_iri_spec in Hv as [-> E]. exists (SetDatatype v). split; [now constructor|exact H].
    + intros (s & Hs & H). inversion Hs; subst. exists s0. split; [now apply parse_compact_iri_spec|exact H].
  - (* input *) etransitivity; [apply bind_iff|]. split.
    + intros (v & Hv & H). apply (parse_list_spec _ _ string_item_token) in Hv. exists (SetInput v). split; [now constructor|exact H].
    + intros (s & Hs & H). inversion Hs; subst. exists l. split; [now apply (parse_list_spec _ _ string_item_token)|exact H].
  - (* intro *) etransitivity; [apply bind_iff|]. split.
    + intros (v & Hv & H). apply (parse_list_spec _ _ string_item_token) in Hv. exists (SetIntro v). split; [now constructor|exact H].
    + intros (s & Hs & H). inversion Hs; subst. exists l. split; [now apply (parse_list_spec _ _ string_item_token)|exact H].
  - (* dataset *) etransitivity; [apply bind_iff|]. split.
    + intros (v & Hv & H). apply (parse_list_spec _ _ quad_item_token) in Hv. exists (SetDataset v). split; [now constructor|exact H].
    + intros (s & Hs & H). inversion Hs; subst. exists l. split; [now apply (parse_list_spec _ _ quad_item_token)|exact H].
Qed.

(** The shapes of an item. *)
Lemma type_item_shape ts s : type_item ts s ->
  (exists name k, ts = [TkIdent name] /\ kind_from_ident name = Some k /\ s = SetKind k) \/
  (exists name g, ts = [TkIdent name; TkGroup g] /\ kind_from_ident name = None /\ In name type_keywords) \/
  (exists name, ts = [TkIdent name] /\ kind_from_ident name = None /\ is_keyword name type_keywords = false /\ s = SetNothing).
Proof.
  intros H. destruct H as [name k H| | | | | | | | | |name H].
  - left. exists name, k. rewrite kind_from_ident_spec. auto.
  - right; left. do 2 eexists; repeat split; cbn; tauto.
  - right; left. do 2 eexists; repeat split; cbn; tauto.
  - right; left. do 2 eexists; repeat split; cbn; tauto.
  - right; left. do 2 eexists; repeat split; cbn; tauto.
  - right; left. do 2 eexists; repeat split; cbn; tauto.
  - right; left. do 2 eexists; repeat split; cbn; tauto.
  - right; left. do 2 eexists; repeat split; cbn; tauto.
  - right; left. do 2 eexists; repeat split; cbn; tauto.
  - right; left. do 2 eexists; repeat split; cbn; tauto.
  - right; right. exists name. repeat split.
    + destruct (kind_from_ident name) as [k|] eqn:K; [|reflexivity]. apply kind_from_ident_spec in K.
      exfalso. apply H. destruct k; cbn [kind_of] in K; subst name; cbn; tauto.
    + destruct (is_keyword name type_keywords) eqn:K; [|reflexivity]. apply keyword_spec in K.
      exfalso. apply H. cbn in K |- *. tauto.
Qed.

Lemma set_kind_apply k r : set_kind k r = apply_type (SetKind k) r.
Proof. now destruct r. Qed.

Lemma type_tokens_spec ts : forall r r',
  type_tokens ts r = Ok r' <-> exists l, separated type_item ts l /\ apply_all apply_type l r = Ok r'.
Proof.
  remember (length ts) as n eqn:N. revert ts N. induction n as [n IH] using lt_wf_ind.
  assert (forall ts2, length ts2 < n -> forall r r', type_tokens ts2 r = Ok r' ->
    exists l, separated type_item ts2 l /\ apply_all apply_type l r = Ok r') as IH1.
  { intros ts2 L r r' H. now apply (IH (length ts2) L ts2 eq_refl) in H. }
  assert (forall ts2, length ts2 < n -> forall l r r', separated type_item ts2 l -> apply_all apply_type l r = Ok r' ->
    type_tokens ts2 r = Ok r') as IH2.
  { intros ts2 L l r r' H A. apply (IH (length ts2) L ts2 eq_refl). eauto. }
  clear IH. intros ts N r r'. split.
  - destruct ts as [|t ts1].
    { intros H. injection H as <-. exists []. split; [constructor|reflexivity]. }
    destruct t as [name|c|s|s|g]; try discriminate. cbn [type_tokens].
    destruct (kind_from_ident name) as [k|] eqn:K.
    + intros H. apply bind_Ok in H as (r1 & H1 & H). rewrite set_kind_apply in H1.
      assert (type_item [TkIdent name] (SetKind k)) as It by (constructor; now apply kind_from_ident_spec).
      apply after_comma in H as [[-> H]|(ts2 & -> & H)].
      * injection H as <-. exists [SetKind k]. split; [now constructor|]. cbn [apply_all]. now rewrite H1.
      * apply IH1 in H as (l & Hl & H); [|cbn in N; lia]. exists (SetKind k :: l). split.
        { now apply (Sep_next type_item [TkIdent name]). } cbn [apply_all]. now rewrite H1.
    + destruct (is_keyword name type_keywords) eqn:W.
      * apply keyword_spec in W. destruct ts1 as [|t ts2]; [discriminate|]. destruct t as [nn|c|s|s|g]; try discriminate.
        intros H. apply bind_Ok in H as (r1 & H1 & H). apply set_type_attr_spec in H1 as (s & It & H1); [|exact W].
        apply after_comma in H as [[-> H]|(ts3 & -> & H)].
        { injection H as <-. exists [s]. split; [now constructor|]. cbn [apply_all]. now rewrite H1. }
        apply IH1 in H as (l & Hl & H); [|cbn in N; lia]. exists (s :: l). split.
        { now apply (Sep_next type_item [TkIdent name; TkGroup g]). } cbn [apply_all]. now rewrite H1.
      * assert (type_item [TkIdent name] SetNothing) as It.
        { constructor. intros HI.
          assert (In name (map fst kind_names ++ type_keywords)) as HI' by exact HI. apply in_app_iff in HI' as [HK|HK].
          - apply in_map_iff in HK as ([nm k] & E & HK). cbn [fst] in E. subst nm.
            assert (kind_from_ident name = Some k) as E; [|congruence]. apply kind_from_ident_spec.
            cbn in HK. repeat (destruct HK as [HK|HK]; [injection HK as <- <-; reflexivity|]). destruct HK.
          - apply keyword_spec in HK. congruence. }
        intros H. apply after_comma in H as [[-> H]|(ts2 & -> & H)].
        { injection H as <-. exists [SetNothing]. split; [now constructor|]. cbn [apply_all apply_type]. now destruct r. }
        apply IH1 in H as (l & Hl & H); [|cbn in N; lia]. exists (SetNothing :: l). split.
        { now apply (Sep_next type_item [TkIdent name]). } cbn [apply_all apply_type]. now destruct r.
  - intros (l & S & A). inversion S as [|ts0 x Hx|ts0 x ts' xs Hx Hxs]; subst.
    + exact A.
    + cbn [apply_all] in A. apply bind_Ok in A as (r1 & A1 & A). injection A as <-.
      destruct (type_item_shape _ _ Hx) as [(name & k & -> & K & ->)|[(name & g & -> & K & W)|(name & -> & K & W & ->)]];
        cbn [type_tokens]; rewrite K.
      * now rewrite set_kind_apply, A1.
      * pose proof (proj2 (keyword_spec _ _) W) as ->.
        assert (set_type_attr name g r = Ok r1) as ->; [|reflexivity]. apply set_type_attr_spec; [exact W|]. eauto.
      * rewrite W. destruct r; cbn in A1; injection A1 as <-. reflexivity.
    + cbn [apply_all] in A. apply bind_Ok in A as (r1 & A1 & A).
      destruct (type_item_shape _ _ Hx) as [(name & k & -> & K & ->)|[(name & g & -> & K & W)|(name & -> & K & W & ->)]];
        cbn [type_tokens app]; rewrite K.
      * rewrite set_kind_apply, A1. cbn [bind]. eapply IH2; [cbn; lia|eassumption..].
      * pose proof (proj2 (keyword_spec _ _) W) as ->.
        assert (set_type_attr name g r = Ok r1) as ->. { apply set_type_attr_spec; [exact W|]. eauto. }
        cbn [bind]. eapply IH2; [cbn; lia|eassumption..].
      * rewrite W. assert (r1 = r) as ->. { destruct r; cbn in A1; now injection A1 as <-. }
        eapply IH2; [cbn; lia|eassumption..].
Qed.

Lemma type_attributes_spec attrs : forall r r',
  type_attributes attrs r = Ok r' <-> exists l, settings type_item attrs l /\ apply_all apply_type l r = Ok r'.
Proof.
  induction attrs as [|a attrs IH]; intros r r'; cbn [type_attributes].
  - split.
    + intros H. injection H as <-. exists []. split; [constructor|reflexivity].
    + intros (l & S & A). inversion S; subst. exact A.
  - destruct (String.eqb_spec (at_path a) "tldr") as [E|E].
    + destruct a as [path [ts|]]; cbn [at_path at_tokens] in *; subst path.
      * etransitivity; [apply bind_iff|]. split.
        { intros (r1 & H1 & H). apply type_tokens_spec in H1 as (l & Hl & A). apply IH in H as (l' & Hl' & A').
          exists (l ++ l'). split; [now constructor|]. now rewrite apply_all_app, A. }
        { intros (l & S & A). inversion S as [|a' ? ? NE|ts' ? l1 l2 Hl Hl2]; subst; [now cbn in NE|].
          rewrite apply_all_app in A. apply bind_Ok in A as (r1 & A1 & A). exists r1. split.
          - apply type_tokens_spec. eauto.
          - apply IH. eauto. }
      * split; [discriminate|]. intros (l & S & A). inversion S as [|a' ? ? NE|]; subst. now cbn in NE.
    + rewrite IH. split.
      * intros (l & S & A). exists l. split; [now constructor|exact A].
      * intros (l & S & A). inversion S; subst; [eauto|]. now cbn in E.
Qed.

(** ** What the settings add up to *)

Lemma slot_unique {S V} (mk : V -> S) l o o' : slot mk l o -> slot mk l o' -> o = o'.
Proof.
  destruct o as [v|], o' as [v'|]; cbn [slot]; intros H H'; try reflexivity.
  - destruct H as [H _], H' as [_ H']. now rewrite (H' _ H).
  - destruct H as [H _]. now destruct (H' _ H).
  - destruct H' as [H' _]. now destruct (H _ H').
Qed.

Lemma slot_other {S V} (mk : V -> S) l o s : (forall v, s <> mk v) -> slot mk (l ++ [s]) o <-> slot mk l o.
Proof.
  intros N.
  assert (forall v, In (mk v) (l ++ [s]) <-> In (mk v) l) as E.
  { intros v. rewrite in_app_iff. cbn. split; [|tauto]. intros [H|[H|[]]]; [exact H|]. now destruct (N v). }
  destruct o as [v|]; cbn [slot].
  - rewrite E. split; intros [H H']; (split; [exact H|]); intros v' Hv'; apply H'; now apply E.
  - split; intros H v' Hv'; apply (H v'); now apply E.
Qed.

Lemma slot_replace {S V} (mk : V -> S) (eq : V -> V -> bool) l o v :
  (forall a b, eq a b = true <-> a = b) -> (forall a b, mk a = mk b -> a = b) -> slot mk l o ->
  match replace eq o v with
  | Ok o' => o' = Some v /\ slot mk (l ++ [mk v]) o'
  | Err _ => forall l' o', ~ slot mk (l ++ mk v :: l') o'
  | _ => False
  end.
Proof.
  intros EQ INJ SL. unfold replace. destruct o as [old|]; cbn [slot] in SL.
  - destruct (eq old v) eqn:E.
    + apply EQ in E as ->. split; [reflexivity|]. cbn [slot]. split.
      * apply in_app_iff. cbn. auto.
      * intros v' H. apply in_app_iff in H as [H|[H|[]]]; [now apply SL|symmetry; now apply INJ].
    + intros l' [v'|]; cbn [slot].
      * intros [_ H]. assert (old <> v) as NE by (intros ->; assert (eq v v = true) by (now apply EQ); congruence).
        apply NE. rewrite (H old), (H v); [reflexivity|apply in_app_iff; cbn; auto|apply in_app_iff; cbn; tauto].
      * intros H. apply (H v). apply in_app_iff. cbn. auto.
  - split; [reflexivity|]. cbn [slot]. split.
    + apply in_app_iff. cbn. auto.
    + intros v' H. apply in_app_iff in H as [H|[H|[]]]; [now destruct (SL v')|symmetry; now apply INJ].
Qed.

Lemma type_settings_unique l r r' : type_settings l r -> type_settings l r' -> r = r'.
Proof.
  destruct r as [a1 a2 a3 a4 a5 a6 a7 a8 a9 a10], r' as [b1 b2 b3 b4 b5 b6 b7 b8 b9 b10].
  unfold type_settings. cbn [ta_kind ta_base ta_head ta_tail ta_resource ta_datatype ta_input ta_intro ta_dataset ta_prefixes].
  intros (H1 & H2 & H3 & H4 & H5 & H6 & H7 & H8 & H9 & W & H10) (G1 & G2 & G3 & G4 & G5 & G6 & G7 & G8 & G9 & W' & G10).
  assert (a2 = b2) as <-. { apply bt_ext; [exact W|exact W'|]. intros k. now rewrite H10, G10. }
  f_equal; eauto using slot_unique.
Qed.

Lemma last_binding_app name l : forall l' o,
  fold_left (fun o b => if String.eqb (fst b) name then Some (snd b) else o) (l ++ l') o =
  fold_left (fun o b => if String.eqb (fst b) name then Some (snd b) else o) l'
    (fold_left (fun (o : option compact_iri) b => if String.eqb (fst b) name then Some (snd b) else o) l o).
Proof. intros. apply fold_left_app. Qed.

Lemma fold_insert_bindings (l : list (string * compact_iri)) : forall m, bt_wf m ->
  bt_wf (fold_left (fun m b => bt_insert (fst b) (snd b) m) l m) /\
  forall name, bt_get name (fold_left (fun m b => bt_insert (fst b) (snd b) m) l m) =
    fold_left (fun o b => if String.eqb (fst b) name then Some (snd b) else o) l (bt_get name m).
Proof.
  induction l as [|[k v] l IH]; intros m W; cbn [fold_left fst snd]; [auto|].
  destruct (IH (bt_insert k v m)) as [W' H']; [now apply bt_insert_wf|]. split; [exact W'|].
  intros name. rewrite H'. f_equal. destruct (String.eqb_spec k name) as [->|NE].
  - now rewrite bt_insert_get, eqb_refl.
  - rewrite bt_insert_get. destruct (eqb_spec name k); [congruence|reflexivity].
Qed.

Lemma all_bindings_app l l' : all_bindings (l ++ l') = all_bindings l ++ all_bindings l'.
Proof. apply flat_map_app. Qed.

Ltac other := apply slot_other; [intros ? ?; discriminate|assumption].
Ltac same_bindings := rewrite all_bindings_app, app_nil_r; assumption.

Lemma apply_type_step s l r : type_settings l r ->
  match apply_type s r with
  | Ok r' => type_settings (l ++ [s]) r'
  | Err _ => forall l' r', ~ type_settings (l ++ s :: l') r'
  | _ => False
  end.
Proof.
  destruct r as [base prefixes kd input intro head tail dataset resource datatype].
  unfold type_settings. cbn [ta_kind ta_base ta_head ta_tail ta_resource ta_datatype ta_input ta_intro ta_dataset ta_prefixes].
  intros (H1 & H2 & H3 & H4 & H5 & H6 & H7 & H8 & H9 & W & H10).
  unfold compact_iri in *.
  destruct s as [k|v|b|v|v|v|v|v|v|v|]; cbn [apply_type]; unfold compact_iri in *.
  - pose proof (slot_replace SetKind kind_eqb l kd k kind_eqb_spec ltac:(congruence) H1) as R.
    destruct (replace kind_eqb kd k) as [o|e|w|]; cbn [bind]; [|intros l' r' (G & _); eapply R, G|exact R|exact R].
    destruct R as [_ R]. cbn. repeat split; try other; try assumption. same_bindings.
  - pose proof (slot_replace SetBase String.eqb l base v String.eqb_eq ltac:(congruence) H2) as R. unfold compact_iri in R.
    destruct (replace String.eqb base v) as [o|e|w|]; cbn [bind]; [|intros l' r' G; eapply R, (proj1 (proj2 G))|exact R|exact R].
    destruct R as [_ R]. cbn. repeat split; try other; try assumption. same_bindings.
  - destruct (fold_insert_bindings b prefixes W) as [W' B].
    cbn. repeat split; try other; try assumption.
    intros name. rewrite B, H10, all_bindings_app. unfold last_binding. rewrite last_binding_app. cbn. now rewrite app_nil_r.
  - pose proof (slot_replace SetHead apattern_eqb l head v apattern_eqb_spec ltac:(congruence) H3) as R.
    destruct (replace apattern_eqb head v) as [o|e|w|]; cbn [bind]; [|intros l' r' G; eapply R, (proj1 (proj2 (proj2 G)))|exact R|exact R].
    destruct R as [_ R]. cbn. repeat split; try other; try assumption. same_bindings.
  - pose proof (slot_replace SetTail apattern_eqb l tail v apattern_eqb_spec ltac:(congruence) H4) as R.
    destruct (replace apattern_eqb tail v) as [o|e|w|]; cbn [bind]; [|intros l' r' G; eapply R, (proj1 (proj2 (proj2 (proj2 G))))|exact R|exact R].
    destruct R as [_ R]. cbn. repeat split; try other; try assumption. same_bindings.
  - pose proof (slot_replace SetResource apattern_eqb l resource v apattern_eqb_spec ltac:(congruence) H5) as R.
    destruct (replace apattern_eqb resource v) as [o|e|w|]; cbn [bind]; [|intros l' r' G; eapply R, (proj1 (proj2 (proj2 (proj2 (proj2 G)))))|exact R|exact R].
    destruct R as [_ R]. cbn. repeat split; try other; try assumption. same_bindings.
  - pose proof (slot_replace SetDatatype String.eqb l datatype v String.eqb_eq ltac:(congruence) H6) as R. unfold compact_iri in R.
    destruct (replace String.eqb datatype v) as [o|e|w|]; cbn [bind]; [|intros l' r' G; eapply R, (proj1 (proj2 (proj2 (proj2 (proj2 (proj2 G))))))|exact R|exact R].
    destruct R as [_ R]. cbn. repeat split; try other; try assumption. same_bindings.
  - pose proof (slot_replace SetInput (list_eqb String.eqb) l input v (list_eqb_spec _ String.eqb_eq) ltac:(congruence) H7) as R.
    destruct (replace (list_eqb String.eqb) input v) as [o|e|w|]; cbn [bind]; [|intros l' r' G; eapply R, (proj1 (proj2 (proj2 (proj2 (proj2 (proj2 (proj2 G)))))))|exact R|exact R].
    destruct R as [_ R]. cbn. repeat split; try other; try assumption. same_bindings.
  - pose proof (slot_replace SetIntro (list_eqb String.eqb) l intro v (list_eqb_spec _ String.eqb_eq) ltac:(congruence) H8) as R.
    destruct (replace (list_eqb String.eqb) intro v) as [o|e|w|]; cbn [bind]; [|intros l' r' G; eapply R, (proj1 (proj2 (proj2 (proj2 (proj2 (proj2 (proj2 (proj2 G))))))))|exact R|exact R].
    destruct R as [_ R]. cbn. repeat split; try other; try assumption. same_bindings.
  - pose proof (slot_replace SetDataset (list_eqb aquad_eqb) l dataset v (list_eqb_spec _ aquad_eqb_spec) ltac:(congruence) H9) as R.
    destruct (replace (list_eqb aquad_eqb) dataset v) as [o|e|w|]; cbn [bind]; [|intros l' r' G; eapply R, (proj1 (proj2 (proj2 (proj2 (proj2 (proj2 (proj2 (proj2 (proj2 G)))))))))|exact R|exact R].
    destruct R as [_ R]. cbn. repeat split; try other; try assumption. same_bindings.
  - cbn. repeat split; try other; try assumption. same_bindings.
Qed.

(** Applying settings in sequence gives what they add up to, if they agree. *)
Lemma apply_all_spec {S T} (f : S -> T -> pres T) (P : list S -> T -> Prop) :
  (forall l r r', P l r -> P l r' -> r = r') ->
  (forall s l r, P l r -> match f s r with
     | Ok r' => P (l ++ [s]) r'
     | Err _ => forall l' r', ~ P (l ++ s :: l') r'
     | _ => False
     end) ->
  forall l l0 r, P l0 r ->
    match apply_all f l r with
    | Ok r' => P (l0 ++ l) r'
    | Err _ => forall r', ~ P (l0 ++ l) r'
    | _ => False
    end.
Proof.
  intros U ST. induction l as [|s l IH]; intros l0 r H; cbn [apply_all].
  - now rewrite app_nil_r.
  - pose proof (ST s l0 r H) as Hs. destruct (f s r) as [r1|e|w|]; cbn [bind]; try exact Hs.
    + specialize (IH (l0 ++ [s]) r1 Hs). rewrite <- app_assoc in IH. exact IH.
    + intros r'. apply Hs.
Qed.

Lemma type_settings_default : type_settings [] type_attrs_default.
Proof. repeat split; cbn; auto; try constructor. Qed.

(** ** Settings of a component *)

Definition apply_comp (s : comp_setting) (r : comp_attrs) : pres comp_attrs :=
  let 'CompAttrs head rest intro property dataset input graph := r in
  match s with
  | SetProperty v =>
      let* property := replace apattern_eqb property v in
      Ok (CompAttrs head rest intro property dataset input graph)
  | SetNodeHead v =>
      let* head := replace String.eqb head v in
      Ok (CompAttrs head rest intro property dataset input graph)
  | SetNodeRest v =>
      let* rest := replace String.eqb rest v in
      Ok (CompAttrs head rest intro property dataset input graph)
  | SetCompIntro v =>
      let* intro := replace (list_eqb String.eqb) intro v in
      Ok (CompAttrs head rest intro property dataset input graph)
  | SetCompDataset v =>
      let* dataset := replace (list_eqb aquad_eqb) dataset v in
      Ok (CompAttrs head rest intro property dataset input graph)
  | SetCompInput v =>
      let* input := replace (list_eqb apattern_eqb) input v in
      Ok (CompAttrs head rest intro property dataset input graph)
  | SetGraph v =>
      let* graph := replace agraph_eqb graph v in
      Ok (CompAttrs head rest intro property dataset input graph)
  | SetNoComp => Ok r
  end.

Lemma set_comp_attr_spec name g r r' : In name comp_keywords ->
  (set_comp_attr name g r = Ok r' <-> exists s, comp_item [TkIdent name; TkGroup g] s /\ apply_comp s r = Ok r').
Proof.
  destruct r as [head rest intro property dataset input graph].
  intros K. unfold comp_keywords in K. cbn [In] in K.
  destruct K as [<-|[<-|[<-|[<-|[<-|[<-|[]]]]]]]; cbn [set_comp_attr];
    repeat match goal with |- context [if String.eqb ?a ?b then _ else _] =>
      let e := eval compute in (String.eqb a b) in change (String.eqb a b) with e end; cbv iota beta;
    (etransitivity; [apply bind_iff|]); split.
  - intros (v & Hv & H). apply parse_string_spec in Hv as ->. exists (SetNodeHead v). split; [now constructor|exact H].
  - intros (s & Hs & H). inversion Hs; subst. exists s0. split; [now apply parse_string_spec|exact H].
  - intros (v & Hv & H). apply parse_string_spec in Hv as ->. exists (SetNodeRest v). split; [now constructor|exact H].
  - intros (s & Hs & H). inversion Hs; subst. exists s0. split; [now apply parse_string_spec|exact H].
  - intros (v & Hv & H). apply (parse_list_spec _ _ string_item_token) in Hv. exists (SetCompIntro v). split; [now constructor|exact H].
  - intros (s & Hs & H). inversion Hs; subst. exists l. split; [now apply (parse_list_spec _ _ string_item_token)|exact H].
  - intros (v & Hv & H). apply (parse_list_spec _ _ quad_item_token) in Hv. exists (SetCompDataset v). split; [now constructor|exact H].
  - intros (s & Hs & H). inversion Hs; subst. exists l. split; [now apply (parse_list_spec _ _ quad_item_token)|exact H].
  - intros (v & Hv & H). apply (parse_list_spec _ _ pattern_item_token) in Hv. exists (SetCompInput v). split; [now constructor|exact H].
  - intros (s & Hs & H). inversion Hs; subst. exists l. split; [now apply (parse_list_spec _ _ pattern_item_token)|exact H].
  - intros (v & Hv & H). apply graph_value_spec in Hv. exists (SetGraph v). split; [now constructor|exact H].
  - intros (s & Hs & H). inversion Hs; subst. exists g0. split; [now apply graph_value_spec|exact H].
Qed.

Lemma comp_item_shape ts s : comp_item ts s ->
  (exists x p, ts = [TkStr x] /\ pattern_text x p /\ s = SetProperty p) \/
  (exists name g, ts = [TkIdent name; TkGroup g] /\ In name comp_keywords) \/
  (exists name, ts = [TkIdent name] /\ is_keyword name comp_keywords = false /\ s = SetNoComp).
Proof.
  intros H. destruct H as [x p H| | | | | | |name H].
  - left. exists x, p. auto.
  - right; left. do 2 eexists; repeat split; cbn; tauto.
  - right; left. do 2 eexists; repeat split; cbn; tauto.
  - right; left. do 2 eexists; repeat split; cbn; tauto.
  - right; left. do 2 eexists; repeat split; cbn; tauto.
  - right; left. do 2 eexists; repeat split; cbn; tauto.
  - right; left. do 2 eexists; repeat split; cbn; tauto.
  - right; right. exists name. repeat split.
    destruct (is_keyword name comp_keywords) eqn:K; [|reflexivity]. apply keyword_spec in K. now destruct H.
Qed.

Lemma set_property_spec x p r : pattern_text x p -> set_property x r = apply_comp (SetProperty p) r.
Proof. intros H. apply parse_pattern_spec in H. unfold set_property. rewrite H. now destruct r. Qed.

Lemma comp_tokens_spec ts : forall r r',
  comp_tokens ts r = Ok r' <-> exists l, separated comp_item ts l /\ apply_all apply_comp l r = Ok r'.
Proof.
  remember (length ts) as n eqn:N. revert ts N. induction n as [n IH] using lt_wf_ind.
  assert (forall ts2, length ts2 < n -> forall r r', comp_tokens ts2 r = Ok r' ->
    exists l, separated comp_item ts2 l /\ apply_all apply_comp l r = Ok r') as IH1.
  { intros ts2 L r r' H. now apply (IH (length ts2) L ts2 eq_refl) in H. }
  assert (forall ts2, length ts2 < n -> forall l r r', separated comp_item ts2 l -> apply_all apply_comp l r = Ok r' ->
    comp_tokens ts2 r = Ok r') as IH2.
  { intros ts2 L l r r' H A. apply (IH (length ts2) L ts2 eq_refl). eauto. }
  clear IH. intros ts N r r'. split.
  - destruct ts as [|t ts1].
    { intros H. injection H as <-. exists []. split; [constructor|reflexivity]. }
    destruct t as [name|c|x|s|g]; try discriminate; cbn [comp_tokens].
    + destruct (is_keyword name comp_keywords) eqn:W.
      * apply keyword_spec in W. destruct ts1 as [|t ts2]; [discriminate|]. destruct t as [nn|c|s|s|g]; try discriminate.
        intros H. apply bind_Ok in H as (r1 & H1 & H). apply set_comp_attr_spec in H1 as (s & It & H1); [|exact W].
        apply after_comma in H as [[-> H]|(ts3 & -> & H)].
        { injection H as <-. exists [s]. split; [now constructor|]. cbn [apply_all]. now rewrite H1. }
        apply IH1 in H as (l & Hl & H); [|cbn in N; lia]. exists (s :: l). split.
        { now apply (Sep_next comp_item [TkIdent name; TkGroup g]). } cbn [apply_all]. now rewrite H1.
      * assert (comp_item [TkIdent name] SetNoComp) as It.
        { constructor. intros HI. change comp_words with comp_keywords in HI. apply keyword_spec in HI. congruence. }
        intros H. apply after_comma in H as [[-> H]|(ts2 & -> & H)].
        { injection H as <-. exists [SetNoComp]. split; [now constructor|]. cbn [apply_all apply_comp]. now destruct r. }
        apply IH1 in H as (l & Hl & H); [|cbn in N; lia]. exists (SetNoComp :: l). split.
        { now apply (Sep_next comp_item [TkIdent name]). } cbn [apply_all apply_comp]. now destruct r.
    + intros H. apply bind_Ok in H as (r1 & H1 & H).
      assert (exists p, pattern_text x p) as (p & Hp).
      { unfold set_property in H1. apply bind_Ok in H1 as (p & Hp & _). exists p. now apply parse_pattern_spec. }
      rewrite (set_property_spec _ p) in H1 by exact Hp.
      assert (comp_item [TkStr x] (SetProperty p)) as It by now constructor.
      apply after_comma in H as [[-> H]|(ts2 & -> & H)].
      * injection H as <-. exists [SetProperty p]. split; [now constructor|]. cbn [apply_all]. now rewrite H1.
      * apply IH1 in H as (l & Hl & H); [|cbn in N; lia]. exists (SetProperty p :: l). split.
        { now apply (Sep_next comp_item [TkStr x]). } cbn [apply_all]. now rewrite H1.
  - intros (l & S & A). inversion S as [|ts0 x Hx|ts0 x ts' xs Hx Hxs]; subst.
    + exact A.
    + cbn [apply_all] in A. apply bind_Ok in A as (r1 & A1 & A). injection A as <-.
      destruct (comp_item_shape _ _ Hx) as [(y & p & -> & K & ->)|[(name & g & -> & W)|(name & -> & W & ->)]];
        cbn [comp_tokens].
      * now rewrite (set_property_spec _ p), A1.
      * pose proof (proj2 (keyword_spec _ _) W) as ->.
        assert (set_comp_attr name g r = Ok r1) as ->; [|reflexivity]. apply set_comp_attr_spec; [exact W|]. eauto.
      * rewrite W. destruct r; cbn in A1; injection A1 as <-. reflexivity.
    + cbn [apply_all] in A. apply bind_Ok in A as (r1 & A1 & A).
      destruct (comp_item_shape _ _ Hx) as [(y & p & -> & K & ->)|[(name & g & -> & W)|(name & -> & W & ->)]];
        cbn [comp_tokens app].
      * rewrite (set_property_spec _ p), A1 by exact K. cbn [bind]. eapply IH2; [cbn; lia|eassumption..].
      * pose proof (proj2 (keyword_spec _ _) W) as ->.
        assert (set_comp_attr name g r = Ok r1) as ->. { apply set_comp_attr_spec; [exact W|]. eauto. }
        cbn [bind]. eapply IH2; [cbn; lia|eassumption..].
      * rewrite W. assert (r1 = r) as ->. { destruct r; cbn in A1; now injection A1 as <-. }
        eapply IH2; [cbn; lia|eassumption..].
Qed.

Lemma comp_attributes_spec attrs : forall r r',
  comp_attributes attrs r = Ok r' <-> exists l, settings comp_item attrs l /\ apply_all apply_comp l r = Ok r'.
Proof.
  induction attrs as [|a attrs IH]; intros r r'; cbn [comp_attributes].
  - split.
    + intros H. injection H as <-. exists []. split; [constructor|reflexivity].
    + intros (l & S & A). inversion S; subst. exact A.
  - destruct (String.eqb_spec (at_path a) "tldr") as [E|E].
    + destruct a as [path [ts|]]; cbn [at_path at_tokens] in *; subst path.
      * etransitivity; [apply bind_iff|]. split.
        { intros (r1 & H1 & H). apply comp_tokens_spec in H1 as (l & Hl & A). apply IH in H as (l' & Hl' & A').
          exists (l ++ l'). split; [now constructor|]. now rewrite apply_all_app, A. }
        { intros (l & S & A). inversion S as [|a' ? ? NE|ts' ? l1 l2 Hl Hl2]; subst; [now cbn in NE|].
          rewrite apply_all_app in A. apply bind_Ok in A as (r1 & A1 & A). exists r1. split.
          - apply comp_tokens_spec. eauto.
          - apply IH. eauto. }
      * split; [discriminate|]. intros (l & S & A). inversion S as [|a' ? ? NE|]; subst. now cbn in NE.
    + rewrite IH. split.
      * intros (l & S & A). exists l. split; [now constructor|exact A].
      * intros (l & S & A). inversion S; subst; [eauto|]. now cbn in E.
Qed.

Lemma comp_settings_unique l r r' : comp_settings l r -> comp_settings l r' -> r = r'.
Proof.
  destruct r as [a1 a2 a3 a4 a5 a6 a7], r' as [b1 b2 b3 b4 b5 b6 b7].
  unfold comp_settings. cbn [ca_property ca_head ca_rest ca_intro ca_dataset ca_input ca_graph].
  intros (H1 & H2 & H3 & H4 & H5 & H6 & H7) (G1 & G2 & G3 & G4 & G5 & G6 & G7).
  f_equal; eauto using slot_unique.
Qed.

Lemma apply_comp_step s l r : comp_settings l r ->
  match apply_comp s r with
  | Ok r' => comp_settings (l ++ [s]) r'
  | Err _ => forall l' r', ~ comp_settings (l ++ s :: l') r'
  | _ => False
  end.
Proof.
  destruct r as [head rest intro property dataset input graph].
  unfold comp_settings. cbn [ca_property ca_head ca_rest ca_intro ca_dataset ca_input ca_graph].
  intros (H1 & H2 & H3 & H4 & H5 & H6 & H7).
  destruct s as [v|v|v|v|v|v|v|]; cbn [apply_comp].
  - pose proof (slot_replace SetProperty apattern_eqb l property v apattern_eqb_spec ltac:(congruence) H1) as R.
    destruct (replace apattern_eqb property v) as [o|e|w|]; cbn [bind]; [|intros l' r' (G & _); eapply R, G|exact R|exact R].
    destruct R as [_ R]. cbn. repeat split; try other; assumption.
  - pose proof (slot_replace SetNodeHead String.eqb l head v String.eqb_eq ltac:(congruence) H2) as R.
    destruct (replace String.eqb head v) as [o|e|w|]; cbn [bind]; [|intros l' r' G; eapply R, (proj1 (proj2 G))|exact R|exact R].
    destruct R as [_ R]. cbn. repeat split; try other; assumption.
  - pose proof (slot_replace SetNodeRest String.eqb l rest v String.eqb_eq ltac:(congruence) H3) as R.
    destruct (replace String.eqb rest v) as [o|e|w|]; cbn [bind]; [|intros l' r' G; eapply R, (proj1 (proj2 (proj2 G)))|exact R|exact R].
    destruct R as [_ R]. cbn. repeat split; try other; assumption.
  - pose proof (slot_replace SetCompIntro (list_eqb String.eqb) l intro v (list_eqb_spec _ String.eqb_eq) ltac:(congruence) H4) as R.
    destruct (replace (list_eqb String.eqb) intro v) as [o|e|w|]; cbn [bind]; [|intros l' r' G; eapply R, (proj1 (proj2 (proj2 (proj2 G))))|exact R|exact R].
    destruct R as [_ R]. cbn. repeat split; try other; assumption.
  - pose proof (slot_replace SetCompDataset (list_eqb aquad_eqb) l dataset v (list_eqb_spec _ aquad_eqb_spec) ltac:(congruence) H5) as R.
    destruct (replace (list_eqb aquad_eqb) dataset v) as [o|e|w|]; cbn [bind]; [|intros l' r' G; eapply R, (proj1 (proj2 (proj2 (proj2 (proj2 G)))))|exact R|exact R].
    destruct R as [_ R]. cbn. repeat split; try other; assumption.
  - pose proof (slot_replace SetCompInput (list_eqb apattern_eqb) l input v (list_eqb_spec _ apattern_eqb_spec) ltac:(congruence) H6) as R.
    destruct (replace (list_eqb apattern_eqb) input v) as [o|e|w|]; cbn [bind]; [|intros l' r' G; eapply R, (proj1 (proj2 (proj2 (proj2 (proj2 (proj2 G))))))|exact R|exact R].
    destruct R as [_ R]. cbn. repeat split; try other; assumption.
  - pose proof (slot_replace SetGraph agraph_eqb l graph v agraph_eqb_spec ltac:(congruence) H7) as R.
    destruct (replace agraph_eqb graph v) as [o|e|w|]; cbn [bind]; [|intros l' r' G; eapply R, (proj2 (proj2 (proj2 (proj2 (proj2 (proj2 G))))))|exact R|exact R].
    destruct R as [_ R]. cbn. repeat split; try other; assumption.
  - cbn. repeat split; try other; assumption.
Qed.

Lemma comp_settings_default : comp_settings [] comp_attrs_default.
Proof. repeat split; cbn; auto. Qed.
End Parse.

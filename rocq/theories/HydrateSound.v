(** * Hydration is sound, the semantics is deterministic *)

From Coq Require Import String List Bool Arith NArith Permutation Sorted Lia Qcanon.
Import ListNotations.
From Verif Require Import Base BaseProofs Orders PatternModel MatchingModel MatchingSpec
  MatchingProofs ValueModel ValueProofs LayoutModel HydrateModel HydrateSpec HydrateProofs.
Open Scope list_scope.
Open Scope nat_scope.

Section Sound.
Context {R : Type} {CR : Cmp R} {LR : CmpLaws R} {IR : Interp R} {X : Xsd}.
Variable D : dataset R.
Variable G : quad R -> Prop.
Hypothesis EN : enumerates D G.
Variable reg : registry R.
Hypothesis RS : registry_sorted reg.

Notation Means := (Means G reg false).
Notation Rejects := (Rejects G reg false).
Notation VMeans := (VMeans G reg false).
Notation VRejects := (VRejects G reg false).
Notation Fields := (Fields G reg false).
Notation FieldsRej := (FieldsRej G reg false).

(** ** Literals *)

Lemma boolean_parse_lexical v b : boolean_parse v = Some b <-> boolean_lexical v b.
Proof.
  unfold boolean_parse. split.
  - repeat match goal with
    | |- context [eqb ?a ?b] => destruct (eqb_spec a b) as [->|]; [intros [= <-]; constructor|]
    end. discriminate.
  - intros []; reflexivity.
Qed.

Lemma literal_value_Ok k ref v ty t :
  hydrate_literal_value (R := R) k ref v ty = Ok t <-> denotes ref k ty v t.
Proof.
  destruct k; simpl.
  - unfold hydrate_boolean_value. split.
    + destruct (eqb_spec ty xsd_boolean) as [->|]; [|discriminate].
      destruct (boolean_parse v) as [b|] eqn:E; simpl; [|discriminate].
      intros [= <-]. constructor. now apply boolean_parse_lexical.
    + intros H; inversion H as [v' b BL| |]; subst. rewrite eqb_refl.
      apply boolean_parse_lexical in BL. now rewrite BL.
  - unfold hydrate_number_value. split.
    + destruct (is_decimal_type ty) eqn:T; [|discriminate].
      destruct (decimal_parse v) as [n|] eqn:E; simpl; [|discriminate].
      intros [= <-]. now constructor.
    + intros H; inversion H as [|ty' v' n D1 D2|]; subst. now rewrite D1, D2.
  - split; [discriminate|]. intros H; inversion H.
  - split; [intros [= <-]; constructor|]. intros H; inversion H; reflexivity.
Qed.

Lemma literal_value_Err k ref v ty e :
  hydrate_literal_value (R := R) k ref v ty = Err e -> k = KNumber /\ is_decimal_type ty = false.
Proof.
  destruct k; simpl; try discriminate.
  - unfold hydrate_boolean_value. destruct (eqb ty xsd_boolean); [|discriminate].
    destruct (boolean_parse v); discriminate.
  - unfold hydrate_number_value. destruct (is_decimal_type ty); auto.
    destruct (decimal_parse v); discriminate.
Qed.

Lemma existsb_iris ty (dt : R) : existsb (eqb ty) (iris_of dt) = true <-> In ty (iris_of dt).
Proof.
  rewrite existsb_exists. split.
  - intros (x & H & E). apply eqb_eq in E as <-. auto.
  - intros H. exists ty. now rewrite eqb_refl.
Qed.

Lemma other_or_type dt l ty :
  rl_type l = TypeAny ty ->
  (existsb (eqb ty) (iris_of dt) = true /\ has_type (R := R) dt l ty) \/
  (existsb (eqb ty) (iris_of dt) = false /\ other_type dt l).
Proof.
  intros E. destruct (existsb (eqb ty) (iris_of dt)) eqn:B; [left|right]; split; auto.
  - split; auto. now apply existsb_iris.
  - exists ty. split; auto. intros C. apply existsb_iris in C. congruence.
Qed.

Lemma literals_Ok k ref dt ls : forall sel t,
  hydrate_literals (R := R) k ref dt ls sel = Ok t ->
  (sel = Some t /\ Forall (other_type dt) ls) \/
  (sel = None /\ exists pre l post ty, ls = pre ++ l :: post /\ has_type dt l ty /\
     Forall (other_type dt) pre /\ Forall (other_type dt) post /\
     denotes ref k ty (rl_value l) t).
Proof.
  induction ls as [|l ls IH]; intros sel t H; cbn [hydrate_literals] in H.
  - destruct sel as [t'|]; [|discriminate]. injection H as ->. auto.
  - destruct (rl_type l) as [ty|] eqn:T; [|discriminate].
    destruct (other_or_type dt l ty T) as [[B O]|[B O]]; rewrite B in H.
    + apply bind_Ok in H as (v & Hv & H). apply literal_value_Ok in Hv.
      destruct sel; [discriminate|]. right. split; auto.
      apply IH in H as [[[= <-] F]|[? _]]; [|discriminate].
      exists [], l, ls, ty. repeat (split; auto).
    + apply IH in H as [[-> F]|[-> (pre & l' & post & ty' & -> & HT & F1 & F2 & DE)]]; auto.
      right. split; auto. exists (l :: pre), l', post, ty'. repeat (split; auto).
Qed.

Lemma literals_Err k ref dt ls : forall sel e,
  hydrate_literals (R := R) k ref dt ls sel = Err e ->
  (sel = None /\ Forall (other_type dt) ls) \/
  (k = KNumber /\ exists pre l post ty, ls = pre ++ l :: post /\ has_type dt l ty /\
     is_decimal_type ty = false /\
     (Forall (other_type dt) pre \/
      sel = None /\
      exists pre1 l1 pre2 ty1 t1, pre = pre1 ++ l1 :: pre2 /\
       Forall (other_type dt) pre1 /\ Forall (other_type dt) pre2 /\
       has_type dt l1 ty1 /\ denotes ref KNumber ty1 (rl_value l1) t1)).
Proof.
  induction ls as [|l ls IH]; intros sel e H; cbn [hydrate_literals] in H.
  - destruct sel as [t'|]; [discriminate|]. auto.
  - destruct (rl_type l) as [ty|] eqn:T; [|discriminate].
    destruct (other_or_type dt l ty T) as [[B O]|[B O]]; rewrite B in H.
    + destruct (hydrate_literal_value k ref (rl_value l) ty) as [v|e'| |] eqn:V; try discriminate.
      * cbn [bind] in H. destruct sel; [discriminate|].
        apply IH in H as [[? _]|[-> (pre & l' & post & ty' & -> & HT & DT & [F|[? _]])]];
          try discriminate.
        right. split; auto. exists (l :: pre), l', post, ty'. do 3 (split; auto). right. split; auto.
        exists [], l, pre, ty, v. repeat (split; auto). now apply literal_value_Ok.
      * apply literal_value_Err in V as [-> DT]. right. split; auto.
        exists [], l, ls, ty. repeat (split; auto).
    + apply IH in H as [[-> F]|[-> (pre & l' & post & ty' & -> & HT & DT & F)]]; auto.
      right. split; auto. exists (l :: pre), l', post, ty'. do 3 (split; auto).
      destruct F as [F|(E & pre1 & l1 & pre2 & ty1 & t1 & -> & F1 & F2 & HT1 & DE)]; auto.
      right. split; auto. exists (l :: pre1), l1, pre2, ty1, t1. repeat (split; auto).
Qed.

(** ** Loops *)

Variable rec : option R -> R -> list R -> hres (R := R) (typed_value R).
Hypothesis RO : forall g ref inputs v, rec g ref inputs = Ok v -> Means g ref inputs v.
Hypothesis RE : forall g ref inputs e, rec g ref inputs = Err e -> Rejects g ref inputs.

Lemma format_Ok g vf s v :
  hydrate_format rec g vf s = Ok v -> VMeans g s vf v.
Proof.
  unfold hydrate_format. intros H. apply bind_Ok in H as (inputs & Hi & H).
  apply bind_Ok in H as (g' & Hg & H). econstructor; [|eauto].
  split; [now apply select_inputs_Ok|now apply select_graph_Ok in Hg].
Qed.

Lemma format_Err g vf s e :
  hydrate_format rec g vf s = Err e -> VRejects g s vf.
Proof.
  unfold hydrate_format. intros H.
  destruct (select_inputs (vf_input vf) s) as [inputs|e'| |] eqn:Hi; try discriminate.
  2:{ now apply select_inputs_Err in Hi. }
  cbn [bind] in H.
  destruct (select_graph g (vf_graph vf) s) as [g'|e'| |] eqn:Hg; try discriminate.
  2:{ now apply select_graph_Err in Hg. }
  cbn [bind] in H. econstructor; [|eauto].
  split; [now apply select_inputs_Ok|now apply select_graph_Ok in Hg].
Qed.

Lemma VMeans_fresh g s n vf v : VMeans g s vf v -> VMeans g (fresh s n) vf v.
Proof. intros H; inversion H; subst. econstructor; [|eauto]. now apply passes_fresh. Qed.

Lemma VRejects_fresh g s n vf : VRejects g s vf -> VRejects g (fresh s n) vf.
Proof. intros H; inversion H; subst. econstructor; [|eauto]. now apply passes_fresh. Qed.

Lemma fields_Ok g ref s fs : forall rec0 m,
  hydrate_fields D rec g ref s fs rec0 = Ok m ->
  exists m', Fields g s fs m' /\ m = fold_left (fun m kv => bt_insert (fst kv) (snd kv) m) m' rec0.
Proof.
  induction fs as [|[k f] fs IH]; intros rec0 m H; cbn [hydrate_fields] in H.
  - injection H as <-. exists []. split; auto. constructor.
  - apply bind_Ok in H as (o & Ho & H). destruct o as [s'|].
    + apply bind_Ok in H as (v & Hv & H). apply IH in H as (m' & F & ->).
      exists ((k, v) :: m'). split; auto. eapply F_present; eauto.
      * eapply match_unique_Some; eauto.
      * eapply format_Ok; eauto.
    + destruct (f_required f) eqn:Q; [discriminate|].
      apply IH in H as (m' & F & ->). exists m'. split; auto. eapply F_absent; eauto.
      eapply match_unique_None; eauto.
Qed.

Lemma fields_Err g ref s fs : forall rec0 e,
  hydrate_fields D rec g ref s fs rec0 = Err e -> FieldsRej g s fs.
Proof.
  induction fs as [|[k f] fs IH]; intros rec0 e H; cbn [hydrate_fields] in H; [discriminate|].
  destruct (match_unique D g (it_dataset (f_item f)) (sintro s (it_intro (f_item f))) (FKey ref k))
    as [[s'|]|e'| |] eqn:M; try discriminate; cbn [bind] in H.
  - eapply match_unique_Some in M; eauto.
    destruct (hydrate_format rec g (it_value (f_item f)) s') as [v|e'| |] eqn:V; try discriminate;
      cbn [bind] in H.
    + eapply FR_later_present; eauto. eapply format_Ok; eauto.
    + eapply FR_value; eauto. eapply format_Err; eauto.
  - eapply match_unique_None in M; eauto. destruct (f_required f) eqn:Q.
    + eapply FR_missing; eauto.
    + eapply FR_later_absent; eauto.
  - eapply match_unique_Err in M; eauto. eapply FR_several; eauto.
Qed.

Lemma Fields_keys strict g s fs m :
  HydrateSpec.Fields G reg strict g s fs m ->
  forall k, In k (map fst m) -> In k (map fst fs).
Proof.
  induction fs as [|[k0 f] fs IH] in m |- *; intros F k I; inversion F; subst; simpl in *; auto.
  - destruct I as [->|I]; eauto.
  - eauto.
Qed.

Lemma Fields_sorted strict g s fs m :
  HydrateSpec.Fields G reg strict g s fs m ->
  StronglySorted lt (map fst fs) -> StronglySorted lt (map fst m).
Proof.
  induction fs as [|[k0 f] fs IH] in m |- *; intros F S; inversion F; subst; simpl in *.
  - constructor.
  - inversion S; subst. constructor; eauto.
    rewrite Forall_forall in *. intros k I. apply H2. eapply Fields_keys; eauto.
  - inversion S; subst. eauto.
Qed.

Lemma collect_sorted {V} (m m0 : list (value * V)) :
  StronglySorted lt (map fst (m0 ++ m)) ->
  fold_left (fun m kv => bt_insert (fst kv) (snd kv) m) m m0 = m0 ++ m.
Proof.
  revert m0. induction m as [|[k v] m IH]; intros m0 S; simpl.
  - now rewrite app_nil_r.
  - assert (E : bt_insert k v m0 = m0 ++ [(k, v)]).
    { clear IH. induction m0 as [|[k' v'] m0 IH]; simpl in *; auto.
      inversion S as [|? ? S' F]; subst.
      assert (L : lt k' k).
      { rewrite Forall_forall in F. apply F. rewrite map_app. simpl. apply in_or_app. simpl; auto. }
      unfold lt in L. rewrite (cmp_opp k' k), L. simpl. now rewrite IH. }
    rewrite E, IH; rewrite <- app_assoc; auto.
Qed.

Lemma tuple_Ok g ref s its : forall i vs,
  hydrate_tuple D rec g ref s i its = Ok vs -> Tuple G reg false g s its vs.
Proof.
  induction its as [|it its IH]; intros i vs H; cbn [hydrate_tuple] in H.
  - injection H as <-. constructor.
  - apply bind_Ok in H as (s' & Hs & H). apply bind_Ok in H as (v & Hv & H).
    apply bind_Ok in H as (vs' & Hvs & H). injection H as <-.
    eapply T_cons; eauto.
    + eapply match_required_Ok; eauto.
    + eapply format_Ok; eauto.
Qed.

Lemma tuple_Err g ref s its : forall i e,
  hydrate_tuple D rec g ref s i its = Err e -> TupleRej G reg false g s its.
Proof.
  induction its as [|it its IH]; intros i e H; cbn [hydrate_tuple] in H; [discriminate|].
  destruct (match_required D g (it_dataset it) (sintro s (it_intro it)) (FSizedListItem ref i))
    as [s'|e'| |] eqn:M; try discriminate; cbn [bind] in H.
  - eapply match_required_Ok in M; eauto.
    destruct (hydrate_format rec g (it_value it) s') as [v|e'| |] eqn:V; try discriminate;
      cbn [bind] in H.
    + destruct (hydrate_tuple D rec g ref s (S i) its) as [vs|e'| |] eqn:T; try discriminate.
      eapply TR_later; eauto. eapply format_Ok; eauto.
    + eapply TR_value; eauto. eapply format_Err; eauto.
  - eapply match_required_Err in M as [M|M]; eauto.
    + eapply TR_none; eauto.
    + eapply TR_several; eauto.
Qed.

Lemma items_Ok g vf ms : forall vs,
  hydrate_items rec g vf ms = Ok vs -> exists sols, ms = map inr sols /\ Items G reg false g vf sols vs.
Proof.
  induction ms as [|[w|s] ms IH]; intros vs H; cbn [hydrate_items] in H; try discriminate.
  - injection H as <-. exists []. split; auto. constructor.
  - apply bind_Ok in H as (v & Hv & H). apply bind_Ok in H as (vs' & Hvs & H).
    injection H as <-. apply IH in Hvs as (sols & -> & I).
    exists (s :: sols). split; auto. constructor; auto. eapply format_Ok; eauto.
Qed.

Lemma items_Err g vf ms e :
  hydrate_items rec g vf ms = Err e -> exists s, In (inr s) ms /\ VRejects g s vf.
Proof.
  induction ms as [|[w|s] ms IH]; intros H; cbn [hydrate_items] in H; try discriminate.
  destruct (hydrate_format rec g vf s) as [v|e'| |] eqn:V; try discriminate; cbn [bind] in H.
  - destruct (hydrate_items rec g vf ms) as [vs|e'| |] eqn:T; try discriminate.
    destruct IH as (s' & I & V'); auto. exists s'. split; auto. now right.
  - exists s. split; [now left|]. eapply format_Err; eauto.
Qed.

Lemma spush_fresh (s : subst R) h n : sintro (spush s h) n = fresh (s ++ [h]) n.
Proof. reflexivity. Qed.

Lemma nodes_Ok g ref s node tail : forall fuel head vs,
  hydrate_nodes D rec fuel g ref s node head tail = Ok vs ->
  Nodes G reg false g s node head tail vs.
Proof.
  induction fuel as [|fuel IH]; intros head vs H; cbn [hydrate_nodes] in H; [discriminate|].
  destruct (eqb_spec head tail) as [->|NE].
  - injection H as <-. constructor.
  - apply bind_Ok in H as (s' & Hs & H). apply bind_Ok in H as (v & Hv & H).
    apply bind_Ok in H as (h' & Hh & H). apply bind_Ok in H as (vs' & Hvs & H).
    injection H as <-. eapply N_cons; eauto.
    + eapply match_required_Ok; eauto.
    + eapply format_Ok; eauto.
    + apply sget_binds. now apply unwrap_Ok in Hh.
Qed.

Lemma nodes_Err g ref s node tail : forall fuel head e,
  hydrate_nodes D rec fuel g ref s node head tail = Err e ->
  NodesRej G reg false g s node head tail.
Proof.
  induction fuel as [|fuel IH]; intros head e H; cbn [hydrate_nodes] in H; [discriminate|].
  destruct (eqb_spec head tail) as [->|NE]; [discriminate|].
  destruct (match_required D g (it_dataset node) (sintro (spush s (Some head)) (1 + it_intro node))
              (FOrderedListNode ref head tail)) as [s'|e'| |] eqn:M;
    try discriminate; cbn [bind] in H.
  - eapply match_required_Ok in M; eauto.
    destruct (hydrate_format rec g (it_value node) s') as [v|e'| |] eqn:V; try discriminate;
      cbn [bind] in H.
    + destruct (sget s' (length s + 1)) as [h'|] eqn:Gh; [|discriminate]. cbn [unwrap bind] in H.
      destruct (hydrate_nodes D rec fuel g ref s node h' tail) as [vs|e'| |] eqn:T;
        try discriminate.
      eapply NR_later; eauto.
      * eapply format_Ok; eauto.
      * now apply sget_binds.
    + eapply NR_value; eauto. eapply format_Err; eauto.
  - eapply match_required_Err in M as [M|M]; eauto.
    + eapply NR_none; eauto.
    + eapply NR_several; eauto.
Qed.

(** What the loop of the sum guarantees, with the variant selected so far. *)
Lemma variants_Ok g ref s vs : forall i sel r,
  hydrate_variants D rec g ref s i vs sel = Ok r ->
  (r = sel /\ NoVariant G reg false g s vs) \/
  (sel = None /\ exists j v, r = Some (j, v) /\ One G reg false g s i vs j v).
Proof.
  induction vs as [|va vs IH]; intros i sel r H; cbn [hydrate_variants] in H.
  - injection H as <-. left. split; auto. constructor.
  - apply bind_Ok in H as (o & M & H). destruct o as [s'|].
    + eapply (variant_match_Some D G EN _ _ _ _ _ (it_intro (va_item va))) in M.
      destruct (hydrate_format rec g (it_value (va_item va)) s') as [v|e'| |] eqn:V;
        try discriminate.
      * destruct sel; [discriminate|]. right. split; auto.
        apply IH in H as [[-> N]|[? _]]; [|discriminate].
        exists i, v. split; auto. eapply O_here; eauto. apply VMeans_fresh. eapply format_Ok; eauto.
      * assert (E : Excluded G reg false g s va).
        { eapply E_value; eauto. apply VRejects_fresh. eapply format_Err; eauto. }
        apply IH in H as [[-> N]|[-> (j & v & -> & O)]].
        -- left. split; auto. now constructor.
        -- right. split; auto. exists j, v. split; auto. now constructor.
    + eapply (variant_match_None D G EN _ _ _ _ (it_intro (va_item va))) in M.
      assert (E : Excluded G reg false g s va) by now apply E_none.
      apply IH in H as [[-> N]|[-> (j & v & -> & O)]].
      * left. split; auto. now constructor.
      * right. split; auto. exists j, v. split; auto. now constructor.
Qed.

Lemma variants_Err g ref s vs : forall i sel e,
  hydrate_variants D rec g ref s i vs sel = Err e ->
  VariantsRej G reg false g s (match sel with Some _ => true | None => false end) vs.
Proof.
  induction vs as [|va vs IH]; intros i sel e H; cbn [hydrate_variants] in H; [discriminate|].
  destruct (match_unique D g (it_dataset (va_item va)) s (FVariant ref (va_name va)))
    as [[s'|]|e'| |] eqn:M; try discriminate; cbn [bind] in H.
  - eapply (variant_match_Some D G EN _ _ _ _ _ (it_intro (va_item va))) in M.
    destruct (hydrate_format rec g (it_value (va_item va)) s') as [v|e'| |] eqn:V;
      try discriminate.
    + destruct sel; [discriminate|]. apply IH in H. eapply VRej_applies; eauto.
      apply VMeans_fresh. eapply format_Ok; eauto.
    + apply IH in H. eapply VRej_excluded; eauto. eapply E_value; eauto.
      apply VRejects_fresh. eapply format_Err; eauto.
  - eapply (variant_match_None D G EN _ _ _ _ (it_intro (va_item va))) in M.
    apply IH in H. eapply VRej_excluded; eauto. now apply E_none.
  - eapply (variant_match_Err D G EN _ _ _ _ _ (it_intro (va_item va))) in M.
    now apply VRej_here.
Qed.

(** ** Layouts *)

Lemma header_Ok g ref h inputs s :
  match_header D g ref h inputs = Ok s -> header_sol G g h inputs s.
Proof. intros H. eapply match_required_Ok in H; eauto. Qed.

Lemma header_Err g ref h inputs e :
  match_header D g ref h inputs = Err e -> header_bad G g h inputs.
Proof. intros H. eapply match_required_Err in H; eauto. Qed.

Lemma layout_Ok fuel g ref l inputs v :
  layout_for reg ref inputs l ->
  hydrate_layout D rec fuel g ref l inputs = Ok v -> Means g ref inputs v.
Proof.
  intros LF H. destruct l; cbn [hydrate_layout] in H; try discriminate.
  - injection H as <-. now apply M_always.
  - apply bind_Ok in H as (s & Hs & H). injection H as <-. eapply M_unit; eauto using header_Ok.
  - apply bind_Ok in H as (s & Hs & H). apply bind_Ok in H as (r & Hr & H).
    apply bind_Ok in H as (t & Ht & H). injection H as <-.
    apply unwrap_Ok, papply_pinst in Hr.
    apply literals_Ok in Ht as [[? _]|[_ (pre & l & post & ty & E & HT & F1 & F2 & DE)]];
      [discriminate|].
    eapply M_data; eauto using header_Ok.
  - apply bind_Ok in H as (s & Hs & H). apply bind_Ok in H as (r & Hr & H).
    apply unwrap_Ok, papply_pinst in Hr.
    destruct (iris_of r) as [|iri [|]] eqn:E; try discriminate. injection H as <-.
    eapply M_id; eauto using header_Ok.
  - apply bind_Ok in H as (s & Hs & H). apply bind_Ok in H as (m & Hm & H). injection H as <-.
    apply fields_Ok in Hm as (m' & F & ->).
    assert (StronglySorted lt (map fst m')).
    { eapply Fields_sorted; eauto. destruct LF as [LF _]. apply (RS _ _ LF). }
    rewrite collect_sorted; auto. eapply M_product; eauto using header_Ok.
  - apply bind_Ok in H as (s & Hs & H). apply bind_Ok in H as (sel & Hv & H).
    destruct sel as [[i v']|]; [|discriminate]. injection H as <-.
    apply variants_Ok in Hv as [[? _]|[_ (j & v & [= <- <-] & O)]]; [discriminate|].
    eapply M_sum; eauto using header_Ok.
  - apply bind_Ok in H as (s & Hs & H). apply bind_Ok in H as (its & Hi & H). injection H as <-.
    apply items_Ok in Hi as (sols & E & I).
    assert (NP : forall i, In i (stream D (with_default_graph g (it_dataset item))
                 (sintro s (it_intro item))) -> ~ panicking i).
    { rewrite E. intros i Hi. eapply not_panicking_inr; eauto. }
    rewrite with_default_graph_at in *.
    eapply M_unordered with (sols := sols); eauto using header_Ok.
    + pose proof (good_NoDup D G EN (map (at_graph g) (it_dataset item)) (sintro s (it_intro item)))
        as N. rewrite E in N.
      assert (good (map inr sols) = sols) as <-; auto.
      clear. induction sols; simpl; auto. now f_equal.
    + intros s'. unfold fresh. split.
      * intros I'. eapply stream_sound; eauto. unfold sintro in E. rewrite E. now apply in_map.
      * intros S. eapply stream_complete in S; eauto. unfold sintro in E. rewrite E in S.
        apply in_map_iff in S as (? & [= <-] & S). auto.
    + symmetry. apply sort_perm.
    + apply sort_sorted.
  - apply bind_Ok in H as (s & Hs & H). apply bind_Ok in H as (hd & Hh & H).
    apply bind_Ok in H as (tl & Ht & H). apply bind_Ok in H as (vs & Hvs & H). injection H as <-.
    apply unwrap_Ok, papply_pinst in Hh, Ht.
    eapply M_ordered; eauto using header_Ok. eapply nodes_Ok; eauto.
  - apply bind_Ok in H as (s & Hs & H). apply bind_Ok in H as (vs & Hvs & H). injection H as <-.
    eapply M_sized; eauto using header_Ok. eapply tuple_Ok; eauto.
Qed.

Lemma layout_Err fuel g ref l inputs e :
  layout_for reg ref inputs l ->
  hydrate_layout D rec fuel g ref l inputs = Err e -> Rejects g ref inputs.
Proof.
  intros LF H. destruct l; cbn [hydrate_layout] in H; try discriminate.
  { now apply R_never. }
  all: destruct (match_header D g ref h inputs) as [s|e'| |] eqn:Hs; try discriminate;
    cbn [bind] in H.
  all: try (apply header_Ok in Hs).
  all: try (apply header_Err in Hs; eapply R_header; eauto; reflexivity).
  all: try discriminate.
  - destruct (into_resource (papply s resource)) as [r|] eqn:Hr; [|discriminate].
    cbn [unwrap bind] in H. apply papply_pinst in Hr.
    destruct (hydrate_literals k ref datatype (literals_of r) None) as [t|e'| |] eqn:L;
      try discriminate.
    apply literals_Err in L as [[_ F]|[-> (pre & l & post & ty & E & HT & DT & F)]].
    + eapply R_no_literal; eauto.
    + eapply R_number; eauto. destruct F as [F|[_ F]]; auto.
  - destruct (into_resource (papply s resource)) as [r|] eqn:Hr; [|discriminate].
    cbn [unwrap bind] in H. destruct (iris_of r) as [|i1 [|]]; discriminate.
  - destruct (hydrate_fields D rec g ref s fields []) as [m|e'| |] eqn:F; try discriminate.
    apply fields_Err in F. eapply R_product; eauto.
  - destruct (hydrate_variants D rec g ref s 0 variants None) as [[[i v]|]|e'| |] eqn:F;
      try discriminate.
    apply variants_Err in F. eapply R_sum; eauto.
  - destruct (hydrate_items rec g (it_value item) (stream D (with_default_graph g (it_dataset item))
       (sintro s (it_intro item)))) as [m|e'| |] eqn:F; try discriminate.
    apply items_Err in F as (s' & I & V). rewrite with_default_graph_at in I.
    eapply stream_sound in I; eauto.
    eapply R_unordered; eauto. discriminate.
  - destruct (into_resource (papply s head)) as [hd|] eqn:Hh; [|discriminate].
    destruct (into_resource (papply s tail)) as [tl|] eqn:Ht; [|discriminate].
    cbn [unwrap bind] in H. apply papply_pinst in Hh, Ht.
    destruct (hydrate_nodes D rec fuel g ref s node hd tl) as [m|e'| |] eqn:F; try discriminate.
    apply nodes_Err in F. eapply R_ordered; eauto.
  - destruct (hydrate_tuple D rec g ref s 0 items) as [m|e'| |] eqn:F; try discriminate.
    apply tuple_Err in F. eapply R_sized; eauto.
Qed.

Lemma arity_input_count (l : layout R) : arity l = input_count l.
Proof. destruct l; reflexivity. Qed.

Lemma body_Ok fuel g ref inputs v :
  hydrate_body D reg rec fuel g ref inputs = Ok v -> Means g ref inputs v.
Proof.
  unfold hydrate_body. destruct (reg ref) as [l|] eqn:E; [|discriminate]. cbn [ok_or bind].
  rewrite <- arity_input_count. destruct (arity l) as [n|] eqn:A.
  - destruct (Nat.eqb_spec n (length inputs)) as [L|]; [|discriminate].
    apply layout_Ok. split; auto. intros n'. congruence.
  - apply layout_Ok. split; auto. intros n'. congruence.
Qed.

Lemma body_Err fuel g ref inputs e :
  hydrate_body D reg rec fuel g ref inputs = Err e -> Rejects g ref inputs.
Proof.
  unfold hydrate_body. destruct (reg ref) as [l|] eqn:E; cbn [ok_or bind].
  2:{ intros _. now apply R_undefined. }
  rewrite <- arity_input_count. destruct (arity l) as [n|] eqn:A.
  - destruct (Nat.eqb_spec n (length inputs)) as [L|L].
    + apply layout_Err. split; auto. intros n'. congruence.
    + intros _. eapply R_arity; eauto.
  - apply layout_Err. split; auto. intros n'. congruence.
Qed.

End Sound.

Section SoundRec.
Context {R : Type} {CR : Cmp R} {LR : CmpLaws R} {IR : Interp R} {X : Xsd}.

Theorem hydrate_sound (D : dataset R) G (reg : registry R) :
  enumerates D G -> registry_sorted reg ->
  forall fuel g ref inputs,
  (forall v, hydrate_with D reg fuel g ref inputs = Ok v -> Means G reg false g ref inputs v) /\
  (forall e, hydrate_with D reg fuel g ref inputs = Err e -> Rejects G reg false g ref inputs).
Proof.
  intros EN RS. induction fuel as [|fuel IH]; intros g ref inputs;
    cbn [hydrate_with]; [split; discriminate|].
  split; [intros v; eapply body_Ok|intros e; eapply body_Err]; eauto; intros; eapply IH; eauto.
Qed.
End SoundRec.

(** ** The semantics is deterministic *)

Scheme Means_mut := Minimality for Means Sort Prop
with Rejects_mut := Minimality for Rejects Sort Prop
with VMeans_mut := Minimality for VMeans Sort Prop
with VRejects_mut := Minimality for VRejects Sort Prop
with VDecided_mut := Minimality for VDecided Sort Prop
with Fields_mut := Minimality for Fields Sort Prop
with FieldsRej_mut := Minimality for FieldsRej Sort Prop
with Tuple_mut := Minimality for Tuple Sort Prop
with TupleRej_mut := Minimality for TupleRej Sort Prop
with Items_mut := Minimality for Items Sort Prop
with Nodes_mut := Minimality for Nodes Sort Prop
with NodesRej_mut := Minimality for NodesRej Sort Prop
with Excluded_mut := Minimality for Excluded Sort Prop
with NoVariant_mut := Minimality for NoVariant Sort Prop
with One_mut := Minimality for One Sort Prop
with VariantsRej_mut := Minimality for VariantsRej Sort Prop.
Combined Scheme semantics_ind from Means_mut, Rejects_mut, VMeans_mut, VRejects_mut, VDecided_mut,
  Fields_mut, FieldsRej_mut, Tuple_mut, TupleRej_mut, Items_mut, Nodes_mut, NodesRej_mut,
  Excluded_mut, NoVariant_mut, One_mut, VariantsRej_mut.

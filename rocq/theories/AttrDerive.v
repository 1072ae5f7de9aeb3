(** * The layouts declared by Rust types (C79) *)

From Coq Require Import String Ascii List Bool Arith Lia Permutation Sorted.
Import ListNotations.
From Verif Require Import Base BaseProofs Orders PatternModel ValueModel LayoutModel HydrateModel TermModel RegexpModel
  DehydrateModel AbsModel AbsJsonModel AbsSpec AbsProofs AbsProperties AbsMeaning AbsRegistry
  AbsAcceptSpec AbsAccept
  VariableModel VariableSpec VariableProofs AttrModel AttrSpec AttrProofs AttrProperties.
Open Scope list_scope.
Open Scope nat_scope.

(** ** Outcomes *)

Definition settled {E A} (o : outcome E A) : Prop :=
  match o with Ok _ | Err _ => True | _ => False end.

Lemma settled_bind {E A B} (o : outcome E A) (k : A -> outcome E B) :
  settled o -> (forall a, o = Ok a -> settled (k a)) -> settled (bind o k).
Proof. destruct o; cbn; auto. Qed.

Lemma after_comma_settled {A} (a : pres A) (f : list token -> pres A) ts :
  settled a -> (forall ts2, length ts2 < length ts -> settled (f ts2)) ->
  settled (match ts with
           | [] => a
           | TkPunct "," :: ts2 => f ts2
           | t :: _ => Err (UnexpectedToken t)
           end).
Proof.
  intros Ha Hf. destruct ts as [|[n|c|s|s|g] ts2]; try exact I; [exact Ha|].
  destruct c as [[] [] [] [] [] [] [] []]; try exact I. apply Hf. cbn. lia.
Qed.

Section Settled.
Context {TS : TextSyntax}.
Hypothesis BN : blank_names.

Lemma string_token_settled t : settled (string_token t).
Proof. destruct t; exact I. Qed.
Lemma parse_string_settled ts : settled (parse_string ts).
Proof. destruct ts as [|t [|t' ts]]; try exact I. apply string_token_settled. Qed.
Lemma compact_iri_settled ts : settled (parse_compact_iri ts).
Proof. apply settled_bind; [apply parse_string_settled|]. intros s _. destruct (is_iri_ref s); exact I. Qed.
Lemma parse_pattern_settled s : settled (parse_pattern s).
Proof.
  unfold parse_pattern. destruct (blank_suffix s) as [n|] eqn:B; [|destruct (is_iri_ref s); exact I].
  apply BN in B. now rewrite (proj2 (variable_name_new_spec n n) (conj eq_refl B)).
Qed.
Lemma pattern_token_settled t : settled (pattern_token t).
Proof. apply settled_bind; [apply string_token_settled|]. intros; apply parse_pattern_settled. Qed.
Lemma replace_settled {T} (eq : T -> T -> bool) o v : settled (replace eq o v).
Proof. destruct o as [old|]; [|exact I]. cbn. destruct (eq old v); exact I. Qed.

Lemma quad_token_settled t : settled (quad_token t).
Proof.
  destruct t as [n|c|s|s|g]; try exact I. destruct g as [|t1 r1]; [exact I|]. cbn [quad_token].
  apply settled_bind; [apply pattern_token_settled|]. intros s _.
  refine (after_comma_settled (Err MissingToken) _ _ I _). intros [|t2 r2] _; [exact I|].
  apply settled_bind; [apply pattern_token_settled|]. intros p _.
  refine (after_comma_settled (Err MissingToken) _ _ I _). intros [|t3 r3] _; [exact I|].
  apply settled_bind; [apply pattern_token_settled|]. intros o _.
  destruct r3 as [|[n|c|n|n|n] r3]; try exact I.
  destruct c as [[] [] [] [] [] [] [] []]; try exact I.
  destruct r3 as [|t4 r4]; [exact I|]. apply settled_bind; [apply pattern_token_settled|]. intros; exact I.
Qed.

Lemma parse_list_settled {T} (f : token -> pres T) ts : (forall t, settled (f t)) -> settled (parse_list f ts).
Proof.
  intros F. remember (length ts) as n eqn:N. revert ts N. induction n as [n IH] using lt_wf_ind.
  intros [|t ts1] N; [exact I|]. cbn [parse_list]. apply settled_bind; [apply F|]. intros v _.
  refine (after_comma_settled (Ok [v]) _ _ I _). intros ts2 L. apply settled_bind; [|intros; exact I].
  apply (IH (length ts2)); [cbn in N; lia|reflexivity].
Qed.

Lemma binding_list_settled ts : settled (parse_binding_list ts).
Proof.
  remember (length ts) as n eqn:N. revert ts N. induction n as [n IH] using lt_wf_ind.
  intros [|t ts1] N; [exact I|]. cbn [parse_binding_list]. apply settled_bind; [apply string_token_settled|]. intros v _.
  destruct ts1 as [|[n0|c|n0|n0|n0] ts1]; try exact I.
  destruct c as [[] [] [] [] [] [] [] []]; try exact I.
  destruct ts1 as [|t2 ts2]; [exact I|]. apply settled_bind; [apply string_token_settled|]. intros s _.
  destruct (is_iri_ref s); [|exact I].
  refine (after_comma_settled (Ok _) _ _ I _). intros ts3 L. apply settled_bind; [|intros; exact I].
  apply (IH (length ts3)); [cbn in N; lia|reflexivity].
Qed.

Lemma graph_value_settled ts : settled (parse_graph_value ts).
Proof.
  destruct ts as [|[n|c|n|n|n] ts]; try exact I. cbn [parse_graph_value].
  destruct (String.eqb n "_"); [destruct ts; exact I|]. destruct (String.eqb n "None"); [destruct ts; exact I|].
  destruct (String.eqb n "Some"); [|exact I]. destruct ts as [|[m|c|m|m|[|t g]] ts]; try exact I.
  apply settled_bind; [apply pattern_token_settled|]. intros; exact I.
Qed.

Ltac settle :=
  repeat first [ exact I | apply compact_iri_settled | apply parse_string_settled
               | apply parse_pattern_settled | apply replace_settled | apply binding_list_settled
               | apply graph_value_settled
               | apply parse_list_settled; intros; first [apply string_token_settled | apply quad_token_settled | apply pattern_token_settled]
               | apply settled_bind; [|intros ? _] ].

Lemma set_type_attr_settled name g r : settled (set_type_attr name g r).
Proof.
  destruct r. unfold set_type_attr.
  repeat match goal with |- settled (if ?b then _ else _) => destruct b; [settle|] end. exact I.
Qed.

Lemma set_comp_attr_settled name g r : settled (set_comp_attr name g r).
Proof.
  destruct r. unfold set_comp_attr.
  repeat match goal with |- settled (if ?b then _ else _) => destruct b; [settle|] end. exact I.
Qed.

Lemma type_tokens_settled ts : forall r, settled (type_tokens ts r).
Proof.
  remember (length ts) as n eqn:N. revert ts N. induction n as [n IH] using lt_wf_ind.
  intros [|t ts1] N r; [exact I|]. destruct t as [name|c|s|s|g]; try exact I. cbn [type_tokens].
  assert (forall r ts', length ts' <= length ts1 -> settled (match ts' with [] => Ok r | TkPunct "," :: ts2 => type_tokens ts2 r
            | t :: _ => Err (UnexpectedToken t) end)) as K.
  { intros r' ts' L. refine (after_comma_settled (Ok r') (fun ts2 => type_tokens ts2 r') _ I _). intros ts2 L'.
    apply (IH (length ts2)); [cbn in N; lia|reflexivity]. }
  destruct (kind_from_ident name) as [k|].
  - apply settled_bind; [unfold set_kind; settle|]. intros r1 _. now apply K.
  - destruct (is_keyword name type_keywords); [|now apply K].
    destruct ts1 as [|[n0|c|n0|n0|g] ts2]; try exact I.
    apply settled_bind; [apply set_type_attr_settled|]. intros r1 _. apply K. cbn. lia.
Qed.

Lemma comp_tokens_settled ts : forall r, settled (comp_tokens ts r).
Proof.
  remember (length ts) as n eqn:N. revert ts N. induction n as [n IH] using lt_wf_ind.
  intros [|t ts1] N r; [exact I|].
  assert (forall r ts', length ts' <= length ts1 -> settled (match ts' with [] => Ok r | TkPunct "," :: ts2 => comp_tokens ts2 r
            | t :: _ => Err (UnexpectedToken t) end)) as K.
  { intros r' ts' L. refine (after_comma_settled (Ok r') (fun ts2 => comp_tokens ts2 r') _ I _). intros ts2 L'.
    apply (IH (length ts2)); [cbn in N; lia|reflexivity]. }
  destruct t as [name|c|s|s|g]; try exact I; cbn [comp_tokens].
  - destruct (is_keyword name comp_keywords); [|now apply K].
    destruct ts1 as [|[n0|c|n0|n0|g] ts2]; try exact I.
    apply settled_bind; [apply set_comp_attr_settled|]. intros r1 _. apply K. cbn. lia.
  - apply settled_bind; [unfold set_property; settle|]. intros r1 _. now apply K.
Qed.

Lemma type_attributes_settled attrs : forall r, settled (type_attributes attrs r).
Proof.
  induction attrs as [|a attrs IH]; intros r; [exact I|]. cbn [type_attributes].
  destruct (String.eqb (at_path a) "tldr"); [|apply IH]. destruct (at_tokens a); [|exact I].
  apply settled_bind; [apply type_tokens_settled|]. intros; apply IH.
Qed.

Lemma comp_attributes_settled attrs : forall r, settled (comp_attributes attrs r).
Proof.
  induction attrs as [|a attrs IH]; intros r; [exact I|]. cbn [comp_attributes].
  destruct (String.eqb (at_path a) "tldr"); [|apply IH]. destruct (at_tokens a); [|exact I].
  apply settled_bind; [apply comp_tokens_settled|]. intros; apply IH.
Qed.

Lemma record_fields_settled fs : forall types, settled (record_fields fs types).
Proof.
  induction fs as [|f fs IH]; intros types; [exact I|]. cbn [record_fields].
  apply settled_bind; [apply comp_attributes_settled|]. intros a _. destruct (field_type (rf_type f)) as [rq ty].
  destruct (type_insert ty types) as [iri tys]. apply settled_bind; [apply IH|]. intros; exact I.
Qed.

Lemma sum_variants_settled vs : forall types, settled (sum_variants vs types).
Proof.
  induction vs as [|v vs IH]; intros types; [exact I|]. cbn [sum_variants].
  apply settled_bind; [apply comp_attributes_settled|]. intros a _. destruct (rv_fields v) as [l|[|f [|f' l]]|]; try exact I.
  destruct (type_insert (rf_type f) types) as [iri tys]. apply settled_bind; [apply IH|]. intros; exact I.
Qed.

Lemma tuple_items_settled fs : forall types, settled (tuple_items fs types).
Proof.
  induction fs as [|f fs IH]; intros types; [exact I|]. cbn [tuple_items].
  apply settled_bind; [apply comp_attributes_settled|]. intros a _.
  destruct (type_insert (rf_type f) types) as [iri tys]. apply settled_bind; [apply IH|]. intros; exact I.
Qed.

Lemma vec_item_other n a b ty : n <> "Vec"%string -> vec_item (RPath a b [(n, ty)]) = Err ExpectedVec.
Proof.
  intros N. destruct a; [reflexivity|].
  do 3 (destruct n as [|[[] [] [] [] [] [] [] []] n]; try reflexivity).
  destruct n; [congruence|reflexivity].
Qed.
Lemma field_type_other n a b ty : n <> "Option"%string -> field_type (RPath a b [(n, ty)]) = (true, RPath a b [(n, ty)]).
Proof.
  intros N. destruct a; [reflexivity|].
  do 6 (destruct n as [|[[] [] [] [] [] [] [] []] n]; try reflexivity).
  destruct n; [congruence|reflexivity].
Qed.

Lemma vec_item_cases ty : (exists item, generic_of "Vec" ty item /\ vec_item ty = Ok item) \/
  ((forall item, ~ generic_of "Vec" ty item) /\ vec_item ty = Err ExpectedVec).
Proof.
  destruct ty as [q c [|[n a] [|s l]]|t]; try (right; split; [intros item [c' E]; discriminate|try destruct q; reflexivity]).
  - destruct (string_dec n "Vec") as [->|N].
    + destruct q; [right; split; [intros item [c' E]; discriminate|reflexivity]|].
      destruct a as [|[|[t|] [|]]|]; try (right; split; [intros item [c' E]; discriminate|reflexivity]).
      left. exists t. split; [now exists c|reflexivity].
    + right. split; [intros item [c' E]; congruence|]. now apply vec_item_other.
  - right. split; [intros item [c' E]; discriminate|]. destruct q; [reflexivity|].
    do 3 (destruct n as [|[[] [] [] [] [] [] [] []] n]; try reflexivity).
    destruct n; [|reflexivity]. destruct a as [|[|[t|] [|]]|]; reflexivity.
Qed.
Lemma field_type_cases ty : (exists item, generic_of "Option" ty item /\ field_type ty = (false, item)) \/
  ((forall item, ~ generic_of "Option" ty item) /\ field_type ty = (true, ty)).
Proof.
  destruct ty as [q c [|[n a] [|s l]]|t]; try (right; split; [intros item [c' E]; discriminate|try destruct q; reflexivity]).
  - destruct (string_dec n "Option") as [->|N].
    + destruct q; [right; split; [intros item [c' E]; discriminate|reflexivity]|].
      destruct a as [|[|[t|] [|]]|]; try (right; split; [intros item [c' E]; discriminate|reflexivity]).
      left. exists t. split; [now exists c|reflexivity].
    + right. split; [intros item [c' E]; congruence|]. now apply field_type_other.
  - right. split; [intros item [c' E]; discriminate|]. destruct q; [reflexivity|].
    do 6 (destruct n as [|[[] [] [] [] [] [] [] []] n]; try reflexivity).
    destruct n; [|reflexivity]. destruct a as [|[|[t|] [|]]|]; reflexivity.
Qed.

Lemma vec_item_spec ty item : vec_item ty = Ok item <-> generic_of "Vec" ty item.
Proof.
  destruct (vec_item_cases ty) as [[item' [G ->]]|[N ->]].
  - split; [now intros [= <-]|]. intros G'. destruct G as [c ->]. destruct G' as [c' E]. congruence.
  - split; [discriminate|]. intros G. now destruct (N item).
Qed.
Lemma vec_item_settled ty : settled (vec_item ty).
Proof. destruct (vec_item_cases ty) as [[item [_ ->]]|[_ ->]]; exact I. Qed.

(** Reading a type never panics, when the names of blank nodes are names of variables. *)
Theorem C79_reading_settles input : settled (parse_input input).
Proof.
  unfold parse_input. apply settled_bind; [apply type_attributes_settled|]. intros r _.
  apply settled_bind.
  { destruct (ta_kind r); [exact I|]. destruct (di_data input) as [[| |]| |]; exact I. }
  intros k _. destruct k; try exact I.
  - apply settled_bind; [destruct (ta_datatype r); exact I|]. intros; exact I.
  - apply settled_bind; [destruct (ta_datatype r); exact I|]. intros; exact I.
  - destruct (di_data input) as [[fs| |]| |]; try exact I. apply settled_bind; [apply record_fields_settled|]. intros; exact I.
  - destruct (di_data input) as [|vs|]; try exact I. apply settled_bind; [apply sum_variants_settled|]. intros; exact I.
  - destruct (di_data input) as [[|[|f [|]]|]| |]; try exact I. apply settled_bind; [apply comp_attributes_settled|].
    intros a _. apply settled_bind; [apply vec_item_settled|]. intros; exact I.
  - destruct (di_data input) as [[|[|f [|]]|]| |]; try exact I. apply settled_bind; [apply comp_attributes_settled|].
    intros a _. apply settled_bind; [apply vec_item_settled|]. intros; exact I.
  - destruct (di_data input) as [[|fs|]| |]; try exact I. apply settled_bind; [apply tuple_items_settled|]. intros; exact I.
Qed.
End Settled.

(** ** C79: the layout of a type *)

Section Declared.
Context {TS : TextSyntax}.

Lemma default_is {A} (o : option A) d : is_default o d (or_default o d).
Proof. destruct o; [now left|now right]. Qed.
Lemma component_attrs_spec attrs a : comp_attributes attrs comp_attrs_default = Ok a <-> component_attrs attrs a.
Proof. apply C77_component. Qed.

Lemma format_is types default a ty i : nth_error types i = Some ty ->
  format_declared types default a ty (attrs_format default a (type_iri i)).
Proof. intros N. do 3 eexists. split; [reflexivity|]. split; [now exists i|]. split; apply default_is. Qed.

Lemma item_is types attrs a ty i : component_attrs attrs a -> nth_error types i = Some ty ->
  item_declared types attrs ty (attrs_item a (type_iri i)).
Proof.
  intros A N. exists a. split; [exact A|]. split; [apply default_is|]. split; [apply default_is|].
  split; [reflexivity|]. now apply format_is.
Qed.

Lemma header_is r : header_declared r (attrs_header r).
Proof. repeat split; apply default_is. Qed.

Lemma nth_middle {A} (l : list A) x l' : nth_error ((l ++ [x]) ++ l') (length l) = Some x.
Proof. rewrite <- app_assoc, nth_error_app2, Nat.sub_diag by lia. reflexivity. Qed.

Lemma record_fields_is fs : forall types0 l types, record_fields fs types0 = Ok (l, types) ->
  exists ext, types = types0 ++ ext /\ length ext = length fs /\ Forall2 (field_declared types) fs l.
Proof.
  induction fs as [|f fs IH]; intros types0 l types H; cbn [record_fields] in H.
  - injection H as <- <-. exists []. rewrite app_nil_r. repeat split. constructor.
  - apply bind_iff in H as (a & A & H). apply component_attrs_spec in A.
    destruct (field_type (rf_type f)) as [rq ty] eqn:F. cbn [type_insert] in H.
    apply bind_iff in H as ([l' types'] & R & H). injection H as <- <-. cbn [fst snd].
    destruct (IH _ _ _ R) as (ext & -> & L & FF). exists (ty :: ext). split; [now rewrite <- app_assoc|].
    split; [cbn; lia|]. constructor; [|exact FF]. split; [reflexivity|]. exists ty. cbn [snd af_item af_required].
    split; [apply item_is; [exact A|apply nth_middle]|].
    destruct (field_type_cases (rf_type f)) as [(item & G & E)|[N E]]; rewrite E in F; injection F as <- <-; auto.
Qed.

Lemma sum_variants_is vs : forall types0 l types, sum_variants vs types0 = Ok (l, types) ->
  exists ext, types = types0 ++ ext /\ length ext = length vs /\ Forall2 (variant_declared types) vs l.
Proof.
  induction vs as [|v vs IH]; intros types0 l types H; cbn [sum_variants] in H.
  - injection H as <- <-. exists []. rewrite app_nil_r. repeat split. constructor.
  - apply bind_iff in H as (a & A & H). apply component_attrs_spec in A.
    destruct (rv_fields v) as [x|[|f [|f' x]]|] eqn:F; try discriminate. cbn [type_insert] in H.
    apply bind_iff in H as ([l' types'] & R & H). injection H as <- <-. cbn [fst snd].
    destruct (IH _ _ _ R) as (ext & -> & L & FF). exists (rf_type f :: ext). split; [now rewrite <- app_assoc|].
    split; [cbn; lia|]. constructor; [|exact FF]. split; [reflexivity|]. exists a, f. cbn [snd av_intro av_dataset av_value].
    split; [exact A|]. split; [exact F|]. split; [apply default_is|]. split; [apply default_is|].
    apply format_is, nth_middle.
Qed.

Lemma tuple_items_is fs : forall types0 l types, tuple_items fs types0 = Ok (l, types) ->
  types = types0 ++ map rf_type fs /\ Forall2 (fun f it => item_declared types (rf_attrs f) (rf_type f) it) fs l.
Proof.
  induction fs as [|f fs IH]; intros types0 l types H; cbn [tuple_items] in H.
  - injection H as <- <-. cbn [map]. rewrite app_nil_r. repeat split. constructor.
  - apply bind_iff in H as (a & A & H). apply component_attrs_spec in A. cbn [type_insert] in H.
    apply bind_iff in H as ([l' types'] & R & H). injection H as <- <-. cbn [fst snd].
    destruct (IH _ _ _ R) as (-> & FF). split; [cbn [map]; now rewrite <- app_assoc|].
    constructor; [|exact FF]. apply item_is; [exact A|apply nth_middle].
Qed.

Lemma collect_permutation {K V} `{CmpLaws K} (l : list (K * V)) : NoDup (map fst l) -> Permutation l (bt_collect l).
Proof.
  intros ND. apply NoDup_Permutation.
  - clear -ND. induction l as [|[k v] l IH]; cbn in *; inversion ND as [|? ? N ND']; subst; constructor; auto.
    intros I. apply N. apply in_map_iff. now exists (k, v).
  - pose proof (bt_collect_wf l) as W. unfold bt_wf in W. fold (keys (bt_collect l)) in W.
    assert (NoDup (keys (bt_collect l))) as ND'.
    { revert W. generalize (keys (bt_collect l)). clear -H. intros ks0 W. induction W as [|k ks S IH F]; constructor; auto. intros I. rewrite Forall_forall in F.
      apply F in I. unfold lt in I. rewrite cmp_refl in I. discriminate. }
    clear -ND'. unfold keys in ND'. induction (bt_collect l) as [|[k v] m IH]; cbn in *; inversion ND' as [|? ? N ND'']; subst; constructor; auto.
    intros I. apply N. apply in_map_iff. now exists (k, v).
  - intros [k v]. symmetry. now apply AutomatonProofs.bt_collect_In.
Qed.

Lemma fields_keys types fs l : Forall2 (field_declared types) fs l ->
  map fst l = map (fun f => VLit (LText (rf_name f))) fs.
Proof. intros F. induction F as [|f e fs l [E _] F IH]; cbn; congruence. Qed.
Lemma variants_keys types vs l : Forall2 (variant_declared types) vs l -> map fst l = map rv_name vs.
Proof. intros F. induction F as [|f e fs l [E _] F IH]; cbn; congruence. Qed.

(** The layout read from a type is the one it declares. *)
Theorem C79_layout input al types : parse_input input = Ok (al, types) -> declared input al types.
Proof.
  unfold parse_input. intros H. apply bind_iff in H as (r & R & H). apply C77_type in R as (l & S & R).
  apply bind_iff in H as (k & K & H). exists l, r, k. split; [exact S|]. split; [exact R|]. split.
  { unfold kind_declared. destruct (ta_kind r) as [k'|]; [left; congruence|right]. split; [reflexivity|].
    unfold shape_kind. destruct (di_data input) as [[| |]| |]; cbn in K; congruence. }
  exists (attrs_header r). split; [apply header_is|].
  destruct k; cbn beta iota in H.
  - injection H as <- <-. auto.
  - injection H as <- <-. auto.
  - injection H as <- <-. auto.
  - destruct (ta_datatype r) as [dt|]; [|discriminate]. injection H as <- <-. exists dt. auto.
  - injection H as <- <-. auto.
  - destruct (ta_datatype r) as [dt|]; [|discriminate]. injection H as <- <-. exists dt. auto.
  - destruct (di_data input) as [[fs| |]| |]; try discriminate.
    apply bind_iff in H as ([l' types'] & F & H). injection H as <- <-. cbn [fst snd].
    destruct (record_fields_is _ _ _ _ F) as (ext & -> & L & FF). cbn [app] in *.
    exists fs, l', (bt_collect l'). split; [reflexivity|]. split; [reflexivity|]. split; [exact FF|]. split; [exact L|].
    intros ND. split; [|apply bt_collect_wf]. apply collect_permutation. rewrite (fields_keys _ _ _ FF).
    rewrite <- (map_map rf_name (fun s => VLit (LText s))). apply FinFun.Injective_map_NoDup; [|exact ND].
    intros s s' [= E]. exact E.
  - destruct (di_data input) as [|vs|]; try discriminate.
    apply bind_iff in H as ([l' types'] & F & H). injection H as <- <-. cbn [fst snd].
    destruct (sum_variants_is _ _ _ _ F) as (ext & -> & L & FF). cbn [app] in *.
    exists vs, l', (bt_collect l'). split; [reflexivity|]. split; [reflexivity|]. split; [exact FF|]. split; [exact L|].
    intros ND. split; [|apply bt_collect_wf]. apply collect_permutation. now rewrite (variants_keys _ _ _ FF).
  - destruct (di_data input) as [[|[|f [|]]|]| |]; try discriminate.
    apply bind_iff in H as (a & A & H). apply component_attrs_spec in A. apply bind_iff in H as (ty & V & H).
    apply vec_item_spec in V. cbn [type_insert] in H. injection H as <- <-. exists f, ty, (attrs_item a (type_iri 0)).
    repeat (split; [first [reflexivity|assumption]|]). split; [|reflexivity]. now apply item_is.
  - destruct (di_data input) as [[|[|f [|]]|]| |]; try discriminate.
    apply bind_iff in H as (a & A & H). apply component_attrs_spec in A. apply bind_iff in H as (ty & V & H).
    apply vec_item_spec in V. cbn [type_insert] in H. injection H as <- <-.
    exists f, ty, a. do 6 eexists. split; [reflexivity|]. split; [reflexivity|].
    split; [exact V|]. split; [exact A|]. repeat (split; [first [apply default_is|now apply format_is]|]). reflexivity.
  - destruct (di_data input) as [[|fs|]| |]; try discriminate.
    apply bind_iff in H as ([l' types'] & F & H). injection H as <- <-. cbn [fst snd].
    destruct (tuple_items_is _ _ _ _ F) as (-> & FF). cbn [app] in *. exists fs, l'. auto.
Qed.

Lemma component_ok_spec attrs : component_ok attrs -> exists a, comp_attributes attrs comp_attrs_default = Ok a.
Proof. intros [a A]. exists a. now apply component_attrs_spec. Qed.

Lemma record_fields_ok fs : (forall f, In f fs -> component_ok (rf_attrs f)) ->
  forall types, exists p, record_fields fs types = Ok p.
Proof.
  induction fs as [|f fs IH]; intros O types; [now eexists|]. cbn [record_fields].
  destruct (component_ok_spec _ (O f (or_introl eq_refl))) as [a ->]. cbn [bind].
  destruct (field_type (rf_type f)) as [rq ty]. cbn [type_insert].
  destruct (IH (fun g I => O g (or_intror I)) (types ++ [ty])) as [p ->]. now eexists.
Qed.

Lemma sum_variants_ok vs : (forall v, In v vs -> component_ok (rv_attrs v) /\ exists f, rv_fields v = FUnnamed [f]) ->
  forall types, exists p, sum_variants vs types = Ok p.
Proof.
  induction vs as [|v vs IH]; intros O types; [now eexists|]. cbn [sum_variants].
  destruct (O v (or_introl eq_refl)) as [C [f F]]. destruct (component_ok_spec _ C) as [a ->]. cbn [bind].
  rewrite F. cbn [type_insert]. destruct (IH (fun g I => O g (or_intror I)) (types ++ [rf_type f])) as [p ->]. now eexists.
Qed.

Lemma tuple_items_ok fs : (forall f, In f fs -> component_ok (rf_attrs f)) ->
  forall types, exists p, tuple_items fs types = Ok p.
Proof.
  induction fs as [|f fs IH]; intros O types; [now eexists|]. cbn [tuple_items].
  destruct (component_ok_spec _ (O f (or_introl eq_refl))) as [a ->]. cbn [bind type_insert].
  destruct (IH (fun g I => O g (or_intror I)) (types ++ [rf_type f])) as [p ->]. now eexists.
Qed.

Lemma Forall2_left {A B} (P : A -> B -> Prop) (Q : A -> Prop) l l' : Forall2 P l l' -> (forall a b, P a b -> Q a) ->
  forall a, In a l -> Q a.
Proof. intros F I. induction F; intros z; [intros []|]. intros [<-|X]; eauto. Qed.

(** A type is accepted exactly when it declares a layout. *)
Theorem C79_accepted input : (exists p, parse_input input = Ok p) <-> declares_layout input.
Proof.
  split.
  - intros [[al types] H]. apply C79_layout in H as (l & r & k & S & R & K & h & _ & D).
    exists l, r, k. split; [exact S|]. split; [exact R|]. split; [exact K|]. unfold shape_ok.
    destruct k; try exact I.
    + destruct D as (dt & E & _). now exists dt.
    + destruct D as (dt & E & _). now exists dt.
    + destruct D as (fs & l' & es & E & _ & F & _). exists fs. split; [exact E|].
      apply (Forall2_left _ _ _ _ F). intros f e (_ & ty & (a & A & _) & _). now exists a.
    + destruct D as (fs & l' & es & E & _ & F & _). exists fs. split; [exact E|].
      apply (Forall2_left _ _ _ _ F). intros v e (_ & a & f & A & X & _). split; [now exists a|now exists f].
    + destruct D as (f & ty & it & E & _ & V & (a & A & _) & _). exists f. split; [exact E|]. split; [now exists a|now exists ty].
    + destruct D as (f & ty & a & h1 & h2 & h3 & h4 & h5 & h6 & E & _ & V & A & _). exists f. split; [exact E|].
      split; [now exists a|now exists ty].
    + destruct D as (fs & its & E & _ & F & _). exists fs. split; [exact E|].
      apply (Forall2_left _ _ _ _ F). intros f e (a & A & _). now exists a.
  - intros (l & r & k & S & R & K & D). unfold parse_input.
    rewrite (proj2 (C77_type _ r)) by (now exists l). cbn [bind].
    assert (match ta_kind r with Some k => Ok k | None => kind_from_data (di_data input) end = Ok k) as ->.
    { destruct K as [-> | [-> K]]; [reflexivity|]. destruct (di_data input) as [[| |]| |]; cbn in *; try subst; try reflexivity. contradiction. }
    cbn [bind]. destruct k; cbn [shape_ok] in D; try (eexists; reflexivity).
    + destruct D as [dt ->]. now eexists.
    + destruct D as [dt ->]. now eexists.
    + destruct D as [fs [-> O]]. destruct (record_fields_ok fs O []) as [p ->]. now eexists.
    + destruct D as [fs [-> O]]. destruct (sum_variants_ok fs O []) as [p ->]. now eexists.
    + destruct D as (f & -> & O & ty & V). destruct (component_ok_spec _ O) as [a ->]. cbn [bind].
      apply vec_item_spec in V as ->. now eexists.
    + destruct D as (f & -> & O & ty & V). destruct (component_ok_spec _ O) as [a ->]. cbn [bind].
      apply vec_item_spec in V as ->. now eexists.
    + destruct D as [fs [-> O]]. destruct (tuple_items_ok fs O []) as [p ->]. now eexists.
Qed.
End Declared.

(** ** The layout of a derived type *)

(** The layouts whose references are all IRIs, without regular expressions. *)
Definition flat_format (f : aformat alayout) : Prop :=
  match f with AFormat (RefIri _) _ _ | AFormatLayout (RefIri _) => True | _ => False end.
Definition flat (al : alayout) : Prop :=
  match al with
  | AUnit _ _ => True
  | ALiteralL (AKTextString (Some _) _) _ _ | ALiteralL (AKId (Some _)) _ _ => False
  | ALiteralL _ _ _ => True
  | AProduct _ fs => forall e, In e fs -> flat_format (ai_value (af_item (snd e)))
  | ASum _ vs => forall e, In e vs -> flat_format (av_value (snd e))
  | AOrdered _ (ANode _ _ _ f _) _ _ => flat_format f
  | AOrdered _ (ANodeLayout _) _ _ => False
  | AUnordered _ it => flat_format (ai_value it)
  | ASized _ its => forall it, In it its -> flat_format (ai_value it)
  | ABool _ | AUnion _ | AIntersection _ => False
  end.

Lemma collect_values {K V} {CK : Cmp K} (P : V -> Prop) (l : list (K * V)) :
  (forall e, In e l -> P (snd e)) -> forall e, In e (bt_collect l) -> P (snd e).
Proof. intros F [k v] I. apply AbsProofs.bt_collect_In in I as [k' I]. exact (F _ I). Qed.

Lemma nested_flat al l : flat al -> nested al l -> False.
Proof.
  intros F N. destruct N as [h fs k f l I N|h vs n v l I N|h hd rs intro f ds p q l N|h r p q l N|h it l N|h its it l I N];
    cbn [flat] in F.
  - specialize (F _ I). cbn [snd] in F. destruct (ai_value (af_item f)) as [[] ? ?|[]]; cbn in *; unfold nested_ref in N; (contradiction || discriminate).
  - specialize (F _ I). cbn [snd] in F. destruct (av_value v) as [[] ? ?|[]]; cbn in *; unfold nested_ref in N; (contradiction || discriminate).
  - destruct f as [[] ? ?|[]]; cbn in *; unfold nested_ref in N; (contradiction || discriminate).
  - contradiction.
  - destruct (ai_value it) as [[] ? ?|[]]; cbn in *; unfold nested_ref in N; (contradiction || discriminate).
  - specialize (F _ I). destruct (ai_value it) as [[] ? ?|[]]; cbn in *; unfold nested_ref in N; (contradiction || discriminate).
Qed.

Lemma inside_flat al l : flat al -> inside al l -> l = al.
Proof. intros F I. destruct I as [|l l' l'' N I]; [reflexivity|]. destruct (nested_flat _ _ F N). Qed.

Section Flat.
Context {TS : TextSyntax}.

Lemma record_fields_flat fs : forall types0 l types, record_fields fs types0 = Ok (l, types) ->
  forall e, In e l -> flat_format (ai_value (af_item (snd e))).
Proof.
  induction fs as [|f fs IH]; intros types0 l types H; cbn [record_fields] in H.
  - injection H as <- <-. intros e [].
  - apply bind_iff in H as (a & A & H). destruct (field_type (rf_type f)) as [rq ty]. cbn [type_insert] in H.
    apply bind_iff in H as ([l' types'] & R & H). injection H as <- <-. cbn [fst snd].
    intros e [<-|I]; [exact Logic.I|]. exact (IH _ _ _ R e I).
Qed.
Lemma sum_variants_flat vs : forall types0 l types, sum_variants vs types0 = Ok (l, types) ->
  forall e, In e l -> flat_format (av_value (snd e)).
Proof.
  induction vs as [|v vs IH]; intros types0 l types H; cbn [sum_variants] in H.
  - injection H as <- <-. intros e [].
  - apply bind_iff in H as (a & A & H). destruct (rv_fields v) as [x|[|f [|f' x]]|]; try discriminate. cbn [type_insert] in H.
    apply bind_iff in H as ([l' types'] & R & H). injection H as <- <-. cbn [fst snd].
    intros e [<-|I]; [exact Logic.I|]. exact (IH _ _ _ R e I).
Qed.
Lemma tuple_items_flat fs : forall types0 l types, tuple_items fs types0 = Ok (l, types) ->
  forall e, In e l -> flat_format (ai_value e).
Proof.
  induction fs as [|f fs IH]; intros types0 l types H; cbn [tuple_items] in H.
  - injection H as <- <-. intros e [].
  - apply bind_iff in H as (a & A & H). cbn [type_insert] in H.
    apply bind_iff in H as ([l' types'] & R & H). injection H as <- <-. cbn [fst snd].
    intros e [<-|I]; [exact Logic.I|]. exact (IH _ _ _ R e I).
Qed.

Lemma parse_flat input al types : parse_input input = Ok (al, types) -> flat al.
Proof.
  unfold parse_input. intros H. apply bind_iff in H as (r & R & H). apply bind_iff in H as (k & K & H).
  destruct k; cbn beta iota in H.
  - injection H as <- <-. exact I.
  - injection H as <- <-. exact I.
  - injection H as <- <-. exact I.
  - destruct (ta_datatype r) as [dt|]; [|discriminate]. injection H as <- <-. exact I.
  - injection H as <- <-. exact I.
  - destruct (ta_datatype r) as [dt|]; [|discriminate]. injection H as <- <-. exact I.
  - destruct (di_data input) as [[fs| |]| |]; try discriminate.
    apply bind_iff in H as ([l' types'] & F & H). injection H as <- <-. cbn [fst snd flat].
    apply (collect_values (fun v => flat_format (ai_value (af_item v)))). exact (record_fields_flat _ _ _ _ F).
  - destruct (di_data input) as [|vs|]; try discriminate.
    apply bind_iff in H as ([l' types'] & F & H). injection H as <- <-. cbn [fst snd flat].
    apply (collect_values (fun v => flat_format (av_value v))). exact (sum_variants_flat _ _ _ _ F).
  - destruct (di_data input) as [[|[|f [|]]|]| |]; try discriminate.
    apply bind_iff in H as (a & A & H). apply bind_iff in H as (ty & V & H). cbn [type_insert] in H. injection H as <- <-. exact I.
  - destruct (di_data input) as [[|[|f [|]]|]| |]; try discriminate.
    apply bind_iff in H as (a & A & H). apply bind_iff in H as (ty & V & H). cbn [type_insert] in H. injection H as <- <-. exact I.
  - destruct (di_data input) as [[|fs|]| |]; try discriminate.
    apply bind_iff in H as ([l' types'] & F & H). injection H as <- <-. exact (tuple_items_flat _ _ _ _ F).
Qed.

(** *** Definitions without regular expressions *)
Definition patternless {R} (p : prelayout R) : Prop :=
  match p with PreOf _ | PreText None _ _ _ | PreId _ _ None => True | _ => False end.

Lemma build_patternless {E R} {CR : Cmp R} fuel (b : @builder R) : (forall r p, In (r, p) b -> patternless p) ->
  exists m, builder_build (E := E) fuel b = Ok m.
Proof.
  unfold builder_build. generalize (@nil (R * layout R)). induction b as [|[id p] b IH]; intros m H; [now exists m|].
  cbn [builder_build_into]. assert (exists l, compile (E := E) fuel p = Ok l) as [l ->].
  { specialize (H _ _ (or_introl eq_refl)). destruct p as [l0|[pat|] h res dt|h res [pat|]|ls|ls]; cbn in *; try contradiction; eauto. }
  cbn [bind]. apply IH. intros r q I. apply (H r). now right.
Qed.

Context {IS : IriSyntax} {AE : AbsExternal}.

(** The meaning of these layouts does not depend on the other definitions. *)
Lemma flat_format_denotes {R} ri rl (rec rec' : alayout -> R -> Prop) env ns d f f' : flat_format f ->
  format_denotes ri rl rec env ns d f f' -> format_denotes ri rl rec' env ns d f f'.
Proof. destruct f as [[] ? ?|[]]; cbn; auto; contradiction. Qed.

Lemma all2_map {A B} (P Q : A -> B -> Prop) (l : list A) : forall l', (forall a b, In a l -> P a b -> Q a b) -> all2 P l l' -> all2 Q l l'.
Proof.
  induction l as [|a l IH]; intros [|b l'] F H; cbn [all2] in *; try contradiction; auto.
  destruct H as [H1 H2]. split; [apply F; [now left|exact H1]|]. apply IH; [|exact H2]. intros x y I. apply F. now right.
Qed.

Lemma flat_denotes {R} {CR : Cmp R} ri rl (rec rec' : ienv -> alayout -> R -> Prop) env al p : flat al ->
  layout_denotes ri rl rec env al p -> layout_denotes ri rl rec' env al p.
Proof.
  destruct al as [h c|k h res|h fs|h vs|h n hd tl|h it|h its|b|h|h]; cbn [flat layout_denotes]; intros F H; auto.
  - destruct H as (env' & hd & fs' & H1 & H2 & ->). exists env', hd, fs'. split; [exact H1|]. split; [|reflexivity].
    revert H2. apply all2_map. intros [k f] [k' f'] I (E1 & E2 & E3 & E4 & E5). split; [exact E1|]. split; [exact E2|].
    split; [exact E3|]. split; [|exact E5]. revert E4. apply flat_format_denotes. exact (F _ I).
  - destruct H as (env' & hd & fs' & H1 & H2 & ->). exists env', hd, fs'. split; [exact H1|]. split; [|reflexivity].
    revert H2. apply all2_map. intros [n v] v' I (E1 & E2 & E3 & E4). split; [exact E1|]. split; [exact E2|].
    split; [|exact E4]. revert E3. apply flat_format_denotes. exact (F _ I).
  - destruct H as (env' & h' & n' & hd' & tl' & H1 & H2 & H3). exists env', h', n', hd', tl'. split; [exact H1|]. split; [|exact H3].
    destruct n as [nh nr intro f ds|r]; [|contradiction]. destruct H2 as (E1 & E2 & E3). split; [exact E1|]. split; [|exact E3].
    revert E2. now apply flat_format_denotes.
  - destruct H as (env' & hd & it' & H1 & (E1 & E2 & E3) & ->). exists env', hd, it'. split; [exact H1|]. split; [|reflexivity].
    split; [exact E1|]. split; [|exact E3]. revert E2. now apply flat_format_denotes.
  - destruct H as (env' & hd & its' & H1 & H2 & ->). exists env', hd, its'. split; [exact H1|]. split; [|reflexivity].
    revert H2. apply all2_map. intros it it' I (E1 & E2 & E3). split; [exact E1|]. split; [|exact E3].
    revert E2. apply flat_format_denotes. exact (F _ I).
Qed.

Lemma flat_patternless {R} {CR : Cmp R} ri rl (rec : ienv -> alayout -> R -> Prop) env al p : flat al ->
  layout_denotes ri rl rec env al p -> patternless p.
Proof.
  destruct al as [h c|k h res|h fs|h vs|h n hd tl|h it|h its|b|h|h]; cbn [flat layout_denotes]; intros F H; try contradiction.
  - destruct H as (? & ? & _ & ->). exact I.
  - destruct H as (? & ? & ? & _ & _ & H). destruct k as [dt|dt|dt|[e|] dt|[e|]]; cbn in H; try contradiction.
    + destruct H as (? & _ & ->). exact I.
    + destruct H as (? & _ & ->). exact I.
    + destruct H as (? & _ & ->). exact I.
    + destruct H as (? & _ & ->). exact I.
    + subst p. exact I.
  - destruct H as (? & ? & ? & _ & _ & ->). exact I.
  - destruct H as (? & ? & ? & _ & _ & ->). exact I.
  - destruct H as (? & ? & ? & ? & ? & _ & _ & _ & _ & ->). exact I.
  - destruct H as (? & ? & ? & _ & _ & ->). exact I.
  - destruct H as (? & ? & ? & _ & _ & ->). exact I.
Qed.

(** The IRIs and literals of the layouts stand for themselves. *)
Definition iri_term (i : string) (r : term) : Prop := ctx_iri term_context i r.
Definition lit_term (l : rdf_literal) (r : term) : Prop := ctx_lit term_context l r.
Lemma iri_term_spec i r : iri_term i r <-> r = TmIri i.
Proof. split; [intros [st <-]; reflexivity|]. intros ->. now exists 0. Qed.
Lemma lit_term_spec l r : lit_term l r <-> r = TmLit l.
Proof. split; [intros [st <-]; reflexivity|]. intros ->. now exists 0. Qed.

Definition no_nested (env : ienv) (l : alayout) (r : term) : Prop := False.

(** The layout of a derived type is the meaning of the layout declared by the type. *)
Lemma derive_cases fuel input :
  match parse_input input with
  | Ok (al, types) =>
      match build_document al [] with
      | (Ok r, b) => exists p l, layout_denotes iri_term lit_term no_nested no_env al p /\ layout_of p l /\
                                 derive_layout fuel input = Ok (l, types)
      | (Err e, _) => derive_layout fuel input = Err (MacroBuild e)
      | _ => False
      end
  | Err e => derive_layout fuel input = Err (MacroParse e)
  | Panic w => derive_layout fuel input = Panic w
  | OutOfFuel => derive_layout fuel input = OutOfFuel
  end.
Proof.
  unfold derive_layout. destruct (parse_input input) as [[al types]|e|w|] eqn:P; try reflexivity.
  apply parse_flat in P. cbn [of_parse bind fst snd]. unfold build_document.
  match goal with |- context [build_with_context term_context al ?s] => destruct (build_with_context term_context al s) as [o [n b]] eqn:B end.
  cbn [snd].
  destruct o as [r|e|w|].
  - cbn [of_build bind].
    destruct (C70_definitions term_context al _ _ _ B) as (W & _ & D); [constructor|]. cbn [snd] in *.
    pose proof (C70_meaning term_context al _ _ _ B) as M. specialize (M ltac:(constructor)). cbn [snd] in M.
    destruct (build_patternless (E := build_error) fuel b) as [m E].
    { intros ref p I. apply bt_get_wf in I; [|exact W]. destruct (D _ _ I) as [K|(l' & env & I' & M')]; [discriminate K|].
      apply inside_flat in I'; [|exact P]. subst l'. destruct al; cbn [compiled] in M';
      destruct M' as (_ & p' & G & L); assert (p' = p) as -> by congruence; exact (flat_patternless _ _ _ _ _ _ P L). }
    rewrite E. cbn [of_build bind].
    destruct (C76_registry fuel b m W E) as [_ G]. specialize (G r).
    assert (exists p, bt_get r b = Some p /\ layout_denotes iri_term lit_term no_nested no_env al p) as (p & Gp & L).
    { destruct al; cbn [compiled] in M; destruct M as (_ & p & Gp & L); exists p; (split; [exact Gp|]);
        exact (flat_denotes _ _ _ _ _ _ _ P L). }
    rewrite Gp in G. destruct G as (l & Gl & Lo). rewrite Gl. exists p, l. repeat split; assumption.
  - reflexivity.
  - destruct (C71_panics _ _ _ _ _ B) as (l' & h & I & U). apply inside_flat in I; [|exact P]. subst l'.
    destruct U as [-> | ->]; exact P.
  - exact (C71_terminates _ _ _ _ B).
Qed.

(** The layout of a derived type is the meaning of the layout that the type declares. *)
Theorem C79_derived fuel input l types : derive_layout fuel input = Ok (l, types) ->
  exists al p, declared input al types /\ layout_denotes iri_term lit_term no_nested no_env al p /\ layout_of p l.
Proof.
  intros H. pose proof (derive_cases fuel input) as D. destruct (parse_input input) as [[al types']|e|w|] eqn:P; try congruence.
  destruct (build_document al []) as [[r|e|w|] b]; try contradiction; [|congruence].
  destruct D as (p & l' & D & L & E). rewrite E in H. injection H as <- <-. exists al, p. split; [now apply C79_layout|]. now split.
Qed.

(** It is computed for any type that declares a layout the compiler accepts, and otherwise an error is
    reported: when the names of blank nodes are names of variables, the macro does not panic at this stage, and it never
    runs out of fuel. *)
Theorem C79_total fuel input : blank_names ->
  (exists p, derive_layout fuel input = Ok p) \/ (exists e, derive_layout fuel input = Err e).
Proof.
  intros BN. pose proof (C79_reading_settles BN input) as S. pose proof (derive_cases fuel input) as D.
  destruct (parse_input input) as [[al types']|e|w|]; try contradiction; [|eauto].
  destruct (build_document al []) as [[r|e|w|] b]; try contradiction; [|eauto].
  destruct D as (p & l' & D & L & E). eauto.
Qed.

Theorem C79_parse_error fuel input e : derive_layout fuel input = Err (MacroParse e) -> ~ declares_layout input.
Proof.
  intros H O. apply C79_accepted in O as [[al types] P]. pose proof (derive_cases fuel input) as D. rewrite P in D.
  destruct (build_document al []) as [[r|e'|w|] b]; try contradiction; [|congruence].
  destruct D as (p & l' & D & L & E). congruence.
Qed.

(** Once read, it is computed exactly if the declared layout is well formed. *)
Theorem C79_computed fuel input al types : parse_input input = Ok (al, types) ->
  (exists l, derive_layout fuel input = Ok (l, types)) <-> (exists ids, well_formed no_env al ids /\ NoDup ids).
Proof.
  intros P. pose proof (derive_cases fuel input) as D. rewrite P in D. rewrite <- C83_document.
  destruct (build_document al []) as [[r|e|w|] b] eqn:E; try contradiction.
  - destruct D as (p & l & _ & _ & D). split; [eauto|]. intros _. eauto.
  - rewrite D. split; [intros [l H]|intros (r & b' & H)]; discriminate.
Qed.

Theorem C79_well_formed fuel input l types : derive_layout fuel input = Ok (l, types) ->
  declares_layout input /\ exists al ids, declared input al types /\ well_formed no_env al ids /\ NoDup ids.
Proof.
  intros H. pose proof (derive_cases fuel input) as D. destruct (parse_input input) as [[al types']|e|w|] eqn:P; try congruence.
  split; [apply C79_accepted; eauto|].
  destruct (build_document al []) as [[r|e|w|] b] eqn:E; try contradiction; [|congruence].
  destruct D as (p & l' & _ & _ & D). rewrite D in H. injection H as <- <-.
  destruct (proj1 (C83_document al)) as (ids & W & ND); [eauto|]. exists al, ids. split; [now apply C79_layout|]. auto.
Qed.
End Flat.

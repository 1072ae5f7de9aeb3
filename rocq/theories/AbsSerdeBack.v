(** * Reading back the layouts written with serde *)

From Coq Require Import String Ascii List Bool Arith NArith ZArith QArith Qcanon Lia Sorted.
Import ListNotations.
From Verif Require JsonProperties.
From Verif Require Import Base BaseProofs Orders PatternModel ValueModel LayoutModel NumberModel NumberSpec
  HydrateModel JsonModel JsonSpec RegexpModel AbsModel AbsSpec AbsProofs AbsJsonModel
  AbsSerdeModel AbsSerdeSpec AbsSerdeProofs.
Open Scope list_scope.
Open Scope nat_scope.

Section Back.
Context {TS : TextSyntax} {TP : TextPrint} {TL : TextLaws} {F : Type}.
Context (to_f64 : Qc -> F) (from_f64 : F -> option Qc) (many : serde_value F -> bool).
Notation sv := (serde_value F).
Notation plain_value := (plain_value to_f64 from_f64).
Notation plain_own := (plain_own to_f64 from_f64).
Notation plain_layout := (plain_layout to_f64 from_f64).

Ltac lookups := rewrite ?lookup_app, ?lookup_entry, ?lookup_unless, ?lookup_some, ?lookup_nil; cbn [String.eqb Ascii.eqb Bool.eqb app]; rewrite ?app_nil_r; try reflexivity.

(** ** Leaves *)

Lemma iri_back i : is_iri_ref i = true -> de_iri (SStr i : sv) = Ok i.
Proof. intros H. cbn [de_iri]. now rewrite H. Qed.

Lemma pattern_back p : plain_pattern p -> de_pattern (ser_pattern p : sv) = Ok p.
Proof.
  destruct p as [name|i|v [ty|tag]]; cbn [plain_pattern ser_pattern].
  - intros H. unfold de_pattern. now rewrite H.
  - intros H. unfold de_pattern. destruct (blank_suffix i) as [n|] eqn:B; [|now rewrite H].
    rewrite (blank_not_iri _ _ B) in H. discriminate.
  - intros H. unfold ser_literal_type, entry_unless.
    destruct (String.eqb_spec ty xsd_string) as [->|N]; cbn -[xsd_string]; [reflexivity|].
    unfold de_literal_type. cbn. now rewrite H.
  - intros [].
Qed.
Lemma pattern_not_unit p : (ser_pattern p : sv) <> SUnit.
Proof. destruct p as [|? |? ?]; discriminate. Qed.
Lemma pattern_seq l : de_pattern (SSeq l : sv) = Err tt.
Proof. reflexivity. Qed.
Lemma string_seq l : de_string (SSeq l : sv) = Err tt.
Proof. reflexivity. Qed.

Lemma many_back {T} (ser : T -> sv) (de : sv -> outcome unit T) l :
  (forall ss, de (SSeq ss) = Err tt) -> (forall x, In x l -> de (ser x) = Ok x) ->
  de_one_or_many de (ser_one_or_many many (map ser l)) = Ok l.
Proof.
  intros S H. unfold de_one_or_many, ser_one_or_many.
  assert (A : untagged [variant_of (fun t => [t]) de; de_vec de] (SSeq (map ser l)) = Ok l).
  { cbn [untagged]. unfold variant_of. rewrite S. cbn [bind de_vec].
    rewrite (traverse_map ser de (fun x => x)) by exact H. now rewrite map_id. }
  destruct l as [|x [|y l]]; cbn [map] in *; [exact A| |exact A]. destruct (many (ser x)); [exact A|].
  cbn [untagged]. unfold variant_of. now rewrite (H x (or_introl eq_refl)).
Qed.
Lemma strings_back l : de_one_or_many de_string (ser_strings many l) = Ok l.
Proof. apply many_back; [exact string_seq|reflexivity]. Qed.
Lemma patterns_back l : (forall p, In p l -> plain_pattern p) ->
  de_one_or_many de_pattern (ser_patterns many l) = Ok l.
Proof. intros H. apply many_back; [exact pattern_seq|]. intros x I. apply pattern_back. auto. Qed.

Lemma quad_back q : plain_quad q -> de_quad (ser_quad q : sv) = Ok q.
Proof.
  destruct q as [s p o g]. intros (A & B & C & D). cbn [q_s q_p q_o q_g] in *. unfold ser_quad. cbn [q_s q_p q_o q_g app de_quad].
  rewrite (pattern_back s A). cbn [bind]. rewrite (pattern_back p B). cbn [bind]. rewrite (pattern_back o C). cbn [bind].
  destruct g as [g|]; [|reflexivity]. unfold de_option. rewrite (pattern_back g (D g eq_refl)). cbn [bind].
  pose proof (pattern_not_unit g). destruct (ser_pattern g); try reflexivity. contradiction.
Qed.
Lemma dataset_back ds : plain_dataset ds -> de_dataset (ser_dataset ds : sv) = Ok ds.
Proof.
  intros H. unfold de_dataset, ser_dataset. cbn [de_vec].
  rewrite (traverse_map ser_quad de_quad (fun q => q)); [now rewrite map_id|]. intros q I. apply quad_back. auto.
Qed.

Lemma resource_back r : plain_resource r -> de_resource (ser_resource r : sv) = Ok r.
Proof.
  destruct r as [b|z|s|v ty]; cbn [plain_resource ser_resource]; intros H; try reflexivity.
  - unfold de_resource. cbn [untagged]. unfold variant_of at 1. cbn [de_bool bind]. unfold variant_of at 1. cbn [de_i64].
    destruct ((- 2 ^ 63 <=? z) && (z <? 2 ^ 63))%Z eqn:E; [reflexivity|].
    apply andb_false_iff in E as [E|E]; [apply Z.leb_gt in E|apply Z.ltb_ge in E]; lia.
  - cbn. now rewrite H.
Qed.

Lemma regexp_back e : plain_regexp e -> de_regexp (ser_regexp e : sv) = Ok e.
Proof. intros H. unfold ser_regexp. cbn [de_regexp]. unfold plain_regexp in H. now rewrite H. Qed.

Lemma value_back v s : plain_value v -> value_serialize to_f64 v = Ok s -> value_deserialize from_f64 s = Ok v.
Proof.
  intros [W N] E. destruct (JsonProperties.C68_serde_round_trip_partial to_f64 from_f64 v W N) as (s' & E' & R). congruence.
Qed.
Lemma value_written v : plain_value v -> exists s, value_serialize to_f64 v = Ok s.
Proof. intros [W N]. destruct (JsonProperties.C68_serde_round_trip_partial to_f64 from_f64 v W N) as (s' & E' & R). eauto. Qed.

(** ** Headers *)

Lemma is_name_iff n l : is_name n l = true <-> l = [n].
Proof.
  unfold is_name. destruct l as [|x [|y l]]; try (split; discriminate). rewrite String.eqb_eq.
  split; [intros ->; reflexivity|intros [= ->]; reflexivity].
Qed.
Lemma is_nil_iff {T} (l : list T) : is_nil l = true <-> l = [].
Proof. destruct l; split; try discriminate; reflexivity. Qed.
Lemma is_variable_iff n l : is_variable n l = true <-> l = [AVar n].
Proof.
  unfold is_variable. destruct l as [|[x|?|? ?] [|y l]]; try (split; discriminate). rewrite String.eqb_eq.
  split; [intros ->; reflexivity|intros [= ->]; reflexivity].
Qed.

Lemma header_keys_of h : Keys header_fields (ser_header many h).
Proof.
  unfold ser_header. repeat apply Keys_app; first [apply Keys_some|apply Keys_unless]; cbn; auto 10.
Qed.

Lemma header_back h o : plain_header h ->
  (forall key, In key header_fields -> field_at o key = at_most_one (lookup (ser_header many h) key)) ->
  de_header o = Ok h.
Proof.
  intros P L.
  assert (opt : forall key i, In key header_fields -> lookup (ser_header many h) key = match i with Some i => [SStr i] | None => [] end ->
            plain_option (fun i => is_iri_ref i = true) i -> f_option o key de_iri = Ok i).
  { intros key i K E Pi. unfold f_option, f_default. rewrite (L key K), E. destruct i as [i|]; [|reflexivity].
    cbn [at_most_one bind de_option]. now rewrite iri_back by (now apply Pi). }
  assert (def : forall T key (de : sv -> outcome unit T) d (b : bool) s x, In key header_fields ->
            lookup (ser_header many h) key = (if b then [] else [s]) -> (b = true -> x = d) -> de s = Ok x ->
            f_default o key de d = Ok x).
  { intros T key de d b s x K E A B. unfold f_default. rewrite (L key K), E. destruct b; cbn [at_most_one bind]; [now rewrite A|exact B]. }
  unfold de_header.
  rewrite (opt "base"%string (ah_base h)); [|cbn; auto 10|unfold ser_header; lookups|apply P]. cbn [bind].
  rewrite (def _ "prefixes"%string (de_btreemap de_string de_iri) []
             (is_nil (ah_prefixes h)) (SMap (map (fun e : string * compact_iri => (SStr (fst e), SStr (snd e))) (ah_prefixes h)))
             (ah_prefixes h)); [|cbn; auto 10|unfold ser_header; lookups|apply is_nil_iff|].
  2: { destruct (ph_prefixes _ P) as [W I].
       eapply (btreemap_back (fun e : string * compact_iri => Ok (SStr (fst e), SStr (snd e)))); [apply traverse_pure|exact W|].
       intros k v k' s Iv _ [= <- <-]. split; [reflexivity|]. apply iri_back. exact (I k v Iv). }
  cbn [bind].
  rewrite (opt "id"%string (ah_id h)); [|cbn; auto 10|unfold ser_header; lookups|apply P]. cbn [bind].
  rewrite (def _ "input"%string (de_one_or_many de_string) ["self"%string] (is_name "self" (ah_input h)) (ser_strings many (ah_input h)) (ah_input h));
    [|cbn; auto 10|unfold ser_header; lookups|apply is_name_iff|apply strings_back]. cbn [bind].
  rewrite (def _ "intro"%string (de_one_or_many de_string) [] (is_nil (ah_intro h)) (ser_strings many (ah_intro h)) (ah_intro h));
    [|cbn; auto 10|unfold ser_header; lookups|apply is_nil_iff|apply strings_back]. cbn [bind].
  rewrite (def _ "dataset"%string de_dataset [] (is_nil (ah_dataset h)) (ser_dataset (ah_dataset h)) (ah_dataset h));
    [|cbn; auto 10|unfold ser_header; lookups|apply is_nil_iff|apply dataset_back; apply P]. cbn [bind].
  rewrite (def _ "extra"%string (de_btreemap de_iri de_resource) []
             (is_nil (ah_extra h)) (SMap (map (fun e : compact_iri * aresource => (SStr (fst e), ser_resource (snd e))) (ah_extra h)))
             (ah_extra h)); [|cbn; auto 10|unfold ser_header; lookups|apply is_nil_iff|].
  2: { destruct (ph_extra _ P) as [W I].
       eapply (btreemap_back (fun e : compact_iri * aresource => Ok (SStr (fst e), ser_resource (snd e)))); [apply traverse_pure|exact W|].
       intros k v k' s Iv _ [= <- <-]. destruct (I k v Iv) as [A B]. split; [now apply iri_back|now apply resource_back]. }
  cbn [bind]. destruct h; reflexivity.
Qed.

(** ** Layout structures *)

Definition apart (names : list string) : Prop :=
  forall n, In n names -> ~ In n ("type"%string :: header_fields).

Lemma lookup_absent names (m : list (sv * sv)) key : Keys names m -> ~ In key names -> lookup m key = [].
Proof.
  intros K N. induction m as [|[k s] m IH]; [reflexivity|]. unfold lookup. cbn [flat_map fst snd].
  destruct (K k s (or_introl eq_refl)) as (n & -> & I). destruct (String.eqb_spec n key) as [->|E]; [contradiction|].
  apply IH. intros k' s' I'. exact (K k' s' (or_intror I')).
Qed.

Lemma layout_keys names type h own : Keys names own ->
  Keys ("type"%string :: header_fields ++ names) (entry "type" (SStr type) ++ ser_header many h ++ own).
Proof.
  intros K. apply Keys_app; [apply Keys_entry; now left|]. apply Keys_app.
  - eapply Keys_incl; [|apply header_keys_of]. intros x I. right. apply in_or_app. now left.
  - eapply Keys_incl; [|exact K]. intros x I. right. apply in_or_app. now right.
Qed.

Lemma layout_struct_back {T} type names (de : fields -> aheader -> outcome unit T) h own :
  Keys names own -> apart names -> plain_header h ->
  exists o, de_layout_struct type names de (ser_layout_struct many type h own) = de o h /\
    forall key, In key names -> field_at o key = at_most_one (lookup own key).
Proof.
  intros K A P.
  destruct (struct_lookup _ _ true (layout_keys names type h own K)) as (o & E & L). exists o.
  assert (LH : forall key, In key names -> lookup (ser_header many h) key = []).
  { intros key I. apply lookup_absent with (names := header_fields); [apply header_keys_of|].
    intros J. apply (A key I). now right. }
  split.
  - unfold de_layout_struct, ser_layout_struct. cbn [de_flat]. rewrite E. cbn [bind].
    rewrite (require_one o _ L "type" (de_marker type) (SStr type)).
    + cbn [de_marker]. rewrite String.eqb_refl. cbn [bind]. rewrite (header_back h o P); [reflexivity|].
      intros key I. rewrite L. f_equal. rewrite !lookup_app, lookup_entry.
      rewrite (lookup_absent names own key K) by (intros J; apply (A key J); now right). rewrite app_nil_r.
      destruct (String.eqb_spec "type" key) as [<-|]; [|reflexivity]. exfalso. cbn in I. intuition discriminate.
    + rewrite !lookup_app, lookup_entry. cbn [String.eqb Ascii.eqb Bool.eqb].
      rewrite (lookup_absent names own _ K) by (intros J; apply (A _ J); now left).
      rewrite (lookup_absent header_fields _ _ (header_keys_of h)); [reflexivity|]. cbn. intuition discriminate.
  - intros key I. rewrite L, !lookup_app, lookup_entry, (LH key I).
    destruct (String.eqb_spec "type" key) as [<-|]; [|reflexivity]. exfalso. apply (A _ I). now left.
Qed.

Lemma layout_struct_other {T} type type' names names' (de : fields -> aheader -> outcome unit T) h own :
  Keys names own -> apart names -> type <> type' ->
  de_layout_struct type' names' de (ser_layout_struct many type h own) = Err tt.
Proof.
  intros K A N.
  destruct (named_lookup _ _ (layout_keys names type h own K)) as (o & E & O & L).
  unfold de_layout_struct, ser_layout_struct. cbn [de_flat de_struct]. rewrite E. cbn [bind].
  unfold only. destruct (forallb _ o); [|reflexivity]. cbn [bind].
  rewrite (require_one o _ L "type" (de_marker type') (SStr type)).
  - cbn [de_marker]. destruct (String.eqb_spec type type'); [contradiction|reflexivity].
  - rewrite !lookup_app, lookup_entry. cbn [String.eqb Ascii.eqb Bool.eqb].
    rewrite (lookup_absent names own _ K) by (intros J; apply (A _ J); now left).
    rewrite (lookup_absent header_fields _ _ (header_keys_of h)); [reflexivity|]. cbn. intuition discriminate.
Qed.

Lemma lookup_In (m : list (sv * sv)) key s : In s (lookup m key) -> In (SStr key, s) m.
Proof.
  unfold lookup. rewrite in_flat_map. intros ([k s'] & I & J). cbn [fst snd] in J.
  destruct k as [| | | | |k| | |]; try contradiction. destruct (String.eqb_spec k key) as [->|]; [|contradiction].
  destruct J as [->|[]]. exact I.
Qed.
Lemma lookup_size (m : list (sv * sv)) key s : lookup m key = [s] -> sv_size s < sv_size (SMap m).
Proof. intros E. apply map_size with (k := SStr key). apply lookup_In. rewrite E. now left. Qed.

Lemma plain_nested l l' : plain_layout l -> nested l l' -> plain_layout l'.
Proof. intros P N l'' I. apply P. now apply inside_nested with l'. Qed.

(** What a layout is written as. *)
Lemma layout_shape l s : layout_serialize to_f64 many l = Ok s ->
  (exists b, s = SBool b) \/ (exists m t, s = SMap m /\ In (SStr "type", t) m).
Proof.
  assert (A : forall ty h own, s = ser_layout_struct many ty h own ->
            (exists b, s = SBool b) \/ (exists m t, s = SMap m /\ In (SStr "type", t) m)).
  { intros ty h own ->. right. eexists _, (SStr ty). split; [reflexivity|]. now left. }
  destruct l as [h c|k h res|h fs|h vs|h n hd tl|h it|h its|b|h|h]; cbn [layout_serialize]; intros E.
  - apply bind_Ok in E as (c' & _ & [= <-]). eapply A; reflexivity.
  - injection E as <-. destruct k; cbn [ser_literal]; eapply A; reflexivity.
  - apply bind_Ok in E as (c' & _ & [= <-]). eapply A; reflexivity.
  - apply bind_Ok in E as (c' & _ & [= <-]). eapply A; reflexivity.
  - apply bind_Ok in E as (c' & _ & [= <-]). eapply A; reflexivity.
  - apply bind_Ok in E as (c' & _ & [= <-]). eapply A; reflexivity.
  - apply bind_Ok in E as (c' & _ & [= <-]). eapply A; reflexivity.
  - injection E as <-. left. eauto.
  - injection E as <-. eapply A; reflexivity.
  - injection E as <-. eapply A; reflexivity.
Qed.

Lemma ok_inj {E A} (a b : A) : @Ok E A a = Ok b -> a = b.
Proof. now intros [= ->]. Qed.

(** ** Parts *)

Section Parts.
Context (n : nat).
Notation nested' := (de_layout from_f64 n).
Notation write := (layout_serialize to_f64 many).
Hypothesis IH : forall l s, write l = Ok s -> plain_layout l -> sv_size s <= n -> nested' s = Ok l.

Lemma ref_back r s : ser_ref write r = Ok s -> plain_ref r -> (forall l, nested_ref r l -> plain_layout l) ->
  sv_size s <= n -> de_ref nested' s = Ok r.
Proof.
  intros E P Q Z. unfold de_ref. cbn [untagged]. destruct r as [i|l]; cbn [ser_ref] in E.
  - injection E as <-. unfold variant_of at 1. rewrite iri_back by (now apply P). reflexivity.
  - assert (X : variant_of (@RefIri alayout) de_iri s = Err tt).
    { destruct (layout_shape l s E) as [(b & ->)|(m & t & -> & _)]; reflexivity. }
    rewrite X. unfold variant_of. rewrite (IH l s E (Q l eq_refl) Z). reflexivity.
Qed.

(** A reference is not a structure. *)
Lemma ref_not_struct r s names : ser_ref write r = Ok s -> ~ In "type"%string names -> de_struct true names s = Err tt.
Proof.
  intros E N. destruct r as [i|l]; cbn [ser_ref] in E; [injection E as <-; reflexivity|].
  destruct (layout_shape l s E) as [(b & ->)|(m & t & -> & I)]; [reflexivity|]. now apply struct_unknown with "type"%string t.
Qed.

Lemma graph_back (o : @fields F) m (g : option (option apattern)) :
  (forall key, field_at o key = at_most_one (lookup m key)) ->
  lookup m "graph" = match g with Some g => [ser_option ser_pattern g] | None => [] end ->
  g <> Some None -> (forall p, g = Some (Some p) -> plain_pattern p) ->
  f_option o "graph" (de_option de_pattern) = Ok g.
Proof.
  intros L E N P. apply (option_some o m L "graph" (ser_option ser_pattern)); [exact E|].
  intros [p|] ->; [|contradiction]. cbn [ser_option]. split; [apply pattern_not_unit|].
  unfold de_option. rewrite (pattern_back p (P p eq_refl)). pose proof (pattern_not_unit p).
  destruct (ser_pattern p); try reflexivity. contradiction.
Qed.

Lemma format_back d f s : ser_format many write d f = Ok s -> plain_format f ->
  (forall l, nested_format f l -> plain_layout l) -> sv_size s <= n -> de_format nested' d s = Ok f.
Proof.
  intros E P Q Z. unfold de_format. cbn [untagged]. destruct f as [r input graph|r]; cbn [ser_format] in E.
  - apply bind_Ok in E as (s' & Er & E'). apply ok_inj in E'. subst. destruct P as (P1 & P2 & P3 & P4).
    match type of Z with sv_size (SMap ?m) <= _ => set (M := m) in * end.
    assert (KM : Keys ["layout"; "input"; "graph"]%string M).
    { unfold M. apply Keys_app; [apply Keys_entry; cbn; auto|]. apply Keys_app; [apply Keys_unless|apply Keys_some]; cbn; auto. }
    destruct (struct_lookup M _ true KM) as (o & Eo & L). unfold de_format_struct. rewrite Eo. cbn [bind].
    assert (L1 : lookup M "layout" = [s']) by (unfold M; lookups).
    rewrite (require_one o M L _ _ _ L1). rewrite (ref_back r s' Er P1 Q) by (apply lookup_size in L1; lia). cbn [bind].
    rewrite (default_unless o M L "input" _ _ (is_variable d input) (ser_patterns many input) input);
      [|unfold M; lookups|apply is_variable_iff|intros _; now apply patterns_back]. cbn [bind].
    rewrite (graph_back o M graph L); [reflexivity|unfold M; lookups|assumption|assumption].
  - unfold de_format_struct. rewrite (ref_not_struct r s _ E) by (cbn; intuition discriminate). cbn [bind].
    unfold variant_of. rewrite (ref_back r s E P Q Z). reflexivity.
Qed.

Lemma item_keys (it : aitem alayout) m : ser_item_fields many write it = Ok m -> Keys ["intro"; "value"; "dataset"; "property"]%string m.
Proof.
  intros E. apply bind_Ok in E as (v & _ & E'). apply ok_inj in E'. subst.
  repeat apply Keys_app; first [apply Keys_entry|apply Keys_unless|apply Keys_some]; cbn; auto.
Qed.

(** The fields common to items and fields. *)
Lemma item_fields_back (o : @fields F) m M it : ser_item_fields many write it = Ok m -> plain_item it ->
  (forall l, nested_format (ai_value it) l -> plain_layout l) -> sv_size (SMap M) <= n ->
  (forall key, field_at o key = at_most_one (lookup M key)) ->
  (forall key, In key ["intro"; "value"; "dataset"; "property"]%string -> lookup M key = lookup m key) ->
  f_default o "intro" (de_one_or_many de_string) ["value"%string] = Ok (ai_intro it) /\
  f_require o "value" (de_format nested' "value") = Ok (ai_value it) /\
  f_default o "dataset" de_dataset [] = Ok (ai_dataset it) /\
  f_option o "property" de_pattern = Ok (ai_property it).
Proof.
  intros E (P1 & P2 & P3) Q Z L LM. apply bind_Ok in E as (v & Ev & E'). apply ok_inj in E'. subst.
  repeat split.
  - apply (default_unless o M L "intro" _ _ (is_name "value" (ai_intro it)) (ser_strings many (ai_intro it)));
      [rewrite LM by (cbn; auto); lookups|apply is_name_iff|intros _; apply strings_back].
  - assert (L1 : lookup M "value" = [v]) by (rewrite LM by (cbn; auto); lookups).
    rewrite (require_one o M L _ _ _ L1). apply format_back; [exact Ev|exact P1|exact Q|]. apply lookup_size in L1. lia.
  - apply (default_unless o M L "dataset" _ _ (is_nil (ai_dataset it)) (ser_dataset (ai_dataset it)));
      [rewrite LM by (cbn; auto); lookups|apply is_nil_iff|intros _; now apply dataset_back].
  - apply (option_some o M L "property" ser_pattern); [rewrite LM by (cbn; auto); lookups|].
    intros p Ep. split; [apply pattern_not_unit|]. apply pattern_back. now apply P3.
Qed.

Lemma item_back it s : ser_item many write it = Ok s -> plain_item it ->
  (forall l, nested_format (ai_value it) l -> plain_layout l) -> sv_size s <= n -> de_item nested' s = Ok it.
Proof.
  intros E P Q Z. apply bind_Ok in E as (m & Em & E'). apply ok_inj in E'. subst.
  destruct (struct_lookup m _ true (item_keys it m Em)) as (o & Eo & L). unfold de_item. rewrite Eo. cbn [bind].
  destruct (item_fields_back o m m it Em P Q Z L) as (A & B & C & D); [reflexivity|].
  rewrite A. cbn [bind]. rewrite B. cbn [bind]. rewrite C. cbn [bind]. rewrite D. cbn [bind]. destruct it; reflexivity.
Qed.

Lemma field_back f s : ser_field many write f = Ok s -> plain_item (af_item f) ->
  (forall l, nested_format (ai_value (af_item f)) l -> plain_layout l) -> sv_size s <= n -> de_field nested' s = Ok f.
Proof.
  intros E P Q Z. apply bind_Ok in E as (m & Em & E'). apply ok_inj in E'. subst.
  match type of Z with sv_size (SMap ?m) <= _ => set (M := m) in * end.
  pose proof (item_keys _ m Em) as Km.
  assert (KM : Keys ["intro"; "value"; "dataset"; "property"; "required"]%string M).
  { unfold M. apply Keys_app; [|apply Keys_unless; cbn; auto 6]. eapply Keys_incl; [|exact Km]. intros x. cbn. tauto. }
  destruct (struct_lookup M _ true KM) as (o & Eo & L). unfold de_field. rewrite Eo. cbn [bind].
  destruct (item_fields_back o m M _ Em P Q Z L) as (A & B & C & D).
  { intros key I. unfold M. rewrite lookup_app, lookup_unless. destruct (String.eqb_spec "required" key) as [<-|]; [|apply app_nil_r].
    cbn in I. intuition discriminate. }
  rewrite A. cbn [bind]. rewrite B. cbn [bind]. rewrite C. cbn [bind]. rewrite D. cbn [bind].
  rewrite (default_unless o M L "required" _ _ (negb (af_required f)) (SBool (af_required f)) (af_required f)).
  - cbn [bind]. destruct f as [[]]; reflexivity.
  - unfold M. rewrite lookup_app, lookup_unless. rewrite (lookup_absent _ m _ Km) by (cbn; intuition discriminate). reflexivity.
  - now destruct (af_required f).
  - reflexivity.
Qed.

Lemma variant_back v s : ser_variant many write v = Ok s -> plain_variant v ->
  (forall l, nested_format (av_value v) l -> plain_layout l) -> sv_size s <= n -> de_variant nested' s = Ok v.
Proof.
  intros E (P1 & P2) Q Z. apply bind_Ok in E as (f & Ef & E'). apply ok_inj in E'. subst.
  match type of Z with sv_size (SMap ?m) <= _ => set (M := m) in * end.
  assert (KM : Keys ["intro"; "value"; "dataset"]%string M).
  { unfold M. repeat apply Keys_app; first [apply Keys_entry|apply Keys_unless]; cbn; auto. }
  destruct (struct_lookup M _ true KM) as (o & Eo & L). unfold de_variant. rewrite Eo. cbn [bind].
  rewrite (default_unless o M L "intro" _ _ (is_nil (av_intro v)) (ser_strings many (av_intro v)) (av_intro v));
    [|unfold M; lookups|apply is_nil_iff|intros _; apply strings_back]. cbn [bind].
  assert (L1 : lookup M "value" = [f]) by (unfold M; lookups).
  rewrite (require_one o M L _ _ _ L1). rewrite (format_back _ _ _ Ef P1 Q) by (apply lookup_size in L1; lia). cbn [bind].
  rewrite (default_unless o M L "dataset" _ _ (is_nil (av_dataset v)) (ser_dataset (av_dataset v)) (av_dataset v));
    [|unfold M; lookups|apply is_nil_iff|intros _; now apply dataset_back]. cbn [bind]. destruct v; reflexivity.
Qed.

Lemma node_back nd s : ser_node many write nd = Ok s -> plain_node nd ->
  (forall l, match nd with ANode _ _ _ f _ => nested_format f l | ANodeLayout r => nested_ref r l end -> plain_layout l) ->
  sv_size s <= n -> de_node nested' s = Ok nd.
Proof.
  intros E P Q Z. unfold de_node. cbn [untagged]. destruct nd as [hd rs intro f ds|r]; cbn [ser_node] in E.
  - apply bind_Ok in E as (v & Ev & E'). apply ok_inj in E'. subst. destruct P as (P1 & P2).
    match type of Z with sv_size (SMap ?m) <= _ => set (M := m) in * end.
    assert (KM : Keys ["head"; "rest"; "intro"; "value"; "dataset"]%string M).
    { unfold M. repeat apply Keys_app; first [apply Keys_entry|apply Keys_unless|apply Keys_some]; cbn; auto 6. }
    destruct (struct_lookup M _ true KM) as (o & Eo & L). unfold de_node_struct. rewrite Eo. cbn [bind].
    rewrite (default_unless o M L "head" _ _ (String.eqb hd "head") (SStr hd) hd);
      [|unfold M; lookups|apply String.eqb_eq|reflexivity]. cbn [bind].
    rewrite (default_unless o M L "rest" _ _ (String.eqb rs "rest") (SStr rs) rs);
      [|unfold M; lookups|apply String.eqb_eq|reflexivity]. cbn [bind].
    rewrite (default_unless o M L "intro" _ _ (is_name "value" intro) (ser_strings many intro) intro);
      [|unfold M; lookups|apply is_name_iff|intros _; apply strings_back]. cbn [bind].
    assert (L1 : lookup M "value" = [v]) by (unfold M; lookups).
    rewrite (require_one o M L _ _ _ L1). rewrite (format_back _ _ _ Ev P1 Q) by (apply lookup_size in L1; lia). cbn [bind].
    rewrite (option_some o M L "dataset" ser_dataset de_dataset ds); [reflexivity|unfold M; lookups|].
    intros x Ex. split; [discriminate|]. apply dataset_back. now apply P2.
  - unfold de_node_struct. rewrite (ref_not_struct r s _ E) by (cbn; intuition discriminate). cbn [bind].
    unfold variant_of. rewrite (ref_back r s E P Q Z). reflexivity.
Qed.

(** ** Layouts *)

Ltac solve_apart := intros x Ix; cbn in Ix |- *; intuition (subst; discriminate).
(** The readers of the other types fail. *)
Ltac others K :=
  let A := fresh "A" in
  match type of K with Keys ?ns _ => assert (A : apart ns) by solve_apart end;
  unfold de_body; cbn [untagged];
  unfold de_unit, de_boolean, de_number, de_bytes, de_text, de_id, de_product, de_sum, de_ordered, de_unordered, de_sized, de_union, de_intersection;
  repeat (match goal with
          | |- match de_layout_struct ?t' ?ns' ?d (ser_layout_struct _ ?t ?h ?own) with _ => _ end = _ =>
              rewrite (layout_struct_other t t' _ ns' d h own K A) by discriminate
          end).
Ltac here P :=
  match goal with
  | K : Keys ?ns ?own |- context [de_layout_struct ?t ?ns ?d (ser_layout_struct _ ?t ?h ?own)] =>
      let o := fresh "o" in let Eo := fresh "Eo" in let L := fresh "L" in
      destruct (layout_struct_back t ns d h own K ltac:(solve_apart) P) as (o & Eo & L); rewrite Eo
  end.

Section Own.
Context (o : @fields F) (names : list string) (own : list (sv * sv)).
Hypothesis L : forall key, In key names -> field_at o key = at_most_one (lookup own key).

Lemma own_unless {T} key (de : sv -> outcome unit T) d (b : bool) s x : In key names ->
  lookup own key = (if b then [] else [s]) -> (b = true -> x = d) -> (b = false -> de s = Ok x) ->
  f_default o key de d = Ok x.
Proof.
  intros I E A B. unfold f_default. rewrite (L key I), E. destruct b; cbn [at_most_one bind]; [now rewrite A|now apply B].
Qed.
Lemma own_require {T} key (de : sv -> outcome unit T) s : In key names -> lookup own key = [s] -> f_require o key de = de s.
Proof. intros I E. unfold f_require. rewrite (L key I), E. reflexivity. Qed.
Lemma own_some {T} key (ser : T -> sv) (de : sv -> outcome unit T) (t : option T) : In key names ->
  lookup own key = match t with Some t => [ser t] | None => [] end ->
  (forall x, t = Some x -> ser x <> SUnit /\ de (ser x) = Ok x) -> f_option o key de = Ok t.
Proof.
  intros I E A. unfold f_option, f_default. rewrite (L key I), E. destruct t as [t|]; [|reflexivity].
  cbn [at_most_one bind]. destruct (A t eq_refl) as [N D]. unfold de_option. rewrite D. destruct (ser t); try reflexivity. now destruct N.
Qed.
(** A resource is always written. *)
Lemma own_resource res : In "resource"%string names -> lookup own "resource" = [ser_option ser_pattern res] ->
  plain_option plain_pattern res -> f_option o "resource" de_pattern = Ok res.
Proof.
  intros I E P. unfold f_option, f_default. rewrite (L _ I), E. cbn [at_most_one bind]. destruct res as [p|]; [|reflexivity].
  cbn [ser_option]. unfold de_option. rewrite (pattern_back p (P p eq_refl)). pose proof (pattern_not_unit p).
  destruct (ser_pattern p); try reflexivity. contradiction.
Qed.
Lemma own_datatype dt : In "datatype"%string names ->
  lookup own "datatype" = match dt with Some t => [SStr t] | None => [] end ->
  plain_option (fun i => is_iri_ref i = true) dt -> f_option o "datatype" de_iri = Ok dt.
Proof.
  intros I E P. apply (own_some "datatype" SStr de_iri dt I E). intros x Ex. split; [discriminate|]. apply iri_back. now apply P.
Qed.
Lemma own_pattern pat : In "pattern"%string names ->
  lookup own "pattern" = match pat with Some t => [ser_regexp t] | None => [] end ->
  plain_option plain_regexp pat -> f_option o "pattern" de_regexp = Ok pat.
Proof.
  intros I E P. apply (own_some "pattern" ser_regexp de_regexp pat I E). intros x Ex. split; [discriminate|]. apply regexp_back. now apply P.
Qed.
End Own.

Lemma own_size ty h (own : list (sv * sv)) key s : lookup own key = [s] -> sv_size s < sv_size (ser_layout_struct many ty h own).
Proof.
  intros E. apply map_size with (k := SStr key). apply in_or_app. right. apply in_or_app. right. apply lookup_In. rewrite E. now left.
Qed.

Ltac keys := repeat apply Keys_app; first [apply Keys_nil|apply Keys_entry|apply Keys_unless|apply Keys_some]; cbn; auto.

Lemma body_back l s : write l = Ok s -> plain_layout l -> sv_size s <= S n -> de_body from_f64 nested' s = Ok l.
Proof.
  intros E P Z. destruct (P l (inside_self l)) as [PO PH].
  assert (PN : forall l', nested l l' -> plain_layout l') by (intros l' N; exact (plain_nested l l' P N)).
  destruct l as [h c|k h res|h fs|h vs|h nd hd tl|h it|h its|b|h|h]; cbn [layout_serialize] in E; cbn [plain_own] in PO;
    try specialize (PH h eq_refl).
  - apply bind_Ok in E as (c' & Ec & E'). apply ok_inj in E'. subst.
    assert (K : Keys ["const"]%string (entry_unless (is_unit c) "const" c')) by keys.
    others K. here PH. cbn beta.
    rewrite (own_unless o _ _ L "const" _ _ (is_unit c) c' c); [reflexivity|cbn; auto|lookups| |].
    + destruct c as [[]| |]; try discriminate. reflexivity.
    + intros _. exact (value_back c c' PO Ec).
  - apply ok_inj in E. subst. destruct PO as [PK PR]. destruct k as [dt|dt|dt|pat dt|pat]; cbn [ser_literal plain_kind] in *.
    + match goal with |- context [ser_layout_struct _ ?t _ ?own] => assert (K : Keys ["resource"; "datatype"]%string own) by keys end.
      others K. here PH. cbn beta. rewrite (own_resource o _ _ L res); [|cbn; auto|lookups|assumption]. cbn [bind].
      rewrite (own_datatype o _ _ L dt); [reflexivity|cbn; auto|lookups|assumption].
    + match goal with |- context [ser_layout_struct _ ?t _ ?own] => assert (K : Keys ["resource"; "datatype"]%string own) by keys end.
      others K. here PH. cbn beta. rewrite (own_resource o _ _ L res); [|cbn; auto|lookups|assumption]. cbn [bind].
      rewrite (own_require o _ _ L "datatype" _ (SStr dt)); [|cbn; auto|lookups]. rewrite iri_back by assumption. reflexivity.
    + match goal with |- context [ser_layout_struct _ ?t _ ?own] => assert (K : Keys ["resource"; "datatype"]%string own) by keys end.
      others K. here PH. cbn beta. rewrite (own_resource o _ _ L res); [|cbn; auto|lookups|assumption]. cbn [bind].
      rewrite (own_require o _ _ L "datatype" _ (SStr dt)); [|cbn; auto|lookups]. rewrite iri_back by assumption. reflexivity.
    + destruct PK as [PK1 PK2].
      match goal with |- context [ser_layout_struct _ ?t _ ?own] => assert (K : Keys ["pattern"; "resource"; "datatype"]%string own) by keys end.
      others K. here PH. cbn beta.
      rewrite (own_pattern o _ _ L pat); [|cbn; auto|lookups|assumption]. cbn [bind].
      rewrite (own_resource o _ _ L res); [|cbn; auto|lookups|assumption]. cbn [bind].
      rewrite (own_datatype o _ _ L dt); [reflexivity|cbn; auto|lookups|assumption].
    + match goal with |- context [ser_layout_struct _ ?t _ ?own] => assert (K : Keys ["pattern"; "resource"]%string own) by keys end.
      others K. here PH. cbn beta.
      rewrite (own_pattern o _ _ L pat); [|cbn; auto|lookups|assumption]. cbn [bind].
      rewrite (own_resource o _ _ L res); [reflexivity|cbn; auto|lookups|assumption].
  - apply bind_Ok in E as (fs' & Ef & E'). apply ok_inj in E'. subst. destruct PO as [W PO].
    assert (K : Keys ["fields"]%string (entry_unless (is_nil fs') "fields" (SMap fs'))) by keys.
    others K. here PH. cbn beta.
    rewrite (own_unless o _ _ L "fields" _ _ (is_nil fs') (SMap fs') fs); [reflexivity|cbn; auto|lookups| |].
    + intros X. apply is_nil_iff in X. subst. apply JsonProperties.traverse_Ok in Ef. now inversion Ef.
    + intros X. apply (btreemap_back _ _ _ _ _ Ef W). cbn [fst snd]. intros k f k' s I I' Ekf.
      apply bind_Ok in Ekf as (k1 & Ek & Ekf). apply bind_Ok in Ekf as (s1 & Es & Ekf). injection Ekf as -> ->.
      destruct (PO k f I) as [PK PF]. split; [exact (value_back _ _ PK Ek)|]. apply (field_back f s Es PF).
      * intros l' N. apply PN. exact (N_field h fs k f l' I N).
      * assert (J : lookup (entry_unless (is_nil fs') "fields" (SMap fs')) "fields" = [SMap fs']) by (rewrite X; reflexivity).
        apply (own_size "record" h) in J. apply map_size in I'. lia.
  - apply bind_Ok in E as (vs' & Ef & E'). apply ok_inj in E'. subst. destruct PO as [W PO].
    assert (K : Keys ["variants"]%string (entry_unless (is_nil vs') "variants" (SMap vs'))) by keys.
    others K. here PH. cbn beta.
    rewrite (own_unless o _ _ L "variants" _ _ (is_nil vs') (SMap vs') vs); [reflexivity|cbn; auto|lookups| |].
    + intros X. apply is_nil_iff in X. subst. apply JsonProperties.traverse_Ok in Ef. now inversion Ef.
    + intros X. apply (btreemap_back _ _ _ _ _ Ef W). cbn [fst snd]. intros k f k' s I I' Ekf.
      apply bind_Ok in Ekf as (s1 & Es & Ekf). injection Ekf as <- ->.
      split; [reflexivity|]. apply (variant_back f s Es (PO k f I)).
      * intros l' N. apply PN. exact (N_variant h vs k f l' I N).
      * assert (J : lookup (entry_unless (is_nil vs') "variants" (SMap vs')) "variants" = [SMap vs']) by (rewrite X; reflexivity).
        apply (own_size "sum" h) in J. apply map_size in I'. lia.
  - apply bind_Ok in E as (nd' & En & E'). apply ok_inj in E'. subst. destruct PO as (P1 & P2 & P3).
    match goal with |- context [ser_layout_struct _ ?t _ ?own] => set (Own := own) in *; assert (K : Keys ["node"; "head"; "tail"]%string Own) by (unfold Own; keys) end.
    others K. here PH. cbn beta.
    assert (J : lookup Own "node" = [nd']) by (unfold Own; lookups).
    rewrite (own_require o _ _ L "node" _ nd'); [|cbn; auto|exact J].
    rewrite (node_back nd nd' En P1).
    + cbn [bind].
      rewrite (own_unless o _ _ L "head" _ _ (is_default_head hd) (ser_pattern hd) hd); [|cbn; auto|unfold Own; lookups| |intros _; now apply pattern_back].
      2: { destruct hd; try discriminate. cbn [is_default_head]. intros X. apply String.eqb_eq in X. now subst. }
      cbn [bind].
      rewrite (own_unless o _ _ L "tail" _ _ (is_default_tail tl) (ser_pattern tl) tl); [reflexivity|cbn; auto|unfold Own; lookups| |intros _; now apply pattern_back].
      destruct tl; try discriminate. cbn [is_default_tail]. intros X. apply String.eqb_eq in X. now subst.
    + intros l' N. apply PN. destruct nd; [now apply N_node|now apply N_node_layout].
    + apply (own_size "list" h) in J. lia.
  - apply bind_Ok in E as (i & Ei & E'). apply ok_inj in E'. subst.
    assert (K : Keys ["item"]%string (entry "item" i)) by keys. others K. here PH. cbn beta.
    assert (J : lookup (entry "item" i) "item" = [i]) by lookups.
    rewrite (own_require o _ _ L "item" _ i); [|cbn; auto|exact J]. rewrite (item_back it i Ei PO); [reflexivity| |].
    + intros l' N. apply PN. now apply N_item.
    + apply (own_size "set" h) in J. lia.
  - apply bind_Ok in E as (is & Ei & E'). apply ok_inj in E'. subst.
    assert (K : Keys ["items"]%string (entry_unless (is_nil is) "items" (SSeq is))) by keys. others K. here PH. cbn beta.
    rewrite (own_unless o _ _ L "items" _ _ (is_nil is) (SSeq is) its); [reflexivity|cbn; auto|lookups| |].
    + intros X. apply is_nil_iff in X. subst. apply JsonProperties.traverse_Ok in Ei. now inversion Ei.
    + intros X. cbn [de_vec]. apply (traverse_back _ _ _ _ Ei). intros it s I I' Es. apply (item_back it s Es (PO it I)).
      * intros l' N. apply PN. exact (N_tuple h its it l' I N).
      * assert (J : lookup (entry_unless (is_nil is) "items" (SSeq is)) "items" = [SSeq is]) by (rewrite X; reflexivity).
        apply (own_size "tuple" h) in J. apply seq_size in I'. lia.
  - injection E as <-. reflexivity.
  - apply ok_inj in E. subst. assert (K : Keys [] (@nil (sv * sv))) by keys. others K.
    unfold variant_of at 1. cbn [de_bool ser_layout_struct bind]. here PH. reflexivity.
  - apply ok_inj in E. subst. assert (K : Keys [] (@nil (sv * sv))) by keys. others K.
    unfold variant_of at 1. cbn [de_bool ser_layout_struct bind]. others K. here PH. reflexivity.
Qed.
End Parts.

Lemma layout_back fuel : forall l s, layout_serialize to_f64 many l = Ok s -> plain_layout l -> sv_size s <= fuel ->
  de_layout from_f64 fuel s = Ok l.
Proof.
  induction fuel as [|n IH]; intros l s E P Z; [pose proof (size_pos s); lia|]. cbn [de_layout]. now apply body_back.
Qed.

(** ** Writing *)

Lemma format_written d f : (forall l, nested_format f l -> exists s, layout_serialize to_f64 many l = Ok s) ->
  exists s, ser_format many (layout_serialize to_f64 many) d f = Ok s.
Proof.
  intros H. destruct f as [[i|l] input g|[i|l]]; cbn [ser_format ser_ref bind]; eauto;
    destruct (H l eq_refl) as (s & ->); cbn [bind]; eauto.
Qed.
Lemma item_written it : (forall l, nested_format (ai_value it) l -> exists s, layout_serialize to_f64 many l = Ok s) ->
  exists m, ser_item_fields many (layout_serialize to_f64 many) it = Ok m.
Proof. intros H. destruct (format_written "value" _ H) as (s & E). unfold ser_item_fields. rewrite E. cbn [bind]. eauto. Qed.
Lemma traverse_exists {E A B} (f : A -> outcome E B) l : (forall a, In a l -> exists b, f a = Ok b) -> exists l', traverse f l = Ok l'.
Proof.
  induction l as [|a l IH]; intros H; [cbn; eauto|]. cbn [traverse]. destruct (H a (or_introl eq_refl)) as (b & ->). cbn [bind].
  destruct IH as (l' & ->); [intros; apply H; now right|]. cbn [bind]. eauto.
Qed.

Lemma layout_written l : (forall l', AbsSpec.inside l l' -> plain_own l') -> exists s, layout_serialize to_f64 many l = Ok s.
Proof.
  induction l as [l IH] using layout_ind. intros P. pose proof (P l (inside_self l)) as PO.
  assert (H : forall l', nested l l' -> exists s, layout_serialize to_f64 many l' = Ok s).
  { intros l' N. apply (IH l' N). intros l'' I. apply P. now apply inside_nested with l'. }
  clear IH P. destruct l as [h c|k h res|h fs|h vs|h nd hd tl|h it|h its|b|h|h]; cbn [layout_serialize]; cbn [plain_own] in PO; eauto.
  - destruct (value_written c PO) as (s & ->). cbn [bind]. eauto.
  - match goal with |- context [traverse ?f fs] => destruct (traverse_exists f fs) as (fs' & ->) end; [|cbn [bind]; eauto].
    intros [k f] I. cbn [fst snd]. destruct (value_written k (proj1 (proj2 PO k f I))) as (s & ->). cbn [bind]. unfold ser_field.
    destruct (item_written (af_item f)) as (m & ->); [|cbn [bind]; eauto]. intros l' N. apply H. exact (N_field h fs k f l' I N).
  - match goal with |- context [traverse ?f vs] => destruct (traverse_exists f vs) as (vs' & ->) end; [|cbn [bind]; eauto].
    intros [k f] I. cbn [fst snd]. unfold ser_variant. destruct (format_written "self" (av_value f)) as (m & ->); [|cbn [bind]; eauto].
    intros l' N. apply H. exact (N_variant h vs k f l' I N).
  - destruct nd as [? ? ? f ?|[i|l']]; cbn [ser_node ser_ref bind]; eauto.
    + destruct (format_written "value" f) as (s & ->); [|cbn [bind]; eauto]. intros l' N. apply H. now apply N_node.
    + destruct (H l') as (s & ->); [now apply N_node_layout|]. cbn [bind]. eauto.
  - unfold ser_item. destruct (item_written it) as (m & ->); [|cbn [bind]; eauto]. intros l' N. apply H. now apply N_item.
  - match goal with |- context [traverse ?f its] => destruct (traverse_exists f its) as (fs' & ->) end; [|cbn [bind]; eauto].
    intros it I. unfold ser_item. destruct (item_written it) as (m & ->); [|cbn [bind]; eauto]. intros l' N. apply H. exact (N_tuple h its it l' I N).
Qed.
End Back.

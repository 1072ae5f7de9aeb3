(** * The layout documents read with serde *)

From Coq Require Import String Ascii List Bool Arith NArith ZArith QArith Qcanon Lia.
Import ListNotations.
From Verif Require Import Base BaseProofs Orders PatternModel ValueModel LayoutModel NumberModel
  HydrateModel JsonModel RegexpModel AbsModel AbsJsonModel AbsJsonProofs AbsSerdeModel AbsSerdeProofs AbsSerdeTotal
  SerdeDocSpec SerdeDocProofs SerdeDocLeaves SerdeDocNested.
Open Scope list_scope.
Open Scope nat_scope.

Section Body.
Context {TS : TextSyntax} {F : Type} (from_f64 : F -> option Qc).
Notation sv := (serde_value F).
Notation object := (list (string * sv)).
Notation D := (layout_sdoc from_f64).

Lemma layout_shape s l : D s l -> (exists b, s = SBool b) \/ exists o : object, s = text_map o /\ In "type"%string (map fst o).
Proof.
  assert (M : forall ty (o : object) h, layout_map ty s o h -> (exists b, s = SBool b) \/ exists o : object, s = text_map o /\ In "type"%string (map fst o)).
  { intros ty o h (-> & _ & _ & I & _). right. exists o. split; [reflexivity|]. apply in_map_iff. now exists ("type"%string, SStr ty). }
  intros H. destruct H; eauto.
Qed.

Lemma s_marker ty (s : sv) u : de_marker ty s = Ok u <-> s = SStr ty.
Proof.
  destruct u. destruct s; cbn [de_marker]; try (split; discriminate). destruct (String.eqb_spec s ty) as [->|N].
  - split; reflexivity.
  - split; [discriminate|]. intros [= ->]. contradiction.
Qed.

(** The type of a value. *)
Definition tagged (s : sv) (t : string) : Prop :=
  (t = "" /\ exists b, s = SBool b)%string \/ exists o : object, s = text_map o /\ unrepeated o "type" /\ In ("type"%string, SStr t) o.
Lemma unrepeated_one (o : object) k s s' : unrepeated o k -> In (k, s) o -> In (k, s') o -> s = s'.
Proof.
  intros U I I'. destruct (field_at_cases o k) as [[_ N]|[(x & _ & _ & _ & A)|[_ N]]].
  - elim N. apply in_map_iff. now exists (k, s).
  - rewrite (A _ I), (A _ I'). reflexivity.
  - contradiction.
Qed.
Lemma tagged_one s t t' : tagged s t -> tagged s t' -> t = t'.
Proof.
  intros [[-> (b & ->)]|(o & -> & U & I)] [[-> (b' & X)]|(o' & X & U' & I')]; try reflexivity; try discriminate X.
  apply text_map_inj in X as <-. assert (Y := unrepeated_one _ _ _ _ U I I'). now injection Y.
Qed.
Lemma layout_tagged {T} ty names (de : object -> aheader -> outcome unit T) s x : de_layout_struct ty names de s = Ok x -> tagged s ty.
Proof.
  unfold de_layout_struct. intros X. apply bind_Ok in X as (o & E & X). apply bind_Ok in X as (u & M & _). right. exists o.
  destruct s; cbn [de_flat] in E; try discriminate E. cbn [de_struct] in E. apply bind_Ok in E as (o' & E & O). apply only_iff in O as [-> _].
  apply named_iff in E. split; [exact E|]. apply (sreads_require o' "type" (de_marker ty) (fun s _ => s = SStr ty) (fun s t _ => s_marker ty s t)) in M as [(s' & I & ->) U].
  split; [apply U; now left|exact I].
Qed.

Lemma layout_reads n ty own (de : object -> aheader -> outcome unit alayout) (P : object -> aheader -> alayout -> Prop) s l :
  NoDup ("type" :: header_fields ++ own)%string -> own_fields ty = own -> sv_size s <= S n ->
  (forall o h, small n o -> sreads o own (de o h) (P o h)) ->
  (de_layout_struct ty own de s = Ok l <-> exists o h, layout_map ty s o h /\ P o h l).
Proof.
  intros ND <- Z R. unfold de_layout_struct.
  transitivity (exists o, (exists m, s = SMap m) /\ struct_doc ("type" :: header_fields ++ own_fields ty)%string s o /\
    ((exists u : unit, given o "type" (fun s' _ => s' = SStr ty) u /\ exists h, header_sdoc o h /\ P o h l))).
  - assert (S : forall m, s = SMap m -> ((let* o := de_struct true ("type" :: header_fields ++ own_fields ty)%string s in
        let* _ := f_require o "type" (de_marker ty) in let* h := de_header o in de o h) = Ok l <->
      exists o, struct_doc ("type" :: header_fields ++ own_fields ty)%string s o /\
      (exists u : unit, given o "type" (fun s' _ => s' = SStr ty) u /\ exists h, header_sdoc o h /\ P o h l))).
    { intros m Em. apply struct_reads with (ks := ("type" :: header_fields ++ own_fields ty)%string)
        (P := fun (o : object) l => exists u : unit, given o "type" (fun s' _ => s' = SStr ty) u /\ exists h, header_sdoc o h /\ P o h l).
      - exact ND.
      - apply incl_refl.
      - intros o So. assert (Sm : small n o) by (destruct So as [So|So]; [eapply struct_doc_small; eauto|eapply struct_small; [|exact So]]; lia).
        apply sreads_step; [apply sreads_require; intros; apply s_marker|intros _]. apply sreads_bind; [apply s_header|]. intros h. now apply R. }
    destruct s as [| | | | | | | |m]; cbn [de_flat]; try (split; [discriminate|intros (o & (m & X) & _); discriminate X]).
    rewrite (S m eq_refl). split; [intros (o & H); eauto|intros (o & _ & H); eauto].
  - split.
    + intros (o & (m & ->) & S & u & (s' & I & ->) & h & H & HP). exists o, h. split; [|exact HP]. inversion S as [o' N K E|]; subst.
      split; [first [reflexivity|now symmetry|now f_equal]|]. split; [assumption|]. split; [|split; assumption]. intros k Ik. apply K in Ik. destruct Ik as [<-|Ik]; [now left|]. apply in_app_iff in Ik. right. exact Ik.
    + intros (o & h & (-> & N & K & I & H) & HP). exists o. split; [eexists; reflexivity|]. split.
      * constructor; [exact N|]. intros k Ik. destruct (K k Ik) as [->|[J|J]]; [now left|right; apply in_app_iff; now left|right; apply in_app_iff; now right].
      * exists tt. split; [eexists; split; [exact I|reflexivity]|]. eauto.
Qed.

Section Nested.
Context (n : nat) (nested : sv -> outcome unit alayout).
Hypothesis NS : safe n nested.
Hypothesis NI : forall s l, sv_size s <= n -> (nested s = Ok l <-> D s l).

Ltac nodup := repeat constructor; cbn; intuition discriminate.
Ltac leaf := intros; first
  [ apply s_string | apply s_bool | apply s_iri | apply s_pattern | apply s_dataset | apply s_regexp | reflexivity ].
Ltac one_field := first [ apply sreads_require; leaf | apply sreads_option; leaf | apply sreads_default; leaf ].
Ltac layout n := rewrite (layout_reads n _ _ _ (fun o h l => _)); [|nodup|reflexivity|assumption|].

Lemma b_unit (s : sv) l : sv_size s <= S n -> (de_unit from_f64 s = Ok l <->
  exists (o : object) h, layout_map "unit" s o h /\ exists c, l = AUnit h c /\ given_or o "const" (const_sdoc from_f64) (VLit LUnit) c).
Proof.
  intros Z. apply (layout_reads n) with (P := fun (o : object) h l => exists c, l = AUnit h c /\ given_or o "const" (const_sdoc from_f64) (VLit LUnit) c); [nodup|reflexivity|exact Z|].
  intros o h _. eapply sreads_iff; [apply sreads_step; [apply sreads_default with (D := const_sdoc from_f64); intros; reflexivity|intros c; apply sreads_ret]|].
  intros l'. split; [intros (c & A & ->); eauto|intros (c & -> & A); eauto].
Qed.
Lemma b_boolean (s : sv) l : sv_size s <= S n -> (de_boolean s = Ok l <->
  exists (o : object) h, layout_map "boolean" s o h /\ exists r dt, l = ALiteralL (AKBoolean dt) h r /\ given_opt o "resource" pattern_sdoc r /\ given_opt o "datatype" iri_sdoc dt).
Proof.
  intros Z. apply (layout_reads n) with (P := fun (o : object) h l => exists r dt, l = ALiteralL (AKBoolean dt) h r /\ given_opt o "resource" pattern_sdoc r /\ given_opt o "datatype" iri_sdoc dt); [nodup|reflexivity|exact Z|].
  intros o h _. eapply sreads_iff; [apply sreads_step; [one_field|intros r]; apply sreads_step; [one_field|intros dt]; apply sreads_ret|].
  intros l'. split; [intros (c & A & d & B & ->); eauto|intros (c & d & -> & A & B); eauto 6].
Qed.
Lemma b_number (s : sv) l : sv_size s <= S n -> (de_number s = Ok l <->
  exists (o : object) h, layout_map "number" s o h /\ exists r dt, l = ALiteralL (AKNumber dt) h r /\ given_opt o "resource" pattern_sdoc r /\ given o "datatype" iri_sdoc dt).
Proof.
  intros Z. apply (layout_reads n) with (P := fun (o : object) h l => exists r dt, l = ALiteralL (AKNumber dt) h r /\ given_opt o "resource" pattern_sdoc r /\ given o "datatype" iri_sdoc dt); [nodup|reflexivity|exact Z|].
  intros o h _. eapply sreads_iff; [apply sreads_step; [one_field|intros r]; apply sreads_step; [one_field|intros dt]; apply sreads_ret|].
  intros l'. split; [intros (c & A & d & B & ->); eauto|intros (c & d & -> & A & B); eauto 6].
Qed.
Lemma b_bytes (s : sv) l : sv_size s <= S n -> (de_bytes s = Ok l <->
  exists (o : object) h, layout_map "bytes" s o h /\ exists r dt, l = ALiteralL (AKByteString dt) h r /\ given_opt o "resource" pattern_sdoc r /\ given o "datatype" iri_sdoc dt).
Proof.
  intros Z. apply (layout_reads n) with (P := fun (o : object) h l => exists r dt, l = ALiteralL (AKByteString dt) h r /\ given_opt o "resource" pattern_sdoc r /\ given o "datatype" iri_sdoc dt); [nodup|reflexivity|exact Z|].
  intros o h _. eapply sreads_iff; [apply sreads_step; [one_field|intros r]; apply sreads_step; [one_field|intros dt]; apply sreads_ret|].
  intros l'. split; [intros (c & A & d & B & ->); eauto|intros (c & d & -> & A & B); eauto 6].
Qed.
Lemma b_text (s : sv) l : sv_size s <= S n -> (de_text s = Ok l <->
  exists (o : object) h, layout_map "string" s o h /\ exists p r dt, l = ALiteralL (AKTextString p dt) h r /\ given_opt o "pattern" regexp_sdoc p /\ given_opt o "resource" pattern_sdoc r /\ given_opt o "datatype" iri_sdoc dt).
Proof.
  intros Z. apply (layout_reads n) with (P := fun (o : object) h l => exists p r dt, l = ALiteralL (AKTextString p dt) h r /\ given_opt o "pattern" regexp_sdoc p /\ given_opt o "resource" pattern_sdoc r /\ given_opt o "datatype" iri_sdoc dt); [nodup|reflexivity|exact Z|].
  intros o h _. eapply sreads_iff; [apply sreads_step; [one_field|intros p]; apply sreads_step; [one_field|intros r]; apply sreads_step; [one_field|intros dt]; apply sreads_ret|].
  intros l'. split; [intros (p & A & c & B & d & C & ->); eauto 8|intros (p & c & d & -> & A & B & C); eauto 10].
Qed.
Lemma b_id (s : sv) l : sv_size s <= S n -> (de_id s = Ok l <->
  exists (o : object) h, layout_map "id" s o h /\ exists p r, l = ALiteralL (AKId p) h r /\ given_opt o "pattern" regexp_sdoc p /\ given_opt o "resource" pattern_sdoc r).
Proof.
  intros Z. apply (layout_reads n) with (P := fun (o : object) h l => exists p r, l = ALiteralL (AKId p) h r /\ given_opt o "pattern" regexp_sdoc p /\ given_opt o "resource" pattern_sdoc r); [nodup|reflexivity|exact Z|].
  intros o h _. eapply sreads_iff; [apply sreads_step; [one_field|intros p]; apply sreads_step; [one_field|intros r]; apply sreads_ret|].
  intros l'. split; [intros (c & A & d & B & ->); eauto|intros (c & d & -> & A & B); eauto 6].
Qed.
Lemma b_product (s : sv) l : sv_size s <= S n -> (de_product from_f64 nested s = Ok l <->
  exists (o : object) h, layout_map "record" s o h /\ exists fs, l = AProduct h fs /\ given_or o "fields" (map_sdoc (const_sdoc from_f64) (field_sdoc D)) [] fs).
Proof.
  intros Z. apply (layout_reads n) with (P := fun (o : object) h l => exists fs, l = AProduct h fs /\ given_or o "fields" (map_sdoc (const_sdoc from_f64) (field_sdoc D)) [] fs); [nodup|reflexivity|exact Z|].
  intros o h Sm. eapply sreads_iff; [apply sreads_step; [apply sreads_default with (D := map_sdoc (const_sdoc from_f64) (field_sdoc D))|intros c; apply sreads_ret]|].
  - intros s' t I. apply s_map; [reflexivity|]. intros e k s'' t' -> I'. apply (n_field n nested D NS NI layout_shape). apply Sm in I. apply map_size in I'. lia.
  - intros l'. split; [intros (c & A & ->); eauto|intros (c & -> & A); eauto].
Qed.
Lemma b_sum (s : sv) l : sv_size s <= S n -> (de_sum nested s = Ok l <->
  exists (o : object) h, layout_map "sum" s o h /\ exists vs, l = ASum h vs /\ given_or o "variants" (map_sdoc string_sdoc (variant_sdoc D)) [] vs).
Proof.
  intros Z. apply (layout_reads n) with (P := fun (o : object) h l => exists vs, l = ASum h vs /\ given_or o "variants" (map_sdoc string_sdoc (variant_sdoc D)) [] vs); [nodup|reflexivity|exact Z|].
  intros o h Sm. eapply sreads_iff; [apply sreads_step; [apply sreads_default with (D := map_sdoc string_sdoc (variant_sdoc D))|intros c; apply sreads_ret]|].
  - intros s' t I. apply s_map; [intros; apply s_string|]. intros e k s'' t' -> I'. apply (n_variant n nested D NS NI layout_shape). apply Sm in I. apply map_size in I'. lia.
  - intros l'. split; [intros (c & A & ->); eauto|intros (c & -> & A); eauto].
Qed.
Lemma b_ordered (s : sv) l : sv_size s <= S n -> (de_ordered nested s = Ok l <->
  exists (o : object) h, layout_map "list" s o h /\ exists nd hd tl, l = AOrdered h nd hd tl /\ given o "node" (node_sdoc D) nd /\
    given_or o "head" pattern_sdoc (AVar "self") hd /\ given_or o "tail" pattern_sdoc (AIri (rdf "nil")) tl).
Proof.
  intros Z. apply (layout_reads n) with (P := fun (o : object) h l => exists nd hd tl, l = AOrdered h nd hd tl /\ given o "node" (node_sdoc D) nd /\
    given_or o "head" pattern_sdoc (AVar "self") hd /\ given_or o "tail" pattern_sdoc (AIri (rdf "nil")) tl); [nodup|reflexivity|exact Z|].
  intros o h Sm. eapply sreads_iff; [apply sreads_step; [apply sreads_require with (D := node_sdoc D)|intros nd; apply sreads_step; [one_field|intros hd]; apply sreads_step; [one_field|intros tl]; apply sreads_ret]|].
  - intros s' t I. apply (n_node n nested D NS NI layout_shape). now apply Sm in I.
  - intros l'. split; [intros (nd & A & c & B & d & C & ->); eauto 8|intros (nd & c & d & -> & A & B & C); eauto 10].
Qed.
Lemma b_unordered (s : sv) l : sv_size s <= S n -> (de_unordered nested s = Ok l <->
  exists (o : object) h, layout_map "set" s o h /\ exists it, l = AUnordered h it /\ given o "item" (item_sdoc D) it).
Proof.
  intros Z. apply (layout_reads n) with (P := fun (o : object) h l => exists it, l = AUnordered h it /\ given o "item" (item_sdoc D) it); [nodup|reflexivity|exact Z|].
  intros o h Sm. eapply sreads_iff; [apply sreads_step; [apply sreads_require with (D := item_sdoc D)|intros c; apply sreads_ret]|].
  - intros s' t I. apply (n_item n nested D NS NI layout_shape). now apply Sm in I.
  - intros l'. split; [intros (c & A & ->); eauto|intros (c & -> & A); eauto].
Qed.
Lemma b_sized (s : sv) l : sv_size s <= S n -> (de_sized nested s = Ok l <->
  exists (o : object) h, layout_map "tuple" s o h /\ exists its, l = ASized h its /\ given_or o "items" (seq_sdoc (item_sdoc D)) [] its).
Proof.
  intros Z. apply (layout_reads n) with (P := fun (o : object) h l => exists its, l = ASized h its /\ given_or o "items" (seq_sdoc (item_sdoc D)) [] its); [nodup|reflexivity|exact Z|].
  intros o h Sm. eapply sreads_iff; [apply sreads_step; [apply sreads_default with (D := seq_sdoc (item_sdoc D))|intros c; apply sreads_ret]|].
  - intros s' t I. apply s_vec. intros ss s'' t' -> I'. apply (n_item n nested D NS NI layout_shape). apply Sm in I. apply seq_size in I'. lia.
  - intros l'. split; [intros (c & A & ->); eauto|intros (c & -> & A); eauto].
Qed.
Lemma b_union (s : sv) l : sv_size s <= S n -> (de_union s = Ok l <-> exists (o : object) h, layout_map "union" s o h /\ l = AUnion h).
Proof.
  intros Z. apply (layout_reads n) with (P := fun (o : object) h l => l = AUnion h); [nodup|reflexivity|exact Z|]. intros o h Sm. apply sreads_ret.
Qed.
Lemma b_intersection (s : sv) l : sv_size s <= S n -> (de_intersection s = Ok l <-> exists (o : object) h, layout_map "intersection" s o h /\ l = AIntersection h).
Proof.
  intros Z. apply (layout_reads n) with (P := fun (o : object) h l => l = AIntersection h); [nodup|reflexivity|exact Z|]. intros o h Sm. apply sreads_ret.
Qed.

Lemma body_iff (s : sv) l : sv_size s <= S n -> (de_body from_f64 nested s = Ok l <-> D s l).
Proof.
  intros Z. set (tds := [("unit", de_unit from_f64); ("boolean", de_boolean); ("number", de_number); ("bytes", de_bytes); ("string", de_text);
    ("id", de_id); ("record", de_product from_f64 nested); ("sum", de_sum nested); ("list", de_ordered nested); ("set", de_unordered nested);
    ("tuple", de_sized nested); ("", variant_of ABool de_bool); ("union", de_union); ("intersection", de_intersection)]%string).
  change (de_body from_f64 nested s) with (untagged (map snd tds) s).
  rewrite (untagged_tagged tds s l (tagged s)).
  - split.
    + intros (t & de & I & E). cbn [In tds] in I.
      repeat match type of I with _ \/ _ => destruct I as [I|I] end; try (destruct I; fail); injection I as <- <-.
      * apply b_unit in E as (o & h & M & c & -> & A); [|exact Z]. eapply SUnitLayout; eauto.
      * apply b_boolean in E as (o & h & M & r & d & -> & A & B); [|exact Z]. eapply SBooleanLayout; eauto.
      * apply b_number in E as (o & h & M & r & d & -> & A & B); [|exact Z]. eapply SNumberLayout; eauto.
      * apply b_bytes in E as (o & h & M & r & d & -> & A & B); [|exact Z]. eapply SBytesLayout; eauto.
      * apply b_text in E as (o & h & M & p & r & d & -> & A & B & C); [|exact Z]. eapply STextLayout; eauto.
      * apply b_id in E as (o & h & M & p & r & -> & A & B); [|exact Z]. eapply SIdLayout; eauto.
      * apply b_product in E as (o & h & M & c & -> & A); [|exact Z]. eapply SRecordLayout; eauto.
      * apply b_sum in E as (o & h & M & c & -> & A); [|exact Z]. eapply SSumLayout; eauto.
      * apply b_ordered in E as (o & h & M & c & hd & tl & -> & A & B & C); [|exact Z]. eapply SListLayout; eauto.
      * apply b_unordered in E as (o & h & M & c & -> & A); [|exact Z]. eapply SSetLayout; eauto.
      * apply b_sized in E as (o & h & M & c & -> & A); [|exact Z]. eapply STupleLayout; eauto.
      * apply variant_iff in E as (b & -> & E). apply s_bool in E. rewrite E. constructor.
      * apply b_union in E as (o & h & M & ->); [|exact Z]. eapply SUnionLayout; eauto.
      * apply b_intersection in E as (o & h & M & ->); [|exact Z]. eapply SIntersectionLayout; eauto.
    + intros H. destruct H.
      * exists ""%string, (variant_of ABool de_bool). split; [unfold tds; cbn; tauto|reflexivity].
      * exists "unit"%string, (de_unit from_f64). split; [unfold tds; cbn; tauto|]. apply b_unit; eauto 10.
      * exists "boolean"%string, de_boolean. split; [unfold tds; cbn; tauto|]. apply b_boolean; eauto 10.
      * exists "number"%string, de_number. split; [unfold tds; cbn; tauto|]. apply b_number; eauto 10.
      * exists "bytes"%string, de_bytes. split; [unfold tds; cbn; tauto|]. apply b_bytes; eauto 10.
      * exists "string"%string, de_text. split; [unfold tds; cbn; tauto|]. apply b_text; eauto 12.
      * exists "id"%string, de_id. split; [unfold tds; cbn; tauto|]. apply b_id; eauto 10.
      * exists "record"%string, (de_product from_f64 nested). split; [unfold tds; cbn; tauto|]. apply b_product; eauto 10.
      * exists "sum"%string, (de_sum nested). split; [unfold tds; cbn; tauto|]. apply b_sum; eauto 10.
      * exists "list"%string, (de_ordered nested). split; [unfold tds; cbn; tauto|]. apply b_ordered; eauto 12.
      * exists "set"%string, (de_unordered nested). split; [unfold tds; cbn; tauto|]. apply b_unordered; eauto 10.
      * exists "tuple"%string, (de_sized nested). split; [unfold tds; cbn; tauto|]. apply b_sized; eauto 10.
      * exists "union"%string, de_union. split; [unfold tds; cbn; tauto|]. apply b_union; eauto 10.
      * exists "intersection"%string, de_intersection. split; [unfold tds; cbn; tauto|]. apply b_intersection; eauto 10.
  - unfold tds. cbn [map fst]. nodup.
  - intros t de y I E. cbn [In tds] in I.
    repeat match type of I with _ \/ _ => destruct I as [I|I] end; try (destruct I; fail); injection I as <- <-;
      try (eapply layout_tagged; exact E).
    apply variant_iff in E as (b & _ & E). apply s_bool in E. left. eauto.
  - apply tagged_one.
  - intros t de I. assert (I' : In de (map snd tds)) by (apply in_map_iff; now exists (t, de)).
    pose proof (safe_readers from_f64 n nested NS) as R. rewrite Forall_forall in R. now apply R.
Qed.
End Nested.

Lemma de_layout_iff n : forall (s : sv) l, sv_size s <= n -> (de_layout from_f64 n s = Ok l <-> D s l).
Proof.
  induction n as [|n IH]; intros s l Z; [pose proof (size_pos s); lia|]. cbn [de_layout]. apply (body_iff n); [apply safe_de_layout|exact IH|exact Z].
Qed.
End Body.

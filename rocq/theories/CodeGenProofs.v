(** * What the generated types declare *)

From Coq Require Import String Ascii List Bool Arith NArith Lia Permutation.
Import ListNotations.
From Verif Require Import Base BaseProofs Orders PatternModel ValueModel LayoutModel HydrateModel TermModel DehydrateModel
  DehydrateFinish RegexpModel AbsModel AbsJsonModel AbsSpec AbsProofs AbsMeaning AbsRegistry AbsAcceptSpec AbsAccept
  AttrModel AttrSpec AttrProofs AttrProperties AttrDerive JsonProperties CodeGenModel CodeGenSpec.
Open Scope list_scope.
Open Scope nat_scope.

Lemma separated_commas {A} (item : list token -> A -> Prop) tss xs :
  Forall2 item tss xs -> separated item (commas tss) xs.
Proof.
  induction 1 as [|ts x tss xs H F IH]; [constructor|]. cbn [commas]. destruct tss as [|ts' tss].
  - inversion F; subst. now constructor.
  - now constructor.
Qed.

Lemma mapM_Forall2 {E A B} (f : A -> outcome E B) l l' : mapM f l = Ok l' -> Forall2 (fun a b => f a = Ok b) l l'.
Proof. apply mapM_Ok. Qed.

Lemma Forall2_imp {A B} (P Q : A -> B -> Prop) l l' : (forall a b, In a l -> P a b -> Q a b) -> Forall2 P l l' -> Forall2 Q l l'.
Proof.
  intros H F. induction F as [|a b l l' p F IH]; constructor; [apply H; [now left|exact p]|]. apply IH. intros x y I. apply H. now right.
Qed.
Lemma Forall2_map_r {A B C} (P : C -> B -> Prop) (f : A -> B) (g : A -> C) l : (forall a, In a l -> P (g a) (f a)) -> Forall2 P (map g l) (map f l).
Proof. induction l as [|a l IH]; cbn; intros H; constructor; [apply H; now left|]. apply IH. intros x I. apply H. now right. Qed.

Section Generated.
Context {IS : IriSyntax} {AE : AbsExternal} {TS : TextSyntax} {RS : RustSyntax} {R : Type} {IN : Interp R} {GL : GeneratorLaws R}.

(** ** Abstract syntax of what is generated *)

Definition first_of (r : R) : string := hd EmptyString (iris_of r).
Definition abs_pat (p : pattern R) : apattern :=
  match p with PVar x => AVar (nat_string x) | PRes r => AIri (first_of r) end.
Definition abs_quad (q : qpat R) : quad apattern :=
  Quad (abs_pat (q_s q)) (abs_pat (q_p q)) (abs_pat (q_o q)) (option_map abs_pat (q_g q)).
Definition abs_graph (g : option (option (pattern R))) : option (option apattern) := option_map (option_map abs_pat) g.
Definition names (a k : nat) : list string := map nat_string (seq a k).

Lemma first_absolute r : named (PRes r) -> exists scheme suffix, absolute (first_of r) scheme suffix.
Proof.
  intros [iri H]. unfold first_of. destruct (iris_of r) as [|i l] eqn:E; [discriminate|]. cbn. apply (gl_iri r i). rewrite E. now left.
Qed.

Lemma to_id_text p s : pattern_to_id p = Ok s -> pattern_text s (abs_pat p) /\ named p.
Proof.
  destruct p as [r|x]; cbn [pattern_to_id abs_pat named]; [|].
  2:{ intros H. injection H as H. rewrite <- H. split; [|exact I]. constructor; [apply gl_blank|apply gl_name]. }
  - destruct (iris_of r) as [|iri l] eqn:E; [discriminate|]. intros H. injection H as <-. split; [|now exists iri]. unfold first_of. rewrite E. cbn.
    destruct (gl_iri r iri) as (H1 & H2 & _); [rewrite E; now left|]. now constructor.
Qed.

Lemma quad_tokens_item q ts : quad_tokens q = Ok ts -> quad_item ts (abs_quad q) /\ quad_named q.
Proof.
  unfold quad_tokens, abs_quad, quad_named. intros H. apply bind_iff in H as (s & S & H). apply bind_iff in H as (p & P & H). apply bind_iff in H as (o & O & H).
  apply bind_iff in H as (g & G & H). injection H as <-.
  apply to_id_text in S as [S S'], P as [P P'], O as [O O']. destruct (q_g q) as [g'|]; cbn [option_map].
  - apply bind_iff in G as (g1 & G & E). injection E as <-. apply to_id_text in G as [G G']. split; [now apply Qi_graph|].
    repeat split; try assumption. now intros ? [= <-].
  - injection G as <-. split; [now apply Qi_comma|]. repeat split; try assumption. discriminate.
Qed.

Lemma dataset_tokens ds ts : dataset_attribute ds = Ok ts ->
  (exists g, ts = [TkIdent "dataset"; TkGroup g] /\ separated quad_item g (map abs_quad ds)) /\ dataset_named ds.
Proof.
  unfold dataset_attribute. intros H. apply bind_iff in H as (quads & Q & H). injection H as <-. apply mapM_Forall2 in Q. split.
  - eexists. split; [reflexivity|]. apply separated_commas. induction Q as [|q ts ds quads H Q IH]; constructor; [|exact IH].
    now apply quad_tokens_item.
  - intros q I. induction Q as [|q' ts ds quads H Q IH]; [destruct I|]. destruct I as [->|I]; [now apply quad_tokens_item in H|auto].
Qed.

Lemma strings_tokens l : separated string_item (commas (map (fun s => [TkStr s]) l)) l.
Proof. apply separated_commas. induction l; cbn; constructor; [reflexivity|assumption]. Qed.

Lemma intro_item k off : type_item (intro_attribute k off) (SetIntro (names off k)).
Proof. apply Ti_intro, strings_tokens. Qed.
Lemma input_item k : type_item (input_attribute k) (SetInput (names 0 k)).
Proof. apply Ti_input, strings_tokens. Qed.
Lemma dataset_item ds ts : dataset_attribute ds = Ok ts -> type_item ts (SetDataset (map abs_quad ds)) /\ dataset_named ds.
Proof. intros H. apply dataset_tokens in H as [(g & -> & S) N]. split; [now apply Ti_dataset|exact N]. Qed.

Lemma value_input_item l ts : value_input_attribute l = Ok ts ->
  comp_item ts (SetCompInput (map abs_pat l)) /\ forall p, In p l -> named p.
Proof.
  unfold value_input_attribute. intros H. apply bind_iff in H as (ss & M & H). injection H as <-. apply mapM_Forall2 in M. split.
  - apply Ci_input. apply separated_commas. induction M as [|p s l ss H M IH]; cbn; constructor; [|exact IH].
    exists s. split; [reflexivity|]. now apply to_id_text.
  - intros p I. induction M as [|p' s l ss H M IH]; [destruct I|]. destruct I as [->|I]; [now apply to_id_text in H|auto].
Qed.

Lemma value_graph_item g ts : value_graph_attribute g = Ok ts ->
  comp_item ts (SetGraph (abs_graph g)) /\ forall p, g = Some (Some p) -> named p.
Proof.
  unfold value_graph_attribute. intros H. apply bind_iff in H as (expr & E & H). injection H as <-. destruct g as [[p|]|].
  - apply bind_iff in E as (s & E & K). injection K as <-. apply to_id_text in E as [E N]. split; [|now intros ? [= <-]].
    apply Ci_graph. now apply Gr_some.
  - injection E as <-. split; [|discriminate]. apply Ci_graph. constructor.
  - injection E as <-. split; [|discriminate]. apply Ci_graph. constructor.
Qed.

Lemma comp_run items l : Forall2 comp_item items l ->
  comp_attributes (tldr items) comp_attrs_default = apply_all apply_comp l comp_attrs_default.
Proof.
  intros F. apply comp_attributes_run. rewrite <- (app_nil_r l). apply Se_tldr; [now apply separated_commas|constructor].
Qed.
Lemma type_run items l : Forall2 type_item items l ->
  type_attributes (tldr items) type_attrs_default = apply_all apply_type l type_attrs_default.
Proof.
  intros F. apply type_attributes_run. rewrite <- (app_nil_r l). apply Se_tldr; [now apply separated_commas|constructor].
Qed.

Definition gen_comp (off : nat) (it : item_layout R) : comp_attrs :=
  CompAttrs None None (Some (names off (it_intro it))) None (Some (map abs_quad (it_dataset it)))
    (Some (map abs_pat (vf_input (it_value it)))) (Some (abs_graph (vf_graph (it_value it)))).

Lemma component_run o off it attrs ty : component o off it = Ok (attrs, ty) ->
  comp_attributes attrs comp_attrs_default = Ok (gen_comp off it) /\
  layout_type o (vf_layout (it_value it)) = Ok ty /\ item_named it.
Proof.
  unfold component. intros H. apply bind_iff in H as (ds & D & H). apply bind_iff in H as (input & I & H).
  apply bind_iff in H as (graph & G & H). apply bind_iff in H as (ty' & T & H). injection H as <- <-.
  apply dataset_tokens in D as [(g & -> & D) D']. apply value_input_item in I as [I I']. apply value_graph_item in G as [G G'].
  split; [|split; [exact T|split; [split; assumption|exact D']]].
  rewrite (comp_run _ [SetCompIntro (names off (it_intro it)); SetCompDataset (map abs_quad (it_dataset it));
    SetCompInput (map abs_pat (vf_input (it_value it))); SetGraph (abs_graph (vf_graph (it_value it)))]).
  - reflexivity.
  - repeat constructor; try assumption. apply strings_tokens.
Qed.

(** ** The types of the components *)

Lemma layout_type_plain o r ty : layout_type o r = Ok ty -> field_type ty = (true, ty).
Proof.
  intros H. destruct (field_type_cases ty) as [(item & [c ->] & _)|[_ E]]; [exfalso|exact E].
  unfold layout_type in H. destruct (layout_ref_loop o (iris_of r) None) as [t|path] eqn:L.
  - injection H as ->. clear - L. revert L. generalize (@None rpath). induction (iris_of r) as [|iri l IH]; intros path L; [discriminate|].
    cbn [layout_ref_loop] in L. destruct (preset_from_iri iri) as [p|]; [|exact (IH _ L)]. injection L as L. destruct p; discriminate.
  - apply bind_iff in H as (id & _ & H). injection H as H1 H2.
    destruct (rp_segments (or_default path (RsPath false []))) as [|seg [|seg' l]]; cbn in H2; discriminate.
Qed.

Definition gen_item_of (off : nat) (it : item_layout R) (i : nat) : aitem alayout :=
  AItem (names off (it_intro it))
    (AFormat (RefIri (type_iri i)) (map abs_pat (vf_input (it_value it))) (abs_graph (vf_graph (it_value it))))
    (map abs_quad (it_dataset it)) None.

(** The position of the type of a component. *)
Definition position (o : gen_options) (types : list rty) (it : item_layout R) (i : nat) : Prop :=
  exists ty, nth_error types i = Some ty /\ layout_type o (vf_layout (it_value it)) = Ok ty.

Lemma record_run o off fs : forall rfs types, mapM (gen_field o off) fs = Ok rfs ->
  exists entries tys, record_fields rfs types = Ok (entries, types ++ tys) /\
    Forall2 (fun kf e => item_named (f_item (snd kf)) /\ exists i, position o (types ++ tys) (f_item (snd kf)) i /\
      e = (fst kf, AField (gen_item_of off (f_item (snd kf)) i) true)) fs entries.
Proof.
  induction fs as [|[k f] fs IH]; intros rfs types H.
  - injection H as <-. exists [], []. rewrite app_nil_r. split; [reflexivity|constructor].
  - cbn [mapM] in H. apply bind_iff in H as (rf & F & H). apply bind_iff in H as (rfs' & M & H). injection H as <-.
    unfold gen_field in F. cbn [fst snd] in F. destruct k as [[]|m|l]; try discriminate F.
    all: try (rename s into name; destruct (is_rust_ident name); [|discriminate F]; apply bind_iff in F as ([attrs ty] & C & F); injection F as <-;
      cbn [fst snd] in *; apply component_run in C as (C & T & N);
      destruct (IH rfs' (types ++ [ty]) M) as (entries & tys & E & F);
      exists ((VLit (LText name), AField (gen_item_of off (f_item f) (length types)) true) :: entries), (ty :: tys);
      cbn [record_fields rf_attrs rf_type rf_name]; rewrite C; cbn [bind]; rewrite (layout_type_plain _ _ _ T);
      cbn [type_insert]; rewrite E; cbn [bind fst snd];
      split; [rewrite <- app_assoc; reflexivity|]; constructor;
      [split; [exact N|]; exists (length types); split; [|reflexivity]; exists ty; split; [|exact T]; rewrite nth_error_app2, Nat.sub_diag by lia; reflexivity|];
      rewrite <- app_assoc in F; exact F).
Qed.

Lemma sum_run o off vs : forall rvs types, mapM (gen_variant o off) vs = Ok rvs ->
  exists entries tys, sum_variants rvs types = Ok (entries, types ++ tys) /\
    Forall2 (fun v e => item_named (va_item v) /\ exists i, position o (types ++ tys) (va_item v) i /\
      e = (va_name v, AVariant (names off (it_intro (va_item v)))
             (AFormat (RefIri (type_iri i)) (map abs_pat (vf_input (it_value (va_item v)))) (abs_graph (vf_graph (it_value (va_item v)))))
             (map abs_quad (it_dataset (va_item v))))) vs entries.
Proof.
  induction vs as [|v vs IH]; intros rvs types H.
  - injection H as <-. exists [], []. rewrite app_nil_r. split; [reflexivity|constructor].
  - cbn [mapM] in H. apply bind_iff in H as (rv & F & H). apply bind_iff in H as (rvs' & M & H). injection H as <-.
    unfold gen_variant in F. destruct (is_rust_ident (va_name v)); [|discriminate F]. apply bind_iff in F as ([attrs ty] & C & F). injection F as <-.
    cbn [fst snd] in *. apply component_run in C as (C & T & N). destruct (IH rvs' (types ++ [ty]) M) as (entries & tys & E & F).
    eexists (_ :: entries), (ty :: tys). cbn [sum_variants rv_attrs rv_fields rv_name]. rewrite C. cbn [bind type_insert rf_type]. rewrite E. cbn [bind fst snd].
    split; [rewrite <- app_assoc; reflexivity|]. constructor.
    + split; [exact N|]. exists (length types). split; [|reflexivity]. exists ty. split; [|exact T]. rewrite nth_error_app2, Nat.sub_diag by lia. reflexivity.
    + rewrite <- app_assoc in F. exact F.
Qed.

Lemma tuple_run o off its : forall rfs types, mapM (gen_item_field o off) its = Ok rfs ->
  exists items tys, tuple_items rfs types = Ok (items, types ++ tys) /\
    Forall2 (fun it e => item_named it /\ exists i, position o (types ++ tys) it i /\ e = gen_item_of off it i) its items.
Proof.
  induction its as [|it its IH]; intros rfs types H.
  - injection H as <-. exists [], []. rewrite app_nil_r. split; [reflexivity|constructor].
  - cbn [mapM] in H. apply bind_iff in H as (rf & F & H). apply bind_iff in H as (rfs' & M & H). injection H as <-.
    unfold gen_item_field in F. apply bind_iff in F as ([attrs ty] & C & F). injection F as <-.
    cbn [fst snd] in *. apply component_run in C as (C & T & N). destruct (IH rfs' (types ++ [ty]) M) as (entries & tys & E & F).
    eexists (_ :: entries), (ty :: tys). cbn [tuple_items rf_attrs rf_type]. rewrite C. cbn [bind type_insert]. rewrite E. cbn [bind fst snd].
    split; [rewrite <- app_assoc; reflexivity|]. constructor.
    + split; [exact N|]. exists (length types). split; [|reflexivity]. exists ty. split; [|exact T]. rewrite nth_error_app2, Nat.sub_diag by lia. reflexivity.
    + rewrite <- app_assoc in F. exact F.
Qed.

(** ** What is read back *)

Definition gen_hd (h : header R) : aheader :=
  AHeader None [] None (names 0 (h_input h)) (names (h_input h) (h_intro h)) (map abs_quad (h_dataset h)) [].

Definition gen_node (off : nat) (it : item_layout R) (i : nat) : anode alayout :=
  ANode (nat_string off) (nat_string (off + 1)) (names (off + 2) (it_intro it))
    (AFormat (RefIri (type_iri i)) (map abs_pat (vf_input (it_value it))) (abs_graph (vf_graph (it_value it))))
    (Some (map abs_quad (it_dataset it))).

(** The abstract layout [al] of the type generated for [l]. *)
Definition gen_abs (o : gen_options) (l : layout R) (types : list rty) (al : alayout) : Prop :=
  match l with
  | UnitL h _ => dataset_named (h_dataset h) /\ al = AUnit (gen_hd h) (VLit LUnit)
  | IdL h _ _ => dataset_named (h_dataset h) /\ al = ALiteralL (AKId None) (gen_hd h) None
  | ProductL h fs => dataset_named (h_dataset h) /\ exists entries, al = AProduct (gen_hd h) (bt_collect entries) /\
      Forall2 (fun kf e => item_named (f_item (snd kf)) /\ exists i, position o types (f_item (snd kf)) i /\
        e = (fst kf, AField (gen_item_of (h_input h + h_intro h) (f_item (snd kf)) i) true)) fs entries
  | SumL h vs => dataset_named (h_dataset h) /\ exists entries, al = ASum (gen_hd h) (bt_collect entries) /\
      Forall2 (fun v e => item_named (va_item v) /\ exists i, position o types (va_item v) i /\
        e = (va_name v, AVariant (names (h_input h + h_intro h) (it_intro (va_item v)))
             (AFormat (RefIri (type_iri i)) (map abs_pat (vf_input (it_value (va_item v)))) (abs_graph (vf_graph (it_value (va_item v)))))
             (map abs_quad (it_dataset (va_item v))))) vs entries
  | OrderedL h node p q => dataset_named (h_dataset h) /\ item_named node /\ named p /\ named q /\
      exists i, position o types node i /\
        al = AOrdered (gen_hd h) (gen_node (h_input h + h_intro h) node i) (abs_pat p) (abs_pat q)
  | SizedL h its => dataset_named (h_dataset h) /\ exists items, al = ASized (gen_hd h) items /\
      Forall2 (fun it e => item_named it /\ exists i, position o types it i /\ e = gen_item_of (h_input h + h_intro h) it i) its items
  | _ => True
  end.

Lemma gen_header_run h input intro dataset : gen_header h = Ok (input, intro, dataset) ->
  input = input_attribute (h_input h) /\ intro = intro_attribute (h_intro h) (h_input h) /\
  type_item dataset (SetDataset (map abs_quad (h_dataset h))) /\ dataset_named (h_dataset h).
Proof.
  unfold gen_header. intros H. apply bind_iff in H as (ds & D & H). injection H as <- <- <-. apply dataset_item in D as [D N]. auto.
Qed.

Lemma layout_type_vec ty : vec_item (vec_of ty) = Ok ty.
Proof. reflexivity. Qed.

Lemma gen_read o ident l d : generate_layout o ident l = Ok (GenType d) -> 
  kind_kept l ->
  exists al types, parse_input d = Ok (al, types) /\ gen_abs o l types al.
Proof.
  destruct l as [| |h c|k h r dt|h r pat|h fs|h vs|h it|h node p q|h its]; cbn [generate_layout gen_abs]; intros H E; try contradiction; try discriminate H;
    apply bind_iff in H as ([[input intro] dataset] & HD & H); apply gen_header_run in HD as (-> & -> & DI & N).
  - injection H as <-. unfold parse_input. cbn [di_attrs di_data].
    erewrite type_run by (apply Forall2_cons; [apply input_item|]; apply Forall2_cons; [apply intro_item|]; apply Forall2_cons; [exact DI|]; apply Forall2_nil). cbn. eexists _, _. split; [reflexivity|]. split; [exact N|reflexivity].
  - injection H as <-. unfold parse_input. cbn [di_attrs di_data].
    erewrite type_run by (apply Forall2_cons; [now apply (Ti_kind _ KdId)|]; apply Forall2_cons; [apply input_item|]; apply Forall2_cons; [apply intro_item|]; apply Forall2_cons; [exact DI|]; apply Forall2_nil). cbn. eexists _, _. split; [reflexivity|]. split; [exact N|reflexivity].
  - apply bind_iff in H as (rfs & M & H). injection H as <-. destruct (record_run _ _ _ _ [] M) as (entries & tys & RF & F).
    unfold parse_input. cbn [di_attrs di_data].
    erewrite type_run by (apply Forall2_cons; [apply input_item|]; apply Forall2_cons; [apply intro_item|]; apply Forall2_cons; [exact DI|]; apply Forall2_nil). cbn [apply_all apply_type type_attrs_default replace bind ta_kind kind_from_data].
    rewrite RF. cbn [bind fst snd]. eexists _, _. split; [reflexivity|]. split; [exact N|]. exists entries. split; [reflexivity|exact F].
  - apply bind_iff in H as (rfs & M & H). injection H as <-. destruct (sum_run _ _ _ _ [] M) as (entries & tys & RF & F).
    unfold parse_input. cbn [di_attrs di_data].
    erewrite type_run by (apply Forall2_cons; [apply input_item|]; apply Forall2_cons; [apply intro_item|]; apply Forall2_cons; [exact DI|]; apply Forall2_nil). cbn [apply_all apply_type type_attrs_default replace bind ta_kind kind_from_data].
    rewrite RF. cbn [bind fst snd]. eexists _, _. split; [reflexivity|]. split; [exact N|]. exists entries. split; [reflexivity|exact F].
  - apply bind_iff in H as (hd & Hd & H). apply bind_iff in H as (tl & Tl & H). apply bind_iff in H as (nds & D & H).
    apply bind_iff in H as (ninput & I & H). apply bind_iff in H as (ngraph & G & H). apply bind_iff in H as (ty & T & H). injection H as <-.
    apply to_id_text in Hd as [Hd NH], Tl as [Tl NT].
    apply dataset_tokens in D as [(g & -> & D) D']. apply value_input_item in I as [I I']. apply value_graph_item in G as [G G'].
    unfold parse_input. cbn [di_attrs di_data].
    erewrite type_run by (apply Forall2_cons; [now apply (Ti_kind _ KdList)|]; apply Forall2_cons; [apply intro_item|]; apply Forall2_cons; [apply (Ti_head hd), Hd|]; apply Forall2_cons; [apply (Ti_tail tl), Tl|]; apply Forall2_cons; [exact DI|]; apply Forall2_cons; [apply input_item|]; apply Forall2_nil).
    cbn [apply_all apply_type type_attrs_default replace bind ta_kind rf_attrs rf_type].
    erewrite comp_run by (apply Forall2_cons; [apply (Ci_head (nat_string (h_input h + h_intro h)))|]; apply Forall2_cons; [apply (Ci_rest (nat_string (h_input h + h_intro h + 1)))|]; apply Forall2_cons; [apply Ci_intro, strings_tokens|]; apply Forall2_cons; [exact (Ci_dataset _ _ D)|]; apply Forall2_cons; [exact I|]; apply Forall2_cons; [exact G|]; apply Forall2_nil).
    cbn [apply_all apply_comp comp_attrs_default replace bind]. rewrite layout_type_vec. cbn [bind type_insert length app].
    eexists _, _. split; [reflexivity|]. split; [exact N|]. split; [split; [split; assumption|exact D']|]. split; [exact NH|]. split; [exact NT|].
    exists 0. split; [exists ty; split; [reflexivity|exact T]|reflexivity].
  - apply bind_iff in H as (rfs & M & H). injection H as <-. destruct (tuple_run _ _ _ _ [] M) as (items & tys & RF & F).
    unfold parse_input. cbn [di_attrs di_data].
    erewrite type_run by (apply Forall2_cons; [now apply (Ti_kind _ KdTuple)|]; apply Forall2_cons; [apply intro_item|]; apply Forall2_cons; [exact DI|]; apply Forall2_cons; [apply input_item|]; apply Forall2_nil). cbn [apply_all apply_type type_attrs_default replace bind ta_kind kind_from_data].
    rewrite RF. cbn [bind fst snd]. eexists _, _. split; [reflexivity|]. split; [exact N|]. exists items. split; [reflexivity|exact F].
Qed.

(** ** The environment and the names *)

Definition plain (env : ienv) : Prop := e_base env = None /\ forall n, e_prefix env n = None.

Lemma plain_header h env' : header_env no_env (gen_hd h) env' -> plain env'.
Proof. intros [P B]. split; [exact B|]. intros n. destruct (P n) as [_ N]. apply N. intros p []. Qed.

Lemma plain_denotes env i scheme suffix i' : plain env -> absolute i scheme suffix -> iri_denotes env i i' -> i' = i.
Proof.
  intros [_ P] A [(sc & su & _ & H)|[N _]]; [now rewrite P in H|]. now destruct (N scheme suffix).
Qed.
Lemma no_env_denotes i scheme suffix : absolute i scheme suffix -> iri_denotes no_env i i.
Proof. intros A. left. exists scheme, suffix. split; [exact A|reflexivity]. Qed.

Lemma type_iri_absolute i : absolute (type_iri i) "rust" ("/#Type" ++ nat_string i).
Proof.
  split; [reflexivity|]. intros n c H. do 4 (destruct n as [|n]; [injection H as <-; repeat split; discriminate|]). destruct n; discriminate.
Qed.

Lemma names_app a k k' : names a k ++ names (a + k) k' = names a (k + k').
Proof. unfold names. now rewrite <- map_app, <- seq_app. Qed.
Lemma header_names_gen h : header_names (gen_hd h) = names 0 (h_input h + h_intro h).
Proof. exact (names_app 0 (h_input h) (h_intro h)). Qed.
Lemma names_length a k : length (names a k) = k.
Proof. unfold names. now rewrite map_length, seq_length. Qed.
Lemma names_In n x : In (nat_string x) (names 0 n) <-> x < n.
Proof.
  unfold names. rewrite in_map_iff. split.
  - intros (y & E & I). apply nat_string_inj in E. subst y. apply in_seq in I. lia.
  - intros L. exists x. split; [reflexivity|]. apply in_seq. lia.
Qed.
Lemma names_innermost n x y : innermost (names 0 n) (nat_string x) y -> y = x.
Proof.
  intros [H _]. unfold names in H. rewrite nth_error_map in H. destruct (nth_error (seq 0 n) y) as [z|] eqn:E; [|discriminate].
  cbn in H. injection H as H. apply nat_string_inj in H. subst z.
  assert (y < n) as L. { rewrite <- (seq_length n 0). apply nth_error_Some. congruence. }
  apply (nth_error_nth _ _ 0) in E. rewrite seq_nth in E by exact L. exact E.
Qed.

(** ** Soundness *)

Notation same_pat := (same_pattern first_iri).

Lemma pat_same env n p p' : plain env -> named p -> pat_denotes iri_term lit_term env (names 0 n) (abs_pat p) p' -> same_pat p p'.
Proof.
  intros E N. destruct p as [r|x]; cbn [abs_pat pat_denotes].
  - intros (i' & t & D & T & ->). destruct (first_absolute r N) as (sc & su & A). apply (plain_denotes _ _ _ _ _ E A) in D. subst i'.
    apply iri_term_spec in T. subst t. cbn. destruct N as [iri H]. exists iri. split; [exact H|]. unfold first_of.
    destruct (iris_of r); [discriminate|]. injection H as <-. reflexivity.
  - intros (y & I & ->). apply names_innermost in I. exact I.
Qed.

Lemma quad_same env n q q' : plain env -> quad_named q -> quad_denotes iri_term lit_term env (names 0 n) (abs_quad q) q' -> same_quad first_iri q q'.
Proof.
  intros E (N1 & N2 & N3 & N4) (D1 & D2 & D3 & D4). cbn [abs_quad q_s q_p q_o q_g] in *.
  split; [now apply (pat_same env n)|]. split; [now apply (pat_same env n)|]. split; [now apply (pat_same env n)|].
  destruct (q_g q) as [g|], (q_g q') as [g'|]; try exact D4. apply (pat_same env n); auto.
Qed.

Lemma dataset_same env n ds ds' : plain env -> dataset_named ds ->
  dataset_denotes iri_term lit_term env (names 0 n) (map abs_quad ds) [] ds' -> same_dataset first_iri ds ds'.
Proof.
  intros E N (ND & H1 & _ & H2). split; [exact ND|]. split.
  - intros q I. destruct (H1 (abs_quad q)) as (q' & I' & D); [now apply in_map|]. exists q'. split; [exact I'|].
    apply (quad_same env n); auto.
  - intros q' I. destruct (H2 q' I) as [[]|(aq & Ia & D)]. apply in_map_iff in Ia as (q & <- & Iq). exists q. split; [exact Iq|].
    apply (quad_same env n); auto.
Qed.

Lemma header_same h env' hd : dataset_named (h_dataset h) ->
  header_denotes iri_term lit_term no_env (gen_hd h) env' hd -> plain env' /\ same_header first_iri h hd.
Proof.
  intros N (HE & H1 & H2 & H3). apply plain_header in HE. split; [exact HE|]. rewrite header_names_gen in H3. cbn [gen_hd ah_input ah_intro ah_dataset] in *.
  rewrite names_length in H1, H2. split; [exact H1|]. split; [exact H2|]. exact (dataset_same env' _ _ _ HE N H3).
Qed.

Notation gref o types := (type_ref (fun r ty => layout_type o r = Ok ty) types).

Lemma format_same o types env n f i f' : plain env -> format_named f ->
  (exists ty, nth_error types i = Some ty /\ layout_type o (vf_layout f) = Ok ty) -> forall d,
  format_denotes iri_term lit_term (no_nested env) env (names 0 n) d
    (AFormat (RefIri (type_iri i)) (map abs_pat (vf_input f)) (abs_graph (vf_graph f))) f' ->
  same_format first_iri (gref o types) f f'.
Proof.
  intros E [N1 N2] (ty & T1 & T2) d (D1 & D2 & D3). split.
  - destruct D1 as (i' & D & T). apply (plain_denotes _ _ _ _ _ E (type_iri_absolute i)) in D. subst i'. apply iri_term_spec in T.
    exists i, ty. split; [exact T|]. split; assumption.
  - split.
    + remember (map abs_pat (vf_input f)) as l eqn:L. revert L N1. generalize (vf_input f). induction D2 as [|p p' l l' D D2 IH]; intros [|q qs] L N1; try discriminate; constructor.
      * injection L as -> _. apply (pat_same env n); [exact E|apply N1; now left|exact D].
      * injection L as _ ->. apply IH; [reflexivity|]. intros x I. apply N1. now right.
    + destruct (vf_graph f) as [[g|]|], (vf_graph f') as [[g'|]|]; cbn in D3; try exact D3. apply (pat_same env n); auto.
Qed.

Lemma item_same o types env inputs off it i it' : plain env -> item_named it -> position o types it i ->
  item_denotes iri_term lit_term (no_nested env) env inputs (names 0 off) (gen_item_of off it i) it' ->
  same_item first_iri (gref o types) it it'.
Proof.
  intros E [N1 N2] P (D1 & D2 & extra & D3 & D4). cbn [gen_item_of ai_intro ai_value ai_dataset ai_property property_denotes] in *.
  unfold property_denotes in D3. cbn [ai_property] in D3. subst extra.
  rewrite (names_app 0 off) in D2, D4. rewrite names_length in D1.
  split; [exact D1|]. split; [exact (format_same o types env _ _ i _ E N1 P _ D2)|exact (dataset_same env _ _ _ E N2 D4)].
Qed.

Lemma all2_Forall2 {A B} (Q : A -> B -> Prop) l l' : all2 Q l l' -> Forall2 Q l l'.
Proof.
  revert l'. induction l as [|a l IH]; intros [|b l'] H; try contradiction; constructor; [apply H|]. apply IH. apply H.
Qed.
Lemma Forall2_trans {A B C} (P : A -> B -> Prop) (Q : B -> C -> Prop) (T : A -> C -> Prop) l1 l2 l3 :
  (forall a b c, In a l1 -> P a b -> Q b c -> T a c) -> Forall2 P l1 l2 -> Forall2 Q l2 l3 -> Forall2 T l1 l3.
Proof.
  intros H F. revert l3. induction F as [|a b l1 l2 p F IH]; intros l3 G; inversion G as [|b' c l2' l3' q G']; subst; constructor; [exact (H a b c (or_introl eq_refl) p q)|].
  apply IH; [|exact G']. intros a' b1 c1 I. apply H. now right.
Qed.
Lemma Forall2_keys {A B K} (f : A -> K) (g : B -> K) l l' : Forall2 (fun a b => g b = f a) l l' -> map g l' = map f l.
Proof. induction 1 as [|a b l l' E F IH]; cbn; [reflexivity|]. now rewrite E, IH. Qed.

Lemma gen_sound o l types al p l' : expressible l -> gen_abs o l types al ->
  layout_denotes iri_term lit_term no_nested no_env al p -> layout_of p l' ->
  same_layout first_iri (gref o types) l l'.
Proof.
  intros X G D L. destruct l as [| |h c|k h r dt|h r pat|h fs|h vs|h it|h node q1 q2|h its]; cbn [expressible gen_abs] in X, G; try contradiction.
  - destruct G as [N ->]. destruct D as (env' & hd & D & ->). cbn in L. subst l' c. apply (header_same h env' hd N) in D as [E H]. now split.
  - destruct G as [N ->], X as [-> ->]. destruct D as (env' & hd & res' & D & D2 & D3). cbn in D3. subst p. destruct L as (pat' & C & ->).
    apply (header_same h env' hd N) in D as [E H]. destruct D2 as [_ ->]. split; [exact H|]. split; [reflexivity|]. destruct pat'; [contradiction|reflexivity].
  - destruct G as (N & entries & -> & F). destruct X as [X1 X2]. destruct D as (env' & hd & fs' & D & D2 & ->). cbn in L. subst l'.
    apply (header_same h env' hd N) in D as [E H].
    assert (map fst entries = map fst fs) as K1.
    { apply Forall2_keys. revert F. apply Forall2_imp. intros a b _ (_ & i & _ & ->). reflexivity. }
    assert (bt_collect entries = entries) as C1 by (apply bt_collect_sorted; rewrite K1; exact X1).
    rewrite C1 in D2. apply all2_Forall2 in D2.
    assert (map fst fs' = map fst fs) as K2.
    { rewrite <- K1. apply Forall2_keys. revert D2. apply Forall2_imp. intros a b _ (-> & _). reflexivity. }
    assert (bt_collect fs' = fs') as -> by (apply bt_collect_sorted; rewrite K2; exact X1).
    split; [exact H|]. revert F D2. apply Forall2_trans. intros [k f] e [k' f'] I (Ni & i & P & ->) (E1 & E2 & E3). cbn [fst snd af_required af_item] in *.
    split; [exact E1|]. split; [rewrite E2; symmetry; exact (X2 _ _ I)|]. rewrite header_names_gen in E3. exact (item_same o types env' _ _ _ i _ E Ni P E3).
  - destruct G as (N & entries & -> & F). destruct D as (env' & hd & vs' & D & D2 & ->). cbn in L. subst l'.
    apply (header_same h env' hd N) in D as [E H].
    assert (map fst entries = map va_name vs) as K1.
    { apply Forall2_keys. revert F. apply Forall2_imp. intros a b _ (_ & i & _ & ->). reflexivity. }
    assert (bt_collect entries = entries) as C1.
    { apply bt_collect_sorted. rewrite K1. unfold names_sorted, bt_wf, keys in X. rewrite map_map in X. exact X. }
    rewrite C1 in D2. apply all2_Forall2 in D2.
    split; [exact H|]. revert F D2. apply Forall2_trans. intros v e v' I ([N1 N2] & i & P & ->) (E1 & E2 & E3 & E4). cbn [av_intro av_value av_dataset] in *.
    rewrite header_names_gen, (names_app 0) in E3, E4. rewrite names_length in E2. split; [exact E1|]. split; [exact E2|].
    split; [exact (format_same o types env' _ _ i _ E N1 P _ E3)|exact (dataset_same env' _ _ _ E N2 E4)].
  - destruct G as (N & [N1 N2] & N3 & N4 & i & P & ->). destruct D as (env' & hd & n' & hd' & tl' & D & D2 & D3 & D4 & ->). cbn in L. subst l'.
    apply (header_same h env' hd N) in D as [E H]. rewrite header_names_gen in D2, D3, D4. cbn [gen_node node_denotes] in D2. destruct D2 as (E1 & E2 & E3).
    set (off := h_input h + h_intro h) in *.
    assert (names 0 off ++ [nat_string off; nat_string (off + 1)] ++ names (off + 2) (it_intro node) = names 0 (off + 2 + it_intro node)) as NS.
    { rewrite <- (names_app 0 (off + 2)), <- (names_app 0 off 2), <- app_assoc. unfold names at 4. cbn [seq map app plus]. now rewrite Nat.add_1_r. }
    rewrite NS in E2, E3. rewrite names_length in E1.
    split; [exact H|]. split; [split; [exact E1|]; split; [exact (format_same o types env' _ _ i _ E N1 P _ E2)|exact (dataset_same env' _ _ _ E N2 E3)]|].
    split; [exact (pat_same env' off q1 hd' E N3 D3)|exact (pat_same env' off q2 tl' E N4 D4)].
  - destruct G as (N & items & -> & F). destruct D as (env' & hd & its' & D & D2 & ->). cbn in L. subst l'.
    apply (header_same h env' hd N) in D as [E H]. apply all2_Forall2 in D2.
    split; [exact H|]. revert F D2. apply Forall2_trans. intros it e it' I (Ni & i & P & ->) E3.
    rewrite header_names_gen in E3. exact (item_same o types env' _ _ _ i _ E Ni P E3).
Qed.

(** ** Success *)

Lemma pat_ok n p : named p -> pattern_scoped n p -> pattern_ok no_env (names 0 n) (abs_pat p).
Proof.
  destruct p as [r|x]; cbn [abs_pat pattern_ok pattern_scoped]; intros N S; [|now apply names_In].
  destruct (first_absolute r N) as (sc & su & A). eexists. exact (no_env_denotes _ _ _ A).
Qed.
Lemma dataset_is_ok n ds : dataset_named ds -> dataset_scoped n ds -> dataset_ok no_env (names 0 n) (map abs_quad ds).
Proof.
  intros N S q I. apply in_map_iff in I as (q' & <- & I). destruct (N q' I) as (N1 & N2 & N3 & N4), (S q' I) as (S1 & S2 & S3 & S4).
  repeat split; try (apply pat_ok; assumption). intros g G. cbn in G. destruct (q_g q') as [g'|]; [|discriminate]. injection G as <-. apply pat_ok; auto.
Qed.
Lemma gen_header_ok h : dataset_named (h_dataset h) -> dataset_scoped (h_input h + h_intro h) (h_dataset h) -> header_ok no_env (gen_hd h) no_env.
Proof.
  intros N S. split; [split; [intros name; split; [|reflexivity]|reflexivity]|].
  - intros p (before & after & E & _). cbn in E. now destruct before.
  - split; [intros name p []|]. split; [|intros pv []]. rewrite header_names_gen. now apply dataset_is_ok.
Qed.

Lemma gen_format_ok rec n f i d : format_named f -> format_scoped n f ->
  format_ok rec no_env (names 0 n) d (AFormat (RefIri (type_iri i)) (map abs_pat (vf_input f)) (abs_graph (vf_graph f))) [].
Proof.
  intros [N1 N2] [S1 S2]. split; [|split].
  - intros p I. apply in_map_iff in I as (q & <- & I). apply pat_ok; auto.
  - intros [g|] G; [|intros a; discriminate]. intros a [= <-]. destruct (vf_graph f) as [[g'|]|]; try discriminate. injection G as <-. apply pat_ok; auto.
  - split; [|reflexivity]. eexists. exact (no_env_denotes _ _ _ (type_iri_absolute i)).
Qed.

Lemma gen_item_ok rec h it i : item_named it -> item_scoped (h_input h + h_intro h) it ->
  item_ok rec no_env (gen_hd h) (gen_item_of (h_input h + h_intro h) it i) [].
Proof.
  intros [N1 N2] [S1 S2]. unfold item_ok. cbn [gen_item_of ai_intro ai_value ai_dataset ai_property].
  rewrite header_names_gen, (names_app 0). split; [now apply dataset_is_ok|]. split; [intros a; discriminate|]. now apply gen_format_ok.
Qed.

Lemma all_ok_nil {A} (Q : A -> list string -> Prop) l : (forall a, In a l -> Q a []) -> all_ok Q l [].
Proof.
  induction l as [|a l IH]; intros H; [reflexivity|]. exists [], []. split; [apply H; now left|]. split; [|reflexivity]. apply IH. intros x I. apply H. now right.
Qed.

Lemma Forall2_In_r {A B} (P : A -> B -> Prop) l l' b : Forall2 P l l' -> In b l' -> exists a, In a l /\ P a b.
Proof.
  induction 1 as [|x y l l' p F IH]; intros I; [destruct I|]. destruct I as [<-|I]; [exists x; split; [now left|exact p]|].
  destruct (IH I) as (a & J & q). exists a. split; [now right|exact q].
Qed.

Lemma gen_complete o l types al :
  kind_kept l -> has_subject l -> layout_scoped l -> gen_abs o l types al -> well_formed no_env al [].
Proof.
  intros K X S G. destruct l as [| |h c|k h r dt|h r pat|h fs|h vs|h it|h node q1 q2|h its]; cbn [gen_abs layout_scoped kind_kept has_subject] in K, X, G, S; try contradiction.
  - destruct G as [N ->]. exists [], []. split; [reflexivity|]. split; [|reflexivity]. split; [|reflexivity]. exists no_env. now apply gen_header_ok.
  - destruct G as [N ->]. exists [], []. split; [reflexivity|]. split; [|reflexivity]. split; [reflexivity|]. exists no_env. split; [now apply gen_header_ok|].
    split; [exact I|]. cbn [gen_hd ah_input]. intros E. apply X. rewrite <- (names_length 0 (h_input h)), E. reflexivity.
  - destruct G as (N & entries & -> & F), S as [S1 S2]. exists [], []. split; [reflexivity|]. split; [|reflexivity]. exists no_env. split; [now apply gen_header_ok|].
    apply all_ok_nil. intros [ke fe] I. apply AbsProofs.bt_collect_In in I as [k' I]. apply (Forall2_In_r _ _ _ _ F) in I as ([k f] & I & Ni & i & P & E). injection E as -> ->. cbn [fst snd af_item].
    apply gen_item_ok; [exact Ni|]. exact (S2 _ _ I).
  - destruct G as (N & entries & -> & F), S as [S1 S2]. exists [], []. split; [reflexivity|]. split; [|reflexivity]. exists no_env. split; [now apply gen_header_ok|].
    apply all_ok_nil. intros [ke ve] I. apply AbsProofs.bt_collect_In in I as [k' I]. apply (Forall2_In_r _ _ _ _ F) in I as (v & I & [N1 N2] & i & P & E). injection E as -> ->.
    destruct (S2 v I) as [T1 T2]. unfold variant_ok. cbn [snd av_intro av_value av_dataset]. rewrite header_names_gen, (names_app 0).
    split; [now apply dataset_is_ok|now apply gen_format_ok].
  - destruct G as (N & [N1 N2] & N3 & N4 & i & P & ->), S as (S1 & [T1 T2] & S3 & S4). exists [], []. split; [reflexivity|]. split; [|reflexivity].
    exists no_env. split; [now apply gen_header_ok|]. rewrite header_names_gen. split; [|split; now apply pat_ok].
    cbn [gen_node node_ok]. rewrite header_names_gen. set (off := h_input h + h_intro h) in *.
    assert (names 0 off ++ [nat_string off; nat_string (off + 1)] ++ names (off + 2) (it_intro node) = names 0 (off + 2 + it_intro node)) as ->.
    { rewrite <- (names_app 0 (off + 2)), <- (names_app 0 off 2), <- app_assoc. unfold names at 4. cbn [seq map app plus]. now rewrite Nat.add_1_r. }
    split; [intros ds [= <-]; now apply dataset_is_ok|now apply gen_format_ok].
  - destruct G as (N & items & -> & F), S as [S1 S2]. exists [], []. split; [reflexivity|]. split; [|reflexivity]. exists no_env. split; [now apply gen_header_ok|].
    apply all_ok_nil. intros e I. apply (Forall2_In_r _ _ _ _ F) in I as (it & I & Ni & i & P & ->). apply gen_item_ok; auto.
Qed.

(** ** The variables of the accepted types are declared *)

Lemma ok_pat env n p : pattern_ok env (names 0 n) (abs_pat p) -> pattern_scoped n p.
Proof. destruct p as [r|x]; [exact (fun _ => I)|]. apply names_In. Qed.
Lemma ok_dataset env n ds : dataset_ok env (names 0 n) (map abs_quad ds) -> dataset_scoped n ds.
Proof.
  intros O q I. destruct (O (abs_quad q) (in_map _ _ _ I)) as (O1 & O2 & O3 & O4). repeat split; try (eapply ok_pat; eassumption).
  intros g G. apply (ok_pat env), O4. cbn. now rewrite G.
Qed.
Lemma ok_header h env' : header_ok no_env (gen_hd h) env' -> dataset_scoped (h_input h + h_intro h) (h_dataset h).
Proof. intros (_ & _ & O & _). rewrite header_names_gen in O. exact (ok_dataset _ _ _ O). Qed.
Lemma ok_format rec env n f i d ids :
  format_ok rec env (names 0 n) d (AFormat (RefIri (type_iri i)) (map abs_pat (vf_input f)) (abs_graph (vf_graph f))) ids ->
  format_scoped n f.
Proof.
  intros (O1 & O2 & _). split.
  - intros p I. apply (ok_pat env), O1. now apply in_map.
  - intros g G. apply (ok_pat env), (O2 (Some (abs_pat g))); [|reflexivity]. now rewrite G.
Qed.
Lemma ok_item rec env h it i ids : item_ok rec env (gen_hd h) (gen_item_of (h_input h + h_intro h) it i) ids ->
  item_scoped (h_input h + h_intro h) it.
Proof.
  unfold item_ok. cbn [gen_item_of ai_intro ai_value ai_dataset ai_property]. rewrite header_names_gen, (names_app 0). intros (O1 & _ & O2).
  split; [exact (ok_format _ _ _ _ _ _ _ O2)|exact (ok_dataset _ _ _ O1)].
Qed.
Lemma all_ok_In {A} (Q : A -> list string -> Prop) l ids a : all_ok Q l ids -> In a l -> exists ids', Q a ids'.
Proof.
  revert ids. induction l as [|b l IH]; intros ids O I; [destruct I|]. destruct O as (ids1 & ids2 & O1 & O2 & _).
  destruct I as [->|I]; [now exists ids1|exact (IH _ O2 I)].
Qed.
Lemma Forall2_In_l {A B} (P : A -> B -> Prop) l l' a : Forall2 P l l' -> In a l -> exists b, In b l' /\ P a b.
Proof.
  induction 1 as [|x y l l' p F IH]; intros I; [destruct I|]. destruct I as [<-|I]; [exists y; split; [now left|exact p]|].
  destruct (IH I) as (b & J & q). exists b. split; [now right|exact q].
Qed.

Lemma product_entries o types (h : header R) fs entries :
  Forall2 (fun (kf : value * field R) (e : value * afield alayout) => item_named (f_item (snd kf)) /\ exists i, position o types (f_item (snd kf)) i /\
        e = (fst kf, AField (gen_item_of (h_input h + h_intro h) (f_item (snd kf)) i) true)) fs entries ->
  map fst entries = map fst fs.
Proof. intros F. apply Forall2_keys. revert F. apply Forall2_imp. intros a b _ (_ & i & _ & ->). reflexivity. Qed.

Lemma variant_entries o types off vs (entries : list (string * avariant alayout)) :
  Forall2 (fun v e => item_named (va_item v) /\ exists i, position o types (va_item v) i /\
        e = (va_name v, AVariant (names off (it_intro (va_item v)))
             (AFormat (RefIri (type_iri i)) (map abs_pat (vf_input (it_value (va_item v)))) (abs_graph (vf_graph (it_value (va_item v)))))
             (map abs_quad (it_dataset (va_item v))))) vs entries ->
  map fst entries = map va_name vs.
Proof. intros F. apply Forall2_keys. revert F. apply Forall2_imp. intros a b _ (_ & i & _ & ->). reflexivity. Qed.

Lemma gen_scoped o l types al ids : kind_kept l -> distinct_names l -> gen_abs o l types al -> well_formed no_env al ids ->
  has_subject l /\ layout_scoped l.
Proof.
  intros K D G W. destruct l as [| |h c|k h r dt|h r pat|h fs|h vs|h it|h node q1 q2|h its]; cbn [gen_abs kind_kept distinct_names has_subject layout_scoped] in *; try contradiction.
  - destruct G as [N ->]. destruct W as (own & inner & _ & [[env' O] _] & _). split; [exact I|exact (ok_header _ _ O)].
  - destruct G as [N ->]. destruct W as (own & inner & _ & (_ & env' & O & _ & B) & _). split; [|exact (ok_header _ _ O)].
    intros E. apply B. cbn. now rewrite E.
  - destruct G as (N & entries & -> & F). destruct W as (own & inner & _ & (env' & O & A) & _). split; [exact I|]. split; [exact (ok_header _ _ O)|].
    rewrite bt_collect_sorted in A by (rewrite (product_entries _ _ _ _ _ F); exact D).
    intros k f J. destruct (Forall2_In_l _ _ _ _ F J) as (e & Je & _ & i & _ & ->). destruct (all_ok_In _ _ _ _ A Je) as [ids' Q]. exact (ok_item _ _ _ _ _ _ Q).
  - destruct G as (N & entries & -> & F). destruct W as (own & inner & _ & (env' & O & A) & _). split; [exact I|]. split; [exact (ok_header _ _ O)|].
    intros v J. destruct (Forall2_In_l _ _ _ _ F J) as (e & Je & _ & i & _ & ->).
    assert (Permutation entries (bt_collect entries)) as PE by (apply collect_permutation; rewrite (variant_entries _ _ _ _ _ F); exact D).
    apply (Permutation_in _ PE) in Je. destruct (all_ok_In _ _ _ _ A Je) as [ids' [Q1 Q2]]. cbn [snd av_intro av_value av_dataset] in Q1, Q2.
    rewrite header_names_gen, (names_app 0) in Q1, Q2. split; [exact (ok_format _ _ _ _ _ _ _ Q2)|exact (ok_dataset _ _ _ Q1)].
  - destruct G as (N & _ & _ & _ & i & _ & ->). destruct W as (own & inner & _ & (env' & O & A & B1 & B2) & _). split; [exact I|]. split; [exact (ok_header _ _ O)|].
    rewrite header_names_gen in B1, B2. split; [|split; eapply ok_pat; eassumption].
    cbn [gen_node node_ok] in A. rewrite header_names_gen in A. set (off := h_input h + h_intro h) in *.
    assert (names 0 off ++ [nat_string off; nat_string (off + 1)] ++ names (off + 2) (it_intro node) = names 0 (off + 2 + it_intro node)) as NS.
    { rewrite <- (names_app 0 (off + 2)), <- (names_app 0 off 2), <- app_assoc. unfold names at 4. cbn [seq map app plus]. now rewrite Nat.add_1_r. }
    rewrite NS in A. destruct A as [Q1 Q2]. split; [exact (ok_format _ _ _ _ _ _ _ Q2)|exact (ok_dataset _ _ _ (Q1 _ eq_refl))].
  - destruct G as (N & items & -> & F). destruct W as (own & inner & _ & (env' & O & A) & _). split; [exact I|]. split; [exact (ok_header _ _ O)|].
    intros it J. destruct (Forall2_In_l _ _ _ _ F J) as (e & Je & _ & i & _ & ->). destruct (all_ok_In _ _ _ _ A Je) as [ids' Q]. exact (ok_item _ _ _ _ _ _ Q).
Qed.

(** ** What the type declares *)

Lemma Forall2_Permutation_r {A B} (P : A -> B -> Prop) l l' m : Forall2 P l l' -> Permutation l' m ->
  exists k, Permutation l k /\ Forall2 P k m.
Proof.
  intros F PM. revert l F. induction PM as [|b l' m PM IH|b c l'|l' m n PM1 IH1 PM2 IH2]; intros l F.
  - inversion F; subst. exists []. split; [apply perm_nil|constructor].
  - inversion F as [|a ? la ? p F']; subst. destruct (IH _ F') as (k & PK & FK). exists (a :: k). split; [now apply perm_skip|now constructor].
  - inversion F as [|a ? la ? p F']; subst. inversion F' as [|a' ? la' ? p' F'']; subst. exists (a' :: a :: la'). split; [apply perm_swap|now repeat constructor].
  - destruct (IH1 _ F) as (k & PK & FK). destruct (IH2 _ FK) as (k' & PK' & FK'). exists k'. split; [now transitivity k|exact FK'].
Qed.

Lemma gen_declares o l types al : kind_kept l -> distinct_names l -> gen_abs o l types al ->
  exists l0, declares l l0 /\ expressible l0 /\ gen_abs o l0 types al.
Proof.
  intros K D G. destruct l as [| |h c|k h r dt|h r pat|h fs|h vs|h it|h node q1 q2|h its]; cbn [gen_abs kind_kept distinct_names declares] in *; try contradiction.
  - eexists. split; [reflexivity|]. split; [reflexivity|exact G].
  - eexists. split; [reflexivity|]. split; [split; reflexivity|exact G].
  - eexists. split; [reflexivity|]. split.
    + split; [|intros k f I; apply in_map_iff in I as (kf & E & _); now injection E as <- <-].
      unfold bt_wf, keys in *. rewrite map_map. exact D.
    + destruct G as (N & entries & -> & F). split; [exact N|]. exists entries. split; [reflexivity|]. clear D. induction F as [|kf e fs entries H F IH]; constructor; [exact H|exact IH].
  - destruct G as (N & entries & -> & F).
    assert (Permutation entries (bt_collect entries)) as PE by (apply collect_permutation; rewrite (variant_entries _ _ _ _ _ F); exact D).
    destruct (Forall2_Permutation_r _ _ _ _ F PE) as (vs' & PV & F').
    pose proof (bt_collect_wf entries) as W. unfold bt_wf, keys in W. rewrite (variant_entries _ _ _ _ _ F') in W.
    assert (names_sorted vs') as NS by (unfold names_sorted, bt_wf, keys; rewrite map_map; exact W).
    eexists. split; [exists vs'; split; [exact PV|]; split; [exact NS|reflexivity]|]. split; [exact NS|]. split; [exact N|]. exists (bt_collect entries).
    split; [|exact F']. f_equal. symmetry. apply bt_collect_sorted. rewrite (variant_entries _ _ _ _ _ F'). exact W.
  - eexists. split; [reflexivity|]. split; [exact I|exact G].
  - eexists. split; [reflexivity|]. split; [exact I|exact G].
Qed.
End Generated.

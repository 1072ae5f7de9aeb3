(** * The generated deserializers and hydration: simulation lemmas *)

From Coq Require Import String List Bool Arith ZArith QArith Qcanon Permutation Sorted Lia.
Import ListNotations.
From Verif Require Import Base BaseProofs Orders PatternModel MatchingModel ValueModel LayoutModel HydrateModel
  HydrateProofs TermModel GenDataModel GenModel GenSpec.
Open Scope list_scope.
Open Scope nat_scope.

Section Lists.
Context {R I : Type} {RS : Resolver R I}.
Variable i : I.
Variable res : string -> R.

Definition known_iri (iri : string) : Prop := rs_iri i iri = Some (res iri).

Lemma interp_pattern_known p :
  Forall known_iri (pattern_iris p) -> interp_pattern i p = Some (pattern_at res p).
Proof.
  destruct p as [iri|x]; cbn; [|reflexivity]. intros H. apply Forall_inv in H. unfold known_iri in H. now rewrite H.
Qed.

Lemma all_some_map {A B} (f : A -> option B) (g : A -> B) l :
  (forall a, In a l -> f a = Some (g a)) -> all_some (map f l) = Some (map g l).
Proof.
  induction l as [|a l IH]; intros H; [reflexivity|]. cbn [map all_some].
  rewrite (H a) by now left. rewrite IH; [reflexivity|]. intros b Hb. apply H. now right.
Qed.

Lemma flat_map_known {A} (f : A -> list string) l a :
  Forall known_iri (flat_map f l) -> In a l -> Forall known_iri (f a).
Proof.
  intros H Ha. apply Forall_forall. intros x Hx. rewrite Forall_forall in H. apply H. apply in_flat_map. eauto.
Qed.

Lemma interp_patterns_known ps :
  Forall known_iri (flat_map pattern_iris ps) -> interp_patterns i ps = Some (map (pattern_at res) ps).
Proof.
  intros H. apply all_some_map. intros p Hp. apply interp_pattern_known. eapply flat_map_known; eauto.
Qed.

Lemma interp_quad_known q : Forall known_iri (quad_iris q) -> interp_quad i q = Some (quad_at res q).
Proof.
  unfold quad_iris, interp_quad, quad_at. rewrite !Forall_app. intros (A & B & C & D).
  rewrite !interp_pattern_known by assumption. destruct (q_g q) as [g|]; cbn; [|reflexivity].
  now rewrite interp_pattern_known.
Qed.

Lemma interp_quads_known qs :
  Forall known_iri (flat_map quad_iris qs) -> interp_quads i qs = Some (map (quad_at res) qs).
Proof. intros H. apply all_some_map. intros q Hq. apply interp_quad_known. eapply flat_map_known; eauto. Qed.

Lemma interp_graph_known vf :
  Forall known_iri (format_iris vf) ->
  interp_graph i (vf_graph vf) = Some (option_map (option_map (pattern_at res)) (vf_graph vf)).
Proof.
  unfold format_iris. rewrite Forall_app. intros [_ H]. destruct (vf_graph vf) as [[p|]|]; cbn; auto.
  now rewrite interp_pattern_known.
Qed.
End Lists.

Section Literals.
Context {R I : Type} {RT : Runtime R I} {IS : IntSyntax} {X : Xsd}.
Variable i : I.

Lemma lift_Ok {E A} (m : outcome E A) : (exists a, m = Ok a) \/ (forall a, m <> Ok a).
Proof. destruct m; [left; eauto|right; congruence..]. Qed.

(** The literals of a datatype. *)
Lemma existsb_one (dt s : string) : existsb (eqb s) [dt] = eqb s dt.
Proof. cbn. apply orb_false_r. Qed.

Definition other_typed (dt : string) (l : rdf_literal) : Prop := exists iri, rl_type l = TypeAny iri /\ iri <> dt.

Definition singled (dt : string) (ls : list rdf_literal) (l : rdf_literal) : Prop :=
  exists pre post, ls = pre ++ l :: post /\ rl_type l = TypeAny dt /\
    Forall (other_typed dt) pre /\ Forall (other_typed dt) post.

Lemma split_literals dt ls :
  NoDup (map rl_type ls) -> (forall l, In l ls -> exists iri, rl_type l = TypeAny iri) ->
  Forall (other_typed dt) ls \/ exists l, singled dt ls l.
Proof.
  induction ls as [|l ls IH]; intros N T; [now left|]. cbn [map] in N. inversion_clear N as [|? ? NI N'].
  destruct (T l (or_introl eq_refl)) as [iri Hl].
  assert (T' : forall l, In l ls -> exists iri, rl_type l = TypeAny iri) by (intros; apply T; now right).
  destruct (string_dec iri dt) as [->|NE].
  - right. exists l, [], ls. split; [reflexivity|]. split; [assumption|]. split; [constructor|].
    apply Forall_forall. intros x Hx. destruct (T' x Hx) as [iri Hi]. exists iri. split; [assumption|].
    intros ->. apply NI. rewrite Hl, <- Hi. now apply in_map.
  - destruct (IH N' T') as [F|(x & pre & post & -> & Hx & F1 & F2)].
    + left. constructor; [|assumption]. exists iri. auto.
    + right. exists x, (l :: pre), post. split; [reflexivity|]. split; [assumption|]. split; [|assumption].
      constructor; [exists iri; auto|assumption].
Qed.

Lemma eqb_ne (a b : string) : a <> b -> eqb a b = false.
Proof. intros N. destruct (eqb_spec a b); congruence. Qed.
Lemma eqb_self (a : string) : eqb a a = true.
Proof. destruct (eqb_spec a a); congruence. Qed.

Lemma de_literals_others p dt pre : forall ls r,
  Forall (other_typed dt) pre -> de_literals p dt (pre ++ ls) r = de_literals p dt ls r.
Proof.
  induction pre as [|l pre IH]; intros ls r F; [reflexivity|]. inversion_clear F as [|? ? H F'].
  destruct H as (iri & Hl & NE). cbn [app de_literals]. unfold literal_type_iri. rewrite Hl, eqb_ne by assumption. auto.
Qed.

Lemma de_literals_readings p dt ls : forall r,
  de_literals p dt ls r =
  match r, readings p dt ls with
  | None, [] => Ok None
  | None, [v] => Ok (Some v)
  | Some v, [] => Ok (Some v)
  | _, _ => Err AmbiguousLiteralValue
  end.
Proof.
  induction ls as [|l ls IH]; intros r; [destruct r; reflexivity|].
  cbn [de_literals]. unfold readings. cbn [flat_map]. fold (readings p dt ls).
  change (match rl_type l with TypeAny iri => iri | TypeLang _ => rdf_lang_string end) with (literal_type_iri l).
  destruct (string_dec (literal_type_iri l) dt) as [E|E]; destruct (eqb_spec (literal_type_iri l) dt) as [E'|E']; try contradiction.
  - unfold from_rdf_literal. destruct p as [|ity|].
    + destruct (boolean_parse (rl_value l)); cbn [option_map app]; rewrite ?IH; destruct r; cbn [app]; try rewrite IH;
        destruct (readings PBool dt ls) as [|? [|? ?]]; reflexivity.
    + destruct (int_parse ity (rl_value l)); cbn [option_map app]; rewrite ?IH; destruct r; try rewrite IH;
        destruct (readings (PInt ity) dt ls) as [|? [|? ?]]; reflexivity.
    + destruct r; cbn [app]; rewrite ?IH; destruct (readings PText dt ls) as [|? [|? ?]]; reflexivity.
  - apply IH.
Qed.

Lemma de_data_readings p dt r :
  de_data i p dt r =
  match readings p dt (rt_literals i r) with
  | [v] => Ok v
  | [] => Err (match rt_literals i r with [] => ExpectedLiteral | _ => LiteralTypeMismatch end)
  | _ => Err AmbiguousLiteralValue
  end.
Proof.
  unfold de_data. rewrite de_literals_readings. destruct (readings p dt (rt_literals i r)) as [|v [|? ?]]; [|reflexivity..].
  cbn [bind]. destruct (rt_literals i r); reflexivity.
Qed.

Lemma de_literals_singled p dt ls l : singled dt ls l ->
  de_literals p dt ls None = Ok (from_rdf_literal p (rl_value l)).
Proof.
  intros (pre & post & -> & Hl & F1 & F2). rewrite de_literals_others by assumption. cbn [de_literals].
  unfold literal_type_iri. rewrite Hl, eqb_self. rewrite <- (app_nil_r post).
  destruct (from_rdf_literal p (rl_value l)) as [v|]; now rewrite de_literals_others.
Qed.

Lemma text_others pre : forall ls, Forall (other_typed xsd_string) pre -> text_loop (pre ++ ls) = text_loop ls.
Proof.
  induction pre as [|l pre IH]; intros ls F; [reflexivity|]. inversion_clear F as [|? ? H F'].
  destruct H as (iri & Hl & NE). cbn [app text_loop]. rewrite Hl, eqb_ne by assumption. auto.
Qed.

Lemma text_singled ls l : singled xsd_string ls l -> text_loop ls = Ok (rl_value l).
Proof.
  intros (pre & post & -> & Hl & F1 & F2). rewrite text_others by assumption. cbn [text_loop]. now rewrite Hl, eqb_self.
Qed.

Lemma int_others ty pre : forall ls r b, Forall (other_typed (int_datatype ty)) pre ->
  int_loop ty (pre ++ ls) r b = int_loop ty ls r (match pre with [] => b | _ => true end).
Proof.
  induction pre as [|l pre IH]; intros ls r b F; [reflexivity|]. inversion_clear F as [|? ? H F'].
  destruct H as (iri & Hl & NE). cbn [app int_loop]. rewrite Hl, eqb_ne by assumption. rewrite IH by assumption.
  now destruct pre.
Qed.

Lemma int_singled ty ls l : singled (int_datatype ty) ls l ->
  match int_parse ty (rl_value l) with
  | Some z => exists b, int_loop ty ls None false = Ok (Some z, b)
  | None => int_loop ty ls None false = Err InvalidLiteralValue
  end.
Proof.
  intros (pre & post & -> & Hl & F1 & F2). rewrite int_others by assumption. cbn [int_loop]. rewrite Hl, eqb_self.
  destruct (int_parse ty (rl_value l)) as [z|]; [|reflexivity].
  rewrite <- (app_nil_r post), int_others by assumption. cbn. eauto.
Qed.

#[local] Hint Extern 0 (Interp _) => exact (seen i) : typeclass_instances.
Variable res : string -> R.

Lemma hydrate_others k ref dt pre : forall ls sel, rt_iris i (res dt) = [dt] ->
  Forall (other_typed dt) pre ->
  hydrate_literals k ref (res dt) (pre ++ ls) sel = hydrate_literals k ref (res dt) ls sel.
Proof.
  induction pre as [|l pre IH]; intros ls sel N F; [reflexivity|]. inversion_clear F as [|? ? H F'].
  destruct H as (iri & Hl & NE). cbn [app hydrate_literals iris_of seen]. rewrite Hl, N, existsb_one, eqb_ne by assumption.
  auto.
Qed.

Lemma hydrate_singled k ref dt ls l : rt_iris i (res dt) = [dt] -> singled dt ls l ->
  hydrate_literals k ref (res dt) ls None = hydrate_literal_value k ref (rl_value l) dt.
Proof.
  intros N (pre & post & -> & Hl & F1 & F2). rewrite hydrate_others by assumption.
  cbn [hydrate_literals iris_of seen]. rewrite Hl, N, existsb_one, eqb_self.
  destruct (hydrate_literal_value k ref (rl_value l) dt); cbn [bind]; try reflexivity.
  rewrite <- (app_nil_r post), hydrate_others by assumption. reflexivity.
Qed.

Lemma hydrate_rest k ref dt ls : forall t t', rt_iris i (res dt) = [dt] ->
  hydrate_literals k ref (res dt) ls (Some t) = Ok t' -> t' = t /\ Forall (other_typed dt) ls.
Proof.
  induction ls as [|l ls IH]; intros t t' N H; cbn [hydrate_literals] in H.
  - cbn in H. injection H as <-. auto.
  - destruct (rl_type l) as [iri|] eqn:Hl; [|discriminate]. cbn [iris_of seen] in H. rewrite N, existsb_one in H.
    destruct (eqb_spec iri dt) as [E|NE].
    + apply bind_Ok in H as (? & _ & H). discriminate.
    + apply IH in H as [-> F]; [|assumption]. split; [reflexivity|]. constructor; [|assumption]. exists iri. auto.
Qed.

Lemma hydrate_singles k ref dt ls : forall t, rt_iris i (res dt) = [dt] ->
  hydrate_literals k ref (res dt) ls None = Ok t ->
  exists l, singled dt ls l /\ hydrate_literal_value k ref (rl_value l) dt = Ok t.
Proof.
  induction ls as [|l ls IH]; intros t N H; cbn [hydrate_literals] in H; [discriminate|].
  destruct (rl_type l) as [iri|] eqn:Hl; [|discriminate]. cbn [iris_of seen] in H. rewrite N, existsb_one in H.
  destruct (eqb_spec iri dt) as [E|NE].
  - subst iri. apply bind_Ok in H as (v & Hv & H). apply hydrate_rest in H as [-> F]; [|assumption].
    exists l. split; [|assumption]. exists [], ls. auto.
  - apply IH in H as (x & (pre & post & -> & Hx & F1 & F2) & Hv); [|assumption].
    exists x. split; [|assumption]. exists (l :: pre), post. repeat split; auto. constructor; [|assumption]. exists iri. auto.
Qed.
End Literals.

Section Simulation.
Context {R I : Type} {CR : Cmp R} {LR : CmpLaws R} {RT : Runtime R I} {RS : Resolver R I} {IS : IntSyntax} {X : Xsd}.
Variable i : I.
Variable D : dataset R.
Variable types : program.
Variable res : string -> R.
Variable reg : registry R.
Hypothesis DEC : integers_are_decimals.
Hypothesis FITS : program_fits types.
Hypothesis DESC : describes types res reg.
Hypothesis INT : interpreted i types res.
#[local] Hint Extern 0 (Interp _) => exact (seen i) : typeclass_instances.

Notation knowns := (Forall (known_iri i res)).

Lemma unique_eq g ps s f o :
  knowns (flat_map quad_iris ps) ->
  de_unique i D g ps s = Ok o <-> match_unique D g (map (quad_at res) ps) s f = Ok o.
Proof.
  intros K. unfold de_unique, match_unique. rewrite interp_quads_known with (res := res) by assumption. cbn [missing ok_or bind].
  destruct (stream_unique _) as [?|[]|?|]; cbn; split; intros E; first [discriminate|injection E as E; now rewrite E].
Qed.

Lemma required_eq g ps s f s' :
  knowns (flat_map quad_iris ps) ->
  de_required i D g ps s = Ok s' <-> match_required D g (map (quad_at res) ps) s f = Ok s'.
Proof.
  intros K. unfold de_required, match_required. rewrite interp_quads_known with (res := res) by assumption. cbn [missing ok_or bind].
  destruct (stream_required_unique _) as [?|[]|?|]; cbn; split; intros E; first [discriminate|injection E as E; now rewrite E].
Qed.

Lemma header_eq g h inputs ref s :
  knowns (header_iris h) ->
  de_header i D g h inputs = Ok s <-> match_header D g ref (header_at res h) inputs = Ok s.
Proof. intros K. unfold de_header, match_header. now apply required_eq. Qed.

Lemma resolve_eq (s : subst R) p w r :
  @resolve R s p = Ok r <-> unwrap (E := hy_error R) w (into_resource (papply s p)) = Ok r.
Proof.
  unfold resolve. split; intros H; apply unwrap_Ok; apply unwrap_Ok in H; exact H.
Qed.

Lemma inputs_eq ps (s : subst R) inputs :
  @de_inputs R ps s = Ok inputs <-> select_inputs ps s = Ok inputs.
Proof.
  unfold de_inputs, select_inputs, gres, hres. rewrite !mapM_Ok. split; intros H; induction H as [|a b l l' H _ IH];
    constructor; auto; revert H; apply resolve_eq.
Qed.

Lemma graph_eq g gp (s : subst R) g' : @de_graph R g gp s = Ok g' <-> select_graph g gp s = Ok g'.
Proof.
  destruct gp as [[p|]|]; cbn [de_graph select_graph]; [|split; congruence..].
  split; intros H; apply bind_Ok in H as (r & Hr & H); apply (resolve_eq s p "select_graph") in Hr; rewrite Hr; cbn;
    congruence.
Qed.

Section Rec.
Variable rec : option R -> string -> list R -> outcome de_error rvalue.
Variable hrec : option R -> R -> list R -> outcome (hy_error R) (typed_value R).

Lemma format_eq g vf s v :
  knowns (format_iris vf) ->
  de_format i rec g vf s = Ok v <->
  exists inputs g', select_inputs (map (pattern_at res) (vf_input vf)) s = Ok inputs /\
    select_graph g (option_map (option_map (pattern_at res)) (vf_graph vf)) s = Ok g' /\
    rec g' (vf_layout vf) inputs = Ok v.
Proof.
  intros K. unfold de_format. rewrite interp_graph_known with (res := res) by assumption.
  assert (K' := K). unfold format_iris in K'. apply Forall_app in K' as [K' _].
  rewrite interp_patterns_known with (res := res) by assumption. cbn [missing ok_or bind]. split.
  - intros H. apply bind_Ok in H as (inputs & A & H). apply bind_Ok in H as (g' & B & H).
    exists inputs, g'. split; [now apply inputs_eq|]. split; [now apply graph_eq|assumption].
  - intros (inputs & g' & A & B & H). apply inputs_eq in A. apply graph_eq in B. rewrite A. cbn [bind]. now rewrite B.
Qed.

(** ** Soundness *)

Section Sound.
Hypothesis SIM : forall g ty inputs v, rec g ty inputs = Ok v -> ~ mentions_blank v ->
  exists tv, hrec g (res ty) inputs = Ok tv /\ presents types res ty tv v.

Lemma format_sound g vf s v :
  knowns (format_iris vf) -> de_format i rec g vf s = Ok v -> ~ mentions_blank v ->
  exists tv, hydrate_format hrec g (format_at res vf) s = Ok tv /\ presents types res (vf_layout vf) tv v.
Proof.
  intros K H NB. apply format_eq in H as (inputs & g' & A & B & H); [|assumption].
  apply SIM in H as (tv & H & P); [|assumption]. exists tv. split; [|assumption].
  unfold hydrate_format, format_at. cbn [vf_input vf_graph vf_layout]. rewrite A. cbn [bind]. now rewrite B.
Qed.

Lemma insert_last {V} (m : list (value * V)) k v :
  (forall k', In k' (map fst m) -> lt k' k) -> bt_insert k v m = m ++ [(k, v)].
Proof.
  induction m as [|[k0 v0] m IH]; intros H; [reflexivity|]. cbn [bt_insert app].
  assert (L : cmp k k0 = Gt). { rewrite (cmp_opp k0 k). unfold lt in H. rewrite (H k0); [reflexivity|now left]. }
  rewrite L. f_equal. apply IH. intros k' Hk. apply H. now right.
Qed.

Lemma fields_sound g ref s fs : forall rec0 data vs,
  StronglySorted lt (keys fs) -> (forall k k', In k (map fst rec0) -> In k' (keys fs) -> lt k k') ->
  (forall kf, In kf fs -> knowns (item_iris (f_item (snd kf)))) ->
  de_fields i D rec g s fs = Ok data -> unwrap_fields data = Ok vs ->
  (forall name v, In (name, Some v) vs -> ~ mentions_blank v) ->
  exists m, hydrate_fields D hrec g ref s (map (field_at res) fs) rec0 = Ok (rec0 ++ m) /\
    presents_fields types res fs m vs.
Proof.
  induction fs as [|[k f] fs IH]; intros rec0 data vs SS BEF K H U NB.
  - cbn in H. injection H as <-. cbn in U. injection U as <-. exists []. rewrite app_nil_r. split; [reflexivity|constructor].
  - cbn [de_fields] in H. apply bind_Ok in H as (name & Hn & H). apply unwrap_Ok in Hn.
    assert (k = VLit (LText name)) as -> by (destruct k as [[]| |]; cbn in Hn; congruence).
    apply bind_Ok in H as (o & Ho & H). apply bind_Ok in H as (v & Hv & H). apply bind_Ok in H as (rest & Hr & H).
    injection H as <-. cbn [unwrap_fields] in U.
    assert (Kf := K _ (or_introl eq_refl)). cbn [snd] in Kf. unfold item_iris in Kf. apply Forall_app in Kf as [Kd Kv].
    cbn [map field_at fst snd hydrate_fields].
    apply unique_eq with (f := FKey ref (VLit (LText name))) in Ho; [|assumption].
    cbn [f_item f_required it_dataset it_value it_intro item_at]. rewrite Ho. cbn [bind].
    cbn [keys map fst] in SS. inversion_clear SS as [|? ? SS' FA].
    destruct o as [s'|].
    + apply bind_Ok in Hv as (v0 & Hv & E). injection E as <-.
      apply bind_Ok in U as (fs' & U & E). injection E as <-.
      apply format_sound in Hv as (tv & Hv & P); [|assumption|eapply NB; now left].
      rewrite Hv. cbn [bind]. rewrite insert_last.
      2:{ intros k' Hk. apply BEF; [assumption|now left]. }
      destruct (IH (rec0 ++ [(VLit (LText name), tv)]) rest fs') as (m & Hm & PF); auto.
      * intros k k' Hk Hk'. rewrite map_app, in_app_iff in Hk. destruct Hk as [Hk|[<-|[]]].
        -- apply BEF; [assumption|now right].
        -- rewrite Forall_forall in FA. now apply FA.
      * intros kf Hkf. apply K. now right.
      * intros n v Hin. eapply NB. right. eassumption.
      * rewrite Hm, <- app_assoc. eexists. split; [reflexivity|]. constructor; assumption.
    + injection Hv as <-. destruct (f_required f) eqn:Q; [discriminate|].
      apply bind_Ok in U as (fs' & U & E). injection E as <-.
      destruct (IH rec0 rest fs') as (m & Hm & PF); auto.
      * intros k k' Hk Hk'. apply BEF; [assumption|now right].
      * intros kf Hkf. apply K. now right.
      * intros n v Hin. eapply NB. right. eassumption.
      * exists m. split; [assumption|]. constructor; assumption.
Qed.

Lemma variants_some g ref s : forall vs index r,
  (forall v, In v vs -> it_intro (va_item v) = 0 /\ knowns (item_iris (va_item v))) ->
  de_variants i D rec g s index vs (Some r) = Ok (Some r) ->
  forall sel, hydrate_variants D hrec g ref s index (map (variant_at res) vs) sel = Ok sel.
Proof.
  induction vs as [|v vs IH]; intros index r K H sel; [reflexivity|].
  cbn [de_variants] in H. apply bind_Ok in H as (o & Ho & H).
  destruct (K v (or_introl eq_refl)) as [Z Kv]. unfold item_iris in Kv. apply Forall_app in Kv as [Kd _].
  rewrite Z in Ho. unfold sintro in Ho. cbn [repeat] in Ho. rewrite app_nil_r in Ho.
  apply unique_eq with (f := FVariant ref (va_name v)) in Ho; [|assumption].
  cbn [map variant_at hydrate_variants va_item va_name item_at it_dataset it_value]. rewrite Ho. cbn [bind].
  destruct o as [s'|].
  - apply bind_Ok in H as (? & _ & H). discriminate.
  - eapply IH; [|eassumption]. intros w Hw. apply K. now right.
Qed.

Lemma variants_result g s : forall vs index r o,
  de_variants i D rec g s index vs (Some r) = Ok o -> o = Some r.
Proof.
  induction vs as [|v vs IH]; intros index r o H; cbn [de_variants] in H; [congruence|].
  apply bind_Ok in H as (? & _ & H). destruct x as [s'|]; [|eauto].
  apply bind_Ok in H as (? & _ & H). discriminate.
Qed.

Lemma variants_sound g ref s : forall vs index r,
  (forall v, In v vs -> it_intro (va_item v) = 0 /\ knowns (item_iris (va_item v))) ->
  de_variants i D rec g s index vs None = Ok (Some r) -> ~ mentions_blank r ->
  exists n variant v tv, r = RvVariant (index + n) v /\ nth_error vs n = Some variant /\
    hydrate_variants D hrec g ref s index (map (variant_at res) vs) None = Ok (Some (index + n, tv)) /\
    presents types res (vf_layout (it_value (va_item variant))) tv v.
Proof.
  induction vs as [|v vs IH]; intros index r K H NB; [discriminate|].
  cbn [de_variants] in H. apply bind_Ok in H as (o & Ho & H).
  destruct (K v (or_introl eq_refl)) as [Z Kv]. unfold item_iris in Kv. apply Forall_app in Kv as [Kd Kf].
  rewrite Z in Ho. unfold sintro in Ho. cbn [repeat] in Ho. rewrite app_nil_r in Ho.
  apply unique_eq with (f := FVariant ref (va_name v)) in Ho; [|assumption].
  cbn [map variant_at hydrate_variants va_item va_name item_at it_dataset it_value]. rewrite Ho. cbn [bind].
  assert (K' : forall v, In v vs -> it_intro (va_item v) = 0 /\ knowns (item_iris (va_item v))) by (intros; apply K; now right).
  destruct o as [s'|].
  - apply bind_Ok in H as (value & Hv & H).
    assert (E := variants_result _ _ _ _ _ _ H). injection E as ->.
    apply format_sound in Hv as (tv & Hv & P); [|assumption|intros C; apply NB; now constructor].
    rewrite Hv. exists 0, v, value, tv. rewrite Nat.add_0_r. split; [reflexivity|]. split; [reflexivity|].
    split; [|assumption]. eapply variants_some; eauto.
  - destruct (IH (S index) r K' H NB) as (n & variant & w & tv & -> & N & Hh & P).
    exists (S n), variant, w, tv. rewrite Nat.add_succ_r. cbn [nth_error]. auto.
Qed.

Lemma items_sound g vf : forall ms vs,
  knowns (format_iris vf) -> de_items i rec g vf ms = Ok vs -> (forall v, In v vs -> ~ mentions_blank v) ->
  exists tvs, hydrate_items hrec g (format_at res vf) ms = Ok tvs /\
    presents_all types res (map (fun _ => vf_layout vf) vs) tvs vs.
Proof.
  induction ms as [|[w|s] ms IH]; intros vs K H NB; cbn [de_items] in H.
  - injection H as <-. exists []. split; [reflexivity|constructor].
  - discriminate.
  - apply bind_Ok in H as (v & Hv & H). apply bind_Ok in H as (vs' & Hvs & H). injection H as <-.
    apply format_sound in Hv as (tv & Hv & P); [|assumption|apply NB; now left].
    destruct (IH vs' K Hvs) as (tvs & Ht & PA); [intros; apply NB; now right|].
    cbn [hydrate_items]. rewrite Hv. cbn [bind]. rewrite Ht. exists (tv :: tvs). split; [reflexivity|].
    cbn [map]. constructor; assumption.
Qed.

Lemma nodes_sound g ref s node tail : forall fuel head vs,
  knowns (item_iris node) -> de_nodes i D rec fuel g s node head tail = Ok vs ->
  (forall v, In v vs -> ~ mentions_blank v) ->
  exists tvs, hydrate_nodes D hrec fuel g ref s (item_at res node) head tail = Ok tvs /\
    presents_all types res (map (fun _ => vf_layout (it_value node)) vs) tvs vs.
Proof.
  induction fuel as [|fuel IH]; intros head vs K H NB; cbn [de_nodes] in H; [discriminate|].
  cbn [hydrate_nodes]. destruct (eqb head tail).
  - injection H as <-. exists []. split; [reflexivity|constructor].
  - assert (K0 := K). unfold item_iris in K0. apply Forall_app in K0 as [Kd Kf].
    apply bind_Ok in H as (s' & Hs & H). apply bind_Ok in H as (v & Hv & H). apply bind_Ok in H as (head' & Hh & H).
    apply bind_Ok in H as (vs' & Hvs & H). injection H as <-.
    apply required_eq with (f := FOrderedListNode ref head tail) in Hs; [|assumption].
    cbn [item_at it_dataset it_value it_intro]. cbn [Nat.add] in Hs |- *. rewrite Hs. cbn [bind].
    apply format_sound in Hv as (tv & Hv & P); [|assumption|apply NB; now left]. rewrite Hv. cbn [bind].
    apply unwrap_Ok in Hh. rewrite Hh. cbn [unwrap bind].
    destruct (IH head' vs' K Hvs) as (tvs & Ht & PA); [intros; apply NB; now right|].
    rewrite Ht. exists (tv :: tvs). split; [reflexivity|].
    cbn [map]. constructor; assumption.
Qed.

Lemma tuple_sound g ref s : forall its index vs,
  (forall it, In it its -> knowns (item_iris it)) -> de_tuple i D rec g s its = Ok vs ->
  (forall v, In v vs -> ~ mentions_blank v) ->
  exists tvs, hydrate_tuple D hrec g ref s index (map (item_at res) its) = Ok tvs /\
    presents_all types res (map (fun it => vf_layout (it_value it)) its) tvs vs.
Proof.
  induction its as [|it its IH]; intros index vs K H NB; cbn [de_tuple] in H.
  - injection H as <-. exists []. split; [reflexivity|constructor].
  - assert (Ki := K it (or_introl eq_refl)). unfold item_iris in Ki. apply Forall_app in Ki as [Kd Kf].
    apply bind_Ok in H as (s' & Hs & H). apply bind_Ok in H as (v & Hv & H). apply bind_Ok in H as (vs' & Hvs & H).
    injection H as <-.
    apply required_eq with (f := FSizedListItem ref index) in Hs; [|assumption].
    cbn [map hydrate_tuple item_at it_dataset it_value it_intro]. rewrite Hs. cbn [bind].
    apply format_sound in Hv as (tv & Hv & P); [|assumption|apply NB; now left]. rewrite Hv. cbn [bind].
    destruct (IH (S index) vs') as (tvs & Ht & PA); auto.
    { intros; apply K; now right. } { intros; apply NB; now right. }
    rewrite Ht. exists (tv :: tvs). split; [reflexivity|]. constructor; assumption.
Qed.
End Sound.

(** ** Completeness *)

Section Complete.
Hypothesis SIM : forall g ty inputs tv, hrec g (res ty) inputs = Ok tv ->
  exists v, rec g ty inputs = Ok v /\ presents types res ty tv v.

Lemma format_complete g vf s tv :
  knowns (format_iris vf) -> hydrate_format hrec g (format_at res vf) s = Ok tv ->
  exists v, de_format i rec g vf s = Ok v /\ presents types res (vf_layout vf) tv v.
Proof.
  intros K H. unfold hydrate_format, format_at in H. cbn [vf_input vf_graph vf_layout] in H.
  apply bind_Ok in H as (inputs & A & H). apply bind_Ok in H as (g' & B & H).
  apply SIM in H as (v & H & P). exists v. split; [|assumption]. apply format_eq; [assumption|]. eauto.
Qed.

Lemma fields_complete g ref s fs : forall rec0 m0,
  StronglySorted lt (keys fs) -> (forall k k', In k (map fst rec0) -> In k' (keys fs) -> lt k k') ->
  (forall kf, In kf fs -> exists name, fst kf = VLit (LText name)) ->
  (forall kf, In kf fs -> knowns (item_iris (f_item (snd kf)))) ->
  hydrate_fields D hrec g ref s (map (field_at res) fs) rec0 = Ok m0 ->
  exists m data vs, m0 = rec0 ++ m /\ de_fields i D rec g s fs = Ok data /\ unwrap_fields data = Ok vs /\
    presents_fields types res fs m vs.
Proof.
  induction fs as [|[k f] fs IH]; intros rec0 m0 SS BEF TX K H.
  - cbn in H. injection H as <-. exists [], [], []. rewrite app_nil_r. repeat split; constructor.
  - destruct (TX _ (or_introl eq_refl)) as [name E]. cbn [fst] in E. subst k.
    assert (Kf := K _ (or_introl eq_refl)). cbn [snd] in Kf. unfold item_iris in Kf. apply Forall_app in Kf as [Kd Kv].
    cbn [map field_at fst snd hydrate_fields f_item f_required it_dataset it_value it_intro item_at] in H.
    apply bind_Ok in H as (o & Ho & H). apply unique_eq in Ho; [|assumption].
    cbn [keys map fst] in SS. inversion_clear SS as [|? ? SS' FA].
    cbn [de_fields field_name unwrap bind]. rewrite Ho. cbn [bind]. destruct o as [s'|].
    + apply bind_Ok in H as (tv & Hv & H). apply format_complete in Hv as (v & Hv & P); [|assumption].
      rewrite insert_last in H. 2:{ intros k' Hk. apply BEF; [assumption|now left]. }
      destruct (IH (rec0 ++ [(VLit (LText name), tv)]) m0) as (m & data & vs & -> & Hd & U & PF); auto.
      * intros k k' Hk Hk'. rewrite map_app, in_app_iff in Hk. destruct Hk as [Hk|[<-|[]]].
        -- apply BEF; [assumption|now right].
        -- rewrite Forall_forall in FA. now apply FA.
      * intros kf Hkf. apply TX. now right.
      * intros kf Hkf. apply K. now right.
      * rewrite Hv. cbn [bind]. rewrite Hd. cbn [bind]. rewrite <- app_assoc.
        eexists _, _, _. split; [reflexivity|]. split; [reflexivity|]. cbn [unwrap_fields]. rewrite U. cbn [bind].
        split; [reflexivity|]. constructor; assumption.
    + destruct (f_required f) eqn:Q; [discriminate|].
      destruct (IH rec0 m0) as (m & data & vs & -> & Hd & U & PF); auto.
      * intros k k' Hk Hk'. apply BEF; [assumption|now right].
      * intros kf Hkf. apply TX. now right.
      * intros kf Hkf. apply K. now right.
      * cbn [bind]. rewrite Hd. cbn [bind].
        eexists _, _, _. split; [reflexivity|]. split; [reflexivity|]. cbn [unwrap_fields]. rewrite U. cbn [bind].
        split; [reflexivity|]. constructor; assumption.
Qed.

Lemma items_complete g vf : forall ms tvs,
  knowns (format_iris vf) -> hydrate_items hrec g (format_at res vf) ms = Ok tvs ->
  exists vs, de_items i rec g vf ms = Ok vs /\ presents_all types res (map (fun _ => vf_layout vf) vs) tvs vs.
Proof.
  induction ms as [|[w|s] ms IH]; intros tvs K H; cbn [hydrate_items] in H.
  - injection H as <-. exists []. split; [reflexivity|constructor].
  - discriminate.
  - apply bind_Ok in H as (tv & Hv & H). apply bind_Ok in H as (tvs' & Hvs & H). injection H as <-.
    apply format_complete in Hv as (v & Hv & P); [|assumption].
    destruct (IH tvs' K Hvs) as (vs & Ht & PA).
    cbn [de_items]. rewrite Hv. cbn [bind]. rewrite Ht. exists (v :: vs). split; [reflexivity|].
    cbn [map]. constructor; assumption.
Qed.

Lemma nodes_complete g ref s node tail : forall fuel head tvs,
  knowns (item_iris node) -> hydrate_nodes D hrec fuel g ref s (item_at res node) head tail = Ok tvs ->
  exists vs, de_nodes i D rec fuel g s node head tail = Ok vs /\
    presents_all types res (map (fun _ => vf_layout (it_value node)) vs) tvs vs.
Proof.
  induction fuel as [|fuel IH]; intros head tvs K H; cbn [hydrate_nodes] in H; [discriminate|].
  cbn [de_nodes]. destruct (eqb head tail).
  - injection H as <-. exists []. split; [reflexivity|constructor].
  - assert (K0 := K). unfold item_iris in K0. apply Forall_app in K0 as [Kd Kf].
    apply bind_Ok in H as (s' & Hs & H). apply bind_Ok in H as (tv & Hv & H). apply bind_Ok in H as (head' & Hh & H).
    apply bind_Ok in H as (tvs' & Hvs & H). injection H as <-.
    apply required_eq in Hs; [|assumption].
    cbn [item_at it_intro Nat.add] in Hs |- *. rewrite Hs. cbn [bind].
    apply format_complete in Hv as (v & Hv & P); [|assumption]. rewrite Hv. cbn [bind].
    apply unwrap_Ok in Hh. rewrite Hh. cbn [unwrap bind].
    destruct (IH head' tvs' K Hvs) as (vs & Ht & PA).
    rewrite Ht. exists (v :: vs). split; [reflexivity|].
    cbn [map]. constructor; assumption.
Qed.

Lemma variants_absent g ref s : forall vs index sel sel' r,
  (forall v, In v vs -> it_intro (va_item v) = 0 /\ knowns (item_iris (va_item v))) ->
  (forall v s', In v vs -> match_unique D g (map (quad_at res) (it_dataset (va_item v))) s (FVariant ref (va_name v)) <> Ok (Some s')) ->
  hydrate_variants D hrec g ref s index (map (variant_at res) vs) sel = Ok sel' ->
  sel' = sel /\ de_variants i D rec g s index vs r = Ok r.
Proof.
  induction vs as [|v vs IH]; intros index sel sel' r K NM H; [injection H as <-; split; reflexivity|].
  cbn [map variant_at hydrate_variants va_item va_name item_at it_dataset it_value] in H.
  destruct (K v (or_introl eq_refl)) as [Z Kv]. unfold item_iris in Kv. apply Forall_app in Kv as [Kd _].
  apply bind_Ok in H as (o & Ho & H). destruct o as [s'|]; [exfalso; now apply (NM v s' (or_introl eq_refl))|].
  apply unique_eq in Ho; [|assumption]. cbn [de_variants]. rewrite Z. unfold sintro. cbn [repeat]. rewrite app_nil_r, Ho. cbn [bind].
  eapply IH; [| |exact H]; intros; [apply K|apply NM]; now right.
Qed.

Lemma variants_complete g ref s : forall vs index n tv,
  (forall v, In v vs -> it_intro (va_item v) = 0 /\ knowns (item_iris (va_item v))) ->
  (forall a b v w f1 f2 s1 s2, nth_error vs a = Some v -> nth_error vs b = Some w ->
     match_unique D g (map (quad_at res) (it_dataset (va_item v))) s f1 = Ok (Some s1) ->
     match_unique D g (map (quad_at res) (it_dataset (va_item w))) s f2 = Ok (Some s2) -> a = b) ->
  hydrate_variants D hrec g ref s index (map (variant_at res) vs) None = Ok (Some (n, tv)) ->
  exists variant v, nth_error vs (n - index) = Some variant /\ index <= n /\
    de_variants i D rec g s index vs None = Ok (Some (RvVariant n v)) /\
    presents types res (vf_layout (it_value (va_item variant))) tv v.
Proof.
  induction vs as [|v vs IH]; intros index n tv K ONE H; [discriminate|].
  cbn [map variant_at hydrate_variants va_item va_name item_at it_dataset it_value] in H.
  destruct (K v (or_introl eq_refl)) as [Z Kv]. unfold item_iris in Kv. apply Forall_app in Kv as [Kd Kf].
  apply bind_Ok in H as (o & Ho & H).
  assert (Ho' := Ho). apply unique_eq in Ho'; [|assumption]. cbn [de_variants]. rewrite Z. unfold sintro. cbn [repeat]. rewrite app_nil_r, Ho'. cbn [bind].
  assert (K' : forall v, In v vs -> it_intro (va_item v) = 0 /\ knowns (item_iris (va_item v))) by (intros; apply K; now right).
  assert (NEXT : hydrate_variants D hrec g ref s (S index) (map (variant_at res) vs) None = Ok (Some (n, tv)) ->
    exists variant x, nth_error (v :: vs) (n - index) = Some variant /\ index <= n /\
      de_variants i D rec g s (S index) vs None = Ok (Some (RvVariant n x)) /\
      presents types res (vf_layout (it_value (va_item variant))) tv x).
  { intros H'. destruct (IH (S index) n tv K') as (variant & x & N & L & Hd & P); [|assumption|].
    - intros a b ? ? ? ? ? ? Ha Hb Ma Mb. assert (E := ONE (S a) (S b) _ _ _ _ _ _ Ha Hb Ma Mb). now injection E.
    - exists variant, x. replace (n - index) with (S (n - S index)) by lia. repeat split; [assumption|lia|assumption..]. }
  destruct o as [s'|]; [|exact (NEXT H)].
  assert (NM : forall w f s'', In w vs -> match_unique D g (map (quad_at res) (it_dataset (va_item w))) s f <> Ok (Some s'')).
  { intros w f s'' Hw M. apply In_nth_error in Hw as [b Hb]. now assert (E := ONE 0 (S b) v w _ _ _ _ eq_refl Hb Ho M). }
  destruct (hydrate_format hrec g (format_at res (it_value (va_item v))) s') as [x|e| |] eqn:Hf; try discriminate.
  - apply format_complete in Hf as (y & Hy & P); [|assumption]. rewrite Hy. cbn [bind].
    apply (variants_absent g ref s vs (S index) _ _ (Some (RvVariant index y))) in H as [E Hd]; auto.
    injection E as -> ->. exists v, y. rewrite Nat.sub_diag. repeat split; [lia|assumption..].
  - apply (variants_absent g ref s vs (S index) _ _ None) in H as [E _]; auto. discriminate.
Qed.

Lemma tuple_complete g ref s : forall its index tvs,
  (forall it, In it its -> knowns (item_iris it)) ->
  hydrate_tuple D hrec g ref s index (map (item_at res) its) = Ok tvs ->
  exists vs, de_tuple i D rec g s its = Ok vs /\
    presents_all types res (map (fun it => vf_layout (it_value it)) its) tvs vs.
Proof.
  induction its as [|it its IH]; intros index tvs K H; cbn [map hydrate_tuple] in H.
  - injection H as <-. exists []. split; [reflexivity|constructor].
  - assert (Ki := K it (or_introl eq_refl)). unfold item_iris in Ki. apply Forall_app in Ki as [Kd Kf].
    apply bind_Ok in H as (s' & Hs & H). apply bind_Ok in H as (tv & Hv & H). apply bind_Ok in H as (tvs' & Hvs & H).
    injection H as <-. apply required_eq in Hs; [|assumption].
    cbn [de_tuple]. cbn [item_at it_intro] in Hs. rewrite Hs. cbn [bind].
    apply format_complete in Hv as (v & Hv & P); [|assumption]. rewrite Hv. cbn [bind].
    destruct (IH (S index) tvs') as (vs & Ht & PA); auto.
    { intros; apply K; now right. }
    rewrite Ht. exists (v :: vs). split; [reflexivity|]. constructor; assumption.
Qed.
End Complete.
End Rec.

(** ** The simulations *)

Lemma layout_known ty l inner : types ty = Some (TyDerived l inner) -> knowns (layout_iris l).
Proof. intros T. apply Forall_forall. intros iri Hi. exact (proj1 INT ty l inner iri T Hi). Qed.

Lemma datatype_named ty t dt : types ty = Some t -> type_datatype t = Some dt -> rt_iris i (res dt) = [dt].
Proof. exact (proj2 INT ty t dt). Qed.

Lemma input_count_at l : input_count (layout_at res l) = input_count l.
Proof. destruct l; reflexivity. Qed.

Lemma id_loop_iri names id : id_loop IdIri names None = Ok (Some id) -> exists s, names = [s] /\ id = IdIri s.
Proof.
  destruct names as [|s [|s' names]]; cbn; intros H; try discriminate. injection H as <-. eauto.
Qed.

Definition same_literal (ref : R) (k : data_kind) (t : typed_literal R) (v : rvalue) : Prop :=
  match k with
  | KBoolean => exists b, t = TBool b ref /\ v = RvBool b
  | KNumber => exists z, t = TNum (Q2Qc (inject_Z z)) ref /\ v = RvInt z
  | KByteString => False
  | KTextString _ => exists s, t = TText s ref /\ v = RvText s
  end.

Lemma value_sound k h pat dt inner ref s v :
  fits (DataL k h pat dt) inner -> from_rdf_literal inner s = Some v ->
  exists t, hydrate_literal_value k ref s dt = Ok t /\ same_literal ref k t v.
Proof.
  intros F H. destruct k; cbn [fits] in F; cbn [same_literal hydrate_literal_value].
  - destruct F as [-> ->]. cbn in H. unfold hydrate_boolean_value. rewrite eqb_self.
    destruct (boolean_parse s) as [b|]; [|discriminate]. injection H as <-. cbn. eauto.
  - destruct F as [[ty ->] T]. cbn in H. unfold hydrate_number_value. rewrite T.
    destruct (int_parse ty s) as [z|] eqn:P; [|discriminate]. injection H as <-.
    apply (proj2 DEC) in P. rewrite P. cbn. eauto.
  - contradiction.
  - subst inner. cbn in H. injection H as <-. cbn. eauto.
Qed.

Section Top.
Hypothesis PLAIN : plain_literals i.

Lemma data_sound ty k h pat dt inner ref r v :
  types ty = Some (TyDerived (DataL k h pat dt) inner) -> de_data i inner dt r = Ok v ->
  exists t, hydrate_literals k ref (res dt) (literals_of r) None = Ok t /\ same_literal ref k t v.
Proof.
  intros T H. unfold de_data in H. destruct (PLAIN r) as [N A].
  assert (F := FITS _ _ _ T). assert (ND := datatype_named ty _ dt T eq_refl).
  destruct (split_literals dt (rt_literals i r) N A) as [O|[l S]].
  - rewrite <- (app_nil_r (rt_literals i r)) in H at 1. rewrite de_literals_others in H by assumption. cbn in H.
    destruct (rt_literals i r); discriminate.
  - rewrite de_literals_singled with (l := l) in H by assumption. cbn [bind] in H.
    destruct (from_rdf_literal inner (rl_value l)) as [w|] eqn:E; [|destruct (rt_literals i r); discriminate].
    injection H as <-. cbn [literals_of seen]. rewrite hydrate_singled with (l := l) by assumption.
    eapply value_sound; eauto.
Qed.

Ltac use_presents := eexists; split; [reflexivity|econstructor; eauto].

Lemma this_header g ref inputs : match_header D g ref (header_at res this) inputs = Ok (map Some inputs).
Proof.
  unfold match_header, match_required. cbn [header_at this h_dataset h_intro map with_default_graph stream].
  unfold sintro, from_inputs. cbn [repeat]. rewrite app_nil_r. reflexivity.
Qed.

Theorem deserialize_sound : forall fuel g ty inputs v,
  deserialize i D types fuel g ty inputs = Ok v -> ~ mentions_blank v ->
  exists tv, hydrate_with D reg fuel g (res ty) inputs = Ok tv /\ presents types res ty tv v.
Proof.
  induction fuel as [|fuel IH]; intros g ty inputs v H NB; cbn [deserialize] in H; [discriminate|].
  cbn [hydrate_with]. unfold hydrate_body. rewrite DESC.
  destruct (types ty) as [t|] eqn:T; [|discriminate]. cbn [option_map ok_or bind]. rewrite input_count_at.
  destruct t as [| |ity|l inner].
  - (* identifiers *)
    destruct inputs as [|r [|? ?]]; try discriminate. cbn [de_runtime] in H. apply bind_Ok in H as (id & H & E).
    injection E as <-. unfold id_de in H. apply bind_Ok in H as (o & H1 & H). apply bind_Ok in H as (o' & H2 & H).
    cbn [type_layout input_count length Nat.eqb layout_at hydrate_layout]. rewrite this_header. cbn [bind map papply pattern_at sget nth_error into_resource unwrap].
    destruct o as [id0|].
    + injection H2 as <-. injection H as <-. apply id_loop_iri in H1 as (s & E & ->). cbn [iris_of seen]. rewrite E. use_presents.
    + exfalso. destruct o' as [id0|]; [|discriminate]. injection H as <-.
      destruct (rt_blanks i r) as [|b [|? ?]]; cbn in H2; try discriminate. injection H2 as <-. apply NB. constructor.
  - (* texts *)
    destruct inputs as [|r [|? ?]]; try discriminate. cbn [de_runtime] in H. apply bind_Ok in H as (s & H & E).
    injection E as <-. unfold text_de in H. assert (ND := datatype_named ty _ xsd_string T eq_refl).
    cbn [type_layout input_count length Nat.eqb layout_at hydrate_layout]. rewrite this_header. cbn [bind map papply pattern_at sget nth_error into_resource unwrap].
    destruct (PLAIN r) as [N A]. destruct (split_literals xsd_string (rt_literals i r) N A) as [O|[l S]].
    + rewrite <- (app_nil_r (rt_literals i r)), text_others in H by assumption. discriminate.
    + rewrite text_singled with (l := l) in H by assumption. injection H as <-.
      cbn [literals_of seen]. rewrite hydrate_singled with (l := l) by assumption. cbn. use_presents.
  - (* integers *)
    destruct inputs as [|r [|? ?]]; try discriminate. cbn [de_runtime] in H. apply bind_Ok in H as (z & H & E).
    injection E as <-. unfold int_de in H. assert (ND := datatype_named ty _ (int_datatype ity) T eq_refl).
    cbn [type_layout input_count length Nat.eqb layout_at hydrate_layout]. rewrite this_header. cbn [bind map papply pattern_at sget nth_error into_resource unwrap].
    destruct (PLAIN r) as [N A]. destruct (split_literals (int_datatype ity) (rt_literals i r) N A) as [O|[l S]].
    + rewrite <- (app_nil_r (rt_literals i r)), int_others in H by assumption. cbn in H. destruct (rt_literals i r); discriminate.
    + assert (P := int_singled ity _ l S). destruct (int_parse ity (rl_value l)) as [z0|] eqn:E.
      * destruct P as [b P]. rewrite P in H. cbn in H. injection H as <-.
        cbn [literals_of seen]. rewrite hydrate_singled with (l := l) by assumption.
        cbn [hydrate_literal_value]. unfold hydrate_number_value. rewrite (proj1 DEC). apply (proj2 DEC) in E. rewrite E.
        cbn. use_presents.
      * rewrite P in H. discriminate.
  - (* derived types *)
    cbn [type_layout]. assert (K := layout_known _ _ _ T). assert (F := FITS _ _ _ T).
    destruct (input_count l) as [n|] eqn:IC; [|discriminate]. destruct (Nat.eqb n (length inputs)); [|discriminate].
    destruct l as [| |h const|k h pat dt|h pat re|h fields|h variants|h it|h node head tail|h its];
      cbn [de_layout] in H; try discriminate; cbn [layout_iris] in K; cbn [layout_at hydrate_layout];
      try (apply Forall_app in K as [Kh K]);
      apply bind_Ok in H as (s & Hs & H); apply (header_eq _ _ _ (res ty)) in Hs; try assumption; rewrite Hs; cbn [bind].
    + injection H as <-. use_presents.
    + rewrite interp_pattern_known with (res := res) in H by assumption. cbn [missing ok_or bind] in H.
      apply bind_Ok in H as (r & Hr & H). apply (resolve_eq _ _ "hydrate_data: resource") in Hr. rewrite Hr. cbn [bind].
      eapply data_sound with (ref := res ty) in H as (t & H & SL); [|eassumption]. rewrite H. cbn [bind].
      destruct k; cbn [same_literal] in SL; [| |contradiction|]; destruct SL as (x & -> & ->);
        (eexists; split; [reflexivity|]); [eapply Ps_bool|eapply Ps_number|eapply Ps_string]; eassumption.
    + rewrite interp_pattern_known with (res := res) in H by assumption. cbn [missing ok_or bind] in H.
      apply bind_Ok in H as (r & Hr & H). apply (resolve_eq _ _ "hydrate: id resource") in Hr. rewrite Hr. cbn [bind].
      unfold de_id in H. apply bind_Ok in H as (o & Ho & H). destruct o as [id|]; [|discriminate]. injection H as <-.
      apply id_loop_iri in Ho as (x & E & ->). cbn [iris_of seen]. rewrite E. eexists. split; [reflexivity|]. eapply Ps_iri; eassumption.
    + apply bind_Ok in H as (data & Hd & H). apply bind_Ok in H as (fs & U & H). injection H as <-.
      cbn [fits] in F. destruct F as [W TX].
      destruct (fields_sound _ _ IH g (res ty) s fields [] data fs) as (m & Hm & PF); auto.
      { intros ? ? []. }
      { intros kf Hkf. eapply flat_map_known with (f := fun kf : value * field string => item_iris (f_item (snd kf))); eauto. }
      { intros name v Hin C. apply NB. econstructor; eauto. }
      rewrite Hm. cbn [bind app]. use_presents.
    + apply bind_Ok in H as (o & Ho & H). destruct o as [r|]; [|discriminate]. cbn in H. injection H as <-.
      cbn [fits] in F.
      destruct (variants_sound _ _ IH g (res ty) s variants 0 r) as (n' & variant & w & tv & -> & N & Hh & P); auto.
      { intros w Hw. split; [now apply F|]. eapply flat_map_known with (f := fun v => item_iris (va_item v)); eauto. }
      rewrite Hh. cbn [bind Nat.add]. use_presents.
    + unfold item_iris in K. apply Forall_app in K as [Kd Kf].
      rewrite interp_quads_known with (res := res) in H by assumption. cbn [missing ok_or bind] in H.
      apply bind_Ok in H as (items & Hi & H). injection H as <-.
      destruct (items_sound _ _ IH g (it_value it) _ items Kf Hi) as (tvs & Ht & PA).
      { intros w Hw C. apply NB. econstructor; eauto. }
      cbn [item_at it_value it_dataset it_intro]. rewrite Ht. cbn [bind].
      eexists. split; [reflexivity|]. eapply Ps_unordered; [eassumption| |eassumption].
      apply sort_perm.
    + apply Forall_app in K as [Kn K]. apply Forall_app in K as [K1 K2].
      rewrite !interp_pattern_known with (res := res) in H by assumption. cbn [missing ok_or bind] in H.
      apply bind_Ok in H as (hd & Hr & H). apply (resolve_eq _ _ "hydrate: list head") in Hr. rewrite Hr. cbn [bind].
      apply bind_Ok in H as (tl & Hr' & H). apply (resolve_eq _ _ "hydrate: list tail") in Hr'. rewrite Hr'. cbn [bind].
      apply bind_Ok in H as (items & Hi & H). injection H as <-.
      destruct (nodes_sound _ _ IH g (res ty) s node tl _ hd items Kn Hi) as (tvs & Ht & PA).
      { intros w Hw C. apply NB. econstructor; eauto. }
      rewrite Ht. cbn [bind]. eexists. split; [reflexivity|]. eapply Ps_ordered; eassumption.
    + apply bind_Ok in H as (items & Hi & H). injection H as <-.
      destruct (tuple_sound _ _ IH g (res ty) s its 0 items) as (tvs & Ht & PA); auto.
      { intros it Hit. eapply flat_map_known; eauto. }
      { intros w Hw C. apply NB. econstructor; eauto. }
      rewrite Ht. cbn [bind]. use_presents.
Qed.
End Top.

Section Bottom.
Hypothesis ONE : forall ty h vs inner g inputs s n m v w f1 f2 s1 s2,
  types ty = Some (TyDerived (SumL h vs) inner) -> match_header D g (res ty) (header_at res h) inputs = Ok s ->
  nth_error vs n = Some v -> nth_error vs m = Some w ->
  match_unique D g (map (quad_at res) (it_dataset (va_item v))) s f1 = Ok (Some s1) ->
  match_unique D g (map (quad_at res) (it_dataset (va_item w))) s f2 = Ok (Some s2) -> n = m.
Hypothesis RANGE : in_range i types.

Lemma value_complete ty k h pat dt inner ref r l t :
  types ty = Some (TyDerived (DataL k h pat dt) inner) -> In l (rt_literals i r) -> rl_type l = TypeAny dt ->
  hydrate_literal_value k ref (rl_value l) dt = Ok t ->
  exists v, from_rdf_literal inner (rl_value l) = Some v /\ same_literal ref k t v.
Proof.
  intros T Hl Ty H. assert (F := FITS _ _ _ T). destruct k; cbn [fits] in F; cbn [same_literal]; cbn [hydrate_literal_value] in H.
  - destruct F as [-> ->]. apply bind_Ok in H as (b & H & E). injection E as <-. unfold hydrate_boolean_value in H.
    rewrite eqb_self in H. apply unwrap_Ok in H. cbn. rewrite H. cbn. eauto.
  - destruct F as [[ity ->] TD]. apply bind_Ok in H as (q & H & E). injection E as <-. unfold hydrate_number_value in H.
    rewrite TD in H. apply unwrap_Ok in H. cbn.
    destruct (int_parse ity (rl_value l)) as [z|] eqn:P.
    + assert (P' := P). apply (proj2 DEC) in P'. rewrite H in P'. injection P' as ->. cbn. eauto.
    + exfalso. refine (RANGE ty _ ity l r T _ _ Hl P); [right; eauto|]. cbn. now rewrite Ty.
  - contradiction.
  - subst inner. apply bind_Ok in H as (s & H & E). injection E as <-. cbn in H. injection H as <-. cbn. eauto.
Qed.

Lemma singled_In dt ls l : singled dt ls l -> In l ls.
Proof. intros (pre & post & -> & _). apply in_or_app. right. now left. Qed.
Lemma singled_type dt ls l : singled dt ls l -> rl_type l = TypeAny dt.
Proof. now intros (pre & post & _ & H & _). Qed.

Tactic Notation "use_Ok" uconstr(c) := eexists; split; [reflexivity|eapply c; eassumption].

Theorem deserialize_complete : forall fuel g ty inputs tv,
  hydrate_with D reg fuel g (res ty) inputs = Ok tv ->
  exists v, deserialize i D types fuel g ty inputs = Ok v /\ presents types res ty tv v.
Proof.
  induction fuel as [|fuel IH]; intros g ty inputs tv H; cbn [hydrate_with] in H; [discriminate|].
  cbn [deserialize]. unfold hydrate_body in H. rewrite DESC in H.
  destruct (types ty) as [t|] eqn:T; [|discriminate]. cbn [option_map ok_or bind] in H. rewrite input_count_at in H.
  destruct t as [| |ity|l inner].
  - (* identifiers *)
    cbn [type_layout input_count] in H. destruct inputs as [|r [|? ?]]; try discriminate.
    cbn [length Nat.eqb layout_at hydrate_layout] in H. rewrite this_header in H.
    cbn [bind map papply pattern_at sget nth_error into_resource unwrap iris_of seen] in H.
    destruct (rt_iris i r) as [|iri [|? ?]] eqn:E; try discriminate. injection H as <-.
    cbn [de_runtime]. unfold id_de. rewrite E. cbn. use_Ok Ps_id.
  - (* texts *)
    cbn [type_layout input_count] in H. destruct inputs as [|r [|? ?]]; try discriminate.
    cbn [length Nat.eqb layout_at hydrate_layout] in H. rewrite this_header in H.
    cbn [bind map papply pattern_at sget nth_error into_resource unwrap literals_of seen] in H.
    apply bind_Ok in H as (t & H & E). injection E as <-.
    apply hydrate_singles in H as (l & S & H); [|exact (datatype_named ty _ _ T eq_refl)].
    cbn in H. injection H as <-. cbn [de_runtime]. unfold text_de. rewrite text_singled with (l := l) by assumption.
    cbn. use_Ok Ps_text.
  - (* integers *)
    cbn [type_layout input_count] in H. destruct inputs as [|r [|? ?]]; try discriminate.
    cbn [length Nat.eqb layout_at hydrate_layout] in H. rewrite this_header in H.
    cbn [bind map papply pattern_at sget nth_error into_resource unwrap literals_of seen] in H.
    apply bind_Ok in H as (t & H & E). injection E as <-.
    apply hydrate_singles in H as (l & S & H); [|exact (datatype_named ty _ _ T eq_refl)].
    cbn [hydrate_literal_value] in H. apply bind_Ok in H as (q & H & E). injection E as <-.
    unfold hydrate_number_value in H. rewrite (proj1 DEC) in H. apply unwrap_Ok in H.
    cbn [de_runtime]. unfold int_de. assert (P := int_singled ity _ l S).
    destruct (int_parse ity (rl_value l)) as [z|] eqn:E.
    + destruct P as [b ->]. cbn. apply (proj2 DEC) in E. rewrite H in E. injection E as ->. use_Ok Ps_int.
    + exfalso. refine (RANGE ty _ ity l r T _ _ (singled_In _ _ _ S) E); [now left|]. cbn.
      now rewrite (singled_type _ _ _ S).
  - (* derived types *)
    cbn [type_layout] in H. assert (K := layout_known _ _ _ T). assert (F := FITS _ _ _ T).
    destruct (input_count l) as [n|] eqn:IC.
    2:{ destruct l; try discriminate; cbn in F; contradiction. }
    destruct (Nat.eqb n (length inputs)); [|discriminate].
    destruct l as [| |h const|k h pat dt|h pat re|h fields|h variants|h it|h node head tail|h its];
      cbn [layout_at hydrate_layout] in H; try discriminate; cbn [layout_iris] in K; cbn [de_layout];
      try (apply Forall_app in K as [Kh K]);
      apply bind_Ok in H as (s & Hs & H); apply header_eq in Hs; try assumption; rewrite Hs; cbn [bind].
    + injection H as <-. use_Ok Ps_unit.
    + rewrite interp_pattern_known with (res := res) by assumption. cbn [missing ok_or bind].
      apply bind_Ok in H as (r & Hr & H). apply resolve_eq in Hr. rewrite Hr. cbn [bind].
      apply bind_Ok in H as (t & H & E). injection E as <-. cbn [literals_of seen] in H.
      apply hydrate_singles in H as (l & S & H); [|exact (datatype_named ty _ _ T eq_refl)].
      unfold de_data. rewrite de_literals_singled with (l := l) by assumption. cbn [bind].
      eapply value_complete in H as (v & -> & SL); [|eassumption|exact (singled_In _ _ _ S)|exact (singled_type _ _ _ S)].
      destruct k; cbn [same_literal] in SL; [| |contradiction|]; destruct SL as (x & -> & ->);
        [use_Ok Ps_bool|use_Ok Ps_number|use_Ok Ps_string].
    + rewrite interp_pattern_known with (res := res) by assumption. cbn [missing ok_or bind].
      apply bind_Ok in H as (r & Hr & H). apply resolve_eq in Hr. rewrite Hr. cbn [bind iris_of seen] in H |- *.
      unfold de_id. destruct (rt_iris i r) as [|iri [|? ?]]; try discriminate. injection H as <-. cbn. use_Ok Ps_iri.
    + apply bind_Ok in H as (m & Hm & H). injection H as <-. cbn [fits] in F. destruct F as [W TX].
      apply (fields_complete _ _ IH) in Hm as (m' & data & vs & -> & Hd & U & PF); auto.
      { rewrite Hd. cbn [bind app]. rewrite U. use_Ok Ps_record. }
      { intros ? ? []. }
      { intros kf Hkf. eapply flat_map_known with (f := fun kf : value * field string => item_iris (f_item (snd kf))); eauto. }
    + apply bind_Ok in H as (sel & Hv & H). destruct sel as [[n' x]|]; [|discriminate]. injection H as <-. cbn [fits] in F.
      apply (variants_complete _ _ IH) in Hv as (variant & v & N & _ & Hd & P); [rewrite Hd; cbn [bind missing ok_or]; rewrite Nat.sub_0_r in N; use_Ok Ps_variant| |].
      { intros w Hw. split; [now apply F|]. eapply flat_map_known with (f := fun v => item_iris (va_item v)); eauto. }
      { intros a b v w f1 f2 s1 s2. apply (header_eq _ _ _ (res ty)) in Hs; [|assumption]. eapply ONE; eassumption. }
    + unfold item_iris in K. apply Forall_app in K as [Kd Kf].
      rewrite interp_quads_known with (res := res) by assumption. cbn [missing ok_or bind].
      apply bind_Ok in H as (tvs & Hi & H). injection H as <-.
      apply (items_complete _ _ IH g (it_value it)) in Hi as (items & Hi & PA); [|assumption].
      cbn [item_at it_dataset it_intro] in Hi. rewrite Hi. cbn [bind].
      eexists. split; [reflexivity|]. eapply Ps_unordered; [eassumption| |eassumption]. apply sort_perm.
    + apply Forall_app in K as [Kn K]. apply Forall_app in K as [K1 K2].
      rewrite !interp_pattern_known with (res := res) by assumption. cbn [missing ok_or bind].
      apply bind_Ok in H as (hd & Hr & H). apply resolve_eq in Hr. rewrite Hr. cbn [bind].
      apply bind_Ok in H as (tl & Hr' & H). apply resolve_eq in Hr'. rewrite Hr'. cbn [bind].
      apply bind_Ok in H as (tvs & Hi & H). injection H as <-.
      apply (nodes_complete _ _ IH) in Hi as (items & Hi & PA); [|assumption]. rewrite Hi. cbn [bind]. use_Ok Ps_ordered.
    + apply bind_Ok in H as (tvs & Hi & H). injection H as <-.
      apply (tuple_complete _ _ IH) in Hi as (items & Hi & PA).
      { rewrite Hi. cbn [bind]. use_Ok Ps_sized. }
      intros it Hit. eapply flat_map_known; eauto.
Qed.
End Bottom.

End Simulation.

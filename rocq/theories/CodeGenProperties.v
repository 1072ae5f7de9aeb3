(** * C80, C81, C84: the types generated for layouts *)

From Coq Require Import String Ascii List Bool Arith NArith Lia Permutation Sorted.
Import ListNotations.
From Verif Require Import Base BaseProofs Orders PatternModel ValueModel LayoutModel HydrateModel TermModel DehydrateModel
  DehydrateFinish RegexpModel AbsModel AbsJsonModel AbsSpec AbsProofs AbsMeaning AbsRegistry AbsAcceptSpec AbsAccept
  AttrModel AttrSpec AttrProofs AttrProperties AttrDerive JsonProperties CodeGenModel CodeGenSpec CodeGenProofs.
Open Scope list_scope.
Open Scope nat_scope.

Section Identifiers.
Context {TS : TextSyntax} {RS : RustSyntax} {R : Type} {IN : Interp R}.

(** ** Identifiers *)

Definition least_step (selected : option string) (iri : string) : option string :=
  match ident_from_iri iri with
  | Some id =>
      match selected with
      | Some s => match cmp s id with Lt => Some s | _ => Some id end
      | None => Some id
      end
  | None => selected
  end.

Lemma least_fold iris : forall sel,
  match fold_left least_step iris sel with
  | Some id => (sel = Some id \/ exists iri, In iri iris /\ ident_from_iri iri = Some id) /\
      (forall s, sel = Some s -> cmp id s <> Gt) /\
      forall iri id', In iri iris -> ident_from_iri iri = Some id' -> cmp id id' <> Gt
  | None => sel = None /\ forall iri, In iri iris -> ident_from_iri iri = None
  end.
Proof.
  induction iris as [|iri iris IH]; intros sel; cbn [fold_left].
  - destruct sel as [s|]; [|split; [reflexivity|intros iri []]]. split; [now left|]. split; [|intros iri id' []].
    intros s' [= <-]. rewrite cmp_refl. discriminate.
  - specialize (IH (least_step sel iri)). destruct (fold_left least_step iris (least_step sel iri)) as [id|] eqn:F.
    + destruct IH as (A & B & C). unfold least_step in A, B. destruct (ident_from_iri iri) as [i|] eqn:E.
      * destruct sel as [s|].
        -- destruct (cmp s i) eqn:Q.
           ++ apply cmp_eq in Q. subst s. split; [destruct A as [[= ->]|(x & X & Y)]; [now left|right; exists x; split; [now right|exact Y]]|].
              split; [intros s [= <-]; now apply B|]. intros x id' [<-|X] Y; [rewrite E in Y; injection Y as <-; now apply B|now apply (C x)].
           ++ split; [destruct A as [[= ->]|(x & X & Y)]; [now left|right; exists x; split; [now right|exact Y]]|].
              split; [intros s' [= <-]; now apply B|]. intros x id' [<-|X] Y; [rewrite E in Y; injection Y as <-|now apply (C x)].
              pose proof (B s eq_refl) as B'. destruct (cmp id s) eqn:Q'; [apply cmp_eq in Q'; subst s; rewrite Q; discriminate| |congruence].
              pose proof (lt_trans id s i Q' Q) as T. unfold lt in T. rewrite T. discriminate.
           ++ split; [destruct A as [[= ->]|(x & X & Y)]; right; [exists iri; split; [now left|exact E]|exists x; split; [now right|exact Y]]|].
              pose proof (B i eq_refl) as B'. split; [|intros x id' [<-|X] Y; [rewrite E in Y; injection Y as <-; exact B'|now apply (C x)]].
              intros s' [= <-]. apply cmp_gt_lt in Q. destruct (cmp id i) eqn:Q'; [apply cmp_eq in Q'; subst i; unfold lt in Q; rewrite Q; discriminate| |congruence].
              pose proof (lt_trans id i s Q' Q) as T. unfold lt in T. rewrite T. discriminate.
        -- split; [right; destruct A as [[= ->]|(x & X & Y)]; [exists iri; split; [now left|exact E]|exists x; split; [now right|exact Y]]|].
           split; [discriminate|]. intros x id' [<-|X] Y; [rewrite E in Y; injection Y as <-; now apply B|now apply (C x)].
      * split; [destruct A as [->|(x & X & Y)]; [now left|right; exists x; split; [now right|exact Y]]|].
        split; [exact B|]. intros x id' [<-|X] Y; [congruence|now apply (C x)].
    + destruct IH as [A C]. unfold least_step in A. destruct (ident_from_iri iri) as [i|] eqn:E.
      * destruct sel as [s|]; [destruct (cmp s i)|]; discriminate.
      * split; [exact A|]. intros x [<-|X]; [exact E|now apply C].
Qed.

Lemma default_ident r : match default_layout_ident r with
  | Some id => least_ident (iris_of r) id
  | None => forall iri, In iri (iris_of r) -> ident_from_iri iri = None
  end.
Proof.
  pose proof (least_fold (iris_of r) None) as H.
  change (default_layout_ident r) with (fold_left least_step (iris_of r) None).
  destruct (fold_left least_step (iris_of r) None) as [id|]; [|apply H].
  destruct H as ([H|H] & _ & L); [discriminate|]. split; assumption.
Qed.

Lemma least_ident_unique iris id id' : least_ident iris id -> least_ident iris id' -> id' = id.
Proof.
  intros [(i & I & E) L] [(i' & I' & E') L']. specialize (L _ _ I' E'). specialize (L' _ _ I E).
  destruct (cmp id id') eqn:C; [symmetry; now apply cmp_eq| |congruence]. apply cmp_gt_lt in C. congruence.
Qed.

(** The identifier of a layout is the least of those of its IRIs. *)
Theorem C81_ident (r : R) (id : string) : layout_ident r = Ok id <-> least_ident (iris_of r) id.
Proof.
  unfold layout_ident. pose proof (default_ident r) as D. destruct (default_layout_ident r) as [i|]; cbn [ok_or].
  - split; [now intros [= <-]|]. intros L. now rewrite (least_ident_unique _ _ _ D L).
  - split; [discriminate|]. intros [(iri & I & E) _]. rewrite (D _ I) in E. discriminate.
Qed.

(** A layout whose IRIs give no identifier has no type. *)
Theorem C81_no_ident (r : R) : (forall iri, In iri (iris_of r) -> ident_from_iri iri = None) <->
  layout_ident r = Err (MissingTypeIdentifier r).
Proof.
  unfold layout_ident. pose proof (default_ident r) as D. destruct (default_layout_ident r) as [i|]; cbn [ok_or].
  - split; [|discriminate]. intros N. destruct D as [(iri & I & E) _]. rewrite (N _ I) in E. discriminate.
  - split; [reflexivity|intros _; exact D].
Qed.

(** ** Modules *)

Lemma prefix_spec p s : String.prefix p s = true <-> exists rest, s = (p ++ rest)%string.
Proof.
  revert s. induction p as [|c p IH]; intros s; [split; [intros _; now exists s|destruct s; reflexivity]|].
  destruct s as [|c' s]; cbn [String.prefix String.append]; [split; [discriminate|intros [rest H]; discriminate]|].
  destruct (ascii_dec c c') as [<-|N].
  - rewrite IH. split; intros [rest H]; exists rest; [now rewrite H|now injection H as H].
  - split; [discriminate|]. intros [rest H]. injection H as H1 H2. congruence.
Qed.

Lemma sorted_last {A} (lt : A -> A -> Prop) l a : StronglySorted lt (l ++ [a]) -> StronglySorted lt l /\ forall x, In x l -> lt x a.
Proof.
  induction l as [|b l IH]; cbn; intros H; [split; [constructor|intros x []]|]. inversion H as [|? ? S F]; subst. destruct (IH S) as [S' L].
  rewrite Forall_forall in F. split.
  - constructor; [exact S'|]. apply Forall_forall. intros x I. apply F. apply in_app_iff. now left.
  - intros x [<-|I]; [|now apply L]. apply F. apply in_app_iff. right. now left.
Qed.

Lemma prefixes_order p p' r r' : (p ++ r)%string = (p' ++ r')%string -> lt p p' -> String.length p <= String.length p'.
Proof.
  revert p'. induction p as [|c p IH]; intros p' E L; [cbn; lia|]. destruct p' as [|c' p']; [discriminate L|].
  injection E as -> E. cbn [String.length]. apply le_n_S. apply IH; [exact E|]. unfold lt in *. rewrite cmp_string_def in *. cbn in L |- *.
  rewrite (cmp_refl (A := ascii)) in L || idtac. unfold cmp in L at 1. cbn in L. destruct (cmp_ascii c' c') eqn:Q; [exact L| |]; rewrite (cmp_refl c' : cmp_ascii c' c' = Eq) in Q; discriminate.
Qed.

Definition module_step (iri : string) (path : option rpath) (m : string * rpath) : option rpath :=
  if starts_with iri (fst m) then Some (snd m) else path.

Lemma module_fold (o : gen_options) iri : bt_wf o -> forall acc,
  (exists path, fold_left (module_step iri) o acc = Some path /\ longest_module o iri path) \/
  (fold_left (module_step iri) o acc = acc /\ no_module o iri).
Proof.
  induction o as [|[p path] o IH] using rev_ind; intros W acc; [right; split; [reflexivity|intros p path rest []]|].
  unfold bt_wf, keys in W. rewrite map_app in W. cbn in W. apply sorted_last in W as [W1 W2].
  rewrite fold_left_app. cbn [fold_left]. unfold module_step at 1 3. cbn [fst snd]. unfold starts_with. destruct (String.prefix p iri) eqn:Q.
  - left. exists path. split; [reflexivity|]. apply prefix_spec in Q as [rest Q]. exists p, rest. split; [apply in_app_iff; right; now left|].
    split; [exact Q|]. intros p' path' rest' I E. apply in_app_iff in I as [I|[[= <- <-]|[]]]; [|reflexivity].
    apply (prefixes_order p' p rest' rest); [now rewrite <- E|]. apply W2. apply in_map_iff. now exists (p', path').
  - destruct (IH W1 acc) as [(path' & F & (p' & rest' & I & E & L))|[F N]].
    + left. exists path'. split; [exact F|]. exists p', rest'. split; [apply in_app_iff; now left|]. split; [exact E|].
      intros p'' path'' rest'' I' E'. apply in_app_iff in I' as [I'|[[= <- <-]|[]]]; [exact (L _ _ _ I' E')|].
      assert (String.prefix p iri = true) as Q' by (apply prefix_spec; now exists rest''). congruence.
    + right. split; [exact F|]. intros p' path' rest' I E. apply in_app_iff in I as [I|[[= <- <-]|[]]]; [exact (N _ _ _ I E)|].
      assert (String.prefix p iri = true) as Q' by (apply prefix_spec; now exists rest'). congruence.
Qed.

Lemma ref_loop (o : gen_options) : bt_wf o -> forall iris acc,
  match layout_ref_loop o iris acc with
  | inl ty => exists p, first_preset iris p /\ ty = preset_type p
  | inr path => (forall iri, In iri iris -> preset_from_iri iri = None) /\
      ((exists before iri after path', iris = before ++ iri :: after /\ path = Some path' /\ longest_module o iri path' /\
          forall iri', In iri' after -> no_module o iri') \/
       ((forall iri, In iri iris -> no_module o iri) /\ path = acc))
  end.
Proof.
  intros W. induction iris as [|iri iris IH]; intros acc; cbn [layout_ref_loop].
  - split; [intros iri []|]. right. split; [intros iri []|reflexivity].
  - destruct (preset_from_iri iri) as [p|] eqn:P.
    + exists p. split; [|reflexivity]. exists [], iri, iris. split; [reflexivity|]. split; [exact P|intros iri' []].
    + change (fun path m => if starts_with iri (fst m) then Some (snd m) else path) with (module_step iri).
      specialize (IH (fold_left (module_step iri) o acc)). destruct (layout_ref_loop o iris (fold_left (module_step iri) o acc)) as [ty|path].
      * destruct IH as (p & (before & iri' & after & -> & P' & N) & ->). exists p. split; [|reflexivity]. exists (iri :: before), iri', after.
        split; [reflexivity|]. split; [exact P'|]. intros i [<-|I]; [exact P|now apply N].
      * destruct IH as [N [(before & iri' & after & path' & -> & -> & L & A)|[A ->]]].
        -- split; [intros i [<-|I]; [exact P|now apply N]|]. left. exists (iri :: before), iri', after, path'. split; [reflexivity|]. now split.
        -- split; [intros i [<-|I]; [exact P|now apply N]|]. destruct (module_fold o iri W acc) as [(path & F & L)|[F M]].
           ++ left. exists [], iri, iris, path. split; [reflexivity|]. split; [exact F|]. split; [exact L|exact A].
           ++ right. split; [|exact F]. intros i [<-|I]; [exact M|now apply A].
Qed.

(** The type of a component: the runtime type of a preset layout, or the least identifier of the layout
    in the module registered for its IRI. *)
Theorem C81_type (o : gen_options) (r : R) (ty : rty) : bt_wf o ->
  layout_type o r = Ok ty <->
  (exists p, first_preset (iris_of r) p /\ ty = preset_type p) \/
  ((forall iri, In iri (iris_of r) -> preset_from_iri iri = None) /\
   exists path id, module_of o (iris_of r) path /\ least_ident (iris_of r) id /\
     ty = RPath false (rp_colon path) (rp_segments path ++ [(id, NoArgs)])).
Proof.
  intros W. unfold layout_type. pose proof (ref_loop o W (iris_of r) None) as H.
  destruct (layout_ref_loop o (iris_of r) None) as [ty'|path].
  - destruct H as (p & F & ->). split; [intros [= <-]; left; now exists p|]. intros [(p' & F' & ->)|[N _]].
    + f_equal. f_equal. destruct F as (b & i & a & E & P & N), F' as (b' & i' & a' & E' & P' & N'). rewrite E in E'. clear E.
      revert b' E' N'. induction b as [|x b IH]; intros [|x' b'] E' N'; injection E' as E1 E2.
      * subst. congruence.
      * subst. specialize (N' x' (or_introl eq_refl)). congruence.
      * subst. specialize (N i' (or_introl eq_refl)). congruence.
      * apply (IH (fun y I => N y (or_intror I)) b' E2). intros y I. apply N'. now right.
    + destruct F as (b & i & a & E & P & _). rewrite N in P; [discriminate|]. rewrite E. apply in_app_iff. right. now left.
  - destruct H as [N M]. split.
    + intros H. apply bind_iff in H as (id & I & H). injection H as <-. apply C81_ident in I. right. split; [exact N|].
      exists (or_default path (RsPath false [])), id. split; [|split; [exact I|reflexivity]].
      destruct M as [(b & i & a & path' & E & -> & L & A)|[A ->]]; [left|right]; [exists b, i, a; auto|auto].
    + intros [(p & (b & i & a & E & P & _) & _)|(_ & path' & id & MO & I & ->)].
      * rewrite N in P; [discriminate|]. rewrite E. apply in_app_iff. right. now left.
      * apply C81_ident in I. rewrite I. cbn [bind]. f_equal.
        assert (path' = or_default path (RsPath false [])) as ->; [|reflexivity].
        destruct M as [(b & i & a & path2 & E & -> & L & A)|[A ->]], MO as [(b' & i' & a' & E' & L' & A')|[A' ->]].
        -- cbn [or_default]. rewrite E in E'. clear E N. assert (i' = i) as ->.
           { revert b' E'. induction b as [|x b IH]; intros [|x' b'] E'; injection E' as E1 E2; [now subst| | |exact (IH b' E2)]; subst.
             - destruct L' as (p & r' & I1 & I2 & _). destruct (A i') with (prefix := p) (path := path') (rest := r'); auto. apply in_app_iff. right. now left.
             - destruct L as (p & r' & I1 & I2 & _). destruct (A' i) with (prefix := p) (path := path2) (rest := r'); auto. apply in_app_iff. right. now left. }
           destruct L as (p & r1 & I1 & I2 & I3), L' as (p' & r1' & I1' & I2' & I3').
           assert (p' = p) as ->. { pose proof (I3 _ _ _ I1' I2') as L1. pose proof (I3' _ _ _ I1 I2) as L2. rewrite I2 in I2'.
             assert (String.length p = String.length p') as LE by lia. clear -I2' LE. revert p' I2' LE. induction p as [|c p IH]; intros [|c' p'] E L; try discriminate; [reflexivity|].
             injection E as -> E. f_equal. apply (IH p' E). now injection L. }
           apply (bt_get_wf o _ _ W) in I1, I1'. congruence.
        -- exfalso. destruct L as (p & r1 & I1 & I2 & _). apply (A' i) with (prefix := p) (path := path2) (rest := r1); auto. rewrite E. apply in_app_iff. right. now left.
        -- exfalso. destruct L' as (p & r1 & I1 & I2 & _). apply (A i') with (prefix := p) (path := path') (rest := r1); auto. rewrite E'. apply in_app_iff. right. now left.
        -- reflexivity.
Qed.

(** A layout has a type when it is a preset one, or when one of its IRIs gives an identifier. *)
Theorem C81_typed (o : gen_options) (r : R) : bt_wf o -> (exists ty, layout_type o r = Ok ty) <-> type_named r.
Proof.
  intros W. split.
  - intros [ty H]. apply (C81_type o r ty W) in H as [(p & (b & i & a & E & P & _) & _)|(_ & path & id & _ & [(i & I & E) _] & _)].
    + exists i. split; [rewrite E; apply in_app_iff; right; now left|]. left. congruence.
    + exists i. split; [exact I|]. right. congruence.
  - intros (iri & I & H). unfold layout_type. pose proof (ref_loop o W (iris_of r) None) as RL.
    destruct (layout_ref_loop o (iris_of r) None) as [ty|path]; [now exists ty|]. destruct RL as [N _].
    pose proof (default_ident r) as D. unfold layout_ident. destruct (default_layout_ident r) as [id|]; cbn [ok_or bind]; [eauto|].
    exfalso. destruct H as [H|H]; apply H; auto.
Qed.

(** A module is registered unless its path has arguments; the last registration of a prefix wins. *)
Theorem C81_use_module (prefix : string) (path : rpath) (o : gen_options) :
  match use_module prefix path o with
  | Some o' => (forall seg, In seg (rp_segments path) -> snd seg = NoArgs) /\ (bt_wf o -> bt_wf o') /\
      forall prefix', bt_get prefix' o' = if eqb prefix' prefix then Some path else bt_get prefix' o
  | None => exists seg, In seg (rp_segments path) /\ snd seg <> NoArgs
  end.
Proof.
  unfold use_module. destruct (forallb _ (rp_segments path)) eqn:F.
  - rewrite forallb_forall in F. split; [|split].
    + intros seg I. specialize (F seg I). destruct (snd seg); [reflexivity|discriminate..].
    + apply bt_insert_wf.
    + intros prefix'. apply bt_insert_get.
  - apply Bool.not_true_iff_false in F. rewrite forallb_forall in F.
    assert (Exists (fun seg => snd seg <> NoArgs) (rp_segments path)) as E.
    { apply Exists_exists. clear -F. induction (rp_segments path) as [|seg l IH]; [destruct F; intros x []|].
      destruct (snd seg) eqn:S; [|exists seg; split; [now left|congruence]..].
      destruct IH as (x & I & N); [|exists x; split; [now right|exact N]]. intros G. apply F. intros x [<-|I]; [now rewrite S|now apply G]. }
    apply Exists_exists in E. exact E.
Qed.
End Identifiers.

Section Generated.
Context {IS : IriSyntax} {AE : AbsExternal} {TS : TextSyntax} {RS : RustSyntax} {R : Type} {IN : Interp R} {GL : GeneratorLaws R}.
Notation gref o types := (type_ref (fun r ty => layout_type o r = Ok ty) types).

(** ** C80 *)

Lemma derive_read fuel d al types l' types' : parse_input d = Ok (al, types) -> derive_layout fuel d = Ok (l', types') ->
  types' = types /\ exists p, layout_denotes iri_term lit_term no_nested no_env al p /\ layout_of p l'.
Proof.
  intros P D. pose proof (derive_cases fuel d) as H. rewrite P in H. destruct (build_document al []) as [[r|e|w|] b]; try contradiction; [|congruence].
  destruct H as (p & l & L1 & L2 & H). rewrite D in H. injection H as <- <-. split; [reflexivity|]. now exists p.
Qed.

(** The type generated for a layout derives the layout it declares, its resources being named by their
    first IRIs, and the layouts of its components by the types generated for them. *)
Theorem C80_declares o ident (l : layout R) d fuel l' types : kind_kept l -> distinct_names l ->
  generate_layout o ident l = Ok (GenType d) -> derive_layout fuel d = Ok (l', types) ->
  exists l0, declares l l0 /\ same_layout first_iri (gref o types) l0 l'.
Proof.
  intros K N G D. destruct (gen_read o ident l d G K) as (al & types0 & P & A).
  destruct (derive_read _ _ _ _ _ _ P D) as (-> & p & L1 & L2). destruct (gen_declares o l types0 al K N A) as (l0 & DC & X & A0).
  exists l0. split; [exact DC|]. exact (gen_sound o l0 types0 al p l' X A0 L1 L2).
Qed.

(** Part of C80: when nothing is lost ([expressible]), it derives the layout itself.  Missing: literals
    ([C80_literal_tuple]), sets ([C80_set_rejected]), optional fields, unit constants, the resources and
    patterns of identifiers, the order of the variants ([C80_declares]). *)
Theorem C80_faithful_partial o ident (l : layout R) d fuel l' types : expressible l ->
  generate_layout o ident l = Ok (GenType d) -> derive_layout fuel d = Ok (l', types) ->
  same_layout first_iri (gref o types) l l'.
Proof.
  intros X G D. assert (kind_kept l) as K by (destruct l; try exact I; contradiction).
  destruct (gen_read o ident l d G K) as (al & types0 & P & A).
  destruct (derive_read _ _ _ _ _ _ P D) as (-> & p & L1 & L2). exact (gen_sound o l types0 al p l' X A L1 L2).
Qed.

(** The generated type is accepted by the derive macros exactly when the variables of the layout are
    declared. *)
Theorem C80_accepted o ident (l : layout R) d fuel : kind_kept l -> distinct_names l ->
  generate_layout o ident l = Ok (GenType d) ->
  (exists r, derive_layout fuel d = Ok r) <-> has_subject l /\ layout_scoped l.
Proof.
  intros K N G. destruct (gen_read o ident l d G K) as (al & types & P & A). pose proof (C79_computed fuel d al types P) as C. split.
  - intros [[l' types'] D]. destruct (derive_read _ _ _ _ _ _ P D) as (-> & _). destruct C as [C _].
    destruct C as (ids & W & _); [now exists l'|]. exact (gen_scoped o l types al ids K N A W).
  - intros [S1 S2]. destruct C as [_ C]. destruct C as [l' D]; [|now exists (l', types)].
    exists []. split; [exact (gen_complete o l types al K S1 S2 A)|constructor].
Qed.

(** The type generated for a literal has no kind: it is a tuple with one item, of the Rust type of the literal. *)
Theorem C80_literal_tuple o ident k h (res : pattern R) dt d fuel l' types :
  generate_layout o ident (DataL k h res dt) = Ok (GenType d) -> derive_layout fuel d = Ok (l', types) ->
  types = [data_type k] /\ exists h' it, l' = SizedL h' [it] /\ same_header first_iri h h' /\
    it_intro it = 1 /\ it_dataset it = [] /\ vf_input (it_value it) = [PVar (h_input h + h_intro h)].
Proof.
  cbn [generate_layout]. intros H D. apply bind_iff in H as ([[input intro] dataset] & HD & H).
  apply gen_header_run in HD as (-> & -> & DI & N). injection H as <-.
  assert (parse_input (DeriveInput ident (tldr [input_attribute (h_input h); intro_attribute (h_intro h) (h_input h); dataset]) (newtype (data_type k))) =
          Ok (ASized (gen_hd h) [AItem ["value"%string] (AFormat (RefIri (type_iri 0)) [AVar "value"] None) [] None], [data_type k])) as P.
  { unfold parse_input. cbn [di_attrs di_data].
    erewrite type_run by (apply Forall2_cons; [apply input_item|]; apply Forall2_cons; [apply intro_item|]; apply Forall2_cons; [exact DI|]; apply Forall2_nil).
    reflexivity. }
  destruct (derive_read _ _ _ _ _ _ P D) as (-> & p & (env' & hd & its' & HD & A & ->) & L). cbn in L. subst l'. split; [reflexivity|].
  apply (header_same h env' hd N) in HD as [E H].
  destruct its' as [|it [|]]; cbn [all2] in A; try (destruct A as [_ A]; contradiction); [contradiction|]. destruct A as [A _].
  exists hd, it. split; [reflexivity|]. split; [exact H|]. destruct A as (A1 & (A2 & A3 & A4) & extra & A5 & A6).
  cbn in A5. subst extra. split; [exact A1|]. split.
  - destruct (it_dataset it) as [|q qs]; [reflexivity|]. destruct A6 as (_ & _ & _ & A6). destruct (A6 q (or_introl eq_refl)) as [[]|(q0 & [] & _)].
  - rewrite header_names_gen in A3. cbn [ai_intro] in A3. inversion A3 as [|p0 p' l0 l0' Q F]; subst. inversion F; subst. f_equal.
    destruct Q as (x & [Q Q'] & ->). f_equal. set (n := h_input h + h_intro h) in *.
    destruct (Nat.lt_trichotomy x n) as [LT|[EQ|GT]]; [|exact EQ|].
    + exfalso. apply (Q' n LT). rewrite nth_error_app2 by (rewrite names_length; lia). now rewrite names_length, Nat.sub_diag.
    + rewrite nth_error_app2 in Q by (rewrite names_length; lia). rewrite names_length in Q.
      destruct (x - n) as [|m] eqn:X; [lia|]. cbn in Q. destruct m; discriminate.
Qed.

(** The type generated for a set is rejected: the macros expect a [Vec]. *)
Theorem C80_set_rejected o ident h (it : item_layout R) d fuel :
  generate_layout o ident (UnorderedL h it) = Ok (GenType d) -> derive_layout fuel d = Err (MacroParse ExpectedVec).
Proof.
  cbn [generate_layout]. intros H. apply bind_iff in H as ([[input intro] dataset] & HD & H).
  apply gen_header_run in HD as (-> & -> & DI & N). apply bind_iff in H as ([attrs ty] & C & H). injection H as <-.
  assert (exists a, comp_attributes attrs comp_attrs_default = Ok a) as [a CA].
  { apply component_run in C as (CA & _). cbn [fst] in CA. eauto. }
  unfold derive_layout, parse_input. cbn [di_attrs di_data].
  erewrite type_run by (apply Forall2_cons; [now apply (Ti_kind _ KdSet)|]; apply Forall2_cons; [apply intro_item|]; apply Forall2_cons; [exact DI|]; apply Forall2_cons; [apply input_item|]; apply Forall2_nil).
  cbn [apply_all apply_type type_attrs_default replace bind ta_kind fst rf_attrs rf_type snd]. rewrite CA. reflexivity.
Qed.

(** ** The layouts for which a type is generated *)

Lemma named_id p : (exists s, pattern_to_id p = Ok s) <-> named p.
Proof.
  destruct p as [r|x]; cbn; [|split; [exact (fun _ => I)|eauto]]. destruct (iris_of r) as [|iri l]; cbn.
  - split; intros [x H]; discriminate.
  - split; [eauto|]. intros _. now exists iri.
Qed.
Lemma bind_ok {E A B} (o : outcome E A) (f : A -> outcome E B) : (exists b, bind o f = Ok b) <-> exists a, o = Ok a /\ exists b, f a = Ok b.
Proof.
  split.
  - intros [b H]. apply bind_iff in H as (a & H1 & H2). eauto.
  - intros (a & -> & b & H). now exists b.
Qed.
Lemma mapM_ok {E A B} (f : A -> outcome E B) l : (exists l', mapM f l = Ok l') <-> forall a, In a l -> exists b, f a = Ok b.
Proof.
  induction l as [|a l IH]; cbn [mapM]; [split; [intros _ a []|eauto]|]. rewrite bind_ok. split.
  - intros (b & H & l' & H'). apply bind_iff in H' as (l2 & H' & _). intros x [<-|I]; [eauto|]. apply IH; [eauto|exact I].
  - intros H. destruct (H a (or_introl eq_refl)) as [b Hb]. exists b. split; [exact Hb|]. apply bind_ok.
    destruct IH as [_ IH]. destruct IH as [l' Hl]; [intros x I; apply H; now right|]. exists l'. split; [exact Hl|eauto].
Qed.
Lemma quad_ok q : (exists ts, quad_tokens q = Ok ts) <-> quad_named q.
Proof.
  unfold quad_tokens, quad_named. rewrite <- !named_id. etransitivity; [apply bind_ok|]. split.
  - intros (s & S & H). apply bind_ok in H as (p & P & H). apply bind_ok in H as (o & O & H). apply bind_ok in H as (g & G & _).
    split; [eauto|]. split; [eauto|]. split; [eauto|]. intros g0 E. rewrite E in G. apply bind_iff in G as (x & G & _). apply named_id. eauto.
  - intros ([s S] & [p P] & [o O] & G). exists s. split; [exact S|]. apply bind_ok. exists p. split; [exact P|]. apply bind_ok. exists o. split; [exact O|].
    apply bind_ok. destruct (q_g q) as [g|]; [|eauto]. destruct (proj2 (named_id g) (G g eq_refl)) as [x X]. rewrite X. cbn [bind]. eauto.
Qed.
Lemma dataset_ok ds : (exists ts, dataset_attribute ds = Ok ts) <-> dataset_named ds.
Proof.
  unfold dataset_attribute, dataset_named. etransitivity; [apply bind_ok|]. split.
  - intros (a & H & _) q I. apply quad_ok. apply (proj1 (mapM_ok quad_tokens ds)); eauto.
  - intros H. destruct (proj2 (mapM_ok quad_tokens ds)) as [l' L]; [intros q I; apply quad_ok, H, I|]. exists l'. split; [exact L|eauto].
Qed.
Lemma header_made (h : header R) : (exists x, gen_header h = Ok x) <-> dataset_named (h_dataset h).
Proof.
  unfold gen_header. etransitivity; [apply bind_ok|]. rewrite <- dataset_ok. split; [intros (a & H & _); eauto|]. intros [a H]. exists a. split; [exact H|eauto].
Qed.
Lemma input_ok l : (exists ts, value_input_attribute l = Ok ts) <-> forall p, In p l -> named p.
Proof.
  unfold value_input_attribute. etransitivity; [apply bind_ok|]. split.
  - intros (a & H & _) p I. apply named_id. apply (proj1 (mapM_ok pattern_to_id l)); eauto.
  - intros H. destruct (proj2 (mapM_ok pattern_to_id l)) as [l' L]; [intros q I; apply named_id, H, I|]. exists l'. split; [exact L|eauto].
Qed.
Lemma graph_ok g : (exists ts, value_graph_attribute g = Ok ts) <-> forall p, g = Some (Some p) -> named p.
Proof.
  unfold value_graph_attribute. etransitivity; [apply bind_ok|]. split.
  - intros (a & H & _) p ->. apply bind_iff in H as (x & H & _). apply named_id. eauto.
  - intros H. destruct g as [[p|]|]; [|eauto..]. destruct (proj2 (named_id p) (H p eq_refl)) as [x X]. rewrite X. cbn [bind]. eauto.
Qed.
Lemma component_ok o off it : bt_wf o -> (exists c, component o off it = Ok c) <-> component_named it.
Proof.
  intros W. unfold component, component_named, item_named, format_named. rewrite <- (C81_typed o _ W), <- dataset_ok, <- input_ok, <- graph_ok. etransitivity; [apply bind_ok|]. split.
  - intros (d & D & H). apply bind_ok in H as (i & I & H). apply bind_ok in H as (g & G & H). apply bind_ok in H as (ty & T & _). eauto 10.
  - intros [[[[i I] [g G]] [d D]] [ty T]]. exists d. split; [exact D|]. rewrite I, G, T. cbn [bind]. eauto.
Qed.

(** An item is generated exactly when the resources have IRIs, the components have types, and the names
    of the fields and variants are identifiers. *)
Theorem C80_generates o ident (l : layout R) : bt_wf o ->
  (exists it, generate_layout o ident l = Ok it) <-> layout_named l.
Proof.
  intros W. destruct l as [| |h c|k h r dt|h r pat|h fs|h vs|h it|h node p q|h its]; cbn [generate_layout layout_named];
    try (split; [exact (fun _ => I)|now eexists]); (etransitivity; [apply bind_ok|]); rewrite <- header_made.
  1-3: split; [intros (a & H & _); eauto|]; intros [[[a b] c'] H]; eexists; split; [exact H|now eexists].
  - split.
    + intros ([[a b] c] & H & M). split; [eauto|]. apply bind_ok in M as (fs' & M & _). intros k f I.
      destruct (proj1 (mapM_ok _ _) (ex_intro _ fs' M) (k, f) I) as [rf G]. unfold gen_field in G. cbn [fst snd] in G.
      destruct k as [[| | | |name]| |]; try discriminate. destruct (is_rust_ident name) eqn:RI; [|discriminate].
      apply bind_iff in G as (cc & G & _). split; [apply (component_ok o (h_input h + h_intro h) _ W); eauto|]. exists name. now split.
    + intros [[[[a b] c] H] F]. eexists. split; [exact H|]. cbn beta iota. apply bind_ok.
      destruct (proj2 (mapM_ok (gen_field o (h_input h + h_intro h)) fs)) as [fs' M]; [|exists fs'; split; [exact M|now eexists]].
      intros [k f] I. destruct (F k f I) as [C (name & -> & RI)]. apply (component_ok o (h_input h + h_intro h) _ W) in C as [cc C].
      unfold gen_field. cbn [fst snd]. rewrite RI, C. cbn [bind]. eauto.
  - split.
    + intros ([[a b] c] & H & M). split; [eauto|]. apply bind_ok in M as (fs' & M & _). intros v I.
      destruct (proj1 (mapM_ok _ _) (ex_intro _ fs' M) v I) as [rf G]. unfold gen_variant in G.
      destruct (is_rust_ident (va_name v)) eqn:RI; [|discriminate].
      apply bind_iff in G as (cc & G & _). split; [apply (component_ok o (h_input h + h_intro h) _ W); eauto|reflexivity].
    + intros [[[[a b] c] H] F]. eexists. split; [exact H|]. cbn beta iota. apply bind_ok.
      destruct (proj2 (mapM_ok (gen_variant o (h_input h + h_intro h)) vs)) as [fs' M]; [|exists fs'; split; [exact M|now eexists]].
      intros v I. destruct (F v I) as [C RI]. apply (component_ok o (h_input h + h_intro h) _ W) in C as [cc C].
      unfold gen_variant. rewrite RI, C. cbn [bind]. eauto.
  - rewrite <- (component_ok o (h_input h + h_intro h) it W). split.
    + intros ([[a b] c] & H & M). split; [eauto|]. apply bind_ok in M as (cc & M & _). eauto.
    + intros [[[[a b] c] H] [cc C]]. eexists. split; [exact H|]. rewrite C. cbn [bind]. now eexists.
  - unfold component_named, item_named, format_named. rewrite <- (C81_typed o _ W), <- dataset_ok, <- input_ok, <- graph_ok, <- !named_id. split.
    + intros ([[a b] c] & H & M). apply bind_ok in M as (x1 & M1 & M). apply bind_ok in M as (x2 & M2 & M). apply bind_ok in M as (x3 & M3 & M).
      apply bind_ok in M as (x4 & M4 & M). apply bind_ok in M as (x5 & M5 & M). apply bind_ok in M as (x6 & M6 & M). eauto 15.
    + intros ([[[a b] c] H] & [[[[x4 M4] [x5 M5]] [x3 M3]] [x6 M6]] & [x1 M1] & [x2 M2]). eexists. split; [exact H|].
      rewrite M1, M2, M3, M4, M5, M6. cbn [bind]. now eexists.
  - split.
    + intros ([[a b] c] & H & M). split; [eauto|]. apply bind_ok in M as (fs' & M & _). intros v I.
      destruct (proj1 (mapM_ok _ _) (ex_intro _ fs' M) v I) as [rf G]. unfold gen_item_field in G.
      apply bind_iff in G as (cc & G & _). apply (component_ok o (h_input h + h_intro h) _ W); eauto.
    + intros [[[[a b] c] H] F]. eexists. split; [exact H|]. cbn beta iota. apply bind_ok.
      destruct (proj2 (mapM_ok (gen_item_field o (h_input h + h_intro h)) its)) as [fs' M]; [|exists fs'; split; [exact M|now eexists]].
      intros v I. pose proof (F v I) as C. apply (component_ok o (h_input h + h_intro h) _ W) in C as [cc C].
      unfold gen_item_field. rewrite C. cbn [bind]. eauto.
Qed.

(** ** C84: the types of a registry *)

Definition item_ident (it : gen_item) : string :=
  match it with GenAlias ident _ => ident | GenType d => di_ident d end.

Lemma generate_ident o ident (l : layout R) it : generate_layout o ident l = Ok it -> item_ident it = ident.
Proof.
  destruct l; cbn [generate_layout]; intros H; try (injection H as <-; reflexivity);
    apply bind_iff in H as ([[a b] c] & _ & H); try (injection H as <-; reflexivity);
    repeat (apply bind_iff in H as (? & _ & H)); injection H as <-; reflexivity.
Qed.

(** The layouts refer to each other by the names of the types generated for them. *)
Theorem C81_reference (ls : layouts R) {CR : Cmp R} o r it : bt_wf o -> generate (layouts_get ls) r o = Ok it ->
  (forall iri, In iri (iris_of r) -> preset_from_iri iri = None) ->
  exists path, module_of o (iris_of r) path /\
    layout_type o r = Ok (RPath false (rp_colon path) (rp_segments path ++ [(item_ident it, NoArgs)])).
Proof.
  intros W G N. unfold generate in G. apply bind_iff in G as (l & _ & G). apply bind_iff in G as (id & I & G). apply generate_ident in G. rewrite G.
  apply C81_ident in I.
  assert (exists ty, layout_type o r = Ok ty) as [ty T].
  { apply (C81_typed o r W). destruct I as [(iri & I & E) _]. exists iri. split; [exact I|]. right. congruence. }
  pose proof T as T'. apply (C81_type o r ty W) in T' as [(p & (b & i & a & E & P & _) & _)|(_ & path & id' & M & I' & ->)].
  - rewrite N in P; [discriminate|]. rewrite E. apply in_app_iff. right. now left.
  - exists path. split; [exact M|]. now rewrite (least_ident_unique _ _ _ I' I).
Qed.

(** Part of C84: a registry is translated exactly when its layouts have identifiers and can be generated.
    Missing: the names of the types are distinct (see [C84_distinct_refuted]), anonymous layouts are
    translated ([C84_anonymous]). *)
Theorem C84_registry_partial {CR : Cmp R} {CL : CmpLaws R} (ls : layouts R) o : bt_wf o -> bt_wf ls ->
  (exists items, generate_layouts ls o = Ok items) <->
  forall r l, In (r, l) ls -> layout_named l /\ exists iri, In iri (iris_of r) /\ ident_from_iri iri <> None.
Proof.
  intros W WL. unfold generate_layouts. etransitivity; [apply mapM_ok|]. split.
  - intros H r l I. destruct (H (r, l) I) as [it G]. cbn [fst] in G. unfold generate in G. apply bind_iff in G as (l' & U & G).
    apply bind_iff in G as (id & D & G). assert (l' = l) as ->.
    { unfold layouts_get in U. rewrite (bt_get_wf ls r l WL I) in U. cbn in U. now injection U. }
    split; [apply (C80_generates o id l W); eauto|]. apply C81_ident in D as [(iri & J & E) _]. exists iri. split; [exact J|congruence].
  - intros H [r l] I. destruct (H r l I) as [LN (iri & J & E)]. cbn [fst]. unfold generate, layouts_get. rewrite (bt_get_wf ls r l WL I). cbn [unwrap bind].
    pose proof (default_ident r) as D. unfold layout_ident. destruct (default_layout_ident r) as [id|]; cbn [ok_or bind]; [|now destruct E; auto].
    now apply (C80_generates o id l W).
Qed.

(** A registry with an anonymous layout is not translated. *)
Theorem C84_anonymous {CR : Cmp R} {CL : CmpLaws R} (ls : layouts R) o r l : bt_wf o -> bt_wf ls ->
  In (r, l) ls -> iris_of r = [] -> forall items, generate_layouts ls o <> Ok items.
Proof.
  intros W WL I E items G. destruct (proj1 (C84_registry_partial ls o W WL) (ex_intro _ items G) r l I) as [_ (iri & J & _)].
  rewrite E in J. destruct J.
Qed.
End Generated.

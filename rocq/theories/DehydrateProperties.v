(** * Dehydration: properties C21 to C31, C59 to C61, and the dehydration part of C12, C13, C16

    Every theorem is for all registries, values, fuels; the ones on [dehydrate_with] are for
    all interpretations and initial states as well. *)

From Coq Require Import String List Bool Arith NArith Lia Qcanon Permutation.
Import ListNotations.
From Verif Require Import Base BaseProofs Orders PatternModel MatchingModel MatchingSpec ValueModel ValueProofs
  LayoutModel HydrateModel HydrateSpec HydrateSound TermModel LayoutSpec HydratePost DehydrateModel DehydrateSpec DehydrateProofs DehydrateEmits
  DehydrateSim DehydrateOutcomes DehydrateEnds DehydrateFinish.
Open Scope list_scope.
Open Scope nat_scope.

Section Total.
Context {Q S I : Type}.
Lemma new_resources_total' (ops : interpretation Q S I) n : forall st,
  exists rs st', new_resources (Q := Q) ops n st = (Ok rs, st').
Proof.
  induction n as [|n IH]; intro st; cbn [new_resources]; [eexists _, _; reflexivity|].
  unfold bindM, new_resourceM. destruct (new_resource ops (ds_interp st)) as [r i].
  destruct (IH (DState i (ds_output st))) as (rs & st' & ->). eexists _, _. reflexivity.
Qed.
End Total.

Section With.
Context {Q S I : Type} {CS : Cmp S} {CSL : CmpLaws S} {X : Xsd} {IS : IriSyntax}.
Variable ops : interpretation Q S I.
Variable reg : registry Q.

(** C12 (dehydration).  A wrong number of inputs is reported, whatever the value, and
    nothing is done. *)
Theorem C12_dehydrate_arity fuel v g ref inputs st l n :
  reg ref = Some l -> arity l = Some n -> length inputs <> n ->
  dehydrate_with ops reg (Datatypes.S fuel) v g ref inputs st
  = (Err (DInvalidInputCount n (length inputs)), st).
Proof.
  intros E A L. cbn [dehydrate_with]. unfold dehydrate_body. rewrite E, <- arity_input_count, A.
  destruct (Nat.eqb_spec n (length inputs)); [congruence|reflexivity].
Qed.

(** ... and with the right number of inputs the result is the one of the layout. *)
Theorem C12_dehydrate_arity_ok fuel v g ref inputs st l :
  reg ref = Some l -> (forall n, arity l = Some n -> length inputs = n) ->
  dehydrate_with ops reg (Datatypes.S fuel) v g ref inputs st
  = dehydrate_layout ops (dehydrate_with ops reg fuel) v g ref l inputs st.
Proof.
  intros E A. cbn [dehydrate_with]. unfold dehydrate_body. rewrite E, <- arity_input_count.
  destruct (arity l) as [n|]; [|reflexivity]. now rewrite (A n eq_refl), Nat.eqb_refl.
Qed.

(** C13 (dehydration). *)
Theorem C13_dehydrate_undefined fuel v g ref inputs st :
  reg ref = None ->
  dehydrate_with ops reg (Datatypes.S fuel) v g ref inputs st = (Err (DLayoutNotFound ref), st).
Proof. intros E. cbn [dehydrate_with]. unfold dehydrate_body. now rewrite E. Qed.

Lemma reaches_uses ref r l r' : reaches reg ref r -> reg r = Some l -> uses l r' -> reaches reg ref r'.
Proof.
  intros H E U. induction H as [r|r l' r1 r2 E' U' H IH].
  - eapply reaches_step; [exact E|exact U|constructor].
  - eapply reaches_step; [exact E'|exact U'|]. now apply IH.
Qed.

Theorem C13_dehydrate_not_found fuel v g ref inputs st r st' :
  dehydrate_with ops reg fuel v g ref inputs st = (Err (DLayoutNotFound r), st') ->
  reaches reg ref r /\ reg r = None.
Proof.
  intro H.
  pose proof (dehydrate_fine ops reg (reaches reg ref) (fun _ => True)
    (fun e => forall r, e = DLayoutNotFound r -> reaches reg ref r /\ reg r = None) (fun _ => True)) as F.
  specialize (F ltac:(intros; eapply reaches_uses; eassumption) ltac:(auto) ltac:(auto)
    ltac:(discriminate) ltac:(discriminate) ltac:(discriminate) ltac:(discriminate)).
  specialize (F ltac:(intros r0 H1 H2 r1 [= <-]; auto) ltac:(discriminate) ltac:(auto)).
  specialize (F fuel v g ref inputs ltac:(constructor) Logic.I st). rewrite H in F. simpl in F. auto.
Qed.

Theorem C13_dehydrate_closed fuel v g ref inputs st r st' :
  closed reg -> reg ref <> None ->
  dehydrate_with ops reg fuel v g ref inputs st <> (Err (DLayoutNotFound r), st').
Proof.
  intros CL D H. apply C13_dehydrate_not_found in H as [R N]. revert D.
  induction R as [r|r l r1 r2 E U R IH]; intro D; [auto|]. apply IH; [exact N|]. eapply CL; eassumption.
Qed.

(** C16 (dehydration). *)
Theorem C16_dehydrate_never fuel v g ref inputs st :
  reg ref = Some Never ->
  dehydrate_with ops reg (Datatypes.S fuel) v g ref inputs st = (Err DIncompatibleLayout, st).
Proof. intros E. cbn [dehydrate_with]. unfold dehydrate_body. now rewrite E. Qed.

Theorem C16_dehydrate_always fuel v g ref inputs st :
  reg ref = Some Always ->
  dehydrate_with ops reg (Datatypes.S fuel) v g ref inputs st = (Ok tt, st).
Proof. intros E. cbn [dehydrate_with]. unfold dehydrate_body. now rewrite E. Qed.

(** ** Records *)

Lemma entries_keys rec g e fs m : forall st st',
  dehydrate_entries ops rec g e fs m st = (Ok tt, st') ->
  forall k, In k (map fst m) -> In k (map fst fs).
Proof.
  induction m as [|[k v] m IH]; intros st st' H k' Hk; [destruct Hk|]. cbn [dehydrate_entries] in H.
  destruct (bt_get k fs) as [f|] eqn:E; [|discriminate].
  apply bindM_Ok in H as (e' & st1 & _ & H). apply bindM_Ok in H as ([] & st2 & _ & H).
  destruct Hk as [<-|Hk]; [|eapply IH; eassumption].
  apply bt_get_In in E. now apply (in_map fst) in E.
Qed.

Lemma check_required_cases (ref : Q) (m : list (value * value)) (fs : list (value * field Q)) (st : dstate S I) :
  (check_required ref m fs st = (Ok tt, st) /\
   forall k f, In (k, f) fs -> f_required f = true -> In k (map fst m)) \/
  (exists k f, check_required ref m fs st = (Err (DMissingRequiredKey ref k m), st) /\
     In (k, f) fs /\ f_required f = true /\ ~ In k (map fst m)).
Proof.
  induction fs as [|[k f] fs IH]; cbn [check_required]; [left; split; [reflexivity|intros ? ? []]|].
  destruct (f_required f) eqn:Er; simpl.
  - destruct (bt_get k m) as [v|] eqn:E.
    + destruct IH as [[H1 H2]|(k' & f' & H1 & H2 & H3 & H4)].
      * left. split; [exact H1|]. intros k' f' [[= <- <-]|Hin] Hr; [|eapply H2; eassumption].
        apply bt_get_In in E. now apply (in_map fst) in E.
      * right. exists k', f'. repeat split; auto.
    + right. exists k, f. repeat split; auto. now apply bt_get_None in E.
  - destruct IH as [[H1 H2]|(k' & f' & H1 & H2 & H3 & H4)].
    + left. split; [exact H1|]. intros k' f' [[= <- <-]|Hin] Hr; [congruence|eapply H2; eassumption].
    + right. exists k', f'. repeat split; auto.
Qed.

(** C22.  A record layout only accepts the maps whose keys are fields and that have the required keys. *)
Theorem C22_record_keys fuel v g ref inputs st st' h fs :
  reg ref = Some (ProductL h fs) ->
  dehydrate_with ops reg fuel v g ref inputs st = (Ok tt, st') ->
  exists m, v = VMap m /\ (forall k, In k (map fst m) -> In k (map fst fs)) /\
    (forall k f, In (k, f) fs -> f_required f = true -> In k (map fst m)).
Proof.
  intros E H. destruct fuel as [|fuel]; [discriminate|]. cbn [dehydrate_with] in H.
  unfold dehydrate_body in H. rewrite E in H. cbn [input_count] in H.
  destruct (Nat.eqb _ _); [|discriminate]. cbn [dehydrate_layout] in H.
  destruct v as [v|m|l]; try discriminate. exists m. split; [reflexivity|].
  apply bindM_Ok in H as (e & st1 & _ & H). apply bindM_Ok in H as ([] & st2 & H1 & H2).
  split; [eapply entries_keys; exact H1|].
  destruct (check_required_cases ref m fs st2) as [[_ H]|(k & f & H & _)]; [exact H|congruence].
Qed.

Lemma all_optional_get (k : value) (fs : list (value * field Q)) :
  bt_get k (all_optional fs) = option_map (fun f => Field (f_item f) false) (bt_get k fs).
Proof.
  induction fs as [|[k' f] fs IH]; simpl; [reflexivity|].
  destruct (eqb k k'); [reflexivity|exact IH].
Qed.

Lemma all_optional_entries rec g e fs m : forall st,
  dehydrate_entries ops rec g e (all_optional fs) m st = dehydrate_entries ops rec g e fs m st.
Proof.
  induction m as [|[k v] m IH]; intro st; [reflexivity|]. cbn [dehydrate_entries].
  rewrite all_optional_get. destruct (bt_get k fs) as [f|]; [|reflexivity]. cbn [option_map f_item].
  unfold bindM. destruct (open _ _ _ _ st) as [[e'|?|?|] st1]; try reflexivity.
  destruct (dehydrate_sub_value _ _ _ _ _ _ st1) as [[[]|?|?|] st2]; try reflexivity. apply IH.
Qed.

Lemma all_optional_check (ref : Q) m fs (st : dstate S I) : check_required ref m (all_optional fs) st = (Ok tt, st).
Proof. induction fs as [|[k f] fs IH]; [reflexivity|]. simpl. exact IH. Qed.

Lemma product_accepts rec m g ref h fs inputs st st' :
  dehydrate_layout ops rec (VMap m) g ref (ProductL h (all_optional fs)) inputs st = (Ok tt, st') ->
  exists e st1, open ops (Root inputs) (h_intro h) (h_dataset h) st = (Ok e, st1) /\
    dehydrate_entries ops rec g e fs m st1 = (Ok tt, st').
Proof.
  cbn [dehydrate_layout]. intro H. apply bindM_Ok in H as (e & st1 & H1 & H).
  apply bindM_Ok in H as ([] & st2 & H2 & H). rewrite all_optional_check in H. injection H as <-.
  rewrite all_optional_entries in H2. eauto.
Qed.

(** If the entries of the map are accepted by the fields (taken as optional) but a required key is missing,
    [MissingRequiredKey] is returned for a missing key. *)
Theorem C22_missing_key fuel m g ref inputs st st' h fs k f :
  reg ref = Some (ProductL h fs) -> length inputs = h_input h ->
  dehydrate_layout ops (dehydrate_with ops reg fuel) (VMap m) g ref (ProductL h (all_optional fs))
    inputs st = (Ok tt, st') ->
  In (k, f) fs -> f_required f = true -> ~ In k (map fst m) ->
  exists k' f', In (k', f') fs /\ f_required f' = true /\ ~ In k' (map fst m) /\
    dehydrate_with ops reg (Datatypes.S fuel) (VMap m) g ref inputs st
    = (Err (DMissingRequiredKey ref k' m), st').
Proof.
  intros E L H Hk Hr Hm. rewrite (C12_dehydrate_arity_ok _ _ _ _ _ _ _ E) by (simpl; congruence).
  apply product_accepts in H as (e & st1 & H1 & H2). cbn [dehydrate_layout]. unfold bindM.
  rewrite H1, H2. destruct (check_required_cases ref m fs st') as [[_ H]|(k' & f' & H & A & B & C)].
  - exfalso. eapply Hm, H; eassumption.
  - exists k', f'. auto.
Qed.

(** If the entries before one with an unknown key are accepted, [IncompatibleLayout] is returned. *)
Theorem C22_unknown_key fuel m1 k v m2 g ref inputs st st' h fs :
  reg ref = Some (ProductL h fs) -> length inputs = h_input h ->
  dehydrate_layout ops (dehydrate_with ops reg fuel) (VMap m1) g ref (ProductL h (all_optional fs))
    inputs st = (Ok tt, st') ->
  bt_get k fs = None ->
  dehydrate_with ops reg (Datatypes.S fuel) (VMap (m1 ++ (k, v) :: m2)) g ref inputs st
  = (Err DIncompatibleLayout, st').
Proof.
  intros E L H Hk. rewrite (C12_dehydrate_arity_ok _ _ _ _ _ _ _ E) by (simpl; congruence).
  apply product_accepts in H as (e & st1 & H1 & H2). cbn [dehydrate_layout]. unfold bindM at 1.
  rewrite H1. clear H1.
  enough (dehydrate_entries ops (dehydrate_with ops reg fuel) g e fs (m1 ++ (k, v) :: m2) st1
          = (Err DIncompatibleLayout, st')) as G by (unfold bindM; now rewrite G).
  revert st1 H2. induction m1 as [|[k1 v1] m1 IH]; intros st1 H2.
  - injection H2 as ->. simpl. now rewrite Hk.
  - cbn [dehydrate_entries app] in *. destruct (bt_get k1 fs) as [f1|]; [|discriminate].
    apply bindM_Ok in H2 as (e1 & st2 & A & H2). apply bindM_Ok in H2 as ([] & st3 & B & H2).
    unfold bindM at 1 2. rewrite A, B. exact (IH st3 H2).
Qed.

(** ... and the other values are incompatible. *)
Theorem C22_not_a_map fuel v g ref inputs st h fs :
  reg ref = Some (ProductL h fs) -> length inputs = h_input h -> (forall m, v <> VMap m) ->
  dehydrate_with ops reg (Datatypes.S fuel) v g ref inputs st = (Err DIncompatibleLayout, st).
Proof.
  intros E L H. rewrite (C12_dehydrate_arity_ok _ _ _ _ _ _ _ E) by (simpl; congruence).
  destruct v as [v|m|l]; try reflexivity. exfalso. now apply (H m).
Qed.

(** [MissingRequiredKey] is only returned by a record layout, for a required key missing from the map reported. *)
Theorem C22_missing_key_only fuel v g ref inputs st r k m st' :
  dehydrate_with ops reg fuel v g ref inputs st = (Err (DMissingRequiredKey r k m), st') ->
  exists h fs f, reaches reg ref r /\ reg r = Some (ProductL h fs) /\ In (k, f) fs /\
    f_required f = true /\ ~ In k (map fst m).
Proof.
  intro H.
  pose proof (dehydrate_fine ops reg (reaches reg ref) (fun _ => True)
    (fun e => forall r k m, e = DMissingRequiredKey r k m ->
      exists h fs f, reaches reg ref r /\ reg r = Some (ProductL h fs) /\ In (k, f) fs /\
      f_required f = true /\ ~ In k (map fst m)) (fun _ => True)) as F.
  specialize (F ltac:(intros; eapply reaches_uses; eassumption) ltac:(auto) ltac:(auto)
    ltac:(discriminate) ltac:(discriminate) ltac:(discriminate) ltac:(discriminate) ltac:(discriminate)).
  specialize (F ltac:(intros r0 h fs k0 f m0 H1 H2 H3 H4 H5 ? ? ? [= <- <- <-]; exists h, fs, f; auto) ltac:(auto)).
  specialize (F fuel v g ref inputs ltac:(constructor) Logic.I st). rewrite H in F. simpl in F. auto.
Qed.

(** ** Tuples *)

(** C23. *)
Theorem C23_tuple_length fuel v g ref inputs st st' h its :
  reg ref = Some (SizedL h its) ->
  dehydrate_with ops reg fuel v g ref inputs st = (Ok tt, st') ->
  exists l, v = VList l /\ length l = length its.
Proof.
  intros E H. destruct fuel as [|fuel]; [discriminate|]. cbn [dehydrate_with] in H.
  unfold dehydrate_body in H. rewrite E in H. cbn [input_count] in H.
  destruct (Nat.eqb _ _); [|discriminate]. cbn [dehydrate_layout] in H.
  destruct v as [v|m|l]; try discriminate. exists l. split; [reflexivity|].
  apply bindM_Ok in H as (e & st1 & _ & H). clear E. revert l st1 H.
  induction its as [|it its IH]; intros [|v l] st1 H; try discriminate; [reflexivity|].
  cbn [dehydrate_tuple] in H. apply bindM_Ok in H as (e1 & st2 & _ & H).
  apply bindM_Ok in H as ([] & st3 & _ & H). simpl. f_equal. eapply IH, H.
Qed.

(** If the common part is accepted, [IncompatibleLayout] is returned. *)
Theorem C23_tuple_mismatch fuel l l' its its' g ref inputs st st' h :
  reg ref = Some (SizedL h (its ++ its')) -> length inputs = h_input h ->
  dehydrate_layout ops (dehydrate_with ops reg fuel) (VList l) g ref (SizedL h its)
    inputs st = (Ok tt, st') ->
  length l' <> length its' -> (l' = [] \/ its' = []) ->
  dehydrate_with ops reg (Datatypes.S fuel) (VList (l ++ l')) g ref inputs st
  = (Err DIncompatibleLayout, st').
Proof.
  intros E L H N D. rewrite (C12_dehydrate_arity_ok _ _ _ _ _ _ _ E) by (simpl; congruence).
  cbn [dehydrate_layout] in *. apply bindM_Ok in H as (e & st1 & H1 & H2). unfold bindM at 1.
  rewrite H1. clear H1 E. revert l st1 H2. induction its as [|it its IH]; intros [|v l] st1 H2; try discriminate.
  - injection H2 as ->. destruct l', its'; try reflexivity; simpl in N; try congruence.
    destruct D; discriminate.
  - cbn [dehydrate_tuple app] in *. apply bindM_Ok in H2 as (e1 & st2 & A & H2).
    apply bindM_Ok in H2 as ([] & st3 & B & H2). unfold bindM at 1 2. rewrite A, B. now apply IH.
Qed.

(** ** The current graph *)

(** C26 (what the code does).  The evaluation graph has no influence at all. *)
Theorem C26_graph_ignored fuel v g g' ref inputs st :
  dehydrate_with ops reg fuel v g ref inputs st = dehydrate_with ops reg fuel v g' ref inputs st.
Proof.
  revert v g g' ref inputs st. induction fuel as [|fuel IH]; intros v g g' ref inputs st; [reflexivity|].
  cbn [dehydrate_with]. unfold dehydrate_body. destruct (reg ref) as [l|]; [|reflexivity].
  assert (SV : forall v g g' vf e st,
    dehydrate_sub_value ops (dehydrate_with ops reg fuel) v g vf e st
    = dehydrate_sub_value ops (dehydrate_with ops reg fuel) v g' vf e st).
  { clear -IH. intros. unfold dehydrate_sub_value, bindM, lift.
    destruct (instantiate_patterns ops e (vf_input vf)); try reflexivity.
    destruct (vf_graph vf) as [[p|]|]; [|reflexivity|].
    - destruct (instantiate_pattern ops e p); reflexivity.
    - simpl. apply IH. }
  assert (G : dehydrate_layout ops (dehydrate_with ops reg fuel) v g ref l inputs st
            = dehydrate_layout ops (dehydrate_with ops reg fuel) v g' ref l inputs st).
  { destruct l as [| |h c|k h r dt|h r pat|h fs|h vs|h it|h node hd tl|h its]; try reflexivity;
      cbn [dehydrate_layout].
    - destruct v as [v|m|vs]; try reflexivity. unfold bindM at 1 3.
      destruct (open _ _ _ _ st) as [[e|?|?|] st1]; try reflexivity.
      assert (forall st, dehydrate_entries ops (dehydrate_with ops reg fuel) g e fs m st
        = dehydrate_entries ops (dehydrate_with ops reg fuel) g' e fs m st) as G.
      { clear -SV. induction m as [|[k v] m IHm]; intro st; [reflexivity|]. cbn [dehydrate_entries].
        destruct (bt_get k fs) as [f|]; [|reflexivity]. unfold bindM.
        destruct (open _ _ _ _ st) as [[e'|?|?|] st1]; try reflexivity. rewrite (SV v g g').
        destruct (dehydrate_sub_value _ _ _ _ _ _ st1) as [[[]|?|?|] st2]; try reflexivity. apply IHm. }
      unfold bindM. now rewrite G.
    - unfold bindM at 1 3. destruct (open _ _ _ _ st) as [[e|?|?|] st1]; try reflexivity.
      assert (forall sel st, dehydrate_variants ops (dehydrate_with ops reg fuel) v g e vs sel st
        = dehydrate_variants ops (dehydrate_with ops reg fuel) v g' e vs sel st) as G.
      { clear -SV. induction vs as [|va vs IHv]; intros sel st; [reflexivity|]. cbn [dehydrate_variants].
        unfold bindM, is_ok. destruct (env_intro _ _ _ st) as [[e'|?|?|] st1]; try reflexivity.
        unfold lift. destruct (instantiate_variant_dataset _ _ _); try reflexivity. rewrite (SV v g g').
        destruct (dehydrate_sub_value _ _ _ _ _ _ st1) as [[[]|?|?|] st2]; try reflexivity; [|apply IHv].
        destruct sel; [reflexivity|apply IHv]. }
      unfold bindM. now rewrite G.
    - destruct v as [v|m|vs]; try reflexivity. unfold bindM at 1 2.
      destruct (open _ _ _ _ st) as [[e|?|?|] st1]; try reflexivity.
      revert st1. induction vs as [|v vs IHv]; intro st1; [reflexivity|]. cbn [dehydrate_items].
      unfold bindM. destruct (open _ _ _ _ st1) as [[e'|?|?|] st2]; try reflexivity. rewrite (SV v g g').
      destruct (dehydrate_sub_value _ _ _ _ _ _ st2) as [[[]|?|?|] st3]; try reflexivity. apply IHv.
    - destruct v as [v|m|vs]; try reflexivity. unfold bindM at 1 3.
      destruct (open _ _ _ _ st) as [[e|?|?|] st1]; try reflexivity. unfold bindM, lift.
      destruct (instantiate_pattern ops e hd) as [head|?|?|]; try reflexivity.
      revert head st1. induction vs as [|v vs IHv]; intros head st1; [reflexivity|]. cbn [dehydrate_nodes].
      unfold bindM. match goal with |- (let (_, _) := ?m in _) = _ => destruct m as [[rest|?|?|] st2] end;
        try reflexivity.
      destruct (open _ _ _ _ st2) as [[e'|?|?|] st3]; try reflexivity. rewrite (SV v g g').
      destruct (dehydrate_sub_value _ _ _ _ _ _ st3) as [[[]|?|?|] st4]; try reflexivity. apply IHv.
    - destruct v as [v|m|vs]; try reflexivity. unfold bindM at 1 2.
      destruct (open _ _ _ _ st) as [[e|?|?|] st1]; try reflexivity.
      revert its st1. induction vs as [|v vs IHv]; intros its st1; [destruct its; reflexivity|].
      destruct its as [|it its]; [reflexivity|]. cbn [dehydrate_tuple].
      unfold bindM. destruct (open _ _ _ _ st1) as [[e'|?|?|] st2]; try reflexivity. rewrite (SV v g g').
      destruct (dehydrate_sub_value _ _ _ _ _ _ st2) as [[[]|?|?|] st3]; try reflexivity. apply IHv. }
  destruct (input_count l); [|exact G]. destruct (Nat.eqb _ _); [exact G|reflexivity].
Qed.

(** ** Sums *)

(** The quads of a list, as a set: what instantiating the patterns adds. *)
Definition adds (o : list (quad S)) (env : list S) (ps : list (qpat Q)) (o' : list (quad S)) : Prop :=
  forall q, In q o' <-> In q o \/ exists p, In p ps /\ inst_quad (into ops) env p q.

Lemma variant_dataset_In e ps d : instantiate_variant_dataset ops e ps = Ok d ->
  forall q, In q d <-> exists p, In p ps /\ inst_quad (into ops) (env_list e) p q.
Proof.
  unfold instantiate_variant_dataset. intro H. apply bind_Ok in H as (l & Hl & [= <-]). intro q.
  rewrite ds_insert_all_In. clear -Hl. revert l Hl.
  induction ps as [|p ps IH]; intros l Hl; cbn [mapM] in Hl.
  - injection Hl as <-. split; [intros [[]|[]]|intros (p & [] & _)].
  - apply bind_Ok in Hl as (q0 & Hq0 & Hl). apply bind_Ok in Hl as (l' & Hl & [= <-]).
    specialize (IH l' Hl). apply instantiate_quad_Ok in Hq0. split.
    + intros [[<-|H]|[]]; [exists p; split; [now left|exact Hq0]|].
      destruct (proj1 IH (or_introl H)) as (p' & Hp & Hi). exists p'. split; [now right|exact Hi].
    + intros (p' & [<-|Hp] & Hi); left.
      * left. clear -Hq0 Hi. destruct Hq0 as (A & B & C & D), Hi as (A' & B' & C' & D').
        assert (forall p r r', inst (into ops) (env_list e) p r -> inst (into ops) (env_list e) p r' -> r = r') as U.
        { intros p0 r r' H H'. destruct H; inversion H'; congruence. }
        destruct q0 as [s p1 o g], q as [s' p1' o' g']. simpl in *. f_equal; eauto.
        destruct D; inversion D'; [reflexivity|]. f_equal; eauto.
      * right. destruct (proj2 IH) as [H|[]]; [exists p'; auto|exact H].
Qed.

(** Datasets of the variants in scope: instantiating them never fails. *)
Definition variants_instantiable (n : nat) (vs : list (variant Q)) : Prop :=
  forall va x, In va vs -> var_of (it_dataset (va_item va)) x -> x < n + it_intro (va_item va).

Lemma instantiable_Ok e ps : (forall x, var_of ps x -> x < length (env_list e)) ->
  exists d, instantiate_variant_dataset ops e ps = Ok d.
Proof.
  intro H. unfold instantiate_variant_dataset.
  enough (exists l, mapM (instantiate_quad ops e) ps = Ok l) as [l ->] by (cbn [bind]; eauto).
  induction ps as [|p ps IH]; cbn [mapM]; [eauto|].
  assert (forall x pt, pt = PVar x -> (pt = q_s p \/ pt = q_p p \/ pt = q_o p \/ Some pt = q_g p) ->
    x < length (env_list e)) as HX.
  { intros x pt -> Hpt. apply H. exists p. split; [now left|]. unfold qvar_of, pvar_of.
    destruct Hpt as [E|[E|[E|E]]]; rewrite <- E; auto. }
  assert (forall pt, (pt = q_s p \/ pt = q_p p \/ pt = q_o p \/ Some pt = q_g p) ->
    exists r, instantiate_pattern ops e pt = Ok r) as HP.
  { intros pt Hpt. destruct (instantiate_pattern_cases ops e pt) as [?|(x & E & Hx & _)]; [assumption|].
    specialize (HX x pt E Hpt). lia. }
  destruct (HP (q_s p)) as [s Es]; [auto|]. destruct (HP (q_p p)) as [pr Ep]; [auto|].
  destruct (HP (q_o p)) as [o Eo]; [auto|].
  assert (exists q, instantiate_quad ops e p = Ok q) as [q Eq].
  { unfold instantiate_quad. rewrite Es, Ep, Eo. cbn [bind]. destruct (q_g p) as [g|] eqn:Eg; [|eauto].
    destruct (HP g) as [g' ->]; [auto|]. cbn [bind]. eauto. }
  rewrite Eq. cbn [bind]. destruct IH as [l ->]; [|cbn [bind]; eauto].
  intros x (p' & Hp' & Hx). apply H. exists p'. split; [now right|exact Hx].
Qed.

Definition accepted {A} (bs : list (option A)) : list A :=
  flat_map (fun b => match b with Some a => [a] | None => [] end) bs.

Lemma env_intro_length e n st e' st' :
  env_intro ops e n st = (Ok e', st') -> length (env_list e') = length (env_list e) + n.
Proof.
  intro H. unfold env_intro in H. apply bindM_Ok in H as (rs & st1 & Hr & H). injection H as <- <-.
  simpl. rewrite app_length. f_equal. revert st rs st1 Hr.
  induction n as [|n IH]; intros st rs st1 Hr; cbn [new_resources] in Hr; [now injection Hr as <- <-|].
  apply bindM_Ok in Hr as (r & st2 & _ & Hr). apply bindM_Ok in Hr as (rs' & st3 & Hr & H). injection H as <- <-.
  simpl. f_equal. eapply IH, Hr.
Qed.

(** Runs of the loop on the variants. *)
Lemma variants_loop fuel v g e vs st bs st' :
  Attempts ops reg fuel v g e vs st bs st' ->
  variants_instantiable (length (env_list e)) vs ->
  forall sel,
  match sel, accepted bs with
  | None, [] => dehydrate_variants ops (dehydrate_with ops reg fuel) v g e vs sel st = (Ok None, st')
  | None, [e'] => exists va d, In va vs /\ instantiate_variant_dataset ops e' (it_dataset (va_item va)) = Ok d /\
      dehydrate_variants ops (dehydrate_with ops reg fuel) v g e vs sel st = (Ok (Some d), st') /\
      exists i, nth_error vs i = Some va /\ nth_error bs i = Some (Some e')
  | Some d, [] => dehydrate_variants ops (dehydrate_with ops reg fuel) v g e vs sel st = (Ok (Some d), st')
  | _, _ => exists st'', dehydrate_variants ops (dehydrate_with ops reg fuel) v g e vs sel st
                         = (Err DDataAmbiguity, st'')
  end.
Proof.
  induction 1 as [st|va vs st e' st1 bs st2 H HA IH|va vs st err st1 bs st2 H HA IH]; intros Hi sel.
  - destruct sel; reflexivity.
  - assert (variants_instantiable (length (env_list e)) vs) as Hi'
      by (intros va' x Hin; apply Hi; now right).
    specialize (IH Hi'). unfold attempt in H. apply bindM_Ok in H as (e1 & s1 & H1 & H).
    apply bindM_Ok in H as ([] & s2 & H2 & H). injection H as <- <-.
    destruct (instantiable_Ok e1 (it_dataset (va_item va))) as [d Hd].
    { intros x Hx. rewrite (env_intro_length _ _ _ _ _ H1). apply (Hi va); [now left|exact Hx]. }
    cbn [dehydrate_variants]. unfold bindM, is_ok, lift. rewrite H1, Hd, H2.
    cbn [accepted flat_map app]. fold (accepted bs).
    destruct sel as [d0|]; [exists s2; reflexivity|].
    specialize (IH (Some d)). destruct (accepted bs) as [|e2 es].
    + exists va, d. split; [now left|]. split; [exact Hd|]. split; [exact IH|]. exists 0. split; reflexivity.
    + exact IH.
  - assert (variants_instantiable (length (env_list e)) vs) as Hi'
      by (intros va' x Hin; apply Hi; now right).
    specialize (IH Hi' sel). cbn [accepted flat_map app]. fold (accepted bs).
    assert (dehydrate_variants ops (dehydrate_with ops reg fuel) v g e (va :: vs) sel st
            = dehydrate_variants ops (dehydrate_with ops reg fuel) v g e vs sel st1) as E.
    { unfold attempt, bindM in H. cbn [dehydrate_variants]. unfold bindM, is_ok, lift.
      destruct (env_intro ops e (it_intro (va_item va)) st) as [[e1|?|?|] s1] eqn:H1.
      - destruct (instantiable_Ok e1 (it_dataset (va_item va))) as [d Hd].
        { intros x Hx. rewrite (env_intro_length _ _ _ _ _ H1). apply (Hi va); [now left|exact Hx]. }
        rewrite Hd. destruct (dehydrate_sub_value _ _ _ _ _ _ s1) as [[[]|?|?|] s2]; simpl in H; try discriminate.
        injection H as <- <-. reflexivity.
      - exfalso. unfold env_intro, bindM in H1.
        destruct (new_resources_total' ops (it_intro (va_item va)) st) as (rs & s & E).
        rewrite E in H1. discriminate.
      - discriminate.
      - discriminate. }
    rewrite E. destruct sel as [d0|], (accepted bs) as [|e2 [|e3 es]]; try exact IH.
    destruct IH as (va' & d & A & B & C & i & D). exists va', d. split; [now right|]. split; [exact B|].
    split; [exact C|]. exists (Datatypes.S i). exact D.
Qed.

(** C27 (what holds).  If the variants are tried one after the other, a sum succeeds iff exactly one accepts the value; the quads
    of this variant are then added to what the attempts left.  Missing: the attempts that failed
    must not leave anything, see [C27_sum_trace_refuted]. *)
Theorem C27_sum_partial fuel v g ref inputs st h vs e st1 bs st2 :
  reg ref = Some (SumL h vs) -> length inputs = h_input h ->
  open ops (Root inputs) (h_intro h) (h_dataset h) st = (Ok e, st1) ->
  variants_instantiable (h_input h + h_intro h) vs ->
  Attempts ops reg fuel v g e vs st1 bs st2 ->
  let run := dehydrate_with ops reg (Datatypes.S fuel) v g ref inputs st in
  match accepted bs with
  | [] => run = (Err DIncompatibleLayout, st2)
  | [e'] => exists i va st3, nth_error vs i = Some va /\ nth_error bs i = Some (Some e') /\
      run = (Ok tt, st3) /\ ds_interp st3 = ds_interp st2 /\
      adds (ds_output st2) (env_list e') (it_dataset (va_item va)) (ds_output st3)
  | _ => fst run = Err DDataAmbiguity
  end.
Proof.
  intros E L HO HI HA run. unfold run.
  rewrite (C12_dehydrate_arity_ok _ _ _ _ _ _ _ E) by (simpl; congruence).
  cbn [dehydrate_layout]. unfold bindM.
  assert (length (env_list e) = h_input h + h_intro h) as Le.
  { unfold open in HO. apply bindM_Ok in HO as (e0 & s0 & H1 & HO).
    apply bindM_Ok in HO as ([] & s1 & _ & HO). injection HO as <- <-.
    apply env_intro_length in H1. simpl in H1. congruence. }
  rewrite <- Le in HI. pose proof (variants_loop _ _ _ _ _ _ _ _ HA HI None) as P.
  destruct (accepted bs) as [|e' [|e'' es]].
  - rewrite HO, P. reflexivity.
  - destruct P as (va & d & A & B & C & i & D1 & D2). rewrite HO, C.
    eexists i, va, _. split; [exact D1|]. split; [exact D2|]. split; [reflexivity|].
    split; [reflexivity|]. intro q. simpl. rewrite ds_insert_all_In.
    rewrite (variant_dataset_In _ _ _ B q). tauto.
  - destruct P as (st'' & P). rewrite HO, P. reflexivity.
Qed.

Lemma dataset_Ok_scoped e ps st : (forall x, var_of ps x -> x < length (env_list e)) ->
  exists st', instantiate_dataset ops e ps st = (Ok tt, st').
Proof.
  revert st. induction ps as [|p ps IH]; intros st H; cbn [instantiate_dataset]; [eexists; reflexivity|].
  assert (exists q, instantiate_quad ops e p = Ok q) as [q Eq].
  { destruct (instantiable_Ok e [p]) as [d Hd].
    - intros x (p' & [<-|[]] & Hx). apply H. exists p. split; [now left|exact Hx].
    - unfold instantiate_variant_dataset in Hd. cbn [mapM] in Hd.
      destruct (instantiate_quad ops e p); cbn [bind] in Hd; try discriminate. eauto. }
  unfold bindM at 1, lift. rewrite Eq. unfold bindM, emit. apply IH.
  intros x (p' & Hp' & Hx). apply H. exists p'. split; [now right|exact Hx].
Qed.

(** A literal layout (other than an identifier) either accepts the value or does nothing. *)
Lemma literal_reject fuel v g ref inputs st err st' l :
  reg ref = Some l ->
  match l with UnitL _ _ | DataL _ _ _ _ => True | _ => False end ->
  (forall x, ~ undeclared_in l x) ->
  dehydrate_with ops reg fuel v g ref inputs st = (Err err, st') -> st' = st.
Proof.
  intros E HL HU H. destruct fuel as [|fuel]; [discriminate|]. cbn [dehydrate_with] in H.
  unfold dehydrate_body in H. rewrite E in H.
  destruct l as [| |h c|k h r dt|h r pat|h fs|h vs|h it|h node hd tl|h its]; try contradiction;
    cbn [input_count] in H; (destruct (Nat.eqb_spec 1 (length inputs)) as [L|L]; [|unfold raise in H; congruence]);
    cbn [dehydrate_layout] in H.
  - destruct (eqb v c); [|unfold raise in H; congruence]. exfalso.
    unfold open, bindM in H.
    destruct (env_intro ops (Root inputs) (h_intro h) st) as [[e|?|?|] st1] eqn:E1.
    2: { unfold env_intro, bindM in E1. destruct (new_resources_total' ops (h_intro h) st) as (rs & s & E2).
         rewrite E2 in E1. discriminate. }
    2, 3: discriminate.
    destruct (dataset_Ok_scoped e (h_dataset h) st1) as [st2 E2]; [|rewrite E2 in H; discriminate].
    intros x Hx. apply env_intro_length in E1. simpl in E1. rewrite E1.
    destruct (Nat.lt_ge_cases x (length inputs + h_intro h)) as [|Hle]; [assumption|].
    exfalso. apply (HU x). split; [exact Hx|lia].
  - destruct v as [v|m|vs]; [|unfold raise in H; congruence|unfold raise in H; congruence].
    destruct (dehydrate_literal ops k v (into ops dt)) as [m|] eqn:EL; [|unfold raise in H; congruence]. exfalso.
    unfold open, bindM in H.
    destruct (env_intro ops (Root inputs) (h_intro h) st) as [[e|?|?|] st1] eqn:E1.
    2: { unfold env_intro, bindM in E1. destruct (new_resources_total' ops (h_intro h) st) as (rs & s & E2).
         rewrite E2 in E1. discriminate. }
    2, 3: discriminate.
    apply env_intro_length in E1. simpl in E1.
    destruct (dataset_Ok_scoped e (h_dataset h) st1) as [st2 E2].
    { intros x Hx. rewrite E1.
      destruct (Nat.lt_ge_cases x (length inputs + h_intro h)) as [|Hle]; [assumption|].
      exfalso. apply (HU x). left. split; [exact Hx|lia]. }
    rewrite E2 in H. unfold ret, lift in H.
    destruct (instantiate_pattern_cases ops e r) as [[r' Er]|(x & -> & Hx & _)].
    + rewrite Er in H. destruct (m st2) as [[lit|?|?|] st3] eqn:Em; try discriminate.
      injection H as -> ->. clear -EL Em. destruct k, v; try discriminate; simpl in EL; injection EL as <-.
      * unfold dehydrate_boolean in Em. destruct (existsb _ _); discriminate.
      * unfold dehydrate_number in Em. destruct (number_literal _ _); discriminate.
      * discriminate.
      * unfold dehydrate_text_string in Em. destruct (iris_in _ _ _); discriminate.
    + apply (HU x). right. split; [reflexivity|lia].
Qed.

(** C27, in full when the variants are (well scoped) literal layouts: a rejected variant leaves no
    quad, so that by [C27_sum_partial] the quads are the ones of the sum and of the variant selected. *)
Theorem C27_literal_variants_partial fuel v g e va st err st' l :
  reg (vf_layout (it_value (va_item va))) = Some l ->
  match l with UnitL _ _ | DataL _ _ _ _ => True | _ => False end ->
  (forall x, ~ undeclared_in l x) ->
  attempt ops reg fuel v g e va st = (Err err, st') ->
  ds_output st' = ds_output st /\
  exists n, ds_interp st' = Nat.iter n (fun i => snd (new_resource ops i)) (ds_interp st).
Proof.
  intros E HL HU H. unfold attempt, bindM in H.
  assert (forall n st rs st1, new_resources ops n st = (Ok rs, st1) ->
    ds_output st1 = ds_output st /\
    ds_interp st1 = Nat.iter n (fun i => snd (new_resource ops i)) (ds_interp st)) as N.
  { clear. induction n as [|n IH]; intros st rs st1 H; cbn [new_resources] in H; [now injection H as <- <-|].
    apply bindM_Ok in H as (r & s1 & H1 & H). apply bindM_Ok in H as (rs' & s2 & H2 & H).
    injection H as <- <-. destruct (IH _ _ _ H2) as [A B]. unfold new_resourceM in H1.
    destruct (new_resource ops (ds_interp st)) as [r' i] eqn:Ei. injection H1 as <- <-. simpl in *.
    split; [exact A|]. rewrite B. replace i with (snd (new_resource ops (ds_interp st))) by now rewrite Ei. clear. induction n as [|n IH]; simpl; [reflexivity|]. now rewrite IH. }
  unfold env_intro, bindM in H.
  destruct (new_resources_total' ops (it_intro (va_item va)) st) as (rs & st1 & E1). rewrite E1 in H.
  apply N in E1 as [N1 N2]. unfold ret at 1 in H.
  match type of H with (let (_, _) := ?m in _) = _ => destruct m as [[[]|e0|?|] st2] eqn:ES end; try discriminate.
  injection H as -> ->. unfold dehydrate_sub_value, bindM, lift in ES.
  assert (st' = st1) as ->; [|split; [exact N1|eexists; exact N2]].
  destruct (instantiate_patterns ops _ _) as [inp|?|?|]; try congruence.
  destruct (vf_graph _) as [[p|]|]; [destruct (instantiate_pattern ops _ p); try congruence| |];
    unfold ret in ES; eapply literal_reject; eassumption.
Qed.

(** ** The initial content of the output *)

(** C60. *)
Theorem C60_output_grows fuel v g ref inputs st o st' :
  dehydrate_with ops reg fuel v g ref inputs st = (o, st') ->
  forall q, In q (ds_output st) -> In q (ds_output st').
Proof.
  intros H.
  pose proof (dehydrate_preserves ops reg (fun st st' => forall q, In q (ds_output st) -> In q (ds_output st'))) as P.
  cbn beta in P. lapply P; [clear P; intro P|auto].
  specialize (P ltac:(intros; auto) ltac:(auto) ltac:(auto) ltac:(auto)).
  lapply P; [clear P; intro P|intros i o' qs _ q Hq; simpl; rewrite ds_insert_all_In; auto].
  specialize (P fuel v g ref inputs st). now rewrite H in P.
Qed.

Theorem C60_output_frame fuel v g ref inputs i o out st :
  dehydrate_with ops reg fuel v g ref inputs (DState i []) = (out, st) -> out <> OutOfFuel ->
  exists st', dehydrate_with ops reg fuel v g ref inputs (DState i o) = (out, st') /\
    ds_interp st' = ds_interp st /\
    forall q, In q (ds_output st') <-> In q o \/ In q (ds_output st).
Proof.
  intros H N.
  pose (RT := fun st1 st2 : dstate S I => ds_interp st1 = ds_interp st2 /\
    forall q, In q (ds_output st2) <-> In q o \/ In q (ds_output st1)).
  destruct (dehydrate_sim ops ops reg eq RT) with (fuel1 := fuel) (fuel2 := fuel) (v := v) (g1 := g) (g2 := g)
    (ref := ref) (in1 := inputs) (in2 := inputs) (st1 := DState (S := S) i []) (st2 := DState i o) as [E|[E1 E2]].
  - reflexivity.
  - intros i1 o1 i2 o2 [A B]. simpl in A. subst i2. split; [reflexivity|]. split; [reflexivity|exact B].
  - intros i1 o1 i2 o2 r1 r2 s [A B] ->. simpl in A. subst i2. split; [reflexivity|exact B].
  - intros i1 o1 i2 o2 r1 r2 s [A B] ->. simpl in A. subst i2. split; [reflexivity|exact B].
  - intros i1 o1 i2 o2 q [A B]. simpl in A. now subst i2.
  - intros i1 o1 i2 o2 q1 q2 [A B] Hq. apply quad_rel_eq in Hq. subst q2. split; [exact A|].
    intro q. simpl. simpl in B. rewrite !ds_insert_In, B. tauto.
  - intros d1 d2 q1 q2 Hd Hq. apply quad_rel_eq in Hq. subst q2.
    assert (d1 = d2) as -> by (clear -Hd; induction Hd; [reflexivity|f_equal; [now apply quad_rel_eq|assumption]]).
    clear. induction (ds_insert q1 d2); constructor; auto. now apply quad_rel_eq.
  - lia.
  - destruct g; simpl; auto.
  - now apply Forall2_eq.
  - split; [reflexivity|]. simpl. tauto.
  - rewrite H in E. simpl in E. contradiction.
  - rewrite H in E1, E2. simpl in E1, E2.
    destruct (dehydrate_with ops reg fuel v g ref inputs (DState i o)) as [out' st'] eqn:E'.
    exists st'. simpl in E1, E2. destruct E2 as [E2 E3]. split; [|split; [now symmetry|exact E3]].
    f_equal. destruct out as [[]|?|?|], out' as [[]|?|?|]; simpl in E1; congruence || contradiction.
Qed.

(** ** Undeclared variables *)

(** C61. *)
Theorem C61_undeclared_only fuel v g ref inputs st x st' :
  dehydrate_with ops reg fuel v g ref inputs st = (Err (DUndeclaredVariable x), st') ->
  exists r l, reaches reg ref r /\ reg r = Some l /\ undeclared_in l x.
Proof.
  intro H.
  pose proof (dehydrate_fine ops reg (reaches reg ref) (fun _ => True)
    (fun e => forall x, e = DUndeclaredVariable x ->
      exists r l, reaches reg ref r /\ reg r = Some l /\ undeclared_in l x) (fun _ => True)) as F.
  specialize (F ltac:(intros; eapply reaches_uses; eassumption) ltac:(auto) ltac:(auto)
    ltac:(discriminate) ltac:(discriminate) ltac:(discriminate)).
  specialize (F ltac:(intros r0 l x0 H1 H2 H3 x1 [= <-]; exists r0, l; auto)
    ltac:(discriminate) ltac:(discriminate) ltac:(auto)).
  specialize (F fuel v g ref inputs ltac:(constructor) Logic.I st). rewrite H in F. simpl in F. auto.
Qed.

(** ** Environments *)

(** C29. *)
Theorem C29_lookup (e : env S) x r :
  instantiate_pattern ops e (PVar x) = Ok r <-> nth_error (env_list e) x = Some r.
Proof.
  simpl. rewrite env_get_spec. destruct (nth_error (env_list e) x); split; congruence.
Qed.

Theorem C29_undeclared (e : env S) x :
  instantiate_pattern ops e (PVar x) = Err (DUndeclaredVariable x) <-> length (env_list e) <= x.
Proof.
  simpl. rewrite env_get_spec, <- nth_error_None.
  destruct (nth_error (env_list e) x); split; intro; congruence.
Qed.

(** ** Termination *)

(** C59. [rank] is a measure decreasing from a sum to its variants, bounded by [K]. *)
Theorem C59_terminates (rank : Q -> nat) K v ref :
  (forall r, rank r < K) ->
  (forall r h vs va, reg r = Some (SumL h vs) -> In va vs ->
     rank (vf_layout (it_value (va_item va))) < rank r) ->
  exists fuel, forall fuel', fuel <= fuel' -> forall g inputs st,
    fst (dehydrate_with ops reg fuel' v g ref inputs st) <> OutOfFuel.
Proof.
  intros HK HS. exists (Datatypes.S (depth v * K + rank ref)). intros fuel' Hf g inputs st.
  eapply dehydrate_ends; [exact HK| |lia].
  intros r h vs r' E U. inversion U; subst. eapply HS; eassumption.
Qed.

(** The fuel of the model has no influence on a result. *)
Theorem C59_fuel fuel fuel' v g ref inputs st :
  fuel <= fuel' -> fst (dehydrate_with ops reg fuel v g ref inputs st) <> OutOfFuel ->
  dehydrate_with ops reg fuel' v g ref inputs st = dehydrate_with ops reg fuel v g ref inputs st.
Proof. apply dehydrate_fuel. Qed.

End With.

(** ** Traces *)
Section Traced.
Context {Q S I : Type} {CS : Cmp S} {CSL : CmpLaws S} {X : Xsd} {IS : IriSyntax}.
Variable ops : interpretation Q S I.
Variable reg : registry Q.

(** Recording the calls changes nothing. *)
Theorem traced_same fuel v g ref inputs i log o :
  let run := dehydrate_with ops reg fuel v g ref inputs (DState i o) in
  let run' := dehydrate_with (traced ops) reg fuel v g ref inputs (DState (i, log) o) in
  fst run <> OutOfFuel ->
  fst run' = fst run /\ fst (ds_interp (snd run')) = ds_interp (snd run) /\
  ds_output (snd run') = ds_output (snd run).
Proof.
  intros run run' N.
  pose (RT := fun (st1 : dstate S I) (st2 : dstate S (I * list (event S))) =>
    fst (ds_interp st2) = ds_interp st1 /\ ds_output st2 = ds_output st1).
  destruct (dehydrate_sim ops (traced ops) reg eq RT) with (fuel1 := fuel) (fuel2 := fuel) (v := v) (g1 := g) (g2 := g)
    (ref := ref) (in1 := inputs) (in2 := inputs) (st1 := DState (S := S) i o) (st2 := DState (S := S) (i, log) o) as [E|[E1 E2]].
  - reflexivity.
  - intros i1 o1 [i2 l2] o2 [A B]. simpl in *. subst i2 o2. destruct (new_resource ops i1). simpl.
    split; [reflexivity|]. split; reflexivity.
  - intros i1 o1 [i2 l2] o2 r1 r2 s [A B] ->. simpl in *. subst i2 o2. split; reflexivity.
  - intros i1 o1 [i2 l2] o2 r1 r2 s [A B] ->. simpl in *. subst i2 o2. split; reflexivity.
  - intros i1 o1 [i2 l2] o2 q [A B]. simpl in *. now subst i2 o2.
  - intros i1 o1 [i2 l2] o2 q1 q2 [A B] Hq. apply quad_rel_eq in Hq. simpl in *. subst q2 i2 o2. split; reflexivity.
  - intros d1 d2 q1 q2 Hd Hq. apply quad_rel_eq in Hq. subst q2.
    assert (d1 = d2) as -> by (clear -Hd; induction Hd; [reflexivity|f_equal; [now apply quad_rel_eq|assumption]]).
    clear. induction (ds_insert q1 d2); constructor; auto. now apply quad_rel_eq.
  - lia.
  - destruct g; simpl; auto.
  - now apply Forall2_eq.
  - split; reflexivity.
  - contradiction.
  - fold run in E1, E2. fold run' in E1, E2. destruct E2 as [A B].
    split; [|split; [exact A|exact B]].
    destruct (fst run) as [[]|?|?|], (fst run') as [[]|?|?|]; simpl in E1; congruence || contradiction.
Qed.
End Traced.

Section Input.
Context {X : Xsd} {IS : IriSyntax}.
Variable reg : registry term.

(** The log agrees with the interpretation. *)
Definition log_inv (st : dstate res (input_interp * list (event res))) : Prop :=
  news (snd (ds_interp st)) = map RAnon (seq 0 (ii_anonymous_count (fst (ds_interp st)))) /\
  forall r t, In (EAssign r t) (snd (ds_interp st)) <-> In t (terms_of r (ii_map (fst (ds_interp st)))).

Lemma news_app {S} (l l' : list (event S)) : news (l ++ l') = news l ++ news l'.
Proof. apply flat_map_app. Qed.

Lemma log_inv_run fuel v g ref inputs st :
  log_inv st -> log_inv (snd (dehydrate_with (traced input_interpretation) reg fuel v g ref inputs st)).
Proof.
  revert st. apply (dehydrate_preserves (traced input_interpretation) reg (fun st st' => log_inv st -> log_inv st')); auto.
  - intros [i log] o [A B]. unfold log_inv. simpl in *. split.
    + rewrite news_app, A. change (news [ENew (RAnon (ii_anonymous_count i))]) with (map RAnon [ii_anonymous_count i]).
      rewrite <- map_app. f_equal. now rewrite <- seq_S.
    + intros r t. rewrite <- B, in_app_iff. split; [intros [H|[H|[]]]; [exact H|discriminate]|auto].
  - intros [i log] o r s [A B]. unfold log_inv. simpl in *. split.
    + rewrite news_app, A. apply app_nil_r.
    + intros r' t. rewrite terms_of_assign, <- B, in_app_iff. simpl.
      split; [intros [H|[[= <- <-]|[]]]; auto|intros [[-> ->]|H]; auto].
  - intros [i log] o r s [A B]. unfold log_inv. simpl in *. split.
    + rewrite news_app, A. apply app_nil_r.
    + intros r' t. rewrite terms_of_assign, <- B, in_app_iff. simpl.
      split; [intros [H|[[= <- <-]|[]]]; auto|intros [[-> ->]|H]; auto].
Qed.

Definition is_input (r : res) : Prop := exists i, r = RInput i.
Definition is_term (r : res) : Prop := exists t, r = RTerm t.

(** C24.  The resources created are distinct, and are neither inputs nor resources of the layouts. *)
Theorem C24_introduced_fresh fuel v g ref inputs :
  let created := news (trace input_interpretation reg fuel v g ref inputs initial) in
  NoDup created /\ forall r, In r created -> ~ is_input r /\ ~ is_term r.
Proof.
  intro created.
  assert (log_inv (DState (InputInterp [] 0, []) [])) as W.
  { split; [reflexivity|]. simpl. tauto. }
  apply (log_inv_run fuel v g ref inputs) in W as [W _].
  change (news (snd (ds_interp (snd (dehydrate_with (traced input_interpretation) reg fuel v g ref inputs
    (DState (InputInterp [] 0, []) [])))))) with created in W.
  rewrite W. split.
  - apply FinFun.Injective_map_NoDup; [intros a b [= H]; exact H|apply seq_NoDup].
  - intros r H. apply in_map_iff in H as (i & <- & _).
    split; intros [x E]; discriminate.
Qed.
End Input.

(** ** [dehydrate] *)
Section Public.
Context {Gn : Type} {X : Xsd} {IS : IriSyntax}.
Variable opts : options Gn.
Variable reg : registry term.
Variable order : list (quad res) -> list (quad res).
Hypothesis order_perm : forall l, Permutation (order l) l.

(** The number of inputs of the layout, of the options for the top and bottom layouts, or 1. *)
Definition input_number (l : layout term) : nat :=
  match arity l, o_input_count opts with
  | Some n, _ => n
  | None, Some n => n
  | None, None => 1
  end.

Lemma input_number_count l : input_number l = root_count opts l.
Proof. destruct l; reflexivity. Qed.

(** C21. *)
Theorem C21_output_count fuel v ref ds vals :
  dehydrate order reg fuel v ref opts = Ok (ds, vals) ->
  exists l, reg ref = Some l /\ length vals = input_number l.
Proof.
  intro H. apply dehydrate_inv in H as (l & st & theta & E & _ & _ & _ & _ & ->); [|exact order_perm].
  exists l. split; [exact E|]. rewrite !map_length, seq_length. symmetry. apply input_number_count.
Qed.

(** C13, on [dehydrate]. *)
Theorem C13_dehydrate_public fuel v ref :
  (reg ref = None -> dehydrate order reg fuel v ref opts = Err (DLayoutNotFound ref)) /\
  (closed reg -> reg ref <> None -> forall r, dehydrate order reg fuel v ref opts <> Err (DLayoutNotFound r)).
Proof.
  split.
  - intro E. unfold dehydrate. now rewrite E.
  - intros CL D r H. apply dehydrate_Err in H as [[E _]|[(l & st & E & H)|(l & st & a & b & _ & _ & H & _)]].
    + contradiction.
    + now apply C13_dehydrate_closed in H.
    + discriminate.
Qed.

(** C16, on [dehydrate]: the top layout gives the empty dataset, the bottom layout fails. *)
Theorem C16_dehydrate_public fuel v ref :
  (reg ref = Some Always -> exists vals, dehydrate order reg (Datatypes.S fuel) v ref opts = Ok ([], vals)) /\
  (reg ref = Some Never -> dehydrate order reg (Datatypes.S fuel) v ref opts = Err DIncompatibleLayout).
Proof.
  split; intro E; unfold dehydrate; rewrite E; cbn [ok_or bind].
  - rewrite (C16_dehydrate_always input_interpretation reg fuel) by exact E.
    cbn [ds_interp ds_output ii_map check_terms bind].
    assert (order [] = []) as -> by (apply Permutation_nil, Permutation_sym, order_perm).
    cbn [map_list]. destruct (map_list _ _ _) as [vals ms]. exists vals. reflexivity.
  - now rewrite (C16_dehydrate_never input_interpretation reg fuel) by exact E.
Qed.

(** C25.  The dataset represents the value according to the layout ([Emits], DehydrateSpec.v, where resources are
    now terms: the literals and IRIs assigned are the resources themselves)... *)
Theorem C25_emits fuel v ref ds vals :
  dehydrate order reg fuel v ref opts = Ok (ds, vals) ->
  Emits (fun t => t) (fun q => In q ds) eq reg ref vals v.
Proof.
  intro H. apply dehydrate_inv in H as (l & st & theta & E & R & MP & _ & HD & ->); [|exact order_perm].
  apply dehydrate_with_emits in R.
  pose proof (Emits_map_all RTerm (fun t => t) theta (fun q => In q (ds_output st))
    (fun q => In q ds) (assigned st) eq reg) as (T & _).
  - intro t. apply (mp_term _ _ _ _ MP).
  - intros q Hq. apply HD. exists q. auto.
  - intros r t Ht. now apply (mp_assigned _ _ _ _ MP).
  - now apply T.
Qed.

(** ... and contains nothing but instances of the patterns of the registry. *)
Theorem C25_only_instances fuel v ref ds vals q :
  dehydrate order reg fuel v ref opts = Ok (ds, vals) -> In q ds ->
  registry_instance (fun t => t) reg q.
Proof.
  intro H. apply dehydrate_inv in H as (l & st & theta & E & R & MP & _ & HD & ->); [|exact order_perm].
  intro Hq. apply HD in Hq as (q' & Hq' & ->).
  assert (registry_instance RTerm reg q') as (r & l' & p & env & A & B & C).
  { pose proof (dehydrate_preserves input_interpretation reg
      (fun st st' => (forall q, In q (ds_output st) -> registry_instance RTerm reg q) ->
                     (forall q, In q (ds_output st') -> registry_instance RTerm reg q))) as P.
    cbn beta in P. lapply P; [clear P; intro P|auto].
    specialize (P ltac:(intros; auto) ltac:(auto) ltac:(auto) ltac:(auto)).
    lapply P; [clear P; intro P|intros i o' qs Hqs H q; simpl; rewrite ds_insert_all_In; intros [H'|H']; auto].
    specialize (P fuel v None ref (map RInput (seq 0 (root_count opts l))) initial). rewrite R in P.
    apply P; [intros q0 []|exact Hq']. }
  exists r, l', p, (map theta env). split; [exact A|]. split; [exact B|].
  apply (inst_quad_map RTerm (fun t => t) theta); [|exact C].
  intro t. apply (mp_term _ _ _ _ MP).
Qed.

(** The calls made by [dehydrate]. *)
Definition calls fuel v ref l : list (event res) :=
  trace input_interpretation reg fuel v None ref (map RInput (seq 0 (input_number l))) initial.

Lemma calls_assigned fuel v ref l out st :
  dehydrate_with input_interpretation reg fuel v None ref (map RInput (seq 0 (input_number l))) initial
    = (out, st) -> out <> OutOfFuel ->
  forall r t, In (EAssign r t) (calls fuel v ref l) <-> assigned st r t.
Proof.
  intros H N r t. unfold calls, trace. cbn [initial ds_interp ds_output].
  assert (log_inv (DState (InputInterp [] 0, []) [])) as W.
  { split; [reflexivity|]. simpl. tauto. }
  apply (log_inv_run reg fuel v None ref (map RInput (seq 0 (input_number l)))) in W as [_ W].
  rewrite W. unfold assigned.
  destruct (traced_same input_interpretation reg fuel v None ref (map RInput (seq 0 (input_number l)))
    (InputInterp [] 0) [] []) as (_ & A & _); [fold initial; rewrite H; exact N|].
  rewrite A. fold initial. rewrite H. reflexivity.
Qed.

(** C28.  If two terms are assigned to the same resource (or one to a resource which is another term),
    [dehydrate] does not succeed: it returns [TermAmbiguity] unless it had failed before. *)
Theorem C28_conflict fuel v ref l r t1 t2 :
  reg ref = Some l ->
  (In (EAssign r t1) (calls fuel v ref l) \/ r = RTerm t1) ->
  In (EAssign r t2) (calls fuel v ref l) -> t1 <> t2 ->
  fst (dehydrate_with input_interpretation reg fuel v None ref (map RInput (seq 0 (input_number l))) initial)
    = Ok tt ->
  exists a b, a <> b /\ dehydrate order reg fuel v ref opts = Err (DTermAmbiguity a b).
Proof.
  intros E H1 H2 N R.
  destruct (dehydrate_with input_interpretation reg fuel v None ref
    (map RInput (seq 0 (input_number l))) initial) as [out st] eqn:ED. simpl in R. subst out.
  rewrite (calls_assigned _ _ _ _ _ _ ED) in H1 by discriminate.
  rewrite (calls_assigned _ _ _ _ _ _ ED) in H2 by discriminate.
  rewrite input_number_count in ED. eapply dehydrate_ambiguous; eassumption.
Qed.

(** On success the terms of the resources are given by a function: the quads and the inputs
    returned are its image. *)
Theorem C28_functional fuel v ref ds vals :
  dehydrate order reg fuel v ref opts = Ok (ds, vals) ->
  exists l st theta, reg ref = Some l /\
    dehydrate_with input_interpretation reg fuel v None ref (map RInput (seq 0 (input_number l))) initial
      = (Ok tt, st) /\
    (forall t, theta (RTerm t) = t) /\
    (forall r t, In (EAssign r t) (calls fuel v ref l) -> theta r = t) /\
    NoDup ds /\ (forall q, In q ds <-> exists q', In q' (ds_output st) /\ q = quad_map theta q') /\
    vals = map theta (map RInput (seq 0 (input_number l))).
Proof.
  intro H. apply dehydrate_inv in H as (l & st & theta & E & R & MP & N & HD & ->); [|exact order_perm].
  exists l, st, theta. rewrite input_number_count. split; [exact E|]. split; [exact R|].
  split; [apply (mp_term _ _ _ _ MP)|]. split; [|auto].
  intros r t Hr. apply (mp_assigned _ _ _ _ MP). rewrite <- input_number_count in R.
  eapply calls_assigned in Hr; [exact Hr|exact R|discriminate].
Qed.

(** [TermAmbiguity] is only returned for two terms of the same resource. *)
Theorem C28_ambiguity_only fuel v ref a b :
  dehydrate order reg fuel v ref opts = Err (DTermAmbiguity a b) ->
  exists l r, reg ref = Some l /\ a <> b /\ In (EAssign r b) (calls fuel v ref l) /\
    (r = RTerm a \/ In (EAssign r a) (calls fuel v ref l)).
Proof.
  intro H. apply dehydrate_Err in H as [[E H]|[(l & st & E & H)|(l & st & a' & b' & E & R & H & N & r & Hb & Ha)]].
  - discriminate.
  - exfalso.
    pose proof (dehydrate_fine input_interpretation reg (fun _ => True) (fun _ => True)
      (fun e => forall a b, e <> DTermAmbiguity a b) (fun _ => True)) as F.
    specialize (F ltac:(auto) ltac:(auto) ltac:(auto) ltac:(discriminate) ltac:(discriminate) ltac:(discriminate)
      ltac:(discriminate) ltac:(discriminate) ltac:(discriminate) ltac:(auto)).
    specialize (F fuel v None ref (map RInput (seq 0 (root_count opts l))) Logic.I Logic.I initial).
    rewrite H in F. now apply (F a b).
  - injection H as <- <-. exists l, r. rewrite <- input_number_count in R.
    split; [exact E|]. split; [exact N|].
    rewrite !(calls_assigned _ _ _ _ _ _ R) by discriminate. auto.
Qed.

(** The identifiers generated by the options are all different, and different from the ones of the inputs. *)
Definition fresh_identifiers : Prop :=
  (forall i j, o_input_term opts i = o_input_term opts j -> i = j) /\
  (forall n m, generated opts n = generated opts m -> n = m) /\
  (forall i n, o_input_term opts i <> generated opts n).

(** C24, on the result.  Different inputs and created resources are given different terms, unless
    the value itself assigns them a term. *)
Theorem C24_fresh_terms fuel v ref ds vals :
  fresh_identifiers ->
  dehydrate order reg fuel v ref opts = Ok (ds, vals) ->
  exists l st theta, reg ref = Some l /\
    dehydrate_with input_interpretation reg fuel v None ref (map RInput (seq 0 (input_number l))) initial
      = (Ok tt, st) /\
    (forall q, In q ds <-> exists q', In q' (ds_output st) /\ q = quad_map theta q') /\
    vals = map theta (map RInput (seq 0 (input_number l))) /\
    let identifies r := In r (map RInput (seq 0 (input_number l))) \/
      (exists i q, r = RAnon i /\ In q (ds_output st) /\ quad_res q r) in
    let unassigned r := forall t, ~ In (EAssign r t) (calls fuel v ref l) in
    forall r r', identifies r -> unassigned r -> identifies r' -> unassigned r' ->
      theta r = theta r' -> r = r'.
Proof.
  intros (F1 & F2 & F3) H.
  apply dehydrate_inv in H as (l & st & theta & E & R & MP & _ & HD & HV); [|exact order_perm].
  rewrite <- input_number_count in R. pose proof (calls_assigned _ _ _ _ _ _ R ltac:(discriminate)) as CA.
  rewrite input_number_count in R.
  exists l, st, theta. rewrite !input_number_count. split; [exact E|]. split; [exact R|].
  split; [exact HD|]. split; [exact HV|]. intros identifies unassigned r r' Hr Ur Hr' Ur'.
  assert (forall r, unassigned r -> forall t, ~ assigned st r t) as UA
    by (intros r0 H t Ht; apply (H t), CA, Ht).
  pose proof (UA r Ur) as Vr; pose proof (UA r' Ur') as Vr'; clear Ur Ur'; rename Vr into Ur, Vr' into Ur'. destruct (mp_anon _ _ _ _ MP) as (f & A1 & A2).
  assert (forall r, In r (map RInput (seq 0 (root_count opts l))) -> (forall t, ~ assigned st r t) ->
    exists i, r = RInput i /\ theta r = o_input_term opts i) as IN.
  { intros r0 H U. apply in_map_iff in H as (i & <- & Hi). exists i. split; [reflexivity|].
    apply (mp_input _ _ _ _ MP); [|exact U]. apply in_seq in Hi. lia. }
  destruct Hr as [Hr|(i & q & -> & Hq & Hi)], Hr' as [Hr'|(i' & q' & -> & Hq' & Hi')].
  - destruct (IN r Hr Ur) as (i & -> & ->), (IN r' Hr' Ur') as (i' & -> & ->). intro H. f_equal. now apply F1.
  - destruct (IN r Hr Ur) as (i & -> & ->). rewrite (A1 i' q' Hq' Hi' Ur'). intro H. now apply F3 in H.
  - destruct (IN r' Hr' Ur') as (i' & -> & ->). rewrite (A1 i q Hq Hi Ur). intro H. symmetry in H. now apply F3 in H.
  - rewrite (A1 i q Hq Hi Ur), (A1 i' q' Hq' Hi' Ur'). intro H. apply F2 in H. f_equal.
    exact (A2 i i' q q' Hq Hi Ur Hq' Hi' Ur' H).
Qed.

(** C31 (what holds).  No panic when the literal layouts are supported and the numbers have a decimal
    representation.  Missing: the other cases reach a [todo!()], see [C31_no_panic_refuted]. *)
Theorem C31_no_panic_partial fuel v ref w :
  (forall r l, reaches reg ref r -> reg r = Some l -> supported l) ->
  (forall n, part (VLit (LNum n)) v -> decimal_print n <> None) ->
  dehydrate order reg fuel v ref opts <> Panic w.
Proof.
  intros HS HN H.
  pose proof (dehydrate_fine input_interpretation reg (reaches reg ref)
    (fun v' => forall n, part (VLit (LNum n)) v' -> decimal_print n <> None) (fun _ => True) (fun _ => False)) as F.
  specialize (F ltac:(intros; eapply reaches_uses; eassumption)
    ltac:(intros m k v' Hm Hin n Hp; apply Hm; econstructor; eassumption)
    ltac:(intros l v' Hl Hin n Hp; apply Hl; econstructor; eassumption)
    Logic.I Logic.I ltac:(intros; exact Logic.I) ltac:(intros; exact Logic.I) ltac:(intros; exact Logic.I) ltac:(intros; exact Logic.I)).
  assert (FL : forall fuel v' g r inputs, reaches reg ref r ->
    (forall n, part (VLit (LNum n)) v' -> decimal_print n <> None) ->
    fine (fun _ => True) (fun _ => False) (fun _ => True)
      (dehydrate_with input_interpretation reg fuel v' g r inputs)).
  { apply F. clear F. intros r k h p dt v' m st w' st' Hr Hv E Hm Hp.
    pose proof (HS _ _ Hr E) as SU. destruct k, v'; try discriminate; simpl in Hm; injection Hm as <-; simpl in SU.
    - subst dt. unfold dehydrate_boolean in Hp. cbn [into input_interpretation iris_in input_iris_of iris_of_terms flat_map app existsb] in Hp. rewrite eqb_refl in Hp. discriminate.
    - destruct SU as (ty & -> & Ht). unfold dehydrate_number in Hp. simpl in Hp. rewrite Ht in Hp.
      destruct (decimal_print n) as [s|] eqn:En; [discriminate|].
      apply (Hv n); [constructor|exact En].
    - exact SU.
    - destruct SU as (ty & ->). unfold dehydrate_text_string in Hp. simpl in Hp. discriminate. }
  unfold dehydrate in H. destruct (reg ref) as [l|] eqn:E; [|discriminate]. cbn [ok_or bind] in H.
  match type of H with context [dehydrate_with _ _ _ _ _ _ ?inp ?s] =>
    pose proof (FL fuel v None ref inp ltac:(constructor) HN s) as G end.
  destruct (dehydrate_with _ _ _ _ _ _ _ _) as [[[]|e|w'|] st]; try discriminate.
  - destruct (check_terms _) as [m|e|w'|] eqn:EC; try discriminate; cbn [bind] in H.
    + destruct (map_list _ _ _) as [d ms]. destruct (map_list _ _ _). discriminate.
    + clear -EC. revert EC. generalize (ii_map (ds_interp st)). intro m. induction m as [|[r ts] m IH]; [discriminate|].
      cbn [check_terms]. destruct r as [i|i|t]; [destruct ts as [|t [|u ts]]..|destruct (find _ _)];
        try discriminate; auto; destruct (check_terms m); try discriminate; auto.
  - exact G.
Qed.

End Public.

(** The default options give fresh identifiers. *)
Theorem default_options_fresh : fresh_identifiers default_options.
Proof.
  split; [|split].
  - simpl. intros i j [= H]. now apply nat_string_inj.
  - intros n m. rewrite !default_generated. intros [= H]. now apply nat_string_inj.
  - intros i n. rewrite default_generated. simpl. intros [= H].
    unfold nat_string in H. destruct (Nat.to_uint n); simpl in H; discriminate.
Qed.

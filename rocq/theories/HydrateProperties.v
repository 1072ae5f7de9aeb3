(** * Hydration: properties C09 to C19 *)

From Coq Require Import String List Bool Arith NArith Permutation Sorted Qcanon Lia.
Import ListNotations.
From Verif Require Import Base BaseProofs Orders PatternModel MatchingModel MatchingSpec
  MatchingProofs ValueModel ValueProofs LayoutModel LayoutSpec HydrateModel HydrateSpec
  HydrateProofs HydrateSound HydrateDet HydrateComplete HydratePost.
Open Scope list_scope.
Open Scope nat_scope.

Section Theorems.
Context {R : Type} {CR : Cmp R} {LR : CmpLaws R} {IR : Interp R} {X : Xsd}.

(** C09.  A value returned by hydration is the meaning of the layout on the dataset
    ([Means], HydrateSpec.v), for every registry, also recursive, and every enumeration
    of the dataset; an error is only returned if the dataset contradicts the layout.
    ([registry_sorted]: fields are stored in a [BTreeMap].) *)
Theorem C09_hydration_sound (D : dataset R) G (reg : registry R) fuel g ref inputs :
  enumerates D G -> registry_sorted reg ->
  (forall v, hydrate_with D reg fuel g ref inputs = Ok v -> Means G reg false g ref inputs v) /\
  (forall e, hydrate_with D reg fuel g ref inputs = Err e -> Rejects G reg false g ref inputs).
Proof. intros EN RS. now apply hydrate_sound. Qed.

(** C10 (what holds).  If the declarative semantics gives a value (or contradicts the
    dataset), hydration terminates and returns this value (an error).  Missing with
    respect to the full statement: the patterns of a layout must only use variables it declares, where the
    variables introduced by the variants of a sum do not count ([registry_scoped]); see
    [C10_hydration_complete_refuted].  *)
Theorem C10_hydration_complete_partial (D : dataset R) G (reg : registry R) g ref inputs :
  enumerates D G -> registry_sorted reg -> registry_scoped reg ->
  (forall v, Means G reg true g ref inputs v ->
     exists N, forall fuel, N <= fuel -> hydrate_with D reg fuel g ref inputs = Ok v) /\
  (Rejects G reg true g ref inputs ->
     exists N, forall fuel, N <= fuel -> exists e, hydrate_with D reg fuel g ref inputs = Err e).
Proof.
  intros EN RS SC. destruct (semantics_complete D G EN reg RS SC true eq_refl) as [A B].
  split; [apply A|apply B].
Qed.

(** C11 (what holds in general).  Two enumerations of the same dataset never give two different
    values, nor a value and an error.  Missing: one of them may panic, see
    [C11_same_quads_refuted]. *)
Theorem C11_same_quads_partial (D D' : dataset R) G (reg : registry R) fuel fuel' g ref inputs v :
  enumerates D G -> enumerates D' G -> registry_sorted reg ->
  hydrate_with D reg fuel g ref inputs = Ok v ->
  (forall v', hydrate_with D' reg fuel' g ref inputs = Ok v' -> v' = v) /\
  (forall e, hydrate_with D' reg fuel' g ref inputs <> Err e).
Proof.
  intros EN EN' RS H.
  destruct (hydrate_sound D G reg EN RS fuel g ref inputs) as [S _]. apply S in H.
  destruct (hydrate_sound D' G reg EN' RS fuel' g ref inputs) as [S1 S2].
  destruct (semantics_det G reg) as [DT _]. destruct (DT _ _ _ _ H) as [D1 D2].
  split.
  - intros v' H'. symmetry. auto.
  - intros e H'. apply S2 in H'. auto.
Qed.

Definition no_sum (reg : registry R) : Prop := forall ref h vs, reg ref <> Some (SumL h vs).

Lemma means_no_sum G (reg : registry R) :
  no_sum reg -> forall g ref inputs v,
  Means G reg false g ref inputs v -> Means G reg true g ref inputs v.
Proof.
  intros NS.
  destruct (semantics_ind R CR IR X G reg false
    (fun g ref inputs v => Means G reg true g ref inputs v)
    (fun _ _ _ => True)
    (fun g s vf v => VMeans G reg true g s vf v)
    (fun _ _ _ => True) (fun _ _ _ => True)
    (fun g s fs m => Fields G reg true g s fs m)
    (fun _ _ _ => True)
    (fun g s its vs => Tuple G reg true g s its vs)
    (fun _ _ _ => True)
    (fun g vf sols vs => Items G reg true g vf sols vs)
    (fun g s node hd tl vs => Nodes G reg true g s node hd tl vs)
    (fun _ _ _ _ _ => True) (fun _ _ _ => True) (fun _ _ _ => True)
    (fun _ _ _ _ _ _ => True) (fun _ _ _ _ => True)) as (I1 & _); [..|exact I1]; auto;
    try (intros; econstructor; eauto; fail).
  intros g ref inputs h vs s i v [E _]. exfalso. eapply NS; eauto.
Qed.

(** C11, in full for the registries without sums: the same value is returned whatever the
    enumeration. *)
Theorem C11_same_quads_no_sum (D D' : dataset R) G (reg : registry R) fuel g ref inputs v :
  enumerates D G -> enumerates D' G -> registry_sorted reg -> registry_scoped reg -> no_sum reg ->
  hydrate_with D reg fuel g ref inputs = Ok v ->
  exists N, forall fuel', N <= fuel' -> hydrate_with D' reg fuel' g ref inputs = Ok v.
Proof.
  intros EN EN' RS SC NS H.
  destruct (hydrate_sound D G reg EN RS fuel g ref inputs) as [S _]. apply S in H.
  apply means_no_sum in H; auto.
  eapply C10_hydration_complete_partial in H; eauto.
Qed.

(** The fuel of the model has no influence on a result. *)
Theorem C11_fuel (D : dataset R) (reg : registry R) fuel fuel' g ref inputs :
  hydrate_with D reg fuel g ref inputs <> OutOfFuel -> fuel <= fuel' ->
  hydrate_with D reg fuel' g ref inputs = hydrate_with D reg fuel g ref inputs.
Proof.
  intros H L. destruct (hydrate_fuel D reg fuel fuel' g ref inputs L) as [E|E]; congruence.
Qed.

(** C12 (hydration).  A wrong number of inputs is reported, whatever the dataset. *)
Theorem C12_hydrate_arity (D : dataset R) (reg : registry R) fuel g ref inputs l n :
  reg ref = Some l -> arity l = Some n -> length inputs <> n ->
  hydrate_with D reg (S fuel) g ref inputs = Err (InvalidInputCount n (length inputs)).
Proof.
  intros E A L. cbn [hydrate_with]. unfold hydrate_body. rewrite E. cbn [ok_or bind].
  rewrite <- arity_input_count, A. destruct (Nat.eqb_spec n (length inputs)); congruence.
Qed.

(** ... and this error of the root layout is only reported for a wrong number of inputs: with the
    right number (any number for the top and bottom layouts) the result is the one of the layout. *)
Theorem C12_hydrate_arity_ok (D : dataset R) (reg : registry R) fuel g ref inputs l :
  reg ref = Some l -> (forall n, arity l = Some n -> length inputs = n) ->
  hydrate_with D reg (S fuel) g ref inputs
  = hydrate_layout D (hydrate_with D reg fuel) fuel g ref l inputs.
Proof.
  intros E A. cbn [hydrate_with]. unfold hydrate_body. rewrite E. cbn [ok_or bind].
  rewrite <- arity_input_count. destruct (arity l) as [n|]; auto.
  rewrite (A n eq_refl), Nat.eqb_refl; auto.
Qed.

(** C13 (hydration).  [LayoutNotFound] is only returned for an undefined layout used, directly or not, by the root
    layout... *)
Theorem C13_layout_not_found (D : dataset R) G (reg : registry R) fuel g ref inputs r :
  enumerates D G ->
  hydrate_with D reg fuel g ref inputs = Err (LayoutNotFound r) ->
  reaches reg ref r /\ reg r = None.
Proof.
  intros EN.
  assert (forall fuel g ref inputs,
    post (fun e => forall r, e = LayoutNotFound r -> reaches reg ref r /\ reg r = None)
         (fun _ => True) True (hydrate_with D reg fuel g ref inputs)) as P.
  { clear fuel g ref inputs. induction fuel as [|fuel IH]; intros g ref inputs; cbn [hydrate_with];
      [simpl; auto|].
    eapply body_post with (U := fun _ => True); eauto.
    - intros q _. repeat split.
    - intros e NE r' E. exfalso. eapply NE; eauto.
    - intros E r' [= <-]. split; auto. constructor.
    - clear. induction inputs; constructor; auto.
    - intros l E. split.
      + split; [left; intros ?; exact I|]. split; [left; intros ?; exact I|]. split.
        * destruct l; simpl; auto; unfold format_const, pattern_const; auto.
        * destruct l; auto.
      + intros r' Ur g' inputs' _. specialize (IH g' r' inputs').
        destruct (hydrate_with D reg fuel g' r' inputs') as [v|e|w|]; simpl in *; auto.
        intros r'' Er. destruct (IH _ Er) as [H1 H2]. split; auto. eapply reaches_step; eauto. }
  intros H. specialize (P fuel g ref inputs). rewrite H in P. simpl in P. auto.
Qed.

(** ... an undefined root is reported... *)
Theorem C13_undefined_root (D : dataset R) (reg : registry R) fuel g ref inputs :
  reg ref = None -> hydrate_with D reg (S fuel) g ref inputs = Err (LayoutNotFound ref).
Proof. intros E. cbn [hydrate_with]. unfold hydrate_body. now rewrite E. Qed.

(** ... and a closed registry never produces the error. *)
Theorem C13_closed (D : dataset R) G (reg : registry R) fuel g ref inputs r :
  enumerates D G -> closed reg -> reg ref <> None ->
  hydrate_with D reg fuel g ref inputs <> Err (LayoutNotFound r).
Proof.
  intros EN CL RD H. eapply C13_layout_not_found in H as [RE N]; eauto.
  assert (reg r <> None); [|contradiction]. clear N.
  induction RE as [r|r l r' r'' E U RE IH]; auto. apply IH. eapply CL; eauto.
Qed.

(** C14.  A hydrated value conforms to its layout ([Conforms], LayoutSpec.v). *)
Theorem C14_conforms (D : dataset R) G (reg : registry R) fuel g ref inputs v :
  enumerates D G -> registry_sorted reg ->
  hydrate_with D reg fuel g ref inputs = Ok v -> Conforms reg ref v.
Proof.
  intros EN RS H.
  destruct (hydrate_sound D G reg EN RS fuel g ref inputs) as [S _]. apply S in H. clear S.
  revert g ref inputs v H.
  destruct (semantics_ind R CR IR X G reg false
    (fun g ref inputs v => Conforms reg ref v)
    (fun _ _ _ => True)
    (fun g s vf v => Conforms reg (vf_layout vf) v)
    (fun _ _ _ => True) (fun _ _ _ => True)
    (fun g s fs m => 
       (forall k v, In (k, v) m ->
          exists f, In (k, f) fs /\ Conforms reg (vf_layout (it_value (f_item f))) v) /\
       (forall k f, In (k, f) fs -> f_required f = true -> In k (map fst m)))
    (fun _ _ _ => True)
    (fun g s its vs => length vs = length its /\
       (forall i it v, nth_error its i = Some it -> nth_error vs i = Some v ->
          Conforms reg (vf_layout (it_value it)) v))
    (fun _ _ _ => True)
    (fun g vf sols vs => forall v, In v vs -> Conforms reg (vf_layout vf) v)
    (fun g s node hd tl vs => forall v, In v vs -> Conforms reg (vf_layout (it_value node)) v)
    (fun _ _ _ _ _ => True) (fun _ _ _ => True) (fun _ _ _ => True)
    (fun g s i vs j v => exists va, i <= j /\ nth_error vs (j - i) = Some va /\
       Conforms reg (vf_layout (it_value (va_item va))) v)
    (fun _ _ _ _ => True)) as (I1 & _); [..|exact I1]; auto.
  - intros g ref inputs [E _]. now constructor.
  - intros g ref inputs h c s [E _] _. econstructor; eauto.
  - intros g ref inputs k h res dt s r pre l post ty t [E _] _ _ _ _ _ _ DE.
    inversion DE; subst; econstructor; eauto.
  - intros g ref inputs h res pat s r iri [E _] _ _ _. econstructor; eauto.
  - intros g ref inputs h fs s m [E _] _ F [F1 F2]. econstructor; eauto.
    apply sorted_lt_NoDup. eapply Fields_sorted; eauto. apply (RS _ _ E).
  - intros g ref inputs h vs s i v [E _] _ _ (va & _ & N & C). rewrite Nat.sub_0_r in N.
    econstructor; eauto.
  - intros g ref inputs h it s sols vals l [E _] _ _ _ _ H Pm SS. eapply C_set; eauto.
    intros v I. apply H. eapply Permutation_in; [symmetry; eauto|auto].
  - intros g ref inputs h node hd tl s head tail l [E _] _ _ _ _ H. eapply C_list; eauto.
  - intros g ref inputs h its s l [E _] _ _ [H1 H2]. eapply C_tuple; eauto.
  - intros g s. split; [intros ? ? []|intros ? ? []].
  - intros g s k f fs s' v m _ _ C _ [F1 F2]. split.
    + intros k' v' [[= <- <-]|I]; [exists f; split; auto; now left|].
      destruct (F1 _ _ I) as (f' & I' & C'). exists f'. split; auto. now right.
    + intros k' f' [[= <- <-]|I] Q; [now left|]. right. eapply F2; eauto.
  - intros g s k f fs m _ NR _ [F1 F2]. split.
    + intros k' v' I. destruct (F1 _ _ I) as (f' & I' & C'). exists f'. split; auto. now right.
    + intros k' f' [[= <- <-]|I] Q; [congruence|]. eapply F2; eauto.
  - intros g s. split; auto. intros i it v H. destruct i; discriminate.
  - intros g s it its s' v vs _ _ C _ [H1 H2]. split; [simpl; auto|].
    intros [|i] it' v' E1 E2; simpl in E1, E2; [congruence|eauto].
  - intros g vf v [].
  - intros g vf s sols v vs _ C _ H v' [<-|I]; auto.
  - intros g s node tail v [].
  - intros g s node head tail s' v next vs _ _ _ C _ _ H v' [<-|I]; auto.
  - intros g s i va vs s' v _ _ C _ _. exists va. rewrite Nat.sub_diag. auto.
  - intros g s i va vs j v _ _ _ (va' & L & N & C). exists va'. split; [lia|]. split; auto.
    replace (j - i) with (Datatypes.S (j - Datatypes.S i)) by lia. auto.
Qed.

(** The reference of the layout is carried by the value. *)
Theorem C14_type (D : dataset R) G (reg : registry R) fuel g ref inputs v :
  enumerates D G -> registry_sorted reg ->
  hydrate_with D reg fuel g ref inputs = Ok v ->
  typed_value_type v = Some ref \/ reg ref = Some Always /\ v = TAlways (VLit LUnit).
Proof.
  intros EN RS H. eapply C14_conforms in H; eauto. inversion H; subst; simpl; auto.
Qed.

(** C15.  The items of a set are sorted and are the values hydrated from the matches. *)
Theorem C15_sets_sorted (D : dataset R) G (reg : registry R) fuel g ref inputs h it v :
  enumerates D G -> registry_sorted reg ->
  reg ref = Some (UnorderedL h it) ->
  hydrate_with D reg (S fuel) g ref inputs = Ok v ->
  exists s sols vals l,
    v = TList l ref /\ StronglySorted le l /\ Permutation vals l /\
    header_sol G g h inputs s /\
    NoDup sols /\
    (forall s', In s' sols <->
       solution G (fresh s (it_intro it)) (map (at_graph g) (it_dataset it)) s') /\
    Forall2 (fun s' v => exists inputs' g', passes g s' (it_value it) inputs' g' /\
       hydrate_with D reg fuel g' (vf_layout (it_value it)) inputs' = Ok v) sols vals.
Proof.
  intros EN RS E H. cbn [hydrate_with] in H. unfold hydrate_body in H. rewrite E in H.
  cbn [ok_or bind input_count] in H.
  destruct (Nat.eqb_spec (h_input h) (length inputs)) as [L|]; [|discriminate].
  cbn [hydrate_layout] in H. apply bind_Ok in H as (s & Hs & H).
  apply bind_Ok in H as (vals & Hv & H). injection H as <-.
  assert (exists sols, stream D (with_default_graph g (it_dataset it)) (sintro s (it_intro it))
     = map inr sols /\ Forall2 (fun s' v => exists inputs' g', passes g s' (it_value it) inputs' g' /\
       hydrate_with D reg fuel g' (vf_layout (it_value it)) inputs' = Ok v) sols vals)
    as (sols & ES & F).
  { revert vals Hv. generalize (stream D (with_default_graph g (it_dataset it)) (sintro s (it_intro it))).
    induction l as [|[w|s'] l IH]; intros vals Hv; cbn [hydrate_items] in Hv; try discriminate.
    - injection Hv as <-. exists []. auto.
    - apply bind_Ok in Hv as (v & V & Hv). apply bind_Ok in Hv as (vs & Vs & Hv). injection Hv as <-.
      destruct (IH _ Vs) as (sols & -> & F). exists (s' :: sols). split; auto. constructor; auto.
      unfold hydrate_format in V. apply bind_Ok in V as (inputs' & Hi & V).
      apply bind_Ok in V as (g' & Hg & V). exists inputs', g'. split; auto.
      apply select_inputs_Ok in Hi. apply select_graph_Ok in Hg. split; auto. }
  exists s, sols, vals, (sort vals). split; auto.
  split; [apply sort_sorted|]. split; [symmetry; apply sort_perm|].
  split; [eapply header_Ok; eauto|].
  assert (NP : forall i, In i (stream D (with_default_graph g (it_dataset it)) (sintro s (it_intro it)))
     -> ~ panicking i).
  { rewrite ES. intros i Hi. eapply not_panicking_inr; eauto. }
  rewrite with_default_graph_at in *. split; [|split; auto].
  - pose proof (good_NoDup D G EN (map (at_graph g) (it_dataset it)) (sintro s (it_intro it))) as N.
    rewrite ES in N. assert (good (map inr sols) = sols) as <-; auto.
    clear. induction sols; simpl; auto. now f_equal.
  - intros s'. unfold fresh. split.
    + intros I'. eapply stream_sound; eauto. unfold sintro in ES. rewrite ES. now apply in_map.
    + intros S. eapply stream_complete in S; eauto. unfold sintro in ES. rewrite ES in S.
      apply in_map_iff in S as (? & [= <-] & S). auto.
Qed.

(** C16 (hydration).  The bottom layout fails and the top layout succeeds, on any dataset
    and inputs. *)
Theorem C16_hydrate_never (D : dataset R) (reg : registry R) fuel g ref inputs :
  reg ref = Some Never -> hydrate_with D reg (S fuel) g ref inputs = Err IncompatibleLayout.
Proof. intros E. cbn [hydrate_with]. unfold hydrate_body. now rewrite E. Qed.

Theorem C16_hydrate_always (D : dataset R) (reg : registry R) fuel g ref inputs :
  reg ref = Some Always -> hydrate_with D reg (S fuel) g ref inputs = Ok (TAlways (VLit LUnit)).
Proof. intros E. cbn [hydrate_with]. unfold hydrate_body. now rewrite E. Qed.

(** C17 (what holds).  If a sum returns variant [i], this variant has one match
    from which its value is hydrated, and every other variant either has no match or has one
    whose value fails to hydrate.  Missing: zero or several variants make it panic, see
    [C17_sum_refuted]. *)
Definition applies D (reg : registry R) G fuel g s (va : variant R) (v : typed_value R) : Prop :=
  exists s' inputs g', item_sol G g s (va_item va) s' /\
    passes g s' (it_value (va_item va)) inputs g' /\
    hydrate_with D reg fuel g' (vf_layout (it_value (va_item va))) inputs = Ok v.
Definition ruled_out D (reg : registry R) G fuel g s (va : variant R) : Prop :=
  item_none G g s (va_item va) \/
  exists s' inputs g' e, item_sol G g s (va_item va) s' /\
    passes g s' (it_value (va_item va)) inputs g' /\
    hydrate_with D reg fuel g' (vf_layout (it_value (va_item va))) inputs = Err e.

Lemma format_inv (rec : option R -> R -> list R -> hres (R := R) (typed_value R)) g vf s :
  (forall v, hydrate_format rec g vf s = Ok v ->
     exists inputs g', passes g s vf inputs g' /\ rec g' (vf_layout vf) inputs = Ok v) /\
  (forall e, hydrate_format rec g vf s = Err e ->
     exists inputs g', passes g s vf inputs g' /\ rec g' (vf_layout vf) inputs = Err e).
Proof.
  unfold hydrate_format.
  destruct (select_inputs (vf_input vf) s) as [inputs|e'| |] eqn:Hi;
    [|exfalso; eapply select_inputs_Err; eauto|split; discriminate|split; discriminate].
  destruct (select_graph g (vf_graph vf) s) as [g'|e'| |] eqn:Hg;
    [|exfalso; eapply select_graph_Err; eauto|split; discriminate|split; discriminate].
  cbn [bind]. apply select_inputs_Ok in Hi. apply select_graph_Ok in Hg.
  split; intros a H; exists inputs, g'; split; auto; split; auto.
Qed.

Lemma variants_exact (D : dataset R) G (reg : registry R) fuel g ref s vs :
  enumerates D G -> forall i sel r,
  hydrate_variants D (hydrate_with D reg fuel) g ref s i vs sel = Ok r ->
  (sel <> None /\ r = sel /\ forall j vb, nth_error vs j = Some vb -> ruled_out D reg G fuel g s vb) \/
  (sel = None /\ r = None /\ forall j vb, nth_error vs j = Some vb -> ruled_out D reg G fuel g s vb) \/
  (sel = None /\ exists j va v, r = Some (i + j, v) /\ nth_error vs j = Some va /\
     applies D reg G fuel g s va v /\
     forall j' vb, j' <> j -> nth_error vs j' = Some vb -> ruled_out D reg G fuel g s vb).
Proof.
  intros EN. induction vs as [|va vs IH]; intros i sel r H; cbn [hydrate_variants] in H.
  { injection H as <-. destruct sel as [p|].
    - left. split; [discriminate|]. split; auto. intros [|j]; discriminate.
    - right; left. split; auto. split; auto. intros [|j]; discriminate. }
  apply bind_Ok in H as (o & M & H). destruct o as [s'|].
  - pose proof M as M0.
    eapply variant_match_Some with (n := it_intro (va_item va)) in M; [|eauto..].
    destruct (format_inv (hydrate_with D reg fuel) g (it_value (va_item va)) s') as [FO FE].
    destruct (hydrate_format (hydrate_with D reg fuel) g (it_value (va_item va)) s')
      as [v|e| |] eqn:F; try discriminate.
    + destruct sel as [p|]; [discriminate|].
      destruct (FO v eq_refl) as (inputs & g' & PA & HV).
      apply IH in H as [(_ & -> & RO)|[(? & _)|(? & _)]]; try discriminate.
      right; right. split; auto. exists 0, va, v. rewrite Nat.add_0_r.
      split; auto. split; auto. split.
      * eexists _, inputs, g'. split; [exact M|]. split; auto. now apply passes_fresh.
      * intros [|j'] vb NE E; [congruence|]. simpl in E. eauto.
    + destruct (FE e eq_refl) as (inputs & g' & PA & HV).
      assert (ruled_out D reg G fuel g s va) as RO0.
      { right. eexists _, inputs, g', e. split; [exact M|]. split; auto. now apply passes_fresh. }
      apply IH in H as [(NN & -> & RO)|[(-> & -> & RO)|(-> & j & va' & v & -> & E & A & RO)]].
      * left. split; auto. split; auto. intros [|j] vb E; [injection E as <-; auto|eauto].
      * right; left. split; auto. split; auto. intros [|j] vb E; [injection E as <-; auto|eauto].
      * right; right. split; auto. exists (Datatypes.S j), va', v.
        split; [f_equal; f_equal; lia|]. split; auto. split; auto.
        intros [|j'] vb NE E'; [injection E' as <-; auto|]. eapply RO; [|exact E']. lia.
  - eapply variant_match_None with (n := it_intro (va_item va)) in M; [|eauto..].
    assert (ruled_out D reg G fuel g s va) as RO0 by (left; exact M).
    apply IH in H as [(NN & -> & RO)|[(-> & -> & RO)|(-> & j & va' & v & -> & E & A & RO)]].
    * left. split; auto. split; auto. intros [|j] vb E; [injection E as <-; auto|eauto].
    * right; left. split; auto. split; auto. intros [|j] vb E; [injection E as <-; auto|eauto].
    * right; right. split; auto. exists (Datatypes.S j), va', v.
      split; [f_equal; f_equal; lia|]. split; auto. split; auto.
      intros [|j'] vb NE E'; [injection E' as <-; auto|]. eapply RO; [|exact E']. lia.
Qed.

Theorem C17_sum_partial (D : dataset R) G (reg : registry R) fuel g ref inputs h vs v :
  enumerates D G ->
  reg ref = Some (SumL h vs) ->
  hydrate_with D reg (S fuel) g ref inputs = Ok v ->
  exists s i va v',
    v = TVariant v' ref i /\ header_sol G g h inputs s /\
    nth_error vs i = Some va /\ applies D reg G fuel g s va v' /\
    forall j vb, j <> i -> nth_error vs j = Some vb -> ruled_out D reg G fuel g s vb.
Proof.
  intros EN E H. cbn [hydrate_with] in H. unfold hydrate_body in H. rewrite E in H.
  cbn [ok_or bind input_count] in H.
  destruct (Nat.eqb_spec (h_input h) (length inputs)) as [L|]; [|discriminate].
  cbn [hydrate_layout] in H. apply bind_Ok in H as (s & Hs & H).
  apply bind_Ok in H as (sel & Hv & H). destruct sel as [[i v']|]; [|discriminate].
  injection H as <-.
  eapply variants_exact in Hv as [(? & _)|[(_ & ? & _)|(_ & j & va & v & [= -> ->] & A)]]; eauto;
    try congruence.
  exists s, j, va, v. split; auto. split; auto. eapply header_Ok; eauto.
Qed.

(** C18 (what holds).  With declared variables bound by the patterns, hydration only panics in
    the [todo!()]s of the code: ... *)
Definition todos : list string := [
  "hydrate_data: lang string"; "hydrate_data: ambiguity";
  "hydrate_boolean_value: invalid lexical value"; "hydrate_boolean_value: unknown boolean type";
  "hydrate_number_value: invalid lexical value"; "hydrate_byte_string_value: todo";
  "hydrate: no IRI matching the layout"; "hydrate: IRI ambiguity";
  "hydrate: variant ambiguity"; "hydrate: no variant found" ]%string.

Lemma literals_panic k (ref dt : R) ls : forall sel w,
  hydrate_literals k ref dt ls sel = Panic w -> In w todos.
Proof.
  induction ls as [|l ls IH]; intros sel w H; cbn [hydrate_literals] in H.
  { destruct sel; discriminate. }
  destruct (rl_type l) as [i|]; [|injection H as <-; now left].
  destruct (existsb (eqb i) (iris_of dt)); [|eauto].
  destruct (hydrate_literal_value k ref (rl_value l) i) eqn:V; cbn [bind] in H; try discriminate.
  - destruct sel; [injection H as <-; right; now left|eauto].
  - injection H as <-. unfold hydrate_literal_value in V. destruct k; cbn in V; try discriminate.
    + unfold hydrate_boolean_value in V. destruct (eqb i xsd_boolean).
      * destruct (boolean_parse (rl_value l)); [discriminate|]. injection V as <-. simpl; auto.
      * injection V as <-. simpl; auto.
    + unfold hydrate_number_value in V. destruct (is_decimal_type i); try discriminate.
      destruct (decimal_parse (rl_value l)); [discriminate|]. injection V as <-. simpl; auto 10.
    + injection V as <-. simpl; auto 10.
Qed.

Theorem C18_panics_partial (D : dataset R) G (reg : registry R) fuel g ref inputs w :
  enumerates D G -> registry_scoped reg -> registry_bound reg ->
  hydrate_with D reg fuel g ref inputs = Panic w -> In w todos.
Proof.
  intros EN SC BD H.
  assert (post (fun _ : hy_error R => True) (fun w => In w todos) True
    (hydrate_with D reg fuel g ref inputs)) as P.
  { clear H w. revert g ref inputs. induction fuel as [|fuel IH]; intros g ref inputs;
      cbn [hydrate_with]; [simpl; auto|].
    eapply body_post with (U := fun _ => True); eauto.
    - intros q _. repeat split.
    - clear. induction inputs; constructor; auto.
    - intros l E. split; [|auto].
      split; [right; eauto|]. split; [right; eauto|]. split.
      + destruct l; simpl; auto; unfold format_const, pattern_const; auto.
      + destruct l; auto.
        * intros r rf w _. apply literals_panic.
        * left. simpl; auto 15.
        * simpl; auto 15. }
  rewrite H in P. exact P.
Qed.

(** ... hence without sums nor byte strings it never panics on data whose literals are well formed and
    whose identifiers are IRIs.  [U] contains the resources of the dataset, of the inputs
    and of the layouts. *)
Definition literals_well_formed (U : R -> Prop) : Prop :=
  forall r, U r -> length (literals_of r) <= 1 /\
    forall l, In l (literals_of r) -> exists ty, rl_type l = TypeAny ty /\
      (ty = xsd_boolean -> exists b, boolean_lexical (rl_value l) b) /\
      (is_decimal_type ty = true -> exists n, decimal_parse (rl_value l) = Some n).

Definition tame (U : R -> Prop) (l : layout R) : Prop :=
  match l with
  | SumL _ _ => False
  | DataL KByteString _ _ _ => False
  | DataL KBoolean _ _ dt => forall i, In i (iris_of dt) -> i = xsd_boolean
  | IdL _ _ _ => forall r, U r -> exists iri, iris_of r = [iri]
  | _ => True
  end.

Theorem C18_no_panic_partial (D : dataset R) G (reg : registry R) (U : R -> Prop) fuel g ref inputs w :
  enumerates D G -> registry_scoped reg -> registry_bound reg ->
  (forall q, G q -> quad_in U q) -> Forall U inputs ->
  (forall r l, reg r = Some l -> constants_in U l /\ tame U l) ->
  literals_well_formed U ->
  hydrate_with D reg fuel g ref inputs <> Panic w.
Proof.
  intros EN SC BD GU IU TM WF H.
  assert (post (fun _ : hy_error R => True) (fun w => False) True
    (hydrate_with D reg fuel g ref inputs)) as P; [|rewrite H in P; exact P].
  clear H w. revert g ref inputs IU. induction fuel as [|fuel IH]; intros g ref inputs IU;
    cbn [hydrate_with]; [simpl; auto|].
  eapply body_post with (U := U); eauto.
  intros l E. destruct (TM _ _ E) as [CI TL]. split; [|auto].
  split; [right; eauto|]. split; [right; eauto|]. split; auto.
  destruct l; auto.
  intros r rf w Ur HL. destruct (WF r Ur) as [LL LW].
  destruct (literals_of r) as [|l [|? ?]]; simpl in LL; [discriminate| |lia].
  destruct (LW l (or_introl eq_refl)) as (ty & ET & WB & WN).
  cbn [hydrate_literals] in HL. rewrite ET in HL.
  destruct (existsb (eqb ty) (iris_of datatype)) eqn:B; [|discriminate].
  apply existsb_iris in B.
  destruct k; simpl in HL.
  - unfold hydrate_boolean_value in HL. cbn [tame] in TL. rewrite (TL _ B), eqb_refl in HL.
    destruct WB as (b & WB); [auto|]. apply boolean_parse_lexical in WB. rewrite WB in HL. discriminate.
  - unfold hydrate_number_value in HL. destruct (is_decimal_type ty); [|discriminate].
    destruct WN as (n & WN); auto. rewrite WN in HL. discriminate.
  - contradiction.
  - discriminate.
Qed.

(** C19.  Nodes of a linked list: each node has one match, whose item hydrates to the value and whose
    link is the next node. *)
Inductive LinkedList D (reg : registry R) G g s (node : item_layout R) (tail : R)
  : R -> list (typed_value R) -> Prop :=
| LL_nil : LinkedList D reg G g s node tail tail []
| LL_cons head s' next inputs g' fuel v vs :
    head <> tail ->
    the_solution G g (fresh (s ++ [Some head]) (1 + it_intro node)) (it_dataset node) s' ->
    passes g s' (it_value node) inputs g' ->
    hydrate_with D reg fuel g' (vf_layout (it_value node)) inputs = Ok v ->
    binds s' (length s + 1) next ->
    LinkedList D reg G g s node tail next vs ->
    LinkedList D reg G g s node tail head (v :: vs).

(** A linked list is hydrated to its items in link order (first half of C19). *)
Theorem C19_link_order (D : dataset R) G (reg : registry R) g ref inputs h node hd tl s head tail vs :
  enumerates D G -> registry_scoped reg ->
  reg ref = Some (OrderedL h node hd tl) -> length inputs = h_input h ->
  header_sol G g h inputs s -> pinst (binds s) hd head -> pinst (binds s) tl tail ->
  LinkedList D reg G g s node tail head vs ->
  exists N, forall fuel, N <= fuel -> hydrate_with D reg fuel g ref inputs = Ok (TList vs ref).
Proof.
  intros EN SC E L HS P1 P2 LL.
  assert (SL : length s = h_input h + h_intro h).
  { apply header_length in HS. congruence. }
  destruct (SC _ _ E) as [S1 S2].
  assert (exists N, forall fuel, N <= fuel ->
     hydrate_nodes D (hydrate_with D reg fuel) fuel g ref s node head tail = Ok vs) as (N & HN).
  { assert (exists N, forall fuel fuel', N <= fuel -> N <= fuel' ->
     hydrate_nodes D (hydrate_with D reg fuel) fuel' g ref s node head tail = Ok vs) as (N & HN);
      [|exists N; auto].
    clear P1. induction LL as [|head s' next inputs' g' fuel v vs NE TS PA HV BN LL (N & HN)].
    - exists 1. intros fuel [|fuel'] L1 L2; [lia|]. cbn [hydrate_nodes]. now rewrite eqb_refl.
    - exists (S (N + fuel)). intros f [|f'] L1 L2; [lia|]. cbn [hydrate_nodes].
      apply eqb_neq in NE. rewrite NE.
      rewrite (the_solution_required D G EN g (it_dataset node) _ _) with (s' := s');
        [|unfold sintro, spush; rewrite !app_length, repeat_length; simpl;
          intros x Hx; apply S2 in Hx; lia|exact TS].
      cbn [bind].
      rewrite (format_passes D reg f g s' (it_value node) inputs' g' PA).
      rewrite (C11_fuel D reg fuel f) by (congruence || lia). rewrite HV. cbn [bind].
      apply sget_binds in BN. rewrite BN. cbn [unwrap bind].
      rewrite HN by lia. reflexivity. }
  exists (S N). intros [|fuel] LE; [lia|].
  rewrite (C12_hydrate_arity_ok D reg fuel g ref inputs _ E) by (simpl; congruence).
  cbn [hydrate_layout].
  rewrite (header_complete D G EN reg g ref (OrderedL h node hd tl) h inputs s);
    [|rewrite L; auto|auto|split; [auto|simpl; congruence]].
  cbn [bind]. apply papply_pinst in P1, P2. rewrite P1, P2. cbn [unwrap bind].
  rewrite HN by lia. reflexivity.
Qed.

(** ... and conversely a hydrated list is the list of the items in link order. *)
Theorem C19_link_order_only (D : dataset R) G (reg : registry R) fuel g ref inputs h node hd tl v :
  enumerates D G ->
  reg ref = Some (OrderedL h node hd tl) ->
  hydrate_with D reg fuel g ref inputs = Ok v ->
  exists s head tail vs, v = TList vs ref /\
    header_sol G g h inputs s /\ pinst (binds s) hd head /\ pinst (binds s) tl tail /\
    LinkedList D reg G g s node tail head vs.
Proof.
  intros EN E H. destruct fuel as [|fuel]; [discriminate|].
  cbn [hydrate_with] in H. unfold hydrate_body in H. rewrite E in H.
  cbn [ok_or bind input_count] in H.
  destruct (Nat.eqb_spec (h_input h) (length inputs)) as [L|]; [|discriminate].
  cbn [hydrate_layout] in H. apply bind_Ok in H as (s & Hs & H).
  apply bind_Ok in H as (head & Hh & H). apply bind_Ok in H as (tail & Ht & H).
  apply bind_Ok in H as (vs & Hv & H). injection H as <-.
  apply unwrap_Ok, papply_pinst in Hh, Ht.
  exists s, head, tail, vs. split; auto. split; [eapply header_Ok; eauto|]. split; auto. split; auto.
  clear Hh. revert head vs Hv.
  assert (forall f head vs,
    hydrate_nodes D (hydrate_with D reg fuel) f g ref s node head tail = Ok vs ->
    LinkedList D reg G g s node tail head vs) as A; [|intros; eapply A; eauto].
  induction f as [|f IH]; intros head vs Hv; cbn [hydrate_nodes] in Hv; [discriminate|].
  destruct (eqb_spec head tail) as [->|NE].
  - injection Hv as <-. constructor.
  - apply bind_Ok in Hv as (s' & M & Hv). apply bind_Ok in Hv as (v & V & Hv).
    apply bind_Ok in Hv as (next & Hn & Hv). apply bind_Ok in Hv as (vs' & Hvs & Hv).
    injection Hv as <-. eapply match_required_Ok in M; eauto.
    destruct (format_inv (hydrate_with D reg fuel) g (it_value node) s') as [FO _].
    destruct (FO v V) as (inputs' & g' & PA & HV).
    eapply LL_cons; eauto. apply sget_binds. now apply unwrap_Ok in Hn.
Qed.

(** C19, second half (what holds).  Hydration terminates when the layouts are not recursive
    ([depth] decreases) and the lists of the dataset are finite ([rank] decreases along the
    links).  Missing: cyclic lists, see [C19_terminates_refuted]. *)
Theorem C19_terminates_partial (D : dataset R) G (reg : registry R) (depth : R -> nat) (K : nat) :
  enumerates D G ->
  (forall r l r', reg r = Some l -> uses l r' -> depth r' < depth r) ->
  (forall r h node hd tl, reg r = Some (OrderedL h node hd tl) ->
     exists rank : R -> nat, (forall x, rank x <= K) /\
       forall s, length s = h_input h + h_intro h ->
       forall g head s' next,
       solution G (fresh (s ++ [Some head]) (1 + it_intro node)) (map (at_graph g) (it_dataset node)) s' ->
       binds s' (length s + 1) next -> rank next < rank head) ->
  forall fuel g ref inputs, depth ref + K + 1 < fuel ->
  hydrate_with D reg fuel g ref inputs <> OutOfFuel.
Proof.
  intros EN DD RK fuel g ref inputs L H.
  assert (post (fun _ : hy_error R => True) (fun w => True) False
    (hydrate_with D reg fuel g ref inputs)) as P; [|rewrite H in P; exact P].
  clear H. revert fuel g ref inputs L. induction fuel as [|fuel IH]; intros g ref inputs L; [lia|].
  cbn [hydrate_with]. eapply body_post with (U := fun _ => True); eauto.
  - intros q _. repeat split.
  - clear. induction inputs; constructor; auto.
  - intros l E. split.
    + split; [left; intros ?; exact I|]. split; [left; intros ?; exact I|]. split.
      * destruct l; simpl; auto; unfold format_const, pattern_const; auto.
      * destruct l; auto. right. destruct (RK _ _ _ _ _ E) as (rank & RK1 & RK2).
        exists rank. split; [exact RK2|]. intros r. specialize (RK1 r). lia.
    + intros r U g' inputs' _. apply IH. specialize (DD _ _ _ E U). lia.
Qed.

End Theorems.

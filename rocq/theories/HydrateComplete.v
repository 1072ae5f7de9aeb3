(** * Hydration is complete *)

From Coq Require Import String List Bool Arith NArith Permutation Sorted Lia Qcanon.
Import ListNotations.
From Verif Require Import Base BaseProofs Orders PatternModel MatchingModel MatchingSpec
  MatchingProofs ValueModel ValueProofs LayoutModel HydrateModel HydrateSpec HydrateProofs
  HydrateSound HydrateDet.
Open Scope list_scope.
Open Scope nat_scope.

Section Complete.
Context {R : Type} {CR : Cmp R} {LR : CmpLaws R} {IR : Interp R} {X : Xsd}.
Variable D : dataset R.
Variable G : quad R -> Prop.
Hypothesis EN : enumerates D G.
Variable reg : registry R.
Hypothesis RS : registry_sorted reg.
Hypothesis SC : registry_scoped reg.

(** From some amount of fuel on. *)
Definition eventually (P : nat -> Prop) : Prop := exists N, forall fuel, N <= fuel -> P fuel.

Lemma ev_and P Q : eventually P -> eventually Q -> eventually (fun n => P n /\ Q n).
Proof.
  intros (N & H) (M & K). exists (N + M). intros f L. split; [apply H|apply K]; lia.
Qed.

Lemma ev_imp (P Q : nat -> Prop) : (forall n, P n -> Q n) -> eventually P -> eventually Q.
Proof. intros I (N & H). exists N. auto. Qed.

Lemma ev_all {A} (P : A -> nat -> Prop) l :
  (forall a, In a l -> eventually (P a)) -> eventually (fun n => forall a, In a l -> P a n).
Proof.
  induction l as [|a l IH]; intros H.
  - exists 0. intros f _ a [].
  - eapply ev_imp; [|apply ev_and; [apply (H a); now left|apply IH; intros; apply H; now right]].
    cbv beta. intros n [A1 A2] b [<-|I]; auto.
Qed.

Lemma ev_S (P : nat -> Prop) : eventually P -> eventually (fun n => match n with 0 => False | S n => P n end).
Proof. intros (N & H). exists (S N). intros [|f] L; [lia|]. apply H. lia. Qed.

Lemma ev_ge K : eventually (fun n => K <= n).
Proof. exists K. auto. Qed.

Lemma ev_true (P : nat -> Prop) : (forall n, P n) -> eventually P.
Proof. intros H. exists 0. auto. Qed.

Notation rec fuel := (hydrate_with D reg fuel).

Definition yields g ref inputs v : Prop :=
  eventually (fun n => hydrate_with D reg n g ref inputs = Ok v).
Definition fails g ref inputs : Prop :=
  eventually (fun n => exists e, hydrate_with D reg n g ref inputs = Err e).

(** ** Literals *)

Lemma literals_other k ref dt ls : forall sel,
  Forall (other_type dt) ls ->
  hydrate_literals (R := R) k ref dt ls sel = ok_or NoMatchingLiteral sel.
Proof.
  induction ls as [|l ls IH]; intros sel F; auto.
  inversion F as [|? ? (ty & T & N) F']; subst. cbn [hydrate_literals]. rewrite T.
  destruct (existsb (eqb ty) (iris_of dt)) eqn:B; [|auto].
  apply existsb_iris in B. contradiction.
Qed.

Lemma literals_other_app k ref dt pre ls : forall sel,
  Forall (other_type dt) pre ->
  hydrate_literals (R := R) k ref dt (pre ++ ls) sel = hydrate_literals k ref dt ls sel.
Proof.
  induction pre as [|l pre IH]; intros sel F; auto.
  inversion F as [|? ? (ty & T & N) F']; subst. cbn [hydrate_literals app]. rewrite T.
  destruct (existsb (eqb ty) (iris_of dt)) eqn:B; [|auto].
  apply existsb_iris in B. contradiction.
Qed.

Lemma literals_typed k ref dt l ls sel ty :
  has_type dt l ty ->
  hydrate_literals (R := R) k ref dt (l :: ls) sel =
  (let* v := hydrate_literal_value k ref (rl_value l) ty in
   match sel with
   | Some _ => Panic "hydrate_data: ambiguity"
   | None => hydrate_literals k ref dt ls (Some v)
   end).
Proof.
  intros [T I]. cbn [hydrate_literals]. rewrite T. apply existsb_iris in I. now rewrite I.
Qed.

Lemma number_type_Err ref v ty :
  is_decimal_type ty = false ->
  hydrate_literal_value (R := R) KNumber ref v ty = Err (UnknownNumberDatatype ty).
Proof. intros H. simpl. unfold hydrate_number_value. now rewrite H. Qed.

(** ** Sub-values *)

Lemma format_passes fuel g s vf inputs g' :
  passes g s vf inputs g' ->
  hydrate_format (rec fuel) g vf s = rec fuel g' (vf_layout vf) inputs.
Proof.
  intros [A B]. unfold hydrate_format.
  apply select_inputs_Ok in A. apply select_graph_Ok in B. now rewrite A, B.
Qed.

Definition vyields g s vf v : Prop :=
  eventually (fun n => hydrate_format (rec n) g vf s = Ok v).
Definition vfails g s vf : Prop :=
  eventually (fun n => exists e, hydrate_format (rec n) g vf s = Err e).

Lemma header_length g h inputs s :
  header_sol G g h inputs s -> length s = length inputs + h_intro h.
Proof.
  intros H. apply the_solution_length in H. now rewrite H, fresh_length, map_length.
Qed.

Lemma header_complete g ref l h inputs s :
  below_vars (length inputs + h_intro h) (h_dataset h) ->
  header_sol G g h inputs s -> layout_for reg ref inputs l ->
  match_header D g ref h inputs = Ok s.
Proof.
  intros B S _. unfold match_header. eapply the_solution_required; eauto.
  unfold sintro, from_inputs. rewrite app_length, map_length, repeat_length. auto.
Qed.

Lemma header_literal g ref l h inputs s :
  layout_for reg ref inputs l ->
  match l with UnitL h' _ | DataL _ h' _ _ | IdL h' _ _ => h' = h | _ => False end ->
  header_sol G g h inputs s -> match_header D g ref h inputs = Ok s.
Proof.
  intros LF L HS. eapply header_complete; eauto. destruct LF as [E A].
  pose proof (SC _ _ E) as B. destruct l; try contradiction; subst; rewrite (A 1); auto.
Qed.

Lemma header_complete_bad g ref h inputs :
  below_vars (length inputs + h_intro h) (h_dataset h) ->
  header_bad G g h inputs -> exists e, match_header D g ref h inputs = Err e.
Proof.
  intros B S. unfold match_header.
  assert (B' : below_vars (length (sintro (from_inputs inputs) (h_intro h))) (h_dataset h)).
  { unfold sintro, from_inputs. rewrite app_length, map_length, repeat_length. auto. }
  destruct S as [S|S]; eexists;
    [eapply no_solution_required|eapply several_solutions_required]; eauto.
Qed.

Lemma body_layout fuel g ref inputs l :
  layout_for reg ref inputs l ->
  hydrate_body D reg (rec fuel) fuel g ref inputs = hydrate_layout D (rec fuel) fuel g ref l inputs.
Proof.
  intros [E A]. unfold hydrate_body. rewrite E. cbn [ok_or bind].
  rewrite <- arity_input_count. destruct (arity l) as [n|]; auto.
  rewrite (A n); auto. now rewrite Nat.eqb_refl.
Qed.

Lemma yields_layout g ref inputs l v :
  layout_for reg ref inputs l ->
  eventually (fun n => hydrate_layout D (rec n) n g ref l inputs = Ok v) ->
  yields g ref inputs v.
Proof.
  intros LF H. eapply ev_imp; [|apply ev_S, H]. intros [|n] E; [contradiction|].
  cbn [hydrate_with]. now rewrite (body_layout n g ref inputs l LF).
Qed.

Lemma fails_layout g ref inputs l :
  layout_for reg ref inputs l ->
  eventually (fun n => exists e, hydrate_layout D (rec n) n g ref l inputs = Err e) ->
  fails g ref inputs.
Proof.
  intros LF H. eapply ev_imp; [|apply ev_S, H]. intros [|n] E; [contradiction|].
  cbn [hydrate_with]. now rewrite (body_layout n g ref inputs l LF).
Qed.

Definition item_scoped (s : subst R) (it : item_layout R) : Prop :=
  below_vars (length s + it_intro it) (it_dataset it).

Lemma item_intro_scoped s it :
  item_scoped s it -> below_vars (length (sintro s (it_intro it))) (it_dataset it).
Proof. unfold sintro. now rewrite app_length, repeat_length. Qed.

Lemma node_scoped (s : subst R) (node : item_layout R) head :
  below_vars (length s + 2 + it_intro node) (it_dataset node) ->
  below_vars (length (sintro (spush s (Some head)) (1 + it_intro node))) (it_dataset node).
Proof.
  unfold sintro, spush. rewrite !app_length, repeat_length. cbn [length].
  now replace (length s + 1 + (1 + it_intro node)) with (length s + 2 + it_intro node) by lia.
Qed.

Lemma format_fresh fuel g vf s n :
  hydrate_format (rec fuel) g vf s = hydrate_format (rec fuel) g vf (fresh s n).
Proof.
  unfold hydrate_format, select_inputs.
  assert (P : forall p : pattern R,
    into_resource (papply s p) = into_resource (papply (fresh s n) p)).
  { intros p. destruct (into_resource (papply s p)) as [r|] eqn:E.
    - symmetry. apply papply_pinst. rewrite <- (pinst_fresh s n). now apply papply_pinst.
    - destruct (into_resource (papply (fresh s n) p)) as [r|] eqn:E'; auto.
      apply papply_pinst in E'. rewrite <- (pinst_fresh s n) in E'. apply papply_pinst in E'. congruence. }
  assert (M : mapM (fun p => unwrap (E := hy_error R) "select_inputs" (into_resource (papply s p)))
                (vf_input vf) =
              mapM (fun p => unwrap "select_inputs" (into_resource (papply (fresh s n) p)))
                (vf_input vf)).
  { induction (vf_input vf) as [|p ps IH]; auto. cbn [mapM]. now rewrite P, IH. }
  rewrite M. clear M. destruct (mapM _ (vf_input vf)); auto. cbn [bind].
  unfold select_graph. destruct (vf_graph vf) as [[p|]|]; auto. now rewrite P.
Qed.

Lemma items_all g vf : forall ms vs fuel,
  Forall2 (fun s v => hydrate_format (rec fuel) g vf s = Ok v) ms vs ->
  hydrate_items (rec fuel) g vf (map inr ms) = Ok vs.
Proof.
  intros ms vs fuel F. induction F as [|s v ms vs H F IH]; auto.
  cbn [hydrate_items map]. now rewrite H, IH.
Qed.

Lemma items_fail g vf fuel : forall ms s,
  (forall s, In s ms -> (exists v, hydrate_format (rec fuel) g vf s = Ok v) \/
                        (exists e, hydrate_format (rec fuel) g vf s = Err e)) ->
  In s ms -> (exists e, hydrate_format (rec fuel) g vf s = Err e) ->
  exists e, hydrate_items (rec fuel) g vf (map inr ms) = Err e.
Proof.
  induction ms as [|s0 ms IH]; intros s A I E; [contradiction|].
  cbn [hydrate_items map].
  destruct (A s0 (or_introl eq_refl)) as [(v & V)|(e & V)]; rewrite V; cbn [bind]; eauto.
  destruct I as [->|I].
  - destruct E as (e & E). congruence.
  - destruct (IH s) as (e & H); auto.
    + intros; apply A; now right.
    + rewrite H. cbn. eauto.
Qed.

Theorem semantics_complete strict : strict = true ->
  (forall g ref inputs v, Means G reg strict g ref inputs v -> yields g ref inputs v) /\
  (forall g ref inputs, Rejects G reg strict g ref inputs -> fails g ref inputs).
Proof.
  intros ST.
  pose (P6 := fun g s fs m =>
     (forall k f, In (k, f) fs -> item_scoped s (f_item f)) ->
     eventually (fun n => forall ref m0, hydrate_fields D (rec n) g ref s fs m0 =
       Ok (fold_left (fun m kv => bt_insert (fst kv) (snd kv) m) m m0))).
  pose (P7 := fun g s fs =>
     (forall k f, In (k, f) fs -> item_scoped s (f_item f)) ->
     eventually (fun n => forall ref m0, exists e, hydrate_fields D (rec n) g ref s fs m0 = Err e)).
  pose (P8 := fun g s its vs =>
     (forall it, In it its -> item_scoped s it) ->
     eventually (fun n => forall ref i, hydrate_tuple D (rec n) g ref s i its = Ok vs)).
  pose (P9 := fun g s its =>
     (forall it, In it its -> item_scoped s it) ->
     eventually (fun n => forall ref i, exists e, hydrate_tuple D (rec n) g ref s i its = Err e)).
  pose (P10 := fun g vf sols vs =>
     eventually (fun n => Forall2 (fun s v => hydrate_format (rec n) g vf s = Ok v) sols vs)).
  pose (P11 := fun g s node hd tl vs =>
     below_vars (length s + 2 + it_intro node) (it_dataset node) ->
     exists K, eventually (fun n => forall ref fuel, K <= fuel ->
        hydrate_nodes D (rec n) fuel g ref s node hd tl = Ok vs)).
  pose (P12 := fun g s node hd tl =>
     below_vars (length s + 2 + it_intro node) (it_dataset node) ->
     exists K, eventually (fun n => forall ref fuel, K <= fuel ->
        exists e, hydrate_nodes D (rec n) fuel g ref s node hd tl = Err e)).
  pose (variant_scoped := fun (s : subst R) (va : variant R) => below_vars (length s) (it_dataset (va_item va))).
  pose (P13 := fun g s va =>
     variant_scoped s va ->
     eventually (fun n => forall ref i vs sel,
        hydrate_variants D (rec n) g ref s i (va :: vs) sel =
        hydrate_variants D (rec n) g ref s (S i) vs sel)).
  pose (P14 := fun g s vs =>
     (forall va, In va vs -> variant_scoped s va) ->
     eventually (fun n => forall ref i sel, hydrate_variants D (rec n) g ref s i vs sel = Ok sel)).
  pose (P15 := fun g s i vs j v =>
     (forall va, In va vs -> variant_scoped s va) ->
     eventually (fun n => forall ref,
        hydrate_variants D (rec n) g ref s i vs None = Ok (Some (j, v)))).
  pose (P16 := fun g s (selb : bool) vs =>
     (forall va, In va vs -> variant_scoped s va) ->
     eventually (fun n => forall ref i sel, (selb = false -> sel = None) ->
        exists e, hydrate_variants D (rec n) g ref s i vs sel = Err e)).
  pose (P5 := fun g s vf => eventually (fun n =>
     (exists v, hydrate_format (rec n) g vf s = Ok v) \/
     (exists e, hydrate_format (rec n) g vf s = Err e))).
  destruct (semantics_ind R CR IR X G reg strict yields fails vyields vfails P5
    P6 P7 P8 P9 P10 P11 P12 P13 P14 P15 P16) as (I1 & I2 & _);
    [..|split; [exact I1|exact I2]];
    unfold P5, P6, P7, P8, P9, P10, P11, P12, P13, P14, P15, P16 in *;
    clear P5 P6 P7 P8 P9 P10 P11 P12 P13 P14 P15 P16.
  (* Means *)
  - intros g ref inputs LF. eapply yields_layout; eauto. apply ev_true. reflexivity.
  - intros g ref inputs h c s LF HS. eapply yields_layout; eauto. apply ev_true.
    intros n. cbn [hydrate_layout]. rewrite (header_literal g ref _ h inputs s LF); auto.
  - intros g ref inputs k h res dt s r pre l post ty t LF HS PI E T F1 F2 DE.
    eapply yields_layout; eauto. apply ev_true.
    intros n. cbn [hydrate_layout]. rewrite (header_literal g ref _ h inputs s LF); auto.
    cbn [bind]. apply papply_pinst in PI. rewrite PI. cbn [unwrap bind].
      rewrite E, literals_other_app, (literals_typed _ _ _ _ _ _ ty) by auto.
      apply literal_value_Ok in DE. rewrite DE. cbn [bind].
      now rewrite literals_other.
  - intros g ref inputs h res pat s r iri LF HS PI E.
    eapply yields_layout; eauto. apply ev_true.
    intros n. cbn [hydrate_layout]. rewrite (header_literal g ref _ h inputs s LF); auto.
    cbn [bind]. apply papply_pinst in PI. rewrite PI. cbn [unwrap bind]. now rewrite E.
  - intros g ref inputs h fs s m LF HS F IH.
    destruct (LF) as [E A]. pose proof (SC _ _ E) as [B1 B2]. cbn in A.
    rewrite <- (A _ eq_refl) in B1, B2.
    eapply yields_layout; eauto. eapply ev_imp; [|apply IH].
    + intros n H. cbv beta in H. cbn [hydrate_layout].
      rewrite (header_complete g ref _ h inputs s B1 HS LF). cbn [bind]. rewrite H. cbn [bind].
      rewrite collect_sorted; auto. apply (Fields_sorted _ _ _ _ _ _ _ F). apply (RS _ _ E).
    + intros k f I. unfold item_scoped. rewrite (header_length _ _ _ _ HS). eauto.
  - intros g ref inputs h vs s i v LF HS O IH.
    destruct (LF) as [E A]. pose proof (SC _ _ E) as [B1 B2]. cbn in A.
    rewrite <- (A _ eq_refl) in B1, B2.
    eapply yields_layout; eauto. eapply ev_imp; [|apply IH].
    + intros n H. cbv beta in H. cbn [hydrate_layout].
      rewrite (header_complete g ref _ h inputs s B1 HS LF). cbn [bind]. now rewrite H.
    + intros va I. unfold variant_scoped. rewrite (header_length _ _ _ _ HS). eauto.
  - intros g ref inputs h it s sols vals l LF HS N S I IH Pm Sl.
    destruct (LF) as [E A]. pose proof (SC _ _ E) as [B1 B2]. cbn in A.
    rewrite <- (A _ eq_refl) in B1, B2.
    eapply yields_layout; eauto.
    assert (B3 : below_vars (length (sintro s (it_intro it))) (it_dataset it)).
    { apply item_intro_scoped. unfold item_scoped. now rewrite (header_length _ _ _ _ HS). }
    pose (good_sols := good (stream D (with_default_graph g (it_dataset it)) (sintro s (it_intro it)))).
    assert (PS : Permutation sols good_sols).
    { apply NoDup_Permutation; auto; [apply (good_NoDup D G EN)|].
      intros x. rewrite S. symmetry. apply (solution_good D G EN); auto. }
    eapply ev_imp; [|apply IH]. cbv beta. intros n F. cbn [hydrate_layout].
    rewrite (header_complete g ref _ h inputs s B1 HS LF). cbn [bind].
    rewrite (stream_good D G EN g (it_dataset it) _ B3). fold good_sols.
    destruct (Permutation_Forall2 PS F) as (vals' & PV & F').
    rewrite (items_all _ _ _ _ _ F'). cbn [bind]. do 2 f_equal.
    rewrite (sort_perm_eq vals' l); [now apply sort_id|]. now rewrite <- PV.
  - intros g ref inputs h node hd tl s head tail l LF HS P1 P2 N IH.
    destruct (LF) as [E A]. pose proof (SC _ _ E) as [B1 B2]. cbn in A.
    rewrite <- (A _ eq_refl) in B1, B2.
    destruct IH as (K & IH); [now rewrite (header_length _ _ _ _ HS)|].
    eapply yields_layout; eauto. eapply ev_imp; [|apply ev_and; [apply IH|apply (ev_ge K)]].
    intros n [H L]. cbn [hydrate_layout].
    rewrite (header_complete g ref _ h inputs s B1 HS LF). apply papply_pinst in P1, P2.
    cbn [bind]. rewrite P1, P2. cbn [unwrap bind]. now rewrite H.
  - intros g ref inputs h its s l LF HS T IH.
    destruct (LF) as [E A]. pose proof (SC _ _ E) as [B1 B2]. cbn in A.
    rewrite <- (A _ eq_refl) in B1, B2.
    eapply yields_layout; eauto. eapply ev_imp; [|apply IH].
    + intros n H. cbv beta in H. cbn [hydrate_layout].
      rewrite (header_complete g ref _ h inputs s B1 HS LF). cbn [bind]. now rewrite H.
    + intros it I. unfold item_scoped. rewrite (header_length _ _ _ _ HS). eauto.
  (* Rejects *)
  - intros g ref inputs E. exists 1. intros [|n] L; [lia|]. cbn [hydrate_with].
    unfold hydrate_body. rewrite E. cbn. eauto.
  - intros g ref inputs l n E A L. exists 1. intros [|m] L'; [lia|]. cbn [hydrate_with].
    unfold hydrate_body. rewrite E. cbn [ok_or bind]. rewrite <- arity_input_count, A.
    destruct (Nat.eqb_spec n (length inputs)); [congruence|eauto].
  - intros g ref inputs LF. eapply fails_layout; eauto. apply ev_true. intros n.
    cbn [hydrate_layout]. eauto.
  - intros g ref inputs l h LF M HB. eapply fails_layout; eauto. apply ev_true. intros n.
    destruct (LF) as [E A]. pose proof (SC _ _ E) as B.
    destruct l; try contradiction; subst; cbn in A, B; specialize (A _ eq_refl); cbn [hydrate_layout];
      (edestruct (header_complete_bad g ref) as (e & ->); [|exact HB|cbn [bind]; eauto]);
      rewrite A; cbn; tauto.
  - intros g ref inputs k h res dt s r LF HS PI F.
    eapply fails_layout; eauto. apply ev_true. intros n. cbn [hydrate_layout].
    rewrite (header_literal g ref _ h inputs s LF); auto.
    cbn [bind]. apply papply_pinst in PI. rewrite PI. cbn [unwrap bind].
      rewrite literals_other by auto. cbn. eauto.
  - intros g ref inputs h res dt s r pre l post ty LF HS PI E T DT F.
    eapply fails_layout; eauto. apply ev_true. intros n. cbn [hydrate_layout].
    rewrite (header_literal g ref _ h inputs s LF); auto.
    cbn [bind]. apply papply_pinst in PI. rewrite PI. cbn [unwrap bind]. rewrite E.
      destruct F as [F|(pre1 & l1 & pre2 & ty1 & t1 & -> & F1 & F2 & T1 & DE)].
      * rewrite literals_other_app, (literals_typed _ _ _ _ _ _ ty), number_type_Err by auto.
        cbn. eauto.
      * rewrite <- app_assoc, <- app_comm_cons.
        rewrite literals_other_app, (literals_typed _ _ _ _ _ _ ty1) by auto.
        apply literal_value_Ok in DE. rewrite DE. cbn [bind].
        rewrite literals_other_app, (literals_typed _ _ _ _ _ _ ty), number_type_Err by auto.
        cbn. eauto.
  - intros g ref inputs h fs s LF HS F IH.
    destruct (LF) as [E A]. pose proof (SC _ _ E) as [B1 B2]. cbn in A.
    rewrite <- (A _ eq_refl) in B1, B2.
    eapply fails_layout; eauto. eapply ev_imp; [|apply IH].
    + intros n H. cbv beta in H. cbn [hydrate_layout].
      rewrite (header_complete g ref _ h inputs s B1 HS LF). cbn [bind].
      destruct (H ref []) as (e & ->). cbn. eauto.
    + intros k f I. unfold item_scoped. rewrite (header_length _ _ _ _ HS). eauto.
  - intros g ref inputs h vs s LF HS O IH.
    destruct (LF) as [E A]. pose proof (SC _ _ E) as [B1 B2]. cbn in A.
    rewrite <- (A _ eq_refl) in B1, B2.
    eapply fails_layout; eauto. eapply ev_imp; [|apply IH].
    + intros n H. cbv beta in H. cbn [hydrate_layout].
      rewrite (header_complete g ref _ h inputs s B1 HS LF). cbn [bind].
      destruct (H ref 0 None) as (e & ->); auto. cbn. eauto.
    + intros va I. unfold variant_scoped. rewrite (header_length _ _ _ _ HS). eauto.
  - intros g ref inputs h it s s' LF HS S VR IH _ AL.
    destruct (LF) as [E A]. pose proof (SC _ _ E) as [B1 B2]. cbn in A.
    rewrite <- (A _ eq_refl) in B1, B2. specialize (AL ST).
    eapply fails_layout; eauto.
    assert (B3 : below_vars (length (sintro s (it_intro it))) (it_dataset it)).
    { apply item_intro_scoped. unfold item_scoped. now rewrite (header_length _ _ _ _ HS). }
    pose (good_sols := good (stream D (with_default_graph g (it_dataset it)) (sintro s (it_intro it)))).
    assert (AG := fun s0 (I : In s0 good_sols) =>
      AL s0 (proj1 (solution_good D G EN g (it_dataset it) (sintro s (it_intro it)) B3 s0) I)).
    apply ev_all in AG.
    eapply ev_imp; [|apply ev_and; [apply AG|apply IH]]. cbv beta. intros n [H1 H2].
    cbn [hydrate_layout]. rewrite (header_complete g ref _ h inputs s B1 HS LF). cbn [bind].
    rewrite (stream_good D G EN g (it_dataset it) _ B3). fold good_sols.
    destruct (items_fail g (it_value it) n good_sols s') as (e & ->); auto; [|cbn; eauto].
    apply (solution_good D G EN); auto.
  - intros g ref inputs h node hd tl s head tail LF HS P1 P2 N IH.
    destruct (LF) as [E A]. pose proof (SC _ _ E) as [B1 B2]. cbn in A.
    rewrite <- (A _ eq_refl) in B1, B2.
    destruct IH as (K & IH); [now rewrite (header_length _ _ _ _ HS)|].
    eapply fails_layout; eauto. eapply ev_imp; [|apply ev_and; [apply IH|apply (ev_ge K)]].
    intros n [H L]. cbn [hydrate_layout].
    rewrite (header_complete g ref _ h inputs s B1 HS LF). apply papply_pinst in P1, P2.
    cbn [bind]. rewrite P1, P2. cbn [unwrap bind].
    destruct (H ref n) as (e & ->); auto. cbn. eauto.
  - intros g ref inputs h its s LF HS T IH.
    destruct (LF) as [E A]. pose proof (SC _ _ E) as [B1 B2]. cbn in A.
    rewrite <- (A _ eq_refl) in B1, B2.
    eapply fails_layout; eauto. eapply ev_imp; [|apply IH].
    + intros n H. cbv beta in H. cbn [hydrate_layout].
      rewrite (header_complete g ref _ h inputs s B1 HS LF). cbn [bind].
      destruct (H ref 0) as (e & ->). cbn. eauto.
    + intros it I. unfold item_scoped. rewrite (header_length _ _ _ _ HS). eauto.
  (* Sub-values *)
  - intros g s vf inputs g' v PA M IH. eapply ev_imp; [|apply IH]. cbv beta. intros n H.
    now rewrite (format_passes _ _ _ _ _ _ PA).
  - intros g s vf inputs g' PA M IH. eapply ev_imp; [|apply IH]. cbv beta. intros n H.
    now rewrite (format_passes _ _ _ _ _ _ PA).
  - intros g s vf v V IH. eapply ev_imp; [|apply IH]. cbv beta. eauto.
  - intros g s vf V IH. eapply ev_imp; [|apply IH]. cbv beta. eauto.
  (* Fields *)
  - intros g s _. apply ev_true. reflexivity.
  - intros g s k f fs s' v m IS VM A F B B0.
    assert (B1 := item_intro_scoped _ _ (B0 _ _ (or_introl eq_refl))).
    eapply ev_imp; [|apply ev_and; [apply A|apply B; intros; eapply B0; right; eauto]].
    cbv beta. intros n [HV HF] ref m0. cbn [hydrate_fields].
    erewrite the_solution_match; eauto. cbn [bind]. rewrite HV. cbn [bind]. now rewrite HF.
  - intros g s k f fs m IN Q F B B0.
    assert (B1 := item_intro_scoped _ _ (B0 _ _ (or_introl eq_refl))).
    eapply ev_imp; [|apply B; intros; eapply B0; right; eauto].
    cbv beta. intros n HF ref m0. cbn [hydrate_fields].
    erewrite no_solution_match; eauto. cbn [bind]. now rewrite Q.
  - intros g s k f fs IS B0.
    assert (B1 := item_intro_scoped _ _ (B0 _ _ (or_introl eq_refl))).
    apply ev_true. intros n ref m0. cbn [hydrate_fields].
    erewrite several_solutions_match; eauto. cbn. eauto.
  - intros g s k f fs IN Q B0.
    assert (B1 := item_intro_scoped _ _ (B0 _ _ (or_introl eq_refl))).
    apply ev_true. intros n ref m0. cbn [hydrate_fields].
    erewrite no_solution_match; eauto. cbn. rewrite Q. eauto.
  - intros g s k f fs s' IS VR A B0.
    assert (B1 := item_intro_scoped _ _ (B0 _ _ (or_introl eq_refl))).
    eapply ev_imp; [|apply A]. cbv beta. intros n (e & HV) ref m0. cbn [hydrate_fields].
    erewrite the_solution_match; eauto. cbn [bind]. rewrite HV. cbn. eauto.
  - intros g s k f fs s' v IS VM A FR B B0.
    assert (B1 := item_intro_scoped _ _ (B0 _ _ (or_introl eq_refl))).
    eapply ev_imp; [|apply ev_and; [apply A|apply B; intros; eapply B0; right; eauto]].
    cbv beta. intros n [HV HF] ref m0. cbn [hydrate_fields].
    erewrite the_solution_match; eauto. cbn [bind]. rewrite HV. cbn [bind]. apply HF.
  - intros g s k f fs IN Q FR B B0.
    assert (B1 := item_intro_scoped _ _ (B0 _ _ (or_introl eq_refl))).
    eapply ev_imp; [|apply B; intros; eapply B0; right; eauto].
    cbv beta. intros n HF ref m0. cbn [hydrate_fields].
    erewrite no_solution_match; eauto. cbn [bind]. rewrite Q. apply HF.
  (* Tuple *)
  - intros g s _. apply ev_true. reflexivity.
  - intros g s it its s' v vs IS VM A F B B0.
    assert (B1 := item_intro_scoped _ _ (B0 _ (or_introl eq_refl))).
    eapply ev_imp; [|apply ev_and; [apply A|apply B; intros; eapply B0; right; eauto]].
    cbv beta. intros n [HV HF] ref i. cbn [hydrate_tuple].
    erewrite the_solution_required; eauto. cbn [bind]. rewrite HV. cbn [bind]. now rewrite HF.
  - intros g s it its IS B0.
    assert (B1 := item_intro_scoped _ _ (B0 _ (or_introl eq_refl))).
    apply ev_true. intros n ref i. cbn [hydrate_tuple].
    erewrite several_solutions_required; eauto. cbn. eauto.
  - intros g s it its IS B0.
    assert (B1 := item_intro_scoped _ _ (B0 _ (or_introl eq_refl))).
    apply ev_true. intros n ref i. cbn [hydrate_tuple].
    erewrite no_solution_required; eauto. cbn. eauto.
  - intros g s it its s' IS VR A B0.
    assert (B1 := item_intro_scoped _ _ (B0 _ (or_introl eq_refl))).
    eapply ev_imp; [|apply A]. cbv beta. intros n (e & HV) ref i. cbn [hydrate_tuple].
    erewrite the_solution_required; eauto. cbn [bind]. rewrite HV. cbn. eauto.
  - intros g s it its s' v IS VM A FR B B0.
    assert (B1 := item_intro_scoped _ _ (B0 _ (or_introl eq_refl))).
    eapply ev_imp; [|apply ev_and; [apply A|apply B; intros; eapply B0; right; eauto]].
    cbv beta. intros n [HV HF] ref i. cbn [hydrate_tuple].
    erewrite the_solution_required; eauto. cbn [bind]. rewrite HV. cbn [bind].
    destruct (HF ref (S i)) as (e & ->). cbn. eauto.
  (* Items *)
  - intros g vf. apply ev_true. constructor.
  - intros g vf s sols v vs VM A F B.
    eapply ev_imp; [|apply ev_and; [apply A|apply B]]. cbv beta. intros n [H1 H2]. now constructor.
  (* Nodes *)
  - intros g s node tail _. exists 1. apply ev_true. intros n ref [|f] L'; [lia|].
    cbn [hydrate_nodes]. now rewrite eqb_refl.
  - intros g s node head tail s' v next vs NE IS VM A BN N B B0.
    destruct (B B0) as (K & B1). exists (S K).
    eapply ev_imp; [|apply ev_and; [apply A|apply B1]].
    cbv beta. intros n [HV HN] ref [|f] L; [lia|].
    cbn [hydrate_nodes]. rewrite (proj2 (eqb_neq _ _) NE).
    erewrite (the_solution_required D G EN); eauto using node_scoped.
    cbn [bind]. rewrite HV. cbn [bind]. apply sget_binds in BN. rewrite BN. cbn [unwrap bind].
    rewrite HN by lia. reflexivity.
  - intros g s node head tail NE IS B0. exists 1. apply ev_true. intros n ref [|f] L; [lia|].
    cbn [hydrate_nodes]. rewrite (proj2 (eqb_neq _ _) NE).
    erewrite (several_solutions_required D G EN); eauto using node_scoped. cbn. eauto.
  - intros g s node head tail NE IS B0. exists 1. apply ev_true. intros n ref [|f] L; [lia|].
    cbn [hydrate_nodes]. rewrite (proj2 (eqb_neq _ _) NE).
    erewrite (no_solution_required D G EN); eauto using node_scoped. cbn. eauto.
  - intros g s node head tail s' NE IS VR A B0. exists 1.
    eapply ev_imp; [|apply A]. cbv beta. intros n (e & HV) ref [|f] L; [lia|].
    cbn [hydrate_nodes]. rewrite (proj2 (eqb_neq _ _) NE).
    erewrite (the_solution_required D G EN); eauto using node_scoped.
    cbn [bind]. rewrite HV. cbn. eauto.
  - intros g s node head tail s' v next NE IS VM A BN N B B0.
    destruct (B B0) as (K & B1). exists (S K).
    eapply ev_imp; [|apply ev_and; [apply A|apply B1]].
    cbv beta. intros n [HV HN] ref [|f] L; [lia|].
    cbn [hydrate_nodes]. rewrite (proj2 (eqb_neq _ _) NE).
    erewrite (the_solution_required D G EN); eauto using node_scoped.
    cbn [bind]. rewrite HV. cbn [bind]. apply sget_binds in BN. rewrite BN. cbn [unwrap bind].
    destruct (HN ref f) as (e & ->); [lia|]. cbn. eauto.
  (* Variants *)
  - intros g s va IN B0. apply ev_true. intros n ref i vs sel. cbn [hydrate_variants].
    erewrite (variant_no_solution D G EN); eauto.
  - intros g s va s' IS VR A B0. eapply ev_imp; [|apply A].
    cbv beta. intros n (e & HV) ref i vs sel. cbn [hydrate_variants].
    destruct (variant_the_solution D G EN _ _ s (FVariant ref (va_name va)) _ B0 s' IS)
      as (s1 & E & ->).
    rewrite E. cbn [bind]. rewrite <- format_fresh in HV. now rewrite HV.
  - intros g s _. apply ev_true. reflexivity.
  - intros g s va vs E A N B B0.
    eapply ev_imp; [|apply ev_and; [apply A; apply B0; now left|apply B; intros; apply B0; now right]].
    cbv beta. intros n [H1 H2] ref i sel. now rewrite H1, H2.
  - intros g s i va vs s' v IS VM A N B B0.
    eapply ev_imp; [|apply ev_and; [apply A|apply B; intros; apply B0; now right]].
    cbv beta. intros n [HV HN] ref. cbn [hydrate_variants].
    destruct (variant_the_solution D G EN _ _ s (FVariant ref (va_name va)) _
      (B0 _ (or_introl eq_refl)) s' IS) as (s1 & E & ->).
    rewrite E. cbn [bind]. rewrite <- format_fresh in HV. now rewrite HV, HN.
  - intros g s i va vs j v E A O B B0.
    eapply ev_imp; [|apply ev_and; [apply A; apply B0; now left|apply B; intros; apply B0; now right]].
    cbv beta. intros n [H1 H2] ref. now rewrite H1, H2.
  - intros g s sel va vs IS B0. apply ev_true. intros n ref i sel' _. cbn [hydrate_variants].
    erewrite (variant_several D G EN); eauto; [cbn; eauto|]. apply B0. now left.
  - intros g s sel va vs E A VR B B0.
    eapply ev_imp; [|apply ev_and; [apply A; apply B0; now left|apply B; intros; apply B0; now right]].
    cbv beta. intros n [H1 H2] ref i sel' HS. rewrite H1. auto.
  - intros g s va vs s' v IS VM A VR B B0.
    eapply ev_imp; [|apply ev_and; [apply A|apply B; intros; apply B0; now right]].
    cbv beta. intros n [HV HN] ref i sel HS. cbn [hydrate_variants].
    destruct (variant_the_solution D G EN _ _ s (FVariant ref (va_name va)) _
      (B0 _ (or_introl eq_refl)) s' IS) as (s1 & E & ->).
    rewrite E. cbn [bind]. rewrite <- format_fresh in HV. rewrite HV, HS by auto.
    apply HN. discriminate.
Qed.
End Complete.

(** More fuel does not change an answer. *)
Section Fuel.
Context {R : Type} {CR : Cmp R} {LR : CmpLaws R} {IR : Interp R} {X : Xsd}.
Variable D : dataset R.
Variable reg : registry R.

Definition better {E A} (m m' : outcome E A) : Prop := m = OutOfFuel \/ m = m'.

Lemma better_refl {E A} (m : outcome E A) : better m m.
Proof. now right. Qed.

Lemma better_bind {E A B} (m m' : outcome E A) (k k' : A -> outcome E B) :
  better m m' -> (forall a, better (k a) (k' a)) -> better (bind m k) (bind m' k').
Proof.
  intros [->| ->] H; [left; reflexivity|]. destruct m'; simpl; auto using better_refl.
Qed.

Variables rec rec' : option R -> R -> list R -> hres (R := R) (typed_value R).
Hypothesis B : forall g ref inputs, better (rec g ref inputs) (rec' g ref inputs).

Lemma format_better g vf s : better (hydrate_format rec g vf s) (hydrate_format rec' g vf s).
Proof. unfold hydrate_format. repeat (apply better_bind; intros; auto using better_refl). Qed.

Lemma fields_better g ref s fs : forall m0,
  better (hydrate_fields D rec g ref s fs m0) (hydrate_fields D rec' g ref s fs m0).
Proof.
  induction fs as [|[k f] fs IH]; intros m0; cbn [hydrate_fields]; auto using better_refl.
  apply better_bind; auto using better_refl. intros [s'|].
  - apply better_bind; auto using format_better.
  - destruct (f_required f); auto using better_refl.
Qed.

Lemma tuple_better g ref s its : forall i,
  better (hydrate_tuple D rec g ref s i its) (hydrate_tuple D rec' g ref s i its).
Proof.
  induction its as [|it its IH]; intros i; cbn [hydrate_tuple]; auto using better_refl.
  repeat (apply better_bind; intros; auto using better_refl, format_better).
Qed.

Lemma items_better g vf ms : better (hydrate_items rec g vf ms) (hydrate_items rec' g vf ms).
Proof.
  induction ms as [|[w|s] ms IH]; cbn [hydrate_items]; auto using better_refl.
  repeat (apply better_bind; intros; auto using better_refl, format_better).
Qed.

Lemma nodes_better g ref s node tail : forall fuel fuel' head, fuel <= fuel' ->
  better (hydrate_nodes D rec fuel g ref s node head tail)
         (hydrate_nodes D rec' fuel' g ref s node head tail).
Proof.
  induction fuel as [|fuel IH]; intros fuel' head L; [left; reflexivity|].
  destruct fuel' as [|fuel']; [lia|]. cbn [hydrate_nodes].
  destruct (eqb head tail); auto using better_refl.
  repeat (apply better_bind; intros; auto using better_refl, format_better).
  apply IH. lia.
Qed.

Lemma variants_better g ref s vs : forall i sel,
  better (hydrate_variants D rec g ref s i vs sel) (hydrate_variants D rec' g ref s i vs sel).
Proof.
  induction vs as [|va vs IH]; intros i sel; cbn [hydrate_variants]; auto using better_refl.
  apply better_bind; auto using better_refl. intros [s'|]; auto.
  destruct (format_better g (it_value (va_item va)) s') as [-> | ->]; [now left|].
  destruct (hydrate_format rec' g (it_value (va_item va)) s'); auto using better_refl.
  destruct sel; auto using better_refl.
Qed.

Lemma layout_better fuel fuel' g ref l inputs : fuel <= fuel' ->
  better (hydrate_layout D rec fuel g ref l inputs) (hydrate_layout D rec' fuel' g ref l inputs).
Proof.
  intros L. destruct l; cbn [hydrate_layout]; try apply better_refl;
    repeat (apply better_bind; intros;
            auto using better_refl, fields_better, tuple_better, items_better, nodes_better,
              variants_better).
Qed.

Lemma body_better fuel fuel' g ref inputs : fuel <= fuel' ->
  better (hydrate_body D reg rec fuel g ref inputs) (hydrate_body D reg rec' fuel' g ref inputs).
Proof.
  intros L. unfold hydrate_body. apply better_bind; auto using better_refl. intros l.
  destruct (input_count l) as [n|]; auto using layout_better.
  destruct (Nat.eqb n (length inputs)); auto using layout_better, better_refl.
Qed.
End Fuel.

Theorem hydrate_fuel {R : Type} {CR : Cmp R} {IR : Interp R} {X : Xsd}
  (D : dataset R) (reg : registry R) : forall fuel fuel' g ref inputs,
  fuel <= fuel' ->
  better (hydrate_with D reg fuel g ref inputs) (hydrate_with D reg fuel' g ref inputs).
Proof.
  induction fuel as [|fuel IH]; intros fuel' g ref inputs L; [left; reflexivity|].
  destruct fuel' as [|fuel']; [lia|]. cbn [hydrate_with].
  apply body_better; [|lia]. intros. apply IH. lia.
Qed.

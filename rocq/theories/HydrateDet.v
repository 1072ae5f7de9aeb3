(** * The semantics of layouts is deterministic, presenting and rejecting exclude each other *)

From Coq Require Import String List Bool Arith NArith Permutation Sorted Lia Qcanon.
Import ListNotations.
From Verif Require Import Base BaseProofs Orders PatternModel MatchingModel MatchingSpec
  MatchingProofs ValueModel ValueProofs LayoutModel HydrateModel HydrateSpec HydrateProofs
  HydrateSound.
Open Scope list_scope.
Open Scope nat_scope.

Section Det.
Context {R : Type} {CR : Cmp R} {LR : CmpLaws R} {IR : Interp R} {X : Xsd}.
Variable G : quad R -> Prop.
Variable reg : registry R.

Lemma the_solution_fun g s ps s1 s2 :
  the_solution (R := R) G g s ps s1 -> the_solution G g s ps s2 -> s1 = s2.
Proof. intros [S1 U1] [S2 U2]. auto. Qed.

Lemma the_no_solution g s ps s1 :
  the_solution (R := R) G g s ps s1 -> no_solution G g s ps -> False.
Proof. intros [S1 _] N. now apply (N s1). Qed.

Lemma the_several g s ps s1 :
  the_solution (R := R) G g s ps s1 -> several_solutions G g s ps -> False.
Proof. intros [S1 U] (a & b & N & Sa & Sb). apply N. now rewrite (U a), (U b). Qed.

Lemma no_several g s ps :
  no_solution (R := R) G g s ps -> several_solutions G g s ps -> False.
Proof. intros N (a & b & _ & Sa & Sb). now apply (N a). Qed.

Lemma layout_for_fun ref inputs (l1 l2 : layout R) :
  layout_for reg ref inputs l1 -> layout_for reg ref inputs l2 -> l1 = l2.
Proof. intros [A _] [B _]. congruence. Qed.

Lemma layout_for_arity ref inputs (l1 l2 : layout R) n :
  layout_for reg ref inputs l1 -> reg ref = Some l2 -> arity l2 = Some n ->
  length inputs <> n -> False.
Proof. intros [A B] C E F. apply F, B. congruence. Qed.

Lemma type_other dt l ty : has_type (R := R) dt l ty -> other_type dt l -> False.
Proof. intros [T I] (ty' & T' & N). congruence. Qed.

Lemma only_typed dt pre l post l' ty :
  Forall (other_type dt) pre -> Forall (other_type dt) post ->
  In l' (pre ++ l :: post) -> has_type (R := R) dt l' ty -> l' = l.
Proof.
  intros F1 F2 I T. rewrite Forall_forall in *. apply in_app_or in I as [I|[I|I]]; auto.
  - exfalso. eapply type_other; eauto.
  - exfalso. eapply type_other; eauto.
Qed.

Lemma boolean_lexical_fun v b b' : boolean_lexical v b -> boolean_lexical v b' -> b = b'.
Proof. intros A B. apply boolean_parse_lexical in A, B. congruence. Qed.

Lemma denotes_fun ref k ty v t t' :
  denotes (R := R) ref k ty v t -> denotes ref k ty v t' -> t = t'.
Proof. intros A B. apply literal_value_Ok in A, B. congruence. Qed.

Lemma header_sol_bad g h inputs s :
  header_sol (R := R) G g h inputs s -> header_bad G g h inputs -> False.
Proof. intros S [N|N]; [eapply the_no_solution|eapply the_several]; eauto. Qed.

Ltac same :=
  repeat match goal with
  | H1 : layout_for reg ?r ?i ?l1, H2 : layout_for reg ?r ?i ?l2 |- _ =>
      let E := fresh in
      pose proof (layout_for_fun _ _ _ _ H1 H2) as E; clear H2;
      first [discriminate E | subst l2 | subst l1 | injection E; clear E; intros; subst | clear E];
      cbv iota beta in *; subst
  | H1 : layout_for reg ?r _ _, H2 : reg ?r = None |- _ =>
      exfalso; destruct H1; congruence
  | H1 : layout_for reg ?r ?i _, H2 : reg ?r = Some ?l, H3 : arity ?l = Some ?n,
    H4 : length ?i <> ?n |- _ =>
      exfalso; exact (layout_for_arity _ _ _ _ _ H1 H2 H3 H4)
  | H1 : header_sol G ?g ?h ?i ?s1, H2 : header_bad G ?g ?h ?i |- _ =>
      exfalso; exact (header_sol_bad _ _ _ _ H1 H2)
  | H1 : header_sol G ?g ?h ?i ?s1, H2 : header_sol G ?g ?h ?i ?s2 |- _ =>
      pose proof (the_solution_fun _ _ _ _ _ H1 H2); clear H2; subst
  | H1 : item_sol G ?g ?s ?i ?s1, H2 : item_sol G ?g ?s ?i ?s2 |- _ =>
      pose proof (the_solution_fun _ _ _ _ _ H1 H2); clear H2; subst
  | H1 : the_solution G ?g ?s ?i ?s1, H2 : the_solution G ?g ?s ?i ?s2 |- _ =>
      pose proof (the_solution_fun _ _ _ _ _ H1 H2); clear H2; subst
  | H1 : pinst (binds ?s) ?p ?r1, H2 : pinst (binds ?s) ?p ?r2 |- _ =>
      pose proof (pinst_fun _ _ _ _ H1 H2); clear H2; subst
  | H1 : binds ?s ?p ?r1, H2 : binds ?s ?p ?r2 |- _ =>
      pose proof (binds_fun _ _ _ _ H1 H2); clear H2; subst
  | H1 : item_sol G ?g ?s ?i ?s1, H2 : item_none G ?g ?s ?i |- _ =>
      exfalso; exact (the_no_solution _ _ _ _ H1 H2)
  | H1 : item_sol G ?g ?s ?i ?s1, H2 : item_several G ?g ?s ?i |- _ =>
      exfalso; exact (the_several _ _ _ _ H1 H2)
  | H1 : item_none G ?g ?s ?i, H2 : item_several G ?g ?s ?i |- _ =>
      exfalso; exact (no_several _ _ _ H1 H2)
  | H1 : the_solution G ?g ?s ?i ?s1, H2 : no_solution G ?g ?s ?i |- _ =>
      exfalso; exact (the_no_solution _ _ _ _ H1 H2)
  | H1 : the_solution G ?g ?s ?i ?s1, H2 : several_solutions G ?g ?s ?i |- _ =>
      exfalso; exact (the_several _ _ _ _ H1 H2)
  | H : ?a <> ?a |- _ => exfalso; now apply H
  end.

Lemma Items_Forall2 strict g vf sols vs :
  Items G reg strict g vf sols vs -> Forall2 (fun s v => VMeans G reg strict g s vf v) sols vs.
Proof.
  revert vs. induction sols as [|s sols IH]; intros vs H; inversion H; subst; constructor; auto.
Qed.

Lemma typed_fun dt pre l post ty pre' l' post' ty' :
  pre ++ l :: post = pre' ++ l' :: post' ->
  Forall (other_type dt) pre -> Forall (other_type dt) post ->
  has_type (R := R) dt l ty -> has_type dt l' ty' -> l' = l /\ ty' = ty.
Proof.
  intros E F1 F2 T T'.
  assert (l' = l) as ->.
  { apply (only_typed dt pre l post l' ty'); auto. rewrite E. apply in_or_app. right. now left. }
  split; auto. destruct T, T'. congruence.
Qed.

Lemma typed_not_other dt pre l post ty :
  Forall (other_type dt) (pre ++ l :: post) -> has_type (R := R) dt l ty -> False.
Proof.
  intros F T. rewrite Forall_forall in F. eapply type_other; eauto. apply F.
  apply in_or_app. right. now left.
Qed.

Lemma Forall2_sols (P Q : subst R -> typed_value R -> Prop) sols sols' vs vs' :
  Permutation sols sols' -> Forall2 P sols vs -> Forall2 Q sols' vs' ->
  (forall s v v', P s v -> Q s v' -> v = v') -> Permutation vs vs'.
Proof.
  intros Pm F F' H. destruct (Permutation_Forall2 Pm F) as (vs2 & P2 & F2).
  rewrite P2. enough (vs2 = vs') as -> by auto.
  clear -F2 F' H. revert vs' F'. induction F2; intros vs' F'; inversion F'; subst; auto.
  f_equal; eauto.
Qed.

Lemma Forall2_In_l {A B} (P : A -> B -> Prop) l l' a :
  Forall2 P l l' -> In a l -> exists b, P a b.
Proof. induction 1; intros []; subst; eauto. Qed.

Lemma same_sols (s : subst R) ps sols sols' :
  NoDup sols -> NoDup sols' ->
  (forall s', In s' sols <-> solution G s ps s') ->
  (forall s', In s' sols' <-> solution G s ps s') -> Permutation sols sols'.
Proof.
  intros N N' H H'. apply NoDup_Permutation; auto. intros x. now rewrite H, H'.
Qed.

Ltac inv D := inversion D; subst; clear D; same; try discriminate; try contradiction.

Ltac use :=
  match goal with
  | H : forall v', VMeans _ _ _ ?g ?s ?vf v' -> ?v = v', H' : VMeans _ _ _ ?g ?s ?vf ?v2 |- _ =>
      pose proof (H _ H'); clear H'; subst
  | H : ~ VRejects _ _ _ ?g ?s ?vf, H' : VRejects _ _ _ ?g ?s ?vf |- _ => now destruct H
  | H : forall v, ~ VMeans _ _ _ ?g ?s ?vf v, H' : VMeans _ _ _ ?g ?s ?vf _ |- _ =>
      now destruct (H _ H')
  end.

Ltac lit :=
  match goal with
  | E1 : literals_of ?r = ?pre ++ ?l :: ?post, E2 : literals_of ?r = ?pre' ++ ?l' :: ?post',
    F1 : Forall (other_type ?dt) ?pre, F2 : Forall (other_type ?dt) ?post,
    T : has_type ?dt ?l ?ty, T' : has_type ?dt ?l' ?ty' |- _ =>
      rewrite E1 in E2;
      destruct (typed_fun _ _ _ _ _ _ _ _ _ E2 F1 F2 T T'); subst
  end.

Theorem semantics_det :
  (forall g ref inputs v, Means G reg false g ref inputs v ->
     (forall v', Means G reg false g ref inputs v' -> v = v') /\ ~ Rejects G reg false g ref inputs) /\
  (forall g ref inputs, Rejects G reg false g ref inputs ->
     forall v, ~ Means G reg false g ref inputs v).
Proof.
  pose (P1 := fun g ref inputs v =>
     (forall v', Means G reg false g ref inputs v' -> v = v') /\ ~ Rejects G reg false g ref inputs).
  pose (P2 := fun g ref inputs => forall v, ~ Means G reg false g ref inputs v).
  pose (P3 := fun g s vf v =>
     (forall v', VMeans G reg false g s vf v' -> v = v') /\ ~ VRejects G reg false g s vf).
  pose (P4 := fun g s vf => forall v, ~ VMeans G reg false g s vf v).
  pose (P6 := fun g s fs m =>
     (forall m', Fields G reg false g s fs m' -> m = m') /\ ~ FieldsRej G reg false g s fs).
  pose (P7 := fun g s fs => forall m, ~ Fields G reg false g s fs m).
  pose (P8 := fun g s its vs =>
     (forall vs', Tuple G reg false g s its vs' -> vs = vs') /\ ~ TupleRej G reg false g s its).
  pose (P9 := fun g s its => forall vs, ~ Tuple G reg false g s its vs).
  pose (P10 := fun g vf sols vs => Forall2 (fun s v => P3 g s vf v) sols vs).
  pose (P11 := fun g s node hd tl vs =>
     (forall vs', Nodes G reg false g s node hd tl vs' -> vs = vs') /\
     ~ NodesRej G reg false g s node hd tl).
  pose (P12 := fun g s node hd tl => forall vs, ~ Nodes G reg false g s node hd tl vs).
  pose (P13 := fun g s va =>
     (forall s' v, item_sol G g s (va_item va) s' ->
        ~ VMeans G reg false g s' (it_value (va_item va)) v) /\ ~ item_several G g s (va_item va)).
  pose (P14 := fun g s vs => (forall i j v, ~ One G reg false g s i vs j v) /\
     forall sel, ~ VariantsRej G reg false g s sel vs).
  pose (P15 := fun g s i vs j v =>
     (forall j' v', One G reg false g s i vs j' v' -> j = j' /\ v = v') /\
     ~ NoVariant G reg false g s vs /\
     forall sel, ~ VariantsRej G reg false g s sel vs).
  pose (P16 := fun g s (sel : bool) vs => (forall i j v, ~ One G reg false g s i vs j v) /\
     ~ NoVariant G reg false g s vs).
  destruct (semantics_ind R CR IR X G reg false P1 P2 P3 P4 (fun _ _ _ => True)
    P6 P7 P8 P9 P10 P11 P12 P13 P14 P15 P16) as (I1 & I2 & _);
    [..|split; [exact I1|exact I2]]; unfold P1, P2, P3, P4, P6, P7, P8, P9, P11, P12, P13, P14, P15, P16 in *;
    clear P1 P2 P4 P6 P7 P8 P9 P11 P12 P13 P14 P15 P16.
  (* Means *)
  - intros. split; [intros v' D; inv D; auto|intros D; inv D].
  - intros. split; [intros v' D; inv D; auto|intros D; inv D].
  - intros g ref inputs k h res dt s r pre l post ty t LF HS PI E T F1 F2 DE. split.
    + intros v' D; inv D.
      lit.
      f_equal. eapply denotes_fun; eauto.
    + intros D; inv D.
      * match goal with H : Forall _ (literals_of _) |- _ => rewrite E in H end.
        eapply typed_not_other; eauto.
      * lit.
        inversion DE. congruence.
  - intros. split; [intros v' D; inv D; congruence|intros D; inv D].
  - intros g ref inputs h fs s m LF HS F [IH1 IH2].
    split; [intros v' D; inv D; f_equal; auto|intros D; inv D; auto].
  - intros g ref inputs h vs s i v LF HS O (IH1 & IH2 & IH3). split.
    + intros v' D; inv D. edestruct IH1 as [-> ->]; eauto.
    + intros D; inv D. eapply IH3; eauto.
  - intros g ref inputs h it s sols vals l LF HS N S I IH Pm Sl. split.
    + intros v' D; inv D.
      match goal with N' : NoDup sols0 , S' : forall s', In s' sols0 <-> _ |- _ =>
        pose proof (same_sols _ _ _ _ N N' S S') as PS end.
      match goal with I' : Items _ _ _ _ _ sols0 _ |- _ => apply Items_Forall2 in I';
        pose proof (Forall2_sols _ _ _ _ _ _ PS IH I') as PV end.
      f_equal. eapply sorted_perm_eq; eauto.
      rewrite <- Pm, PV; auto. intros s' v v' [A _]. apply A.
    + intros D; inv D.
      match goal with H : solution _ _ _ _ |- _ => apply S in H;
        destruct (Forall2_In_l _ _ _ _ IH H) as (v' & _ & A) end. auto.
  - intros g ref inputs h node hd tl s head tail l LF HS P1 P2 N [IH1 IH2].
    split; [intros v' D; inv D; f_equal; auto|intros D; inv D; auto].
  - intros g ref inputs h its s l LF HS T [IH1 IH2].
    split; [intros v' D; inv D; f_equal; auto|intros D; inv D; auto].
  (* Rejects *)
  - intros g ref inputs E v D. inv D.
  - intros g ref inputs l n E A L v D. inv D.
  - intros g ref inputs LF v D. inv D.
  - intros g ref inputs l h LF M HB v D. inv D.
  - intros g ref inputs k h res dt s r LF HS PI F v D. inv D.
    match goal with H : literals_of _ = _ |- _ => rewrite H in F end.
    eapply typed_not_other; eauto.
  - intros g ref inputs h res dt s r pre l post ty LF HS PI E T DT _ v D. inv D.
    lit.
    match goal with H : denotes _ _ _ _ _ |- _ => inversion H end. congruence.
  - intros g ref inputs h fs s LF HS FR IH v D. inv D. eapply IH; eauto.
  - intros g ref inputs h vs s LF HS FR [IH1 IH2] v D. inv D. eapply IH1; eauto.
  - intros g ref inputs h it s s' LF HS S VR IH _ _ v D. inv D.
    match goal with S' : forall s', In s' sols <-> _, I' : Items _ _ _ _ _ _ _ |- _ =>
      apply S' in S; apply Items_Forall2 in I';
      destruct (Forall2_In_l _ _ _ _ I' S) as (v' & A) end.
    eapply IH; eauto.
  - intros g ref inputs h node hd tl s head tail LF HS P1 P2 N IH v D. inv D. eapply IH; eauto.
  - intros g ref inputs h its s LF HS T IH v D. inv D. eapply IH; eauto.
  (* Sub-values *)
  - intros g s vf inputs g' v PA M [IH1 IH2]. split.
    + intros v' D. inv D. destruct (passes_fun _ _ _ _ _ _ _ PA H) as [-> ->]. auto.
    + intros D. inv D. destruct (passes_fun _ _ _ _ _ _ _ PA H) as [-> ->]. auto.
  - intros g s vf inputs g' PA M IH v D. inv D.
    destruct (passes_fun _ _ _ _ _ _ _ PA H) as [-> ->]. eapply IH; eauto.
  - auto.
  - auto.
  (* Fields *)
  - intros g s. split; [intros m' D; inv D; auto|intros D; inv D].
  - intros g s k f fs s' v m IS VM [A1 A2] F [B1 B2]. split.
    + intros m' D; inv D. use. f_equal. auto.
    + intros D; inv D; try use; auto.
  - intros g s k f fs m IN Q F [B1 B2]. split.
    + intros m' D; inv D. auto.
    + intros D; inv D; auto. congruence.
  - intros g s k f fs IS m D. inv D.
  - intros g s k f fs IN Q m D. inv D. congruence.
  - intros g s k f fs s' IS VR A m D. inv D. use.
  - intros g s k f fs s' v IS VM A FR B m D. inv D. eapply B; eauto.
  - intros g s k f fs IN Q FR B m D. inv D. eapply B; eauto.
  (* Tuple *)
  - intros g s. split; [intros m' D; inv D; auto|intros D; inv D].
  - intros g s it its s' v vs IS VM [A1 A2] F [B1 B2]. split.
    + intros m' D; inv D. use. f_equal. auto.
    + intros D; inv D; try use; auto.
  - intros g s it its IS m D. inv D.
  - intros g s it its IS m D. inv D.
  - intros g s it its s' IS VR A m D. inv D. use.
  - intros g s it its s' v IS VM A FR B m D. inv D. eapply B; eauto.
  (* Items *)
  - intros g vf. constructor.
  - intros g vf s sols v vs VM A F B. constructor; auto.
  (* Nodes *)
  - intros g s node tail. split; [intros m' D; inv D; auto|intros D; inv D].
  - intros g s node head tail s' v next vs NE IS VM [A1 A2] BN N [B1 B2]. split.
    + intros m' D; inv D. use. f_equal. auto.
    + intros D; inv D; try use; auto.
  - intros g s node head tail NE IS vs D. inv D.
  - intros g s node head tail NE IS vs D. inv D.
  - intros g s node head tail s' NE IS VR A vs D. inv D. use.
  - intros g s node head tail s' v next NE IS VM A BN N B vs D. inv D. eapply B; eauto.
  (* Variants *)
  - intros g s va IN. split; [intros s' v IS VM|intros IS]; same.
  - intros g s va s' IS VR A. split; [intros s'' v IS' VM|intros IS']; same. use.
  - intros g s. split; [intros i j v D; inv D|intros sel D; inv D].
  - intros g s va vs E [A1 A2] N [B1 B2]. split.
    + intros i j v D; inv D; [eapply A1; eauto|eapply B1; eauto].
    + intros sel D; inv D; [eapply B2; eauto|eapply A1; eauto].
  - intros g s i va vs s' v IS VM [A1 A2] N [B1 B2].
    assert (NE : ~ Excluded G reg false g s va) by (intros D; inv D; use).
    split; [|split].
    + intros j' v' D; inv D. use; auto.
    + intros D; inv D.
    + intros sel D; inv D; eapply B2; eauto.
  - intros g s i va vs j v E [A1 A2] O (B1 & B2 & B3). split; [|split].
    + intros j' v' D; inv D; first [apply B1; assumption|exfalso; eapply A1; eassumption].
    + intros D; inv D.
    + intros sel D; inv D; first [eapply B3; eassumption|eapply A1; eassumption].
  - intros g s sel va vs IS.
    assert (NE : ~ Excluded G reg false g s va) by (intros D; inv D).
    split; [intros i j v D; inv D|intros D; inv D].
  - intros g s sel va vs E [A1 A2] VR [B1 B2]. split.
    + intros i j v D; inv D; first [eapply B1; eassumption|eapply A1; eassumption].
    + intros D; inv D.
  - intros g s va vs s' v IS VM [A1 A2] VR [B1 B2].
    assert (NE : ~ Excluded G reg false g s va) by (intros D; inv D; use).
    split; [intros i j v' D; inv D|intros D; inv D].
Qed.

End Det.

(** * Proofs about pattern matching *)

From Coq Require Import String List Bool Arith Lia.
Import ListNotations.
From Verif Require Import Base BaseProofs PatternModel MatchingModel MatchingSpec.

Section Proofs.
Context {R : Type} {CR : Cmp R} {LR : CmpLaws R}.

(** ** Substitutions *)

Lemma sset_Some (s : subst R) x v old s' :
  sset s x v = Some (old, s') ->
  length s' = length s /\ nth_error s x = Some old /\
  forall y, nth_error s' y = if Nat.eqb y x then Some v else nth_error s y.
Proof.
  revert x s'. induction s as [|o s IH]; intros x s' H; [discriminate|].
  destruct x as [|x]; simpl in H.
  - injection H as <- <-. repeat split. intros [|y]; reflexivity.
  - destruct (sset s x v) as [[old' s'']|] eqn:E; [|discriminate].
    injection H as <- <-. apply IH in E as (L & N & U).
    repeat split; simpl; auto. intros [|y]; simpl; auto.
Qed.

Lemma sset_None (s : subst R) x v : sset s x v = None <-> length s <= x.
Proof.
  revert x. induction s as [|o s IH]; intros x; simpl.
  - split; auto; lia.
  - destruct x as [|x].
    + split; [discriminate|lia].
    + destruct (sset s x v) as [[old' s'']|] eqn:E.
      * split; [discriminate|]. intros H. assert (length s <= x) by lia.
        apply IH in H0. congruence.
      * apply IH in E. split; auto; lia.
Qed.

Definition extends (s s' : subst R) : Prop := forall x r, binds s x r -> binds s' x r.

Lemma extends_refl s : extends s s.
Proof. firstorder. Qed.

Lemma extends_trans s1 s2 s3 : extends s1 s2 -> extends s2 s3 -> extends s1 s3.
Proof. unfold extends; eauto. Qed.

Lemma binds_fun s x (r r' : R) : binds s x r -> binds s x r' -> r = r'.
Proof. unfold binds. congruence. Qed.

Lemma pinst_mono (B B' : nat -> R -> Prop) p r :
  (forall x r, B x r -> B' x r) -> pinst B p r -> pinst B' p r.
Proof. intros H A; destruct A; constructor; auto. Qed.

Lemma oinst_mono (B B' : nat -> R -> Prop) p r :
  (forall x r, B x r -> B' x r) -> oinst B p r -> oinst B' p r.
Proof. intros H A; destruct A; constructor; eauto using pinst_mono. Qed.

Lemma qinst_mono (B B' : nat -> R -> Prop) p q :
  (forall x r, B x r -> B' x r) -> qinst B p q -> qinst B' p q.
Proof. intros H (A1 & A2 & A3 & A4). repeat split; eauto using pinst_mono, oinst_mono. Qed.

Lemma pinst_fun s p (r r' : R) : pinst (binds s) p r -> pinst (binds s) p r' -> r = r'.
Proof. intros A B; destruct A; inversion B; subst; eauto using binds_fun. Qed.

Lemma oinst_fun s p (r r' : option R) : oinst (binds s) p r -> oinst (binds s) p r' -> r = r'.
Proof. intros A B; destruct A; inversion B; subst; auto. f_equal. eauto using pinst_fun. Qed.

Lemma qinst_fun s p (q q' : quad R) : qinst (binds s) p q -> qinst (binds s) p q' -> q = q'.
Proof.
  intros (A1 & A2 & A3 & A4) (B1 & B2 & B3 & B4). destruct q, q'; simpl in *.
  f_equal; eauto using pinst_fun, oinst_fun.
Qed.

(** Effect of one component. *)
Lemma with_component_Some p v s s' :
  with_component p v s = Ok (Some s') ->
  length s' = length s /\ extends s s' /\
  (forall x, p = PVar x -> binds s' x v) /\
  (forall y, p <> PVar y -> nth_error s' y = nth_error s y).
Proof.
  destruct p as [r|x]; simpl; intros H.
  - injection H as <-. repeat split; auto using extends_refl. discriminate.
  - destruct (sset s x (Some v)) as [[[old|] s'']|] eqn:E; try discriminate.
    + destruct (eqb_spec old v) as [->|]; [|discriminate]. injection H as ->.
      apply sset_Some in E as (L & N & U). repeat split; auto.
      * intros y r Hy. unfold binds in *. rewrite U.
        destruct (Nat.eqb_spec y x) as [->|]; auto. congruence.
      * intros y [= <-]. unfold binds. rewrite U. now rewrite Nat.eqb_refl.
      * intros y Hy. rewrite U. destruct (Nat.eqb_spec y x) as [->|]; congruence.
    + injection H as ->.
      apply sset_Some in E as (L & N & U). repeat split; auto.
      * intros y r Hy. unfold binds in *. rewrite U.
        destruct (Nat.eqb_spec y x) as [->|]; auto. congruence.
      * intros y [= <-]. unfold binds. rewrite U. now rewrite Nat.eqb_refl.
      * intros y Hy. rewrite U. destruct (Nat.eqb_spec y x) as [->|]; congruence.
Qed.

(** [None] is returned exactly when the variable is bound to something else. *)
Lemma with_component_None p v s :
  with_component p v s = Ok None <-> exists x r, p = PVar x /\ binds s x r /\ r <> v.
Proof.
  destruct p as [r|x]; simpl.
  - split; [discriminate|]. intros (x & r' & ? & _). discriminate.
  - destruct (sset s x (Some v)) as [[[old|] s'']|] eqn:E.
    + apply sset_Some in E as (L & N & U).
      destruct (eqb_spec old v) as [->|NE]; split; try discriminate; auto.
      * intros (y & r & [= <-] & B & NE). unfold binds in B. congruence.
      * intros _. exists x, old. auto.
    + apply sset_Some in E as (L & N & U). split; [discriminate|].
      intros (y & r & [= <-] & B & NE). unfold binds in B. congruence.
    + apply sset_None in E. split; [discriminate|].
      intros (y & r & [= <-] & B & NE). unfold binds in B.
      apply nth_error_None in E. congruence.
Qed.

Lemma with_component_Panic p v s :
  (exists w, with_component p v s = Panic w) <-> exists x, p = PVar x /\ length s <= x.
Proof.
  destruct p as [r|x]; simpl.
  - split; [intros (? & ?); discriminate|]. intros (x & ? & _). discriminate.
  - destruct (sset s x (Some v)) as [[[old|] s'']|] eqn:E.
    + assert (sset s x (Some v) <> None) by congruence.
      rewrite sset_None in H.
      split; [destruct (eqb old v); intros (? & ?); discriminate|].
      intros (y & [= <-] & L). lia.
    + assert (sset s x (Some v) <> None) by congruence.
      rewrite sset_None in H.
      split; [intros (? & ?); discriminate|].
      intros (y & [= <-] & L). lia.
    + apply sset_None in E. split; eauto.
Qed.

Lemma with_component_cases p v s :
  (exists s', with_component p v s = Ok (Some s')) \/
  with_component p v s = Ok None \/
  (exists w, with_component p v s = Panic w).
Proof.
  destruct p; simpl; eauto.
  destruct (sset s x (Some v)) as [[[old|] s'']|]; eauto.
  destruct (eqb old v); eauto.
Qed.

Local Arguments with_component : simpl never.

Lemma and_then_Some {A B} (m : outcome unit (option A)) (k : A -> outcome unit (option B)) b :
  and_then m k = Ok (Some b) -> exists a, m = Ok (Some a) /\ k a = Ok (Some b).
Proof. destruct m as [[a|]| | |]; simpl; try discriminate; eauto. Qed.

(** What a successful [with_quad] guarantees when the quad agrees with the pattern. *)
Lemma with_quad_Some s p q s' :
  with_quad s p q = Ok (Some s') ->
  length s' = length s /\ extends s s' /\
  (agrees p q -> qinst (binds s') p q) /\
  (forall y, ~ qvar_of p y -> nth_error s' y = nth_error s y).
Proof.
  intros H. unfold with_quad in H.
  apply and_then_Some in H as (s1 & H1 & H).
  apply and_then_Some in H as (s2 & H2 & H).
  apply and_then_Some in H as (s3 & H3 & H4).
  assert (H4' : length s' = length s3 /\ extends s3 s' /\
     (forall x, q_g p = Some (PVar x) -> exists g, q_g q = Some g /\ binds s' x g) /\
     (forall y, q_g p <> Some (PVar y) -> nth_error s' y = nth_error s3 y)).
  { destruct (q_g p) as [[r|x]|] eqn:EG.
    - injection H4 as <-. repeat split; auto using extends_refl. discriminate.
    - destruct (q_g q) as [g|] eqn:EQ; [|discriminate]. simpl in H4.
      change (with_component (PVar x) g s3 = Ok (Some s')) in H4.
      apply with_component_Some in H4 as (L & X & I & O).
      repeat split; auto.
      + intros y [= <-]. exists g. auto.
      + intros y Hy. apply O. congruence.
    - injection H4 as <-. repeat split; auto using extends_refl. discriminate. }
  clear H4. destruct H4' as (L4 & X4 & I4 & O4).
  apply with_component_Some in H1 as (L1 & X1 & I1 & O1).
  apply with_component_Some in H2 as (L2 & X2 & I2 & O2).
  apply with_component_Some in H3 as (L3 & X3 & I3 & O3).
  split; [congruence|]. split; [eauto using extends_trans|]. split.
  - intros (v & A1 & A2 & A3 & A4). repeat split.
    + destruct (q_s p) as [r|x]; inversion A1; subst; [constructor|].
      constructor. apply X4, X3, X2, I1. reflexivity.
    + destruct (q_p p) as [r|x]; inversion A2; subst; [constructor|].
      constructor. apply X4, X3, I2. reflexivity.
    + destruct (q_o p) as [r|x]; inversion A3; subst; [constructor|].
      constructor. apply X4, I3. reflexivity.
    + destruct (q_g p) as [[r|x]|] eqn:EG; inversion A4 as [|? ? P]; subst; constructor.
      * inversion P; subst. constructor.
      * destruct (I4 x eq_refl) as (g & EQ & B). rewrite EQ in H0. injection H0 as ->.
        constructor. auto.
  - intros y Hy. unfold qvar_of, pvar_of in Hy.
    rewrite O4 by tauto. rewrite O3 by tauto. rewrite O2 by tauto. apply O1. tauto.
Qed.

(** If some extension instantiates the pattern to the quad, the result is below it. *)
Lemma with_component_below p v s s' s'' :
  with_component p v s = Ok (Some s') ->
  extends s s'' -> pinst (binds s'') p v -> extends s' s''.
Proof.
  intros H X I. pose proof (with_component_Some _ _ _ _ H) as (L & _ & J & O).
  intros y r B. inversion I; subst.
  - apply X. unfold binds in *. rewrite <- O; auto. discriminate.
  - destruct (Nat.eq_dec y x) as [->|N].
    + replace r with v; auto. symmetry. eapply binds_fun; eauto.
    + apply X. unfold binds in *. rewrite <- O; auto. congruence.
Qed.

Lemma with_component_sat p v s s'' :
  extends s s'' -> pinst (binds s'') p v -> with_component p v s <> Ok None.
Proof.
  intros X I H. apply with_component_None in H as (x & r & -> & B & N).
  inversion I; subst. apply X in B. apply N. eapply binds_fun; eauto.
Qed.

Lemma with_quad_below s p q s'' r :
  with_quad s p q = Ok r ->
  extends s s'' -> qinst (binds s'') p q -> exists s', r = Some s' /\ extends s' s''.
Proof.
  intros H X (A1 & A2 & A3 & A4). unfold with_quad in H.
  destruct (with_component (q_s p) (q_s q) s) as [[s1|]| | |] eqn:E1; simpl in H; try discriminate.
  2:{ exfalso. eapply with_component_sat in E1; eauto. }
  assert (X1 : extends s1 s'') by (eapply with_component_below in E1; eauto).
  destruct (with_component (q_p p) (q_p q) s1) as [[s2|]| | |] eqn:E2; simpl in H; try discriminate.
  2:{ exfalso. eapply with_component_sat in E2; eauto. }
  assert (X2 : extends s2 s'') by (eapply with_component_below in E2; eauto).
  destruct (with_component (q_o p) (q_o q) s2) as [[s3|]| | |] eqn:E3; simpl in H; try discriminate.
  2:{ exfalso. eapply with_component_sat in E3; eauto. }
  assert (X3 : extends s3 s'') by (eapply with_component_below in E3; eauto).
  destruct (q_g p) as [[g|x]|].
  - injection H as <-. eauto.
  - inversion A4 as [|? rg P E EQ]; subst. rewrite <- EQ in H. unfold unwrap in H. cbn [bind] in H.
    destruct (with_component (PVar x) rg s3) as [[s4|]| | |] eqn:E4; try discriminate.
    + injection H as <-. exists s4. split; auto.
      eapply with_component_below in E4; eauto.
    + exfalso. eapply with_component_sat in E4; eauto.
  - injection H as <-. eauto.
Qed.

Lemma with_quad_no_err s p q :
  with_quad s p q <> Err tt /\ with_quad s p q <> OutOfFuel.
Proof.
  unfold with_quad.
  destruct (with_component_cases (q_s p) (q_s q) s) as [(s1&->)|[->|(w&->)]];
    simpl; try (split; discriminate).
  destruct (with_component_cases (q_p p) (q_p q) s1) as [(s2&->)|[->|(w&->)]];
    simpl; try (split; discriminate).
  destruct (with_component_cases (q_o p) (q_o q) s2) as [(s3&->)|[->|(w&->)]];
    simpl; try (split; discriminate).
  destruct (q_g p) as [[r|x]|]; try (split; discriminate).
  destruct (q_g q) as [g|]; try (split; discriminate).
  cbn [unwrap bind].
  destruct (with_component_cases (PVar x) g s3) as [(s4&->)|[->|(w&->)]];
    simpl; split; discriminate.
Qed.

Lemma with_quad_cases s p q :
  (exists s', with_quad s p q = Ok (Some s')) \/ with_quad s p q = Ok None \/
  (exists w, with_quad s p q = Panic w).
Proof.
  destruct (with_quad_no_err s p q) as [N1 N2].
  destruct (with_quad s p q) as [[s'|]|[]| |]; eauto; congruence.
Qed.

(** No panic on declared variables. *)
Lemma with_quad_no_panic s p q w :
  (forall x, qvar_of p x -> x < length s) ->
  (q_g p <> None -> q_g q <> None) ->
  with_quad s p q <> Panic w.
Proof.
  intros D G H. unfold with_quad in H.
  assert (NP : forall p v s1, length s1 = length s -> (forall x, p = PVar x -> x < length s) ->
     forall w, with_component p v s1 <> Panic w).
  { clear -CR. intros p v s1 L Hx w H.
    destruct (proj1 (with_component_Panic p v s1)) as (x & -> & Lx); eauto.
    specialize (Hx _ eq_refl). lia. }
  assert (LE : forall p v s1 s2, length s1 = length s -> with_component p v s1 = Ok (Some s2) ->
     length s2 = length s).
  { intros p0 v0 s1 s2 L E. apply with_component_Some in E. destruct E; congruence. }
  unfold qvar_of, pvar_of in D.
  destruct (with_component_cases (q_s p) (q_s q) s) as [(s1&E1)|[E1|(w1&E1)]];
    rewrite E1 in H; simpl in H; try discriminate.
  2:{ eapply NP in E1; eauto. }
  apply LE in E1; auto.
  destruct (with_component_cases (q_p p) (q_p q) s1) as [(s2&E2)|[E2|(w1&E2)]];
    rewrite E2 in H; simpl in H; try discriminate.
  2:{ eapply NP in E2; eauto. }
  apply LE in E2; auto.
  destruct (with_component_cases (q_o p) (q_o q) s2) as [(s3&E3)|[E3|(w1&E3)]];
    rewrite E3 in H; simpl in H; try discriminate.
  2:{ eapply NP in E3; eauto. }
  apply LE in E3; auto.
  destruct (q_g p) as [[r|x]|] eqn:EG; try discriminate.
  destruct (q_g q) as [g|] eqn:EQ; [|exfalso; apply G; congruence].
  cbn [unwrap bind] in H. eapply NP in H; eauto.
  intros y [= <-]. apply D. auto.
Qed.

Lemma nth_error_ext {A} (l : list A) : forall l',
  (forall n, nth_error l n = nth_error l' n) -> l = l'.
Proof.
  induction l as [|a l IH]; intros [|b l'] H; auto.
  - specialize (H 0); discriminate.
  - specialize (H 0); discriminate.
  - f_equal.
    + specialize (H 0). simpl in H. congruence.
    + apply IH. intros n. apply (H (S n)).
Qed.

(** ** The stream of substitutions *)

Variable D : dataset R.
Variable G : quad R -> Prop.
Hypothesis EN : enumerates D G.

Lemma agrees_graph p (q : quad R) : agrees p q -> (q_g p <> None -> q_g q <> None).
Proof. intros (v & _ & _ & _ & A). destruct A; congruence. Qed.

Definition panicking (i : item R) : Prop := exists w, i = inl w.

Lemma stream_cons p ps s :
  stream D (p :: ps) s =
  flat_map (fun m => match with_quad s p m with
                     | Ok (Some s') => stream D ps s'
                     | Ok None => []
                     | Panic w => [inl w]
                     | _ => [inl "unreachable"%string]
                     end) (D p).
Proof. reflexivity. Qed.

Lemma stream_sound ps : forall s s', In (inr s') (stream D ps s) -> solution G s ps s'.
Proof.
  induction ps as [|p ps IH]; intros s s' H.
  - destruct H as [[= <-]|[]]. split; auto; simpl; try tauto.
  - rewrite stream_cons in H. apply in_flat_map in H as (q & Hq & H).
    destruct (with_quad_cases s p q) as [(s1 & E)|[E|(w & E)]]; rewrite E in H.
    2: contradiction.
    2:{ destruct H as [H|[]]; discriminate. }
    apply IH in H as [L X Q O].
    apply (proj2 (EN p)) in Hq as [Gq Aq].
    apply with_quad_Some in E as (L1 & X1 & I1 & O1).
    split.
    + congruence.
    + intros x r B. apply X, X1, B.
    + intros p' [<-|I]; auto. exists q. split; auto.
      eapply qinst_mono; [|apply I1, Aq]. exact X.
    + intros x Hx. rewrite O, O1; auto.
      * intros C. apply Hx. exists p. simpl; auto.
      * intros (p' & I & C). apply Hx. exists p'. simpl; auto.
Qed.

Lemma stream_complete ps : forall s s',
  (forall i, In i (stream D ps s) -> ~ panicking i) ->
  solution G s ps s' -> In (inr s') (stream D ps s).
Proof.
  induction ps as [|p ps IH]; intros s s' NP [L X Q O].
  - left. f_equal. apply nth_error_ext. intros x. symmetry. apply O.
    intros (p & [] & _).
  - rewrite stream_cons in *.
    destruct (Q p) as (q & Gq & Iq); [now left|].
    assert (Aq : agrees p q).
    { exists (fun x => match nth_error s' x with Some (Some r) => r | _ => q_s q end).
      eapply qinst_mono; [|exact Iq]. intros x r B. unfold binds in B. now rewrite B. }
    apply in_flat_map. exists q. split; [now apply EN|].
    destruct (with_quad_cases s p q) as [(s1 & E)|[E|(w & E)]].
    + destruct (with_quad_below _ _ _ s' _ E) as (s1' & [= <-] & X1); auto.
      rewrite E. apply IH.
      * intros i Hi. apply NP. apply in_flat_map. exists q.
        split; [now apply EN|]. now rewrite E.
      * apply with_quad_Some in E as (L1 & X01 & I1 & O1).
        split; auto; try congruence.
        -- intros p' I. apply Q. now right.
        -- intros x Hx.
           assert (DX : qvar_of p x \/ ~ qvar_of p x).
           { unfold qvar_of, pvar_of.
             assert (forall p : pattern R, p = PVar x \/ p <> PVar x) as PD.
             { intros [r|y]; [right; discriminate|].
               destruct (Nat.eq_dec y x) as [->|]; [now left|right; congruence]. }
             destruct (PD (q_s p)), (PD (q_p p)), (PD (q_o p)); try tauto.
             destruct (q_g p) as [pg|]; [|right; intuition discriminate].
             destruct (PD pg) as [->|N]; [tauto|right].
             intuition congruence. }
           destruct DX as [V|V].
           ++ assert (exists r, binds s1 x r) as (r & B).
              { destruct (I1 Aq) as (A1 & A2 & A3 & A4).
                destruct V as [V|[V|[V|V]]]; unfold pvar_of in V.
                - rewrite V in A1. inversion A1; eauto.
                - rewrite V in A2. inversion A2; eauto.
                - rewrite V in A3. inversion A3; eauto.
                - rewrite V in A4. inversion A4 as [|? ? A5]; subst. inversion A5; eauto. }
              pose proof (X1 _ _ B) as B'. unfold binds in B, B'. congruence.
           ++ rewrite O1 by auto. apply O.
              intros (p' & [<-|I] & C); auto. apply Hx. exists p'. auto.
    + exfalso. destruct (with_quad_below _ _ _ s' _ E) as (s1' & ? & _); auto. discriminate.
    + exfalso. apply (NP (inl w)); [|exists w; reflexivity].
      apply in_flat_map. exists q. split; [now apply EN|]. rewrite E. now left.
Qed.

Lemma stream_no_panic ps : forall s,
  declared s ps -> forall i, In i (stream D ps s) -> ~ panicking i.
Proof.
  induction ps as [|p ps IH]; intros s DC i Hi (w & ->).
  - destruct Hi as [|[]]; discriminate.
  - rewrite stream_cons in Hi. apply in_flat_map in Hi as (q & Hq & Hi).
    apply EN in Hq as [Gq Aq].
    destruct (with_quad_cases s p q) as [(s1 & E)|[E|(w' & E)]]; rewrite E in Hi.
    + eapply IH in Hi; [apply Hi; eexists; reflexivity|].
      apply with_quad_Some in E as (L1 & _).
      intros x (p' & I & V). rewrite L1. apply DC. exists p'. simpl. auto.
    + contradiction.
    + eapply with_quad_no_panic in E; auto.
      * intros x V. apply DC. exists p. simpl. auto.
      * eapply agrees_graph; eauto.
Qed.

Lemma NoDup_flat_map {A B} (f : A -> list B) (l : list A) :
  NoDup l ->
  (forall a, In a l -> NoDup (f a)) ->
  (forall a a' b, In a l -> In a' l -> In b (f a) -> In b (f a') -> a = a') ->
  NoDup (flat_map f l).
Proof.
  induction 1 as [|a l N ND IH]; intros H1 H2; simpl; [constructor|].
  assert (NoDup (f a)) as Na by (apply H1; now left).
  assert (NoDup (flat_map f l)) as Nl.
  { apply IH.
    - intros. apply H1. now right.
    - intros. eapply H2; eauto; now right. }
  assert (forall b, In b (f a) -> ~ In b (flat_map f l)) as DJ.
  { intros b Hb C. apply in_flat_map in C as (a' & Ha' & Hb').
    apply N. assert (a = a') as -> by (eapply H2; eauto; [now left|now right]). auto. }
  clear -Na Nl DJ. induction Na as [|b l' N ND IH]; simpl; auto.
  constructor.
  - rewrite in_app_iff. intros [C|C]; auto. eapply DJ; eauto. now left.
  - apply IH. intros. apply DJ. now right.
Qed.

Lemma stream_NoDup ps : forall s,
  (forall i, In i (stream D ps s) -> ~ panicking i) -> NoDup (stream D ps s).
Proof.
  induction ps as [|p ps IH]; intros s NP.
  - repeat constructor. simpl; tauto.
  - rewrite stream_cons in *. apply NoDup_flat_map.
    + apply EN.
    + intros q Hq.
      assert (NPq := fun i Hi => NP i (proj2 (in_flat_map _ _ _) (ex_intro _ q (conj Hq Hi)))).
      destruct (with_quad_cases s p q) as [(s1 & E)|[E|(w & E)]]; rewrite E.
      * apply IH. intros i Hi. apply NPq. cbv beta. now rewrite E.
      * constructor.
      * repeat constructor. simpl; tauto.
    + intros q q' i Hq Hq' Hi Hi'.
      assert (NPi := NP i (proj2 (in_flat_map _ _ _) (ex_intro _ q (conj Hq Hi)))).
      destruct i as [w|s']; [exfalso; apply NPi; eexists; reflexivity|].
      apply EN in Hq as [_ Aq]. apply EN in Hq' as [_ Aq'].
      destruct (with_quad_cases s p q) as [(s1 & E)|[E|(w & E)]]; rewrite E in Hi;
        [|contradiction|destruct Hi as [Hi|[]]; discriminate].
      destruct (with_quad_cases s p q') as [(s1' & E')|[E'|(w & E')]]; rewrite E' in Hi';
        [|contradiction|destruct Hi' as [Hi'|[]]; discriminate].
      apply stream_sound in Hi, Hi'.
      apply with_quad_Some in E as (_ & _ & I & _).
      apply with_quad_Some in E' as (_ & _ & I' & _).
      eapply (qinst_fun s' p).
      * eapply qinst_mono; [|apply I, Aq]. exact (sol_extends _ _ _ _ Hi).
      * eapply qinst_mono; [|apply I', Aq']. exact (sol_extends _ _ _ _ Hi').
Qed.

End Proofs.

(** ** The stack machine refines the stream *)

Section Machine.
Context {R : Type} {CR : Cmp R} {LR : CmpLaws R}.
Variable D : dataset R.

(** Items of the stream, then what follows. *)
Fixpoint emit (l : list (item R)) (k : outcome match_error (list (subst R)))
  : outcome match_error (list (subst R)) :=
  match l with
  | [] => k
  | inl w :: _ => Panic w
  | inr s :: l' => let* r := emit l' k in Ok (s :: r)
  end.

Lemma emit_app l l' k : emit (l ++ l') k = emit l (emit l' k).
Proof. induction l as [|[w|s] l IH]; simpl; auto. now rewrite IH. Qed.

Definition alts (ps : list (qpat R)) (s : subst R) (p : qpat R) (ms : list (quad R))
  : list (item R) :=
  flat_map (fun m => match with_quad s p m with
                     | Ok (Some s') => stream D ps s'
                     | Ok None => []
                     | Panic w => [inl w]
                     | _ => [inl "unreachable"%string]
                     end) ms.

(** Remaining items of a state, and of a stack. *)
Definition st_stream (st : state R) : list (item R) :=
  match st_quad st with
  | None => stream D (st_rest st) (st_subst st)
  | Some (QuadState p ms) => alts (st_rest st) (st_subst st) p ms
  end.

Definition stack_stream (st : list (state R)) : list (item R) := flat_map st_stream st.

(** One turn either keeps the items, or takes the first one, or panics as the first one. *)
Lemma step_stream st :
  match step D st with
  | Continue st' => stack_stream st' = stack_stream st
  | Break (Some s) st' => stack_stream st = inr s :: stack_stream st'
  | Break None st' => stack_stream st = [] /\ st' = []
  | Panicked w => exists l, stack_stream st = inl w :: l
  end.
Proof.
  destruct st as [|[s [[p ms]|] rest] below]; simpl.
  - auto.
  - destruct ms as [|m ms]; simpl; auto.
    destruct (with_quad_cases s p m) as [(s1 & E)|[E|(w & E)]]; rewrite E; simpl.
    + unfold stack_stream, st_stream; simpl. unfold alts at 2. simpl. rewrite E.
      now rewrite <- app_assoc.
    + unfold stack_stream, st_stream; simpl. unfold alts at 2. simpl. now rewrite E.
    + unfold stack_stream, st_stream; simpl. unfold alts at 1. simpl. rewrite E. simpl. eauto.
  - destruct rest as [|p rest]; simpl; auto.
Qed.

(** Number of turns left. *)
Fixpoint cost (ps : list (qpat R)) (s : subst R) : nat :=
  match ps with
  | [] => 1
  | p :: ps' =>
      2 + list_sum (map (fun m => match with_quad s p m with
                                  | Ok (Some s') => 1 + cost ps' s'
                                  | _ => 1
                                  end) (D p))
  end.

Definition alt_cost (ps : list (qpat R)) (s : subst R) (p : qpat R) (m : quad R) : nat :=
  match with_quad s p m with Ok (Some s') => 1 + cost ps s' | _ => 1 end.

Definition st_cost (st : state R) : nat :=
  match st_quad st with
  | None => cost (st_rest st) (st_subst st)
  | Some (QuadState p ms) =>
      1 + list_sum (map (alt_cost (st_rest st) (st_subst st) p) ms)
  end.

Definition stack_cost (st : list (state R)) : nat := list_sum (map st_cost st).

Lemma step_cost st :
  match step D st with
  | Continue st' | Break (Some _) st' => stack_cost st = S (stack_cost st')
  | _ => True
  end.
Proof.
  destruct st as [|[s [[p ms]|] rest] below]; simpl; auto.
  - destruct ms as [|m ms]; simpl; auto.
    destruct (with_quad_cases s p m) as [(s1 & E)|[E|(w & E)]]; rewrite E; simpl; auto.
    + unfold stack_cost; simpl. unfold alt_cost at 1. rewrite E. unfold st_cost; simpl. lia.
    + unfold stack_cost; simpl. unfold alt_cost at 1. rewrite E. unfold st_cost; simpl. lia.
  - destruct rest as [|p rest]; simpl; auto.
Qed.

Lemma collect_stack fuel : forall st,
  stack_cost st < fuel -> collect D fuel st = emit (stack_stream st) (Ok []).
Proof.
  induction fuel as [|fuel IH]; intros st H; [lia|].
  cbn [collect]. pose proof (step_stream st) as S1. pose proof (step_cost st) as S2.
  destruct (step D st) as [st'|[s|] st'|w].
  - rewrite IH by lia. now rewrite S1.
  - rewrite IH by lia. rewrite S1. reflexivity.
  - destruct S1 as [-> _]. reflexivity.
  - destruct S1 as [l ->]. reflexivity.
Qed.

(** [next] takes the first item. *)
Lemma next_stack fuel : forall st,
  stack_cost st < fuel ->
  match stack_stream st with
  | [] => next D fuel st = Ok (None, [])
  | inl w :: _ => next D fuel st = Panic w
  | inr s :: l => exists st', next D fuel st = Ok (Some s, st') /\ stack_stream st' = l
                              /\ stack_cost st' < stack_cost st
  end.
Proof.
  induction fuel as [|fuel IH]; intros st H; [lia|].
  cbn [next]. pose proof (step_stream st) as S1. pose proof (step_cost st) as S2.
  destruct (step D st) as [st'|[s|] st'|w].
  - specialize (IH st' ltac:(lia)). rewrite S1 in IH.
    destruct (stack_stream st) as [|[w|s] l]; auto.
    destruct IH as (st'' & E & F & C). exists st''. repeat split; auto. lia.
  - rewrite S1. exists st'. repeat split; auto. lia.
  - destruct S1 as [-> ->]. reflexivity.
  - destruct S1 as [l ->]. reflexivity.
Qed.

Lemma into_unique_stack fuel st :
  stack_cost st < fuel -> into_unique D fuel st = stream_unique (stack_stream st).
Proof.
  intros H. unfold into_unique. pose proof (next_stack fuel st H) as N.
  destruct (stack_stream st) as [|[w|s] l].
  - now rewrite N.
  - now rewrite N.
  - destruct N as (st' & -> & F & C). cbn [bind].
    pose proof (next_stack fuel st' ltac:(lia)) as N'. rewrite F in N'.
    destruct l as [|[w|s'] l].
    + now rewrite N'.
    + now rewrite N'.
    + destruct N' as (st'' & -> & _). reflexivity.
Qed.

Lemma new_stream s ps : stack_stream (matching_new s ps) = stream D ps s.
Proof. unfold stack_stream; simpl. unfold st_stream; simpl. apply app_nil_r. Qed.

Lemma list_sum_le {A} (f : A -> nat) n l :
  (forall a, In a l -> f a <= n) -> list_sum (map f l) <= length l * n.
Proof.
  intros H. induction l as [|a l IH]; simpl; auto.
  specialize (IH (fun a I => H a (or_intror I))).
  pose proof (H a (or_introl eq_refl)). lia.
Qed.

Lemma cost_turns n ps : forall s,
  (forall p, In p ps -> length (D p) <= n) -> cost ps s <= turns n (length ps).
Proof.
  induction ps as [|p ps IH]; intros s H; [simpl; auto|].
  cbn [cost turns length].
  assert (list_sum (map (alt_cost ps s p) (D p)) <= length (D p) * (1 + turns n (length ps))).
  { apply list_sum_le. intros m _. unfold alt_cost.
    destruct (with_quad s p m) as [[s'|]| | |]; try lia.
    specialize (IH s' (fun p I => H p (or_intror I))). lia. }
  unfold alt_cost in H0. pose proof (H p (or_introl eq_refl)).
  nia.
Qed.

Lemma new_cost n s ps :
  (forall p, In p ps -> length (D p) <= n) ->
  stack_cost (matching_new s ps) <= turns n (length ps).
Proof.
  intros H. unfold stack_cost; simpl. unfold st_cost; simpl.
  pose proof (cost_turns n ps s H). lia.
Qed.

(** The statements used by the other models. *)
Theorem collect_stream s ps :
  exists N, forall fuel, N <= fuel ->
    collect D fuel (matching_new s ps) = emit (stream D ps s) (Ok []).
Proof.
  exists (S (stack_cost (matching_new s ps))). intros fuel H.
  rewrite collect_stack by lia. now rewrite new_stream.
Qed.

Theorem into_unique_stream s ps :
  exists N, forall fuel, N <= fuel ->
    into_unique D fuel (matching_new s ps) = stream_unique (stream D ps s).
Proof.
  exists (S (stack_cost (matching_new s ps))). intros fuel H.
  rewrite into_unique_stack by lia. now rewrite new_stream.
Qed.

(** More fuel does not change an answer. *)
Lemma collect_mono fuel : forall fuel' st,
  fuel <= fuel' -> collect D fuel st <> OutOfFuel -> collect D fuel' st = collect D fuel st.
Proof.
  induction fuel as [|fuel IH]; intros fuel' st L H; [simpl in H; congruence|].
  destruct fuel' as [|fuel']; [lia|]. cbn [collect] in *.
  destruct (step D st) as [st'|[s|] st'|w]; auto.
  - apply IH; auto; lia.
  - destruct (collect D fuel st') as [l|e|w|] eqn:E; simpl in *; try congruence;
      rewrite (IH fuel' st'), E by (try lia; congruence); reflexivity.
Qed.

Lemma next_mono fuel : forall fuel' st,
  fuel <= fuel' -> next D fuel st <> OutOfFuel -> next D fuel' st = next D fuel st.
Proof.
  induction fuel as [|fuel IH]; intros fuel' st L H; [simpl in H; congruence|].
  destruct fuel' as [|fuel']; [lia|]. cbn [next] in *.
  destruct (step D st) as [st'|[s|] st'|w]; auto.
  apply IH; auto; lia.
Qed.

Lemma into_unique_mono fuel fuel' st :
  fuel <= fuel' -> into_unique D fuel st <> OutOfFuel ->
  into_unique D fuel' st = into_unique D fuel st.
Proof.
  intros L H. unfold into_unique in *.
  assert (next D fuel st <> OutOfFuel) as N by (intros C; rewrite C in H; simpl in H; congruence).
  rewrite (next_mono fuel fuel' st L N).
  destruct (next D fuel st) as [[[s|] st']| | |]; simpl in *; auto.
  assert (next D fuel st' <> OutOfFuel) as N' by (intros C; rewrite C in H; simpl in H; congruence).
  now rewrite (next_mono fuel fuel' st' L N').
Qed.

Lemma collect_Ok_stream fuel s ps l :
  collect D fuel (matching_new s ps) = Ok l -> stream D ps s = map inr l.
Proof.
  intros H. destruct (collect_stream s ps) as (N & HN).
  assert (collect D (fuel + N) (matching_new s ps) = Ok l) as H'.
  { rewrite (collect_mono fuel); auto; [lia|congruence]. }
  rewrite HN in H' by lia. clear -H'.
  revert l H'. induction (stream D ps s) as [|[w|s'] l' IH]; simpl; intros l H.
  - injection H as <-. reflexivity.
  - discriminate.
  - apply bind_Ok in H as (r & Hr & H). injection H as <-. simpl. f_equal; auto.
Qed.

Lemma into_unique_stream_eq fuel s ps :
  into_unique D fuel (matching_new s ps) <> OutOfFuel ->
  into_unique D fuel (matching_new s ps) = stream_unique (stream D ps s).
Proof.
  intros H. destruct (into_unique_stream s ps) as (N & HN).
  rewrite <- (HN (fuel + N)) by lia. symmetry. apply into_unique_mono; auto; lia.
Qed.

End Machine.

Section Panic.
Context {R : Type} {CR : Cmp R} {LR : CmpLaws R}.
Local Arguments with_component : simpl never.

Definition below (s : subst R) (v : nat -> R) : Prop := forall x r, binds s x r -> v x = r.

Lemma with_component_below_fun p c s v r :
  below s v -> pinst (fun x r => v x = r) p c -> with_component p c s = Ok r ->
  exists s', r = Some s' /\ below s' v.
Proof.
  intros B I H. destruct r as [s'|].
  - exists s'. split; auto. apply with_component_Some in H as (L & X & J & O).
    intros y r Hy. inversion I; subst.
    + apply B. unfold binds in *. rewrite <- O; auto. discriminate.
    + destruct (Nat.eq_dec y x) as [->|N].
      * eapply binds_fun; eauto.
      * apply B. unfold binds in *. rewrite <- O; auto. congruence.
  - exfalso. apply with_component_None in H as (x & r & -> & Hb & N).
    apply N. inversion I; subst. symmetry. auto.
Qed.

Lemma with_quad_below_fun p q s v r :
  below s v -> qinst (fun x r => v x = r) p q -> with_quad s p q = Ok r ->
  exists s', r = Some s' /\ below s' v.
Proof.
  intros B (A1 & A2 & A3 & A4) H. unfold with_quad in H.
  destruct (with_component_cases (q_s p) (q_s q) s) as [(s1&E1)|[E1|(w1&E1)]];
    rewrite E1 in H; simpl in H; try discriminate.
  all: destruct (with_component_below_fun _ _ _ _ _ B A1 E1) as (s1' & [= <-] & B1).
  destruct (with_component_cases (q_p p) (q_p q) s1) as [(s2&E2)|[E2|(w1&E2)]];
    rewrite E2 in H; simpl in H; try discriminate.
  all: destruct (with_component_below_fun _ _ _ _ _ B1 A2 E2) as (s2' & [= <-] & B2).
  destruct (with_component_cases (q_o p) (q_o q) s2) as [(s3&E3)|[E3|(w1&E3)]];
    rewrite E3 in H; simpl in H; try discriminate.
  all: destruct (with_component_below_fun _ _ _ _ _ B2 A3 E3) as (s3' & [= <-] & B3).
  destruct (q_g p) as [[g|x]|].
  - injection H as <-. eauto.
  - inversion A4 as [|? rg P E EQ]; subst. rewrite <- EQ in H. cbn [bind unwrap] in H.
    eapply with_component_below_fun; eauto.
  - injection H as <-. eauto.
Qed.

Lemma with_quad_declares p q s s' x :
  with_quad s p q = Ok (Some s') -> agrees p q -> qvar_of p x -> x < length s.
Proof.
  intros H A V. apply with_quad_Some in H as (L & _ & I & _). rewrite <- L.
  destruct (I A) as (A1 & A2 & A3 & A4).
  assert (exists r, binds s' x r) as (r & B).
  { destruct V as [V|[V|[V|V]]]; unfold pvar_of in V.
    - rewrite V in A1. inversion A1; eauto.
    - rewrite V in A2. inversion A2; eauto.
    - rewrite V in A3. inversion A3; eauto.
    - rewrite V in A4. inversion A4 as [|? ? A5]; subst. inversion A5; eauto. }
  apply nth_error_Some. unfold binds in B. congruence.
Qed.

Lemma undeclared_panics (D : dataset R) G s p ps x q v :
  enumerates D G ->
  qvar_of p x -> length s <= x ->
  G q -> below s v -> qinst (fun x r => v x = r) p q ->
  exists w l, stream D (p :: ps) s = inl w :: l.
Proof.
  intros EN V L Gq B I.
  assert (Hq : In q (D p)) by (apply EN; split; auto; exists v; auto).
  assert (AG : forall m, In m (D p) -> agrees p m) by (intros m Hm; now apply EN in Hm).
  rewrite stream_cons.
  induction (D p) as [|m l IH]; [contradiction|].
  cbn [flat_map].
  destruct (with_quad_cases s p m) as [(s1 & E)|[E|(w & E)]]; rewrite E.
  - exfalso. eapply with_quad_declares in E; eauto; [lia|]. apply AG; now left.
  - cbn [app]. destruct Hq as [->|Hq].
    + exfalso. destruct (with_quad_below_fun _ _ _ _ _ B I E) as (? & ? & _). discriminate.
    + apply IH; auto. intros; apply AG; now right.
  - cbn [app]. eauto.
Qed.

Lemma undeclared_nothing (D : dataset R) G s p ps x s' :
  enumerates D G -> qvar_of p x -> length s <= x ->
  ~ In (inr s') (stream D (p :: ps) s).
Proof.
  intros EN V L H. rewrite stream_cons in H. apply in_flat_map in H as (m & Hm & H).
  destruct (with_quad_cases s p m) as [(s1 & E)|[E|(w & E)]]; rewrite E in H.
  - eapply with_quad_declares in E; eauto; [lia|]. now apply EN in Hm.
  - contradiction.
  - destruct H as [|[]]; discriminate.
Qed.

End Panic.

(** ** The concrete dataset of [MatchingSpec] satisfies the contract *)

Section ListDataset.
Context {R : Type} {CR : Cmp R} {LR : CmpLaws R}.

Definition env_binds (e : list (nat * R)) (v : nat -> R) : Prop :=
  forall x r, In (x, r) e -> v x = r.

Lemma pmatch_spec p c e v :
  env_binds e v -> pinst (fun x r => v x = r) p c ->
  exists e', pmatch p c e = Some e' /\ env_binds e' v.
Proof.
  intros B I. destruct I as [r|x r E]; simpl.
  - rewrite eqb_refl. eauto.
  - destruct (find (fun e0 => Nat.eqb (fst e0) x) e) as [[y r']|] eqn:F.
    + apply find_some in F as [F1 F2]. simpl in F2. apply Nat.eqb_eq in F2 as ->.
      apply B in F1. assert (r' = r) as -> by congruence. rewrite eqb_refl. eauto.
    + eexists. split; [reflexivity|]. intros y r' [[= <- <-]|I]; auto.
Qed.

Lemma pmatch_sound p c e e' v :
  pmatch p c e = Some e' -> env_binds e' v ->
  env_binds e v /\ pinst (fun x r => v x = r) p c.
Proof.
  destruct p as [r|x]; simpl.
  - destruct (eqb_spec r c) as [->|]; [|discriminate]. intros [= <-] B. split; auto. constructor.
  - destruct (find (fun e0 => Nat.eqb (fst e0) x) e) as [[y r']|] eqn:F.
    + apply find_some in F as [F1 F2]. simpl in F2. apply Nat.eqb_eq in F2 as ->.
      destruct (eqb_spec r' c) as [->|]; [|discriminate]. intros [= <-] B. split; auto.
      constructor. auto.
    + intros [= <-] B. split.
      * intros y r I. apply B. now right.
      * constructor. apply B. now left.
Qed.

(** Environments have one binding per variable, so they extend to functions. *)
Definition env_fun (d : R) (e : list (nat * R)) (x : nat) : R :=
  match find (fun e0 => Nat.eqb (fst e0) x) e with Some (_, r) => r | None => d end.

Lemma pmatch_NoDup p c e e' :
  pmatch p c e = Some e' -> NoDup (map fst e) -> NoDup (map fst e').
Proof.
  destruct p as [r|x]; simpl.
  - destruct (eqb r c); [|discriminate]. intros [= <-]; auto.
  - destruct (find (fun e0 => Nat.eqb (fst e0) x) e) as [[y r']|] eqn:F.
    + destruct (eqb r' c); [|discriminate]. intros [= <-]; auto.
    + intros [= <-] N. simpl. constructor; auto.
      intros I. apply in_map_iff in I as ([y r] & <- & I).
      eapply find_none in F; eauto. simpl in F. now rewrite Nat.eqb_refl in F.
Qed.

Lemma env_fun_binds d e : NoDup (map fst e) -> env_binds e (env_fun d e).
Proof.
  induction e as [|[y r] e IH]; intros N x r' I; [contradiction|].
  simpl in N. inversion N as [|? ? N1 N2]; subst. unfold env_fun; simpl.
  destruct I as [[= <- <-]|I].
  - now rewrite Nat.eqb_refl.
  - destruct (Nat.eqb_spec y x) as [->|].
    + exfalso. apply N1. apply in_map_iff. now exists (x, r').
    + apply IH; auto.
Qed.

Lemma qmatch_agrees p (q : quad R) : qmatch p q = true <-> agrees p q.
Proof.
  split.
  - unfold qmatch. intros H.
    destruct (pmatch (q_s p) (q_s q) []) as [e1|] eqn:E1; [|discriminate].
    destruct (pmatch (q_p p) (q_p q) e1) as [e2|] eqn:E2; [|discriminate].
    destruct (pmatch (q_o p) (q_o q) e2) as [e3|] eqn:E3; [|discriminate].
    assert (NoDup (map fst e3)) as N3
      by (eapply pmatch_NoDup; eauto; eapply pmatch_NoDup; eauto;
          eapply pmatch_NoDup; eauto; constructor).
    assert (exists e4, NoDup (map fst e4) /\
      forall v, env_binds e4 v -> env_binds e3 v /\ oinst (fun x r => v x = r) (q_g p) (q_g q))
      as (e4 & N4 & S4).
    { destruct (q_g p) as [pg|], (q_g q) as [g|]; try discriminate.
      - destruct (pmatch pg g e3) as [e4|] eqn:E4; [|discriminate].
        exists e4. split; [eapply pmatch_NoDup; eauto|].
        intros v B. eapply pmatch_sound in E4 as [B3 I4]; eauto. split; auto. constructor; auto.
      - exists e3. split; auto. intros v B. split; auto. constructor. }
    exists (env_fun (q_s q) e4).
    destruct (S4 _ (env_fun_binds (q_s q) e4 N4)) as [B3 I4].
    eapply pmatch_sound in E3 as [B2 I3]; eauto.
    eapply pmatch_sound in E2 as [B1 I2]; eauto.
    eapply pmatch_sound in E1 as [_ I1]; eauto.
    repeat split; auto.
  - intros (v & A1 & A2 & A3 & A4). unfold qmatch.
    assert (B0 : env_binds [] v) by (intros x r []).
    destruct (pmatch_spec _ _ _ v B0 A1) as (e1 & -> & B1).
    destruct (pmatch_spec _ _ _ v B1 A2) as (e2 & -> & B2).
    destruct (pmatch_spec _ _ _ v B2 A3) as (e3 & -> & B3).
    destruct A4 as [|pg g A4]; auto.
    destruct (pmatch_spec _ _ _ v B3 A4) as (e4 & -> & B4). reflexivity.
Qed.

Lemma list_dataset_enumerates (l : list (quad R)) :
  NoDup l -> enumerates (list_dataset l) (fun q => In q l).
Proof.
  intros N p. unfold list_dataset. split.
  - now apply NoDup_filter.
  - intros q. rewrite filter_In. now rewrite qmatch_agrees.
Qed.

End ListDataset.

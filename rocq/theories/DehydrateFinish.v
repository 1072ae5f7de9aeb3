(** * The final mapping from resources to terms *)

From Coq Require Import String Ascii List Bool Arith NArith Lia Qcanon Permutation.
From Coq Require Decimal DecimalString DecimalNat DecimalFacts.
Import ListNotations.
From Verif Require Import Base BaseProofs Orders PatternModel ValueModel ValueProofs LayoutModel HydrateModel TermModel
  LayoutSpec DehydrateModel DehydrateSpec DehydrateProofs DehydrateEmits.
Open Scope list_scope.
Open Scope nat_scope.

(** ** The assigned terms *)

(** Every resource appears at most once in the map. *)
Definition map_wf (m : list (res * list term)) : Prop := NoDup (map fst m).

Lemma assign_keys r t m x : In x (map fst (assign_term r t m)) <-> x = r \/ In x (map fst m).
Proof.
  induction m as [|[r' ts] m IH]; simpl; [intuition|].
  destruct (eqb_spec r r') as [<-|N]; simpl; [|rewrite IH]; intuition.
Qed.

Lemma assign_wf r t m : map_wf m -> map_wf (assign_term r t m).
Proof.
  unfold map_wf. induction m as [|[r' ts] m IH]; simpl; intro H.
  - repeat constructor. intros [].
  - inversion H; subst. destruct (eqb_spec r r') as [<-|N]; simpl; constructor; auto.
    intro Hin. apply assign_keys in Hin. destruct Hin; congruence.
Qed.

(** No duplicate term in the set of a resource. *)
Definition sets_wf (m : list (res * list term)) : Prop := forall r ts, In (r, ts) m -> NoDup ts.

Lemma assign_sets r t m : sets_wf m -> sets_wf (assign_term r t m).
Proof.
  unfold sets_wf. induction m as [|[r' ts'] m IH]; simpl; intros H r1 ts1.
  - intros [[= <- <-]|[]]. repeat constructor. intros [].
  - destruct (eqb_spec r r') as [<-|N].
    + intros [[= <- <-]|Hin]; [|apply (H r1); now right].
      destruct (mem t ts') eqn:E; [apply (H r); now left|].
      apply (Permutation_NoDup (l := t :: ts')); [apply Permutation_cons_append|].
      constructor; [|apply (H r); now left]. intro Hin. apply mem_In in Hin. congruence.
    + intros [[= <- <-]|Hin]; [apply (H r'); now left|]. apply (IH) in Hin; [exact Hin|].
      intros r2 ts2 H2. apply (H r2). now right.
Qed.

Lemma terms_of_In r ts m : map_wf m -> In (r, ts) m -> terms_of r m = ts.
Proof.
  unfold map_wf. induction m as [|[r' ts'] m IH]; simpl; intros H Hin; [destruct Hin|].
  inversion H; subst. destruct Hin as [[= -> ->]|Hin]; [now rewrite eqb_refl|].
  destruct (eqb_spec r r') as [-> |N]; [|now apply IH].
  exfalso. apply H2. now apply (in_map fst) in Hin.
Qed.

Lemma terms_of_key r t m : In t (terms_of r m) -> exists ts, In (r, ts) m /\ In t ts.
Proof.
  induction m as [|[r' ts'] m IH]; simpl; [intros []|].
  destruct (eqb_spec r r') as [<-|N]; intro H; [exists ts'; auto|].
  destruct (IH H) as (ts & H1 & H2). exists ts. auto.
Qed.

Definition not_term (r : res) : Prop := forall t, r <> RTerm t.

Lemma map_get_In r t m : map_get r m = Some t -> In (r, t) m.
Proof.
  induction m as [|[r' t'] m IH]; simpl; [discriminate|].
  destruct (eqb_spec r r') as [<-|N]; [intros [= ->]; now left|]. intro H. right. now apply IH.
Qed.

(** The ambiguity check succeeds iff every resource has at most one term. *)
Lemma check_terms_Ok m map' :
  map_wf m -> sets_wf m -> check_terms m = Ok map' ->
  (forall r t, In t (terms_of r m) -> r = RTerm t \/ (not_term r /\ map_get r map' = Some t)) /\
  (forall r t, map_get r map' = Some t -> not_term r /\ In t (terms_of r m)).
Proof.
  revert map'. induction m as [|[r ts] m IH]; intros map' W SW H; cbn [check_terms] in H.
  - injection H as <-. split; [intros r t []|discriminate].
  - assert (map_wf m) as Wm by (now inversion W).
    assert (~ In r (map fst m)) as Nr by (now inversion W).
    assert (sets_wf m) as SWm by (intros r' ts' Hin; apply (SW r'); now right).
    assert (forall t, ~ In t (terms_of r m)) as Nt.
    { intros t Ht. apply terms_of_key in Ht as (ts' & Ht & _). apply Nr. now apply (in_map fst) in Ht. }
    assert (HT : forall t0, r = RTerm t0 ->
      match find (fun u => negb (eqb t0 u)) ts with
      | Some u => Err (DTermAmbiguity t0 u) | None => check_terms m end = Ok map' ->
      (forall r0 t, In t (terms_of r0 ((r, ts) :: m)) -> r0 = RTerm t \/ (not_term r0 /\ map_get r0 map' = Some t)) /\
      (forall r0 t, map_get r0 map' = Some t -> not_term r0 /\ In t (terms_of r0 ((r, ts) :: m)))).
    { intros t0 -> H0. destruct (find _ ts) as [u|] eqn:EF; [discriminate|].
      destruct (IH _ Wm SWm H0) as [I1 I2]. split.
      - intros r0 t Ht. simpl in Ht. destruct (eqb_spec r0 (RTerm t0)) as [-> |N]; [|now apply I1].
        left. pose proof (find_none _ _ EF t Ht) as E. simpl in E.
        apply negb_false_iff in E. apply (proj1 (eqb_eq t0 t)) in E. congruence.
      - intros r0 t Ht. destruct (I2 r0 t Ht) as [J1 J2]. split; [exact J1|]. simpl.
        destruct (eqb_spec r0 (RTerm t0)) as [-> |N]; [|exact J2]. exfalso. now apply (J1 t0). }
    assert (HN : not_term r ->
      match ts with
      | [] => check_terms m
      | [t] => let* map := check_terms m in Ok ((r, t) :: map)
      | t :: u :: _ => Err (DTermAmbiguity t u)
      end = Ok map' ->
      (forall r0 t, In t (terms_of r0 ((r, ts) :: m)) -> r0 = RTerm t \/ (not_term r0 /\ map_get r0 map' = Some t)) /\
      (forall r0 t, map_get r0 map' = Some t -> not_term r0 /\ In t (terms_of r0 ((r, ts) :: m)))).
    { intros Hr H0. destruct ts as [|t0 [|u ts]]; [| |discriminate].
      - destruct (IH _ Wm SWm H0) as [I1 I2]. split.
        + intros r0 t Ht. simpl in Ht. destruct (eqb_spec r0 r) as [-> |N]; [destruct Ht|now apply I1].
        + intros r0 t Ht. destruct (I2 r0 t Ht) as [J1 J2]. split; [exact J1|]. simpl.
          destruct (eqb_spec r0 r) as [-> |N]; [|exact J2]. exfalso. now apply (Nt t).
      - apply bind_Ok in H0 as (map1 & H1 & [= <-]).
        destruct (IH _ Wm SWm H1) as [I1 I2]. split.
        + intros r0 t Ht. simpl in Ht |- *. destruct (eqb_spec r0 r) as [-> |N]; [|now apply I1].
          destruct Ht as [<-|[]]. right. split; [exact Hr|reflexivity].
        + intros r0 t Ht. simpl in Ht |- *. destruct (eqb_spec r0 r) as [-> |N]; [|now apply I2].
          injection Ht as <-. split; [exact Hr|now left]. }
    destruct r as [i|i|t0].
    + apply HN; [intros t; discriminate|exact H].
    + apply HN; [intros t; discriminate|exact H].
    + apply (HT t0); [reflexivity|exact H].
Qed.

Lemma check_terms_Err m :
  map_wf m -> sets_wf m ->
  (exists map', check_terms m = Ok map') \/
  (exists r a b, check_terms m = Err (DTermAmbiguity a b) /\ a <> b /\ In b (terms_of r m) /\
     (r = RTerm a \/ (not_term r /\ In a (terms_of r m)))).
Proof.
  induction m as [|[r ts] m IH]; intros W SW; cbn [check_terms]; [left; eauto|].
  assert (map_wf m) as Wm by (now inversion W).
  assert (~ In r (map fst m)) as Nr by (now inversion W).
  assert (sets_wf m) as SWm by (intros r' ts' Hin; apply (SW r'); now right).
  assert (NoDup ts) as Nts by (apply (SW r); now left).
  assert (forall r0 t, In t (terms_of r0 m) -> In t (terms_of r0 ((r, ts) :: m))) as Hsub.
  { intros r0 t Ht. simpl. destruct (eqb_spec r0 r) as [-> |N]; [|exact Ht].
    apply terms_of_key in Ht as (ts' & Ht & _). exfalso. apply Nr. now apply (in_map fst) in Ht. }
  assert (HR : forall t, In t ts -> In t (terms_of r ((r, ts) :: m))).
  { intros t Ht. simpl. now rewrite eqb_refl. }
  specialize (IH Wm SWm).
  assert (IH' : (exists map', check_terms m = Ok map') \/
    exists r0 a b, check_terms m = Err (DTermAmbiguity a b) /\ a <> b /\ In b (terms_of r0 ((r, ts) :: m)) /\
     (r0 = RTerm a \/ (not_term r0 /\ In a (terms_of r0 ((r, ts) :: m))))).
  { destruct IH as [IH|(r0 & a & b & E & N & Hb & Ha)]; [now left|]. right. exists r0, a, b.
    split; [exact E|]. split; [exact N|]. split; [now apply Hsub|].
    destruct Ha as [-> |[Hn Ha]]; [now left|]. right. split; [exact Hn|now apply Hsub]. }
  assert (HN : not_term r -> forall o, o = match ts with
      | [] => check_terms m
      | [t] => let* map := check_terms m in Ok ((r, t) :: map)
      | t :: u :: _ => Err (DTermAmbiguity t u)
      end ->
      (exists map', o = Ok map') \/
      (exists r0 a b, o = Err (DTermAmbiguity a b) /\ a <> b /\ In b (terms_of r0 ((r, ts) :: m)) /\
         (r0 = RTerm a \/ (not_term r0 /\ In a (terms_of r0 ((r, ts) :: m)))))).
  { intros Hr o ->. destruct ts as [|t0 [|u ts]].
    - exact IH'.
    - destruct IH' as [[map' E]|(r0 & a & b & E & H)]; rewrite E; simpl; [left; eauto|].
      right. exists r0, a, b. split; [reflexivity|exact H].
    - right. exists r, t0, u. split; [reflexivity|]. split.
      + inversion Nts as [|? ? H1 H2]; subst. intros ->. apply H1. now left.
      + split; [apply HR; right; now left|]. right. split; [exact Hr|apply HR; now left]. }
  destruct r as [i|i|t0].
  - apply HN; [intros t; discriminate|reflexivity].
  - apply HN; [intros t; discriminate|reflexivity].
  - destruct (find (fun u => negb (eqb t0 u)) ts) as [u|] eqn:EF; [|exact IH'].
    apply find_some in EF as [Hu E]. apply negb_true_iff in E. apply (proj1 (eqb_neq t0 u)) in E.
    right. exists (RTerm t0), t0, u. split; [reflexivity|]. split; [exact E|].
    split; [now apply HR|now left].
Qed.

(** ** Mapping of the resources *)
Section Map.
Context {Gn : Type}.
Variable opts : options Gn.
Notation table := (list (res * term)).

Definition look (m : table) (r : res) : option term :=
  match r with RTerm t => Some t | _ => map_get r m end.

(** The [n]-th identifier of the generator. *)
Fixpoint gen_state (n : nat) : Gn :=
  match n with 0 => o_generator opts | Datatypes.S n => snd (o_next opts (gen_state n)) end.
Definition generated (n : nat) : term := fst (o_next opts (gen_state n)).

(** Origin of the entries of the table [m], starting from the table [m0]; [n] identifiers have been
    generated, [f] tells which one was given to each resource. *)
Record origin (m0 m : table) (n : nat) (f : nat -> nat) : Prop := {
  or_extends : forall r t, look m0 r = Some t -> look m r = Some t;
  or_input : forall i t, map_get (RInput i) m = Some t ->
    map_get (RInput i) m0 = Some t \/ (map_get (RInput i) m0 = None /\ t = o_input_term opts i);
  or_anon : forall i t, map_get (RAnon i) m = Some t ->
    map_get (RAnon i) m0 = Some t \/
    (map_get (RAnon i) m0 = None /\ f i < n /\ t = generated (f i));
  or_inj : forall i i' t t', map_get (RAnon i) m = Some t -> map_get (RAnon i) m0 = None ->
    map_get (RAnon i') m = Some t' -> map_get (RAnon i') m0 = None -> f i = f i' -> i = i'
}.

Lemma origin_refl m0 : origin m0 m0 0 (fun i => i).
Proof. split; auto. Qed.

Definition extends (m m' : table) : Prop := forall r t, look m r = Some t -> look m' r = Some t.

Lemma look_get r m : not_term r -> look m r = map_get r m.
Proof. destruct r as [i|i|t]; simpl; auto. intro H. exfalso. now apply (H t). Qed.

Lemma map_resource_step m0 m n f r t st' :
  origin m0 m n f -> map_resource opts (m, gen_state n) r = (t, st') ->
  exists m' n' f', st' = (m', gen_state n') /\ origin m0 m' n' f' /\ look m' r = Some t /\ extends m m'.
Proof.
  intros HO H. destruct r as [i|i|t0]; cbn [map_resource fst snd] in H.
  - destruct (map_get (RInput i) m) as [t'|] eqn:E.
    + injection H as <- <-. exists m, n, f. split; [reflexivity|]. split; [exact HO|]. split; [assumption || reflexivity|]. intros ? ? Hx; exact Hx.
    + injection H as <- <-. exists ((RInput i, o_input_term opts i) :: m), n, f.
      split; [reflexivity|].
      assert (extends m ((RInput i, o_input_term opts i) :: m)) as HX.
      { intros r t Hr. destruct r as [j|j|t1]; simpl in *; auto.
        destruct (eqb_spec (RInput j) (RInput i)) as [[= ->]|N]; [congruence|exact Hr]. }
      split; [|split; [|exact HX]].
      * destruct HO as [H1 H2 H3 H4]. split.
        -- intros r t Hr. now apply HX, H1.
        -- intros j t Hj. simpl in Hj. destruct (eqb_spec (RInput j) (RInput i)) as [[= ->]|N]; [|now apply H2].
           injection Hj as <-. right. split; [|reflexivity].
           destruct (map_get (RInput i) m0) as [t1|] eqn:E0; [|reflexivity].
           specialize (H1 (RInput i) t1 E0). simpl in H1. congruence.
        -- intros j t Hj. apply H3. exact Hj.
        -- intros j j' t t' Hj Hj0 Hj' Hj0'. eapply H4; eassumption.
      * simpl. now rewrite eqb_refl.
  - destruct (map_get (RAnon i) m) as [t'|] eqn:E.
    + injection H as <- <-. exists m, n, f. split; [reflexivity|]. split; [exact HO|]. split; [assumption || reflexivity|]. intros ? ? Hx; exact Hx.
    + destruct (o_next opts (gen_state n)) as [t1 gn] eqn:EN. injection H as <- <-.
      exists ((RAnon i, t1) :: m), (Datatypes.S n), (fun j => if Nat.eqb j i then n else f j).
      split; [simpl; now rewrite EN|].
      assert (generated n = t1) as Eg by (unfold generated; now rewrite EN).
      assert (extends m ((RAnon i, t1) :: m)) as HX.
      { intros r t Hr. destruct r as [j|j|t2]; simpl in *; auto.
        destruct (eqb_spec (RAnon j) (RAnon i)) as [[= ->]|N]; [congruence|exact Hr]. }
      split; [|split; [|exact HX]].
      * destruct HO as [H1 H2 H3 H4].
        assert (map_get (RAnon i) m0 = None) as E0.
        { destruct (map_get (RAnon i) m0) as [t2|] eqn:E0; [|reflexivity].
          specialize (H1 (RAnon i) t2 E0). simpl in H1. congruence. }
        split.
        -- intros r t Hr. now apply HX, H1.
        -- intros j t Hj. apply H2. exact Hj.
        -- intros j t Hj. simpl in Hj. destruct (Nat.eqb_spec j i) as [-> |N].
           ++ rewrite eqb_refl in Hj. injection Hj as <-. right. split; [exact E0|]. split; [lia|congruence].
           ++ destruct (eqb_spec (RAnon j) (RAnon i)) as [[= ->]|N']; [congruence|].
              destruct (H3 j t Hj) as [H|(A & B & C)]; [now left|]. right. repeat split; auto; lia.
        -- intros j j' t t' Hj Hj0 Hj' Hj0'. simpl in Hj, Hj'.
           destruct (Nat.eqb_spec j i) as [-> |N], (Nat.eqb_spec j' i) as [-> |N']; intro Ef; auto.
           ++ destruct (eqb_spec (RAnon j') (RAnon i)) as [[= ->]|_]; [reflexivity|].
              destruct (H3 j' t' Hj') as [H|(A & B & C)]; [congruence|lia].
           ++ destruct (eqb_spec (RAnon j) (RAnon i)) as [[= ->]|_]; [reflexivity|].
              destruct (H3 j t Hj) as [H|(A & B & C)]; [congruence|lia].
           ++ destruct (eqb_spec (RAnon j) (RAnon i)) as [[= ->]|_]; [congruence|].
              destruct (eqb_spec (RAnon j') (RAnon i)) as [[= ->]|_]; [congruence|].
              eapply H4; eassumption.
      * simpl. now rewrite eqb_refl.
  - injection H as <- <-. exists m, n, f. split; [reflexivity|]. split; [exact HO|]. split; [assumption || reflexivity|]. intros ? ? Hx; exact Hx.
Qed.

(** A quad all resources of which are in the table. *)
Definition look_quad (m : table) (q : quad res) (q' : quad term) : Prop :=
  look m (q_s q) = Some (q_s q') /\ look m (q_p q) = Some (q_p q') /\
  look m (q_o q) = Some (q_o q') /\
  match q_g q, q_g q' with
  | None, None => True
  | Some g, Some g' => look m g = Some g'
  | _, _ => False
  end.

Lemma look_quad_extends m m' q q' : extends m m' -> look_quad m q q' -> look_quad m' q q'.
Proof.
  intros HX (Hs & Hp & Ho & Hg). unfold look_quad. repeat split; auto.
  destruct (q_g q), (q_g q'); auto.
Qed.

Lemma map_quad_step m0 m n f q q' st' :
  origin m0 m n f -> map_quad opts (m, gen_state n) q = (q', st') ->
  exists m' n' f', st' = (m', gen_state n') /\ origin m0 m' n' f' /\ look_quad m' q q' /\ extends m m'.
Proof.
  intros HO H. unfold map_quad in H.
  destruct (map_resource opts (m, gen_state n) (q_s q)) as [s st1] eqn:Es.
  apply (map_resource_step m0 m n f) in Es as (m1 & n1 & f1 & -> & HO1 & Ls & X1); [|exact HO].
  destruct (map_resource opts (m1, gen_state n1) (q_p q)) as [p st2] eqn:Ep.
  apply (map_resource_step m0 m1 n1 f1) in Ep as (m2 & n2 & f2 & -> & HO2 & Lp & X2); [|exact HO1].
  destruct (map_resource opts (m2, gen_state n2) (q_o q)) as [o st3] eqn:Eo.
  apply (map_resource_step m0 m2 n2 f2) in Eo as (m3 & n3 & f3 & -> & HO3 & Lo & X3); [|exact HO2].
  unfold look_quad. destruct (q_g q) as [g|] eqn:Eg.
  - destruct (map_resource opts (m3, gen_state n3) g) as [g' st4] eqn:Eg'.
    apply (map_resource_step m0 m3 n3 f3) in Eg' as (m4 & n4 & f4 & -> & HO4 & Lg & X4); [|exact HO3].
    injection H as <- <-. exists m4, n4, f4. split; [reflexivity|]. split; [exact HO4|]. simpl.
    split; [|intros r t Hr; auto]. repeat split; auto.
  - injection H as <- <-. exists m3, n3, f3. split; [reflexivity|]. split; [exact HO3|]. simpl.
    split; [|intros r t Hr; auto]. repeat split; auto.
Qed.

Lemma map_list_step {A B} (F : table * Gn -> A -> B * (table * Gn)) (L : table -> A -> B -> Prop) m0 :
  (forall m n f a b st', origin m0 m n f -> F (m, gen_state n) a = (b, st') ->
     exists m' n' f', st' = (m', gen_state n') /\ origin m0 m' n' f' /\ L m' a b /\ extends m m') ->
  (forall m m' a b, extends m m' -> L m a b -> L m' a b) ->
  forall l m n f bs st', origin m0 m n f -> map_list F (m, gen_state n) l = (bs, st') ->
  exists m' n' f', st' = (m', gen_state n') /\ origin m0 m' n' f' /\ Forall2 (L m') l bs /\ extends m m'.
Proof.
  intros HF HL. induction l as [|a l IH]; intros m n f bs st' HO H; cbn [map_list] in H.
  - injection H as <- <-. exists m, n, f. split; [reflexivity|]. split; [exact HO|].
    split; [constructor|]. intros r t Hr. exact Hr.
  - destruct (F (m, gen_state n) a) as [b st1] eqn:E1.
    apply (HF m n f) in E1 as (m1 & n1 & f1 & -> & HO1 & L1 & X1); [|exact HO].
    destruct (map_list F (m1, gen_state n1) l) as [bs' st2] eqn:E2. injection H as <- <-.
    apply (IH m1 n1 f1) in E2 as (m2 & n2 & f2 & -> & HO2 & L2 & X2); [|exact HO1].
    exists m2, n2, f2. split; [reflexivity|]. split; [exact HO2|].
    split; [|intros r t Hr; auto]. constructor; [|exact L2]. now apply (HL m1).
Qed.

End Map.

(** ** Well-formedness of the interpretation *)
Section Wf.
Context {X : Xsd} {IS : IriSyntax}.
Variable reg : registry term.

Definition interp_wf (st : dstate res input_interp) : Prop :=
  map_wf (ii_map (ds_interp st)) /\ sets_wf (ii_map (ds_interp st)) /\ NoDup (ds_output st).

Lemma dehydrate_wf fuel v g ref inputs st o st' :
  interp_wf st -> dehydrate_with input_interpretation reg fuel v g ref inputs st = (o, st') ->
  interp_wf st'.
Proof.
  intros W H.
  assert (preserves (Q := term) (fun st st' => interp_wf st -> interp_wf st')
            (dehydrate_with input_interpretation reg fuel v g ref inputs)) as P.
  { apply dehydrate_preserves; auto; unfold interp_wf; simpl.
    - intros i o' r s (W1 & W2 & W3). split; [now apply assign_wf|]. split; [now apply assign_sets|assumption].
    - intros i o' r s (W1 & W2 & W3). split; [now apply assign_wf|]. split; [now apply assign_sets|assumption].
    - intros i o' qs _ (W1 & W2 & W3). split; [assumption|]. split; [assumption|]. now apply ds_insert_all_NoDup. }
  specialize (P st W). now rewrite H in P.
Qed.

Definition initial : dstate res input_interp := DState (InputInterp [] 0) [].

Lemma initial_wf : interp_wf initial.
Proof. split; [constructor|]. split; [intros r ts []|constructor]. Qed.
End Wf.

(** ** The result of [dehydrate] *)
Section Result.
Context {Gn : Type} {X : Xsd} {IS : IriSyntax}.
Variable opts : options Gn.
Variable reg : registry term.
Variable order : list (quad res) -> list (quad res).
Hypothesis order_perm : forall l, Permutation (order l) l.

Definition quad_res (q : quad res) (r : res) : Prop :=
  q_s q = r \/ q_p q = r \/ q_o q = r \/ q_g q = Some r.

(** Number of inputs of the root layout. *)
Definition root_count (l : layout term) : nat :=
  match input_count l with
  | Some n => n
  | None => match o_input_count opts with Some n => n | None => 1 end
  end.

(** What [theta] maps the resources of the final state [st] to. *)
Record mapping (st : dstate res input_interp) (count : nat) (theta : res -> term) : Prop := {
  mp_term : forall t, theta (RTerm t) = t;
  mp_assigned : forall r t, assigned st r t -> theta r = t;
  mp_input : forall i, i < count -> (forall t, ~ assigned st (RInput i) t) ->
    theta (RInput i) = o_input_term opts i;
  mp_anon : exists f : nat -> nat,
    (forall i q, In q (ds_output st) -> quad_res q (RAnon i) -> (forall t, ~ assigned st (RAnon i) t) ->
       theta (RAnon i) = generated opts (f i)) /\
    (forall i i' q q', In q (ds_output st) -> quad_res q (RAnon i) -> (forall t, ~ assigned st (RAnon i) t) ->
       In q' (ds_output st) -> quad_res q' (RAnon i') -> (forall t, ~ assigned st (RAnon i') t) ->
       f i = f i' -> i = i')
}.

(** The end of a run: the terms given to the resources, and the state in which the generator is left. *)
Lemma finish_inv fuel v ref count st m0 dataset ms values ms' :
  dehydrate_with input_interpretation reg fuel v None ref (map RInput (seq 0 count)) initial = (Ok tt, st) ->
  check_terms (ii_map (ds_interp st)) = Ok m0 ->
  map_list (map_quad opts) (m0, o_generator opts) (order (ds_output st)) = (dataset, ms) ->
  map_list (map_resource opts) ms (map RInput (seq 0 count)) = (values, ms') ->
  exists theta k, snd ms' = gen_state opts k /\
    mapping st count theta /\
    (forall i q, In q (ds_output st) -> quad_res q (RAnon i) -> (forall t, ~ assigned st (RAnon i) t) ->
       exists j, j < k /\ theta (RAnon i) = generated opts j) /\
    NoDup (fold_left (fun d q => ds_insert q d) dataset []) /\
    (forall q, In q (fold_left (fun d q => ds_insert q d) dataset []) <-> exists q', In q' (ds_output st) /\ q = quad_map theta q') /\
    values = map theta (map RInput (seq 0 count)).
Proof.
  intros ED Hm0 E1 E2.
  destruct (dehydrate_wf _ _ _ _ _ _ _ _ _ initial_wf ED) as (W1 & W2 & W3).
  destruct (check_terms_Ok _ _ W1 W2 Hm0) as [C1 C2].
  change (o_generator opts) with (gen_state opts 0) in E1.
  apply (map_list_step opts (map_quad opts) look_quad m0) with (f := fun i => i) in E1
    as (m1 & n1 & f1 & -> & HO1 & L1 & X1); [|intros; eapply map_quad_step; eassumption|intros; eapply look_quad_extends; eassumption|apply origin_refl].
  apply (map_list_step opts (map_resource opts) (fun m r t => look m r = Some t) m0) with (f := f1) in E2
    as (m2 & n2 & f2 & -> & HO2 & L2 & X2); [|intros; eapply map_resource_step; eassumption|auto|exact HO1].
  set (theta := fun r => match look m2 r with Some t => t | None => o_input_term opts 0 end).
  assert (TH : forall r t, look m2 r = Some t -> theta r = t) by (intros r t E; unfold theta; now rewrite E).
  assert (TQ : forall q q', look_quad m1 q q' -> q' = quad_map theta q).
  { intros q q' HQ. apply (look_quad_extends _ _ _ _ X2) in HQ. destruct HQ as (Hs & Hp & Ho & Hg).
    unfold quad_map. rewrite (TH _ _ Hs), (TH _ _ Hp), (TH _ _ Ho).
    destruct q' as [s p o g']. simpl in *. f_equal.
    destruct (q_g q) as [g|], g' as [g'|]; simpl; try contradiction; [|reflexivity].
    now rewrite (TH _ _ Hg). }
  assert (DS : dataset = map (quad_map theta) (order (ds_output st))).
  { clear -L1 TQ. induction L1; simpl; [reflexivity|]. f_equal; auto. }
  assert (Hin : forall q, In q (order (ds_output st)) <-> In q (ds_output st)).
  { intro q. split; apply Permutation_in; [|apply Permutation_sym]; apply order_perm. }
  assert (HA : forall i q, In q (ds_output st) -> quad_res q (RAnon i) ->
    (forall t, ~ assigned st (RAnon i) t) ->
    exists t, map_get (RAnon i) m2 = Some t /\ map_get (RAnon i) m0 = None /\ t = generated opts (f2 i) /\ f2 i < n2).
  { intros i q Hq Hr Hna. apply Hin in Hq.
    assert (exists q', look_quad m2 q q') as (q' & Hs & Hp & Ho & Hg).
    { clear -L1 Hq X2. induction L1; [destruct Hq|]. destruct Hq as [-> |Hq]; [|auto].
      eexists. eapply look_quad_extends; eassumption. }
    assert (exists t, look m2 (RAnon i) = Some t) as [t Ht].
    { destruct Hr as [E|[E|[E|E]]]; rewrite E in *; eauto. destruct (q_g q'); [eauto|contradiction]. }
    exists t. split; [exact Ht|].
    destruct (or_anon _ _ _ _ _ HO2 i t Ht) as [H|(H1 & H2 & H3)]; [|auto].
    exfalso. apply C2 in H as [_ H]. eapply Hna, H. }
  exists theta, n2. split; [reflexivity|]. split; [|split; [|split; [|split]]].
  - split.
    + reflexivity.
    + intros r t Ht. destruct (C1 r t Ht) as [-> |[Hn Ht']]; [reflexivity|].
      apply TH. apply (or_extends _ _ _ _ _ HO2). now rewrite look_get.
    + intros i Hi Hna.
      assert (In (RInput i) (map RInput (seq 0 (count)))) as Hii by (apply in_map, in_seq; lia).
      assert (exists t, look m2 (RInput i) = Some t) as [t Ht].
      { clear -L2 Hii. induction L2; [destruct Hii|]. destruct Hii as [-> |Hii]; eauto. }
      rewrite (TH _ _ Ht). destruct (or_input _ _ _ _ _ HO2 i t Ht) as [H|[_ H]]; [|exact H].
      exfalso. apply C2 in H as [_ H]. eapply Hna, H.
    + exists f2. split.
      * intros i q Hq Hr Hna. destruct (HA i q Hq Hr Hna) as (t & H1 & H2 & H3 & _).
        rewrite (TH (RAnon i) t H1). exact H3.
      * intros i i' q q' Hq Hr Hna Hq' Hr' Hna' Ef.
        destruct (HA i q Hq Hr Hna) as (t & H1 & H2 & H3 & _).
        destruct (HA i' q' Hq' Hr' Hna') as (t' & H1' & H2' & H3' & _).
        eapply (or_inj _ _ _ _ _ HO2); eassumption.
  - intros i q Hq Hr Hna. destruct (HA i q Hq Hr Hna) as (t & H1 & H2 & H3 & H4). exists (f2 i). split; [exact H4|].
    rewrite (TH (RAnon i) t H1). exact H3.
  - apply ds_insert_all_NoDup. constructor.
  - intro q. rewrite ds_insert_all_In. split.
    + intros [H|[]]. rewrite DS in H. apply in_map_iff in H as (q' & <- & Hq'). exists q'.
      split; [now apply Hin|reflexivity].
    + intros (q' & Hq' & ->). left. rewrite DS. apply in_map. now apply Hin.
  - clear -L2 TH. induction L2; simpl; [reflexivity|]. f_equal; [symmetry; now apply TH|assumption].
Qed.

Theorem dehydrate_inv fuel v ref ds vals :
  dehydrate order reg fuel v ref opts = Ok (ds, vals) ->
  exists l st theta,
    reg ref = Some l /\
    dehydrate_with input_interpretation reg fuel v None ref (map RInput (seq 0 (root_count l))) initial
      = (Ok tt, st) /\
    mapping st (root_count l) theta /\
    NoDup ds /\
    (forall q, In q ds <-> exists q', In q' (ds_output st) /\ q = quad_map theta q') /\
    vals = map theta (map RInput (seq 0 (root_count l))).
Proof.
  unfold dehydrate. intro H. apply bind_Ok in H as (l & Hl & H).
  assert (reg ref = Some l) as Hreg by (destruct (reg ref); cbn [ok_or] in Hl; [now injection Hl as ->|discriminate]). clear Hl.
  fold (root_count l) in H. fold initial in H.
  destruct (dehydrate_with _ reg fuel v None ref _ initial) as [[[]|e|w|] st] eqn:ED; try discriminate.
  apply bind_Ok in H as (m0 & Hm0 & H).
  destruct (map_list (map_quad opts) (m0, o_generator opts) (order (ds_output st))) as [dataset ms] eqn:E1.
  destruct (map_list (map_resource opts) ms (map RInput (seq 0 (root_count l)))) as [values ms'] eqn:E2.
  injection H as <- <-.
  destruct (finish_inv _ _ _ _ _ _ _ _ _ _ ED Hm0 E1 E2) as (theta & k & _ & MP & _ & ND & HD & HV).
  exists l, st, theta. auto 10.
Qed.

(** Failures of [dehydrate]. *)
Theorem dehydrate_Err fuel v ref e :
  dehydrate order reg fuel v ref opts = Err e ->
  (reg ref = None /\ e = DLayoutNotFound ref) \/
  (exists l st, reg ref = Some l /\
    dehydrate_with input_interpretation reg fuel v None ref (map RInput (seq 0 (root_count l))) initial
      = (Err e, st)) \/
  (exists l st a b, reg ref = Some l /\
    dehydrate_with input_interpretation reg fuel v None ref (map RInput (seq 0 (root_count l))) initial
      = (Ok tt, st) /\ e = DTermAmbiguity a b /\ a <> b /\
    exists r, assigned st r b /\ (r = RTerm a \/ assigned st r a)).
Proof.
  unfold dehydrate. destruct (reg ref) as [l|]; cbn [ok_or bind]; [|intros [= <-]; left; auto].
  fold (root_count l). fold initial.
  destruct (dehydrate_with _ reg fuel v None ref _ initial) as [[[]|e'|w|] st] eqn:ED; try discriminate.
  - destruct (dehydrate_wf _ _ _ _ _ _ _ _ _ initial_wf ED) as (W1 & W2 & W3).
    destruct (check_terms_Err _ W1 W2) as [[m E]|(r & a & b & E & N & Hb & Ha)]; rewrite E; cbn [bind].
    + destruct (map_list _ _ _) as [dataset ms]. destruct (map_list _ _ _). discriminate.
    + intros [= <-]. right. right. exists l, st, a, b. repeat split; auto. exists r. split; [exact Hb|].
      destruct Ha as [Ha|[_ Ha]]; auto.
  - intros [= <-]. right. left. exists l, st. auto.
Qed.

Theorem dehydrate_ambiguous fuel v ref l st r t1 t2 :
  reg ref = Some l ->
  dehydrate_with input_interpretation reg fuel v None ref (map RInput (seq 0 (root_count l))) initial
    = (Ok tt, st) ->
  (assigned st r t1 \/ r = RTerm t1) -> assigned st r t2 -> t1 <> t2 ->
  exists a b, a <> b /\ dehydrate order reg fuel v ref opts = Err (DTermAmbiguity a b).
Proof.
  intros Hl ED H1 H2 N. unfold dehydrate. rewrite Hl. cbn [ok_or bind].
  fold (root_count l). fold initial. rewrite ED.
  destruct (dehydrate_wf _ _ _ _ _ _ _ _ _ initial_wf ED) as (W1 & W2 & W3).
  destruct (check_terms_Err _ W1 W2) as [[m E]|(r' & a & b & E & N' & _)]; rewrite E; cbn [bind]; [|eauto].
  exfalso. destruct (check_terms_Ok _ _ W1 W2 E) as [C _]. apply N.
  destruct (C r t2 H2) as [-> |[Hn E2]].
  - destruct H1 as [H1|[= H1]]; [|congruence]. destruct (C _ _ H1) as [[= H]|[Hn _]]; [congruence|].
    exfalso. now apply (Hn t2).
  - destruct H1 as [H1| ->]; [|exfalso; now apply (Hn t1)].
    destruct (C r t1 H1) as [-> |[_ E1]]; [exfalso; now apply (Hn t1)|congruence].
Qed.

End Result.

(** ** The default identifiers *)

Lemma nat_string_inj n m : nat_string n = nat_string m -> n = m.
Proof.
  unfold nat_string. intro H. apply (f_equal DecimalString.NilZero.uint_of_string) in H.
  assert (forall k, Nat.to_uint k <> Decimal.Nil) as NN.
  { intros k E. pose proof (DecimalNat.Unsigned.of_to k) as P. rewrite E in P. simpl in P. subst k.
    discriminate. }
  rewrite !DecimalString.NilZero.usu in H by apply NN.
  injection H as H. apply DecimalNat.Unsigned.to_uint_inj. exact H.
Qed.

Lemma default_gen n : gen_state default_options n = n.
Proof. induction n as [|n IH]; simpl; [reflexivity|]. rewrite IH. reflexivity. Qed.

Lemma default_generated n : generated default_options n = TmBlank (nat_string n).
Proof. unfold generated. rewrite default_gen. reflexivity. Qed.

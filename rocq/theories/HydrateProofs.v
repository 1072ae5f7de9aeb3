(** * Proofs about hydration *)

From Coq Require Import String List Bool Arith NArith Permutation Sorted Lia Qcanon.
Import ListNotations.
From Verif Require Import Base BaseProofs Orders PatternModel MatchingModel MatchingSpec
  MatchingProofs ValueModel ValueProofs LayoutModel HydrateModel HydrateSpec.
Open Scope list_scope.
Open Scope nat_scope.

Local Arguments with_component : simpl never.

(** ** More on matching *)

Section Streams.
Context {R : Type} {CR : Cmp R} {LR : CmpLaws R}.
Variable D : dataset R.
Variable G : quad R -> Prop.
Hypothesis EN : enumerates D G.

(** The substitutions of a stream. *)
Definition good (l : list (item R)) : list (subst R) :=
  flat_map (fun i => match i with inr s => [s] | inl _ => [] end) l.

Lemma good_In l s : In s (good l) <-> In (inr s) l.
Proof.
  unfold good. rewrite in_flat_map. split.
  - intros ([w|s'] & H & I); [contradiction|]. destruct I as [->|[]]. auto.
  - intros H. exists (inr s). split; simpl; auto.
Qed.

Lemma good_app l l' : good (l ++ l') = good l ++ good l'.
Proof. apply flat_map_app. Qed.

Lemma good_flat_map {A} (f : A -> list (item R)) l :
  good (flat_map f l) = flat_map (fun a => good (f a)) l.
Proof. induction l; simpl; auto. rewrite good_app. now f_equal. Qed.

Lemma good_NoDup ps : forall s, NoDup (good (stream D ps s)).
Proof.
  induction ps as [|p ps IH]; intros s.
  - repeat constructor. simpl; tauto.
  - rewrite stream_cons, good_flat_map. apply NoDup_flat_map.
    + apply EN.
    + intros q Hq.
      destruct (with_quad_cases s p q) as [(s1 & E)|[E|(w & E)]]; rewrite E; simpl;
        auto using NoDup_nil.
    + intros q q' s' Hq Hq' Hi Hi'. apply good_In in Hi, Hi'.
      apply EN in Hq as [_ Aq]. apply EN in Hq' as [_ Aq'].
      destruct (with_quad_cases s p q) as [(s1 & E)|[E|(w & E)]]; rewrite E in Hi;
        [|contradiction|destruct Hi as [Hi|[]]; discriminate].
      destruct (with_quad_cases s p q') as [(s1' & E')|[E'|(w & E')]]; rewrite E' in Hi';
        [|contradiction|destruct Hi' as [Hi'|[]]; discriminate].
      eapply stream_sound in Hi; eauto. eapply stream_sound in Hi'; eauto.
      apply with_quad_Some in E as (_ & _ & I & _).
      apply with_quad_Some in E' as (_ & _ & I' & _).
      eapply (qinst_fun s' p).
      * eapply qinst_mono; [|apply I, Aq]. exact (sol_extends _ _ _ _ Hi).
      * eapply qinst_mono; [|apply I', Aq']. exact (sol_extends _ _ _ _ Hi').
Qed.

(** Declaring more variables does not change what is found. *)
Lemma sset_app (s ext : subst R) x v old s' :
  sset s x v = Some (old, s') -> sset (s ++ ext) x v = Some (old, s' ++ ext).
Proof.
  revert x s'. induction s as [|o s IH]; intros [|x] s' H; simpl in *; try discriminate.
  - now injection H as <- <-.
  - destruct (sset s x v) as [[old' s'']|] eqn:E; [|discriminate].
    injection H as <- <-. now rewrite (IH _ _ E).
Qed.

Lemma with_component_app p v (s ext : subst R) r :
  with_component p v s = Ok r ->
  with_component p v (s ++ ext) = Ok (option_map (fun s' => s' ++ ext) r).
Proof.
  unfold with_component. destruct p as [r0|x]; intros H.
  - now injection H as <-.
  - destruct (sset s x (Some v)) as [[old s']|] eqn:E; [|discriminate].
    rewrite (sset_app _ _ _ _ _ _ E). destruct old as [o|].
    + destruct (eqb o v); now injection H as <-.
    + now injection H as <-.
Qed.

Lemma with_quad_app p q (s ext : subst R) r :
  with_quad s p q = Ok r ->
  with_quad (s ++ ext) p q = Ok (option_map (fun s' => s' ++ ext) r).
Proof.
  unfold with_quad. intros H.
  destruct (with_component (q_s p) (q_s q) s) as [o1| | |] eqn:E1; try discriminate.
  rewrite (with_component_app _ _ _ ext _ E1).
  destruct o1 as [s1|]; simpl in H |- *; [|now injection H as <-].
  destruct (with_component (q_p p) (q_p q) s1) as [o2| | |] eqn:E2; try discriminate.
  rewrite (with_component_app _ _ _ ext _ E2).
  destruct o2 as [s2|]; simpl in H |- *; [|now injection H as <-].
  destruct (with_component (q_o p) (q_o q) s2) as [o3| | |] eqn:E3; try discriminate.
  rewrite (with_component_app _ _ _ ext _ E3).
  destruct o3 as [s3|]; simpl in H |- *; [|now injection H as <-].
  destruct (q_g p) as [[g|x]|]; try now injection H as <-.
  destruct (q_g q) as [g|]; simpl in *; [|discriminate].
  now apply with_component_app.
Qed.

Lemma stream_app_In ps ext : forall s s',
  In (inr s') (stream D ps s) -> In (inr (s' ++ ext)) (stream D ps (s ++ ext)).
Proof.
  induction ps as [|p ps IH]; intros s s' H.
  - destruct H as [[= <-]|[]]. now left.
  - rewrite stream_cons in *. apply in_flat_map in H as (q & Hq & H).
    apply in_flat_map. exists q. split; auto.
    destruct (with_quad_cases s p q) as [(s1 & E)|[E|(w & E)]]; rewrite E in H.
    2: contradiction.
    2:{ destruct H as [H|[]]; discriminate. }
    rewrite (with_quad_app _ _ _ ext _ E). simpl. now apply IH.
Qed.

Lemma flat_map_ext_in {A B} (f g : A -> list B) l :
  (forall a, In a l -> f a = g a) -> flat_map f l = flat_map g l.
Proof.
  induction l as [|a l IH]; intros H; simpl; auto.
  rewrite IH, (H a); auto using in_eq, in_cons.
Qed.

Lemma map_flat_map {A B C} (f : A -> list B) (g : B -> C) l :
  map g (flat_map f l) = flat_map (fun a => map g (f a)) l.
Proof. induction l; simpl; auto. rewrite map_app. now f_equal. Qed.

Lemma stream_app ps ext : forall s,
  (forall i, In i (stream D ps s) -> ~ panicking i) ->
  stream D ps (s ++ ext) =
  map (fun i => match i with inr s' => inr (s' ++ ext) | inl w => inl w end) (stream D ps s).
Proof.
  induction ps as [|p ps IH]; intros s NP; auto.
  rewrite stream_cons in *. rewrite stream_cons, map_flat_map.
  apply flat_map_ext_in. intros q Hq.
  assert (NPq := fun i Hi => NP i (proj2 (in_flat_map _ _ _) (ex_intro _ q (conj Hq Hi)))).
  cbv beta in NPq.
  destruct (with_quad_cases s p q) as [(s1 & E)|[E|(w & E)]]; rewrite E in *.
  - rewrite (with_quad_app _ _ _ ext _ E). simpl. apply IH. auto.
  - rewrite (with_quad_app _ _ _ ext _ E). reflexivity.
  - exfalso. eapply NPq; [left; reflexivity|]. eexists; reflexivity.
Qed.

End Streams.

Section Matches.
Context {R : Type} {CR : Cmp R} {LR : CmpLaws R}.
Variable D : dataset R.
Variable G : quad R -> Prop.
Hypothesis EN : enumerates D G.

Lemma with_default_graph_at g (ps : list (qpat R)) :
  with_default_graph g ps = map (at_graph g) ps.
Proof.
  unfold with_default_graph, at_graph. apply map_ext. intros [a b c d]. simpl.
  destruct d; auto.
Qed.

Lemma not_panicking_inr (l : list (subst R)) i : In i (map inr l) -> ~ panicking i.
Proof. intros H (w & ->). apply in_map_iff in H as (? & ? & _). discriminate. Qed.

(** The outcomes of [match_unique]. *)
Lemma match_unique_Some g ps s f s' :
  match_unique D g ps s f = Ok (Some s') -> the_solution G g s ps s'.
Proof.
  unfold match_unique. rewrite with_default_graph_at. intros H.
  assert (E : stream D (map (at_graph g) ps) s = [inr s']).
  { destruct (stream D (map (at_graph g) ps) s) as [|[w|a] [|[w'|b] l]];
      simpl in H; try discriminate. now injection H as <-. }
  split.
  - eapply stream_sound; eauto. rewrite E. now left.
  - intros s'' S. eapply stream_complete in S; eauto.
    + rewrite E in S. destruct S as [[= <-]|[]]. reflexivity.
    + rewrite E. intros i [<-|[]] (w & C). discriminate.
Qed.

Lemma match_unique_None g ps s f :
  match_unique D g ps s f = Ok None -> no_solution G g s ps.
Proof.
  unfold match_unique. rewrite with_default_graph_at. intros H.
  assert (E : stream D (map (at_graph g) ps) s = []).
  { destruct (stream D (map (at_graph g) ps) s) as [|[w|a] [|[w'|b] l]];
      simpl in H; try discriminate. reflexivity. }
  intros s'' S. eapply stream_complete in S; eauto.
  - rewrite E in S. contradiction.
  - rewrite E. intros i [].
Qed.

Lemma stream_two ps s (a b : subst R) l :
  stream D ps s = inr a :: inr b :: l -> a <> b.
Proof.
  intros E. pose proof (good_NoDup D G EN ps s) as N. rewrite E in N. simpl in N.
  apply NoDup_cons_iff in N as [N _]. intros ->. apply N. now left.
Qed.

Lemma match_unique_Err g ps s f e :
  match_unique D g ps s f = Err e -> several_solutions G g s ps.
Proof.
  unfold match_unique. rewrite with_default_graph_at. intros H.
  destruct (stream D (map (at_graph g) ps) s) as [|[w|a] [|[w'|b] l]] eqn:E;
    simpl in H; try discriminate.
  exists a, b. split; [eapply stream_two; eauto|].
  split; eapply stream_sound; eauto; rewrite E; simpl; auto.
Qed.

Lemma match_required_unique g ps s f :
  match_required D g ps s f =
  let* o := match_unique D g ps s f in
  match o with Some s' => Ok s' | None => Err (MissingData f) end.
Proof.
  unfold match_required, match_unique, stream_required_unique.
  destruct (stream_unique (stream D (with_default_graph g ps) s)) as [[s'|]|[]| |]; reflexivity.
Qed.

Lemma match_required_Ok g ps s f s' :
  match_required D g ps s f = Ok s' -> the_solution G g s ps s'.
Proof.
  rewrite match_required_unique. intros H.
  destruct (match_unique D g ps s f) as [[a|]| | |] eqn:E; simpl in H; try discriminate.
  injection H as ->. eauto using match_unique_Some.
Qed.

Lemma match_required_Err g ps s f e :
  match_required D g ps s f = Err e ->
  no_solution G g s ps \/ several_solutions G g s ps.
Proof.
  rewrite match_required_unique. intros H.
  destruct (match_unique D g ps s f) as [[a|]| | |] eqn:E; simpl in H; try discriminate.
  - eauto using match_unique_None.
  - eauto using match_unique_Err.
Qed.

(** Converse, when the patterns only use declared variables. *)
Lemma at_graph_var g (p : qpat R) x : qvar_of (at_graph g p) x -> qvar_of p x.
Proof.
  unfold at_graph, qvar_of. destruct (q_g p) eqn:E; simpl; auto; [rewrite E; auto|].
  destruct g; simpl; intuition discriminate.
Qed.

Lemma below_declared g s (ps : list (qpat R)) :
  below_vars (length s) ps -> declared s (map (at_graph g) ps).
Proof.
  intros H x (p & Hp & V). apply in_map_iff in Hp as (p0 & <- & Hp).
  apply H. exists p0. split; auto. eapply at_graph_var; eauto.
Qed.

Section Declared.
Variables (g : option R) (ps : list (qpat R)) (s : subst R) (f : fragment R).
Hypothesis B : below_vars (length s) ps.

Lemma stream_good : stream D (with_default_graph g ps) s =
                    map inr (good (stream D (with_default_graph g ps) s)).
Proof.
  rewrite with_default_graph_at.
  assert (NP := stream_no_panic D G EN _ _ (below_declared g s ps B)).
  induction (stream D (map (at_graph g) ps) s) as [|[w|a] l IH]; auto.
  - exfalso. eapply NP; [left; reflexivity|]. eexists; reflexivity.
  - simpl. f_equal. apply IH. intros i Hi. apply NP. now right.
Qed.

Lemma solution_good s' :
  In s' (good (stream D (with_default_graph g ps) s)) <-> solution G s (map (at_graph g) ps) s'.
Proof.
  rewrite good_In, with_default_graph_at. split.
  - eapply stream_sound; eauto.
  - eapply stream_complete; eauto. eapply stream_no_panic; eauto using below_declared.
Qed.

Lemma the_solution_match s' :
  the_solution G g s ps s' -> match_unique D g ps s f = Ok (Some s').
Proof.
  intros [S U]. unfold match_unique. rewrite stream_good.
  pose proof (good_NoDup D G EN (with_default_graph g ps) s) as N.
  pose proof solution_good as SG.
  destruct (good (stream D (with_default_graph g ps) s)) as [|a [|b l]].
  - apply SG in S. contradiction.
  - simpl. rewrite (U a); auto. apply SG. now left.
  - exfalso. assert (a = s') by (apply U, SG; simpl; auto).
    assert (b = s') by (apply U, SG; simpl; auto). subst.
    apply NoDup_cons_iff in N as [N _]. apply N. now left.
Qed.

Lemma no_solution_match :
  no_solution G g s ps -> match_unique D g ps s f = Ok None.
Proof.
  intros NS. unfold match_unique. rewrite stream_good.
  pose proof solution_good as SG.
  destruct (good (stream D (with_default_graph g ps) s)) as [|a l]; auto.
  exfalso. apply (NS a). apply SG. now left.
Qed.

Lemma several_solutions_match :
  several_solutions G g s ps -> match_unique D g ps s f = Err (DataAmbiguity f).
Proof.
  intros (a & b & N & Sa & Sb). unfold match_unique. rewrite stream_good.
  apply solution_good in Sa, Sb.
  destruct (good (stream D (with_default_graph g ps) s)) as [|a' [|b' l]]; auto.
  - contradiction.
  - destruct Sa as [->|[]], Sb as [->|[]]. congruence.
Qed.

Lemma the_solution_required s' :
  the_solution G g s ps s' -> match_required D g ps s f = Ok s'.
Proof. intros H. rewrite match_required_unique, (the_solution_match s'); auto. Qed.

Lemma no_solution_required :
  no_solution G g s ps -> match_required D g ps s f = Err (MissingData f).
Proof. intros H. now rewrite match_required_unique, no_solution_match. Qed.

Lemma several_solutions_required :
  several_solutions G g s ps -> match_required D g ps s f = Err (DataAmbiguity f).
Proof. intros H. now rewrite match_required_unique, several_solutions_match. Qed.

End Declared.

(** Variants: the patterns are matched without the variables the variant introduces. *)
Lemma variant_match_Some g ps s f s' n :
  match_unique D g ps s f = Ok (Some s') -> the_solution G g (fresh s n) ps (fresh s' n).
Proof.
  unfold match_unique. rewrite with_default_graph_at. intros H.
  assert (E : stream D (map (at_graph g) ps) s = [inr s']).
  { destruct (stream D (map (at_graph g) ps) s) as [|[w|a] [|[w'|b] l]];
      simpl in H; try discriminate. now injection H as <-. }
  assert (NP : forall i, In i (stream D (map (at_graph g) ps) s) -> ~ panicking i).
  { rewrite E. intros i [<-|[]] (w & C). discriminate. }
  assert (E' := stream_app D (map (at_graph g) ps) (repeat None n) s NP). rewrite E in E'.
  simpl in E'. split.
  - eapply stream_sound; eauto. unfold fresh. rewrite E'. now left.
  - intros s'' S. eapply stream_complete in S; eauto; unfold fresh in *; rewrite E' in *.
    + destruct S as [[= <-]|[]]. reflexivity.
    + intros i [<-|[]] (w & C). discriminate.
Qed.

Lemma variant_match_None g ps s f n :
  match_unique D g ps s f = Ok None -> no_solution G g (fresh s n) ps.
Proof.
  unfold match_unique. rewrite with_default_graph_at. intros H.
  assert (E : stream D (map (at_graph g) ps) s = []).
  { destruct (stream D (map (at_graph g) ps) s) as [|[w|a] [|[w'|b] l]];
      simpl in H; try discriminate. reflexivity. }
  assert (NP : forall i, In i (stream D (map (at_graph g) ps) s) -> ~ panicking i).
  { rewrite E. intros i []. }
  assert (E' := stream_app D (map (at_graph g) ps) (repeat None n) s NP). rewrite E in E'.
  intros s'' S. eapply stream_complete in S; eauto; unfold fresh in *; rewrite E' in *; auto.
Qed.

Lemma variant_match_Err g ps s f e n :
  match_unique D g ps s f = Err e -> several_solutions G g (fresh s n) ps.
Proof.
  unfold match_unique. rewrite with_default_graph_at. intros H.
  destruct (stream D (map (at_graph g) ps) s) as [|[w|a] [|[w'|b] l]] eqn:E;
    simpl in H; try discriminate.
  exists (fresh a n), (fresh b n). split.
  - intros C. apply (stream_two _ _ _ _ _ E). eapply app_inv_tail. exact C.
  - split; (eapply stream_sound; [eauto..|]; apply stream_app_In; rewrite E; simpl; auto).
Qed.

Section VariantDeclared.
Variables (g : option R) (ps : list (qpat R)) (s : subst R) (f : fragment R) (n : nat).
Hypothesis B : below_vars (length s) ps.

Lemma variant_good : good (stream D (with_default_graph g ps) (fresh s n)) =
                     map (fun s' => fresh s' n) (good (stream D (with_default_graph g ps) s)).
Proof.
  unfold fresh. rewrite stream_app.
  - clear. induction (stream D (with_default_graph g ps) s) as [|[w|a] l IH]; simpl; auto.
    now f_equal.
  - rewrite with_default_graph_at. eapply stream_no_panic; eauto using below_declared.
Qed.

Lemma below_fresh : below_vars (length (fresh s n)) ps.
Proof. intros x V. unfold fresh. rewrite app_length. apply B in V. lia. Qed.

Lemma variant_cases :
  (exists s', match_unique D g ps s f = Ok (Some s') /\
              forall s'', the_solution G g (fresh s n) ps s'' -> s'' = fresh s' n) \/
  match_unique D g ps s f = Ok None \/
  match_unique D g ps s f = Err (DataAmbiguity f).
Proof.
  unfold match_unique at 1 2 3. rewrite (stream_good g ps s B).
  destruct (good (stream D (with_default_graph g ps) s)) as [|a [|b l]] eqn:E; auto.
  left. exists a. split; auto. intros s'' [S _].
  apply (solution_good g ps (fresh s n) below_fresh) in S. rewrite variant_good, E in S.
  destruct S as [<-|[]]. reflexivity.
Qed.

Lemma variant_the_solution s'' :
  the_solution G g (fresh s n) ps s'' ->
  exists s', match_unique D g ps s f = Ok (Some s') /\ s'' = fresh s' n.
Proof.
  intros S. destruct variant_cases as [(s' & E & U)|[E|E]].
  - eauto.
  - apply (variant_match_None _ _ _ _ n) in E. exfalso. eapply E. apply S.
  - apply (variant_match_Err _ _ _ _ _ n) in E as (a & b & N & Sa & Sb). exfalso. apply N.
    destruct S as [_ U]. now rewrite (U a), (U b).
Qed.

Lemma variant_no_solution :
  no_solution G g (fresh s n) ps -> match_unique D g ps s f = Ok None.
Proof.
  intros NS. destruct variant_cases as [(s' & E & U)|[E|E]]; auto.
  - apply (variant_match_Some _ _ _ _ _ n) in E. exfalso. eapply NS. apply E.
  - apply (variant_match_Err _ _ _ _ _ n) in E as (a & b & N & Sa & Sb). exfalso.
    eapply NS; eauto.
Qed.

Lemma variant_several :
  several_solutions G g (fresh s n) ps -> match_unique D g ps s f = Err (DataAmbiguity f).
Proof.
  intros (a & b & N & Sa & Sb). destruct variant_cases as [(s' & E & U)|[E|E]]; auto.
  - apply (variant_match_Some _ _ _ _ _ n) in E as [_ U']. exfalso. apply N.
    now rewrite (U' a), (U' b).
  - apply (variant_match_None _ _ _ _ n) in E. exfalso. eapply E; eauto.
Qed.
End VariantDeclared.

End Matches.

(** Substitutions and patterns. *)
Section Instances.
Context {R : Type}.

Lemma sget_binds (s : subst R) x r : sget s x = Some r <-> binds s x r.
Proof.
  unfold sget, binds. destruct (nth_error s x) as [[r'|]|]; split; intros; congruence.
Qed.

Lemma papply_pinst (s : subst R) p r :
  into_resource (papply s p) = Some r <-> pinst (binds s) p r.
Proof.
  destruct p as [r'|x]; simpl.
  - split; [intros [= <-]; constructor|intros H; inversion H; auto].
  - destruct (sget s x) as [r'|] eqn:E; simpl.
    + split; [intros [= <-]; constructor; now apply sget_binds|].
      intros H; inversion H; subst. apply sget_binds in H1. congruence.
    + split; [discriminate|]. intros H; inversion H; subst. apply sget_binds in H1. congruence.
Qed.

Lemma unwrap_Ok {E A} w (o : option A) a : @unwrap E A w o = Ok a <-> o = Some a.
Proof. destruct o; simpl; split; congruence. Qed.

Lemma unwrap_Err {E A} w (o : option A) e : @unwrap E A w o <> Err e.
Proof. destruct o; simpl; congruence. Qed.

Lemma select_inputs_Ok ps (s : subst R) inputs :
  select_inputs ps s = Ok inputs <-> Forall2 (pinst (binds s)) ps inputs.
Proof.
  unfold select_inputs. revert inputs. induction ps as [|p ps IH]; intros inputs.
  - simpl. split; [intros [= <-]; constructor|intros H; inversion H; auto].
  - cbn [mapM]. split.
    + intros H. apply bind_Ok in H as (r & Hr & H). apply bind_Ok in H as (rs & Hrs & H).
      injection H as <-. constructor.
      * apply unwrap_Ok in Hr. now apply papply_pinst.
      * now apply IH.
    + intros H. inversion H as [|? r ? rs Hr Hrs]; subst.
      apply papply_pinst in Hr. rewrite Hr. apply IH in Hrs. rewrite Hrs. reflexivity.
Qed.

Lemma select_inputs_Err ps (s : subst R) e : select_inputs ps s <> Err e.
Proof.
  unfold select_inputs. induction ps as [|p ps IH]; cbn [mapM]; [discriminate|].
  destruct (into_resource (papply s p)); simpl; [|discriminate].
  destruct (mapM _ ps); simpl; congruence.
Qed.

Lemma select_graph_Ok g vg (s : subst R) g' :
  select_graph g vg s = Ok g' <->
  match vg with None => g' = g | Some p => oinst (binds s) p g' end.
Proof.
  unfold select_graph. destruct vg as [[p|]|].
  - destruct (into_resource (papply s p)) as [r|] eqn:E; simpl; split; try discriminate.
    + intros [= <-]. constructor. now apply papply_pinst.
    + intros H; inversion H; subst. apply papply_pinst in H1. congruence.
    + intros H; inversion H; subst. apply papply_pinst in H1. congruence.
  - split; [intros [= <-]; constructor|intros H; inversion H; auto].
  - split; congruence.
Qed.

Lemma select_graph_Err g vg (s : subst R) e : select_graph g vg s <> Err e.
Proof.
  unfold select_graph. destruct vg as [[p|]|]; try discriminate.
  destruct (into_resource (papply s p)); simpl; discriminate.
Qed.

Lemma passes_fun g s vf inputs g' inputs1 g1 :
  passes (R := R) g s vf inputs g' -> passes g s vf inputs1 g1 -> inputs1 = inputs /\ g1 = g'.
Proof.
  intros [A B] [A1 B1]. split.
  - apply select_inputs_Ok in A, A1. congruence.
  - apply select_graph_Ok in B, B1. congruence.
Qed.

Lemma binds_fresh (s : subst R) n x r : binds s x r <-> binds (fresh s n) x r.
Proof.
  unfold binds, fresh. destruct (Nat.lt_ge_cases x (length s)) as [L|L].
  - now rewrite nth_error_app1.
  - rewrite nth_error_app2 by auto. split; intros H.
    + apply nth_error_Some_bound_index in H || (assert (nth_error s x <> None) by congruence;
        apply nth_error_Some in H0; lia).
    + apply nth_error_In in H. apply repeat_spec in H. discriminate.
Qed.

Lemma pinst_fresh (s : subst R) n p r : pinst (binds s) p r <-> pinst (binds (fresh s n)) p r.
Proof.
  split; intros H; destruct H; constructor; now apply (binds_fresh s n).
Qed.

Lemma passes_fresh g s n vf inputs g' :
  passes (R := R) g s vf inputs g' <-> passes g (fresh s n) vf inputs g'.
Proof.
  unfold passes.
  assert (F : Forall2 (pinst (binds s)) (vf_input vf) inputs <->
              Forall2 (pinst (binds (fresh s n))) (vf_input vf) inputs).
  { split; intros H; (induction H; constructor; [|auto]); now apply (pinst_fresh s n). }
  assert (O : forall p, oinst (binds s) p g' <-> oinst (binds (fresh s n)) p g').
  { intros p. split; intros H; destruct H; constructor; now apply (pinst_fresh s n). }
  destruct (vf_graph vf); [rewrite (O o)|]; rewrite F; reflexivity.
Qed.

Lemma fresh_length (s : subst R) n : length (fresh s n) = length s + n.
Proof. unfold fresh. now rewrite app_length, repeat_length. Qed.

Lemma the_solution_length G g s ps s' :
  the_solution (R := R) G g s ps s' -> length s' = length s.
Proof. intros [S _]. apply S. Qed.

End Instances.

(** * Reading the patterns of the class, with the generated deserializer *)

From Coq Require Import String List Bool Arith ZArith QArith Qcanon Permutation Lia.
Import ListNotations.
From Verif Require Import Base BaseProofs Orders PatternModel MatchingModel MatchingSpec MatchingProofs ValueModel LayoutModel
  HydrateModel HydrateSpec HydrateProofs TermModel GenDataModel GenDataSpec GenModel GenSpec GenProofs GenSerModel GenSerSpec.
Open Scope list_scope.
Open Scope nat_scope.

(** ** Solutions of the patterns *)
Section Solutions.
Context {R : Type}.
Variable G : quad R -> Prop.

Ltac inst1 :=
  repeat match goal with
  | H : qinst _ _ _ |- _ => let a := fresh in let b := fresh in let c := fresh in let d := fresh in
      destruct H as (a & b & c & d); cbn in a, b, c, d
  | H : pinst _ (PRes _) _ |- _ => inversion H; clear H; subst
  | H : pinst _ (PVar _) _ |- _ => inversion H; clear H; subst
  | H : oinst _ None _ |- _ => inversion H; clear H; subst
  end.

Lemma quad_eta (q : quad R) : q = Quad (q_s q) (q_p q) (q_o q) (q_g q).
Proof. now destruct q. Qed.

Definition stated (a : R) (ps : list (R * R)) : Prop := forall p o, In (p, o) ps -> G (Quad a p o None).
Definition facts (ps : list (R * R)) : list (qpat R) :=
  map (fun po => Quad (PVar 0) (PRes (fst po)) (PRes (snd po)) None) ps.

Lemma facts_solution a ps s' :
  solution G [Some a] (map (at_graph None) (facts ps)) s' <-> s' = [Some a] /\ stated a ps.
Proof.
  split.
  - intros [L E Q _]. specialize (E 0 a eq_refl). unfold binds in E. simpl in L.
    destruct s' as [|x [|? ?]]; try discriminate. simpl in E. injection E as ->. split; [reflexivity|].
    intros p o H. destruct (Q (at_graph None (Quad (PVar 0) (PRes p) (PRes o) None))) as (q & Hq & I).
    { apply in_map. apply in_map_iff. exists (p, o). auto. }
    cbn in I. inst1. unfold binds in *. simpl in *.
    repeat match goal with H : Some _ = Some _ |- _ => injection H as H end. subst.
    rewrite (quad_eta q) in Hq. match goal with H : None = q_g q |- _ => rewrite <- H in Hq end. congruence.
  - intros [-> H]. split; [reflexivity|auto| |reflexivity]. intros p Hp. apply in_map_iff in Hp as (p0 & <- & Hp).
    apply in_map_iff in Hp as ([p o] & <- & Hp). exists (Quad a p o None). split; [apply H; exact Hp|].
    repeat split; simpl; constructor. reflexivity.
Qed.

Definition link (p : R) : list (qpat R) := [Quad (PVar 0) (PRes p) (PVar 1) None].

Lemma link_solution a p s' :
  solution G [Some a; None] (map (at_graph None) (link p)) s' <->
  exists b, s' = [Some a; Some b] /\ G (Quad a p b None).
Proof.
  split.
  - intros [L E Q _]. specialize (E 0 a eq_refl). unfold binds in E. simpl in L.
    destruct s' as [|x [|y [|? ?]]]; try discriminate. simpl in E. injection E as ->.
    destruct (Q _ (or_introl eq_refl)) as (q & Hq & I). cbn in I. inst1.
    unfold binds in *. simpl in *.
    repeat match goal with H : Some _ = Some _ |- _ => injection H as H end. subst.
    exists (q_o q). split; [reflexivity|]. rewrite (quad_eta q) in Hq.
    match goal with H : None = q_g q |- _ => rewrite <- H in Hq end. congruence.
  - intros (b & -> & HG). split; [reflexivity| | |].
    + intros [|[|x]] r0 E; try exact E; try discriminate; unfold binds in E; simpl in E; now destruct x.
    + intros q [<-|[]]. exists (Quad a p b None). split; [exact HG|]. repeat split; simpl; constructor; reflexivity.
    + intros [|[|x]] NV; try reflexivity. exfalso. apply NV. eexists. split; [now left|]. right. right. now left.
Qed.

Definition cons_cell (first rest : R) : list (qpat R) :=
  [Quad (PVar 1) (PRes first) (PVar 3) None; Quad (PVar 1) (PRes rest) (PVar 2) None].

Lemma cell_solution a h first rest s' :
  solution G [Some a; Some h; None; None] (map (at_graph None) (cons_cell first rest)) s' <->
  exists n b, s' = [Some a; Some h; Some n; Some b] /\ G (Quad h first b None) /\ G (Quad h rest n None).
Proof.
  split.
  - intros [L E Q _]. assert (E0 := E 0 a eq_refl). assert (E1 := E 1 h eq_refl). unfold binds in E0, E1. simpl in L.
    destruct s' as [|x [|y [|z [|w [|? ?]]]]]; try discriminate. simpl in E0, E1. injection E0 as ->. injection E1 as ->.
    destruct (Q _ (or_introl eq_refl)) as (q & Hq & I).
    destruct (Q _ (or_intror (or_introl eq_refl))) as (q' & Hq' & I').
    cbn in I, I'. inst1. unfold binds in *. simpl in *.
    repeat match goal with H : Some _ = Some _ |- _ => injection H as H end. subst.
    exists (q_o q'), (q_o q). split; [reflexivity|]. rewrite (quad_eta q) in Hq. rewrite (quad_eta q') in Hq'.
    repeat match goal with H : None = q_g _ |- _ => rewrite <- H in *; clear H end. split; congruence.
  - intros (n & b & -> & HG & HG'). split; [reflexivity| | |].
    + intros [|[|[|[|x]]]] r0 E; try exact E; try discriminate; unfold binds in E; simpl in E; now destruct x.
    + intros q [<-|[<-|[]]].
      * exists (Quad h first b None). split; [exact HG|]. repeat split; simpl; constructor; reflexivity.
      * exists (Quad h rest n None). split; [exact HG'|]. repeat split; simpl; constructor; reflexivity.
    + intros [|[|[|[|x]]]] NV; try reflexivity; exfalso; apply NV.
      * eexists. split; [right; now left|]. right. right. now left.
      * eexists. split; [now left|]. right. right. now left.
Qed.

Lemma facts_below n ps : 1 <= n -> below_vars n (facts ps).
Proof.
  intros L x (p & Hp & V). apply in_map_iff in Hp as (po & <- & _). unfold qvar_of, pvar_of in V. simpl in V.
  destruct V as [V|[V|[V|V]]]; try discriminate. injection V as <-. lia.
Qed.
Lemma link_below p : below_vars 2 (link p).
Proof.
  intros x (q & [<-|[]] & V). unfold qvar_of, pvar_of in V. simpl in V.
  destruct V as [V|[V|[V|V]]]; try discriminate; injection V as <-; lia.
Qed.
Lemma cell_below first rest : below_vars 4 (cons_cell first rest).
Proof.
  intros x (q & [<-|[<-|[]]] & V); unfold qvar_of, pvar_of in V; simpl in V;
  destruct V as [V|[V|[V|V]]]; try discriminate; injection V as <-; lia.
Qed.
End Solutions.

(** ** The corresponding steps of the deserializer *)
Section Steps.
Context {R I : Type} {CR : Cmp R} {LR : CmpLaws R} {RT : Runtime R I} {RS : Resolver R I} {IS : IntSyntax}.
Variable i : I.
Variable D : dataset R.
Variable G : quad R -> Prop.
Hypothesis EN : enumerates D G.
Variable res : string -> R.
Notation knows s := (rs_iri i s = Some (res s)).

Definition at_res (ps : list (string * string)) : list (R * R) := map (fun po => (res (fst po), res (snd po))) ps.

Lemma statements_at ps : map (quad_at res) (statements ps) = facts (at_res ps).
Proof. unfold statements, facts, at_res. rewrite !map_map. reflexivity. Qed.

Lemma statements_known ps : (forall p o, In (p, o) ps -> knows p /\ knows o) ->
  Forall (known_iri i res) (flat_map quad_iris (statements ps)).
Proof.
  intros H. apply Forall_forall. intros s Hs. apply in_flat_map in Hs as (q & Hq & Hs).
  apply in_map_iff in Hq as ([p o] & <- & Hq). specialize (H p o Hq). cbn in Hs.
  destruct Hs as [<-|[<-|[]]]; apply H.
Qed.

Lemma read_statements ps a : (forall p o, In (p, o) ps -> knows p /\ knows o) -> stated G a (at_res ps) ->
  de_required i D None (statements ps) [Some a] = Ok [Some a].
Proof.
  intros K S. apply (required_eq i D res) with (f := FDiscriminant a); [now apply statements_known|]. rewrite statements_at.
  apply (the_solution_required D G EN); [now apply facts_below|]. split.
  - apply facts_solution. auto.
  - intros s'' H. now apply facts_solution in H as [-> _].
Qed.

Lemma read_tag ps a : (forall p o, In (p, o) ps -> knows p /\ knows o) -> stated G a (at_res ps) ->
  de_unique i D None (statements ps) [Some a] = Ok (Some [Some a]).
Proof.
  intros K S. apply (unique_eq i D res) with (f := FDiscriminant a); [now apply statements_known|]. rewrite statements_at.
  apply (the_solution_match D G EN); [now apply facts_below|]. split.
  - apply facts_solution. auto.
  - intros s'' H. now apply facts_solution in H as [-> _].
Qed.

Lemma read_no_tag ps a : (forall p o, In (p, o) ps -> knows p /\ knows o) -> ~ stated G a (at_res ps) ->
  de_unique i D None (statements ps) [Some a] = Ok None.
Proof.
  intros K S. apply (unique_eq i D res) with (f := FDiscriminant a); [now apply statements_known|]. rewrite statements_at.
  apply (no_solution_match D G EN); [now apply facts_below|].
  intros s'' H. now apply facts_solution in H as [_ H].
Qed.

Definition links (p : string) : list (qpat string) := [Quad (PVar 0) (PRes p) (PVar 1) None].

Lemma links_known p : knows p -> Forall (known_iri i res) (flat_map quad_iris (links p)).
Proof. intros K. cbn. constructor; [exact K|constructor]. Qed.

Lemma read_link p a b : knows p -> (forall o, G (Quad a (res p) o None) <-> o = b) ->
  de_unique i D None (links p) [Some a; None] = Ok (Some [Some a; Some b]) /\
  de_required i D None (links p) [Some a; None] = Ok [Some a; Some b].
Proof.
  intros K S. assert (T : the_solution G None [Some a; None] (link (res p)) [Some a; Some b]).
  { split.
    - apply link_solution. exists b. split; [reflexivity|]. now apply S.
    - intros s'' H. apply link_solution in H as (b' & -> & H). apply S in H. now subst. }
  split.
  - apply (unique_eq i D res) with (f := FDiscriminant a); [now apply links_known|].
    apply (the_solution_match D G EN); [apply link_below|exact T].
  - apply (required_eq i D res) with (f := FDiscriminant a); [now apply links_known|].
    apply (the_solution_required D G EN); [apply link_below|exact T].
Qed.

Lemma read_no_link p a : knows p -> (forall o, ~ G (Quad a (res p) o None)) ->
  de_unique i D None (links p) [Some a; None] = Ok None.
Proof.
  intros K S. apply (unique_eq i D res) with (f := FDiscriminant a); [now apply links_known|].
  apply (no_solution_match D G EN); [apply link_below|].
  intros s'' H. apply link_solution in H as (b & _ & H). now apply S in H.
Qed.

Definition cell_quads (first rest : string) : list (qpat string) :=
  [Quad (PVar 1) (PRes first) (PVar 3) None; Quad (PVar 1) (PRes rest) (PVar 2) None].

Lemma read_cell first rest a h b n : knows first -> knows rest ->
  (forall o, G (Quad h (res first) o None) <-> o = b) -> (forall o, G (Quad h (res rest) o None) <-> o = n) ->
  de_required i D None (cell_quads first rest) [Some a; Some h; None; None] = Ok [Some a; Some h; Some n; Some b].
Proof.
  intros K K' S S'. apply (required_eq i D res) with (f := FDiscriminant a).
  { cbn. constructor; [exact K|]. constructor; [exact K'|constructor]. }
  apply (the_solution_required D G EN); [apply cell_below|]. split.
  - apply cell_solution. exists n, b. split; [reflexivity|]. split; [now apply S|now apply S'].
  - intros s'' H. apply cell_solution in H as (n' & b' & -> & H & H'). apply S in H. apply S' in H'. now subst.
Qed.

(** The items of an unordered list: the values of the property, in some order. *)
Lemma read_items p a bs : knows p -> NoDup bs -> (forall o, G (Quad a (res p) o None) <-> In o bs) ->
  exists ps bs', interp_quads i (links p) = Some ps /\ Permutation bs bs' /\
    stream D (with_default_graph None ps) [Some a; None] = map (fun b => inr [Some a; Some b]) bs'.
Proof.
  intros K N S. exists (link (res p)).
  assert (B : below_vars (length [Some a; None]) (link (res p))) by apply link_below.
  pose proof (stream_good D G EN None (link (res p)) [Some a; None] B) as SG.
  pose proof (solution_good D G EN None (link (res p)) [Some a; None] B) as SS.
  pose proof (good_NoDup D G EN (with_default_graph None (link (res p))) [Some a; None]) as NG.
  set (l := good (stream D (with_default_graph None (link (res p))) [Some a; None])) in *.
  assert (F : forall s, In s l <-> exists b, In b bs /\ s = [Some a; Some b]).
  { intros s. rewrite SS, link_solution. split; intros (b & H & H'); exists b; split; auto; now apply S. }
  assert (L : exists bs', l = map (fun b => [Some a; Some b]) bs').
  { clear - F. assert (H : forall s, In s l -> exists b, s = [Some a; Some b]).
    { intros s Hs. apply F in Hs as (b & _ & ->). eauto. }
    clear F. induction l as [|s l IH]; [now exists []|]. destruct (H s) as (b & ->); [now left|].
    destruct IH as (bs' & ->); [intros; apply H; now right|]. now exists (b :: bs'). }
  destruct L as (bs' & EL). exists bs'. split.
  { rewrite interp_quads_known with (res := res) by now apply links_known. reflexivity. }
  split.
  - rewrite EL in F, NG. apply NoDup_Permutation; [exact N|now apply NoDup_map_inv in NG|].
    intros b. split; intros H.
    + assert (Hs : In [Some a; Some b] (map (fun b => [Some a; Some b]) bs')) by (apply F; eauto).
      apply in_map_iff in Hs as (b' & [= ->] & Hs). exact Hs.
    + assert (Hs : In [Some a; Some b] (map (fun b => [Some a; Some b]) bs')) by (apply in_map_iff; eauto).
      apply F in Hs as (b' & Hs & [= ->]). exact Hs.
  - rewrite SG, EL, map_map. reflexivity.
Qed.
End Steps.

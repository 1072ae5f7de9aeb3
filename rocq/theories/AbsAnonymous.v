(** * The blank nodes of anonymous layouts

    A document that is built allocates blank nodes exactly when it has anonymous layouts, and it is refused if one
    of them is already defined. *)

From Coq Require Import String Ascii List Bool Arith NArith Lia.
Import ListNotations.
From Verif Require Import Base BaseProofs Orders PatternModel ValueModel LayoutModel HydrateModel TermModel
  DehydrateModel AbsModel AbsSpec AbsProofs AbsMeaning AbsProperties GenProgSpec.
Open Scope list_scope.
Open Scope nat_scope.

Section Anonymous.
Context {IS : IriSyntax} {AE : AbsExternal}.
Notation ctx := term_context.
Notation state := (nat * list (term * prelayout term))%type.
Notation TM := (@M nat term).
Notation blank k := (TmBlank (nat_string k)).

(** What a computation that succeeds does; [C] when it allocates no blank node. *)
Definition steps {A} (m : TM A) (C : Prop) : Prop := forall s a s', m s = (Ok a, s') ->
  fst s <= fst s' /\ (fst s = fst s' -> C) /\
  (forall q, bt_get q (snd s) <> None -> bt_get q (snd s') <> None) /\
  (forall k, fst s <= k < fst s' -> bt_get (blank k) (snd s) = None).

Definition keeps {A} (m : TM A) : Prop := forall s a s', m s = (Ok a, s') -> s' = s.

Lemma keeps_steps {A} (m : TM A) : keeps m -> steps m True.
Proof. intros K s a s' H. apply K in H as ->. repeat split; auto. intros k L. lia. Qed.
Lemma steps_imp {A} (m : TM A) (C C' : Prop) : (C -> C') -> steps m C -> steps m C'.
Proof. intros I H s a s' E. destruct (H s a s' E) as (L & N & M & B). auto. Qed.
Lemma steps_bind {A B} (m : TM A) (k : A -> TM B) C C' : steps m C -> (forall a, steps (k a) C') -> steps (bindM m k) (C /\ C').
Proof.
  intros H K s b s' E. unfold bindM in E. destruct (m s) as [[a|e|w|] s1] eqn:E1; try discriminate.
  destruct (H _ _ _ E1) as (L & N & M & F). destruct (K a _ _ _ E) as (L' & N' & M' & F'). split; [lia|]. split; [|split].
  - intros Eq. split; [apply N|apply N']; lia.
  - auto.
  - intros j Lj. destruct (Nat.lt_ge_cases j (fst s1)) as [Lt|Ge]; [apply F; lia|].
    destruct (bt_get (blank j) (snd s)) eqn:G; [|reflexivity]. exfalso. apply (M (blank j)); [congruence|]. apply F'. lia.
Qed.

Lemma keeps_ret {A} (a : A) : keeps (ret a).
Proof. intros s a' s' H. now injection H as _ <-. Qed.
Lemma keeps_lift {A} (o : outcome build_error A) : keeps (lift o).
Proof. intros s a' s' H. now injection H as _ <-. Qed.
Lemma keeps_iri i : keeps (iri_resource ctx i).
Proof. intros [n b] a s' H. now injection H as _ <-. Qed.
Lemma keeps_lit i : keeps (literal_resource ctx i).
Proof. intros [n b] a s' H. now injection H as _ <-. Qed.
Lemma keeps_bind {A B} (m : TM A) (k : A -> TM B) : keeps m -> (forall a, keeps (k a)) -> keeps (bindM m k).
Proof.
  intros H K s b s' E. unfold bindM in E. destruct (m s) as [[a|e|w|] s1] eqn:E1; try discriminate.
  apply H in E1 as ->. now apply K in E.
Qed.
Lemma keeps_mapS {A B} (f : A -> TM B) l : (forall a, keeps (f a)) -> keeps (mapS f l).
Proof.
  intros H. induction l as [|a l IH]; cbn [mapS]; [apply keeps_ret|]. apply keeps_bind; [apply H|]. intros b.
  apply keeps_bind; [exact IH|]. intros bs. apply keeps_ret.
Qed.
Lemma keeps_option {A B} (f : A -> TM B) o : (forall a, keeps (f a)) -> keeps (build_option f o).
Proof. intros H. destruct o; cbn [build_option]; [apply keeps_bind; [apply H|]; intros b|]; apply keeps_ret. Qed.

Ltac keep := repeat first [apply keeps_ret|apply keeps_lift|apply keeps_iri|apply keeps_lit
  |apply keeps_mapS; intros ?|apply keeps_option; intros ?|apply keeps_bind; [|intros ?]|progress cbv beta].
Lemma keeps_pattern p sc : keeps (build_pattern ctx p sc).
Proof. destruct p; cbn [build_pattern]; keep. Qed.
Lemma keeps_dataset sc ds : keeps (build_dataset ctx sc ds).
Proof. unfold build_dataset, build_quad. keep; apply keeps_pattern. Qed.
Lemma keeps_build_iri i sc : keeps (build_iri ctx i sc).
Proof. unfold build_iri. keep. Qed.
Lemma keeps_resource r sc : keeps (build_resource ctx r sc).
Proof. destruct r; cbn [build_resource]; keep. Qed.
Lemma keeps_header h sc : keeps (build_header ctx h sc).
Proof. unfold build_header, build_extra. keep. all: first [apply keeps_pattern|apply keeps_dataset|apply keeps_build_iri|apply keeps_resource]. Qed.
Lemma keeps_default_list a b p : keeps (default_list_dataset ctx a b p).
Proof. unfold default_list_dataset. keep. Qed.
Lemma keeps_literal k h r sc : keeps (build_literal ctx k h r sc).
Proof.
  unfold build_literal. apply keeps_bind; [apply keeps_header|]. intros [hd sc']. apply keeps_bind.
  - destruct r as [p|]; cbn [build_literal_resource]; [apply keeps_pattern|]. destruct (ah_input h); keep.
  - intros res. destruct k as [[i|]|i|i|pat [i|]|pat]; keep; apply keeps_build_iri.
Qed.
Lemma keeps_property i n intro p sc ds : keeps (build_property ctx i n intro p sc ds).
Proof. destruct p as [p|]; cbn [build_property]; [|keep]. destruct (Nat.eqb i 0); [keep|]. destruct intro; keep; apply keeps_pattern. Qed.

(** ** The nested layouts *)
Lemma steps_then {A B} (m : TM A) (k : A -> TM B) C : keeps m -> (forall a, steps (k a) C) -> steps (bindM m k) C.
Proof. intros H K. eapply steps_imp; [|apply steps_bind; [apply keeps_steps, H|exact K]]. tauto. Qed.
Lemma steps_before {A B} (m : TM A) (k : A -> TM B) C : steps m C -> (forall a, keeps (k a)) -> steps (bindM m k) C.
Proof. intros H K. eapply steps_imp; [|apply steps_bind; [exact H|intros a; apply keeps_steps, K]]. tauto. Qed.
Lemma steps_mapS {A B} (f : A -> TM B) (C : A -> Prop) l : (forall a, In a l -> steps (f a) (C a)) -> steps (mapS f l) (forall a, In a l -> C a).
Proof.
  induction l as [|a l IH]; intros H; cbn [mapS].
  - eapply steps_imp; [|apply keeps_steps, keeps_ret]. intros _ a [].
  - eapply steps_imp; [|apply steps_bind; [apply H; now left|]].
    2:{ intros b. apply steps_before; [apply IH; intros x I; apply H; now right|]. intros bs. apply keeps_ret. }
    intros [H1 H2] x [<-|I]; auto.
Qed.

Section Nested.
Variable build : alayout -> scope -> TM term.
Definition nested_steps (l : alayout) : Prop := forall sc, steps (build l sc) (all_named l).

Lemma steps_ref r sc : (forall l, nested_ref r l -> nested_steps l) ->
  steps (build_ref ctx build r sc) (forall l, nested_ref r l -> all_named l).
Proof.
  intros N. unfold build_ref. destruct r as [i|l].
  - eapply steps_imp; [|apply keeps_steps, keeps_build_iri]. intros _ l H. discriminate H.
  - eapply steps_imp; [|apply N; reflexivity]. intros H l' E. now injection E as <-.
Qed.
Lemma steps_format d f sc : (forall l, nested_format f l -> nested_steps l) ->
  steps (build_format ctx build d f sc) (forall l, nested_format f l -> all_named l).
Proof.
  intros N. destruct f as [r input graph|r]; cbn [build_format].
  - apply steps_then; [keep; apply keeps_pattern|]. intros input'. apply steps_before; [now apply steps_ref|]. intros r'. keep; apply keeps_pattern.
  - apply steps_before; [now apply steps_ref|]. intros r'. keep.
Qed.
Lemma steps_item i n it sc : (forall l, nested_format (ai_value it) l -> nested_steps l) ->
  steps (build_item ctx build i n it sc) (forall l, nested_format (ai_value it) l -> all_named l).
Proof.
  intros N. unfold build_item. apply steps_then; [apply keeps_dataset|]. intros ds. apply steps_then; [apply keeps_property|]. intros ds'.
  apply steps_before; [now apply steps_format|]. intros vf. keep.
Qed.

Lemma steps_pre l sc : (forall l', nested l l' -> nested_steps l') ->
  steps (layout_pre ctx build l sc) (forall l', nested l l' -> all_named l').
Proof.
  intros N. destruct l as [h c|k h res|h fs|h vs|h n hd tl|h it|h its|b|h|h]; cbn [layout_pre].
  - eapply steps_imp; [|apply keeps_steps; apply keeps_bind; [apply keeps_header|intros; keep]]. intros _ l' H. inversion H.
  - eapply steps_imp; [|apply keeps_steps, keeps_literal]. intros _ l' H. inversion H.
  - apply steps_then; [apply keeps_header|]. intros [hd' sc']. apply steps_before; [|intros; keep].
    eapply steps_imp; [|apply (steps_mapS _ (fun kf => forall l, nested_format (ai_value (af_item (snd kf))) l -> all_named l))].
    + intros H l' E. inversion E as [? ? k f ? I Nf| | | | |]; subst. now apply (H (k, f) I).
    + intros [k [it req]] I. cbn [build_field snd af_item]. apply steps_before; [|intros; keep]. apply steps_item.
      intros l Nl. apply N. now apply (N_field h fs k (AField it req)).
  - apply steps_then; [apply keeps_header|]. intros [hd' sc']. apply steps_before; [|intros; keep].
    eapply steps_imp; [|apply (steps_mapS _ (fun nv => forall l, nested_format (av_value (snd nv)) l -> all_named l))].
    + intros H l' E. inversion E as [|? ? k f ? I Nf| | | |]; subst. now apply (H (k, f) I).
    + intros [k [intro f ds]] I. cbn [build_variant snd av_value]. apply steps_before; [|intros; keep; apply keeps_pattern]. apply steps_format.
      intros l Nl. apply N. now apply (N_variant h vs k (AVariant intro f ds)).
  - apply steps_then; [apply keeps_header|]. intros [hd' sc']. apply steps_before; [|intros; keep; apply keeps_pattern].
    destruct n as [a b intro f ds|r]; cbn [build_node].
    + apply steps_before.
      * eapply steps_imp; [|apply (steps_format "value" f)].
        -- intros H l' E. inversion E; subst. now apply H.
        -- intros l Nl. apply N. now apply N_node.
      * intros vf. apply keeps_bind; [|intros; keep]. destruct ds as [ds|]; [apply keeps_dataset|].
        destruct f as [r [|p [|p' l]] g|r]; keep; apply keeps_pattern.
    + apply steps_before; [|intros; keep]. eapply steps_imp; [|apply (steps_ref r)].
      * intros H l' E. inversion E; subst. now apply H.
      * intros l Nl. apply N. now apply N_node_layout.
  - apply steps_then; [apply keeps_header|]. intros [hd' sc']. apply steps_before; [|intros; keep].
    eapply steps_imp; [|apply (steps_item _ _ it)].
    + intros H l' E. inversion E; subst. now apply H.
    + intros l Nl. apply N. now apply N_item.
  - apply steps_then; [apply keeps_header|]. intros [hd' sc']. apply steps_before; [|intros; keep].
    eapply steps_imp; [|apply (steps_mapS _ (fun it => forall l, nested_format (ai_value it) l -> all_named l))].
    + intros H l' E. inversion E as [| | | | |? ? it ? I Nf]; subst. now apply (H it I).
    + intros it I. apply steps_item. intros l Nl. apply N. now apply (N_tuple h its it).
  - eapply steps_imp; [|apply keeps_steps; destruct b; keep]. intros _ l' H. inversion H.
  - eapply steps_imp; [|apply keeps_steps; keep]. intros _ l' H. inversion H.
  - eapply steps_imp; [|apply keeps_steps; keep]. intros _ l' H. inversion H.
Qed.

Lemma steps_insert id p : steps (bindM (insert_layout id p) (fun old => match snd old with Some _ => lift (Err LayoutRedefinition) | None => ret (fst old) end)) True.
Proof.
  intros [n b] a s' H. unfold bindM, insert_layout in H. cbn [fst snd] in H. destruct (bt_get id b); [discriminate H|]. injection H as _ <-.
  cbn [fst snd]. split; [lia|]. split; [auto|]. split; [|intros k L; lia]. intros q Q. rewrite bt_insert_get. destruct (eqb q id); [discriminate|exact Q].
Qed.

Lemma all_named_intro l h c : header_of l = Some h -> ah_id h = Some c -> (forall l', nested l l' -> all_named l') -> all_named l.
Proof. intros H1 H2 H l' I. inversion I as [|? l1 ? N I']; subst; [eauto|]. exact (H l1 N l' I'). Qed.

Lemma steps_body l sc : (forall l', nested l l' -> nested_steps l') -> steps (layout_body ctx build l sc) (all_named l).
Proof.
  intros N. pose proof (steps_pre l sc N) as P. unfold layout_body. destruct (layout_id l) as [i|] eqn:E.
  - assert (exists h, header_of l = Some h /\ ah_id h = Some i) as (h & H1 & H2).
    { destruct l; cbn in E |- *; try discriminate E; eauto. }
    apply steps_then; [keep|]. intros id. eapply steps_imp; [|apply steps_bind; [exact P|intros pre; apply steps_insert]].
    intros [H _]. exact (all_named_intro l h i H1 H2 H).
  - intros [n b] a s' H. unfold bindM at 1 in H. cbn [anonymous_resource c_anonymous term_context fst snd] in H.
    unfold bindM at 1 in H. destruct (layout_pre ctx build l sc (S n, b)) as [[pre|e|w|] [n1 b1]] eqn:E1; try discriminate.
    destruct (P _ _ _ E1) as (L & _ & M & F). cbn [fst snd] in *. unfold bindM, insert_layout in H. cbn [fst snd] in H.
    destruct (bt_get (blank n) b1) as [old|] eqn:G; [discriminate H|]. injection H as _ <-. cbn [fst snd].
    split; [lia|]. split; [intros; lia|]. split.
    + intros q Q. rewrite bt_insert_get. destruct (eqb q (blank n)); [discriminate|auto].
    + intros k Lk. destruct (Nat.eq_dec k n) as [->|NE]; [|apply F; lia].
      destruct (bt_get (blank n) b) eqn:G'; [|reflexivity]. exfalso. apply (M (blank n)); congruence.
Qed.
End Nested.

Lemma steps_layout l : nested_steps (build_layout ctx) l.
Proof.
  induction l as [l IH] using layout_ind. intros sc. rewrite build_layout_eq. now apply steps_body.
Qed.

(** ** Documents without anonymous layouts do not depend on the generator *)
Definition free {A} (m : TM A) : Prop := forall n n' b,
  fst (m (n, b)) = fst (m (n', b)) /\ snd (snd (m (n, b))) = snd (snd (m (n', b))) /\ fst (snd (m (n, b))) = n.

Lemma free_ret {A} (a : A) : free (ret a).
Proof. intros n n' b. auto. Qed.
Lemma free_lift {A} (o : outcome build_error A) : free (lift o).
Proof. intros n n' b. auto. Qed.
Lemma free_iri i : free (iri_resource ctx i).
Proof. intros n n' b. auto. Qed.
Lemma free_lit i : free (literal_resource ctx i).
Proof. intros n n' b. auto. Qed.
Lemma free_insert id p : free (insert_layout id p).
Proof. intros n n' b. auto. Qed.
Lemma free_bind {A B} (m : TM A) (k : A -> TM B) : free m -> (forall a, free (k a)) -> free (bindM m k).
Proof.
  intros H K n n' b. destruct (H n n' b) as (E1 & E2 & E3). destruct (H n' n b) as (_ & _ & E4). unfold bindM.
  destruct (m (n, b)) as [o [n1 b1]], (m (n', b)) as [o' [n1' b1']]. cbn [fst snd] in *. subst.
  destruct o' as [a|e|w|]; cbn [fst snd]; auto. apply K.
Qed.
Lemma free_mapS {A B} (f : A -> TM B) l : (forall a, In a l -> free (f a)) -> free (mapS f l).
Proof.
  induction l as [|a l IH]; intros H; cbn [mapS]; [apply free_ret|]. apply free_bind; [apply H; now left|]. intros b.
  apply free_bind; [apply IH; intros x I; apply H; now right|]. intros bs. apply free_ret.
Qed.
Lemma free_option {A B} (f : A -> TM B) o : (forall a, free (f a)) -> free (build_option f o).
Proof. intros H. destruct o; cbn [build_option]; [apply free_bind; [apply H|]; intros b|]; apply free_ret. Qed.

Ltac frees := repeat first [apply free_ret|apply free_lift|apply free_iri|apply free_lit|apply free_insert
  |apply free_mapS; intros ? _|apply free_option; intros ?|apply free_bind; [|intros ?]|progress cbv beta].
Lemma free_pattern p sc : free (build_pattern ctx p sc).
Proof. destruct p; cbn [build_pattern]; frees. Qed.
Lemma free_dataset sc ds : free (build_dataset ctx sc ds).
Proof. unfold build_dataset, build_quad. frees; apply free_pattern. Qed.
Lemma free_build_iri i sc : free (build_iri ctx i sc).
Proof. unfold build_iri. frees. Qed.
Lemma free_resource r sc : free (build_resource ctx r sc).
Proof. destruct r; cbn [build_resource]; frees. Qed.
Lemma free_header h sc : free (build_header ctx h sc).
Proof. unfold build_header, build_extra. frees. all: first [apply free_pattern|apply free_build_iri|apply free_resource]. Qed.
Lemma free_literal k h r sc : free (build_literal ctx k h r sc).
Proof.
  unfold build_literal. apply free_bind; [apply free_header|]. intros [hd sc']. apply free_bind.
  - destruct r as [p|]; cbn [build_literal_resource]; [apply free_pattern|]. destruct (ah_input h); frees.
  - intros res. destruct k as [[i|]|i|i|pat [i|]|pat]; frees; apply free_build_iri.
Qed.
Lemma free_property i n intro p sc ds : free (build_property ctx i n intro p sc ds).
Proof. destruct p as [p|]; cbn [build_property]; [|frees]. destruct (Nat.eqb i 0); [frees|]. destruct intro; frees; apply free_pattern. Qed.

Section Nested.
Variable build : alayout -> scope -> TM term.
Definition nested_free (l : alayout) : Prop := forall sc, free (build l sc).

Lemma free_ref r sc : (forall l, nested_ref r l -> nested_free l) -> free (build_ref ctx build r sc).
Proof. intros N. unfold build_ref. destruct r as [i|l]; [apply free_build_iri|]. now apply N. Qed.
Lemma free_format d f sc : (forall l, nested_format f l -> nested_free l) -> free (build_format ctx build d f sc).
Proof.
  intros N. destruct f as [r input graph|r]; cbn [build_format].
  - apply free_bind; [frees; apply free_pattern|]. intros input'. apply free_bind; [now apply free_ref|]. intros r'. frees; apply free_pattern.
  - apply free_bind; [now apply free_ref|]. intros r'. frees.
Qed.
Lemma free_item i n it sc : (forall l, nested_format (ai_value it) l -> nested_free l) -> free (build_item ctx build i n it sc).
Proof.
  intros N. unfold build_item. apply free_bind; [apply free_dataset|]. intros ds. apply free_bind; [apply free_property|]. intros ds'.
  apply free_bind; [now apply free_format|]. intros vf. frees.
Qed.
Lemma free_pre l sc : (forall l', nested l l' -> nested_free l') -> free (layout_pre ctx build l sc).
Proof.
  intros N. destruct l as [h c|k h res|h fs|h vs|h n hd tl|h it|h its|b|h|h]; cbn [layout_pre].
  - apply free_bind; [apply free_header|intros; frees].
  - apply free_literal.
  - apply free_bind; [apply free_header|]. intros [hd' sc']. apply free_bind; [|intros; frees].
    apply free_mapS. intros [k [it req]] I. cbn [build_field]. apply free_bind; [|intros; frees]. apply free_item.
    intros l Nl. apply N. now apply (N_field h fs k (AField it req)).
  - apply free_bind; [apply free_header|]. intros [hd' sc']. apply free_bind; [|intros; frees].
    apply free_mapS. intros [k [intro f ds]] I. cbn [build_variant]. apply free_bind; [|intros; frees; apply free_pattern]. apply free_format.
    intros l Nl. apply N. now apply (N_variant h vs k (AVariant intro f ds)).
  - apply free_bind; [apply free_header|]. intros [hd' sc']. apply free_bind; [|intros; frees; apply free_pattern].
    destruct n as [a b intro f ds|r]; cbn [build_node].
    + apply free_bind.
      * apply free_format. intros l Nl. apply N. now apply N_node.
      * intros vf. apply free_bind; [|intros; frees]. destruct ds as [ds|]; [apply free_dataset|].
        destruct f as [r [|p [|p' l]] g|r]; frees; apply free_pattern.
    + apply free_bind; [|intros; frees]. apply free_ref. intros l Nl. apply N. now apply N_node_layout.
  - apply free_bind; [apply free_header|]. intros [hd' sc']. apply free_bind; [|intros; frees].
    apply free_item. intros l Nl. apply N. now apply N_item.
  - apply free_bind; [apply free_header|]. intros [hd' sc']. apply free_bind; [|intros; frees].
    apply free_mapS. intros it I. apply free_item. intros l Nl. apply N. now apply (N_tuple h its it).
  - destruct b; frees.
  - frees.
  - frees.
Qed.
End Nested.

Lemma free_layout l : all_named l -> nested_free (build_layout ctx) l.
Proof.
  induction l as [l IH] using layout_ind. intros H sc. rewrite build_layout_eq.
  assert (exists i, layout_id l = Some i) as [i E].
  { destruct (H l (AbsSpec.inside_self l)) as (h & c & H1 & H2). exists c. destruct l; cbn in *; congruence. }
  unfold layout_body. rewrite E. apply free_bind; [frees|]. intros id. apply free_bind.
  - apply free_pre. intros l' N. apply IH; [exact N|]. intros l'' I. apply H. now apply (AbsSpec.inside_nested l l').
  - intros pre. apply free_bind; [apply free_insert|]. intros [id' [old|]]; cbn [fst snd]; frees.
Qed.
End Anonymous.

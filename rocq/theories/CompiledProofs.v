(** * The records of the compiled layouts have their fields in order (C122) *)

From Coq Require Import String Ascii List Bool Arith NArith Sorted Lia.
Import ListNotations.
From Verif Require Import Base BaseProofs Orders PatternModel ValueModel LayoutModel LayoutSpec
  MatchingSpec HydrateModel HydrateSpec TermModel DehydrateModel DehydrateSpec AbsModel AbsSpec AbsProofs AbsProperties AbsScoping.
Open Scope list_scope.
Open Scope nat_scope.

(** A definition gives layouts with sorted fields only. *)
Definition sorted_pre {R} (p : prelayout R) : Prop := forall lay, prelayout_of p lay -> fields_sorted lay.
Definition sorted_builder {R} (b : @builder R) : Prop := forall r p, In (r, p) b -> sorted_pre p.

Section Sorted.
Context {IS : IriSyntax} {AE : AbsExternal} {St R : Type} {CR : Cmp R} (ctx : context St R).

Definition keeps (b b' : @builder R) : Prop := sorted_builder b -> sorted_builder b'.
Definition anything (e : build_error) : Prop := True.
Notation tri := (triple keeps anything True).

Lemma keeps_refl b : keeps b b.
Proof. intros H. exact H. Qed.
Lemma keeps_trans a b c : keeps a b -> keeps b c -> keeps a c.
Proof. unfold keeps. auto. Qed.
Lemma any_error (e : build_error) : (forall name, e <> UndeclaredVariable name) -> anything e.
Proof. intros _. exact Logic.I. Qed.
Lemma any_unless ns u : unless anything ns u.
Proof. intros name _ _. exact Logic.I. Qed.

Variable build : alayout -> scope -> @M St R R.
Notation nested_keeps := (t_nested keeps anything True build (fun _ => True)).

Lemma layout_keeps l sc : sees sc [] -> (forall l', nested l l' -> nested_keeps l') -> tri (layout_body ctx build l sc) (fun _ => True).
Proof.
  intros S HN. pose proof keeps_refl as KR. pose proof keeps_trans as KT. pose proof any_error as AE'.
  apply (t_bind keeps anything True KT) with (Q := fun _ => True); [now apply t_identifier|]. intros id _.
  apply (t_bind keeps anything True KT) with (Q := sorted_pre).
  2:{ intros pre SP. eapply t_weaken; [apply t_insert; auto|auto]. intros b K r p I. apply bt_insert_In in I as [->|I]; [exact SP|exact (K r p I)]. }
  destruct l as [h c|k h res|h fs|h vs|h n hd tl|h it|h its|b|h|h];
    try (eapply t_bind; [exact KT|exact (t_header ctx keeps anything True KR KT AE' h sc [] S (any_unless _ _))|];
         intros [hd' sc'] (S' & Hn & Hv & Hi & Hj); cbn [fst snd app] in *).
  - apply t_ret; [exact KR|]. intros lay ->. exact Logic.I.
  - assert (NE : ah_input h <> [] -> header_names h <> []).
    { unfold header_names. destruct (ah_input h); [now intros []|discriminate]. }
    eapply t_bind; [exact KT|apply (t_literal_resource ctx keeps anything True KR KT AE' (ah_input h) res sc' (header_names h) S' (any_unless _ _) NE)|].
    intros res' _.
    assert (DT : forall dt name, tri (match dt with Some i => build_iri ctx i sc' | None => iri_resource ctx (xsd name) end) (fun _ => True)).
    { intros [i|] name; [now apply t_build_iri|now apply t_iri]. }
    destruct k as [dt|dt|dt|pat dt|pat].
    + eapply t_bind; [exact KT|apply DT|]. intros dt' _. apply t_ret; [exact KR|]. intros lay ->. exact Logic.I.
    + eapply t_bind; [exact KT|now apply t_build_iri|]. intros dt' _. apply t_ret; [exact KR|]. intros lay ->. exact Logic.I.
    + eapply t_bind; [exact KT|now apply t_build_iri|]. intros dt' _. apply t_ret; [exact KR|]. intros lay ->. exact Logic.I.
    + eapply t_bind; [exact KT|apply DT|]. intros dt' _. apply t_ret; [exact KR|]. intros lay [d ->]. exact Logic.I.
    + apply t_ret; [exact KR|]. intros lay [d ->]. exact Logic.I.
  - eapply t_bind; [exact KT|apply (t_mapS keeps anything True KR KT _ (fun _ _ => True))|].
    { intros [k [it req]] I. cbn [build_field]. eapply t_bind; [exact KT|apply (t_item ctx keeps anything True KR KT AE' build (fun _ => True) _ _ it sc' (header_names h) S')|].
      - apply any_unless.
      - intros l' N. apply HN. now apply (N_field h fs k (AField it req)).
      - lia.
      - unfold header_names. now rewrite app_length.
      - intros it' _. now apply t_ret. }
    intros fs' _. apply t_ret; [exact KR|]. intros lay ->. cbn [fields_sorted]. apply bt_collect_wf.
  - eapply t_bind; [exact KT|apply (t_mapS keeps anything True KR KT _ (fun _ _ => True))|].
    { intros [n v] I. eapply t_weaken; [apply (t_variant ctx keeps anything True KR KT AE' build (fun _ => True) n v sc' (header_names h) S')|auto].
      - apply any_unless.
      - intros l' N. apply HN. now apply (N_variant h vs n v). }
    intros vs' _. apply t_ret; [exact KR|]. intros lay ->. exact Logic.I.
  - eapply t_bind; [exact KT|apply (t_node ctx keeps anything True KR KT AE' build (fun _ => True) n sc' (header_names h) S')|].
    + apply any_unless.
    + intros l' N. apply HN. destruct n; [now apply N_node|now apply N_node_layout].
    + intros node _. eapply t_bind; [exact KT|apply (t_pattern ctx keeps anything True KR KT AE' hd sc' (header_names h) S' (any_unless _ _))|]. intros p' _.
      eapply t_bind; [exact KT|apply (t_pattern ctx keeps anything True KR KT AE' tl sc' (header_names h) S' (any_unless _ _))|]. intros q' _.
      apply t_ret; [exact KR|]. intros lay ->. exact Logic.I.
  - assert (C : sc_count sc' = length (header_names h)) by apply S'.
    eapply t_bind; [exact KT|apply (t_item ctx keeps anything True KR KT AE' build (fun _ => True) _ _ it sc' (header_names h) S')|].
    + apply any_unless.
    + intros l' N. apply HN. now apply N_item.
    + rewrite C. unfold header_names. rewrite app_length. lia.
    + exact C.
    + intros it' _. apply t_ret; [exact KR|]. intros lay ->. exact Logic.I.
  - assert (C : sc_count sc' = length (header_names h)) by apply S'.
    eapply t_bind; [exact KT|apply (t_mapS keeps anything True KR KT _ (fun _ _ => True))|].
    { intros it I. eapply t_weaken; [apply (t_item ctx keeps anything True KR KT AE' build (fun _ => True) _ _ it sc' (header_names h) S')|auto].
      - apply any_unless.
      - intros l' N. apply HN. now apply (N_tuple h its it).
      - rewrite C. unfold header_names. rewrite app_length. lia.
      - exact C. }
    intros its' _. apply t_ret; [exact KR|]. intros lay ->. exact Logic.I.
  - destruct b; (apply t_ret; [exact KR|]; intros lay ->; exact Logic.I).
  - apply t_lift; [exact KR|exact Logic.I].
  - apply t_lift; [exact KR|exact Logic.I].
Qed.
End Sorted.

Section Documents.
Context {IS : IriSyntax} {AE : AbsExternal}.

Lemma document_keeps l (b : @builder term) o b' : build_document l b = (o, b') -> sorted_builder b -> sorted_builder b'.
Proof.
  assert (K : forall l sc, sees sc [] -> triple keeps anything True (build_layout term_context l sc) (fun _ => True)).
  { clear l. intros l. induction l as [l IH] using layout_ind. intros sc S. rewrite build_layout_eq. apply layout_keeps; [exact S|].
    intros l' N sc' S'. now apply IH. }
  intros E SB. unfold build_document, build_with_context in E. destruct (K l scope_default sees_default (0, b)) as [T _].
  destruct (build_layout term_context l scope_default (0, b)) as [o1 s1]. injection E as <- <-. exact (T SB).
Qed.
End Documents.

(** * C13: the effect of the missing layouts

    The definitions that a registry lacks have no influence on the result, or the result is the error naming one of
    them: the results with the registry and with any extension of it are the same, unless the first is this error. *)

From Coq Require Import String List Bool Arith.
Import ListNotations.
From Verif Require Import Base BaseProofs Orders PatternModel MatchingModel MatchingSpec ValueModel LayoutModel LayoutSpec HydrateModel HydrateSpec
  HydrateProperties DehydrateModel DehydrateProperties TermModel.
Open Scope list_scope.
Open Scope nat_scope.

(** [reg'] has the definitions of [reg], and maybe others. *)
Definition extends {R} (reg reg' : registry R) : Prop := forall r l, reg r = Some l -> reg' r = Some l.
(** The variants of the sums only use, directly or not, defined layouts. *)
Definition sums_defined {R} (reg : registry R) : Prop :=
  forall ref h vs va r, reg ref = Some (SumL h vs) -> In va vs -> reaches reg (vf_layout (it_value (va_item va))) r ->
    reg r <> None.

Section Hydration.
Context {R : Type} {CR : Cmp R} {I : Interp R} {X : Xsd}.
Variable D : dataset R.
Variables reg reg' : registry R.

Definition same_or_missing {A} (o o' : outcome (hy_error R) A) : Prop :=
  o = o' \/ exists r, reg r = None /\ o = Err (LayoutNotFound r).

Lemma same {A} (o : outcome (hy_error R) A) : same_or_missing o o.
Proof. now left. Qed.
Lemma same_bind {A B} (o o' : outcome (hy_error R) A) (k k' : A -> outcome (hy_error R) B) :
  same_or_missing o o' -> (forall a, same_or_missing (k a) (k' a)) -> same_or_missing (bind o k) (bind o' k').
Proof.
  intros [->|(r & E & ->)] H.
  - destruct o'; cbn; [apply H|apply same ..].
  - right. exists r. split; [exact E|reflexivity].
Qed.

Variables rec rec' : option R -> R -> list R -> outcome (hy_error R) (typed_value R).
Hypothesis rec_same : forall g ref inputs, same_or_missing (rec g ref inputs) (rec' g ref inputs).

Ltac step := apply same_bind; [first [apply same | idtac]|intros].

Lemma format_same g vf s : same_or_missing (hydrate_format rec g vf s) (hydrate_format rec' g vf s).
Proof. unfold hydrate_format. step. step. apply rec_same. Qed.
Lemma fields_same g ref s fs : forall record,
  same_or_missing (hydrate_fields D rec g ref s fs record) (hydrate_fields D rec' g ref s fs record).
Proof.
  induction fs as [|[k f] fs IH]; intro record; cbn [hydrate_fields]; [apply same|]. step. destruct a as [s'|].
  - step; [apply format_same|apply IH].
  - destruct (f_required f); [apply same|apply IH].
Qed.
Lemma items_same g vf ms : same_or_missing (hydrate_items rec g vf ms) (hydrate_items rec' g vf ms).
Proof.
  induction ms as [|[w|s] ms IH]; cbn [hydrate_items]; [apply same ..|]. step; [apply format_same|]. step; [apply IH|]. apply same.
Qed.
Lemma nodes_same fuel g ref s node : forall head tail,
  same_or_missing (hydrate_nodes D rec fuel g ref s node head tail) (hydrate_nodes D rec' fuel g ref s node head tail).
Proof.
  induction fuel as [|fuel IH]; intros head tail; cbn [hydrate_nodes]; [apply same|]. destruct (eqb head tail); [apply same|].
  step. step; [apply format_same|]. step. step; [apply IH|]. apply same.
Qed.
Lemma tuple_same g ref s its : forall n,
  same_or_missing (hydrate_tuple D rec g ref s n its) (hydrate_tuple D rec' g ref s n its).
Proof.
  induction its as [|it its IH]; intro n; cbn [hydrate_tuple]; [apply same|]. step. step; [apply format_same|].
  step; [apply IH|]. apply same.
Qed.
Lemma variants_same g ref s vs :
  (forall va g inputs, In va vs -> rec g (vf_layout (it_value (va_item va))) inputs = rec' g (vf_layout (it_value (va_item va))) inputs) ->
  forall n sel, hydrate_variants D rec g ref s n vs sel = hydrate_variants D rec' g ref s n vs sel.
Proof.
  induction vs as [|va vs IH]; intros V n sel; cbn [hydrate_variants]; [reflexivity|].
  assert (IH' := IH (fun va g inputs H => V va g inputs (or_intror H))).
  destruct (match_unique _ _ _ _) as [[s'|]| | |]; cbn [bind]; try reflexivity; [|apply IH'].
  assert (hydrate_format rec g (it_value (va_item va)) s' = hydrate_format rec' g (it_value (va_item va)) s') as ->.
  { unfold hydrate_format. destruct (select_inputs _ _); [|reflexivity ..]. cbn [bind]. destruct (select_graph _ _ _); [|reflexivity ..].
    cbn [bind]. apply V. now left. }
  destruct (hydrate_format rec' _ _ _); try reflexivity; [|apply IH']. destruct sel; [reflexivity|apply IH'].
Qed.
Lemma layout_same fuel g ref l inputs :
  (forall h vs va g inputs, l = SumL h vs -> In va vs ->
     rec g (vf_layout (it_value (va_item va))) inputs = rec' g (vf_layout (it_value (va_item va))) inputs) ->
  same_or_missing (hydrate_layout D rec fuel g ref l inputs) (hydrate_layout D rec' fuel g ref l inputs).
Proof.
  intros N. destruct l; cbn [hydrate_layout]; try apply same; step.
  - step; [apply fields_same|]. apply same.
  - step; [|apply same]. left. apply variants_same. intros va g' inputs'. exact (N h variants va g' inputs' eq_refl).
  - step; [apply items_same|]. apply same.
  - step. step. step; [apply nodes_same|]. apply same.
  - step; [apply tuple_same|]. apply same.
Qed.
End Hydration.

Section Dehydration.
Context {Q S I : Type} {CS : Cmp S} {X : Xsd} {IS : IriSyntax}.
Variable ops : interpretation Q S I.
Variable reg : registry Q.
Notation M := (M (Q := Q) (S := S) (I := I)).

Definition same_or_missingM {A} (m m' : M A) : Prop :=
  forall st, m st = m' st \/ exists r st', reg r = None /\ m st = (Err (DLayoutNotFound r), st').

Lemma sameM {A} (m : M A) : same_or_missingM m m.
Proof. intro. now left. Qed.
Lemma same_bindM {A B} (m m' : M A) (k k' : A -> M B) :
  same_or_missingM m m' -> (forall a, same_or_missingM (k a) (k' a)) -> same_or_missingM (bindM m k) (bindM m' k').
Proof.
  intros H K st. unfold bindM. destruct (H st) as [->|(r & st' & E & ->)].
  - destruct (m' st) as [[a|e|w|] st']; [apply K|now left ..].
  - right. exists r, st'. split; [exact E|reflexivity].
Qed.

Variables rec rec' : value -> option S -> Q -> list S -> M unit.
Hypothesis rec_same : forall v g ref inputs, same_or_missingM (rec v g ref inputs) (rec' v g ref inputs).

Ltac step := apply same_bindM; [first [apply sameM | idtac]|intros].

Lemma sub_value_same v g vf e : same_or_missingM (dehydrate_sub_value ops rec v g vf e) (dehydrate_sub_value ops rec' v g vf e).
Proof. unfold dehydrate_sub_value. step. step. apply rec_same. Qed.
Lemma entries_same g e fields : forall entries,
  same_or_missingM (dehydrate_entries ops rec g e fields entries) (dehydrate_entries ops rec' g e fields entries).
Proof.
  induction entries as [|[k v] entries IH]; cbn [dehydrate_entries]; [apply sameM|]. destruct (bt_get k fields); [|apply sameM].
  step. step; [apply sub_value_same|apply IH].
Qed.
Lemma ditems_same g e it : forall l,
  same_or_missingM (dehydrate_items ops rec g e it l) (dehydrate_items ops rec' g e it l).
Proof. induction l as [|v l IH]; cbn [dehydrate_items]; [apply sameM|]. step. step; [apply sub_value_same|apply IH]. Qed.
Lemma dnodes_same g e node tail : forall l head,
  same_or_missingM (dehydrate_nodes ops rec g e node tail head l) (dehydrate_nodes ops rec' g e node tail head l).
Proof.
  induction l as [|v l IH]; intro head; cbn [dehydrate_nodes]; [apply sameM|]. step. step. step; [apply sub_value_same|apply IH].
Qed.
Lemma dtuple_same g e : forall l items,
  same_or_missingM (dehydrate_tuple ops rec g e items l) (dehydrate_tuple ops rec' g e items l).
Proof.
  induction l as [|v l IH]; intros [|it items]; cbn [dehydrate_tuple]; try apply sameM. step. step; [apply sub_value_same|apply IH].
Qed.
Lemma bindM_ext {A B} (m m' : M A) (k k' : A -> M B) st :
  m st = m' st -> (forall a st', k a st' = k' a st') -> bindM m k st = bindM m' k' st.
Proof. intros E K. unfold bindM. rewrite E. destruct (m' st) as [[a|e|w|] st']; [apply K|reflexivity ..]. Qed.
Lemma dvariants_same v g e vs :
  (forall va v g inputs st, In va vs ->
     rec v g (vf_layout (it_value (va_item va))) inputs st = rec' v g (vf_layout (it_value (va_item va))) inputs st) ->
  forall sel st, dehydrate_variants ops rec v g e vs sel st = dehydrate_variants ops rec' v g e vs sel st.
Proof.
  induction vs as [|va vs IH]; intros V sel st; cbn [dehydrate_variants]; [reflexivity|].
  assert (IH' := IH (fun va v g inputs st H => V va v g inputs st (or_intror H))).
  apply bindM_ext; [reflexivity|intros e' st1]. apply bindM_ext; [reflexivity|intros d st2]. apply bindM_ext.
  - unfold is_ok.
    assert (dehydrate_sub_value ops rec v g (it_value (va_item va)) e' st2 =
      dehydrate_sub_value ops rec' v g (it_value (va_item va)) e' st2) as ->; [|reflexivity].
    unfold dehydrate_sub_value. apply bindM_ext; [reflexivity|intros ins st3]. apply bindM_ext; [reflexivity|intros g' st4].
    apply V. now left.
  - intros [|] st3; [|apply IH']. destruct sel; [reflexivity|apply IH'].
Qed.
Lemma dlayout_same v g ref l inputs :
  (forall h vs va v g inputs st, l = SumL h vs -> In va vs ->
     rec v g (vf_layout (it_value (va_item va))) inputs st = rec' v g (vf_layout (it_value (va_item va))) inputs st) ->
  same_or_missingM (dehydrate_layout ops rec v g ref l inputs) (dehydrate_layout ops rec' v g ref l inputs).
Proof.
  intros N. destruct l; cbn [dehydrate_layout]; try apply sameM.
  - destruct v; try apply sameM. step. step; [apply entries_same|]. apply sameM.
  - step. step; [|apply sameM]. left. apply dvariants_same. intros va v' g' inputs' st'. exact (N h variants va v' g' inputs' st' eq_refl).
  - destruct v; try apply sameM. step. apply ditems_same.
  - destruct v; try apply sameM. step. step. apply dnodes_same.
  - destruct v; try apply sameM. step. apply dtuple_same.
Qed.
End Dehydration.

(** C13 (hydration).  If no sum uses a missing layout, the result does not depend on the definitions that the registry lacks, or it is
    the error naming a layout that the registry lacks.  Otherwise: [C13_hydrate_sum_refuted]. *)
Theorem C13_hydrate_missing_partial {R} {CR : Cmp R} {LR : CmpLaws R} {I : Interp R} {X : Xsd} (D : dataset R) G (reg reg' : registry R) :
  enumerates D G -> sums_defined reg -> extends reg reg' ->
  forall fuel g ref inputs,
    hydrate_with D reg fuel g ref inputs = hydrate_with D reg' fuel g ref inputs \/
    exists r, reg r = None /\ hydrate_with D reg fuel g ref inputs = Err (LayoutNotFound r).
Proof.
  intros DG N E. induction fuel as [|fuel IH]; intros g ref inputs; [now left|]. cbn [hydrate_with]. unfold hydrate_body.
  destruct (reg ref) as [l|] eqn:L; [|right; exists ref; auto]. rewrite (E _ _ L). cbn [ok_or bind].
  assert (H := layout_same D reg (hydrate_with D reg fuel) (hydrate_with D reg' fuel) IH fuel g ref l inputs).
  assert (forall h vs va g inputs, l = SumL h vs -> In va vs ->
    hydrate_with D reg fuel g (vf_layout (it_value (va_item va))) inputs =
    hydrate_with D reg' fuel g (vf_layout (it_value (va_item va))) inputs) as V.
  { intros h vs va g' inputs' -> Hva. destruct (IH g' (vf_layout (it_value (va_item va))) inputs') as [H'|(r & M & H')]; [exact H'|].
    destruct (C13_layout_not_found D G reg fuel g' _ inputs' r DG H') as [Hr _]. now destruct (N ref h vs va r L Hva Hr). }
  specialize (H V).
  destruct (input_count l) as [n|]; [|exact H]. destruct (Nat.eqb n (length inputs)); [exact H|now left].
Qed.

(** C13 (dehydration). *)
Theorem C13_dehydrate_missing_partial {Q S I} {CS : Cmp S} {X : Xsd} {IS : IriSyntax} (ops : interpretation Q S I)
  (reg reg' : registry Q) :
  sums_defined reg -> extends reg reg' ->
  forall fuel v g ref inputs st,
    dehydrate_with ops reg fuel v g ref inputs st = dehydrate_with ops reg' fuel v g ref inputs st \/
    exists r st', reg r = None /\ dehydrate_with ops reg fuel v g ref inputs st = (Err (DLayoutNotFound r), st').
Proof.
  intros N E. induction fuel as [|fuel IH]; intros v g ref inputs st; [now left|]. cbn [dehydrate_with]. unfold dehydrate_body.
  destruct (reg ref) as [l|] eqn:L; [|right; exists ref, st; auto]. rewrite (E _ _ L).
  assert (H := dlayout_same ops reg (dehydrate_with ops reg fuel) (dehydrate_with ops reg' fuel) IH v g ref l inputs).
  assert (forall h vs va v g inputs st, l = SumL h vs -> In va vs ->
    dehydrate_with ops reg fuel v g (vf_layout (it_value (va_item va))) inputs st =
    dehydrate_with ops reg' fuel v g (vf_layout (it_value (va_item va))) inputs st) as V.
  { intros h vs va v' g' inputs' st1 -> Hva.
    destruct (IH v' g' (vf_layout (it_value (va_item va))) inputs' st1) as [H'|(r & st' & M & H')]; [exact H'|].
    destruct (C13_dehydrate_not_found ops reg fuel v' g' _ inputs' st1 r st' H') as [Hr _]. now destruct (N ref h vs va r L Hva Hr). }
  specialize (H V st).
  destruct (input_count l) as [n|]; [|exact H]. destruct (Nat.eqb n (length inputs)); [exact H|now left].
Qed.

(** ... on [dehydrate]. *)
Theorem C13_dehydrate_missing_public_partial {Gn} {X : Xsd} {IS : IriSyntax} order (opts : options Gn) (reg reg' : registry term) :
  sums_defined reg -> extends reg reg' ->
  forall fuel v ref,
    dehydrate order reg fuel v ref opts = dehydrate order reg' fuel v ref opts \/
    exists r, reg r = None /\ dehydrate order reg fuel v ref opts = Err (DLayoutNotFound r).
Proof.
  intros N E fuel v ref. unfold dehydrate. destruct (reg ref) as [l|] eqn:L; [|right; exists ref; auto].
  rewrite (E _ _ L). cbn [ok_or bind].
  match goal with |- context [dehydrate_with input_interpretation reg fuel v None ref ?i ?st] =>
    destruct (C13_dehydrate_missing_partial input_interpretation reg reg' N E fuel v None ref i st) as [->|(r & st' & M & ->)] end.
  - now left.
  - right. exists r. auto.
Qed.

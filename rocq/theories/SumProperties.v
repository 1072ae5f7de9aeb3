(** * Zero, one or several variants of a sum (C17) *)

From Coq Require Import String List Bool Arith NArith Permutation Sorted Lia.
Import ListNotations.
From Verif Require Import Base BaseProofs Orders PatternModel MatchingModel MatchingSpec
  MatchingProofs ValueModel ValueProofs LayoutModel HydrateModel HydrateSpec HydrateProofs
  HydrateSound HydrateDet HydrateComplete HydrateProperties.
Open Scope list_scope.
Open Scope nat_scope.

Section Sums.
Context {R : Type} {CR : Cmp R} {LR : CmpLaws R} {IR : Interp R} {X : Xsd}.
Variable D : dataset R.
Variable G : quad R -> Prop.
Hypothesis EN : enumerates D G.
Variable reg : registry R.
Variables (fuel : nat) (g : option R) (ref : R) (s : subst R).

(** ** One variant *)
Definition scoped_in (va : variant R) : Prop := below_vars (length s) (it_dataset (va_item va)).

Lemma applies_run va v : scoped_in va -> applies D reg G fuel g s va v ->
  exists s', match_unique D g (it_dataset (va_item va)) s (FVariant ref (va_name va)) = Ok (Some s') /\
    hydrate_format (hydrate_with D reg fuel) g (it_value (va_item va)) s' = Ok v.
Proof.
  intros B (s' & inputs & g' & IS & P & H).
  destruct (variant_the_solution D G EN g _ s (FVariant ref (va_name va)) (it_intro (va_item va)) B s' IS) as (s0 & M & ->).
  exists s0. split; [exact M|]. rewrite (format_fresh D reg fuel g _ s0 (it_intro (va_item va))).
  now rewrite (format_passes D reg fuel _ _ _ _ _ P).
Qed.

Lemma ruled_out_run va : scoped_in va -> ruled_out D reg G fuel g s va ->
  match_unique D g (it_dataset (va_item va)) s (FVariant ref (va_name va)) = Ok None \/
  exists s' e, match_unique D g (it_dataset (va_item va)) s (FVariant ref (va_name va)) = Ok (Some s') /\
    hydrate_format (hydrate_with D reg fuel) g (it_value (va_item va)) s' = Err e.
Proof.
  intros B [N|(s' & inputs & g' & e & IS & P & H)].
  - left. exact (variant_no_solution D G EN g _ s (FVariant ref (va_name va)) (it_intro (va_item va)) B N).
  - right. destruct (variant_the_solution D G EN g _ s (FVariant ref (va_name va)) (it_intro (va_item va)) B s' IS) as (s0 & M & ->).
    exists s0, e. split; [exact M|]. rewrite (format_fresh D reg fuel g _ s0 (it_intro (va_item va))).
    now rewrite (format_passes D reg fuel _ _ _ _ _ P).
Qed.

(** ** The loop *)
Let loop := hydrate_variants D (hydrate_with D reg fuel) g ref s.

Lemma loop_ruled_out vs : (forall va, In va vs -> scoped_in va) ->
  (forall va, In va vs -> ruled_out D reg G fuel g s va) ->
  forall i sel, loop i vs sel = Ok sel.
Proof.
  unfold loop. induction vs as [|va vs IH]; intros B RO i sel; cbn [hydrate_variants]; [reflexivity|].
  assert (IH' := IH (fun v H => B v (or_intror H)) (fun v H => RO v (or_intror H))).
  destruct (ruled_out_run va (B va (or_introl eq_refl)) (RO va (or_introl eq_refl))) as [M|(s' & e & M & F)]; rewrite M; cbn [bind].
  - apply IH'.
  - rewrite F. apply IH'.
Qed.

Lemma loop_one vs : (forall va, In va vs -> scoped_in va) ->
  forall j va v, nth_error vs j = Some va -> applies D reg G fuel g s va v ->
  (forall k vb, k <> j -> nth_error vs k = Some vb -> ruled_out D reg G fuel g s vb) ->
  forall i, loop i vs None = Ok (Some (i + j, v)).
Proof.
  unfold loop. induction vs as [|vb vs IH]; intros B [|j] va v E A RO i; try discriminate; cbn [hydrate_variants].
  - injection E as ->. destruct (applies_run va v (B va (or_introl eq_refl)) A) as (s' & M & F). rewrite M. cbn [bind]. rewrite F, Nat.add_0_r.
    apply loop_ruled_out; [intros; apply B; now right|]. intros vb I. apply In_nth_error in I as [k I]. now apply (RO (Datatypes.S k)).
  - replace (i + Datatypes.S j) with (Datatypes.S i + j) by lia.
    assert (IH' : hydrate_variants D (hydrate_with D reg fuel) g ref s (Datatypes.S i) vs None = Ok (Some (Datatypes.S i + j, v))).
    { apply IH with va; auto; [intros; apply B; now right|]. intros k vc NE I. apply (RO (Datatypes.S k)); [lia|exact I]. }
    destruct (ruled_out_run vb (B vb (or_introl eq_refl)) (RO 0 vb ltac:(lia) eq_refl)) as [M|(s' & e & M & F)]; rewrite M; cbn [bind]; [|rewrite F]; exact IH'.
Qed.

Lemma loop_second vs : (forall va, In va vs -> scoped_in va) ->
  (forall va, In va vs -> (exists v, applies D reg G fuel g s va v) \/ ruled_out D reg G fuel g s va) ->
  forall va v, In va vs -> applies D reg G fuel g s va v ->
  forall i p, loop i vs (Some p) = Panic "hydrate: variant ambiguity"%string.
Proof.
  unfold loop. induction vs as [|vb vs IH]; intros B DE va v I A i p; [destruct I|]. cbn [hydrate_variants].
  destruct (DE vb (or_introl eq_refl)) as [[w A']|RO].
  - destruct (applies_run vb w (B vb (or_introl eq_refl)) A') as (s' & M & F). rewrite M. cbn [bind]. now rewrite F.
  - destruct I as [->|I].
    { destruct (applies_run va v (B va (or_introl eq_refl)) A) as (s' & M & F). rewrite M. cbn [bind]. now rewrite F. }
    assert (IH' := IH (fun v H => B v (or_intror H)) (fun v H => DE v (or_intror H)) va v I A (Datatypes.S i) p).
    destruct (ruled_out_run vb (B vb (or_introl eq_refl)) RO) as [M|(s' & e & M & F)]; rewrite M; cbn [bind]; [|rewrite F]; exact IH'.
Qed.

Lemma loop_several vs : (forall va, In va vs -> scoped_in va) ->
  (forall va, In va vs -> (exists v, applies D reg G fuel g s va v) \/ ruled_out D reg G fuel g s va) ->
  forall j k va vb v w, j < k -> nth_error vs j = Some va -> nth_error vs k = Some vb ->
  applies D reg G fuel g s va v -> applies D reg G fuel g s vb w ->
  forall i, loop i vs None = Panic "hydrate: variant ambiguity"%string.
Proof.
  unfold loop. induction vs as [|vc vs IH]; intros B DE j k va vb v w LT E E' A A' i; [destruct j; discriminate|].
  destruct k as [|k]; [lia|]. cbn [nth_error] in E'. cbn [hydrate_variants].
  assert (B' := fun v H => B v (or_intror H)). assert (DE' := fun v H => DE v (or_intror H)).
  destruct (DE vc (or_introl eq_refl)) as [[x A'']|RO].
  - destruct (applies_run vc x (B vc (or_introl eq_refl)) A'') as (s' & M & F). rewrite M. cbn [bind]. rewrite F.
    apply (loop_second vs B' DE' vb w (nth_error_In _ _ E') A').
  - destruct j as [|j].
    + injection E as ->. destruct (applies_run va v (B va (or_introl eq_refl)) A) as (s' & M & F). rewrite M. cbn [bind]. rewrite F.
      apply (loop_second vs B' DE' vb w (nth_error_In _ _ E') A').
    + cbn [nth_error] in E. assert (IH' := IH B' DE' j k va vb v w ltac:(lia) E E' A A' (Datatypes.S i)).
      destruct (ruled_out_run vc (B vc (or_introl eq_refl)) RO) as [M|(s' & e & M & F)]; rewrite M; cbn [bind]; [|rewrite F]; exact IH'.
Qed.
End Sums.

Section Theorems.
Context {R : Type} {CR : Cmp R} {LR : CmpLaws R} {IR : Interp R} {X : Xsd}.

(** C17 (the three cases).  On a sum whose patterns only use the variables of the sum, whose header
    matches in one way, and each variant of which applies or is ruled out: exactly one variant that
    applies is returned; no variant, or two of them, make hydration panic — where the statement
    asks for an error, see [C17_sum_refuted]. *)
Theorem C17_choice (D : dataset R) G (reg : registry R) fuel g ref inputs h vs s :
  enumerates D G -> reg ref = Some (SumL h vs) -> patterns_scoped (SumL h vs) -> length inputs = h_input h ->
  header_sol G g h inputs s ->
  (forall va, In va vs -> (exists v, applies D reg G fuel g s va v) \/ ruled_out D reg G fuel g s va) ->
  (forall i va v, nth_error vs i = Some va -> applies D reg G fuel g s va v ->
     (forall j vb, j <> i -> nth_error vs j = Some vb -> ruled_out D reg G fuel g s vb) ->
     hydrate_with D reg (S fuel) g ref inputs = Ok (TVariant v ref i)) /\
  ((forall va, In va vs -> ruled_out D reg G fuel g s va) ->
     hydrate_with D reg (S fuel) g ref inputs = Panic "hydrate: no variant found"%string) /\
  (forall i j va vb v w, i <> j -> nth_error vs i = Some va -> nth_error vs j = Some vb ->
     applies D reg G fuel g s va v -> applies D reg G fuel g s vb w ->
     hydrate_with D reg (S fuel) g ref inputs = Panic "hydrate: variant ambiguity"%string).
Proof.
  intros EN E [BH BV] L HS DE.
  assert (B : forall va, In va vs -> scoped_in s va).
  { intros va I. unfold scoped_in. erewrite header_length by eauto. rewrite L. auto. }
  assert (Hs : match_header D g ref h inputs = Ok s).
  { apply (header_complete D G EN reg g ref (SumL h vs) h inputs s); [now rewrite L|exact HS|].
    split; [exact E|]. cbn [arity]. intros n [= <-]. now symmetry. }
  assert (Run : hydrate_with D reg (S fuel) g ref inputs =
    bind (hydrate_variants D (hydrate_with D reg fuel) g ref s 0 vs None)
      (fun sel => match sel with Some (i, v) => Ok (TVariant v ref i) | None => Panic "hydrate: no variant found"%string end)).
  { cbn [hydrate_with]. unfold hydrate_body. rewrite E. cbn [ok_or bind input_count].
    rewrite L, Nat.eqb_refl. cbn [hydrate_layout]. rewrite Hs. reflexivity. }
  rewrite Run. clear Run. split; [|split].
  - intros i va v I A RO. now rewrite (loop_one D G EN reg fuel g ref s vs B i va v I A RO 0).
  - intros RO. now rewrite (loop_ruled_out D G EN reg fuel g ref s vs B RO 0 None).
  - intros i j va vb v w NE I J A A'. destruct (Nat.lt_trichotomy i j) as [LT|[EQ|LT]]; [|contradiction|].
    + now rewrite (loop_several D G EN reg fuel g ref s vs B DE i j va vb v w LT I J A A' 0).
    + now rewrite (loop_several D G EN reg fuel g ref s vs B DE j i vb va w v LT J I A' A 0).
Qed.
End Theorems.

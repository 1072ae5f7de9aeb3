(** * The patterns of the text layouts play no role (C20) *)

From Coq Require Import String List Bool Arith NArith Permutation Lia.
Import ListNotations.
From Verif Require Import Base BaseProofs Orders PatternModel MatchingModel ValueModel LayoutModel HydrateModel TermModel
  DehydrateModel UndefinedProperties.
Open Scope list_scope.
Open Scope nat_scope.

(** A layout without its regular expression, if it has one. *)
Definition without_pattern {R} (l : layout R) : layout R :=
  match l with
  | DataL (KTextString _) h resource datatype => DataL (KTextString None) h resource datatype
  | IdL h resource _ => IdL h resource None
  | l => l
  end.

(** Registries with the same layouts, up to the regular expressions. *)
Definition same_but_patterns {R} (reg reg' : registry R) : Prop :=
  forall r, option_map without_pattern (reg r) = option_map without_pattern (reg' r).

Lemma without_pattern_count {R} (l : layout R) : input_count (without_pattern l) = input_count l.
Proof. destruct l as [| |k| | | | | | |]; try destruct k; reflexivity. Qed.

Section Hydration.
Context {R : Type} {CR : Cmp R} {I : Interp R} {X : Xsd}.
Variable D : dataset R.

Lemma literals_pattern pat pat' (ref dt : R) ls : forall sel,
  hydrate_literals (KTextString pat) ref dt ls sel = hydrate_literals (KTextString pat') ref dt ls sel.
Proof.
  induction ls as [|l ls IH]; intro sel; cbn [hydrate_literals]; [reflexivity|]. destruct (rl_type l) as [i|]; [|reflexivity].
  destruct (existsb (eqb i) (iris_of dt)); [|apply IH]. cbn [hydrate_literal_value]. unfold hydrate_text_string_value. cbn [bind].
  destruct sel; [reflexivity|apply IH].
Qed.

Lemma layout_pattern rec fuel g ref (l : layout R) inputs :
  hydrate_layout D rec fuel g ref l inputs = hydrate_layout D rec fuel g ref (without_pattern l) inputs.
Proof.
  destruct l as [| |k| | | | | | |]; try destruct k as [| | |pat]; try reflexivity. cbn [without_pattern hydrate_layout].
  destruct (match_header D g ref h inputs) as [s|e|w|]; [|reflexivity ..]. cbn [bind].
  destruct (into_resource (papply s resource)) as [r|]; [|reflexivity]. cbn [unwrap bind].
  now rewrite (literals_pattern pat None).
Qed.

Lemma layout_rec rec rec' fuel g ref (l : layout R) inputs :
  (forall g ref inputs, rec g ref inputs = rec' g ref inputs) ->
  hydrate_layout D rec fuel g ref l inputs = hydrate_layout D rec' fuel g ref l inputs.
Proof.
  intro H. destruct (layout_same D (fun _ => Some Never) rec rec' (fun g r i => or_introl (H g r i)) fuel g ref l inputs) as [E|(r & E & _)];
    [auto|exact E|discriminate].
Qed.

(** C20.  The regular expressions have no influence on hydration: two registries that only differ by
    them give the same result, on every dataset … *)
Theorem C20_hydrate_ignores (reg reg' : registry R) : same_but_patterns reg reg' ->
  forall fuel g ref inputs, hydrate_with D reg fuel g ref inputs = hydrate_with D reg' fuel g ref inputs.
Proof.
  intros SP. induction fuel as [|fuel IH]; intros g ref inputs; [reflexivity|]. cbn [hydrate_with]. unfold hydrate_body.
  specialize (SP ref). destruct (reg ref) as [l|], (reg' ref) as [l'|]; try discriminate; [|reflexivity]. injection SP as SP.
  cbn [ok_or bind]. rewrite <- (without_pattern_count l), <- (without_pattern_count l'), SP.
  assert (E : hydrate_layout D (hydrate_with D reg fuel) fuel g ref l inputs = hydrate_layout D (hydrate_with D reg' fuel) fuel g ref l' inputs).
  { rewrite (layout_pattern _ fuel g ref l), (layout_pattern _ fuel g ref l'), SP. now apply layout_rec. }
  now rewrite E.
Qed.
End Hydration.

Section Dehydration.
Context {Q S I : Type} {CS : Cmp S} {X : Xsd} {IS : IriSyntax}.
Variable ops : interpretation Q S I.

Lemma dlayout_pattern rec v g ref (l : layout Q) inputs :
  dehydrate_layout ops rec v g ref l inputs = dehydrate_layout ops rec v g ref (without_pattern l) inputs.
Proof. destruct l as [| |k| | | | | | |]; try destruct k; reflexivity. Qed.

Lemma dlayout_rec rec rec' v g ref (l : layout Q) inputs st :
  (forall v g ref inputs st, rec v g ref inputs st = rec' v g ref inputs st) ->
  dehydrate_layout ops rec v g ref l inputs st = dehydrate_layout ops rec' v g ref l inputs st.
Proof.
  intro H. destruct (dlayout_same ops (fun _ => Some Never) rec rec' (fun v g r i st => or_introl (H v g r i st)) v g ref l inputs
    (fun h vs va v g i st _ _ => H v g _ i st) st) as [E|(r & st' & E & _)]; [exact E|discriminate].
Qed.

(** … and none on dehydration. *)
Theorem C20_dehydrate_ignores (reg reg' : registry Q) : same_but_patterns reg reg' ->
  forall fuel v g ref inputs st, dehydrate_with ops reg fuel v g ref inputs st = dehydrate_with ops reg' fuel v g ref inputs st.
Proof.
  intros SP. induction fuel as [|fuel IH]; intros v g ref inputs st; [reflexivity|]. cbn [dehydrate_with]. unfold dehydrate_body.
  specialize (SP ref). destruct (reg ref) as [l|], (reg' ref) as [l'|]; try discriminate; [|reflexivity]. injection SP as SP.
  rewrite <- (without_pattern_count l), <- (without_pattern_count l'), SP.
  assert (E : dehydrate_layout ops (dehydrate_with ops reg fuel) v g ref l inputs st = dehydrate_layout ops (dehydrate_with ops reg' fuel) v g ref l' inputs st).
  { rewrite (dlayout_pattern _ v g ref l), (dlayout_pattern _ v g ref l'), SP. now apply dlayout_rec. }
  destruct (input_count (without_pattern l')); [|exact E]. destruct (Nat.eqb n (length inputs)); [exact E|reflexivity].
Qed.
End Dehydration.

Theorem C20_dehydrate_public_ignores {Gn} {X : Xsd} {IS : IriSyntax} order (opts : options Gn) (reg reg' : registry term) :
  same_but_patterns reg reg' ->
  forall fuel v ref, dehydrate order reg fuel v ref opts = dehydrate order reg' fuel v ref opts.
Proof.
  intros SP fuel v ref. unfold dehydrate. pose proof (SP ref) as E.
  destruct (reg ref) as [l|], (reg' ref) as [l'|]; try discriminate; [|reflexivity]. injection E as E. cbn [ok_or bind].
  assert (C : input_count l = input_count l') by now rewrite <- (without_pattern_count l), E, without_pattern_count.
  rewrite C, (C20_dehydrate_ignores input_interpretation reg reg' SP). reflexivity.
Qed.

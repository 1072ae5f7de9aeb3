(** * What is written back is what was read (C100) *)

From Coq Require Import String List Bool Arith NArith Permutation Sorted Lia.
Import ListNotations.
From Verif Require Import Base BaseProofs Orders PatternModel MatchingModel MatchingSpec ValueModel LayoutModel LayoutSpec HydrateModel
  HydrateSpec HydrateProofs HydrateSound HydrateComplete HydrateProperties TermModel DehydrateModel DehydrateSpec DehydrateProofs DehydrateEmits DehydrateFinish
  DehydrateProperties RegistryProperties RoundTripSpec OtherDataProperties RenameProperties DehydrateUnique DehydrateUniqueProperties
  WriteBackSpec WriteBackProofs.
Open Scope list_scope.
Open Scope nat_scope.

Section WriteBack.
Context {X : Xsd} {IS : IriSyntax} {Gn : Type}.
Variable reg : registry term.
Hypothesis plain : plain_registry reg.
Hypothesis sorted : registry_sorted reg.
Hypothesis no_blank : forall r l b, reg r = Some l -> ~ mentions l (TmBlank b).
Variable order : list (quad res) -> list (quad res).
Hypothesis order_perm : forall l, Permutation (order l) l.
Variable opts : options Gn.
Hypothesis blanks : blank_identifiers opts.
Hypothesis fresh_ids : fresh_identifiers opts.
Variable G : quad term -> Prop.

(** The inputs of the run are the inputs of the reading. *)
Definition start (inputs : list term) (r : res) : term :=
  match r with RInput i => nth i inputs (TmIri EmptyString) | RAnon _ => TmIri EmptyString | RTerm t => t end.

Lemma start_inputs inputs : map (start inputs) (map RInput (seq 0 (length inputs))) = inputs.
Proof.
  rewrite map_map. cbn [start].
  assert (forall l pre, map (fun i => nth i (pre ++ l) (TmIri EmptyString)) (seq (length pre) (length l)) = l) as H.
  { induction l as [|u l IH]; intro pre; cbn [length seq map]; [reflexivity|]. f_equal.
    - now rewrite app_nth2, Nat.sub_diag by lia.
    - specialize (IH (pre ++ [u])). rewrite app_length, <- app_assoc in IH. cbn [length app] in IH. now rewrite Nat.add_1_r in IH. }
  exact (H inputs []).
Qed.

Lemma inputs_below c n : Forall (below c) (map RInput (seq 0 n)).
Proof. apply Forall_forall. intros r Hr. apply in_map_iff in Hr as (i & <- & _). exact Logic.I. Qed.

Lemma initial_inv th : (forall t, th (RTerm t) = t) -> Inv G initial th.
Proof. intro FT. split; [exact FT|intros q []|intros r t []]. Qed.

(** Names given by [dehydrate], against the terms that were read. *)
Lemma transfer_normal count st theta th r :
  mapping opts st count theta -> Inv G st th ->
  (forall r, In r (resources count st) -> met count r) -> (forall r b, ~ assigned st r (TmBlank b)) ->
  In r (resources count st) -> normal_term (transfer count st theta th (theta r)) (th r).
Proof.
  intros MP I ME AS Hr. destruct blanks as (B1 & B2). unfold transfer.
  destruct (theta r) as [i|b|l] eqn:E.
  2: { destruct (find _ _) as [r'|] eqn:EF.
       - apply find_some in EF as [Hr' E']. apply (proj1 (eqb_eq _ _)) in E'.
         rewrite (blank_injective opts count st theta r' r b) by eassumption. constructor.
       - eapply find_none in EF; [|exact Hr]. cbn beta in EF. rewrite E, eqb_refl in EF. discriminate. }
  all: assert (NB : forall b, theta r <> TmBlank b) by (rewrite E; discriminate); rewrite <- E; clear E.
  all: destruct (terms_of r (ii_map (ds_interp st))) as [|t ts] eqn:ET;
    [|assert (AT : assigned st r t) by (unfold assigned; rewrite ET; now left); rewrite (mp_assigned _ _ _ _ MP _ _ AT); apply (iv_asg _ _ _ I _ _ AT)].
  all: assert (UN : forall t, ~ assigned st r t) by (unfold assigned; rewrite ET; intros t []).
  all: destruct r as [j|j|t];
    [rewrite (mp_input _ _ _ _ MP j (ME _ Hr) UN) in NB; destruct (B1 j) as [b Eb]; now elim (NB b)
    |destruct (mp_anon _ _ _ _ MP) as (k & A1 & _); apply resources_In in Hr as [Hr|(q & Hq & Hr)]; [apply in_map_iff in Hr as (? & [=] & _)|];
     rewrite (A1 j q Hq Hr UN) in NB; destruct (B2 (k j)) as [b Eb]; now elim (NB b)
    |rewrite (mp_term _ _ _ _ MP), (iv_term _ _ _ I); constructor].
Qed.

(** C100.  Dehydrating a value that was read from a dataset, with the same layout, writes nothing that is not in this dataset:
    replacing the blank nodes by the right terms, each quad written is a quad of the dataset, and the values returned are the
    inputs, up to the way booleans and decimals are written. *)
Theorem C100_written_back_partial D fuel fuel' ref inputs tv ds vals :
  enumerates D G -> hydrate D reg fuel ref inputs = Ok tv ->
  dehydrate order reg fuel' (into_untyped tv) ref opts = Ok (ds, vals) ->
  exists f, renames_blanks f /\
    (forall q, In q ds -> exists q0, G q0 /\ normal_quad (rename_quad f q) q0) /\
    (length vals = length inputs -> Forall2 normal_term (map f vals) inputs).
Proof.
  intros EN HY DE. destruct (C09_hydration_sound D G reg fuel None ref inputs EN sorted) as [SND _]. apply SND in HY. clear SND.
  apply dehydrate_inv in DE as (l & st & theta & El & RUN & MP & _ & DS & VA); [|exact order_perm].
  set (count := root_count opts l) in *.
  destruct (run_met reg no_blank fuel' _ ref count st RUN) as [ME AS].
  assert (exists th, Inv G st th /\ (count = length inputs -> forall i, th (RInput i) = start inputs (RInput i))) as (th & IV & TI).
  { destruct (Nat.eq_dec count (length inputs)) as [EC|NC].
    - destruct (with_step G reg plain sorted fuel' tv None ref (map RInput (seq 0 count)) initial st (start inputs) RUN) as (th & A & IV & _).
      + apply initial_inv. reflexivity.
      + apply inputs_below.
      + rewrite EC, start_inputs. exact HY.
      + exists th. split; [exact IV|]. intros _ i. symmetry. apply A. exact Logic.I.
    - exists (start inputs). split; [|congruence].
      assert (arity l = None) as AN.
      { destruct (arity l) as [n|] eqn:AL; [|reflexivity]. exfalso. apply NC. unfold count, root_count. rewrite <- arity_input_count, AL.
        destruct HY; match goal with H : layout_for _ _ _ _ |- _ => destruct H as [LF AR]; rewrite LF in El; injection El as <-; now rewrite (AR _ AL) end. }
      assert (l = Always) as ->.
      { destruct HY; match goal with H : layout_for _ _ _ _ |- _ => destruct H as [LF AR]; rewrite LF in El; injection El as <- end; try discriminate; reflexivity. }
      assert (st = initial) as ->.
      { destruct fuel'; cbn [dehydrate_with] in RUN; [discriminate|]. unfold dehydrate_body in RUN. rewrite El in RUN. cbn [input_count dehydrate_layout] in RUN.
        apply ret_Ok in RUN as [_ <-]. reflexivity. }
      apply initial_inv. reflexivity. }
  exists (transfer count st theta th).
  assert (T : forall r, In r (resources count st) -> normal_term (transfer count st theta th (theta r)) (th r))
    by (intros r Hr; now apply transfer_normal).
  split; [|split].
  - intros t NB. unfold transfer. destruct t as [i|b|l0]; [reflexivity|elim (NB b eq_refl)|reflexivity].
  - intros q Hq. apply DS in Hq as (q' & Hq & ->). exists (quad_map th q'). split; [apply (iv_out _ _ _ IV q' Hq)|].
    assert (TQ : forall r, quad_res q' r -> normal_term (transfer count st theta th (theta r)) (th r)).
    { intros r Hr. apply T, resources_In. right. eauto. }
    unfold normal_quad, rename_quad, quad_map. cbn [q_s q_p q_o q_g].
    split; [apply TQ; unfold quad_res; auto|]. split; [apply TQ; unfold quad_res; auto|]. split; [apply TQ; unfold quad_res; auto|].
    destruct (q_g q') as [g|] eqn:Eg; cbn [option_map]; constructor. apply TQ. unfold quad_res. auto.
  - intro LV. assert (EC : count = length inputs) by (rewrite <- LV, VA, !map_length, seq_length; reflexivity).
    pose proof (start_inputs inputs) as SI. rewrite <- EC in SI. rewrite <- SI, VA. clear SI VA LV.
    assert (forall rs, (forall r, In r rs -> In r (map RInput (seq 0 count))) -> Forall2 normal_term (map (transfer count st theta th) (map theta rs)) (map (start inputs) rs)) as H.
    { induction rs as [|r rs IH]; intro Hin; cbn [map]; constructor.
      - pose proof (Hin r (or_introl eq_refl)) as Hr. assert (start inputs r = th r) as ->.
        { apply in_map_iff in Hr as (i & <- & _). symmetry. now apply TI. }
        apply T, resources_In. now left.
      - apply IH. intros r' Hr'. apply Hin. now right. }
    now apply H.
Qed.

(** C100, when the booleans and the decimals of the dataset are in normal form: what is written back is a part of the dataset. *)
Theorem C100_part_of_dataset_partial D fuel fuel' ref inputs tv ds vals :
  (forall q t, G q -> term_of_quad q t -> is_normal t) -> Forall is_normal inputs ->
  enumerates D G -> hydrate D reg fuel ref inputs = Ok tv ->
  dehydrate order reg fuel' (into_untyped tv) ref opts = Ok (ds, vals) ->
  exists f, renames_blanks f /\ (forall q, In q ds -> G (rename_quad f q)) /\ (length vals = length inputs -> map f vals = inputs).
Proof.
  intros NG NI EN HY DE. destruct (C100_written_back_partial D fuel fuel' ref inputs tv ds vals EN HY DE) as (f & RB & Q & V).
  exists f. split; [exact RB|]. split.
  - intros q Hq. destruct (Q q Hq) as (q0 & G0 & N1 & N2 & N3 & N4). replace (rename_quad f q) with q0; [exact G0|].
    destruct q0 as [s p o g]. unfold rename_quad in *. cbn [q_s q_p q_o q_g] in *.
    rewrite (NG _ s G0 (or_introl eq_refl) _ N1), (NG _ p G0 (or_intror (or_introl eq_refl)) _ N2),
      (NG _ o G0 (or_intror (or_intror (or_introl eq_refl))) _ N3).
    f_equal. inversion N4 as [E1 E2|g1 g2 N E1 E2]; subst; [reflexivity|].
    f_equal. symmetry. apply (NG _ g2 G0); [unfold term_of_quad; cbn [q_g]; auto|exact N].
  - intro LV. specialize (V LV). clear -V NI. revert NI. induction V as [|t t' l l' N V IH]; intro NI; [reflexivity|].
    inversion NI; subst. f_equal; auto.
Qed.
End WriteBack.

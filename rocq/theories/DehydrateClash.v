(** * The blank nodes of the layouts and those that dehydration creates (C62) *)

From Coq Require Import String List Bool Arith NArith Permutation Lia.
Import ListNotations.
From Verif Require Import Base BaseProofs Orders PatternModel ValueModel LayoutModel LayoutSpec HydrateModel TermModel
  DehydrateModel DehydrateSpec DehydrateProofs DehydrateEmits DehydrateFinish DehydrateProperties
  RoundTripSpec OtherDataProperties RenameProperties DehydrateUnique.
Open Scope list_scope.
Open Scope nat_scope.

Section Clash.
Context {X : Xsd} {IS : IriSyntax} {Gn : Type} (opts : options Gn).

(** C62 (what holds).  When the layouts mention none of the blank nodes of the options, a blank node of the result is
    the name of one resource: an input, a created resource, or a blank node of the layouts.  Missing: layouts that
    mention a blank node of the options, for which it is false ([C62_no_clash_refuted]). *)
Theorem C62_no_clash_partial (order : list (quad res) -> list (quad res)) (reg : registry term) fuel v ref ds vals :
  (forall l, Permutation (order l) l) -> fresh_identifiers opts ->
  (forall r l, reg r = Some l -> (forall i, ~ mentions l (o_input_term opts i)) /\ (forall n, ~ mentions l (generated opts n))) ->
  dehydrate order reg fuel v ref opts = Ok (ds, vals) ->
  exists l st theta, reg ref = Some l /\
    dehydrate_with input_interpretation reg fuel v None ref (map RInput (seq 0 (input_number opts l))) initial = (Ok tt, st) /\
    (forall q, In q ds <-> exists q', In q' (ds_output st) /\ q = quad_map theta q') /\
    vals = map theta (map RInput (seq 0 (input_number opts l))) /\
    let occurs r := In r (map RInput (seq 0 (input_number opts l))) \/ exists q, In q (ds_output st) /\ quad_res q r in
    (forall t, occurs (RTerm t) -> theta (RTerm t) = t /\ exists r l, reg r = Some l /\ mentions l t) /\
    (forall r r' b, occurs r -> occurs r' -> theta r = TmBlank b -> theta r' = TmBlank b -> r = r').
Proof.
  intros OP (F1 & F2 & F3) NM H.
  apply dehydrate_inv in H as (l & st & theta & E & R & MP & _ & HD & HV); [|exact OP].
  exists l, st, theta. rewrite !input_number_count. split; [exact E|]. split; [exact R|]. split; [exact HD|]. split; [exact HV|].
  intros occurs. set (count := root_count opts l) in *.
  set (P := fun r => match r with RInput i => i < count | RAnon _ => True | RTerm t => exists r l, reg r = Some l /\ mentions l t end).
  assert (F : Forall P (map RInput (seq 0 count))).
  { apply Forall_forall. intros r Hr. apply in_map_iff in Hr as (i & <- & Hi). apply in_seq in Hi. unfold P. lia. }
  assert (ME : forall r, occurs r -> P r).
  { intros r [Hr|(q & Hq & Hr)]; [rewrite Forall_forall in F; auto|].
    destruct (dehydrate_clean reg P) with (fuel := fuel) (v := v) (g := @None res) (ref := ref) (inputs := map RInput (seq 0 count))
      (st := initial) (o := Ok (E := de_error term) tt) (st' := st) as [C _]; try assumption.
    + exact (fun _ => Logic.I).
    + intros r' l' t HR HM. now exists r', l'.
    + intros q' r' [].
    + eapply C; eassumption. }
  assert (AS : forall r b, ~ assigned st r (TmBlank b)) by (eapply assigned_not_blank; [|exact R]; intros r b []).
  split; [intros t Ht; split; [apply (mp_term _ _ _ _ MP)|exact (ME _ Ht)]|].
  intros r r' b Hr Hr' T T'. destruct (mp_anon _ _ _ _ MP) as (k & A1 & A2).
  assert (CL : forall r, occurs r -> theta r = TmBlank b ->
    (exists i, r = RInput i /\ theta r = o_input_term opts i) \/
    (exists i q, r = RAnon i /\ theta r = generated opts (k i) /\ (forall t, ~ assigned st r t) /\ In q (ds_output st) /\ quad_res q r) \/
    (exists r0 l0, r = RTerm (TmBlank b) /\ reg r0 = Some l0 /\ mentions l0 (TmBlank b))).
  { intros r0 H0 E0.
    assert (U0 : forall t, ~ assigned st r0 t).
    { intros t Ht. rewrite (mp_assigned _ _ _ _ MP r0 t Ht) in E0. subst t. eapply AS, Ht. }
    pose proof (ME r0 H0) as M0. destruct r0 as [i|i|t].
    - left. exists i. split; [reflexivity|]. apply (mp_input _ _ _ _ MP); [exact M0|exact U0].
    - right. left. destruct H0 as [H0|(q & Hq & H0)]; [apply in_map_iff in H0 as (? & [=] & _)|].
      exists i, q. split; [reflexivity|]. split; [apply (A1 i q Hq H0 U0)|]. auto.
    - right. right. rewrite (mp_term _ _ _ _ MP) in E0. subst t. destruct M0 as (r1 & l1 & M1 & M2). now exists r1, l1. }
  destruct (CL r Hr T) as [(i & -> & S1)|[(i & q & -> & S1 & U & Hq & Q)|(r0 & l0 & -> & R0 & M0)]],
    (CL r' Hr' T') as [(i' & -> & S1')|[(i' & q' & -> & S1' & U' & Hq' & Q')|(r0' & l0' & -> & R0' & M0')]]; try reflexivity.
  - f_equal. apply F1. congruence.
  - elim (F3 i (k i')). congruence.
  - destruct (NM _ _ R0') as [N _]. elim (N i). congruence.
  - elim (F3 i' (k i)). congruence.
  - f_equal. apply (A2 i i' q q'); auto. apply F2. congruence.
  - destruct (NM _ _ R0') as [_ N]. elim (N (k i)). congruence.
  - destruct (NM _ _ R0) as [N _]. elim (N i'). congruence.
  - destruct (NM _ _ R0) as [_ N]. elim (N (k i')). congruence.
Qed.
End Clash.

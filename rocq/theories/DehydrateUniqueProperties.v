(** * The result of dehydration is unique up to the names of the blank nodes (C98) *)

From Coq Require Import String List Bool Arith NArith Permutation Lia.
Import ListNotations.
From Verif Require Import Base BaseProofs Orders PatternModel ValueModel LayoutModel LayoutSpec HydrateModel TermModel
  DehydrateModel DehydrateSpec DehydrateProofs DehydrateEmits DehydrateFinish DehydrateProperties
  MatchingModel MatchingSpec HydrateSpec HydrateProofs HydrateProperties RegistryProperties RoundTripSpec OtherDataProperties RenameProperties DehydrateUnique.
Open Scope list_scope.
Open Scope nat_scope.

(** ** Specification *)

(** The second result is the first one where every term [t] is replaced by [f t]. *)
Definition replaced (f : term -> term) (r1 r2 : list (quad term) * list term) : Prop :=
  (forall q, In q (fst r2) <-> exists q1, In q1 (fst r1) /\ q = rename_quad f q1) /\ snd r2 = map f (snd r1).

(** Only the blank nodes are renamed. *)
Definition renames_blanks (f : term -> term) : Prop := forall t, (forall b, t <> TmBlank b) -> f t = t.

(** The terms of a result. *)
Definition term_of_result (r : list (quad term) * list term) (t : term) : Prop :=
  In t (snd r) \/ exists q, In q (fst r) /\ (q_s q = t \/ q_p q = t \/ q_o q = t \/ q_g q = Some t).

Section Unique.
Context {X : Xsd} {IS : IriSyntax} {Gn1 Gn2 : Type}.
Variable reg : registry term.
Hypothesis no_blank : forall r l b, reg r = Some l -> ~ mentions l (TmBlank b).

(** The resources met by a run with [count] inputs. *)
Definition met (count : nat) (r : res) : Prop :=
  match r with RInput i => i < count | RAnon _ => True | RTerm t => forall b, t <> TmBlank b end.

Definition resources (count : nat) (st : dstate res input_interp) : list res :=
  map RInput (seq 0 count) ++ flat_map (fun q => q_s q :: q_p q :: q_o q :: match q_g q with Some g => [g] | None => [] end) (ds_output st).

Lemma resources_In count st r : In r (resources count st) <-> In r (map RInput (seq 0 count)) \/ exists q, In q (ds_output st) /\ quad_res q r.
Proof.
  unfold resources. rewrite in_app_iff, in_flat_map. apply or_iff_compat_l. unfold quad_res. split; intros (q & Hq & H); exists q; (split; [exact Hq|]); cbn [In] in *.
  - destruct (q_g q); cbn [In] in H; intuition congruence.
  - destruct H as [H|[H|[H|H]]]; auto. rewrite H. right. right. right. now left.
Qed.

Lemma run_met fuel v ref count st :
  dehydrate_with input_interpretation reg fuel v None ref (map RInput (seq 0 count)) initial = (Ok tt, st) ->
  (forall r, In r (resources count st) -> met count r) /\ (forall r b, ~ assigned st r (TmBlank b)).
Proof.
  intro H.
  assert (F : Forall (met count) (map RInput (seq 0 count))).
  { apply Forall_forall. intros r Hr. apply in_map_iff in Hr as (i & <- & Hi). apply in_seq in Hi. cbn [met]. lia. }
  split.
  - intros r Hr. apply resources_In in Hr as [Hr|(q & Hq & Hr)]; [rewrite Forall_forall in F; auto|].
    destruct (dehydrate_clean reg (met count)) with (fuel := fuel) (v := v) (g := @None res) (ref := ref) (inputs := map RInput (seq 0 count))
      (st := initial) (o := Ok (E := de_error term) tt) (st' := st) as [C _]; try assumption.
    + exact (fun _ => Logic.I).
    + intros r' l t HR HM b ->. eapply no_blank; eassumption.
    + intros q' r' [].
    + eapply C; eassumption.
  - eapply assigned_not_blank; [|exact H]. intros r b [].
Qed.

(** A blank node names one resource. *)
Lemma blank_injective (o : options Gn1) count st theta r r' b :
  fresh_identifiers o -> mapping o st count theta ->
  (forall r, In r (resources count st) -> met count r) -> (forall r b, ~ assigned st r (TmBlank b)) ->
  In r (resources count st) -> In r' (resources count st) -> theta r = TmBlank b -> theta r' = TmBlank b -> r = r'.
Proof.
  intros (F1 & F2 & F3) MP ME AS Hr Hr' E E'. destruct (mp_anon _ _ _ _ MP) as (k & A1 & A2).
  assert (UN : forall r, theta r = TmBlank b -> forall t, ~ assigned st r t).
  { intros r0 E0 t Ht. rewrite (mp_assigned _ _ _ _ MP r0 t Ht) in E0. subst t. eapply AS, Ht. }
  assert (CL : forall r, In r (resources count st) -> theta r = TmBlank b ->
    (exists i, r = RInput i /\ theta r = o_input_term o i) \/
    (exists i q, r = RAnon i /\ theta r = generated o (k i) /\ In q (ds_output st) /\ quad_res q r)).
  { intros r0 H0 E0. pose proof (UN r0 E0) as U0. pose proof (ME r0 H0) as M0. destruct r0 as [i|i|t].
    - left. exists i. split; [reflexivity|]. apply (mp_input _ _ _ _ MP); [exact M0|exact U0].
    - right. apply resources_In in H0 as [H0|(q & Hq & H0)]; [apply in_map_iff in H0 as (? & [=] & _)|].
      exists i, q. split; [reflexivity|]. split; [apply (A1 i q Hq H0 U0)|]. auto.
    - rewrite (mp_term _ _ _ _ MP) in E0. elim (M0 b E0). }
  destruct (CL r Hr E) as [(i & -> & T)|(i & q & -> & T & Hq & Q)], (CL r' Hr' E') as [(i' & -> & T')|(i' & q' & -> & T' & Hq' & Q')].
  - f_equal. apply F1. congruence.
  - elim (F3 i (k i')). congruence.
  - elim (F3 i' (k i)). congruence.
  - f_equal. apply (A2 i i' q q'); auto. apply F2. congruence.
Qed.

(** The blank nodes of the first naming are replaced by the names that the second one gives to the same resources. *)
Definition transfer (count : nat) (st : dstate res input_interp) (theta1 theta2 : res -> term) (t : term) : term :=
  match t with
  | TmBlank _ => match find (fun r => eqb (theta1 r) t) (resources count st) with Some r => theta2 r | None => t end
  | _ => t
  end.

Lemma assigned_same (o1 : options Gn1) (o2 : options Gn2) count st theta1 theta2 r :
  mapping o1 st count theta1 -> mapping o2 st count theta2 -> ~ (forall t, ~ assigned st r t) -> theta1 r = theta2 r.
Proof.
  intros MP1 MP2 NA. destruct (terms_of r (ii_map (ds_interp st))) as [|t ts] eqn:ET.
  - elim NA. unfold assigned. rewrite ET. intros t [].
  - assert (AT : assigned st r t) by (unfold assigned; rewrite ET; now left).
    now rewrite (mp_assigned _ _ _ _ MP1 _ _ AT), (mp_assigned _ _ _ _ MP2 _ _ AT).
Qed.

Lemma transfer_spec (o1 : options Gn1) (o2 : options Gn2) count st theta1 theta2 r :
  blank_identifiers o1 -> fresh_identifiers o1 -> mapping o1 st count theta1 -> mapping o2 st count theta2 ->
  (forall r, In r (resources count st) -> met count r) -> (forall r b, ~ assigned st r (TmBlank b)) ->
  In r (resources count st) -> transfer count st theta1 theta2 (theta1 r) = theta2 r.
Proof.
  intros (B1 & B2) FI MP1 MP2 ME AS Hr. unfold transfer.
  destruct (theta1 r) as [i|b|l] eqn:E.
  2: { destruct (find _ _) as [r'|] eqn:EF.
       - apply find_some in EF as [Hr' E']. apply (proj1 (eqb_eq _ _)) in E'.
         f_equal. eapply blank_injective; eassumption.
       - eapply find_none in EF; [|exact Hr]. cbn beta in EF. rewrite E, eqb_refl in EF. discriminate. }
  all: assert (NB : forall b, theta1 r <> TmBlank b) by (rewrite E; discriminate); rewrite <- E; clear E.
  all: destruct r as [j|j|t]; [| |now rewrite (mp_term _ _ _ _ MP1), (mp_term _ _ _ _ MP2)].
  all: eapply assigned_same; try eassumption.
  1,3: intro UN; rewrite (mp_input _ _ _ _ MP1 j (ME _ Hr) UN) in NB; destruct (B1 j) as [b Eb]; now apply (NB b).
  all: intro UN; destruct (mp_anon _ _ _ _ MP1) as (k & A1 & _); apply resources_In in Hr as [Hr|(q & Hq & Hr)]; [apply in_map_iff in Hr as (? & [=] & _)|].
  all: rewrite (A1 j q Hq Hr UN) in NB; destruct (B2 (k j)) as [b Eb]; now apply (NB b).
Qed.

Variables order1 order2 : list (quad res) -> list (quad res).
Hypothesis perm1 : forall l, Permutation (order1 l) l.
Hypothesis perm2 : forall l, Permutation (order2 l) l.

(** Whatever the options and the orders, the run is the same one. *)
Lemma outcome_independent (o1 : options Gn1) (o2 : options Gn2) fuel v ref : o_input_count o1 = o_input_count o2 ->
  match dehydrate order1 reg fuel v ref o1 with
  | Ok _ => exists r2, dehydrate order2 reg fuel v ref o2 = Ok r2
  | Err e => dehydrate order2 reg fuel v ref o2 = Err e
  | Panic w => dehydrate order2 reg fuel v ref o2 = Panic w
  | OutOfFuel => dehydrate order2 reg fuel v ref o2 = OutOfFuel
  end.
Proof.
  intro IC. unfold dehydrate. destruct (reg ref) as [l|]; cbn [ok_or bind]; [|reflexivity]. rewrite <- IC.
  destruct (dehydrate_with _ _ _ _ _ _ _ _) as [[[]|e|w|] st]; try reflexivity.
  destruct (check_terms _) as [m|e|w|]; cbn [bind]; try reflexivity.
  destruct (map_list _ _ (order1 _)) as [d1 ms1]. destruct (map_list _ ms1 _) as [v1 x1].
  destruct (map_list _ _ (order2 _)) as [d2 ms2]. destruct (map_list _ ms2 _) as [v2 x2]. eauto.
Qed.

Lemma root_count_same (o1 : options Gn1) (o2 : options Gn2) l : o_input_count o1 = o_input_count o2 -> root_count o1 l = root_count o2 l.
Proof. intro H. unfold root_count. now rewrite H. Qed.

Lemma quad_map_transfer (theta1 theta2 : res -> term) (f : term -> term) (q : quad res) : (forall r, quad_res q r -> f (theta1 r) = theta2 r) ->
  rename_quad f (quad_map theta1 q) = quad_map theta2 q.
Proof.
  intro H. unfold rename_quad, quad_map. cbn [q_s q_p q_o q_g]. rewrite !H by (unfold quad_res; auto). f_equal.
  destruct (q_g q) as [g|] eqn:E; cbn [option_map]; [|reflexivity]. now rewrite H by (unfold quad_res; auto).
Qed.

Lemma replaced_transfer (ds1 ds2 : list (quad term)) vals1 vals2 count st (theta1 theta2 : res -> term) (f : term -> term) :
  (forall q, In q ds1 <-> exists q', In q' (ds_output st) /\ q = quad_map theta1 q') ->
  (forall q, In q ds2 <-> exists q', In q' (ds_output st) /\ q = quad_map theta2 q') ->
  vals1 = map theta1 (map RInput (seq 0 count)) -> vals2 = map theta2 (map RInput (seq 0 count)) ->
  (forall r, In r (resources count st) -> f (theta1 r) = theta2 r) ->
  replaced f (ds1, vals1) (ds2, vals2).
Proof.
  intros D1 D2 V1 V2 T. split; cbn [fst snd].
  - intro q. rewrite D2. split.
    + intros (q' & Hq & ->). exists (quad_map theta1 q'). split; [apply D1; eauto|].
      symmetry. apply quad_map_transfer. intros r Hr. apply T, resources_In. eauto.
    + intros (q1 & Hq & ->). apply D1 in Hq as (q' & Hq & ->). exists q'. split; [exact Hq|].
      apply quad_map_transfer. intros r Hr. apply T, resources_In. eauto.
  - subst. rewrite !map_map. apply map_ext_in. intros i Hi. symmetry. apply T, resources_In. left. now apply in_map.
Qed.

Lemma result_resource (ds : list (quad term)) vals count st theta t :
  (forall q, In q ds <-> exists q', In q' (ds_output st) /\ q = quad_map theta q') ->
  vals = map theta (map RInput (seq 0 count)) ->
  term_of_result (ds, vals) t -> exists r, In r (resources count st) /\ theta r = t.
Proof.
  intros D V [H|(q & Hq & H)]; cbn [fst snd] in *.
  - subst vals. apply in_map_iff in H as (r & <- & Hr). exists r. split; [|reflexivity]. apply resources_In. now left.
  - apply D in Hq as (q' & Hq & ->). unfold quad_map in H. cbn [q_s q_p q_o q_g] in H.
    assert (G : forall r, quad_res q' r -> theta r = t -> exists r, In r (resources count st) /\ theta r = t).
    { intros r Hr E. exists r. split; [|exact E]. apply resources_In. eauto. }
    destruct H as [H|[H|[H|H]]]; try (eapply G; [|exact H]; unfold quad_res; auto; fail).
    destruct (q_g q') as [g|] eqn:Eg; cbn [option_map] in H; [|discriminate]. injection H as H. apply (G g); [|exact H]. unfold quad_res. auto.
Qed.
End Unique.

(** ** C98 *)
Section Theorems.
Context {X : Xsd} {IS : IriSyntax} {Gn1 Gn2 : Type}.
Variable reg : registry term.
Hypothesis no_blank : forall r l b, reg r = Some l -> ~ mentions l (TmBlank b).
Variables order1 order2 : list (quad res) -> list (quad res).
Hypothesis perm1 : forall l, Permutation (order1 l) l.
Hypothesis perm2 : forall l, Permutation (order2 l) l.
Variables (o1 : options Gn1) (o2 : options Gn2).
Hypothesis counts : o_input_count o1 = o_input_count o2.
Variables (fuel : nat) (v : value) (ref : term).

(** C98 (failures).  The generator of identifiers, the terms of the inputs and the order of iteration play no role in the failures. *)
Theorem C98_failures :
  (forall e, dehydrate order1 reg fuel v ref o1 = Err e <-> dehydrate order2 reg fuel v ref o2 = Err e) /\
  (forall w, dehydrate order1 reg fuel v ref o1 = Panic w <-> dehydrate order2 reg fuel v ref o2 = Panic w) /\
  (dehydrate order1 reg fuel v ref o1 = OutOfFuel <-> dehydrate order2 reg fuel v ref o2 = OutOfFuel).
Proof.
  pose proof (outcome_independent reg order1 order2 o1 o2 fuel v ref counts) as H.
  destruct (dehydrate order1 reg fuel v ref o1) as [r1|e1|w1|]; [destruct H as [r2 H]|..]; rewrite H.
  - split; [|split]; [intro; split; discriminate..|split; discriminate].
  - split; [|split]; [tauto|intro; split; discriminate|split; discriminate].
  - split; [|split]; [intro; split; discriminate|tauto|split; discriminate].
  - split; [|split]; [intro; split; discriminate..|tauto].
Qed.

(** C98 (results).  From a result where the nodes have fresh blank names, every other one is obtained by replacing these names. *)
Theorem C98_replaced r1 : blank_identifiers o1 -> fresh_identifiers o1 ->
  dehydrate order1 reg fuel v ref o1 = Ok r1 ->
  exists f r2, dehydrate order2 reg fuel v ref o2 = Ok r2 /\ renames_blanks f /\ replaced f r1 r2.
Proof.
  intros BI FI H. pose proof (outcome_independent reg order1 order2 o1 o2 fuel v ref counts) as OI. rewrite H in OI. destruct OI as [[ds2 vals2] H2].
  destruct r1 as [ds1 vals1].
  apply dehydrate_inv in H as (l & st & theta1 & E & R & MP1 & _ & D1 & V1); [|exact perm1].
  pose proof H2 as H2'. apply dehydrate_inv in H2 as (l' & st' & theta2 & E' & R' & MP2 & _ & D2 & V2); [|exact perm2].
  rewrite E in E'. injection E' as <-. rewrite <- (root_count_same o1 o2 l counts) in *. rewrite R in R'. injection R' as <-.
  destruct (run_met reg no_blank _ _ _ _ _ R) as [ME AS].
  exists (transfer (root_count o1 l) st theta1 theta2), (ds2, vals2). split; [exact H2'|]. split.
  - intros [i|b|lit] N; [reflexivity|elim (N b eq_refl)|reflexivity].
  - eapply replaced_transfer; try eassumption. intros r Hr. eapply transfer_spec; eassumption.
Qed.

(** C98 (isomorphism).  When both results use fresh blank names, they are obtained from each other by renaming these. *)
Theorem C98_isomorphic r1 : blank_identifiers o1 -> fresh_identifiers o1 -> blank_identifiers o2 -> fresh_identifiers o2 ->
  dehydrate order1 reg fuel v ref o1 = Ok r1 ->
  exists f g r2, dehydrate order2 reg fuel v ref o2 = Ok r2 /\ renames_blanks f /\ renames_blanks g /\ replaced f r1 r2 /\ replaced g r2 r1 /\
    (forall t, term_of_result r1 t -> g (f t) = t) /\ (forall t, term_of_result r2 t -> f (g t) = t).
Proof.
  intros BI FI BI2 FI2 H. pose proof (outcome_independent reg order1 order2 o1 o2 fuel v ref counts) as OI. rewrite H in OI. destruct OI as [[ds2 vals2] H2].
  destruct r1 as [ds1 vals1].
  apply dehydrate_inv in H as (l & st & theta1 & E & R & MP1 & _ & D1 & V1); [|exact perm1].
  pose proof H2 as H2'. apply dehydrate_inv in H2 as (l' & st' & theta2 & E' & R' & MP2 & _ & D2 & V2); [|exact perm2].
  rewrite E in E'. injection E' as <-. rewrite <- (root_count_same o1 o2 l counts) in *. rewrite R in R'. injection R' as <-.
  destruct (run_met reg no_blank _ _ _ _ _ R) as [ME AS].
  exists (transfer (root_count o1 l) st theta1 theta2), (transfer (root_count o1 l) st theta2 theta1), (ds2, vals2). split; [exact H2'|].
  split; [intros [i|b|lit] N; [reflexivity|elim (N b eq_refl)|reflexivity]|].
  split; [intros [i|b|lit] N; [reflexivity|elim (N b eq_refl)|reflexivity]|].
  assert (T1 : forall r, In r (resources (root_count o1 l) st) -> transfer (root_count o1 l) st theta1 theta2 (theta1 r) = theta2 r)
    by (intros r Hr; eapply (transfer_spec o1 o2); eassumption).
  assert (T2 : forall r, In r (resources (root_count o1 l) st) -> transfer (root_count o1 l) st theta2 theta1 (theta2 r) = theta1 r)
    by (intros r Hr; eapply (transfer_spec o2 o1); eassumption).
  split; [eapply replaced_transfer; eassumption|]. split; [eapply replaced_transfer; eassumption|]. split; intros t Ht.
  - destruct (result_resource _ _ _ _ _ _ D1 V1 Ht) as (r & Hr & <-). now rewrite (T1 r Hr), (T2 r Hr).
  - destruct (result_resource _ _ _ _ _ _ D2 V2 Ht) as (r & Hr & <-). now rewrite (T2 r Hr), (T1 r Hr).
Qed.
End Theorems.

(** ** The renaming as a permutation of the labels *)

Definition swap (x y : string) (s : string) : string := if string_dec s x then y else if string_dec s y then x else s.
Lemma swap_swap x y s : swap x y (swap x y s) = s.
Proof. unfold swap. repeat destruct (string_dec _ _); congruence. Qed.
Lemma swap_left x y : swap x y x = y.
Proof. unfold swap. destruct (string_dec x x); congruence. Qed.
Lemma swap_other x y s : s <> x -> s <> y -> swap x y s = s.
Proof. unfold swap. intros. repeat destruct (string_dec _ _); congruence. Qed.

(** A finite one-to-one correspondence extends to a permutation. *)
Lemma permutation_extends (h : string -> string) (l : list string) :
  (forall x y, In x l -> In y l -> h x = h y -> x = y) ->
  exists b b' : string -> string, (forall i, b' (b i) = i) /\ (forall i, b (b' i) = i) /\ forall x, In x l -> b x = h x.
Proof.
  induction l as [|x l IH]; intro INJ.
  - exists (fun i => i), (fun i => i). split; [reflexivity|]. split; [reflexivity|]. intros ? [].
  - destruct IH as (b & b' & B1 & B2 & B3); [intros a c Ha Hc; apply INJ; now right|].
    exists (fun i => swap (b x) (h x) (b i)), (fun i => b' (swap (b x) (h x) i)). split; [|split].
    + intro i. now rewrite swap_swap.
    + intro i. now rewrite B2, swap_swap.
    + intros y [<-|Hy]; [apply swap_left|].
      destruct (string_dec y x) as [-> |N]; [apply swap_left|]. rewrite swap_other; [now apply B3| |].
      * intro E. apply N. now rewrite <- (B1 y), <- (B1 x), E.
      * rewrite (B3 y Hy). intro E. apply N. apply INJ; [now right|now left|exact E].
Qed.

Definition labels (r : list (quad term) * list term) : list string :=
  flat_map (fun t => match t with TmBlank b => [b] | _ => [] end)
    (snd r ++ flat_map (fun q => q_s q :: q_p q :: q_o q :: match q_g q with Some g => [g] | None => [] end) (fst r)).
Lemma labels_In r b : In b (labels r) <-> term_of_result r (TmBlank b).
Proof.
  unfold labels, term_of_result. rewrite in_flat_map. transitivity (In (TmBlank b) (snd r ++ flat_map (fun q => q_s q :: q_p q :: q_o q :: match q_g q with Some g => [g] | None => [] end) (fst r))).
  - split; [intros (t & Ht & Hb); destruct t; cbn [In] in Hb; try contradiction; now destruct Hb as [<-|[]]|].
    intro H. exists (TmBlank b). split; [exact H|now left].
  - rewrite in_app_iff, in_flat_map. apply or_iff_compat_l. split; intros (q & Hq & H); exists q; (split; [exact Hq|]); cbn [In] in *.
    + destruct (q_g q); cbn [In] in H; intuition congruence.
    + destruct H as [H|[H|[H|H]]]; auto. rewrite H. right. right. right. now left.
Qed.

Lemma replaced_ext f g r1 r2 : (forall t, term_of_result r1 t -> f t = g t) -> replaced f r1 r2 -> replaced g r1 r2.
Proof.
  intros E [H1 H2]. split.
  - assert (Q : forall q1, In q1 (fst r1) -> rename_quad f q1 = rename_quad g q1).
    { intros q1 Hq. assert (T : forall t, q_s q1 = t \/ q_p q1 = t \/ q_o q1 = t \/ q_g q1 = Some t -> f t = g t) by (intros t Ht; apply E; right; eauto).
      unfold rename_quad. rewrite (T (q_s q1)), (T (q_p q1)), (T (q_o q1)) by auto. f_equal.
      destruct (q_g q1) as [g1|]; cbn [option_map]; [|reflexivity]. now rewrite (T g1) by auto. }
    intro q. rewrite H1. split; intros (q1 & Hq & ->); exists q1; (split; [exact Hq|]); [|symmetry]; now apply Q.
  - rewrite H2. apply map_ext_in. intros t Ht. apply E. now left.
Qed.

Section Relabelled.
Context {X : Xsd} {IS : IriSyntax} {Gn1 Gn2 : Type}.
Variable reg : registry term.
Hypothesis no_blank : forall r l b, reg r = Some l -> ~ mentions l (TmBlank b).
Variables order1 order2 : list (quad res) -> list (quad res).
Hypothesis perm1 : forall l, Permutation (order1 l) l.
Hypothesis perm2 : forall l, Permutation (order2 l) l.
Variables (o1 : options Gn1) (o2 : options Gn2).
Hypothesis counts : o_input_count o1 = o_input_count o2.
Variables (fuel : nat) (v : value) (ref : term).
Hypothesis B1 : blank_identifiers o1.
Hypothesis F1 : fresh_identifiers o1.
Hypothesis B2 : blank_identifiers o2.
Hypothesis F2 : fresh_identifiers o2.

(** C98 (relabelling).  When both options give fresh blank names, the results differ by a permutation of the labels. *)
Theorem C98_relabelled r1 : dehydrate order1 reg fuel v ref o1 = Ok r1 ->
  exists b b' r2, (forall i, b' (b i) = i) /\ (forall i, b (b' i) = i) /\
    dehydrate order2 reg fuel v ref o2 = Ok r2 /\ replaced (relabel b) r1 r2.
Proof.
  intro H. destruct (C98_isomorphic reg no_blank order1 order2 perm1 perm2 o1 o2 counts fuel v ref r1 B1 F1 B2 F2 H)
    as (f & g & r2 & H2 & RF & RG & RP & _ & GF & _).
  pose (h := fun s => match f (TmBlank s) with TmBlank b => b | _ => s end).
  assert (FB : forall s, In s (labels r1) -> f (TmBlank s) = TmBlank (h s)).
  { intros s Hs. unfold h. pose proof (GF _ (proj1 (labels_In r1 s) Hs)) as E.
    destruct (f (TmBlank s)) as [i|b|l]; [|reflexivity|]; rewrite RG in E by discriminate; discriminate. }
  destruct (permutation_extends h (labels r1)) as (b & b' & P1 & P2 & P3).
  { intros x y Hx Hy E. pose proof (GF _ (proj1 (labels_In r1 x) Hx)) as Ex. pose proof (GF _ (proj1 (labels_In r1 y) Hy)) as Ey.
    rewrite (FB x Hx), E in Ex. rewrite (FB y Hy) in Ey. congruence. }
  exists b, b', r2. split; [exact P1|]. split; [exact P2|]. split; [exact H2|].
  apply (replaced_ext f); [|exact RP]. intros [i|s|l] Ht; cbn [relabel]; [apply RF; discriminate| |apply RF; discriminate].
  apply labels_In in Ht. now rewrite (FB s Ht), (P3 s Ht).
Qed.

(** C98 (reading).  So both results are read as the same value, as long as they can both be read. *)
Theorem C98_hydrated r1 r2 D1 D2 hfuel hfuel' ref' tv :
  registry_sorted reg ->
  dehydrate order1 reg fuel v ref o1 = Ok r1 -> dehydrate order2 reg fuel v ref o2 = Ok r2 ->
  enumerates D1 (fun q => In q (fst r1)) -> enumerates D2 (fun q => In q (fst r2)) ->
  hydrate D1 reg hfuel ref' (snd r1) = Ok tv ->
  (forall tv', hydrate D2 reg hfuel' ref' (snd r2) = Ok tv' -> tv' = tv) /\ (forall e, hydrate D2 reg hfuel' ref' (snd r2) <> Err e).
Proof.
  intros RS H1 H2 E1 E2 HY. destruct (C98_relabelled r1 H1) as (b & b' & r2' & P1 & P2 & H2' & RP1 & RP2).
  rewrite H2 in H2'. injection H2' as <-. unfold hydrate in *. rewrite RP2.
  change (@None term) with (option_map (relabel b) None).
  apply (C97_agree (relabel b) (relabel b') D1 D2 (fun q => In q (fst r1)) reg hfuel hfuel' None ref' (snd r1) tv); try assumption.
  - split; intros []; cbn [relabel iris_of literals_of interp_term]; congruence.
  - intros r l [i|i|i] HR HM; [reflexivity|elim (no_blank r l i HR HM)|reflexivity].
  - eapply enumerates_ext; [|exact E2]. intro q. cbn beta. rewrite RP1.
    assert (BB : forall t, relabel b (relabel b' t) = t) by (intros []; cbn [relabel]; congruence).
    assert (BB' : forall t, relabel b' (relabel b t) = t) by (intros []; cbn [relabel]; congruence).
    split.
    + intros (q1 & Hq & ->). replace (rename_quad (relabel b') (rename_quad (relabel b) q1)) with q1; [exact Hq|].
      destruct q1 as [s p o [g|]]; unfold rename_quad; cbn [q_s q_p q_o q_g option_map]; now rewrite !BB'.
    + intro Hq. exists (rename_quad (relabel b') q). split; [exact Hq|].
      destruct q as [s p o [g|]]; unfold rename_quad; cbn [q_s q_p q_o q_g option_map]; now rewrite !BB.
Qed.
End Relabelled.

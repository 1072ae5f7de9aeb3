(** * Lemmas on the layout documents read with serde *)

From Coq Require Import String Ascii List Bool Arith NArith ZArith QArith Qcanon Lia.
Import ListNotations.
From Verif Require Import Base BaseProofs Orders PatternModel ValueModel LayoutModel NumberModel
  HydrateModel JsonModel RegexpModel AbsModel AbsJsonModel AbsJsonProofs AbsSerdeModel AbsSerdeProofs SerdeDocSpec.
Open Scope list_scope.
Open Scope nat_scope.

Section Structures.
Context {F : Type}.
Notation sv := (serde_value F).
Notation object := (list (string * sv)).

Lemma named_iff (m : list (sv * sv)) o : named m = Ok o <-> SMap m = text_map o.
Proof.
  unfold text_map. transitivity (m = map (fun e : string * sv => (SStr (fst e), snd e)) o); [|split; [intros ->; reflexivity|intros [= ->]; reflexivity]].
  revert o. induction m as [|[k v] m IH]; intros o; cbn [named].
  - destruct o; cbn; split; intros [=]; reflexivity.
  - destruct k; try (split; [discriminate|destruct o as [|[] o]; cbn; intros [=]]).
    split.
    + intros X. apply bind_Ok in X as (o' & E & [= <-]). apply IH in E. cbn. now rewrite E at 1.
    + destruct o as [|[k' v'] o]; cbn; intros [= <- <- E]. apply IH in E. now rewrite E.
Qed.
Lemma only_iff names (o o' : object) : only names o = Ok o' <-> o' = o /\ forall k, In k (map fst o) -> In k names.
Proof.
  unfold only. assert (X : forallb (fun e : string * sv => existsb (String.eqb (fst e)) names) o = true <-> forall k, In k (map fst o) -> In k names).
  { rewrite forallb_forall. split.
    - intros H k I. apply in_map_iff in I as (e & <- & I). apply H, existsb_exists in I as (x & I & E). apply String.eqb_eq in E. now rewrite E.
    - intros H e I. apply existsb_exists. exists (fst e). split; [apply H; now apply in_map|apply String.eqb_refl]. }
  destruct (forallb _ o).
  - split; [intros [= <-]; split; [reflexivity|now apply X]|intros [-> _]; reflexivity].
  - split; [discriminate|]. intros [_ H]. apply X in H. discriminate H.
Qed.

Lemma field_at_cases (o : object) k :
  (field_at o k = Ok None /\ ~ In k (map fst o)) \/
  (exists s, field_at o k = Ok (Some s) /\ In (k, s) o /\ unrepeated o k /\ forall s', In (k, s') o -> s' = s) \/
  (field_at o k = Err tt /\ ~ unrepeated o k).
Proof.
  unfold field_at, unrepeated.
  assert (L : count_occ string_dec (map fst o) k = length (filter (fun e : string * sv => String.eqb (fst e) k) o)).
  { induction o as [|[k' v] o IH]; [reflexivity|]. cbn [map fst count_occ filter].
    destruct (string_dec k' k) as [->|N]; [rewrite String.eqb_refl; cbn [length]; now rewrite IH|].
    apply String.eqb_neq in N. now rewrite N. }
  assert (I : forall s, In (k, s) o <-> In (k, s) (filter (fun e : string * sv => String.eqb (fst e) k) o)).
  { intros s. rewrite filter_In. cbn [fst]. rewrite String.eqb_refl. tauto. }
  assert (A : forall e, In e (filter (fun e : string * sv => String.eqb (fst e) k) o) -> fst e = k).
  { intros e H. apply filter_In in H as [_ H]. now apply String.eqb_eq in H. }
  rewrite L. destruct (filter _ o) as [|[k1 s1] [|e l]].
  - left. split; [reflexivity|]. intros H. apply in_map_iff in H as ([k' s] & E & H). cbn in E. subst k'. now apply I in H.
  - right. left. exists s1. pose proof (A (k1, s1) (or_introl eq_refl)) as E. cbn in E. subst k1.
    split; [reflexivity|]. split; [apply I; now left|]. split; [cbn; lia|]. intros s' H. apply I in H as [H|[]]. congruence.
  - right. right. split; [reflexivity|cbn [length]; lia].
Qed.

(** [m] returns [a] exactly when [P a] and the keys [ks] are not repeated. *)
Definition sreads {A} (o : object) (ks : list string) (m : outcome unit A) (P : A -> Prop) : Prop :=
  forall a, m = Ok a <-> (P a /\ forall k, In k ks -> unrepeated o k).
Lemma sreads_ret {A} o (a : A) : sreads o [] (Ok a) (fun x => x = a).
Proof. intros x. split; [intros [= <-]; split; [reflexivity|intros k []]|now intros [-> _]]. Qed.
Lemma sreads_bind {A B} o ks ks' (m : outcome unit A) (k : A -> outcome unit B) P Q :
  sreads o ks m P -> (forall a, sreads o ks' (k a) (Q a)) -> sreads o (ks ++ ks') (let* a := m in k a) (fun b => exists a, P a /\ Q a b).
Proof.
  intros M K b. split.
  - intros X. apply bind_Ok in X as (a & E & X). apply M in E as [Pa U]. apply K in X as [Qb U'].
    split; [eauto|]. intros x I. apply in_app_iff in I as [I|I]; auto.
  - intros ((a & Pa & Qb) & U). assert (E : m = Ok a) by (apply M; split; [exact Pa|intros x I; apply U, in_app_iff; now left]).
    rewrite E. cbn [bind]. apply K. split; [exact Qb|]. intros x I. apply U, in_app_iff. now right.
Qed.
Lemma sreads_iff {A} o ks (m : outcome unit A) P Q : sreads o ks m P -> (forall a, P a <-> Q a) -> sreads o ks m Q.
Proof. intros H E a. now rewrite (H a), E. Qed.

Lemma sreads_require {T} (o : object) k (de : sv -> outcome unit T) D :
  (forall s t, In (k, s) o -> (de s = Ok t <-> D s t)) -> sreads o [k] (f_require o k de) (given o k D).
Proof.
  intros HD a. unfold f_require, given. destruct (field_at_cases o k) as [[-> N]|[(s & -> & I & U & A)|[-> N]]]; cbn [bind].
  - split; [discriminate|]. intros ((s & I & _) & _). elim N. apply in_map_iff. now exists (k, s).
  - rewrite (HD _ _ I). split.
    + intros H. split; [eauto|]. intros x [<-|[]]. exact U.
    + intros ((s' & I' & H) & _). now rewrite (A _ I') in H.
  - split; [discriminate|]. intros (_ & U). elim N. apply U. now left.
Qed.
Lemma sreads_default {T} (o : object) k (de : sv -> outcome unit T) D d :
  (forall s t, In (k, s) o -> (de s = Ok t <-> D s t)) -> sreads o [k] (f_default o k de d) (given_or o k D d).
Proof.
  intros HD a. unfold f_default, given_or, given. destruct (field_at_cases o k) as [[-> N]|[(s & -> & I & U & A)|[-> N]]]; cbn [bind].
  - split.
    + intros [= <-]. split; [auto|]. intros x [<-|[]]. unfold unrepeated. rewrite (proj1 (count_occ_not_In string_dec _ _) N). lia.
    + intros ([(s & I & _)|[_ ->]] & _); [|reflexivity]. elim N. apply in_map_iff. now exists (k, s).
  - rewrite (HD _ _ I). split.
    + intros H. split; [eauto|]. intros x [<-|[]]. exact U.
    + intros ([(s' & I' & H)|[N _]] & _); [now rewrite (A _ I') in H|]. elim N. apply in_map_iff. now exists (k, s).
  - split; [discriminate|]. intros (_ & U). elim N. apply U. now left.
Qed.
Lemma option_iff {T} (de : sv -> outcome unit T) (D : sv -> T -> Prop) s x : (forall t, de s = Ok t <-> D s t) ->
  (de_option de s = Ok x <-> match x with Some t => s <> SUnit /\ D s t | None => s = SUnit end).
Proof.
  intros HD. assert (X : s <> SUnit -> (de_option de s = Ok x <-> match x with Some t => s <> SUnit /\ D s t | None => s = SUnit end)).
  { intros N. transitivity ((let* t := de s in Ok (Some t)) = Ok x); [destruct s; try reflexivity; contradiction|]. split.
    - intros H. apply bind_Ok in H as (t & E & [= <-]). apply HD in E. auto.
    - destruct x as [t|]; [|contradiction]. intros [_ H]. apply HD in H. now rewrite H. }
  destruct s; try (apply X; discriminate). cbn. destruct x; split; try congruence; try tauto.
Qed.
Lemma sreads_option {T} (o : object) k (de : sv -> outcome unit T) D :
  (forall s t, In (k, s) o -> (de s = Ok t <-> D s t)) -> sreads o [k] (f_option o k de) (given_opt o k D).
Proof.
  intros HD. unfold f_option. eapply sreads_iff.
  - apply sreads_default with (D := fun s x => match x with Some t => s <> SUnit /\ D s t | None => s = SUnit end).
    intros s x I. apply option_iff. intros t. now apply HD.
  - intros [t|]; unfold given_or, given, given_opt.
    + split; [intros [(s & I & N & H)|[_ X]]; [eauto|discriminate]|]. intros (s & I & N & H). left. exists s. auto.
    + split; [intros [(s & I & ->)|[N _]]; auto|]. intros [N|I]; [auto|]. left. exists SUnit. auto.
Qed.

(** A structure without unknown fields. *)
Lemma combine_NoDup (names : list string) (l : list sv) : NoDup names -> NoDup (map fst (combine names l)).
Proof.
  intros ND. revert l. induction ND as [|n names N ND IH]; intros [|s l]; cbn [combine map fst]; try constructor; [|apply IH].
  intros I. apply N. apply in_map_iff in I as ([k v] & <- & I). now apply in_combine_l in I.
Qed.
Lemma NoDup_unrepeated (o : object) k : NoDup (map fst o) -> unrepeated o k.
Proof. intros ND. now apply (NoDup_count_occ string_dec). Qed.
Lemma unrepeated_NoDup (o : object) ks : (forall k, In k (map fst o) -> In k ks) -> (forall k, In k ks -> unrepeated o k) -> NoDup (map fst o).
Proof.
  intros I U. apply (NoDup_count_occ string_dec). intros k. destruct (in_dec string_dec k (map fst o)) as [i|i]; [apply U, I, i|].
  rewrite (proj1 (count_occ_not_In string_dec _ _) i). lia.
Qed.
Lemma struct_reads {A} names ks (s : sv) (m : object -> outcome unit A) P a : NoDup names -> incl names ks ->
  (forall o, struct_doc names s o \/ de_struct true names s = Ok o -> sreads o ks (m o) (P o)) ->
  ((let* o := de_struct true names s in m o) = Ok a <-> exists o, struct_doc names s o /\ P o a).
Proof.
  intros ND I R. split.
  - intros X. apply bind_Ok in X as (o & E & X). apply (R o (or_intror E)) in X as [Pa U]. exists o. split; [|exact Pa].
    destruct s; cbn [de_struct] in E; try discriminate E.
    + destruct (length l <=? length names) eqn:L; [|discriminate E]. injection E as <-. constructor. now apply Nat.leb_le.
    + apply bind_Ok in E as (o' & E & O). apply only_iff in O as [-> K]. apply named_iff in E. rewrite E. constructor; [|exact K].
      apply (unrepeated_NoDup _ ks); [|exact U]. auto.
  - intros (o & S & Pa). assert (E : de_struct true names s = Ok o).
    { destruct S as [o N K|l L].
      - cbn [de_struct text_map]. rewrite (proj2 (named_iff _ o) eq_refl). cbn [bind]. now apply only_iff.
      - cbn [de_struct]. apply Nat.leb_le in L. now rewrite L. }
    rewrite E. cbn [bind]. apply (R o (or_introl S)). split; [exact Pa|]. intros k _. apply NoDup_unrepeated.
    destruct S as [o N K|l L]; [exact N|now apply combine_NoDup].
Qed.
End Structures.

(** * Positions: the readers with positions follow the readers without, and point at what they say *)

From Coq Require Import String Ascii List Bool Arith Lia.
Import ListNotations.
From Verif Require Import Base Orders PatternModel ValueModel LayoutModel NumberModel JsonModel
  RegexpModel AbsModel AbsJsonModel PositionModel PositionSpec.
Open Scope list_scope.
Open Scope nat_scope.

(** ** Fragments *)

Definition entry_fragments (e : string * json) : list fragment :=
  FrEntry (fst e) (snd e) :: FrKey (fst e) :: fragments (snd e).

Lemma fragments_arr : forall l, fragments (JArr l) = FrValue (JArr l) :: flat_map fragments l.
Proof.
  intros l. reflexivity.
Qed.

Lemma fragments_obj : forall o, fragments (JObj o) = FrValue (JObj o) :: flat_map entry_fragments o.
Proof.
  intros o. cbn [fragments]. f_equal. induction o as [|[k j] o IH]; [reflexivity|].
  cbn [flat_map entry_fragments fst snd app]. now rewrite <- IH.
Qed.

Lemma fragments_head : forall j, exists r, fragments j = FrValue j :: r.
Proof. intros []; cbn [fragments]; eauto. Qed.

Section Doc.
Context (doc : json).

(** A list of fragments is found at a position of the document. *)
Definition placed (fs : list fragment) (off : nat) : Prop :=
  exists pre post, fragments doc = pre ++ fs ++ post /\ length pre = off.

Lemma placed_app : forall a b off, placed (a ++ b) off -> placed a off /\ placed b (off + length a).
Proof.
  intros a b off (pre & post & E & <-). split.
  - exists pre, (b ++ post). now rewrite E, <- app_assoc.
  - exists (pre ++ a), post. split; [now rewrite E, <- !app_assoc|apply app_length].
Qed.

Lemma placed_cons : forall f b off, placed (f :: b) off -> fragment_at doc off f /\ placed b (S off).
Proof.
  intros f b off (pre & post & E & <-). split.
  - unfold fragment_at. rewrite E, nth_error_app2 by lia. now rewrite Nat.sub_diag.
  - exists (pre ++ [f]), post. split; [now rewrite E, <- app_assoc|].
    rewrite app_length. cbn [length]. lia.
Qed.

Definition located (j : json) (off : nat) : Prop := placed (fragments j) off.
Definition located_items (l : list json) (off : nat) : Prop := placed (flat_map fragments l) off.
Definition located_entries (o : object) (off : nat) : Prop := placed (flat_map entry_fragments o) off.

Lemma located_doc : located doc 0.
Proof. exists [], []. now rewrite app_nil_r. Qed.

Lemma located_at : forall j off, located j off -> fragment_at doc off (FrValue j).
Proof.
  intros j off H. unfold located in H. destruct (fragments_head j) as [r Er]. rewrite Er in H.
  now apply placed_cons in H.
Qed.

Lemma volume_located : forall j off, located j off ->
  volume_at (code_map_of doc) off = Ok (length (fragments j)).
Proof.
  intros j off H%located_at. unfold volume_at, code_map_of.
  rewrite nth_error_map, H. reflexivity.
Qed.

Lemma located_array : forall l off, located (JArr l) off -> located_items l (S off).
Proof. intros l off H. unfold located in H. rewrite fragments_arr in H. now apply placed_cons in H. Qed.

Lemma located_object : forall o off, located (JObj o) off -> located_entries o (S off).
Proof. intros l off H. unfold located in H. rewrite fragments_obj in H. now apply placed_cons in H. Qed.

Lemma located_items_cons : forall j l off, located_items (j :: l) off ->
  located j off /\ located_items l (off + length (fragments j)).
Proof. intros j l off H. apply placed_app. exact H. Qed.

Lemma located_entries_cons : forall k j o off, located_entries ((k, j) :: o) off ->
  fragment_at doc (S off) (FrKey k) /\ located j (S (S off)) /\
  located_entries o (S (S off) + length (fragments j)).
Proof.
  intros k j o off H. unfold located_entries in H. cbn [flat_map entry_fragments fst snd app] in H.
  apply placed_cons in H as [_ H]. apply placed_cons in H as [Hk H].
  apply placed_app in H as [Hj H]. auto.
Qed.

(** ** Entries with their positions *)

Definition entry_size (e : string * json) : nat := 2 + length (fragments (snd e)).

(** The list of the entries of [o], the first of which is at [off]. *)
Fixpoint entry_positions (o : object) (off : nat) : list (nat * nat * (string * json)) :=
  match o with
  | [] => []
  | e :: o' => (S off, S (S off), e) :: entry_positions o' (off + entry_size e)
  end.

Lemma map_entries_ok : forall o off, located_entries o off ->
  map_entries (code_map_of doc) o off = Ok (entry_positions o off).
Proof.
  induction o as [|[k j] o IH]; intros off H; [reflexivity|].
  apply located_entries_cons in H as (Hk & Hj & Ho).
  cbn [map_entries entry_positions]. rewrite (volume_located _ _ Hj). cbn [bind].
  rewrite IH by assumption. cbn [bind]. unfold entry_size. cbn [snd].
  replace (off + (2 + length (fragments j))) with (S (S off) + length (fragments j)) by lia.
  reflexivity.
Qed.

Lemma entry_positions_key : forall o off, located_entries o off ->
  Forall (fun e => fragment_at doc (fst (fst e)) (FrKey (fst (snd e))) /\
                   located (snd (snd e)) (snd (fst e))) (entry_positions o off).
Proof.
  induction o as [|[k j] o IH]; intros off H; [constructor|].
  apply located_entries_cons in H as (Hk & Hj & Ho). cbn [entry_positions]. constructor.
  - split; assumption.
  - apply IH. unfold entry_size. cbn [snd].
    replace (off + (2 + length (fragments j))) with (S (S off) + length (fragments j)) by lia. assumption.
Qed.

Lemma entry_positions_app : forall a b off,
  entry_positions (a ++ b) off =
  entry_positions a off ++ entry_positions b (off + list_sum (map entry_size a)).
Proof.
  induction a as [|e a IH]; intros b off.
  - cbn [app entry_positions map list_sum fold_right]. now rewrite Nat.add_0_r.
  - cbn [app entry_positions map]. rewrite IH. f_equal. f_equal. f_equal.
    unfold list_sum. cbn [fold_right]. lia.
Qed.

Lemma entry_sum : forall a e b,
  list_sum (map entry_size (a ++ e :: b)) =
  list_sum (map entry_size a) + (entry_size e + list_sum (map entry_size b)).
Proof. intros a e b. rewrite map_app, list_sum_app. reflexivity. Qed.

Lemma key_position_eq : forall off before,
  key_position off before = S (S off + list_sum (map entry_size before)).
Proof.
  intros off before. unfold key_position.
  change (fun e : string * json => 2 + length (fragments (snd e))) with entry_size. lia.
Qed.

(** Every entry is at its place in the object. *)
Lemma entry_key_of : forall o off before k j after, located (JObj o) off ->
  o = before ++ (k, j) :: after -> key_of doc off o before k (key_position off before).
Proof.
  intros o off before k j after HL E. split; [now apply located_at|]. split; [eauto|].
  split; [reflexivity|].
  pose proof (entry_positions_key _ _ (located_object _ _ HL)) as H.
  rewrite E, entry_positions_app in H. apply Forall_app in H as [_ H].
  cbn [entry_positions] in H. inversion H as [|x l [Hk _] _ Ex]. cbn [fst snd] in Hk.
  now rewrite key_position_eq.
Qed.

(** ** Following the readers without positions *)

Section Sim.
Context {TS : TextSyntax}.

(** An error with its positions is about the document. *)
Definition good (e : pos_error) : Prop :=
  points_at doc (pe_error e) (pe_position e) (pe_other e) /\
  other_only_for_duplicates (pe_error e) (pe_other e).

(** Same result, and the errors are about the document. *)
Definition sim {A B} (P : A -> B -> Prop) (x : outcome pos_error A) (y : outcome abs_error B) : Prop :=
  match x, y with
  | Ok a, Ok b => P a b
  | Err e, Err e' => pe_error e = e' /\ good e
  | Panic w, Panic w' => w = w'
  | OutOfFuel, OutOfFuel => True
  | _, _ => False
  end.

Lemma sim_bind : forall {A B A' B'} (P : A -> B -> Prop) (Q : A' -> B' -> Prop) x y f g,
  sim P x y -> (forall a b, P a b -> sim Q (f a) (g b)) -> sim Q (bind x f) (bind y g).
Proof. intros A B A' B' P Q [a|e|w|] [b|e'|w'|] f g H HF; cbn in *; try tauto. now apply HF. Qed.

Lemma sim_mono : forall {A B} (P Q : A -> B -> Prop) x y, sim P x y -> (forall a b, P a b -> Q a b) ->
  sim Q x y.
Proof. intros A B P Q [] [] H HF; cbn in *; auto. Qed.

Lemma good_at : forall off e, points_at doc e off None -> good (at_pos off e).
Proof. intros off e H. split; [exact H|]. intros N. now contradiction N. Qed.

Lemma sim_err : forall {A B} (P : A -> B -> Prop) off e, points_at doc e off None ->
  sim P (Err (at_pos off e)) (Err e).
Proof. intros A B P off e H. split; [reflexivity|now apply good_at]. Qed.

(** A reader follows another one. *)
Definition reads {T} (p : json -> nat -> outcome pos_error T) (q : json -> outcome abs_error T) : Prop :=
  forall j off, located j off -> sim eq (p j off) (q j).
Definition reads_object {T} (p : object -> nat -> outcome pos_error T)
    (q : object -> outcome abs_error T) : Prop :=
  forall o off, located (JObj o) off -> sim eq (p o off) (q o).
Definition reads_key {T} (p : string -> nat -> outcome pos_error T)
    (q : string -> outcome abs_error T) : Prop :=
  forall s off, fragment_at doc off (FrKey s) -> sim eq (p s off) (q s).

Lemma unexpected_at : forall {A B} (P : A -> B -> Prop) j off ks, located j off ->
  ~ In (kind_of j) ks -> sim P (Err (at_pos off (Unexpected ks (kind_of j)))) (Err (Unexpected ks (kind_of j))).
Proof.
  intros A B P j off ks HL HN. apply sim_err. exists j. split; [now apply located_at|auto].
Qed.

Ltac unexpected :=
  first [ match goal with
          | H : located ?j _ |- sim _ (Err (at_pos _ (Unexpected ?ks _))) _ =>
              apply (unexpected_at _ j _ ks H); cbn [kind_of In]; intuition discriminate
          end ].

(** The flags of the entries that are not used yet, with the positions of the keys. *)
Definition uinv (o : object) (off : nat) (u : unused_at) (v : unused_entries) : Prop :=
  map fst u = map (fun e => fst (fst e)) (entry_positions o (S off)) /\ map snd u = v.

Definition reads_entries {A} (o : object) (off : nat) (m : entries_at A) (n : entries A) : Prop :=
  forall u v, uinv o off u v ->
    sim (fun a b => fst a = fst b /\ uinv o off (snd a) (snd b)) (m u) (n v).

Lemma entry_positions_length : forall o off, length (entry_positions o off) = length o.
Proof. induction o as [|e o IH]; intros off; cbn [entry_positions length]; congruence. Qed.

Lemma reads_ret : forall {A} o off (a : A), reads_entries o off (p_ret a) (e_ret a).
Proof. intros A o off a u v HU. cbn. auto. Qed.

Lemma reads_bind : forall {A B} o off (m : entries_at A) n (f : A -> entries_at B) g,
  reads_entries o off m n -> (forall a, reads_entries o off (f a) (g a)) ->
  reads_entries o off (p_bind m f) (e_bind n g).
Proof.
  intros A B o off m n f g HM HF u v HU. unfold p_bind, e_bind.
  eapply sim_bind; [apply HM, HU|]. intros [a u'] [b v'] [E HU']. cbn [fst snd] in *. subst b.
  now apply HF.
Qed.

(** [remove]. *)
Lemma remove_sim : forall i u, i < length u ->
  exists u', unused_remove_at i u = Ok u' /\ map fst u' = map fst u /\
    map snd u' = unused_remove i (map snd u).
Proof.
  induction i as [|i IH]; intros [|[p b] u] HL; cbn [length] in HL; try lia.
  - eexists. split; [reflexivity|]. cbn [map fst snd unused_remove]. auto.
  - destruct (IH u) as (u' & E & E1 & E2); [lia|]. cbn [unused_remove_at map fst snd unused_remove].
    rewrite E. cbn [bind]. eexists. split; [reflexivity|]. cbn [map fst snd]. now rewrite E1, E2.
Qed.

(** The entries with a given key. *)
Lemma mapped_entries_spec : forall key o off i,
  map (fun e : nat * nat * nat * json => (fst (fst (fst e)), snd e))
    (mapped_entries_of key (entry_positions o off) i) = entries_of key o i.
Proof.
  intros key. induction o as [|[k j] o IH]; intros off i; [reflexivity|].
  cbn [entry_positions mapped_entries_of entries_of]. destruct (String.eqb k key); cbn [map fst snd];
    now rewrite IH.
Qed.

(** The first entry with the key. *)
Lemma mapped_first : forall key o off i x l,
  mapped_entries_of key (entry_positions o off) i = x :: l ->
  exists before j after, o = before ++ (key, j) :: after /\ ~ has_entry before key /\
    x = (i + length before, S (off + list_sum (map entry_size before)),
         S (S (off + list_sum (map entry_size before))), j) /\
    l = mapped_entries_of key
          (entry_positions after (off + list_sum (map entry_size (before ++ [(key, j)]))))
          (S (i + length before)).
Proof.
  intros key. induction o as [|[k j] o IH]; intros off i x l E; [discriminate|].
  cbn [entry_positions mapped_entries_of] in E. destruct (String.eqb k key) eqn:EK.
  - apply String.eqb_eq in EK as ->. injection E as Ex El. exists [], j, o. split; [reflexivity|].
    split; [intros [? []]|]. cbn [length map app]. unfold list_sum. cbn [fold_right].
    rewrite !Nat.add_0_r. split; [now rewrite Ex|]. rewrite <- El. reflexivity.
  - destruct (IH _ _ _ _ E) as (before & j' & after & -> & HN & -> & ->).
    exists ((k, j) :: before), j', after. split; [reflexivity|]. split.
    + intros [j0 [E0|H0]]; [|apply HN; exists j0; exact H0]. injection E0 as -> _.
      now rewrite String.eqb_refl in EK.
    + cbn [length map app]. unfold list_sum. cbn [fold_right]. fold (list_sum (map entry_size before)).
      fold (list_sum (map entry_size (before ++ [(key, j')]))). split.
      * replace (S i + length before) with (i + S (length before)) by lia.
        replace (off + entry_size (k, j) + list_sum (map entry_size before))
          with (off + (entry_size (k, j) + list_sum (map entry_size before))) by lia. reflexivity.
      * replace (S i + length before) with (i + S (length before)) by lia.
        replace (off + entry_size (k, j) + list_sum (map entry_size (before ++ [(key, j')])))
          with (off + (entry_size (k, j) + list_sum (map entry_size (before ++ [(key, j')])))) by lia.
        reflexivity.
Qed.

Lemma entries_of_none : forall key o i, entries_of key o i = [] -> ~ has_entry o key.
Proof.
  intros key. induction o as [|[k j] o IH]; intros i E [j' H]; [destruct H|].
  cbn [entries_of] in E. destruct (String.eqb k key) eqn:EK; [discriminate|].
  destruct H as [E'|H]; [injection E' as -> ->; now rewrite String.eqb_refl in EK|].
  apply (IH _ E). now exists j'.
Qed.

(** [get_unique]: the entry found is at its place. *)
Definition found_at (o : object) (off : nat) (key : string) (a : option (nat * nat * json))
    (b : option (nat * json)) : Prop :=
  match a, b with
  | None, None => ~ has_entry o key
  | Some (i, vo, j), Some (i', j') =>
      i = i' /\ j = j' /\ i < length o /\ located j vo /\ In (key, j) o
  | _, _ => False
  end.

Lemma unique_sim : forall o off key, located (JObj o) off ->
  sim (found_at o off key) (get_unique_at (code_map_of doc) o off key) (get_unique o key).
Proof.
  intros o off key HL. pose proof (located_object _ _ HL) as HE. unfold get_unique_at, get_unique.
  rewrite (map_entries_ok _ _ HE). cbn [bind].
  pose proof (mapped_entries_spec key o (S off) 0) as HM.
  destruct (mapped_entries_of key (entry_positions o (S off)) 0) as [|x l] eqn:EM.
  - cbn [map] in HM. rewrite <- HM. cbn [sim found_at]. apply (entries_of_none key o 0). now symmetry.
  - destruct (mapped_first _ _ _ _ _ _ EM) as (before & j & after & Eo & HN & -> & El).
    destruct l as [|x' l].
    + cbn [map fst snd] in HM. rewrite <- HM. cbn [sim found_at].
      split; [reflexivity|]. split; [reflexivity|]. split; [rewrite Eo, app_length; cbn [length]; lia|].
      split; [|rewrite Eo; apply in_or_app; right; now left].
      pose proof (entry_positions_key _ _ HE) as HF. rewrite Eo, entry_positions_app in HF.
      apply Forall_app in HF as [_ HF]. cbn [entry_positions] in HF.
      inversion HF as [|y ys [_ Hv] _ Ey]. exact Hv.
    + symmetry in El. destruct (mapped_first _ _ _ _ _ _ El) as (between & j' & after' & Ea & HN' & -> & _).
      cbn [map fst snd] in HM. rewrite <- HM. cbn [sim pe_error]. split; [reflexivity|].
      split; [|intros _; now exists key]. cbn [pe_error pe_position pe_other points_at].
      exists off, o, before, between, (key_position off (before ++ (key, j) :: between)).
      assert (EO : o = (before ++ (key, j) :: between) ++ (key, j') :: after')
        by (rewrite Eo, Ea, <- app_assoc; reflexivity).
      split.
      * f_equal. rewrite key_position_eq, !entry_sum. cbn [map]. change (list_sum []) with 0. lia.
      * split; [rewrite key_position_eq, entry_sum; unfold entry_size at 3; lia|].
        split; [|split; [exact HN|split; [|exact HN']]].
        { pose proof (entry_key_of _ _ _ _ _ _ HL Eo) as HK. rewrite key_position_eq in HK. exact HK. }
        { exists j. exact (entry_key_of _ _ _ _ _ _ HL EO). }
Qed.

Lemma uinv_length : forall o off u v, uinv o off u v -> length u = length o.
Proof.
  intros o off u v [E _]. apply (f_equal (@length _)) in E.
  now rewrite !map_length, entry_positions_length in E.
Qed.

Lemma uinv_remove : forall o off u v i, uinv o off u v -> i < length o ->
  exists u', unused_remove_at i u = Ok u' /\ uinv o off u' (unused_remove i v).
Proof.
  intros o off u v i HU HI. destruct (remove_sim i u) as (u' & E & E1 & E2).
  { now rewrite (uinv_length _ _ _ _ HU). }
  exists u'. split; [exact E|]. destruct HU as [U1 U2]. split; [now rewrite E1|]. now rewrite E2, U2.
Qed.

Lemma get_entry_reads : forall {T} o off key p (q : json -> outcome abs_error T),
  located (JObj o) off -> reads p q ->
  reads_entries o off (get_entry_at (code_map_of doc) o off key p) (get_entry o key q).
Proof.
  intros T o off key p q HL HR u v HU. unfold get_entry_at, get_entry.
  eapply sim_bind; [apply unique_sim, HL|].
  intros [[[i vo] j]|] [[i' j']|] HF; cbn [found_at] in HF; try tauto.
  - destruct HF as (<- & <- & HI & HJ & _). destruct (uinv_remove _ _ _ _ _ HU HI) as (u' & -> & HU').
    cbn [bind]. eapply sim_bind; [apply HR, HJ|]. intros a b ->. cbn. auto.
  - cbn. auto.
Qed.

Lemma get_entry_or_reads : forall {T} o off key p (q : json -> outcome abs_error T) d,
  located (JObj o) off -> reads p q ->
  reads_entries o off (get_entry_or_at (code_map_of doc) o off key p d) (get_entry_or o key q d).
Proof.
  intros T o off key p q d HL HR. apply reads_bind; [now apply get_entry_reads|].
  intros a. apply reads_ret.
Qed.

(** As [require_entry], with the entry itself. *)
Lemma require_entry_reads_in : forall {T} o off key p (q : json -> outcome abs_error T) u v,
  located (JObj o) off -> reads p q -> uinv o off u v ->
  sim (fun a b => (fst a = fst b /\ uinv o off (snd a) (snd b)) /\
                  exists j, In (key, j) o /\ q j = Ok (fst b))
    (require_entry_at (code_map_of doc) o off key p u) (require_entry o key q v).
Proof.
  intros T o off key p q u v HL HR HU. unfold require_entry_at, require_entry.
  eapply sim_bind; [apply unique_sim, HL|].
  intros [[[i vo] j]|] [[i' j']|] HF; cbn [found_at] in HF; try tauto.
  - destruct HF as (<- & <- & HI & HJ & HIn). destruct (uinv_remove _ _ _ _ _ HU HI) as (u' & -> & HU').
    cbn [bind]. specialize (HR j vo HJ). destruct (p j vo), (q j) eqn:EQ; cbn [sim bind] in *; try tauto.
    subst. cbn [fst snd]. split; [auto|]. eauto.
  - apply sim_err. exists o. split; [now apply located_at|exact HF].
Qed.

Lemma require_entry_reads : forall {T} o off key p (q : json -> outcome abs_error T),
  located (JObj o) off -> reads p q ->
  reads_entries o off (require_entry_at (code_map_of doc) o off key p) (require_entry o key q).
Proof.
  intros T o off key p q HL HR u v HU.
  eapply sim_mono; [now apply require_entry_reads_in|]. now intros a b [H _].
Qed.

Lemma require_type_sim : forall o off, located (JObj o) off ->
  sim (fun a b => fst a = fst b /\ snd (snd a) = snd b /\ fst b < length o /\
         located (JStr (snd b)) (fst (snd a)))
    (require_type_at (code_map_of doc) o off) (require_type o).
Proof.
  intros o off HL. unfold require_type_at, require_type. eapply sim_bind; [apply unique_sim, HL|].
  intros [[[i vo] j]|] [[i' j']|] HF; cbn [found_at] in HF; try tauto.
  - destruct HF as (<- & <- & HI & HJ & _). destruct j; try unexpected. cbn. auto.
  - apply sim_err. exists o. split; [now apply located_at|exact HF].
Qed.

Lemma check_type_reads : forall o off ty, located (JObj o) off ->
  reads_entries o off (check_type_at (code_map_of doc) o off ty) (check_type o ty).
Proof.
  intros o off ty HL u v HU. unfold check_type_at, check_type.
  eapply sim_bind; [apply require_type_sim, HL|].
  intros [i [vo s]] [i' s'] (Ei & Es & HI & HJ). cbn [fst snd] in *. subst i' s'.
  destruct (uinv_remove _ _ _ _ _ HU HI) as (u' & -> & HU'). cbn [bind].
  destruct (String.eqb s ty) eqn:E; [cbn; auto|].
  apply sim_err. split; [now apply located_at|]. intros [->|[]]. now rewrite String.eqb_refl in E.
Qed.

Lemma check_sim : forall off o before after u v, located (JObj o) off -> o = before ++ after ->
  map fst u = map (fun e => fst (fst e))
    (entry_positions after (S off + list_sum (map entry_size before))) -> map snd u = v ->
  sim eq (unused_check_at after u) (unused_check after v).
Proof.
  intros off o before after. revert before.
  induction after as [|[k j] after IH]; intros before u v HL Eo E1 <-.
  - destruct u as [|[p b] u]; [reflexivity|discriminate].
  - destruct u as [|[p b] u]; [discriminate|].
    cbn [entry_positions map fst snd] in E1. injection E1 as Ep E1. cbn [unused_check_at unused_check map snd].
    destruct b.
    + cbn [hd_error unwrap bind fst]. apply sim_err. exists off, o, before.
      pose proof (entry_key_of _ _ _ _ _ _ HL Eo) as HK. rewrite key_position_eq in HK.
      now rewrite Ep.
    + cbn [tl]. apply (IH (before ++ [(k, j)])); [exact HL|now rewrite Eo, <- app_assoc| |reflexivity].
      rewrite E1. f_equal. f_equal. rewrite entry_sum. cbn [map]. change (list_sum []) with 0. lia.
Qed.

Lemma with_entries_reads : forall {A} (m : object -> nat -> entries_at A) (n : object -> entries A),
  (forall o off, located (JObj o) off -> reads_entries o off (m o off) (n o)) ->
  reads_object (fun o off => with_entries_at (code_map_of doc) o off (m o off))
               (fun o => with_entries o (n o)).
Proof.
  intros A m n HM o off HL. unfold with_entries_at, with_entries, unused_new_at.
  rewrite (map_entries_ok _ _ (located_object _ _ HL)). cbn [bind].
  eapply sim_bind; [apply (HM o off HL)|].
  - split; [now rewrite map_map|]. unfold unused_new. rewrite map_map. cbn [snd].
    generalize (S off). induction o as [|e o IH] in HM |- *; intros off'; [reflexivity|].
    clear HM. cbn [entry_positions map]. f_equal. revert off' IH. clear.
    intros off' _. generalize (off' + entry_size e). induction o as [|e' o IH]; intros off''; [reflexivity|].
    cbn [entry_positions map]. now rewrite IH.
  - intros [a u] [b v] [E [HU1 HU2]]. cbn [fst snd] in *. subst b.
    eapply sim_bind.
    + apply (check_sim off o [] o u v HL eq_refl); [|exact HU2].
      cbn [map]. unfold list_sum. cbn [fold_right]. now rewrite Nat.add_0_r.
    + intros _ _ _. reflexivity.
Qed.

(** ** The readers of the standard types *)

Lemma from_string_reads : reads from_string_at from_string.
Proof. intros j off HL. destruct j; cbn [from_string_at from_string from_bool_at from_bool]; try unexpected. reflexivity. Qed.

Lemma from_bool_reads : reads from_bool_at from_bool.
Proof. intros j off HL. destruct j; cbn [from_string_at from_string from_bool_at from_bool]; try unexpected. reflexivity. Qed.

Lemma traverse_reads : forall {T} p (q : json -> outcome abs_error T), reads p q ->
  forall l off, located_items l off -> sim eq (traverse_at (code_map_of doc) p l off) (traverse q l).
Proof.
  intros T p q HR. induction l as [|j l IH]; intros off HL; [reflexivity|].
  apply located_items_cons in HL as [HJ HL]. cbn [traverse_at traverse].
  rewrite (volume_located _ _ HJ). cbn [bind]. eapply sim_bind; [apply HR, HJ|].
  intros a b ->. eapply sim_bind; [apply IH, HL|]. intros r s ->. reflexivity.
Qed.

Lemma from_vec_reads : forall {T} p (q : json -> outcome abs_error T), reads p q ->
  reads (from_vec_at (code_map_of doc) p) (from_vec q).
Proof.
  intros T p q HR j off HL. destruct j; cbn [from_vec_at from_vec]; try unexpected. apply traverse_reads; [exact HR|].
  now apply located_array.
Qed.

Lemma one_or_many_reads : forall {T} p (q : json -> outcome abs_error T), reads p q ->
  reads (one_or_many_at (code_map_of doc) p) (one_or_many q).
Proof.
  intros T p q HR j off HL. unfold one_or_many_at, one_or_many.
  destruct j; try (eapply sim_bind; [apply HR, HL|]; intros x y ->; reflexivity).
  apply traverse_reads; [exact HR|]. now apply located_array.
Qed.

Lemma from_option_reads : forall {T} p (q : json -> outcome abs_error T), reads p q ->
  reads (from_option_at p) (from_option q).
Proof.
  intros T p q HR j off HL. unfold from_option_at, from_option.
  destruct j; try (eapply sim_bind; [apply HR, HL|]; intros x y ->; reflexivity). reflexivity.
Qed.

Lemma from_btreemap_reads : forall {K V} {CK : Cmp K} pk (qk : string -> outcome abs_error K)
    p (q : json -> outcome abs_error V),
  reads_key pk qk -> reads p q ->
  reads (from_btreemap_at (code_map_of doc) pk p) (from_btreemap qk q).
Proof.
  intros K V CK pk qk p q HK HR j off HL. destruct j as [| | | | |o]; cbn [from_btreemap_at from_btreemap]; try unexpected.
  apply located_object in HL. cbn [from_btreemap_at from_btreemap].
  rewrite (map_entries_ok _ _ HL). cbn [bind]. eapply (sim_bind eq).
  - revert HL. generalize (S off). induction o as [|[k j] o IH]; intros off' HL;
      [reflexivity|].
    apply located_entries_cons in HL as (Hk & Hj & Ho). cbn [entry_positions traverse fst snd].
    eapply (sim_bind eq); [|intros a b ->; eapply (sim_bind eq);
      [|intros r s ->; reflexivity]].
    + eapply sim_bind; [apply HK, Hk|]. intros a b ->. eapply sim_bind; [apply HR, Hj|].
      intros c d ->. reflexivity.
    + unfold entry_size. cbn [snd].
      replace (off' + (2 + length (fragments j))) with (S (S off') + length (fragments j)) by lia.
      apply IH, Ho.
  - intros a b ->. reflexivity.
Qed.

Lemma string_key_reads : reads_key (fun s _ => Ok s) (fun s => Ok s).
Proof. intros s off _. reflexivity. Qed.

Lemma expect_object_reads : forall {T} p (q : object -> outcome abs_error T), reads_object p q ->
  reads (fun j off => let* o := expect_object_at j off in p o off)
        (fun j => let* o := expect_object j in q o).
Proof.
  intros T p q HR j off HL. destruct j; cbn [expect_object_at expect_object bind]; try unexpected.
  now apply HR.
Qed.

(** ** The readers of layouts *)

Lemma iri_value_reads : reads iri_from_json_at iri_from_json.
Proof.
  intros j off HL. unfold iri_from_json_at, iri_from_json.
  destruct j; cbn [from_string_at from_string bind]; try unexpected.
  unfold iri_from_str_at, iri_from_str. destruct (is_iri_ref s) eqn:E; [reflexivity|].
  apply sim_err. split; [left; now apply located_at|exact E].
Qed.

Lemma iri_key_reads : reads_key iri_from_str_at iri_from_str.
Proof.
  intros s off HK. unfold iri_from_str_at, iri_from_str. destruct (is_iri_ref s) eqn:E; [reflexivity|].
  apply sim_err. split; [now right|exact E].
Qed.

Lemma literal_value_reads : reads_object (literal_value_from_at (code_map_of doc)) literal_value_from.
Proof.
  apply with_entries_reads. intros o off HL. apply reads_bind.
  { apply get_entry_reads; [exact HL|apply iri_value_reads]. }
  intros ty. apply reads_bind.
  - destruct ty as [ty|]; [apply reads_ret|]. intros u v HU. unfold p_bind, e_bind.
    eapply sim_bind; [apply (require_entry_reads_in _ _ _ _ _ _ _ HL from_string_reads HU)|].
    intros [a u'] [b v'] [[E HU'] (j & HIn & EQ)]. cbn [fst snd] in *. subst b.
    destruct (is_lang_tag a) eqn:ET; [cbn; auto|].
    apply sim_err. exists o. split; [now apply located_at|]. split; [|exact ET].
    destruct j; cbn [from_string] in EQ; try discriminate. now injection EQ as <-.
  - intros ty'. apply reads_bind.
    + apply require_entry_reads; [exact HL|apply from_string_reads].
    + intros x. apply reads_ret.
Qed.

Lemma pattern_reads : reads (pattern_from_json_at (code_map_of doc)) pattern_from_json.
Proof.
  intros j off HL. destruct j; cbn [pattern_from_json_at pattern_from_json]; try unexpected.
  - destruct (blank_suffix s) eqn:EB; [reflexivity|]. destruct (is_iri_ref s) eqn:EI; [reflexivity|].
    apply sim_err. split; [now apply located_at|auto].
  - now apply literal_value_reads.
Qed.

Lemma quad_reads : reads (quad_from_json_at (code_map_of doc)) quad_from_json.
Proof.
  intros j off HL. destruct j as [| | | |l|]; cbn [quad_from_json_at quad_from_json]; try unexpected.
  destruct l as [|s [|p [|o g]]];
    try (apply sim_err; eexists; split; [exact (located_at _ _ HL)|cbn [length]; lia]).
  pose proof (located_array _ _ HL) as HA.
  apply located_items_cons in HA as [HS HA]. apply located_items_cons in HA as [HP HA].
  apply located_items_cons in HA as [HO HA].
  assert (HB : forall g', located_items g' (S off + length (fragments s) + length (fragments p) +
      length (fragments o)) -> length g' <= 1 ->
    sim eq (let* s' := pattern_from_json_at (code_map_of doc) s (S off) in
            let* v := volume_at (code_map_of doc) (S off) in
            let off := S off + v in
            let* p' := pattern_from_json_at (code_map_of doc) p off in
            let* v := volume_at (code_map_of doc) off in
            let off := off + v in
            let* o' := pattern_from_json_at (code_map_of doc) o off in
            let* v := volume_at (code_map_of doc) off in
            let off := off + v in
            match g' with
            | g :: _ => let* g' := pattern_from_json_at (code_map_of doc) g off in
                        Ok (Quad s' p' o' (Some g'))
            | [] => Ok (Quad s' p' o' None)
            end)
           (let* s := pattern_from_json s in
            let* p := pattern_from_json p in
            let* o := pattern_from_json o in
            match g' with
            | g :: _ => let* g := pattern_from_json g in Ok (Quad s p o (Some g))
            | [] => Ok (Quad s p o None)
            end)).
  { intros g' HG _. eapply sim_bind; [apply pattern_reads, HS|]. intros s1 s2 ->.
    rewrite (volume_located _ _ HS). cbn [bind]. cbv zeta.
    eapply sim_bind; [apply pattern_reads, HP|]. intros p1 p2 ->.
    rewrite (volume_located _ _ HP). cbn [bind].
    eapply sim_bind; [apply pattern_reads, HO|]. intros o1 o2 ->.
    rewrite (volume_located _ _ HO). cbn [bind].
    destruct g' as [|g1 g']; [reflexivity|].
    apply located_items_cons in HG as [HG _].
    eapply sim_bind; [apply pattern_reads, HG|]. intros g2 g3 ->. reflexivity. }
  destruct g as [|g1 [|g2 g]].
  - exact (HB [] HA (Nat.le_0_l 1)).
  - exact (HB [g1] HA (Nat.le_refl 1)).
  - apply sim_err. eexists. split; [exact (located_at _ _ HL)|cbn [length]; lia].
Qed.

Lemma dataset_reads : reads (dataset_from_json_at (code_map_of doc)) dataset_from_json.
Proof. intros j off HL. now apply (from_vec_reads _ _ quad_reads). Qed.

Lemma typed_string_reads : reads_object (typed_string_from_at (code_map_of doc)) typed_string_from.
Proof.
  apply with_entries_reads. intros o off HL. apply reads_bind.
  { apply require_entry_reads; [exact HL|apply from_string_reads]. }
  intros v. apply reads_bind.
  { apply require_entry_reads; [exact HL|apply iri_value_reads]. }
  intros ty. apply reads_ret.
Qed.

Lemma resource_reads : reads (resource_from_json_at (code_map_of doc)) resource_from_json.
Proof.
  intros j off HL. destruct j; cbn [resource_from_json_at resource_from_json]; try unexpected;
    try reflexivity.
  - destruct (has_dot s) eqn:ED.
    + apply sim_err. split; [now apply located_at|exact ED].
    + destruct (parse_i64 s) eqn:EP; [reflexivity|]. apply sim_err. split; [now apply located_at|auto].
  - now apply typed_string_reads.
Qed.

Lemma regexp_reads : reads regexp_from_json_at regexp_from_json.
Proof.
  intros j off HL. unfold regexp_from_json_at, regexp_from_json.
  destruct j; cbn [from_string_at from_string bind]; try unexpected.
  destruct (re_parse (chars s)) eqn:E; try reflexivity.
  apply sim_err. exists s. split; [now apply located_at|exact E].
Qed.

Lemma no_error_bind : forall {E A B} (m : outcome Empty_set A) (f : A -> outcome Empty_set B),
  @no_error E B (bind m f) = bind (no_error m) (fun a => no_error (f a)).
Proof. intros E A B [a|[]|w|] f; reflexivity. Qed.

Lemma no_error_traverse : forall {E A B} (f : A -> outcome Empty_set B) l,
  @no_error E _ (traverse f l) = traverse (fun a => no_error (f a)) l.
Proof.
  intros E A B f. induction l as [|a l IH]; [reflexivity|]. cbn [traverse].
  rewrite no_error_bind. destruct (f a) as [b|[]|w|]; cbn [no_error bind]; try reflexivity.
  rewrite no_error_bind, IH. reflexivity.
Qed.

Lemma sim_refl_no_error : forall {A} (m : outcome Empty_set A), sim eq (no_error m) (no_error m).
Proof. intros A [a|[]|w|]; reflexivity. Qed.

Fixpoint const_reads (j : json) : forall off, located j off ->
  sim eq (const_from_json_at (code_map_of doc) j off) (const_from_json j).
Proof.
  intros off HL. unfold const_from_json.
  destruct j as [|b|s|s|l|o]; cbn [const_from_json_at value_from_json no_error]; try reflexivity.
  - rewrite no_error_bind. eapply sim_bind; [apply sim_refl_no_error|]. intros x y ->. reflexivity.
  - rewrite no_error_bind. eapply (sim_bind eq).
    + rewrite no_error_traverse. apply located_array in HL. revert HL. generalize (S off).
      induction l as [|j l IH]; intros off' HL; [reflexivity|].
      apply located_items_cons in HL as [HJ HL]. cbn [traverse].
      rewrite (volume_located _ _ HJ). cbn [bind].
      eapply sim_bind; [exact (const_reads j off' HJ)|]. intros x y ->.
      eapply sim_bind; [apply IH, HL|]. intros r s ->. reflexivity.
    + intros x y ->. reflexivity.
  - rewrite no_error_bind. eapply (sim_bind eq).
    + rewrite no_error_traverse. apply located_object in HL. revert HL. generalize (S off).
      induction o as [|[k j] o IH]; intros off' HL; [reflexivity|].
      apply located_entries_cons in HL as (Hk & HJ & HL). cbn [traverse fst snd].
      rewrite (volume_located _ _ HJ). cbn [bind]. rewrite no_error_bind.
      pose proof (const_reads j (S (S off')) HJ) as HC. unfold const_from_json in HC.
      destruct (const_from_json_at (code_map_of doc) j (S (S off'))), (value_from_json j) as [|[]| |];
        cbn [no_error sim bind] in HC |- *; try tauto.
      subst. eapply sim_bind; [apply IH, HL|]. intros r s ->. reflexivity.
    + intros x y ->. reflexivity.
Qed.

Lemma const_value_reads : reads (const_from_json_at (code_map_of doc)) const_from_json.
Proof. intros j off HL. now apply const_reads. Qed.

(** Steps through the entries of an object. *)
Ltac step HL :=
  repeat first
    [ apply reads_ret
    | apply reads_bind; [|intros ?]
    | apply get_entry_reads; [exact HL|]
    | apply get_entry_or_reads; [exact HL|]
    | apply require_entry_reads; [exact HL|]
    | apply check_type_reads; exact HL
    | apply from_btreemap_reads
    | apply one_or_many_reads
    | apply from_option_reads
    | apply from_vec_reads
    | apply from_string_reads
    | apply from_bool_reads
    | apply string_key_reads
    | apply iri_key_reads
    | apply iri_value_reads
    | apply pattern_reads
    | apply dataset_reads
    | apply quad_reads
    | apply resource_reads
    | apply regexp_reads
    | apply const_value_reads
    | assumption ].

Lemma header_reads : forall o off, located (JObj o) off ->
  reads_entries o off (header_from_at (code_map_of doc) o off) (header_from o).
Proof. intros o off HL. unfold header_from_at, header_from. step HL. Qed.

Section Nested.
Context {L : Type} (np : object -> nat -> outcome pos_error L) (nq : object -> outcome abs_error L).
Context (HN : reads_object np nq).

Lemma nested_sim : forall {B} o off (f : L -> B), located (JObj o) off ->
  sim eq (let* l := np o off in Ok (f l)) (let* l := nq o in Ok (f l)).
Proof. intros B o off f HL. eapply sim_bind; [apply HN, HL|]. intros x y ->. reflexivity. Qed.

Lemma string_ref_sim : forall {B} s off (f : compact_iri -> B), located (JStr s) off ->
  sim eq (let* i := iri_from_str_at s off in Ok (f i)) (let* i := iri_from_str s in Ok (f i)).
Proof.
  intros B s off f HL. eapply sim_bind; [exact (iri_value_reads (JStr s) off HL)|].
  intros x y ->. reflexivity.
Qed.

Lemma ref_reads : reads (ref_from_json_at np) (ref_from_json nq).
Proof.
  intros j off HL. destruct j; cbn [ref_from_json_at ref_from_json]; try unexpected.
  - now apply string_ref_sim.
  - now apply nested_sim.
Qed.

Lemma format_object_reads : forall d,
  reads_object (format_from_at (code_map_of doc) np d) (format_from nq d).
Proof. intros d. apply with_entries_reads. intros o off HL. step HL. apply ref_reads. Qed.

Lemma format_reads : forall d,
  reads (format_from_json_at (code_map_of doc) np d) (format_from_json nq d).
Proof.
  intros d j off HL. destruct j as [| | | | |o]; cbn [format_from_json_at format_from_json]; try unexpected.
  - now apply string_ref_sim.
  - destruct (contains_key o "type"); [now apply nested_sim|now apply format_object_reads].
Qed.

Lemma item_reads : reads (item_from_json_at (code_map_of doc) np) (item_from_json nq).
Proof.
  apply expect_object_reads. apply with_entries_reads. intros o off HL. step HL. apply format_reads.
Qed.

Lemma field_reads : reads (field_from_json_at (code_map_of doc) np) (field_from_json nq).
Proof.
  apply expect_object_reads. apply with_entries_reads. intros o off HL. step HL. apply format_reads.
Qed.

Lemma variant_reads : reads (variant_from_json_at (code_map_of doc) np) (variant_from_json nq).
Proof.
  apply expect_object_reads. apply with_entries_reads. intros o off HL. step HL. apply format_reads.
Qed.

Lemma node_object_reads : reads_object (node_from_at (code_map_of doc) np) (node_from nq).
Proof. apply with_entries_reads. intros o off HL. step HL. apply format_reads. Qed.

Lemma node_reads : reads (node_from_json_at (code_map_of doc) np) (node_from_json nq).
Proof.
  intros j off HL. destruct j as [| | | | |o]; cbn [node_from_json_at node_from_json]; try unexpected.
  - now apply string_ref_sim.
  - destruct (contains_key o "type"); [now apply nested_sim|now apply node_object_reads].
Qed.
End Nested.

Ltac layout_object :=
  apply with_entries_reads;
  let o := fresh "o" in let off := fresh "off" in let HL := fresh "HL" in
  intros o off HL; step HL; try (now apply header_reads).

Lemma unit_reads : reads_object (unit_from_at (code_map_of doc)) unit_from.
Proof. layout_object. Qed.
Lemma boolean_reads : reads_object (boolean_from_at (code_map_of doc)) boolean_from.
Proof. layout_object. Qed.
Lemma number_reads : reads_object (number_from_at (code_map_of doc)) number_from.
Proof. layout_object. Qed.
Lemma bytes_reads : reads_object (bytes_from_at (code_map_of doc)) bytes_from.
Proof. layout_object. Qed.
Lemma text_reads : reads_object (text_from_at (code_map_of doc)) text_from.
Proof. layout_object. Qed.
Lemma id_reads : reads_object (id_from_at (code_map_of doc)) id_from.
Proof. layout_object. Qed.
Lemma union_reads : reads_object (union_from_at (code_map_of doc)) union_from.
Proof. layout_object. Qed.
Lemma intersection_reads : reads_object (intersection_from_at (code_map_of doc)) intersection_from.
Proof. layout_object. Qed.

Section Compound.
Context (np : object -> nat -> outcome pos_error alayout) (nq : object -> outcome abs_error alayout).
Context (HN : reads_object np nq).

Lemma product_reads : reads_object (product_from_at (code_map_of doc) np) (product_from nq).
Proof. layout_object. now apply field_reads. Qed.
Lemma sum_reads : reads_object (sum_from_at (code_map_of doc) np) (sum_from nq).
Proof. layout_object. now apply variant_reads. Qed.
Lemma ordered_reads : reads_object (ordered_from_at (code_map_of doc) np) (ordered_from nq).
Proof. layout_object. now apply node_reads. Qed.
Lemma unordered_reads : reads_object (unordered_from_at (code_map_of doc) np) (unordered_from nq).
Proof. layout_object. now apply item_reads. Qed.
Lemma sized_reads : reads_object (sized_from_at (code_map_of doc) np) (sized_from nq).
Proof. layout_object. now apply item_reads. Qed.

Lemma body_reads : reads_object (object_body_at (code_map_of doc) np) (object_body nq).
Proof.
  intros o off HL. unfold object_body_at, object_body.
  eapply sim_bind; [apply require_type_sim, HL|].
  intros [i [vo s]] [i' s'] (Ei & Es & HI & HJ). cbn [fst snd] in *. subst i' s'.
  destruct (String.eqb s "id") eqn:E1; [now apply id_reads|].
  destruct (String.eqb s "unit") eqn:E2; [now apply unit_reads|].
  destruct (String.eqb s "boolean") eqn:E3; [now apply boolean_reads|].
  destruct (String.eqb s "number") eqn:E4; [now apply number_reads|].
  destruct (String.eqb s "bytes") eqn:E5; [now apply bytes_reads|].
  destruct (String.eqb s "string") eqn:E6; [now apply text_reads|].
  destruct (String.eqb s "record") eqn:E7; [now apply product_reads|].
  destruct (String.eqb s "sum") eqn:E8; [now apply sum_reads|].
  destruct (String.eqb s "list") eqn:E9; [now apply ordered_reads|].
  destruct (String.eqb s "set") eqn:E10; [now apply unordered_reads|].
  destruct (String.eqb s "tuple") eqn:E11; [now apply sized_reads|].
  destruct (String.eqb s "union") eqn:E12; [now apply union_reads|].
  destruct (String.eqb s "intersection") eqn:E13; [now apply intersection_reads|].
  apply sim_err. split; [now apply located_at|]. unfold layout_types. cbn [In].
  intros HIn. repeat (destruct HIn as [<-|HIn]; [discriminate|]). exact HIn.
Qed.
End Compound.

Lemma object_reads : forall fuel,
  reads_object (object_from_at (code_map_of doc) fuel) (object_from fuel).
Proof.
  induction fuel as [|fuel IH]; intros o off HL; [exact I|].
  cbn [object_from_at object_from]. now apply body_reads.
Qed.

Lemma layout_reads : reads (layout_from_json_at (code_map_of doc)) layout_from_json.
Proof.
  intros j off HL. unfold layout_from_json_at, layout_from_json.
  destruct j; try unexpected; [reflexivity|]. now apply object_reads.
Qed.
End Sim.
End Doc.

Lemma read_layout_sim : forall {TS : TextSyntax} doc, sim doc eq (read_layout doc) (layout_from_json doc).
Proof. intros TS doc. apply layout_reads, located_doc. Qed.

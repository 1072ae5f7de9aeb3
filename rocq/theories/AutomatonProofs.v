(** * Exploration, character sets and range maps: lemmas *)

From Coq Require Import String List Bool Arith NArith Lia Sorted Relations.
Import ListNotations.
From Verif Require Import Base BaseProofs Orders CharModel AutomatonModel AutomatonSpec.
Open Scope list_scope.

(** ** [explore] *)
Section Explore.
Context {E A K B : Type} {CK : Cmp K} {LK : CmpLaws K}.
Variable key : A -> K.

Section Visit.
Variable visit : A -> outcome E (list A * B).

Definition pushes (a a' : A) : Prop := exists l b, visit a = Ok (l, b) /\ In a' l.
Definition from_stack (stack : list A) (a : A) : Prop :=
  exists a0, In a0 stack /\ clos_refl_trans A pushes a0 a.

Lemma bt_get_keys_Some (m : list (K * B)) k : In k (keys m) -> exists v, bt_get k m = Some v.
Proof.
  intro H. destruct (bt_get k m) as [v|] eqn:Ev; [eauto|]. apply bt_get_None in Ev. contradiction.
Qed.

Lemma explore_spec fuel : forall stack visited r,
  explore key visit fuel stack visited = Ok r ->
  exists new, r = visited ++ new /\
    (NoDup (keys visited) -> NoDup (keys r)) /\
    (forall a, In a stack -> In (key a) (keys r)) /\
    (forall k b, In (k, b) new -> exists a l, key a = k /\ visit a = Ok (l, b) /\ from_stack stack a /\
       forall x, In x l -> In (key x) (keys r)).
Proof.
  induction fuel as [|fuel IH]; intros stack visited r H; [discriminate|]. cbn [explore] in H.
  destruct stack as [|a stack].
  - injection H as <-. exists []. rewrite app_nil_r. split; [reflexivity|]. split; [auto|].
    split; [intros ? []|intros ? ? []].
  - destruct (bt_get (key a) visited) as [v|] eqn:Ev.
    + apply IH in H as (new & -> & ND & HS & HN). exists new. split; [reflexivity|]. split; [exact ND|]. split.
      * intros a' [<-|Ha']; [|auto]. apply bt_get_In in Ev. unfold keys. apply in_map_iff. exists (key a, v).
        split; [reflexivity|apply in_or_app; now left].
      * intros k b Hk. apply HN in Hk as (a' & l & E1 & E2 & (a0 & H0 & R) & HX). exists a', l.
        split; [exact E1|]. split; [exact E2|]. split; [exists a0; split; [now right|exact R]|exact HX].
    + apply bind_Ok in H as ([l b] & Hv & H). apply IH in H as (new & -> & ND & HS & HN).
      exists ((key a, b) :: new). rewrite <- app_assoc in *. cbn [app] in *. split; [reflexivity|]. split.
      { intro N0. apply ND. unfold keys. rewrite map_app. cbn [map fst]. apply NoDup_Add with (a := key a) (l := map fst visited).
        - rewrite <- (app_nil_r (map fst visited)) at 1. apply Add_app.
        - split; [exact N0|]. now apply bt_get_None. }
      assert (Hkey : In (key a) (keys (visited ++ (key a, b) :: new))).
      { unfold keys. rewrite map_app. apply in_or_app. right. now left. }
      split.
      * intros a' [<-|Ha']; [exact Hkey|]. apply HS. apply in_or_app. now right.
      * intros k b' [[= <- <-]|Hk].
        -- exists a, l. split; [reflexivity|]. split; [exact Hv|].
           split; [exists a; split; [now left|apply rt_refl]|].
           intros x Hx. apply HS. apply in_or_app. left. now apply in_rev in Hx.
        -- apply HN in Hk as (a' & l' & E1 & E2 & (a0 & H0 & R) & HX). exists a', l'.
           split; [exact E1|]. split; [exact E2|]. split; [|exact HX].
           apply in_app_or in H0 as [H0|H0].
           ++ exists a. split; [now left|]. eapply rt_trans; [|exact R]. apply rt_step. exists l, b.
              split; [exact Hv|]. now apply in_rev.
           ++ exists a0. split; [now right|exact R].
Qed.

Lemma explore_mono fuel : forall fuel' stack visited r,
  fuel <= fuel' -> explore key visit fuel stack visited = Ok r -> explore key visit fuel' stack visited = Ok r.
Proof.
  induction fuel as [|fuel IH]; intros fuel' stack visited r Hle H; [discriminate|].
  destruct fuel' as [|fuel']; [lia|]. cbn [explore] in *. destruct stack as [|a stack]; [exact H|].
  destruct (bt_get (key a) visited); [apply IH; [lia|exact H]|].
  apply bind_Ok in H as ([l b] & -> & H). cbn [bind]. apply IH; [lia|exact H].
Qed.

(** Termination: the keys are in a finite set. *)
Lemma explore_total (P : A -> Prop) (U : list K) :
  (forall a, P a -> In (key a) U) ->
  (forall a, P a -> exists l b, visit a = Ok (l, b) /\ Forall P l) ->
  forall visited stack, Forall P stack ->
  exists fuel r, explore key visit fuel stack visited = Ok r.
Proof.
  intros HU HV.
  pose (fresh := fun visited : list (K * B) => length (filter (fun k => negb (mem k (keys visited))) U)).
  enough (forall n m visited stack, fresh visited <= n -> length stack <= m -> Forall P stack ->
    exists fuel r, explore key visit fuel stack visited = Ok r) as H.
  { intros visited stack HP. eapply (H (fresh visited) (length stack)); auto. }
  induction n as [n IHn] using lt_wf_ind. induction m as [|m IHm]; intros visited stack Hn Hm HP.
  - destruct stack; [|simpl in Hm; lia]. exists 1, visited. reflexivity.
  - destruct stack as [|a stack]; [exists 1, visited; reflexivity|]. inversion HP as [|? ? Pa Ps]; subst.
    destruct (bt_get (key a) visited) as [v|] eqn:Ev.
    + destruct (IHm visited stack Hn ltac:(simpl in Hm; lia) Ps) as (fuel & r & Hr).
      exists (S fuel), r. cbn [explore]. now rewrite Ev.
    + destruct (HV a Pa) as (l & b & Hv & Pl).
      assert (Hlt : fresh (visited ++ [(key a, b)]) < fresh visited).
      { unfold fresh. apply bt_get_None in Ev. specialize (HU a Pa). clear -HU Ev LK.
        assert (HI : forall k, mem k (keys (visited ++ [(key a, b)])) = mem k (keys visited) || eqb k (key a)).
        { intro k. unfold keys. rewrite map_app. cbn [map fst]. induction (map fst visited) as [|x xs IH]; cbn [mem app].
          - now rewrite orb_false_r.
          - rewrite IH. now rewrite orb_assoc. }
        induction U as [|u U IH]; [destruct HU|]. cbn [filter]. rewrite HI.
        assert (HLE : forall V, length (filter (fun k => negb (mem k (keys (visited ++ [(key a, b)])))) V) <=
          length (filter (fun k => negb (mem k (keys visited))) V)).
        { intro V. induction V as [|v V IHV]; [apply Nat.le_refl|]. cbn [filter]. rewrite HI.
          destruct (mem v (keys visited)); simpl; [exact IHV|]. destruct (eqb v (key a)); simpl; lia. }
        specialize (HLE U). destruct HU as [->|HU].
        - rewrite eqb_refl, orb_true_r. simpl. destruct (mem (key a) (keys visited)) eqn:Em; simpl; [|lia].
          apply mem_In in Em. contradiction.
        - specialize (IH HU). destruct (mem u (keys visited)); simpl; [exact IH|]. destruct (eqb u (key a)); simpl; lia. }
      edestruct (IHn (fresh (visited ++ [(key a, b)])) ltac:(lia) (length (rev l ++ stack))
        (visited ++ [(key a, b)]) (rev l ++ stack)) as (fuel & r & Hr); [auto..| |].
      * apply Forall_app. split; [|exact Ps]. apply Forall_rev. exact Pl.
      * exists (S fuel), r. cbn [explore]. rewrite Ev, Hv. exact Hr.
Qed.
End Visit.

(** Only the items that can be reached matter. *)
Lemma explore_ext (visit visit' : A -> outcome E (list A * B)) (P : A -> Prop) :
  (forall a, P a -> exists l b, visit a = Ok (l, b) /\ visit' a = Ok (l, b) /\ Forall P l) ->
  forall fuel stack visited, Forall P stack ->
  explore key visit fuel stack visited = explore key visit' fuel stack visited.
Proof.
  intros HV. induction fuel as [|fuel IH]; intros stack visited HP; [reflexivity|]. cbn [explore].
  destruct stack as [|a stack]; [reflexivity|]. inversion HP as [|? ? Pa Ps]; subst.
  destruct (bt_get (key a) visited); [now apply IH|].
  destruct (HV a Pa) as (l & b & -> & -> & Pl). cbn [bind]. apply IH. apply Forall_app. split; [now apply Forall_rev|exact Ps].
Qed.
End Explore.

(** ** Sets *)
Section Sets.
Context {A : Type} {CA : Cmp A} {LA : CmpLaws A}.

Lemma set_extend_In (l s : list A) x : In x (set_extend s l) <-> In x s \/ In x l.
Proof.
  unfold set_extend. revert s. induction l as [|a l IH]; intro s; simpl; [tauto|].
  rewrite IH, set_insert_In. intuition congruence.
Qed.

Lemma set_collect_In (l : list A) x : In x (set_collect l) <-> In x l.
Proof. change (set_collect l) with (set_extend [] l). rewrite set_extend_In. simpl. tauto. Qed.

Lemma set_extend_sorted (l s : list A) : StronglySorted lt s -> StronglySorted lt (set_extend s l).
Proof.
  unfold set_extend. revert s. induction l as [|a l IH]; intros s H; simpl; [exact H|].
  apply IH. now apply set_insert_sorted.
Qed.

Lemma set_collect_sorted (l : list A) : StronglySorted lt (set_collect l).
Proof. apply set_extend_sorted. constructor. Qed.
End Sets.

(** [bt_collect] of a list with distinct keys. *)
Section Collect.
Context {K V : Type} {CK : Cmp K} {LK : CmpLaws K}.

Lemma bt_insert_In (m : list (K * V)) k v x y :
  bt_wf m -> (In (x, y) (bt_insert k v m) <-> (x = k /\ y = v) \/ (x <> k /\ In (x, y) m)).
Proof.
  intro W. assert (W' := bt_insert_wf m k v W). split.
  - intro H. apply (bt_get_wf _ _ _ W') in H. rewrite bt_insert_get in H.
    destruct (eqb_spec x k) as [->|N]; [left; split; congruence|].
    right. split; [exact N|]. now apply bt_get_In.
  - intros [[-> ->]|[N H]]; apply bt_get_In; rewrite bt_insert_get.
    + now rewrite eqb_refl.
    + destruct (eqb_spec x k); [contradiction|]. now apply bt_get_wf.
Qed.

Lemma bt_collect_In (l : list (K * V)) x y :
  NoDup (keys l) -> (In (x, y) (bt_collect l) <-> In (x, y) l).
Proof.
  unfold bt_collect. intro ND.
  enough (forall m, bt_wf m -> (forall k, In k (keys l) -> ~ In k (keys m)) ->
    (In (x, y) (fold_left (fun m kv => bt_insert (fst kv) (snd kv) m) l m) <-> In (x, y) m \/ In (x, y) l)) as H.
  { rewrite H; [simpl; tauto|constructor|auto]. }
  induction l as [|[k v] l IH]; intros m W D; cbn [fold_left]; [simpl; tauto|]. inversion ND; subst.
  rewrite IH; [|assumption|now apply bt_insert_wf|].
  - cbn [fst snd]. rewrite bt_insert_In by exact W. simpl. split; [intuition congruence|].
    intros [H|[[= -> ->]|H]]; [|auto|auto]. left. right. split; [|exact H]. intros ->. apply (D k); [now left|].
    unfold keys. now apply (in_map fst) in H.
  - intros k' Hk'. cbn [fst]. rewrite bt_insert_keys. intros [->|Hm]; [contradiction|]. apply (D k'); [now right|exact Hm].
Qed.

Lemma entry_In (m : list (K * V)) k d v : bt_wf m -> In (k, v) m -> entry k d m = v.
Proof. intros W H. unfold entry. now rewrite (bt_get_wf _ _ _ W H). Qed.
End Collect.

(** ** Range maps *)
Section RangeMaps.
Local Open Scope N_scope.
Context {V : Type}.

(** Sorted disjoint non empty ranges, starting from [lo]. *)
Fixpoint rm_from (lo : N) (m : range_map V) : Prop :=
  match m with
  | [] => True
  | ((a, b), _) :: m' => lo <= a /\ a <= b /\ rm_from (b + 1) m'
  end.

Lemma rm_from_weaken lo lo' m : lo' <= lo -> rm_from lo m -> rm_from lo' m.
Proof. destruct m as [|[[a b] v] m]; simpl; [auto|]. intros. intuition lia. Qed.

Lemma rm_update_from m : forall k lo hi (f : option V -> V),
  k <= lo -> lo <= hi -> rm_from k m -> rm_from k (rm_update lo hi f m).
Proof.
  induction m as [|[[a b] v] m IH]; intros k lo hi f K L W; cbn [rm_update].
  - simpl. intuition lia.
  - destruct W as (W1 & W2 & W3).
    destruct (N.ltb_spec b lo).
    + simpl. split; [exact W1|]. split; [exact W2|]. apply IH; [lia|exact L|exact W3].
    + destruct (N.ltb_spec hi a).
      * simpl. repeat split; try lia. eapply rm_from_weaken; [|exact W3]. lia.
      * assert (HR : forall x, x <= N.min b hi + 1 -> rm_from x
            (if b <? hi then rm_update (b + 1) hi f m
             else if hi <? b then ((hi + 1, b), v) :: m else m)).
        { intros x Hx. destruct (N.ltb_spec b hi).
          - eapply rm_from_weaken; [|apply (IH (b + 1)); [lia|lia|exact W3]]. lia.
          - destruct (N.ltb_spec hi b); simpl.
            + split; [lia|]. split; [lia|]. exact W3.
            + eapply rm_from_weaken; [|exact W3]. lia. }
        destruct (N.ltb_spec a lo); [|destruct (N.ltb_spec lo a)]; simpl;
          repeat (split; [lia|]); apply HR; lia.
Qed.

Lemma in_range_spec r c : in_range r c = true <-> fst r <= c <= snd r.
Proof. unfold in_range. rewrite andb_true_iff, !N.leb_le. tauto. Qed.

(** The value of a character, from the ranges. *)
Lemma rm_get_In m : forall k c v, rm_from k m -> (rm_get c m = Some v <-> exists r, In (r, v) m /\ range_has r c).
Proof.
  induction m as [|[[a b] v'] m IH]; intros k c v W; cbn [rm_get].
  - split; [discriminate|intros (r & [] & _)].
  - destruct W as (W1 & W2 & W3). destruct (in_range (a, b) c) eqn:E.
    + apply in_range_spec in E. split.
      * intros [= <-]. exists (a, b). split; [now left|exact E].
      * intros (r & [[= <- <-]|H] & Hc); [reflexivity|]. exfalso.
        assert (forall k m, rm_from k m -> In (r, v) m -> k <= fst r) as HF.
        { clear. intros k m. revert k. induction m as [|[[a b] v'] m IH]; intros k W H; [destruct H|].
          destruct W as (W1 & W2 & W3). destruct H as [[= <- <-]|H]; [exact W1|]. specialize (IH _ W3 H). lia. }
        specialize (HF _ _ W3 H). unfold range_has in Hc. simpl in E. lia.
    + rewrite (IH _ _ _ W3). split; intros (r & H & Hc); exists r; [split; [now right|exact Hc]|].
      destruct H as [[= <- <-]|H]; [|auto]. unfold range_has in Hc. apply in_range_spec in Hc. congruence.
Qed.

Lemma rm_from_above m : forall k c, rm_from k m -> c < k -> rm_get c m = None.
Proof.
  induction m as [|[[a b] v] m IH]; intros k c W H; [reflexivity|]. destruct W as (W1 & W2 & W3). cbn [rm_get].
  unfold in_range. cbn [fst snd]. destruct (N.leb_spec a c); [lia|]. simpl. apply (IH (b + 1)); [exact W3|lia].
Qed.

Lemma rm_update_get m : forall k lo hi (f : option V -> V) c,
  k <= lo -> lo <= hi -> rm_from k m ->
  rm_get c (rm_update lo hi f m) = if in_range (lo, hi) c then Some (f (rm_get c m)) else rm_get c m.
Proof.
  assert (IR : forall a b c, in_range (a, b) c = (a <=? c) && (c <=? b)) by reflexivity.
  induction m as [|[[a b] v] m IH]; intros k lo hi f c K L W; cbn [rm_update].
  - reflexivity.
  - destruct W as (W1 & W2 & W3). destruct (N.ltb_spec b lo).
    + cbn [rm_get]. rewrite (IH (b + 1)) by (lia || exact W3). rewrite !IR.
      destruct (N.leb_spec a c), (N.leb_spec c b), (N.leb_spec lo c), (N.leb_spec c hi); simpl; try reflexivity; lia.
    + destruct (N.ltb_spec hi a).
      * cbn [rm_get]. rewrite !IR.
        destruct (N.leb_spec lo c), (N.leb_spec c hi); simpl; try reflexivity.
        destruct (N.leb_spec a c); simpl; [lia|]. f_equal. f_equal. symmetry. apply (rm_from_above m (b + 1)); [exact W3|lia].
      * assert (HR : rm_get c (if b <? hi then rm_update (b + 1) hi f m
                               else if hi <? b then ((hi + 1, b), v) :: m else m) =
                     if N.min b hi <? c then (if in_range (lo, hi) c then Some (f (rm_get c m))
                                              else if c <=? b then Some v else rm_get c m) else None).
        { destruct (N.ltb_spec b hi).
          - rewrite (IH (b + 1)) by (lia || exact W3). rewrite !IR.
            destruct (N.ltb_spec (N.min b hi) c).
            + destruct (N.leb_spec (b + 1) c); [|lia]. destruct (N.leb_spec lo c); [|lia].
              destruct (N.leb_spec c hi); simpl; [reflexivity|]. destruct (N.leb_spec c b); [lia|reflexivity].
            + destruct (N.leb_spec (b + 1) c); [lia|]. simpl. apply (rm_from_above m (b + 1)); [exact W3|lia].
          - destruct (N.ltb_spec hi b).
            + cbn [rm_get]. rewrite !IR. destruct (N.ltb_spec (N.min b hi) c).
              * destruct (N.leb_spec (hi + 1) c); [|lia]. destruct (N.leb_spec c hi); [lia|].
                rewrite andb_false_r. destruct (N.leb_spec c b); reflexivity.
              * destruct (N.leb_spec (hi + 1) c); [lia|]. simpl. apply (rm_from_above m (b + 1)); [exact W3|lia].
            + destruct (N.ltb_spec (N.min b hi) c).
              * rewrite IR. destruct (N.leb_spec c hi); [lia|]. rewrite andb_false_r. destruct (N.leb_spec c b); [lia|reflexivity].
              * apply (rm_from_above m (b + 1)); [exact W3|lia]. }
        rewrite IR in HR.
        destruct (N.ltb_spec a lo); [|destruct (N.ltb_spec lo a)]; cbn [app rm_get]; rewrite !IR;
          destruct (N.leb_spec a c); destruct (N.leb_spec c b); try lia;
          destruct (N.leb_spec lo c); try lia; destruct (N.leb_spec c hi); try lia;
          destruct (N.leb_spec (N.max a lo) c); try lia; destruct (N.leb_spec c (N.min b hi)); try lia;
          destruct (N.ltb_spec (N.min b hi) c); try lia;
          try destruct (N.leb_spec c (lo - 1)); try lia; try destruct (N.leb_spec c (a - 1)); try lia;
          cbn [andb] in *; try reflexivity;
          rewrite ?(rm_from_above m (b + 1) c W3) in * by lia; first [reflexivity|exact HR].
Qed.
End RangeMaps.

(** * Facts about [Base] *)

From Coq Require Import String List Bool Arith Lia Permutation Sorted.
Import ListNotations.
From Verif Require Import Base.

Section Cmp.
Context {A : Type} {C : Cmp A} {L : CmpLaws A}.

Lemma cmp_refl (a : A) : cmp a a = Eq.
Proof. apply cmp_eq; reflexivity. Qed.

Lemma eqb_eq (a b : A) : eqb a b = true <-> a = b.
Proof.
  unfold eqb. rewrite <- cmp_eq. destruct (cmp a b); split; congruence.
Qed.

Lemma eqb_refl (a : A) : eqb a a = true.
Proof. apply eqb_eq; reflexivity. Qed.

Lemma eqb_neq (a b : A) : eqb a b = false <-> a <> b.
Proof.
  rewrite <- eqb_eq. destruct (eqb a b); split; congruence.
Qed.

Lemma eqb_spec (a b : A) : reflect (a = b) (eqb a b).
Proof.
  destruct (eqb a b) eqn:E; constructor.
  - now apply eqb_eq.
  - now apply eqb_neq.
Qed.

Lemma cmp_eq_dec (a b : A) : {a = b} + {a <> b}.
Proof. destruct (eqb_spec a b); auto. Qed.

Lemma cmp_gt_lt (a b : A) : cmp a b = Gt <-> cmp b a = Lt.
Proof. rewrite (cmp_opp a b). destruct (cmp a b); simpl; split; congruence. Qed.

Definition lt (a b : A) : Prop := cmp a b = Lt.
Definition le (a b : A) : Prop := cmp a b <> Gt.

Lemma lt_irrefl a : ~ lt a a.
Proof. unfold lt. rewrite cmp_refl. congruence. Qed.

Lemma lt_trans a b c : lt a b -> lt b c -> lt a c.
Proof. apply cmp_trans. Qed.

Lemma le_refl a : le a a.
Proof. unfold le. rewrite cmp_refl. congruence. Qed.

Lemma le_lt_eq a b : le a b <-> lt a b \/ a = b.
Proof.
  unfold le, lt. rewrite <- cmp_eq. destruct (cmp a b); intuition congruence.
Qed.

Lemma le_trans a b c : le a b -> le b c -> le a c.
Proof.
  rewrite !le_lt_eq. intros [H| ->] [K| ->]; auto. left. eapply lt_trans; eauto.
Qed.

Lemma le_antisym a b : le a b -> le b a -> a = b.
Proof.
  rewrite !le_lt_eq. intros [H| ->] [K|K]; auto.
  exfalso. eapply lt_irrefl. eapply lt_trans; eauto.
Qed.

Lemma le_total a b : le a b \/ le b a.
Proof.
  unfold le. rewrite (cmp_opp a b). destruct (cmp a b); simpl; intuition congruence.
Qed.

(** Insertion sort sorts. *)
Lemma sort_insert_perm a l : Permutation (sort_insert a l) (a :: l).
Proof.
  induction l as [|b l IH]; simpl; auto.
  destruct (cmp a b); auto.
  rewrite IH. apply perm_swap.
Qed.

Lemma sort_perm l : Permutation (sort l) l.
Proof.
  induction l as [|a l IH]; simpl; auto.
  rewrite sort_insert_perm. auto.
Qed.

Lemma sort_insert_sorted a l : StronglySorted le l -> StronglySorted le (sort_insert a l).
Proof.
  induction 1 as [|b l Hs IH Hb]; simpl.
  - repeat constructor.
  - destruct (cmp a b) eqn:E.
    + constructor; [constructor; auto|].
      assert (le a b) by (unfold le; congruence).
      constructor; auto. eapply Forall_impl; [|exact Hb]. intros; eapply le_trans; eauto.
    + constructor; [constructor; auto|].
      assert (le a b) by (unfold le; congruence).
      constructor; auto. eapply Forall_impl; [|exact Hb]. intros; eapply le_trans; eauto.
    + constructor; auto.
      assert (le b a) by (apply cmp_gt_lt in E; unfold le; congruence).
      eapply Permutation_Forall; [symmetry; apply sort_insert_perm|].
      constructor; auto.
Qed.

Lemma sort_sorted l : StronglySorted le (sort l).
Proof.
  induction l as [|a l IH]; simpl.
  - constructor.
  - now apply sort_insert_sorted.
Qed.

(** Two sorted permutations are equal. *)
Lemma sorted_perm_eq l : forall l',
  StronglySorted le l -> StronglySorted le l' -> Permutation l l' -> l = l'.
Proof.
  induction l as [|a l IH]; intros l' Hl Hl' P.
  - apply Permutation_nil in P; congruence.
  - destruct l' as [|b l'].
    { symmetry in P. apply Permutation_nil in P. congruence. }
    inversion Hl as [|? ? Hs Ha]; subst.
    inversion Hl' as [|? ? Hs' Hb]; subst.
    assert (a = b) as ->.
    { apply le_antisym.
      - assert (In b (a :: l)) as [->|I].
        { eapply Permutation_in; [symmetry; exact P|now left]. }
        + apply le_refl.
        + eapply Forall_forall in Ha; eauto.
      - assert (In a (b :: l')) as [->|I].
        { eapply Permutation_in; [exact P|now left]. }
        + apply le_refl.
        + eapply Forall_forall in Hb; eauto. }
    f_equal. apply IH; auto. eapply Permutation_cons_inv; eauto.
Qed.

Lemma sort_perm_eq l l' : Permutation l l' -> sort l = sort l'.
Proof.
  intros P. apply sorted_perm_eq; try apply sort_sorted.
  now rewrite !sort_perm.
Qed.

Lemma sort_id l : StronglySorted le l -> sort l = l.
Proof.
  intros H. apply sorted_perm_eq; auto using sort_sorted, sort_perm.
Qed.

Lemma mem_In a l : mem a l = true <-> In a l.
Proof.
  induction l as [|b l IH]; simpl.
  - intuition congruence.
  - rewrite orb_true_iff, IH, eqb_eq. intuition congruence.
Qed.

(** Sets as strictly sorted lists. *)
Lemma set_insert_In a l x : In x (set_insert a l) <-> x = a \/ In x l.
Proof.
  induction l as [|b l IH]; simpl.
  - intuition congruence.
  - destruct (cmp a b) eqn:E; simpl.
    + apply cmp_eq in E; subst. intuition congruence.
    + intuition congruence.
    + rewrite IH. intuition congruence.
Qed.

Lemma set_insert_sorted a l : StronglySorted lt l -> StronglySorted lt (set_insert a l).
Proof.
  induction 1 as [|b l Hs IH Hb]; simpl.
  - repeat constructor.
  - destruct (cmp a b) eqn:E.
    + constructor; auto.
    + constructor; [constructor; auto|].
      constructor; auto. eapply Forall_impl; [|exact Hb]. intros; eapply lt_trans; eauto.
    + constructor; auto.
      apply Forall_forall. intros x Hx. apply set_insert_In in Hx as [->|Hx].
      * now apply cmp_gt_lt.
      * eapply Forall_forall in Hb; eauto.
Qed.

Lemma sorted_lt_NoDup l : StronglySorted lt l -> NoDup l.
Proof.
  induction 1 as [|b l Hs IH Hb]; constructor; auto.
  intros I. eapply Forall_forall in Hb; eauto. now apply lt_irrefl in Hb.
Qed.

Lemma sorted_lt_ext l : forall l',
  StronglySorted lt l -> StronglySorted lt l' -> (forall x, In x l <-> In x l') -> l = l'.
Proof.
  intros l' H H' E. apply sorted_perm_eq.
  - clear -H L. induction H as [|a l Hs IH Ha]; constructor; auto.
    eapply Forall_impl; [|exact Ha]. intros b Hb. apply le_lt_eq; auto.
  - clear -H' L. induction H' as [|a l Hs IH Ha]; constructor; auto.
    eapply Forall_impl; [|exact Ha]. intros b Hb. apply le_lt_eq; auto.
  - apply NoDup_Permutation; auto using sorted_lt_NoDup.
Qed.

Lemma dedup_In l x : In x (dedup l) <-> In x l.
Proof.
  induction l as [|a l IH]; [simpl; tauto|].
  destruct l as [|b l].
  - simpl; tauto.
  - change (dedup (a :: b :: l)) with (if eqb a b then dedup (b :: l) else a :: dedup (b :: l)).
    destruct (eqb_spec a b) as [->|N].
    + rewrite IH. simpl. tauto.
    + simpl In at 1. rewrite IH. simpl. tauto.
Qed.

Lemma dedup_sorted l : StronglySorted le l -> StronglySorted lt (dedup l).
Proof.
  induction l as [|a l IH]; intros H.
  - constructor.
  - inversion H as [|? ? Hs Ha]; subst.
    destruct l as [|b l].
    + repeat constructor.
    + change (dedup (a :: b :: l)) with (if eqb a b then dedup (b :: l) else a :: dedup (b :: l)).
      destruct (eqb_spec a b) as [->|N]; auto.
      constructor; auto.
      apply Forall_forall. intros x Hx. rewrite dedup_In in Hx.
      inversion Ha as [|? ? Hab Hal]; subst.
      assert (lt a b) by (apply le_lt_eq in Hab; intuition).
      destruct Hx as [->|Hx]; auto.
      inversion Hs as [|? ? _ Hb]; subst.
      eapply Forall_forall in Hb; eauto.
      apply le_lt_eq in Hb as [Hb| ->]; auto. eapply lt_trans; eauto.
Qed.

(** Maps. *)
Section Map.
Context {V : Type}.

Definition keys (m : list (A * V)) : list A := map fst m.
Definition bt_wf (m : list (A * V)) : Prop := StronglySorted lt (keys m).

Lemma bt_get_In (m : list (A * V)) (k : A) (v : V) : bt_get k m = Some v -> In (k, v) m.
Proof.
  induction m as [|[k' v'] m IH]; simpl; [congruence|].
  destruct (eqb_spec k k') as [->|N]; intros H; [injection H as ->; auto|auto].
Qed.

Lemma bt_get_wf (m : list (A * V)) (k : A) (v : V) : bt_wf m -> In (k, v) m -> bt_get k m = Some v.
Proof.
  intros W. apply sorted_lt_NoDup in W. unfold keys in W.
  induction m as [|[k' v'] m IH]; simpl; [tauto|].
  simpl in W. inversion W as [|? ? N W']; subst.
  intros [E|I].
  - injection E as -> ->. now rewrite eqb_refl.
  - destruct (eqb_spec k k') as [->|]; auto.
    exfalso. apply N. apply in_map_iff. now exists (k', v).
Qed.

Lemma bt_get_None (m : list (A * V)) (k : A) : bt_get k m = None <-> ~ In k (keys m).
Proof.
  induction m as [|[k' v'] m IH]; simpl; [tauto|].
  destruct (eqb_spec k k') as [->|N].
  - split; [congruence|]. intros H; exfalso; apply H; auto.
  - rewrite IH. intuition.
Qed.

Lemma bt_insert_keys (m : list (A * V)) (k : A) (v : V) x : In x (keys (bt_insert k v m)) <-> x = k \/ In x (keys m).
Proof.
  induction m as [|[k' v'] m IH]; simpl.
  - intuition congruence.
  - destruct (cmp k k') eqn:E; simpl.
    + apply cmp_eq in E; subst. intuition congruence.
    + intuition congruence.
    + rewrite IH. intuition congruence.
Qed.

Lemma bt_insert_wf (m : list (A * V)) (k : A) (v : V) : bt_wf m -> bt_wf (bt_insert k v m).
Proof.
  unfold bt_wf. induction m as [|[k' v'] m IH]; simpl; intros W.
  - repeat constructor.
  - inversion W as [|? ? Hs Hb]; subst.
    destruct (cmp k k') eqn:E; simpl.
    + constructor; auto.
    + constructor; [constructor; auto|].
      constructor; auto. eapply Forall_impl; [|exact Hb]. intros; eapply lt_trans; eauto.
    + constructor; auto.
      apply Forall_forall. intros x Hx. apply bt_insert_keys in Hx as [->|Hx].
      * now apply cmp_gt_lt.
      * eapply Forall_forall in Hb; eauto.
Qed.

Lemma bt_insert_get (m : list (A * V)) (k : A) (v : V) k' :
  bt_get k' (bt_insert k v m) = if eqb k' k then Some v else bt_get k' m.
Proof.
  induction m as [|[k0 v0] m IH]; simpl.
  - reflexivity.
  - destruct (cmp k k0) eqn:E; simpl.
    + apply cmp_eq in E; subst. now destruct (eqb k' k0).
    + reflexivity.
    + rewrite IH. destruct (eqb_spec k' k0) as [->|N]; auto.
      destruct (eqb_spec k0 k) as [->|]; auto.
      rewrite cmp_refl in E; congruence.
Qed.

Lemma bt_ext (m m' : list (A * V)) : bt_wf m -> bt_wf m' -> (forall k, bt_get k m = bt_get k m') -> m = m'.
Proof.
  intros W W' E.
  assert (K : keys m = keys m').
  { apply sorted_lt_ext; auto. intros x.
    pose proof (bt_get_None m x) as N. pose proof (bt_get_None m' x) as N'.
    rewrite E in N. rewrite N in N'.
    destruct (in_dec cmp_eq_dec x (keys m)), (in_dec cmp_eq_dec x (keys m')); tauto. }
  assert (G : forall k v, In (k, v) m <-> In (k, v) m').
  { intros k v; split; intros I; apply bt_get_In; [rewrite <- E|rewrite E]; now apply bt_get_wf. }
  clear E. apply sorted_lt_NoDup in W, W'. unfold keys in *. revert m' K W' G.
  induction m as [|[k v] m IH]; intros [|[k' v'] m'] K W' G; simpl in K; try congruence.
  injection K as -> K. simpl in W, W'.
  inversion W as [|? ? N Wm]; subst. inversion W' as [|? ? N' Wm']; subst.
  assert (v = v') as ->.
  { destruct (proj1 (G k' v)) as [I|I]; [now left|congruence|].
    exfalso. apply N'. apply in_map_iff. now exists (k', v). }
  f_equal. apply IH; auto.
  intros k v0. split; intros I.
  - destruct (proj1 (G k v0)) as [I'|I']; [now right| |auto].
    injection I' as -> ->. exfalso. apply N. apply in_map_iff. now exists (k, v0).
  - destruct (proj2 (G k v0)) as [I'|I']; [now right| |auto].
    injection I' as -> ->. exfalso. apply N'. apply in_map_iff. now exists (k, v0).
Qed.

Lemma bt_collect_wf (l : list (A * V)) : bt_wf (bt_collect l).
Proof.
  unfold bt_collect.
  assert (forall m, bt_wf m ->
    bt_wf (fold_left (fun m kv => bt_insert (fst kv) (snd kv) m) l m)) as H.
  { induction l as [|a l IH]; simpl; auto using bt_insert_wf. }
  apply H. constructor.
Qed.

End Map.
End Cmp.

(** Inversion of [bind]. *)
Lemma bind_Ok {E A B} (m : outcome E A) (k : A -> outcome E B) b :
  bind m k = Ok b -> exists a, m = Ok a /\ k a = Ok b.
Proof. destruct m; simpl; intros H; try congruence. eauto. Qed.

Lemma mapM_Ok {E A B} (f : A -> outcome E B) l l' :
  mapM f l = Ok l' <-> Forall2 (fun a b => f a = Ok b) l l'.
Proof.
  revert l'. induction l as [|a l IH]; simpl; intros l'.
  - split; [intros [= <-]; constructor|]. inversion 1; auto.
  - split.
    + intros H. apply bind_Ok in H as (b & Hb & H).
      apply bind_Ok in H as (bs & Hbs & H). injection H as <-.
      constructor; auto. now apply IH.
    + inversion 1; subst. rewrite H2. simpl.
      rewrite (proj2 (IH _) H4). reflexivity.
Qed.

(** Instances of [Cmp]. *)
Global Instance cmp_nat : Cmp nat := Nat.compare.
Global Instance cmp_nat_laws : CmpLaws nat.
Proof.
  split; unfold cmp, cmp_nat; intros.
  - apply Nat.compare_eq_iff.
  - apply Nat.compare_antisym.
  - rewrite Nat.compare_lt_iff in *. lia.
Qed.

Global Instance cmp_option {A} `{Cmp A} : Cmp (option A) := fun a b =>
  match a, b with
  | None, None => Eq
  | None, Some _ => Lt
  | Some _, None => Gt
  | Some a, Some b => cmp a b
  end.
Global Instance cmp_option_laws {A} `{CmpLaws A} : CmpLaws (option A).
Proof.
  split; unfold cmp, cmp_option; intros.
  - destruct a, b; split; try congruence.
    + intros E. apply cmp_eq in E. congruence.
    + intros [= ->]. now apply cmp_eq.
  - destruct a, b; auto. apply cmp_opp.
  - destruct a, b, c; try congruence. eapply cmp_trans; eauto.
Qed.

Global Instance cmp_prod {A B} `{Cmp A} `{Cmp B} : Cmp (A * B) := fun a b =>
  match cmp (fst a) (fst b) with
  | Eq => cmp (snd a) (snd b)
  | c => c
  end.
Lemma cmp_pair {A B} `{Cmp A} `{Cmp B} (a1 b1 : A) (a2 b2 : B) :
  cmp (a1, a2) (b1, b2) = match cmp a1 b1 with Eq => cmp a2 b2 | c => c end.
Proof. reflexivity. Qed.
Global Instance cmp_prod_laws {A B} `{CmpLaws A} `{CmpLaws B} : CmpLaws (A * B).
Proof.
  split.
  - intros [a1 a2] [b1 b2]. rewrite cmp_pair.
    destruct (cmp a1 b1) eqn:E.
    + apply cmp_eq in E; subst. rewrite cmp_eq. split; congruence.
    + split; [congruence|]. intros [= -> ->]. rewrite cmp_refl in E; congruence.
    + split; [congruence|]. intros [= -> ->]. rewrite cmp_refl in E; congruence.
  - intros [a1 a2] [b1 b2]. rewrite !cmp_pair.
    rewrite (cmp_opp a1 b1). destruct (cmp a1 b1); simpl; auto. apply cmp_opp.
  - intros [a1 a2] [b1 b2] [c1 c2]. rewrite !cmp_pair. intros X Y.
    destruct (cmp a1 b1) eqn:E1; try congruence.
    + apply cmp_eq in E1; subst. destruct (cmp b1 c1) eqn:E2; try congruence.
      eapply cmp_trans; eauto.
    + destruct (cmp b1 c1) eqn:E2; try congruence.
      * apply cmp_eq in E2; subst. now rewrite E1.
      * now rewrite (cmp_trans _ _ _ E1 E2).
Qed.

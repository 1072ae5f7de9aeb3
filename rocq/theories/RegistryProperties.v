(** * Registries and dependencies (C49, C50, C51) *)

From Coq Require Import String List Bool Arith NArith Sorted Lia.
Import ListNotations.
From Verif Require Import Base BaseProofs PatternModel ValueModel LayoutModel LayoutSpec.
Open Scope list_scope.

Section Union.
Context {R : Type}.

(** ** C49: [a.with(b)]

    The definitions found in the union are those of [a], and those of [b] for the references
    unknown to [a]. *)
Theorem C49_union_get (a b : registry R) (r : R) (l : layout R) :
  union_get (reg_with a b) r = Some l <-> a r = Some l \/ (a r = None /\ b r = Some l).
Proof.
  unfold union_get, reg_with. cbn [u_0 u_1]. destruct (a r) as [l'|]; split.
  - now left.
  - intros [H|[H _]]; [assumption|discriminate].
  - now right.
  - intros [H|[_ H]]; [discriminate|assumption].
Qed.

Theorem C49_union_contains (a b : registry R) (r : R) :
  contains (union_get (reg_with a b)) r = true <->
  (exists l, a r = Some l) \/ (exists l, b r = Some l).
Proof.
  unfold contains, union_get, reg_with. cbn [u_0 u_1]. destruct (a r) as [l|].
  - split; [left; now exists l|reflexivity].
  - destruct (b r) as [l|]; split; try (discriminate || reflexivity).
    + right; now exists l.
    + intros [[l' H]|[l' H]]; discriminate.
Qed.

(** The method [contains] of the references and of the optional registries agrees with [get]. *)
Theorem C49_optional (o : option (registry R)) (r : R) (l : layout R) :
  option_get o r = Some l <-> exists reg, o = Some reg /\ reg r = Some l.
Proof.
  destruct o as [reg|]; cbn; split.
  - intros H. now exists reg.
  - intros [reg' [E H]]. now injection E as ->.
  - discriminate.
  - intros [reg' [E _]]. discriminate.
Qed.

(** A chain of unions looks the registries up from the first to the last. *)
Theorem C49_chain (a b c : registry R) (r : R) :
  union_get (reg_with (union_get (reg_with a b)) c) r =
  union_get (reg_with a (union_get (reg_with b c))) r.
Proof. unfold union_get, reg_with. cbn [u_0 u_1]. now destruct (a r). Qed.
End Union.

Section Insert.
Context {R : Type} {CR : Cmp R} {LR : CmpLaws R}.

(** ** C50: [Layouts::insert] *)

(** The successive calls [insert(r, l)] on a collection: the final collection and the values
    returned by the calls. *)
Fixpoint insertions (h : list (R * layout R)) (m : layouts R)
  : layouts R * list (option (layout R)) :=
  match h with
  | [] => (m, [])
  | (r, l) :: h' =>
      let (m', old) := layouts_insert r l m in
      let (m'', olds) := insertions h' m' in
      (m'', old :: olds)
  end.

(** [latest h r d]: [d] is the last definition given to [r] in the history [h], if any. *)
Inductive latest (h : list (R * layout R)) (r : R) : option (layout R) -> Prop :=
| latest_some h1 l h2 : h = h1 ++ (r, l) :: h2 -> ~ In r (map fst h2) -> latest h r (Some l)
| latest_none : ~ In r (map fst h) -> latest h r None.

Theorem C50_insert (m : layouts R) (r r' : R) (l : layout R) :
  let (m', old) := layouts_insert r l m in
  old = layouts_get m r /\
  layouts_get m' r = Some l /\
  (r' <> r -> layouts_get m' r' = layouts_get m r').
Proof.
  cbn. unfold layouts_get. split; [reflexivity|]. rewrite !bt_insert_get.
  destruct (eqb_spec r r) as [_|N]; [|easy]. split; [reflexivity|]. intros N.
  destruct (eqb_spec r' r) as [E|_]; [easy|reflexivity].
Qed.

Lemma latest_exists (h : list (R * layout R)) (r : R) : exists d, latest h r d.
Proof.
  induction h as [|[r' l] h [d IH]].
  - exists None. now constructor.
  - inversion IH as [h1 l' h2 E N|N]; subst.
    + exists (Some l'). now apply (latest_some _ _ ((r', l) :: h1) l' h2).
    + destruct (cmp_eq_dec r r') as [->|D].
      * exists (Some l). now apply (latest_some _ _ [] l h).
      * exists None. constructor. cbn. intros [->|I]; contradiction.
Qed.

Lemma latest_snoc h r l r' d :
  latest (h ++ [(r, l)]) r' d <-> (r' = r /\ d = Some l) \/ (r' <> r /\ latest h r' d).
Proof.
  split.
  - intros L. inversion L as [h1 l' h2 E N|N]; subst.
    + destruct h2 as [|p h2] using rev_ind.
      * apply app_inj_tail in E as [-> E]. injection E as -> ->. now left.
      * clear IHh2. assert (E' : h ++ [(r, l)] = (h1 ++ (r', l') :: h2) ++ [p]).
        { rewrite E, <- app_assoc. reflexivity. }
        apply app_inj_tail in E' as [-> <-]. right. split.
        -- intros ->. apply N. rewrite map_app. apply in_or_app. right. now left.
        -- apply (latest_some _ _ h1 l' h2); [reflexivity|]. intros I. apply N.
           rewrite map_app. apply in_or_app. now left.
    + right. split.
      * intros ->. apply N. rewrite map_app. apply in_or_app. right. now left.
      * constructor. intros I. apply N. rewrite map_app. apply in_or_app. now left.
  - intros [[-> ->]|[D L]].
    + now apply (latest_some _ _ h l []).
    + inversion L as [h1 l' h2 E N|N]; subst.
      * apply (latest_some _ _ h1 l' (h2 ++ [(r, l)])).
        -- now rewrite <- app_assoc.
        -- rewrite map_app. intros [I|[E|[]]]%in_app_or; [now apply N|now apply D].
      * constructor. rewrite map_app. intros [I|[E|[]]]%in_app_or; [now apply N|now apply D].
Qed.

Lemma insertions_app h h' m :
  insertions (h ++ h') m =
  let (m', olds) := insertions h m in
  let (m'', olds') := insertions h' m' in (m'', olds ++ olds').
Proof.
  revert m. induction h as [|[r l] h IH]; intros m; cbn [app insertions].
  - now destruct (insertions h' m).
  - unfold layouts_insert. rewrite IH. destruct (insertions h _) as [m1 o1].
    now destruct (insertions h' m1).
Qed.

Lemma insertions_get h r :
  latest h r (layouts_get (fst (insertions h [])) r).
Proof.
  induction h as [|[r' l] h IH] using rev_ind.
  - cbn. constructor. easy.
  - rewrite insertions_app. destruct (insertions h []) as [m olds]. cbn [insertions layouts_insert fst] in *.
    apply latest_snoc. unfold layouts_get in *. rewrite bt_insert_get.
    destruct (eqb_spec r r') as [->|N]; [now left|right]. now split.
Qed.

(** After any history of insertions into a new collection, the definition found is the latest
    one. *)
Theorem C50_history (h : list (R * layout R)) (r : R) :
  latest h r (layouts_get (fst (insertions h [])) r).
Proof. apply insertions_get. Qed.

Lemma insertions_length h m : length (snd (insertions h m)) = length h.
Proof.
  revert m. induction h as [|[r l] h IH]; intros m; [reflexivity|]. cbn [insertions layouts_insert].
  specialize (IH (bt_insert r l m)). destruct (insertions h _). cbn in *. now rewrite IH.
Qed.

(** Every insertion returns the latest definition given before it. *)
Theorem C50_returned (h1 h2 : list (R * layout R)) (r : R) (l : layout R) :
  exists d, nth_error (snd (insertions (h1 ++ (r, l) :: h2) [])) (length h1) = Some d /\
            latest h1 r d.
Proof.
  rewrite insertions_app. pose proof (insertions_get h1 r) as G.
  pose proof (insertions_length h1 []) as L.
  destruct (insertions h1 []) as [m olds]. cbn [insertions layouts_insert fst snd] in *.
  exists (layouts_get m r). split; [|assumption].
  destruct (insertions h2 _) as [m'' olds']. cbn [snd].
  rewrite <- L, nth_error_app2, Nat.sub_diag by lia. reflexivity.
Qed.

(** The definitions listed by the iterator: in the order of the references, without repetition,
    exactly those found by [get]. *)
Theorem C50_iter (h : list (R * layout R)) :
  let m := fst (insertions h []) in
  StronglySorted lt (map fst m) /\
  forall r l, In (r, l) m <-> latest h r (Some l).
Proof.
  cbn zeta. assert (W : bt_wf (fst (insertions h []))).
  { assert (G : forall h (m : layouts R), bt_wf m -> bt_wf (fst (insertions h m))).
    { clear h. induction h as [|[r l] h IH]; intros m W; [assumption|].
      cbn [insertions layouts_insert]. specialize (IH _ (bt_insert_wf _ r l W)).
      now destruct (insertions h _). }
    apply G. constructor. }
  split; [exact W|]. intros r l. pose proof (insertions_get h r) as G.
  split; intros H.
  - unfold layouts_get in G. now rewrite (bt_get_wf _ _ _ W H) in G.
  - unfold layouts_get in G.
    assert (U : forall d d', latest h r d -> latest h r d' -> d = d').
    { clear. induction h as [|[r' l'] h IH] using rev_ind; intros d d' A B.
      - inversion A as [h1 ? ? E N|N]; subst; [now destruct h1|].
        inversion B as [h1 ? ? E N'|N']; subst; [now destruct h1|reflexivity].
      - apply latest_snoc in A. apply latest_snoc in B.
        destruct A as [[-> ->]|[D A]], B as [[E ->]|[D' B]]; try easy. now apply IH. }
    apply bt_get_In. now apply U.
Qed.

(** ** C51: [Layout::dependencies] *)
Theorem C51_dependencies_sorted (l : layout R) : StronglySorted lt (dependencies l).
Proof. unfold dependencies. apply dedup_sorted, sort_sorted. Qed.

Lemma visit_uses (l : layout R) (r : R) : In r (visit_dependencies l) <-> uses l r.
Proof.
  destruct l as [| | | | |h fs|h vs|h it|h node hd tl|h its]; cbn [visit_dependencies];
    try (split; [now intros []|intros U; now inversion U]).
  - rewrite in_map_iff. split.
    + intros [[k f] [<- I]]. now apply U_field with k.
    + intros U. inversion U as [? ? k f I| | | |]; subst. now exists (k, f).
  - rewrite in_map_iff. split.
    + intros [va [<- I]]. now apply U_variant.
    + intros U. inversion U as [|? ? va I| | |]; subst. now exists va.
  - split; [intros [<-|[]]; constructor|intros U; inversion U; now left].
  - split; [intros [<-|[]]; constructor|intros U; inversion U; now left].
  - rewrite in_map_iff. split.
    + intros [it [<- I]]. now apply U_tuple.
    + intros U. inversion U as [| | | |? ? it I]; subst. now exists it.
Qed.

Theorem C51_dependencies_exact (l : layout R) (r : R) : In r (dependencies l) <-> uses l r.
Proof.
  unfold dependencies. rewrite dedup_In, <- visit_uses. split; intros I.
  - now apply (Permutation.Permutation_in _ (sort_perm _)).
  - now apply (Permutation.Permutation_in _ (Permutation.Permutation_sym (sort_perm _))).
Qed.
End Insert.

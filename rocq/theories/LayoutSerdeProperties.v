(** * C106: compiled layouts written and read with serde *)

From Coq Require Import String Ascii List Bool Arith NArith ZArith QArith Qcanon Sorting.Sorted Lia.
Import ListNotations.
From Verif Require Import Base BaseProofs Orders PatternModel MatchingModel ValueModel LayoutModel HydrateModel RegexpModel AbsModel DehydrateModel
  JsonModel JsonSpec JsonProperties AutomatonModel AutomatonSpec AutomatonProofs AutomatonMap AutomatonProperties
  AbsSerdeModel AbsSerdeProofs LayoutSerdeModel LayoutSerdeSpec LayoutSerdeProofs.
Open Scope list_scope.
Open Scope nat_scope.

(** ** The relations *)
Section Relations.
Context {R : Type}.

Lemma automaton_back_same d : automaton_ok d -> same_language d (automaton_back d).
Proof.
  intros (_ & W & _). unfold same_language, automaton_back. cbn [da_initial da_final da_transitions]. split; [reflexivity|].
  split; [reflexivity|]. split; [apply (C63_transitions _ (da_initial d) (da_final d) W)|]. exact (C63_language range_has _ W).
Qed.

Lemma item_back_same (i : item_layout R) : same_item without_default i (item_back i).
Proof.
  split; [reflexivity|]. split; [|reflexivity]. split; [reflexivity|]. split; [reflexivity|].
  cbn. destruct (vf_graph (it_value i)) as [[p|]|]; reflexivity.
Qed.

Lemma Forall2_map_r {A B} (P : A -> B -> Prop) f l : (forall a, In a l -> P a (f a)) -> Forall2 P l (map f l).
Proof. induction l as [|a l IH]; intros H; constructor; [apply H; now left|apply IH; intros; apply H; now right]. Qed.

Lemma layout_back_same (l : layout R) : (forall d, In d (automata_of l) -> automaton_ok d) ->
  same without_default same_language l (layout_back l).
Proof.
  intros A.
  assert (P : forall p, (forall d, p = Some d -> automaton_ok d) -> same_pattern same_language p (option_map automaton_back p)).
  { intros [d|] H; [|exact I]. cbn. apply automaton_back_same. auto. }
  destruct l as [| |h c|k h r d|h r p|h fs|h vs|h it|h nd a b|h its]; cbn [layout_back]; try constructor.
  - destruct k as [| | |p]; try (constructor; discriminate). constructor. apply P. intros d' ->. apply A. now left.
  - apply P. intros d' ->. apply A. now left.
  - apply Forall2_map_r. intros [k f] _. split; [reflexivity|]. split; [apply item_back_same|reflexivity].
  - apply Forall2_map_r. intros v _. split; [reflexivity|apply item_back_same].
  - apply item_back_same.
  - apply item_back_same.
  - apply Forall2_map_r. intros i _. apply item_back_same.
Qed.

Lemma same_weaken (g g' : option (option (pattern R)) -> option (option (pattern R)) -> Prop) (a : det_automaton nat -> det_automaton nat -> Prop) l l' :
  same g a l l' -> (forall i x, In i (items_of l) -> g (vf_graph (it_value i)) x -> g' (vf_graph (it_value i)) x) -> same g' a l l'.
Proof.
  intros S H.
  assert (IT : forall i i', In i (items_of l) -> same_item g i i' -> same_item g' i i').
  { intros i i' Ii (E1 & (E2 & E3 & E4) & E5). split; [exact E1|]. split; [|exact E5]. split; [exact E2|]. split; [exact E3|]. auto. }
  destruct S as [| | | | | |h fs fs' S|h vs vs' S|h i i' S|h i i' a' b S|h l0 l0' S]; constructor; auto.
  - cbn [items_of] in IT. clear H. induction S as [|[k f] [k' f'] fs fs' (E1 & E2 & E3) S IH]; constructor.
    + split; [exact E1|]. split; [|exact E3]. apply IT; [now left|exact E2].
    + apply IH. intros; apply IT; [now right|assumption].
  - cbn [items_of] in IT. clear H. induction S as [|v v' vs vs' (E1 & E2) S IH]; constructor.
    + split; [exact E1|]. apply IT; [now left|exact E2].
    + apply IH. intros; apply IT; [now right|assumption].
  - apply IT; [now left|exact S].
  - apply IT; [now left|exact S].
  - cbn [items_of] in IT. clear H. induction S as [|i i' l0 l0' E S IH]; constructor; [apply IT; [now left|exact E]|].
    apply IH. intros; apply IT; [now right|assumption].
Qed.

Lemma same_item_eq (i i' : item_layout R) : same_item eq i i' -> i = i'.
Proof.
  destruct i as [n [l p g] d], i' as [n' [l' p' g'] d']. intros (E1 & (E2 & E3 & E4) & E5). cbn in *. congruence.
Qed.

Lemma Forall2_eq {A} (P : A -> A -> Prop) l l' : (forall a b, P a b -> a = b) -> Forall2 P l l' -> l = l'.
Proof. intros H F. induction F as [|a b l l' E F IH]; [reflexivity|]. rewrite (H a b E). now rewrite IH. Qed.

(** With equal graphs, only the automata may differ. *)
Lemma same_cases (a : det_automaton nat -> det_automaton nat -> Prop) (l l' : layout R) : same eq a l l' ->
  l = l' \/ (exists p p' h r d, same_pattern a p p' /\ l = DataL (KTextString p) h r d /\ l' = DataL (KTextString p') h r d) \/
  (exists p p' h r, same_pattern a p p' /\ l = IdL h r p /\ l' = IdL h r p').
Proof.
  intros S. destruct S as [| | | |p p' h r d S|h r p p' S|h fs fs' S|h vs vs' S|h i i' S|h i i' a' b S|h l0 l0' S]; try (now left).
  - right. left. exists p, p', h, r, d. auto.
  - right. right. exists p, p', h, r. auto.
  - left. f_equal. revert S. apply Forall2_eq. intros [k [f b]] [k' [f' b']] (E1 & E2 & E3). cbn in *. apply same_item_eq in E2. congruence.
  - left. f_equal. revert S. apply Forall2_eq. intros [k f] [k' f'] (E1 & E2). cbn in *. apply same_item_eq in E2. congruence.
  - left. apply same_item_eq in S. now subst.
  - left. apply same_item_eq in S. now subst.
  - left. f_equal. revert S. apply Forall2_eq. intros i i'. apply same_item_eq.
Qed.

Lemma bt_get_In_iff {K V} {CK : Cmp K} {LK : CmpLaws K} (k : K) (v : V) m : bt_wf m -> (bt_get k m = Some v <-> In (k, v) m).
Proof. intros W. split; [apply bt_get_In|now apply bt_get_wf]. Qed.

Lemma insert_In {K V} {CK : Cmp K} (k : K) (v : V) m k' v' : In (k', v') (bt_insert k v m) -> v' = v \/ In (k', v') m.
Proof.
  induction m as [|[k0 v0] m IH]; cbn [bt_insert].
  - intros [[= _ ->]|[]]. now left.
  - destruct (cmp k k0).
    + intros [[= _ ->]|I0]; [now left|right; now right].
    + intros [[= _ ->]|I0]; [now left|now right].
    + intros [E|I0]; [right; now left|]. destruct (IH I0) as [E|I1]; [now left|right; now right].
Qed.

(** ** Reading an automaton without states that have no transitions *)
Lemma automaton_back_eq d : automaton_ok d -> (forall q ts, In (q, ts) (da_transitions d) -> ts <> []) -> automaton_back d = d.
Proof.
  intros (_ & W & _) N. destruct d as [i f t]. unfold automaton_back. cbn [da_initial da_final da_transitions] in *. f_equal.
  destruct (C63_transitions _ i f W) as [W' E]. cbn [serialize_transitions] in *.
  set (t' := deserialize_transitions (serialize_transitions {| d_initial := i; d_final := f; d_transitions := t |})) in *.
  destruct W as [W1 W2], W' as [W1' W2']. cbn [d_transitions] in *. unfold d_edge in E. cbn [d_transitions] in E.
  assert (N' : forall q ts, In (q, ts) t' -> ts <> []).
  { assert (K : forall l (m : list (nat * list (range * nat))), (forall q ts, In (q, ts) m -> ts <> []) -> forall q ts,
        In (q, ts) (fold_left (fun m (t : nat * (range * nat)) =>
          bt_insert (fst t) (bt_insert (fst (snd t)) (snd (snd t)) (AutomatonModel.entry (fst t) [] m)) m) l m) -> ts <> []).
    { induction l as [|x l IH]; intros m Hm q ts; [apply Hm|]. cbn [fold_left]. apply IH. intros q0 ts0 I0.
      apply insert_In in I0 as [->|I0]; [|now apply (Hm q0)].
      intros Z. assert (X : bt_get (fst (snd x)) (bt_insert (fst (snd x)) (snd (snd x)) (AutomatonModel.entry (fst x) [] m)) = Some (snd (snd x))).
      { rewrite bt_insert_get. now rewrite eqb_refl. }
      rewrite Z in X. discriminate X. }
    apply K. intros ? ? []. }
  apply bt_ext; [exact W1'|exact W1|]. intros q.
  assert (GET : forall m : list (nat * list (range * nat)), bt_wf m -> forall ts, bt_get q m = Some ts <-> In (q, ts) m).
  { intros m Wm ts. now apply bt_get_In_iff. }
  assert (SUB : forall (m m' : list (nat * list (range * nat))), bt_wf m -> bt_wf m' ->
      (forall q ts, In (q, ts) m -> bt_wf ts) -> (forall q ts, In (q, ts) m' -> bt_wf ts) -> (forall q ts, In (q, ts) m -> ts <> []) ->
      (forall q l r, (exists ts, In (q, ts) m /\ In (l, r) ts) <-> (exists ts, In (q, ts) m' /\ In (l, r) ts)) ->
      forall ts, In (q, ts) m -> In (q, ts) m').
  { intros m m' Wm Wm' Wi Wi' Nm Em ts I0. destruct ts as [|[l r] ts]; [now elim (Nm q [] I0)|].
    destruct (proj1 (Em q l r)) as (ts' & I1 & I2); [exists ((l, r) :: ts); split; [exact I0|now left]|].
    replace ((l, r) :: ts) with ts'; [exact I1|].
    apply bt_ext; [now apply (Wi' q)|now apply (Wi q)|]. intros l0.
    assert (G2 : forall v, bt_get l0 ts' = Some v <-> bt_get l0 ((l, r) :: ts) = Some v).
    { intros v. rewrite (bt_get_In_iff l0 v ts' (Wi' _ _ I1)), (bt_get_In_iff l0 v _ (Wi _ _ I0)). split; intros Hv.
      - destruct (proj2 (Em q l0 v)) as (ts2 & J1 & J2); [now exists ts'|].
        apply (bt_get_In_iff q _ _ Wm) in J1. apply (bt_get_In_iff q _ _ Wm) in I0. congruence.
      - destruct (proj1 (Em q l0 v)) as (ts2 & J1 & J2); [now exists ((l, r) :: ts)|].
        apply (bt_get_In_iff q _ _ Wm') in J1. apply (bt_get_In_iff q _ _ Wm') in I1. congruence. }
    destruct (bt_get l0 ts') as [v|] eqn:X; [symmetry; now apply G2|].
    destruct (bt_get l0 ((l, r) :: ts)) as [v|] eqn:Y; [|reflexivity]. discriminate (proj2 (G2 v) eq_refl). }
  assert (G : forall ts, bt_get q t' = Some ts <-> bt_get q t = Some ts).
  { intros ts. rewrite !GET by assumption. split; intros I0.
    - apply (SUB t' t); auto.
    - apply (SUB t t'); auto. intros. symmetry. apply E. }
  destruct (bt_get q t') as [v|] eqn:X; [symmetry; now apply G|].
  destruct (bt_get q t) as [v|] eqn:Y; [|reflexivity]. discriminate (proj2 (G v) eq_refl).
Qed.
End Relations.

(** ** Hydration and dehydration do not read the automata *)
Section Hydrate.
Context {R : Type} {CR : Cmp R} {I : Interp R} {X : Xsd}.
Variable D : dataset R.

Section Rec.
Context (rec rec' : option R -> R -> list R -> outcome (hy_error R) (typed_value R)).
Hypothesis RR : forall g r i, rec g r i = rec' g r i.

Lemma format_rec g f s : hydrate_format rec g f s = hydrate_format rec' g f s.
Proof.
  unfold hydrate_format. destruct (select_inputs (vf_input f) s); cbn [bind]; try reflexivity.
  destruct (select_graph g (vf_graph f) s); cbn [bind]; try reflexivity. apply RR.
Qed.

Lemma variants_rec g ref s vs : forall i sel, hydrate_variants D rec g ref s i vs sel = hydrate_variants D rec' g ref s i vs sel.
Proof.
  induction vs as [|v vs IH]; intros i sel; cbn [hydrate_variants]; [reflexivity|].
  destruct (match_unique _ _ _ _ _) as [[s'|]| | |]; cbn [bind]; try reflexivity; [|apply IH].
  rewrite format_rec. destruct (hydrate_format rec' _ _ _); try reflexivity; [|apply IH]. destruct sel; [reflexivity|apply IH].
Qed.

Lemma fields_rec g ref s fs : forall rd, hydrate_fields D rec g ref s fs rd = hydrate_fields D rec' g ref s fs rd.
Proof.
  induction fs as [|[k f] fs IH]; intros rd; cbn [hydrate_fields]; [reflexivity|].
  destruct (match_unique _ _ _ _ _) as [[s'|]| | |]; cbn [bind]; try reflexivity; [|destruct (f_required f); [reflexivity|apply IH]].
  rewrite format_rec. destruct (hydrate_format rec' _ _ _); cbn [bind]; try reflexivity. apply IH.
Qed.

Lemma items_rec g f ms : hydrate_items rec g f ms = hydrate_items rec' g f ms.
Proof.
  induction ms as [|[w|s] ms IH]; cbn [hydrate_items]; [reflexivity|reflexivity|].
  rewrite format_rec, IH. reflexivity.
Qed.

Lemma nodes_rec fuel g ref s nd tl : forall hd, hydrate_nodes D rec fuel g ref s nd hd tl = hydrate_nodes D rec' fuel g ref s nd hd tl.
Proof.
  induction fuel as [|n IH]; intros hd; cbn [hydrate_nodes]; [reflexivity|]. destruct (eqb hd tl); [reflexivity|].
  destruct (match_required _ _ _ _ _); cbn [bind]; try reflexivity. rewrite format_rec.
  destruct (hydrate_format rec' _ _ _); cbn [bind]; try reflexivity. destruct (unwrap _ _); cbn [bind]; try reflexivity.
  now rewrite IH.
Qed.

Lemma tuple_rec g ref s its : forall i, hydrate_tuple D rec g ref s i its = hydrate_tuple D rec' g ref s i its.
Proof.
  induction its as [|it its IH]; intros i; cbn [hydrate_tuple]; [reflexivity|].
  destruct (match_required _ _ _ _ _); cbn [bind]; try reflexivity. rewrite format_rec, IH. reflexivity.
Qed.

Lemma layout_rec fuel g ref l ins : hydrate_layout D rec fuel g ref l ins = hydrate_layout D rec' fuel g ref l ins.
Proof.
  destruct l; cbn [hydrate_layout]; try reflexivity; (destruct (match_header _ _ _ _ _); cbn [bind]; [|reflexivity..]).
  - now rewrite fields_rec.
  - now rewrite variants_rec.
  - now rewrite items_rec.
  - destruct (unwrap _ _); cbn [bind]; try reflexivity. destruct (unwrap _ _); cbn [bind]; try reflexivity. now rewrite nodes_rec.
  - now rewrite tuple_rec.
Qed.
End Rec.

Lemma literals_text p p' ref dt ls : forall sel, hydrate_literals (KTextString p) ref dt ls sel = hydrate_literals (KTextString p') ref dt ls sel.
Proof.
  induction ls as [|l ls IH]; intros sel; cbn [hydrate_literals]; [reflexivity|]. destruct (rl_type l); [|reflexivity].
  destruct (existsb _ _); [|apply IH]. cbn [hydrate_literal_value hydrate_text_string_value bind]. destruct sel; [reflexivity|apply IH].
Qed.

Lemma layout_same rec a fuel g ref l l' ins : same eq a l l' -> hydrate_layout D rec fuel g ref l ins = hydrate_layout D rec fuel g ref l' ins.
Proof.
  intros S. apply same_cases in S as [->|[(p & p' & h & r & d & _ & -> & ->)|(p & p' & h & r & _ & -> & ->)]]; [reflexivity| |reflexivity].
  cbn [hydrate_layout]. destruct (match_header _ _ _ _ _); cbn [bind]; try reflexivity.
  destruct (unwrap _ _); cbn [bind]; try reflexivity. now rewrite (literals_text p p').
Qed.

Lemma hydrate_same a (reg reg' : registry R) :
  (forall r, match reg r with Some l => exists l', reg' r = Some l' /\ same eq a l l' | None => reg' r = None end) ->
  forall fuel g ref ins, hydrate_with D reg fuel g ref ins = hydrate_with D reg' fuel g ref ins.
Proof.
  intros H. induction fuel as [|n IH]; intros g ref ins; cbn [hydrate_with]; [reflexivity|]. unfold hydrate_body.
  specialize (H ref). destruct (reg ref) as [l|]; [|now rewrite H]. destruct H as (l' & -> & S). cbn [ok_or bind].
  assert (E : input_count l = input_count l').
  { apply same_cases in S as [->|[(p & p' & h & r & d & _ & -> & ->)|(p & p' & h & r & _ & -> & ->)]]; reflexivity. }
  rewrite E. rewrite (layout_rec _ _ IH), (layout_same _ a _ _ _ _ _ _ S). reflexivity.
Qed.
End Hydrate.

Section Dehydrate.
Context {Q S I : Type} {CS : Cmp S} {X : Xsd} {IS : IriSyntax}.
Variable ops : interpretation Q S I.
Notation DM A := (M (Q := Q) (S := S) (I := I) A).

Lemma bindM_ext {A B} (m m' : DM A) (k k' : A -> DM B) : (forall st, m st = m' st) -> (forall a st, k a st = k' a st) ->
  forall st, bindM m k st = bindM m' k' st.
Proof. intros H1 H2 st. unfold bindM. rewrite H1. destruct (m' st) as [[a| | |] st']; auto. Qed.

Section Rec.
Context (rec rec' : value -> option S -> Q -> list S -> DM unit).
Hypothesis RR : forall v g r i st, rec v g r i st = rec' v g r i st.

Lemma sub_rec v g f e st : dehydrate_sub_value ops rec v g f e st = dehydrate_sub_value ops rec' v g f e st.
Proof. unfold dehydrate_sub_value. do 2 (apply bindM_ext; [reflexivity|]; intros ? ?). apply RR. Qed.

Lemma de_variants_rec v g e vs : forall sel st, dehydrate_variants ops rec v g e vs sel st = dehydrate_variants ops rec' v g e vs sel st.
Proof.
  induction vs as [|va vs IH]; intros sel st; cbn [dehydrate_variants]; [reflexivity|]. revert st.
  apply bindM_ext; [reflexivity|]; intros e' st. revert st. apply bindM_ext; [reflexivity|]; intros d st. revert st.
  apply bindM_ext; [intros st; unfold is_ok; now rewrite sub_rec|]. intros [] st; [|apply IH]. destruct sel; [reflexivity|apply IH].
Qed.

Lemma de_entries_rec g e fs es : forall st, dehydrate_entries ops rec g e fs es st = dehydrate_entries ops rec' g e fs es st.
Proof.
  induction es as [|[k v] es IH]; intros st; cbn [dehydrate_entries]; [reflexivity|]. destruct (bt_get k fs); [|reflexivity]. revert st.
  apply bindM_ext; [reflexivity|]; intros e' st. revert st. apply bindM_ext; [intros; apply sub_rec|]. intros _. apply IH.
Qed.

Lemma de_items_rec g e it l : forall st, dehydrate_items ops rec g e it l st = dehydrate_items ops rec' g e it l st.
Proof.
  induction l as [|v l IH]; intros st; cbn [dehydrate_items]; [reflexivity|]. revert st.
  apply bindM_ext; [reflexivity|]; intros e' st. revert st. apply bindM_ext; [intros; apply sub_rec|]. intros _. apply IH.
Qed.

Lemma de_nodes_rec g e nd tl l : forall hd st, dehydrate_nodes ops rec g e nd tl hd l st = dehydrate_nodes ops rec' g e nd tl hd l st.
Proof.
  induction l as [|v l IH]; intros hd st; cbn [dehydrate_nodes]; [reflexivity|]. revert st.
  apply bindM_ext; [reflexivity|]; intros r st. revert st. apply bindM_ext; [reflexivity|]; intros e' st. revert st.
  apply bindM_ext; [intros; apply sub_rec|]. intros _. apply IH.
Qed.

Lemma de_tuple_rec g e l : forall its st, dehydrate_tuple ops rec g e its l st = dehydrate_tuple ops rec' g e its l st.
Proof.
  induction l as [|v l IH]; intros [|it its] st; cbn [dehydrate_tuple]; try reflexivity. revert st.
  apply bindM_ext; [reflexivity|]; intros e' st. revert st. apply bindM_ext; [intros; apply sub_rec|]. intros _. apply IH.
Qed.

Lemma de_layout_rec v g ref l ins st : dehydrate_layout ops rec v g ref l ins st = dehydrate_layout ops rec' v g ref l ins st.
Proof.
  destruct l; cbn [dehydrate_layout]; try reflexivity.
  - destruct v as [|m|]; try reflexivity. revert st. apply bindM_ext; [reflexivity|]; intros e.
    apply bindM_ext; [intros; apply de_entries_rec|reflexivity].
  - revert st. apply bindM_ext; [reflexivity|]; intros e. apply bindM_ext; [intros; apply de_variants_rec|reflexivity].
  - destruct v as [| |m]; try reflexivity. revert st. apply bindM_ext; [reflexivity|]; intros e st. apply de_items_rec.
  - destruct v as [| |m]; try reflexivity. revert st. apply bindM_ext; [reflexivity|]; intros e.
    apply bindM_ext; [reflexivity|]; intros r st. apply de_nodes_rec.
  - destruct v as [| |m]; try reflexivity. revert st. apply bindM_ext; [reflexivity|]; intros e st. apply de_tuple_rec.
Qed.
End Rec.

Lemma dehydrate_same a (reg reg' : registry Q) :
  (forall r, match reg r with Some l => exists l', reg' r = Some l' /\ same eq a l l' | None => reg' r = None end) ->
  forall fuel v g ref ins st, dehydrate_with ops reg fuel v g ref ins st = dehydrate_with ops reg' fuel v g ref ins st.
Proof.
  intros H. induction fuel as [|n IH]; intros v g ref ins st; cbn [dehydrate_with]; [reflexivity|]. unfold dehydrate_body.
  specialize (H ref). destruct (reg ref) as [l|]; [|now rewrite H]. destruct H as (l' & -> & E).
  apply same_cases in E as [->|[(p & p' & h & r & d & _ & -> & ->)|(p & p' & h & r & _ & -> & ->)]].
  - destruct (input_count l') as [k|]; [destruct (Nat.eqb k (length ins)); [|reflexivity]|]; apply (de_layout_rec _ _ IH).
  - cbn [input_count]. destruct (Nat.eqb 1 (length ins)); [|reflexivity]. cbn [dehydrate_layout]. reflexivity.
  - cbn [input_count]. destruct (Nat.eqb 1 (length ins)); [|reflexivity]. reflexivity.
Qed.
End Dehydrate.

(** ** C106 *)
Section C106.
Context {R F : Type} {CR : Cmp R} {LR : CmpLaws R} {SE : SerdeExternal R F}.
Context (to_f64 : Qc -> F) (from_f64 : F -> option Qc) (is_dataset : list (qpat R) -> Prop).
Hypothesis FF : faithful is_dataset.
Notation writable := (writable to_f64 from_f64 is_dataset).

(** Every layout is written, and what is written is read: as the same layout, except that "in the default graph" is
    read as "in the current graph" and that the automata may lose states without transitions. *)
Theorem C106_read l ex : writable l ex ->
  exists s l', put_layout to_f64 l ex = Ok s /\ get_layout from_f64 s = Ok (l', ex) /\ same without_default same_language l l'.
Proof.
  intros W. destruct (layout_get to_f64 from_f64 is_dataset FF l ex W) as (s & S1 & S2). exists s, (layout_back l).
  split; [exact S1|]. split; [exact S2|]. apply layout_back_same. exact (wr_automata _ _ _ _ _ W).
Qed.

(** When no format of the layout is in the default graph, everything is read back, up to the equivalence of the automata... *)
Theorem C106_round_trip_partial l ex : writable l ex -> (forall i, In i (items_of l) -> vf_graph (it_value i) <> Some None) ->
  exists s l', put_layout to_f64 l ex = Ok s /\ get_layout from_f64 s = Ok (l', ex) /\ same eq same_language l l'.
Proof.
  intros W G. destruct (C106_read l ex W) as (s & l' & S1 & S2 & S3). exists s, l'. split; [exact S1|]. split; [exact S2|].
  apply (same_weaken _ _ _ _ _ S3). intros i g Ii E. specialize (G i Ii). destruct (vf_graph (it_value i)) as [[p|]|]; cbn in E; congruence.
Qed.

(** ... and exactly, when all the states declared by its automata have transitions. *)
Theorem C106_equal_partial l ex : writable l ex -> (forall i, In i (items_of l) -> vf_graph (it_value i) <> Some None) ->
  (forall d q ts, In d (automata_of l) -> In (q, ts) (da_transitions d) -> ts <> []) ->
  exists s, put_layout to_f64 l ex = Ok s /\ get_layout from_f64 s = Ok (l, ex).
Proof.
  intros W G N. destruct (layout_get to_f64 from_f64 is_dataset FF l ex W) as (s & S1 & S2). exists s.
  split; [exact S1|]. rewrite S2. do 2 f_equal.
  pose proof (layout_back_same l (wr_automata _ _ _ _ _ W)) as S.
  apply (same_weaken _ eq) in S;
    [|intros i g Ii E; specialize (G i Ii); destruct (vf_graph (it_value i)) as [[p|]|]; cbn in E; congruence].
  pose proof (wr_automata _ _ _ _ _ W) as A.
  apply same_cases in S as [E|[(p & p' & h & r & d & _ & -> & E)|(p & p' & h & r & _ & -> & E)]]; [now symmetry| |];
    (cbn [layout_back]; destruct p as [d'|]; [|reflexivity]; cbn [option_map]; rewrite automaton_back_eq; [reflexivity|apply A; now left|]);
    intros q ts; apply N; now left.
Qed.

(** The automata compiled from regular expressions have no other states. *)
Lemma map_tidy {Q L P N St St' E} {CQ : Cmp Q} {CL : Cmp L} {CP : Cmp P} {CN : Cmp N} {LP : CmpLaws P} {LN : CmpLaws N}
    (f : Q -> St -> outcome E (P * St)) (g : L -> St' -> outcome E (N * St')) d s s' d' :
  dfa_map f g d s s' = Ok d' -> forall q ts, In (q, ts) (d_transitions d') -> ts <> [].
Proof.
  set (tidy := fun d : dfa P N => forall q ts, In (q, ts) (d_transitions d) -> ts <> []).
  assert (ADD : forall a l b d, tidy d -> tidy (dfa_add a l b d)).
  { intros a l b d0 T q ts I0. cbn [dfa_add d_transitions] in I0. apply insert_In in I0 as [->|I0]; [|now apply (T q)].
    intros Z. assert (X : bt_get l (bt_insert l b (AutomatonModel.entry a [] (d_transitions d0))) = Some b).
    { rewrite bt_insert_get. now rewrite eqb_refl. }
    rewrite Z in X. discriminate X. }
  assert (T1 : forall ts q st st', tidy (snd st) -> map_transitions f g q ts st = Ok st' -> tidy (snd st')).
  { induction ts as [|[l t] ts IH]; intros q [[ms ls] r] st' T H; cbn [map_transitions] in H; [injection H as <-; exact T|].
    apply bind_Ok in H as ([a ms1] & _ & H). apply bind_Ok in H as ([b ms2] & _ & H). apply bind_Ok in H as ([c ls1] & _ & H).
    refine (IH _ _ _ _ H). cbn [snd]. apply ADD. exact T. }
  assert (T2 : forall l st st', tidy (snd st) -> map_sources f g l st = Ok st' -> tidy (snd st')).
  { induction l as [|[q ts] l IH]; intros st st' T H; cbn [map_sources] in H; [injection H as <-; exact T|].
    apply bind_Ok in H as (st1 & H1 & H). refine (IH _ _ _ H). exact (T1 _ _ _ _ T H1). }
  assert (T3 : forall l ms r r' ms', tidy r -> map_finals f l ms r = Ok (r', ms') -> tidy r').
  { induction l as [|q l IH]; intros ms r r' ms' T H; cbn [map_finals] in H; [injection H as <- _; exact T|].
    apply bind_Ok in H as ([a ms1] & _ & H). refine (IH _ _ _ _ _ H). exact T. }
  intros H. unfold dfa_map in H. apply bind_Ok in H as (st & H1 & H). apply bind_Ok in H as (st2 & H2 & H).
  apply bind_Ok in H as ([r ms] & H3 & [= <-]). apply (T3 _ _ _ _ _) in H3; [exact H3|]. apply (T2 _ _ _) in H2; [exact H2|].
  unfold map_start in H1. apply bind_Ok in H1 as ([i s1] & _ & [= <-]). intros ? ? [].
Qed.

(** The layouts compiled by a builder, none of whose formats is in the default graph, are read back exactly.  ([PreOf] is for the
    layouts without regular expressions.) *)
Theorem C106_compiled_partial {E} fuel (p : prelayout R) l ex : compile (E := E) fuel p = Ok l ->
  (forall l', p = PreOf l' -> automata_of l' = []) ->
  writable l ex -> (forall i, In i (items_of l) -> vf_graph (it_value i) <> Some None) ->
  exists s, put_layout to_f64 l ex = Ok s /\ get_layout from_f64 s = Ok (l, ex).
Proof.
  intros C PO W G. apply C106_equal_partial; [exact W|exact G|]. intros d q ts Id.
  assert (K : forall e d', compile_regexp (E := E) fuel e = Ok d' -> forall q ts, In (q, ts) (da_transitions d') -> ts <> []).
  { intros e d' H. unfold compile_regexp in H. destruct (re_build fuel e) as [d1|[]| |] eqn:X; try discriminate H. injection H as <-.
    unfold re_build in X. apply bind_Ok in X as (dt & _ & X). cbn [da_transitions]. exact (map_tidy _ _ _ _ _ _ X). }
  destruct p as [l0|pat h r dt|h r pat|l0|l0]; cbn [compile] in C; try discriminate C.
  - injection C as <-. rewrite (PO l0 eq_refl) in Id. destruct Id.
  - apply bind_Ok in C as (o & C & [= <-]). destruct pat as [e|]; cbn [compile_pattern] in C; [|injection C as <-; destruct Id].
    apply bind_Ok in C as (d1 & C & [= <-]). destruct Id as [<-|[]]. exact (K e d1 C q ts).
  - apply bind_Ok in C as (o & C & [= <-]). destruct pat as [e|]; cbn [compile_pattern] in C; [|injection C as <-; destruct Id].
    apply bind_Ok in C as (d1 & C & [= <-]). destruct Id as [<-|[]]. exact (K e d1 C q ts).
Qed.

(** A collection of layouts written, then read. *)
Definition written_and_read (reg reg' : registry R) : Prop :=
  forall r, match reg r with
  | None => reg' r = None
  | Some l => exists ex s l', writable l ex /\ put_layout to_f64 l ex = Ok s /\ get_layout from_f64 s = Ok (l', ex) /\ reg' r = Some l'
  end.

Lemma read_same reg reg' : written_and_read reg reg' ->
  (forall r l i, reg r = Some l -> In i (items_of l) -> vf_graph (it_value i) <> Some None) ->
  forall r, match reg r with Some l => exists l', reg' r = Some l' /\ same eq same_language l l' | None => reg' r = None end.
Proof.
  intros H G r. specialize (H r). specialize (G r). destruct (reg r) as [l|]; [|exact H].
  destruct H as (ex & s & l' & W & S1 & S2 & E). exists l'. split; [exact E|].
  destruct (C106_round_trip_partial l ex W) as (s1 & l1 & T1 & T2 & T3); [intros i; now apply G|].
  rewrite S1 in T1. injection T1 as <-. rewrite S2 in T2. injection T2 as <-. exact T3.
Qed.

(** The layouts read hydrate and dehydrate as the layouts written. *)
Theorem C106_hydrates_partial {I : Interp R} {X : Xsd} (D : dataset R) reg reg' : written_and_read reg reg' ->
  (forall r l i, reg r = Some l -> In i (items_of l) -> vf_graph (it_value i) <> Some None) ->
  forall fuel g ref ins, hydrate_with D reg' fuel g ref ins = hydrate_with D reg fuel g ref ins.
Proof. intros H G fuel g ref ins. symmetry. apply (hydrate_same D same_language). now apply read_same. Qed.

Theorem C106_dehydrates_partial {S I : Type} {CS : Cmp S} {X : Xsd} {IS : IriSyntax} (ops : interpretation R S I) reg reg' :
  written_and_read reg reg' ->
  (forall r l i, reg r = Some l -> In i (items_of l) -> vf_graph (it_value i) <> Some None) ->
  forall fuel v g ref ins st, dehydrate_with ops reg' fuel v g ref ins st = dehydrate_with ops reg fuel v g ref ins st.
Proof. intros H G fuel v g ref ins st. symmetry. apply (dehydrate_same ops same_language). now apply read_same. Qed.
End C106.

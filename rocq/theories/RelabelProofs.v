(** * Proofs for C110: hydration and dehydration with layouts that have other names *)

From Coq Require Import String List Bool Arith NArith Permutation Sorting Lia.
Import ListNotations.
From Verif Require Import Base BaseProofs Orders PatternModel MatchingModel MatchingSpec ValueModel LayoutModel LayoutSpec HydrateModel HydrateSpec
  ValueProofs TermModel DehydrateModel RelabelSpec.
Open Scope list_scope.
Open Scope nat_scope.

(** ** Outcomes *)
Lemma o_bind {E E' A A' B B'} (PE : E -> E' -> Prop) (PA : A -> A' -> Prop) (PB : B -> B' -> Prop) o o' k k' :
  renamed_outcome PE PA o o' -> (forall a a', o = Ok a -> o' = Ok a' -> PA a a' -> renamed_outcome PE PB (k a) (k' a')) ->
  renamed_outcome PE PB (bind o k) (bind o' k').
Proof. destruct o, o'; cbn; intros H K; try contradiction; auto. Qed.
Lemma o_weaken {E E' A A'} (PE : E -> E' -> Prop) (PA PA' : A -> A' -> Prop) o o' :
  (forall a a', PA a a' -> PA' a a') -> renamed_outcome PE PA o o' -> renamed_outcome PE PA' o o'.
Proof. destruct o, o'; cbn; auto. Qed.
Lemma o_same {E E' A} (PE : E -> E' -> Prop) w (o : option A) : renamed_outcome PE eq (unwrap w o) (unwrap w o).
Proof. destruct o; reflexivity. Qed.

Lemma Forall2_swap {A B} (P : A -> B -> Prop) l l' : Forall2 P l l' -> Forall2 (fun b a => P a b) l' l.
Proof. induction 1; constructor; auto. Qed.

Section Hydration.
Context {R : Type} {CR : Cmp R} {I : Interp R} {X : Xsd} (N : R -> R -> Prop) (D : dataset R) (loose : R -> Prop).
Notation res := (renamed_outcome (renamed_hy_error N)).

Lemma r_fragment {A} (m : outcome match_error A) f f' : renamed_fragment N f f' -> res eq (for_fragment m f) (for_fragment m f').
Proof. intros H. destruct m as [a|[]|w|]; cbn; auto; constructor; assumption. Qed.
Lemma r_unique g ps s f f' : renamed_fragment N f f' -> res eq (match_unique D g ps s f) (match_unique D g ps s f').
Proof. apply r_fragment. Qed.
Lemma r_required g ps s f f' : renamed_fragment N f f' -> res eq (match_required D g ps s f) (match_required D g ps s f').
Proof. apply r_fragment. Qed.
Lemma r_header g r r' h inputs : N r r' -> res eq (match_header D g r h inputs) (match_header D g r' h inputs).
Proof. intros H. apply r_required. now constructor. Qed.
Lemma r_inputs ps s : res eq (select_inputs ps s) (select_inputs ps s).
Proof.
  unfold select_inputs. induction ps as [|p ps IH]; cbn [mapM]; [reflexivity|]. eapply o_bind; [apply o_same|]. intros r ? _ _ <-.
  eapply o_bind; [exact IH|]. intros rs ? _ _ <-. reflexivity.
Qed.
Lemma r_graph g gr s : res eq (select_graph g gr s) (select_graph g gr s).
Proof. destruct gr as [[p|]|]; cbn [select_graph]; try reflexivity. eapply o_bind; [apply o_same|]. intros r ? _ _ <-. reflexivity. Qed.
Lemma r_value k r r' v ty : N r r' -> res (renamed_literal N) (hydrate_literal_value k r v ty) (hydrate_literal_value k r' v ty).
Proof.
  intros H. destruct k; cbn [hydrate_literal_value]; try reflexivity.
  - unfold hydrate_boolean_value. destruct (eqb ty xsd_boolean); [|reflexivity]. eapply o_bind; [apply o_same|]. intros b ? _ _ <-. now constructor.
  - unfold hydrate_number_value. destruct (is_decimal_type ty); [|constructor]. eapply o_bind; [apply o_same|]. intros b ? _ _ <-. now constructor.
  - cbn. now constructor.
Qed.
Definition renamed_option {A B} (P : A -> B -> Prop) (o : option A) (o' : option B) : Prop :=
  match o, o' with Some a, Some b => P a b | None, None => True | _, _ => False end.
Lemma r_literals k r r' dt ls : N r r' -> forall sel sel', renamed_option (renamed_literal N) sel sel' ->
  res (renamed_literal N) (hydrate_literals k r dt ls sel) (hydrate_literals k r' dt ls sel').
Proof.
  intros H. induction ls as [|l ls IH]; intros sel sel' S; cbn [hydrate_literals].
  - destruct sel, sel'; try contradiction; cbn; [exact S|constructor].
  - destruct (rl_type l) as [i|t]; [|reflexivity]. destruct (existsb (eqb i) (iris_of dt)); [|now apply IH].
    eapply o_bind; [now apply r_value|]. intros v v' _ _ V. destruct sel, sel'; try contradiction; [reflexivity|]. now apply IH.
Qed.

Lemma items_from (rec : option R -> R -> list R -> outcome (hy_error R) (typed_value R)) g f ms : forall vs, hydrate_items rec g f ms = Ok vs -> forall v, In v vs -> exists g' ins, rec g' (vf_layout f) ins = Ok v.
Proof.
  induction ms as [|[w|s] ms IH]; cbn [hydrate_items]; intros vs H v IN; [injection H as <-; destruct IN|discriminate|].
  apply bind_Ok in H as (x & E & H). apply bind_Ok in H as (xs & E' & H). injection H as <-. destruct IN as [<-|IN]; [|eauto].
  unfold hydrate_format in E. apply bind_Ok in E as (ins & _ & E). apply bind_Ok in E as (g' & _ & E). eauto.
Qed.

Section Layout.
Variables rec rec' : option R -> R -> list R -> outcome (hy_error R) (typed_value R).
Hypothesis REC : forall g r r' inputs, N r r' -> res (renamed_value N loose) (rec g r inputs) (rec' g r' inputs).
Notation val := (renamed_value N loose).

Lemma r_format g f f' s : renamed_format N f f' -> res val (hydrate_format rec g f s) (hydrate_format rec' g f' s).
Proof.
  intros (H1 & H2 & H3). unfold hydrate_format. rewrite <- H2, <- H3. eapply o_bind; [apply r_inputs|]. intros ins ? _ _ <-.
  eapply o_bind; [apply r_graph|]. intros g' ? _ _ <-. now apply REC.
Qed.

Definition renamed_choice (c c' : nat * typed_value R) : Prop := fst c = fst c' /\ val (snd c) (snd c').
Lemma r_variants g r r' s vs vs' : N r r' -> Forall2 (renamed_variant N) vs vs' -> forall i sel sel',
  renamed_option renamed_choice sel sel' ->
  res (renamed_option renamed_choice) (hydrate_variants D rec g r s i vs sel) (hydrate_variants D rec' g r' s i vs' sel').
Proof.
  intros H F. induction F as [|v v' vs vs' (V1 & V2 & V3 & V4) F IH]; intros i sel sel' S; cbn [hydrate_variants]; [exact S|].
  rewrite <- V1, <- V4. eapply o_bind; [apply r_unique; now constructor|]. intros o ? _ _ <-. destruct o as [s'|]; [|now apply IH].
  pose proof (r_format g _ _ s' V3) as K.
  destruct (hydrate_format rec g (it_value (va_item v)) s') as [x|e|w|], (hydrate_format rec' g (it_value (va_item v')) s') as [x'|e'|w'|];
    cbn in K; try contradiction; [|now apply IH|now subst|exact K].
  destruct sel, sel'; try contradiction; [reflexivity|]. apply IH. now split.
Qed.

Notation entry := (fun e e' : value * typed_value R => fst e = fst e' /\ val (snd e) (snd e')).
Lemma r_insert k v v' m m' : val v v' -> Forall2 entry m m' -> Forall2 entry (bt_insert k v m) (bt_insert k v' m').
Proof.
  intros V F. induction F as [|[a x] [a' x'] m m' [E1 E2] F IH]; cbn [bt_insert]; [repeat constructor; assumption|]. cbn [fst snd] in *. subst a'.
  destruct (cmp k a); repeat (constructor; auto).
Qed.
Lemma r_fields g r r' s fs fs' : N r r' -> Forall2 (renamed_field N) fs fs' -> forall m m', Forall2 entry m m' ->
  res (Forall2 entry) (hydrate_fields D rec g r s fs m) (hydrate_fields D rec' g r' s fs' m').
Proof.
  intros H F. induction F as [|[k f] [k' f'] fs fs' (F1 & (F2 & F3 & F4) & F5) F IH]; intros m m' M; cbn [hydrate_fields]; [exact M|].
  cbn [fst snd] in *. subst k'. rewrite <- F2, <- F4, <- F5. eapply o_bind; [apply r_unique; now constructor|]. intros o ? _ _ <-.
  destruct o as [s'|].
  - eapply o_bind; [now apply r_format|]. intros v v' _ _ V. apply IH. now apply r_insert.
  - destruct (f_required f); [repeat constructor; assumption|]. now apply IH.
Qed.

Lemma r_items g f f' ms : renamed_format N f f' -> res (Forall2 val) (hydrate_items rec g f ms) (hydrate_items rec' g f' ms).
Proof.
  intros H. induction ms as [|[w|s] ms IH]; cbn [hydrate_items]; [constructor|reflexivity|].
  eapply o_bind; [now apply r_format|]. intros v v' _ _ V. eapply o_bind; [exact IH|]. intros vs vs' _ _ VS. now constructor.
Qed.
Lemma r_nodes fuel g r r' s n n' : N r r' -> renamed_item N n n' -> forall hd tl,
  res (Forall2 val) (hydrate_nodes D rec fuel g r s n hd tl) (hydrate_nodes D rec' fuel g r' s n' hd tl).
Proof.
  intros H (H1 & H2 & H3). induction fuel as [|fuel IH]; intros hd tl; cbn [hydrate_nodes]; [exact Logic.I|].
  destruct (eqb hd tl); [constructor|]. rewrite <- H1, <- H3. eapply o_bind; [apply r_required; now constructor|]. intros s' ? _ _ <-.
  eapply o_bind; [now apply r_format|]. intros v v' _ _ V. eapply o_bind; [apply o_same|]. intros hd' ? _ _ <-.
  eapply o_bind; [apply IH|]. intros vs vs' _ _ VS. now constructor.
Qed.
Lemma r_tuple g r r' s its its' : N r r' -> Forall2 (renamed_item N) its its' -> forall i,
  res (Forall2 val) (hydrate_tuple D rec g r s i its) (hydrate_tuple D rec' g r' s i its').
Proof.
  intros H F. induction F as [|it it' its its' (H1 & H2 & H3) F IH]; intros i; cbn [hydrate_tuple]; [constructor|].
  rewrite <- H1, <- H3. eapply o_bind; [apply r_required; now constructor|]. intros s' ? _ _ <-.
  eapply o_bind; [now apply r_format|]. intros v v' _ _ V. eapply o_bind; [apply IH|]. intros vs vs' _ _ VS. now constructor.
Qed.

(** The order of the items of a set. *)
Definition ordered_alike (r : R) (f f' : vformat R) : Prop :=
  loose r \/
  forall l l', (forall v, In v l -> exists g ins, rec g (vf_layout f) ins = Ok v) -> (forall v, In v l' -> exists g ins, rec' g (vf_layout f') ins = Ok v) ->
    Forall2 val l l' -> Forall2 val (sort l) (sort l').

Lemma r_layout fuel g r r' l l' inputs : N r r' -> renamed_layout N l l' ->
  (forall h it h' it', l = UnorderedL h it -> l' = UnorderedL h' it' -> ordered_alike r (it_value it) (it_value it')) ->
  res val (hydrate_layout D rec fuel g r l inputs) (hydrate_layout D rec' fuel g r' l' inputs).
Proof.
  intros H L OS. destruct L as [| |h c|k h p dt|h p pat|h fs fs' F|h vs vs' F|h it it' F|h n n' hd tl F|h its its' F]; cbn [hydrate_layout].
  - constructor.
  - cbn. constructor.
  - eapply o_bind; [now apply r_header|]. intros s ? _ _ <-. cbn. now repeat constructor.
  - eapply o_bind; [now apply r_header|]. intros s ? _ _ <-. eapply o_bind; [apply o_same|]. intros x ? _ _ <-.
    eapply o_bind; [now apply r_literals|]. intros t t' _ _ T. now constructor.
  - eapply o_bind; [now apply r_header|]. intros s ? _ _ <-. eapply o_bind; [apply o_same|]. intros x ? _ _ <-.
    destruct (iris_of x) as [|i [|]]; try reflexivity. cbn. now repeat constructor.
  - eapply o_bind; [now apply r_header|]. intros s ? _ _ <-. eapply o_bind; [apply r_fields; eauto|]. intros m m' _ _ M. now constructor.
  - eapply o_bind; [now apply r_header|]. intros s ? _ _ <-. eapply o_bind; [apply (r_variants _ _ _ _ _ _ H F 0 None None Logic.I)|].
    intros c c' _ _ C. destruct c as [[i v]|], c' as [[i' v']|]; try contradiction; [|reflexivity]. destruct C as [C1 C2]. cbn [fst snd] in *. subst i'.
    now constructor.
  - eapply o_bind; [now apply r_header|]. intros s ? _ _ <-. pose proof F as (F1 & F2 & F3). rewrite <- F1, <- F3.
    eapply o_bind; [now apply r_items|]. intros vs vs' E E' V. destruct (OS _ _ _ _ eq_refl eq_refl) as [LO|LO].
    + cbn.
      destruct (Permutation_Forall2 (Permutation_sym (sort_perm vs')) (Forall2_swap _ _ _ V)) as (us & P' & U).
      eapply rv_set with (l1 := us); [exact LO| |now apply Forall2_swap|exact H].
      eapply Permutation_trans; [apply sort_perm|exact P'].
    + cbn. constructor; [|exact H]. apply LO; [exact (items_from _ _ _ _ _ E)| |exact V].
      exact (items_from _ _ _ _ _ E').
  - eapply o_bind; [now apply r_header|]. intros s ? _ _ <-. eapply o_bind; [apply o_same|]. intros x ? _ _ <-.
    eapply o_bind; [apply o_same|]. intros y ? _ _ <-. eapply o_bind; [now apply r_nodes|]. intros vs vs' _ _ V. now constructor.
  - eapply o_bind; [now apply r_header|]. intros s ? _ _ <-. eapply o_bind; [now apply r_tuple|]. intros vs vs' _ _ V. now constructor.
Qed.
End Layout.

(** [loose] says which sets may be permuted; the other ones are put in the same order. *)
Lemma r_hydrate (reg reg' : registry R) : renamed_registry N reg reg' ->
  (forall r r' h it h' it' fuel, N r r' -> reg r = Some (UnorderedL h it) -> reg' r' = Some (UnorderedL h' it') ->
     ordered_alike (hydrate_with D reg fuel) (hydrate_with D reg' fuel) r (it_value it) (it_value it')) ->
  forall fuel g r r' inputs, N r r' ->
  res (renamed_value N loose) (hydrate_with D reg fuel g r inputs) (hydrate_with D reg' fuel g r' inputs).
Proof.
  intros RR OS. induction fuel as [|fuel IH]; intros g r r' inputs H; cbn [hydrate_with]; [exact Logic.I|]. unfold hydrate_body.
  pose proof (RR _ _ H) as L. destruct (reg r) as [l|] eqn:E, (reg' r') as [l'|] eqn:E'; try contradiction; cbn [ok_or bind]; [|now constructor].
  assert (input_count l' = input_count l) as -> by (destruct L; reflexivity).
  assert (res (renamed_value N loose) (hydrate_layout D (hydrate_with D reg fuel) fuel g r l inputs)
    (hydrate_layout D (hydrate_with D reg' fuel) fuel g r' l' inputs)) as K.
  { apply r_layout; auto. intros h it h' it' -> ->. eauto. }
  destruct (input_count l) as [n|]; [|exact K]. destruct (Nat.eqb n (length inputs)); [exact K|constructor].
Qed.
End Hydration.

Lemma renamed_weaken {R} (N N' : R -> R -> Prop) l l' : (forall r r', uses l r -> N r r' -> N' r r') -> renamed_layout N l l' -> renamed_layout N' l l'.
Proof.
  assert (IT : forall it it', (N (vf_layout (it_value it)) (vf_layout (it_value it')) -> N' (vf_layout (it_value it)) (vf_layout (it_value it'))) ->
    renamed_item N it it' -> renamed_item N' it it').
  { intros it it' K (H1 & (H2 & H3 & H4) & H5). repeat split; auto. }
  intros K L. destruct L as [| |h c|k h p dt|h p pat|h fs fs' F|h vs vs' F|h it it' F|h n n' hd tl F|h its its' F]; try constructor.
  - assert (forall k f r', In (k, f) fs -> N (vf_layout (it_value (f_item f))) r' -> N' (vf_layout (it_value (f_item f))) r') as J.
    { intros k f r' IN. apply K. econstructor; eauto. }
    clear K. induction F as [|[k f] f' fs fs' (F1 & F2 & F3) F IH]; constructor.
    + split; [exact F1|split; [|exact F3]]. apply IT; [|exact F2]. intros Q. apply (J k f); [now left|exact Q].
    + apply IH. intros k0 f0 r0 IN. apply (J k0 f0). now right.
  - assert (forall v r', In v vs -> N (vf_layout (it_value (va_item v))) r' -> N' (vf_layout (it_value (va_item v))) r') as J.
    { intros v r' IN. apply K. econstructor; eauto. }
    clear K. induction F as [|v v' vs vs' (F1 & F2) F IH]; constructor.
    + split; [exact F1|]. apply IT; [|exact F2]. intros Q. apply (J v); [now left|exact Q].
    + apply IH. intros v0 r0 IN. apply (J v0). now right.
  - apply IT; [|exact F]. apply K. constructor.
  - apply IT; [|exact F]. apply K. constructor.
  - assert (forall v r', In v its -> N (vf_layout (it_value v)) r' -> N' (vf_layout (it_value v)) r') as J.
    { intros v r' IN. apply K. econstructor; eauto. }
    clear K. induction F as [|v v' its its' F2 F IH]; constructor.
    + apply IT; [|exact F2]. intros Q. apply (J v); [now left|exact Q].
    + apply IH. intros v0 r0 IN. apply (J v0). now right.
Qed.

(** The names reached from a layout. *)
Lemma renamed_reached {R} (N : R -> R -> Prop) (reg reg' : registry R) ref : renamed_registry N reg reg' ->
  renamed_registry (fun r r' => N r r' /\ reaches reg ref r) reg reg'.
Proof.
  intros H r r' [NR RE]. specialize (H r r' NR). destruct (reg r) as [l|] eqn:E, (reg' r'); auto. eapply renamed_weaken; [|exact H].
  intros q q' U Q. split; [exact Q|]. clear -RE E U. induction RE as [r|r l0 r1 r2 E0 U0 _ IH]; [|eapply reaches_step; eauto].
  eapply reaches_step; [exact E|exact U|constructor].
Qed.

Section Values.
Context {R : Type} {CR : Cmp R} {LR : CmpLaws R} (N : R -> R -> Prop).

Lemma renamed_value_weaken (N' : R -> R -> Prop) (loose loose' : R -> Prop) : (forall r r', N r r' -> N' r r') -> (forall r, loose r -> loose' r) ->
  forall v v', renamed_value N loose v v' -> renamed_value N' loose' v v'.
Proof.
  intros KN KL. fix IH 3. intros v v' H. destruct H as [t t' H|v v' r r' i H H'|m m' r r' H H'|l l' r r' H H'|l l1 l' r r' HL P H H'|v].
  - constructor. destruct H; constructor; auto.
  - constructor; auto.
  - apply rv_record; auto. induction H as [|e e' m m' [E1 E2] F IHF]; constructor; auto.
  - apply rv_list; auto. induction H as [|e e' m m' E F IHF]; constructor; auto.
  - apply rv_set with (l1 := l1); auto. clear P. induction H as [|e e' m m' E F IHF]; constructor; auto.
  - constructor.
Qed.

(** Without sets, the untyped values are equal. *)
Lemma renamed_untyped : forall v v', renamed_value N (fun _ => False) v v' -> into_untyped v = into_untyped v'.
Proof.
  fix IH 3. intros v v' H. destruct H as [t t' H|v v' r r' i H H'|m m' r r' H H'|l l' r r' H H'|l l1 l' r r' HL P H H'|v]; cbn [into_untyped].
  - destruct H; reflexivity.
  - auto.
  - do 2 f_equal. induction H as [|e e' m m' [E1 E2] F IHF]; cbn [map]; f_equal; [|exact IHF]. f_equal; auto.
  - f_equal. induction H as [|e e' m m' E F IHF]; cbn [map]; f_equal; auto.
  - contradiction.
  - reflexivity.
Qed.
End Values.

(** ** The order of the items of the sets *)
Lemma reaches_one {R} (reg : registry R) r l q r' : reg r = Some l -> uses l q -> reaches reg q r' -> reaches reg r r'.
Proof. intros E U H. eapply reaches_step; eauto. Qed.

Lemma list_cmp_alike {A} (f : A -> A -> comparison) (P : A -> A -> Prop) a b a' b' : Forall2 P a a' -> Forall2 P b b' ->
  (forall i x y x' y', nth_error a i = Some x -> nth_error b i = Some y -> nth_error a' i = Some x' -> nth_error b' i = Some y' ->
     P x x' -> P y y' -> f x y = f x' y') -> list_cmp f a b = list_cmp f a' b'.
Proof.
  intros F. revert b b'. induction F as [|x x' a a' X F IH]; intros b b' G K; destruct G as [|y y' b b' Y G]; cbn [list_cmp]; try reflexivity.
  rewrite (K 0 x y x' y' eq_refl eq_refl eq_refl eq_refl X Y). f_equal. apply IH; [exact G|]. intros i. exact (K (S i)).
Qed.

Lemma sort_alike {A} `{Cmp A} (P : A -> A -> Prop) l l' : Forall2 P l l' ->
  (forall x y x' y', In x l -> In y l -> In x' l' -> In y' l' -> P x x' -> P y y' -> cmp x y = cmp x' y') -> Forall2 P (sort l) (sort l').
Proof.
  intros F. assert (INS : forall a a' m m', P a a' -> Forall2 P m m' ->
    (forall y y', In y m -> In y' m' -> P y y' -> cmp a y = cmp a' y') -> Forall2 P (sort_insert a m) (sort_insert a' m')).
  { intros a a' m m' HA G. induction G as [|y y' m m' Y G IH]; intros K; cbn [sort_insert]; [repeat constructor; assumption|].
    rewrite <- (K y y' (or_introl eq_refl) (or_introl eq_refl) Y). destruct (cmp a y); repeat (constructor; auto).
    apply IH. intros z z' I1 I2. apply K; now right. }
  induction F as [|x x' l l' X F IH]; intros K; [constructor|]. cbn [sort fold_right]. apply INS; [exact X| |].
  - apply IH. intros; apply K; auto; now right.
  - intros y y' I1 I2 Y. apply K; auto; try (now left); right;
      [apply (Permutation_in _ (sort_perm l) I1)|apply (Permutation_in _ (sort_perm l') I2)].
Qed.

Section Order.
Context {R : Type} {CR : Cmp R} {LR : CmpLaws R} (N : R -> R -> Prop) (reg reg' : registry R).
Hypotheses (RS : registry_sorted reg) (RS' : registry_sorted reg') (RR : renamed_registry N reg reg').
Notation none := (fun _ : R => False).

Lemma field_unique {A} (fs : list (value * A)) k f f' : StronglySorted lt (map fst fs) -> In (k, f) fs -> In (k, f') fs -> f = f'.
Proof.
  intros S I1 I2. apply sorted_lt_NoDup in S. induction fs as [|[q x] fs IH]; [destruct I1|]. cbn [map fst] in S. inversion S as [|? ? NI ND]; subst.
  destruct I1 as [E1|I1], I2 as [E2|I2].
  - congruence.
  - injection E1 as -> ->. elim NI. apply in_map_iff. exists (k, f'). auto.
  - injection E2 as -> ->. elim NI. apply in_map_iff. exists (k, f). auto.
  - eauto.
Qed.

Lemma cmp_alike v : forall r r' w v' w', N r r' -> (forall q h vs, reaches reg r q -> reg q <> Some (SumL h vs)) ->
  Conforms reg r v -> Conforms reg r w -> Conforms reg' r' v' -> Conforms reg' r' w' ->
  renamed_value N none v v' -> renamed_value N none w w' -> typed_value_cmp v w = typed_value_cmp v' w'.
Proof.
  assert (RF : forall r : R, cmp r r = Eq) by (intros; now apply cmp_eq).
  induction v as [t|v ty i IH|m ty IH|l ty IH|v] using typed_value_ind'; intros r r' w v' w' NR NS C1 C2 C1' C2' V W.
  - inversion V as [? t' T| | | | |]; subst. pose proof (RR r r' NR) as L.
    inversion C1; subst; match goal with E : reg r = Some _ |- _ => rewrite E in L;
      destruct (reg' r') as [l'|] eqn:E'; try contradiction; inversion L; subst;
      inversion C2; subst; try congruence; inversion C2'; subst; try congruence; inversion W as [? ? T'| | | | |]; subst;
      inversion C1'; subst; try congruence; inversion T; subst; inversion T'; subst; try congruence end;
    cbn [typed_value_cmp]; match goal with |- cmp ?a ?b = cmp ?c ?d => change (typed_literal_cmp a b = typed_literal_cmp c d) end; cbn [typed_literal_cmp];
      repeat match goal with |- lex (cmp ?a ?b) _ = _ => destruct (cmp a b); cbn [lex]; try reflexivity end;
      rewrite ?RF; congruence || reflexivity.
  - inversion C1; subst. exfalso. eapply NS; [constructor|eassumption].
  - inversion V; subst. inversion C1 as [| | | | | |? h fs ? E _ K _| | | |]; subst.
    pose proof (RR _ _ NR) as L. rewrite E in L. destruct (reg' r') as [l'|] eqn:E'; [|contradiction]. inversion L as [| | | | |? ? fs' F| | | |]; subst.
    inversion C2 as [| | | | | |? h2 fs2 m2 E2 _ K2 _| | | |]; subst; try congruence. rewrite E in E2. injection E2 as <- <-.
    inversion W; subst. inversion C1' as [| | | | | |? h3 fs3 m3 E3 _ K3 _| | | |]; subst; try congruence. rewrite E' in E3. injection E3 as <- <-.
    inversion C2' as [| | | | | |? h4 fs4 m4 E4 _ K4 _| | | |]; subst; try congruence. rewrite E' in E4. injection E4 as <- <-.
    cbn [typed_value_cmp]. rewrite !RF. f_equal. eapply list_cmp_alike; [eassumption|eassumption|].
    intros i [k x] [k2 y] [k' x'] [k2' y'] I1 I2 I3 I4 [P1 P2] [P3 P4]. cbn [fst snd] in *. subst k' k2'. unfold pair_cmp. cbn [fst snd].
    destruct (cmp k k2) eqn:CK; cbn [lex]; try reflexivity. apply cmp_eq in CK as <-.
    apply nth_error_In in I1, I2, I3, I4.
    destruct (K _ _ I1) as (f & F1 & G1), (K2 _ _ I2) as (f2 & F2 & G2), (K3 _ _ I3) as (f3 & F3 & G3), (K4 _ _ I4) as (f4 & F4 & G4).
    assert (f2 = f) as -> by (eapply field_unique; [exact (RS _ _ E)|exact F2|exact F1]).
    assert (f4 = f3) as -> by (eapply field_unique; [exact (RS' _ _ E')|exact F4|exact F3]).
    assert (N (vf_layout (it_value (f_item f))) (vf_layout (it_value (f_item f3)))) as NF.
    { clear -F F1 F3 RS E. pose proof (RS _ _ E) as SO. cbn [fields_sorted] in SO. clear E.
      assert (exists f3', In (k, f3') fs /\ N (vf_layout (it_value (f_item f3'))) (vf_layout (it_value (f_item f3)))) as (f3' & I & Q).
      { clear F1 SO. induction F as [|[a b] [a' b'] fs fs' (Q1 & (_ & (Q2 & _) & _) & _) F IH]; [destruct F3|]. cbn [fst snd] in *. subst a'.
        destruct F3 as [[= -> ->]|F3]; [exists b; split; [now left|exact Q2]|]. destruct (IH F3) as (z & I & Q). exists z. split; [now right|exact Q]. }
      now rewrite (field_unique _ _ _ _ SO F1 I). }
    rewrite Forall_forall in IH.
    eapply (IH (k, x)); [exact I1|exact NF| |exact G1|exact G2|exact G3|exact G4|exact P2|exact P4].
    intros q hq vs RQ. apply (NS q hq vs). eapply reaches_one; [exact E| |exact RQ]. econstructor; eassumption.
  - rewrite Forall_forall in IH.
    assert (exists l' r1', v' = TList l' r1' /\ Forall2 (renamed_value N none) l l' /\ N ty r1') as (l' & r1' & -> & FL & NT)
      by (inversion V; subst; eauto; contradiction).
    assert (ty = r) as -> by (inversion C1; congruence). assert (r1' = r') as -> by (inversion C1'; congruence).
    pose proof (RR _ _ NR) as L.
    assert (exists l2 l2', w = TList l2 r /\ w' = TList l2' r' /\ Forall2 (renamed_value N none) l2 l2') as (l2 & l2' & -> & -> & FL2).
    { inversion C1; subst; inversion C2; subst; try congruence; inversion W; subst; try contradiction; inversion C2'; subst; eauto. }
    cbn [typed_value_cmp]. rewrite !RF. f_equal. eapply list_cmp_alike; [eassumption|eassumption|].
    intros i x y x' y' I1 I2 I3 I4 X Y.
    assert (exists q q', N q q' /\ (exists lay, reg r = Some lay /\ uses lay q) /\ Conforms reg q x /\ Conforms reg q y /\ Conforms reg' q' x' /\ Conforms reg' q' y')
      as (q & q' & NQ & (lay & E & U) & G1 & G2 & G3 & G4).
    { inversion C1 as [| | | | | | | |? h it ? E K SO|? h n hd tl ? E K|? h its ? E LE K]; subst; rewrite E in L;
        (destruct (reg' r') as [l0|] eqn:E'; [|contradiction]); inversion L as [| | | | | | |? ? it' F|? ? n' ? ? F|? ? its' F]; subst.
      - exists (vf_layout (it_value it)), (vf_layout (it_value it')). split; [apply F|]. split; [exists (UnorderedL h it); split; [exact E|constructor]|].
        apply nth_error_In in I1, I2, I3, I4.
        inversion C2; subst; try congruence. inversion C1'; subst; try congruence. inversion C2'; subst; try congruence.
        repeat match goal with A : ?x = Some _, B : ?x = Some _ |- _ => rewrite A in B; injection B; intros; subst; clear B end. auto.
      - exists (vf_layout (it_value n)), (vf_layout (it_value n')). split; [apply F|]. split; [exists (OrderedL h n hd tl); split; [exact E|constructor]|].
        apply nth_error_In in I1, I2, I3, I4.
        inversion C2; subst; try congruence. inversion C1'; subst; try congruence. inversion C2'; subst; try congruence.
        repeat match goal with A : ?x = Some _, B : ?x = Some _ |- _ => rewrite A in B; injection B; intros; subst; clear B end. auto.
      - inversion C2 as [| | | | | | | | | |? h2 its2 ? E2 LE2 K2]; subst; try congruence. rewrite E in E2. injection E2 as <- <-.
        inversion C1' as [| | | | | | | | | |? h3 its3 ? E3 LE3 K3]; subst; try congruence. rewrite E' in E3. injection E3 as <- <-.
        inversion C2' as [| | | | | | | | | |? h4 its4 ? E4 LE4 K4]; subst; try congruence. rewrite E' in E4. injection E4 as <- <-.
        assert (exists it, nth_error its i = Some it) as [it J].
        { destruct (nth_error its i) eqn:J; [eauto|]. apply nth_error_None in J. assert (i < length l) by (apply nth_error_Some; congruence). lia. }
        assert (exists it', nth_error its' i = Some it' /\ renamed_item N it it') as (it' & J' & Q).
        { clear -F J. revert i J. induction F as [|a b its its' Q F IH]; intros [|i] J; try discriminate; cbn in *; [injection J as <-; eauto|eauto]. }
        exists (vf_layout (it_value it)), (vf_layout (it_value it')). split; [apply Q|].
        split; [exists (SizedL h its); split; [exact E|constructor; eapply nth_error_In; exact J]|]. eauto 10. }
    apply nth_error_In in I1.
    eapply (IH x); [exact I1|exact NQ| |exact G1|exact G2|exact G3|exact G4|exact X|exact Y].
    intros z hq vs RQ. apply (NS z hq vs). eapply reaches_one; [exact E|exact U|exact RQ].
  - inversion V; subst. inversion C1; subst. inversion C2; subst; try congruence. inversion W; subst. reflexivity.
Qed.
End Order.

(** ** Dehydration *)
Section Dehydration.
Context {Q S I : Type} {CS : Cmp S} {X : Xsd} {IS : IriSyntax} (N : Q -> Q -> Prop).
Variable ops : interpretation Q S I.
Notation M := (M (Q := Q) (S := S) (I := I)).

Definition dalike {A} (m m' : M A) : Prop :=
  forall st, snd (m st) = snd (m' st) /\ renamed_outcome (renamed_de_error N) eq (fst (m st)) (fst (m' st)).

Lemma d_bind {A B} (m m' : M A) (k k' : A -> M B) : dalike m m' -> (forall a, dalike (k a) (k' a)) -> dalike (bindM m k) (bindM m' k').
Proof.
  intros H K st. unfold bindM. destruct (H st) as [H1 H2]. destruct (m st) as [o s1], (m' st) as [o' s1']. cbn [fst snd] in *. subst s1'.
  destruct o, o'; cbn in H2; try contradiction; [subst; apply K| | |]; now split.
Qed.
Lemma d_ret {A} (a : A) : dalike (DehydrateModel.ret a) (DehydrateModel.ret a).
Proof. intros st. now split. Qed.
Lemma d_raise {A} e e' : renamed_de_error N e e' -> dalike (A := A) (raise e) (raise e').
Proof. intros H st. now split. Qed.
Lemma d_lift {A} (o o' : outcome (de_error Q) A) : renamed_outcome (renamed_de_error N) eq o o' -> dalike (DehydrateModel.lift o) (DehydrateModel.lift o').
Proof. intros H st. now split. Qed.
Lemma d_ok {A} (m m' : M A) : dalike m m' -> dalike (is_ok m) (is_ok m').
Proof.
  intros H st. unfold is_ok. destruct (H st) as [H1 H2]. destruct (m st) as [o s1], (m' st) as [o' s1']. cbn [fst snd] in *. subst s1'.
  destruct o, o'; cbn in H2; try contradiction; now split.
Qed.
(** Computations that raise no error. *)
Lemma d_same {A} (m : M A) : (forall st e, fst (m st) <> Err e) -> dalike m m.
Proof. intros H st. split; [reflexivity|]. specialize (H st). destruct (fst (m st)) eqn:E; cbn; auto. now elim (H e). Qed.
Lemma d_emit d : dalike (emit (Q := Q) (I := I) d) (emit d).
Proof. apply d_same. discriminate. Qed.
Lemma d_new : dalike (new_resourceM ops) (new_resourceM ops).
Proof. apply d_same. intros st e. unfold new_resourceM. destruct (new_resource ops (ds_interp st)). discriminate. Qed.
Lemma d_news n : dalike (new_resources ops n) (new_resources ops n).
Proof. induction n as [|n IH]; cbn [new_resources]; [apply d_ret|]. apply d_bind; [apply d_new|]. intros r. apply d_bind; [exact IH|]. intros rs. apply d_ret. Qed.
Lemma d_intro e n : dalike (env_intro ops e n) (env_intro ops e n).
Proof. apply d_bind; [apply d_news|]. intros rs. apply d_ret. Qed.

Lemma o_pattern e p : renamed_outcome (renamed_de_error N) eq (instantiate_pattern ops e p) (instantiate_pattern ops e p).
Proof. destruct p as [r|x]; cbn [instantiate_pattern]; [reflexivity|]. destruct (env_get e x); [reflexivity|constructor]. Qed.
Lemma o_patterns e ps : renamed_outcome (renamed_de_error N) eq (instantiate_patterns ops e ps) (instantiate_patterns ops e ps).
Proof.
  unfold instantiate_patterns. induction ps as [|p ps IH]; cbn [mapM]; [reflexivity|]. eapply o_bind; [apply o_pattern|]. intros r ? _ _ <-.
  eapply o_bind; [exact IH|]. intros rs ? _ _ <-. reflexivity.
Qed.
Lemma o_quad e q : renamed_outcome (renamed_de_error N) eq (instantiate_quad ops e q) (instantiate_quad ops e q).
Proof.
  unfold instantiate_quad. do 3 (eapply o_bind; [apply o_pattern|]; intros ? ? _ _ <-). destruct (q_g q); [|reflexivity].
  eapply o_bind; [apply o_pattern|]. intros ? ? _ _ <-. reflexivity.
Qed.
Lemma d_dataset e qs : dalike (instantiate_dataset ops e qs) (instantiate_dataset ops e qs).
Proof.
  induction qs as [|q qs IH]; cbn [instantiate_dataset]; [apply d_ret|]. apply d_bind; [apply d_lift, o_quad|]. intros q'.
  apply d_bind; [apply d_emit|]. intros _. exact IH.
Qed.
Lemma o_variant_dataset e qs : renamed_outcome (renamed_de_error N) eq (instantiate_variant_dataset ops e qs) (instantiate_variant_dataset ops e qs).
Proof.
  unfold instantiate_variant_dataset. eapply o_bind; [|intros ? ? _ _ <-; reflexivity].
  induction qs as [|q qs IH]; cbn [mapM]; [reflexivity|]. eapply o_bind; [apply o_quad|]. intros ? ? _ _ <-. eapply o_bind; [exact IH|]. intros ? ? _ _ <-. reflexivity.
Qed.
Lemma d_open e n qs : dalike (DehydrateModel.open ops e n qs) (DehydrateModel.open ops e n qs).
Proof. apply d_bind; [apply d_intro|]. intros e'. apply d_bind; [apply d_dataset|]. intros _. apply d_ret. Qed.
Lemma d_literal k v ty (m : M rdf_literal) : dehydrate_literal ops k v ty = Some m -> dalike m m.
Proof.
  intros H. destruct k, v; cbn [dehydrate_literal] in H; try discriminate; injection H as <-; apply d_same; intros st e.
  - unfold dehydrate_boolean. destruct (existsb _ _); discriminate.
  - unfold dehydrate_number. destruct (number_literal _ _); discriminate.
  - discriminate.
  - unfold dehydrate_text_string. destruct (iris_in _ _ _); discriminate.
Qed.

Section Layout.
Variables rec rec' : value -> option S -> Q -> list S -> M unit.
Hypothesis REC : forall v g r r' inputs, N r r' -> dalike (rec v g r inputs) (rec' v g r' inputs).

Lemma d_value v g f f' e : renamed_format N f f' -> dalike (dehydrate_sub_value ops rec v g f e) (dehydrate_sub_value ops rec' v g f' e).
Proof.
  intros (H1 & H2 & H3). unfold dehydrate_sub_value. rewrite <- H2, <- H3. apply d_bind; [apply d_lift, o_patterns|]. intros ins.
  apply d_bind; [|intros g'; now apply REC]. destruct (vf_graph f) as [[p|]|]; try apply d_ret. apply d_bind; [apply d_lift, o_pattern|]. intros r. apply d_ret.
Qed.
Lemma d_variants v g e vs vs' : Forall2 (renamed_variant N) vs vs' -> forall sel,
  dalike (dehydrate_variants ops rec v g e vs sel) (dehydrate_variants ops rec' v g e vs' sel).
Proof.
  intros F. induction F as [|va va' vs vs' (V1 & V2 & V3 & V4) F IH]; intros sel; cbn [dehydrate_variants]; [apply d_ret|].
  rewrite <- V2, <- V4. apply d_bind; [apply d_intro|]. intros e'. apply d_bind; [apply d_lift, o_variant_dataset|]. intros d.
  apply d_bind; [apply d_ok; now apply d_value|]. intros [|]; [|apply IH]. destruct sel; [|apply IH]. apply d_raise. constructor.
Qed.
Lemma fields_get k fs fs' : Forall2 (renamed_field N) fs fs' ->
  match bt_get k fs, bt_get k fs' with
  | Some f, Some f' => renamed_item N (f_item f) (f_item f') /\ f_required f = f_required f'
  | None, None => True
  | _, _ => False
  end.
Proof.
  intros F. induction F as [|[a f] [a' f'] fs fs' (E & H1 & H2) F IH]; cbn [bt_get]; [exact Logic.I|]. cbn [fst snd] in *. subst a'. destruct (eqb k a); auto.
Qed.
Lemma d_entries g e fs fs' : Forall2 (renamed_field N) fs fs' -> forall entries,
  dalike (dehydrate_entries ops rec g e fs entries) (dehydrate_entries ops rec' g e fs' entries).
Proof.
  intros F. induction entries as [|[k v] entries IH]; cbn [dehydrate_entries]; [apply d_ret|].
  pose proof (fields_get k _ _ F) as K. destruct (bt_get k fs) as [f|], (bt_get k fs') as [f'|]; try contradiction; [|apply d_raise; constructor].
  destruct K as [(K1 & K2 & K3) _]. rewrite <- K1, <- K3. apply d_bind; [apply d_open|]. intros e'. apply d_bind; [now apply d_value|]. intros _. exact IH.
Qed.
Lemma d_required r r' entries fs fs' : N r r' -> Forall2 (renamed_field N) fs fs' ->
  dalike (check_required (S := S) (I := I) r entries fs) (check_required r' entries fs').
Proof.
  intros H F. induction F as [|[a f] [a' f'] fs fs' (E & H1 & H2) F IH]; cbn [check_required]; [apply d_ret|]. cbn [fst snd] in *. subst a'. rewrite <- H2.
  destruct (f_required f && _); [|exact IH]. apply d_raise. now constructor.
Qed.
Lemma d_items g e it it' : renamed_item N it it' -> forall l, dalike (dehydrate_items ops rec g e it l) (dehydrate_items ops rec' g e it' l).
Proof.
  intros (K1 & K2 & K3). induction l as [|v l IH]; cbn [dehydrate_items]; [apply d_ret|]. rewrite <- K1, <- K3.
  apply d_bind; [apply d_open|]. intros e'. apply d_bind; [now apply d_value|]. intros _. exact IH.
Qed.
Lemma d_nodes g e n n' tl : renamed_item N n n' -> forall l hd, dalike (dehydrate_nodes ops rec g e n tl hd l) (dehydrate_nodes ops rec' g e n' tl hd l).
Proof.
  intros (K1 & K2 & K3). induction l as [|v l IH]; intros hd; cbn [dehydrate_nodes]; [apply d_ret|]. rewrite <- K1, <- K3.
  apply d_bind; [destruct l; [apply d_lift, o_pattern|apply d_new]|]. intros rest.
  apply d_bind; [apply d_open|]. intros e'. apply d_bind; [now apply d_value|]. intros _. apply IH.
Qed.
Lemma d_tuple g e its its' : Forall2 (renamed_item N) its its' -> forall l, dalike (dehydrate_tuple ops rec g e its l) (dehydrate_tuple ops rec' g e its' l).
Proof.
  intros F. induction F as [|it it' its its' (K1 & K2 & K3) F IH]; intros [|v l]; cbn [dehydrate_tuple]; try apply d_ret; try (apply d_raise; constructor).
  rewrite <- K1, <- K3. apply d_bind; [apply d_open|]. intros e'. apply d_bind; [now apply d_value|]. intros _. apply IH.
Qed.

Lemma d_layout v g r r' l l' inputs : N r r' -> renamed_layout N l l' ->
  dalike (dehydrate_layout ops rec v g r l inputs) (dehydrate_layout ops rec' v g r' l' inputs).
Proof.
  intros H L. destruct L as [| |h c|k h p dt|h p pat|h fs fs' F|h vs vs' F|h it it' F|h n n' hd tl F|h its its' F]; cbn [dehydrate_layout].
  - apply d_raise. constructor.
  - apply d_ret.
  - destruct (eqb v c); [|apply d_raise; constructor]. apply d_bind; [apply d_open|]. intros _. apply d_ret.
  - destruct v as [v| |]; try (apply d_raise; constructor). destruct (dehydrate_literal ops k v (into ops dt)) as [m|] eqn:E; [|apply d_raise; constructor].
    apply d_bind; [apply d_open|]. intros e. apply d_bind; [apply d_lift, o_pattern|]. intros x. apply d_bind; [eapply d_literal; eauto|].
    intros lit. apply d_same. discriminate.
  - destruct v as [[]| |]; try (apply d_raise; constructor).
    apply d_bind; [apply d_open|]. intros e. apply d_bind; [apply d_lift, o_pattern|]. intros x. destruct (is_iri s); [apply d_same; discriminate|apply d_raise; constructor].
  - destruct v; try (apply d_raise; constructor). apply d_bind; [apply d_open|]. intros e. apply d_bind; [now apply d_entries|]. intros _. now apply d_required.
  - apply d_bind; [apply d_open|]. intros e. apply d_bind; [now apply d_variants|]. intros [d|]; [apply d_emit|apply d_raise; constructor].
  - destruct v; try (apply d_raise; constructor). apply d_bind; [apply d_open|]. intros e. now apply d_items.
  - destruct v; try (apply d_raise; constructor). apply d_bind; [apply d_open|]. intros e. apply d_bind; [apply d_lift, o_pattern|]. intros x. now apply d_nodes.
  - destruct v; try (apply d_raise; constructor). apply d_bind; [apply d_open|]. intros e. now apply d_tuple.
Qed.
End Layout.

Lemma d_dehydrate (reg reg' : registry Q) : renamed_registry N reg reg' -> forall fuel v g r r' inputs, N r r' ->
  dalike (dehydrate_with ops reg fuel v g r inputs) (dehydrate_with ops reg' fuel v g r' inputs).
Proof.
  intros RR. induction fuel as [|fuel IH]; intros v g r r' inputs H; cbn [dehydrate_with]; [intros st; now split|]. unfold dehydrate_body.
  pose proof (RR _ _ H) as L. destruct (reg r) as [l|], (reg' r') as [l'|]; try contradiction; [|apply d_raise; now constructor].
  assert (input_count l' = input_count l) as -> by (destruct L; reflexivity).
  pose proof (d_layout _ _ IH v g r r' l l' inputs H L) as K. destruct (input_count l) as [n|]; [|exact K].
  destruct (Nat.eqb n (length inputs)); [exact K|apply d_raise; constructor].
Qed.
End Dehydration.

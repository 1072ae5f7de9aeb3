(** * Generic induction on hydration

    Given a postcondition on errors, panics and divergence, closed under the
    operations of [hydrate_with]. *)

From Coq Require Import String List Bool Arith NArith Permutation Sorted Qcanon Lia.
Import ListNotations.
From Verif Require Import Base BaseProofs Orders PatternModel MatchingModel MatchingSpec
  MatchingProofs ValueModel ValueProofs LayoutModel LayoutSpec HydrateModel HydrateSpec
  HydrateProofs HydrateSound.
Open Scope list_scope.
Open Scope nat_scope.

Section Post.
Context {R : Type} {CR : Cmp R} {LR : CmpLaws R} {IR : Interp R} {X : Xsd}.
Variable D : dataset R.
Variable G : quad R -> Prop.
Hypothesis EN : enumerates D G.
Variable reg : registry R.
Variable PE : hy_error R -> Prop.
Variable PP : string -> Prop.
Variable PF : Prop.
Variable U : R -> Prop.
Hypothesis GU : forall q, G q -> quad_in U q.

Definition post {A} (o : outcome (hy_error R) A) : Prop :=
  match o with
  | Ok _ => True
  | Err e => PE e
  | Panic w => PP w
  | OutOfFuel => PF
  end.

Hypothesis PE_other : forall e, (forall r, e <> LayoutNotFound r) -> PE e.

Lemma post_bind {A B} (m : outcome (hy_error R) A) (k : A -> outcome (hy_error R) B) :
  post m -> (forall a, m = Ok a -> post (k a)) -> post (bind m k).
Proof. destruct m; simpl; auto. Qed.

Definition free : Prop := forall w, PP w.

Lemma match_unique_post g ps s f :
  free \/ below_vars (length s) ps -> post (match_unique D g ps s f).
Proof.
  intros H. unfold match_unique, for_fragment.
  assert (forall w, stream_unique (stream D (with_default_graph g ps) s) = Panic w -> PP w) as P.
  { destruct H as [H|H]; [auto|]. rewrite (stream_good D G EN g ps s H).
    destruct (good (stream D (with_default_graph g ps) s)) as [|a [|b l]]; discriminate. }
  destruct (stream_unique (stream D (with_default_graph g ps) s)) as [a|[]|w|] eqn:E; simpl; auto;
    try (apply PE_other; discriminate).
  exfalso. destruct (stream D (with_default_graph g ps) s) as [|[w|a] [|[w'|b] l]]; discriminate.
Qed.

Lemma match_required_post g ps s f :
  free \/ below_vars (length s) ps -> post (match_required D g ps s f).
Proof.
  intros H. rewrite match_required_unique. apply post_bind; [now apply match_unique_post|].
  intros [a|] _; simpl; auto. apply PE_other; discriminate.
Qed.

Definition bound_all (s : subst R) (B : nat -> Prop) : Prop := forall x, B x -> exists r, binds s x r.

Lemma pattern_post s (p : pattern R) w :
  free \/ (forall x, p = PVar x -> exists r, binds s x r) ->
  post (unwrap (E := hy_error R) w (into_resource (papply s p))).
Proof.
  intros [H|H].
  - destruct (into_resource (papply s p)); simpl; auto.
  - destruct p as [r|x]; simpl; auto.
    destruct (H x eq_refl) as (r & Hr). apply sget_binds in Hr. rewrite Hr. simpl. auto.
Qed.

Variable rec : option R -> R -> list R -> hres (R := R) (typed_value R).

Definition subst_in (s : subst R) : Prop := forall x r, binds s x r -> U r.

Lemma pinst_in s p r : subst_in s -> pattern_const U p -> pinst (binds s) p r -> U r.
Proof. intros S C I. inversion I; subst; eauto. Qed.

Lemma format_post g vf s :
  free \/ (exists B, format_bound B vf /\ bound_all s B) ->
  subst_in s -> format_const U vf ->
  (forall g' inputs, Forall U inputs -> post (rec g' (vf_layout vf) inputs)) ->
  post (hydrate_format rec g vf s).
Proof.
  intros H SU FC HR. unfold hydrate_format.
  apply post_bind; [|intros inputs HI; apply post_bind; [|intros g' _; apply HR]].
  - unfold select_inputs.
    assert (forall p, In p (vf_input vf) -> free \/ (forall x, p = PVar x -> exists r, binds s x r)) as Q.
    { intros p Hp. destruct H as [H|(B & [F _] & HB)]; auto. right. intros x ->. auto. }
    induction (vf_input vf) as [|p ps IH]; cbn [mapM]; [simpl; auto|].
    apply post_bind; [apply pattern_post, Q; now left|]. intros r _.
    apply post_bind; [|simpl; auto]. apply IH. intros; apply Q; now right.
  - unfold select_graph. destruct (vf_graph vf) as [[p|]|] eqn:E; simpl; auto.
    apply post_bind; [|simpl; auto]. apply pattern_post.
    destruct H as [H|(B & [_ F] & HB)]; auto. right. intros x ->. auto.
  - apply select_inputs_Ok in HI. clear - SU FC HI. unfold format_const in FC.
    induction HI as [|p r ps rs PI _ IH]; constructor.
    + eapply pinst_in; eauto. apply FC. now left.
    + apply IH. intros; apply FC; now right.
Qed.

Lemma solution_binds s ps s' x :
  solution G s ps s' -> var_of ps x -> exists r, binds s' x r.
Proof.
  intros [_ _ Q _] (p & Hp & V). destruct (Q p Hp) as (q & _ & I1 & I2 & I3 & I4).
  destruct V as [V|[V|[V|V]]].
  - rewrite V in I1. inversion I1; eauto.
  - rewrite V in I2. inversion I2; eauto.
  - rewrite V in I3. inversion I3; eauto.
  - rewrite V in I4. inversion I4 as [|? ? I]. inversion I; eauto.
Qed.

Lemma var_of_at g (ps : list (qpat R)) x : var_of ps x -> var_of (map (at_graph g) ps) x.
Proof.
  intros (p & Hp & V). exists (at_graph g p). split; [now apply in_map|].
  unfold at_graph. destruct (q_g p) eqn:E; auto.
  destruct V as [V|[V|[V|V]]]; unfold qvar_of; simpl; auto. congruence.
Qed.

Lemma solution_keeps s ps s' x r : solution G s ps s' -> binds s x r -> binds s' x r.
Proof. intros [_ K _ _]. apply K. Qed.

Lemma var_of_dec (ps : list (qpat R)) x : var_of ps x \/ ~ var_of ps x.
Proof.
  assert (forall p : pattern R, pvar_of p x \/ ~ pvar_of p x) as PD.
  { intros [r|y]; unfold pvar_of; [right; discriminate|].
    destruct (Nat.eq_dec y x) as [->|]; [left; auto|right; congruence]. }
  induction ps as [|p ps [IH|IH]].
  - right. intros (? & [] & _).
  - left. destruct IH as (p' & I & V). exists p'. split; auto. now right.
  - assert (qvar_of p x \/ ~ qvar_of p x) as [Q|Q].
    { unfold qvar_of. destruct (PD (q_s p)), (PD (q_p p)), (PD (q_o p)); unfold pvar_of in *; auto.
      destruct (q_g p) as [pg|]; [|right; intuition discriminate].
      destruct (PD pg) as [Hg|Hg]; unfold pvar_of in *; [left; subst; auto|right].
      intuition congruence. }
    + left. exists p. split; auto. now left.
    + right. intros (p' & [<-|I] & V); auto. apply IH. exists p'. auto.
Qed.

Lemma solution_in s ps s' : subst_in s -> solution G s ps s' -> subst_in s'.
Proof.
  intros SU [L K Q O] x r B. destruct (var_of_dec ps x) as [V|V].
  2:{ apply (SU x r). unfold binds in *. now rewrite <- O. }
  destruct V as (p & Hp & V). destruct (Q p Hp) as (q & Gq & I1 & I2 & I3 & I4).
  destruct (GU q Gq) as (U1 & U2 & U3 & U4). unfold binds in B.
  destruct V as [V|[V|[V|V]]].
  - rewrite V in I1. inversion I1 as [|? ? B']; subst. unfold binds in B'. congruence.
  - rewrite V in I2. inversion I2 as [|? ? B']; subst. unfold binds in B'. congruence.
  - rewrite V in I3. inversion I3 as [|? ? B']; subst. unfold binds in B'. congruence.
  - rewrite V in I4. inversion I4 as [|? r' I Eg E4]; subst. inversion I as [|? ? B']; subst.
    unfold binds in B'. assert (r = r') as -> by congruence. apply U4. auto.
Qed.

Lemma fresh_in s n : subst_in s -> subst_in (fresh s n).
Proof. intros SU x r B. apply binds_fresh in B. eauto. Qed.

Lemma inputs_in inputs : Forall U inputs -> subst_in (map Some inputs).
Proof.
  intros F x r B. unfold binds in B. rewrite nth_error_map in B.
  destruct (nth_error inputs x) as [r'|] eqn:E; [|discriminate]. injection B as ->.
  eapply Forall_forall; eauto. eapply nth_error_In; eauto.
Qed.

Lemma header_bound g (h : header R) inputs s n :
  header_sol G g h inputs s -> n <= length inputs -> bound_all s (fixes n (h_dataset h)).
Proof.
  intros [S _] L x [Hx|Hx].
  - destruct (nth_error inputs x) as [r|] eqn:E.
    + exists r. eapply solution_keeps; eauto. apply binds_fresh.
      unfold binds. rewrite nth_error_map, E. reflexivity.
    + apply nth_error_None in E. lia.
  - eapply solution_binds; eauto using var_of_at.
Qed.

Lemma item_bound_all g s n it s' (h : header R) :
  bound_all s (fixes n (h_dataset h)) ->
  solution G (fresh s (it_intro it)) (map (at_graph g) (it_dataset it)) s' ->
  bound_all s' (fun x => fixes n (h_dataset h) x \/ var_of (it_dataset it) x).
Proof.
  intros B S x [Hx|Hx].
  - destruct (B x Hx) as (r & Hr). exists r. eapply solution_keeps; eauto. now apply binds_fresh.
  - eapply solution_binds; eauto using var_of_at.
Qed.

(** Facts shared by the loops over items. *)
Variables (h : header R) (n : nat) (s : subst R).
Hypothesis HB : free \/ bound_all s (fixes n (h_dataset h)).
Hypothesis SU : subst_in s.

Definition item_ok (it : item_layout R) : Prop :=
  (free \/ below_vars (length s + it_intro it) (it_dataset it)) /\
  (free \/ item_bound n h it) /\
  format_const U (it_value it) /\
  (forall g' inputs, Forall U inputs -> post (rec g' (vf_layout (it_value it)) inputs)).

Lemma item_format_post g it s' :
  item_ok it ->
  solution G (fresh s (it_intro it)) (map (at_graph g) (it_dataset it)) s' ->
  post (hydrate_format rec g (it_value it) s').
Proof.
  intros (_ & IB & FC & IR') S. apply format_post; eauto using solution_in, fresh_in.
  destruct HB as [F|B]; [now left|]. destruct IB as [F|IB]; [now left|]. right.
  eexists. split; [exact IB|]. eapply item_bound_all; eauto.
Qed.

Lemma fields_post g ref fs : forall m0,
  (forall k f, In (k, f) fs -> item_ok (f_item f)) ->
  post (hydrate_fields D rec g ref s fs m0).
Proof.
  induction fs as [|[k f] fs IH]; intros m0 H; cbn [hydrate_fields]; [simpl; auto|].
  assert (OK := H k f (or_introl eq_refl)).
  apply post_bind.
  - apply match_unique_post. destruct OK as ([F|B] & _); auto. right.
    unfold sintro. rewrite app_length, repeat_length. auto.
  - intros [s'|] M.
    + apply post_bind; [|intros v _; apply IH; intros; eapply H; right; eauto].
      eapply item_format_post; eauto. eapply match_unique_Some in M; eauto. apply M.
    + destruct (f_required f); [simpl; apply PE_other; discriminate|].
      apply IH. intros; eapply H; right; eauto.
Qed.

Lemma tuple_post g ref its : forall i,
  (forall it, In it its -> item_ok it) ->
  post (hydrate_tuple D rec g ref s i its).
Proof.
  induction its as [|it its IH]; intros i H; cbn [hydrate_tuple]; [simpl; auto|].
  assert (OK := H it (or_introl eq_refl)).
  apply post_bind.
  - apply match_required_post. destruct OK as ([F|B] & _); auto. right.
    unfold sintro. rewrite app_length, repeat_length. auto.
  - intros s' M. apply post_bind.
    + eapply item_format_post; eauto. eapply match_required_Ok in M; eauto. apply M.
    + intros v _. apply post_bind; [|simpl; auto]. apply IH. intros; apply H; now right.
Qed.

Lemma items_post g it :
  item_ok it ->
  post (hydrate_items rec g (it_value it)
     (stream D (with_default_graph g (it_dataset it)) (sintro s (it_intro it)))).
Proof.
  intros OK.
  assert (forall ms, (forall w, In (inl w) ms -> PP w) ->
    (forall s', In (inr s') ms ->
       solution G (fresh s (it_intro it)) (map (at_graph g) (it_dataset it)) s') ->
    post (hydrate_items rec g (it_value it) ms)) as H.
  { induction ms as [|[w|s'] ms IH]; intros HW HS; cbn [hydrate_items]; [simpl; auto| |].
    - apply HW. now left.
    - apply post_bind; [eapply item_format_post; eauto; apply HS; now left|]. intros v _.
      apply post_bind; [|simpl; auto]. apply IH; intros; [apply HW|apply HS]; now right. }
  apply H.
  - intros w I. destruct OK as ([F|B] & _); auto.
    rewrite (stream_good D G EN) in I by (unfold sintro; rewrite app_length, repeat_length; auto).
    apply in_map_iff in I as (? & ? & _). discriminate.
  - intros s' I. rewrite with_default_graph_at in I. eapply stream_sound in I; eauto.
Qed.

Lemma variants_post g ref vs : forall i sel,
  (forall va, In va vs ->
     (free \/ below_vars (length s) (it_dataset (va_item va))) /\
     (free \/ item_bound n h (va_item va)) /\
     format_const U (it_value (va_item va)) /\
     (forall g' inputs, Forall U inputs -> post (rec g' (vf_layout (it_value (va_item va))) inputs))) ->
  PP "hydrate: variant ambiguity" ->
  post (hydrate_variants D rec g ref s i vs sel).
Proof.
  induction vs as [|va vs IH]; intros i sel H HP; cbn [hydrate_variants]; [simpl; auto|].
  assert (OK := H va (or_introl eq_refl)).
  assert (forall i sel, post (hydrate_variants D rec g ref s i vs sel)) as IH'.
  { intros. apply IH; auto. intros; apply H; now right. }
  apply post_bind; [apply match_unique_post; apply OK|].
  intros [s'|] M; auto.
  assert (post (hydrate_format rec g (it_value (va_item va)) s')) as F.
  { eapply match_unique_Some in M; eauto. destruct M as [S _].
    destruct OK as (_ & IB & FC & IR'). apply format_post; eauto using solution_in.
    destruct HB as [F|B]; [now left|]. destruct IB as [F|IB]; [now left|]. right.
    eexists. split; [exact IB|]. intros x [Hx|Hx].
    - destruct (B x Hx) as (r & Hr). exists r. eapply solution_keeps; eauto.
    - eapply solution_binds; eauto using var_of_at. }
  destruct (hydrate_format rec g (it_value (va_item va)) s') as [v|e|w|] eqn:E; simpl in F; auto.
  destruct sel; simpl; auto.
Qed.

(** [rank]: some measure of resources that decreases along the links of a list. *)
Definition links_decrease (node : item_layout R) (rank : R -> nat) : Prop :=
  forall g head s' next,
    solution G (fresh (s ++ [Some head]) (1 + it_intro node)) (map (at_graph g) (it_dataset node)) s' ->
    binds s' (length s + 1) next -> rank next < rank head.

Lemma nodes_post g ref node tail :
  (free \/ below_vars (length s + 2 + it_intro node) (it_dataset node)) ->
  (free \/ (format_bound (fun x => fixes n (h_dataset h) x \/ x = length s \/ var_of (it_dataset node) x)
                   (it_value node) /\ var_of (it_dataset node) (length s + 1))) ->
  format_const U (it_value node) ->
  (forall g' inputs, Forall U inputs -> post (rec g' (vf_layout (it_value node)) inputs)) ->
  forall fuel head, U head ->
  (PF \/ exists rank, links_decrease node rank /\ rank head < fuel) ->
  post (hydrate_nodes D rec fuel g ref s node head tail).
Proof.
  intros NS NB FC NR. induction fuel as [|fuel IH]; intros head Uh T; cbn [hydrate_nodes].
  { destruct T as [T|(rank & _ & T)]; [exact T|lia]. }
  destruct (eqb head tail); [simpl; auto|].
  apply post_bind.
  - apply match_required_post. destruct NS as [F|B]; auto. right.
    unfold sintro, spush. rewrite !app_length, repeat_length. simpl. 
    intros x Hx. apply B in Hx. lia.
  - intros s' M. eapply match_required_Ok in M; eauto. destruct M as [S _].
    rewrite spush_fresh in S.
    assert (subst_in s') as SU'.
    { eapply solution_in; [|exact S]. apply fresh_in. intros x r B. unfold binds in B.
      destruct (Nat.lt_ge_cases x (length s)) as [L|L].
      - rewrite nth_error_app1 in B by auto. eapply SU; eauto.
      - rewrite nth_error_app2 in B by auto. destruct (x - length s) as [|[|]]; simpl in B; try discriminate.
        now injection B as <-. }
    apply post_bind; [|intros v _; apply post_bind].
    + apply format_post; auto.
      destruct HB as [F|B]; [now left|]. destruct NB as [F|[NB _]]; [now left|]. right.
      eexists. split; [exact NB|]. intros x [Hx|[Hx|Hx]].
      * destruct (B x Hx) as (r & Hr). exists r. eapply solution_keeps; eauto.
        apply binds_fresh. unfold binds in *. rewrite nth_error_app1; auto.
        apply nth_error_Some. congruence.
      * exists head. eapply solution_keeps; eauto. apply binds_fresh. subst x.
        unfold binds. rewrite nth_error_app2, Nat.sub_diag; auto.
      * eapply solution_binds; eauto using var_of_at.
    + destruct NB as [F|[_ V]].
      * destruct (sget s' (length s + 1)); simpl; auto.
      * destruct (solution_binds _ _ _ _ S (var_of_at g _ _ V)) as (r & Hr).
        apply sget_binds in Hr. rewrite Hr. simpl. auto.
    + intros next Hn. apply unwrap_Ok, sget_binds in Hn. apply post_bind; [|simpl; auto].
      apply IH; [eauto|].
      destruct T as [T|(rank & LD & T)]; auto. right. exists rank. split; auto.
      pose proof (LD _ _ _ _ S Hn). lia.
Qed.

End Post.

Section PostLayout.
Context {R : Type} {CR : Cmp R} {LR : CmpLaws R} {IR : Interp R} {X : Xsd}.
Variable D : dataset R.
Variable G : quad R -> Prop.
Hypothesis EN : enumerates D G.
Variable PE : hy_error R -> Prop.
Variable PP : string -> Prop.
Variable PF : Prop.
Variable U : R -> Prop.
Hypothesis GU : forall q, G q -> quad_in U q.
Hypothesis PE_other : forall e, (forall r, e <> LayoutNotFound r) -> PE e.
Notation post := (post PE PP PF).
Notation free := (free PP).

(** The requirements on a layout. *)
Definition layout_ok (fuel : nat) (l : layout R) : Prop :=
  (free \/ patterns_scoped l) /\ (free \/ variables_bound l) /\ constants_in U l /\
  match l with
  | DataL k _ _ dt => forall r ref w, U r -> hydrate_literals k ref dt (literals_of r) None = Panic w -> PP w
  | IdL _ _ _ => (PP "hydrate: no IRI matching the layout" /\ PP "hydrate: IRI ambiguity")
                 \/ forall r : R, U r -> exists iri, iris_of r = [iri]
  | SumL _ _ => PP "hydrate: variant ambiguity" /\ PP "hydrate: no variant found"
  | OrderedL h node _ _ => PF \/ exists rank, 
      (forall s, length s = h_input h + h_intro h -> links_decrease G s node rank) /\
      forall r, rank r < fuel
  | _ => True
  end.

Lemma literals_post k ref dt r :
  (forall w, hydrate_literals k ref dt (literals_of r) None = Panic w -> PP w) ->
  post (hydrate_literals k ref dt (literals_of r) None).
Proof.
  intros H.
  assert (forall ls sel, match hydrate_literals k ref dt ls sel with
     | Err e => forall r, e <> LayoutNotFound r | OutOfFuel => False | _ => True end) as NF.
  { induction ls as [|l ls IH]; intros sel; cbn [hydrate_literals].
    { destruct sel; cbn; auto. discriminate. }
    destruct (rl_type l) as [i|]; auto. destruct (existsb (eqb i) (iris_of dt)); auto.
    destruct (hydrate_literal_value k ref (rl_value l) i) eqn:V; cbn [bind]; auto.
    - destruct sel; auto. apply IH.
    - unfold hydrate_literal_value in V. destruct k; cbn in V; try discriminate.
      + unfold hydrate_boolean_value in V. destruct (eqb i xsd_boolean); try discriminate.
        destruct (boolean_parse (rl_value l)); discriminate.
      + unfold hydrate_number_value in V. destruct (is_decimal_type i); try discriminate.
        destruct (decimal_parse (rl_value l)); discriminate.
        injection V as <-. discriminate.
    - unfold hydrate_literal_value in V. destruct k; cbn in V; try discriminate.
      + unfold hydrate_boolean_value in V. destruct (eqb i xsd_boolean); try discriminate.
        destruct (boolean_parse (rl_value l)); discriminate.
      + unfold hydrate_number_value in V. destruct (is_decimal_type i); try discriminate.
        destruct (decimal_parse (rl_value l)); discriminate.
    - apply IH. }
  specialize (NF (literals_of r) None).
  destruct (hydrate_literals k ref dt (literals_of r) None) as [t|e|w|] eqn:E; simpl; auto.
  contradiction.
Qed.

Variable rec : option R -> R -> list R -> hres (R := R) (typed_value R).

Lemma layout_post fuel g ref l inputs :
  (forall k, arity l = Some k -> length inputs = k) ->
  layout_ok fuel l -> Forall U inputs ->
  (forall r, uses l r -> forall g' inputs', Forall U inputs' -> post (rec g' r inputs')) ->
  post (hydrate_layout D rec fuel g ref l inputs).
Proof.
  intros AR (SC & VB & CI & LO) IU HR.
  assert (HD : forall h, (free \/ below_vars (length inputs + h_intro h) (h_dataset h)) ->
     post (match_header D g ref h inputs)).
  { intros h H. eapply match_required_post; eauto. destruct H; auto. right.
    unfold sintro, from_inputs. rewrite app_length, map_length, repeat_length. auto. }
  assert (HS : forall h s, match_header D g ref h inputs = Ok s -> header_sol G g h inputs s).
  { intros. eapply header_Ok; eauto. }
  assert (HL : forall h s, match_header D g ref h inputs = Ok s -> length s = length inputs + h_intro h).
  { intros h s E. apply HS, the_solution_length in E. now rewrite E, fresh_length, map_length. }
  assert (HU : forall h s, match_header D g ref h inputs = Ok s -> subst_in U s).
  { intros h s E. destruct (HS h s E) as [S _]. eapply solution_in; [eauto| |exact S].
    apply fresh_in. now apply inputs_in. }
  assert (HBd : forall h s n, match_header D g ref h inputs = Ok s -> n <= length inputs ->
     free \/ bound_all s (fixes n (h_dataset h))).
  { intros h s n E L. right. eapply header_bound; eauto. }
  destruct l; cbn [hydrate_layout]; cbn [arity] in AR.
  - simpl. apply PE_other; discriminate.
  - simpl; auto.
  - apply post_bind; [|simpl; auto]. apply HD. destruct SC as [F|SC]; auto. right.
    cbn in SC. rewrite (AR 1); auto.
  - apply post_bind; [|intros s E; apply post_bind].
    + apply HD. destruct SC as [F|SC]; auto. right. cbn in SC. rewrite (AR 1); auto.
    + apply pattern_post. destruct VB as [F|VB]; auto. cbn in VB.
      destruct (HBd h s 1 E) as [F|B]; [rewrite (AR 1); auto|now left|]. right.
      intros x Hx. apply B. auto.
    + intros r Hr. apply post_bind; [|simpl; auto]. apply literals_post. intros w. apply LO.
      apply unwrap_Ok, papply_pinst in Hr. eapply pinst_in; eauto.
  - apply post_bind; [|intros s E; apply post_bind].
    + apply HD. destruct SC as [F|SC]; auto. right. cbn in SC. rewrite (AR 1); auto.
    + apply pattern_post. destruct VB as [F|VB]; auto. cbn in VB.
      destruct (HBd h s 1 E) as [F|B]; [rewrite (AR 1); auto|now left|]. right.
      intros x Hx. apply B. auto.
    + intros r Hr. destruct LO as [[L1 L2]|L].
      * destruct (iris_of r) as [|i [|]]; simpl; auto.
      * destruct (L r) as (i & ->); [|simpl; auto].
        apply unwrap_Ok, papply_pinst in Hr. eapply pinst_in; eauto.
  - specialize (AR _ eq_refl). apply post_bind; [|intros s E; apply post_bind; [|simpl; auto]].
    + apply HD. destruct SC as [F|[SC _]]; auto. right. now rewrite AR.
    + eapply fields_post with (h := h) (n := h_input h); eauto; [apply HBd; [auto|lia]|].
      intros k f I. split; [|split; [|split]]; [| |eapply CI; eauto|].
      * destruct SC as [F|[_ SC]]; auto. right. rewrite (HL _ _ E), AR. eauto.
      * destruct VB as [F|VB]; [now left|right; eauto].
      * intros. apply HR; auto. eapply U_field; eauto.
  - specialize (AR _ eq_refl). apply post_bind; [|intros s E; apply post_bind].
    + apply HD. destruct SC as [F|[SC _]]; auto. right. now rewrite AR.
    + eapply variants_post with (h := h) (n := h_input h); eauto; [apply HBd; [auto|lia]| |apply LO].
      intros va I. split; [|split; [|split]]; [| |eapply CI; eauto|].
      * destruct SC as [F|[_ SC]]; auto. right. rewrite (HL _ _ E), AR. eauto.
      * destruct VB as [F|VB]; [now left|right; eauto].
      * intros. apply HR; auto. eapply U_variant; eauto.
    + intros [[i v]|] _; simpl; auto. apply LO.
  - specialize (AR _ eq_refl). apply post_bind; [|intros s E; apply post_bind; [|simpl; auto]].
    + apply HD. destruct SC as [F|[SC _]]; auto. right. now rewrite AR.
    + eapply items_post with (h := h) (n := h_input h); eauto; [apply HBd; [auto|lia]|].
      split; [|split; [|split]]; [| |exact CI|].
      * destruct SC as [F|[_ SC]]; auto. right. rewrite (HL _ _ E), AR. eauto.
      * destruct VB as [F|VB]; auto.
      * intros. apply HR; auto. constructor.
  - specialize (AR _ eq_refl).
    apply post_bind; [|intros s E; apply post_bind; [|intros hd Hh; apply post_bind;
       [|intros tl Ht; apply post_bind; [|simpl; auto]]]].
    + apply HD. destruct SC as [F|[SC _]]; auto. right. now rewrite AR.
    + apply pattern_post. destruct VB as [F|(V1 & V2 & _)]; auto.
      destruct (HBd h s (h_input h) E) as [F|B]; [lia|now left|]. right.
      intros x Hx. apply B. now apply V1.
    + apply pattern_post. destruct VB as [F|(V1 & V2 & _)]; auto.
      destruct (HBd h s (h_input h) E) as [F|B]; [lia|now left|]. right.
      intros x Hx. apply B. now apply V2.
    + eapply nodes_post with (h := h) (n := h_input h); eauto; [apply HBd; [auto|lia]|..].
      * destruct SC as [F|[_ SC]]; auto. right. rewrite (HL _ _ E), AR. eauto.
      * destruct VB as [F|(_ & _ & V1 & V2)]; auto. right. rewrite (HL _ _ E), AR. auto.
      * apply CI.
      * intros. apply HR; auto. constructor.
      * apply unwrap_Ok, papply_pinst in Hh. eapply pinst_in; [eapply HU; eauto|exact (proj1 CI)|exact Hh].
      * destruct LO as [F|(rank & L1 & L2)]; auto. right. exists rank. split; auto.
        apply L1. now rewrite (HL _ _ E), AR.
  - specialize (AR _ eq_refl). apply post_bind; [|intros s E; apply post_bind; [|simpl; auto]].
    + apply HD. destruct SC as [F|[SC _]]; auto. right. now rewrite AR.
    + eapply tuple_post with (h := h) (n := h_input h); eauto; [apply HBd; [auto|lia]|].
      intros it I. split; [|split; [|split]]; [| |eapply CI; eauto|].
      * destruct SC as [F|[_ SC]]; auto. right. rewrite (HL _ _ E), AR. eauto.
      * destruct VB as [F|VB]; auto.
      * intros. apply HR; auto. now constructor.
Qed.

Variable reg : registry R.

Lemma body_post fuel g ref inputs :
  (reg ref = None -> PE (LayoutNotFound ref)) -> Forall U inputs ->
  (forall l, reg ref = Some l -> layout_ok fuel l /\
     forall r, uses l r -> forall g' inputs', Forall U inputs' -> post (rec g' r inputs')) ->
  post (hydrate_body D reg rec fuel g ref inputs).
Proof.
  intros HN IU HL. unfold hydrate_body. destruct (reg ref) as [l|]; cbn [ok_or bind]; [|simpl; auto].
  destruct (HL l eq_refl) as [H1 H2]. rewrite <- arity_input_count.
  destruct (arity l) as [k|] eqn:A.
  - destruct (Nat.eqb_spec k (length inputs)) as [L|L].
    + apply layout_post; auto. congruence.
    + simpl. apply PE_other. discriminate.
  - apply layout_post; auto. congruence.
Qed.

End PostLayout.

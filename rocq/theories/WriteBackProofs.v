(** * What dehydration writes for a value read from a dataset is in the dataset: the runs (C100) *)

From Coq Require Import String List Bool Arith NArith Permutation Sorted Qcanon Lia.
Import ListNotations.
From Verif Require Import Base BaseProofs Orders PatternModel MatchingModel MatchingSpec ValueModel ValueProofs LayoutModel LayoutSpec
  HydrateModel HydrateSpec TermModel DehydrateModel DehydrateSpec DehydrateProofs DehydrateEmits DehydrateFinish RoundTripSpec WriteBackSpec.
Open Scope list_scope.
Open Scope nat_scope.

(** ** Substitutions *)
Section Subst.
Context {R : Type}.

Lemma binds_full (ts : list R) x r : binds (map Some ts) x r <-> nth_error ts x = Some r.
Proof.
  unfold binds. rewrite nth_error_map. destruct (nth_error ts x); cbn [option_map]; split; congruence.
Qed.

Lemma full_subst (s : subst R) : (forall x, x < length s -> exists r, binds s x r) -> exists ts, s = map Some ts.
Proof.
  induction s as [|o s IH]; intro H; [exists []; reflexivity|].
  destruct (H 0) as [r Hr]; [cbn [length]; lia|]. unfold binds in Hr. cbn [nth_error] in Hr. injection Hr as ->.
  destruct IH as [ts ->].
  - intros x Hx. apply (H (S x)). cbn [length]. lia.
  - exists (r :: ts). reflexivity.
Qed.

Lemma pinst_det (B : nat -> R -> Prop) p r r' : (forall x a b, B x a -> B x b -> a = b) -> pinst B p r -> pinst B p r' -> r = r'.
Proof. intros D H H'. destruct H; inversion H'; subst; [reflexivity|]. eapply D; eassumption. Qed.

Lemma qinst_binds (B : nat -> R -> Prop) p q x : qinst B p q -> qvar_of p x -> exists r, B x r.
Proof.
  intros (Hs & Hp & Ho & Hg) [E|[E|[E|E]]]; unfold pvar_of in E; rewrite E in *.
  - inversion Hs; subst; eauto.
  - inversion Hp; subst; eauto.
  - inversion Ho; subst; eauto.
  - inversion Hg as [|p' r Hp' E1 E2]; subst. inversion Hp'; subst. eauto.
Qed.

Lemma prefix_of (ts : list R) : forall ts', (forall i r, nth_error ts i = Some r -> nth_error ts' i = Some r) -> exists us, ts' = ts ++ us.
Proof.
  induction ts as [|t ts IH]; intros ts' H; [exists ts'; reflexivity|].
  pose proof (H 0 t eq_refl) as H0. destruct ts' as [|t' ts']; [discriminate|]. cbn [nth_error] in H0. injection H0 as ->.
  destruct (IH ts') as [us ->]; [|exists us; reflexivity]. intros i r Hr. exact (H (S i) r Hr).
Qed.

(** When the new variables are used, a solution gives a value to all of them. *)
Lemma solution_full (G : quad R -> Prop) ts n ps s' :
  solution G (fresh (map Some ts) n) ps s' -> (forall x, length ts <= x < length ts + n -> var_of ps x) ->
  exists us, s' = map Some (ts ++ us) /\ length us = n.
Proof.
  intros [SL SE SQ SO] U. unfold fresh in *. rewrite app_length, map_length, repeat_length in SL.
  destruct (full_subst s') as [ts' E].
  - intros x Hx. rewrite SL in Hx. destruct (Nat.lt_ge_cases x (length ts)) as [L|L].
    + destruct (nth_error ts x) as [r|] eqn:Er; [|apply nth_error_None in Er; lia].
      exists r. apply SE. unfold binds. rewrite nth_error_app1 by (rewrite map_length; exact L). now rewrite nth_error_map, Er.
    + destruct (U x) as (p & Hp & Hv); [lia|]. destruct (SQ p Hp) as (q & _ & Hq). eapply qinst_binds; eassumption.
  - subst s'. rewrite map_length in SL. destruct (prefix_of ts ts') as [us ->].
    + intros i r Hr. apply binds_full, SE. unfold binds. rewrite nth_error_app1 by (rewrite map_length; apply nth_error_Some; congruence).
      now rewrite nth_error_map, Hr.
    + exists us. split; [reflexivity|]. rewrite app_length in SL. lia.
Qed.

Lemma at_default (ps : list (qpat R)) : map (at_graph None) ps = ps.
Proof.
  induction ps as [|[s p o [g|]] ps IH]; cbn [map]; [reflexivity|..]; now rewrite IH.
Qed.
End Subst.

(** ** Runs *)
Section Runs.
Context {X : Xsd} {IS : IriSyntax}.
Variable G : quad term -> Prop.
Variable reg : registry term.
Hypothesis plain : plain_registry reg.
Hypothesis sorted : registry_sorted reg.
Notation ops := input_interpretation.
Notation state := (dstate res input_interp).

Definition cnt (st : state) : nat := ii_anonymous_count (ds_interp st).
Definition below (c : nat) (r : res) : Prop := match r with RAnon i => i < c | _ => True end.
Definition agree (c : nat) (th th' : res -> term) : Prop := forall r, below c r -> th r = th' r.

(** [th] sends what was written in the dataset, and the resources on the terms they were given. *)
Record Inv (st : state) (th : res -> term) : Prop := {
  iv_term : forall t, th (RTerm t) = t;
  iv_out : forall q, In q (ds_output st) -> G (quad_map th q) /\ forall r, quad_res q r -> below (cnt st) r;
  iv_asg : forall r t, assigned st r t -> normal_term t (th r) /\ below (cnt st) r
}.

Definition step (st : state) (th : res -> term) (st' : state) (th' : res -> term) : Prop :=
  agree (cnt st) th th' /\ Inv st' th' /\ cnt st <= cnt st'.

Lemma below_le c c' r : c <= c' -> below c r -> below c' r.
Proof. destruct r; cbn [below]; auto. lia. Qed.

Lemma agree_refl c th : agree c th th.
Proof. intros r _. reflexivity. Qed.

Lemma step_refl st th : Inv st th -> step st th st th.
Proof. intro I. split; [apply agree_refl|]. split; [exact I|lia]. Qed.

Lemma step_trans a th b th' c th'' : step a th b th' -> step b th' c th'' -> step a th c th''.
Proof.
  intros (A1 & I1 & L1) (A2 & I2 & L2). split; [|split; [exact I2|lia]].
  intros r Hr. rewrite (A1 r Hr). apply A2. eapply below_le; eassumption.
Qed.

Lemma quad_map_ext (th th' : res -> term) q : (forall r, quad_res q r -> th r = th' r) -> quad_map th q = quad_map th' q.
Proof.
  intro H. unfold quad_map. rewrite (H (q_s q)), (H (q_p q)), (H (q_o q)) by (unfold quad_res; auto). f_equal.
  destruct (q_g q) as [g|] eqn:E; cbn [option_map]; [|reflexivity]. rewrite (H g); [reflexivity|]. unfold quad_res. auto.
Qed.

(** More resources, with values. *)
Lemma inv_more (st : state) th th' n :
  Inv st th -> agree (cnt st) th th' ->
  Inv (DState (InputInterp (ii_map (ds_interp st)) (cnt st + n)) (ds_output st)) th'.
Proof.
  intros [IT IO IA] A. split.
  - intro t. rewrite <- (A (RTerm t)); [apply IT|exact Logic.I].
  - intros q Hq. destruct (IO q Hq) as [Hg Hb]. unfold cnt. cbn [ds_interp ii_anonymous_count]. split.
    + rewrite <- (quad_map_ext th th'); [exact Hg|]. intros r Hr. apply A, Hb, Hr.
    + intros r Hr. eapply below_le; [|apply Hb, Hr]. unfold cnt. lia.
  - intros r t Ht. destruct (IA r t Ht) as [Hs Hb]. unfold cnt. cbn [ds_interp ii_anonymous_count]. split.
    + rewrite <- (A r Hb). exact Hs.
    + eapply below_le; [|exact Hb]. unfold cnt. lia.
Qed.

(** Quads added. *)
Lemma inv_quads (st st' : state) th (P : quad res -> Prop) :
  Inv st th -> ds_interp st' = ds_interp st -> (forall q, In q (ds_output st') -> In q (ds_output st) \/ P q) ->
  (forall q, P q -> G (quad_map th q) /\ forall r, quad_res q r -> below (cnt st) r) -> Inv st' th.
Proof.
  intros [IT IO IA] E O HP. split.
  - exact IT.
  - intros q Hq. unfold cnt. rewrite E. destruct (O q Hq) as [H|H]; [now apply IO|now apply HP].
  - intros r t Ht. unfold assigned, cnt in *. rewrite E in *. now apply IA.
Qed.

(** ** Environments *)

Lemma inst_value th env p r t :
  (forall t, th (RTerm t) = t) -> inst RTerm env p r -> pinst (binds (map Some (map th env))) p t -> th r = t.
Proof.
  intros FT H H'. destruct H as [q|x r H]; inversion H'; subst; [apply FT|].
  rewrite binds_full, nth_error_map, H in *. cbn [option_map] in *. congruence.
Qed.

Lemma inst_below c env p r : Forall (below c) env -> inst RTerm env p r -> below c r.
Proof.
  intros F H. destruct H as [q|x r H]; [exact Logic.I|]. rewrite Forall_forall in F. apply F. eapply nth_error_In; exact H.
Qed.

Lemma inst_quad_value th env p q q' :
  (forall t, th (RTerm t) = t) -> inst_quad RTerm env p q -> qinst (binds (map Some (map th env))) p q' -> quad_map th q = q'.
Proof.
  intros FT (Is & Ip & Io & Ig) (Ps & Pp & Po & Pg). destruct q' as [s' p' o' g']. cbn [q_s q_p q_o q_g] in *.
  unfold quad_map. rewrite (inst_value _ _ _ _ _ FT Is Ps), (inst_value _ _ _ _ _ FT Ip Pp), (inst_value _ _ _ _ _ FT Io Po). f_equal.
  inversion Ig as [E1 E2|gp g Hg E1 E2]; inversion Pg as [E3 E4|gp' g'' Hg' E3 E4]; cbn [option_map]; try congruence.
  f_equal. eapply inst_value; [exact FT|exact Hg|]. replace gp with gp' by congruence. exact Hg'.
Qed.

Lemma inst_quad_below c env p q r : Forall (below c) env -> inst_quad RTerm env p q -> quad_res q r -> below c r.
Proof.
  intros F (Is & Ip & Io & Ig) H. destruct H as [H|[H|[H|H]]].
  - rewrite <- H. eapply inst_below; eassumption.
  - rewrite <- H. eapply inst_below; eassumption.
  - rewrite <- H. eapply inst_below; eassumption.
  - inversion Ig as [E1 E2|gp g Hg E1 E2]; [congruence|]. replace r with g by congruence. eapply inst_below; eassumption.
Qed.

(** Values for the resources from [c]. *)
Definition extend (c : nat) (us : list term) (th : res -> term) (r : res) : term :=
  match r with
  | RAnon i => if Nat.ltb i c then th r else nth (i - c) us (th r)
  | _ => th r
  end.

Lemma extend_agree c us th : agree c th (extend c us th).
Proof. intros [i|i|t] H; cbn [extend]; try reflexivity. cbn [below] in H. destruct (Nat.ltb_spec i c); [reflexivity|lia]. Qed.

Lemma extend_new c us th : map (extend c us th) (map RAnon (seq c (length us))) = us.
Proof.
  rewrite map_map. cbn [extend].
  assert (forall l pre, map (fun i => if Nat.ltb i c then th (RAnon i) else nth (i - c) (pre ++ l) (th (RAnon i))) (seq (c + length pre) (length l)) = l) as H.
  { induction l as [|u l IH]; intro pre; cbn [length seq map]; [reflexivity|]. f_equal.
    - destruct (Nat.ltb_spec (c + length pre) c); [lia|]. replace (c + length pre - c) with (length pre) by lia.
      rewrite app_nth2 by lia. now rewrite Nat.sub_diag.
    - specialize (IH (pre ++ [u])). rewrite app_length in IH. cbn [length] in IH. rewrite <- app_assoc in IH. cbn [app] in IH.
      replace (c + (length pre + 1)) with (S (c + length pre)) in IH by lia. exact IH. }
  specialize (H us []). cbn [length app] in H. now rewrite Nat.add_0_r in H.
Qed.

Lemma map_agree c th th' rs : agree c th th' -> Forall (below c) rs -> map th rs = map th' rs.
Proof. intros A F. apply map_ext_in. intros r Hr. apply A. rewrite Forall_forall in F. now apply F. Qed.

Lemma Forall_below_le c c' rs : c <= c' -> Forall (below c) rs -> Forall (below c') rs.
Proof. intros L F. eapply Forall_impl; [|exact F]. intro r. now apply below_le. Qed.

Lemma new_below c n : Forall (below (c + n)) (map RAnon (seq c n)).
Proof. apply Forall_forall. intros r Hr. apply in_map_iff in Hr as (i & <- & Hi). apply in_seq in Hi. cbn [below]. lia. Qed.

(** Opening a scope, where a solution is known. *)
Lemma intro_step st th e n s' ps :
  Inv st th -> Forall (below (cnt st)) (env_list e) ->
  solution G (fresh (map Some (map th (env_list e))) n) ps s' -> used_where_introduced (length (env_list e)) n ps ->
  let st1 := DState (InputInterp (ii_map (ds_interp st)) (cnt st + n)) (ds_output st) in
  let e' := Child e (map RAnon (seq (cnt st) n)) in
  exists th', step st th st1 th' /\ Forall (below (cnt st1)) (env_list e') /\ s' = map Some (map th' (env_list e')) /\
    (forall p q, In p ps -> inst_quad RTerm (env_list e') p q -> G (quad_map th' q) /\ forall r, quad_res q r -> below (cnt st1) r).
Proof.
  intros I F SOL U st1 e'.
  destruct (solution_full _ _ _ _ _ SOL) as (us & Es & Lu).
  { intros x Hx. apply U. rewrite map_length in Hx. lia. }
  exists (extend (cnt st) us th).
  assert (I1 : Inv st1 (extend (cnt st) us th)) by (apply inv_more with (th := th); [exact I|apply extend_agree]).
  assert (F1 : Forall (below (cnt st1)) (env_list e')).
  { unfold e', st1. cbn [env_list]. unfold cnt at 1. cbn [ds_interp ii_anonymous_count]. apply Forall_app. split.
    - eapply Forall_below_le; [|exact F]. unfold cnt. lia.
    - apply new_below. }
  assert (E1 : s' = map Some (map (extend (cnt st) us th) (env_list e'))).
  { rewrite Es. f_equal. unfold e'. cbn [env_list]. rewrite map_app, <- Lu, extend_new. f_equal.
    apply (map_agree (cnt st)); [apply extend_agree|exact F]. }
  split; [|split; [exact F1|split; [exact E1|]]].
  - split; [apply extend_agree|]. split; [exact I1|]. unfold st1, cnt. cbn [ds_interp ii_anonymous_count]. lia.
  - intros p q Hp Hi. split.
    + destruct (sol_quads _ _ _ _ SOL p Hp) as (q0 & Hq0 & Hi0). rewrite E1 in Hi0.
      rewrite (inst_quad_value _ _ _ _ _ (iv_term _ _ I1) Hi Hi0). exact Hq0.
    + intros r Hr. eapply inst_quad_below; eassumption.
Qed.

Lemma open_step st th e n ps e' st' s' :
  Inv st th -> Forall (below (cnt st)) (env_list e) -> open ops e n ps st = (Ok e', st') ->
  solution G (fresh (map Some (map th (env_list e))) n) ps s' -> used_where_introduced (length (env_list e)) n ps ->
  exists th', step st th st' th' /\ Forall (below (cnt st')) (env_list e') /\ s' = map Some (map th' (env_list e')) /\
    length (env_list e') = length (env_list e) + n.
Proof.
  intros I F H SOL U. apply open_Ok in H as (rs & -> & -> & HI & HO & _).
  destruct (intro_step st th e n s' ps I F SOL U) as (th' & (A & I1 & L1) & F1 & E1 & Q).
  assert (C : cnt st' = cnt st + n) by (unfold cnt; rewrite HI; reflexivity).
  exists th'. split; [split; [exact A|split; [|lia]]|split; [|split; [exact E1|]]].
  - eapply inv_quads; [exact I1| |intros q Hq; apply HO in Hq; exact Hq|].
    + rewrite HI. reflexivity.
    + intros q (p & Hp & Hi). now apply (Q p q).
  - rewrite C. exact F1.
  - cbn [env_list]. now rewrite app_length, map_length, seq_length.
Qed.

Lemma agree_step st th st' th' : step st th st' th' -> agree (cnt st) th th'.
Proof. now intros (A & _). Qed.
Lemma inv_step st th st' th' : step st th st' th' -> Inv st' th'.
Proof. now intros (_ & I & _). Qed.
Lemma le_step st th st' th' : step st th st' th' -> cnt st <= cnt st'.
Proof. now intros (_ & _ & L). Qed.
Lemma below_step st th st' th' rs : step st th st' th' -> Forall (below (cnt st)) rs -> Forall (below (cnt st')) rs.
Proof. intros S. apply Forall_below_le. eapply le_step, S. Qed.
Lemma map_step st th st' th' rs : step st th st' th' -> Forall (below (cnt st)) rs -> map th rs = map th' rs.
Proof. intros S. apply map_agree. eapply agree_step, S. Qed.

(** ** The layouts *)
Section Body.
Variable rec : value -> option res -> term -> list res -> M (Q := term) (S := res) (I := input_interp) unit.
Hypothesis rec_step : forall tv g ref inputs st st' th,
  rec (into_untyped tv) g ref inputs st = (Ok tt, st') -> Inv st th -> Forall (below (cnt st)) inputs ->
  Means G reg false None ref (map th inputs) tv -> exists th', step st th st' th'.
Hypothesis rec_refuses : forall v g ref inputs st o st',
  (forall l, reg ref = Some l -> ~ takes l v) -> rec v g ref inputs st = (o, st') -> o <> Ok tt /\ st' = st.

Lemma inst_values th env ps rs ts :
  (forall t, th (RTerm t) = t) -> Forall2 (inst RTerm env) ps rs -> Forall2 (pinst (binds (map Some (map th env)))) ps ts -> map th rs = ts.
Proof.
  intros FT H. revert ts. induction H as [|p r ps rs Hp H IH]; intros ts H'; inversion H' as [|? t ? ts' Ht Hts]; subst; [reflexivity|].
  cbn [map]. f_equal; [eapply inst_value; eassumption|now apply IH].
Qed.

Lemma insts_below c env ps rs : Forall (below c) env -> Forall2 (inst RTerm env) ps rs -> Forall (below c) rs.
Proof. intros F H. induction H; [constructor|]. constructor; [eapply inst_below; [exact F|eassumption]|assumption]. Qed.

Lemma sub_value_step tv g vf e st st' th :
  dehydrate_sub_value ops rec (into_untyped tv) g vf e st = (Ok tt, st') -> Inv st th -> Forall (below (cnt st)) (env_list e) ->
  no_named_graph vf -> VMeans G reg false None (map Some (map th (env_list e))) vf tv -> exists th', step st th st' th'.
Proof.
  intros H I F NG HM. unfold dehydrate_sub_value in H.
  apply bindM_Ok in H as (inputs & st1 & Hi & H). apply lift_Ok in Hi as [Hi <-]. apply (instantiate_patterns_Ok ops) in Hi.
  apply bindM_Ok in H as (g' & st2 & Hg & H).
  assert (st2 = st) as ->.
  { destruct (vf_graph vf) as [[p|]|] eqn:EV; [destruct NG; congruence|..]; apply ret_Ok in Hg as [_ <-]; reflexivity. }
  inversion HM as [g0 s0 vf0 ins g1 v0 (P1 & P2) HM']; subst.
  assert (g1 = None) as ->.
  { destruct NG as [E|E]; rewrite E in P2; [exact P2|]. inversion P2. reflexivity. }
  eapply rec_step; [exact H|exact I|eapply insts_below; eassumption|].
  rewrite (inst_values _ _ _ _ _ (iv_term _ _ I) Hi P1). exact HM'.
Qed.

Lemma sub_value_refuses v g vf e st o st' :
  (forall l, reg (vf_layout vf) = Some l -> ~ takes l v) -> dehydrate_sub_value ops rec v g vf e st = (o, st') ->
  no_named_graph vf -> o <> Ok tt /\ st' = st.
Proof.
  intros NT H NG. unfold dehydrate_sub_value, bindM, lift in H.
  destruct (instantiate_patterns ops e (vf_input vf)) as [inputs|err|w|]; try (injection H as <- <-; split; [discriminate|reflexivity]).
  destruct (vf_graph vf) as [[p|]|] eqn:EV; [destruct NG; congruence|..]; unfold ret in H; eapply rec_refuses; eassumption.
Qed.

(** A component: its scope, then its value. *)
Lemma item_step tv g it e st st1 e' st' th s' :
  open ops e (it_intro it) (it_dataset it) st = (Ok e', st1) ->
  dehydrate_sub_value ops rec (into_untyped tv) g (it_value it) e' st1 = (Ok tt, st') ->
  Inv st th -> Forall (below (cnt st)) (env_list e) -> plain_item (length (env_list e)) it ->
  solution G (fresh (map Some (map th (env_list e))) (it_intro it)) (it_dataset it) s' ->
  VMeans G reg false None s' (it_value it) tv -> exists th', step st th st' th'.
Proof.
  intros H1 H2 I F (U & NG) SOL HM.
  destruct (open_step _ _ _ _ _ _ _ _ I F H1 SOL U) as (th1 & S1 & F1 & -> & _).
  destruct (sub_value_step _ _ _ _ _ _ _ H2 (inv_step _ _ _ _ S1) F1 NG HM) as (th2 & S2).
  exists th2. eapply step_trans; eassumption.
Qed.

Lemma item_solution s it s' : item_sol G None s it s' -> solution G (fresh s (it_intro it)) (it_dataset it) s'.
Proof. intros [S _]. now rewrite at_default in S. Qed.

Lemma fields_In s fs m k v : Fields G reg false None s fs m -> In (k, v) m ->
  exists f s', In (k, f) fs /\ item_sol G None s (f_item f) s' /\ VMeans G reg false None s' (it_value (f_item f)) v.
Proof.
  revert m. induction fs as [|[k0 f0] fs IH]; intros m H Hin; inversion H; subst.
  - destruct Hin.
  - destruct Hin as [E|Hin].
    + injection E as -> ->. exists f0, s'. split; [now left|]. split; assumption.
    + match goal with H : Fields _ _ _ _ _ fs _ |- _ => destruct (IH _ H Hin) as (f & s1 & ? & ?) end. exists f, s1. split; [now right|assumption].
  - match goal with H : Fields _ _ _ _ _ fs _ |- _ => destruct (IH _ H Hin) as (f & s1 & ? & ?) end. exists f, s1. split; [now right|assumption].
Qed.

Lemma sorted_unique (fs : list (value * field term)) k f f' : StronglySorted lt (map fst fs) -> In (k, f) fs -> In (k, f') fs -> f = f'.
Proof.
  induction fs as [|[k0 f0] fs IH]; cbn [map fst]; intros SS H H'; [destruct H|]. inversion SS as [|? ? SS' FA]; subst.
  rewrite Forall_forall in FA.
  assert (N : forall f, ~ In (k0, f) fs).
  { intros f1 H1. apply (lt_irrefl k0), FA. change k0 with (fst (k0, f1)). now apply in_map. }
  destruct H as [E|H], H' as [E'|H'].
  - congruence.
  - injection E as -> ->. elim (N _ H').
  - injection E' as -> ->. elim (N _ H).
  - now apply IH.
Qed.

Lemma bt_insert_In {V} (k k' : value) (v v' : V) m : In (k', v') (bt_insert k v m) -> (k', v') = (k, v) \/ In (k', v') m.
Proof.
  induction m as [|[k0 v0] m IH]; cbn [bt_insert].
  - intros [H|[]]. left. congruence.
  - destruct (cmp k k0) eqn:EC; cbn [In].
    + apply cmp_eq in EC. subst k0. intros [H|H]; [left; congruence|auto].
    + intros [H|H]; [left; congruence|auto].
    + intros [H|H]; [auto|]. destruct (IH H); auto.
Qed.

Lemma bt_collect_In {V} (l : list (value * V)) k v : In (k, v) (bt_collect l) -> In (k, v) l.
Proof.
  unfold bt_collect.
  assert (forall l m, In (k, v) (fold_left (fun m kv => bt_insert (fst kv) (snd kv) m) l m) -> In (k, v) l \/ In (k, v) m) as H.
  { clear l. induction l as [|[k0 v0] l IH]; intros m H; cbn [fold_left] in H; [now right|].
    apply IH in H as [H|H]; [left; now right|]. apply bt_insert_In in H as [H|H]; [left; left; cbn [fst snd] in H; congruence|now right]. }
  intro Hin. destruct (H _ _ Hin) as [Hl|[]]; exact Hl.
Qed.

Lemma entries_step g e fs es : forall st st' th,
  dehydrate_entries ops rec g e fs es st = (Ok tt, st') -> Inv st th -> Forall (below (cnt st)) (env_list e) ->
  (forall k f, In (k, f) fs -> plain_item (length (env_list e)) (f_item f)) ->
  (forall k v f, In (k, v) es -> bt_get k fs = Some f -> exists tv s', v = into_untyped tv /\
     item_sol G None (map Some (map th (env_list e))) (f_item f) s' /\ VMeans G reg false None s' (it_value (f_item f)) tv) ->
  exists th', step st th st' th'.
Proof.
  induction es as [|[k v] es IH]; intros st st' th H I F PI HE; cbn [dehydrate_entries] in H.
  - apply ret_Ok in H as [_ <-]. exists th. now apply step_refl.
  - destruct (bt_get k fs) as [f|] eqn:EG; [|discriminate].
    apply bindM_Ok in H as (e' & st1 & H1 & H). apply bindM_Ok in H as ([] & st2 & H2 & H).
    destruct (HE k v f (or_introl eq_refl) EG) as (tv & s' & -> & SOL & HM).
    destruct (item_step _ _ _ _ _ _ _ _ _ _ H1 H2 I F (PI _ _ (bt_get_In _ _ _ EG)) (item_solution _ _ _ SOL) HM) as (th1 & S1).
    destruct (IH _ _ th1 H) as (th2 & S2).
    + eapply inv_step, S1.
    + eapply below_step; eassumption.
    + exact PI.
    + intros k' v' f' Hin EG'. rewrite <- (map_step _ _ _ _ _ S1 F). apply (HE k'); [now right|exact EG'].
    + exists th2. eapply step_trans; eassumption.
Qed.

Lemma items_step g e it l : forall st st' th,
  dehydrate_items ops rec g e it l st = (Ok tt, st') -> Inv st th -> Forall (below (cnt st)) (env_list e) ->
  plain_item (length (env_list e)) it ->
  (forall v, In v l -> exists tv s', v = into_untyped tv /\
     solution G (fresh (map Some (map th (env_list e))) (it_intro it)) (it_dataset it) s' /\ VMeans G reg false None s' (it_value it) tv) ->
  exists th', step st th st' th'.
Proof.
  induction l as [|v l IH]; intros st st' th H I F PI HE; cbn [dehydrate_items] in H.
  - apply ret_Ok in H as [_ <-]. exists th. now apply step_refl.
  - apply bindM_Ok in H as (e' & st1 & H1 & H). apply bindM_Ok in H as ([] & st2 & H2 & H).
    destruct (HE v (or_introl eq_refl)) as (tv & s' & -> & SOL & HM).
    destruct (item_step _ _ _ _ _ _ _ _ _ _ H1 H2 I F PI SOL HM) as (th1 & S1).
    destruct (IH _ _ th1 H) as (th2 & S2).
    + eapply inv_step, S1.
    + eapply below_step; eassumption.
    + exact PI.
    + intros v' Hin. rewrite <- (map_step _ _ _ _ _ S1 F). apply HE. now right.
    + exists th2. eapply step_trans; eassumption.
Qed.

Lemma tuple_step g e : forall its l st st' th ts,
  dehydrate_tuple ops rec g e its (map into_untyped l) st = (Ok tt, st') -> Inv st th -> Forall (below (cnt st)) (env_list e) ->
  (forall it, In it its -> plain_item (length (env_list e)) it) ->
  ts = map th (env_list e) -> Tuple G reg false None (map Some ts) its l ->
  exists th', step st th st' th'.
Proof.
  induction its as [|it its IH]; intros l st st' th ts H I F PI -> HT; inversion HT as [|? ? ? ? s' v vs HS HM HT']; subst; cbn [map dehydrate_tuple] in H.
  - apply ret_Ok in H as [_ <-]. exists th. now apply step_refl.
  - apply bindM_Ok in H as (e' & st1 & H1 & H). apply bindM_Ok in H as ([] & st2 & H2 & H).
    destruct (item_step _ _ _ _ _ _ _ _ _ _ H1 H2 I F (PI _ (or_introl eq_refl)) (item_solution _ _ _ HS) HM) as (th1 & S1).
    destruct (IH _ _ _ th1 (map th1 (env_list e)) H) as (th2 & S2).
    + eapply inv_step, S1.
    + eapply below_step; eassumption.
    + intros it' Hit. apply PI. now right.
    + reflexivity.
    + rewrite <- (map_step _ _ _ _ _ S1 F). eassumption.
    + exists th2. eapply step_trans; eassumption.
Qed.

(** A node of a list: the next node is a new resource, or the tail. *)
Lemma node_solution (ts : list term) h next n ps s' :
  solution G (fresh (map Some ts ++ [Some h]) (1 + n)) ps s' -> binds s' (length ts + 1) next ->
  solution G (fresh (map Some (ts ++ [h; next])) n) ps s'.
Proof.
  intros [SL SE SQ SO] B. unfold fresh in *.
  assert (E : forall x, nth_error (map Some (ts ++ [h; next]) ++ repeat None n) x =
    if Nat.eqb x (length ts + 1) then Some (Some next) else nth_error ((map Some ts ++ [Some h]) ++ repeat None (1 + n)) x).
  { intro x. rewrite map_app. cbn [map repeat Nat.add]. rewrite <- !app_assoc. cbn [app].
    destruct (Nat.lt_ge_cases x (length ts)) as [L|L].
    - rewrite !nth_error_app1 by (rewrite map_length; exact L). destruct (Nat.eqb_spec x (length ts + 1)); [lia|reflexivity].
    - rewrite !nth_error_app2 by (rewrite map_length; exact L). rewrite map_length.
      destruct (Nat.eqb_spec x (length ts + 1)) as [-> |N].
      + replace (length ts + 1 - length ts) with 1 by lia. reflexivity.
      + destruct (x - length ts) as [|[|k]] eqn:K; [reflexivity|lia|reflexivity]. }
  split.
  - rewrite SL. rewrite !app_length, !map_length, !app_length, !repeat_length. cbn [length]. lia.
  - intros x r Hb. unfold binds in Hb. rewrite E in Hb. destruct (Nat.eqb_spec x (length ts + 1)) as [-> |N]; [|now apply SE].
    injection Hb as <-. exact B.
  - exact SQ.
  - intros x Hx. rewrite E. destruct (Nat.eqb_spec x (length ts + 1)) as [-> |N]; [exact B|now apply SO].
Qed.

Lemma nodes_step g e node tl tail l : forall head st st' th ts,
  dehydrate_nodes ops rec g e node tl head (map into_untyped l) st = (Ok tt, st') -> Inv st th -> Forall (below (cnt st)) (env_list e) ->
  below (cnt st) head -> plain_item (length (env_list e) + 2) node ->
  ts = map th (env_list e) -> pinst (binds (map Some ts)) tl tail -> Nodes G reg false None (map Some ts) node (th head) tail l ->
  exists th', step st th st' th'.
Proof.
  induction l as [|v l IH]; intros head st st' th ts H I F BH PI -> PT HN; cbn [map dehydrate_nodes] in H.
  - apply ret_Ok in H as [_ <-]. exists th. now apply step_refl.
  - apply bindM_Ok in H as (rest & st0 & H0 & H).
    apply bindM_Ok in H as (e' & st1 & H1 & H). apply bindM_Ok in H as ([] & st2 & H2 & H).
    inversion HN as [|? ? ? ? ? s' ? next ? ND (SOL & _) HM BN HN']; subst. rewrite at_default in SOL. rewrite map_length in BN.
    assert (exists th0, step st th st0 th0 /\ below (cnt st0) rest /\ th0 rest = next) as (th0 & S0 & BR & ER).
    { destruct l as [|w l]; cbn [map] in H0.
      - apply lift_Ok in H0 as [H0 <-]. apply (instantiate_pattern_Ok ops) in H0. exists th. split; [now apply step_refl|].
        split; [eapply inst_below; eassumption|]. inversion HN'; subst. eapply inst_value; [apply (iv_term _ _ I)|exact H0|exact PT].
      - unfold new_resourceM in H0. injection H0 as <- <-. exists (extend (cnt st) [next] th).
        replace (S (ii_anonymous_count (ds_interp st))) with (cnt st + 1) by (unfold cnt; lia).
        split; [split; [apply extend_agree|split; [apply inv_more with (th := th); [exact I|apply extend_agree]|unfold cnt; cbn [ds_interp ii_anonymous_count]; lia]]|].
        split; [unfold cnt; cbn [below ds_interp ii_anonymous_count]; lia|].
        pose proof (extend_new (cnt st) [next] th) as EN. cbn [length seq map] in EN. now injection EN as EN. }
    assert (F0 : Forall (below (cnt st0)) (env_list (env_bind e [head; rest]))).
    { cbn [env_bind env_list]. apply Forall_app. split; [eapply below_step; eassumption|].
      repeat constructor; [eapply below_le; [eapply le_step, S0|exact BH]|exact BR]. }
    assert (E0 : map th0 (env_list (env_bind e [head; rest])) = map th (env_list e) ++ [th head; next]).
    { cbn [env_bind env_list]. rewrite map_app. cbn [map]. rewrite <- (map_step _ _ _ _ _ S0 F), ER.
      now rewrite <- (agree_step _ _ _ _ S0 head BH). }
    assert (exists th1, step st0 th0 st2 th1) as (th1 & S1).
    { eapply item_step; [exact H1|exact H2|eapply inv_step, S0|exact F0| | |exact HM].
      - cbn [env_bind env_list]. rewrite app_length. cbn [length]. exact PI.
      - rewrite E0. eapply node_solution; [exact SOL|exact BN]. }
    assert (S01 : step st th st2 th1) by (eapply step_trans; eassumption).
    destruct (IH rest st2 st' th1 (map th1 (env_list e)) H) as (th2 & S2).
    + eapply inv_step, S1.
    + eapply below_step; eassumption.
    + eapply below_le; [eapply le_step, S1|exact BR].
    + exact PI.
    + reflexivity.
    + rewrite <- (map_step _ _ _ _ _ S01 F). exact PT.
    + rewrite <- (map_step _ _ _ _ _ S01 F), <- (agree_step _ _ _ _ S1 rest BR), ER. exact HN'.
    + exists th2. eapply step_trans; eassumption.
Qed.

(** The variants that do not take the value leave nothing but numbers of resources. *)
Definition same_but_count (st st' : state) : Prop :=
  ii_map (ds_interp st') = ii_map (ds_interp st) /\ ds_output st' = ds_output st /\ cnt st <= cnt st'.

Lemma same_step st th st' : same_but_count st st' -> Inv st th -> step st th st' th.
Proof.
  intros (E1 & E2 & L) I. split; [apply agree_refl|]. split; [|exact L].
  pose proof (inv_more st th th (cnt st' - cnt st) I (agree_refl _ _)) as I'.
  replace (cnt st + (cnt st' - cnt st)) with (cnt st') in I' by lia.
  destruct st' as [[m c] o]. cbn [ds_interp ii_map ds_output] in *. subst. exact I'.
Qed.

Definition refuses (v : value) (va : variant term) : Prop :=
  no_named_graph (it_value (va_item va)) /\ forall l, reg (vf_layout (it_value (va_item va))) = Some l -> ~ takes l v.

Lemma intro_Ok e n st e' st' : env_intro ops e n st = (Ok e', st') ->
  e' = Child e (map RAnon (seq (cnt st) n)) /\ st' = DState (InputInterp (ii_map (ds_interp st)) (cnt st + n)) (ds_output st).
Proof.
  unfold env_intro. intro H. apply bindM_Ok in H as (rs & st0 & H0 & H). apply ret_Ok in H as [<- <-].
  apply new_resources_Ok in H0 as [-> ->]. split; reflexivity.
Qed.

Lemma refused_variants v g e vs : forall sel st sel' st',
  dehydrate_variants ops rec v g e vs sel st = (Ok sel', st') -> Forall (refuses v) vs -> sel' = sel /\ same_but_count st st'.
Proof.
  induction vs as [|va vs IH]; intros sel st sel' st' H F; cbn [dehydrate_variants] in H.
  - apply ret_Ok in H as [<- <-]. split; [reflexivity|]. split; [reflexivity|]. split; [reflexivity|lia].
  - inversion F as [|? ? (NG & NT) F']; subst.
    apply bindM_Ok in H as (e' & st1 & He & H). apply intro_Ok in He as [-> ->].
    apply bindM_Ok in H as (d & st2 & Hd & H). apply lift_Ok in Hd as [Hd <-].
    apply bindM_Ok in H as (ok & st3 & Hok & H). apply is_ok_Ok in Hok.
    destruct Hok as [(-> & [] & Hs)|(-> & err & Hs)];
      destruct (sub_value_refuses _ _ _ _ _ _ _ NT Hs NG) as [NOk ->]; [congruence|].
    destruct (IH _ _ _ _ H F') as (-> & E1 & E2 & L). split; [reflexivity|].
    split; [exact E1|]. split; [exact E2|]. unfold cnt in *. cbn [ds_interp ii_anonymous_count] in L. lia.
Qed.

(** The quads of the variant chosen. *)
Definition chosen (st : state) (th : res -> term) (d : list (quad res)) : Prop :=
  forall q, In q d -> G (quad_map th q) /\ forall r, quad_res q r -> below (cnt st) r.

Lemma chosen_step st th st' th' d : step st th st' th' -> chosen st th d -> chosen st' th' d.
Proof.
  intros S C q Hq. destruct (C q Hq) as [Hg Hb]. split.
  - rewrite <- (quad_map_ext th th'); [exact Hg|]. intros r Hr. apply (agree_step _ _ _ _ S), Hb, Hr.
  - intros r Hr. eapply below_le; [eapply le_step, S|apply Hb, Hr].
Qed.

Lemma variants_step tv g e va s' post pre : forall st sel st' th,
  dehydrate_variants ops rec (into_untyped tv) g e (pre ++ va :: post) None st = (Ok sel, st') ->
  Forall (refuses (into_untyped tv)) pre -> Forall (refuses (into_untyped tv)) post ->
  Inv st th -> Forall (below (cnt st)) (env_list e) -> plain_item (length (env_list e)) (va_item va) ->
  solution G (fresh (map Some (map th (env_list e))) (it_intro (va_item va))) (it_dataset (va_item va)) s' ->
  VMeans G reg false None s' (it_value (va_item va)) tv ->
  sel = None \/ exists d th', sel = Some d /\ step st th st' th' /\ chosen st' th' d.
Proof.
  induction pre as [|va0 pre IH]; intros st sel st' th H F1 F2 I F (U & NG) SOL HM; cbn [app dehydrate_variants] in H;
    apply bindM_Ok in H as (e' & st1 & He & H); apply intro_Ok in He as [-> ->];
    apply bindM_Ok in H as (d & st2 & Hd & H); apply lift_Ok in Hd as [Hd <-];
    apply bindM_Ok in H as (ok & st3 & Hok & H); apply is_ok_Ok in Hok.
  - destruct (intro_step st th e _ _ _ I F SOL U) as (th1 & S1 & B1 & E1 & Q1).
    destruct Hok as [(-> & [] & Hs)|(-> & err & Hs)].
    + rewrite E1 in HM.
      destruct (sub_value_step _ _ _ _ _ _ _ Hs (inv_step _ _ _ _ S1) B1 NG HM) as (th2 & S2).
      apply refused_variants in H as (-> & SB); [|exact F2]. right. exists d, th2.
      pose proof (same_step _ _ _ SB (inv_step _ _ _ _ S2)) as S3.
      split; [reflexivity|]. split; [eapply step_trans; [exact S1|]; eapply step_trans; [exact S2|exact S3]|].
      eapply chosen_step; [eapply step_trans; [exact S2|exact S3]|]. intros q Hq.
      apply variant_dataset_spec in Hd as [Hd _]. destruct (Hd q Hq) as (p & Hp & Hi). now apply (Q1 p q).
    + left. destruct (refused_variants _ _ _ _ _ _ _ _ H F2) as [-> _]. reflexivity.
  - inversion F1 as [|? ? (NG0 & NT0) F1']; subst.
    destruct Hok as [(-> & [] & Hs)|(-> & err & Hs)];
      destruct (sub_value_refuses _ _ _ _ _ _ _ NT0 Hs NG0) as [NOk ->]; [congruence|].
    assert (S1 : step st th (DState (InputInterp (ii_map (ds_interp st)) (cnt st + it_intro (va_item va0))) (ds_output st)) th).
    { apply same_step; [|exact I]. split; [reflexivity|]. split; [reflexivity|]. unfold cnt. cbn [ds_interp ii_anonymous_count]. lia. }
    destruct (IH _ _ _ th H F1' F2 (inv_step _ _ _ _ S1) (below_step _ _ _ _ _ S1 F) (conj U NG) SOL HM) as [-> |(d' & th' & -> & S2 & C)];
      [now left|]. right. exists d', th'. split; [reflexivity|]. split; [eapply step_trans; eassumption|exact C].
Qed.

(** The shape of what is read. *)
Lemma means_takes g ref inputs tv l : Means G reg false g ref inputs tv -> reg ref = Some l -> takes l (into_untyped tv).
Proof.
  intros HM E.
  destruct HM as [? ? ? (LF & _)|? ? ? ? ? ? (LF & _)|? ? ? k ? ? ? ? ? ? ? ? ? t (LF & _) ? ? ? ? ? ? DEN|? ? ? ? ? ? ? ? ? (LF & _)|? ? ? ? ? ? ? (LF & _)
    |? ? ? ? ? ? ? ? (LF & _)|? ? ? ? ? ? ? ? ? (LF & _)|? ? ? ? ? ? ? ? ? ? ? (LF & _)|? ? ? ? ? ? ? (LF & _)];
    rewrite LF in E; injection E as <-; cbn [takes into_untyped literal_into_untyped]; eauto.
  destruct DEN; cbn [literal_into_untyped]; eauto.
Qed.

(** ** Literals *)
Lemma written_literal dt k v l lit r ref (t : typed_literal term) ty (st : state) :
  literal_form (type_iri RTerm (assigned st) dt) k v l -> has_type dt lit ty -> denotes ref k ty (rl_value lit) t ->
  literal_into_untyped t = VLit v -> literals_of r = [lit] ->
  (forall ty', k = KNumber \/ (exists p, k = KTextString p) -> rl_type l = TypeAny ty' -> ty' = ty) ->
  normal_term (TmLit l) r.
Proof.
  intros LF (HT & HI) DEN EV EL TY. destruct r as [i|b|l0]; cbn [literals_of interp_term] in EL; try discriminate. injection EL as ->.
  apply nt_literal. destruct lit as [w lt]. cbn [rl_type rl_value] in *. subst lt.
  destruct DEN as [w b BL|ty w n DT DP|p ty w]; cbn [literal_into_untyped] in EV; injection EV as <-.
  - inversion LF; subst.
    + apply nl_true, BL.
    + apply nl_false, BL.
  - inversion LF as [| |n' s' ty' HD HDT HP|]; subst. rewrite (TY ty' (or_introl eq_refl) eq_refl) in *.
    eapply nl_decimal; [exact DT|exact HP|exact DP].
  - inversion LF as [| | |pat s' ty' HD]; subst. rewrite (TY ty' (or_intror (ex_intro _ p eq_refl)) eq_refl). apply nl_refl.
Qed.

Lemma literal_type k v ty m (st : state) l st' ty' :
  dehydrate_literal ops k v (RTerm (TmIri ty)) = Some m -> m st = (Ok l, st') -> (k = KNumber -> is_decimal_type ty = true) ->
  k = KNumber \/ (exists p, k = KTextString p) -> rl_type l = TypeAny ty' -> ty' = ty.
Proof.
  intros E H D K T. destruct k; try (destruct K as [K|[p K]]; discriminate); destruct v; cbn [dehydrate_literal] in E; try discriminate; injection E as <-.
  - unfold dehydrate_number in H. cbn [iris_in input_interpretation] in H. unfold input_iris_of in H.
    cbn [iris_of_terms flat_map app number_literal] in H. rewrite (D eq_refl) in H.
    destruct (decimal_print n) as [w|] eqn:EP; [cbn [unwrap] in H; injection H as <- _; cbn [rl_type] in T; congruence|].
    exfalso. assert (N : forall tys, number_literal n tys = None).
    { induction tys as [|i tys IH]; cbn [number_literal]; [reflexivity|]. rewrite EP. destruct (is_decimal_type i); exact IH. }
    change (iris_of_terms [TmIri ty] ++ ?x) with (ty :: x) in H. rewrite N in H. cbn [unwrap] in H. discriminate.
  - unfold dehydrate_text_string in H. cbn [iris_in input_interpretation] in H. unfold input_iris_of in H.
    cbn [iris_of_terms flat_map app] in H. injection H as <- _. cbn [rl_type] in T. congruence.
Qed.

(** A term given to a resource. *)
Lemma inv_assign st th r t m c o :
  Inv st th -> ds_interp st = InputInterp m c -> ds_output st = o -> normal_term t (th r) -> below (cnt st) r ->
  step st th (DState (InputInterp (assign_term r t m) c) o) th.
Proof.
  intros [IT IO IA] E <- S B. unfold cnt in *. rewrite E in *. cbn [ii_anonymous_count] in *.
  split; [apply agree_refl|]. unfold cnt. rewrite E. cbn [ds_interp ii_anonymous_count]. split; [|lia]. split.
  - exact IT.
  - exact IO.
  - unfold assigned, cnt in *. rewrite E in *. cbn [ds_interp ii_map ii_anonymous_count] in *. intros r' t' H. apply terms_of_assign in H as [[-> ->]|H]; [split; assumption|]. now apply IA.
Qed.

Lemma header_solution h inputs s : header_sol G None h inputs s -> solution G (fresh (map Some inputs) (h_intro h)) (h_dataset h) s.
Proof. intros [S _]. now rewrite at_default in S. Qed.

Lemma one_split s i vs j v : One G reg false None s i vs j v ->
  exists pre va post s', vs = pre ++ va :: post /\ item_sol G None s (va_item va) s' /\ VMeans G reg false None s' (it_value (va_item va)) v.
Proof.
  revert i. induction vs as [|va vs IH]; intros i H; inversion H; subst.
  - exists [], va, vs, s'. split; [reflexivity|]. split; assumption.
  - match goal with H : One _ _ _ _ _ _ vs _ _ |- _ => destruct (IH _ H) as (pre & va' & post & s' & -> & ? & ?) end.
    exists (va :: pre), va', post, s'. split; [reflexivity|]. split; assumption.
Qed.

Lemma items_In vf sols vals v : Items G reg false None vf sols vals -> In v vals -> exists s, In s sols /\ VMeans G reg false None s vf v.
Proof.
  revert vals. induction sols as [|s sols IH]; intros vals H Hin; inversion H; subst; [destruct Hin|].
  destruct Hin as [<-|Hin]; [exists s; split; [now left|assumption]|].
  match goal with H : Items _ _ _ _ _ sols _ |- _ => destruct (IH _ H Hin) as (s0 & ? & ?) end. exists s0. split; [now right|assumption].
Qed.

Lemma layout_step tv g ref l inputs st st' th :
  dehydrate_layout ops rec (into_untyped tv) g ref l inputs st = (Ok tt, st') -> reg ref = Some l ->
  Inv st th -> Forall (below (cnt st)) inputs -> Means G reg false None ref (map th inputs) tv ->
  exists th', step st th st' th'.
Proof.
  intros H E I F HM. pose proof (plain _ _ E) as PL. pose proof (sorted _ _ E) as SO.
  unfold dehydrate_layout in H.
  assert (exists gg ins, gg = None /\ ins = map th inputs /\ Means G reg false gg ref ins tv) as (gg & ins & Egg & Eins & HM') by eauto.
  clear HM. rename HM' into HM.
  destruct HM as [? ? ? (LF & AR)|? ? ? h c s (LF & AR) HS|? ? ? k h rs dt s r pre lit post ty t (LF & AR) HS PI EL HT OT1 OT2 DEN
    |? ? ? h rs pat s r iri (LF & AR) HS PI EI|? ? ? h fs s m (LF & AR) HS HF
    |? ? ? h vs s i v (LF & AR) HS HO|? ? ? h it s sols vals vl (LF & AR) HS ND HSOL HI PE SS|? ? ? h node hd tl s head tail vl (LF & AR) HS PH PT HN
    |? ? ? h its s vl (LF & AR) HS HT];
    subst; rewrite LF in E; injection E as <-; cbn [into_untyped literal_into_untyped plain_layout fields_sorted] in *;
    cbn [arity] in AR; try (specialize (AR _ eq_refl); rewrite map_length in AR); try (apply header_solution in HS).
  - (* always *) apply ret_Ok in H as [_ <-]. exists th. now apply step_refl.
  - (* unit *)
    destruct (eqb_spec c c) as [_|N]; [|congruence]. apply bindM_Ok in H as (e & st1 & H1 & H). apply ret_Ok in H as [_ <-].
    destruct (open_step _ _ (Root inputs) _ _ _ _ _ I F H1 HS) as (th1 & S1 & _); [cbn [env_list]; rewrite AR; exact PL|]. eauto.
  - (* data *)
    assert (exists w, literal_into_untyped t = VLit w) as [w EW] by (destruct DEN; cbn [literal_into_untyped]; eauto).
    rewrite EW in H.
    destruct (dehydrate_literal ops k w (into ops dt)) as [m|] eqn:EM; [|discriminate].
    apply bindM_Ok in H as (e & st1 & H1 & H). apply bindM_Ok in H as (r' & st2 & H2 & H). apply lift_Ok in H2 as [H2 <-].
    apply (instantiate_pattern_Ok ops) in H2. apply bindM_Ok in H as (l & st3 & H3 & H).
    destruct (open_step _ _ (Root inputs) _ _ _ _ _ I F H1 HS) as (th1 & S1 & F1 & E1 & _); [cbn [env_list]; rewrite AR; exact PL|].
    rewrite E1 in PI. pose proof (inst_value _ _ _ _ _ (iv_term _ _ (inv_step _ _ _ _ S1)) H2 PI) as ER.
    destruct (literal_Ok _ _ _ _ _ _ _ EM H3) as [-> LIT].
    assert (dt = TmIri ty) as ->.
    { destruct HT as [_ HT]. destruct dt; cbn [iris_of interp_term] in HT; [|destruct HT..]. destruct HT as [-> |[]]. reflexivity. }
    assert (literals_of r = [lit]) as EL'.
    { destruct r as [x|x|x]; cbn [literals_of interp_term] in EL; destruct pre as [|? [|]]; cbn [app] in EL; try discriminate.
      injection EL as -> <-. reflexivity. }
    assert (ST : normal_term (TmLit l) (th1 r')).
    { rewrite ER. eapply written_literal; try eassumption. intros ty' K T. eapply literal_type; try eassumption.
      intros ->. inversion DEN; subst. assumption. }
    unfold assign_literalM in H. injection H as <-. cbn [assign_literal input_interpretation].
    exists th1. eapply step_trans; [exact S1|]. eapply inv_assign; [eapply inv_step, S1|destruct (ds_interp st1); reflexivity|reflexivity|exact ST|].
    eapply inst_below; eassumption.
  - (* id *)
    apply bindM_Ok in H as (e & st1 & H1 & H). apply bindM_Ok in H as (r' & st2 & H2 & H). apply lift_Ok in H2 as [H2 <-].
    apply (instantiate_pattern_Ok ops) in H2. destruct (is_iri iri); [|discriminate].
    destruct (open_step _ _ (Root inputs) _ _ _ _ _ I F H1 HS) as (th1 & S1 & F1 & E1 & _); [cbn [env_list]; rewrite AR; exact PL|].
    rewrite E1 in PI. pose proof (inst_value _ _ _ _ _ (iv_term _ _ (inv_step _ _ _ _ S1)) H2 PI) as ER.
    destruct r as [i0|b|l0]; cbn [iris_of interp_term] in EI; try discriminate. injection EI as ->.
    unfold assign_iriM in H. injection H as <-. cbn [assign_iri input_interpretation].
    exists th1. eapply step_trans; [exact S1|]. eapply inv_assign; [eapply inv_step, S1|destruct (ds_interp st1); reflexivity|reflexivity| |].
    + rewrite ER. apply nt_refl.
    + eapply inst_below; eassumption.
  - (* product *)
    apply bindM_Ok in H as (e & st1 & H1 & H). apply bindM_Ok in H as ([] & st2 & H2 & H).
    destruct PL as [PH PF].
    destruct (open_step _ _ (Root inputs) _ _ _ _ _ I F H1 HS) as (th1 & S1 & F1 & E1 & L1); [cbn [env_list]; rewrite AR; exact PH|].
    cbn [env_list] in L1. rewrite AR in L1.
    assert (st' = st2) as ->.
    { clear -H. induction fs as [|[k f] fs IH]; cbn [check_required] in H; [apply ret_Ok in H as [_ <-]; reflexivity|].
      destruct (f_required f && _); [discriminate|]. exact (IH H). }
    destruct (entries_step _ _ _ _ _ _ th1 H2 (inv_step _ _ _ _ S1) F1) as (th2 & S2).
    + intros k f Hin. rewrite L1. now apply (PF k).
    + intros k v f Hin EG. apply bt_get_In in EG.
      apply bt_collect_In in Hin. apply in_map_iff in Hin as ([k0 tv] & Ek & Hin). cbn [fst snd] in Ek. injection Ek as -> <-.
      destruct (fields_In _ _ _ _ _ HF Hin) as (f' & s' & Hf & HSOL & HM).
      assert (f' = f) as ->. { eapply sorted_unique; eassumption. }
      exists tv, s'. split; [reflexivity|]. rewrite <- E1. split; assumption.
    + exists th2. eapply step_trans; eassumption.
  - (* sum *)
    apply bindM_Ok in H as (e & st1 & H1 & H). apply bindM_Ok in H as (sel & st2 & H2 & H).
    destruct PL as (PH & PV & EX).
    destruct (open_step _ _ (Root inputs) _ _ _ _ _ I F H1 HS) as (th1 & S1 & F1 & E1 & L1); [cbn [env_list]; rewrite AR; exact PH|].
    cbn [env_list] in L1. rewrite AR in L1.
    destruct (one_split _ _ _ _ _ HO) as (pre & va & post & s' & -> & HSOL & HM).
    assert (exists lv, reg (vf_layout (it_value (va_item va))) = Some lv /\ takes lv (into_untyped v)) as (lv & ELV & TLV).
    { inversion HM as [? ? ? ins g' ? _ HM']; subst.
      assert (exists lv, reg (vf_layout (it_value (va_item va))) = Some lv) as (lv & ELV) by (inversion HM' as [? ? ? (Z & _)|? ? ? ? ? ? (Z & _)|? ? ? ? ? ? ? ? ? ? ? ? ? ? (Z & _)|? ? ? ? ? ? ? ? ? (Z & _)|? ? ? ? ? ? ? (Z & _)
        |? ? ? ? ? ? ? ? (Z & _)|? ? ? ? ? ? ? ? ? (Z & _)|? ? ? ? ? ? ? ? ? ? ? (Z & _)|? ? ? ? ? ? ? (Z & _)]; subst; eauto).
      exists lv. split; [exact ELV|]. eapply means_takes; eassumption. }
    assert (RF : forall n va', nth_error (pre ++ va :: post) n = Some va' -> n <> length pre -> refuses (into_untyped v) va').
    { intros n va' Hn N. split; [eapply PV; eapply nth_error_In; exact Hn|]. intros l' El' T'.
      refine (EX n (length pre) va' va l' lv (into_untyped v) N Hn _ El' ELV T' TLV).
      rewrite nth_error_app2 by lia. now rewrite Nat.sub_diag. }
    destruct (variants_step v g e va s' post pre st1 sel st2 th1 H2) as [-> |(d & th2 & -> & S2 & C)].
    + apply Forall_forall. intros va' Hin. apply In_nth_error in Hin as (n & Hn).
      assert (n < length pre) by (apply nth_error_Some; congruence).
      apply (RF n); [rewrite nth_error_app1 by assumption; exact Hn|lia].
    + apply Forall_forall. intros va' Hin. apply In_nth_error in Hin as (n & Hn).
      apply (RF (length pre + S n)); [|lia]. rewrite nth_error_app2 by lia. now replace (length pre + S n - length pre) with (S n) by lia.
    + eapply inv_step, S1.
    + exact F1.
    + rewrite L1. apply PV. apply in_elt.
    + rewrite <- E1. apply item_solution, HSOL.
    + exact HM.
    + discriminate.
    + unfold emit in H. injection H as <-. exists th2. eapply step_trans; [exact S1|]. eapply step_trans; [exact S2|].
      split; [apply agree_refl|]. split; [|unfold cnt; cbn [ds_interp]; lia].
      eapply inv_quads; [eapply inv_step, S2|reflexivity| |].
      * cbn [ds_output]. intros q Hq. apply ds_insert_all_In in Hq as [Hq|Hq]; [right; exact Hq|left; exact Hq].
      * exact C.
  - (* unordered *)
    apply bindM_Ok in H as (e & st1 & H1 & H). destruct PL as [PH PF].
    destruct (open_step _ _ (Root inputs) _ _ _ _ _ I F H1 HS) as (th1 & S1 & F1 & E1 & L1); [cbn [env_list]; rewrite AR; exact PH|].
    cbn [env_list] in L1. rewrite AR in L1.
    destruct (items_step _ _ _ _ _ _ th1 H (inv_step _ _ _ _ S1) F1) as (th2 & S2).
    + rewrite L1. exact PF.
    + intros v Hin. apply in_map_iff in Hin as (tv & <- & Hin). apply (Permutation_in _ (Permutation_sym PE)) in Hin.
      destruct (items_In _ _ _ _ HI Hin) as (s' & Hs' & HM). apply HSOL in Hs'. rewrite at_default in Hs'.
      exists tv, s'. split; [reflexivity|]. rewrite <- E1. split; assumption.
    + exists th2. eapply step_trans; eassumption.
  - (* ordered *)
    apply bindM_Ok in H as (e & st1 & H1 & H). apply bindM_Ok in H as (hr & st2 & H2 & H). apply lift_Ok in H2 as [H2 <-].
    apply (instantiate_pattern_Ok ops) in H2. destruct PL as [PL PF].
    destruct (open_step _ _ (Root inputs) _ _ _ _ _ I F H1 HS) as (th1 & S1 & F1 & E1 & L1); [cbn [env_list]; rewrite AR; exact PL|].
    cbn [env_list] in L1. rewrite AR in L1. rewrite E1 in PH, PT, HN.
    pose proof (inst_value _ _ _ _ _ (iv_term _ _ (inv_step _ _ _ _ S1)) H2 PH) as ER.
    destruct (nodes_step _ _ _ _ tail _ _ _ _ th1 (map th1 (env_list e)) H (inv_step _ _ _ _ S1) F1) as (th2 & S2).
    + eapply inst_below; eassumption.
    + rewrite L1. exact PF.
    + reflexivity.
    + exact PT.
    + rewrite ER. exact HN.
    + exists th2. eapply step_trans; eassumption.
  - (* sized *)
    apply bindM_Ok in H as (e & st1 & H1 & H). destruct PL as [PH PF].
    destruct (open_step _ _ (Root inputs) _ _ _ _ _ I F H1 HS) as (th1 & S1 & F1 & E1 & L1); [cbn [env_list]; rewrite AR; exact PH|].
    cbn [env_list] in L1. rewrite AR in L1. rewrite E1 in HT.
    destruct (tuple_step _ _ _ _ _ _ th1 (map th1 (env_list e)) H (inv_step _ _ _ _ S1) F1) as (th2 & S2).
    + intros it Hit. rewrite L1. now apply PF.
    + reflexivity.
    + exact HT.
    + exists th2. eapply step_trans; eassumption.
Qed.

Lemma layout_refuses v g ref l inputs (st : state) o st' :
  ~ takes l v -> dehydrate_layout ops rec v g ref l inputs st = (o, st') -> o <> Ok tt /\ st' = st.
Proof.
  intros NT H.
  assert (R : forall e, raise (Q := term) (S := res) (I := input_interp) (A := unit) e st = (o, st') -> o <> Ok tt /\ st' = st)
    by (intros e [= <- <-]; split; [discriminate|reflexivity]).
  destruct l as [| |h c|k h rs dt|h rs pat|h fs|h vs|h it|h node hd tl|h its]; cbn [takes dehydrate_layout] in *; try (elim NT; exact Logic.I).
  - eapply R, H.
  - destruct (eqb_spec v c) as [E|N]; [elim (NT E)|]. eapply R, H.
  - destruct v as [v|m|l]; try (eapply R, H). destruct k, v; cbn [dehydrate_literal] in H; try (eapply R, H); elim NT; eauto.
  - destruct v as [[| | | |]|m|l]; try (eapply R, H). elim NT; eauto.
  - destruct v as [v|m|l]; try (eapply R, H). elim NT; eauto.
  - destruct v as [v|m|l]; try (eapply R, H). elim NT; eauto.
  - destruct v as [v|m|l]; try (eapply R, H). elim NT; eauto.
  - destruct v as [v|m|l]; try (eapply R, H). elim NT; eauto.
Qed.
End Body.

Lemma with_refuses fuel v g ref inputs (st : state) o st' :
  (forall l, reg ref = Some l -> ~ takes l v) -> dehydrate_with ops reg fuel v g ref inputs st = (o, st') -> o <> Ok tt /\ st' = st.
Proof.
  destruct fuel as [|fuel]; cbn [dehydrate_with]; intros NT H; [injection H as <- <-; split; [discriminate|reflexivity]|].
  unfold dehydrate_body in H. destruct (reg ref) as [l|]; [|injection H as <- <-; split; [discriminate|reflexivity]].
  destruct (input_count l) as [n|]; [destruct (Nat.eqb n (length inputs))|]; try (injection H as <- <-; split; [discriminate|reflexivity]);
    eapply layout_refuses; try eassumption; now apply NT.
Qed.

(** What is written for a value read in [G] is in [G]. *)
Theorem with_step fuel : forall tv g ref inputs st st' th,
  dehydrate_with ops reg fuel (into_untyped tv) g ref inputs st = (Ok tt, st') -> Inv st th -> Forall (below (cnt st)) inputs ->
  Means G reg false None ref (map th inputs) tv -> exists th', step st th st' th'.
Proof.
  induction fuel as [|fuel IH]; intros tv g ref inputs st st' th H I F HM; cbn [dehydrate_with] in H; [discriminate|].
  unfold dehydrate_body in H. destruct (reg ref) as [l|] eqn:E; [|discriminate].
  assert (dehydrate_layout ops (dehydrate_with ops reg fuel) (into_untyped tv) g ref l inputs st = (Ok tt, st')) as H'.
  { destruct (input_count l) as [n|]; [destruct (Nat.eqb n (length inputs)); [exact H|discriminate]|exact H]. }
  eapply layout_step; try eassumption.
  intros. eapply with_refuses; eassumption.
Qed.
End Runs.

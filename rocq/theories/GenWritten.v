(** * C90: what a generated serializer writes *)

From Coq Require Import String List Bool Arith ZArith Lia.
Import ListNotations.
From Verif Require Import Base BaseProofs Orders PatternModel ValueModel LayoutModel HydrateModel TermModel
  GenDataModel GenDataSpec GenModel GenSpec GenSerModel GenSerSpec GenWrittenSpec.
Open Scope list_scope.
Open Scope nat_scope.

Section Proofs.
Context {R I : Type} {CR : Cmp R} {LR : CmpLaws R} {RT : Runtime R I} {RS : Resolver R I}.
Variable known : I -> R -> Prop.
Context {RL : ResolverLaws known} {RM : ResolverMore known}.
Variable types : program.
(** The IRIs whose resource does not change. *)
Variable P : string -> Prop.

(** The interpretation grows: from [i] to [i'] with the effects [e]. *)
Record grows (i i' : I) (e : effect R) : Prop := {
  gr_known : forall x, known i x -> known i' x;
  gr_only : forall x, known i' x -> known i x \/ In x (created e) \/ (exists s, P s /\ rs_iri i' s = Some x);
  gr_nodup : NoDup (created e);
  gr_created : forall x, In x (created e) -> ~ known i x /\ known i' x;
  gr_iris : forall s x, P s -> rs_iri i s = Some x -> rs_iri i' s = Some x;
  gr_names : forall x t, known i x -> (named i' x t <-> named i x t \/ In (x, t) (given e));
  gr_given : forall x t, In (x, t) (given e) -> known i' x /\ named i' x t;
  gr_quads : forall q, In q (written e) -> known i' (q_s q) /\ known i' (q_p q) /\ known i' (q_o q) /\
    forall g, q_g q = Some g -> known i' g
}.

Lemma named_same i i' x t : same_names i i' x -> (named i' x t <-> named i x t).
Proof. intros (A & B & C). destruct t; cbn [named]; rewrite ?A, ?B, ?C; reflexivity. Qed.

Lemma grows_nothing i : grows i i nothing.
Proof.
  split; cbn; auto; try tauto; try (intros; contradiction). constructor.
Qed.

Lemma NoDup_app {A} (l l' : list A) : NoDup l -> NoDup l' -> (forall a, In a l -> ~ In a l') -> NoDup (l ++ l').
Proof.
  induction 1 as [|a l Ha _ IH]; intros Hl' D; [exact Hl'|]. cbn. constructor.
  - rewrite in_app_iff. intros [H|H]; [contradiction|]. exact (D a (or_introl eq_refl) H).
  - apply IH; [exact Hl'|]. intros b Hb. apply D. now right.
Qed.

Lemma grows_after i1 i2 i3 e e' : grows i1 i2 e -> grows i2 i3 e' -> grows i1 i3 (after e e').
Proof.
  intros A B. split; cbn [created written given after].
  - intros x H. apply (gr_known _ _ _ B), (gr_known _ _ _ A), H.
  - intros x H. apply (gr_only _ _ _ B) in H as [H|[H|H]].
    + apply (gr_only _ _ _ A) in H as [H|[H|(s & Hs & H)]]; [auto|right; left; apply in_app_iff; auto|].
      right. right. exists s. split; [exact Hs|]. now apply (gr_iris _ _ _ B).
    + right. left. apply in_app_iff. auto.
    + auto.
  - apply NoDup_app; [apply A|apply B|]. intros x H H'. apply (gr_created _ _ _ A) in H as [_ H].
    now apply (gr_created _ _ _ B) in H' as [H' _].
  - intros x [H|H]%in_app_iff.
    + apply (gr_created _ _ _ A) in H as [H H']. split; [exact H|]. now apply (gr_known _ _ _ B).
    + apply (gr_created _ _ _ B) in H as [H H']. split; [|exact H']. intro K. now apply H, (gr_known _ _ _ A).
  - intros s x Hs H. now apply (gr_iris _ _ _ B), (gr_iris _ _ _ A).
  - intros x t H. rewrite (gr_names _ _ _ B) by now apply (gr_known _ _ _ A). rewrite (gr_names _ _ _ A) by exact H.
    rewrite in_app_iff. tauto.
  - intros x t [H|H]%in_app_iff.
    + apply (gr_given _ _ _ A) in H as [H H']. split; [now apply (gr_known _ _ _ B)|].
      apply (gr_names _ _ _ B); auto.
    + now apply (gr_given _ _ _ B).
  - intros q [H|H]%in_app_iff.
    + apply (gr_quads _ _ _ A) in H as (H1 & H2 & H3 & H4). repeat split; try (intros; now apply (gr_known _ _ _ B)).
      intros g Hg. apply (gr_known _ _ _ B). auto.
    + now apply (gr_quads _ _ _ B).
Qed.

Lemma grows_nothing_l i1 i2 i3 e : grows i1 i2 nothing -> grows i2 i3 e -> grows i1 i3 e.
Proof. intros A B. pose proof (grows_after _ _ _ _ _ A B) as C. destruct e. exact C. Qed.
Lemma after_nothing (e : effect R) : after e nothing = e.
Proof. destruct e. unfold after, nothing. cbn. now rewrite !app_nil_r. Qed.
Lemma grows_nothing_r i1 i2 i3 e : grows i1 i2 e -> grows i2 i3 nothing -> grows i1 i3 e.
Proof. intros A B. pose proof (grows_after _ _ _ _ _ A B) as C. now rewrite after_nothing in C. Qed.

Lemma grows_new i : grows i (snd (rs_new i)) (Effect [fst (rs_new i)] [] []).
Proof.
  split; cbn.
  - intros x H. apply new_known. auto.
  - intros x H. apply new_known in H as [->|H]; auto.
  - constructor; [easy|constructor].
  - intros x [<-|[]]. split; [apply new_unknown|]. apply new_known. auto.
  - intros s x _ H. now rewrite new_iris.
  - intros x t _. rewrite (named_same i) by apply new_names. tauto.
  - intros x t [].
  - intros q [].
Qed.

Lemma grows_interpret i s : P s -> grows i (snd (rs_interpret s i)) nothing.
Proof.
  intro HP. split; cbn.
  - intros x H. apply interpret_known. auto.
  - intros x H. apply interpret_known in H as [->|H]; [|auto]. right. right. exists s. split; [exact HP|apply interpret_resolves].
  - constructor.
  - intros x [].
  - intros s' x _ H. destruct (string_dec s' s) as [->|N].
    + erewrite interpret_iri by exact H. exact H.
    + now rewrite interpret_others.
  - intros x t H. rewrite (named_same i) by now apply interpret_names. tauto.
  - intros x t [].
  - intros q [].
Qed.

Lemma named_assigned i i' r t0 x t :
  (forall t, named i' r t <-> t = t0 \/ named i r t) -> (x <> r -> same_names i i' x) ->
  (named i' x t <-> named i x t \/ In (x, t) [(r, t0)]).
Proof.
  intros A B. destruct (eqb_spec x r) as [->|N].
  - rewrite A. cbn. split; [intros [->|H]; auto|intros [H|[[= <-]|[]]]; auto].
  - rewrite (named_same i) by now apply B. cbn. split; [auto|intros [H|[[= -> _]|[]]]; [exact H|contradiction]].
Qed.

Lemma grows_assign_id i r id : known i r -> (forall s, id = IdIri s -> ~ P s) ->
  grows i (id_ser id i r) (Effect [] [] [(r, id_term id)]).
Proof.
  intros K A. destruct id as [s|b]; cbn [id_ser id_term].
  - split; cbn [created written given].
    + intros x H. now apply assign_iri_known.
    + intros x H. apply assign_iri_known in H; auto.
    + constructor.
    + intros x [].
    + intros s' x Hs H. rewrite assign_iri_iris; [exact H|]. intros ->. exact (A s eq_refl Hs).
    + intros x t H. apply named_assigned; [apply assign_iri_adds|apply assign_iri_others].
    + intros x t [[= <- <-]|[]]. split; [now apply assign_iri_known|]. apply assign_iri_adds. auto.
    + intros q [].
  - split; cbn [created written given].
    + intros x H. now apply assign_blank_known.
    + intros x H. apply assign_blank_known in H; auto.
    + constructor.
    + intros x [].
    + intros s' x Hs H. now rewrite assign_blank_iris.
    + intros x t H. apply named_assigned; [apply assign_blank_adds|apply assign_blank_others].
    + intros x t [[= <- <-]|[]]. split; [now apply assign_blank_known|]. apply assign_blank_adds. auto.
    + intros q [].
Qed.
Lemma grows_assign_literal i r l : known i r -> grows i (rt_assign_literal r l i) (Effect [] [] [(r, TmLit l)]).
Proof.
  intros K. split; cbn [created written given].
  - intros x H. now apply assign_literal_known.
  - intros x H. apply assign_literal_known in H; auto.
  - constructor.
  - intros x [].
  - intros s' x Hs H. now rewrite assign_literal_iris.
  - intros x t H. apply named_assigned; [apply assign_literal_adds|apply assign_literal_others].
  - intros x t [[= <- <-]|[]]. split; [now apply assign_literal_known|]. apply assign_literal_adds. auto.
  - intros q [].
Qed.

(** ** The functions *)

(** A relation that gives their resources to the IRIs, at [i] and later. *)
Definition resolves (i : I) (iri_of : string -> R -> Prop) : Prop :=
  forall s r, P s -> rs_iri i s = Some r -> iri_of s r.
Lemma resolves_before i i' e iri_of : grows i i' e -> resolves i' iri_of -> resolves i iri_of.
Proof. intros G H s r Hs E. apply H; [exact Hs|]. now apply (gr_iris _ _ _ G). Qed.

Definition knows (i : I) (env : list R) : Prop := forall x, In x env -> known i x.
Lemma knows_after i i' e env : grows i i' e -> knows i env -> knows i' env.
Proof. intros G H x Hx. apply (gr_known _ _ _ G). auto. Qed.
Lemma knows_app i env env' : knows i env -> knows i env' -> knows i (env ++ env').
Proof. intros A B x [H|H]%in_app_iff; auto. Qed.

Lemma intro_grows n : forall i rs i', ser_intro n i = (rs, i') -> length rs = n /\ grows i i' (Effect rs [] []) /\ knows i' rs.
Proof.
  induction n as [|n IH]; intros i rs i' H; cbn [ser_intro] in H.
  - injection H as <- <-. split; [reflexivity|]. split; [apply grows_nothing|intros x []].
  - destruct (rs_new i) as [r i1] eqn:E1. destruct (ser_intro n i1) as [rs1 i2] eqn:E2. injection H as <- <-.
    apply IH in E2 as (L & G & K). pose proof (grows_new i) as G1. rewrite E1 in G1. cbn [fst snd] in G1.
    split; [cbn; congruence|]. split; [exact (grows_after _ _ _ _ _ G1 G)|].
    intros x [<-|Hx]; [|auto]. apply (gr_known _ _ _ G), (gr_created _ _ _ G1). now left.
Qed.

Lemma env_known i env p r : knows i env -> env_pattern env p = Ok r -> (forall x, p = PRes x -> known i x) -> known i r.
Proof.
  intros K H A. destruct p as [x|q]; cbn [env_pattern] in H.
  - injection H as <-. now apply A.
  - destruct (nth_error env q) eqn:E; [|discriminate]. injection H as <-. apply K. eapply nth_error_In, E.
Qed.

(** What a resolved pattern is. *)
Definition resolved_pattern (i : I) (p : pattern string) (p' : pattern R) : Prop :=
  match p, p' with
  | PVar x, PVar x' => x = x'
  | PRes s, PRes r => P s /\ rs_iri i s = Some r
  | _, _ => False
  end.
Lemma resolved_after i i' e p p' : grows i i' e -> resolved_pattern i p p' -> resolved_pattern i' p p'.
Proof. intros G. destruct p, p'; cbn; auto. intros [A B]. split; [exact A|]. now apply (gr_iris _ _ _ G). Qed.

Lemma pattern_grows p i p' i' : (forall s, In s (pattern_iris p) -> P s) -> ser_pattern p i = (p', i') ->
  grows i i' nothing /\ resolved_pattern i' p p'.
Proof.
  intros A H. destruct p as [s|x]; cbn [ser_pattern] in H.
  - pose proof (A s (or_introl eq_refl)) as HP. pose proof (grows_interpret i s HP) as G. pose proof (interpret_resolves i s) as E.
    destruct (rs_interpret s i) as [r i1]. injection H as <- <-. split; [exact G|]. cbn. auto.
  - injection H as <- <-. split; [apply grows_nothing|reflexivity].
Qed.

Lemma pattern_stands i iri_of env p p' r : resolves i iri_of -> resolved_pattern i p p' -> env_pattern env p' = Ok r ->
  stands iri_of env p r.
Proof.
  intros A B H. destruct p as [s|x], p' as [r'|x']; cbn in B; try contradiction; cbn [env_pattern] in H.
  - injection H as <-. destruct B. constructor. now apply A.
  - subst x'. destruct (nth_error env x) eqn:E; [|discriminate]. injection H as <-. now constructor.
Qed.
Lemma pattern_known i env p p' r : knows i env -> resolved_pattern i p p' -> env_pattern env p' = Ok r -> known i r.
Proof.
  intros K B H. apply (env_known i env p' r K H). intros x ->. destruct p; cbn in B; [|contradiction].
  destruct B as [_ B]. eapply iri_known, B.
Qed.

Lemma patterns_grow ps : forall i ps' i', (forall s, In s (flat_map pattern_iris ps) -> P s) ->
  ser_patterns ps i = (ps', i') -> grows i i' nothing /\ Forall2 (resolved_pattern i') ps ps'.
Proof.
  induction ps as [|p ps IH]; intros i ps' i' A H; cbn [ser_patterns] in H.
  - injection H as <- <-. split; [apply grows_nothing|constructor].
  - destruct (ser_pattern p i) as [p' i1] eqn:E1. destruct (ser_patterns ps i1) as [qs i2] eqn:E2. injection H as <- <-.
    apply pattern_grows in E1 as [G1 R1]; [|intros s Hs; apply A; cbn; apply in_app_iff; auto].
    apply IH in E2 as [G2 R2]; [|intros s Hs; apply A; cbn; apply in_app_iff; auto].
    split; [exact (grows_nothing_l _ _ _ _ G1 G2)|]. constructor; [|exact R2]. exact (resolved_after _ _ _ _ _ G2 R1).
Qed.
Lemma patterns_stand i iri_of env ps ps' rs : knows i env -> Forall2 (resolved_pattern i) ps ps' ->
  mapM (env_pattern env) ps' = Ok (rs : list R) ->
  knows i rs /\ (resolves i iri_of -> Forall2 (stands iri_of env) ps rs).
Proof.
  intros K F. revert rs. induction F as [|p p' ps ps' Hp _ IH]; intros rs H.
  - injection H as <-. split; [intros x []|constructor].
  - cbn [mapM] in H. destruct (env_pattern env p') as [r| | |] eqn:E; try discriminate. cbn [bind] in H.
    destruct (mapM (env_pattern env) ps') as [rs'| | |] eqn:E'; try discriminate. cbn [bind] in H. injection H as <-.
    destruct (IH rs' eq_refl) as [K' S']. split.
    + intros x [<-|Hx]; [exact (pattern_known _ _ _ _ _ K Hp E)|exact (K' x Hx)].
    + intro A. constructor; [exact (pattern_stands _ _ _ _ _ _ A Hp E)|exact (S' A)].
Qed.

Definition resolved_graph (i : I) (g : option (pattern string)) (g' : option (pattern R)) : Prop :=
  match g, g' with
  | None, None => True
  | Some p, Some p' => resolved_pattern i p p'
  | _, _ => False
  end.
Definition resolved_quad (i : I) (q : qpat string) (q' : qpat R) : Prop :=
  resolved_pattern i (q_s q) (q_s q') /\ resolved_pattern i (q_p q) (q_p q') /\
  resolved_pattern i (q_o q) (q_o q') /\ resolved_graph i (q_g q) (q_g q').
Lemma resolved_quad_after i i' e q q' : grows i i' e -> resolved_quad i q q' -> resolved_quad i' q q'.
Proof.
  intros G (A & B & C & D). repeat split; try (eapply resolved_after; eassumption).
  destruct (q_g q), (q_g q'); cbn in *; auto. eapply resolved_after; eassumption.
Qed.

Lemma quad_grows q i q' i' : (forall s, In s (quad_iris q) -> P s) -> ser_quad q i = (q', i') ->
  grows i i' nothing /\ resolved_quad i' q q'.
Proof.
  intros A H. unfold ser_quad in H. unfold quad_iris in A.
  destruct (ser_pattern (q_s q) i) as [s i1] eqn:E1. destruct (ser_pattern (q_p q) i1) as [p i2] eqn:E2.
  destruct (ser_pattern (q_o q) i2) as [o i3] eqn:E3.
  apply pattern_grows in E1 as [G1 R1]; [|intros x Hx; apply A; rewrite !in_app_iff; auto].
  apply pattern_grows in E2 as [G2 R2]; [|intros x Hx; apply A; rewrite !in_app_iff; auto].
  apply pattern_grows in E3 as [G3 R3]; [|intros x Hx; apply A; rewrite !in_app_iff; auto].
  pose proof (grows_nothing_l _ _ _ _ G2 G3) as G23. pose proof (grows_nothing_l _ _ _ _ G1 G23) as G.
  apply (resolved_after _ _ _ _ _ G23) in R1. apply (resolved_after _ _ _ _ _ G3) in R2.
  destruct (q_g q) as [g|] eqn:Eg.
  - destruct (ser_pattern g i3) as [g' i4] eqn:E4. injection H as <- <-.
    apply pattern_grows in E4 as [G4 R4]; [|intros x Hx; apply A; rewrite !in_app_iff; auto 6].
    split; [exact (grows_nothing_l _ _ _ _ G G4)|]. unfold resolved_quad. rewrite Eg. cbn.
    repeat split; try exact R4; eapply resolved_after; eassumption.
  - injection H as <- <-. split; [exact G|]. unfold resolved_quad. rewrite Eg. cbn. auto.
Qed.

Lemma quads_grow qs : forall i qs' i', (forall s, In s (flat_map quad_iris qs) -> P s) ->
  ser_quads qs i = (qs', i') -> grows i i' nothing /\ Forall2 (resolved_quad i') qs qs'.
Proof.
  induction qs as [|p ps IH]; intros i ps' i' A H; cbn [ser_quads] in H.
  - injection H as <- <-. split; [apply grows_nothing|constructor].
  - destruct (ser_quad p i) as [p' i1] eqn:E1. destruct (ser_quads ps i1) as [qs i2] eqn:E2. injection H as <- <-.
    apply quad_grows in E1 as [G1 R1]; [|intros s Hs; apply A; cbn; apply in_app_iff; auto].
    apply IH in E2 as [G2 R2]; [|intros s Hs; apply A; cbn; apply in_app_iff; auto].
    split; [exact (grows_nothing_l _ _ _ _ G1 G2)|]. constructor; [|exact R2]. exact (resolved_quad_after _ _ _ _ _ G2 R1).
Qed.

Lemma bind_inv {E A B} (o : outcome E A) (f : A -> outcome E B) b : bind o f = Ok b -> exists a, o = Ok a /\ f a = Ok b.
Proof. destruct o; cbn; intro H; try discriminate. eauto. Qed.

Definition quad_known (i : I) (q : quad R) : Prop :=
  known i (q_s q) /\ known i (q_p q) /\ known i (q_o q) /\ forall g, q_g q = Some g -> known i g.

Lemma env_quad_stands i iri_of env p p' q : knows i env -> resolved_quad i p p' -> env_quad env p' = Ok q ->
  quad_known i q /\ (resolves i iri_of -> stands_quad iri_of env p q).
Proof.
  intros K (A & B & C & D) H. unfold env_quad in H.
  apply bind_inv in H as (s & Es & H). apply bind_inv in H as (r & Ep & H). apply bind_inv in H as (o & Eo & H).
  destruct (q_g p') as [g|] eqn:Eg.
  - apply bind_inv in H as (g' & Eg' & H). injection H as <-. destruct (q_g p) as [gp|] eqn:Egp; [|contradiction]. cbn in D.
    split.
    + split; [exact (pattern_known _ _ _ _ _ K A Es)|]. split; [exact (pattern_known _ _ _ _ _ K B Ep)|].
      split; [exact (pattern_known _ _ _ _ _ K C Eo)|]. intros x [= <-]. exact (pattern_known _ _ _ _ _ K D Eg').
    + intro S. split; [exact (pattern_stands _ _ _ _ _ _ S A Es)|]. split; [exact (pattern_stands _ _ _ _ _ _ S B Ep)|].
      split; [exact (pattern_stands _ _ _ _ _ _ S C Eo)|]. rewrite Egp. constructor. exact (pattern_stands _ _ _ _ _ _ S D Eg').
  - injection H as <-. destruct (q_g p) as [gp|] eqn:Egp; [contradiction|]. split.
    + split; [exact (pattern_known _ _ _ _ _ K A Es)|]. split; [exact (pattern_known _ _ _ _ _ K B Ep)|].
      split; [exact (pattern_known _ _ _ _ _ K C Eo)|]. discriminate.
    + intro S. split; [exact (pattern_stands _ _ _ _ _ _ S A Es)|]. split; [exact (pattern_stands _ _ _ _ _ _ S B Ep)|].
      split; [exact (pattern_stands _ _ _ _ _ _ S C Eo)|]. rewrite Egp. constructor.
Qed.
Lemma env_quads_stand i iri_of env ps ps' Q : knows i env -> Forall2 (resolved_quad i) ps ps' ->
  mapM (env_quad env) ps' = Ok Q ->
  (forall q, In q Q -> quad_known i q) /\ (resolves i iri_of -> Forall2 (stands_quad iri_of env) ps Q).
Proof.
  intros K F. revert Q. induction F as [|p p' ps ps' Hp _ IH]; intros Q H.
  - injection H as <-. split; [intros x []|constructor].
  - cbn [mapM] in H. apply bind_inv in H as (q & E & H). apply bind_inv in H as (Q' & E' & H). injection H as <-.
    destruct (IH Q' E') as [K' S']. destruct (env_quad_stands i iri_of env p p' q K Hp E) as [Kq Sq]. split.
    + intros x [<-|Hx]; auto.
    + intro A. constructor; auto.
Qed.

Lemma scope_grows env n ps i out env' i' out' :
  knows i env -> (forall s, In s (flat_map quad_iris ps) -> P s) ->
  ser_scope env n ps (i, out) = Ok (env', (i', out')) ->
  exists e, grows i i' e /\ out' = out ++ written e /\ knows i' env' /\
    forall iri_of, resolves i' iri_of -> introduces iri_of env n ps env' e.
Proof.
  intros K A H. unfold ser_scope in H. destruct (ser_intro n i) as [rs i1] eqn:E1.
  destruct (ser_quads ps i1) as [ps' i2] eqn:E2. apply bind_inv in H as (Q & EQ & H). injection H as <- <- <-.
  apply intro_grows in E1 as (L & G1 & K1). apply quads_grow in E2 as [G2 R2]; [|exact A].
  pose proof (grows_nothing_r _ _ _ _ G1 G2) as G.
  assert (K' : knows i2 (env ++ rs)).
  { apply knows_app; [exact (knows_after _ _ _ _ G K)|exact (knows_after _ _ _ _ G2 K1)]. }
  exists (Effect rs Q []). split; [|split; [reflexivity|split; [exact K'|]]].
  - destruct (env_quads_stand i2 (fun _ _ => True) _ _ _ _ K' R2 EQ) as [KQ _].
    destruct G; split; cbn in *; auto.
  - intros iri_of HR. exists rs, Q. split; [exact L|]. split; [reflexivity|]. split; [|reflexivity].
    eapply env_quads_stand; eassumption.
Qed.

(** The recursive calls. *)
Definition call_ok (rec : string -> rvalue -> list R -> option R -> I * list (quad R) -> outcome ser_error (I * list (quad R)))
  : Prop :=
  forall ty v inputs g i out i' out', knows i inputs -> (forall s, contains v s -> ~ P s) ->
    rec ty v inputs g (i, out) = Ok (i', out') ->
    exists e, grows i i' e /\ out' = out ++ written e /\
      forall iri_of, resolves i' iri_of -> Written types iri_of ty v inputs e.

Section Rec.
Context (rec : string -> rvalue -> list R -> option R -> I * list (quad R) -> outcome ser_error (I * list (quad R))).
Hypothesis rec_ok : call_ok rec.

Lemma graph_grows env g gp i g' i' :
  (forall s, In s (match gp with Some (Some p) => pattern_iris p | _ => [] end) -> P s) ->
  ser_graph env g gp i = Ok (g', i') -> grows i i' nothing.
Proof.
  intros A H. destruct gp as [[p|]|]; cbn [ser_graph] in H.
  - destruct (ser_pattern p i) as [p' i1] eqn:E. apply bind_inv in H as (r & Er & H). injection H as <- <-.
    now apply pattern_grows in E as [G _].
  - injection H as <- <-. apply grows_nothing.
  - injection H as <- <-. apply grows_nothing.
Qed.

Lemma part_grows env g it v i out i' out' :
  knows i env -> (forall s, In s (item_iris it) -> P s) -> (forall s, contains v s -> ~ P s) ->
  ser_part rec env g it v (i, out) = Ok (i', out') ->
  exists e, grows i i' e /\ out' = out ++ written e /\
    forall iri_of, resolves i' iri_of -> WrittenPart types iri_of env it v e.
Proof.
  intros K A C H. unfold item_iris in A. unfold ser_part in H. apply bind_inv in H as ([env' [i1 out1]] & E1 & H). cbn [fst snd] in H.
  apply scope_grows in E1 as (e1 & G1 & -> & K1 & S1); [|exact K|intros s Hs; apply A; rewrite in_app_iff; auto].
  unfold ser_format in H. destruct (ser_patterns (vf_input (it_value it)) i1) as [ps i2] eqn:E2.
  apply patterns_grow in E2 as [G2 R2];
    [|intros s Hs; apply A; unfold format_iris; rewrite !in_app_iff; auto].
  apply bind_inv in H as (inputs & Ei & H). apply bind_inv in H as ([g' i3] & Eg & H). cbn [fst snd] in H.
  apply graph_grows in Eg; [|intros s Hs; apply A; unfold format_iris; rewrite !in_app_iff; auto].
  pose proof (grows_nothing_l _ _ _ _ G2 Eg) as G23.
  pose proof (knows_after _ _ _ _ G2 K1) as K2.
  apply rec_ok in H as (e2 & G4 & -> & W); [| |exact C].
  2:{ eapply knows_after; [exact Eg|]. exact (proj1 (patterns_stand i2 (fun _ _ => True) env' _ _ inputs K2 R2 Ei)). }
  pose proof (grows_nothing_l _ _ _ _ G23 G4) as G24.
  exists (after e1 e2). split; [exact (grows_after _ _ _ _ _ G1 G24)|]. split; [cbn; now rewrite app_assoc|].
  intros iri_of HR. econstructor.
  - apply S1. eapply resolves_before; eassumption.
  - apply (patterns_stand i2 iri_of env' _ _ inputs K2 R2 Ei).
    eapply resolves_before; [exact (grows_nothing_l _ _ _ _ Eg G4)|exact HR].
  - apply W, HR.
Qed.

Lemma get_field_has name fs o : get_field name fs = Some o -> has_field fs name o.
Proof.
  unfold get_field. induction fs as [|[k o'] fs IH]; cbn [find option_map fst snd]; [discriminate|].
  destruct (eqb_spec k name) as [->|N].
  - cbn. intros [= ->]. exists [], fs. split; [reflexivity|easy].
  - intro H. apply IH in H as (fs1 & fs2 & -> & Hn). exists ((k, o') :: fs1), fs2. split; [reflexivity|].
    cbn. intros [E|E]; auto.
Qed.
Lemma has_field_In fs name o : has_field fs name o -> In (name, o) fs.
Proof. intros (fs1 & fs2 & -> & _). apply in_app_iff. right. now left. Qed.

Lemma fields_grow fields fs : forall env g i out i' out',
  knows i env -> (forall s, In s (flat_map (fun kf : value * field string => item_iris (f_item (snd kf))) fields) -> P s) ->
  (forall s, contains (RvRecord fs) s -> ~ P s) ->
  ser_fields rec env g fields fs (i, out) = Ok (i', out') ->
  exists e, grows i i' e /\ out' = out ++ written e /\
    forall iri_of, resolves i' iri_of -> WrittenFields types iri_of env fields fs e.
Proof.
  induction fields as [|[key f] fields IH]; intros env g i out i' out' K A C H; cbn [ser_fields] in H.
  - injection H as <- <-. exists nothing. split; [apply grows_nothing|]. split; [symmetry; apply app_nil_r|]. constructor.
  - apply bind_inv in H as (name & En & H). apply bind_inv in H as (o & Eo & H).
    assert (key = VLit (LText name)) as ->.
    { destruct key as [[]| |]; cbn in En; try discriminate. now injection En as ->. }
    assert (Hf : has_field fs name o).
    { apply get_field_has. destruct (get_field name fs); [|discriminate]. now injection Eo as ->. }
    apply bind_inv in H as ([i1 out1] & E1 & H).
    destruct o as [v|].
    + apply part_grows in E1 as (e1 & G1 & -> & W1); [|exact K|intros s Hs; apply A; cbn; apply in_app_iff; auto|].
      2:{ intros s Hs. apply C. econstructor; [apply has_field_In, Hf|exact Hs]. }
      apply IH in H as (e2 & G2 & -> & W2);
        [|eapply knows_after; eassumption|intros s Hs; apply A; cbn; apply in_app_iff; auto|exact C].
      exists (after e1 e2). split; [exact (grows_after _ _ _ _ _ G1 G2)|]. split; [cbn; now rewrite app_assoc|].
      intros iri_of HR. econstructor; [exact Hf|apply W1; eapply resolves_before; eassumption|apply W2, HR].
    + destruct (f_required f) eqn:Er; [discriminate|]. injection E1 as <- <-.
      apply IH in H as (e2 & G2 & -> & W2); [|exact K|intros s Hs; apply A; cbn; apply in_app_iff; auto|exact C].
      exists e2. split; [exact G2|]. split; [reflexivity|]. intros iri_of HR. apply WF_absent; auto.
Qed.

Lemma items_grow it vs : forall env g i out i' out',
  knows i env -> (forall s, In s (item_iris it) -> P s) -> (forall v s, In v vs -> contains v s -> ~ P s) ->
  ser_items rec env g it vs (i, out) = Ok (i', out') ->
  exists e, grows i i' e /\ out' = out ++ written e /\
    forall iri_of, resolves i' iri_of -> WrittenItems types iri_of env it vs e.
Proof.
  induction vs as [|v vs IH]; intros env g i out i' out' K A C H; cbn [ser_items] in H.
  - injection H as <- <-. exists nothing. split; [apply grows_nothing|]. split; [symmetry; apply app_nil_r|]. constructor.
  - apply bind_inv in H as ([i1 out1] & E1 & H).
    apply part_grows in E1 as (e1 & G1 & -> & W1); [|exact K|exact A|intros s; apply C; now left].
    apply IH in H as (e2 & G2 & -> & W2); [|eapply knows_after; eassumption|exact A|intros w s Hw; apply C; now right].
    exists (after e1 e2). split; [exact (grows_after _ _ _ _ _ G1 G2)|]. split; [cbn; now rewrite app_assoc|].
    intros iri_of HR. econstructor; [apply W1; eapply resolves_before; eassumption|apply W2, HR].
Qed.

Lemma tuple_grows its : forall vs env g i out i' out',
  knows i env -> (forall s, In s (flat_map item_iris its) -> P s) -> (forall v s, In v vs -> contains v s -> ~ P s) ->
  ser_tuple rec env g its vs (i, out) = Ok (i', out') ->
  exists e, grows i i' e /\ out' = out ++ written e /\
    forall iri_of, resolves i' iri_of -> WrittenTuple types iri_of env its vs e.
Proof.
  induction its as [|it its IH]; intros [|v vs] env g i out i' out' K A C H; cbn [ser_tuple] in H; try discriminate.
  - injection H as <- <-. exists nothing. split; [apply grows_nothing|]. split; [symmetry; apply app_nil_r|]. constructor.
  - apply bind_inv in H as ([i1 out1] & E1 & H).
    apply part_grows in E1 as (e1 & G1 & -> & W1);
      [|exact K|intros s Hs; apply A; cbn; apply in_app_iff; auto|intros s; apply C; now left].
    apply IH in H as (e2 & G2 & -> & W2);
      [|eapply knows_after; eassumption|intros s Hs; apply A; cbn; apply in_app_iff; auto|intros w s Hw; apply C; now right].
    exists (after e1 e2). split; [exact (grows_after _ _ _ _ _ G1 G2)|]. split; [cbn; now rewrite app_assoc|].
    intros iri_of HR. econstructor; [apply W1; eapply resolves_before; eassumption|apply W2, HR].
Qed.

Lemma nodes_grow node tl vs : forall env g head i out i' out',
  knows i env -> known i head -> (forall s, In s (item_iris node) -> P s) -> (forall s, In s (pattern_iris tl) -> P s) ->
  (forall v s, In v vs -> contains v s -> ~ P s) ->
  ser_nodes rec env g node tl vs head (i, out) = Ok (i', out') ->
  exists e, grows i i' e /\ out' = out ++ written e /\
    forall iri_of, resolves i' iri_of -> WrittenNodes types iri_of env node tl head vs e.
Proof.
  induction vs as [|v vs IH]; intros env g head i out i' out' K Kh A B C H; cbn [ser_nodes] in H.
  - injection H as <- <-. exists nothing. split; [apply grows_nothing|]. split; [symmetry; apply app_nil_r|]. constructor.
  - apply bind_inv in H as ([rest i1] & Er & H). cbn [fst snd] in H. apply bind_inv in H as ([i2 out2] & E2 & H).
    destruct vs as [|v' vs].
    + destruct (ser_pattern tl i) as [p i0] eqn:Et. apply bind_inv in Er as (r & Er & E). injection E as -> ->.
      cbn [ser_nodes] in H. injection H as -> ->.
      apply pattern_grows in Et as [G1 R1]; [|exact B].
      pose proof (knows_after _ _ _ _ G1 K) as K1.
      assert (Kr : known i1 rest) by (eapply pattern_known; eassumption).
      apply part_grows in E2 as (e2 & G2 & -> & W2); [| |exact A|intros s; apply C; now left].
      2:{ apply knows_app; [exact K1|]. intros x [<-|[<-|[]]]; [apply (gr_known _ _ _ G1), Kh|exact Kr]. }
      exists e2. split; [exact (grows_nothing_l _ _ _ _ G1 G2)|]. split; [reflexivity|].
      intros iri_of HR. econstructor; [|apply W2, HR]. eapply pattern_stands; [|exact R1|exact Er].
      eapply resolves_before; eassumption.
    + pose proof (grows_new i) as G1. injection Er as Er. rewrite Er in G1. cbn [fst snd] in G1.
      assert (Kr : known i1 rest) by (apply (gr_created _ _ _ G1); now left).
      apply part_grows in E2 as (e2 & G2 & -> & W2); [| |exact A|intros s; apply C; now left].
      2:{ apply knows_app; [eapply knows_after; eassumption|]. intros x [<-|[<-|[]]]; [apply (gr_known _ _ _ G1), Kh|exact Kr]. }
      pose proof (grows_after _ _ _ _ _ G1 G2) as G12.
      apply IH in H as (e3 & G3 & -> & W3);
        [|eapply knows_after; eassumption|apply (gr_known _ _ _ G2), Kr|exact A|exact B|intros w s Hw; apply C; now right].
      exists (after (Effect [rest] [] []) (after e2 e3)). split; [|split; [cbn; now rewrite app_assoc|]].
      * exact (grows_after _ _ _ _ _ G1 (grows_after _ _ _ _ _ G2 G3)).
      * intros iri_of HR. econstructor; [apply W2; eapply resolves_before; eassumption|apply W3, HR].
Qed.

Lemma literal_text_form inner v s : literal_text inner v = Some s -> lexical_form inner v s.
Proof.
  intros H. destruct inner, v; cbn in H; try discriminate; try (injection H as <-; constructor).
  destruct b; injection H as <-; constructor.
Qed.

Hypothesis program_P : forall s, program_iri types s -> P s.

Lemma layout_grows ty l inner v inputs g i out i' out' :
  types ty = Some (TyDerived l inner) -> input_count l = Some (length inputs) ->
  knows i inputs -> (forall s, contains v s -> ~ P s) ->
  ser_layout rec l inner v inputs g (i, out) = Ok (i', out') ->
  exists e, grows i i' e /\ out' = out ++ written e /\
    forall iri_of, resolves i' iri_of -> Written types iri_of ty v inputs e.
Proof.
  intros T N K C H.
  assert (A : forall s, In s (layout_iris l) -> P s) by (intros s Hs; apply program_P; exists ty, l, inner; auto).
  assert (one : forall (rs : list R), Some 1 = Some (length rs) -> exists r, rs = [r]).
  { intros [|r [|]]; try discriminate. eauto. }
  destruct l as [| |h c|k h res dt|h res pat|h fields|h vs|h it|h node hd tl|h its]; cbn [ser_layout] in H;
    try (destruct v; discriminate); cbn [layout_iris] in A; unfold header_iris in A; cbn [input_count] in N.
  - destruct v; try discriminate. apply one in N as [r ->]. apply bind_inv in H as ([env [i1 out1]] & E1 & H). injection H as -> ->.
    apply scope_grows in E1 as (e1 & G1 & -> & K1 & S1); auto.
    exists e1. split; [exact G1|]. split; [reflexivity|]. intros iri_of HR. econstructor; eauto.
  - apply one in N as [r ->]. apply bind_inv in H as ([env [i1 out1]] & E1 & H). cbn [snd] in H.
    apply scope_grows in E1 as (e1 & G1 & -> & K1 & S1); [|exact K|intros s Hs; apply A; rewrite in_app_iff; auto].
    apply bind_inv in H as (text & Et & H). apply bind_inv in H as ([x i2] & Ex & H). cbn [fst snd] in H. injection H as <- <-.
    assert (Hx : grows i1 i2 nothing /\ known i2 x /\ forall iri_of, resolves i2 iri_of -> stands iri_of [r] res x).
    { destruct res as [s|y]; cbn [ser_target] in Ex.
      - assert (HP : P s) by (apply A; rewrite in_app_iff; cbn; auto). pose proof (grows_interpret i1 s HP) as G.
        pose proof (interpret_resolves i1 s) as HI. injection Ex as Ex. rewrite Ex in G, HI. cbn [fst snd] in G, HI.
        split; [exact G|]. split; [eapply iri_known, HI|]. intros iri_of HR. constructor. now apply HR.
      - apply bind_inv in Ex as (x' & Ex & E). injection E as -> ->. unfold unwrap in Ex.
        destruct (nth_error [r] y) eqn:En; [|discriminate]. injection Ex as ->. split; [apply grows_nothing|].
        split; [|intros; now constructor]. apply (knows_after _ _ _ _ G1 K). eapply nth_error_In, En. }
    destruct Hx as (G2 & K2 & S2).
    pose proof (grows_assign_literal i2 x (RdfLiteral text (TypeAny dt)) K2) as G3.
    exists (after e1 (Effect [] [] [(x, TmLit (RdfLiteral text (TypeAny dt)))])).
    split; [exact (grows_after _ _ _ _ _ G1 (grows_nothing_l _ _ _ _ G2 G3))|]. split; [cbn; now rewrite app_nil_r|].
    intros iri_of HR. apply (W_data types iri_of ty k h res dt inner v text r x env e1 T).
    + apply S1. eapply resolves_before; [exact (grows_nothing_l _ _ _ _ G2 G3)|exact HR].
    + apply literal_text_form. unfold unwrap in Et. destruct (literal_text inner v); [|discriminate]. now injection Et as ->.
    + apply S2. eapply resolves_before; eassumption.
  - destruct v; try discriminate. apply one in N as [r ->]. apply bind_inv in H as ([env [i1 out1]] & E1 & H). cbn [snd] in H.
    apply scope_grows in E1 as (e1 & G1 & -> & K1 & S1); [|exact K|intros s Hs; apply A; rewrite in_app_iff; auto].
    cbn [nth_error unwrap bind] in H. injection H as <- <-.
    pose proof (grows_assign_id i1 r id (knows_after _ _ _ _ G1 K r (or_introl eq_refl))) as G2.
    assert (grows i1 (id_ser id i1 r) (Effect [] [] [(r, id_term id)])) as G2'.
    { apply G2. intros s -> . apply C. constructor. }
    exists (after e1 (Effect [] [] [(r, id_term id)])). split; [exact (grows_after _ _ _ _ _ G1 G2')|].
    split; [cbn; now rewrite app_nil_r|]. intros iri_of HR. eapply W_id; [exact T|]. apply S1. eapply resolves_before; eassumption.
  - destruct v; try discriminate. injection N as N. apply bind_inv in H as ([env [i1 out1]] & E1 & H). cbn [fst snd] in H.
    apply scope_grows in E1 as (e1 & G1 & -> & K1 & S1); [|exact K|intros s Hs; apply A; rewrite in_app_iff; auto].
    apply fields_grow in H as (e2 & G2 & -> & W2); [|exact K1|intros s Hs; apply A; rewrite in_app_iff; auto|exact C].
    exists (after e1 e2). split; [exact (grows_after _ _ _ _ _ G1 G2)|]. split; [cbn; now rewrite app_assoc|].
    intros iri_of HR. eapply W_record; [exact T|now rewrite N|apply S1; eapply resolves_before; eassumption|apply W2, HR].
  - destruct v as [| | | | | |k v| |]; try discriminate. injection N as N. apply bind_inv in H as ([env [i1 out1]] & E1 & H). cbn [fst snd] in H.
    apply scope_grows in E1 as (e1 & G1 & -> & K1 & S1); [|exact K|intros s Hs; apply A; rewrite in_app_iff; auto].
    apply bind_inv in H as (va & Ev & H). unfold unwrap in Ev. destruct (nth_error vs k) as [va'|] eqn:En; [|discriminate].
    injection Ev as ->.
    apply part_grows in H as (e2 & G2 & -> & W2); [|exact K1| |intros s Hs; apply C; now constructor].
    2:{ intros s Hs. apply A. rewrite in_app_iff. right. apply in_flat_map. exists va. split; [eapply nth_error_In, En|exact Hs]. }
    exists (after e1 e2). split; [exact (grows_after _ _ _ _ _ G1 G2)|]. split; [cbn; now rewrite app_assoc|].
    intros iri_of HR. eapply W_sum; [exact T|now rewrite N|apply S1; eapply resolves_before; eassumption|exact En|apply W2, HR].
  - destruct v as [| | | | | | |vs|]; try discriminate. injection N as N. apply bind_inv in H as ([env [i1 out1]] & E1 & H). cbn [fst snd] in H.
    apply scope_grows in E1 as (e1 & G1 & -> & K1 & S1); [|exact K|intros s Hs; apply A; rewrite in_app_iff; auto].
    apply items_grow in H as (e2 & G2 & -> & W2);
      [|exact K1|intros s Hs; apply A; rewrite in_app_iff; auto|intros v s Hv Hs; apply C; econstructor; eassumption].
    exists (after e1 e2). split; [exact (grows_after _ _ _ _ _ G1 G2)|]. split; [cbn; now rewrite app_assoc|].
    intros iri_of HR. eapply W_set; [exact T|now rewrite N|apply S1; eapply resolves_before; eassumption|apply W2, HR].
  - destruct v as [| | | | | | |vs|]; try discriminate. injection N as N. apply bind_inv in H as ([env [i1 out1]] & E1 & H). cbn [fst snd] in H.
    apply scope_grows in E1 as (e1 & G1 & -> & K1 & S1); [|exact K|intros s Hs; apply A; rewrite in_app_iff; auto].
    destruct (ser_pattern hd i1) as [p i2] eqn:E2. apply bind_inv in H as (head & Eh & H).
    apply pattern_grows in E2 as [G2 R2]; [|intros s Hs; apply A; rewrite !in_app_iff; auto].
    pose proof (knows_after _ _ _ _ G2 K1) as K2.
    apply nodes_grow in H as (e2 & G3 & -> & W2); [|exact K2|eapply pattern_known; eassumption
      |intros s Hs; apply A; rewrite !in_app_iff; auto|intros s Hs; apply A; rewrite !in_app_iff; auto
      |intros v s Hv Hs; apply C; econstructor; eassumption].
    pose proof (grows_nothing_l _ _ _ _ G2 G3) as G23.
    exists (after e1 e2). split; [exact (grows_after _ _ _ _ _ G1 G23)|]. split; [cbn; now rewrite app_assoc|].
    intros iri_of HR. eapply W_list; [exact T|now rewrite N|apply S1; eapply resolves_before; eassumption| |apply W2, HR].
    eapply pattern_stands; [|exact R2|exact Eh]. eapply resolves_before; eassumption.
  - destruct v as [| | | | | | | |vs]; try discriminate. injection N as N. apply bind_inv in H as ([env [i1 out1]] & E1 & H). cbn [fst snd] in H.
    apply scope_grows in E1 as (e1 & G1 & -> & K1 & S1); [|exact K|intros s Hs; apply A; rewrite in_app_iff; auto].
    apply tuple_grows in H as (e2 & G2 & -> & W2);
      [|exact K1|intros s Hs; apply A; rewrite in_app_iff; auto|intros v s Hv Hs; apply C; econstructor; eassumption].
    exists (after e1 e2). split; [exact (grows_after _ _ _ _ _ G1 G2)|]. split; [cbn; now rewrite app_assoc|].
    intros iri_of HR. eapply W_tuple; [exact T|now rewrite N|apply S1; eapply resolves_before; eassumption|apply W2, HR].
Qed.
End Rec.

Lemma serialize_grows : (forall s, program_iri types s -> P s) -> forall fuel, call_ok (serialize types fuel).
Proof.
  intros A. induction fuel as [|fuel IH]; intros ty v inputs g i out i' out' K C H; [discriminate|].
  cbn [serialize] in H. destruct (types ty) as [t|] eqn:T; [|discriminate].
  destruct t as [| |ity|l inner].
  4:{ destruct (input_count l) as [n|] eqn:En; [|discriminate]. destruct (Nat.eqb_spec n (length inputs)) as [->|]; [|discriminate].
      eapply layout_grows; eauto. }
  all: destruct inputs as [|r [|]]; try discriminate; destruct v; try discriminate; cbn [ser_runtime fst snd] in H; injection H as <- <-.
  - exists (Effect [] [] [(r, id_term id)]). split; [|split; [cbn; now rewrite app_nil_r|intros; now constructor]].
    apply grows_assign_id; [apply K; now left|]. intros s ->. apply C. constructor.
  - eexists. split; [apply grows_assign_literal, K; now left|]. split; [cbn; now rewrite app_nil_r|intros; now constructor].
  - eexists. split; [apply grows_assign_literal, K; now left|]. split; [cbn; now rewrite app_nil_r|intros; now constructor].
Qed.
End Proofs.

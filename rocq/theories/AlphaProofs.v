(** * Proofs for C108 *)

From Coq Require Import String Ascii List Bool Arith NArith ZArith Lia.
Import ListNotations.
From Verif Require Import Base BaseProofs PatternModel ValueModel LayoutModel LayoutSpec MatchingSpec HydrateModel TermModel DehydrateModel
  AbsModel AbsSpec AbsProofs AbsProperties AbsMeaning AbsAcceptSpec AbsAccept AlphaSpec.
Open Scope list_scope.
Open Scope nat_scope.

Section Alike.
Context {IS : IriSyntax} {AE : AbsExternal} {St R : Type} {CR : Cmp R} {CL : CmpLaws R} (ctx : context St R).

Definition alike_outcome {A B} (P : A -> B -> Prop) (o : outcome build_error A) (o' : outcome build_error B) : Prop :=
  match o, o' with
  | Ok a, Ok b => P a b
  | Err x, Err x' => same_error x x'
  | Panic w, Panic w' => w = w'
  | OutOfFuel, OutOfFuel => True
  | _, _ => False
  end.
Definition alike {A B} (P : A -> B -> Prop) (m : @M St R A) (m' : @M St R B) : Prop :=
  forall s, snd (m s) = snd (m' s) /\ alike_outcome P (fst (m s)) (fst (m' s)).

Lemma error_refl x : same_error x x.
Proof. destruct x; exact Logic.I || reflexivity. Qed.

Lemma a_ret {A B} (P : A -> B -> Prop) a b : P a b -> alike P (ret a) (ret b).
Proof. intros H s. now split. Qed.
Lemma a_lift {A B} (P : A -> B -> Prop) o o' : alike_outcome P o o' -> alike P (lift o) (lift o').
Proof. intros H s. now split. Qed.
Lemma a_bind {A B A' B'} (P : A -> B -> Prop) (Q : A' -> B' -> Prop) m m' k k' :
  alike P m m' -> (forall a b, P a b -> alike Q (k a) (k' b)) -> alike Q (bindM m k) (bindM m' k').
Proof.
  intros H K s. unfold bindM. destruct (H s) as [H1 H2]. destruct (m s) as [o s1], (m' s) as [o' s1']. cbn [fst snd] in *. subst s1'.
  destruct o as [a|x|w|], o' as [b|x'|w'|]; cbn [alike_outcome] in H2; try contradiction; [now apply K| | |]; now split.
Qed.
Lemma a_refl {A} (m : @M St R A) : alike eq m m.
Proof. intros s. split; [reflexivity|]. destruct (fst (m s)); cbn; auto using error_refl. Qed.
Lemma a_weaken {A B} (P Q : A -> B -> Prop) m m' : (forall a b, P a b -> Q a b) -> alike P m m' -> alike Q m m'.
Proof. intros K H s. destruct (H s) as [H1 H2]. split; [exact H1|]. destruct (fst (m s)), (fst (m' s)); cbn in *; auto. Qed.
Lemma a_mapS {A B C} (f : A -> @M St R C) (g : B -> @M St R C) (Q : A -> B -> Prop) l l' :
  (forall a b, In a l -> Q a b -> alike eq (f a) (g b)) -> Forall2 Q l l' -> alike eq (mapS f l) (mapS g l').
Proof.
  intros K F. induction F as [|a b l l' H F IH]; cbn [mapS]; [now apply a_ret|].
  apply (a_bind eq); [apply K; auto; now left|]. intros c ? <-. apply (a_bind eq); [apply IH; intros; apply K; auto; now right|].
  intros cs ? <-. now apply a_ret.
Qed.
Lemma a_option {A B C} (f : A -> @M St R C) (g : B -> @M St R C) (Q : A -> B -> Prop) o o' :
  (forall a b, Q a b -> alike eq (f a) (g b)) -> same_option Q o o' -> alike eq (build_option f o) (build_option g o').
Proof.
  intros K H. destruct o as [a|], o' as [b|]; try contradiction; cbn [build_option]; [|now apply a_ret].
  apply (a_bind eq); [now apply K|]. intros c ? <-. now apply a_ret.
Qed.

(** ** IRIs and names *)

Lemma resolve_cases i sc : (exists j, resolve i sc = Ok j) \/ (exists j, resolve i sc = Err (NoBaseIri j)) \/ (exists j, resolve i sc = Err (InvalidIri j)).
Proof.
  destruct (C54_cases i) as [(t & u & A)|N].
  - destruct (hm_get t (sc_prefixes sc)) as [p|] eqn:P.
    + rewrite (C54_prefixed i t u p sc A P). destruct (is_iri _); eauto.
    + rewrite (C54_absolute i t u sc A P). eauto.
  - rewrite (C54_relative i sc N). destruct (sc_base sc); eauto.
Qed.

Lemma a_resolve e e' sc sc' i i' : agrees e sc -> agrees e' sc' -> same_iri e e' i i' -> alike_outcome eq (resolve i sc) (resolve i' sc').
Proof.
  intros A A' H.
  assert (forall j, resolve i sc = Ok j <-> resolve i' sc' = Ok j) as K.
  { intros j. rewrite <- (denotes_resolve _ _ _ _ A), <- (denotes_resolve _ _ _ _ A'). apply H. }
  destruct (resolve_cases i sc) as [[j E]|[[j E]|[j E]]]; rewrite E.
  - apply K in E as ->. reflexivity.
  - destruct (resolve_cases i' sc') as [[j' E']|[[j' E']|[j' E']]]; rewrite E'; cbn; auto. apply K in E'. congruence.
  - destruct (resolve_cases i' sc') as [[j' E']|[[j' E']|[j' E']]]; rewrite E'; cbn; auto. apply K in E'. congruence.
Qed.

Lemma a_variable sc sc' ns ns' x x' : sees sc ns -> sees sc' ns' -> same_name ns ns' x x' ->
  alike_outcome eq (scope_variable sc x) (scope_variable sc' x').
Proof.
  intros [_ S] [_ S'] H.
  assert (forall k, scope_variable sc x = Ok k <-> scope_variable sc' x' = Ok k) as K by (intros k; rewrite S, S'; apply H).
  unfold scope_variable in *. destruct (hm_get x (sc_variables sc)) as [k|].
  - pose proof (proj1 (K k) eq_refl) as E. destruct (hm_get x' (sc_variables sc')) as [k'|]; [|discriminate E]. injection E as ->. reflexivity.
  - destruct (hm_get x' (sc_variables sc')) as [k'|]; [discriminate (proj2 (K k') eq_refl)|exact Logic.I].
Qed.

(** Two scopes for the two documents. *)
Definition places (e e' : ienv) (ns ns' : list string) (sc sc' : scope) : Prop :=
  agrees e sc /\ agrees e' sc' /\ sees sc ns /\ sees sc' ns'.

Lemma places_intro e e' ns ns' sc sc' i i' : places e e' ns ns' sc sc' ->
  places e e' (ns ++ i) (ns' ++ i') (with_intro i sc) (with_intro i' sc').
Proof. intros (A & A' & S & S'). split; [|split; [|split]]; auto using agrees_intro, sees_intro. Qed.
Lemma places_without e e' ns ns' sc sc' : places e e' ns ns' sc sc' -> places e e' [] [] (without_variables sc) (without_variables sc').
Proof. intros (A & A' & S & S'). split; [|split; [|split]]; auto using agrees_without, sees_without. Qed.

Section Place.
Context (e e' : ienv) (ns ns' : list string) (sc sc' : scope) (PL : places e e' ns ns' sc sc').

Lemma a_iri i i' : same_iri e e' i i' -> alike eq (build_iri ctx i sc) (build_iri ctx i' sc').
Proof.
  intros H. destruct PL as (A & A' & _). apply (a_bind eq); [apply a_lift; eapply a_resolve; eauto|]. intros j ? <-. apply a_refl.
Qed.
Lemma a_pattern p p' : same_pattern e e' ns ns' p p' -> alike eq (build_pattern ctx p sc) (build_pattern ctx p' sc').
Proof.
  intros H. destruct PL as (A & A' & S & S'). destruct p as [x|i|v ty], p' as [x'|i'|v' ty'];
    cbn [same_pattern build_pattern] in *; try contradiction; try (destruct ty; contradiction).
  - apply (a_bind eq); [apply a_lift; eapply a_variable; eauto|]. intros k ? <-. now apply a_ret.
  - apply (a_bind eq); [apply a_lift; eapply a_resolve; eauto|]. intros k ? <-. apply a_refl.
  - destruct ty as [i|t], ty' as [i'|t']; try contradiction; destruct H as [<- H].
    + apply (a_bind eq); [|intros k ? <-; apply a_refl]. apply a_lift. cbn [resolve_type].
      pose proof (a_resolve _ _ _ _ _ _ A A' H) as K. destruct (resolve i sc), (resolve i' sc'); cbn in *; try contradiction; congruence.
    + subst t'. apply a_refl.
Qed.
Lemma a_quad q q' : same_quad e e' ns ns' q q' -> alike eq (build_quad ctx sc q) (build_quad ctx sc' q').
Proof.
  intros (H1 & H2 & H3 & H4). unfold build_quad. do 3 (apply (a_bind eq); [now apply a_pattern|intros ? ? <-]).
  apply (a_bind eq); [eapply a_option; [|exact H4]; intros; now apply a_pattern|]. intros ? ? <-. now apply a_ret.
Qed.
Lemma a_dataset ds ds' : Forall2 (same_quad e e' ns ns') ds ds' -> alike eq (build_dataset ctx sc ds) (build_dataset ctx sc' ds').
Proof.
  intros H. apply (a_bind eq); [eapply a_mapS; [|exact H]; intros; now apply a_quad|]. intros ? ? <-. now apply a_ret.
Qed.
Lemma a_extra x x' : Forall2 (same_extra e e') x x' -> alike eq (build_extra ctx x sc) (build_extra ctx x' sc').
Proof.
  intros H. unfold build_extra. apply (a_bind eq); [|intros; now apply a_ret].
  eapply a_mapS; [|exact H]. intros [i r] [i' r'] _ [H1 H2]. cbn [fst snd] in *.
  apply (a_bind eq); [now apply a_iri|]. intros k ? <-. apply (a_bind eq); [|intros ? ? <-; now apply a_ret].
  destruct PL as (A & A' & S & S'). destruct r as [b|z|t|v ty]; destruct r' as [b'|z'|t'|v' ty']; try discriminate H2; try (rewrite <- H2; apply a_refl).
  destruct H2 as [<- H2]. cbn [build_resource]. apply (a_bind eq); [apply a_lift; eapply a_resolve; eauto|]. intros ? ? <-. apply a_refl.
Qed.
Lemma a_literal_resource (input input' : list string) r r' : length input = length input' -> same_option (same_pattern e e' ns ns') r r' ->
  alike eq (build_literal_resource ctx input r sc) (build_literal_resource ctx input' r' sc').
Proof.
  intros L H. destruct r as [p|], r' as [p'|]; try contradiction; cbn [build_literal_resource]; [now apply a_pattern|].
  destruct input, input'; try discriminate; apply a_refl.
Qed.

Section Nested.
Context (same_nested : alayout -> alayout -> Prop) (build : alayout -> scope -> @M St R R).
Definition nested_alike (l : alayout) : Prop := forall l' sc sc', places e e' [] [] sc sc' -> same_nested l l' -> alike eq (build l sc) (build l' sc').

Lemma a_ref r r' : (forall l, nested_ref r l -> nested_alike l) -> same_ref same_nested e e' r r' ->
  alike eq (build_ref ctx build r sc) (build_ref ctx build r' sc').
Proof.
  intros N H. pose proof (places_without _ _ _ _ _ _ PL) as PW. destruct r as [i|l], r' as [i'|l']; try contradiction; cbn [build_ref same_ref] in *.
  - destruct PW as (A & A' & _). apply (a_bind eq); [apply a_lift; eapply a_resolve; eauto|]. intros j ? <-. apply a_refl.
  - apply (N l eq_refl); auto.
Qed.
Lemma a_format default f f' : (forall l, nested_format f l -> nested_alike l) -> same_format same_nested e e' ns ns' default f f' ->
  alike eq (build_format ctx build default f sc) (build_format ctx build default f' sc').
Proof.
  intros N H. destruct f as [r inp g|r], f' as [r' inp' g'|r']; try contradiction; cbn [build_format same_format] in *.
  - destruct H as (H1 & H2 & H3). apply (a_bind eq); [eapply a_mapS; [|exact H2]; intros; now apply a_pattern|]. intros ? ? <-.
    apply (a_bind eq); [now apply a_ref|]. intros ? ? <-. apply (a_bind eq).
    + eapply a_option; [|exact H3]. intros. eapply a_option; [|eassumption]. intros. now apply a_pattern.
    + intros ? ? <-. now apply a_ret.
  - destruct H as [H1 H2]. apply (a_bind eq); [now apply a_ref|]. intros ? ? <-.
    apply (a_bind eq); [now apply (a_pattern (AVar default) (AVar default))|]. intros ? ? <-. now apply a_ret.
Qed.
End Nested.
End Place.

Section Places.
Context (e e' : ienv) (ns ns' : list string) (sc sc' : scope) (PL : places e e' ns ns' sc sc').
Context (same_nested : alayout -> alayout -> Prop) (build : alayout -> scope -> @M St R R).
Notation nested_alike := (nested_alike e e' same_nested build).

Lemma a_item inputs count it it' : (forall l, nested_format (ai_value it) l -> nested_alike l) ->
  same_item same_nested e e' ns ns' it it' ->
  alike eq (build_item ctx build inputs count it sc) (build_item ctx build inputs count it' sc').
Proof.
  intros N (L & D & P & F). unfold build_item. pose proof (places_intro _ _ _ _ _ _ (ai_intro it) (ai_intro it') PL) as PI.
  apply (a_bind eq); [eapply a_dataset; eauto|]. intros ds ? <-. apply (a_bind eq).
  - unfold build_property. destruct (ai_property it) as [p|], (ai_property it') as [p'|]; try contradiction; [|now apply a_ret].
    destruct (Nat.eqb inputs 0); [apply a_refl|]. destruct (ai_intro it), (ai_intro it'); try discriminate; [apply a_refl|].
    apply (a_bind eq); [eapply a_pattern; eauto|]. intros ? ? <-. now apply a_ret.
  - intros ds' ? <-. apply (a_bind eq); [eapply a_format; eauto|]. intros ? ? <-. rewrite L. now apply a_ret.
Qed.
Lemma a_variant v v' : (forall l, nested_format (av_value (snd v)) l -> nested_alike l) ->
  same_variant same_nested e e' ns ns' v v' -> alike eq (build_variant ctx build sc v) (build_variant ctx build sc' v').
Proof.
  destruct v as [n [intro f ds]], v' as [n' [intro' f' ds']]. cbn [snd av_value]. intros N (E & L & D & F). cbn [fst snd av_intro av_value av_dataset build_variant] in *.
  subst n'. pose proof (places_intro _ _ _ _ _ _ intro intro' PL) as PI.
  apply (a_bind eq); [eapply a_format; eauto|]. intros ? ? <-. apply (a_bind eq); [eapply a_dataset; eauto|]. intros ? ? <-. rewrite L. now apply a_ret.
Qed.
Lemma a_node n n' : length ns = length ns' ->
  (forall l, match n with ANode _ _ _ f _ => nested_format f l | ANodeLayout r => nested_ref r l end -> nested_alike l) ->
  same_node same_nested e e' ns ns' n n' -> alike eq (build_node ctx build n sc) (build_node ctx build n' sc').
Proof.
  intros LN N H. unfold build_node.
  assert (sc_count sc' = sc_count sc) as -> by (destruct PL as (_ & _ & [C _] & [C' _]); congruence).
  destruct n as [hd rs intro f ds|r], n' as [hd' rs' intro' f' ds'|r']; try contradiction; cbn [same_node] in H.
  - destruct H as (L & D & F). pose proof (places_intro _ _ _ _ _ _ ([hd; rs] ++ intro) ([hd'; rs'] ++ intro') PL) as PI.
    apply (a_bind eq); [eapply a_format; eauto|]. intros ? ? <-. apply (a_bind eq); [|intros ? ? <-; rewrite L; now apply a_ret].
    destruct ds as [ds|], ds' as [ds'|]; try contradiction; [eapply a_dataset; eauto|].
    destruct f as [r inp g|r], f' as [r' inp' g'|r']; try contradiction; cbn [same_format] in F.
    + destruct F as (_ & F & _). destruct F as [|p p' inp inp' P F]; [now apply a_ret|]. destruct F as [|p0 p0' inp inp' P0 F]; [|now apply a_ret].
      apply (a_bind eq); [eapply a_pattern; eauto|]. intros ? ? <-. apply a_refl.
    + destruct F as [_ F]. destruct PI as (A & A' & S & S'). apply (a_bind eq); [apply a_lift; eapply a_variable; eauto|]. intros ? ? <-. apply a_refl.
  - apply (a_bind eq); [eapply a_ref; eauto|]. intros ? ? <-. apply a_refl.
Qed.
End Places.

(** ** Headers *)

Lemma with_header_cases h sc e : agrees e sc ->
  (exists sc1, with_header h sc = Ok sc1 /\ opens e h (env_of sc1)) \/
  ((forall e1, ~ opens e h e1) /\ ((exists j, with_header h sc = Err (NoBaseIri j)) \/ exists j, with_header h sc = Err (InvalidIri j))).
Proof.
  intros A. destruct (with_header h sc) as [sc1|x|w|] eqn:E.
  1: { left. exists sc1. split; [reflexivity|]. exact (header_scope _ _ _ _ A E). }
  all: right; split; [intros e1 [H1 H2]; destruct (scope_header _ _ _ _ A H1 H2) as (sc1 & E1 & _); congruence|].
  all: unfold with_header in E.
  all: assert (forall ps m, match with_prefixes sc ps m with Ok _ | Err (NoBaseIri _) | Err (InvalidIri _) => True | _ => False end) as P by
    (induction ps as [|[n p] ps IH]; intros m; cbn [with_prefixes]; [exact Logic.I|];
     destruct (resolve_cases p sc) as [[j Ep]|[[j Ep]|[j Ep]]]; rewrite Ep; cbn [bind]; [apply IH|exact Logic.I|exact Logic.I]).
  all: specialize (P (ah_prefixes h) (sc_prefixes sc)).
  all: destruct (ah_base h) as [b|];
    [destruct (resolve_cases b sc) as [[j Eb]|[[j Eb]|[j Eb]]]; rewrite Eb in E; cbn [bind] in E|cbn [bind] in E];
    try (injection E as <-; eauto; fail); try discriminate E;
    destruct (with_prefixes sc (ah_prefixes h) (sc_prefixes sc)) as [|[]| |]; cbn [bind] in E; try discriminate E; try contradiction; injection E as <-; eauto.
Qed.

Lemma a_header {A} e e' sc sc' h h' Q (k k' : header R * scope -> @M St R A) : places e e' [] [] sc sc' -> same_header e e' h h' Q ->
  (forall hd e1 e1' sc1 sc1', places e1 e1' (header_names h) (header_names h') sc1 sc1' -> opens e h e1 -> opens e' h' e1' -> Q e1 e1' ->
     alike eq (k (hd, sc1)) (k' (hd, sc1'))) ->
  alike eq (bindM (build_header ctx h sc) k) (bindM (build_header ctx h' sc') k').
Proof.
  intros (A1 & A1' & S & S') (_ & L1 & L2 & O & H) K.
  apply (a_bind (fun x x' => fst x = fst x' /\ exists e1 e1', places e1 e1' (header_names h) (header_names h') (snd x) (snd x') /\
    opens e h e1 /\ opens e' h' e1' /\ Q e1 e1')).
  - unfold build_header. apply (a_bind (fun sc1 sc1' => opens e h (env_of sc1) /\ opens e' h' (env_of sc1') /\
      places (env_of sc1) (env_of sc1') (header_names h) (header_names h') sc1 sc1')).
    + apply a_lift. destruct (with_header_cases h sc e A1) as [(sc1 & E & O1)|(N & E)], (with_header_cases h' sc' e' A1') as [(sc1' & E' & O1')|(N' & E')].
      * rewrite E, E'. split; [exact O1|split; [exact O1'|]]. split; [apply agrees_env|split; [apply agrees_env|]].
        split; [exact (sees_header _ _ _ _ S E)|exact (sees_header _ _ _ _ S' E')].
      * destruct O as [O _]. destruct O as [e1 O1']; [eauto|]. now apply N' in O1'.
      * destruct O as [_ O]. destruct O as [e1 O1]; [eauto|]. now apply N in O1.
      * destruct E as [[j ->]|[j ->]], E' as [[j' ->]|[j' ->]]; exact Logic.I.
    + intros sc1 sc1' (O1 & O1' & PL). destruct (H _ _ O1 O1') as (D & X & HQ).
      apply (a_bind eq); [eapply a_dataset; eauto|]. intros ds ? <-. apply (a_bind eq); [eapply a_extra; eauto|]. intros _ _ _.
      apply a_ret. cbn [fst snd]. split; [congruence|]. exists (env_of sc1), (env_of sc1'). auto.
  - intros [hd sc1] [hd' sc1'] (E & e1 & e1' & PL & O1 & O1' & HQ). cbn [fst snd] in *. subst hd'. eapply K; eauto.
Qed.

Lemma a_kind e e' ns ns' sc sc' k k' (hd : header R) (res : pattern R) : places e e' ns ns' sc sc' -> same_kind e e' k k' ->
  alike eq
    (match k with
     | AKBoolean dt => bindM (match dt with Some i => build_iri ctx i sc | None => iri_resource ctx (xsd "boolean"%string) end) (fun dt => ret (PreOf (DataL KBoolean hd res dt)))
     | AKNumber dt => bindM (build_iri ctx dt sc) (fun dt => ret (PreOf (DataL KNumber hd res dt)))
     | AKByteString dt => bindM (build_iri ctx dt sc) (fun dt => ret (PreOf (DataL KByteString hd res dt)))
     | AKTextString pat dt => bindM (match dt with Some i => build_iri ctx i sc | None => iri_resource ctx (xsd "string"%string) end) (fun dt => ret (PreText pat hd res dt))
     | AKId pat => ret (PreId hd res pat)
     end)
    (match k' with
     | AKBoolean dt => bindM (match dt with Some i => build_iri ctx i sc' | None => iri_resource ctx (xsd "boolean"%string) end) (fun dt => ret (PreOf (DataL KBoolean hd res dt)))
     | AKNumber dt => bindM (build_iri ctx dt sc') (fun dt => ret (PreOf (DataL KNumber hd res dt)))
     | AKByteString dt => bindM (build_iri ctx dt sc') (fun dt => ret (PreOf (DataL KByteString hd res dt)))
     | AKTextString pat dt => bindM (match dt with Some i => build_iri ctx i sc' | None => iri_resource ctx (xsd "string"%string) end) (fun dt => ret (PreText pat hd res dt))
     | AKId pat => ret (PreId hd res pat)
     end).
Proof.
  intros PL H.
  assert (forall d d' n, same_option (same_iri e e') d d' ->
    alike eq (match d with Some i => build_iri ctx i sc | None => iri_resource ctx (xsd n) end)
             (match d' with Some i => build_iri ctx i sc' | None => iri_resource ctx (xsd n) end)) as DT.
  { intros [d|] [d'|] n D; try contradiction; [eapply a_iri; eauto|apply a_refl]. }
  destruct k as [d|d|d|p d|p], k' as [d'|d'|d'|p' d'|p']; try contradiction; cbn [same_kind] in H.
  - apply (a_bind eq); [now apply DT|]. intros ? ? <-. now apply a_ret.
  - apply (a_bind eq); [eapply a_iri; eauto|]. intros ? ? <-. now apply a_ret.
  - apply (a_bind eq); [eapply a_iri; eauto|]. intros ? ? <-. now apply a_ret.
  - destruct H as [<- H]. apply (a_bind eq); [now apply DT|]. intros ? ? <-. now apply a_ret.
  - subst p'. now apply a_ret.
Qed.

(** ** Layouts *)

Lemma all2_Forall2' {A B} (Q : A -> B -> Prop) l : forall l', all2 Q l l' -> Forall2 Q l l'.
Proof. induction l as [|a l IH]; intros [|b l'] H; try contradiction; constructor; [apply H|apply IH, H]. Qed.

Lemma names_length h h' : length (ah_input h) = length (ah_input h') -> length (ah_intro h) = length (ah_intro h') -> length (header_names h) = length (header_names h').
Proof. unfold header_names. rewrite !app_length. congruence. Qed.

Section Body.
Context (rec : ienv -> ienv -> alayout -> alayout -> Prop) (build : alayout -> scope -> @M St R R).

Lemma a_pre e e' sc sc' l l' : places e e' [] [] sc sc' ->
  (forall k, nested l k -> forall e e', nested_alike e e' (rec e e') build k) ->
  same_body rec e e' l l' -> alike eq (layout_pre ctx build l sc) (layout_pre ctx build l' sc').
Proof.
  intros PL N H.
  destruct l as [h c|k h r|h fs|h vs|h n p q|h it|h its|b|h|h], l' as [h' c'|k' h' r'|h' fs'|h' vs'|h' n' p' q'|h' it'|h' its'|b'|h'|h'];
    try contradiction; cbn [same_body layout_pre] in *.
  - destruct H as [<- H]. eapply a_header; [exact PL|exact H|]. intros. apply a_refl.
  - unfold build_literal. eapply a_header; [exact PL|exact H|]. intros hd e1 e1' sc1 sc1' P1 O1 O1' [K1 K2].
    apply (a_bind eq); [eapply a_literal_resource; eauto; apply H|]. intros res ? <-. exact (a_kind _ _ _ _ _ _ _ _ hd res P1 K1).
  - eapply a_header; [exact PL|exact H|]. intros hd e1 e1' sc1 sc1' P1 O1 O1' K. apply all2_Forall2' in K.
    destruct H as (_ & L1 & L2 & _). apply (a_bind eq); [|intros ? ? <-; now apply a_ret].
    eapply a_mapS; [|exact K]. intros [k [it req]] [k' [it' req']] I (E1 & E2 & E3). cbn [fst snd af_required af_item] in *. subst k' req'. cbn [build_field].
    rewrite <- L1, <- L2. apply (a_bind eq); [|intros ? ? <-; now apply a_ret].
    eapply a_item; [exact P1| |exact E3]. intros l NF. apply N. now apply (N_field h fs k (AField it req)).
  - eapply a_header; [exact PL|exact H|]. intros hd e1 e1' sc1 sc1' P1 O1 O1' K. apply all2_Forall2' in K.
    apply (a_bind eq); [|intros ? ? <-; now apply a_ret]. eapply a_mapS; [|exact K]. intros [n v] [n' v'] I E.
    eapply a_variant; [exact P1| |exact E]. intros l NF. apply N. now apply (N_variant h vs n v).
  - eapply a_header; [exact PL|exact H|]. intros hd e1 e1' sc1 sc1' P1 O1 O1' (K1 & K2 & K3).
    apply (a_bind eq).
    + eapply a_node; [exact P1|now apply names_length; apply H| |exact K1]. intros l NF. apply N. destruct n; [now apply N_node|now apply N_node_layout].
    + intros ? ? <-. apply (a_bind eq); [eapply a_pattern; eauto|]. intros ? ? <-. apply (a_bind eq); [eapply a_pattern; eauto|]. intros ? ? <-. now apply a_ret.
  - eapply a_header; [exact PL|exact H|]. intros hd e1 e1' sc1 sc1' P1 O1 O1' K.
    assert (sc_count sc1' = sc_count sc1) as ->.
    { destruct P1 as (_ & _ & [C _] & [C' _]). rewrite C, C'. symmetry. apply names_length; apply H. }
    destruct H as (_ & L1 & L2 & _). rewrite <- L1.
    apply (a_bind eq); [|intros ? ? <-; now apply a_ret]. eapply a_item; [exact P1| |exact K]. intros l NF. apply N. now apply N_item.
  - eapply a_header; [exact PL|exact H|]. intros hd e1 e1' sc1 sc1' P1 O1 O1' K. apply all2_Forall2' in K.
    assert (sc_count sc1' = sc_count sc1) as ->.
    { destruct P1 as (_ & _ & [C _] & [C' _]). rewrite C, C'. symmetry. apply names_length; apply H. }
    destruct H as (_ & L1 & L2 & _). rewrite <- L1.
    apply (a_bind eq); [|intros ? ? <-; now apply a_ret]. eapply a_mapS; [|exact K]. intros it it' I E.
    eapply a_item; [exact P1| |exact E]. intros l NF. apply N. now apply (N_tuple h its it).
  - subst b'. destruct b; now apply a_ret.
  - apply a_refl.
  - apply a_refl.
Qed.
End Body.

Lemma same_layout_eq e e' l l' : same_layout e e' l l' = same_body same_layout e e' l l'.
Proof. destruct l; reflexivity. Qed.

Lemma same_id e e' l l' : same_layout e e' l l' -> same_option (same_iri e e') (layout_id l) (layout_id l').
Proof.
  rewrite same_layout_eq. destruct l, l'; cbn [same_body layout_id]; try contradiction; intros H; try exact H; try (apply H); exact Logic.I.
Qed.

Lemma a_layout l : forall e e' l' sc sc', places e e' [] [] sc sc' -> same_layout e e' l l' -> alike eq (build_layout ctx l sc) (build_layout ctx l' sc').
Proof.
  induction l as [l IH] using layout_ind. intros e e' l' sc sc' PL H. rewrite !build_layout_eq. unfold layout_body.
  apply (a_bind eq).
  { pose proof (same_id _ _ _ _ H) as K. destruct (layout_id l) as [i|], (layout_id l') as [i'|]; try contradiction; [|apply a_refl].
    destruct PL as (A & A' & _). apply (a_bind eq); [apply a_lift; eapply a_resolve; eauto|]. intros ? ? <-. apply a_refl. }
  intros id ? <-. apply (a_bind eq).
  - rewrite same_layout_eq in H. eapply a_pre; [exact PL| |exact H]. intros k NK e1 e1' k' s s' P K. eapply IH; eauto.
  - intros p ? <-. apply a_refl.
Qed.

Lemma document_alike l l' : same_layout no_env no_env l l' -> alike eq (build_with_context ctx l) (build_with_context ctx l').
Proof.
  intros H. eapply a_layout; [|exact H]. split; [|split; [|split]]; try apply sees_default; split; reflexivity.
Qed.
End Alike.

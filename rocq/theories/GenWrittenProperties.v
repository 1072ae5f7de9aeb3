(** * C90: a generated serializer writes the representation of the value, and nothing else *)

From Coq Require Import String List Bool Arith ZArith Lia.
Import ListNotations.
From Verif Require Import Base BaseProofs Orders PatternModel ValueModel LayoutModel HydrateModel TermModel
  GenDataModel GenDataSpec GenModel GenSpec GenSerModel GenSerSpec GenWrittenSpec GenWritten.
Open Scope list_scope.
Open Scope nat_scope.

Section C90.
Context {R I : Type} {CR : Cmp R} {LR : CmpLaws R} {RT : Runtime R I} {RS : Resolver R I}.
Variable types : program.

(** C90.  A serialization that succeeds writes the representation of the value ([Written]) after what was
    already written.  The resources created are distinct and new; besides them only the resources of the IRIs of
    the layouts are allocated.  No name is lost, and the only names given to the resources that were known are
    those of the representation.  Every resource written is known to the interpretation.  Provided that no
    identifier in the value is an IRI of the layouts, whose resource would change while writing. *)
Theorem C90_written (known : I -> R -> Prop) {RL : ResolverLaws known} {RM : ResolverMore known}
  fuel ty v inputs g i out i' out' :
  (forall x, In x inputs -> known i x) -> (forall s, contains v s -> ~ program_iri types s) ->
  serialize types fuel ty v inputs g (i, out) = Ok (i', out') ->
  exists e,
    Written types (fun s r => rs_iri i' s = Some r) ty v inputs e /\ out' = out ++ written e /\
    NoDup (created e) /\ (forall x, In x (created e) -> ~ known i x) /\
    (forall x, known i x -> known i' x) /\
    (forall x, known i' x ->
      known i x \/ In x (created e) \/ exists s, program_iri types s /\ rs_iri i' s = Some x) /\
    (forall x t, known i x -> (named i' x t <-> named i x t \/ In (x, t) (given e))) /\
    (forall x t, In (x, t) (given e) -> named i' x t) /\
    (forall q, In q (written e) -> known i' (q_s q) /\ known i' (q_p q) /\ known i' (q_o q) /\
      forall g, q_g q = Some g -> known i' g).
Proof.
  intros K C H. destruct (serialize_grows known types (program_iri types) (fun s Hs => Hs) fuel ty v inputs g i out i' out' K C H)
    as (e & G & -> & W).
  exists e. split; [apply W; intros s r _ E; exact E|]. split; [reflexivity|]. split; [apply G|].
  split; [intros x Hx; now apply (gr_created _ _ _ _ _ G)|]. split; [apply G|]. split; [apply G|]. split; [apply G|].
  split; [intros x t Hx; now apply (gr_given _ _ _ _ _ G)|apply G].
Qed.

(** ** Success *)

Lemma intro_length n : forall i : I, length (fst (ser_intro n i)) = n.
Proof.
  induction n as [|n IH]; intro i; cbn [ser_intro]; [reflexivity|]. destruct (rs_new i) as [r i1]. specialize (IH i1).
  destruct (ser_intro n i1). cbn in *. now rewrite IH.
Qed.

Lemma pattern_ok env p (i : I) : in_scope (length env) p -> exists r : R, env_pattern env (fst (ser_pattern p i)) = Ok r.
Proof.
  destruct p as [s|x]; cbn [ser_pattern in_scope].
  - intros _. destruct (rs_interpret s i) as [r i1]. cbn. eauto.
  - intro H. cbn [fst env_pattern]. apply nth_error_Some in H. destruct (nth_error env x); [cbn; eauto|contradiction].
Qed.
Lemma pattern_ok_eq env p (i : I) p' i' : in_scope (length env) p -> ser_pattern p i = (p', i') ->
  exists r : R, env_pattern env p' = Ok r.
Proof. intros H E. destruct (pattern_ok env p i H) as [r Hr]. rewrite E in Hr. eauto. Qed.

Lemma patterns_ok env ps : forall i : I, Forall (in_scope (length env)) ps ->
  exists rs : list R, length rs = length ps /\ mapM (env_pattern env) (fst (ser_patterns ps i)) = Ok rs.
Proof.
  induction ps as [|p ps IH]; intros i F; cbn [ser_patterns].
  - exists []. auto.
  - inversion F; subst. destruct (ser_pattern p i) as [p' i1] eqn:E. destruct (pattern_ok_eq _ _ _ _ _ H1 E) as [r Hr].
    destruct (IH i1 H2) as (rs & L & E'). destruct (ser_patterns ps i1) as [qs i2]. cbn [fst mapM] in *.
    rewrite Hr. cbn [bind]. rewrite E'. cbn [bind]. exists (r :: rs). split; [cbn; congruence|reflexivity].
Qed.

Lemma quad_ok env q (i : I) : quad_in_scope (length env) q -> exists r : quad R, env_quad env (fst (ser_quad q i)) = Ok r.
Proof.
  intros (A & B & C & D). unfold ser_quad. destruct (ser_pattern (q_s q) i) as [s i1] eqn:E1.
  destruct (ser_pattern (q_p q) i1) as [p i2] eqn:E2. destruct (ser_pattern (q_o q) i2) as [o i3] eqn:E3.
  destruct (pattern_ok_eq _ _ _ _ _ A E1) as [rs Hs]. destruct (pattern_ok_eq _ _ _ _ _ B E2) as [rp Hp].
  destruct (pattern_ok_eq _ _ _ _ _ C E3) as [ro Ho]. destruct (q_g q) as [g|].
  - destruct (ser_pattern g i3) as [g' i4] eqn:E4. destruct (pattern_ok_eq _ _ _ _ _ D E4) as [rg Hg].
    unfold env_quad. cbn [fst q_s q_p q_o q_g]. rewrite Hs, Hp, Ho. cbn [bind]. rewrite Hg. cbn. eauto.
  - unfold env_quad. cbn [fst q_s q_p q_o q_g]. rewrite Hs, Hp, Ho. cbn. eauto.
Qed.
Lemma quads_ok env ps : forall i : I, Forall (quad_in_scope (length env)) ps ->
  exists Q : list (quad R), mapM (env_quad env) (fst (ser_quads ps i)) = Ok Q.
Proof.
  induction ps as [|p ps IH]; intros i F; cbn [ser_quads].
  - exists []. auto.
  - inversion F; subst. destruct (quad_ok env p i H1) as [r Hr]. destruct (ser_quad p i) as [p' i1].
    destruct (IH i1 H2) as [Q E']. destruct (ser_quads ps i1) as [qs i2]. cbn [fst mapM] in *.
    rewrite Hr. cbn [bind]. rewrite E'. cbn. eauto.
Qed.

Lemma scope_ok env n k ps (st : I * list (quad R)) : length env = n -> scope n k ps ->
  exists env' st', ser_scope env k ps st = Ok (env', st') /\ length env' = n + k.
Proof.
  intros L S. destruct st as [i out]. unfold ser_scope. pose proof (intro_length k i) as Lk.
  destruct (ser_intro k i) as [rs i1]. cbn [fst] in Lk.
  assert (L' : length (env ++ rs) = n + k) by (rewrite app_length; congruence).
  unfold scope in S. rewrite <- L' in S. destruct (quads_ok (env ++ rs) ps i1 S) as [Q E].
  destruct (ser_quads ps i1) as [ps' i2]. cbn [fst] in E. rewrite E. cbn [bind]. eauto.
Qed.

Definition call_total (rec : string -> rvalue -> list R -> option R -> I * list (quad R) -> outcome ser_error (I * list (quad R)))
  (ty : string) (v : rvalue) (n : nat) : Prop :=
  forall inputs g st, length inputs = n -> exists st', rec ty v inputs g st = Ok st'.

Notation total f := (exists n, forall fuel, n <= fuel -> f (serialize types fuel)).
Definition T_value (ty : string) (v : rvalue) (n : nat) : Prop := total (fun rec => call_total rec ty v n).
Definition T_part (n : nat) (it : item_layout string) (v : rvalue) : Prop := total (fun rec =>
  forall env g st, length env = n -> exists st', ser_part rec env g it v st = Ok st').
Definition T_fields (n : nat) (fields : list (value * field string)) (fs : list (string * option rvalue)) : Prop := total (fun rec =>
  forall env g st, length env = n -> exists st', ser_fields rec env g fields fs st = Ok st').
Definition T_items (n : nat) (it : item_layout string) (vs : list rvalue) : Prop := total (fun rec =>
  (forall env g st, length env = n -> exists st', ser_items rec env g it vs st = Ok st') /\
  (forall env g tl head st, length env + 2 = n -> in_scope (length env) tl ->
    exists st', ser_nodes rec env g it tl vs head st = Ok st')).
Definition T_tuple (n : nat) (its : list (item_layout string)) (vs : list rvalue) : Prop := total (fun rec =>
  forall env g st, length env = n -> exists st', ser_tuple rec env g its vs st = Ok st').

Lemma has_field_get fs name o : has_field fs name o -> get_field name fs = Some o.
Proof.
  intros (fs1 & fs2 & -> & N). unfold get_field. induction fs1 as [|[k o'] fs1 IH]; cbn [find app fst].
  - destruct (eqb_spec name name); [reflexivity|contradiction].
  - destruct (eqb_spec k name) as [->|_]; [exfalso; apply N; now left|]. apply IH. intro H. apply N. now right.
Qed.
Lemma form_literal_text inner v s : lexical_form inner v s -> literal_text inner v = Some s.
Proof. destruct 1; reflexivity. Qed.

Lemma derived_total ty l inner v n k :
  types ty = Some (TyDerived l inner) -> input_count l = Some k ->
  (forall fuel, n <= fuel -> forall inputs g st, length inputs = k ->
    exists st', ser_layout (serialize types fuel) l inner v inputs g st = Ok st') -> T_value ty v k.
Proof.
  intros T N H. exists (S n). intros [|fuel] L; [lia|]. intros inputs g st Hl. cbn [serialize]. rewrite T, N, <- Hl, Nat.eqb_refl.
  apply H; [lia|exact Hl].
Qed.

Lemma all_total :
  (forall ty v n, Typed types ty v n -> T_value ty v n) /\
  (forall n it v, TypedPart types n it v -> T_part n it v) /\
  (forall n fields fs, TypedFields types n fields fs -> T_fields n fields fs) /\
  (forall n it vs, TypedItems types n it vs -> T_items n it vs) /\
  (forall n its vs, TypedTuple types n its vs -> T_tuple n its vs).
Proof.
  apply Typed_mutind.
  - intros ty id T. exists 1. intros [|fuel] L; [lia|]. intros [|r [|]] g st; try discriminate. intros _. cbn [serialize]. rewrite T. cbn. eauto.
  - intros ty s T. exists 1. intros [|fuel] L; [lia|]. intros [|r [|]] g st; try discriminate. intros _. cbn [serialize]. rewrite T. cbn. eauto.
  - intros ty ity z T. exists 1. intros [|fuel] L; [lia|]. intros [|r [|]] g st; try discriminate. intros _. cbn [serialize]. rewrite T. cbn. eauto.
  - intros ty h c inner T S. apply (derived_total ty _ inner _ 0 1 T eq_refl). intros fuel _ inputs g st L. cbn [ser_layout].
    destruct (scope_ok inputs _ _ _ st L S) as (env' & st' & E & _). rewrite E. cbn. eauto.
  - intros ty h res pat inner id T S. apply (derived_total ty _ inner _ 0 1 T eq_refl). intros fuel _ inputs g st L. cbn [ser_layout].
    destruct (scope_ok inputs _ _ _ st L S) as (env' & [i' out'] & E & _). rewrite E. destruct inputs as [|r ?]; [discriminate|]. cbn. eauto.
  - intros ty k h res dt inner v s T S LF SR. apply (derived_total ty _ inner _ 0 1 T eq_refl). intros fuel _ inputs g st L. cbn [ser_layout].
    destruct (scope_ok inputs _ _ _ st L S) as (env' & [i' out'] & E & _). rewrite E. cbn [bind snd].
    rewrite (form_literal_text _ _ _ LF). cbn [unwrap bind]. destruct res as [iri|x]; cbn [ser_target bind].
    + eauto.
    + cbn [in_scope] in SR. rewrite <- L in SR. apply nth_error_Some in SR. destruct (nth_error inputs x); [cbn; eauto|contradiction].
  - intros ty h fields inner fs T S _ [n IH]. apply (derived_total ty _ inner _ n _ T eq_refl). intros fuel Hf inputs g st L. cbn [ser_layout].
    destruct (scope_ok inputs _ _ _ st L S) as (env' & st' & E & L'). rewrite E. cbn [bind fst snd]. apply IH; auto.
  - intros ty h vs inner k v va T S En _ [n IH]. apply (derived_total ty _ inner _ n _ T eq_refl). intros fuel Hf inputs g st L. cbn [ser_layout].
    destruct (scope_ok inputs _ _ _ st L S) as (env' & st' & E & L'). rewrite E. cbn [bind fst snd]. rewrite En. cbn [unwrap bind]. apply IH; auto.
  - intros ty h it inner vs T S _ [n IH]. apply (derived_total ty _ inner _ n _ T eq_refl). intros fuel Hf inputs g st L. cbn [ser_layout].
    destruct (scope_ok inputs _ _ _ st L S) as (env' & st' & E & L'). rewrite E. cbn [bind fst snd]. apply IH; auto.
  - intros ty h node hd tl inner vs T S Sh St _ [n IH]. apply (derived_total ty _ inner _ n _ T eq_refl). intros fuel Hf inputs g st L. cbn [ser_layout].
    destruct (scope_ok inputs _ _ _ st L S) as (env' & [i' out'] & E & L'). rewrite E. cbn [bind fst snd].
    rewrite <- L' in Sh, St. destruct (pattern_ok env' hd i' Sh) as [r Hr]. destruct (ser_pattern hd i') as [p i1]. cbn [fst] in Hr.
    rewrite Hr. cbn [bind]. apply (IH fuel Hf); [lia|exact St].
  - intros ty h its inner vs T S _ [n IH]. apply (derived_total ty _ inner _ n _ T eq_refl). intros fuel Hf inputs g st L. cbn [ser_layout].
    destruct (scope_ok inputs _ _ _ st L S) as (env' & st' & E & L'). rewrite E. cbn [bind fst snd]. apply IH; auto.
  - intros n it v S Si Sg _ [k IH]. exists k. intros fuel Hf env g st L. unfold ser_part.
    destruct (scope_ok env _ _ _ st L S) as (env' & [i' out'] & E & L'). rewrite E. cbn [bind fst snd]. rewrite <- L' in Si, Sg.
    unfold ser_format. destruct (patterns_ok env' _ i' Si) as (rs & Lr & Er). destruct (ser_patterns (vf_input (it_value it)) i') as [ps i1].
    cbn [fst] in Er. rewrite Er. cbn [bind]. destruct (vf_graph (it_value it)) as [[gp|]|]; cbn [ser_graph bind].
    + destruct (pattern_ok env' gp i1 Sg) as [rg Hg]. destruct (ser_pattern gp i1) as [gp' i2]. cbn [fst] in Hg. rewrite Hg. cbn [bind].
      apply IH; auto.
    + apply IH; auto.
    + apply IH; auto.
  - intros n fs. exists 0. intros fuel _ env g st _. cbn. eauto.
  - intros n name f fields fs Hf Hr _ [k IH]. exists k. intros fuel Hk env g st L. cbn [ser_fields field_name unwrap bind].
    rewrite (has_field_get _ _ _ Hf). cbn [unwrap bind]. rewrite Hr. cbn [bind]. apply IH; auto.
  - intros n name f fields fs v Hf _ [k1 IH1] _ [k2 IH2]. exists (Nat.max k1 k2). intros fuel Hk env g st L.
    cbn [ser_fields field_name unwrap bind]. rewrite (has_field_get _ _ _ Hf). cbn [unwrap bind].
    destruct (IH1 fuel ltac:(lia) env g st L) as [st1 E1]. rewrite E1. cbn [bind]. apply IH2; [lia|exact L].
  - intros n it. exists 0. intros fuel _. split; intros; cbn; eauto.
  - intros n it v vs _ [k1 IH1] _ [k2 IH2]. exists (Nat.max k1 k2). intros fuel Hk.
    destruct (IH2 fuel ltac:(lia)) as [IHi IHn]. split.
    + intros env g st L. cbn [ser_items]. destruct (IH1 fuel ltac:(lia) env g st L) as [st1 E1]. rewrite E1. cbn [bind]. apply IHi, L.
    + intros env g tl head [i out] L St. cbn [ser_nodes].
      assert (L2 : forall r r' : R, length (env ++ [r; r']) = n) by (intros; rewrite app_length; cbn; lia).
      destruct vs as [|v' vs'].
      * destruct (pattern_ok env tl i St) as [r Hr]. destruct (ser_pattern tl i) as [p i1]. cbn [fst] in Hr. rewrite Hr. cbn [bind fst snd].
        destruct (IH1 fuel ltac:(lia) (env ++ [head; r]) g (i1, out) (L2 _ _)) as [st1 E1]. rewrite E1. cbn [bind]. apply IHn; auto.
      * cbn [bind]. destruct (IH1 fuel ltac:(lia) (env ++ [head; fst (rs_new i)]) g (snd (rs_new i), out) (L2 _ _)) as [st1 E1]. rewrite E1. cbn [bind].
        apply IHn; auto.
  - intros n. exists 0. intros fuel _ env g st _. cbn. eauto.
  - intros n it its v vs _ [k1 IH1] _ [k2 IH2]. exists (Nat.max k1 k2). intros fuel Hk env g st L. cbn [ser_tuple].
    destruct (IH1 fuel ltac:(lia) env g st L) as [st1 E1]. rewrite E1. cbn [bind]. apply IH2; [lia|exact L].
Qed.

(** C90.  The values of a type are serialized without an error or a panic, whatever the state of the
    interpretation, when the variables of the patterns are in scope. *)
Theorem C90_total ty v n : Typed types ty v n ->
  exists m, forall fuel inputs g st, m <= fuel -> length inputs = n ->
    exists st' : I * list (quad R), serialize types fuel ty v inputs g st = Ok st'.
Proof. intros H. apply all_total in H as [m H]. exists m. intros. now apply H. Qed.
End C90.

(** * C57, C58, C73: the runtime of the generated code *)

From Coq Require Import String List Bool Arith ZArith QArith Qcanon Lia.
Import ListNotations.
From Verif Require Import Base BaseProofs Orders ValueModel HydrateModel TermModel GenDataModel GenDataSpec.
Open Scope list_scope.

Lemma id_loop_some wrap l x : id_loop wrap l (Some x) = match l with [] => Ok (Some x) | _ => Err AmbiguousId end.
Proof. now destruct l. Qed.

Lemma id_loop_none wrap l :
  id_loop wrap l None = match l with [] => Ok None | [n] => Ok (Some (wrap n)) | _ => Err AmbiguousId end.
Proof. destruct l as [|n l]; [reflexivity|]. cbn [id_loop]. rewrite id_loop_some. now destruct l. Qed.

Lemma singleton {A} (l : list A) x : NoDup l -> (forall y, In y l <-> y = x) -> l = [x].
Proof.
  intros N E. destruct l as [|a l]; [exfalso; now apply (E x)|].
  assert (a = x) as -> by (apply E; now left). destruct l as [|b l]; [reflexivity|].
  assert (b = x) as -> by (apply E; right; now left). inversion N as [|? ? X]. now destruct X; left.
Qed.

Section Ids.
Context {R I : Type} {RT : Runtime R I}.

(** The unique IRI, otherwise the unique blank node identifier. *)
Theorem C57_identifier i (r : R) id :
  id_de i r = Ok id <->
  (exists iri, rt_iris i r = [iri] /\ id = IdIri iri) \/
  (rt_iris i r = [] /\ exists b, rt_blanks i r = [b] /\ id = IdBlank b).
Proof.
  unfold id_de. rewrite id_loop_none. destruct (rt_iris i r) as [|x [|y l]]; cbn [bind].
  - rewrite id_loop_none. destruct (rt_blanks i r) as [|b [|b' l]]; cbn [bind]; split; try discriminate.
    + intros [(? & ? & _)|(_ & ? & ? & _)]; discriminate.
    + intros [= <-]. right. eauto.
    + intros [(? & ? & _)|(_ & ? & [= <-] & ->)]; [discriminate|reflexivity].
    + intros [(? & ? & _)|(_ & ? & ? & _)]; discriminate.
  - split; [intros [= <-]; left; eauto|]. intros [(? & [= <-] & ->)|(? & _)]; [reflexivity|discriminate].
  - split; [discriminate|]. intros [(? & ? & _)|(? & _)]; discriminate.
Qed.

(** The errors. *)
Theorem C57_errors i (r : R) :
  (rt_iris i r = [] -> rt_blanks i r = [] -> id_de i r = Err MissingId) /\
  (2 <= length (rt_iris i r) -> id_de i r = Err AmbiguousId) /\
  (rt_iris i r = [] -> 2 <= length (rt_blanks i r) -> id_de i r = Err AmbiguousId).
Proof.
  unfold id_de. rewrite !id_loop_none. repeat split.
  - intros -> ->. reflexivity.
  - destruct (rt_iris i r) as [|x [|y l]]; cbn [length]; try lia. reflexivity.
  - intros ->. cbn [bind]. destruct (rt_blanks i r) as [|x [|y l]]; cbn [length]; try lia. reflexivity.
Qed.

Context {LW : RuntimeLaws R I}.

(** An identifier given to a resource without any is read back. *)
Theorem C57_roundtrip i (r : R) id :
  rt_iris i r = [] -> rt_blanks i r = [] -> id_de (id_ser id i r) r = Ok id.
Proof.
  intros HI HB. apply C57_identifier. destruct id as [s|b]; cbn [id_ser]; [left|right].
  - exists s. split; [|reflexivity]. apply singleton; [apply rt_iris_nodup|].
    intros y. rewrite rt_iris_assign, HI. cbn. tauto.
  - split.
    + destruct (rt_iris (rt_assign_blank r b i) r) as [|x l] eqn:E; [reflexivity|]. exfalso.
      assert (X : In x (rt_iris (rt_assign_blank r b i) r)) by (rewrite E; now left).
      apply rt_iris_assign_blank in X. now rewrite HI in X.
    + exists b. split; [|reflexivity]. apply singleton; [apply rt_blanks_nodup|].
      intros y. rewrite rt_blanks_assign, HB. cbn. tauto.
Qed.
End Ids.

Lemma only_cons_no {A} (P : A -> Prop) a x l : ~ P x -> (only P a (x :: l) <-> only P a l).
Proof.
  intros N. split.
  - intros (l1 & l2 & E & Pa & H). destruct l1 as [|y l1]; injection E as -> ->; [contradiction|].
    exists l1, l2. repeat split; auto. intros b Hb. apply H. now right.
  - intros (l1 & l2 & -> & Pa & H). exists (x :: l1), l2. repeat split; auto. intros b [<-|Hb]; auto.
Qed.

Lemma only_cons_yes {A} (P : A -> Prop) a x l : P x -> (only P a (x :: l) <-> a = x /\ forall b, In b l -> ~ P b).
Proof.
  intros Y. split.
  - intros (l1 & l2 & E & Pa & H). destruct l1 as [|y l1]; injection E as -> ->; [auto|].
    exfalso. apply (H y); [now left|assumption].
  - intros (-> & H). exists [], l. auto.
Qed.

(** An element of a list without duplicates. *)
Lemma only_nodup {A} (P : A -> Prop) a l :
  NoDup l -> In a l -> P a -> (forall b, In b l -> P b -> b = a) -> only P a l.
Proof.
  intros N I Pa U. apply in_split in I as (l1 & l2 & ->). exists l1, l2. repeat split; auto.
  intros b Hb Pb. apply NoDup_remove_2 in N. apply N. rewrite <- (U b); auto.
  apply in_app_iff in Hb as [Hb|Hb]; apply in_app_iff; [now left|right; now right].
Qed.

Section Integers.
Context {R I : Type} {RT : Runtime R I} {IS : IntSyntax}.

Lemma type_cases l ty :
  (has_type ty l /\ exists v, l = RdfLiteral v (TypeAny ty)) \/ ~ has_type ty l.
Proof.
  destruct l as [v [iri|tag]]; unfold has_type; cbn.
  - destruct (eqb_spec iri ty) as [->|N]; [left; eauto|right; congruence].
  - right; congruence.
Qed.

Lemma int_loop_no ty l ls res b : ~ has_type (int_datatype ty) l ->
  int_loop ty (l :: ls) res b = int_loop ty ls res true.
Proof.
  intros N. cbn [int_loop]. destruct l as [v [iri|tag]]; unfold has_type in N; cbn in *; [|reflexivity].
  destruct (eqb_spec iri (int_datatype ty)) as [->|_]; [now contradict N|reflexivity].
Qed.

Lemma int_loop_yes ty v ls res b :
  int_loop ty (RdfLiteral v (TypeAny (int_datatype ty)) :: ls) res b =
  match int_parse ty v with
  | Some z => match res with Some _ => Err AmbiguousLiteralValue | None => int_loop ty ls (Some z) true end
  | None => Err InvalidLiteralValue
  end.
Proof. cbn [int_loop rl_type rl_value]. destruct (eqb_spec (int_datatype ty) (int_datatype ty)); [reflexivity|congruence]. Qed.

Lemma int_loop_some ty ls : forall z b res,
  int_loop ty ls (Some z) b = Ok res <->
  (forall l, In l ls -> ~ has_type (int_datatype ty) l) /\ fst res = Some z /\ snd res = (match ls with [] => b | _ => true end).
Proof.
  induction ls as [|l ls IH]; intros z b res.
  - cbn [int_loop]. destruct res as [x y]. cbn. split; [intros [= <- <-]; auto|]. intros (_ & -> & ->); reflexivity.
  - destruct (type_cases l (int_datatype ty)) as [[T (v & ->)]|N].
    + rewrite int_loop_yes. destruct (int_parse ty v); (split; [discriminate|]); intros (H & _); exfalso; eapply H; eauto; now left.
    + rewrite int_loop_no by assumption. rewrite IH. split.
      * intros (H & A & B). split; [|split; [assumption|]].
        -- intros l' [<-|X]; auto.
        -- destruct ls; auto.
      * intros (H & A & B). split; [|split; [assumption|]].
        -- intros l' X. apply H. now right.
        -- now destruct ls.
Qed.

Lemma int_loop_none ty ls : forall b z res,
  int_loop ty ls None b = Ok res -> fst res = Some z ->
  exists l, only (has_type (int_datatype ty)) l ls /\ int_parse ty (rl_value l) = Some z.
Proof.
  induction ls as [|l ls IH]; intros b z res H F.
  - injection H as <-. discriminate.
  - destruct (type_cases l (int_datatype ty)) as [[T (v & ->)]|N].
    + rewrite int_loop_yes in H. destruct (int_parse ty v) as [z'|] eqn:E; [|discriminate].
      apply int_loop_some in H as (A & B & _). eexists. split; [apply only_cons_yes; [reflexivity|split; [reflexivity|exact A]]|].
      cbn. congruence.
    + rewrite int_loop_no in H by assumption. destruct (IH _ _ _ H F) as (l' & O & P).
      exists l'. split; [now apply only_cons_no|assumption].
Qed.

(** An integer is read iff exactly one literal has the expected datatype, and its lexical form is
    valid. *)
Theorem C58_integer ty i (r : R) z :
  int_de ty i r = Ok z <->
  exists l, only (has_type (int_datatype ty)) l (rt_literals i r) /\ int_parse ty (rl_value l) = Some z.
Proof.
  unfold int_de. split.
  - intros H. apply bind_Ok in H as (res & Hr & H). destruct (fst res) as [z'|] eqn:F; [|now destruct (snd res)].
    injection H as <-. eapply int_loop_none; eassumption.
  - intros (l & (l1 & l2 & -> & T & H) & P).
    assert (E : forall b, exists b', int_loop ty (l1 ++ l :: l2) None b = Ok (Some z, b')).
    { induction l1 as [|x l1 IH]; intros b.
      - cbn [app]. destruct l as [v t]. unfold has_type in T. cbn in T, P. subst t. rewrite int_loop_yes, P.
        exists (match l2 with [] => true | _ => true end). apply int_loop_some. cbn. auto.
      - cbn [app]. rewrite int_loop_no by (apply H; now left). apply IH. intros y Hy. apply H. now right. }
    destruct (E false) as [b' ->]. reflexivity.
Qed.

(** The errors: no literal; no literal of the datatype; some literal of the datatype is invalid or
    there are several. *)
Theorem C58_errors ty i (r : R) :
  (rt_literals i r = [] <-> int_de ty i r = Err ExpectedLiteral) /\
  (rt_literals i r <> [] /\ (forall l, In l (rt_literals i r) -> ~ has_type (int_datatype ty) l) <->
   int_de ty i r = Err LiteralTypeMismatch) /\
  (int_de ty i r = Err InvalidLiteralValue ->
   exists l, In l (rt_literals i r) /\ has_type (int_datatype ty) l /\ int_parse ty (rl_value l) = None) /\
  (int_de ty i r = Err AmbiguousLiteralValue ->
   exists l1 l l2 l' l3, rt_literals i r = l1 ++ l :: l2 ++ l' :: l3 /\
     has_type (int_datatype ty) l /\ has_type (int_datatype ty) l').
Proof.
  assert (None_ : forall ls b, (forall l, In l ls -> ~ has_type (int_datatype ty) l) ->
    int_loop ty ls None b = Ok (None, match ls with [] => b | _ => true end)).
  { induction ls as [|l ls IH]; intros b H; [reflexivity|]. rewrite int_loop_no by (apply H; now left).
    rewrite IH by (intros; apply H; now right). now destruct ls. }
  assert (Inv : forall ls res b, int_loop ty ls res b = Err InvalidLiteralValue ->
    exists l, In l ls /\ has_type (int_datatype ty) l /\ int_parse ty (rl_value l) = None).
  { induction ls as [|l ls IH]; intros res b H; [discriminate|].
    destruct (type_cases l (int_datatype ty)) as [[T (v & ->)]|N].
    - rewrite int_loop_yes in H. destruct (int_parse ty v) eqn:E; [destruct res; [discriminate|]|].
      + apply IH in H as (l & I' & X). exists l. split; [now right|assumption].
      + eexists. split; [now left|]. auto.
    - rewrite int_loop_no in H by assumption. apply IH in H as (l' & I' & X). exists l'. split; [now right|assumption]. }
  assert (Amb1 : forall ls z b, int_loop ty ls (Some z) b = Err AmbiguousLiteralValue ->
    exists l2 l' l3, ls = l2 ++ l' :: l3 /\ has_type (int_datatype ty) l').
  { induction ls as [|l ls IH]; intros z b H; [discriminate|].
    destruct (type_cases l (int_datatype ty)) as [[T (v & ->)]|N].
    - eexists [], _, ls. split; [reflexivity|reflexivity].
    - rewrite int_loop_no in H by assumption. apply IH in H as (l2 & l' & l3 & -> & X). exists (l :: l2), l', l3. auto. }
  assert (Amb : forall ls b, int_loop ty ls None b = Err AmbiguousLiteralValue ->
    exists l1 l l2 l' l3, ls = l1 ++ l :: l2 ++ l' :: l3 /\ has_type (int_datatype ty) l /\ has_type (int_datatype ty) l').
  { induction ls as [|l ls IH]; intros b H; [discriminate|].
    destruct (type_cases l (int_datatype ty)) as [[T (v & ->)]|N].
    - rewrite int_loop_yes in H. destruct (int_parse ty v); [|discriminate].
      apply Amb1 in H as (l2 & l' & l3 & -> & X). eexists [], _, l2, l', l3. split; [reflexivity|]. auto.
    - rewrite int_loop_no in H by assumption. apply IH in H as (l1 & a & l2 & l' & l3 & -> & X).
      exists (l :: l1), a, l2, l', l3. auto. }
  assert (NoT : forall ls b res, int_loop ty ls None b = Ok (None, res) -> (forall l, In l ls -> ~ has_type (int_datatype ty) l)).
  { induction ls as [|l ls IH]; intros b res H; [intros ? []|].
    destruct (type_cases l (int_datatype ty)) as [[T (v & ->)]|N].
    - rewrite int_loop_yes in H. destruct (int_parse ty v); [|discriminate].
      apply int_loop_some in H as (_ & X & _). discriminate.
    - rewrite int_loop_no in H by assumption. intros l' [<-|X]; [assumption|]. eapply IH; eassumption. }
  assert (Loop_err : forall e, e <> ExpectedLiteral -> e <> LiteralTypeMismatch -> int_de ty i r = Err e ->
    int_loop ty (rt_literals i r) None false = Err e).
  { intros e N1 N2 H. unfold int_de in H. destruct (int_loop ty (rt_literals i r) None false) as [[[z|] b]|e'|w|]; cbn in H; try discriminate.
    - destruct b; congruence.
    - congruence. }
  assert (Loop_none : forall e, (e = ExpectedLiteral \/ e = LiteralTypeMismatch) -> int_de ty i r = Err e ->
    int_loop ty (rt_literals i r) None false = Ok (None, match e with LiteralTypeMismatch => true | _ => false end)).
  { intros e He H. unfold int_de in H. destruct (int_loop ty (rt_literals i r) None false) as [[[z|] b]|e'|w|] eqn:L; cbn in H; try discriminate.
    - destruct b; injection H as <-; reflexivity.
    - exfalso. injection H as <-. clear - L He. revert L. generalize (@None Z) false. generalize (rt_literals i r).
      induction l as [|l ls IH]; intros o b L; [discriminate|]. cbn [int_loop] in L.
      destruct (rl_type l) as [iri|]; [destruct (eqb iri _)|]; try (eapply IH; eassumption).
      destruct (int_parse ty (rl_value l)).
      + destruct o; [|eapply IH; eassumption]. destruct He; congruence.
      + destruct He; congruence. }
  split; [split|split; [split|split]].
  - intros E. unfold int_de. now rewrite E.
  - intros H. apply Loop_none in H; [|now left]. pose proof (NoT _ _ _ H) as N. rewrite (None_ _ _ N) in H.
    destruct (rt_literals i r); [reflexivity|discriminate].
  - intros [NE N]. unfold int_de. rewrite (None_ _ _ N). cbn. destruct (rt_literals i r); [congruence|reflexivity].
  - intros H. apply Loop_none in H; [|now right]. split; [|eapply NoT; eassumption].
    intros E. rewrite E in H. discriminate.
  - intros H. apply Loop_err in H; [|discriminate|discriminate]. eapply Inv; eassumption.
  - intros H. apply Loop_err in H; [|discriminate|discriminate]. eapply Amb; eassumption.
Qed.

Context {LW : RuntimeLaws R I} {ISL : IntSyntaxLaws}.

(** Serialization followed by deserialization is the identity, on a resource that has no literal of
    the datatype. *)
Theorem C58_roundtrip ty z i (r : R) :
  int_range ty z -> (forall l, In l (rt_literals i r) -> ~ has_type (int_datatype ty) l) ->
  int_de ty (int_ser ty z i r) r = Ok z.
Proof.
  intros Hz N. apply C58_integer. exists (RdfLiteral (integer_print z) (TypeAny (int_datatype ty))).
  split; [|now apply int_parse_print]. apply only_nodup.
  - apply rt_literals_nodup.
  - apply rt_literals_assign. now left.
  - reflexivity.
  - intros b Hb Tb. apply rt_literals_assign in Hb as [->|Hb]; [reflexivity|]. now apply N in Hb.
Qed.
End Integers.

(** C58: the datatype of an integer type has the values of the type. *)
Theorem C58_datatypes ty : exists lo hi, xsd_value_space (int_datatype ty) lo hi /\
  forall z, int_range ty z <-> (lo <= z <= hi)%Z.
Proof. destruct ty; eexists _, _; (split; [constructor|intros z; unfold int_range; lia]). Qed.

Section Texts.
Context {R I : Type} {RT : Runtime R I}.

Lemma text_loop_Ok ls s : text_loop ls = Ok s <->
  exists l1 l2, ls = l1 ++ RdfLiteral s (TypeAny xsd_string) :: l2 /\ (forall l, In l l1 -> ~ has_type xsd_string l).
Proof.
  induction ls as [|l ls IH].
  - split; [discriminate|]. intros ([|] & ? & ? & _); discriminate.
  - destruct (type_cases l xsd_string) as [[T (v & ->)]|N].
    + cbn [text_loop rl_type rl_value]. destruct (eqb_spec xsd_string xsd_string) as [_|X]; [|congruence]. split.
      * intros [= <-]. exists [], ls. split; [reflexivity|intros ? []].
      * intros ([|x l1] & l2 & E & H); injection E; [congruence|]. intros _ <-. exfalso. eapply H; [now left|reflexivity].
    + assert (E : text_loop (l :: ls) = text_loop ls).
      { cbn [text_loop]. destruct l as [v [iri|tag]]; unfold has_type in N; cbn in *; [|reflexivity].
        destruct (eqb_spec iri xsd_string) as [->|_]; [now contradict N|reflexivity]. }
      rewrite E, IH. split.
      * intros (l1 & l2 & -> & H). exists (l :: l1), l2. split; [reflexivity|]. intros x [<-|X]; auto.
      * intros ([|x l1] & l2 & X & H); injection X as -> ->.
        -- now contradict N.
        -- exists l1, l2. split; [reflexivity|]. intros y Y. apply H. now right.
Qed.

(** C73 (exactly).  The text read is the first literal that is a text, whatever follows. *)
Theorem C73_first i (r : R) s : text_de i r = Ok s <->
  exists l1 l2, rt_literals i r = l1 ++ RdfLiteral s (TypeAny xsd_string) :: l2 /\ (forall l, In l l1 -> ~ has_type xsd_string l).
Proof. apply text_loop_Ok. Qed.

(** A text is read when exactly one literal is a text; when there are several, one of them is read
    without an error. *)
Theorem C73_text_partial i (r : R) s :
  (only (has_type xsd_string) (RdfLiteral s (TypeAny xsd_string)) (rt_literals i r) -> text_de i r = Ok s) /\
  (text_de i r = Ok s -> In (RdfLiteral s (TypeAny xsd_string)) (rt_literals i r)) /\
  ((forall l, In l (rt_literals i r) -> ~ has_type xsd_string l) <-> text_de i r = Err MissingData).
Proof.
  unfold text_de. repeat split.
  - intros (l1 & l2 & E & _ & H). apply text_loop_Ok. exists l1, l2. split; [assumption|].
    intros l X. apply H, in_app_iff. now left.
  - intros H. apply text_loop_Ok in H as (l1 & l2 & -> & _). apply in_app_iff. right. now left.
  - intros H. induction (rt_literals i r) as [|l ls IH]; [reflexivity|]. cbn [text_loop].
    destruct l as [v [iri|tag]]; cbn [rl_type]; [|apply IH; intros; apply H; now right].
    destruct (eqb_spec iri xsd_string) as [->|_]; [exfalso; eapply H; [now left|reflexivity]|].
    apply IH; intros; apply H; now right.
  - intros H l X T. assert (Z : exists s', text_loop (rt_literals i r) = Ok s').
    { clear H. induction (rt_literals i r) as [|l' ls IH]; [destruct X|]. cbn [text_loop].
      destruct X as [->|X].
      - rewrite T. destruct (eqb_spec xsd_string xsd_string) as [_|Y]; [eauto|congruence].
      - destruct (rl_type l') as [iri|]; [destruct (eqb iri xsd_string); eauto|auto]. }
    destruct Z as [s' Z]. congruence.
Qed.

Context {LW : RuntimeLaws R I}.

Theorem C73_roundtrip s i (r : R) :
  (forall l, In l (rt_literals i r) -> ~ has_type xsd_string l) -> text_de (text_ser s i r) r = Ok s.
Proof.
  intros N. apply C73_text_partial. apply only_nodup.
  - apply rt_literals_nodup.
  - apply rt_literals_assign. now left.
  - reflexivity.
  - intros b Hb Tb. apply rt_literals_assign in Hb as [->|Hb]; [reflexivity|]. now apply N in Hb.
Qed.
End Texts.

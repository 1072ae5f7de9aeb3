(** * C117: what the errors of layout documents tell *)

From Coq Require Import String Ascii List Bool Arith Lia.
Import ListNotations.
From Verif Require Import Base BaseProofs JsonModel RegexpModel ValueModel AbsModel AbsJsonModel PositionModel PositionSpec PositionProofs PositionProperties
  HintModel HintSpec HintProofs.
Open Scope list_scope.
Open Scope nat_scope.
Open Scope string_scope.

Section Properties.
Context {TS : TextSyntax}.

Lemma announced doc e ex f : read_layout doc = Err e -> pe_error e = InvalidType ex f -> ex = layout_types.
Proof.
  intros E X. pose proof (C99_same_result doc) as H. rewrite E, X in H. exact (fine_layout doc ex f H).
Qed.

(** An error on the type of a layout names exactly the types that a layout may have, once each, and not the one
    that was found.  Some text must be accepted as an IRI: some layouts cannot be written without one. *)
Theorem C117_types doc e expected found : (exists i, is_iri_ref i = true) ->
  read_layout doc = Err e -> pe_error e = InvalidType expected found ->
  (forall t, In t expected <-> layout_type t) /\ NoDup expected /\ ~ layout_type found.
Proof.
  intros (i & HI) E X. pose proof (announced doc e expected found E X) as ->.
  assert (HT : forall t, In t layout_types <-> layout_type t).
  { intros t. split.
    - intros H.
      assert (W : exists o l, In ("type", JStr t) o /\ layout_from_json (JObj o) = Ok l).
      { assert (HD : t = "number" \/ t = "bytes" \/ t = "list" \/ t = "set" \/ In t ["id"; "unit"; "boolean"; "string"; "record"; "sum"; "tuple"; "union"; "intersection"])
          by (repeat (destruct H as [<-|H]); [..|destruct H]; cbn [In]; tauto).
        destruct HD as [-> |[-> |[-> |[-> |HD]]]].
        - eexists [("type", JStr "number"); ("datatype", JStr i)], _. split; [now left|]. lazy -[is_iri_ref]. rewrite HI. reflexivity.
        - eexists [("type", JStr "bytes"); ("datatype", JStr i)], _. split; [now left|]. lazy -[is_iri_ref]. rewrite HI. reflexivity.
        - eexists [("type", JStr "list"); ("node", JStr i)], _. split; [now left|]. lazy -[is_iri_ref]. rewrite HI. reflexivity.
        - eexists [("type", JStr "set"); ("item", JObj [("value", JStr i)])], _. split; [now left|]. lazy -[is_iri_ref]. rewrite HI. reflexivity.
        - repeat (destruct HD as [<-|HD]); [..|destruct HD];
            match goal with |- context [JStr ?t] => eexists [("type", JStr t)], _ end; (split; [now left|reflexivity]). }
      destruct W as (o & l & HO & R). exists o, l. split; [exact HO|].
      pose proof (C99_same_result (JObj o)) as S. rewrite R in S. destruct (read_layout (JObj o)); congruence.
    - intros (o & l & HO & R). pose proof (C99_same_result (JObj o)) as S. rewrite R in S. exact (read_type o l t S HO). }
  split; [exact HT|]. split.
  - unfold layout_types. repeat (constructor; [cbn [In]; intuition discriminate|]). constructor.
  - rewrite <- HT. pose proof (C99_points_at doc e E) as P. rewrite X in P. apply P.
Qed.

(** ** The texts *)
Lemma write_more len : forall tys i, 0 < i -> i + length tys = len ->
  forall x, exists t, enumeration (x :: tys) t /\ quoted x ++ write_types i len tys = t.
Proof.
  induction tys as [|y tys IH]; intros i Hi HL x.
  - exists (quoted x). split; [constructor|]. unfold quoted. cbn [write_types]. now rewrite !string_app_assoc.
  - cbn [write_types length] in *. destruct i as [|i]; [lia|]. cbn [Nat.ltb Nat.leb].
    destruct (IH (S (S i)) ltac:(lia) ltac:(lia) y) as (t & HT & E).
    destruct tys as [|z tys].
    + cbn [length] in HL. replace (S i + 1) with len by lia. rewrite Nat.eqb_refl. eexists. split; [apply enum_two|].
      cbn [write_types]. unfold quoted. now rewrite !string_app_assoc.
    + cbn [length] in HL. destruct (Nat.eqb_spec (S i + 1) len) as [?|_]; [lia|]. eexists. split; [apply enum_more; exact HT|].
      rewrite <- E. unfold quoted. now rewrite !string_app_assoc.
Qed.

(** The text of the hint is the enumeration of the types, then the one that was found. *)
Theorem C117_enumerates doc e expected found : read_layout doc = Err e -> pe_error e = InvalidType expected found ->
  exists t, enumeration expected t /\
    map hint_text (hints e) = ["possible values are " ++ t; "found type `" ++ found ++ "`"].
Proof.
  intros E X. pose proof (announced doc e expected found E X) as ->.
  unfold hints. rewrite X.
  destruct (write_more (length layout_types) (tl layout_types) 1 ltac:(lia) eq_refl "id") as (t & HT & W).
  exists t. split; [exact HT|]. rewrite <- W. reflexivity.
Qed.
End Properties.

(** The types can be read in an enumeration of texts without backquotes. *)
Lemma quotations_inside : forall x part s, no_backquote x -> quotations true part (x ++ "`" ++ s) = (part ++ x) :: quotations false "" s.
Proof.
  induction x as [|c x IH]; intros part s H; cbn [append quotations].
  - cbn [Ascii.eqb]. now rewrite string_app_nil.
  - destruct H as [N H]. destruct (Ascii.eqb_spec c "`"); [contradiction|].
    change (String "`" s) with ("`" ++ s). rewrite IH by exact H. now rewrite string_app_assoc.
Qed.
Theorem C117_readable l t : enumeration l t -> (forall x, In x l -> no_backquote x) -> names_in t = l.
Proof.
  unfold names_in. induction 1 as [x|x y|x y z l t H IH]; intros HQ.
  - change (quotations true "" (x ++ "`" ++ "") = [x]). rewrite quotations_inside; [reflexivity|apply HQ; now left].
  - change (quotations true "" (x ++ "`" ++ " and `" ++ y ++ "`" ++ "") = [x; y]).
    rewrite quotations_inside by (apply HQ; now left). change (quotations false "" (" and `" ++ y ++ "`" ++ "")) with (quotations true "" (y ++ "`" ++ "")).
    rewrite quotations_inside; [reflexivity|apply HQ; right; now left].
  - change (quotations true "" (x ++ "`" ++ ", " ++ t) = x :: y :: z :: l).
    rewrite quotations_inside by (apply HQ; now left). change (quotations false "" (", " ++ t)) with (quotations false "" t).
    rewrite IH; [reflexivity|]. intros; apply HQ; now right.
Qed.

(** ** The messages are not ambiguous *)
Section Messages.
Context {TS : TextSyntax} {KT : KindTexts}.

(** [Unexpected]: the same texts for the kinds. *)
Definition same_report (a b : abs_error) : Prop :=
  match a, b with
  | Unexpected ex f, Unexpected ex' f' => kinds_text ex ++ ", found " ++ kind_text f = kinds_text ex' ++ ", found " ++ kind_text f'
  | _, _ => a = b
  end.

Lemma quoted_inj a b : quoted a = quoted b -> a = b.
Proof. unfold quoted. intros H. injection H as H. now apply string_app_inv_tail in H. Qed.

(** Two documents with the same message and the same hints have the same error.  The text of a set of kinds does not begin with
    "i": the kinds of JSON values are null, boolean, number, string, array and object. *)
Theorem C117_unambiguous doc e doc' e' : (forall ks s, kinds_text ks <> String "i" s) ->
  read_layout doc = Err e -> read_layout doc' = Err e' ->
  error_text (pe_error e) = error_text (pe_error e') -> map hint_text (hints e) = map hint_text (hints e') ->
  same_report (pe_error e) (pe_error e').
Proof.
  intros HK E E' M H.
  assert (HI : forall ks r s, kinds_text ks ++ String "," r = String "i" s -> False).
  { intros ks r s X. destruct (kinds_text ks) as [|c k] eqn:EK; [discriminate X|]. injection X as -> _. exact (HK ks k EK). }
  destruct (pe_error e) eqn:X, (pe_error e') eqn:X'; cbn [error_text] in M; try discriminate M; cbn [same_report]; try reflexivity.
  all: try (cbn [append] in M; injection M as M; first [apply quoted_inj in M; now subst|apply string_app_inv_tail in M; now subst|now subst]).
  - cbn in M. injection M as M. elim (HI _ _ _ M).
  - rewrite (announced doc e _ _ E X), (announced doc' e' _ _ E' X'). unfold hints in H. rewrite X, X' in H.
    injection H as _ H. apply string_app_inv_tail in H. now subst.
  - destruct e0, e1; cbn in M; try discriminate M; reflexivity.
  - cbn in M. injection M as M. symmetry in M. elim (HI _ _ _ M).
Qed.
End Messages.

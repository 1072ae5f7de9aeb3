(** * C56: the reading of layout documents *)

From Coq Require Import String Ascii List Bool Arith NArith ZArith Lia.
Import ListNotations.
From Verif Require Import Base BaseProofs Orders PatternModel ValueModel LayoutModel JsonModel
  RegexpModel AbsModel AbsJsonModel AbsJsonSpec AbsJsonProofs JsonProperties.
Open Scope list_scope.

Lemma type_unique (o : object) ty ty' :
  NoDup (map fst o) -> In ("type"%string, JStr ty) o -> In ("type"%string, JStr ty') o -> ty' = ty.
Proof.
  induction o as [|[k j] o IH]; cbn; [intros ? []|].
  intros ND T T'. inversion ND as [|? ? N ND']; subst. destruct T as [E|T], T' as [E'|T']; auto.
  - congruence.
  - injection E as -> ->. now apply type_In in T'.
  - injection E' as -> ->. now apply type_In in T.
Qed.

Section C56.
Context {TS : TextSyntax}.

(** A document is read as a layout exactly when it describes that layout: every entry is known and
    given once, every required entry is given, and all of them describe their parts, at any
    depth. *)
Theorem C56_reads j l : layout_from_json j = Ok l <-> layout_doc j l.
Proof. apply layout_iff. Qed.

(** The entries of an object that is read. *)
Theorem C56_entries o l : layout_from_json (JObj o) = Ok l ->
  exists ty, In ("type"%string, JStr ty) o /\
    In ty ["id"; "unit"; "boolean"; "number"; "bytes"; "string"; "record"; "sum"; "list"; "set"; "tuple";
           "union"; "intersection"]%string /\
    well_keyed ("type"%string :: required_keys ty) (header_keys ++ optional_keys ty) o.
Proof.
  intros H. apply layout_iff in H. inversion H as [|? ? D]; subst. destruct D;
  match goal with X : layout_object ?ty _ _ |- _ => exists ty; destruct X as (A & B & _) end;
  (split; [exact A|split; [cbn [In]; tauto|exact B]]).
Qed.

(** An unknown, duplicate or missing entry: nothing is read. *)
Theorem C56_rejects o ty : In ("type"%string, JStr ty) o ->
  (exists k, In k (map fst o) /\ k <> "type"%string /\ ~ In k (required_keys ty) /\ ~ In k header_keys /\
     ~ In k (optional_keys ty)) \/
  ~ NoDup (map fst o) \/
  (exists k, In k (required_keys ty) /\ ~ In k (map fst o)) ->
  forall l, layout_from_json (JObj o) <> Ok l.
Proof.
  intros T X l H. apply C56_entries in H as (ty' & T' & _ & ND & Kn & Rq).
  destruct X as [(k & I & N1 & N2 & N3 & N4)|[X|(k & I & N)]]; [|contradiction|].
  - assert (ty' = ty) as -> by (eapply type_unique; eassumption).
    apply Kn in I. cbn [In] in I. rewrite in_app_iff in I.
    destruct I as [[E|I]|[I|I]]; auto.
  - apply N, Rq. right.
    assert (ty' = ty) as -> by (eapply type_unique; eassumption). assumption.
Qed.

(** Every document without exponents in its constants is read or rejected: the reading ends, and
    does not panic. *)
Theorem C56_outcome j : json_wf j -> (forall c, constant_in c j -> ~ Exponents c) ->
  (exists l, layout_from_json j = Ok l) \/ (exists e, layout_from_json j = Err e).
Proof.
  intros W H. apply fine_layout. intros c Hc. specialize (H c Hc).
  assert (Wc : json_wf c).
  { destruct Hc as (o & X & I). assert (Wo : json_wf (JObj o)).
    { clear H I. induction X as [|l j I X IH|o' k j I X IH]; [assumption| |]; apply IH; inversion W; eauto. }
    inversion Wo; eauto. }
  destruct (JsonProperties.C67_from_json_partial c Wc) as [[_ R]|[E _]]; [exact R|contradiction].
Qed.
End C56.

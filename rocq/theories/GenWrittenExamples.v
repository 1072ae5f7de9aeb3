(** * C90: the laws hold of an interpretation; a program and values meeting the hypotheses; assumptions *)

From Coq Require Import String List Bool Arith ZArith Lia.
Import ListNotations.
From Verif Require Import Base BaseProofs Orders PatternModel ValueModel LayoutModel HydrateModel TermModel GenDataModel GenDataSpec
  GenModel GenSpec GenSerModel GenSerSpec GenSerExamples GenWrittenSpec GenWritten GenWrittenProperties.
Open Scope string_scope.
Open Scope list_scope.
Open Scope nat_scope.

#[local] Existing Instance lexicon_runtime.
#[local] Existing Instance lexicon_resolver.
#[local] Existing Instance lexicon_laws.

Lemma resource_new iri t r : resource_of iri t = None -> resource_of iri (t ++ [(r, LexIri iri)]) = Some r.
Proof.
  induction t as [|[r' l] t IH]; cbn [app resource_of].
  - destruct (eqb_spec iri iri); [reflexivity|contradiction].
  - destruct l as [|s| |]; auto. destruct (eqb_spec s iri); [discriminate|auto].
Qed.

Lemma named_app t l r x : named (t ++ [(r, l)]) r x <->
  match l with LexNew => False | LexIri s => x = TmIri s | LexBlank s => x = TmBlank s | LexLiteral k => x = TmLit k end \/
  named t r x.
Proof.
  destruct x; cbn [named rt_iris rt_blanks rt_literals lexicon_runtime]; rewrite pick_app, pick_one, in_app_iff;
    destruct l; cbn [In]; split; intros H; repeat match goal with H : _ \/ _ |- _ => destruct H end;
    try contradiction; try discriminate; subst; auto; match goal with H : _ = _ |- _ => injection H as -> end; auto.
Qed.

#[local] Instance lexicon_more : ResolverMore listed.
Proof.
  constructor; cbn [rt_assign_iri rt_assign_blank rt_assign_literal lexicon_runtime rs_iri rs_interpret lexicon_resolver].
  - intros i s. destruct (resource_of s i) eqn:E; cbn [fst snd]; [exact E|now apply resource_new].
  - intros i s s' N. destruct (resource_of s i) eqn:E; cbn [fst snd]; [reflexivity|].
    apply resource_app. intros s0 [= <-]. congruence.
  - intros i s x. destruct (resource_of s i) eqn:E; cbn [fst snd].
    + apply resource_listed in E. intuition congruence.
    + apply listed_app.
  - intros i s x K. destruct (resource_of s i) eqn:E; cbn [fst snd].
    + unfold same_names. auto.
    + assert (x <> fresh i) by (intros ->; now apply (fresh_unlisted i)).
      unfold same_names. cbn [rt_iris rt_blanks rt_literals lexicon_runtime].
      rewrite !pick_app, !(pick_other _ (fresh i) x) by assumption. rewrite !app_nil_r. auto.
  - intros i r s t. apply named_app.
  - intros i r s t. apply named_app.
  - intros i r s t. apply named_app.
Qed.

(** ** A program whose layouts share a resource, with two inputs, in a named graph, from an interpretation without
    the IRIs

    A parcel is a structure at two resources, the parcel and its depot; the state of the depot is written at an IRI
    of the layout. *)
Definition parcel_program : program := fun ty =>
  if eqb ty "t:Parcel" then
    Some (TyDerived (ProductL
      (Header 2 1 [Quad (PVar 0) (PRes "ex:at") (PVar 1) None; Quad (PVar 2) (PRes "ex:tracks") (PVar 0) (Some (PRes "ex:log"))])
      [(VLit (LText "codes"), Field (Item 0 (VFormat "t:Codes" [PVar 2; PVar 1] None) []) true);
       (VLit (LText "state"), Field (Item 0 (VFormat "t:String" [PRes "ex:state"] None)
          [Quad (PVar 1) (PRes "ex:hasState") (PRes "ex:state") (Some (PVar 1))]) false);
       (VLit (LText "weight"), Field (Item 1 (VFormat "t:u8" [PVar 3] (Some (Some (PVar 1))))
          [Quad (PVar 0) (PRes "ex:weight") (PVar 3) None]) false)]) PText)
  else if eqb ty "t:Codes" then
    Some (TyDerived (OrderedL (Header 2 0 [])
      (Item 1 (VFormat "t:Id" [PVar 4] None)
         [Quad (PVar 2) (PRes "rdf:first") (PVar 4) None; Quad (PVar 2) (PRes "rdf:rest") (PVar 3) None])
      (PVar 0) (PRes "rdf:nil")) PText)
  else if eqb ty "t:String" then Some TyText
  else if eqb ty "t:u8" then Some (TyInt U8)
  else if eqb ty "t:Id" then Some TyId
  else None.

Definition parcel : rvalue :=
  RvRecord [("codes", Some (RvVec [RvId (IdIri "ex:code/a"); RvId (IdBlank "b")])); ("state", Some (RvText "open"));
            ("weight", None)].
Definition bare : lexicon := [(0, LexNew); (1, LexIri "ex:depot")].

Ltac scopes := unfold scope; repeat constructor; cbn; lia.
Ltac field_at n :=
  match goal with |- has_field ?fs _ _ => exists (firstn n fs), (skipn (S n) fs) end;
  split; [cbn; reflexivity|cbn; intuition discriminate].

Example parcel_typed : Typed parcel_program "t:Parcel" parcel 2.
Proof.
  eapply (T_record _ "t:Parcel" (Header 2 1 _)); [reflexivity|scopes|].
  eapply TF_present; [field_at 0| |eapply TF_present; [field_at 1| |apply TF_absent; [field_at 2|reflexivity|apply TF_nil]]].
  - apply TP; [scopes|scopes|exact I|]. eapply (T_list _ "t:Codes" (Header 2 0 [])); [reflexivity|scopes|cbn; lia|exact I|].
    apply TI_cons; [|apply TI_cons; [|apply TI_nil]]; (apply TP; [scopes|scopes|exact I|now constructor]).
  - apply TP; [scopes|scopes|exact I|now constructor].
Qed.

Lemma parcel_contains s : contains parcel s -> s = "ex:code/a".
Proof.
  intros H. inversion H as [|fs k v s' Hi Hc| | |]; subst. cbn [In] in Hi. destruct Hi as [E|[E|[E|[]]]]; try discriminate E.
  - injection E as <- <-. inversion Hc as [| | |vs v s' Hv Hd|]; subst. destruct Hv as [<-|[<-|[]]]; now inversion Hd.
  - injection E as <- <-. inversion Hc.
Qed.

Lemma parcel_iri s : program_iri parcel_program s -> s <> "ex:code/a".
Proof.
  intros (ty & l & inner & E & H) ->. unfold parcel_program in E.
  repeat match type of E with (if eqb ty ?t then _ else _) = _ => destruct (eqb_spec ty t) as [_|_] end; try discriminate E;
    injection E as <- _; cbn in H; intuition discriminate.
Qed.

(** C90_total and C90_written: the hypotheses hold, and this is what they give. *)
Example parcel_written :
  exists i' out' e, serialize parcel_program 3 "t:Parcel" parcel [0; 1] None (bare, []) = Ok (i', out') /\
    Written parcel_program (fun s r => rs_iri i' s = Some r) "t:Parcel" parcel [0; 1] e /\ out' = written e /\
    (forall x t, In x [0; 1] -> (named i' x t <-> named bare x t \/ In (x, t) (given e))).
Proof.
  destruct (serialize parcel_program 3 "t:Parcel" parcel [0; 1] None (bare, [])) as [[i' out']| | |] eqn:E;
    [|vm_compute in E; discriminate E ..].
  destruct (C90_written parcel_program listed 3 "t:Parcel" parcel [0; 1] None bare [] i' out') as (e & W & Q & _ & _ & _ & _ & N & _).
  - intros x [<-|[<-|[]]]; cbn; auto.
  - intros s C P. apply parcel_iri in P. apply P, parcel_contains, C.
  - exact E.
  - exists i', out', e. split; [reflexivity|]. split; [exact W|]. split; [exact Q|].
    intros x t H. apply N. destruct H as [<-|[<-|[]]]; cbn; auto.
Qed.

(** The quads: 2 is the tracker, 7 and 11 are the codes, 6 is the second node; the others are the inputs and IRIs. *)
Example parcel_computed :
  exists i', serialize parcel_program 3 "t:Parcel" parcel [0; 1] None (bare, []) =
    Ok (i', [Quad 0 3 1 None; Quad 2 4 0 (Some 5); Quad 2 8 7 None; Quad 2 9 6 None; Quad 6 8 11 None; Quad 6 9 10 None;
             Quad 1 12 13 (Some 1)]) /\ rs_iri i' "ex:state" = Some 13 /\ rt_blanks i' 11 = ["b"].
Proof. eexists. split; [vm_compute; reflexivity|]. split; reflexivity. Qed.

Example parcel_total :
  exists m, forall fuel inputs g st, m <= fuel -> length inputs = 2 ->
    exists st', serialize parcel_program fuel "t:Parcel" parcel inputs g st = Ok st'.
Proof. exact (C90_total parcel_program "t:Parcel" parcel 2 parcel_typed). Qed.

Print Assumptions C90_written.
Print Assumptions C90_total.

(** * C75: an interpretation, a program, a case, refutations and assumptions *)

From Coq Require Import String List Bool Arith ZArith QArith Qcanon Permutation Lia.
Import ListNotations.
From Verif Require Import Base BaseProofs Orders PatternModel MatchingModel MatchingSpec MatchingProofs ValueModel LayoutModel
  HydrateModel TermModel GenDataModel GenDataSpec GenModel GenSpec GenSerModel GenSerSpec GenSerProofs GenSerProperties.
Open Scope string_scope.
Open Scope list_scope.
Open Scope nat_scope.

(** ** An interpretation

    Resources are numbers; an interpretation lists the resources with their lexical representations. *)
Inductive lexical : Type := LexNew | LexIri (s : string) | LexBlank (s : string) | LexLiteral (l : rdf_literal).
Definition lexicon : Type := list (nat * lexical).

Definition pick {A} (f : lexical -> list A) (r : nat) (t : lexicon) : list A :=
  flat_map (fun e : nat * lexical => if Nat.eqb (fst e) r then f (snd e) else []) t.

#[local] Instance lexicon_runtime : Runtime nat lexicon := {
  rt_iris t r := pick (fun l => match l with LexIri s => [s] | _ => [] end) r t;
  rt_blanks t r := pick (fun l => match l with LexBlank s => [s] | _ => [] end) r t;
  rt_literals t r := pick (fun l => match l with LexLiteral s => [s] | _ => [] end) r t;
  rt_assign_iri r s t := t ++ [(r, LexIri s)];
  rt_assign_blank r s t := t ++ [(r, LexBlank s)];
  rt_assign_literal r l t := t ++ [(r, LexLiteral l)]
}.

Fixpoint resource_of (iri : string) (t : lexicon) : option nat :=
  match t with
  | [] => None
  | (r, LexIri s) :: t' => if eqb s iri then Some r else resource_of iri t'
  | _ :: t' => resource_of iri t'
  end.

Definition fresh (t : lexicon) : nat := S (list_max (map fst t)).

#[local] Instance lexicon_resolver : Resolver nat lexicon := {
  rs_iri t iri := resource_of iri t;
  rs_interpret iri t :=
    match resource_of iri t with
    | Some r => (r, t)
    | None => (fresh t, t ++ [(fresh t, LexIri iri)])
    end;
  rs_new t := (fresh t, t ++ [(fresh t, LexNew)])
}.

Definition listed (t : lexicon) (x : nat) : Prop := In x (map fst t).

Lemma pick_app {A} (f : lexical -> list A) r t t' : pick f r (t ++ t') = pick f r t ++ pick f r t'.
Proof. apply flat_map_app. Qed.
Lemma pick_one {A} (f : lexical -> list A) r l : pick f r [(r, l)] = f l.
Proof. cbn. rewrite Nat.eqb_refl. apply app_nil_r. Qed.
Lemma pick_other {A} (f : lexical -> list A) r x l : x <> r -> pick f x [(r, l)] = [].
Proof. intros H. cbn. destruct (Nat.eqb_spec r x); [congruence|reflexivity]. Qed.
Lemma pick_unlisted {A} (f : lexical -> list A) x t : ~ listed t x -> pick f x t = [].
Proof.
  induction t as [|[r l] t IH]; intros H; [reflexivity|]. cbn. destruct (Nat.eqb_spec r x) as [->|_].
  - exfalso. apply H. now left.
  - apply IH. intro H'. apply H. now right.
Qed.
Lemma resource_app iri t l r : (forall s, l = LexIri s -> s <> iri) -> resource_of iri (t ++ [(r, l)]) = resource_of iri t.
Proof.
  intros H. induction t as [|[r' l'] t IH]; cbn [app resource_of].
  - destruct l as [|s| |]; try reflexivity. destruct (eqb_spec s iri) as [->|_]; [|reflexivity]. exfalso. now apply (H iri).
  - destruct l' as [|s'| |]; rewrite IH; reflexivity.
Qed.
Lemma resource_listed iri t r : resource_of iri t = Some r -> listed t r.
Proof.
  induction t as [|[r' l'] t IH]; [discriminate|]. cbn [resource_of]. unfold listed. cbn [map fst].
  destruct l' as [|s'| |]; try (intro H; right; now apply IH). destruct (eqb_spec s' iri) as [->|_].
  - intros [= ->]. now left.
  - intro H; right; now apply IH.
Qed.
Lemma listed_app t r l x : listed (t ++ [(r, l)]) x <-> x = r \/ listed t x.
Proof. unfold listed. rewrite map_app, in_app_iff. cbn. intuition. Qed.
Lemma fresh_unlisted t : ~ listed t (fresh t).
Proof.
  unfold listed, fresh. intro H. pose proof (proj1 (list_max_le (map fst t) (list_max (map fst t))) (le_n _)) as F.
  rewrite Forall_forall in F. apply F in H. lia.
Qed.

#[local] Instance lexicon_laws : ResolverLaws listed.
Proof.
  constructor; cbn [rt_iris rt_blanks rt_literals rt_assign_iri rt_assign_blank rt_assign_literal lexicon_runtime
    rs_iri rs_interpret rs_new lexicon_resolver fst snd].
  - apply fresh_unlisted.
  - intros i x. apply listed_app.
  - intros i x. unfold same_names. cbn [rt_iris rt_blanks rt_literals lexicon_runtime]. rewrite !pick_app.
    destruct (Nat.eq_dec x (fresh i)) as [->|N].
    + rewrite !pick_one, !app_nil_r. auto.
    + rewrite !(pick_other _ (fresh i) x) by assumption. rewrite !app_nil_r. auto.
  - intros i s. apply resource_app. discriminate.
  - intros i x H. unfold unnamed. cbn [rt_iris rt_blanks rt_literals lexicon_runtime]. now rewrite !pick_unlisted.
  - intros i s r. apply resource_listed.
  - intros i s r ->. reflexivity.
  - intros i r s H. now rewrite pick_app, H, pick_one.
  - intros i r s x H. unfold same_names. cbn [rt_iris rt_blanks rt_literals lexicon_runtime].
    rewrite !pick_app, !(pick_other _ r x) by assumption. rewrite !app_nil_r. auto.
  - intros i r s s' H. apply resource_app. intros s0 [= <-]. congruence.
  - intros i r s x H. rewrite listed_app. intuition congruence.
  - intros i r s H. now rewrite !pick_app, H, !pick_one, app_nil_r.
  - intros i r s x H. unfold same_names. cbn [rt_iris rt_blanks rt_literals lexicon_runtime].
    rewrite !pick_app, !(pick_other _ r x) by assumption. rewrite !app_nil_r. auto.
  - intros i r s s'. apply resource_app. discriminate.
  - intros i r s x H. rewrite listed_app. intuition congruence.
  - intros i r s H. now rewrite pick_app, H, pick_one.
  - intros i r s x H. unfold same_names. cbn [rt_iris rt_blanks rt_literals lexicon_runtime].
    rewrite !pick_app, !(pick_other _ r x) by assumption. rewrite !app_nil_r. auto.
  - intros i r s s'. apply resource_app. discriminate.
  - intros i r s x H. rewrite listed_app. intuition congruence.
Qed.

(** Integers in range, in decimal. *)
Definition int_rangeb (ty : int_type) (z : Z) : bool :=
  match ty with
  | U8 => (0 <=? z) && (z <? 2 ^ 8)
  | U16 => (0 <=? z) && (z <? 2 ^ 16)
  | U32 => (0 <=? z) && (z <? 2 ^ 32)
  | U64 => (0 <=? z) && (z <? 2 ^ 64)
  | I8 => (- 2 ^ 7 <=? z) && (z <? 2 ^ 7)
  | I16 => (- 2 ^ 15 <=? z) && (z <? 2 ^ 15)
  | I32 => (- 2 ^ 31 <=? z) && (z <? 2 ^ 31)
  | I64 => (- 2 ^ 63 <=? z) && (z <? 2 ^ 63)
  end%Z.
#[local] Instance decimal_syntax : IntSyntax := {
  int_parse ty s :=
    match integer_parse s with
    | Some z => if int_rangeb ty z then Some z else None
    | None => None
    end
}.
#[local] Instance decimal_laws : IntSyntaxLaws.
Proof.
  constructor. intros ty z H. cbn [int_parse decimal_syntax]. rewrite integer_parse_print.
  assert (int_rangeb ty z = true) as ->; [|reflexivity].
  destruct ty; unfold int_range in H; unfold int_rangeb; apply andb_true_intro;
    (split; [apply Z.leb_le|apply Z.ltb_lt]; apply H).
Qed.

(** ** A program: orders *)
Notation rdf_type := "rdf:type".
Definition shop : program := fun ty =>
  if eqb ty "t:Order" then
    Some (TyDerived (record_layout [(rdf_type, "ex:Order")]
      [("lines", Link "ex:lines" true "t:Lines"); ("note", Link "ex:note" false "t:String");
       ("ref", Link "ex:ref" true "t:Ref"); ("seen", Link "ex:seen" false "t:String");
       ("state", Own "t:State"); ("tags", Own "t:Tags")]) PText)
  else if eqb ty "t:Lines" then Some (TyDerived (list_layout [] "rdf:first" "rdf:rest" "rdf:nil" "t:Line") PText)
  else if eqb ty "t:Line" then Some (TyDerived (tuple_layout [] [("ex:what", "t:String"); ("ex:count", "t:Count")]) PText)
  else if eqb ty "t:Count" then Some (TyDerived (data_layout [] KNumber (int_datatype U8)) (PInt U8))
  else if eqb ty "t:Ref" then Some (TyDerived (id_layout [(rdf_type, "ex:Ref")] None) PText)
  else if eqb ty "t:State" then
    Some (TyDerived (choice_layout []
      [("Open", Tag "ex:state" "ex:open" "t:Unit"); ("Closed", Tag "ex:state" "ex:closed" "t:Closing");
       ("Failed", Via "ex:error" "t:u8")]) PText)
  else if eqb ty "t:Closing" then Some (TyDerived (record_layout [] [("by", Link "ex:closedBy" true "t:Id")]) PText)
  else if eqb ty "t:Unit" then Some (TyDerived (unit_layout [] vunit) PText)
  else if eqb ty "t:Tags" then Some (TyDerived (set_layout [] "ex:tag" "t:String") PText)
  else if eqb ty "t:u8" then Some (TyInt U8)
  else if eqb ty "t:String" then Some TyText
  else if eqb ty "t:Id" then Some TyId
  else None.

Lemma Some_eq {A} (a b : A) : Some a = Some b -> a = b.
Proof. congruence. Qed.
Ltac shop_cases E :=
  unfold shop in E;
  repeat match type of E with
  | (if eqb ?ty ?s then _ else _) = _ => destruct (eqb_spec ty s) as [?Et|_]
  end;
  [apply Some_eq in E ..|discriminate E].

(** The equations of the program. *)
Lemma record_eq ps fs inner ps' fs' inner' :
  TyDerived (record_layout ps fs) inner = TyDerived (record_layout ps' fs') inner' -> ps = ps' /\ fs = fs'.
Proof. intros E. injection E as E1 E2 _. split; [now apply statements_inj|now apply fields_inj]. Qed.
Lemma choice_eq ps fs inner ps' fs' inner' :
  TyDerived (choice_layout ps fs) inner = TyDerived (choice_layout ps' fs') inner' -> ps = ps' /\ fs = fs'.
Proof. intros E. injection E as E1 E2 _. split; [now apply statements_inj|now apply variants_inj]. Qed.
Lemma set_eq ps p ty inner ps' p' ty' inner' :
  TyDerived (set_layout ps p ty) inner = TyDerived (set_layout ps' p' ty') inner' -> ps = ps' /\ p = p'.
Proof. intros E. injection E as E1 E2 E3 _. split; [now apply statements_inj|congruence]. Qed.
Lemma unit_eq ps c inner ps' c' inner' :
  TyDerived (unit_layout ps c) inner = TyDerived (unit_layout ps' c') inner' -> ps = ps'.
Proof. intros E. injection E as E1 E2 _. now apply statements_inj. Qed.

Definition uses (ty : string) : list string :=
  if eqb ty "t:State" then ["ex:state"; "ex:error"; "ex:closedBy"]
  else if eqb ty "t:Closing" then ["ex:closedBy"]
  else if eqb ty "t:Tags" then ["ex:tag"]
  else [].

Lemma shop_eq ty t t' : shop ty = Some t -> shop ty = Some t' -> t = t'.
Proof. congruence. Qed.

Ltac at_type E t :=
  let H := fresh in pose proof (shop_eq _ _ _ (eq_refl : shop t = Some _) E) as H; clear E;
  first [discriminate H | apply record_eq in H as [<- <-] | apply choice_eq in H as [<- <-] | apply set_eq in H as [<- <-]
        | apply unit_eq in H as <-].

Lemma unit_owns s : ~ Owns shop "t:Unit" s.
Proof.
  intros H. inversion H; subst;
    match goal with E : shop "t:Unit" = _ |- _ => at_type E "t:Unit" end; cbn in *; contradiction.
Qed.
Lemma closing_owns s : Owns shop "t:Closing" s -> s = Some "ex:closedBy".
Proof.
  intros H. inversion H; subst;
    match goal with E : shop "t:Closing" = _ |- _ => at_type E "t:Closing" end; cbn in *; try contradiction;
    repeat match goal with H : _ \/ _ |- _ => destruct H as [H|H]; try contradiction; try discriminate end; congruence.
Qed.
Lemma tags_owns s : Owns shop "t:Tags" s -> s = Some "ex:tag".
Proof.
  intros H. inversion H; subst;
    match goal with E : shop "t:Tags" = _ |- _ => at_type E "t:Tags" end; cbn in *; try contradiction;
    repeat match goal with H : _ \/ _ |- _ => destruct H as [H|H]; try contradiction; try discriminate end; congruence.
Qed.
Lemma state_owns s : Owns shop "t:State" s -> s = Some "ex:state" \/ s = Some "ex:error" \/ s = Some "ex:closedBy".
Proof.
  intros H. inversion H; subst;
    match goal with E : shop "t:State" = _ |- _ => at_type E "t:State" end; cbn in *; try contradiction;
    repeat match goal with
      | H : _ \/ _ |- _ => destruct H as [H|H]; try contradiction; try discriminate
      | H : (_, _) = (_, _) |- _ => injection H as; subst
      | H : Owns shop "t:Unit" _ |- _ => now apply unit_owns in H
      | H : Owns shop "t:Closing" _ |- _ => apply closing_owns in H
    end; subst; auto.
Qed.

Ltac owned :=
  repeat match goal with
  | H : component_owns _ _ _ |- _ => progress cbn [component_owns] in H
  | H : choice_owns _ _ _ |- _ => progress cbn [choice_owns] in H
  | H : In _ _ |- _ => progress cbn [In map fst] in H
  | H : False |- _ => destruct H
  | H : _ \/ _ |- _ => destruct H as [H|H]; try discriminate H
  | H : (_, _) = (_, _) |- _ => injection H; clear H; intros; subst
  | H : Owns shop "t:Unit" _ |- _ => now apply unit_owns in H
  | H : Owns shop "t:Closing" _ |- _ => apply closing_owns in H
  | H : Owns shop "t:Tags" _ |- _ => apply tags_owns in H
  | H : Owns shop "t:State" _ |- _ => apply state_owns in H
  | H : Some _ = Some _ |- _ => injection H; clear H; intros; subst
  end; subst; try discriminate.

Ltac nodups := cbn; repeat (constructor; [cbn; let H := fresh in intro H; repeat (destruct H as [H|H]; [discriminate H|]); exact H|]); constructor.

Lemma shop_tree : tree_program shop.
Proof.
  intros ty t E. shop_cases E; subst.
  - constructor; [nodups| |].
    + intros k c p H H1 H2. owned.
    + intros k c k' c' s H H' H1 H2. owned; reflexivity.
  - constructor; [discriminate|intros []|intros []].
  - constructor; [nodups|intros p _ []].
  - constructor.
  - constructor.
  - constructor.
    + intros k c p H H1 [].
    + intros k p o ty H H1. owned.
    + intros [|[|[|m]]] [|[|[|n]]] nc nc' Hm Hn Ne; try (exfalso; now apply Ne); cbn in Hm, Hn;
        try (destruct m; discriminate); try (destruct n; discriminate); injection Hm as <-; injection Hn as <-;
        cbn [told_apart snd]; try (split; [discriminate|]); try (intro; owned); try discriminate.
  - constructor; [nodups|intros k c p H H1 []|].
    intros k c k' c' s H H' H1 H2. owned; reflexivity.
  - constructor.
  - constructor. intros [].
  - constructor.
  - constructor.
  - constructor.
Qed.

Definition shop_iris : list string :=
  [rdf_type; "ex:Order"; "ex:Ref"; "ex:lines"; "ex:note"; "ex:ref"; "ex:seen"; "rdf:first"; "rdf:rest"; "rdf:nil"; "ex:what";
   "ex:count"; "ex:state"; "ex:open"; "ex:closed"; "ex:error"; "ex:closedBy"; "ex:tag"; int_datatype U8].

Lemma shop_iris_all s : program_iri shop s -> In s shop_iris.
Proof.
  intros (ty & l & inner & E & H). shop_cases E; try discriminate E; injection E; clear E; intros; subst; cbn in H |- *; tauto.
Qed.

(** The node is the resource 0; the IRIs are the next ones. *)
Definition start : lexicon := (0, LexNew) :: combine (seq 1 (length shop_iris)) (map LexIri shop_iris).
Definition at_start (s : string) : nat := match resource_of s start with Some r => r | None => 0 end.

Lemma start_resolved : resolved shop at_start start.
Proof.
  intros s H. apply shop_iris_all in H. cbn [rs_iri lexicon_resolver]. cbn [shop_iris In] in H.
  repeat (destruct H as [<-|H]; [vm_compute; reflexivity|]). destruct H.
Qed.

Definition all_distinct (l : list string) : bool :=
  forallb (fun s => forallb (fun s' => implb (Nat.eqb (at_start s) (at_start s')) (eqb s s')) l) l.
Lemma shop_distinct : distinct_iris shop at_start.
Proof.
  intros s s' H H' E. apply shop_iris_all in H. apply shop_iris_all in H'.
  assert (A : all_distinct shop_iris = true) by (vm_compute; reflexivity).
  unfold all_distinct in A. rewrite forallb_forall in A. specialize (A s H). rewrite forallb_forall in A. specialize (A s' H').
  rewrite E, Nat.eqb_refl in A. cbn [implb] in A. now destruct (eqb_spec s s').
Qed.

Lemma shop_not_iri s : existsb (eqb s) shop_iris = false -> ~ program_iri shop s.
Proof.
  intros E H. apply shop_iris_all in H. assert (existsb (eqb s) shop_iris = true); [|congruence].
  apply existsb_exists. exists s. split; [exact H|]. now destruct (eqb_spec s s).
Qed.

Definition order : rvalue :=
  RvRecord [("lines", Some (RvVec [RvTuple [RvText "tea"; RvInt 2]; RvTuple [RvText "milk"; RvInt 255]]));
            ("note", None); ("ref", Some (RvId (IdIri "ex:order/7"))); ("seen", Some (RvText ""));
            ("state", Some (RvVariant 1 (RvRecord [("by", Some (RvId (IdBlank "bob")))])));
            ("tags", Some (RvVec [RvText "b"; RvText "a"; RvText "b"]))].

Lemma order_value : value_of shop "t:Order" order.
Proof.
  assert (TX : forall s, value_of shop "t:String" (RvText s)) by (intros; now apply vo_text).
  assert (LN : forall s z, int_range U8 z -> value_of shop "t:Line" (RvTuple [RvText s; RvInt z])).
  { intros s z Hz. eapply vo_tuple; [reflexivity|]. constructor; [apply TX|]. constructor; [|constructor].
    eapply vo_data; [reflexivity|]. now constructor. }
  eapply vo_record; [reflexivity|]. constructor; [|constructor; constructor; [|constructor; [|constructor; [|constructor; [|constructor]]]]].
  - eapply vo_list; [reflexivity| |discriminate]. repeat constructor; apply LN; unfold int_range; lia.
  - eapply vo_derived_id; [reflexivity|]. apply shop_not_iri. vm_compute. reflexivity.
  - apply TX.
  - eapply vo_choice; [reflexivity|reflexivity|]. eapply vo_record; [reflexivity|]. constructor; [|constructor].
    apply vo_id; [reflexivity|]. intros s [=].
  - eapply vo_set; [reflexivity|]. repeat constructor; apply TX.
Qed.

Lemma node_free : free_node listed shop at_start start 0.
Proof.
  split; [now left|]. split; [vm_compute; auto|]. intros nil (ty & ps & f & r & ty' & inner & E).
  assert (H : nil = "rdf:nil").
  { shop_cases E; try discriminate E. injection E. intros. congruence. }
  subst. vm_compute. discriminate.
Qed.

(** C75: the hypotheses hold. *)
Example order_back :
  exists n i' Q,
    (forall fuel g out, n <= fuel -> serialize shop fuel "t:Order" order [0] g (start, out) = Ok (i', out ++ Q)) /\
    later listed shop at_start i' i' /\
    forall i2 other D, later listed shop at_start i' i2 -> elsewhere listed start 0 other ->
      enumerates D (fun q => In q Q \/ other q) ->
      exists v', alike shop "t:Order" order v' /\
        forall fuel, n <= fuel -> deserialize i2 D shop fuel None "t:Order" [0] = Ok v'.
Proof.
  apply (C75_roundtrip_partial listed shop at_start start 0 "t:Order" order).
  - exact shop_tree.
  - exact shop_distinct.
  - exact start_resolved.
  - exact node_free.
  - exact order_value.
Qed.

(** The quads written, and the same value from them. *)
Example order_computed :
  exists i' Q, serialize shop 6 "t:Order" order [0] None (start, []) = Ok (i', Q) /\ length Q = 18 /\
    deserialize i' (list_dataset Q) shop 6 None "t:Order" [0] = Ok order.
Proof. eexists _, _. split; [vm_compute; reflexivity|]. split; vm_compute; reflexivity. Qed.

(** ** Refutations

    The full statement: what a generated serializer writes without an error, the generated deserializer of the
    same type reads as the same value.  In each case the serializer succeeds, and the deserializer returns no
    value, whatever the fuel. *)

Definition unread (types : program) (i' : lexicon) (Q : list (quad nat)) (g : option nat) (ty : string) (x : nat) : Prop :=
  forall fuel v, deserialize i' (list_dataset Q) types fuel g ty [x] <> Ok v.

Ltac never_read fuel :=
  intros fuel v; destruct fuel as [|[|[|[|fuel]]]]; vm_compute; discriminate.

(** C75: an empty ordered list writes nothing; the reader looks for a first node (generate/ser.rs 346-374: the
    head is written as it is, even when there is no item). *)
Theorem C75_empty_list_refuted :
  exists i' Q, tree_program shop /\ resolved shop at_start start /\ free_node listed shop at_start start 0 /\
    serialize shop 5 "t:Lines" (RvVec []) [0] None (start, []) = Ok (i', Q) /\ unread shop i' Q None "t:Lines" 0.
Proof.
  exists start, []. split; [exact shop_tree|]. split; [exact start_resolved|]. split; [exact node_free|].
  split; [vm_compute; reflexivity|]. never_read fuel.
Qed.

(** C75: a blank node identifier in a derived [id] layout is written, and not read (generate/ser.rs 55-77,
    generate/de.rs 93-108). *)
Theorem C75_blank_id_refuted :
  exists i' Q, tree_program shop /\ resolved shop at_start start /\ free_node listed shop at_start start 0 /\
    serialize shop 5 "t:Ref" (RvId (IdBlank "b")) [0] None (start, []) = Ok (i', Q) /\ unread shop i' Q None "t:Ref" 0.
Proof.
  eexists _, _. split; [exact shop_tree|]. split; [exact start_resolved|]. split; [exact node_free|].
  split; [vm_compute; reflexivity|]. never_read fuel.
Qed.

(** C75: the current graph is not used by the serializer: the quads are in the default graph, and the reader
    looks for them in the current graph. *)
Theorem C75_named_graph_refuted :
  exists g i' Q, tree_program shop /\ resolved shop at_start start /\ free_node listed shop at_start start 0 /\
    value_of shop "t:Order" order /\
    serialize shop 6 "t:Order" order [0] (Some g) (start, []) = Ok (i', Q) /\ unread shop i' Q (Some g) "t:Order" 0.
Proof.
  exists 1. eexists _, _. split; [exact shop_tree|]. split; [exact start_resolved|]. split; [exact node_free|].
  split; [exact order_value|]. split; [vm_compute; reflexivity|]. never_read fuel.
Qed.

(** C75: two variants with the same property are not told apart. *)
Definition either : program := fun ty =>
  if eqb ty "t:Either" then
    Some (TyDerived (choice_layout [] [("Left", Via "ex:note" "t:String"); ("Right", Via "ex:note" "t:String")]) PText)
  else if eqb ty "t:String" then Some TyText
  else None.
Theorem C75_ambiguous_variants_refuted :
  exists i' Q, value_of either "t:Either" (RvVariant 0 (RvText "a")) /\
    serialize either 5 "t:Either" (RvVariant 0 (RvText "a")) [0] None (start, []) = Ok (i', Q) /\
    unread either i' Q None "t:Either" 0.
Proof.
  eexists _, _. split.
  { eapply vo_choice; [reflexivity|reflexivity|]. now apply vo_text. }
  split; [vm_compute; reflexivity|]. never_read fuel.
Qed.

(** C75: the identifier of an [id] layout about another resource is given to the first input (generate/ser.rs
    55-77: [&inputs[0]]), and read from the resource of the layout. *)
Definition named : program := fun ty =>
  if eqb ty "t:Named" then
    Some (TyDerived (IdL (Header 1 1 [Quad (PVar 0) (PRes "ex:ref") (PVar 1) None]) (PVar 1) None) PText)
  else None.
Theorem C75_id_elsewhere_refuted :
  exists i' Q, serialize named 5 "t:Named" (RvId (IdIri "ex:a")) [0] None (start, []) = Ok (i', Q) /\
    unread named i' Q None "t:Named" 0.
Proof. eexists _, _. split; [vm_compute; reflexivity|]. never_read fuel. Qed.

(** C75: the literal of a layout about another resource: the deserializer reads a value, that the serializer
    does not write: it panics (generate/ser.rs 483-494: the variable is an index in the inputs). *)
Definition measured : program := fun ty =>
  if eqb ty "t:Measure" then
    Some (TyDerived (DataL KNumber (Header 1 1 [Quad (PVar 0) (PRes "ex:count") (PVar 1) None]) (PVar 1) (int_datatype U8)) (PInt U8))
  else None.
Theorem C75_literal_elsewhere_refuted :
  exists i D v, deserialize i D measured 5 None "t:Measure" [0] = Ok v /\
    forall fuel g out, exists w, serialize measured (S fuel) "t:Measure" v [0] g (i, out) = Panic w.
Proof.
  exists (start ++ [(30, LexLiteral (RdfLiteral "7" (TypeAny (int_datatype U8))))]),
    (list_dataset [Quad 0 (at_start "ex:count") 30 None]), (RvInt 7).
  split; [vm_compute; reflexivity|]. intros fuel g out. eexists. vm_compute. reflexivity.
Qed.

Print Assumptions C75_roundtrip_partial.
Print Assumptions C75_exact_partial.
Print Assumptions C75_two_values_partial.
Print Assumptions C75_empty_list_refuted.
Print Assumptions C75_blank_id_refuted.
Print Assumptions C75_named_graph_refuted.
Print Assumptions C75_ambiguous_variants_refuted.
Print Assumptions C75_id_elsewhere_refuted.
Print Assumptions C75_literal_elsewhere_refuted.

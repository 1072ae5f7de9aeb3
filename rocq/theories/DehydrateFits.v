(** * The values accepted by the dehydration (C64) *)

From Coq Require Import String List Bool Arith NArith ZArith Permutation QArith Qcanon Lia.
Import ListNotations.
From Verif Require Import Base BaseProofs Orders PatternModel MatchingModel ValueModel LayoutModel TermModel HydrateModel DehydrateModel DehydrateSpec
  DehydrateProperties HydrateExamples DehydrateExamples.
Open Scope list_scope.
Open Scope nat_scope.
Open Scope string_scope.

Section Fits.
Context {X : Xsd} {IS : IriSyntax}.
Variable reg : registry term.

(** The literals of a kind of data, and the datatypes they can be written with. *)
Inductive literal_fits : data_kind -> literal -> Prop :=
| fit_boolean b : literal_fits KBoolean (LBool b)
| fit_number n : decimal_print n <> None -> literal_fits KNumber (LNum n)
| fit_text pat s : literal_fits (KTextString pat) (LText s).

(** [Fits ref v]: the value [v] has the shape of the layout [ref]. *)
Inductive Fits : term -> value -> Prop :=
| F_always ref v : reg ref = Some Always -> Fits ref v
| F_unit ref h c : reg ref = Some (UnitL h c) -> Fits ref c
| F_data ref k h res dt v : reg ref = Some (DataL k h res dt) -> literal_fits k v -> Fits ref (VLit v)
| F_id ref h res pat s : reg ref = Some (IdL h res pat) -> is_iri s = true -> Fits ref (VLit (LText s))
| F_record ref h fs m : reg ref = Some (ProductL h fs) ->
    (forall k v, In (k, v) m -> exists f, In (k, f) fs /\ Fits (vf_layout (it_value (f_item f))) v) ->
    (forall k f, In (k, f) fs -> f_required f = true -> In k (map fst m)) ->
    Fits ref (VMap m)
| F_variant ref h vs va v : reg ref = Some (SumL h vs) -> In va vs -> Fits (vf_layout (it_value (va_item va))) v -> Fits ref v
| F_set ref h it l : reg ref = Some (UnorderedL h it) -> (forall v, In v l -> Fits (vf_layout (it_value it)) v) -> Fits ref (VList l)
| F_list ref h node hd tl l : reg ref = Some (OrderedL h node hd tl) -> (forall v, In v l -> Fits (vf_layout (it_value node)) v) ->
    Fits ref (VList l)
| F_tuple ref h its l : reg ref = Some (SizedL h its) -> Forall2 (fun it v => Fits (vf_layout (it_value it)) v) its l ->
    Fits ref (VList l).

Lemma Emits_fits {S} (into : term -> S) O A :
  (forall ref inputs v, Emits into O A reg ref inputs v -> Fits ref v) /\
  (forall env fs k v, EmitsEntry into O A reg env fs k v -> exists f, In (k, f) fs /\ Fits (vf_layout (it_value (f_item f))) v) /\
  (forall env it v, EmitsItem into O A reg env it v -> Fits (vf_layout (it_value it)) v) /\
  (forall env node tl head l, EmitsNodes into O A reg env node tl head l -> forall v, In v l -> Fits (vf_layout (it_value node)) v) /\
  (forall env its l, EmitsTuple into O A reg env its l -> Forall2 (fun it v => Fits (vf_layout (it_value it)) v) its l).
Proof.
  apply Emits_mutind.
  - intros. now apply F_always.
  - intros. eapply F_unit; eassumption.
  - intros ref inputs k h res dt env r v l H _ _ _ LF _. eapply F_data; [exact H|]. destruct LF; constructor. congruence.
  - intros. eapply F_id; eassumption.
  - intros. eapply F_record; eassumption.
  - intros. eapply F_variant; eassumption.
  - intros. eapply F_set; eassumption.
  - intros. eapply F_list; eassumption.
  - intros. eapply F_tuple; eassumption.
  - intros. eauto.
  - intros. assumption.
  - intros env node tl head v [].
  - intros env node tl head tail v _ _ IH w [<-|[]]. exact IH.
  - intros env node tl head rest v l _ _ IH _ IHl w [<-|Hw]; auto.
  - constructor.
  - intros. now constructor.
Qed.

Theorem C64_value_shape {Gn} (opts : options Gn) order fuel v ref ds vals :
  (forall l, Permutation (order l) l) ->
  dehydrate order reg fuel v ref opts = Ok (ds, vals) -> Fits ref v.
Proof. intros P H. eapply (proj1 (Emits_fits (fun t => t) (fun q => In q ds) eq)). eapply C25_emits; eassumption. Qed.
End Fits.

(** The team of DehydrateExamples.v; and values that do not fit. *)
Example C64_example : Fits team_reg (iri "team") team_value /\
  (forall fuel ds vals, dehydrate same team_reg fuel (vint 1) (iri "string") default_options <> Ok (ds, vals)) /\
  (forall fuel ds vals, dehydrate same team_reg fuel (vtext "not an IRI") (iri "id") default_options <> Ok (ds, vals)).
Proof.
  split; [exact (C64_value_shape team_reg default_options same 10 _ _ _ _ same_perm dehydrate_team)|]. split; intros fuel ds vals H.
  - apply C64_value_shape in H; [|exact same_perm]. inversion H as [? ? E|? ? ? E|? ? ? ? ? ? E L|? ? ? ? ? E|? ? ? ? E|? ? ? ? ? E|? ? ? ? E|? ? ? ? ? ? E|? ? ? ? E]; subst; cbv in E; try discriminate.
    injection E as <- _ _ _. inversion L.
  - apply C64_value_shape in H; [|exact same_perm]. inversion H as [? ? E|? ? ? E|? ? ? ? ? ? E L|? ? ? ? ? E I|? ? ? ? E|? ? ? ? ? E|? ? ? ? E|? ? ? ? ? ? E|? ? ? ? E]; subst; cbv in E; try discriminate.
Qed.

Print Assumptions C64_value_shape.

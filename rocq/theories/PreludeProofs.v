(** * The prelude: proofs *)

From Coq Require Import String Ascii List Bool Arith NArith ZArith QArith Qcanon Sorting.
Import ListNotations.
From Verif Require Import Base BaseProofs Orders PatternModel ValueModel LayoutModel HydrateModel TermModel NumberModel
  DehydrateModel JsonModel RegexpModel AbsModel AbsJsonModel AbsSerdeModel GenDataModel GenModel GenSpec
  CodeGenModel AbsProofs AbsRegistry PreludeModel PreludeSpec.
Open Scope list_scope.
Open Scope nat_scope.
Open Scope string_scope.

(** The presets, in the order of the documents. *)
Definition all_presets : list preset :=
  [PsUnit; PsBoolean; PsU8; PsU16; PsU32; PsU64; PsI8; PsI16; PsI32; PsI64; PsString; PsId].

Lemma all_presets_all p : In p all_presets.
Proof. destruct p; cbn; tauto. Qed.

Lemma all_presets_NoDup : NoDup all_presets.
Proof. repeat constructor; cbn; intuition congruence. Qed.

Lemma preset_iri_inj p q : preset_iri p = preset_iri q -> p = q.
Proof. destruct p, q; intros H; try reflexivity; discriminate. Qed.

Lemma hm_get_In {V} k (m : list (string * V)) v : hm_get k m = Some v -> In (k, v) m.
Proof.
  induction m as [|[k' v'] m IH]; cbn [hm_get]; [discriminate|].
  destruct (String.eqb_spec k k') as [->|]; [intros [= ->]; now left|]. intro. right. auto.
Qed.

Lemma from_iri_iff iri p : preset_from_iri iri = Some p <-> iri = preset_iri p.
Proof.
  split.
  - intros H. apply hm_get_In in H. cbn [In preset_iris] in H.
    repeat (destruct H as [H|H]; [injection H as <- <-; reflexivity|]). destruct H.
  - intros ->. destruct p; reflexivity.
Qed.

(** The abstract layouts of the documents. *)
Definition preset_abs (p : preset) : alayout :=
  let h := AHeader None [] (Some (preset_iri p)) ["self"] [] [] [] in
  match p with
  | PsUnit => AUnit h (VLit LUnit)
  | PsId => ALiteralL (AKId None) h None
  | PsBoolean => ALiteralL (AKBoolean None) h None
  | PsString => ALiteralL (AKTextString None None) h None
  | p => ALiteralL (AKNumber (xsd_name (preset_datatype p))) h None
  end.
Definition preset_document (p : preset) : json :=
  match p with
  | PsUnit => prelude_document "unit" "unit" None
  | PsId => prelude_document "id" "id" None
  | PsBoolean => prelude_document "boolean" "boolean" None
  | PsString => prelude_document "string" "string" None
  | p => prelude_document (preset_name p) "number" (Some (preset_datatype p))
  end.

Lemma documents : prelude_documents = map preset_document all_presets.
Proof. reflexivity. Qed.

Section Read.
Context {TS : TextSyntax} {F : Type}.
Variables (ap : bool) (json_float : string -> option F) (from_f64 : F -> option Qc).

Lemma read_preset p :
  is_iri_ref (preset_iri p) = true -> is_iri_ref (xsd_name (preset_datatype p)) = true ->
  prelude_read ap json_float from_f64 (preset_document p) = Ok (preset_abs p).
Proof.
  destruct p; intros H1 H2; cbv -[is_iri_ref] in H1, H2; cbv -[is_iri_ref];
    rewrite ?H1, ?H2; reflexivity.
Qed.
End Read.

(** The compilation of the abstract layouts. *)
Section Build.
Context {IS : IriSyntax} {AE : AbsExternal} {St R : Type} {CR : Cmp R}.
Variable ctx : context St R.
Variable res : string -> R.
Hypothesis Hres : forall i st, fst (c_iri ctx i st) = res i.

Definition preset_pre (p : preset) : prelayout R :=
  let h := Header 1 0 [] in
  match p with
  | PsUnit => PreOf (UnitL h (VLit LUnit))
  | PsId => PreId h (PVar 0) None
  | PsBoolean => PreOf (DataL KBoolean h (PVar 0) (res (xsd_name "boolean")))
  | PsString => PreText None h (PVar 0) (res (xsd_name "string"))
  | p => PreOf (DataL KNumber h (PVar 0) (res (xsd_name (preset_datatype p))))
  end.

Lemma c_iri_res i st : c_iri ctx i st = (res i, snd (c_iri ctx i st)).
Proof. rewrite <- (Hres i st). apply surjective_pairing. Qed.

Lemma build_preset p st (b : @builder R) :
  exists st', build_with_context ctx (preset_abs p) (st, b) =
    (match bt_get (res (preset_iri p)) b with
     | None => Ok (res (preset_iri p))
     | Some _ => Err LayoutRedefinition
     end, (st', bt_insert (res (preset_iri p)) (preset_pre p) b)).
Proof.
  destruct p; eexists; cbv -[c_iri bt_get bt_insert];
    rewrite c_iri_res; cbv -[c_iri bt_get bt_insert];
    try (rewrite c_iri_res; cbv -[c_iri bt_get bt_insert]); 
    (match goal with |- context [bt_get ?r b] => destruct (bt_get r b) end); reflexivity.
Qed.

(** The builder after some presets. *)
Definition insert_presets (ps : list preset) (b : @builder R) : @builder R :=
  fold_left (fun b p => bt_insert (res (preset_iri p)) (preset_pre p) b) ps b.

Lemma compile_preset {E} fuel p : compile (E := E) fuel (preset_pre p) = Ok (layout_at res (preset_layout p)).
Proof. destruct p; reflexivity. Qed.

Context {CL : CmpLaws R}.

Lemma insert_presets_wf ps b : bt_wf b -> bt_wf (insert_presets ps b).
Proof. revert b. induction ps as [|p ps IH]; intros b W; [exact W|]. apply IH. now apply bt_insert_wf. Qed.

Lemma insert_presets_get (T : presets_apart res) ps b r :
  bt_get r (insert_presets ps b) =
  match find (fun p => eqb r (res (preset_iri p))) ps with
  | Some p => Some (preset_pre p)
  | None => bt_get r b
  end.
Proof.
  revert b. induction ps as [|p ps IH]; intro b; [reflexivity|].
  change (insert_presets (p :: ps) b) with (insert_presets ps (bt_insert (res (preset_iri p)) (preset_pre p) b)).
  rewrite IH. cbn [find]. rewrite bt_insert_get.
  destruct (eqb_spec r (res (preset_iri p))) as [->|N]; [|reflexivity].
  destruct (find _ ps) as [q|] eqn:E; [|reflexivity].
  apply find_some in E as [_ E]. destruct (eqb_spec (res (preset_iri p)) (res (preset_iri q))) as [E'|]; [|discriminate].
  now rewrite (T _ _ E').
Qed.

Lemma layout_of_preset p (l : layout R) : layout_of (preset_pre p) l -> l = layout_at res (preset_layout p).
Proof.
  destruct p; cbn [preset_pre layout_of]; try (intros ->; reflexivity);
    intros ([d|] & H & ->); [destruct H|reflexivity|destruct H|reflexivity].
Qed.

Lemma nil_wf : bt_wf (@nil (R * prelayout R)).
Proof. constructor. Qed.

Lemma build_presets {E} fuel m : presets_apart res ->
  builder_build (E := E) fuel (insert_presets all_presets []) = Ok m -> the_presets res m.
Proof.
  intros T H. destruct (C76_registry fuel _ m (insert_presets_wf _ _ nil_wf) H) as [_ G].
  intros r l. specialize (G r). rewrite (insert_presets_get T) in G.
  destruct (find _ all_presets) as [p|] eqn:E0.
  - apply find_some in E0 as [_ E0]. destruct (eqb_spec r (res (preset_iri p))) as [->|]; [|discriminate].
    destruct G as (l0 & G & L). apply layout_of_preset in L as ->. rewrite G. split.
    + intros [= <-]. now exists p.
    + intros (q & Hq & ->). now rewrite (T _ _ Hq).
  - cbn [bt_get] in G. rewrite G. split; [discriminate|]. intros (p & -> & _).
    pose proof (find_none _ _ E0 p (all_presets_all p)) as N. cbv beta in N. destruct (eqb_spec (res (preset_iri p)) (res (preset_iri p))); congruence.
Qed.

Lemma builds {E} fuel ps b m : (forall r pl, In (r, pl) b -> exists p, pl = preset_pre p) ->
  exists m', builder_build_into (E := E) fuel (insert_presets ps b) m = Ok m'.
Proof.
  intros Hb. assert (A : forall r pl, In (r, pl) (insert_presets ps b) -> exists p, pl = preset_pre p).
  { revert b Hb. induction ps as [|p ps IH]; intros b Hb; [exact Hb|]. apply IH. intros r pl I.
    apply AbsProofs.bt_insert_In in I as [->|I]; [now exists p|]. eapply Hb. exact I. }
  revert m A. generalize (insert_presets ps b). intro l. induction l as [|[r pl] l IH]; intros m A; [now exists m|].
  destruct (A r pl ltac:(now left)) as [p ->]. cbn [builder_build_into]. rewrite compile_preset. cbn [bind].
  apply IH. intros r' pl' I. eapply A. right. exact I.
Qed.

Section Loop.
Context {TS : TextSyntax} {F : Type}.
Variables (ap : bool) (json_float : string -> option F) (from_f64 : F -> option Qc).

Lemma loop_with (S : preset_syntax) (T : presets_apart res) ps st (b : @builder R) : NoDup ps ->
  (forall p, In p ps -> bt_get (res (preset_iri p)) b = None) ->
  exists st', prelude_builder_with ap json_float from_f64 ctx (map preset_document ps) (st, b) =
    Ok (st', insert_presets ps b).
Proof.
  revert st b. induction ps as [|p ps IH]; intros st b ND D; [now exists st|].
  inversion ND as [|? ? N ND']; subst. cbn [map prelude_builder_with].
  destruct (S p) as [S1 S2]. rewrite (read_preset ap json_float from_f64 p S1 S2). cbn [bind].
  destruct (build_preset p st b) as [st' ->]. rewrite (D p (or_introl eq_refl)). cbn [unwrap_build bind].
  apply (IH st' (bt_insert (res (preset_iri p)) (preset_pre p) b) ND').
  intros q Iq. rewrite bt_insert_get. destruct (eqb_spec (res (preset_iri q)) (res (preset_iri p))) as [E|].
  - apply T in E as ->. contradiction.
  - apply D. now right.
Qed.
End Loop.
End Build.

(** The loop of [Prelude::build] is the one of [Prelude::build_with], with a new generator each time. *)
Section Terms.
Context {TS : TextSyntax} {IS : IriSyntax} {AE : AbsExternal} {F : Type}.
Variables (ap : bool) (json_float : string -> option F) (from_f64 : F -> option Qc).

Lemma loop_terms (S : preset_syntax) ps (b : @builder term) : NoDup ps ->
  (forall p, In p ps -> bt_get (TmIri (preset_iri p)) b = None) ->
  prelude_builder ap json_float from_f64 (map preset_document ps) b = Ok (insert_presets TmIri ps b).
Proof.
  revert b. induction ps as [|p ps IH]; intros b ND D; [reflexivity|].
  inversion ND as [|? ? N ND']; subst. cbn [map prelude_builder].
  destruct (S p) as [S1 S2]. rewrite (read_preset ap json_float from_f64 p S1 S2). cbn [bind]. unfold build_document.
  destruct (build_preset term_context TmIri ltac:(reflexivity) p 0 b) as [st' ->].
  rewrite (D p (or_introl eq_refl)). cbn [unwrap_build bind snd].
  apply (IH (bt_insert (TmIri (preset_iri p)) (preset_pre TmIri p) b) ND').
  intros q Iq. rewrite bt_insert_get. destruct (eqb_spec (TmIri (preset_iri q)) (TmIri (preset_iri p))) as [E|].
  - assert (E' : preset_iri q = preset_iri p) by congruence. apply preset_iri_inj in E' as ->. contradiction.
  - apply D. now right.
Qed.
End Terms.

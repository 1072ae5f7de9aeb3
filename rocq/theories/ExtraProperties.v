(** * C105: the extra properties of layouts, and their CBOR tags *)

From Coq Require Import String Ascii List Bool Arith NArith ZArith Lia.
Import ListNotations.
From Verif Require Import Base BaseProofs Orders PatternModel ValueModel LayoutModel LayoutSpec MatchingSpec MatchingProofs
  HydrateModel HydrateSpec HydrateProperties TermModel DehydrateModel NumberSpec AbsModel AbsSpec AbsProofs AbsProperties
  AbsMeaning AbsRedefine AbsRegistry ValueProofs CborModel CborSpec CborProperties ExtraModel ExtraSpec ExtraProofs.
Open Scope list_scope.
Open Scope nat_scope.

(** ** The compilation *)
Section Compilation.
Context {IS : IriSyntax} {AE : AbsExternal} {St R : Type} {CR : Cmp R} (ctx : context St R).

(** The compilation of [AbsModel], without the properties, gives the same result and the same builder. *)
Theorem C105_same_layouts l st ex b : exists ex',
  build_with_extra ctx l ((st, ex), b) =
  let (o, s) := build_with_context ctx l (st, b) in (o, ((fst s, ex'), snd s)).
Proof.
  destruct (erasure ctx l scope_default st ex b) as [ex' E]. exists ex'. unfold build_with_extra, build_with_context. rewrite E.
  now destruct (build_layout ctx l scope_default (st, b)).
Qed.

Context {CL : CmpLaws R}.
Notation means b ex := (described (ctx_iri ctx) (ctx_lit ctx) (fun r => bt_get r b) (fun r => bt_get r ex)).

(** The layouts of the document have the properties that are written in it; the layouts that were there before keep
    theirs. *)
Theorem C105_described l st ex b r st' ex' b' :
  build_with_extra ctx l ((st, ex), b) = (Ok r, ((st', ex'), b')) ->
  bt_wf b -> bt_wf ex -> (forall r, bt_get r b = None -> bt_get r ex = None) ->
  means b' ex' no_env l r /\
  (forall r m, bt_get r ex = Some m -> bt_get r ex' = Some m) /\
  (forall r p, bt_get r b' = Some p ->
     bt_get r b = Some p \/ exists l' env, inside l l' /\ means b' ex' env l' r) /\
  bt_wf b' /\ bt_wf ex' /\ (forall r, bt_get r b' = None -> bt_get r ex' = None).
Proof.
  intros H Wb We Wd. destruct (document_described ctx l) as [NM Y].
  destruct (Y _ _ _ H (conj Wb (conj We Wd))) as ((W1 & W2 & W3) & [[_ X] N] & Q).
  cbn [extra_logic view viewx fst snd] in *.
  assert (K : forall env l r, described (ctx_iri (kept ctx)) (ctx_lit (kept ctx)) (fun r => bt_get r b') (fun r => bt_get r ex') env l r ->
    means b' ex' env l r).
  { intros env l' r'. apply described_res; intros; now (apply kept_iri || apply kept_lit). }
  split; [now apply K|]. split; [exact X|]. split; [|now repeat split].
  intros r' p E. destruct (N r' p E) as [N'|(l' & env & I & D)]; [now left|right]. exists l', env. split; [exact I|now apply K].
Qed.
End Compilation.

(** ** Tags *)
Section Tag.
Context {IS : IriSyntax} {AE : AbsExternal}.

(** Two environments that are the same. *)
Definition same_env (a b : ienv) : Prop := e_base a = e_base b /\ forall n, e_prefix a n = e_prefix b n.

Lemma same_env_denotes a b i i' : same_env a b -> iri_denotes a i i' -> iri_denotes b i i'.
Proof.
  intros [B P] [(sc & su & A & H)|[N (base & E & H)]]; [left|right].
  - exists sc, su. split; [exact A|]. now rewrite <- P.
  - split; [exact N|]. exists base. now rewrite <- B.
Qed.

Lemma last_declared (l : list (string * compact_iri)) name :
  (forall p, ~ In (name, p) l) \/
  exists p before after, l = before ++ (name, p) :: after /\ forall q, ~ In (name, q) after.
Proof.
  induction l as [|[n p] l IH]; [left; intros p []|]. destruct IH as [IH|(q & before & after & -> & N)].
  - destruct (string_dec n name) as [->|D]; [right; now exists p, [], l|left].
    intros q [[= E _]|I]; [now apply D|now apply (IH q)].
  - right. now exists q, ((n, p) :: before), after.
Qed.

Lemma header_env_unique env h a b : header_env env h a -> header_env env h b -> same_env a b.
Proof.
  intros [Pa Ba] [Pb Bb]. split.
  - destruct (ah_base h) as [i|]; [|congruence]. destruct Ba as (x & X & ->), Bb as (y & Y & ->).
    now rewrite (iri_denotes_unique _ _ _ _ X Y).
  - intros n. destruct (Pa n) as [A1 A2], (Pb n) as [B1 B2]. destruct (last_declared (ah_prefixes h) n) as [N|(p & D)].
    + now rewrite A2, B2.
    + destruct (A1 p D) as (x & X & ->), (B1 p D) as (y & Y & ->). now rewrite (iri_denotes_unique _ _ _ _ X Y).
Qed.

Lemma same_env_literal a b v l : same_env a b -> written_literal a v l -> written_literal b v l.
Proof.
  intros S. destruct v; cbn [written_literal]; auto. intros (ty' & T & E). exists ty'. split; [|exact E]. now apply (same_env_denotes a).
Qed.
Lemma written_literal_unique env v l l' : written_literal env v l -> written_literal env v l' -> l = l'.
Proof.
  destruct v; cbn [written_literal]; try congruence. intros (x & X & ->) (y & Y & ->). now rewrite (iri_denotes_unique _ _ _ _ X Y).
Qed.
Lemma written_literal_typed env v l : written_literal env v l -> exists lex ty, l = RdfLiteral lex (TypeAny ty).
Proof. destruct v; cbn [written_literal]; try (intros ->; eauto). intros (ty' & _ & ->). eauto. Qed.

Lemma tag_last env ex es i v' :
  Forall2 (entry_means term_iri term_lit env) ex es ->
  (last_entry es (TmIri i) v' <->
   exists before p v after li, ex = before ++ (p, v) :: after /\ iri_denotes env p i /\
     written_literal env v li /\ v' = TmLit li /\ forall q w, In (q, w) after -> ~ iri_denotes env q i).
Proof.
  intros F. split.
  - intros (before & after & -> & N). apply Forall2_app_inv_r in F as (b0 & r0 & F1 & F2 & ->).
    inversion F2 as [|[p v] ? a0 ? (E1 & li & E2 & E3) F3]; subst. cbn [fst snd] in *. destruct E1 as (i' & D & [= <-]).
    exists b0, p, v, a0, li. split; [reflexivity|]. split; [exact D|]. split; [exact E2|]. split; [exact E3|].
    intros q w I D'. apply In_nth_error in I as [k K].
    assert (exists w', In (TmIri i, w') after) as [w' I]; [|exact (N w' I)].
    clear - F3 K D'. revert k K. induction F3 as [|[q0 w0] [q1 w1] l l' (E1 & _) F IH]; intros [|k] K; cbn in K; try discriminate.
    + injection K as -> ->. cbn [fst] in E1. destruct E1 as (i' & D & ->). rewrite (iri_denotes_unique _ _ _ _ D D'). exists w1. now left.
    + destruct (IH k K) as [w' I]. exists w'. now right.
  - intros (before & p & v & after & li & -> & D & L & -> & N). apply Forall2_app_inv_l in F as (b0 & r0 & F1 & F2 & ->).
    inversion F2 as [|? [p' w'] ? a0 (E1 & li' & E2 & E3) F3]; subst. cbn [fst snd] in *.
    destruct E1 as (i' & D' & ->). rewrite (iri_denotes_unique _ _ _ _ D D') in *. rewrite (written_literal_unique _ _ _ _ L E2).
    exists b0, a0. split; [now rewrite E3|]. intros w I. clear - F3 I N.
    induction F3 as [|[q0 w0] [q1 w1] l l' (E1 & _) F IH]; [contradiction|].
    destruct I as [[= -> ->]|I]; [|apply IH; [|exact I]; intros q w' I'; apply (N q w'); now right].
    destruct E1 as (i'' & D & [= <-]). now apply (N q0 w0 (or_introl eq_refl)).
Qed.

Notation get_tag unsigned m ex := (get_layout_tag (Some (TmIri cbor_tag_iri)) (registry_properties m ex) unsigned).

(** The tag of a layout in the registry is the one that is written in the document. *)
Theorem C105_tag (unsigned : string -> bool) defs env l r (m : layouts term) (ex : @extras term) :
  described term_iri term_lit defs (fun r => bt_get r ex) env l r -> layouts_get m r <> None ->
  (forall t, get_tag unsigned m ex r = Ok t <-> has_tag unsigned env l t) /\
  forall w, get_tag unsigned m ex r <> Panic w.
Proof.
  rewrite described_eq. intros (_ & (mm & EX & PM) & _) REG.
  assert (RP : registry_properties m ex r = Some mm).
  { unfold registry_properties. destruct (layouts_get m r); [|now destruct REG]. now rewrite EX. }
  destruct (C69_get_layout_tag (Some (TmIri cbor_tag_iri)) (registry_properties m ex) unsigned r mm (TmIri cbor_tag_iri)
              (match bt_get (TmIri cbor_tag_iri) mm with Some v => v | None => TmIri cbor_tag_iri end) RP eq_refl) as [GN GS].
  unfold layout_properties_mean in PM. destruct (header_of l) as [h|] eqn:HL.
  2:{ subst mm. cbn [bt_get] in *. rewrite (GN eq_refl). split; [|discriminate]. intros t. split.
      - intros [= <-]. intros env' v (h & ? & ? & ? & H & _). congruence.
      - destruct t as [n|]; [|reflexivity]. intros (env' & v & lex & ty & (h & ? & ? & ? & H & _) & _). congruence. }
  destruct PM as (env1 & HE & es & F & L). specialize (L (TmIri cbor_tag_iri)).
  assert (TE : forall env' v, tag_entry env l env' v -> exists li, written_literal env' v li /\
     bt_get (TmIri cbor_tag_iri) mm = Some (TmLit li)).
  { intros env' v (h' & before & p & after & Hh & HE' & EE & D & N). rewrite HL in Hh. injection Hh as <-.
    pose proof (header_env_unique _ _ _ _ HE HE') as S1. pose proof (header_env_unique _ _ _ _ HE' HE) as S2.
    assert (exists li, written_literal env1 v li) as [li LI].
    { rewrite EE in F. apply Forall2_app_inv_l in F as (b0 & r0 & F1 & F2 & _). inversion F2 as [|? ? ? ? (_ & li & X & _) _]; subst. eauto. }
    exists li. split; [now apply (same_env_literal env1)|]. apply L. apply (tag_last env1 _ _ _ _ F).
    exists before, p, v, after, li. split; [exact EE|]. split; [now apply (same_env_denotes env')|]. split; [exact LI|]. split; [reflexivity|].
    intros q w I D'. apply (N q w I). now apply (same_env_denotes env1). }
  destruct (bt_get (TmIri cbor_tag_iri) mm) as [v'|] eqn:G.
  - destruct (proj1 (tag_last env1 _ _ _ _ F) (proj1 (L v') eq_refl)) as (before & p & v & after & li & EE & D & LI & -> & N).
    assert (T0 : tag_entry env l env1 v) by (exists h, before, p, after; repeat split; auto; now apply HE).
    destruct (written_literal_typed _ _ _ LI) as (lex & ty & ->).
    destruct (GS eq_refl) as [GS' _]. specialize (GS' [] lex ty [] eq_refl (fun l H => match H with end)). rewrite GS'.
    split.
    2:{ destruct (unsigned ty); [|discriminate]. now destruct (parse_u64 lex). }
    intros t. split.
    + destruct (unsigned ty) eqn:U; [|discriminate]. destruct (parse_u64 lex) as [n|] eqn:P; [|discriminate].
      intros [= <-]. exists env1, v, lex, ty. split; [exact T0|]. split; [exact LI|]. split; [exact U|]. now apply C69_parse_u64.
    + destruct t as [n|]; cbn [has_tag].
      * intros (env' & v2 & lex' & ty' & T & W & U & P). destruct (TE env' v2 T) as (li' & W' & [= <-]).
        pose proof (written_literal_unique _ _ _ _ W W') as [= -> ->]. rewrite U. apply C69_parse_u64 in P. now rewrite P.
      * intros H. now destruct (H env1 v).
  - rewrite (GN eq_refl). split; [|discriminate]. intros t. split.
    + intros [= <-] env' v T. destruct (TE env' v T) as (li & _ & [=]).
    + destruct t as [n|]; [|reflexivity]. intros (env' & v & lex & ty & T & _). destruct (TE env' v T) as (li & _ & [=]).
Qed.

(** The layouts used by a value are defined. *)
Lemma uses_defined {R} {CR : Cmp R} (reg : R -> option (layout R)) ref v ty : Conforms reg ref v -> Uses v ty -> reg ty <> None.
Proof.
  revert ref. induction v as [l|t ty' i IH|m ty' IH|l ty' IH|v] using typed_value_ind'; intros ref C U.
  - inversion U; subst. inversion C; subst; cbn [typed_value_type typed_literal_type] in *; congruence.
  - inversion U as [? ? E|? ? ? ? U'| |]; subst; [inversion C; subst; cbn [typed_value_type] in *; congruence|].
    inversion C; subst. eauto.
  - inversion U as [? ? E| |? ? ? ? ? I U'|]; subst; [inversion C; subst; cbn [typed_value_type] in *; congruence|].
    rewrite Forall_forall in IH. inversion C as [| | | | | |? ? ? ? ? ? HC ?| | | |]; subst. destruct (HC _ _ I) as (f & _ & C').
    exact (IH _ I _ C' U').
  - inversion U as [? ? E| | |? ? ? ? I U']; subst; [inversion C; subst; cbn [typed_value_type] in *; congruence|].
    rewrite Forall_forall in IH. inversion C as [| | | | | | | |? ? ? ? ? HC ?|? ? ? ? ? ? ? HC|? ? ? ? ? EL HC]; subst.
    + exact (IH _ I _ (HC _ I) U').
    + exact (IH _ I _ (HC _ I) U').
    + destruct (In_nth_error _ _ I) as [k K]. destruct (nth_error its k) as [it|] eqn:EI.
      * exact (IH _ I _ (HC _ _ _ EI K) U').
      * apply nth_error_None in EI. assert (k < length l) by (apply nth_error_Some; congruence). lia.
  - inversion U; subst. discriminate.
Qed.

Lemma document_state l b ex o b' ex' : document_with_extra l b ex = (o, (b', ex')) ->
  exists st', build_with_extra term_context l ((0, ex), b) = (o, ((st', ex'), b')).
Proof.
  unfold document_with_extra. destruct (build_with_extra term_context l (0, ex, b)) as [o' [[st' ex''] b'']]. intros [= -> -> ->].
  now exists st'.
Qed.

Context {CC : Cmp cbor}.

(** The conversion of a value whose layouts are those of the document: the items made from a layout have the tag that
    is written in the document for this layout. *)
Theorem C105_conversion (unsigned : string -> bool) l r b ex {E} fuel (m : layouts term) ref v c :
  document_with_extra l [] [] = (Ok r, (b, ex)) -> builder_build (E := E) fuel b = Ok m ->
  Conforms (layouts_get m) ref v ->
  (document_cbor unsigned m ex v = Ok c <->
   exists tag, Tagged tag v c /\ forall ty, Uses v ty ->
     exists l' env, inside l l' /\ described term_iri term_lit (fun r => bt_get r b) (fun r => bt_get r ex) env l' ty /\
       has_tag unsigned env l' (tag ty)).
Proof.
  intros D B C. destruct (document_state _ _ _ _ _ _ D) as [st' X].
  destruct (C105_described term_context l 0 [] [] r st' ex b X ltac:(constructor) ltac:(constructor) ltac:(reflexivity))
    as (_ & _ & N & Wb & _).
  destruct (C76_registry fuel b m Wb B) as [_ G].
  assert (U : forall ty, Uses v ty -> layouts_get m ty <> None /\
    exists l' env, inside l l' /\ described term_iri term_lit (fun r => bt_get r b) (fun r => bt_get r ex) env l' ty).
  { intros ty U. pose proof (uses_defined _ _ _ _ C U) as RD. split; [exact RD|]. specialize (G ty).
    destruct (bt_get ty b) as [p|] eqn:GB; [|contradiction]. destruct (N ty p GB) as [[=]|(l' & env & I & DD)].
    exists l', env. split; [exact I|]. revert DD. apply described_res.
    - intros i t [st <-]. reflexivity.
    - intros i t [st <-]. reflexivity. }
  unfold document_cbor. split.
  - intros H. pose proof (C69_tags_valid _ _ _ _ _ H) as T.
    set (tag := fun ty => match get_tag unsigned m ex ty with Ok t => t | _ => None end).
    assert (TT : forall ty, Uses v ty -> get_tag unsigned m ex ty = Ok (tag ty)).
    { intros ty U'. destruct (T ty U') as [t E']. unfold tag. now rewrite E'. }
    exists tag. split; [now apply (C69_tagged (Some (TmIri cbor_tag_iri)) (registry_properties m ex) unsigned tag v c TT)|]. intros ty U'. destruct (U ty U') as (RD & l' & env & I & DD).
    exists l', env. split; [exact I|]. split; [exact DD|]. apply (C105_tag unsigned _ _ _ _ m ex DD RD). now apply TT.
  - intros (tag & T & H). apply (C69_tagged _ _ _ tag); [|exact T]. intros ty U'. destruct (H ty U') as (l' & env & I & DD & HT).
    now apply (C105_tag unsigned _ _ _ _ m ex DD (proj1 (U ty U'))).
Qed.

(** With the layouts of the document, no layout is missing. *)
Theorem C105_defined (unsigned : string -> bool) l r b ex {E} fuel (m : layouts term) ref v ty :
  document_with_extra l [] [] = (Ok r, (b, ex)) -> builder_build (E := E) fuel b = Ok m ->
  Conforms (layouts_get m) ref v -> Uses v ty -> forall w, get_tag unsigned m ex ty <> Panic w.
Proof.
  intros D B C U. destruct (document_state _ _ _ _ _ _ D) as [st' X].
  destruct (C105_described term_context l 0 [] [] r st' ex b X ltac:(constructor) ltac:(constructor) ltac:(reflexivity))
    as (_ & _ & N & Wb & _).
  destruct (C76_registry fuel b m Wb B) as [_ G]. pose proof (uses_defined _ _ _ _ C U) as RD. specialize (G ty).
  destruct (bt_get ty b) as [p|] eqn:GB; [|contradiction]. destruct (N ty p GB) as [[=]|(l' & env & I & DD)].
  apply (C105_tag unsigned (fun r => bt_get r b) env l' ty m ex); [|exact RD]. revert DD. apply described_res.
  - intros i t [st <-]. reflexivity.
  - intros i t [st <-]. reflexivity.
Qed.
End Tag.

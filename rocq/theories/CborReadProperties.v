(** * Reading what is written in CBOR: C109 *)

From Coq Require Import String List Bool Arith NArith ZArith QArith Qcanon Permutation Sorted Lia.
Import ListNotations.
From Verif Require Import Base BaseProofs Orders ValueModel ValueProofs PatternModel MatchingModel MatchingSpec LayoutModel LayoutSpec HydrateModel HydrateSpec
  HydrateProofs HydrateSound HydrateDet HydrateComplete HydratePost HydrateProperties TermModel NumberModel NumberSpec NumberProofs NumberProperties JsonModel JsonSpec JsonProperties
  CborModel CborSpec CborProperties ExtraProperties AbsModel AbsMeaning AbsJsonModel DehydrateModel DehydrateSpec DehydrateProofs DehydrateFinish DehydrateProperties RoundTripSpec
  RoundTripProperties CliModel CliSpec CliData CliDataProperties CborReadModel CborReadSpec CborReadProofs.
Open Scope list_scope.
Open Scope nat_scope.

Section Values.
Context {R : Type} {CR : Cmp R} {IR : Interp R} {CC : Cmp cbor} {CL : CmpLaws cbor} {F : Type}.
Variables (from_f64 : F -> option Qc) (to_f64 : Qc -> F).
Variables (prop : option R) (extra : R -> option (list (R * R))) (unsigned : string -> bool).
Notation get_tag := (get_layout_tag prop extra unsigned).
Notation tagged := (tagged_cbor prop extra unsigned).

(** C109.  A typed value of which no layout is tagged is written, and read back without its types. *)
Theorem C109_values_partial (t : typed_value R) : typed_wf t -> UnitsAreUnit t -> value_wf (into_untyped t) ->
  Numbers (cbor_exact from_f64 to_f64) (into_untyped t) -> (forall ty, Uses t ty -> get_tag ty = Ok None) ->
  exists c s, tagged t = Ok c /\ cbor_read to_f64 c = Ok s /\ value_deserialize from_f64 s = Ok (into_untyped t) /\
    serde_depth s = value_depth (into_untyped t).
Proof.
  intros TW U W N NT. destruct (values_read from_f64 to_f64 _ W N) as (c & E & s & A & B & C). exists c, s.
  split; [|auto]. apply (C48_untagged prop extra unsigned t c NT). rewrite C48_cbor_partial by assumption. exact E.
Qed.

Lemma untyped_keys_read m ty : typed_wf (TMap m ty : typed_value R) -> value_wf (into_untyped (TMap m ty)) ->
  Numbers (cbor_exact from_f64 to_f64) (into_untyped (TMap m ty)) ->
  NoDup (map fst m) /\ (forall k t, In (k, t) m -> exists c, value_to_cbor k = Ok c /\ reads from_f64 to_f64 k c) /\
  forall k t, In (k, t) m -> value_wf (into_untyped t) /\ Numbers (cbor_exact from_f64 to_f64) (into_untyped t).
Proof.
  intros TW. inversion TW as [| |? ? S W'| |]; subst. rewrite into_untyped_map by exact S. intros W N.
  inversion W as [|? _ WV|]; subst. inversion N as [| |? NV|]; subst.
  assert (I : forall k t, In (k, t) m -> In (k, into_untyped t) (map (fun kv => (fst kv, into_untyped (snd kv))) m))
    by (intros k t H; apply in_map_iff; exists (k, t); auto).
  split; [now apply sorted_lt_NoDup|]. split; intros k t H; destruct (WV _ _ (I _ _ H)) as [A B], (NV _ _ (I _ _ H)) as [A' B'];
    [now apply values_read|auto].
Qed.

Lemma read_list_err l c : In c l -> cbor_read to_f64 c = Err tt -> cbor_read (F := F) to_f64 (CArray l) = Err tt.
Proof.
  intros I E. destruct (read_result to_f64 (CArray l)) as [(s & H)|H]; [|exact H]. cbn [cbor_read] in H.
  apply bind_Ok in H as (l' & T & _). apply traverse_Ok in T. destruct (AbsProofs.Forall2_In_l _ _ _ _ T I) as (s' & _ & E'). congruence.
Qed.
Lemma read_map_err m k c : In (k, c) m -> cbor_read to_f64 c = Err tt -> cbor_read (F := F) to_f64 (CMap m) = Err tt.
Proof.
  intros I E. destruct (read_result to_f64 (CMap m)) as [(s & H)|H]; [|exact H]. cbn [cbor_read] in H.
  apply bind_Ok in H as (l' & T & _). apply traverse_Ok in T. destruct (AbsProofs.Forall2_In_l _ _ _ _ T I) as (s' & _ & E').
  cbn [fst snd] in E'. rewrite E in E'. destruct (cbor_read to_f64 k); discriminate E'.
Qed.

(** With a tag, it is written, but it cannot be read, wherever the tag is. *)
Theorem C109_tagged (t : typed_value R) c ty n : typed_wf t -> value_wf (into_untyped t) ->
  Numbers (cbor_exact from_f64 to_f64) (into_untyped t) ->
  tagged t = Ok c -> Uses t ty -> get_tag ty = Ok (Some n) -> cbor_read (F := F) to_f64 c = Err tt.
Proof.
  revert c. induction t as [l|t ty' i IH|m ty' IH|l ty' IH|v] using typed_value_ind'; intros c TW W N E U T.
  - inversion U as [? ? E'| | |]; subst. assert (X : exists c', c = CTag n c').
    { destruct l; cbn in E'; injection E' as ->; cbn [tagged_cbor] in E;
        try (apply with_tag_Ok in E as (t' & T' & ->); rewrite T in T'; injection T' as <-; eexists; reflexivity).
      apply bind_Ok in E as (c' & _ & E). apply with_tag_Ok in E as (t' & T' & ->). rewrite T in T'. injection T' as <-. eexists; reflexivity. }
    destruct X as (c' & ->). reflexivity.
  - cbn [tagged_cbor] in E. apply bind_Ok in E as (c' & E & E2). apply with_tag_Ok in E2 as (t' & T' & ->).
    destruct t' as [n'|]; [reflexivity|]. cbn [tagged_item]. inversion TW; subst.
    inversion U as [? ? E'|? ? ? ? U'| |]; subst.
    + cbn in E'. injection E' as ->. congruence.
    + eapply IH; eauto.
  - destruct (untyped_keys_read m ty' TW W N) as (ND & KR & VR). cbn [tagged_cbor] in E. apply bind_Ok in E as (m' & E & E2).
    apply with_tag_Ok in E2 as (t' & T' & ->). destruct t' as [n'|]; [reflexivity|]. cbn [tagged_item].
    inversion U as [? ? E'| |? ? k t ? I U'|]; subst; [cbn in E'; injection E' as ->; congruence|].
    apply traverse_Ok in E.
    assert (F2 : Forall2 (fun e e' => value_to_cbor (fst e) = Ok (fst e') /\ tagged (snd e) = Ok (snd e')) m m').
    { eapply AbsMeaning.Forall2_impl; [|exact E]. cbv beta. intros [k0 t0] [k1 c1] H. cbn [fst snd] in *.
      apply bind_Ok in H as (x & X1 & H). apply bind_Ok in H as (y & Y1 & H). injection H as -> ->. apply no_error_Ok in X1. auto. }
    assert (ND' : NoDup (map fst m')).
    { clear - F2 ND KR. induction F2 as [|[k v] [ck cv] m m' [Ek _] F2 IHF]; cbn [map fst] in *; [constructor|].
      inversion ND as [|? ? NI ND0]; subst. constructor; [|apply IHF; [exact ND0|intros; eapply KR; right; eassumption]].
      intro I. apply NI. apply in_map_iff in I as ([ck' cv'] & Q & I). cbn [fst] in Q. subst ck'.
      destruct (AbsProofs.Forall2_In_r _ _ _ _ F2 I) as ([k' v'] & I' & Ek' & _). cbn [fst snd] in *.
      destruct (KR k v (or_introl eq_refl)) as (c1 & C1 & s1 & A1 & B1 & _), (KR k' v' (or_intror I')) as (c2 & C2 & s2 & A2 & B2 & _).
      assert (k' = k) by congruence. subst. apply in_map_iff. now exists (k, v'). }
    destruct (AbsProofs.Forall2_In_l _ _ _ _ F2 I) as ([k' c'] & I' & _ & Et). cbn [fst snd] in Et.
    apply (read_map_err _ k' c').
    + eapply Permutation_in; [apply Permutation_sym, bt_collect_perm; exact ND'|exact I'].
    + rewrite Forall_forall in IH. destruct (VR _ _ I) as [Wt Nt]. inversion TW as [| |? ? ? TW'| |]; subst.
      exact (IH _ I c' (TW' _ _ I) Wt Nt Et U' T).
  - cbn [tagged_cbor] in E. apply bind_Ok in E as (l' & E & E2). apply with_tag_Ok in E2 as (t' & T' & ->).
    destruct t' as [n'|]; [reflexivity|]. cbn [tagged_item].
    inversion U as [? ? E'| | |? ? t ? I U']; subst; [cbn in E'; injection E' as ->; congruence|].
    apply traverse_Ok in E. destruct (AbsProofs.Forall2_In_l _ _ _ _ E I) as (c' & I' & Et).
    apply (read_list_err _ c' I'). rewrite Forall_forall in IH. inversion TW as [| | |? ? TW'|]; subst. cbn [into_untyped] in W, N.
    inversion W as [| |? WV]; subst. inversion N as [| | |? NV]; subst.
    assert (J : In (into_untyped t) (map into_untyped l)) by now apply in_map.
    exact (IH _ I c' (TW' _ I) (WV _ J) (NV _ J) Et U' T).
  - inversion U; subst. discriminate.
Qed.

(** So it is read exactly when no layout is tagged. *)
Theorem C109_readable (t : typed_value R) c : typed_wf t -> UnitsAreUnit t -> value_wf (into_untyped t) ->
  Numbers (cbor_exact from_f64 to_f64) (into_untyped t) -> tagged t = Ok c ->
  ((exists s, cbor_read (F := F) to_f64 c = Ok s) <-> forall ty, Uses t ty -> get_tag ty = Ok None).
Proof.
  intros TW U W N E. split.
  - intros (s & H) ty HU. destruct (C69_tags_valid _ _ _ t c E ty HU) as ([n|] & T); [|exact T].
    rewrite (C109_tagged t c ty n TW W N E HU T) in H. discriminate H.
  - intro NT. destruct (C109_values_partial t TW U W N NT) as (c' & s & E' & H & _). exists s. congruence.
Qed.

(** The integers that do not fit: those of more than 64 bits are written with a tag; all are unreadable. *)
Theorem C109_integers n ty : (n < - 2 ^ 63 \/ 2 ^ 64 <= n)%Z -> get_tag ty = Ok None ->
  exists c, tagged (TLit (TNum (Q2Qc (inject_Z n)) ty)) = Ok c /\ cbor_read (F := F) to_f64 c = Err tt.
Proof.
  intros H T. destruct (Z.lt_ge_cases (Z.abs n) (2 ^ 64)) as [L|L].
  - exists (CInt n). cbn [tagged_cbor]. rewrite number_to_cbor_small by lia. cbn [no_error bind with_tag]. rewrite T. cbn [bind].
    split; [reflexivity|]. cbn [cbor_read]. rewrite (proj2 (Z.leb_gt 0 n) ltac:(lia)). now rewrite (proj2 (Z.leb_gt (- 2 ^ 63) n) ltac:(lia)).
  - eexists. cbn [tagged_cbor]. rewrite number_to_cbor_big by lia. cbn [no_error bind with_tag]. rewrite T. cbn [bind].
    split; reflexivity.
Qed.

(** The constant of a unit layout is lost. *)
Theorem C109_constant_refuted ty k : get_tag ty = Ok None -> k <> VLit LUnit ->
  exists c s, tagged (TLit (TUnit k ty)) = Ok c /\ cbor_read (F := F) to_f64 c = Ok s /\ value_deserialize from_f64 s = Ok (VLit LUnit) /\
    into_untyped (TLit (TUnit k ty) : typed_value R) = k /\ k <> VLit LUnit.
Proof.
  intros T K. exists CNull, SUnit. cbn [tagged_cbor with_tag]. rewrite T. cbn [bind]. repeat split. exact K.
Qed.
End Values.

(** ** Hydrated values *)
Section Hydrated.
Context {R : Type} {CR : Cmp R} {LR : CmpLaws R} {IR : Interp R} {X : Xsd}.
Variable reg : registry R.

Lemma conforms_units ref v : plain_units reg -> Conforms reg ref v -> UnitsAreUnit v.
Proof.
  intros PU. revert ref. induction v as [l|t ty' i IH|m ty' IH|l ty' IH|v] using typed_value_ind'; intros ref C.
  - inversion C as [|? ? k E| | | | | | | | |]; subst; try (apply uu_lit; discriminate). rewrite (PU _ _ _ E). constructor.
  - inversion C; subst. constructor. eauto.
  - inversion C as [| | | | | |? ? ? ? ? ? HC ?| | | |]; subst. constructor. intros k t I. rewrite Forall_forall in IH.
    destruct (HC _ _ I) as (f & _ & C'). exact (IH _ I _ C').
  - constructor. intros t I. rewrite Forall_forall in IH.
    inversion C as [| | | | | | | |? ? ? ? ? HC ?|? ? ? ? ? ? ? HC|? ? ? ? ? EL HC]; subst.
    + exact (IH _ I _ (HC _ I)).
    + exact (IH _ I _ (HC _ I)).
    + destruct (In_nth_error _ _ I) as [k K]. destruct (nth_error its k) as [it|] eqn:EI.
      * exact (IH _ I _ (HC _ _ _ EI K)).
      * apply nth_error_None in EI. assert (k < length l) by (apply nth_error_Some; congruence). lia.
  - constructor.
Qed.

Lemma hydrated_typed_wf (D : dataset R) G fuel g ref inputs v :
  enumerates D G -> registry_sorted reg ->
  hydrate_with D reg fuel g ref inputs = Ok v -> typed_wf v.
Proof.
  intros EN RS H.
  destruct (hydrate_sound D G reg EN RS fuel g ref inputs) as [S _]. apply S in H. clear S.
  revert g ref inputs v H.
  destruct (semantics_ind R CR IR X G reg false
    (fun g ref inputs v => typed_wf v)
    (fun _ _ _ => True)
    (fun g s vf v => typed_wf v)
    (fun _ _ _ => True) (fun _ _ _ => True)
    (fun g s fs m => forall k v, In (k, v) m -> typed_wf v)
    (fun _ _ _ => True)
    (fun g s its vs => forall v, In v vs -> typed_wf v)
    (fun _ _ _ => True)
    (fun g vf sols vs => forall v, In v vs -> typed_wf v)
    (fun g s node hd tl vs => forall v, In v vs -> typed_wf v)
    (fun _ _ _ _ _ => True) (fun _ _ _ => True) (fun _ _ _ => True)
    (fun g s i vs j v => typed_wf v)
    (fun _ _ _ _ => True)) as (I1 & _); [..|exact I1]; auto.
  all: try (intros; constructor; fail).
  - intros g ref inputs h fs s m [E _] _ F F1. constructor; [|exact F1].
    eapply Fields_sorted; eauto. apply (RS _ _ E).
  - intros; constructor; assumption.
  - intros g ref inputs h it s sols vals l [E _] _ _ _ _ H Pm SS. constructor.
    intros v I. apply H. eapply Permutation_in; [symmetry; eauto|auto].
  - intros; constructor; assumption.
  - intros; constructor; assumption.
  - intros g s k v [].
  - intros g s k f fs s' v m _ _ C _ F1 k' v' [[= <- <-]|I]; eauto.
  - intros g s v [].
  - intros g s it its s' v vs _ _ C _ H v' [<-|I]; auto.
  - intros g vf v [].
  - intros g vf s sols v vs _ C _ H v' [<-|I]; auto.
  - intros g s node tail v [].
  - intros g s node head tail s' v next vs _ _ _ C _ _ H v' [<-|I]; auto.
Qed.

Lemma conforms_wf ref v : plain_keys reg -> Conforms reg ref v -> typed_wf v -> (forall ref h c, reg ref = Some (UnitL h c) -> value_wf c) ->
  value_wf (into_untyped v).
Proof.
  intros PK C TW UW. revert ref C TW. induction v as [l|t ty' i IH|m ty' IH|l ty' IH|v] using typed_value_ind'; intros ref C TW.
  - inversion C as [|? ? k E| | | | | | | | |]; subst; try constructor. cbn [into_untyped literal_into_untyped]. eauto.
  - inversion C; subst. inversion TW; subst. cbn [into_untyped]. eauto.
  - inversion TW as [| |? ? S TW'| |]; subst. rewrite into_untyped_map by exact S.
    inversion C as [| | | | | |? ? fs ? E ? HC ?| | | |]; subst. constructor.
    + now rewrite untyped_keys.
    + intros k w I. apply in_map_iff in I as ([k0 t] & [= <- <-] & I). rewrite Forall_forall in IH.
      destruct (HC _ _ I) as (f & If & C'). split; [exact (PK _ _ _ _ _ E If)|]. exact (IH _ I _ C' (TW' _ _ I)).
  - cbn [into_untyped]. constructor. intros w J. apply in_map_iff in J as (t & <- & I). inversion TW as [| | |? ? TW'|]; subst. rewrite Forall_forall in IH.
    inversion C as [| | | | | | | |? ? ? ? ? HC ?|? ? ? ? ? ? ? HC|? ? ? ? ? EL HC]; subst.
    + exact (IH _ I _ (HC _ I) (TW' _ I)).
    + exact (IH _ I _ (HC _ I) (TW' _ I)).
    + destruct (In_nth_error _ _ I) as [k K]. destruct (nth_error its k) as [it|] eqn:EI.
      * exact (IH _ I _ (HC _ _ _ EI K) (TW' _ I)).
      * apply nth_error_None in EI. assert (k < length l) by (apply nth_error_Some; congruence). lia.
  - inversion C; subst. constructor.
Qed.
End Hydrated.

Section Same.
Variables (reg : registry term) (P : Qc -> Prop).
Lemma Same_numbers :
  (forall r v w, Same reg r v w -> Numbers P v -> Numbers P w) /\
  (forall fs m m', SameE reg fs m m' -> (forall k v, In (k, v) m -> Numbers P k /\ Numbers P v) ->
     forall k v, In (k, v) m' -> Numbers P k /\ Numbers P v) /\
  (forall rs l l', SameL reg rs l l' -> (forall v, In v l -> Numbers P v) -> forall v, In v l' -> Numbers P v).
Proof.
  apply Same_mutind.
  - auto.
  - intros r h fs m m' _ _ IH W. inversion W as [| |? W'|]; subst. constructor. auto.
  - intros r h its l l' _ _ IH W. inversion W; subst. constructor. auto.
  - intros r h it l l' l'' _ _ IH Pm W. inversion W; subst. constructor. intros v Hv. eapply IH; [eassumption|].
    eapply Permutation_in; [apply Permutation_sym, Pm|exact Hv].
  - intros r h node hd tl l l' _ _ IH W. inversion W; subst. constructor. auto.
  - auto.
  - auto.
  - intros fs k f v w m m' _ _ IH1 _ IH2 W k' v' [[= <- <-]|H]; [destruct (W k v (or_introl eq_refl)); auto|].
    apply IH2; [intros; apply W; now right|exact H].
  - auto.
  - intros r rs v w l l' _ IH1 _ IH2 W x [<-|H]; [apply IH1, W; now left|]. apply IH2; [intros; apply W; now right|exact H].
Qed.
Lemma Same_depth :
  (forall r v w, Same reg r v w -> value_depth v = value_depth w) /\
  (forall fs m m', SameE reg fs m m' ->
     map (fun e => Nat.max (value_depth (fst e)) (value_depth (snd e))) m = map (fun e => Nat.max (value_depth (fst e)) (value_depth (snd e))) m') /\
  (forall rs l l', SameL reg rs l l' -> map value_depth l = map value_depth l').
Proof.
  apply Same_mutind; cbn [value_depth map fst snd]; try congruence.
  intros r h it l l' l'' _ _ IH Pm. f_equal. rewrite IH. apply list_max_perm, Permutation_map, Pm.
Qed.
End Same.

(** ** On the command line *)
Section Cli.
Context {TS : TextSyntax} {IS : IriSyntax} {AE : AbsExternal} {X : Xsd} {CC : Cmp cbor} {CL : CmpLaws cbor} {F : Type} {FM : Formats F}.
Variables (from_f64 : F -> option Qc) (to_f64 : Qc -> F).
Variable index : list (quad term) -> dataset term.
Variable order : list (quad res) -> list (quad res).
Variable lines : list (quad term) -> list (quad term).
Variable extra_properties : term -> option (list (term * term)).
Variable is_unsigned_long : string -> bool.
Notation run_command_with := (run_command from_f64 to_f64 index order lines extra_properties is_unsigned_long).
Notation get_tag := (get_layout_tag (Some (TmIri "https://schema.treeldr.org/cbor#tag")) extra_properties is_unsigned_long).
Hypothesis FL : format_laws to_f64.
Hypothesis VL : value_laws to_f64.
Hypothesis DL : dataset_laws index order lines.

Lemma write_typed_back tv pretty : typed_wf tv -> UnitsAreUnit tv -> value_wf (into_untyped tv) ->
  Numbers (cbor_exact from_f64 to_f64) (into_untyped tv) -> value_depth (into_untyped tv) < 128 ->
  (forall ty, Uses tv ty -> get_tag ty = Ok None) ->
  exists text, write_typed extra_properties is_unsigned_long Cbor tv pretty = Ok text /\ holds from_f64 Cbor text (into_untyped tv).
Proof.
  intros TW U W N D NT. cbn [write_typed].
  destruct (C109_values_partial from_f64 to_f64 _ _ _ tv TW U W N NT) as (c & s & -> & A & B & E). cbn [map_err bind].
  eexists. split; [reflexivity|]. exists s. split; [|exact B]. apply (value_reads_back _ VL _ _ A). now rewrite E.
Qed.

(** Hydrating to CBOR: the text holds the value that hydrating gives. *)
Theorem C109_hydrate_partial fuel r subjects pretty reg d stdin ds tv : registry_sorted reg -> plain_units reg -> plain_keys reg ->
  (forall ty, reg ty <> None -> get_tag ty = Ok None) ->
  rdf_load stdin = Ok ds -> hydrate (index ds) reg fuel r subjects = Ok tv ->
  Numbers (cbor_exact from_f64 to_f64) (into_untyped tv) -> value_depth (into_untyped tv) < 128 ->
  exists text, run_command_with stdin fuel (Hydrate Cbor (Some r) subjects pretty) reg d = Ok text /\
    holds from_f64 Cbor text (into_untyped tv).
Proof.
  intros RS PU PK NT L HY N D. cbn [run_command default_get bind]. rewrite L. cbn [bind]. rewrite HY. cbn [map_err bind].
  assert (ND : NoDup ds).
  { unfold rdf_load in L. destruct (nquads_parse stdin) as [qs|]; [|discriminate L]. cbn [ok_or bind] in L. injection L as <-.
    apply ds_insert_all_NoDup. constructor. }
  assert (EN := index_all _ _ _ DL ds ND).
  assert (TW := hydrated_typed_wf reg _ _ _ _ _ _ _ EN RS HY). assert (C := C14_conforms _ _ _ _ _ _ _ _ EN RS HY).
  apply write_typed_back; auto.
  - exact (conforms_units reg _ _ PU C).
  - apply (conforms_wf reg _ _ PK C TW). intros r0 h c E. rewrite (PU _ _ _ E). constructor.
  - intros ty U. apply NT. exact (uses_defined reg _ _ _ C U).
Qed.

(** If a layout of the value has a tag, the text does not hold any value for the other commands. *)
Theorem C109_hydrate_tagged fuel r subjects pretty reg d stdin ds tv ty n text : registry_sorted reg -> plain_keys reg ->
  (forall r h c, reg r = Some (UnitL h c) -> value_wf c) ->
  rdf_load stdin = Ok ds -> hydrate (index ds) reg fuel r subjects = Ok tv ->
  Numbers (cbor_exact from_f64 to_f64) (into_untyped tv) ->
  Uses tv ty -> get_tag ty = Ok (Some n) ->
  run_command_with stdin fuel (Hydrate Cbor (Some r) subjects pretty) reg d = Ok text ->
  (forall v, ~ holds from_f64 Cbor text v) /\
  forall fuel' reg' d', (forall layout, exists e, run_command_with text fuel' (Dehydrate Cbor (Some layout)) reg' d' = Err e) /\
    forall f pretty', exists e, run_command_with text fuel' (ConvertTree Cbor f pretty') reg' d' = Err e.
Proof.
  intros RS PK UW L HY N U T. cbn [run_command default_get bind]. rewrite L. cbn [bind]. rewrite HY. cbn [map_err bind].
  assert (ND : NoDup ds).
  { unfold rdf_load in L. destruct (nquads_parse stdin) as [qs|]; [|discriminate L]. cbn [ok_or bind] in L. injection L as <-.
    apply ds_insert_all_NoDup. constructor. }
  assert (EN := index_all _ _ _ DL ds ND).
  assert (TW := hydrated_typed_wf reg _ _ _ _ _ _ _ EN RS HY). assert (C := C14_conforms _ _ _ _ _ _ _ _ EN RS HY).
  assert (W := conforms_wf reg _ _ PK C TW UW).
  cbn [write_typed]. intro H.
  destruct (tagged_cbor (Some (TmIri "https://schema.treeldr.org/cbor#tag")) extra_properties is_unsigned_long tv) as [c| | |] eqn:E; try discriminate H.
  injection H as <-. assert (NP := value_refused _ VL _ (C109_tagged from_f64 to_f64 _ _ _ tv c ty n TW W N E U T)). split.
  - intros v (s & P & _). congruence.
  - intros fuel' reg' d'. cbn [run_command default_get bind tree_load]. rewrite NP. cbn [ok_or bind]. split; intros; eexists; reflexivity.
Qed.

(** C88, to CBOR: dehydrate, then hydrate what was written to CBOR. *)
Theorem C88_cbor_partial fuel f r v reg d d' stdin text : tree_registry reg -> plain_units reg -> decimals_read_back X ->
  (forall ty, reg ty <> None -> get_tag ty = Ok None) ->
  Proper reg r v -> distinct_identifiers reg r v -> not_terminators reg r v -> ~ leaf reg r ->
  holds from_f64 f stdin v -> Numbers (cbor_exact from_f64 to_f64) v -> value_depth v < 128 ->
  run_command_with stdin fuel (Dehydrate f (Some r)) reg d = Ok text ->
  exists subject w N, (subject = TmBlank "input0" \/ exists i ids, Identifiers reg r v ids /\ In i ids /\ subject = TmIri i) /\
    Same reg r v w /\
    forall fuel' pretty, N <= fuel' -> exists text',
      run_command_with text fuel' (Hydrate Cbor (Some r) [subject] pretty) reg d' = Ok text' /\ holds from_f64 Cbor text' w.
Proof.
  intros TR PU DR NTG HP DI NT NL HO NU DE0. pose proof (holds_wf _ _ _ _ HO) as W. apply holds_load in HO. cbn [run_command default_get bind]. rewrite HO. cbn [bind].
  destruct (dehydrate order reg fuel v r default_options) as [[ds vals]| | |] eqn:DE; try discriminate. cbn [map_err bind fst]. intros [= <-].
  destruct (load_written to_f64 index order lines FL DL ds) as (ds' & L & ND & DS).
  assert (BI : blank_identifiers default_options).
  { split; intro n; [eexists; reflexivity|]. rewrite default_generated. eexists. reflexivity. }
  assert (EN : enumerates (index ds') (fun q => In q ds)).
  { intro p. destruct (index_all _ _ _ DL ds' ND p) as [A B]. split; [exact A|]. intro q. rewrite (B q), DS. reflexivity. }
  destruct (C30_round_trip_partial default_options reg order (order_all _ _ _ DL) fuel v r ds vals (index ds')
    TR HP DI NT BI default_options_fresh DR DE EN) as (tv & N & HY & SA).
  assert (RS := tree_sorted reg TR).
  assert (TW := hydrated_typed_wf reg _ _ _ _ _ _ _ EN RS (HY N (le_n N))). assert (C := C14_conforms _ _ _ _ _ _ _ _ EN RS (HY N (le_n N))).
  assert (WB : forall pretty, exists text, write_typed extra_properties is_unsigned_long Cbor tv pretty = Ok text /\ holds from_f64 Cbor text (into_untyped tv)).
  { intro pretty. apply write_typed_back; [exact TW|exact (conforms_units reg _ _ PU C)|exact (proj1 (Same_wf reg) _ _ _ SA W)
     |exact (proj1 (Same_numbers reg _) _ _ _ SA NU)|now rewrite <- (proj1 (Same_depth reg) _ _ _ SA)|].
    intros ty U. apply NTG. exact (uses_defined reg _ _ _ C U). }
  assert (ROOT := dehydrated_root default_options reg order (order_all _ _ _ DL) fuel v r ds vals TR HP NL DE).
  assert (X1 : exists subject, vals = [subject] /\ (subject = TmBlank "input0" \/ exists i ids, Identifiers reg r v ids /\ In i ids /\ subject = TmIri i)).
  { destruct ROOT as [->|(i & ids & HI & Hi & ->)]; [exists (TmBlank "input0"); split; [reflexivity|now left]|]. exists (TmIri i). split; [reflexivity|]. right. eauto. }
  destruct X1 as (subject & -> & SU). exists subject, (into_untyped tv), N. split; [exact SU|]. split; [exact SA|]. intros fuel' pretty LE.
  rewrite L. cbn [bind]. rewrite (HY fuel' LE : hydrate (index ds') reg fuel' r [subject] = Ok tv). cbn [map_err bind].
  apply WB.
Qed.
End Cli.

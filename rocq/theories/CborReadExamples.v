(** * Reading what is written in CBOR: cases and assumptions *)

From Coq Require Import String Ascii List Bool Arith NArith ZArith QArith Qcanon Permutation Sorted Lia.
From stdpp Require countable strings.
Import ListNotations.
From Verif Require Import Base BaseProofs Orders ValueModel ValueProofs PatternModel MatchingModel MatchingSpec MatchingProofs LayoutModel LayoutSpec HydrateModel HydrateSpec
  HydrateProperties TermModel NumberModel NumberSpec NumberProofs NumberProperties JsonModel JsonSpec JsonProperties
  CborModel CborSpec CborProperties AbsModel AbsJsonModel DehydrateModel DehydrateSpec RoundTripSpec
  CliModel CliSpec CliData CliDataProperties CliCodec CliExamples CborReadModel CborReadSpec CborReadProofs CborReadProperties.
Open Scope list_scope.
Open Scope nat_scope.
Open Scope string_scope.
Local Existing Instances cli_text cli_iris cli_external cli_xsd.

(** An order on the items: that of their codes. *)
Fixpoint cbor_tree (c : cbor) : stree :=
  match c with
  | CNull => snode 0 []
  | CBool b => snode (if b then 1 else 2) []
  | CInt z => stip (inl (inl z))
  | CFloat q => stip (inr (inl q))
  | CText s => stip (inr (inr s))
  | CBytes s => snode 3 [stip (inr (inr s))]
  | CArray l => snode 4 (map cbor_tree l)
  | CMap m => snode 5 (map (fun e => snode 0 [cbor_tree (fst e); cbor_tree (snd e)]) m)
  | CTag t c => snode 6 [stip (inl (inr (Z.of_N t))); cbor_tree c]
  end.
Fixpoint tree_cbor (t : stree) : cbor :=
  match t with
  | countable.GenLeaf (inl (inl n)) => CInt n
  | countable.GenLeaf (inr (inl q)) => CFloat q
  | countable.GenLeaf (inr (inr s)) => CText s
  | countable.GenNode 1 _ => CBool true
  | countable.GenNode 2 _ => CBool false
  | countable.GenNode 3 (countable.GenLeaf (inr (inr s)) :: _) => CBytes s
  | countable.GenNode 4 l => CArray (map tree_cbor l)
  | countable.GenNode 5 l =>
      CMap (map (fun t => match t with
                          | countable.GenNode _ (k :: t' :: _) => (tree_cbor k, tree_cbor t')
                          | _ => (CNull, CNull)
                          end) l)
  | countable.GenNode 6 (countable.GenLeaf (inl (inr n)) :: c :: _) => CTag (Z.to_N n) (tree_cbor c)
  | _ => CNull
  end.
Lemma tree_cbor_tree : forall c, tree_cbor (cbor_tree c) = c.
Proof.
  fix IH 1. intros [|b|z|q|s|s|l|m|t c]; try reflexivity; cbn [cbor_tree tree_cbor].
  - destruct b; reflexivity.
  - f_equal. induction l as [|c l IHl]; [reflexivity|]. cbn [map]. now rewrite IH, IHl.
  - f_equal. induction m as [|[k c] m IHm]; [reflexivity|]. cbn [map fst snd]. now rewrite !IH, IHm.
  - now rewrite N2Z.id, IH.
Qed.
Definition cbor_code (c : cbor) : positive := countable.encode (cbor_tree c).
Lemma cbor_code_inj c c' : cbor_code c = cbor_code c' -> c = c'.
Proof.
  unfold cbor_code. intro E. rewrite <- (tree_cbor_tree c), <- (tree_cbor_tree c'). f_equal.
  assert (Some (cbor_tree c) = Some (cbor_tree c')); [|congruence].
  rewrite <- (countable.decode_encode (cbor_tree c)), <- (countable.decode_encode (cbor_tree c')). now rewrite E.
Qed.
Local Instance cbor_order : Cmp cbor := fun c c' => Pos.compare (cbor_code c) (cbor_code c').
Local Instance cbor_order_laws : CmpLaws cbor.
Proof.
  split.
  - intros a b. unfold cmp, cbor_order. rewrite Pos.compare_eq_iff. split; [apply cbor_code_inj|congruence].
  - intros a b. unfold cmp, cbor_order. apply Pos.compare_antisym.
  - intros a b c. unfold cmp, cbor_order. rewrite !Pos.compare_lt_iff. apply Pos.lt_trans.
Qed.

Lemma codec_value_laws : value_laws (fun q : Qc => q).
Proof.
  split.
  - intros c s H _. unfold cbor_parse, cbor_value_print, codec. rewrite H, dec_enc. cbn [option_map]. now rewrite tree_serde_tree.
  - intros c H. unfold cbor_parse, cbor_value_print, codec. rewrite H. vm_compute. reflexivity.
Qed.

(** A record with a list, a number that is not an integer, a negative one and a key which is a number. *)
Definition bag : typed_value term :=
  TMap [(VLit (LNum (Q2Qc (7 # 1))), TList [TLit (TNum (Q2Qc (-3 # 1)) (TmIri "n")); TLit (TNum (Q2Qc (1 # 2)) (TmIri "n"))] (TmIri "l"));
        (text_of "a", TVariant (TLit (TBytes "x" (TmIri "b"))) (TmIri "v") 0);
        (text_of "b", TLit (TUnit (VLit LUnit) (TmIri "u")))] (TmIri "r").
Lemma bag_wf : typed_wf bag.
Proof.
  constructor; [repeat constructor; vm_compute; reflexivity|]. intros k t H. cbn [In] in H.
  repeat (destruct H as [H|H]; [injection H as <- <-; repeat constructor|]); [|contradiction].
  intros t H. cbn [In] in H. repeat (destruct H as [<-|H]; [constructor|]). contradiction.
Qed.
Lemma bag_units : UnitsAreUnit bag.
Proof.
  constructor. intros k t H. cbn [In] in H.
  destruct H as [H|[H|[H|[]]]]; injection H as <- <-.
  - constructor. intros t H. cbn [In] in H. repeat (destruct H as [<-|H]; [apply uu_lit; discriminate|]). contradiction.
  - constructor. apply uu_lit. discriminate.
  - constructor.
Qed.
Lemma bag_value : into_untyped bag =
  VMap [(VLit (LNum (Q2Qc (7 # 1))), VList [VLit (LNum (Q2Qc (-3 # 1))); VLit (LNum (Q2Qc (1 # 2)))]);
        (text_of "a", VLit (LBytes "x")); (text_of "b", VLit LUnit)].
Proof. unfold bag. rewrite into_untyped_map; [reflexivity|repeat constructor; vm_compute; reflexivity]. Qed.
Lemma bag_value_wf : value_wf (into_untyped bag).
Proof.
  rewrite bag_value. constructor; [repeat constructor; vm_compute; reflexivity|]. intros k t H. cbn [In] in H.
  repeat (destruct H as [H|H]; [injection H as <- <-; split; repeat constructor|]); [|contradiction].
  intros t H. cbn [In] in H. repeat (destruct H as [<-|H]; [constructor|]). contradiction.
Qed.
Lemma bag_numbers : Numbers (cbor_exact (Some : Qc -> option Qc) (fun q => q)) (into_untyped bag).
Proof.
  assert (T : forall s, Numbers (cbor_exact (Some : Qc -> option Qc) (fun q => q)) (text_of s)) by (intro; apply nu_lit; discriminate).
  assert (Z : forall n, (n <> 0 -> - 2 ^ 63 <= n < 2 ^ 64 -> Numbers (cbor_exact (Some : Qc -> option Qc) (fun q => q)) (VLit (LNum (Q2Qc (inject_Z n)))))%Z)
    by (intros n A B; apply nu_num; left; exists n; auto).
  rewrite bag_value. constructor. intros k v H. destruct H as [H|[H|[H|[]]]]; injection H as <- <-; (split; [first [apply T|apply (Z 7%Z); lia]|]).
  - constructor. intros v [<-|[<-|[]]]; [apply (Z (-3)%Z); lia|]. apply nu_num. right. split; [|reflexivity].
    intros n E. apply (f_equal this) in E. cbn [this Q2Qc] in E. vm_compute (Qred (1 # 2)) in E. assert (D : (1 # 2 == inject_Z n)%Q) by (rewrite E; apply Qred_correct).
    unfold Qeq in D. cbn [Qnum Qden inject_Z] in D. lia.
  - apply nu_lit. discriminate.
  - apply nu_lit. discriminate.
Qed.
Definition no_tags : term -> option (list (term * term)) := fun _ => Some [].
Definition tag_property : term := TmIri "https://schema.treeldr.org/cbor#tag".
Definition tag_on (r : term) : term -> option (list (term * term)) := fun r' =>
  Some (if eqb r r' then [(tag_property, TmLit (RdfLiteral "1000" (TypeAny "unsigned")))] else []).
Definition is_unsigned (ty : string) : bool := String.eqb ty "unsigned".

Example bag_back : exists c s, tagged_cbor (Some tag_property) no_tags is_unsigned bag = Ok c /\
  cbor_read (fun q => q) c = Ok s /\ value_deserialize (Some : Qc -> option Qc) s = Ok (into_untyped bag) /\ serde_depth s = 2.
Proof.
  destruct (C109_values_partial Some (fun q => q) (Some tag_property) no_tags is_unsigned bag bag_wf bag_units bag_value_wf bag_numbers (fun _ _ => eq_refl))
    as (c & s & A & B & C & D). exists c, s. rewrite D, bag_value at 1. auto.
Qed.

(** With a tag on the numbers: it is written, but not read. *)
Theorem C109_tag_refuted : exists (t : typed_value term) extra unsigned c,
  typed_wf t /\ UnitsAreUnit t /\ value_wf (into_untyped t) /\ Numbers (cbor_exact (Some : Qc -> option Qc) (fun q => q)) (into_untyped t) /\
  tagged_cbor (Some tag_property) extra unsigned t = Ok c /\ cbor_read (F := Qc) (fun q => q) c = Err tt.
Proof.
  exists bag, (tag_on (TmIri "n")), is_unsigned.
  destruct (tagged_cbor (Some tag_property) (tag_on (TmIri "n")) is_unsigned bag) as [c| | |] eqn:E; [|exfalso; vm_compute in E; discriminate E..].
  exists c. split; [exact bag_wf|]. split; [exact bag_units|]. split; [exact bag_value_wf|]. split; [exact bag_numbers|]. split; [reflexivity|].
  apply (C109_tagged Some (fun q => q) (Some tag_property) (tag_on (TmIri "n")) is_unsigned bag c (TmIri "n") 1000%N bag_wf bag_value_wf bag_numbers E).
  - eapply us_map; [now left|]. eapply us_list; [now left|]. now apply us_type.
  - vm_compute. reflexivity.
Qed.

(** On the command line, with the files of [CliExamples.v]: the value comes back through CBOR if no layout is tagged. *)
Notation command_cbor ex := (run_command (F := Qc) Some (fun q => q) list_dataset keep keep ex is_unsigned).
Lemma sample_plain_units : plain_units sample_registry.
Proof.
  intros r h c H. apply sample_get in H as [(-> & E)|[(-> & E)|[(-> & E)|(p & -> & E)]]]; try discriminate E.
  destruct p; try discriminate E. injection E. auto.
Qed.
Lemma sample_plain_keys : plain_keys sample_registry.
Proof.
  intros r h fs k f H I. apply sample_get in H as [(-> & E)|[(-> & E)|[(-> & E)|(p & -> & E)]]]; try discriminate E.
  - injection E as _ ->. cbn [fields_of map In] in I. repeat (destruct I as [I|I]; [injection I as <- _; constructor|]). contradiction.
  - injection E as _ ->. cbn [fields_of map In] in I. repeat (destruct I as [I|I]; [injection I as <- _; constructor|]). contradiction.
  - destruct p; discriminate E.
Qed.
Lemma sample_fits : Numbers (cbor_exact (Some : Qc -> option Qc) (fun q => q)) sample_value.
Proof.
  assert (T : forall s, Numbers (cbor_exact (Some : Qc -> option Qc) (fun q => q)) (text_of s)) by (intro; apply nu_lit; discriminate).
  apply nu_map. intros k v [H|[H|[H|[]]]]; injection H as <- <-; (split; [apply T|]); try apply T.
  - apply nu_num. left. exists 36%Z. split; [discriminate|]. split; [lia|reflexivity].
  - apply nu_map. intros k v [H|[]]. injection H as <- <-. split; apply T.
Qed.
Example sample_cbor_round_trip : exists subject w N,
  (subject = TmBlank "input0" \/ exists i ids, Identifiers sample_registry t_person sample_value ids /\ In i ids /\ subject = TmIri i) /\
  Same sample_registry t_person sample_value w /\
  forall fuel' pretty, N <= fuel' -> exists text',
    command_cbor no_tags sample_text fuel' (Hydrate Cbor (Some t_person) [subject] pretty) sample_registry DefaultNone = Ok text' /\
    holds (Some : Qc -> option Qc) Cbor text' w.
Proof.
  assert (NL : ~ leaf sample_registry t_person) by (vm_compute; intros []).
  assert (DR : decimals_read_back cli_xsd) by (intros n s0; apply decimal_parse_print).
  assert (E : command_cbor no_tags sample_input 9 (Dehydrate Json (Some t_person)) sample_registry DefaultNone = Ok sample_text)
    by (vm_compute; reflexivity).
  exact (C88_cbor_partial Some (fun q => q) list_dataset keep keep no_tags is_unsigned codec_laws codec_value_laws keep_laws
    9 Json t_person sample_value sample_registry DefaultNone DefaultNone sample_input sample_text
    sample_tree sample_plain_units DR (fun _ _ => eq_refl) sample_proper sample_distinct sample_terminators NL sample_holds sample_fits
    ltac:(vm_compute; lia) E).
Qed.

(** With a tag on the addresses: hydrating succeeds, but the text is refused by the other commands. *)
Example sample_cbor_tagged : exists text,
  command_cbor (tag_on t_address) sample_text 9 (Hydrate Cbor (Some t_person) [TmBlank "input0"] false) sample_registry DefaultNone = Ok text /\
  (forall v, ~ holds (Some : Qc -> option Qc) Cbor text v) /\
  forall fuel f, exists e, command_cbor (tag_on t_address) text fuel (ConvertTree Cbor f false) sample_registry DefaultNone = Err e.
Proof.
  destruct (command_cbor (tag_on t_address) sample_text 9 (Hydrate Cbor (Some t_person) [TmBlank "input0"] false) sample_registry DefaultNone)
    as [text| | |] eqn:E; [|exfalso; vm_compute in E; discriminate E..].
  exists text. split; [reflexivity|].
  destruct (rdf_load (F := Qc) sample_text) as [ds| | |] eqn:L; [|exfalso; vm_compute in L; discriminate L..].
  destruct (hydrate (list_dataset ds) sample_registry 9 t_person [TmBlank "input0"]) as [tv| | |] eqn:HY;
    [|exfalso; vm_compute in L; injection L as <-; vm_compute in HY; discriminate HY..].
  assert (V : into_untyped tv = sample_value).
  { vm_compute in L. injection L as <-. vm_compute in HY. injection HY as <-. vm_compute. reflexivity. }
  assert (U : Uses tv t_address).
  { vm_compute in L. injection L as <-. vm_compute in HY. injection HY as <-. eapply us_map; [right; now left|]. now apply us_type. }
  assert (UW : forall r h c, sample_registry r = Some (UnitL h c) -> value_wf c).
  { intros r h c H. rewrite (sample_plain_units _ _ _ H). constructor. }
  destruct (C109_hydrate_tagged Some (fun q => q) list_dataset keep keep (tag_on t_address) is_unsigned codec_value_laws keep_laws
    9 t_person [TmBlank "input0"] false sample_registry DefaultNone sample_text ds tv t_address 1000%N text
    (RoundTripProperties.tree_sorted _ sample_tree) sample_plain_keys UW L HY ltac:(rewrite V; exact sample_fits) U ltac:(vm_compute; reflexivity) E) as [A B].
  split; [exact A|]. intros fuel f. exact (proj2 (B fuel sample_registry DefaultNone) f false).
Qed.
Example sample_cbor_hydrate : exists text,
  command_cbor no_tags sample_text 9 (Hydrate Cbor (Some t_person) [TmBlank "input0"] false) sample_registry DefaultNone = Ok text /\
  holds (Some : Qc -> option Qc) Cbor text sample_value.
Proof.
  destruct (rdf_load (F := Qc) sample_text) as [ds| | |] eqn:L; [|exfalso; vm_compute in L; discriminate L..].
  destruct (hydrate (list_dataset ds) sample_registry 9 t_person [TmBlank "input0"]) as [tv| | |] eqn:HY;
    [|exfalso; vm_compute in L; injection L as <-; vm_compute in HY; discriminate HY..].
  assert (V : into_untyped tv = sample_value).
  { vm_compute in L. injection L as <-. vm_compute in HY. injection HY as <-. vm_compute. reflexivity. }
  rewrite <- V. apply (C109_hydrate_partial Some (fun q => q) list_dataset keep keep no_tags is_unsigned codec_value_laws keep_laws
    9 t_person [TmBlank "input0"] false sample_registry DefaultNone sample_text ds tv
    (RoundTripProperties.tree_sorted _ sample_tree) sample_plain_units sample_plain_keys (fun _ _ => eq_refl) L HY).
  - rewrite V. exact sample_fits.
  - rewrite V. vm_compute. lia.
Qed.

Print Assumptions C88_cbor_partial.
Print Assumptions C109_values_partial.
Print Assumptions C109_tagged.
Print Assumptions C109_readable.
Print Assumptions C109_integers.
Print Assumptions C109_hydrate_partial.
Print Assumptions C109_hydrate_tagged.
Print Assumptions C109_tag_refuted.
Print Assumptions C109_constant_refuted.

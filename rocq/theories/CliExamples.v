(** * The command line: cases and assumptions *)

From Coq Require Import String Ascii List Bool Arith NArith ZArith QArith Qcanon Permutation Sorted Lia.
Import ListNotations.
From Verif Require Import Base BaseProofs Orders PatternModel MatchingModel MatchingSpec MatchingProofs ValueModel LayoutModel HydrateModel
  TermModel DehydrateModel DehydrateFinish JsonModel JsonSpec JsonProperties NumberSpec AbsModel AbsSpec AbsJsonModel AbsJsonSpec AbsJsonProperties AbsAcceptSpec AbsAccept
  RoundTripSpec CborModel GenSpec CodeGenModel PreludeModel PreludeSpec PreludeProperties
  CliModel CliSpec CliProofs CliMono CliProperties CliData CliDataProperties CliCodec.
Open Scope list_scope.
Open Scope nat_scope.
Open Scope string_scope.
Local Instance cli_text : TextSyntax := {|
  blank_suffix := fun s => match s with String "_" (String ":" (String c s)) => Some (String c s) | _ => None end;
  is_iri_ref := fun s => match iri_scheme s with Some _ => true | None => false end;
  is_lang_tag := fun _ => true;
  chars := fun s => map N_of_ascii (list_ascii_of_string s)
|}.
Local Instance cli_iris : IriSyntax := fun s => match iri_scheme s with Some _ => true | None => false end.
Local Instance cli_external : AbsExternal := {|
  iri_resolved := fun b r => String.append b r;
  decimal_type_of := fun _ => "";
  decimal_lexical_of := fun _ => ""
|}.
Definition person_doc : json :=
  JObj [("type", JStr "record"); ("id", JStr "http://e.org/Person");
    ("fields", JObj [
      ("name", JObj [("required", JBool true); ("value", JStr "https://treeldr.org/prelude#string"); ("property", JStr "http://e.org/name")]);
      ("age", JObj [("value", JStr "https://treeldr.org/prelude#u8"); ("property", JStr "http://e.org/age")]);
      ("home", JObj [("value", JStr "http://e.org/Address"); ("property", JStr "http://e.org/home")])])].
Definition address_doc : json :=
  JObj [("type", JStr "record"); ("id", JStr "http://e.org/Address");
    ("fields", JObj [("city", JObj [("required", JBool true); ("value", JObj [("type", JStr "string")]); ("property", JStr "http://e.org/city")])])].
Definition person_text : string := json_print true person_doc.
Definition cli_file (name : string) : option string :=
  if String.eqb name "person.json" then Some person_text
  else if String.eqb name "address.json" then Some (json_print false address_doc)
  else if String.eqb name "not-json" then Some "?"
  else None.
(** The integers, with the datatypes of the prelude. *)
Local Instance cli_xsd : Xsd := {|
  is_decimal_type := fun ty => existsb (fun n => String.eqb ty (xsd_name n))
    ["integer"; "unsignedByte"; "unsignedShort"; "unsignedInt"; "unsignedLong"; "byte"; "short"; "int"; "long"];
  decimal_parse := @decimal_parse xsd_integers;
  decimal_print := @decimal_print xsd_integers
|}.
Local Instance cli_cbor : Cmp cbor := fun _ _ => Eq.

Definition keep {A} (l : list A) : list A := l.
Notation run_sample := (run (F := Qc) false (fun _ => None) Some (fun q => q) list_dataset keep keep (fun _ => None) (fun _ => false) cli_file).
Notation command_sample := (run_command (F := Qc) Some (fun q => q) list_dataset keep keep (fun _ => None) (fun _ => false)).

Example sample_values : scalar_values.
Proof.
  intro s. unfold chars, cli_text. apply Forall_forall. intros c H. apply in_map_iff in H as (a & <- & _).
  destruct a as [[] [] [] [] [] [] [] []]; reflexivity.
Qed.
Example sample_presets : preset_syntax.
Proof. intro p. destruct p; split; reflexivity. Qed.

(** The files, in any order, included or not; twice the same file is refused. *)
Example sample_runs : run_sample "" 9 (Args ["person.json"] ["address.json"] false None) = Ok "".
Proof. vm_compute. reflexivity. Qed.
Example sample_acceptable : acceptable cli_file ["person.json"; "address.json"].
Proof. exact (C86_rejects _ _ _ _ _ _ _ _ _ _ _ _ _ _ sample_runs). Qed.
Example sample_any_order : exists N, forall fuel, N <= fuel ->
  run_sample "" fuel (Args [] ["address.json"; "person.json"] true None) = Ok "".
Proof.
  apply C86_accepts; [exact sample_values|]. eapply C86_order; [|exact sample_acceptable]. apply (Permutation_rev ["person.json"; "address.json"]).
Qed.
Example sample_refused :
  run_sample "" 9 (Args ["person.json"] ["person.json"] false None) = Err (CliLayoutBuild LayoutRedefinition) /\
  run_sample "" 9 (Args ["missing"] [] false None) = Err CliIO /\
  run_sample "" 9 (Args ["not-json"] [] false None) = Err CliJsonSyntax.
Proof. vm_compute. repeat split. Qed.
Lemma ok_some {A} (x y : A) : ok_or CliIO (Some x) = Ok y -> y = x.
Proof. intros [= <-]. reflexivity. Qed.
Lemma person_twice : exists r m n, load_layout 9 person_text [] 0 = Ok (r, m, n) /\ forall fuel x, load_layout fuel person_text m n <> Ok x.
Proof. eexists. eexists. eexists. split; [vm_compute; reflexivity|]. intros fuel x. vm_compute. discriminate. Qed.
Example sample_not_acceptable : ~ acceptable cli_file ["person.json"; "person.json"].
Proof.
  intro A. apply (C86_accepts false (fun _ => None) Some (fun q => q) list_dataset keep keep (fun _ => None) (fun _ => false) cli_file
    "" ["person.json"; "person.json"] [] true sample_values) in A as (N & H). specialize (H (9 + N) ltac:(lia)).
  rewrite run_loads in H. cbn [a_layouts a_include a_command a_no_prelude] in H. apply bind_Ok in H as ([[rs m] n] & H & _).
  cbn [load_all] in H. apply bind_Ok in H as (s & S & H). apply ok_some in S as ->. apply bind_Ok in H as ([[r1 m1] n1] & L1 & H).
  apply bind_Ok in H as (x & H & _). apply bind_Ok in H as (s & S & H). apply ok_some in S as ->. apply bind_Ok in H as (y & L2 & _).
  destruct person_twice as (r & m0 & n0 & L & T). apply (load_layout_mono 9 (9 + N)) in L; [|lia]. 
  rewrite L1 in L. injection L as -> -> ->. exact (T _ _ L2).
Qed.

(** The registry of the two files, with the prelude. *)
Definition sample_layouts : layouts term :=
  match load_all cli_file 9 ["person.json"; "address.json"] [] 0 with Ok (_, m, _) => m | _ => [] end.
Definition sample_registry : registry term :=
  union_get (reg_with (layouts_get sample_layouts) (option_get (Some (prelude_registry false (fun _ => None) (Some : Qc -> option Qc) 0)))).
Lemma sample_uses stdin fuel c : 9 <= fuel ->
  run_sample stdin fuel (Args ["person.json"] ["address.json"] false (Some c)) =
  command_sample stdin fuel c sample_registry (DefaultSome (TmIri "http://e.org/Person")).
Proof.
  intro LE. rewrite run_loads. cbn [a_layouts a_include a_command a_no_prelude].
  assert (L1 : exists n m, load_all cli_file 9 ["person.json"] [] 0 = Ok ([TmIri "http://e.org/Person"], m, n) /\
    exists rs n', load_all cli_file 9 ["address.json"] m n = Ok (rs, sample_layouts, n')).
  { eexists. eexists. split; [vm_compute; reflexivity|]. eexists. eexists. vm_compute. reflexivity. }
  destruct L1 as (n & m & L1 & rs & n' & L2).
  rewrite (load_all_mono cli_file 9 fuel _ LE _ _ _ L1). cbn [bind]. rewrite (load_all_mono cli_file 9 fuel _ LE _ _ _ L2). cbn [bind].
  rewrite (prelude_mono false (fun _ => None) (Some : Qc -> option Qc) fuel sample_presets). reflexivity.
Qed.

Definition text_of (s : string) : value := VLit (LText s).
Definition t_person : term := TmIri "http://e.org/Person".
Definition t_address : term := TmIri "http://e.org/Address".
Definition sample_json : json :=
  JObj [("name", JStr "Ada"); ("age", JNum "36"); ("home", JObj [("city", JStr "London")])].
Definition sample_value : value :=
  VMap [(text_of "age", VLit (LNum (Q2Qc (36 # 1)))); (text_of "home", VMap [(text_of "city", text_of "London")]); (text_of "name", text_of "Ada")].
Definition sample_input : string := json_print true sample_json.
Example sample_holds : holds (Some : Qc -> option Qc) Json sample_input sample_value.
Proof. exists sample_json. split; vm_compute; reflexivity. Qed.

Lemma sample_get r l : sample_registry r = Some l ->
  (r = t_person /\ l = record_layout [] [(text_of "age", Link (TmIri "http://e.org/age") false (TmIri "https://treeldr.org/prelude#u8"));
     (text_of "home", Link (TmIri "http://e.org/home") false t_address);
     (text_of "name", Link (TmIri "http://e.org/name") true (TmIri "https://treeldr.org/prelude#string"))]) \/
  (r = t_address /\ l = record_layout [] [(text_of "city", Link (TmIri "http://e.org/city") true (TmBlank "0"))]) \/
  (r = TmBlank "0" /\ l = data_layout (KTextString None) xsd_string) \/
  exists p, r = TmIri (preset_iri p) /\ l = layout_at TmIri (preset_layout p).
Proof.
  unfold sample_registry, union_get, reg_with. cbn [u_1 u_0].
  destruct (layouts_get sample_layouts r) as [l0|] eqn:G.
  - intros [= <-]. apply bt_get_In in G. vm_compute in G.
    destruct G as [G|[G|[G|[]]]]; injection G as <- <-; [right; left|left|right; right; left]; split; reflexivity.
  - cbn [option_get]. unfold prelude_registry. destruct (C82_prelude false (fun _ => None) (Some : Qc -> option Qc) 0 sample_presets) as (pm & EP & P).
    assert (EG : prelude_get false (fun _ => None) (Some : Qc -> option Qc) 0 r = Ok (layouts_get pm r)) by (unfold prelude_get; rewrite EP; reflexivity).
    rewrite EG. intro H. apply P in H. right. right. right. exact H.
Qed.

Example sample_tree : tree_registry sample_registry.
Proof.
  intros r l H. apply sample_get in H as [(-> & ->)|[(-> & ->)|[(-> & ->)|(p & -> & ->)]]].
  - apply tl_record.
    + repeat constructor; vm_compute; reflexivity.
    + intros k c q _ _ [].
    + intros k c k' c' q H H' O O'. cbn [In] in H, H'.
      repeat (destruct H as [H|H]; [injection H as <- <-|]); try contradiction;
      repeat (destruct H' as [H'|H']; [injection H' as <- <-|]); try contradiction; try reflexivity; exfalso;
      cbn [component_owns] in O, O'; subst; discriminate.
    + intros k r' H. cbn [In] in H. repeat (destruct H as [H|H]; [discriminate H|]). contradiction.
  - apply tl_record.
    + repeat constructor; vm_compute; reflexivity.
    + intros k c q _ _ [].
    + intros k c k' c' q [H|[]] [H'|[]] _ _. congruence.
    + intros k r' [H|[]]. discriminate H.
  - apply tl_data. exact I.
  - destruct p; first [exact (tl_id _ None)|exact (tl_unit _ [] _)|apply tl_data; first [exact I|reflexivity]].
Qed.

Example sample_proper : Proper sample_registry t_person sample_value.
Proof.
  assert (LEAF : forall r v, leaf sample_registry r -> Proper sample_registry r v) by (intros r v H; exact (pr_leaf _ r v H)).
  eapply pr_record; [vm_compute; reflexivity|repeat constructor; vm_compute; reflexivity|].
  intros k v f Hv Hf. cbn [In] in Hv, Hf.
  repeat (destruct Hv as [Hv|Hv]; [injection Hv as <- <-|]); try contradiction;
  repeat (destruct Hf as [Hf|Hf]; [first [discriminate Hf|injection Hf as <-]|]); try contradiction; cbn [f_item it_value vf_layout].
  - apply LEAF. vm_compute. exact I.
  - eapply pr_record; [vm_compute; reflexivity|repeat constructor; vm_compute; reflexivity|].
    intros k v f [Hv|[]] [Hf|[]]. injection Hv as <- <-. injection Hf as <-. apply LEAF. vm_compute. exact I.
  - apply LEAF. vm_compute. exact I.
Qed.

Lemma no_identifiers reg ids :
  reg t_person = Some (record_layout [] [(text_of "age", Link (TmIri "http://e.org/age") false (TmIri "https://treeldr.org/prelude#u8"));
     (text_of "home", Link (TmIri "http://e.org/home") false t_address);
     (text_of "name", Link (TmIri "http://e.org/name") true (TmIri "https://treeldr.org/prelude#string"))]) ->
  reg t_address = Some (record_layout [] [(text_of "city", Link (TmIri "http://e.org/city") true (TmBlank "0"))]) ->
  (exists k ty, reg (TmIri "https://treeldr.org/prelude#u8") = Some (data_layout k ty)) ->
  (exists k ty, reg (TmIri "https://treeldr.org/prelude#string") = Some (data_layout k ty)) ->
  (exists k ty, reg (TmBlank "0") = Some (data_layout k ty)) ->
  Identifiers reg t_person sample_value ids -> ids = [].
Proof.
  intros E1 E2 (k3 & ty3 & E3) (k4 & ty4 & E4) (k5 & ty5 & E5) H.
  unfold data_layout in E3, E4, E5. unfold record_layout in E1, E2.
  assert (L3 : forall v ids, Identifiers reg (TmIri "https://treeldr.org/prelude#u8") v ids -> ids = [])
    by (intros v i Hi; inversion Hi; subst; unfold tagged_layout in *; congruence).
  assert (L4 : forall v ids, Identifiers reg (TmIri "https://treeldr.org/prelude#string") v ids -> ids = [])
    by (intros v i Hi; inversion Hi; subst; unfold tagged_layout in *; congruence).
  assert (L5 : forall v ids, Identifiers reg (TmBlank "0") v ids -> ids = [])
    by (intros v i Hi; inversion Hi; subst; unfold tagged_layout in *; congruence).
  assert (L2 : forall w ids, Identifiers reg t_address (VMap [(text_of "city", w)]) ids -> ids = []).
  { intros w i Hi. inversion Hi as [? ? L|? ? ? E|? ? ? ? ? E HE|? ? ? ? ? E|? ? ? ? ? E|? ? ? ? ? ? ? E|? ? ? ? ? ? ? ? ? E]; subst; unfold tagged_layout in *; try congruence.
    rewrite E2 in E. injection E as <- <-. inversion HE as [|? ? ? ? ? ? ? ? ? I0 E0|? ? ? ? ? ? ? I0|? ? ? ? ? ? ? ? ? I0 H0 HE0]; subst.
    - destruct I0 as [I0|[]]. discriminate I0.
    - destruct I0 as [I0|[]]. discriminate I0.
    - destruct I0 as [I0|[]]. injection I0 as <- <- <-. apply L5 in H0 as ->. inversion HE0. reflexivity. }
  unfold sample_value in H.
  inversion H as [? ? L|? ? ? E|? ? ? ? ? E HE|? ? ? ? ? E|? ? ? ? ? E|? ? ? ? ? ? ? E|? ? ? ? ? ? ? ? ? E]; subst; unfold tagged_layout in *; try congruence.
  rewrite E1 in E. injection E as <- <-. clear H.
  assert (K : forall fs m ids', IdentifiersE reg fs m ids' ->
    (forall k r, ~ In (k, field_of (Own r)) fs) ->
    (forall k v p b r i, In (k, v) m -> In (k, field_of (Link p b r)) fs -> Identifiers reg r v i -> i = []) -> ids' = []).
  { clear. induction 1 as [|fs k r h pat p s m ids I0|fs k r v m i1 i2 I0|fs k p b r v m i1 i2 I0 H0 HE IH]; intros NO LI.
    - reflexivity.
    - elim (NO _ _ I0).
    - elim (NO _ _ I0).
    - rewrite (LI k v p b r i1 (or_introl eq_refl) I0 H0). apply IH; [exact NO|]. intros k' v' p' b' r' i Hk. apply LI. now right. }
  apply (K _ _ _ HE).
  - intros k r I0. cbn [fields_of map fst snd In] in I0. repeat (destruct I0 as [I0|I0]; [discriminate I0|]). exact I0.
  - intros k v p b r i Hk I0 HI. cbn [fields_of map fst snd In] in Hk, I0.
    destruct Hk as [Hk|[Hk|[Hk|[]]]]; injection Hk as <- <-;
      (destruct I0 as [I0|[I0|[I0|[]]]]; try discriminate I0; injection I0 as <- <- <-); eauto.
Qed.
Lemma sample_identifiers ids : Identifiers sample_registry t_person sample_value ids -> ids = [].
Proof.
  apply no_identifiers; [vm_compute; reflexivity|vm_compute; reflexivity| | |]; eexists; eexists; vm_compute; reflexivity.
Qed.
Example sample_distinct : distinct_identifiers sample_registry t_person sample_value.
Proof. intros ids H. rewrite (sample_identifiers _ H). constructor. Qed.
Example sample_terminators : not_terminators sample_registry t_person sample_value.
Proof. intros ids i H Hi. rewrite (sample_identifiers _ H) in Hi. destruct Hi. Qed.

Lemma keep_laws : dataset_laws list_dataset keep keep.
Proof.
  split; [|intro; apply Permutation_refl|intro; apply Permutation_refl]. intros l ND. now apply list_dataset_enumerates.
Qed.

(** C88 on the whole program: the data is that of the input. *)
Definition sample_text : string :=
  match run_sample sample_input 9 (Args ["person.json"] ["address.json"] false (Some (Dehydrate Json (Some t_person)))) with Ok t => t | _ => "" end.
Example sample_dehydrates : run_sample sample_input 9 (Args ["person.json"] ["address.json"] false (Some (Dehydrate Json None))) = Ok sample_text.
Proof. vm_compute. reflexivity. Qed.
Example sample_quads : nquads_parse sample_text =
  let e name := TmIri (String.append "http://e.org/" name) in
  let typed v n := TmLit (RdfLiteral v (TypeAny (xsd_name n))) in
  Some [Quad (TmBlank "input0") (e "age") (typed "36" "unsignedByte") None; Quad (TmBlank "input0") (e "home") (TmBlank "0") None;
        Quad (TmBlank "0") (e "city") (typed "London" "string") None; Quad (TmBlank "input0") (e "name") (typed "Ada" "string") None].
Proof. vm_compute. reflexivity. Qed.
Lemma sample_writable : writable (Some : Qc -> option Qc) (fun q => q) Json sample_value.
Proof.
  intro N. assert (P : value_from_json sample_json = Ok sample_value) by (vm_compute; reflexivity).
  apply (from_json_refused _ _ P) in N.
  assert (A : forall bad s, ~ NotJson bad (text_of s)) by (intros bad s0 H; inversion H).
  inversion N as [| |? k v Hk NK|? k v Hk Nv|]; subst.
  - destruct Hk as [Hk|[Hk|[Hk|[]]]]; injection Hk as <- <-; eapply NK; reflexivity.
  - destruct Hk as [Hk|[Hk|[Hk|[]]]]; injection Hk as <- <-.
    + inversion Nv as [|? B| | |]; subst. vm_compute in B. now apply B.
    + inversion Nv as [| |? k v Hk NK|? k v Hk Nv'|]; subst; destruct Hk as [Hk|[]]; injection Hk as <- <-; [eapply NK; reflexivity|exact (A _ _ Nv')].
    + exact (A _ _ Nv).
Qed.
Example sample_round_trip : exists subject w N,
  (subject = TmBlank "input0" \/ exists i ids, Identifiers sample_registry t_person sample_value ids /\ In i ids /\ subject = TmIri i) /\
  Same sample_registry t_person sample_value w /\
  forall fuel' pretty, N <= fuel' -> exists text',
    run_sample sample_text fuel' (Args ["person.json"] ["address.json"] false (Some (Hydrate Json (Some t_person) [subject] pretty))) = Ok text' /\
    holds (Some : Qc -> option Qc) Json text' w.
Proof.
  assert (NL : ~ leaf sample_registry t_person) by (vm_compute; intros []).
  assert (DR : decimals_read_back cli_xsd) by (intros n s0; apply decimal_parse_print).
  assert (E : run_sample sample_input 9 (Args ["person.json"] ["address.json"] false (Some (Dehydrate Json (Some t_person)))) = Ok sample_text)
    by (vm_compute; reflexivity).
  exact (C88_run_partial Some (fun q => q) list_dataset keep keep (fun _ => None) (fun _ => false) codec_laws keep_laws false (fun _ => None) cli_file
    ["person.json"] ["address.json"] false sample_registry (DefaultSome t_person) 9 9 Json t_person sample_value sample_input sample_text
    sample_uses sample_tree DR sample_proper sample_distinct sample_terminators NL sample_holds sample_writable (le_n 9) E).
Qed.

(** C87: the layout of the only file that is not included, then none, then two. *)
Example sample_default fuel subjects pretty :
  run_sample sample_text fuel (Args ["person.json"] ["address.json"] false (Some (Hydrate Json None subjects pretty))) =
  run_sample sample_text fuel (Args ["person.json"] ["address.json"] false (Some (Hydrate Json (Some t_person) subjects pretty))).
Proof.
  assert (D : exists l, layout_doc person_doc l /\ exists h, header_of l = Some h /\ ah_id h = Some "http://e.org/Person").
  { eexists. split; [apply C56_reads; vm_compute; reflexivity|]. eexists. split; reflexivity. }
  destruct D as (l & D & h & Hh & Hi).
  apply C87_default with (l := l) (r := t_person).
  - constructor.
  - exists person_text, person_doc. split; [reflexivity|]. split; [|exact D]. vm_compute. reflexivity.
  - intros i (h' & c & Hh' & Hi' & DE). rewrite Hh in Hh'. injection Hh' as <-. rewrite Hi in Hi'. injection Hi' as <-.
    apply (denotes_resolve _ _ _ _ (agrees_env scope_default)) in DE. vm_compute in DE. injection DE as <-. reflexivity.
  - intro A. specialize (A h Hh). congruence.
Qed.
Example sample_no_default : exists N, forall fuel, N <= fuel ->
  run_sample "" fuel (Args [] ["address.json"; "person.json"] false (Some (Dehydrate Json None))) = Err CliNoDefaultLayout.
Proof.
  refine (C87_no_default _ _ _ _ _ _ _ _ _ _ _ (Args [] ["address.json"; "person.json"] false (Some (Dehydrate Json None))) _ sample_values eq_refl _ _ _).
  - constructor.
  - eapply C86_order; [|exact sample_acceptable]. apply (Permutation_rev ["person.json"; "address.json"]).
  - discriminate.
Qed.
Example sample_ambiguous : exists N, forall fuel, N <= fuel ->
  run_sample "" fuel (Args ["person.json"; "address.json"] [] false (Some (Dehydrate Json None))) = Err CliAmbiguousDefaultLayout.
Proof.
  refine (C87_no_default _ _ _ _ _ _ _ _ _ _ _ (Args ["person.json"; "address.json"] [] false (Some (Dehydrate Json None))) _ sample_values eq_refl _ _ _).
  - constructor.
  - exact sample_acceptable.
  - discriminate.
Qed.

(** C89: from JSON to CBOR and back; two numbers that are not converted. *)
Example sample_convert : exists text text',
  command_sample sample_input 9 (ConvertTree Json Cbor false) sample_registry DefaultNone = Ok text /\
  holds (Some : Qc -> option Qc) Cbor text sample_value /\
  command_sample text 9 (ConvertTree Cbor Json true) sample_registry DefaultNone = Ok text' /\
  holds (Some : Qc -> option Qc) Json text' sample_value.
Proof.
  assert (W : writable (Some : Qc -> option Qc) (fun q => q) Cbor sample_value).
  { split; [|repeat constructor].
    assert (T : forall s, Numbers (native_exact (fun q : Qc => q) Some) (text_of s)) by (intro s0; apply nu_lit; discriminate).
    apply nu_map. intros k v [H|[H|[H|[]]]]; injection H as <- <-; (split; [apply T|]); try apply T.
    - apply nu_num. split; [discriminate|]. right. reflexivity.
    - apply nu_map. intros k v [H|[]]. injection H as <- <-. split; apply T. }
  destruct (C89_tree_partial Some (fun q => q) list_dataset keep keep (fun _ => None) (fun _ => false) codec_laws
    9 Json Cbor false sample_input sample_value sample_registry DefaultNone sample_holds W) as (text & E & H).
  destruct (C89_tree_partial Some (fun q => q) list_dataset keep keep (fun _ => None) (fun _ => false) codec_laws
    9 Cbor Json true text sample_value sample_registry DefaultNone H sample_writable) as (text' & E' & H').
  exists text, text'. auto.
Qed.
Example sample_minus_one : exists e,
  command_sample (json_print false (JNum "-1")) 9 (ConvertTree Json Json false) sample_registry DefaultNone = Err (CliNonJson e).
Proof. apply C89_json_refuted. vm_compute. reflexivity. Qed.
Example sample_zero : exists w,
  command_sample (json_print false (JNum "0")) 9 (ConvertTree Json Cbor false) sample_registry DefaultNone = Panic w.
Proof. apply C89_cbor_refuted. vm_compute. reflexivity. Qed.
Example sample_rdf : exists text, command_sample sample_text 9 ConvertRdf sample_registry DefaultNone = Ok text /\
  forall G, holds_quads sample_text G -> holds_quads text G.
Proof.
  eexists. split; [vm_compute; reflexivity|]. intros G H. eapply (C89_rdf_quads Some (fun q => q) list_dataset keep keep
    (fun _ => None) (fun _ => false) codec_laws keep_laws 9 sample_text sample_registry DefaultNone); [exact H|]. vm_compute. reflexivity.
Qed.

Print Assumptions C86_rejects.
Print Assumptions C86_accepts.
Print Assumptions C86_order.
Print Assumptions C86_registry.
Print Assumptions C87_default.
Print Assumptions C87_no_default.
Print Assumptions C87_include.
Print Assumptions C88_round_trip_partial.
Print Assumptions C88_round_trip_equal_partial.
Print Assumptions C88_run_partial.
Print Assumptions C89_tree_partial.
Print Assumptions C89_to_json.
Print Assumptions C89_json_json_partial.
Print Assumptions C89_json_refuted.
Print Assumptions C89_cbor_refuted.
Print Assumptions C89_rdf.
Print Assumptions C89_rdf_quads.
Print Assumptions C89_run_partial.

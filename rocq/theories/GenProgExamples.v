(** * The types generated from files: cases, refutations and assumptions *)

From Coq Require Import String Ascii List Bool Arith NArith ZArith QArith Qcanon Lia.
Import ListNotations.
From Verif Require Import Base BaseProofs Orders PatternModel ValueModel LayoutModel HydrateModel TermModel NumberModel
  DehydrateModel JsonModel RegexpModel AbsModel AbsSpec AbsJsonModel AbsJsonSpec AbsJsonProperties AbsAcceptSpec AbsRegistry AbsSerdeModel AbsSerdeSpec
  AttrModel CodeGenModel CodeGenSpec CodeGenProperties CodeGenExamples PreludeSpec CliModel CliSpec CliProofs CliProperties CliCodec CliExamples
  GenProgModel GenProgSpec AbsAnonymous GenProgProofs GenProgProperties.
Open Scope list_scope.
Open Scope nat_scope.
Open Scope string_scope.
#[local] Existing Instance cli_text.
#[local] Existing Instance cli_iris.
#[local] Existing Instance cli_external.
#[local] Existing Instance simple_rust.

(** A document with an anonymous layout, beside the one of [address_doc]. *)
Definition place_doc : json :=
  JObj [("type", JStr "record"); ("id", JStr "http://e.org/Place");
    ("fields", JObj [("label", JObj [("value", JObj [("type", JStr "string")]); ("property", JStr "http://e.org/label")])])].
Definition gen_file (name : string) : option string :=
  if String.eqb name "person.json" then Some person_text
  else if String.eqb name "address.json" then Some (json_print false address_doc)
  else if String.eqb name "place.json" then Some (json_print false place_doc)
  else if String.eqb name "not-json" then Some "?"
  else None.
Notation program_sample := (program (F := Qc) false (fun _ => None) Some gen_file).
Notation include_sample := (tldr_include (F := Qc) false (fun _ => None) Some gen_file).
Notation module_sample := (tldr_module (F := Qc) false (fun _ => None) Some gen_file).
Notation document_sample := (serde_document (F := Qc) false (fun _ => None) Some gen_file).

Notation read_sample := (read_layout (F := Qc) false (fun _ => None) Some).
(** What a file is read as. *)
Definition layout_in (name : string) : alayout :=
  match gen_file name with
  | Some source => match read_sample source with Ok l => l | _ => (ABool false) end
  | None => (ABool false)
  end.
Example sample_read : document_sample "person.json" (layout_in "person.json") /\ document_sample "address.json" (layout_in "address.json") /\
  document_sample "place.json" (layout_in "place.json").
Proof.
  repeat split; apply document_read; eexists; (split; [reflexivity|]); vm_compute; reflexivity.
Qed.

Definition name_of (o : outcome program_error gen_item) : option string := match o with Ok it => Some (item_ident it) | _ => None end.

(** The type of the only document, or of the one given. *)
Example sample_program :
  name_of (program_sample 9 None ["person.json"]) = Some "Person" /\
  name_of (program_sample 9 (Some "http://e.org/Person") ["person.json"; "not-json"; "address.json"]) = Some "Person" /\
  program_sample 9 (Some "http://e.org/Address") ["person.json"] = Err ProgUnknownLayout /\
  program_sample 9 None ["person.json"; "address.json"] = Err ProgMissingLayout /\
  program_sample 9 None ["address.json"] = Err (ProgGenerate (MissingTypeIdentifier (TmBlank "0"))) /\
  program_sample 9 None [] = Err ProgMissingLayout.
Proof. vm_compute. repeat split. Qed.
(** The hypotheses of [C92_program]: the documents of two files, among three. *)
Example sample_documents : exists ls, readable (F := Qc) false (fun _ => None) Some gen_file ["person.json"; "not-json"; "address.json"] ls /\
  length ls = 2 /\ consistent ls /\ one_anonymous ls.
Proof.
  assert (H : exists it, program_sample 9 (Some "http://e.org/Person") ["person.json"; "not-json"; "address.json"] = Ok it) by (eexists; vm_compute; reflexivity).
  destruct H as [it H]. destruct (C92_only _ _ _ _ _ _ _ _ H) as (ls & R & C & O). exists ls. split; [exact R|]. split; [|auto].
  inversion R as [|? ? l ls1 _ R1|? ? ? [_ U] _]; subst.
  - inversion R1 as [|? ? l' ls2 (s & j & x & Fi & P & _) _|? ? ? _ R2]; subst; [vm_compute in Fi; injection Fi as <-; vm_compute in P; discriminate P|].
    inversion R2 as [|? ? l' ls2 _ R3|? ? ? [_ U] _]; subst; [inversion R3; subst; reflexivity|].
    elim (U _ (proj1 (proj2 sample_read))).
  - elim (U _ (proj1 sample_read)).
Qed.
(** The document of the person is read as the layout it describes. *)
Lemma person_described : layout_from_json person_doc = Ok (layout_in "person.json").
Proof. vm_compute. reflexivity. Qed.

(** C92: an unreadable file does not make the program fail. *)
Theorem C92_unreadable_refuted : exists names name fuel it, In name names /\
  unreadable (F := Qc) false (fun _ => None) Some gen_file name /\ program_sample fuel None names = Ok it.
Proof.
  exists ["not-json"; "person.json"], "not-json", 9. eexists. split; [now left|]. split; [|vm_compute; reflexivity].
  split; [discriminate|]. intros l (s & j & x & Fi & P & _). vm_compute in Fi. injection Fi as <-. vm_compute in P. discriminate P.
Qed.
(** C92: files that the command line loads together (C86) are refused, when two of them have anonymous layouts. *)
Theorem C92_anonymous_refuted : exists names, acceptable gen_file names /\
  (exists ls, Forall2 document_sample names ls /\ consistent ls) /\
  forall fuel layout, program_sample fuel layout names = Err (ProgCompile LayoutRedefinition).
Proof.
  exists ["address.json"; "place.json"].
  assert (A : acceptable gen_file ["address.json"; "place.json"]).
  { assert (R : exists x, load_all gen_file 9 ["address.json"; "place.json"] [] 0 = Ok x) by (eexists; vm_compute; reflexivity).
    destruct R as ([[rs m] n] & R). destruct (all_brings gen_file 9 _ _ _ _ _ _ R empty_wf empty_later) as (ls & idss & D & W & ND & _). exists ls, idss. auto. }
  split; [exact A|]. split; [|intros fuel layout; vm_compute; reflexivity].
  destruct A as (ls & idss & D & W & ND). exists [layout_in "address.json"; layout_in "place.json"]. destruct sample_read as (_ & R1 & R2).
  split; [now repeat constructor|]. enough (ls = [layout_in "address.json"; layout_in "place.json"]) as <- by (exists idss; auto).
  inversion D as [|? l1 ? ls1 (s & j & Fi & P & D1) D']; subst. inversion D' as [|? l2 ? ls2 (s' & j' & Fi' & P' & D2) D'']; subst. inversion D''; subst.
  assert (K : forall name source j l, gen_file name = Some source -> json_parse source = Some j -> layout_doc j l ->
    forall l', option_map layout_from_json (match gen_file name with Some source => json_parse source | None => None end) = Some (Ok l') -> l = l').
  { clear. intros name source j l E1 E2 E3 l' H. rewrite E1, E2 in H. cbn in H. apply C56_reads in E3. congruence. }
  rewrite (K _ _ _ _ Fi P D1 (layout_in "address.json")) by (vm_compute; reflexivity).
  rewrite (K _ _ _ _ Fi' P' D2 (layout_in "place.json")) by (vm_compute; reflexivity). reflexivity.
Qed.
(** C92: a missing file makes it panic. *)
Theorem C92_missing_refuted : exists names, forall fuel layout, exists w, program_sample fuel layout names = Panic w.
Proof. exists ["person.json"; "missing"]. intros fuel layout. eexists. vm_compute. reflexivity. Qed.

(** C93: the types of a module, with the module of the addresses. *)
Definition tldr_use (p n : string) : mod_item := ItemUse [Attr "tldr" (Some [TkStr p])] (UsePath "super" (UseName n)).
Definition names_of (o : outcome macro_error (list use_tree * list gen_item)) : option (list string) :=
  match o with Ok (_, its) => Some (map item_ident its) | _ => None end.
Example sample_module :
  names_of (module_sample 9 ["person.json"] (Some [tldr_use "http://e.org/" "types"; ItemUse [] UseGlob])) = Some ["Person"] /\
  module_sample 9 ["person.json"] (Some [ItemOther]) = Err MacroItem /\
  module_sample 9 ["person.json"] (Some [ItemUse [Attr "tldr" (Some [TkStr "http://e.org/"])] UseGlob]) = Err MacroItem /\
  module_sample 9 ["not-json"] (Some []) = Err MacroJson /\
  module_sample 9 ["person.json"; "person.json"] (Some []) = Err (MacroLayout LayoutRedefinition) /\
  (exists w, module_sample 9 ["missing"] (Some []) = Panic w).
Proof. vm_compute. repeat split. eexists. reflexivity. Qed.
Example sample_registers : registers [tldr_use "http://e.org/" "old"; tldr_use "http://e.org/" "types"] "http://e.org/" "types".
Proof.
  exists [tldr_use "http://e.org/" "old"], (tldr_use "http://e.org/" "types"), []. split; [reflexivity|]. split; [|intros it' n' []].
  do 2 eexists. split; [reflexivity|]. split; [apply (po_last []); intros ? []|]. repeat constructor.
Qed.
(** The hypotheses of [C93_module]. *)
Example sample_named : exists ls, Forall2 document_sample ["person.json"] ls /\ consistent ls /\ forall l, In l ls -> all_named l.
Proof.
  assert (H : exists uses items, module_sample 9 ["person.json"] (Some [tldr_use "http://e.org/" "types"]) = Ok (uses, items)) by (do 2 eexists; vm_compute; reflexivity).
  destruct H as (uses & items & H). destruct (C93_only _ _ _ _ _ _ _ _ _ H) as [_ K]. exact K.
Qed.

(** C93: a document with an anonymous layout gives no type. *)
Theorem C93_anonymous_refuted : exists names ls, Forall2 document_sample names ls /\ consistent ls /\ forall fuel, 9 <= fuel ->
  exists r, include_sample fuel names = Err (MacroGenerate (MissingTypeIdentifier r)).
Proof.
  exists ["address.json"].
  assert (H : exists x, program_builder (F := Qc) false (fun _ => None) Some gen_file ["address.json"] DefaultNone [] = Ok x) by (eexists; vm_compute; reflexivity).
  destruct H as [x H]. destruct (program_documents _ _ _ _ _ _ _ _ H) as (ls & R & A). destruct (proj1 (all_accepted ls) A) as [C _]. exists ls. split; [|split; [exact C|]].
  - inversion R as [|? ? l ls1 D R1|? ? ? [_ U] _]; subst; [inversion R1; subst; constructor; [exact D|constructor]|].
    elim (U _ (proj1 (proj2 sample_read))).
  - intros fuel L. do 9 (destruct fuel as [|fuel]; [lia|]). eexists. vm_compute. reflexivity.
Qed.

Print Assumptions C92_documents.
Print Assumptions C92_program.
Print Assumptions C92_only.
Print Assumptions C92_generates.
Print Assumptions C92_ignored.
Print Assumptions C92_missing.
Print Assumptions C92_unreadable_refuted.
Print Assumptions C92_anonymous_refuted.
Print Assumptions C92_missing_refuted.
Print Assumptions C93_items.
Print Assumptions C93_options.
Print Assumptions C93_only.
Print Assumptions C93_module.
Print Assumptions C93_include.
Print Assumptions C93_anonymous_refuted.

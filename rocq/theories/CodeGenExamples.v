(** * C80, C81: cases, refutations and assumptions *)

From Coq Require Import String Ascii List Bool Arith NArith Permutation.
Import ListNotations.
From Verif Require Import Base BaseProofs Orders PatternModel ValueModel LayoutModel HydrateModel TermModel RegexpModel
  DehydrateModel DehydrateFinish AbsModel AbsJsonModel AbsSpec AbsMeaning AbsRegistry AbsExamples AbsJsonExamples
  VariableModel VariableSpec VariableProofs AttrModel AttrSpec AttrDerive AttrExamples CodeGenModel CodeGenSpec CodeGenProofs CodeGenProperties.
Open Scope list_scope.
Open Scope string_scope.

#[local] Existing Instance simple_syntax.
#[local] Existing Instance abs_iris.
#[local] Existing Instance abs_external.

(** The fragment and the last segment of an IRI; letters and digits are the characters of identifiers. *)
Fixpoint after_char (c : ascii) (s : string) : option string :=
  match s with
  | EmptyString => None
  | String c' s' => if Ascii.eqb c c' then Some s' else after_char c s'
  end.
Fixpoint last_segment (s acc : string) : string :=
  match s with
  | EmptyString => acc
  | String "/" s' => last_segment s' ""
  | String c s' => last_segment s' (acc ++ String c "")
  end.
Definition upper (c : N) : N := if (N.leb 97 c && N.leb c 122)%bool then (c - 32)%N else c.
Definition ident_char (c : ascii) : bool :=
  let n := N_of_ascii c in
  ((N.leb 97 n && N.leb n 122) || (N.leb 65 n && N.leb n 90) || (N.leb 48 n && N.leb n 57))%bool.
#[local] Instance simple_rust : RustSyntax := {|
  is_rust_ident s := match s with EmptyString => false | _ => forallb ident_char (list_ascii_of_string s) end;
  iri_fragment s := after_char "#" s;
  iri_last_segment s := Some (last_segment s "");
  is_blank_char c := N.leb c 32;
  upper_char c := String (ascii_of_N (upper c)) "";
  char_text c := String (ascii_of_N c) ""
|}.

(** The resources of the cases, by number. *)
Definition iris_table : list (list string) := [
  ["https://example.org/#person"]; ["https://example.org/name"]; ["https://treeldr.org/prelude#string"];
  ["https://example.org/geo#address"]; ["https://other.org/#address"]; ["https://example.org/x"; "https://example.org/#home_address"]; []].
#[local] Instance numbered : Interp N := {|
  iris_of r := nth (N.to_nat r) iris_table [];
  literals_of _ := []
|}.

Lemma https_absolute s : absolute ("https:" ++ s) "https" s.
Proof.
  split; [reflexivity|]. intros n c H. do 5 (destruct n as [|n]; [injection H as <-; repeat split; discriminate|]). destruct n; discriminate.
Qed.
Lemma nat_string_nonempty n : nat_string n <> "".
Proof. unfold nat_string. destruct (Nat.to_uint n); discriminate. Qed.
Lemma uint_digits d : Forall digit (map N_of_ascii (list_ascii_of_string (DecimalString.NilEmpty.string_of_uint d))).
Proof. induction d; cbn; constructor; try assumption; split; discriminate. Qed.
Lemma nat_string_name n : variable_name (nat_string n).
Proof.
  unfold variable_name. cbn [chars simple_syntax]. assert (Forall digit (map N_of_ascii (list_ascii_of_string (nat_string n)))) as F.
  { unfold nat_string, DecimalString.NilZero.string_of_uint. destruct (Nat.to_uint n); [|apply uint_digits..].
    repeat constructor; discriminate. }
  pose proof (nat_string_nonempty n) as NE. destruct (nat_string n) as [|c s]; [congruence|].
  exists (N_of_ascii c), (map N_of_ascii (list_ascii_of_string s)). cbn [list_ascii_of_string map] in F.
  inversion_clear F as [|x l D F']. split; [reflexivity|]. split; [now left|]. eapply Forall_impl; [|exact F'].
  intros x H. right. now right; left.
Qed.
#[local] Instance numbered_laws : GeneratorLaws N.
Proof.
  split.
  - intros x. pose proof (nat_string_name x) as V. apply check_spec in V. cbn [blank_suffix simple_syntax append].
    cbn [chars simple_syntax] in V. now rewrite V.
  - apply nat_string_name.
  - intros r iri I. cbn [iris_of numbered] in I.
    assert (In iri (concat iris_table)) as J.
    { destruct (lt_dec (N.to_nat r) (length iris_table)) as [L|L].
      - apply in_concat. eexists. split; [apply nth_In; exact L|exact I].
      - rewrite nth_overflow in I by (apply Nat.nlt_ge; exact L). destruct I. }
    clear I. cbn [iris_table concat app In] in J.
    repeat (destruct J as [<-|J]; [split; [reflexivity|]; split; [reflexivity|]; eexists _, _; exact (https_absolute _)|]). destruct J.
Qed.

(** ** C80 *)

Definition geo : gen_options := [("https://example.org/", RsPath false [("crate", NoArgs)]);
  ("https://example.org/geo#", RsPath true [("geo", NoArgs); ("types", NoArgs)])].
Example geo_sorted : bt_wf geo.
Proof. repeat constructor. Qed.

Definition property (intro : nat) (value : vformat N) (p : N) : item_layout N :=
  Item intro value [Quad (PVar 0) (PRes p) (PVar 1) None].

(** A record with two required fields: an address, and a name. *)
Definition person_layout : layout N := ProductL (Header 1 0 [Quad (PVar 0) (PRes 1) (PRes 0) (Some (PRes 5))])%N
  [(VLit (LText "address"), Field (property 1 (VFormat 3%N [PVar 1] (Some None)) 3) true);
   (VLit (LText "name"), Field (property 1 (VFormat 2%N [PVar 1] None) 1) true)].

Example person_generated : exists d, generate_layout geo "Person" person_layout = Ok (GenType d) /\
  di_data d = DStruct (FNamed [
    RField "address" (tldr [[TkIdent "intro"; TkGroup [TkStr "1"]];
        [TkIdent "dataset"; TkGroup [TkGroup [TkStr "_:0"; TkPunct ","; TkStr "https://example.org/geo#address"; TkPunct ","; TkStr "_:1"; TkPunct ","]]];
        [TkIdent "input"; TkGroup [TkStr "_:1"]]; [TkIdent "graph"; TkGroup [TkIdent "None"]]])
      (RPath false true [("geo", NoArgs); ("types", NoArgs); ("Address", NoArgs)]);
    RField "name" (tldr [[TkIdent "intro"; TkGroup [TkStr "1"]];
        [TkIdent "dataset"; TkGroup [TkGroup [TkStr "_:0"; TkPunct ","; TkStr "https://example.org/name"; TkPunct ","; TkStr "_:1"; TkPunct ","]]];
        [TkIdent "input"; TkGroup [TkStr "_:1"]]; [TkIdent "graph"; TkGroup [TkIdent "_"]]]) (ident_type "String")]).
Proof. eexists. split; [vm_compute; reflexivity|vm_compute; reflexivity]. Qed.

Example person_expressible : expressible person_layout /\ layout_scoped person_layout /\ layout_named person_layout.
Proof.
  split; [split; [repeat constructor|]|split].
  - intros k f [[= <- <-]|[[= <- <-]|[]]]; reflexivity.
  - split; [intros q [<-|[]]; repeat split; cbn; auto; intros g [= <-]; exact I|].
    intros k f [[= <- <-]|[[= <- <-]|[]]]; (split; [split; [intros p [<-|[]]; cbn; auto|intros g; discriminate]|]);
      intros q [<-|[]]; repeat split; cbn; auto; intros g; discriminate.
  - apply (C80_generates geo "Person" person_layout geo_sorted). eexists. vm_compute. reflexivity.
Qed.

Example person_derived : exists d l' types, generate_layout geo "Person" person_layout = Ok (GenType d) /\
  derive_layout 0 d = Ok (l', types) /\
  same_layout first_iri (type_ref (fun r ty => layout_type geo r = Ok ty) types) person_layout l' /\
  length types = 2.
Proof.
  destruct person_generated as (d & G & _). destruct person_expressible as (X & S & _).
  destruct (proj2 (C80_accepted geo "Person" person_layout d 0 I (proj1 X) G)) as [[l' types] D]; [split; [exact I|exact S]|].
  exists d, l', types. split; [exact G|]. split; [exact D|]. split; [exact (C80_faithful_partial _ _ _ _ _ _ _ X G D)|].
  assert (generate_layout geo "Person" person_layout = Ok (GenType d)) as G' by exact G. vm_compute in G'. injection G' as <-. vm_compute in D. now injection D as <- <-.
Qed.

(** A list of addresses, and a tuple. *)
Definition addresses : layout N := OrderedL (Header 1 1 [])
  (Item 1 (VFormat 3%N [PVar 4] None) [Quad (PVar 2) (PRes 1) (PVar 4) None; Quad (PVar 2) (PRes 3) (PVar 3) None]%N) (PVar 1) (PRes 4%N).
Example addresses_derived : exists d r, generate_layout geo "Addresses" addresses = Ok (GenType d) /\ derive_layout 0 d = Ok r.
Proof. eexists _, _. split; [vm_compute; reflexivity|]. vm_compute. reflexivity. Qed.
Definition pair : layout N := SizedL (Header 1 0 [])
  [property 1 (VFormat 3%N [PVar 1] None) 3; property 2 (VFormat 2%N [PVar 2; PRes 5%N] (Some (Some (PVar 0)))) 1].
Example pair_derived : exists d r, generate_layout geo "Pair" pair = Ok (GenType d) /\ derive_layout 0 d = Ok r.
Proof. eexists _, _. split; [vm_compute; reflexivity|]. vm_compute. reflexivity. Qed.

(** *** What is lost *)

(** An optional field becomes a required one. *)
Definition optional_name : layout N := ProductL (Header 1 0 [])
  [(VLit (LText "name"), Field (property 1 (VFormat 2%N [PVar 1] None) 1) false)].
Theorem C80_optional_refuted : exists (l : layout N) d l' types,
  distinct_names l /\ layout_scoped l /\ generate_layout [] "T" l = Ok (GenType d) /\ derive_layout 0 d = Ok (l', types) /\
  forall res ref, ~ same_layout res ref l l'.
Proof.
  exists optional_name. eexists _, _, _. split; [repeat constructor|]. split.
  - split; [intros q []|]. intros k f [[= <- <-]|[]]. split; [split; [intros p [<-|[]]; cbn; auto|intros g; discriminate]|].
    intros q [<-|[]]; repeat split; cbn; auto; intros g; discriminate.
  - split; [vm_compute; reflexivity|]. split; [vm_compute; reflexivity|]. intros res ref [_ F]. inversion F as [|? ? ? ? (_ & E & _)]; subst. discriminate E.
Qed.

(** A unit constant, the resource of an identifier, and the order of the variants are lost. *)
Theorem C80_constant_refuted : exists (l : layout N) d l' types,
  layout_scoped l /\ generate_layout [] "T" l = Ok (GenType d) /\ derive_layout 0 d = Ok (l', types) /\
  forall res ref, ~ same_layout res ref l l'.
Proof.
  exists (UnitL (Header 1 0 []) (VLit (LBool true))). eexists _, _, _. split; [intros q []|].
  split; [vm_compute; reflexivity|]. split; [vm_compute; reflexivity|]. intros res ref [_ E]. discriminate E.
Qed.
Theorem C80_resource_refuted : exists (l : layout N) d l' types,
  layout_scoped l /\ generate_layout [] "T" l = Ok (GenType d) /\ derive_layout 0 d = Ok (l', types) /\
  forall res ref, ~ same_layout res ref l l'.
Proof.
  exists (IdL (Header 1 1 []) (PVar 1) None). eexists _, _, _. split; [intros q []|].
  split; [vm_compute; reflexivity|]. split; [vm_compute; reflexivity|]. intros res ref (_ & E & _). discriminate E.
Qed.
Definition unsorted : layout N := SumL (Header 1 0 [])
  [Variant "Text" (Item 0 (VFormat 2%N [PVar 0] None) []); Variant "Place" (Item 0 (VFormat 3%N [PVar 0] None) [])].
Theorem C80_variants_refuted : exists (l : layout N) d l' types,
  distinct_names l /\ layout_scoped l /\ generate_layout [] "T" l = Ok (GenType d) /\ derive_layout 0 d = Ok (l', types) /\
  forall res ref, ~ same_layout res ref l l'.
Proof.
  exists unsorted. eexists _, _, _. split; [repeat constructor; cbn; intuition discriminate|]. split.
  - split; [intros q []|]. intros v [<-|[<-|[]]]; (split; [split; [intros p [<-|[]]; cbn; auto|intros g; discriminate]|intros q []]).
  - split; [vm_compute; reflexivity|]. split; [vm_compute; reflexivity|]. intros res ref [_ F]. inversion F as [|? ? ? ? (E & _)]; subst. discriminate E.
Qed.

(** A text is a one-element tuple, and a set is rejected. *)
Theorem C80_literal_refuted : exists (l : layout N) d l' types,
  layout_scoped l /\ generate_layout [] "T" l = Ok (GenType d) /\ derive_layout 0 d = Ok (l', types) /\
  exists h it, l' = SizedL h [it] /\ types = [ident_type "String"].
Proof.
  exists (DataL (KTextString None) (Header 1 0 []) (PVar 0) 2%N). eexists _, _, _. split; [intros q []|].
  split; [vm_compute; reflexivity|]. split; [vm_compute; reflexivity|]. eexists _, _. split; reflexivity.
Qed.
Theorem C80_set_refuted : exists (l : layout N) d,
  layout_scoped l /\ generate_layout [] "T" l = Ok (GenType d) /\ forall fuel r, derive_layout fuel d <> Ok r.
Proof.
  set (l := UnorderedL (Header 1 0 []) (property 1 (VFormat 2%N [PVar 1] None) 1)).
  assert (exists d, generate_layout [] "T" l = Ok (GenType d)) as [d G] by (eexists; vm_compute; reflexivity).
  exists l, d. split; [|split; [exact G|]].
  - split; [intros q []|]. split; [split; [intros p [<-|[]]; cbn; auto|intros g; discriminate]|]. intros q [<-|[]]; repeat split; cbn; auto; intros g; discriminate.
  - intros fuel r. rewrite (C80_set_rejected _ _ _ _ _ fuel G). discriminate.
Qed.

(** Not generated: a field that is not an identifier, a resource without IRI. *)
Example bad_field : generate_layout [] "T" (ProductL (Header 1 0 []) [(VLit (LText "first-name"), Field (property 1 (VFormat 2%N [PVar 1] None) 1) true)]) =
  Err (InvalidFieldIdent (VLit (LText "first-name"))).
Proof. reflexivity. Qed.
Example no_iri : generate_layout [] "T" (UnitL (Header 1 0 [Quad (PVar 0) (PRes 6%N) (PVar 0) None]) (VLit LUnit)) = Err NoIriRepresentation.
Proof. reflexivity. Qed.

(** ** C81 *)

(** The least of the two identifiers ["HomeAddress"] and ["X"]; the module of the longest prefix. *)
Example ident_5 : layout_ident 5%N = Ok "HomeAddress".
Proof. vm_compute. reflexivity. Qed.
Example least_5 : least_ident (iris_of 5%N) "HomeAddress".
Proof. apply C81_ident. exact ident_5. Qed.
Example module_3 : module_of geo (iris_of 3%N) (RsPath true [("geo", NoArgs); ("types", NoArgs)]).
Proof.
  left. exists [], "https://example.org/geo#address", []. split; [reflexivity|]. split; [|intros iri []].
  exists "https://example.org/geo#", "address". split; [right; now left|]. split; [reflexivity|].
  intros p path rest [[= <- <-]|[[= <- <-]|[]]] _; [cbn; auto 10|reflexivity].
Qed.
Example type_3 : layout_type geo 3%N = Ok (RPath false true [("geo", NoArgs); ("types", NoArgs); ("Address", NoArgs)]).
Proof. vm_compute. reflexivity. Qed.
Example type_2 : layout_type geo 2%N = Ok (ident_type "String").
Proof. vm_compute. reflexivity. Qed.
Example preset_2 : first_preset (iris_of 2%N) PsString.
Proof. exists [], "https://treeldr.org/prelude#string", []. split; [reflexivity|]. split; [reflexivity|intros iri []]. Qed.
Example bad_module : use_module "ex:" (RsPath false [("Vec", Angled [GTy (ident_type "u8")])]) [] = None.
Proof. reflexivity. Qed.

(** Two layouts with different IRIs have the same type. *)
Theorem C84_distinct_refuted : exists (r r' : N) ty, r <> r' /\ (forall iri, In iri (iris_of r) -> ~ In iri (iris_of r')) /\
  layout_type [] r = Ok ty /\ layout_type [] r' = Ok ty.
Proof.
  exists 3%N, 4%N, (ident_type "Address"). split; [discriminate|]. split; [|split; vm_compute; reflexivity].
  intros iri [<-|[]] [H|[]]. discriminate H.
Qed.

(** A registry with named layouts, then with an anonymous one. *)
Definition registry0 : layouts N := [(0%N, person_layout); (3%N, UnitL (Header 1 0 []) (VLit LUnit))].
Example registry0_generated : exists items, generate_layouts registry0 [] = Ok items /\ map item_ident items = ["Person"; "Address"].
Proof. eexists. split; [vm_compute; reflexivity|reflexivity]. Qed.
Theorem C84_anonymous_refuted : exists (ls : layouts N), bt_wf ls /\
  (forall r l, In (r, l) ls -> layout_named l) /\ forall o items, bt_wf o -> generate_layouts ls o <> Ok items.
Proof.
  exists (registry0 ++ [(6%N, Always)])%list. split; [repeat constructor|]. split.
  - intros r l [[= <- <-]|[[= <- <-]|[[= <- <-]|[]]]]; [apply person_expressible|intros q []|exact I].
  - intros o items W. apply (C84_anonymous (registry0 ++ [(6%N, Always)])%list o 6%N Always W); [repeat constructor|now right; right; left|reflexivity].
Qed.

(** ** Assumptions *)
Print Assumptions C80_declares.
Print Assumptions C80_faithful_partial.
Print Assumptions C80_accepted.
Print Assumptions C80_literal_tuple.
Print Assumptions C80_set_rejected.
Print Assumptions C80_generates.
Print Assumptions C80_optional_refuted.
Print Assumptions C80_constant_refuted.
Print Assumptions C80_resource_refuted.
Print Assumptions C80_variants_refuted.
Print Assumptions C80_literal_refuted.
Print Assumptions C80_set_refuted.
Print Assumptions C81_ident.
Print Assumptions C81_no_ident.
Print Assumptions C81_type.
Print Assumptions C81_typed.
Print Assumptions C81_use_module.
Print Assumptions C81_reference.
Print Assumptions C84_registry_partial.
Print Assumptions C84_anonymous.
Print Assumptions C84_distinct_refuted.
Print Assumptions C84_anonymous_refuted.

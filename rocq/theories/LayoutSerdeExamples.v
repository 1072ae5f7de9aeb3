(** * Compiled layouts and serde: witnesses and counter-examples for C106 *)

From Coq Require Import String Ascii List Bool Arith NArith ZArith QArith Qcanon Sorting.Sorted Lia.
Import ListNotations.
From Verif Require Import Base BaseProofs Orders PatternModel MatchingModel ValueModel LayoutModel HydrateModel RegexpModel AbsModel
  DehydrateModel JsonModel JsonSpec JsonProperties AutomatonModel AutomatonSpec AbsSerdeModel AbsSerdeProofs TermModel MatchingSpec HydrateExamples
  LayoutSerdeModel LayoutSerdeSpec LayoutSerdeProofs LayoutSerdeProperties RegexpExamples.
Open Scope list_scope.
Open Scope nat_scope.
Open Scope string_scope.

(** ** An implementation for terms, with rationals for floats *)
Notation sv := (serde_value Qc).
Definition put_term (t : term) : sv :=
  match t with
  | TmIri i => put_variant "iri" (SStr i)
  | TmBlank b => put_variant "blank" (SStr b)
  | TmLit (RdfLiteral v (TypeAny ty)) => SSeq [SStr v; SStr ty]
  | TmLit (RdfLiteral v (TypeLang tag)) => SSeq [SStr v; SUnit; SStr tag]
  end.
Definition get_term (s : sv) : outcome unit term :=
  match s with
  | SMap [(SStr k, SStr s)] =>
      if String.eqb k "iri" then Ok (TmIri s) else if String.eqb k "blank" then Ok (TmBlank s) else Err tt
  | SSeq [SStr v; SStr ty] => Ok (TmLit (RdfLiteral v (TypeAny ty)))
  | SSeq [SStr v; SUnit; SStr tag] => Ok (TmLit (RdfLiteral v (TypeLang tag)))
  | _ => Err tt
  end.
Lemma term_get t : get_term (put_term t) = Ok t.
Proof. destruct t as [i|b|[v [ty|tag]]]; reflexivity. Qed.

(** Patterns in datasets: variables are written in unary. *)
Definition put_pat (p : pattern term) : sv :=
  match p with PRes t => SSeq [put_term t] | PVar x => SSeq (SUnit :: repeat SUnit x) end.
Definition get_pat (s : sv) : outcome unit (pattern term) :=
  match s with
  | SSeq (SUnit :: l) => Ok (PVar (length l))
  | SSeq [t] => let* t := get_term t in Ok (PRes t)
  | _ => Err tt
  end.
Lemma pat_get p : get_pat (put_pat p) = Ok p.
Proof.
  destruct p as [t|x]; cbn [put_pat].
  - pose proof (term_get t) as E. destruct t as [i|b|[v [ty|tag]]]; cbn [put_term put_variant] in *; cbn [get_pat]; rewrite E; reflexivity.
  - cbn [get_pat]. now rewrite repeat_length.
Qed.
Definition put_quad (q : qpat term) : sv :=
  SSeq [put_pat (q_s q); put_pat (q_p q); put_pat (q_o q);
        SSeq match q_g q with Some g => [put_pat g] | None => [] end].
Definition get_quad (s : sv) : outcome unit (qpat term) :=
  match s with
  | SSeq [a; b; c; SSeq g] =>
      let* a := get_pat a in let* b := get_pat b in let* c := get_pat c in
      match g with
      | [] => Ok (Quad a b c None)
      | [g] => let* g := get_pat g in Ok (Quad a b c (Some g))
      | _ => Err tt
      end
  | _ => Err tt
  end.
Lemma quad_get q : get_quad (put_quad q) = Ok q.
Proof.
  destruct q as [a b c [g|]]; unfold put_quad, get_quad; cbn [q_s q_p q_o q_g]; rewrite !pat_get; reflexivity.
Qed.

#[local] Instance serde_terms : SerdeExternal term Qc := {
  put_resource := put_term;
  get_resource := get_term;
  put_dataset := fun d => SSeq (map put_quad d);
  get_dataset := de_vec get_quad;
  put_range := fun r => SSeq [SU64 (Z.of_N (fst r)); SU64 (Z.of_N (snd r))];
  get_range := fun s => match s with SSeq [SU64 a; SU64 b] => Ok (Z.to_N a, Z.to_N b) | _ => Err tt end
}.
Definition any_list (d : list (qpat term)) : Prop := True.

Example terms_faithful : faithful any_list.
Proof.
  split; [exact term_get|]. split.
  - intros [a b]. cbn. now rewrite !N2Z.id.
  - intros d _. cbn [get_dataset put_dataset serde_terms de_vec]. rewrite (traverse_map put_quad get_quad (fun q => q)); [now rewrite map_id|].
    intros q _. apply quad_get.
Qed.

Notation put := (put_layout (F := Qc) (fun q => q)).
Notation get := (get_layout (F := Qc) Some).
Notation writable := (writable (F := Qc) (fun q => q) Some any_list).

(** ** Layouts with fields, lists, patterns and extra properties *)
Lemma people_writable ref l : people_reg ref = Some l -> writable l [].
Proof.
  intros H. apply bt_get_In in H. cbn [people In] in H.
  repeat match goal with H : _ \/ _ |- _ => destruct H as [H|H] end; try contradiction; injection H as <- <-.
  all: constructor; [intros n H|intros x H|intros d H; exact I|intros v H|intros h fs H|intros d H|constructor|reflexivity];
    cbn in H; repeat (destruct H as [H|H]); try contradiction; try discriminate H;
    try (injection H as <-; lia); try (subst; lia);
    try (subst; split; [constructor|apply nu_lit; discriminate]);
    try (injection H as <- <-; repeat constructor; vm_compute; reflexivity).
Qed.

(** A registry that was read. *)
Definition read_reg (reg : registry term) : registry term := fun r =>
  match reg r with
  | Some l => match put l [] with Ok s => match get s with Ok (l', _) => Some l' | _ => None end | _ => None end
  | None => None
  end.
Example people_read : written_and_read (fun q => q) Some any_list people_reg (read_reg people_reg).
Proof.
  intros r. unfold read_reg. destruct (people_reg r) as [l|] eqn:X; [|reflexivity].
  pose proof (people_writable r l X) as W. destruct (C106_read _ _ _ terms_faithful l [] W) as (s & l' & S1 & S2 & _).
  exists [], s, l'. split; [exact W|]. split; [exact S1|]. split; [exact S2|]. now rewrite S1, S2.
Qed.
Example people_graphs r l i : people_reg r = Some l -> In i (items_of l) -> vf_graph (it_value i) <> Some None.
Proof.
  intros H. apply bt_get_In in H. cbn [people In] in H.
  repeat match goal with H : _ \/ _ |- _ => destruct H as [H|H] end; try contradiction; injection H as <- <-; cbn;
    intros; repeat match goal with H : _ \/ _ |- _ => destruct H | H : False |- _ => destruct H end; subst; discriminate.
Qed.
Example people_same fuel g ref ins :
  hydrate_with people_data (read_reg people_reg) fuel g ref ins = hydrate_with people_data people_reg fuel g ref ins.
Proof. exact (C106_hydrates_partial _ _ _ terms_faithful people_data _ _ people_read people_graphs fuel g ref ins). Qed.
Example people_hydrates : exists v,
  hydrate_with people_data (read_reg people_reg) 20 None (iri "person") [iri "alice"] = Ok v.
Proof. eexists. vm_compute. reflexivity. Qed.

(** An identifier with a pattern, a constant, extra properties. *)
Definition letters : layout term := IdL (Header 1 0 []) (PVar 0) (Some
  match compile_regexp (E := unit) 100 (RRepeat (range "a" "z") 1 None) with Ok d => d | _ => DetAutomaton 0 [] [] end).
Definition notes : list (term * term) := [(iri "color", text "blue"); (iri "size", TmLit (RdfLiteral "grand" (TypeLang "fr")))].
Example letters_compiled : compile (E := unit) 100 (PreId (Header 1 0 []) (PVar 0) (Some (RRepeat (range "a" "z") 1 None))) = Ok letters.
Proof. vm_compute. reflexivity. Qed.
Example letters_writable : writable letters notes.
Proof.
  constructor; cbn.
  - intros n [<-|[<-|[]]]; lia.
  - intros x [[= <-]|[]]. lia.
  - intros d _. exact I.
  - intros v [].
  - discriminate.
  - intros d [<-|[]]. vm_compute compile_regexp. cbv iota. repeat split; cbn.
    + repeat constructor.
    + repeat constructor; vm_compute; reflexivity.
    + intros q ts H. repeat match goal with H : _ \/ _ |- _ => destruct H | H : False |- _ => destruct H end;
        injection H as <- <-; repeat constructor; vm_compute; reflexivity.
    + intros q H. repeat match goal with H : _ \/ _ |- _ => destruct H | H : False |- _ => destruct H end; subst; lia.
    + destruct H as (ts & H1 & H2). cbn in H1.
      repeat match goal with H : _ \/ _ |- _ => destruct H as [H|H] | H : False |- _ => destruct H end; injection H1 as <- <-; lia.
    + destruct H as (ts & H1 & H2). cbn in H1.
      repeat match goal with H : _ \/ _ |- _ => destruct H as [H|H] | H : False |- _ => destruct H end; injection H1 as <- <-; cbn in H2;
      repeat match goal with H : _ \/ _ |- _ => destruct H as [H|H] | H : False |- _ => destruct H end; injection H2 as <- <-; lia.
  - repeat constructor; vm_compute; reflexivity.
  - intros [|]; discriminate.
Qed.
Example letters_back : exists s, put letters notes = Ok s /\ get s = Ok (letters, notes).
Proof.
  apply (C106_compiled_partial (fun q => q) Some any_list terms_faithful 100 _ letters notes letters_compiled).
  - discriminate.
  - exact letters_writable.
  - intros i [].
Qed.

(** ** The default graph is lost

    [in_default]: the value of a field is taken in the default graph, whatever the current graph is. *)
Definition named_text : layout term :=
  DataL (KTextString None) (Header 1 1 [Quad (PVar 0) (PRes (iri "name")) (PVar 1) None]) (PVar 1) (iri xsd_string).
Definition in_default : layout term :=
  ProductL no_header [(key "name", Field (Item 0 (VFormat (iri "text") [PVar 0] (Some None)) []) true)].
Definition graph_reg : registry term := layouts_get [(iri "text", named_text); (iri "record", in_default)].
Definition graph_data : dataset term := list_dataset [Quad (iri "alice") (iri "name") (text "Alice") None].

Example in_default_writable : writable in_default [].
Proof.
  constructor; cbn.
  - intros n [<-|[<-|[<-|[]]]]; lia.
  - intros x [[= <-]|[]]. lia.
  - intros d _. exact I.
  - intros v [<-|[]]. split; [constructor|apply nu_lit; discriminate].
  - intros h fs [= _ <-]. repeat constructor.
  - intros d [].
  - constructor.
  - reflexivity.
Qed.
Example named_text_writable : writable named_text [].
Proof.
  constructor; cbn.
  - intros n [<-|[<-|[]]]; lia.
  - intros x [[= <-]|[]]. lia.
  - intros d _. exact I.
  - intros v [].
  - discriminate.
  - intros d [].
  - constructor.
  - reflexivity.
Qed.
Example graph_read : written_and_read (fun q => q) Some any_list graph_reg (read_reg graph_reg).
Proof.
  intros r. unfold read_reg. destruct (graph_reg r) as [l|] eqn:X; [|reflexivity].
  assert (W : writable l []).
  { apply bt_get_In in X. destruct X as [X|[X|[]]]; injection X as _ <-; [apply named_text_writable|apply in_default_writable]. }
  destruct (C106_read _ _ _ terms_faithful l [] W) as (s & l' & S1 & S2 & _).
  exists [], s, l'. split; [exact W|]. split; [exact S1|]. split; [exact S2|]. now rewrite S1, S2.
Qed.

(** A layout read is not the layout written, and does not hydrate as it: the value in the default graph is not found. *)
Theorem C106_graph_refuted : exists l s l' reg reg' v e,
  writable l [] /\ put l [] = Ok s /\ get s = Ok (l', []) /\ l' <> l /\
  written_and_read (fun q => q) Some any_list reg reg' /\
  hydrate_with graph_data reg 5 (Some (iri "g")) (iri "record") [iri "alice"] = Ok v /\
  hydrate_with graph_data reg' 5 (Some (iri "g")) (iri "record") [iri "alice"] = Err e.
Proof.
  exists in_default. do 2 eexists. exists graph_reg, (read_reg graph_reg). do 2 eexists.
  split; [exact in_default_writable|]. split; [vm_compute; reflexivity|]. split; [vm_compute; reflexivity|]. split; [discriminate|].
  split; [exact graph_read|]. split; vm_compute; reflexivity.
Qed.

(** The constant zero is not written (see [C68_serde_refuted]). *)
Theorem C106_constant_refuted : exists w, put (UnitL no_header (VLit (LNum (Q2Qc 0)))) [] = Panic w.
Proof. eexists. vm_compute. reflexivity. Qed.

(** An automaton with a declared state that has no transitions is not read back exactly. *)
Theorem C106_states_refuted : exists d s d', automaton_ok d /\ put (IdL no_header (PVar 0) (Some d)) [] = Ok s /\
  get s = Ok (IdL no_header (PVar 0) (Some d'), []) /\ d' <> d.
Proof.
  exists (DetAutomaton 0 [1] [(0, [((97%N, 122%N), 1)]); (1, [])]). do 2 eexists. split.
  - repeat split; cbn.
    + repeat constructor.
    + repeat constructor; vm_compute; reflexivity.
    + intros q ts [[= <- <-]|[[= <- <-]|[]]]; repeat constructor.
    + intros q [->|[<-|[]]]; lia.
    + destruct H as (ts & [[= <- <-]|[[= <- <-]|[]]] & H2); lia.
    + destruct H as (ts & [[= <- <-]|[[= <- <-]|[]]] & H2); cbn in H2; [destruct H2 as [[= <- <-]|[]]; lia|destruct H2].
  - split; [vm_compute; reflexivity|]. split; [vm_compute; reflexivity|]. discriminate.
Qed.

Print Assumptions C106_read.
Print Assumptions C106_round_trip_partial.
Print Assumptions C106_equal_partial.
Print Assumptions C106_compiled_partial.
Print Assumptions C106_hydrates_partial.
Print Assumptions C106_dehydrates_partial.
Print Assumptions C106_graph_refuted.
Print Assumptions C106_constant_refuted.
Print Assumptions C106_states_refuted.

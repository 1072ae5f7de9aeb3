(** * C115: the layout documents that serde reads *)

From Coq Require Import String Ascii List Bool Arith NArith ZArith QArith Qcanon Lia.
Import ListNotations.
From Verif Require Import Base BaseProofs Orders PatternModel ValueModel LayoutModel NumberModel
  HydrateModel JsonModel RegexpModel AbsModel AbsJsonModel AbsJsonProofs AbsSerdeModel AbsSerdeProofs AbsSerdeTotal
  SerdeDocSpec SerdeDocProofs SerdeDocLeaves SerdeDocNested SerdeDocBody.
Open Scope list_scope.
Open Scope nat_scope.

Section Properties.
Context {TS : TextSyntax} {F : Type} (from_f64 : F -> option Qc).
Notation sv := (serde_value F).
Notation object := (list (string * sv)).

(** [Layout::deserialize] reads exactly the documents of the grammar of SerdeDocSpec.v, as the layouts they describe. *)
Theorem C115_reads (s : sv) l : layout_deserialize from_f64 s = Ok l <-> layout_sdoc from_f64 s l.
Proof. apply de_layout_iff. apply le_n. Qed.

(** Everything else is an error. *)
Theorem C115_refuses (s : sv) : (forall l, ~ layout_sdoc from_f64 s l) <-> layout_deserialize from_f64 s = Err tt.
Proof.
  split.
  - intros H. destruct (safe_de_layout from_f64 (sv_size s) s (le_n _)) as [(l & E)|E]; [|exact E]. elim (H l). now apply C115_reads.
  - intros E l H. apply C115_reads in H. congruence.
Qed.

(** A document that is read is a boolean, or a map whose keys are distinct texts, among them the type, which determines the others. *)
Theorem C115_entries (s : sv) l : layout_deserialize from_f64 s = Ok l ->
  (exists b, s = SBool b /\ l = ABool b) \/
  exists o ty, s = text_map o /\ NoDup (map fst o) /\ In ("type"%string, SStr ty) o /\
    In ty ["unit"; "boolean"; "number"; "bytes"; "string"; "id"; "record"; "sum"; "list"; "set"; "tuple"; "union"; "intersection"]%string /\
    forall k, In k (map fst o) -> k = "type"%string \/ In k ["base"; "prefixes"; "id"; "input"; "intro"; "dataset"; "extra"]%string \/ In k (own_fields ty).
Proof.
  intros E. apply C115_reads in E.
  assert (M : forall ty (o : object) h, layout_map ty s o h ->
    In ty ["unit"; "boolean"; "number"; "bytes"; "string"; "id"; "record"; "sum"; "list"; "set"; "tuple"; "union"; "intersection"]%string ->
    exists o ty, s = text_map o /\ NoDup (map fst o) /\ In ("type"%string, SStr ty) o /\
    In ty ["unit"; "boolean"; "number"; "bytes"; "string"; "id"; "record"; "sum"; "list"; "set"; "tuple"; "union"; "intersection"]%string /\
    forall k, In k (map fst o) -> k = "type"%string \/ In k ["base"; "prefixes"; "id"; "input"; "intro"; "dataset"; "extra"]%string \/ In k (own_fields ty)).
  { intros ty o h (A & B & C & G & _) I. exists o, ty. auto 10. }
  destruct E; [left; eauto|right..]; eapply M; try eassumption; cbn; tauto.
Qed.

(** The entries of the header that have a default may be left out; they cannot be [null], unlike [base] and [id]. *)
Theorem C115_null (o : object) k l : In k ["prefixes"; "input"; "intro"; "dataset"; "extra"]%string -> In (k, SUnit) o ->
  layout_deserialize from_f64 (text_map o) <> Ok l.
Proof.
  intros K I E. apply C115_reads in E.
  assert (M : forall ty o' h, layout_map (F := F) ty (text_map o) o' h -> False).
  { intros ty o' h (X & ND & _ & _ & H). apply text_map_inj in X as <-. destruct H as (_ & P & _ & N & T & Dd & X).
    assert (G : forall A (R : sv -> A -> Prop) d x, (forall a, ~ R SUnit a) -> given_or o k R d x -> False).
    { intros A R d x NR [(s & J & HR)|[J _]].
      - apply (NR x). now rewrite (unrepeated_one o k SUnit s (NoDup_unrepeated o k ND) I J).
      - apply J. apply in_map_iff. now exists (k, SUnit). }
    cbn [In] in K. repeat (destruct K as [<-|K]); [..|destruct K].
    - eapply G; [|exact P]. intros a (e & r & Y & _). discriminate Y.
    - eapply G; [|exact N]. intros a [(ss & Y & _)|(x & _ & Y)]; discriminate Y.
    - eapply G; [|exact T]. intros a [(ss & Y & _)|(x & _ & Y)]; discriminate Y.
    - eapply G; [|exact Dd]. intros a (ss & Y & _). discriminate Y.
    - eapply G; [|exact X]. intros a (e & r & Y & _). discriminate Y. }
  remember (text_map o) as s eqn:Es. destruct E; try (subst; eapply M; eassumption). discriminate Es.
Qed.

(** A literal without type is read as a plain string, whatever its language is. *)
Theorem C115_untyped (o : object) v : unrepeated o "value" -> given o "value" string_sdoc v -> ~ In "type"%string (map fst o) ->
  @de_pattern TS F (text_map o) = Ok (ALiteral v (ATypeIri xsd_string)).
Proof. intros U G N. apply s_pattern. now constructor. Qed.

(** The language is only read when a type is given and is not an IRI. *)
Theorem C115_language (o : object) v tag : @de_pattern TS F (text_map o) = Ok (ALiteral v (ATypeLang tag)) ->
  exists s, In ("type"%string, s) o /\ (unrepeated o "type" -> forall i, s = SStr i -> is_iri_ref i = false).
Proof.
  intros E. apply s_pattern in E. remember (text_map o) as s eqn:Es. remember (ALiteral v (ATypeLang tag)) as p eqn:Ep.
  destruct E; try discriminate Ep. apply text_map_inj in Es as ->. apply in_map_iff in H1 as ([k s'] & Ek & I). cbn in Ek. subst k.
  exists s'. split; [exact I|]. intros U i ->. apply not_true_is_false. intros Hi. apply H2. split; [exact U|]. exists i, (SStr i). repeat split; auto.
Qed.

(** The parts of layouts may be given as sequences of the first fields, which the layouts themselves cannot. *)
Theorem C115_sequence (l : list sv) : layout_deserialize from_f64 (SSeq l) = Err tt.
Proof. apply C115_refuses. intros x H. destruct (layout_shape from_f64 _ _ H) as [(b & X)|(o & X & _)]; discriminate X. Qed.
End Properties.

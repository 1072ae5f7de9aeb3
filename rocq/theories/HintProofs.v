(** * The types that are announced by the errors *)

From Coq Require Import String Ascii List Bool Arith Lia.
Import ListNotations.
From Verif Require Import Base BaseProofs Orders JsonModel ValueModel AbsModel AbsJsonModel PositionModel PositionSpec PositionProofs PositionProperties
  HintModel HintSpec.
Open Scope list_scope.
Open Scope nat_scope.
Open Scope string_scope.

Lemma string_app_assoc (a b c : string) : (a ++ b) ++ c = a ++ b ++ c.
Proof. induction a as [|x a IH]; cbn; [reflexivity|now rewrite IH]. Qed.
Lemma string_app_nil (a : string) : a ++ "" = a.
Proof. induction a as [|x a IH]; cbn; [reflexivity|now rewrite IH]. Qed.
Lemma string_app_inv_tail : forall (a b c : string), a ++ c = b ++ c -> a = b.
Proof.
  assert (L : forall a c : string, String.length (a ++ c) = String.length a + String.length c).
  { intros a c. induction a; cbn; [reflexivity|now f_equal]. }
  induction a as [|x a IH]; intros [|y b] c H; cbn [append] in H; [reflexivity| | |].
  - apply (f_equal String.length) in H. cbn [String.length] in H. rewrite L in H. lia.
  - apply (f_equal String.length) in H. cbn [String.length] in H. rewrite L in H. lia.
  - injection H as -> H. f_equal. exact (IH _ _ H).
Qed.

Definition fine {A} (m : outcome abs_error A) : Prop := forall ex f, m = Err (InvalidType ex f) -> ex = layout_types.
Definition fine_reader {I A} (p : I -> outcome abs_error A) : Prop := forall j, fine (p j).

Lemma fine_ok {A} (a : A) : fine (Ok a). Proof. discriminate. Qed.
Lemma fine_bind {A B} (m : outcome abs_error A) (k : A -> outcome abs_error B) : fine m -> (forall a, fine (k a)) -> fine (bind m k).
Proof. intros H1 H2 ex f E. destruct m; cbn in E; try discriminate; [now apply (H2 a ex f)|]. injection E as ->. now apply (H1 ex f). Qed.
Lemma fine_traverse {A B} (p : A -> outcome abs_error B) l : fine_reader p -> fine (traverse p l).
Proof.
  intros H. induction l as [|a l IH]; cbn [traverse]; [apply fine_ok|].
  apply fine_bind; [apply H|]. intros b. apply fine_bind; [exact IH|]. intros; apply fine_ok.
Qed.
Lemma fine_unique o k : fine (get_unique o k).
Proof. unfold get_unique. destruct (entries_of k o 0) as [|? [|]]; discriminate. Qed.
Lemma fine_check o : forall u, fine (unused_check o u).
Proof. induction o as [|[k j] o IH]; intros [|[] u]; cbn [unused_check]; first [discriminate|apply IH]. Qed.
Lemma fine_with {A} o (m : entries A) : fine_reader m -> fine (with_entries o m).
Proof. intros H. apply fine_bind; [apply H|]. intros r. apply fine_bind; [apply fine_check|]. intros; apply fine_ok. Qed.
Lemma fine_ebind {A B} (m : entries A) (k : A -> entries B) : fine_reader m -> (forall a, fine_reader (k a)) -> fine_reader (e_bind m k).
Proof. intros H1 H2 u. apply fine_bind; [apply H1|]. intros r. apply H2. Qed.
Lemma fine_eret {A} (a : A) : fine_reader (e_ret a). Proof. intros u. apply fine_ok. Qed.
Lemma fine_get {T} o k (p : json -> outcome abs_error T) : fine_reader p -> fine_reader (get_entry o k p).
Proof.
  intros H u. apply fine_bind; [apply fine_unique|]. intros [[i j]|]; [|apply fine_ok].
  apply fine_bind; [apply H|]. intros; apply fine_ok.
Qed.
Lemma fine_get_or {T} o k (p : json -> outcome abs_error T) d : fine_reader p -> fine_reader (get_entry_or o k p d).
Proof. intros H. apply fine_ebind; [now apply fine_get|]. intros; apply fine_eret. Qed.
Lemma fine_require {T} o k (p : json -> outcome abs_error T) : fine_reader p -> fine_reader (require_entry o k p).
Proof.
  intros H u. apply fine_bind; [apply fine_unique|]. intros [[i j]|]; [|discriminate].
  apply fine_bind; [apply H|]. intros; apply fine_ok.
Qed.
Lemma fine_string : fine_reader from_string. Proof. intros []; discriminate. Qed.
Lemma fine_bool : fine_reader from_bool. Proof. intros []; discriminate. Qed.
Lemma fine_vec {T} (p : json -> outcome abs_error T) : fine_reader p -> fine_reader (from_vec p).
Proof. intros H []; try discriminate. now apply fine_traverse. Qed.
Lemma fine_map {K V} {CK : Cmp K} (pk : string -> outcome abs_error K) (p : json -> outcome abs_error V) :
  fine_reader pk -> fine_reader p -> fine_reader (from_btreemap pk p).
Proof.
  intros HK H []; try discriminate. apply fine_bind; [|intros; apply fine_ok]. apply fine_traverse. intros e.
  apply fine_bind; [apply HK|]. intros k. apply fine_bind; [apply H|]. intros; apply fine_ok.
Qed.
Lemma fine_option {T} (p : json -> outcome abs_error T) : fine_reader p -> fine_reader (from_option p).
Proof. intros H []; first [apply fine_ok|apply fine_bind; [apply H|intros; apply fine_ok]]. Qed.
Lemma fine_many {T} (p : json -> outcome abs_error T) : fine_reader p -> fine_reader (one_or_many p).
Proof. intros H []; cbn [one_or_many]; first [now apply fine_traverse|apply fine_bind; [apply H|intros; apply fine_ok]]. Qed.
Lemma fine_key : fine_reader (fun s : string => Ok s : outcome abs_error string). Proof. intros s. apply fine_ok. Qed.
Lemma fine_type o : fine (require_type o).
Proof. apply fine_bind; [apply fine_unique|]. intros [[i []]|]; discriminate. Qed.
Lemma fine_check_type o ty : (exists i, require_type o = Ok (i, ty)) -> fine_reader (check_type o ty).
Proof. intros (i & E) u. unfold check_type. rewrite E. cbn [bind fst snd]. rewrite String.eqb_refl. apply fine_ok. Qed.
Lemma fine_no_error {A} (m : outcome Empty_set A) : fine (no_error m : outcome abs_error A).
Proof. destruct m as [|[]| |]; discriminate. Qed.

Section Read.
Context {TS : TextSyntax}.

Lemma fine_iri_str : fine_reader iri_from_str.
Proof. intros s. unfold iri_from_str. destruct (is_iri_ref s); discriminate. Qed.
Lemma fine_iri : fine_reader iri_from_json.
Proof. intros j. apply fine_bind; [apply fine_string|]. intros. apply fine_iri_str. Qed.

Ltac fine_step := repeat first
  [ apply fine_with | apply fine_ebind; [|intros] | apply fine_eret | apply fine_get_or | apply fine_get | apply fine_require
  | apply fine_string | apply fine_bool | apply fine_iri | apply fine_iri_str | apply fine_key | apply fine_vec | apply fine_map | apply fine_option | apply fine_many
  | assumption ].

Lemma fine_literal : fine_reader literal_value_from.
Proof.
  intros o. unfold literal_value_from. fine_step. destruct a; fine_step. intros u. destruct (is_lang_tag a); discriminate.
Qed.
Lemma fine_pattern : fine_reader pattern_from_json.
Proof.
  intros [|b|n|s|l|o]; try discriminate; [|apply fine_literal]. cbn [pattern_from_json].
  destruct (blank_suffix s); [discriminate|]. destruct (is_iri_ref s); discriminate.
Qed.
Lemma fine_quad : fine_reader quad_from_json.
Proof.
  intros [| | | |[|s [|p [|o g]]]|]; try discriminate. cbn [quad_from_json].
  destruct g as [|g [|]]; try discriminate;
    repeat (apply fine_bind; [apply fine_pattern|intros]); apply fine_ok.
Qed.
Lemma fine_dataset : fine_reader dataset_from_json. Proof. apply fine_vec, fine_quad. Qed.
Lemma fine_resource : fine_reader resource_from_json.
Proof.
  intros [|b|n|s|l|o]; try discriminate.
  - cbn [resource_from_json]. destruct (has_dot n); [discriminate|]. destruct (parse_i64 n); discriminate.
  - cbn [resource_from_json]. unfold typed_string_from. fine_step.
Qed.
Lemma fine_regexp : fine_reader regexp_from_json.
Proof. intros j. apply fine_bind; [apply fine_string|]. intros s. destruct (RegexpModel.re_parse (chars s)); discriminate. Qed.
Lemma fine_const : fine_reader const_from_json. Proof. intros j. apply fine_no_error. Qed.
Lemma fine_header o : fine_reader (header_from o).
Proof. unfold header_from. fine_step. all: first [apply fine_quad|apply fine_resource]. Qed.

Section Nested.
Context (nested : object -> outcome abs_error alayout) (HN : fine_reader nested).

Lemma fine_ref : fine_reader (ref_from_json nested).
Proof. intros []; try discriminate; cbn [ref_from_json]; (apply fine_bind; [first [apply fine_iri_str|apply HN]|intros; apply fine_ok]). Qed.
Ltac more := repeat first [progress fine_step|apply fine_header|apply fine_quad|apply fine_resource|apply fine_pattern|apply fine_regexp|apply fine_const|apply fine_ref].
Lemma fine_format d : fine_reader (format_from_json nested d).
Proof.
  intros []; try discriminate; cbn [format_from_json]; [apply fine_bind; [apply fine_iri_str|intros; apply fine_ok]|].
  destruct (contains_key _ _); [apply fine_bind; [apply HN|intros; apply fine_ok]|]. unfold format_from. more.
Qed.
Lemma fine_object {A} (k : object -> outcome abs_error A) : fine_reader k -> fine_reader (fun j => bind (expect_object j) k).
Proof. intros H j. apply fine_bind; [destruct j; discriminate|]. exact H. Qed.
Lemma fine_item : fine_reader (item_from_json nested).
Proof. apply fine_object. intros o. more; apply fine_format. Qed.
Lemma fine_field : fine_reader (field_from_json nested).
Proof. apply fine_object. intros o. more; apply fine_format. Qed.
Lemma fine_variant : fine_reader (variant_from_json nested).
Proof. apply fine_object. intros o. more; apply fine_format. Qed.
Lemma fine_node : fine_reader (node_from_json nested).
Proof.
  intros []; try discriminate; cbn [node_from_json]; [apply fine_bind; [apply fine_iri_str|intros; apply fine_ok]|].
  destruct (contains_key _ _); [apply fine_bind; [apply HN|intros; apply fine_ok]|]. unfold node_from. more. apply fine_format.
Qed.
Lemma fine_body : fine_reader (object_body nested).
Proof.
  intros o. unfold object_body. destruct (require_type o) as [[i s]|e| |] eqn:E; cbn [bind fst snd]; try discriminate.
  2: { pose proof (fine_type o) as H. rewrite E in H. intros ex f X. apply (H ex f). congruence. }
  repeat match goal with |- context [String.eqb s ?t] => destruct (String.eqb_spec s t) as [->|?] end.
  14: { intros ex f X. injection X as <- _. reflexivity. }
  all: unfold id_from, unit_from, boolean_from, number_from, bytes_from, text_from, product_from, sum_from, ordered_from, unordered_from, sized_from, union_from, intersection_from;
    apply fine_with; (apply fine_ebind; [apply fine_check_type; eauto|intros _]); more;
    first [apply fine_field|apply fine_variant|apply fine_node|apply fine_item].
Qed.
End Nested.

Lemma fine_layout : fine_reader layout_from_json.
Proof.
  intros [|b|n|s|a|l]; try discriminate. cbn [layout_from_json]. generalize (json_size (JObj l)) as n. revert l.
  assert (H : forall n, fine_reader (object_from n)).
  { induction n as [|n IH]; [intros o; discriminate|]. apply fine_body. exact IH. }
  intros l n. apply H.
Qed.

(** An object that is read has one of the types. *)
Lemma entries_single k : forall o n i j, entries_of k o n = [(i, j)] -> forall j', In (k, j') o -> j' = j.
Proof.
  induction o as [|[k' j0] o IH]; cbn [entries_of]; intros n i j E j' HI; [destruct HI|].
  destruct (String.eqb_spec k' k) as [->|N].
  - injection E as <- <- E. destruct HI as [HI|HI]; [congruence|]. exfalso. apply (entries_of_none k o (S n) E). now exists j'.
  - destruct HI as [HI|HI]; [congruence|]. exact (IH _ _ _ E _ HI).
Qed.
Lemma read_type o l t : layout_from_json (JObj o) = Ok l -> In ("type", JStr t) o -> In t layout_types.
Proof.
  cbn [layout_from_json]. destruct (json_size (JObj o)); [discriminate|]. cbn [object_from]. unfold object_body, require_type, get_unique.
  intros E HI. destruct (entries_of "type" o 0) as [|[i j] [|]] eqn:ET; cbn [bind] in E; try discriminate.
  rewrite <- (entries_single _ _ _ _ _ ET _ HI) in E. cbn [bind fst snd] in E.
  repeat match type of E with context [String.eqb t ?s] => destruct (String.eqb_spec t s) as [->|?]; [unfold layout_types; cbn [In]; tauto|] end.
  discriminate E.
Qed.
End Read.

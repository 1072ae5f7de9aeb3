(** * C116: reading compiled layouts with serde never panics *)

From Coq Require Import String Ascii List Bool Arith NArith ZArith QArith Qcanon Lia.
Import ListNotations.
From Verif Require Import Base BaseProofs Orders PatternModel ValueModel LayoutModel NumberModel HydrateModel JsonModel
  AutomatonModel AbsSerdeModel AbsSerdeTotal LayoutSerdeModel SerdeDocSpec LayoutDocSpec LayoutDocProperties.
Open Scope list_scope.
Open Scope nat_scope.

Section Total.
Context {R F : Type} {CR : Cmp R} {SE : SerdeExternal R F} (from_f64 : F -> option Qc).
Notation sv := (serde_value F).

(** The external readers give a result or an error. *)
Hypothesis total_resource : forall s : sv, settled (get_resource (R := R) s).
Hypothesis total_dataset : forall s : sv, settled (get_dataset (R := R) s).
Hypothesis total_range : forall s : sv, settled (get_range (R := R) s).

Definition total {T} (de : sv -> outcome unit T) : Prop := forall s, settled (de s).
Lemma t_safe {T} (de : sv -> outcome unit T) : (forall n, safe n de) -> total de.
Proof. intros H s. exact (H (sv_size s) s (le_n _)). Qed.
Lemma t_require {T} (o : @fields F) k (de : sv -> outcome unit T) : total de -> settled (f_require o k de).
Proof. intros H. destruct (small_any o) as (n & S). apply (settled_require n); [exact S|]. intros s _. apply H. Qed.
Lemma t_default {T} (o : @fields F) k (de : sv -> outcome unit T) d : total de -> settled (f_default o k de d).
Proof. intros H. destruct (small_any o) as (n & S). apply (settled_default n); [exact S|]. intros s _. apply H. Qed.
Lemma t_option {T} (de : sv -> outcome unit T) : total de -> total (de_option de).
Proof. intros H. apply t_safe. intros n. apply safe_option. intros s _. apply H. Qed.
Lemma t_foption {T} (o : @fields F) k (de : sv -> outcome unit T) : total de -> settled (f_option o k de).
Proof. intros H. apply t_default. now apply t_option. Qed.
Lemma t_vec {T} (de : sv -> outcome unit T) : total de -> total (de_vec de).
Proof. intros H s. apply (safe_vec (sv_size s)); [intros s' _; apply H|lia]. Qed.
Lemma t_map {K V} {CK : Cmp K} (dk : sv -> outcome unit K) (de : sv -> outcome unit V) : total dk -> total de -> total (de_btreemap dk de).
Proof. intros HK H. apply t_safe. intros n. apply safe_map; intros s _; auto. Qed.
Lemma t_struct names (s : sv) : settled (get_struct names s).
Proof.
  destruct s; cbn [get_struct]; try apply settled_err; [destruct (Nat.eqb _ _); [apply settled_ok|apply settled_err]|apply named_settled].
Qed.
Lemma t_nat bits : total (get_nat (F := F) bits).
Proof. intros []; cbn [get_nat]; try apply settled_err; destruct (_ && _)%Z; first [apply settled_ok|apply settled_err]. Qed.
Lemma t_variant (s : sv) : settled (get_variant s).
Proof. destruct s as [| | | | |t| | |[|[[] x] []]]; cbn; first [apply settled_ok|apply settled_err]. Qed.
Lemma t_content (c : option sv) : settled (content c).
Proof. destruct c; [apply settled_ok|apply settled_err]. Qed.
Lemma t_pattern : total (get_pattern (R := R)).
Proof.
  intros s. apply settled_bind; [apply t_variant|]. intros [n c] _. apply settled_bind; [apply t_content|]. intros x _. cbn [fst].
  destruct (String.eqb n "Resource"); [apply settled_bind; [apply total_resource|intros; apply settled_ok]|].
  destruct (String.eqb n "Var"); [|apply settled_err]. apply settled_bind; [apply t_nat|intros; apply settled_ok].
Qed.
Lemma t_transition : total (get_transition (R := R)).
Proof.
  intros s. destruct s as [| | | | | | |[|a [|b [|c [|]]]]|]; cbn [get_transition]; try apply settled_err.
  apply settled_bind; [apply t_nat|intros]. apply settled_bind; [apply total_range|intros]. apply settled_bind; [apply t_nat|intros; apply settled_ok].
Qed.
Lemma t_string : total (@de_string F). Proof. apply t_safe. intros n. apply safe_string. Qed.
Lemma t_bool : total (@de_bool F). Proof. apply t_safe. intros n. apply safe_bool. Qed.
Lemma t_value : total (value_deserialize from_f64). Proof. apply t_safe. intros n. apply safe_value. Qed.

Ltac leaf := first [exact total_resource|exact total_dataset|apply t_nat|exact t_pattern|exact t_transition|exact t_string|exact t_bool|exact t_value
  |apply t_vec; leaf|apply t_option; leaf|apply t_map; leaf|assumption].
Ltac step := apply settled_bind; [first [apply t_struct|apply t_require; leaf|apply t_foption; leaf|apply t_default; leaf|assumption]|intros ? _].
Ltac steps := repeat step; apply settled_ok.

Lemma t_format : total (get_format (R := R)). Proof. intros s. unfold get_format. steps. Qed.
Lemma t_automaton : total (get_automaton (R := R)). Proof. intros s. unfold get_automaton. steps. Qed.
Lemma t_item_fields (o : @fields F) : settled (get_item_fields (R := R) o).
Proof. pose proof t_format. unfold get_item_fields. steps. Qed.
Lemma t_header (o : @fields F) : settled (get_header (R := R) o).
Proof. unfold get_header, get_extra. steps. Qed.
Lemma t_item : total (get_item (R := R)).
Proof. intros s. unfold get_item. step. apply t_item_fields. Qed.
Lemma t_field : total (get_field (R := R)).
Proof. intros s. unfold get_field. step. apply settled_bind; [apply t_item_fields|intros ? _]. steps. Qed.
Lemma t_sum_variant : total (get_sum_variant (R := R)).
Proof. intros s. unfold get_sum_variant. step. step. apply settled_bind; [apply t_item_fields|intros ? _]. apply settled_ok. Qed.

Ltac body := step; (apply settled_bind; [apply t_header|intros ? _]); steps.
Lemma t_data : total (get_data (R := R) from_f64).
Proof.
  pose proof t_automaton. intros s. unfold get_data. apply settled_bind; [apply t_variant|]. intros [n c] _. apply settled_bind; [apply t_content|]. intros x _. cbn [fst].
  repeat (match goal with |- context [String.eqb ?a ?b] => destruct (String.eqb a b) end; [body|]). apply settled_err.
Qed.
Lemma t_literal : total (get_literal (R := R) from_f64).
Proof.
  pose proof t_automaton. intros s. unfold get_literal. apply settled_bind; [apply t_variant|]. intros [n c] _. apply settled_bind; [apply t_content|]. intros x _. cbn [fst].
  destruct (String.eqb n "Data"); [apply t_data|]. destruct (String.eqb n "Id"); [body|apply settled_err].
Qed.
Lemma t_list : total (get_list (R := R)).
Proof.
  pose proof t_item. intros s. unfold get_list. apply settled_bind; [apply t_variant|]. intros [n c] _. apply settled_bind; [apply t_content|]. intros x _. cbn [fst].
  repeat (match goal with |- context [String.eqb ?a ?b] => destruct (String.eqb a b) end; [body|]). apply settled_err.
Qed.
Lemma t_layout : total (get_layout (R := R) from_f64).
Proof.
  pose proof t_field. pose proof t_sum_variant. intros s. unfold get_layout. apply settled_bind; [apply t_variant|]. intros [n c] _. cbn [fst snd].
  assert (N : settled (no_content c)) by (destruct c as [[]|]; first [apply settled_ok|apply settled_err]).
  destruct (String.eqb n "Never"); [steps|]. destruct (String.eqb n "Always"); [steps|]. apply settled_bind; [apply t_content|]. intros x _.
  destruct (String.eqb n "Literal"); [apply t_literal|]. destruct (String.eqb n "List"); [apply t_list|].
  destruct (String.eqb n "Product"); [unfold get_fields; body|]. destruct (String.eqb n "Sum"); [body|apply settled_err].
Qed.

(** What is not in the grammar is an error. *)
Theorem C116_refuses (s : sv) : (forall l ex, ~ layout_ldoc (R := R) from_f64 s l ex) <-> get_layout (R := R) from_f64 s = Err tt.
Proof.
  split.
  - intros H. destruct (t_layout s) as [([l ex] & E)|E]; [|exact E]. elim (H l ex). now apply C116_reads.
  - intros E l ex H. apply C116_reads in H. congruence.
Qed.
End Total.

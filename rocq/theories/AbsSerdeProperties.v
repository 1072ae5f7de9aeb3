(** * C72, C85: the serde forms of layouts *)

From Coq Require Import String Ascii List Bool Arith NArith ZArith QArith Qcanon Lia.
Import ListNotations.
From Verif Require Import Base BaseProofs Orders PatternModel ValueModel LayoutModel NumberModel HydrateModel
  JsonModel JsonSpec JsonProperties RegexpModel AbsModel AbsSpec AbsJsonModel AbsJsonSpec AbsJsonProofs
  AbsSerdeModel AbsSerdeSpec AbsSerdeProofs AbsSerdeBack AbsSerdeAgree AbsSerdeTotal.
Open Scope list_scope.
Open Scope nat_scope.

Section Properties.
Context {TS : TextSyntax} {TP : TextPrint} {TL : TextLaws} {F : Type}.
Context (to_f64 : Qc -> F) (from_f64 : F -> option Qc).

(** ** C72 *)

(** A layout whose parts are preserved is written, and what is written is read as this layout, whether
    lists of one element are written as one element or as lists. *)
Theorem C72_roundtrip_partial many l : plain_layout to_f64 from_f64 l ->
  exists s, layout_serialize to_f64 many l = Ok s /\ layout_deserialize from_f64 s = Ok l.
Proof.
  intros H. destruct (layout_written to_f64 from_f64 many l) as (s & E); [intros l' I; exact (proj1 (H l' I))|].
  exists s. split; [exact E|]. exact (layout_back to_f64 from_f64 many (sv_size s) l s E H (le_n _)).
Qed.

(** Two such layouts written alike are the same layout. *)
Theorem C72_injective_partial many l l' s : plain_layout to_f64 from_f64 l -> plain_layout to_f64 from_f64 l' ->
  layout_serialize to_f64 many l = Ok s -> layout_serialize to_f64 many l' = Ok s -> l = l'.
Proof.
  intros H H' E E'. pose proof (layout_back to_f64 from_f64 many (sv_size s) l s E H (le_n _)).
  pose proof (layout_back to_f64 from_f64 many (sv_size s) l' s E' H' (le_n _)). congruence.
Qed.

(** ** C85 *)

(** Reading with serde gives a layout or an error: no panic, whatever is read. *)
Theorem C85_total (s : serde_value F) :
  (exists l, layout_deserialize from_f64 s = Ok l) \/ layout_deserialize from_f64 s = Err tt.
Proof. exact (safe_de_layout from_f64 (sv_size s) s (le_n _)). Qed.

(** A document read by the JSON reader is read by serde as the same layout, when it has no literal with a
    language and when the numbers are presented alike. *)
Theorem C85_agree_partial ap json_float j l s :
  layout_from_json j = Ok l -> without_language l -> numbers_alike ap json_float from_f64 j ->
  json_serde ap json_float j = Ok s -> layout_deserialize from_f64 s = Ok l.
Proof.
  intros E W A S. apply layout_iff in E.
  rewrite <- (forget_same l W). exact (layout_agrees ap json_float from_f64 (sv_size s) j l s E A S (le_n _)).
Qed.

(** In general the languages are lost. *)
Theorem C85_forgets ap json_float j l s :
  layout_from_json j = Ok l -> numbers_alike ap json_float from_f64 j ->
  json_serde ap json_float j = Ok s -> layout_deserialize from_f64 s = Ok (forget_language l).
Proof. intros E A S. apply layout_iff in E. exact (layout_agrees ap json_float from_f64 (sv_size s) j l s E A S (le_n _)). Qed.
End Properties.

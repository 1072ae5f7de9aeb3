(** * The serde reader of layouts always gives a layout or an error *)

From Coq Require Import String Ascii List Bool Arith NArith ZArith QArith Qcanon Lia.
Import ListNotations.
From Verif Require Import Base BaseProofs Orders PatternModel ValueModel LayoutModel NumberModel HydrateModel
  JsonModel JsonSpec JsonProperties RegexpModel RegexpParse AbsModel AbsJsonModel AbsSerdeModel AbsSerdeSpec AbsSerdeProofs.
Open Scope list_scope.
Open Scope nat_scope.

Section Total.
Context {TS : TextSyntax} {F : Type} (from_f64 : F -> option Qc).
Notation sv := (serde_value F).

Definition settled {A} (r : outcome unit A) : Prop := (exists a, r = Ok a) \/ r = Err tt.
Lemma settled_ok {A} (a : A) : settled (Ok a). Proof. left; eauto. Qed.
Lemma settled_err {A} : settled (@Err unit A tt). Proof. now right. Qed.
Lemma settled_bind {A B} (m : outcome unit A) (k : A -> outcome unit B) : settled m -> (forall a, m = Ok a -> settled (k a)) -> settled (bind m k).
Proof. intros [[a ->]| ->] H; cbn; [now apply H|apply settled_err]. Qed.
Lemma settled_traverse {A B} (f : A -> outcome unit B) l : (forall a, In a l -> settled (f a)) -> settled (traverse f l).
Proof.
  induction l as [|a l IH]; intros H; cbn [traverse]; [apply settled_ok|].
  apply settled_bind; [apply H; now left|]. intros b _. apply settled_bind; [apply IH; intros; apply H; now right|]. intros; apply settled_ok.
Qed.

(** Readers that give a result on what is not larger than [n]. *)
Definition safe {T} (n : nat) (de : sv -> outcome unit T) : Prop := forall s, sv_size s <= n -> settled (de s).
Definition small (n : nat) (o : @fields F) : Prop := forall k s, In (k, s) o -> sv_size s <= n.

Lemma safe_variant {T U} n (f : T -> U) (de : sv -> outcome unit T) : safe n de -> safe n (variant_of f de).
Proof. intros H s Z. apply settled_bind; [now apply H|]. intros; apply settled_ok. Qed.
Lemma safe_untagged {T} n (des : list (sv -> outcome unit T)) : Forall (safe n) des -> safe n (untagged des).
Proof.
  intros H s Z. induction H as [|de des H1 H IH]; cbn [untagged]; [apply settled_err|].
  destruct (H1 s Z) as [[a E]|E]; rewrite E; [apply settled_ok|exact IH].
Qed.
Ltac each := repeat apply Forall_cons; [..|apply Forall_nil].
Lemma settled_field_at (o : @fields F) k : settled (field_at o k).
Proof. unfold field_at. destruct (filter _ o) as [|e [|]]; first [apply settled_ok|apply settled_err]. Qed.
Lemma field_at_small n (o : @fields F) k s : small n o -> field_at o k = Ok (Some s) -> sv_size s <= n.
Proof.
  intros H. unfold field_at. destruct (filter _ o) as [|[k' s'] [|]] eqn:E; try discriminate. intros [= <-].
  apply (H k'). apply (proj1 (filter_In (fun e => String.eqb (fst e) k) (k', s') o)). rewrite E. now left.
Qed.
Lemma settled_require {T} n (o : @fields F) k (de : sv -> outcome unit T) : small n o -> safe n de -> settled (f_require o k de).
Proof.
  intros S H. apply settled_bind; [apply settled_field_at|]. intros [s|] E; [|apply settled_err]. apply H. exact (field_at_small n o k s S E).
Qed.
Lemma settled_default {T} n (o : @fields F) k (de : sv -> outcome unit T) d : small n o -> safe n de -> settled (f_default o k de d).
Proof.
  intros S H. apply settled_bind; [apply settled_field_at|]. intros [s|] E; [|apply settled_ok]. apply H. exact (field_at_small n o k s S E).
Qed.
Lemma safe_option {T} n (de : sv -> outcome unit T) : safe n de -> safe n (de_option de).
Proof.
  intros H s Z. unfold de_option. destruct s; try apply settled_ok; apply settled_bind; try (now apply H); intros; apply settled_ok.
Qed.
Lemma settled_option {T} n (o : @fields F) k (de : sv -> outcome unit T) : small n o -> safe n de -> settled (f_option o k de).
Proof. intros S H. apply (settled_default n); [assumption|]. now apply safe_option. Qed.

Lemma named_settled m : settled (@named F m).
Proof.
  induction m as [|[k s] m IH]; cbn [named]; [apply settled_ok|]. destruct k; try apply settled_err.
  apply settled_bind; [exact IH|]. intros; apply settled_ok.
Qed.
Lemma named_In m : forall o, @named F m = Ok o -> forall k s, In (k, s) o -> In (SStr k, s) m.
Proof.
  induction m as [|[k s] m IH]; intros o E; cbn [named] in E; [injection E as <-; intros k s []|].
  destruct k; try discriminate E. apply bind_Ok in E as (o' & E & [= <-]). intros k' s' [[= <- <-]|I]; [now left|right; eauto].
Qed.
Lemma settled_struct deny names (s : sv) : settled (de_struct deny names s).
Proof.
  destruct s; cbn [de_struct]; try apply settled_err.
  - destruct (_ <=? _); [apply settled_ok|apply settled_err].
  - apply settled_bind; [apply named_settled|]. intros o _. destruct deny; [|apply settled_ok]. unfold only. destruct (forallb _ o); [apply settled_ok|apply settled_err].
Qed.
Lemma struct_small n deny names (s : sv) o : sv_size s <= S n -> de_struct deny names s = Ok o -> small n o.
Proof.
  intros Z. destruct s; cbn [de_struct]; try discriminate.
  - destruct (_ <=? _); [|discriminate]. intros [= <-] k s I. apply in_combine_r in I. apply seq_size in I. lia.
  - intros E. apply bind_Ok in E as (o' & E & E'). assert (o' = o) as ->.
    { destruct deny; [unfold only in E'; destruct (forallb _ o'); [|discriminate]|]; now injection E'. }
    intros k s I. apply (named_In _ o E) in I. apply map_size in I. lia.
Qed.
Lemma settled_flat deny names (s : sv) : settled (de_flat deny names s).
Proof. destruct s; cbn [de_flat]; try apply settled_err. apply settled_struct. Qed.
Lemma flat_small n deny names (s : sv) o : sv_size s <= S n -> de_flat deny names s = Ok o -> small n o.
Proof. intros Z. destruct s; cbn [de_flat]; try discriminate. now apply struct_small. Qed.

Lemma safe_vec {T} n (de : sv -> outcome unit T) : safe n de -> safe (S n) (de_vec de).
Proof.
  intros H s Z. destruct s; cbn [de_vec]; try apply settled_err. apply settled_traverse. intros s I. apply H. apply seq_size in I. lia.
Qed.
Lemma safe_less {T} n m (de : sv -> outcome unit T) : m <= n -> safe n de -> safe m de.
Proof. intros L H s Z. apply H. lia. Qed.
Lemma safe_many {T} n (de : sv -> outcome unit T) : safe n de -> safe n (de_one_or_many de).
Proof.
  intros H. apply safe_untagged. each; [now apply safe_variant|]. apply (safe_less (S n)); [lia|]. now apply safe_vec.
Qed.
Lemma size_key (m : list (sv * sv)) k s : In (k, s) m -> sv_size k < sv_size (SMap m).
Proof.
  induction m as [|[k' s'] m IH]; intros I; [destruct I|]. destruct I as [[= -> ->]|I]; [|specialize (IH I)]; cbn [sv_size] in *; lia.
Qed.
Lemma safe_map {K V} {CK : Cmp K} n (dk : sv -> outcome unit K) (de : sv -> outcome unit V) : safe n dk -> safe n de -> safe n (de_btreemap dk de).
Proof.
  intros HK H s Z. destruct s; cbn [de_btreemap]; try apply settled_err. apply settled_bind; [|intros; apply settled_ok].
  apply settled_traverse. intros [k s] I. pose proof (size_key _ _ _ I). apply map_size in I. cbn [fst snd].
  apply settled_bind; [apply HK; lia|]. intros k' _. apply settled_bind; [apply H; lia|]. intros; apply settled_ok.
Qed.

(** ** Leaves *)

Lemma safe_string n : safe n (@de_string F). Proof. intros [] _; first [apply settled_ok|apply settled_err]. Qed.
Lemma safe_bool n : safe n (@de_bool F). Proof. intros [] _; first [apply settled_ok|apply settled_err]. Qed.
Lemma safe_i64 n : safe n (@de_i64 F).
Proof. intros [] _; cbn [de_i64]; try apply settled_err; destruct (_ && _); first [apply settled_ok|apply settled_err]. Qed.
Lemma safe_marker n name : safe n (@de_marker F name).
Proof. intros [] _; cbn [de_marker]; try apply settled_err. destruct (String.eqb _ _); [apply settled_ok|apply settled_err]. Qed.
Lemma safe_iri n : safe n (@de_iri TS F).
Proof. intros [] _; cbn [de_iri]; try apply settled_err. destruct (is_iri_ref _); [apply settled_ok|apply settled_err]. Qed.
Lemma safe_lang n : safe n (@de_lang TS F).
Proof. intros [] _; cbn [de_lang]; try apply settled_err. destruct (is_lang_tag _); [apply settled_ok|apply settled_err]. Qed.
Lemma safe_regexp n : safe n (@de_regexp TS F).
Proof.
  intros [] _; cbn [de_regexp]; try apply settled_err.
  destruct (parse_never_panics (chars s)) as [[e ->]|[e ->]]; [apply settled_ok|apply settled_err].
Qed.
Lemma safe_value n : safe n (value_deserialize from_f64).
Proof.
  induction n as [|n IH]; intros s Z; [pose proof (size_pos s); lia|].
  destruct s; cbn [value_deserialize]; try apply settled_ok.
  - destruct (from_f64 _); [apply settled_ok|apply settled_err].
  - apply settled_bind; [|intros; apply settled_ok]. apply settled_traverse. intros s I. apply IH. apply seq_size in I. lia.
  - apply settled_bind; [|intros; apply settled_ok]. apply settled_traverse. intros [k s] I. pose proof (size_key _ _ _ I). apply map_size in I. cbn [fst snd].
    apply settled_bind; [apply IH; lia|]. intros k' _. apply settled_bind; [apply IH; lia|]. intros; apply settled_ok.
Qed.
Lemma small_filter n f (o : @fields F) : small n o -> small n (filter f o).
Proof. intros H k s I. apply filter_In in I as [I _]. exact (H k s I). Qed.
Lemma small_any (o : @fields F) : exists n, small n o.
Proof.
  induction o as [|[k s] o [n IH]]; [exists 0; intros k s []|]. exists (Nat.max (sv_size s) n).
  intros k' s' [[= <- <-]|I]; [lia|]. apply IH in I. lia.
Qed.
Lemma safe_literal n : safe n (@de_literal TS F).
Proof.
  intros s Z. apply settled_bind; [apply settled_flat|]. intros o _. destruct (small_any o) as [m Sm].
  apply settled_bind; [apply (settled_require m); [assumption|apply safe_string]|]. intros v _.
  apply settled_bind; [|intros; apply settled_ok]. unfold de_literal_type.
  pose proof (small_filter m (fun e => negb (String.eqb (fst e) "value")) o Sm) as Sf.
  destruct (settled_default m _ "type" de_iri xsd_string Sf (safe_iri m)) as [[a ->]| ->]; [apply settled_ok|].
  apply settled_bind; [apply (settled_require m); [assumption|apply safe_lang]|]. intros; apply settled_ok.
Qed.
Lemma safe_pattern n : safe n (@de_pattern TS F).
Proof.
  intros s Z. destruct s; cbn [de_pattern]; try (apply (safe_literal n); assumption).
  destruct (blank_suffix _); [apply settled_ok|]. destruct (is_iri_ref _); [apply settled_ok|apply settled_err].
Qed.
Lemma safe_quad n : safe n (@de_quad TS F).
Proof.
  intros s _. destruct s as [| | | | | | |[|s [|p [|o g]]]|]; cbn [de_quad]; try apply settled_err.
  apply settled_bind; [exact (safe_pattern _ _ (le_n _))|]. intros s' _. apply settled_bind; [exact (safe_pattern _ _ (le_n _))|].
  intros p' _. apply settled_bind; [exact (safe_pattern _ _ (le_n _))|]. intros o' _.
  destruct g as [|g [|]]; [apply settled_ok| |apply settled_err].
  apply settled_bind; [exact (safe_option _ _ (safe_pattern _) _ (le_n _))|]. intros; apply settled_ok.
Qed.
Lemma safe_dataset n : safe n (@de_dataset TS F).
Proof. apply (safe_less (S n)); [lia|]. apply safe_vec, safe_quad. Qed.
Lemma safe_typed n : safe n (@de_typed_string TS F).
Proof.
  intros s _. apply settled_bind; [apply settled_struct|]. intros o _. destruct (small_any o) as [m Sm].
  apply settled_bind; [apply (settled_require m); [assumption|apply safe_string]|]. intros v _.
  apply settled_bind; [apply (settled_require m); [assumption|apply safe_iri]|]. intros; apply settled_ok.
Qed.
Lemma safe_resource n : safe n (@de_resource TS F).
Proof.
  apply safe_untagged. each; try apply safe_variant; first [apply safe_bool|apply safe_i64|apply safe_string|apply safe_typed].
Qed.

(** ** Layouts *)

Section Nested.
Context (n : nat) (nested : sv -> outcome unit alayout).
Hypothesis IH : safe n nested.

Lemma safe_ref : safe n (de_ref nested).
Proof. apply safe_untagged. each; apply safe_variant; [apply safe_iri|exact IH]. Qed.

Ltac leaf := first [exact safe_ref|apply safe_string|apply safe_bool|apply safe_iri|apply safe_marker|apply safe_regexp|apply safe_value|apply safe_pattern|apply safe_dataset
  |apply safe_resource|apply safe_option; leaf|apply safe_many; leaf|apply safe_map; leaf|assumption].
Ltac step :=
  apply settled_bind; [first [apply (settled_require n)|apply (settled_option n)|apply (settled_default n)]; [assumption|leaf]|intros ? _].
Ltac steps := repeat step; apply settled_ok.
Ltac structure Z :=
  apply settled_bind; [apply settled_struct|]; let o := fresh "o" in let E := fresh "E" in intros o E;
  let H := fresh "H" in assert (H : small n o) by (eapply struct_small; [|exact E]; lia); clear E.

Lemma safe_format d : safe n (de_format nested d).
Proof.
  apply safe_untagged. each; [|apply safe_variant, safe_ref]. intros s Z. unfold de_format_struct. structure Z. steps.
Qed.
Lemma safe_item : safe n (de_item nested).
Proof. pose proof (safe_format "value"). intros s Z. unfold de_item. structure Z. steps. Qed.
Lemma safe_field : safe n (de_field nested).
Proof. pose proof (safe_format "value"). intros s Z. unfold de_field. structure Z. steps. Qed.
Lemma safe_variant' : safe n (de_variant nested).
Proof. pose proof (safe_format "self"). intros s Z. unfold de_variant. structure Z. steps. Qed.
Lemma safe_node : safe n (de_node nested).
Proof.
  pose proof (safe_format "value"). apply safe_untagged. each; [|apply safe_variant, safe_ref].
  intros s Z. unfold de_node_struct. structure Z. steps.
Qed.
Lemma settled_header (o : @fields F) : small n o -> settled (de_header o).
Proof. intros H. unfold de_header. steps. Qed.
Lemma safe_layout {T} type names (de : fields -> aheader -> outcome unit T) :
  (forall o h, small n o -> settled (de o h)) -> safe (S n) (de_layout_struct type names de).
Proof.
  intros H s Z. unfold de_layout_struct. apply settled_bind; [apply settled_flat|]. intros o E.
  assert (Ho : small n o) by (eapply flat_small; [exact Z|exact E]). step. apply settled_bind; [now apply settled_header|]. intros h _. now apply H.
Qed.

Lemma safe_readers : Forall (safe (S n)) [de_unit from_f64; de_boolean; de_number; de_bytes; de_text; de_id; de_product from_f64 nested; de_sum nested;
  de_ordered nested; de_unordered nested; de_sized nested; variant_of ABool de_bool; de_union; de_intersection].
Proof.
  pose proof safe_item. pose proof safe_field. pose proof safe_variant'. pose proof safe_node.
  each;
    first [apply safe_layout; intros o h Ho; steps|apply safe_variant, safe_bool|idtac].
  apply safe_layout. intros o h Ho. apply settled_bind; [|intros; apply settled_ok].
  apply (settled_default n); [assumption|]. apply (safe_less (S n)); [lia|]. now apply safe_vec.
Qed.
Lemma safe_body : safe (S n) (de_body from_f64 nested).
Proof. apply safe_untagged, safe_readers. Qed.
End Nested.

Lemma safe_de_layout n : safe n (de_layout from_f64 n).
Proof.
  induction n as [|n IH].
  - intros s Z. pose proof (size_pos s). lia.
  - exact (safe_body n _ IH).
Qed.
End Total.

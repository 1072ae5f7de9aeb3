(** * Proofs about the round trip of compiled layouts *)

From Coq Require Import String Ascii List Bool Arith NArith ZArith QArith Qcanon Sorting.Sorted Lia.
Import ListNotations.
From Verif Require Import Base BaseProofs Orders PatternModel ValueModel LayoutModel HydrateModel JsonModel JsonSpec
  JsonProperties AutomatonModel AutomatonSpec AutomatonProofs AutomatonMap AutomatonProperties AbsSerdeModel AbsSerdeProofs
  LayoutSerdeModel LayoutSerdeSpec.
Open Scope list_scope.
Open Scope nat_scope.

Lemma get_nat_put {F} bits n : (Z.of_nat n < 2 ^ bits)%Z -> get_nat bits (put_nat n : serde_value F) = Ok n.
Proof.
  intros H. unfold get_nat, put_nat. replace (0 <=? Z.of_nat n)%Z with true by (symmetry; apply Z.leb_le; lia).
  replace (Z.of_nat n <? 2 ^ bits)%Z with true by (symmetry; now apply Z.ltb_lt). cbn [andb]. now rewrite Nat2Z.id.
Qed.

Section Back.
Context {R F : Type} {CR : Cmp R} {LR : CmpLaws R} {SE : SerdeExternal R F}.
Context (to_f64 : Qc -> F) (from_f64 : F -> option Qc) (is_dataset : list (qpat R) -> Prop).
Hypothesis FF : faithful is_dataset.
Notation sv := (serde_value F).

(** ** What is read *)
Definition forget (g : option (option (pattern R))) : option (option (pattern R)) :=
  match g with Some None => None | g => g end.
Definition format_back (f : vformat R) : vformat R := VFormat (vf_layout f) (vf_input f) (forget (vf_graph f)).
Definition item_back (i : item_layout R) : item_layout R := Item (it_intro i) (format_back (it_value i)) (it_dataset i).
Definition field_back (f : field R) : field R := Field (item_back (f_item f)) (f_required f).
Definition variant_back (v : variant R) : variant R := Variant (va_name v) (item_back (va_item v)).
Definition automaton_back (d : det_automaton nat) : det_automaton nat :=
  DetAutomaton (da_initial d) (da_final d)
    (deserialize_transitions (serialize_transitions (Dfa (da_initial d) (da_final d) (da_transitions d)))).
Definition layout_back (l : layout R) : layout R :=
  match l with
  | DataL (KTextString p) h r d => DataL (KTextString (option_map automaton_back p)) h r d
  | IdL h r p => IdL h r (option_map automaton_back p)
  | ProductL h fs => ProductL h (map (fun e => (fst e, field_back (snd e))) fs)
  | SumL h vs => SumL h (map variant_back vs)
  | UnorderedL h i => UnorderedL h (item_back i)
  | OrderedL h i a b => OrderedL h (item_back i) a b
  | SizedL h l => SizedL h (map item_back l)
  | l => l
  end.

(** ** The pieces *)
Definition pattern_ok (p : pattern R) : Prop := forall x, p = PVar x -> (Z.of_nat x < 2 ^ 32)%Z.

Lemma pattern_get p : pattern_ok p -> get_pattern (put_pattern p) = Ok p.
Proof.
  intros H. destruct p as [r|x]; cbv [put_pattern get_pattern put_variant get_variant content bind fst snd].
  - change (String.eqb "Resource" "Resource") with true. cbv iota. now rewrite (proj1 FF).
  - change (String.eqb "Var" "Resource") with false. change (String.eqb "Var" "Var") with true. cbv iota.
    unfold get_u32. now rewrite get_nat_put by (now apply H).
Qed.

Lemma patterns_get l : (forall p, In p l -> pattern_ok p) -> de_vec get_pattern (SSeq (map put_pattern l)) = Ok l.
Proof.
  intros H. cbn [de_vec]. rewrite (traverse_map put_pattern get_pattern (fun p => p)); [now rewrite map_id|].
  intros p I. apply pattern_get. auto.
Qed.

Lemma graph_get g : (forall p, g = Some (Some p) -> pattern_ok p) ->
  de_option (de_option get_pattern) (ser_option (ser_option put_pattern) g) = Ok (forget g).
Proof.
  intros H. destruct g as [[p|]|]; cbn [ser_option forget]; [|reflexivity|reflexivity].
  pose proof (pattern_get p (H p eq_refl)) as E.
  assert (X : forall T (de : sv -> outcome unit T), de_option de (put_pattern p) = (let* t := de (put_pattern p) in Ok (Some t))).
  { destruct p; reflexivity. }
  rewrite X, X, E. reflexivity.
Qed.

Ltac look := cbv [entry app get_struct named bind f_require f_default f_option field_at filter fst snd String.eqb Ascii.eqb Bool.eqb put_counts put_item_fields
                  put_variant get_variant content no_content].

Definition format_ok (f : vformat R) : Prop :=
  (forall p, In p (vf_input f) -> pattern_ok p) /\ (forall p, vf_graph f = Some (Some p) -> pattern_ok p).

Lemma format_get f : format_ok f -> get_format (put_format f) = Ok (format_back f).
Proof.
  intros [H1 H2]. unfold put_format, get_format. look. rewrite (proj1 FF).
  rewrite patterns_get by exact H1. rewrite graph_get by exact H2. reflexivity.
Qed.

Definition item_ok (i : item_layout R) : Prop :=
  (Z.of_nat (it_intro i) < 2 ^ 32)%Z /\ format_ok (it_value i) /\ is_dataset (it_dataset i).

Lemma item_get i : item_ok i -> get_item (put_item i) = Ok (item_back i).
Proof.
  intros (H1 & H2 & H3). unfold put_item, get_item, get_item_fields. look. unfold get_u32.
  rewrite get_nat_put by exact H1. rewrite format_get by exact H2. rewrite (proj2 (proj2 FF)) by exact H3. reflexivity.
Qed.

Lemma field_get f : item_ok (f_item f) -> get_field (put_field f) = Ok (field_back f).
Proof.
  intros (H1 & H2 & H3). unfold put_field, get_field, get_item_fields. look. unfold get_u32.
  rewrite get_nat_put by exact H1. rewrite format_get by exact H2. rewrite (proj2 (proj2 FF)) by exact H3. reflexivity.
Qed.

Lemma variant_get v : item_ok (va_item v) -> get_sum_variant (put_sum_variant v) = Ok (variant_back v).
Proof.
  intros (H1 & H2 & H3). unfold put_sum_variant, get_sum_variant, get_item_fields. look. unfold get_u32. cbn [de_string].
  rewrite get_nat_put by exact H1. rewrite format_get by exact H2. rewrite (proj2 (proj2 FF)) by exact H3. reflexivity.
Qed.

Lemma set_collect_id (l : list nat) : StronglySorted lt l -> set_collect l = l.
Proof.
  intros S. apply sorted_lt_ext; [apply set_collect_sorted|exact S|]. intros x. apply set_collect_In.
Qed.

Lemma automaton_get d : automaton_ok d -> get_automaton (put_automaton d : sv) = Ok (automaton_back d).
Proof.
  intros (S & W & N1 & N2). unfold put_automaton, get_automaton. look. unfold get_usize at 1.
  rewrite get_nat_put by (apply N1; now left). cbn [de_vec].
  rewrite (traverse_map put_nat get_usize (fun n => n)) by (intros n I; apply get_nat_put, N1; now right). rewrite map_id.
  rewrite (traverse_map put_transition get_transition (fun t => t)).
  - rewrite map_id. now rewrite set_collect_id.
  - intros [q [l r]] I. apply triples_In in I. destruct (N2 q l r I) as [Hq Hr].
    unfold put_transition, get_transition, get_usize. cbn [fst snd]. rewrite (get_nat_put 64 q Hq). cbn [bind].
    rewrite (proj1 (proj2 FF)). cbn [bind]. now rewrite (get_nat_put 64 r Hr).
Qed.

Lemma pattern_option_get p : (forall d, p = Some d -> automaton_ok d) ->
  de_option get_automaton (ser_option put_automaton p : sv) = Ok (option_map automaton_back p).
Proof.
  intros H. destruct p as [d|]; [|reflexivity]. cbn [ser_option option_map].
  change (de_option get_automaton (put_automaton d : sv)) with (let* t := get_automaton (put_automaton d : sv) in Ok (Some t)).
  now rewrite automaton_get by now apply H.
Qed.

Lemma extra_get ex : bt_wf ex -> get_extra (put_extra ex) = Ok ex.
Proof.
  intros W. unfold get_extra, put_extra, de_btreemap. rewrite (traverse_map _ _ (fun e => e)).
  - cbn [bind]. rewrite map_id. now rewrite bt_collect_sorted.
  - intros [a b] _. cbn [fst snd]. now rewrite !(proj1 FF).
Qed.

(** ** Layouts *)
Lemma item_ok_of l ex i : writable to_f64 from_f64 is_dataset l ex -> In i (items_of l) -> item_ok i.
Proof.
  intros W I. split; [|split; [split|]].
  - apply (wr_counts _ _ _ _ _ W). unfold counts_of. apply in_app_iff. right. now apply in_map.
  - intros p Ip x ->. apply (wr_vars _ _ _ _ _ W). unfold patterns_of. apply in_app_iff. right. apply in_flat_map.
    exists i. split; [exact I|]. apply in_app_iff. now left.
  - intros p Ep x ->. apply (wr_vars _ _ _ _ _ W). unfold patterns_of. apply in_app_iff. right. apply in_flat_map.
    exists i. split; [exact I|]. apply in_app_iff. right. rewrite Ep. now left.
  - apply (wr_datasets _ _ _ _ _ W). unfold datasets_of. apply in_app_iff. right. now apply in_map.
Qed.

Lemma header_ok_of l ex h : writable to_f64 from_f64 is_dataset l ex -> header_of l = Some h ->
  (Z.of_nat (h_input h) < 2 ^ 32)%Z /\ (Z.of_nat (h_intro h) < 2 ^ 32)%Z /\ is_dataset (h_dataset h).
Proof.
  intros W E. split; [|split].
  - apply (wr_counts _ _ _ _ _ W). unfold counts_of. rewrite E. now left.
  - apply (wr_counts _ _ _ _ _ W). unfold counts_of. rewrite E. right. now left.
  - apply (wr_datasets _ _ _ _ _ W). unfold datasets_of. rewrite E. now left.
Qed.

Lemma fields_get fs : bt_wf fs -> (forall e, In e fs -> item_ok (f_item (snd e)) /\
    value_wf (fst e) /\ Numbers (native_exact to_f64 from_f64) (fst e)) ->
  exists s, put_fields to_f64 fs = Ok s /\ get_fields from_f64 s = Ok (map (fun e => (fst e, field_back (snd e))) fs).
Proof.
  intros W H.
  assert (X : exists m, traverse (fun e : value * field R =>
              let* k := value_serialize to_f64 (fst e) in Ok (k, put_field (snd e))) fs = Ok m /\
            traverse (fun e : sv * sv => let* k := value_deserialize from_f64 (fst e) in
              let* v := get_field (snd e) in Ok (k, v)) m = Ok (map (fun e => (fst e, field_back (snd e))) fs)).
  { clear W. induction fs as [|[k f] fs IH]; [exists []; split; reflexivity|].
    destruct IH as (m & M1 & M2); [intros; apply H; now right|].
    destruct (H (k, f) (or_introl eq_refl)) as (Hf & Wk & Nk). cbn [fst snd] in *.
    destruct (C68_serde_round_trip_partial to_f64 from_f64 k Wk Nk) as (s & S1 & S2).
    exists ((s, put_field f) :: m). cbn [traverse map fst snd]. rewrite S1. cbn [bind]. rewrite M1. cbn [bind]. split; [reflexivity|].
    rewrite S2. cbn [bind]. rewrite field_get by exact Hf. cbn [bind]. rewrite M2. reflexivity. }
  destruct X as (m & M1 & M2). exists (SMap m). unfold put_fields, get_fields, de_btreemap. rewrite M1, M2. cbn [bind].
  split; [reflexivity|]. rewrite bt_collect_sorted; [reflexivity|]. rewrite map_map. cbn [fst]. exact W.
Qed.

Lemma header_get h ex o : (Z.of_nat (h_input h) < 2 ^ 32)%Z -> (Z.of_nat (h_intro h) < 2 ^ 32)%Z -> is_dataset (h_dataset h) -> bt_wf ex ->
  field_at o "input" = Ok (Some (put_nat (h_input h) : sv)) -> field_at o "intro" = Ok (Some (put_nat (h_intro h))) ->
  field_at o "dataset" = Ok (Some (put_dataset (h_dataset h))) -> field_at o "extra_properties" = Ok (Some (put_extra ex)) ->
  get_header o = Ok (h, ex).
Proof.
  intros H1 H2 H3 H4 E1 E2 E3 E4. unfold get_header, f_require, get_u32. rewrite E1, E2, E3, E4. cbn [bind].
  rewrite !get_nat_put by assumption. cbn [bind]. rewrite (proj2 (proj2 FF)) by assumption. cbn [bind].
  rewrite extra_get by assumption. cbn [bind]. now destruct h.
Qed.

Ltac names := cbv [put_variant get_variant content no_content bind fst snd String.eqb Ascii.eqb Bool.eqb].
Ltac struct_ := unfold get_struct; cbv [entry app named bind put_counts].
Ltac head_ := match goal with h : header R, ex : list (R * R) |- context [get_header ?o] =>
    rewrite (header_get h ex o ltac:(eassumption) ltac:(eassumption) ltac:(eassumption) ltac:(eassumption) eq_refl eq_refl eq_refl eq_refl) end;
  cbn [bind fst snd].
Ltac req := unfold f_require, f_option, f_default;
  cbv [field_at filter fst snd String.eqb Ascii.eqb Bool.eqb bind].

Lemma layout_get l ex : writable to_f64 from_f64 is_dataset l ex ->
  exists s, put_layout to_f64 l ex = Ok s /\ get_layout from_f64 s = Ok (layout_back l, ex).
Proof.
  intros W. pose proof (wr_extra _ _ _ _ _ W) as WX.
  assert (P : forall p, In p (patterns_of l) -> pattern_ok p).
  { intros p I x ->. now apply (wr_vars _ _ _ _ _ W). }
  pose proof (wr_automata _ _ _ _ _ W) as A. pose proof (wr_values _ _ _ _ _ W) as V.
  pose proof (fun i => item_ok_of l ex i W) as I. pose proof (wr_none _ _ _ _ _ W) as NO. pose proof (fun h => header_ok_of l ex h W) as HH.
  pose proof (wr_fields _ _ _ _ _ W) as WF. clear W.
  destruct l as [| |h c|k h r d|h r p|h fs|h vs|h it|h nd a b|h its]; cbn [header_of] in HH;
    try (destruct (HH h eq_refl) as (H1 & H2 & H3); clear HH).
  - exists (SStr "Never"). rewrite NO by now left. split; reflexivity.
  - exists (SStr "Always"). rewrite NO by now right. split; reflexivity.
  - destruct (V c (or_introl eq_refl)) as [Vc Nc].
    destruct (C68_serde_round_trip_partial to_f64 from_f64 c Vc Nc) as (s & S1 & S2).
    assert (E : (c = VLit LUnit /\ put_layout to_f64 (UnitL h c) ex = Ok (put_variant "Literal" (put_variant "Data" (put_variant "Unit"
                  (SMap (put_counts h ++ entry "dataset" (put_dataset (h_dataset h)) ++ entry "extra_properties" (put_extra ex)))))))
              \/ put_layout to_f64 (UnitL h c) ex = Ok (put_variant "Literal" (put_variant "Data" (put_variant "Unit"
                  (SMap (put_counts h ++ entry "dataset" (put_dataset (h_dataset h)) ++ entry "const" s ++ entry "extra_properties" (put_extra ex))))))).
    { cbn [put_layout]. destruct c as [[]|m|l]; [left; split; reflexivity|right..]; rewrite S1; reflexivity. }
    destruct E as [[-> E]|E]; rewrite E; (eexists; split; [reflexivity|]); unfold get_layout; names; unfold get_literal; names; unfold get_data; names;
      struct_; head_; req; [reflexivity|]. rewrite S2. reflexivity.
  - pose proof (P r (or_introl eq_refl)) as Pr. cbn [put_layout layout_back].
    destruct k as [| | |p]; (eexists; split; [reflexivity|]); unfold get_layout; names; unfold get_literal; names; unfold get_data; names;
      struct_; head_; req; try (rewrite pattern_option_get by (intros ? ->; apply A; now left)); rewrite (pattern_get r Pr), (proj1 FF); reflexivity.
  - pose proof (P r (or_introl eq_refl)) as Pr. cbn [put_layout layout_back].
    (eexists; split; [reflexivity|]); unfold get_layout; names; unfold get_literal; names;
      struct_; head_; req; rewrite pattern_option_get by (intros ? ->; apply A; now left); rewrite (pattern_get r Pr); reflexivity.
  - destruct (fields_get fs) as (s & S1 & S2).
    + apply (WF h fs eq_refl).
    + intros e Ie. split; [apply I; cbn [items_of]; apply in_map_iff; now exists e|].
      apply V. cbn [values_of]. now apply in_map.
    + cbn [put_layout layout_back]. rewrite S1. eexists; split; [reflexivity|]. unfold get_layout; names; struct_; head_; req. rewrite S2. reflexivity.
  - cbn [put_layout layout_back]. eexists; split; [reflexivity|]. unfold get_layout; names; struct_; head_; req. cbn [de_vec].
    rewrite (traverse_map put_sum_variant get_sum_variant variant_back); [reflexivity|].
    intros v Iv. apply variant_get. apply I. cbn [items_of]. now apply in_map.
  - cbn [put_layout layout_back]. eexists; split; [reflexivity|]. unfold get_layout; names; unfold get_list; names; struct_; head_; req.
    rewrite item_get by (apply I; now left). reflexivity.
  - cbn [put_layout layout_back]. eexists; split; [reflexivity|]. unfold get_layout; names; unfold get_list; names; struct_; head_; req.
    rewrite item_get by (apply I; now left). rewrite (pattern_get a) by (apply P; now left).
    rewrite (pattern_get b) by (apply P; right; now left). reflexivity.
  - cbn [put_layout layout_back]. eexists; split; [reflexivity|]. unfold get_layout; names; unfold get_list; names; struct_; head_; req. cbn [de_vec].
    rewrite (traverse_map put_item get_item item_back); [reflexivity|].
    intros i Ii. apply item_get. now apply I.
Qed.
End Back.

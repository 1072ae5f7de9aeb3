(** * Lemmas on the documents of compiled layouts that serde reads *)

From Coq Require Import String Ascii List Bool Arith NArith ZArith QArith Qcanon Lia.
Import ListNotations.
From Verif Require Import Base BaseProofs Orders PatternModel ValueModel LayoutModel NumberModel HydrateModel JsonModel
  AutomatonModel RegexpModel AbsModel AbsJsonModel AbsJsonProofs AbsSerdeModel AbsSerdeProofs LayoutSerdeModel SerdeDocSpec SerdeDocProofs SerdeDocLeaves SerdeDocNested LayoutDocSpec.
Open Scope list_scope.
Open Scope nat_scope.

Section Docs.
Context {R F : Type} {CR : Cmp R} {SE : SerdeExternal R F} (from_f64 : F -> option Qc).
Notation sv := (serde_value F).
Notation object := (list (string * sv)).

Lemma open_reads {A} names ks (s : sv) (m : object -> outcome unit A) P a : NoDup names -> (forall k, In k ks <-> In k names) ->
  (forall o, sreads o ks (m o) (P o)) ->
  ((let* o := get_struct names s in m o) = Ok a <-> exists o, open_struct names s o /\ P o a).
Proof.
  intros ND K HR. split.
  - intros X. apply bind_Ok in X as (o & E & X). apply HR in X as [Pa U]. exists o. split; [|exact Pa].
    destruct s; cbn [get_struct] in E; try discriminate E.
    + destruct (Nat.eqb_spec (length l) (length names)); [|discriminate E]. injection E as <-. now constructor.
    + apply named_iff in E. rewrite E. constructor. intros k I. apply U. now apply K.
  - intros (o & S & Pa). destruct S as [o U|l L]; cbn [get_struct text_map].
    + rewrite (proj2 (named_iff _ o) eq_refl). cbn [bind]. apply HR. split; [exact Pa|]. intros k I. apply U. now apply K.
    + apply Nat.eqb_eq in L. rewrite L. cbn [bind]. apply HR. split; [exact Pa|]. intros k _. apply NoDup_unrepeated. now apply combine_NoDup.
Qed.

Lemma variant_content {A} (s : sv) (k : string -> sv -> outcome unit A) a :
  (let* v := get_variant s in let* c := content (snd v) in k (fst v) c) = Ok a <-> exists name c, s = variant_ldoc name c /\ k name c = Ok a.
Proof.
  unfold variant_ldoc. split.
  - intros X. apply bind_Ok in X as ([n c] & E & X). destruct s as [| | | | |t| | |[|[[] x] []]]; cbn in E; try discriminate E; injection E as <- <-; cbn in X; [discriminate X|eauto].
  - intros (n & c & -> & E). exact E.
Qed.
Lemma variant_inj name name' (c c' : sv) : variant_ldoc name c = variant_ldoc name' c' -> name = name' /\ c = c'.
Proof. unfold variant_ldoc. intros [= -> ->]. auto. Qed.

Lemma l_number bits (s : sv) n : get_nat bits s = Ok n <-> number_ldoc bits s n.
Proof.
  unfold number_ldoc.
  assert (X : forall z, (if ((0 <=? z) && (z <? 2 ^ bits))%Z then Ok (Z.to_nat z) else Err tt) = @Ok unit nat n <-> z = Z.of_nat n /\ (Z.of_nat n < 2 ^ bits)%Z).
  { intros z. destruct ((0 <=? z) && (z <? 2 ^ bits))%Z eqn:E.
    - apply andb_true_iff in E as [A B]. apply Z.leb_le in A. apply Z.ltb_lt in B. split; [intros [= <-]; rewrite Z2Nat.id by exact A; auto|].
      intros [-> _]. now rewrite Nat2Z.id.
    - split; [discriminate|]. intros [-> L]. apply andb_false_iff in E as [E|E]; [apply Z.leb_gt in E; lia|apply Z.ltb_ge in E; lia]. }
  destruct s; cbn [get_nat]; try (split; [discriminate|intros [[Y|Y] _]; discriminate Y]); rewrite X; split.
  all: try (intros [-> L]; auto; fail). all: intros [[[= ->]|[= ->]] L]; auto.
Qed.
Lemma l_pattern (s : sv) p : get_pattern s = Ok p <-> pattern_ldoc s p.
Proof.
  unfold get_pattern. rewrite (variant_content s (fun name c => if String.eqb name "Resource" then let* r := get_resource c in Ok (PRes r)
    else if String.eqb name "Var" then let* x := get_u32 c in Ok (PVar x) else Err tt)). split.
  - intros (n & c & -> & X). destruct (String.eqb_spec n "Resource") as [->|N1].
    + apply bind_Ok in X as (r & E & [= <-]). now constructor.
    + destruct (String.eqb_spec n "Var") as [->|N2]; [|discriminate X]. apply bind_Ok in X as (x & E & [= <-]). apply l_number in E. now constructor.
  - intros H. destruct H as [c r H|c x H]; do 2 eexists; (split; [reflexivity|]); cbn [String.eqb].
    + now rewrite H.
    + apply l_number in H. cbn. unfold get_u32. now rewrite H.
Qed.

Ltac nodup := repeat constructor; cbn; intuition discriminate.
Ltac keys := intros k; cbn; tauto.

Lemma l_graph (o : object) : sreads o ["graph"%string] (f_option o "graph" (de_option get_pattern)) (fun g => exists g', g = option_map Some g' /\ given_opt o "graph" pattern_ldoc g').
Proof.
  eapply sreads_iff.
  - apply sreads_option with (D := fun s x => match x with Some t => s <> SUnit /\ pattern_ldoc s t | None => s = SUnit end).
    intros s t _. apply option_iff. intros. apply l_pattern.
  - unfold given_opt. intros [[p|]|].
    + split; [intros (s & I & N & _ & H); exists (Some p); eauto|]. intros ([p'|] & [= <-] & s & I & N & H). eauto.
    + split; [intros (s & I & N & H); contradiction|]. intros ([p'|] & [=] & _).
    + split; [intros H; exists None; auto|]. intros ([p'|] & [=] & H). exact H.
Qed.
Lemma l_format (s : sv) f : get_format s = Ok f <-> format_ldoc s f.
Proof.
  unfold get_format. rewrite (open_reads _ ["layout"; "input"; "graph"]%string s _
    (fun o f => exists r i g, f = VFormat r i (option_map Some g) /\ given o "layout" resource_ldoc r /\ given o "input" (seq_sdoc pattern_ldoc) i /\ given_opt o "graph" pattern_ldoc g)).
  - split; [intros (o & S & r & i & g & -> & A & B & C); econstructor; eauto|]. intros H. destruct H. eauto 10.
  - nodup.
  - keys.
  - intros o. eapply sreads_iff.
    + apply sreads_step; [apply sreads_require with (D := resource_ldoc); reflexivity|intros r].
      apply sreads_step; [apply sreads_require; intros; apply s_vec; intros; apply l_pattern|intros i]. apply sreads_step; [apply l_graph|intros g]. apply sreads_ret.
    + intros f'. split; [intros (r & A & i & B & g & (g' & -> & C) & ->); eauto 10|]. intros (r & i & g & -> & A & B & C). eauto 12.
Qed.
Lemma l_transition (s : sv) t : get_transition (R := R) s = Ok t <-> transition_ldoc (R := R) s t.
Proof.
  destruct s as [| | | | | | |[|a [|b [|c [|]]]]|]; cbn [get_transition]; try (split; [discriminate|inversion 1; fail]). split.
  - intros X. apply bind_Ok in X as (q & E1 & X). apply bind_Ok in X as (r & E2 & X). apply bind_Ok in X as (q' & E3 & [= <-]).
    apply l_number in E1, E3. now constructor.
  - intros H. inversion H as [? ? ? q r q' A B C]; subst. apply l_number in A, C. unfold get_usize. rewrite A, C. cbn [bind]. now rewrite B.
Qed.
Lemma l_automaton (s : sv) d : get_automaton (R := R) s = Ok d <-> automaton_ldoc (R := R) s d.
Proof.
  unfold get_automaton. rewrite (open_reads _ ["initial_state"; "final_states"; "transitions"]%string s _
    (fun o d => exists i f t, d = DetAutomaton i (set_collect f) (deserialize_transitions t) /\ given o "initial_state" (number_ldoc 64) i /\
      given o "final_states" (seq_sdoc (number_ldoc 64)) f /\ given o "transitions" (seq_sdoc (transition_ldoc (R := R))) t)).
  - split; [intros (o & S & r & i & g & -> & A & B & C); econstructor; eauto|]. intros H. destruct H. eauto 10.
  - nodup.
  - keys.
  - intros o. eapply sreads_iff.
    + apply sreads_step; [apply sreads_require; intros; apply l_number|intros i].
      apply sreads_step; [apply sreads_require; intros; apply s_vec; intros; apply l_number|intros f].
      apply sreads_step; [apply sreads_require; intros; apply s_vec; intros; apply l_transition|intros t]. apply sreads_ret.
    + intros f'. split; [intros (r & A & i & B & g & C & ->); eauto 10|]. intros (r & i & g & -> & A & B & C). eauto 12.
Qed.

Lemma l_item_entries (o : object) : sreads o ["intro"; "value"; "dataset"]%string (get_item_fields o) (item_entries o).
Proof.
  eapply sreads_iff.
  - unfold get_item_fields. apply sreads_step; [apply sreads_require; intros; apply l_number|intros n].
    apply sreads_step; [apply sreads_require; intros; apply l_format|intros f].
    apply sreads_step; [apply sreads_require with (D := quads_ldoc); reflexivity|intros d]. apply sreads_ret.
  - intros [n f d]. unfold item_entries. cbn. split; [intros (n' & A & f' & B & d' & C & [= -> -> ->]); auto|]. intros (A & B & C). eauto 10.
Qed.
Lemma l_header_entries (o : object) : sreads o ["input"; "intro"; "dataset"; "extra_properties"]%string (get_header o) (fun h => header_entries o (fst h) (snd h)).
Proof.
  eapply sreads_iff.
  - unfold get_header. apply sreads_step; [apply sreads_require; intros; apply l_number|intros i].
    apply sreads_step; [apply sreads_require; intros; apply l_number|intros n].
    apply sreads_step; [apply sreads_require with (D := quads_ldoc); reflexivity|intros d].
    apply sreads_step; [apply sreads_require with (D := map_sdoc resource_ldoc resource_ldoc); intros; apply s_map; reflexivity|intros e]. apply sreads_ret.
  - intros [[i n d] e]. unfold header_entries. cbn. split; [intros (i' & A & n' & B & d' & C & e' & E & [= -> -> -> ->]); auto|]. intros (A & B & C & E). eauto 12.
Qed.
Lemma sreads_id {A} (o : object) ks (m : outcome unit A) P : sreads o ks m P -> sreads o ks (let* a := m in Ok a) P.
Proof. intros H a. rewrite <- (H a). destruct m; reflexivity. Qed.
Lemma l_item (s : sv) it : get_item s = Ok it <-> item_ldoc s it.
Proof.
  unfold get_item. rewrite (open_reads _ ["intro"; "value"; "dataset"]%string s _ item_entries); [|nodup|keys|apply l_item_entries].
  split; [intros (o & S & H); econstructor; eauto|]. intros H. destruct H. eauto.
Qed.
Lemma l_field (s : sv) f : get_field s = Ok f <-> field_ldoc s f.
Proof.
  unfold get_field. rewrite (open_reads _ ["intro"; "value"; "dataset"; "required"]%string s _
    (fun o f => exists it b, f = Field it b /\ item_entries o it /\ given o "required" bool_sdoc b)).
  - split; [intros (o & S & r & i & -> & A & B); econstructor; eauto|]. intros H. destruct H. eauto 10.
  - nodup.
  - keys.
  - intros o. eapply sreads_iff.
    + apply (sreads_bind o ["intro"; "value"; "dataset"]%string ["required"%string]); [apply l_item_entries|intros it].
      apply sreads_step; [apply sreads_require; intros; apply s_bool|intros b]. apply sreads_ret.
    + intros f'. split; [intros (r & A & i & B & ->); eauto|]. intros (r & i & -> & A & B). eauto 6.
Qed.
Lemma l_sum_variant (s : sv) v : get_sum_variant s = Ok v <-> sum_variant_ldoc s v.
Proof.
  unfold get_sum_variant. rewrite (open_reads _ ["name"; "intro"; "value"; "dataset"]%string s _
    (fun o v => exists n it, v = Variant n it /\ given o "name" string_sdoc n /\ item_entries o it)).
  - split; [intros (o & S & r & i & -> & A & B); econstructor; eauto|]. intros H. destruct H. eauto 10.
  - nodup.
  - keys.
  - intros o. eapply sreads_iff.
    + apply sreads_step; [apply sreads_require; intros; apply s_string|intros n].
      rewrite <- (app_nil_r ["intro"; "value"; "dataset"]%string). apply sreads_bind; [apply l_item_entries|intros it]. apply sreads_ret.
    + intros f'. split; [intros (r & A & i & B & ->); eauto|]. intros (r & i & -> & A & B). eauto 6.
Qed.

(** A structure of a layout: its header and the fields [ks]. *)
Lemma l_struct names ks (s : sv) (m : object -> header R * list (R * R) -> outcome unit (layout R * list (R * R))) (P : object -> header R -> layout R -> Prop) l ex :
  NoDup names -> (forall k, In k (["input"; "intro"; "dataset"; "extra_properties"]%string ++ ks) <-> In k names) ->
  (forall o h, sreads o ks (m o h) (fun r => snd r = snd h /\ P o (fst h) (fst r))) ->
  ((let* o := get_struct names s in let* h := get_header o in m o h) = Ok (l, ex) <->
   exists o h, open_struct names s o /\ header_entries o h ex /\ P o h l).
Proof.
  intros ND K H. rewrite (open_reads _ (["input"; "intro"; "dataset"; "extra_properties"]%string ++ ks) s _
    (fun o r => exists h, header_entries o (fst h) (snd h) /\ snd r = snd h /\ P o (fst h) (fst r))); [|exact ND|exact K|].
  - cbn [fst snd]. split; [intros (o & S & [h e] & A & -> & B); eauto|]. intros (o & h & S & A & B). exists o. split; [exact S|]. exists (h, ex). auto.
  - intros o. apply sreads_bind; [apply l_header_entries|]. intros h. apply H.
Qed.
End Docs.

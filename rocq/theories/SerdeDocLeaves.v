(** * The leaves of the layout documents read with serde *)

From Coq Require Import String Ascii List Bool Arith NArith ZArith QArith Qcanon Lia.
Import ListNotations.
From Verif Require Import Base BaseProofs Orders PatternModel ValueModel LayoutModel NumberModel
  HydrateModel JsonModel RegexpModel AbsModel AbsJsonModel AbsJsonProofs AbsSerdeModel AbsSerdeProofs SerdeDocSpec SerdeDocProofs.
Open Scope list_scope.
Open Scope nat_scope.

Section Leaves.
Context {TS : TextSyntax} {F : Type} (from_f64 : F -> option Qc).
Notation sv := (serde_value F).
Notation object := (list (string * sv)).

Lemma s_string (s : sv) t : de_string s = Ok t <-> string_sdoc s t.
Proof. unfold string_sdoc. destruct s; cbn; split; congruence. Qed.
Lemma s_bool (s : sv) t : de_bool s = Ok t <-> bool_sdoc s t.
Proof. unfold bool_sdoc. destruct s; cbn; split; congruence. Qed.
Lemma s_iri (s : sv) t : de_iri s = Ok t <-> iri_sdoc s t.
Proof.
  unfold iri_sdoc. destruct s; cbn; try (split; [discriminate|intros [X _]; discriminate X]).
  destruct (is_iri_ref s) eqn:E; split; try discriminate; [now intros [= <-]|now intros [[= ->] _]|intros [[= ->] H]; congruence].
Qed.
Lemma s_lang (s : sv) t : de_lang s = Ok t <-> lang_sdoc s t.
Proof.
  unfold lang_sdoc. destruct s; cbn; try (split; [discriminate|intros [X _]; discriminate X]).
  destruct (is_lang_tag s) eqn:E; split; try discriminate; [now intros [= <-]|now intros [[= ->] _]|intros [[= ->] H]; congruence].
Qed.
Lemma s_regexp (s : sv) e : de_regexp s = Ok e <-> regexp_sdoc s e.
Proof.
  unfold regexp_sdoc. destruct s; cbn; try (split; [discriminate|intros (t & X & _); discriminate X]). split.
  - destruct (re_parse (chars s)) eqn:E; try discriminate. intros [= <-]. eauto.
  - intros (t & [= <-] & ->). reflexivity.
Qed.
Lemma s_vec {T} (de : sv -> outcome unit T) D s l : (forall ss s' t, s = SSeq ss -> In s' ss -> (de s' = Ok t <-> D s' t)) ->
  (de_vec de s = Ok l <-> seq_sdoc D s l).
Proof.
  unfold seq_sdoc. intros H. destruct s as [| | | | | | |ss|]; cbn [de_vec]; try (split; [discriminate|intros (? & X & _); discriminate X]).
  rewrite (traverse_iff de D) by eauto. split; [eauto|]. intros (ss' & [= <-] & X). exact X.
Qed.
Lemma s_many {T} (de : sv -> outcome unit T) D s l : (forall s' t, de s' = Ok t <-> D s' t) -> (forall ss, de (SSeq ss) = Err tt) ->
  (de_one_or_many de s = Ok l <-> one_or_many_sdoc D s l).
Proof.
  intros H N. unfold de_one_or_many, one_or_many_sdoc. cbn [untagged]. unfold variant_of at 1.
  assert (V : de_vec de s = Ok l <-> seq_sdoc D s l) by (apply s_vec; auto).
  assert (X : (exists x, l = [x] /\ D s x) <-> exists x, l = [x] /\ de s = Ok x) by (split; intros (x & A & B); exists x; split; auto; now apply H).
  rewrite X. destruct (de s) as [t|e| |] eqn:E; cbn [bind].
  - split; [intros [= <-]; eauto|]. intros [(ss & -> & _)|(x & -> & [= <-])]; [|reflexivity]. now rewrite N in E.
  - destruct (de_vec de s) as [l'|[]| |]; rewrite <- V; (split; [intros Y; try discriminate Y; auto|]).
    all: intros [Y|(x & _ & Y)]; discriminate Y || exact Y.
  - split; [discriminate|]. intros [(ss & -> & _)|(x & _ & Y)]; [now rewrite N in E|discriminate Y].
  - split; [discriminate|]. intros [(ss & -> & _)|(x & _ & Y)]; [now rewrite N in E|discriminate Y].
Qed.
Lemma s_map {K V} {CK : Cmp K} (dk : sv -> outcome unit K) (de : sv -> outcome unit V) DK D s m :
  (forall s' k, dk s' = Ok k <-> DK s' k) -> (forall e k s' t, s = SMap e -> In (k, s') e -> (de s' = Ok t <-> D s' t)) ->
  (de_btreemap dk de s = Ok m <-> map_sdoc DK D s m).
Proof.
  intros HK H. unfold map_sdoc. destruct s as [| | | | | | | |e]; cbn [de_btreemap]; try (split; [discriminate|intros (? & ? & X & _); discriminate X]).
  assert (T : forall raw, traverse (fun e : sv * sv => let* k := dk (fst e) in let* v := de (snd e) in Ok (k, v)) e = Ok raw <->
    Forall2 (fun (x : sv * sv) (kv : K * V) => DK (fst x) (fst kv) /\ D (snd x) (snd kv)) e raw).
  { intros raw. apply traverse_iff. intros [k0 s0] [k v] I. cbn [fst snd]. rewrite <- HK, <- (H _ _ _ _ eq_refl I). split.
    - intros X. apply bind_Ok in X as (k1 & E1 & X). apply bind_Ok in X as (v1 & E2 & [= <- <-]). auto.
    - intros [-> ->]. reflexivity. }
  split.
  - intros X. apply bind_Ok in X as (raw & Hr & [= <-]). exists e, raw. repeat split. now apply T.
  - intros (e' & raw & [= <-] & A & ->). apply T in A. rewrite A. reflexivity.
Qed.

(** ** Patterns *)

Lemma flat_open (s : sv) o : de_flat false [] s = Ok o <-> s = text_map o.
Proof.
  destruct s; cbn [de_flat]; try (split; [discriminate|unfold text_map; discriminate]).
  cbn [de_struct]. rewrite <- named_iff. split; [|intros ->; reflexivity]. intros X. now apply bind_Ok in X as (o' & E & [= <-]).
Qed.
Lemma without_value (o : object) k : k <> "value"%string ->
  let o' := filter (fun e : string * sv => negb (String.eqb (fst e) "value")) o in
  (forall s, In (k, s) o' <-> In (k, s) o) /\ (In k (map fst o') <-> In k (map fst o)) /\ (unrepeated o' k <-> unrepeated o k).
Proof.
  intros N o'. assert (I : forall s, In (k, s) o' <-> In (k, s) o).
  { intros s. unfold o'. rewrite filter_In. cbn [fst]. apply String.eqb_neq in N. rewrite N. cbn. tauto. }
  split; [exact I|]. split.
  - split; intros X; apply in_map_iff in X as ([k' s] & E & X); cbn in E; subst k'; apply I in X; apply in_map_iff; now exists (k, s).
  - unfold unrepeated. replace (count_occ string_dec (map fst o') k) with (count_occ string_dec (map fst o) k); [reflexivity|].
    clear I. unfold o'. clear o'. induction o as [|[k' s] o IH]; [reflexivity|]. cbn [map fst filter count_occ].
    destruct (String.eqb_spec k' "value") as [->|N']; cbn [negb].
    + destruct (string_dec "value" k); [congruence|exact IH].
    + cbn [map fst count_occ]. now rewrite IH.
Qed.
Lemma given_iff {T} (o o' : object) k (D : sv -> T -> Prop) x : (forall s, In (k, s) o' <-> In (k, s) o) -> (given o' k D x <-> given o k D x).
Proof. intros I. unfold given. split; intros (s & A & B); exists s; (split; [now apply I|exact B]). Qed.

Lemma s_type (o : object) ty : de_literal_type o = Ok ty <->
  match ty with
  | ATypeIri i => (unrepeated o "type" /\ given o "type" iri_sdoc i) \/ (~ In "type"%string (map fst o) /\ i = xsd_string)
  | ATypeLang tag => In "type"%string (map fst o) /\ ~ (unrepeated o "type" /\ exists i, given o "type" iri_sdoc i) /\
      unrepeated o "language" /\ given o "language" lang_sdoc tag
  end.
Proof.
  unfold de_literal_type. pose proof (sreads_default o "type" de_iri iri_sdoc xsd_string (fun s t _ => s_iri s t)) as R.
  pose proof (sreads_require o "language" de_lang lang_sdoc (fun s t _ => s_lang s t)) as R'.
  assert (S : forall (P : Prop) k, (P /\ forall x, In x [k] -> unrepeated o x) <-> (unrepeated o k /\ P)).
  { intros P k. split; [intros [A B]; split; [apply B; now left|exact A]|]. intros [A B]. split; [exact B|]. intros x [<-|[]]. exact A. }
  assert (L : f_default o "type" de_iri xsd_string = Err tt \/ exists i, f_default o "type" de_iri xsd_string = Ok i).
  { unfold f_default. destruct (field_at_cases o "type") as [[-> N]|[(s & -> & I & U & A)|[-> N]]]; cbn [bind]; eauto.
    destruct s; cbn [de_iri]; eauto. destruct (is_iri_ref _); eauto. }
  destruct L as [E|(i & E)]; rewrite E; cbn [bind].
  - assert (NT : In "type"%string (map fst o)).
    { destruct (in_dec string_dec "type"%string (map fst o)) as [i|i]; [exact i|]. exfalso.
      assert (Y : f_default o "type" de_iri xsd_string = Ok xsd_string); [|congruence]. apply R. apply S. split; [|right; auto].
      unfold unrepeated. rewrite (proj1 (count_occ_not_In string_dec _ _) i). lia. }
    assert (NG : ~ (unrepeated o "type" /\ exists i, given o "type" iri_sdoc i)).
    { intros (U & i & G). assert (Y : f_default o "type" de_iri xsd_string = Ok i); [|congruence]. apply R, S. split; [exact U|now left]. }
    split.
    + intros X. apply bind_Ok in X as (tag & Et & [= <-]). apply R', S in Et. tauto.
    + destruct ty as [i|tag]; [intros [[U G]|[N _]]; [elim NG; eauto|contradiction]|]. intros (_ & _ & U & G).
      assert (Et : f_require o "language" de_lang = Ok tag) by (apply R', S; auto). now rewrite Et.
  - assert (G : unrepeated o "type" /\ given_or o "type" iri_sdoc xsd_string i) by (apply S, R; exact E). split.
    + intros [= <-]. destruct G as [U [G|G]]; auto.
    + destruct ty as [i'|tag].
      * intros H. assert (Y : f_default o "type" de_iri xsd_string = Ok i'); [|congruence]. apply R, S. destruct G as [U _]. split; [exact U|].
        destruct H as [[_ H]|H]; [now left|now right].
      * intros (I & N & _). destruct G as [U [G|[NI _]]]; [elim N; eauto|contradiction].
Qed.

Lemma s_pattern (s : sv) p : de_pattern s = Ok p <-> pattern_sdoc s p.
Proof.
  assert (L : forall s p, de_literal s = Ok p <-> exists (o : object) v ty, s = text_map o /\ p = ALiteral v ty /\ unrepeated o "value" /\ given o "value" string_sdoc v /\
    match ty with
    | ATypeIri i => (unrepeated o "type" /\ given o "type" iri_sdoc i) \/ (~ In "type"%string (map fst o) /\ i = xsd_string)
    | ATypeLang tag => In "type"%string (map fst o) /\ ~ (unrepeated o "type" /\ exists i, given o "type" iri_sdoc i) /\
        unrepeated o "language" /\ given o "language" lang_sdoc tag
    end).
  { clear s p. intros s p. unfold de_literal.
    assert (V : forall (o : object) v, f_require o "value" de_string = Ok v <-> unrepeated o "value" /\ given o "value" string_sdoc v).
    { intros o v. rewrite (sreads_require o "value" de_string string_sdoc (fun s t _ => s_string s t) v). split.
      - intros [A B]. split; [apply B; now left|exact A].
      - intros [A B]. split; [exact B|]. intros x [<-|[]]. exact A. }
    assert (Y : forall (o : object) ty, de_literal_type (filter (fun e : string * sv => negb (String.eqb (fst e) "value")) o) = Ok ty <->
      match ty with
      | ATypeIri i => (unrepeated o "type" /\ given o "type" iri_sdoc i) \/ (~ In "type"%string (map fst o) /\ i = xsd_string)
      | ATypeLang tag => In "type"%string (map fst o) /\ ~ (unrepeated o "type" /\ exists i, given o "type" iri_sdoc i) /\
          unrepeated o "language" /\ given o "language" lang_sdoc tag
      end).
    { intros o ty. rewrite s_type. destruct (without_value o "type" ltac:(discriminate)) as (A1 & A2 & A3).
      destruct (without_value o "language" ltac:(discriminate)) as (B1 & B2 & B3).
      destruct ty as [i|tag].
      - rewrite A3, A2, (given_iff _ _ _ _ _ A1). reflexivity.
      - rewrite A3, A2, B3, (given_iff _ _ _ _ _ B1). setoid_rewrite (given_iff _ _ _ iri_sdoc _ A1). reflexivity. }
    split.
    - intros X. apply bind_Ok in X as (o & E & X). apply bind_Ok in X as (v & Ev & X). apply bind_Ok in X as (ty & Ety & [= <-]).
      apply flat_open in E. apply V in Ev as [U G]. apply Y in Ety. exists o, v, ty. auto 10.
    - intros (o & v & ty & -> & -> & U & G & H). rewrite (proj2 (flat_open _ o) eq_refl). cbn [bind]. rewrite (proj2 (V o v) (conj U G)).
      cbn [bind]. apply Y in H. now rewrite H. }
  assert (N : (forall t, s <> SStr t) -> (de_literal s = Ok p <-> pattern_sdoc s p)).
  { intros NS. rewrite L. split.
    - intros (o & v & ty & -> & -> & U & G & H). destruct ty as [i|tag]; [destruct H as [[U' G']|[N ->]]; [now apply SPatternTyped|now apply SPatternString]|destruct H as (A & B & C & E); now apply SPatternLang].
    - intros H. destruct H; try (now elim (NS s)); do 3 eexists; (split; [reflexivity|]); (split; [reflexivity|]); auto 10. }
  destruct s; try (apply N; discriminate). cbn [de_pattern]. destruct (blank_suffix s) as [name|] eqn:B.
  - split; [intros [= <-]; now constructor|]. inversion 1; subst; congruence.
  - destruct (is_iri_ref s) eqn:I; (split; [intros X; try discriminate X; injection X as <-; now constructor|inversion 1; subst; congruence]).
Qed.
Lemma pattern_seq ss : @de_pattern TS F (SSeq ss) = Err tt.
Proof. reflexivity. Qed.
Lemma pattern_unit p : ~ @pattern_sdoc TS F SUnit p.
Proof. inversion 1. Qed.

Lemma s_quad (s : sv) q : de_quad s = Ok q <-> quad_sdoc s q.
Proof.
  destruct s as [| | | | | | |[|js [|jp [|jo g]]]|]; cbn [de_quad]; try (split; [discriminate|inversion 1; fail]).
  split.
  - intros X. apply bind_Ok in X as (s & Es & X). apply bind_Ok in X as (p & Ep & X). apply bind_Ok in X as (o & Eo & X).
    apply s_pattern in Es, Ep, Eo. destruct g as [|jg [|]]; try discriminate X; [injection X as <-; constructor; auto|].
    apply bind_Ok in X as (g & Eg & [= <-]). apply (option_iff _ pattern_sdoc jg g (s_pattern jg)) in Eg. destruct g as [g|]; [destruct Eg; now constructor|].
    subst jg. constructor; auto.
  - intros X. inversion X as [? ? ? s p o ? Ps Pp Po G|? ? ? jg s p o g' Ps Pp Po Pg]; subst; apply s_pattern in Ps, Pp, Po; rewrite Ps, Pp, Po; cbn [bind].
    + destruct G as [-> | ->]; reflexivity.
    + assert (E : de_option de_pattern jg = Ok (Some g')); [|now rewrite E].
      apply (option_iff _ pattern_sdoc jg (Some g') (s_pattern jg)). split; [|exact Pg]. intros ->. now apply pattern_unit in Pg.
Qed.
Lemma s_dataset (s : sv) ds : de_dataset s = Ok ds <-> dataset_sdoc s ds.
Proof. apply s_vec. intros. apply s_quad. Qed.

Lemma s_i64 (s : sv) z : de_i64 s = Ok z <-> (s = SU64 z \/ s = SI64 z) /\ (- 2 ^ 63 <= z < 2 ^ 63)%Z.
Proof.
  assert (B : forall n, ((- 2 ^ 63 <=? n) && (n <? 2 ^ 63))%Z = true <-> (- 2 ^ 63 <= n < 2 ^ 63)%Z) by (intros n; rewrite andb_true_iff, Z.leb_le, Z.ltb_lt; tauto).
  destruct s; cbn [de_i64]; try (split; [discriminate|intros [[X|X] _]; discriminate X]);
    (destruct (_ && _)%Z eqn:E; [apply B in E|]; split; intros X; try discriminate X;
     [injection X as <-; auto|destruct X as [[[= ->]|[= ->]] _]; reflexivity|destruct X as [[[= ->]|[= ->]] X]; apply B in X; congruence]).
Qed.
Lemma s_typed (s : sv) r : de_typed_string s = Ok r <->
  (exists (o : object) v ty, s = text_map o /\ r = ATypedString v ty /\ unrepeated o "value" /\ given o "value" string_sdoc v /\ unrepeated o "type" /\ given o "type" iri_sdoc ty) \/
  (exists v ty, s = SSeq [SStr v; SStr ty] /\ r = ATypedString v ty /\ is_iri_ref ty = true).
Proof.
  unfold de_typed_string.
  assert (R : forall o : object, (let* v := f_require o "value" de_string in let* ty := f_require o "type" de_iri in Ok (ATypedString v ty)) = Ok r <->
    exists v ty, r = ATypedString v ty /\ unrepeated o "value" /\ given o "value" string_sdoc v /\ unrepeated o "type" /\ given o "type" iri_sdoc ty).
  { intros o. pose proof (sreads_require o "value" de_string string_sdoc (fun s t _ => s_string s t)) as R1.
    pose proof (sreads_require o "type" de_iri iri_sdoc (fun s t _ => s_iri s t)) as R2. split.
    - intros X. apply bind_Ok in X as (v & Ev & X). apply bind_Ok in X as (ty & Et & [= <-]). apply R1 in Ev as [G U]. apply R2 in Et as [G' U'].
      exists v, ty. specialize (U _ (or_introl eq_refl)). specialize (U' _ (or_introl eq_refl)). auto.
    - intros (v & ty & -> & U & G & U' & G').
      assert (E1 : f_require o "value" de_string = Ok v) by (apply R1; split; [exact G|intros x [<-|[]]; exact U]).
      assert (E2 : f_require o "type" de_iri = Ok ty) by (apply R2; split; [exact G'|intros x [<-|[]]; exact U']). now rewrite E1, E2. }
  split.
  - intros X. apply bind_Ok in X as (o & E & X). destruct s as [| | | | | | |l|m]; cbn [de_struct] in E; try discriminate E.
    + right. destruct (length l <=? length ["value"; "type"]%string) eqn:L; [|discriminate E]. injection E as <-. apply R in X as (v & ty & -> & _ & (s1 & I1 & D1) & _ & (s2 & I2 & D2)).
      apply Nat.leb_le in L. destruct l as [|a [|b [|]]]; cbn in L, I1, I2; try lia; try tauto.
      * destruct I2 as [I2|[]]. discriminate I2.
      * destruct I1 as [I1|[I1|[]]]; try discriminate I1. destruct I2 as [I2|[I2|[]]]; try discriminate I2. injection I1 as <-. injection I2 as <-.
        unfold string_sdoc in D1. destruct D2 as [-> D2]. subst a. eauto.
    + left. apply bind_Ok in E as (o' & E & [= <-]). apply named_iff in E. apply R in X as (v & ty & -> & H). exists o', v, ty. auto.
  - intros [(o & v & ty & -> & -> & H)|(v & ty & -> & -> & H)].
    + cbn [de_struct text_map]. rewrite (proj2 (named_iff _ o) eq_refl). cbn [bind]. apply R. eauto.
    + cbn. rewrite H. reflexivity.
Qed.
Lemma resource_by_shape (s : sv) : de_resource s =
  match s with
  | SBool b => Ok (ABoolean b)
  | SStr t => Ok (AString t)
  | SU64 z => match de_i64 s with Ok z => Ok (ANumber z) | _ => Err tt end
  | SI64 z => match de_i64 s with Ok z => Ok (ANumber z) | _ => Err tt end
  | _ => de_typed_string s
  end.
Proof.
  unfold de_resource. cbn [untagged]. unfold variant_of. destruct s; cbn [de_bool de_string de_i64 bind]; try reflexivity;
    try (destruct (_ && _)%Z; reflexivity); destruct (de_typed_string _) as [|[]| |]; reflexivity.
Qed.
Lemma s_resource (s : sv) r : de_resource s = Ok r <-> resource_sdoc s r.
Proof.
  rewrite resource_by_shape.
  assert (T : forall s : sv, (forall z, s <> SU64 z) -> (forall z, s <> SI64 z) -> (forall t, s <> SStr t) -> (forall b, s <> SBool b) ->
    (de_typed_string s = Ok r <-> resource_sdoc s r)).
  { clear s. intros s N1 N2 N3 N4. rewrite s_typed. split.
    - intros [(o & v & ty & -> & -> & A & B & C & E)|(v & ty & -> & -> & A)]; econstructor; eauto.
    - intros X. destruct X; try (now elim (N4 b)); try (now elim (N3 t)); try (destruct H as [H|H]; [now elim (N1 z)|now elim (N2 z)]); eauto 20. }
  assert (NZ : forall (s : sv) z, s = SU64 z \/ s = SI64 z -> (match de_i64 s with Ok z => Ok (ANumber z) | _ => Err tt end = Ok r <-> resource_sdoc s r)).
  { clear s. intros s z H. split.
    - destruct (de_i64 s) as [z'|[]| |] eqn:E; try discriminate. intros [= <-]. apply s_i64 in E as [A B]. now constructor.
    - intros X. destruct X; try (destruct H as [H|H]; discriminate H).
      assert (E : de_i64 s = Ok z0) by (now apply s_i64). now rewrite E. }
  destruct s; try (now apply T); try (eapply NZ; eauto; fail).
  - split; [intros [= <-]; constructor|]. intros X. inversion X; subst; try reflexivity. destruct H as [H|H]; discriminate H.
  - split; [intros [= <-]; constructor|]. intros X. inversion X; subst; try reflexivity. destruct H as [H|H]; discriminate H.
Qed.

Lemma s_header (o : object) : sreads o ["base"; "prefixes"; "id"; "input"; "intro"; "dataset"; "extra"]%string (de_header o) (header_sdoc o).
Proof.
  unfold de_header. eapply sreads_iff.
  - repeat first
      [ apply (sreads_bind o ["base"%string] ["prefixes"; "id"; "input"; "intro"; "dataset"; "extra"]%string); [apply sreads_option; intros; apply s_iri|intros]
      | apply (sreads_bind o ["prefixes"%string] ["id"; "input"; "intro"; "dataset"; "extra"]%string); [apply sreads_default; intros; apply (s_map _ _ string_sdoc iri_sdoc); intros; [apply s_string|apply s_iri]|intros]
      | apply (sreads_bind o ["id"%string] ["input"; "intro"; "dataset"; "extra"]%string); [apply sreads_option; intros; apply s_iri|intros]
      | apply (sreads_bind o ["input"%string] ["intro"; "dataset"; "extra"]%string); [apply sreads_default; intros; apply s_many; [intros; apply s_string|reflexivity]|intros]
      | apply (sreads_bind o ["intro"%string] ["dataset"; "extra"]%string); [apply sreads_default; intros; apply s_many; [intros; apply s_string|reflexivity]|intros]
      | apply (sreads_bind o ["dataset"%string] ["extra"]%string); [apply sreads_default; intros; apply s_dataset|intros]
      | apply (sreads_bind o ["extra"%string] []%string); [apply sreads_default; intros; apply (s_map _ _ iri_sdoc resource_sdoc); intros; [apply s_iri|apply s_resource]|intros]
      | apply sreads_ret ].
  - intros h. unfold header_sdoc. split.
    + intros (b & B & p & P & i & I & n & N & t & T & d & Dd & e & Ee & ->). cbn. auto 10.
    + intros (B & P & I & N & T & Dd & Ee). destruct h as [b p i n t d e]; cbn in *. exists b; split; [exact B|]. exists p; split; [exact P|].
      exists i; split; [exact I|]. exists n; split; [exact N|]. exists t; split; [exact T|]. exists d; split; [exact Dd|]. exists e; split; [exact Ee|reflexivity].
Qed.
End Leaves.

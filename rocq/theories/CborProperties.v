(** * CBOR conversions: C47, C48, C69 *)

From Coq Require Import String Ascii List Bool Arith NArith ZArith QArith Qcanon Lia Sorting.Sorted.
Import ListNotations.
From Verif Require Import Base BaseProofs Orders ValueModel ValueProofs PatternModel HydrateModel TermModel NumberModel NumberSpec NumberProofs
  NumberProperties JsonModel JsonSpec JsonProperties CborModel CborSpec.
Open Scope list_scope.
Local Open Scope Z_scope.

(** ** C47 *)

Lemma be_value_app s c v : be_value_from v (s ++ String c "") = 256 * be_value_from v s + Z.of_N (N_of_ascii c).
Proof. revert v. induction s as [|d s IH]; intros v; cbn [append be_value_from]; [reflexivity|apply IH]. Qed.

Lemma be_value_bytes k z : 0 <= z -> be_value (bytes_be k z) = z mod 256 ^ Z.of_nat k.
Proof.
  revert z. induction k as [|k IH]; intros z Hz.
  - cbn. now rewrite Z.mod_1_r.
  - cbn [bytes_be]. unfold be_value in *. rewrite be_value_app, IH by (apply Z.div_pos; lia).
    pose proof (Z.mod_pos_bound z 256 ltac:(lia)).
    rewrite N_ascii_embedding by lia. rewrite Z2N.id by lia.
    rewrite Nat2Z.inj_succ, Z.pow_succ_r by lia.
    rewrite (Z.rem_mul_r z 256) by (try lia; apply Z.pow_pos_nonneg; lia). lia.
Qed.

Lemma of_Z_integer n : as_integer (Q2Qc (inject_Z n)) = Some n.
Proof.
  destruct (of_Z_fraction n) as [E1 E2]. unfold as_integer, is_integer. now rewrite E2, E1.
Qed.

(** Enough bytes for a positive number. *)
Lemma byte_count z : 0 < z -> z < 256 ^ Z.of_nat (Z.to_nat (bits z / 8 + 1)).
Proof.
  intros H. set (b := bits z).
  assert (Hb : 0 <= b).
  { unfold b, bits. destruct (Z.abs z) eqn:E; [lia| |lia]. pose proof (Z.log2_nonneg (Zpos p)). lia. }
  assert (L : z < 2 ^ b).
  { unfold b, bits. rewrite Z.abs_eq by lia. destruct z; try lia. apply Z.log2_spec. lia. }
  eapply Z.lt_le_trans; [exact L|].
  rewrite Z2Nat.id by (pose proof (Z.div_pos b 8); lia).
  change 256 with (2 ^ 8). rewrite <- Z.pow_mul_r by (pose proof (Z.div_pos b 8); lia).
  apply Z.pow_le_mono_r; [lia|]. pose proof (Z.div_mod b 8 ltac:(lia)). pose proof (Z.mod_pos_bound b 8 ltac:(lia)). lia.
Qed.

Lemma number_to_cbor_small n : n <> 0 -> Z.abs n < 2 ^ 64 -> number_to_cbor (Q2Qc (inject_Z n)) = Ok (CInt n).
Proof.
  intros N L. unfold number_to_cbor. rewrite of_Z_integer.
  pose proof (proj2 (bits_lt n 64 ltac:(lia)) L) as B. rewrite (proj2 (Z.leb_le _ _) B).
  unfold first_u64_digit. rewrite (proj2 (Z.eqb_neq n 0) N), Z.mod_small by lia.
  do 2 f_equal. destruct (Z.ltb_spec 0 n); lia.
Qed.

Lemma number_to_cbor_big n : 2 ^ 64 <= Z.abs n ->
  number_to_cbor (Q2Qc (inject_Z n)) = Ok (CTag (if 0 <? n then 2%N else 3%N) (CBytes (signed_bytes_be n))).
Proof.
  intros L. unfold number_to_cbor. rewrite of_Z_integer.
  destruct (Z.leb_spec (bits n) 64) as [B|B]; [|reflexivity].
  apply bits_lt in B; lia.
Qed.

(** Every integer above -2^64, except zero, is converted to a CBOR item that denotes it. *)
Theorem C47_integers_partial n : n <> 0 -> - 2 ^ 64 < n ->
  exists c, number_to_cbor (Q2Qc (inject_Z n)) = Ok c /\ CborInteger c n.
Proof.
  intros N L. destruct (Z.lt_ge_cases (Z.abs n) (2 ^ 64)) as [S|S].
  - exists (CInt n). split; [now apply number_to_cbor_small|]. constructor. lia.
  - exists (CTag 2 (CBytes (signed_bytes_be n))). rewrite number_to_cbor_big by assumption.
    destruct (Z.ltb_spec 0 n); [|lia]. split; [reflexivity|].
    assert (E : be_value (signed_bytes_be n) = n).
    { unfold signed_bytes_be. destruct (Z.ltb_spec n 0); [lia|].
      pose proof (byte_count n ltac:(lia)) as B. set (k := Z.to_nat (bits n / 8 + 1)) in *.
      rewrite (Z.mod_small n) by lia. rewrite be_value_bytes, Z.mod_small by lia. reflexivity. }
    rewrite <- E at 2. constructor.
Qed.

(** The integers from -2^64 downwards are all converted to another integer: their bytes are in two's complement, not the
    unsigned [-1 - n] of RFC 8949. *)
Theorem C47_negative_bignums n : n <= - 2 ^ 64 ->
  exists c n', number_to_cbor (Q2Qc (inject_Z n)) = Ok c /\ CborInteger c n' /\ n' <> n.
Proof.
  intros L. exists (CTag 3 (CBytes (signed_bytes_be n))), (-1 - be_value (signed_bytes_be n)).
  rewrite number_to_cbor_big by lia. destruct (Z.ltb_spec 0 n); [lia|].
  split; [reflexivity|]. split; [constructor|].
  unfold signed_bytes_be. set (k := Z.to_nat _).
  assert (K : (1 <= k)%nat).
  { unfold k. assert (0 <= bits (if n <? 0 then - n - 1 else n) / 8); [|lia].
    apply Z.div_pos; [|lia]. unfold bits. destruct (Z.abs _) eqn:E; [lia| |lia]. pose proof (Z.log2_nonneg (Zpos p)). lia. }
  assert (P : 0 < 256 ^ Z.of_nat k) by (apply Z.pow_pos_nonneg; lia).
  rewrite be_value_bytes by (apply Z.mod_pos_bound; assumption). rewrite Z.mod_mod by lia.
  (* -1 - m = n with m = n mod 256^k: 256^k divides 2n + 1, an odd number *)
  intros C. pose proof (Z.div_mod n (256 ^ Z.of_nat k) ltac:(lia)) as D.
  assert (E : exists t, 256 ^ Z.of_nat k = 2 * t).
  { exists (128 * 256 ^ Z.of_nat (k - 1)). replace (Z.of_nat k) with (1 + Z.of_nat (k - 1)) by lia.
    rewrite Z.pow_add_r, Z.pow_1_r by lia. lia. }
  destruct E as [t E]. rewrite E in D at 1.
  set (m := n mod 256 ^ Z.of_nat k) in *. set (d := n / 256 ^ Z.of_nat k) in *. clearbody m d. clear - C D. nia.
Qed.

(** C47 is false: zero panics, and -2^64 becomes another number. *)
Theorem C47_zero_refuted : exists m, number_to_cbor (Q2Qc (inject_Z 0)) = Panic m.
Proof. eexists. vm_compute. reflexivity. Qed.

Theorem C47_refuted : exists n c n', number_to_cbor (Q2Qc (inject_Z n)) = Ok c /\ CborInteger c n' /\ n' <> n.
Proof. exists (- 2 ^ 64). apply C47_negative_bignums. lia. Qed.

(** The only panic is on zero. *)
Theorem C47_panic q : (exists c, number_to_cbor q = Ok c) \/ q = Q2Qc (inject_Z 0).
Proof.
  unfold number_to_cbor, as_integer, is_integer. destruct (Z.eqb_spec (denom q) 1) as [E|E]; [|left; eauto].
  destruct (bits (numer q) <=? 64); [|left; eauto].
  unfold first_u64_digit. destruct (Z.eqb_spec (numer q) 0) as [Z|Z]; [|left; eauto].
  right. rewrite <- Z. now apply fraction_integer.
Qed.

(** ** C48 *)

(** The JSON of a typed literal is the JSON of its untyped value. *)
Theorem C48_json {R} (l : typed_literal R) : typed_literal_to_json l = value_to_json (literal_into_untyped l).
Proof. destruct l; reflexivity. Qed.

Section Cbor.
Context {R : Type} {CC : Cmp cbor}.

Lemma untyped_keys (m : list (value * typed_value R)) :
  map fst (map (fun kv => (fst kv, into_untyped (snd kv))) m) = map fst m.
Proof. rewrite map_map. reflexivity. Qed.

Lemma into_untyped_map (m : list (value * typed_value R)) ty : StronglySorted lt (map fst m) ->
  into_untyped (TMap m ty) = VMap (map (fun kv => (fst kv, into_untyped (snd kv))) m).
Proof.
  intros S. cbn [into_untyped]. rewrite bt_collect_sorted; [reflexivity|]. now rewrite untyped_keys.
Qed.

(** [into_untyped] keeps the structure. *)
Theorem C48_structure (t : typed_value R) : typed_wf t -> Erases t (into_untyped t).
Proof.
  intros W. induction t as [l|t ty i IH|m ty IH|l ty IH|v] using typed_value_ind'.
  - destruct l; constructor.
  - inversion_clear W. constructor. now apply IH.
  - inversion_clear W as [| |? ? S W'| |]. rewrite into_untyped_map by assumption. constructor. clear S.
    induction IH as [|[k t] m Ht Hm IHm]; cbn [map]; constructor.
    + split; [reflexivity|]. apply Ht. apply (W' k). now left.
    + apply IHm. intros k' t' I. apply (W' k'). now right.
  - inversion_clear W as [| | |? ? W'|]. cbn [into_untyped]. constructor.
    induction IH as [|t l Ht Hl IHl]; cbn [map]; constructor.
    + apply Ht, W'. now left.
    + apply IHl. intros t' I. apply W'. now right.
  - constructor.
Qed.

Lemma traverse_ext {E A B} (f g : A -> outcome E B) l : (forall a, In a l -> f a = g a) -> traverse f l = traverse g l.
Proof.
  induction l as [|a l IH]; intros H; cbn [traverse]; [reflexivity|].
  rewrite H by (now left). rewrite IH; [reflexivity|]. intros; apply H; now right.
Qed.

Lemma traverse_map {E A A' B} (f : A' -> outcome E B) (g : A -> A') l : traverse f (map g l) = traverse (fun a => f (g a)) l.
Proof. induction l as [|a l IH]; cbn [traverse map]; [reflexivity|]. now rewrite IH. Qed.

(** The typed and untyped conversions agree when the unit layouts have the unit constant. *)
Theorem C48_cbor_partial (t : typed_value R) : typed_wf t -> UnitsAreUnit t ->
  typed_to_cbor t = value_to_cbor (into_untyped t).
Proof.
  intros W U. induction t as [l|t ty i IH|m ty IH|l ty IH|v] using typed_value_ind'.
  - inversion_clear U as [?|? N| | | |]; [reflexivity|]. destruct l; try reflexivity. now destruct (N v ty).
  - inversion_clear W. inversion_clear U. now apply IH.
  - inversion_clear W as [| |? ? S W'| |]. inversion_clear U as [| | |? ? U'| |].
    rewrite into_untyped_map by assumption. cbn [typed_to_cbor value_to_cbor]. rewrite traverse_map. f_equal.
    apply traverse_ext. intros [k t] I. cbn [fst snd]. rewrite Forall_forall in IH.
    specialize (IH _ I (W' k t I) (U' k t I)). cbn [snd] in IH. now rewrite IH.
  - inversion_clear W as [| | |? ? W'|]. inversion_clear U as [| | | |? ? U'|].
    cbn [typed_to_cbor value_to_cbor into_untyped]. rewrite traverse_map. f_equal.
    apply traverse_ext. intros t I. rewrite Forall_forall in IH. auto.
  - reflexivity.
Qed.

(** They differ on a unit layout with another constant: the typed conversion forgets it. *)
Theorem C48_cbor_refuted (ty : R) : exists t : typed_value R, typed_wf t /\ typed_to_cbor t <> value_to_cbor (into_untyped t).
Proof. exists (TLit (TUnit (VLit (LText "constant")) ty)). split; [constructor|]. discriminate. Qed.

(** ** Tags *)

Context {CR : Cmp R} {IR : Interp R}.
Variables (prop : option R) (extra : R -> option (list (R * R))) (unsigned : string -> bool).
Notation get_tag := (get_layout_tag prop extra unsigned).
Notation tagged := (tagged_cbor prop extra unsigned).

Lemma no_error_Ok {E A} (m : outcome Empty_set A) a : @no_error E A m = Ok a <-> m = Ok a.
Proof. destruct m as [|[]| |]; cbn; split; congruence. Qed.

Lemma with_tag_Ok c ty c' : with_tag prop extra unsigned c (Some ty) = Ok c' <->
  exists t, get_tag ty = Ok t /\ c' = tagged_item t c.
Proof.
  unfold with_tag. destruct (get_tag ty) as [[t|]| | |]; cbn; split; try congruence; try (intros (t' & [=] & ?)).
  - intros [= <-]. exists (Some t). auto.
  - subst. reflexivity.
  - intros [= <-]. exists None. auto.
  - subst. reflexivity.
Qed.

(** The tagged conversion succeeds exactly when every layout of the value has a valid tag (or none), and puts exactly these tags. *)
Theorem C69_tagged (tag : R -> option N) (t : typed_value R) c :
  (forall ty, Uses t ty -> get_tag ty = Ok (tag ty)) ->
  (tagged t = Ok c <-> Tagged tag t c).
Proof.
  revert c. induction t as [l|t ty i IH|m ty IH|l ty IH|v] using typed_value_ind'; intros c G.
  - destruct l as [v ty|v ty|v ty|v ty|v ty|v ty]; cbn [tagged_cbor];
      pose proof (G ty ltac:(apply us_type; reflexivity)) as T.
    3:{ split.
        - intros H. apply bind_Ok in H as (c' & H1 & H2). apply with_tag_Ok in H2 as (t & T' & ->).
          apply no_error_Ok in H1. rewrite T in T'. injection T' as <-. now constructor.
        - intros H. inversion H as [| | |? ? ? E| | | | | |]; subst. rewrite (proj2 (no_error_Ok _ _) E). cbn [bind]. apply with_tag_Ok. eauto. }
    all: rewrite with_tag_Ok; split; [intros (t & T' & ->); rewrite T in T'; injection T' as <-; constructor|inversion 1; subst; eauto].
  - pose proof (G ty ltac:(apply us_type; reflexivity)) as T.
    assert (IH' : forall c, tagged t = Ok c <-> Tagged tag t c) by (intros; apply IH; intros; apply G; now constructor).
    cbn [tagged_cbor]. split.
    + intros H. apply bind_Ok in H as (c' & H1 & H2). apply with_tag_Ok in H2 as (t' & T' & ->).
      rewrite T in T'. injection T' as <-. constructor. now apply IH'.
    + inversion 1; subst. rewrite (proj2 (IH' c0)) by assumption. cbn [bind]. apply with_tag_Ok. eauto.
  - pose proof (G ty ltac:(apply us_type; reflexivity)) as T. cbn [tagged_cbor].
    assert (X : forall m', traverse (fun kv => let* k := no_error (value_to_cbor (fst kv)) in let* v := tagged (snd kv) in Ok (k, v)) m = Ok m' <->
      Forall2 (fun e e' => value_to_cbor (fst e) = Ok (fst e') /\ Tagged tag (snd e) (snd e')) m m').
    { assert (G' : forall k t ty, In (k, t) m -> Uses t ty -> get_tag ty = Ok (tag ty))
        by (intros; apply G; eapply us_map; eassumption).
      clear T G. intros m'. rewrite traverse_Ok. revert m'. induction IH as [|[k t] m Ht Hm IHm]; intros m'.
      - split; inversion 1; constructor.
      - cbn [fst snd] in *. specialize (IHm ltac:(intros; eapply G'; [right|]; eassumption)).
        split; inversion 1 as [|? [k' c'] ? ? E F]; subst.
        + constructor; [|now apply IHm]. apply bind_Ok in E as (k1 & K1 & E). apply bind_Ok in E as (c1 & C1 & E).
          injection E as -> ->. apply no_error_Ok in K1. cbn [fst snd]. split; [assumption|]. apply Ht; [|assumption].
          intros; eapply G'; [now left|eassumption].
        + constructor; [|now apply IHm]. destruct E as [E1 E2]. cbn [fst snd] in *.
          rewrite (proj2 (no_error_Ok _ _) E1). cbn [bind]. rewrite (proj2 (Ht c' ltac:(intros; eapply G'; [now left|eassumption])) E2). reflexivity. }
    split.
    + intros H. apply bind_Ok in H as (m' & H1 & H2). apply with_tag_Ok in H2 as (t' & T' & ->).
      rewrite T in T'. injection T' as <-. constructor. now apply X.
    + inversion 1; subst. rewrite (proj2 (X m')) by assumption. cbn [bind]. apply with_tag_Ok. eauto.
  - pose proof (G ty ltac:(apply us_type; reflexivity)) as T. cbn [tagged_cbor].
    assert (X : forall l', traverse tagged l = Ok l' <-> Forall2 (Tagged tag) l l').
    { assert (G' : forall t ty, In t l -> Uses t ty -> get_tag ty = Ok (tag ty))
        by (intros; apply G; eapply us_list; eassumption).
      clear T G. intros l'. rewrite traverse_Ok. revert l'. induction IH as [|t l Ht Hl IHl]; intros l'.
      - split; inversion 1; constructor.
      - specialize (IHl ltac:(intros; eapply G'; [right|]; eassumption)).
        split; inversion 1 as [|? c' ? ? E F]; subst; (constructor; [|now apply IHl]);
          apply Ht; trivial; intros; eapply G'; (now left) || eassumption. }
    split.
    + intros H. apply bind_Ok in H as (m' & H1 & H2). apply with_tag_Ok in H2 as (t' & T' & ->).
      rewrite T in T'. injection T' as <-. constructor. now apply X.
    + inversion 1; subst. rewrite (proj2 (X l')) by assumption. cbn [bind]. apply with_tag_Ok. eauto.
  - cbn [tagged_cbor]. split.
    + intros H. apply bind_Ok in H as (c' & H1 & H2). cbn in H2. injection H2 as <-. apply no_error_Ok in H1. now constructor.
    + intros H. inversion H as [? ? E| | | | | | | | |]; subst. rewrite (proj2 (no_error_Ok _ _) E). reflexivity.
Qed.

(** If the tagged conversion succeeds, every layout of the value has a valid tag or none. *)
Theorem C69_tags_valid (t : typed_value R) c : tagged t = Ok c ->
  forall ty, Uses t ty -> exists tag, get_tag ty = Ok tag.
Proof.
  revert c. induction t as [l|t ty i IH|m ty IH|l ty IH|v] using typed_value_ind'; intros c H ty' U.
  - inversion_clear U as [? ? E| | |]. cbn in E. injection E as <-.
    destruct l; cbn in H; try (apply with_tag_Ok in H as (t & T & _); eauto).
    apply bind_Ok in H as (c' & _ & H). apply with_tag_Ok in H as (t & T & _). eauto.
  - cbn [tagged_cbor] in H. apply bind_Ok in H as (c' & H1 & H). apply with_tag_Ok in H as (t' & T & _).
    inversion U as [? ? E|? ? ? ? U'| |]; subst; [|eauto]. cbn in E. injection E as <-. eauto.
  - cbn [tagged_cbor] in H. apply bind_Ok in H as (m' & H1 & H). apply with_tag_Ok in H as (t' & T & _).
    inversion U as [? ? E| |? ? ? ? ? I U'|]; subst; [cbn in E; injection E as <-; eauto|].
    apply traverse_Ok in H1. clear U T. induction H1 as [|a b l l' E F IHF]; [contradiction|].
    inversion_clear IH as [|? ? IHa IHl]. destruct I as [->|I].
    + apply bind_Ok in E as (k1 & _ & E). apply bind_Ok in E as (c1 & C1 & _). eapply IHa; eassumption.
    + now apply IHF.
  - cbn [tagged_cbor] in H. apply bind_Ok in H as (m' & H1 & H). apply with_tag_Ok in H as (t' & T & _).
    inversion U as [? ? E| | |? ? ? ? I U']; subst; [cbn in E; injection E as <-; eauto|].
    apply traverse_Ok in H1. clear U T. induction H1 as [|a b l l' E F IHF]; [contradiction|].
    inversion_clear IH as [|? ? IHa IHl]. destruct I as [->|I]; [eapply IHa; eassumption|now apply IHF].
  - inversion U as [? ? E| | |]; subst. discriminate.
Qed.

(** Without tags the tagged conversion is the plain one. *)
Theorem C48_untagged (t : typed_value R) c :
  (forall ty, Uses t ty -> get_tag ty = Ok None) ->
  (tagged t = Ok c <-> typed_to_cbor t = Ok c).
Proof.
  intros G. rewrite (C69_tagged (fun _ => None)) by assumption. clear G. revert c.
  induction t as [l|t ty i IH|m ty IH|l ty IH|v] using typed_value_ind'; intros c.
  - destruct l; cbn; split; try (inversion 1; subst; reflexivity); try (intros [= <-]; exact (tg_unit (fun _ => None) _ _));
      try (intros [= <-]; exact (tg_bool (fun _ => None) _ _)); try (intros [= <-]; exact (tg_bytes (fun _ => None) _ _));
      try (intros [= <-]; exact (tg_text (fun _ => None) _ _)); try (intros [= <-]; exact (tg_id (fun _ => None) _ _)).
    + inversion 1; subst; assumption.
    + intros H. exact (tg_num (fun _ => None) n ty c H).
  - cbn [typed_to_cbor]. rewrite <- IH. split; [inversion 1; subst; assumption|].
    intros H. exact (tg_variant (fun _ => None) t ty i c H).
  - cbn [typed_to_cbor].
    assert (X : forall m', traverse (fun kv => let* k := value_to_cbor (fst kv) in let* v := typed_to_cbor (snd kv) in Ok (k, v)) m = Ok m' <->
      Forall2 (fun e e' => value_to_cbor (fst e) = Ok (fst e') /\ Tagged (fun _ => None) (snd e) (snd e')) m m').
    { intros m'. rewrite traverse_Ok. revert m'. induction IH as [|[k t] m Ht Hm IHm]; intros m'.
      - split; inversion 1; constructor.
      - cbn [fst snd] in *. split; inversion 1 as [|? [k' c'] ? ? E F]; subst.
        + constructor; [|now apply IHm]. apply bind_Ok in E as (k1 & K1 & E). apply bind_Ok in E as (c1 & C1 & E).
          injection E as -> ->. cbn [fst snd]. split; [assumption|]. now apply Ht.
        + constructor; [|now apply IHm]. destruct E as [E1 E2]. cbn [fst snd] in *.
          rewrite E1. cbn [bind]. rewrite (proj1 (Ht c') E2). reflexivity. }
    split.
    + inversion 1; subst. rewrite (proj2 (X m')) by assumption. reflexivity.
    + intros H. apply bind_Ok in H as (m' & H1 & H2). injection H2 as <-. apply X in H1.
      exact (tg_map (fun _ => None) m ty m' H1).
  - cbn [typed_to_cbor].
    assert (X : forall l', traverse typed_to_cbor l = Ok l' <-> Forall2 (Tagged (fun _ => None)) l l').
    { intros l'. rewrite traverse_Ok. revert l'. induction IH as [|t l Ht Hl IHl]; intros l'.
      - split; inversion 1; constructor.
      - split; inversion 1 as [|? c' ? ? E F]; subst; (constructor; [|now apply IHl]); now apply Ht. }
    split.
    + inversion 1; subst. rewrite (proj2 (X l')) by assumption. reflexivity.
    + intros H. apply bind_Ok in H as (m' & H1 & H2). injection H2 as <-. apply X in H1.
      exact (tg_list (fun _ => None) l ty m' H1).
  - cbn [typed_to_cbor]. split; [inversion 1; subst; assumption|]. now constructor.
Qed.

(** [get_layout_tag]: no tag without the property; otherwise the first literal with a datatype
    decides, and it must be an unsigned number in range. *)
Theorem C69_get_layout_tag ref props p v : extra ref = Some props -> prop = Some p ->
  (bt_get p props = None -> get_tag ref = Ok None) /\
  (bt_get p props = Some v ->
     (forall tags lex ty rest, literals_of v = tags ++ RdfLiteral lex (TypeAny ty) :: rest ->
        (forall l, In l tags -> exists lex' tag, l = RdfLiteral lex' (TypeLang tag)) ->
        get_tag ref = if unsigned ty
                      then match parse_u64 lex with Some n => Ok (Some n) | None => Err (TagValue lex) end
                      else Err (TagType ty)) /\
     ((forall l, In l (literals_of v) -> exists lex' tag, l = RdfLiteral lex' (TypeLang tag)) -> get_tag ref = Err TagNonLiteral)).
Proof.
  intros E ->. unfold get_layout_tag. rewrite E. split; [intros ->; reflexivity|]. intros ->.
  split.
  - intros tags lex ty rest -> H. induction tags as [|l tags IH]; [reflexivity|].
    destruct (H l (or_introl eq_refl)) as (lex' & tag & ->). cbn [app tag_of_literals]. apply IH. intros; apply H; now right.
  - generalize (literals_of v) as ls. induction ls as [|l ls IH]; intros H; [reflexivity|].
    destruct (H l (or_introl eq_refl)) as (lex' & tag & ->). cbn [tag_of_literals]. apply IH. intros; apply H; now right.
Qed.

(** No tag either when the interpretation does not know the property. *)
Theorem C69_unknown_property ref props : extra ref = Some props -> prop = None -> get_tag ref = Ok None.
Proof. intros E ->. unfold get_layout_tag. now rewrite E. Qed.
End Cbor.

(** The tags are the decimal numbers below 2^64, with an optional plus sign. *)
Lemma span_digits_read s : forall ds r, span_digits s = (ds, r) ->
  exists es, digits es /\ ds = map Z.of_nat es /\ s = (digits_text es ++ r)%string.
Proof.
  induction s as [|c s IH]; intros ds r; cbn [span_digits].
  - intros [= <- <-]. exists []. repeat split. constructor.
  - destruct (is_digit c) eqn:E.
    + destruct (span_digits s) as [ds' r'] eqn:Es. intros [= <- <-]. destruct (IH _ _ eq_refl) as (es & D & -> & ->).
      assert (X : exists d, (d < 10)%nat /\ c = digit_char d).
      { clear - E. unfold is_digit in E. apply andb_prop in E as [E1 E2]. apply N.leb_le in E1, E2.
        exists (N.to_nat (N_of_ascii c) - 48)%nat. split; [lia|].
        unfold digit_char. replace (48 + (N.to_nat (N_of_ascii c) - 48))%nat with (N.to_nat (N_of_ascii c)) by lia.
        change (N.to_nat (N_of_ascii c)) with (nat_of_ascii c). now rewrite ascii_nat_embedding. }
      destruct X as (d & Hd & ->). exists (d :: es). destruct (digit_char_facts d Hd) as [_ ->].
      repeat split. now constructor.
    + intros [= <- <-]. exists []. repeat split. constructor.
Qed.
Lemma append_empty s : (s ++ "")%string = s.
Proof. induction s; cbn; congruence. Qed.
Lemma digits_value_nonneg ds : 0 <= digits_value ds.
Proof. unfold digits_value. induction (rev ds); cbn [digits_value_rev]; lia. Qed.

Theorem C69_parse_u64 s n :
  parse_u64 s = Some n <->
  exists ds, digits ds /\ ds <> [] /\ (s = digits_text ds \/ s = String "+" (digits_text ds)) /\
    Z.of_N n = digits_value ds /\ digits_value ds < 2 ^ 64.
Proof.
  set (P := fun s : string => match span_digits s with
    | (d :: ds, EmptyString) => let n := Z.to_N (number_of (d :: ds)) in if (n <? 2 ^ 64)%N then Some n else None
    | _ => None
    end).
  assert (B : (2 ^ 64)%N = Z.to_N (2 ^ 64)) by reflexivity.
  assert (A : forall s, P s = Some n <->
    exists ds, digits ds /\ ds <> [] /\ s = digits_text ds /\ Z.of_N n = digits_value ds /\ digits_value ds < 2 ^ 64).
  { clear s. intros s. unfold P. split.
    - destruct (span_digits s) as [ds r] eqn:E. destruct (span_digits_read s _ _ E) as (es & D & -> & ->).
      intros H. destruct es as [|d es]; [discriminate|]. cbn [map] in H. destruct r; [|discriminate].
      change (Z.of_nat d :: map Z.of_nat es) with (map Z.of_nat (d :: es)) in H. rewrite number_of_digits in H.
      cbv zeta in H. pose proof (digits_value_nonneg (d :: es)).
      destruct (N.ltb_spec (Z.to_N (digits_value (d :: es))) (2 ^ 64)) as [L|]; [|discriminate]. injection H as <-.
      exists (d :: es). rewrite append_empty. repeat split; auto; [discriminate|lia|].
      rewrite B in L. apply Z2N.inj_lt in L; lia.
    - intros (ds & D & N & -> & Hn & L). pose proof (span_text ds "" D I) as E. rewrite append_empty in E. rewrite E.
      destruct ds as [|d ds]; [congruence|]. cbn [map].
      change (Z.of_nat d :: map Z.of_nat ds) with (map Z.of_nat (d :: ds)). rewrite number_of_digits.
      pose proof (digits_value_nonneg (d :: ds)). cbv zeta.
      destruct (N.ltb_spec (Z.to_N (digits_value (d :: ds))) (2 ^ 64)) as [_|L'].
      + f_equal. lia.
      + exfalso. rewrite B in L'. apply Z2N.inj_le in L'; lia. }
  assert (NP : forall ds t, digits ds -> digits_text ds = String "+" t -> False).
  { intros ds t D H. destruct D as [|d ds Hd D]; [discriminate|]. cbn [digits_text] in H. injection H as H _.
    destruct (digit_char_facts d Hd) as [F _]. rewrite H in F. discriminate. }
  assert (C : parse_u64 s = Some n <-> match s with String "+" s' => P s' = Some n | _ => P s = Some n end).
  { destruct s as [|c s]; [reflexivity|]. destruct c as [[] [] [] [] [] [] [] []]; reflexivity. }
  rewrite C. destruct (match s with String "+" _ => true | _ => false end) eqn:S.
  - destruct s as [|c s]; [discriminate|].
    assert (c = "+"%char) as -> by (destruct c as [[] [] [] [] [] [] [] []]; (discriminate || reflexivity)).
    rewrite A. split; intros (ds & D & N & H & H'); exists ds; (split; [exact D|split; [exact N|split; [|exact H']]]).
    + right. congruence.
    + destruct H as [H|H]; [exfalso; exact (NP ds s D (eq_sym H))|congruence].
  - assert (P s = Some n <-> match s with String "+" s' => P s' = Some n | _ => P s = Some n end) as <-.
    { destruct s as [|c s]; [reflexivity|]. destruct c as [[] [] [] [] [] [] [] []]; (discriminate || reflexivity). }
    rewrite A. split; intros (ds & D & N & H & H'); exists ds; (split; [exact D|split; [exact N|split; [|exact H']]]).
    + now left.
    + destruct H as [H|H]; [exact H|]. rewrite H in S. discriminate.
Qed.

(** ** Witnesses *)

Example C69_parse_examples :
  parse_u64 "18446744073709551615" = Some 18446744073709551615%N /\ parse_u64 "18446744073709551616" = None /\
  parse_u64 "+007" = Some 7%N /\ parse_u64 "+" = None /\ parse_u64 "-1" = None.
Proof. repeat split; vm_compute; reflexivity. Qed.

Example C47_example :
  number_to_cbor (Q2Qc (inject_Z (2 ^ 71 + 5))) =
    Ok (CTag 2 (CBytes (bytes_be 10 (2 ^ 71 + 5)))) /\ CborInteger (CTag 2 (CBytes (bytes_be 10 (2 ^ 71 + 5)))) (2 ^ 71 + 5) /\
  number_to_cbor (Q2Qc (inject_Z (- (2 ^ 64 - 1)))) = Ok (CInt (- (2 ^ 64 - 1))).
Proof.
  split; [vm_compute; reflexivity|]. split; [|vm_compute; reflexivity].
  change (2 ^ 71 + 5) with (be_value (bytes_be 10 (2 ^ 71 + 5))) at 2. constructor.
Qed.

(** A two-field record whose first layout has the tag 42. *)
Section Example.
Local Instance cmp_cbor_sample : Cmp cbor := fun a b =>
  match a, b with CText s, CText t => cmp s t | _, _ => Eq end.
Definition tag_iri : term := TmIri "https://schema.treeldr.org/cbor#tag".
Definition sample_typed : typed_value term :=
  TMap [(VLit (LText "id"), TLit (TId "http://a" (TmIri "urn:id")));
        (VLit (LText "n"), TVariant (TLit (TText "Bob" (TmIri "urn:text"))) (TmIri "urn:sum") 1)] (TmIri "urn:record").
Definition sample_extra (r : term) : option (list (term * term)) :=
  if eqb r (TmIri "urn:text") then Some [(tag_iri, TmLit (RdfLiteral "42" (TypeAny "http://www.w3.org/2001/XMLSchema#unsignedLong")))]
  else Some [].
Example C69_example :
  tagged_cbor (Some tag_iri) sample_extra (String.eqb "http://www.w3.org/2001/XMLSchema#unsignedLong") sample_typed =
    Ok (CMap [(CText "id", CText "http://a"); (CText "n", CTag 42 (CText "Bob"))]) /\
  typed_wf sample_typed /\ UnitsAreUnit sample_typed /\
  typed_to_cbor sample_typed = Ok (CMap [(CText "id", CText "http://a"); (CText "n", CText "Bob")]).
Proof.
  split; [vm_compute; reflexivity|]. split; [|split; [|vm_compute; reflexivity]].
  - constructor; [repeat constructor|]. intros k t [[= <- <-]|[[= <- <-]|[]]]; repeat constructor.
  - constructor. intros k t [[= <- <-]|[[= <- <-]|[]]]; repeat constructor; discriminate.
Qed.
End Example.

Print Assumptions C47_integers_partial.
Print Assumptions C47_negative_bignums.
Print Assumptions C48_structure.
Print Assumptions C48_cbor_partial.
Print Assumptions C48_untagged.
Print Assumptions C69_tagged.
Print Assumptions C69_unknown_property.
Print Assumptions C69_parse_u64.
Print Assumptions C69_tags_valid.
Print Assumptions C69_get_layout_tag.

(** * The two readers of layout documents *)

From Coq Require Import String Ascii List Bool Arith NArith ZArith QArith Qcanon Lia Sorted.
Import ListNotations.
From Verif Require JsonProperties.
From Verif Require Import Base BaseProofs Orders PatternModel ValueModel LayoutModel NumberModel NumberSpec
  NumberProofs HydrateModel JsonModel JsonSpec RegexpModel AbsModel AbsSpec AbsProofs AbsJsonModel AbsJsonSpec
  AbsJsonProofs AbsSerdeModel AbsSerdeSpec AbsSerdeProofs.
Open Scope list_scope.
Open Scope nat_scope.

(** ** Numbers *)

Lemma digits_decimal s n : parse_digits s = Some n -> xsd_unsigned s = Some (Q2Qc (inject_Z n)).
Proof.
  unfold parse_digits, xsd_unsigned. destruct (span_digits s) as [ip r]. destruct ip as [|d ip]; [discriminate|].
  destruct r; [|discriminate]. intros [= <-]. reflexivity.
Qed.
Lemma opp_integer n : (- Q2Qc (inject_Z n))%Qc = Q2Qc (inject_Z (- n)).
Proof.
  apply Qc_is_canon. change (Qred (- Qred (inject_Z n)) == Qred (inject_Z (- n)))%Q. rewrite !Qred_correct. reflexivity.
Qed.
Lemma digits_nonneg s n : parse_digits s = Some n -> (0 <= n)%Z.
Proof. intros H. apply unsigned_iff in H as (ds & _ & _ & _ & ->). apply value_nonneg. Qed.

(** Either a negative number, or digits first. *)
Lemma number_cases s : json_number s = true ->
  (exists r, s = String "-" r /\ json_unsigned r = true) \/
  (json_unsigned s = true /\ xsd_decimal_parse s = xsd_unsigned s /\ parse_i64 s = match parse_digits s with
     | Some n => if ((- 2 ^ 63 <=? n) && (n <? 2 ^ 63))%Z then Some n else None | None => None end /\
   forall (F : Type) (json_float : string -> option F), json_number_serde false json_float s =
     let float := match json_float s with Some f => Ok (SF64 f) | None => Err tt end in
     match parse_digits s with Some n => if (n <? 2 ^ 64)%Z then Ok (SU64 n) else float | None => float end).
Proof.
  destruct s as [|c r]; [discriminate|].
  destruct (Ascii.ascii_dec c "-") as [->|N]; [left; eauto|].
  destruct (Ascii.ascii_dec c "+") as [->|N']; [discriminate|]. right.
  destruct c as [[] [] [] [] [] [] [] []]; (now contradict N) || (now contradict N') || (repeat split; try assumption).
Qed.

Lemma zero_text r : json_unsigned r = true -> parse_digits r = Some 0%Z -> r = "0"%string.
Proof.
  intros J Z. apply unsigned_iff in Z as (ds & D & N & -> & Z). unfold json_unsigned in J.
  rewrite <- (append_nil_r (digits_text ds)), span_text in J by (trivial; exact I).
  destruct ds as [|d ds]; [contradiction|]. cbn [map] in J. apply andb_prop in J as [J _].
  assert (Z' : (d = 0)%nat).
  { rewrite digits_value_cons in Z. pose proof (value_nonneg ds).
    assert (0 < 10 ^ Z.of_nat (length ds))%Z by (apply Z.pow_pos_nonneg; lia).
    destruct d; [reflexivity|]. nia. }
  subst d. cbn in J. destruct ds; [reflexivity|discriminate].
Qed.

Section Agree.
Context {TS : TextSyntax} {F : Type}.
Context (ap : bool) (json_float : string -> option F) (from_f64 : F -> option Qc).
Notation sv := (serde_value F).
Notation jserde := (json_serde ap json_float).
Notation alike := (numbers_alike ap json_float from_f64).

Lemma number_agree s s' q : alike (JNum s) -> json_number_serde ap json_float s = Ok s' -> number_from_json s = Ok q ->
  value_deserialize from_f64 s' = Ok (VLit (LNum q)).
Proof.
  intros A E Q. destruct (A s (AbsJsonSpec.InsideHere _)) as (-> & J & NZ & X).
  assert (FL : match json_float s with Some f => Ok (SF64 f) | None => Err tt end = Ok s' -> value_deserialize from_f64 s' = Ok (VLit (LNum q))).
  { destruct (json_float s) as [f|] eqn:Ef; [|discriminate]. intros [= <-]. cbn. now rewrite (X f q eq_refl Q). }
  unfold number_from_json in Q.
  destruct (number_cases s J) as [(r & -> & U)|(U & P & _ & M)].
  - unfold json_number_serde in E. change (xsd_decimal_parse (String "-" r)) with (option_map Qcopp (xsd_unsigned r)) in Q.
    destruct (parse_digits r) as [n|] eqn:D; [|now apply FL].
    destruct ((0 <? n) && (n <=? 2 ^ 63))%Z; [|now apply FL]. injection E as <-. rewrite (digits_decimal r n D) in Q. cbn [option_map] in Q.
    injection Q as <-. cbn [value_deserialize]. now rewrite opp_integer.
  - rewrite P in Q. rewrite M in E. cbn zeta in E. destruct (parse_digits s) as [n|] eqn:D; [|now apply FL].
    destruct (n <? 2 ^ 64)%Z; [|now apply FL]. injection E as <-. rewrite (digits_decimal s n D) in Q. injection Q as <-. reflexivity.
Qed.

Lemma integer_agree s s' z : alike (JNum s) -> json_number_serde ap json_float s = Ok s' -> integer_text s z ->
  (- 2 ^ 63 <= z < 2 ^ 63)%Z -> de_i64 s' = Ok z.
Proof.
  intros A E T R. destruct (A s (AbsJsonSpec.InsideHere _)) as (-> & J & NZ & _).
  assert (G : forall n, (- 2 ^ 63 <= n < 2 ^ 63)%Z -> ((- 2 ^ 63 <=? n) && (n <? 2 ^ 63))%Z = true).
  { intros n [L H]. apply andb_true_intro. split; [now apply Z.leb_le|now apply Z.ltb_lt]. }
  pose proof (proj2 (parse_i64_iff s z) (conj T R)) as P.
  destruct (number_cases s J) as [(r & -> & U)|(U & _ & P' & M)].
  - unfold json_number_serde in E. change (parse_i64 (String "-" r)) with (match option_map Z.opp (parse_digits r) with
      | Some n => if ((- 2 ^ 63 <=? n) && (n <? 2 ^ 63))%Z then Some n else None | None => None end) in P.
    destruct (parse_digits r) as [n|] eqn:D; cbn [option_map] in P; [|discriminate].
    assert (z = - n)%Z as -> by (match type of P with (if ?b then _ else _) = _ => destruct b; congruence end).
    pose proof (digits_nonneg r n D).
    destruct (Z.eq_dec n 0) as [->|NN]; [apply zero_text in D; [now subst|assumption]|].
    replace ((0 <? n) && (n <=? 2 ^ 63))%Z with true in E; [|symmetry; apply andb_true_intro; split; [apply Z.ltb_lt; lia|apply Z.leb_le; lia]].
    injection E as <-. cbn [de_i64]. now rewrite G.
  - rewrite M in E. cbn zeta in E. rewrite P' in P. destruct (parse_digits s) as [n|] eqn:D; [|discriminate].
    assert (z = n)%Z as -> by (match type of P with (if ?b then _ else _) = _ => destruct b; congruence end).
    replace (n <? 2 ^ 64)%Z with true in E; [|symmetry; apply Z.ltb_lt; lia]. injection E as <-. cbn [de_i64]. now rewrite G.
Qed.

(** ** Documents *)

Lemma alike_entry o k j : alike (JObj o) -> In (k, j) o -> alike j.
Proof. intros A I s X. apply A. exact (AbsJsonSpec.InsideEntry _ o k j I X). Qed.
Lemma alike_item l j : alike (JArr l) -> In j l -> alike j.
Proof. intros A I s X. apply A. exact (AbsJsonSpec.InsideItem _ l j I X). Qed.

Lemma const_agree j : forall v s, value_from_json j = Ok v -> alike j -> jserde j = Ok s -> value_deserialize from_f64 s = Ok v.
Proof.
  induction j as [|b|n|t|l IH|o IH] using JsonProperties.json_ind'; intros v s E A S; cbn [value_from_json json_serde] in E, S.
  - injection E as <-. injection S as <-. reflexivity.
  - injection E as <-. injection S as <-. reflexivity.
  - apply bind_Ok in E as (q & E & [= <-]). exact (number_agree n s q A S E).
  - injection E as <-. injection S as <-. reflexivity.
  - apply bind_Ok in E as (vs & E & [= <-]). apply bind_Ok in S as (ss & S & [= <-]). cbn [value_deserialize].
    assert (X : traverse (value_deserialize from_f64) ss = Ok vs); [|now rewrite X].
    apply JsonProperties.traverse_Ok in E, S. apply JsonProperties.traverse_Ok. rewrite Forall_forall in IH.
    revert ss S. induction E as [|j v l vs E1 E IHE]; intros ss S; inversion_clear S as [|? s1 ? ss1 S1 S2]; constructor.
    + apply (IH j (or_introl eq_refl)); [assumption| |assumption]. apply (alike_item _ _ A). now left.
    + apply IHE; [intros j' I; apply IH; now right| |assumption].
      intros x X. apply A. inversion_clear X as [|? j' I X'|]. apply AbsJsonSpec.InsideItem with j'; [now right|assumption].
  - apply bind_Ok in E as (vs & E & [= <-]). apply bind_Ok in S as (ss & S & [= <-]). cbn [value_deserialize].
    match goal with |- context [traverse ?f ss] => assert (X : traverse f ss = Ok vs); [|now rewrite X] end.
    apply JsonProperties.traverse_Ok in E, S. apply JsonProperties.traverse_Ok. rewrite Forall_forall in IH.
    revert ss S. induction E as [|[k j] v l vs E1 E IHE]; intros ss S; inversion_clear S as [|? s1 ? ss1 S1 S2]; constructor.
    + cbn [fst snd] in *. apply bind_Ok in E1 as (v1 & E1 & [= <-]). apply bind_Ok in S1 as (s2 & S1 & [= <-]). cbn [fst snd value_deserialize bind].
      rewrite (IH (k, j) (or_introl eq_refl) v1 s2); [reflexivity|assumption| |assumption]. apply (alike_entry _ k j A). now left.
    + apply IHE; [intros j' I; apply IH; now right| |assumption].
      intros x X. apply A. inversion_clear X as [| |? k' j' I X']. apply AbsJsonSpec.InsideEntry with k' j'; [now right|assumption].
Qed.

(** The fields presented for the entries of an object. *)
Definition presents (o : object) (o' : @fields F) : Prop :=
  Forall2 (fun (e : string * json) (e' : string * sv) => fst e = fst e' /\ jserde (snd e) = Ok (snd e')) o o'.

Lemma object_serde o s : jserde (JObj o) = Ok s -> exists m o', s = SMap m /\ named m = Ok o' /\ presents o o' /\
  forall k s', In (k, s') o' -> sv_size s' < sv_size s.
Proof.
  cbn [json_serde]. intros S. apply bind_Ok in S as (m & S & [= <-]). apply JsonProperties.traverse_Ok in S.
  assert (A : exists o', named m = Ok o' /\ presents o o' /\ forall k s', In (k, s') o' -> In (SStr k, s') m).
  { induction S as [|[k j] e o m S1 S IH].
    - exists []. repeat split; [constructor|intros k s' []].
    - destruct IH as (o' & E & P & I). cbn [fst snd] in S1. apply bind_Ok in S1 as (s1 & S1 & [= <-]).
      exists ((k, s1) :: o'). cbn [named]. rewrite E. repeat split; [constructor; auto|].
      intros k' s' [[= <- <-]|J]; [now left|right; auto]. }
  destruct A as (o' & E & P & I). exists m, o'. repeat split; auto. intros k s' J. exact (map_size m _ _ (I k s' J)).
Qed.

Lemma presents_only o o' req opt names : presents o o' -> well_keyed req opt o -> incl (req ++ opt) names -> only names o' = Ok o'.
Proof.
  intros P (_ & W & _) J. unfold only. replace (forallb _ o') with true; [reflexivity|]. symmetry. apply forallb_forall.
  intros [k s] I. apply existsb_exists. exists k. split; [|apply String.eqb_refl]. apply J. apply in_or_app. apply W.
  clear W. induction P as [|[k' j'] [k1 s1] o o' [E _] P IH]; [destruct I|]. cbn [fst] in E. subst k1.
  destruct I as [[= <- <-]|I]; [now left|right; auto].
Qed.

Lemma presents_at o o' k : presents o o' -> NoDup (map fst o) ->
  (~ In k (map fst o) -> field_at o' k = Ok None) /\
  (forall j, In (k, j) o -> exists s, jserde j = Ok s /\ In (k, s) o' /\ field_at o' k = Ok (Some s)).
Proof.
  intros P. unfold field_at.
  assert (A : ~ In k (map fst o) -> filter (fun e : string * sv => String.eqb (fst e) k) o' = []).
  { induction P as [|[k' j'] [k1 s1] o o' [E _] P IH]; intros N; [reflexivity|]. cbn [fst] in E. subst k1. cbn [filter fst].
    destruct (String.eqb_spec k' k) as [->|]; [destruct N; now left|]. apply IH. intros I. apply N. now right. }
  intros D. split; [intros N; now rewrite (A N)|]. intros j I.
  assert (B : exists s, jserde j = Ok s /\ In (k, s) o' /\ filter (fun e : string * sv => String.eqb (fst e) k) o' = [(k, s)]).
  { clear A. induction P as [|[k' j'] [k1 s1] o o' [E S] P IH]; [destruct I|]. cbn [fst snd] in E, S. subst k1.
    cbn [map fst] in D. inversion_clear D as [|? ? D1 D2]. cbn [filter fst]. destruct I as [[= -> ->]|I].
    - rewrite String.eqb_refl. exists s1. split; [assumption|]. split; [now left|]. f_equal.
      clear - P D1. induction P as [|[k' j'] [k1 s2] o o' [E S] P IH]; [reflexivity|]. cbn [fst] in E. subst k1. cbn [filter fst].
      destruct (String.eqb_spec k' k) as [->|]; [destruct D1; now left|]. apply IH. intros X. apply D1. now right.
    - destruct (String.eqb_spec k' k) as [->|]; [exfalso; apply D1; now apply (in_map fst) in I|].
      destruct (IH D2 I) as (s & S1 & S2 & S3). exists s. split; [assumption|]. split; [now right|assumption]. }
  destruct B as (s & S1 & S2 & S3). exists s. rewrite S3. auto.
Qed.

(** [de] reads as [g x] what documents [D] describe as [x], up to the size [n]. *)
Definition agrees {T} (n : nat) (D : json -> T -> Prop) (de : sv -> outcome unit T) (g : T -> T) : Prop :=
  forall j x s, D j x -> alike j -> jserde j = Ok s -> sv_size s <= n -> de s = Ok (g x).

Section Entries.
Context (o : object) (o' : @fields F) (n : nat).
Hypothesis (P : presents o o') (N : NoDup (map fst o)) (A : alike (JObj o)).
Hypothesis Z : forall k s, In (k, s) o' -> sv_size s <= n.

Lemma has_require {T} k D (de : sv -> outcome unit T) g x : agrees n D de g -> has o k D x -> f_require o' k de = Ok (g x).
Proof.
  intros G (j & I & H). destruct (presents_at o o' k P N) as [_ X]. destruct (X j I) as (s & S & I' & E).
  unfold f_require. rewrite E. cbn [bind]. apply (G j x s H); [exact (alike_entry o k j A I)|assumption|exact (Z k s I')].
Qed.
Lemma has_default {T} k D (de : sv -> outcome unit T) g d x : agrees n D de g -> g d = d -> has_or o k D d x ->
  f_default o' k de d = Ok (g x).
Proof.
  intros G Gd [(j & I & H)|[I ->]].
  - destruct (presents_at o o' k P N) as [_ X]. destruct (X j I) as (s & S & I' & E). unfold f_default. rewrite E. cbn [bind].
    apply (G j x s H); [exact (alike_entry o k j A I)|assumption|exact (Z k s I')].
  - destruct (presents_at o o' k P N) as [X _]. unfold f_default. rewrite (X I). cbn [bind]. now rewrite Gd.
Qed.
Lemma has_option {T} k D (de : sv -> outcome unit T) g x : agrees n D de g -> (forall y, ~ D JNull y) -> has_opt o k D x ->
  f_option o' k de = Ok (option_map g x).
Proof.
  intros G NN H. destruct (presents_at o o' k P N) as [Y X]. unfold f_option, f_default. destruct x as [x|]; cbn [has_opt] in H.
  - destruct H as (j & I & H). destruct (X j I) as (s & S & I' & E). rewrite E. cbn [bind].
    assert (R : de s = Ok (g x)) by (apply (G j x s H); [exact (alike_entry o k j A I)|assumption|exact (Z k s I')]).
    unfold de_option. rewrite R. cbn [bind option_map]. destruct s; try reflexivity. exfalso.
    destruct j; cbn [json_serde] in S; try discriminate S.
    + now apply (NN x).
    + destruct ap eqn:Eap; [discriminate S|].
      destruct (A s (AbsJsonSpec.InsideEntry _ o k _ I (AbsJsonSpec.InsideHere _))) as (_ & J & _).
      destruct (number_cases s J) as [(r & -> & _)|(_ & _ & _ & M)].
      * unfold json_number_serde in S. destruct (parse_digits r); [destruct (_ && _)|]; try discriminate S; destruct (json_float _); discriminate S.
      * rewrite M in S. cbn zeta in S. destruct (parse_digits s); [destruct (_ <? _)%Z|]; try discriminate S; destruct (json_float _); discriminate S.
    + apply bind_Ok in S as (? & _ & S). discriminate S.
    + apply bind_Ok in S as (? & _ & S). discriminate S.
  - rewrite (Y H). reflexivity.
Qed.
End Entries.

(** ** Leaves *)

Lemma option_map_id {A} (o : option A) : option_map (fun x => x) o = o.
Proof. now destruct o. Qed.

Lemma string_agrees n : agrees n string_doc de_string (fun x => x).
Proof. intros j x s -> _ [= <-] _. reflexivity. Qed.
Lemma bool_agrees n : agrees n bool_doc de_bool (fun x => x).
Proof. intros j x s -> _ [= <-] _. reflexivity. Qed.
Lemma iri_agrees n : agrees n iri_doc de_iri (fun x => x).
Proof. intros j x s [-> I] _ [= <-] _. cbn [de_iri]. now rewrite I. Qed.
Lemma regexp_agrees n : agrees n regexp_doc de_regexp (fun x => x).
Proof. intros j x s (t & -> & E) _ [= <-] _. cbn [de_regexp]. now rewrite E. Qed.
Lemma const_agrees n : agrees n const_doc (value_deserialize from_f64) (fun x => x).
Proof. intros j x s D A S _. exact (const_agree j x s D A S). Qed.

Lemma array_agrees {T} n D (de : sv -> outcome unit T) g : agrees n D de g -> agrees n (array_doc D) (de_vec de) (map g).
Proof.
  intros G j x s (js & -> & H) A S Z. cbn [json_serde] in S. apply bind_Ok in S as (ss & S & [= <-]). cbn [de_vec].
  apply JsonProperties.traverse_Ok in S. apply JsonProperties.traverse_Ok.
  assert (Z' : forall s, In s ss -> sv_size s <= n) by (intros s I; apply seq_size in I; lia). clear Z.
  revert x H. induction S as [|j s js ss S1 S IH]; intros x H; inversion_clear H as [|? x1 ? xs H1 H2]; constructor.
  - apply (G j x1 s H1); [apply (alike_item _ _ A); now left|assumption|apply Z'; now left].
  - apply IH; [|intros; apply Z'; now right|assumption].
    intros t X. apply A. inversion_clear X as [|? j' I X'|]. apply AbsJsonSpec.InsideItem with j'; [now right|assumption].
Qed.

Lemma many_agrees {T} n D (de : sv -> outcome unit T) g : agrees n D de g -> (forall l, de (SSeq l) = Err tt) ->
  agrees n (one_or_many_doc D) (de_one_or_many de) (map g).
Proof.
  intros G E j x s H A S Z. unfold de_one_or_many. cbn [untagged]. unfold variant_of. destruct H as [H|(_ & y & -> & H)].
  - pose proof (array_agrees n D de g G j x s H A S Z) as X. destruct H as (js & -> & _). cbn [json_serde] in S.
    apply bind_Ok in S as (ss & S & [= <-]). rewrite E. cbn [bind]. now rewrite X.
  - rewrite (G j y s H A S Z). reflexivity.
Qed.
Lemma strings_agree n : agrees n (one_or_many_doc string_doc) (de_one_or_many de_string) (fun x => x).
Proof.
  intros j x s H A S Z. rewrite (many_agrees n _ _ _ (string_agrees n) (fun _ => eq_refl) j x s H A S Z). now rewrite map_id.
Qed.

(** The entries of a map. *)
Lemma map_agrees {K V} {CK : Cmp K} n (DK : string -> K -> Prop) (de_key : sv -> outcome unit K) D (de : sv -> outcome unit V) g :
  (forall k x, DK k x -> de_key (SStr k) = Ok x) -> agrees n D de g ->
  agrees n (map_doc DK D) (de_btreemap de_key de) (map (fun e => (fst e, g (snd e)))).
Proof.
  intros HK G j x s (o & raw & -> & H & ->) A S Z. cbn [json_serde] in S. apply bind_Ok in S as (m & S & [= <-]). cbn [de_btreemap].
  assert (X : traverse (fun e : sv * sv => let* k := de_key (fst e) in let* v := de (snd e) in Ok (k, v)) m =
              Ok (map (fun e => (fst e, g (snd e))) raw)).
  { apply JsonProperties.traverse_Ok in S. apply JsonProperties.traverse_Ok.
    assert (Z' : forall k s, In (k, s) m -> sv_size s <= n) by (intros k s I; apply map_size in I; lia). clear Z.
    revert raw H. induction S as [|[k j] s o m S1 S IH]; intros raw H; inversion_clear H as [|? [k1 v1] ? xs [H1 H1'] H2]; cbn [map]; constructor.
    - cbn [fst snd] in *. apply bind_Ok in S1 as (s1 & S1 & [= <-]). cbn [fst snd]. rewrite (HK k k1 H1). cbn [bind].
      rewrite (G j v1 s1 H1'); [reflexivity| |assumption|apply (Z' (SStr k)); now left]. apply (alike_entry _ k j A). now left.
    - apply IH; [|intros k' s' I; apply (Z' k'); now right|assumption].
      intros t X. apply A. inversion_clear X as [| |? k' j' I X']. apply AbsJsonSpec.InsideEntry with k' j'; [now right|assumption]. }
  rewrite X. cbn [bind]. f_equal. clear.
  assert (B : forall m, fold_left (fun m e => bt_insert (fst e) (snd e) m) (map (fun e : K * V => (fst e, g (snd e))) raw) (map (fun e => (fst e, g (snd e))) m) =
     map (fun e => (fst e, g (snd e))) (fold_left (fun m e => bt_insert (fst e) (snd e) m) raw m)).
  { induction raw as [|[k v] raw IH]; intros m; [reflexivity|]. cbn [map fold_left fst snd]. rewrite <- IH. f_equal.
    induction m as [|[k' v'] m IHm]; [reflexivity|]. cbn [map fst snd bt_insert]. destruct (cmp k k'); cbn [map fst snd]; [reflexivity|reflexivity|].
    now rewrite IHm. }
  unfold bt_collect. exact (B []).
Qed.

Lemma struct_entries o s req opt names deny : jserde (JObj o) = Ok s -> well_keyed req opt o -> incl (req ++ opt) names ->
  exists o', de_struct deny names s = Ok o' /\ de_flat deny names s = Ok o' /\ presents o o' /\
    forall k s', In (k, s') o' -> sv_size s' < sv_size s.
Proof.
  intros S W I. destruct (object_serde o s S) as (m & o' & -> & E & P & Z). exists o'.
  assert (X : de_struct deny names (SMap m) = Ok o').
  { cbn [de_struct]. rewrite E. cbn [bind]. destruct deny; [|reflexivity]. exact (presents_only o o' req opt names P W I). }
  repeat split; auto.
Qed.

Lemma type_not_value (o : @fields F) :
  filter (fun e => String.eqb (fst e) "type") (filter (fun e => negb (String.eqb (fst e) "value")) o) =
  filter (fun e => String.eqb (fst e) "type") o.
Proof.
  induction o as [|[k s] o IH]; [reflexivity|]. cbn [filter fst].
  destruct (String.eqb_spec k "value") as [->|]; cbn [negb filter fst]; [exact IH|]. now rewrite IH.
Qed.

Lemma pattern_agrees n : agrees n pattern_doc de_pattern forget_pattern.
Proof.
  intros j x s D A S Z. destruct D as [t name B|t B I|o v ty W Hv Ht|o v tag W Hv Ht L].
  - injection S as <-. cbn [de_pattern]. now rewrite B.
  - injection S as <-. cbn [de_pattern]. now rewrite B, I.
  - destruct (object_serde o s S) as (m & o' & -> & E & P & Z').
    cbn [de_pattern]. unfold de_literal. cbn [de_flat de_struct]. rewrite E. cbn [bind].
    assert (Zn : forall k s, In (k, s) o' -> sv_size s <= n) by (intros k s I; apply Z' in I; lia).
    rewrite (has_require o o' n P (proj1 W) A Zn "value" _ _ _ v (string_agrees n) Hv). cbn [bind].
    pose proof (has_require o o' n P (proj1 W) A Zn "type" _ _ _ ty (iri_agrees n) Ht) as T.
    unfold de_literal_type. set (o1 := filter _ o').
    assert (X : field_at o1 "type" = field_at o' "type") by (unfold field_at, o1; now rewrite type_not_value).
    unfold f_require in T. unfold f_default. rewrite X. destruct (field_at o' "type") as [[t|]| | |]; cbn [bind] in *; try discriminate.
    rewrite T. reflexivity.
  - destruct (object_serde o s S) as (m & o' & -> & E & P & Z').
    cbn [de_pattern]. unfold de_literal. cbn [de_flat de_struct]. rewrite E. cbn [bind].
    assert (Zn : forall k s, In (k, s) o' -> sv_size s <= n) by (intros k s I; apply Z' in I; lia).
    rewrite (has_require o o' n P (proj1 W) A Zn "value" _ _ _ v (string_agrees n) Hv). cbn [bind].
    unfold de_literal_type. set (o1 := filter _ o').
    assert (X : field_at o1 "type" = field_at o' "type") by (unfold field_at, o1; now rewrite type_not_value).
    unfold f_default. rewrite X. rewrite (proj1 (presents_at o o' "type" P (proj1 W))); [reflexivity|].
    intros I. apply (proj1 (proj2 W)) in I. cbn in I. intuition discriminate.
Qed.
Lemma pattern_not_null y : ~ pattern_doc JNull y. Proof. intros H; inversion H. Qed.
Lemma not_unit j s y : pattern_doc j y -> jserde j = Ok s -> s <> SUnit.
Proof.
  intros D S ->. destruct D; cbn [json_serde] in S; try discriminate; apply bind_Ok in S as (? & _ & S); discriminate.
Qed.

Lemma quad_agrees n : agrees n quad_doc de_quad forget_quad.
Proof.
  intros j x s D A S Z. cbn [json_serde] in S.
  assert (L : forall j, quad_doc j x -> exists js, j = JArr js) by (intros j' []; eauto).
  destruct (L j D) as (js & ->). cbn [json_serde] in S. apply bind_Ok in S as (ss & S & [= <-]). apply JsonProperties.traverse_Ok in S.
  assert (Z' : forall s, In s ss -> sv_size s <= n) by (intros s I; apply seq_size in I; lia).
  inversion D as [j1 j2 j3 p1 p2 p3 D1 D2 D3|j1 j2 j3 j4 p1 p2 p3 p4 D1 D2 D3 D4]; subst.
  - inversion S as [|? s1 ? r1 S1 R1]; subst; clear S. inversion R1 as [|? s2 ? r2 S2 R2]; subst; clear R1. inversion R2 as [|? s3 ? r3 S3 R3]; subst; clear R2. inversion R3; subst; clear R3.
    cbn [de_quad].
    rewrite (pattern_agrees n j1 p1 s1 D1) by (first [assumption|refine (alike_item _ _ A _); cbn; solve [auto 8]|apply Z'; cbn; solve [auto 8]]). cbn [bind].
    rewrite (pattern_agrees n j2 p2 s2 D2) by (first [assumption|apply (alike_item _ _ A); cbn; auto 8|apply Z'; cbn; auto 8]). cbn [bind].
    rewrite (pattern_agrees n j3 p3 s3 D3) by (first [assumption|apply (alike_item _ _ A); cbn; auto 8|apply Z'; cbn; auto 8]). reflexivity.
  - inversion S as [|? s1 ? r1 S1 R1]; subst; clear S. inversion R1 as [|? s2 ? r2 S2 R2]; subst; clear R1. inversion R2 as [|? s3 ? r3 S3 R3]; subst; clear R2.
    inversion R3 as [|? s4 ? r4 S4 R4]; subst; clear R3. inversion R4; subst; clear R4. cbn [de_quad].
    rewrite (pattern_agrees n j1 p1 s1 D1) by (first [assumption|apply (alike_item _ _ A); cbn; auto 8|apply Z'; cbn; auto 8]). cbn [bind].
    rewrite (pattern_agrees n j2 p2 s2 D2) by (first [assumption|apply (alike_item _ _ A); cbn; auto 8|apply Z'; cbn; auto 8]). cbn [bind].
    rewrite (pattern_agrees n j3 p3 s3 D3) by (first [assumption|apply (alike_item _ _ A); cbn; auto 8|apply Z'; cbn; auto 8]). cbn [bind].
    unfold de_option. rewrite (pattern_agrees n j4 p4 s4 D4) by (first [assumption|apply (alike_item _ _ A); cbn; auto 8|apply Z'; cbn; auto 8]). cbn [bind].
    pose proof (not_unit j4 s4 p4 D4 S4). destruct s4; try reflexivity. contradiction.
Qed.
Lemma dataset_agrees n : agrees n dataset_doc de_dataset (map forget_quad).
Proof. apply array_agrees, quad_agrees. Qed.

Lemma resource_agrees n : agrees n resource_doc de_resource (fun x => x).
Proof.
  intros j x s D A S Z. destruct D as [b|t z T R|t|o v ty W Hv Ht].
  - injection S as <-. reflexivity.
  - unfold de_resource. cbn [untagged]. pose proof (integer_agree t s z A S T R) as X. cbn [json_serde] in S. unfold variant_of.
    destruct s; try discriminate X; cbn [de_bool bind]; rewrite X; reflexivity.
  - injection S as <-. reflexivity.
  - destruct (struct_entries o s _ _ ["value"; "type"]%string false S W) as (o' & E & _ & P & Z'); [cbn; intros k; cbn; tauto|].
    destruct (object_serde o s S) as (m & _ & -> & _).
    unfold de_resource. cbn [untagged]. unfold variant_of. cbn [de_bool de_i64 de_string bind]. unfold de_typed_string. rewrite E. cbn [bind].
    assert (Zn : forall k s, In (k, s) o' -> sv_size s <= n) by (intros k s I; apply Z' in I; lia).
    rewrite (has_require o o' n P (proj1 W) A Zn "value" _ _ _ v (string_agrees n) Hv). cbn [bind].
    rewrite (has_require o o' n P (proj1 W) A Zn "type" _ _ _ ty (iri_agrees n) Ht). reflexivity.
Qed.

Lemma graph_agrees o o' n g : presents o o' -> NoDup (map fst o) -> alike (JObj o) -> (forall k s, In (k, s) o' -> sv_size s <= n) ->
  has_or o "graph" graph_doc None g -> f_option o' "graph" (de_option de_pattern) = Ok (option_map (option_map forget_pattern) g).
Proof.
  intros P N A Z H. destruct (presents_at o o' "graph" P N) as [Y X]. unfold f_option, f_default. destruct H as [(j & I & H)|[I ->]].
  - destruct (X j I) as (s & S & I' & E). rewrite E. cbn [bind]. destruct H as [(-> & ->)|(p & _ & D & ->)].
    + injection S as <-. reflexivity.
    + assert (R : de_pattern s = Ok (forget_pattern p)) by (apply (pattern_agrees n j p s D); [exact (alike_entry o _ j A I)|assumption|exact (Z _ s I')]).
      pose proof (not_unit j s p D S) as U. unfold de_option. destruct s; try contradiction; rewrite R; reflexivity.
  - rewrite (Y I). reflexivity.
Qed.

Lemma prefixes_agree n : agrees n (map_doc eq iri_doc) (de_btreemap de_string de_iri) (fun x => x).
Proof.
  intros j x s D A S Z.
  rewrite (map_agrees n eq de_string iri_doc de_iri (fun x => x)) with (j := j) (x := x); auto.
  - f_equal. induction x as [|[k v] x IH]; [reflexivity|]. cbn [map fst snd]. f_equal. clear -x. induction x as [|[k v] x IH]; [reflexivity|]. cbn. now rewrite IH.
  - intros k y <-. reflexivity.
  - apply iri_agrees.
Qed.
Lemma extra_agree n : agrees n (map_doc key_iri resource_doc) (de_btreemap de_iri de_resource) (fun x => x).
Proof.
  intros j x s D A S Z.
  rewrite (map_agrees n key_iri de_iri resource_doc de_resource (fun x => x)) with (j := j) (x := x); auto.
  - f_equal. clear. induction x as [|[k v] x IH]; [reflexivity|]. cbn. now rewrite IH.
  - intros k y [-> I]. cbn [de_iri]. now rewrite I.
  - apply resource_agrees.
Qed.

Lemma header_agrees o o' n h : presents o o' -> NoDup (map fst o) -> alike (JObj o) -> (forall k s, In (k, s) o' -> sv_size s <= n) ->
  header_doc o h -> de_header o' = Ok (forget_header h).
Proof.
  intros P N A Z (H1 & H2 & H3 & H4 & H5 & H6 & H7). unfold de_header.
  assert (IN : forall y, ~ iri_doc JNull y) by (intros y [E _]; discriminate).
  rewrite (has_option o o' n P N A Z "base" _ _ _ _ (iri_agrees n) IN H1). cbn [bind].
  rewrite (has_default o o' n P N A Z "prefixes" _ _ _ _ _ (prefixes_agree n) eq_refl H2). cbn [bind].
  rewrite (has_option o o' n P N A Z "id" _ _ _ _ (iri_agrees n) IN H3). cbn [bind].
  rewrite (has_default o o' n P N A Z "input" _ _ _ _ _ (strings_agree n) eq_refl H4). cbn [bind].
  rewrite (has_default o o' n P N A Z "intro" _ _ _ _ _ (strings_agree n) eq_refl H5). cbn [bind].
  rewrite (has_default o o' n P N A Z "dataset" _ _ _ _ _ (dataset_agrees n) eq_refl H6). cbn [bind].
  rewrite (has_default o o' n P N A Z "extra" _ _ _ _ _ (extra_agree n) eq_refl H7). cbn [bind].
  unfold forget_header. rewrite !option_map_id. reflexivity.
Qed.

(** ** Parts *)

Lemma not_struct o s names : jserde (JObj o) = Ok s -> In "type"%string (map fst o) -> ~ In "type"%string names -> de_struct true names s = Err tt.
Proof.
  intros S I NI. destruct (object_serde o s S) as (m & o' & -> & E & P & _). cbn [de_struct]. rewrite E. cbn [bind]. unfold only.
  replace (forallb _ o') with false; [reflexivity|]. symmetry. apply not_true_is_false. intros X. rewrite forallb_forall in X.
  assert (I' : exists s, In ("type"%string, s) o').
  { clear S E X. induction P as [|[k j] [k1 s1] o o' [E _] P IH]; [destruct I|]. cbn [fst] in E. subst k1.
    destruct I as [E|I]; [cbn in E; subst k; exists s1; now left|]. destruct (IH I) as (s & Is).
    exists s. now right. }
  destruct I' as (s & Is). apply X in Is. apply existsb_exists in Is as (k & Ik & Ek). cbn [fst] in Ek. apply String.eqb_eq in Ek. now subst.
Qed.

Section Parts.
Context (n : nat).
Notation nested' := (de_layout from_f64 n).
Notation forget := forget_language.
Hypothesis IH : agrees n layout_doc nested' forget.

Lemma ref_agrees : agrees n (ref_doc object_doc) (de_ref nested') (forget_ref forget).
Proof.
  intros j x s D A S Z. unfold de_ref. cbn [untagged]. unfold variant_of. destruct D as [i I|o l D].
  - injection S as <-. cbn [de_iri]. rewrite I. reflexivity.
  - assert (R : nested' s = Ok (forget l)) by (apply (IH (JObj o)); auto; now constructor).
    destruct (object_serde o s S) as (m & o' & -> & _). cbn [de_iri bind]. rewrite R. reflexivity.
Qed.
Lemma ref_not_struct j r s names : ref_doc object_doc j r -> (forall o, j = JObj o -> In "type"%string (map fst o)) ->
  jserde j = Ok s -> ~ In "type"%string names -> de_struct true names s = Err tt.
Proof.
  intros D T S NI. destruct D as [i I|o l D]; [injection S as <-; reflexivity|]. exact (not_struct o s names S (T o eq_refl) NI).
Qed.

Lemma patterns_agree : agrees n (one_or_many_doc pattern_doc) (de_one_or_many de_pattern) (map forget_pattern).
Proof. apply many_agrees; [apply pattern_agrees|reflexivity]. Qed.

Ltac fields_of S W Z :=
  match type of S with
  | json_serde _ _ (JObj ?o) = Ok ?s =>
      match goal with
      | |- context [de_struct ?d ?ns s] =>
          let o' := fresh "o'" in let E := fresh "E" in let P := fresh "P" in let Z' := fresh "Z'" in let I := fresh "I" in
          destruct (struct_entries o s _ _ ns d S W) as (o' & E & _ & P & Z'); [intros k I; cbn in I |- *; tauto|];
          rewrite E; cbn [bind]; clear E;
          assert (Zn : forall k s, In (k, s) o' -> sv_size s <= n) by (let k := fresh in let s' := fresh in let I := fresh in intros k s' I; apply Z' in I; lia)
      end
  end.

Lemma format_agrees d : agrees n (format_doc object_doc d) (de_format nested' d) (forget_format forget).
Proof.
  intros j x s D A S Z. unfold de_format. cbn [untagged]. destruct D as [j r D T|o r input graph W H1 H2 H3].
  - unfold de_format_struct. rewrite (ref_not_struct j r s _ D T S) by (cbn; intuition discriminate). cbn [bind].
    unfold variant_of. rewrite (ref_agrees j r s D A S Z). reflexivity.
  - unfold de_format_struct. fields_of S W Z.
    rewrite (has_require o o' n P (proj1 W) A Zn "layout" _ _ _ r ref_agrees H1). cbn [bind].
    rewrite (has_default o o' n P (proj1 W) A Zn "input" _ _ _ _ _ patterns_agree eq_refl H2). cbn [bind].
    rewrite (graph_agrees o o' n graph P (proj1 W) A Zn H3). reflexivity.
Qed.
Lemma item_agrees : agrees n (item_doc object_doc) (de_item nested') (forget_item forget).
Proof.
  intros j x s D A S Z. destruct D as [o intro f ds p W H1 H2 H3 H4]. unfold de_item. fields_of S W Z.
  rewrite (has_default o o' n P (proj1 W) A Zn "intro" _ _ _ _ _ (strings_agree n) eq_refl H1). cbn [bind].
  rewrite (has_require o o' n P (proj1 W) A Zn "value" _ _ _ f (format_agrees "value") H2). cbn [bind].
  rewrite (has_default o o' n P (proj1 W) A Zn "dataset" _ _ _ _ _ (dataset_agrees n) eq_refl H3). cbn [bind].
  rewrite (has_option o o' n P (proj1 W) A Zn "property" _ _ _ _ (pattern_agrees n) pattern_not_null H4). reflexivity.
Qed.
Lemma field_agrees : agrees n (field_doc object_doc) (de_field nested') (forget_field forget).
Proof.
  intros j x s D A S Z. destruct D as [o intro f ds p req W H1 H2 H3 H4 H5]. unfold de_field. fields_of S W Z.
  rewrite (has_default o o' n P (proj1 W) A Zn "intro" _ _ _ _ _ (strings_agree n) eq_refl H1). cbn [bind].
  rewrite (has_require o o' n P (proj1 W) A Zn "value" _ _ _ f (format_agrees "value") H2). cbn [bind].
  rewrite (has_default o o' n P (proj1 W) A Zn "dataset" _ _ _ _ _ (dataset_agrees n) eq_refl H3). cbn [bind].
  rewrite (has_option o o' n P (proj1 W) A Zn "property" _ _ _ _ (pattern_agrees n) pattern_not_null H4). cbn [bind].
  rewrite (has_default o o' n P (proj1 W) A Zn "required" _ _ _ _ _ (bool_agrees n) eq_refl H5). reflexivity.
Qed.
Lemma variant_agrees : agrees n (variant_doc object_doc) (de_variant nested') (forget_variant forget).
Proof.
  intros j x s D A S Z. destruct D as [o intro f ds W H1 H2 H3]. unfold de_variant. fields_of S W Z.
  rewrite (has_default o o' n P (proj1 W) A Zn "intro" _ _ _ _ _ (strings_agree n) eq_refl H1). cbn [bind].
  rewrite (has_require o o' n P (proj1 W) A Zn "value" _ _ _ f (format_agrees "self") H2). cbn [bind].
  rewrite (has_default o o' n P (proj1 W) A Zn "dataset" _ _ _ _ _ (dataset_agrees n) eq_refl H3). reflexivity.
Qed.
Lemma dataset_not_null y : ~ dataset_doc JNull y. Proof. intros (js & E & _). discriminate. Qed.
Lemma node_agrees : agrees n (node_doc object_doc) (de_node nested') (forget_node forget).
Proof.
  intros j x s D A S Z. unfold de_node. cbn [untagged]. destruct D as [j r D T|o head rest intro f ds W H1 H2 H3 H4 H5].
  - unfold de_node_struct. rewrite (ref_not_struct j r s _ D T S) by (cbn; intuition discriminate). cbn [bind].
    unfold variant_of. rewrite (ref_agrees j r s D A S Z). reflexivity.
  - unfold de_node_struct. fields_of S W Z.
    rewrite (has_default o o' n P (proj1 W) A Zn "head" _ _ _ _ _ (string_agrees n) eq_refl H1). cbn [bind].
    rewrite (has_default o o' n P (proj1 W) A Zn "rest" _ _ _ _ _ (string_agrees n) eq_refl H2). cbn [bind].
    rewrite (has_default o o' n P (proj1 W) A Zn "intro" _ _ _ _ _ (strings_agree n) eq_refl H3). cbn [bind].
    rewrite (has_require o o' n P (proj1 W) A Zn "value" _ _ _ f (format_agrees "value") H4). cbn [bind].
    rewrite (has_option o o' n P (proj1 W) A Zn "dataset" _ _ _ _ (dataset_agrees n) dataset_not_null H5). reflexivity.
Qed.

(** ** Layouts *)

(** The reader of another type. *)
Lemma other_type {T} o s ty type names (de : fields -> aheader -> outcome unit T) : jserde (JObj o) = Ok s -> NoDup (map fst o) ->
  In ("type"%string, JStr ty) o -> ty <> type -> de_layout_struct type names de s = Err tt.
Proof.
  intros S N I NE. destruct (object_serde o s S) as (m & o' & -> & E & P & _). unfold de_layout_struct. cbn [de_flat de_struct]. rewrite E. cbn [bind].
  unfold only. destruct (forallb _ o'); [|reflexivity]. cbn [bind]. destruct (presents_at o o' "type" P N) as [_ X].
  destruct (X _ I) as (s & S' & _ & Ef). injection S' as <-. unfold f_require. rewrite Ef. cbn [bind de_marker].
  destruct (String.eqb_spec ty type); [contradiction|reflexivity].
Qed.
Lemma same_type {T} o s ty names (de : fields -> aheader -> outcome unit T) h : jserde (JObj o) = Ok s -> alike (JObj o) ->
  layout_object ty o h -> incl (required_keys ty ++ optional_keys ty) names -> sv_size s <= S n ->
  exists o', de_layout_struct ty names de s = de o' (forget_header h) /\ presents o o' /\ NoDup (map fst o) /\ forall k s, In (k, s) o' -> sv_size s <= n.
Proof.
  intros S A (I & W & H) J Z. destruct (struct_entries o s _ _ ("type"%string :: header_fields ++ names) true S W) as (o' & _ & E & P & Z').
  { intros k K. apply in_app_or in K as [[<-|K]|K]; [now left| |apply in_app_or in K as [K|K]]; right; apply in_or_app; auto;
      right; apply J; apply in_or_app; auto. }
  assert (Zn : forall k s, In (k, s) o' -> sv_size s <= n) by (intros k s' K; apply Z' in K; lia).
  exists o'. unfold de_layout_struct. rewrite E. cbn [bind]. destruct (presents_at o o' "type" P (proj1 W)) as [_ X].
  destruct (X _ I) as (s' & S' & _ & Ef). injection S' as <-. unfold f_require. rewrite Ef. cbn [bind de_marker].
  rewrite String.eqb_refl. cbn [bind]. rewrite (header_agrees o o' n h P (proj1 W) A Zn H). cbn [bind]. repeat split; auto. exact (proj1 W).
Qed.

Ltac others S L :=
  unfold de_body; cbn [untagged];
  unfold de_unit, de_boolean, de_number, de_bytes, de_text, de_id, de_product, de_sum, de_ordered, de_unordered, de_sized, de_union, de_intersection;
  repeat (match goal with
          | |- match de_layout_struct ?t' ?ns' ?d _ with _ => _ end = _ =>
              rewrite (other_type _ _ _ t' ns' d S (proj1 (proj1 (proj2 L))) (proj1 L)) by discriminate
          end).
Ltac here S A L Z :=
  match goal with
  | |- context [de_layout_struct ?t ?ns ?d ?s] =>
      let o' := fresh "o'" in let E := fresh "E" in let P := fresh "P" in let N := fresh "N" in let Zn := fresh "Zn" in
      let k := fresh in let I := fresh in
      destruct (same_type _ s t ns d _ S A L ltac:(intros k I; cbn in I |- *; tauto) Z) as (o' & E & P & N & Zn); rewrite E; clear E
  end.
Lemma regexp_not_null y : ~ regexp_doc JNull y. Proof. intros (s & E & _). discriminate. Qed.
Lemma iri_not_null y : ~ iri_doc JNull y. Proof. intros (E & _). discriminate. Qed.

Lemma body_agrees : agrees (S n) layout_doc (de_body from_f64 nested') forget.
Proof.
  intros j x s D A S Z. destruct D as [b|o l D].
  { injection S as <-. reflexivity. }
  destruct D as [o h c L H|o h res dt L H1 H2|o h res dt L H1 H2|o h res dt L H1 H2|o h pat res dt L H0 H1 H2|o h pat res L H0 H1
    |o h fs L H|o h vs L H|o h nd hd tl L H0 H1 H2|o h it L H|o h its L H|o h L|o h L]; others S L.
  - here S A L Z. rewrite (has_default o o' n P N A Zn "const" _ _ _ _ _ (const_agrees n) eq_refl H). reflexivity.
  - here S A L Z. rewrite (has_option o o' n P N A Zn "resource" _ _ _ _ (pattern_agrees n) pattern_not_null H1). cbn [bind].
    rewrite (has_option o o' n P N A Zn "datatype" _ _ _ _ (iri_agrees n) iri_not_null H2). cbn [bind]. now rewrite option_map_id.
  - here S A L Z. rewrite (has_option o o' n P N A Zn "resource" _ _ _ _ (pattern_agrees n) pattern_not_null H1). cbn [bind].
    rewrite (has_require o o' n P N A Zn "datatype" _ _ _ _ (iri_agrees n) H2). reflexivity.
  - here S A L Z. rewrite (has_option o o' n P N A Zn "resource" _ _ _ _ (pattern_agrees n) pattern_not_null H1). cbn [bind].
    rewrite (has_require o o' n P N A Zn "datatype" _ _ _ _ (iri_agrees n) H2). reflexivity.
  - here S A L Z. rewrite (has_option o o' n P N A Zn "pattern" _ _ _ _ (regexp_agrees n) regexp_not_null H0). cbn [bind].
    rewrite (has_option o o' n P N A Zn "resource" _ _ _ _ (pattern_agrees n) pattern_not_null H1). cbn [bind].
    rewrite (has_option o o' n P N A Zn "datatype" _ _ _ _ (iri_agrees n) iri_not_null H2). cbn [bind]. now rewrite !option_map_id.
  - here S A L Z. rewrite (has_option o o' n P N A Zn "pattern" _ _ _ _ (regexp_agrees n) regexp_not_null H0). cbn [bind].
    rewrite (has_option o o' n P N A Zn "resource" _ _ _ _ (pattern_agrees n) pattern_not_null H1). cbn [bind]. now rewrite !option_map_id.
  - here S A L Z.
    assert (K : forall k x, x = VLit (LText k) -> value_deserialize from_f64 (SStr k : sv) = Ok x) by (intros k x ->; reflexivity).
    rewrite (has_default o o' n P N A Zn "fields" _ _ _ _ _ (map_agrees n _ _ _ _ _ K field_agrees) eq_refl H). reflexivity.
  - here S A L Z. assert (K : forall k x, k = x -> de_string (SStr k : sv) = Ok x) by (intros k x <-; reflexivity).
    rewrite (has_default o o' n P N A Zn "variants" _ _ _ _ _ (map_agrees n _ _ _ _ _ K variant_agrees) eq_refl H). reflexivity.
  - here S A L Z. rewrite (has_require o o' n P N A Zn "node" _ _ _ _ node_agrees H0). cbn [bind].
    rewrite (has_default o o' n P N A Zn "head" _ _ _ _ _ (pattern_agrees n) eq_refl H1). cbn [bind].
    rewrite (has_default o o' n P N A Zn "tail" _ _ _ _ _ (pattern_agrees n) eq_refl H2). reflexivity.
  - here S A L Z. rewrite (has_require o o' n P N A Zn "item" _ _ _ _ item_agrees H). reflexivity.
  - here S A L Z. rewrite (has_default o o' n P N A Zn "items" _ _ _ _ _ (array_agrees n _ _ _ item_agrees) eq_refl H). reflexivity.
  - replace (variant_of ABool de_bool s) with (@Err unit alayout tt) by (destruct (object_serde o s S) as (m & ? & -> & _); reflexivity).
    here S A L Z. reflexivity.
  - replace (variant_of ABool de_bool s) with (@Err unit alayout tt) by (destruct (object_serde o s S) as (m & ? & -> & _); reflexivity).
    match goal with |- context [de_layout_struct ?t' ?ns' ?d _] =>
      rewrite (other_type _ _ _ t' ns' d S (proj1 (proj1 (proj2 L))) (proj1 L)) by discriminate end.
    here S A L Z. reflexivity.
Qed.
End Parts.

Lemma layout_agrees n : agrees n layout_doc (de_layout from_f64 n) forget_language.
Proof.
  induction n as [|n IH].
  - intros j x s _ _ _ Z. pose proof (size_pos s). lia.
  - exact (body_agrees n IH).
Qed.
End Agree.

(** ** Layouts without languages *)

Lemma forget_pattern_same p : (forall v tag, p <> ALiteral v (ATypeLang tag)) -> forget_pattern p = p.
Proof. destruct p as [| |v [|tag]]; intros H; try reflexivity. now destruct (H v tag). Qed.
Lemma map_same {T} (f : T -> T) l : (forall x, In x l -> f x = x) -> map f l = l.
Proof. induction l as [|x l IH]; intros H; [reflexivity|]. cbn [map]. rewrite (H x (or_introl eq_refl)), IH; [reflexivity|]. intros y I. apply H. now right. Qed.
Lemma option_same {T} (f : T -> T) o : (forall x, o = Some x -> f x = x) -> option_map f o = o.
Proof. destruct o as [x|]; intros H; [|reflexivity]. cbn. now rewrite (H x eq_refl). Qed.

Definition fine (p : apattern) : Prop := forall v tag, p <> ALiteral v (ATypeLang tag).
Lemma forget_dataset_same ds : (forall p, dataset_pattern ds p -> fine p) -> map forget_quad ds = ds.
Proof.
  intros H. apply map_same. intros [s p o g] I. unfold forget_quad. cbn [q_s q_p q_o q_g].
  assert (Q : forall x, quad_pattern (Quad s p o g) x -> forget_pattern x = x).
  { intros x X. apply forget_pattern_same. apply H. exists (Quad s p o g). auto. }
  rewrite (Q s), (Q p), (Q o) by (unfold quad_pattern; cbn; auto).
  rewrite option_same; [reflexivity|]. intros x ->. apply Q. unfold quad_pattern. cbn. auto.
Qed.
Lemma forget_header_same h : (forall p, dataset_pattern (ah_dataset h) p -> fine p) -> forget_header h = h.
Proof. intros H. unfold forget_header. rewrite (forget_dataset_same _ H). now destruct h. Qed.
Section Same.
Context (rec : alayout -> alayout).
Lemma forget_ref_same r : (forall l, nested_ref r l -> rec l = l) -> forget_ref rec r = r.
Proof. destruct r as [i|l]; intros H; [reflexivity|]. cbn [forget_ref]. now rewrite (H l eq_refl). Qed.
Lemma forget_format_same f : (forall p, format_pattern f p -> fine p) -> (forall l, nested_format f l -> rec l = l) -> forget_format rec f = f.
Proof.
  destruct f as [r input graph|r]; intros H N; cbn [forget_format]; rewrite (forget_ref_same r N); [|reflexivity].
  rewrite map_same by (intros p I; apply forget_pattern_same, H; now left).
  rewrite option_same; [reflexivity|]. intros g ->. apply option_same. intros p ->. apply forget_pattern_same, H. now right.
Qed.
Lemma forget_item_same it : (forall p, item_pattern it p -> fine p) -> (forall l, nested_format (ai_value it) l -> rec l = l) -> forget_item rec it = it.
Proof.
  intros H N. unfold forget_item. rewrite forget_format_same; [|intros p X; apply H; left; exact X|exact N].
  rewrite forget_dataset_same by (intros p X; apply H; right; left; exact X).
  rewrite option_same by (intros p X; apply forget_pattern_same, H; right; right; exact X). now destruct it.
Qed.
End Same.

Lemma forget_same l : without_language l -> forget_language l = l.
Proof.
  induction l as [l IH] using layout_ind. intros W.
  assert (O : forall p, own_pattern l p -> fine p) by (intros p X v tag ->; exact (W l v tag (inside_self l) X)).
  assert (R : forall l', nested l l' -> forget_language l' = l').
  { intros l' N. apply (IH l' N). intros l'' v tag I. apply W. exact (inside_nested _ _ _ N I). }
  clear IH W. assert (Hh : forall h, header_of l = Some h -> forget_header h = h).
  { intros h E. apply forget_header_same. intros p X. apply O. left. eauto. }
  destruct l as [h c|k h res|h fs|h vs|h nd hd tl|h it|h its|b|h|h]; cbn [forget_language]; rewrite ?(Hh h eq_refl); try reflexivity.
  - rewrite option_same; [reflexivity|]. intros p ->. apply forget_pattern_same, O. now right.
  - f_equal. apply map_same. intros [k [it req]] I. cbn [fst snd forget_field af_item af_required].
    unfold forget_field. cbn [af_item af_required]. rewrite forget_item_same; [reflexivity| |].
    + intros p X. apply O. right. exists k, (AField it req). auto.
    + intros l N. apply R. exact (N_field h fs k (AField it req) l I N).
  - f_equal. apply map_same. intros [n v] I. cbn [fst snd]. unfold forget_variant.
    rewrite forget_format_same; [|intros p X; apply O; right; exists n, v; auto|intros l N; apply R; exact (N_variant h vs n v l I N)].
    rewrite forget_dataset_same by (intros p X; apply O; right; exists n, v; auto). now destruct v.
  - rewrite (forget_pattern_same hd), (forget_pattern_same tl) by (apply O; right; auto).
    destruct nd as [a b intro f ds|r]; cbn [forget_node].
    + rewrite forget_format_same; [|intros p X; apply O; right; right; right; now left|intros l N; apply R; now constructor].
      rewrite option_same; [reflexivity|]. intros x ->. apply forget_dataset_same. intros p X. apply O. right. right. right. right. eauto.
    + rewrite forget_ref_same; [reflexivity|]. intros l N. apply R. now constructor.
  - rewrite forget_item_same; [reflexivity|intros p X; apply O; now right|intros l N; apply R; now constructor].
  - f_equal. apply map_same. intros it I. apply forget_item_same; [intros p X; apply O; right; eauto|].
    intros l N. apply R. exact (N_tuple h its it l I N).
Qed.

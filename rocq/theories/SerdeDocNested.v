(** * The nested parts of the layout documents read with serde *)

From Coq Require Import String Ascii List Bool Arith NArith ZArith QArith Qcanon Lia.
Import ListNotations.
From Verif Require Import Base BaseProofs Orders PatternModel ValueModel LayoutModel NumberModel
  HydrateModel JsonModel RegexpModel AbsModel AbsJsonModel AbsJsonProofs AbsSerdeModel AbsSerdeProofs AbsSerdeTotal
  SerdeDocSpec SerdeDocProofs SerdeDocLeaves.
Open Scope list_scope.
Open Scope nat_scope.

Section General.
Context {F : Type}.
Notation sv := (serde_value F).
Notation object := (list (string * sv)).

Lemma text_map_inj (o o' : object) : text_map o = text_map o' -> o = o'.
Proof.
  unfold text_map. intros [= E]. revert o' E. induction o as [|[k s] o IH]; intros [|[k' s'] o'] E; cbn in E; try discriminate E; [reflexivity|].
  injection E as -> -> E. f_equal. now apply IH.
Qed.
Lemma sreads_step {A B} (o : object) k ks (m : outcome unit A) (f : A -> outcome unit B) P Q :
  sreads o [k] m P -> (forall a, sreads o ks (f a) (Q a)) -> sreads o (k :: ks) (let* a := m in f a) (fun b => exists a, P a /\ Q a b).
Proof. exact (sreads_bind o [k] ks m f P Q). Qed.
Lemma variant_iff {T U} (f : T -> U) (de : sv -> outcome unit T) s u : variant_of f de s = Ok u <-> exists t, u = f t /\ de s = Ok t.
Proof.
  unfold variant_of. split; [intros X; apply bind_Ok in X as (t & E & [= <-]); eauto|]. intros (t & -> & ->). reflexivity.
Qed.
(** The variants of an enumeration without tags, of which at most one reads the value. *)
Lemma untagged_tagged {T} (tds : list (string * (sv -> outcome unit T))) s x (Tag : string -> Prop) :
  NoDup (map fst tds) -> (forall t de y, In (t, de) tds -> de s = Ok y -> Tag t) -> (forall t t', Tag t -> Tag t' -> t = t') ->
  (forall t de, In (t, de) tds -> settled (de s)) ->
  (untagged (map snd tds) s = Ok x <-> exists t de, In (t, de) tds /\ de s = Ok x).
Proof.
  intros ND HT HF HS. induction tds as [|[t de] tds IH]; cbn [map snd untagged]; [split; [discriminate|intros (? & ? & [] & _)]|].
  cbn [map fst] in ND. inversion ND as [|? ? NI ND']; subst.
  destruct (HS t de (or_introl eq_refl)) as [(y & E)|E]; rewrite E.
  - split; [intros [= <-]; exists t, de; split; [now left|exact E]|]. intros (t' & de' & [[= <- <-]|I] & E'); [congruence|].
    elim NI. rewrite (HF t t'); [|eapply HT; [now left|exact E]|eapply HT; [right; exact I|exact E']]. apply in_map_iff. now exists (t', de').
  - rewrite IH; auto.
    + split; [intros (t' & de' & I & E'); exists t', de'; split; [now right|exact E']|].
      intros (t' & de' & [[= <- <-]|I] & E'); [congruence|]. eauto.
    + intros; eapply HT; [right|]; eauto.
    + intros; eapply HS; right; eauto.
Qed.
Lemma untagged_two {T} (a b : sv -> outcome unit T) s x (A B : T -> Prop) : settled (a s) -> (forall y, a s = Ok y <-> A y) -> (forall y, b s = Ok y <-> B y) ->
  (forall y z, A y -> B z -> False) -> (untagged [a; b] s = Ok x <-> A x \/ B x).
Proof.
  intros S HA HB N. cbn [untagged]. rewrite <- HA, <- HB. destruct S as [(y & E)|E]; rewrite E.
  - split; [auto|]. intros [H|H]; [exact H|]. exfalso. apply (N y x); [now apply HA|now apply HB].
  - destruct (b s) as [|[]| |]; split; auto; try (intros [H|H]; discriminate H || exact H).
Qed.
Lemma struct_doc_small names (s : sv) o n : struct_doc names s o -> sv_size s <= S n -> small n o.
Proof.
  intros H Z. destruct H as [o N K|l L]; intros k s I.
  - assert (I' : In (SStr k : sv, s) (map (fun e : string * sv => (SStr (fst e), snd e)) o)) by (apply in_map_iff; now exists (k, s)).
    apply map_size in I'. unfold text_map in Z. lia.
  - apply in_combine_r, seq_size in I. lia.
Qed.
End General.

Section Nested.
Context {TS : TextSyntax} {F : Type} (from_f64 : F -> option Qc).
Notation sv := (serde_value F).
Notation object := (list (string * sv)).
Context (n : nat) (nested : sv -> outcome unit alayout) (D : sv -> alayout -> Prop).
Hypothesis NS : safe n nested.
Hypothesis NI : forall s l, sv_size s <= n -> (nested s = Ok l <-> D s l).
Hypothesis DS : forall s l, D s l -> (exists b, s = SBool b) \/ exists o, s = text_map o /\ In "type"%string (map fst o).

Lemma n_ref s r : sv_size s <= n -> (de_ref nested s = Ok r <-> ref_sdoc D s r).
Proof.
  intros Z. unfold de_ref. rewrite (untagged_two _ _ s r (fun r => exists i, r = RefIri i /\ iri_sdoc s i) (fun r => exists l, r = RefLayout l /\ D s l)).
  - split.
    + intros [(i & -> & -> & H)|(l & -> & H)]; now constructor.
    + intros H. destruct H; [left|right]; eexists; (split; [reflexivity|]); [split; auto|exact H].
  - apply (safe_variant n); [apply safe_iri|exact Z].
  - intros y. rewrite variant_iff. setoid_rewrite s_iri. reflexivity.
  - intros y. rewrite variant_iff. split; intros (l & A & B); exists l; (split; [exact A|]); now apply NI.
  - intros y z (i & _ & -> & _) (l & _ & H). destruct (DS _ _ H) as [(b & X)|(o & X & _)]; discriminate X.
Qed.
Lemma ref_shape s r : ref_sdoc D s r -> (exists i, s = SStr i) \/ (exists b, s = SBool b) \/ exists o, s = text_map o /\ In "type"%string (map fst o).
Proof. intros H. destruct H; [eauto|]. apply DS in H. tauto. Qed.
Lemma struct_not_ref names s o r : ~ In "type"%string names -> struct_doc names s o -> ref_sdoc D s r -> False.
Proof.
  intros N S R. destruct S as [o ND K|l L]; destruct (ref_shape _ _ R) as [(i & X)|[(b & X)|(o' & X & I)]]; try discriminate X.
  apply text_map_inj in X as <-. now apply N, K.
Qed.

Lemma n_graph (o : object) : sreads o ["graph"%string] (f_option o "graph" (de_option de_pattern)) (fun g => exists g', g = option_map Some g' /\ given_opt o "graph" pattern_sdoc g').
Proof.
  eapply sreads_iff.
  - apply sreads_option with (D := fun s x => match x with Some t => s <> SUnit /\ pattern_sdoc s t | None => s = SUnit end).
    intros s t _. apply option_iff. intros. apply s_pattern.
  - unfold given_opt. intros [[p|]|].
    + split; [intros (s & I & N & _ & H); exists (Some p); eauto|]. intros ([p'|] & [= <-] & s & I & N & H). eauto.
    + split; [intros (s & I & N & H); contradiction|]. intros ([p'|] & [=] & _).
    + split; [intros H; exists None; auto|]. intros ([p'|] & [=] & H). exact H.
Qed.

Ltac leaf := intros; first
  [ apply s_string | apply s_bool | apply s_iri | apply s_pattern | apply s_dataset | apply s_regexp | reflexivity ].
Ltac one_field := first
  [ apply sreads_require; leaf | apply sreads_default; leaf | apply sreads_option; leaf
  | apply sreads_default; intros; apply s_many; [leaf|reflexivity] ].

Lemma n_format d s f : sv_size s <= n -> (de_format nested d s = Ok f <-> format_sdoc D d s f).
Proof.
  intros Z. unfold de_format.
  rewrite (untagged_two _ _ s f
    (fun f => exists o, struct_doc ["layout"; "input"; "graph"]%string s o /\ exists r i g, f = AFormat r i (option_map Some g) /\
       given o "layout" (ref_sdoc D) r /\ given_or o "input" (one_or_many_sdoc pattern_sdoc) [AVar d] i /\ given_opt o "graph" pattern_sdoc g)
    (fun f => exists r, f = AFormatLayout r /\ ref_sdoc D s r)).
  - split.
    + intros [(o & S & r & i & g & -> & A & B & C)|(r & -> & H)]; econstructor; eauto.
    + intros H. destruct H; [right; eauto|left]. eauto 10.
  - unfold de_format_struct. apply settled_bind; [apply settled_struct|]. intros o E.
    assert (So : small n o) by (eapply struct_small; [|exact E]; lia).
    apply settled_bind; [apply (settled_require n); [exact So|now apply safe_ref]|]. intros r _.
    apply settled_bind; [apply (settled_default n); [exact So|apply safe_many, safe_pattern]|]. intros i _.
    apply settled_bind; [apply (settled_option n); [exact So|apply safe_option, safe_pattern]|]. intros g _. apply settled_ok.
  - intros f'. unfold de_format_struct. apply struct_reads with (ks := ["layout"; "input"; "graph"]%string)
      (P := fun (o : object) f => exists r i g, f = AFormat r i (option_map Some g) /\
       given o "layout" (ref_sdoc D) r /\ given_or o "input" (one_or_many_sdoc pattern_sdoc) [AVar d] i /\ given_opt o "graph" pattern_sdoc g).
    + repeat constructor; cbn; intuition discriminate.
    + apply incl_refl.
    + intros o So. assert (Sm : small n o) by (destruct So as [So|So]; [eapply struct_doc_small; eauto|eapply struct_small; [|exact So]]; lia).
      eapply sreads_iff.
      * apply sreads_step; [apply sreads_require; intros s' t I; apply n_ref; now apply (Sm "layout"%string)|intros r].
        apply sreads_step; [one_field|intros i]. apply sreads_step; [apply n_graph|intros g]. apply sreads_ret.
      * intros f''. split.
        -- intros (r & A & i & B & g & (g' & -> & C) & ->). exists r, i, g'. auto.
        -- intros (r & i & g & -> & A & B & C). exists r. split; [exact A|]. exists i. split; [exact B|]. eauto.
  - intros f'. rewrite variant_iff. split; intros (r & A & B); exists r; (split; [exact A|]); now apply n_ref.
  - intros y z (o & S & _) (r & _ & R). revert S R. apply struct_not_ref. cbn. intuition discriminate.
Qed.

Ltac nodup := repeat constructor; cbn; intuition discriminate.
Ltac smallo So n o := assert (Sm : small n o) by (destruct So as [So|So]; [eapply struct_doc_small; eauto|eapply struct_small; [|exact So]]; lia).
Ltac format Sm n_format := apply sreads_require; intros ? ? I; apply n_format; now apply (Sm _ _ I).

Lemma n_item s it : sv_size s <= n -> (de_item nested s = Ok it <-> item_sdoc D s it).
Proof.
  intros Z. unfold de_item. rewrite (struct_reads _ ["intro"; "value"; "dataset"; "property"]%string s _
    (fun o it => exists intro f ds p, it = AItem intro f ds p /\ given_or o "intro" (one_or_many_sdoc string_sdoc) ["value"%string] intro /\
       given o "value" (format_sdoc D "value") f /\ given_or o "dataset" dataset_sdoc [] ds /\ given_opt o "property" pattern_sdoc p)).
  - split; [intros (o & S & i & f & ds & p & -> & H); econstructor; (exact S || apply H)|]. intros H. destruct H. eauto 15.
  - nodup.
  - apply incl_refl.
  - intros o So. smallo So n o. eapply sreads_iff.
    + apply sreads_step; [one_field|intros i]. apply sreads_step; [format Sm n_format|intros f].
      apply sreads_step; [one_field|intros ds]. apply sreads_step; [one_field|intros p]. apply sreads_ret.
    + intros it'. split; [intros (i & A & f & B & ds & C & p & E & ->); eauto 10|]. intros (i & f & ds & p & -> & A & B & C & E). eauto 15.
Qed.
Lemma n_field s fl : sv_size s <= n -> (de_field nested s = Ok fl <-> field_sdoc D s fl).
Proof.
  intros Z. unfold de_field. rewrite (struct_reads _ ["intro"; "value"; "dataset"; "property"; "required"]%string s _
    (fun o fl => exists intro f ds p r, fl = AField (AItem intro f ds p) r /\ given_or o "intro" (one_or_many_sdoc string_sdoc) ["value"%string] intro /\
       given o "value" (format_sdoc D "value") f /\ given_or o "dataset" dataset_sdoc [] ds /\ given_opt o "property" pattern_sdoc p /\
       given_or o "required" bool_sdoc false r)).
  - split; [intros (o & S & i & f & ds & p & r & -> & H); econstructor; (exact S || apply H)|]. intros H. destruct H. eauto 18.
  - nodup.
  - apply incl_refl.
  - intros o So. smallo So n o. eapply sreads_iff.
    + apply sreads_step; [one_field|intros i]. apply sreads_step; [format Sm n_format|intros f].
      apply sreads_step; [one_field|intros ds]. apply sreads_step; [one_field|intros p]. apply sreads_step; [one_field|intros r]. apply sreads_ret.
    + intros it'. split; [intros (i & A & f & B & ds & C & p & E & r & G & ->); eauto 12|]. intros (i & f & ds & p & r & -> & A & B & C & E & G). eauto 18.
Qed.
Lemma n_variant s v : sv_size s <= n -> (de_variant nested s = Ok v <-> variant_sdoc D s v).
Proof.
  intros Z. unfold de_variant. rewrite (struct_reads _ ["intro"; "value"; "dataset"]%string s _
    (fun o it => exists intro f ds, it = AVariant intro f ds /\ given_or o "intro" (one_or_many_sdoc string_sdoc) [] intro /\
       given o "value" (format_sdoc D "self") f /\ given_or o "dataset" dataset_sdoc [] ds)).
  - split; [intros (o & S & i & f & ds & -> & H); econstructor; (exact S || apply H)|]. intros H. destruct H. eauto 15.
  - nodup.
  - apply incl_refl.
  - intros o So. smallo So n o. eapply sreads_iff.
    + apply sreads_step; [one_field|intros i]. apply sreads_step; [format Sm n_format|intros f].
      apply sreads_step; [one_field|intros ds]. apply sreads_ret.
    + intros it'. split; [intros (i & A & f & B & ds & C & ->); eauto 10|]. intros (i & f & ds & -> & A & B & C). eauto 15.
Qed.
Lemma n_node s nd : sv_size s <= n -> (de_node nested s = Ok nd <-> node_sdoc D s nd).
Proof.
  intros Z. unfold de_node.
  rewrite (untagged_two _ _ s nd
    (fun nd => exists o, struct_doc ["head"; "rest"; "intro"; "value"; "dataset"]%string s o /\ exists h r i f ds, nd = ANode h r i f ds /\
       given_or o "head" string_sdoc "head"%string h /\ given_or o "rest" string_sdoc "rest"%string r /\
       given_or o "intro" (one_or_many_sdoc string_sdoc) ["value"%string] i /\ given o "value" (format_sdoc D "value") f /\ given_opt o "dataset" dataset_sdoc ds)
    (fun nd => exists r, nd = ANodeLayout r /\ ref_sdoc D s r)).
  - split.
    + intros [(o & S & h & r & i & f & ds & -> & H)|(r & -> & H)]; econstructor; (eassumption || apply H).
    + intros H. destruct H; [right; eauto|left]. eauto 18.
  - unfold de_node_struct. apply settled_bind; [apply settled_struct|]. intros o E.
    assert (So : small n o) by (eapply struct_small; [|exact E]; lia).
    apply settled_bind; [apply (settled_default n); [exact So|apply safe_string]|]. intros h _.
    apply settled_bind; [apply (settled_default n); [exact So|apply safe_string]|]. intros r _.
    apply settled_bind; [apply (settled_default n); [exact So|apply safe_many, safe_string]|]. intros i _.
    apply settled_bind; [apply (settled_require n); [exact So|now apply safe_format]|]. intros f _.
    apply settled_bind; [apply (settled_option n); [exact So|apply safe_dataset]|]. intros g _. apply settled_ok.
  - intros nd'. unfold de_node_struct. apply struct_reads with (ks := ["head"; "rest"; "intro"; "value"; "dataset"]%string)
      (P := fun (o : object) nd => exists h r i f ds, nd = ANode h r i f ds /\
       given_or o "head" string_sdoc "head"%string h /\ given_or o "rest" string_sdoc "rest"%string r /\
       given_or o "intro" (one_or_many_sdoc string_sdoc) ["value"%string] i /\ given o "value" (format_sdoc D "value") f /\ given_opt o "dataset" dataset_sdoc ds).
    + nodup.
    + apply incl_refl.
    + intros o So. smallo So n o. eapply sreads_iff.
      * apply sreads_step; [one_field|intros h]. apply sreads_step; [one_field|intros r]. apply sreads_step; [one_field|intros i].
        apply sreads_step; [format Sm n_format|intros f]. apply sreads_step; [one_field|intros ds]. apply sreads_ret.
      * intros f''. split.
        -- intros (h & A & r & B & i & C & f & E & ds & G & ->). exists h, r, i, f, ds. auto 10.
        -- intros (h & r & i & f & ds & -> & A & B & C & E & G). eauto 18.
  - intros f'. rewrite variant_iff. split; intros (r & A & B); exists r; (split; [exact A|]); now apply n_ref.
  - intros y z (o & S & _) (r & _ & R). revert S R. apply struct_not_ref. cbn. intuition discriminate.
Qed.
End Nested.

(** * The regular expressions of the layouts read by serde are well formed *)

From Coq Require Import String Ascii List Bool Arith NArith ZArith QArith Qcanon Lia.
Import ListNotations.
From Verif Require Import Base BaseProofs Orders PatternModel ValueModel LayoutModel TermModel NumberModel JsonModel CborModel
  RegexpModel RegexpSpec RegexpGood RegexpProperties AbsModel AbsSpec AbsProofs AbsRegistry AbsJsonModel AbsJsonSpec AbsSerdeModel JsonProperties CliSpec CliProofs.
Open Scope list_scope.
Open Scope nat_scope.
Open Scope string_scope.

Section Good.
Context {TS : TextSyntax} {F : Type} (from_f64 : F -> option Qc).
Notation sv := (serde_value F).
Hypothesis SV : scalar_values.

Definition yields {T} (de : sv -> outcome unit T) (P : T -> Prop) : Prop := forall s a, de s = Ok a -> P a.

Lemma yields_any {T} (de : sv -> outcome unit T) : yields de (fun _ => True).
Proof. intros s a _. exact I. Qed.
Lemma yields_untagged {T} (des : list (sv -> outcome unit T)) (P : T -> Prop) : Forall (fun de => yields de P) des -> yields (untagged des) P.
Proof.
  induction 1 as [|de des H _ IH]; intros s a E; cbn [untagged] in E; [discriminate E|].
  destruct (de s) as [a'|e|w|] eqn:D; try discriminate E; [|exact (IH s a E)]. injection E as <-. exact (H s a' D).
Qed.
Lemma yields_variant {T U} (f : T -> U) de (P : U -> Prop) : yields de (fun t => P (f t)) -> yields (variant_of f de) P.
Proof. intros H s a E. apply bind_Ok in E as (t & D & E). injection E as <-. exact (H s t D). Qed.
Lemma yields_require {T} (de : sv -> outcome unit T) (P : T -> Prop) o key a : yields de P -> f_require o key de = Ok a -> P a.
Proof. intros H E. apply bind_Ok in E as ([s|] & _ & E); [exact (H s a E)|discriminate E]. Qed.
Lemma yields_default {T} (de : sv -> outcome unit T) (P : T -> Prop) o key d a : P d -> yields de P -> f_default o key de d = Ok a -> P a.
Proof. intros Hd H E. apply bind_Ok in E as ([s|] & _ & E); [exact (H s a E)|now injection E as <-]. Qed.
Lemma yields_option {T} (de : sv -> outcome unit T) (P : T -> Prop) o key a : yields de P -> f_option o key de = Ok (Some a) -> P a.
Proof.
  intros H E. refine (yields_default _ (fun x => forall a, x = Some a -> P a) o key None (Some a) _ _ E a eq_refl); [discriminate|].
  intros s x D a' ->. unfold de_option in D. destruct s; try discriminate D; apply bind_Ok in D as (t & D & Et); injection Et as <-; exact (H _ _ D).
Qed.
Lemma yields_vec {T} (de : sv -> outcome unit T) (P : T -> Prop) : yields de P -> yields (de_vec de) (Forall P).
Proof.
  intros H s a E. destruct s; try discriminate E. cbn [de_vec] in E. revert a E. induction l as [|s l IH]; intros a E; cbn [traverse] in E.
  - injection E as <-. constructor.
  - apply bind_Ok in E as (t & D & E). apply bind_Ok in E as (ts & Ds & E). injection E as <-. constructor; [exact (H _ _ D)|exact (IH _ Ds)].
Qed.
Lemma yields_map {K V} {CK : Cmp K} {LK : CmpLaws K} (dk : sv -> outcome unit K) (de : sv -> outcome unit V) (P : V -> Prop) :
  yields de P -> yields (de_btreemap dk de) (fun m => forall k v, In (k, v) m -> P v).
Proof.
  intros H s a E. destruct s as [| | | | | | | |m]; try discriminate E. cbn [de_btreemap] in E. apply bind_Ok in E as (l & D & E). injection E as <-.
  intros k v I. apply bt_collect_In in I as [k' I].
  revert l D I. induction m as [|[x y] m IH]; intros l D I; cbn [traverse] in D.
  - injection D as <-. destruct I.
  - apply bind_Ok in D as (t & D & E). apply bind_Ok in E as (ts & Ds & E). injection E as <-. destruct I as [->|I]; [|exact (IH _ Ds I)].
    apply bind_Ok in D as (k0 & _ & D). apply bind_Ok in D as (v0 & D & E). injection E as _ <-. exact (H _ _ D).
Qed.
Lemma yields_struct {T} type names (de : fields -> aheader -> outcome unit T) (P : T -> Prop) :
  (forall o h a, de o h = Ok a -> P a) -> yields (de_layout_struct type names de) P.
Proof.
  intros H s a E. apply bind_Ok in E as (o & _ & E). apply bind_Ok in E as (_ & _ & E). apply bind_Ok in E as (h & _ & E). exact (H _ _ _ E).
Qed.
Lemma yields_regexp : yields (@de_regexp TS F) sets_good.
Proof.
  intros s a E. destruct s as [| | | | |x| | |]; try discriminate E. cbn [de_regexp] in E. destruct (re_parse (chars x)) as [e| | |] eqn:P; try discriminate E.
  injection E as <-. eapply re_parse_good; [|exact P]. apply SV.
Qed.

Lemma good_self l : (forall h res e, l = ALiteralL (AKId (Some e)) h res \/ (exists dt, l = ALiteralL (AKTextString (Some e) dt) h res) -> sets_good e) ->
  (forall l', nested l l' -> good_patterns l') -> good_patterns l.
Proof. intros H N l' h res e I E. inversion I as [|? l1 ? N1 I']; subst; [exact (H h res e E)|exact (N l1 N1 l' h res e I' E)]. Qed.
Lemma good_other l : (forall k h res, l <> ALiteralL k h res) -> (forall l', nested l l' -> good_patterns l') -> good_patterns l.
Proof. intros H N. apply good_self; [|exact N]. intros h res e [E|[dt E]]; now elim (H _ _ _ E). Qed.

Section Nested.
Context (nest : sv -> outcome unit alayout).
Hypothesis IH : yields nest good_patterns.
Definition good_ref (r : alayout_ref alayout) : Prop := forall l, nested_ref r l -> good_patterns l.
Definition good_format (f : aformat alayout) : Prop := forall l, nested_format f l -> good_patterns l.

Lemma yields_ref : yields (de_ref nest) good_ref.
Proof.
  apply yields_untagged. repeat constructor; apply yields_variant.
  - intros s a _ l H. discriminate H.
  - intros s a E l H. injection H as <-. exact (IH _ _ E).
Qed.
Lemma yields_format d : yields (de_format nest d) good_format.
Proof.
  apply yields_untagged. repeat constructor.
  - intros s a E. apply bind_Ok in E as (o & _ & E). apply bind_Ok in E as (r & R & E). apply bind_Ok in E as (i & _ & E).
    apply bind_Ok in E as (g & _ & E). injection E as <-. exact (yields_require _ _ _ _ _ yields_ref R).
  - apply yields_variant. exact yields_ref.
Qed.
Lemma yields_item : yields (de_item nest) (fun it => good_format (ai_value it)).
Proof.
  intros s a E. apply bind_Ok in E as (o & _ & E). apply bind_Ok in E as (i & _ & E). apply bind_Ok in E as (v & V & E).
  apply bind_Ok in E as (ds & _ & E). apply bind_Ok in E as (p & _ & E). injection E as <-. exact (yields_require _ _ _ _ _ (yields_format _) V).
Qed.
Lemma yields_field : yields (de_field nest) (fun f => good_format (ai_value (af_item f))).
Proof.
  intros s a E. apply bind_Ok in E as (o & _ & E). apply bind_Ok in E as (i & _ & E). apply bind_Ok in E as (v & V & E).
  apply bind_Ok in E as (ds & _ & E). apply bind_Ok in E as (p & _ & E). apply bind_Ok in E as (r & _ & E). injection E as <-.
  exact (yields_require _ _ _ _ _ (yields_format _) V).
Qed.
Lemma yields_variant' : yields (de_variant nest) (fun v => good_format (av_value v)).
Proof.
  intros s a E. apply bind_Ok in E as (o & _ & E). apply bind_Ok in E as (i & _ & E). apply bind_Ok in E as (v & V & E).
  apply bind_Ok in E as (ds & _ & E). injection E as <-. exact (yields_require _ _ _ _ _ (yields_format _) V).
Qed.
Definition good_node (n : anode alayout) : Prop :=
  match n with ANode _ _ _ f _ => good_format f | ANodeLayout r => good_ref r end.
Lemma yields_node : yields (de_node nest) good_node.
Proof.
  apply yields_untagged. repeat constructor.
  - intros s a E. apply bind_Ok in E as (o & _ & E). apply bind_Ok in E as (hd & _ & E). apply bind_Ok in E as (rs & _ & E).
    apply bind_Ok in E as (i & _ & E). apply bind_Ok in E as (v & V & E). apply bind_Ok in E as (ds & _ & E). injection E as <-.
    exact (yields_require _ _ _ _ _ (yields_format _) V).
  - apply yields_variant. exact yields_ref.
Qed.

Lemma yields_body : yields (de_body from_f64 nest) good_patterns.
Proof.
  apply yields_untagged.
  assert (D : forall k, (forall e, k <> AKId (Some e)) -> (forall e dt, k <> AKTextString (Some e) dt) -> forall h res, good_patterns (ALiteralL k h res)).
  { intros k H1 H2 h res. apply good_self; [|intros l' N; inversion N]. intros h' res' e [[= -> _ _]|[dt [= -> _ _]]]; [now elim (H1 e)|now elim (H2 e dt)]. }
  repeat apply Forall_cons; try apply Forall_nil;
    try (apply yields_struct; intros o h a E).
  - apply bind_Ok in E as (c & _ & E). injection E as <-. apply good_other; [discriminate|intros l' N; inversion N].
  - apply bind_Ok in E as (c & _ & E). apply bind_Ok in E as (dt & _ & E). injection E as <-. apply D; discriminate.
  - apply bind_Ok in E as (c & _ & E). apply bind_Ok in E as (dt & _ & E). injection E as <-. apply D; discriminate.
  - apply bind_Ok in E as (c & _ & E). apply bind_Ok in E as (dt & _ & E). injection E as <-. apply D; discriminate.
  - apply bind_Ok in E as (pat & P & E). apply bind_Ok in E as (c & _ & E). apply bind_Ok in E as (dt & _ & E). injection E as <-.
    apply good_self; [|intros l' N; inversion N]. intros h' res' e [[=]|[dt' E]]. injection E as -> _ _ _. exact (yields_option _ _ _ _ _ yields_regexp P).
  - apply bind_Ok in E as (pat & P & E). apply bind_Ok in E as (c & _ & E). injection E as <-.
    apply good_self; [|intros l' N; inversion N]. intros h' res' e [E|[dt' [=]]]. injection E as -> _ _. exact (yields_option _ _ _ _ _ yields_regexp P).
  - apply bind_Ok in E as (fs & FS & E). injection E as <-. apply good_other; [discriminate|]. intros l' N. inversion N as [? ? k f ? I Nf| | | | |]; subst.
    refine (yields_default _ (fun m => forall k v, In (k, v) m -> good_format (ai_value (af_item v))) _ _ _ _ _ (yields_map _ _ _ yields_field) FS k f I l' Nf).
    intros ? ? [].
  - apply bind_Ok in E as (fs & FS & E). injection E as <-. apply good_other; [discriminate|]. intros l' N. inversion N as [|? ? k f ? I Nf| | | |]; subst.
    refine (yields_default _ (fun m => forall k v, In (k, v) m -> good_format (av_value v)) _ _ _ _ _ (yields_map _ _ _ yields_variant') FS k f I l' Nf).
    intros ? ? [].
  - apply bind_Ok in E as (nd & ND & E). apply bind_Ok in E as (hd & _ & E). apply bind_Ok in E as (tl & _ & E). injection E as <-.
    apply good_other; [discriminate|]. intros l' N. pose proof (yields_require _ _ _ _ _ yields_node ND) as G.
    inversion N as [| |? hd' rs intro f ds ? ? ? Nf|? r ? ? ? Nf| |]; subst; exact (G l' Nf).
  - apply bind_Ok in E as (it & IT & E). injection E as <-. apply good_other; [discriminate|]. intros l' N. inversion N as [| | | |? ? ? Nf|]; subst.
    exact (yields_require _ _ _ _ _ yields_item IT l' Nf).
  - apply bind_Ok in E as (its & ITS & E). injection E as <-. apply good_other; [discriminate|]. intros l' N. inversion N as [| | | | |? ? it ? I Nf]; subst.
    assert (G : Forall (fun it => good_format (ai_value it)) its)
      by (refine (yields_default _ _ _ _ _ _ _ (yields_vec _ _ yields_item) ITS); constructor).
    rewrite Forall_forall in G. exact (G it I l' Nf).
  - apply yields_variant. intros s b _. apply good_other; [discriminate|]. intros l' N. inversion N.
  - injection E as <-. apply good_other; [discriminate|]. intros l' N. inversion N.
  - injection E as <-. apply good_other; [discriminate|]. intros l' N. inversion N.
Qed.
End Nested.

Lemma deserialize_good s l : layout_deserialize from_f64 s = Ok l -> good_patterns l.
Proof.
  unfold layout_deserialize. generalize (sv_size s) as n. intros n. revert s l. induction n as [|n IH]; intros s l E; [discriminate E|].
  exact (yields_body (de_layout from_f64 n) IH s l E).
Qed.
End Good.

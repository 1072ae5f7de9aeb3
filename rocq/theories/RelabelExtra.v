(** * Proofs for C112: the extra properties of a document compiled with the generator at another number *)

From Coq Require Import String Ascii List Bool Arith NArith ZArith Permutation Lia.
Import ListNotations.
From Verif Require Import Base BaseProofs Orders PatternModel ValueModel LayoutModel LayoutSpec HydrateModel HydrateSpec TermModel DehydrateModel DehydrateFinish
  JsonModel AbsModel AbsSpec AbsProofs AbsProperties AbsMeaning AbsJsonModel AbsRegistry RelabelSpec RelabelBuild CborModel CborSpec ValueProofs
  CliModel CliSpec CliProofs RelabelFiles ExtraModel ExtraProofs ExtraProperties CliExtraModel CliExtraProofs.
Open Scope list_scope.
Open Scope nat_scope.

Section Build.
Context {IS : IriSyntax} {AE : AbsExternal}.
Variables n n' : nat.
Notation near := (shifted n n').
Notation ctx := (kept term_context).
Notation St := (nat * @extras term)%type.

(** The same properties for the layouts with the same name, and for no other. *)
Definition extras_alike (k : nat) (st st' : St) : Prop :=
  (forall r r', near k r r' -> bt_get r (snd st) = bt_get r' (snd st')) /\
  (forall r, bt_get r (snd st) <> None -> exists r', near k r r') /\
  (forall r', bt_get r' (snd st') <> None -> exists r, near k r r').

Definition gen (st : St) : nat := fst st.
Definition next (st : St) : St := (S (fst st), snd st).

Lemma k_iri i (st : St) : c_iri ctx i st = (TmIri i, st).
Proof. now destruct st. Qed.
Lemma k_literal l (st : St) : c_literal ctx l st = (TmLit l, st).
Proof. now destruct st. Qed.

Lemma alike_next k st st' : gen st = n + k -> gen st' = n' + k -> extras_alike k st st' -> extras_alike (S k) (next st) (next st').
Proof.
  intros _ _ (G & D & D'). split; [|split; cbn [next snd]; intros r R; (apply D in R || apply D' in R); destruct R as [r' R]; exists r'; apply (near_grows n n' k); auto; lia].
  intros r r' H. cbn [next snd]. assert (near k r r' \/ (r = TmBlank (nat_string (n + k)) /\ r' = TmBlank (nat_string (n' + k)))) as [K|[-> ->]].
  { destruct H as [H|(i & I & H)]; [left; now left|]. destruct (Nat.eq_dec i k) as [->|NE]; [now right|]. left. right. exists i. split; [lia|exact H]. }
  - now apply G.
  - destruct (bt_get (TmBlank (nat_string (n + k))) (snd st)) eqn:E1.
    + destruct (D (TmBlank (nat_string (n + k)))) as [q [(i & E2 & _)|(i & I & E2 & _)]]; [congruence|discriminate E2|]. injection E2 as E2. apply nat_string_inj in E2. lia.
    + destruct (bt_get (TmBlank (nat_string (n' + k))) (snd st')) eqn:E3; [|reflexivity].
      destruct (D' (TmBlank (nat_string (n' + k)))) as [q [(i & _ & E2)|(i & I & _ & E2)]]; [congruence|discriminate E2|]. injection E2 as E2. apply nat_string_inj in E2. lia.
Qed.

Notation alike := (run_alike gen n n' extras_alike).
Notation goods := (goods n n').

Lemma q_properties l sc : quiet (layout_properties term_context l sc).
Proof.
  assert (Q : forall h, quiet (header_properties term_context h sc)).
  { intro h. unfold header_properties, build_properties. apply q_bind; [apply q_lift|]. intro sc1. apply q_bind; [apply q_dataset; [apply k_iri|apply k_literal]|].
    intros _. apply q_bind; [|intro; apply q_ret]. apply q_mapS. intros [i v]. cbn [fst snd].
    apply q_bind; [apply q_build_iri, k_iri|]. intro p. apply q_bind; [|intro; apply q_ret].
    destruct v; cbn [build_resource]; try (apply q_literal, k_literal). apply q_bind; [apply q_lift|]. intro ty1. apply q_literal, k_literal. }
  destruct l as [h c|kd h r|h fs|h vs|h nd p q|h it|h its|b|h|h]; cbn [layout_properties]; try apply q_ret;
    (destruct (Q h) as [o H]; exists (match o with Ok m => Ok m | _ => Ok [] end); intro s; rewrite H; now destruct o).
Qed.

Lemma w_insert_properties k id id' m : near k id id' -> alike k (fun _ _ _ => True) (insert_properties id m) (insert_properties id' m).
Proof.
  intros H [[c ex] b] [[c' ex'] b'] ((E & G & D & D') & E' & T). exists k. split; [lia|]. split; [|exact Logic.I]. unfold insert_properties. cbn [fst snd] in *.
  split; [split; [exact E|]|split; [exact E'|exact T]]. split; [|split]; cbn [snd].
  - intros r r' R. cbn [fst snd] in *. rewrite !bt_insert_get. pose proof (near_iff _ _ _ _ _ _ _ R H) as EQ.
    destruct (eqb_spec r id) as [->|NE], (eqb_spec r' id') as [->|NE']; [reflexivity|now elim NE'; apply EQ|now elim NE; apply EQ|now apply G].
  - intros r. cbn [fst snd] in *. rewrite bt_insert_get. destruct (eqb_spec r id) as [->|NE]; [eauto|apply D].
  - intros r. cbn [fst snd] in *. rewrite bt_insert_get. destruct (eqb_spec r id') as [->|NE]; [eauto|apply D'].
Qed.

Lemma w_layout_extra l : forall k sc, alike k goods (build_layout_extra term_context l sc) (build_layout_extra term_context l sc).
Proof.
  induction l as [l IH] using layout_ind. intros k sc. rewrite !layout_extra_eq. unfold layout_body_extra.
  eapply w_bind; [apply (w_id gen next); [apply k_iri|reflexivity|reflexivity|apply alike_next]|].
  intros k1 id id' L ID. eapply w_bind; [apply w_quiet, q_properties|]. intros k2 m ? L2 <-.
  eapply w_bind; [apply w_pre; [apply k_iri|apply k_literal|intros l' N k3 sc3; now apply IH]|].
  intros k3 p p' L3 P. assert (ID3 : near k3 id id') by (eapply near_grows; [|exact ID]; lia).
  eapply w_bind; [now apply w_insert_properties|]. intros k4 ? ? L4 _.
  apply w_insert; [eapply near_grows; [|exact ID3]; lia|]. eapply pre_grows; [|exact P]. intros; eapply near_grows; [|eassumption]; lia.
Qed.

(** The document alone. *)
Lemma extra_moved l r st ex b : build_with_extra term_context l ((n, []), []) = (Ok r, ((st, ex), b)) ->
  exists k r' ex' b', st = n + k /\ build_with_extra term_context l ((n', []), []) = (Ok r', ((n' + k, ex'), b')) /\
    forall q q', near k q q' -> bt_get q ex = bt_get q' ex'.
Proof.
  intros H. destruct (w_layout_extra l 0 scope_default ((n, []), []) ((n', []), [])) as (k & _ & T & O).
  { split; [split; [cbn; lia|split; [reflexivity|split; intros r' R; now elim R]]|]. split; [cbn; lia|]. split; [intros; exact Logic.I|]. split; intros r' R; now elim R. }
  unfold build_with_extra in *. rewrite H in *. destruct (build_layout_extra term_context l scope_default (n', [], [])) as [o' [[st' ex'] b']].
  cbn [fst snd] in *. destruct o' as [r'| | |]; cbn in O; try contradiction. destruct T as ((E & G & _) & E' & _). cbn in E, E'. subst st st'.
  exists k, r', ex', b'. split; [reflexivity|]. split; [reflexivity|exact G].
Qed.
End Build.

Section Files.
Context {TS : TextSyntax} {IS : IriSyntax} {AE : AbsExternal} {F : Type} {FM : Formats F}.
Variable file : string -> option string.
Variable fuel : nat.

(** The properties of the file [name], with the generator at [n]. *)
Definition has_extras (name : string) (n : nat) (x : @extras term) (c : nat) : Prop :=
  exists source j l r b, file name = Some source /\ json_parse source = Some j /\ layout_from_json j = Ok l /\
    build_with_extra term_context l ((n, []), []) = (Ok r, ((c, x), b)).

Lemma has_extras_unique name n x c x' c' : has_extras name n x c -> has_extras name n x' c' -> x = x' /\ c = c'.
Proof. intros (s & j & l & r & b & A & B & C & D) (s' & j' & l' & r' & b' & A' & B' & C' & D'). assert (s = s') by congruence. subst. assert (j = j') by congruence. subst.
  assert (l = l') by congruence. subst. rewrite D in D'. injection D' as -> -> ->. auto. Qed.
Lemma has_extras_elsewhere name n n' x c : has_extras name n x c ->
  exists k x', c = n + k /\ has_extras name n' x' (n' + k) /\ forall q q', shifted n n' k q q' -> bt_get q x = bt_get q' x'.
Proof.
  intros (s & j & l & r & b & A & B & C & D). destruct (extra_moved n n' l r c x b D) as (k & r' & x' & b' & -> & D' & G).
  exists k, x'. split; [reflexivity|]. split; [|exact G]. exists s, j, l, r', b'. auto.
Qed.

(** Where each file was loaded: see [row_placed]. *)
Lemma row_placed_extra names : forall m ex n rs m' ex' c, load_all_extra file fuel names m ex n = Ok (rs, m', ex', c) -> kept_with m ex ->
  exists tr, map fst tr = names /\ Forall2 (fun e r => exists o c, alone file fuel (fst e) (snd e) r o c) tr rs /\
    (forall q l, layouts_get m' q = Some l <-> layouts_get m q = Some l \/ exists e r o c, In e tr /\ alone file fuel (fst e) (snd e) r o c /\ layouts_get o q = Some l) /\
    (forall q p, bt_get q ex' = Some p <-> bt_get q ex = Some p \/ exists e x c, In e tr /\ has_extras (fst e) (snd e) x c /\ bt_get q x = Some p).
Proof.
  induction names as [|name names IH]; intros m ex n rs m' ex' c H K; cbn [load_all_extra] in H.
  - injection H as <- <- <- <-. exists []. split; [reflexivity|]. split; [constructor|]. split.
    + intros q l. split; [now left|]. intros [H|(e & _ & _ & _ & [] & _)]. exact H.
    + intros q l. split; [now left|]. intros [H|(e & _ & _ & [] & _)]. exact H.
  - apply bind_Ok in H as (s & E & H). destruct (file name) as [s0|] eqn:FE; [injection E as ->|discriminate E].
    apply bind_Ok in H as ([[[r m1] ex1] n1] & L & H). apply bind_Ok in H as ([[[rs1 m2] ex2] n2] & LA & H). injection H as <- <- <- <-.
    destruct (load_brings_extra _ _ _ _ _ _ _ _ _ L K) as (L0 & _ & _ & _ & _ & K1 & _).
    destruct K as (Wm & We & KE). destruct (load_alone _ _ _ _ _ _ _ L0 Wm) as (o & A & W1 & NEW & G).
    destruct (IH _ _ _ _ _ _ _ LA K1) as (tr & ET & FA & G2 & X2).
    assert (AL : alone file fuel name n r o n1) by (exists s; auto).
    assert (HX : exists x, has_extras name n x n1 /\ forall q, bt_get q ex1 = match bt_get q x with Some p => Some p | None => bt_get q ex end /\ (bt_get q x <> None -> bt_get q ex = None)).
    { unfold load_layout_extra in L. destruct (json_parse s) as [j|] eqn:P; [|discriminate L].
      apply bind_Ok in L as (l & R & L). destruct (layout_from_json j) as [l0| | |] eqn:D; try discriminate R. injection R as <-.
      destruct (build_with_extra term_context l0 (n, [], [])) as [oc [[c1 x1] b1]] eqn:B. cbn [fst snd] in L.
      apply bind_Ok in L as (r0 & R & L). destruct oc as [r1| | |]; try discriminate R. injection R as <-.
      apply bind_Ok in L as (new & BB & L). apply bind_Ok in L as (m3 & I & L). injection L as <- <- <- <-.
      destruct (C105_described term_context l0 n [] [] r1 c1 x1 b1 B ltac:(constructor) ltac:(constructor) ltac:(reflexivity)) as (_ & _ & _ & Wb & Wx & KX).
      exists x1. split; [exists s, j, l0, r1, b1; auto|]. destruct (add_extras_get x1 Wx ex We) as [_ GA]. intro q. split; [apply GA|].
      intros Q. apply KE. apply (insert_layouts_inv new m m3 I). destruct (registry_keys fuel b1 new Wb BB) as [_ KB]. apply KB. intro N. now apply KX in N. }
    destruct HX as (x & HX & GX).
    exists ((name, n) :: tr). split; [cbn; congruence|]. split; [constructor; [cbn [fst snd]; eauto|exact FA]|]. split.
    + intros q l. rewrite G2, G. split.
      * intros [Q|(e & r1 & o1 & c1 & I & Q)]; [|right; exists e, r1, o1, c1; split; [now right|exact Q]].
        destruct (layouts_get o q) as [l0|] eqn:EO; [|now left]. right. exists (name, n), r, o, n1. split; [now left|]. split; [exact AL|congruence].
      * intros [Q|(e & r1 & o1 & c1 & [<-|I] & A1 & Q)].
        -- left. destruct (layouts_get o q) as [l0|] eqn:EO; [|exact Q]. rewrite NEW in Q; congruence.
        -- left. cbn [fst snd] in A1. destruct (alone_unique _ _ _ _ _ _ _ _ _ _ AL A1) as (_ & <- & _). now rewrite Q.
        -- right. eauto 8.
    + intros q p. rewrite X2. destruct (GX q) as [GE GN]. rewrite GE. split.
      * intros [Q|(e & x1 & c1 & I & Q)]; [|right; exists e, x1, c1; split; [now right|exact Q]].
        destruct (bt_get q x) as [p0|] eqn:EO; [|now left]. right. exists (name, n), x, n1. split; [now left|]. split; [exact HX|congruence].
      * intros [Q|(e & x1 & c1 & [<-|I] & A1 & Q)].
        -- left. destruct (bt_get q x) as [p0|] eqn:EO; [|exact Q]. rewrite GN in Q; congruence.
        -- left. cbn [fst snd] in A1. destruct (has_extras_unique _ _ _ _ _ _ HX A1) as [<- _]. now rewrite Q.
        -- right. eauto 8.
Qed.
End Files.

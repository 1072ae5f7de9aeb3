(** * The dehydration of a tree writes what [Wrote] says *)

From Coq Require Import String List Bool Arith NArith Lia Qcanon Permutation Sorted.
Import ListNotations.
From Verif Require Import Base BaseProofs Orders PatternModel ValueModel ValueProofs LayoutModel HydrateModel TermModel
  LayoutSpec DehydrateModel DehydrateSpec DehydrateProofs DehydrateEmits DehydrateFinish RoundTripSpec RoundTripWrites.
Open Scope list_scope.
Open Scope nat_scope.

Section Run.
Context {X : Xsd} {IS : IriSyntax}.
Variable reg : registry term.
Hypothesis TR : tree_registry reg.
Notation ops := input_interpretation.
Notation state := (dstate res input_interp).
Notation count st := (ii_anonymous_count (ds_interp st)).

(** The terms assigned between two states, by a part [T] of the resources, [N] being nodes. *)
Definition news (T N : res -> Prop) (ids : list (res * string)) (st st' : state) : Prop :=
  (forall r t, assigned st r t -> assigned st' r t) /\
  (forall r t, assigned st' r t ->
     assigned st r t \/ (T r /\ (N r -> exists i, t = TmIri i /\ In (r, i) ids))).

Lemma news_same T N ids st st' : ii_map (ds_interp st') = ii_map (ds_interp st) -> news T N ids st st'.
Proof. intro E. unfold news, assigned. rewrite E. auto. Qed.

Lemma news_seq (T1 N1 T2 N2 T N : res -> Prop) ids1 ids2 st st1 st2 :
  news T1 N1 ids1 st st1 -> news T2 N2 ids2 st1 st2 ->
  (forall r, T1 r -> T r) -> (forall r, T2 r -> T r) ->
  (forall r, T1 r -> N r -> N1 r) -> (forall r, T2 r -> N r -> N2 r) ->
  news T N (ids1 ++ ids2) st st2.
Proof.
  intros [O1 W1] [O2 W2] T1T T2T N1N N2N. split; [auto|]. intros r t H.
  destruct (W2 r t H) as [H1|[HT HN]].
  - destruct (W1 r t H1) as [H0|[HT HN]]; [now left|]. right. split; [auto|]. intro Nr.
    destruct (HN (N1N r HT Nr)) as (i & E & Hi). exists i. split; [exact E|]. apply in_app_iff. now left.
  - right. split; [auto|]. intro Nr. destruct (HN (N2N r HT Nr)) as (i & E & Hi). exists i.
    split; [exact E|]. apply in_app_iff. now right.
Qed.

Definition territory lo hi (s : res) (r : res) : Prop := r = s \/ in_range lo hi r.

Record post lo hi s (Q : list (quad res)) ids nodes (st st' : state) : Prop := {
  po_count : count st' = hi;
  po_out : forall q, In q (ds_output st') <-> In q (ds_output st) \/ In q Q;
  po_news : news (territory lo hi s) (fun r => In r nodes) ids st st'
}.

(** ** Opening a component *)
Definition node_env (s : res) : env res := Child (Root [s]) [].

Lemma open_about s ps st e st' :
  open ops (Root [s]) 0 (statements ps) st = (Ok e, st') ->
  e = node_env s /\ ds_interp st' = ds_interp st /\
  (forall q, In q (ds_output st') <-> In q (ds_output st) \/ In q (said s ps)).
Proof.
  intro H. apply open_Ok in H as (rs & -> & -> & HI & HO & _). simpl in HI. split; [reflexivity|].
  split; [rewrite HI, Nat.add_0_r; now destruct (ds_interp st)|].
  intro q. rewrite HO. apply or_iff_compat_l. simpl. split.
  - intros (p & Hp & Hi). apply in_map_iff in Hp as ([p' o] & <- & Hp). apply in_map_iff.
    exists (p', o). split; [|exact Hp]. destruct Hi as (H1 & H2 & H3 & H4). destruct q as [a b c d]. simpl in *.
    inversion H1 as [|? ? E1]; inversion H2; inversion H3; inversion H4; subst. simpl in E1. injection E1 as <-. reflexivity.
  - intro Hq. apply in_map_iff in Hq as ([p o] & <- & Hp).
    exists (Quad (PVar 0) (PRes p) (PRes o) None). split; [apply in_map_iff; exists (p, o); auto|].
    split; [|split; [|split]]; simpl; constructor. reflexivity.
Qed.

Lemma open_linked s p st e st' :
  open ops (node_env s) 1 [Quad (PVar 0) (PRes p) (PVar 1) None] st = (Ok e, st') ->
  e = Child (node_env s) [RAnon (count st)] /\
  ds_interp st' = InputInterp (ii_map (ds_interp st)) (S (count st)) /\
  (forall q, In q (ds_output st') <-> In q (ds_output st) \/ q = triple s p (RAnon (count st))).
Proof.
  intro H. apply open_Ok in H as (rs & -> & -> & HI & HO & _). simpl in HI. rewrite Nat.add_1_r in HI. split; [reflexivity|].
  split; [exact HI|].
  intro q. rewrite HO. apply or_iff_compat_l. simpl. split.
  - intros (p' & [<-|[]] & Hi). destruct Hi as (H1 & H2 & H3 & H4). destruct q as [a b c d]. simpl in *.
    inversion H1 as [|? ? E1]; inversion H2; inversion H3 as [|? ? E3]; inversion H4; subst. simpl in E1, E3. injection E1 as <-. injection E3 as <-. reflexivity.
  - intros ->. eexists. split; [now left|]. split; [|split; [|split]]; simpl; constructor; reflexivity.
Qed.

Lemma open_cell s head next first rest st e st' :
  open ops (env_bind (node_env s) [head; next]) 1
    [Quad (PVar 1) (PRes first) (PVar 3) None; Quad (PVar 1) (PRes rest) (PVar 2) None] st = (Ok e, st') ->
  e = Child (env_bind (node_env s) [head; next]) [RAnon (count st)] /\
  ds_interp st' = InputInterp (ii_map (ds_interp st)) (S (count st)) /\
  (forall q, In q (ds_output st') <->
     In q (ds_output st) \/ q = triple head first (RAnon (count st)) \/ q = triple head rest next).
Proof.
  intro H. apply open_Ok in H as (rs & -> & -> & HI & HO & _). simpl in HI. rewrite Nat.add_1_r in HI. split; [reflexivity|].
  split; [exact HI|].
  intro q. rewrite HO. apply or_iff_compat_l. simpl. split.
  - intros (p' & [<-|[<-|[]]] & Hi); destruct Hi as (H1 & H2 & H3 & H4); destruct q as [a b c d]; simpl in *;
    inversion H1 as [|? ? E1]; inversion H2; inversion H3 as [|? ? E3]; inversion H4; subst; simpl in E1, E3;
    [left|right]; unfold triple; congruence.
  - intros [-> | ->].
    + eexists. split; [now left|]. split; [|split; [|split]]; simpl; constructor; reflexivity.
    + eexists. split; [right; now left|]. split; [|split; [|split]]; simpl; constructor; reflexivity.
Qed.

(** ** Leaves *)
Lemma fields_In k f fs : In (k, f) (fields_of fs) <-> exists c, In (k, c) fs /\ f = field_of c.
Proof.
  unfold fields_of. rewrite in_map_iff. split.
  - intros ([k' c] & [= <- <-] & H). eauto.
  - intros (c & H & ->). exists (k, c). auto.
Qed.

Lemma data_run fuel v g r s k ty st o st' :
  reg r = Some (data_layout k ty) ->
  dehydrate_with ops reg fuel v g r [s] st = (o, st') ->
  match o with
  | Ok _ => exists l t, v = VLit l /\ literal_form (type_iri RTerm (assigned st) (TmIri ty)) k l t /\
      st' = DState (assign_literal ops s t (ds_interp st)) (ds_output st)
  | Err _ => st' = st
  | _ => True
  end.
Proof.
  intros E H. unfold data_layout in E. destruct fuel as [|fuel]; [injection H as <- <-; exact I|].
  cbn [dehydrate_with] in H. unfold dehydrate_body in H. rewrite E in H.
  cbn [input_count data_layout length Nat.eqb] in H. unfold dehydrate_layout in H.
  destruct v as [l|m|l]; try (unfold raise in H; injection H as <- <-; reflexivity).
  cbn [into input_interpretation] in H. fold ops in H.
  destruct (dehydrate_literal ops k l (RTerm (TmIri ty))) as [m|] eqn:EL; [|unfold raise in H; injection H as <- <-; reflexivity].
  destruct st as [[mp c] out]. unfold open, env_intro, about in H. cbn -[dehydrate_literal] in H.
  destruct (m (DState (InputInterp mp c) out)) as [[t|e|w|] st1] eqn:EM.
  - unfold bindM in H. cbn in H. rewrite EM in H. unfold assign_literalM in H. injection H as <- <-.
    destruct (literal_Ok _ _ _ _ _ _ _ EL EM) as [-> LF]. exists l, t. auto.
  - exfalso. destruct k, l; simpl in EL; try discriminate; injection EL as <-.
    + unfold dehydrate_boolean in EM. destruct (existsb _ _); discriminate.
    + unfold dehydrate_number in EM. destruct (number_literal _ _); discriminate.
    + discriminate.
    + unfold dehydrate_text_string in EM. destruct (iris_in _ _ _); discriminate.
  - unfold bindM in H. cbn in H. rewrite EM in H. injection H as <- <-. exact I.
  - unfold bindM in H. cbn in H. rewrite EM in H. injection H as <- <-. exact I.
Qed.

Lemma assign_news s t st st' (N : res -> Prop) ids lo hi :
  (forall r u, assigned st' r u <-> (r = s /\ u = t) \/ assigned st r u) ->
  (N s -> exists i, t = TmIri i /\ In (s, i) ids) ->
  news (territory lo hi s) N ids st st'.
Proof.
  intros H HN. split; [intros r u Hr; apply H; now right|]. intros r u Hr.
  apply H in Hr as [[-> ->]|Hr]; [|now left]. right. split; [now left|exact HN].
Qed.

Definition ran (v : value) (ref : term) (s : res) (st st' : state) : Prop :=
  exists hi Q ids nodes, Wrote reg (assigned st') (count st) hi ref s v Q ids nodes /\
    post (count st) hi s Q ids nodes st st'.

Lemma leaf_ran v ref s t st st' :
  leaf_term reg (assigned st') ref v t ->
  ds_output st' = ds_output st -> count st' = count st ->
  (forall r u, assigned st' r u <-> (r = s /\ u = t) \/ assigned st r u) ->
  ran v ref s st st'.
Proof.
  intros L EO EC HA. exists (count st), [], [], []. split.
  - apply (W_leaf _ _ _ _ _ _ t); [exact L|]. apply HA. now left.
  - split; [exact EC|intro q; rewrite EO; simpl; tauto|]. eapply assign_news; [exact HA|]. intros [].
Qed.

Lemma assigned_literal s l (i : input_interp) o o' r u :
  assigned (DState (assign_literal ops s l i) o) r u <-> (r = s /\ u = TmLit l) \/ assigned (DState i o') r u.
Proof. unfold assigned. simpl. apply terms_of_assign. Qed.
Lemma assigned_iri s x (i : input_interp) o o' r u :
  assigned (DState (assign_iri ops s x i) o) r u <-> (r = s /\ u = TmIri x) \/ assigned (DState i o') r u.
Proof. unfold assigned. simpl. apply terms_of_assign. Qed.

Lemma data_ran fuel v g r s k ty st st' :
  reg r = Some (data_layout k ty) ->
  dehydrate_with ops reg fuel v g r [s] st = (Ok tt, st') -> ran v r s st st'.
Proof.
  intros E H. destruct (data_run _ _ _ _ _ _ _ _ _ _ E H) as (l & t & -> & LF & ->). destruct st as [i o].
  apply (leaf_ran _ _ _ (TmLit t)); [|reflexivity|reflexivity|intros; apply assigned_literal].
  eapply lt_data; [exact E|]. eapply literal_form_mono; [|exact LF].
  intros ty' [F|F]; [now left|right]. apply (assigned_literal s t i o o). now right.
Qed.

Lemma id_run fuel v g r s pat st st' :
  reg r = Some (IdL (about []) (PVar 0) pat) ->
  dehydrate_with ops reg fuel v g r [s] st = (Ok tt, st') ->
  exists x, v = VLit (LText x) /\ st' = DState (assign_iri ops s x (ds_interp st)) (ds_output st).
Proof.
  intros E H. destruct fuel as [|fuel]; [discriminate|].
  cbn [dehydrate_with] in H. unfold dehydrate_body in H. rewrite E in H.
  cbn [input_count length Nat.eqb] in H. unfold dehydrate_layout in H.
  destruct v as [l|m|l]; try discriminate. destruct l as [|b|n|b|x]; try discriminate.
  destruct st as [[mp c] out]. unfold open, env_intro, about in H. cbn in H.
  unfold bindM in H. cbn in H. destruct (is_iri x); [|discriminate]. unfold assign_iriM in H. injection H as <-.
  exists x. auto.
Qed.

Lemma choice_run fuel v g s : forall vs tys sel st sel' st',
  Forall2 (fun x ty => exists k, reg (snd x) = Some (data_layout k ty) /\ data_type k ty) vs tys ->
  dehydrate_variants ops (dehydrate_with ops reg fuel) v g (node_env s)
    (map (fun x : string * term => Variant (fst x) (same_node (snd x))) vs) sel st = (Ok sel', st') ->
  (sel' = sel /\ st' = st) \/
  (sel = None /\ sel' = Some [] /\ exists n r k ty, In (n, r) vs /\ reg r = Some (data_layout k ty) /\
     dehydrate_with ops reg fuel v g r [s] st = (Ok tt, st')).
Proof.
  induction vs as [|[n r] vs IH]; intros tys sel st sel' st' HF H; cbn [map dehydrate_variants] in H.
  - apply ret_Ok in H as [<- <-]. auto.
  - inversion HF as [|? ty ? tys' (k & E & _) HF']; subst. cbn [snd] in E.
    apply bindM_Ok in H as (e & st1 & H1 & H). cbn in H1. unfold env_intro, bindM in H1. cbn in H1. injection H1 as <- <-.
    apply bindM_Ok in H as (d & st2 & H2 & H). apply lift_Ok in H2 as [H2 <-]. cbn in H2. injection H2 as <-.
    apply bindM_Ok in H as (b & st3 & H3 & H).
    change (dehydrate_sub_value ops (dehydrate_with ops reg fuel) v g (it_value (va_item (Variant (fst (n, r)) (same_node (snd (n, r))))))
      (Child (node_env s) [])) with (dehydrate_with ops reg fuel v g r [s]) in H3.
    apply is_ok_Ok in H3 as [[-> [[] H3]]|[-> [e H3]]].
    + destruct sel as [d|]; [discriminate|]. destruct (IH _ _ _ _ _ HF' H) as [[-> ->]|(F & _)]; [|discriminate].
      right. split; [reflexivity|]. split; [reflexivity|]. exists n, r, k, ty. split; [now left|]. auto.
    + pose proof (data_run _ _ _ _ _ _ _ _ _ _ E H3) as ->. destruct (IH _ _ _ _ _ HF' H) as [F|(A & B & n' & r' & k' & ty' & F & G)]; [now left|].
      right. split; [exact A|]. split; [exact B|]. exists n', r', k', ty'. split; [now right|exact G].
Qed.

(** ** Choices with tags *)
Notation machine := (value -> option res -> term -> list res -> M (Q := term) (S := res) (I := input_interp) unit).
Definition variants_of (p : term) (vs : list (string * (term * term))) : list (variant term) :=
  map (fun v => Variant (fst v) (tagged p (fst (snd v)) (snd (snd v)))) vs.

(** The layout fails and writes nothing. *)
Definition fails_at_once (rec : machine) (v : value) (r : term) : Prop := forall g s st o st',
  rec v g r [s] st = (o, st') ->
  match o with Ok _ => False | Err _ => st' = st | _ => True end.

Lemma variants_cons (rec : machine) v g s p n tag r vs sel st :
  dehydrate_variants ops rec v g (node_env s) (variants_of p ((n, (tag, r)) :: vs)) sel st =
  bindM (is_ok (rec v g r [s])) (fun ok =>
    if ok then match sel with
               | Some _ => raise DDataAmbiguity
               | None => dehydrate_variants ops rec v g (node_env s) (variants_of p vs) (Some [triple s p (RTerm tag)])
               end
    else dehydrate_variants ops rec v g (node_env s) (variants_of p vs) sel) st.
Proof. destruct st as [[mp c] out]. reflexivity. Qed.

Lemma variants_refused (rec : machine) v g s p : forall vs sel st o st',
  (forall n tag r, In (n, (tag, r)) vs -> fails_at_once rec v r) ->
  dehydrate_variants ops rec v g (node_env s) (variants_of p vs) sel st = (o, st') ->
  match o with Ok sel' => sel' = sel /\ st' = st | Err _ => False | _ => True end.
Proof.
  induction vs as [|[n [tag r]] vs IH]; intros sel st o st' HR H.
  - injection H as <- <-. auto.
  - rewrite variants_cons in H. unfold bindM, is_ok in H. destruct (rec v g r [s] st) as [o1 st1] eqn:E1.
    assert (F := HR n tag r ltac:(now left) g s st o1 st1 E1). destruct o1 as [u|e|w|]; [contradiction| | |].
    + subst st1. apply IH in H; [exact H|]. intros. eapply HR. right. eassumption.
    + injection H as <- <-. exact I.
    + injection H as <- <-. exact I.
Qed.

Lemma tagged_run (rec : machine) v g s p tag r : forall vs st sel st' n,
  NoDup (map (fun x : string * (term * term) => fst (snd x)) vs) -> In (n, (tag, r)) vs ->
  (forall n1 tag1 r1, In (n1, (tag1, r1)) vs -> tag1 <> tag -> fails_at_once rec v r1) ->
  dehydrate_variants ops rec v g (node_env s) (variants_of p vs) None st = (Ok sel, st') ->
  sel = None \/ (sel = Some [triple s p (RTerm tag)] /\ rec v g r [s] st = (Ok tt, st')).
Proof.
  induction vs as [|[n1 [tag1 r1]] vs IH]; intros st sel st' n ND Hn HR H; [destruct Hn|].
  cbn [map fst snd] in ND. inversion ND as [|? ? NI ND']; subst. rewrite variants_cons in H.
  apply bindM_Ok in H as (b & st1 & H1 & H). destruct (cmp_eq_dec tag1 tag) as [-> |NE].
  - assert (REST : forall n2 tag2 r2, In (n2, (tag2, r2)) vs -> fails_at_once rec v r2).
    { intros n2 tag2 r2 H2. apply (HR n2 tag2 r2); [now right|]. intros ->. apply NI. apply in_map_iff. eexists. split; [|exact H2]. reflexivity. }
    assert (r1 = r) as ->.
    { destruct Hn as [[= _ <-]|Hn]; [reflexivity|]. exfalso. apply NI. apply in_map_iff. eexists. split; [|exact Hn]. reflexivity. }
    apply is_ok_Ok in H1 as [[-> [[] H1]]|[-> [e H1]]].
    + apply variants_refused in H; [|exact REST]. destruct H as [-> ->]. auto.
    + apply variants_refused in H; [|exact REST]. destruct H as [-> ->]. auto.
  - assert (F : fails_at_once rec v r1) by (apply (HR n1 tag1 r1); [now left|exact NE]).
    apply is_ok_Ok in H1 as [[-> [[] H1]]|[-> [e H1]]].
    + destruct (F _ _ _ _ _ H1).
    + assert (st1 = st) as -> by exact (F _ _ _ _ _ H1). eapply (IH st sel st' n ND'); [|intros; eapply HR; [right; eassumption|assumption]|exact H].
      destruct Hn as [[= _ E _]|Hn]; [congruence|exact Hn].
Qed.

Lemma open_nothing s st e st' : open ops (Root [s]) 0 (statements []) st = (Ok e, st') -> e = node_env s /\ st' = st.
Proof. destruct st as [[mp c] out]. unfold open, env_intro. cbn. intros [= <- <-]. auto. Qed.

(** What refuses a value writes nothing. *)
Notation failed o st st' := (match o with Ok _ => False | Err _ => st' = st | _ => True end).

Lemma body_fails fuel r l v : reg r = Some l ->
  (forall g s st o st', dehydrate_layout ops (dehydrate_with ops reg fuel) v g r l [s] st = (o, st') -> failed o st st') ->
  fails_at_once (dehydrate_with ops reg (S fuel)) v r.
Proof.
  intros E C g s st o st' H. cbn [dehydrate_with] in H. unfold dehydrate_body in H. rewrite E in H.
  destruct (input_count l) as [n|]; [|exact (C _ _ _ _ _ H)]. destruct (Nat.eqb n (length [s])); [exact (C _ _ _ _ _ H)|].
  unfold raise in H. injection H as <- <-. reflexivity.
Qed.

Lemma required_fails ref fs k p r : In (k, Link p true r) fs -> forall st : state,
  exists e, check_required ref [] (fields_of fs) st = (Err e, st).
Proof.
  induction fs as [|[k' c] fs IH]; intros Hk st; [destruct Hk|].
  cbn [fields_of map check_required fst snd]. fold (fields_of fs). destruct (f_required (field_of c)) eqn:ER.
  - cbn. eexists. reflexivity.
  - cbn [andb]. destruct Hk as [[= -> ->]|Hk]; [discriminate|exact (IH Hk st)].
Qed.

Lemma refuses_fails r v : Refuses reg r v -> forall fuel, fails_at_once (dehydrate_with ops reg fuel) v r.
Proof.
  intro HR. induction HR as [r h c v E NE|r h fs v E NM|r fs k v m E NK|r fs k p r' E Hk|r h its v E NM|r h it v E NM|r h it hd tl v E NM|r p vs v E _ IH];
    intros [|fuel]; try (intros g s st o st' [= <- <-]; exact I);
    apply (body_fails _ _ _ _ E); intros g s st o st' H.
  - cbn [dehydrate_layout] in H. destruct (eqb_spec v c) as [Ev|_]; [contradiction|]. unfold raise in H. injection H as <- <-. reflexivity.
  - cbn [dehydrate_layout] in H. destruct v as [|m|]; [|elim (NM m eq_refl)|]; unfold raise in H; injection H as <- <-; reflexivity.
  - unfold record_layout in H. cbn [dehydrate_layout about h_intro h_dataset] in H. unfold bindM at 1 in H.
    destruct (open ops (Root [s]) 0 (statements []) st) as [[e|e|w|] st1] eqn:EO;
      try (destruct st as [[mp c] out]; discriminate EO). apply open_nothing in EO as [-> ->].
    unfold bindM at 1 in H. cbn [dehydrate_entries] in H.
    assert (EG : bt_get k (fields_of fs) = None).
    { destruct (bt_get k (fields_of fs)) as [f|] eqn:EG; [|reflexivity]. exfalso. apply NK. apply bt_get_In in EG. apply fields_In in EG as (c & Hc & _).
      apply (in_map fst) in Hc. exact Hc. }
    rewrite EG in H. unfold raise in H. injection H as <- <-. reflexivity.
  - unfold record_layout in H. cbn [dehydrate_layout about h_intro h_dataset] in H. unfold bindM at 1 in H.
    destruct (open ops (Root [s]) 0 (statements []) st) as [[e|e|w|] st1] eqn:EO;
      try (destruct st as [[mp c] out]; discriminate EO). apply open_nothing in EO as [-> ->].
    unfold bindM at 1 in H. cbn [dehydrate_entries] in H. unfold ret in H.
    destruct (required_fails r fs k p r' Hk st) as [e Ee]. rewrite Ee in H. injection H as <- <-. reflexivity.
  - cbn [dehydrate_layout] in H. destruct v as [| |l]; [| |elim (NM l eq_refl)]; unfold raise in H; injection H as <- <-; reflexivity.
  - cbn [dehydrate_layout] in H. destruct v as [| |l]; [| |elim (NM l eq_refl)]; unfold raise in H; injection H as <- <-; reflexivity.
  - cbn [dehydrate_layout] in H. destruct v as [| |l]; [| |elim (NM l eq_refl)]; unfold raise in H; injection H as <- <-; reflexivity.
  - unfold tagged_layout in H. cbn [dehydrate_layout about h_intro h_dataset] in H. unfold bindM at 1 in H.
    destruct (open ops (Root [s]) 0 (statements []) st) as [[e|e|w|] st1] eqn:EO;
      try (destruct st as [[mp c] out]; discriminate EO). apply open_nothing in EO as [-> ->].
    unfold bindM at 1 in H. fold (variants_of p vs) in H.
    destruct (dehydrate_variants ops (dehydrate_with ops reg fuel) v g (node_env s) (variants_of p vs) None st) as [o1 st1] eqn:EV.
    apply variants_refused in EV; [|intros n tag r' Hn; exact (IH n tag r' Hn fuel)].
    destruct o1 as [sel|e|w|]; [|contradiction| |].
    + destruct EV as [-> ->]. unfold raise in H. injection H as <- <-. reflexivity.
    + injection H as <- <-. exact I.
    + injection H as <- <-. exact I.
Qed.

(** ** Composition *)
Ltac terr :=
  intros; unfold territory, in_range in *;
  repeat match goal with
  | H : _ \/ _ |- _ => destruct H
  | H : exists _, _ |- _ => destruct H
  | H : _ /\ _ |- _ => destruct H
  end; subst; repeat match goal with H : RAnon _ = RAnon _ |- _ => injection H as H end; subst;
  try solve [eauto | left; congruence | right; eexists; split; [reflexivity|lia] | exfalso; congruence | exfalso; lia].

Section Loops.
Variable rec : value -> option res -> term -> list res -> M (Q := term) (S := res) (I := input_interp) unit.
Hypothesis rec_ran : forall v g r s st st',
  Proper reg r v -> outside (count st) s -> rec v g r [s] st = (Ok tt, st') -> ran v r s st st'.
Hypothesis rec_id : forall v g r s pat st st',
  reg r = Some (IdL (about []) (PVar 0) pat) -> rec v g r [s] st = (Ok tt, st') ->
  exists x, v = VLit (LText x) /\ st' = DState (assign_iri ops s x (ds_interp st)) (ds_output st).
Hypothesis rec_refuses : forall v r, Refuses reg r v -> fails_at_once rec v r.

(** A component linked to the node. *)
Lemma linked_run v g r p s st st' :
  Proper reg r v ->
  bindM (open ops (node_env s) (it_intro (linked p r)) (it_dataset (linked p r)))
    (fun e => dehydrate_sub_value ops rec v g (it_value (linked p r)) e) st = (Ok tt, st') ->
  let n := count st in
  exists hi Q ids nodes,
    Wrote reg (assigned st') (S n) hi r (RAnon n) v Q ids nodes /\
    post n hi (RAnon n) (triple s p (RAnon n) :: Q) ids nodes st st' /\ S n <= hi.
Proof.
  intros HP H n. apply bindM_Ok in H as (e & st1 & H1 & H). apply open_linked in H1 as (-> & HI & HO).
  change (dehydrate_sub_value ops rec v g (it_value (linked p r)) (Child (node_env s) [RAnon (count st)]))
    with (rec v g r [RAnon n]) in H.
  apply rec_ran in H; [|exact HP|apply outside_anon; rewrite HI; simpl; unfold n; lia].
  destruct H as (hi & Q & ids & nodes & HW & [P1 P2 P3]). rewrite HI in HW, P3. cbn [ii_anonymous_count] in HW, P3.
  fold n in HW, P3. exists hi, Q, ids, nodes. split; [exact HW|].
  destruct (proj1 (Wrote_bounds reg _) _ _ _ _ _ _ _ _ HW) as (L & _). split; [|exact L]. split; [exact P1| |].
  - intro q. rewrite P2, HO. fold n. simpl. intuition.
  - assert (A : forall r t, assigned st1 r t <-> assigned st r t) by (intros; unfold assigned; now rewrite HI).
    destruct P3 as [O W]. split.
    + intros. apply O, A. assumption.
    + intros r0 t H0. apply W in H0 as [H0|[HT HN]]; [left; now apply A|]. right. split; [|exact HN]. terr.
Qed.


Ltac off := exfalso; terr; try match goal with
  | O : forall i, _ = RAnon i -> _ <= i -> False |- False => solve [eapply O; [reflexivity|lia]]
  end.

Lemma bounds_nodes lo hi s Q nodes r : bounds lo hi s Q nodes -> In r nodes -> territory lo hi s r.
Proof. intros (_ & _ & H). apply H. Qed.

(** One more component. *)
Lemma post_linked s n n1 n' p (Q1 Q2 : list (quad res)) ids1 ids2 nodes1 nodes2 st st1 st2 :
  outside n s -> bounds (S n) n1 (RAnon n) Q1 nodes1 -> bounds n1 n' s Q2 nodes2 ->
  post n n1 (RAnon n) (triple s p (RAnon n) :: Q1) ids1 nodes1 st st1 ->
  post n1 n' s Q2 ids2 (s :: nodes2) st1 st2 ->
  post n n' s (triple s p (RAnon n) :: Q1 ++ Q2) (ids1 ++ ids2) (s :: nodes1 ++ nodes2) st st2.
Proof.
  intros OS B1 B2 [C1 O1 N1] [C2 O2 N2]. assert (L1 := proj1 B1). assert (L2 := proj1 B2). split; [exact C2| |].
  - intro q. rewrite O2, O1. simpl. rewrite in_app_iff. tauto.
  - assert (OS' : forall i, s = RAnon i -> n <= i -> False) by (intros i -> Hi; apply (OS (S i)); exists i; auto).
    eapply news_seq; [exact N1|exact N2| | | |]; cbn beta.
    + terr.
    + terr.
    + intros r HT [<-|HI]; [off|]. apply in_app_iff in HI as [HI|HI]; [exact HI|].
      apply (bounds_nodes _ _ _ _ _ _ B2) in HI. off.
    + intros r HT [<-|HI]; [now left|]. apply in_app_iff in HI as [HI|HI]; [|now right].
      apply (bounds_nodes _ _ _ _ _ _ B1) in HI. off.
Qed.

Lemma post_own s n n1 n' (Q1 Q2 : list (quad res)) ids1 ids2 nodes1 nodes2 st st1 st2 :
  outside n s -> In s nodes1 -> bounds n n1 s Q1 nodes1 -> bounds n1 n' s Q2 nodes2 ->
  post n n1 s Q1 ids1 nodes1 st st1 ->
  post n1 n' s Q2 ids2 (s :: nodes2) st1 st2 ->
  post n n' s (Q1 ++ Q2) (ids1 ++ ids2) (s :: nodes1 ++ nodes2) st st2.
Proof.
  intros OS Hs B1 B2 [C1 O1 N1] [C2 O2 N2]. assert (L1 := proj1 B1). assert (L2 := proj1 B2). split; [exact C2| |].
  - intro q. rewrite O2, O1. simpl. rewrite in_app_iff. tauto.
  - assert (OS' : forall i, s = RAnon i -> n <= i -> False) by (intros i -> Hi; apply (OS (S i)); exists i; auto).
    eapply news_seq; [exact N1|exact N2| | | |]; cbn beta.
    + terr.
    + terr.
    + intros r HT [<-|HI]; [exact Hs|]. apply in_app_iff in HI as [HI|HI]; [exact HI|].
      apply (bounds_nodes _ _ _ _ _ _ B2) in HI. destruct HI as [-> |HI]; [exact Hs|]. off.
    + intros r HT [<-|HI]; [now left|]. apply in_app_iff in HI as [HI|HI]; [|now right].
      apply (bounds_nodes _ _ _ _ _ _ B1) in HI. destruct HI as [-> |HI]; [now left|]. off.
Qed.

Lemma post_start s ps n hi Q ids nodes st st1 st2 :
  ds_interp st1 = ds_interp st ->
  (forall q, In q (ds_output st1) <-> In q (ds_output st) \/ In q (said s ps)) ->
  post n hi s Q ids nodes st1 st2 -> post n hi s (said s ps ++ Q) ids nodes st st2.
Proof.
  intros EI EO [C O N]. split; [exact C| |].
  - intro q. rewrite O, EO, in_app_iff. tauto.
  - unfold news, assigned in *. rewrite EI in N. exact N.
Qed.

Lemma proper_entry ref ps fs k v m c :
  reg ref = Some (record_layout ps fs) -> Proper reg ref (VMap m) -> In (k, v) m -> In (k, c) fs ->
  Proper reg (vf_layout (it_value (f_item (field_of c)))) v.
Proof.
  intros E HP Hm Hc. unfold record_layout in E. inversion HP as [? ? HL|? ? ? E1|? ? ? ? E1 S1 H1| | | |? ? ? ? ? ? ? ? E1]; subst.
  - unfold leaf in HL. rewrite E in HL. contradiction.
  - congruence.
  - rewrite E in E1. injection E1 as <- <-. eapply H1; [exact Hm|]. apply fields_In. eauto.
  - unfold tagged_layout in E1. congruence.
Qed.

Lemma describes_cases r : describes_node reg r ->
  (exists pat, reg r = Some (IdL (about []) (PVar 0) pat)) \/ ~ leaf reg r.
Proof.
  intros [(h & p & pat & E)|H].
  - left. exists pat. assert (T := E). apply TR in T. inversion T; subst. exact E.
  - right. revert H. unfold node_layout, leaf. destruct (reg r) as [l|]; [|contradiction].
    destruct l; try contradiction; auto. now intros ->.
Qed.

Lemma entries_ran g s fs : (forall k r, In (k, Own r) fs -> describes_node reg r) -> forall m st st',
  (forall k v c, In (k, v) m -> In (k, c) fs -> Proper reg (vf_layout (it_value (f_item (field_of c)))) v) ->
  outside (count st) s ->
  dehydrate_entries ops rec g (node_env s) (fields_of fs) m st = (Ok tt, st') ->
  exists hi Q ids nodes kids, WE reg (assigned st') (count st) hi s fs m Q ids nodes kids /\
    post (count st) hi s Q ids (s :: nodes) st st'.
Proof.
  intro HD. induction m as [|[k v] m IH]; intros st st' HP OS H; cbn [dehydrate_entries] in H.
  - apply ret_Ok in H as [_ <-]. exists (count st), [], [], [], []. split; [constructor|].
    split; [reflexivity|simpl; tauto|]. apply news_same. reflexivity.
  - destruct (bt_get k (fields_of fs)) as [f|] eqn:EG; [|discriminate].
    apply bt_get_In in EG. apply fields_In in EG as (c & Hc & ->).
    assert (HPc := HP k v c ltac:(now left) Hc).
    apply bindM_Ok in H as (e & st1 & H1 & H). apply bindM_Ok in H as ([] & st2 & H2 & H).
    destruct c as [r|p b r]; cbn [field_of f_item it_value vf_layout same_node linked] in HPc.
    + cbn [field_of f_item same_node it_intro it_dataset] in H1. unfold open, env_intro, bindM in H1. cbn in H1.
      injection H1 as <- <-.
      change (rec v g r [s] st = (Ok tt, st2)) in H2.
      destruct (describes_cases r (HD k r Hc)) as [[pat E]|NL].
      * destruct (rec_id _ _ _ _ _ _ _ E H2) as (x & -> & ->). destruct st as [i o].
        apply IH in H; [|intros; eapply HP; [right; eassumption|assumption]|exact OS].
        destruct H as (hi & Q & ids & nodes & kids & HW & [P1 P2 P3]). cbn in HW, P1, P2, P3.
        exists hi, Q, ((s, x) :: ids), nodes, kids. cbn. split.
        -- eapply WE_id; [exact Hc|exact E| |exact HW]. apply (proj1 P3). apply (assigned_iri s x i o o). auto.
        -- split; [exact P1|exact P2|]. change ((s, x) :: ids) with ([(s, x)] ++ ids).
           eapply news_seq; [eapply (assign_news s (TmIri x) _ _ (fun r => r = s \/ In r nodes))|exact P3| | | |].
           ++ intros r0 u. apply (assigned_iri s x i o o).
           ++ intros _. exists x. split; [reflexivity|now left].
           ++ intros r0 Hr. exact Hr.
           ++ auto.
           ++ cbn. intros r0 _ [<-|Hr]; auto.
           ++ auto.
      * assert (OS2 : outside (count st) s) by exact OS.
        apply rec_ran in H2; [|exact HPc|exact OS]. destruct H2 as (n1 & Q1 & ids1 & nodes1 & W1 & P1).
        pose proof (po_count _ _ _ _ _ _ _ _ P1) as C1.
        pose proof (proj1 (Wrote_bounds reg _) _ _ _ _ _ _ _ _ W1) as B1.
        apply IH in H; [|intros; eapply HP; [right; eassumption|assumption]|rewrite C1; eapply outside_weak; [exact OS|apply B1]].
        destruct H as (n' & Q2 & ids2 & nodes2 & kids & W2 & P2). rewrite C1 in W2, P2.
        pose proof (proj1 (proj1 (proj2 (Wrote_bounds reg _)) _ _ _ _ _ _ _ _ _ W2)) as B2.
        exists n', (Q1 ++ Q2), (ids1 ++ ids2), (nodes1 ++ nodes2), kids. split.
        -- eapply WE_own; [exact Hc|exact NL| |exact W2].
           eapply (proj1 (Wrote_mono reg _ _ (proj1 (po_news _ _ _ _ _ _ _ _ P2)))). exact W1.
        -- eapply post_own; try eassumption. eapply Wrote_node; eassumption.
    + cbn [field_of f_item] in H1, H2.
      assert (H12 : bindM (open ops (node_env s) (it_intro (linked p r)) (it_dataset (linked p r)))
        (fun e => dehydrate_sub_value ops rec v g (it_value (linked p r)) e) st = (Ok tt, st2)).
      { apply bindM_Ok. exists e, st1. auto. }
      apply linked_run in H12; [|exact HPc]. destruct H12 as (n1 & Q1 & ids1 & nodes1 & W1 & P1 & L1).
      pose proof (po_count _ _ _ _ _ _ _ _ P1) as C1.
      pose proof (proj1 (Wrote_bounds reg _) _ _ _ _ _ _ _ _ W1) as B1.
      apply IH in H; [|intros; eapply HP; [right; eassumption|assumption]|rewrite C1; eapply outside_weak; [exact OS|lia]].
      destruct H as (n' & Q2 & ids2 & nodes2 & kids & W2 & P2). rewrite C1 in W2, P2.
      pose proof (proj1 (proj1 (proj2 (Wrote_bounds reg _)) _ _ _ _ _ _ _ _ _ W2)) as B2.
      exists n', (triple s p (RAnon (count st)) :: Q1 ++ Q2), (ids1 ++ ids2), (nodes1 ++ nodes2), ((k, RAnon (count st)) :: kids). split.
      * eapply WE_link; [exact Hc| |exact W2].
        eapply (proj1 (Wrote_mono reg _ _ (proj1 (po_news _ _ _ _ _ _ _ _ P2)))). exact W1.
      * eapply post_linked; eassumption.
Qed.

(** Items of tuples and of sets: [linked] components, given as a list. *)
Lemma links_ran g s (P : term * term -> Prop) l : forall its st st' (K : list (term * term) -> list value -> M (Q := term) (S := res) (I := input_interp) unit),
  (forall st st', K [] [] st = (Ok tt, st') -> st' = st) ->
  (forall p r its v l st st', P (p, r) -> K ((p, r) :: its) (v :: l) st = (Ok tt, st') ->
     exists st1, bindM (open ops (node_env s) (it_intro (linked p r)) (it_dataset (linked p r)))
       (fun e => dehydrate_sub_value ops rec v g (it_value (linked p r)) e) st = (Ok tt, st1) /\
     K its l st1 = (Ok tt, st')) ->
  Forall P its -> length its = length l ->
  (forall i r v, nth_error (map snd its) i = Some r -> nth_error l i = Some v -> Proper reg r v) ->
  outside (count st) s ->
  K its l st = (Ok tt, st') ->
  exists hi Q ids nodes cs, WT reg (assigned st') (count st) hi s its l Q ids nodes cs /\
    post (count st) hi s Q ids (s :: nodes) st st'.
Proof.
  induction l as [|v l IH]; intros its st st' K K0 K1 HF HL HP OS H.
  - destruct its; [|discriminate]. apply K0 in H as ->. exists (count st), [], [], [], []. split; [constructor|].
    split; [reflexivity|simpl; tauto|]. apply news_same. reflexivity.
  - destruct its as [|[p r] its]; [discriminate|]. inversion HF as [|? ? HF1 HF2]; subst. apply K1 in H as (st1 & H1 & H); [|exact HF1].
    apply linked_run in H1; [|apply (HP 0); reflexivity]. destruct H1 as (n1 & Q1 & ids1 & nodes1 & W1 & P1 & L1).
    pose proof (po_count _ _ _ _ _ _ _ _ P1) as C1.
    pose proof (proj1 (Wrote_bounds reg _) _ _ _ _ _ _ _ _ W1) as B1.
    apply IH in H; [|exact K0|exact K1|exact HF2|simpl in HL; lia|intros i; apply (HP (S i))|rewrite C1; eapply outside_weak; [exact OS|lia]].
    destruct H as (n' & Q2 & ids2 & nodes2 & cs & W2 & P2). rewrite C1 in W2, P2.
    pose proof (proj1 (proj1 (proj2 (proj2 (Wrote_bounds reg _))) _ _ _ _ _ _ _ _ _ W2)) as B2.
    exists n', (triple s p (RAnon (count st)) :: Q1 ++ Q2), (ids1 ++ ids2), (nodes1 ++ nodes2), (RAnon (count st) :: cs). split.
    + eapply WT_cons; [|exact W2].
      eapply (proj1 (Wrote_mono reg _ _ (proj1 (po_news _ _ _ _ _ _ _ _ P2)))). exact W1.
    + eapply post_linked; eassumption.
Qed.

Lemma nodes_ran g s first rest nil r l : forall head st st',
  l <> [] -> (forall v, In v l -> Proper reg r v) -> outside (count st) head ->
  dehydrate_nodes ops rec g (node_env s) (cell first rest r) (PRes nil) head l st = (Ok tt, st') ->
  exists hi Q ids nodes, WN reg (assigned st') (count st) hi first rest nil r head l Q ids nodes /\
    post (count st) hi head Q ids nodes st st'.
Proof.
  induction l as [|v l IH]; intros head st st' NE HP OS H; [congruence|]. clear NE. cbn [dehydrate_nodes] in H.
  apply bindM_Ok in H as (next & st0 & H0 & H). apply bindM_Ok in H as (e & st1 & H1 & H).
  apply bindM_Ok in H as ([] & st2 & H2 & H).
  assert (OS' : forall i, head = RAnon i -> count st <= i -> False) by (intros i -> Hi; apply (OS (S i)); exists i; auto).
  apply open_cell in H1 as (-> & HI & HO).
  change (rec v g r [RAnon (count st0)] st1 = (Ok tt, st2)) in H2.
  apply rec_ran in H2; [|apply HP; now left|apply outside_anon; rewrite HI; simpl; lia].
  destruct H2 as (n1 & Q1 & ids1 & nodes1 & W1 & [C1 O1 N1]).
  rewrite HI in W1, N1. cbn [ii_anonymous_count] in W1, N1.
  pose proof (proj1 (Wrote_bounds reg _) _ _ _ _ _ _ _ _ W1) as B1. assert (L1 := proj1 B1).
  assert (A1 : forall r t, assigned st1 r t <-> assigned st0 r t) by (intros; unfold assigned; now rewrite HI).
  destruct l as [|v' l].
  - apply lift_Ok in H0 as [[= <-] <-]. apply ret_Ok in H as [_ <-].
    exists n1, (triple head first (RAnon (count st)) :: triple head rest (RTerm nil) :: Q1), ids1, (head :: nodes1).
    split; [constructor; exact W1|]. split; [exact C1| |].
    + intro q. rewrite O1, HO. simpl. intuition.
    + destruct N1 as [NO NN]. split; [intros; apply NO, A1; assumption|]. intros r0 t H0.
      apply NN in H0 as [H0|[HT HN]]; [left; now apply A1|]. right. split; [terr|].
      intros [<-|Hr]; [|auto]. off.
  - unfold new_resourceM in H0. cbn in H0. injection H0 as <- <-. cbn [ds_interp ds_output ii_anonymous_count ii_map] in *.
    apply IH in H; [|discriminate|intros; apply HP; now right|rewrite C1; apply outside_anon; lia].
    destruct H as (n' & Q2 & ids2 & nodes2 & W2 & P2). rewrite C1 in W2, P2.
    pose proof (proj2 (proj2 (proj2 (Wrote_bounds reg _))) _ _ _ _ _ _ _ _ _ _ _ W2) as B2. assert (L2 := proj1 B2).
    pose proof (WN_head _ _ _ _ _ _ _ _ _ _ _ _ _ W2) as HH.
    destruct P2 as [C2 O2 N2].
    eexists n', _, (ids1 ++ ids2), (head :: nodes1 ++ nodes2). split.
    + eapply WN_cons; [discriminate| |exact W2].
      eapply (proj1 (Wrote_mono reg _ _ (proj1 N2))). exact W1.
    + split; [exact C2| |].
      * intro q. rewrite O2, O1, HO. simpl. rewrite in_app_iff. intuition.
      * assert (N1' : news (territory (S (S (count st))) n1 (RAnon (S (count st)))) (fun r => In r nodes1) ids1 st st2).
        { destruct N1 as [NO NN]. split; [intros; apply NO, A1; assumption|]. intros r0 t H0.
          apply NN in H0 as [H0|H0]; [left; now apply A1 in H0|now right]. }
        eapply news_seq; [exact N1'|exact N2| | | |]; cbn beta.
        -- terr.
        -- terr.
        -- intros r0 HT [<-|Hr]; [off|].
           apply in_app_iff in Hr as [Hr|Hr]; [exact Hr|]. apply (bounds_nodes _ _ _ _ _ _ B2) in Hr. off.
        -- intros r0 HT [<-|Hr]; [off|].
           apply in_app_iff in Hr as [Hr|Hr]; [|exact Hr]. apply (bounds_nodes _ _ _ _ _ _ B1) in Hr. off.
Qed.

(** ** The layouts *)
Lemma tagged_proper r v ps p vs : reg r = Some (tagged_layout ps p vs) -> vs <> [] -> Proper reg r v ->
  exists n tag r', In (n, (tag, r')) vs /\ Proper reg r' v /\
    (forall n1 tag1 r1, In (n1, (tag1, r1)) vs -> tag1 <> tag -> Refuses reg r1 v).
Proof.
  intros E NE HP. inversion HP as [? ? HL|? ? ? E1|? ? ? ? E1|? ? ? ? E1|? ? ? ? E1|? ? ? ? ? ? E1|? ? ? ? ? ? ? ? E1 Hn HP1 HR]; subst;
    try (unfold tagged_layout in E; congruence).
  - exfalso. unfold leaf in HL. rewrite E in HL. destruct vs as [|[n [t r']] vs]; [congruence|discriminate].
  - rewrite E in E1. assert (E2 : tagged_layout ps p vs = tagged_layout ps0 p0 vs0) by congruence. apply tagged_inj in E2 as (_ & <- & <-); [|exact NE]. eauto 6.
Qed.

Lemma check_required_Ok ref m : forall fs st st',
  check_required (S := res) (I := input_interp) ref m (fields_of fs) st = (Ok tt, st') ->
  st' = st /\ (forall k c, In (k, c) fs -> f_required (field_of c) = true -> In k (map fst m)).
Proof.
  induction fs as [|[k c] fs IH]; intros st st' H.
  - apply ret_Ok in H as [_ <-]. split; [reflexivity|intros ? ? []].
  - cbn [fields_of map check_required fst snd] in H. fold (fields_of fs) in H.
    destruct (f_required (field_of c)) eqn:ER.
    + destruct (bt_get k m) as [v|] eqn:EG; [|discriminate]. cbn [andb] in H. apply IH in H as [-> H]. split; [reflexivity|].
      intros k' c' [[= <- <-]|H'] E'; [|eauto]. apply bt_get_In in EG. apply in_map_iff. exists (k, v). auto.
    + cbn [andb] in H. apply IH in H as [-> H]. split; [reflexivity|].
      intros k' c' [[= <- <-]|H'] E'; [congruence|eauto].
Qed.

Lemma layout_ran v g r l s st st' :
  reg r = Some l -> Proper reg r v -> outside (count st) s ->
  dehydrate_layout ops rec v g r l [s] st = (Ok tt, st') ->
  leaf reg r \/ ran v r s st st'.
Proof.
  intros E HP OS H. assert (T := TR _ _ E). unfold leaf. rewrite E.
  destruct T as [k ty T1|pat|vs tys T1 T2|ps c|ps fs T1 T2 T3 T4|ps its T1 T2|ps p r' T1|ps first rest nil r' T1 T2 T3|ps p vs T0 T1 T2 T3 T4]; try (left; exact I).
  { left. unfold untagged. apply forallb_forall. intros x Hx. apply in_map_iff in Hx as (y & <- & _). reflexivity. }
  all: right.
  - unfold dehydrate_layout in H. destruct (eqb v c) eqn:EV; [|discriminate].
    assert (v = c) as -> by (destruct (eqb_spec v c); [assumption|discriminate]).
    apply bindM_Ok in H as (e & st1 & H1 & H). apply ret_Ok in H as [_ <-].
    apply open_about in H1 as (-> & EI & EO).
    exists (count st), (said s ps), [], [s]. split; [constructor; exact E|]. split; [now rewrite EI|exact EO|].
    apply news_same. now rewrite EI.
  - unfold record_layout in *. unfold dehydrate_layout in H. destruct v as [|m|]; try discriminate.
    apply bindM_Ok in H as (e & st1 & H1 & H). apply open_about in H1 as (-> & EI & EO).
    apply bindM_Ok in H as ([] & st2 & H2 & H). apply check_required_Ok in H as [-> HR].
    apply entries_ran in H2; [|assumption| |rewrite EI; exact OS].
    2: { intros k v c Hm Hc. eapply proper_entry; eassumption. }
    rewrite EI in H2. destruct H2 as (hi & Q & ids & nodes & kids & HW & HPo).
    exists hi, (said s ps ++ Q), ids, (s :: nodes). split.
    + eapply W_record; [exact E|exact HW| |].
      * intros k r0 Hk. eapply HR; [exact Hk|reflexivity].
      * intros k p r0 Hk. eapply HR; [exact Hk|reflexivity].
    + eapply post_start; eassumption.
  - unfold tuple_layout in *. unfold dehydrate_layout in H. destruct v as [| |l]; try discriminate.
    apply bindM_Ok in H as (e & st1 & H1 & H). apply open_about in H1 as (-> & EI & EO).
    assert (HP' : forall i r v, nth_error (map snd its) i = Some r -> nth_error l i = Some v -> Proper reg r v).
    { inversion HP as [? ? HL|? ? ? E1| |? ? ? ? E1 Hc| | |? ? ? ? ? ? ? ? E1]; subst; try (unfold tagged_layout in *; congruence).
      { unfold leaf in HL. rewrite E in HL. contradiction. }
      rewrite E in E1. injection E1 as <- <-. intros i r0 v0 Hi Hv.
      rewrite nth_error_map in Hi. destruct (nth_error its i) as [[p r1]|] eqn:EI1; [|discriminate]. injection Hi as <-.
      apply (Hc i (linked p r1)); [|exact Hv]. rewrite nth_error_map, EI1. reflexivity. }
    assert (HL : forall its l st st', dehydrate_tuple ops rec g (node_env s)
        (map (fun pr : term * term => linked (fst pr) (snd pr)) its) l st = (Ok tt, st') -> length its = length l).
    { clear. induction its as [|[p r] its IH]; intros [|v l] st st' H; try discriminate; [reflexivity|].
      cbn [map dehydrate_tuple] in H. apply bindM_Ok in H as (e & st1 & _ & H). apply bindM_Ok in H as (u & st2 & _ & H).
      simpl. f_equal. eauto. }
    apply (links_ran g s (fun _ => True) l its st1 st' (fun its l => dehydrate_tuple ops rec g (node_env s)
        (map (fun pr : term * term => linked (fst pr) (snd pr)) its) l)) in H.
    + rewrite EI in H. destruct H as (hi & Q & ids & nodes & cs & HW & HPo).
      exists hi, (said s ps ++ Q), ids, (s :: nodes). split; [eapply W_tuple; eassumption|].
      eapply post_start; eassumption.
    + intros st0 st0' H0. now apply ret_Ok in H0 as [_ <-].
    + intros p r0 its0 v0 l0 st0 st0' _ H0. cbn [map dehydrate_tuple fst snd] in H0.
      apply bindM_Ok in H0 as (e & st2 & H1 & H0). apply bindM_Ok in H0 as ([] & st3 & H2 & H0).
      exists st3. split; [|exact H0]. apply bindM_Ok. exists e, st2. auto.
    + apply Forall_forall. auto.
    + eapply HL. exact H.
    + exact HP'.
    + rewrite EI. exact OS.
  - unfold set_layout in *. unfold dehydrate_layout in H. destruct v as [| |l]; try discriminate.
    apply bindM_Ok in H as (e & st1 & H1 & H). apply open_about in H1 as (-> & EI & EO).
    assert (HP' : forall i r v, nth_error (map snd (repeat (p, r') (length l))) i = Some r -> nth_error l i = Some v -> Proper reg r v).
    { inversion HP as [? ? HL|? ? ? E1| | |? ? ? ? E1 Hc| |? ? ? ? ? ? ? ? E1]; subst; try (unfold tagged_layout in *; congruence).
      { unfold leaf in HL. rewrite E in HL. contradiction. }
      rewrite E in E1. injection E1 as <- <-. intros i r0 v0 Hi Hv.
      apply nth_error_In in Hi, Hv. apply in_map_iff in Hi as ([p1 r1] & <- & Hi). apply repeat_spec in Hi as [= -> ->].
      apply (Hc v0 Hv). }
    apply (links_ran g s (eq (p, r')) l (repeat (p, r') (length l)) st1 st'
        (fun _ l => dehydrate_items ops rec g (node_env s) (linked p r') l)) in H.
    + rewrite EI in H. destruct H as (hi & Q & ids & nodes & cs & HW & HPo).
      exists hi, (said s ps ++ Q), ids, (s :: nodes). split; [eapply W_set; eassumption|].
      eapply post_start; eassumption.
    + intros st0 st0' H0. now apply ret_Ok in H0 as [_ <-].
    + intros p0 r0 its0 v0 l0 st0 st0' [= <- <-] H0. cbn [dehydrate_items] in H0.
      apply bindM_Ok in H0 as (e & st2 & H1 & H0). apply bindM_Ok in H0 as ([] & st3 & H2 & H0).
      exists st3. split; [|exact H0]. apply bindM_Ok. exists e, st2. auto.
    + apply Forall_forall. intros x Hx. symmetry. eapply repeat_spec, Hx.
    + apply repeat_length.
    + exact HP'.
    + rewrite EI. exact OS.
  - unfold list_layout in *. unfold dehydrate_layout in H. destruct v as [| |l]; try discriminate.
    apply bindM_Ok in H as (e & st1 & H1 & H). apply open_about in H1 as (-> & EI & EO).
    apply bindM_Ok in H as (hd & st2 & H1 & H). apply lift_Ok in H1 as [[= <-] <-].
    inversion HP as [? ? HL|? ? ? E1| | | |? ? ? ? ? ? E1 Hc NE|? ? ? ? ? ? ? ? E1]; subst; try (unfold tagged_layout in *; congruence).
    { unfold leaf in HL. rewrite E in HL. contradiction. }
    rewrite E in E1. injection E1 as <- <- <- <-. cbn [cell it_value vf_layout] in Hc.
    apply nodes_ran in H; [|exact NE|exact Hc|rewrite EI; exact OS].
    rewrite EI in H. destruct H as (hi & Q & ids & nodes & HW & HPo).
    exists hi, (said s ps ++ Q), ids, nodes. split; [eapply W_list; eassumption|].
    eapply post_start; eassumption.
  - destruct (tagged_proper _ _ _ _ _ E T0 HP) as (n & tag & r1 & Hn & HP1 & HR).
    unfold tagged_layout in H. cbn [dehydrate_layout about h_intro h_dataset] in H.
    apply bindM_Ok in H as (e & st1 & H1 & H). apply open_about in H1 as (-> & EI & EO).
    apply bindM_Ok in H as (sel & st2 & H2 & H). fold (variants_of p vs) in H2.
    eapply tagged_run in H2; [|exact T1|exact Hn|intros; apply rec_refuses; eapply HR; eassumption].
    destruct H2 as [-> |[-> H2]]; [discriminate|].
    apply rec_ran in H2; [|exact HP1|rewrite EI; exact OS]. destruct H2 as (hi & Q & ids & nodes & HW & HPo). rewrite EI in HW, HPo.
    assert (E3 : ds_interp st' = ds_interp st2 /\ forall q, In q (ds_output st') <-> In q (ds_output st2) \/ q = triple s p (RTerm tag)).
    { destruct st2 as [i2 o2]. unfold emit in H. cbn [ds_interp ds_output] in H. injection H as <-. cbn [ds_interp ds_output]. split; [reflexivity|].
      intro q. etransitivity; [apply (ds_insert_all_In [triple s p (RTerm tag)] o2 q)|]. cbn [In]. intuition congruence. }
    destruct E3 as [EI3 EO3].
    assert (SA : forall r t, assigned st' r t <-> assigned st2 r t) by (intros; unfold assigned; now rewrite EI3).
    exists hi, (said s ((p, tag) :: ps) ++ Q), ids, nodes. split.
    + eapply W_tagged; [exact E|exact Hn|apply node_not_leaf; eapply T4; exact Hn|exact HP1|].
      eapply (proj1 (Wrote_mono reg _ _ (fun r t => proj2 (SA r t)))). exact HW.
    + eapply (post_start s ps) in HPo; [|exact EI|exact EO]. destruct HPo as [C O1 N1]. split; [now rewrite EI3| |].
      * intro q. rewrite EO3, O1. cbn [said map fst snd]. fold (said s ps). cbn [app In]. intuition.
      * destruct N1 as [NO NN]. split; [intros; apply SA, NO; assumption|]. intros r0 t H0. apply NN, SA, H0.
Qed.
End Loops.

Theorem dehydrate_ran : forall fuel v g r s st st',
  Proper reg r v -> outside (count st) s ->
  dehydrate_with ops reg fuel v g r [s] st = (Ok tt, st') -> ran v r s st st'.
Proof.
  induction fuel as [|fuel IH]; intros v g r s st st' HP OS H; [discriminate|].
  assert (HB := H). cbn [dehydrate_with] in HB. unfold dehydrate_body in HB.
  destruct (reg r) as [l|] eqn:E; [|discriminate].
  assert (HL : dehydrate_layout ops (dehydrate_with ops reg fuel) v g r l [s] st = (Ok tt, st')).
  { destruct (input_count l) as [n|]; [|exact HB]. destruct (Nat.eqb n (length [s])); [exact HB|discriminate]. }
  clear HB. destruct (layout_ran (dehydrate_with ops reg fuel) IH (id_run fuel) (fun v r H => refuses_fails r v H fuel) v g r l s st st' E HP OS HL) as [Lf|R]; [|exact R].
  unfold leaf in Lf. rewrite E in Lf. assert (T := TR _ _ E).
  destruct T as [k ty T1|pat|vs tys HF ND|ps c|ps fs T1 T2 T3 T4|ps its T1 T2|ps p r' T1|ps first rest nil r' T1 T2 T3|ps p vs T0 T1 T2 T3 T4]; try contradiction.
  4: { exfalso. destruct vs as [|[n [t r']] vs]; [congruence|discriminate]. }
  - eapply data_ran; eassumption.
  - destruct (id_run _ _ _ _ _ _ _ _ E H) as (x & -> & ->). destruct st as [i o].
    apply (leaf_ran _ _ _ (TmIri x)); [eapply lt_id; exact E|reflexivity|reflexivity|intros; apply assigned_iri].
  - unfold choice_layout in HL. unfold dehydrate_layout in HL.
    apply bindM_Ok in HL as (e & st1 & H1 & HL).
    assert (e = node_env s /\ st1 = st) as [-> ->].
    { destruct st as [[mp c] out]. unfold open, env_intro, about in H1. cbn in H1. injection H1 as <- <-. auto. }
    clear H1. apply bindM_Ok in HL as (sel & st1 & H1 & HL). eapply choice_run in H1; [|exact HF].
    destruct H1 as [[-> ->]|(_ & -> & n & r1 & k & ty & Hn & Ek & H1)]; [discriminate|].
    assert (st' = st1) as -> .
    { destruct st1 as [i o]. unfold emit in HL. cbn in HL. injection HL as <-. reflexivity. }
    destruct (data_run _ _ _ _ _ _ _ _ _ _ Ek H1) as (x & t & -> & LF & ->). destruct st as [i o].
    apply (leaf_ran _ _ _ (TmLit t)); [|reflexivity|reflexivity|intros; apply assigned_literal].
    eapply lt_choice; [exact E|exact Hn|]. eapply lt_data; [exact Ek|]. eapply literal_form_mono; [|exact LF].
    intros ty' [F|F]; [now left|right]. apply (assigned_literal s t i o o). now right.
Qed.

End Run.
